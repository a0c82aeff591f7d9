(** Proofs about lists of terms over updates. *)
From Coq Require Import Sorted Permutation ZifyBool.
From Verif Require Import TermModel ItrSpec TermSpec.
Local Open Scope Z_scope.

Notation tl := (list (Z * Z)) (only parsing).

Lemma ct_has sf s : hasNext (ct_obj sf s) = match ct_hasNext sf s with Some (b, s') => Some (b, ct_obj sf s') | None => None end.
Proof. reflexivity. Qed.
Lemma ct_nx sf s : next (ct_obj sf s) = match ct_next sf s with Some s' => Some (ct_obj sf s') | None => None end.
Proof. reflexivity. Qed.
Lemma ct_gc sf s : getCount (ct_obj sf s) = match ct_count s with Some (n, s') => Some (n, ct_obj sf s') | None => None end.
Proof. reflexivity. Qed.

(** [o] stands on the key and count [x], and [t] is left. *)
Definition On (x : Z * Z) (t : tl) (o : pitr) : Prop :=
  forall o3, counts o o3 -> key o3 = fst x /\ (exists o4, getCount o3 = Some (snd x, o4)) /\ Terms t o3.

Lemma counts_trans a b c : counts a b -> counts b c -> counts a c.
Proof. intros H1 H2. induction H2; [exact H1|]. eapply counts_step; eauto. Qed.
Lemma polls_trans a b c : polls a b -> polls b c -> polls a c.
Proof. intros H1 H2. induction H2; [exact H1|]. eapply polls_step; eauto. Qed.
Lemma on_count x t o c o' : On x t o -> getCount o = Some (c, o') -> c = snd x /\ On x t o'.
Proof.
  intros H E. destruct (H o (counts_refl o)) as (_ & (o4 & E') & _). rewrite E in E'. injection E' as -> ->. split; [reflexivity|].
  intros o3 H3. apply H. eapply counts_trans; [|exact H3]. eapply counts_step; [constructor|exact E].
Qed.
Lemma on_key x t o : On x t o -> key o = fst x.
Proof. intros H. apply (H o (counts_refl o)). Qed.
Lemma on_terms x t o : On x t o -> Terms t o.
Proof. intros H. apply (H o (counts_refl o)). Qed.
Lemma terms_has l o : Terms l o -> exists o1, hasNext o = Some (nonempty l, o1) /\ key o1 = key o /\ Terms l o1 /\
  match l with [] => True | x :: t => exists o2, next o1 = Some o2 /\ On x t o2 end.
Proof.
  intros H. assert (H' : forall o', polls o o' -> exists o1, hasNext o' = Some (nonempty l, o1) /\ key o1 = key o' /\ match l with [] => True | (k, c) :: t => exists o2, next o1 = Some o2 /\ forall o3, counts o2 o3 -> key o3 = k /\ (exists o4, getCount o3 = Some (c, o4)) /\ Terms t o3 end) by (destruct l; exact H).
  destruct (H' o (polls_refl o)) as (o1 & E & K & M). exists o1. split; [exact E|split; [exact K|split]].
  - assert (P : polls o o1) by (eapply polls_step; [constructor|exact E]). destruct l; intros o' HP; apply H'; eapply polls_trans; eauto.
  - destruct l as [|[k c] t]; [exact I|]. exact M.
Qed.
(** To prove [Terms]: a state that answers hasNext with itself. *)
Lemma terms_intro l o o1 : hasNext o = Some (nonempty l, o1) -> key o1 = key o -> hasNext o1 = Some (nonempty l, o1) ->
  match l with [] => True | x :: t => exists o2, next o1 = Some o2 /\ On x t o2 end -> Terms l o.
Proof.
  intros E K E1 M. assert (HP : forall o', polls o o' -> o' = o \/ o' = o1). { intros o' H. induction H as [|a b c H IH E']; [auto|]. destruct IH as [-> | ->]; [rewrite E in E'|rewrite E1 in E']; injection E' as _ <-; auto. }
  assert (G : forall o', polls o o' -> exists o1, hasNext o' = Some (nonempty l, o1) /\ key o1 = key o' /\ match l with [] => True | x :: t => exists o2, next o1 = Some o2 /\ On x t o2 end).
  { intros o' H. destruct (HP o' H) as [-> | ->]; exists o1; auto. }
  destruct l as [|[k c] t]; exact G.
Qed.

(** ** Counts *)
Lemma cnt_app k a b : cnt k (a ++ b) = cnt k a + cnt k b.
Proof. induction a as [|[k' c] a IH]; cbn; [reflexivity|]. rewrite IH. lia. Qed.
Lemma cnt_nonneg k l : Forall (fun x => 0 < snd x) l -> 0 <= cnt k l.
Proof. induction 1 as [|[k' c] l H _ IH]; cbn in *; [lia|]. destruct (k' =? k); lia. Qed.
Lemma cnt_in k l : Forall (fun x => 0 < snd x) l -> (0 < cnt k l <-> exists c, In (k, c) l).
Proof.
  induction 1 as [|[k' c] l H F IH]; cbn in *; [split; [lia|intros (? & [])]|]. pose proof (cnt_nonneg k l F). destruct (Z.eqb_spec k' k) as [->|N].
  - split; [intros _; exists c; now left|lia].
  - rewrite Z.add_0_l, IH. split; intros (c' & Hc); exists c'; [now right|]. destruct Hc as [E|Hc]; [congruence|auto].
Qed.
Lemma tl_cons x l : term_list (x :: l) -> term_list l /\ 0 < snd x /\ (forall y, In y l -> fst x < fst y).
Proof. intros [S P]. inversion S as [|? ? S' F]. inversion P. subst. rewrite Forall_forall in F. repeat split; auto. Qed.
Lemma tl_mk x l : term_list l -> 0 < snd x -> (forall y, In y l -> fst x < fst y) -> term_list (x :: l).
Proof. intros [S P] Hx H. split; constructor; auto. now apply Forall_forall. Qed.
Lemma cnt_head k c l : term_list ((k, c) :: l) -> cnt k ((k, c) :: l) = c /\ cnt k l = 0.
Proof.
  intros H. apply tl_cons in H as (T & _ & F). assert (E : cnt k l = 0). { destruct T as [_ P]. pose proof (cnt_nonneg k l P). destruct (Z.eq_dec (cnt k l) 0); [auto|]. assert (Hp : 0 < cnt k l) by lia. apply (cnt_in k l P) in Hp as (c' & Hc). specialize (F _ Hc). cbn in F. lia. }
  cbn. rewrite Z.eqb_refl, E. lia.
Qed.

(** ** CompositeTermItr *)
Definition dat := ((Z * Z) * list (Z * Z))%type.
Definition dok (d : dat) : Prop := term_list (fst d :: snd d).
Definition DOn (d : dat) (o : pitr) : Prop := On (fst d) (snd d) o.
Fixpoint dsum (k : Z) (ds : list dat) : Z := match ds with [] => 0 | d :: ds => cnt k (fst d :: snd d) + dsum k ds end.
Fixpoint dlen (ds : list dat) : nat := match ds with [] => O | d :: ds => (S (length (snd d)) + dlen ds)%nat end.
(** What the children that stand on [k] leave. *)
Definition dstep (k : Z) (ds : list dat) : list dat :=
  flat_map (fun d => if fst (fst d) =? k then match snd d with [] => [] | x :: t => [(x, t)] end else [d]) ds.
Definition dhead (k : Z) (ds : list dat) : Z := fold_right (fun d n => (if fst (fst d) =? k then snd (fst d) else 0) + n) 0 ds.

Lemma perm_f2 {A B} (R : A -> B -> Prop) : forall l l', Permutation l l' -> forall d, Forall2 R d l -> exists d', Permutation d d' /\ Forall2 R d' l'.
Proof.
  intros l l' H. induction H as [|x l m H IH|x y l|l m k H1 IH1 H2 IH2]; intros d F.
  - inversion F. subst. exists []. auto.
  - inversion F as [|a ? d0 ? Ha F0]. subst. destruct (IH d0 F0) as (d' & P & F'). exists (a :: d'). split; [now constructor|now constructor].
  - inversion F as [|a ? d0 ? Ha F0]. subst. inversion F0 as [|b ? d1 ? Hb F1]. subst. exists (b :: a :: d1). split; [apply perm_swap|now repeat constructor].
  - destruct (IH1 d F) as (d1 & P1 & F1). destruct (IH2 d1 F1) as (d2 & P2 & F2). exists d2. split; [etransitivity; eauto|auto].
Qed.
Lemma dsum_perm k a b : Permutation a b -> dsum k a = dsum k b.
Proof. induction 1; cbn in *; lia. Qed.
Lemma dlen_perm a b : Permutation a b -> dlen a = dlen b.
Proof. induction 1; cbn in *; lia. Qed.

Lemma dstep_len k ds : (exists d, In d ds /\ fst (fst d) = k) -> (dlen (dstep k ds) < dlen ds)%nat.
Proof.
  assert (HL : forall ds, (dlen (dstep k ds) <= dlen ds)%nat). { clear. induction ds as [|d ds IH]; cbn; [lia|]. fold (dstep k ds). destruct (fst (fst d) =? k); [destruct (snd d) as [|x t]; cbn; lia|cbn; lia]. }
  intros (d & Hd & E). induction ds as [|d' ds IH]; [contradiction|]. cbn. fold (dstep k ds). specialize (HL ds). destruct Hd as [->|Hd].
  - rewrite E, Z.eqb_refl. destruct (snd d) as [|x t]; cbn; lia.
  - specialize (IH Hd). destruct (fst (fst d') =? k); [destruct (snd d') as [|x t]; cbn; lia|cbn; lia].
Qed.
Lemma dstep_sum k j ds : Forall dok ds -> Forall (fun d => k <= fst (fst d)) ds -> dsum j ds = (if k =? j then dhead k ds else 0) + dsum j (dstep k ds).
Proof.
  intros H HK. induction H as [|d ds Hd _ IH]; [cbn; destruct (k =? j); reflexivity|]. inversion HK as [|? ? Kd HK']. subst. specialize (IH HK').
  change (dsum j (d :: ds)) with (cnt j (fst d :: snd d) + dsum j ds). rewrite IH. destruct d as [[kd cd] td]. cbn [fst snd dhead fold_right dstep flat_map cnt] in *. fold (dstep k ds). fold (dhead k ds).
  assert (HA : forall a b, dsum j (a ++ b) = dsum j a + dsum j b) by (clear; induction a as [|d a IH]; intros b; cbn; [reflexivity|rewrite IH; lia]). rewrite HA.
  destruct (Z.eqb_spec kd k) as [->|N].
  - destruct td as [|[k1 c1] t]; cbn [app dsum fst snd cnt]; destruct (k =? j); lia.
  - cbn [dsum fst snd cnt]. destruct (Z.eqb_spec kd j), (Z.eqb_spec k j); lia.
Qed.
Lemma dstep_ok k ds : Forall dok ds -> Forall (fun d => k <= fst (fst d)) ds -> Forall dok (dstep k ds) /\ Forall (fun d => k < fst (fst d)) (dstep k ds).
Proof.
  intros H HK. induction H as [|d ds Hd _ IH]; [split; constructor|]. inversion HK as [|? ? Kd HK']. subst. specialize (IH HK') as [I1 I2]. destruct d as [[kd cd] td]. cbn [dstep flat_map fst snd] in *. fold (dstep k ds). split; apply Forall_app; split; auto.
  - destruct (Z.eqb_spec kd k); [|constructor; [exact Hd|constructor]]. destruct td as [|x t]; constructor; auto. apply tl_cons in Hd. apply Hd.
  - destruct (Z.eqb_spec kd k) as [->|]; [|constructor; [cbn; lia|constructor]]. destruct td as [|x t]; constructor; auto. apply tl_cons in Hd as (_ & _ & F). apply F. now left.
Qed.
Lemma dhead_pos k ds : Forall dok ds -> (exists d, In d ds /\ fst (fst d) = k) -> 0 < dhead k ds.
Proof.
  intros H. assert (HN : forall ds, Forall dok ds -> 0 <= dhead k ds). { clear. induction 1 as [|d ds Hd _ IH]; cbn; [lia|]. fold (dhead k ds). apply tl_cons in Hd as (_ & P & _). destruct (fst (fst d) =? k); lia. }
  intros (d & Hd & E). induction H as [|d' ds Hd' H IH]; [contradiction|]. cbn. fold (dhead k ds). specialize (HN ds H). apply tl_cons in Hd' as (_ & P & _). destruct Hd as [->|Hd]; [rewrite E, Z.eqb_refl; lia|]. specialize (IH Hd). destruct (fst (fst d') =? k); lia.
Qed.

Lemma step_on k : forall ds l, Forall2 DOn ds l -> exists l', ct_step k l = Some l' /\ Forall2 DOn (dstep k ds) l'.
Proof.
  intros ds l H. induction H as [|d o ds l Hd _ IH]; [exists []; split; [reflexivity|constructor]|]. destruct IH as (l' & E & F). cbn [ct_step dstep flat_map]. fold (dstep k ds). rewrite E. rewrite (on_key _ _ _ Hd).
  destruct (Z.eqb_spec (fst (fst d)) k).
  - destruct (terms_has _ _ (on_terms _ _ _ Hd)) as (o1 & E1 & _ & _ & M). rewrite E1. destruct (snd d) as [|x t]; cbn [nonempty].
    + exists l'. auto.
    + destruct M as (o2 & E2 & O2). rewrite E2. exists (o2 :: l'). split; [reflexivity|]. constructor; auto.
  - exists (o :: l'). split; [reflexivity|]. constructor; auto.
Qed.
Lemma sum_on k : forall ds l, Forall2 DOn ds l -> exists l', ct_sum k l = Some (dhead k ds, l') /\ Forall2 DOn ds l'.
Proof.
  intros ds l H. induction H as [|d o ds l Hd _ IH]; [exists []; split; [reflexivity|constructor]|]. destruct IH as (l' & E & F). cbn [ct_sum dhead fold_right]. fold (dhead k ds). rewrite E. rewrite (on_key _ _ _ Hd).
  destruct (Z.eqb_spec (fst (fst d)) k).
  - destruct (Hd o (counts_refl o)) as (_ & (o4 & E4) & _). rewrite E4. destruct (on_count _ _ _ _ _ Hd E4) as [_ H4]. exists (o4 :: l'). split; [f_equal; f_equal; lia|]. constructor; auto.
  - exists (o :: l'). split; [reflexivity|]. constructor; auto.
Qed.

Section Comp.
Variable sf : list pitr -> list pitr.
Hypothesis Sf : std_sort ct_gt sf.

Definition desc (l : list pitr) : Prop := StronglySorted (fun a b => key b <= key a) l.
Lemma sort_desc l : desc (ct_sort sf l) /\ Permutation (ct_sort sf l) l.
Proof.
  unfold ct_sort. destruct (Nat.ltb_spec 1 (length l)) as [H|H].
  - destruct (Sf l) as [P S]. split; [|exact P]. unfold desc. clear -S. induction S as [|a m S IH F]; constructor; auto. rewrite Forall_forall in F |- *. intros x Hx. specialize (F x Hx). unfold ct_gt in F. lia.
  - split; [|reflexivity]. destruct l as [|a [|b l]]; [constructor|repeat constructor|cbn in H; lia].
Qed.
(** A state whose children stand on their keys. *)
Record cinv (s : ct_st) (ds : list dat) : Prop := {
  ci_on : Forall2 DOn ds (ct_act s); ci_ok : Forall dok ds; ci_desc : desc (ct_act s) }.

Lemma last_min l b r : desc l -> rev l = b :: r -> Forall (fun o => key b <= key o) l.
Proof.
  intros D E. assert (El : l = rev r ++ [b]) by (rewrite <- (rev_involutive l), E; reflexivity). subst l. clear E. rewrite Forall_forall. intros o Ho. apply in_app_or in Ho as [Ho|[->|[]]]; [|lia].
  unfold desc in D. induction (rev r) as [|a m IH]; [contradiction|]. cbn in D. inversion D as [|? ? D' F]. subst. destruct Ho as [->|Ho]; [|auto]. rewrite Forall_forall in F. apply F. apply in_or_app. right. now left.
Qed.
Lemma back_data s ds b r : cinv s ds -> rev (ct_act s) = b :: r -> Forall (fun d => key b <= fst (fst d)) ds /\ exists d, In d ds /\ fst (fst d) = key b.
Proof.
  intros [O _ D] E. pose proof (last_min _ _ _ D E) as F. assert (Hb : In b (ct_act s)) by (apply in_rev; rewrite E; now left). clear D E. split.
  - clear Hb. induction O as [|d o ds l Hd _ IH]; constructor; inversion F; subst; [now rewrite <- (on_key _ _ _ Hd)|auto].
  - clear F. induction O as [|d o ds l Hd _ IH]; [contradiction|]. destruct Hb as [->|Hb]; [exists d; split; [now left|]; now rewrite (on_key _ _ _ Hd)|]. destruct (IH Hb) as (d' & Hd' & E). exists d'. split; [now right|auto].
Qed.
Lemma f2_nil ds (l : list pitr) : Forall2 DOn ds l -> (ds = [] <-> l = []).
Proof. intros H. inversion H; split; congruence. Qed.

(** hasNext after next. *)
Lemma has_step s ds b r : cinv s ds -> ct_hnc s = false -> rev (ct_act s) = b :: r ->
  exists s' ds', ct_hasNext sf s = Some (nonempty ds', s') /\ cinv s' ds' /\ Permutation (dstep (key b) ds) ds' /\ ct_hnc s' = true /\ ct_nc s' = nonempty ds' /\ ct_key s' = ct_key s.
Proof.
  intros I H E. destruct (back_data _ _ _ _ I E) as [HK _]. destruct I as [O K D]. unfold ct_hasNext. rewrite H, E. destruct (step_on (key b) _ _ O) as (l' & El & F). rewrite El. destruct (dstep_ok _ _ K HK) as [K' _].
  destruct l' as [|o l'].
  - assert (E0 : dstep (key b) ds = []) by (now apply (f2_nil _ _ F)). exists (mkCt [] true false (ct_key s)), []. rewrite E0. repeat split; auto; try constructor.
  - destruct (sort_desc (o :: l')) as [DS PS]. symmetry in PS. destruct (perm_f2 _ _ _ PS _ F) as (ds' & PD & F').
    assert (NE : nonempty ds' = true). { destruct ds'; [|reflexivity]. apply Permutation_sym, Permutation_nil in PD. rewrite PD in F. inversion F. }
    eexists _, ds'. rewrite NE. split; [reflexivity|]. split; [|repeat split; auto]. constructor; cbn [ct_act]; auto. rewrite Forall_forall in *. intros d Hd. apply K'. eapply Permutation_in; [symmetry; exact PD|exact Hd].
Qed.

(** The keys that are left. *)
Lemma comp_terms : forall n ds s, (dlen ds <= n)%nat -> cinv s ds -> ct_hnc s = true -> ct_nc s = nonempty ds ->
  exists R, Terms R (ct_obj sf s) /\ term_list R /\ forall k, cnt k R = dsum k ds.
Proof.
  induction n as [|n IH]; intros ds s Hn I Hh Hc.
  - assert (E : ds = []) by (destruct ds; [auto|cbn in Hn; lia]). subst ds. exists []. split; [|split; [split; constructor|reflexivity]].
    eapply (terms_intro [] _ (ct_obj sf s)); try exact Logic.I; try reflexivity; rewrite ct_has; unfold ct_hasNext; rewrite Hh, Hc; reflexivity.
  - destruct (rev (ct_act s)) as [|b r] eqn:Eb.
    + assert (E : ct_act s = []) by (rewrite <- (rev_involutive (ct_act s)), Eb; reflexivity). assert (Ed : ds = []) by (apply (f2_nil _ _ (ci_on _ _ I)); exact E). subst ds. apply (IH [] s); auto. cbn. lia.
    + destruct (back_data _ _ _ _ I Eb) as [HK HE]. set (s2 := mkCt (ct_act s) false (ct_nc s) (key b)).
      assert (NE : nonempty ds = true) by (destruct HE as (d & Hd & _); destruct ds; [contradiction|reflexivity]).
      assert (I2 : cinv s2 ds) by (destruct I; constructor; auto).
      destruct (has_step s2 ds b r I2 eq_refl Eb) as (s3 & ds' & E3 & I3 & P3 & Hh3 & Hc3 & Hk3).
      pose proof (dstep_len (key b) ds HE) as HL. rewrite (dlen_perm _ _ P3) in HL. destruct (IH ds' s3 (proj1 (Nat.lt_succ_r _ _) (Nat.lt_le_trans _ _ _ HL Hn)) I3 Hh3 Hc3) as (R & TR & OR & CR).
      assert (Hsum : forall k, dsum k ds = (if key b =? k then dhead (key b) ds else 0) + cnt k R). { intros k. rewrite CR, <- (dsum_perm k _ _ P3). apply dstep_sum; [apply I|exact HK]. }
      exists ((key b, dhead (key b) ds) :: R). split; [|split].
      * eapply (terms_intro _ _ (ct_obj sf s)); try reflexivity.
        { rewrite ct_has. unfold ct_hasNext. rewrite Hh, Hc, NE. reflexivity. }
        { rewrite ct_has. unfold ct_hasNext. rewrite Hh, Hc, NE. reflexivity. }
        exists (ct_obj sf s2). split. { rewrite ct_nx. unfold ct_next. rewrite Hh, Eb. reflexivity. }
        (* closed under getCount *)
        assert (HC : forall o3, counts (ct_obj sf s2) o3 -> exists s', o3 = ct_obj sf s' /\ cinv s' ds /\ ct_hnc s' = false /\ ct_key s' = key b).
        { intros o3 H3. induction H3 as [|o1 c o2 H3 IH3 E4]; [exists s2; auto|]. destruct IH3 as (s' & -> & [O' K' D'] & Hh' & Hk'). rewrite ct_gc in E4. unfold ct_count in E4. rewrite Hh', Hk' in E4.
          destruct (sum_on (key b) _ _ O') as (l' & El & F'). rewrite El in E4. injection E4 as <- <-. eexists. split; [reflexivity|]. cbn [ct_hnc ct_key]. split; [|auto]. constructor; cbn [ct_act]; auto.
          clear -D' O' F'. assert (EK : map key l' = map key (ct_act s')). { clear D'. revert l' F'. induction O' as [|d o ds l Hd _ IH]; intros l' F'; inversion F' as [|? o' ? l0 Hd' F0]; subst; [reflexivity|]. change (key o' :: map key l0 = key o :: map key l). rewrite (on_key _ _ _ Hd), (on_key _ _ _ Hd'), IH; auto. }
          unfold desc in *. clear O' F'. revert l' EK. induction D' as [|a m D IH F]; intros [|a' m'] EK; try discriminate; constructor; injection EK as E1 E2; auto. rewrite Forall_forall in *. intros x Hx. assert (Hx' : In (key x) (map key m)) by (rewrite <- E2; now apply in_map). apply in_map_iff in Hx' as (y & Ey & Hy). specialize (F y Hy). cbv beta in F. lia. }
        intros o3 H3. destruct (HC o3 H3) as (s' & -> & I' & Hh' & Hk'). cbn [fst snd]. split; [exact Hk'|]. split.
        { rewrite ct_gc. unfold ct_count. rewrite Hh', Hk'. destruct (sum_on (key b) _ _ (ci_on _ _ I')) as (l' & El & _). rewrite El. eauto. }
        (* hasNext of the later state *)
        destruct (rev (ct_act s')) as [|b' r'] eqn:Eb'.
        { exfalso. assert (E : ct_act s' = []) by (rewrite <- (rev_involutive (ct_act s')), Eb'; reflexivity). apply (f2_nil _ _ (ci_on _ _ I')) in E. subst ds. discriminate. }
        destruct (back_data _ _ _ _ I' Eb') as [HK' HE']. assert (Ekb : key b' = key b). { destruct HE as (d & Hd & Ed). destruct HE' as (d' & Hd' & Ed'). rewrite Forall_forall in HK, HK'. specialize (HK d' Hd'). specialize (HK' d Hd). lia. }
        destruct (has_step s' ds b' r' I' Hh' Eb') as (s4 & ds4 & E4 & I4 & P4 & Hh4 & Hc4 & Hk4). rewrite Ekb in P4.
        assert (HL4 : (dlen ds4 <= n)%nat) by (rewrite <- (dlen_perm _ _ P4), (dlen_perm _ _ P3); apply Nat.lt_succ_r; eapply Nat.lt_le_trans; [exact HL|exact Hn]). destruct (IH ds4 s4 HL4 I4 Hh4 Hc4) as (R4 & TR4 & OR4 & CR4).
        assert (ER : R4 = R). { assert (HEq : forall k, cnt k R4 = cnt k R) by (intros k; rewrite CR, CR4, <- (dsum_perm k _ _ P4), <- (dsum_perm k _ _ P3); reflexivity).
          clear -OR OR4 HEq. revert R OR HEq. induction R4 as [|[k4 c4] R4 IH]; intros [|[k c] R] OR HEq; [reflexivity| | |].
          - exfalso. destruct (cnt_head _ _ _ OR) as [E _]. specialize (HEq k). rewrite E in HEq. cbn in HEq. apply tl_cons in OR as (_ & P & _). cbn in P. lia.
          - exfalso. destruct (cnt_head _ _ _ OR4) as [E _]. specialize (HEq k4). rewrite E in HEq. cbn in HEq. apply tl_cons in OR4 as (_ & P & _). cbn in P. lia.
          - assert (Ek : k4 = k). { destruct (cnt_head _ _ _ OR4) as [E4 _]. destruct (cnt_head _ _ _ OR) as [E _]. pose proof (HEq k4) as H4. pose proof (HEq k) as H. rewrite E4 in H4. rewrite E in H.
              pose proof (tl_cons _ _ OR4) as (_ & P4 & F4). pose proof (tl_cons _ _ OR) as (_ & P & F). cbn [fst snd] in *.
              assert (Hin : exists x, In (k4, x) ((k, c) :: R)) by (apply cnt_in; [apply OR|lia]). assert (Hin4 : exists x, In (k, x) ((k4, c4) :: R4)) by (apply cnt_in; [apply OR4|lia]).
              destruct Hin as (x & [Ex|Hx]); [congruence|]. destruct Hin4 as (y & [Ey|Hy]); [congruence|]. specialize (F _ Hx). specialize (F4 _ Hy). cbn in F, F4. lia. }
            subst k4. assert (Ec : c4 = c). { destruct (cnt_head _ _ _ OR4) as [E4 _]. destruct (cnt_head _ _ _ OR) as [E _]. specialize (HEq k). rewrite E, E4 in HEq. exact HEq. } subst c4. f_equal.
            apply IH; [apply (tl_cons _ _ OR4)|apply (tl_cons _ _ OR)|]. intros j. specialize (HEq j). cbn in HEq. lia. }
        subst R4. destruct (terms_has _ _ TR4) as (o1 & Eo & Ko & _ & Mo).
        assert (Eo1 : o1 = ct_obj sf s4). { rewrite ct_has in Eo. unfold ct_hasNext in Eo. rewrite Hh4 in Eo. now injection Eo as _ <-. } subst o1.
        assert (EN : nonempty ds4 = nonempty R). { rewrite ct_has in Eo. unfold ct_hasNext in Eo. rewrite Hh4 in Eo. injection Eo as <-. now rewrite Hc4. }
        eapply (terms_intro _ _ (ct_obj sf s4)); auto.
        rewrite ct_has. rewrite E4, EN. reflexivity.
      * apply tl_mk; auto; cbn [fst snd]. { apply dhead_pos; auto. apply I. }
        intros y Hy. destruct (dstep_ok _ _ (ci_ok _ _ I) HK) as [K' G']. assert (HC : 0 < cnt (fst y) R) by (apply cnt_in; [apply OR|]; exists (snd y); now destruct y).
        rewrite CR, <- (dsum_perm _ _ _ P3) in HC. clear -HC K' G'. induction (dstep (key b) ds) as [|d l IH]; [cbn in HC; lia|]. cbn in HC. inversion K' as [|? ? Kd K'']. inversion G' as [|? ? Gd G'']. subst.
        destruct (Z.eq_dec (cnt (fst y) (fst d :: snd d)) 0) as [E|N]; [apply IH; auto; cbn in E; lia|]. pose proof (cnt_nonneg (fst y) _ (proj2 Kd)) as H0. assert (HP : 0 < cnt (fst y) (fst d :: snd d)) by lia. apply cnt_in in HP as (c & Hc); [|apply Kd]. destruct Hc as [E|Hc]; [rewrite E in Gd; exact Gd|]. pose proof (tl_cons _ _ Kd) as (_ & _ & F). specialize (F _ Hc). cbn in F. cbn in Gd. lia.
      * intros k. cbn [cnt]. rewrite Hsum. destruct (key b =? k); lia.
Qed.

(** add *)
Lemma add_ok s ds l o : cinv s ds -> ct_hnc s = true -> ct_nc s = nonempty ds -> Terms l o -> term_list l ->
  exists s' ds', ct_add sf s o = Some s' /\ cinv s' ds' /\ ct_hnc s' = true /\ ct_nc s' = nonempty ds' /\ forall k, dsum k ds' = dsum k ds + cnt k l.
Proof.
  intros [O K D] Hh Hc T OK. unfold ct_add. destruct (terms_has _ _ T) as (o1 & E & _ & _ & M). rewrite E. destruct l as [|x t]; cbn [nonempty].
  - destruct (sort_desc (ct_act s)) as [DS PS]. symmetry in PS. destruct (perm_f2 _ _ _ PS _ O) as (ds' & PD & F'). eexists _, ds'. split; [reflexivity|]. split; [|repeat split; auto].
    + constructor; cbn [ct_act]; auto. rewrite Forall_forall in *. intros d Hd. apply K. eapply Permutation_in; [symmetry; exact PD|exact Hd].
    + cbn [ct_nc]. rewrite Hc. destruct ds, ds'; auto; [apply Permutation_nil in PD; discriminate|apply Permutation_sym, Permutation_nil in PD; discriminate].
    + intros k. rewrite (dsum_perm k _ _ PD). cbn. lia.
  - destruct M as (o2 & E2 & O2). rewrite E2. destruct (sort_desc (ct_act s ++ [o2])) as [DS PS]. symmetry in PS.
    assert (O' : Forall2 DOn (ds ++ [(x, t)]) (ct_act s ++ [o2])) by (apply Forall2_app; auto). destruct (perm_f2 _ _ _ PS _ O') as (ds' & PD & F'). eexists _, ds'. split; [reflexivity|]. split; [|repeat split; auto].
    + constructor; cbn [ct_act]; auto. rewrite Forall_forall in *. intros d Hd. assert (Hd' : In d (ds ++ [(x, t)])) by (eapply Permutation_in; [symmetry; exact PD|exact Hd]). apply in_app_or in Hd' as [Hd'|[<-|[]]]; [auto|exact OK].
    + cbn [ct_nc]. destruct ds'; [apply Permutation_sym, Permutation_nil in PD; destruct ds; discriminate|reflexivity].
    + intros k. rewrite <- (dsum_perm k _ _ PD). assert (HA : forall a b, dsum k (a ++ b) = dsum k a + dsum k b) by (clear; induction a as [|d a IH]; intros b; cbn; [reflexivity|rewrite IH; lia]). rewrite HA. cbn. destruct x. lia.
Qed.
End Comp.

(** ** RmCompositeTermItr *)
Lemma rt_has f s : hasNext (rt_obj f s) = match rt_hasNext f s with Some (b, s') => Some (b, rt_obj f s') | None => None end.
Proof. reflexivity. Qed.
Lemma rt_nx f s : next (rt_obj f s) = match rt_next f s with Some s' => Some (rt_obj f s') | None => None end.
Proof. reflexivity. Qed.
Lemma rt_gc f s : getCount (rt_obj f s) = match rt_count s with Some (n, s') => Some (n, rt_obj f s') | None => None end.
Proof. reflexivity. Qed.

(** rmitr stands on the first key of [D], or below [bnd] if nothing is left. *)
Definition Rs (D : tl) (bnd : Z) (r : pitr) : Prop :=
  match D with [] => Terms [] r /\ key r < bnd | y :: D' => On y D' r end.
Lemma cnt_above k D : term_list D -> (forall y D', D = y :: D' -> k < fst y) -> cnt k D = 0.
Proof.
  intros T H. destruct (Z.eq_dec (cnt k D) 0) as [E|N]; [auto|]. pose proof (cnt_nonneg k D (proj2 T)). assert (P : 0 < cnt k D) by lia. apply cnt_in in P as (c & Hc); [|apply T].
  destruct D as [|y D']; [contradiction|]. specialize (H y D' eq_refl). pose proof (tl_cons _ _ T) as (_ & _ & F). destruct Hc as [->|Hc]; [cbn in H; lia|]. specialize (F _ Hc). cbn in F. lia.
Qed.
Lemma advance_ok k : forall D r fuel, term_list D -> Rs D k r -> (length D < fuel)%nat ->
  exists r1 D1, rt_advance fuel k r = Some r1 /\ Rs D1 k r1 /\ term_list D1 /\ (forall j, k <= j -> cnt j D1 = cnt j D) /\ (length D1 <= length D)%nat /\ (forall y D2, D1 = y :: D2 -> k <= fst y).
Proof.
  induction D as [|y D IH]; intros r [|fuel] T H HF; cbn in HF; try lia.
  - destruct H as [HT HK]. destruct (terms_has _ _ HT) as (r1 & E & K & T1 & _). exists r1, []. cbn [rt_advance]. destruct (Z.ltb_spec (key r) k); [|lia]. rewrite E. cbn [nonempty]. split; [reflexivity|]. split; [split; [exact T1|lia]|]. split; [exact T|]. split; [reflexivity|]. split; [auto|discriminate].
  - cbn [Rs] in H. pose proof (on_key _ _ _ H) as HK. cbn [rt_advance]. destruct (Z.ltb_spec (key r) k) as [L|G].
    + destruct (terms_has _ _ (on_terms _ _ _ H)) as (r1 & E & K & T1 & M). rewrite E. pose proof (tl_cons _ _ T) as (TD & _ & _).
      assert (EC : forall j, k <= j -> cnt j (y :: D) = cnt j D). { intros j Hj. destruct y as [ky cy]. cbn in *. destruct (Z.eqb_spec ky j); lia. }
      destruct D as [|z D'].
      * cbn [nonempty]. exists r1, []. split; [reflexivity|]. split; [split; [exact T1|lia]|]. split; [exact TD|]. split; [intros j Hj; now rewrite EC|]. split; [cbn; lia|discriminate].
      * destruct M as (o2 & E2 & O2). cbn [nonempty]. rewrite E2. destruct (IH o2 fuel TD O2 ltac:(lia)) as (r2 & D1 & E3 & A & B & C & L1 & F). exists r2, D1. split; [exact E3|]. split; [exact A|]. split; [exact B|]. split; [intros j Hj; now rewrite EC, C|]. split; [cbn in *; lia|exact F].
    + exists r, (y :: D). split; [reflexivity|]. split; [exact H|]. split; [exact T|]. split; [reflexivity|]. split; [auto|]. intros y' D2 [= <- <-]. lia.
Qed.

Lemma taken_ext M D D' : (forall x, In x M -> cnt (fst x) D = cnt (fst x) D') -> taken_off M D = taken_off M D'.
Proof. intros H. unfold taken_off. rewrite !flat_map_concat_map. f_equal. apply map_ext_in. intros x Hx. now rewrite H. Qed.
Lemma taken_cons x M D : taken_off (x :: M) D = (if snd x - cnt (fst x) D =? 0 then [] else [(fst x, snd x - cnt (fst x) D)]) ++ taken_off M D.
Proof. reflexivity. Qed.

(** What the loop ends with. *)
Definition loop_end (M : tl) (D : tl) (q : pitr * pitr * Z * bool) : Prop :=
  let '(m, r, n, h) := q in
  if h then exists k c M' D', taken_off M D = (k, c - cnt k D') :: taken_off M' D' /\ On (k, c) M' m /\ term_list ((k, c) :: M') /\ term_list D' /\ Rs D' (k + 1) r /\
      (length M' < length M)%nat /\ (length D' <= length D)%nat /\ (forall j, k + 1 <= j -> cnt j D' <= cnt j M') /\ 0 < c - cnt k D' /\
      ((n = -1 /\ key r <> k /\ cnt k D' = 0) \/ n = c - cnt k D')
  else taken_off M D = [].
Lemma loop_ok : forall M k c m D r fuel, term_list ((k, c) :: M) -> On (k, c) M m -> term_list D -> Rs D k r ->
  (forall j, k <= j -> cnt j D <= cnt j ((k, c) :: M)) -> (length M + length D + 1 < fuel)%nat ->
  exists q, rt_loop fuel m r = Some q /\ loop_end ((k, c) :: M) D q.
Proof.
  induction M as [|[k2 c2] M IH]; intros k c m D r [|fuel] TM HM TD HR HC HF; try lia; cbn [rt_loop]; pose proof (on_key _ _ _ HM) as HK; cbn [fst] in HK; rewrite HK.
  all: destruct (advance_ok k D r (S fuel) TD HR ltac:(lia)) as (r1 & D1 & E & R1 & T1 & C1 & L1 & F1); rewrite E.
  all: pose proof (cnt_head _ _ _ TM) as [HCk HC0]; pose proof (tl_cons _ _ TM) as (TM' & Pc & FM); cbn [fst snd] in Pc, FM.
  all: assert (RS : Rs D1 (k + 1) r1) by (destruct D1; [destruct R1; split; auto; lia|exact R1]).
  all: assert (ET : forall M', (forall x, In x M' -> k <= fst x) -> taken_off M' D = taken_off M' D1) by (intros M' HM'; apply taken_ext; intros x Hx; symmetry; apply C1, HM', Hx).
  all: match type of TM with term_list (_ :: ?MM) => assert (HC' : forall j, k + 1 <= j -> cnt j D1 <= cnt j ((k, c) :: MM)) by (intros j Hj; rewrite C1 by lia; apply HC; lia) end.
  all: assert (HC2 : cnt k D1 <= c) by (pose proof (HC k (Z.le_refl k)) as HCC; rewrite HCk in HCC; rewrite C1 by lia; exact HCC).
  all: pose proof (cnt_nonneg k D1 (proj2 T1)) as P1.
  all: destruct (Z.eqb_spec (key r1) k) as [Ek|Nk]; cbn [negb].
  (* the key is not removed *)
  all: try (assert (Z0 : cnt k D1 = 0) by (apply cnt_above; [exact T1|]; intros y D2 ->; pose proof (F1 y D2 eq_refl); cbn [Rs] in R1; pose proof (on_key _ _ _ R1); lia);
    eexists; split; [reflexivity|]; cbn [loop_end]; exists k, c; eexists; exists D1;
    split; [rewrite taken_cons; cbn [fst snd]; rewrite <- C1 by lia; rewrite Z0, Z.sub_0_r; destruct (Z.eqb_spec c 0); [lia|]; cbn [app]; f_equal; apply ET; intros x Hx; specialize (FM x Hx); lia|];
    split; [exact HM|]; split; [exact TM|]; split; [exact T1|]; split; [exact RS|]; split; [cbn; lia|]; split; [exact L1|];
    split; [intros j Hj; specialize (HC' j Hj); cbn [cnt] in HC'; destruct (Z.eqb_spec k j); [lia|exact HC']|]; split; [lia|left; auto]; fail).
  (* it is *)
  all: destruct D1 as [|[ky cy] D2]; [destruct R1; lia|]; cbn [Rs] in R1; pose proof (on_key _ _ _ R1) as Ky; cbn [fst] in Ky; rewrite Ek in Ky; subst ky.
  all: destruct (R1 r1 (counts_refl r1)) as (_ & (r2 & Er) & _); rewrite Er; destruct (on_count _ _ _ _ _ R1 Er) as [_ R2]; cbn [snd].
  all: pose proof (tl_cons _ _ T1) as (_ & Py & _); cbn [snd] in Py; destruct (Z.eqb_spec cy 0); [lia|].
  all: destruct (HM m (counts_refl m)) as (_ & (m1 & Em) & _); rewrite Em; destruct (on_count _ _ _ _ _ HM Em) as [_ M1]; cbn [snd]; destruct (Z.eqb_spec c 0); [lia|].
  all: pose proof (cnt_head _ _ _ T1) as [HD1 _]; rewrite HD1 in HC2.
  all: destruct (Z.eqb_spec cy c) as [->|Nc].
  (* not all of it *)
  all: try (eexists; split; [reflexivity|]; cbn [loop_end]; exists k, c; eexists; exists ((k, cy) :: D2);
    split; [rewrite taken_cons; cbn [fst snd]; rewrite <- C1 by lia; rewrite HD1; destruct (Z.eqb_spec (c - cy) 0); [lia|]; cbn [app]; f_equal; apply ET; intros x Hx; specialize (FM x Hx); lia|];
    split; [exact M1|]; split; [exact TM|]; split; [exact T1|]; split; [exact R2|]; split; [cbn; lia|]; split; [exact L1|];
    split; [intros j Hj; specialize (HC' j Hj); cbn [cnt] in HC' |- *; destruct (Z.eqb_spec k j); [lia|exact HC']|]; rewrite HD1; split; [lia|right; auto]; fail).
  - destruct (terms_has _ _ (on_terms _ _ _ M1)) as (m2 & E2 & _ & _ & _). rewrite E2. cbn [nonempty]. eexists. split; [reflexivity|]. cbn [loop_end]. rewrite taken_cons. cbn [fst snd]. rewrite <- C1, HD1, Z.sub_diag by lia. reflexivity.
  - destruct (terms_has _ _ (on_terms _ _ _ M1)) as (m2 & E2 & _ & _ & (m3 & E3 & O3)). rewrite E2. cbn [nonempty]. rewrite E3. specialize (FM (k2, c2) (or_introl eq_refl)) as L2. cbn in L2.
    destruct (IH k2 c2 m3 ((k, c) :: D2) r2 fuel TM' O3 T1 R2) as (q & Eq & HQ).
    { intros j Hj. specialize (HC' j ltac:(lia)). cbn [cnt] in HC' |- *. destruct (Z.eqb_spec k j); lia. }
    { cbn in *. lia. }
    exists q. split; [exact Eq|]. destruct q as [[[m4 r4] n4] h4]. cbn [loop_end] in HQ |- *. rewrite taken_cons. cbn [fst snd]. rewrite <- (C1 k), HD1, Z.sub_diag by lia. cbn [Z.eqb app].
    rewrite (ET ((k2, c2) :: M)) by (intros x Hx; specialize (FM x Hx); lia). destruct h4; [|exact HQ]. destruct HQ as (k5 & c5 & M5 & D5 & A1 & A2 & A3 & A4 & A5 & A6 & A7 & A8 & A9).
    exists k5, c5, M5, D5. repeat (split; [assumption|]). split; [cbn in *; lia|]. split; [cbn in *; lia|]. split; assumption.
Qed.

Lemma rt_terms fuel : forall n M D bnd s, (length M <= n)%nat -> rt_hnc s = false -> Terms M (rt_main s) -> term_list M -> term_list D -> Rs D bnd (rt_rm s) ->
  (forall x, In x M -> bnd <= fst x) -> (forall j, bnd <= j -> cnt j D <= cnt j M) -> (length M + length D < fuel)%nat -> Terms (taken_off M D) (rt_obj fuel s).
Proof.
  induction n as [|n IH]; intros M D bnd s Hn Hh HM TM TD HR HB HC HF.
  all: destruct (terms_has _ _ HM) as (m1 & E1 & _ & _ & X).
  all: destruct M as [|[k c] M]; [|].
  all: try (cbn [length] in Hn; lia).
  1,2: eapply (terms_intro [] _ (rt_obj fuel (mkRt m1 (rt_rm s) (rt_cur s) (-1) true false (rt_key s)))); try exact Logic.I; try reflexivity; rewrite rt_has; unfold rt_hasNext; rewrite Hh, E1; reflexivity.
  destruct X as (m2 & E2 & O2). cbn [nonempty] in E1.
  assert (HR' : Rs D k (rt_rm s)). { destruct D; [|exact HR]. destruct HR. split; auto. specialize (HB (k, c) (or_introl eq_refl)). cbn in HB. lia. }
  destruct (loop_ok M k c m2 D (rt_rm s) fuel TM O2 TD HR') as (q & Eq & HQ).
  { intros j Hj. apply HC. specialize (HB (k, c) (or_introl eq_refl)). cbn in HB. lia. } { cbn in HF. lia. }
  destruct q as [[[m r] nx] h]. set (s1 := mkRt m r (rt_cur s) nx true h (rt_key s)).
  assert (ES : rt_hasNext fuel s = Some (h, s1)) by (unfold rt_hasNext; rewrite Hh, E1, E2, Eq; reflexivity).
  cbn [loop_end] in HQ. destruct h.
  - destruct HQ as (k5 & c5 & M5 & D5 & A1 & A2 & A3 & A4 & A5 & A6 & A7 & A8 & A9 & A10). rewrite A1.
    apply (terms_intro _ _ (rt_obj fuel s1)); try reflexivity. { rewrite rt_has, ES. reflexivity. }
    set (s2 := mkRt m r (-1) nx false true k5). exists (rt_obj fuel s2). split. { rewrite rt_nx. unfold rt_next. cbn [rt_hnc s1 rt_main rt_rm rt_nxt rt_hn]. rewrite (on_key _ _ _ A2). reflexivity. }
    assert (INV : forall o3, counts (rt_obj fuel s2) o3 -> exists s', o3 = rt_obj fuel s' /\ rt_hnc s' = false /\ rt_key s' = k5 /\ On (k5, c5) M5 (rt_main s') /\ rt_rm s' = r /\ rt_nxt s' = nx /\ (rt_cur s' = -1 \/ rt_cur s' = c5 - cnt k5 D5)).
    { intros o3 H3. induction H3 as [|o1 cc o2 H3 IH3 E4]; [exists s2; repeat split; auto; apply (A2 o3 H)|]. destruct IH3 as (s' & -> & B1 & B2 & B3 & B4 & B5 & B6). rewrite rt_gc in E4. unfold rt_count in E4. rewrite B1, B4, B5 in E4. 
      destruct (Z.eqb_spec (rt_cur s') (-1)) as [Ec|Nc].
      - destruct (Z.eqb_spec nx (-1)) as [En|Nn]; cbn [negb] in E4.
        + destruct A10 as [(_ & Kr & Z5)|A10]; [|lia]. destruct (B3 _ (counts_refl _)) as (_ & (m4 & Em) & _). rewrite Em in E4. rewrite (on_key _ _ _ B3) in E4. cbn [fst snd] in E4. destruct (Z.eqb_spec (key r) k5); [lia|]. cbn [negb] in E4. injection E4 as <- <-.
          eexists. split; [reflexivity|]. cbn [rt_hnc rt_key rt_main rt_rm rt_nxt rt_cur]. repeat split; auto. * destruct (on_count _ _ _ _ _ B3 Em) as [_ O4]. apply (O4 o3 H). * destruct (on_count _ _ _ _ _ B3 Em) as [_ O4]. apply (O4 o3 H). * destruct (on_count _ _ _ _ _ B3 Em) as [_ O4]. apply (O4 o3 H). * right. lia.
        + injection E4 as <- <-. eexists. split; [reflexivity|]. cbn [rt_hnc rt_key rt_main rt_rm rt_nxt rt_cur]. repeat split; auto; try apply (B3 o3 H). right. destruct A10 as [(? & _)|A10]; lia.
      - injection E4 as <- <-. exists s'. repeat split; auto; apply (B3 o3 H). }
    intros o3 H3. destruct (INV o3 H3) as (s' & -> & B1 & B2 & B3 & B4 & B5 & B6). cbn [fst snd]. split; [exact B2|]. split.
    + rewrite rt_gc. unfold rt_count. rewrite B1, B4, B5. destruct (Z.eqb_spec (rt_cur s') (-1)) as [Ec|Nc].
      * destruct (Z.eqb_spec nx (-1)) as [En|Nn]; cbn [negb].
        { destruct A10 as [(_ & Kr & Z5)|A10]; [|lia]. destruct (B3 _ (counts_refl _)) as (_ & (m4 & Em) & _). rewrite Em, (on_key _ _ _ B3). cbn [fst snd]. destruct (Z.eqb_spec (key r) k5); [lia|]. cbn [negb]. rewrite Z5. eauto. }
        { destruct A10 as [(? & _)|A10]; [lia|]. rewrite A10. eauto. }
      * destruct B6 as [B6|B6]; [lia|]. rewrite B6. eauto.
    + pose proof (tl_cons _ _ A3) as (T5 & _ & F5). apply (IH M5 D5 (k5 + 1)); auto.
      * cbn in A6, Hn. lia. * apply (on_terms _ _ _ B3). * now rewrite B4. * intros x Hx. specialize (F5 x Hx). cbn in F5. lia. * cbn in A6, HF. lia.
  - rewrite HQ. apply (terms_intro [] _ (rt_obj fuel s1)); try exact Logic.I; try reflexivity. rewrite rt_has, ES. reflexivity.
Qed.

Lemma taken_off_ok M D : term_list M -> Forall (fun x => 0 < snd x) D -> (forall k, cnt k D <= cnt k M) -> term_list (taken_off M D) /\ forall k, cnt k (taken_off M D) = cnt k M - cnt k D.
Proof.
  intros TM PD HC.
  assert (G : forall M, term_list M -> (forall x, In x M -> cnt (fst x) D <= snd x) -> term_list (taken_off M D) /\ (forall y, In y (taken_off M D) -> exists x, In x M /\ fst x = fst y) /\ forall k, 0 < cnt k M -> cnt k (taken_off M D) = cnt k M - cnt k D).
  { clear M TM HC. induction M as [|[k c] M IH]; intros TM HC; [split; [split; constructor|split; [contradiction|cbn; lia]]|].
    pose proof (tl_cons _ _ TM) as (TM' & P & F). destruct (IH TM' (fun x Hx => HC x (or_intror Hx))) as (A & B & C). rewrite taken_cons. cbn [fst snd] in *. pose proof (HC (k, c) (or_introl eq_refl)) as Hk. cbn in Hk.
    assert (HZ : cnt k (taken_off M D) = 0). { apply cnt_above; [exact A|]. intros y D' E. destruct (B y) as (x & Hx & Ex); [rewrite E; now left|]. specialize (F x Hx). lia. }
    pose proof (cnt_head _ _ _ TM) as [_ HZM].
    destruct (Z.eqb_spec (c - cnt k D) 0) as [E|N]; cbn [app].
    - split; [exact A|]. split; [intros y Hy; destruct (B y Hy) as (x & Hx & Ex); exists x; split; [now right|auto]|]. intros j Hj. cbn [cnt] in Hj |- *. destruct (Z.eqb_spec k j) as [Ej|Nj]; [rewrite <- Ej; lia|]. rewrite C by lia. lia.
    - split; [|split].
      + apply tl_mk; [exact A|cbn; lia|]. intros y Hy. destruct (B y Hy) as (x & Hx & Ex). specialize (F x Hx). cbn. lia.
      + intros y [<-|Hy]; [exists (k, c); split; [now left|reflexivity]|]. destruct (B y Hy) as (x & Hx & Ex). exists x. split; [now right|auto].
      + intros j Hj. cbn [cnt] in Hj |- *. destruct (Z.eqb_spec k j) as [Ej|Nj]; [rewrite <- Ej; lia|]. rewrite C by lia. lia. }
  destruct (G M TM) as (A & B & C).
  { intros [k c] Hx. cbn. specialize (HC k). assert (E : cnt k M = c); [|lia]. clear -TM Hx. induction M as [|[k' c'] M IH]; [contradiction|]. pose proof (tl_cons _ _ TM) as (TM' & _ & F). pose proof (cnt_head _ _ _ TM) as [E E0]. destruct Hx as [[= -> ->]|Hx]; [exact E|]. specialize (F _ Hx). cbn in F. cbn. destruct (Z.eqb_spec k' k); [lia|]. rewrite IH; auto. }
  split; [exact A|]. intros k. pose proof (cnt_nonneg k M (proj2 TM)). pose proof (cnt_nonneg k D PD). specialize (HC k). destruct (Z.eq_dec (cnt k M) 0) as [E|N]; [|apply C; lia].
  assert (cnt k (taken_off M D) = 0); [|lia]. destruct (Z.eq_dec (cnt k (taken_off M D)) 0) as [E'|N']; [auto|]. pose proof (cnt_nonneg k _ (proj2 A)). assert (P : 0 < cnt k (taken_off M D)) by lia. apply cnt_in in P as (c & Hc); [|apply A]. destruct (B _ Hc) as ([k' c'] & Hx & Ex). cbn in Ex. subst k'.
  assert (0 < cnt k M) by (apply cnt_in; [apply TM|eauto]). lia.
Qed.

Lemma init_ok k fuel main rm M D : Terms M main -> Terms D rm -> term_list M -> term_list D -> D <> [] -> (forall k, cnt k D <= cnt k M) -> (length M + length D < fuel)%nat ->
  exists s, rt_init k main rm = Some s /\ Terms (taken_off M D) (rt_obj fuel s).
Proof.
  intros HM HD TM TD ND HC HF. destruct D as [|y D]; [contradiction|]. destruct (terms_has _ _ HD) as (r1 & E1 & _ & _ & (r2 & E2 & O2)). cbn [nonempty] in E1. unfold rt_init. rewrite E1, E2. eexists. split; [reflexivity|].
  apply (rt_terms fuel (length M) M (y :: D) (match M with [] => 0 | x :: _ => fst x end)); auto.
  intros x Hx. destruct M as [|a M]; [contradiction|]. pose proof (tl_cons _ _ TM) as (_ & _ & F). destruct Hx as [->|Hx]; [lia|]. specialize (F x Hx). lia.
Qed.

(** ** Histories *)
Definition cntT (kf : elem -> Z) (k : Z) (ts : list elem) : Z := Z.of_nat (length (filter (fun t => kf t =? k) ts)).
Lemma cntT_app kf k a b : cntT kf k (a ++ b) = cntT kf k a + cntT kf k b.
Proof. unfold cntT. rewrite filter_app, app_length. lia. Qed.
Lemma perm_filter_len {A} (f : A -> bool) a b : Permutation a b -> length (filter f a) = length (filter f b).
Proof. induction 1; cbn; try destruct (f x); try destruct (f y); cbn in *; lia. Qed.
Lemma minus_perm T d : NoDup T -> NoDup d -> (forall x, In x d -> In x T) -> Permutation T (minus T d ++ d).
Proof.
  intros NT Nd H. apply NoDup_Permutation; auto.
  - assert (G : forall a b : list elem, NoDup a -> NoDup b -> (forall x, In x a -> ~ In x b) -> NoDup (a ++ b)). { clear. induction a as [|y a IH]; intros b Ha Hb HD; [exact Hb|]. inversion Ha. subst. cbn. constructor; [rewrite in_app_iff; intros [?|?]; [auto|apply (HD y); [now left|auto]]|]. apply IH; auto. intros x Hx. apply HD. now right. }
    apply G; auto; [now apply NoDup_filter|]. intros x Hx. apply filter_In in Hx as [_ Hx]. destruct (in_dec elem_dec x d); [discriminate|auto].
  - intros x. rewrite in_app_iff. unfold minus. rewrite filter_In. destruct (in_dec elem_dec x d) as [Hd|Hd]; [split; [tauto|intros _; apply H, Hd]|split; [auto|tauto]].
Qed.
Lemma counts_len kf l T : counts_of kf l T -> (length l <= length T)%nat.
Proof.
  intros [[S P] C]. rewrite <- (map_length fst l), <- (map_length kf T). apply NoDup_incl_length.
  - clear -S. induction S as [|x l S IH F]; cbn; constructor; auto. intros Hx. apply in_map_iff in Hx as (y & E & Hy). rewrite Forall_forall in F. specialize (F y Hy). lia.
  - intros k Hk. apply in_map_iff in Hk as ([k' c] & <- & Hx). cbn. assert (H0 : 0 < cnt k' l) by (apply cnt_in; eauto). rewrite C in H0. destruct (filter (fun t => kf t =? k') T) as [|t ts] eqn:E; [cbn in H0; lia|]. assert (Ht : In t (filter (fun t => kf t =? k') T)) by (rewrite E; now left). apply filter_In in Ht as [Ht Et]. apply in_map_iff. exists t. split; [lia|auto].
Qed.

Section Hist.
Variable sf : list pitr -> list pitr.
Hypothesis Sf : std_sort ct_gt sf.
Variable kf : elem -> Z.

(** What finalItr delivers. *)
Definition Fin (final : ct_st + pitr) (T : list elem) : Prop :=
  match final with
  | inl s => exists ds, cinv s ds /\ ct_hnc s = true /\ ct_nc s = nonempty ds /\ forall k, dsum k ds = cntT kf k T
  | inr o => exists l, Terms l o /\ counts_of kf l T
  end.
Lemma fin_obj final T : Fin final T -> exists l, Terms l (match final with inl s => ct_obj sf s | inr o => o end) /\ counts_of kf l T.
Proof.
  destruct final as [s|o]; [|auto]. intros (ds & I & Hh & Hc & HS). destruct (comp_terms sf Sf (dlen ds) ds s (Nat.le_refl _) I Hh Hc) as (R & TR & OR & CR). exists R. split; [exact TR|]. split; [exact OR|]. intros k. rewrite CR. apply HS.
Qed.
Lemma cinv_init k : cinv (ct_init k) [].
Proof. repeat constructor. Qed.
Lemma fin_add_inl s T l o d : Fin (inl s) T -> Terms l o -> counts_of kf l d -> exists s', ct_add sf s o = Some s' /\ Fin (inl s') (T ++ d).
Proof.
  intros (ds & I & Hh & Hc & HS) HT [OK HC]. destruct (add_ok sf Sf s ds l o I Hh Hc HT OK) as (s' & ds' & E & I' & Hh' & Hc' & HS'). exists s'. split; [exact E|]. exists ds'. repeat split; auto; try apply I'. intros k. rewrite HS', HS, cntT_app, HC. reflexivity.
Qed.
Lemma fin_init k : Fin (inl (ct_init k)) [].
Proof. exists []. split; [apply cinv_init|]. repeat split. Qed.

Definition upd_ok (u : tupd) (x : bool * list elem) : Prop :=
  tu_del u = fst x /\ 0 < tu_new u /\ snd x <> [] /\ NoDup (snd x) /\
  exists l, counts_of kf l (snd x) /\ Terms l (if tu_del u then tu_spo u else tu_itr u).
Fixpoint total (h : list (bool * list elem)) : nat := match h with [] => O | u :: h => (length (snd u) + total h)%nat end.

Lemma loop_hist k fuel : forall us h final T, NoDup T -> Fin final T -> valid_history (fun x => In x T) h -> Forall2 upd_ok us h -> (length T + total h < fuel)%nat ->
  exists o R T', gt_loop sf fuel k us final = Some o /\ Terms R o /\ counts_of kf R T' /\ NoDup T' /\ (forall x, In x T' <-> replay (fun x => In x T) h x).
Proof.
  assert (VE : forall h P Q, (forall x, P x <-> Q x) -> (valid_history P h -> valid_history Q h) /\ (forall x, replay P h x <-> replay Q h x)).
  { induction h as [|u h IH]; intros P Q E; [split; [auto|apply E]|]. assert (E' : forall x, step_set P u x <-> step_set Q u x) by (intros x; unfold step_set; destruct (fst u); rewrite E; tauto). destruct (IH _ _ E') as [IV IR]. split; [|exact IR]. intros [A B]. split; [|auto]. intros x Hx. specialize (A x Hx). destruct (fst u); rewrite <- E; exact A. }
  induction us as [|u us IH]; intros h final T NT HF HV H2 HL.
  - inversion H2. subst. destruct (fin_obj _ _ HF) as (R & TR & CR). exists (match final with inl s => ct_obj sf s | inr o => o end), R, T. repeat split; auto; try apply CR; tauto.
  - inversion H2 as [|? [del d] ? h' (Hd & Hn & NE & Nd & l & Cl & Tl) H2']. subst. cbn [fst snd] in *. destruct HV as [HV1 HV2]. cbn [fst snd] in *. cbn [gt_loop]. destruct (Z.ltb_spec 0 (tu_new u)); [|lia]. cbn [total snd] in HL.
    destruct (tu_del u) eqn:Ed; rewrite <- Hd in *.
    + destruct (fin_obj _ _ HF) as (M & TM & CM).
      assert (NEl : l <> []). { intros ->. destruct d as [|y d]; [contradiction|]. destruct Cl as [_ C]. specialize (C (kf y)). cbn [filter cnt] in C. rewrite Z.eqb_refl in C. cbn [length] in C. lia. }
      pose proof (minus_perm T d NT Nd HV1) as PM.
      assert (CC : forall j, cntT kf j T = cntT kf j (minus T d) + cntT kf j d) by (intros j; rewrite <- cntT_app; unfold cntT; f_equal; apply perm_filter_len, PM).
      assert (LE : forall j, cnt j l <= cnt j M) by (intros j; rewrite (proj2 Cl), (proj2 CM); fold (cntT kf j d) (cntT kf j T); rewrite CC; unfold cntT; lia).
      pose proof (counts_len _ _ _ Cl) as LL. pose proof (counts_len _ _ _ CM) as LM.
      destruct (init_ok k fuel (match final with inl s => ct_obj sf s | inr o => o end) (tu_spo u) M l TM Tl (proj1 CM) (proj1 Cl) NEl LE ltac:(lia)) as (s & Es & TS). rewrite Es.
      destruct (taken_off_ok M l (proj1 CM) (proj2 (proj1 Cl)) LE) as [OK' CT].
      assert (ES : forall x, In x (minus T d) <-> step_set (fun x => In x T) (true, d) x). { intros x. unfold step_set, minus. cbn [fst snd]. rewrite filter_In. destruct (in_dec elem_dec x d); intuition congruence. }
      destruct (VE h' _ _ ES) as [_ IR]. destruct (VE h' _ _ (fun x => iff_sym (ES x))) as [IV _].
      destruct (IH h' (inr (rt_obj fuel s)) (minus T d)) as (o & R & T' & A & B & C & N' & D); auto.
      { now apply NoDup_filter. } { exists (taken_off M l). split; [exact TS|]. split; [exact OK'|]. intros j. rewrite CT, (proj2 Cl), (proj2 CM). fold (cntT kf j d) (cntT kf j T) (cntT kf j (minus T d)). rewrite CC. lia. }
      { rewrite (Permutation_length PM) in HL. rewrite app_length in HL. lia. }
      exists o, R, T'. split; [exact A|]. split; [exact B|]. split; [exact C|]. split; [exact N'|]. intros x. rewrite D. apply IR.
    + assert (ES : forall x, In x (T ++ d) <-> step_set (fun x => In x T) (false, d) x) by (intros x; unfold step_set; cbn [fst snd]; apply in_app_iff).
      destruct (VE h' _ _ ES) as [_ IR]. destruct (VE h' _ _ (fun x => iff_sym (ES x))) as [IV _].
      assert (NTd : NoDup (T ++ d)). { clear -NT Nd HV1. induction T as [|y T IHT]; [exact Nd|]. inversion NT. subst. cbn. constructor; [rewrite in_app_iff; intros [?|?]; [auto|apply (HV1 y); [auto|now left]]|]. apply IHT; auto. intros x Hx Hx'. apply (HV1 x Hx). now right. }
      assert (G : exists s', (match final with inl s => ct_add sf s (tu_itr u) | inr o => do s <- ct_add sf (ct_init k) o; ct_add sf s (tu_itr u) end) = Some s' /\ Fin (inl s') (T ++ d)).
      { destruct final as [s|o]; [apply (fin_add_inl s T l); auto|]. destruct HF as (M & TM & CM). destruct (fin_add_inl (ct_init k) [] M o T (fin_init k) TM CM) as (s1 & E1 & F1). rewrite E1. apply (fin_add_inl s1 T l); auto. }
      destruct G as (s' & Es & Fs). assert (EL : gt_loop sf fuel k us (inl s') = match final with inl s => do s' <- ct_add sf s (tu_itr u); gt_loop sf fuel k us (inl s') | inr o => do s <- ct_add sf (ct_init k) o; do s' <- ct_add sf s (tu_itr u); gt_loop sf fuel k us (inl s') end).
      { destruct final as [s|o]; [now rewrite Es|]. destruct (ct_add sf (ct_init k) o); [|discriminate]. now rewrite Es. }
      rewrite <- EL. destruct (IH h' (inl s') (T ++ d)) as (o & R & T' & A & B & C & N' & D); auto. { rewrite app_length. lia. }
      exists o, R, T'. split; [exact A|]. split; [exact B|]. split; [exact C|]. split; [exact N'|]. intros x. rewrite D. apply IR.
Qed.
End Hist.

(** ** UpdateStats *)
Lemma us_adv k : forall D r fuel, term_list D -> Rs D k r -> (length D < fuel)%nat -> forall r1, rt_advance fuel k r = Some r1 -> us_advance fuel k r (key r) = Some (r1, key r1).
Proof.
  induction D as [|y D IH]; intros r [|fuel] T H HF r1 E; cbn in HF; try lia; cbn [us_advance rt_advance] in *; destruct (key r <? k); try (now injection E as <-).
  - destruct H as [HT _]. destruct (terms_has _ _ HT) as (r2 & E2 & K & _). rewrite E2 in *. cbn [nonempty] in *. injection E as <-. now rewrite K.
  - cbn [Rs] in H. destruct (terms_has _ _ (on_terms _ _ _ H)) as (r2 & E2 & K & _ & M). rewrite E2 in *. destruct D as [|z D']; cbn [nonempty] in *; [injection E as <-; now rewrite K|]. destruct M as (r3 & E3 & O3). rewrite E3 in *. apply (IH r3 fuel); auto; [apply (tl_cons _ _ T)|lia].
Qed.
Definition new_keys (keys : list Z) (D : tl) : Z := Z.of_nat (length (filter (fun k => cnt k D =? 0) keys)).
Lemma us_add_ok fuel : forall keys D r bnd, StronglySorted Z.lt keys -> (forall k, In k keys -> bnd <= k) -> term_list D -> Rs D bnd r -> (length D < fuel)%nat -> us_add fuel keys r (key r) = Some (new_keys keys D).
Proof.
  induction keys as [|k keys IH]; intros D r bnd S HB T HR HF; [reflexivity|]. inversion S as [|? ? S' F]. subst. rewrite Forall_forall in F. cbn [us_add].
  assert (HBk : bnd <= k) by (apply HB; now left).
  assert (HN : new_keys (k :: keys) D = (if cnt k D =? 0 then 1 else 0) + new_keys keys D) by (unfold new_keys; cbn [filter]; destruct (cnt k D =? 0); cbn [length]; lia). rewrite HN.
  destruct (Z.ltb_spec k (key r)) as [L|G].
  - assert (HZ : cnt k D = 0). { destruct D as [|y D]; [reflexivity|]. apply cnt_above; [exact T|]. intros y' D' [= <- <-]. cbn [Rs] in HR. rewrite <- (on_key _ _ _ HR). exact L. }
    rewrite (IH D r bnd) by (auto; intros; apply HB; now right). rewrite HZ. rewrite Z.eqb_refl. f_equal. lia.
  - assert (HR' : Rs D k r) by (destruct D; [destruct HR; split; auto; lia|exact HR]).
    destruct (advance_ok k D r fuel T HR' HF) as (r1 & D1 & E & R1 & T1 & C1 & L1 & F1). rewrite (us_adv k D r fuel T HR' HF r1 E).
    assert (HE : negb (key r1 =? k) = (cnt k D =? 0)). { rewrite <- C1 by lia. destruct D1 as [|[ky cy] D2]; [destruct R1; cbn; lia|]. cbn [Rs] in R1. pose proof (on_key _ _ _ R1) as Ky. cbn [fst] in Ky. pose proof (F1 _ _ eq_refl) as Fk. cbn in Fk. destruct (Z.eqb_spec (key r1) k) as [E1|N1].
      - rewrite <- E1, Ky. rewrite (proj1 (cnt_head _ _ _ T1)). apply tl_cons in T1 as (_ & P & _). cbn in *. lia.
      - cbn [negb]. rewrite cnt_above; auto. intros y D' [= <- <-]. cbn. lia. }
    rewrite (IH D1 r1 k) by (auto; try lia; intros; specialize (F k0 H); lia). rewrite HE.
    assert (EN : new_keys keys D1 = new_keys keys D). { unfold new_keys. f_equal. f_equal. apply filter_ext_in. intros j Hj. rewrite C1; auto. specialize (F j Hj). lia. }
    rewrite EN. destruct (cnt k D =? 0); f_equal; lia.
Qed.
Definition gone_keys (keys : tl) (D : tl) : Z := Z.of_nat (length (filter (fun x => cnt (fst x) D =? snd x) keys)).
Lemma us_rm_ok fuel : forall keys D r, term_list keys -> term_list D -> D <> [] -> Rs D 0 r -> (forall x, In x keys -> 0 < cnt (fst x) D) -> (length D < fuel)%nat -> us_rm fuel keys r (key r) = Some (gone_keys keys D).
Proof.
  induction keys as [|[k c] keys IH]; intros D r S T ND HR HP HF; [reflexivity|]. pose proof (tl_cons _ _ S) as (S' & Pc & F). cbn [us_rm].
  assert (HR' : Rs D k r) by (destruct D; [contradiction|exact HR]). pose proof (HP (k, c) (or_introl eq_refl)) as Pk. cbn [fst] in Pk.
  destruct (advance_ok k D r fuel T HR' HF) as (r1 & D1 & E & R1 & T1 & C1 & L1 & F1). rewrite (us_adv k D r fuel T HR' HF r1 E). rewrite <- C1 in Pk by lia.
  destruct D1 as [|[ky cy] D2]; [cbn in Pk; lia|]. cbn [Rs] in R1. pose proof (on_key _ _ _ R1) as Ky. cbn [fst] in Ky. pose proof (F1 _ _ eq_refl) as Fk. cbn in Fk.
  assert (EK : ky = k). { destruct (Z.eq_dec ky k); auto. rewrite cnt_above in Pk; auto; [lia|]. intros y D' [= <- <-]. cbn. lia. } rewrite EK in Ky. subst ky.
  rewrite Ky, Z.eqb_refl. cbn [negb]. destruct (R1 r1 (counts_refl r1)) as (_ & (r2 & Er) & _). rewrite Er. destruct (on_count _ _ _ _ _ R1 Er) as [_ R2]. cbn [snd].
  pose proof (on_key _ _ _ R2) as K2. cbn [fst] in K2. rewrite <- K2 at 1.
  rewrite (IH ((k, cy) :: D2) r2); auto; try discriminate; [|intros x Hx; rewrite C1; [apply HP; now right|]; specialize (F x Hx); cbn in F; lia|lia].
  assert (EN : gone_keys keys ((k, cy) :: D2) = gone_keys keys D). { unfold gone_keys. f_equal. f_equal. apply filter_ext_in. intros x Hx. rewrite C1; auto. specialize (F x Hx). cbn in F. lia. }
  rewrite EN. unfold gone_keys. cbn [filter fst snd]. rewrite <- (C1 k) by lia. rewrite (proj1 (cnt_head _ _ _ T1)). destruct (cy =? c); cbn [length]; f_equal; lia.
Qed.
