(** Proofs about CompositeItr and CompositeScanItr (second column not ignored). *)
From Coq Require Import Sorted Permutation Lia.
From Verif Require Export ItrModel ItrSpec ItrProofs.
Local Open Scope Z_scope.

(** ** List utilities *)
Lemma upd_app {A} (l : list A) x y r : upd (length l) x (l ++ y :: r) = l ++ x :: r.
Proof.
  unfold upd. rewrite firstn_app, skipn_app, Nat.sub_diag, firstn_all, skipn_all. cbn.
  now rewrite app_nil_r.
Qed.
Lemma nth_app {A} (l : list A) x r : nth_error (l ++ x :: r) (length l) = Some x.
Proof. rewrite nth_error_app2, Nat.sub_diag by lia. reflexivity. Qed.

Lemma upd_app' {A} n (l : list A) x y r : n = length l -> upd n x (l ++ y :: r) = l ++ x :: r.
Proof. intros ->; apply upd_app. Qed.
Lemma nth_app' {A} n (l : list A) x r : n = length l -> nth_error (l ++ x :: r) n = Some x.
Proof. intros ->; apply nth_app. Qed.

Lemma swap_adj {A} (l : list A) a z r :
  swap (S (length l)) (length l) (l ++ a :: z :: r) = l ++ z :: a :: r.
Proof.
  unfold swap. rewrite nth_app.
  replace (l ++ a :: z :: r) with ((l ++ [a]) ++ z :: r) by now rewrite <- app_assoc.
  rewrite (nth_app' (S (length l))) by (rewrite app_length; cbn; lia).
  rewrite (upd_app' (S (length l)) (l ++ [a])) by (rewrite app_length; cbn; lia).
  rewrite <- !app_assoc. cbn [app].
  now rewrite upd_app.
Qed.

Lemma SS_app {A} (R : A -> A -> Prop) l l' :
  StronglySorted R (l ++ l') <->
  StronglySorted R l /\ StronglySorted R l' /\ (forall x y, In x l -> In y l' -> R x y).
Proof.
  induction l as [|a l IH]; cbn.
  - split; [intros H; repeat split; auto; try constructor; contradiction|tauto].
  - split.
    + intros H; inversion H as [|? ? Hs Hf]; subst. apply IH in Hs as (H1 & H2 & H3).
      rewrite Forall_forall in Hf.
      repeat split; auto.
      * constructor; auto. rewrite Forall_forall. intros; apply Hf, in_or_app; auto.
      * intros x y [<-|Hx] Hy; auto. apply Hf, in_or_app; auto.
    + intros (H1 & H2 & H3). inversion H1 as [|? ? Hs Hf]; subst. constructor.
      * apply IH; auto.
      * rewrite Forall_forall in *. intros x Hx. apply in_app_or in Hx as [Hx|Hx]; auto.
Qed.

Lemma SS_perm_app {A} (R : A -> A -> Prop) (l l' B : list A) :
  Permutation l B -> (forall x y, In x l -> In y l' -> R x y) ->
  (forall x y, In x B -> In y l' -> R x y).
Proof. intros Hp H x y Hx Hy. apply H; auto. eapply Permutation_in; [symmetry|]; eauto. Qed.

Lemma filter_concat_perm {A B} (f : A -> list B) l l' :
  Permutation l l' -> Permutation (concat (map f l)) (concat (map f l')).
Proof.
  induction 1; cbn; auto.
  - now apply Permutation_app_head.
  - rewrite !app_assoc. apply Permutation_app_tail, Permutation_app_comm.
  - etransitivity; eauto.
Qed.

(** ** A child together with what it still holds *)
(** [Pos k c l]: the child c stands on the head of l and the rest of l is to come. *)
Definition Pos (k : Z) (c : pitr) (l : list elem) : Prop :=
  exists t, l = cur c :: t /\ Yields false t c /\ sorted l /\ Forall (fun x => fst (fst x) = k) l.

(** Children paired with their contents. *)
Definition contents (P : list (pitr * list elem)) : list elem := concat (map snd P).

Definition vge (a b : pitr) : Prop := comp_gt b a = false.

Lemma vge_spec a b : key a = key b -> (vge a b <-> ele (cur b) (cur a)).
Proof.
  unfold vge, comp_gt, ele, elt, cur. intros Hk. rewrite Hk. split.
  - intros H. apply Bool.orb_false_iff in H as [H1 H2].
    destruct (Z.eq_dec (value1 a) (value1 b)) as [He|He].
    + rewrite He in *. rewrite Z.eqb_refl in H2. cbn in H2.
      destruct (Z.eq_dec (value2 a) (value2 b)) as [He2|He2].
      * right. now rewrite He2.
      * left; lia.
    + left; lia.
  - intros [H|H].
    + apply Bool.orb_false_iff. split; [lia|]. apply Bool.andb_false_iff. lia.
    + injection H as H1 H2. rewrite H1, H2. rewrite Z.ltb_irrefl, Z.eqb_refl, Z.ltb_irrefl. reflexivity.
Qed.

Lemma comp_gt_vge a b : comp_gt a b = true -> vge a b.
Proof. unfold vge, comp_gt. intros H. lia. Qed.

Definition PosP (k : Z) (p : pitr * list elem) : Prop := Pos k (fst p) (snd p).

Definition desc (P : list (pitr * list elem)) : Prop :=
  StronglySorted (fun p q => vge (fst p) (fst q)) P.

Lemma Pos_key k c l : Pos k c l -> key c = k.
Proof.
  intros (t & -> & _ & _ & Hf). inversion Hf; subst. auto.
Qed.

Lemma SS_map {A B} (R : B -> B -> Prop) (f : A -> B) l :
  StronglySorted R (map f l) <-> StronglySorted (fun x y => R (f x) (f y)) l.
Proof.
  induction l as [|a l IH]; cbn; split; intros H; try constructor; inversion H; subst;
    try (now apply IH); rewrite Forall_forall in *.
  - intros; apply H3, in_map; auto.
  - intros x Hx. apply in_map_iff in Hx as (y & <- & Hy). auto.
Qed.

(** Bubble: the last child moves into place. *)
Lemma comp_bubble_ok (A : list (pitr * list elem)) : forall k z dead,
  Forall (PosP k) (A ++ [z]) -> desc A ->
  exists B, comp_bubble (length A) (map fst A ++ fst z :: dead) = map fst B ++ dead /\
    Permutation B (A ++ [z]) /\ desc B.
Proof.
  induction A as [|a A IH] using rev_ind; intros k z dead HP Hd.
  - exists [z]. cbn. repeat split; auto. constructor; constructor.
  - rewrite app_length, Nat.add_comm. cbn [length Nat.add comp_bubble].
    rewrite map_app. cbn [map]. rewrite <- !app_assoc. cbn [app].
    assert (Hn1 : nth_error (map fst A ++ fst a :: fst z :: dead) (S (length A)) = Some (fst z)).
    { replace (map fst A ++ fst a :: fst z :: dead) with ((map fst A ++ [fst a]) ++ fst z :: dead)
        by now rewrite <- app_assoc.
      apply nth_app'. rewrite app_length, map_length; cbn; lia. }
    rewrite Hn1.
    rewrite nth_app' by now rewrite map_length.
    apply SS_app in Hd as (Hd & _ & Hle).
    assert (HPz : PosP k z) by (rewrite Forall_forall in HP; apply HP, in_or_app; right; now left).
    assert (HPa : PosP k a).
    { rewrite Forall_forall in HP; apply HP. rewrite <- app_assoc.
      apply in_or_app; right; now left. }
    assert (HPA : Forall (PosP k) A).
    { rewrite Forall_forall in *. intros x Hx. apply HP. rewrite <- app_assoc.
      apply in_or_app; auto. }
    destruct (comp_gt (fst z) (fst a)) eqn:E.
    + assert (Hsw : swap (S (length A)) (length A) (map fst A ++ fst a :: fst z :: dead) =
                    map fst A ++ fst z :: fst a :: dead).
      { rewrite <- (map_length (@fst pitr (list elem)) A) at 1 2. apply swap_adj. }
      rewrite Hsw.
      destruct (IH k z (fst a :: dead)) as (B & HB & Hp & HdB).
      * apply Forall_app; auto.
      * auto.
      * exists (B ++ [a]). split; [|split].
        -- rewrite HB, map_app, <- app_assoc. reflexivity.
        -- rewrite Hp, <- !app_assoc. cbn [app].
           apply Permutation_app_head. apply perm_swap.
        -- apply SS_app. split; [auto|]. split; [repeat constructor|].
           intros x y Hx [<-|[]].
           eapply Permutation_in in Hx; [|exact Hp].
           apply in_app_or in Hx as [Hx|[<-|[]]].
           ++ apply Hle; auto. now left.
           ++ now apply comp_gt_vge.
    + exists ((A ++ [a]) ++ [z]). split; [|split].
      * rewrite !map_app, <- !app_assoc. reflexivity.
      * rewrite <- app_assoc. reflexivity.
      * apply SS_app. split; [|split; [repeat constructor|]].
        -- apply SS_app; repeat split; auto. repeat constructor.
        -- intros x y Hx [<-|[]].
           assert (Hka : key (fst a) = k) by (eapply Pos_key; eauto).
           assert (Hkz : key (fst z) = k) by (eapply Pos_key; eauto).
           apply in_app_or in Hx as [Hx|[<-|[]]]; [|exact E].
           assert (Hkx : key (fst x) = k).
           { rewrite Forall_forall in HPA. eapply Pos_key, HPA; eauto. }
           apply vge_spec; [congruence|].
           eapply ele_trans; [|apply (proj1 (vge_spec (fst x) (fst a) ltac:(congruence)))].
           ++ apply vge_spec; [congruence|exact E].
           ++ apply Hle; auto. now left.
Qed.

(** Everything still held by a child is at or after the element it stands on. *)
Lemma Pos_min k c l x : Pos k c l -> In x l -> ele (cur c) x.
Proof.
  intros (t & -> & _ & Hs & _) [<-|Hx]; [apply ele_refl|].
  inversion Hs as [|? ? _ Hf]; subst. rewrite Forall_forall in Hf; auto.
Qed.

Lemma desc_min k A z x :
  Forall (PosP k) (A ++ [z]) -> desc (A ++ [z]) -> In x (contents (A ++ [z])) ->
  ele (cur (fst z)) x.
Proof.
  intros HP Hd Hx. unfold contents in Hx. apply in_concat in Hx as (l & Hl & Hx).
  apply in_map_iff in Hl as (p & <- & Hp).
  rewrite Forall_forall in HP. pose proof (HP _ Hp) as HPp.
  assert (HPz : PosP k z) by (apply HP, in_or_app; right; now left).
  eapply ele_trans; [|exact (Pos_min k (fst p) (snd p) x HPp Hx)].
  apply in_app_or in Hp as [Hp|[<-|[]]]; [|apply ele_refl].
  apply SS_app in Hd as (_ & _ & Hle).
  apply vge_spec.
  - transitivity k; [eapply Pos_key; eauto|symmetry; eapply Pos_key; eauto].
  - exact (Hle p z Hp (or_introl eq_refl)).
Qed.

Lemma contents_app P Q : contents (P ++ Q) = contents P ++ contents Q.
Proof. unfold contents. now rewrite map_app, concat_app. Qed.
Lemma contents_perm P Q : Permutation P Q -> Permutation (contents P) (contents Q).
Proof. apply filter_concat_perm. Qed.

Lemma desc_perm_fst (B : list (pitr * list elem)) (cs : list pitr) :
  Permutation cs (map fst B) -> exists B', map fst B' = cs /\ Permutation B' B.
Proof.
  intros Hp. destruct (Permutation_map_inv fst B Hp) as (B' & -> & Hp').
  exists B'; split; auto. now symmetry.
Qed.

(** ** CompositeItr *)
Lemma comp_obj_hasNext sf s : hasNext (comp_obj sf s) =
  match comp_hasNext s with Some (b, s') => Some (b, comp_obj sf s') | None => None end.
Proof. reflexivity. Qed.
Lemma comp_obj_next sf s : next (comp_obj sf s) =
  match comp_next sf s with Some s' => Some (comp_obj sf s') | None => None end.
Proof. reflexivity. Qed.
Lemma comp_obj_count sf s :
  getCount (comp_obj sf s) = Some (c_count s, comp_obj sf s).
Proof. reflexivity. Qed.
Lemma comp_obj_cur sf s : cur (comp_obj sf s) = (c_key s, c_v1 s, c_v2 s).
Proof. reflexivity. Qed.

(** State after next: the last active child stands on the element just delivered. *)
Definition comp_U (k : Z) (R : list elem) (s : comp_st) : Prop :=
  exists A z dead t,
    c_children s = map fst (A ++ [z]) ++ dead /\ c_active s = length (A ++ [z]) /\
    c_hnc s = false /\ c_ign s = false /\ c_key s = k /\
    (c_sorted s = true \/ A = []) /\
    Forall (PosP k) (A ++ [z]) /\ desc (A ++ [z]) /\
    snd z = cur (fst z) :: t /\ Permutation R (t ++ contents A) /\ sorted R.

(** The children after the elements to be delivered next have been reached. *)
Definition comp_ready (k : Z) (B : list (pitr * list elem)) (dead : list pitr) : Prop :=
  Forall (PosP k) B /\ desc B.

Lemma comp_deliver k x R B :
  sorted (x :: R) -> Permutation (x :: R) (contents B) -> Forall (PosP k) B -> desc B ->
  exists A z t, B = A ++ [z] /\ cur (fst z) = x /\ snd z = cur (fst z) :: t /\
    Permutation R (t ++ contents A).
Proof.
  intros Hs Hp HP Hd.
  destruct (@exists_last _ B) as (A & z & ->).
  { intros ->. cbn in Hp. apply Permutation_sym, Permutation_nil in Hp. discriminate. }
  assert (HPz : PosP k z) by (rewrite Forall_forall in HP; apply HP, in_or_app; right; now left).
  destruct HPz as (t & Ht & HyT & HsT & _).
  assert (Hx : cur (fst z) = x).
  { eapply sorted_perm_head; [exact Hs|exact Hp| |].
    - rewrite contents_app. apply in_or_app; right. cbn. rewrite Ht. cbn. auto.
    - intros y Hy. eapply desc_min; eauto. }
  exists A, z, t. repeat split; auto.
  rewrite contents_app in Hp. cbn in Hp. rewrite Ht, app_nil_r, Hx in Hp.
  apply Permutation_cons_inv with (a := x).
  rewrite Hp. rewrite (Permutation_app_comm (contents A)). reflexivity.
Qed.

Lemma rearrange_len (A : list (pitr * list elem)) dead :
  firstn (length A) (map fst A ++ dead) = map fst A /\
  skipn (length A) (map fst A ++ dead) = dead.
Proof.
  rewrite <- (map_length fst A) at 1 2.
  rewrite firstn_app, skipn_app, Nat.sub_diag, firstn_all, skipn_all. cbn.
  now rewrite app_nil_r.
Qed.

Lemma comp_rearrange_ok sf k P dead :
  std_sort comp_gt sf -> Forall (PosP k) P ->
  exists B, comp_rearrange sf false (length P) (map fst P ++ dead) = map fst B ++ dead /\
    Permutation B P /\ desc B.
Proof.
  intros Hsf HP. unfold comp_rearrange.
  destruct P as [|p [|q [|r P]]].
  - exists []. cbn. repeat split; auto. constructor.
  - exists [p]. cbn. repeat split; auto. repeat constructor.
  - cbn [length map app].
    assert (Hkp : key (fst p) = k) by (inversion HP; eapply Pos_key; eauto).
    assert (Hkq : key (fst q) = k).
    { inversion HP as [|? ? _ HP']; inversion HP'; eapply Pos_key; eauto. }
    destruct ((value1 (fst p) <? value1 (fst q)) || _) eqn:E.
    + exists [q; p]. repeat split; [constructor|]. repeat constructor. cbn.
      apply comp_gt_vge. unfold comp_gt. cbn in E. lia.
    + exists [p; q]. split; [reflexivity|]. split; [reflexivity|]. constructor; [repeat constructor|]. constructor; [|constructor]. unfold vge, comp_gt.
      cbn in E. exact E.
  - set (P' := p :: q :: r :: P) in *.
    assert (Hl : length P' = S (S (S (length P)))) by reflexivity.
    rewrite Hl. cbn [Nat.ltb Nat.leb]. rewrite <- Hl.
    destruct (rearrange_len P' dead) as [-> ->].
    destruct (Hsf (map fst P')) as [Hp Hs].
    destruct (desc_perm_fst P' _ Hp) as (B & HB & HpB).
    exists B. rewrite HB. repeat split; auto.
    unfold desc. apply (SS_map vge fst). rewrite HB. exact Hs.
Qed.

(** Advancing all children when the order is not established. *)
Lemma comp_next_others_ok k v1 (P : list (pitr * list elem)) : forall rest must,
  Forall (fun p => snd p <> [] /\ Ready false (snd p) (fst p) /\ sorted (snd p) /\
                   Forall (fun x => fst (fst x) = k) (snd p)) P ->
  exists Q, comp_next_others (length P) false v1 (map fst P ++ rest) must =
      Some (map fst Q ++ rest, must || nonempty P) /\
    map snd Q = map snd P /\ Forall (PosP k) Q.
Proof.
  induction P as [|p P IH] using rev_ind; intros rest must HP.
  - exists []. cbn. rewrite Bool.orb_false_r. auto.
  - rewrite app_length, Nat.add_comm. cbn [length Nat.add comp_next_others].
    rewrite map_app, <- app_assoc. cbn [map app].
    rewrite nth_app' by now rewrite map_length. cbn [negb orb].
    apply Forall_app in HP as [HP Hp]. inversion Hp as [|? ? (Hne & (Hy & Hm) & Hs & Hk) _]; subst.
    destruct p as [c l]. cbn [fst snd] in *. destruct l as [|x t]; [contradiction|].
    destruct Hm as (c2 & Hn & Hc & _ & Hy2). rewrite Hn.
    rewrite upd_app' by now rewrite map_length.
    destruct (IH (c2 :: rest) true HP) as (Q & -> & HQ & HQP).
    exists (Q ++ [(c2, x :: t)]). split; [|split].
    + rewrite map_app, <- app_assoc. cbn [map app fst orb].
      replace (nonempty (P ++ _)) with true by (destruct P; reflexivity).
      now rewrite Bool.orb_true_r.
    + rewrite !map_app, HQ. reflexivity.
    + apply Forall_app; split; auto. constructor; [|constructor].
      exists t. cbn [fst snd]. subst x. auto.
Qed.

Lemma comp_U_yields sf k : std_sort comp_gt sf ->
  forall R s, comp_U k R s -> Yields true R (comp_obj sf s).
Proof.
  intros Hsf. induction R as [|x R IH]; intros s (A & z & dead & t & Hch & Hact & Hhnc & Hign & Hkey & Hsrt & HP & Hd & Hz & Hp & HsR).
  - apply Permutation_nil in Hp. apply app_eq_nil in Hp as [-> HA].
    assert (A = []) as ->.
    { destruct A as [|a A]; auto. inversion HP as [|? ? (ta & Hta & _) _]; subst.
      unfold contents in HA. cbn in HA. rewrite Hta in HA. discriminate. }
    assert (Hyz : Yields false [] (fst z)).
    { inversion HP as [|? ? (tz & Htz & Hy & _) _]; subst. rewrite Hz in Htz.
      injection Htz as <-. exact Hy. }
    destruct (Yields_poll _ _ _ Hyz) as (z1 & Hn1 & _).
    eapply Yields_intro.
    + rewrite comp_obj_hasNext. unfold comp_hasNext. rewrite Hhnc, Hact, Hign, Hch. cbn.
      rewrite Hn1. cbn. reflexivity.
    + reflexivity.
    + exact I.
  - assert (Hlen : length (A ++ [z]) = S (length A)) by (rewrite app_length; cbn; lia).
    assert (HPz : PosP k z) by (rewrite Forall_forall in HP; apply HP, in_or_app; right; now left).
    assert (HPA : Forall (PosP k) A) by (apply Forall_app in HP; tauto).
    destruct HPz as (tz & Htz & HyT & HsT & HkT). rewrite Hz in Htz.
    injection Htz as <-.
    destruct (Yields_poll _ _ _ HyT) as (z1 & Hn1 & _ & Hm).
    assert (Hch' : c_children s = map fst A ++ fst z :: dead).
    { rewrite Hch, map_app, <- app_assoc. reflexivity. }
    assert (HdA : desc A) by (apply SS_app in Hd; tauto).
    (* the state after the poll *)
    destruct t as [|y t].
    + (* last child exhausted *)
      cbn [app] in Hp.
      destruct (comp_deliver k x R A) as (A' & z' & t' & -> & Hx & Hz' & HpR); auto.
      eapply Yields_intro.
      * rewrite comp_obj_hasNext. unfold comp_hasNext. rewrite Hhnc, Hact, Hign, Hlen, Hch'.
        cbn [negb]. rewrite nth_app' by now rewrite map_length. rewrite Hn1. cbn [nonempty].
        rewrite upd_app' by now rewrite map_length.
        rewrite app_length. cbn [length]. rewrite Nat.add_comm. cbn [Nat.add Nat.ltb Nat.leb].
        reflexivity.
      * reflexivity.
      * eexists. split; [|split; [|split]].
        -- rewrite comp_obj_next. unfold comp_next.
           cbn [c_hnc c_active c_decr c_children c_ign].
           rewrite map_app. cbn [map]. rewrite <- app_assoc. cbn [app].
           rewrite nth_app' by now rewrite map_length.
           cbn [negb]. reflexivity.
        -- rewrite comp_obj_cur. cbn [c_key c_v1 c_v2]. rewrite <- Hx. unfold cur. f_equal. f_equal.
           rewrite Hkey. symmetry. eapply (Pos_key k _ (snd z')). rewrite Forall_forall in HPA. apply HPA.
           apply in_or_app; right; now left.
        -- intros _. eexists. apply comp_obj_count.
        -- apply IH. exists A', z', (z1 :: dead), t'. cbn.
           repeat split; auto.
           ++ rewrite map_app, <- app_assoc. reflexivity.
           ++ rewrite app_length. cbn. lia.
           ++ destruct Hsrt as [Hsrt|Hsrt]; auto. destruct A'; discriminate.
           ++ inversion HsR; auto.
    + (* last child continues *)
      cbn [nonempty] in Hn1. destruct Hm as (z2 & Hn2 & Hc2 & _ & Hy2).
      assert (HPz2 : PosP k (z2, y :: t)).
      { exists t. cbn [fst snd]. subst y. rewrite Hz in HsT, HkT.
        inversion HsT; inversion HkT; subst; auto. }
      destruct (comp_bubble_ok A k (z2, y :: t) dead) as (B & HB & HpB & HdB); auto.
      { apply Forall_app; split; auto. }
      assert (HPB : Forall (PosP k) B).
      { eapply Permutation_Forall; [symmetry; exact HpB|]. apply Forall_app; split; auto. }
      destruct (comp_deliver k x R B) as (A' & z' & t' & -> & Hx & Hz' & HpR); auto.
      { rewrite Hp. rewrite (contents_perm _ _ HpB), contents_app. cbn.
        rewrite app_nil_r. rewrite (Permutation_app_comm (contents A)). reflexivity. }
      assert (HlenB : length A' = length A).
      { apply Permutation_length in HpB. rewrite !app_length in HpB. cbn in HpB. lia. }
      eapply Yields_intro.
      * rewrite comp_obj_hasNext. unfold comp_hasNext. rewrite Hhnc, Hact, Hign, Hlen, Hch'.
        cbn [negb]. rewrite nth_app' by now rewrite map_length. rewrite Hn1.
        rewrite upd_app' by now rewrite map_length.
        cbn [Nat.ltb Nat.leb]. reflexivity.
      * reflexivity.
      * eexists. split; [|split; [|split]].
        -- rewrite comp_obj_next. unfold comp_next.
           cbn [c_hnc c_active c_decr c_children c_ign c_sorted c_v1].
           rewrite nth_app' by now rewrite map_length. rewrite Hn2.
           rewrite upd_app' by now rewrite map_length.
           assert (Hoth : (if negb (c_sorted s) || false
                           then comp_next_others (length A) (c_sorted s) (c_v1 s) (map fst A ++ z2 :: dead) false
                           else Some (map fst A ++ z2 :: dead, false)) = Some (map fst A ++ z2 :: dead, false)).
           { destruct Hsrt as [-> | ->]; [reflexivity|]. destruct (negb _ || _); reflexivity. }
           rewrite Hoth. cbn [fst] in HB. rewrite HB.
           rewrite map_app. cbn [map]. rewrite <- app_assoc. cbn [app].
           rewrite nth_app' by (rewrite map_length; lia).
           cbn [negb]. reflexivity.
        -- rewrite comp_obj_cur. cbn [c_key c_v1 c_v2]. rewrite <- Hx. unfold cur. f_equal. f_equal.
           rewrite Hkey. symmetry. eapply (Pos_key k _ (snd z')). rewrite Forall_forall in HPB. apply HPB.
           apply in_or_app; right; now left.
        -- intros _. eexists. apply comp_obj_count.
        -- apply IH. exists A', z', dead, t'. cbn.
           repeat split; auto.
           ++ rewrite map_app, <- app_assoc. reflexivity.
           ++ rewrite app_length. cbn. lia.
           ++ destruct Hsrt as [Hsrt|Hsrt]; auto. subst A. right.
              destruct A'; auto. discriminate.
           ++ inversion HsR; auto.
Qed.

(** What a child handed to a composite must satisfy. *)
Definition good_child (k : Z) (p : pitr * list elem) : Prop :=
  snd p <> [] /\ Ready false (snd p) (fst p) /\ sorted (snd p) /\
  Forall (fun x => fst (fst x) = k) (snd p).

Lemma new_comp_yields sf k P R :
  std_sort comp_gt sf -> Forall (good_child k) P -> P <> [] ->
  sorted R -> Permutation R (contents P) ->
  Ready true R (new_comp_itr sf (map fst P) k).
Proof.
  intros Hsf HP Hne HsR HpR.
  assert (HRne : exists x R', R = x :: R').
  { destruct P as [|p P]; [contradiction|]. inversion HP as [|? ? (Hp & _) _]; subst.
    destruct R as [|x R']; eauto. unfold contents in HpR. cbn in HpR. apply Permutation_nil in HpR.
    apply app_eq_nil in HpR. tauto. }
  destruct HRne as (x & R' & ->).
  apply Ready_intro.
  - unfold new_comp_itr. rewrite comp_obj_hasNext. destruct P; [contradiction|reflexivity].
  - destruct (@exists_last _ P Hne) as (A & z & ->).
    pose proof (Forall_app (good_child k) A [z]) as [HPapp _].
    destruct (HPapp HP) as [HPA HPz]. inversion HPz as [|? ? (Hzne & (Hzy & Hzm) & Hzs & Hzk) _]; subst.
    destruct z as [c l]. cbn [fst snd] in *. destruct l as [|y t]; [contradiction|].
    destruct Hzm as (c2 & Hn & Hc2 & _ & Hy2).
    destruct (comp_next_others_ok k (-1) A [c2] false) as (Q & HQ & HQs & HQP).
    { exact HPA. }
    assert (HlenQ : length Q = length A) by (rewrite <- (map_length snd Q), HQs, map_length; auto).
    assert (HPQ : Forall (PosP k) (Q ++ [(c2, y :: t)])).
    { apply Forall_app; split; auto. constructor; [|constructor]. exists t. cbn. subst y. auto. }
    assert (Hcont : contents (Q ++ [(c2, y :: t)]) = contents (A ++ [(c, y :: t)])).
    { unfold contents. now rewrite !map_app, HQs. }
    assert (exists B srt, 
       (if nonempty A then
          (comp_rearrange sf false (S (length A)) (map fst Q ++ [c2]), true)
        else (comp_bubble (length A) (map fst Q ++ [c2]), false)) = (map fst B, srt) /\
        Permutation B (Q ++ [(c2, y :: t)]) /\ desc B /\ (srt = true \/ length B = 1%nat))
      as (B & srt & HB & HpB & HdB & Hsrt).
    { destruct A as [|a A].
      - destruct Q; [|discriminate]. exists [(c2, y :: t)], false. repeat split; auto.
        repeat constructor.
      - destruct (comp_rearrange_ok sf k (Q ++ [(c2, y :: t)]) [] Hsf HPQ) as (B & HB & Hp & Hd).
        rewrite !app_nil_r, map_app, app_length in HB. cbn [map fst length] in HB.
        rewrite HlenQ, Nat.add_1_r in HB.
        exists B, true. cbn [nonempty]. rewrite HB. auto. }
    assert (HPB : Forall (PosP k) B).
    { eapply Permutation_Forall; [symmetry; exact HpB|]. exact HPQ. }
    destruct (comp_deliver k x R' B) as (A' & z' & t' & -> & Hx & Hz' & HpR'); auto.
    { rewrite HpR, <- Hcont. symmetry. now apply contents_perm. }
    assert (HlenB : length A' = length A).
    { apply Permutation_length in HpB. rewrite !app_length in HpB. cbn in HpB. lia. }
    eexists. split; [|split; [|split]].
    + unfold new_comp_itr. rewrite comp_obj_next. unfold comp_next, comp_init.
      cbn [c_hnc c_active c_decr c_children c_ign c_sorted c_v1].
      rewrite map_length, app_length, Nat.add_1_r.
      rewrite map_app. cbn [map fst].
      rewrite nth_app' by now rewrite map_length. rewrite Hn.
      rewrite upd_app' by now rewrite map_length. cbn [negb orb c_v1].
      rewrite HQ. cbn [orb].
      assert (Hif : (if nonempty A
            then Some (comp_rearrange sf false (S (length A)) (map fst Q ++ [c2]), true)
            else Some (comp_bubble (length A) (map fst Q ++ [c2]), false)) = Some (map fst (A' ++ [z']), srt)).
      { rewrite <- HB. destruct (nonempty A); reflexivity. }
      rewrite Hif. rewrite map_app. cbn [map].
      rewrite nth_app' by (rewrite map_length; lia). reflexivity.
    + rewrite comp_obj_cur. cbn [c_key c_v1 c_v2]. rewrite <- Hx. unfold cur. f_equal. f_equal.
      symmetry. eapply (Pos_key k _ (snd z')). rewrite Forall_forall in HPB. apply HPB.
      apply in_or_app; right; now left.
    + intros _. eexists. apply comp_obj_count.
    + apply (comp_U_yields sf k Hsf). exists A', z', [], t'. cbn.
      repeat split; auto.
      * rewrite app_nil_r, map_app. reflexivity.
      * rewrite app_length. cbn. lia.
      * destruct Hsrt as [Hsrt|Hsrt]; auto. right. rewrite app_length in Hsrt.
        destruct A'; auto. cbn in Hsrt. lia.
      * inversion HsR; auto.
Qed.
