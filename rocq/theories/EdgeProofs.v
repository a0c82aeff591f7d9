(** Proofs about the edge interface. *)
From Coq Require Import Sorted.
From Verif Require Import ItrProofs EdgeSpec.
Local Open Scope Z_scope.

(** ** The filter for repeated variables *)
Definition same (i j : nat) (x : triple) : bool := field x i =? field x j.
Definition good_pos (i j : nat) : Prop := (i = 0 /\ j = 1 \/ i = 0 /\ j = 2 \/ i = 1 /\ j = 2)%nat.

Lemma fs_same_ok i j u : good_pos i j -> fs_same (Z.of_nat i) (Z.of_nat j) u = Some (same i j (cur u)).
Proof. intros [[-> ->]|[[-> ->]|[-> ->]]]; reflexivity. Qed.

Lemma fs_loop_ok i j : good_pos i j -> forall l cnt u fuel, Yields cnt l u -> (length l < fuel)%nat ->
  match filter (same i j) l with
  | [] => exists u', fs_loop fuel (Z.of_nat i) (Z.of_nat j) u = Some (false, u')
  | x :: _ => exists u' pre t, fs_loop fuel (Z.of_nat i) (Z.of_nat j) u = Some (true, u') /\ cur u' = x /\
      l = pre ++ x :: t /\ filter (same i j) pre = [] /\ same i j x = true /\ Yields cnt t u'
  end.
Proof.
  intros Hg. induction l as [|x l IH]; intros cnt u [|f] Hy Hf; cbn [length] in Hf; try lia; cbn [fs_loop filter].
  - destruct (Yields_poll _ _ _ Hy) as (u1 & -> & _). eexists. reflexivity.
  - destruct (Yields_poll _ _ _ Hy) as (u1 & -> & _ & u2 & E2 & Ec & _ & Hy2). cbn [nonempty]. rewrite E2, fs_same_ok, Ec by auto.
    destruct (same i j x) eqn:Es.
    + exists u2, [], l. repeat split; auto.
    + specialize (IH _ _ f Hy2 ltac:(lia)). destruct (filter (same i j) l) as [|y r].
      * exact IH.
      * destruct IH as (u' & pre & t & E & C & -> & F & Sx & Y). exists u', (x :: pre), t. repeat split; auto. cbn. now rewrite Es.
Qed.

Lemma fs_obj_hasNext fuel s : hasNext (fs_obj fuel s) =
  match fs_hasNext fuel s with Some (b, s') => Some (b, fs_obj fuel s') | None => None end.
Proof. reflexivity. Qed.
Lemma fs_obj_next fuel s : next (fs_obj fuel s) =
  Some (fs_obj fuel (mkFs (fs_u s) (fs_pos1 s) (fs_pos2 s) (fs_hn s) false (fs_saved s))).
Proof. reflexivity. Qed.
Lemma fs_obj_cur fuel s : cur (fs_obj fuel s) = cur (fs_u s).
Proof. reflexivity. Qed.

Lemma fs_yields i j : good_pos i j -> forall n l cnt s fuel, (length l <= n)%nat -> Yields cnt l (fs_u s) ->
  (length l < fuel)%nat -> fs_pos1 s = Z.of_nat i -> fs_pos2 s = Z.of_nat j -> fs_hnc s = false ->
  Yields false (filter (same i j) l) (fs_obj fuel s).
Proof.
  intros Hg. induction n as [|n IH]; intros l cnt s fuel Hn Hy Hf E1 E2 Eh;
    pose proof (fs_loop_ok i j Hg l cnt (fs_u s) fuel Hy Hf) as HL.
  - destruct l; [|cbn in Hn; lia]. cbn [filter] in *. destruct HL as (u' & E).
    eapply Yields_intro; [| |exact I].
    + rewrite fs_obj_hasNext. unfold fs_hasNext. rewrite Eh, E1, E2, E. reflexivity.
    + reflexivity.
  - destruct (filter (same i j) l) as [|x r] eqn:EF.
    + destruct HL as (u' & E). eapply Yields_intro; [| |exact I].
      * rewrite fs_obj_hasNext. unfold fs_hasNext. rewrite Eh, E1, E2, E. reflexivity.
      * reflexivity.
    + destruct HL as (u' & pre & t & E & Ec & -> & F & Sx & Y). eapply Yields_intro.
      * rewrite fs_obj_hasNext. unfold fs_hasNext. rewrite Eh, E1, E2, E. reflexivity.
      * reflexivity.
      * eexists. split; [apply fs_obj_next|]. split; [exact Ec|]. split; [discriminate|].
        assert (Ht : r = filter (same i j) t).
        { rewrite filter_app, F in EF. cbn [app filter] in EF. rewrite Sx in EF. congruence. }
        rewrite Ht. rewrite app_length in Hn, Hf. cbn [length] in Hn, Hf. unfold elem, triple in *; eapply IH; cbn; eauto; lia.
Qed.

(** ** Edges *)
Lemma e_drain_ok inv : forall l cnt o fuel, Yields cnt l o -> (length l < fuel)%nat ->
  Forall (fun i => (i < 3)%nat) inv -> length inv = 3%nat ->
  e_drain fuel (mkEdge inv o) = Some (map (reorder inv) l).
Proof.
  destruct inv as [|a [|b [|c [|? ?]]]]; cbn [length]; try discriminate.
  induction l as [|x l IH]; intros cnt o [|f] Hy Hf HF _; cbn [length] in Hf; try lia; cbn [e_drain map].
  - destruct (Yields_poll _ _ _ Hy) as (o1 & E & _). unfold e_hasNext. cbn [e_itr]. rewrite E. reflexivity.
  - destruct (Yields_poll _ _ _ Hy) as (o1 & E & _ & o2 & E2 & Ec & _ & Y). unfold e_hasNext. cbn [e_itr]. rewrite E. cbn [nonempty].
    unfold e_next. cbn [e_itr e_order]. rewrite E2.
    rewrite (IH _ _ f Y ltac:(lia) HF eq_refl).
    assert (Et : e_triple {| e_order := [a; b; c]; e_itr := o2 |} = Some (reorder [a; b; c] x)).
    { rewrite <- Ec. unfold e_triple, e_field, reorder. cbn [e_order nth_error nth].
      assert (Hv : forall i, (i < 3)%nat -> e_value {| e_order := [a; b; c]; e_itr := o2 |} i = Some (field (cur o2) i)).
      { intros [|[|[|i]]] Hi; cbn; auto; lia. }
      inversion HF as [|? ? H1 HF1]; subst. inversion HF1 as [|? ? H2 HF2]; subst. inversion HF2 as [|? ? H3 HF3]; subst.
      rewrite !Hv by auto. reflexivity. }
    rewrite Et. reflexivity.
Qed.

Lemma matches_neg1 s r d t : matches (neg1 s, neg1 r, neg1 d) t <-> matches (s, r, d) t.
Proof.
  unfold matches, matches1, neg1. split; intros H i Hi; specialize (H i Hi); destruct i as [|[|[|i]]]; cbn in *; try lia;
    match goal with H : context [?v <? 0] |- _ => destruct (Z.ltb_spec v 0) | |- context [?v <? 0] => destruct (Z.ltb_spec v 0) end; lia.
Qed.
Lemma matches_fields s r d t : matches (s, r, d) t ->
  (s < 0 \/ s = field t 0) /\ (r < 0 \/ r = field t 1) /\ (d < 0 \/ d = field t 2).
Proof. intros H. split; [exact (H 0%nat ltac:(lia))|]. split; [exact (H 1%nat ltac:(lia))|exact (H 2%nat ltac:(lia))]. Qed.

Lemma edg_plan k s r d : exists ord inv, perm_positions (edg_idx k s r d) = Some ord /\ getInvOrder (edg_idx k s r d) = Some inv /\
  (forall t, reorder inv (reorder ord t) = t) /\ (forall t, reorder ord (reorder inv t) = t) /\ Forall (fun i => (i < 3)%nat) inv /\ length inv = 3%nat /\
  constants_first ord (neg1 s, neg1 r, neg1 d) /\
  (forall t1 t2, matches (s, r, d) t1 -> matches (s, r, d) t2 -> elt (reorder ord t1) (reorder ord t2) -> lex_lt (positions k) t1 t2).
Proof.
  unfold edg_idx.
  destruct k; repeat match goal with |- context [0 <=? ?v] => destruct (Z.leb_spec 0 v) end;
    (do 2 eexists; split; [reflexivity|]; split; [reflexivity|]; split; [intros [[? ?] ?]; reflexivity|]; split; [intros [[? ?] ?]; reflexivity|];
     split; [repeat constructor|]; split; [reflexivity|]; split;
     [ unfold neg1; cbn; repeat match goal with |- context [?v <? 0] => destruct (Z.ltb_spec v 0) end; lia
     | intros [[a b] c] [[a' b'] c'] M1 M2; apply matches_fields in M1, M2; cbn in M1, M2; cbn; lia ]).
Qed.

Section Query.
Variables (getIt : Z -> Z -> Z -> Z -> pitr) (db : list triple).
Hypothesis Hserves : serves getIt db.

Lemma neg1_ge v : -1 <= neg1 v.
Proof. unfold neg1. destruct (Z.ltb_spec v 0); lia. Qed.

(** What the index asked by [edg k] delivers. *)
Lemma edg_source k s r d : exists ord inv l, perm_positions (edg_idx k s r d) = Some ord /\ getInvOrder (edg_idx k s r d) = Some inv /\
  (forall t, reorder inv (reorder ord t) = t) /\ Forall (fun i => (i < 3)%nat) inv /\ length inv = 3%nat /\
  Yields false l (getIt (edg_idx k s r d) (neg1 s) (neg1 r) (neg1 d)) /\ StronglySorted elt l /\
  (forall x, In x l <-> exists t, In t db /\ matches (s, r, d) t /\ x = reorder ord t) /\
  (forall t, In t (map (reorder inv) l) <-> In t db /\ matches (s, r, d) t) /\
  StronglySorted (lex_lt (positions k)) (map (reorder inv) l).
Proof.
  destruct (edg_plan k s r d) as (ord & inv & E1 & E2 & R & R' & F & L & C & HS).
  destruct (Hserves _ ord _ _ _ E1 (neg1_ge s) (neg1_ge r) (neg1_ge d) C) as (l & Y & S & HI).
  assert (HI' : forall x, In x l <-> exists t, In t db /\ matches (s, r, d) t /\ x = reorder ord t).
  { intros x. rewrite HI. setoid_rewrite matches_neg1. reflexivity. }
  exists ord, inv, l. repeat (split; [assumption|]). split.
  - intros t. rewrite in_map_iff. split.
    + intros (x & <- & Hx). apply HI' in Hx. destruct Hx as (u & Hu & M & ->). rewrite R. auto.
    + intros [H1 H2]. exists (reorder ord t). split; auto. apply HI'. eauto.
  - assert (HM : Forall (fun x => exists t, matches (s, r, d) t /\ x = reorder ord t) l).
    { apply Forall_forall. intros x Hx. apply HI' in Hx. destruct Hx as (t & _ & Hx). eauto. }
    clear - HM S HS R. induction S as [|x l S IH Fx]; cbn [map]; constructor.
    + inversion HM; auto.
    + inversion HM as [|? ? (t & M & ->) HM']; subst. apply Forall_forall. intros y Hy. apply in_map_iff in Hy. destruct Hy as (z & <- & Hz).
      rewrite Forall_forall in Fx, HM'. destruct (HM' _ Hz) as (t' & M' & ->). rewrite !R. apply HS; auto.
Qed.
End Query.

Lemma sameVar_none s r d : sameVar s r d = None <-> distinct_vars s r d.
Proof.
  unfold sameVar, distinct_vars. destruct (Z.ltb_spec s 0), (Z.eqb_spec r s), (Z.eqb_spec d s), (Z.ltb_spec r 0), (Z.eqb_spec d r); cbn; split; intros H'; try discriminate; try reflexivity; lia.
Qed.

(** ** Groups *)
Definition kkey (two : bool) (x : elem) : list Z := if two then [fst (fst x); snd (fst x)] else [fst (fst x)].
Inductive runs (two : bool) : list elem -> list (list Z * Z) -> Prop :=
| runs_nil : runs two [] []
| runs_cons x pre rest g : Forall (fun y => kkey two y = kkey two x) pre ->
    match rest with [] => True | y :: _ => kkey two y <> kkey two x end ->
    runs two rest g -> runs two (x :: pre ++ rest) ((kkey two x, 1 + Z.of_nat (length pre)) :: g).

Lemma kkey_test two x y : negb (fst (fst y) =? fst (fst x)) || (two && negb (snd (fst y) =? snd (fst x))) = false <-> kkey two y = kkey two x.
Proof.
  unfold kkey. destruct two; cbn [andb]; destruct (Z.eqb_spec (fst (fst y)) (fst (fst x))) as [E|N]; cbn [negb orb].
  - destruct (Z.eqb_spec (snd (fst y)) (snd (fst x))) as [E2|N2]; cbn [negb]; split; congruence.
  - split; congruence.
  - split; congruence.
  - split; congruence.
Qed.

Lemma kc_loop_ok two inv x : forall l cnt o fuel n, Yields cnt l o -> (length l < fuel)%nat ->
  exists pre rest o' b, l = pre ++ rest /\ Forall (fun y => kkey two y = kkey two x) pre /\
    kc_loop fuel two (mkEdge inv o) (fst (fst x)) (snd (fst x)) n = Some (mkEdge inv o', b, n + Z.of_nat (length pre)) /\
    match rest with
    | [] => b = false /\ Yields cnt [] o'
    | y :: t => b = true /\ kkey two y <> kkey two x /\ cur o' = y /\ Yields cnt t o'
    end.
Proof.
  induction l as [|y l IH]; intros cnt o [|f] n Hy Hf; cbn [length] in Hf; try lia; cbn [kc_loop].
  - destruct (Yields_poll _ _ _ Hy) as (o1 & E & Rd). exists [], [], o1, false. unfold e_hasNext. cbn [e_itr e_order]. rewrite E. cbn [nonempty].
    repeat split; auto. f_equal. f_equal. cbn. lia. apply Rd.
  - destruct (Yields_poll _ _ _ Hy) as (o1 & E & _ & o2 & E2 & Ec & _ & Y). unfold e_hasNext. cbn [e_itr e_order]. rewrite E. cbn [nonempty].
    unfold e_next. cbn [e_itr e_order]. rewrite E2. cbn [e_value e_itr].
    assert (Ev : key o2 = fst (fst y) /\ value1 o2 = snd (fst y)) by (rewrite <- Ec; auto). destruct Ev as [-> ->].
    destruct (negb (fst (fst y) =? fst (fst x)) || (two && negb (snd (fst y) =? snd (fst x)))) eqn:Et.
    + exists [], (y :: l), o2, true. repeat split; auto. f_equal. f_equal. cbn. lia.
      intros Hk. apply kkey_test in Hk. congruence.
    + apply kkey_test in Et. destruct (IH cnt o2 f (n + 1) Y ltac:(lia)) as (pre & rest & o' & b & -> & F & EL & HR).
      exists (y :: pre), rest, o', b. repeat split; auto. rewrite EL. f_equal. f_equal. cbn [length]. lia.
Qed.

Definition kc_at (l : list elem) (inv : list nat) (s : kc_st) : Prop :=
  kc_hnDone s = false /\ e_order (kc_itr s) = inv /\
  ((kc_nextDone s = false /\ Yields false l (e_itr (kc_itr s))) \/
   (kc_nextDone s = true /\ exists t, l = cur (e_itr (kc_itr s)) :: t /\ Yields false t (e_itr (kc_itr s)))).

Lemma kc_hasNext_ok fuel two l inv s : kc_at l inv s -> (length l < fuel)%nat ->
  match l with
  | [] => exists s', kc_hasNext fuel two s = Some (false, s')
  | x :: l' => exists pre rest s1, l' = pre ++ rest /\ Forall (fun y => kkey two y = kkey two x) pre /\
      match rest with [] => True | y :: _ => kkey two y <> kkey two x end /\
      kc_hasNext fuel two s = Some (true, s1) /\
      exists s2, kc_next two s1 = Some s2 /\ kc_at rest inv s2 /\ kc_card s2 = 1 + Z.of_nat (length pre) /\
        kc_key1 s2 = Some (fst (fst x)) /\ (two = true -> kc_key2 s2 = Some (snd (fst x)))
  end.
Proof.
  intros (H1 & H2 & H3) Hf. unfold kc_hasNext. rewrite H1.
  assert (Hstep : match l with
    | [] => kc_nextDone s = false /\ exists o, e_hasNext (kc_itr s) = Some (false, mkEdge inv o)
    | x :: t => exists o, (if kc_nextDone s then Some (true, kc_itr s)
       else do (b, e1) <- e_hasNext (kc_itr s);
         if b then do e2 <- e_next e1; Some (true, e2) else Some (false, e1)) = Some (true, mkEdge inv o) /\ cur o = x /\ Yields false t o end).
  { destruct (kc_itr s) as [ord o] eqn:Ei. cbn [e_order e_itr] in *. subst ord. destruct H3 as [[E Y]|[E (t & -> & Y)]]; rewrite E.
    - destruct (Yields_poll _ _ _ Y) as (o1 & Eh & Hr). unfold e_hasNext. cbn [e_itr e_order]. rewrite Eh. destruct l as [|x t]; cbn [nonempty].
      + split; auto. eexists. reflexivity.
      + destruct Hr as (_ & o2 & E2 & Ec & _ & Y2). unfold e_next. cbn [e_itr e_order]. rewrite E2. eexists. split; [reflexivity|]. auto.
    - eexists. split; [reflexivity|]. auto. }
  destruct l as [|x t].
  - destruct Hstep as [En (o & Eh)]. rewrite En, Eh. eexists. reflexivity.
  - destruct Hstep as (o & -> & Ec & Y). cbn [length] in Hf.
    destruct (kc_loop_ok two inv x t false o fuel 1 Y ltac:(lia)) as (pre & rest & o' & b & -> & F & EL & HR).
    cbn [e_value e_itr]. replace (key o) with (fst (fst x)) by (rewrite <- Ec; auto). replace (value1 o) with (snd (fst x)) by (rewrite <- Ec; auto).
    rewrite EL. exists pre, rest. eexists. split; [reflexivity|]. split; [exact F|]. split; [destruct rest; auto; apply HR|]. split; [reflexivity|].
    unfold kc_next. cbn. eexists. split; [reflexivity|]. cbn. split; [|auto].
    split; [reflexivity|]. split; [reflexivity|]. cbn. destruct rest as [|y r].
    + left. auto.
    + destruct HR as (-> & _ & <- & Yr). right. split; auto. exists r. auto.
    + repeat split; auto. intros ->. auto.
Qed.

Lemma kc_drain_ok fuel two inv : forall n l s m, (length l <= n)%nat -> kc_at l inv s -> (length l < fuel)%nat -> (length l < m)%nat ->
  exists res g, kc_drain fuel m two s = Some res /\ Forall2 (fun a b => (if two then read2 else read1) a = Some b) res g /\ runs two l g /\
    forall c, kc_count fuel m two s c = Some (c + Z.of_nat (length g)).
Proof.
  induction n as [|n IH]; intros l s [|m] Hn Ha Hf Hm; try lia; cbn [kc_drain kc_count]; pose proof (kc_hasNext_ok fuel two l inv s Ha Hf) as HN.
  - destruct l; [|cbn in Hn; lia]. destruct HN as (s' & ->). exists [], []. repeat split; try constructor. intros c. f_equal. cbn. lia.
  - destruct l as [|x l'].
    + destruct HN as (s' & ->). exists [], []. repeat split; try constructor. intros c. f_equal. cbn. lia.
    + destruct HN as (pre & rest & s1 & -> & F & Hr & -> & s2 & -> & Ha2 & Ec & E1 & E2). cbn [length] in *. rewrite app_length in *.
      destruct (IH rest s2 m ltac:(lia) Ha2 ltac:(lia) ltac:(lia)) as (res & g & -> & HF & HR & HC).
      eexists. exists ((kkey two x, 1 + Z.of_nat (length pre)) :: g). split; [reflexivity|]. split; [|split].
      * constructor; auto. rewrite E1, Ec. unfold kkey. destruct two; cbn; auto. rewrite E2 by auto. reflexivity.
      * constructor; auto.
      * intros c. rewrite HC. f_equal. cbn [length]. lia.
Qed.

Definition klt (two : bool) (x y : elem) : Prop :=
  fst (fst x) < fst (fst y) \/ (two = true /\ fst (fst x) = fst (fst y) /\ snd (fst x) < snd (fst y)).
Lemma elt_klt two x y : elt x y -> klt two x y \/ kkey two x = kkey two y.
Proof.
  destruct x as [[a b] c], y as [[a' b'] c']. unfold elt, klt, kkey. cbn. intros [H|[-> [H|[-> H]]]]; destruct two; auto.
Qed.
Lemma klt_neq two x y : klt two x y -> kkey two x <> kkey two y.
Proof. unfold klt, kkey. destruct x as [[a b] c], y as [[a' b'] c']; cbn. destruct two; intros H E; injection E; intros; intuition (try lia; try congruence). Qed.
Lemma klt_trans_eq two x y z : klt two x y -> klt two y z \/ kkey two y = kkey two z -> klt two x z.
Proof.
  unfold klt, kkey. destruct x as [[a b] c], y as [[a' b'] c'], z as [[a2 b2] c2]; cbn. destruct two; intros H [H2|E]; try (injection E; intros; subst); intuition (try lia; try discriminate).
Qed.

Definition kcount (two : bool) (k : list Z) (l : list elem) : Z :=
  Z.of_nat (length (filter (fun x => if list_eq_dec Z.eq_dec (kkey two x) k then true else false) l)).
Lemma kcount_all two x pre : Forall (fun y => kkey two y = kkey two x) pre -> kcount two (kkey two x) pre = Z.of_nat (length pre).
Proof. unfold kcount. induction 1 as [|y pre E _ IH]; cbn [filter length]; auto. rewrite E. destruct list_eq_dec; [cbn [length]; lia|congruence]. Qed.
Lemma kcount_none two k l : (forall x, In x l -> kkey two x <> k) -> kcount two k l = 0.
Proof. unfold kcount. intros H. induction l as [|y l IH]; cbn [filter]; auto. destruct list_eq_dec as [E|]; [exfalso; eapply H; [left; reflexivity|exact E]|]. apply IH. intros x Hx. apply H. right. auto. Qed.
Lemma kcount_app two k l l' : kcount two k (l ++ l') = kcount two k l + kcount two k l'.
Proof. unfold kcount. rewrite filter_app, app_length. lia. Qed.

Lemma runs_grouping two l g : runs two l g -> StronglySorted elt l ->
  NoDup (map fst g) /\ (forall k, In k (map fst g) <-> exists x, In x l /\ kkey two x = k) /\
  (forall k n, In (k, n) g -> n = kcount two k l).
Proof.
  induction 1 as [|x pre rest g F Hr HR IH]; intros HS.
  - cbn. repeat split; try constructor; try tauto. intros (x & [] & _). 
  - inversion HS as [|? ? HS1 Fx]; subst. assert (HS2 : StronglySorted elt rest) by (clear - HS1; induction pre; auto; inversion HS1; auto).
    destruct (IH HS2) as (N & I1 & C).
    assert (Hlt : forall y, In y rest -> klt two x y).
    { destruct rest as [|y r]; [intros ? []|]. inversion HS2 as [|? ? _ Fy]; subst.
      assert (Hxy : klt two x y).
      { rewrite Forall_forall in Fx. destruct (elt_klt two x y) as [?|E]; auto; [|congruence]. apply Fx, in_or_app. right. left. auto. }
      intros z [<-|Hz]; auto. eapply klt_trans_eq; [exact Hxy|]. rewrite Forall_forall in Fy. apply elt_klt, Fy. auto. }
    cbn [map fst]. split; [|split].
    + constructor; auto. intros Hi. apply I1 in Hi. destruct Hi as (y & Hy & E). apply (klt_neq _ _ _ (Hlt y Hy)). auto.
    + intros k. cbn [In]. rewrite I1. split.
      * intros [<-|(y & Hy & E)]; [exists x; auto|]. exists y. split; auto. right. apply in_or_app. auto.
      * intros (y & [<-|Hy] & E); auto. apply in_app_or in Hy. destruct Hy as [Hy|Hy]; [|right; eauto]. rewrite Forall_forall in F. left. rewrite <- E. symmetry. auto.
    + assert (Ex : kcount two (kkey two x) (x :: pre ++ rest) = 1 + Z.of_nat (length pre)).
      { change (x :: pre ++ rest) with ((x :: pre) ++ rest). rewrite kcount_app, kcount_all by (constructor; auto). rewrite kcount_none; [cbn [length]; lia|].
        intros y Hy E. apply (klt_neq _ _ _ (Hlt y Hy)). auto. }
      intros k n [E|Hi].
      * assert (k = kkey two x /\ n = 1 + Z.of_nat (length pre)) as [-> ->] by (split; congruence). auto.
      * rewrite (C _ _ Hi). change (x :: pre ++ rest) with ((x :: pre) ++ rest). rewrite kcount_app. rewrite (kcount_none two k (x :: pre)); auto.
        assert (Hk : In k (map fst g)) by (apply in_map_iff; exists (k, n); auto). apply I1 in Hk. destruct Hk as (y & Hy & <-).
        intros z Hz E. apply (klt_neq _ _ _ (Hlt y Hy)). rewrite <- E. destruct Hz as [<-|Hz]; auto. rewrite Forall_forall in F. symmetry. auto.
Qed.
