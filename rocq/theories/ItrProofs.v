(** Proofs about the iterator classes. *)
From Coq Require Import Sorted Permutation Lia.
From Verif Require Export ItrModel ItrSpec.
Local Open Scope Z_scope.

(** ** Order *)
Lemma elt_irrefl x : ~ elt x x.
Proof. destruct x as [[k a] b]; cbn; lia. Qed.
Lemma elt_trans x y z : elt x y -> elt y z -> elt x z.
Proof. destruct x as [[? ?] ?], y as [[? ?] ?], z as [[? ?] ?]; cbn; lia. Qed.
Lemma elt_tricho x y : {elt x y} + {x = y} + {elt y x}.
Proof.
  destruct x as [[k a] b], y as [[k' a'] b'].
  destruct (Z_lt_le_dec k k'); [left; left; cbn; lia|].
  destruct (Z_lt_le_dec k' k); [right; cbn; lia|].
  destruct (Z_lt_le_dec a a'); [left; left; cbn; lia|].
  destruct (Z_lt_le_dec a' a); [right; cbn; lia|].
  destruct (Z_lt_le_dec b b'); [left; left; cbn; lia|].
  destruct (Z_lt_le_dec b' b); [right; cbn; lia|].
  left; right. repeat f_equal; lia.
Qed.
Lemma ele_refl x : ele x x. Proof. right; reflexivity. Qed.
Lemma ele_trans x y z : ele x y -> ele y z -> ele x z.
Proof. unfold ele; intros [H|H] [H'|H']; subst; eauto using elt_trans. Qed.
Lemma ele_antisym x y : ele x y -> ele y x -> x = y.
Proof.
  intros [H|H] [H'|H']; auto. exfalso; eapply elt_irrefl, elt_trans; eauto.
Qed.
Lemma ele_total x y : ele x y \/ ele y x.
Proof. destruct (elt_tricho x y) as [[|]|]; unfold ele; auto. Qed.
Lemma elt_ele_trans x y z : elt x y -> ele y z -> elt x z.
Proof. intros H [H'|H']; subst; eauto using elt_trans. Qed.
Lemma elt_not_ele x y : elt x y -> ~ ele y x.
Proof. intros H H'. eapply elt_irrefl, elt_ele_trans; eauto. Qed.

Notation sorted := (StronglySorted ele).

Lemma sorted_perm_head x l l' y :
  sorted (x :: l) -> Permutation (x :: l) l' -> In y l' -> (forall z, In z l' -> ele y z) ->
  y = x.
Proof.
  intros Hs Hp Hy Hmin. apply ele_antisym.
  - apply Hmin. eapply Permutation_in; [exact Hp|now left].
  - inversion Hs as [|? ? _ Hf]; subst.
    eapply Permutation_in in Hy; [|apply Permutation_sym; exact Hp].
    destruct Hy as [<-|Hy]; [apply ele_refl|]. rewrite Forall_forall in Hf; auto.
Qed.

Lemma sorted_perm_eq l l' : sorted l -> sorted l' -> Permutation l l' -> l = l'.
Proof.
  revert l'; induction l as [|x l IH]; intros l' Hs Hs' Hp.
  - apply Permutation_nil in Hp; auto.
  - destruct l' as [|y l']; [apply Permutation_sym, Permutation_nil in Hp; discriminate|].
    assert (x = y) as ->.
    { symmetry; apply (sorted_perm_head x l (y :: l') y); auto.
      - now left.
      - inversion Hs' as [|? ? _ Hf]; subst. intros z [<-|Hz]; [apply ele_refl|].
        rewrite Forall_forall in Hf; auto. }
    f_equal. apply IH.
    + inversion Hs; auto.
    + inversion Hs'; auto.
    + eapply Permutation_cons_inv; eauto.
Qed.

Lemma sorted_perm_exists (l : list elem) : exists r, sorted r /\ Permutation r l.
Proof.
  induction l as [|x l (r & Hs & Hp)]; [exists []; split; constructor|].
  assert (exists r', sorted r' /\ Permutation r' (x :: r)) as (r' & Hs' & Hp').
  { clear Hp. induction r as [|y r IH].
    - exists [x]; split; [repeat constructor|reflexivity].
    - inversion Hs as [|? ? Hsr Hf]; subst.
      destruct (ele_total x y) as [H|H].
      + exists (x :: y :: r); split; [|reflexivity].
        constructor; auto. constructor; auto.
        eapply Forall_impl; [|exact Hf]. intros; eapply ele_trans; eauto.
      + destruct (IH Hsr) as (r' & Hs' & Hp').
        exists (y :: r'); split.
        * constructor; auto. rewrite Forall_forall in *. intros z Hz.
          eapply Permutation_in in Hz; [|exact Hp']. destruct Hz as [<-|Hz]; auto.
        * rewrite Hp'. apply perm_swap. }
  exists r'; split; auto. rewrite Hp'. now constructor.
Qed.

(** ** Contract *)
Lemma polls_trans o o1 o2 : polls o o1 -> polls o1 o2 -> polls o o2.
Proof. intros H H'; induction H'; auto. econstructor; eauto. Qed.

Lemma Yields_unfold cnt l o :
  Yields cnt l o <->
  forall o', polls o o' ->
  exists o1, hasNext o' = Some (nonempty l, o1) /\
    match l with
    | [] => True
    | x :: t => exists o2, next o1 = Some o2 /\ cur o2 = x /\
        (cnt = true -> exists c, getCount o2 = Some (c, o2)) /\ Yields cnt t o2
    end.
Proof. destruct l; reflexivity. Qed.

Lemma Yields_polls cnt l o o' : Yields cnt l o -> polls o o' -> Yields cnt l o'.
Proof.
  rewrite !Yields_unfold. intros H Hp o2 Hp2. apply H. eapply polls_trans; eauto.
Qed.

Lemma Yields_poll cnt l o :
  Yields cnt l o -> exists o1, hasNext o = Some (nonempty l, o1) /\ Ready cnt l o1.
Proof.
  intros H. pose proof H as H0. rewrite Yields_unfold in H0.
  destruct (H0 o (polls_refl o)) as (o1 & He & Hm).
  exists o1; split; auto. split; auto.
  eapply Yields_polls; [exact H|]. econstructor; [constructor|exact He].
Qed.

Lemma Yields_intro cnt l o o1 :
  hasNext o = Some (nonempty l, o1) -> hasNext o1 = Some (nonempty l, o1) ->
  match l with
  | [] => True
  | x :: t => exists o2, next o1 = Some o2 /\ cur o2 = x /\
      (cnt = true -> exists c, getCount o2 = Some (c, o2)) /\ Yields cnt t o2
  end -> Yields cnt l o.
Proof.
  intros H H1 Hm. apply Yields_unfold. intros o' Hp.
  assert (o' = o \/ o' = o1) as Ho.
  { induction Hp as [|a b c Hp [-> | -> ] Hn]; auto; right; congruence. }
  exists o1; split; auto. destruct Ho as [-> | -> ]; auto.
Qed.

Lemma Ready_intro cnt l o :
  hasNext o = Some (nonempty l, o) ->
  match l with
  | [] => True
  | x :: t => exists o2, next o = Some o2 /\ cur o2 = x /\
      (cnt = true -> exists c, getCount o2 = Some (c, o2)) /\ Yields cnt t o2
  end -> Ready cnt l o.
Proof. intros H Hm. split; auto. eapply Yields_intro; eauto. Qed.

Lemma Yields_weaken l o : forall cnt, Yields cnt l o -> Yields false l o.
Proof.
  revert o; induction l as [|x t IH]; intros o cnt H; rewrite Yields_unfold in *;
    intros o' Hp; destruct (H o' Hp) as (o1 & He & Hm); exists o1; split; auto.
  destruct Hm as (o2 & Hn & Hc & _ & Hy). exists o2. split; [exact Hn|split; [exact Hc|split]].
  - discriminate.
  - eapply IH; eauto.
Qed.

Lemma Yields_drain cnt l o fuel :
  Yields cnt l o -> (length l < fuel)%nat -> drain fuel o = Some l.
Proof.
  revert o fuel; induction l as [|x t IH]; intros o fuel Hy Hf;
    (destruct fuel as [|fuel]; [cbn in Hf; lia|]);
    destruct (Yields_poll _ _ _ Hy) as (o1 & He & _ & Hm); cbn [drain]; rewrite He; cbn.
  - reflexivity.
  - destruct Hm as (o2 & -> & <- & _ & Hy2). rewrite (IH o2 fuel); auto. cbn in Hf; lia.
Qed.

Lemma list_yields cnt l : forall c, Yields cnt l (list_itr c l).
Proof.
  induction l as [|x t IH]; intros c.
  - apply (Yields_intro cnt [] _ (list_itr c [])); reflexivity || exact I.
  - apply (Yields_intro cnt (x :: t) _ (list_itr c (x :: t))); try reflexivity.
    exists (list_itr x t). split; [reflexivity|]. split.
    + destruct x as [[? ?] ?]; reflexivity.
    + split; [|apply IH]. intros _. exists 1. reflexivity.
Qed.

(** ** EmptyItr *)
Lemma empty_yields cnt k : Yields cnt [] (empty_itr k).
Proof. apply (Yields_intro cnt [] _ (empty_itr k)); reflexivity || exact I. Qed.

(** ** RmItr *)
Lemma rm_cmp_spec a b :
  (rm_cmp false a b < 0 /\ elt (cur a) (cur b)) \/
  (rm_cmp false a b = 0 /\ cur a = cur b) \/
  (0 < rm_cmp false a b /\ elt (cur b) (cur a)).
Proof.
  unfold rm_cmp, cur, elt.
  destruct (key a <? key b) eqn:E1; [left; lia|].
  destruct (key a =? key b) eqn:E2; [|right; right; lia].
  destruct (value1 a - value1 b <? 0) eqn:E3; [left; lia|].
  destruct (0 <? value1 a - value1 b) eqn:E4; [right; right; lia|].
  destruct (value2 a - value2 b <? 0) eqn:E5; [left; lia|].
  destruct (0 <? value2 a - value2 b) eqn:E6; [right; right; lia|].
  right; left. split; [lia|]. repeat f_equal; lia.
Qed.

Lemma rm_advance_ok fuel D r i :
  Yields false D r -> sorted (cur r :: D) -> (length D < fuel)%nat ->
  exists c r', rm_advance fuel false r i (rm_cmp false r i) = Some (c, r') /\
   ((c < 0 /\ Forall (fun d => elt d (cur i)) (cur r :: D)) \/
    (0 <= c /\ exists pre D', cur r :: D = pre ++ cur r' :: D' /\ Yields false D' r' /\
       Forall (fun d => elt d (cur i)) pre /\
       ((c = 0 /\ cur r' = cur i) \/ (0 < c /\ elt (cur i) (cur r'))))).
Proof.
  revert D r; induction fuel as [|fuel IH]; intros D r Hy Hs Hf; [lia|].
  cbn [rm_advance].
  destruct (rm_cmp false r i <? 0) eqn:E.
  - destruct (rm_cmp_spec r i) as [[_ Hlt]|[[? _]|[? _]]]; try lia.
    destruct (Yields_poll _ _ _ Hy) as (r1 & -> & _ & Hm).
    destruct D as [|d D]; cbn [nonempty].
    + do 2 eexists; split; [reflexivity|]. left. split; [lia|]. constructor; [exact Hlt|constructor].
    + destruct Hm as (r2 & -> & Hc & _ & Hy2).
      inversion Hs as [|? ? Hs' Hfa]; subst.
      destruct (IH D r2 Hy2 Hs') as (c & r' & He & Hres); [cbn in Hf; lia|].
      exists c, r'; split; [exact He|].
      destruct Hres as [[Hc0 Hfa']|[Hc0 (pre & D' & Heq & Hy' & Hpre & Hcase)]].
      * left; split; auto.
      * right; split; auto. exists (cur r :: pre), D'. rewrite Heq. repeat split; auto.
  - exists (rm_cmp false r i), r; split; [reflexivity|]. right; split; [lia|].
    exists [], D. repeat split; auto.
    destruct (rm_cmp_spec r i) as [[? _]|[[? ?]|[? ?]]]; try lia; auto.
Qed.

Definition keep (D : list elem) (x : elem) : bool :=
  if in_dec elem_dec x D then false else true.

Lemma keep_spec D x : keep D x = true <-> ~ In x D.
Proof. unfold keep; destruct (in_dec elem_dec x D); split; intros; auto; discriminate || contradiction. Qed.

Definition rm_inv (fuel : nat) (M R : list elem) (i r : pitr) (v : bool) : Prop :=
  Yields true M i /\ sorted M /\
  if v then exists D, Yields false D r /\ sorted (cur r :: D) /\
                      R = filter (keep (cur r :: D)) M /\ (length M + length D + 1 < fuel)%nat
  else R = M /\ (length M < fuel)%nat.

Lemma filter_keep_drop pre D M :
  (forall d x, In d pre -> In x M -> d <> x) ->
  filter (keep (pre ++ D)) M = filter (keep D) M.
Proof.
  intros H. apply filter_ext_in. intros x Hx.
  destruct (keep D x) eqn:E.
  - apply keep_spec. rewrite keep_spec in E. rewrite in_app_iff. intros [H1|H1]; [|tauto].
    eapply H; eauto.
  - destruct (keep (pre ++ D) x) eqn:E2; auto.
    rewrite keep_spec in E2. exfalso. apply E2. rewrite in_app_iff. right.
    unfold keep in E. destruct (in_dec elem_dec x D); auto. discriminate.
Qed.

Lemma filter_keep_all D M :
  (forall x, In x M -> ~ In x D) -> filter (keep D) M = M.
Proof.
  intros H; induction M as [|x M IH]; cbn; auto.
  rewrite (proj2 (keep_spec D x)); [|apply H; now left].
  f_equal; apply IH. intros; apply H; now right.
Qed.

Lemma sorted_app_r (l l' : list elem) : sorted (l ++ l') -> sorted l'.
Proof. induction l; cbn; auto. intros H; inversion H; auto. Qed.

Lemma rm_loop_ok fuel fuel0 M R i r v n :
  rm_inv fuel M R i r v -> (fuel <= fuel0)%nat ->
  exists i' r' v' n',
    rm_loop fuel false i r v n = Some (nonempty R, i', r', v', n') /\
    match R with
    | [] => True
    | x :: R' => cur i' = x /\ exists M', rm_inv fuel0 M' R' i' r' v'
    end.
Proof.
  revert M R i r v n; induction fuel as [|fuel IH]; intros M R i r v n (Hy & Hs & Hv) Hfu.
  { exfalso. destruct v; [destruct Hv as (? & _ & _ & _ & H)|destruct Hv as [_ H]]; lia. }
  cbn [rm_loop].
  destruct (Yields_poll _ _ _ Hy) as (i1 & -> & _ & Hm).
  destruct M as [|x M]; cbn [nonempty].
  { destruct v; [destruct Hv as (D & _ & _ & -> & _)|destruct Hv as [-> _]]; cbn [filter nonempty];
      do 4 eexists; (split; [reflexivity|exact I]). }
  destruct Hm as (i2 & -> & Hc & Hcnt & Hy2).
  destruct (Hcnt eq_refl) as (c0 & Hcount).
  inversion Hs as [|? ? HsM Hfa]; subst.
  destruct v.
  2:{ destruct Hv as [-> Hlen]. rewrite Hcount. do 4 eexists; split; [reflexivity|].
      split; auto. exists M. split; auto. split; auto. split; auto. cbn in Hlen; lia. }
  destruct Hv as (D & HyD & HsD & -> & Hlen). cbn [length] in Hlen.
  destruct (rm_advance_ok (S fuel) D r i2 HyD HsD) as (c & r' & -> & Hres); [lia|].
  destruct Hres as [[Hc0 Hall]|[Hc0 (pre & D' & Heq & HyD' & Hpre & Hcase)]].
  - replace (c <? 0) with true by lia. rewrite Hcount.
    assert (Hk : filter (keep (cur r :: D)) (cur i2 :: M) = cur i2 :: M).
    { apply filter_keep_all. intros y Hin HyD2. rewrite Forall_forall in Hall.
      specialize (Hall _ HyD2).
      destruct Hin as [<-|Hin]; [eapply elt_irrefl; eauto|].
      rewrite Forall_forall in Hfa. eapply elt_not_ele; [exact Hall|]. apply Hfa; auto. }
    rewrite Hk. do 4 eexists; split; [reflexivity|].
    split; [reflexivity|]. exists M. split; auto. split; auto. split; auto. lia.
  - replace (c <? 0) with false by lia.
    assert (HsD' : sorted (cur r' :: D')) by (eapply sorted_app_r; rewrite <- Heq; exact HsD).
    assert (Hfr : filter (keep (cur r :: D)) (cur i2 :: M) = filter (keep (cur r' :: D')) (cur i2 :: M)).
    { rewrite Heq. apply filter_keep_drop. intros d y Hd Hyin ->.
      rewrite Forall_forall in Hpre. specialize (Hpre _ Hd).
      destruct Hyin as [<-|Hyin]; [eapply elt_irrefl; eauto|].
      rewrite Forall_forall in Hfa. eapply elt_not_ele; [exact Hpre|]. apply Hfa; auto. }
    assert (HfrM : filter (keep (cur r :: D)) M = filter (keep (cur r' :: D')) M).
    { rewrite Heq. apply filter_keep_drop. intros d y Hd Hyin ->.
      rewrite Forall_forall in Hpre. specialize (Hpre _ Hd).
      rewrite Forall_forall in Hfa. eapply elt_not_ele; [exact Hpre|]. apply Hfa; auto. }
    assert (HlenD : (length D' <= length D)%nat).
    { apply (f_equal (@length _)) in Heq. rewrite app_length in Heq. cbn in Heq. lia. }
    rewrite Hfr.
    destruct Hcase as [[-> He]|[Hpos Hlt]].
    + cbn [filter].
      assert (Hkx : keep (cur r' :: D') (cur i2) = false).
      { unfold keep. destruct (in_dec elem_dec (cur i2) (cur r' :: D')); auto.
        exfalso; apply n0; left; auto. }
      rewrite Hkx. cbn [Z.ltb Z.compare].
      apply (IH M). split; [exact Hy2|]. split; [exact HsM|]. exists D'.
      split; [exact HyD'|]. split; [exact HsD'|]. split; [reflexivity|lia]. lia.
    + replace (0 <? c) with true by lia. rewrite Hcount.
      assert (Hkx : keep (cur r' :: D') (cur i2) = true).
      { apply keep_spec. intros [He|Hin].
        - rewrite He in Hlt. eapply elt_irrefl; eauto.
        - inversion HsD' as [|? ? _ Hf]; subst. rewrite Forall_forall in Hf.
          eapply elt_not_ele; [exact Hlt|]. apply Hf; auto. }
      cbn [filter]. rewrite Hkx. do 4 eexists; split; [reflexivity|].
      split; [reflexivity|]. exists M. split; auto. split; auto. exists D'.
      split; [exact HyD'|]. split; [exact HsD'|]. split; [reflexivity|lia].
Qed.

Lemma rm_obj_hasNext fuel s : hasNext (rm_itr_obj fuel s) =
  match rm_hasNext fuel s with
  | Some (b, s') => Some (b, rm_itr_obj fuel s') | None => None end.
Proof. reflexivity. Qed.
Lemma rm_obj_next fuel s : next (rm_itr_obj fuel s) = Some (rm_itr_obj fuel (rm_next s)).
Proof. reflexivity. Qed.
Lemma rm_obj_count fuel s :
  getCount (rm_itr_obj fuel s) = Some (rm_curCount s, rm_itr_obj fuel s).
Proof. reflexivity. Qed.
Lemma rm_obj_cur fuel s : cur (rm_itr_obj fuel s) = (rm_key s, rm_v1 s, rm_v2 s).
Proof. reflexivity. Qed.

Lemma rm_obj_yields fuel R : forall M s,
  rm_hnc s = false -> rm_noseccol s = false ->
  rm_inv fuel M R (rm_itr s) (rm_rmitr s) (rm_valid s) ->
  Yields true R (rm_itr_obj fuel s).
Proof.
  induction R as [|x R IH]; intros M s Hhnc Hno Hinv;
    destruct (rm_loop_ok fuel fuel M _ _ _ _ (rm_nextCount s) Hinv (le_n _))
      as (i' & r' & v' & n' & Hl & Hrest).
  - eapply Yields_intro.
    + rewrite rm_obj_hasNext. unfold rm_hasNext. rewrite Hhnc, Hno, Hl. reflexivity.
    + rewrite rm_obj_hasNext. reflexivity.
    + exact I.
  - destruct Hrest as (Hc & M' & Hinv').
    eapply Yields_intro.
    + rewrite rm_obj_hasNext. unfold rm_hasNext. rewrite Hhnc, Hno, Hl. reflexivity.
    + rewrite rm_obj_hasNext. reflexivity.
    + eexists. split; [apply rm_obj_next|]. split; [rewrite rm_obj_cur; exact Hc|].
      split; [intros _; eexists; apply rm_obj_count|].
      eapply (IH M'); [reflexivity|reflexivity|exact Hinv'].
Qed.

Lemma new_rm_yields fuel M D main del :
  Yields true M main -> Yields false D del -> sorted M -> sorted D ->
  (length M + length D + 1 < fuel)%nat ->
  exists o, new_rm_itr fuel main del = Some o /\ Yields true (filter (keep D) M) o.
Proof.
  intros HyM HyD HsM HsD Hf. unfold new_rm_itr, rm_init.
  destruct (Yields_poll _ _ _ HyD) as (r1 & -> & Hr & Hm).
  destruct D as [|d D]; cbn [nonempty].
  - eexists; split; [reflexivity|]. eapply (rm_obj_yields _ _ M); try reflexivity.
    split; [exact HyM|]. split; [exact HsM|]. cbn [rm_valid]. split.
    + apply filter_keep_all. auto.
    + cbn in Hf. lia.
  - destruct Hm as (r2 & -> & Hc & _ & Hy2). subst d.
    eexists; split; [reflexivity|]. eapply (rm_obj_yields _ _ M); try reflexivity.
    split; [exact HyM|]. split; [exact HsM|]. cbn [rm_valid rm_rmitr]. exists D.
    split; [exact Hy2|]. split; [exact HsD|]. split; [reflexivity|]. cbn in Hf. lia.
Qed.
