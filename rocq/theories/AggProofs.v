(** Proofs about aggregated scans: the operator, tables and arrays. *)
From Coq Require Import Sorted Permutation ZifyBool.
From Verif Require Import AggModel AggSpec TsSpec TallyProofs TallyProofs3 TableProofs ArrayModel ArrayProofs KbProofs2.
Local Open Scope Z_scope.

(** ** The contract *)
Lemma tallies_counts g : forall o, Tallies g o -> Counts g o.
Proof.
  induction g as [|[[k v] n] t IH]; intros o H; destruct (Tallies_poll _ _ H) as (o1 & E & _ & M); exists o1; (split; [exact E|]); [exact I|].
  destruct M as (o2 & E2 & C & V & T). cbn [fst snd] in *. destruct (V o2 (polls_refl _)) as [V1 V2]. exists o2, o2. auto 8.
Qed.
Lemma aggregates_tallied l o : Aggregates l o -> Tallied l o.
Proof. intros (_ & H). destruct (H o (polls_refl _)) as (o1 & g & E & T & (R & _)). exists o1, g. split; auto. split; auto. now apply tallies_counts. Qed.
Lemma tally_fun l g g' : is_tally l g -> is_tally l g' -> g = g'.
Proof. intros H H'. apply rep_tally in H. apply rep_tally in H'. eapply rep_unique; eauto. Qed.

Lemma tally_app l g l' g' : is_tally l g -> is_tally l' g' -> (forall x y, In x l -> In y l' -> gk x < gk y) -> is_tally (l ++ l') (g ++ g').
Proof.
  intros [S1 M1] [S2 M2] Hlt.
  assert (P1 : forall x, In x g -> exists y, In y l /\ gk y = gk x).
  { intros [[k v] n] Hx. apply M1 in Hx. destruct Hx as [-> Hp]. apply count_pos in Hp. destruct Hp as (y & Hy & Ek & _). exists y. auto. }
  assert (P2 : forall x, In x g' -> exists y, In y l' /\ gk y = gk x).
  { intros [[k v] n] Hx. apply M2 in Hx. destruct Hx as [-> Hp]. apply count_pos in Hp. destruct Hp as (y & Hy & Ek & _). exists y. auto. }
  split.
  - assert (Hc : forall x y, In x g -> In y g' -> group_lt x y).
    { intros x y Hx Hy. destruct (P1 x Hx) as (x' & Hx' & Ex). destruct (P2 y Hy) as (y' & Hy' & Ey). apply group_lt_alt. left. rewrite <- Ex, <- Ey. auto. }
    clear - S1 S2 Hc. induction S1 as [|x g S1 IH F]; [exact S2|]. cbn [app]. constructor.
    + apply IH. intros a b Ha Hb. apply Hc; auto. now right.
    + rewrite Forall_forall in *. intros y Hy. apply in_app_or in Hy. destruct Hy as [Hy|Hy]; [now apply F|]. apply Hc; auto. now left.
  - intros k v n. rewrite in_app_iff, M1, M2, count_app. pose proof (count_nonneg l k v). pose proof (count_nonneg l' k v).
    assert (Z0 : ~ (0 < count_of l k v /\ 0 < count_of l' k v)).
    { intros [A B]. apply count_pos in A. apply count_pos in B. destruct A as (x & Hx & Ex & _), B as (y & Hy & Ey & _). specialize (Hlt x y Hx Hy). lia. }
    lia.
Qed.

(** ** The operator *)
Section Operator.
Variables (b1 b2 : bool) (f : Z * Z).
Hypothesis Hb : b2 = true -> b1 = true.
Definition suits (x : elem) : Prop :=
  0 <= gk x < 2 ^ 63 /\ 0 <= gv x < 2 ^ 63 /\ (b1 = true -> gk x = fst f) /\ (b2 = true -> gv x = snd f).

Lemma stay x : suits x -> exists k p, ahint_next (own_hint b1 b2 f) = Some (k, p) /\ (gk x <? k) = false /\ ((k =? gk x) = true -> (gv x <? p) = false).
Proof.
  intros (K & V & H1 & H2). destruct f as [f1 f2]. cbn [fst snd] in *. unfold ahint_next, own_hint, ahint1, ahint2. cbn [fst snd h_bound h_merge h_dom fold_left].
  destruct b1, b2; cbn [h_bound h_merge h_dom fold_left fst snd]; try (discriminate (Hb eq_refl)); rewrite ?H1, ?H2 in * by auto; unfold raise, umax.
  - destruct (negb (f1 =? 2 ^ 64 - 1) && (0 <? f1)) eqn:E1; cbn [fst snd]; destruct (negb (f2 =? 2 ^ 64 - 1) && (0 <? f2)) eqn:E2; cbn [fst snd]; do 2 eexists; (split; [reflexivity|]); lia.
  - destruct (negb (f1 =? 2 ^ 64 - 1) && (0 <? f1)) eqn:E1; cbn [fst snd]; do 2 eexists; (split; [reflexivity|]); lia.
  - do 2 eexists; (split; [reflexivity|]); lia.
Qed.

Lemma take_ok again k v n (o2 o3 : pitr) c : suits (k, v, n) -> key o2 = k -> value1 o2 = v -> getCount o2 = Some (n, o3) ->
  as_take b1 b2 again (mkAs (TsModel.mkTs (Some o2) c) f) = Some (Some (k, v, n), mkAs (TsModel.mkTs (Some o3) c) f).
Proof.
  intros (K & V & H1 & H2) Ek Ev E. unfold as_take. cbn [as_ts ts_itr as_f]. rewrite Ek, Ev. unfold tsa_count. cbn [ts_itr ts_count]. rewrite E. unfold gk, gv in *. cbn [fst snd] in *.
  destruct f as [f1 f2]. cbn [fst snd] in *. unfold as_check. destruct b1, b2; try (discriminate (Hb eq_refl)); try reflexivity.
  - rewrite <- H1, <- H2 by auto. replace (k <? k) with false by lia. replace (v <? v) with false by lia. rewrite Bool.andb_false_r. reflexivity.
  - rewrite <- H1 by auto. replace (k <? k) with false by lia. reflexivity.
Qed.

Lemma rest_ok g : forall x (o : pitr) c n fuel, Counts g o -> suits x -> key o = gk x -> value1 o = gv x -> Forall suits g -> (length g < n)%nat -> (0 < fuel)%nat ->
  as_rest n fuel b1 b2 (own_hint b1 b2 f) (mkAs (TsModel.mkTs (Some o) c) f) = Some g.
Proof.
  induction g as [|[[k v] m] t IH]; intros x o c n fuel HC Hx Ek Ev Hg Ln Hf; (destruct n as [|n]; [cbn in Ln; lia|]); (destruct fuel as [|fu]; [lia|]).
  - destruct HC as (o1 & E1 & _). destruct (stay x Hx) as (hk & hp & Eh & A & B). cbn [as_rest as_next as_ts as_f]. unfold tsa_next. cbn [ts_itr ts_count].
    assert (Es : (if c =? 0 then do (k0, p) <- ahint_next (own_hint b1 b2 f); if key o <? k0 then None else if k0 =? key o then if value1 o <? p then moveto o (to_i64 p) 0 else Some o else Some o else Some o) = Some o).
    { destruct (c =? 0); [|reflexivity]. rewrite Eh, Ek, Ev, A. destruct (hk =? gk x); [rewrite B by auto|]; reflexivity. }
    rewrite Es, E1. reflexivity.
  - destruct HC as (o1 & E1 & o2 & o3 & E2 & K2 & V2 & E3 & K3 & V3 & HC). destruct (stay x Hx) as (hk & hp & Eh & A & B). cbn [as_rest as_next as_ts as_f]. unfold tsa_next. cbn [ts_itr ts_count].
    assert (Es : (if c =? 0 then do (k0, p) <- ahint_next (own_hint b1 b2 f); if key o <? k0 then None else if k0 =? key o then if value1 o <? p then moveto o (to_i64 p) 0 else Some o else Some o else Some o) = Some o).
    { destruct (c =? 0); [|reflexivity]. rewrite Eh, Ek, Ev, A. destruct (hk =? gk x); [rewrite B by auto|]; reflexivity. }
    rewrite Es, E1. cbn [nonempty]. rewrite E2. inversion Hg as [|? ? G1 G2]; subst. erewrite (take_ok _ (key o2) (value1 o2) m o2 o3); [|exact G1|reflexivity|reflexivity|exact E3].
    rewrite (IH (key o2, value1 o2, m) o3) by (first [assumption | exact K3 | exact V3 | cbn in *; lia]). reflexivity.
Qed.

Lemma run_ok g (o : pitr) c n fuel open : Tallied g o -> Forall suits g -> (length g < n)%nat -> (0 < fuel)%nat ->
  open (if b1 then Some (fst f) else None) (if b2 then Some (snd f) else None) None = Some o ->
  exists D, as_run n fuel c b1 b2 open f = Some D /\ is_tally g D.
Proof.
  intros (o1 & D & Ei & HT & HC) Hg Ln Hf Eo. exists D. split; auto.
  assert (HD : Forall suits D /\ (length D <= length g)%nat).
  { split; [|now apply TallyProofs2.tally_len]. rewrite Forall_forall in *. intros [[k v] m] Hx. apply HT in Hx. destruct Hx as [-> Hp]. apply count_pos in Hp. destruct Hp as (y & Hy & E1 & E2).
    specialize (Hg y Hy). unfold suits in *. rewrite E1, E2 in Hg. exact Hg. }
  destruct HD as [HD HL]. unfold as_run.
  assert (Eo' : match b1, b2 with true, false => open (Some (fst f)) None None | true, true => open (Some (fst f)) (Some (snd f)) None | false, _ => open None None None end = Some o).
  { destruct b1, b2; auto. discriminate (Hb eq_refl). }
  assert (Ef : as_first fuel c b1 b2 open (own_hint b1 b2 f) f =
     do (b, t) <- tsa_first c o; if b then as_take b1 b2 (as_next fuel b1 b2 (own_hint b1 b2 f)) (mkAs t f) else Some (None, mkAs t f)).
  { unfold as_first. destruct f as [f1 f2]. cbn [fst snd] in *. rewrite Eo'. reflexivity. }
  rewrite Ef. unfold tsa_first. rewrite Ei. destruct D as [|[[k v] m] t]; destruct HC as (o2 & E1 & M); rewrite E1; cbn [nonempty]; [reflexivity|].
  destruct M as (o3 & o4 & E2 & K2 & V2 & E3 & K3 & V3 & HC). rewrite E2. inversion HD as [|? ? G1 G2]; subst. erewrite (take_ok _ (key o3) (value1 o3) m o3 o4); [|exact G1|reflexivity|reflexivity|exact E3].
  rewrite (rest_ok t (key o3, value1 o3, m) o4) by (first [assumption | exact K3 | exact V3 | cbn in *; lia]). reflexivity.
Qed.
End Operator.

(** ** ArrayItr *)
Lemma scan_here p arr pos : 0 <= pos <= len arr -> (pos < len arr -> p (nthp arr pos) = false) -> scan_ p arr pos = Some pos.
Proof.
  intros Hp H. unfold scan_. cbn [scan]. fold (len arr). destruct (Z.ltb_spec pos (len arr)); [|reflexivity]. rewrite at_in by lia. now rewrite H.
Qed.
Lemma tw_dw_len {A} (p : A -> bool) l : zlen (takewhile p l) + zlen (dropwhile p l) = zlen l.
Proof. unfold zlen. induction l as [|x l IH]; [reflexivity|]. cbn [takewhile dropwhile]. destruct (p x); cbn [length] in *; lia. Qed.

Definition rows_ok (arr : list (Z * Z)) (s : arr_st) : Prop := a_c1 s = -1 \/ (a_c2 s = -1 /\ forall e, In e arr -> fst e = a_c1 s).

Lemma arr_step arr k s : StronglySorted plt arr -> a_arr s = arr -> a_key s = k -> a_ign s = true -> 0 <= a_pos s < len arr -> rows_ok arr s ->
  exists s2, arr_next s = Some s2 /\ a_key s2 = k /\ a_v1 s2 = fst (nthp arr (a_pos s)) /\ exists s3 c, arr_getCount s2 = Some (c, s3) /\
    a_arr s3 = arr /\ a_key s3 = k /\ a_v1 s3 = fst (nthp arr (a_pos s)) /\ a_ign s3 = true /\ a_hnc s3 = false /\ 0 <= a_pos s3 <= len arr /\ rows_ok arr s3 /\
    (a_pos s3 < len arr -> fst (nthp arr (a_pos s3)) <> a_v1 s3) /\
    groups (from arr (a_pos s)) = (fst (nthp arr (a_pos s)), c) :: groups (from arr (a_pos s3)) /\ a_pos s < a_pos s3.
Proof.
  intros Hs Ea Ek Ei Hp Hr. unfold arr_next. rewrite Ea, at_in by lia. eexists. split; [reflexivity|]. cbn [a_key a_v1]. split; [auto|]. split; [reflexivity|].
  unfold arr_getCount. cbn [a_ign a_cnt a_pos a_arr]. rewrite Ei. cbn [negb Z.eqb]. unfold a_len. cbn [a_arr]. fold (len arr).
  assert (EG : groups (from arr (a_pos s)) = (fst (nthp arr (a_pos s)), 1 + zlen (takewhile (eq1 (fst (nthp arr (a_pos s)))) (from arr (a_pos s + 1)))) :: groups (dropwhile (eq1 (fst (nthp arr (a_pos s)))) (from arr (a_pos s + 1)))).
  { rewrite from_cons by lia. apply groups_cons. rewrite <- from_cons by lia. unfold from. clear - Hs. generalize (Z.to_nat (a_pos s)). revert Hs. induction arr as [|x arr IH]; intros Hs n; [destruct n; constructor|].
    destruct n; [exact Hs|]. cbn [skipn]. apply IH. now inversion Hs. }
  assert (RO : forall p v1 v2 mp h n ig cn kk, rows_ok arr (mkArr arr p v1 v2 mp h n ig cn (a_c1 s) (a_c2 s) kk)) by (intros; exact Hr).
  destruct (Z.ltb_spec (a_pos s + 1) (len arr)) as [Hl|Hl].
  - replace (a_pos s + 1 - 1) with (a_pos s) by lia. rewrite at_in by lia.
    destruct (scan__ok (fun e => fst e =? fst (nthp arr (a_pos s))) arr (a_pos s + 1)) as (p' & -> & Hp' & Hd & _ & Hn); [lia|].
    do 2 eexists. split; [reflexivity|]. cbn [a_key a_v1 a_arr a_ign a_hnc a_pos]. split; auto. split; auto. split; auto. split; auto. split; auto. split; [lia|]. split; [apply RO|]. split; [intros Hlt; specialize (Hn Hlt); lia|]. split; [|lia].
    rewrite EG, Hd. f_equal. f_equal. pose proof (tw_dw_len (eq1 (fst (nthp arr (a_pos s)))) (from arr (a_pos s + 1))) as HT. unfold eq1 at 2 in HT. rewrite <- Hd in HT. unfold zlen in HT at 2 3. rewrite !from_length in HT by lia. lia.
  - rewrite (from_end arr (a_pos s + 1)) in EG by lia. do 2 eexists. split; [reflexivity|]. cbn [a_key a_v1 a_arr a_ign a_hnc a_pos]. split; auto. split; auto. split; auto. split; auto. split; auto. split; [lia|]. split; [apply RO|]. split; [lia|]. split; [|lia].
    rewrite EG, (from_end arr (a_pos s + 1)) by lia. reflexivity.
Qed.

Lemma arr_obj_getCount s : getCount (arr_obj s) = match arr_getCount s with Some (c, s') => Some (c, arr_obj s') | None => None end.
Proof. reflexivity. Qed.

Lemma arr_counts arr k : StronglySorted plt arr -> forall n s, (len arr - a_pos s < Z.of_nat n) -> a_arr s = arr -> a_key s = k -> a_ign s = true -> 0 <= a_pos s <= len arr -> rows_ok arr s ->
  (a_hnc s = false /\ (a_pos s < len arr -> fst (nthp arr (a_pos s)) <> a_v1 s)) \/ (a_hnc s = true /\ a_n s = true /\ a_pos s < len arr) ->
  Counts (with_key k (groups (from arr (a_pos s)))) (arr_obj s).
Proof.
  intros Hs. induction n as [|n IH]; intros s Hn Ea Ek Ei Hp Hr Hh; [lia|].
  assert (EH : exists s1, arr_hasNext s = Some (a_pos s <? len arr, s1) /\ a_arr s1 = arr /\ a_key s1 = k /\ a_ign s1 = true /\ a_pos s1 = a_pos s /\ rows_ok arr s1).
  { destruct Hh as [[Eh Hd]|(Eh & En & Hl)]; unfold arr_hasNext; rewrite Eh.
    - rewrite Ei, Ea. rewrite scan_here by (auto; intros Hl; specialize (Hd Hl); lia).
      unfold a_len. rewrite Ea. fold (len arr).
      assert (En : (if a_c1 s =? -1 then Some (a_pos s <? len arr) else if a_pos s =? len arr then Some false else
         do e <- at_ arr (a_pos s); Some (negb (negb (fst e =? a_c1 s) || (negb (a_c2 s =? -1) && negb (snd e =? a_c2 s))))) = Some (a_pos s <? len arr)).
      { destruct (a_c1 s =? -1) eqn:E1; [reflexivity|]. destruct Hr as [Hr|[Hr1 Hr2]]; [lia|]. destruct (Z.eqb_spec (a_pos s) (len arr)) as [E|E]; [f_equal; lia|].
        rewrite at_in by lia. rewrite Hr2 by (unfold nthp; apply nth_In; unfold len in *; lia). rewrite Z.eqb_refl, Hr1. cbn. f_equal. lia. }
      rewrite En. eexists. split; [reflexivity|]. cbn. auto 9.
    - rewrite En. exists s. replace (a_pos s <? len arr) with true by lia. auto 9. }
  destruct EH as (s1 & E1 & A1 & A2 & A3 & A4 & A5).
  destruct (Z.ltb_spec (a_pos s) (len arr)) as [Hl|Hl].
  - destruct (arr_step arr k s1 Hs A1 A2 A3) as (s2 & B1 & B2 & B3 & s3 & c & B4 & B5 & B6 & B7 & B8 & B9 & B10 & B11 & B12 & B13 & B14); auto; [lia|]. rewrite A4 in *. rewrite B13.
    cbn [with_key map Counts fst snd]. exists (arr_obj s1). rewrite arr_obj_hasNext, E1. split; [reflexivity|]. exists (arr_obj s2), (arr_obj s3). rewrite arr_obj_next, B1. split; auto.
    split; [exact B2|]. split; [exact B3|]. rewrite arr_obj_getCount, B4. split; auto. split; [exact B6|]. split; [exact B7|]. apply IH; auto. lia.
  - rewrite from_end by lia. cbn [groups]. exists (arr_obj s1). rewrite arr_obj_hasNext, E1. split; [reflexivity|exact I].
Qed.

Lemma empty_tallied k : Tallied [] (empty_itr k).
Proof. exists (empty_itr k), []. split; [reflexivity|]. split; [|exists (empty_itr k); split; [reflexivity|exact I]]. split; [constructor|]. intros a b n. cbn. lia. Qed.

Lemma arr_tallied k arr c : StronglySorted plt arr -> arr <> [] -> -1 <= c -> (c <> -1 -> forall e, In e arr -> fst e = c) ->
  exists o, new_arr_itr k arr c (-1) = Some o /\ Tallied (with_key k arr) o.
Proof.
  intros Hs Hne Hc Hrow. assert (Hlen : 0 < len arr) by (destruct arr; [congruence|unfold len; cbn [length]; lia]).
  assert (E : arr_init k arr c (-1) = Some (mkArr arr 0 (-1) (-1) 0 true true false 0 c (-1) k)).
  { unfold arr_init. destruct (Z.eqb_spec c (-1)) as [-> |Hn]; cbn [negb]; [reflexivity|]. fold (len arr).
    assert (Hps : psorted arr) by (clear - Hs; induction Hs as [|x l Hs IH F]; constructor; auto; eapply Forall_impl; [|exact F]; intros y; unfold plt, ple; lia).
    destruct (binarySearch_ok arr 0 c Hps) as (r & -> & H); [lia|].
    assert (Hall : forall i, 0 <= i < len arr -> fst (nthp arr i) = c) by (intros i Hi; apply Hrow; auto; unfold nthp; apply nth_In; unfold len in *; lia).
    assert (r = 0).
    { destruct H as [(H1 & _ & H3)|(l & Hl & H1 & H2 & Hr)].
      - destruct (Z.eq_dec r 0); auto. specialize (H3 0 ltac:(lia)). rewrite Hall in H3; lia.
      - destruct (Z.eq_dec l 0) as [-> |]; [specialize (H2 0 ltac:(lia)); rewrite Hall in H2; lia|]. specialize (H1 0 ltac:(lia)). rewrite Hall in H1; lia. }
    subst r. reflexivity. }
  unfold new_arr_itr. rewrite E. eexists. split; [reflexivity|]. exists (arr_obj (arr_ignore (mkArr arr 0 (-1) (-1) 0 true true false 0 c (-1) k))), (with_key k (groups arr)). split; [reflexivity|]. split; [now apply groups_tally|].
  apply (arr_counts arr k Hs (S (length arr)) (arr_ignore (mkArr arr 0 (-1) (-1) 0 true true false 0 c (-1) k))); auto; cbn [arr_ignore a_pos a_arr a_c1 a_c2 a_hnc a_n]; try (unfold len in *; lia).
  destruct (Z.eq_dec c (-1)); [left; auto|right; auto].
Qed.

Lemma reverse_tallied fuel cnt l old k v1 R : Yields cnt l old -> (length l < fuel)%nat -> -1 <= v1 -> StronglySorted plt R -> Permutation R (filter (pair_matches v1 (-1)) (swapped l)) ->
  exists o, newItrOnReverse fuel old k v1 (-1) = Some o /\ Tallied (with_key k R) o.
Proof.
  intros Hy Hf Hv HR HP. unfold newItrOnReverse. rewrite (reverse_fill_ok cnt v1 l old fuel Hy Hf).
  replace (filter (fun e => (v1 <? 0) || (fst e =? v1)) (swapped l)) with (filter (pair_matches v1 (-1)) (swapped l)) by (apply filter_ext; intros e; unfold pair_matches; lia).
  destruct (filter (pair_matches v1 (-1)) (swapped l)) as [|a L] eqn:EL.
  - apply Permutation_sym, Permutation_nil in HP. subst R. eexists. split; [reflexivity|]. apply empty_tallied.
  - rewrite <- EL in *. assert (ER : psort (filter (pair_matches v1 (-1)) (swapped l)) = R).
    { apply ple_sorted_eq; [apply psort_sorted| |].
      - clear - HR. induction HR as [|x m Hs IH F]; constructor; auto. eapply Forall_impl; [|exact F]. intros y. unfold plt, ple. lia.
      - rewrite psort_perm. now symmetry. }
    rewrite ER. apply arr_tallied; auto.
    + intros ->. apply Permutation_nil in HP. congruence.
    + intros Hn e He. apply (Permutation_in _ HP) in He. apply filter_In in He. destruct He as [_ He]. unfold pair_matches in He. lia.
Qed.
