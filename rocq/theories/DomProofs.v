(** Proofs about domain descriptions. *)
From Coq Require Import ZifyBool Btauto.
From Verif Require Import DomModel DomSpec.
Local Open Scope Z_scope.

Definition word (w : Z) : Prop := 0 <= w < 2 ^ 64.
(** The shape of the object in memory. *)
Definition wf (d : dom) : Prop := word (d_min d) /\ word (d_max d) /\ length (d_filter d) = 128%nat /\ Forall word (d_filter d).

Lemma bitmask_pow n : 0 <= n < 64 -> bitmask n = 2 ^ n.
Proof. intros H. unfold bitmask, u64. rewrite Z.shiftl_1_l. apply Z.mod_small. split; [lia|]. apply Z.pow_lt_mono_r; lia. Qed.
Lemma land_pow e n : 0 <= n -> Z.land e (2 ^ n) = if Z.testbit e n then 2 ^ n else 0.
Proof.
  intros H. apply Z.bits_inj'. intros k Hk. rewrite Z.land_spec. rewrite Z.pow2_bits_eqb by lia.
  destruct (Z.eqb_spec n k) as [->|N].
  - destruct (Z.testbit e k); [now rewrite Z.pow2_bits_true by lia|now rewrite Z.bits_0].
  - rewrite andb_false_r. destruct (Z.testbit e n); [now rewrite Z.pow2_bits_false by lia|now rewrite Z.bits_0].
Qed.
Lemma land_bit e n : 0 <= n < 64 -> (Z.land e (bitmask n) =? 0) = negb (Z.testbit e n).
Proof.
  intros H. rewrite bitmask_pow by lia. rewrite land_pow by lia. assert (0 < 2 ^ n) by (apply Z.pow_pos_nonneg; lia).
  destruct (Z.testbit e n); cbn [negb]; lia.
Qed.
Lemma entry_word d i : wf d -> word (entry d i).
Proof.
  intros (_ & _ & _ & F). unfold entry. destruct (Nat.lt_ge_cases (Z.to_nat i) (length (d_filter d))) as [L|L].
  - rewrite Forall_forall in F. apply F. now apply nth_In.
  - rewrite nth_overflow by exact L. unfold word; lia.
Qed.
Definition bit (d : dom) (i : Z) : bool := Z.testbit (entry d (i / 64)) (i mod 64).
Lemma could_spec d v : couldQualify d v = (d_min d <=? v) && (v <=? d_max d) && bit d (v mod 8192).
Proof.
  unfold couldQualify, bit, filterSize, filterEntryBits. change (128 * 64) with 8192.
  rewrite land_bit by (apply Z.mod_pos_bound; lia). rewrite negb_involutive.
  destruct (Z.ltb_spec v (d_min d)), (Z.ltb_spec (d_max d) v), (Z.leb_spec (d_min d) v), (Z.leb_spec v (d_max d)); cbn [orb andb]; try lia; reflexivity.
Qed.

(** ** The bits of a word *)
Lemma high_bit e n : word e -> 64 <= n -> Z.testbit e n = false.
Proof.
  intros [A B] H. destruct (Z.eq_dec e 0) as [->|N]; [apply Z.bits_0|]. apply Z.bits_above_log2; [lia|]. assert (Z.log2 e < 64) by (apply Z.log2_lt_pow2; lia). lia.
Qed.
Lemma least_bit e : word e -> forall n, (exists j, n <= j /\ Z.testbit e j = true) -> 0 <= n ->
  exists j, n <= j < 64 /\ Z.testbit e j = true /\ forall i, n <= i < j -> Z.testbit e i = false.
Proof.
  intros W n (j & Hj & Tj) Hn. assert (J : j < 64) by (destruct (Z.lt_ge_cases j 64) as [L|L]; [lia|rewrite (high_bit e j W L) in Tj; discriminate]).
  assert (G : forall k n, 0 <= n -> n + Z.of_nat k = j -> exists j, n <= j < 64 /\ Z.testbit e j = true /\ forall i, n <= i < j -> Z.testbit e i = false).
  { induction k as [|k IH]; intros m Hm E.
    - exists m. replace m with j by lia. split; [lia|]. split; [exact Tj|]. intros; lia.
    - destruct (Z.testbit e m) eqn:T; [exists m; split; [lia|]; split; [exact T|]; intros; lia|].
      destruct (IH (m + 1) ltac:(lia) ltac:(lia)) as (i & I & Ti & Mi). exists i. split; [lia|]. split; [exact Ti|]. intros x Hx. destruct (Z.eq_dec x m) as [->|N]; [exact T|]. apply Mi. lia. }
  apply (G (Z.to_nat (j - n))); lia.
Qed.
Lemma nonzero_bit e : word e -> e <> 0 -> exists j, 0 <= j /\ Z.testbit e j = true.
Proof. intros [A B] N. exists (Z.log2 e). split; [apply Z.log2_nonneg|]. apply Z.bit_log2. lia. Qed.
Lemma zero_bits i : Z.testbit 0 i = false.
Proof. apply Z.bits_0. Qed.
Lemma mask_above e n : word e -> 0 <= n < 64 -> negb (Z.land e (umax - (bitmask n - 1)) =? 0) = true <-> exists j, n <= j /\ Z.testbit e j = true.
Proof.
  intros W H. rewrite bitmask_pow by lia. assert (M : umax - (2 ^ n - 1) = Z.shiftl (Z.ones (64 - n)) n).
  { rewrite Z.shiftl_mul_pow2 by lia. rewrite Z.ones_equiv. unfold umax. replace 64 with ((64 - n) + n) at 1 by lia. rewrite Z.pow_add_r by lia. ring_simplify. assert (Z.pred (2 ^ (64 - n)) = 2 ^ (64 - n) - 1) by lia. rewrite H0. ring. }
  rewrite M. split.
  - intros E. destruct (Z.eqb_spec (Z.land e (Z.shiftl (Z.ones (64 - n)) n)) 0) as [Z0|N]; [discriminate|].
    assert (WL : word (Z.land e (Z.shiftl (Z.ones (64 - n)) n))).
    { split; [apply Z.land_nonneg; left; apply W|]. destruct (Z.le_gt_cases (Z.land e (Z.shiftl (Z.ones (64 - n)) n)) 0) as [L|L]; [lia|].
      apply Z.log2_lt_pow2; [lia|]. eapply Z.le_lt_trans; [apply Z.log2_land; [apply W|]|].
      - apply Z.shiftl_nonneg. rewrite Z.ones_equiv. assert (0 < 2 ^ (64 - n)) by (apply Z.pow_pos_nonneg; lia). lia.
      - eapply Z.le_lt_trans; [apply Z.le_min_l|]. destruct (Z.eq_dec e 0) as [->|]; [cbn; lia|]. apply Z.log2_lt_pow2; unfold word in W; lia. }
    destruct (nonzero_bit _ WL N) as (j & Hj & Tj). rewrite Z.land_spec in Tj. apply andb_prop in Tj as [T1 T2]. exists j. split; [|exact T1].
    rewrite Z.shiftl_spec in T2 by lia. destruct (Z.le_gt_cases n j); [lia|]. rewrite Z.testbit_neg_r in T2 by lia. discriminate.
  - intros (j & Hj & Tj). destruct (Z.eqb_spec (Z.land e (Z.shiftl (Z.ones (64 - n)) n)) 0) as [Z0|N]; [|reflexivity]. exfalso.
    assert (T : Z.testbit (Z.land e (Z.shiftl (Z.ones (64 - n)) n)) j = true); [|rewrite Z0, Z.bits_0 in T; discriminate].
    rewrite Z.land_spec, Tj, Z.shiftl_spec by lia. destruct (Z.lt_ge_cases j 64) as [L|L]; [|rewrite (high_bit e j W L) in Tj; discriminate].
    rewrite Z.ones_spec_low by lia. reflexivity.
Qed.
Lemma bit_loop_ok e j : 0 <= j < 64 -> Z.testbit e j = true -> forall fuel n v,
  0 <= n <= j -> (forall i, n <= i < j -> Z.testbit e i = false) -> j - n <= Z.of_nat fuel -> 0 <= v -> v + (j - n) < 2 ^ 64 ->
  bit_loop fuel e (bitmask n) v = Some (v + (j - n)).
Proof.
  intros J T. induction fuel as [|fuel IH]; intros n v N M F V B; cbn [bit_loop]; rewrite land_bit by lia.
  - replace n with j by lia. rewrite T. cbn [negb]. f_equal. lia.
  - destruct (Z.eq_dec n j) as [->|NE]; [rewrite T; cbn [negb]; f_equal; lia|]. rewrite M by lia. cbn [negb].
    assert (EQ : u64 (Z.shiftl (bitmask n) 1) = bitmask (n + 1)). { rewrite bitmask_pow by lia. unfold bitmask. f_equal. rewrite Z.shiftl_1_l, Z.shiftl_mul_pow2 by lia. rewrite Z.pow_add_r by lia. reflexivity. }
    rewrite EQ. assert (EV : u64 (v + 1) = v + 1) by (apply Z.mod_small; lia). rewrite EV. rewrite IH; try lia; [f_equal; lia|]. intros i Hi. apply M. lia.
Qed.
Lemma find_entry_some d : forall n i x, find_entry n d i = Some x -> i <= x < i + Z.of_nat n /\ entry d x <> 0 /\ forall y, i <= y < x -> entry d y = 0.
Proof.
  induction n as [|n IH]; intros i x; cbn [find_entry]; [discriminate|]. destruct (Z.eqb_spec (entry d i) 0) as [E|E]; intros H.
  - apply IH in H as (A & B & C). split; [lia|]. split; [exact B|]. intros y Hy. destruct (Z.eq_dec y i) as [->|]; [exact E|]. apply C. lia.
  - injection H as <-. split; [lia|]. split; [exact E|]. intros; lia.
Qed.
Lemma find_entry_none d : forall n i, find_entry n d i = None -> forall y, i <= y < i + Z.of_nat n -> entry d y = 0.
Proof.
  induction n as [|n IH]; intros i; cbn [find_entry]; [intros; lia|]. destruct (Z.eqb_spec (entry d i) 0) as [E|E]; [|discriminate]. intros H y Hy.
  destruct (Z.eq_dec y i) as [->|]; [exact E|]. apply (IH _ H). lia.
Qed.

(** ** nextCandidate *)
(** The answer, given the least value [c] from [v] on with its bit set. *)
Definition answer (d : dom) (v : Z) (r : option Z) : Prop :=
  exists x, r = Some x /\ (least_from (fun w => couldQualify d w = true) v x \/ x = umax /\ forall w, v <= w -> couldQualify d w = false).
Lemma answer_in d v v0 c : d_min d <= v -> v0 <= v -> (forall w, v0 <= w < v -> w < d_min d) -> v <= c ->
  bit d (c mod 8192) = true -> (forall w, v <= w < c -> bit d (w mod 8192) = false) -> answer d v0 (Some (within d c)).
Proof.
  intros M V0 VM C B N. unfold answer, within. eexists. split; [reflexivity|].
  destruct (Z.ltb_spec (d_max d) c) as [X|X].
  - right. split; [reflexivity|]. intros w W. rewrite could_spec. destruct (Z.lt_ge_cases w v) as [L|L].
    + specialize (VM w ltac:(lia)). destruct (Z.leb_spec (d_min d) w); [lia|reflexivity].
    + destruct (Z.lt_ge_cases w c) as [L2|L2]; [rewrite N by lia; apply andb_false_r|]. destruct (Z.leb_spec w (d_max d)); [lia|]. now rewrite andb_false_r.
  - left. split; [lia|]. split.
    + rewrite could_spec, B. lia.
    + intros w W Q. rewrite could_spec in Q. destruct (Z.lt_ge_cases w v) as [L|L]; [specialize (VM w ltac:(lia)); lia|]. destruct (Z.lt_ge_cases w c) as [L2|L2]; [|lia]. rewrite N in Q by lia. rewrite andb_false_r in Q. discriminate.
Qed.
Ltac Zify.zify_post_hook ::= Z.div_mod_to_equations.
Lemma split_addr q s o : 0 <= s < 128 -> 0 <= o < 64 -> (8192 * q + 64 * s + o) mod 8192 = 64 * s + o /\ (64 * s + o) / 64 = s /\ (64 * s + o) mod 64 = o.
Proof. intros. lia. Qed.
Lemma bit_at d q s o : 0 <= s < 128 -> 0 <= o < 64 -> bit d ((8192 * q + 64 * s + o) mod 8192) = Z.testbit (entry d s) o.
Proof. intros S O. destruct (split_addr q s o S O) as (A & B & C). unfold bit. now rewrite A, B, C. Qed.
Lemma decomp w : exists q s o, w = 8192 * q + 64 * s + o /\ 0 <= s < 128 /\ 0 <= o < 64.
Proof. exists (w / 8192), (w mod 8192 / 64), (w mod 64). lia. Qed.
Ltac Zify.zify_post_hook ::= idtac.
Lemma next_ok d v0 : wf d -> uint64 v0 -> v0 + 8192 < 2 ^ 64 -> d_min d + 8192 < 2 ^ 64 -> answer d v0 (nextCandidate d v0).
Proof.
  intros W V B1 B2. unfold nextCandidate. set (v := if v0 <? d_min d then d_min d else v0).
  assert (Hv : v0 <= v /\ d_min d <= v /\ (forall w, v0 <= w < v -> w < d_min d) /\ v + 8192 < 2 ^ 64 /\ 0 <= v).
  { unfold v, uint64 in *. destruct W as ((? & ?) & _). destruct (Z.ltb_spec v0 (d_min d)); repeat split; intros; lia. }
  clearbody v. destruct Hv as (V1 & V2 & V3 & V4 & V5).
  destruct (Z.ltb_spec (d_max d) v) as [X|X].
  { eexists. split; [reflexivity|]. right. split; [reflexivity|]. intros w Hw. rewrite could_spec. destruct (Z.leb_spec (d_min d) w), (Z.leb_spec w (d_max d)); try reflexivity. specialize (V3 w). lia. }
  unfold filterSize, filterEntryBits. change (128 * 64) with 8192.
  destruct (decomp v) as (q & s & o & -> & S & O). destruct (split_addr q s o S O) as (A1 & A2 & A3). rewrite A1, A2, A3. clear A1 A2 A3.
  set (v := 8192 * q + 64 * s + o) in *.
  assert (AT : forall w, v <= w -> exists q' s' o', w = 8192 * q' + 64 * s' + o' /\ 0 <= s' < 128 /\ 0 <= o' < 64 /\ bit d (w mod 8192) = Z.testbit (entry d s') o').
  { intros w _. destruct (decomp w) as (q' & s' & o' & -> & S' & O'). exists q', s', o'. rewrite bit_at by assumption. auto. }
  rewrite land_bit by lia. rewrite negb_involutive.
  destruct (Z.testbit (entry d s) o) eqn:T0.
  { replace (Some v) with (Some (within d v)) by (unfold within; destruct (Z.ltb_spec (d_max d) v); [lia|reflexivity]). apply (answer_in d v v0 v); auto; try lia. unfold v. now rewrite bit_at by assumption. }
  destruct (negb (Z.land (entry d s) (umax - (bitmask o - 1)) =? 0)) eqn:E1.
  { apply (mask_above _ _ (entry_word d s W) O) in E1. destruct (least_bit _ (entry_word d s W) o E1 ltac:(lia)) as (j & J & TJ & MJ).
    rewrite (bit_loop_ok _ j ltac:(lia) TJ 64 o v) by (try lia; assumption). apply (answer_in d v v0); auto; try lia.
    - replace (v + (j - o)) with (8192 * q + 64 * s + j) by (unfold v; lia). rewrite bit_at by lia. exact TJ.
    - intros w Hw. destruct (AT w ltac:(lia)) as (q' & s' & o' & EW & S' & O' & ->). assert (q' = q /\ s' = s) as [-> ->] by (unfold v in Hw; lia). apply MJ. unfold v in Hw. lia. }
  assert (N1 : forall j, o <= j -> Z.testbit (entry d s) j = false). { intros j J. destruct (Z.testbit (entry d s) j) eqn:T; [|reflexivity]. assert (C : negb (Z.land (entry d s) (umax - (bitmask o - 1)) =? 0) = true) by (apply (mask_above _ _ (entry_word d s W) O); eauto). rewrite C in E1. discriminate. }
  clear E1.
  assert (U1 : u64 (v + (64 - o)) = v + (64 - o)) by (apply Z.mod_small; lia). rewrite U1.
  destruct (find_entry (Z.to_nat (128 - (s + 1))) d (s + 1)) as [x|] eqn:F1.
  { apply find_entry_some in F1 as (X1 & X2 & X3). assert (X4 : s + 1 <= x < 128) by lia.
    destruct (least_bit _ (entry_word d x W) 0 (nonzero_bit _ (entry_word d x W) X2) ltac:(lia)) as (j & J & TJ & MJ).
    assert (U2 : u64 (v + (64 - o) + 64 * (x - s - 1)) = 8192 * q + 64 * x) by (unfold u64; rewrite Z.mod_small; unfold v in *; lia). rewrite U2.
    rewrite (bit_loop_ok _ j ltac:(lia) TJ 64 0) by (try assumption; try lia; unfold v in *; lia). apply (answer_in d v v0); auto; try (unfold v in *; lia).
    - replace (8192 * q + 64 * x + (j - 0)) with (8192 * q + 64 * x + j) by lia. rewrite bit_at by lia. exact TJ.
    - intros w Hw. destruct (AT w ltac:(lia)) as (q' & s' & o' & EW & S' & O' & ->). unfold v in Hw. assert (q' = q) by lia. subst q'. destruct (Z.eq_dec s' s) as [->|NS]; [apply N1; lia|].
      destruct (Z.eq_dec s' x) as [->|NX]; [apply MJ; lia|]. rewrite X3 by lia. apply Z.bits_0. }
  assert (N2 : forall y, s + 1 <= y < 128 -> entry d y = 0) by (intros y Hy; apply (find_entry_none _ _ _ F1); lia). clear F1.
  assert (U2 : u64 (v + (64 - o) + 64 * (128 - s - 1)) = 8192 * (q + 1)) by (unfold u64; rewrite Z.mod_small; unfold v in *; lia). rewrite U2.
  destruct (find_entry (Z.to_nat (s + 1)) d 0) as [x|] eqn:F2.
  { apply find_entry_some in F2 as (X1 & X2 & X3). assert (X4 : 0 <= x <= s) by lia.
    destruct (least_bit _ (entry_word d x W) 0 (nonzero_bit _ (entry_word d x W) X2) ltac:(lia)) as (j & J & TJ & MJ).
    assert (JB : 64 * x + j <= 64 * s + o). { destruct (Z.eq_dec x s) as [->|]; [|lia]. destruct (Z.lt_ge_cases j o); [lia|]. rewrite N1 in TJ by lia. discriminate. }
    assert (U3 : u64 (8192 * (q + 1) + 64 * x) = 8192 * (q + 1) + 64 * x) by (unfold u64; rewrite Z.mod_small; unfold v in *; lia). rewrite U3.
    rewrite (bit_loop_ok _ j ltac:(lia) TJ 64 0) by (try assumption; try lia; unfold v in *; lia). apply (answer_in d v v0); auto; try (unfold v in *; lia).
    - replace (8192 * (q + 1) + 64 * x + (j - 0)) with (8192 * (q + 1) + 64 * x + j) by lia. rewrite bit_at by lia. exact TJ.
    - intros w Hw. destruct (AT w ltac:(lia)) as (q' & s' & o' & EW & S' & O' & ->). unfold v in Hw. assert (q' = q \/ q' = q + 1) as [->| ->] by lia.
      + destruct (Z.eq_dec s' s) as [->|NS]; [apply N1; lia|]. rewrite N2 by lia. apply Z.bits_0.
      + destruct (Z.eq_dec s' x) as [->|NX]; [apply MJ; lia|]. rewrite X3 by lia. apply Z.bits_0. }
  assert (N3 : forall y, 0 <= y <= s -> entry d y = 0) by (intros y Hy; apply (find_entry_none _ _ _ F2); lia).
  eexists. split; [reflexivity|]. right. split; [reflexivity|]. intros w _. rewrite could_spec. destruct (decomp w) as (q' & s' & o' & -> & S' & O'). rewrite bit_at by lia.
  assert (Z0 : entry d s' = 0) by (destruct (Z.le_gt_cases s' s); [apply N3|apply N2]; lia). rewrite Z0, Z.bits_0. apply andb_false_r.
Qed.

(** ** Filters *)
Lemma nth_repeat_lt {A} (x y : A) : forall n i, (i < n)%nat -> nth i (repeat x n) y = x.
Proof. induction n; intros [|i] H; cbn; try lia; auto. apply IHn. lia. Qed.
Lemma slot_lt v : 0 <= v mod 8192 / 64 < 128 /\ 0 <= v mod 8192 mod 64 < 64.
Proof. split; [|apply Z.mod_pos_bound; lia]. pose proof (Z.mod_pos_bound v 8192 ltac:(lia)). split; [apply Z.div_pos; lia|apply Z.div_lt_upper_bound; lia]. Qed.
Lemma wf_potential : wf potential.
Proof. unfold wf, potential, word, umax; cbn [d_min d_max d_filter]. split; [lia|]. split; [lia|]. split; [reflexivity|]. apply Forall_forall. intros x H. apply repeat_spec in H. subst. lia. Qed.
Lemma wf_observed : wf observed.
Proof. unfold wf, observed, word, umax; cbn [d_min d_max d_filter]. split; [lia|]. split; [lia|]. split; [reflexivity|]. apply Forall_forall. intros x H. apply repeat_spec in H. subst. lia. Qed.
Lemma potential_all v : uint64 v -> couldQualify potential v = true.
Proof.
  intros [A B]. rewrite could_spec. unfold potential; cbn [d_min d_max]. unfold bit, entry; cbn [d_filter]. destruct (slot_lt v) as [S O].
  rewrite nth_repeat_lt by lia. assert (T : forall n, 0 <= n < 64 -> Z.testbit umax n = true) by (intros n N; change umax with (Z.ones 64); now rewrite Z.ones_spec_low by lia). rewrite T by exact O. unfold umax. lia.
Qed.
Lemma nth_land : forall a b i, length a = length b -> nth i (land_words a b) 0 = Z.land (nth i a 0) (nth i b 0).
Proof. unfold land_words. induction a as [|x a IH]; intros [|y b] [|i] L; cbn in *; try lia; auto. Qed.
Lemma land_words_length : forall a b, length a = length b -> length (land_words a b) = length a.
Proof. intros a b L. unfold land_words. rewrite map_length, combine_length. lia. Qed.
Lemma word_land a b : word a -> word b -> word (Z.land a b).
Proof.
  intros [A A'] [B B']. split; [apply Z.land_nonneg; auto|]. destruct (Z.le_gt_cases (Z.land a b) 0) as [L|L]; [lia|]. apply Z.log2_lt_pow2; [lia|].
  eapply Z.le_lt_trans; [apply Z.log2_land; assumption|]. eapply Z.le_lt_trans; [apply Z.le_min_l|]. destruct (Z.eq_dec a 0) as [->|]; [cbn; lia|]. apply Z.log2_lt_pow2; lia.
Qed.
Lemma land_words_ok a b : Forall word a -> Forall word b -> Forall word (land_words a b).
Proof.
  unfold land_words. intros HA. revert b. induction HA as [|x a Hx HA IH]; intros b HB; [constructor|]. destruct HB as [|y b Hy HB]; [constructor|]. cbn. constructor; [now apply word_land|now apply IH].
Qed.
Lemma inter_could f mi ma a b v : length (d_filter a) = 128%nat -> length (d_filter b) = 128%nat -> f = land_words (d_filter a) (d_filter b) ->
  mi = Z.max (d_min a) (d_min b) -> ma = Z.min (d_max a) (d_max b) -> couldQualify (mkDom mi ma f) v = couldQualify a v && couldQualify b v.
Proof.
  intros LA LB -> -> ->. rewrite !could_spec. cbn [d_min d_max]. unfold bit, entry. cbn [d_filter]. rewrite nth_land by congruence. rewrite Z.land_spec.
  replace (Z.max (d_min a) (d_min b) <=? v) with ((d_min a <=? v) && (d_min b <=? v)) by lia. replace (v <=? Z.min (d_max a) (d_max b)) with ((v <=? d_max a) && (v <=? d_max b)) by lia. btauto.
Qed.
Lemma inter_wf mi ma a b : wf a -> wf b -> mi = Z.max (d_min a) (d_min b) -> ma = Z.min (d_max a) (d_max b) -> wf (mkDom mi ma (land_words (d_filter a) (d_filter b))).
Proof.
  intros (A1 & A2 & A3 & A4) (B1 & B2 & B3 & B4) -> ->. unfold wf, word in *; cbn [d_min d_max d_filter]. split; [lia|]. split; [lia|]. split; [rewrite land_words_length; congruence|now apply land_words_ok].
Qed.
Lemma set_word_length : forall l n w, length (set_word n w l) = length l.
Proof. induction l as [|x l IH]; intros [|n] w; cbn; auto. Qed.
Lemma nth_set_word : forall l n w i, (n < length l)%nat -> nth i (set_word n w l) 0 = if Nat.eqb i n then w else nth i l 0.
Proof. induction l as [|x l IH]; intros [|n] w [|i] L; cbn in *; try lia; auto. apply IH. lia. Qed.
Lemma set_word_ok : forall l n w, Forall word l -> word w -> Forall word (set_word n w l).
Proof. induction l as [|x l IH]; intros [|n] w F W; cbn; auto; inversion F; subst; constructor; auto. Qed.
Lemma word_lor a b : word a -> word b -> word (Z.lor a b).
Proof.
  intros [A A'] [B B']. split; [apply Z.lor_nonneg; auto|]. destruct (Z.le_gt_cases (Z.lor a b) 0) as [L|L]; [lia|]. apply Z.log2_lt_pow2; [lia|]. rewrite Z.log2_lor by assumption.
  apply Z.max_lub_lt; [destruct (Z.eq_dec a 0) as [->|]|destruct (Z.eq_dec b 0) as [->|]]; try (cbn; lia); apply Z.log2_lt_pow2; lia.
Qed.
Lemma word_bitmask n : 0 <= n < 64 -> word (bitmask n).
Proof. intros H. unfold bitmask, u64, word. apply Z.mod_pos_bound. lia. Qed.
Lemma add_wf d v : wf d -> uint64 v -> wf (add d v).
Proof.
  intros W V. pose proof W as (A & B & C & D). destruct (slot_lt v) as [S O]. unfold wf, add; cbn [d_min d_max d_filter]. unfold uint64 in V. unfold word in A, B. split; [unfold word; destruct (v <? d_min d); lia|]. split; [unfold word; destruct (d_max d <? v); lia|].
  split; [rewrite set_word_length; exact C|]. apply set_word_ok; [exact D|]. unfold filterSize, filterEntryBits. apply word_lor; [now apply entry_word|apply word_bitmask; exact O].
Qed.
Lemma add_bit d v i : wf d -> 0 <= i < 8192 -> bit (add d v) i = bit d i || (i =? v mod 8192).
Proof.
  intros (_ & _ & C & _) I. destruct (slot_lt v) as [S O]. assert (S2 : 0 <= i / 64 < 128 /\ 0 <= i mod 64 < 64). { split; [split; [apply Z.div_pos; lia|apply Z.div_lt_upper_bound; lia]|apply Z.mod_pos_bound; lia]. }
  unfold bit. unfold entry at 1, add; cbn [d_filter]. unfold filterSize, filterEntryBits. change (128 * 64) with 8192. rewrite nth_set_word by lia.
  destruct (Nat.eqb_spec (Z.to_nat (i / 64)) (Z.to_nat (v mod 8192 / 64))) as [E|E].
  - assert (E2 : i / 64 = v mod 8192 / 64) by lia. rewrite <- E2. rewrite Z.lor_spec, bitmask_pow, Z.pow2_bits_eqb by lia. f_equal.
    pose proof (Z.div_mod i 64 ltac:(lia)). pose proof (Z.div_mod (v mod 8192) 64 ltac:(lia)). lia.
  - unfold entry. assert (NE : i <> v mod 8192) by (intros ->; apply E; reflexivity). destruct (Z.eqb_spec i (v mod 8192)); [lia|]. now rewrite orb_false_r.
Qed.
Lemma add_could d v w : wf d -> couldQualify d w = true -> couldQualify (add d v) w = true.
Proof.
  intros W. rewrite !could_spec. rewrite add_bit by (auto; apply Z.mod_pos_bound; lia). unfold add; cbn [d_min d_max]. destruct (Z.ltb_spec v (d_min d)), (Z.ltb_spec (d_max d) v); intros Q; apply andb_prop in Q as [Q B]; rewrite B; cbn [orb]; lia.
Qed.
Lemma add_self d v : wf d -> couldQualify (add d v) v = true.
Proof.
  intros W. rewrite could_spec. rewrite add_bit by (auto; apply Z.mod_pos_bound; lia). rewrite Z.eqb_refl, orb_true_r. unfold add; cbn [d_min d_max]. destruct (Z.ltb_spec v (d_min d)), (Z.ltb_spec (d_max d) v); lia.
Qed.
