(** Proofs about the images of tree nodes. *)
From Coq Require Import Sorting.Sorted ZifyBool.
From Verif Require Export TreeImageModel TreeImageSpec TreeProofs TableSpec.
From Verif Require Import TableProofs ColumnProofs TreeProofs4.
Local Open Scope Z_scope.

Lemma zlen_app {A} (a b : list A) : zlen (a ++ b) = zlen a + zlen b.
Proof. rewrite app_length. lia. Qed.

Lemma loadKeys_ok m : forall ks p, contains m p (flat_map enc_vlong2 ks) -> (forall x, In x ks -> 0 <= x < 2 ^ 63) ->
  kn_loadKeys m (length ks) p = Some (ks, p + zlen (flat_map enc_vlong2 ks)).
Proof.
  induction ks as [|x ks IH]; intros p H Hr; cbn [flat_map length kn_loadKeys] in *.
  - cbn. f_equal. f_equal. lia.
  - apply contains_app in H as (H1 & H2). rewrite (vlong2_ok m p x H1) by (apply Hr; now left).
    rewrite (IH _ H2) by (intros; apply Hr; now right). f_equal. f_equal. rewrite zlen_app. lia.
Qed.

(** A node with a constant step. *)
Definition KS (n : kn) (ks : list Z) : Prop :=
  kn_cons n = true /\ 1 <= kn_step n /\ kn_size n = length ks /\
  ks = map (fun i => kn_first n + Z.of_nat i * kn_step n) (seq 0 (kn_size n)).


(** What a reader needs of a node. *)
Definition Read (n : kn) (ks : list Z) : Prop :=
  kn_size n = length ks /\ (forall i x, nth_error ks i = Some x -> kn_keyAt n i = x) /\ (forall k, kn_pos n k = place k ks).

Lemma KN_Read n ks : KN n ks -> incr ks -> Read n ks.
Proof.
  intros HK Hs. split; [apply HK|]. split; [intros; eapply KN_keyAt; eauto|]. intros k. now apply pos_ok.
Qed.

Lemma existsb_no k l : (forall x, In x l -> x <> k) -> existsb (Z.eqb k) l = false.
Proof.
  intros Hl. destruct (existsb (Z.eqb k) l) eqn:Ee; auto. apply existsb_exists in Ee as (y & Hy & E).
  apply Z.eqb_eq in E as <-. now specialize (Hl k Hy).
Qed.
Lemma existsb_yes k l : In k l -> existsb (Z.eqb k) l = true.
Proof. intros Hl. apply existsb_exists. exists k. split; auto. apply Z.eqb_refl. Qed.

Lemma KS_Read n ks : KS n ks -> incr ks -> Read n ks.
Proof.
  intros (Hc & Hst & Hsz & Hks) Hs.
  assert (Hn : forall i x, nth_error ks i = Some x -> (i < kn_size n)%nat /\ x = kn_first n + Z.of_nat i * kn_step n).
  { intros i x H. assert (Hi : (i < kn_size n)%nat) by (rewrite Hsz; apply nth_error_Some; congruence).
    rewrite Hks, nth_error_map, (nth_error_nth' _ 0%nat) in H by (rewrite seq_length; lia).
    rewrite seq_nth in H by lia. cbn in H. injection H as <-. split; auto. }
  assert (Hin : forall i, (i < kn_size n)%nat -> nth_error ks i = Some (kn_first n + Z.of_nat i * kn_step n)).
  { intros i Hi. rewrite Hks, nth_error_map, (nth_error_nth' _ 0%nat) by (rewrite seq_length; lia). now rewrite seq_nth by lia. }
  split; [exact Hsz|]. split.
  - intros i x H. apply Hn in H as (_ & ->). unfold kn_keyAt. now rewrite Hc.
  - intros k. unfold kn_pos, place; fold (below k ks). rewrite Hc.
    destruct (Z.eqb_spec (Z.of_nat (kn_size n)) 0) as [E0|E0]; cbn [orb].
    { destruct ks; [reflexivity|cbn in Hsz; lia]. }
    destruct (Z.ltb_spec k (kn_first n)) as [Hlt|Hge].
    { assert (Hall : forall x, In x ks -> k < x).
      { intros x Hx. apply In_nth_error in Hx as (i & Hx). apply Hn in Hx as (_ & ->). nia. }
      rewrite existsb_no by (intros x Hx; specialize (Hall x Hx); lia).
      rewrite below_none by (intros x Hx; specialize (Hall x Hx); lia). reflexivity. }
    set (d := k - kn_first n). set (s := kn_step n) in *. assert (Hkd : k = kn_first n + d) by (unfold d; lia). clearbody d s.
    destruct (Z.ltb_spec d (Z.of_nat (kn_size n) * s)) as [Hd|Hd].
    + assert (Hq : 0 <= d / s < Z.of_nat (kn_size n)).
      { split; [apply Z.div_pos; lia|]. apply Z.div_lt_upper_bound; lia. }
      assert (Hdm : d = s * (d / s) + d mod s) by (apply Z.div_mod; lia).
      pose proof (Z.mod_pos_bound d s ltac:(lia)) as Hmb.
      destruct (Z.eqb_spec (d mod s) 0) as [Em|Em].
      * assert (Ek : nth_error ks (Z.to_nat (d / s)) = Some k).
        { rewrite Hin by lia. f_equal. rewrite Z2Nat.id by lia. lia. }
        rewrite existsb_yes by (eapply nth_error_In; eauto).
        assert (Eb : below k ks = Z.to_nat (d / s)).
        { apply below_index; auto.
          - lia.
          - intros i x Hi E. apply (incr_nth _ Hs i (Z.to_nat (d / s))); auto.
          - intros i x Hi E. destruct (Nat.eq_dec i (Z.to_nat (d / s))) as [->|]; [rewrite Ek in E; injection E as <-; lia|].
            pose proof (incr_nth _ Hs (Z.to_nat (d / s)) i k x ltac:(lia) Ek E). lia. }
        rewrite Eb. rewrite Z2Nat.id by lia. destruct (Z.ltb_spec 1 s) as [H1|H1]; [reflexivity|].
        replace s with 1 by lia. now rewrite Z.div_1_r.
      * assert (H1 : 1 < s). { destruct (Z.eq_dec s 1) as [E|E]; [rewrite E, Z.mod_1_r in Em; lia|lia]. }
        replace (1 <? s) with true by lia.
        assert (Hno : forall i x, nth_error ks i = Some x -> (Z.of_nat i <= d / s -> x < k) /\ (d / s < Z.of_nat i -> k < x)).
        { intros i x E. apply Hn in E as (_ & ->). split; intros Hi.
          - assert (Z.of_nat i * s <= d / s * s) by (apply Z.mul_le_mono_nonneg_r; lia). lia.
          - assert ((d / s + 1) * s <= Z.of_nat i * s) by (apply Z.mul_le_mono_nonneg_r; lia). lia. }
        rewrite existsb_no.
        2:{ intros x Hx E. apply In_nth_error in Hx as (i & Hx). apply Hno in Hx. lia. }
        assert (Eb : below k ks = S (Z.to_nat (d / s))).
        { apply below_index; auto; [lia| |]; intros i x Hi E; apply Hno in E; lia. }
        rewrite Eb. lia.
    + assert (Hall : forall x, In x ks -> x < k).
      { intros x Hx. apply In_nth_error in Hx as (i & Hx). apply Hn in Hx as (Hi & ->). nia. }
      rewrite existsb_no by (intros x Hx; specialize (Hall x Hx); lia). rewrite below_all by auto. lia.
Qed.

(** ** The step. *)
Lemma same_steps_ok s : forall l prev, same_steps s prev l = true ->
  l = map (fun i => prev + Z.of_nat i * s) (seq 1 (length l)).
Proof.
  induction l as [|x l IH]; intros prev H; cbn [same_steps length seq map] in *; auto.
  apply andb_true_iff in H as (H1 & H2). f_equal; [lia|]. rewrite (IH x H2) at 1.
  rewrite <- (seq_shift (length l) 1), map_map. apply map_ext. intros i. lia.
Qed.

Lemma same_steps_true s : forall l prev, l = map (fun i => prev + Z.of_nat i * s) (seq 1 (length l)) -> same_steps s prev l = true.
Proof.
  induction l as [|x l IH]; intros prev H; cbn [same_steps length seq map] in *; auto.
  injection H as Hx Hl. assert (x = prev + s) by (rewrite Hx; destruct s; reflexivity). apply andb_true_iff. split; [lia|]. apply IH. rewrite Hl at 1.
  rewrite <- (seq_shift (length l) 1), map_map. apply map_ext. intros i. lia.
Qed.

Lemma incr_span a l : incr (a :: l) -> last l a <= a + zlen l -> l = from (a + 1) (length l).
Proof.
  revert a. induction l as [|x l IH]; intros a Hs Hl; [reflexivity|].
  apply incr_cons in Hs as (Hs & Ha). specialize (Ha x (or_introl eq_refl)).
  assert (Hlow : forall l x, incr (x :: l) -> x + zlen l <= last l x).
  { clear. induction l as [|y l IH]; intros x Hs; [cbn; lia|]. apply incr_cons in Hs as (Hs & Hx).
    specialize (Hx y (or_introl eq_refl)). specialize (IH y Hs).
    replace (last (y :: l) x) with (last l y). 2:{ clear. revert x y. induction l; intros; cbn in *; auto. destruct l; auto. }
    cbn [length]. lia. }
  assert (E : last (x :: l) a = last l x). { clear. revert x a. induction l; intros; cbn in *; auto. destruct l; auto. }
  rewrite E in Hl. pose proof (Hlow l x Hs) as HL. cbn [length] in Hl.
  assert (x = a + 1) by lia. subst x. cbn [length]. rewrite from_S. f_equal. apply IH; auto. lia.
Qed.

Lemma kn_at_last n ks : KN n ks -> kn_cons n = false -> (1 < length ks)%nat ->
  kn_at n (Z.of_nat (kn_size n) - 2) = last (kn_keys n) 0.
Proof.
  intros (H1 & H2) Hc Hl. rewrite Hc in H2. destruct H2 as (H2 & _). unfold kn_at.
  destruct (exists_last (l := kn_keys n)) as (r & x & E). { intros E. rewrite E in H2. cbn in H2. lia. }
  rewrite E in *. rewrite app_length in H2. cbn in H2. rewrite last_last.
  rewrite app_nth2 by lia. replace (Z.to_nat (Z.of_nat (kn_size n) - 2) - length r)%nat with 0%nat by lia. reflexivity.
Qed.

Lemma last_cons {A} (l : list A) : forall x a, last (x :: l) a = last l x.
Proof. induction l as [|y l IH]; intros x a; auto. change (last (x :: y :: l) a) with (last (y :: l) a). rewrite !IH. reflexivity. Qed.

(** The written step is either 0, and then the node is not consecutive, or the constant
    step of the keys. *)
Lemma imageStep_ok n ks : KN n ks -> incr ks -> (1 < length ks)%nat ->
  (kn_imageStep n = 0 /\ kn_cons n = false) \/
  (1 <= kn_imageStep n < 256 /\ ks = map (fun i => kn_first n + Z.of_nat i * kn_imageStep n) (seq 0 (length ks))).
Proof.
  intros HK Hs Hl. pose proof HK as (H1 & H2). unfold kn_imageStep.
  destruct (kn_cons n) eqn:Hc; cbn [orb].
  - right. split; [lia|]. destruct H2 as (_ & H2). rewrite H2 at 1. rewrite H1. unfold from. apply map_ext. intros; lia.
  - rewrite (kn_at_last n ks HK Hc Hl). destruct H2 as (H2 & H3). specialize (H3 ltac:(now destruct ks)).
    destruct (kn_keys n) as [|d0 ds] eqn:Ek; [cbn in H2; lia|].
    change (kn_at n 0) with (nth 0 (kn_keys n) 0). rewrite Ek. cbn [nth]. rewrite last_cons.
    assert (Hsd : incr (d0 :: ds)).
    { rewrite H3 in Hs. apply incr_cons in Hs as (Hs & _). clear - Hs. remember (d0 :: ds) as l. clear Heql.
      induction l as [|x l IH]; [constructor|]. cbn in Hs. apply incr_cons in Hs as (Hs & Hx). apply incr_cons. split; auto.
      intros y Hy. specialize (Hx (kn_first n + y) (in_map _ _ _ Hy)). lia. }
    assert (Hlen : kn_size n = S (S (length ds))) by (cbn [length] in H2; lia).
    assert (Hkl : length ks = S (S (length ds))) by lia.
    assert (Hrep : forall s, d0 = s -> ds = map (fun i => d0 + Z.of_nat i * s) (seq 1 (length ds)) ->
      ks = map (fun i => kn_first n + Z.of_nat i * s) (seq 0 (length ks))).
    { intros s -> E. rewrite Hkl. rewrite H3 at 1. cbn [map seq]. f_equal; [lia|]. f_equal; [lia|].
      rewrite E at 1. rewrite <- (seq_shift (length ds) 1), !map_map. apply map_ext. intros; lia. }
    destruct ((d0 =? 1) && (last ds d0 =? Z.of_nat (kn_size n) - 1)) eqn:E1.
    + right. split; [lia|]. apply Hrep; [lia|]. assert (d0 = 1) by lia. subst d0.
      rewrite (incr_span 1 ds Hsd) at 1 by lia. unfold from. rewrite <- seq_shift, map_map. apply map_ext. intros; lia.
    + cbn [kn_size]. replace (firstn (kn_size n - 1) (d0 :: ds)) with (d0 :: ds) by (symmetry; apply firstn_all2; cbn [length]; lia).
      cbn [skipn]. destruct (_ && same_steps d0 d0 ds) eqn:E2; [|left; auto].
      right. apply andb_true_iff in E2 as (E2 & E3). split; [lia|]. apply Hrep; [reflexivity|]. now apply same_steps_ok.
Qed.

Lemma kn_image_len_pos n : 0 < zlen (kn_image n).
Proof. unfold kn_image. rewrite zlen_app, enc_length. lia. Qed.

Lemma load_ok n ks old m p : KN n ks -> incr ks -> (forall x, In x ks -> 0 <= x < 2 ^ 63) -> Z.of_nat (length ks) < 2 ^ 31 ->
  1 <= kn_step old -> ((1 < length ks)%nat -> kn_imageStep n < 128) -> contains m p (kn_image n) ->
  exists n', kn_load old m p = Some (n', p + zlen (kn_image n)) /\ Read n' ks.
Proof.
  intros HK Hs Hr Hl Ho Hst Hc. pose proof HK as (H1 & H2). unfold kn_image in *. rewrite H1 in *.
  apply contains_app in Hc as (C1 & C2). rewrite enc_length in C2. change (Z.of_nat 4) with 4 in C2. unfold kn_load.
  rewrite (rdn_enc 4 m p _ C1) by (change (2 ^ (8 * Z.of_nat 4)) with (2 ^ 32); lia).
  rewrite !zlen_app, enc_length.
  destruct ks as [|x0 r].
  { cbn [length Nat.ltb Nat.leb]. cbn [Z.ltb Z.compare Z.of_nat]. eexists. split; [do 2 f_equal; cbn; lia|].
    split; [reflexivity|]. split; [intros [|i]; discriminate|]. intros k. reflexivity. }
  cbn [length] in C2 |- *. replace (0 <? S (length r))%nat with true in * by lia. replace (0 <? Z.of_nat (S (length r))) with true by lia.
  apply contains_app in C2 as (C2 & C3). rewrite enc_length in C3. change (Z.of_nat 8) with 8 in C3.
  pose proof (KN_first n _ x0 r HK eq_refl) as Hf.
  rewrite (rdn_enc 8 m _ _ C2) by (rewrite Hf; specialize (Hr x0 (or_introl eq_refl)); change (2 ^ (8 * Z.of_nat 8)) with (2 ^ 64); lia).
  rewrite !zlen_app, enc_length. change (Z.of_nat 4) with 4. change (Z.of_nat 8) with 8. rewrite Nat2Z.id.
  destruct r as [|x1 r].
  { cbn [length Nat.ltb Nat.leb Z.ltb Z.compare Z.of_nat Pos.of_succ_nat Pos.compare Pos.compare_cont].
    eexists. split; [do 2 f_equal; cbn; lia|]. split; [reflexivity|]. split.
    - intros [|[|i]] x E; cbn in E; try discriminate. injection E as <-. unfold kn_keyAt. cbn. destruct (kn_cons old); lia.
    - intros k. unfold kn_pos, place, below. cbn [kn_size kn_first kn_cons kn_step filter existsb].
      change (Z.of_nat 1 =? 0) with false. cbn [orb]. rewrite Hf.
      destruct (Z.ltb_spec k x0) as [E|E].
      { replace (k =? x0) with false by lia. replace (x0 <? k) with false by lia. reflexivity. }
      destruct (Z.eqb_spec k x0) as [->|E1].
      + rewrite Z.ltb_irrefl. cbn [orb length]. replace (x0 - x0) with 0 by lia.
        destruct (kn_cons old); [|reflexivity]. replace (0 <? Z.of_nat 1 * kn_step old) with true by lia.
        rewrite Z.mod_0_l, Z.div_0_l by lia. now destruct (1 <? kn_step old).
      + replace (x0 <? k) with true by lia. cbn [orb length].
        destruct (kn_cons old).
        * destruct (Z.ltb_spec (k - x0) (Z.of_nat 1 * kn_step old)) as [E2|E2]; [|reflexivity].
          replace (1 <? kn_step old) with true by lia. rewrite Z.mod_small, Z.div_small by lia.
          replace (k - x0 =? 0) with false by lia. reflexivity.
        * replace (k - x0 =? 0) with false by lia. reflexivity. }
  cbn [length] in C3 |- *. set (L := S (S (length r))) in *.
  replace (1 <? L)%nat with true in * by lia. replace (1 <? Z.of_nat L) with true by lia.
  specialize (Hst ltac:(cbn [length]; lia)).
  rewrite (getb_contains _ _ _ _ C3). change (?a :: ?b) with ([a] ++ b) in C3 |- *.
  apply contains_app in C3 as (_ & C3). change (zlen [_]) with 1 in C3.
  rewrite !zlen_app. change (zlen [_]) with 1.
  replace (kn_imageStep n <? 128) with true by lia.
  destruct (imageStep_ok n (x0 :: x1 :: r) HK Hs ltac:(cbn; lia)) as [(E & Hc)|(E & Hks)].
  - rewrite E in *. cbn [Z.ltb Z.compare Z.eqb] in *.
    rewrite Hc in H2. destruct H2 as (H2 & H3). specialize (H3 ltac:(discriminate)).
    assert (Hk : length (kn_keys n) = (L - 1)%nat) by (rewrite H2; unfold L; cbn [length]; lia).
    rewrite (firstn_all2 (kn_keys n)) in * by lia. rewrite <- Hk.
    rewrite (loadKeys_ok m (kn_keys n)); [|exact C3|].
    2:{ intros x Hx. assert (Hin : In (kn_first n + x) (x0 :: x1 :: r)) by (rewrite H3; right; now apply in_map).
        pose proof (Hr _ Hin). specialize (Hr x0 (or_introl eq_refl)). split; [|lia].
        assert (Hi2 : In (kn_first n + x) (x1 :: r)).
        { injection H3 as _ H3. change (x1 :: r) with (x1 :: r). rewrite H3. now apply in_map. }
        apply incr_cons in Hs as (_ & Hs). specialize (Hs _ Hi2). lia. }
    eexists. split; [do 2 f_equal; lia|]. apply KN_Read; auto.
    split; cbn [kn_size kn_cons kn_first kn_keys]; [reflexivity|]. split; [rewrite Hk; lia|]. intros _. exact H3.
  - replace (0 <? kn_imageStep n) with true by lia. replace (kn_imageStep n =? 0) with false by lia.
    eexists. split; [do 2 f_equal; cbn; lia|]. apply KS_Read; auto.
    split; [reflexivity|]. split; [cbn; lia|]. split; [reflexivity|]. exact Hks.
Qed.

(** ** Values *)
Notation co_ok := fits_fields.

Lemma line_acc l : forall comb, fst (line_image l comb) = flat_map (fun e => co_image (snd e)) l /\
  snd (line_image l comb) = Z.lor comb (snd (line_image l 0)).
Proof.
  induction l as [|(i, c) l IH]; intros comb; cbn [line_image].
  - cbn. now rewrite Z.lor_0_r.
  - destruct (IH (Z.lor comb (2 ^ Z.of_nat i))) as (A1 & A2). destruct (IH (Z.lor 0 (2 ^ Z.of_nat i))) as (B1 & B2).
    destruct (line_image l (Z.lor comb _)) as (b, x). destruct (line_image l (Z.lor 0 _)) as (b', x').
    cbn [fst snd flat_map] in *. split; [now rewrite A1|]. rewrite A2, B2, Z.lor_0_l. now rewrite Z.lor_assoc.
Qed.

Lemma co_image_parse m p c : contains m p (co_image c) -> co_ok c ->
  exists p1 p2, dec_vlong2 m p = Some (co_n c, p1) /\ dec_vint2 m p1 = Some (co_file c, p2) /\
  exists p3, dec_vlong2 m p2 = Some (co_pos c, p3) /\ getb m p3 = Some (co_strat c) /\ p3 + 1 = p + zlen (co_image c).
Proof.
  intros H (O1 & O2 & O3 & O4). unfold co_image in *.
  apply contains_app in H as (C1 & H). apply contains_app in H as (C2 & H). apply contains_app in H as (C3 & C4).
  eexists _, _. split; [apply (vlong2_ok _ _ _ C1 O1)|]. split.
  { apply decv_encv; [exact C2| |lia]. assert (2 ^ 16 <= 2 ^ (7 * Z.of_nat 5)) by (apply Z.pow_le_mono_r; lia). lia. }
  eexists. split; [apply (vlong2_ok _ _ _ C3 O3)|]. split.
  { rewrite (getb_contains _ _ _ _ C4). f_equal. now rewrite Z.mod_small. }
  rewrite !zlen_app. unfold enc_vint2. cbn [length]. lia.
Qed.

(** The bits of the permutations, for the parser. *)
Fixpoint bits_ok (l : list (nat * coord)) (perms : Z) (idx : nat) : Prop :=
  match l with
  | [] => True
  | (i, c) :: r => exists q, skip_zeros 8 perms idx = Some (q, i) /\ bits_ok r (q / 2) (S i)
  end.

Lemma parse_ok m : forall l perms idx p, contains m p (flat_map (fun e => co_image (snd e)) l) ->
  (forall e, In e l -> co_ok (snd e)) -> bits_ok l perms idx -> parse_loop m (length l) perms idx p = Some l.
Proof.
  induction l as [|(i, c) l IH]; intros perms idx p H Hok Hb; [reflexivity|].
  cbn [flat_map length parse_loop] in *. apply contains_app in H as (C1 & C2). cbn [snd] in C1.
  assert (Hc : co_ok c) by apply (Hok (i, c) (or_introl eq_refl)).
  destruct (co_image_parse m p c C1 Hc) as (p1 & p2 & E1 & E2 & p3 & E3 & E4 & E5).
  rewrite E1, E2, E3, E4. destruct Hb as (q & -> & Hb). rewrite E5. rewrite (IH _ _ _ C2); auto.
  - rewrite Z.mod_small by apply Hc. now destruct c.
  - intros; apply Hok; now right.
Qed.

Lemma bits_list_of u : bits_ok (list_of u) (snd (line_image (list_of u) 0)) 0 /\
  nth_error NCOMBS (Z.to_nat (snd (line_image (list_of u) 0))) = Some (length (list_of u)) /\
  0 <= snd (line_image (list_of u) 0) < 64.
Proof.
  assert (E : forall l comb, snd (line_image l comb) = fold_left (fun c e => Z.lor c (2 ^ Z.of_nat e)) (map fst l) comb).
  { induction l as [|(i, c) l IH]; intros comb; cbn [line_image]; [reflexivity|]. specialize (IH (Z.lor comb (2 ^ Z.of_nat i))).
    destruct (line_image l _) as (b, x). cbn [snd map fst fold_left] in *. exact IH. }
  rewrite !E. unfold list_of. cbn [seq flat_map].
  destruct (u 0%nat), (u 1%nat), (u 2%nat), (u 3%nat), (u 4%nat), (u 5%nat);
    cbn [app map fst]; (split; [|split; [reflexivity|cbn; lia]]);
    repeat (eexists; split; [reflexivity|]); exact I.
Qed.

Definition vals (vs : list (list (nat * coord))) : list Z := flat_map (fun l => flat_map (fun e => co_image (snd e)) l) vs.

Lemma vals_image_ok : forall vs off cs ss bs, vals_image vs off = Some (cs, ss, bs) ->
  (forall l, In l vs -> exists u, l = list_of u) ->
  bs = vals vs /\ length cs = length vs /\ length ss = (2 * length vs)%nat /\
  (forall i l, nth_error vs i = Some l ->
     nth_error cs i = Some (snd (line_image l 0)) /\
     off + zlen (vals (firstn i vs)) <= 65535 /\
     exists s1 s2, ss = s1 ++ enc 2 (off + zlen (vals (firstn i vs))) ++ s2 /\ length s1 = (2 * i)%nat).
Proof.
  induction vs as [|l vs IH]; intros off cs ss bs H Hu; cbn [vals_image] in H.
  { injection H as <- <- <-. repeat split; try reflexivity; intros; destruct i; discriminate. }
  destruct (Z.ltb_spec 65535 off) as [|Ho]; [discriminate|].
  destruct (line_acc l 0) as (L1 & _). destruct (line_image l 0) as (b, comb) eqn:El. cbn [fst] in L1.
  destruct (vals_image vs (off + zlen b)) as [[[cs' ss'] bs']|] eqn:E; [|discriminate]. remember (enc 2 off) as e2 eqn:Ee2. injection H as <- <- <-. rewrite Ee2. clear Ee2 e2.
  destruct (IH _ _ _ _ E) as (I1 & I2 & I3 & I4). { intros; apply Hu; now right. }
  destruct (Hu l (or_introl eq_refl)) as (u & Elu). pose proof (bits_list_of u) as (_ & _ & Hb). rewrite <- Elu, El in Hb. cbn [snd] in Hb.
  split; [unfold vals; cbn [flat_map]; now rewrite L1, I1|]. split; [cbn; lia|].
  split; [rewrite app_length, enc_length; cbn [length]; lia|].
  intros [|i] l' Hi; cbn [nth_error] in Hi.
  - injection Hi as <-. rewrite El. cbn [nth_error snd firstn vals flat_map]. rewrite Z.mod_small by lia. split; [reflexivity|].
    cbn [length]. split; [lia|]. exists [], ss'. split; [cbn [app]; do 2 f_equal; lia|reflexivity].
  - destruct (I4 i l' Hi) as (J1 & J2 & s1 & s2 & J3 & J4). cbn [nth_error firstn].
    assert (Ez : off + zlen (vals (l :: firstn i vs)) = off + zlen b + zlen (vals (firstn i vs))).
    { unfold vals. cbn [flat_map]. rewrite zlen_app, L1. lia. }
    rewrite Ez. split; [exact J1|]. split; [exact J2|].
    exists (enc 2 off ++ s1), s2. split; [rewrite J3; now rewrite <- app_assoc|]. rewrite app_length, enc_length. lia.
Qed.

Lemma contains_mid m p a b c : contains m p (a ++ b ++ c) -> contains m (p + zlen a) b.
Proof. intros H. apply contains_app in H as (_ & H). now apply contains_app in H. Qed.

Lemma vals_app a b : vals (a ++ b) = vals a ++ vals b.
Proof. unfold vals. apply flat_map_app. Qed.

Lemma parseInternalLine_ok vs b m raw i l : serialize_values vs = Some b -> contains m raw b ->
  (forall l, In l vs -> (exists u, l = list_of u) /\ forall e, In e l -> co_ok (snd e)) ->
  nth_error vs i = Some l -> parseInternalLine m raw (length vs) i = Some l.
Proof.
  intros H Hc Hu Hi. unfold serialize_values in H.
  destruct (vals_image vs 4) as [[[cs ss] bs]|] eqn:E; [|discriminate].
  match type of H with Some ?x = Some b => assert (Eb : b = x) by congruence end. subst b. clear H.
  destruct (vals_image_ok _ _ _ _ _ E) as (I1 & I2 & I3 & I4). { intros; now apply Hu. }
  destruct (I4 i l Hi) as (J1 & J2 & s1 & s2 & J3 & J4).
  assert (Hlt : (i < length vs)%nat) by (apply nth_error_Some; congruence).
  apply contains_app in Hc as (C1 & C2). apply contains_app in C2 as (C2 & C3). apply contains_app in C3 as (_ & C4).
  rewrite enc_length in C4.
  unfold parseInternalLine.
  destruct (nth_error_split _ _ J1) as (c1 & c2 & Ec & Lc). rewrite Ec in C1. apply contains_app in C1 as (_ & C1). rewrite Lc in C1.
  rewrite (getb_contains _ _ _ _ C1).
  rewrite J3 in C2. apply contains_mid in C2. rewrite J4 in C2.
  replace (raw + Z.of_nat (length vs) + Z.of_nat i * 2) with (raw + zlen cs + Z.of_nat (2 * i)) by lia.
  rewrite (rdn_enc 2 m _ _ C2) by (change (2 ^ (8 * Z.of_nat 2)) with 65536; lia).
  destruct (Hu l (nth_error_In _ _ Hi)) as ((u & Elu) & Hok).
  destruct (bits_list_of u) as (B1 & B2 & B3). rewrite <- Elu in *. rewrite B2.
  apply parse_ok; auto.
  destruct (nth_error_split _ _ Hi) as (v1 & v2 & Ev & Lv).
  rewrite I1 in C4. rewrite Ev in C4. rewrite vals_app in C4. change (l :: v2) with ([l] ++ v2) in C4. rewrite vals_app in C4.
  apply contains_mid in C4.
  replace (firstn i vs) with v1 by (rewrite Ev, firstn_app, <- Lv, Nat.sub_diag, firstn_all; cbn [firstn]; now rewrite app_nil_r).
  replace (vals [l]) with (flat_map (fun e : nat * coord => co_image (snd e)) l) in C4 by (unfold vals; cbn; now rewrite app_nil_r).
  replace (raw + (4 + zlen (vals v1)) + Z.of_nat (length vs) * 3) with (raw + zlen cs + zlen ss + Z.of_nat 4 + zlen (vals v1)) by lia.
  exact C4.
Qed.

(** Nodes of at most 420 terms always fit. *)
Lemma encv_len n : forall v, (length (encv n v) <= n)%nat.
Proof. induction n as [|n IH]; intros v; cbn [encv length]; [lia|]. destruct (v <? 128); cbn [length]; [lia|]. specialize (IH (v / 128)). lia. Qed.

Lemma co_image_len c : (length (co_image c) <= 26)%nat.
Proof.
  unfold co_image, enc_vlong2, enc_vint2. rewrite !app_length. cbn [length].
  pose proof (encv_len 10 (co_n c)). pose proof (encv_len 5 (co_file c)). pose proof (encv_len 10 (co_pos c)). lia.
Qed.

Lemma line_len u : (length (flat_map (fun e => co_image (snd e)) (list_of u)) <= 156)%nat.
Proof.
  assert (H : forall l, (length (flat_map (fun e : nat * coord => co_image (snd e)) l) <= 26 * length l)%nat).
  { induction l as [|e l IH]; cbn [flat_map length]; [lia|]. rewrite app_length. pose proof (co_image_len (snd e)). lia. }
  assert (Hl : (length (list_of u) <= 6)%nat).
  { unfold list_of. cbn [seq flat_map]. rewrite !app_length. destruct (u 0%nat), (u 1%nat), (u 2%nat), (u 3%nat), (u 4%nat), (u 5%nat); cbn; lia. }
  specialize (H (list_of u)). lia.
Qed.

Lemma vals_image_fits : forall vs off, (forall l, In l vs -> exists u, l = list_of u) ->
  off + 156 * Z.of_nat (length vs) <= 65535 + 156 -> vals_image vs off <> None.
Proof.
  induction vs as [|l vs IH]; intros off Hu Ho; cbn [vals_image]; [discriminate|].
  cbn [length] in Ho. replace (65535 <? off) with false by lia.
  destruct (line_acc l 0) as (L1 & _). destruct (line_image l 0) as (b, comb). cbn [fst] in L1.
  destruct (Hu l (or_introl eq_refl)) as (u & ->). pose proof (line_len u) as Hl. rewrite <- L1 in Hl.
  specialize (IH (off + zlen b)). destruct (vals_image vs (off + zlen b)) as [[[x y] z]|]; [discriminate|].
  exfalso. apply IH; auto; [intros; apply Hu; now right|lia].
Qed.

Lemma serialize_fits vs : (length vs <= 420)%nat -> (forall l, In l vs -> exists u, l = list_of u) -> serialize_values vs <> None.
Proof.
  intros Hl Hu. unfold serialize_values. pose proof (vals_image_fits vs 4 Hu) as H.
  destruct (vals_image vs 4) as [[[x y] z]|]; [discriminate|]. exfalso. apply H; auto. lia.
Qed.
