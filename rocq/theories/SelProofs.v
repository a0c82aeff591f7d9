(** Proofs for FILTER. *)
From Coq Require Import Lia.
From Verif Require Import OpProofs SelSpec.
Local Open Scope string_scope.
Local Open Scope Z_scope.

(** ** Strings *)
Lemma app_nil_s s : s ++ "" = s.
Proof. induction s; cbn; congruence. Qed.
Lemma app_assoc_s a b c : (a ++ b) ++ c = a ++ b ++ c.
Proof. induction a; cbn; congruence. Qed.
Lemma length_app_s a b : String.length (a ++ b) = (String.length a + String.length b)%nat.
Proof. induction a; cbn; auto. Qed.
Lemma chars_app a b : chars (a ++ b) = (chars a ++ chars b)%list.
Proof. induction a; cbn; congruence. Qed.
Lemma substring_skip a b n : substring (String.length a) n (a ++ b) = substring 0 n b.
Proof. induction a; cbn; auto. Qed.
Lemma substring_take a b : substring 0 (String.length a) (a ++ b) = a.
Proof. induction a; cbn; [now destruct b|congruence]. Qed.
Lemma substring_mid a b c : substring (String.length a) (String.length b) (a ++ b ++ c) = b.
Proof. rewrite substring_skip. apply substring_take. Qed.
Lemma substring_all n s : (String.length s <= n)%nat -> substring 0 n s = s.
Proof. revert n. induction s; intros [|n] H; cbn in *; try lia; auto. f_equal. apply IHs. lia. Qed.

Lemma ends_with_inv s x : ends_with s x = true -> exists a, s = a ++ x.
Proof.
  unfold ends_with. intros H. apply andb_prop in H as [H1 H2]. apply Nat.leb_le in H1. apply String.eqb_eq in H2.
  set (k := (String.length s - String.length x)%nat) in *.
  assert (E : s = substring 0 k s ++ substring k (String.length s - k) s).
  { clearbody k. clear. revert k. induction s; intros [|k]; cbn; auto.
    - f_equal. symmetry. apply substring_all. lia.
    - f_equal. apply IHs. }
  exists (substring 0 k s). rewrite E at 1. f_equal. rewrite <- H2. f_equal. lia.
Qed.
Lemma ends_with_app a x : ends_with (a ++ x) x = true.
Proof.
  unfold ends_with. rewrite length_app_s. apply andb_true_intro. split; [apply Nat.leb_le; lia|].
  replace (String.length a + String.length x - String.length x)%nat with (String.length a) by lia.
  apply String.eqb_eq. rewrite substring_skip. apply substring_all. lia.
Qed.
(** Two suffixes cannot both end a string if they differ from the end on. *)
Lemma ends_differ a x y : (forall l1 l2, (rev (chars x) ++ l1 <> rev (chars y) ++ l2)%list) -> ends_with (a ++ x) y = false.
Proof.
  intros H. destruct (ends_with (a ++ x) y) eqn:E; auto. exfalso. apply ends_with_inv in E as (b & E).
  apply (f_equal chars) in E. rewrite !chars_app in E. apply (f_equal (@rev _)) in E. rewrite !rev_app_distr in E.
  exact (H _ _ E).
Qed.
Ltac differ := apply ends_differ; intros l1 l2 E; vm_compute in E; discriminate.

(** ** Texts of terms *)
Definition no_quote (v : string) : Prop := ~ In (ascii_of_nat 34) (chars v).
Lemma index_quote v s : no_quote v -> index 0 quote (v ++ quote ++ s) = Some (String.length v).
Proof.
  unfold no_quote. induction v as [|c v IH]; intros H.
  - cbn. destruct s; reflexivity.
  - change ((String c v ++ quote ++ s)) with (String c (v ++ quote ++ s)). cbn [index].
    assert (Ec : c <> ascii_of_nat 34) by (intros ->; apply H; cbn; auto).
    rewrite IH by (intros Hi; apply H; cbn; auto).
    unfold quote at 1. cbn [prefix]. destruct (ascii_dec _ c) as [E|E]; [congruence|]. reflexivity.
Qed.
Lemma index_literal v s : no_quote v -> index 1 quote (literal v s) = Some (S (String.length v)).
Proof.
  intros H. unfold literal. change (quote ++ v ++ quote ++ s) with (String (ascii_of_nat 34) (v ++ quote ++ s)).
  cbn [index]. now rewrite index_quote.
Qed.
Lemma inner_literal v s : no_quote v -> inner (literal v s) = v.
Proof.
  intros H. unfold inner. rewrite index_literal by auto. unfold literal.
  replace (S (String.length v) - 1)%nat with (String.length v) by lia.
  change 1%nat with (String.length quote). apply substring_mid.
Qed.
Lemma getLong_literal v s : no_quote v -> getLong (literal v s) = stoll v.
Proof.
  intros H. unfold getLong. rewrite index_literal by auto. unfold literal.
  replace (S (String.length v) - 1)%nat with (String.length v) by lia.
  change 1%nat with (String.length quote). now rewrite substring_mid.
Qed.
Lemma typed_app v dt : typed v dt = (quote ++ v ++ quote) ++ ("^^<" ++ dt ++ ">").
Proof. unfold typed, literal. now rewrite !app_assoc_s. Qed.
Lemma literal_app v : literal v "" = (quote ++ v) ++ quote.
Proof. unfold literal. rewrite app_assoc_s. now rewrite app_nil_s. Qed.

Lemma num_text v : getNumType (literal v "") = NUNKNOWN.
Proof.
  rewrite literal_app. unfold getNumType.
  rewrite !(ends_differ (quote ++ v) quote); auto; intros l1 l2 E; vm_compute in E; discriminate.
Qed.
Lemma ends_same a x y : y = x -> ends_with (a ++ x) y = true.
Proof. intros ->. apply ends_with_app. Qed.
Lemma num_integer v : getNumType (typed v (xsd "integer")) = NINT.
Proof.
  rewrite typed_app. unfold getNumType. set (a := quote ++ v ++ quote).
  rewrite (ends_differ a _ (sfx "double")), (ends_differ a _ (sfx "float")), (ends_same a _ (sfx "integer")) by (try reflexivity; intros l1 l2 E; vm_compute in E; discriminate).
  reflexivity.
Qed.
Lemma num_double v dt : dt = xsd "double" \/ dt = xsd "float" -> getNumType (typed v dt) = NDECIMAL.
Proof.
  rewrite typed_app. unfold getNumType. set (a := quote ++ v ++ quote). intros [->| ->].
  - rewrite (ends_same a _ (sfx "double")) by reflexivity. reflexivity.
  - rewrite (ends_same a _ (sfx "float")) by reflexivity. now rewrite orb_true_r.
Qed.
Lemma num_date v : getNumType (typed v (xsd "date")) = NDATE.
Proof.
  rewrite typed_app. unfold getNumType. set (a := quote ++ v ++ quote).
  rewrite (ends_differ a _ (sfx "double")), (ends_differ a _ (sfx "float")), (ends_differ a _ (sfx "integer")), (ends_differ a _ (sfx "dateTime")), (ends_same a _ (sfx "date")) by (try reflexivity; intros l1 l2 E; vm_compute in E; discriminate).
  reflexivity.
Qed.

(** ** Reading numbers *)
Lemma digit_of c : is_digit c -> digit c = Some (Z.of_N (N_of_ascii c) - 48).
Proof. unfold is_digit, digit. intros H. destruct (_ && _) eqn:E; [reflexivity|]. exfalso. apply andb_false_iff in E as [E|E]; apply Z.leb_gt in E; lia. Qed.
Definition stops (s : string) : Prop := match s with String c _ => digit c = None | "" => True end.
Lemma read_digits_app ds rest acc n : Forall is_digit (chars ds) -> stops rest ->
  read_digits (ds ++ rest) acc n = (acc * 10 ^ Z.of_nat (String.length ds) + value ds, (n + String.length ds)%nat, rest).
Proof.
  revert acc n. induction ds as [|c ds IH]; intros acc n Hd Hs.
  - cbn [append value String.length]. rewrite Nat.add_0_r. change (Z.of_nat 0) with 0. rewrite Z.pow_0_r, Z.add_0_r, Z.mul_1_r.
    destruct rest as [|c r]; cbn; auto. cbn in Hs. now rewrite Hs.
  - inversion_clear Hd as [|? ? Hc Hd']. cbn [append read_digits]. rewrite (digit_of _ Hc), IH by auto. cbn [value String.length].
    rewrite Nat2Z.inj_succ, Z.pow_succ_r by lia. f_equal. f_equal; [ring|lia].
Qed.
Lemma digit_not_space c : is_digit c -> is_space c = false.
Proof.
  unfold is_digit, is_space. intros H. apply orb_false_iff. split; [apply Z.eqb_neq; lia|]. apply andb_false_iff. right. apply Z.leb_gt. lia.
Qed.
Lemma digit_not_sign c r : is_digit c -> read_sign (String c r) = (1, String c r).
Proof.
  unfold is_digit. intros H. unfold read_sign.
  destruct c as [[] [] [] [] [] [] [] []]; cbn in H; try lia; reflexivity.
Qed.
Lemma sign_read s k ds rest : sign s k -> digits ds -> read_sign (skip_space (s ++ ds ++ rest)) = (k, ds ++ rest).
Proof.
  intros Hs [Hne Hd]. destruct ds as [|c ds]; [congruence|]. inversion_clear Hd as [|? ? Hc Hd'].
  destruct Hs as [(-> & ->)|[(-> & ->)|(-> & ->)]].
  - change (("" ++ String c ds ++ rest)) with (String c (ds ++ rest)). cbn [skip_space]. rewrite digit_not_space by auto. now apply digit_not_sign.
  - reflexivity.
  - reflexivity.
Qed.
Lemma length_pos ds : digits ds -> Nat.eqb (String.length ds) 0 = false.
Proof. intros [H _]. destruct ds; [congruence|reflexivity]. Qed.
Lemma scan_int_app s k ds rest : sign s k -> digits ds -> stops rest -> scan_int (s ++ ds ++ rest) = Some (k * value ds, rest).
Proof.
  intros Hs Hd Hr. unfold scan_int. rewrite (sign_read s k) by auto. rewrite read_digits_app by (auto; apply Hd).
  rewrite Nat.add_0_l, length_pos by auto. rewrite Z.mul_0_l, Z.add_0_l. reflexivity.
Qed.
Lemma stoll_int v z : int_text v z -> - 2 ^ 63 <= z < 2 ^ 63 -> stoll v = Some z.
Proof.
  intros (s & k & ds & Hs & Hd & -> & ->) Hz. unfold stoll.
  rewrite <- (app_nil_s ds) at 1. rewrite (scan_int_app s k) by (auto; exact I).
  destruct (_ && _) eqn:E; [reflexivity|]. exfalso. apply andb_false_iff in E as [E|E]; [apply Z.leb_gt in E|apply Z.ltb_ge in E]; lia.
Qed.
Lemma value_app a b : value (a ++ b) = value a * 10 ^ Z.of_nat (String.length b) + value b.
Proof.
  induction a as [|c a IH]; [cbn; lia|]. cbn [append value]. rewrite IH, length_app_s, Nat2Z.inj_add, Z.pow_add_r by lia. ring.
Qed.
Lemma scan_dec_int v z : int_text v z -> scan_dec v = Some (inject_Z z).
Proof.
  intros (s & k & ds & Hs & Hd & -> & ->). unfold scan_dec.
  rewrite <- (app_nil_s ds) at 1. rewrite (sign_read s k) by auto. rewrite read_digits_app by (auto; try apply Hd; exact I).
  rewrite Nat.add_0_l, length_pos by auto. rewrite Z.mul_0_l, Z.add_0_l. reflexivity.
Qed.
Lemma scan_dec_dec v q : dec_text v q -> exists q', scan_dec v = Some q' /\ (q' == q)%Q.
Proof.
  intros (s & k & d1 & d2 & Hs & H1 & H2 & -> & Hq). unfold scan_dec.
  rewrite (sign_read s k) by auto. rewrite read_digits_app by (try apply H1; reflexivity).
  change ("." ++ d2) with (String "." d2). cbv beta iota.
  set (acc := 0 * _ + _). pose proof (read_digits_app d2 "" acc 0 (proj2 H2) I) as E. rewrite app_nil_s in E. rewrite E. subst acc. clear E.
  rewrite !Nat.add_0_l. replace (Nat.eqb (String.length d1 + String.length d2) 0) with false
    by (symmetry; pose proof (length_pos _ H1) as E; apply Nat.eqb_neq in E; apply Nat.eqb_neq; lia).
  eexists. split; [reflexivity|]. rewrite Hq, value_app. rewrite Z.mul_0_l, Z.add_0_l. reflexivity.
Qed.

(** ** What is kept for a term *)
Definition qval (v : idval) : Q := match v with IvDec q => q | IvInt _ z => inject_Z z end.
Lemma qlt_compare a b : qlt a b = match (a ?= b)%Q with Lt => true | _ => false end.
Proof.
  unfold qlt. destruct (a ?= b)%Q eqn:E.
  - apply Qeq_alt in E. apply negb_false_iff, Qle_bool_iff. rewrite E. apply Qle_refl.
  - apply Qlt_alt in E. apply negb_true_iff. destruct (Qle_bool b a) eqn:F; auto. apply Qle_bool_iff in F. exfalso. eapply Qlt_not_le; eauto.
  - apply Qgt_alt in E. apply negb_false_iff, Qle_bool_iff. now apply Qlt_le_weak.
Qed.
Lemma val_less_qval a b : val_less a b = qlt (qval a) (qval b).
Proof.
  destruct a as [a|ta a], b as [b|tb b]; cbn; auto. rewrite qlt_compare. unfold Qcompare, inject_Z. cbn. rewrite !Z.mul_1_r.
  unfold Z.ltb. now destruct (a ?= b).
Qed.
Lemma digit_34 c : is_digit c -> c <> ascii_of_nat 34.
Proof. unfold is_digit. intros H ->. cbn in H. lia. Qed.
Lemma digits_no_quote ds : Forall is_digit (chars ds) -> no_quote ds.
Proof. intros H Hi. rewrite Forall_forall in H. now apply (digit_34 _ (H _ Hi)). Qed.
Lemma no_quote_app a b : no_quote a -> no_quote b -> no_quote (a ++ b).
Proof. unfold no_quote. intros Ha Hb H. rewrite chars_app in H. apply in_app_or in H as [H|H]; auto. Qed.
Lemma sign_no_quote s k : sign s k -> no_quote s.
Proof. intros [(-> & _)|[(-> & _)|(-> & _)]] H; cbn in H; intuition discriminate. Qed.
Lemma int_no_quote v z : int_text v z -> no_quote v.
Proof. intros (s & k & ds & Hs & [_ Hd] & -> & _). apply no_quote_app; [eapply sign_no_quote; eauto|now apply digits_no_quote]. Qed.
Lemma dec_no_quote v q : dec_text v q -> no_quote v.
Proof.
  intros (s & k & d1 & d2 & Hs & [_ H1] & [_ H2] & -> & _). repeat apply no_quote_app; try (now apply digits_no_quote); [eapply sign_no_quote; eauto|].
  intros H; cbn in H; intuition discriminate.
Qed.
Lemma classify_number t q : number t q -> exists v, classify t = Some (Some v) /\ (qval v == q)%Q.
Proof.
  intros [(v & z & Hv & Hz & -> & Hq)|(v & dt & Hdt & -> & Hv)]; unfold classify.
  - rewrite num_integer. unfold typed. rewrite getLong_literal by (eapply int_no_quote; eauto). rewrite (stoll_int v z) by auto.
    cbn. eexists. split; [reflexivity|]. cbn. symmetry. exact Hq.
  - rewrite num_double by auto. unfold getDouble, typed.
    destruct Hv as [Hv|(z & Hv & Hq)].
    + rewrite inner_literal by (eapply dec_no_quote; eauto). destruct (scan_dec_dec _ _ Hv) as (q' & E & Hq). rewrite E. cbn. eauto.
    + rewrite inner_literal by (eapply int_no_quote; eauto). rewrite (scan_dec_int _ _ Hv). cbn. eexists. split; [reflexivity|]. cbn. symmetry. exact Hq.
Qed.
Lemma value_nonneg ds : Forall is_digit (chars ds) -> 0 <= value ds.
Proof.
  induction ds as [|c ds IH]; intros H; cbn [value]; [lia|]. inversion_clear H as [|? ? Hc Hd]. specialize (IH Hd). unfold is_digit in Hc.
  assert (0 < 10 ^ Z.of_nat (String.length ds)) by (apply Z.pow_pos_nonneg; lia). nia.
Qed.
Lemma scan_int_digits ds rest : digits ds -> stops rest -> scan_int (ds ++ rest) = Some (value ds, rest).
Proof.
  intros Hd Hr. pose proof (scan_int_app "" 1 ds rest (or_introl (conj eq_refl eq_refl)) Hd Hr) as E. rewrite Z.mul_1_l in E. exact E.
Qed.
Lemma expect_dash r : expect "-" ("-" ++ r) = Some r.
Proof. reflexivity. Qed.
Definition stamp (y m d : Z) : Z := y * 2 ^ 48 + m * 2 ^ 40 + d * 2 ^ 32 + 0 * 2 ^ 24 + 0 * 2 ^ 16 + 0.
Lemma classify_date t y m d : date t y m d -> classify t = Some (Some (IvInt NDATE (stamp y m d))) /\ 0 <= m <= 12 /\ 0 <= d <= 31.
Proof.
  intros (ys & ms & ds & Hy & Hm & Hd & <- & <- & <- & _ & Bm & Bd & ->). unfold classify. rewrite num_date.
  assert (NQ : no_quote (ys ++ "-" ++ ms ++ "-" ++ ds)).
  { repeat apply no_quote_app; try (apply digits_no_quote; now destruct Hy, Hm, Hd); intros H; cbn in H; intuition discriminate. }
  split; [|split; split; auto; apply value_nonneg; [apply Hm|apply Hd]].
  unfold getTime, typed. rewrite inner_literal by auto.
  rewrite (scan_int_digits ys) by (auto; reflexivity). cbv beta iota. rewrite expect_dash.
  rewrite (scan_int_digits ms) by (auto; reflexivity). cbv beta iota. rewrite expect_dash.
  rewrite <- (app_nil_s ds) at 1. rewrite (scan_int_digits ds) by (auto; exact I). reflexivity.
Qed.
Lemma stamp_compare y m d y' m' d' : 0 <= m <= 12 -> 0 <= d <= 31 -> 0 <= m' <= 12 -> 0 <= d' <= 31 ->
  (stamp y m d ?= stamp y' m' d') = date_compare y m d y' m' d'.
Proof.
  unfold stamp, date_compare. intros. change (2 ^ 48) with (65536 * 2 ^ 32). change (2 ^ 40) with (256 * 2 ^ 32).
  destruct (Z.compare_spec y y') as [->|Hy|Hy].
  - destruct (Z.compare_spec m m') as [->|Hm|Hm].
    + destruct (Z.compare_spec d d') as [->|Hd|Hd]; [apply Z.compare_refl|apply Z.compare_lt_iff; lia|apply Z.compare_gt_iff; lia].
    + apply Z.compare_lt_iff. lia.
    + apply Z.compare_gt_iff. lia.
  - apply Z.compare_lt_iff. lia.
  - apply Z.compare_gt_iff. lia.
Qed.

(** ** Texts in order *)
Lemma compare_refl_code c : Ascii.compare c c = Eq.
Proof. unfold Ascii.compare. apply N.compare_refl. Qed.
Lemma compare_quote v1 v2 :
  Forall (fun c => 34 < Z.of_N (N_of_ascii c)) (chars v1) -> Forall (fun c => 34 < Z.of_N (N_of_ascii c)) (chars v2) ->
  String.compare (v1 ++ quote) (v2 ++ quote) = String.compare v1 v2.
Proof.
  revert v2. induction v1 as [|c v1 IH]; intros [|d v2] H1 H2.
  - reflexivity.
  - inversion_clear H2 as [|? ? Hd _]. change (String.compare ("" ++ quote) (String d v2 ++ quote)) with
      (match Ascii.compare (ascii_of_nat 34) d with Eq => String.compare "" (v2 ++ quote) | x => x end).
    unfold Ascii.compare. replace (N.compare _ _) with Lt; [reflexivity|]. symmetry. apply N.compare_lt_iff. change (N_of_ascii (ascii_of_nat 34)) with 34%N. lia.
  - inversion_clear H1 as [|? ? Hc _]. change (String.compare (String c v1 ++ quote) ("" ++ quote)) with
      (match Ascii.compare c (ascii_of_nat 34) with Eq => String.compare (v1 ++ quote) "" | x => x end).
    unfold Ascii.compare. replace (N.compare _ _) with Gt; [reflexivity|]. symmetry. apply N.compare_gt_iff. change (N_of_ascii (ascii_of_nat 34)) with 34%N. lia.
  - inversion_clear H1 as [|? ? _ H1']. inversion_clear H2 as [|? ? _ H2']. cbn [append String.compare]. rewrite IH by auto. reflexivity.
Qed.
Lemma compare_literal v1 v2 : high_text (literal v1 "") -> high_text (literal v2 "") ->
  String.compare (literal v1 "") (literal v2 "") = String.compare v1 v2.
Proof.
  intros H1 H2. rewrite <- (compare_quote v1 v2 (H1 _ eq_refl) (H2 _ eq_refl)).
  unfold literal. rewrite !app_nil_s. change (quote ++ v1 ++ quote) with (String (ascii_of_nat 34) (v1 ++ quote)).
  change (quote ++ v2 ++ quote) with (String (ascii_of_nat 34) (v2 ++ quote)). cbn [String.compare]. now rewrite compare_refl_code.
Qed.

(** ** Terms *)
Definition bare (t : string) : string := if starts "<" t then substring 1 (String.length t - 2) t else t.
Lemma bare_iri v : bare (iri v) = v.
Proof.
  unfold bare, iri. change (starts "<" ("<" ++ v ++ ">")) with true. cbv iota. rewrite !length_app_s. cbn [String.length].
  replace (1 + (String.length v + 1) - 2)%nat with (String.length v) by lia. change 1%nat with (String.length "<"). apply substring_mid.
Qed.
Lemma bare_other t : starts "<" t = false -> bare t = t.
Proof. unfold bare. now intros ->. Qed.
Lemma starts_excl c d t : c <> d -> starts c t = true -> starts d t = false.
Proof.
  intros Hne. destruct t as [|x t]; cbn; [discriminate|]. intros H. apply Ascii.eqb_eq in H. subst. apply Ascii.eqb_neq. congruence.
Qed.
Lemma lookup_term w i t : w_text w i = Some t -> lookupById w i = Some (bare t, if starts "<" t then TURI else TLiteral).
Proof.
  intros H. unfold lookupById, bare. rewrite H. destruct t as [|c t]; [reflexivity|].
  destruct c as [[] [] [] [] [] [] [] []]; reflexivity.
Qed.

Section Terms.
Variable w : world.
Hypothesis D : dict_ok w.
Lemma to_number i t : w_text w i = Some t -> w_number w t = Some i.
Proof. apply (proj1 D). Qed.
Lemma to_text i t : w_number w t = Some i -> w_text w i = Some t.
Proof. apply (proj1 D). Qed.
Lemma text_range i t : w_text w i = Some t -> 0 <= i < null32.
Proof. intros H. destruct D as [_ D2]. now destruct (D2 _ _ H). Qed.
Lemma text_not_null i t : w_text w i = Some t -> (i =? null64) = false.
Proof. intros H. apply text_range in H. apply Z.eqb_neq. unfold null32, null64 in *. lia. Qed.
Lemma text_inj i j t u : w_text w i = Some t -> w_text w j = Some u -> (i =? j) = String.eqb t u.
Proof.
  intros H1 H2. destruct (Z.eqb_spec i j) as [->|Hn].
  - rewrite H1 in H2. inversion H2. symmetry. apply String.eqb_refl.
  - symmetry. apply String.eqb_neq. intros ->. apply to_number in H1, H2. congruence.
Qed.
Lemma term_number v : free_text v -> w_number w v = None.
Proof.
  intros (F1 & F2 & F3). destruct (w_number w v) as [i|] eqn:E; auto. exfalso. apply to_text in E. destruct D as [_ D2].
  destruct (D2 _ _ E) as (_ & [(u & ->)|[H|(u & s & ->)]]); [discriminate|congruence|discriminate].
Qed.
(** A term of the dictionary does not look like a constant that is not in it. *)
Lemma apart_lit i t v s : w_text w i = Some t -> free_text v -> w_number w (literal v s) = None -> w_number w (iri v) = None ->
  String.eqb (bare t) v = false /\ String.eqb t (literal v s) = false /\ (starts "<" t = false -> bare t <> v).
Proof.
  intros Ht (F1 & F2 & F3) Hn Hi.
  assert (B : bare t <> v).
  { intros E. destruct D as [_ D2]. destruct (D2 _ _ Ht) as (_ & [(u & ->)|[H|(u & x & ->)]]).
    - rewrite bare_iri in E. subst u. apply to_number in Ht. congruence.
    - rewrite bare_other in E by (eapply starts_excl; eauto; discriminate). subst t. congruence.
    - rewrite bare_other in E by reflexivity. subst v. discriminate. }
  split; [now apply String.eqb_neq|]. split; [|auto]. apply String.eqb_neq. intros ->. apply to_number in Ht. congruence.
Qed.
Lemma apart_iri i t v : w_text w i = Some t -> free_text v -> w_number w (iri v) = None ->
  String.eqb (bare t) v = false /\ String.eqb t (iri v) = false.
Proof.
  intros Ht (F1 & F2 & F3) Hi. split.
  - apply String.eqb_neq. intros E. destruct D as [_ D2]. destruct (D2 _ _ Ht) as (_ & [(u & ->)|[H|(u & x & ->)]]).
    + rewrite bare_iri in E. subst u. apply to_number in Ht. congruence.
    + rewrite bare_other in E by (eapply starts_excl; eauto; discriminate). subst t. congruence.
    + rewrite bare_other in E by reflexivity. subst v. discriminate.
  - apply String.eqb_neq. intros ->. apply to_number in Ht. congruence.
Qed.

(** ** Results that stand for a term *)
Definition by_id (t : string) (r : res) : Prop :=
  exists i, has_id r = true /\ r_id r = Some i /\ w_text w i = Some t /\ has_type r = has_str r /\
    (has_str r = true -> r_value r = bare t /\ r_type r = Some (if starts "<" t then TURI else TLiteral)).
Definition by_text (t : string) (r : res) : Prop :=
  exists v, has_id r = false /\ has_str r = true /\ has_type r = true /\ r_value r = v /\ free_text v /\ w_number w t = None /\ w_number w (iri v) = None /\
    ((r_type r = Some TLiteral /\ exists s, t = literal v s) \/ (r_type r = Some TURI /\ t = iri v)).
Definition stands (t : string) (r : res) : Prop := by_id t r \/ by_text t r.

Lemma ensure_id t r : by_id t r -> exists r', ensureString w r = Some r' /\ by_id t r' /\ has_str r' = true /\ r_value r' = bare t /\
  r_type r' = Some (if starts "<" t then TURI else TLiteral) /\ has_type r' = true.
Proof.
  intros (i & H1 & H2 & H3 & H4 & H5). unfold ensureString. destruct (has_str r) eqn:E.
  - exists r. destruct (H5 eq_refl) as [-> ->]. repeat split; auto. exists i. rewrite E. auto.
  - rewrite H1, H2, (text_not_null _ _ H3), (lookup_term _ _ _ H3). eexists. split; [reflexivity|]. cbn. repeat split; auto.
    exists i. cbn. repeat split; auto.
Qed.
Lemma ensure_type t r : by_id t r -> exists r', ensureType w r = Some r' /\ by_id t r' /\ has_str r' = true /\ r_value r' = bare t /\
  r_type r' = Some (if starts "<" t then TURI else TLiteral) /\ has_type r' = true.
Proof.
  intros (i & H1 & H2 & H3 & H4 & H5). unfold ensureType. destruct (has_type r) eqn:E.
  - exists r. rewrite <- H4 in *. destruct (H5 eq_refl) as [-> ->]. repeat split; auto. exists i. rewrite E, <- H4. repeat split; auto; now apply H5.
  - rewrite H1, H2, (text_not_null _ _ H3), (lookup_term _ _ _ H3). eexists. split; [reflexivity|]. cbn. repeat split; auto.
    exists i. cbn. repeat split; auto.
Qed.
Lemma ensure_text t r : by_text t r -> ensureString w r = Some r /\ ensureType w r = Some r.
Proof. intros (v & H1 & H2 & H3 & _). unfold ensureString, ensureType. now rewrite H2, H3. Qed.
Lemma apart t u r : by_text u r -> forall i, w_text w i = Some t -> String.eqb (bare t) (r_value r) = false /\ String.eqb t u = false.
Proof.
  intros (v & _ & _ & _ & -> & F & Hn & Hi & [(_ & s & ->)|(_ & ->)]) i Ht.
  - destruct (apart_lit _ _ _ _ Ht F Hn Hi) as (A & B & _). auto.
  - eapply apart_iri; eauto.
Qed.
(** Two results, one of them of an id, are taken for the same exactly if the terms are the same. *)
Lemma same_value_ok t u l r : stands t l -> stands u r -> by_id t l \/ by_id u r -> same_value w l r = Some (String.eqb t u).
Proof.
  intros [L|L] [R|R] H; unfold same_value.
  - destruct L as (i & L1 & L2 & L3 & _), R as (j & R1 & R2 & R3 & _). rewrite L1, R1, L2, R2. cbn. now rewrite (text_inj _ _ _ _ L3 R3).
  - assert (E : has_id l && has_id r = false) by (destruct R as (v & -> & _); apply andb_false_r). rewrite E.
    destruct (ensure_id _ _ L) as (l' & -> & _ & _ & V & _). destruct (ensure_text _ _ R) as [-> _]. rewrite V.
    destruct L as (i & _ & _ & L3 & _). destruct (apart _ _ _ R _ L3) as [-> ->]. reflexivity.
  - assert (E : has_id l && has_id r = false) by (destruct L as (v & -> & _); reflexivity). rewrite E.
    destruct (ensure_id _ _ R) as (r' & -> & _ & _ & V & _). destruct (ensure_text _ _ L) as [-> _]. rewrite V.
    destruct R as (i & _ & _ & R3 & _). destruct (apart _ _ _ L _ R3) as [A B]. rewrite String.eqb_sym, A, String.eqb_sym, B. reflexivity.
  - exfalso. destruct H as [H|H]; destruct H as (i & H1 & _), L as (v & L1 & _), R as (v' & R1 & _); congruence.
Qed.

(** ** Operands *)
Variable g : regs.
Lemma by_id_set i t r : w_text w i = Some t -> by_id t (setId i r).
Proof. intros H. exists i. cbn. repeat split; auto; discriminate. Qed.
Lemma encode_form l : constant_ok w (FLit l) -> encode_lit w l = w_number w (form l).
Proof.
  intros (F & _ & H). pose proof (term_number _ F) as N. destruct l as [v|v lang|v dt]; cbv beta iota in H; cbn [encode_lit form lit_value] in *; [|contradiction|].
  - unfold lookup_lit. rewrite N. reflexivity.
  - destruct (String.eqb dt (xsd "string")) eqn:E; [unfold lookup_lit; rewrite N; reflexivity|].
    replace (_ || _) with true.
    + unfold lookup_lit. rewrite N. replace (String.eqb dt "") with false; [reflexivity|]. destruct H as [<-|[<-|[<-|[<-|[<-|[<-|[]]]]]]]; reflexivity.
    + destruct H as [<-|[<-|[<-|[<-|[<-|[<-|[]]]]]]]; try reflexivity. discriminate.
Qed.
Lemma small_id i t : w_text w i = Some t -> i mod 2 ^ 32 = i /\ (i =? null32) = false.
Proof.
  intros H. apply text_range in H. unfold null32 in *. split; [apply Z.mod_small; lia|apply Z.eqb_neq; lia].
Qed.
Lemma form_literal l : exists s, form l = literal (lit_value l) s.
Proof. destruct l as [v|v lang|v dt]; cbn [form lit_value]; eauto. destruct (String.eqb _ _); unfold typed; eauto. Qed.
Lemma operand_eval f t r0 m : operand_ok w f -> Operand (row_of w g) f t ->
  exists r, eval w g (build w f) r0 m = Some (r, m) /\ stands t r /\ (is_var f \/ known w f -> exists i, r = setId i r0 /\ w_text w i = Some t).
Proof.
  intros [(x & ->)|Hc] Ho.
  - inversion Ho; subst. exists (setId (g x) r0). split; [reflexivity|]. unfold row_of in *. split; [left; now apply by_id_set|eauto].
  - destruct f; try contradiction; inversion Ho; subst; cbn [build].
    + pose proof (encode_form _ Hc) as E. unfold build_lit. rewrite E. destruct (w_number w (form l)) as [i|] eqn:N.
      * apply to_text in N. destruct (small_id _ _ N) as [-> ->]. exists (setId i r0). split; [reflexivity|]. split; [left; now apply by_id_set|eauto].
      * exists (setLiteral (lit_value l) r0). split; [reflexivity|]. split.
        -- right. destruct Hc as (F & [Hn|Hn] & _); [congruence|]. exists (lit_value l). cbn. repeat split; auto; try apply F. left. split; auto. apply form_literal.
        -- intros [(x & Hx)|K]; [discriminate|]. cbn in K. congruence.
    + unfold build_iri, lookup_iri. destruct (w_number w ("<" ++ v ++ ">")) as [i|] eqn:N.
      * apply to_text in N. destruct (small_id _ _ N) as [-> ->]. exists (setId i r0). split; [reflexivity|]. split; [left; now apply by_id_set|eauto].
      * exists (setIRI v r0). split; [reflexivity|]. split.
        -- right. exists v. cbn. repeat split; auto; apply Hc.
        -- intros [(x & Hx)|K]; [discriminate|]. exfalso. apply K. exact N.
Qed.
Lemma var_by_id t r i r0 : r = setId i r0 -> w_text w i = Some t -> by_id t r.
Proof. intros -> H. now apply by_id_set. Qed.

(** ** Comparisons *)
Lemma equals_same row a b t u x : equal_ok w row a b -> Operand row a t -> Operand row b u -> Equals t u x -> x = String.eqb t u.
Proof.
  intros (_ & _ & _ & H) Ha Hb E. inversion E; subst; auto. destruct (String.eqb_spec t u) as [->|Hn].
  - destruct (classify_number _ _ H0) as (v & C1 & Q1), (classify_number _ _ H1) as (v' & C2 & Q2). rewrite C1 in C2. inversion C2; subst v'.
    apply Qeq_bool_iff. now rewrite <- Q1, <- Q2.
  - destruct (Qeq_bool q1 q2) eqn:Eq; auto. apply Qeq_bool_iff in Eq. exfalso. eauto.
Qed.
Lemma numeric_number r i t v m : has_id r = true -> r_id r = Some i -> has_str r = false -> has_type r = false -> w_text w i = Some t -> starts "<" t = false ->
  classify t = Some (Some v) -> remembers w m ->
  exists r1 m1, numeric w r m = Some (true, r1, m1) /\ remembers w m1 /\ m1 i = Some v /\ r_id r1 = Some i /\ (forall j x, m j = Some x -> m1 j = Some x).
Proof.
  intros H1 H2 H3 H3' Ht Hs Hc Hm. unfold numeric. rewrite H1, H2. destruct (m i) as [x|] eqn:E.
  - exists r, m. repeat split; auto. destruct (Hm _ _ E) as (s & ty & L & C). rewrite (lookup_term _ _ _ Ht) in L. inversion L; subst.
    rewrite bare_other, Hc in C by auto. congruence.
  - assert (B : by_id t r) by (exists i; rewrite H3, H3'; repeat split; auto; discriminate).
    destruct (ensure_id _ _ B) as (r1 & E1 & (i' & _ & I1 & I2 & _) & _ & V & _). rewrite E1, V, bare_other, Hc by auto. cbn.
    assert (i' = i) as -> by (pose proof (text_inj _ _ _ _ I2 Ht) as K; rewrite String.eqb_refl in K; now apply Z.eqb_eq).
    eexists r1, _. split; [reflexivity|]. split; [|split; [now rewrite Z.eqb_refl|split; [auto|]]].
    + intros j x Hj. cbv beta in Hj. destruct (Z.eqb_spec j i) as [->|Hn].
      * inversion Hj; subst. rewrite (lookup_term _ _ _ Ht). do 2 eexists. split; [reflexivity|]. now rewrite bare_other.
      * now apply Hm.
    + intros j x Hj. destruct (Z.eqb_spec j i) as [->|Hn]; [congruence|auto].
Qed.
Lemma order_numeric i j t u a b m le : w_text w i = Some t -> w_text w j = Some u -> starts "<" t = false -> starts "<" u = false ->
  classify t = Some (Some a) -> classify u = Some (Some b) -> remembers w m ->
  exists m', compare_res w le (setId i res0) (setId j res0) m =
    Some (match (qval a ?= qval b)%Q with Lt => true | Eq => le | Gt => false end, m') /\ remembers w m'.
Proof.
  intros Ht Hu St Su Ca Cb Hm. unfold compare_res. cbn [r_id setId].
  assert (forall k s, w_text w k = Some s -> isnumeric k = false) as NN
    by (intros k s Hk; apply text_range in Hk; unfold isnumeric, null32 in *; apply Z.leb_gt; lia).
  rewrite (NN _ _ Ht), (NN _ _ Hu). unfold isNumericComparison.
  destruct (numeric_number (setId i res0) i t a m) as (l1 & m1 & -> & R1 & A1 & I1 & _); auto.
  destruct (numeric_number (setId j res0) j u b m1) as (r1 & m2 & -> & R2 & A2 & I2 & K); auto.
  cbn [negb]. exists m2. split; [|auto]. unfold numLess. rewrite I1, I2, A2, (K _ _ A1). rewrite !val_less_qval, !qlt_compare.
  destruct le.
  - rewrite (Qcompare_antisym (qval a) (qval b)) || rewrite <- (Qcompare_antisym (qval a) (qval b)). now destruct (qval a ?= qval b)%Q.
  - now destruct (qval a ?= qval b)%Q.
Qed.
Lemma order_text i j v1 v2 m le : w_text w i = Some (literal v1 "") -> w_text w j = Some (literal v2 "") ->
  high_text (literal v1 "") -> high_text (literal v2 "") -> remembers w m ->
  compare_res w le (setId i res0) (setId j res0) m =
    Some (match String.compare v1 v2 with Lt => true | Eq => le | Gt => false end, m).
Proof.
  intros Ht Hu H1 H2 Hm. unfold compare_res. cbn [r_id setId].
  assert (forall k s, w_text w k = Some s -> isnumeric k = false) as NN
    by (intros k s Hk; apply text_range in Hk; unfold isnumeric, null32 in *; apply Z.leb_gt; lia).
  rewrite (NN _ _ Ht), (NN _ _ Hu). unfold isNumericComparison, numeric. cbn [has_id r_id setId].
  destruct (m i) as [x|] eqn:E.
  { exfalso. destruct (Hm _ _ E) as (s & ty & L & C). rewrite (lookup_term _ _ _ Ht) in L. inversion L; subst.
    rewrite bare_other in C by reflexivity. unfold classify in C. rewrite num_text in C. discriminate. }
  destruct (ensure_id _ _ (by_id_set i _ res0 Ht)) as (l1 & E1 & B1 & S1 & V1 & _). rewrite E1, V1, bare_other by reflexivity.
  unfold classify. rewrite num_text.
  destruct (ensure_id _ _ (by_id_set j _ res0 Hu)) as (r1 & E2 & B2 & S2 & V2 & _).
  assert (E3 : ensureString w l1 = Some l1) by (unfold ensureString; now rewrite S1).
  rewrite bare_other in V1, V2 by reflexivity.
  destruct le; rewrite ?E3, E2, V1, V2; unfold String.leb, String.ltb; rewrite compare_literal by auto; now destruct (String.compare v1 v2).
Qed.
Lemma order_ok_res i j t u c m le : w_text w i = Some t -> w_text w j = Some u -> Ordered t u c -> high_text t -> high_text u -> remembers w m ->
  exists m', compare_res w le (setId i res0) (setId j res0) m = Some (match c with Lt => true | Eq => le | Gt => false end, m') /\ remembers w m'.
Proof.
  intros Ht Hu O H1 H2 Hm. inversion O as [? ? q1 q2 N1 N2|? ? y mo d y' mo' d' N1 N2|v1 v2]; subst.
  - destruct (classify_number _ _ N1) as (a & Ca & Qa), (classify_number _ _ N2) as (b & Cb & Qb).
    assert (forall t q, number t q -> starts "<" t = false) as NS by (intros ? ? [(? & ? & _ & _ & -> & _)|(? & ? & _ & -> & _)]; reflexivity).
    destruct (order_numeric i j t u a b m le) as (m' & E & R); eauto. exists m'. split; auto. rewrite E. now rewrite Qa, Qb.
  - destruct (classify_date _ _ _ _ N1) as (Ca & B1 & B2), (classify_date _ _ _ _ N2) as (Cb & B3 & B4).
    assert (forall t y m d, date t y m d -> starts "<" t = false) as NS by (intros ? ? ? ? (? & ? & ? & _ & _ & _ & _ & _ & _ & _ & _ & _ & ->); reflexivity).
    destruct (order_numeric i j t u (IvInt NDATE (stamp y mo d)) (IvInt NDATE (stamp y' mo' d')) m le Ht Hu) as (m' & E & R); eauto. exists m'. split; auto. rewrite E.
    rewrite <- (stamp_compare y mo d y' mo' d') by auto. unfold Qcompare, qval, inject_Z. cbn [Qnum Qden]. now rewrite !Z.mul_1_r.
  - exists m. split; auto. now apply order_text.
Qed.

(** ** Filters *)
Lemma check_bool e b m m' : (forall v, e <> ETempLiteral v) -> eval w g e res0 m = Some (setBoolean b res0, m') -> check w g e m = Some (b, m').
Proof. intros Hn E. unfold check, to_check. destruct e; try (now rewrite E). exfalso. now apply (Hn v). Qed.
Lemma eval_or a b r0 m : eval w g (EOr a b) r0 m =
  (do (x, m1) <- check w g a m; if x : bool then Some (setBoolean true r0, m1) else do (y, m2) <- check w g b m1; Some (setBoolean y r0, m2)).
Proof. reflexivity. Qed.
Lemma eval_and a b r0 m : eval w g (EAnd a b) r0 m =
  (do (x, m1) <- check w g a m; if x : bool then do (y, m2) <- check w g b m1; Some (setBoolean y r0, m2) else Some (setBoolean false r0, m1)).
Proof. reflexivity. Qed.
Lemma eval_not a r0 m : eval w g (ENot a) r0 m = (do (x, m1) <- check w g a m; Some (setBoolean (negb x) r0, m1)).
Proof. reflexivity. Qed.
Lemma equal_eval a b t u x m : equal_ok w (row_of w g) a b -> Operand (row_of w g) a t -> Operand (row_of w g) b u -> Equals t u x ->
  exists l r, eval w g (build w a) res0 m = Some (l, m) /\ eval w g (build w b) res0 m = Some (r, m) /\ same_value w l r = Some x.
Proof.
  intros H Ha Hb He. rewrite (equals_same _ _ _ _ _ _ H Ha Hb He). destruct H as (Oa & Ob & V & _).
  destruct (operand_eval a t res0 m Oa Ha) as (l & El & Sl & Vl). destruct (operand_eval b u res0 m Ob Hb) as (r & Er & Sr & Vr).
  exists l, r. split; [auto|]. split; [auto|]. apply same_value_ok; auto.
  destruct V as [V|V]; [destruct Vl as (i & Ei & Ti)|destruct Vr as (i & Ei & Ti)]; auto; [left|right]; eapply var_by_id; eauto.
Qed.
Lemma order_eval a b t u c m le : order_ok w (row_of w g) a b -> Operand (row_of w g) a t -> Operand (row_of w g) b u -> Ordered t u c -> remembers w m ->
  exists l r m', eval w g (build w a) res0 m = Some (l, m) /\ eval w g (build w b) res0 m = Some (r, m) /\
    compare_res w le l r m = Some (match c with Lt => true | Eq => le | Gt => false end, m') /\ remembers w m'.
Proof.
  intros (Oa & Ob & Ka & Kb & H) Ha Hb Ho Hm.
  destruct (operand_eval a t res0 m Oa Ha) as (l & El & _ & Vl). destruct (operand_eval b u res0 m Ob Hb) as (r & Er & _ & Vr).
  destruct (Vl (or_intror Ka)) as (i & -> & Ti). destruct (Vr (or_intror Kb)) as (j & -> & Tj).
  destruct (order_ok_res i j t u c m le Ti Tj Ho) as (m' & E & R); [apply H; auto|apply H; auto|auto|].
  exists (setId i res0), (setId j res0), m'. auto.
Qed.
Lemma ordered_flip t u c : Ordered t u c -> Ordered u t (CompOpp c).
Proof.
  intros H. inversion H; subst.
  - rewrite Qcompare_antisym. now constructor.
  - unfold date_compare. replace (CompOpp _) with (date_compare y' m' d' y m d); [now constructor|].
    unfold date_compare. rewrite (Z.compare_antisym y y'), (Z.compare_antisym m m'), (Z.compare_antisym d d').
    destruct (Z.compare y y'), (Z.compare m m'), (Z.compare d d'); reflexivity.
  - replace (CompOpp _) with (String.compare v2 v1); [constructor|]. apply String.compare_antisym.
Qed.
Lemma order_flip a b : order_ok w (row_of w g) a b -> order_ok w (row_of w g) b a.
Proof. intros (A & B & C & E & F). repeat split; auto. intros t [H|H]; auto. Qed.
Lemma in_eval t r0 rest : forall l c m p x, by_id t p ->
  (forall y, In y l -> operand_ok w y) ->
  (* what each element says *)
  forall us, Forall2 (fun y u => Operand (row_of w g) y u) l us -> existsb (String.eqb t) us = x -> x = true \/ rest = [] ->
  (fix loop (l : list expr) (p c : res) (m : vmap) : option (res * vmap) :=
        match l with
        | [] => Some (setBoolean false r0, m)
        | x :: l' =>
          do (c1, m2) <- eval w g x c m;
          if has_id p && has_id c1 then
            do i <- r_id p; do j <- r_id c1;
            if i =? j then Some (setBoolean true r0, m2) else loop l' p c1 m2
          else
            do p1 <- ensureString w p; do c2 <- ensureString w c1;
            if String.eqb (r_value p1) (r_value c2) then Some (setBoolean true r0, m2) else loop l' p1 c2 m2
        end) (map (build w) (l ++ rest)%list) p c m = Some (setBoolean x r0, m).
Proof.
  induction l as [|y l IH]; intros c m p x Hp Ho us Hu <- Hr; inversion Hu as [|? u ? us' Hy Hu']; subst.
  - destruct Hr as [Hr|Hr]; [discriminate|]. subst rest. reflexivity.
  - cbn [map existsb List.app] in *. destruct (operand_eval y u c m (Ho _ (or_introl eq_refl)) Hy) as (c1 & E & S & _). rewrite E.
    assert (Ho' : forall z, In z l -> operand_ok w z) by (intros z Hz; apply Ho; now right).
    destruct S as [R|R].
    + destruct Hp as (i & L1 & L2 & L3 & L4), R as (j & R1 & R2 & R3 & _). rewrite L1, R1, L2, R2. cbn [andb].
      rewrite (text_inj _ _ _ _ L3 R3). destruct (String.eqb t u); [reflexivity|]. cbn [orb] in *. eapply IH; eauto. exists i. auto.
    + replace (has_id p && has_id c1) with false by (destruct R as (v & -> & _); symmetry; apply andb_false_r).
      destruct (ensure_id _ _ Hp) as (p1 & -> & P1 & _ & V & _). destruct (ensure_text _ _ R) as [-> _]. rewrite V.
      destruct Hp as (i & _ & _ & L3 & _). destruct (apart _ _ _ R _ L3) as [-> E2]. rewrite E2 in *. cbn [orb] in *. eapply IH; eauto.
Qed.
Lemma in_truth x l b : Truth (row_of w g) (FIn (FVar x) l) b -> Forall (equal_ok w (row_of w g) (FVar x)) l ->
  exists t us l1 l2, (l = [] /\ b = false) \/ (row_of w g x = Some t /\ l = l1 ++ l2 /\ Forall2 (fun y u => Operand (row_of w g) y u) l1 us /\
    existsb (String.eqb t) us = b /\ (b = true \/ l2 = []))%list.
Proof.
  intros H. remember (FIn (FVar x) l) as f eqn:Ef. revert l Ef. induction H; intros l0 Ef Hl; inversion Ef; subst.
  - exists "", [], [], []. left. auto.
  - inversion H; subst. inversion_clear Hl as [|? ? Hx _]. assert (E : true = String.eqb t1 t2) by (eapply equals_same; eauto).
    match goal with Ho : Operand _ (FVar _) _ |- _ => inversion Ho; subst end. exists t1, [t2], [x0], l. right. repeat split; auto. cbn. now rewrite <- E.
  - inversion H; subst. inversion_clear Hl as [|? ? Hx Hl']. assert (E : false = String.eqb t1 t2) by (eapply equals_same; eauto).
    match goal with Ho : Operand _ (FVar _) _ |- _ => inversion Ho; subst end. destruct (IHTruth2 _ eq_refl Hl') as (t & us & l1 & l2 & [(-> & ->)|(Et & -> & Hu & He & Hb)]).
    + exists t1, [t2], [x0], []. right. repeat split; auto. cbn. now rewrite <- E.
    + exists t, (t2 :: us), (x0 :: l1), l2. right. assert (t1 = t) as -> by congruence. repeat split; auto. cbn. now rewrite <- E.
Qed.
End Terms.

Lemma filter_check w g (D : dict_ok w) f : forall b m, Supported w g f -> Truth (row_of w g) f b -> remembers w m ->
  exists m', check w g (build w f) m = Some (b, m') /\ remembers w m'.
Proof.
  induction f as [a IHa b IHb|a IHa b IHb|a IHa|a _ b _|a _ b _|a _ b _|a _ b _|a _ b _|a _ b _| | | | | | | | | | |x|a _ b _|a _| |a _| | |a _ l| |];
    intros z m HS HT Hm; try contradiction; cbn [Supported build] in *.
  - (* or *)
    destruct HS as [Sa Sb]. inversion HT; subst.
    + destruct (IHa true m Sa) as (m1 & E & R); auto. exists m1. split; auto. apply check_bool; [discriminate|]. rewrite eval_or, E. reflexivity.
    + destruct (IHa false m Sa) as (m1 & E & R); auto. destruct (IHb z m1 Sb) as (m2 & E2 & R2); auto. exists m2. split; auto.
      apply check_bool; [discriminate|]. rewrite eval_or, E, E2. reflexivity.
  - (* and *)
    destruct HS as [Sa Sb]. inversion HT; subst.
    + destruct (IHa false m Sa) as (m1 & E & R); auto. exists m1. split; auto. apply check_bool; [discriminate|]. rewrite eval_and, E. reflexivity.
    + destruct (IHa true m Sa) as (m1 & E & R); auto. destruct (IHb z m1 Sb) as (m2 & E2 & R2); auto. exists m2. split; auto.
      apply check_bool; [discriminate|]. rewrite eval_and, E, E2. reflexivity.
  - (* not *)
    inversion HT; subst. destruct (IHa x m HS) as (m1 & E & R); auto. exists m1. split; auto. apply check_bool; [discriminate|]. rewrite eval_not, E. reflexivity.
  - (* = *)
    inversion HT; subst. destruct (equal_eval w D g a b t1 t2 z m HS) as (l & r & E1 & E2 & E3); auto. exists m. split; auto.
    apply check_bool; [discriminate|]. cbn [eval]. now rewrite E1, E2, E3.
  - (* != *)
    inversion HT; subst. destruct (equal_eval w D g a b t1 t2 x m HS) as (l & r & E1 & E2 & E3); auto. exists m. split; auto.
    apply check_bool; [discriminate|]. cbn [eval]. now rewrite E1, E2, E3.
  - (* < *)
    inversion HT; subst. destruct (order_eval w D g a b t1 t2 c m false HS) as (l & r & m' & E1 & E2 & E3 & R); auto. exists m'. split; auto.
    apply check_bool; [discriminate|]. cbn [eval]. rewrite E1, E2, E3. now destruct c.
  - (* <= *)
    inversion HT; subst. destruct (order_eval w D g a b t1 t2 c m true HS) as (l & r & m' & E1 & E2 & E3 & R); auto. exists m'. split; auto.
    apply check_bool; [discriminate|]. cbn [eval]. rewrite E1, E2, E3. now destruct c.
  - (* > *)
    inversion HT; subst. destruct (order_eval w D g b a t2 t1 (CompOpp c) m false) as (l & r & m' & E1 & E2 & E3 & R); auto using order_flip, ordered_flip.
    exists m'. split; auto. apply check_bool; [discriminate|]. cbn [eval]. rewrite E1, E2, E3. now destruct c.
  - (* >= *)
    inversion HT; subst. destruct (order_eval w D g b a t2 t1 (CompOpp c) m true) as (l & r & m' & E1 & E2 & E3 & R); auto using order_flip, ordered_flip.
    exists m'. split; auto. apply check_bool; [discriminate|]. cbn [eval]. rewrite E1, E2, E3. now destruct c.
  - (* bound *)
    inversion HT; subst. exists m. split; auto. apply check_bool; [discriminate|]. cbn [eval]. unfold row_of. destruct (w_text w (g x)) as [t|] eqn:E.
    + now rewrite (text_not_null w D _ _ E).
    + destruct HS as [HS|HS]; [congruence|]. now rewrite HS, Z.eqb_refl.
  - (* sameTerm *)
    inversion HT; subst. destruct HS as (Oa & Ob & V). exists m. split; auto. apply check_bool; [discriminate|]. cbn [eval].
    destruct (operand_eval w D g a t1 res0 m Oa) as (l & El & Sl & Vl); auto. destruct (operand_eval w D g b t2 res0 m Ob) as (r & Er & Sr & Vr); auto.
    rewrite El, Er. destruct Sl as [L|L], Sr as [R|R].
    + destruct L as (i & L1 & L2 & L3 & _), R as (j & R1 & R2 & R3 & _). rewrite L1, R1, L2, R2. cbn [andb]. now rewrite (text_inj w D _ _ _ _ L3 R3).
    + replace (has_id l && has_id r) with false by (destruct R as (v & -> & _); symmetry; apply andb_false_r).
      destruct (ensure_type w D _ _ L) as (l1 & -> & L1 & S1 & V1 & _). destruct (ensure_text w _ _ R) as [Es ->]. rewrite Es.
      destruct (ensure_id w D _ _ L1) as (l2 & -> & _ & _ & V2 & _). rewrite V2.
      destruct L as (i & _ & _ & L3 & _). destruct (apart w D _ _ _ R _ L3) as [-> ->]. now rewrite andb_false_r.
    + replace (has_id l && has_id r) with false by (destruct L as (v & -> & _); reflexivity).
      destruct (ensure_type w D _ _ R) as (r1 & -> & R1 & S1 & V1 & _). destruct (ensure_text w _ _ L) as [Es ->]. rewrite Es.
      destruct (ensure_id w D _ _ R1) as (r2 & -> & _ & _ & V2 & _). rewrite V2.
      destruct R as (i & _ & _ & R3 & _). destruct (apart w D _ _ _ L _ R3) as [A B]. rewrite (String.eqb_sym (r_value l)), A, (String.eqb_sym t1), B. now rewrite andb_false_r.
    + exfalso. destruct V as [V|V]; [destruct (Vl (or_introl V)) as (i & -> & _); destruct L as (v & L1 & _)|destruct (Vr (or_introl V)) as (i & -> & _); destruct R as (v & L1 & _)]; discriminate.
  - (* isIRI *)
    destruct HS as (x & ->). inversion HT; subst. exists m. split; auto. apply check_bool; [discriminate|]. cbn [eval build].
    inversion H0; subst. destruct (ensure_type w D t (setId (g x) res0)) as (r & -> & _ & _ & _ & T & _); [now apply by_id_set|].
    rewrite T. now destruct (starts "<" t).
  - (* isLiteral *)
    destruct HS as ((x & ->) & HS). inversion HT; subst. exists m. split; auto. apply check_bool; [discriminate|]. cbn [eval build].
    specialize (HS _ H0). inversion H0; subst. unfold row_of in *. destruct (ensure_type w D t (setId (g x) res0)) as (r & -> & _ & _ & _ & T & _); [now apply by_id_set|].
    rewrite T. destruct D as [_ D2]. match goal with H : w_text w (g x) = Some t |- _ => destruct (D2 _ _ H) as (_ & [(v & ->)|[Hb|(v & s & ->)]]) end; [reflexivity|congruence|reflexivity].
  - (* in *)
    destruct HS as ((x & ->) & HS). destruct (in_truth w g x l z HT HS) as (t & us & l1 & l2 & [(-> & ->)|(Et & -> & Hu & He & Hb)]).
    + exists m. split; [reflexivity|auto].
    + exists m. split; auto. apply check_bool; [discriminate|]. cbn [eval build].
      eapply (in_eval w D g t res0 l2 l1); eauto.
      * now apply by_id_set.
      * intros y Hy. rewrite Forall_forall in HS. apply (HS y). apply in_or_app. auto.
Qed.

(** ** Rows that agree *)
Section Agree.
Variables row row' : nat -> option string.
Lemma operand_agree f t : Operand row f t -> (forall x, In x (fvars f) -> row x = row' x) -> Operand row' f t.
Proof.
  induction 1; intros Hx; try (constructor; auto; fail).
  - constructor. rewrite <- Hx; cbn; auto.
  - eapply Op_str_lit; eauto.
  - eapply Op_lang; eauto.
  - eapply Op_datatype; eauto.
Qed.
Lemma truth_agree f b : Truth row f b -> (forall x, In x (fvars f) -> row x = row' x) -> Truth row' f b.
Proof.
  induction 1; cbn [fvars]; intros Hx;
    try (econstructor; eauto using operand_agree, in_or_app; fail);
    try (econstructor; first [apply IHTruth1|apply IHTruth2|apply IHTruth|eapply operand_agree|idtac]; eauto using in_or_app; intros y Hy; apply Hx; auto using in_or_app; fail).
  - rewrite Hx by (cbn; auto). constructor.
  - apply T_in_hit. apply IHTruth. intros y Hy. apply Hx. cbn [fvars] in Hy. cbn [flat_map]. apply in_app_or in Hy as [Hy|Hy]; auto using in_or_app.
  - apply T_in_miss; [apply IHTruth1|apply IHTruth2]; intros z Hz; apply Hx; cbn [fvars] in Hz; cbn [flat_map]; apply in_app_or in Hz as [Hz|Hz]; auto using in_or_app.
Qed.
End Agree.

(** ** Supported filters, for rows that agree *)
Section Sup.
Variables (w : world) (g g' : regs).
Lemma equal_ok_agree a b : equal_ok w (row_of w g) a b -> (forall x, In x (fvars a ++ fvars b)%list -> g x = g' x) -> equal_ok w (row_of w g') a b.
Proof.
  intros (A & B & C & E) Hx. split; [auto|]. split; [auto|]. split; [auto|]. intros t1 t2 q1 q2 O1 O2. apply E.
  - eapply operand_agree; eauto. intros x Hi. unfold row_of. rewrite Hx; auto using in_or_app.
  - eapply operand_agree; eauto. intros x Hi. unfold row_of. rewrite Hx; auto using in_or_app.
Qed.
Lemma order_ok_agree a b : order_ok w (row_of w g) a b -> (forall x, In x (fvars a ++ fvars b)%list -> g x = g' x) -> order_ok w (row_of w g') a b.
Proof.
  intros (A & B & C & E & F) Hx. split; [auto|]. split; [auto|]. split; [auto|]. split; [auto|]. intros t [O|O]; apply F; [left|right];
    (eapply operand_agree; eauto; intros x Hi; unfold row_of; rewrite Hx; auto using in_or_app).
Qed.
Lemma supported_agree f : Supported w g f -> (forall x, In x (fvars f) -> g x = g' x) -> Supported w g' f.
Proof.
  induction f; cbn [Supported fvars]; intros HS Hx; auto;
    try (now apply equal_ok_agree); try (now apply order_ok_agree);
    try (destruct HS as [S1 S2]; split; [apply IHf1|apply IHf2]; auto; intros y Hy; apply Hx; auto using in_or_app; fail).
  - rewrite <- (Hx x) by (cbn; auto). auto.
  - destruct HS as [S1 S2]. split; auto. intros t Ho. apply S2. eapply operand_agree; eauto. intros x Hi. unfold row_of. now rewrite Hx.
  - destruct HS as [S1 S2]. split; auto. rewrite Forall_forall in *. intros y Hy. apply equal_ok_agree; auto.
    intros z Hz. apply Hx. apply in_app_or in Hz as [Hz|Hz]; apply in_or_app; auto. right. apply in_flat_map. eauto.
Qed.
End Sup.

(** ** The operator *)
Section Sel.
Variables (w : world) (Ii : oper -> Prop) (V W : list nat) (f : filt) (keep : regs * Z -> bool) (fuel : nat).
Hypothesis D : dict_ok w.
Hypothesis Hvars : incl (fvars f) V.
Local Notation F := (sel_first w fuel (build w f)).
Local Notation N := (sel_next w fuel (build w f)).
Definition sl_ok (o : oper) : Prop := exists i m, o = obj F N (mkSel i m) /\ Ii i /\ remembers w m.
Definition decides (L : list (regs * Z)) : Prop :=
  forall a, In a L -> Supported w (fst a) f /\ Truth (row_of w (fst a)) f (keep a).
Lemma check_row v c g m : Supported w v f /\ Truth (row_of w v) f (keep (v, c)) -> agree V g v -> remembers w m ->
  exists m', check w g (build w f) m = Some (keep (v, c), m') /\ remembers w m'.
Proof.
  intros [S T] A Hm. apply filter_check; auto.
  - eapply supported_agree; eauto. intros x Hx. symmetry. apply A. auto.
  - eapply truth_agree; eauto. intros x Hx. unfold row_of. rewrite A; auto.
Qed.
Lemma sl_loop_ok L : (length L < fuel)%nat -> decides L -> forall k i m g0 g, (length L < k)%nat ->
  Rows Ii V W (o_next i) (fun h => agree W h g0) L -> agree W g g0 -> remembers w m ->
  Got sl_ok V W (wrap F N (sel_next w k (build w f) (mkSel i m) g)) g (filter keep L).
Proof.
  induction L as [|[v c] L IH]; intros Hf HD k i m g0 g Hk HL Hg Hm; (destruct k as [|k]; [cbn in Hk; lia|]);
    rewrite Rows_Got in HL; specialize (HL g Hg); cbn [sel_next sel_input sel_map].
  - destruct HL as (g1 & i1 & E & O & I1). rewrite E. cbn.
    eexists g1, _. split; [reflexivity|]. split; [exact O|]. exists i1, m; auto.
  - destruct HL as (Hc & g1 & i1 & E & A & O & I1 & HL). rewrite E. cbn iota beta.
    destruct (Z.eqb_spec c 0); [lia|]. cbn in Hf, Hk.
    destruct (check_row v c g1 m (HD (v, c) (or_introl eq_refl)) A Hm) as (m1 & Ec & Rm). rewrite Ec. cbn [filter].
    assert (HD' : decides L) by (intros a Ha; apply HD; now right).
    destruct (keep (v, c)).
    + cbn [wrap Got]. split; [exact Hc|]. eexists g1, _. split; [reflexivity|].
      split; [exact A|]. split; [exact O|]. split; [exists i1, m1; auto|].
      apply Rows_Got. intros h Hh. rewrite obj_next. apply (IH ltac:(lia) HD' fuel i1 m1 g1 h); auto; lia.
    + apply (Got_outside _ _ _ _ g1); [exact O|]. apply (IH ltac:(lia) HD' k i1 m1 g1 g1); auto using agree_refl; lia.
Qed.
Lemma sl_start (pre : regs -> Prop) L i m : (length L < fuel)%nat -> decides L -> remembers w m ->
  Rows Ii V W (o_first i) pre L ->
  Rows sl_ok V W (o_first (obj F N (mkSel i m))) pre (filter keep L).
Proof.
  intros Hf HD Hm HL. rewrite Rows_Got in *. intros g Hg. specialize (HL g Hg). rewrite obj_first. unfold sel_first. cbn [sel_input sel_map].
  destruct L as [|[v c] L].
  - destruct HL as (g1 & i1 & E & O & I1). rewrite E. cbn.
    eexists g1, _. split; [reflexivity|]. split; [exact O|]. exists i1, m; auto.
  - destruct HL as (Hc & g1 & i1 & E & A & O & I1 & HL). rewrite E. cbn iota beta.
    destruct (Z.eqb_spec c 0); [lia|]. cbn in Hf.
    destruct (check_row v c g1 m (HD (v, c) (or_introl eq_refl)) A Hm) as (m1 & Ec & Rm). rewrite Ec. cbn [filter].
    assert (HD' : decides L) by (intros a Ha; apply HD; now right).
    destruct (keep (v, c)).
    + cbn [wrap Got]. split; [exact Hc|]. eexists g1, _. split; [reflexivity|].
      split; [exact A|]. split; [exact O|]. split; [exists i1, m1; auto|].
      apply Rows_Got. intros h Hh. rewrite obj_next. apply (sl_loop_ok L ltac:(lia) HD' fuel i1 m1 g1 h); auto; lia.
    + apply (Got_outside _ _ _ _ g1); [exact O|].
      apply (sl_loop_ok L ltac:(lia) HD' fuel i1 m1 g1 g1); auto using agree_refl; lia.
Qed.
End Sel.
