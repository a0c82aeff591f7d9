(** Lemmas for SortModel. *)
From Coq Require Import List ZArith Bool Arith Lia Sorting.Sorted Sorting.Permutation ZifyBool.
Import ListNotations.
From Verif Require Import ItrModel QueryModel FileModel InserterModel NodeModel QuerySpec InserterSpec SortModel SortSpec.
Local Open Scope Z_scope.

(** ** Orders and sorting *)
Section Ord.
Context {A : Type} (lt : A -> A -> bool).
Definition le (x y : A) : Prop := lt y x = false.
Hypothesis le_total : forall x y, lt x y = true -> le x y.
Hypothesis le_trans : forall x y z, le x y -> le y z -> le x z.

Lemma lib_merge_nil_r l : lib_merge lt l [] = l.
Proof. now destruct l. Qed.
Lemma lib_merge_nil_l l : lib_merge lt [] l = l.
Proof. now destruct l. Qed.
Lemma lib_merge_cons x t1 y t2 :
  lib_merge lt (x :: t1) (y :: t2) = if lt y x then y :: lib_merge lt (x :: t1) t2 else x :: lib_merge lt t1 (y :: t2).
Proof. reflexivity. Qed.

Lemma lib_merge_perm l1 l2 : Permutation (lib_merge lt l1 l2) (l1 ++ l2).
Proof.
  revert l2. induction l1 as [|x t1 IH1]; intros l2; [now rewrite lib_merge_nil_l|].
  induction l2 as [|y t2 IH2]; [now rewrite lib_merge_nil_r, app_nil_r|].
  rewrite lib_merge_cons. destruct (lt y x).
  - rewrite IH2. now rewrite <- Permutation_middle.
  - cbn [app]. now rewrite IH1.
Qed.

Lemma lib_merge_sorted l1 l2 : StronglySorted le l1 -> StronglySorted le l2 -> StronglySorted le (lib_merge lt l1 l2).
Proof.
  intros H1. revert l2. induction H1 as [|x t1 H1 IH1 F1]; intros l2 H2; [now rewrite lib_merge_nil_l|].
  induction H2 as [|y t2 H2 IH2 F2]; [rewrite lib_merge_nil_r; now constructor|].
  rewrite lib_merge_cons. destruct (lt y x) eqn:E.
  - constructor; auto. eapply Permutation_Forall; [symmetry; apply lib_merge_perm|].
    apply Forall_app. split; auto. constructor; [now apply le_total|].
    eapply Forall_impl; [|exact F1]. intros z Hz. apply (le_trans y x z); [now apply le_total|exact Hz].
  - constructor; [apply IH1; now constructor|]. eapply Permutation_Forall; [symmetry; apply lib_merge_perm|].
    apply Forall_app. split; auto. constructor; [exact E|].
    eapply Forall_impl; [|exact F2]. intros z Hz. eapply le_trans; [exact E|exact Hz].
Qed.

Lemma sorted_unique (anti : forall x y, le x y -> le y x -> x = y) l1 l2 :
  StronglySorted le l1 -> StronglySorted le l2 -> Permutation l1 l2 -> l1 = l2.
Proof.
  intros H1. revert l2. induction H1 as [|x t1 H1 IH F1]; intros l2 H2 HP.
  - apply Permutation_nil in HP. now subst.
  - destruct H2 as [|y t2 H2 F2]; [now apply Permutation_sym, Permutation_nil in HP|].
    assert (x = y) as ->.
    { assert (Hx : In x (y :: t2)) by (eapply Permutation_in; [exact HP|now left]).
      assert (Hy : In y (x :: t1)) by (eapply Permutation_in; [symmetry; exact HP|now left]).
      destruct Hx as [Hx|Hx]; auto. destruct Hy as [Hy|Hy]; auto. rewrite Forall_forall in F1, F2. apply anti; auto. }
    f_equal. apply IH; auto. eapply Permutation_cons_inv; eauto.
Qed.
End Ord.

Lemma StronglySorted_firstn {A} (R : A -> A -> Prop) n l : StronglySorted R l -> StronglySorted R (firstn n l).
Proof.
  intros H. revert n. induction H as [|x t H IH F]; intros [|n]; cbn; constructor; auto.
  apply Forall_forall. intros y Hy. rewrite Forall_forall in F. apply F.
  rewrite <- (firstn_skipn n t). apply in_app_iff. auto.
Qed.

Lemma StronglySorted_app' {A} (R : A -> A -> Prop) l1 l2 :
  StronglySorted R l1 -> StronglySorted R l2 -> (forall x y, In x l1 -> In y l2 -> R x y) -> StronglySorted R (l1 ++ l2).
Proof.
  intros H1 H2 H. induction H1 as [|x t H1 IH F]; cbn; auto. constructor.
  - apply IH. intros a b Ha Hb. apply H; [now right|auto].
  - apply Forall_app. split; auto. apply Forall_forall. intros y Hy. apply H; [now left|auto].
Qed.

(** Bytes. *)
Lemma bytes_lt_irrefl a : bytes_lt a a = false.
Proof. induction a; cbn; auto. rewrite IHa. lia. Qed.
Lemma bytes_total a b : bytes_lt a b = true -> bytes_lt b a = false.
Proof.
  revert b. induction a as [|x a IH]; intros [|y b]; cbn; auto; try discriminate.
  destruct (bytes_lt a b) eqn:E; [rewrite (IH _ E)|]; destruct (bytes_lt b a); lia.
Qed.
Lemma bytes_anti a b : bytes_lt a b = false -> bytes_lt b a = false -> a = b.
Proof.
  revert b. induction a as [|x a IH]; intros [|y b]; cbn; auto; try discriminate.
  intros H1 H2. assert (x = y) as -> by lia. f_equal. apply IH; lia.
Qed.
Lemma bytes_le_trans a b c : bytes_lt b a = false -> bytes_lt c b = false -> bytes_lt c a = false.
Proof.
  revert b c. induction a as [|x a IH]; intros [|y b] [|z c]; cbn; auto; try discriminate.
  specialize (IH b c). destruct (bytes_lt b a), (bytes_lt c b), (bytes_lt c a); try lia.
  all: intros; try (specialize (IH eq_refl eq_refl); discriminate); lia.
Qed.

Notation ble := (le bytes_lt).

Lemma ins_sorted_perm x l : Permutation (ins_sorted bytes_lt x l) (x :: l).
Proof.
  induction l as [|y t IH]; cbn; auto. destruct (bytes_lt y x); auto. rewrite IH. apply perm_swap.
Qed.
Lemma ins_sorted_sorted x l : StronglySorted ble l -> StronglySorted ble (ins_sorted bytes_lt x l).
Proof.
  induction 1 as [|y t H IH F]; cbn; [repeat constructor|]. destruct (bytes_lt y x) eqn:E.
  - constructor; auto. eapply Permutation_Forall; [symmetry; apply ins_sorted_perm|]. constructor; auto.
    unfold le. now apply bytes_total.
  - constructor; [now constructor|]. constructor; [exact E|].
    eapply Forall_impl; [|exact F]. intros z Hz. eapply bytes_le_trans; [exact E|exact Hz].
Qed.
Lemma lib_sort_perm l : Permutation (lib_sort bytes_lt l) l.
Proof. induction l; cbn; auto. rewrite ins_sorted_perm. now constructor. Qed.
Lemma lib_sort_sorted l : StronglySorted ble (lib_sort bytes_lt l).
Proof. induction l; cbn; [constructor|]. now apply ins_sorted_sorted. Qed.

Lemma sort_int_ok fuel n l : Permutation (sort_int fuel n l) l /\ StronglySorted ble (sort_int fuel n l).
Proof.
  revert n l. induction fuel as [|fuel IH]; intros n l; cbn [sort_int]; [split; [apply lib_sort_perm|apply lib_sort_sorted]|].
  destruct (_ || _); [split; [apply lib_sort_perm|apply lib_sort_sorted]|].
  destruct (IH (Nat.div n 2) (firstn (Nat.div (length l) 2) l)) as [P1 S1].
  destruct (IH (Nat.div n 2) (skipn (Nat.div (length l) 2) l)) as [P2 S2]. split.
  - rewrite lib_merge_perm, P1, P2. now rewrite firstn_skipn.
  - apply lib_merge_sorted; auto; [apply bytes_total|intros; eapply bytes_le_trans; eauto].
Qed.
Lemma sort_perm_perm n l : Permutation (sort_perm n l) l.
Proof. apply sort_int_ok. Qed.
Lemma sort_perm_sorted n l : StronglySorted ble (sort_perm n l).
Proof. apply sort_int_ok. Qed.

(** ** Records *)
Definition be (l : list Z) : Z := fold_left (fun a d => a * 256 + d) l 0.
Definition byte (x : Z) : Prop := 0 <= x < 256.

Lemma be_app_gen l a : fold_left (fun a d => a * 256 + d) l a = a * 256 ^ Z.of_nat (length l) + be l.
Proof.
  unfold be. revert a. induction l as [|d l IH]; intros a; [cbn; lia|].
  cbn [fold_left length]. rewrite IH, (IH (0 * 256 + d)). rewrite Nat2Z.inj_succ, Z.pow_succ_r by lia. ring.
Qed.
Lemma be_cons d l : be (d :: l) = d * 256 ^ Z.of_nat (length l) + be l.
Proof. unfold be. cbn [fold_left]. now rewrite be_app_gen. Qed.
Lemma be_range l : Forall byte l -> 0 <= be l < 256 ^ Z.of_nat (length l).
Proof.
  induction 1 as [|d l Hd H IH]; [cbn; lia|]. rewrite be_cons. cbn [length].
  rewrite Nat2Z.inj_succ, Z.pow_succ_r by lia. unfold byte in Hd. nia.
Qed.

Lemma lt_be a b : length a = length b -> Forall byte a -> Forall byte b -> (bytes_lt a b = true <-> be a < be b).
Proof.
  revert b. induction a as [|x a IH]; intros [|y b] HL Ha Hb; try discriminate; [cbn; split; [discriminate|lia]|].
  inversion Ha as [|? ? Hx Ha']; inversion Hb as [|? ? Hy Hb']; subst. injection HL as HL.
  rewrite !be_cons. cbn [bytes_lt]. rewrite HL. pose proof (be_range _ Ha'). pose proof (be_range _ Hb'). rewrite HL in H.
  rewrite orb_true_iff, andb_true_iff, Z.ltb_lt, Z.eqb_eq, (IH _ HL Ha' Hb').
  set (K := 256 ^ Z.of_nat (length b)) in *. unfold byte in *. split.
  - intros [E|[-> E]]; nia.
  - intros E. destruct (Z.lt_trichotomy x y) as [L|[L|L]]; [now left|right; split; nia|nia].
Qed.
Lemma be_inj a b : length a = length b -> Forall byte a -> Forall byte b -> be a = be b -> a = b.
Proof.
  intros HL Ha Hb E. apply bytes_anti.
  - apply not_true_is_false. rewrite lt_be; auto. lia.
  - apply not_true_is_false. rewrite lt_be; auto. lia.
Qed.

Lemma land255 x : Z.land x 255 = x mod 256.
Proof. change 255 with (Z.ones 8). now rewrite Z.land_ones by lia. Qed.
Lemma byte_land x : byte (Z.land x 255).
Proof. rewrite land255. unfold byte. apply Z.mod_pos_bound. lia. Qed.

Lemma wterm_bytes n : Forall byte (wterm n).
Proof. unfold wterm. repeat constructor; apply byte_land. Qed.
Lemma wterm8_bytes n : Forall byte (wterm8 n).
Proof. unfold wterm8. repeat constructor; apply byte_land. Qed.

Ltac Zify.zify_post_hook ::= Z.div_mod_to_equations.
Lemma be_wterm n : 0 <= n < 2 ^ 40 -> be (wterm n) = n.
Proof.
  intros H. change (2 ^ 40) with 1099511627776 in H. unfold be, wterm. cbn [fold_left].
  rewrite !land255, !Z.shiftr_div_pow2 by lia.
  change (2 ^ 32) with 4294967296. change (2 ^ 24) with 16777216. change (2 ^ 16) with 65536. change (2 ^ 8) with 256. lia.
Qed.
Lemma div_step n k : 0 < k -> n / k = (n / (k * 256)) * 256 + (n / k) mod 256.
Proof. intros H. rewrite <- Z.div_div by lia. pose proof (Z.div_mod (n / k) 256). lia. Qed.
Lemma be_wterm8 n : 0 <= n < 2 ^ 63 -> be (wterm8 n) = n.
Proof.
  intros H. unfold be, wterm8. cbn [fold_left]. rewrite !land255, !Z.shiftr_div_pow2 by lia.
  assert (E : n / 2 ^ 56 = (n / 2 ^ 56) mod 256).
  { rewrite Z.mod_small; auto. split; [apply Z.div_pos; lia|]. apply Z.div_lt_upper_bound; [lia|].
    change (2 ^ 56 * 256) with (2 ^ 64). lia. }
  rewrite Z.mul_0_l, Z.add_0_l, <- E.
  pose proof (div_step n (2 ^ 48) ltac:(lia)) as E1. change (2 ^ 48 * 256) with (2 ^ 56) in E1. rewrite <- E1. clear E1.
  pose proof (div_step n (2 ^ 40) ltac:(lia)) as E1. change (2 ^ 40 * 256) with (2 ^ 48) in E1. rewrite <- E1. clear E1.
  pose proof (div_step n (2 ^ 32) ltac:(lia)) as E1. change (2 ^ 32 * 256) with (2 ^ 40) in E1. rewrite <- E1. clear E1.
  pose proof (div_step n (2 ^ 24) ltac:(lia)) as E1. change (2 ^ 24 * 256) with (2 ^ 32) in E1. rewrite <- E1. clear E1.
  pose proof (div_step n (2 ^ 16) ltac:(lia)) as E1. change (2 ^ 16 * 256) with (2 ^ 24) in E1. rewrite <- E1. clear E1.
  pose proof (div_step n (2 ^ 8) ltac:(lia)) as E1. change (2 ^ 8 * 256) with (2 ^ 16) in E1. rewrite <- E1. clear E1.
  change (2 ^ 8) with 256. pose proof (Z.div_mod n 256). lia.
Qed.

Lemma rterm_be w l u v acc : length l = w -> Forall byte l ->
  rterm w (u ++ l ++ v) (length u) acc = acc + be l.
Proof.
  revert l u acc. induction w as [|w IH]; intros [|d l] u acc HL Hl; try discriminate; [cbn; lia|].
  injection HL as HL. inversion Hl as [|? ? Hd Hl']; subst. cbn [rterm].
  replace (nth (length u) (u ++ (d :: l) ++ v) 0) with d by (rewrite app_nth2, Nat.sub_diag by lia; reflexivity).
  replace (u ++ (d :: l) ++ v) with ((u ++ [d]) ++ l ++ v) by now rewrite <- app_assoc.
  replace (S (length u)) with (length (u ++ [d])) by (rewrite app_length; cbn; lia).
  rewrite IH, be_cons by auto. rewrite Z.shiftl_mul_pow2 by lia. rewrite land255, Z.mod_small by exact Hd.
  rewrite Z.pow_mul_r by lia. change (2 ^ 8) with 256. lia.
Qed.

(** The numbers fit in the record. *)
Definition fitsq (ic : bool) (q : quad) : Prop :=
  let '(s, p, o, c) := q in
  0 <= s < 2 ^ 40 /\ 0 <= p < 2 ^ 40 /\
  (if ic then 0 <= o < 2 ^ 63 /\ 0 <= c < 2 ^ 40 else 0 <= o < 2 ^ 40 /\ c = 0).

Lemma rec_bytes ic q : Forall byte (rec_of ic q).
Proof. destruct q as [[[s p] o] c], ic; cbn [rec_of]; repeat (apply Forall_app; split); auto using wterm_bytes, wterm8_bytes. Qed.
Lemma rec_length ic q : length (rec_of ic q) = rsize ic.
Proof. now destruct q as [[[s p] o] c], ic. Qed.

Lemma of_rec_rec ic q : fitsq ic q -> of_rec ic (rec_of ic q) = q.
Proof.
  destruct q as [[[s p] o] c]. intros (Hs & Hp & Ho). unfold of_rec, rec_of. destruct ic; destruct Ho as [Ho Hc].
  - f_equal; [f_equal; [f_equal|]|].
    + pose proof (rterm_be 5 (wterm s) [] (wterm p ++ wterm8 o ++ wterm c) 0 eq_refl (wterm_bytes s)) as E.
      cbn [app length] in E. rewrite E, be_wterm; auto.
    + pose proof (rterm_be 5 (wterm p) (wterm s) (wterm8 o ++ wterm c) 0 eq_refl (wterm_bytes p)) as E.
      change (length (wterm s)) with 5%nat in E. rewrite E, be_wterm; auto.
    + pose proof (rterm_be 8 (wterm8 o) (wterm s ++ wterm p) (wterm c) 0 eq_refl (wterm8_bytes o)) as E.
      change (length (wterm s ++ wterm p)) with 10%nat in E. rewrite <- app_assoc in E. rewrite E, be_wterm8; auto.
    + pose proof (rterm_be 5 (wterm c) (wterm s ++ wterm p ++ wterm8 o) [] 0 eq_refl (wterm_bytes c)) as E.
      change (length (wterm s ++ wterm p ++ wterm8 o)) with 18%nat in E. rewrite app_nil_r, <- !app_assoc in E. rewrite E, be_wterm; auto.
  - subst c. f_equal; f_equal; [f_equal|].
    + pose proof (rterm_be 5 (wterm s) [] (wterm p ++ wterm o) 0 eq_refl (wterm_bytes s)) as E.
      cbn [app length] in E. rewrite E, be_wterm; auto.
    + pose proof (rterm_be 5 (wterm p) (wterm s) (wterm o) 0 eq_refl (wterm_bytes p)) as E.
      change (length (wterm s)) with 5%nat in E. rewrite E, be_wterm; auto.
    + pose proof (rterm_be 5 (wterm o) (wterm s ++ wterm p) [] 0 eq_refl (wterm_bytes o)) as E.
      change (length (wterm s ++ wterm p)) with 10%nat in E. rewrite app_nil_r, <- app_assoc in E. rewrite E, be_wterm; auto.
Qed.

Lemma bytes_lt_app a b x y : length a = length b -> Forall byte a -> Forall byte b ->
  (bytes_lt (a ++ x) (b ++ y) = true <-> be a < be b \/ (be a = be b /\ bytes_lt x y = true)).
Proof.
  intros HL Ha Hb. rewrite <- (lt_be a b) by auto.
  assert (Hi : be a = be b -> a = b) by (intros; now apply be_inj).
  assert (Hj : a = b -> be a = be b) by (now intros ->).
  assert (HE : bytes_lt (a ++ x) (b ++ y) = true <-> bytes_lt a b = true \/ (a = b /\ bytes_lt x y = true)).
  { clear Hi Hj. revert b HL Ha Hb. induction a as [|u a IH]; intros [|v b] HL Ha Hb; try discriminate.
    - cbn. intuition congruence.
    - injection HL as HL. inversion Ha as [|? ? Hu Ha']; inversion Hb as [|? ? Hv Hb']; subst. cbn [app bytes_lt].
      rewrite !orb_true_iff, !andb_true_iff, (IH b) by auto. rewrite Z.ltb_lt, Z.eqb_eq. split.
      + intros [E|[-> [E|[-> E]]]]; auto.
      + intros [[E|[-> E]]|[E E']]; auto. injection E as -> ->. auto. }
  rewrite HE. intuition.
Qed.

Lemma rec_order ic x y : fitsq ic x -> fitsq ic y ->
  (bytes_lt (rec_of ic x) (rec_of ic y) = true <-> qlt x y).
Proof.
  destruct x as [[[s p] o] c], y as [[[s' p'] o'] c']. intros (Hs & Hp & Ho) (Hs' & Hp' & Ho').
  unfold rec_of. rewrite !bytes_lt_app, !be_wterm by (auto using wterm_bytes).
  unfold qlt, tlt. cbn [fst snd]. destruct ic.
  - destruct Ho as [Ho Hc], Ho' as [Ho' Hc']. rewrite bytes_lt_app, !be_wterm8 by (auto using wterm8_bytes).
    rewrite lt_be, !be_wterm by auto using wterm_bytes. split.
    + intros [E|[-> [E|[-> [E|[-> E]]]]]]; auto 9.
    + intros [[E|[-> [E|[-> E]]]]|[E E1]]; auto 9. injection E as -> -> ->. auto 9.
  - destruct Ho as [Ho ->], Ho' as [Ho' ->]. rewrite lt_be, !be_wterm by auto using wterm_bytes. split.
    + intros [E|[-> [E|[-> E]]]]; auto 9.
    + intros [[E|[-> [E|[-> E]]]]|[E E1]]; auto 9. lia.
Qed.

Lemma tlt_irrefl t : ~ tlt t t.
Proof. destruct t as [[a b] c]. cbn. lia. Qed.
Lemma not_qlt_tle x y : ~ qlt y x -> tle (fst x) (fst y).
Proof. destruct x as [[[s p] o] c], y as [[[s' p'] o'] c']. unfold qlt, tlt, tle. cbn [fst snd]. intros H. lia. Qed.

(** ** Changing the permutation of a record *)
Lemma permute_rec cur next oc on t : perm_positions cur = Some oc -> perm_positions next = Some on -> cur <> next ->
  permute1 cur next (rec_of false (counted (reorder oc t))) = rec_of false (counted (reorder on t)).
Proof.
  intros H1 H2 Hn. destruct t as [[s p] o].
  assert (Hc : forall k ok, perm_positions k = Some ok ->
    k = 0 /\ ok = [0;1;2]%nat \/ k = 1 /\ ok = [2;1;0]%nat \/ k = 2 /\ ok = [1;2;0]%nat \/
    k = 3 /\ ok = [0;2;1]%nat \/ k = 4 /\ ok = [2;0;1]%nat \/ k = 5 /\ ok = [1;0;2]%nat).
  { intros k ok. unfold perm_positions. repeat (match goal with |- context [?a =? ?b] => destruct (Z.eqb_spec a b) as [->|] end;
      [intros [= <-]; tauto|]). discriminate. }
  apply Hc in H1, H2. clear Hc.
  destruct H1 as [[-> ->]|[[-> ->]|[[-> ->]|[[-> ->]|[[-> ->]|[-> ->]]]]]];
  destruct H2 as [[-> ->]|[[-> ->]|[[-> ->]|[[-> ->]|[[-> ->]|[-> ->]]]]]]; try congruence; reflexivity.
Qed.
