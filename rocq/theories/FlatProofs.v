(** Proofs about the flat tree: the records, writing and reading them. *)
From Coq Require Import Sorted Lia ZifyBool.
From Verif Require Import FlatModel TableSpec TableProofs.
Local Open Scope Z_scope.
Ltac Zify.zify_post_hook ::= Z.div_mod_to_equations.

(** ** Bytes *)
Lemma le_length w : forall v, length (le w v) = w.
Proof. induction w as [|w IH]; intros v; cbn [le]; auto. cbn. now rewrite IH. Qed.

Lemma rdle_le w : forall m p v, contains m p (le w v) -> rdle w m p = Some (v mod 2 ^ (8 * Z.of_nat w)).
Proof.
  induction w as [|w IH]; intros m p v H; cbn [le rdle] in *.
  - change (8 * Z.of_nat 0) with 0. rewrite Z.pow_0_r, Z.mod_1_r. reflexivity.
  - rewrite (getb_contains _ _ _ _ H). change (v mod 256 :: le w (v / 256)) with ([v mod 256] ++ le w (v / 256)) in H. apply contains_app in H as [_ H].
    rewrite (IH m (p + 1) (v / 256) H). f_equal. rewrite pow256_S. rewrite Z.rem_mul_r; lia.
Qed.

Lemma getb_some m p : 0 <= p < zlen m -> exists b, getb m p = Some b.
Proof.
  intros H. unfold getb. rewrite (proj2 (Z.leb_le 0 p)) by lia. destruct (nth_error m (Z.to_nat p)) eqn:E; eauto.
  apply nth_error_None in E. lia.
Qed.
Lemma rdle_some w : forall m p, 0 <= p -> p + Z.of_nat w <= zlen m -> exists v, rdle w m p = Some v.
Proof.
  induction w as [|w IH]; intros m p Hp H; cbn [rdle]; eauto.
  destruct (getb_some m p) as (b & ->); [lia|]. destruct (IH m (p + 1)) as (r & ->); [lia|lia|]. eauto.
Qed.
Lemma rdle_more n w : forall m p v, rdle w m p = Some v -> 0 <= p -> p + Z.of_nat (w + n) <= zlen m ->
  exists h, rdle (w + n) m p = Some (v + 2 ^ (8 * Z.of_nat w) * h).
Proof.
  induction w as [|w IH]; intros m p v H Hp Hl; cbn [rdle Nat.add] in *.
  - injection H as <-. destruct (rdle_some n m p Hp Hl) as (h & ->). exists h. change (8 * Z.of_nat 0) with 0. rewrite Z.pow_0_r. f_equal. lia.
  - destruct (getb m p) as [b|]; [|discriminate]. destruct (rdle w m (p + 1)) as [r|] eqn:E; [|discriminate]. assert (Hv : v = b + 256 * r) by congruence. subst v. clear H.
    destruct (IH m (p + 1) r E) as (h & ->); [lia|lia|]. exists h. apply f_equal. rewrite pow256_S. ring.
Qed.
(** Five bytes read with eight and masked. *)
Lemma rdle_masked m p v : contains m p (le 5 v) -> p + 8 <= zlen m -> exists w, rdle 8 m p = Some w /\ w mod 2 ^ 40 = v mod 2 ^ 40.
Proof.
  intros H Hl. pose proof (contains_bound _ _ _ H) as [Hp _]. apply rdle_le in H. change (8 * Z.of_nat 5) with 40 in H.
  destruct (rdle_more 3 5 m p _ H) as (h & E); [lia|lia|]. change (5 + 3)%nat with 8%nat in E. rewrite E. eexists. split; [reflexivity|].
  change (8 * Z.of_nat 5) with 40. rewrite Z.add_mod, (Z.mul_comm (2 ^ 40)), Z.mod_mul, Z.add_0_r, !Z.mod_mod; lia.
Qed.

Lemma wr_mid (a old b new : list Z) p : p = zlen a -> length old = length new ->
  wr (a ++ old ++ b) p new = Some (a ++ new ++ b).
Proof.
  intros -> Hl. unfold wr, FileModel.zlen. rewrite !app_length. rewrite (proj2 (Z.leb_le 0 (zlen a))) by lia. rewrite (proj2 (Z.leb_le _ _)) by lia. cbn [andb].
  rewrite Nat2Z.id. rewrite firstn_app, Nat.sub_diag, firstn_O, app_nil_r, firstn_all. do 3 f_equal.
  rewrite app_assoc, <- Hl, <- app_length. rewrite skipn_app, Nat.sub_diag, skipn_all. reflexivity.
Qed.

(** ** Ranges of terms *)
Definition range (a b : Z) : list Z := map (fun i => a + Z.of_nat i) (seq 0 (Z.to_nat (b - a))).
Lemma range_nil a b : b <= a -> range a b = [].
Proof. intros H. unfold range. replace (Z.to_nat (b - a)) with 0%nat by lia. reflexivity. Qed.
Lemma range_app a b c : a <= b <= c -> range a c = range a b ++ range b c.
Proof.
  intros H. unfold range. replace (Z.to_nat (c - a)) with (Z.to_nat (b - a) + Z.to_nat (c - b))%nat by lia.
  rewrite seq_app, map_app. f_equal. cbn [Nat.add]. rewrite <- (Nat.add_0_r (Z.to_nat (b - a))) at 1. generalize 0%nat. generalize (Z.to_nat (c - b)).
  intros n. induction n as [|n IH]; intros s; cbn [seq map]; auto. f_equal; [lia|]. rewrite <- (IH (S s)). now rewrite Nat.add_succ_r.
Qed.
Lemma range_one a : range a (a + 1) = [a].
Proof. unfold range. replace (Z.to_nat (a + 1 - a)) with 1%nat by lia. cbn. f_equal. lia. Qed.
Lemma range_cons a b : a < b -> range a b = a :: range (a + 1) b.
Proof. intros H. rewrite (range_app a (a + 1) b), range_one by lia. reflexivity. Qed.
Lemma range_In a b x : In x (range a b) <-> a <= x < b.
Proof.
  unfold range. rewrite in_map_iff. split.
  - intros (i & <- & Hi). apply in_seq in Hi. lia.
  - intros H. exists (Z.to_nat (x - a)). split; [lia|]. apply in_seq. lia.
Qed.
Lemma range_length a b : length (range a b) = Z.to_nat (b - a).
Proof. unfold range. now rewrite map_length, seq_length. Qed.

(** ** Association lists *)
Fixpoint look {A} (k : Z) (l : list (Z * A)) : option A :=
  match l with [] => None | (j, x) :: r => if j =? k then Some x else look k r end.
Lemma look_none {A} k (l : list (Z * A)) : (forall j x, In (j, x) l -> j <> k) -> look k l = None.
Proof. induction l as [|[j x] l IH]; intros H; cbn; auto. pose proof (H j x (or_introl eq_refl)). rewrite (proj2 (Z.eqb_neq j k)) by auto. apply IH. intros i y Hi. apply (H i y). now right. Qed.
Lemma look_In {A} k (l : list (Z * A)) x : look k l = Some x -> In (k, x) l.
Proof. induction l as [|[j y] l IH]; cbn; [discriminate|]. destruct (Z.eqb_spec j k) as [-> |]; intros H; [injection H as ->; now left|right; auto]. Qed.
Lemma look_app {A} k (l r : list (Z * A)) : look k (l ++ r) = match look k l with Some x => Some x | None => look k r end.
Proof. induction l as [|[j y] l IH]; cbn; auto. destruct (j =? k); auto. Qed.
Lemma sorted_head {A} k x (l : list (Z * A)) j y : StronglySorted Z.lt (map fst ((k, x) :: l)) -> In (j, y) l -> k < j.
Proof. intros H Hin. cbn in H. apply StronglySorted_inv in H as [_ H]. rewrite Forall_forall in H. apply H. apply in_map_iff. now exists (j, y). Qed.
Lemma look_sorted {A} k x (l : list (Z * A)) : StronglySorted Z.lt (map fst l) -> In (k, x) l -> look k l = Some x.
Proof.
  induction l as [|[j y] l IH]; intros Hs H; [destruct H|destruct H as [E|H]].
  - injection E as -> ->. cbn. now rewrite Z.eqb_refl.
  - pose proof (sorted_head _ _ _ _ _ Hs H). cbn. rewrite (proj2 (Z.eqb_neq j k)) by lia. apply IH; auto. cbn in Hs. now apply StronglySorted_inv in Hs.
Qed.

(** ** Records *)
Definition order (g : graph) : list nat := match g with Labelled => [3; 4; 0; 1; 2; 5] | Directed => [3; 4] | Undirected => [3] end%nat.

Lemma block_length junk n s f p : length junk = 8%nat -> length (fl_block junk n s f p) = 13%nat.
Proof. intros H. unfold fl_block. destruct (0 <? n); rewrite ?app_length, ?le_length; cbn [length]; rewrite ?app_length, ?le_length, ?H; reflexivity. Qed.
Lemma block_zero junk n s f p : n <= 0 -> fl_block junk n s f p = [0; 0; 0; 0; 0] ++ junk.
Proof. intros H. unfold fl_block. now rewrite (proj2 (Z.ltb_ge 0 n)). Qed.

(** Reading a block. *)
Lemma set_block m b junk n s f p : contains m b (fl_block junk n s f p) -> b + 16 <= zlen m -> length junk = 8%nat ->
  0 <= n < 2 ^ 40 -> -128 <= s < 128 -> 0 <= f < 2 ^ 15 -> 0 <= p < 2 ^ 40 ->
  fl_set m b = Some (if 0 <? n then Some (mkCoord n s f p) else None).
Proof.
  intros H Hl Hj Hn Hs Hf Hp. unfold fl_set. unfold fl_block in H. destruct (Z.ltb_spec 0 n) as [Hp0|Hz].
  - apply contains_app in H as [H1 H]. rewrite le_length in H. apply contains_app in H as [H2 H]. apply contains_app in H as [H3 H4]. rewrite le_length in H4. cbn [length] in *.
    destruct (rdle_masked m b n H1) as (w & -> & Ew); [lia|]. cbv zeta. rewrite Ew, Z.mod_small by lia. rewrite (proj2 (Z.ltb_lt 0 n)) by lia.
    replace (b + Z.of_nat 5 + Z.of_nat 1) with (b + 6) in H3 by lia. rewrite (rdle_le 2 _ _ _ H3).
    replace (b + Z.of_nat 5 + Z.of_nat 1 + Z.of_nat 2) with (b + 8) in H4 by lia. destruct (rdle_masked m (b + 8) p H4) as (w' & -> & Ew'); [lia|].
    change (b + Z.of_nat 5) with (b + 5) in H2. rewrite (getb_contains _ _ _ _ H2), Ew'. do 3 f_equal.
    + unfold to_char. lia.
    + change (8 * Z.of_nat 2) with 16. unfold to_short. lia.
    + apply Z.mod_small. lia.
  - assert (n = 0) by lia. subst n. apply contains_app in H as [H1 H]. change [0; 0; 0; 0; 0] with (le 5 0) in H1.
    destruct (rdle_masked m b 0 H1) as (w & -> & Ew); [lia|]. cbv zeta. rewrite Ew. reflexivity.
Qed.

Section Records.
Variables (g : graph) (junk : Z -> nat -> list Z) (M : list (Z * tc)).
Hypothesis Hjunk : forall k i, length (junk k i) = 8%nat.

(** The record of term [k] if [C] gives strategy, file and position. *)
Definition rec (C : nat -> Z -> Z * Z * Z) (k : Z) : list Z :=
  match look k M with
  | None => fl_onlyKey g k
  | Some v => le 5 k ++ flat_map (fun i => let '(s, f, p) := C i k in fl_block (junk k i) (fl_n v i) s f p) (order g)
  end.
Definition recs (C : nat -> Z -> Z * Z * Z) (n : Z) : list Z := flat_map (rec C) (range 0 n).

Lemma parts_length (B : nat -> list Z) l : (forall i, length (B i) = 13%nat) -> length (flat_map B l) = (13 * length l)%nat.
Proof. intros H. induction l as [|i l IH]; cbn [flat_map length]; auto. rewrite app_length, IH, H. lia. Qed.
Lemma rec_length C k : zlen (rec C k) = sizeblock g.
Proof.
  unfold rec. destruct (look k M) as [v|].
  - rewrite app_length, le_length, parts_length; [destruct g; reflexivity|]. intros i. destruct (C i k) as [[s f] p]. now apply block_length.
  - unfold fl_onlyKey. rewrite app_length, le_length, repeat_length. destruct g; reflexivity.
Qed.
Lemma recs_range_length C a b : a <= b -> zlen (flat_map (rec C) (range a b)) = (b - a) * sizeblock g.
Proof.
  intros H. replace b with (a + Z.of_nat (Z.to_nat (b - a))) by lia. generalize (Z.to_nat (b - a)). clear H b. intros n. revert a.
  induction n as [|n IH]; intros a.
  - rewrite range_nil by lia. cbn. lia.
  - rewrite range_cons by lia. cbn [flat_map]. rewrite app_length, Nat2Z.inj_add, rec_length. replace (a + Z.of_nat (S n)) with ((a + 1) + Z.of_nat n) by lia. rewrite IH. nia.
Qed.
Lemma recs_length C n : 0 <= n -> zlen (recs C n) = n * sizeblock g.
Proof. intros H. unfold recs. rewrite recs_range_length by lia. f_equal. lia. Qed.

Lemma recs_split C n k : 0 <= k < n -> recs C n = recs C k ++ rec C k ++ flat_map (rec C) (range (k + 1) n).
Proof. intros H. unfold recs. rewrite (range_app 0 k n), flat_map_app by lia. f_equal. rewrite (range_cons k n) by lia. reflexivity. Qed.
Lemma recs_ext C C' n : (forall i k, In i (order g) -> 0 <= k < n -> C i k = C' i k) -> recs C n = recs C' n.
Proof.
  intros H. unfold recs. assert (HR : forall k, In k (range 0 n) -> rec C k = rec C' k).
  { intros k Hk. apply range_In in Hk. unfold rec. destruct (look k M); auto. f_equal.
    assert (HO : forall l, incl l (order g) -> flat_map (fun i => let '(s, f, p) := C i k in fl_block (junk k i) (fl_n t i) s f p) l = flat_map (fun i => let '(s, f, p) := C' i k in fl_block (junk k i) (fl_n t i) s f p) l).
    { induction l as [|i l IH]; intros Hi; cbn [flat_map]; auto. rewrite IH by (intros x Hx; apply Hi; now right). rewrite (H i k) by (auto; apply Hi; now left). reflexivity. }
    apply HO. intros x Hx. exact Hx. }
  revert HR. generalize (range 0 n). induction l as [|k l IH]; intros HR; cbn [flat_map]; auto. rewrite IH by (intros x Hx; apply HR; now right). rewrite HR by now left. reflexivity.
Qed.

(** Where the part for permutation [i] of term [k] starts. *)
Definition off (i : nat) : Z := match i with 3%nat => 5 | 4%nat => 18 | 0%nat => 31 | 1%nat => 44 | 2%nat => 57 | _ => 70 end.
Lemma order_split i : In i (order g) -> exists l1 l2, order g = l1 ++ i :: l2 /\ off i = 5 + 13 * zlen l1 /\ ~ In i l1 /\ ~ In i l2.
Proof.
  intros H. destruct g; cbn [order In] in H; repeat (destruct H as [<- |H]; [|]); try destruct H.
  - exists [], [4; 0; 1; 2; 5]%nat. cbn. intuition lia.
  - exists [3]%nat, [0; 1; 2; 5]%nat. cbn. intuition lia.
  - exists [3; 4]%nat, [1; 2; 5]%nat. cbn. intuition lia.
  - exists [3; 4; 0]%nat, [2; 5]%nat. cbn. intuition lia.
  - exists [3; 4; 0; 1]%nat, [5]%nat. cbn. intuition lia.
  - exists [3; 4; 0; 1; 2]%nat, []. cbn. intuition lia.
  - exists [], [4]%nat. cbn. intuition lia.
  - exists [3]%nat, []. cbn. intuition lia.
  - exists [], []. cbn. intuition lia.
Qed.

Lemma rec_split C k v i : look k M = Some v -> In i (order g) -> exists a b, zlen a = off i /\
  rec C k = a ++ (let '(s, f, p) := C i k in fl_block (junk k i) (fl_n v i) s f p) ++ b /\
  forall C', (forall j, j <> i -> C' j k = C j k) -> rec C' k = a ++ (let '(s, f, p) := C' i k in fl_block (junk k i) (fl_n v i) s f p) ++ b.
Proof.
  intros Ev Hi. destruct (order_split i Hi) as (l1 & l2 & Eo & Ho & N1 & N2). unfold rec. rewrite Ev, Eo.
  set (B := fun (C : nat -> Z -> Z * Z * Z) j => let '(s, f, p) := C j k in fl_block (junk k j) (fl_n v j) s f p).
  exists (le 5 k ++ flat_map (B C) l1), (flat_map (B C) l2).
  assert (HX : forall C' l, (forall j, j <> i -> C' j k = C j k) -> ~ In i l -> flat_map (B C') l = flat_map (B C) l).
  { intros C' l H. induction l as [|j l IH]; intros Hn; cbn [flat_map]; auto. rewrite IH by (intros Hx; apply Hn; now right). unfold B at 1 3. rewrite H; auto. intros ->. apply Hn. now left. }
  split; [|split].
  - rewrite app_length, le_length, parts_length; [lia|]. intros j. unfold B. destruct (C j k) as [[s f] p]. now apply block_length.
  - rewrite flat_map_app. cbn [flat_map]. now rewrite <- !app_assoc.
  - intros C' H. rewrite flat_map_app. cbn [flat_map]. rewrite <- !app_assoc. fold (B C'). rewrite (HX C' l1 H N1), (HX C' l2 H N2). reflexivity.
Qed.

Lemma rec_contains C k v i : look k M = Some v -> In i (order g) ->
  contains (rec C k) (off i) (let '(s, f, p) := C i k in fl_block (junk k i) (fl_n v i) s f p).
Proof. intros Ev Hi. destruct (rec_split C k v i Ev Hi) as (a & b & Ha & -> & _). exists a, b. auto. Qed.

Lemma contains_in_rec C n k x y pad : 0 <= k < n -> contains (rec C k) x y -> contains (recs C n ++ pad) (k * sizeblock g + x) y.
Proof.
  intros Hk (a & b & E & ->). rewrite (recs_split C n k Hk), E. exists (recs C k ++ a), (b ++ flat_map (rec C) (range (k + 1) n) ++ pad).
  rewrite <- !app_assoc. split; auto. rewrite app_length, Nat2Z.inj_add, recs_length by lia. reflexivity.
Qed.

(** Setting the coordinates of one permutation of one term. *)
Lemma write_one C n k v i s f p : 0 <= k < n -> look k M = Some v -> In i (order g) -> 0 < fl_n v i ->
  wr (recs C n) (k * sizeblock g + (off i + 5)) ([s mod 256] ++ le 2 f ++ le 5 p) =
  Some (recs (fun j x => if (Nat.eqb j i && (x =? k))%bool then (s, f, p) else C j x) n).
Proof.
  intros Hk Ev Hi Hn. set (C' := fun j x => if (Nat.eqb j i && (x =? k))%bool then (s, f, p) else C j x).
  destruct (rec_split C k v i Ev Hi) as (a & b & Ha & E & HC).
  assert (E' : rec C' k = a ++ fl_block (junk k i) (fl_n v i) s f p ++ b).
  { rewrite (HC C'). { unfold C'. rewrite Nat.eqb_refl, Z.eqb_refl. reflexivity. } intros j Hj. unfold C'. rewrite (proj2 (Nat.eqb_neq j i) Hj). reflexivity. }
  assert (Hx : forall x, x <> k -> rec C' x = rec C x).
  { intros x Hx. unfold rec. destruct (look x M); auto. f_equal. apply flat_map_ext. intros j. unfold C'. rewrite (proj2 (Z.eqb_neq x k) Hx), andb_false_r. reflexivity. }
  assert (Hr : forall l, ~ In k l -> flat_map (rec C') l = flat_map (rec C) l).
  { induction l as [|x l IH]; intros Hl; cbn [flat_map]; auto. rewrite IH, Hx; auto; [intros ->; apply Hl; now left|intros H; apply Hl; now right]. }
  rewrite (recs_split C' n k Hk), (recs_split C n k Hk), E, E'.
  assert (R1 : recs C' k = recs C k) by (apply Hr; rewrite range_In; lia).
  assert (R2 : flat_map (rec C') (range (k + 1) n) = flat_map (rec C) (range (k + 1) n)) by (apply Hr; rewrite range_In; lia).
  rewrite R1, R2.
  destruct (C i k) as [[s0 f0] p0]. unfold fl_block. rewrite (proj2 (Z.ltb_lt 0 (fl_n v i)) Hn).
  set (tail := flat_map (rec C) (range (k + 1) n)).
  transitivity (wr ((recs C k ++ a ++ le 5 (fl_n v i)) ++ ([s0 mod 256] ++ le 2 f0 ++ le 5 p0) ++ b ++ tail) (k * sizeblock g + (off i + 5)) ([s mod 256] ++ le 2 f ++ le 5 p)).
  { f_equal. now rewrite <- !app_assoc. }
  rewrite wr_mid.
  - f_equal. now rewrite <- !app_assoc.
  - rewrite !app_length, le_length, !Nat2Z.inj_add, recs_length by lia. lia.
  - reflexivity.
Qed.

(** ** Reading *)
Lemma onlyKey_zeros k i pad n C : look k M = None -> 0 <= k < n -> In i (order g) -> contains (recs C n ++ pad) (k * sizeblock g + off i) (le 5 0).
Proof.
  intros E Hk Hi. apply contains_in_rec; auto. unfold rec. rewrite E. unfold fl_onlyKey.
  assert (H : exists x y, (match g with Labelled => 78 | Directed => 26 | Undirected => 13 end = x + (5 + y))%nat /\ off i = 5 + Z.of_nat x).
  { destruct g; cbn [order In] in Hi; repeat (destruct Hi as [<- |Hi]; [|]); try destruct Hi; cbn [off].
    all: first [exists 0%nat; eexists; split; [|reflexivity]; cbn; try reflexivity | exists 13%nat; eexists; split; [|reflexivity]; cbn; try reflexivity
              | exists 26%nat; eexists; split; [|reflexivity]; cbn; try reflexivity | exists 39%nat; eexists; split; [|reflexivity]; cbn; try reflexivity
              | exists 52%nat; eexists; split; [|reflexivity]; cbn; try reflexivity | exists 65%nat; eexists; split; [|reflexivity]; cbn; try reflexivity]. }
  destruct H as (x & y & -> & ->). rewrite !repeat_app. exists (le 5 k ++ repeat 0 x), (repeat 0 y). rewrite <- !app_assoc. split; auto.
  rewrite app_length, le_length, repeat_length. lia.
Qed.

Definition fields (C : nat -> Z -> Z * Z * Z) (n : Z) : Prop := forall k v i, 0 <= k < n -> look k M = Some v -> In i (order g) ->
  0 <= fl_n v i < 2 ^ 40 /\ let '(s, f, p) := C i k in -128 <= s < 128 /\ 0 <= f < 2 ^ 15 /\ 0 <= p < 2 ^ 40.
Definition found (C : nat -> Z -> Z * Z * Z) (k : Z) (i : nat) : option coord :=
  match look k M with
  | Some v => if 0 <? fl_n v i then let '(s, f, p) := C i k in Some (mkCoord (fl_n v i) s f p) else None
  | None => None
  end.

Lemma off_bound i : In i (order g) -> off i + 13 <= sizeblock g.
Proof. intros Hi. destruct g; cbn [order In] in Hi; repeat (destruct Hi as [<- |Hi]; [|]); try destruct Hi; cbn; lia. Qed.

Lemma set_ok C n pad k i : 0 <= k < n -> fields C n -> 3 <= zlen pad -> In i (order g) ->
  fl_set (recs C n ++ pad) (k * sizeblock g + off i) = Some (found C k i).
Proof.
  intros Hk HF Hpad Hi. pose proof (off_bound i Hi) as Ho.
  assert (Hl : k * sizeblock g + off i + 16 <= zlen (recs C n ++ pad)).
  { rewrite app_length, Nat2Z.inj_add, recs_length by lia. assert ((k + 1) * sizeblock g <= n * sizeblock g) by (apply Z.mul_le_mono_nonneg_r; [destruct g; cbn; lia|lia]). lia. }
  unfold found. destruct (look k M) as [v|] eqn:Ev.
  - destruct (HF k v i Hk Ev Hi) as (Hn & Hc). pose proof (contains_in_rec C n k _ _ pad Hk (rec_contains C k v i Ev Hi)) as H.
    destruct (C i k) as [[s f] p]. rewrite (set_block _ _ _ _ _ _ _ H) by (auto; lia). reflexivity.
  - pose proof (onlyKey_zeros k i pad n C Ev Hk Hi) as H. unfold fl_set. destruct (rdle_masked _ _ 0 H) as (w & -> & Ew); [lia|]. cbv zeta. rewrite Ew. reflexivity.
Qed.

Lemma sets_ok C n pad k : 0 <= k < n -> fields C n -> 3 <= zlen pad ->
  forall l, incl l (order g) -> NoDup l -> forall v : tc, (forall i, In i l -> v i = None) -> exists u, fl_sets (recs C n ++ pad) (k * sizeblock g) (map (fun i => (i, off i)) l) v = Some u /\
    forall i, u i = if existsb (Nat.eqb i) l then found C k i else v i.
Proof.
  intros Hk HF Hpad. induction l as [|i l IH]; intros Hl HN v Hv; cbn [map fl_sets existsb]; [eauto|].
  rewrite (set_ok C n pad k i) by (auto; apply Hl; now left). inversion HN as [|? ? N1 N2]; subst.
  match goal with |- context [fl_sets _ _ _ ?x] => set (v1 := x) end.
  destruct (IH ltac:(intros x Hx; apply Hl; now right) N2 v1) as (u & -> & Hu).
  { intros j Hj. unfold v1. destruct (found C k i); [|apply Hv; now right]. unfold FileModel.upd. destruct (Nat.eqb_spec j i) as [-> |]; [contradiction|apply Hv; now right]. }
  exists u. split; auto. intros j. rewrite Hu. destruct (Nat.eqb_spec j i) as [-> |Hne]; cbn [orb].
  - destruct (existsb (Nat.eqb i) l) eqn:Ex. { apply existsb_exists in Ex. destruct Ex as (x & Hx & E). apply Nat.eqb_eq in E. subst x. contradiction. }
    unfold v1. destruct (found C k i). { unfold FileModel.upd. now rewrite Nat.eqb_refl. } apply Hv. now left.
  - destruct (existsb (Nat.eqb j) l); auto. unfold v1. destruct (found C k i); auto. unfold FileModel.upd. now rewrite (proj2 (Nat.eqb_neq j i) Hne).
Qed.

Lemma offsets_order : fl_offsets g = map (fun i => (i, off i)) (order g).
Proof. destruct g; reflexivity. Qed.
Lemma order_nodup : NoDup (order g).
Proof. destruct g; repeat constructor; cbn; lia. Qed.

Lemma sets_all C n pad k : 0 <= k < n -> fields C n -> 3 <= zlen pad ->
  exists u, fl_sets (recs C n ++ pad) (k * sizeblock g) (fl_offsets g) (fun _ => None) = Some u /\
    forall i, u i = if existsb (Nat.eqb i) (order g) then found C k i else None.
Proof.
  intros Hk HF Hpad. rewrite offsets_order. destruct (sets_ok C n pad k Hk HF Hpad (order g)) with (v := fun _ : nat => @None coord) as (u & E & Hu); auto using order_nodup.
  - intros x Hx. exact Hx.
  - exists u. auto.
Qed.
Lemma get_all C n pad k : 0 <= k < n -> fields C n -> 3 <= zlen pad ->
  exists u, fl_get g (recs C n) pad k = Some u /\ forall i, u i = if existsb (Nat.eqb i) (order g) then found C k i else None.
Proof. unfold fl_get. apply sets_all. Qed.

Lemma walk_all C n pad : fields C n -> 3 <= zlen pad -> forall m k, (Z.to_nat (n - k) <= m)%nat -> 0 <= k <= n ->
  exists l, fl_walk m g (recs C n) pad (k * sizeblock g) k = Some l /\ map fst l = range k n /\ forall j v, In (j, v) l -> fl_get g (recs C n) pad j = Some v.
Proof.
  intros HF Hpad. assert (Hs : 0 < sizeblock g) by (destruct g; reflexivity).
  induction m as [|m IH]; intros k Hm Hk.
  - assert (k = n) by lia. subst k. exists []. cbn [fl_walk]. unfold FileModel.zlen. rewrite recs_length by lia. rewrite Z.ltb_irrefl. rewrite range_nil by lia. repeat split; auto. intros j v [].
  - cbn [fl_walk]. unfold FileModel.zlen. rewrite recs_length by lia. destruct (Z.eq_dec k n) as [-> |Hne].
    + rewrite Z.ltb_irrefl, range_nil by lia. exists []. repeat split; auto. intros j v [].
    + rewrite (proj2 (Z.ltb_lt _ _)) by (apply Z.mul_lt_mono_pos_r; lia). destruct (sets_all C n pad k ltac:(lia) HF Hpad) as (u & E & Hu). rewrite E.
      destruct (IH (k + 1) ltac:(lia) ltac:(lia)) as (l & El & Hl & Hg). replace (k * sizeblock g + sizeblock g) with ((k + 1) * sizeblock g) by lia. rewrite El.
      eexists. split; [reflexivity|]. rewrite (range_cons k n) by lia. cbn [map fst]. rewrite Hl. split; auto. intros j v [Ej|Hj]; auto. injection Ej as <- <-. exact E.
Qed.
End Records.
