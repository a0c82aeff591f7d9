(** Proofs about the keys of one node of the B+tree. *)
From Coq Require Import Sorting.Sorted ZifyBool.
From Verif Require Export TreeModel.
Local Open Scope Z_scope.

Notation incr := (StronglySorted Z.lt).

Definition from (a : Z) (s : nat) : list Z := map (fun i => a + Z.of_nat i) (seq 0 s).

(** The keys [ks] of a node. *)
Definition KN (n : kn) (ks : list Z) : Prop :=
  kn_size n = length ks /\
  if kn_cons n then kn_step n = 1 /\ ks = from (kn_first n) (kn_size n)
  else length (kn_keys n) = (kn_size n - 1)%nat /\ (ks <> [] -> ks = kn_first n :: map (Z.add (kn_first n)) (kn_keys n)).

Definition below (k : Z) (ks : list Z) : nat := length (filter (fun x => x <? k) ks).

Lemma from_length a s : length (from a s) = s.
Proof. unfold from. now rewrite map_length, seq_length. Qed.

Lemma from_nth a s i : (i < s)%nat -> nth_error (from a s) i = Some (a + Z.of_nat i).
Proof.
  intros H. unfold from. rewrite nth_error_map.
  rewrite (nth_error_nth' _ 0%nat) by (rewrite seq_length; lia). rewrite seq_nth by lia. reflexivity.
Qed.

Lemma from_S a s : from a (S s) = a :: from (a + 1) s.
Proof.
  unfold from. cbn [seq map]. f_equal; [lia|]. rewrite <- seq_shift, map_map. apply map_ext. intros; lia.
Qed.

Lemma from_app a s t : from a (s + t) = from a s ++ from (a + Z.of_nat s) t.
Proof.
  revert a. induction s as [|s IH]; intros a; cbn [Nat.add app].
  - replace (a + Z.of_nat 0) with a by lia. reflexivity.
  - rewrite !from_S. cbn [app]. rewrite IH. do 3 f_equal. lia.
Qed.

Lemma from_firstn a s k : (k <= s)%nat -> firstn k (from a s) = from a k.
Proof.
  intros H. replace s with (k + (s - k))%nat by lia. rewrite from_app.
  rewrite firstn_app, from_length, Nat.sub_diag. cbn [firstn]. rewrite app_nil_r.
  apply firstn_all2. rewrite from_length. lia.
Qed.

Lemma from_skipn a s k : (k <= s)%nat -> skipn k (from a s) = from (a + Z.of_nat k) (s - k).
Proof.
  intros H. replace s with (k + (s - k))%nat at 1 by lia. rewrite from_app.
  rewrite skipn_app, from_length, Nat.sub_diag. rewrite skipn_all2 by (rewrite from_length; lia). reflexivity.
Qed.

Lemma upto_from n : upto n = from 1 n.
Proof. unfold upto, from. rewrite <- seq_shift, map_map. apply map_ext. intros; lia. Qed.

Lemma from_shift c a s : map (Z.add c) (from a s) = from (c + a) s.
Proof. unfold from. rewrite map_map. apply map_ext. intros; lia. Qed.

Lemma incr_from a s : incr (from a s).
Proof.
  revert a. induction s as [|s IH]; intros a; [constructor|]. rewrite from_S. constructor; [apply IH|].
  apply Forall_forall. intros x Hx. unfold from in Hx. apply in_map_iff in Hx as (i & <- & _). lia.
Qed.

(** *** Increasing lists. *)
Lemma incr_nth l : incr l -> forall i j a b, (i < j)%nat -> nth_error l i = Some a -> nth_error l j = Some b -> a < b.
Proof.
  induction 1 as [|x l Hs IH Hf]; intros i j a b Hij Hi Hj; [now destruct i|].
  destruct j as [|j]; [lia|]. destruct i as [|i]; cbn in *.
  - injection Hi as <-. rewrite Forall_forall in Hf. apply Hf. eapply nth_error_In; eauto.
  - apply (IH i j); auto. lia.
Qed.

Lemma incr_app l1 l2 : incr (l1 ++ l2) <-> incr l1 /\ incr l2 /\ (forall x y, In x l1 -> In y l2 -> x < y).
Proof.
  induction l1 as [|a l1 IH]; cbn [app].
  - split; [intros H; repeat split; auto; [constructor|intros ? ? []]|now intros (_ & H & _)].
  - split.
    + intros H. inversion H as [|? ? Hs Hf]; subst. apply IH in Hs as (H1 & H2 & H3).
      rewrite Forall_forall in Hf. repeat split; auto.
      * constructor; auto. apply Forall_forall. intros x Hx. apply Hf. apply in_or_app; auto.
      * intros x y [<-|Hx] Hy; [apply Hf; apply in_or_app; auto|auto].
    + intros (H1 & H2 & H3). inversion H1 as [|? ? Hs Hf]; subst. constructor.
      * apply IH. repeat split; auto. intros; apply H3; auto. now right.
      * rewrite Forall_forall in *. intros x Hx. apply in_app_or in Hx as [Hx|Hx]; auto. apply H3; auto. now left.
Qed.

Lemma incr_cons x l : incr (x :: l) <-> incr l /\ (forall y, In y l -> x < y).
Proof.
  split; [intros H; inversion H as [|? ? Hs Hf]; subst; rewrite Forall_forall in Hf; auto|].
  intros (H & Hf). constructor; auto. now apply Forall_forall.
Qed.

Lemma below_le k l : (below k l <= length l)%nat.
Proof. unfold below. induction l as [|a l IH]; cbn; [lia|]. destruct (a <? k); cbn; lia. Qed.

Lemma below_app k l1 l2 : below k (l1 ++ l2) = (below k l1 + below k l2)%nat.
Proof. unfold below. now rewrite filter_app, app_length. Qed.

Lemma below_all k l : (forall x, In x l -> x < k) -> below k l = length l.
Proof.
  unfold below. induction l as [|a l IH]; intros H; cbn; [reflexivity|].
  destruct (Z.ltb_spec a k) as [_|Ha]; cbn; [f_equal; apply IH; intros; apply H; now right|].
  specialize (H a (or_introl eq_refl)). lia.
Qed.

Lemma below_none k l : (forall x, In x l -> k <= x) -> below k l = 0%nat.
Proof.
  unfold below. induction l as [|a l IH]; intros H; cbn; [reflexivity|].
  destruct (Z.ltb_spec a k) as [Ha|_]; cbn; [specialize (H a (or_introl eq_refl)); lia|].
  apply IH; intros; apply H; now right.
Qed.

(** The list splits at [below]. *)
Lemma below_split k l : incr l ->
  (forall x, In x (firstn (below k l) l) -> x < k) /\ (forall x, In x (skipn (below k l) l) -> k <= x).
Proof.
  induction l as [|a l IH]; intros H; [split; intros x []|].
  apply incr_cons in H as (Hs & Hf). destruct (IH Hs) as (I1 & I2).
  unfold below in *. cbn [filter]. destruct (Z.ltb_spec a k) as [Ha|Ha]; cbn [length firstn skipn].
  - split; [intros x [<-|Hx]; auto|auto].
  - assert (E : filter (fun x => x <? k) l = []).
    { apply length_zero_iff_nil. apply below_none. intros x Hx. specialize (Hf x Hx). lia. }
    rewrite E. cbn. split; [intros x []|]. intros x [<-|Hx]; auto. specialize (Hf x Hx). lia.
Qed.

Lemma below_unique k l p : incr l -> (p <= length l)%nat ->
  (forall x, In x (firstn p l) -> x < k) -> (forall x, In x (skipn p l) -> k <= x) -> below k l = p.
Proof.
  intros Hs Hp H1 H2. rewrite <- (firstn_skipn p l) at 1. rewrite below_app, below_all, below_none by auto.
  rewrite firstn_length. lia.
Qed.

Lemma in_skipn_nth {A} (l : list A) p x : In x (skipn p l) <-> exists i, (p <= i)%nat /\ nth_error l i = Some x.
Proof.
  split.
  - intros H. apply In_nth_error in H as (i & Hi). rewrite nth_error_skipn in Hi || idtac.
    exists (p + i)%nat. split; [lia|]. rewrite <- (firstn_skipn p l). 
    destruct (Nat.le_gt_cases (length l) p) as [Hl|Hl].
    + rewrite skipn_all2 in Hi by lia. now destruct i.
    + rewrite nth_error_app2; rewrite firstn_length; [|lia]. replace (p + i - Nat.min p (length l))%nat with i by lia. exact Hi.
  - intros (i & Hp & Hi). assert (Hl : (i < length l)%nat) by (apply nth_error_Some; congruence).
    rewrite <- (firstn_skipn p l) in Hi. rewrite nth_error_app2 in Hi; rewrite firstn_length in *; [|lia].
    eapply nth_error_In; eauto.
Qed.

Lemma in_firstn_nth {A} (l : list A) p x : In x (firstn p l) <-> exists i, (i < p)%nat /\ nth_error l i = Some x.
Proof.
  split.
  - intros H. apply In_nth_error in H as (i & Hi).
    assert (Hl : (i < length (firstn p l))%nat) by (apply nth_error_Some; congruence). rewrite firstn_length in Hl.
    exists i. split; [lia|]. rewrite <- (firstn_skipn p l). rewrite nth_error_app1; auto. rewrite firstn_length; lia.
  - intros (i & Hp & Hi). assert (Hl : (i < length l)%nat) by (apply nth_error_Some; congruence).
    rewrite <- (firstn_skipn p l) in Hi. rewrite nth_error_app1 in Hi; [|rewrite firstn_length; lia].
    eapply nth_error_In; eauto.
Qed.

(** Below by indices. *)
Lemma below_index k l p : incr l -> (p <= length l)%nat ->
  (forall i x, (i < p)%nat -> nth_error l i = Some x -> x < k) ->
  (forall i x, (p <= i)%nat -> nth_error l i = Some x -> k <= x) -> below k l = p.
Proof.
  intros Hs Hp H1 H2. apply below_unique; auto.
  - intros x Hx. apply in_firstn_nth in Hx as (i & Hi & E). eauto.
  - intros x Hx. apply in_skipn_nth in Hx as (i & Hi & E). eauto.
Qed.

Lemma in_below k l : incr l -> In k l -> nth_error l (below k l) = Some k.
Proof.
  intros Hs Hk. destruct (below_split k l Hs) as (H1 & H2).
  rewrite <- (firstn_skipn (below k l) l) in Hk. apply in_app_or in Hk as [Hk|Hk]; [specialize (H1 _ Hk); lia|].
  destruct (skipn (below k l) l) as [|x r] eqn:E; [destruct Hk|].
  assert (Hx : nth_error l (below k l) = Some x).
  { rewrite <- (firstn_skipn (below k l) l) at 1. pose proof (below_le k l).
    rewrite nth_error_app2; rewrite firstn_length; [|lia]. rewrite Nat.min_l, Nat.sub_diag, E by lia. reflexivity. }
  rewrite Hx. f_equal. assert (Hsk : incr (x :: r)).
  { rewrite <- E. rewrite <- (firstn_skipn (below k l) l) in Hs. now apply incr_app in Hs. }
  apply incr_cons in Hsk as (_ & Hf). pose proof (H2 x (or_introl eq_refl)). destruct Hk as [->|Hk]; auto.
  specialize (Hf _ Hk). lia.
Qed.

(** *** The keys of a node. *)
Lemma KN_new : KN kn_new [].
Proof. split; cbn; auto. Qed.

Lemma KN_cons n ks : KN n ks -> kn_cons n = false -> ks <> [] ->
  forall i x, nth_error ks (S i) = Some x -> nth_error (kn_keys n) i = Some (x - kn_first n).
Proof.
  intros (H1 & H2) Hc Hn i x Hi. rewrite Hc in H2. destruct H2 as (_ & H2). rewrite (H2 Hn) in Hi. cbn in Hi.
  rewrite nth_error_map in Hi. destruct (nth_error (kn_keys n) i) as [y|]; cbn in Hi; [|discriminate].
  injection Hi as <-. f_equal. lia.
Qed.

Lemma KN_first n ks x r : KN n ks -> ks = x :: r -> kn_first n = x.
Proof.
  intros (H1 & H2) ->. cbn in H1. destruct (kn_cons n).
  - destruct H2 as (_ & H2). rewrite H1, from_S in H2. congruence.
  - destruct H2 as (_ & H2). specialize (H2 ltac:(discriminate)). congruence.
Qed.

Lemma KN_at n ks i x : KN n ks -> kn_cons n = false -> nth_error ks (S i) = Some x -> kn_at n (Z.of_nat i) = x - kn_first n.
Proof.
  intros H Hc Hi. unfold kn_at. rewrite Nat2Z.id. apply nth_error_nth.
  apply (KN_cons n ks); auto. intros ->. now destruct i.
Qed.

Lemma KN_keyAt n ks i x : KN n ks -> nth_error ks i = Some x -> kn_keyAt n i = x.
Proof.
  intros H Hi. pose proof H as (H1 & H2). unfold kn_keyAt. destruct (kn_cons n) eqn:Hc.
  - destruct H2 as (Hst & H2). rewrite Hst.
    assert (Hl : (i < length ks)%nat) by (apply nth_error_Some; congruence).
    rewrite H2, from_nth in Hi by lia. injection Hi as <-. lia.
  - destruct ks as [|y r]; [now destruct i|]. destruct i as [|i].
    + injection Hi as <-. eapply KN_first; eauto.
    + rewrite (nth_error_nth _ _ _ (KN_cons n _ H Hc ltac:(discriminate) i x Hi)). lia.
Qed.

Lemma search_ok n ks k : KN n ks -> kn_cons n = false -> incr ks -> forall fuel low high,
  0 <= low -> low <= high + 1 -> high + 2 < Z.of_nat (length ks) ->
  (high + 2 - low <= Z.of_nat fuel) ->
  (forall i x, Z.of_nat i < low + 1 -> nth_error ks i = Some x -> x < k) ->
  (forall i x, high + 1 < Z.of_nat i -> nth_error ks i = Some x -> k < x) ->
  kn_search fuel n (k - kn_first n) low high =
    (if existsb (Z.eqb k) ks then Z.of_nat (below k ks) else - Z.of_nat (below k ks) - 1).
Proof.
  intros HK Hc Hs. 
  assert (Hend : forall low, 0 <= low -> low + 1 < Z.of_nat (length ks) ->
    (forall i x, Z.of_nat i < low + 1 -> nth_error ks i = Some x -> x < k) ->
    (forall i x, low < Z.of_nat i -> nth_error ks i = Some x -> k < x) ->
    -(low + 2) = if existsb (Z.eqb k) ks then Z.of_nat (below k ks) else - Z.of_nat (below k ks) - 1).
  { intros low H0 Hl H1 H2.
    assert (Eb : below k ks = Z.to_nat (low + 1)).
    { apply below_index; auto; [lia| |].
      - intros i x Hi E. apply (H1 i x); auto. lia.
      - intros i x Hi E. enough (k < x) by lia. apply (H2 i x); auto. lia. }
    destruct (existsb (Z.eqb k) ks) eqn:Ee.
    - apply existsb_exists in Ee as (y & Hy & E). apply Z.eqb_eq in E as <-.
      pose proof (in_below k ks Hs Hy) as E. specialize (H2 (below k ks) k). rewrite Eb in H2, E. specialize (H2 ltac:(lia) E). lia.
    - rewrite Eb. lia. }
  induction fuel as [|f IH]; intros low high H0 Hlh Hh Hf H1 H2.
  - cbn [kn_search]. apply Hend; auto; [lia|]. intros i x Hi. apply H2. lia.
  - cbn [kn_search]. destruct (Z.leb_spec low high) as [Hle|Hle].
    2:{ apply Hend; auto; [lia|]. intros i x Hi. apply H2. lia. }
    set (mid := (low + high) / 2). assert (Hm : low <= mid <= high) by (subst mid; split; [apply Z.div_le_lower_bound|apply Z.div_le_upper_bound]; lia).
    destruct (nth_error ks (S (Z.to_nat mid))) as [x|] eqn:Ex.
    2:{ apply nth_error_None in Ex. lia. }
    pose proof (KN_at n ks (Z.to_nat mid) x HK Hc Ex) as Ea. rewrite Z2Nat.id in Ea by lia. rewrite Ea.
    destruct (Z.ltb_spec (x - kn_first n) (k - kn_first n)) as [Hx|Hx].
    + apply IH; auto; try lia. intros i y Hi E.
      destruct (Nat.eq_dec i (S (Z.to_nat mid))) as [->|]; [rewrite Ex in E; injection E as <-; lia|].
      pose proof (incr_nth ks Hs i (S (Z.to_nat mid)) y x ltac:(lia) E Ex). lia.
    + destruct (Z.ltb_spec (k - kn_first n) (x - kn_first n)) as [Hx2|Hx2].
      * apply IH; auto; try lia. intros i y Hi E.
        destruct (Nat.eq_dec i (S (Z.to_nat mid))) as [->|]; [rewrite Ex in E; injection E as <-; lia|].
        pose proof (incr_nth ks Hs (S (Z.to_nat mid)) i x y ltac:(lia) Ex E). lia.
      * assert (x = k) by lia. subst x.
        assert (Ee : existsb (Z.eqb k) ks = true).
        { apply existsb_exists. exists k. split; [eapply nth_error_In; eauto|apply Z.eqb_refl]. }
        rewrite Ee. 
        assert (Eb : below k ks = S (Z.to_nat mid)).
        { apply below_index; auto; [lia| |].
          - intros i y Hi E. apply (incr_nth ks Hs i (S (Z.to_nat mid))); auto.
          - intros i y Hi E. destruct (Nat.eq_dec i (S (Z.to_nat mid))) as [->|]; [rewrite Ex in E; injection E as <-; lia|].
            pose proof (incr_nth ks Hs (S (Z.to_nat mid)) i k y ltac:(lia) Ex E). lia. }
        rewrite Eb. lia.
Qed.

(** Node::pos. *)
Lemma pos_ok n ks k : KN n ks -> incr ks ->
  kn_pos n k = (if existsb (Z.eqb k) ks then Z.of_nat (below k ks) else - Z.of_nat (below k ks) - 1).
Proof.
  intros HK Hs. pose proof HK as (H1 & H2). unfold kn_pos.
  assert (Hno : forall l, (forall x, In x l -> x <> k) -> existsb (Z.eqb k) l = false).
  { intros l Hl. destruct (existsb (Z.eqb k) l) eqn:Ee; auto. apply existsb_exists in Ee as (y & Hy & E).
    apply Z.eqb_eq in E as <-. now specialize (Hl k Hy). }
  assert (Hyes : forall l, In k l -> existsb (Z.eqb k) l = true).
  { intros l Hl. apply existsb_exists. exists k. split; auto. apply Z.eqb_refl. }
  destruct ks as [|x0 r]; [rewrite H1; reflexivity|].
  pose proof (KN_first n _ x0 r HK eq_refl) as Hf. pose proof Hs as Hs0. apply incr_cons in Hs0 as (_ & Hx0).
  rewrite H1. cbn [length]. replace (Z.of_nat (S (length r)) =? 0) with false by lia. cbn [orb].
  destruct (Z.ltb_spec k (kn_first n)) as [Hlt|Hge].
  { assert (Hall : forall x, In x (x0 :: r) -> k < x) by (intros x [<-|Hx]; [lia|specialize (Hx0 x Hx); lia]).
    rewrite Hno by (intros x Hx; specialize (Hall x Hx); lia).
    rewrite below_none by (intros x Hx; specialize (Hall x Hx); lia). reflexivity. }
  destruct (kn_cons n) eqn:Hc.
  - destruct H2 as (-> & H2). rewrite Z.mul_1_r. cbn [Z.ltb Z.compare Pos.compare Pos.compare_cont].
    rewrite H1 in H2. cbn [length] in H2. set (s := S (length r)) in *.
    destruct (Z.ltb_spec (k - kn_first n) (Z.of_nat s)) as [Hd|Hd].
    + assert (Ek : nth_error (x0 :: r) (Z.to_nat (k - kn_first n)) = Some k).
      { rewrite H2, from_nth by lia. f_equal. lia. }
      rewrite Hyes by (eapply nth_error_In; eauto).
      assert (Eb : below k (x0 :: r) = Z.to_nat (k - kn_first n)).
      { apply below_index; auto.
        - cbn [length]. fold s. lia.
        - intros i x Hi E. apply (incr_nth _ Hs i (Z.to_nat (k - kn_first n))); auto.
        - intros i x Hi E. destruct (Nat.eq_dec i (Z.to_nat (k - kn_first n))) as [->|]; [rewrite Ek in E; injection E as <-; lia|].
          pose proof (incr_nth _ Hs (Z.to_nat (k - kn_first n)) i k x ltac:(lia) Ek E). lia. }
      rewrite Eb. lia.
    + assert (Hall : forall x, In x (x0 :: r) -> x < k).
      { rewrite H2. intros x Hx. unfold from in Hx. apply in_map_iff in Hx as (i & <- & Hi). apply in_seq in Hi. lia. }
      rewrite Hno by (intros x Hx; specialize (Hall x Hx); lia). rewrite below_all by auto. cbn [length]. fold s. lia.
  - destruct (Z.eqb_spec (k - kn_first n) 0) as [E0|E0].
    { assert (k = x0) by lia. subst x0. rewrite Hyes by now left. rewrite below_none; [reflexivity|].
      intros x [<-|Hx]; [lia|specialize (Hx0 x Hx); lia]. }
    destruct r as [|x1 r].
    { cbn. unfold below. cbn. replace (x0 <? k) with true by lia. replace (k =? x0) with false by lia. reflexivity. }
    replace (Z.of_nat (S (length (x1 :: r))) =? 1) with false by (cbn [length]; lia).
    destruct (nth_error (x0 :: x1 :: r) (S (length r))) as [z|] eqn:Ez.
    2:{ apply nth_error_None in Ez. cbn in Ez. lia. }
    pose proof (KN_at n _ (length r) z HK Hc Ez) as Ea.
    replace (Z.of_nat (S (length (x1 :: r))) - 2) with (Z.of_nat (length r)) by (cbn [length]; lia). rewrite Ea.
    destruct (Z.eqb_spec (k - kn_first n) (z - kn_first n)) as [Ek|Ek].
    { assert (k = z) by lia. subst z. rewrite Hyes by (eapply nth_error_In; eauto).
      assert (Eb : below k (x0 :: x1 :: r) = S (length r)).
      { apply below_index; auto; [cbn; lia| |].
        - intros i x Hi E. apply (incr_nth _ Hs i (S (length r))); auto.
        - intros i x Hi E. assert (i < length (x0 :: x1 :: r))%nat by (apply nth_error_Some; congruence). cbn in H.
          replace i with (S (length r)) in E by lia. rewrite Ez in E. injection E as <-. lia. }
      rewrite Eb. cbn [length]. lia. }
    destruct (Z.ltb_spec (z - kn_first n) (k - kn_first n)) as [Hz|Hz].
    { assert (Hall : forall x, In x (x0 :: x1 :: r) -> x < k).
      { intros x Hx. apply In_nth_error in Hx as (i & Hi).
        assert (i < length (x0 :: x1 :: r))%nat by (apply nth_error_Some; congruence). cbn in H.
        destruct (Nat.eq_dec i (S (length r))) as [->|]; [rewrite Ez in Hi; injection Hi as <-; lia|].
        pose proof (incr_nth _ Hs i (S (length r)) x z ltac:(lia) Hi Ez). lia. }
      rewrite Hno by (intros x Hx; specialize (Hall x Hx); lia). rewrite below_all by auto. cbn [length]. lia. }
    replace (Z.of_nat (S (length (x1 :: r))) - 3) with (Z.of_nat (length r) - 1) by (cbn [length]; lia).
    apply (search_ok n _ k HK Hc Hs); try (cbn [length]; lia).
    + intros i x Hi E. assert (i = 0%nat) by lia. subst i. injection E as <-. lia.
    + intros i x Hi E. assert (i < length (x0 :: x1 :: r))%nat by (apply nth_error_Some; congruence). cbn in H.
      replace i with (S (length r)) in E by lia. rewrite Ez in E. injection E as <-. lia.
Qed.

Lemma child_ok n ks k : KN n ks -> incr ks -> kn_child n k = below k ks.
Proof.
  intros HK Hs. unfold kn_child. rewrite (pos_ok n ks) by auto.
  destruct (existsb (Z.eqb k) ks).
  - replace (Z.of_nat (below k ks) <? 0) with false by lia. lia.
  - replace (- Z.of_nat (below k ks) - 1 <? 0) with true by lia. lia.
Qed.

Lemma largest_ok n ks x r : KN n ks -> ks = r ++ [x] -> kn_largest n = x.
Proof.
  intros HK E. pose proof HK as (H1 & H2). unfold kn_largest. rewrite H1.
  assert (El : length ks = S (length r)) by (rewrite E, app_length; cbn; lia). rewrite El.
  assert (Ex : nth_error ks (length r) = Some x) by (rewrite E, nth_error_app2, Nat.sub_diag by lia; reflexivity).
  destruct (Nat.eqb_spec (S (length r)) 1) as [Hl|Hl].
  - destruct r; [|cbn in Hl; lia]. eapply KN_first; eauto.
  - pose proof (KN_keyAt n ks (length r) x HK Ex) as Hk. unfold kn_keyAt in Hk.
    destruct (kn_cons n) eqn:Hc; [rewrite <- Hk; f_equal; f_equal; lia|].
    destruct (length r) as [|m] eqn:Em; [lia|]. rewrite <- Hk. f_equal. unfold kn_at. f_equal. lia.
Qed.

(** Node::putkeyAt. *)
Lemma put_ok n ks k p : KN n ks -> (p <= length ks)%nat -> incr (ins_at p k ks) -> KN (kn_put n k p) (ins_at p k ks).
Proof.
  intros HK Hp Hs. pose proof HK as (H1 & H2). unfold kn_put. rewrite H1.
  assert (Hlen : length (ins_at p k ks) = S (length ks)).
  { unfold ins_at. rewrite app_length, firstn_length. cbn [length]. rewrite skipn_length. lia. }
  destruct (Nat.eqb_spec p 0) as [->|Hp0].
  - cbn [ins_at firstn skipn app] in *. destruct ks as [|x r].
    + cbn [length Nat.eqb]. split; cbn; [reflexivity|]. cbn in H1. rewrite H1 in H2. destruct (kn_cons n).
      * destruct H2 as (H2 & _). split; auto. unfold from. cbn. now rewrite Z.add_0_r.
      * destruct H2 as (H2 & _). cbn in H2. split; [exact H2|]. intros _. destruct (kn_keys n); [reflexivity|discriminate].
    + replace (length (x :: r) =? 0)%nat with false by reflexivity.
      pose proof (KN_first n _ x r HK eq_refl) as Hf.
      destruct (kn_cons n) eqn:Hc.
      * destruct H2 as (H3 & H2). split; cbn [kn_size kn_cons kn_keys kn_first length]; [reflexivity|].
        rewrite upto_from. split; [cbn [length]; rewrite map_length, from_length; lia|]. intros _. f_equal.
        rewrite H1 in H2. cbn [length] in *. rewrite H2, from_S. cbn [map]. f_equal; [lia|].
        rewrite Nat.sub_succ, Nat.sub_0_r. rewrite !from_shift. f_equal. lia.
      * destruct H2 as (H3 & H2). split; cbn [kn_size kn_cons kn_keys kn_first length]; [reflexivity|].
        split; [cbn [length]; rewrite map_length, H3, H1; cbn [length]; lia|]. intros _. f_equal.
        rewrite (H2 ltac:(discriminate)) at 1. cbn [map]. f_equal; [lia|]. rewrite map_map. apply map_ext. intros; lia.
  - destruct ks as [|x r]; [cbn in Hp; lia|]. pose proof (KN_first n _ x r HK eq_refl) as Hf.
    destruct (kn_cons n) eqn:Hc.
    + destruct H2 as (H3 & H2). rewrite H1 in H2.
      (* a key strictly between two neighbours does not exist *)
      assert (Ep : p = length (x :: r)).
      { destruct (Nat.eq_dec p (length (x :: r))) as [|Hne]; auto. exfalso.
        rewrite H2 in Hs. unfold ins_at in Hs. rewrite from_firstn, from_skipn in Hs by lia.
        replace p with (S (p - 1)) in Hs at 1 by lia. replace (S (p - 1)) with (p - 1 + 1)%nat in Hs by lia.
        rewrite from_app in Hs. replace (length (x :: r) - p)%nat with (S (length (x :: r) - p - 1)) in Hs by lia.
        rewrite from_S in Hs. apply incr_app in Hs as (_ & Hs2 & Hs3). apply incr_cons in Hs2 as (_ & Hs2).
        specialize (Hs2 _ (or_introl eq_refl)).
        specialize (Hs3 (kn_first n + Z.of_nat (p - 1)) k). 
        assert (kn_first n + Z.of_nat (p - 1) < k).
        { apply Hs3; [apply in_or_app; right; left; cbn; lia|now left]. }
        lia. }
      subst p. rewrite skipn_all2 by (rewrite upto_from, from_length; lia).
      rewrite firstn_all2 by (rewrite upto_from, from_length; lia).
      unfold ins_at in *. rewrite firstn_all, skipn_all in *. rewrite upto_from.
      set (s := length (x :: r)) in *.
      destruct (Z.eqb_spec (Z.of_nat s) (k - kn_first n)) as [Ed|Ed]; cbn [negb].
      * split; cbn [kn_size kn_cons kn_step kn_first]; [rewrite Hlen; reflexivity|]. split; auto.
        replace (S s) with (s + 1)%nat by lia. rewrite from_app, <- H2. f_equal. unfold from. cbn [seq map]. f_equal. change (Z.of_nat 0) with 0. rewrite Ed. lia.
      * split; cbn [kn_size kn_cons kn_step kn_first kn_keys]; [rewrite Hlen; reflexivity|].
        split; [rewrite app_length, from_length; cbn; lia|]. intros _. rewrite app_nil_r. rewrite map_app, from_shift.
        rewrite H2 at 1. unfold s. cbn [length]. rewrite from_S. cbn [app map]. f_equal. f_equal; [f_equal; lia|]. f_equal. lia.
    + destruct H2 as (H3 & H2). specialize (H2 ltac:(discriminate)).
      split; cbn [kn_size kn_cons kn_step kn_first kn_keys]; [rewrite Hlen; reflexivity|].
      rewrite H1 in H3. cbn [length] in *.
      split. { rewrite !app_length, firstn_length, skipn_length. cbn [length]. lia. }
      intros _. unfold ins_at. rewrite H2. destruct p as [|p]; [lia|]. cbn [firstn skipn app]. rewrite Nat.sub_succ, Nat.sub_0_r.
      f_equal. rewrite !map_app. cbn [map]. rewrite firstn_map, skipn_map. f_equal. f_equal. lia.
Qed.

(** Node::split of a full node. *)
Lemma split_ok mn n ks : KN n ks -> incr ks -> (1 <= mn)%nat -> length ks = (mn + mn)%nat ->
  KN (fst (kn_split (mn + mn) n kn_new)) (firstn mn ks) /\ KN (snd (kn_split (mn + mn) n kn_new)) (skipn mn ks).
Proof.
  intros HK Hs Hm Hl. pose proof HK as (H1 & H2). unfold kn_split.
  replace (Nat.div2 (mn + mn)) with mn by (replace (mn + mn)%nat with (2 * mn)%nat by lia; now rewrite Nat.div2_double).
  assert (L1 : length (firstn mn ks) = mn) by (rewrite firstn_length; lia).
  assert (L2 : length (skipn mn ks) = mn) by (rewrite skipn_length; lia).
  assert (Hn : ks <> []) by (destruct ks; [cbn in Hl; lia|discriminate]).
  destruct (kn_cons n) eqn:Hc.
  - destruct H2 as (H3 & H2). cbn [fst snd]. split; (split; cbn [kn_size kn_cons kn_step kn_first kn_keys]; [lia|]).
    + split; auto. rewrite H2, from_firstn by lia. reflexivity.
    + split; [reflexivity|]. rewrite H2, from_skipn by lia. f_equal. lia.
  - destruct H2 as (H3 & H2). specialize (H2 Hn).
    assert (HL : KN (mkKn (kn_first n) (firstn (mn - 1) (kn_keys n)) false (kn_step n) mn) (firstn mn ks)).
    { split; cbn [kn_size kn_cons kn_step kn_first kn_keys]; [lia|]. split; [rewrite firstn_length; lia|]. intros _.
      rewrite H2. destruct mn as [|m]; [lia|]. cbn [firstn]. rewrite Nat.sub_succ, Nat.sub_0_r, firstn_map. reflexivity. }
    destruct (nth_error ks mn) as [y|] eqn:Ey; [|apply nth_error_None in Ey; lia].
    destruct (nth_error ks (mn + mn - 1)) as [z|] eqn:Ez; [|apply nth_error_None in Ez; lia].
    pose proof (KN_at n ks (mn - 1) y HK Hc ltac:(replace (S (mn - 1)) with mn by lia; exact Ey)) as Ea.
    replace (Z.of_nat (mn - 1)) with (Z.of_nat mn - 1) in Ea by lia. rewrite Ea.
    pose proof (KN_at n ks (mn + mn - 2) z HK Hc ltac:(replace (S (mn + mn - 2)) with (mn + mn - 1)%nat by lia; exact Ez)) as Eb.
    replace (Z.of_nat (mn + mn - 2)) with (Z.of_nat (mn + mn) - 2) in Eb by lia. rewrite Eb.
    assert (Hnth : forall i, nth_error (skipn mn ks) i = nth_error ks (mn + i)).
    { intros i. rewrite <- (firstn_skipn mn ks) at 2. rewrite nth_error_app2 by lia. f_equal. lia. }
    destruct (Z.eqb_spec (z - kn_first n - (y - kn_first n) + 1) (Z.of_nat mn)) as [E|E]; cbn [fst snd]; (split; [exact HL|]).
    + split; cbn [kn_size kn_cons kn_step kn_first kn_keys]; [lia|]. split; [reflexivity|].
      replace (kn_first n + (y - kn_first n)) with y by lia.
      (* strictly increasing integers with this span are consecutive *)
      assert (Hlow : forall i x, nth_error ks (mn + i) = Some x -> y + Z.of_nat i <= x).
      { induction i as [|i IH]; intros x Hx; [rewrite Nat.add_0_r, Ey in Hx; injection Hx as <-; lia|].
        destruct (nth_error ks (mn + i)) as [w|] eqn:Ew.
        - specialize (IH w eq_refl). pose proof (incr_nth ks Hs (mn + i) (mn + S i) w x ltac:(lia) Ew Hx). lia.
        - apply nth_error_None in Ew. assert (mn + S i < length ks)%nat by (apply nth_error_Some; congruence). lia. }
      assert (Hhigh : forall d x, (d < mn)%nat -> nth_error ks (mn + mn - 1 - d) = Some x -> x <= z - Z.of_nat d).
      { induction d as [|d IH]; intros x Hd Hx; [rewrite Nat.sub_0_r, Ez in Hx; injection Hx as <-; lia|].
        destruct (nth_error ks (mn + mn - 1 - d)) as [w|] eqn:Ew.
        - specialize (IH w ltac:(lia) eq_refl). pose proof (incr_nth ks Hs (mn + mn - 1 - S d) (mn + mn - 1 - d) x w ltac:(lia) Hx Ew). lia.
        - apply nth_error_None in Ew. lia. }
      apply nth_ext with (d := 0) (d' := 0); [rewrite from_length; lia|]. intros i Hi. rewrite L2 in Hi.
      destruct (nth_error ks (mn + i)) as [x|] eqn:Ex; [|apply nth_error_None in Ex; lia].
      rewrite (nth_error_nth (skipn mn ks) i 0 (x := x)) by (rewrite Hnth; exact Ex).
      rewrite (nth_error_nth (from y mn) i 0 (x := y + Z.of_nat i)) by (now apply from_nth).
      specialize (Hlow i x Ex). specialize (Hhigh (mn - 1 - i)%nat x ltac:(lia)).
      replace (mn + mn - 1 - (mn - 1 - i))%nat with (mn + i)%nat in Hhigh by lia. specialize (Hhigh Ex). lia.
    + split; cbn [kn_size kn_cons kn_step kn_first kn_keys]; [lia|].
      split. { rewrite map_length, firstn_length, skipn_length. lia. }
      intros _. rewrite firstn_all2 by (rewrite skipn_length; lia).
      destruct (skipn mn ks) as [|y' r] eqn:Esk; [cbn in L2; lia|].
      assert (y' = y). { specialize (Hnth 0%nat). cbn in Hnth. rewrite Nat.add_0_r, Ey in Hnth. congruence. } subst y'.
      f_equal; [lia|]. 
      assert (Er : r = map (Z.add (kn_first n)) (skipn mn (kn_keys n))).
      { assert (skipn (S mn) ks = r). { replace (S mn) with (1 + mn)%nat by lia. rewrite <- (firstn_skipn mn ks), Esk.
          rewrite skipn_app, L1. rewrite skipn_all2 by lia. replace (1 + mn - mn)%nat with 1%nat by lia. reflexivity. }
        rewrite <- H, H2. cbn [skipn]. now rewrite skipn_map. }
      rewrite Er, map_map. apply map_ext. intros; lia.
Qed.

(** Removing the last or the first key. *)
Lemma removeLast_ok n ks x : KN n (ks ++ [x]) -> KN (kn_removeLast n) ks.
Proof.
  intros (H1 & H2). rewrite app_length in H1. cbn in H1. unfold kn_removeLast, kn_remove.
  rewrite H1. replace (length ks + 1 - 1 <? length ks + 1 - 1)%nat with false by (symmetry; apply Nat.ltb_ge; lia).
  rewrite andb_false_r. split; cbn [kn_size kn_cons kn_step kn_first kn_keys]; [lia|].
  destruct (kn_cons n).
  - destruct H2 as (H3 & H2). split; auto. rewrite H1 in H2. rewrite Nat.add_sub. rewrite from_app in H2.
    apply (app_inj_tail _ _ _ _ H2).
  - destruct H2 as (H3 & H2). rewrite H1 in H3. split; [rewrite firstn_length; lia|].
    intros Hn. specialize (H2 ltac:(destruct ks; discriminate)). destruct ks as [|y r]; [congruence|].
    cbn [app length] in *. injection H2 as Ey Er. f_equal; auto.
    assert (E : firstn (length r) (r ++ [x]) = firstn (length r) (map (Z.add (kn_first n)) (kn_keys n))) by (now rewrite Er).
    rewrite firstn_app, Nat.sub_diag, firstn_all in E. cbn [firstn] in E. rewrite app_nil_r in E.
    etransitivity; [exact E|]. rewrite firstn_map. do 2 f_equal. lia.
Qed.

Lemma removeFirst_ok n ks x : KN n (x :: ks) -> KN (kn_removeFirst n) ks.
Proof.
  intros HK. pose proof HK as (H1 & H2). cbn [length] in H1. unfold kn_removeFirst, kn_remove. rewrite H1.
  destruct ks as [|y r].
  - cbn. split; cbn; [reflexivity|]. destruct (kn_cons n); [|split; [|congruence]].
    + destruct H2 as (H3 & H2). split; auto.
    + destruct H2 as (H3 & _). rewrite H1 in H3. cbn in H3. destruct (kn_keys n); [reflexivity|discriminate].
  - cbn [length]. replace (1 <? S (S (length r)))%nat with true by reflexivity.
    replace (0 <? S (S (length r)) - 1)%nat with true by (symmetry; apply Nat.ltb_lt; lia). cbn [andb Nat.eqb].
    pose proof (KN_first n _ x _ HK eq_refl) as Hf.
    destruct (kn_cons n) eqn:Hc; (split; cbn [kn_size kn_cons kn_step kn_first kn_keys length]; [lia|]).
    + destruct H2 as (H3 & H2). split; auto. rewrite H1 in H2. cbn [length] in H2. rewrite from_S in H2.
      apply (f_equal (@tl Z)) in H2. cbn [tl] in H2.
      etransitivity; [exact H2|]. f_equal; cbn [length]; lia.
    + destruct H2 as (H3 & H2). specialize (H2 ltac:(discriminate)). rewrite H1 in H3. cbn in H3.
      destruct (kn_keys n) as [|d ds] eqn:Ek; [discriminate|]. cbn in H2.
      cbn [skipn]. split; [rewrite map_length; cbn in H3; lia|]. intros _. unfold kn_at. rewrite Ek. cbn [Z.to_nat nth].
      injection H2 as _ -> ->. f_equal. rewrite map_map. apply map_ext. intros; lia.
Qed.

Lemma average_ok a b : 0 <= a -> a < b -> b < 2 ^ 62 -> a <= average a b < b.
Proof.
  intros Ha Hab Hb. unfold average, wrap64.
  assert (2 ^ 63 = 2 * 2 ^ 62) by reflexivity. assert (2 ^ 64 = 4 * 2 ^ 62) by reflexivity.
  rewrite Z.mod_small by lia. replace (a + b + 2 ^ 63 - 2 ^ 63) with (a + b) by lia.
  rewrite Z.quot_div_nonneg by lia. split; [apply Z.div_le_lower_bound|apply Z.div_lt_upper_bound]; lia.
Qed.
