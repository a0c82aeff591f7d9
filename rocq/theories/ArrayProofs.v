(** Proofs about ArrayItr. *)
From Coq Require Import Sorted Permutation Lia.
From Verif Require Export ArrayModel ItrSpec ItrProofs.
Local Open Scope Z_scope.
Ltac Zify.zify_post_hook ::= Z.div_mod_to_equations.

Ltac arr_cbn H := cbn [a_arr a_pos a_v1 a_v2 a_markPos a_hnc a_n a_ign a_cnt a_c1 a_c2 a_key arr_set] in H.

Notation psorted := (StronglySorted ple).

Definition nthp (arr : list (Z * Z)) (i : Z) : Z * Z := nth (Z.to_nat i) arr (0, 0).
Definition len (arr : list (Z * Z)) : Z := Z.of_nat (length arr).

Lemma at_in arr i : 0 <= i < len arr -> at_ arr i = Some (nthp arr i).
Proof.
  unfold at_, nthp, len. intros H. replace (0 <=? i) with true by lia.
  apply nth_error_nth'. lia.
Qed.

Lemma ple_refl x : ple x x. Proof. unfold ple; lia. Qed.
Lemma ple_trans x y z : ple x y -> ple y z -> ple x z. Proof. unfold ple; lia. Qed.

Lemma psorted_nth arr i j : psorted arr -> 0 <= i <= j -> j < len arr -> ple (nthp arr i) (nthp arr j).
Proof.
  intros Hs Hij Hj. unfold nthp, len in *.
  assert (Hn : (Z.to_nat i <= Z.to_nat j < length arr)%nat) by lia.
  revert Hn. generalize (Z.to_nat i) (Z.to_nat j). clear - Hs.
  induction Hs as [|a l Hs IH Hf]; intros n m Hn; cbn in Hn; [lia|].
  destruct n as [|n], m as [|m]; cbn; try lia.
  - apply ple_refl.
  - rewrite Forall_forall in Hf. apply Hf, nth_In. lia.
  - apply IH. lia.
Qed.

Lemma psorted_fst arr i j : psorted arr -> 0 <= i <= j -> j < len arr -> fst (nthp arr i) <= fst (nthp arr j).
Proof. intros Hs Hij Hj. pose proof (psorted_nth arr i j Hs Hij Hj) as H. unfold ple in H. lia. Qed.

Lemma bsearch_loop_ok arr end_ k start : psorted arr -> end_ = len arr -> 0 <= start ->
  forall fuel low high,
  start <= low -> low <= high + 1 -> high < end_ -> high + 1 - low < Z.of_nat fuel ->
  (forall i, start <= i < low -> fst (nthp arr i) < k) ->
  ((forall i, high < i < end_ -> k < fst (nthp arr i)) \/
   (low <= high /\ fst (nthp arr high) = k)) ->
  exists r, bsearch_loop fuel arr low high end_ k = Some r /\
   ((start <= r < end_ /\ fst (nthp arr r) = k /\ forall i, start <= i < r -> fst (nthp arr i) < k) \/
    (exists l, start <= l <= end_ /\ (forall i, start <= i < l -> fst (nthp arr i) < k) /\
       (forall i, l <= i < end_ -> k < fst (nthp arr i)) /\
       r = if end_ <=? l then - l - 1 else l - 1)).
Proof.
  intros Hs He H0. induction fuel as [|fuel IH]; intros low high Hl Hlh Hh Hf Hlow Hhigh; [lia|].
  cbn [bsearch_loop]. destruct (low <=? high) eqn:E.
  - rewrite Z.shiftr_div_pow2 by lia. change (2 ^ 1) with 2.
    set (mid := (low + high) / 2).
    assert (Hmid : low <= mid <= high) by (unfold mid; lia).
    rewrite at_in by (unfold len in *; lia).
    destruct (nthp arr mid) as [mv mw] eqn:Em.
    assert (Hmv : fst (nthp arr mid) = mv) by now rewrite Em.
    destruct (mv <? k) eqn:E1.
    + apply IH; try lia.
      * intros i Hi. pose proof (psorted_fst arr i mid Hs ltac:(lia) ltac:(lia)). lia.
      * destruct Hhigh as [Hhigh|[_ Hhigh]]; [left; auto|right].
        assert (mid <> high) by (intros ->; lia). split; [lia|auto].
    + destruct (k <? mv) eqn:E2.
      * apply IH; try lia; auto. left.
        intros i Hi. pose proof (psorted_fst arr mid i Hs ltac:(lia) ltac:(lia)). lia.
      * destruct (low =? mid) eqn:E3; cbn [negb].
        -- exists mid; split; [reflexivity|]. left. repeat split; try lia.
           intros i Hi. apply Hlow. lia.
        -- assert (mid < high) by (unfold mid in *; lia).
           apply IH; try lia; auto.
  - destruct Hhigh as [Hhigh|[Hc _]]; [|lia].
    assert (low = high + 1) by lia. subst low.
    destruct (end_ <=? high + 1) eqn:E2; eexists; (split; [reflexivity|]); right; exists (high + 1);
      rewrite E2; repeat split; try lia; auto; intros; apply Hhigh; lia.
Qed.

Lemma binarySearch_ok arr start k : psorted arr -> 0 <= start <= len arr ->
  exists r, binarySearch arr start (len arr) k = Some r /\
   ((start <= r < len arr /\ fst (nthp arr r) = k /\ forall i, start <= i < r -> fst (nthp arr i) < k) \/
    (exists l, start <= l <= len arr /\ (forall i, start <= i < l -> fst (nthp arr i) < k) /\
       (forall i, l <= i < len arr -> k < fst (nthp arr i)) /\
       r = if len arr <=? l then - l - 1 else l - 1)).
Proof.
  intros Hs Hst. unfold binarySearch. apply bsearch_loop_ok; auto; try lia.
  - unfold len in *. lia.
  - left. intros; lia.
Qed.

(** ** Scans *)
Fixpoint takewhile {A} (p : A -> bool) (l : list A) : list A :=
  match l with [] => [] | x :: t => if p x then x :: takewhile p t else [] end.
Fixpoint dropwhile {A} (p : A -> bool) (l : list A) : list A :=
  match l with [] => [] | x :: t => if p x then dropwhile p t else l end.

Definition from (arr : list (Z * Z)) (i : Z) : list (Z * Z) := skipn (Z.to_nat i) arr.

Lemma from_cons arr i : 0 <= i < len arr -> from arr i = nthp arr i :: from arr (i + 1).
Proof.
  unfold from, nthp, len. intros H.
  replace (Z.to_nat (i + 1)) with (S (Z.to_nat i)) by lia.
  assert (Hn : (Z.to_nat i < length arr)%nat) by lia. revert Hn.
  generalize (Z.to_nat i). clear. induction arr as [|a arr IH]; intros n Hn; cbn in Hn; [lia|].
  destruct n; cbn; [reflexivity|]. apply IH. lia.
Qed.
Lemma from_end arr i : len arr <= i -> from arr i = [].
Proof. unfold from, len. intros H. apply skipn_all2. lia. Qed.
Lemma from_length arr i : 0 <= i <= len arr -> Z.of_nat (length (from arr i)) = len arr - i.
Proof. unfold from, len. intros. rewrite skipn_length. lia. Qed.

Lemma scan_ok p arr : forall fuel pos, 0 <= pos <= len arr -> len arr - pos < Z.of_nat fuel ->
  exists pos', scan fuel p arr pos = Some pos' /\ pos <= pos' <= len arr /\
    from arr pos' = dropwhile p (from arr pos) /\
    (forall i, pos <= i < pos' -> p (nthp arr i) = true) /\
    (pos' < len arr -> p (nthp arr pos') = false).
Proof.
  induction fuel as [|fuel IH]; intros pos Hp Hf; [lia|].
  cbn [scan]. fold (len arr). destruct (pos <? len arr) eqn:E.
  - rewrite at_in by lia. destruct (p (nthp arr pos)) eqn:Ep.
    + destruct (IH (pos + 1)) as (pos' & He & Hr & Hd & Hall & Hend); try lia.
      exists pos'. split; auto. split; [lia|]. rewrite (from_cons arr pos) by lia. cbn. rewrite Ep.
      split; auto. split; auto. intros i Hi. destruct (Z.eq_dec i pos); [now subst|apply Hall; lia].
    + exists pos. split; auto. split; [lia|]. rewrite (from_cons arr pos) by lia. cbn. rewrite Ep.
      split; auto. split; [intros; lia|auto].
  - exists pos. split; auto. split; [lia|]. rewrite from_end by lia. cbn.
    split; auto. split; intros; lia.
Qed.

Lemma scan__ok p arr pos : 0 <= pos <= len arr ->
  exists pos', scan_ p arr pos = Some pos' /\ pos <= pos' <= len arr /\
    from arr pos' = dropwhile p (from arr pos) /\
    (forall i, pos <= i < pos' -> p (nthp arr i) = true) /\
    (pos' < len arr -> p (nthp arr pos') = false).
Proof. intros H. apply scan_ok; auto. unfold len in *. lia. Qed.

(** ** Iteration with the second column *)
Lemma arr_obj_hasNext s : hasNext (arr_obj s) =
  match arr_hasNext s with Some (b, s') => Some (b, arr_obj s') | None => None end.
Proof. reflexivity. Qed.
Lemma arr_obj_next s : next (arr_obj s) =
  match arr_next s with Some s' => Some (arr_obj s') | None => None end.
Proof. reflexivity. Qed.
Lemma arr_obj_cur s : cur (arr_obj s) = (a_key s, a_v1 s, a_v2 s).
Proof. reflexivity. Qed.

(** The condition checked by hasNext. *)
Definition ok12 (c1 c2 : Z) (e : Z * Z) : bool :=
  (c1 =? -1) || ((fst e =? c1) && ((c2 =? -1) || (snd e =? c2))).

Lemma arr_unpolled_yields n : forall s,
  Z.of_nat n = len (a_arr s) - a_pos s ->
  a_hnc s = false -> a_ign s = false -> 0 <= a_pos s <= len (a_arr s) ->
  Yields false (with_key (a_key s) (takewhile (ok12 (a_c1 s) (a_c2 s)) (from (a_arr s) (a_pos s)))) (arr_obj s).
Proof.
  induction n as [|n IH]; intros s Hn Hh Hi Hp.
  - rewrite from_end by lia. cbn [takewhile with_key map].
    eapply Yields_intro.
    + rewrite arr_obj_hasNext. unfold arr_hasNext. rewrite Hh, Hi. unfold a_len. fold (len (a_arr s)).
      replace (a_pos s <? len (a_arr s)) with false by lia.
      replace (a_pos s =? len (a_arr s)) with true by lia.
      destruct (a_c1 s =? -1); reflexivity.
    + reflexivity.
    + exact I.
  - rewrite from_cons by lia. cbn [takewhile].
    assert (Hhn : arr_hasNext s = Some (ok12 (a_c1 s) (a_c2 s) (nthp (a_arr s) (a_pos s)),
               arr_set s (a_pos s) true (ok12 (a_c1 s) (a_c2 s) (nthp (a_arr s) (a_pos s))))).
    { unfold arr_hasNext. rewrite Hh, Hi. unfold a_len. fold (len (a_arr s)).
      replace (a_pos s <? len (a_arr s)) with true by lia.
      replace (a_pos s =? len (a_arr s)) with false by lia.
      rewrite at_in by lia. unfold ok12.
      destruct (a_c1 s =? -1); [reflexivity|]. cbn [orb].
      set (e := nthp (a_arr s) (a_pos s)).
      destruct (fst e =? a_c1 s), (a_c2 s =? -1), (snd e =? a_c2 s); reflexivity. }
    destruct (ok12 _ _ (nthp (a_arr s) (a_pos s))) eqn:Ek.
    + cbn [with_key map]. eapply Yields_intro.
      * rewrite arr_obj_hasNext, Hhn. reflexivity.
      * reflexivity.
      * eexists. split; [|split; [|split]].
        -- rewrite arr_obj_next. unfold arr_next. cbn [arr_set a_arr a_pos].
           rewrite at_in by lia. reflexivity.
        -- rewrite arr_obj_cur. reflexivity.
        -- discriminate.
        -- specialize (IH (mkArr (a_arr s) (a_pos s + 1) (fst (nthp (a_arr s) (a_pos s)))
              (snd (nthp (a_arr s) (a_pos s))) (a_markPos s) false true (a_ign s) 0 (a_c1 s) (a_c2 s) (a_key s))).
           arr_cbn IH. apply IH; auto; lia.
    + cbn [with_key map]. eapply Yields_intro.
      * rewrite arr_obj_hasNext, Hhn. reflexivity.
      * reflexivity.
      * exact I.
Qed.

Lemma arr_polled_yields s :
  a_hnc s = true -> a_ign s = false -> 0 <= a_pos s <= len (a_arr s) ->
  a_n s = nonempty (takewhile (ok12 (a_c1 s) (a_c2 s)) (from (a_arr s) (a_pos s))) ->
  Ready false (with_key (a_key s) (takewhile (ok12 (a_c1 s) (a_c2 s)) (from (a_arr s) (a_pos s)))) (arr_obj s).
Proof.
  intros Hh Hi Hp Hn. apply Ready_intro.
  - rewrite arr_obj_hasNext. unfold arr_hasNext. rewrite Hh, Hn.
    destruct (takewhile _ _); reflexivity.
  - destruct (Z_lt_le_dec (a_pos s) (len (a_arr s))) as [Hlt|Hge].
    2:{ rewrite from_end by lia. exact I. }
    rewrite from_cons by lia. cbn [takewhile].
    destruct (ok12 _ _ _) eqn:Ek; [|exact I].
    cbn [with_key map]. eexists. split; [|split; [|split]].
    + rewrite arr_obj_next. unfold arr_next. rewrite at_in by lia. reflexivity.
    + rewrite arr_obj_cur. reflexivity.
    + discriminate.
    + pose proof (arr_unpolled_yields (Z.to_nat (len (a_arr s) - a_pos s - 1))
        (mkArr (a_arr s) (a_pos s + 1) (fst (nthp (a_arr s) (a_pos s)))
              (snd (nthp (a_arr s) (a_pos s))) (a_markPos s) false (a_n s) (a_ign s) 0 (a_c1 s) (a_c2 s) (a_key s))) as IH.
      arr_cbn IH. apply IH; auto; lia.
Qed.

(** ** From scans to filters *)
Lemma takewhile_filter {A} (p : A -> bool) l :
  (forall pre x post, l = pre ++ x :: post -> p x = false -> Forall (fun y => p y = false) post) ->
  takewhile p l = filter p l.
Proof.
  induction l as [|a l IH]; intros H; cbn; auto.
  destruct (p a) eqn:E.
  - f_equal. apply IH. intros pre x post -> Hx. eapply (H (a :: pre)); eauto. reflexivity.
  - pose proof (H [] a l eq_refl E) as Hf. clear - Hf.
    induction l; cbn; auto. inversion Hf; subst. rewrite H1. auto.
Qed.

Lemma filter_false {A} (p : A -> bool) l : Forall (fun y => p y = false) l -> filter p l = [].
Proof. induction 1; cbn; auto. rewrite H. auto. Qed.

Lemma Forall_nthp (P : Z * Z -> Prop) arr a b :
  0 <= a -> b <= len arr -> (forall i, a <= i < b -> P (nthp arr i)) ->
  Forall P (firstn (Z.to_nat (b - a)) (from arr a)).
Proof.
  intros Ha Hb. remember (Z.to_nat (b - a)) as n eqn:Hn. revert a Ha Hn.
  induction n as [|n IH]; intros a Ha Hn H; [constructor|].
  rewrite from_cons by lia. cbn [firstn]. constructor; [apply H; lia|].
  apply IH; try lia. intros; apply H; lia.
Qed.

Lemma skipn_skipn' {A} m : forall n (l : list A), skipn n (skipn m l) = skipn (m + n) l.
Proof. induction m as [|m IH]; intros n l; cbn; auto. destruct l; auto. now rewrite skipn_nil. Qed.

Lemma from_split arr a b : 0 <= a <= b -> b <= len arr ->
  from arr a = firstn (Z.to_nat (b - a)) (from arr a) ++ from arr b.
Proof.
  intros H Hb. rewrite <- (firstn_skipn (Z.to_nat (b - a)) (from arr a)) at 1. f_equal.
  unfold from. rewrite skipn_skipn'. f_equal. lia.
Qed.

(** In a sorted list the pairs with first component c1 (and second c2) seen from the first
    position that is not before them are exactly the matching ones. *)
Lemma sorted_takewhile_ok l c1 c2 :
  psorted l -> (forall x, In x l -> c1 <= fst x) ->
  (c2 <> -1 -> forall x, In x l -> fst x = c1 -> c2 <= snd x) -> c1 <> -1 ->
  takewhile (ok12 c1 c2) l = filter (pair_matches c1 c2) l.
Proof.
  intros Hs H1 H2 Hc. 
  assert (He : forall e, ok12 c1 c2 e = pair_matches c1 c2 e).
  { intros e. unfold ok12, pair_matches. replace (c1 =? -1) with false by lia. reflexivity. }
  rewrite <- (filter_ext _ _ He). clear He.
  apply takewhile_filter. intros pre x post -> Hx. rewrite Forall_forall. intros y Hy.
  assert (Hxy : ple x y).
  { clear - Hs Hy. induction pre as [|a pre IH]; cbn in Hs.
    - inversion Hs as [|? ? _ Hf]; subst. rewrite Forall_forall in Hf; auto.
    - apply IH. inversion Hs; auto. }
  assert (Hx1 : c1 <= fst x) by (apply H1, in_or_app; right; now left).
  assert (Hx2 : c2 <> -1 -> fst x = c1 -> c2 <= snd x)
    by (intros; apply H2; auto; apply in_or_app; right; now left).
  unfold ok12, ple in *. lia.
Qed.

Lemma In_nthp arr x : In x arr -> exists i, 0 <= i < len arr /\ nthp arr i = x.
Proof.
  intros H. destruct (In_nth arr x (0, 0) H) as (n & Hn & He).
  exists (Z.of_nat n). unfold nthp, len. rewrite Nat2Z.id. split; [lia|auto].
Qed.

Lemma from_In arr i x : 0 <= i -> In x (from arr i) -> exists j, i <= j < len arr /\ nthp arr j = x.
Proof.
  intros Hi H. apply (In_nth _ _ (0, 0)) in H as (n & Hn & He). unfold from in *.
  rewrite skipn_length in Hn. exists (i + Z.of_nat n). unfold len, nthp.
  replace (Z.to_nat (i + Z.of_nat n)) with (Z.to_nat i + n)%nat by lia.
  split; [lia|]. rewrite <- He. clear. revert arr. induction (Z.to_nat i); intros [|a arr]; cbn; auto.
  destruct n; reflexivity.
Qed.

Lemma from_sorted arr i : psorted arr -> psorted (from arr i).
Proof.
  unfold from. generalize (Z.to_nat i). intros n Hs. revert n.
  induction Hs as [|a l Hs IH Hf]; intros [|n]; cbn; auto; try constructor; auto.
Qed.

Lemma filter_from arr i (p : Z * Z -> bool) : 0 <= i <= len arr ->
  (forall j, 0 <= j < i -> p (nthp arr j) = false) -> filter p arr = filter p (from arr i).
Proof.
  intros Hi H. change arr with (from arr 0) at 1. rewrite (from_split arr 0 i) by lia.
  rewrite filter_app, filter_false; [reflexivity|].
  apply (Forall_nthp (fun e => p e = false)); try lia. auto.
Qed.

(** C03: no constraint. *)
Lemma arr_all k arr : arr <> [] ->
  exists o, new_arr_itr k arr (-1) (-1) = Some o /\ Ready false (with_key k arr) o.
Proof.
  intros Hne. eexists; split; [reflexivity|].
  pose proof (arr_polled_yields (mkArr arr 0 (-1) (-1) 0 true true false 0 (-1) (-1) k)) as H.
  arr_cbn H. assert (Ht : takewhile (ok12 (-1) (-1)) (from arr 0) = arr).
  { change (from arr 0) with arr. clear. induction arr; cbn; auto. f_equal; auto. }
  rewrite Ht in H. apply H; auto.
  - unfold len; lia.
  - destruct arr; auto; contradiction.
Qed.

(** C03: with constraints, when the first constraint occurs in the array and either there
    is no second constraint, or the pair occurs, or no other first value occurs. *)
Lemma arr_constrained k arr c1 c2 : psorted arr -> 0 <= c1 -> -1 <= c2 ->
  (exists e, In e arr /\ fst e = c1) ->
  (c2 = -1 \/ In (c1, c2) arr \/ (forall e, In e arr -> fst e = c1)) ->
  exists o, new_arr_itr k arr c1 c2 = Some o /\
    Ready false (with_key k (filter (pair_matches c1 c2) arr)) o.
Proof.
  intros Hs Hc1 Hc2 (e0 & He0 & Hf0) Hside.
  destruct (binarySearch_ok arr 0 c1 Hs) as (r & Hr & Hcase); [unfold len; lia|].
  destruct (In_nthp arr e0 He0) as (i0 & Hi0 & Hn0).
  assert (Hcase' : 0 <= r < len arr /\ fst (nthp arr r) = c1 /\ forall i, 0 <= i < r -> fst (nthp arr i) < c1).
  { destruct Hcase as [H|(l & Hl & H1 & H2 & _)]; auto. exfalso.
    destruct (Z_lt_le_dec i0 l) as [H|H].
    - specialize (H1 i0 ltac:(lia)). rewrite Hn0 in H1. lia.
    - specialize (H2 i0 ltac:(lia)). rewrite Hn0 in H2. lia. }
  clear Hcase. destruct Hcase' as (Hr1 & Hr2 & Hr3).
  unfold new_arr_itr, arr_init. fold (len arr).
  replace (negb (c1 =? -1)) with true by lia. rewrite Hr.
  replace (0 <=? r) with true by lia.
  assert (Hge : forall x, In x (from arr r) -> c1 <= fst x).
  { intros x Hx. destruct (from_In arr r x ltac:(lia) Hx) as (j & Hj & <-). rewrite <- Hr2.
    apply psorted_fst; auto; lia. }
  destruct (c2 =? -1) eqn:Ec2; cbn [negb].
  - assert (c2 = -1) as -> by lia.
    eexists; split; [reflexivity|].
    pose proof (arr_polled_yields (mkArr arr r (-1) (-1) 0 true true false 0 c1 (-1) k)) as H.
    arr_cbn H.
    rewrite (sorted_takewhile_ok (from arr r) c1 (-1)) in H; auto using from_sorted; try lia.
    rewrite <- (filter_from arr r) in H.
    + apply H; auto; [lia|].
      assert (Hin : In e0 (filter (pair_matches c1 (-1)) arr)).
      { apply filter_In. split; auto. unfold pair_matches. lia. }
      destruct (filter _ _); auto. contradiction.
    + lia.
    + intros j Hj. specialize (Hr3 j Hj). unfold pair_matches. lia.
  - destruct (scan__ok (fun e => (fst e =? c1) && (snd e <? c2)) arr r) as (pos & Hsc & Hpos & _ & Hall & Hend); [lia|].
    rewrite Hsc.
    assert (Hfilt : filter (pair_matches c1 c2) arr = filter (pair_matches c1 c2) (from arr pos)).
    { apply filter_from; [lia|]. intros j Hj. destruct (Z_lt_le_dec j r) as [H|H].
      - specialize (Hr3 j ltac:(lia)). unfold pair_matches; lia.
      - specialize (Hall j ltac:(lia)). unfold pair_matches; lia. }
    assert (Htw : takewhile (ok12 c1 c2) (from arr pos) = filter (pair_matches c1 c2) arr).
    { rewrite Hfilt. apply sorted_takewhile_ok; auto using from_sorted; try lia.
      - intros x Hx. apply Hge. destruct (from_In arr pos x ltac:(lia) Hx) as (j & Hj & <-).
        rewrite (from_split arr r j) by lia. apply in_or_app; right. rewrite from_cons by lia. now left.
      - intros _ x Hx Hfx. destruct (from_In arr pos x ltac:(lia) Hx) as (j & Hj & <-).
        specialize (Hend ltac:(lia)).
        assert (Hpj : ple (nthp arr pos) (nthp arr j)) by (apply psorted_nth; auto; lia).
        assert (Hpc : c1 <= fst (nthp arr pos)).
        { apply Hge. rewrite (from_split arr r pos) by lia. apply in_or_app; right.
          rewrite from_cons by lia. now left. }
        unfold ple in Hpj. lia. }
    assert (Hb : exists b, (if pos <? len arr then do e <- at_ arr pos; Some (snd e =? c2) else Some false) = Some b /\
       b = nonempty (filter (pair_matches c1 c2) arr)).
    { eexists; split.
      - instantiate (1 := if pos <? len arr then snd (nthp arr pos) =? c2 else false).
        destruct (pos <? len arr) eqn:E; auto. rewrite at_in by lia. reflexivity.
      - rewrite <- Htw. destruct (pos <? len arr) eqn:E.
        + rewrite from_cons by lia. cbn [takewhile].
          assert (Hpc : fst (nthp arr pos) = c1 \/ fst (nthp arr pos) <> c1) by lia.
          destruct Hpc as [Hpc|Hpc].
          * unfold ok12. rewrite Hpc, Z.eqb_refl, Ec2. replace (c1 =? -1) with false by lia. cbn.
            destruct (snd (nthp arr pos) =? c2); reflexivity.
          * (* pos is beyond the group of c1: then (c1,c2) cannot be absent *)
            exfalso. destruct Hside as [Hx|[Hx|Hx]]; [lia| |].
            -- destruct (In_nthp _ _ Hx) as (j & Hj & Hnj).
               assert (Hpc' : c1 <= fst (nthp arr pos)).
               { apply Hge. rewrite (from_split arr r pos) by lia. apply in_or_app; right.
                 rewrite from_cons by lia. now left. }
               destruct (Z_lt_le_dec j pos) as [H|H].
               ++ destruct (Z_lt_le_dec j r) as [H'|H'].
                  ** specialize (Hr3 j ltac:(lia)). rewrite Hnj in Hr3. cbn in Hr3. lia.
                  ** specialize (Hall j ltac:(lia)). rewrite Hnj in Hall. cbn in Hall. lia.
               ++ pose proof (psorted_fst arr pos j Hs ltac:(lia) ltac:(lia)) as Hle.
                  rewrite Hnj in Hle. cbn in Hle. lia.
            -- apply Hpc, Hx. unfold nthp. apply nth_In. unfold len in *. lia.
        + rewrite from_end by lia. reflexivity. }
    destruct Hb as (b & -> & Hb).
    eexists; split; [reflexivity|].
    pose proof (arr_polled_yields (mkArr arr pos (-1) (-1) 0 true b false 0 c1 c2 k)) as H.
    arr_cbn H. rewrite Htw in H. apply H; auto. lia.
Qed.

(** C39: moveto.  [s] is a state reached by next: the iterator stands on arr[pos-1]. *)
Lemma arr_moveto_ok s c1 c2 :
  psorted (a_arr s) -> a_ign s = false -> 1 <= a_pos s <= len (a_arr s) ->
  (a_v1 s, a_v2 s) = nthp (a_arr s) (a_pos s - 1) ->
  ok12 (a_c1 s) (a_c2 s) (a_v1 s, a_v2 s) = true ->
  exists o, moveto (arr_obj s) c1 c2 = Some o /\
    Yields false (with_key (a_key s) (takewhile (ok12 (a_c1 s) (a_c2 s))
        (dropwhile (fun e => pair_lt e c1 c2) (from (a_arr s) (a_pos s - 1))))) o.
Proof.
  intros Hs Hi Hp Hv Hok.
  change (moveto (arr_obj s) c1 c2) with
    (match arr_moveto s c1 c2 with Some s' => Some (arr_obj s') | None => None end).
  unfold arr_moveto. rewrite Hi. cbn [orb].
  rewrite (from_cons (a_arr s) (a_pos s - 1)) by lia.
  replace (a_pos s - 1 + 1) with (a_pos s) by lia. cbn [dropwhile]. rewrite <- Hv.
  destruct ((c1 <=? a_v1 s) && ((c1 <? a_v1 s) || (c2 <=? a_v2 s))) eqn:E.
  - eexists; split; [reflexivity|].
    replace (pair_lt (a_v1 s, a_v2 s) c1 c2) with false by (unfold pair_lt; cbn; lia).
    pose proof (arr_polled_yields (arr_set s (a_pos s - 1) true true)) as H. arr_cbn H.
    rewrite (from_cons (a_arr s) (a_pos s - 1)) in H by lia.
    replace (a_pos s - 1 + 1) with (a_pos s) in H by lia. rewrite <- Hv in H.
    apply H; auto; [lia|]. cbn. rewrite Hok. reflexivity.
  - replace (pair_lt (a_v1 s, a_v2 s) c1 c2) with true by (unfold pair_lt; cbn; lia).
    unfold a_len. fold (len (a_arr s)).
    destruct (binarySearch_ok (a_arr s) (a_pos s) c1 Hs) as (r & -> & Hcase); [lia|].
    set (p' := if r <? 0 then - r - 1 else r).
    assert (Hp' : a_pos s - 1 <= p' <= len (a_arr s) /\
                  forall i, a_pos s <= i < p' -> pair_lt (nthp (a_arr s) i) c1 c2 = true).
    { destruct Hcase as [(H1 & H2 & H3)|(l & Hl & H1 & H2 & Hr)].
      - unfold p'. replace (r <? 0) with false by lia. split; [lia|].
        intros i Hi'. specialize (H3 i Hi'). unfold pair_lt. lia.
      - destruct (len (a_arr s) <=? l) eqn:El.
        + assert (p' = l) by (unfold p'; subst r; replace (- l - 1 <? 0) with true by lia; lia).
          split; [lia|]. intros i Hi'. specialize (H1 i ltac:(lia)). unfold pair_lt. lia.
        + assert (p' = l - 1) by (unfold p'; subst r; replace (l - 1 <? 0) with false by lia; lia).
          split; [lia|]. intros i Hi'. specialize (H1 i ltac:(lia)). unfold pair_lt. lia. }
    destruct Hp' as [Hp1 Hp2].
    change (fun e : Z * Z => (fst e <? c1) || ((fst e =? c1) && (snd e <? c2)))
      with (fun e : Z * Z => pair_lt e c1 c2).
    destruct (scan__ok (fun e => pair_lt e c1 c2) (a_arr s) p') as (pos & -> & Hpos & Hfd & _ & _); [lia|].
    eexists; split; [reflexivity|].
    assert (Hd : dropwhile (fun e => pair_lt e c1 c2) (from (a_arr s) (a_pos s)) = from (a_arr s) pos).
    { rewrite Hfd. destruct (Z.eq_dec p' (a_pos s - 1)) as [->|Hne].
      - rewrite (from_cons (a_arr s) (a_pos s - 1)) by lia.
        replace (a_pos s - 1 + 1) with (a_pos s) by lia. cbn [dropwhile]. rewrite <- Hv.
        replace (pair_lt (a_v1 s, a_v2 s) c1 c2) with true by (unfold pair_lt; cbn; lia). reflexivity.
      - rewrite (from_split (a_arr s) (a_pos s) p') by lia.
        assert (Hfa : Forall (fun e => pair_lt e c1 c2 = true)
                   (firstn (Z.to_nat (p' - a_pos s)) (from (a_arr s) (a_pos s))))
          by (apply (Forall_nthp (fun e => pair_lt e c1 c2 = true)); auto; lia).
        revert Hfa. generalize (firstn (Z.to_nat (p' - a_pos s)) (from (a_arr s) (a_pos s))).
        intros l0 Hl0. induction Hl0 as [|a l0 Ha _ IH]; cbn; auto. rewrite Ha. auto. }
    rewrite Hd.
    pose proof (arr_unpolled_yields (Z.to_nat (len (a_arr s) - pos)) (arr_set s pos false (a_n s))) as H.
    arr_cbn H. apply H; auto; lia.
Qed.

(** ** newItrOnReverse *)
Lemma psort_perm l : Permutation (psort l) l.
Proof.
  assert (Hi : forall x l, Permutation (pinsert x l) (x :: l)).
  { intros x m. induction m as [|y m IH]; cbn; auto. destruct (pair_leb x y); auto.
    rewrite IH. apply perm_swap. }
  induction l; cbn; auto. rewrite Hi. now constructor.
Qed.
Lemma psort_sorted l : psorted (psort l).
Proof.
  assert (Hi : forall x l, psorted l -> psorted (pinsert x l)).
  { intros x m Hm. induction Hm as [|y m Hs IH Hf]; cbn; [repeat constructor|].
    destruct (pair_leb x y) eqn:E.
    - constructor; [constructor; auto|]. constructor.
      + unfold pair_leb, ple in *. lia.
      + eapply Forall_impl; [|exact Hf]. intros a Ha. unfold pair_leb, ple in *. lia.
    - constructor; auto. rewrite Forall_forall in *. intros z Hz.
      assert (Hp : In z (x :: m)).
      { clear - Hz. induction m as [|w m IH]; cbn in *; auto.
        destruct (pair_leb x w); auto. destruct Hz as [<-|Hz]; auto.
        apply IH in Hz as [<-|Hz]; auto. }
      destruct Hp as [<-|Hp]; auto. unfold pair_leb, ple in *. lia. }
  induction l; cbn; [constructor|auto].
Qed.

Definition swapped (l : list elem) : list (Z * Z) := map (fun x => (snd x, snd (fst x))) l.

Lemma reverse_fill_ok cnt v1 l : forall o fuel, Yields cnt l o -> (length l < fuel)%nat ->
  reverse_fill fuel v1 o = Some (filter (fun e => (v1 <? 0) || (fst e =? v1)) (swapped l)).
Proof.
  induction l as [|x t IH]; intros o fuel Hy Hf; (destruct fuel as [|fuel]; [cbn in Hf; lia|]);
    cbn [reverse_fill]; destruct (Yields_poll _ _ _ Hy) as (o1 & -> & _ & Hm); cbn [nonempty].
  - reflexivity.
  - destruct Hm as (o2 & -> & <- & _ & Hy2). rewrite (IH o2 fuel Hy2) by (cbn in Hf; lia).
    cbn. reflexivity.
Qed.

Lemma reverse_ok fuel cnt l old k v1 v2 :
  Yields cnt l old -> (length l < fuel)%nat -> -1 <= v1 -> -1 <= v2 -> (v1 = -1 -> v2 = -1) ->
  exists o R, newItrOnReverse fuel old k v1 v2 = Some o /\ Yields false (with_key k R) o /\
    psorted R /\ Permutation R (filter (pair_matches v1 v2) (swapped l)).
Proof.
  intros Hy Hf Hv1 Hv2 Hv. unfold newItrOnReverse. rewrite (reverse_fill_ok cnt v1 l old fuel Hy Hf).
  set (L := filter (fun e => (v1 <? 0) || (fst e =? v1)) (swapped l)).
  assert (Hff : filter (pair_matches v1 v2) (swapped l) = filter (pair_matches v1 v2) L).
  { unfold L. clear - Hv1. induction (swapped l) as [|a m IH]; cbn; auto.
    destruct ((v1 <? 0) || (fst a =? v1)) eqn:E; cbn; destruct (pair_matches v1 v2 a) eqn:E2; try congruence.
    unfold pair_matches in E2. exfalso. lia. }
  rewrite Hff.
  destruct L as [|a L'] eqn:EL.
  - exists (empty_itr k), []. split; [reflexivity|]. split; [apply empty_yields|]. split; constructor.
  - rewrite <- EL in *. assert (HneL : L <> []) by (rewrite EL; discriminate). 
    assert (HLv : forall e, In e L -> v1 <> -1 -> fst e = v1).
    { intros e He Hn. rewrite EL in He. rewrite <- EL in He. unfold L in He. apply filter_In in He. lia. }
    clearbody L. clear EL L' a Hff.
    assert (Hps : Permutation (psort L) L) by apply psort_perm.
    assert (Hfp : Permutation (filter (pair_matches v1 v2) (psort L)) (filter (pair_matches v1 v2) L)).
    { clear - Hps. induction Hps; cbn; auto.
      - destruct (pair_matches v1 v2 x); auto.
      - destruct (pair_matches v1 v2 x), (pair_matches v1 v2 y); auto. constructor.
      - etransitivity; eauto. }
    assert (Hfs : psorted (filter (pair_matches v1 v2) (psort L))).
    { pose proof (psort_sorted L) as Hs. clear - Hs. induction Hs as [|x m Hs IH Hf]; cbn; [constructor|].
      destruct (pair_matches v1 v2 x); auto. constructor; auto.
      rewrite Forall_forall in *. intros y Hy. apply filter_In in Hy. apply Hf; tauto. }
    assert (HneP : psort L <> []).
    { intros E. rewrite E in Hps. apply Permutation_nil in Hps. contradiction. }
    destruct (Z.eq_dec v1 (-1)) as [->|Hn1].
    + rewrite (Hv eq_refl) in *.
      destruct (arr_all k (psort L) HneP) as (o & Ho & Hr).
      exists o, (psort L). split; [exact Ho|]. split; [apply Hr|]. split; [apply psort_sorted|].
      rewrite Hps. replace (filter (pair_matches (-1) (-1)) L) with L; auto.
      clear. induction L; cbn; auto. now f_equal.
    + destruct (arr_constrained k (psort L) v1 v2) as (o & Ho & Hr); auto using psort_sorted; try lia.
      * destruct L as [|e L]; [contradiction|]. exists e. split.
        -- eapply Permutation_in; [symmetry; exact Hps|now left].
        -- apply HLv; auto. now left.
      * right; right. intros e He. apply HLv; auto. eapply Permutation_in; eauto.
      * exists o, (filter (pair_matches v1 v2) (psort L)). split; [exact Ho|].
        split; [apply Hr|]. auto.
Qed.
