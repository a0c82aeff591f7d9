(** C17 and C18: the B+tree is a map, and its iterator returns it in order. *)
From Coq Require Import Sorting.Sorted ZifyBool.
From Verif Require Export TreeSpec.
From Verif Require Import TreeProofs3 TreeProofs4.
Local Open Scope Z_scope.

(** *** C17 *)
Lemma value_of_last (k : Z) (h : list (op Z)) v :
  value_of Z Z (fun x => x) (fun _ x => x) v k h = match last_value k h with Some x => Some x | None => v end.
Proof.
  revert v. induction h as [|o h IH]; intros v; cbn [value_of last_value]; [reflexivity|].
  rewrite IH. destruct (last_value k h); auto. destruct (op_key o =? k); auto. now destruct v.
Qed.

Lemma num_built m h : (1 <= m)%nat -> allowed [] h -> exists t l, build_num (m + m) h = Some t /\ Shape Z m t l /\ ranged Z l /\
  forall k, lookup Z k l = last_value k h.
Proof.
  intros Hm HA.
  destruct (build_ok Z Z (fun x => x) (fun _ x => x) m Hm h tr_new [] []) as (t & l & E & HS & HR & Hv); auto.
  { apply Shape_new; auto. } { intros e []. }
  exists t, l. do 3 (split; [assumption|]). intros k. rewrite Hv, value_of_last. cbn. now destruct (last_value k h).
Qed.

(** A tree of numbers: no put fails, and get returns the last value given for the key.
    Missing: keys of 2^62 and more, for which it is false (below). *)
Theorem C17_map_partial m h : (1 <= m)%nat -> allowed [] h ->
  exists t, build_num (m + m) h = Some t /\ forall k, get t k = Some (last_value k h).
Proof.
  intros Hm HA. destruct (num_built m h Hm HA) as (t & l & E & HS & _ & Hv).
  exists t. split; auto. intros k. rewrite (get_ok Z m t l k HS). now rewrite Hv.
Qed.
Print Assumptions C17_map_partial.

Definition some_history : list (op Z) :=
  [Put 5 50; Put 1 10; Put 9 90; Append 12 120; Put 3 30; Put 5 51; Put 7 70; Put 2 20; Append 20 200; Put 4 40; Put 6 60; Put 0 1].
Example C17_map_case : allowed [] some_history /\
  (do t <- build_num 4 some_history; Some (get t 5, get t 8)) = Some (Some (Some 51), Some None).
Proof.
  split.
  - cbn. repeat split; try lia; intros j H; repeat destruct H as [<-|H]; try lia; contradiction.
  - vm_compute. reflexivity.
Qed.

(** Inline integers have ids from 2^62 on: there the average of two keys overflows and
    keys are lost. *)
Theorem C17_large_keys_refuted : exists h : list (op Z),
  (forall o, In o h -> 0 <= op_key o < 2 ^ 63) /\
  exists t k v, build_num 4 h = Some t /\ last_value k h = Some v /\ get t k = Some None.
Proof.
  exists [Put (2 ^ 62) 1; Put (2 ^ 62 + 1) 2; Put (2 ^ 62 + 2) 3; Put (2 ^ 62 + 3) 4; Put (2 ^ 62 + 4) 5].
  split; [intros o H; repeat destruct H as [<-|H]; cbn; try lia; contradiction|].
  eexists _, (2 ^ 62), 1. split; [vm_compute; reflexivity|]. split; vm_compute; reflexivity.
Qed.
Print Assumptions C17_large_keys_refuted.

(** With an odd capacity a split drops a key. *)
Theorem C17_odd_capacity_refuted : exists (h : list (op Z)) t k v,
  allowed [] h /\ build_num 5 h = Some t /\ last_value k h = Some v /\ get t k = Some None.
Proof.
  exists [Put 0 10; Put 1 11; Put 2 12; Put 3 13; Put 4 14; Put 5 15]. eexists _, 4, 14.
  split; [cbn; lia|]. split; [vm_compute; reflexivity|]. split; vm_compute; reflexivity.
Qed.
Print Assumptions C17_odd_capacity_refuted.

(** *** C17 for term coordinates *)
Lemma value_of_merged k h v : value_of _ _ (addCoordinates []) addCoordinates (option_map list_of v) k h =
  option_map list_of (value_of _ _ (fun x => x) merged v k h).
Proof.
  revert v. induction h as [|o h IH]; intros v; cbn [value_of]; [reflexivity|].
  rewrite <- IH. f_equal. destruct (op_key o =? k); auto. destruct v as [u|]; cbn [option_map].
  - now rewrite add_list_of.
  - now rewrite addCoordinates_nil.
Qed.

Lemma tc_built m h : (1 <= m)%nat -> allowed [] h -> exists t l, build_tc (m + m) h = Some t /\ Shape _ m t l /\ ranged _ l /\
  forall k, lookup _ k l = option_map list_of (value_of _ _ (fun x => x) merged None k h).
Proof.
  intros Hm HA.
  destruct (build_ok _ _ (addCoordinates []) addCoordinates m Hm h tr_new [] []) as (t & l & E & HS & HR & Hv); auto.
  { apply Shape_new; auto. } { intros e []. }
  exists t, l. do 3 (split; [assumption|]). intros k. rewrite Hv. apply (value_of_merged k h None).
Qed.

Lemma merged_replaces u v i : (i < 6)%nat -> replaces u v -> merged u v i = v i.
Proof.
  intros Hi H. unfold merged. destruct (v i) as [c|] eqn:E; auto.
  destruct (existsb _ _) eqn:Eb; auto. apply existsb_exists in Eb as (j & Hj & Hv). apply in_seq in Hj.
  destruct (u i) as [d|] eqn:Eu; auto. exfalso.
  assert (i < j)%nat; [|lia]. apply (H i j); auto; [now rewrite Eu|]. destruct (v j); congruence.
Qed.

Definition agree (u v : option tc) : Prop :=
  match u, v with Some u, Some v => forall i, (i < 6)%nat -> u i = v i | None, None => True | _, _ => False end.

Lemma value_of_tc k : forall h u w, agree u w ->
  match w with
  | Some w => forall o' r1 r2, h = r1 ++ o' :: r2 -> op_key o' = k -> last_value k r1 = None -> replaces w (op_val o')
  | None => True
  end -> replacing h ->
  agree (value_of _ _ (fun x => x) merged u k h) (match last_value k h with Some x => Some x | None => w end).
Proof.
  induction h as [|o h IH]; intros u w Hag Hw HR; cbn [value_of last_value]; [exact Hag|].
  destruct HR as (Ho & HR). destruct (Z.eqb_spec (op_key o) k) as [Ek|Ek].
  - assert (Hnew : agree (Some (match u with Some u => merged u (op_val o) | None => op_val o end)) (Some (op_val o))).
    { intros i Hi. destruct u as [u|], w as [w|]; cbn in Hag; try contradiction; auto.
      transitivity (merged w (op_val o) i).
      - unfold merged. rewrite Hag by auto. reflexivity.
      - apply merged_replaces; auto. apply (Hw o [] h); auto. }
    specialize (IH _ _ Hnew). cbn [op_val] in IH.
    assert (H : agree (value_of _ _ (fun x => x) merged (Some (match u with Some u => merged u (op_val o) | None => op_val o end)) k h)
      (match last_value k h with Some x => Some x | None => Some (op_val o) end)).
    { apply IH; auto. intros o' r1 r2 -> Hk Hl. apply (Ho o' r1 r2); auto; [lia|]. now rewrite Ek. }
    destruct (last_value k h); exact H.
  - specialize (IH u w Hag).
    assert (H : agree (value_of _ _ (fun x => x) merged u k h) (match last_value k h with Some x => Some x | None => w end)).
    { apply IH; auto. destruct w as [w|]; auto. intros o' r1 r2 -> Hk Hl. apply (Hw o' (o :: r1) r2); auto.
      cbn [last_value]. rewrite Hl. now rewrite (proj2 (Z.eqb_neq _ _) Ek). }
    destruct (last_value k h); exact H.
Qed.

(** A tree of term coordinates returns, for each permutation, what was last stored for the
    term, if later stores never leave out a permutation after one they have. *)
Theorem C17_coordinates_partial m h : (1 <= m)%nat -> allowed [] h -> replacing h ->
  exists t, build_tc (m + m) h = Some t /\ forall k,
    match last_value k h with
    | None => get t k = Some None
    | Some v => exists l, get t k = Some (Some l) /\ forall i, (i < 6)%nat -> tc_of l i = v i
    end.
Proof.
  intros Hm HA HR. destruct (tc_built m h Hm HA) as (t & l & E & HS & _ & Hv).
  exists t. split; auto. intros k. rewrite (get_ok _ m t l k HS), Hv.
  pose proof (value_of_tc k h None None I I HR) as H.
  destruct (value_of _ _ _ _ None k h) as [u|], (last_value k h) as [v|]; cbn in H; try contradiction; auto.
  exists (list_of u). split; auto. intros i Hi. rewrite tc_of_list by auto. auto.
Qed.
Print Assumptions C17_coordinates_partial.

Definition some_tc (l : list nat) (x : Z) : tc := fun i => if existsb (Nat.eqb i) l then Some (mkCoord x 0 1 (x + Z.of_nat i)) else None.
Example C17_coordinates_case : let h := [Put 5 (some_tc [0;1;4] 7); Put 2 (some_tc [1] 8); Put 5 (some_tc [0;1;2;4] 9); Append 7 (some_tc [3;5] 3); Put 2 (some_tc [1; 2] 1); Put 5 (some_tc [5] 9)]%nat in
  allowed [] h /\ replacing h.
Proof.
  split.
  - cbn. repeat split; try lia; intros j H; repeat destruct H as [<-|H]; try lia; contradiction.
  - assert (Hr : forall a b x y, forallb (fun j => forallb (fun i => negb (negb (existsb (Nat.eqb j) b) && existsb (Nat.eqb i) b) || (j <? i)%nat) b) a = true -> replaces (some_tc a x) (some_tc b y)).
    { intros a b x y H j i Hj Hu Hv Hi. unfold some_tc in *.
      destruct (existsb (Nat.eqb j) a) eqn:Ea; [|congruence]. destruct (existsb (Nat.eqb j) b) eqn:Eb; [congruence|].
      destruct (existsb (Nat.eqb i) b) eqn:Ei; [|congruence].
      apply existsb_exists in Ea as (j' & Ha & Ej). apply Nat.eqb_eq in Ej as <-.
      pose proof Ei as Ei'. apply existsb_exists in Ei' as (i' & Hb & E). apply Nat.eqb_eq in E as <-.
      rewrite forallb_forall in H. specialize (H j Ha). rewrite forallb_forall in H. specialize (H i Hb).
      rewrite Eb, Ei in H. cbn in H. now apply Nat.ltb_lt. }
    cbn [replacing]. repeat split; intros o' r1 r2 E Hk Hl.
    all: repeat (destruct r1 as [|? r1]; [cbn in E; injection E as <- <-; cbn in Hk; try lia; apply Hr; reflexivity|
           cbn [app] in E; try discriminate E; injection E as <- E; cbn in Hl; try (destruct (last_value _ r1); discriminate Hl)]).
    all: try (destruct r1; discriminate E). all: try discriminate E.
Qed.

(** Otherwise a permutation that the new coordinates leave out is kept. *)
Theorem C17_coordinates_refuted : exists h : list (op tc), allowed [] h /\
  exists t l k v i, build_tc 4 h = Some t /\ last_value k h = Some v /\ get t k = Some (Some l) /\ v i = None /\ tc_of l i <> None.
Proof.
  exists [Put 5 (some_tc [0;3]%nat 7); Put 5 (some_tc [0]%nat 8)]. split; [cbn; lia|].
  eexists _, _, 5, _, 3%nat. split; [vm_compute; reflexivity|]. split; [reflexivity|]. split; [vm_compute; reflexivity|].
  split; [reflexivity|]. vm_compute. discriminate.
Qed.
Print Assumptions C17_coordinates_refuted.

(** *** C18 *)
Lemma lookup_in {V} k v (l : list (Z * V)) : increasing (map fst l) -> (lookup V k l = Some v <-> In (k, v) l).
Proof.
  unfold lookup. induction l as [|(j, w) l IH]; intros Hs; cbn; [split; [discriminate|contradiction]|].
  cbn in Hs. apply incr_cons in Hs as (Hs & Hj). specialize (IH Hs).
  destruct (Z.eqb_spec j k) as [->|Hn].
  - split; [intros [= ->]; now left|]. intros [[= ->]|Hin]; auto. specialize (Hj k (in_map fst l (k, v) Hin)). lia.
  - rewrite IH. split; [now right|]. intros [[= -> ->]|Hin]; auto. lia.
Qed.

(** Iterating over a tree of numbers returns the keys in increasing order, each with the last
    value given for it, and then stops. *)
Theorem C18_iteration_partial m h : (1 <= m)%nat -> allowed [] h ->
  exists t c l, build_num (m + m) h = Some t /\ itr t = Some c /\
    (forall fuel, (length l < fuel)%nat -> walk fuel c = Some l) /\
    increasing (map fst l) /\
    forall k v, In (k, v) l <-> last_value k h = Some v.
Proof.
  intros Hm HA. destruct (num_built m h Hm HA) as (t & l & E & HS & HR & Hv).
  destruct (itr_ok Z m t l HS) as (c & Ec & Hw). { intros e He. apply HR in He. lia. }
  pose proof (proj1 (incr_dbl _ l) (Shape_incr _ m t l HS)) as Hi.
  exists t, c, l. repeat split; auto.
  - intros Hin. rewrite <- Hv. now apply lookup_in.
  - intros Hl. rewrite <- Hv in Hl. now apply lookup_in in Hl.
Qed.
Print Assumptions C18_iteration_partial.

Example C18_iteration_case : (do t <- build_num 4 some_history; do c <- itr t; walk 20 c) = Some [(0, 1); (1, 10); (2, 20); (3, 30); (4, 40); (5, 51); (6, 60); (7, 70); (9, 90); (12, 120); (20, 200)].
Proof. vm_compute. reflexivity. Qed.

(** The same for term coordinates. *)
Theorem C18_coordinates_partial m h : (1 <= m)%nat -> allowed [] h -> replacing h ->
  exists t c l, build_tc (m + m) h = Some t /\ itr t = Some c /\
    (forall fuel, (length l < fuel)%nat -> walk fuel c = Some l) /\
    increasing (map fst l) /\
    (forall k, In k (map fst l) <-> last_value k h <> None) /\
    (forall k x v i, In (k, x) l -> last_value k h = Some v -> (i < 6)%nat -> tc_of x i = v i).
Proof.
  intros Hm HA HRp. destruct (tc_built m h Hm HA) as (t & l & E & HS & HR & Hv).
  destruct (itr_ok _ m t l HS) as (c & Ec & Hw). { intros e He. apply HR in He. lia. }
  pose proof (proj1 (incr_dbl _ l) (Shape_incr _ m t l HS)) as Hi.
  exists t, c, l. repeat split; auto.
  - intros Hin. apply in_map_iff in Hin as ((j, x) & Ej & Hin). cbn in Ej. subst j. apply lookup_in in Hin; auto.
    rewrite Hv in Hin. pose proof (value_of_tc k h None None I I HRp) as H.
    destruct (value_of _ _ _ _ None k h), (last_value k h); cbn in *; try contradiction; congruence.
  - intros Hl. pose proof (value_of_tc k h None None I I HRp) as H. specialize (Hv k).
    destruct (value_of _ _ _ _ None k h) as [u|], (last_value k h) as [v|]; cbn in *; try contradiction; try congruence.
    apply lookup_in in Hv; auto. apply (in_map fst) in Hv. exact Hv.
  - intros k x v i Hin Hl Hi6. apply lookup_in in Hin; auto. rewrite Hv in Hin.
    pose proof (value_of_tc k h None None I I HRp) as H. rewrite Hl in H.
    destruct (value_of _ _ _ _ None k h) as [u|]; cbn [option_map agree] in H, Hin; [|contradiction]. injection Hin as Hin. subst x.
    rewrite tc_of_list by auto. auto.
Qed.
Print Assumptions C18_coordinates_partial.

(** The iterator starts at the leaf for key 0: smaller keys are not returned. *)
Theorem C18_negative_keys_refuted : exists (h : list (op Z)) t c l,
  build_num 4 h = Some t /\ itr t = Some c /\ walk 20 c = Some l /\ exists k v, last_value k h = Some v /\ ~ In k (map fst l).
Proof.
  exists [Put (-20) 1; Put (-10) 2; Put 3 3; Put 4 4; Put 5 5]. eexists _, _, _.
  split; [vm_compute; reflexivity|]. split; [vm_compute; reflexivity|]. split; [vm_compute; reflexivity|].
  exists (-20), 1. split; [reflexivity|]. cbn. lia.
Qed.
Print Assumptions C18_negative_keys_refuted.

(** *** The two arrays of a leaf hold one list. *)
Theorem C17_arrays_partial {A} mn (vs : list A) p x : (1 <= mn)%nat -> (length vs < mn + mn)%nat -> (p <= length vs)%nat ->
  arr_put mn (length vs) (firstn mn vs) (skipn mn vs) p x =
  Some (firstn mn (firstn p vs ++ x :: skipn p vs), skipn mn (firstn p vs ++ x :: skipn p vs)).
Proof.
  intros Hm Hl Hp. unfold arr_put. change (firstn p vs ++ x :: skipn p vs) with (ins_at p x vs).
  destruct (Nat.ltb_spec p mn) as [H1|H1].
  - destruct (Nat.leb_spec mn (length vs)) as [H2|H2].
    + destruct (nth_error (firstn mn vs) (mn - 1)) as [z|] eqn:E.
      2:{ apply nth_error_None in E. rewrite firstn_length in E. lia. }
      pose proof (ins_at_firstn p x vs (mn - 1) ltac:(lia) Hp) as F1. pose proof (ins_at_skipn p x vs (mn - 1) ltac:(lia) Hp) as F2.
      replace (S (mn - 1)) with mn in F1, F2 by lia. rewrite F1, F2. f_equal. f_equal.
      * unfold ins_at. rewrite !firstn_firstn. replace (Nat.min p mn) with p by lia. replace (Nat.min p (mn - 1)) with p by lia.
        f_equal. f_equal. rewrite !skipn_firstn_comm, firstn_firstn. f_equal. lia.
      * destruct (nth_error_split _ _ E) as (l1 & l2 & El & Ll).
        assert (l2 = []). { assert (length (firstn mn vs) = mn) by (rewrite firstn_length; lia). rewrite El, app_length in H. cbn in H. destruct l2; [auto|cbn in H; lia]. }
        subst l2. rewrite <- (firstn_skipn mn vs) at 2. rewrite El, <- app_assoc. rewrite skipn_app, Ll, Nat.sub_diag.
        rewrite (skipn_all2 l1) by lia. reflexivity.
    + rewrite (@firstn_all2 _ mn vs), (@skipn_all2 _ mn vs) by lia. change (firstn p vs ++ x :: skipn p vs) with (ins_at p x vs).
      rewrite firstn_all2, skipn_all2 by (rewrite ins_at_length; lia). reflexivity.
  - rewrite ins_at_firstn_low, ins_at_skipn_low by lia. reflexivity.
Qed.
Print Assumptions C17_arrays_partial.

Theorem C17_arrays_read {A} mn (vs : list A) p : arr_get mn (firstn mn vs) (skipn mn vs) p = nth_error vs p.
Proof.
  unfold arr_get. destruct (Nat.ltb_spec p mn) as [H|H].
  - destruct (Nat.lt_ge_cases p (length vs)) as [H2|H2].
    + rewrite <- (firstn_skipn mn vs) at 2. rewrite nth_error_app1; auto. rewrite firstn_length. lia.
    + rewrite !(proj2 (nth_error_None _ _)); auto. rewrite firstn_length. lia.
  - destruct (Nat.le_gt_cases (length vs) mn) as [H2|H2].
    + rewrite skipn_all2 by lia. rewrite !(proj2 (nth_error_None _ _)); auto; cbn; lia.
    + rewrite <- (firstn_skipn mn vs) at 2. rewrite nth_error_app2 by (rewrite firstn_length; lia). f_equal. rewrite firstn_length. lia.
Qed.
Print Assumptions C17_arrays_read.

(** After a split of a full leaf each half has its values. *)
Theorem C17_arrays_split {A} mn (vs : list A) : length vs = (mn + mn)%nat ->
  let '((a, b), (c, d)) := arr_split (firstn mn vs) (skipn mn vs) in
  a = firstn mn (firstn mn vs) /\ b = skipn mn (firstn mn vs) /\ c = firstn mn (skipn mn vs) /\ d = skipn mn (skipn mn vs).
Proof.
  intros H. cbn. rewrite firstn_firstn, Nat.min_id. repeat split.
  - now rewrite skipn_all2 by (rewrite firstn_length; lia).
  - now rewrite firstn_all2 by (rewrite skipn_length; lia).
  - now rewrite (skipn_all2 (skipn mn vs)) by (rewrite skipn_length; lia).
Qed.
Print Assumptions C17_arrays_split.

Example C17_arrays_case : arr_put 2 3 [1; 2] [3] 1 9 = Some ([1; 9], [2; 3]) /\ arr_put 2 1 [1] [] 1 9 = Some ([1; 9], []) /\ arr_put 2 3 [1; 2] [3] 3 9 = Some ([1; 2], [3; 9]).
Proof. repeat split. Qed.
