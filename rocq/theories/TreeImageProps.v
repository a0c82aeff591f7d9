(** C19, C23 and C17 for a tree on disk. *)
From Coq Require Import Sorting.Sorted ZifyBool.
From Verif Require Export TreeImageSpec TreeProps.
From Verif Require Import TableProofs TreeProofs3 TreeProofs4 TreeImageProofs2.
Local Open Scope Z_scope.

(** *** C19 *)
(** A node written to disk and read back has the same keys at the same places, and every
    search gives the place of the key.  [old] is the object that is filled.
    Missing: keys with a constant step between 128 and 255, for which it is false. *)
Theorem C19_image_partial n ks old m p : made n ks -> (forall x, In x ks -> 0 <= x < 2 ^ 63) -> Z.of_nat (length ks) < 2 ^ 31 ->
  ((1 < length ks)%nat -> forall d, 128 <= d < 256 -> ~ constant_step d ks) ->
  1 <= kn_step old -> contains m p (kn_image n) ->
  exists n', kn_load old m p = Some (n', p + Z.of_nat (length (kn_image n))) /\
    kn_size n' = length ks /\
    (forall i x, nth_error ks i = Some x -> kn_keyAt n' i = x) /\
    (forall k, kn_pos n' k = place k ks).
Proof.
  intros Hmd Hr Hl Hst Ho Hc. destruct (made_KN n ks Hmd) as (HK & Hs).
  apply load_ok; auto. intros H1. destruct (Z.ltb_spec (kn_imageStep n) 128) as [|Hb]; auto.
  destruct (imageStep_big n ks HK Hs H1 Hb) as (d & Hd & Hcd). exfalso. apply (Hst H1 d Hd Hcd).
Qed.
Print Assumptions C19_image_partial.

Example C19_image_case : let n := kn_put (kn_put (kn_put kn_new 50 0) 30 0) 1000 2 in let ks := [30; 50; 1000] in
  made n ks /\ (forall x, In x ks -> 0 <= x < 2 ^ 63) /\ (forall d, 128 <= d < 256 -> ~ constant_step d ks) /\
  contains (kn_image n ++ [7; 7]) 0 (kn_image n) /\ kn_imageStep n = 0.
Proof.
  assert (S3 : forall a b c, a < b -> b < c -> increasing [a; b; c]).
  { intros. repeat constructor; auto; lia. }
  cbn [length]. split; [|split; [|split; [|split]]].
  - change [30; 50; 1000] with (firstn 2 [30; 50] ++ 1000 :: skipn 2 [30; 50]). apply made_put; [|cbn; lia|apply S3; lia].
    change [30; 50] with (firstn 0 [50] ++ 30 :: skipn 0 [50]). apply made_put; [|cbn; lia|repeat constructor; lia].
    change [50] with (firstn 0 (@nil Z) ++ 50 :: skipn 0 []). apply made_put; [constructor|cbn; lia|repeat constructor].
  - intros x H; repeat destruct H as [<-|H]; try lia; contradiction.
  - intros d Hd (a & E). change (seq 0 (length [30; 50; 1000])) with [0; 1; 2]%nat in E. cbn [map] in E.
    assert (E1 : 30 = a + Z.of_nat 0 * d) by congruence. assert (E2 : 50 = a + Z.of_nat 1 * d) by congruence. lia.
  - exists [], [7; 7]. split; reflexivity.
  - reflexivity.
Qed.

(** Two keys 200 apart: the step 200 is read as a negative char. *)
Theorem C19_step_refuted : exists n ks vs n' vs' p,
  made n ks /\ (forall x, In x ks -> 0 <= x < 2 ^ 63) /\
  kn_load kn_new (leaf_image_num n vs) 0 = Some (n', p) /\ leaf_load_num kn_new (leaf_image_num n vs ++ repeat 0 20) 0 = Some (n', vs') /\
  exists i x, nth_error ks i = Some x /\ kn_keyAt n' i <> x.
Proof.
  exists (kn_put (kn_put kn_new 100 0) 300 1), [100; 300], [5; 6]. eexists _, _, _. split.
  - change [100; 300] with (firstn 1 [100] ++ 300 :: skipn 1 [100]). apply made_put; [|cbn; lia|repeat constructor; lia].
    change [100] with (firstn 0 (@nil Z) ++ 100 :: skipn 0 []). apply made_put; [constructor|cbn; lia|repeat constructor].
  - split; [intros x H; repeat destruct H as [<-|H]; try lia; contradiction|].
    split; [vm_compute; reflexivity|]. split; [vm_compute; reflexivity|]. exists 1%nat, 300. split; [reflexivity|]. vm_compute. discriminate.
Qed.
Print Assumptions C19_step_refuted.

(** A node that was read back with a step and then receives a key loses its keys: such a
    node is what the cache reads again after it has evicted it. *)
Theorem C19_change_after_load_refuted : exists n ks n' p k q i x,
  made n ks /\ (forall x, In x ks -> 0 <= x < 2 ^ 63) /\ kn_load kn_new (kn_image n) 0 = Some (n', p) /\
  (q <= length ks)%nat /\ increasing (firstn q ks ++ k :: skipn q ks) /\
  nth_error (firstn q ks ++ k :: skipn q ks) i = Some x /\ kn_keyAt (kn_put n' k q) i <> x.
Proof.
  exists (kn_put (kn_put (kn_put kn_new 10 0) 20 1) 30 2), [10; 20; 30]. eexists _, _, 40, 3%nat, 1%nat, 20. split.
  - change [10; 20; 30] with (firstn 2 [10; 20] ++ 30 :: skipn 2 [10; 20]). apply made_put; [|cbn; lia|repeat constructor; lia].
    change [10; 20] with (firstn 1 [10] ++ 20 :: skipn 1 [10]). apply made_put; [|cbn; lia|repeat constructor; lia].
    change [10] with (firstn 0 (@nil Z) ++ 10 :: skipn 0 []). apply made_put; [constructor|cbn; lia|repeat constructor].
  - split; [intros x H; repeat destruct H as [<-|H]; try lia; contradiction|].
    split; [vm_compute; reflexivity|]. split; [cbn; lia|]. split; [repeat constructor; lia|]. split; [reflexivity|]. vm_compute. discriminate.
Qed.
Print Assumptions C19_change_after_load_refuted.

(** A leaf object that the factory hands out again keeps the step of its earlier use: if it
    receives the upper half of a split, the keys of that half are wrong. *)
Theorem C19_reused_leaf_refuted : exists n ks old m p i x,
  made n ks /\ length ks = 4%nat /\ kn_load kn_new m 0 = Some (old, p) /\
  nth_error (skipn 2 ks) i = Some x /\ kn_keyAt (snd (kn_split 4 n old)) i <> x.
Proof.
  exists (kn_put (kn_put (kn_put (kn_put kn_new 1 0) 2 1) 3 2) 4 3), [1; 2; 3; 4].
  eexists _, (kn_image (kn_put (kn_put (kn_put kn_new 10 0) 20 1) 30 2)), _, 1%nat, 4. split; [|split; [reflexivity|]].
  - change [1; 2; 3; 4] with (firstn 3 [1; 2; 3] ++ 4 :: skipn 3 [1; 2; 3]). apply made_put; [|cbn; lia|repeat constructor; lia].
    change [1; 2; 3] with (firstn 2 [1; 2] ++ 3 :: skipn 2 [1; 2]). apply made_put; [|cbn; lia|repeat constructor; lia].
    change [1; 2] with (firstn 1 [1] ++ 2 :: skipn 1 [1]). apply made_put; [|cbn; lia|repeat constructor; lia].
    change [1] with (firstn 0 (@nil Z) ++ 1 :: skipn 0 []). apply made_put; [constructor|cbn; lia|repeat constructor].
  - split; [vm_compute; reflexivity|]. split; [reflexivity|]. vm_compute. discriminate.
Qed.
Print Assumptions C19_reused_leaf_refuted.

(** *** C23 *)
(** Every leaf of at most 420 terms can be written, whatever permutations its terms have, and
    the coordinates of each term are read back unchanged. *)
Theorem C23_coordinates_partial (us : list tc) : (length us <= 420)%nat ->
  (forall u i c, In u us -> u i = Some c -> fits_fields c) ->
  exists b, serialize_values (map coords us) = Some b /\
    forall m raw, contains m raw b -> forall i u, nth_error us i = Some u ->
    exists l, parseInternalLine m raw (length us) i = Some l /\
      (forall j, (j < 6)%nat -> tc_of l j = u j) /\ l = coords u.
Proof.
  intros Hl Hok. destruct (serialize_values (map coords us)) as [b|] eqn:E.
  - exists b. split; auto. intros m raw Hc i u Hi. exists (coords u). split; [|split; [|reflexivity]].
    + rewrite <- (map_length coords us). apply (parseInternalLine_ok (map coords us) b); auto.
      * intros l H. apply in_map_iff in H as (w & <- & Hw). split; [now exists w|].
        intros e He. unfold coords in He. apply in_flat_map in He as (j & _ & He). destruct (w j) as [c|] eqn:Ew; [|destruct He].
        destruct He as [<-|[]]. eapply Hok; eauto.
      * rewrite nth_error_map, Hi. reflexivity.
    + intros j Hj. now apply tc_of_list.
  - exfalso. revert E. apply serialize_fits; [now rewrite map_length|]. intros l H. apply in_map_iff in H as (w & <- & Hw). now exists w.
Qed.
Print Assumptions C23_coordinates_partial.

(** For any number of terms: if the leaf can be written, it is read back unchanged. *)
Theorem C23_read_back (us : list tc) b m raw : (forall u i c, In u us -> u i = Some c -> fits_fields c) ->
  serialize_values (map coords us) = Some b -> contains m raw b ->
  forall i u, nth_error us i = Some u ->
  exists l, parseInternalLine m raw (length us) i = Some l /\ (forall j, (j < 6)%nat -> tc_of l j = u j) /\ l = coords u.
Proof.
  intros Hok E Hc i u Hi. exists (coords u). split; [|split; [|reflexivity]].
  - rewrite <- (map_length coords us). apply (parseInternalLine_ok (map coords us) b); auto.
    + intros l H. apply in_map_iff in H as (w & <- & Hw). split; [now exists w|].
      intros e He. unfold coords in He. apply in_flat_map in He as (j & _ & He). destruct (w j) as [c|] eqn:Ew; [|destruct He].
      destruct He as [<-|[]]. eapply Hok; eauto.
    + rewrite nth_error_map, Hi. reflexivity.
  - intros j Hj. now apply tc_of_list.
Qed.
Print Assumptions C23_read_back.

Definition some_us : list tc := [some_tc [0; 3]%nat 7; some_tc [1]%nat 300; some_tc []%nat 0; some_tc [0; 1; 2; 3; 4; 5]%nat 70000].
Example C23_case : (forall u i c, In u some_us -> u i = Some c -> fits_fields c) /\
  (do b <- serialize_values (map coords some_us); do l <- parseInternalLine (7 :: b) 1 4 3; Some (tc_of l 4%nat)) = Some (Some (mkCoord 70000 0 1 70004)).
Proof.
  split; [|vm_compute; reflexivity].
  assert (H : forall l x, 0 <= x < 2 ^ 62 -> forall i c, (i < 1000)%nat -> some_tc l x i = Some c -> fits_fields c).
  { intros l x Hx i c Hi E. unfold some_tc in E. destruct (existsb _ l); [|discriminate]. injection E as <-.
    unfold fits_fields. cbn [co_n co_file co_pos co_strat]. lia. }
  assert (Hs : forall l x i c, (forall j, In j l -> (j < 1000)%nat) -> some_tc l x i = Some c -> (i < 1000)%nat).
  { intros l x i c Hl E. unfold some_tc in E. destruct (existsb (Nat.eqb i) l) eqn:Ee; [|discriminate].
    apply existsb_exists in Ee as (j & Hj & Ej). apply Nat.eqb_eq in Ej as <-. auto. }
  intros u i c Hu E. cbn in Hu. repeat destruct Hu as [<-|Hu]; try contradiction;
    (eapply H; [| |exact E]; [lia|]; eapply Hs; [|exact E]; intros j Hj; repeat destruct Hj as [<-|Hj]; try lia; contradiction).
Qed.

(** The positions of the terms have two bytes: a leaf with 500 terms that have all six
    permutations cannot be written (the program exits). *)
Theorem C23_large_leaf_refuted : exists us : list tc, (forall u i c, In u us -> u i = Some c -> fits_fields c) /\
  (length us <= 2048)%nat /\ serialize_values (map coords us) = None.
Proof.
  exists (repeat (fun i => if (i <? 6)%nat then Some (mkCoord (2 ^ 62) 0 60000 (2 ^ 62)) else None) 500).
  split; [|split; [rewrite repeat_length; lia|vm_compute; reflexivity]].
  intros u i c Hu E. apply repeat_spec in Hu. subst u. cbn beta in E. destruct (i <? 6)%nat; [|discriminate]. injection E as <-.
  unfold fits_fields. cbn [co_n co_file co_pos co_strat]. lia.
Qed.
Print Assumptions C23_large_leaf_refuted.

(** *** C17 on disk *)
(** The image that a numeric leaf writes. *)
Definition num_image (n : kn) (vs : list Z) : option (list Z) := Some (leaf_image_num n vs).

(** If a disk holds the nodes of the tree that a history made, then reading it with fresh
    objects gives the last value of each key. *)
Theorem C17_disk_partial m h : (1 <= m)%nat -> Z.of_nat (m + m) < 2 ^ 31 -> allowed [] h -> (forall o, In o h -> 0 <= op_val o < 2 ^ 63) ->
  exists t, build_num (m + m) h = Some t /\
    forall d olds root, stored num_image d t root -> small_steps t -> (forall i, 1 <= kn_step (olds i)) ->
    exists f0, forall fuel k, (f0 <= fuel)%nat -> disk_get leaf_load_num d olds fuel root k = Some (last_value k h).
Proof.
  intros Hm Hmx HA Hv. destruct (num_built m h Hm HA) as (t & l & E & HS & HR & Hl).
  exists t. split; auto. intros d olds root Hst Hsm Hold.
  assert (Hvl : forall k v, last_value k h = Some v -> 0 <= v < 2 ^ 63).
  { clear - Hv. induction h as [|o h IH]; intros k v E; [discriminate|]. cbn in E.
    destruct (last_value k h) eqn:El; [injection E as <-; apply (IH (fun o H => Hv o (or_intror H)) k); auto|].
    destruct (op_key o =? k); [|discriminate]. injection E as <-. apply Hv. now left. }
  pose proof (proj1 (incr_dbl _ l) (Shape_incr _ m t l HS)) as Hi.
  assert (Ho : okvals Z (fun v => 0 <= v < 2 ^ 63) t).
  { apply (okvals_of Z m _ t l HS). intros (k, v) He. cbn [snd]. apply (Hvl k). rewrite <- Hl. now apply lookup_in. }
  destruct (disk_ok Z m num_image leaf_load_num (fun v => 0 <= v < 2 ^ 63)) with (d := d) (olds := olds) (t := t) (l := l) (id := root) as (f0 & F); auto.
  { intros. eapply load_num; eauto. }
  exists f0. intros fuel k Hf. rewrite (F fuel k Hf). rewrite (get_ok Z m t l k HS). now rewrite Hl.
Qed.
Print Assumptions C17_disk_partial.

(** The same for term coordinates: what is read is the list for the last value. *)
Theorem C17_disk_coordinates_partial m h : (1 <= m)%nat -> Z.of_nat (m + m) < 2 ^ 31 -> allowed [] h -> replacing h ->
  (forall o i c, In o h -> op_val o i = Some c -> fits_fields c) ->
  exists t, build_tc (m + m) h = Some t /\
    forall d olds root, stored leaf_image_tc d t root -> small_steps t -> (forall i, 1 <= kn_step (olds i)) ->
    exists f0, forall fuel k, (f0 <= fuel)%nat ->
      disk_get leaf_load_tc d olds fuel root k = Some (option_map coords (last_value k h)).
Proof.
  intros Hm Hmx HA Hrp Hv. destruct (tc_built m h Hm HA) as (t & l & E & HS & HR & Hl).
  exists t. split; auto. intros d olds root Hst Hsm Hold.
  assert (Hlist : forall k, lookup _ k l = option_map coords (last_value k h)).
  { intros k. rewrite Hl. pose proof (value_of_tc k h None None I I Hrp) as H.
    destruct (value_of _ _ _ _ None k h) as [u|], (last_value k h) as [v|]; cbn [agree] in H; try contradiction; auto.
    cbn [option_map]. f_equal. now apply list_of_ext. }
  assert (Hvl : forall k v i c, last_value k h = Some v -> v i = Some c -> fits_fields c).
  { clear - Hv. induction h as [|o h IH]; intros k v i c E Ei; [discriminate|]. cbn in E.
    destruct (last_value k h) as [w|] eqn:El; [injection E as <-; apply (IH (fun o i c H => Hv o i c (or_intror H)) k w i c); auto|].
    destruct (op_key o =? k); [|discriminate]. injection E as <-. apply (Hv o i c); auto. now left. }
  pose proof (proj1 (incr_dbl _ l) (Shape_incr _ m t l HS)) as Hi.
  pose (okv := fun v : list (nat * coord) => (exists u, v = list_of u) /\ forall e, In e v -> fits_fields (snd e)).
  assert (Ho : okvals _ okv t).
  { apply (okvals_of _ m _ t l HS). intros (k, v) He. cbn [snd]. apply lookup_in in He; auto. rewrite Hlist in He.
    destruct (last_value k h) as [w|] eqn:Ew; [|discriminate]. cbn [option_map] in He. assert (Ev : v = coords w) by congruence. subst v.
    split; [now exists w|]. intros e He'. unfold coords in He'. apply in_flat_map in He' as (j & _ & He'). destruct (w j) as [c|] eqn:Ej; [|destruct He'].
    destruct He' as [<-|[]]. apply (Hvl k w j c Ew Ej). }
  destruct (disk_ok _ m leaf_image_tc leaf_load_tc okv) with (d := d) (olds := olds) (t := t) (l := l) (id := root) as (f0 & F); auto.
  { intros. eapply load_tc; eauto. }
  exists f0. intros fuel k Hf. rewrite (F fuel k Hf). rewrite (get_ok _ m t l k HS). now rewrite Hlist.
Qed.
Print Assumptions C17_disk_coordinates_partial.

(** A disk that holds the tree of [some_history]. *)
Fixpoint ids_of {V} (t : tree V) (id : Z) : list (Z * tree V) :=
  match t with
  | Leaf _ _ => [(id, t)]
  | Inter _ cs => (id, t) :: (fix go (cs : list (tree V)) (i : Z) := match cs with [] => [] | c :: cs => ids_of c (10 * id + i) ++ go cs (i + 1) end) cs 0
  end.
Definition disk_of (t : tree Z) : disk := fun id =>
  match find (fun e => fst e =? id) (ids_of t 1) with
  | Some (_, Leaf n vs) => Some (false, leaf_image_num n vs)
  | Some (_, Inter n cs) => Some (true, kn_image n ++ flat_map (enc 8) (map (fun i => 10 * id + Z.of_nat i) (seq 0 (length cs))))
  | None => None
  end.
Example C17_disk_case : exists t, build_num 4 some_history = Some t /\ stored num_image (disk_of t) t 1 /\ small_steps t.
Proof.
  eexists. split; [vm_compute; reflexivity|].
  assert (Hc : forall a, contains a 0 a) by (intros a; exists [], []; rewrite app_nil_r; split; reflexivity).
  split.
  - exists [10; 11; 12; 13]. eexists. split; [vm_compute; reflexivity|]. split; [apply Hc|].
    repeat (split; [lia|split; [eexists _, _; split; [reflexivity|split; [vm_compute; reflexivity|apply Hc]]|]]). exact I.
  - repeat split; intros; vm_compute; reflexivity.
Qed.
