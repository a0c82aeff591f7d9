(** Proofs about the flat tree: the flat tree of a loaded database. *)
From Coq Require Import Sorted Lia ZifyBool Permutation.
From Verif Require Import QuerySpec QueryProofs InserterSpec InserterProofs InserterProps SortModel SortSpec SortProofs SortProofs3 SortProps.
From Verif Require Import FileModel FileProofs TableSpec TableProofs FlatModel FlatProofs FlatProofs2 KbModel KbSpec KbProofs KbProofs3 KbProofs4 KbProofs5 KbProofs8.
Local Open Scope Z_scope.
Ltac Zify.zify_post_hook ::= Z.div_mod_to_equations.

Definition ent_of (c : coords) : ent := let '(k, f, p, s) := c in (k, (s, Z.of_nat f, p)).

Lemma ofold_app {A B} (f : B -> A -> option A) l1 l2 a : ofold f (l1 ++ l2) a = match ofold f l1 a with Some x => ofold f l2 x | None => None end.
Proof. revert a. induction l1 as [|x l1 IH]; intros a; cbn [app ofold]; auto. destruct (f x a); auto. Qed.

Section Reads.
Variables (t : ts) (G : nat -> list table_t).
Hypothesis HL : Listing t G.

Lemma entries_read A (step : Z -> Z -> Z -> Z -> A -> option A) f : forall n j a, (j + n = length (G f))%nat ->
  fl_entries Labelled t step n f (idx_bytes (marksof 0 (G f))) (Z.of_nat j) a = ofold (on_ent step) (map ent_of (entries_of f j (skipn j (G f)))) a.
Proof.
  induction n as [|n IH]; intros j a Hj.
  - rewrite skipn_all2 by lia. reflexivity.
  - destruct (nth_error (G f) j) as [[[k s] b]|] eqn:E; [|apply nth_error_None in E; lia].
    rewrite (KbProofs.skipn_cons _ _ _ E). cbn [entries_of map ofold fl_entries]. destruct (li_ent _ _ HL f k s b (nth_error_In _ _ E)) as [Hk Hs].
    unfold fl_entry. cbv zeta. rewrite (read_key _ _ _ _ _ E Hk), (read_strat _ _ _ _ _ E). cbn [unlabeled ent_of on_ent].
    rewrite to_char_mod by auto. assert (Hjj : (j < length (G f))%nat) by (apply nth_error_Some; congruence). pose proof (li_len _ _ HL f) as Hlen; unfold FileModel.zlen in Hlen.
    rewrite to_int32_id by lia. destruct (step k s (Z.of_nat f) (Z.of_nat j) a) as [a'|]; auto.
    replace (Z.of_nat j + 1) with (Z.of_nat (S j)) by lia. apply IH. lia.
Qed.

Lemma count_read f ms : Z.of_nat (length ms) < 2 ^ 31 -> f = idx_bytes ms -> rd 8 f 0 = Some (Z.of_nat (length ms)).
Proof. intros H ->. unfold idx_bytes. rewrite rd8_head by (unfold FileModel.zlen; lia). reflexivity. Qed.

Lemma files_read A (step : Z -> Z -> Z -> Z -> A -> option A) : forall n i a, (i + n = S (t_last t))%nat -> Z.of_nat (t_last t) < 2 ^ 13 ->
  fl_files Labelled t step (seq i n) a = ofold (on_ent step) (map ent_of (flat_map (fun f => entries_of f 0 (G f)) (seq i n))) a.
Proof.
  induction n as [|n IH]; intros i a Hi Hl; cbn [seq fl_files flat_map map ofold]; auto.
  rewrite (proj2 (Z.ltb_ge 32767 (Z.of_nat i))) by lia. rewrite (li_idx _ _ HL i) by lia.
  rewrite (count_read _ (marksof 0 (G i))) by (auto; rewrite marksof_length; apply (li_len _ _ HL)). rewrite marksof_length, Nat2Z.id.
  rewrite map_app, ofold_app. pose proof (entries_read _ step i (length (G i)) 0 a eq_refl) as ER. cbn [skipn Z.of_nat] in ER. rewrite ER.
  destruct (ofold (on_ent step) (map ent_of (entries_of i 0 (G i))) a) as [a'|]; auto. apply IH; auto. lia.
Qed.
Lemma files_beyond A (step : Z -> Z -> Z -> Z -> A -> option A) : forall n i a, (t_last t < i)%nat -> Z.of_nat (i + n) < 32767 ->
  fl_files Labelled t step (seq i n) a = Some a.
Proof.
  induction n as [|n IH]; intros i a Hi Hl; cbn [seq fl_files]; auto.
  rewrite (proj2 (Z.ltb_ge 32767 (Z.of_nat i))) by lia. destruct (li_beyond _ _ HL i Hi) as [[-> _]| ->]; [apply IH; lia|].
  rewrite (count_read _ []) by (auto; cbn; lia). cbn [length Z.of_nat Z.to_nat fl_entries]. apply IH; lia.
Qed.
Lemma fl_files_app A (step : Z -> Z -> Z -> Z -> A -> option A) l1 l2 : forall a, fl_files Labelled t step (l1 ++ l2) a = match fl_files Labelled t step l1 a with Some x => fl_files Labelled t step l2 x | None => None end.
Proof.
  induction l1 as [|i l1 IH]; intros a; cbn [app fl_files]; auto. destruct (32767 <? Z.of_nat i); auto. destruct (t_idx t i) as [ix|]; auto.
  destruct (rd 8 ix 0) as [n|]; auto. destruct (fl_entries Labelled t step (Z.to_nat n) i ix 0 a); auto.
Qed.

Lemma reads_labelled : Z.of_nat (t_last t) < 2 ^ 13 -> reads Labelled t (map ent_of (all_coords t G)).
Proof.
  intros Hl A step a. unfold fl_loop. replace (2 * S (t_last t))%nat with (S (t_last t) + S (t_last t))%nat by lia. rewrite seq_app, fl_files_app.
  rewrite files_read by (auto; lia). unfold all_coords. destruct (ofold _ _ a) as [a'|]; auto. cbn [Nat.add]. apply files_beyond; lia.
Qed.
End Reads.

(** ** The flat tree of a loaded database *)
Definition ents (l : list entry) : list ent := map (fun e => (e_key e, (e_strat e, Z.of_nat (e_file e), e_pos e))) l.

Lemma ents_keys l : map fst (ents l) = map e_key l.
Proof. unfold ents. now rewrite map_map. Qed.
Lemma look_ents k l : look k (ents l) = match find (fun e => e_key e =? k) l with Some e => Some (e_strat e, Z.of_nat (e_file e), e_pos e) | None => None end.
Proof. induction l as [|e l IH]; cbn [ents map look find]; auto. fold (ents l). destruct (e_key e =? k); auto. Qed.
Lemma entry_for_look k l : entry_for k l = match find (fun e => e_key e =? k) l with Some e => Some (as_coord e) | None => None end.
Proof. unfold entry_for. destruct (find _ _); reflexivity. Qed.

Section Flat.
Variables (U : list triple) (st : nat -> list (Z * Z) -> bool) (L : nat -> list entry) (d : db) (t : tree (list (nat * coord))) (wl : list (Z * list (nat * coord))).
Variable junk : Z -> nat -> list Z.
Hypothesis HD : DbOk U st L d.
Hypothesis HU : zl U < 2 ^ 31.
Hypothesis Hr : d_root d = RTree t.
Hypothesis HW : walked t L wl.
Hypothesis Hjunk : forall k i, length (junk k i) = 8%nat.

Definition M := map (fun kv : Z * list (nat * coord) => (fst kv, tc_of (snd kv))) wl.

Lemma M_keys : map fst M = map fst wl.
Proof. unfold M. now rewrite map_map. Qed.
Lemma M_sorted : StronglySorted Z.lt (map fst M).
Proof. rewrite M_keys. apply HW. Qed.
Lemma M_In k v : In (k, v) M -> forall i, (i < 6)%nat -> v i = entry_for k (L i).
Proof. intros H i Hi. unfold M in H. apply in_map_iff in H. destruct H as ([k' x] & Ex & Hin). cbn in Ex. injection Ex as -> <-. destruct HW as (_ & _ & _ & Hv). now apply Hv. Qed.
Lemma M_key k : In k (map fst M) <-> exists i, (i < 6)%nat /\ In k (map e_key (L i)).
Proof. rewrite M_keys. apply HW. Qed.

Lemma loaded_or i : (i < 6)%nat -> Loaded (V U i) (st i) (d_pad d) (L i) (d_files d i) \/ (L i = [] /\ d_files d i = None).
Proof. intros Hi. destruct (d_present d i) eqn:E; [left; now apply (db_loaded _ _ _ _ HD)|right; now apply (db_absent _ _ _ _ HD)]. Qed.

Lemma L_sorted i : (i < 6)%nat -> StronglySorted Z.lt (map e_key (L i)).
Proof.
  intros Hi. destruct (loaded_or i Hi) as [H|[-> _]]; [|constructor]. rewrite (lo_keys _ _ _ _ _ H). apply filter_ss, keys_sorted, canon_sorted.
Qed.
Lemma L_entry i e : (i < 6)%nat -> In e (L i) -> KbProofs3.fields_ok e /\ 0 < e_n e < 2 ^ 40.
Proof.
  intros Hi He. destruct (loaded_or i Hi) as [H|[E _]]; [|rewrite E in He; destruct He]. pose proof (lo_fields _ _ _ _ _ H) as HF. rewrite Forall_forall in HF. split; [now apply HF|].
  rewrite (lo_n _ _ _ _ _ H e He).
  assert (Hk : In (e_key e) (keys (V U i))). { assert (Hx : In (e_key e) (map e_key (L i))) by now apply in_map. rewrite (lo_keys _ _ _ _ _ H) in Hx. apply filter_In in Hx. tauto. }
  assert (Hne : table_of (e_key e) (V U i) <> []) by now apply keys_In.
  assert (Hle : (length (table_of (e_key e) (V U i)) <= length U)%nat).
  { unfold table_of. rewrite map_length. etransitivity; [apply filter_length_le|]. apply V_length. }
  split; [destruct (table_of (e_key e) (V U i)); [congruence|cbn [length]; lia]|].
  eapply Z.le_lt_trans; [apply inj_le; exact Hle|]. eapply Z.lt_trans; [exact HU|]. reflexivity.
Qed.
Lemma L_find i k e : (i < 6)%nat -> In e (L i) -> e_key e = k -> find (fun e => e_key e =? k) (L i) = Some e.
Proof.
  intros Hi He <-. pose proof (L_sorted i Hi) as Hs. revert He Hs. generalize (L i). induction l as [|x l IH]; intros He Hs; [destruct He|]. cbn [find].
  cbn [map] in Hs. apply StronglySorted_inv in Hs as [Hs HF]. destruct He as [-> |He]; [now rewrite Z.eqb_refl|].
  rewrite Forall_forall in HF. pose proof (HF (e_key e) (in_map _ _ _ He)). rewrite (proj2 (Z.eqb_neq _ _)) by lia. auto.
Qed.

Lemma order6 i : In i (order Labelled) -> (i < 6)%nat.
Proof. cbn. lia. Qed.
Lemma M0 k v : In (k, v) M -> 0 <= k.
Proof.
  intros H. assert (Hk : In k (map fst M)) by (apply in_map_iff; now exists (k, v)). apply M_key in Hk. destruct Hk as (i & Hi & Hk). apply in_map_iff in Hk. destruct Hk as (e & <- & He).
  destruct (L_entry i e Hi He) as [HF _]. apply HF.
Qed.
Lemma ents_in i k x : In i (order Labelled) -> In (k, x) (ents (L i)) -> exists v, In (k, v) M /\ 0 < fl_n v i.
Proof.
  intros Hi Hin. apply order6 in Hi. unfold ents in Hin. apply in_map_iff in Hin. destruct Hin as (e & Ee & He). injection Ee as Ek _.
  assert (Hk : In k (map fst M)). { apply M_key. exists i. split; auto. apply in_map_iff. now exists e. }
  apply in_map_iff in Hk. destruct Hk as ([k' v] & Ek' & Hv). cbn in Ek'. subst k'. exists v. split; auto.
  unfold fl_n. rewrite (M_In k v Hv i Hi). rewrite entry_for_look, (L_find i k e Hi He Ek). destruct (L_entry i e Hi He) as [_ Hn]. cbn. lia.
Qed.
Lemma ents_all k v i : In (k, v) M -> In i (order Labelled) -> look k (ents (L i)) = None -> v i = None.
Proof.
  intros Hv Hi Hl. rewrite (M_In k v Hv i (order6 i Hi)), entry_for_look. rewrite look_ents in Hl. destruct (find _ _); [discriminate|auto].
Qed.
Lemma M_some k v : In (k, v) M -> exists i, (i < 6)%nat /\ fl_n v i <> 0.
Proof.
  intros Hv. assert (Hk : In k (map fst M)) by (apply in_map_iff; now exists (k, v)). apply M_key in Hk. destruct Hk as (i & Hi & Hk). apply in_map_iff in Hk. destruct Hk as (e & Ek & He).
  exists i. split; auto. unfold fl_n. rewrite (M_In k v Hv i Hi), entry_for_look, (L_find i k e Hi He Ek). destruct (L_entry i e Hi He) as [_ Hn]. cbn. lia.
Qed.

Lemma files_ok i : (i < 6)%nat -> has_files Labelled (d_files d i) (ents (L i)).
Proof.
  intros Hi. destruct (loaded_or i Hi) as [H|[-> ->]]; [|reflexivity]. pose proof (lo_files _ _ _ _ _ H) as HF. destruct (d_files d i) as [tt|]; cbn [has_files]; [|now rewrite HF].
  destruct HF as (Hne & G & HL & EC).
  replace (ents (L i)) with (map ent_of (all_coords tt G)).
  - apply reads_labelled; auto.
    assert (HG : G (t_last tt) <> []) by now apply (li_ne _ _ HL). destruct (G (t_last tt)) as [|[[k s] b] r] eqn:EG; [congruence|].
    assert (Hin : In (k, t_last tt, to_int32 (Z.of_nat (0 + 0)), s) (all_coords tt G)).
    { unfold all_coords. apply in_flat_map. exists (t_last tt). split; [apply in_seq; lia|]. rewrite EG. apply (entries_nth (t_last tt) _ 0 0 k s b). reflexivity. }
    rewrite EC in Hin. apply in_map_iff in Hin. destruct Hin as (e & Ee & He). destruct (L_entry i e Hi He) as [HF _]. unfold KbProofs3.fields_ok in HF.
    assert (e_file e = t_last tt) by (unfold coord_of in Ee; congruence). lia.
  - rewrite EC. unfold ents. rewrite map_map. apply map_ext. intros e. reflexivity.
Qed.

Lemma flat_fields n : fields Labelled M (cE (fun i => ents (L i))) n.
Proof.
  intros k v i Hk Ev Hi. pose proof (order6 i Hi) as H6. apply look_In in Ev. unfold fl_n. rewrite (M_In k v Ev i H6), entry_for_look. unfold cE. rewrite look_ents.
  destruct (find (fun e => e_key e =? k) (L i)) as [e|] eqn:E; [|lia]. apply find_some in E. destruct E as [He _]. destruct (L_entry i e H6 He) as [HF Hn]. unfold KbProofs3.fields_ok in HF. cbn [co_n as_coord]. lia.
Qed.

Lemma flat_load : d_files d 3 <> None -> wl <> [] -> exists n,
  fl_load Labelled junk (d_files d) M = Some (Some (recs Labelled junk M (cE (fun i => ents (L i))) n)) /\ top M n.
Proof.
  intros H3 Hne. destruct (d_files d 3) as [t3|] eqn:E3; [|congruence].
  apply (load_all Labelled junk M (fun i => ents (L i)) Hjunk M_sorted M0) with (t3 := t3); auto.
  - intros i Hi. rewrite ents_keys. apply L_sorted, order6, Hi.
  - exact ents_in.
  - exact ents_all.
  - intros k v Hv. now apply (M_some k).
  - intros i Hi. apply files_ok, order6, Hi.
  - unfold M. destruct wl; [congruence|discriminate].
Qed.

(** The coordinates found are those in the tree. *)
Lemma flat_found k i : (i < 6)%nat -> found M (cE (fun i => ents (L i))) k i = entry_for k (L i).
Proof.
  intros Hi. unfold found. destruct (look k M) as [v|] eqn:Ev.
  - apply look_In in Ev. unfold fl_n. rewrite (M_In k v Ev i Hi), entry_for_look. unfold cE. rewrite look_ents.
    destruct (find (fun e => e_key e =? k) (L i)) as [e|] eqn:E; auto. apply find_some in E. destruct E as [He _]. destruct (L_entry i e Hi He) as [_ Hn]. cbn [co_n as_coord].
    rewrite (proj2 (Z.ltb_lt 0 (e_n e))) by lia. reflexivity.
  - rewrite entry_for_look. destruct (find (fun e => e_key e =? k) (L i)) as [e|] eqn:E; auto. exfalso. apply find_some in E. destruct E as [He Ek].
    assert (Hk : In k (map fst M)). { apply M_key. exists i. split; auto. apply in_map_iff. exists e. split; auto. lia. }
    apply in_map_iff in Hk. destruct Hk as ([k' v] & Ek' & Hv). cbn in Ek'. subst k'. rewrite (look_sorted k v M M_sorted Hv) in Ev. discriminate.
Qed.
(** The flat tree has [n] records, and gives what the tree gives. *)
Lemma flat_ok fuel : d_files d 3 <> None -> wl <> [] -> (length wl < fuel)%nat -> exists n raw,
  kb_flat fuel junk d = Some (mkDb (RFlat raw) (d_files d) (d_present d) (d_pad d)) /\ zl raw = n * 83 /\ top M n /\
  (forall k, 0 <= k < n -> exists v, fl_get Labelled raw (d_pad d) k = Some v /\ (forall i, (i < 6)%nat -> v i = entry_for k (L i)) /\ forall i, (6 <= i)%nat -> v i = None) /\
  (forall m, (Z.to_nat n <= m)%nat -> exists l, fl_walk m Labelled raw (d_pad d) 0 0 = Some l /\ map fst l = range 0 n /\ forall k v, In (k, v) l -> fl_get Labelled raw (d_pad d) k = Some v).
Proof.
  intros H3 Hne Hf. destruct (flat_load H3 Hne) as (n & E & Ht). exists n, (recs Labelled junk M (cE (fun i => ents (L i))) n).
  assert (Hn : 0 <= n). { destruct Ht as (_ & v & Hv). pose proof (M0 _ _ Hv). lia. }
  assert (Hpad : 3 <= zlen (d_pad d)) by (destruct (db_pad _ _ _ _ HD); lia).
  pose proof (flat_fields n) as HF.
  split; [|split; [|split; [exact Ht|split]]].
  - unfold kb_flat. rewrite Hr. destruct HW as ((c & -> & Hw) & _). rewrite (Hw fuel Hf). unfold M in E. rewrite E. reflexivity.
  - exact (recs_length Labelled junk M Hjunk _ n Hn).
  - intros k Hk. destruct (get_all Labelled junk M Hjunk _ n (d_pad d) k Hk HF Hpad) as (v & Ev & Hv). exists v. split; auto. split.
    + intros i Hi. rewrite Hv. replace (existsb (Nat.eqb i) (order Labelled)) with true; [now apply flat_found|].
      destruct i as [|[|[|[|[|[|i]]]]]]; reflexivity || lia.
    + intros i Hi. rewrite Hv. replace (existsb (Nat.eqb i) (order Labelled)) with false; auto. destruct i as [|[|[|[|[|[|i]]]]]]; reflexivity || lia.
  - intros m Hm. destruct (walk_all Labelled junk M Hjunk _ n (d_pad d) HF Hpad m 0 ltac:(lia) ltac:(lia)) as (l & El & Hl & Hg). exists l. auto.
Qed.
End Flat.
