(** Theorems about recording updates. *)
From Coq Require Import Sorted Permutation ZifyBool.
From Verif Require Import ItrProofs ItrProps UpdSpec UpdProofs UpdProofs2 UpdProofs3.
Local Open Scope Z_scope.

(** C07.  Given a sorted list of triples without duplicates and an iterator over the sorted
    triples of the database, an addition records exactly the triples the database does not
    contain, and a deletion exactly those it contains. *)
Theorem C07_match : forall cnt fuel kb o input,
  Yields cnt kb o -> StronglySorted elt kb -> StronglySorted elt input ->
  (length kb < fuel)%nat ->
  (exists out, upd_match fuel ADDITION_df o input = Some out /\ StronglySorted elt out /\
     forall x, In x out <-> In x input /\ ~ In x kb) /\
  (exists out, upd_match fuel DELETE_df o input = Some out /\ StronglySorted elt out /\
     forall x, In x out <-> In x input /\ In x kb).
Proof.
  intros cnt fuel kb o input Hy Hs Hi Hf. split.
  - apply (match_ok cnt ADDITION_df fuel kb o input); auto.
  - apply (match_ok cnt DELETE_df fuel kb o input); auto.
Qed.
Print Assumptions C07_match.

Example C07_nonvacuous :
  let kb := [(1, 2, 3); (1, 2, 5); (4, 0, 0)] in
  let input := [(0, 9, 9); (1, 2, 3); (1, 2, 4); (1, 2, 5); (4, 0, 0); (5, 1, 1)] in
  Yields true kb (list_itr (0, 0, 0) kb) /\
  upd_match 4 ADDITION_df (list_itr (0, 0, 0) kb) input = Some [(0, 9, 9); (1, 2, 4); (5, 1, 1)] /\
  upd_match 4 DELETE_df (list_itr (0, 0, 0) kb) input = Some [(1, 2, 3); (1, 2, 5); (4, 0, 0)].
Proof. cbv zeta. split; [apply list_yields|]. split; vm_compute; reflexivity. Qed.

(** ** A sequence of updates *)
Lemma step_set_ext (S S' : elem -> Prop) u : (forall x, S x <-> S' x) ->
  forall x, step_set S u x <-> step_set S' u x.
Proof. intros H x. unfold step_set. destruct (fst u); rewrite H; tauto. Qed.
Lemma replay_app S a b : replay S (a ++ b) = replay (replay S a) b.
Proof. unfold replay. apply fold_left_app. Qed.
Lemma valid_app : forall h S u,
  valid_history S (h ++ [u]) <->
  valid_history S h /\ (forall x, In x (snd u) -> if fst u then replay S h x else ~ replay S h x).
Proof.
  induction h as [|v h IH]; intros S u; cbn [app valid_history].
  - unfold replay; cbn. tauto.
  - rewrite IH. unfold replay; cbn [fold_left]. tauto.
Qed.

(** Sizes: a list without duplicates is not longer than one that contains its elements. *)
Lemma sorted_nodup l : StronglySorted elt l -> NoDup l.
Proof.
  induction 1 as [|x l Hs IH Hf]; constructor; auto. intros Hin. rewrite Forall_forall in Hf.
  apply (elt_irrefl x). auto.
Qed.
Lemma replay_in S0 h x : replay (fun y => In y S0) h x ->
  In x (S0 ++ concat (map snd h)).
Proof.
  revert x. induction h as [|u h IH] using rev_ind; intros x.
  - cbn. rewrite app_nil_r. auto.
  - rewrite replay_app. unfold replay at 1. cbn [fold_left]. rewrite map_app, concat_app. cbn [map concat].
    rewrite app_nil_r, app_assoc. intros H. apply in_or_app. unfold step_set in H.
    destruct (fst u); [left; apply IH; tauto|]. destruct H as [H|H]; auto.
Qed.
Lemma concat_length {A} (l : list (list A)) : length (concat l) = list_sum (map (@length A) l).
Proof. induction l as [|a l IH]; [reflexivity|]. cbn [concat map]. rewrite app_length, IH. reflexivity. Qed.
Lemma replay_dec S0 x : forall h,
  replay (fun y => In y S0) h x \/ ~ replay (fun y => In y S0) h x.
Proof.
  induction h as [|u h IH] using rev_ind.
  - unfold replay; cbn. destruct (in_dec elem_dec x S0); auto.
  - rewrite replay_app. unfold replay at 1 3. cbn [fold_left]. unfold step_set.
    destruct (in_dec elem_dec x (snd u)), (fst u); tauto.
Qed.

Definition request_size (r : requests) : nat := list_sum (map (fun u => length (snd u)) r).

Lemma session_ok fuel so base out : std_sort comp_gt (sort_comp so) ->
  std_sort cscan_gt (sort_scan so) -> Yields true base out -> StronglySorted elt base ->
  forall h d r, session fuel so out h d r ->
  Forall (fun u => StronglySorted elt (snd u)) r ->
  (length base + request_size r + 1 < fuel)%nat ->
  valid_history (fun x => In x base) h /\
  (forall x, replay (fun y => In y base) h x <-> replay (fun y => In y base) (as_history r) x) /\
  Forall2 (fun (u : bool * list elem) (d : bool * pitr) =>
     fst d = fst u /\ Yields true (snd u) (snd d) /\ StronglySorted elt (snd u) /\
     (0 <= -1 -> Forall (fun x => fst (fst x) = -1) (snd u))) h d /\
  (list_sum (map (fun u => length (snd u)) h) <= request_size r)%nat.
Proof.
  intros Hs1 Hs2 Hy Hsb.
  assert (Hone : forall h d r, 
    (length base + request_size r + 1 < fuel)%nat ->
    valid_history (fun x => In x base) h ->
    Forall2 (fun (u : bool * list elem) (d : bool * pitr) =>
     fst d = fst u /\ Yields true (snd u) (snd d) /\ StronglySorted elt (snd u) /\
     (0 <= -1 -> Forall (fun x => fst (fst x) = -1) (snd u))) h d ->
    (list_sum (map (fun u => length (snd u)) h) <= request_size r)%nat ->
    forall ty input o rec, StronglySorted elt input ->
    overlay fuel so (-1) d out = Some o -> upd_match fuel ty o input = Some rec ->
    StronglySorted elt rec /\ (forall x, In x rec <-> In x input /\
      effective ty (replay (fun y => In y base) h) x)).
  { intros h d r Hf Hv HF Hsz ty input o rec Hi Ho Hm.
    destruct (C06_query_sees_history fuel so (-1) base h d out) as (o' & R & E & HR & HsR & HinR);
      auto; try lia.
    rewrite Ho in E. injection E as <-.
    assert (HlR : (length R < fuel)%nat).
    { assert (length R <= length (base ++ concat (map snd h)))%nat.
      { apply NoDup_incl_length; [now apply sorted_nodup|]. intros x Hx. apply replay_in.
        now apply HinR. }
      rewrite app_length, concat_length, map_map in H. lia. }
    destruct (match_ok true ty fuel R o input HR HsR Hi HlR) as (out' & Eo & Hso & Hino).
    rewrite Hm in Eo. injection Eo as <-. split; auto.
    intros x. rewrite Hino. destruct ty; cbn [effective]; rewrite HinR; tauto. }
  induction 1 as [|h d r ty input o rec di Hses IH Ho Hm Hne Hdi|h d r ty input o Hses IH Ho Hm];
    intros HF Hfu.
  - cbn. repeat split; auto; tauto.
  - apply Forall_app in HF. destruct HF as [HF1 HF2]. inversion HF2 as [|? ? Hi _]; subst.
    cbn [snd] in Hi. unfold request_size in *. rewrite map_app, list_sum_app in *. cbn in Hfu |- *.
    destruct IH as (V & R & F2 & Sz); auto; [lia|].
    destruct (Hone h d r ltac:(unfold request_size; lia) V F2 Sz ty input o rec Hi Ho Hm)
      as (Hsr & Hinr).
    split; [|split; [|split]].
    + apply valid_app. split; auto. cbn [fst snd]. intros x Hx. apply Hinr in Hx.
      destruct ty; cbn in *; tauto.
    + intros x. unfold as_history in *. rewrite map_app, !replay_app. cbn [map fst snd].
      unfold replay at 1 3. cbn [fold_left]. unfold step_set. cbn [fst snd].
      destruct ty; cbn [is_delete effective] in *; rewrite Hinr, <- (R x);
        split; try tauto.
      intros [H|H]; [tauto|]. destruct (replay_dec base x h); tauto.
    + apply Forall2_app; auto. constructor; [|constructor]. cbn. repeat split; auto. lia.
    + assert (length rec <= length input)%nat.
      { apply NoDup_incl_length; [now apply sorted_nodup|]. intros x Hx. apply Hinr in Hx. tauto. }
      rewrite map_app, list_sum_app. cbn. lia.
  - apply Forall_app in HF. destruct HF as [HF1 HF2]. inversion HF2 as [|? ? Hi _]; subst.
    cbn [snd] in Hi. unfold request_size in *. rewrite map_app, list_sum_app in *. cbn in Hfu |- *.
    destruct IH as (V & R & F2 & Sz); auto; [lia|].
    destruct (Hone h d r ltac:(unfold request_size; lia) V F2 Sz ty input o [] Hi Ho Hm)
      as (Hsr & Hinr).
    split; auto. split; [|split; [auto|lia]].
    intros x. unfold as_history in *. rewrite map_app, !replay_app. cbn [map fst snd].
    unfold replay at 2. cbn [fold_left]. unfold step_set. cbn [fst snd].
    specialize (Hinr x). cbn [In] in Hinr.
    destruct ty; cbn [is_delete effective] in *; rewrite <- (R x).
    + split; auto. intros [H|H]; auto. destruct (replay_dec base x h); tauto.
    + split; [|tauto]. intros H; split; auto. intros Hx. tauto.
Qed.

(** C67.  After any sequence of update requests, each recorded as above, a query sees
    exactly the triples obtained by adding and deleting the requested triples one request
    after the other, whatever the requests repeat or contradict. *)
Theorem C67_updates_do_what_was_requested : forall fuel so base out h d r,
  std_sort comp_gt (sort_comp so) -> std_sort cscan_gt (sort_scan so) ->
  Yields true base out -> StronglySorted elt base ->
  session fuel so out h d r ->
  Forall (fun u => StronglySorted elt (snd u)) r ->
  (length base + request_size r + 1 < fuel)%nat ->
  exists o R, overlay fuel so (-1) d out = Some o /\ Yields true R o /\
    StronglySorted elt R /\
    (forall x, In x R <-> replay (fun y => In y base) (as_history r) x).
Proof.
  intros fuel so base out h d r Hs1 Hs2 Hy Hsb Hses HF Hfu.
  destruct (session_ok fuel so base out Hs1 Hs2 Hy Hsb h d r Hses HF Hfu) as (V & R & F2 & Sz).
  destruct (C06_query_sees_history fuel so (-1) base h d out) as (o & L & E & HR & HsR & HinR);
    auto; try lia.
  exists o, L. repeat split; auto; rewrite <- R; apply HinR.
Qed.
Print Assumptions C67_updates_do_what_was_requested.

(** C67.  The next request of a session can always be recorded. *)
Theorem C67_requests_are_recorded : forall fuel so base out h d r ty input,
  std_sort comp_gt (sort_comp so) -> std_sort cscan_gt (sort_scan so) ->
  Yields true base out -> StronglySorted elt base ->
  session fuel so out h d r ->
  Forall (fun u => StronglySorted elt (snd u)) r -> StronglySorted elt input ->
  (length base + request_size r + 1 < fuel)%nat ->
  exists h' d', session fuel so out h' d' (r ++ [(ty, input)]).
Proof.
  intros fuel so base out h d r ty input Hs1 Hs2 Hy Hsb Hses HF Hi Hfu.
  destruct (session_ok fuel so base out Hs1 Hs2 Hy Hsb h d r Hses HF Hfu) as (V & R & F2 & Sz).
  destruct (C06_query_sees_history fuel so (-1) base h d out) as (o & L & E & HR & HsR & HinR);
    auto; try lia.
  assert (HlR : (length L < fuel)%nat).
  { assert (length L <= length (base ++ concat (map snd h)))%nat.
    { apply NoDup_incl_length; [now apply sorted_nodup|]. intros x Hx. apply replay_in.
      now apply HinR. }
    rewrite app_length, concat_length, map_map in H. lia. }
  destruct (match_ok true ty fuel L o input HR HsR Hi HlR) as (rec & Eo & _).
  destruct rec as [|x rec].
  - exists h, d. eapply ses_empty; eauto.
  - exists (h ++ [(is_delete ty, x :: rec)]), (d ++ [(is_delete ty, list_itr (0, 0, 0) (x :: rec))]).
    eapply ses_recorded; eauto; [discriminate|apply list_yields].
Qed.
Print Assumptions C67_requests_are_recorded.

Example C67_nonvacuous :
  let so := {| sort_comp := isort comp_gt; sort_scan := isort cscan_gt;
               sort_scan_ign := isort cscan_gt_ign |} in
  let base := [(1, 2, 3); (1, 2, 5)] in
  let out := list_itr (0, 0, 0) base in
  let r := [(ADDITION_df, [(0, 1, 1); (1, 2, 3)]); (DELETE_df, [(0, 1, 1); (1, 2, 5); (7, 7, 7)]);
            (DELETE_df, [(9, 9, 9)]); (ADDITION_df, [(0, 1, 1)])] in
  exists h d, session 20 so out h d r.
Proof.
  cbv zeta.
  set (so := {| sort_comp := isort comp_gt; sort_scan := isort cscan_gt;
               sort_scan_ign := isort cscan_gt_ign |}).
  set (out := list_itr (0, 0, 0) [(1, 2, 3); (1, 2, 5)]).
  assert (Hy : Yields true [(1, 2, 3); (1, 2, 5)] out) by apply list_yields.
  assert (Hs : StronglySorted elt [(1, 2, 3); (1, 2, 5)]) by (repeat constructor; cbn; lia).
  destruct std_sort_nonvacuous as [S1 S2].
  pose proof (ses_start 20 so out) as H0.
  eapply (C67_requests_are_recorded 20 so _ out _ _ _ ADDITION_df [(0, 1, 1); (1, 2, 3)]) in H0;
    [|exact S1|exact S2|exact Hy|exact Hs| | |]; try (repeat constructor; cbn; lia).
  destruct H0 as (h1 & d1 & H1).
  eapply (C67_requests_are_recorded 20 so _ out _ _ _ DELETE_df [(0, 1, 1); (1, 2, 5); (7, 7, 7)]) in H1;
    [|exact S1|exact S2|exact Hy|exact Hs| | |]; try (repeat constructor; cbn; lia).
  destruct H1 as (h2 & d2 & H2).
  eapply (C67_requests_are_recorded 20 so _ out _ _ _ DELETE_df [(9, 9, 9)]) in H2;
    [|exact S1|exact S2|exact Hy|exact Hs| | |]; try (repeat constructor; cbn; lia).
  destruct H2 as (h3 & d3 & H3).
  eapply (C67_requests_are_recorded 20 so _ out _ _ _ ADDITION_df [(0, 1, 1)]) in H3;
    [|exact S1|exact S2|exact Hy|exact Hs| | |]; try (repeat constructor; cbn; lia).
  exact H3.
Qed.

(** C67.  The directory chosen for an update is the first one that does not exist. *)
Theorem C67_update_directory_is_new : forall n fuel exists_dir,
  exists_dir n = false -> (forall m, (m < n)%nat -> exists_dir m = true) -> (n < fuel)%nat ->
  path_for_update fuel exists_dir 0 = Some n.
Proof.
  intros n fuel ex Hn Hlt Hf.
  assert (H : forall k i fuel, (i + k = n)%nat -> (k < fuel)%nat -> path_for_update fuel ex i = Some n).
  { induction k as [|k IH]; intros i f Hi Hk; destruct f as [|f]; try lia; cbn.
    - replace i with n by lia. now rewrite Hn.
    - rewrite Hlt by lia. apply IH; lia. }
  apply (H n); lia.
Qed.
Print Assumptions C67_update_directory_is_new.
Example C67_directory_nonvacuous :
  path_for_update 9 (fun n => (n <? 3)%nat) 0 = Some 3%nat.
Proof. reflexivity. Qed.

(** ** C08, the encoding of an update *)

(** An addition: the triples are encoded with one numbering in which a known text has its
    identifier of the dictionary, an unknown one a fresh identifier, and no two texts have the
    same one; tmpdict is exactly the numbering of the unknown texts.  Texts are not empty and
    fit into the buffer; subjects have no NUL byte. *)
Theorem C08_addition_encoding : forall dict maxterm next so triples,
  dict_ok dict next -> good_sorts so ->
  (forall t, is_term triples t -> t <> [] /\ (length t <= maxterm)%nat) ->
  (forall t, In t (subjects triples) -> ~ In 0 t) ->
  next + 3 * Z.of_nat (length triples) < 2 ^ 63 ->
  exists l tmp code,
    encode dict maxterm ADDITION_df so next triples = Some (l, tmp) /\
    coding dict next (is_term triples) code /\
    StronglySorted elt l /\
    (forall x, In x l <-> encodes (fun t => Some (code t)) triples x) /\
    (forall t i, In (t, i) tmp <-> is_term triples t /\ dict t = None /\ code t = i) /\
    NoDup (map fst tmp) /\ (forall t i, In (t, i) tmp -> i < 2 ^ 63).
Proof.
  intros dict maxterm next so triples Hd Hso Hsz H0 Hn.
  assert (HF : Forall (sizes maxterm) triples).
  { rewrite Forall_forall. intros t Ht.
    repeat constructor; apply Hsz; unfold is_term, subjects, predicates, objects;
      [left|left|right; left|right; left|right; right|right; right]; now apply in_map. }
  destruct (encode_add dict maxterm next so Hd Hso triples Hn HF) as (l3 & st & room & E & I & Hr & P & Q & K).
  { rewrite Forall_forall. intros t Ht. apply H0. now apply in_map. }
  set (tmp := tmpdict st) in *.
  set (code := fun t => match full dict tmp t with Some i => i | None => 0 end).
  assert (Hterm : forall t, is_term triples t -> exists i, full dict tmp t = Some i).
  { intros t Ht. unfold is_term, subjects, predicates, objects in Ht.
    rewrite map_tx_s, map_tx_p, map_tx_o in Ht.
    assert (Hcase : exists x, In x (map txt triples) /\
              (t = fst (fst x) \/ t = snd (fst x) \/ t = snd x)).
    { destruct Ht as [Ht|[Ht|Ht]]; apply in_map_iff in Ht; destruct Ht as (x & <- & Hx);
        exists x; split; auto. }
    destruct Hcase as (x & Hx & Hc). apply Permutation_sym in P. eapply Permutation_in in Hx; [|exact P].
    apply in_map_iff in Hx. destruct Hx as (y & <- & Hy). rewrite Forall_forall in Q.
    destruct (Q y Hy) as (Q1 & Q2 & Q3). destruct Hc as [->|[->| ->]]; cbn; eauto. }
  destruct (final_ok so l3 Hso) as [F1 F2].
  exists (unique (by_num so (parsed l3))), tmp, code. split; auto. split; [|split; auto; split; [|split; [|split]]].
  - split; [|split].
    + intros t i _ H. unfold code, full. now rewrite H.
    + intros t Ht Hnone. destruct (Hterm t Ht) as (i & Hi). unfold code. rewrite Hi.
      unfold full in Hi. rewrite Hnone in Hi. apply (i_tmp _ _ _ _ I) in Hi. lia.
    + intros t t' Ht Ht' Heq. destruct (Hterm t Ht) as (i & Hi), (Hterm t' Ht') as (i' & Hi').
      unfold code in Heq. rewrite Hi, Hi' in Heq. subst i'. destruct Hd as (_ & D1 & D2).
      unfold full in Hi, Hi'. destruct (dict t) as [j|] eqn:E1, (dict t') as [j'|] eqn:E2.
      * injection Hi as ->. injection Hi' as ->. eauto.
      * injection Hi as ->. apply (i_tmp _ _ _ _ I) in Hi'. apply D1 in E1. lia.
      * injection Hi' as ->. apply (i_tmp _ _ _ _ I) in Hi. apply D1 in E2. lia.
      * eapply (i_inj _ _ _ _ I); eauto.
  - intros [[a b] c]. rewrite F2, parsed_in. unfold encodes.
    rewrite Forall_forall in Q.
    assert (Hmax : forall t i, full dict tmp t = Some i -> i <> UINT64_MAX).
    { intros t i Hi. pose proof (full_range dict next Hd ltac:(lia) _ _ _ _ I Hi Hr).
      unfold UINT64_MAX. lia. }
    split.
    + intros (t & Ht & <- & <- & <- & _). destruct (Q t Ht) as (Q1 & Q2 & Q3).
      assert (Hx : In (txt t) (map txt triples)).
      { eapply Permutation_in; [exact P|]. now apply in_map. }
      apply in_map_iff in Hx. destruct Hx as (y & Hy & Hin). exists y. split; auto.
      unfold txt in Hy. injection Hy as -> -> ->. unfold code. rewrite Q1, Q2, Q3. auto.
    + intros (t & Ht & H1 & H2 & H3).
      assert (Hx : In (txt t) (map txt l3)).
      { eapply Permutation_in; [apply Permutation_sym; exact P|]. now apply in_map. }
      apply in_map_iff in Hx. destruct Hx as (y & Hy & Hin). exists y. split; auto.
      unfold txt in Hy. injection Hy as Y1 Y2 Y3. destruct (Q y Hin) as (Q1 & Q2 & Q3).
      rewrite Y1 in Q1. rewrite Y2 in Q2. rewrite Y3 in Q3. unfold code in H1, H2, H3.
      rewrite Q1 in H1. rewrite Q2 in H2. rewrite Q3 in H3.
      injection H1 as <-. injection H2 as <-. injection H3 as <-.
      repeat split; auto; eapply Hmax; eauto.
  - intros t i. split.
    + intros H. apply (i_in _ _ _ _ I) in H. fold tmp in H. pose proof (K _ _ H).
      destruct (i_tmp _ _ _ _ I _ _ H) as [_ Hnone]. split; auto. split; auto.
      unfold code, full. rewrite Hnone, H. reflexivity.
    + intros (Ht & Hnone & Hc). destruct (Hterm t Ht) as (j & Hj).
      unfold code in Hc. rewrite Hj in Hc. subst j. unfold full in Hj. rewrite Hnone in Hj.
      clear - Hj. induction tmp as [|[k v] r IH]; [discriminate|]. cbn [lookup] in Hj.
      destruct (text_eqb t k) eqn:Ek.
      * apply text_eqb_eq in Ek. injection Hj as ->. subst. now left.
      * right. auto.
  - apply (i_nd _ _ _ _ I).
  - intros t i H. apply (i_in _ _ _ _ I) in H. apply (i_tmp _ _ _ _ I) in H.
    pose proof (i_next _ _ _ _ I). lia.
Qed.
Print Assumptions C08_addition_encoding.

Lemma sizes_of maxterm triples :
  (forall t, is_term triples t -> t <> [] /\ (length t <= maxterm)%nat) ->
  Forall (sizes maxterm) triples.
Proof.
  intros Hsz. rewrite Forall_forall. intros t Ht.
  repeat constructor; apply Hsz; unfold is_term, subjects, predicates, objects;
    [left|left|right; left|right; left|right; right|right; right]; now apply in_map.
Qed.

(** A deletion: every requested triple whose texts are all known is encoded; and when no
    unknown text occurs twice as subject, as predicate or as object, nothing else is.
    Missing: the same without that condition, which is false (below). *)
Theorem C08_deletion_encoding_partial : forall dict maxterm next so triples,
  dict_ok dict next -> good_sorts so ->
  (forall t, is_term triples t -> t <> [] /\ (length t <= maxterm)%nat) -> next < 2 ^ 63 ->
  exists l, encode dict maxterm DELETE_df so next triples = Some (l, []) /\
    StronglySorted elt l /\
    (forall x, encodes dict triples x -> In x l) /\
    (unknown_once dict (subjects triples) -> unknown_once dict (predicates triples) ->
     unknown_once dict (objects triples) -> forall x, In x l -> encodes dict triples x).
Proof.
  intros dict maxterm next so triples Hd Hso Hsz Hn.
  destruct (encode_del dict maxterm next so Hd Hso triples Hn (sizes_of _ _ Hsz)) as (l3 & E & P & Q).
  destruct (final_ok so l3 Hso) as [F1 F2]. rewrite Forall_forall in Q.
  exists (unique (by_num so (parsed l3))). split; auto. split; auto. split.
  - intros [[a b] c] (t & Ht & H1 & H2 & H3). rewrite F2, parsed_in.
    assert (Hx : In (txt t) (map txt l3)).
    { eapply Permutation_in; [apply Permutation_sym; exact P|]. now apply in_map. }
    apply in_map_iff in Hx. destruct Hx as (y & Hy & Hin).
    unfold txt in Hy. injection Hy as Y1 Y2 Y3. destruct (Q y Hin) as ([Q1 _] & [Q2 _] & [Q3 _]).
    rewrite Y1 in Q1. rewrite Y2 in Q2. rewrite Y3 in Q3.
    assert (Hmax : forall t i, dict t = Some i -> i <> UINT64_MAX).
    { intros x i Hi. apply Hd in Hi. unfold UINT64_MAX. lia. }
    exists y. repeat split; auto; eauto.
  - intros U1 U2 U3 [[a b] c] Hx. rewrite F2, parsed_in in Hx.
    destruct Hx as (t & Ht & <- & <- & <- & N1 & N2 & N3).
    destruct (Q t Ht) as ([Q1 Q1'] & [Q2 Q2'] & [Q3 Q3']).
    assert (Hx : In (txt t) (map txt triples)).
    { eapply Permutation_in; [exact P|]. now apply in_map. }
    apply in_map_iff in Hx. destruct Hx as (y & Hy & Hin). exists y. split; auto.
    unfold txt in Hy. injection Hy as -> -> ->.
    destruct (dict (tx_s t)) as [i1|]; [|exfalso; auto].
    destruct (dict (tx_p t)) as [i2|]; [|exfalso; auto].
    destruct (dict (tx_o t)) as [i3|]; [|exfalso; auto].
    rewrite (Q1 i1), (Q2 i2), (Q3 i3); auto.
Qed.
Print Assumptions C08_deletion_encoding_partial.

(** Both steps together: what an addition records. *)
Theorem C08_addition_records_the_new_triples : forall cnt fuel dict maxterm next so triples kb o,
  dict_ok dict next -> good_sorts so ->
  (forall t, is_term triples t -> t <> [] /\ (length t <= maxterm)%nat) ->
  (forall t, In t (subjects triples) -> ~ In 0 t) ->
  next + 3 * Z.of_nat (length triples) < 2 ^ 63 ->
  Yields cnt kb o -> StronglySorted elt kb -> (length kb < fuel)%nat ->
  exists out tmp code,
    compress_update dict maxterm fuel ADDITION_df so next o triples = Some (out, tmp) /\
    coding dict next (is_term triples) code /\ StronglySorted elt out /\
    (forall x, In x out <-> encodes (fun t => Some (code t)) triples x /\ ~ In x kb) /\
    (forall t i, In (t, i) tmp <-> is_term triples t /\ dict t = None /\ code t = i) /\
    NoDup (map fst tmp) /\ (forall t i, In (t, i) tmp -> i < 2 ^ 63).
Proof.
  intros cnt fuel dict maxterm next so triples kb o Hd Hso Hsz H0 Hn Hy Hs Hf.
  destruct (C08_addition_encoding dict maxterm next so triples Hd Hso Hsz H0 Hn)
    as (l & tmp & code & E & C & S & I & T).
  destruct (C07_match cnt fuel kb o l Hy Hs S Hf) as [(out & M & SO & IO) _].
  exists out, tmp, code. unfold compress_update. rewrite E, M. split; auto. split; auto. split; auto.
  split; auto. intros x. rewrite IO, I. tauto.
Qed.
Print Assumptions C08_addition_records_the_new_triples.

(** What a deletion records: every requested triple of known texts that the database
    contains, and nothing else if no unknown text is repeated in a position. *)
Theorem C08_deletion_records_partial : forall cnt fuel dict maxterm next so triples kb o,
  dict_ok dict next -> good_sorts so ->
  (forall t, is_term triples t -> t <> [] /\ (length t <= maxterm)%nat) -> next < 2 ^ 63 ->
  Yields cnt kb o -> StronglySorted elt kb -> (length kb < fuel)%nat ->
  exists out,
    compress_update dict maxterm fuel DELETE_df so next o triples = Some (out, []) /\
    StronglySorted elt out /\
    (forall x, In x out -> In x kb) /\
    (forall x, encodes dict triples x -> In x kb -> In x out) /\
    (unknown_once dict (subjects triples) -> unknown_once dict (predicates triples) ->
     unknown_once dict (objects triples) -> forall x, In x out -> encodes dict triples x).
Proof.
  intros cnt fuel dict maxterm next so triples kb o Hd Hso Hsz Hn Hy Hs Hf.
  destruct (C08_deletion_encoding_partial dict maxterm next so triples Hd Hso Hsz Hn)
    as (l & E & S & I & U).
  destruct (C07_match cnt fuel kb o l Hy Hs S Hf) as [_ (out & M & SO & IO)].
  exists out. unfold compress_update. rewrite E, M. split; auto. split; auto. split; [|split].
  - intros x Hx. apply IO in Hx. tauto.
  - intros x H1 H2. apply IO. auto.
  - intros U1 U2 U3 x Hx. apply IO in Hx. apply U; tauto.
Qed.
Print Assumptions C08_deletion_records_partial.

(** ** A sorting function, for the examples *)
Fixpoint ins {A} (lt : A -> A -> bool) (x : A) (l : list A) : list A :=
  match l with [] => [x] | y :: r => if lt y x then y :: ins lt x r else x :: l end.
Definition insort {A} (lt : A -> A -> bool) (l : list A) : list A := fold_right (ins lt) [] l.

Lemma insort_sorts {A} (lt : A -> A -> bool) :
  (forall a b, lt a b = true -> lt b a = false) ->
  (forall a b c, lt b a = false -> lt c b = false -> lt c a = false) ->
  sorts_by lt (insort lt).
Proof.
  intros Has Htr l. unfold insort.
  assert (Hp : forall x m, Permutation (ins lt x m) (x :: m)).
  { intros x m. induction m as [|y m IH]; cbn; auto. destruct (lt y x); auto.
    rewrite IH. apply perm_swap. }
  induction l as [|a l [IHp IHs]]; cbn [fold_right]; [split; constructor|].
  split.
  - rewrite Hp. constructor. exact IHp.
  - revert IHs. generalize (fold_right (ins lt) [] l). intros m Hm.
    induction Hm as [|y m Hm IH Hf]; cbn; [repeat constructor|].
    destruct (lt y a) eqn:E.
    + constructor; auto. rewrite Forall_forall in *. intros z Hz.
      eapply Permutation_in in Hz; [|apply Hp]. destruct Hz as [<-|Hz]; auto.
    + constructor; [constructor; auto|]. constructor; auto.
      rewrite Forall_forall in *. intros z Hz. eapply Htr; [exact E|]. auto.
Qed.

(** lessThan is a strict weak order on all texts. *)
Fixpoint tle (a b : text) : bool :=
  match a, b with
  | [], _ => true
  | _ :: _, [] => false
  | x :: a', y :: b' =>
    if x <? y then true else if y <? x then false
    else if x =? 0 then (length a' <=? length b')%nat else tle a' b'
  end.
Lemma lessThan_tle : forall a b, lessThan b a = negb (tle a b).
Proof.
  unfold lessThan. induction a as [|x a IH]; intros [|y b]; auto.
  cbn [length Nat.min strncmp tle]. rewrite (Z.eqb_sym y x).
  destruct (x =? y) eqn:E.
  - replace y with x by lia. rewrite Z.ltb_irrefl.
    change (S (length b) <? S (length a))%nat with (length b <? length a)%nat.
    destruct (x =? 0); [|exact (IH b)]. cbn [negb Z.eqb]. apply Nat.ltb_antisym.
  - replace (y - x =? 0) with false by lia. cbn [negb].
    destruct (x <? y) eqn:E1; [cbn; lia|]. destruct (y <? x) eqn:E2; cbn; lia.
Qed.
Lemma tle_total : forall a b, tle a b = false -> tle b a = true.
Proof.
  induction a as [|x a IH]; intros [|y b] H; cbn in *; auto; try discriminate.
  destruct (x <? y) eqn:E1; [discriminate|]. destruct (y <? x) eqn:E2; auto.
  replace y with x in * by lia. destruct (x =? 0) eqn:E0; [lia|auto].
Qed.
Lemma tle_trans : forall a b c, tle a b = true -> tle b c = true -> tle a c = true.
Proof.
  induction a as [|x a IH]; intros [|y b] [|z c] H1 H2; cbn in *; auto; try discriminate.
  destruct (x <? y) eqn:E1, (y <? x) eqn:E2, (y <? z) eqn:E3, (z <? y) eqn:E4; try discriminate;
    destruct (x <? z) eqn:E5, (z <? x) eqn:E6; auto; try lia.
  replace y with x in * by lia. destruct (x =? 0) eqn:E0; [lia|]. eapply IH; eauto.
Qed.
Lemma tle_swo (f : ttriple -> text) : sorts_by (fun a b => lessThan (f a) (f b)) (insort (fun a b => lessThan (f a) (f b))).
Proof.
  apply insort_sorts.
  - intros a b. rewrite !lessThan_tle. intros H. rewrite (tle_total (f b) (f a)); auto.
    destruct (tle (f b) (f a)); auto.
  - intros a b c. rewrite !lessThan_tle. intros H1 H2.
    rewrite (tle_trans (f a) (f b) (f c)); auto; [destruct (tle (f a) (f b)) | destruct (tle (f b) (f c))]; auto.
Qed.
Definition ex_sorts : sorts :=
  mkSorts (insort sortByS) (insort sortByP) (insort sortByO) (insort sorter).
Lemma ex_sorts_good : good_sorts ex_sorts.
Proof.
  split; [apply (tle_swo tx_s)|]. split; [apply (tle_swo tx_p)|]. split; [apply (tle_swo tx_o)|].
  apply insort_sorts.
  - intros a b H. apply sorter_elt in H. destruct (sorter b a) eqn:E; auto.
    apply sorter_elt in E. exfalso. apply (elt_irrefl a). eapply elt_trans; eauto.
  - intros a b c H1 H2. apply sorter_false in H1, H2. destruct (sorter c a) eqn:E; auto.
    apply sorter_elt in E. exfalso. apply (elt_not_ele c a); auto. eapply ele_trans; eauto.
Qed.

(** Example texts, with the codes of letters: a=97, b=98, c=99, o=111, p=112, q=113. *)
Definition ex_dict (t : text) : option Z :=
  match t with
  | [97] => Some 0 | [112] => Some 1 | [111] => Some 2 | [113] => Some 3 | _ => None
  end.
Lemma ex_dict_ok : dict_ok ex_dict 4.
Proof.
  assert (H : forall t i, ex_dict t = Some i ->
    (t = [97] /\ i = 0) \/ (t = [112] /\ i = 1) \/ (t = [111] /\ i = 2) \/ (t = [113] /\ i = 3)).
  { intros t i. unfold ex_dict.
    repeat match goal with |- context [match ?x with _ => _ end] => is_var x; destruct x end;
      try discriminate; intros E; injection E as <-; auto. }
  split; [lia|]. split.
  - intros t i Hi. apply H in Hi. lia.
  - intros t t' i H1 H2. apply H in H1, H2.
    destruct H1 as [[-> ->]|[[-> ->]|[[-> ->]|[-> ->]]]],
      H2 as [[-> ?]|[[-> ?]|[[-> ?]|[-> ?]]]]; auto; lia.
Qed.
Definition ttr (s p o : text) : ttriple := mkT s p o 0 0 0.

Example C08_addition_nonvacuous :
  let l := [ttr [98] [112] [98]; ttr [97] [112] [99]; ttr [98] [99] [97]; ttr [98] [112] [98]] in
  dict_ok ex_dict 4 /\ good_sorts ex_sorts /\
  encode ex_dict 10 ADDITION_df ex_sorts 4 l
  = Some ([(0, 1, 5); (4, 1, 4); (4, 5, 0)], [([99], 5); ([98], 4)]).
Proof.
  cbv zeta. split; [exact ex_dict_ok|]. split; [exact ex_sorts_good|]. vm_compute. reflexivity.
Qed.

Example C08_deletion_nonvacuous :
  let l := [ttr [98] [112] [111]; ttr [97] [112] [111]; ttr [97] [112] [99]; ttr [97] [112] [111]] in
  unknown_once ex_dict (subjects l) /\ unknown_once ex_dict (predicates l) /\
  unknown_once ex_dict (objects l) /\
  encode ex_dict 10 DELETE_df ex_sorts 4 l = Some ([(0, 1, 2)], []).
Proof.
  cbv zeta. split; [|split; [|split; [|vm_compute; reflexivity]]]; intros t Ht; cbn [map subjects
    predicates objects ttr tx_s tx_p tx_o count_occ];
  repeat match goal with |- context [text_eq_dec ?a ?b] => destruct (text_eq_dec a b) end;
    subst; try discriminate; cbn; lia.
Qed.

(** C08 fails for deletions: an unknown text that is the subject of two triples receives,
    for the second of them, the identifier of the text before it in the order.  A deletion of
    (a p o), (b p o) and (b p q), where b is unknown, deletes (a p q) or deletes nothing else
    than (a p o) depending on which triple of b comes first; here (a p q), which was not
    requested, is deleted from a database that contains it. *)
Theorem C08_deletion_of_unrequested_triple_refuted :
  ~ (forall fuel dict maxterm next so triples kb o out tmp,
       dict_ok dict next -> good_sorts so ->
       (forall t, is_term triples t -> t <> [] /\ (length t <= maxterm)%nat) ->
       (forall t, is_term triples t -> ~ In 0 t) -> next < 2 ^ 63 ->
       Yields true kb o -> StronglySorted elt kb -> (length kb < fuel)%nat ->
       compress_update dict maxterm fuel DELETE_df so next o triples = Some (out, tmp) ->
       forall x, In x out -> encodes dict triples x).
Proof.
  intros H.
  set (l := [ttr [97] [112] [111]; ttr [98] [112] [111]; ttr [98] [112] [113]]).
  specialize (H 9%nat ex_dict 10%nat 4 ex_sorts l [(0, 1, 2); (0, 1, 3)]
    (list_itr (0, 0, 0) [(0, 1, 2); (0, 1, 3)]) [(0, 1, 2); (0, 1, 3)] []
    ex_dict_ok ex_sorts_good).
  assert (Hterm : forall t, is_term l t -> t = [97] \/ t = [98] \/ t = [112] \/ t = [111] \/ t = [113]).
  { unfold is_term, l; cbn. intuition congruence. }
  assert (Hin : encodes ex_dict l (0, 1, 3)).
  { apply H.
    - intros t Ht. apply Hterm in Ht.
      destruct Ht as [->|[->|[->|[->| ->]]]]; split; try discriminate; cbn; lia.
    - intros t Ht. apply Hterm in Ht.
      destruct Ht as [->|[->|[->|[->| ->]]]]; cbn; lia.
    - lia.
    - apply list_yields.
    - repeat constructor; cbn; lia.
    - cbn; lia.
    - vm_compute. reflexivity.
    - cbn; auto. }
  destruct Hin as (t & Ht & H1 & H2 & H3). cbn in Ht.
  destruct Ht as [<-|[<-|[<-|[]]]]; cbn in H1, H3; discriminate.
Qed.
Print Assumptions C08_deletion_of_unrequested_triple_refuted.
