(** C69: crashes during an update. *)
From Coq Require Import Sorted Permutation ZifyBool.
From Verif Require Import ItrProofs ScanProofs ItrProps UpdProofs2 UpdProps DictSpec DictProofs DictProofs2
  DictProps TextSpec TextProps CrashModel.
Local Open Scope Z_scope.

(** Querying a database whose updates include deletions of triples that are not present. *)
Theorem C06_query_sees_readable_history :
  forall fuel so first base h diffs out,
  std_sort comp_gt (sort_comp so) -> std_sort cscan_gt (sort_scan so) ->
  Yields true base out -> StronglySorted elt base ->
  (0 <= first -> Forall (fun x => fst (fst x) = first) base) ->
  Forall2 (fun (u : bool * list elem) (d : bool * pitr) =>
     fst d = fst u /\ Yields true (snd u) (snd d) /\ StronglySorted elt (snd u) /\
     (0 <= first -> Forall (fun x => fst (fst x) = first) (snd u))) h diffs ->
  readable_history (fun x => In x base) h ->
  (length base + list_sum (map (fun u => length (snd u)) h) + 1 < fuel)%nat ->
  exists o R, overlay fuel so first diffs out = Some o /\ Yields true R o /\
    StronglySorted elt R /\ (forall x, In x R <-> replay (fun y => In y base) h x).
Proof.
  intros fuel so first base h diffs out Hs1 Hs2 Hy Hsb Hk HF Hv Hfu.
  apply overlay_ok; auto.
  - split; auto.
  - split; [exact Hy|]. split; [now apply strict_sorted|exact Hk].
  - clear - HF. induction HF as [|u d h diffs (H1 & H2 & H3 & H4) HF IH]; constructor; auto.
    split; auto. split; auto. split; auto. split; auto. now apply strict_sorted.
  - assert (He : list_sum (map (fun u => length (snd u)) h) = hist_size h).
    { clear. induction h as [|u h IH]; cbn; auto. }
    rewrite He in Hfu. exact Hfu.
Qed.
Print Assumptions C06_query_sees_readable_history.

Lemma set_last_snoc l b r : set_last (l ++ [(b, r)]) = l ++ [(true, r)].
Proof.
  induction l as [|u l IH]; [reflexivity|]. cbn [app]. destruct (l ++ [(b, r)]) eqn:E.
  - destruct l; discriminate.
  - rewrite <- E in *. cbn [set_last]. rewrite E. rewrite <- E. rewrite IH. now destruct u.
Qed.

(** Without a crash the files are those of C44 and C68. *)
Theorem C69_without_crash : forall limit fuel enum x d next ty rec tmp k',
  open_dict fuel (files x) = Some (d, next) -> rec <> [] ->
  record_terms limit fuel enum (files x) match ty with ADDITION_df => tmp | DELETE_df => [] end = Some k' ->
  gud_modified d = false ->
  run (update_effects limit enum d ty rec tmp) x =
  mkDb k' (updates x ++ [(negb (is_delete ty), rec)]).
Proof.
  intros limit fuel enum x d next ty rec tmp k' Ho Hne Hr Hm.
  unfold record_terms in Hr. rewrite Ho in Hr. unfold update_effects.
  destruct rec as [|e rec]; [congruence|].
  assert (Hk : forall k : disk, mkDisk (main k) (main_next k) (ups k) (gud k) = k) by now intros [].
  destruct ty; cbn [is_delete negb].
  - destruct (write_dict limit d tmp) as [d1 up]. unfold close_dict in Hr.
    unfold run. rewrite !fold_left_app. cbn [fold_left apply_effect].
    destruct up as [u|]; cbn [fold_left apply_effect updates files] in *;
      destruct (gud_modified d1 && _); cbn [fold_left apply_effect updates files main main_next ups gud] in *;
      injection Hr as <-; rewrite set_last_snoc, ?app_nil_r, ?Hk; reflexivity.
  - cbn [write_dict] in Hr. unfold close_dict in Hr. rewrite Hm in *. cbn in Hr |- *.
    injection Hr as <-. now rewrite app_nil_r, Hk.
Qed.
Print Assumptions C69_without_crash.

Lemma open_unmodified fuel k d next : open_dict fuel k = Some (d, next) -> gud_modified d = false.
Proof.
  unfold open_dict, new_dm. intros H.
  assert (L : forall f s a b, gud_loop f s a = Some b -> gud_modified b = gud_modified a).
  { induction f as [|f IH]; intros s a b; cbn; destruct (eofbit s); try congruence.
    destruct (read_num s 0) as [id s1], (read_str s1) as [t s2]. intros E. apply IH in E.
    rewrite E. destruct t; reflexivity. }
  assert (U : forall us a b, add_updates a us = Some b -> gud_modified b = gud_modified a).
  { induction us as [|u us IH]; intros a b; cbn; [congruence|]. destruct (first_key u); [|discriminate].
    intros E. apply IH in E. exact E. }
  destruct (gud k) as [b|].
  - destruct (read_num _ 0) as [lg s]. destruct (gud_loop fuel s _) eqn:E; [|discriminate].
    destruct (add_updates _ _) eqn:E2; [|discriminate]. injection H as <- _.
    apply L in E. apply U in E2. now rewrite E2, E.
  - destruct (add_updates _ _) eqn:E2; [|discriminate]. injection H as <- _.
    apply U in E2. now rewrite E2.
Qed.

(** C69.  A deletion is atomic: after a crash at any point the database is either as
    before or as after the whole deletion. *)
Theorem C69_deletion_is_atomic : forall limit fuel enum x d next rec n,
  open_dict fuel (files x) = Some (d, next) ->
  let es := update_effects limit enum d DELETE_df rec [] in
  run (firstn n es) x = x \/ run (firstn n es) x = run es x.
Proof.
  intros limit fuel enum x d next rec n Ho es. subst es. unfold update_effects.
  destruct rec as [|e rec]; [left; now rewrite firstn_nil|].
  rewrite (open_unmodified _ _ _ _ Ho). cbn [andb app].
  destruct n as [|[|[|n]]]; cbn; auto.
Qed.
Print Assumptions C69_deletion_is_atomic.

Lemma replay_app h1 : forall S h2, replay S (h1 ++ h2) = replay (replay S h1) h2.
Proof. intros. apply fold_left_app. Qed.
Lemma readable_app h1 : forall S h2, readable_history S (h1 ++ h2) <->
  readable_history S h1 /\ readable_history (replay S h1) h2.
Proof.
  induction h1 as [|u h1 IH]; intros S h2; cbn; [tauto|]. rewrite IH. tauto.
Qed.

(** C69, additions, for all crash points but one: before the file ADD is written the
    triples of the database are those before the addition, and when everything is written
    those after it; the database remains readable, if it is not empty. *)
Theorem C69_addition_crash_partial : forall limit enum x d rec tmp n base,
  let S := replay (fun y => In y base) (read_updates x) in
  let es := update_effects limit enum d ADDITION_df rec tmp in
  let x' := run (firstn n es) x in
  readable_history (fun y => In y base) (read_updates x) ->
  (exists y, S y) -> (forall y, In y rec -> ~ S y) ->
  ~ In (e_flag ADDITION_df) (firstn n es) \/ firstn n es = es ->
  readable_history (fun y => In y base) (read_updates x') /\
  ((forall y, replay (fun y => In y base) (read_updates x') y <-> S y) \/
   (forall y, replay (fun y => In y base) (read_updates x') y <-> S y \/ In y rec)).
Proof.
  intros limit enum x d rec tmp n base S es x' Hr Hex Hdis Hn.
  assert (Hflag : forall l y, ~ In (e_flag ADDITION_df) l -> (forall r, ~ In (e_index r) l) ->
             updates (run l y) = updates y).
  { induction l as [|e l IH]; intros y H1 H2; cbn; auto. rewrite IH.
    - destruct e as [r|u|ty|b]; cbn; auto.
      + exfalso. apply (H2 r). now left.
      + destruct ty; auto. exfalso. apply H1. now left.
    - intros H. apply H1. now right.
    - intros r H. apply (H2 r). now right. }
  assert (Hcase : read_updates x' = read_updates x \/ read_updates x' = read_updates x ++ [(true, rec)]
                  \/ read_updates x' = read_updates x ++ [(false, rec)]).
  { subst es x'. unfold update_effects in *. destruct rec as [|e rec].
    { left. now rewrite firstn_nil. }
    destruct (write_dict limit d tmp) as [d1 up].
    destruct n as [|n]; [left; reflexivity|]. right. unfold read_updates.
    set (tail := (if gud_modified d1 && _ then _ else _) : list effect) in *.
    assert (Ht1 : ~ In (e_flag ADDITION_df) tail).
    { subst tail. destruct (gud_modified d1 && _); cbn; intuition discriminate. }
    assert (Ht2 : forall r, ~ In (e_index r) tail).
    { intros r. subst tail. destruct (gud_modified d1 && _); cbn; intuition discriminate. }
    set (mid := match up with Some u => [e_layer u] | None => [] end : list effect) in *.
    assert (Hm1 : ~ In (e_flag ADDITION_df) mid).
    { subst mid. destruct up; cbn; intuition discriminate. }
    assert (Hm2 : forall r, ~ In (e_index r) mid).
    { intros r. subst mid. destruct up; cbn; intuition discriminate. }
    destruct Hn as [Hn|Hn].
    - left. cbn [app firstn] in *. unfold run at 1. cbn [fold_left apply_effect].
      fold (run (firstn n (mid ++ [e_flag ADDITION_df] ++ tail)) (mkDb (files x) (updates x ++ [(false, e :: rec)]))).
      rewrite Hflag.
      + cbn. now rewrite map_app.
      + intros H. apply Hn. now right.
      + intros r H. assert (Hin : In (e_index r) (mid ++ e_flag ADDITION_df :: tail)).
        { rewrite <- (firstn_skipn n). apply in_or_app. now left. }
        apply in_app_or in Hin. destruct Hin as [Hin|[Hin|Hin]]; [now apply Hm2 in Hin|discriminate|now apply Ht2 in Hin].
    - right. rewrite Hn. unfold run. rewrite !fold_left_app. cbn [fold_left apply_effect].
      fold (run mid (mkDb (files x) (updates x ++ [(false, e :: rec)]))).
      match goal with |- context [fold_left apply_effect tail ?y] => fold (run tail y); set (z := y) end.
      rewrite Hflag; auto. subst z. cbn [updates]. rewrite Hflag; auto. cbn [updates].
      rewrite set_last_snoc, map_app. reflexivity. }
  destruct Hcase as [E|[E|E]]; rewrite E.
  - split; auto. left. reflexivity.
  - split.
    + apply readable_app. split; auto. cbn. auto.
    + left. intros y. rewrite replay_app. fold S. cbn. split; [tauto|]. intros Hy. split; auto.
      intros Hin. now apply (Hdis y).
  - split.
    + apply readable_app. split; auto. cbn. auto.
    + right. intros y. rewrite replay_app. fold S. cbn. tauto.
Qed.
Print Assumptions C69_addition_crash_partial.

(** Example: the database of C68, an addition of one triple with a new term. *)
Definition ex_x0 : db := mkDb ex_t0 [].
Definition ex_es : list effect :=
  update_effects 5 (fun l => l) (fst (ex_dict ex_t0)) ADDITION_df [(2, 1, 0)] [([70], 2)].
Example C69_nonvacuous :
  length ex_es = 3%nat /\
  readable_history (fun y => In y [(0, 1, 0)]) (read_updates ex_x0) /\
  (exists y, replay (fun y => In y [(0, 1, 0)]) (read_updates ex_x0) y) /\
  (forall y, In y [(2, 1, 0)] -> ~ replay (fun y => In y [(0, 1, 0)]) (read_updates ex_x0) y) /\
  (~ In (e_flag ADDITION_df) (firstn 1 ex_es)) /\ firstn 3 ex_es = ex_es /\
  run (firstn 1 ex_es) ex_x0 <> ex_x0 /\
  gud_modified (fst (ex_dict ex_t0)) = false /\
  open_dict 100 ex_t0 = Some (ex_dict ex_t0) /\
  length (update_effects 5 (fun l => l) (fst (ex_dict ex_t0)) DELETE_df [(0, 1, 0)] []) = 2%nat.
Proof.
  split; [vm_compute; reflexivity|]. split; [exact I|]. split; [exists (0, 1, 0); now left|].
  split; [intros y [<-|[]]; cbn; intuition discriminate|].
  split; [vm_compute; intuition discriminate|]. split; [vm_compute; reflexivity|].
  split; [vm_compute; discriminate|]. split; [vm_compute; reflexivity|].
  split; vm_compute; reflexivity.
Qed.

(** C69 is wrong for the remaining crash point of an addition: after the file ADD is written
    and before the database is closed.  The new triples are read, but their new terms are
    lost, and the numbers of the lost terms are given to the terms of the next addition,
    which is then taken for a triple that is already present. *)
Theorem C69_crash_loses_the_terms_refuted :
  exists (x : db) base es triples1 triples2 dict0 next0 rec tmp,
    (* the addition of triples1 *)
    open_dict 100 (files x) = Some (dict0, next0) /\
    compress_update (get_number dict0) 9 100 ADDITION_df ex_sorts next0 (list_itr (0, 0, 0) base) triples1
      = Some (rec, tmp) /\
    es = update_effects 5 (fun l => l) dict0 ADDITION_df rec tmp /\
    (* crashes after its second effect *)
    let x' := run (firstn 2 es) x in
    exists dict next o,
      open_dict 100 (files x') = Some (dict, next) /\
      overlay 100 ex_so (-1) (map (fun u => (fst u, list_itr (0, 0, 0) (snd u))) (read_updates x'))
        (list_itr (0, 0, 0) base) = Some o /\
      drain 10 o = Some [(0, 1, 0); (2, 1, 0)] /\
      get_text dict 2 = None /\
      (* the addition of other triples is not recorded *)
      map texts_of triples1 = [([70], [61], [60])] /\ map texts_of triples2 = [([71], [61], [60])] /\
      exists tmp', compress_update (get_number dict) 9 100 ADDITION_df ex_sorts next o triples2 = Some ([], tmp').
Proof.
  exists ex_x0, [(0, 1, 0)], ex_es, [ex_tt 70 61 60], [ex_tt 71 61 60], (fst (ex_dict ex_t0)), 2,
    [(2, 1, 0)], [([70], 2)].
  split; [vm_compute; reflexivity|]. split; [vm_compute; reflexivity|]. split; [reflexivity|].
  intros x'.
  assert (Eo : exists o, overlay 100 ex_so (-1)
     (map (fun u => (fst u, list_itr (0, 0, 0) (snd u))) (read_updates x'))
        (list_itr (0, 0, 0) [(0, 1, 0)]) = Some o /\ drain 10 o = Some [(0, 1, 0); (2, 1, 0)] /\
     exists tmp', compress_update (get_number (fst (ex_dict ex_t0))) 9 100 ADDITION_df ex_sorts 2 o
        [ex_tt 71 61 60] = Some ([], tmp')).
  { eexists. split; [vm_compute; reflexivity|]. split; [vm_compute; reflexivity|].
    eexists. vm_compute. reflexivity. }
  destruct Eo as (o & E1 & E2 & E3).
  exists (fst (ex_dict ex_t0)), 2, o.
  split; [vm_compute; reflexivity|]. split; [exact E1|]. split; [exact E2|].
  split; [vm_compute; reflexivity|]. split; [reflexivity|]. split; [reflexivity|]. exact E3.
Qed.
Print Assumptions C69_crash_loses_the_terms_refuted.

(** C69: a crash before the file ADD is written makes the addition a deletion; a query for
    which the database has no triple, but the addition has, then fails. *)
Theorem C69_crash_breaks_queries_refuted :
  exists (x : db) es rec,
    es = update_effects 5 (fun l => l) (fst (ex_dict ex_t0)) ADDITION_df rec [] /\ x = mkDb ex_t0 [] /\
    let x' := run (firstn 1 es) x in
    forall fuel so first, overlay fuel so first
      (map (fun u => (fst u, list_itr (0, 0, 0) (snd u))) (read_updates x')) (list_itr (0, 0, 0) []) = None.
Proof.
  exists ex_x0, (update_effects 5 (fun l => l) (fst (ex_dict ex_t0)) ADDITION_df [(1, 1, 0)] []), [(1, 1, 0)].
  split; [reflexivity|]. split; [reflexivity|]. cbn. intros. reflexivity.
Qed.
Print Assumptions C69_crash_breaks_queries_refuted.
