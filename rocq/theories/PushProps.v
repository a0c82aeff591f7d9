(** C82: queries with FILTERs, those on the variables of one pattern above its scans. *)
From Coq Require Import ZifyBool.
From Verif Require Import FullModel KbModel TsKbModel.
From Verif Require Import OpSpec OpProofs OpHashProofs OpHashProofs2 KbSpec TsSpec TsProps InserterProofs OpHashProps KbProps KbModel TsKbModel KbProofs AggProps TallySpec.
From Verif Require Import PlanModel PlanSpec PlanProofs PlanProofs2 PlanProofs3 PlanProofs4 PlanProofs5 PlanProofs6 PlanProps FiltModel FiltSpec.
From Verif Require Import SelModel SelSpec SelProofs SelProps FiltProofs.
From Verif Require Import PlanSpec PlanProofs4 PlanProofs5.
From Verif Require Import PlanGenModel PlanGenProofs PlanGenProps.
From Verif Require Import SelModel SelSpec PlanSpec PlanProofs4 PlanProofs5.
From Verif Require Import FiltProps PushModel PushProofs3.
From Verif Require Import SelModel SelSpec PlanSpec PlanProofs4 PlanProofs5 PushModel.
Local Open Scope Z_scope.

(** C82 for the plans that the generator builds: a filter on the variables of one pattern is above each scan of such a pattern, the other
    filters are above the joins.  A filter above a scan sees all triples of the pattern, also those that are in no solution: it must have a value for
    these as well.  The rows are, as in C82_filters_partial, those of the solutions that all filters keep, each as often as there are such solutions. *)
Theorem C82_pushed_partial : forall w fuel memory open tl nodes U p projection filters keep,
  dict_ok w -> NoDup U -> Forall (terms 63) U -> linear nodes -> constants_ok nodes ->
  2 ^ 65 <= memory -> (4 * S (length U) ^ length nodes + 1 < fuel)%nat ->
  Planned nodes (projection ++ flat_map fvars filters) p -> complete nodes p ->
  (forall idx, In idx (indices p) -> serves U fuel open idx) -> (forall idx, In idx (aggregated p) -> serves_counts U fuel open idx) ->
  (forall idx, In idx (fully p) -> serves_terms U fuel tl idx) ->
  incl projection (vars nodes) -> incl (flat_map fvars filters) (vars nodes) -> forallb ordinary filters = true ->
  (forall f n s, In f filters -> In n nodes -> incl (fvars f) (pattern_vars n) -> solves U [n] s -> exists z, Supported w s f /\ Truth (row_of w s) f z) ->
  (forall f s, In f filters -> solves U nodes s -> Supported w s f /\ Truth (row_of w s) f (keep f s)) ->
  exists o outs W L, translateQuery w fuel memory open tl nodes filters projection p = Some (o, outs) /\
    Answers outs W L o /\
    forall S, solutions U nodes S -> forall t, occurs outs L t = times (filter (fun s => forallb (fun f => keep f s) filters) S) projection t.
Proof.
  intros w fuel memory open tl nodes U p projection filters keep D HU HT Hlin Hc Hm Hf HP HC HS HS' HS'' Hproj Hfv Hord HPH HK.
  assert (Hrange : forall t k, In t U -> (k < 3)%nat -> 0 <= comp t k < 2 ^ 64).
  { intros t k Ht Hk. rewrite Forall_forall in HT. specialize (HT t Ht). destruct t as [[x y] z]. cbn in HT. destruct k as [|[|k]]; cbn; lia. }
  assert (Hset : forall n, In n (pats nodes p) <-> In n nodes).
  { intros n. rewrite <- (nodes_seq nodes) at 2. unfold pats. split; apply Permutation_in; [|apply Permutation_sym]; apply Permutation_map, HC. }
  assert (Hvars : forall v, In v (vars nodes) -> In v (pvars nodes p)).
  { intros v Hv. unfold pvars, vars in *. rewrite in_flat_map in *. destruct Hv as (n & Hn & Hv). exists n. split; [now apply Hset|exact Hv]. }
  set (top := rev (filter (fun f => negb (applied nodes f p)) filters)).
  assert (Hin : forall f, In f filters -> incl (fvars f) (flat_map fvars filters)) by (intros f Hi v Hv; apply in_flat_map; eauto).
  destruct (above_layer w fuel memory open tl nodes (projection ++ flat_map fvars filters) U filters D HU Hlin Hc Hrange Hm Hf) with (keep := keep) (p := p) (fs := top) (proj := addAll projection [])
    as (o & b & W & L & E & H & _); auto.
  { now apply forallb_forall. }
  { intros f Hi v Hv. apply in_or_app. right. eapply Hin; eauto. }
  { intros f i s Hi Hlt Hv Hs. apply (HPH f (node_of nodes i)); auto. apply nth_In, Hlt. }
  { intros f Hi v Hv. apply Hvars, Hfv. eapply Hin; eauto. }
  { intros f s Hi Hs. apply HK; [exact Hi|]. intros n Hn. apply Hs. now apply Hset. }
  { intros f Hi. unfold top in Hi. apply in_rev in Hi. apply filter_In in Hi. apply Hi. }
  { intros v Hv. apply addAll_In in Hv. destruct Hv as [Hv|[]]. left. apply in_or_app. now left. }
  destruct (l_binds _ _ _ _ _ _ _ _ _ _ _ H) as (HKy & HB & HD).
  assert (Hget : forall x, In x projection -> exists r, bget x b = Some r /\ In (x, r) b).
  { intros x Hx. apply keyed_get; [exact HKy|]. apply HD. split; [apply addAll_In; auto|]. auto. }
  set (outs := map (fun x => match bget x b with Some r => r | None => (3 * length nodes)%nat end) projection).
  assert (Houts : incl outs (map snd b)).
  { intros r Hr. apply in_map_iff in Hr. destruct Hr as (x & <- & Hx). destruct (Hget x Hx) as (r & -> & Hi). exact (in_map snd _ _ Hi). }
  exists o, outs, W, L. split; [unfold translateQuery; fold top; now rewrite E|]. split; [eapply Answers_V; [exact Houts|]; apply H|].
  intros S HSol t. assert (HSol' : solutions U (pats nodes p) S) by (eapply solutions_set; [|exact HSol]; intros n; symmetry; apply Hset).
  rewrite (same_occurs (map snd b) outs L (rows_of nodes (kept keep (top ++ filter (fun f => applied nodes f p) filters) S)) t Houts (l_same _ _ _ _ _ _ _ _ _ _ _ H S HSol')).
  assert (EK : kept keep (top ++ filter (fun f => applied nodes f p) filters) S = filter (fun s => forallb (fun f => keep f s) filters) S).
  { unfold kept. apply filter_ext. intros s. apply eq_true_iff_eq. rewrite !forallb_forall. split; intros A f Hi; apply A.
    - apply in_or_app. destruct (applied nodes f p) eqn:Ea; [right; now apply filter_In|left]. unfold top. apply -> in_rev. apply filter_In. now rewrite Ea.
    - apply in_app_or in Hi. destruct Hi as [Hi|Hi]; [unfold top in Hi; apply in_rev in Hi|]; apply filter_In in Hi; apply Hi. }
  rewrite EK. apply occurs_rows.
  unfold outs. clear - Hget HB. induction projection as [|x xs IH]; [constructor|]. cbn [map]. constructor; [|apply IH; intros y Hy; apply Hget; now right].
  destruct (Hget x (or_introl eq_refl)) as (r & -> & Hi). now apply HB.
Qed.
Print Assumptions C82_pushed_partial.

(** From the loaded triples to the solutions that the filters keep. *)
Theorem C82_pushed_query_partial : forall U inputs pad m w fuel memory d k nodes p projection filters keep,
  U <> [] -> NoDup U -> Forall (terms 39) U -> zl U < 2 ^ 31 -> prepared U inputs -> pad_ok pad -> (1 <= m)%nat ->
  kb_load fuel (m + m) inputs pad = Some d -> (forall i t f, d_files d i = Some t -> zl (t_file t f) < 2 ^ 40) -> dict_ok w ->
  linear nodes -> nodes <> [] -> constants_ok nodes -> 2 ^ 65 <= memory -> (4 * S (length U) ^ length nodes + 1 < fuel)%nat ->
  Planned nodes (projection ++ flat_map fvars filters) p -> complete nodes p ->
  (forall idx, In idx (indices p) \/ In idx (aggregated p) \/ In idx (fully p) -> kb_present d idx = true) ->
  incl projection (vars nodes) -> incl (flat_map fvars filters) (vars nodes) -> forallb ordinary filters = true ->
  (forall f n s, In f filters -> In n nodes -> incl (fvars f) (pattern_vars n) -> solves U [n] s -> exists z, Supported w s f /\ Truth (row_of w s) f z) ->
  (forall f s, In f filters -> solves U nodes s -> Supported w s f /\ Truth (row_of w s) f (keep f s)) ->
  exists o outs W L, translateQuery w fuel memory (fun idx => kb_scan_open fuel d idx) (fun idx => kb_getTermList fuel d idx k) nodes filters projection p = Some (o, outs) /\
    Answers outs W L o /\
    forall S, solutions U nodes S -> forall t, occurs outs L t = times (filter (fun s => forallb (fun f => keep f s) filters) S) projection t.
Proof.
  intros U inputs pad m w fuel memory d k nodes p projection filters keep H1 HU H2 H3 H4 H5 H6 H8 H9 D Hlin Hne Hc Hm Hf HP HC HI Hproj Hfv Hord HPH HK.
  assert (Hf' : (length U + length U + length U < fuel)%nat).
  { assert (S (length U) <= S (length U) ^ length nodes)%nat; [|lia]. destruct nodes as [|n ns]; [congruence|]. cbn [length Nat.pow].
    pose proof (Nat.pow_nonzero (S (length U)) (length ns)). assert (S (length U) ^ length ns <> 0)%nat by (apply H; lia). nia. }
  apply C82_pushed_partial; auto.
  - eapply Forall_impl; [|exact H2]. intros [[x y] z]. cbn. lia.
  - intros idx Hi. eapply C76_loaded; eauto. eapply planned_indices; eauto.
  - intros idx Hi. eapply C76_loaded_counts; eauto. eapply planned_indices; eauto.
  - intros idx Hi. eapply C76_loaded_terms; eauto. eapply planned_indices; eauto.
Qed.
Print Assumptions C82_pushed_query_partial.

(** With the plan that the generator chooses, whichever it is. *)
Theorem C82_pushed_answer_partial : forall le ge better negative U inputs pad m w fuel memory d k nodes projection filters keep,
  U <> [] -> NoDup U -> Forall (terms 39) U -> zl U < 2 ^ 31 -> prepared U inputs -> pad_ok pad -> (1 <= m)%nat ->
  kb_load fuel (m + m) inputs pad = Some d -> (forall i t f, d_files d i = Some t -> zl (t_file t f) < 2 ^ 40) ->
  (forall idx, (idx < 6)%nat -> kb_present d idx = true) -> dict_ok w ->
  (forall i j, negative i j = false) -> (0 < length nodes <= 64)%nat -> constant_used nodes (projection ++ flat_map fvars filters) ->
  (one_unused nodes (projection ++ flat_map fvars filters) \/ forall idx i, le (FullyAggregatedIndexScan false idx i) (FullyAggregatedIndexScan true idx i) = true) ->
  linear nodes -> constants_ok nodes -> 2 ^ 65 <= memory -> (4 * S (length U) ^ length nodes + 1 < fuel)%nat ->
  incl projection (vars nodes) -> incl (flat_map fvars filters) (vars nodes) -> forallb ordinary filters = true ->
  (forall f n s, In f filters -> In n nodes -> incl (fvars f) (pattern_vars n) -> solves U [n] s -> exists z, Supported w s f /\ Truth (row_of w s) f z) ->
  (forall f s, In f filters -> solves U nodes s -> Supported w s f /\ Truth (row_of w s) f (keep f s)) ->
  exists p o outs W L, translate le ge better negative nodes (projection ++ flat_map fvars filters) = Some p /\
    translateQuery w fuel memory (fun idx => kb_scan_open fuel d idx) (fun idx => kb_getTermList fuel d idx k) nodes filters projection p = Some (o, outs) /\
    Answers outs W L o /\
    forall S, solutions U nodes S -> forall t, occurs outs L t = times (filter (fun s => forallb (fun f => keep f s) filters) S) projection t.
Proof.
  intros le ge better negative U inputs pad m w fuel memory d k nodes projection filters keep H1 HU H2 H3 H4 H5 H6 H8 H9 Hix D Hn Hl Hcu Hu Hlin Hc Hm Hf Hproj Hfv Hord HPH HK.
  destruct (C77_generated le ge better negative nodes (projection ++ flat_map fvars filters) Hn Hl Hcu Hu) as (p & HT & HC & HP). exists p.
  destruct (C82_pushed_query_partial U inputs pad m w fuel memory d k nodes p projection filters keep) as (o & outs & W & L & E & HA & HO); auto.
  - destruct nodes; [cbn in Hl; lia|discriminate].
  - intros idx Hi. apply Hix. eapply planned_indices; eauto.
  - exists o, outs, W, L. auto.
Qed.
Print Assumptions C82_pushed_answer_partial.

(** *** Cases: as in FiltProps.v.  The first filter is above the first scan, the second one above the join. *)
Definition ex_pushed (nodes : list node) (projection : list nat) (filters : list filt) (p : plan) : option (list (list Z * Z)) :=
  do d <- kb_load 120 2 (ex_inputs [0; 2; 5]%nat) ex_pad;
  do (o, outs) <- translateQuery exw 120 (2 ^ 65) (fun idx => kb_scan_open 120 d idx) (fun idx => kb_getTermList 120 d idx 0) nodes filters projection p;
  run outs 20 (o_first o) (fun _ => 0).
Example C82_pushed_case :
  map (fun f => applied q_merge f p_merge) [f_ann; f_differ; f_list] = [true; false; true] /\
  ex_pushed q_merge [0; 1; 2]%nat [] p_merge = Some [([1; 3; 3], 1); ([1; 4; 3], 1)] /\
  ex_pushed q_merge [0; 1]%nat [f_differ] p_merge = Some [([1; 4], 1)] /\
  ex_pushed q_merge [0]%nat [f_ann; f_differ] p_merge = Some [([1], 1)] /\
  ex_pushed q_merge [0]%nat [FNot f_ann] p_merge = Some [([1], 1)] /\
  ex_pushed q_merge [0]%nat [f_ann; f_list] p_merge = Some [].
Proof. vm_compute. repeat split. Qed.
(** The hypothesis about the triples of one pattern, for the third of them; C82_hyps has the others. *)
Example C82_pushed_hyps : forall f n s, In f [f_ann; f_differ] -> In n q_merge -> incl (fvars f) (pattern_vars n) -> solves ex_U [n] s -> exists z, Supported exw s f /\ Truth (row_of exw s) f z.
Proof.
  assert (NA : forall q, ~ number (literal "ann" "") q) by (intros q; apply plain_not_number).
  intros f n s [<-|[<-|[]]] Hn HI Hs.
  - destruct Hn as [<-|[<-|[]]]; [|exfalso; specialize (HI 1%nat); cbn in HI; intuition discriminate].
    assert (H1 := Hs _ (or_introl eq_refl)). unfold instance in H1. cbn in H1. assert (E1 : s 1%nat = 3 \/ s 1%nat = 4) by (intuition congruence).
    assert (HS : Supported exw s f_ann).
    { split; [right; split; [repeat split; reflexivity|]; split; [left; vm_compute; discriminate|exact I]|]. split; [left; eexists; reflexivity|]. split; [right; eexists; reflexivity|].
      intros t1 t2 q1 q2 O1 _ N1. inversion O1; subst. exfalso. eapply NA; exact N1. }
    destruct E1 as [E1|E1]; [exists false|exists true]; (split; [exact HS|]).
    + refine (T_equal _ _ _ (literal "ann" "") (typed "1.50" (xsd "double")) false (Op_lit _ (LPlain "ann")) (Op_var _ 1%nat _ _) _); [unfold row_of; rewrite E1; reflexivity|].
      change false with (String.eqb (literal "ann" "") (typed "1.50" (xsd "double"))). apply Eq_term. intros [[q N] _]. eapply NA; exact N.
    + refine (T_equal _ _ _ (literal "ann" "") (literal "ann" "") true (Op_lit _ (LPlain "ann")) (Op_var _ 1%nat _ _) _); [unfold row_of; rewrite E1; reflexivity|].
      change true with (String.eqb (literal "ann" "") (literal "ann" "")). apply Eq_term. intros [[q N] _]. eapply NA; exact N.
  - exfalso. destruct Hn as [<-|[<-|[]]]; [specialize (HI 2%nat)|specialize (HI 1%nat)]; cbn in HI; intuition discriminate.
Qed.
