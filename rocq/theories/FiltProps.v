(** C82: queries with FILTERs. *)
From Coq Require Import ZifyBool.
From Verif Require Import FullModel KbModel TsKbModel.
From Verif Require Import OpSpec OpProofs OpHashProofs OpHashProofs2 KbSpec TsSpec TsProps InserterProofs OpHashProps KbProps KbModel TsKbModel KbProofs AggProps TallySpec.
From Verif Require Import PlanModel PlanSpec PlanProofs PlanProofs2 PlanProofs3 PlanProofs4 PlanProofs5 PlanProofs6 PlanProps FiltModel FiltSpec.
From Verif Require Import SelModel SelSpec SelProofs SelProps FiltProofs.
From Verif Require Import PlanSpec PlanProofs4 PlanProofs5.
From Verif Require Import PlanGenModel PlanGenProofs PlanGenProps.
From Verif Require Import SelModel SelSpec PlanSpec PlanProofs4 PlanProofs5.
Local Open Scope Z_scope.

Lemma filters_layer w fuel memory open tl (nodes : list node) U p projection keep :
  dict_ok w -> NoDup U -> linear nodes -> constants_ok nodes -> (forall t k, In t U -> (k < 3)%nat -> 0 <= comp t k < 2 ^ 64) ->
  2 ^ 65 <= memory -> (4 * S (length U) ^ length nodes + 1 < fuel)%nat -> Planned nodes projection p -> complete nodes p ->
  (forall idx, In idx (indices p) -> serves U fuel open idx) -> (forall idx, In idx (aggregated p) -> serves_counts U fuel open idx) ->
  (forall idx, In idx (fully p) -> serves_terms U fuel tl idx) ->
  forall fs, (forall f, In f fs -> ordinary f = true /\ incl (fvars f) projection /\ incl (fvars f) (pvars nodes p) /\
    forall s, solves U (pats nodes p) s -> Supported w s f /\ Truth (row_of w s) f (keep f s)) ->
  forall proj, wanted nodes projection proj -> exists o b W L, translateFilters w fuel memory open tl nodes proj fs p = Some (o, b) /\
    Layer fuel nodes U p keep proj fs o b W L.
Proof.
  intros D HU Hlin Hc Hrange Hm Hf HP HC HS HS' HS'' fs. induction fs as [|f fs IH]; intros HF proj HW.
  - destruct (planned_has w fuel memory open tl nodes projection U HU Hlin Hc Hrange Hm Hf p HP HS HS' HS'' proj HW) as (o & b & W & L & E & H).
    exists o, b, W, L. split; [exact E|]. split.
    + apply H.
    + pose proof (has_length U nodes HU Hlin _ _ _ _ _ _ H) as HL. assert (Hn : length (relations p) = length nodes) by (rewrite (Permutation_length HC); apply seq_length).
      rewrite Hn in HL. assert (length U ^ length nodes <= S (length U) ^ length nodes)%nat by (apply Nat.pow_le_mono_l; lia). lia.
    + apply H.
    + intros S HSol. unfold kept. cbn [forallb]. rewrite PlanProofs5.filter_true by reflexivity. now apply H.
  - destruct (HF f (or_introl eq_refl)) as (HO & Hv & Hv' & HT). cbn [translateFilters].
    destruct (IH (fun g Hg => HF g (or_intror Hg)) (addAll (addAll (filter_vars f) []) proj)) as (o & b & W & L & E & HL).
    { intros v H. apply addAll_In in H. destruct H as [H|H]; [|now apply HW]. apply addAll_In in H. destruct H as [H|[]]. rewrite (ordinary_vars f HO) in H. left. auto. }
    rewrite E. destruct (solutions_exist U HU (pats nodes p) (pats_linear nodes Hlin (relations p))) as (S0 & HS0 & _).
    destruct (layer_step w fuel nodes U p keep D proj fs f o b W L HO Hv' (ex_intro _ S0 HS0) HT HL) as (o' & L' & E' & H').
    rewrite E'. eauto 10.
Qed.

(** C82.  A query of triple patterns and FILTERs without REPLACE and NOT EXISTS, the variables of which occur in the patterns.
    [keep f s] is the value of the filter [f] for the solution [s]: it has one, and the filter is of the class of
    C75.  Variables of filters count as used for the plan.  The operators deliver the values
    of the projected variables as often as there are solutions with them that all filters keep. *)
Theorem C82_filters_partial : forall w fuel memory open tl nodes U p projection filters keep,
  dict_ok w -> NoDup U -> Forall (terms 63) U -> linear nodes -> constants_ok nodes ->
  2 ^ 65 <= memory -> (4 * S (length U) ^ length nodes + 1 < fuel)%nat ->
  Planned nodes (projection ++ flat_map fvars filters) p -> complete nodes p ->
  (forall idx, In idx (indices p) -> serves U fuel open idx) -> (forall idx, In idx (aggregated p) -> serves_counts U fuel open idx) ->
  (forall idx, In idx (fully p) -> serves_terms U fuel tl idx) ->
  incl projection (vars nodes) -> incl (flat_map fvars filters) (vars nodes) -> forallb ordinary filters = true ->
  (forall f s, In f filters -> solves U nodes s -> Supported w s f /\ Truth (row_of w s) f (keep f s)) ->
  exists o outs W L, translateFiltered w fuel memory open tl nodes projection filters p = Some (o, outs) /\
    Answers outs W L o /\
    forall S, solutions U nodes S -> forall t, occurs outs L t = times (filter (fun s => forallb (fun f => keep f s) filters) S) projection t.
Proof.
  intros w fuel memory open tl nodes U p projection filters keep D HU HT Hlin Hc Hm Hf HP HC HS HS' HS'' Hproj Hfv Hord HK.
  assert (Hrange : forall t k, In t U -> (k < 3)%nat -> 0 <= comp t k < 2 ^ 64).
  { intros t k Ht Hk. rewrite Forall_forall in HT. specialize (HT t Ht). destruct t as [[x y] z]. cbn in HT. destruct k as [|[|k]]; cbn; lia. }
  assert (Hset : forall n, In n (pats nodes p) <-> In n nodes).
  { intros n. rewrite <- (nodes_seq nodes) at 2. unfold pats. split; apply Permutation_in; [|apply Permutation_sym]; apply Permutation_map, HC. }
  assert (Hvars : forall v, In v (vars nodes) -> In v (pvars nodes p)).
  { intros v Hv. unfold pvars, vars in *. rewrite in_flat_map in *. destruct Hv as (n & Hn & Hv). exists n. split; [now apply Hset|exact Hv]. }
  destruct (filters_layer w fuel memory open tl nodes U p (projection ++ flat_map fvars filters) keep D HU Hlin Hc Hrange Hm Hf HP HC HS HS' HS'' (rev filters)) with (proj := addAll projection [])
    as (o & b & W & L & E & H).
  { intros f Hi. apply in_rev in Hi. assert (Hi' : incl (fvars f) (flat_map fvars filters)) by (intros v Hv; apply in_flat_map; eauto).
    split; [now apply (proj1 (forallb_forall _ _) Hord)|]. split; [intros v Hv; apply in_or_app; right; auto|]. split; [intros v Hv; auto|].
    intros s Hs. apply HK; [exact Hi|]. intros n Hn. apply Hs. now apply Hset. }
  { intros v Hv. apply addAll_In in Hv. destruct Hv as [Hv|[]]. left. apply in_or_app. now left. }
  destruct (l_binds _ _ _ _ _ _ _ _ _ _ _ H) as (HKy & HB & HD).
  assert (Hget : forall x, In x projection -> exists r, bget x b = Some r /\ In (x, r) b).
  { intros x Hx. apply keyed_get; [exact HKy|]. apply HD. split; [apply addAll_In; auto|]. auto. }
  set (outs := map (fun x => match bget x b with Some r => r | None => (3 * length nodes)%nat end) projection).
  assert (Houts : incl outs (map snd b)).
  { intros r Hr. apply in_map_iff in Hr. destruct Hr as (x & <- & Hx). destruct (Hget x Hx) as (r & -> & Hi). exact (in_map snd _ _ Hi). }
  exists o, outs, W, L. split; [unfold translateFiltered; now rewrite E|]. split; [eapply Answers_V; [exact Houts|]; apply H|].
  intros S HSol t. assert (HSol' : solutions U (pats nodes p) S) by (eapply solutions_set; [|exact HSol]; intros n; symmetry; apply Hset).
  rewrite (same_occurs (map snd b) outs L (rows_of nodes (kept keep (rev filters) S)) t Houts (l_same _ _ _ _ _ _ _ _ _ _ _ H S HSol')).
  assert (EK : kept keep (rev filters) S = filter (fun s => forallb (fun f => keep f s) filters) S).
  { unfold kept. apply filter_ext. intros s. apply eq_true_iff_eq. rewrite !forallb_forall. split; intros A f Hi; apply A; [now apply -> in_rev|now apply in_rev]. }
  rewrite EK. apply occurs_rows.
  unfold outs. clear - Hget HB. induction projection as [|x xs IH]; [constructor|]. cbn [map]. constructor; [|apply IH; intros y Hy; apply Hget; now right].
  destruct (Hget x (or_introl eq_refl)) as (r & -> & Hi). now apply HB.
Qed.
Print Assumptions C82_filters_partial.

(** From the loaded triples to the solutions that the filters keep. *)
Theorem C82_query_partial : forall U inputs pad m w fuel memory d k nodes p projection filters keep,
  U <> [] -> NoDup U -> Forall (terms 39) U -> zl U < 2 ^ 31 -> prepared U inputs -> pad_ok pad -> (1 <= m)%nat ->
  kb_load fuel (m + m) inputs pad = Some d -> (forall i t f, d_files d i = Some t -> zl (t_file t f) < 2 ^ 40) -> dict_ok w ->
  linear nodes -> nodes <> [] -> constants_ok nodes -> 2 ^ 65 <= memory -> (4 * S (length U) ^ length nodes + 1 < fuel)%nat ->
  Planned nodes (projection ++ flat_map fvars filters) p -> complete nodes p ->
  (forall idx, In idx (indices p) \/ In idx (aggregated p) \/ In idx (fully p) -> kb_present d idx = true) ->
  incl projection (vars nodes) -> incl (flat_map fvars filters) (vars nodes) -> forallb ordinary filters = true ->
  (forall f s, In f filters -> solves U nodes s -> Supported w s f /\ Truth (row_of w s) f (keep f s)) ->
  exists o outs W L, translateFiltered w fuel memory (fun idx => kb_scan_open fuel d idx) (fun idx => kb_getTermList fuel d idx k) nodes projection filters p = Some (o, outs) /\
    Answers outs W L o /\
    forall S, solutions U nodes S -> forall t, occurs outs L t = times (filter (fun s => forallb (fun f => keep f s) filters) S) projection t.
Proof.
  intros U inputs pad m w fuel memory d k nodes p projection filters keep H1 HU H2 H3 H4 H5 H6 H8 H9 D Hlin Hne Hc Hm Hf HP HC HI Hproj Hfv Hord HK.
  assert (Hf' : (length U + length U + length U < fuel)%nat).
  { assert (S (length U) <= S (length U) ^ length nodes)%nat; [|lia]. destruct nodes as [|n ns]; [congruence|]. cbn [length Nat.pow].
    pose proof (Nat.pow_nonzero (S (length U)) (length ns)). assert (S (length U) ^ length ns <> 0)%nat by (apply H; lia). nia. }
  apply C82_filters_partial; auto.
  - eapply Forall_impl; [|exact H2]. intros [[x y] z]. cbn. lia.
  - intros idx Hi. eapply C76_loaded; eauto. eapply planned_indices; eauto.
  - intros idx Hi. eapply C76_loaded_counts; eauto. eapply planned_indices; eauto.
  - intros idx Hi. eapply C76_loaded_terms; eauto. eapply planned_indices; eauto.
Qed.
Print Assumptions C82_query_partial.

(** With the plan that the generator chooses, whichever it is.  The filters compare variables of different patterns, so that
    none of them can be moved to the scan of a pattern (PlanGen.cpp 150-210). *)
Theorem C82_answer_partial : forall le ge better negative U inputs pad m w fuel memory d k nodes projection filters keep,
  U <> [] -> NoDup U -> Forall (terms 39) U -> zl U < 2 ^ 31 -> prepared U inputs -> pad_ok pad -> (1 <= m)%nat ->
  kb_load fuel (m + m) inputs pad = Some d -> (forall i t f, d_files d i = Some t -> zl (t_file t f) < 2 ^ 40) ->
  (forall idx, (idx < 6)%nat -> kb_present d idx = true) -> dict_ok w ->
  (forall i j, negative i j = false) -> (0 < length nodes <= 64)%nat -> constant_used nodes (projection ++ flat_map fvars filters) ->
  (one_unused nodes (projection ++ flat_map fvars filters) \/ forall idx i, le (FullyAggregatedIndexScan false idx i) (FullyAggregatedIndexScan true idx i) = true) ->
  linear nodes -> constants_ok nodes -> 2 ^ 65 <= memory -> (4 * S (length U) ^ length nodes + 1 < fuel)%nat ->
  incl projection (vars nodes) -> incl (flat_map fvars filters) (vars nodes) -> forallb ordinary filters = true ->
  (forall f n, In f filters -> In n nodes -> ~ incl (fvars f) (pattern_vars n)) ->
  (forall f s, In f filters -> solves U nodes s -> Supported w s f /\ Truth (row_of w s) f (keep f s)) ->
  exists p o outs W L, translate le ge better negative nodes (projection ++ flat_map fvars filters) = Some p /\
    translateFiltered w fuel memory (fun idx => kb_scan_open fuel d idx) (fun idx => kb_getTermList fuel d idx k) nodes projection filters p = Some (o, outs) /\
    Answers outs W L o /\
    forall S, solutions U nodes S -> forall t, occurs outs L t = times (filter (fun s => forallb (fun f => keep f s) filters) S) projection t.
Proof.
  intros le ge better negative U inputs pad m w fuel memory d k nodes projection filters keep H1 HU H2 H3 H4 H5 H6 H8 H9 Hix D Hn Hl Hcu Hu Hlin Hc Hm Hf Hproj Hfv Hord _ HK.
  destruct (C77_generated le ge better negative nodes (projection ++ flat_map fvars filters) Hn Hl Hcu Hu) as (p & HT & HC & HP). exists p.
  destruct (C82_query_partial U inputs pad m w fuel memory d k nodes p projection filters keep) as (o & outs & W & L & E & HA & HO); auto.
  - destruct nodes; [cbn in Hl; lia|discriminate].
  - intros idx Hi. apply Hix. eapply planned_indices; eauto.
  - exists o, outs, W, L. auto.
Qed.
Print Assumptions C82_answer_partial.

(** *** Cases: the database of C70_case; the terms 3 and 4 are a double and the text "ann". *)
Definition ex_filtered (nodes : list node) (projection : list nat) (filters : list filt) (p : plan) : option (list (list Z * Z)) :=
  do d <- kb_load 120 2 (ex_inputs [0; 2; 5]%nat) ex_pad;
  do (o, outs) <- translateFiltered exw 120 (2 ^ 65) (fun idx => kb_scan_open 120 d idx) (fun idx => kb_getTermList 120 d idx 0) nodes projection filters p;
  run outs 20 (o_first o) (fun _ => 0).
Definition f_differ : filt := FNotEqual (FVar 1) (FVar 2).
Definition f_ann : filt := FEqual (FLit (LPlain "ann")) (FVar 1).
Definition f_list : filt := FIn (FVar 2) [FLit (LPlain "bob"); FLit (LPlain "ann")].
Example C82_case :
  ex_filtered q_merge [0; 1; 2]%nat [] p_merge = Some [([1; 3; 3], 1); ([1; 4; 3], 1)] /\
  ex_filtered q_merge [0; 1]%nat [f_differ] p_merge = Some [([1; 4], 1)] /\
  ex_filtered q_merge [0]%nat [f_ann; f_differ] p_merge = Some [([1], 1)] /\
  ex_filtered q_merge [0]%nat [FNot f_ann] p_merge = Some [([1], 1)] /\
  ex_filtered q_merge [0]%nat [f_ann; f_list] p_merge = Some [].
Proof. vm_compute. repeat split. Qed.
(** The hypotheses hold for the third of them (see C76_hyps for the others that concern the database). *)
Definition ex_keeps (f : filt) (s : nat -> Z) : bool := s 1%nat =? 4.
Example C82_hyps : dict_ok exw /\ Planned q_merge ([0] ++ flat_map fvars [f_ann; f_differ])%nat p_merge /\
  forallb ordinary [f_ann; f_differ] = true /\ incl (flat_map fvars [f_ann; f_differ]) (vars q_merge) /\
  forall f s, In f [f_ann; f_differ] -> solves ex_U q_merge s -> Supported exw s f /\ Truth (row_of exw s) f (ex_keeps f s).
Proof.
  split; [apply exw_ok|]. split; [apply P_merge; [apply P_scan; cbn; lia|apply P_scan; cbn; lia|reflexivity|reflexivity|reflexivity|reflexivity]|].
  split; [reflexivity|]. split; [intros v; cbn; tauto|]. intros f s Hf Hs.
  assert (H1 := Hs _ (or_introl eq_refl)). assert (H2 := Hs _ (or_intror (or_introl eq_refl))). unfold instance in H1, H2. cbn in H1, H2.
  assert (E2 : s 2%nat = 3) by (intuition congruence). assert (E1 : s 1%nat = 3 \/ s 1%nat = 4) by (intuition congruence). clear Hs H1 H2.
  assert (R2 : row_of exw s 2%nat = Some (typed "1.50" (xsd "double"))) by (unfold row_of; rewrite E2; reflexivity).
  assert (R1 : row_of exw s 1%nat = Some (typed "1.50" (xsd "double")) /\ ex_keeps f s = false \/ row_of exw s 1%nat = Some (literal "ann" "") /\ ex_keeps f s = true).
  { unfold row_of, ex_keeps. destruct E1 as [-> | ->]; [left|right]; split; reflexivity. }
  assert (NA : forall q, ~ number (literal "ann" "") q) by (intros q; apply plain_not_number).
  destruct Hf as [<-|[<-|[]]].
  - split.
    + split; [right; split; [repeat split; reflexivity|]; split; [left; vm_compute; discriminate|exact I]|]. split; [left; eexists; reflexivity|]. split; [right; eexists; reflexivity|].
      intros t1 t2 q1 q2 O1 _ N1. inversion O1; subst. exfalso. eapply NA; exact N1.
    + destruct R1 as [[R1 K]|[R1 K]]; rewrite K.
      * refine (T_equal _ _ _ (literal "ann" "") (typed "1.50" (xsd "double")) false (Op_lit _ (LPlain "ann")) (Op_var _ _ _ R1) _).
        change false with (String.eqb (literal "ann" "") (typed "1.50" (xsd "double"))). apply Eq_term. intros [[q N] _]. eapply NA; exact N.
      * refine (T_equal _ _ _ (literal "ann" "") (literal "ann" "") true (Op_lit _ (LPlain "ann")) (Op_var _ _ _ R1) _).
        change true with (String.eqb (literal "ann" "") (literal "ann" "")). apply Eq_term. intros [[q N] _]. eapply NA; exact N.
  - split.
    + split; [left; eexists; reflexivity|]. split; [left; eexists; reflexivity|]. split; [left; eexists; reflexivity|].
      intros t1 t2 q1 q2 O1 O2 N1 _ _. inversion O1; subst. inversion O2; subst. destruct R1 as [[R1 K]|[R1 K]]; [congruence|]. exfalso. eapply (NA q1). congruence.
    + destruct R1 as [[R1 K]|[R1 K]]; rewrite K.
      * refine (T_notequal _ _ _ _ _ true (Op_var _ _ _ R1) (Op_var _ _ _ R2) _).
        assert (N : number (typed "1.50" (xsd "double")) (3 # 2)).
        { right. exists "1.50"%string, (xsd "double"). split; [now left|]. split; [reflexivity|]. left. exists ""%string, 1, "1"%string, "50"%string.
          split; [now left|]. split; [apply digits_ok; [discriminate|reflexivity]|]. split; [apply digits_ok; [discriminate|reflexivity]|]. split; reflexivity. }
        exact (Eq_number _ _ _ _ N N).
      * refine (T_notequal _ _ _ (literal "ann" "") (typed "1.50" (xsd "double")) false (Op_var _ _ _ R1) (Op_var _ _ _ R2) _).
        change false with (String.eqb (literal "ann" "") (typed "1.50" (xsd "double"))). apply Eq_term. intros [[q N] _]. eapply NA; exact N.
Qed.

(** A filter that compares variables of two patterns, and the conditions on the use of variables. *)
Example C82_answer_hyps : (forall f n, In f [f_differ] -> In n q_merge -> ~ incl (fvars f) (pattern_vars n)) /\
  one_unused q_merge ([0] ++ flat_map fvars [f_differ])%nat /\ constant_used q_merge ([0] ++ flat_map fvars [f_differ])%nat.
Proof.
  assert (H : one_unused q_merge ([0] ++ flat_map fvars [f_differ])%nat).
  { intros i n k k' v v' E Hk Hk' Hne Ev Ev'. destruct i as [|[|i]]; [| |destruct i; discriminate]; injection E as <-;
    (destruct k as [|[|[|k]]]; try lia; cbn in Ev; try discriminate; injection Ev as <-); (destruct k' as [|[|[|k']]]; try lia; cbn in Ev'; try discriminate; injection Ev' as <-); unfold used; cbn; tauto. }
  split; [|split; [exact H|now apply one_constant]].
  intros f n [<-|[]] [<-|[<-|[]]] HI; [specialize (HI 2%nat)|specialize (HI 1%nat)]; cbn in HI; intuition discriminate.
Qed.

(** *** What does not hold *)
(** A variable that is compared with a number is compared by id (CodeGen.cpp 739-753): the triple of 9, the integer 1, is
    lost although 1 = 1.0 is true. *)
Definition q_number : list node := [mkNode (Var 0) (Var 1) (Const 3)].
Definition f_number : filt := FEqual (FVar 1) (FLit (LTyped "1.0" (xsd "double"))).
Theorem C82_number_refuted : exists s,
  solves ex_U q_number s /\ Truth (row_of exw s) f_number true /\
  Planned q_number ([0; 1] ++ flat_map fvars [f_number])%nat (IndexScan false 2 0) /\ complete q_number (IndexScan false 2 0) /\
  ex_filtered q_number [0; 1]%nat [] (IndexScan false 2 0) = Some [([1; 7], 1); ([5; 7], 1); ([1; 9], 1)] /\
  ex_filtered q_number [0; 1]%nat [f_number] (IndexScan false 2 0) = Some [].
Proof.
  exists (fun v => match v with O => 1 | _ => 9 end). split; [intros n [<-|[]]; cbn; tauto|]. split.
  - refine (T_equal _ _ _ (int "1") (typed "1.0" (xsd "double")) true (Op_var _ 1%nat (int "1") eq_refl) (Op_lit _ (LTyped "1.0" (xsd "double"))) _).
    refine (Eq_number _ _ 1 1 (int_number "1" ltac:(discriminate) eq_refl eq_refl) _).
    right. exists "1.0"%string, (xsd "double"). split; [now left|]. split; [reflexivity|]. left. exists ""%string, 1%Z, "1"%string, "0"%string.
    split; [now left|]. split; [apply digits_ok; [discriminate|reflexivity]|]. split; [apply digits_ok; [discriminate|reflexivity]|]. split; reflexivity.
  - split; [apply P_scan; cbn; lia|]. split; [apply Permutation_refl|]. split; vm_compute; reflexivity.
Qed.
Print Assumptions C82_number_refuted.
