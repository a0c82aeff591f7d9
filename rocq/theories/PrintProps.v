(** C84: the text that is printed for a query, with LIMIT and OFFSET. *)
From Coq Require Import ZifyBool.
From Verif Require Import FullModel KbModel TsKbModel.
From Verif Require Import OpSpec OpProofs OpHashProofs OpHashProofs2 KbSpec TsSpec TsProps InserterProofs OpHashProps KbProps KbModel TsKbModel KbProofs AggProps TallySpec.
From Verif Require Import PlanModel PlanSpec PlanProofs PlanProofs2 PlanProofs3 PlanProofs4 PlanProofs5 PlanProofs6 PlanProps FiltModel FiltSpec.
From Verif Require Import SelModel SelSpec SelProofs SelProps FiltProofs.
From Verif Require Import PlanSpec PlanProofs4 PlanProofs5.
From Verif Require Import PlanGenModel PlanGenProofs PlanGenProps.
From Verif Require Import SelModel SelSpec PlanSpec PlanProofs4 PlanProofs5.
From Verif Require Import FiltProps PushModel PushProofs3 PushProps OpModel OpProofs7 OpProps2 DistModel DistProofs.
From Verif Require Import SelModel SelSpec PlanSpec PlanProofs4 PlanProofs5 PushModel.
Local Open Scope Z_scope.

Lemma occurs_count V L t : positive L -> occurs V L t = Z.of_nat (count_occ values_dec (expand V L) t).
Proof.
  intros H. induction H as [|a L Ha H IH]; [reflexivity|]. rewrite occurs_cons, IH. unfold expand. cbn [flat_map]. rewrite count_occ_app, Nat2Z.inj_add. f_equal.
  destruct (values_dec (map (fst a) V) t) as [E|E]; [subst t; rewrite count_occ_repeat_eq by reflexivity; symmetry; apply Z2Nat.id, Z.lt_le_incl; exact Ha|rewrite count_occ_repeat_neq by (intros E'; apply E; first [exact E'|symmetry; exact E']); reflexivity].
Qed.
Lemma times_count S xs t : times S xs t = Z.of_nat (count_occ values_dec (map (fun s : nat -> Z => map s xs) S) t).
Proof. unfold times. induction S as [|s S IH]; [reflexivity|]. cbn [filter map count_occ]. destruct (values_dec (map s xs) t); cbn [length]; lia. Qed.
Lemma printed_rows V L S xs : positive L -> (forall t, occurs V L t = times S xs t) -> Permutation (expand V L) (map (fun s : nat -> Z => map s xs) S).
Proof. intros H E. apply (Permutation_count_occ values_dec). intros t. specialize (E t). rewrite occurs_count, times_count in E by exact H. lia. Qed.

(** C84.  There is one list [rows] of the projections of the solutions that the filters keep, each as often as there are such solutions, and for every LIMIT and
    OFFSET the printer prints the part of that list: it drops the first [offset] rows and prints the next [limit] ones, or all if there are fewer.  In silent mode it
    prints their number.  The hypotheses are those of C82_pushed_partial. *)
Theorem C84_printed_partial : forall w fuel memory open tl nodes U p projection filters keep,
  dict_ok w -> NoDup U -> Forall (terms 63) U -> linear nodes -> constants_ok nodes ->
  2 ^ 65 <= memory -> (4 * S (length U) ^ length nodes + 1 < fuel)%nat ->
  Planned nodes (projection ++ flat_map fvars filters) p -> complete nodes p ->
  (forall idx, In idx (indices p) -> serves U fuel open idx) -> (forall idx, In idx (aggregated p) -> serves_counts U fuel open idx) ->
  (forall idx, In idx (fully p) -> serves_terms U fuel tl idx) ->
  incl projection (vars nodes) -> incl (flat_map fvars filters) (vars nodes) -> forallb ordinary filters = true ->
  (forall f n s, In f filters -> In n nodes -> incl (fvars f) (pattern_vars n) -> solves U [n] s -> exists z, Supported w s f /\ Truth (row_of w s) f z) ->
  (forall f s, In f filters -> solves U nodes s -> Supported w s f /\ Truth (row_of w s) f (keep f s)) ->
  exists o outs rows, translateQuery w fuel memory open tl nodes filters projection p = Some (o, outs) /\
    (forall S, solutions U nodes S -> Permutation rows (map (fun s => map s projection) (filter (fun s => forallb (fun f => keep f s) filters) S))) /\
    forall limit offset g, 1 <= limit -> 0 <= offset ->
      rp_text fuel limit offset outs o g = Some (firstn (Z.to_nat limit) (skipn (Z.to_nat offset) rows)) /\
      rp_silent fuel limit offset o g = Some (Z.of_nat (length (firstn (Z.to_nat limit) (skipn (Z.to_nat offset) rows)))).
Proof.
  intros w fuel memory open tl nodes U p projection filters keep D HU HT Hlin Hc Hm Hf HP HC HS HS' HS'' Hproj Hfv Hord HPH HK.
  assert (Hrange : forall t k, In t U -> (k < 3)%nat -> 0 <= comp t k < 2 ^ 64).
  { intros t k Ht Hk. rewrite Forall_forall in HT. specialize (HT t Ht). destruct t as [[x y] z]. cbn in HT. destruct k as [|[|k]]; cbn; lia. }
  assert (Hset : forall n, In n (pats nodes p) <-> In n nodes).
  { intros n. rewrite <- (nodes_seq nodes) at 2. unfold pats. split; apply Permutation_in; [|apply Permutation_sym]; apply Permutation_map, HC. }
  assert (Hvars : forall v, In v (vars nodes) -> In v (pvars nodes p)).
  { intros v Hv. unfold pvars, vars in *. rewrite in_flat_map in *. destruct Hv as (n & Hn & Hv). exists n. split; [now apply Hset|exact Hv]. }
  set (top := rev (filter (fun f => negb (applied nodes f p)) filters)).
  assert (Hin : forall f, In f filters -> incl (fvars f) (flat_map fvars filters)) by (intros f Hi v Hv; apply in_flat_map; eauto).
  destruct (above_layer w fuel memory open tl nodes (projection ++ flat_map fvars filters) U filters D HU Hlin Hc Hrange Hm Hf) with (keep := keep) (p := p) (fs := top) (proj := addAll projection [])
    as (o & b & W & L & E & H & _); auto.
  { now apply forallb_forall. }
  { intros f Hi v Hv. apply in_or_app. right. eapply Hin; eauto. }
  { intros f i s Hi Hlt Hv Hs. apply (HPH f (node_of nodes i)); auto. apply nth_In, Hlt. }
  { intros f Hi v Hv. apply Hvars, Hfv. eapply Hin; eauto. }
  { intros f s Hi Hs. apply HK; [exact Hi|]. intros n Hn. apply Hs. now apply Hset. }
  { intros f Hi. unfold top in Hi. apply in_rev in Hi. apply filter_In in Hi. apply Hi. }
  { intros v Hv. apply addAll_In in Hv. destruct Hv as [Hv|[]]. left. apply in_or_app. now left. }
  destruct (l_binds _ _ _ _ _ _ _ _ _ _ _ H) as (HKy & HB & HD).
  assert (Hget : forall x, In x projection -> exists r, bget x b = Some r /\ In (x, r) b).
  { intros x Hx. apply keyed_get; [exact HKy|]. apply HD. split; [apply addAll_In; auto|]. auto. }
  set (outs := map (fun x => match bget x b with Some r => r | None => (3 * length nodes)%nat end) projection).
  assert (Houts : incl outs (map snd b)).
  { intros r Hr. apply in_map_iff in Hr. destruct Hr as (x & <- & Hx). destruct (Hget x Hx) as (r & -> & Hi). exact (in_map snd _ _ Hi). }
  assert (HA : Answers outs W L o) by (eapply Answers_V; [exact Houts|]; apply H). assert (HL : (length L <= fuel)%nat) by (apply Nat.lt_le_incl, H).
  exists o, outs, (expand outs L). split; [unfold translateQuery; fold top; now rewrite E|].
  split; [|intros limit offset g Hl Ho; split; [eapply (C63_printed_partial outs W L); auto using incl_refl|eapply (C63_counted outs W L); auto; lia]].
  intros S HSol. apply printed_rows; [eapply answers_pos; exact HA|]. intros t. clear HA HL.
  assert (HSol' : solutions U (pats nodes p) S) by (eapply solutions_set; [|exact HSol]; intros n; symmetry; apply Hset).
  rewrite (same_occurs (map snd b) outs L (rows_of nodes (kept keep (top ++ filter (fun f => applied nodes f p) filters) S)) t Houts (l_same _ _ _ _ _ _ _ _ _ _ _ H S HSol')).
  assert (EK : kept keep (top ++ filter (fun f => applied nodes f p) filters) S = filter (fun s => forallb (fun f => keep f s) filters) S).
  { unfold kept. apply filter_ext. intros s. apply eq_true_iff_eq. rewrite !forallb_forall. split; intros A f Hi; apply A.
    - apply in_or_app. destruct (applied nodes f p) eqn:Ea; [right; now apply filter_In|left]. unfold top. apply -> in_rev. apply filter_In. now rewrite Ea.
    - apply in_app_or in Hi. destruct Hi as [Hi|Hi]; [unfold top in Hi; apply in_rev in Hi|]; apply filter_In in Hi; apply Hi. }
  rewrite EK. apply occurs_rows.
  unfold outs. clear - Hget HB. induction projection as [|x xs IH]; [constructor|]. cbn [map]. constructor; [|apply IH; intros y Hy; apply Hget; now right].
  destruct (Hget x (or_introl eq_refl)) as (r & -> & Hi). now apply HB.
Qed.
Print Assumptions C84_printed_partial.

(** From the loaded triples to the text. *)
Theorem C84_printed_query_partial : forall U inputs pad m w fuel memory d k nodes p projection filters keep,
  U <> [] -> NoDup U -> Forall (terms 39) U -> zl U < 2 ^ 31 -> prepared U inputs -> pad_ok pad -> (1 <= m)%nat ->
  kb_load fuel (m + m) inputs pad = Some d -> (forall i t f, d_files d i = Some t -> zl (t_file t f) < 2 ^ 40) -> dict_ok w ->
  linear nodes -> nodes <> [] -> constants_ok nodes -> 2 ^ 65 <= memory -> (4 * S (length U) ^ length nodes + 1 < fuel)%nat ->
  Planned nodes (projection ++ flat_map fvars filters) p -> complete nodes p ->
  (forall idx, In idx (indices p) \/ In idx (aggregated p) \/ In idx (fully p) -> kb_present d idx = true) ->
  incl projection (vars nodes) -> incl (flat_map fvars filters) (vars nodes) -> forallb ordinary filters = true ->
  (forall f n s, In f filters -> In n nodes -> incl (fvars f) (pattern_vars n) -> solves U [n] s -> exists z, Supported w s f /\ Truth (row_of w s) f z) ->
  (forall f s, In f filters -> solves U nodes s -> Supported w s f /\ Truth (row_of w s) f (keep f s)) ->
  exists o outs rows, translateQuery w fuel memory (fun idx => kb_scan_open fuel d idx) (fun idx => kb_getTermList fuel d idx k) nodes filters projection p = Some (o, outs) /\
    (forall S, solutions U nodes S -> Permutation rows (map (fun s => map s projection) (filter (fun s => forallb (fun f => keep f s) filters) S))) /\
    forall limit offset g, 1 <= limit -> 0 <= offset ->
      rp_text fuel limit offset outs o g = Some (firstn (Z.to_nat limit) (skipn (Z.to_nat offset) rows)) /\
      rp_silent fuel limit offset o g = Some (Z.of_nat (length (firstn (Z.to_nat limit) (skipn (Z.to_nat offset) rows)))).
Proof.
  intros U inputs pad m w fuel memory d k nodes p projection filters keep H1 HU H2 H3 H4 H5 H6 H8 H9 D Hlin Hne Hc Hm Hf HP HC HI Hproj Hfv Hord HPH HK.
  assert (Hf' : (length U + length U + length U < fuel)%nat).
  { assert (S (length U) <= S (length U) ^ length nodes)%nat; [|lia]. destruct nodes as [|n ns]; [congruence|]. cbn [length Nat.pow].
    pose proof (Nat.pow_nonzero (S (length U)) (length ns)). assert (S (length U) ^ length ns <> 0)%nat by (apply H; lia). nia. }
  apply C84_printed_partial; auto.
  - eapply Forall_impl; [|exact H2]. intros [[x y] z]. cbn. lia.
  - intros idx Hi. eapply C76_loaded; eauto. eapply planned_indices; eauto.
  - intros idx Hi. eapply C76_loaded_counts; eauto. eapply planned_indices; eauto.
  - intros idx Hi. eapply C76_loaded_terms; eauto. eapply planned_indices; eauto.
Qed.
Print Assumptions C84_printed_query_partial.

(** With the plan that the generator chooses, whichever it is. *)
Theorem C84_printed_answer_partial : forall le ge better negative U inputs pad m w fuel memory d k nodes projection filters keep,
  U <> [] -> NoDup U -> Forall (terms 39) U -> zl U < 2 ^ 31 -> prepared U inputs -> pad_ok pad -> (1 <= m)%nat ->
  kb_load fuel (m + m) inputs pad = Some d -> (forall i t f, d_files d i = Some t -> zl (t_file t f) < 2 ^ 40) ->
  (forall idx, (idx < 6)%nat -> kb_present d idx = true) -> dict_ok w ->
  (forall i j, negative i j = false) -> (0 < length nodes <= 64)%nat -> constant_used nodes (projection ++ flat_map fvars filters) ->
  (one_unused nodes (projection ++ flat_map fvars filters) \/ forall idx i, le (FullyAggregatedIndexScan false idx i) (FullyAggregatedIndexScan true idx i) = true) ->
  linear nodes -> constants_ok nodes -> 2 ^ 65 <= memory -> (4 * S (length U) ^ length nodes + 1 < fuel)%nat ->
  incl projection (vars nodes) -> incl (flat_map fvars filters) (vars nodes) -> forallb ordinary filters = true ->
  (forall f n s, In f filters -> In n nodes -> incl (fvars f) (pattern_vars n) -> solves U [n] s -> exists z, Supported w s f /\ Truth (row_of w s) f z) ->
  (forall f s, In f filters -> solves U nodes s -> Supported w s f /\ Truth (row_of w s) f (keep f s)) ->
  exists p o outs rows, translate le ge better negative nodes (projection ++ flat_map fvars filters) = Some p /\
    translateQuery w fuel memory (fun idx => kb_scan_open fuel d idx) (fun idx => kb_getTermList fuel d idx k) nodes filters projection p = Some (o, outs) /\
    (forall S, solutions U nodes S -> Permutation rows (map (fun s => map s projection) (filter (fun s => forallb (fun f => keep f s) filters) S))) /\
    forall limit offset g, 1 <= limit -> 0 <= offset ->
      rp_text fuel limit offset outs o g = Some (firstn (Z.to_nat limit) (skipn (Z.to_nat offset) rows)) /\
      rp_silent fuel limit offset o g = Some (Z.of_nat (length (firstn (Z.to_nat limit) (skipn (Z.to_nat offset) rows)))).
Proof.
  intros le ge better negative U inputs pad m w fuel memory d k nodes projection filters keep H1 HU H2 H3 H4 H5 H6 H8 H9 Hix D Hn Hl Hcu Hu Hlin Hc Hm Hf Hproj Hfv Hord HPH HK.
  destruct (C77_generated le ge better negative nodes (projection ++ flat_map fvars filters) Hn Hl Hcu Hu) as (p & HT & HC & HP). exists p.
  destruct (C84_printed_query_partial U inputs pad m w fuel memory d k nodes p projection filters keep) as (o & outs & rows & E & HA & HO); auto.
  - destruct nodes; [cbn in Hl; lia|discriminate].
  - intros idx Hi. apply Hix. eapply planned_indices; eauto.
  - exists o, outs, rows. auto.
Qed.
Print Assumptions C84_printed_answer_partial.

(** *** Cases: the query of FiltProps.v with LIMIT and OFFSET. *)
Definition ex_printed (limit offset : Z) (projection : list nat) (filters : list filt) : option (list (list Z)) :=
  do d <- kb_load 120 2 (ex_inputs [0; 2; 5]%nat) ex_pad;
  do (o, outs) <- translateQuery exw 120 (2 ^ 65) (fun idx => kb_scan_open 120 d idx) (fun idx => kb_getTermList 120 d idx 0) q_merge filters projection p_merge;
  rp_text 120 limit offset outs o (fun _ => 0).
Example C84_printed_case :
  ex_printed 9 0 [0]%nat [] = Some [[1]; [1]] /\
  ex_printed 9 0 [2; 1]%nat [] = Some [[3; 3]; [3; 4]] /\
  ex_printed 1 0 [2; 1]%nat [] = Some [[3; 3]] /\
  ex_printed 1 1 [2; 1]%nat [] = Some [[3; 4]] /\
  ex_printed 9 2 [2; 1]%nat [] = Some [] /\
  ex_printed 9 0 [2; 1]%nat [f_ann] = Some [[3; 4]] /\
  ex_printed 9 1 [2; 1]%nat [f_ann] = Some [].
Proof. vm_compute. repeat split. Qed.
