(** C83: SELECT DISTINCT. *)
From Coq Require Import ZifyBool.
From Verif Require Import FullModel KbModel TsKbModel.
From Verif Require Import OpSpec OpProofs OpHashProofs OpHashProofs2 KbSpec TsSpec TsProps InserterProofs OpHashProps KbProps KbModel TsKbModel KbProofs AggProps TallySpec.
From Verif Require Import PlanModel PlanSpec PlanProofs PlanProofs2 PlanProofs3 PlanProofs4 PlanProofs5 PlanProofs6 PlanProps FiltModel FiltSpec.
From Verif Require Import SelModel SelSpec SelProofs SelProps FiltProofs.
From Verif Require Import PlanSpec PlanProofs4 PlanProofs5.
From Verif Require Import PlanGenModel PlanGenProofs PlanGenProps.
From Verif Require Import SelModel SelSpec PlanSpec PlanProofs4 PlanProofs5.
From Verif Require Import FiltProps PushModel PushProofs3 PushProps OpModel OpProps2 DistModel DistProofs.
From Verif Require Import SelModel SelSpec PlanSpec PlanProofs4 PlanProofs5 PushModel.
Local Open Scope Z_scope.

(** C83.  SELECT DISTINCT prints no row twice, and the rows that it prints are those of the solutions that the filters keep; with LIMIT it prints the first ones of
    these.  [order] are the variables of ORDER BY, which must be among those that are projected: see C83_order_refuted.  There is no OFFSET: see C83_offset_refuted. *)
Theorem C83_distinct_partial : forall enum w fuel memory open tl nodes U p projection order filters keep,
  (forall gs, Permutation (enum gs) (seq 0 (length gs))) -> incl order projection -> dict_ok w -> NoDup U -> Forall (terms 63) U -> linear nodes -> constants_ok nodes ->
  2 ^ 65 <= memory -> (4 * S (length U) ^ length nodes + 1 < fuel)%nat ->
  Planned nodes (projection ++ flat_map fvars filters) p -> complete nodes p ->
  (forall idx, In idx (indices p) -> serves U fuel open idx) -> (forall idx, In idx (aggregated p) -> serves_counts U fuel open idx) ->
  (forall idx, In idx (fully p) -> serves_terms U fuel tl idx) ->
  incl projection (vars nodes) -> incl (flat_map fvars filters) (vars nodes) -> forallb ordinary filters = true ->
  (forall f n s, In f filters -> In n nodes -> incl (fvars f) (pattern_vars n) -> solves U [n] s -> exists z, Supported w s f /\ Truth (row_of w s) f z) ->
  (forall f s, In f filters -> solves U nodes s -> Supported w s f /\ Truth (row_of w s) f (keep f s)) ->
  exists o outs rows, translateDistinct enum w fuel memory open tl nodes filters projection order p = Some (o, outs) /\
    NoDup rows /\
    (forall S, solutions U nodes S -> forall t, In t rows <-> In t (map (fun s => map s projection) (filter (fun s => forallb (fun f => keep f s) filters) S))) /\
    forall limit g, 1 <= limit -> rp_distinct fuel limit 0 outs o g = Some (firstn (Z.to_nat limit) rows).
Proof.
  intros enum w fuel memory open tl nodes U p projection order filters keep Hen Hoi D HU HT Hlin Hc Hm Hf HP HC HS HS' HS'' Hproj Hfv Hord HPH HK.
  assert (Hrange : forall t k, In t U -> (k < 3)%nat -> 0 <= comp t k < 2 ^ 64).
  { intros t k Ht Hk. rewrite Forall_forall in HT. specialize (HT t Ht). destruct t as [[x y] z]. cbn in HT. destruct k as [|[|k]]; cbn; lia. }
  assert (Hset : forall n, In n (pats nodes p) <-> In n nodes).
  { intros n. rewrite <- (nodes_seq nodes) at 2. unfold pats. split; apply Permutation_in; [|apply Permutation_sym]; apply Permutation_map, HC. }
  assert (Hvars : forall v, In v (vars nodes) -> In v (pvars nodes p)).
  { intros v Hv. unfold pvars, vars in *. rewrite in_flat_map in *. destruct Hv as (n & Hn & Hv). exists n. split; [now apply Hset|exact Hv]. }
  set (top := rev (filter (fun f => negb (applied nodes f p)) filters)).
  assert (Hin : forall f, In f filters -> incl (fvars f) (flat_map fvars filters)) by (intros f Hi v Hv; apply in_flat_map; eauto).
  destruct (above_layer w fuel memory open tl nodes (projection ++ flat_map fvars filters) U filters D HU Hlin Hc Hrange Hm Hf) with (keep := keep) (p := p) (fs := top) (proj := addAll order (addAll projection []))
    as (o & b & W & L & E & H & HbW); auto.
  { now apply forallb_forall. }
  { intros f Hi v Hv. apply in_or_app. right. eapply Hin; eauto. }
  { intros f i s Hi Hlt Hv Hs. apply (HPH f (node_of nodes i)); auto. apply nth_In, Hlt. }
  { intros f Hi v Hv. apply Hvars, Hfv. eapply Hin; eauto. }
  { intros f s Hi Hs. apply HK; [exact Hi|]. intros n Hn. apply Hs. now apply Hset. }
  { intros f Hi. unfold top in Hi. apply in_rev in Hi. apply filter_In in Hi. apply Hi. }
  { intros v Hv. rewrite !addAll_In in Hv. left. apply in_or_app. left. destruct Hv as [Hv|[Hv|[]]]; auto. }
  destruct (l_binds _ _ _ _ _ _ _ _ _ _ _ H) as (HKy & HB & HD).
  assert (Hget : forall x, In x projection -> exists r, bget x b = Some r /\ In (x, r) b).
  { intros x Hx. apply keyed_get; [exact HKy|]. apply HD. split; [rewrite !addAll_In; auto|]. auto. }
  set (outs := map (fun x => match bget x b with Some r => r | None => (3 * length nodes)%nat end) projection).
  assert (Houts : incl outs (map snd b)).
  { intros r Hr. apply in_map_iff in Hr. destruct Hr as (x & <- & Hx). destruct (Hget x Hx) as (r & -> & Hi). exact (in_map snd _ _ Hi). }
  assert (Houts' : incl (map snd b) outs).
  { intros r Hr. apply in_map_iff in Hr. destruct Hr as ([x r'] & <- & Hi). cbn [snd]. assert (Hx : In x projection).
    { destruct (proj1 (HD x) (ex_intro _ r' Hi)) as [Hx _]. rewrite !addAll_In in Hx. destruct Hx as [Hx|[Hx|[]]]; auto. }
    apply in_map_iff. exists x. split; [|exact Hx]. now rewrite (keyed_In x r' b HKy Hi). }
  destruct (grouped enum fuel (map snd b) outs W L o Hen HbW (binds_nodup _ _ _ _ (l_binds _ _ _ _ _ _ _ _ _ _ _ H)) (l_length _ _ _ _ _ _ _ _ _ _ _ H) Houts Houts' (l_answers _ _ _ _ _ _ _ _ _ _ _ H))
    as (out & HA & Hlen & HN & HIn).
  exists (hash_groupify enum fuel (map snd b) o), outs, (map (fun a => map (fst a) outs) out). split; [unfold translateDistinct; fold top; now rewrite E|]. split; [exact HN|].
  split; [|intros limit g Hlim; exact (distinct_rows outs W outs limit out _ fuel g (incl_refl _) Hlim Hlen HA)].
  intros S HSol t. rewrite HIn, <- times_pos. clear HIn HA HN Hlen Houts' HbW. assert (HSol' : solutions U (pats nodes p) S) by (eapply solutions_set; [|exact HSol]; intros n; symmetry; apply Hset).
  rewrite (same_occurs (map snd b) outs L (rows_of nodes (kept keep (top ++ filter (fun f => applied nodes f p) filters) S)) t Houts (l_same _ _ _ _ _ _ _ _ _ _ _ H S HSol')).
  assert (EK : kept keep (top ++ filter (fun f => applied nodes f p) filters) S = filter (fun s => forallb (fun f => keep f s) filters) S).
  { unfold kept. apply filter_ext. intros s. apply eq_true_iff_eq. rewrite !forallb_forall. split; intros A f Hi; apply A.
    - apply in_or_app. destruct (applied nodes f p) eqn:Ea; [right; now apply filter_In|left]. unfold top. apply -> in_rev. apply filter_In. now rewrite Ea.
    - apply in_app_or in Hi. destruct Hi as [Hi|Hi]; [unfold top in Hi; apply in_rev in Hi|]; apply filter_In in Hi; apply Hi. }
  rewrite EK, occurs_rows with (xs := projection); [reflexivity|].
  unfold outs. clear - Hget HB. induction projection as [|x xs IH]; [constructor|]. cbn [map]. constructor; [|apply IH; intros y Hy; apply Hget; now right].
  destruct (Hget x (or_introl eq_refl)) as (r & -> & Hi). now apply HB.
Qed.
Print Assumptions C83_distinct_partial.

(** From the loaded triples to the solutions that the filters keep. *)
Theorem C83_distinct_query_partial : forall enum U inputs pad m w fuel memory d k nodes p projection order filters keep,
  (forall gs, Permutation (enum gs) (seq 0 (length gs))) -> incl order projection -> U <> [] -> NoDup U -> Forall (terms 39) U -> zl U < 2 ^ 31 -> prepared U inputs -> pad_ok pad -> (1 <= m)%nat ->
  kb_load fuel (m + m) inputs pad = Some d -> (forall i t f, d_files d i = Some t -> zl (t_file t f) < 2 ^ 40) -> dict_ok w ->
  linear nodes -> nodes <> [] -> constants_ok nodes -> 2 ^ 65 <= memory -> (4 * S (length U) ^ length nodes + 1 < fuel)%nat ->
  Planned nodes (projection ++ flat_map fvars filters) p -> complete nodes p ->
  (forall idx, In idx (indices p) \/ In idx (aggregated p) \/ In idx (fully p) -> kb_present d idx = true) ->
  incl projection (vars nodes) -> incl (flat_map fvars filters) (vars nodes) -> forallb ordinary filters = true ->
  (forall f n s, In f filters -> In n nodes -> incl (fvars f) (pattern_vars n) -> solves U [n] s -> exists z, Supported w s f /\ Truth (row_of w s) f z) ->
  (forall f s, In f filters -> solves U nodes s -> Supported w s f /\ Truth (row_of w s) f (keep f s)) ->
  exists o outs rows, translateDistinct enum w fuel memory (fun idx => kb_scan_open fuel d idx) (fun idx => kb_getTermList fuel d idx k) nodes filters projection order p = Some (o, outs) /\
    NoDup rows /\
    (forall S, solutions U nodes S -> forall t, In t rows <-> In t (map (fun s => map s projection) (filter (fun s => forallb (fun f => keep f s) filters) S))) /\
    forall limit g, 1 <= limit -> rp_distinct fuel limit 0 outs o g = Some (firstn (Z.to_nat limit) rows).
Proof.
  intros enum U inputs pad m w fuel memory d k nodes p projection order filters keep Hen Hoi H1 HU H2 H3 H4 H5 H6 H8 H9 D Hlin Hne Hc Hm Hf HP HC HI Hproj Hfv Hord HPH HK.
  assert (Hf' : (length U + length U + length U < fuel)%nat).
  { assert (S (length U) <= S (length U) ^ length nodes)%nat; [|lia]. destruct nodes as [|n ns]; [congruence|]. cbn [length Nat.pow].
    pose proof (Nat.pow_nonzero (S (length U)) (length ns)). assert (S (length U) ^ length ns <> 0)%nat by (apply H; lia). nia. }
  apply C83_distinct_partial; auto.
  - eapply Forall_impl; [|exact H2]. intros [[x y] z]. cbn. lia.
  - intros idx Hi. eapply C76_loaded; eauto. eapply planned_indices; eauto.
  - intros idx Hi. eapply C76_loaded_counts; eauto. eapply planned_indices; eauto.
  - intros idx Hi. eapply C76_loaded_terms; eauto. eapply planned_indices; eauto.
Qed.
Print Assumptions C83_distinct_query_partial.

(** With the plan that the generator chooses, whichever it is. *)
Theorem C83_distinct_answer_partial : forall enum le ge better negative U inputs pad m w fuel memory d k nodes projection order filters keep,
  (forall gs, Permutation (enum gs) (seq 0 (length gs))) -> incl order projection -> U <> [] -> NoDup U -> Forall (terms 39) U -> zl U < 2 ^ 31 -> prepared U inputs -> pad_ok pad -> (1 <= m)%nat ->
  kb_load fuel (m + m) inputs pad = Some d -> (forall i t f, d_files d i = Some t -> zl (t_file t f) < 2 ^ 40) ->
  (forall idx, (idx < 6)%nat -> kb_present d idx = true) -> dict_ok w ->
  (forall i j, negative i j = false) -> (0 < length nodes <= 64)%nat -> constant_used nodes (projection ++ flat_map fvars filters) ->
  (one_unused nodes (projection ++ flat_map fvars filters) \/ forall idx i, le (FullyAggregatedIndexScan false idx i) (FullyAggregatedIndexScan true idx i) = true) ->
  linear nodes -> constants_ok nodes -> 2 ^ 65 <= memory -> (4 * S (length U) ^ length nodes + 1 < fuel)%nat ->
  incl projection (vars nodes) -> incl (flat_map fvars filters) (vars nodes) -> forallb ordinary filters = true ->
  (forall f n s, In f filters -> In n nodes -> incl (fvars f) (pattern_vars n) -> solves U [n] s -> exists z, Supported w s f /\ Truth (row_of w s) f z) ->
  (forall f s, In f filters -> solves U nodes s -> Supported w s f /\ Truth (row_of w s) f (keep f s)) ->
  exists p o outs rows, translate le ge better negative nodes (projection ++ flat_map fvars filters) = Some p /\
    translateDistinct enum w fuel memory (fun idx => kb_scan_open fuel d idx) (fun idx => kb_getTermList fuel d idx k) nodes filters projection order p = Some (o, outs) /\
    NoDup rows /\
    (forall S, solutions U nodes S -> forall t, In t rows <-> In t (map (fun s => map s projection) (filter (fun s => forallb (fun f => keep f s) filters) S))) /\
    forall limit g, 1 <= limit -> rp_distinct fuel limit 0 outs o g = Some (firstn (Z.to_nat limit) rows).
Proof.
  intros enum le ge better negative U inputs pad m w fuel memory d k nodes projection order filters keep Hen Hoi H1 HU H2 H3 H4 H5 H6 H8 H9 Hix D Hn Hl Hcu Hu Hlin Hc Hm Hf Hproj Hfv Hord HPH HK.
  destruct (C77_generated le ge better negative nodes (projection ++ flat_map fvars filters) Hn Hl Hcu Hu) as (p & HT & HC & HP). exists p.
  destruct (C83_distinct_query_partial enum U inputs pad m w fuel memory d k nodes p projection order filters keep) as (o & outs & rows & E & HA & HO); auto.
  - destruct nodes; [cbn in Hl; lia|discriminate].
  - intros idx Hi. apply Hix. eapply planned_indices; eauto.
  - exists o, outs, rows. auto.
Qed.
Print Assumptions C83_distinct_answer_partial.

(** *** Cases: the query of FiltProps.v, with the value 1 for the first variable in both solutions. *)
Definition ex_distinct (limit offset : Z) (projection order : list nat) (filters : list filt) : option (list (list Z)) :=
  do d <- kb_load 120 2 (ex_inputs [0; 2; 5]%nat) ex_pad;
  do (o, outs) <- translateDistinct (fun gs => seq 0 (length gs)) exw 120 (2 ^ 65) (fun idx => kb_scan_open 120 d idx) (fun idx => kb_getTermList 120 d idx 0) q_merge filters projection order p_merge;
  rp_distinct 120 limit offset outs o (fun _ => 0).
Example C83_distinct_case :
  ex_pushed q_merge [0; 1; 2]%nat [] p_merge = Some [([1; 3; 3], 1); ([1; 4; 3], 1)] /\
  ex_distinct 9 0 [0]%nat [] [] = Some [[1]] /\
  ex_distinct 9 0 [0; 2]%nat [0]%nat [] = Some [[1; 3]] /\
  ex_distinct 9 0 [1; 0]%nat [] [] = Some [[3; 1]; [4; 1]] /\
  ex_distinct 1 0 [1; 0]%nat [] [] = Some [[3; 1]] /\
  ex_distinct 9 0 [1; 0]%nat [] [f_ann] = Some [[4; 1]].
Proof. vm_compute. repeat split. Qed.
(** The order that these cases use for the hash table is one of those that the theorem admits; C76_hyps, C82_hyps and C82_pushed_hyps have the other hypotheses. *)
Example C83_hyps : (forall gs : list hg_group, Permutation (seq 0 (length gs)) (seq 0 (length gs))) /\ incl [0]%nat [0; 2]%nat.
Proof. split; [intros; apply Permutation_refl|]. intros x [<-|[]]. now left. Qed.

(** DISTINCT with an ORDER BY on a variable that is not projected prints a row several times: the groups are those of both variables. *)
Theorem C83_order_refuted : exists projection order rows, ex_distinct 9 0 projection order [] = Some rows /\ ~ NoDup rows.
Proof.
  exists [0]%nat, [1]%nat, [[1]; [1]]. split; [vm_compute; reflexivity|]. intros H. inversion H as [|? ? H1 _]. apply H1. now left.
Qed.
Print Assumptions C83_order_refuted.
(** DISTINCT with OFFSET: the printer drops the solutions of a row one by one, not the row.  The answer has one row; without the first one it should have none. *)
Theorem C83_offset_refuted : exists projection all rest, ex_distinct 9 0 projection [] [] = Some all /\ ex_distinct 9 1 projection [] [] = Some rest /\ rest <> skipn 1 all.
Proof. exists [0]%nat, [[1]], [[1]]. split; [vm_compute; reflexivity|]. split; [vm_compute; reflexivity|]. discriminate. Qed.
Print Assumptions C83_offset_refuted.
(** A silent printer, which only counts the rows, counts all solutions of a DISTINCT query. *)
Theorem C83_silent_refuted : exists projection all n, ex_distinct 9 0 projection [] [] = Some all /\ n <> Z.of_nat (length all) /\
  (do d <- kb_load 120 2 (ex_inputs [0; 2; 5]%nat) ex_pad;
   do (o, _) <- translateDistinct (fun gs => seq 0 (length gs)) exw 120 (2 ^ 65) (fun idx => kb_scan_open 120 d idx) (fun idx => kb_getTermList 120 d idx 0) q_merge [] projection [] p_merge;
   rp_silent 120 9 0 o (fun _ => 0)) = Some n.
Proof. exists [0]%nat, [[1]], 2. split; [vm_compute; reflexivity|]. split; [discriminate|]. vm_compute. reflexivity. Qed.
Print Assumptions C83_silent_refuted.
