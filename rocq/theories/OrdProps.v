(** C85: ORDER BY. *)
From Coq Require Import ZifyBool.
From Verif Require Import FullModel KbModel TsKbModel.
From Verif Require Import OpSpec OpProofs OpHashProofs OpHashProofs2 KbSpec TsSpec TsProps InserterProofs OpHashProps KbProps KbModel TsKbModel KbProofs AggProps TallySpec.
From Verif Require Import PlanModel PlanSpec PlanProofs PlanProofs2 PlanProofs3 PlanProofs4 PlanProofs5 PlanProofs6 PlanProps FiltModel FiltSpec.
From Verif Require Import SelModel SelSpec SelProofs SelProps FiltProofs.
From Verif Require Import PlanSpec PlanProofs4 PlanProofs5.
From Verif Require Import PlanGenModel PlanGenProofs PlanGenProps.
From Verif Require Import SelModel SelSpec PlanSpec PlanProofs4 PlanProofs5.
From Verif Require Import FiltProps PushModel PushProofs3 PushProps OpModel OpProofs7 OpProps2 DistProofs PrintProps OrdModel OrdProofs.
From Verif Require Import SelModel SelSpec PlanSpec PlanProofs4 PlanProofs5 PushModel.
Local Open Scope Z_scope.

(** C85.  For a query with ORDER BY there is a list [found] of the solutions that the filters keep, each as often as there are such solutions (compared on the projected and the
    ordering variables), in which no solution comes after one that it precedes in the order of the texts of the ordering variables, [true] for DESC; with LIMIT and OFFSET the
    rows of this part of the list are printed.  Every term has a text of its own.  Missing: numbers that are stored as values, and lookups that find a text with < in the buffer (C62_sort_mixed_refuted, C62_sort_iri_refuted). *)
Theorem C85_ordered_partial : forall sortf lookup fcmp w fuel memory open tl nodes U p projection order filters keep,
  sorts sortf -> incl (map fst order) (vars nodes) ->
  (forall a b c v, In (a, b, c) U -> In v [a; b; c] -> v < 2 ^ 62 /\ exists x, lookup v = Some x) -> (forall v v' x, lookup v = Some x -> lookup v' = Some x -> v = v') ->
  dict_ok w -> NoDup U -> Forall (terms 63) U -> linear nodes -> constants_ok nodes ->
  2 ^ 65 <= memory -> (4 * S (length U) ^ length nodes + 1 < fuel)%nat ->
  Planned nodes (projection ++ map fst order ++ flat_map fvars filters) p -> complete nodes p ->
  (forall idx, In idx (indices p) -> serves U fuel open idx) -> (forall idx, In idx (aggregated p) -> serves_counts U fuel open idx) ->
  (forall idx, In idx (fully p) -> serves_terms U fuel tl idx) ->
  incl projection (vars nodes) -> incl (flat_map fvars filters) (vars nodes) -> forallb ordinary filters = true ->
  (forall f n s, In f filters -> In n nodes -> incl (fvars f) (pattern_vars n) -> solves U [n] s -> exists z, Supported w s f /\ Truth (row_of w s) f z) ->
  (forall f s, In f filters -> solves U nodes s -> Supported w s f /\ Truth (row_of w s) f (keep f s)) ->
  exists o outs found, translateOrdered sortf lookup 0 fcmp w fuel memory open tl nodes filters projection order p = Some (o, outs) /\
    (forall S, solutions U nodes S ->
      Permutation (map (fun s => map s (projection ++ map fst order)) found) (map (fun s => map s (projection ++ map fst order)) (filter (fun s => forallb (fun f => keep f s) filters) S))) /\
    StronglySorted (fun a b => ~ precedes lookup order b a) found /\
    forall limit offset g, 1 <= limit -> 0 <= offset ->
      rp_text fuel limit offset outs o g = Some (firstn (Z.to_nat limit) (skipn (Z.to_nat offset) (map (fun s => map s projection) found))).
Proof.
  intros sortf lookup fcmp w fuel memory open tl nodes U p projection order filters keep Hsort Hoi Htext Hinj D HU HT Hlin Hc Hm Hf HP HC HS HS' HS'' Hproj Hfv Hord HPH HK.
  assert (Hrange : forall t k, In t U -> (k < 3)%nat -> 0 <= comp t k < 2 ^ 64).
  { intros t k Ht Hk. rewrite Forall_forall in HT. specialize (HT t Ht). destruct t as [[x y] z]. cbn in HT. destruct k as [|[|k]]; cbn; lia. }
  assert (Hset : forall n, In n (pats nodes p) <-> In n nodes).
  { intros n. rewrite <- (nodes_seq nodes) at 2. unfold pats. split; apply Permutation_in; [|apply Permutation_sym]; apply Permutation_map, HC. }
  assert (Hvars : forall v, In v (vars nodes) -> In v (pvars nodes p)).
  { intros v Hv. unfold pvars, vars in *. rewrite in_flat_map in *. destruct Hv as (n & Hn & Hv). exists n. split; [now apply Hset|exact Hv]. }
  set (top := rev (filter (fun f => negb (applied nodes f p)) filters)).
  assert (Hin : forall f, In f filters -> incl (fvars f) (flat_map fvars filters)) by (intros f Hi v Hv; apply in_flat_map; eauto).
  set (proj := addAll (map fst order) (addAll projection [])).
  assert (Hpr : forall x, In x proj <-> In x (map fst order) \/ In x projection) by (intros x; unfold proj; rewrite !addAll_In; cbn [In]; tauto).
  destruct (above_layer w fuel memory open tl nodes (projection ++ map fst order ++ flat_map fvars filters) U filters D HU Hlin Hc Hrange Hm Hf) with (keep := keep) (p := p) (fs := top) (proj := proj)
    as (o & b & W & L & E & H & HbW); auto.
  { now apply forallb_forall. }
  { intros f Hi v Hv. apply in_or_app. right. apply in_or_app. right. eapply Hin; eauto. }
  { intros f i s Hi Hlt Hv Hs. apply (HPH f (node_of nodes i)); auto. apply nth_In, Hlt. }
  { intros f Hi v Hv. apply Hvars, Hfv. eapply Hin; eauto. }
  { intros f s Hi Hs. apply HK; [exact Hi|]. intros n Hn. apply Hs. now apply Hset. }
  { intros f Hi. unfold top in Hi. apply in_rev in Hi. apply filter_In in Hi. apply Hi. }
  { intros v Hv. left. rewrite !in_app_iff. apply Hpr in Hv. tauto. }
  destruct (l_binds _ _ _ _ _ _ _ _ _ _ _ H) as (HKy & HB & HD).
  assert (Hget : forall x, In x proj -> exists r, bget x b = Some r /\ In (x, r) b).
  { intros x Hx. apply keyed_get; [exact HKy|]. apply HD. split; [exact Hx|]. apply Hvars. apply Hpr in Hx. destruct Hx; auto. }
  set (reg := fun x => match bget x b with Some r => r | None => (3 * length nodes)%nat end).
  assert (Hreg : forall x, In x proj -> In (x, reg x) b) by (intros x Hx; unfold reg; destruct (Hget x Hx) as (r & -> & Hi); exact Hi).
  assert (Hrs : forall ys, incl ys proj -> incl (map reg ys) (map snd b)).
  { intros ys Hy r Hr. apply in_map_iff in Hr. destruct Hr as (x & <- & Hx). exact (in_map snd _ _ (Hreg x (Hy x Hx))). }
  assert (Hnd : NoDup (map reg proj)).
  { eapply (NoDup_inj (fun x => x)); [rewrite map_id; apply addAll_nodup, addAll_sorted; constructor|]. intros x y Hx Hy Er. destruct (HB _ _ (Hreg x Hx)) as [_ E1]. destruct (HB _ _ (Hreg y Hy)) as [_ E2].
    rewrite <- Er in E2. rewrite E1 in E2. now injection E2. }
  assert (Hocc : forall ys t S, incl ys proj -> solutions U nodes S -> occurs (map reg ys) L t = times (filter (fun s => forallb (fun f => keep f s) filters) S) ys t).
  { intros ys t S Hy HSol. assert (HSol' : solutions U (pats nodes p) S) by (eapply solutions_set; [|exact HSol]; intros n; symmetry; apply Hset).
    rewrite (same_occurs (map snd b) (map reg ys) L (rows_of nodes (kept keep (top ++ filter (fun f => applied nodes f p) filters) S)) t (Hrs ys Hy) (l_same _ _ _ _ _ _ _ _ _ _ _ H S HSol')).
    assert (EK : kept keep (top ++ filter (fun f => applied nodes f p) filters) S = filter (fun s => forallb (fun f => keep f s) filters) S).
    { unfold kept. apply filter_ext. intros s. apply eq_true_iff_eq. rewrite !forallb_forall. split; intros A f Hi; apply A.
      - apply in_or_app. destruct (applied nodes f p) eqn:Ea; [right; now apply filter_In|left]. unfold top. apply -> in_rev. apply filter_In. now rewrite Ea.
      - apply in_app_or in Hi. destruct Hi as [Hi|Hi]; [unfold top in Hi; apply in_rev in Hi|]; apply filter_In in Hi; apply Hi. }
    rewrite EK. apply occurs_rows. clear - Hreg HB Hy. induction ys as [|x xs IH]; [constructor|]. cbn [map]. constructor; [|apply IH; intros y Hi; apply Hy; now right].
    apply HB. apply Hreg, Hy. now left. }
  assert (HPos : positive L) by (eapply answers_pos; apply H). destruct (C76_solutions U nodes HU Hlin) as (S0 & HS0).
  assert (Hval : forall a x, In a L -> In x proj -> exists v y, fst a (reg x) = v /\ v < 2 ^ 62 /\ lookup v = Some y).
  { intros a x Ha Hx. assert (H0 : 0 < occurs (map reg [x]) L (map (fst a) (map reg [x]))) by (apply occurs_pos; [exact HPos|exact (in_map (fun a => map (fst a) (map reg [x])) _ _ Ha)]).
    rewrite (Hocc [x] _ S0) in H0 by (auto; intros y [<-|[]]; exact Hx). apply times_pos in H0. apply in_map_iff in H0. destruct H0 as (s0 & Es & Hs0). cbn [map] in Es. injection Es as Es.
    apply filter_In in Hs0. destruct Hs0 as [Hs0 _]. pose proof (solutions_sound _ _ _ _ HS0 Hs0) as Hsol.
    assert (Hxv : In x (vars nodes)) by (apply Hpr in Hx; destruct Hx; auto). unfold vars in Hxv. apply in_flat_map in Hxv. destruct Hxv as (n & Hn & Hxn). specialize (Hsol n Hn).
    assert (Hv : In (s0 x) [val s0 (n_s n); val s0 (n_p n); val s0 (n_o n)]).
    { unfold pattern_vars in Hxn. rewrite !in_app_iff in Hxn. cbn [In].
      destruct Hxn as [Hxn|[Hxn|Hxn]]; [destruct (n_s n)|destruct (n_p n)|destruct (n_o n)]; cbn in Hxn; try contradiction; destruct Hxn as [->|[]]; cbn; auto. }
    destruct (Htext _ _ _ _ Hsol Hv) as (Hl & y & Ey). exists (s0 x), y. auto. }
  destruct (sorted_rows reg sortf lookup fcmp (map snd b) W fuel proj order L o Hsort (Hrs proj (incl_refl _)) HbW Hnd (l_length _ _ _ _ _ _ _ _ _ _ _ H)) as (out & HA & Hlen & HSS & HO).
  { intros x Hx. apply Hpr. now left. }
  { apply Forall_forall. intros [x dsc] Hxd. assert (Hx : In x proj) by (apply Hpr; left; exact (in_map fst _ _ Hxd)). cbn [fst]. right. intros a Ha. right.
    destruct (Hval a x Ha Hx) as (v & y & Ev & Hl & Ey). rewrite <- Ev in Hl, Ey. split; [exact Hl|]. split; [exists y; exact Ey|]. intros a' Ha' El. eapply Hinj; [exact Ey|]. rewrite <- El. exact Ey. }
  { apply H. }
  assert (HposO : positive out) by (eapply answers_pos; exact HA). assert (Hip : incl projection proj) by (intros x Hx; apply Hpr; now right).
  eexists. exists (map reg projection), (sols reg out). split; [|split; [|split; [exact HSS|]]].
  - unfold translateOrdered. fold proj. fold top. rewrite E. cbv zeta. fold reg. replace (forallb _ proj) with true; [reflexivity|]. symmetry. apply forallb_forall. intros x Hx. destruct (Hget x Hx) as (r & -> & _). reflexivity.
  - intros S HSol. rewrite sols_rows. apply printed_rows; [exact HposO|]. intros t. rewrite HO by (intros x Hx; apply in_app_or in Hx; apply Hpr; tauto). apply Hocc; [intros x Hx; apply in_app_or in Hx; apply Hpr; tauto|exact HSol].
  - intros limit offset g Hl Ho. rewrite sols_rows. eapply (C63_printed_partial (map reg proj) W out); auto. now apply incl_map.
Qed.
Print Assumptions C85_ordered_partial.

(** From the loaded triples to the sorted rows. *)
Theorem C85_ordered_query_partial : forall sortf lookup fcmp U inputs pad m w fuel memory d k nodes p projection order filters keep,
  sorts sortf -> incl (map fst order) (vars nodes) ->
  (forall a b c v, In (a, b, c) U -> In v [a; b; c] -> v < 2 ^ 62 /\ exists x, lookup v = Some x) -> (forall v v' x, lookup v = Some x -> lookup v' = Some x -> v = v') ->
  U <> [] -> NoDup U -> Forall (terms 39) U -> zl U < 2 ^ 31 -> prepared U inputs -> pad_ok pad -> (1 <= m)%nat ->
  kb_load fuel (m + m) inputs pad = Some d -> (forall i t f, d_files d i = Some t -> zl (t_file t f) < 2 ^ 40) -> dict_ok w ->
  linear nodes -> nodes <> [] -> constants_ok nodes -> 2 ^ 65 <= memory -> (4 * S (length U) ^ length nodes + 1 < fuel)%nat ->
  Planned nodes (projection ++ map fst order ++ flat_map fvars filters) p -> complete nodes p ->
  (forall idx, In idx (indices p) \/ In idx (aggregated p) \/ In idx (fully p) -> kb_present d idx = true) ->
  incl projection (vars nodes) -> incl (flat_map fvars filters) (vars nodes) -> forallb ordinary filters = true ->
  (forall f n s, In f filters -> In n nodes -> incl (fvars f) (pattern_vars n) -> solves U [n] s -> exists z, Supported w s f /\ Truth (row_of w s) f z) ->
  (forall f s, In f filters -> solves U nodes s -> Supported w s f /\ Truth (row_of w s) f (keep f s)) ->
  exists o outs found, translateOrdered sortf lookup 0 fcmp w fuel memory (fun idx => kb_scan_open fuel d idx) (fun idx => kb_getTermList fuel d idx k) nodes filters projection order p = Some (o, outs) /\
    (forall S, solutions U nodes S ->
      Permutation (map (fun s => map s (projection ++ map fst order)) found) (map (fun s => map s (projection ++ map fst order)) (filter (fun s => forallb (fun f => keep f s) filters) S))) /\
    StronglySorted (fun a b => ~ precedes lookup order b a) found /\
    forall limit offset g, 1 <= limit -> 0 <= offset ->
      rp_text fuel limit offset outs o g = Some (firstn (Z.to_nat limit) (skipn (Z.to_nat offset) (map (fun s => map s projection) found))).
Proof.
  intros sortf lookup fcmp U inputs pad m w fuel memory d k nodes p projection order filters keep Hsort Hoi Htext Hinj H1 HU H2 H3 H4 H5 H6 H8 H9 D Hlin Hne Hc Hm Hf HP HC HI Hproj Hfv Hord HPH HK.
  assert (Hf' : (length U + length U + length U < fuel)%nat).
  { assert (S (length U) <= S (length U) ^ length nodes)%nat; [|lia]. destruct nodes as [|n ns]; [congruence|]. cbn [length Nat.pow].
    pose proof (Nat.pow_nonzero (S (length U)) (length ns)). assert (S (length U) ^ length ns <> 0)%nat by (apply H; lia). nia. }
  apply C85_ordered_partial; auto.
  - eapply Forall_impl; [|exact H2]. intros [[x y] z]. cbn. lia.
  - intros idx Hi. eapply C76_loaded; eauto. eapply planned_indices; eauto.
  - intros idx Hi. eapply C76_loaded_counts; eauto. eapply planned_indices; eauto.
  - intros idx Hi. eapply C76_loaded_terms; eauto. eapply planned_indices; eauto.
Qed.
Print Assumptions C85_ordered_query_partial.

(** With the plan that the generator chooses, whichever it is. *)
Theorem C85_ordered_answer_partial : forall sortf lookup fcmp le ge better negative U inputs pad m w fuel memory d k nodes projection order filters keep,
  sorts sortf -> incl (map fst order) (vars nodes) ->
  (forall a b c v, In (a, b, c) U -> In v [a; b; c] -> v < 2 ^ 62 /\ exists x, lookup v = Some x) -> (forall v v' x, lookup v = Some x -> lookup v' = Some x -> v = v') ->
  U <> [] -> NoDup U -> Forall (terms 39) U -> zl U < 2 ^ 31 -> prepared U inputs -> pad_ok pad -> (1 <= m)%nat ->
  kb_load fuel (m + m) inputs pad = Some d -> (forall i t f, d_files d i = Some t -> zl (t_file t f) < 2 ^ 40) ->
  (forall idx, (idx < 6)%nat -> kb_present d idx = true) -> dict_ok w ->
  (forall i j, negative i j = false) -> (0 < length nodes <= 64)%nat -> constant_used nodes (projection ++ map fst order ++ flat_map fvars filters) ->
  (one_unused nodes (projection ++ map fst order ++ flat_map fvars filters) \/ forall idx i, le (FullyAggregatedIndexScan false idx i) (FullyAggregatedIndexScan true idx i) = true) ->
  linear nodes -> constants_ok nodes -> 2 ^ 65 <= memory -> (4 * S (length U) ^ length nodes + 1 < fuel)%nat ->
  incl projection (vars nodes) -> incl (flat_map fvars filters) (vars nodes) -> forallb ordinary filters = true ->
  (forall f n s, In f filters -> In n nodes -> incl (fvars f) (pattern_vars n) -> solves U [n] s -> exists z, Supported w s f /\ Truth (row_of w s) f z) ->
  (forall f s, In f filters -> solves U nodes s -> Supported w s f /\ Truth (row_of w s) f (keep f s)) ->
  exists p o outs found, translate le ge better negative nodes (projection ++ map fst order ++ flat_map fvars filters) = Some p /\
    translateOrdered sortf lookup 0 fcmp w fuel memory (fun idx => kb_scan_open fuel d idx) (fun idx => kb_getTermList fuel d idx k) nodes filters projection order p = Some (o, outs) /\
    (forall S, solutions U nodes S ->
      Permutation (map (fun s => map s (projection ++ map fst order)) found) (map (fun s => map s (projection ++ map fst order)) (filter (fun s => forallb (fun f => keep f s) filters) S))) /\
    StronglySorted (fun a b => ~ precedes lookup order b a) found /\
    forall limit offset g, 1 <= limit -> 0 <= offset ->
      rp_text fuel limit offset outs o g = Some (firstn (Z.to_nat limit) (skipn (Z.to_nat offset) (map (fun s => map s projection) found))).
Proof.
  intros sortf lookup fcmp le ge better negative U inputs pad m w fuel memory d k nodes projection order filters keep Hsort Hoi Htext Hinj H1 HU H2 H3 H4 H5 H6 H8 H9 Hix D Hn Hl Hcu Hu Hlin Hc Hm Hf Hproj Hfv Hord HPH HK.
  destruct (C77_generated le ge better negative nodes (projection ++ map fst order ++ flat_map fvars filters) Hn Hl Hcu Hu) as (p & HT & HC & HP). exists p.
  destruct (C85_ordered_query_partial sortf lookup fcmp U inputs pad m w fuel memory d k nodes p projection order filters keep) as (o & outs & found & E & HA & HO); auto.
  - destruct nodes; [cbn in Hl; lia|discriminate].
  - intros idx Hi. apply Hix. eapply planned_indices; eauto.
  - exists o, outs, found. auto.
Qed.
Print Assumptions C85_ordered_answer_partial.

(** *** Cases: the query of FiltProps.v; the texts of 3 and 4 are "b" and "a". *)
Definition ord_text (v : Z) : option (list Z) := match v with 1 => Some [99] | 3 => Some [98] | 4 => Some [97] | 5 => Some [98; 97] | 7 => Some [112] | 9 => Some [113] | _ => None end.
Definition ex_ordered (limit offset : Z) (projection : list nat) (order : list (nat * bool)) (filters : list filt) : option (list (list Z)) :=
  do d <- kb_load 120 2 (ex_inputs [0; 2; 5]%nat) ex_pad;
  do (o, outs) <- translateOrdered insertion_sort ord_text 0 (fun _ _ => 0) exw 120 (2 ^ 65) (fun idx => kb_scan_open 120 d idx) (fun idx => kb_getTermList 120 d idx 0) q_merge filters projection order p_merge;
  rp_text 120 limit offset outs o (fun _ => 0).
Example C85_ordered_case :
  ex_ordered 9 0 [0; 1]%nat [(1%nat, false)] [] = Some [[1; 4]; [1; 3]] /\
  ex_ordered 9 0 [0; 1]%nat [(1%nat, true)] [] = Some [[1; 3]; [1; 4]] /\
  ex_ordered 9 0 [0; 1]%nat [(0%nat, true); (1%nat, false)] [] = Some [[1; 4]; [1; 3]] /\
  ex_ordered 1 0 [2; 1]%nat [(1%nat, false)] [] = Some [[3; 4]] /\
  ex_ordered 1 1 [2; 1]%nat [(1%nat, false)] [] = Some [[3; 3]] /\
  ex_ordered 9 0 [0]%nat [(1%nat, false)] [f_ann] = Some [[1]].
Proof. vm_compute. repeat split. Qed.
Example C85_hyps : sorts (@insertion_sort (list Z * Z)) /\ (forall a b c v, In (a, b, c) ex_U -> In v [a; b; c] -> v < 2 ^ 62 /\ exists x, ord_text v = Some x) /\
  (forall v v' x, ord_text v = Some x -> ord_text v' = Some x -> v = v').
Proof.
  split; [apply insertion_sort_sorts|]. split.
  - intros a b c v H. cbn in H. repeat (destruct H as [H|H]; [injection H as <- <- <-; intros [<-|[<-|[<-|[]]]]; (split; [lia|eexists; reflexivity])|]). destruct H.
  - assert (HD : forall v x, ord_text v = Some x -> (v = 1 /\ x = [99]) \/ (v = 3 /\ x = [98]) \/ (v = 4 /\ x = [97]) \/ (v = 5 /\ x = [98; 97]) \/ (v = 7 /\ x = [112]) \/ (v = 9 /\ x = [113])).
    { intros v x H. unfold ord_text in H. repeat match type of H with context [match ?y with _ => _ end] => destruct y; try discriminate end; injection H as <-; tauto. }
    intros v v' x H H'. apply HD in H. apply HD in H'. intuition (subst; try discriminate; reflexivity).
Qed.
