(** C80: index scans that skip a column. *)
From Coq Require Import Sorted Permutation ZifyBool.
From Verif Require Import TsModel TsKbModel AggModel AggSpec TsSpec AggProofs AggProofs2 TsProps.
From Verif Require Import QueryModel QuerySpec SortModel SortSpec InserterModel InserterSpec InserterProps TableProofs ArrayModel ArrayProofs KbModel KbSpec KbProofs5 KbProofs7 KbProofs8 KbProps.
From Verif Require TallyProofs TallyProofs3.
Local Open Scope Z_scope.

(** C80.  An aggregated scan reads an iterator that counts the rows of [l] by key and first value, and
    the rows agree with the bound columns; the second column is bound only if the first one is.  Then
    the scan ends and it delivers each pair of the first two columns of [l] once, in ascending order,
    with the number of rows of [l] that have it. *)
Theorem C80_aggregated_scan : forall b1 b2 f l o n fuel n0 open,
  (b2 = true -> b1 = true) -> Tallied l o -> Forall int64_row l ->
  (forall e, In e l -> (b1 = true -> c1 e = fst f) /\ (b2 = true -> c2 e = snd f)) ->
  (0 < fuel)%nat -> (length l < n)%nat ->
  open (if b1 then Some (fst f) else None) (if b2 then Some (snd f) else None) None = Some o ->
  exists D, as_run n fuel n0 b1 b2 open f = Some D /\ is_tally l D.
Proof.
  intros b1 b2 f l o n fuel n0 open Hb HT HI HP Lf Ln Eo. apply (AggProofs.run_ok b1 b2 f Hb l o n0 n fuel open HT); auto.
  rewrite Forall_forall in *. intros e He. destruct (HI e He) as (I1 & I2 & _). destruct (HP e He) as (P1 & P2). unfold int64, c1, c2 in *. unfold suits, TallyProofs.gk, TallyProofs.gv. auto.
Qed.
Print Assumptions C80_aggregated_scan.

(** Tables of all layouts, opened for one key, are such iterators; so are the arrays with which a
    permutation is reversed, also those for one first value. *)
Theorem C80_tables : forall k bk l o, StronglySorted plt l -> Table k bk l o -> Tallied (with_key k l) o.
Proof. intros. eapply aggregates_tallied, TallyProofs3.table_aggregates; eauto. Qed.
Print Assumptions C80_tables.
Theorem C80_arrays : forall k arr c, StronglySorted plt arr -> arr <> [] -> -1 <= c -> (c <> -1 -> forall e, In e arr -> fst e = c) ->
  exists o, new_arr_itr k arr c (-1) = Some o /\ Tallied (with_key k arr) o.
Proof. exact arr_tallied. Qed.
Print Assumptions C80_arrays.

(** ** A loaded database *)
(** C80.  A database is loaded from the triples [U] (as in C70).  An aggregated scan over a permutation
    that is stored, or read from the one with the last two columns exchanged, with no column, the first
    one or the first two bound to [f], delivers each pair of the first two columns of the triples that
    agree with [f] once, in ascending order, with the number of these triples. *)
Theorem C80_loaded : forall U inputs pad m fuel d,
  U <> [] -> Forall (terms 39) U -> zl U < 2 ^ 31 -> prepared U inputs -> pad_ok pad ->
  (1 <= m)%nat -> (length U + length U + length U < fuel)%nat ->
  kb_load fuel (m + m) inputs pad = Some d ->
  (forall i t f, d_files d i = Some t -> zl (t_file t f) < 2 ^ 40) ->
  forall idx b1 b2 f1 f2 n0, (idx < 6)%nat -> kb_present d idx = true -> int64 f1 -> int64 f2 -> (b2 = true -> b1 = true) ->
  exists L D, answers U idx (-1, -1, -1) L /\
    as_run fuel fuel n0 b1 b2 (kb_scan_open fuel d idx) (f1, f2) = Some D /\
    is_tally (filter (agrees b1 b2 false (f1, f2, 0)) L) D.
Proof.
  intros U inputs pad m fuel d Hne HU Hsz HP Hpad Hm Hf E Hfl idx b1 b2 f1 f2 n0 Hi Hpr F1 F2 Hb.
  unfold kb_load in E. destruct (load_perms (seq 0 6) inputs) as [ls|] eqn:Els; [|discriminate].
  assert (Hfl' : forall i t f, (i < 6)%nat -> snd (nth i ls ([], None)) = Some t -> zl (t_file t f) < 2 ^ 40).
  { intros i t f' _ Et. apply (Hfl i). clear - E Et. destruct (mg_all _ _) as [M|]; [|discriminate]. destruct (build_tc _ _); [|discriminate]. injection E as <-. exact Et. }
  destruct (load_ok U inputs pad ls HU HP Hsz Hpad Els Hfl' m fuel Hm Hf) as (d' & E' & HD & Hpr' & _ & tr & wl & Er & _).
  unfold kb_load in E'. rewrite Els in E'. rewrite E in E'. injection E' as <-.
  assert (Cov : forall k, covers d k) by (intros k; unfold covers; now rewrite Er).
  assert (Hfu : (length U < fuel)%nat) by (clear - Hf; lia).
  unfold int64 in F1, F2.
  set (a := if b1 then f1 else -1). set (b := if b2 then f2 else -1).
  destruct (view_args idx a b (-1) Hi) as (s & p & o & Ea & Ev & HPs).
  assert (Hv : vok a /\ vok b /\ vok (-1)) by (unfold vok, a, b; destruct b1, b2; lia).
  destruct (HPs vok) as (V1 & V2 & V3); try tauto.
  assert (Hl : leading idx (s, p, o)) by (unfold leading; rewrite Ev; unfold a, b; destruct b1, b2; try discriminate (Hb eq_refl); lia).
  destruct (base_tallied U _ _ d fuel HD Hfu idx s p o Hi Hpr Hne V1 V2 V3 (Cov _) (Cov _) (Cov _) Hl) as (it & Eq & HT); [now rewrite Ev|].
  rewrite Ev in HT. set (l := filter (pat_matches (a, b, -1)) (V U idx)) in *.
  assert (HV : forall e, In e (V U idx) -> int64_row e).
  { intros e He. apply V_In in He. destruct He as (t & Ht & <-). rewrite Forall_forall in HU. specialize (HU t Ht). destruct t as [[x y] z]. cbn in HU. unfold int64_row, int64, c1, c2, c3.
    destruct idx as [|[|[|[|[|[|i]]]]]]; try lia; cbn; lia. }
  assert (EL : l = filter (agrees b1 b2 false (f1, f2, 0)) (V U idx)).
  { unfold l. clear - Hb F1 F2. apply filter_ext. intros [[x y] z]. unfold pat_matches, pair_matches, agrees, a, b, c1, c2, c3. cbn [fst snd]. destruct b1, b2; try discriminate (Hb eq_refl); cbn [negb orb andb]; lia. }
  assert (LL : (length l <= length U)%nat).
  { unfold l. etransitivity; [apply filter_length_le|]. pose proof (V_nodup U idx) as HN. rewrite <- (map_length (view (Z.of_nat idx)) U). apply NoDup_incl_length; [exact HN|]. intros e He. apply V_In in He. destruct He as (t & Ht & <-). now apply in_map. }
  destruct (C80_aggregated_scan b1 b2 (f1, f2) l it fuel fuel n0 (kb_scan_open fuel d idx) Hb HT) as (D & ED & TD).
  - rewrite Forall_forall. intros e He. apply HV. unfold l in He. apply filter_In in He. tauto.
  - intros [[x y] z] He. unfold l in He. apply filter_In in He. destruct He as [_ P]. unfold pat_matches, pair_matches, a, b, c1, c2 in *. cbn [fst snd] in *. split; intros; subst; lia.
  - lia.
  - exact (Nat.le_lt_trans _ _ _ LL Hfu).
  - unfold kb_scan_open. cbv beta zeta. assert (T : forall x, 0 <= x < 2 ^ 63 -> to_i64 x = x) by (intros x Hx; unfold to_i64; destruct (Z.ltb_spec x (2 ^ 63)); lia). cbn [fst snd].
    replace (match (if b1 then Some f1 else None) with Some x => to_i64 x | None => -1 end) with a by (unfold a; destruct b1; rewrite ?T; auto).
    replace (match (if b2 then Some f2 else None) with Some x => to_i64 x | None => -1 end) with b by (unfold b; destruct b2; rewrite ?T; auto).
    rewrite Ea. exact Eq.
  - exists (V U idx), D. split; [|rewrite <- EL; auto]. split; [apply canon_sorted|]. intros x. rewrite V_In. split.
    + intros (t & Ht & <-). exists t. split; auto. split; auto. intros i _. left. destruct i as [|[|[|i]]]; cbn; lia.
    + intros (t & Ht & _ & <-). eauto.
Qed.
Print Assumptions C80_loaded.

(** Cases: stored permutations and one that is read reversed. *)
Example C80_case :
  (do d <- ex_db [0; 2; 5]%nat; as_run 20 20 0 false false (kb_scan_open 20 d 0) (0, 0)) = Some [(1, 7, 2); (1, 9, 1); (5, 7, 1)] /\
  (do d <- ex_db [0; 2; 5]%nat; as_run 20 20 0 true false (kb_scan_open 20 d 5) (7, 0)) = Some [(7, 1, 2); (7, 5, 1)] /\
  (do d <- ex_db [0; 2; 5]%nat; as_run 20 20 0 true true (kb_scan_open 20 d 3) (1, 3)) = Some [(1, 3, 2)] /\
  (do d <- ex_db [0; 2; 5]%nat; as_run 20 20 0 false false (kb_scan_open 20 d 3) (0, 0)) = Some [(1, 3, 2); (1, 4, 1); (5, 3, 1)].
Proof. vm_compute. repeat split. Qed.
Example C80_hyps : exists d, ex_db [0; 2; 5]%nat = Some d /\ kb_present d 0 = true /\ kb_present d 3 = true /\ kb_present d 5 = true.
Proof. destruct (ex_db [0; 2; 5]%nat) as [d|] eqn:E; [|vm_compute in E; discriminate]. exists d. split; auto. vm_compute in E. injection E as <-. repeat split. Qed.

(** A pattern with a constant and two variables that are used nowhere else gets a scan that skips two
    columns; its first call throws, whatever the database holds. *)
Theorem C80_constant_and_two_unused_refuted : forall n open c, fas_prefix1_first n open c = None.
Proof. reflexivity. Qed.
Print Assumptions C80_constant_and_two_unused_refuted.
(** The same call without aggregation answers. *)
Example C80_constant_case : (do d <- ex_db [0; 2; 5]%nat; do (b, s) <- ts_first1 AGGR_NO 0 (kb_scan_open 20 d 0) 1 true; Some b) = Some true.
Proof. vm_compute. reflexivity. Qed.
