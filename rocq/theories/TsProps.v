(** C73: index scans with hints. *)
From Coq Require Import Sorted Permutation ZifyBool.
From Verif Require Import DomModel DomProps TsModel TsKbModel TsSpec TsProofs TsProofs2 TsProofs3.
From Verif Require Import QueryModel QuerySpec SortModel SortSpec InserterModel InserterSpec InserterProps ArrayModel ArrayProofs KbModel KbSpec KbProofs5 KbProofs7 KbProofs8 KbProps.
From Verif Require ItrProps.
Local Open Scope Z_scope.

(** C73.  An index scan reads an iterator over [l], whose rows agree with the leading bound columns.
    Each call of next may be given another hint.  Let [W] be rows that none of the hints excludes; a
    hint may exclude rows, but it must leave some values possible.  Then the scan ends, it delivers
    rows of [l] that agree with the bound columns, in the order of [l] and each at most as often as
    it occurs there, and among them every row of [W]. *)
Theorem C73_index_scan : forall top l o (W : elem -> bool) b1 b2 b3 f hs n fuel n0 open,
  Seek top l o -> Forall int64_row l ->
  (forall e, In e l -> (b1 = true -> c1 e = c1 f) /\ (b1 = true -> b2 = true -> c2 e = c2 f) /\ (b1 = true -> b2 = true -> b3 = true -> c3 e = c3 f)) ->
  (forall i, hint_ok (hs i)) -> (forall i, exists r, int64_row r /\ wanted (hs i) r /\ c2 r <= top) ->
  (forall i e, In e l -> W e = true -> wanted (hs i) e) ->
  (length l < fuel)%nat -> (length l < n)%nat ->
  open (if b1 then Some (c1 f) else None) (if b1 && b2 then Some (c2 f) else None) (if b1 && b2 && b3 then Some (c3 f) else None) = Some o ->
  exists D, is_run n fuel n0 b1 b2 b3 open hs f = Some D /\
    sublist D (filter (agrees b1 b2 b3 f) l) /\ filter W D = filter W (filter (agrees b1 b2 b3 f) l).
Proof.
  intros top l o W b1 b2 b3 f hs n fuel n0 open (S & Sim & HS) HI HP HO Hsome HW Lf Ln Eo.
  apply (TsProofs.run_ok S top Sim W b1 b2 b3 f hs HO Hsome n fuel n0 open o l HS); auto.
  - split; [exact HI|]. split; [|exact HW]. rewrite Forall_forall. intros e He. destruct (HP e He) as (P1 & P2 & P3). unfold TsProofs.prefix.
    destruct b1, b2, b3; cbn [negb orb andb]; try reflexivity; rewrite ?P1, ?P2, ?P3, ?Z.eqb_refl by auto; reflexivity.
  - destruct b1, b2, b3; exact Eo.
Qed.
Print Assumptions C73_index_scan.

(** Without hints the scan delivers exactly the rows that agree. *)
Definition no_hint : hint := (mkHcol None [] None, mkHcol None [] None, mkHcol None [] None).
Lemma allows_all v : allows (mkHcol None [] None) v.
Proof. split; [|split]; cbn; [discriminate|contradiction|discriminate]. Qed.
Lemma no_hint_wanted e : wanted no_hint e.
Proof. split; [|split]; apply allows_all. Qed.
Lemma no_hint_ok : hint_ok no_hint.
Proof. repeat split; cbn; try discriminate; contradiction. Qed.
Theorem C73_no_hints : forall top l o b1 b2 b3 f n fuel n0 open,
  0 <= top -> Seek top l o -> Forall int64_row l ->
  (forall e, In e l -> (b1 = true -> c1 e = c1 f) /\ (b1 = true -> b2 = true -> c2 e = c2 f) /\ (b1 = true -> b2 = true -> b3 = true -> c3 e = c3 f)) ->
  (length l < fuel)%nat -> (length l < n)%nat ->
  open (if b1 then Some (c1 f) else None) (if b1 && b2 then Some (c2 f) else None) (if b1 && b2 && b3 then Some (c3 f) else None) = Some o ->
  is_run n fuel n0 b1 b2 b3 open (fun _ => no_hint) f = Some (filter (agrees b1 b2 b3 f) l).
Proof.
  intros top l o b1 b2 b3 f n fuel n0 open Ht HS HI HP Lf Ln Eo.
  destruct (C73_index_scan top l o (fun _ => true) b1 b2 b3 f (fun _ => no_hint) n fuel n0 open HS HI HP) as (D & -> & _ & E); auto.
  - intros _. apply no_hint_ok.
  - intros _. exists (0, 0, 0). split; [repeat split; cbn; lia|]. split; [apply no_hint_wanted|exact Ht].
  - intros _ e _ _. apply no_hint_wanted.
  - assert (Ef : forall m : list elem, filter (fun _ => true) m = m) by (induction m; cbn; congruence). now rewrite !Ef in E; subst D.
Qed.
Print Assumptions C73_no_hints.

(** Tables of all layouts, opened for one key, are such iterators; so are the arrays with which a
    permutation is reversed. *)
Theorem C73_tables : forall top k bk l o, Cursor k bk l o -> Seek top (with_key k l) o.
Proof. exact cursor_seek. Qed.
Print Assumptions C73_tables.
Theorem C73_arrays : forall top k arr, psorted arr -> arr <> [] -> exists o, new_arr_itr k arr (-1) (-1) = Some o /\ Seek top (with_key k arr) o.
Proof. exact arr_seek. Qed.
Print Assumptions C73_arrays.

(** ** A loaded database *)
Lemma view_args i a b c : (i < 6)%nat -> exists s p o, getPermuted_args (Z.of_nat i) a b c = Some (s, p, o) /\ view (Z.of_nat i) (s, p, o) = (a, b, c) /\
  forall P : Z -> Prop, P a -> P b -> P c -> P s /\ P p /\ P o.
Proof. intros H. destruct i as [|[|[|[|[|[|i]]]]]]; try lia; cbn; do 3 eexists; (split; [reflexivity|]); (split; [reflexivity|]); intros P; auto. Qed.

(** C73.  A database is loaded from the triples [U] (as in C70).  An index scan over a permutation that
    is stored, or read from the one with the last two columns exchanged, with any of the columns bound
    to [f] and with any hints, delivers all triples that agree with [f] and that no hint excludes, and
    only triples of [U] that agree with [f], in the order of the permutation and none twice.  If the
    first two columns are bound, the hints must not exclude the bound value of the second. *)
Theorem C73_loaded : forall U inputs pad m fuel d,
  U <> [] -> Forall (terms 39) U -> zl U < 2 ^ 31 -> prepared U inputs -> pad_ok pad ->
  (1 <= m)%nat -> (length U + length U + length U < fuel)%nat ->
  kb_load fuel (m + m) inputs pad = Some d ->
  (forall i t f, d_files d i = Some t -> zl (t_file t f) < 2 ^ 40) ->
  forall idx b1 b2 b3 f hs (W : elem -> bool) n0, (idx < 6)%nat -> kb_present d idx = true -> int64_row f ->
  (forall i, hint_ok (hs i)) ->
  (forall i, exists r, int64_row r /\ wanted (hs i) r /\ (b1 && b2 = true -> c2 r = c2 f)) ->
  (forall i e, W e = true -> wanted (hs i) e) ->
  exists L D, answers U idx (-1, -1, -1) L /\
    is_run fuel fuel n0 b1 b2 b3 (kb_scan_open fuel d idx) hs f = Some D /\
    sublist D (filter (agrees b1 b2 b3 f) L) /\
    filter W D = filter W (filter (agrees b1 b2 b3 f) L).
Proof.
  intros U inputs pad m fuel d Hne HU Hsz HP Hpad Hm Hf E Hfl idx b1 b2 b3 f hs W n0 Hi Hpr Hfi HO Hsome HW.
  unfold kb_load in E. destruct (load_perms (seq 0 6) inputs) as [ls|] eqn:Els; [|discriminate].
  assert (Hfl' : forall i t f, (i < 6)%nat -> snd (nth i ls ([], None)) = Some t -> zl (t_file t f) < 2 ^ 40).
  { intros i t f' _ Et. apply (Hfl i). clear - E Et. destruct (mg_all _ _) as [M|]; [|discriminate]. destruct (build_tc _ _); [|discriminate]. injection E as <-. exact Et. }
  destruct (load_ok U inputs pad ls HU HP Hsz Hpad Els Hfl' m fuel Hm Hf) as (d' & E' & HD & Hpr' & _ & tr & wl & Er & _).
  unfold kb_load in E'. rewrite Els in E'. rewrite E in E'. injection E' as <-.
  assert (Cov : forall k, covers d k) by (intros k; unfold covers; now rewrite Er).
  assert (Hfu : (length U < fuel)%nat) by (clear - Hf; lia).
  destruct Hfi as (F1 & F2 & F3). unfold int64 in F1, F2, F3.
  set (a := if b1 then c1 f else -1). set (b := if b1 && b2 then c2 f else -1). set (c := if b1 && b2 && b3 then c3 f else -1).
  set (top := if b1 && b2 then c2 f else 2 ^ 63).
  destruct (view_args idx a b c Hi) as (s & p & o & Ea & Ev & HPs).
  assert (Hv : vok a /\ vok b /\ vok c) by (unfold vok, a, b, c; destruct b1, b2, b3; cbn [andb]; lia).
  destruct (HPs vok) as (V1 & V2 & V3); try tauto.
  assert (Hl : leading idx (s, p, o)) by (unfold leading; rewrite Ev; unfold a, b, c; destruct b1, b2, b3; cbn [andb]; lia).
  destruct (base_seek top U _ _ d fuel HD Hfu idx s p o Hi Hpr Hne V1 V2 V3 (Cov _) (Cov _) (Cov _) Hl) as (it & Eq & HS).
  { cbv zeta. rewrite Ev. cbn [fst snd]. unfold b, top. destruct (b1 && b2); lia. }
  rewrite Ev in HS. set (l := filter (pat_matches (a, b, c)) (V U idx)) in *.
  assert (EL : filter (agrees b1 b2 b3 f) l = filter (agrees b1 b2 b3 f) (V U idx)).
  { unfold l. clear. induction (V U idx) as [|[[x y] z] m IH]; [reflexivity|]. cbn [filter]. destruct (pat_matches (a, b, c) (x, y, z)) eqn:P; cbn [filter]; rewrite IH; [reflexivity|].
    destruct (agrees b1 b2 b3 f (x, y, z)) eqn:A; [|reflexivity]. exfalso. unfold pat_matches, pair_matches, agrees, a, b, c, c1, c2, c3 in *. cbn [fst snd] in *. destruct b1, b2, b3; cbn [andb orb negb] in *; lia. }
  assert (HV : forall e, In e (V U idx) -> int64_row e).
  { intros e He. apply V_In in He. destruct He as (t & Ht & <-). rewrite Forall_forall in HU. specialize (HU t Ht). destruct t as [[x y] z]. cbn in HU. unfold int64_row, int64, c1, c2, c3.
    destruct idx as [|[|[|[|[|[|i]]]]]]; try lia; cbn; lia. }
  assert (LL : (length l <= length U)%nat).
  { unfold l. etransitivity; [apply filter_length_le|]. pose proof (V_nodup U idx) as HN. rewrite <- (map_length (view (Z.of_nat idx)) U). apply NoDup_incl_length; [exact HN|]. intros e He. apply V_In in He. destruct He as (t & Ht & <-). now apply in_map. }
  destruct (C73_index_scan top l it W b1 b2 b3 f hs fuel fuel n0 (kb_scan_open fuel d idx)) as (D & ED & SD & WD); auto; try exact (Nat.le_lt_trans _ _ _ LL Hfu).
  - rewrite Forall_forall. intros e He. apply HV. unfold l in He. apply filter_In in He. tauto.
  - intros [[x y] z] He. unfold l in He. apply filter_In in He. destruct He as [He P]. apply HV in He. unfold int64_row, int64, c1, c2, c3 in He. unfold pat_matches, pair_matches, a, b, c, c1, c2, c3 in *. cbn [fst snd] in *. split; [|split]; intros; subst; cbn [andb] in *; lia.
  - intros i. destruct (Hsome i) as (r & R1 & R2 & R3). exists r. split; auto. split; auto. unfold top. destruct (b1 && b2); [rewrite R3 by auto; lia|]. destruct R1 as (_ & R1 & _). unfold int64 in R1. lia.
  - unfold kb_scan_open. cbv beta zeta. assert (T : forall x, 0 <= x < 2 ^ 63 -> to_i64 x = x) by (intros x Hx; unfold to_i64; destruct (Z.ltb_spec x (2 ^ 63)); lia).
    replace (match (if b1 then Some (c1 f) else None) with Some x => to_i64 x | None => -1 end) with a by (unfold a; destruct b1; rewrite ?T; auto).
    replace (match (if b1 && b2 then Some (c2 f) else None) with Some x => to_i64 x | None => -1 end) with b by (unfold b; destruct (b1 && b2); rewrite ?T; auto).
    replace (match (if b1 && b2 && b3 then Some (c3 f) else None) with Some x => to_i64 x | None => -1 end) with c by (unfold c; destruct (b1 && b2 && b3); rewrite ?T; auto).
    rewrite Ea. exact Eq.
  - exists (V U idx), D. split; [|rewrite EL in *; auto]. split; [apply canon_sorted|]. intros x. rewrite V_In. split.
    + intros (t & Ht & <-). exists t. split; auto. split; auto. intros i _. left. destruct i as [|[|[|i]]]; cbn; lia.
    + intros (t & Ht & _ & <-). eauto.
Qed.
Print Assumptions C73_loaded.

Lemma merge_ok l : Forall uint64 l -> TsSpec.col_ok (mkHcol None l None).
Proof. intros H. split; [|split]; cbn; [discriminate| |discriminate]. rewrite Forall_forall in H. exact H. Qed.

(** A case: the second column is at least 9. *)
Definition from9 : hint := (mkHcol None [] None, mkHcol None [9] None, mkHcol None [] None).
Example C73_case :
  (do d <- ex_db [0; 2; 5]%nat; is_run 20 20 0 false false false (kb_scan_open 20 d 0) (fun _ => from9) (0, 0, 0)) = Some [(1, 7, 3); (1, 9, 3); (5, 7, 3)] /\
  (do d <- ex_db [0; 2; 5]%nat; is_run 20 20 0 false false false (kb_scan_open 20 d 0) (fun _ => no_hint) (0, 0, 0)) = Some [(1, 7, 3); (1, 7, 4); (1, 9, 3); (5, 7, 3)] /\
  (do d <- ex_db [0; 2; 5]%nat; is_run 20 20 0 true false true (kb_scan_open 20 d 5) (fun _ => no_hint) (7, 0, 3)) = Some [(7, 1, 3); (7, 5, 3)].
Proof. vm_compute. repeat split. Qed.
(** The hypotheses of the theorem hold for it (see C70_hyps for those on the database). *)
Example C73_hyps : hint_ok from9 /\ (exists r, int64_row r /\ wanted from9 r) /\
  (forall e, 9 <= c2 e -> wanted from9 e) /\ (exists d, ex_db [0; 2; 5]%nat = Some d /\ kb_present d 0 = true).
Proof.
  assert (W9 : forall e, 9 <= c2 e -> wanted from9 e).
  { intros e He. split; [apply allows_all|]. split; [|apply allows_all]. split; [|split]; cbn; try discriminate. intros x [<- |[]]. right. exact He. }
  split; [|split; [|split; [exact W9|]]].
  - split; [apply merge_ok; constructor|]. split; [apply merge_ok; repeat constructor; vm_compute; congruence|apply merge_ok; constructor].
  - exists (0, 9, 0). split; [repeat split; cbn; lia|]. apply W9. cbn. lia.
  - destruct (ex_db [0; 2; 5]%nat) as [d|] eqn:E; [|vm_compute in E; discriminate]. exists d. split; auto. vm_compute in E. injection E as <-. reflexivity.
Qed.

(** Hints that leave no value possible: the number that means that there is no candidate is passed to
    moveto as -1, and the scan delivers its row again. *)
Definition nothing : hint := (mkHcol None [] None, mkHcol None [] (Some (restrictTo potential observed)), mkHcol None [] None).
Theorem C73_excluded_refuted : exists arr o D, psorted arr /\ NoDup arr /\ new_arr_itr 1 arr (-1) (-1) = Some o /\ hint_ok nothing /\
  is_run 9 9 0 false false false (fun _ _ _ => Some o) (fun _ => nothing) (0, 0, 0) = Some D /\ ~ NoDup D.
Proof.
  exists [(1, 1); (2, 1)]. eexists. exists [(1, 1, 1); (1, 1, 1); (1, 2, 1)]. split; [repeat constructor; unfold ple; cbn; lia|]. split; [repeat constructor; cbn; intuition discriminate|]. split; [reflexivity|].
  split; [|split; [vm_compute; reflexivity|]].
  - split; [apply merge_ok; constructor|]. split; [|apply merge_ok; constructor]. split; [|split]; cbn [h_bound h_merge h_dom]; [discriminate|contradiction|]. intros d E. injection E as <-. apply (pot_restrict _ []); constructor.
  - intros H. inversion H as [|? ? N _]. apply N. now left.
Qed.
Print Assumptions C73_excluded_refuted.

(** A full scan over a database with an update (CompositeScanItr): moveto is passed on to children
    that already stand on the row that they will deliver, so that they deliver it twice.  The
    hypotheses of C73_index_scan are met but for the iterator: its children do move as needed. *)
Definition from5 : hint := (mkHcol None [] None, mkHcol None [5] None, mkHcol None [] None).
Theorem C73_updates_refuted : exists x y a b o D,
  NoDup (x ++ y) /\ new_arr_itr 1 x (-1) (-1) = Some a /\ new_arr_itr 1 y (-1) (-1) = Some b /\
  Seek (2 ^ 63) (with_key 1 x) a /\ Seek (2 ^ 63) (with_key 1 y) b /\
  new_cscan_itr (ItrProps.isort cscan_gt) (ItrProps.isort cscan_gt_ign) [a; b] = Some o /\
  is_run 9 9 0 false false false (fun _ _ _ => Some o) (fun _ => from5) (0, 0, 0) = Some D /\
  D = [(1, 1, 1); (1, 5, 1); (1, 5, 1); (1, 9, 1); (1, 9, 1)].
Proof.
  exists [(1, 1); (9, 1)], [(5, 1)]. 
  destruct (C73_arrays (2 ^ 63) 1 [(1, 1); (9, 1)]) as (a & Ea & Sa); [repeat constructor; unfold ple; cbn; lia|discriminate|].
  destruct (C73_arrays (2 ^ 63) 1 [(5, 1)]) as (b & Eb & Sb); [repeat constructor|discriminate|].
  injection Ea as <-. injection Eb as <-. do 4 eexists. split; [repeat constructor; cbn; intuition discriminate|]. split; [reflexivity|]. split; [reflexivity|]. split; [exact Sa|]. split; [exact Sb|].
  split; [reflexivity|]. split; [|reflexivity]. vm_compute. reflexivity.
Qed.
Print Assumptions C73_updates_refuted.
