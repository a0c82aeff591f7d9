(** C13, C14: the strategy byte, and tables stored with it and opened with it. *)
From Coq Require Import Sorted.
From Verif Require Import StrategyProofs.
Local Open Scope Z_scope.

(** ** C13 *)

(** C13.  If a reader is found for a strategy byte, then the writer chosen for the same byte
    writes the layout, with the widths, that this reader reads. *)
Theorem C13_same_layout : forall sig r, -128 <= sig < 128 -> getBinaryTable sig = Some r ->
  exists i, getBinaryTableInserter sig = Some i /\
    forall th l, ins_write th i l = Some match r with
      | RColumn => col_write th l
      | RRow w1 w2 => row_write w1 w2 l
      | RCluster w1 w2 wc => cl_write w1 w2 wc l
      end.
Proof.
  intros sig r Hsig. set (f := fun z =>
    match getBinaryTable z, getBinaryTableInserter z with
    | None, _ => true
    | Some RColumn, Some IColumn => true
    | Some (RRow w1 w2), Some (IRow c1 c2) => (w1 =? width_of_code c1)%nat && (w2 =? width_of_code c2)%nat
    | Some (RCluster w1 w2 wc), Some (ICluster c1 c2 n) =>
      (w1 =? width_of_code c1)%nat && (w2 =? width_of_code c2)%nat && (wc =? (if (n =? 1)%Z then 1 else 4))%nat
    | _, _ => false
    end).
  assert (H : forallb (fun n => f (Z.of_nat n - 128)) (seq 0 256) = true) by (vm_compute; reflexivity).
  rewrite forallb_forall in H. specialize (H (Z.to_nat (sig + 128))).
  replace (Z.of_nat (Z.to_nat (sig + 128)) - 128) with sig in H by lia.
  assert (Hf : f sig = true) by (apply H, in_seq; lia). unfold f in Hf. intros E. rewrite E in Hf.
  destruct r as [|w1 w2|w1 w2 wc]; destruct (getBinaryTableInserter sig) as [[t| |c1 c2|c1 c2 n]|]; try discriminate;
    eexists; (split; [reflexivity|]); intros th l; cbn [ins_write]; try reflexivity.
  - apply andb_prop in Hf. destruct Hf as [A B]. apply Nat.eqb_eq in A, B. now subst.
  - apply andb_prop in Hf. destruct Hf as [A C]. apply andb_prop in A. destruct A as [A B].
    apply Nat.eqb_eq in A, B, C. now subst.
Qed.
Print Assumptions C13_same_layout.

(** C13.  The byte built for each layout and width code is decoded to that layout and to the
    widths 1, 2, 4, 5 bytes that the codes 0, 1, 2, 3 stand for. *)
Definition width_table (c : Z) (w : nat) : Prop :=
  (c = 0 /\ w = 1%nat) \/ (c = 1 /\ w = 2%nat) \/ (c = 2 /\ w = 4%nat) \/ (c = 3 /\ w = 5%nat).
Theorem C13_decode : forall c1 c2 w1 w2, width_table c1 w1 -> width_table c2 w2 ->
  getBinaryTable (to_char (setBytesField2 (setBytesField1 (setStorageType 0 NEWROW_ITR) c1) c2)) = Some (RRow w1 w2) /\
  getBinaryTable (to_char (setBytesField2 (setBytesField1 (setStorageType 0 NEWCLUSTER_ITR) c1) c2)) = Some (RCluster w1 w2 1) /\
  getBinaryTable (to_char (Z.lor (setBytesField2 (setBytesField1 (setStorageType 0 NEWCLUSTER_ITR) c1) c2) 1)) = Some (RCluster w1 w2 4) /\
  getBinaryTable (to_char (setStorageType 0 NEWCOLUMN_ITR)) = Some RColumn.
Proof.
  intros c1 c2 w1 w2 H1 H2. unfold width_table in *.
  destruct H1 as [[-> ->]|[[-> ->]|[[-> ->]|[-> ->]]]], H2 as [[-> ->]|[[-> ->]|[[-> ->]|[-> ->]]]]; vm_compute; auto.
Qed.
Print Assumptions C13_decode.

(** The fixed strategies offered to users, and the one of aggregated tables. *)
Theorem C13_fixed : getBinaryTable (to_char FIXEDSTRAT5) = Some RColumn /\
  getBinaryTable (to_char FIXEDSTRAT6) = Some (RRow 5 5) /\
  getBinaryTable (to_char FIXEDSTRAT7) = Some (RCluster 5 5 4) /\
  getBinaryTable STRATEGY_FOR_POS = Some (RRow 5 8) /\ isAggregated STRATEGY_FOR_POS = true /\
  isAggregated (to_char FIXEDSTRAT7) = false.
Proof. vm_compute. auto 8. Qed.
Print Assumptions C13_fixed.

(** C13 fails for getStrategy, which uses the first width for both columns: the byte asked
    for a row table with 1 and 4 bytes gives one with 1 and 1 bytes. *)
Theorem C13_getStrategy_refuted :
  getBinaryTable (getStrategy NEWROW_ITR 0 2 false) <> Some (RRow 1 4) /\
  getBinaryTable (getStrategy NEWROW_ITR 0 2 false) = Some (RRow 1 1).
Proof. vm_compute. split; [discriminate|reflexivity]. Qed.
Print Assumptions C13_getStrategy_refuted.

(** An aggregated row table is written with any width of the first column but can only be
    read with 5 bytes: the writer accepts bytes for which there is no reader. *)
Theorem C13_aggregated_width_refuted : exists sig, -128 <= sig < 128 /\
  getBinaryTableInserter sig = Some (IRow 0 4) /\ getBinaryTable sig = None.
Proof. exists (-127). vm_compute. repeat split; discriminate. Qed.
Print Assumptions C13_aggregated_width_refuted.

(** ** C14 *)

(** C14.  Whatever the table, the thresholds and the options, the strategy chosen (from the
    first THRESHOLD_KEEP_MEMORY pairs) has a reader, and every value and every group size of
    the table fits its fields. *)
Theorem C14_widths : forall l ncc useRow, StronglySorted plt l -> below39 l ->
  let sig := determineStrategy (firstn (Z.to_nat THRESHOLD_KEEP_MEMORY) l) ncc useRow in
  exists r, getBinaryTable sig = Some r /\
    match r with
    | RColumn => True
    | RRow w1 w2 => forall a b, In (a, b) l -> fits w1 a /\ fits w2 b
    | RCluster w1 w2 wc => (forall a b, In (a, b) l -> fits w1 a /\ fits w2 b) /\
                           (forall a n, In (a, n) (groups l) -> fits wc n)
    end.
Proof.
  intros l ncc ur Hs Hb sig. destruct (strategy_ok _ l ncc ur Hs Hb eq_refl) as (r & i & E & _ & _ & Hf & _).
  exists r. split; [exact E|]. destruct r as [|w1 w2|w1 w2 wc]; auto.
  - now destruct Hf as (_ & _ & Hf).
  - destruct Hf as (_ & _ & _ & Hf & Hn). auto.
Qed.
Print Assumptions C14_widths.

(** C14.  A table stored with the chosen strategy, anywhere in memory, is opened with it as a
    table of the same pairs; with a first value it yields the matching pairs; and with both
    values also, provided 16 more bytes can be read after the table. *)
Theorem C14_store_open : forall l ncc useRow th k, StronglySorted plt l -> below39 l -> zl l < 2 ^ 56 ->
  let sig := determineStrategy (firstn (Z.to_nat THRESHOLD_KEEP_MEMORY) l) ncc useRow in
  exists i r bytes, getBinaryTableInserter sig = Some i /\ getBinaryTable sig = Some r /\
    ins_write th i l = Some bytes /\
    forall m p, contains m p bytes ->
    (exists o bk, tbl_open r m k (-1) (-1) p (p + zl bytes) = Some o /\ Table k bk l o) /\
    (l <> [] -> forall c1, int64 c1 ->
       exists o, tbl_open r m k c1 (-1) p (p + zl bytes) = Some o /\
         Yields true (with_key k (filter (pair_matches c1 (-1)) l)) o) /\
    (l <> [] -> p + zl bytes + 16 <= zl m -> forall c1 c2, int64 c1 -> int64 c2 ->
       exists o, tbl_open r m k c1 c2 p (p + zl bytes) = Some o /\
         Yields true (with_key k (filter (pair_matches c1 c2) l)) o).
Proof.
  intros l ncc ur th k Hs Hb Hl sig. destruct (strategy_ok _ l ncc ur Hs Hb eq_refl) as (r & i & E & Ei & _ & Hf & Hw).
  exists i, r, (reader_write th r l). split; [exact Ei|]. split; [exact E|]. split; [apply Hw|].
  intros m p Hc. split; [|split].
  - now apply tbl_open_all.
  - intros Hn c1 H1. now apply tbl_open_first.
  - intros Hn Hm c1 c2 H1 H2. now apply tbl_open_both.
Qed.
Print Assumptions C14_store_open.

(** The sizes are needed: a value from 2^39 on is stored in 5 bytes and read back negative. *)
Theorem C14_large_value_refuted : exists l r, StronglySorted plt l /\ l = [(1, 2 ^ 39)] /\
  getBinaryTable (determineStrategy l 100 true) = Some r /\
  (do o <- tbl_open r (reader_write 0 r l) 0 (-1) (-1) 0 (zl (reader_write 0 r l)); drain 9 o) = Some [(0, 1, - 2 ^ 39)].
Proof.
  exists [(1, 2 ^ 39)]. eexists. split; [|split; [reflexivity|]].
  - ssort.
  - split; [vm_compute; reflexivity|]. vm_compute. reflexivity.
Qed.
Print Assumptions C14_large_value_refuted.

Example C14_case : StronglySorted plt ex_pairs /\ below39 ex_pairs /\
  getBinaryTable (determineStrategy ex_pairs 100 true) = Some (RCluster 1 2 1) /\
  getBinaryTable (determineStrategy ex_pairs 3 true) = Some RColumn /\
  getBinaryTable (determineStrategy [(1, 300); (2, 70000)] 100 true) = Some (RCluster 1 4 1).
Proof.
  split; [apply ex_sorted|]. split; [|vm_compute; auto].
  intros a b H. in_cases H; lia.
Qed.
