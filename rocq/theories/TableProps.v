(** C10, C11, C12, C15, C39, C40, C42: binary tables written and read back. *)
From Coq Require Import Sorted.
From Verif Require Import TableModel ColumnModel ItrProofs TableSpec TableProofs RowProofs ClusterProofs ColumnProofs.
Local Open Scope Z_scope.
Ltac Zify.zify_post_hook ::= Z.div_mod_to_equations.
Ltac ssort := repeat first [apply SSorted_nil | apply SSorted_cons | apply Forall_nil | apply Forall_cons];
  unfold plt; cbn [fst snd]; lia.
Ltac in_cases H := cbn in H; repeat destruct H as [H|H]; try contradiction; injection H as <- <-.
Notation zl l := (Z.of_nat (length l)).

(** Pairs that fields of w1 and w2 bytes can hold. *)
Definition pairs_fit (w1 w2 : nat) (l : list (Z * Z)) : Prop :=
  forall a b, In (a, b) l -> fits w1 a /\ fits w2 b.

Lemma pairs_fit_Forall w1 w2 l : pairs_fit w1 w2 l -> Forall (pfits w1 w2) l.
Proof. intros H. apply Forall_forall. intros [a b] Hx. now apply H. Qed.
Lemma width_pos w : is_width w -> (1 <= w)%nat.
Proof. unfold is_width. lia. Qed.

(** ** C15 *)

(** C15.  A value written in a field of 1, 2, 4, 5 or 8 bytes is read back, if it is below
    2^8, 2^16, 2^32, 2^39 or 2^63. *)
Theorem C15_field : forall w m p v, is_width w -> fits w v -> contains m p (enc w v) -> rd w m p = Some v.
Proof. intros w m p v _ Hf Hc. now apply rd_enc. Qed.
Print Assumptions C15_field.

(** C15 fails for 5-byte values from 2^39 on: they are read back negative. *)
Theorem C15_five_bytes_refuted : exists v, 0 <= v < 2 ^ 40 /\ rd 5 (enc 5 v) 0 = Some (v - 2 ^ 40).
Proof. exists (2 ^ 39). split; [lia|reflexivity]. Qed.
Print Assumptions C15_five_bytes_refuted.

Example C15_field_case : fits 5 (2 ^ 39 - 1) /\ contains [7; 127; 255; 255; 255; 255; 9] 1 (enc 5 (2 ^ 39 - 1)).
Proof. split; [unfold fits; cbn; lia|]. now exists [7], [9]. Qed.

(** ** C10: row tables *)

(** C10.  Opening a row table gives a cursor over the pairs written to it. *)
Theorem C10_row_open : forall w1 w2 m k p l, is_width w1 -> is_width w2 ->
  StronglySorted plt l -> pairs_fit w1 w2 l -> contains m p (row_write w1 w2 l) ->
  Table k false l (row_obj (row_setup w1 w2 m k p (p + zl (row_write w1 w2 l)))).
Proof.
  intros w1 w2 m k p l W1 W2 Hs Hf Hc. rewrite row_write_rows in *. rewrite rows_length.
  apply row_cursor; auto using width_pos. split; auto using pairs_fit_Forall.
Qed.
Print Assumptions C10_row_open.

(** C10.  Opening a non-empty row table with a first value. *)
Theorem C10_row_open_first : forall w1 w2 m k p l c1, is_width w1 -> is_width w2 ->
  StronglySorted plt l -> pairs_fit w1 w2 l -> contains m p (row_write w1 w2 l) -> l <> [] -> 0 <= c1 ->
  exists st, row_setup1 w1 w2 m k c1 p (p + zl (row_write w1 w2 l)) = Some st /\
    Table k false (filter (pair_matches c1 (-1)) l) (row_obj st).
Proof.
  intros w1 w2 m k p l c1 W1 W2 Hs Hf Hc Hn H1. rewrite row_write_rows in *. rewrite rows_length.
  apply row_setup1_ok; auto using width_pos. split; auto using pairs_fit_Forall.
Qed.
Print Assumptions C10_row_open_first.

(** C10.  Opening a non-empty row table with both values, provided one more row can be read
    after the table: the search reads it (see C10_row_both_reads_past_end_refuted). *)
Theorem C10_row_open_both_partial : forall w1 w2 m k p l c1 c2, is_width w1 -> is_width w2 ->
  StronglySorted plt l -> pairs_fit w1 w2 l -> contains m p (row_write w1 w2 l) -> l <> [] -> 0 <= c1 -> 0 <= c2 ->
  p + zl (row_write w1 w2 l) + Z.of_nat w1 + Z.of_nat w2 <= zl m ->
  exists st, row_setup2 w1 w2 m k c1 c2 p (p + zl (row_write w1 w2 l)) = Some st /\
    Table k false (filter (pair_matches c1 c2) l) (row_obj st).
Proof.
  intros w1 w2 m k p l c1 c2 W1 W2 Hs Hf Hc Hn H1 H2 Hp. rewrite row_write_rows in *. rewrite rows_length in *.
  apply row_setup2_ok; auto using width_pos; [split; auto using pairs_fit_Forall|]. unfold bsz in *. lia.
Qed.
Print Assumptions C10_row_open_both_partial.

(** C10.  Number of pairs, and number of distinct first values with the second column ignored. *)
Theorem C10_row_cardinality : forall w1 w2 m k p l, is_width w1 -> is_width w2 ->
  StronglySorted plt l -> pairs_fit w1 w2 l -> contains m p (row_write w1 w2 l) ->
  let st := row_setup w1 w2 m k p (p + zl (row_write w1 w2 l)) in
  (exists s', row_getCardinality st = Some (zl l, s')) /\
  (exists s1 s', row_ignore st = Some s1 /\ row_getCardinality s1 = Some (zl (groups l), s')).
Proof.
  intros w1 w2 m k p l W1 W2 Hs Hf Hc. rewrite row_write_rows in *. rewrite rows_length.
  apply row_cardinality_ok; auto using width_pos. split; auto using pairs_fit_Forall.
Qed.
Print Assumptions C10_row_cardinality.

(** The search for both values reads the row after the last one. *)
Theorem C10_row_both_reads_past_end_refuted : exists m l c1 c2,
  StronglySorted plt l /\ pairs_fit 1 1 l /\ m = row_write 1 1 l /\ row_setup2 1 1 m 0 c1 c2 0 (zl m) = None.
Proof.
  exists [1; 2; 5; 1], [(1, 2); (5, 1)], 5, 3. split; [|split; [|split; [reflexivity|vm_compute; reflexivity]]].
  - ssort.
  - intros a b [[= <- <-]|[[= <- <-]|[]]]; unfold fits; cbn; lia.
Qed.
Print Assumptions C10_row_both_reads_past_end_refuted.

Definition ex_pairs : list (Z * Z) := [(1, 2); (1, 5); (1, 9); (3, 4); (3, 300); (7, 1)].
Example ex_sorted : StronglySorted plt ex_pairs.
Proof. ssort. Qed.
Example ex_fit : pairs_fit 1 2 ex_pairs.
Proof. intros a b H. in_cases H; unfold fits; cbn; split; lia. Qed.
Example C10_case : exists st,
  row_setup1 1 2 ([9; 9] ++ row_write 1 2 ex_pairs ++ [8; 8; 8]) 4 3 2 (2 + zl (row_write 1 2 ex_pairs)) = Some st /\
  drain 9 (row_obj st) = Some [(4, 3, 4); (4, 3, 300)].
Proof. eexists. split; [vm_compute; reflexivity|]. vm_compute. reflexivity. Qed.

(** ** C11: cluster tables *)

Definition counts_fit (wc : nat) (l : list (Z * Z)) : Prop := forall a n, In (a, n) (groups l) -> fits wc n.

Lemma cl_prepare w1 w2 wc m p l : (1 <= w1)%nat -> (1 <= w2)%nat ->
  StronglySorted plt l -> pairs_fit w1 w2 l -> counts_fit wc l -> contains m p (cl_write w1 w2 wc l) ->
  exists G, pairs G = l /\ gok G /\ chere w1 w2 wc m p [] G /\
    zl (cl_write w1 w2 wc l) = glen w1 w2 wc G.
Proof.
  intros W1 W2 Hs Hf Hn Hc. destruct (cl_write_spec w1 w2 wc l) as (G & E & EG & Hne & Ha).
  { intros [a b] Hx. destruct (Hf a b Hx) as [H _]. unfold fits in H. cbn. lia. }
  exists G. split; auto. rewrite <- EG in Hs. assert (Hok : gok G) by (apply pairs_sorted; auto).
  split; auto. rewrite E in *. split; [|now apply clb_length].
  split; [exact Hc|]. split; [constructor|]. apply Forall_forall. intros [a vs] Hg.
  rewrite Forall_forall in Hne. assert (Hne' := Hne _ Hg). cbn [snd] in Hne'.
  assert (HF : Forall (fun v => fits w1 a /\ fits w2 v) vs).
  { apply Forall_forall. intros v Hv. apply Hf. rewrite <- EG. unfold pairs. apply in_flat_map. exists (a, vs).
    split; auto. cbn. apply in_map_iff. eauto. }
  split; [exact Hne'|]. cbn [fst snd]. split; [|split].
  - destruct vs; [congruence|]. now inversion HF as [|? ? [? _] _].
  - apply (Hn a). rewrite <- EG, groups_pairs; [|apply Forall_forall; auto|apply Hok].
    apply in_map_iff. now exists (a, vs).
  - eapply Forall_impl; [|exact HF]. cbn. tauto.
Qed.

(** C11.  Opening a cluster table gives a cursor over the pairs written to it; the counter
    field must hold the size of every group. *)
Theorem C11_cluster_open : forall w1 w2 wc m k p l, is_width w1 -> is_width w2 -> is_width wc ->
  StronglySorted plt l -> pairs_fit w1 w2 l -> counts_fit wc l -> contains m p (cl_write w1 w2 wc l) ->
  Table k true l (cl_obj (cl_setup w1 w2 wc m k p (p + zl (cl_write w1 w2 wc l)))).
Proof.
  intros w1 w2 wc m k p l W1 W2 W3 Hs Hf Hn Hc. apply width_pos in W1, W2.
  destruct (cl_prepare w1 w2 wc m p l W1 W2 Hs Hf Hn Hc) as (G & <- & Hok & Hh & ->). now apply cl_open.
Qed.
Print Assumptions C11_cluster_open.

Theorem C11_cluster_open_first : forall w1 w2 wc m k p l c1, is_width w1 -> is_width w2 -> is_width wc ->
  StronglySorted plt l -> pairs_fit w1 w2 l -> counts_fit wc l -> contains m p (cl_write w1 w2 wc l) -> 0 <= c1 ->
  exists st, cl_setup1 w1 w2 wc m k c1 p (p + zl (cl_write w1 w2 wc l)) = Some st /\
    Table k true (filter (pair_matches c1 (-1)) l) (cl_obj st).
Proof.
  intros w1 w2 wc m k p l c1 W1 W2 W3 Hs Hf Hn Hc H1. apply width_pos in W1, W2.
  destruct (cl_prepare w1 w2 wc m p l W1 W2 Hs Hf Hn Hc) as (G & <- & Hok & Hh & ->). now apply cl_setup1_ok.
Qed.
Print Assumptions C11_cluster_open_first.

(** C11.  Opened with both values the table is a cursor over the matching pair, but the
    second column cannot be ignored (see C11_both_ignore_refuted). *)
Theorem C11_cluster_open_both : forall w1 w2 wc m k p l c1 c2, is_width w1 -> is_width w2 -> is_width wc ->
  StronglySorted plt l -> pairs_fit w1 w2 l -> counts_fit wc l -> contains m p (cl_write w1 w2 wc l) ->
  0 <= c1 -> 0 <= c2 ->
  exists st, cl_setup2 w1 w2 wc m k c1 c2 p (p + zl (cl_write w1 w2 wc l)) = Some st /\
    Cursor k true (filter (pair_matches c1 c2) l) (cl_obj st).
Proof.
  intros w1 w2 wc m k p l c1 c2 W1 W2 W3 Hs Hf Hn Hc H1 H2. apply width_pos in W1, W2.
  destruct (cl_prepare w1 w2 wc m p l W1 W2 Hs Hf Hn Hc) as (G & <- & Hok & Hh & ->). now apply cl_setup2_ok.
Qed.
Print Assumptions C11_cluster_open_both.

Theorem C11_cluster_cardinality : forall w1 w2 wc m k p l, is_width w1 -> is_width w2 -> is_width wc ->
  StronglySorted plt l -> pairs_fit w1 w2 l -> counts_fit wc l -> contains m p (cl_write w1 w2 wc l) ->
  let st := cl_setup w1 w2 wc m k p (p + zl (cl_write w1 w2 wc l)) in
  (exists s', cl_getCardinality st = Some (zl l, s')) /\
  (exists s', cl_getCardinality (cl_ignore st) = Some (zl (groups l), s')).
Proof.
  intros w1 w2 wc m k p l W1 W2 W3 Hs Hf Hn Hc. apply width_pos in W1, W2.
  destruct (cl_prepare w1 w2 wc m p l W1 W2 Hs Hf Hn Hc) as (G & <- & Hok & Hh & ->). cbv zeta. split.
  - exact (cl_cardinality_ok w1 w2 wc m W1 W2 k p G false Hh Hok).
  - exact (cl_cardinality_ok w1 w2 wc m W1 W2 k p G true Hh Hok).
Qed.
Print Assumptions C11_cluster_cardinality.

Example ex_counts : counts_fit 1 ex_pairs.
Proof. intros a n H. in_cases H; unfold fits; cbn; lia. Qed.
Example C11_case : exists st,
  cl_setup1 1 2 1 ([9; 9] ++ cl_write 1 2 1 ex_pairs) 4 3 2 (2 + zl (cl_write 1 2 1 ex_pairs)) = Some st /\
  drain 9 (cl_obj st) = Some [(4, 3, 4); (4, 3, 300)].
Proof. eexists. split; [vm_compute; reflexivity|]. vm_compute. reflexivity. Qed.

(** Asking a fresh cluster cursor for its cardinality makes it lose pairs. *)
Theorem C11_cardinality_disturbs_refuted : exists l m s',
  StronglySorted plt l /\ m = cl_write 1 1 1 l /\
  cl_getCardinality (cl_setup 1 1 1 m 0 0 (zl m)) = Some (zl l, s') /\
  drain 9 (cl_obj s') <> Some (with_key 0 l).
Proof.
  exists [(1, 2); (1, 5); (3, 4)]. do 2 eexists. split; [ssort|].
  split; [reflexivity|]. split; [vm_compute; reflexivity|]. vm_compute. discriminate.
Qed.
Print Assumptions C11_cardinality_disturbs_refuted.

(** With both values given and the second column ignored the pair is not found. *)
Theorem C11_both_ignore_refuted : exists l m st,
  StronglySorted plt l /\ m = cl_write 1 1 1 l /\
  cl_setup2 1 1 1 m 0 1 5 0 (zl m) = Some st /\ In (1, 5) l /\
  gdrain 9 (cl_obj (cl_ignore st)) <> Some (groups (filter (pair_matches 1 5) l)).
Proof.
  exists [(1, 2); (1, 5); (3, 4)]. do 2 eexists. split; [ssort|].
  split; [reflexivity|]. split; [vm_compute; reflexivity|]. split; [cbn; auto|]. vm_compute. discriminate.
Qed.
Print Assumptions C11_both_ignore_refuted.

(** ** C12: column tables *)

Definition pairs_below56 (l : list (Z * Z)) : Prop :=
  forall a b, In (a, b) l -> 0 <= a < 2 ^ 56 /\ 0 <= b < 2 ^ 56.

Lemma col_prepare th l : pairs_below56 l -> zl l < 2 ^ 56 ->
  exists b1 b2 bc bo G, col_layout (col_write th l) b1 b2 bc bo G (zl l) /\ pairs G = l /\ zl (seconds G) = zl l.
Proof.
  intros Hp Hl. destruct (col_write_spec th l) as (b1 & b2 & bc & bo & G & HL & E); auto.
  { intros [a b] Hx. now apply Hp. }
  assert (Hz : zl (seconds G) = zl l); [|exists b1, b2, bc, bo, G; rewrite <- Hz; auto].
  rewrite <- E. clear. f_equal.
  induction G as [|g G IH]; auto. cbn [seconds pairs flat_map]. rewrite !app_length, map_length. unfold seconds, pairs in *. lia.
Qed.

(** C12.  Opening a column table gives a cursor over the pairs written to it, whatever the
    threshold [th] at which the writer moves data to temporary files. *)
Theorem C12_column_open : forall th m k p l, StronglySorted plt l -> pairs_below56 l -> zl l < 2 ^ 56 ->
  contains m p (col_write th l) ->
  exists st, col_setup m k p (p + zl (col_write th l)) = Some st /\
    col_getCardinality st = zl l /\ col_getCardinality (col_ignore st) = zl (groups l) /\
    Table k true l (col_obj st).
Proof.
  intros th m k p l Hs Hp Hl Hc. destruct (col_prepare th l Hp Hl) as (b1 & b2 & bc & bo & G & HL & E & EL).
  assert (HW := lay_widths _ _ _ _ _ _ _ HL).
  destruct (col_setup_ok b1 b2 bc bo m ltac:(lia) ltac:(lia) ltac:(lia) _ k p G Hc HL) as (sp1 & E1 & Hh & Hv & He).
  rewrite E1. eexists. split; [reflexivity|]. rewrite <- E in Hs.
  assert (Hok : col_ok G) by (destruct HL; apply pairs_sorted; auto).
  split; [reflexivity|]. split.
  - cbn. rewrite <- E, groups_pairs, map_length; auto; [apply HL|apply Hok].
  - generalize (col_open b1 b2 bc bo m ltac:(lia) ltac:(lia) ltac:(lia) k sp1 _ _ (zl l) (zl G) G Hh Hv eq_refl He Hok).
    rewrite E. auto.
Qed.
Print Assumptions C12_column_open.

(** C12.  Opened with a first value: the matching pairs can be scanned, marked and reset,
    and the second column can be ignored; moveto is not covered (see
    C12_first_moveto_refuted). *)
Theorem C12_column_open_first_partial : forall th m k p l c1,
  StronglySorted plt l -> pairs_below56 l -> zl l < 2 ^ 56 -> int64 c1 -> contains m p (col_write th l) ->
  exists st, col_setup1 m k c1 p (p + zl (col_write th l)) = Some st /\
    Scan k (filter (pair_matches c1 (-1)) l) (col_obj st) /\
    Ignores k true (filter (pair_matches c1 (-1)) l) (col_obj st) /\
    (filter (pair_matches c1 (-1)) l <> [] ->
     col_getCardinality st = zl (filter (pair_matches c1 (-1)) l) /\
     col_getCardinality (col_ignore st) = 1).
Proof.
  intros th m k p l c1 Hs Hp Hl H1 Hc. destruct (col_prepare th l Hp Hl) as (b1 & b2 & bc & bo & G & HL & E & EL).
  assert (HW := lay_widths _ _ _ _ _ _ _ HL). rewrite <- E in Hs.
  destruct (col_setup1_ok b1 b2 bc bo m ltac:(lia) ltac:(lia) ltac:(lia) _ k p G c1 Hc HL Hs H1)
    as (st & E1 & HC & HS & HI).
  exists st. rewrite E in *. split; auto. split; auto. split; auto. intros Hne. destruct (HC Hne) as (A1 & A2 & _). auto.
Qed.
Print Assumptions C12_column_open_first_partial.

(** C12.  Opened with both values. *)
Theorem C12_column_open_both : forall th m k p l c1 c2,
  StronglySorted plt l -> pairs_below56 l -> zl l < 2 ^ 56 -> int64 c1 -> int64 c2 -> contains m p (col_write th l) ->
  exists st, col_setup2 m k c1 c2 p (p + zl (col_write th l)) = Some st /\
    Cursor k true (filter (pair_matches c1 c2) l) (col_obj st).
Proof.
  intros th m k p l c1 c2 Hs Hp Hl H1 H2 Hc. destruct (col_prepare th l Hp Hl) as (b1 & b2 & bc & bo & G & HL & E & EL).
  assert (HW := lay_widths _ _ _ _ _ _ _ HL). rewrite <- E in Hs.
  destruct (col_setup2_ok b1 b2 bc bo m ltac:(lia) ltac:(lia) ltac:(lia) _ k p G c1 c2 Hc HL Hs H1 H2)
    as (st & E1 & HC).
  exists st. rewrite E in *. auto.
Qed.
Print Assumptions C12_column_open_both.

Example ex_below56 : pairs_below56 ex_pairs.
Proof. intros a b H. in_cases H; lia. Qed.
Example C12_case : exists st,
  col_setup1 ([9; 9] ++ col_write 2 ex_pairs) 4 3 2 (2 + zl (col_write 2 ex_pairs)) = Some st /\
  drain 9 (col_obj st) = Some [(4, 3, 4); (4, 3, 300)].
Proof. eexists. split; [vm_compute; reflexivity|]. vm_compute. reflexivity. Qed.

(** A column table opened with a first value, then moved inside that value, delivers a pair
    that was never written. *)
Theorem C12_first_moveto_refuted : exists m st,
  m = col_write 100 ex_pairs /\ col_setup1 m 0 1 0 (zl m) = Some st /\
  (do o1 <- advance 1 (col_obj st); do o2 <- moveto o1 1 9; drain 9 o2) = Some [(0, 1, 9); (0, 1, 4)].
Proof.
  do 2 eexists. split; [reflexivity|]. split; [vm_compute; reflexivity|]. vm_compute. reflexivity.
Qed.
Print Assumptions C12_first_moveto_refuted.

(** The cardinality of a column table opened with a first value that does not occur is the
    size of the whole table. *)
Theorem C12_absent_cardinality_refuted : exists m st,
  m = col_write 100 ex_pairs /\ col_setup1 m 0 2 0 (zl m) = Some st /\
  filter (pair_matches 2 (-1)) ex_pairs = [] /\ col_getCardinality st = 6.
Proof. do 2 eexists. split; [reflexivity|]. split; [vm_compute; reflexivity|]. split; reflexivity. Qed.
Print Assumptions C12_absent_cardinality_refuted.

(** A value of 2^56 does not survive: its width 8 does not fit the 3-bit field. *)
Theorem C12_eight_bytes_refuted : exists m st,
  m = col_write 100 [(1, 2 ^ 56)] /\ col_setup m 0 0 (zl m) = Some st /\
  drain 9 (col_obj st) <> Some [(0, 1, 2 ^ 56)].
Proof. do 2 eexists. split; [reflexivity|]. split; [vm_compute; reflexivity|]. vm_compute. discriminate. Qed.
Print Assumptions C12_eight_bytes_refuted.

(** ** C39, C40, C42: what a table cursor gives its client *)

(** Draining a table returns its pairs. *)
Theorem C10_table_yields : forall k bk l o, Table k bk l o -> Yields true (with_key k l) o.
Proof. intros k bk l o [H _]. eapply Cursor_yields; eauto. Qed.
Print Assumptions C10_table_yields.
Theorem C12_scan_yields : forall k l o, Scan k l o -> Yields true (with_key k l) o.
Proof. intros k l o (S & HS & H). eapply scan_yields; eauto. Qed.
Print Assumptions C12_scan_yields.

(** C39.  Standing on the pair with index i of a table, moveto(c1,c2) makes the table deliver
    exactly the pairs from index i on that are not smaller than (c1,c2). *)
Theorem C39_table_moveto : forall k bk l o i c1 c2, Cursor k bk l o -> (i < length l)%nat ->
  int64 c1 -> int64 c2 ->
  exists o1 o2, advance (S i) o = Some o1 /\ moveto o1 c1 c2 = Some o2 /\
    Yields true (with_key k (filter (fun e => negb (pair_lt e c1 c2)) (skipn i l))) o2.
Proof. exact client_moveto. Qed.
Print Assumptions C39_table_moveto.

(** C40.  After a mark, any number of steps and a reset the table delivers what was left at
    the mark. *)
Theorem C40_table_reset : forall k bk l o i j n, Cursor k bk l o -> (i + j <= length l)%nat ->
  exists o1 o2 o3 o4, advance i o = Some o1 /\ mark o1 = Some o2 /\ advance j o2 = Some o3 /\
    reset o3 n = Some o4 /\ Yields true (with_key k (skipn i l)) o4.
Proof. exact client_reset. Qed.
Print Assumptions C40_table_reset.
Theorem C40_scan_reset : forall k l o i j n, Scan k l o -> (i + j <= length l)%nat ->
  exists o1 o2 o3 o4, advance i o = Some o1 /\ mark o1 = Some o2 /\ advance j o2 = Some o3 /\
    reset o3 n = Some o4 /\ Yields true (with_key k (skipn i l)) o4.
Proof. exact client_scan_reset. Qed.
Print Assumptions C40_scan_reset.

(** C42.  With the second column ignored from the start, a table delivers each distinct
    first value once, with the number of its pairs. *)
Theorem C42_table_ignore : forall k bk l o, Ignores k bk l o ->
  exists o1, ignoreSecondColumn o = Some o1 /\
    forall fuel, (length l < fuel)%nat -> gdrain fuel o1 = Some (groups l).
Proof. exact client_ignore. Qed.
Print Assumptions C42_table_ignore.

(** C39 and C42.  In that mode moveto is a lower bound on the first value (cluster and
    column tables). *)
Theorem C39_table_ignore_moveto : forall k l o i c1 c2, Ignores k true l o -> (i < length (groups l))%nat -> int64 c1 ->
  exists o1 o2 o3, ignoreSecondColumn o = Some o1 /\ advance (S i) o1 = Some o2 /\ moveto o2 c1 c2 = Some o3 /\
    forall fuel, (length l < fuel)%nat ->
    gdrain fuel o3 = Some (filter (fun g => c1 <=? fst g) (skipn i (groups l))).
Proof. exact client_gmoveto. Qed.
Print Assumptions C39_table_ignore_moveto.

(** In a row table with the second column ignored, moving to the current value loses
    its count. *)
Theorem C39_row_ignore_moveto_refuted : exists m,
  m = row_write 1 2 ex_pairs /\ groups ex_pairs = [(1, 3); (3, 2); (7, 1)] /\
  (do o1 <- ignoreSecondColumn (row_obj (row_setup 1 2 m 0 0 (zl m)));
   do o2 <- advance 1 o1; do o3 <- moveto o2 1 0; gdrain 9 o3) = Some [(1, 1); (3, 2); (7, 1)].
Proof. eexists. split; [reflexivity|]. split; [reflexivity|]. vm_compute. reflexivity. Qed.
Print Assumptions C39_row_ignore_moveto_refuted.

(** The hypotheses of these theorems are met by all three layouts. *)
Example C39_case : Cursor 4 false ex_pairs (row_obj (row_setup 1 2 (row_write 1 2 ex_pairs) 4 0 18)) /\
  Ignores 4 true ex_pairs (cl_obj (cl_setup 1 2 1 (cl_write 1 2 1 ex_pairs) 4 0 18)) /\
  groups ex_pairs = [(1, 3); (3, 2); (7, 1)].
Proof.
  split; [|split; [|reflexivity]].
  - apply (C10_row_open 1 2 (row_write 1 2 ex_pairs) 4 0 ex_pairs); unfold is_width; auto using ex_sorted, ex_fit.
    exists [], []. now rewrite app_nil_r.
  - apply (C11_cluster_open 1 2 1 (cl_write 1 2 1 ex_pairs) 4 0 ex_pairs); unfold is_width; auto using ex_sorted, ex_fit, ex_counts.
    exists [], []. now rewrite app_nil_r.
Qed.
