(** C47: building the tables of a permutation. *)
From Verif Require Import ItrSpec ItrProofs TableSpec TableProofs TableProps StrategyModel StrategyProofs FileModel FileProofs.
From Verif Require Import InserterModel InserterSpec InserterProofs.
Local Open Scope Z_scope.

(** The sorted input of a permutation, possibly with repeated triples; every term below 2^39
    (the 5-byte fields are read as signed numbers). *)
Definition input_ok (q : list quad) : Prop :=
  StronglySorted tle (map fst q) /\
  forall a b c, In (a, b, c) (map fst q) -> 0 <= a < 2 ^ 39 /\ 0 <= b < 2 ^ 39 /\ 0 <= c < 2 ^ 39.

(** Options: not aggregated; tables are skipped below a threshold that is at most the size of
    the memory buffer (asserted in the constructor); a fixed strategy, if used, is wide enough. *)
Definition options_ok (g : cfg) (T : list triple) : Prop :=
  g_agg g = false /\ g_skip g <= THRESHOLD_KEEP_MEMORY /\ 0 <= g_maxsize g /\
  forall f, g_fixed g = Some f ->
    -128 <= f < 128 /\ exists r, getBinaryTable f = Some r /\ forall k,
      match r with
      | RColumn => True
      | RRow w1 w2 => forall a b, In (a, b) (table_of k T) -> fits w1 a /\ fits w2 b
      | RCluster w1 w2 wc => (forall a b, In (a, b) (table_of k T) -> fits w1 a /\ fits w2 b) /\
                             (forall a n, In (a, n) (groups (table_of k T)) -> fits wc n)
      end.

(** The tables of the permutations SOP (3), OSP (4) and PSO (5) may be skipped. *)
Definition skipped (g : cfg) (l : list (Z * Z)) : bool :=
  ((g_perm g =? 3) || (g_perm g =? 4) || (g_perm g =? 5)) && g_canSkip g && (Z.of_nat (length l) <? g_skip g).

(** C47.  After Loader::insert and stopInserts, the tree received one entry, with the number of
    pairs, for each first term whose table is not skipped; and the coordinates of the entry
    lead to a table with exactly the pairs of the input that have this first term, whatever
    the strategy, the number of files and the thresholds; also when it is opened with a
    constraint on the first column, or on both (if 16 more bytes follow in the file, see C10). *)
Theorem C47_tables : forall g q s t', input_ok q ->
  let T := distinct (map fst q) in options_ok g T -> zl (keys T) < 2 ^ 31 -> zl T < 2 ^ 56 ->
  loader_insert g q ins_new = Some s -> (forall f, zl (t_file (x_ts s) f) < 2 ^ 40) ->
  ins_stop s = Some t' ->
  map e_key (x_tree s) = filter (fun k => negb (skipped g (table_of k T))) (keys T) /\
  forall e, In e (x_tree s) ->
    let k := e_key e in let l := table_of k T in let m := t_file t' (e_file e) in
    e_n e = zl l /\
    exists r p en, ts_getTable t' (e_file e) (e_pos e) = Some (p, en) /\ getBinaryTable (e_strat e) = Some r /\
      (exists o bk, tbl_open r m k (-1) (-1) p en = Some o /\ Table k bk l o) /\
      (forall c1, int64 c1 -> exists o, tbl_open r m k c1 (-1) p en = Some o /\
         Yields true (with_key k (filter (pair_matches c1 (-1)) l)) o) /\
      (forall c1 c2, int64 c1 -> int64 c2 -> en + 16 <= zl m -> exists o, tbl_open r m k c1 c2 p en = Some o /\
         Yields true (with_key k (filter (pair_matches c1 c2) l)) o).
Proof.
  intros g q s t' [Hs Hv]. cbv zeta. set (T := distinct (map fst q)). intros (Ha & Hsk & Hmax & Hfix) Hn HnT E Hsz Es.
  assert (Hf : fixed_ok g T).
  { intros f Ef. destruct (Hfix f Ef) as (H1 & r & H2 & H3). split; auto. exists r. split; auto. }
  pose proof (loader_ok g q Ha Hsk Hmax Hs Hv Hf Hn) as HC. rewrite E in HC. fold T in HC.
  split.
  - destruct HC as (G & _ & _ & _ & Hk & _). rewrite Hk. apply filter_ext. intros k. unfold stored, skipped, skippable, zlen.
    destruct (g_perm g =? 3), (g_perm g =? 4), (g_perm g =? 5); reflexivity.
  - intros e He. destruct (entries_open g q s t' Hs Hv Hn HnT HC Hsz Es e He) as (r & p & en & E1 & E2 & E3 & E4 & -> & E6 & E7 & E8 & E9 & E10).
    fold T in E3, E4, E6, E7, E8, E9, E10 |- *. split; auto. exists r, p. eexists. split; [exact E1|]. split; auto. split; [|split].
    + now apply tbl_open_all.
    + intros c1 H1. now apply tbl_open_first.
    + intros c1 c2 H1 H2 H3. apply tbl_open_both; auto. 
Qed.
Print Assumptions C47_tables.

(** C47.  Building and closing only fails if a table storage runs out of file numbers, which
    needs at least 4096 tables. *)
Theorem C47_succeeds : forall g q, input_ok q ->
  let T := distinct (map fst q) in options_ok g T -> zl (keys T) < 4096 ->
  exists s t', loader_insert g q ins_new = Some s /\ ins_stop s = Some t'.
Proof.
  intros g q [Hs Hv]. cbv zeta. intros (Ha & Hsk & Hmax & Hfix) Hn.
  assert (Hf : fixed_ok g (distinct (map fst q))).
  { intros f Ef. destruct (Hfix f Ef) as (H1 & r & H2 & H3). split; auto. exists r. split; auto. }
  assert (Hn' : zlen (keys (distinct (map fst q))) < 2 ^ 31) by (eapply Z.lt_trans; [exact Hn|reflexivity]).
  pose proof (loader_ok g q Ha Hsk Hmax Hs Hv Hf Hn') as HC.
  destruct (loader_insert g q ins_new) as [s|].
  - pose proof (Closed_tree _ _ _ _ _ HC) as HL. destruct HC as (G & HI & HG & _).
    destruct (stopInsert_ok (x_ts s) G HI) as (t' & Es' & _).
    { intros f. specialize (HG f). unfold zlen in Hn'. unfold zlen in *. lia. }
    exists s, t'. auto.
  - exfalso. assert (Z.of_nat MAX_N_FILES = 4096) by reflexivity. unfold zlen in Hn'. clear Hn'.
    assert (Hn2 : Z.of_nat (length (keys (distinct (map fst q)))) < 4096) by exact Hn. apply Nat2Z.inj_le in HC.
    pose proof (Z.le_lt_trans _ _ _ HC Hn2). lia.
Qed.
Print Assumptions C47_succeeds.

(** C47.  The statistics: number of tables, of different pairs of first and second term, and of
    skipped tables. *)
Theorem C47_counts : forall g q s, input_ok q -> g_agg g = false -> loader_insert g q ins_new = Some s ->
  let T := distinct (map fst q) in x_ntables s = zl (keys T) /\ x_nfirst s = zl (prefixes T) /\
  x_skipped s = zl (keys T) - zl (x_tree s).
Proof.
  intros g q s [Hs Hv] Ha E. cbv zeta. assert (Hp : forall a b c, In (a, b, c) (map fst q) -> 0 <= a).
  { intros a b c Hx. apply Hv in Hx. lia. }
  destruct (loader_counts g q s Ha Hs Hp E) as [E1 E2]. pose proof (loader_skipped g q s Ha Hs Hp E) as E3.
  split; auto. split; auto. unfold zlen in *. lia.
Qed.
Print Assumptions C47_counts.

(** Three first terms, a repeated triple, small files, a skipped table. *)
Definition ex_input : list quad :=
  [(1, 5, 6, 0); (1, 5, 7, 0); (1, 5, 7, 0); (1, 300, 2, 0); (4, 0, 9, 0); (70000, 1, 1, 0); (70000, 2, 90000, 0)].
Definition ex_cfg (skip : bool) : cfg := mkCfg 3 skip true false None 16 false 2 1000 3 1.
Example C47_case : forall skip, input_ok ex_input /\ options_ok (ex_cfg skip) (distinct (map fst ex_input)).
Proof.
  intros skip. split; [split|].
  - unfold ex_input. cbn [map fst]. repeat first [apply SSorted_nil | apply SSorted_cons | apply Forall_nil | apply Forall_cons]; cbn; lia.
  - intros a b c Hx. cbn in Hx. in_cases Hx; lia.
  - unfold options_ok. cbn. split; auto. split; [unfold THRESHOLD_KEEP_MEMORY; lia|]. split; [lia|]. discriminate.
Qed.
Definition ex_result (skip : bool) :=
  do s <- loader_insert (ex_cfg skip) ex_input ins_new;
  do t <- ins_stop s;
  Some (map (fun e => (e_key e, e_n e, e_file e, e_pos e)) (x_tree s),
        map (fun e => do (p, en) <- ts_getTable t (e_file e) (e_pos e);
                      do r <- getBinaryTable (e_strat e);
                      do o <- tbl_open r (t_file t (e_file e)) (e_key e) (-1) (-1) p en; drain 9 o) (x_tree s)).
Example C47_result : ex_result true =
  Some ([(1, 3, 0%nat, 0); (70000, 2, 1%nat, 0)],
        [Some [(1, 5, 6); (1, 5, 7); (1, 300, 2)]; Some [(70000, 1, 1); (70000, 2, 90000)]]).
Proof. vm_compute. reflexivity. Qed.
