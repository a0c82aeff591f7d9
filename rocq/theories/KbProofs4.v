(** The tables of a permutation after loading. *)
From Coq Require Import Sorted Permutation ZifyBool.
From Verif Require Export InserterSpec InserterProofs InserterProps KbProofs2 KbProofs3.
From Verif Require TallyProofs3.
Local Open Scope Z_scope.
Ltac Zify.zify_post_hook ::= Z.div_mod_to_equations.

(** ** The number of files *)
Definition few (t : ts) : Prop := (t_last t < MAX_N_FILES)%nat.

Ltac ustep E := repeat match type of E with
  | match ?x with _ => _ end = Some _ => let E0 := fresh "U" in destruct x eqn:E0; try discriminate
  end.
Lemma flush_last i t t' : ts_flush i t = Some t' -> t_last t' = t_last t.
Proof. unfold ts_flush. intros E. ustep E. injection E as <-. reflexivity. Qed.
Lemma few_start max mm k sg t t1 mk : ts_start max mm k sg t = Some (t1, mk) -> few t -> few t1.
Proof.
  unfold ts_start, few. intros E H.
  assert (Hx : exists t0, (if max <? zlen (t_file t (t_last t)) then
              if Nat.eqb (S (t_last t)) MAX_N_FILES then None
              else Some (mkTs (t_file t) (t_idx t) (t_marks t) (t_created t) (S (t_last t))
                           (zlen (t_file t (S (t_last t)))) (t_cur t) (t_prev t))
            else Some t) = Some t0 /\ (t_last t0 < MAX_N_FILES)%nat).
  { destruct (max <? zlen (t_file t (t_last t))); [|eauto]. destruct (Nat.eqb_spec (S (t_last t)) MAX_N_FILES) as [|Hne]; [discriminate|].
    eexists. split; [reflexivity|]. cbn [t_last]. unfold MAX_N_FILES in *. lia. }
  destruct Hx as (t0 & E0 & H0). rewrite E0 in E. cbv zeta in E. ustep E; injection E as <- _; exact H0.
Qed.
Lemma few_fold g l : forall s, x_ts (fold_left (fun st p => ins_append g (fst p) (snd p) (ins_pos g (fst p) (snd p) st)) l s) = x_ts s.
Proof.
  induction l as [|[a b] l IH]; intros s; cbn [fold_left]; auto. rewrite IH. unfold ins_append, ins_pos. cbn [x_ts]. destruct (g_usePos g); auto. destruct (_ =? _); auto.
Qed.
Lemma few_store g s s' : ins_store g s = Some s' -> few (x_ts s) -> few (x_ts s').
Proof.
  unfold ins_store. intros E H. destruct (_ && _)%bool; [injection E as <-; exact H|]. destruct (ins_choose g (x_buf s)) as [o st].
  destruct (getBinaryTableInserter st) as [h|]; [|discriminate]. destruct (ts_start _ _ _ _ _) as [[t mk]|] eqn:Et; [|discriminate].
  injection E as <-. rewrite few_fold. cbn [x_ts]. eapply few_start; eauto.
Qed.
Lemma stop_last n t t' : ts_stop n t = Some t' -> t_last t' = t_last t.
Proof.
  unfold ts_stop. cbv zeta. intros E. destruct (Nat.eqb _ _); [injection E as <-; reflexivity|].
  destruct (nth_error _ _) as [[|m ms]|]; [injection E as <-; reflexivity| |discriminate].
  destruct (ts_flush _ _) as [t2|] eqn:F; [|discriminate]. injection E as <-. cbn [t_last]. apply flush_last in F. exact F.
Qed.
Lemma few_entry g s s' : ins_write_entry g s = Some s' -> few (x_ts s) -> few (x_ts s').
Proof.
  unfold ins_write_entry. intros E H.
  assert (Hx : forall s0, (if x_n s <=? THRESHOLD_KEEP_MEMORY then ins_store g s else Some s) = Some s0 -> few (x_ts s0)).
  { intros s0 E0. destruct (_ <=? _); [eapply few_store; eauto|now injection E0 as <-]. }
  destruct (if x_n s <=? THRESHOLD_KEEP_MEMORY then ins_store g s else Some s) as [s0|]; [|discriminate]. specialize (Hx s0 eq_refl).
  destruct (x_skip s0); [injection E as <-; auto|]. destruct (ins_write _ _ _) as [bs|]; [|discriminate].
  destruct (ts_stop _ _) as [t|] eqn:Et; [|discriminate]. apply stop_last in Et. cbn [ts_write t_last] in Et.
  destruct (if g_agg g then _ else _) as [a b]. injection E as <-. cbn [x_ts]. unfold few in *. congruence.
Qed.
Lemma few_insert g a b c n s s' : ins_insert g a b c n s = Some s' -> few (x_ts s) -> few (x_ts s').
Proof.
  unfold ins_insert. intros E H.
  match type of E with match ?x with _ => _ end = _ => set (F := x) in E end.
  assert (Hx : forall s1, F = Some s1 -> few (x_ts s1)).
  { intros s1 E1. unfold F in E1. destruct (a =? x_t1 s); [injection E1 as <-; destruct (b =? x_t2 s); exact H|].
    assert (H0 : forall s0, (if x_t1 s =? -1 then Some s else ins_write_entry g s) = Some s0 -> few (x_ts s0)).
    { intros s0 E0. destruct (_ =? _); [now injection E0 as <-|eapply few_entry; eauto]. }
    destruct (if x_t1 s =? -1 then Some s else ins_write_entry g s) as [s0|]; [|discriminate]. specialize (H0 s0 eq_refl).
    destruct (g_usePos g); injection E1 as <-; exact H0. }
  destruct F as [s1|]; [|discriminate]. specialize (Hx s1 eq_refl). destruct (x_n s1 <? THRESHOLD_KEEP_MEMORY); [injection E as <-; exact Hx|].
  match type of E with match ?x with _ => _ end = _ => set (F2 := x) in E end.
  assert (Hy : forall s3, F2 = Some s3 -> few (x_ts s3)).
  { intros s3 E3. unfold F2 in E3. destruct (_ =? _); [eapply few_store; eauto|injection E3 as <-; exact Hx]. }
  destruct F2 as [s3|]; [|discriminate]. specialize (Hy s3 eq_refl). destruct (x_skip s3); [discriminate|]. injection E as <-.
  pose proof (few_fold g [(b, c)] s3) as Ef. cbn [fold_left fst snd] in Ef. now rewrite Ef.
Qed.
Lemma few_loader g l : forall prev s s', ld_insert g prev l s = Some s' -> few (x_ts s) -> few (x_ts s').
Proof.
  induction l as [|[[[a b] c] n] l IH]; intros [[x y] z] s s' E H; cbn [ld_insert] in E; [now injection E as <-|].
  destruct (_ && _)%bool; [eapply IH; eauto|]. destruct (ins_insert g a b c n s) as [s1|] eqn:E1; [|discriminate]. eapply IH; [exact E|]. eapply few_insert; eauto.
Qed.
Lemma loader_few g q s : loader_insert g q ins_new = Some s -> few (x_ts s).
Proof.
  unfold loader_insert. intros E. destruct (ld_insert _ _ _ _) as [s1|] eqn:E1; [|discriminate]. apply few_loader in E1; [|unfold few, MAX_N_FILES; cbn; lia].
  unfold ins_flush in E. assert (H0 : forall s0, (if x_t1 s1 =? -1 then Some s1 else ins_write_entry g s1) = Some s0 -> few (x_ts s0)).
  { intros s0 E0. destruct (_ =? _); [now injection E0 as <-|eapply few_entry; eauto]. }
  destruct (if x_t1 s1 =? -1 then Some s1 else ins_write_entry g s1) as [s0|]; [|discriminate]. injection E as <-. cbn [x_ts]. auto.
Qed.

(** ** The tables are not aggregated *)
Lemma flag_cases n : flagbytes n = 0 \/ flagbytes n = 1 \/ flagbytes n = 2 \/ flagbytes n = 3.
Proof. unfold flagbytes. repeat match goal with |- context [if ?b then _ else _] => destruct b end; auto. Qed.
Lemma auto_plain l ncc ur : isAggregated (determineStrategy l ncc ur) = false.
Proof.
  unfold determineStrategy. cbv zeta. destruct (flag_cases (nbytes (ds_max1 (fold_left ds_step l (mkDs 0 0 0 0 0 (-1)))))) as [-> |[-> |[-> | ->]]];
    destruct (flag_cases (nbytes (ds_max2 (fold_left ds_step l (mkDs 0 0 0 0 0 (-1)))))) as [-> |[-> |[-> | ->]]];
    repeat match goal with |- context [if ?b then _ else _] => destruct b end; reflexivity.
Qed.

Lemma sig_plain g l : g_agg g = false -> (forall f, g_fixed g = Some f -> isAggregated f = false) -> isAggregated (sigof g l) = false.
Proof.
  intros Ha Hf. unfold sigof, ins_choose. destruct (g_fixed g) as [f|]; [cbn; auto|]. rewrite Ha. cbn [andb snd]. apply auto_plain.
Qed.

(** ** Keys *)
Lemma keys_head t T : StronglySorted tlt (t :: T) -> forall k, In k (keys T) -> fst (fst t) <= k.
Proof.
  intros H k Hk. unfold keys in Hk. rewrite nodup_In in Hk. apply in_map_iff in Hk. destruct Hk as ([[a b] c] & <- & Hin).
  apply StronglySorted_inv in H. destruct H as [_ H]. rewrite Forall_forall in H. specialize (H _ Hin). destruct t as [[x y] z]. cbn in *. lia.
Qed.
Lemma keys_sorted T : StronglySorted tlt T -> StronglySorted Z.lt (keys T).
Proof.
  induction T as [|t T IH]; intros H; [constructor|]. pose proof (keys_head _ _ H) as Hh. apply StronglySorted_inv in H. destruct H as [H _]. specialize (IH H).
  unfold keys in *. cbn [map nodup]. destruct (in_dec Z.eq_dec (fst (fst t)) (map (fun t => fst (fst t)) T)) as [Hi|Hi]; auto. constructor; auto.
  rewrite Forall_forall. intros k Hk. specialize (Hh k Hk). destruct (Z.eq_dec (fst (fst t)) k); [|lia]. subst k. rewrite nodup_In in Hk. contradiction.
Qed.
Lemma filter_ss {A} (R : A -> A -> Prop) p l : StronglySorted R l -> StronglySorted R (filter p l).
Proof.
  induction 1 as [|x l Hs IH Hf]; cbn; [constructor|]. destruct (p x); auto. constructor; auto. rewrite Forall_forall in *. intros y Hy. apply filter_In in Hy. apply Hf. tauto.
Qed.

(** Tables opened with a first value, with the second column ignored. *)
Lemma open_first_aggregates r th m k p l c1 : reader_fits r l -> StronglySorted plt l -> below39 l -> zl l < 2 ^ 56 ->
  contains m p (reader_write th r l) -> l <> [] -> int64 c1 ->
  exists o, tbl_open r m k c1 (-1) p (p + zl (reader_write th r l)) = Some o /\
    TallySpec.Aggregates (with_key k (filter (pair_matches c1 (-1)) l)) o.
Proof.
  intros Hf Hs Hb Hl Hc Hn H1. assert (Hc1 : (c1 =? -1) = false) by (apply Z.eqb_neq; unfold int64 in H1; lia).
  assert (Hs' : StronglySorted plt (filter (pair_matches c1 (-1)) l)) by now apply filter_ss.
  destruct r as [|w1 w2|w1 w2 wc]; cbn [tbl_open reader_write reader_fits] in *; rewrite Hc1;
    change (-1 =? -1) with true; cbn iota.
  - destruct (C12_column_open_first_partial th m k p l c1 Hs (below39_56 _ Hb) Hl H1 Hc) as (st & -> & HS & HI & _).
    eexists. split; [reflexivity|]. eapply TallyProofs3.scan_aggregates; eauto.
  - destruct Hf as (W1 & W2 & Hf). unfold int64 in H1.
    destruct (C10_row_open_first w1 w2 m k p l c1 W1 W2 Hs Hf Hc Hn) as (st & -> & HT); [lia|].
    eexists. split; [reflexivity|]. eapply TallyProofs3.table_aggregates; eauto.
  - destruct Hf as (W1 & W2 & W3 & Hf & Hn'). unfold int64 in H1.
    destruct (C11_cluster_open_first w1 w2 wc m k p l c1 W1 W2 W3 Hs Hf Hn' Hc) as (st & -> & HT); [lia|].
    eexists. split; [reflexivity|]. eapply TallyProofs3.table_aggregates; eauto.
Qed.

Lemma keys_In k T : In k (keys T) <-> table_of k T <> [].
Proof.
  unfold keys. rewrite nodup_In, in_map_iff. split.
  - intros ([[a b] c] & <- & Hin) E. cbn [fst] in E. apply table_In in Hin. rewrite E in Hin. destruct Hin.
  - destruct (table_of k T) as [|[a b] l] eqn:E; [congruence|]. intros _. exists (k, a, b). split; auto. apply table_In. rewrite E. now left.
Qed.

Lemma ss_app_r {A} (R : A -> A -> Prop) l1 l2 : StronglySorted R (l1 ++ l2) -> StronglySorted R l2.
Proof. induction l1 as [|x l1 IH]; cbn; auto. intros H. apply StronglySorted_inv in H. tauto. Qed.

(** ** A permutation *)
Record Loaded (T : list triple) (st : list (Z * Z) -> bool) (pad : list Z) (tree : list entry) (fs : option ts) : Prop := {
  lo_keys : map e_key tree = filter (fun k => st (table_of k T)) (keys T);
  lo_fields : Forall fields_ok tree;
  lo_n : forall e, In e tree -> e_n e = zl (table_of (e_key e) T);
  lo_files : match fs with None => tree = [] | Some t => tree <> [] /\ exists G, Listing t G /\ all_coords t G = map coord_of tree end;
  lo_open : forall e, In e tree -> exists t p en r, fs = Some t /\ ts_getTable t (e_file e) (e_pos e) = Some (p, en) /\
    getBinaryTable (e_strat e) = Some r /\ isAggregated (e_strat e) = false /\
    forall v1 v2, (v1 = -1 -> v2 = -1) -> -1 <= v1 < 2 ^ 63 -> -1 <= v2 < 2 ^ 63 ->
    exists o, tbl_open r (t_file t (e_file e) ++ pad) (e_key e) v1 v2 p en = Some o /\
      Yields true (with_key (e_key e) (filter (pair_matches v1 v2) (table_of (e_key e) T))) o /\
      (v1 = -1 -> exists bk, Cursor (e_key e) bk (table_of (e_key e) T) o) /\
      (v2 = -1 -> TallySpec.Aggregates (with_key (e_key e) (filter (pair_matches v1 v2) (table_of (e_key e) T))) o)
}.

Lemma all_true v2 l : v2 = -1 -> filter (pair_matches (-1) v2) l = l.
Proof. intros ->. induction l as [|x l IH]; cbn; auto. now rewrite IH. Qed.

Lemma entries_In f l : forall i c, In c (entries_of f i l) -> exists j k s b, nth_error l j = Some (k, s, b) /\ c = (k, f, to_int32 (Z.of_nat (i + j)), s).
Proof.
  induction l as [|[[k s] b] l IH]; intros i c H; cbn in H; [destruct H|]. destruct H as [<- |H].
  - exists 0%nat, k, s, b. split; auto. now rewrite Nat.add_0_r.
  - destruct (IH _ _ H) as (j & k' & s' & b' & E1 & E2). exists (S j), k', s', b'. split; auto. rewrite E2. now rewrite Nat.add_succ_r.
Qed.
Lemma entries_nth f l : forall i j k s b, nth_error l j = Some (k, s, b) -> In (k, f, to_int32 (Z.of_nat (i + j)), s) (entries_of f i l).
Proof.
  induction l as [|[[k' s'] b'] l IH]; intros i [|j] k s b H; cbn in H; try discriminate.
  - injection H as -> -> ->. left. now rewrite Nat.add_0_r.
  - right. replace (i + S j)%nat with (S i + j)%nat by lia. eapply IH; eauto.
Qed.

Lemma perm_loaded g q pad tree fs : input_ok q -> let T := distinct (map fst q) in options_ok g T ->
  (forall f, g_fixed g = Some f -> isAggregated f = false) -> zl (keys T) < 2 ^ 31 -> zl T < 2 ^ 56 -> pad_ok pad ->
  load_perm (Some (g, q)) = Some (tree, fs) -> (forall t f, fs = Some t -> zl (t_file t f) < 2 ^ 40) ->
  Loaded T (fun l => negb (skipped g l)) pad tree fs.
Proof.
  intros [Hs Hv]. cbv zeta. set (T := distinct (map fst q)). intros (Ha & Hsk & Hmax & Hfix) Hagg Hn HnT Hpad E Hsz.
  assert (Hf : fixed_ok g T).
  { intros f Ef. destruct (Hfix f Ef) as (H1 & r & H2 & H3). split; auto. exists r. split; auto. }
  pose proof (loader_ok g q Ha Hsk Hmax Hs Hv Hf Hn) as HC. cbn [load_perm] in E.
  destruct (loader_insert g q ins_new) as [s|] eqn:El; [|discriminate]. fold T in HC. pose proof (loader_few _ _ _ El) as Hfew.
  destruct (ins_stop s) as [t'|] eqn:Es; [|discriminate]. injection E as <- Efs. unfold ins_stop in Es.
  pose proof (nodup_sorted _ Hs) as HT. fold T in HT.
  assert (HTv : forall a b c, In (a, b, c) T -> 0 <= a < 2 ^ 39 /\ 0 <= b < 2 ^ 39 /\ 0 <= c < 2 ^ 39).
  { intros a b c Hx. apply Hv. unfold T, distinct in Hx. now rewrite nodup_In in Hx. }
  assert (Hlast : t_last t' = t_last (x_ts s)).
  { unfold ts_stopInsert in Es. destruct (ts_stopFrom _ _ _); [|discriminate]. injection Es as <-. reflexivity. }
  pose proof HC as HC0. pose proof (Closed_tree _ _ _ _ _ HC) as HlenT. destruct HC as (G & HI & HG & Hl & Hk & HE & HLi & Hst & Hne).
  destruct (stopInsert_ok (x_ts s) G HI) as (t'' & Es' & Eff & HX).
  { intros f. specialize (HG f). revert HG Hn HlenT. clear. unfold zlen. intros. lia. }
  assert (t'' = t') by congruence. subst t''.
  assert (Hkeys : forall e, In e (x_tree s) -> In (e_key e) (keys T)).
  { intros e He. assert (Hin : In (e_key e) (map e_key (x_tree s))) by now apply in_map. rewrite Hk in Hin. apply filter_In in Hin. tauto. }
  rewrite Forall_forall in HE.
  assert (Hbytes : forall e, In e (x_tree s) -> fcont (G (e_file e)) <> []).
  { intros e He. destruct (HE e He) as (r & i & E1 & E2 & E3 & _). apply nth_error_In in E3. intros E0.
    assert (Hb : reader_write (g_colth g) r (table_of (e_key e) T) <> []).
    { apply reader_write_nonempty; auto.
      - now apply table_sorted.
      - intros a b Hx. apply table_In in Hx. apply HTv in Hx. lia.
      - apply keys_In. auto. }
    apply Hb. destruct (reader_write (g_colth g) r (table_of (e_key e) T)) as [|z zs]; auto. exfalso.
    assert (Hz : In z (fcont (G (e_file e)))) by (unfold fcont; apply in_flat_map; eexists; split; [exact E3|now left]). rewrite E0 in Hz. destruct Hz. }
  assert (Hfs : (fs = None /\ x_tree s = []) \/ (fs = Some t' /\ x_tree s <> [])).
  { destruct (t_file t' 0) as [|z zs] eqn:E0.
    - left. split; auto. destruct (x_tree s) as [|e0 tr] eqn:Et; auto. exfalso.
      assert (H0 : G 0%nat <> []) by (apply Hne; [discriminate|lia]). destruct (G 0%nat) as [|[[k0 s0] b0] r0] eqn:EG; [congruence|].
      assert (Hin : In (k0, 0%nat, to_int32 (Z.of_nat (0 + 0)), s0) (map coord_of (e0 :: tr))).
      { rewrite HLi. apply in_flat_map. exists 0%nat. split; [apply in_seq; lia|]. rewrite EG. apply (entries_nth 0 _ 0 0 k0 s0 b0). reflexivity. }
      apply in_map_iff in Hin. destruct Hin as (e & Ee & He). apply (Hbytes e He). injection Ee as _ -> _ _.
      rewrite <- (ti_file _ _ HI 0%nat), <- Eff. exact E0.
    - right. split; auto. intros Et. rewrite Et in HLi. rewrite Eff, (ti_file _ _ HI) in E0. destruct (G 0%nat) as [|[[k0 s0] b0] r0] eqn:EG; [discriminate|].
      cbn [map seq flat_map] in HLi. rewrite EG in HLi. discriminate. }
  assert (Hsz' : x_tree s <> [] -> forall f, zlen (t_file (x_ts s) f) < 2 ^ 40).
  { intros Ht f. destruct Hfs as [[_ H]|[H _]]; [contradiction|]. rewrite <- Eff. apply (Hsz t' f). exact H. }
  split.
  - rewrite Hk. apply filter_ext. intros k. unfold stored, skipped, skippable, zlen. destruct (g_perm g =? 3), (g_perm g =? 4), (g_perm g =? 5); reflexivity.
  - rewrite Forall_forall. intros e He. destruct (HE e He) as (r & i & E1 & E2 & E3 & E4 & E5 & E6).
    assert (Hin := Hkeys e He). unfold keys in Hin. rewrite nodup_In in Hin. apply in_map_iff in Hin. destruct Hin as ([[a b] c] & Ek & Hin). apply HTv in Hin. cbn [fst] in Ek.
    assert (Hi : (i < length (G (e_file e)))%nat) by (apply nth_error_Some; congruence). pose proof (HG (e_file e)) as HGe.
    assert (Hff : (e_file e <= t_last (x_ts s))%nat).
    { destruct (Nat.le_gt_cases (e_file e) (t_last (x_ts s))); auto. rewrite (ti_above _ _ HI) in Hi by auto. cbn in Hi. lia. }
    rewrite Forall_forall in Hst. specialize (Hst e He). pose proof (table_zl (e_key e) T) as Htl.
    assert (E5' : e_n e = zl (table_of (e_key e) T)) by exact E5. assert (0 <= zl (table_of (e_key e) T)) by apply Nat2Z.is_nonneg.
    assert (Htl' : zl (table_of (e_key e) T) <= zl T) by exact Htl.
    unfold fields_ok. split; [lia|]. split; [rewrite E5'; lia|]. unfold few, MAX_N_FILES in Hfew. split; [lia|]. split; [|lia].
    revert Hi HGe Hn HlenT E4. clear. unfold zlen. intros. rewrite E4, to_int32_id; lia.
  - intros e He. destruct (HE e He) as (r & i & E1 & E2 & E3 & E4 & E5 & E6). exact E5.
  - destruct Hfs as [[-> H]|[-> H]]; auto. split; auto. exists G. split.
    + assert (Hkk : forall f k s0 b, In (k, s0, b) (G f) -> exists e, In e (x_tree s) /\ e_key e = k /\ e_strat e = s0).
      { intros f k s0 b Hin. apply In_nth_error in Hin. destruct Hin as (j & Hj).
        assert (Hff : (f <= t_last (x_ts s))%nat).
        { destruct (Nat.le_gt_cases f (t_last (x_ts s))); auto. rewrite (ti_above _ _ HI) in Hj by auto. destruct j; discriminate. }
        assert (Hin : In (k, f, to_int32 (Z.of_nat (0 + j)), s0) (map coord_of (x_tree s))).
        { rewrite HLi. apply in_flat_map. exists f. split; [apply in_seq; lia|]. eapply entries_nth; eauto. }
        apply in_map_iff in Hin. destruct Hin as (e & Ee & He). exists e. injection Ee as -> _ _ ->. auto. }
      split.
      * intros f Hf'. destruct (HX f) as [[_ E0]|E0]; auto. exfalso. rewrite Hlast in Hf'. apply (Hne H f Hf'). destruct (G f) as [|[[? ?] ?] ?]; [auto|discriminate].
      * intros f Hf'. rewrite Hlast in Hf'. specialize (HX f). now rewrite (ti_above _ _ HI) in HX by auto.
      * intros f Hf'. rewrite Hlast in Hf'. now apply Hne.
      * intros f. specialize (HG f). revert HG Hn HlenT. clear. unfold zlen. intros. lia.
      * intros f k s0 b Hin. destruct (Hkk f k s0 b Hin) as (e & He & <- & <-). rewrite Forall_forall in Hst. split; [|now apply Hst].
        specialize (Hkeys e He). unfold keys in Hkeys. rewrite nodup_In in Hkeys. apply in_map_iff in Hkeys. destruct Hkeys as ([[a b'] c] & Ek & Hin'). apply HTv in Hin'. cbn [fst] in Ek. lia.
      * intros f. destruct (Nat.le_gt_cases f (t_last (x_ts s))) as [Hf'|Hf']; [|rewrite (ti_above _ _ HI) by auto; constructor].
        assert (HS : StronglySorted Z.lt (map KbProofs.c_key (map coord_of (x_tree s)))).
        { rewrite map_map. change (fun x => KbProofs.c_key (coord_of x)) with e_key. rewrite Hk. apply filter_ss, keys_sorted. exact HT. }
        rewrite HLi in HS. replace (S (t_last (x_ts s))) with (f + (1 + (t_last (x_ts s) - f)))%nat in HS by lia.
        rewrite !seq_app, !flat_map_app, !map_app in HS. cbn [seq flat_map Nat.add] in HS. rewrite app_nil_r, entries_key in HS.
        clear - HS. apply ss_app_r in HS. eapply ss_prefix. exact HS.
    + unfold all_coords. rewrite Hlast. auto.
  - intros e He. assert (Hn0 : x_tree s <> []) by (intros E0; rewrite E0 in He; destruct He). destruct Hfs as [[_ H]|[-> _]]; [contradiction|].
    destruct (entries_open g q s t' Hs Hv Hn HnT HC0 (Hsz' Hn0) Es e He) as (r & p & en & P1 & P2 & P3 & P4 & -> & P6 & P7 & P8 & P9 & P10).
    fold T in P1, P3, P4, P6, P7, P8, P9, P10 |- *. exists t', p. eexists. exists r. split; auto. split; [exact P1|]. split; auto. split.
    { destruct (HE e He) as (r' & i & E1 & E2 & E3 & E4 & E5 & E6). rewrite E6. now apply sig_plain. }
    intros v1 v2 Hc Hv1 Hv2. assert (P4' := contains_pad _ pad _ _ P4).
    destruct (Z.eq_dec v1 (-1)) as [-> |N1].
    + rewrite (Hc eq_refl), all_true by auto. destruct (tbl_open_all r (g_colth g) _ (e_key e) p _ P3 P6 P7 P8 P4') as (o & bk & Eo & HTb).
      exists o. split; auto. split; [eapply yields_table; eauto|]. split; [intros _; exists bk; apply HTb|]. intros _. rewrite ?all_true by auto. eapply TallyProofs3.table_aggregates; eauto.
    + destruct (Z.eq_dec v2 (-1)) as [-> |N2].
      * match goal with |- exists o, ?E = _ /\ ?Y o /\ _ => assert (A : exists o, E = Some o /\ Y o) end; [apply tbl_open_first; auto; unfold int64; lia|].
        destruct A as (o & E1 & Y1). exists o. split; [exact E1|]. split; [exact Y1|]. split; [intros; contradiction|]. intros _.
        destruct (open_first_aggregates r (g_colth g) (t_file t' (e_file e) ++ pad) (e_key e) p (table_of (e_key e) T) v1) as (o' & E1' & A1); auto; [unfold int64; lia|].
        assert (o' = o) as -> by congruence. exact A1.
      * match goal with |- exists o, ?E = _ /\ ?Y o /\ _ => assert (A : exists o, E = Some o /\ Y o) end.
        { apply tbl_open_both; auto; try (unfold int64; lia). destruct Hpad as [Hp1 _].
          assert (p + zl (reader_write (g_colth g) r (table_of (e_key e) T)) <= zl (t_file t' (e_file e))).
          { destruct P4 as (pre & suf & Em & Ep). rewrite Em, Ep, !app_length. clear. lia. }
          assert (Hp1' : 16 <= Z.of_nat (length pad)) by exact Hp1. rewrite app_length. lia. }
        destruct A as (o & E1 & Y1). exists o. split; [exact E1|]. split; [exact Y1|]. split; intros; contradiction.
Qed.
