From Coq Require Export Sorting.Sorted.
From Verif Require Export ItrProofs TableSpec TableProofs RowProofs ClusterProofs ColumnProofs TableProps.
From Verif Require Export StrategyModel StrategyProofs StrategyProps FileModel FileProofs InserterModel InserterSpec.
Local Open Scope Z_scope.
Ltac Zify.zify_post_hook ::= Z.div_mod_to_equations.

(** ** Lists of triples *)

Lemma nodup_snoc (l : list Z) k : nodup Z.eq_dec (l ++ [k]) = nodup Z.eq_dec (filter (fun x => negb (x =? k)) l) ++ [k].
Proof.
  induction l as [|a l IH]; [reflexivity|]. cbn [app nodup filter]. destruct (Z.eqb_spec a k) as [-> |Hk]; cbn [negb].
  - destruct (in_dec Z.eq_dec k (l ++ [k])) as [_|H]; auto. exfalso. apply H. apply in_or_app. cbn. auto.
  - cbn [nodup]. destruct (in_dec Z.eq_dec a (l ++ [k])) as [H|H], (in_dec Z.eq_dec a (filter (fun x => negb (x =? k)) l)) as [H'|H']; auto.
    + exfalso. apply H'. apply filter_In. split.
      * apply in_app_or in H. destruct H as [H|[H|[]]]; auto. congruence.
      * now apply negb_true_iff, Z.eqb_neq.
    + exfalso. apply H. apply in_or_app. left. apply filter_In in H'. tauto.
    + cbn [app]. now rewrite IH.
Qed.

Definition firsts (l : list triple) : list Z := map (fun t : triple => fst (fst t)) l.
(** The first terms of which the table is complete while [k] is being inserted. *)
Definition closed (k : Z) (l : list triple) : list Z := nodup Z.eq_dec (filter (fun x => negb (x =? k)) (firsts l)).

Lemma keys_snoc l k b c : keys (l ++ [(k, b, c)]) = closed k l ++ [k].
Proof. unfold keys, closed, firsts. rewrite map_app. cbn [map fst]. apply nodup_snoc. Qed.

Lemma closed_same l k b c : closed k (l ++ [(k, b, c)]) = closed k l.
Proof.
  unfold closed, firsts. rewrite map_app, filter_app. cbn [map fst filter]. rewrite Z.eqb_refl. cbn [negb]. now rewrite app_nil_r.
Qed.

Lemma filter_all {A} (p : A -> bool) l : (forall x, In x l -> p x = true) -> filter p l = l.
Proof.
  induction l as [|a l IH]; cbn; auto. intros H. rewrite H by auto. f_equal. apply IH. auto.
Qed.

Lemma closed_new l k : ~ In k (firsts l) -> closed k l = keys l.
Proof.
  intros H. unfold closed, keys. fold (firsts l). rewrite filter_all; auto. intros x Hx.
  apply negb_true_iff, Z.eqb_neq. intros ->. auto.
Qed.

Lemma table_snoc_same l k b c : table_of k (l ++ [(k, b, c)]) = table_of k l ++ [(b, c)].
Proof. unfold table_of. rewrite filter_app, map_app. cbn [filter fst snd]. now rewrite Z.eqb_refl. Qed.
Lemma table_snoc_other l k k' b c : k <> k' -> table_of k (l ++ [(k', b, c)]) = table_of k l.
Proof.
  intros H. unfold table_of. rewrite filter_app, map_app. cbn [filter fst snd].
  destruct (Z.eqb_spec k' k); [congruence|]. cbn. now rewrite app_nil_r.
Qed.
Lemma table_none l k : ~ In k (firsts l) -> table_of k l = [].
Proof.
  intros H. unfold table_of. 
  induction l as [|t l IH]; auto. cbn [filter]. cbn [firsts map In] in H. destruct (Z.eqb_spec (fst (fst t)) k); [tauto|]. apply IH. tauto.
Qed.

Lemma table_In k l a b : In (a, b) (table_of k l) <-> In (k, a, b) l.
Proof.
  unfold table_of. rewrite in_map_iff. split.
  - intros ([[x y] z] & [= <- <-] & H). apply filter_In in H. destruct H as [H E]. apply Z.eqb_eq in E. cbn in E. now subst.
  - intros H. exists (k, a, b). split; auto. apply filter_In. split; auto. apply Z.eqb_refl.
Qed.

Lemma table_sorted k l : StronglySorted tlt l -> StronglySorted plt (table_of k l).
Proof.
  unfold table_of. induction 1 as [|[[a b] c] l H IH HF]; [constructor|]. cbn [filter fst]. destruct (Z.eqb_spec a k) as [-> |]; auto.
  cbn [map fst snd]. constructor; auto. apply Forall_forall. intros [x y] Hx. apply in_map_iff in Hx.
  destruct Hx as ([[k' x'] y'] & [= <- <-] & Hx). apply filter_In in Hx. destruct Hx as [Hx E]. apply Z.eqb_eq in E. cbn in E. subst k'.
  rewrite Forall_forall in HF. specialize (HF _ Hx). unfold tlt in HF. unfold plt. cbn [fst snd]. lia.
Qed.

(** ** One table *)

Definition TH := THRESHOLD_KEEP_MEMORY.
Definition sigof (g : cfg) (l : list (Z * Z)) : Z := snd (ins_choose g (firstn (Z.to_nat TH) l)).
Definition stored (g : cfg) (l : list (Z * Z)) : bool := negb (skippable g && (zlen l <? g_skip g)).

Record Open (g : cfg) (ts0 : ts) (tree0 : list entry) (k : Z) (l : list (Z * Z)) (s : ins_st) : Prop := {
  o_t1 : x_t1 s = k; o_n : x_n s = zlen l; o_tree : x_tree s = tree0;
  o_small : zlen l <= TH -> x_buf s = l /\ x_ts s = ts0;
  o_big : TH < zlen l -> stored g l = true /\ exists h t mk, getBinaryTableInserter (sigof g l) = Some h /\
    ts_start (g_maxsize g) (g_maxmarks g) k (sigof g l) ts0 = Some (t, mk) /\
    x_ts s = t /\ x_file s = t_last t /\ x_start s = to_int32 mk /\ x_strat s = sigof g l /\
    x_handler s = h /\ x_out s = l /\ x_skip s = false
}.

Ltac pos_cases g s t2 := unfold ins_pos; destruct (g_usePos g); [destruct (t2 =? x_last s)|].

Lemma pos_core g t2 t3 s : let s' := ins_pos g t2 t3 s in
  x_t1 s' = x_t1 s /\ x_n s' = x_n s /\ x_buf s' = x_buf s /\ x_out s' = x_out s /\ x_handler s' = x_handler s /\
  x_file s' = x_file s /\ x_start s' = x_start s /\ x_strat s' = x_strat s /\ x_only s' = x_only s /\ x_skip s' = x_skip s /\
  x_ts s' = x_ts s /\ x_tree s' = x_tree s /\ x_ntables s' = x_ntables s /\ x_nfirst s' = x_nfirst s /\ x_t2 s' = x_t2 s.
Proof. cbv zeta. pos_cases g s t2; cbn; auto 20. Qed.

Lemma app_core g t2 t3 s : g_agg g = false -> let s' := ins_append g t2 t3 (ins_pos g t2 t3 s) in
  x_t1 s' = x_t1 s /\ x_n s' = x_n s /\ x_buf s' = x_buf s /\ x_out s' = x_out s ++ [(t2, t3)] /\ x_handler s' = x_handler s /\
  x_file s' = x_file s /\ x_start s' = x_start s /\ x_strat s' = x_strat s /\ x_only s' = x_only s /\ x_skip s' = x_skip s /\
  x_ts s' = x_ts s /\ x_tree s' = x_tree s /\ x_ntables s' = x_ntables s /\ x_nfirst s' = x_nfirst s /\ x_t2 s' = x_t2 s.
Proof.
  intros Ha. cbv zeta. unfold ins_append, agg_pair. rewrite Ha. pose proof (pos_core g t2 t3 s) as H. cbv zeta in H.
  cbn. intuition congruence.
Qed.

Lemma fold_core g l : g_agg g = false -> forall s,
  let s' := fold_left (fun st p => ins_append g (fst p) (snd p) (ins_pos g (fst p) (snd p) st)) l s in
  x_t1 s' = x_t1 s /\ x_n s' = x_n s /\ x_buf s' = x_buf s /\ x_out s' = x_out s ++ l /\ x_handler s' = x_handler s /\
  x_file s' = x_file s /\ x_start s' = x_start s /\ x_strat s' = x_strat s /\ x_only s' = x_only s /\ x_skip s' = x_skip s /\
  x_ts s' = x_ts s /\ x_tree s' = x_tree s /\ x_ntables s' = x_ntables s /\ x_nfirst s' = x_nfirst s /\ x_t2 s' = x_t2 s.
Proof.
  intros Ha. induction l as [|[a b] l IH]; intros s; cbn [fold_left].
  - rewrite app_nil_r. auto 20.
  - specialize (IH (ins_append g a b (ins_pos g a b s))). cbn [fst snd] in *. cbv zeta in *.
    pose proof (app_core g a b s Ha) as H. cbv zeta in H. destruct H as (H1&H2&H3&H4&H5&H6&H7&H8&H9&H10&H11&H12&H13&H14&H15).
    rewrite H1, H2, H3, H4, H5, H6, H7, H8, H9, H10, H11, H12, H13, H14, H15, <- app_assoc in IH. exact IH.
Qed.

Lemma store_step g s : g_agg g = false -> 
  if skippable g && (zlen (x_buf s) <? g_skip g)
  then exists s', ins_store g s = Some s' /\ x_t1 s' = x_t1 s /\ x_n s' = x_n s /\ x_buf s' = x_buf s /\
         x_skip s' = true /\ x_ts s' = x_ts s /\ x_tree s' = x_tree s
  else forall h, getBinaryTableInserter (snd (ins_choose g (x_buf s))) = Some h ->
    match ts_start (g_maxsize g) (g_maxmarks g) (x_t1 s) (snd (ins_choose g (x_buf s))) (x_ts s) with
    | None => ins_store g s = None
    | Some (t, mk) => exists s', ins_store g s = Some s' /\ x_t1 s' = x_t1 s /\ x_n s' = x_n s /\ x_buf s' = x_buf s /\
         x_skip s' = false /\ x_ts s' = t /\ x_tree s' = x_tree s /\ x_file s' = t_last t /\ x_start s' = to_int32 mk /\
         x_strat s' = snd (ins_choose g (x_buf s)) /\ x_handler s' = h /\ x_out s' = x_buf s
    end.
Proof.
  intros Ha. unfold ins_store. destruct (skippable g && (zlen (x_buf s) <? g_skip g)).
  - eexists. split; [reflexivity|]. cbn. auto 10.
  - intros h. destruct (ins_choose g (x_buf s)) as [only sig]. cbn [snd]. intros ->.
    destruct (ts_start (g_maxsize g) (g_maxmarks g) (x_t1 s) sig (x_ts s)) as [[t mk]|]; auto.
    eexists. split; [reflexivity|].
    match goal with |- context [fold_left ?f ?l ?s1] => pose proof (fold_core g l Ha s1) as H end. cbv zeta in H.
    cbn [x_t1 x_n x_buf x_out x_handler x_file x_start x_strat x_only x_skip x_ts x_tree x_ntables x_nfirst x_t2 app] in H.
    intuition congruence.
Qed.

Lemma firstn_le {A} n (l : list A) : zlen l <= n -> firstn (Z.to_nat n) l = l.
Proof. intros H. apply firstn_all2. unfold zlen in H. lia. Qed.
Lemma firstn_snoc_big {A} n (l : list A) x : n <= zlen l -> firstn (Z.to_nat n) (l ++ [x]) = firstn (Z.to_nat n) l.
Proof.
  intros H. rewrite firstn_app. replace (Z.to_nat n - length l)%nat with 0%nat by (unfold zlen in H; lia). cbn. now rewrite app_nil_r.
Qed.

Lemma zlen_snoc {A} (l : list A) x : zlen (l ++ [x]) = zlen l + 1.
Proof. rewrite zlen_app. reflexivity. Qed.

Definition has_writer (g : cfg) (l : list (Z * Z)) : Prop :=
  exists r h, getBinaryTable (sigof g l) = Some r /\ getBinaryTableInserter (sigof g l) = Some h /\
    reader_fits r l /\ (forall th, ins_write th h l = Some (reader_write th r l)) /\ -128 <= sigof g l < 128.

Lemma insert_same g ts0 tree0 G k l s t2 t3 c : g_agg g = false -> g_skip g <= TH -> 0 <= g_maxsize g ->
  ts_inv ts0 G -> (forall f, zlen (G f) < 2 ^ 62) -> has_writer g (l ++ [(t2, t3)]) -> Open g ts0 tree0 k l s ->
  match ins_insert g k t2 t3 c s with
  | None => S (t_last ts0) = MAX_N_FILES
  | Some s' => Open g ts0 tree0 k (l ++ [(t2, t3)]) s'
  end.
Proof.
  intros Ha Hsk Hmax HI HG (r & h & Er & Eh & _ & _) [O1 O2 O3 O4 O5]. assert (HTH : 0 <= TH) by (unfold TH, THRESHOLD_KEEP_MEMORY; lia).
  unfold ins_insert. rewrite O1, Z.eqb_refl. cbv beta iota.
  set (s1 := if t2 =? x_t2 s then s else _).
  assert (E1 : x_t1 s1 = k /\ x_n s1 = zlen l /\ x_buf s1 = x_buf s /\ x_tree s1 = tree0 /\ x_ts s1 = x_ts s /\ x_file s1 = x_file s /\
    x_start s1 = x_start s /\ x_strat s1 = x_strat s /\ x_handler s1 = x_handler s /\ x_out s1 = x_out s /\ x_skip s1 = x_skip s).
  { unfold s1. destruct (t2 =? x_t2 s); cbn; auto 20. }
  clearbody s1. destruct E1 as (F1 & F2 & F3 & F4 & F5 & F6 & F7 & F8 & F9 & F10 & F11). rewrite F2. fold TH.
  destruct (Z.ltb_spec (zlen l) TH) as [Hlt|Hge].
  - destruct (O4 ltac:(lia)) as [B1 B2]. split; cbn; rewrite ?zlen_snoc; try congruence; try lia.
    + intros _. split; congruence.
    + unfold TH, THRESHOLD_KEEP_MEMORY in Hlt. lia.
  - set (s2 := mkIns _ _ _ _ _ _ _ _ _ _ _ _ _ _ _ _ _ _ _ _ _).
    assert (Hstored : stored g (l ++ [(t2, t3)]) = true).
    { unfold stored. rewrite zlen_snoc. destruct (Z.ltb_spec (zlen l + 1) (g_skip g)); [lia|]. now rewrite andb_false_r. }
    destruct (Z.eqb_spec (zlen l) TH) as [Heq|Hne].
    + destruct (O4 ltac:(lia)) as [B1 B2].
      assert (E2 : x_buf s2 = l) by (cbn; congruence). assert (E2t : x_t1 s2 = k) by (cbn; auto).
      assert (E2s : x_ts s2 = ts0) by (cbn; congruence). assert (E2r : x_tree s2 = tree0) by (cbn; auto).
      assert (E2n : x_n s2 = zlen l + 1) by (cbn; auto). clearbody s2.
      pose proof (store_step g s2 Ha) as HS. rewrite E2, E2t, E2s in HS.
      destruct (Z.ltb_spec (zlen l) (g_skip g)) as [|_]; [lia|]. rewrite andb_false_r in HS.
      unfold sigof in Er, Eh. rewrite firstn_snoc_big, firstn_le in Er, Eh by lia. specialize (HS h Eh).
      pose proof (ts_table (g_maxsize g) (g_maxmarks g) k (snd (ins_choose g l)) ts0 G Hmax HI HG) as HT.
      destruct (ts_start (g_maxsize g) (g_maxmarks g) k (snd (ins_choose g l)) ts0) as [[t mk]|] eqn:Es.
      * destruct HS as (s3 & -> & S1 & S2 & S3 & S4 & S5 & S6 & S7 & S8 & S9 & S10 & S11). rewrite S4.
        pose proof (app_core g t2 t3 s3 Ha) as H. cbv zeta in H. destruct H as (H1&H2&H3&H4&H5&H6&H7&H8&H9&H10&H11&H12&_).
        split; try congruence.
        -- rewrite H2, S2, E2n, zlen_snoc. reflexivity.
        -- rewrite zlen_snoc. lia.
        -- intros _. split; auto. exists h, t, mk. unfold sigof. rewrite firstn_snoc_big, firstn_le by lia.
           repeat (split; [congruence|]). congruence.
      * rewrite HS. exact HT.
    + destruct (O5 ltac:(lia)) as (_ & h' & t & mk & C1 & C2 & C3 & C4 & C5 & C6 & C7 & C8 & C9).
      assert (E2s : x_skip s2 = false) by (cbn; congruence). rewrite E2s.
      pose proof (app_core g t2 t3 s2 Ha) as H. cbv zeta in H. destruct H as (H1&H2&H3&H4&H5&H6&H7&H8&H9&H10&H11&H12&_).
      subst s2. cbn [x_t1 x_n x_buf x_out x_handler x_file x_start x_strat x_only x_skip x_ts x_tree] in *.
      split; try congruence.
      * rewrite H2, zlen_snoc. reflexivity.
      * rewrite zlen_snoc. lia.
      * intros _. split; auto. unfold sigof in *. rewrite firstn_snoc_big by lia. exists h', t, mk.
        repeat (split; [congruence|]). congruence.
Qed.

(** The state after a table: [G] is extended if the table is stored. *)
Definition closes (g : cfg) (ts0 : ts) (tree0 : list entry) (G : nat -> list table_t) (k : Z) (l : list (Z * Z)) (s : ins_st) : Prop :=
  if stored g l then
    exists r fl, fl = t_last (x_ts s) /\ (t_last ts0 <= fl <= S (t_last ts0))%nat /\ (fl = t_last ts0 \/ t_file ts0 (t_last ts0) <> []) /\ -128 <= sigof g l < 128 /\ getBinaryTable (sigof g l) = Some r /\ reader_fits r l /\
      ts_inv (x_ts s) (upd G fl (G fl ++ [(k, sigof g l, reader_write (g_colth g) r l)])) /\
      x_tree s = tree0 ++ [mkEntry k (zlen l) fl (to_int32 (zlen (G fl))) (sigof g l)]
  else x_ts s = ts0 /\ x_tree s = tree0.

Lemma start_last max mm k sg t t1 mk : 0 <= max -> ts_start max mm k sg t = Some (t1, mk) ->
  t_last t1 = t_last t \/ t_file t (t_last t) <> [].
Proof.
  intros Hm E. unfold ts_start in E. destruct (max <? zlen (t_file t (t_last t))) eqn:El.
  - right. intros E0. rewrite E0 in El. unfold zlen in El. cbn in El. lia.
  - left. destruct (Nat.leb (length (t_marks t)) (t_last t)); (destruct (nth_error _ (t_last t)) as [ms|]; [|discriminate]);
    match type of E with match ?x with _ => _ end = _ => destruct x as [t3|]; [|discriminate] end;
    (destruct (nth_error (t_marks t3) _); [|discriminate]); (destruct (nth_error (t_created t3) _); [|discriminate]); now injection E as <- _.
Qed.

Lemma write_entry_ok g ts0 tree0 G k l s : g_agg g = false -> 0 <= g_maxsize g ->
  ts_inv ts0 G -> (forall f, zlen (G f) < 2 ^ 62) -> has_writer g l -> Open g ts0 tree0 k l s ->
  match ins_write_entry g s with
  | None => S (t_last ts0) = MAX_N_FILES
  | Some s' => x_t1 s' = k /\ closes g ts0 tree0 G k l s'
  end.
Proof.
  intros Ha Hmax HI HG (r & h & Er & Eh & Hf & Hw & Hsig) [O1 O2 O3 O4 O5]. unfold ins_write_entry, closes.
  pose proof (ts_table (g_maxsize g) (g_maxmarks g) k (sigof g l) ts0 G Hmax HI HG) as HT. rewrite O2, Ha. fold TH.
  assert (Hcommon : forall s3 t mk, x_t1 s3 = k -> x_n s3 = zlen l -> x_tree s3 = tree0 -> x_skip s3 = false -> x_ts s3 = t ->
    x_file s3 = t_last t -> x_start s3 = to_int32 mk -> x_strat s3 = sigof g l -> x_handler s3 = h -> x_out s3 = l ->
    ts_start (g_maxsize g) (g_maxmarks g) k (sigof g l) ts0 = Some (t, mk) -> stored g l = true ->
    match (if x_skip s3 then Some s3 else
       let pos := if (g_usePos g && negb (x_last s3 =? -1))%bool
               then x_pos s3 ++ [(x_last s3, x_t1 s3, x_coord s3, x_cntLast s3)] else x_pos s3 in
       do bs <- ins_write (g_colth g) (x_handler s3) (x_out s3);
       do t <- ts_stop (zlen bs) (ts_write bs (x_ts s3));
       Some (mkIns (x_t1 s3) (x_t2 s3) (x_n s3) (x_buf s3) (x_out s3) (x_handler s3) (x_file s3) (x_start s3)
            (x_strat s3) (x_only s3) (x_skip s3) (x_last s3) (x_cntLast s3) (x_coord s3) (x_posEls s3)
            (x_ntables s3) (x_nfirst s3) (x_skipped s3) t
            (x_tree s3 ++ [mkEntry (x_t1 s3) (x_n s3) (x_file s3) (x_start s3) (x_strat s3)]) pos))
    with None => S (t_last ts0) = MAX_N_FILES
    | Some s' => x_t1 s' = k /\ if stored g l then
    exists r fl, fl = t_last (x_ts s') /\ (t_last ts0 <= fl <= S (t_last ts0))%nat /\ (fl = t_last ts0 \/ t_file ts0 (t_last ts0) <> []) /\ -128 <= sigof g l < 128 /\ getBinaryTable (sigof g l) = Some r /\ reader_fits r l /\
      ts_inv (x_ts s') (upd G fl (G fl ++ [(k, sigof g l, reader_write (g_colth g) r l)])) /\
      x_tree s' = tree0 ++ [mkEntry k (zlen l) fl (to_int32 (zlen (G fl))) (sigof g l)]
      else x_ts s' = ts0 /\ x_tree s' = tree0 end).
  { intros s3 t mk E1 E2 E3 E4 E5 E6 E7 E8 E9 E10 Es Est. rewrite E4, E9, E10, Hw, E5. rewrite Es in HT.
    destruct HT as (Hl & Hmk & HT). destruct (HT (reader_write (g_colth g) r l)) as (t2 & E & El & HI2). cbv zeta. rewrite E.
    cbn [x_t1 x_ts x_tree]. split; auto. rewrite Est. exists r, (t_last t). split; [auto|]. split; [lia|]. split; [now apply (start_last (g_maxsize g) (g_maxmarks g) k (sigof g l) ts0 t mk)|]. split; auto. split; auto. split; auto. split; auto.
    congruence. }
  destruct (Z.leb_spec (zlen l) TH) as [Hle|Hgt].
  - destruct (O4 Hle) as [B1 B2]. pose proof (store_step g s Ha) as HS. rewrite B1, O1, B2 in HS.
    assert (Esig : snd (ins_choose g l) = sigof g l) by (unfold sigof; now rewrite firstn_le by lia). rewrite Esig in HS.
    unfold stored in *. destruct (skippable g && (zlen l <? g_skip g)) eqn:Esk.
    + destruct HS as (s' & -> & S1 & S2 & S3 & S4 & S5 & S6). rewrite S4. cbn [negb]. split; auto. split; auto. congruence.
    + specialize (HS h Eh). destruct (ts_start (g_maxsize g) (g_maxmarks g) k (sigof g l) ts0) as [[t mk]|] eqn:Es.
      * destruct HS as (s3 & -> & S1 & S2 & S3 & S4 & S5 & S6 & S7 & S8 & S9 & S10 & S11).
        apply (Hcommon s3 t mk); auto; congruence.
      * rewrite HS. exact HT.
  - destruct (O5 ltac:(lia)) as (Est & h' & t & mk & C1 & C2 & C3 & C4 & C5 & C6 & C7 & C8 & C9).
    apply (Hcommon s t mk); auto. congruence.
Qed.

Lemma insert_new g k t2 t3 c s s0 : (if x_t1 s =? -1 then Some s else ins_write_entry g s) = Some s0 -> k <> x_t1 s ->
  exists s', ins_insert g k t2 t3 c s = Some s' /\ Open g (x_ts s0) (x_tree s0) k [(t2, t3)] s'.
Proof.
  intros E Hk. unfold ins_insert. destruct (Z.eqb_spec k (x_t1 s)); [congruence|]. rewrite E.
  destruct (if g_usePos g then (-1, 0, 0) else (x_last s0, x_cntLast s0, x_coord s0)) as [[last cnt] coord].
  cbn [x_n x_t1 x_t2 x_buf x_out x_handler x_file x_start x_strat x_only x_skip x_last x_cntLast x_coord x_posEls x_ntables x_nfirst x_skipped x_ts x_tree x_pos].
  fold TH. destruct (Z.ltb_spec 0 TH) as [_|H]; [|unfold TH, THRESHOLD_KEEP_MEMORY in H; lia].
  eexists. split; [reflexivity|]. split; cbn; auto. intros H. unfold zlen, TH, THRESHOLD_KEEP_MEMORY in H. cbn in H. lia.
Qed.

(** ** All tables *)

Definition entry_ok (g : cfg) (P : list triple) (G : nat -> list table_t) (e : entry) : Prop :=
  exists r i, getBinaryTable (e_strat e) = Some r /\ reader_fits r (table_of (e_key e) P) /\
    nth_error (G (e_file e)) i = Some (e_key e, e_strat e, reader_write (g_colth g) r (table_of (e_key e) P)) /\
    e_pos e = to_int32 (Z.of_nat i) /\ e_n e = zlen (table_of (e_key e) P) /\ e_strat e = sigof g (table_of (e_key e) P).

(** The marks of the files, in order, are those of the entries. *)
Fixpoint entries_of (f i : nat) (l : list table_t) : list (Z * nat * Z * Z) :=
  match l with [] => [] | (k, s, _) :: r => (k, f, to_int32 (Z.of_nat i), s) :: entries_of f (S i) r end.
Definition coord_of (e : entry) : Z * nat * Z * Z := (e_key e, e_file e, e_pos e, e_strat e).
Definition listed (t : ts) (G : nat -> list table_t) (tree : list entry) : Prop :=
  map coord_of tree = flat_map (fun f => entries_of f 0 (G f)) (seq 0 (S (t_last t))) /\
  Forall (fun e => -128 <= e_strat e < 128) tree /\
  (tree <> [] -> forall f, (f <= t_last t)%nat -> G f <> []).

Lemma entries_of_snoc f l k s b : forall i, entries_of f i (l ++ [(k, s, b)]) = entries_of f i l ++ [(k, f, to_int32 (Z.of_nat (i + length l)), s)].
Proof.
  induction l as [|[[k' s'] b'] l IH]; intros i; cbn [app entries_of length].
  - now rewrite Nat.add_0_r.
  - rewrite IH. now rewrite Nat.add_succ_r.
Qed.

Lemma listed_snoc t t' G tree e k s b : listed t G tree -> ts_inv t G -> (t_last t <= t_last t' <= S (t_last t))%nat ->
  (t_last t' = 0%nat \/ tree <> []) ->
  coord_of e = (k, t_last t', to_int32 (zlen (G (t_last t'))), s) -> -128 <= s < 128 ->
  listed t' (upd G (t_last t') (G (t_last t') ++ [(k, s, b)])) (tree ++ [e]).
Proof.
  intros (H1 & H2 & H3) HI Hl H0 He Hs. split; [|split].
  - rewrite map_app. cbn [map]. rewrite He, H1. set (F := t_last t') in *.
    assert (Hold : forall n, (n <= F)%nat -> flat_map (fun f => entries_of f 0 (upd G F (G F ++ [(k, s, b)]) f)) (seq 0 n) = flat_map (fun f => entries_of f 0 (G f)) (seq 0 n)).
    { intros n Hn. rewrite !flat_map_concat_map. f_equal. apply map_ext_in. intros a Ha. apply in_seq in Ha. rewrite upd_other by lia. reflexivity. }
    rewrite (seq_S F), flat_map_app, Hold by lia. cbn [Nat.add flat_map]. rewrite upd_same, app_nil_r, entries_of_snoc.
    rewrite app_assoc. f_equal.
    destruct (Nat.eq_dec F (t_last t)) as [E|E].
    + rewrite <- E. rewrite (seq_S F), flat_map_app. cbn [Nat.add flat_map]. now rewrite app_nil_r.
    + assert (EF : F = S (t_last t)) by lia. rewrite EF, (ti_above _ _ HI (S (t_last t))) by lia. cbn [entries_of]. now rewrite app_nil_r.
  - apply Forall_app. split; auto. constructor; auto. injection He as _ _ _ ->. exact Hs.
  - intros _ f Hf. destruct (Nat.eq_dec f (t_last t')) as [-> |Hne].
    + rewrite upd_same. intros E. apply app_eq_nil in E. destruct E. discriminate.
    + rewrite upd_other by auto. destruct H0 as [H0|H0]; [lia|]. apply H3; auto. lia.
Qed.

Definition Closed (g : cfg) (P : list triple) (K : list Z) (t : ts) (tree : list entry) : Prop :=
  exists G, ts_inv t G /\ (forall f, zlen (G f) <= zlen tree) /\ (t_last t <= length tree)%nat /\
    map e_key tree = filter (fun k => stored g (table_of k P)) K /\ Forall (entry_ok g P G) tree /\ listed t G tree.

Lemma filter_length_le {A} (p : A -> bool) l : (length (filter p l) <= length l)%nat.
Proof. induction l as [|a l IH]; cbn; auto. destruct (p a); cbn; lia. Qed.

Lemma Closed_tree g P K t tree : Closed g P K t tree -> (length tree <= length K)%nat.
Proof.
  intros (G & _ & _ & _ & E & _ & _). rewrite <- (map_length e_key tree), E. apply filter_length_le.
Qed.

Lemma Closed_other g P K t tree k b c : ~ In k K -> Closed g P K t tree -> Closed g (P ++ [(k, b, c)]) K t tree.
Proof.
  intros Hk (G & H1 & H2 & H3 & H4 & H5 & H6). exists G. split; auto. split; auto. split; auto. split; [|split; auto].
  - rewrite H4. apply filter_ext_in. intros x Hx. rewrite table_snoc_other; auto. intros ->. auto.
  - rewrite Forall_forall in *. intros e He. destruct (H5 e He) as (r & i & E). exists r, i.
    rewrite !table_snoc_other; auto. intros E0. apply Hk. rewrite <- E0.
    assert (Hin : In (e_key e) (map e_key tree)) by now apply in_map. rewrite H4 in Hin. apply filter_In in Hin. tauto.
Qed.

Lemma Closed_close g P K ts0 tree0 k s : Closed g P K ts0 tree0 ->
  (forall G, ts_inv ts0 G -> (forall f, zlen (G f) <= zlen tree0) -> closes g ts0 tree0 G k (table_of k P) s) ->
  Closed g P (K ++ [k]) (x_ts s) (x_tree s).
Proof.
  intros (G & H1 & H2 & H3 & H4 & H5 & H6) Hc. specialize (Hc G H1 H2). unfold closes in Hc. unfold Closed.
  rewrite filter_app. cbn [filter]. destruct (stored g (table_of k P)) eqn:Est.
  - destruct Hc as (r & fl & Efl & Hl & H0 & Hsg & Er & Hf & HI & Et). eexists. split; [exact HI|]. rewrite Et. split; [|split; [|split; [|split]]].
    + intros f. rewrite zlen_snoc. destruct (Nat.eq_dec f fl) as [-> |Hne].
      * rewrite upd_same, zlen_snoc. specialize (H2 fl). lia.
      * rewrite upd_other by auto. specialize (H2 f). lia.
    + rewrite app_length. cbn. lia.
    + rewrite map_app, H4. reflexivity.
    + apply Forall_app. split.
      * eapply Forall_impl; [|exact H5]. intros e (r' & i & E1 & E2 & E3 & E4 & E5). exists r', i. split; auto. split; auto. split; [|auto].
        destruct (Nat.eq_dec (e_file e) fl) as [Hfl|Hfl].
        -- rewrite Hfl in *. rewrite upd_same. rewrite nth_error_app1; auto. apply nth_error_Some. congruence.
        -- now rewrite upd_other.
      * constructor; [|constructor]. cbn [e_key e_strat e_file e_pos e_n]. exists r, (length (G fl)). cbn [e_key e_strat e_file e_pos e_n].
        split; auto. split; auto. split; [|auto]. rewrite upd_same, nth_error_app2, Nat.sub_diag by lia. reflexivity.
    + rewrite Efl in *. apply (listed_snoc ts0); auto. destruct tree0; [left|right; discriminate]. cbn in H3.
      destruct H0 as [H0|H0]; [rewrite H0; lia|]. exfalso. apply H0. rewrite (ti_file _ _ H1). specialize (H2 (t_last ts0)).
      destruct (G (t_last ts0)); [reflexivity|]. unfold zlen in H2. cbn in H2. lia.
  - destruct Hc as [Et Er]. rewrite Et, Er, app_nil_r. exists G. auto 7.
Qed.

Fixpoint ins_run (g : cfg) (q : list quad) (s : ins_st) : option ins_st :=
  match q with
  | [] => Some s
  | (t1, t2, t3, c) :: r => do s1 <- ins_insert g t1 t2 t3 c s; ins_run g r s1
  end.

Lemma ins_run_snoc g q t1 t2 t3 c : forall s,
  ins_run g (q ++ [(t1, t2, t3, c)]) s = do s1 <- ins_run g q s; ins_insert g t1 t2 t3 c s1.
Proof.
  induction q as [|[[[a b] d] e] q IH]; intros s; cbn [app ins_run].
  - destruct (ins_insert g t1 t2 t3 c s); reflexivity.
  - destruct (ins_insert g a b d e s); auto.
Qed.

Lemma tlt_firsts P k b c : StronglySorted tlt (P ++ [(k, b, c)]) -> forall x, In x (firsts P) -> x <= k.
Proof.
  intros H x Hx. apply in_map_iff in Hx. destruct Hx as ([[a b'] c'] & <- & Ht). cbn.
  induction P as [|y P IH]; [destruct Ht|]. cbn [app] in H. apply StronglySorted_inv in H. destruct H as [H1 H2].
  destruct Ht as [-> |Ht]; auto. rewrite Forall_forall in H2. assert (Hin : In (k, b, c) (P ++ [(k, b, c)])) by (apply in_or_app; cbn; auto).
  specialize (H2 _ Hin). cbn in H2. lia.
Qed.

Lemma ss_prefix {A} (R : A -> A -> Prop) l1 l2 : StronglySorted R (l1 ++ l2) -> StronglySorted R l1.
Proof.
  induction l1 as [|a l1 IH]; intros H; [constructor|]. cbn in H. apply StronglySorted_inv in H. destruct H as [H1 H2].
  constructor; auto. rewrite Forall_app in H2. tauto.
Qed.

Lemma keys_mono P t : (length (keys P) <= length (keys (P ++ [t])))%nat.
Proof.
  apply NoDup_incl_length; [apply NoDup_nodup|]. intros x Hx. unfold keys in *. rewrite nodup_In in *. rewrite map_app. apply in_or_app. auto.
Qed.

Definition State (g : cfg) (P : list triple) (s : ins_st) : Prop :=
  match rev P with
  | [] => x_t1 s = -1 /\ x_ts s = ts_new /\ x_tree s = []
  | (k, _, _) :: _ => 0 <= k /\ exists ts0 tree0, Closed g P (closed k P) ts0 tree0 /\ Open g ts0 tree0 k (table_of k P) s
  end.

Lemma closed_not_in k P : ~ In k (closed k P).
Proof. unfold closed. rewrite nodup_In. intros H. apply filter_In in H. destruct H as [_ H]. rewrite Z.eqb_refl in H. discriminate. Qed.

Lemma State_close g P s : g_agg g = false -> 0 <= g_maxsize g ->
  (forall k, In k (firsts P) -> has_writer g (table_of k P)) -> zlen (keys P) < 2 ^ 31 -> State g P s ->
  match (if x_t1 s =? -1 then Some s else ins_write_entry g s) with
  | None => (MAX_N_FILES <= length (keys P))%nat
  | Some s' => Closed g P (keys P) (x_ts s') (x_tree s')
  end.
Proof.
  intros Ha Hmax Hw Hn HS. unfold State in HS. destruct (rev P) as [|[[k b] c] R] eqn:ER.
  - assert (P = []) by (rewrite <- (rev_involutive P), ER; reflexivity). subst P. destruct HS as (-> & Et & Er).
    change (-1 =? -1) with true. cbv iota. rewrite Et, Er. exists (fun _ => []). split; [apply ts_new_inv|].
    split; [intros f; unfold zlen; cbn; lia|]. split; [cbn; lia|]. split; [reflexivity|]. split; [constructor|]. split; [reflexivity|]. split; [constructor|congruence].
  - assert (EP : P = rev R ++ [(k, b, c)]) by (rewrite <- (rev_involutive P), ER; reflexivity).
    destruct HS as (Hk & ts0 & tree0 & HC & HO). rewrite (o_t1 _ _ _ _ _ _ HO). destruct (Z.eqb_spec k (-1)); [lia|].
    assert (Ek : keys P = closed k P ++ [k]) by (rewrite EP, keys_snoc, closed_same; reflexivity).
    assert (Hwk : has_writer g (table_of k P)).
    { apply Hw. rewrite EP. unfold firsts. rewrite map_app. apply in_or_app. cbn. auto. }
    assert (HL : forall G : nat -> list table_t, (forall f, zlen (G f) <= zlen tree0) -> forall f, zlen (G f : list table_t) < 2 ^ 62).
    { intros G HG f. specialize (HG f). pose proof (Closed_tree _ _ _ _ _ HC). rewrite Ek, zlen_snoc in Hn. unfold zlen in *. lia. }
    destruct (ins_write_entry g s) as [s'|] eqn:E.
    + rewrite Ek. apply (Closed_close g P (closed k P) ts0 tree0 k s' HC). intros G HI HG.
      pose proof (write_entry_ok g ts0 tree0 G k (table_of k P) s Ha Hmax HI (HL G HG) Hwk HO) as H. rewrite E in H. tauto.
    + destruct HC as (G & HI & HG & Hlast & HC').
      pose proof (write_entry_ok g ts0 tree0 G k (table_of k P) s Ha Hmax HI (HL G HG) Hwk HO) as H. rewrite E in H.
      pose proof (Closed_tree g P (closed k P) ts0 tree0 (ex_intro _ G (conj HI (conj HG (conj Hlast HC'))))).
      rewrite Ek, app_length. cbn. lia.
Qed.

Lemma run_ok g q : g_agg g = false -> g_skip g <= TH -> 0 <= g_maxsize g ->
  let P := map fst q in
  StronglySorted tlt P -> (forall a b c, In (a, b, c) P -> 0 <= a) ->
  (forall k l1 l2, In k (firsts P) -> table_of k P = l1 ++ l2 -> l1 <> [] -> has_writer g l1) ->
  zlen (keys P) < 2 ^ 31 ->
  match ins_run g q ins_new with
  | None => (MAX_N_FILES <= length (keys P))%nat
  | Some s => State g P s
  end.
Proof.
  intros Ha Hsk Hmax. cbv zeta. induction q as [|[[[k b] c] cnt] q IH] using rev_ind.
  - intros _ _ _ _. cbn. auto.
  - rewrite map_app. cbn [map fst]. set (P := map fst q) in *. intros Hs Hpos Hw Hn. rewrite ins_run_snoc.
    assert (Hmono := keys_mono P (k, b, c)).
    assert (HwP : forall k0 l1 l2, In k0 (firsts P) -> table_of k0 P = l1 ++ l2 -> l1 <> [] -> has_writer g l1).
    { intros k0 l1 l2 Hin E Hne. destruct (Z.eq_dec k0 k) as [-> |Hk0].
      - apply (Hw k l1 (l2 ++ [(b, c)])); auto.
        + unfold firsts. rewrite map_app. apply in_or_app. cbn. auto.
        + rewrite table_snoc_same, E. now rewrite app_assoc.
      - apply (Hw k0 l1 l2); auto.
        + unfold firsts. rewrite map_app. apply in_or_app. auto.
        + now rewrite table_snoc_other. }
    assert (Hpos' : forall a b c, In (a, b, c) P -> 0 <= a) by (intros; eapply Hpos; apply in_or_app; eauto).
    assert (Hk : 0 <= k) by (eapply (Hpos k b c); apply in_or_app; cbn; auto).
    specialize (IH (ss_prefix _ _ _ Hs) Hpos' HwP ltac:(unfold zlen in *; lia)).
    destruct (ins_run g q ins_new) as [s|]; [|lia].
    assert (Hnext : x_t1 s <> k -> (forall x, In x (firsts P) -> x <> k) ->
      match ins_insert g k b c cnt s with None => (MAX_N_FILES <= length (keys (P ++ [(k, b, c)])))%nat | Some s' => State g (P ++ [(k, b, c)]) s' end).
    { intros Hne Hnew. assert (Hni : ~ In k (firsts P)) by (intros H; now apply (Hnew k)).
      pose proof (State_close g P s Ha Hmax) as HSC.
      assert (Hw1 : forall k0, In k0 (firsts P) -> has_writer g (table_of k0 P)).
      { intros k0 Hk0. apply (HwP k0 (table_of k0 P) []); auto; [now rewrite app_nil_r|]. unfold firsts in Hk0. apply in_map_iff in Hk0.
        destruct Hk0 as ([[x y] z] & <- & Hin). cbn [fst]. intros E. apply table_In in Hin. rewrite E in Hin. destruct Hin. }
      specialize (HSC Hw1 ltac:(unfold zlen in *; lia) IH).
      destruct (if x_t1 s =? -1 then Some s else ins_write_entry g s) as [s0|] eqn:E0.
      - destruct (insert_new g k b c cnt s s0 E0 ltac:(congruence)) as (s' & -> & HO). unfold State. rewrite rev_app_distr. cbn [rev app].
        split; auto. exists (x_ts s0), (x_tree s0). rewrite closed_same, (closed_new _ _ Hni), table_snoc_same, (table_none _ _ Hni). split; auto.
        apply Closed_other; auto. unfold keys. rewrite nodup_In. exact Hni.
      - assert (E : ins_insert g k b c cnt s = None).
        { unfold ins_insert. destruct (Z.eqb_spec k (x_t1 s)); [congruence|]. now rewrite E0. }
        rewrite E. exact (Nat.le_trans _ _ _ HSC Hmono). }
    unfold State in IH. destruct (rev P) as [|[[k' b'] c'] R] eqn:ER.
    + destruct IH as (E1 & _). apply Hnext; [lia|]. assert (EP : P = []) by (rewrite <- (rev_involutive P), ER; reflexivity). rewrite EP. cbn. tauto.
    + destruct IH as (Hk' & ts0 & tree0 & HC & HO). assert (Et := o_t1 _ _ _ _ _ _ HO).
      assert (EP : P = rev R ++ [(k', b', c')]) by (rewrite <- (rev_involutive P), ER; reflexivity).
      assert (Hle : forall x, In x (firsts P) -> x <= k) by (eapply tlt_firsts; eauto).
      destruct (Z.eq_dec k k') as [<-|Hne].
      * assert (Hw1 : has_writer g (table_of k P ++ [(b, c)])).
        { apply (Hw k _ []).
          - unfold firsts. rewrite map_app. apply in_or_app. cbn. auto.
          - now rewrite table_snoc_same, app_nil_r.
          - destruct (table_of k P); discriminate. }
        assert (Hct := Closed_tree _ _ _ _ _ HC). rewrite keys_snoc in *. pose proof HC as HC1. destruct HC1 as (G & HI & HG & Hlast & _).
        pose proof (insert_same g ts0 tree0 G k (table_of k P) s b c cnt Ha Hsk Hmax HI) as H.
        assert (HG' : forall f, zlen (G f) < 2 ^ 62).
        { intros f. specialize (HG f). rewrite zlen_snoc in Hn. unfold zlen in *. lia. }
        specialize (H HG' Hw1 HO). destruct (ins_insert g k b c cnt s) as [s'|].
        -- unfold State. rewrite rev_app_distr. cbn [rev app]. split; auto. exists ts0, tree0. rewrite closed_same, table_snoc_same. split; auto.
           apply Closed_other; auto. apply closed_not_in.
        -- rewrite app_length. cbn. lia.
      * apply Hnext; [congruence|]. intros x Hx E. subst x.
        assert (Hk1 : k <= k'); [|assert (Hk2 := Hle k'); cbn in Hk2].
        { rewrite EP in Hx, Hs. eapply tlt_firsts; [|]. 2: { unfold firsts in *. rewrite map_app in Hx. apply in_app_or in Hx. destruct Hx as [Hx|Hx]; [exact Hx|]. cbn in Hx. destruct Hx as [Hx|[]]. congruence. }
          eapply ss_prefix. exact Hs. }
        assert (Hin : In k' (firsts P)) by (rewrite EP; unfold firsts; rewrite map_app; apply in_or_app; cbn; auto).
        specialize (Hle _ Hin). lia.
Qed.

Lemma run_ok' g q P : g_agg g = false -> g_skip g <= TH -> 0 <= g_maxsize g -> map fst q = P ->
  StronglySorted tlt P -> (forall a b c, In (a, b, c) P -> 0 <= a) ->
  (forall k l1 l2, In k (firsts P) -> table_of k P = l1 ++ l2 -> l1 <> [] -> has_writer g l1) ->
  zlen (keys P) < 2 ^ 31 ->
  match ins_run g q ins_new with
  | None => (MAX_N_FILES <= length (keys P))%nat
  | Some s => State g P s
  end.
Proof. intros H1 H2 H3 <-. now apply run_ok. Qed.

(** ** Repeated triples *)

Fixpoint dd (prev : triple) (l : list quad) : list quad :=
  match l with
  | [] => []
  | (t1, t2, t3, c) :: r =>
    let '(ps, pp, po) := prev in
    if ((t3 =? po) && (t2 =? pp) && (t1 =? ps))%bool then dd prev r else (t1, t2, t3, c) :: dd (t1, t2, t3) r
  end.

Lemma ld_insert_run g l : forall prev s, ld_insert g prev l s = ins_run g (dd prev l) s.
Proof.
  induction l as [|[[[a b] c] n] l IH]; intros [[ps pp] po] s; cbn [ld_insert dd ins_run]; auto.
  destruct ((c =? po) && (b =? pp) && (a =? ps)); auto. cbn [ins_run]. destruct (ins_insert g a b c n s); auto.
Qed.

Lemma tle_tlt x y : tle x y -> x <> y -> tlt x y.
Proof.
  destruct x as [[a b] c], y as [[a' b'] c']. cbn. intros H Hne.
  assert (~ (a = a' /\ b = b' /\ c = c')) by (intros (-> & -> & ->); congruence). lia.
Qed.
Lemma tlt_irrefl x : ~ tlt x x.
Proof. destruct x as [[a b] c]. cbn. lia. Qed.

Lemma distinct_in (x : triple) l : In x l -> distinct (x :: l) = distinct l.
Proof. intros H. unfold distinct. cbn [nodup]. destruct (in_dec triple_dec x l); tauto. Qed.
Lemma distinct_notin (x : triple) l : ~ In x l -> distinct (x :: l) = x :: distinct l.
Proof. intros H. unfold distinct. cbn [nodup]. destruct (in_dec triple_dec x l); tauto. Qed.

Lemma dd_spec l : forall p, StronglySorted tle (p :: map fst l) -> p :: map fst (dd p l) = distinct (p :: map fst l).
Proof.
  induction l as [|[[[a b] c] n] l IH]; intros p Hs.
  - destruct p as [[x y] z]. reflexivity.
  - destruct p as [[x y] z]. cbn [dd map fst]. destruct ((c =? z) && (b =? y) && (a =? x)) eqn:E.
    + assert (Ex : (a, b, c) = (x, y, z)).
      { rewrite !andb_true_iff, !Z.eqb_eq in E. destruct E as [[-> ->] ->]. reflexivity. }
      rewrite Ex. cbn [map fst] in Hs. rewrite Ex in Hs. rewrite distinct_in by (cbn; auto).
      apply IH. apply StronglySorted_inv in Hs. tauto.
    + assert (Hne : (x, y, z) <> (a, b, c)).
      { intros [= -> -> ->]. rewrite !Z.eqb_refl in E. discriminate. }
      cbn [map fst] in *. apply StronglySorted_inv in Hs. destruct Hs as [Hs HF].
      rewrite distinct_notin.
      * f_equal. apply (IH (a, b, c) Hs).
      * intros H. assert (Hlt : tlt (x, y, z) (a, b, c)) by (apply tle_tlt; [inversion HF; auto|auto]).
        assert (Hall : forall u, In u ((a, b, c) :: map fst l) -> tle (a, b, c) u).
        { intros u [<-|Hu]; [cbn; lia|]. apply StronglySorted_inv in Hs. destruct Hs as [_ HF']. rewrite Forall_forall in HF'. auto. }
        specialize (Hall _ H). cbn in Hall, Hlt. lia.
Qed.

Lemma nodup_sorted l : StronglySorted tle l -> StronglySorted tlt (distinct l).
Proof.
  intros H. assert (Hn : NoDup (distinct l)) by apply NoDup_nodup. unfold distinct in *.
  induction H as [|x l H IH HF]; [constructor|]. cbn [nodup] in *. destruct (in_dec triple_dec x l) as [Hi|Hi]; auto.
  inversion Hn; subst. constructor; auto. apply Forall_forall. intros y Hy. apply tle_tlt.
  - rewrite Forall_forall in HF. apply HF. now apply nodup_In in Hy.
  - intros ->. auto.
Qed.

Lemma dd_all l : StronglySorted tle (map fst l) -> (forall a b c, In (a, b, c) (map fst l) -> 0 <= a) ->
  map fst (dd (-1, -1, -1) l) = distinct (map fst l).
Proof.
  intros Hs Hp. destruct l as [|[[[a b] c] n] l]; [reflexivity|]. cbn [dd map fst] in *.
  assert (Ha : 0 <= a) by (apply (Hp a b c); cbn; auto).
  destruct (Z.eqb_spec a (-1)); [lia|]. rewrite andb_false_r. cbn [map fst]. now apply dd_spec.
Qed.

(** ** Strategies *)

Definition widths_fit (r : reader) (l : list (Z * Z)) : Prop :=
  match r with
  | RColumn => True
  | RRow w1 w2 => forall a b, In (a, b) l -> fits w1 a /\ fits w2 b
  | RCluster w1 w2 wc => (forall a b, In (a, b) l -> fits w1 a /\ fits w2 b) /\
                         (forall a n, In (a, n) (groups l) -> fits wc n)
  end.

Lemma reader_widths sig r : -128 <= sig < 128 -> getBinaryTable sig = Some r ->
  match r with RColumn => True | RRow w1 w2 => is_width w1 /\ is_width w2
  | RCluster w1 w2 wc => is_width w1 /\ is_width w2 /\ is_width wc end.
Proof.
  intros Hsig E. set (isw := fun w => existsb (Nat.eqb w) [1; 2; 4; 5; 8]%nat).
  set (f := fun z => match getBinaryTable z with
    | Some (RRow w1 w2) => isw w1 && isw w2 | Some (RCluster w1 w2 wc) => isw w1 && isw w2 && isw wc | _ => true end).
  assert (H : forallb (fun n => f (Z.of_nat n - 128)) (seq 0 256) = true) by (vm_compute; reflexivity).
  rewrite forallb_forall in H. specialize (H (Z.to_nat (sig + 128))).
  replace (Z.of_nat (Z.to_nat (sig + 128)) - 128) with sig in H by lia.
  assert (Hf : f sig = true) by (apply H, in_seq; lia). unfold f in Hf. rewrite E in Hf.
  assert (Hisw : forall w, isw w = true -> is_width w).
  { intros w Hw. unfold isw in Hw. apply existsb_exists in Hw. destruct Hw as (x & Hx & Ex). apply Nat.eqb_eq in Ex. subst x.
    unfold is_width. cbn in Hx. lia. }
  destruct r as [|w1 w2|w1 w2 wc]; auto; repeat (apply andb_prop in Hf; destruct Hf as [Hf ?]); auto.
Qed.

Lemma fits_le w a b : fits w b -> 0 <= a <= b -> fits w a.
Proof. unfold fits. lia. Qed.

Lemma widths_prefix r l1 l2 : widths_fit r (l1 ++ l2) -> widths_fit r l1.
Proof.
  destruct r as [|w1 w2|w1 w2 wc]; cbn [widths_fit]; auto.
  - intros H a b Hx. apply H, in_or_app. auto.
  - intros [H Hg]. split; [intros a b Hx; apply H, in_or_app; auto|]. intros a n Hx.
    unfold groups in Hx. apply in_map_iff in Hx. destruct Hx as (a' & [= <- <-] & Hx). apply nodup_In in Hx.
    eapply fits_le; [apply (Hg a'); unfold groups; apply in_map_iff; exists a'; split; [reflexivity|]|].
    + apply nodup_In. rewrite map_app. apply in_or_app. auto.
    + rewrite filter_app, app_length. lia.
Qed.

Lemma has_writer_fixed g f r l : g_fixed g = Some f -> -128 <= f < 128 -> getBinaryTable f = Some r -> widths_fit r l -> has_writer g l.
Proof.
  intros Ef Hf Er Hw. assert (Es : sigof g l = f) by (unfold sigof, ins_choose; now rewrite Ef). unfold has_writer. rewrite Es.
  destruct (C13_same_layout f r Hf Er) as (i & Ei & Hi). exists r, i. split; auto. split; auto. split; [|split; auto; intros th; apply Hi].
  pose proof (reader_widths f r Hf Er). destruct r as [|w1 w2|w1 w2 wc]; cbn [reader_fits widths_fit] in *; auto; unfold pairs_fit, counts_fit; tauto.
Qed.

Lemma to_char_range v : -128 <= to_char v < 128.
Proof. unfold to_char. pose proof (Z.mod_pos_bound (v + 128) 256). lia. Qed.
Lemma strategy_range l ncc ur : -128 <= determineStrategy l ncc ur < 128.
Proof.
  unfold determineStrategy. cbv zeta. repeat match goal with |- context [if ?b then _ else _] => destruct b end; apply to_char_range.
Qed.

Lemma has_writer_auto g l : g_agg g = false -> g_fixed g = None -> StronglySorted plt l -> below39 l -> has_writer g l.
Proof.
  intros Ha Ef Hs Hb. assert (Es : sigof g l = determineStrategy (firstn (Z.to_nat TH) l) (g_ncc g) (g_useRow g)).
  { unfold sigof, ins_choose. now rewrite Ef, Ha. }
  unfold has_writer. rewrite Es. destruct (strategy_ok _ l (g_ncc g) (g_useRow g) Hs Hb eq_refl) as (r & i & E1 & E2 & _ & E3 & E4).
  exists r, i. repeat (split; auto). all: apply strategy_range.
Qed.

Lemma reader_write_nonempty th r l : reader_fits r l -> StronglySorted plt l -> below39 l -> l <> [] -> reader_write th r l <> [].
Proof.
  intros Hf Hs Hb Hne. destruct r as [|w1 w2|w1 w2 wc]; cbn [reader_write reader_fits] in *.
  - unfold col_write, ci_stop. discriminate.
  - rewrite row_write_rows. destruct l as [|[a b] l]; [congruence|]. destruct Hf as (W1 & _). cbn [rows flat_map]. intros H.
    apply (f_equal (@length Z)) in H. rewrite !app_length, !enc_length in H. unfold is_width in W1. cbn in H. lia.
  - destruct Hf as (W1 & _). destruct (cl_write_spec w1 w2 wc l) as (G & E & EG & _).
    { intros [a b] Hx. destruct (Hb a b Hx). cbn. lia. }
    rewrite E. destruct G as [|[a vs] G]; [cbn in EG; congruence|]. cbn [clb flat_map]. intros H.
    apply (f_equal (@length Z)) in H. rewrite !app_length, !enc_length in H. unfold is_width in W1. cbn in H. lia.
Qed.

(** ** The whole permutation *)

Definition fixed_ok (g : cfg) (T : list triple) : Prop :=
  forall f, g_fixed g = Some f ->
    -128 <= f < 128 /\ exists r, getBinaryTable f = Some r /\ forall k, widths_fit r (table_of k T).

Lemma ss_app_l {A} (R : A -> A -> Prop) l1 l2 l : l = l1 ++ l2 -> StronglySorted R l -> StronglySorted R l1.
Proof. intros -> H. eapply ss_prefix; eauto. Qed.

Lemma loader_ok g q : g_agg g = false -> g_skip g <= TH -> 0 <= g_maxsize g ->
  StronglySorted tle (map fst q) ->
  (forall a b c, In (a, b, c) (map fst q) -> 0 <= a < 2 ^ 39 /\ 0 <= b < 2 ^ 39 /\ 0 <= c < 2 ^ 39) ->
  let T := distinct (map fst q) in fixed_ok g T -> zlen (keys T) < 2 ^ 31 ->
  match loader_insert g q ins_new with
  | None => (MAX_N_FILES <= length (keys T))%nat
  | Some s => Closed g T (keys T) (x_ts s) (x_tree s)
  end.
Proof.
  intros Ha Hsk Hmax Hs Hv. cbv zeta. set (T := distinct (map fst q)). intros Hfix Hn.
  assert (Hv' : forall a b c, In (a, b, c) T -> 0 <= a < 2 ^ 39 /\ 0 <= b < 2 ^ 39 /\ 0 <= c < 2 ^ 39).
  { intros a b c Hx. apply Hv. unfold T, distinct in Hx. now rewrite nodup_In in Hx. }
  assert (HT : StronglySorted tlt T) by now apply nodup_sorted.
  assert (Ed : map fst (dd (-1, -1, -1) q) = T).
  { apply dd_all; auto. intros a b c Hx. apply Hv in Hx. lia. }
  assert (Hb : forall k, below39 (table_of k T)).
  { intros k a b Hx. apply table_In in Hx. apply Hv' in Hx. lia. }
  assert (Hw : forall k l1 l2, In k (firsts T) -> table_of k T = l1 ++ l2 -> l1 <> [] -> has_writer g l1).
  { intros k l1 l2 _ E _. destruct (g_fixed g) as [f|] eqn:Ef.
    - destruct (Hfix f Ef) as (Hf & r & Er & Hw). apply (has_writer_fixed g f r); auto. apply (widths_prefix r l1 l2). rewrite <- E. apply Hw.
    - apply has_writer_auto; auto.
      + eapply ss_app_l; [exact E|]. now apply table_sorted.
      + intros a b Hx. apply (Hb k). rewrite E. apply in_or_app. auto. }
  unfold loader_insert. rewrite ld_insert_run.
  pose proof (run_ok' g (dd (-1, -1, -1) q) T Ha Hsk Hmax Ed HT) as HR. assert (Hpos : forall a b c, In (a, b, c) T -> 0 <= a) by (intros a b c Hx; apply Hv' in Hx; lia).
  specialize (HR Hpos Hw Hn). destruct (ins_run g (dd (-1, -1, -1) q) ins_new) as [s|]; auto.
  unfold ins_flush. pose proof (State_close g T s Ha Hmax) as HC.
  assert (Hw1 : forall k, In k (firsts T) -> has_writer g (table_of k T)).
  { intros k Hk. apply (Hw k _ []); auto; [now rewrite app_nil_r|]. unfold firsts in Hk. apply in_map_iff in Hk.
    destruct Hk as ([[x y] z] & <- & Hin). cbn [fst]. intros E. apply table_In in Hin. rewrite E in Hin. destruct Hin. }
  specialize (HC Hw1 Hn HR). destruct (if x_t1 s =? -1 then Some s else ins_write_entry g s) as [s1|]; auto.
Qed.

Lemma table_zl k T : zl (table_of k T) <= zlen T.
Proof. unfold table_of, zlen, zl. rewrite map_length. apply Nat2Z.inj_le, filter_length_le. Qed.

Lemma entries_open g (q : list quad) s t' : StronglySorted tle (map fst q) ->
  (forall a b c, In (a, b, c) (map fst q) -> 0 <= a < 2 ^ 39 /\ 0 <= b < 2 ^ 39 /\ 0 <= c < 2 ^ 39) ->
  let T := distinct (map fst q) in zlen (keys T) < 2 ^ 31 -> zlen T < 2 ^ 56 ->
  Closed g T (keys T) (x_ts s) (x_tree s) -> 
  (forall f, zlen (t_file (x_ts s) f) < 2 ^ 40) -> ts_stopInsert (x_ts s) = Some t' ->
  forall e, In e (x_tree s) -> exists r p en, ts_getTable t' (e_file e) (e_pos e) = Some (p, en) /\
    getBinaryTable (e_strat e) = Some r /\ reader_fits r (table_of (e_key e) T) /\
    contains (t_file t' (e_file e)) p (reader_write (g_colth g) r (table_of (e_key e) T)) /\
    en = p + zl (reader_write (g_colth g) r (table_of (e_key e) T)) /\
    StronglySorted plt (table_of (e_key e) T) /\ below39 (table_of (e_key e) T) /\ zl (table_of (e_key e) T) < 2 ^ 56 /\
    table_of (e_key e) T <> [] /\ e_n e = zl (table_of (e_key e) T).
Proof.
  intros Hs Hv. cbv zeta. set (T := distinct (map fst q)). intros Hn HnT HC Hsz Es e He.
  pose proof (Closed_tree _ _ _ _ _ HC) as HL. destruct HC as (G & HI & HG & _ & Hkeys & HE & _).
  rewrite Forall_forall in HE. destruct (HE e He) as (r & i & E1 & E2 & E3 & E4 & E5 & E6).
  destruct (stopInsert_ok (x_ts s) G HI) as (t'' & Es' & Ef & HX).
  { intros f. specialize (HG f). unfold zlen in *. lia. }
  assert (t'' = t') by congruence. subst t''.
  assert (Hsort : StronglySorted plt (table_of (e_key e) T)) by (apply table_sorted, nodup_sorted; auto).
  assert (Hb : below39 (table_of (e_key e) T)).
  { intros a b Hx. apply table_In in Hx. unfold T, distinct in Hx. rewrite nodup_In in Hx. apply Hv in Hx. lia. }
  assert (Hne : table_of (e_key e) T <> []).
  { assert (Hin : In (e_key e) (map e_key (x_tree s))) by now apply in_map. rewrite Hkeys in Hin. apply filter_In in Hin.
    destruct Hin as [Hin _]. unfold keys in Hin. rewrite nodup_In in Hin. apply in_map_iff in Hin. destruct Hin as ([[x y] z] & Ex & Hin).
    cbn [fst] in Ex. rewrite Ex in Hin. intros E. apply table_In in Hin. rewrite E in Hin. destruct Hin. }
  assert (Hi : (i < length (G (e_file e)))%nat) by (apply nth_error_Some; congruence).
  assert (Epos : e_pos e = Z.of_nat i).
  { rewrite E4. unfold to_int32. specialize (HG (e_file e)). unfold zlen in *. lia. }
  assert (Hfc : t_file t' (e_file e) = fcont (G (e_file e))) by (rewrite Ef; apply HI).
  assert (Hrn := reader_write_nonempty (g_colth g) r _ E2 Hsort Hb Hne).
  destruct (getTable_ok t' (e_file e) (G (e_file e)) i _ _ _ (HX (e_file e)) Hfc E3 Hrn) as (p & P1 & P2).
  - specialize (Hsz (e_file e)). now rewrite (ti_file _ _ HI) in Hsz.
  - specialize (HG (e_file e)). unfold zlen in *. lia.
  - rewrite Epos. exists r, p, (p + zl (reader_write (g_colth g) r (table_of (e_key e) T))). split; [exact P1|]. split; auto. split; auto.
    split; auto. split; auto. split; auto. split; auto. split; [|split; auto]. pose proof (table_zl (e_key e) T). lia.
Qed.

(** ** Statistics *)

Lemma store_counts g s s' : ins_store g s = Some s' -> g_agg g = false ->
  x_t1 s' = x_t1 s /\ x_t2 s' = x_t2 s /\ x_ntables s' = x_ntables s /\ x_nfirst s' = x_nfirst s.
Proof.
  unfold ins_store. intros E Ha. destruct (skippable g && (zlen (x_buf s) <? g_skip g)).
  - injection E as <-. cbn. auto.
  - destruct (ins_choose g (x_buf s)) as [only sig]. destruct (getBinaryTableInserter sig) as [h|]; [|discriminate].
    destruct (ts_start (g_maxsize g) (g_maxmarks g) (x_t1 s) sig (x_ts s)) as [[t mk]|]; [|discriminate]. injection E as <-.
    match goal with |- context [fold_left ?f ?l ?s1] => pose proof (fold_core g l Ha s1) as H end. cbv zeta in H.
    cbn [x_t1 x_n x_buf x_out x_handler x_file x_start x_strat x_only x_skip x_ts x_tree x_ntables x_nfirst x_t2 app] in H. tauto.
Qed.

Lemma write_counts g s s' : ins_write_entry g s = Some s' -> g_agg g = false ->
  x_t1 s' = x_t1 s /\ x_t2 s' = x_t2 s /\ x_ntables s' = x_ntables s /\ x_nfirst s' = x_nfirst s.
Proof.
  unfold ins_write_entry. intros E Ha. rewrite Ha in E.
  destruct (if x_n s <=? THRESHOLD_KEEP_MEMORY then ins_store g s else Some s) as [s1|] eqn:E1; [|discriminate].
  assert (H1 : x_t1 s1 = x_t1 s /\ x_t2 s1 = x_t2 s /\ x_ntables s1 = x_ntables s /\ x_nfirst s1 = x_nfirst s).
  { destruct (x_n s <=? THRESHOLD_KEEP_MEMORY); [now apply (store_counts g)|]. injection E1 as <-. auto. }
  destruct (x_skip s1); [injection E as <-; auto|].
  destruct (ins_write (g_colth g) (x_handler s1) (x_out s1)) as [bs|]; [|discriminate].
  destruct (ts_stop (zlen bs) (ts_write bs (x_ts s1))) as [t|]; [|discriminate]. injection E as <-. cbn. auto.
Qed.

Lemma insert_counts g t1 t2 t3 c s s' : ins_insert g t1 t2 t3 c s = Some s' -> g_agg g = false ->
  x_t1 s' = t1 /\ x_t2 s' = t2 /\
  x_ntables s' = x_ntables s + (if t1 =? x_t1 s then 0 else 1) /\
  x_nfirst s' = x_nfirst s + (if (t1 =? x_t1 s) && (t2 =? x_t2 s) then 0 else 1).
Proof.
  unfold ins_insert. intros E Ha.
  destruct (if t1 =? x_t1 s then _ else _) as [s1|] eqn:E1; [|discriminate].
  assert (H1 : x_t1 s1 = t1 /\ x_t2 s1 = t2 /\ x_ntables s1 = x_ntables s + (if t1 =? x_t1 s then 0 else 1) /\
    x_nfirst s1 = x_nfirst s + (if (t1 =? x_t1 s) && (t2 =? x_t2 s) then 0 else 1)).
  { destruct (Z.eqb_spec t1 (x_t1 s)) as [-> |Ht1]; cbn [andb].
    - injection E1 as <-. destruct (Z.eqb_spec t2 (x_t2 s)) as [-> |Ht2]; cbn; intuition lia.
    - destruct (if x_t1 s =? -1 then Some s else ins_write_entry g s) as [s0|] eqn:E0; [|discriminate].
      assert (H0 : x_ntables s0 = x_ntables s /\ x_nfirst s0 = x_nfirst s).
      { destruct (x_t1 s =? -1); [injection E0 as <-; auto|]. apply write_counts in E0; tauto. }
      destruct (if g_usePos g then (-1, 0, 0) else (x_last s0, x_cntLast s0, x_coord s0)) as [[last cnt] coord].
      injection E1 as <-. cbn. intuition lia. }
  clear E1. destruct (x_n s1 <? THRESHOLD_KEEP_MEMORY); [injection E as <-; cbn; tauto|].
  match type of E with context [if _ then ins_store g ?z else _] => set (s2 := z) in * end.
  destruct (if x_n s1 =? THRESHOLD_KEEP_MEMORY then ins_store g s2 else Some s2) as [s3|] eqn:E3; [|discriminate].
  assert (H3 : x_t1 s3 = x_t1 s2 /\ x_t2 s3 = x_t2 s2 /\ x_ntables s3 = x_ntables s2 /\ x_nfirst s3 = x_nfirst s2).
  { destruct (x_n s1 =? THRESHOLD_KEEP_MEMORY); [now apply (store_counts g)|]. injection E3 as <-. auto. }
  destruct (x_skip s3); [discriminate|]. injection E as <-.
  pose proof (app_core g t2 t3 s3 Ha) as H. cbv zeta in H. cbn [x_t1 x_t2 x_ntables x_nfirst s2] in H3. intuition congruence.
Qed.

Lemma nodup_last_in {A} (dec : forall x y : A, {x = y} + {x <> y}) l a : In a l -> length (nodup dec (l ++ [a])) = length (nodup dec l).
Proof.
  intros H. apply Nat.le_antisymm; apply NoDup_incl_length; try apply NoDup_nodup; intros x Hx; rewrite nodup_In in *.
  - apply in_app_or in Hx. destruct Hx as [Hx|[<-|[]]]; auto.
  - apply in_or_app. auto.
Qed.
Lemma nodup_last_new {A} (dec : forall x y : A, {x = y} + {x <> y}) l a : ~ In a l -> length (nodup dec (l ++ [a])) = S (length (nodup dec l)).
Proof.
  intros H. assert (E : nodup dec (l ++ [a]) = nodup dec l ++ [a]); [|rewrite E, app_length; cbn; lia].
  induction l as [|x l IH]; [reflexivity|]. cbn [In] in H. cbn [app nodup]. rewrite IH by tauto.
  destruct (in_dec dec x (l ++ [a])) as [Hi|Hi], (in_dec dec x l) as [Hj|Hj]; auto; exfalso.
  - apply in_app_or in Hi. destruct Hi as [Hi|[Hi|[]]]; auto.
  - apply Hi, in_or_app. auto.
Qed.

Lemma run_counts g q s : g_agg g = false -> StronglySorted tlt (map fst q) -> (forall a b c, In (a, b, c) (map fst q) -> 0 <= a) ->
  ins_run g q ins_new = Some s ->
  match rev (map fst q) with [] => x_t1 s = -1 | (a, b, _) :: _ => x_t1 s = a /\ x_t2 s = b end /\
  x_ntables s = zlen (keys (map fst q)) /\ x_nfirst s = zlen (prefixes (map fst q)).
Proof.
  intros Ha. revert s. induction q as [|[[[k b] c] cnt] q IH] using rev_ind; intros s.
  - intros _ _ [= <-]. cbn. auto.
  - rewrite map_app. cbn [map fst]. set (P := map fst q) in *. intros Hs Hpos. rewrite ins_run_snoc.
    destruct (ins_run g q ins_new) as [s0|]; [|discriminate]. intros E.
    destruct (insert_counts _ _ _ _ _ _ _ E Ha) as (I1 & I2 & I3 & I4).
    assert (Hpos' : forall a b c, In (a, b, c) P -> 0 <= a) by (intros; eapply Hpos; apply in_or_app; eauto).
    destruct (IH s0 (ss_prefix _ _ _ Hs) Hpos' eq_refl) as (J1 & J2 & J3).
    rewrite rev_app_distr. cbn [rev app]. split; auto. rewrite I3, I4, J2, J3. unfold keys, prefixes. rewrite !map_app. cbn [map fst].
    assert (Hall : forall x y z, In (x, y, z) P -> tlt (x, y, z) (k, b, c)).
    { clear - Hs. intros x y z Hx. induction P as [|u P IH]; [destruct Hx|]. cbn [app] in Hs. apply StronglySorted_inv in Hs. destruct Hs as [H1 H2].
      destruct Hx as [-> |Hx]; auto. rewrite Forall_forall in H2. apply H2, in_or_app. cbn. auto. }
    destruct (rev P) as [|[[a1 b1] c1] R] eqn:ER.
    + assert (EP : P = []) by (rewrite <- (rev_involutive P), ER; reflexivity). rewrite EP. rewrite J1.
      assert (0 <= k) by (apply (Hpos k b c), in_or_app; cbn; auto).
      destruct (Z.eqb_spec k (-1)); [lia|]. cbn. auto.
    + assert (EP : P = rev R ++ [(a1, b1, c1)]) by (rewrite <- (rev_involutive P), ER; reflexivity). destruct J1 as [-> ->].
      assert (Hlast : In (a1, b1, c1) P) by (rewrite EP; apply in_or_app; cbn; auto).
      assert (Hmax : forall x y z, In (x, y, z) P -> tle (x, y, z) (a1, b1, c1)).
      { rewrite EP in Hs. apply ss_prefix in Hs. rewrite EP. clear - Hs. intros x y z Hx. apply in_app_or in Hx. destruct Hx as [Hx|[Hx|[]]].
        - induction (rev R) as [|u P IH]; [destruct Hx|]. cbn [app] in Hs. apply StronglySorted_inv in Hs. destruct Hs as [H1 H2].
          destruct Hx as [-> |Hx]; auto. rewrite Forall_forall in H2. assert (H : tlt (x, y, z) (a1, b1, c1)) by (apply H2, in_or_app; cbn; auto). cbn in *. lia.
        - injection Hx as -> -> ->. cbn. lia. }
      pose proof (Hall _ _ _ Hlast) as HL. cbn in HL. unfold zlen. split.
      * destruct (Z.eqb_spec k a1) as [Ek|Ek].
        -- rewrite Z.add_0_r. f_equal. symmetry. apply nodup_last_in. apply in_map_iff. exists (a1, b1, c1). cbn. auto.
        -- rewrite Z.add_1_r, <- Nat2Z.inj_succ. f_equal. symmetry. apply nodup_last_new. intros Hin. apply in_map_iff in Hin. destruct Hin as ([[x y] z] & Ex & Hin). cbn [fst] in Ex. subst x.
           specialize (Hmax _ _ _ Hin). cbn in Hmax. lia.
      * destruct ((k =? a1) && (b =? b1)) eqn:Ekb.
        -- apply andb_prop in Ekb. rewrite !Z.eqb_eq in Ekb. destruct Ekb as [-> ->].
           rewrite Z.add_0_r. f_equal. symmetry. apply nodup_last_in. apply in_map_iff. exists (a1, b1, c1). cbn. auto.
        -- apply andb_false_iff in Ekb. rewrite !Z.eqb_neq in Ekb.
           rewrite Z.add_1_r, <- Nat2Z.inj_succ. f_equal. symmetry. apply nodup_last_new. intros Hin. apply in_map_iff in Hin. destruct Hin as ([[x y] z] & Ex & Hin). cbn [fst] in Ex. injection Ex as -> ->.
           specialize (Hmax _ _ _ Hin). cbn in Hmax. lia.
Qed.

Lemma run_counts' g q s P : g_agg g = false -> map fst q = P -> StronglySorted tlt P -> (forall a b c, In (a, b, c) P -> 0 <= a) ->
  ins_run g q ins_new = Some s -> x_ntables s = zlen (keys P) /\ x_nfirst s = zlen (prefixes P).
Proof. intros Ha <- H1 H2 E. now apply (run_counts g q s Ha H1 H2 E). Qed.

Lemma loader_counts g q s : g_agg g = false -> StronglySorted tle (map fst q) ->
  (forall a b c, In (a, b, c) (map fst q) -> 0 <= a) ->
  loader_insert g q ins_new = Some s ->
  x_ntables s = zlen (keys (distinct (map fst q))) /\ x_nfirst s = zlen (prefixes (distinct (map fst q))).
Proof.
  intros Ha Hs Hpos. unfold loader_insert. rewrite ld_insert_run. assert (Ed := dd_all q Hs Hpos).
  destruct (ins_run g (dd (-1, -1, -1) q) ins_new) as [s1|] eqn:E1; [|discriminate]. unfold ins_flush.
  apply (run_counts' g _ _ _ Ha Ed) in E1.
  - destruct E1 as (E2 & E3).
    destruct (if x_t1 s1 =? -1 then Some s1 else ins_write_entry g s1) as [s2|] eqn:E4; [|discriminate]. intros [= <-].
    cbn [x_ntables x_nfirst]. destruct (x_t1 s1 =? -1); [injection E4 as <-; auto|]. apply write_counts in E4; auto.
    destruct E4 as (_ & _ & -> & ->). auto.
  - now apply nodup_sorted.
  - intros a b c Hx. unfold distinct in Hx. rewrite nodup_In in Hx. eauto.
Qed.

Lemma app_skipped g t2 t3 s : x_skipped (ins_append g t2 t3 (ins_pos g t2 t3 s)) = x_skipped s.
Proof. unfold ins_append, ins_pos. cbn. destruct (g_usePos g); auto. destruct (t2 =? x_last s); reflexivity. Qed.
Lemma fold_skipped g l : forall s,
  x_skipped (fold_left (fun st p => ins_append g (fst p) (snd p) (ins_pos g (fst p) (snd p) st)) l s) = x_skipped s.
Proof. induction l as [|p l IH]; intros s; cbn [fold_left]; auto. now rewrite IH, app_skipped. Qed.

Lemma store_skipped g s s' : ins_store g s = Some s' -> g_agg g = false ->
  x_n s' = x_n s /\ x_tree s' = x_tree s /\ x_skipped s' = x_skipped s + (if x_skip s' then 1 else 0).
Proof.
  unfold ins_store. intros E Ha. destruct (skippable g && (zlen (x_buf s) <? g_skip g)).
  - injection E as <-. cbn. auto.
  - destruct (ins_choose g (x_buf s)) as [only sig]. destruct (getBinaryTableInserter sig) as [h|]; [|discriminate].
    destruct (ts_start (g_maxsize g) (g_maxmarks g) (x_t1 s) sig (x_ts s)) as [[t mk]|]; [|discriminate]. injection E as <-.
    rewrite fold_skipped. match goal with |- context [fold_left ?f ?l ?s1] => pose proof (fold_core g l Ha s1) as H end. cbv zeta in H.
    destruct H as (_ & -> & _ & _ & _ & _ & _ & _ & _ & -> & _ & -> & _). cbn. auto using Z.add_0_r.
Qed.

Definition skipinv (s : ins_st) : Prop := (THRESHOLD_KEEP_MEMORY < x_n s -> x_skip s = false).

Lemma write_skipped g s s' : ins_write_entry g s = Some s' -> g_agg g = false -> skipinv s ->
  x_skipped s' + zlen (x_tree s') = x_skipped s + zlen (x_tree s) + 1.
Proof.
  unfold ins_write_entry, skipinv. intros E Ha Hi. rewrite Ha in E.
  destruct (if x_n s <=? THRESHOLD_KEEP_MEMORY then ins_store g s else Some s) as [s1|] eqn:E1; [|discriminate].
  assert (H1 : x_tree s1 = x_tree s /\ x_skipped s1 = x_skipped s + (if x_skip s1 then 1 else 0)).
  { destruct (Z.leb_spec (x_n s) THRESHOLD_KEEP_MEMORY).
    - apply store_skipped in E1; auto. tauto.
    - injection E1 as <-. rewrite Hi by auto. auto using Z.add_0_r. }
  destruct H1 as [H1 H2]. destruct (x_skip s1); [injection E as <-; rewrite H1; lia|].
  destruct (ins_write (g_colth g) (x_handler s1) (x_out s1)) as [bs|]; [|discriminate].
  destruct (ts_stop (zlen bs) (ts_write bs (x_ts s1))) as [t|]; [|discriminate]. injection E as <-. cbn.
  unfold zlen. rewrite app_length, H1. cbn. lia.
Qed.

Definition skipcnt (s : ins_st) : Prop :=
  x_skipped s + zlen (x_tree s) + (if x_t1 s =? -1 then 0 else 1) = x_ntables s.

Lemma insert_skipped g t1 t2 t3 c s s' : ins_insert g t1 t2 t3 c s = Some s' -> g_agg g = false -> 0 <= t1 ->
  skipinv s -> skipcnt s -> skipinv s' /\ skipcnt s'.
Proof.
  unfold ins_insert. intros E Ha Ht Hi Hc.
  destruct (if t1 =? x_t1 s then _ else _) as [s1|] eqn:E1; [|discriminate].
  assert (H1 : skipinv s1 /\ skipcnt s1 /\ x_t1 s1 = t1).
  { destruct (Z.eqb_spec t1 (x_t1 s)) as [-> |Ht1].
    - injection E1 as <-. destruct (t2 =? x_t2 s); auto.
    - destruct (if x_t1 s =? -1 then Some s else ins_write_entry g s) as [s0|] eqn:E0; [|discriminate].
      destruct (if g_usePos g then (-1, 0, 0) else (x_last s0, x_cntLast s0, x_coord s0)) as [[last cnt] coord].
      injection E1 as <-. unfold skipinv, skipcnt in *. cbn. split; [unfold THRESHOLD_KEEP_MEMORY; lia|]. split; auto.
      destruct (Z.eqb_spec t1 (-1)); [lia|]. destruct (x_t1 s =? -1); [injection E0 as <-; lia|].
      pose proof (write_counts _ _ _ E0 Ha) as (_ & _ & Hn & _). apply write_skipped in E0; auto. lia. }
  destruct H1 as (Hi1 & Hc1 & Ht1). clear E1.
  destruct (Z.ltb_spec (x_n s1) THRESHOLD_KEEP_MEMORY) as [Hn|Hn].
  { injection E as <-. unfold skipinv, skipcnt in *. cbn. split; auto. intros H; exfalso; unfold THRESHOLD_KEEP_MEMORY in Hn; lia. }
  match type of E with context [if _ then ins_store g ?z else _] => set (s2 := z) in * end.
  destruct (if x_n s1 =? THRESHOLD_KEEP_MEMORY then ins_store g s2 else Some s2) as [s3|] eqn:E3; [|discriminate].
  destruct (x_skip s3) eqn:Esk; [discriminate|].
  assert (H3 : skipcnt s3).
  { unfold skipcnt. destruct (x_n s1 =? THRESHOLD_KEEP_MEMORY).
    - pose proof (store_counts _ _ _ E3 Ha) as (-> & _ & -> & _). apply store_skipped in E3; auto. destruct E3 as (_ & -> & ->). rewrite Esk.
      unfold skipcnt in Hc1. cbn. lia.
    - injection E3 as <-. exact Hc1. }
  injection E as <-. pose proof (app_core g t2 t3 s3 Ha) as H. cbv zeta in H.
  unfold skipinv, skipcnt in *. rewrite app_skipped. destruct H as (-> & _ & _ & _ & _ & _ & _ & _ & _ & -> & _ & -> & -> & _). auto.
Qed.

Lemma run_skipped g q s : g_agg g = false -> (forall a b c, In (a, b, c) (map fst q) -> 0 <= a) ->
  ins_run g q ins_new = Some s -> skipinv s /\ skipcnt s.
Proof.
  intros Ha. revert s. induction q as [|[[[k b] c] cnt] q IH] using rev_ind; intros s.
  - intros _ [= <-]. unfold skipinv, skipcnt. cbn. auto.
  - rewrite map_app. cbn [map fst]. intros Hpos. rewrite ins_run_snoc.
    destruct (ins_run g q ins_new) as [s0|]; [|discriminate]. intros E.
    destruct (IH s0) as [I1 I2]; auto. { intros; eapply Hpos; apply in_or_app; eauto. }
    apply (insert_skipped _ _ _ _ _ _ _ E Ha); auto. apply (Hpos k b c). apply in_or_app. cbn. auto.
Qed.

Lemma loader_skipped g q s : g_agg g = false -> StronglySorted tle (map fst q) ->
  (forall a b c, In (a, b, c) (map fst q) -> 0 <= a) ->
  loader_insert g q ins_new = Some s -> x_skipped s + zlen (x_tree s) = x_ntables s.
Proof.
  intros Ha Hs Hpos. unfold loader_insert. rewrite ld_insert_run. assert (Ed := dd_all q Hs Hpos).
  destruct (ins_run g (dd (-1, -1, -1) q) ins_new) as [s1|] eqn:E1; [|discriminate]. unfold ins_flush.
  apply (run_skipped g _ _ Ha) in E1.
  - destruct E1 as (E2 & E3).
    destruct (if x_t1 s1 =? -1 then Some s1 else ins_write_entry g s1) as [s2|] eqn:E4; [|discriminate]. intros [= <-].
    cbn [x_ntables x_skipped x_tree]. unfold skipcnt in E3. destruct (x_t1 s1 =? -1); [injection E4 as <-; lia|].
    pose proof (write_counts _ _ _ E4 Ha) as (_ & _ & Hn & _). apply write_skipped in E4; auto. lia.
  - intros a b c. rewrite Ed. intros Hx. unfold distinct in Hx. rewrite nodup_In in Hx. eauto.
Qed.
