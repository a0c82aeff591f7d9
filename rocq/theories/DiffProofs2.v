(** Proofs about the files of an update: all keys. *)
From Verif Require Import QuerySpec TableProofs CompProofs RowProofs ClusterProofs ColumnProofs TableProps DiffModel DiffProofs.
From Coq Require Import Sorted Permutation ZifyBool.
Local Open Scope Z_scope.
Ltac Zify.zify_post_hook ::= Z.div_mod_to_equations.

(** ** Opening a table *)
Definition dc_pos (c : dcoord) : Z := dc_file c * 2 ^ 16 + dc_mark c.

Lemma rdn_size m p v : contains m p (enc 4 v) -> 0 <= v < 2 ^ 31 -> rdn 4 m p = Some v /\ to_int v = v.
Proof.
  intros H Hv. split; [|unfold to_int; lia]. apply (rdn_enc 4); auto. change (2 ^ (8 * Z.of_nat 4)) with (2 ^ 32). lia.
Qed.

Lemma tab_cases P st bs m c k : tab_ok P st bs -> StronglySorted plt P -> P <> [] -> contains m (dc_pos c) bs ->
  dc_n c = zl P -> dc_strat c = st -> zl bs < 2 ^ 31 ->
  (exists o bk, open_at m c k (-1) (-1) = Some o /\ Table k bk P o) /\
  (forall v1, int64 v1 -> exists o bk, open_at m c k v1 (-1) = Some o /\
     Scan k (filter (pair_matches v1 (-1)) P) o /\ Ignores k bk (filter (pair_matches v1 (-1)) P) o) /\
  (forall v1 v2, int64 v1 -> int64 v2 -> dc_pos c + zl bs + 8 <= zl m ->
   exists o bk, open_at m c k v1 v2 = Some o /\ Cursor k bk (filter (pair_matches v1 v2) P) o).
Proof.
  intros HT Hs Hn Hc En Est Hz. unfold open_at. rewrite Est. fold (dc_pos c).
  destruct HT as [w1 w2 ER W1 W2 L1 L2 HF|b1 b2 bc bo G nt body ER HL HP]; rewrite ER.
  - assert (EZ : dc_n c * (Z.of_nat w1 + Z.of_nat w2 + 0) = zl (row_write w1 w2 P)).
    { rewrite row_write_rows, rows_length. unfold bsz. lia. }
    rewrite EZ. cbn [tbl_open]. split; [|split].
    + eexists _, false. split; [reflexivity|]. now apply C10_row_open.
    + intros v1 H1. replace (v1 =? -1) with false by (unfold int64 in H1; lia). cbv iota.
      change (-1 =? -1) with true. cbv iota.
      destruct (C10_row_open_first w1 w2 m k (dc_pos c) P v1) as (st' & E & T); auto; [apply H1|].
      rewrite E. eexists _, false. split; [reflexivity|]. destruct T as (T1 & T2 & _). split; auto. eapply cursor_scan; eauto.
    + intros v1 v2 H1 H2 Hp. replace (v1 =? -1) with false by (unfold int64 in H1; lia).
      replace (v2 =? -1) with false by (unfold int64 in H2; lia). cbv iota.
      destruct (C10_row_open_both_partial w1 w2 m k (dc_pos c) P v1 v2) as (st' & E & T); auto; [apply H1|apply H2|lia|].
      rewrite E. eexists _, false. split; [reflexivity|]. apply T.
  - pose proof (contains_app _ _ _ _ Hc) as [Hc1 Hc2]. rewrite enc_length in Hc2. change (Z.of_nat 4) with 4 in Hc2.
    rewrite app_length, enc_length in Hz.
    destruct (rdn_size _ _ _ Hc1 ltac:(lia)) as [E1 E2]. rewrite E1, E2.
    replace (dc_pos c + (4 + zl body)) with (dc_pos c + 4 + zl body) by lia. cbn [tbl_open].
    pose proof (lay_widths _ _ _ _ _ _ _ HL) as HW. rewrite <- HP in Hs.
    assert (Hok : col_ok G) by (destruct HL; apply pairs_sorted; auto).
    split; [|split].
    + change (-1 =? -1) with true. cbv iota.
      destruct (col_setup_ok b1 b2 bc bo m ltac:(lia) ltac:(lia) ltac:(lia) _ k (dc_pos c + 4) G Hc2 HL) as (sp1 & E & Hh & Hv & He).
      rewrite E. eexists _, true. split; [reflexivity|]. rewrite <- HP.
      exact (col_open b1 b2 bc bo m ltac:(lia) ltac:(lia) ltac:(lia) k sp1 _ _ nt (zl G) G Hh Hv eq_refl He Hok).
    + intros v1 H1. replace (v1 =? -1) with false by (unfold int64 in H1; lia). cbv iota.
      change (-1 =? -1) with true. cbv iota.
      destruct (col_setup1_ok b1 b2 bc bo m ltac:(lia) ltac:(lia) ltac:(lia) _ k (dc_pos c + 4) G v1 Hc2 HL Hs H1) as (st' & E & _ & A & B).
      rewrite E. eexists _, true. split; [reflexivity|]. rewrite <- HP. auto.
    + intros v1 v2 H1 H2 _. replace (v1 =? -1) with false by (unfold int64 in H1; lia).
      replace (v2 =? -1) with false by (unfold int64 in H2; lia). cbv iota.
      destruct (col_setup2_ok b1 b2 bc bo m ltac:(lia) ltac:(lia) ltac:(lia) _ k (dc_pos c + 4) G v1 v2 Hc2 HL Hs H1 H2) as (st' & E & A).
      rewrite E. eexists _, true. split; [reflexivity|]. now rewrite <- HP.
Qed.

(** ** Sorting *)
Lemma zinsert_perm x l : Permutation (x :: l) (zinsert x l).
Proof.
  induction l as [|y l IH]; cbn [zinsert]; auto. destruct (x <=? y); auto.
  etransitivity; [apply perm_swap|]. now constructor.
Qed.
Lemma zsort_perm l : Permutation l (zsort l).
Proof. induction l as [|x l IH]; auto. cbn [zsort fold_right]. etransitivity; [constructor; exact IH|apply zinsert_perm]. Qed.
Lemma zinsert_sorted x l : StronglySorted Z.le l -> StronglySorted Z.le (zinsert x l).
Proof.
  induction 1 as [|y l Hs IH Hf]; cbn [zinsert]; [repeat constructor|].
  destruct (x <=? y) eqn:E.
  - constructor; [constructor; auto|]. constructor; [lia|]. eapply Forall_impl; [|exact Hf]. cbn. lia.
  - constructor; auto. apply Forall_forall. intros z Hz.
    apply (Permutation_in _ (Permutation_sym (zinsert_perm x l))) in Hz as [<- |Hz]; [lia|].
    rewrite Forall_forall in Hf. auto.
Qed.
Lemma zsort_sorted l : StronglySorted Z.le (zsort l).
Proof. induction l as [|x l IH]; cbn [zsort fold_right]; [constructor|]. now apply zinsert_sorted. Qed.
Lemma si_sort_zsort l : si_sort l = zsort l.
Proof.
  destruct l as [|a [|b [|c l]]]; auto. cbn. destruct (b <? a) eqn:?, (a <=? b) eqn:?; auto; lia.
Qed.

(** ** The loop over the keys *)
Definition k3 (t : Z * Z * Z) : Z := fst (fst t).
Definition ids3 (t : Z * Z * Z) : Prop := let '(a, b, c) := t in 0 <= a /\ id32 b /\ id32 c.
Definition p12 (t : Z * Z * Z) : Z := let '(_, b, c) := t in pack b c.
Definition p21 (t : Z * Z * Z) : Z := let '(_, b, c) := t in pack c b.

Lemma zs_srt_ok {A} (f : A -> Z) T : (forall t, In t T -> upair (f t)) -> T <> [] -> srt_ok (zsort (map f T)).
Proof.
  intros Hu Hn. split; [|split; [apply zsort_sorted|]].
  - intros E. pose proof (Permutation_length (zsort_perm (map f T))) as HL. rewrite E, map_length in HL. destruct T; [congruence|discriminate].
  - apply Forall_forall. intros x Hx. apply (Permutation_in _ (Permutation_sym (zsort_perm _))) in Hx.
    apply in_map_iff in Hx as (t & <- & Ht). auto.
Qed.
Lemma p_upair t : ids3 t -> upair (p12 t) /\ upair (p21 t).
Proof. destruct t as [[a b] c]. intros (_ & Hb & Hc). split; now apply pack_upair. Qed.
Lemma in_unp12 T a b : Forall ids3 T -> In (a, b) (map unp (zsort (map p12 T))) <-> exists k, In (k, a, b) T.
Proof.
  intros HT. rewrite Forall_forall in HT. rewrite in_map_iff. split.
  - intros (x & E & Hx). apply (Permutation_in _ (Permutation_sym (zsort_perm _))) in Hx.
    apply in_map_iff in Hx as ([[k b'] c'] & <- & Ht). destruct (HT _ Ht) as (_ & Hb & Hc). cbn [p12] in E.
    rewrite unp_pack in E by auto. injection E as <- <-. eauto.
  - intros (k & Ht). destruct (HT _ Ht) as (_ & Hb & Hc). exists (pack a b). split; [now apply unp_pack|].
    apply (Permutation_in _ (zsort_perm _)). apply in_map_iff. exists (k, a, b). auto.
Qed.
Lemma in_unp21 T a b : Forall ids3 T -> In (a, b) (map unp (zsort (map p21 T))) <-> exists k, In (k, b, a) T.
Proof.
  intros HT. rewrite Forall_forall in HT. rewrite in_map_iff. split.
  - intros (x & E & Hx). apply (Permutation_in _ (Permutation_sym (zsort_perm _))) in Hx.
    apply in_map_iff in Hx as ([[k b'] c'] & <- & Ht). destruct (HT _ Ht) as (_ & Hb & Hc). cbn [p21] in E.
    rewrite unp_pack in E by auto. injection E as <- <-. eauto.
  - intros (k & Ht). destruct (HT _ Ht) as (_ & Hb & Hc). exists (pack a b). split; [now apply unp_pack|].
    apply (Permutation_in _ (zsort_perm _)). apply in_map_iff. exists (k, b, a). auto.
Qed.

(** One entry of the tree: its tables hold the pairs of its key among the triples D. *)
Definition kent (D : list (Z * Z * Z)) (F1 F2 : mem) (e : kinfo) : Prop :=
  exists P1 P2 bs1 bs2,
    StronglySorted plt P1 /\ (forall b c, In (b, c) P1 <-> In (ki_key e, b, c) D) /\
    StronglySorted plt P2 /\ (forall b c, In (c, b) P2 <-> In (ki_key e, b, c) D) /\
    P1 <> [] /\ P2 <> [] /\
    tab_ok P1 (ki_s1 e) bs1 /\ contains F1 (ki_pos1 e) bs1 /\
    tab_ok P2 (ki_s2 e) bs2 /\ contains F2 (ki_pos2 e) bs2 /\
    ki_n e = zl P1 /\ ki_n e = zl P2 /\ ki_l1 e = groups P1 /\ ki_l2 e = groups P2.

Definition zsum (l : list Z) : Z := fold_right Z.add 0 l.
Lemma zsum_app l l' : zsum (l ++ l') = zsum l + zsum l'.
Proof. induction l as [|x l IH]; [reflexivity|]. change (x + zsum (l ++ l') = x + zsum l + zsum l'). lia. Qed.

Definition si_inv (D : list (Z * Z * Z)) (s : si_st) : Prop :=
  StronglySorted Z.lt (map ki_key (si_keys s)) /\
  Forall (kent D (si_f1 s) (si_f2 s)) (si_keys s) /\
  (forall a, In a (map ki_key (si_keys s)) <-> exists b c, In (a, b, c) D) /\
  si_nvalid s = zsum (map ki_n (si_keys s)).

Lemma contains_ext m p bs x : contains m p bs -> contains (m ++ x) p bs.
Proof. intros (pre & suf & -> & ->). exists pre, (suf ++ x). now rewrite <- !app_assoc. Qed.
Lemma contains_end m bs : contains (m ++ bs) (zl m) bs.
Proof. exists m, []. now rewrite app_nil_r. Qed.

Lemma SS_snoc {A} (R : A -> A -> Prop) l x : StronglySorted R l -> Forall (fun y => R y x) l -> StronglySorted R (l ++ [x]).
Proof.
  induction 1 as [|y l Hs IH Hf]; intros H; [repeat constructor|]. inversion H as [|? ? H1 H2]; subst. cbn [app].
  constructor; auto. apply Forall_app. split; auto.
Qed.

Lemma si_store_inv orc D s k T : si_inv D s -> T <> [] -> Forall ids3 T -> Forall (fun t => k3 t = k) T ->
  Forall (fun t => k3 t < k) D -> zl T < 2 ^ 28 ->
  zl (si_f1 s) < 2 ^ 31 -> zl (si_f2 s) < 2 ^ 31 ->
  si_inv (D ++ T) (si_store orc k (zsort (map p12 T)) (zsort (map p21 T)) s).
Proof.
  intros (I1 & I2 & I3 & I4) Hn Hi Hk Hd HL B1 B2.
  set (l1 := zsort (map p12 T)). set (l2 := zsort (map p21 T)).
  assert (Hi' := proj1 (Forall_forall _ _) Hi). assert (Hk' := proj1 (Forall_forall _ _) Hk). assert (Hd' := proj1 (Forall_forall _ _) Hd).
  assert (K1 : srt_ok l1) by (apply zs_srt_ok; auto; intros t Ht; now apply p_upair, Hi').
  assert (K2 : srt_ok l2) by (apply zs_srt_ok; auto; intros t Ht; now apply p_upair, Hi').
  assert (KL1 : length l1 = length T) by (unfold l1; rewrite <- (Permutation_length (zsort_perm _)), map_length; auto).
  assert (KL2 : length l2 = length T) by (unfold l2; rewrite <- (Permutation_length (zsort_perm _)), map_length; auto).
  assert (KI : inverse l1 l2).
  { intros a b. unfold l1, l2. rewrite in_unp12, in_unp21 by auto. tauto. }
  destruct (storeTables_ok (fst (orc k)) (snd (orc k)) l1 l2 K1 K2 KI ltac:(lia) ltac:(lia)) as (A1 & A2 & A3 & A4 & A5 & A6).
  destruct (tpairs_ok l1 (proj1 (proj2 K1)) (proj2 (proj2 K1))) as [S1 M1].
  destruct (tpairs_ok l2 (proj1 (proj2 K2)) (proj2 (proj2 K2))) as [S2 M2].
  assert (HD : forall e b c, In e (si_keys s) -> In (ki_key e, b, c) (D ++ T) <-> In (ki_key e, b, c) D).
  { intros e b c He. rewrite in_app_iff. split; [|auto]. intros [H|H]; auto. exfalso.
    assert (Hin : In (ki_key e) (map ki_key (si_keys s))) by now apply in_map.
    apply I3 in Hin as (b' & c' & Hin). apply Hd' in Hin. apply Hk' in H. cbn [k3 fst] in *. lia. }
  assert (HT : forall b c, In (k, b, c) (D ++ T) <-> In (k, b, c) T).
  { intros b c. rewrite in_app_iff. split; [|auto]. intros [H|H]; auto. apply Hd' in H. cbn in H. lia. }
  assert (HTk : forall b c, (exists k', In (k', b, c) T) <-> In (k, b, c) T).
  { intros b c. split; [|eauto]. intros (k' & H). pose proof (Hk' _ H) as E. cbn in E. now subst k'. }
  unfold si_store. set (t := storeTables _ _ l1 l2) in *. split; [|split; [|split]]; cbn [si_f1 si_f2 si_keys si_nvalid].
  - rewrite map_app. cbn [map ki_key]. apply SS_snoc; auto. apply Forall_forall. intros a Ha.
    apply I3 in Ha as (b & c & Ha). now apply Hd' in Ha.
  - apply Forall_app. split.
    + rewrite Forall_forall in I2 |- *. intros e He. destruct (I2 e He) as (P1 & P2 & bs1 & bs2 & J1 & J2 & J3 & J4 & J5 & J6 & J7 & J8 & J9 & J10 & J11).
      exists P1, P2, bs1, bs2. split; auto. split; [intros b c; rewrite (HD e b c He); auto|]. split; auto.
      split; [intros b c; rewrite (HD e b c He); auto|]. repeat (split; auto using contains_ext).
    + constructor; [|constructor]. exists (tpairs l1), (tpairs l2), (st_b1 t), (st_b2 t).
      cbn [ki_key ki_s1 ki_s2 ki_pos1 ki_pos2 ki_n ki_l1 ki_l2].
      split; auto. split; [intros b c; rewrite M1, HT; unfold l1; rewrite in_unp12 by auto; apply HTk|].
      split; auto. split; [intros b c; rewrite M2, HT; unfold l2; rewrite in_unp21 by auto; apply HTk|].
      pose proof (tpairs_ne l1 K1). pose proof (tpairs_ne l2 K2).
      split; [intros E; rewrite E in *; cbn in *; lia|]. split; [intros E; rewrite E in *; cbn in *; lia|].
      rewrite !Z.mod_small by lia.
      repeat (split; auto using contains_end).
  - intros a. rewrite map_app, in_app_iff, I3. cbn [map ki_key In]. split.
    + intros [(b & c & H)|[<- |[]]]; [exists b, c; apply in_or_app; auto|].
      destruct T as [|[[k' b] c] T]; [congruence|]. exists b, c. apply HT.
      pose proof (Hk' (k', b, c) (or_introl eq_refl)) as E. cbn in E. subst k'. now left.
    + intros (b & c & H). apply in_app_iff in H as [H|H]; [left; eauto|right; left]. symmetry. apply (Hk' _ H).
  - rewrite map_app, zsum_app, I4. cbn [map ki_n zsum fold_right]. lia.
Qed.

Lemma si_loop_mono orc l : forall prev t1 t2 s,
  exists x y, si_f1 (si_loop orc prev t1 t2 s l) = si_f1 s ++ x /\ si_f2 (si_loop orc prev t1 t2 s l) = si_f2 s ++ y.
Proof.
  induction l as [|[[a b] c] l IH]; intros prev t1 t2 s; cbn [si_loop].
  - destruct t1; [exists [], []; now rewrite !app_nil_r|]. unfold si_store. cbn [si_f1 si_f2]. eauto.
  - destruct (negb (a =? prev)); [|apply IH]. set (s' := match t1 with [] => _ | _ => _ end).
    destruct (IH a [pack b c] [pack c b] s') as (x & y & E1 & E2). rewrite E1, E2.
    unfold s'. destruct t1; [eauto|]. unfold si_store. cbn [si_f1 si_f2]. rewrite <- !app_assoc. eauto.
Qed.

Definition le3 (x y : Z * Z * Z) : Prop := k3 x <= k3 y.

Lemma si_loop_ok orc l : forall prev T D s,
  si_inv D s -> Forall ids3 (T ++ l) -> Forall (fun t => k3 t = prev) T -> Forall (fun t => k3 t < prev) D ->
  StronglySorted le3 (T ++ l) -> (T = [] -> D = [] /\ prev = -1) -> zl T + zl l < 2 ^ 28 ->
  zl (si_f1 (si_loop orc prev (map p12 T) (map p21 T) s l)) < 2 ^ 31 ->
  zl (si_f2 (si_loop orc prev (map p12 T) (map p21 T) s l)) < 2 ^ 31 ->
  si_inv (D ++ T ++ l) (si_loop orc prev (map p12 T) (map p21 T) s l).
Proof.
  induction l as [|[[a b] c] l IH]; intros prev T D s HI Hi Hk Hd Hs H0 HL B1 B2.
  - rewrite app_nil_r in *. cbn [si_loop] in *. destruct T as [|t T]; [cbn [map]; now rewrite app_nil_r|].
    cbn [map] in *. apply (si_store_inv orc D s prev (t :: T)); auto; [discriminate| |].
    + unfold si_store in B1. cbn [si_f1] in B1. rewrite app_length in B1. lia.
    + unfold si_store in B2. cbn [si_f2] in B2. rewrite app_length in B2. lia.
  - cbn [si_loop] in *. pose proof (Forall_app ids3 T ((a, b, c) :: l)) as [Hfa _]. destruct (Hfa Hi) as [Hi1 Hi2].
    inversion Hi2 as [|? ? Hx Hi3]; subst.
    destruct (a =? prev) eqn:E; cbn [negb] in *.
    + assert (a = prev) as -> by lia.
      change [pack b c] with (map p12 [(prev, b, c)]) in *. change [pack c b] with (map p21 [(prev, b, c)]) in *.
      rewrite <- !map_app in *.
      replace (T ++ (prev, b, c) :: l) with ((T ++ [(prev, b, c)]) ++ l) in * by (rewrite <- app_assoc; reflexivity).
      apply IH; auto.
      * apply Forall_app. split; auto.
      * intros E0. apply app_eq_nil in E0 as [_ E0]. discriminate.
      * rewrite app_length. cbn [length] in *. lia.
    + rewrite !si_sort_zsort in *. set (s' := match map p12 T with [] => _ | _ => _ end) in *.
      destruct (si_loop_mono orc l a [pack b c] [pack c b] s') as (x & y & E1 & E2).
      assert (M1 : zl (si_f1 s') < 2 ^ 31) by (rewrite E1, app_length in B1; lia).
      assert (M2 : zl (si_f2 s') < 2 ^ 31) by (rewrite E2, app_length in B2; lia).
      assert (HI' : si_inv (D ++ T) s').
      { subst s'. destruct T as [|t T]; [cbn [map]; now rewrite app_nil_r|].
        remember (t :: T) as T0 eqn:ET. assert (T0 <> []) by (subst T0; discriminate). clear ET.
        assert (NE : map p12 T0 <> []) by (destruct T0; [congruence|discriminate]).
        destruct (map p12 T0) as [|z0 zs] eqn:EM; [congruence|]. rewrite <- EM in *.
        apply si_store_inv; auto; [cbn [length] in HL; lia| |].
        - unfold si_store in M1. cbn [si_f1] in M1. rewrite app_length in M1. lia.
        - unfold si_store in M2. cbn [si_f2] in M2. rewrite app_length in M2. lia. }
      assert (Hs' := SS_app_r _ _ _ Hs).
      assert (Hlt : Forall (fun t => k3 t < a) (D ++ T)).
      { destruct T as [|t T].
        - destruct (H0 eq_refl) as [-> ->]. constructor.
        - assert (prev < a).
          { pose proof (Forall_inv Hk) as Et. cbn in Et. inversion Hs as [|? ? _ Hf]; subst.
            rewrite Forall_forall in Hf. specialize (Hf (a, b, c)). unfold le3 in Hf. cbn [k3 fst] in Hf.
            assert (k3 t <= a) by (apply Hf; apply in_or_app; right; now left). lia. }
          apply Forall_app. split; [eapply Forall_impl; [|exact Hd]|eapply Forall_impl; [|exact Hk]]; cbn; lia. }
      rewrite app_assoc. change ((a, b, c) :: l) with ([(a, b, c)] ++ l).
      change [pack b c] with (map p12 [(a, b, c)]) in *. change [pack c b] with (map p21 [(a, b, c)]) in *.
      apply IH; auto.
      * discriminate.
      * cbn [length] in *. lia.
Qed.

Theorem sortIndex_ok orc f1 f2 l : Forall ids3 l -> StronglySorted le3 l -> zl l < 2 ^ 28 ->
  zl (si_f1 (sortIndex orc f1 f2 l)) < 2 ^ 31 -> zl (si_f2 (sortIndex orc f1 f2 l)) < 2 ^ 31 ->
  si_inv l (sortIndex orc f1 f2 l).
Proof.
  intros Hi Hs HL B1 B2. unfold sortIndex in *. change l with ([] ++ [] ++ l) at 1.
  apply (si_loop_ok orc l (-1) [] []); auto.
  - split; [constructor|]. split; [constructor|]. split; [|reflexivity]. intros a. cbn. split; [tauto|intros (b & c & [])].
Qed.

(** ** The update *)
Definition sorts (srt : (Z * Z * Z -> Z) -> list (Z * Z * Z) -> list (Z * Z * Z)) : Prop :=
  forall key l, Permutation (srt key l) l /\ StronglySorted (fun x y => key x <= key y) (srt key l).
Definition tid (t : Z * Z * Z) : Prop := let '(a, b, c) := t in id32 a /\ id32 b /\ id32 c.

(** An entry read through one permutation. *)
Definition pent (all : list (Z * Z * Z)) (ord : list nat) (F : mem) (idx : Z) (e : kinfo) : Prop :=
  exists P bs, StronglySorted plt P /\ P <> [] /\
    (forall b c, In (b, c) P <-> exists t, In t all /\ reorder ord t = (ki_key e, b, c)) /\
    tab_ok P (dc_strat (coord_of idx e)) bs /\ contains F (dc_pos (coord_of idx e)) bs /\
    dc_n (coord_of idx e) = zl P /\
    (if (idx =? IDX_SOP) || (idx =? IDX_PSO) || (idx =? IDX_OSP) then ki_l2 e else ki_l1 e) = groups P.

Lemma short_pos pos n : 0 <= pos < 2 ^ 31 -> forall st, dc_pos (mkDc (to_short (pos / 2 ^ 16)) (pos mod 2 ^ 16) n st) = pos.
Proof. intros H st. unfold dc_pos, to_short. cbn [dc_file dc_mark]. lia. Qed.

Lemma contains_bound m p bs : contains m p bs -> 0 <= p /\ p + zl bs <= zl m.
Proof. intros (pre & suf & -> & ->). rewrite !app_length. lia. Qed.

Lemma kent_pent1 all D f ord idx F1 F2 e : kent D F1 F2 e -> zl F1 < 2 ^ 31 ->
  (forall a b c, In (a, b, c) D <-> exists t, In t all /\ reorder ord t = (a, b, c)) ->
  (idx =? IDX_SOP) || (idx =? IDX_PSO) || (idx =? IDX_OSP) = false -> f = F1 ->
  pent all ord f idx e.
Proof.
  intros (P1 & P2 & bs1 & bs2 & A1 & A2 & A3 & A4 & A5 & A6 & A7 & A8 & A9 & A10 & A11 & A12 & A13 & A14) B HD Hi ->.
  destruct (contains_bound _ _ _ A8) as [B1 B2].
  exists P1, bs1. unfold coord_of. rewrite Hi. cbn [dc_strat dc_n]. rewrite short_pos by lia.
  split; auto. split; auto. split; [intros b c; rewrite A2; apply HD|]. auto.
Qed.
Lemma kent_pent2 all D f ord idx F1 F2 e : kent D F1 F2 e -> zl F2 < 2 ^ 31 ->
  (forall a b c, In (a, b, c) D <-> exists t, In t all /\ reorder ord t = (a, c, b)) ->
  (idx =? IDX_SOP) || (idx =? IDX_PSO) || (idx =? IDX_OSP) = true -> f = F2 ->
  pent all ord f idx e.
Proof.
  intros (P1 & P2 & bs1 & bs2 & A1 & A2 & A3 & A4 & A5 & A6 & A7 & A8 & A9 & A10 & A11 & A12 & A13 & A14) B HD Hi ->.
  destruct (contains_bound _ _ _ A10) as [B1 B2].
  exists P2, bs2. unfold coord_of. rewrite Hi. cbn [dc_strat dc_n]. rewrite short_pos by lia.
  split; auto. split; auto. split; [intros b c; rewrite A4; apply HD|]. auto.
Qed.

Lemma ids3_map f T : (forall t, tid t -> ids3 (f t)) -> Forall tid T -> Forall ids3 (map f T).
Proof. intros H HT. apply Forall_forall. intros x Hx. apply in_map_iff in Hx as (t & <- & Ht). rewrite Forall_forall in HT. auto. Qed.
Lemma SS_map {A B} (f : A -> B) (R : A -> A -> Prop) (R' : B -> B -> Prop) l :
  (forall x y, R x y -> R' (f x) (f y)) -> StronglySorted R l -> StronglySorted R' (map f l).
Proof.
  intros H. induction 1 as [|x l Hs IH Hf]; cbn [map]; constructor; auto.
  apply Forall_forall. intros y Hy. apply in_map_iff in Hy as (z & <- & Hz). rewrite Forall_forall in Hf. auto.
Qed.
Lemma perm_in_iff {A} (l l' : list A) : Permutation l l' -> forall x, In x l <-> In x l'.
Proof. intros H x. split; apply Permutation_in; auto. now symmetry. Qed.

Section Update.
Variables (srt : (Z * Z * Z -> Z) -> list (Z * Z * Z) -> list (Z * Z * Z)) (orc : Z -> Z -> bool * bool)
  (files : Z -> mem) (all : list (Z * Z * Z)).
Hypothesis Hsrt : sorts srt.
Hypothesis Hid : Forall tid all.
Hypothesis Hlen : zl all < 2 ^ 28.
Let d := createDiffIndex srt orc files all.
Hypothesis Hfile : forall idx, is_perm idx -> zl (dx_file d idx) < 2 ^ 31.

Definition tree_ok (ord : list nat) (idx : Z) : Prop :=
  StronglySorted Z.lt (map ki_key (tree_of d idx)) /\
  Forall (pent all ord (dx_file d idx) idx) (tree_of d idx) /\
  (forall a, In a (map ki_key (tree_of d idx)) <-> exists t, In t all /\ fst (fst (reorder ord t)) = a).

Let ls := srt (fun t => fst (fst t)) all.
Let lp := srt (fun t => snd (fst t)) ls.
Let lo' := srt (fun t => snd t) lp.
Let fp := fun t : Z * Z * Z => let '(s, p, o) := t in (p, o, s).
Let fo := fun t : Z * Z * Z => let '(s, p, o) := t in (o, p, s).

Lemma ls_perm : Permutation ls all. Proof. apply Hsrt. Qed.
Lemma lp_perm : Permutation lp all. Proof. etransitivity; [apply Hsrt|apply ls_perm]. Qed.
Lemma lo_perm : Permutation lo' all. Proof. etransitivity; [apply Hsrt|apply lp_perm]. Qed.

Lemma pid (f : Z * Z * Z -> Z * Z * Z) l : Permutation l all -> (forall t, tid t -> ids3 (f t)) -> Forall ids3 (map f l).
Proof.
  intros HP Hf. apply ids3_map; auto. apply Forall_forall. intros t Ht.
  apply (Permutation_in _ HP) in Ht. rewrite Forall_forall in Hid. auto.
Qed.

Lemma si_s : si_inv ls (sortIndex (orc IDX_SPO) (files IDX_SPO) (files IDX_SOP) ls).
Proof.
  apply sortIndex_ok.
  - rewrite <- (map_id ls). apply pid; [apply ls_perm|]. intros [[a b] c] (H1 & H2 & H3). unfold ids3, id32 in *. lia.
  - exact (proj2 (Hsrt _ _)).
  - rewrite (Permutation_length ls_perm). exact Hlen.
  - apply (Hfile IDX_SPO). unfold is_perm, IDX_SPO. lia.
  - apply (Hfile IDX_SOP). unfold is_perm, IDX_SOP. lia.
Qed.
Lemma si_p : si_inv (map fp lp) (sortIndex (orc IDX_POS) (files IDX_POS) (files IDX_PSO) (map fp lp)).
Proof.
  apply sortIndex_ok.
  - apply pid; [apply lp_perm|]. intros [[a b] c] (H1 & H2 & H3). unfold fp, ids3, id32 in *. lia.
  - eapply SS_map; [|exact (proj2 (Hsrt _ _))]. intros [[a b] c] [[a' b'] c']. unfold fp, le3, k3. cbn. auto.
  - rewrite map_length, (Permutation_length lp_perm). exact Hlen.
  - apply (Hfile IDX_POS). unfold is_perm, IDX_POS. lia.
  - apply (Hfile IDX_PSO). unfold is_perm, IDX_PSO. lia.
Qed.
Lemma si_o : si_inv (map fo lo') (sortIndex (orc IDX_OPS) (files IDX_OPS) (files IDX_OSP) (map fo lo')).
Proof.
  apply sortIndex_ok.
  - apply pid; [apply lo_perm|]. intros [[a b] c] (H1 & H2 & H3). unfold fo, ids3, id32 in *. lia.
  - eapply SS_map; [|exact (proj2 (Hsrt _ _))]. intros [[a b] c] [[a' b'] c']. unfold fo, le3, k3. cbn. auto.
  - rewrite map_length, (Permutation_length lo_perm). exact Hlen.
  - apply (Hfile IDX_OPS). unfold is_perm, IDX_OPS. lia.
  - apply (Hfile IDX_OSP). unfold is_perm, IDX_OSP. lia.
Qed.

Lemma in_map_perm (f : Z * Z * Z -> Z * Z * Z) l : Permutation l all ->
  forall x, In x (map f l) <-> exists t, In t all /\ f t = x.
Proof.
  intros HP x. rewrite in_map_iff. split; intros (t & H1 & H2); exists t.
  - split; auto. now apply (Permutation_in _ HP).
  - split; auto. now apply (Permutation_in _ (Permutation_sym HP)).
Qed.

Lemma tree_ok_all idx ord : perm_positions idx = Some ord -> tree_ok ord idx.
Proof.
  intros Hp. assert (Hi : idx = IDX_SPO \/ idx = IDX_OPS \/ idx = IDX_POS \/ idx = IDX_SOP \/ idx = IDX_OSP \/ idx = IDX_PSO).
  { unfold perm_positions in Hp.
    repeat match type of Hp with context [?a =? ?b] => destruct (Z.eqb_spec a b); [auto 10|] end. discriminate. }
  destruct si_s as (S1 & S2 & S3 & _), si_p as (P1 & P2 & P3 & _), si_o as (O1 & O2 & O3 & _).
  assert (Ks : forall x, In x ls <-> exists t, In t all /\ t = x).
  { intros x. rewrite <- (map_id ls), (in_map_perm (fun t => t) ls ls_perm). reflexivity. }
  assert (Kp := in_map_perm fp lp lp_perm). assert (Ko := in_map_perm fo lo' lo_perm).
  assert (Kf : forall (f : Z * Z * Z -> Z * Z * Z) (l : list (Z * Z * Z)) (ord : list nat), (forall x, In x l <-> exists t, In t all /\ f t = x) ->
    (forall t, fst (fst (f t)) = fst (fst (reorder ord t))) ->
    forall a, (exists b c, In (a, b, c) l) <-> exists t, In t all /\ fst (fst (reorder ord t)) = a).
  { clear. intros f l ord H E a. split.
    - intros (b & c & Hin). apply H in Hin as (t & Ht & Et). exists t. split; auto. rewrite <- E, Et. reflexivity.
    - intros (t & Ht & Et). rewrite <- E in Et. destruct (f t) as [[x b] c] eqn:Ef. cbn [fst] in Et. subst x. exists b, c. apply H. eauto. }
  destruct Hi as [-> |[-> |[-> |[-> |[-> | ->]]]]]; injection Hp as <-.
  - split; [exact S1|]. split.
    + eapply Forall_impl; [|exact S2]. intros e He. eapply kent_pent1; [exact He| | | |]; [apply (Hfile IDX_SPO); unfold is_perm, IDX_SPO; lia| |reflexivity|reflexivity].
      intros a b c. rewrite Ks. split; intros (t & Ht & E); exists t; (split; [exact Ht|]); destruct t as [[x y] z]; exact E.
    + intros a. etransitivity; [apply S3|]. apply (Kf (fun t => t)); auto. intros [[x y] z]. reflexivity.
  - split; [exact O1|]. split.
    + eapply Forall_impl; [|exact O2]. intros e He. eapply kent_pent1; [exact He| | | |]; [apply (Hfile IDX_OPS); unfold is_perm, IDX_OPS; lia| |reflexivity|reflexivity].
      intros a b c. rewrite Ko. split; intros (t & Ht & E); exists t; (split; [exact Ht|]); destruct t as [[x y] z]; exact E.
    + intros a. etransitivity; [apply O3|]. apply (Kf fo); auto. intros [[x y] z]. reflexivity.
  - split; [exact P1|]. split.
    + eapply Forall_impl; [|exact P2]. intros e He. eapply kent_pent1; [exact He| | | |]; [apply (Hfile IDX_POS); unfold is_perm, IDX_POS; lia| |reflexivity|reflexivity].
      intros a b c. rewrite Kp. split; intros (t & Ht & E); exists t; (split; [exact Ht|]); destruct t as [[x y] z]; exact E.
    + intros a. etransitivity; [apply P3|]. apply (Kf fp); auto. intros [[x y] z]. reflexivity.
  - split; [exact S1|]. split.
    + eapply Forall_impl; [|exact S2]. intros e He. eapply kent_pent2; [exact He| | | |]; [apply (Hfile IDX_SOP); unfold is_perm, IDX_SOP; lia| |reflexivity|reflexivity].
      intros a b c. rewrite Ks. split; intros (t & Ht & E); exists t; (split; [exact Ht|]); destruct t as [[x y] z];
        unfold fp, fo, reorder in *; cbn [nth field] in *; congruence.
    + intros a. etransitivity; [apply S3|]. apply (Kf (fun t => t)); auto. intros [[x y] z]. reflexivity.
  - split; [exact O1|]. split.
    + eapply Forall_impl; [|exact O2]. intros e He. eapply kent_pent2; [exact He| | | |]; [apply (Hfile IDX_OSP); unfold is_perm, IDX_OSP; lia| |reflexivity|reflexivity].
      intros a b c. rewrite Ko. split; intros (t & Ht & E); exists t; (split; [exact Ht|]); destruct t as [[x y] z];
        unfold fp, fo, reorder in *; cbn [nth field] in *; congruence.
    + intros a. etransitivity; [apply O3|]. apply (Kf fo); auto. intros [[x y] z]. reflexivity.
  - split; [exact P1|]. split.
    + eapply Forall_impl; [|exact P2]. intros e He. eapply kent_pent2; [exact He| | | |]; [apply (Hfile IDX_PSO); unfold is_perm, IDX_PSO; lia| |reflexivity|reflexivity].
      intros a b c. rewrite Kp. split; intros (t & Ht & E); exists t; (split; [exact Ht|]); destruct t as [[x y] z];
        unfold fp, fo, reorder in *; cbn [nth field] in *; congruence.
    + intros a. etransitivity; [apply P3|]. apply (Kf fp); auto. intros [[x y] z]. reflexivity.
Qed.
End Update.
