(** C43: the files written for an update return exactly the triples of the update. *)
From Verif Require Import QuerySpec ItrProofs ItrProps TableProofs CompProofs RowProofs ClusterProofs ColumnProofs TableProps DiffModel DiffProofs DiffProofs2.
From Coq Require Import Sorted Permutation ZifyBool.
Local Open Scope Z_scope.
Ltac Zify.zify_post_hook ::= Z.div_mod_to_equations.

(** ** Specification *)

(** The triple x, read in the order of a permutation, belongs to the update and has the values
    that were asked for (-1: any). *)
Definition selected (all : list triple) (ord : list nat) (first second third : Z) (x : triple) : Prop :=
  (exists t, In t all /\ x = reorder ord t) /\ field x 0 = first /\
  (second = -1 \/ field x 1 = second) /\ (third = -1 \/ field x 2 = third).

(** The update [all] was written to disk as [d]: identifiers are below 2^32 - 1, the update
    has less than 2^28 triples and the files stay below 2 GB.  std::sort may leave triples
    with equal keys in any order, [orc] is any sequence of choices between the row and the
    column form, and the files may hold earlier updates. *)
Definition written (all : list triple) (d : dix) : Prop :=
  exists srt orc files, sorts srt /\ d = createDiffIndex srt orc files all /\
    Forall tid all /\ zl all < 2 ^ 28 /\ (forall idx, is_perm idx -> zl (dx_file d idx) < 2 ^ 31).

(** The values a client may ask for. *)
Definition request (first second third : Z) : Prop :=
  int64 first /\ (second = -1 /\ third = -1 \/ int64 second /\ (third = -1 \/ int64 third)).

(** ** Proofs *)
Lemma written_tree all d idx ord : written all d -> perm_positions idx = Some ord ->
  StronglySorted Z.lt (map ki_key (tree_of d idx)) /\
  Forall (pent all ord (dx_file d idx) idx) (tree_of d idx) /\
  (forall a, In a (map ki_key (tree_of d idx)) <-> exists t, In t all /\ fst (fst (reorder ord t)) = a) /\
  zl (dx_file d idx) < 2 ^ 31.
Proof.
  intros (srt & orc & files & H1 & -> & H2 & H3 & H4) Hp.
  destruct (tree_ok_all srt orc files all H1 H2 H3 H4 idx ord Hp) as (A & B & C). repeat (split; auto).
  apply H4. unfold perm_positions in Hp. unfold is_perm, IDX_SPO, IDX_OPS, IDX_POS, IDX_SOP, IDX_OSP, IDX_PSO in *.
  repeat match type of Hp with context [?a =? ?b] => destruct (Z.eqb_spec a b); [lia|] end. discriminate.
Qed.

Lemma find_key l k : StronglySorted Z.lt (map ki_key l) ->
  match find (fun e => ki_key e =? k) l with
  | Some e => In e l /\ ki_key e = k
  | None => ~ In k (map ki_key l)
  end.
Proof.
  intros _. destruct (find _ l) as [e|] eqn:E.
  - apply find_some in E as [H1 H2]. split; auto. lia.
  - intros Hin. apply in_map_iff in Hin as (e & <- & He). pose proof (find_none _ _ E e He). cbn in *. lia.
Qed.

Lemma filter_sorted {A} (R : A -> A -> Prop) f l : StronglySorted R l -> StronglySorted R (filter f l).
Proof.
  induction 1 as [|x l Hs IH Hf]; cbn [filter]; [constructor|]. destruct (f x); auto. constructor; auto.
  apply Forall_forall. intros y Hy. apply filter_In in Hy as [Hy _]. rewrite Forall_forall in Hf. auto.
Qed.
Lemma with_key_sorted k l : StronglySorted plt l -> StronglySorted elt (with_key k l).
Proof. apply SS_map. intros [a b] [a' b']. unfold plt, elt. cbn. intros H. right. lia. Qed.

Lemma in_with_key k l x : In x (with_key k l) <-> exists a b, x = (k, a, b) /\ In (a, b) l.
Proof.
  unfold with_key. rewrite in_map_iff. split.
  - intros ([a b] & <- & H). eauto.
  - intros (a & b & -> & H). exists (a, b). auto.
Qed.

(** A table with the two kinds of constraints. *)
Lemma open_yields all ord F pad idx e k second third : pent all ord F idx e -> zl F < 2 ^ 31 ->
  (second = -1 /\ third = -1 \/ int64 second /\ (third = -1 \/ int64 third)) -> (third <> -1 -> 8 <= zl pad) ->
  exists o P, open_at (F ++ pad) (coord_of idx e) k second third = Some o /\
    StronglySorted plt P /\ P <> [] /\ (forall b c, In (b, c) P <-> exists t, In t all /\ reorder ord t = (ki_key e, b, c)) /\
    dc_n (coord_of idx e) = zl P /\
    (if (idx =? IDX_SOP) || (idx =? IDX_PSO) || (idx =? IDX_OSP) then ki_l2 e else ki_l1 e) = groups P /\
    Yields true (with_key k (filter (pair_matches second third) P)) o /\
    (second = -1 -> exists bk, Table k bk P o).
Proof.
  intros (P & bs & S1 & S2 & S3 & S4 & S5 & S6 & S7) HF Hr Hpad.
  destruct (contains_bound _ _ _ S5) as [B1 B2]. apply (contains_ext _ _ _ pad) in S5.
  destruct (tab_cases P _ bs (F ++ pad) (coord_of idx e) k S4 S1 S2 S5 S6 eq_refl ltac:(lia)) as (A1 & A2 & A3).
  destruct Hr as [[-> ->]|[H2 [-> |H3]]].
  - destruct A1 as (o & bk & E & T). exists o, P. rewrite E. split; auto. repeat (split; auto).
    + replace (filter (pair_matches (-1) (-1)) P) with P; [eapply C10_table_yields; eauto|].
      clear. induction P as [|x P IH]; auto. cbn [filter]. unfold pair_matches at 1. cbn. now rewrite <- IH.
    + eauto.
  - destruct (A2 second H2) as (o & bk & E & T & _). exists o, P. rewrite E. split; auto. repeat (split; auto).
    + now apply C12_scan_yields.
    + intros ->. unfold int64 in H2. lia.
  - destruct (A3 second third H2 H3) as (o & bk & E & T).
    { rewrite app_length. unfold int64 in H3. lia. }
    exists o, P. rewrite E. split; auto. repeat (split; auto).
    + eapply Cursor_yields; eauto.
    + intros ->. unfold int64 in H2. lia.
Qed.

(** The lookup finds the entry, and the table behind it. *)
Lemma get_cases all d pad idx ord first second third : written all d -> perm_positions idx = Some ord ->
  request first second third -> (third <> -1 -> 8 <= zl (pad idx)) ->
  exists o P, diff_get d (fun i => dx_file d i ++ pad i) idx first second third = Some o /\
    StronglySorted plt P /\ (forall b c, In (b, c) P <-> exists t, In t all /\ reorder ord t = (first, b, c)) /\
    diff_card d idx first = zl P /\
    Yields true (with_key first (filter (pair_matches second third) P)) o /\
    (second = -1 -> P <> [] -> exists bk, Table first bk P o).
Proof.
  intros HW Hp [Hf Hr] Hpad. destruct (written_tree _ _ _ _ HW Hp) as (K1 & K2 & K3 & K4).
  unfold diff_get, diff_card, tree_get. replace (first <? 0) with false by (unfold int64 in Hf; lia).
  pose proof (find_key (tree_of d idx) first K1) as HF. destruct (find _ _) as [e|].
  - destruct HF as [He Ek]. rewrite Forall_forall in K2.
    replace (if second =? -1 then -1 else third) with third by (unfold int64 in *; destruct (second =? -1) eqn:?; lia).
    destruct (open_yields all ord (dx_file d idx) (pad idx) idx e first second third (K2 e He) K4 Hr Hpad)
      as (o & P & E & S1 & S2 & S3 & S4 & _ & S5 & S6).
    exists o, P. rewrite Ek in S3. auto 10.
  - exists (empty_itr 0), []. split; auto. split; [constructor|]. split.
    + intros b c. split; [intros []|]. intros (t & Ht & E). apply HF, K3. exists t. split; auto. now rewrite E.
    + split; [reflexivity|]. split; [apply empty_yields|congruence].
Qed.

Lemma matches_iff second third b c : pair_matches second third (b, c) = true <->
  (second = -1 \/ b = second) /\ (third = -1 \/ c = third).
Proof. unfold pair_matches. cbn [fst snd]. rewrite andb_true_iff, !orb_true_iff, !Z.eqb_eq. tauto. Qed.

Lemma selected_iff all ord first second third P : length ord = 3%nat ->
  (forall b c, In (b, c) P <-> exists t, In t all /\ reorder ord t = (first, b, c)) ->
  forall x, In x (with_key first (filter (pair_matches second third) P)) <-> selected all ord first second third x.
Proof.
  intros _ HP x. rewrite in_with_key. unfold selected. split.
  - intros (b & c & -> & H). apply filter_In in H as [H Hm]. apply HP in H as (t & Ht & E). apply matches_iff in Hm as [M1 M2].
    split; [eauto|]. cbn. auto.
  - intros ((t & Ht & E) & E1 & M1 & M2). destruct x as [[a b] c]. cbn in E1, M1, M2. subst a. exists b, c. split; auto.
    apply filter_In. split; [apply HP; eauto|]. apply matches_iff. auto.
Qed.

Lemma positions_3 idx ord : perm_positions idx = Some ord -> length ord = 3%nat.
Proof.
  unfold perm_positions. intros H.
  repeat match type of H with context [?a =? ?b] => destruct (Z.eqb_spec a b); [injection H as <-; reflexivity|] end. discriminate.
Qed.

(** ** Theorems *)

(** C43.  Looking up a key of an update, with or without a second value: exactly the triples
    of the update with these values, in the order of the permutation, each once.  [pad] is
    what follows the tables in the mapped file.  Missing: identifiers from 2^32 - 1 on, see
    C43_last_pair_refuted and C43_large_ids_refuted; files from 2 GB on, see
    C43_large_file_refuted. *)
Theorem C43_lookup_partial : forall all d pad idx ord first second, written all d ->
  perm_positions idx = Some ord -> int64 first -> second = -1 \/ int64 second ->
  exists o R, diff_get d (fun i => dx_file d i ++ pad i) idx first second (-1) = Some o /\
    Yields true R o /\ StronglySorted elt R /\
    (forall x, In x R <-> selected all ord first second (-1) x).
Proof.
  intros all d pad idx ord first second HW Hp Hf Hs.
  destruct (get_cases all d pad idx ord first second (-1) HW Hp) as (o & P & E & S1 & S2 & S3 & S4 & _); [|congruence|].
  { split; auto. destruct Hs; auto. }
  exists o. eexists. split; [exact E|]. split; [exact S4|]. split; [now apply with_key_sorted, filter_sorted|].
  apply selected_iff; auto. eapply positions_3; eauto.
Qed.
Print Assumptions C43_lookup_partial.

(** C43.  With all three values, if eight more bytes can be read after the tables. *)
Theorem C43_lookup_all_partial : forall all d pad idx ord first second third, written all d ->
  perm_positions idx = Some ord -> int64 first -> int64 second -> int64 third -> 8 <= zl (pad idx) ->
  exists o R, diff_get d (fun i => dx_file d i ++ pad i) idx first second third = Some o /\
    Yields true R o /\ StronglySorted elt R /\
    (forall x, In x R <-> selected all ord first second third x).
Proof.
  intros all d pad idx ord first second third HW Hp Hf Hs Ht Hpad.
  destruct (get_cases all d pad idx ord first second third HW Hp) as (o & P & E & S1 & S2 & S3 & S4 & _); [|auto|].
  { split; auto. }
  exists o. eexists. split; [exact E|]. split; [exact S4|]. split; [now apply with_key_sorted, filter_sorted|].
  apply selected_iff; auto. eapply positions_3; eauto.
Qed.
Print Assumptions C43_lookup_all_partial.

(** C43.  The table of a key can be searched, marked, reset and read without its second column
    like any other table (TableSpec.Table). *)
Theorem C43_table_partial : forall all d pad idx ord first, written all d ->
  perm_positions idx = Some ord -> int64 first -> (exists t, In t all /\ field (reorder ord t) 0 = first) ->
  exists o P bk, diff_get d (fun i => dx_file d i ++ pad i) idx first (-1) (-1) = Some o /\
    Table first bk P o /\ StronglySorted plt P /\
    (forall b c, In (b, c) P <-> exists t, In t all /\ reorder ord t = (first, b, c)).
Proof.
  intros all d pad idx ord first HW Hp Hf (t & Ht & Et).
  destruct (get_cases all d pad idx ord first (-1) (-1) HW Hp) as (o & P & E & S1 & S2 & S3 & S4 & S5); [split; auto|congruence|].
  destruct S5 as (bk & T); auto.
  { intros ->. destruct (reorder ord t) as [[a b] c] eqn:Er. cbn in Et. subst a. apply (S2 b c). eauto. }
  exists o, P, bk. auto.
Qed.
Print Assumptions C43_table_partial.

(** C43.  The number of pairs kept for a key is the number of distinct triples of the update
    with that key. *)
Definition triple_dec (x y : triple) : {x = y} + {x <> y}.
Proof. repeat decide equality. Defined.
Theorem C43_cardinality_partial : forall all d idx ord first, written all d ->
  perm_positions idx = Some ord -> int64 first ->
  diff_card d idx first = zl (filter (fun x => field x 0 =? first) (nodup triple_dec (map (reorder ord) all))).
Proof.
  intros all d idx ord first HW Hp Hf.
  destruct (get_cases all d (fun _ => []) idx ord first (-1) (-1) HW Hp) as (o & P & E & S1 & S2 & S3 & _); [split; auto|congruence|].
  rewrite S3. f_equal. rewrite <- (map_length (fun e => (first, fst e, snd e)) P). apply Permutation_length, NoDup_Permutation.
  - apply FinFun.Injective_map_NoDup; [intros [a b] [a' b'] [= -> ->]; reflexivity|now apply plt_nodup].
  - apply NoDup_filter, NoDup_nodup.
  - intros x. change (In x (with_key first P) <-> In x (filter (fun x => field x 0 =? first) (nodup triple_dec (map (reorder ord) all)))).
    rewrite in_with_key, filter_In, nodup_In, in_map_iff. split.
    + intros (b & c & -> & H). apply S2 in H as (t & Ht & Et). split; [eauto|cbn; lia].
    + intros ((t & Et & Ht) & H). destruct x as [[a b] c]. cbn in H. assert (a = first) as -> by lia. exists b, c. split; auto. apply S2. eauto.
Qed.
Print Assumptions C43_cardinality_partial.

(** ** Scanning *)
Section Scan.
Variable m : mem.
Definition opens (x : Z * dcoord * list (Z * Z)) : Prop :=
  snd x <> [] /\ exists o, open_at m (snd (fst x)) 0 (-1) (-1) = Some o /\ Yields true (with_key 0 (snd x)) o.
Definition flat (E : list (Z * dcoord * list (Z * Z))) : list elem := flat_map (fun x => with_key (fst (fst x)) (snd x)) E.

Definition ds_rest (s : ds_itr) (R : list elem) (o : option pitr) : Prop :=
  exists E l, di_root s = map fst E /\ Forall opens E /\ R = with_key (di_key s) l ++ flat E /\
    match o with None => l = [] | Some o => Yields true (with_key 0 l) o end.
Definition ds_fresh (s : ds_itr) (R : list elem) : Prop :=
  di_hnc s = false /\ di_ign s = false /\ ds_rest s R (di_cur s).
Definition ds_polled (s : ds_itr) (R : list elem) : Prop :=
  di_hnc s = true /\ di_ign s = false /\ di_hn s = nonempty R /\
  match R with
  | [] => True
  | x :: t => exists o, di_cur s = Some o /\ x = (di_key s, value1 o, value2 o) /\ ds_rest s t (Some o)
  end.

Lemma dsi_open_ok s E : di_root s = map fst E -> Forall opens E -> di_ign s = false ->
  exists s', dsi_open m s = Some (nonempty (flat E), s') /\ ds_polled s' (flat E).
Proof.
  intros HR HE Hi. destruct HE as [|[[k c] P] E [Hne (o & Eo & Y)] HE]; cbn [map fst] in HR; unfold dsi_open; rewrite HR.
  - eexists. split; [reflexivity|]. repeat split; auto.
  - cbn [fst snd] in *. rewrite Eo. destruct P as [|[a b] P]; [congruence|].
    destruct (Yields_poll _ _ _ Y) as (o1 & -> & _ & o2 & E2 & Ec & _ & Y2). rewrite Hi, E2.
    eexists. split; [reflexivity|]. split; [reflexivity|]. split; [reflexivity|]. split; [reflexivity|].
    cbn [flat flat_map fst snd with_key map app]. unfold cur in Ec. cbn [fst snd] in Ec. exists o2. cbn [di_cur di_key].
    split; auto. split; [congruence|]. exists E, P. auto.
Qed.

Lemma dsi_hasNext_fresh s R : ds_fresh s R ->
  exists s', dsi_hasNext m s = Some (nonempty R, s') /\ ds_polled s' R.
Proof.
  intros (H1 & H2 & E & l & HR & HE & -> & Hc). unfold dsi_hasNext. rewrite H1. destruct (di_cur s) as [o|] eqn:Eo.
  - destruct (Yields_poll _ _ _ Hc) as (o1 & -> & _ & H3). destruct l as [|[a b] l]; cbn [with_key map nonempty] in *.
    + now apply dsi_open_ok.
    + destruct H3 as (o2 & E2 & Ec & _ & Y2). rewrite E2. cbn [app nonempty].
      eexists. split; [reflexivity|]. split; [reflexivity|]. split; [exact H2|]. split; [reflexivity|]. exists o2. cbn [di_cur di_key].
      unfold cur in Ec. cbn [fst snd] in Ec. split; auto. split; [cbn [fst snd]; congruence|]. exists E, l. auto.
  - subst l. now apply dsi_open_ok.
Qed.

Lemma dsi_yields R : forall s, ds_fresh s R -> Yields true R (dsi_obj m s).
Proof.
  induction R as [|x R IH]; intros s Hs; rewrite Yields_unfold; intros o' Hp.
  - assert (HQ : exists s', o' = dsi_obj m s' /\ (s' = s \/ ds_polled s' [])).
    { induction Hp as [|o1 b o2 Hp IH Hb]; [eauto|]. destruct IH as (s1 & -> & [-> |HP]); [|exists s1; split; auto];
        change (match dsi_hasNext m s with Some (b, s') => Some (b, dsi_obj m s') | None => None end = Some (b, o2)) in Hb ||
        change (match dsi_hasNext m s1 with Some (b, s') => Some (b, dsi_obj m s') | None => None end = Some (b, o2)) in Hb.
      - destruct (dsi_hasNext_fresh s [] Hs) as (s' & E & HP). rewrite E in Hb. injection Hb as <- <-. eauto.
      - unfold dsi_hasNext in Hb. rewrite (proj1 HP) in Hb. now injection Hb as _ <-. }
    destruct HQ as (s' & -> & [-> |HP]).
    + destruct (dsi_hasNext_fresh s [] Hs) as (s' & E & HP). exists (dsi_obj m s'). split; [|exact I].
      change (match dsi_hasNext m s with Some (b, s') => Some (b, dsi_obj m s') | None => None end = Some (nonempty (@nil elem), dsi_obj m s')). now rewrite E.
    + exists (dsi_obj m s'). split; [|exact I].
      change (match dsi_hasNext m s' with Some (b, s') => Some (b, dsi_obj m s') | None => None end = Some (nonempty (@nil elem), dsi_obj m s')).
      unfold dsi_hasNext. destruct HP as (-> & _ & -> & _). reflexivity.
  - assert (HQ : exists s', o' = dsi_obj m s' /\ (s' = s \/ ds_polled s' (x :: R))).
    { clear IH. induction Hp as [|o1 b o2 Hp IH Hb]; [eauto|]. destruct IH as (s1 & -> & [-> |HP]); [|exists s1; split; auto];
        change (match dsi_hasNext m s with Some (b, s') => Some (b, dsi_obj m s') | None => None end = Some (b, o2)) in Hb ||
        change (match dsi_hasNext m s1 with Some (b, s') => Some (b, dsi_obj m s') | None => None end = Some (b, o2)) in Hb.
      - destruct (dsi_hasNext_fresh s _ Hs) as (s' & E & HP). rewrite E in Hb. injection Hb as <- <-. eauto.
      - unfold dsi_hasNext in Hb. rewrite (proj1 HP) in Hb. now injection Hb as _ <-. }
    assert (HN : exists s1, hasNext o' = Some (true, dsi_obj m s1) /\ ds_polled s1 (x :: R)).
    { destruct HQ as (s' & -> & [-> |HP]).
      - destruct (dsi_hasNext_fresh s _ Hs) as (s' & E & HP). exists s'. split; auto.
        change (match dsi_hasNext m s with Some (b, s') => Some (b, dsi_obj m s') | None => None end = Some (true, dsi_obj m s')). now rewrite E.
      - exists s'. split; auto.
        change (match dsi_hasNext m s' with Some (b, s') => Some (b, dsi_obj m s') | None => None end = Some (true, dsi_obj m s')).
        unfold dsi_hasNext. destruct HP as (-> & _ & -> & _). reflexivity. }
    clear HQ. destruct HN as (s1 & E1 & HP). exists (dsi_obj m s1). split; [exact E1|].
    destruct HP as (P1 & P2 & P3 & o & P4 & P5 & P6).
    exists (dsi_obj m (mkDsi (di_root s1) (di_key s1) (Some o) (di_hn s1) false (di_ign s1) (di_key s1) (value1 o) (value2 o))). split.
    { change (match dsi_next s1 with Some s' => Some (dsi_obj m s') | None => None end = Some (dsi_obj m (mkDsi (di_root s1) (di_key s1) (Some o) (di_hn s1) false (di_ign s1) (di_key s1) (value1 o) (value2 o)))).
      unfold dsi_next. now rewrite P4. }
    split; [now rewrite P5|]. split.
    + intros _. exists 1.
      match goal with |- getCount (dsi_obj m ?s) = _ =>
        change (match dsi_getCount s with Some (n, s') => Some (n, dsi_obj m s') | None => None end = Some (1, dsi_obj m s)) end.
      unfold dsi_getCount. cbn [di_ign]. rewrite P2. reflexivity.
    + apply IH. split; [reflexivity|]. split; [exact P2|]. exact P6.
Qed.
End Scan.

Lemma scan_list all ord F pad idx T : zl F < 2 ^ 31 -> Forall (pent all ord F idx) T ->
  exists E, map fst E = map (fun e => (ki_key e, coord_of idx e)) T /\ Forall (opens (F ++ pad)) E /\
    Forall (fun x => StronglySorted plt (snd x) /\ dc_n (snd (fst x)) = zl (snd x) /\
      (forall b c, In (b, c) (snd x) <-> exists t, In t all /\ reorder ord t = (fst (fst x), b, c))) E.
Proof.
  intros HF. induction 1 as [|e T He HT IH]; [exists []; repeat split; constructor|].
  destruct IH as (E & E1 & E2 & E3).
  destruct (open_yields all ord F pad idx e 0 (-1) (-1) He HF) as (o & P & A1 & A2 & A3 & A4 & A5 & _ & A6 & _); [auto|congruence|].
  exists ((ki_key e, coord_of idx e, P) :: E). cbn [map fst]. rewrite E1. split; auto. split.
  - constructor; auto. split; [exact A3|]. exists o. cbn [fst snd]. split; auto.
    replace (filter (pair_matches (-1) (-1)) P) with P in A6; auto.
    clear. induction P as [|x P IH]; auto. cbn [filter]. unfold pair_matches at 1. cbn. now rewrite <- IH.
  - constructor; auto.
Qed.

Lemma flat_sorted E : StronglySorted Z.lt (map (fun x : Z * dcoord * list (Z * Z) => fst (fst x)) E) ->
  Forall (fun x => StronglySorted plt (snd x)) E -> StronglySorted elt (flat E).
Proof.
  intros HS HE. induction HE as [|[[k c] P] E HP HE IH]; cbn [flat flat_map]; [constructor|].
  cbn [map fst snd] in *. inversion HS as [|? ? HS' Hf]; subst. specialize (IH HS'). apply with_key_sorted with (k := k) in HP.
  assert (HK : Forall (fun y => k < fst (fst y)) (flat E)).
  { apply Forall_forall. intros y Hy. apply in_flat_map in Hy as ([[k' c'] P'] & HE' & Hy). apply in_with_key in Hy as (a & b & -> & _).
    cbn [fst] in *. rewrite Forall_forall in Hf. apply Hf. apply in_map_iff. exists (k', c', P'). auto. }
  assert (HK' : Forall (fun y => fst (fst y) = k) (with_key k P)).
  { apply Forall_forall. intros y Hy. apply in_with_key in Hy as (a & b & -> & _). reflexivity. }
  fold (flat E). induction HP as [|y l Hl IHl Hy]; cbn [app]; auto. inversion HK' as [|? ? K1 K2]; subst. constructor; auto.
  apply Forall_app. split; auto. eapply Forall_impl; [|exact HK]. intros [[k' a] b] Hk. destruct y as [[k0 a0] b0]. cbn in *. left. lia.
Qed.

Lemma elt_nodup l : StronglySorted elt l -> NoDup l.
Proof.
  induction 1 as [|x l Hs IH Hf]; constructor; auto. intros Hin. rewrite Forall_forall in Hf.
  specialize (Hf x Hin). destruct x as [[a b] c]. unfold elt in Hf. lia.
Qed.

Lemma scan_cases all d pad idx ord : written all d -> perm_positions idx = Some ord ->
  exists R, Yields true R (diff_scan d (fun i => dx_file d i ++ pad i) idx) /\ StronglySorted elt R /\
    (forall x, In x R <-> exists t, In t all /\ x = reorder ord t) /\ zl R = zsum (map ki_n (tree_of d idx)).
Proof.
  intros HW Hp. destruct (written_tree _ _ _ _ HW Hp) as (K1 & K2 & K3 & K4).
  destruct (scan_list all ord (dx_file d idx) (pad idx) idx (tree_of d idx) K4 K2) as (E & E1 & E2 & E3).
  exists (flat E). split; [|split; [|split]].
  - apply dsi_yields. split; [reflexivity|]. split; [reflexivity|]. exists E, []. cbn [di_root di_key di_cur with_key map app]. auto.
  - apply flat_sorted; [|eapply Forall_impl; [|exact E3]; cbn; tauto].
    replace (map (fun x : Z * dcoord * list (Z * Z) => fst (fst x)) E) with (map ki_key (tree_of d idx)); auto.
    rewrite <- (map_map fst fst), E1, map_map. reflexivity.
  - intros x. unfold flat. rewrite in_flat_map. rewrite Forall_forall in E3. split.
    + intros (y & Hy & Hx). apply in_with_key in Hx as (b & c & -> & Hb). apply (E3 y Hy) in Hb as (t & Ht & Et). eauto.
    + intros (t & Ht & ->). destruct (reorder ord t) as [[a b] c] eqn:Er.
      assert (Ha : In a (map fst (map fst E))).
      { rewrite E1, map_map. apply K3. exists t. split; auto. now rewrite Er. }
      rewrite map_map in Ha. apply in_map_iff in Ha as (y & <- & Hy). exists y. split; auto.
      apply in_with_key. exists b, c. split; auto. apply (E3 y Hy). eauto.
  - transitivity (zsum (map (fun x => dc_n (snd (fst x))) E)).
    + clear - E3. induction E3 as [|x E (_ & H & _) HE IH]; auto. cbn [flat flat_map map zsum fold_right].
      rewrite app_length. unfold with_key at 1. rewrite map_length. fold (flat E). unfold zsum in IH. lia.
    + rewrite <- (map_map fst (fun y => dc_n (snd y))), E1, map_map. reflexivity.
Qed.

(** C43.  A scan of an update in any of the six orders delivers its triples in that order, each
    once. *)
Theorem C43_scan_partial : forall all d pad idx ord, written all d -> perm_positions idx = Some ord ->
  exists R, Yields true R (diff_scan d (fun i => dx_file d i ++ pad i) idx) /\ StronglySorted elt R /\
    (forall x, In x R <-> exists t, In t all /\ x = reorder ord t).
Proof. intros all d pad idx ord HW Hp. destruct (scan_cases all d pad idx ord HW Hp) as (R & A & B & C & _). eauto. Qed.
Print Assumptions C43_scan_partial.

(** C43.  The size of an update is the number of its distinct triples. *)
Theorem C43_size_partial : forall all d, written all d -> diff_size d = zl (nodup triple_dec all).
Proof.
  intros all d HW. destruct (scan_cases all d (fun _ => []) IDX_SPO [0; 1; 2]%nat HW eq_refl) as (R & _ & B & C & D).
  assert (E : diff_size d = zl R).
  { rewrite D. destruct HW as (srt & orc & files & H1 & -> & H2 & H3 & H4).
    destruct (si_s srt orc files all H1 H2 H3 H4) as (_ & _ & _ & E). exact E. }
  rewrite E. f_equal. apply Permutation_length, NoDup_Permutation; [now apply elt_nodup|apply NoDup_nodup|].
  intros x. rewrite nodup_In, C. split.
  - intros (t & Ht & ->). destruct t as [[a b] c]. exact Ht.
  - intros Hx. exists x. split; auto. now destruct x as [[a b] c].
Qed.
Print Assumptions C43_size_partial.

(** C43.  The statistics collected while writing: for a key, each distinct second value with
    the number of its pairs. *)
Theorem C43_statistics_partial : forall all d idx ord e, written all d -> perm_positions idx = Some ord ->
  In e (tree_of d idx) ->
  exists P, StronglySorted plt P /\
    (forall b c, In (b, c) P <-> exists t, In t all /\ reorder ord t = (ki_key e, b, c)) /\
    (if (idx =? IDX_SOP) || (idx =? IDX_PSO) || (idx =? IDX_OSP) then ki_l2 e else ki_l1 e) = groups P.
Proof.
  intros all d idx ord e HW Hp He. destruct (written_tree _ _ _ _ HW Hp) as (_ & K & _).
  rewrite Forall_forall in K. destruct (K e He) as (P & bs & A & _ & B & _ & _ & _ & C). eauto.
Qed.
Print Assumptions C43_statistics_partial.

(** ** Updates on disk and the query *)

Definition matching (ord : list nat) (first second : Z) (l : list triple) : list triple :=
  filter (fun x => (field x 0 =? first) && ((second =? -1) || (field x 1 =? second))) (map (reorder ord) l).

Lemma matching_in ord first second l x : In x (matching ord first second l) <-> selected l ord first second (-1) x.
Proof.
  unfold matching, selected. rewrite filter_In, in_map_iff, andb_true_iff, orb_true_iff, !Z.eqb_eq. split.
  - intros ((t & <- & Ht) & H1 & H2). split; eauto.
  - intros ((t & Ht & ->) & H1 & H2 & _). split; eauto.
Qed.

Definition same_upd (u u' : bool * list elem) : Prop := fst u = fst u' /\ forall x, In x (snd u) <-> In x (snd u').
Lemma step_ext S S' u u' : (forall x : elem, S x <-> S' x) -> same_upd u u' -> forall x, step_set S u x <-> step_set S' u' x.
Proof. intros HS [E HU] x. unfold step_set. rewrite E. pose proof (HS x). pose proof (HU x). destruct (fst u'); tauto. Qed.
Lemma replay_ext h h' : Forall2 same_upd h h' -> forall S S', (forall x : elem, S x <-> S' x) ->
  forall x, replay S h x <-> replay S' h' x.
Proof.
  induction 1 as [|u u' h h' Hu HF IH]; intros S S' HS x; cbn; [apply HS|].
  apply IH. now apply step_ext.
Qed.
Lemma valid_ext h h' : Forall2 same_upd h h' -> forall S S', (forall x : elem, S x <-> S' x) ->
  valid_history S h -> valid_history S' h'.
Proof.
  induction 1 as [|u u' h h' Hu HF IH]; intros S S' HS HV; cbn in *; auto. destruct HV as [V1 V2]. split.
  - intros x Hx. apply (proj2 Hu) in Hx. specialize (V1 x Hx). rewrite <- (proj1 Hu). pose proof (HS x). destruct (fst u); tauto.
  - eapply IH; [|exact V2]. now apply step_ext.
Qed.

(** C43 and C06.  A query over a database and a history of updates that were written to disk
    sees the result of replaying the updates.  [fs] are the iterators the database opens for
    the updates. *)
Theorem C43_history_partial : forall fuel so idx ord first second base h ds pad fs out,
  std_sort comp_gt (sort_comp so) -> std_sort cscan_gt (sort_scan so) ->
  perm_positions idx = Some ord -> int64 first -> second = -1 \/ int64 second ->
  Yields true base out -> StronglySorted elt base -> Forall (fun x => field x 0 = first) base ->
  Forall2 (fun (u : bool * list triple) d => written (snd u) d) h ds ->
  Forall2 (fun (ud : (bool * list triple) * dix) (f : bool * pitr) => fst f = fst (fst ud) /\
     diff_get (snd ud) (fun i => dx_file (snd ud) i ++ pad i) idx first second (-1) = Some (snd f)) (combine h ds) fs ->
  valid_history (fun x => In x base) (map (fun u => (fst u, matching ord first second (snd u))) h) ->
  (length base + list_sum (map (fun u => length (snd u)) h) + 1 < fuel)%nat ->
  exists o R, overlay fuel so first fs out = Some o /\ Yields true R o /\ StronglySorted elt R /\
    (forall x, In x R <-> replay (fun y => In y base) (map (fun u => (fst u, matching ord first second (snd u))) h) x).
Proof.
  intros fuel so idx ord first second base h ds pad fs out So1 So2 Hp Hf Hs Hy Hb Hbk HW HD HV Hfu.
  assert (HX : exists h', Forall2 same_upd (map (fun u => (fst u, matching ord first second (snd u))) h) h' /\
    Forall2 (fun (u : bool * list elem) (d : bool * pitr) => fst d = fst u /\ Yields true (snd u) (snd d) /\ StronglySorted elt (snd u) /\
       (0 <= first -> Forall (fun x => fst (fst x) = first) (snd u))) h' fs /\
    (list_sum (map (fun u => length (snd u)) h') <= list_sum (map (fun u => length (snd u)) h))%nat).
  { clear HV Hfu. revert fs HD. induction HW as [|u d h ds Hu HW IH]; intros fs HD; cbn [combine] in HD.
    - inversion HD; subst. exists []. repeat split; constructor.
    - inversion HD as [|? f ? fs' [D1 D2] HD']; subst. destruct (IH _ HD') as (h' & A & B & C). cbn [fst snd] in *.
      destruct (C43_lookup_partial (snd u) d pad idx ord first second Hu Hp Hf Hs) as (o & R & E & Y & SS & HR).
      assert (o = snd f) as -> by congruence.
      exists ((fst u, R) :: h'). cbn [map]. split; [|split].
      + constructor; auto. split; [reflexivity|]. cbn [snd]. intros x. now rewrite matching_in, HR.
      + constructor; auto. cbn [fst snd]. split; auto. split; auto. split; auto. intros _. apply Forall_forall. intros x Hx.
        apply HR in Hx as (_ & Hx & _). destruct x as [[a b] c]. exact Hx.
      + unfold list_sum in *. cbn [map fold_right snd fst].
        assert (length R <= length (map (reorder ord) (snd u)))%nat.
        { apply NoDup_incl_length; [now apply elt_nodup|]. intros x Hx. apply HR in Hx as ((t & Ht & ->) & _). now apply in_map. }
        rewrite map_length in *. lia. }
  destruct HX as (h' & A & B & C).
  destruct (C06_query_sees_history fuel so first base h' fs out So1 So2 Hy Hb) as (o & R & E & Y & SS & HR); auto.
  - intros _. eapply Forall_impl; [|exact Hbk]. intros [[a b] c] H. exact H.
  - eapply valid_ext; [exact A| |exact HV]. tauto.
  - lia.
  - exists o, R. split; auto. split; auto. split; auto. intros x. rewrite HR. symmetry. now apply replay_ext.
Qed.
Print Assumptions C43_history_partial.

(** ** A sort, for examples *)
Fixpoint kins (key : triple -> Z) (x : triple) (l : list triple) : list triple :=
  match l with
  | [] => [x]
  | y :: t => if key x <=? key y then x :: l else y :: kins key x t
  end.
Definition ksort (key : triple -> Z) (l : list triple) : list triple := fold_right (kins key) [] l.
Lemma kins_perm key x l : Permutation (kins key x l) (x :: l).
Proof.
  induction l as [|y l IH]; cbn [kins]; auto. destruct (key x <=? key y); auto.
  etransitivity; [constructor; exact IH|apply perm_swap].
Qed.
Lemma ksort_sorts : sorts ksort.
Proof.
  intros key l. split.
  - induction l as [|x l IH]; auto. cbn [ksort fold_right]. etransitivity; [apply kins_perm|]. now constructor.
  - induction l as [|x l IH]; cbn [ksort fold_right]; [constructor|]. fold (ksort key l). generalize dependent (ksort key l). clear. intros l IH.
    induction IH as [|y t Hs IH Hf]; cbn [kins]; [repeat constructor|]. destruct (key x <=? key y) eqn:E.
    + constructor; [constructor; auto|]. constructor; [lia|]. eapply Forall_impl; [|exact Hf]. cbn. lia.
    + constructor; auto. apply Forall_forall. intros z Hz. apply (Permutation_in _ (kins_perm key x t)) in Hz as [<- |Hz]; [lia|].
      rewrite Forall_forall in Hf. auto.
Qed.

(** An update with a key of 80 triples, one of them given twice, in column form, and smaller
    keys in row form; the files hold an earlier update. *)
Definition ex_update : list triple :=
  map (fun i => let i := Z.of_nat i in (5, i mod 7, 300 + i)) (seq 0 80) ++ [(5, 3, 303); (9, 2, 70000); (2, 3, 303)].
Definition ex_dix : dix := createDiffIndex ksort (fun _ _ => (true, true)) (fun idx => [1; 2; 3]) ex_update.

Lemma tid_bool l : forallb (fun t : triple => let '(a, b, c) := t in
   (0 <=? a) && (a <? 2 ^ 32 - 1) && (0 <=? b) && (b <? 2 ^ 32 - 1) && (0 <=? c) && (c <? 2 ^ 32 - 1)) l = true -> Forall tid l.
Proof.
  intros H. apply Forall_forall. intros [[a b] c] Hx. rewrite forallb_forall in H. specialize (H _ Hx). cbn beta iota in H.
  unfold tid, id32. lia.
Qed.
Example ex_written : written ex_update ex_dix.
Proof.
  exists ksort, (fun _ _ => (true, true)), (fun _ => [1; 2; 3]). split; [apply ksort_sorts|]. split; [reflexivity|].
  split; [apply tid_bool; vm_compute; reflexivity|]. split; [vm_compute; reflexivity|].
  intros idx Hi. assert (idx = 0 \/ idx = 1 \/ idx = 2 \/ idx = 3 \/ idx = 4 \/ idx = 5) as HC by (unfold is_perm in Hi; lia).
  destruct HC as [-> |[-> |[-> |[-> |[-> | ->]]]]]; vm_compute; reflexivity.
Qed.
Example C43_case :
  (do o <- diff_get ex_dix (dx_file ex_dix) IDX_SPO 5 3 (-1); drain 20 o) =
    Some (map (fun i => (5, 3, 303 + 7 * Z.of_nat i)) (seq 0 11)) /\
  (do o <- diff_get ex_dix (fun i => dx_file ex_dix i ++ repeat 0 8) IDX_OPS 303 3 2; drain 20 o) = Some [(303, 3, 2)] /\
  (do o <- diff_get ex_dix (dx_file ex_dix) IDX_PSO 3 (-1) (-1); drain 20 o) =
    Some ((3, 2, 303) :: map (fun i => (3, 5, 303 + 7 * Z.of_nat i)) (seq 0 11)) /\
  diff_card ex_dix IDX_SPO 5 = 80 /\ diff_size ex_dix = 82 /\
  map (fun e => getBinaryTable (ki_s1 e)) (dx_s ex_dix) = [Some (RRow 1 2); Some RColumn; Some (RRow 1 4)].
Proof. repeat split; vm_compute; reflexivity. Qed.

(** ** What does not hold *)

(** The pair (0, 2^32 - 1) is taken for "no pair yet" and not written. *)
Theorem C43_last_pair_refuted :
  let d := createDiffIndex ksort (fun _ _ => (false, false)) (fun _ => []) [(7, 0, 2 ^ 32 - 1)] in
  (do o <- diff_get d (dx_file d) IDX_SPO 7 (-1) (-1); drain 9 o) = Some [] /\ diff_size d = 0.
Proof. split; vm_compute; reflexivity. Qed.
Print Assumptions C43_last_pair_refuted.

(** Identifiers from 2^32 on change the other value of the pair. *)
Theorem C43_large_ids_refuted :
  let d := createDiffIndex ksort (fun _ _ => (false, false)) (fun _ => []) [(1, 2, 2 ^ 32 + 3)] in
  (do o <- diff_get d (dx_file d) IDX_SPO 1 (-1) (-1); drain 9 o) = Some [(1, 3, 3)].
Proof. vm_compute. reflexivity. Qed.
Print Assumptions C43_large_ids_refuted.

(** A table that begins at 2 GB is looked for before the beginning of the file. *)
Theorem C43_large_file_refuted : forall F : mem, zl F = 2 ^ 31 ->
  let d := createDiffIndex ksort (fun _ _ => (false, false)) (fun _ => F) [(1, 2, 3)] in
  tree_get d IDX_SPO 1 = Some (mkDc (- 2 ^ 15) 0 1 (row_strat 0 0)) /\
  (do o <- diff_get d (dx_file d) IDX_SPO 1 (-1) (-1); drain 9 o) = None.
Proof.
  intros F HF d.
  assert (E : tree_get d IDX_SPO 1 = Some (mkDc (- 2 ^ 15) 0 1 (row_strat 0 0))).
  { unfold d, createDiffIndex, sortIndex, tree_get, tree_of. cbn [ksort fold_right kins map fst snd].
    cbn -[Z.pow Z.modulo Z.div]. unfold si_store. cbn -[Z.pow Z.modulo Z.div Z.of_nat storeTables]. rewrite HF. vm_compute. reflexivity. }
  split; [exact E|]. unfold diff_get. change (1 <? 0) with false. cbv iota. rewrite E.
  generalize (dx_file d IDX_SPO). intros m. vm_compute. reflexivity.
Qed.
Print Assumptions C43_large_file_refuted.

(** ** Room *)
Lemma nbytes_le k v : 0 <= v < 2 ^ (8 * Z.of_nat k) -> (1 <= k <= 7)%nat -> (nbytes v <= k)%nat.
Proof.
  intros Hv Hk. unfold nbytes.
  assert (H : forall n k v, 0 <= v < 2 ^ (8 * Z.of_nat k) -> (1 <= k)%nat -> (nbytes_ n v <= k)%nat).
  { clear. induction n as [|n IH]; intros k v Hv Hk; [cbn; lia|].
    change (nbytes_ (S n) v) with (if v <? 256 then 1%nat else S (nbytes_ n (v / 256))).
    destruct (v <? 256) eqn:E; [lia|]. destruct k as [|k]; [lia|]. rewrite pow256_S in Hv.
    destruct k as [|k]; [change (2 ^ (8 * Z.of_nat 0)) with 1 in Hv; lia|].
    specialize (IH (S k) (v / 256)). assert (nbytes_ n (v / 256) <= S k)%nat; [|lia]. apply IH; [|lia]. split; [lia|].
    apply Z.div_lt_upper_bound; lia. }
  apply H; lia.
Qed.
Lemma encv_le n : forall k v, 0 <= v < 2 ^ (7 * Z.of_nat k) -> (1 <= k)%nat -> (length (encv n v) <= k)%nat.
Proof.
  induction n as [|n IH]; intros k v Hv Hk; [cbn; lia|]. cbn [encv]. destruct (v <? 128) eqn:E; [cbn; lia|].
  destruct k as [|[|k]]; [lia|change (2 ^ (7 * Z.of_nat 1)) with 128 in Hv; lia|].
  assert (H7 : 2 ^ (7 * Z.of_nat (S (S k))) = 128 * 2 ^ (7 * Z.of_nat (S k))).
  { replace (7 * Z.of_nat (S (S k))) with (7 + 7 * Z.of_nat (S k)) by lia. rewrite Z.pow_add_r by lia. reflexivity. }
  cbn [length]. specialize (IH (S k) (v / 128)). assert (length (encv n (v / 128)) <= S k)%nat; [|lia].
  apply IH; [split; [lia|apply Z.div_lt_upper_bound; lia]|lia].
Qed.

Lemma row_room l1 l2 : srt_ok l1 -> srt_ok l2 -> inverse l1 l2 ->
  zl (rw_out (rw_run (code_of l1) (code_of l2) l1)) <= zl l1 * 8.
Proof.
  intros H1 H2 HI. pose proof (row_tab_ok l1 l2 H1 H2 HI) as HT.
  rewrite (proj1 (rw_run_ok _ _ _)), row_write_rows, rows_length.
  assert (B1 : 0 <= hi (last l1 0) < 2 ^ 32) by (destruct (hi_max l1 H1 _ (last_in l1 0 (proj1 H1))); lia).
  assert (B2 : 0 <= hi (last l2 0) < 2 ^ 32) by (destruct (hi_max l2 H2 _ (last_in l2 0 (proj1 H2))); lia).
  destruct (code_ok _ B1) as (_ & _ & _ & L1 & _). destruct (code_ok _ B2) as (_ & _ & _ & L2 & _). cbv zeta in *.
  fold (code_of l1) in L1. fold (code_of l2) in L2.
  assert (zl (tpairs l1) <= zl l1) by (unfold tpairs; rewrite map_length; pose proof (dd_length l1 NOPAIR); lia).
  unfold bsz. nia.
Qed.
Lemma col_room l1 l2 : srt_ok l1 -> srt_ok l2 -> 64 <= zl l1 < 2 ^ 24 ->
  zl (fst (fst (col_table l1 l2))) <= zl l1 * 16.
Proof.
  intros H1 H2 Hl. unfold col_table. cbn [fst]. set (n := zl l1) in *.
  set (b1 := nbytes (hi (last l1 0))). set (b2 := nbytes (hi (last l2 0))).
  assert (B1 : 0 <= hi (last l1 0) < 2 ^ 32) by (destruct (hi_max l1 H1 _ (last_in l1 0 (proj1 H1))); lia).
  assert (B2 : 0 <= hi (last l2 0) < 2 ^ 32) by (destruct (hi_max l2 H2 _ (last_in l2 0 (proj1 H2))); lia).
  assert (W1 : (b1 <= 4)%nat) by (apply nbytes_le; [exact B1|lia]). assert (W2 : (b2 <= 4)%nat) by (apply nbytes_le; [exact B2|lia]).
  assert (W3 : (nbytes n <= 3)%nat) by (apply nbytes_le; [change (2 ^ (8 * Z.of_nat 3)) with (2 ^ 24); lia|lia]).
  destruct (nbytes_fits (hi (last l1 0)) ltac:(lia)) as [_ [V1 _]]. destruct (nbytes_fits (hi (last l2 0)) ltac:(lia)) as [_ [V2 _]].
  destruct (nbytes_fits n ltac:(lia)) as [_ [V3 _]]. fold b1 in V1. fold b2 in V2.
  destruct (cw_stop_ok b1 b2 (nbytes n) (nbytes n) n l1 (proj1 H1) (proj2 (proj2 H1)))
    as (G & body & HP & HN & HA & EB & ES & _). rewrite ES, app_length, enc_length, EB, !app_length, encv_fixed_length.
  pose proof (ents_length b1 b2 (nbytes n) (nbytes n) V1 V2 V3 G 0) as EL.
  pose proof (vs_len b1 b2 (nbytes n) (nbytes n) V1 V2 V3 (seconds G)) as EV.
  assert (HV : (length (enc_vlong2 n) <= 4)%nat) by (apply encv_le; [change (2 ^ (7 * Z.of_nat 4)) with (2 ^ 28); lia|lia]).
  assert (HZ : zl (seconds G) <= n).
  { rewrite <- seconds_pairs, HP. unfold tpairs. rewrite !map_length. pose proof (dd_length l1 NOPAIR). lia. }
  assert (HGs : zl G <= zl (seconds G)).
  { clear - HN. induction HN as [|g G Hg Hn IH]; [reflexivity|]. cbn [length seconds flat_map].
    rewrite app_length. unfold seconds in IH. destruct (snd g); [congruence|]. cbn [length]. lia. }
  cbn [length].
  assert (zl (ents b1 (nbytes n) (nbytes n) 0 G) <= 10 * n) by (rewrite EL; nia).
  assert (zl (flat_map (enc b2) (seconds G)) <= 4 * n) by (rewrite EV; nia). lia.
Qed.

(** C43.  The tables of a key stay inside the two blocks reserved for them, for keys with less
    than 2^24 pairs.  [l1] and [l2] are the sorted pairs of the key in both orders. *)
Theorem C43_room_partial : forall col1 col2 l1 l2, srt_ok l1 -> srt_ok l2 -> inverse l1 l2 ->
  length l1 = length l2 -> zl l1 < 2 ^ 24 ->
  let t := storeTables col1 col2 l1 l2 in
  zl (st_b1 t) <= fst (block_size col1 col2 l1) /\ zl (st_b2 t) <= snd (block_size col1 col2 l1).
Proof.
  intros col1 col2 l1 l2 H1 H2 HI HL Hn. pose proof (inverse_sym _ _ HI) as HI'.
  pose proof (row_room l1 l2 H1 H2 HI) as R1. pose proof (row_room l2 l1 H2 H1 HI') as R2.
  unfold storeTables, block_size. destruct (zl l1 <? 64) eqn:E; [cbn [storeRow st_b1 st_b2 fst snd]; lia|].
  pose proof (col_room l1 l2 H1 H2 ltac:(lia)) as C1. pose proof (col_room l2 l1 H2 H1 ltac:(lia)) as C2.
  cbv zeta. destruct col1, col2; cbn [negb andb fst snd]; unfold storeColumn, storeRowColumn, swap;
    try destruct (col_table l1 l2) as [[? ?] ?]; try destruct (col_table l2 l1) as [[? ?] ?];
    cbn [storeRow st_b1 st_b2 fst snd] in *; lia.
Qed.
Print Assumptions C43_room_partial.
