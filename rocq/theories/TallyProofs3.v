(** Proofs about iteration with the second column ignored: tables and the overlay of updates. *)
From Coq Require Import Sorted Permutation Lia.
From Verif Require Import TallySpec ItrProofs CompProofs ScanProofs TableSpec TableProofs TallyProofs TallyProofs2.
Local Open Scope Z_scope.

(** ** Tables *)
Lemma pure_polls o b o' : hasNext o = Some (b, o) -> polls o o' -> o' = o.
Proof. intros H. induction 1 as [|a c d Hp -> Hn]; auto. rewrite H in Hn. congruence. Qed.

Lemma gcursor_stands k bk S : gcursor_sim k bk S -> forall gl g m o, S (Some g) m gl o -> key o = k -> value1 o = fst g ->
  Stands (k, fst g, snd g) (with_key k gl) o.
Proof.
  intros HS. induction gl as [|x gl IH]; intros g m o H K V; destruct (HS _ _ _ _ H) as ((E & M) & (n & C & Hn) & _);
    (split; [rewrite C, (Hn g eq_refl); reflexivity|]; split; [intros o' Hp; rewrite (pure_polls _ _ _ E Hp); auto|]).
  - apply Tallies_unfold. intros o' Hp. rewrite (pure_polls _ _ _ E Hp). exists o. split; auto.
  - apply Tallies_unfold. intros o' Hp. rewrite (pure_polls _ _ _ E Hp). exists o. split; auto. cbn [with_key map].
    destruct M as (o2 & N & K2 & V2 & H2). exists o2. split; auto. eapply IH; eauto.
Qed.
Lemma gcursor_ready k bk gl o : GCursor k bk gl o -> TReady (with_key k gl) o.
Proof.
  intros (S & HS & H). destruct (HS _ _ _ _ H) as ((E & M) & (n & C & Hn) & _).
  assert (Hm : match with_key k gl with [] => True | x :: t => exists o2, next o = Some o2 /\ Stands x t o2 end).
  { destruct gl as [|x gl]; [exact I|]. cbn [with_key map]. destruct M as (o2 & N & K2 & V2 & H2). exists o2. split; auto.
    eapply gcursor_stands; eauto. }
  split; [|split; eauto]. apply (Tallies_intro _ _ o); auto; rewrite E; destruct gl; reflexivity.
Qed.

Lemma count_with_key k l k' v : count_of (with_key k l) k' v =
  if k =? k' then Z.of_nat (length (filter (fun e => fst e =? v) l)) else 0.
Proof.
  induction l as [|x l IH]; [cbn; destruct (_ =? _); reflexivity|]. cbn [with_key map]. rewrite count_cons.
  fold (with_key k l). rewrite IH. unfold gk, gv. cbn [fst snd filter].
  destruct (k =? k'); cbn [andb]; [|reflexivity]. destruct (fst x =? v); cbn [length]; lia.
Qed.
Lemma nodup_sorted l : StronglySorted Z.le l -> StronglySorted Z.lt (nodup Z.eq_dec l).
Proof.
  induction 1 as [|a l Hs IH F]; cbn [nodup]; [constructor|]. destruct (in_dec Z.eq_dec a l) as [|Hn]; auto.
  constructor; auto. rewrite Forall_forall in *. intros x Hx. apply nodup_In in Hx. specialize (F x Hx).
  assert (x <> a) by congruence. lia.
Qed.
Lemma groups_tally k l : StronglySorted plt l -> is_tally (with_key k l) (with_key k (groups l)).
Proof.
  intros Hs. split.
  - unfold with_key, groups. rewrite map_map. cbn [fst snd].
    assert (H : StronglySorted Z.lt (nodup Z.eq_dec (map fst l))).
    { apply nodup_sorted. clear - Hs. induction Hs as [|x l Hs IH F]; cbn; constructor; auto.
      rewrite Forall_map. eapply Forall_impl; [|exact F]. unfold plt. intros; lia. }
    induction H as [|a m Hm IH F]; cbn [map]; constructor; auto.
    rewrite Forall_map. eapply Forall_impl; [|exact F]. intros b Hb. cbn. lia.
  - intros k' v n. rewrite count_with_key. unfold with_key at 1. rewrite in_map_iff. unfold groups. split.
    + intros ([a m] & E & H). apply in_map_iff in H as (b & E' & H). injection E' as -> <-. injection E as -> -> <-.
      rewrite Z.eqb_refl. split; auto. apply nodup_In, in_map_iff in H as (e & <- & He).
      assert (Hin : In e (filter (fun e0 => fst e0 =? fst e) l)) by (apply filter_In; split; auto; apply Z.eqb_refl).
      destruct (filter _ l); [destruct Hin|cbn [length]; lia].
    + intros [-> Hn]. destruct (k =? k') eqn:E; [|lia]. apply Z.eqb_eq in E. subst k'.
      eexists. split; [|apply in_map_iff; exists v; split; [reflexivity|]]; [reflexivity|].
      apply nodup_In, in_map_iff. destruct (filter (fun e => fst e =? v) l) as [|e t] eqn:Ef; [cbn in Hn; lia|].
      assert (Hin : In e (filter (fun e => fst e =? v) l)) by (rewrite Ef; now left).
      apply filter_In in Hin as [H1 H2]. apply Z.eqb_eq in H2. eauto.
Qed.

Lemma ignores_aggregates k bk l o : StronglySorted plt l -> hasNext o = Some (nonempty l, o) -> Yields true (with_key k l) o ->
  Ignores k bk l o -> Aggregates (with_key k l) o.
Proof.
  intros Hs E Hy (o1 & E1 & HG). split; auto. intros o' Hp. rewrite (pure_polls _ _ _ E Hp).
  exists o1, (with_key k (groups l)). split; auto. split; [now apply groups_tally|]. eapply gcursor_ready; eauto.
Qed.
Lemma table_aggregates k bk l o : StronglySorted plt l -> Table k bk l o -> Aggregates (with_key k l) o.
Proof.
  intros Hs (HC & HI & _). eapply ignores_aggregates; eauto; [|eapply Cursor_yields; eauto].
  destruct HC as (S & HS & H). apply (HS _ _ _ _ H).
Qed.
Lemma table_aggregates_first k bk l o : StronglySorted plt l -> l <> [] -> Table k bk l o -> AggregatesFirst (with_key k l) o.
Proof.
  intros Hs Hl (HC & _ & HF). destruct HC as (S & HS & H). destruct (HS _ _ _ _ H) as ((E & _) & _).
  intros o' Hp. rewrite (pure_polls _ _ _ E Hp).
  destruct (HF Hl) as (o1 & o2 & S' & g & gs & N & I & G & K & V & HS' & H').
  exists o, o1, o2, (k, fst g, snd g), (with_key k gs). split; [rewrite E; destruct l; [contradiction|reflexivity]|].
  split; auto. split; auto. split.
  - pose proof (groups_tally k l Hs) as T. rewrite G in T. exact T.
  - eapply gcursor_stands; eauto.
Qed.
Lemma scan_aggregates k bk l o : StronglySorted plt l -> Scan k l o -> Ignores k bk l o -> Aggregates (with_key k l) o.
Proof.
  intros Hs (S & HS & H) HI. eapply ignores_aggregates; eauto; [apply (HS _ _ _ H)|]. eapply scan_yields; eauto.
Qed.

(** ** Contract *)
Lemma Aggregates_polls l o o' : Aggregates l o -> polls o o' -> Aggregates l o'.
Proof.
  intros [Hy H] Hp. split; [eapply Yields_polls; eauto|]. intros o2 H2. apply H. eapply polls_trans; eauto.
Qed.
Lemma AggregatesFirst_polls l o o' : AggregatesFirst l o -> polls o o' -> AggregatesFirst l o'.
Proof. intros H Hp o2 H2. apply H. eapply polls_trans; eauto. Qed.

(** ** Overlay of updates for a bound key *)
Definition agg_child (k : Z) (p : pitr * list elem) : Prop :=
  snd p <> [] /\ key_is k (snd p) /\ sorted (snd p) /\ Ready true (snd p) (fst p) /\ Aggregates (snd p) (fst p).

Lemma combine_aggregates so k P R :
  sorters_ok so -> 0 <= k -> P <> [] -> Forall (agg_child k) P -> sorted R -> Permutation R (contents P) ->
  exists o, overlay_combine so k (map fst P) = Some o /\ Aggregates R o.
Proof.
  intros [Hs1 Hs2] Hk Hne HP HsR HpR. destruct P as [|p [|q P]]; [contradiction| |].
  - inversion HP as [|? ? (_ & _ & Hs & _ & Ha) _]; subst. exists (fst p). split; [reflexivity|].
    replace R with (snd p); auto. apply sorted_perm_eq; auto. rewrite HpR. cbn. now rewrite app_nil_r.
  - unfold overlay_combine. cbn [map]. replace (0 <=? k) with true by lia. eexists; split; [reflexivity|].
    change (fst p :: fst q :: map fst P) with (map fst (p :: q :: P)). now apply comp_aggregates.
Qed.

(** A polled iterator as a child. *)
Lemma agg_poll k l o : Aggregates l o -> key_is k l -> sorted l ->
  exists o1, hasNext o = Some (nonempty l, o1) /\ polls o o1 /\ (l <> [] -> agg_child k (o1, l)).
Proof.
  intros HA Hk Hs. pose proof HA as [Hy _]. destruct (Yields_poll _ _ _ Hy) as (o1 & E & Hr).
  assert (Hp : polls o o1) by (econstructor; [constructor|exact E]).
  exists o1. split; auto. split; auto. intros Hl. split; auto. split; auto. split; auto. split; auto. eapply Aggregates_polls; eauto.
Qed.

Definition agg_diff (k : Z) (u : bool * list elem) (d : bool * pitr) : Prop :=
  fst d = fst u /\ Aggregates (snd u) (snd d) /\ key_is k (snd u) /\ StronglySorted elt (snd u) /\
  (fst u = true -> snd u <> [] -> AggregatesFirst (snd u) (snd d)).

Lemma agg_adds fuel so k h diffs : Forall2 (agg_diff k) h diffs -> Forall (fun u => fst u = false) h -> forall its out rest,
  exists its', overlay_loop fuel so k (diffs ++ rest) (map fst its) out = overlay_loop fuel so k rest (map fst (its ++ its')) out /\
    Forall (agg_child k) its' /\ contents its' = concat (map snd h).
Proof.
  induction 1 as [|u [b di] h diffs (E & Ha & Hk & Hs & _) HF IH]; intros Hadd its out rest.
  - exists []. rewrite app_nil_r. split; [reflexivity|]. split; [constructor|reflexivity].
  - inversion Hadd as [|? ? Hu Hadd']; subst. cbn [fst snd] in *. rewrite Hu in E. subst b.
    destruct (agg_poll k (snd u) di Ha Hk (strict_sorted _ Hs)) as (d1 & E1 & _ & Hc).
    cbn [app overlay_loop]. rewrite E1. destruct (snd u) as [|x l] eqn:El; cbn [nonempty].
    + destruct (IH Hadd' its out rest) as (its' & E' & HC & Hcon). exists its'. split; [exact E'|]. split; auto.
      cbn [map concat]. rewrite El. exact Hcon.
    + destruct (IH Hadd' (its ++ [(d1, x :: l)]) out rest) as (its' & E' & HC & Hcon). exists ((d1, x :: l) :: its').
      rewrite map_app in E'. cbn [map fst] in E'. split.
      * rewrite <- app_assoc in E'. exact E'.
      * split; [constructor; auto; apply Hc; discriminate|]. cbn [map concat]. unfold contents in *. cbn [map concat snd]. now rewrite El, Hcon.
Qed.

(** Additions, then possibly one deletion. *)
Lemma overlay_tally fuel so k base adds dels diffs out :
  sorters_ok so -> 0 <= k -> Aggregates base out -> key_is k base -> StronglySorted elt base ->
  Forall (fun u => fst u = false) adds -> (dels = [] \/ exists d, dels = [(true, d)]) ->
  Forall2 (agg_diff k) (adds ++ dels) diffs ->
  valid_history (fun x => In x base) (adds ++ dels) ->
  (length base + hist_size (adds ++ dels) + 1 < fuel)%nat ->
  exists o o1 R g, overlay fuel so k diffs out = Some o /\
    StronglySorted elt R /\ (forall x, In x R <-> replay (fun y => In y base) (adds ++ dels) x) /\
    Yields true R o /\ ignoreSecondColumn o = Some o1 /\ is_tally R g /\ Tallies g o1.
Proof.
  intros Hso Hk HA Hkb Hsb Hadd Hdel HF Hv Hfu.
  assert (HFd : Forall2 (diff_ok k) (adds ++ dels) diffs).
  { clear - HF. induction HF as [|u d h ds (E & [Hy _] & Hkk & Hs & _) HF IH]; constructor; auto. split; auto. split; auto. split; auto. split; [now apply strict_sorted|]. intros _. exact Hkk. }
  destruct (overlay_ok fuel so k base (adds ++ dels) diffs out Hso) as (o & R & Eo & Hy & HsR & HR); auto.
  { split; [apply HA|]. split; [now apply strict_sorted|]. intros _. exact Hkb. }
  { now apply valid_readable. }
  exists o. apply Forall2_app_inv_l in HF as (diffs1 & diffs2 & HF1 & HFl & ->).
  destruct (agg_adds fuel so k adds diffs1 HF1 Hadd [] out diffs2) as (its & El & HC & Hcon). cbn [map app] in El.
  destruct (agg_poll k base out HA Hkb (strict_sorted _ Hsb)) as (out1 & Eh & Hpo & Hch).
  (* what is stored after the additions *)
  assert (HNa : NoDup (contents its ++ base) /\ forall x, In x (contents its ++ base) <-> replay (fun y => In y base) adds x).
  { rewrite Hcon. clear - Hadd HF1 Hv Hsb.
    assert (HS : Forall (fun u => StronglySorted elt (snd u)) adds).
    { clear - HF1. induction HF1 as [|u d h diffs (_ & _ & _ & H & _) HF IH]; constructor; auto. }
    clear HF1. assert (Hn : NoDup base) by now apply strict_NoDup. clear Hsb.
    assert (Hg : forall St l, NoDup l -> (forall x, St x <-> In x l) -> valid_history St (adds ++ dels) ->
       NoDup (concat (map snd adds) ++ l) /\ forall x, In x (concat (map snd adds) ++ l) <-> replay St adds x).
    { clear Hv Hn. induction adds as [|u adds IH]; intros St l Hn Hl Hv; cbn [map concat app replay fold_left].
      - split; auto. intros x. symmetry. apply Hl.
      - inversion Hadd as [|? ? Hu Hadd']; inversion HS as [|? ? Hs HS']; subst.
        cbn [app valid_history] in Hv. destruct Hv as [Hv1 Hv2]. rewrite Hu in Hv1.
        destruct (IH Hadd' HS' (step_set St u) (snd u ++ l)) as [I1 I2]; auto.
        + pose proof (strict_NoDup _ Hs) as Hd.
          assert (Hdis : forall y, In y (snd u) -> ~ In y l) by (intros y Hy Hy2; apply (Hv1 y Hy), Hl; auto).
          revert Hd Hdis Hn. generalize (snd u). clear. intros l1. induction l1 as [|a l1 IH]; cbn; auto. intros Hd Hx Hn. inversion Hd as [|? ? Ha Hd1]; subst. constructor; auto.
          rewrite in_app_iff. intros [Hi|Hi]; [contradiction|]. eapply Hx; eauto.
        + intros x. unfold step_set. rewrite Hu, in_app_iff, Hl. tauto.
        + split.
          * eapply Permutation_NoDup; [|exact I1]. rewrite !app_assoc. apply Permutation_app_tail, Permutation_app_comm.
          * intros x. unfold replay in I2. rewrite <- I2. rewrite !in_app_iff. tauto. }
    destruct (Hg (fun x => In x base) base) as [H1 H2]; auto; tauto. }
  destruct HNa as [HN HRa].
  destruct (sorted_perm_exists (contents its ++ base)) as (M & HsM & HpM).
  set (P := if nonempty base then its ++ [(out1, base)] else its).
  assert (HP : Forall (agg_child k) P).
  { unfold P. destruct base; cbn [nonempty]; auto. apply Forall_app; split; auto. constructor; [|constructor]. apply Hch. discriminate. }
  assert (HcP : contents P = contents its ++ base).
  { unfold P. destruct base; cbn [nonempty]; [now rewrite app_nil_r|]. rewrite contents_app. cbn. now rewrite app_nil_r. }
  assert (HmP : map fst P = if nonempty base then map fst its ++ [out1] else map fst its).
  { unfold P. destruct base; cbn [nonempty]; auto. now rewrite map_app. }
  assert (Hcomb : P <> [] -> exists m, overlay_combine so k (map fst P) = Some m /\ Aggregates M m).
  { intros Hne. apply combine_aggregates; auto. now rewrite HcP. }
  assert (HNM : NoDup M) by (eapply Permutation_NoDup; [symmetry; exact HpM|exact HN]).
  assert (HRM : forall x, In x M <-> replay (fun y => In y base) adds x).
  { intros x. rewrite <- HRa. split; intros Hi; (eapply Permutation_in; [|exact Hi]); auto. now symmetry. }
  (* a result that delivers the rows M *)
  assert (Hsame : forall St', (forall x, replay (fun y => In y base) (adds ++ dels) x <-> St' x) -> (forall x, St' x <-> In x M) -> R = M).
  { intros St' H1 H2. apply sorted_perm_eq; auto; [now apply strict_sorted|]. apply NoDup_Permutation; auto; [now apply strict_NoDup|].
    intros x. rewrite HR, H1, H2. reflexivity. }
  assert (Hplain : overlay_loop fuel so k (diffs1 ++ diffs2) [] out = Some (map fst its, out) -> R = M ->
    exists o1 g, ignoreSecondColumn o = Some o1 /\ is_tally R g /\ Tallies g o1).
  { intros El' ->. unfold overlay in Eo. rewrite El' in Eo. destruct its as [|p its].
    - cbn [map] in Eo. injection Eo as <-. cbn in HpM. assert (M = base) as ->.
      { apply sorted_perm_eq; auto. now apply strict_sorted. }
      destruct HA as [_ HA]. destruct (HA out (polls_refl _)) as (o1 & g & E1 & T & (HT & _)). eauto.
    - cbn [map] in Eo. rewrite Eh in Eo. assert (Hne : P <> []) by (unfold P; destruct base; cbn; discriminate).
      destruct (Hcomb Hne) as (m & Em & [_ HAm]). rewrite HmP in Em. cbn [map] in Em. rewrite Em in Eo. injection Eo as <-.
      destruct (HAm m (polls_refl _)) as (o1 & g & E1 & T & (HT & _)). eauto. }
  enough (exists o1 g, ignoreSecondColumn o = Some o1 /\ is_tally R g /\ Tallies g o1) as (o1 & g & H1 & H2 & H3).
  { exists o1, R, g. auto 10. }
  destruct Hdel as [-> | (d & ->)].
  - inversion HFl; subst. rewrite app_nil_r in *. apply Hplain.
    + rewrite El. reflexivity.
    + apply (Hsame (replay (fun y => In y base) adds)); [tauto|]. intros x. symmetry. apply HRM.
  - inversion HFl as [|? [b di] ? ? (Eb & HAd & Hkd & Hsd & HFst) HFn]; subst. inversion HFn; subst. cbn [fst snd] in *. subst b.
    destruct (agg_poll k d di HAd Hkd (strict_sorted _ Hsd)) as (e1 & Ed1 & Hpe & _).
    destruct d as [|x0 d0] eqn:Edd.
    + apply Hplain.
      * rewrite El. cbn [overlay_loop]. rewrite Ed1. reflexivity.
      * apply (Hsame (replay (fun y => In y base) adds)); [|intros x; symmetry; apply HRM].
        intros x. unfold replay. rewrite fold_left_app. cbn. unfold step_set at 1. cbn. tauto.
    + rewrite <- Edd in *. assert (Hdn : d <> []) by (subst d; discriminate).
      assert (Hvd : forall x, In x d -> In x M).
      { intros x Hx. apply HRM. clear - Hv Hx. revert Hv. generalize (fun x => In x base). induction adds as [|u adds IH]; intros St Hv.
        - cbn in Hv. now apply Hv.
        - cbn [app valid_history] in Hv. destruct Hv as [_ Hv]. apply (IH _ Hv). }
      assert (HPne : P <> []).
      { intros EP. rewrite EP in HcP. cbn in HcP. subst d. specialize (Hvd x0 (or_introl eq_refl)).
        rewrite <- HcP in HpM. eapply Permutation_in in Hvd; [|exact HpM]. destruct Hvd. }
      destruct (Hcomb HPne) as (m & Em & HAm). rewrite HmP in Em.
      destruct (rm_ignores fuel M d m e1) as (r & r1 & g & Er & Ei & T & HT); auto.
      { destruct HAm as [_ HAm]. apply (HAm m (polls_refl _)). }
      { eapply AggregatesFirst_polls; [|exact Hpe]. apply HFst; auto. }
      { now apply strict_NoDup. }
      { rewrite (Permutation_length HpM), app_length, Hcon. unfold hist_size in Hfu. 
        assert (Hlen : forall h : list (bool * list elem), length (concat (map snd h)) = hist_size h).
        { clear. induction h as [|u h IH]; [reflexivity|]. cbn [map concat hist_size fold_right]. rewrite app_length, IH. reflexivity. }
        rewrite Hlen. unfold hist_size. rewrite fold_right_app in Hfu. cbn [fold_right snd] in Hfu.
        assert (Hacc : forall (h : list (bool * list elem)) a, fold_right (fun u n => (length (snd u) + n)%nat) a h = (fold_right (fun u n => (length (snd u) + n)%nat) 0 h + a)%nat).
        { clear. induction h as [|u h IH]; intros a; cbn [fold_right]; [lia|]. rewrite IH. lia. }
        rewrite Hacc in Hfu. lia. }
      assert (o = r) as ->.
      { unfold overlay in Eo. rewrite El in Eo. cbn [overlay_loop] in Eo. rewrite Ed1 in Eo. subst d. cbn [nonempty] in Eo.
        rewrite Eh in Eo. rewrite Em, Er in Eo. cbn [overlay_loop] in Eo. now injection Eo. }
      assert (R = filter (keep d) M) as ->.
      { apply sorted_perm_eq.
        - now apply strict_sorted.
        - now apply SS_filter.
        - apply NoDup_Permutation; [now apply strict_NoDup|now apply NoDup_filter|]. intros x. rewrite HR, filter_In, keep_spec, HRM.
          unfold replay. rewrite fold_left_app. cbn. unfold step_set at 1. cbn. tauto. }
      eauto.
Qed.
