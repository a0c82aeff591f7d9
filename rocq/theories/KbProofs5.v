(** Patterns answered from the tables of a permutation or of the one with the last two columns
    exchanged. *)
From Coq Require Import Sorted Permutation ZifyBool.
From Verif Require Export KbSpec KbProofs4.
From Verif Require Import QueryModel QuerySpec SortSpec.
Local Open Scope Z_scope.
Ltac Zify.zify_post_hook ::= Z.div_mod_to_equations.

(** ** The triples of a permutation *)
Fixpoint tinsert (x : triple) (l : list triple) : list triple :=
  match l with
  | [] => [x]
  | y :: r => if triple_dec x y then l
              else let '(a, b, c) := x in let '(a', b', c') := y in
                   if (a <? a') || ((a =? a') && ((b <? b') || ((b =? b') && (c <? c')))) then x :: l else y :: tinsert x r
  end.
Definition canon (l : list triple) : list triple := fold_right tinsert [] l.

Lemma tinsert_In x y l : In y (tinsert x l) <-> y = x \/ In y l.
Proof.
  induction l as [|z l IH]; [cbn; intuition|]. cbn [tinsert]. destruct (triple_dec x z) as [<- |Hne]; [cbn; intuition|].
  destruct x as [[a b] c], z as [[a' b'] c']. destruct (_ || _); cbn [In]; rewrite ?IH; intuition.
Qed.
Lemma tlt_trans x y z : tlt x y -> tlt y z -> tlt x z.
Proof. destruct x as [[a b] c], y as [[a' b'] c'], z as [[a'' b''] c'']. cbn. lia. Qed.
Lemma tinsert_sorted x l : StronglySorted tlt l -> StronglySorted tlt (tinsert x l).
Proof.
  induction 1 as [|z l Hs IH Hf]; [repeat constructor|]. cbn [tinsert]. destruct (triple_dec x z) as [<- |Hne]; [now constructor|].
  assert (Hx : (let '(a, b, c) := x in let '(a', b', c') := z in (a <? a') || ((a =? a') && ((b <? b') || ((b =? b') && (c <? c'))))) = true -> tlt x z).
  { destruct x as [[a b] c], z as [[a' b'] c']. cbn. lia. }
  assert (Hy : (let '(a, b, c) := x in let '(a', b', c') := z in (a <? a') || ((a =? a') && ((b <? b') || ((b =? b') && (c <? c'))))) = false -> tlt z x).
  { intros E. assert (~ tlt x z) by (destruct x as [[a b] c], z as [[a' b'] c']; cbn; lia). destruct x as [[a b] c], z as [[a' b'] c']. cbn in *.
    assert (a <> a' \/ b <> b' \/ c <> c') by (destruct (Z.eq_dec a a'), (Z.eq_dec b b'), (Z.eq_dec c c'); auto; subst; congruence). lia. }
  destruct x as [[a b] c] eqn:Ex, z as [[a' b'] c'] eqn:Ez. rewrite <- Ex, <- Ez in *. destruct (_ || _).
  - constructor; [now constructor|]. constructor; auto. eapply Forall_impl; [|exact Hf]. intros y Hyz. eapply tlt_trans; eauto.
  - constructor; auto. rewrite Forall_forall in *. intros y Hin. apply tinsert_In in Hin. destruct Hin as [-> |Hin]; auto.
Qed.
Lemma canon_In y l : In y (canon l) <-> In y l.
Proof. induction l as [|x l IH]; cbn; [tauto|]. rewrite tinsert_In, IH. intuition. Qed.
Lemma canon_sorted l : StronglySorted tlt (canon l).
Proof. induction l as [|x l IH]; cbn; [constructor|]. now apply tinsert_sorted. Qed.

Lemma tlt_eq l1 : forall l2, StronglySorted tlt l1 -> StronglySorted tlt l2 -> (forall x, In x l1 <-> In x l2) -> l1 = l2.
Proof.
  induction l1 as [|x l1 IH]; intros [|y l2] H1 H2 HI; auto.
  - exfalso. apply (proj2 (HI y)). now left.
  - exfalso. apply (proj1 (HI x)). now left.
  - apply StronglySorted_inv in H1, H2. destruct H1 as [S1 F1], H2 as [S2 F2]. rewrite Forall_forall in *.
    assert (x = y).
    { destruct (proj1 (HI x) (or_introl eq_refl)) as [|Hx]; auto. destruct (proj2 (HI y) (or_introl eq_refl)) as [|Hy]; auto.
      exfalso. apply (tlt_irrefl x). eapply tlt_trans; eauto. }
    subst y. f_equal. apply IH; auto. intros z. split; intros Hz.
    + destruct (proj1 (HI z) (or_intror Hz)) as [<- |]; auto. exfalso. apply (tlt_irrefl x). auto.
    + destruct (proj2 (HI z) (or_intror Hz)) as [<- |]; auto. exfalso. apply (tlt_irrefl x). auto.
Qed.

Definition V (U : list triple) (i : nat) : list triple := canon (map (view (Z.of_nat i)) U).
Definition tab (U : list triple) (i : nat) (k : Z) : list (Z * Z) := table_of k (V U i).

Lemma V_In U i x : In x (V U i) <-> exists t, In t U /\ view (Z.of_nat i) t = x.
Proof. unfold V. rewrite canon_In, in_map_iff. split; intros (t & A & B); exists t; auto. Qed.
Lemma tab_In U i k a b : In (a, b) (tab U i k) <-> exists t, In t U /\ view (Z.of_nat i) t = (k, a, b).
Proof. unfold tab. rewrite table_In. apply V_In. Qed.
Lemma tab_sorted U i k : StronglySorted plt (tab U i k).
Proof. apply table_sorted, canon_sorted. Qed.

(** Exchanging the last two columns. *)
Lemma view_swap i s p o : (3 <= i < 6)%nat -> let '(a, b, c) := view (Z.of_nat (i - 3)) (s, p, o) in view (Z.of_nat i) (s, p, o) = (a, c, b).
Proof. intros H. assert (i = 3 \/ i = 4 \/ i = 5)%nat as [-> |[-> | ->]] by lia; reflexivity. Qed.
Lemma tab_swap U i k a b : (3 <= i < 6)%nat -> In (a, b) (tab U i k) <-> In (b, a) (tab U (i - 3) k).
Proof.
  intros H. rewrite !tab_In. split; intros ([[s p] o] & A & B); exists (s, p, o); (split; [exact A|]);
    pose proof (view_swap i s p o H) as E; destruct (view (Z.of_nat (i - 3)) (s, p, o)) as [[x y] z]; congruence.
Qed.
Lemma plt_nodup (l : list (Z * Z)) : StronglySorted plt l -> NoDup l.
Proof.
  induction 1 as [|x l Hs IH Hf]; constructor; auto. intros Hin. rewrite Forall_forall in Hf. specialize (Hf x Hin). unfold plt in Hf. destruct x. cbn in Hf. lia.
Qed.
Lemma plt_ple (l : list (Z * Z)) : StronglySorted plt l -> StronglySorted ple l.
Proof.
  induction 1 as [|x l Hs IH Hf]; constructor; auto. eapply Forall_impl; [|exact Hf]. intros y. unfold plt, ple. destruct x, y. cbn. lia.
Qed.
Lemma tab_perm U i k : (3 <= i < 6)%nat -> Permutation (map (fun e => (snd e, fst e)) (tab U (i - 3) k)) (tab U i k).
Proof.
  intros H. apply NoDup_Permutation.
  - apply FinFun.Injective_map_NoDup; [|apply plt_nodup, tab_sorted]. intros [a b] [c e] E. cbn in E. congruence.
  - apply plt_nodup, tab_sorted.
  - intros [a b]. rewrite in_map_iff, (tab_swap U i k a b H). split.
    + intros ([c e] & E & Hin). cbn in E. injection E as <- <-. exact Hin.
    + intros Hin. exists (b, a). auto.
Qed.
Lemma keys_swap U i : (3 <= i < 6)%nat -> keys (V U i) = keys (V U (i - 3)).
Proof.
  intros H.
  assert (HI : forall k, In k (keys (V U i)) <-> In k (keys (V U (i - 3)))).
  { intros k. rewrite !keys_In. fold (tab U i k) (tab U (i - 3) k). pose proof (Permutation_length (tab_perm U i k H)) as E. rewrite map_length in E.
    split; intros Hne E0; rewrite E0 in E; [destruct (tab U i k)|destruct (tab U (i - 3) k)]; try discriminate; congruence. }
  pose proof (keys_sorted _ (canon_sorted (map (view (Z.of_nat i)) U))) as S1. pose proof (keys_sorted _ (canon_sorted (map (view (Z.of_nat (i - 3))) U))) as S2.
  change (StronglySorted Z.lt (keys (V U i))) in S1. change (StronglySorted Z.lt (keys (V U (i - 3)))) in S2.
  revert S1 S2 HI. generalize (keys (V U i)), (keys (V U (i - 3))). clear. intros l1. induction l1 as [|x l1 IH]; intros [|y l2] H1 H2 HI; auto.
  - exfalso. apply (proj2 (HI y)). now left.
  - exfalso. apply (proj1 (HI x)). now left.
  - apply StronglySorted_inv in H1, H2. destruct H1 as [S1 F1], H2 as [S2 F2]. rewrite Forall_forall in *.
    assert (x = y).
    { destruct (proj1 (HI x) (or_introl eq_refl)) as [|Hx]; auto. destruct (proj2 (HI y) (or_introl eq_refl)) as [|Hy]; auto.
      specialize (F1 y Hy). specialize (F2 x Hx). lia. }
    subst y. f_equal. apply IH; auto. intros z. split; intros Hz.
    + destruct (proj1 (HI z) (or_intror Hz)) as [<- |]; auto. specialize (F1 x Hz). lia.
    + destruct (proj2 (HI z) (or_intror Hz)) as [<- |]; auto. specialize (F2 x Hz). lia.
Qed.

(** ** The elements of a list of tables *)
Lemma one_key k v1 v2 W : with_key k (filter (pair_matches v1 v2) (table_of k W)) =
  filter (fun x : triple => (fst (fst x) =? k) && pair_matches v1 v2 (snd (fst x), snd x)) W.
Proof.
  unfold with_key, table_of. induction W as [|[[a b] c] W IH]; cbn [filter map fst snd]; auto. destruct (Z.eqb_spec a k) as [-> |]; cbn [map filter andb fst snd]; auto.
  destruct (pair_matches v1 v2 (b, c)); cbn [map fst snd]; now rewrite IH.
Qed.
Lemma with_key_all k W : with_key k (table_of k W) = filter (fun x : triple => fst (fst x) =? k) W.
Proof.
  unfold with_key, table_of. induction W as [|[[a b] c] W IH]; cbn [filter map fst snd]; auto. destruct (Z.eqb_spec a k) as [-> |]; cbn [map fst snd]; now rewrite ?IH.
Qed.
Lemma keys_cons x W : StronglySorted tlt (x :: W) -> keys (x :: W) = keys W \/ keys (x :: W) = fst (fst x) :: keys W /\ (forall k, In k (keys W) -> k <> fst (fst x)).
Proof.
  intros H. unfold keys. cbn [map nodup]. destruct (in_dec _ _ _) as [|Hn]; auto. right. split; auto. intros k Hk E. subst k. rewrite nodup_In in Hk. auto.
Qed.
Lemma elems_all W : StronglySorted tlt W -> elems (fun k => table_of k W) (keys W) = W.
Proof.
  intros H. apply (tlt_eq _ W); auto.
  - unfold elems. pose proof (keys_sorted W H) as HK. revert HK. generalize (keys W). intros ks. induction ks as [|k ks IH]; intros HK; [constructor|].
    cbn [flat_map]. apply StronglySorted_inv in HK. destruct HK as [HK Hf]. specialize (IH HK). rewrite with_key_all in *.
    assert (Hlt : forall x y, In x (filter (fun x : triple => fst (fst x) =? k) W) -> In y (flat_map (fun k => with_key k (table_of k W)) ks) -> tlt x y).
    { intros x y Hx Hy. apply filter_In in Hx. destruct Hx as [_ Hx]. apply in_flat_map in Hy. destruct Hy as (k' & Hk' & Hy). rewrite with_key_all in Hy. apply filter_In in Hy. destruct Hy as [_ Hy].
      rewrite Forall_forall in Hf. specialize (Hf k' Hk'). destruct x as [[a b] c], y as [[a' b'] c']. cbn in *. lia. }
    pose proof (filter_ss _ (fun x : triple => fst (fst x) =? k) _ H) as HF. revert HF Hlt. generalize (filter (fun x : triple => fst (fst x) =? k) W). intros l HF Hlt.
    induction HF as [|x l Hs IHl Hf']; auto. cbn [app]. constructor.
    + apply IHl. intros u v Hu Hv. apply Hlt; auto. now right.
    + apply Forall_app. split; auto. rewrite Forall_forall. intros y Hy. apply Hlt; auto. now left.
  - intros [[a b] c]. unfold elems. rewrite in_flat_map. split.
    + intros (k & Hk & Hx). rewrite with_key_all in Hx. apply filter_In in Hx. tauto.
    + intros Hx. exists a. split.
      * unfold keys. rewrite nodup_In. apply in_map_iff. exists (a, b, c). auto.
      * rewrite with_key_all. apply filter_In. split; auto. cbn. apply Z.eqb_refl.
Qed.

Lemma perm_filter {A} (p : A -> bool) l l' : Permutation l l' -> Permutation (filter p l) (filter p l').
Proof.
  induction 1 as [|x l l' _ IH|x y l|l1 l2 l3 _ IH1 _ IH2]; cbn; auto; [destruct (p x); auto|destruct (p x), (p y); auto using perm_swap|etransitivity; eauto].
Qed.

(** ** The database *)
(** The flat tree has a record for [k]. *)
Definition covers (d : db) (k : Z) : Prop := match d_root d with RTree _ => True | RFlat raw => k * sizeblock Labelled < zl raw end.

Record DbOk (U : list triple) (st : nat -> list (Z * Z) -> bool) (L : nat -> list entry) (d : db) : Prop := {
  db_loaded : forall i, (i < 6)%nat -> d_present d i = true -> Loaded (V U i) (st i) (d_pad d) (L i) (d_files d i);
  db_absent : forall i, (i < 6)%nat -> d_present d i = false -> L i = [] /\ d_files d i = None;
  db_all : forall i l, (i < 3)%nat -> st i l = true;
  db_base : forall i, (3 <= i < 6)%nat -> d_present d i = true -> d_present d (i - 3) = true;
  db_tree : forall k, 0 <= k -> covers d k -> (kb_lookup d k = Some None /\ forall i, (i < 6)%nat -> entry_for k (L i) = None) \/
    exists v, kb_lookup d k = Some (Some v) /\ forall i, (i < 6)%nat -> v i = entry_for k (L i);
  db_pad : pad_ok (d_pad d)
}.

Section Answer.
Variables (U : list triple) (st : nat -> list (Z * Z) -> bool) (L : nat -> list entry) (d : db) (fuel : nat).
Hypothesis HD : DbOk U st L d.
Hypothesis Hfuel : (length U < fuel)%nat.

Lemma tab_length i k : (i < 6)%nat -> (length (tab U i k) <= length U)%nat.
Proof.
  intros Hi. unfold tab, table_of. rewrite map_length. etransitivity; [apply filter_length_le|].
  assert (HN : NoDup (V U i)).
  { unfold V. generalize (canon_sorted (map (view (Z.of_nat i)) U)). generalize (canon (map (view (Z.of_nat i)) U)). intros l. induction 1 as [|x l Hs IH Hf]; constructor; auto.
    intros Hx. rewrite Forall_forall in Hf. apply (tlt_irrefl x). auto. }
  replace (length U) with (length (map (view (Z.of_nat i)) U)) by apply map_length. apply NoDup_incl_length; auto. intros x Hx. unfold V in Hx. now rewrite canon_In in Hx.
Qed.

Lemma find_key k l e : find (fun e => e_key e =? k) l = Some e -> In e l /\ e_key e = k.
Proof. intros H. apply find_some in H. destruct H. split; auto. lia. Qed.
Lemma find_none_key k l : find (fun e => e_key e =? k) l = None -> ~ In k (map e_key l).
Proof. intros H Hin. apply in_map_iff in Hin. destruct Hin as (e & E & He). apply (find_none _ _ H) in He. cbn in He. lia. Qed.

(** All keys of a permutation that may not be skipped have an entry. *)
Lemma no_entry i k : (i < 3)%nat -> d_present d i = true -> entry_for k (L i) = None -> tab U i k = [].
Proof.
  intros Hi Hp E. unfold entry_for in E. destruct (find _ (L i)) eqn:F; [discriminate|]. apply find_none_key in F.
  rewrite (lo_keys _ _ _ _ _ (db_loaded _ _ _ _ HD i ltac:(lia) Hp)) in F. destruct (tab U i k) eqn:Et; auto. exfalso. apply F. apply filter_In. split.
  - apply keys_In. unfold tab in Et. rewrite Et. discriminate.
  - apply (db_all _ _ _ _ HD). exact Hi.
Qed.
Lemma no_entry_swap i k : (3 <= i < 6)%nat -> tab U (i - 3) k = [] -> tab U i k = [].
Proof. intros Hi E. pose proof (tab_perm U i k Hi) as P. rewrite E in P. cbn in P. now apply Permutation_nil in P. Qed.

Definition vok (v : Z) : Prop := -1 <= v < 2 ^ 63.

Lemma coord_opens i k c v1 v2 : (i < 6)%nat -> entry_for k (L i) = Some c -> (v1 = -1 -> v2 = -1) -> vok v1 -> vok v2 ->
  exists o, kb_coord d i c k v1 v2 = Some o /\ Yields true (with_key k (filter (pair_matches v1 v2) (tab U i k))) o /\
    (v1 = -1 -> exists bk, Cursor k bk (tab U i k) o) /\
    (v2 = -1 -> TallySpec.Aggregates (with_key k (filter (pair_matches v1 v2) (tab U i k))) o).
Proof.
  intros Hi E Hc H1 H2. unfold entry_for in E. destruct (find _ (L i)) as [e|] eqn:F; [|discriminate]. injection E as <-. apply find_key in F. destruct F as [He <-].
  destruct (d_present d i) eqn:Hp.
  2:{ destruct (db_absent _ _ _ _ HD i Hi Hp) as [E _]. rewrite E in He. destruct He. }
  destruct (lo_open _ _ _ _ _ (db_loaded _ _ _ _ HD i Hi Hp) e He) as (t & p & en & r & Ef & Eg & Eb & Ea & Ho).
  destruct (Ho v1 v2 Hc H1 H2) as (o & Eo & Hy & HC). exists o. split; [|split; [exact Hy|exact HC]]. unfold kb_coord, kb_open, as_coord. cbn [co_file co_pos co_strat]. rewrite Nat2Z.id, Ef, Eg, Eb, Ea. exact Eo.
Qed.

(** C03/C13 for the opened tables; the reversed permutation. *)
Lemma get_yields i k l v1 v2 : (i < 6)%nat -> kb_present d i = true -> (forall j, (j < 6)%nat -> l j = entry_for k (L j)) ->
  (v1 = -1 -> v2 = -1) -> vok v1 -> vok v2 ->
  exists o, kb_get fuel d i l k v1 v2 = Some o /\ Yields false (with_key k (filter (pair_matches v1 v2) (tab U i k))) o.
Proof.
  intros Hi Hp Hl Hc H1 H2. unfold kb_get. rewrite (Hl i Hi). destruct (entry_for k (L i)) as [c|] eqn:E.
  - destruct (coord_opens i k c v1 v2 Hi E Hc H1 H2) as (o & Eo & Hy & _). exists o. split; auto. now apply Yields_weaken with (cnt := true).
  - unfold kb_present in Hp. destruct (Nat.leb_spec 3 i) as [H3|H3].
    + assert (Hpb : d_present d (i - 3) = true).
      { apply Bool.orb_true_iff in Hp. destruct Hp as [Hp|Hp]; auto. apply (db_base _ _ _ _ HD); auto. }
      rewrite (Hl (i - 3)%nat) by lia. destruct (entry_for k (L (i - 3)%nat)) as [c|] eqn:E3.
      * destruct (coord_opens (i - 3) k c (-1) (-1) ltac:(lia) E3) as (o & Eo & Hy & _); try (unfold vok; lia). rewrite Eo.
        rewrite all_true in Hy by auto.
        destruct (reverse_ok fuel true _ o k v1 v2 Hy) as (o' & R & Er & Hy' & HsR & HpR); unfold vok in *; try lia; auto.
        { unfold with_key. rewrite map_length. eapply Nat.le_lt_trans; [apply tab_length; lia|auto]. }
        exists o'. split; auto. replace (filter (pair_matches v1 v2) (tab U i k)) with R; auto. apply ple_sorted_eq; auto.
        { apply filter_ss, plt_ple, tab_sorted. }
        rewrite HpR. apply perm_filter. rewrite <- (tab_perm U i k ltac:(lia)). unfold swapped, with_key. rewrite map_map. cbn [fst snd]. apply Permutation_refl.
      * exists (empty_itr 0). split; auto. rewrite (no_entry_swap i k); [apply empty_yields|lia|]. apply no_entry; auto. lia.
    + rewrite Bool.orb_false_r in Hp. exists (empty_itr 0). split; auto. rewrite (no_entry i k) by auto. apply empty_yields.
Qed.

Lemma absent_empty i k : (i < 6)%nat -> kb_present d i = true -> (forall j, (j < 6)%nat -> entry_for k (L j) = None) -> tab U i k = [].
Proof.
  intros Hi Hp HN. unfold kb_present in Hp. destruct (Nat.leb_spec 3 i) as [H3|H3].
  - apply no_entry_swap; [lia|]. apply no_entry; [lia| |apply HN; lia]. apply Bool.orb_true_iff in Hp. destruct Hp as [Hp|Hp]; auto. apply (db_base _ _ _ _ HD); auto.
  - rewrite Bool.orb_false_r in Hp. apply no_entry; auto.
Qed.

(** ** Scans *)
Lemma stored_of i t : (i < 6)%nat -> d_present d i = true -> d_files d i = Some t ->
  exists G, Stored d i t G (tab U i) /\ map KbProofs.c_key (all_coords t G) = filter (fun k => st i (tab U i k)) (keys (V U i)).
Proof.
  intros Hi Hp Hf. pose proof (db_loaded _ _ _ _ HD i Hi Hp) as HL. pose proof (lo_files _ _ _ _ _ HL) as Hfs. rewrite Hf in Hfs. destruct Hfs as (_ & G & HG & EG).
  exists G. split.
  - split; auto. split; auto. rewrite EG, Forall_forall. intros c Hc. apply in_map_iff in Hc. destruct Hc as (e & <- & He). unfold coord_of, Opens. split.
    + unfold tab. apply keys_In. assert (Hin : In (e_key e) (map e_key (L i))) by now apply in_map. rewrite (lo_keys _ _ _ _ _ HL) in Hin. apply filter_In in Hin. tauto.
    + destruct (lo_open _ _ _ _ _ HL e He) as (t' & p & en & r & Ef & Eg & Eb & Ea & Ho). destruct (Ho (-1) (-1)) as (o & Eo & Hy & HC & HA); try lia. specialize (HA eq_refl). rewrite all_true in HA by auto.
      exists o. rewrite all_true in Hy by auto. split; [|split; [exact Hy|split; [now apply HC|exact HA]]]. unfold kb_open. rewrite Ef, Eg, Eb, Ea. exact Eo.
  - rewrite EG, map_map. change (fun x => KbProofs.c_key (coord_of x)) with e_key. apply (lo_keys _ _ _ _ _ HL).
Qed.

Lemma keys_ne i : (i < 6)%nat -> U <> [] -> keys (V U i) <> [].
Proof.
  intros Hi Hne E. destruct U as [|t u]; [congruence|]. assert (Hin : In (view (Z.of_nat i) t) (V (t :: u) i)) by (apply V_In; exists t; split; [now left|auto]).
  assert (Hk : In (fst (fst (view (Z.of_nat i) t))) (keys (V (t :: u) i))).
  { unfold keys. rewrite nodup_In. apply in_map_iff. eauto. }
  rewrite E in Hk. destruct Hk.
Qed.

Lemma base_stored i : (i < 3)%nat -> d_present d i = true -> U <> [] -> exists t G, Stored d i t G (tab U i) /\ map KbProofs.c_key (all_coords t G) = keys (V U i).
Proof.
  intros Hi Hp Hne. assert (Ef : filter (fun k => st i (tab U i k)) (keys (V U i)) = keys (V U i)) by (apply filter_all; intros; now apply (db_all _ _ _ _ HD)).
  destruct (d_files d i) as [t|] eqn:Hf.
  - destruct (stored_of i t ltac:(lia) Hp Hf) as (G & HS & E). exists t, G. split; auto. now rewrite E.
  - exfalso. pose proof (db_loaded _ _ _ _ HD i ltac:(lia) Hp) as HL. pose proof (lo_files _ _ _ _ _ HL) as Hfs. rewrite Hf in Hfs.
    pose proof (lo_keys _ _ _ _ _ HL) as EK. rewrite Hfs in EK. apply (keys_ne i ltac:(lia) Hne). rewrite <- Ef. symmetry. exact EK.
Qed.

Lemma scan_all i : (i < 6)%nat -> kb_present d i = true -> U <> [] -> exists s, sc_init d i = Some s /\ Yields false (V U i) (sc_obj fuel d i s).
Proof.
  intros Hi Hp Hne. assert (EV : elems (tab U i) (keys (V U i)) = V U i) by (apply elems_all, canon_sorted). unfold kb_present in Hp.
  destruct (Nat.leb_spec 3 i) as [H3|H3].
  - assert (Hpb : d_present d (i - 3) = true).
    { apply Bool.orb_true_iff in Hp. destruct Hp as [Hp|Hp]; auto. apply (db_base _ _ _ _ HD); auto. }
    destruct (base_stored (i - 3) ltac:(lia) Hpb Hne) as (t2 & G2 & HS2 & EK). rewrite <- EV, (keys_swap U i), <- EK by lia.
    apply (reversed_scan fuel d i (tab U i) (tab U (i - 3)) t2 G2); auto.
    + destruct (d_files d i) as [t1|] eqn:Hf; auto. right. destruct (d_present d i) eqn:Hpi.
      * destruct (stored_of i t1 Hi Hpi Hf) as (G1 & HS1 & _). eauto.
      * destruct (db_absent _ _ _ _ HD i Hi Hpi) as [_ E]. congruence.
    + intros c Hc. cbv zeta. split; [apply plt_ple, tab_sorted|]. split; [apply tab_perm; lia|]. eapply Nat.le_lt_trans; [apply tab_length; lia|auto].
  - rewrite Bool.orb_false_r in Hp. destruct (base_stored i H3 Hp Hne) as (t & G & HS & EK).
    destruct (direct_init d i (tab U i) t G HS ltac:(lia)) as (s & Es & Hfr). exists s. split; auto. rewrite <- EV, <- EK.
    apply Yields_weaken with (cnt := true). now apply (direct_fresh fuel d i (tab U i) t G HS).
Qed.

(** ** The answer of a permutation that is served directly *)
Definition pat_matches (v : triple) (x : triple) : bool :=
  let '(a, b, c) := v in ((a =? -1) || (fst (fst x) =? a)) && pair_matches b c (snd (fst x), snd x).

Lemma split_view i s p o : (i < 6)%nat -> getIterator_split (Z.of_nat i) s p o = Some (view (Z.of_nat i) (s, p, o)).
Proof. intros H. destruct i as [|[|[|[|[|[|i]]]]]]; try reflexivity. lia. Qed.

Lemma base_yields i s p o : (i < 6)%nat -> kb_present d i = true -> U <> [] -> vok s -> vok p -> vok o -> covers d s -> covers d p -> covers d o -> leading i (s, p, o) ->
  exists h, kb_base fuel d i s p o = Some (Some h) /\
    Yields false (filter (pat_matches (view (Z.of_nat i) (s, p, o))) (V U i)) (match h with HItr it => it | HScan x => sc_obj fuel d i x end).
Proof.
  intros Hi Hp Hne Hs Hpp Ho Cs Cp Co Hlead. unfold kb_base. rewrite Hp. cbn [negb]. rewrite split_view by auto.
  assert (Hv : let '(a, b, c) := view (Z.of_nat i) (s, p, o) in (vok a /\ covers d a) /\ vok b /\ vok c).
  { destruct i as [|[|[|[|[|[|i]]]]]]; cbn; auto. lia. }
  unfold leading in Hlead. destruct (view (Z.of_nat i) (s, p, o)) as [[a b] c]. destruct Hlead as [L1 L2]. destruct Hv as ((Ha & Ca) & Hb & Hc). unfold vok in *.
  destruct (Z.leb_spec 0 a) as [H0|H0].
  - assert (EF : filter (pat_matches (a, b, c)) (V U i) = with_key a (filter (pair_matches b c) (tab U i a))).
    { unfold tab. rewrite one_key. apply filter_ext. intros x. unfold pat_matches. replace (a =? -1) with false by lia. reflexivity. }
    rewrite EF. destruct (db_tree _ _ _ _ HD a H0 Ca) as [[Eg HN]|(l & Eg & Hl)]; rewrite Eg.
    + eexists. split; [reflexivity|]. cbn iota. rewrite (absent_empty i a Hi Hp HN). apply empty_yields.
    + destruct (get_yields i a l b c Hi Hp Hl) as (it & Ei & Hy); unfold vok; try lia. rewrite Ei. eexists. split; [reflexivity|]. exact Hy.
  - assert (a = -1) as -> by lia. assert (b = -1) as -> by lia. assert (c = -1) as -> by lia.
    destruct (scan_all i Hi Hp Hne) as (x & Ex & Hy). rewrite Ex. eexists. split; [reflexivity|]. cbn.
    replace (filter (pat_matches (-1, -1, -1)) (V U i)) with (V U i); auto. symmetry. apply filter_all. intros x0 _. reflexivity.
Qed.
End Answer.
