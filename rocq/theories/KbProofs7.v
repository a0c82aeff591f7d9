(** The answers to all patterns. *)
From Coq Require Import Sorted Permutation ZifyBool.
From Verif Require Export KbProofs6 KbSpec.
From Verif Require Import QueryModel QuerySpec SortSpec InserterSpec.
Local Open Scope Z_scope.
Ltac Zify.zify_post_hook ::= Z.div_mod_to_equations.

(** ** The arrays of ReOrderItr *)
Lemma zinsert_In x y l : In y (zinsert x l) <-> y = x \/ In y l.
Proof. induction l as [|z l IH]; cbn; [intuition|]. destruct (x <=? z); cbn [In]; rewrite ?IH; intuition. Qed.
Lemma zsort_In y l : In y (zsort l) <-> In y l.
Proof. induction l as [|x l IH]; cbn; [tauto|]. rewrite zinsert_In, IH. intuition. Qed.
Lemma zsort_sorted l : NoDup l -> StronglySorted Z.lt (zsort l).
Proof.
  induction 1 as [|x l Hx Hn IH]; cbn; [constructor|]. assert (Hx' : ~ In x (zsort l)) by now rewrite zsort_In.
  revert Hx' IH. generalize (zsort l). clear. intros l Hx Hs. induction Hs as [|y l Hs IH Hf]; cbn; [repeat constructor|].
  destruct (Z.leb_spec x y).
  - assert (x <> y) by (intros ->; apply Hx; now left). constructor; [now constructor|]. constructor; [lia|]. eapply Forall_impl; [|exact Hf]. cbn. intros; lia.
  - constructor; [apply IH; intros Hi; apply Hx; now right|]. rewrite Forall_forall in *. intros z Hz. apply zinsert_In in Hz. destruct Hz as [-> |Hz]; auto.
Qed.

Lemma array_ne l : Forall (fun e => snd e <> []) (ro_array l).
Proof.
  unfold ro_array. rewrite Forall_forall. intros e He. apply in_map_iff in He. destruct He as (k & <- & Hk). cbn [snd]. rewrite zsort_In, nodup_In in Hk.
  apply in_map_iff in Hk. destruct Hk as ([k' x] & E & Hin). cbn in E. subst k'. intros E0.
  assert (Hi : In x (map snd (filter (fun e : Z * (Z * Z) => fst e =? k) l))).
  { apply in_map_iff. exists (k, x). split; auto. apply filter_In. split; auto. cbn. lia. }
  rewrite E0 in Hi. destruct Hi.
Qed.

Lemma pairs_In (l : list (Z * (Z * Z))) k x : In x (map snd (filter (fun e => fst e =? k) l)) <-> In (k, x) l.
Proof.
  rewrite in_map_iff. split.
  - intros ([k' y] & <- & Hi). apply filter_In in Hi. destruct Hi as [Hi E]. cbn in *. replace k with k' by lia. exact Hi.
  - intros Hi. exists (k, x). split; auto. apply filter_In. split; auto. cbn. lia.
Qed.

Lemma pairs_nodup (l : list (Z * (Z * Z))) k : NoDup l -> NoDup (map snd (filter (fun e => fst e =? k) l)).
Proof.
  induction 1 as [|[k' x] l Hx Hn IH]; cbn [filter fst]; [constructor|]. destruct (Z.eqb_spec k' k) as [-> |]; auto. cbn [map snd]. constructor; auto. now rewrite pairs_In.
Qed.

Lemma ple_plt (l : list (Z * Z)) : NoDup l -> StronglySorted ple l -> StronglySorted plt l.
Proof.
  intros Hn Hs. induction Hs as [|x l Hs IH Hf]; constructor; inversion Hn as [|? ? Hx Hn']; subst; auto.
  rewrite Forall_forall in *. intros y Hy. specialize (Hf y Hy). unfold ple, plt in *. destruct x as [a b], y as [a' b']. cbn in *.
  destruct (Z.eq_dec a a') as [-> |]; [|lia]. destruct (Z.eq_dec b b') as [-> |]; [contradiction|lia].
Qed.

Lemma arrays_In l x : In x (arrays_list (ro_array l)) <-> let '(k, a, b) := x in In (k, (a, b)) l.
Proof.
  unfold arrays_list, ro_array. rewrite in_flat_map. destruct x as [[k a] b]. split.
  - intros (e & He & Hx). apply in_map_iff in He. destruct He as (k' & <- & Hk). cbn [fst snd] in Hx. unfold with_key in Hx. apply in_map_iff in Hx. destruct Hx as ([a' b'] & E & Hx).
    cbn in E. injection E as -> -> ->. apply (Permutation_in _ (psort_perm _)) in Hx. now apply pairs_In in Hx.
  - intros Hi. exists (k, map snd (filter (fun e : Z * (Z * Z) => fst e =? k) l)). split.
    + apply in_map_iff. exists k. split; auto. rewrite zsort_In, nodup_In. apply in_map_iff. exists (k, (a, b)). auto.
    + cbn [fst snd]. unfold with_key. apply in_map_iff. exists (a, b). split; auto. apply (Permutation_in _ (Permutation_sym (psort_perm _))). now apply pairs_In.
Qed.

Lemma arrays_sorted l : NoDup l -> StronglySorted tlt (arrays_list (ro_array l)).
Proof.
  intros Hn. unfold arrays_list, ro_array. pose proof (zsort_sorted _ (NoDup_nodup Z.eq_dec (map fst l))) as Hs. revert Hs.
  generalize (zsort (nodup Z.eq_dec (map fst l))). intros ks Hs. induction Hs as [|k ks Hs IH Hf]; cbn [map flat_map fst snd]; [constructor|].
  set (f := fun k => map snd (filter (fun e : Z * (Z * Z) => fst e =? k) l)) in *.
  assert (HP : StronglySorted plt (psort (f k))).
  { apply ple_plt; [|apply psort_sorted]. eapply Permutation_NoDup; [apply Permutation_sym, psort_perm|]. now apply pairs_nodup. }
  revert HP. change (map snd (filter (fun e : Z * (Z * Z) => fst e =? k) l)) with (f k). generalize (psort (f k)). intros q HP. unfold with_key at 1.
  assert (Hlt : forall y, In y (flat_map (fun e : Z * list (Z * Z) => with_key (fst e) (psort (snd e))) (map (fun k => (k, f k)) ks)) -> k < fst (fst y)).
  { intros y Hy. apply in_flat_map in Hy. destruct Hy as (e & He & Hy). apply in_map_iff in He. destruct He as (k' & <- & Hk'). cbn [fst snd] in Hy. unfold with_key in Hy.
    apply in_map_iff in Hy. destruct Hy as (z & <- & _). cbn. rewrite Forall_forall in Hf. now apply Hf. }
  induction HP as [|[a b] q Hq IHq Hfq]; cbn [map app fst snd]; [exact IH|]. constructor; [exact IHq|]. apply Forall_app. split.
  - rewrite Forall_forall in *. intros y Hy. apply in_map_iff in Hy. destruct Hy as ([a' b'] & <- & Hy). specialize (Hfq _ Hy). unfold plt in Hfq. cbn in *. lia.
  - rewrite Forall_forall. intros [[k' a'] b'] Hy. specialize (Hlt _ Hy). cbn in *. lia.
Qed.

(** ** Matching *)
Lemma matches_iff s p o a b c : matches (s, p, o) (a, b, c) <-> (s < 0 \/ s = a) /\ (p < 0 \/ p = b) /\ (o < 0 \/ o = c).
Proof.
  unfold matches, matches1. split.
  - intros H. pose proof (H 0%nat ltac:(lia)). pose proof (H 1%nat ltac:(lia)). pose proof (H 2%nat ltac:(lia)). cbn in *. auto.
  - intros (H1 & H2 & H3) [|[|[|i]]] Hi; cbn; auto; lia.
Qed.

Lemma view_inj i x y : (i < 6)%nat -> view (Z.of_nat i) x = view (Z.of_nat i) y -> x = y.
Proof. intros Hi E. destruct x as [[a b] c], y as [[a' b'] c']. destruct i as [|[|[|[|[|[|i]]]]]]; cbn in E; try lia; injection E as -> -> ->; reflexivity. Qed.

Lemma view_matches i s p o t : (i < 6)%nat -> vok s -> vok p -> vok o ->
  pat_matches (view (Z.of_nat i) (s, p, o)) (view (Z.of_nat i) t) = true <-> matches (s, p, o) t.
Proof.
  intros Hi Hs Hp Ho. destruct t as [[a b] c]. rewrite matches_iff. unfold vok in *. destruct i as [|[|[|[|[|[|i]]]]]]; cbn; unfold pair_matches; cbn [fst snd]; try lia.
Qed.

Lemma answers_filter U i s p o : (i < 6)%nat -> vok s -> vok p -> vok o ->
  answers U i (s, p, o) (filter (pat_matches (view (Z.of_nat i) (s, p, o))) (V U i)).
Proof.
  intros Hi Hs Hp Ho. split; [apply filter_ss, canon_sorted|]. intros x. rewrite filter_In, V_In. split.
  - intros ((t & Ht & <-) & Hm). exists t. split; auto. split; auto. now apply (view_matches i).
  - intros (t & Ht & Hm & <-). split; [eauto|]. now apply view_matches.
Qed.

Lemma entry_inj i x y : (i < 6)%nat -> entry_of i x = entry_of i y -> x = y.
Proof.
  intros Hi E. apply (view_inj i); auto. unfold entry_of in E. destruct (view _ x) as [[a b] c], (view _ y) as [[a' b'] c']. congruence.
Qed.

Lemma answers_arrays U i s p o X : (i < 6)%nat -> vok s -> vok p -> vok o -> NoDup X ->
  (forall t, In t X /\ keep p o t = true <-> In t U /\ matches (s, p, o) t) ->
  answers U i (s, p, o) (arrays_list (ro_array (map (entry_of i) (filter (keep p o) X)))).
Proof.
  intros Hi Hs Hp Ho HN HX. split.
  - apply arrays_sorted. apply NoDup_filter with (f := keep p o) in HN. revert HN. generalize (filter (keep p o) X). clear - Hi. intros l HN.
    induction HN as [|x l Hx HN IH]; cbn; constructor; auto. rewrite in_map_iff. intros (y & E & Hy). apply entry_inj in E; auto. now subst y.
  - intros x. rewrite arrays_In. split.
    + destruct x as [[k a] b]. intros Hin. apply in_map_iff in Hin. destruct Hin as (t & E & Ht). apply filter_In in Ht. apply HX in Ht. destruct Ht as [Ht Hm]. exists t. split; auto. split; auto.
      unfold entry_of in E. destruct (view _ t) as [[k' a'] b']. congruence.
    + intros (t & Ht & Hm & <-). destruct (view (Z.of_nat i) t) as [[k a] b] eqn:Ev. apply in_map_iff. exists t. split; [unfold entry_of; now rewrite Ev|]. apply filter_In. now apply HX.
Qed.

Lemma V_nodup U i : NoDup (V U i).
Proof.
  unfold V. generalize (canon_sorted (map (view (Z.of_nat i)) U)). generalize (canon (map (view (Z.of_nat i)) U)). intros l. induction 1 as [|x l Hs IH Hf]; constructor; auto.
  intros Hx. rewrite Forall_forall in Hf. apply (tlt_irrefl x). auto.
Qed.
Lemma V_length U i : (length (V U i) <= length U)%nat.
Proof.
  replace (length U) with (length (map (view (Z.of_nat i)) U)) by apply map_length. apply NoDup_incl_length; [apply V_nodup|]. intros x Hx. unfold V in Hx. now rewrite canon_In in Hx.
Qed.
Lemma view0 t : view (Z.of_nat 0) t = t.
Proof. now destruct t as [[a b] c]. Qed.
Lemma V0_In U t : In t (V U 0) <-> In t U.
Proof. rewrite V_In. split; [intros (x & Hx & E); rewrite view0 in E; now subst|]. intros H. exists t. split; auto. apply view0. Qed.

Lemma open_free d i k f m st v : kb_open d i k f m st (-1) v = kb_open d i k f m st (-1) (-1).
Proof. reflexivity. Qed.

Section Queries.
Variables (U : list triple) (st : nat -> list (Z * Z) -> bool) (L : nat -> list entry) (d : db) (fuel : nat).
Hypothesis HD : DbOk U st L d.
Hypothesis Hfuel : (length U + length U < fuel)%nat.
Hypothesis Hne : U <> [].

Lemma get0_free k l v : kb_get fuel d 0 l k (-1) v = kb_get fuel d 0 l k (-1) (-1).
Proof. reflexivity. Qed.

Lemma keys_length W : (length (keys W) <= length W)%nat.
Proof.
  unfold keys. replace (length W) with (length (map (fun x : triple => fst (fst x)) W)) by apply map_length. apply NoDup_incl_length; [apply NoDup_nodup|].
  intros x Hx. now apply nodup_In in Hx.
Qed.

Lemma reorder_yields idx s p o : reordered idx -> kb_present d idx = false -> d_present d 0 = true -> vok s -> vok p -> vok o -> covers d s ->
  exists it l, kb_query fuel d idx s p o = Some it /\ Yields false l it /\ answers U idx (s, p, o) l.
Proof.
  intros Hr Hn H0 Hs Hp Ho Cs. assert (Hi : (idx < 6)%nat) by (destruct Hr as [-> |[-> |[-> | ->]]]; lia).
  assert (HU : (length U < fuel)%nat) by (eapply Nat.le_lt_trans; [|exact Hfuel]; apply Nat.le_add_r).
  assert (E0 : Nat.eqb idx 0 || Nat.eqb idx 3 = false) by (destruct Hr as [-> |[-> |[-> | ->]]]; reflexivity).
  assert (HG : exists h X, kb_base fuel d 0 s p o = Some (Some h) /\ ro_fill fuel d idx p o h = Some (map (entry_of idx) (filter (keep p o) X)) /\ NoDup X /\
    (forall t, In t X /\ keep p o t = true <-> In t U /\ matches (s, p, o) t)).
  { assert (Hp0 : kb_present d 0 = true) by (unfold kb_present; now rewrite H0).
    assert (Hwk : forall s0 q, NoDup q -> NoDup (with_key s0 q)).
    { intros s0 q Hq. unfold with_key. apply FinFun.Injective_map_NoDup; auto. intros [x1 x2] [y1 y2]. cbn. congruence. }
    unfold kb_base. rewrite Hp0. cbn [negb]. change (getIterator_split (Z.of_nat 0) s p o) with (Some (s, p, o)). cbn iota beta.
    destruct (Z.leb_spec 0 s) as [Hs0|Hs0].
    - set (o' := if p =? -1 then -1 else o). set (X := with_key s (filter (pair_matches p o') (tab U 0 s))).
      assert (HX : NoDup X /\ forall t, In t X /\ keep p o t = true <-> In t U /\ matches (s, p, o) t).
      { split; [apply Hwk, NoDup_filter, plt_nodup, tab_sorted|]. intros [[a b] c]. rewrite matches_iff. unfold X, with_key. rewrite in_map_iff. unfold keep. cbn [fst snd]. split.
        - intros [([b' c'] & E & Hin) Hk]. cbn in E. injection E as -> -> ->. apply filter_In in Hin. destruct Hin as [Hin Hm]. apply tab_In in Hin. destruct Hin as (t & Ht & Ev). rewrite view0 in Ev. subst t.
          split; auto. unfold vok in *. lia.
        - intros [Ht Hm]. unfold vok in *. split.
          + exists (b, c). split; [cbn; replace a with s by lia; auto|]. apply filter_In. split; [apply tab_In; exists (a, b, c); split; auto; rewrite view0; replace a with s by lia; auto|].
            unfold pair_matches. cbn [fst snd]. unfold o'. destruct (Z.eqb_spec p (-1)); lia.
          + lia. }
      assert (Hlen : (length X < fuel)%nat).
      { unfold X, with_key. rewrite map_length. eapply Nat.le_lt_trans; [apply filter_length_le|]. eapply Nat.le_lt_trans; [apply tab_length; lia|]. exact HU. }
      assert (HF : 0 <= p -> Forall (fun x : triple => snd (fst x) = p) X).
      { intros Hp1. rewrite Forall_forall. intros x Hx. unfold X, with_key in Hx. apply in_map_iff in Hx. destruct Hx as ([b c] & <- & Hx). apply filter_In in Hx. destruct Hx as [_ Hm]. unfold pair_matches in Hm. cbn in *. lia. }
      destruct (db_tree _ _ _ _ HD s Hs0 Cs) as [[Eg HN]|(l & Eg & Hl)]; rewrite Eg.
      + eexists. exists X. split; [reflexivity|]. split; [|exact HX]. assert (EX : X = []) by (unfold X; rewrite (absent_empty U st L d fuel HD HU 0 s ltac:(lia) Hp0 HN); reflexivity).
        rewrite (fill_itr d idx p o Hr [] _ fuel false (empty_yields _ _)); [now rewrite EX|cbn; lia|constructor].
      + assert (Eo : kb_get fuel d 0 l s p o = kb_get fuel d 0 l s p o').
        { unfold o'. destruct (Z.eqb_spec p (-1)) as [-> |]; auto. }
        rewrite Eo. destruct (get_yields U st L d fuel HD HU 0 s l p o' ltac:(lia) Hp0 Hl) as (it & Ei & Hy); auto.
        { unfold o'. intros ->. reflexivity. }
        { unfold o', vok in *. destruct (p =? -1); lia. }
        rewrite Ei. eexists. exists X. split; [reflexivity|]. split; [|exact HX]. apply (fill_itr d idx p o Hr X it fuel false); auto.
    - destruct (base_stored U st L d fuel HD HU 0 ltac:(lia) H0 Hne) as (t & G & HS & EK).
      destruct (direct_init d 0 (tab U 0) t G HS ltac:(lia)) as (s0 & Es & Hfr). rewrite Es. eexists. exists (V U 0). split; [reflexivity|].
      assert (EV : elems (tab U 0) (keys (V U 0)) = V U 0) by (apply elems_all, canon_sorted).
      split.
      + rewrite EK in Hfr. assert (HSc : Sc t G 0 [] (keys (V U 0)) s0) by (split; [right; auto|apply keys_sorted, canon_sorted]).
        rewrite (fill_scan d (tab U 0) t G HS (db_pad _ _ _ _ HD) (fun k => tab_sorted U 0 k) idx p o Hr fuel 0 [] _ s0 HSc).
        * cbn [with_key map app]. now rewrite EV.
        * cbn [with_key map app]. rewrite EV. replace (length (all_coords t G)) with (length (keys (V U 0))) by (rewrite <- EK; apply map_length).
          eapply Nat.le_lt_trans; [|exact Hfuel]. apply Nat.add_le_mono; [apply V_length|]. eapply Nat.le_trans; [apply keys_length|apply V_length].
      + split; [apply V_nodup|]. intros [[a b] c]. rewrite V0_In, matches_iff. unfold keep, vok in *. cbn [fst snd]. split; intros [H1 H2]; (split; [exact H1|lia]). }
  destruct HG as (h & X & Eb & Ef & HN & HX). unfold kb_query. unfold kb_base at 1. rewrite Hn. cbn [negb]. rewrite E0, Eb.
  eexists. exists (arrays_list (ro_array (map (entry_of idx) (filter (keep p o) X)))). split; [reflexivity|]. split; [|now apply answers_arrays].
  apply ro_yields; auto; [apply array_ne|]. unfold loads, ro_load. cbn [ro_arr ro_helper]. now rewrite Ef.
Qed.

(** Every pattern, in every permutation that can be served. *)
Lemma query_yields idx s p o : (idx < 6)%nat -> d_present d 0 = true -> vok s -> vok p -> vok o -> covers d s -> covers d p -> covers d o ->
  (kb_present d idx = true -> leading idx (s, p, o)) ->
  exists it l, kb_query fuel d idx s p o = Some it /\ Yields false l it /\ answers U idx (s, p, o) l.
Proof.
  intros Hi H0 Hs Hp Ho Cs Cp Co Hl. assert (HU : (length U < fuel)%nat) by (eapply Nat.le_lt_trans; [|exact Hfuel]; apply Nat.le_add_r).
  destruct (kb_present d idx) eqn:Hpr.
  - destruct (base_yields U st L d fuel HD HU idx s p o Hi Hpr Hne Hs Hp Ho Cs Cp Co (Hl eq_refl)) as (h & Eh & Hy). unfold kb_query. rewrite Eh.
    destruct h as [it|x]; eexists; eexists; (split; [reflexivity|]); (split; [exact Hy|]); now apply answers_filter.
  - apply reorder_yields; auto. unfold kb_present in Hpr. apply Bool.orb_false_iff in Hpr. destruct Hpr as [H1 H2]. unfold reordered.
    destruct idx as [|[|[|[|[|[|i]]]]]]; auto; try congruence; [|lia]. cbn in H2. congruence.
Qed.
End Queries.
