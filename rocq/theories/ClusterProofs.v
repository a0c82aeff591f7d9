(** Proofs about the cluster layout. *)
From Coq Require Import Sorted Lia.
From Verif Require Export TableModel TableSpec TableProofs.
From Verif Require Import ArrayProofs CompProofs RowProofs.
Local Open Scope Z_scope.
Ltac Zify.zify_post_hook ::= Z.div_mod_to_equations.

(** Groups with their second values. *)
Definition clb (w1 w2 wc : nat) (G : list (Z * list Z)) : list Z :=
  flat_map (fun g => enc w1 (fst g) ++ enc wc (zlen (snd g)) ++ flat_map (enc w2) (snd g)) G.
Definition pairs (G : list (Z * list Z)) : list (Z * Z) :=
  flat_map (fun g => map (pair (fst g)) (snd g)) G.

Lemma writeGroup_clb w1 w2 wc a v : v <> [] -> cl_writeGroup w1 w2 wc a v = clb w1 w2 wc [(a, v)].
Proof. intros H. destruct v; [congruence|]. cbn [clb flat_map fst snd cl_writeGroup]. now rewrite app_nil_r. Qed.

Lemma clb_app w1 w2 wc G G' : clb w1 w2 wc (G ++ G') = clb w1 w2 wc G ++ clb w1 w2 wc G'.
Proof. apply flat_map_app. Qed.
Lemma pairs_app G G' : pairs (G ++ G') = pairs G ++ pairs G'.
Proof. apply flat_map_app. Qed.

Definition adj (l : list Z) : Prop := forall l1 a b l2, l = l1 ++ a :: b :: l2 -> a <> b.

Lemma adj_snoc l x : adj l -> (forall l1 a, l = l1 ++ [a] -> a <> x) -> adj (l ++ [x]).
Proof.
  intros H Hx l1 a b l2 E. destruct l2 as [|c l2 _] using rev_ind.
  - change (l1 ++ [a; b]) with (l1 ++ [a] ++ [b]) in E. rewrite app_assoc in E.
    apply app_inj_tail in E as [E ->]. eapply Hx; eauto.
  - change (l1 ++ a :: b :: l2 ++ [c]) with (l1 ++ (a :: b :: l2) ++ [c]) in E. rewrite app_assoc in E.
    apply app_inj_tail in E as [E ->]. eapply H; eauto.
Qed.

Definition ccur (G : list (Z * list Z)) (a : Z) (v : list Z) : list (Z * list Z) :=
  G ++ match v with [] => [] | _ => [(a, v)] end.

(** What the writer produces: groups whose pairs are the appended list, none empty, adjacent
    ones different. *)
Lemma cl_write_spec w1 w2 wc l : (forall x, In x l -> fst x <> -1) ->
  exists G, cl_write w1 w2 wc l = clb w1 w2 wc G /\ pairs G = l /\ Forall (fun g => snd g <> []) G /\
    adj (map fst G).
Proof.
  intros Hl. unfold cl_write.
  assert (H : forall l0 G a v, (forall x, In x l0 -> fst x <> -1) ->
     Forall (fun g => snd g <> []) G -> adj (map fst (ccur G a v)) -> (v = [] -> a = -1 /\ G = []) ->
     let '(out, a', v') := fold_left (cl_append w1 w2 wc) l0 (clb w1 w2 wc G, a, v) in
     exists G', out = clb w1 w2 wc G' /\ Forall (fun g => snd g <> []) G' /\
       adj (map fst (ccur G' a' v')) /\
       pairs (ccur G' a' v') = pairs (ccur G a v) ++ l0).
  { induction l0 as [|x l0 IH]; intros G a v Hx HG HA Hv; cbn [fold_left].
    - exists G. rewrite app_nil_r. auto.
    - cbn [cl_append]. destruct (fst x =? a) eqn:E; cbn [negb].
      + specialize (IH G a (v ++ [snd x])).
        destruct (fold_left _ l0 _) as [[out a'] v'].
        assert (Hvn : v <> []). { intros ->. destruct (Hv eq_refl) as [-> _]. apply (Hx x); [now left|lia]. }
        destruct IH as (G' & H1 & H2 & H3 & H4).
        * intros y Hy. apply Hx. now right.
        * exact HG.
        * unfold ccur in *. destruct v; [congruence|]. cbn [app] in *. rewrite map_app in *. exact HA.
        * intros Hn. now destruct v.
        * exists G'. split; auto. split; auto. split; auto. rewrite H4. unfold ccur.
          destruct v as [|v0 v]; [congruence|]. cbn [app]. rewrite !pairs_app. cbn [pairs flat_map fst snd].
          rewrite !app_nil_r, <- !app_assoc. f_equal.
          assert (E2 : map (pair a) (v0 :: v ++ [snd x]) = map (pair a) (v0 :: v) ++ [x]).
          { change (v0 :: v ++ [snd x]) with ((v0 :: v) ++ [snd x]). rewrite map_app. f_equal.
            cbn [map]. replace a with (fst x) by lia. now destruct x. }
          rewrite E2, <- app_assoc. reflexivity.
      + destruct v as [|v0 v].
        * destruct (Hv eq_refl) as [-> ->].
          specialize (IH [] (fst x) [snd x]). cbn [cl_writeGroup]. rewrite app_nil_r.
          destruct (fold_left _ l0 _) as [[out a'] v'].
          destruct IH as (G' & H1 & H2 & H3 & H4); auto; [intros y Hy; apply Hx; now right| |discriminate|].
          { intros l1 a b l2 Hl2. cbn in Hl2. destruct l1 as [|? [|? ?]]; discriminate. }
          exists G'. split; auto. split; auto. split; auto. rewrite H4. unfold ccur. cbn. now destruct x.
        * rewrite writeGroup_clb by discriminate. rewrite <- clb_app.
          specialize (IH (G ++ [(a, v0 :: v)]) (fst x) [snd x]).
          destruct (fold_left _ l0 _) as [[out a'] v'].
          destruct IH as (G' & H1 & H2 & H3 & H4); auto.
          -- intros y Hy; apply Hx; now right.
          -- apply Forall_app; split; auto. constructor; auto. discriminate.
          -- unfold ccur in *. rewrite map_app. cbn [map fst]. apply adj_snoc; auto.
             intros l1 b Hb. rewrite map_app in Hb. cbn [map fst] in Hb.
             apply app_inj_tail in Hb as [_ <-]. lia.
          -- discriminate.
          -- exists G'. split; auto. split; auto. split; auto. rewrite H4. unfold ccur.
             rewrite !pairs_app, <- !app_assoc. f_equal. cbn [pairs flat_map fst snd map app].
             now destruct x. }
  assert (HA0 : adj (map fst (ccur [] (-1) []))).
  { intros l1 a b l2 E. destruct l1; discriminate. }
  specialize (H l [] (-1) [] Hl (Forall_nil _) HA0 (fun _ => conj eq_refl eq_refl)).
  change (clb w1 w2 wc []) with (@nil Z) in H.
  destruct (fold_left _ l _) as [[out a] v]. destruct H as (G & -> & HG & HA & HP).
  exists (ccur G a v). unfold ccur in *. destruct v as [|v0 v].
  - cbn [cl_writeGroup]. rewrite !app_nil_r in *. auto.
  - rewrite writeGroup_clb by discriminate. rewrite clb_app.
    split; auto. split; [exact HP|]. split; auto.
    apply Forall_app; split; auto. constructor; auto. discriminate.
Qed.

Definition glt (g g' : Z * list Z) : Prop := fst g < fst g'.

Lemma pairs_sorted G : Forall (fun g => snd g <> []) G -> adj (map fst G) ->
  StronglySorted plt (pairs G) ->
  StronglySorted glt G /\ Forall (fun g => StronglySorted Z.lt (snd g)) G.
Proof.
  induction G as [|[a vs] G IH]; intros Hn Ha Hs; [split; constructor|].
  inversion Hn as [|? ? N1 N2]; subst. cbn [fst snd] in *.
  change (pairs ((a, vs) :: G)) with (map (pair a) vs ++ pairs G) in Hs.
  assert (Ha2 : adj (map fst G)).
  { intros l1 x y l2 E. apply (Ha (a :: l1) x y l2). cbn. now rewrite E. }
  destruct (IH N2 Ha2 (SS_app_r _ _ _ Hs)) as [I1 I2]. split.
  - constructor; auto. destruct G as [|[b ws] G]; constructor.
    + cbn. inversion N2 as [|? ? N3 _]; subst. cbn [snd] in N3.
      assert (a <> b) by (apply (Ha [] a b (map fst G)); reflexivity).
      apply (SS_app plt) in Hs as (_ & _ & Hab).
      destruct vs as [|v vs]; [congruence|]. destruct ws as [|w ws]; [congruence|].
      specialize (Hab (a, v) (b, w) (or_introl eq_refl) (or_introl eq_refl)). unfold plt in Hab. cbn in Hab. unfold glt. cbn. lia.
    + inversion I1 as [|? ? _ Hf]; subst.
      assert (a < b).
      { inversion N2 as [|? ? N3 _]; subst. cbn [snd] in N3.
        assert (a <> b) by (apply (Ha [] a b (map fst G)); reflexivity).
        apply (SS_app plt) in Hs as (_ & _ & Hab).
        destruct vs as [|v vs]; [congruence|]. destruct ws as [|w ws]; [congruence|].
        specialize (Hab (a, v) (b, w) (or_introl eq_refl) (or_introl eq_refl)). unfold plt in Hab. cbn in Hab. lia. }
      eapply Forall_impl; [|exact Hf]. unfold glt. cbn. intros; lia.
  - constructor; auto. cbn [snd]. apply SS_app_l in Hs. clear - Hs.
    induction vs as [|v vs IH]; constructor; inversion Hs as [|? ? Hs2 Hf]; subst; auto.
    rewrite Forall_map in Hf. eapply Forall_impl; [|exact Hf]. unfold plt. cbn. intros; lia.
Qed.

Lemma Zsorted_nth vs i j : StronglySorted Z.lt vs -> (i < j < length vs)%nat -> nth i vs 0 < nth j vs 0.
Proof.
  intros Hs. revert i j. induction Hs as [|v vs Hs IH Hf]; intros i j Hij; cbn in Hij; [lia|].
  destruct i as [|i], j as [|j]; try lia; cbn [nth].
  - rewrite Forall_forall in Hf. apply Hf, nth_In. lia.
  - apply IH. lia.
Qed.

Lemma tw_count vs c n : StronglySorted Z.lt vs -> (n <= length vs)%nat ->
  (forall i, (i < n)%nat -> nth i vs 0 < c) -> (forall i, (n <= i < length vs)%nat -> c <= nth i vs 0) ->
  length (takewhile (fun v => v <? c) vs) = n.
Proof.
  intros Hs. revert n. induction Hs as [|v vs Hs IH Hf]; intros n Hn H1 H2; cbn in Hn |- *; [lia|].
  destruct n as [|n].
  - specialize (H2 0%nat ltac:(cbn; lia)). cbn in H2. now replace (v <? c) with false by lia.
  - pose proof (H1 0%nat ltac:(lia)) as H0. cbn in H0. replace (v <? c) with true by lia. cbn [length].
    f_equal. apply IH; [lia| |].
    + intros i Hi. apply (H1 (S i)). lia.
    + intros i Hi. apply (H2 (S i)). cbn. lia.
Qed.

(** Groups as lists of clusters. *)
Definition gcount (g : Z * list Z) : Z * Z := (fst g, zlen (snd g)).

Lemma pairs_fst G x : In x (pairs G) -> exists g, In g G /\ fst x = fst g.
Proof.
  unfold pairs. rewrite in_flat_map. intros (g & Hg & Hx). apply in_map_iff in Hx as (v & <- & _).
  exists g. auto.
Qed.

Lemma groups_pairs G : Forall (fun g => snd g <> []) G -> StronglySorted glt G ->
  groups (pairs G) = map gcount G.
Proof.
  intros Hn Hs. induction Hs as [|g G Hs IH Hf]; [reflexivity|].
  inversion Hn as [|? ? N1 N2]; subst.
  change (pairs (g :: G)) with (map (pair (fst g)) (snd g) ++ pairs G).
  rewrite (groups_run (fst g)).
  - cbn [map]. rewrite map_length. now rewrite IH.
  - destruct (snd g); [congruence|discriminate].
  - intros x Hx. apply in_map_iff in Hx as (v & <- & _). reflexivity.
  - intros x Hx. apply pairs_fst in Hx as (g' & Hg & ->). rewrite Forall_forall in Hf.
    specialize (Hf g' Hg). unfold glt in Hf. lia.
Qed.

Lemma filter_map' {A B} (f : A -> B) p l : filter p (map f l) = map f (filter (fun x => p (f x)) l).
Proof. induction l as [|a l IH]; cbn; auto. destruct (p (f a)); cbn; now rewrite IH. Qed.

Definition gfilter (c1 : Z) (G : list (Z * list Z)) := dropwhile (fun g => fst g <? c1) G.

Lemma gfilter_map c1 G : StronglySorted glt G ->
  map gcount (gfilter c1 G) = filter (fun g => c1 <=? fst g) (map gcount G).
Proof.
  intros Hs. unfold gfilter. rewrite (dw_filter glt); auto.
  - rewrite filter_map'. f_equal. apply filter_ext. intros g. cbn. lia.
  - unfold glt. intros; lia.
Qed.

Lemma gfilter_sorted c1 G : StronglySorted glt G -> StronglySorted glt (gfilter c1 G).
Proof. apply SS_dw. Qed.

Lemma gfilter_incl c1 G g : In g (gfilter c1 G) -> In g G.
Proof. intros H. rewrite <- (tw_dw (fun g => fst g <? c1) G). apply in_or_app. now right. Qed.

Definition rest (v1 : Z) (vs : list Z) (G : list (Z * list Z)) := map (pair v1) vs ++ pairs G.

Lemma filter_rest c1 c2 v1 vs G : Forall (fun g => v1 < fst g) G -> StronglySorted Z.lt vs ->
  c1 <= v1 ->
  filter (fun e => negb (pair_lt e c1 c2)) (rest v1 vs G) =
  rest v1 (if c1 =? v1 then dropwhile (fun v => v <? c2) vs else vs) G.
Proof.
  intros HG Hs Hc. unfold rest. rewrite filter_app, filter_map'. f_equal.
  - f_equal. destruct (c1 =? v1) eqn:E.
    + rewrite (dw_filter Z.lt) by (auto; intros; lia). apply filter_ext.
      intros v. unfold pair_lt. cbn [fst snd]. lia.
    + apply filter_true. apply Forall_forall. intros v _. unfold pair_lt. cbn [fst snd]. lia.
  - apply filter_true. apply Forall_forall. intros x Hx. apply pairs_fst in Hx as (g & Hg & E).
    rewrite Forall_forall in HG. specialize (HG g Hg). unfold pair_lt. lia.
Qed.

Lemma filter_rest_lt c1 c2 v1 vs G : v1 < c1 ->
  filter (fun e => negb (pair_lt e c1 c2)) (rest v1 vs G) =
  filter (fun e => negb (pair_lt e c1 c2)) (pairs G).
Proof.
  intros H. unfold rest. rewrite filter_app, filter_map', filter_false; [reflexivity|].
  apply Forall_forall. intros v _. unfold pair_lt. cbn [fst snd]. lia.
Qed.

Lemma filter_pairs_skip c1 c2 G : filter (fun e => negb (pair_lt e c1 c2)) (pairs G) =
  filter (fun e => negb (pair_lt e c1 c2)) (pairs (gfilter c1 G)).
Proof.
  unfold gfilter. rewrite <- (tw_dw (fun g => fst g <? c1) G) at 1. rewrite pairs_app, filter_app.
  rewrite filter_false; [reflexivity|].
  apply Forall_forall. intros x Hx. apply pairs_fst in Hx as (g & Hg & E).
  pose proof (tw_all (fun g => fst g <? c1) G) as Ht. rewrite Forall_forall in Ht.
  specialize (Ht g Hg). cbn in Ht. unfold pair_lt. lia.
Qed.

Lemma filter_pairs c1 G1 ws G2 q : StronglySorted glt (G1 ++ (c1, ws) :: G2) ->
  (forall e, q e = true -> fst e = c1) ->
  filter q (pairs (G1 ++ (c1, ws) :: G2)) = filter q (map (pair c1) ws).
Proof.
  intros Hs Hq. apply (SS_app glt) in Hs as (H1 & H2 & H3). inversion H2 as [|? ? H4 H5]; subst.
  rewrite Forall_forall in H5.
  rewrite pairs_app. cbn [pairs flat_map fst snd]. rewrite !filter_app.
  rewrite (filter_false _ (pairs G1)), (filter_false _ (flat_map _ G2)).
  - now rewrite app_nil_r.
  - apply Forall_forall. intros x Hx. apply pairs_fst in Hx as (g & Hg & E).
    specialize (H5 g Hg). unfold glt in H5. cbn in H5.
    destruct (q x) eqn:Ex; auto. apply Hq in Ex. lia.
  - apply Forall_forall. intros x Hx. apply pairs_fst in Hx as (g & Hg & E).
    specialize (H3 g _ Hg (or_introl eq_refl)). unfold glt in H3. cbn in H3.
    destruct (q x) eqn:Ex; auto. apply Hq in Ex. lia.
Qed.

Lemma filter_pairs_none c1 G q : (forall g, In g G -> fst g <> c1) ->
  (forall e, q e = true -> fst e = c1) -> filter q (pairs G) = [].
Proof.
  intros Hn Hq. apply filter_false, Forall_forall. intros x Hx. apply pairs_fst in Hx as (g & Hg & E).
  specialize (Hn g Hg). destruct (q x) eqn:Ex; auto. apply Hq in Ex. lia.
Qed.

Definition gok (G : list (Z * list Z)) : Prop :=
  StronglySorted glt G /\ Forall (fun g => StronglySorted Z.lt (snd g)) G.

Lemma gok_mid G1 g G2 : gok (G1 ++ g :: G2) -> gok [g].
Proof.
  intros [_ H]. apply Forall_app in H as [_ H]. inversion H; subst. split; repeat constructor; auto.
Qed.

Lemma filter_single (ws : list Z) c2 : StronglySorted Z.lt ws ->
  filter (fun v => v =? c2) ws = if existsb (Z.eqb c2) ws then [c2] else [].
Proof.
  induction 1 as [|w ws Hs IH Hf]; [reflexivity|]. cbn [filter existsb].
  destruct (w =? c2) eqn:E.
  - replace (c2 =? w) with true by lia. cbn [orb]. replace w with c2 by lia. f_equal.
    apply filter_false. eapply Forall_impl; [|exact Hf]. cbn. intros; lia.
  - replace (c2 =? w) with false by lia. cbn [orb]. exact IH.
Qed.

Section Cluster.
Variables (w1 w2 wc : nat) (m : mem).
Hypothesis W1 : (1 <= w1)%nat.
Hypothesis W2 : (1 <= w2)%nat.
Let z1 := Z.of_nat w1.
Let z2 := Z.of_nat w2.
Let zc := Z.of_nat wc.

Definition gfits (g : Z * list Z) : Prop :=
  snd g <> [] /\ fits w1 (fst g) /\ fits wc (zlen (snd g)) /\ Forall (fits w2) (snd g).

Definition vlen (vs : list Z) : Z := z2 * zlen vs.
Fixpoint glen (G : list (Z * list Z)) : Z :=
  match G with [] => 0 | g :: G => z1 + (zc + z2 * zlen (snd g)) + glen G end.

(** Second values vs, followed by groups G, are found at p. *)
Definition chere (p : Z) (vs : list Z) (G : list (Z * list Z)) : Prop :=
  contains m p (flat_map (enc w2) vs ++ clb w1 w2 wc G) /\ Forall (fits w2) vs /\ Forall gfits G.

Lemma vs_length vs : zlen (flat_map (enc w2) vs) = vlen vs.
Proof.
  unfold vlen. induction vs as [|v vs IH]; cbn [flat_map length]; [lia|].
  rewrite app_length, enc_length. nia.
Qed.
Lemma clb_length G : zlen (clb w1 w2 wc G) = glen G.
Proof.
  induction G as [|g G IH]; cbn [clb flat_map glen]; [reflexivity|].
  unfold clb in IH. rewrite !app_length, !enc_length.
  pose proof (vs_length (snd g)) as H. unfold vlen in H. lia.
Qed.
Lemma glen_nonneg G : 0 <= glen G.
Proof. rewrite <- clb_length. lia. Qed.

Lemma chere_v p v vs G : chere p (v :: vs) G -> rd w2 m p = Some v /\ chere (p + z2) vs G.
Proof.
  intros (H & Hf & HG). inversion Hf as [|? ? F1 F2]; subst.
  cbn [flat_map] in H. rewrite <- app_assoc in H. apply contains_app in H as [H1 H2].
  rewrite enc_length in H2. split; [now apply rd_enc|]. repeat split; auto.
Qed.

Lemma chere_vs p vs G : chere p vs G -> chere (p + vlen vs) [] G.
Proof.
  intros (H & _ & HG). apply contains_app in H as [_ H]. rewrite vs_length in H.
  repeat split; auto.
Qed.

Lemma chere_g p g G : chere p [] (g :: G) ->
  rd w1 m p = Some (fst g) /\ rd wc m (p + z1) = Some (zlen (snd g)) /\
  chere (p + z1 + zc) (snd g) G.
Proof.
  intros (H & _ & HG). inversion HG as [|? ? (N & F1 & F2 & F3) HG']; subst.
  cbn [flat_map app clb] in H. rewrite <- !app_assoc in H.
  apply contains_app in H as [H1 H2]. rewrite enc_length in H2.
  apply contains_app in H2 as [H2 H3]. rewrite enc_length in H3.
  split; [now apply rd_enc|]. split; [now apply rd_enc|]. repeat split; auto.
Qed.

Lemma chere_bound p vs G : chere p vs G -> 0 <= p /\ p + vlen vs + glen G <= zlen m.
Proof.
  intros (H & _). apply contains_bound in H. rewrite app_length in H.
  pose proof (vs_length vs). pose proof (clb_length G). lia.
Qed.

Lemma glen_ge G : zlen G <= glen G.
Proof.
  induction G as [|g G IH]; cbn [glen length]; [lia|]. unfold z1, z2, zc in *. nia.
Qed.

Lemma chere_fuel p vs G : chere p vs G -> (length vs + length G < FU m)%nat.
Proof.
  intros H. apply chere_bound in H. pose proof (glen_ge G). unfold FU, vlen, z2 in *.
  assert (zlen vs <= Z.of_nat w2 * zlen vs) by nia. lia.
Qed.

(** *** Binary search *)
Lemma chere_nth p vs G i : chere p vs G -> 0 <= i < zlen vs ->
  rd w2 m (p + i * z2) = Some (nth (Z.to_nat i) vs 0).
Proof.
  intros H Hi. rewrite <- (Z2Nat.id i) by lia. rewrite Nat2Z.id.
  assert (Hi' : (Z.to_nat i < length vs)%nat) by lia. clear Hi. revert Hi'.
  generalize (Z.to_nat i). clear i. intros i. revert p vs H.
  induction i as [|i IH]; intros p [|v vs] H Hi; cbn [length] in Hi; try lia.
  - apply chere_v in H as [H _]. change (Z.of_nat 0) with 0. now rewrite Z.mul_0_l, Z.add_0_r.
  - apply chere_v in H as [_ H]. cbn [nth]. rewrite <- (IH _ _ H) by lia. f_equal. lia.
Qed.

Lemma cl_bsearch_ok p vs G c2 : chere p vs G -> StronglySorted Z.lt vs ->
  forall fuel lo hi, 0 <= lo <= hi -> hi <= zlen vs -> hi - lo < Z.of_nat fuel ->
  (forall i, (i < Z.to_nat lo)%nat -> nth i vs 0 < c2) ->
  (forall i, (Z.to_nat hi <= i < length vs)%nat -> c2 < nth i vs 0) ->
  exists s e r, cl_bsearch fuel w2 m (p + lo * z2) (p + hi * z2) c2 = Some (s, e, r) /\
    match r with
    | Some q => q = p + vlen (takewhile (fun v => v <? c2) vs) /\ In c2 vs
    | None => s = p + vlen (takewhile (fun v => v <? c2) vs) /\ ~ In c2 vs
    end.
Proof.
  intros H Hs. induction fuel as [|fuel IH]; intros lo hi Hlo Hhi Hf L1 L2; [lia|].
  assert (Hz2 : 1 <= z2) by (unfold z2; lia).
  cbn [cl_bsearch]. fold z2. destruct (p + lo * z2 <? p + hi * z2) eqn:E.
  - assert (Hlt : lo < hi) by nia.
    replace (Z.quot (p + hi * z2 - (p + lo * z2)) z2) with (hi - lo).
    2:{ replace (p + hi * z2 - (p + lo * z2)) with ((hi - lo) * z2) by lia. rewrite Z.quot_mul; lia. }
    rewrite Z.shiftr_div_pow2 by lia. change (2 ^ 1) with 2.
    set (mid := lo + (hi - lo) / 2).
    replace (p + lo * z2 + (hi - lo) / 2 * z2) with (p + mid * z2) by (unfold mid; lia).
    assert (Hmid : lo <= mid < hi) by (unfold mid; lia).
    rewrite (chere_nth p vs G mid H) by lia.
    destruct (nth (Z.to_nat mid) vs 0 <? c2) eqn:E1; [|destruct (c2 <? nth (Z.to_nat mid) vs 0) eqn:E2].
    + replace (p + mid * z2 + z2) with (p + (mid + 1) * z2) by lia. apply IH; try lia; auto.
      intros i Hi. destruct (Nat.eq_dec i (Z.to_nat mid)) as [->|Hne]; [lia|].
      pose proof (Zsorted_nth vs i (Z.to_nat mid) Hs ltac:(lia)). lia.
    + apply IH; try lia; auto.
      intros i Hi. destruct (Nat.eq_dec i (Z.to_nat mid)) as [->|Hne]; [lia|].
      pose proof (Zsorted_nth vs (Z.to_nat mid) i Hs ltac:(lia)). lia.
    + do 3 eexists. split; [reflexivity|]. cbv beta iota.
      assert (He : nth (Z.to_nat mid) vs 0 = c2) by lia.
      split.
      * unfold vlen. rewrite (tw_count vs c2 (Z.to_nat mid)); auto; try lia.
        -- intros i Hi. pose proof (Zsorted_nth vs i (Z.to_nat mid) Hs ltac:(lia)). lia.
        -- intros i Hi. destruct (Nat.eq_dec i (Z.to_nat mid)) as [->|Hne]; [lia|].
           pose proof (Zsorted_nth vs (Z.to_nat mid) i Hs ltac:(lia)). lia.
      * rewrite <- He. apply nth_In. lia.
  - assert (lo = hi) by nia. subst hi.
    do 3 eexists. split; [reflexivity|]. cbv beta iota. split.
    + unfold vlen. rewrite (tw_count vs c2 (Z.to_nat lo)); auto; try lia.
      intros i Hi. specialize (L2 i Hi). lia.
    + intros Hin. apply (In_nth _ _ 0) in Hin as (n & Hn & Hv).
      destruct (Nat.lt_ge_cases n (Z.to_nat lo)) as [Hl|Hl]; [specialize (L1 n Hl)|specialize (L2 n (conj Hl Hn))]; lia.
Qed.

Lemma cl_bsearch_all p vs G c2 : chere p vs G -> StronglySorted Z.lt vs ->
  exists s e r, cl_bsearch (FU m) w2 m p (p + vlen vs) c2 = Some (s, e, r) /\
    match r with
    | Some q => q = p + vlen (takewhile (fun v => v <? c2) vs) /\ In c2 vs
    | None => s = p + vlen (takewhile (fun v => v <? c2) vs) /\ ~ In c2 vs
    end.
Proof.
  intros H Hs. pose proof (chere_fuel _ _ _ H) as Hfu.
  destruct (cl_bsearch_ok p vs G c2 H Hs (FU m) 0 (zlen vs)) as (s & e & r & E & Hr); try lia.
  exists s, e, r. split; auto. rewrite <- E. f_equal; unfold vlen; lia.
Qed.

(** *** Unfolding the object *)
Lemma cl_obj_hasNext s : hasNext (cl_obj s) = Some (cl_hasNext s, cl_obj s). Proof. reflexivity. Qed.
Lemma cl_obj_next s : next (cl_obj s) = match cl_next s with Some s' => Some (cl_obj s') | None => None end.
Proof. reflexivity. Qed.
Lemma cl_obj_cur s : cur (cl_obj s) = (k_key s, k_v1 s, k_v2 s). Proof. reflexivity. Qed.
Lemma cl_obj_value1 s : value1 (cl_obj s) = k_v1 s. Proof. reflexivity. Qed.
Lemma cl_obj_key s : key (cl_obj s) = k_key s. Proof. reflexivity. Qed.
Lemma cl_obj_count s : getCount (cl_obj s) = Some (cl_getCount s, cl_obj s). Proof. reflexivity. Qed.
Lemma cl_obj_moveto s a b : moveto (cl_obj s) a b =
  match cl_moveto s a b with Some s' => Some (cl_obj s') | None => None end.
Proof. reflexivity. Qed.
Lemma cl_obj_ignore s : ignoreSecondColumn (cl_obj s) = Some (cl_obj (cl_ignore s)). Proof. reflexivity. Qed.

(** *** Groups of a list of clusters *)



Lemma pairs_nonempty G : Forall gfits G -> nonempty (pairs G) = nonempty G.
Proof.
  intros H. destruct G as [|[a [|v vs]] G]; auto. inversion H as [|? ? (N & _) _]; subst. now cbn in N.
Qed.

Lemma glen_pos G : G <> [] -> 0 < glen G.
Proof.
  intros H. pose proof (glen_ge G). destruct G; [congruence|]. cbn [length] in *. lia.
Qed.




(** *** Skipping groups *)
Lemma cl_skip_ok c1 : forall G p fuel term, chere p [] G -> (length G < fuel)%nat ->
  exists t, cl_skip fuel w1 w2 wc m p (p + glen G) c1 term =
    Some (p + glen (takewhile (fun g => fst g <? c1) G), t) /\
    match gfilter c1 G with
    | [] => G = [] /\ t = term \/ t < c1
    | g :: _ => t = fst g
    end.
Proof.
  induction G as [|g G IH]; intros p fuel term H Hf; destruct fuel as [|fuel]; cbn [length] in Hf; try lia.
  - cbn [cl_skip glen takewhile gfilter dropwhile]. rewrite Z.add_0_r, Z.eqb_refl. cbn [negb].
    exists term. auto.
  - cbn [cl_skip]. pose proof (glen_pos (g :: G) ltac:(discriminate)) as Hp.
    replace (p =? p + glen (g :: G)) with false by lia. cbn [negb].
    destruct (chere_g _ _ _ H) as (R1 & R2 & Hv). rewrite R1.
    unfold gfilter. cbn [takewhile dropwhile]. destruct (fst g <? c1) eqn:E.
    + replace (c1 <=? fst g) with false by lia. fold z1. rewrite R2.
      apply chere_vs in Hv. fold z2 zc in Hv |- *.
      specialize (IH (p + z1 + (zc + zlen (snd g) * z2)) fuel (fst g)).
      replace (p + z1 + zc + vlen (snd g)) with (p + z1 + (zc + zlen (snd g) * z2)) in Hv by (unfold vlen; lia).
      destruct (IH Hv ltac:(lia)) as (t & E1 & E2).
      replace (p + z1 + (zc + zlen (snd g) * z2) + glen G) with (p + glen (g :: G)) in E1 by (cbn [glen]; lia).
      exists t. split.
      * rewrite E1. f_equal. f_equal. cbn [glen]. lia.
      * unfold gfilter in E2. destruct (dropwhile _ G); auto. destruct E2 as [[_ ->]|E2]; right; lia.
    + replace (c1 <=? fst g) with true by lia. exists (fst g). cbn [glen]. rewrite Z.add_0_r. auto.
Qed.

Lemma gtw_chere c1 p G : chere p [] G ->
  chere (p + glen (takewhile (fun g => fst g <? c1) G)) [] (gfilter c1 G) /\
  glen G = glen (takewhile (fun g => fst g <? c1) G) + glen (gfilter c1 G).
Proof.
  intros (H & _ & HG). rewrite <- (tw_dw (fun g => fst g <? c1) G) in H, HG. fold (gfilter c1 G) in *.
  set (t := takewhile _ G) in *. cbn [flat_map app] in H. rewrite clb_app in H.
  apply contains_app in H as [_ H]. rewrite clb_length in H. apply Forall_app in HG as [_ HG].
  split; [repeat split; auto|].
  rewrite <- !clb_length. rewrite <- (tw_dw (fun g => fst g <? c1) G) at 1.
  fold t. fold (gfilter c1 G). rewrite clb_app, app_length. lia.
Qed.


(** *** Cursor without the second column *)
Definition cl_over (k e : Z) (ign : bool) (s : cl_st) : Prop :=
  k_w1 s = w1 /\ k_w2 s = w2 /\ k_wc s = wc /\ k_mem s = m /\ k_key s = k /\ k_end s = e /\ k_ign s = ign.

Definition cl_gpos (e cur : Z) (G : list (Z * list Z)) : Prop :=
  chere cur [] G /\ e = cur + glen G /\ StronglySorted glt G.

Definition cl_gS (k e : Z) (c : option (Z * Z)) (mk : option (list (Z * Z))) (l : list (Z * Z))
  (o : pitr) : Prop :=
  exists s G, o = cl_obj s /\ l = map gcount G /\ cl_over k e true s /\ cl_gpos e (k_cur s) G /\
    (forall x, c = Some x -> exists ws, x = (k_v1 s, zlen ws) /\ k_cg s = zlen ws /\
       cl_gpos e (k_cur s - (z1 + zc + zlen ws * z2)) ((k_v1 s, ws) :: G)) /\
    (forall l', mk = Some l' -> exists G', l' = map gcount G' /\
       cl_gpos e (let '(c, _, _, _, _) := k_saved s in c) G').

Lemma cl_gsim k e : gcursor_sim k true (cl_gS k e).
Proof.
  intros c mk l o (s & G & -> & -> & Ho & HG & Hc & Hm).
  assert (Hself : cl_gS k e c mk (map gcount G) (cl_obj s)) by (exists s, G; auto 8).
  assert (Ho' := Ho). destruct Ho' as (E1 & E2 & E3 & E4 & E5 & E6 & E7).
  assert (HG' := HG). destruct HG' as (Hh & He & Hs).
  assert (Hn : cl_hasNext s = nonempty (map gcount G)).
  { unfold cl_hasNext. rewrite E6, He. destruct G as [|g G]; cbn [map nonempty glen]; [lia|].
    pose proof (glen_pos (g :: G) ltac:(discriminate)) as Hp. cbn [glen] in Hp. lia. }
  split; [|split; [|split; [|split]]].
  - rewrite cl_obj_hasNext, Hn. split; auto.
    destruct G as [|[a ws] G]; [exact I|]. cbn [map]. destruct (chere_g _ _ _ Hh) as (R1 & R2 & Hv). cbn [fst snd] in *.
    rewrite cl_obj_next. unfold cl_next, k_z1, k_zc, k_z2. rewrite E7, E1, E2, E3, E4. fold z1 z2 zc. rewrite R1, R2.
    eexists; split; [reflexivity|]. rewrite cl_obj_key, cl_obj_value1.
    split; [exact E5|]. split; [reflexivity|].
    apply chere_vs in Hv.
    eexists _, G. split; [reflexivity|]. split; [reflexivity|]. split; [exact Ho|].
    cbn [cl_set k_cur k_v1 k_cg k_saved].
    split; [|split; [|exact Hm]].
    + unfold cl_gpos. replace (k_cur s + z1 + (zc + z2 * zlen ws)) with (k_cur s + z1 + zc + vlen ws) by (unfold vlen; lia).
      split; auto. split; [rewrite He; cbn [glen snd]; unfold vlen; lia|]. now apply SS_tail in Hs.
    + intros x [= <-]. exists ws. unfold gcount. cbn [fst snd].
      replace (k_cur s + z1 + (zc + z2 * zlen ws) - (z1 + zc + zlen ws * z2)) with (k_cur s) by lia. auto.
  - rewrite cl_obj_count. unfold cl_getCount. rewrite E7. eexists; split; [reflexivity|].
    intros x Hx. destruct (Hc x Hx) as (ws & -> & Hcg & _). exact Hcg.
  - intros x c1 c2 Hx Hc1 _. destruct (Hc x Hx) as (ws & -> & Hcg & Hp). cbn [fst snd].
    assert (Hs' : StronglySorted glt ((k_v1 s, ws) :: G)) by apply Hp.
    change ((k_v1 s, zlen ws) :: map gcount G) with (map gcount ((k_v1 s, ws) :: G)).
    rewrite <- gfilter_map by auto. unfold gfilter. cbn [dropwhile fst].
    rewrite cl_obj_moveto. unfold cl_moveto. rewrite Hn, E7. cbn [negb andb orb]. rewrite !orb_false_r.
    destruct (k_v1 s <? c1) eqn:Ev.
    + fold (gfilter c1 G).
      assert (Hfin : forall a b c' d, cl_gS k e None mk (map gcount (gfilter c1 G))
        (cl_obj (cl_set s (k_cur s + glen (takewhile (fun g => fst g <? c1) G)) a b c' d))).
      { intros a b c' d.
        exists (cl_set s (k_cur s + glen (takewhile (fun g => fst g <? c1) G)) a b c' d), (gfilter c1 G).
        split; auto. split; auto. split; [exact Ho|]. split; [|split; [discriminate|exact Hm]].
        cbn [cl_set k_cur]. destruct (gtw_chere c1 _ _ Hh) as [H1 H2].
        split; auto. split; [lia|]. now apply gfilter_sorted. }
      destruct (nonempty (map gcount G)) eqn:En; cbn [negb andb].
      * destruct (cl_skip_ok c1 G (k_cur s) (FU m) (k_v1 s) Hh) as (t & Hsk & _).
        { pose proof (chere_fuel _ _ _ Hh). cbn [length] in *. lia. }
        rewrite <- He in Hsk. rewrite andb_false_r, E1, E2, E3, E4, E6, Hsk.
        replace (c1 <=? k_v1 s) with false by lia.
        eexists; split; [reflexivity|]. apply Hfin.
      * eexists; split; [reflexivity|]. destruct G; [|discriminate].
        exists s, []. do 4 (split; auto). split; [discriminate|exact Hm].
    + rewrite andb_false_r. replace (c1 <=? k_v1 s) with true by lia.
      eexists; split; [reflexivity|].
      eexists _, ((k_v1 s, ws) :: G). split; [reflexivity|]. split; auto. split; [exact Ho|].
      split; [|split; [discriminate|exact Hm]].
      cbn [cl_set k_cur]. unfold k_z1, k_z2, k_zc. rewrite E1, E2, E3, Hcg. exact Hp.
  - exists (cl_obj (cl_mark s)). split; [reflexivity|]. exists (cl_mark s), G.
    split; auto. split; auto. split; [exact Ho|]. split; [exact HG|]. split; [exact Hc|].
    intros l' [= <-]. exists G. split; auto.
  - intros l' i Hl'. destruct (Hm l' Hl') as (G' & -> & HG').
    exists (cl_obj (cl_reset s)). split; [reflexivity|]. exists (cl_reset s), G'.
    split; auto. split; auto. unfold cl_reset in *. destruct (k_saved s) as [[[[a b] c'] d] f] eqn:Es.
    split; [exact Ho|]. split; [exact HG'|]. split; [discriminate|].
    cbn [cl_set k_saved]. rewrite Es. intros l2 [= <-]%eq_sym. eauto.
Qed.


(** *** Cursor over the pairs *)

Definition cl_pos (e cur v1 count cg : Z) (vs : list Z) (G : list (Z * list Z)) : Prop :=
  chere cur vs G /\ e = cur + vlen vs + glen G /\ count = zlen vs /\ (vs <> [] -> cg <> 0 /\ 0 <= v1) /\
  StronglySorted Z.lt vs /\ StronglySorted glt G /\
  Forall (fun g => StronglySorted Z.lt (snd g)) G /\ Forall (fun g => v1 < fst g) G.

Definition cl_S (k e : Z) (c : option (Z * Z)) (mk : option (list (Z * Z))) (l : list (Z * Z))
  (o : pitr) : Prop :=
  exists s vs G, o = cl_obj s /\ l = rest (k_v1 s) vs G /\ cl_over k e false s /\
    cl_pos e (k_cur s) (k_v1 s) (k_count s) (k_cg s) vs G /\
    (forall x, c = Some x -> x = (k_v1 s, k_v2 s) /\
       cl_pos e (k_cur s - z2) (k_v1 s) (k_count s + 1) (k_cg s) (k_v2 s :: vs) G) /\
    (forall l', mk = Some l' -> exists vs' G',
       let '(c, v1, _, n, g) := k_saved s in l' = rest v1 vs' G' /\ cl_pos e c v1 n g vs' G').

Lemma rest_nonempty v1 vs G : Forall gfits G -> nonempty (rest v1 vs G) = nonempty vs || nonempty G.
Proof.
  intros H. unfold rest. destruct vs; cbn [map app nonempty orb]; auto. now apply pairs_nonempty.
Qed.

Lemma cl_hasNext_ok k e ign s v1 n g vs G : cl_over k e ign s -> cl_pos e (k_cur s) v1 n g vs G ->
  cl_hasNext s = nonempty (rest (k_v1 s) vs G).
Proof.
  intros (_ & _ & _ & _ & _ & E6 & _) (Hh & He & _). unfold cl_hasNext.
  rewrite rest_nonempty by apply Hh. rewrite E6, He. unfold vlen. pose proof (glen_nonneg G).
  destruct vs as [|v vs]; cbn [nonempty orb length].
  - change (Z.of_nat 0) with 0. rewrite Z.mul_0_r. destruct G as [|g' G]; cbn [nonempty]; [cbn [glen]; lia|].
    pose proof (glen_pos (g' :: G) ltac:(discriminate)). lia.
  - assert (0 < z2) by (unfold z2; lia). apply Z.ltb_lt. nia.
Qed.

Lemma cl_next_ok k e s vs G : cl_over k e false s ->
  cl_pos e (k_cur s) (k_v1 s) (k_count s) (k_cg s) vs G ->
  match rest (k_v1 s) vs G with
  | [] => True
  | x :: l' => exists cur v1 v2 count cg vs' G',
      cl_next s = Some (cl_set s cur v1 v2 count cg) /\ x = (v1, v2) /\ l' = rest v1 vs' G' /\
            (vs <> [] -> v1 = k_v1 s /\ vs = v2 :: vs' /\ G' = G) /\ (vs = [] -> G = (v1, v2 :: vs') :: G') /\
      cl_pos e cur v1 count cg vs' G' /\ cl_pos e (cur - z2) v1 (count + 1) cg (v2 :: vs') G'
  end.
Proof.
  intros (E1 & E2 & E3 & E4 & E5 & E6 & E7) HP.
  assert (HP' := HP). destruct HP' as (Hh & He & Hcnt & Hcg & Hsv & Hsg & Hss & Hv1).
  unfold cl_next, k_z1, k_z2, k_zc. rewrite E7, E1, E2, E3, E4. fold z1 z2 zc. rewrite Hcnt.
  destruct vs as [|v vs].
  - destruct G as [|[a [|w ws]] G]; [exact I| |].
    { destruct Hh as (_ & _ & HF). inversion HF as [|? ? (N & _) _]; subst. now cbn in N. }
    cbn [rest pairs flat_map map app fst snd length]. change (0 <? Z.of_nat 0) with false. cbv iota.
    destruct (chere_g _ _ _ Hh) as (R1 & R2 & Hv). cbn [fst snd] in *. rewrite R1, R2.
    destruct (chere_v _ _ _ _ Hv) as (R3 & Hv2). rewrite R3.
    inversion Hss as [|? ? Hss1 Hss2]; subst. inversion Hsg as [|? ? Hsg1 Hsg2]; subst.
    cbn [fst snd] in *.
    do 7 eexists. split; [reflexivity|]. split; [reflexivity|]. split; [reflexivity|].
    assert (Ha : 0 <= a). { destruct Hh as (_ & _ & HF). inversion HF as [|? ? (_ & F & _) _]; subst. unfold fits in F. cbn in F. lia. }
    split; [congruence|]. split; [reflexivity|].
    assert (HFa : Forall (fun g => a < fst g) G) by exact Hsg2.
    split.
    + split; [exact Hv2|]. split; [rewrite He; cbn [glen snd length]; unfold vlen; cbn [length]; lia|].
      split; [cbn [length]; lia|]. split; [cbn [length]; intros _; split; [lia|auto]|]. split; [now inversion Hss1|].
      split; auto.
    + replace (k_cur s + z1 + zc + z2 - z2) with (k_cur s + z1 + zc) by lia.
      split; [exact Hv|]. split; [rewrite He; cbn [glen snd length]; unfold vlen; cbn [length]; lia|].
      split; [cbn [length]; lia|]. split; [cbn [length]; intros _; split; [lia|auto]|]. auto.
  - cbn [rest map app]. replace (0 <? zlen (v :: vs)) with true by (symmetry; apply Z.ltb_lt; cbn [length]; lia).
    destruct (chere_v _ _ _ _ Hh) as (R3 & Hv2). rewrite R3.
    do 7 eexists. split; [reflexivity|]. split; [reflexivity|]. split; [reflexivity|].
    split; [auto|]. split; [discriminate|].
    split.
    + split; [exact Hv2|]. split; [rewrite He; unfold vlen; cbn [length]; lia|].
      split; [cbn [length]; lia|]. split; [intros _; apply Hcg; discriminate|]. split; [now inversion Hsv|]. auto.
    + replace (k_cur s + z2 - z2) with (k_cur s) by lia. rewrite Hcnt in HP.
      replace (zlen (v :: vs) - 1 + 1) with (zlen (v :: vs)) by lia. exact HP.
Qed.

(** Filtering one group and the groups after it. *)



Lemma vlen_tw (p : Z -> bool) vs : vlen vs = vlen (takewhile p vs) + vlen (dropwhile p vs).
Proof. unfold vlen. rewrite <- (tw_dw p vs) at 1. rewrite app_length. lia. Qed.

Lemma chere_dw p (q : Z -> bool) vs G : chere p vs G -> chere (p + vlen (takewhile q vs)) (dropwhile q vs) G.
Proof.
  intros (H & Hf & HG). rewrite <- (tw_dw q vs) in H, Hf. rewrite flat_map_app, <- app_assoc in H.
  apply contains_app in H as [_ H]. rewrite vs_length in H. apply Forall_app in Hf as [_ Hf].
  repeat split; auto.
Qed.

(** Moving inside the current group. *)
Lemma cl_within k e s c1 c2 vs G : cl_over k e false s ->
  cl_pos e (k_cur s) (k_v1 s) (k_count s) (k_cg s) vs G ->
  cl_pos e (k_cur s - z2) (k_v1 s) (k_count s + 1) (k_cg s) (k_v2 s :: vs) G ->
  c1 = k_v1 s ->
  exists cur cnt,
    (if c2 <=? k_v2 s then
       Some (cl_set s (k_cur s - k_z2 s) (k_v1 s) (k_v2 s) (k_count s + 1) (k_cg s))
     else
       let e := k_cur s + k_count s * k_z2 s in
       do (c, _, r) <- cl_bsearch (FU (k_mem s)) (k_w2 s) (k_mem s) (k_cur s) e c2;
       let c' := match r with Some p => p | None => c end in
       Some (cl_set s c' (k_v1 s) (k_v2 s) (Z.quot (e - c') (k_z2 s)) (k_cg s))) =
    Some (cl_set s cur (k_v1 s) (k_v2 s) cnt (k_cg s)) /\
    cl_pos e cur (k_v1 s) cnt (k_cg s) (dropwhile (fun v => v <? c2) (k_v2 s :: vs)) G.
Proof.
  intros (E1 & E2 & E3 & E4 & E5 & E6 & E7) HP HPb Hc.
  cbn [dropwhile]. unfold k_z2. rewrite E2, E4. fold z2.
  destruct (c2 <=? k_v2 s) eqn:E.
  - replace (k_v2 s <? c2) with false by lia. do 2 eexists. split; [reflexivity|]. exact HPb.
  - replace (k_v2 s <? c2) with true by lia.
    destruct HP as (Hh & He & Hcnt & Hcg & Hsv & Hsg & Hss & Hv1).
    assert (Hcg' : k_cg s <> 0 /\ 0 <= k_v1 s) by (apply HPb; discriminate).
    destruct (cl_bsearch_all _ _ _ c2 Hh Hsv) as (a & b & r & Eb & Hr).
    rewrite Hcnt. cbv zeta. replace (k_cur s + zlen vs * z2) with (k_cur s + vlen vs) by (unfold vlen; lia).
    rewrite Eb.
    assert (Hq : match r with Some p => p | None => a end = k_cur s + vlen (takewhile (fun v => v <? c2) vs))
      by (destruct r; apply Hr).
    rewrite Hq. do 2 eexists. split; [reflexivity|].
    pose proof (vlen_tw (fun v => v <? c2) vs) as Hvl.
    split; [now apply chere_dw|]. split; [lia|].
    split.
    { replace (k_cur s + vlen vs - (k_cur s + vlen (takewhile (fun v => v <? c2) vs)))
        with (zlen (dropwhile (fun v => v <? c2) vs) * z2) by (unfold vlen in *; lia).
      rewrite Z.quot_mul; auto. unfold z2; lia. }
    split; auto. split; [now apply SS_dw|]. auto.
Qed.

Lemma cl_over_set k e ign s a b c d f : cl_over k e ign s -> cl_over k e ign (cl_set s a b c d f).
Proof. exact (fun H => H). Qed.

Lemma cl_sim k e : cursor_sim k true (cl_S k e).
Proof.
  assert (Hz2 : 0 < z2) by (unfold z2; lia).
  intros c mk l o (s & vs & G & -> & -> & Ho & HP & Hc & Hm).
  assert (Hself : cl_S k e c mk (rest (k_v1 s) vs G) (cl_obj s)) by (exists s, vs, G; auto 8).
  assert (Ho' := Ho). destruct Ho' as (E1 & E2 & E3 & E4 & E5 & E6 & E7).
  assert (Hn := cl_hasNext_ok _ _ _ _ _ _ _ _ _ Ho HP).
  (* finishing a move *)
  assert (Hfin : forall cur v1 v2 cnt cg vs' G', cl_pos e cur v1 cnt cg vs' G' ->
    cl_S k e None mk (rest v1 vs' G') (cl_obj (cl_set s cur v1 v2 cnt cg))).
  { intros cur v1 v2 cnt cg vs' G' H. eexists _, vs', G'. split; [reflexivity|]. split; [reflexivity|].
    split; [exact Ho|]. split; [exact H|]. split; [discriminate|exact Hm]. }
  split; [|split; [|split; [|split; [|split]]]].
  - rewrite cl_obj_hasNext, Hn. split; auto.
    pose proof (cl_next_ok k e s vs G Ho HP) as HN.
    destruct (rest (k_v1 s) vs G) as [|x l] eqn:El; [exact I|].
    destruct HN as (cur & v1 & v2 & count & cg & vs' & G' & N1 & -> & -> & N4 & N5 & P1 & P2).
    rewrite cl_obj_next, N1. eexists; split; [reflexivity|].
    split; [rewrite cl_obj_cur; cbn; now rewrite E5|].
    eexists _, vs', G'. split; [reflexivity|]. split; [reflexivity|]. split; [exact Ho|].
    cbn [cl_set k_cur k_v1 k_v2 k_count k_cg k_saved].
    split; [exact P1|]. split; [|exact Hm]. intros x [= <-]. split; auto.
  - rewrite cl_obj_count. unfold cl_getCount. now rewrite E7.
  - intros x c1 c2 Hx Hc1 Hc2. destruct (Hc x Hx) as (-> & HPb).
    assert (Hcg : k_cg s <> 0 /\ 0 <= k_v1 s) by (apply HPb; discriminate).
    assert (Hv2 : 0 <= k_v2 s).
    { destruct HPb as ((_ & Hf & _) & _). inversion Hf as [|? ? F _]; subst. unfold fits in F. lia. }
    change ((k_v1 s, k_v2 s) :: rest (k_v1 s) vs G) with (rest (k_v1 s) (k_v2 s :: vs) G).
    rewrite cl_obj_moveto. unfold cl_moveto. rewrite Hn, E7. cbn [negb andb].
    set (beyond := (k_v1 s <? c1) || (k_v1 s =? c1) && (k_v2 s <? c2)).
    assert (HP' := HP). destruct HP' as (Hh & He & Hcnt & _ & Hsv & Hsg & Hss & Hv1).
    assert (Hsv' : StronglySorted Z.lt (k_v2 s :: vs)) by apply HPb.
    destruct (negb (nonempty (rest (k_v1 s) vs G)) && beyond) eqn:Eend.
    + apply andb_prop in Eend as [En Eb]. rewrite rest_nonempty in En by apply Hh.
      destruct vs; [|discriminate]. destruct G; [|discriminate].
      eexists; split; [reflexivity|]. rewrite filter_false.
      * exists s, [], []. split; auto. split; auto. split; [exact Ho|]. split; [exact HP|].
        split; [discriminate|exact Hm].
      * repeat constructor. unfold pair_lt. cbn [fst snd]. unfold beyond in Eb. rewrite Eb. reflexivity.
    + destruct (k_v1 s <? c1) eqn:Ev.
      * rewrite filter_rest_lt, filter_pairs_skip by lia.
        assert (Hh2 : chere (k_cur s + vlen vs) [] G) by now apply chere_vs.
        assert (Hcur : (if negb (k_count s =? 0) && negb false then k_cur s + k_z2 s * k_count s else k_cur s)
          = k_cur s + vlen vs).
        { unfold k_z2. rewrite E2, Hcnt. fold z2. unfold vlen. cbn [negb]. rewrite andb_true_r.
          destruct vs; cbn [length negb]; [change (Z.of_nat 0 =? 0) with true; cbn [negb]; lia|].
          replace (Z.of_nat (S (length vs)) =? 0) with false by (symmetry; apply Z.eqb_neq; lia). reflexivity. }
        cbn [negb] in Hcur. rewrite Hcur.
        destruct (cl_skip_ok c1 G (k_cur s + vlen vs) (FU m) (k_v1 s) Hh2) as (t & Hsk & Ht).
        { pose proof (chere_fuel _ _ _ Hh2). cbn [length] in *. lia. }
        destruct (gtw_chere c1 _ _ Hh2) as [Hh3 Hgl].
        rewrite <- He in Hsk. rewrite E1, E2, E3, E4, E6, Hsk.
        set (p := k_cur s + vlen vs + glen (takewhile (fun g => fst g <? c1) G)) in *.
        assert (HP2 : cl_pos e p (k_v1 s) 0 0 [] (gfilter c1 G)).
        { split; [exact Hh3|]. split; [unfold vlen, p; cbn [length]; lia|]. split; [reflexivity|].
          split; [congruence|]. split; [constructor|]. split; [now apply gfilter_sorted|].
          split; apply Forall_forall; intros g Hg; apply gfilter_incl in Hg.
          - rewrite Forall_forall in Hss. auto.
          - rewrite Forall_forall in Hv1. auto. }
        destruct (gfilter c1 G) as [|g G1] eqn:EG.
        -- assert (Htc : (t =? c1) = false) by (destruct Ht as [[_ ->]|Ht]; lia).
           rewrite Htc. cbn [cl_set k_v2]. change (-1 =? -1) with true. cbv iota.
           eexists; split; [reflexivity|]. apply (Hfin p (k_v1 s) (-1) 0 0 [] []). exact HP2.
        -- subst t. destruct (fst g =? c1) eqn:Eg.
           ++ cbn [cl_set k_cg]. change (0 =? 0) with true. cbv iota.
              set (s1 := cl_set s p (k_v1 s) (-1) 0 0) in *.
              assert (Ho1 : cl_over k e false s1) by exact Ho.
              pose proof (cl_next_ok k e s1 [] (g :: G1) Ho1 HP2) as HN.
              assert (Hgn : exists w ws, snd g = w :: ws).
              { destruct Hh3 as (_ & _ & HF). inversion HF as [|? ? (N & _) _]; subst.
                destruct (snd g); [congruence|eauto]. }
              destruct Hgn as (w & ws & Hgw).
              unfold rest at 1 in HN. cbn [map app pairs flat_map] in HN. rewrite Hgw in HN. cbn [map app] in HN.
              destruct HN as (cur & v1 & v2 & count & cg & vs' & G' & N1 & N2 & N3 & N4 & N5 & P1 & P2).
              change (cl_set s p (k_v1 s) (-1) 0 0) with s1. rewrite N1.
              specialize (N5 eq_refl). injection N5 as -> ->. cbn [fst snd] in *.
              set (s2 := cl_set s1 cur v1 v2 count cg) in *.
              assert (Ho2 : cl_over k e false s2) by exact Ho.
              destruct (cl_within k e s2 c1 c2 vs' G' Ho2 P1 P2 ltac:(cbn; lia)) as (cur' & cnt' & W & PW).
              change (k_mem s2) with (k_mem s) in W. change (k_w2 s2) with (k_w2 s) in W.
              rewrite E4, E2 in W.
              match goal with |- context [if c2 <=? k_v2 s2 then ?A else ?B] =>
                replace (if c2 <=? k_v2 s2 then A else B) with
                  (Some (cl_set s2 cur' (k_v1 s2) (k_v2 s2) cnt' (k_cg s2))) by (symmetry; exact W) end.
              eexists; split; [reflexivity|].
              change (pairs ((v1, v2 :: vs') :: G')) with (rest v1 (v2 :: vs') G').
              rewrite filter_rest; [|apply P2|apply P2|lia].
              replace (c1 =? v1) with true by lia.
              exact (Hfin cur' v1 v2 cnt' cg _ _ PW).
           ++ cbn [cl_set k_v2]. change (-1 =? -1) with true. cbv iota.
              eexists; split; [reflexivity|].
              rewrite filter_true.
              { exact (Hfin p (k_v1 s) (-1) 0 0 [] (g :: G1) HP2). }
              apply Forall_forall. intros y Hy. apply pairs_fst in Hy as (g' & Hg' & Ey).
              assert (c1 <= fst g) by (apply dw_head in EG; lia).
              assert (fst g <= fst g').
              { assert (Hsg2 : StronglySorted glt (g :: G1)) by apply HP2.
                inversion Hsg2 as [|? ? _ Hf]; subst. rewrite Forall_forall in Hf.
                destruct Hg' as [-> |Hg']; [lia|]. specialize (Hf g' Hg'). unfold glt in Hf. lia. }
              unfold pair_lt. lia.
      * rewrite filter_rest; [|apply HPb|apply HPb|lia].
        destruct (k_v1 s =? c1) eqn:Eq.
        -- replace (c1 =? k_v1 s) with true by lia. replace (k_cg s =? 0) with false by lia.
           destruct (cl_within k e s c1 c2 vs G Ho HP HPb ltac:(lia)) as (cur' & cnt' & W & PW).
           match goal with |- context [if c2 <=? k_v2 s then ?A else ?B] =>
             replace (if c2 <=? k_v2 s then A else B) with
               (Some (cl_set s cur' (k_v1 s) (k_v2 s) cnt' (k_cg s))) by (symmetry; exact W) end.
           eexists; split; [reflexivity|].
           exact (Hfin cur' (k_v1 s) (k_v2 s) cnt' (k_cg s) _ _ PW).
        -- replace (c1 =? k_v1 s) with false by lia. replace (k_v2 s =? -1) with false by lia.
           eexists; split; [reflexivity|]. unfold k_z2. rewrite E2. fold z2.
           exact (Hfin _ _ _ _ _ _ _ HPb).
  - exists (cl_obj (cl_mark s)). split; [reflexivity|]. exists (cl_mark s), vs, G.
    split; auto. split; auto. split; [exact Ho|]. split; [exact HP|]. split; [exact Hc|].
    intros l' [= <-]. exists vs, G. cbn [cl_mark k_saved]. auto.
  - intros l' i Hl'. destruct (Hm l' Hl') as (vs' & G' & HG').
    exists (cl_obj (cl_reset s)). split; [reflexivity|]. unfold cl_reset in *.
    destruct (k_saved s) as [[[[a b] c'] d] f] eqn:Es. destruct HG' as [-> HG'].
    apply Hfin. exact HG'.
  - intros x Hx. destruct (Hc x Hx) as (-> & HPb). cbn [fst].
    assert (Hcg : k_cg s <> 0 /\ 0 <= k_v1 s) by (apply HPb; discriminate).
    rewrite cl_obj_ignore. eexists; split; [reflexivity|]. exists (cl_gS k e). split; [apply cl_gsim|].
    unfold cl_ignore. replace (k_v1 s =? -1) with false by lia. cbn [negb].
    destruct HP as (Hh & He & Hcnt & _ & Hsv & Hsg & Hss & Hv1).
    eexists _, G. split; [reflexivity|]. split.
    { unfold rest. rewrite filter_app, filter_false, filter_true.
      - cbn [app]. rewrite <- groups_pairs; auto. destruct Hh as (_ & _ & HF).
        eapply Forall_impl; [|exact HF]. intros g Hg. apply Hg.
      - apply Forall_forall. intros y Hy. apply pairs_fst in Hy as (g' & Hg' & Ey).
        rewrite Forall_forall in Hv1. specialize (Hv1 g' Hg'). lia.
      - apply Forall_forall. intros y Hy. apply in_map_iff in Hy as (v & <- & _). cbn [fst]. lia. }
    split; [unfold cl_over in *; cbn; tauto|].
    split; [|split; discriminate]. cbn [cl_set k_cur]. unfold k_z2. rewrite E2, Hcnt. fold z2.
    change (z2 * zlen vs) with (vlen vs). split; [now apply chere_vs|]. split; [lia|auto].
Qed.

(** *** Opening *)

Lemma cl_first k p G : chere p [] G -> StronglySorted glt G ->
  IgnoresFirst k true (pairs G) (cl_obj (cl_setup w1 w2 wc m k p (p + glen G))).
Proof.
  intros Hh Hs Hne. destruct G as [|[a ws] G]; [cbn in Hne; congruence|]. clear Hne.
  assert (HN : Forall (fun g : Z * list Z => snd g <> []) ((a, ws) :: G)).
  { destruct Hh as (_ & _ & HF). eapply Forall_impl; [|exact HF]. intros g Hg. apply Hg. }
  assert (Ha : 0 <= a).
  { destruct Hh as (_ & _ & HF). inversion HF as [|? ? (_ & F & _) _]; subst. unfold fits in F. cbn [fst] in F. lia. }
  destruct (chere_g _ _ _ Hh) as (R1 & R2 & Hv). cbn [fst snd] in *.
  assert (Hvs := chere_vs _ _ _ Hv).
  destruct ws as [|v ws]; [inversion HN as [|? ? N _]; subst; now cbn in N|].
  destruct (chere_v _ _ _ _ Hv) as (R3 & _).
  assert (He : exists e, e = p + glen ((a, v :: ws) :: G)) by eauto. destruct He as (e & He). rewrite <- He.
  rewrite cl_obj_next. unfold cl_next, cl_setup, k_z1, k_z2, k_zc. cbn [k_ign k_count k_w1 k_w2 k_wc k_mem k_cur].
  fold z1 z2 zc. cbn [Z.ltb Z.compare]. rewrite R1, R2, R3.
  do 5 eexists. split; [reflexivity|]. rewrite cl_obj_ignore. split; [reflexivity|].
  rewrite groups_pairs by auto. cbn [map]. split; [reflexivity|].
  unfold cl_ignore. cbn [cl_set k_v1]. replace (a =? -1) with false by lia. cbn [negb].
  split; [reflexivity|]. split; [reflexivity|]. split; [apply cl_gsim|].
  eexists _, G. split; [reflexivity|]. split; [reflexivity|].
  split; [unfold cl_over; cbn; auto 8|]. unfold k_z2. cbn [cl_set k_cur k_count k_v1 k_cg k_saved k_w2]. fold z2.
  assert (E : p + z1 + zc + z2 + z2 * (zlen (v :: ws) - 1) = p + z1 + zc + vlen (v :: ws)) by (unfold vlen; lia).
  rewrite E.
  split; [|split; [|discriminate]].
  - split; auto. split; [unfold vlen; rewrite He; change (glen ((a, v :: ws) :: G)) with (z1 + (zc + z2 * zlen (v :: ws)) + glen G); lia|].
    now apply SS_tail in Hs.
  - intros x [= <-]. exists (v :: ws). split; [reflexivity|]. split; [reflexivity|].
    replace (p + z1 + zc + vlen (v :: ws) - (z1 + zc + zlen (v :: ws) * z2)) with p by (unfold vlen; lia).
    split; auto.
Qed.

Lemma cl_open k p G : chere p [] G -> gok G ->
  Table k true (pairs G) (cl_obj (cl_setup w1 w2 wc m k p (p + glen G))).
Proof.
  intros Hh [Hs Hss]. split; [|split; [|now apply cl_first]].
  - exists (cl_S k (p + glen G)). split; [apply cl_sim|].
    eexists _, [], G. split; [reflexivity|]. split; [reflexivity|]. split; [unfold cl_over; cbn; auto 8|].
    split; [|split; discriminate]. cbn [cl_setup k_cur k_v1 k_count k_cg].
    split; auto. split; [unfold vlen; cbn [length]; lia|]. split; [reflexivity|]. split; [congruence|].
    split; [constructor|]. split; auto. split; auto.
    destruct Hh as (_ & _ & HF). eapply Forall_impl; [|exact HF]. intros g (_ & F & _). unfold fits in F. lia.
  - unfold Ignores. rewrite cl_obj_ignore. eexists; split; [reflexivity|].
    exists (cl_gS k (p + glen G)). split; [apply cl_gsim|].
    eexists _, G. split; [reflexivity|]. split.
    { apply groups_pairs; auto. destruct Hh as (_ & _ & HF). eapply Forall_impl; [|exact HF]. intros g Hg. apply Hg. }
    split; [unfold cl_over; cbn; auto 8|]. split; [|split; discriminate].
    cbn. split; auto.
Qed.

Lemma chere_gapp p G1 G2 : chere p [] (G1 ++ G2) ->
  chere p [] G1 /\ chere (p + glen G1) [] G2 /\ glen (G1 ++ G2) = glen G1 + glen G2.
Proof.
  intros (H & _ & HG). cbn [flat_map app] in H. rewrite clb_app in H. apply Forall_app in HG as [H1 H2].
  apply contains_app in H as [H3 H4]. rewrite clb_length in H4.
  split; [repeat split; auto|]. split; [repeat split; auto|].
  rewrite <- !clb_length, clb_app, app_length. lia.
Qed.

(** Where the search for c1 ends. *)
Lemma cl_find_ok c1 : forall G p fuel, chere p [] G -> StronglySorted glt G -> (length G < fuel)%nat ->
  (exists G1 ws G2, G = G1 ++ (c1, ws) :: G2 /\
     cl_find fuel w1 w2 wc m c1 p (p + glen G) = Some (p + glen G1, p + glen G1 + glen [(c1, ws)])) \/
  ((forall g, In g G -> fst g <> c1) /\
     cl_find fuel w1 w2 wc m c1 p (p + glen G) = Some (p + glen G, p + glen G)).
Proof.
  induction G as [|[a ws] G IH]; intros p fuel H Hs Hf; destruct fuel as [|fuel]; cbn [length] in Hf; try lia.
  - right. split; [contradiction|]. cbn [cl_find glen]. rewrite Z.add_0_r, Z.eqb_refl. reflexivity.
  - cbn [cl_find]. pose proof (glen_pos ((a, ws) :: G) ltac:(discriminate)) as Hp.
    replace (p =? p + glen ((a, ws) :: G)) with false by lia. cbn [negb].
    destruct (chere_g _ _ _ H) as (R1 & R2 & Hv). cbn [fst snd] in *. rewrite R1. fold z1. rewrite R2.
    fold z2 zc. inversion Hs as [|? ? Hs2 Hf2]; subst. rewrite Forall_forall in Hf2.
    destruct (a =? c1) eqn:E; [|destruct (c1 <? a) eqn:E2].
    + left. exists [], ws, G. replace a with c1 by lia. split; [reflexivity|].
      cbn [glen snd]. do 2 f_equal; lia.
    + right. split; [|reflexivity]. intros g [<- |Hg]; [cbn; lia|].
      specialize (Hf2 g Hg). unfold glt in Hf2. cbn in Hf2. lia.
    + apply chere_vs in Hv.
      replace (p + z1 + zc + vlen ws) with (p + z1 + zc + zlen ws * z2) in Hv by (unfold vlen; lia).
      destruct (IH _ fuel Hv Hs2 ltac:(lia)) as [(G1 & ws' & G2 & -> & E3)|[H3 E3]].
      * left. exists ((a, ws) :: G1), ws', G2. split; [reflexivity|].
        replace (p + z1 + zc + zlen ws * z2 + glen (G1 ++ (c1, ws') :: G2)) with
          (p + glen ((a, ws) :: G1 ++ (c1, ws') :: G2)) in E3 by (cbn [glen snd]; lia).
        cbn [app]. rewrite E3. cbn [glen snd]. do 2 f_equal; lia.
      * right. split; [intros g [<- |Hg]; [cbn; lia|auto]|].
        replace (p + z1 + zc + zlen ws * z2 + glen G) with (p + glen ((a, ws) :: G)) in E3 by (cbn [glen snd]; lia).
        exact E3.
Qed.




Lemma cl_setup1_ok k p G c1 : chere p [] G -> gok G -> 0 <= c1 ->
  exists st, cl_setup1 w1 w2 wc m k c1 p (p + glen G) = Some st /\
    Table k true (filter (pair_matches c1 (-1)) (pairs G)) (cl_obj st).
Proof.
  intros Hh Hg Hc. unfold cl_setup1.
  destruct (cl_find_ok c1 G p (FU m) Hh (proj1 Hg)) as [(G1 & ws & G2 & -> & E)|[Hno E]].
  { pose proof (chere_fuel _ _ _ Hh). cbn [length] in *. lia. }
  - rewrite E. pose proof (glen_nonneg [(c1, ws)]).
    replace (p + glen G1 + glen [(c1, ws)] <? p + glen G1) with false by lia.
    eexists; split; [reflexivity|].
    rewrite (filter_pairs c1); [|apply Hg|unfold pair_matches; intros; lia].
    rewrite filter_true.
    + replace (map (pair c1) ws) with (pairs [(c1, ws)]) by (cbn; apply app_nil_r).
      destruct (chere_gapp _ _ _ Hh) as (_ & H2 & _).
      change ((c1, ws) :: G2) with ([(c1, ws)] ++ G2) in H2. apply chere_gapp in H2 as (H2 & _).
      apply cl_open; auto. eapply gok_mid; eauto.
    + apply Forall_forall. intros x Hx. apply in_map_iff in Hx as (v & <- & _). unfold pair_matches. cbn. lia.
  - rewrite E. rewrite Z.ltb_irrefl. eexists; split; [reflexivity|].
    rewrite (filter_pairs_none c1); auto; [|unfold pair_matches; intros; lia].
    pose proof (cl_open k (p + glen G) []) as H. cbn [glen pairs flat_map] in H. rewrite Z.add_0_r in H.
    apply H; [|split; constructor].
    rewrite <- (app_nil_r G) in Hh. apply chere_gapp in Hh as (_ & Hh & _). exact Hh.
Qed.

(** A cursor that has nothing to deliver. *)
Definition cl_dead (k : Z) (c : option (Z * Z)) (mk : option (list (Z * Z))) (l : list (Z * Z))
  (o : pitr) : Prop :=
  c = None /\ l = [] /\ exists s, o = cl_obj s /\ k_ign s = false /\ k_end s <= k_cur s /\
    (forall l', mk = Some l' -> l' = [] /\ k_end s <= (let '(c, _, _, _, _) := k_saved s in c)).

Lemma cl_dead_sim k : cursor_sim k true (cl_dead k).
Proof.
  intros c mk l o (-> & -> & s & -> & Ei & Hend & Hm).
  assert (Hself : cl_dead k None mk [] (cl_obj s)) by (split; auto; split; auto; exists s; auto).
  split; [|split; [|split; [|split; [|split]]]]; try discriminate.
  - rewrite cl_obj_hasNext. unfold cl_hasNext.
    replace (k_cur s <? k_end s) with false by lia. auto.
  - rewrite cl_obj_count. unfold cl_getCount. now rewrite Ei.
  - exists (cl_obj (cl_mark s)). split; [reflexivity|]. split; auto. split; auto. exists (cl_mark s).
    split; auto. split; auto. split; auto. intros l' [= <-]. auto.
  - intros l' i Hl'. destruct (Hm l' Hl') as [-> H]. exists (cl_obj (cl_reset s)). split; [reflexivity|].
    split; auto. split; auto. unfold cl_reset. destruct (k_saved s) as [[[[a b] c'] d] f] eqn:Es.
    eexists. split; [reflexivity|]. cbn [cl_set k_ign k_end k_cur k_saved]. rewrite Es. auto.
Qed.


Lemma cl_setup2_ok k p G c1 c2 : chere p [] G -> gok G -> 0 <= c1 -> 0 <= c2 ->
  exists st, cl_setup2 w1 w2 wc m k c1 c2 p (p + glen G) = Some st /\
    Cursor k true (filter (pair_matches c1 c2) (pairs G)) (cl_obj st).
Proof.
  intros Hh Hg Hc1 Hc2. unfold cl_setup2.
  assert (Hq : forall e, pair_matches c1 c2 e = true -> fst e = c1) by (unfold pair_matches; intros; lia).
  destruct (cl_find_ok c1 G p (FU m) Hh (proj1 Hg)) as [(G1 & ws & G2 & -> & E)|[Hno E]].
  { pose proof (chere_fuel _ _ _ Hh). cbn [length] in *. lia. }
  - rewrite E. pose proof (glen_pos [(c1, ws)] ltac:(discriminate)) as Hpos.
    replace (p + glen G1 + glen [(c1, ws)] <? p + glen G1) with false by lia.
    replace (p + glen G1 <? p + glen G1 + glen [(c1, ws)]) with true by lia.
    destruct (chere_gapp _ _ _ Hh) as (_ & H2 & Hlen).
    set (q := p + glen G1) in *.
    destruct (chere_g _ _ _ H2) as (R1 & R2 & Hv). cbn [fst snd] in *. fold z1. rewrite R2. fold zc.
    assert (Hsw : StronglySorted Z.lt ws).
    { destruct Hg as [_ Hg]. apply Forall_app in Hg as [_ Hg]. now inversion Hg; subst. }
    destruct (cl_bsearch_all _ _ _ c2 Hv Hsw) as (a & b & r & Eb & Hr).
    replace (q + glen [(c1, ws)]) with (q + z1 + zc + vlen ws) by (cbn [glen snd]; unfold vlen; lia).
    rewrite Eb.
    rewrite (filter_pairs c1); [|apply Hg|exact Hq].
    assert (Hfl : filter (pair_matches c1 c2) (map (pair c1) ws) =
      map (pair c1) (if existsb (Z.eqb c2) ws then [c2] else [])).
    { rewrite filter_map', <- filter_single by auto. f_equal. apply filter_ext. intros v.
      unfold pair_matches. cbn. lia. }
    rewrite Hfl. clear Hfl.
    destruct ws as [|w0 ws0] eqn:Ews.
    { destruct H2 as (_ & _ & HF). inversion HF as [|? ? (N & _) _]; subst. now cbn in N. }
    rewrite <- Ews in *.
    set (tw := takewhile (fun v => v <? c2) ws) in *.
    destruct r as [pos|]; cbv iota.
    + destruct Hr as [-> Hin].
      assert (Hdw : dropwhile (fun v => v <? c2) ws = c2 :: dropwhile (fun v => v <=? c2) ws).
      { clear - Hsw Hin. induction Hsw as [|w ws Hs IH Hf]; [contradiction|]. cbn [dropwhile].
        rewrite Forall_forall in Hf.
        destruct (w <? c2) eqn:Ew.
        - replace (w <=? c2) with true by lia. apply IH. destruct Hin as [->|Hin]; [lia|auto].
        - destruct Hin as [->|Hin]; [|specialize (Hf _ Hin); lia]. rewrite Z.leb_refl. f_equal.
          clear - Hf. induction ws as [|v ws IH]; auto. cbn [dropwhile].
          replace (v <=? c2) with false; auto. specialize (Hf v (or_introl eq_refl)). lia. }
      pose proof (chere_dw _ (fun v => v <? c2) _ _ Hv) as Hd. fold tw in Hd. rewrite Hdw in Hd.
      destruct (chere_v _ _ _ _ Hd) as (R3 & Hd2). rewrite R3, Z.eqb_refl.
      replace (existsb (Z.eqb c2) ws) with true
        by (symmetry; apply existsb_exists; exists c2; rewrite Z.eqb_refl; auto).
      eexists; split; [reflexivity|].
      set (pos := q + z1 + zc + vlen tw) in *.
      exists (cl_S k (pos + z2)). split; [apply cl_sim|].
      eexists _, [c2], []. split; [reflexivity|]. split; [reflexivity|].
      split; [unfold cl_over; cbn; auto 8|]. split; [|split; discriminate].
      cbn [k_cur k_v1 k_count k_cg].
      split.
      { destruct Hd as (Hm1 & Hm2 & _). cbn [flat_map] in Hm1. rewrite <- app_assoc in Hm1.
        apply contains_app in Hm1 as [Hm1 _]. inversion Hm2; subst.
        split; [cbn [flat_map clb]; rewrite !app_nil_r; exact Hm1|]. split; [constructor; [assumption|constructor]|constructor]. }
      split; [unfold vlen; cbn [length glen]; lia|]. split; [reflexivity|]. split; [intros _; split; [discriminate|auto]|].
      split; [repeat constructor|]. split; [constructor|]. split; constructor.
    + destruct Hr as [_ Hnin].
      assert (Hw0 : rd w2 m (q + z1 + zc) = Some w0).
      { rewrite Ews in Hv. now apply chere_v in Hv as [Hv _]. }
      rewrite Hw0.
      replace (w0 =? c2) with false
        by (symmetry; apply Z.eqb_neq; intros ->; apply Hnin; rewrite Ews; now left).
      replace (existsb (Z.eqb c2) ws) with false.
      2:{ symmetry. apply not_true_is_false. intros Hx. apply existsb_exists in Hx as (y & Hy & Hy2).
          apply Hnin. now replace c2 with y by lia. }
      eexists; split; [reflexivity|]. exists (cl_dead k). split; [apply cl_dead_sim|].
      split; auto. split; auto. eexists. split; [reflexivity|]. cbn [k_ign k_end k_cur].
      split; auto. split; [|discriminate].
      rewrite Hlen. pose proof (glen_nonneg G2). cbn [glen snd]. unfold vlen. lia.
  - rewrite E. rewrite !Z.ltb_irrefl. eexists; split; [reflexivity|].
    rewrite (filter_pairs_none c1); auto.
    pose proof (cl_open k (p + glen G) []) as H. cbn [glen pairs flat_map] in H. rewrite Z.add_0_r in H.
    apply H; [|split; constructor].
    rewrite <- (app_nil_r G) in Hh. apply chere_gapp in Hh as (_ & Hh & _). exact Hh.
Qed.

(** Cardinality. *)
Lemma cl_card_ok : forall G p fuel sum n last, chere p [] G -> (length G < fuel)%nat ->
  exists sum' n' last', cl_card fuel w1 w2 wc m p (p + glen G) sum n last = Some (sum', n', last') /\
    sum' = sum + zlen (pairs G) /\ n' = n + zlen G.
Proof.
  induction G as [|g G IH]; intros p fuel sum n last H Hf; destruct fuel as [|fuel]; cbn [length] in Hf; try lia.
  - cbn [cl_card glen]. rewrite Z.add_0_r, Z.eqb_refl. cbn [negb]. do 3 eexists. split; [reflexivity|]. cbn; lia.
  - cbn [cl_card]. pose proof (glen_pos (g :: G) ltac:(discriminate)) as Hp.
    replace (p =? p + glen (g :: G)) with false by lia. cbn [negb].
    destruct (chere_g _ _ _ H) as (_ & R2 & Hv). fold z1. rewrite R2. fold z2 zc. apply chere_vs in Hv.
    replace (p + z1 + zc + vlen (snd g)) with (p + z1 + (zc + z2 * zlen (snd g))) in Hv by (unfold vlen; lia).
    destruct (IH _ fuel (sum + zlen (snd g)) (n + 1) (zlen (snd g)) Hv ltac:(lia)) as (sum' & n' & l' & E & -> & ->).
    replace (p + z1 + (zc + z2 * zlen (snd g)) + glen G) with (p + glen (g :: G)) in E by (cbn [glen]; lia).
    rewrite E. do 3 eexists. split; [reflexivity|]. cbn [pairs flat_map length].
    rewrite ?app_length, ?map_length. unfold pairs. lia.
Qed.

Lemma cl_cardinality_ok k p G (ign : bool) : chere p [] G -> gok G ->
  exists s', cl_getCardinality (let s := cl_setup w1 w2 wc m k p (p + glen G) in if ign then cl_ignore s else s) =
    Some ((if ign then zlen (groups (pairs G)) else zlen (pairs G)), s').
Proof.
  intros Hh Hg. cbv zeta.
  destruct (cl_card_ok G p (FU m) 0 0 (-1) Hh) as (sum' & n' & l' & E & -> & ->).
  { pose proof (chere_fuel _ _ _ Hh). cbn [length] in *. lia. }
  assert (HGn : Forall (fun g => snd g <> []) G).
  { destruct Hh as (_ & _ & HF). eapply Forall_impl; [|exact HF]. intros g Hg'. apply Hg'. }
  destruct ign; unfold cl_getCardinality.
  - change (cl_card _ _ _ _ _ _ _ _ _ _) with (cl_card (FU m) w1 w2 wc m p (p + glen G) 0 0 (-1)).
    rewrite E. eexists. cbn [cl_ignore k_ign cl_setup]. f_equal. f_equal.
    rewrite (groups_pairs G HGn (proj1 Hg)), map_length. reflexivity.
  - change (cl_card _ _ _ _ _ _ _ _ _ _) with (cl_card (FU m) w1 w2 wc m p (p + glen G) 0 0 (-1)).
    rewrite E. eexists. reflexivity.
Qed.
End Cluster.
