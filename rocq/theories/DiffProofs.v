(** Proofs about the files of an update: one table. *)
From Verif Require Import TableProofs CompProofs RowProofs ClusterProofs ColumnProofs TableProps DiffModel.
From Coq Require Import Sorted Permutation ZifyBool.
Local Open Scope Z_scope.
Ltac Zify.zify_post_hook ::= Z.div_mod_to_equations.

Notation zl l := (Z.of_nat (length l)).

(** ** Packed pairs *)
Definition unp (x : Z) : Z * Z := (hi x, lo x).
Definition id32 (v : Z) : Prop := 0 <= v < 2 ^ 32 - 1.
Definition upair (x : Z) : Prop := id32 (hi x) /\ id32 (lo x).

Lemma unp_pack a b : id32 a -> id32 b -> unp (pack a b) = (a, b).
Proof.
  unfold id32, unp, pack, hi, lo. intros Ha Hb.
  replace ((a * 2 ^ 32 + b) mod 2 ^ 64) with (a * 2 ^ 32 + b) by (symmetry; apply Z.mod_small; lia).
  f_equal; [rewrite Z.add_comm, Z_div_plus by lia; rewrite Z.div_small; lia|].
  rewrite Z.add_comm, Z_mod_plus by lia. apply Z.mod_small. lia.
Qed.
Lemma pack_upair a b : id32 a -> id32 b -> upair (pack a b).
Proof. intros Ha Hb. pose proof (unp_pack a b Ha Hb) as E. pose proof (f_equal fst E) as E1. pose proof (f_equal snd E) as E2. cbn [unp fst snd] in E1, E2. unfold upair. now rewrite E1, E2. Qed.
Lemma pack_inj a b c d : id32 a -> id32 b -> id32 c -> id32 d -> pack a b = pack c d -> (a, b) = (c, d).
Proof. intros Ha Hb Hc Hd E. rewrite <- (unp_pack a b), <- (unp_pack c d) by auto. now rewrite E. Qed.

Lemma upair_nopair x : upair x -> x <> NOPAIR.
Proof. unfold upair, id32, NOPAIR, hi, lo. intros [H1 H2] ->. change ((2 ^ 32 - 1) mod 2 ^ 32) with (2 ^ 32 - 1) in H2. lia. Qed.
Lemma unp_inj x y : unp x = unp y -> x = y.
Proof. intros E. pose proof (f_equal fst E) as E1. pose proof (f_equal snd E) as E2. cbn [unp fst snd] in E1, E2. unfold hi, lo in *. rewrite (Z.div_mod x (2 ^ 32)), (Z.div_mod y (2 ^ 32)) by lia. now rewrite E1, E2. Qed.
Lemma unp_lt x y : x < y -> plt (unp x) (unp y).
Proof.
  unfold plt, unp, hi, lo. cbn [fst snd]. intros H.
  pose proof (Z.div_mod x (2 ^ 32)). pose proof (Z.div_mod y (2 ^ 32)).
  assert (x / 2 ^ 32 <= y / 2 ^ 32) by (apply Z.div_le_mono; lia). lia.
Qed.

(** ** Removing duplicates *)
Fixpoint dd (prev : Z) (l : list Z) : list Z :=
  match l with
  | [] => []
  | x :: t => if x =? prev then dd prev t else x :: dd x t
  end.

Lemma dd_in l : forall prev, StronglySorted Z.le (prev :: l) -> forall x, In x (prev :: dd prev l) <-> In x (prev :: l).
Proof.
  induction l as [|y l IH]; intros prev Hs x; cbn [dd]; [tauto|].
  inversion Hs as [|? ? Hs' Hf]; subst. inversion Hf as [|? ? Hy Hf']; subst.
  destruct (Z.eqb_spec y prev) as [-> |N].
  - rewrite (IH prev Hs' x). cbn. tauto.
  - specialize (IH y Hs' x). cbn in *. tauto.
Qed.
Lemma dd_sorted l : forall prev, StronglySorted Z.le (prev :: l) -> StronglySorted Z.lt (prev :: dd prev l).
Proof.
  induction l as [|y l IH]; intros prev Hs; cbn [dd]; [repeat constructor|].
  inversion Hs as [|? ? Hs' Hf]; subst. inversion Hf as [|? ? Hy Hf']; subst.
  destruct (Z.eqb_spec y prev) as [-> |N]; [apply IH; auto|].
  specialize (IH y Hs'). constructor; auto. constructor; [lia|].
  inversion IH as [|? ? _ Hf2]; subst. eapply Forall_impl; [|exact Hf2]. cbn. lia.
Qed.
Lemma dd_sorted' l : StronglySorted Z.le l -> Forall upair l ->
  StronglySorted Z.lt (dd NOPAIR l) /\ (forall x, In x (dd NOPAIR l) <-> In x l).
Proof.
  intros Hs Hu. destruct l as [|x l]; [split; [constructor|tauto]|].
  cbn [dd]. inversion Hu as [|? ? Hx Hu']; subst. apply upair_nopair in Hx.
  destruct (Z.eqb_spec x NOPAIR); [contradiction|]. split; [now apply dd_sorted|].
  intros y. now apply dd_in.
Qed.

(** The pairs of a table: sorted, each once. *)
Definition tpairs (l : list Z) : list (Z * Z) := map unp (dd NOPAIR l).

Lemma tpairs_ok l : StronglySorted Z.le l -> Forall upair l ->
  StronglySorted plt (tpairs l) /\ (forall e, In e (tpairs l) <-> In e (map unp l)).
Proof.
  intros Hs Hu. destruct (dd_sorted' l Hs Hu) as [H1 H2]. split.
  - unfold tpairs. clear - H1. induction H1 as [|x l0 H IH Hf]; cbn [map]; constructor; auto.
    apply Forall_forall. intros e He. apply in_map_iff in He as (y & <- & Hy).
    rewrite Forall_forall in Hf. now apply unp_lt, Hf.
  - intros e. unfold tpairs. rewrite !in_map_iff. split; intros (x & E & Hx); exists x; split; auto; now apply H2.
Qed.

(** ** Row form *)
Lemma seconds_pairs G : map snd (pairs G) = seconds G.
Proof.
  induction G as [|g G IH]; auto. cbn [pairs seconds flat_map]. rewrite map_app, map_map. cbn [snd].
  rewrite map_id. f_equal. exact IH.
Qed.
Lemma pairs_app' G G' : pairs (G ++ G') = pairs G ++ pairs G'.
Proof. apply flat_map_app. Qed.
Lemma pairs_1 a ws : pairs [(a, ws)] = map (pair a) ws.
Proof. unfold pairs. cbn. apply app_nil_r. Qed.
Lemma gcounts_app G G' : map gcount (G ++ G') = map gcount G ++ map gcount G'.
Proof. apply map_app. Qed.

(** The groups seen so far: G are finished, (a, ws) is the last one. *)
Definition gst (G : list (Z * list Z)) (a : Z) (ws : list Z) : Prop :=
  ws <> [] /\ Forall (fun g => snd g <> []) G /\ adj (map fst (G ++ [(a, ws)])).

Lemma gst_same G a ws w : gst G a ws -> gst G a (ws ++ [w]).
Proof.
  intros (H1 & H2 & H3). split; [intros E; apply app_eq_nil in E as [_ E]; discriminate|]. split; auto.
  rewrite map_app in *. exact H3.
Qed.
Lemma gst_new G a ws b w : gst G a ws -> b <> a -> gst (G ++ [(a, ws)]) b [w].
Proof.
  intros (H1 & H2 & H3) N. split; [discriminate|]. split; [apply Forall_app; auto|].
  rewrite map_app. cbn [map fst]. apply adj_snoc; auto.
  intros l1 a' E. rewrite map_app in E. cbn [map fst] in E. apply app_inj_tail in E as [_ <-]. auto.
Qed.
Lemma gst_one a w : gst [] a [w].
Proof. split; [discriminate|]. split; [constructor|]. intros l1 x y l2 E. destruct l1 as [|? [|]]; discriminate. Qed.

Lemma rw_run_ok c1 c2 tmp :
  rw_out (rw_run c1 c2 tmp) = row_write (copyw c1) (copyw c2) (tpairs tmp) /\
  rw_valid (rw_run c1 c2 tmp) = zl (tpairs tmp).
Proof.
  rewrite row_write_rows. unfold rw_run, tpairs.
  assert (H : forall s, rw_out (fold_left (rw_step c1 c2) tmp s) =
                          rw_out s ++ rows (copyw c1) (copyw c2) (map unp (dd (rw_pair s) tmp)) /\
                        rw_valid (fold_left (rw_step c1 c2) tmp s) = rw_valid s + zl (map unp (dd (rw_pair s) tmp))).
  { induction tmp as [|x tmp IH]; intros s; cbn [fold_left dd].
    - cbn. rewrite app_nil_r. split; [auto|lia].
    - destruct (IH (rw_step c1 c2 s x)) as [E1 E2]. rewrite E1, E2. unfold rw_step.
      destruct (x =? rw_pair s) eqn:E; cbn [negb]; [auto|].
      destruct (negb (hi x =? rw_prev s)); cbn [rw_out rw_pair rw_valid map rows flat_map length];
        unfold unp at 2; cbn [fst snd]; rewrite <- !app_assoc; split; auto; lia. }
  destruct (H rw_start) as [E1 E2]. rewrite E1, E2. cbn. auto.
Qed.

(** What addFirst is called with. *)
Lemma rw_log_ok c1 c2 tmp : tmp <> [] -> StronglySorted Z.le tmp -> Forall upair tmp ->
  rw_last (rw_run c1 c2 tmp) = groups (tpairs tmp).
Proof.
  intros Hn Hs Hu. destruct (tpairs_ok tmp Hs Hu) as [Hts _].
  assert (H : forall l s G a ws, Forall upair l -> gst G a ws -> rw_prev s = a -> 0 <= a -> rw_cp s = zl (seconds G) ->
    rw_valid s = zl (seconds (G ++ [(a, ws)])) -> rw_log s = map gcount G ->
    exists G', rw_last (fold_left (rw_step c1 c2) l s) = map gcount G' /\
      Forall (fun g => snd g <> []) G' /\ adj (map fst G') /\
      pairs G' = pairs (G ++ [(a, ws)]) ++ map unp (dd (rw_pair s) l)).
  { clear. induction l as [|x l IH]; intros s G a ws Hu HG E1 Ha E2 E3 E4; cbn [fold_left dd map].
    - exists (G ++ [(a, ws)]). rewrite app_nil_r. destruct HG as (Hw & HF & HA).
      split; [|split; [apply Forall_app; auto|auto]].
      unfold rw_last. rewrite E1, E2, E3, E4, gcounts_app. cbn [map]. f_equal. f_equal.
      unfold gcount. cbn [fst snd]. f_equal. rewrite seconds_app, app_length, seconds_1. lia.
    - inversion Hu as [|? ? Hx Hu']; subst x0 l0. unfold rw_step at 2.
      destruct (x =? rw_pair s) eqn:E; cbn [negb]; [now apply IH|].
      destruct (hi x =? rw_prev s) eqn:E'; cbn [negb].
      + destruct (IH (mkRw (rw_out s ++ enc (copyw c1) (hi x) ++ enc (copyw c2) (lo x)) x (rw_prev s) (rw_cp s) (rw_valid s + 1) (rw_log s))
          G a (ws ++ [lo x]) Hu' (gst_same _ _ _ _ HG)) as (G' & K1 & K2 & K3 & K4); cbn [rw_prev rw_cp rw_valid rw_log rw_pair]; auto.
        * rewrite E3, !seconds_app, !seconds_1, !app_length. cbn [length]. lia.
        * exists G'. split; [exact K1|]. split; auto. split; auto. rewrite K4. cbn [rw_pair].
          rewrite !pairs_app', !pairs_1, map_app. cbn [map]. rewrite <- !app_assoc. cbn [app].
          f_equal. f_equal. f_equal. unfold unp. f_equal. lia.
      + replace (rw_prev s =? -1) with false by lia. cbn [negb].
        destruct Hx as [[Hx1 _] _].
        destruct (IH (mkRw (rw_out s ++ enc (copyw c1) (hi x) ++ enc (copyw c2) (lo x)) x (hi x) (rw_valid s) (rw_valid s + 1)
            (rw_log s ++ [(rw_prev s, rw_valid s - rw_cp s)]))
          (G ++ [(a, ws)]) (hi x) [lo x] Hu' (gst_new G a ws (hi x) (lo x) HG ltac:(lia))) as (G' & K1 & K2 & K3 & K4);
          cbn [rw_prev rw_cp rw_valid rw_log rw_pair]; auto.
        * rewrite E3. rewrite seconds_app with (G' := [(hi x, [lo x])]), seconds_1, app_length. cbn [length]. lia.
        * rewrite gcounts_app, E4. cbn [map]. f_equal. f_equal. unfold gcount. cbn [fst snd]. f_equal; auto.
          rewrite E2, E3, seconds_app, seconds_1, app_length. lia.
        * exists G'. split; [exact K1|]. split; auto. split; auto. rewrite K4. cbn [rw_pair].
          rewrite pairs_app' with (G' := [(hi x, [lo x])]), pairs_1. cbn [map]. rewrite <- app_assoc. reflexivity. }
  destruct tmp as [|x tmp]; [congruence|]. inversion Hu as [|? ? Hx Hu']; subst.
  unfold rw_run. cbn [fold_left]. unfold rw_step at 2. cbn [rw_start rw_pair rw_prev rw_log rw_out rw_valid].
  pose proof (upair_nopair _ Hx) as N. unfold tpairs in *. cbn [dd] in *. replace (x =? NOPAIR) with false in * by lia. cbn [negb] in *.
  destruct Hx as [[Hx1 _] _]. replace (hi x =? -1) with false by lia. change (-1 =? -1) with true. cbn [negb].
  edestruct (H tmp (mkRw ([] ++ enc (copyw c1) (hi x) ++ enc (copyw c2) (lo x)) x (hi x) 0 (0 + 1) []) [] (hi x) [lo x] Hu' (gst_one _ _))
    as (G' & K1 & K2 & K3 & K4); cbn [rw_prev rw_cp rw_valid rw_log rw_pair]; auto.
  rewrite K1. change (map unp (x :: dd x tmp)) with ((hi x, lo x) :: map unp (dd x tmp)) in *.
  cbn [rw_pair app pairs flat_map map fst snd] in K4. fold (pairs G') in K4. rewrite <- K4 in *.
  symmetry. apply groups_pairs; auto. now apply pairs_sorted.
Qed.

(** ** Column form *)
Lemma put_at_mid A O B bs : length O = length bs -> put_at (A ++ O ++ B) (zl A) bs = A ++ bs ++ B.
Proof.
  intros E. unfold put_at. rewrite Nat2Z.id, firstn_app, firstn_all, Nat.sub_diag, app_nil_r. cbn [firstn].
  f_equal. f_equal. rewrite app_assoc, skipn_app, skipn_all2 by (rewrite app_length; lia).
  cbn [app]. rewrite app_length, E, Nat.sub_diag. reflexivity.
Qed.
Lemma put_at_at m p A O B bs : m = A ++ O ++ B -> p = zl A -> length O = length bs -> put_at m p bs = A ++ bs ++ B.
Proof. intros -> ->. apply put_at_mid. Qed.

Lemma ents_app b1 bc bo G G' : forall off, ents b1 bc bo off (G ++ G') = ents b1 bc bo off G ++ ents b1 bc bo (off + zl (seconds G)) G'.
Proof.
  induction G as [|g G IH]; intros off; cbn [app ents seconds flat_map length]; [f_equal; lia|].
  rewrite IH, <- app_assoc. f_equal. f_equal. f_equal. rewrite app_length. unfold seconds. lia.
Qed.

Lemma encv_fixed_length n v : length (encv_fixed n v) = n.
Proof. revert v. induction n as [|[|n] IH]; intros v; auto. cbn [encv_fixed length] in *. now rewrite IH. Qed.
Lemma encv_fixed_vlong v : 0 <= v < 2 ^ 28 -> vlong (encv_fixed 4 v) v.
Proof.
  intros Hv m p Hc. unfold dec_vlong2.
  assert (H : forall n f v p, (1 <= n <= f)%nat -> 0 <= v < 2 ^ (7 * Z.of_nat n) -> contains m p (encv_fixed n v) ->
    decv f m p = Some (v, p + Z.of_nat n)).
  { clear. induction n as [|n IH]; intros f v p Hn Hv Hc; [lia|].
    destruct f as [|f]; [lia|]. destruct n as [|n].
    - cbn [encv_fixed decv] in *. change (2 ^ (7 * Z.of_nat 1)) with 128 in Hv.
      rewrite (getb_contains _ _ _ _ Hc). replace (v mod 128 <? 128) with true by lia. f_equal. f_equal; lia.
    - change (encv_fixed (S (S n)) v) with ([v mod 128 + 128] ++ encv_fixed (S n) (v / 128)) in Hc.
      cbn [decv]. rewrite (getb_contains _ _ _ _ Hc). replace (v mod 128 + 128 <? 128) with false by lia.
      apply contains_app in Hc as [_ Hc]. change (zlen [_]) with 1 in Hc.
      assert (H7 : 2 ^ (7 * Z.of_nat (S (S n))) = 128 * 2 ^ (7 * Z.of_nat (S n))).
      { replace (7 * Z.of_nat (S (S n))) with (7 + 7 * Z.of_nat (S n)) by lia. rewrite Z.pow_add_r by lia. reflexivity. }
      rewrite (IH f (v / 128) (p + 1) ltac:(lia) ltac:(split; [lia|apply Z.div_lt_upper_bound; lia]) Hc).
      f_equal. f_equal; lia. }
  rewrite encv_fixed_length. exact (H 4%nat 10%nat v p ltac:(lia) Hv Hc).
Qed.

Section CW.
Variables b1 b2 bc bo : nat.
Variable n : Z.
Let H0 : list Z := cw_out (cw_start b1 b2 bc bo n).

Definition cw_inv (s : cw_st) (G : list (Z * list Z)) (a : Z) (ws : list Z) : Prop :=
  gst G a ws /\ 0 <= a /\ cw_first s = a /\
  cw_out s = H0 ++ ents b1 bc bo 0 G ++ enc b1 a ++ repeat 0 bc ++ enc bo (zl (seconds G)) /\
  cw_ptr s = Some (zl (H0 ++ ents b1 bc bo 0 G ++ enc b1 a)) /\
  cw_pnv s = zl (seconds G) /\ cw_nft s = zl G + 1 /\ cw_valid s = zl (seconds (G ++ [(a, ws)])) /\
  cw_log s = map gcount G.

Lemma cw_step_inv s G a ws x : cw_inv s G a ws -> upair x -> x <> cw_pair s ->
  exists G' ws', cw_inv (cw_step b1 bc bo s x) G' (hi x) ws' /\ cw_pair (cw_step b1 bc bo s x) = x /\
    pairs (G' ++ [(hi x, ws')]) = pairs (G ++ [(a, ws)]) ++ [unp x].
Proof.
  intros (HG & Ha & E1 & E2 & E3 & E4 & E5 & E6 & E7) [[Hx _] _] N. unfold cw_step.
  replace (x =? cw_pair s) with false by lia. cbn [negb].
  destruct (hi x =? cw_first s) eqn:E; cbn [negb].
  - assert (hi x = a) as -> by lia. exists G, (ws ++ [lo x]). split; [|split; [reflexivity|]].
    + repeat (split; [now auto using gst_same|]). cbn [cw_valid cw_log]. split; auto.
      rewrite E6, !seconds_app, !seconds_1, !app_length. cbn [length]. lia.
    + rewrite !pairs_app', !pairs_1, map_app. cbn [map]. rewrite <- !app_assoc. f_equal. f_equal. unfold unp. f_equal. f_equal. lia.
  - replace (cw_first s =? -1) with false by lia. cbn [negb]. rewrite E3.
    assert (EC : cw_valid s - cw_pnv s = zl ws).
    { rewrite E4, E6, seconds_app, seconds_1, app_length. lia. }
    rewrite EC.
    erewrite (put_at_at _ _ (H0 ++ ents b1 bc bo 0 G ++ enc b1 a) (repeat 0 bc) (enc bo (zl (seconds G)) ++ enc b1 (hi x)));
      [|rewrite E2, <- !app_assoc; reflexivity|reflexivity|now rewrite repeat_length, enc_length].
    exists (G ++ [(a, ws)]), [lo x]. split; [|split; [reflexivity|]].
    + assert (EE : ents b1 bc bo 0 (G ++ [(a, ws)]) = ents b1 bc bo 0 G ++ enc b1 a ++ enc bc (zl ws) ++ enc bo (zl (seconds G))).
      { rewrite ents_app. cbn [ents fst snd]. rewrite app_nil_r. unfold col_entry. rewrite Z.add_0_l. reflexivity. }
      split; [apply gst_new; auto; lia|]. split; [lia|]. split; [reflexivity|]. cbn [cw_out cw_ptr cw_pnv cw_nft cw_valid cw_log].
      split; [rewrite EE, E6, <- !app_assoc; reflexivity|].
      split; [f_equal; f_equal; f_equal; rewrite EE, <- !app_assoc; reflexivity|].
      split; [auto|]. split; [rewrite app_length; cbn [length]; lia|].
      split; [rewrite E6, (seconds_app (G ++ [(a, ws)])), seconds_1, app_length; cbn [length]; lia|].
      rewrite gcounts_app, E7. cbn [map]. unfold gcount at 2. cbn [fst snd]. now rewrite E1.
    + rewrite (pairs_app' (G ++ [(a, ws)])), pairs_1. reflexivity.
Qed.

Lemma cw_fold_inv l : forall s G a ws, cw_inv s G a ws -> Forall upair l ->
  exists G' a' ws', cw_inv (fold_left (cw_step b1 bc bo) l s) G' a' ws' /\
    pairs (G' ++ [(a', ws')]) = pairs (G ++ [(a, ws)]) ++ map unp (dd (cw_pair s) l).
Proof.
  induction l as [|x l IH]; intros s G a ws HI Hu; cbn [fold_left dd map].
  - exists G, a, ws. rewrite app_nil_r. auto.
  - inversion Hu as [|? ? Hx Hu']; subst. destruct (x =? cw_pair s) eqn:E.
    + replace (cw_step b1 bc bo s x) with s by (unfold cw_step; rewrite E; reflexivity). auto.
    + destruct (cw_step_inv s G a ws x HI Hx ltac:(lia)) as (G1 & ws1 & I1 & E1 & P1).
      destruct (IH _ _ _ _ I1 Hu') as (G2 & a2 & ws2 & I2 & P2). exists G2, a2, ws2. split; auto.
      rewrite P2, P1, E1, <- app_assoc. reflexivity.
Qed.

Lemma cw_run_inv tmp : tmp <> [] -> Forall upair tmp ->
  exists G a ws, cw_inv (cw_run b1 b2 bc bo tmp n) G a ws /\ pairs (G ++ [(a, ws)]) = tpairs tmp.
Proof.
  intros Hn Hu. destruct tmp as [|x tmp]; [congruence|]. inversion Hu as [|? ? Hx Hu']; subst.
  pose proof (upair_nopair _ Hx) as N. unfold tpairs. cbn [dd]. replace (x =? NOPAIR) with false by lia.
  unfold cw_run. cbn [fold_left].
  destruct (cw_fold_inv tmp (cw_step b1 bc bo (cw_start b1 b2 bc bo n) x) [] (hi x) [lo x]) as (G & a & ws & HI & HP); auto.
  - unfold cw_step. cbn [cw_start cw_pair cw_first cw_ptr cw_log]. replace (x =? NOPAIR) with false by lia.
    destruct Hx as [[Hx _] _]. replace (hi x =? -1) with false by lia. change (-1 =? -1) with true. cbn [negb].
    split; [apply gst_one|]. split; [auto|]. split; [reflexivity|].
    cbn [cw_out cw_ptr cw_pnv cw_nft cw_valid cw_log].
    split; [cbn [ents app seconds flat_map length]; rewrite <- !app_assoc; reflexivity|].
    split; [reflexivity|]. repeat (split; [reflexivity|]). reflexivity.
  - exists G, a, ws. split; [exact HI|]. rewrite HP.
    unfold cw_step. cbn [cw_start cw_pair cw_first cw_ptr cw_log]. replace (x =? NOPAIR) with false by lia. cbn [negb].
    destruct Hx as [[Hx _] _]. replace (hi x =? -1) with false by lia. reflexivity.
Qed.

Lemma cw_second_ok tmp : forall out pr,
  fst (fold_left (cw_second b2) tmp (out, pr)) = out ++ flat_map (enc b2) (map lo (dd pr tmp)).
Proof.
  induction tmp as [|x tmp IH]; intros out pr; cbn [fold_left dd map flat_map]; [now rewrite app_nil_r|].
  unfold cw_second at 2. cbn [fst snd]. destruct (x =? pr) eqn:E; cbn [negb]; rewrite IH; auto.
  cbn [map flat_map]. now rewrite <- app_assoc.
Qed.

Lemma cw_stop_ok tmp : tmp <> [] -> Forall upair tmp ->
  exists G body, pairs G = tpairs tmp /\ Forall (fun g => snd g <> []) G /\ adj (map fst G) /\
    body = [(Z.of_nat b1 * 8 + Z.of_nat b2 mod 8) mod 256; (Z.of_nat bc * 8 + Z.of_nat bo mod 8) mod 256] ++
           encv_fixed 4 (zl G) ++ enc_vlong2 n ++ ents b1 bc bo 0 G ++ flat_map (enc b2) (seconds G) /\
    cw_stop b2 bc (cw_run b1 b2 bc bo tmp n) tmp = enc 4 (4 + zl body) ++ body /\
    cw_last (cw_run b1 b2 bc bo tmp n) = map gcount G /\
    cw_valid (cw_run b1 b2 bc bo tmp n) = zl (tpairs tmp).
Proof.
  intros Hn Hu. destruct (cw_run_inv tmp Hn Hu) as (G & a & ws & (HG & Ha & E1 & E2 & E3 & E4 & E5 & E6 & E7) & HP).
  assert (EE : ents b1 bc bo 0 (G ++ [(a, ws)]) = ents b1 bc bo 0 G ++ enc b1 a ++ enc bc (zl ws) ++ enc bo (zl (seconds G))).
  { rewrite ents_app. cbn [ents fst snd]. rewrite app_nil_r. unfold col_entry. rewrite Z.add_0_l. reflexivity. }
  assert (EC : zl (seconds (G ++ [(a, ws)])) - zl (seconds G) = zl ws).
  { rewrite seconds_app, seconds_1, app_length. lia. }
  eexists (G ++ [(a, ws)]), _. split; [exact HP|]. destruct HG as (G1 & G2 & G3).
  split; [apply Forall_app; auto|]. split; [auto|]. split; [reflexivity|]. split; [|split].
  - unfold cw_stop. rewrite E3, E4, E5, E6, EC.
    rewrite (put_at_at (cw_out (cw_run b1 b2 bc bo tmp n)) (zl (H0 ++ ents b1 bc bo 0 G ++ enc b1 a))
      (H0 ++ ents b1 bc bo 0 G ++ enc b1 a) (repeat 0 bc) (enc bo (zl (seconds G))) (enc bc (zl ws)));
      [|rewrite E2, <- !app_assoc; reflexivity|reflexivity|now rewrite repeat_length, enc_length].
    rewrite cw_second_ok.
    set (h1 := (Z.of_nat b1 * 8 + Z.of_nat b2 mod 8) mod 256) in *. set (h2 := (Z.of_nat bc * 8 + Z.of_nat bo mod 8) mod 256) in *.
    rewrite (put_at_at ((H0 ++ ents b1 bc bo 0 G ++ enc b1 a) ++ enc bc (zl ws) ++ enc bo (zl (seconds G)))
       6 (repeat 0 4 ++ [h1; h2]) (repeat 0 4) (enc_vlong2 n ++ ents b1 bc bo 0 (G ++ [(a, ws)])));
      [|unfold H0; cbn [cw_start cw_out]; rewrite EE, <- !app_assoc; reflexivity|reflexivity|now rewrite encv_fixed_length].
    set (out := (_ ++ _) ++ _).
    assert (Eo : out = repeat 0 4 ++ [h1; h2] ++ encv_fixed 4 (zl G + 1) ++ enc_vlong2 n ++ ents b1 bc bo 0 (G ++ [(a, ws)]) ++ flat_map (enc b2) (seconds (G ++ [(a, ws)]))).
    { unfold out. rewrite <- !app_assoc. do 4 f_equal. f_equal. f_equal. f_equal. rewrite <- seconds_pairs, HP. unfold tpairs. rewrite map_map. reflexivity. }
    replace (zl (G ++ [(a, ws)])) with (zl G + 1) by (rewrite app_length; cbn [length]; lia).
    set (body := [h1; h2] ++ _) in *.
    rewrite (put_at_at out 0 [] (repeat 0 4) body); [|rewrite Eo; reflexivity|reflexivity|now rewrite enc_length].
    cbn [app]. f_equal. f_equal. rewrite Eo. unfold body. rewrite app_length. cbn [repeat length]. lia.
  - unfold cw_last. rewrite E3, E7, E1, E4, E6, EC, gcounts_app. reflexivity.
  - rewrite E6, <- HP. rewrite <- seconds_pairs, map_length. reflexivity.
Qed.
End CW.

(** ** One table on disk *)

(** The bytes [bs] with the strategy [st] hold the pairs [P]. *)
Inductive tab_ok (P : list (Z * Z)) (st : Z) : list Z -> Prop :=
| tab_row w1 w2 : getBinaryTable st = Some (RRow w1 w2) -> is_width w1 -> is_width w2 ->
    (w1 <= 4)%nat -> (w2 <= 4)%nat -> pairs_fit w1 w2 P -> tab_ok P st (row_write w1 w2 P)
| tab_col b1 b2 bc bo G nt body : getBinaryTable st = Some RColumn -> col_layout body b1 b2 bc bo G nt -> pairs G = P ->
    tab_ok P st (enc 4 (4 + zl body) ++ body).

Definition inverse (l1 l2 : list Z) : Prop := forall a b, In (a, b) (map unp l1) <-> In (b, a) (map unp l2).
Definition srt_ok (l : list Z) : Prop := l <> [] /\ StronglySorted Z.le l /\ Forall upair l.

Lemma last_in {A} (l : list A) d : l <> [] -> In (last l d) l.
Proof.
  intros H. destruct (exists_last H) as (l' & x & ->). rewrite last_last. apply in_or_app. right. now left.
Qed.
Lemma last_max l : StronglySorted Z.le l -> forall x, In x l -> x <= last l 0.
Proof.
  intros H x Hx. assert (l <> []) by (intros ->; contradiction). destruct (exists_last H0) as (l' & y & ->).
  rewrite last_last. apply in_app_iff in Hx as [Hx|[<- |[]]]; [|lia].
  apply SS_app in H as (_ & _ & H). apply (H x y); auto. now left.
Qed.
Lemma hi_max l : srt_ok l -> forall x, In x l -> 0 <= hi x <= hi (last l 0) /\ hi (last l 0) < 2 ^ 32.
Proof.
  intros (Hn & Hs & Hu) x Hx. rewrite Forall_forall in Hu. pose proof (Hu x Hx) as [[H1 _] _].
  destruct (Hu _ (last_in l 0 Hn)) as [[_ H2] _]. split; [|lia]. split; auto.
  unfold hi. apply Z.div_le_mono; [lia|]. now apply last_max.
Qed.
Lemma tpairs_bound l1 l2 a b : srt_ok l1 -> srt_ok l2 -> inverse l1 l2 -> In (a, b) (tpairs l1) ->
  0 <= a <= hi (last l1 0) /\ 0 <= b <= hi (last l2 0).
Proof.
  intros H1 H2 HI Hin. apply (proj2 (tpairs_ok l1 (proj1 (proj2 H1)) (proj2 (proj2 H1)))) in Hin. split.
  - apply in_map_iff in Hin as (x & E & Hx). injection E as <- <-. now apply hi_max.
  - apply HI in Hin. apply in_map_iff in Hin as (x & E & Hx). injection E as <- <-. now apply hi_max.
Qed.

Lemma code_ok h : 0 <= h < 2 ^ 32 -> let c := colcode h in
  0 <= c <= 2 /\ width_of_code c = copyw c /\ is_width (copyw c) /\ (copyw c <= 4)%nat /\ h < 2 ^ (8 * Z.of_nat (copyw c)).
Proof.
  intros Hh. unfold colcode. destruct (nbytes_fits h ltac:(lia)) as [H1 H2].
  assert (nbytes h <= 4)%nat.
  { unfold nbytes in *. change (nbytes_ ?n h) with (if h <? 256 then 1%nat else S (nbytes_ (n - 1) (h / 256))).
    destruct (h <? 256) eqn:?; [lia|]. cbn [Nat.sub]. change (nbytes_ ?n (h / 256)) with (if h / 256 <? 256 then 1%nat else S (nbytes_ (n - 1) (h / 256 / 256))).
    destruct (h / 256 <? 256) eqn:?; [lia|]. cbn [Nat.sub].
    change (nbytes_ ?n (h / 256 / 256)) with (if h / 256 / 256 <? 256 then 1%nat else S (nbytes_ (n - 1) (h / 256 / 256 / 256))).
    destruct (h / 256 / 256 <? 256) eqn:?; [lia|]. cbn [Nat.sub].
    change (nbytes_ ?n (h / 256 / 256 / 256)) with (if h / 256 / 256 / 256 <? 256 then 1%nat else S (nbytes_ (n - 1) (h / 256 / 256 / 256 / 256))).
    destruct (h / 256 / 256 / 256 <? 256) eqn:?; [lia|]. lia. }
  cbv zeta. unfold is_width.
  destruct (nbytes h) as [|[|[|[|[|]]]]]; try lia; cbn -[Z.pow] in *; repeat split; auto; try lia; change (2 ^ 24) with 16777216 in *; lia.
Qed.

Lemma fits_small w v : (w <= 4)%nat -> 0 <= v < 2 ^ (8 * Z.of_nat w) -> fits w v.
Proof. intros H Hv. unfold fits. destruct w as [|[|[|[|[|]]]]]; try lia; exact Hv. Qed.

Lemma row_strat_ok c1 c2 : 0 <= c1 <= 2 -> 0 <= c2 <= 2 ->
  getBinaryTable (row_strat c1 c2) = Some (RRow (width_of_code c1) (width_of_code c2)).
Proof.
  intros H1 H2. assert (c1 = 0 \/ c1 = 1 \/ c1 = 2) as D1 by lia. assert (c2 = 0 \/ c2 = 1 \/ c2 = 2) as D2 by lia.
  destruct D1 as [-> |[-> | ->]], D2 as [-> |[-> | ->]]; reflexivity.
Qed.

Lemma row_tab_ok l1 l2 : srt_ok l1 -> srt_ok l2 -> inverse l1 l2 ->
  tab_ok (tpairs l1) (row_strat (code_of l1) (code_of l2)) (rw_out (rw_run (code_of l1) (code_of l2) l1)).
Proof.
  intros H1 H2 HI. rewrite (proj1 (rw_run_ok _ _ _)). unfold code_of.
  assert (B1 : 0 <= hi (last l1 0) < 2 ^ 32) by (destruct (hi_max l1 H1 _ (last_in l1 0 (proj1 H1))); lia).
  assert (B2 : 0 <= hi (last l2 0) < 2 ^ 32) by (destruct (hi_max l2 H2 _ (last_in l2 0 (proj1 H2))); lia).
  destruct (code_ok _ B1) as (C1 & W1 & I1 & L1 & F1). destruct (code_ok _ B2) as (C2 & W2 & I2 & L2 & F2). cbv zeta in *.
  apply tab_row; auto.
  - rewrite row_strat_ok by auto. now rewrite W1, W2.
  - intros a b Hin. destruct (tpairs_bound l1 l2 a b H1 H2 HI Hin). split; apply fits_small; auto; lia.
Qed.

Lemma count_le G : Forall (fun g => zl (snd g) <= zl (seconds G)) G.
Proof.
  apply Forall_forall. intros g Hg. apply in_split in Hg as (A & B & ->).
  rewrite seconds_app. cbn [seconds flat_map]. rewrite !app_length. lia.
Qed.

Lemma dd_length l : forall pr, (length (dd pr l) <= length l)%nat.
Proof. induction l as [|x l IH]; intros pr; cbn [dd length]; [lia|]. destruct (x =? pr); cbn [length]; [pose proof (IH pr)|pose proof (IH x)]; lia. Qed.

Lemma col_tab_ok l1 l2 : srt_ok l1 -> srt_ok l2 -> inverse l1 l2 -> zl l1 < 2 ^ 28 ->
  let '(bs, lg, nv) := col_table l1 l2 in
  tab_ok (tpairs l1) COL_STRAT bs /\ lg = groups (tpairs l1) /\ nv = zl (tpairs l1).
Proof.
  intros H1 H2 HI Hl. unfold col_table.
  set (n := zl l1) in *. assert (0 <= n) by lia.
  set (b1 := nbytes (hi (last l1 0))). set (b2 := nbytes (hi (last l2 0))).
  destruct (cw_stop_ok b1 b2 (nbytes n) (nbytes n) n l1 (proj1 H1) (proj2 (proj2 H1)))
    as (G & body & HP & HN & HA & EB & ES & EL & EV).
  destruct (tpairs_ok l1 (proj1 (proj2 H1)) (proj2 (proj2 H1))) as [Hs _].
  assert (B1 : 0 <= hi (last l1 0) < 2 ^ 32) by (destruct (hi_max l1 H1 _ (last_in l1 0 (proj1 H1))); lia).
  assert (B2 : 0 <= hi (last l2 0) < 2 ^ 32) by (destruct (hi_max l2 H2 _ (last_in l2 0 (proj1 H2))); lia).
  destruct (nbytes_fits (hi (last l1 0)) ltac:(lia)) as [_ W1]. destruct (nbytes_fits (hi (last l2 0)) ltac:(lia)) as [_ W2].
  destruct (nbytes_fits n ltac:(lia)) as [_ W3]. fold b1 in W1. fold b2 in W2.
  assert (HZ : zl (seconds G) <= n).
  { rewrite <- seconds_pairs, HP. unfold tpairs. rewrite !map_length. pose proof (dd_length l1 NOPAIR). lia. }
  assert (HGs : zl G <= zl (seconds G)).
  { clear - HN. induction HN as [|g G Hg Hn IH]; [reflexivity|]. cbn [length seconds flat_map].
    rewrite app_length. unfold seconds in IH. destruct (snd g); [congruence|]. cbn [length]. lia. }
  rewrite ES, EL, EV. split; [|split; auto].
  - apply (tab_col _ _ b1 b2 (nbytes n) (nbytes n) G n body); auto. constructor; auto.
    + exists (encv_fixed 4 (zl G)), (enc_vlong2 n). split; [|split; [apply encv_fixed_vlong; lia|]].
      * rewrite EB. f_equal. f_equal; [|f_equal]; lia.
      * intros m p Hc. apply vlong2_ok; auto. lia.
    + apply Forall_forall. intros [a ws] Hg. cbn [fst]. rewrite Forall_forall in HN. specialize (HN _ Hg). cbn [snd] in HN.
      destruct ws as [|w ws]; [congruence|].
      assert (Hin : In (a, w) (tpairs l1)).
      { rewrite <- HP. apply in_flat_map. exists (a, w :: ws). split; auto. now left. }
      destruct (tpairs_bound l1 l2 a w H1 H2 HI Hin). apply nbytes_mono_fits; lia.
    + eapply Forall_impl; [|apply count_le]. cbn. intros g Hg. apply nbytes_mono_fits; lia.
    + apply nbytes_mono_fits; lia.
    + apply Forall_forall. intros v Hv. rewrite <- seconds_pairs, HP in Hv. apply in_map_iff in Hv as ([a b] & <- & Hin).
      destruct (tpairs_bound l1 l2 a b H1 H2 HI Hin). cbn [snd]. apply nbytes_mono_fits; lia.
  - rewrite <- HP in *. symmetry. apply groups_pairs; auto. now apply pairs_sorted.
Qed.

Lemma plt_nodup l : StronglySorted plt l -> NoDup l.
Proof.
  induction 1 as [|x l Hs IH Hf]; constructor; auto. intros Hin. rewrite Forall_forall in Hf.
  specialize (Hf x Hin). unfold plt in Hf. lia.
Qed.
Lemma inverse_count l1 l2 : srt_ok l1 -> srt_ok l2 -> inverse l1 l2 -> zl (tpairs l1) = zl (tpairs l2).
Proof.
  intros (_ & S1 & U1) (_ & S2 & U2) HI. destruct (tpairs_ok l1 S1 U1) as [A1 A2]. destruct (tpairs_ok l2 S2 U2) as [B1 B2].
  f_equal. rewrite <- (map_length (fun e => (snd e, fst e)) (tpairs l1)). apply Permutation_length, NoDup_Permutation.
  - apply FinFun.Injective_map_NoDup; [intros [a b] [c d] [= -> ->]; reflexivity|now apply plt_nodup].
  - now apply plt_nodup.
  - intros [a b]. rewrite B2, <- (HI b a), <- A2, in_map_iff. split.
    + intros ([c d] & [= <- <-] & H). exact H.
    + intros H. exists (b, a). auto.
Qed.
Lemma inverse_sym l1 l2 : inverse l1 l2 -> inverse l2 l1.
Proof. intros H a b. symmetry. apply H. Qed.

(** What is stored for a key. *)
Definition stored_ok (l1 l2 : list Z) (t : stored) : Prop :=
  tab_ok (tpairs l1) (st_s1 t) (st_b1 t) /\ tab_ok (tpairs l2) (st_s2 t) (st_b2 t) /\
  st_l1 t = groups (tpairs l1) /\ st_l2 t = groups (tpairs l2) /\
  st_n t = zl (tpairs l1) /\ st_n t = zl (tpairs l2).

Lemma tpairs_ne l : srt_ok l -> 0 < zl (tpairs l).
Proof.
  intros (Hn & Hs & Hu). destruct (tpairs_ok l Hs Hu) as [_ H]. destruct l as [|x l]; [congruence|].
  destruct (tpairs (x :: l)) as [|e t] eqn:E; [|cbn; lia]. exfalso. apply (proj2 (H (unp x))). now left.
Qed.

Lemma storeTables_ok col1 col2 l1 l2 : srt_ok l1 -> srt_ok l2 -> inverse l1 l2 -> length l1 = length l2 -> zl l1 < 2 ^ 28 ->
  stored_ok l1 l2 (storeTables col1 col2 l1 l2).
Proof.
  intros H1 H2 HI HL Hn. pose proof (inverse_sym _ _ HI) as HI'. pose proof (inverse_count l1 l2 H1 H2 HI) as HC.
  pose proof (tpairs_ne l1 H1) as N1.
  assert (HR : forall l1 l2, srt_ok l1 -> srt_ok l2 -> inverse l1 l2 -> zl (tpairs l1) = zl (tpairs l2) -> 0 < zl (tpairs l1) -> stored_ok l1 l2 (storeRow l1 l2)).
  { clear. intros l1 l2 H1 H2 HI HC N1. unfold storeRow, stored_ok. cbn [st_b1 st_s1 st_l1 st_b2 st_s2 st_l2 st_n].
    rewrite (proj2 (rw_run_ok _ _ _)). replace (0 <? zl (tpairs l1)) with true by lia.
    rewrite !rw_log_ok by (apply H1 || apply H2). repeat (split; auto using row_tab_ok, inverse_sym). }
  assert (HM : forall l1 l2, srt_ok l1 -> srt_ok l2 -> inverse l1 l2 -> zl (tpairs l1) = zl (tpairs l2) -> zl l2 < 2 ^ 28 -> stored_ok l1 l2 (storeRowColumn l1 l2)).
  { clear. intros l1 l2 H1 H2 HI HC N. unfold storeRowColumn, stored_ok.
    pose proof (col_tab_ok l2 l1 H2 H1 (inverse_sym _ _ HI) N) as H. destruct (col_table l2 l1) as [[bs lg] nv].
    destruct H as (A & B & C). cbn [st_b1 st_s1 st_l1 st_b2 st_s2 st_l2 st_n].
    rewrite (proj2 (rw_run_ok _ _ _)). rewrite !rw_log_ok by (apply H1 || apply H2). repeat (split; auto using row_tab_ok). }
  unfold storeTables. destruct (zl l1 <? 64); [auto|]. destruct col1, col2; cbn [negb andb].
  - unfold storeColumn, stored_ok. pose proof (col_tab_ok l1 l2 H1 H2 HI Hn) as A. destruct (col_table l1 l2) as [[bs lg] nv].
    pose proof (col_tab_ok l2 l1 H2 H1 HI' ltac:(lia)) as B. destruct (col_table l2 l1) as [[bs' lg'] nv'].
    destruct A as (A1 & A2 & A3), B as (B1 & B2 & B3). cbn [st_b1 st_s1 st_l1 st_b2 st_s2 st_l2 st_n]. repeat (split; auto); congruence.
  - destruct (HM l2 l1 H2 H1 HI' (eq_sym HC) Hn) as (A & B & C & D & E & F). unfold swap, stored_ok.
    cbn [st_b1 st_s1 st_l1 st_b2 st_s2 st_l2 st_n]. auto 10.
  - apply HM; auto. lia.
  - auto.
Qed.
