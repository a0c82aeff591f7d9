(** Proofs about plans: joins, and the whole plan. *)
From Coq Require Import ZifyBool.
From Verif Require Import OpSpec OpProofs OpProofs3 OpHashProofs OpHashProofs2 KbSpec TsSpec InserterProofs OpHashProps OpMergeProps OpProps.
From Verif Require Import PlanModel PlanSpec PlanProofs PlanProofs2 PlanProofs3 PlanProofs4.
Local Open Scope Z_scope.

(** ** Rows *)
Definition positive (L : list (regs * Z)) : Prop := Forall (fun a : regs * Z => 0 < snd a) L.
Lemma answers_pos V W L o : Answers V W L o -> positive L.
Proof. intros H. eapply (Rows_pos any V W _ (fun _ => True) L (fun _ => 0)); [exact I|exact H]. Qed.
Definition total (L : list (regs * Z)) : Z := weigh (fun _ => 1) L.
Lemma same_total V L R : same V L R -> total L = total R.
Proof. intros H. apply H. intros g h _. reflexivity. Qed.
Lemma total_filter p L : positive L -> total (filter p L) <= total L.
Proof.
  unfold total, weigh. induction 1 as [|a L Ha _ IH]; [reflexivity|]. cbn [filter]. rewrite (sumZ_cons _ a L). destruct (p a); [rewrite sumZ_cons|]; lia.
Qed.
Lemma total_pairs X L R : total (pairs X L (fun _ => R)) = total L * total R.
Proof.
  unfold total. rewrite weigh_pairs. unfold weigh. generalize (sumZ (fun b : regs * Z => 1 * snd b) R) as n. intros n.
  induction L as [|a L IH]; [reflexivity|]. rewrite !sumZ_cons, IH. lia.
Qed.
Lemma pairs_pos X L R : positive L -> positive R -> positive (pairs X L (fun _ => R)).
Proof.
  intros HL HR. unfold positive in *. rewrite Forall_forall in *. intros x Hx. apply in_flat_map in Hx. destruct Hx as (a & Ha & Hx). apply in_map_iff in Hx.
  destruct Hx as (b & <- & Hb). cbn [snd]. specialize (HL a Ha). specialize (HR b Hb). nia.
Qed.
Lemma filter_pos p L : positive L -> positive (filter p L).
Proof. intros H. unfold positive in *. rewrite Forall_forall in *. intros x Hx. apply filter_In in Hx. now apply H. Qed.
Lemma same_all V (pb : regs -> bool) L R : (forall g h, agree V g h -> pb g = pb h) -> positive L -> same V L R ->
  (forall a, In a R -> pb (fst a) = true) -> forall a, In a L -> pb (fst a) = true.
Proof.
  intros Hp HL HS HR. assert (E : weigh (fun g => if pb g then 0 else 1) L = 0).
  { rewrite HS; [|intros g h A; now rewrite (Hp g h A)]. unfold weigh. rewrite (sumZ_ext _ (fun _ => 0)); [apply sumZ_0|]. intros a Ha. now rewrite (HR a Ha). }
  clear HS HR. unfold weigh in E. induction HL as [|x L Hx HL IH]; [intros a []|]. rewrite sumZ_cons in E.
  assert (0 <= sumZ (fun a : regs * Z => (if pb (fst a) then 0 else 1) * snd a) L).
  { clear - HL. induction HL as [|y L Hy _ IH]; [reflexivity|]. rewrite sumZ_cons. destruct (pb (fst y)); lia. }
  intros a [<-|Ha]; [|apply IH; auto]; destruct (pb (fst x)); lia.
Qed.
Lemma same_pairs_set X Y Z0 L R : (forall x, In x X <-> In x Y) -> same Z0 (pairs X L (fun _ => R)) (pairs Y L (fun _ => R)).
Proof.
  intros H w Hw. rewrite !weigh_pairs. apply sumZ_ext. intros a _. f_equal. apply sumZ_ext. intros b _. f_equal. apply Hw. intros x _. unfold beside.
  destruct (in_dec _ _ X) as [i|i], (in_dec _ _ Y) as [j|j]; rewrite ?H in i; tauto.
Qed.
Lemma ascending_filter x p L : ascending x L -> ascending x (filter p L).
Proof. apply sorted_filter. Qed.
Lemma ascending_pairs x X L R : In x X -> ascending x L -> ascending x (pairs X L (fun _ => R)).
Proof.
  intros Hx. unfold ascending, pairs. induction 1 as [|a L HS IH HF]; [constructor|]. cbn [flat_map].
  assert (E : forall c : regs * Z, In c (map (fun b => (beside X (fst a) (fst b), snd a * snd b)) R) -> fst c x = fst a x).
  { intros c Hc. apply in_map_iff in Hc. destruct Hc as (b & <- & _). cbn [fst]. now apply beside_in. }
  assert (E' : forall c : regs * Z, In c (flat_map (fun a => map (fun b => (beside X (fst a) (fst b), snd a * snd b)) R) L) -> fst a x <= fst c x).
  { intros c Hc. apply in_flat_map in Hc. destruct Hc as (d & Hd & Hc). apply in_map_iff in Hc. destruct Hc as (b & <- & _). cbn [fst]. rewrite beside_in by exact Hx.
    rewrite Forall_forall in HF. now apply HF. }
  revert E. generalize (map (fun b => (beside X (fst a) (fst b), snd a * snd b)) R) as A. induction A as [|c A IHA]; intros E; [exact IH|].
  cbn [app]. constructor; [apply IHA; intros d Hd; apply E; now right|]. apply Forall_forall. intros d Hd.
  rewrite (E c) by now left. apply in_app_or in Hd. destruct Hd as [Hd|Hd]; [rewrite (E d) by (now right); lia|auto].
Qed.
Lemma filter_true {A} (l : list A) p : (forall a, p a = true) -> filter p l = l.
Proof. intros H. induction l as [|a l IH]; [reflexivity|]. cbn. now rewrite H, IH. Qed.
Lemma filter_filter {A} (p q : A -> bool) l : filter p (filter q l) = filter (fun a => q a && p a) l.
Proof. induction l as [|a l IH]; [reflexivity|]. cbn. destruct (q a); cbn; [destruct (p a)|]; now rewrite IH. Qed.
Lemma pow_mono a b k n : (a <= b)%nat -> (1 <= b)%nat -> (k <= n)%nat -> (a ^ k <= b ^ n)%nat.
Proof. intros H1 H2 H3. transitivity (b ^ k)%nat; [now apply Nat.pow_le_mono_l|apply Nat.pow_le_mono_r; lia]. Qed.

(** ** Bindings *)
Lemma fold1_get proj v : forall lb b, keyed lb ->
  bget v (fold_left (fun b e => if mem (fst e) proj then bput (fst e) (snd e) b else b) lb b) =
  match bget v lb with Some r => if mem v proj then Some r else bget v b | None => bget v b end.
Proof.
  induction lb as [|[x r] lb IH]; intros b HK; [reflexivity|]. cbn [fold_left fst snd bget].
  assert (HK' : keyed lb) by (unfold keyed in *; cbn in HK; now inversion HK).
  rewrite IH by exact HK'. destruct (Nat.eqb_spec x v) as [->|N].
  - assert (bget v lb = None) as ->.
    { destruct (bget v lb) as [q|] eqn:E; [|reflexivity]. apply bget_In in E. unfold keyed in HK. cbn in HK. inversion HK as [|? ? _ HF]; subst.
      rewrite Forall_forall in HF. specialize (HF v). enough (v < v)%nat by lia. apply HF. apply in_map_iff. now exists (v, q). }
    destruct (mem v proj); [|reflexivity]. rewrite bget_put, Nat.eqb_refl. reflexivity.
  - assert (bget v (if mem x proj then bput x r b else b) = bget v b) as ->; [|reflexivity].
    destruct (mem x proj); [|reflexivity]. rewrite bget_put. destruct (Nat.eqb_spec v x); [congruence|reflexivity].
Qed.
Lemma fold2_get proj v : forall rb b,
  bget v (fold_left (fun b e => if mem (fst e) proj && match bget (fst e) b with Some _ => false | None => true end then bput (fst e) (snd e) b else b) rb b) =
  match bget v b with Some r => Some r | None => if mem v proj then bget v rb else None end.
Proof.
  induction rb as [|[x r] rb IH]; intros b; cbn [fold_left fst snd].
  - cbn [bget]. destruct (bget v b); [reflexivity|]. destruct (mem v proj); reflexivity.
  - rewrite IH. cbn [bget]. destruct (Nat.eqb_spec x v) as [->|N].
    + destruct (mem v proj); cbn [andb]; [|reflexivity]. destruct (bget v b) as [q|] eqn:E; [now rewrite E|]. rewrite bget_put, Nat.eqb_refl. reflexivity.
    + destruct (mem x proj && match bget x b with Some _ => false | None => true end); [|reflexivity]. rewrite bget_put.
      destruct (Nat.eqb_spec v x); [congruence|reflexivity].
Qed.
Lemma merge_get proj lb rb v : keyed lb ->
  bget v (mergeBindings proj lb rb) = if mem v proj then match bget v lb with Some r => Some r | None => bget v rb end else None.
Proof.
  intros HK. unfold mergeBindings. rewrite fold2_get, fold1_get by exact HK. cbn [bget]. destruct (bget v lb), (mem v proj); reflexivity.
Qed.
Lemma merge_keyed proj lb rb : keyed (mergeBindings proj lb rb).
Proof.
  unfold mergeBindings. assert (H1 : forall (p : bindings -> nat * nat -> bool) (l : bindings) b, keyed b -> keyed (fold_left (fun b e => if p b e then bput (fst e) (snd e) b else b) l b)).
  { intros p. induction l as [|e l IH]; intros b Hb; [exact Hb|]. cbn [fold_left]. apply IH. destruct (p b e); [now apply keyed_put|exact Hb]. }
  apply (H1 (fun b e => mem (fst e) proj && match bget (fst e) b with Some _ => false | None => true end)).
  apply (H1 (fun _ e => mem (fst e) proj)). constructor.
Qed.
Lemma keyed_get v b : keyed b -> (exists r, In (v, r) b) -> exists r, bget v b = Some r /\ In (v, r) b.
Proof. intros H [r Hr]. exists r. split; [now apply keyed_In|exact Hr]. Qed.

Section Join.
Variables (U : list (Z * Z * Z)) (nodes : list node).
Hypothesis HU : NoDup U.
Hypothesis Hlin : linear nodes.
Hypothesis Hrange : forall t k, In t U -> (k < 3)%nat -> 0 <= comp t k < 2 ^ 64.
Local Notation node_of := (node_of nodes).
Local Notation pats := (pats nodes).
Local Notation pvars := (pvars nodes).
Local Notation regs_of := (regs_of nodes).
Local Notation rows_of := (rows_of nodes).
Local Notation binds := (binds nodes).
Lemma slot_term i k : (k < 3)%nat -> slot_vars nodes i k = term_vars (slot (node_of i) k).
Proof. intros _. reflexivity. Qed.
Lemma collect_In p : forall v s, In v (collectVariables nodes p s) <-> In v (pvars p) \/ In v s.
Proof.
  induction p as [u idx i|u idx i|u idx i|l IHl r IHr|on l IHl r IHr|l IHl r IHr|l IHl r IHr|p IH]; intros v s; cbn [collectVariables]; unfold PlanProofs4.pvars, PlanProofs4.pats in *; cbn [relations].
  1, 2, 3: rewrite !addAll_In; cbn [map vars flat_map]; rewrite app_nil_r; unfold pattern_vars; rewrite !in_app_iff; unfold slot_vars, term_vars;
       change (slot (node_of i) 0) with (n_s (node_of i)); change (slot (node_of i) 1) with (n_p (node_of i)); change (slot (node_of i) 2) with (n_o (node_of i)); tauto.
  all: rewrite ?IHr, ?IHl, ?IH, ?map_app, ?vars_app, ?in_app_iff; tauto.
Qed.
Lemma joinvars_In l r v : In v (getJoinVariables nodes l r) <-> In v (pvars l) /\ In v (pvars r).
Proof.
  unfold getJoinVariables. assert (H : forall p, In v (collectVariables nodes p []) <-> In v (pvars p)) by (intros p; rewrite collect_In; cbn; tauto).
  destruct (_ <? _)%nat; rewrite addAll_In, filter_In, mem_In, !H; cbn; tauto.
Qed.

Record Has (proj : list nat) (p : plan) (o : oper) (b : bindings) (W : list nat) (L : list (regs * Z)) : Prop := {
  h_answers : Answers (map snd b) W L o;
  h_incl : incl (map snd b) W;
  h_rel : forall x, In x W -> In (x / 3)%nat (relations p);
  h_binds : binds proj p b;
  h_same : forall S, solutions U (pats p) S -> same (map snd b) L (rows_of S);
  h_order : forall v r, ordering nodes p = Some v -> In (v, r) b -> ascending r L }.
Lemma has_total proj p o b W L : Has proj p o b W L -> total L <= Z.of_nat (length U ^ length (relations p)).
Proof.
  intros H. destruct (solutions_exist U HU (pats p) (pats_linear nodes Hlin (relations p))) as (S & HS & HL).
  rewrite (same_total _ _ _ (h_same _ _ _ _ _ _ H S HS)). unfold total. rewrite weigh_rows. unfold PlanProofs4.pats in HL. rewrite map_length in HL.
  assert (E : forall l : list (nat -> Z), sumZ (fun _ => 1) l = Z.of_nat (length l)) by (induction l as [|x l IH]; [reflexivity|rewrite sumZ_cons, IH; cbn [length]; lia]).
  rewrite E. lia.
Qed.
Lemma has_pos proj p o b W L : Has proj p o b W L -> positive L.
Proof. intros H. eapply answers_pos, H. Qed.
Lemma has_length proj p o b W L : Has proj p o b W L -> (length L <= length U ^ length (relations p))%nat.
Proof. intros H. pose proof (has_total _ _ _ _ _ _ H). pose proof (weigh_pos L (has_pos _ _ _ _ _ _ H)). unfold total in *. lia. Qed.
Lemma has_range proj p o b W L r : Has proj p o b W L -> In r (map snd b) -> forall a, In a L -> 0 <= fst a r < 2 ^ 64.
Proof.
  intros H Hr a Ha. destruct (solutions_exist U HU (pats p) (pats_linear nodes Hlin (relations p))) as (S & HS & _).
  enough ((0 <=? fst a r) && (fst a r <? 2 ^ 64) = true) by lia.
  refine (same_all (map snd b) (fun g => (0 <=? g r) && (g r <? 2 ^ 64)) L (rows_of S) _ (has_pos _ _ _ _ _ _ H) (h_same _ _ _ _ _ _ H S HS) _ a Ha).
  - intros g h A. rewrite (A r Hr). reflexivity.
  - intros x Hx. apply in_map_iff in Hx. destruct Hx as (s & <- & Hs). cbn [fst]. pose proof (solutions_sound _ _ _ _ HS Hs) as Hsol.
    apply in_map_iff in Hr. destruct Hr as ([v q] & Eq & Hi). cbn [snd] in Eq. subst q. destruct (h_binds _ _ _ _ _ _ H) as (_ & HB & _). destruct (HB v r Hi) as [Hrel Hslot].
    assert (Hin : In (instance s (node_of (r / 3))) U) by (apply Hsol; unfold PlanProofs4.pats; now apply in_map).
    pose proof (Hrange _ (r mod 3) Hin (Nat.mod_upper_bound r 3 ltac:(lia))) as HR. rewrite comp_instance in HR. unfold PlanProofs4.regs_of. lia.
Qed.

(** ** The step for a join *)
Section Step.
Variables (proj proj' : list nat) (l r q : plan) (lt rt : oper) (lb rb : bindings) (Wl Wr : list nat) (L R : list (regs * Z)).
Hypothesis Hproj : incl proj proj'.
Hypothesis Hl : Has proj' l lt lb Wl L.
Hypothesis Hr : Has proj' r rt rb Wr R.
Hypothesis Hq : relations q = relations l ++ relations r.
Hypothesis Hdis : forall i, In i (relations l) -> ~ In i (relations r).
Local Notation Vl := (map snd lb).
Local Notation Vr := (map snd rb).
Local Notation mb := (mergeBindings proj lb rb).
Lemma step_W : disjoint Wl Wr.
Proof. intros x Hx Hy. apply (Hdis (x / 3)%nat); [apply (h_rel _ _ _ _ _ _ Hl), Hx|apply (h_rel _ _ _ _ _ _ Hr), Hy]. Qed.
Lemma step_V : disjoint Vr Vl.
Proof. intros x Hx Hy. eapply step_W; [apply (h_incl _ _ _ _ _ _ Hl), Hy|apply (h_incl _ _ _ _ _ _ Hr), Hx]. Qed.
Lemma step_vars v : In v (pvars q) <-> In v (pvars l) \/ In v (pvars r).
Proof. unfold PlanProofs4.pvars, PlanProofs4.pats. rewrite Hq, map_app, vars_app, in_app_iff. tauto. Qed.
Lemma lb_get v : In v proj' -> In v (pvars l) -> exists x, bget v lb = Some x /\ In (v, x) lb.
Proof. intros H1 H2. destruct (h_binds _ _ _ _ _ _ Hl) as (K & _ & H). apply keyed_get; [exact K|]. now apply H. Qed.
Lemma rb_get v : In v proj' -> In v (pvars r) -> exists x, bget v rb = Some x /\ In (v, x) rb.
Proof. intros H1 H2. destruct (h_binds _ _ _ _ _ _ Hr) as (K & _ & H). apply keyed_get; [exact K|]. now apply H. Qed.
Lemma merge_In v x : In (v, x) mb -> In v proj /\ (In (v, x) lb \/ bget v lb = None /\ In (v, x) rb).
Proof.
  intros H. apply keyed_In in H; [|apply merge_keyed]. rewrite merge_get in H by apply (h_binds _ _ _ _ _ _ Hl). destruct (mem v proj) eqn:E; [|discriminate].
  apply mem_In in E. split; [exact E|]. destruct (bget v lb) as [y|] eqn:El; [left; injection H as ->; now apply bget_In|]. right. split; [reflexivity|now apply bget_In].
Qed.
Lemma step_binds : binds proj q mb.
Proof.
  split; [apply merge_keyed|]. destruct (h_binds _ _ _ _ _ _ Hl) as (Kl & Bl & Cl), (h_binds _ _ _ _ _ _ Hr) as (Kr & Br & Cr). split.
  - intros v x H. destruct (merge_In v x H) as [_ [H1|[_ H1]]]; rewrite Hq, in_app_iff.
    + destruct (Bl v x H1). auto.
    + destruct (Br v x H1). auto.
  - intros v. rewrite step_vars. split.
    + intros [x H]. destruct (merge_In v x H) as [Hp [H1|[_ H1]]]; (split; [exact Hp|]); [left; apply Cl|right; apply Cr]; eauto.
    + intros [Hp Hv]. enough (exists x, bget v mb = Some x) as [x Hx] by (exists x; now apply bget_In). rewrite merge_get by exact Kl.
      pose proof (proj2 (mem_In v proj) Hp) as ->. destruct (bget v lb) as [x|] eqn:El; [eauto|]. destruct Hv as [Hv|Hv].
      * destruct (lb_get v (Hproj v Hp) Hv) as (x & E & _). congruence.
      * destruct (rb_get v (Hproj v Hp) Hv) as (x & E & _). eauto.
Qed.
Lemma step_incl : incl (map snd mb) (Vl ++ Vr).
Proof.
  intros x Hx. apply in_map_iff in Hx. destruct Hx as ([v y] & <- & H). cbn [snd]. apply in_or_app. destruct (merge_In v y H) as [_ [H1|[_ H1]]]; [left|right]; now apply (in_map snd _ _ H1).
Qed.
Lemma merge_left v x y : In (v, x) mb -> In (v, y) lb -> x = y.
Proof.
  intros H H'. destruct (h_binds _ _ _ _ _ _ Hl) as (Kl & _). pose proof (keyed_In _ _ _ Kl H') as E. destruct (merge_In v x H) as [_ [H1|[H1 _]]]; [|congruence].
  apply (keyed_In _ _ _ Kl) in H1. congruence.
Qed.
Lemma pairs_ok vs : (forall v, In v vs -> In v proj' /\ In v (pvars l) /\ In v (pvars r)) ->
  exists ps, pairs_of vs lb rb = Some ps /\ incl (map fst ps) Vl /\ incl (map snd ps) Vr /\
    forall s1 s2, equals ps (beside Vl (regs_of s1) (regs_of s2)) = compat vs s1 s2.
Proof.
  induction vs as [|v vs IH]; intros H; [exists []; repeat split; intros x []|].
  destruct IH as (ps & E & I1 & I2 & H'); [intros; apply H; now right|]. destruct (H v (or_introl eq_refl)) as (Hp & Hv1 & Hv2).
  destruct (lb_get v Hp Hv1) as (a & Ea & Ia), (rb_get v Hp Hv2) as (b & Eb & Ib). exists ((a, b) :: ps). cbn [pairs_of]. rewrite Ea, Eb, E.
  pose proof (in_map snd _ _ Ia) as Ja. pose proof (in_map snd _ _ Ib) as Jb. cbn [snd] in Ja, Jb. split; [reflexivity|]. cbn [map fst snd]. split; [|split].
  - intros x [<-|Hx]; auto.
  - intros x [<-|Hx]; auto.
  - intros s1 s2. cbn [equals forallb compat fst snd]. fold (equals ps (beside Vl (regs_of s1) (regs_of s2))). rewrite H'. fold (compat vs s1 s2). f_equal.
    rewrite beside_in by exact Ja. rewrite beside_out by (apply step_V, Jb). unfold PlanProofs4.regs_of.
    destruct (h_binds _ _ _ _ _ _ Hl) as (_ & Bl & _), (h_binds _ _ _ _ _ _ Hr) as (_ & Br & _). destruct (Bl v a Ia) as [_ ->]. destruct (Br v b Ib) as [_ ->]. reflexivity.
Qed.
Variables (C : list nat) (test : regs -> bool).
Hypothesis HC : forall v, In v C <-> In v (pvars l) /\ In v (pvars r).
Hypothesis Htest : forall s1 s2, test (beside Vl (regs_of s1) (regs_of s2)) = compat C s1 s2.
Hypothesis Htest' : forall g h, agree (Vl ++ Vr) g h -> test g = test h.
Lemma step_merged S1 S2 : same (Vl ++ Vr) (filter (fun a => test (fst a)) (pairs Vl (rows_of S1) (fun _ => rows_of S2))) (rows_of (merged C (pvars l) S1 S2)).
Proof.
  intros w Hw. rewrite weigh_rows. unfold merged. rewrite sumZ_flat_map.
  transitivity (weigh (fun g => if test g then w g else 0) (pairs Vl (rows_of S1) (fun _ => rows_of S2))).
  { unfold weigh. rewrite sumZ_filter. apply sumZ_ext. intros [g c] _. cbn [fst snd]. destruct (test g); lia. }
  rewrite weigh_pairs. unfold PlanProofs4.rows_of at 2. rewrite sumZ_map. apply sumZ_ext. intros s1 _. cbn [fst snd]. unfold PlanProofs4.rows_of. rewrite !sumZ_map, sumZ_filter, Z.mul_1_r.
  apply sumZ_ext. intros s2 _. cbn [fst snd]. rewrite Htest, Z.mul_1_r. destruct (compat C s1 s2) eqn:EC; [|reflexivity]. apply Hw. intros x Hx.
  apply in_app_or in Hx. destruct (in_dec Nat.eq_dec x Vl) as [Hx1|Hx1].
  - rewrite beside_in by exact Hx1. destruct (binds_owned _ _ _ _ (h_binds _ _ _ _ _ _ Hl) x Hx1) as (v & E & Hv). unfold PlanProofs4.regs_of. rewrite E. cbn [val].
    now rewrite beside_in.
  - destruct Hx as [Hx|Hx]; [contradiction|]. rewrite beside_out by exact Hx1. destruct (binds_owned _ _ _ _ (h_binds _ _ _ _ _ _ Hr) x Hx) as (v & E & Hv). unfold PlanProofs4.regs_of. rewrite E. cbn [val].
    symmetry. now apply (beside_right _ (pvars r) C).
Qed.
Lemma step_has J o : Answers (Vl ++ Vr) (Wl ++ Wr) J o ->
  same (Vl ++ Vr) J (filter (fun a => test (fst a)) (pairs Vl L (fun _ => R))) ->
  (forall v x, ordering nodes q = Some v -> In (v, x) mb -> ascending x J) -> Has proj q o mb (Wl ++ Wr) J.
Proof.
  intros HA HS HO. split.
  - eapply Answers_V; [exact step_incl|exact HA].
  - intros x Hx. apply step_incl in Hx. apply in_app_or in Hx. apply in_or_app. destruct Hx as [Hx|Hx]; [left; apply (h_incl _ _ _ _ _ _ Hl), Hx|right; apply (h_incl _ _ _ _ _ _ Hr), Hx].
  - intros x Hx. rewrite Hq. apply in_app_or in Hx. apply in_or_app. destruct Hx as [Hx|Hx]; [left; apply (h_rel _ _ _ _ _ _ Hl), Hx|right; apply (h_rel _ _ _ _ _ _ Hr), Hx].
  - exact step_binds.
  - intros S HSol.
    destruct (solutions_exist U HU (pats l) (pats_linear nodes Hlin (relations l))) as (S1 & H1 & _).
    destruct (solutions_exist U HU (pats r) (pats_linear nodes Hlin (relations r))) as (S2 & H2 & _).
    pose proof (solutions_join U _ _ C S1 S2 HC H1 H2) as HJ. fold (pvars l) in HJ.
    assert (EP : pats q = pats l ++ pats r) by (unfold PlanProofs4.pats; rewrite Hq; apply map_app). rewrite <- EP in HJ.
    eapply same_trans; [|eapply same_solutions; [eapply binds_owned; exact step_binds|exact HJ|exact HSol]].
    apply (same_incl _ (Vl ++ Vr)); [exact step_incl|]. eapply same_trans; [exact HS|]. eapply same_trans; [|apply step_merged].
    apply same_filter; [intros g h c d A; cbn [fst]; auto|]. apply same_pairs; [exact step_V|apply (h_same _ _ _ _ _ _ Hl), H1|apply (h_same _ _ _ _ _ _ Hr), H2].
  - exact HO.
Qed.
End Step.
End Join.
