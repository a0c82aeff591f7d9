(** Proofs about plans with filters on their scans: the joins.  As in PlanProofs5.v, for the solutions that the filters of the scans keep. *)
From Coq Require Import ZifyBool.
From Verif Require Import OpSpec OpProofs OpProofs3 OpHashProofs OpHashProofs2 KbSpec TsSpec InserterProofs OpHashProps OpMergeProps OpProps.
From Verif Require Import PlanModel PlanSpec PlanProofs PlanProofs2 PlanProofs3 PlanProofs4.
From Verif Require Import PlanProofs5.
Local Open Scope Z_scope.

Section Join.
Variables (U : list (Z * Z * Z)) (nodes : list node).
Hypothesis HU : NoDup U.
Hypothesis Hlin : linear nodes.
Hypothesis Hrange : forall t k, In t U -> (k < 3)%nat -> 0 <= comp t k < 2 ^ 64.
Local Notation node_of := (node_of nodes).
Local Notation pats := (pats nodes).
Local Notation pvars := (pvars nodes).
Local Notation regs_of := (regs_of nodes).
Local Notation rows_of := (rows_of nodes).
Local Notation binds := (binds nodes).
Variable sel : nat -> (nat -> Z) -> bool.
Hypothesis Hsel : forall i s s', agree (pattern_vars (node_of i)) s s' -> sel i s = sel i s'.
(** The filters of the scans of a plan keep a solution. *)
Definition passes (is : list nat) (s : nat -> Z) : bool := forallb (fun i => sel i s) is.
Lemma passes_agree is s s' : agree (vars (map node_of is)) s s' -> passes is s = passes is s'.
Proof.
  unfold passes. induction is as [|i is IH]; intros A; [reflexivity|]. cbn [forallb]. cbn [map] in A. unfold vars in A. cbn [flat_map] in A.
  rewrite (Hsel i s s'), IH; [reflexivity| |]; intros v Hv; apply A, in_or_app; auto.
Qed.
Lemma passes_app is js s : passes (is ++ js) s = passes is s && passes js s.
Proof. apply forallb_app. Qed.
Lemma same_passes X ps S S' f : owned nodes X (vars ps) -> solutions U ps S -> solutions U ps S' -> (forall s s', agree (vars ps) s s' -> f s = f s') -> same X (rows_of (filter f S)) (rows_of (filter f S')).
Proof.
  intros HX H H' Hf w Hw. rewrite !weigh_rows, !sumZ_filter. apply (solutions_unique U ps S S' (fun s => if f s then w (regs_of s) else 0) H H').
  intros s s' A. rewrite (Hf s s' A). destruct (f s'); [|reflexivity]. apply Hw. eapply regs_of_agree; eauto.
Qed.
Lemma merged_passes C X Y S1 S2 (f g : (nat -> Z) -> bool) : (forall v, In v C <-> In v X /\ In v Y) ->
  (forall s s', agree X s s' -> f s = f s') -> (forall s s', agree Y s s' -> g s = g s') ->
  merged C X (filter f S1) (filter g S2) = filter (fun s => f s && g s) (merged C X S1 S2).
Proof.
  intros HC Hf Hg. induction S1 as [|s S1 IH]; [reflexivity|].
  assert (M : forall a T1 T2, merged C X (a :: T1) T2 = map (beside X a) (filter (compat C a) T2) ++ merged C X T1 T2) by reflexivity.
  assert (F : filter (fun s => f s && g s) (merged C X (s :: S1) S2) = filter (fun s => f s && g s) (map (beside X s) (filter (compat C s) S2)) ++ merged C X (filter f S1) (filter g S2)).
  { rewrite IH. apply (filter_app (fun s : nat -> Z => f s && g s)). }
  rewrite F.
  assert (A : forall s2, f (beside X s s2) = f s) by (intros s2; apply Hf; intros v Hv; now apply beside_in).
  assert (B : filter (fun s => f s && g s) (map (beside X s) (filter (compat C s) S2)) = if f s then map (beside X s) (filter (compat C s) (filter g S2)) else []).
  { clear IH F M. induction S2 as [|s2 S2 IH2]; [destruct (f s); reflexivity|]. cbn [filter]. destruct (compat C s s2) eqn:E.
    - cbn [map filter]. rewrite A, (Hg _ s2 (beside_right X Y C s s2 HC E)), IH2. destruct (f s); cbn [andb]; [|reflexivity]. destruct (g s2); cbn [filter]; [rewrite E|]; reflexivity.
    - rewrite IH2. destruct (f s), (g s2); cbn [filter]; rewrite ?E; reflexivity. }
  rewrite B. cbn [filter]. destruct (f s); reflexivity.
Qed.
Record Has (proj : list nat) (p : plan) (o : oper) (b : bindings) (W : list nat) (L : list (regs * Z)) : Prop := {
  h_answers : Answers (map snd b) W L o;
  h_incl : incl (map snd b) W;
  h_rel : forall x, In x W -> In (x / 3)%nat (relations p);
  h_binds : binds proj p b;
  h_same : forall S, solutions U (pats p) S -> same (map snd b) L (rows_of (filter (passes (relations p)) S));
  h_order : forall v r, ordering nodes p = Some v -> In (v, r) b -> ascending r L }.
Lemma has_total proj p o b W L : Has proj p o b W L -> total L <= Z.of_nat (length U ^ length (relations p)).
Proof.
  intros H. destruct (solutions_exist U HU (pats p) (pats_linear nodes Hlin (relations p))) as (S & HS & HL).
  rewrite (same_total _ _ _ (h_same _ _ _ _ _ _ H S HS)). unfold total. rewrite weigh_rows. unfold PlanProofs4.pats in HL. rewrite map_length in HL.
  assert (E : forall l : list (nat -> Z), sumZ (fun _ => 1) l = Z.of_nat (length l)) by (induction l as [|x l IH]; [reflexivity|rewrite sumZ_cons, IH; cbn [length]; lia]).
  rewrite E. pose proof (filter_length_le (passes (relations p)) S). lia.
Qed.
Lemma has_pos proj p o b W L : Has proj p o b W L -> positive L.
Proof. intros H. eapply answers_pos, H. Qed.
Lemma has_length proj p o b W L : Has proj p o b W L -> (length L <= length U ^ length (relations p))%nat.
Proof. intros H. pose proof (has_total _ _ _ _ _ _ H). pose proof (weigh_pos L (has_pos _ _ _ _ _ _ H)). unfold total in *. lia. Qed.
Lemma has_range proj p o b W L r : Has proj p o b W L -> In r (map snd b) -> forall a, In a L -> 0 <= fst a r < 2 ^ 64.
Proof.
  intros H Hr a Ha. destruct (solutions_exist U HU (pats p) (pats_linear nodes Hlin (relations p))) as (S & HS & _).
  enough ((0 <=? fst a r) && (fst a r <? 2 ^ 64) = true) by lia.
  refine (same_all (map snd b) (fun g => (0 <=? g r) && (g r <? 2 ^ 64)) L (rows_of (filter (passes (relations p)) S)) _ (has_pos _ _ _ _ _ _ H) (h_same _ _ _ _ _ _ H S HS) _ a Ha).
  - intros g h A. rewrite (A r Hr). reflexivity.
  - intros x Hx. apply in_map_iff in Hx. destruct Hx as (s & <- & Hs). apply filter_In in Hs. destruct Hs as [Hs _]. cbn [fst]. pose proof (solutions_sound _ _ _ _ HS Hs) as Hsol.
    apply in_map_iff in Hr. destruct Hr as ([v q] & Eq & Hi). cbn [snd] in Eq. subst q. destruct (h_binds _ _ _ _ _ _ H) as (_ & HB & _). destruct (HB v r Hi) as [Hrel Hslot].
    assert (Hin : In (instance s (node_of (r / 3))) U) by (apply Hsol; unfold PlanProofs4.pats; now apply in_map).
    pose proof (Hrange _ (r mod 3) Hin (Nat.mod_upper_bound r 3 ltac:(lia))) as HR. rewrite comp_instance in HR. unfold PlanProofs4.regs_of. lia.
Qed.

(** ** The step for a join *)
Section Step.
Variables (proj proj' : list nat) (l r q : plan) (lt rt : oper) (lb rb : bindings) (Wl Wr : list nat) (L R : list (regs * Z)).
Hypothesis Hproj : incl proj proj'.
Hypothesis Hl : Has proj' l lt lb Wl L.
Hypothesis Hr : Has proj' r rt rb Wr R.
Hypothesis Hq : relations q = relations l ++ relations r.
Hypothesis Hdis : forall i, In i (relations l) -> ~ In i (relations r).
Local Notation Vl := (map snd lb).
Local Notation Vr := (map snd rb).
Local Notation mb := (mergeBindings proj lb rb).
Lemma step_W : disjoint Wl Wr.
Proof. intros x Hx Hy. apply (Hdis (x / 3)%nat); [apply (h_rel _ _ _ _ _ _ Hl), Hx|apply (h_rel _ _ _ _ _ _ Hr), Hy]. Qed.
Lemma step_V : disjoint Vr Vl.
Proof. intros x Hx Hy. eapply step_W; [apply (h_incl _ _ _ _ _ _ Hl), Hy|apply (h_incl _ _ _ _ _ _ Hr), Hx]. Qed.
Lemma step_vars v : In v (pvars q) <-> In v (pvars l) \/ In v (pvars r).
Proof. unfold PlanProofs4.pvars, PlanProofs4.pats. rewrite Hq, map_app, vars_app, in_app_iff. tauto. Qed.
Lemma lb_get v : In v proj' -> In v (pvars l) -> exists x, bget v lb = Some x /\ In (v, x) lb.
Proof. intros H1 H2. destruct (h_binds _ _ _ _ _ _ Hl) as (K & _ & H). apply keyed_get; [exact K|]. now apply H. Qed.
Lemma rb_get v : In v proj' -> In v (pvars r) -> exists x, bget v rb = Some x /\ In (v, x) rb.
Proof. intros H1 H2. destruct (h_binds _ _ _ _ _ _ Hr) as (K & _ & H). apply keyed_get; [exact K|]. now apply H. Qed.
Lemma merge_In v x : In (v, x) mb -> In v proj /\ (In (v, x) lb \/ bget v lb = None /\ In (v, x) rb).
Proof.
  intros H. apply keyed_In in H; [|apply merge_keyed]. rewrite merge_get in H by apply (h_binds _ _ _ _ _ _ Hl). destruct (mem v proj) eqn:E; [|discriminate].
  apply mem_In in E. split; [exact E|]. destruct (bget v lb) as [y|] eqn:El; [left; injection H as ->; now apply bget_In|]. right. split; [reflexivity|now apply bget_In].
Qed.
Lemma step_binds : binds proj q mb.
Proof.
  split; [apply merge_keyed|]. destruct (h_binds _ _ _ _ _ _ Hl) as (Kl & Bl & Cl), (h_binds _ _ _ _ _ _ Hr) as (Kr & Br & Cr). split.
  - intros v x H. destruct (merge_In v x H) as [_ [H1|[_ H1]]]; rewrite Hq, in_app_iff.
    + destruct (Bl v x H1). auto.
    + destruct (Br v x H1). auto.
  - intros v. rewrite step_vars. split.
    + intros [x H]. destruct (merge_In v x H) as [Hp [H1|[_ H1]]]; (split; [exact Hp|]); [left; apply Cl|right; apply Cr]; eauto.
    + intros [Hp Hv]. enough (exists x, bget v mb = Some x) as [x Hx] by (exists x; now apply bget_In). rewrite merge_get by exact Kl.
      pose proof (proj2 (mem_In v proj) Hp) as ->. destruct (bget v lb) as [x|] eqn:El; [eauto|]. destruct Hv as [Hv|Hv].
      * destruct (lb_get v (Hproj v Hp) Hv) as (x & E & _). congruence.
      * destruct (rb_get v (Hproj v Hp) Hv) as (x & E & _). eauto.
Qed.
Lemma step_incl : incl (map snd mb) (Vl ++ Vr).
Proof.
  intros x Hx. apply in_map_iff in Hx. destruct Hx as ([v y] & <- & H). cbn [snd]. apply in_or_app. destruct (merge_In v y H) as [_ [H1|[_ H1]]]; [left|right]; now apply (in_map snd _ _ H1).
Qed.
Lemma merge_left v x y : In (v, x) mb -> In (v, y) lb -> x = y.
Proof.
  intros H H'. destruct (h_binds _ _ _ _ _ _ Hl) as (Kl & _). pose proof (keyed_In _ _ _ Kl H') as E. destruct (merge_In v x H) as [_ [H1|[H1 _]]]; [|congruence].
  apply (keyed_In _ _ _ Kl) in H1. congruence.
Qed.
Lemma pairs_ok vs : (forall v, In v vs -> In v proj' /\ In v (pvars l) /\ In v (pvars r)) ->
  exists ps, pairs_of vs lb rb = Some ps /\ incl (map fst ps) Vl /\ incl (map snd ps) Vr /\
    forall s1 s2, equals ps (beside Vl (regs_of s1) (regs_of s2)) = compat vs s1 s2.
Proof.
  induction vs as [|v vs IH]; intros H; [exists []; repeat split; intros x []|].
  destruct IH as (ps & E & I1 & I2 & H'); [intros; apply H; now right|]. destruct (H v (or_introl eq_refl)) as (Hp & Hv1 & Hv2).
  destruct (lb_get v Hp Hv1) as (a & Ea & Ia), (rb_get v Hp Hv2) as (b & Eb & Ib). exists ((a, b) :: ps). cbn [pairs_of]. rewrite Ea, Eb, E.
  pose proof (in_map snd _ _ Ia) as Ja. pose proof (in_map snd _ _ Ib) as Jb. cbn [snd] in Ja, Jb. split; [reflexivity|]. cbn [map fst snd]. split; [|split].
  - intros x [<-|Hx]; auto.
  - intros x [<-|Hx]; auto.
  - intros s1 s2. cbn [equals forallb compat fst snd]. fold (equals ps (beside Vl (regs_of s1) (regs_of s2))). rewrite H'. fold (compat vs s1 s2). f_equal.
    rewrite beside_in by exact Ja. rewrite beside_out by (apply step_V, Jb). unfold PlanProofs4.regs_of.
    destruct (h_binds _ _ _ _ _ _ Hl) as (_ & Bl & _), (h_binds _ _ _ _ _ _ Hr) as (_ & Br & _). destruct (Bl v a Ia) as [_ ->]. destruct (Br v b Ib) as [_ ->]. reflexivity.
Qed.
Variables (C : list nat) (test : regs -> bool).
Hypothesis HC : forall v, In v C <-> In v (pvars l) /\ In v (pvars r).
Hypothesis Htest : forall s1 s2, test (beside Vl (regs_of s1) (regs_of s2)) = compat C s1 s2.
Hypothesis Htest' : forall g h, agree (Vl ++ Vr) g h -> test g = test h.
Lemma step_merged S1 S2 : same (Vl ++ Vr) (filter (fun a => test (fst a)) (pairs Vl (rows_of S1) (fun _ => rows_of S2))) (rows_of (merged C (pvars l) S1 S2)).
Proof.
  intros w Hw. rewrite weigh_rows. unfold merged. rewrite sumZ_flat_map.
  transitivity (weigh (fun g => if test g then w g else 0) (pairs Vl (rows_of S1) (fun _ => rows_of S2))).
  { unfold weigh. rewrite sumZ_filter. apply sumZ_ext. intros [g c] _. cbn [fst snd]. destruct (test g); lia. }
  rewrite weigh_pairs. unfold PlanProofs4.rows_of at 2. rewrite sumZ_map. apply sumZ_ext. intros s1 _. cbn [fst snd]. unfold PlanProofs4.rows_of. rewrite !sumZ_map, sumZ_filter, Z.mul_1_r.
  apply sumZ_ext. intros s2 _. cbn [fst snd]. rewrite Htest, Z.mul_1_r. destruct (compat C s1 s2) eqn:EC; [|reflexivity]. apply Hw. intros x Hx.
  apply in_app_or in Hx. destruct (in_dec Nat.eq_dec x Vl) as [Hx1|Hx1].
  - rewrite beside_in by exact Hx1. destruct (binds_owned _ _ _ _ (h_binds _ _ _ _ _ _ Hl) x Hx1) as (v & E & Hv). unfold PlanProofs4.regs_of. rewrite E. cbn [val].
    now rewrite beside_in.
  - destruct Hx as [Hx|Hx]; [contradiction|]. rewrite beside_out by exact Hx1. destruct (binds_owned _ _ _ _ (h_binds _ _ _ _ _ _ Hr) x Hx) as (v & E & Hv). unfold PlanProofs4.regs_of. rewrite E. cbn [val].
    symmetry. now apply (beside_right _ (pvars r) C).
Qed.
Lemma step_has J o : Answers (Vl ++ Vr) (Wl ++ Wr) J o ->
  same (Vl ++ Vr) J (filter (fun a => test (fst a)) (pairs Vl L (fun _ => R))) ->
  (forall v x, ordering nodes q = Some v -> In (v, x) mb -> ascending x J) -> Has proj q o mb (Wl ++ Wr) J.
Proof.
  intros HA HS HO. split.
  - eapply Answers_V; [exact step_incl|exact HA].
  - intros x Hx. apply step_incl in Hx. apply in_app_or in Hx. apply in_or_app. destruct Hx as [Hx|Hx]; [left; apply (h_incl _ _ _ _ _ _ Hl), Hx|right; apply (h_incl _ _ _ _ _ _ Hr), Hx].
  - intros x Hx. rewrite Hq. apply in_app_or in Hx. apply in_or_app. destruct Hx as [Hx|Hx]; [left; apply (h_rel _ _ _ _ _ _ Hl), Hx|right; apply (h_rel _ _ _ _ _ _ Hr), Hx].
  - exact step_binds.
  - intros S HSol.
    destruct (solutions_exist U HU (pats l) (pats_linear nodes Hlin (relations l))) as (S1 & H1 & _).
    destruct (solutions_exist U HU (pats r) (pats_linear nodes Hlin (relations r))) as (S2 & H2 & _).
    pose proof (solutions_join U _ _ C S1 S2 HC H1 H2) as HJ. fold (pvars l) in HJ.
    assert (EP : pats q = pats l ++ pats r) by (unfold PlanProofs4.pats; rewrite Hq; apply map_app). rewrite <- EP in HJ.
    rewrite Hq. eapply same_trans; [|eapply (same_passes _ (pats q)); [eapply binds_owned; exact step_binds|exact HJ|exact HSol|intros s s' A; apply passes_agree; rewrite <- Hq; exact A]].
    assert (EM : filter (passes (relations l ++ relations r)) (merged C (pvars l) S1 S2) = merged C (pvars l) (filter (passes (relations l)) S1) (filter (passes (relations r)) S2)).
    { rewrite (merged_passes C (pvars l) (pvars r) S1 S2 (passes (relations l)) (passes (relations r)) HC (passes_agree _) (passes_agree _)).
      apply filter_ext. intros s. apply passes_app. }
    refine (eq_rect _ (fun T => same (map snd mb) J (rows_of T)) _ _ (eq_sym EM)).
    apply (same_incl _ (Vl ++ Vr)); [exact step_incl|]. eapply same_trans; [exact HS|]. eapply same_trans; [|apply step_merged].
    apply same_filter; [intros g h c d A; cbn [fst]; auto|]. apply same_pairs; [exact step_V|apply (h_same _ _ _ _ _ _ Hl), H1|apply (h_same _ _ _ _ _ _ Hr), H2].
  - exact HO.
Qed.
End Step.
End Join.
