(** Proofs about the plan generator. *)
From Verif Require Import PlanModel PlanSpec PlanProofs PlanProofs6 PlanGenModel.
From Coq Require Import Lia.

(** ** Bit sets *)
Lemma set_bit i v j : N.testbit (bs_set i v) (N.of_nat j) = N.testbit v (N.of_nat j) || (j =? i)%nat.
Proof.
  unfold bs_set. rewrite N.lor_spec. f_equal. destruct (Nat.eqb_spec j i) as [->|n].
  - rewrite N.shiftl_spec_high', N.sub_diag by lia. reflexivity.
  - destruct (N.lt_ge_cases (N.of_nat j) (N.of_nat i)); [now apply N.shiftl_spec_low|].
    rewrite N.shiftl_spec_high' by lia. destruct (N.of_nat j - N.of_nat i)%N eqn:E; [lia|reflexivity].
Qed.
Lemma single_bit i j : N.testbit (bs_set i 0) (N.of_nat j) = (j =? i)%nat.
Proof. now rewrite set_bit, N.bits_0. Qed.
Lemma subset_single i v : bs_subset (bs_set i 0) v = true <-> N.testbit v (N.of_nat i) = true.
Proof.
  unfold bs_subset. rewrite N.eqb_eq. split.
  - intros E. assert (N.testbit (N.land (bs_set i 0) v) (N.of_nat i) = true) by (rewrite E, single_bit; apply Nat.eqb_refl). rewrite N.land_spec in H. now apply andb_prop in H.
  - intros E. apply N.bits_inj. intros k. rewrite <- (N2Nat.id k), N.land_spec, single_bit. destruct (Nat.eqb_spec (N.to_nat k) i) as [->|]; [now rewrite E|reflexivity].
Qed.
(** A bit set stands for a list of patterns. *)
Definition stands (v : N) (l : list nat) : Prop := forall j, N.testbit v (N.of_nat j) = mem j l.
Lemma overlaps_stands a b l r : stands a l -> stands b r -> bs_overlaps a b = existsb (fun i => mem i r) l.
Proof.
  intros HA HB. unfold bs_overlaps. destruct (N.eqb_spec (N.land a b) 0) as [E|E]; cbn [negb]; symmetry.
  - destruct (existsb (fun i => mem i r) l) eqn:H; [|reflexivity]. apply existsb_exists in H. destruct H as (i & Hi & Hr).
    assert (N.testbit (N.land a b) (N.of_nat i) = false) by now rewrite E, N.bits_0. rewrite N.land_spec, HA, HB, Hr, (proj2 (mem_In i l) Hi) in H. discriminate.
  - destruct (existsb (fun i => mem i r) l) eqn:H; [reflexivity|]. exfalso. apply E. apply N.bits_inj_0. intros k. rewrite <- (N2Nat.id k), N.land_spec, HA, HB.
    destruct (mem (N.to_nat k) l) eqn:Hl; [|reflexivity]. destruct (mem (N.to_nat k) r) eqn:Hr; [|reflexivity].
    assert (existsb (fun i => mem i r) l = true); [|congruence]. apply existsb_exists. exists (N.to_nat k). split; [now apply mem_In|exact Hr].
Qed.
Lemma union_stands a b l r : stands a l -> stands b r -> stands (bs_union a b) (l ++ r).
Proof.
  intros HA HB j. unfold bs_union. rewrite N.lor_spec, HA, HB. apply Bool.eq_iff_eq_true. rewrite Bool.orb_true_iff, !mem_In, in_app_iff. reflexivity.
Qed.
Lemma stands_set v l l' : (forall i, In i l <-> In i l') -> stands v l -> stands v l'.
Proof. intros H HS j. rewrite HS. apply Bool.eq_iff_eq_true. rewrite !mem_In. apply H. Qed.
Lemma stands_same v l l' : stands v l -> stands v l' -> forall i, In i l <-> In i l'.
Proof. intros A B i. rewrite <- !mem_In. now rewrite <- (A i), <- (B i). Qed.

Section Gen.
Variables (le ge better : plan -> plan -> bool) (negative : nat -> nat -> bool) (nodes : list node) (projection : list nat).
Hypothesis Hneg : forall i j, negative i j = false.
Local Notation Planned := (Planned nodes projection).
Local Notation addPlan := (addPlan le ge nodes).
Local Notation addAllPlans := (fold_left (fun l p => addPlan p l)).

(** ** addPlan keeps some plan, and adds nothing else. *)
Lemma add_ordered_spec p : forall l, incl (fst (add_ordered le ge nodes p l)) l /\ (snd (add_ordered le ge nodes p l) = true -> fst (add_ordered le ge nodes p l) <> []).
Proof.
  induction l as [|q l [I1 I2]]; [split; [apply incl_refl|discriminate]|]. cbn [add_ordered].
  destruct (ordering_eqb _ _); [destruct (le q p); [split; [apply incl_refl|discriminate]|split; [now apply incl_tl|exact I2]]|].
  destruct (match ordering nodes q with None => true | Some _ => false end && ge q p); [split; [now apply incl_tl|exact I2]|].
  destruct (add_ordered le ge nodes p l) as [l' b]. cbn [fst snd] in *. split; [|discriminate]. intros x [<-|Hx]; [now left|right; auto].
Qed.
Lemma add_unordered_spec p : forall l, incl (fst (add_unordered le nodes p l)) l /\ (snd (add_unordered le nodes p l) = true -> fst (add_unordered le nodes p l) <> []).
Proof.
  induction l as [|q l [I1 I2]]; [split; [apply incl_refl|discriminate]|]. cbn [add_unordered]. destruct (le q p); [split; [apply incl_refl|discriminate]|].
  destruct (ordering_eqb _ _); [split; [now apply incl_tl|exact I2]|].
  destruct (add_unordered le nodes p l) as [l' b]. cbn [fst snd] in *. split; [|discriminate]. intros x [<-|Hx]; [now left|right; auto].
Qed.
Lemma addPlan_spec p l : addPlan p l <> [] /\ forall q, In q (addPlan p l) -> q = p \/ In q l.
Proof.
  unfold PlanGenModel.addPlan. destruct (ordering nodes p).
  - destruct (add_ordered_spec p l) as [H1 H2]. destruct (add_ordered le ge nodes p l) as [l' []]; cbn [fst snd] in *.
    + split; [auto|intros q Hq; right; auto].
    + split; [discriminate|intros q [<-|Hq]; auto].
  - destruct (add_unordered_spec p l) as [H1 H2]. destruct (add_unordered le nodes p l) as [l' []]; cbn [fst snd] in *.
    + split; [auto|intros q Hq; right; auto].
    + split; [discriminate|intros q [<-|Hq]; auto].
Qed.
Lemma adds_spec ps : forall l, (ps <> [] \/ l <> [] -> addAllPlans ps l <> []) /\ forall q, In q (addAllPlans ps l) -> In q ps \/ In q l.
Proof.
  induction ps as [|p ps IH]; intros l; cbn [fold_left]; [split; [tauto|auto]|]. destruct (IH (addPlan p l)) as [H1 H2]. destruct (addPlan_spec p l) as [H3 H4]. split; [auto|].
  intros q Hq. destruct (H2 q Hq) as [H|H]; [left; now right|]. destruct (H4 q H) as [->|]; [left; now left|auto].
Qed.

(** ** The problems of a size *)
Definition good (k : nat) (pb : problem) : Prop :=
  pr_plans pb <> [] /\ forall p, In p (pr_plans pb) -> Planned p /\ length (relations p) = k /\ stands (pr_rel pb) (relations p).
Lemma good_update k rel ps t : Forall (good k) t -> ps <> [] ->
  (forall p, In p ps -> Planned p /\ length (relations p) = k /\ stands rel (relations p)) -> Forall (good k) (update le ge nodes rel ps t) /\ update le ge nodes rel ps t <> [].
Proof.
  intros HT Hne HP. unfold update. destruct (existsb _ t) eqn:E.
  - split; [|intros H; apply map_eq_nil in H; subst t; discriminate]. apply Forall_forall. intros x Hx. apply in_map_iff in Hx. destruct Hx as (pb & <- & Hpb). rewrite Forall_forall in HT. specialize (HT pb Hpb).
    destruct (N.eqb_spec (pr_rel pb) rel) as [<-|n]; [|exact HT]. destruct HT as [H1 H2]. split; cbn [pr_plans pr_rel]; [apply adds_spec; auto|].
    intros p Hp. apply adds_spec in Hp. destruct Hp; auto.
  - split; [|discriminate]. constructor; [|exact HT]. split; cbn [pr_plans pr_rel]; [apply adds_spec; auto|]. intros p Hp. apply adds_spec in Hp. destruct Hp as [Hp|[]]; auto.
Qed.

(** ** Edges *)
Lemma slots_nth i : (i < length nodes)%nat \/ node_vars nodes i = [].
Proof.
  destruct (Nat.lt_ge_cases i (length nodes)); [auto|right]. unfold node_vars, slot_vars, node_of. rewrite nth_overflow by exact H. reflexivity.
Qed.
Lemma intersects_In a b v : In v (intersects a b) <-> In v a /\ In v b.
Proof. unfold intersects. rewrite addAll_In, filter_In, mem_In. cbn [In]. tauto. Qed.
Lemma edge_intersects i j : edge nodes i j = true <-> intersects (node_vars nodes i) (node_vars nodes j) <> [].
Proof.
  unfold edge. rewrite existsb_exists. split.
  - intros (v & Hv & Hm) E. apply mem_In in Hm. assert (In v []) as []. rewrite <- E. now apply intersects_In.
  - destruct (intersects _ _) as [|v l] eqn:E; [congruence|]. intros _. assert (H : In v (intersects (node_vars nodes i) (node_vars nodes j))) by (rewrite E; now left).
    apply intersects_In in H. exists v. split; [tauto|]. now apply mem_In.
Qed.
Lemma edge_sym i j : edge nodes i j = edge nodes j i.
Proof.
  apply Bool.eq_iff_eq_true. unfold edge. rewrite !existsb_exists. split; intros (v & Hv & Hm); apply mem_In in Hm; exists v; (split; [exact Hm|now apply mem_In]).
Qed.
Lemma edges_In j : In j (edges negative nodes) -> edge nodes (j_left j) (j_right j) = true /\ j_negative j = false.
Proof.
  unfold edges. rewrite in_flat_map. intros (i & _ & H). apply in_flat_map in H. destruct H as (i2 & _ & H).
  destruct (intersects _ _) as [|v l] eqn:E; [destruct H|]. destruct H as [<-|[]]. cbn. split; [|apply Hneg]. apply edge_intersects. rewrite E. discriminate.
Qed.
Lemma edges_all i j : (i < j)%nat -> edge nodes i j = true -> exists e, In e (edges negative nodes) /\ j_left e = i /\ j_right e = j.
Proof.
  intros Hij HE. apply edge_intersects in HE. assert (j < length nodes)%nat.
  { destruct (slots_nth j) as [|E]; [auto|]. exfalso. apply HE. rewrite E. destruct (intersects (node_vars nodes i) []) as [|v l] eqn:E'; [reflexivity|].
    assert (H : In v (intersects (node_vars nodes i) [])) by (rewrite E'; now left). apply intersects_In in H. destruct H as [_ []]. }
  destruct (intersects (node_vars nodes i) (node_vars nodes j)) as [|v l] eqn:E; [congruence|]. exists (mkJoin i j v (negative i j)). split; [|auto].
  unfold edges. apply in_flat_map. exists i. split; [apply in_seq; lia|]. apply in_flat_map. exists j. split; [apply in_seq; lia|]. rewrite E. now left.
Qed.
Lemma find_join_some js l r neg ords : find_join js l r = Some (neg, ords) ->
  exists j, In j js /\ neg = j_negative j /\ N.testbit l (N.of_nat (j_left j)) = true /\ N.testbit r (N.of_nat (j_right j)) = true.
Proof.
  induction js as [|j js IH]; [discriminate|]. cbn [find_join]. destruct (bs_subset _ l && bs_subset _ r) eqn:E.
  - intros H. injection H as <- _. apply andb_prop in E. destruct E as [E1 E2]. apply subset_single in E1, E2. exists j. split; [now left|auto].
  - intros H. destruct (IH H) as (j' & H1 & H2). exists j'. split; [now right|exact H2].
Qed.
Lemma find_join_all js l r j : In j js -> N.testbit l (N.of_nat (j_left j)) = true -> N.testbit r (N.of_nat (j_right j)) = true -> find_join js l r <> None.
Proof.
  induction js as [|j' js IH]; intros Hj Hl Hr; [destruct Hj|]. cbn [find_join]. destruct (bs_subset _ l && bs_subset _ r) eqn:E; [discriminate|].
  destruct Hj as [->|Hj]; [|auto]. apply subset_single in Hl, Hr. rewrite Hl, Hr in E. discriminate.
Qed.

Lemma connected_sym l r : connected nodes l r = connected nodes r l.
Proof.
  apply Bool.eq_iff_eq_true. unfold connected. rewrite !existsb_exists. split; intros (i & Hi & H); apply existsb_exists in H; destruct H as (j & Hj & H);
    exists j; (split; [exact Hj|]); apply existsb_exists; exists i; (split; [exact Hi|]); now rewrite edge_sym.
Qed.
Lemma overlaps_sym l r : overlaps l r = overlaps r l.
Proof.
  apply Bool.eq_iff_eq_true. unfold overlaps. rewrite !existsb_exists. split; intros (i & Hi & H); apply mem_In in H; exists i; (split; [exact H|now apply mem_In]).
Qed.

(** ** One pair of problems *)
Lemma combine_planned a b l r neg ords : Planned l -> Planned r -> stands a (relations l) -> stands b (relations r) ->
  bs_overlaps a b = false -> find_join (edges negative nodes) a b = Some (neg, ords) ->
  forall p, In p (combine_one nodes neg ords l r) -> Planned p /\ length (relations p) = (length (relations l) + length (relations r))%nat /\ stands (bs_union a b) (relations p).
Proof.
  intros Pl Pr Sl Sr HO HF p Hp. apply find_join_some in HF. destruct HF as (j & Hj & -> & Hl & Hr). apply edges_In in Hj. destruct Hj as [He Hn]. rewrite Hn in Hp.
  rewrite (overlaps_stands _ _ _ _ Sl Sr) in HO. fold (overlaps l r) in HO. rewrite Sl in Hl. rewrite Sr in Hr. apply mem_In in Hl, Hr.
  assert (HC : connected nodes l r = true). { unfold connected. apply existsb_exists. exists (j_left j). split; [exact Hl|]. apply existsb_exists. exists (j_right j). auto. }
  unfold combine_one in Hp. apply in_app_or in Hp. destruct Hp as [Hp|[<-|[<-|[]]]].
  - destruct (ordering nodes l) as [x|] eqn:E1; [|destruct Hp]. destruct (ordering nodes r) as [y|] eqn:E2; [|destruct Hp].
    destruct (Nat.eqb_spec x y) as [->|]; [|destruct Hp]. cbn [andb] in Hp. destruct (mem y ords); [|destruct Hp]. destruct Hp as [<-|[]].
    split; [now apply P_merge|]. cbn [relations]. rewrite app_length. split; [reflexivity|now apply union_stands].
  - split; [now apply P_hash|]. cbn [relations]. rewrite app_length. split; [reflexivity|now apply union_stands].
  - split; [apply P_hash; auto; [now rewrite overlaps_sym|now rewrite connected_sym]|]. cbn [relations]. rewrite app_length. split; [lia|].
    eapply stands_set; [|now apply union_stands; [exact Sl|exact Sr]]. intros i. rewrite !in_app_iff. tauto.
Qed.
Lemma combine_nonempty neg ords ls rs : ls <> [] -> rs <> [] -> combine_all nodes neg ords ls rs <> [].
Proof.
  destruct ls as [|l ls]; [congruence|]. destruct rs as [|r rs]; [congruence|]. intros _ _ H. cbn in H.
  assert (E : combine_one nodes neg ords l r <> []). { unfold combine_one. intros E. apply app_eq_nil in E. destruct E as [_ E]. destruct neg; discriminate. }
  destruct (combine_one nodes neg ords l r); [congruence|discriminate].
Qed.
Lemma join_step_good k a b t l r : k = (a + b)%nat -> good a l -> good b r -> Forall (good k) t ->
  Forall (good k) (join_step le ge negative nodes t (l, r)) /\ (t <> [] -> join_step le ge negative nodes t (l, r) <> []) /\
  (bs_overlaps (pr_rel l) (pr_rel r) = false -> find_join (edges negative nodes) (pr_rel l) (pr_rel r) <> None -> join_step le ge negative nodes t (l, r) <> []).
Proof.
  intros -> [Nl Gl] [Nr Gr] HT. unfold join_step. destruct (bs_overlaps (pr_rel l) (pr_rel r)) eqn:EO; [repeat split; auto; discriminate|].
  destruct (pr_plans l) as [|l0 ls] eqn:EL; [congruence|]. rewrite <- EL in *.
  assert (match pr_plans l with [] => t | _ :: _ => match find_join (edges negative nodes) (pr_rel l) (pr_rel r) with None => t | Some (neg, ords) => update le ge nodes (bs_union (pr_rel l) (pr_rel r)) (combine_all nodes neg ords (pr_plans l) (pr_plans r)) t end end =
    match find_join (edges negative nodes) (pr_rel l) (pr_rel r) with None => t | Some (neg, ords) => update le ge nodes (bs_union (pr_rel l) (pr_rel r)) (combine_all nodes neg ords (pr_plans l) (pr_plans r)) t end) as E0 by (rewrite EL; reflexivity).
  rewrite EL in E0 at 1. cbn iota in E0. 
  destruct (find_join (edges negative nodes) (pr_rel l) (pr_rel r)) as [[neg ords]|] eqn:EF; [|repeat split; auto; congruence].
  destruct (good_update (a + b) (bs_union (pr_rel l) (pr_rel r)) (combine_all nodes neg ords (pr_plans l) (pr_plans r)) t HT) as [H1 H2].
  - now apply combine_nonempty.
  - intros p Hp. apply in_flat_map in Hp. destruct Hp as (pl & Hl & Hp). apply in_flat_map in Hp. destruct Hp as (pr & Hr & Hp).
    destruct (Gl pl Hl) as (P1 & L1 & S1). destruct (Gr pr Hr) as (P2 & L2 & S2). rewrite <- L1, <- L2. eapply combine_planned; eauto.
  - repeat split; auto.
Qed.

(** ** One size *)
Definition tables (dp : list (list problem)) : Prop := forall k, (k < length dp)%nat -> nth k dp [] <> [] /\ Forall (good (S k)) (nth k dp []).
Lemma level_pairs_In dp l r : In (l, r) (level_pairs dp) <-> exists a b, (a + b + 1 = length dp)%nat /\ In l (nth a dp []) /\ In r (nth b dp []).
Proof.
  unfold level_pairs. rewrite in_flat_map. split.
  - intros (a & Ha & H). apply in_seq in Ha. apply in_prod_iff in H. exists a, (length dp - a - 1)%nat. split; [lia|exact H].
  - intros (a & b & E & Hl & Hr). exists a. split; [apply in_seq; lia|]. apply in_prod_iff. split; [exact Hl|]. now replace (length dp - a - 1)%nat with b by lia.
Qed.
Lemma fold_steps k ps : (forall l r, In (l, r) ps -> exists a b, k = (a + b)%nat /\ good a l /\ good b r) -> forall t, Forall (good k) t ->
  Forall (good k) (fold_left (join_step le ge negative nodes) ps t) /\ (t <> [] -> fold_left (join_step le ge negative nodes) ps t <> []) /\
  (forall l r, In (l, r) ps -> bs_overlaps (pr_rel l) (pr_rel r) = false -> find_join (edges negative nodes) (pr_rel l) (pr_rel r) <> None -> fold_left (join_step le ge negative nodes) ps t <> []).
Proof.
  induction ps as [|[l0 r0] ps IH]; intros H t HT; cbn [fold_left]; [repeat split; auto; intros l r []|].
  destruct (H l0 r0 (or_introl eq_refl)) as (a & b & Ek & Gl & Gr). destruct (join_step_good k a b t l0 r0 Ek Gl Gr HT) as (J1 & J2 & J3).
  destruct (IH (fun l r Hi => H l r (or_intror Hi)) _ J1) as (I1 & I2 & I3). repeat split; auto.
  intros l r [E|Hi] HO HF; [injection E as <- <-; auto|eauto].
Qed.
Lemma next_good n dp : n = length nodes -> tables dp -> (0 < length dp < n)%nat -> (forall i, (i < n)%nat -> exists pb, In pb (nth 0 dp []) /\ stands (pr_rel pb) [i]) ->
  next_level le ge negative nodes dp <> [] /\ Forall (good (S (length dp))) (next_level le ge negative nodes dp).
Proof.
  intros En HT Hlen H0. set (k := S (length dp)).
  assert (HP : forall l r, In (l, r) (level_pairs dp) -> exists a b, k = (a + b)%nat /\ good a l /\ good b r).
  { intros l r H. apply level_pairs_In in H. destruct H as (a & b & E & Hl & Hr). exists (S a), (S b). split; [unfold k; lia|].
    assert (A : (a < length dp)%nat) by lia. assert (B : (b < length dp)%nat) by lia. destruct (HT a A) as [_ FA]. destruct (HT b B) as [_ FB]. rewrite Forall_forall in FA, FB. split; auto. }
  destruct (fold_steps k (level_pairs dp) HP [] (Forall_nil _)) as (F1 & _ & F3). unfold next_level.
  destruct (fold_left (join_step le ge negative nodes) (level_pairs dp) []) as [|x t] eqn:EF; [|split; [discriminate|exact F1]]. clear F1.
  assert (HN : forall l r, In (l, r) (level_pairs dp) -> bs_overlaps (pr_rel l) (pr_rel r) = false -> find_join (edges negative nodes) (pr_rel l) (pr_rel r) = None).
  { intros l r H HO. destruct (find_join _ _ _) eqn:E; [|reflexivity]. exfalso. apply (F3 l r H HO); [congruence|reflexivity]. }
  unfold cart_level. destruct (find _ (level_pairs dp)) as [[l r]|] eqn:EC.
  - apply find_some in EC. destruct EC as [Hlr HO]. cbn [fst snd] in HO. apply Bool.negb_true_iff in HO. destruct (HP l r Hlr) as (a & b & Ek & [Nl Gl] & [Nr Gr]).
    assert (Hrl : In (r, l) (level_pairs dp)). { apply level_pairs_In in Hlr. apply level_pairs_In. destruct Hlr as (x & y & E & H1 & H2). exists y, x. split; [lia|auto]. }
    assert (HO' : bs_overlaps (pr_rel r) (pr_rel l) = false). { unfold bs_overlaps in *. now rewrite N.land_comm. }
    apply and_comm. apply good_update; [constructor| |].
    + destruct (pr_plans l) as [|pl ls]; [congruence|]. destruct (pr_plans r) as [|pr rs]; [congruence|]. discriminate.
    + intros p Hp. apply in_flat_map in Hp. destruct Hp as (pl & Hl & Hp). apply in_map_iff in Hp. destruct Hp as (pr & <- & Hr).
      destruct (Gl pl Hl) as (P1 & L1 & S1). destruct (Gr pr Hr) as (P2 & L2 & S2). cbn [relations]. rewrite app_length. split; [|split; [lia|now apply union_stands]].
      assert (EO : overlaps pl pr = false). { unfold overlaps. rewrite <- (overlaps_stands _ _ _ _ S1 S2). exact HO. }
      apply P_cart; auto. destruct (connected nodes pl pr) eqn:EC; [exfalso|reflexivity].
      unfold connected in EC. apply existsb_exists in EC. destruct EC as (i & Hi & EC). apply existsb_exists in EC. destruct EC as (j & Hj & EC).
      assert (i <> j). { intros <-. assert (overlaps pl pr = true); [|congruence]. unfold overlaps. apply existsb_exists. exists i. split; [exact Hi|now apply mem_In]. }
      destruct (Nat.lt_ge_cases i j).
      * destruct (edges_all i j H1 EC) as (e & He & <- & <-). apply (find_join_all (edges negative nodes) (pr_rel l) (pr_rel r) e He); [rewrite S1; now apply mem_In|rewrite S2; now apply mem_In|].
        now apply HN.
      * rewrite edge_sym in EC. destruct (edges_all j i ltac:(lia) EC) as (e & He & <- & <-). apply (find_join_all (edges negative nodes) (pr_rel r) (pr_rel l) e He); [rewrite S2; now apply mem_In|rewrite S1; now apply mem_In|].
        now apply HN.
  - exfalso. destruct (HT (length dp - 1)%nat ltac:(lia)) as [HL FL]. destruct (nth (length dp - 1) dp []) as [|pb pbs] eqn:EN; [congruence|].
    rewrite Forall_forall in FL. destruct (FL pb (or_introl eq_refl)) as [Np Gp]. destruct (pr_plans pb) as [|p ps]; [congruence|]. destruct (Gp p (or_introl eq_refl)) as (Pp & Lp & Sp).
    assert (exists i, (i < n)%nat /\ ~ In i (relations p)) as (i & Hi & Hni).
    { destruct (existsb (fun i => negb (mem i (relations p))) (seq 0 n)) eqn:E.
      - apply existsb_exists in E. destruct E as (i & Hi & E). apply in_seq in Hi. exists i. split; [lia|]. intros H. apply mem_In in H. rewrite H in E. discriminate.
      - exfalso. assert (incl (seq 0 n) (relations p)).
        { intros i Hi. destruct (mem i (relations p)) eqn:M; [now apply mem_In|]. assert (existsb (fun i => negb (mem i (relations p))) (seq 0 n) = true); [|congruence].
          apply existsb_exists. exists i. split; [exact Hi|now rewrite M]. }
        apply NoDup_incl_length in H; [|apply seq_NoDup]. rewrite seq_length in H. lia. }
    destruct (H0 i Hi) as (pb0 & Hpb0 & S0). assert (HI : In (pb0, pb) (level_pairs dp)).
    { apply level_pairs_In. exists 0%nat, (length dp - 1)%nat. split; [lia|]. split; [exact Hpb0|]. rewrite EN. now left. }
    apply (find_none _ _ EC) in HI. cbn [fst snd] in HI. rewrite (overlaps_stands _ _ _ _ S0 Sp) in HI. cbn [existsb] in HI.
    destruct (mem i (relations p)) eqn:M; [apply mem_In in M; contradiction|discriminate].
Qed.
Lemma grow_good n : n = length nodes -> forall k dp, tables dp -> (0 < length dp)%nat -> (length dp + k = n)%nat ->
  (forall i, (i < n)%nat -> exists pb, In pb (nth 0 dp []) /\ stands (pr_rel pb) [i]) ->
  tables (grow le ge negative nodes k dp) /\ length (grow le ge negative nodes k dp) = n.
Proof.
  intros En. induction k as [|k IH]; intros dp HT Hp Hk H0; cbn [grow]; [split; [exact HT|lia]|].
  destruct (next_good n dp En HT ltac:(lia) H0) as [N1 N2]. apply IH.
  - intros j Hj. rewrite app_length in Hj. cbn [length] in Hj. destruct (Nat.lt_ge_cases j (length dp)).
    + rewrite app_nth1 by exact H. now apply HT.
    + assert (j = length dp) as -> by lia. rewrite app_nth2, Nat.sub_diag by lia. cbn [nth]. split; assumption.
  - rewrite app_length. cbn [length]. lia.
  - rewrite app_length. cbn [length]. lia.
  - intros i Hi. rewrite app_nth1 by exact Hp. auto.
Qed.

(** ** The scans *)
Lemma others_In i v : isUnused nodes projection i v = true -> ~ In v projection /\ forall j, j <> i -> ~ In v (node_vars nodes j).
Proof.
  unfold isUnused. intros H. apply Bool.andb_true_iff in H. destruct H as [H1 H2]. apply Bool.negb_true_iff in H1, H2. split.
  - intros Hv. apply mem_In in Hv. congruence.
  - intros j Hj Hv. enough (In v (others nodes i)) as Ho by (apply mem_In in Ho; congruence). unfold others. apply in_flat_map. exists j. split.
    + apply in_seq. destruct (Nat.lt_ge_cases j (length nodes)) as [|Hge]; [lia|]. exfalso. unfold node_vars, slot_vars, node_of in Hv. rewrite nth_overflow in Hv by exact Hge. exact Hv.
    + destruct (Nat.eqb_spec j i); [contradiction|exact Hv].
Qed.
Lemma scan_of_planned i idx u p : (i < length nodes)%nat -> (idx < 6)%nat -> In p (scan_of nodes projection i idx u) -> Planned p /\ relations p = [i].
Proof.
  intros Hi Hidx. unfold scan_of. destruct (columns idx) as [[k1 k2] k3] eqn:Hcol. destruct (slot (node_of nodes i) k3) as [v|c] eqn:Ev.
  - destruct (isUnused nodes projection i v) eqn:Eu; cbn [negb].
    + destruct (bound nodes i k2 && negb (bound nodes i k1)) eqn:Eb; [intros []|]. intros [<-|[]]. split; [|reflexivity]. destruct (others_In i v Eu) as [H1 H2].
      eapply P_aggregated; eauto. intros E. rewrite E in Eb. cbn [andb] in Eb. now apply Bool.negb_false_iff in Eb.
    + intros [<-|[]]. split; [now apply P_scan|reflexivity].
  - intros [<-|[]]. split; [now apply P_scan|reflexivity].
Qed.
Lemma scans_nonempty i : (length (filter (isUnused nodes projection i) (node_vars nodes i)) < 2)%nat -> scans nodes projection i <> [].
Proof.
  intros H E. assert (E' : forall idx, In idx [5; 4; 3; 2; 1; 0]%nat -> scan_of nodes projection i idx false = []).
  { intros idx Hi. destruct (scan_of nodes projection i idx false) as [|p l] eqn:Es; [reflexivity|]. assert (In p (scans nodes projection i)) as Hp; [|rewrite E in Hp; destruct Hp].
    unfold scans. apply in_flat_map. exists idx. split; [exact Hi|]. rewrite Es. now left. }
  pose proof (E' 0%nat ltac:(cbn; tauto)) as E0. pose proof (E' 1%nat ltac:(cbn; tauto)) as E1. unfold scan_of in E0, E1. cbn [columns] in E0, E1. unfold node_vars, slot_vars in H.
  destruct (slot (node_of nodes i) 2) as [v2|c2]; [|discriminate]. destruct (slot (node_of nodes i) 0) as [v0|c0]; [|discriminate].
  destruct (isUnused nodes projection i v2) eqn:U2; [|discriminate]. destruct (isUnused nodes projection i v0) eqn:U0; [|discriminate].
  rewrite !filter_app, !app_length in H. cbn [filter] in H. rewrite U0, U2 in H. cbn [length] in H. lia.
Qed.
(** A pattern with a constant has another slot that is used. *)
Definition constant_ok (i : nat) : Prop := forall k k' k'' c v v', (k < 3)%nat -> (k' < 3)%nat -> (k'' < 3)%nat -> k <> k' -> k <> k'' -> k' <> k'' ->
  slot (node_of nodes i) k = Const c -> slot (node_of nodes i) k' = Var v -> slot (node_of nodes i) k'' = Var v' -> isUnused nodes projection i v = false \/ isUnused nodes projection i v' = false.
Local Notation unused_slots i := (length (filter (isUnused nodes projection i) (node_vars nodes i))).
Definition full_cost (i : nat) : Prop := forall idx, le (FullyAggregatedIndexScan false idx i) (FullyAggregatedIndexScan true idx i) = true.
Lemma full_planned i : (i < length nodes)%nat -> constant_ok i -> (2 <= unused_slots i)%nat -> Planned (FullyAggregatedIndexScan false (full_idx nodes projection i) i).
Proof.
  intros Hi HC Hn. unfold full_idx, unused_slot. unfold node_vars, slot_vars in Hn. rewrite !filter_app, !app_length in Hn.
  pose proof (fun c v v' => HC 0%nat 1%nat 2%nat c v v' ltac:(lia) ltac:(lia) ltac:(lia) ltac:(lia) ltac:(lia) ltac:(lia)) as C0.
  pose proof (fun c v v' => HC 1%nat 0%nat 2%nat c v v' ltac:(lia) ltac:(lia) ltac:(lia) ltac:(lia) ltac:(lia) ltac:(lia)) as C1.
  pose proof (fun c v v' => HC 2%nat 0%nat 1%nat c v v' ltac:(lia) ltac:(lia) ltac:(lia) ltac:(lia) ltac:(lia) ltac:(lia)) as C2.
  destruct (slot (node_of nodes i) 0) as [v0|c0] eqn:E0, (slot (node_of nodes i) 1) as [v1|c1] eqn:E1, (slot (node_of nodes i) 2) as [v2|c2] eqn:E2; cbn [filter] in Hn;
    try (cbn [length] in Hn; repeat match type of Hn with context [isUnused nodes projection i ?v] => destruct (isUnused nodes projection i v) end; cbn [length] in Hn; lia);
    try (exfalso; specialize (C0 _ _ _ eq_refl eq_refl eq_refl); destruct C0 as [X|X]; rewrite X in Hn; match type of Hn with context [isUnused nodes projection i ?v] => destruct (isUnused nodes projection i v) end; cbn [length] in Hn; lia);
    try (exfalso; specialize (C1 _ _ _ eq_refl eq_refl eq_refl); destruct C1 as [X|X]; rewrite X in Hn; match type of Hn with context [isUnused nodes projection i ?v] => destruct (isUnused nodes projection i v) end; cbn [length] in Hn; lia);
    try (exfalso; specialize (C2 _ _ _ eq_refl eq_refl eq_refl); destruct C2 as [X|X]; rewrite X in Hn; match type of Hn with context [isUnused nodes projection i ?v] => destruct (isUnused nodes projection i v) end; cbn [length] in Hn; lia).
  assert (W : forall v, isUnused nodes projection i v = true -> ~ In v projection /\ forall j, j <> i -> ~ In v (node_vars nodes j)) by (intros v; apply others_In).
  destruct (isUnused nodes projection i v0) eqn:U0; cbn [negb].
  - destruct (isUnused nodes projection i v2) eqn:U2; cbn [negb].
    + apply (P_fully nodes projection 5 i 1 0 2 v1 v0 v2); auto; try lia; now apply W.
    + destruct (isUnused nodes projection i v1) eqn:U1; [|cbn [length] in Hn; lia].
      apply (P_fully nodes projection 4 i 2 0 1 v2 v0 v1); auto; try lia; now apply W.
  - destruct (isUnused nodes projection i v1) eqn:U1; [|destruct (isUnused nodes projection i v2); cbn [length] in Hn; lia].
    destruct (isUnused nodes projection i v2) eqn:U2; [|cbn [length] in Hn; lia].
    apply (P_fully nodes projection 0 i 0 1 2 v0 v1 v2); auto; try lia; now apply W.
Qed.
Lemma scan_good i : (i < length nodes)%nat -> constant_ok i -> (unused_slots i < 2)%nat \/ full_cost i ->
  good 1 (buildScan le ge nodes projection i) /\ stands (pr_rel (buildScan le ge nodes projection i)) [i].
Proof.
  unfold buildScan. intros Hi HC HL.
  assert (S0 : stands (bs_set i 0) [i]). { intros j. rewrite single_bit. apply Bool.eq_iff_eq_true. rewrite mem_In, Nat.eqb_eq. cbn. firstorder. }
  split; [|exact S0]. destruct (Nat.leb_spec 2 (unused_slots i)) as [Hn|Hn].
  - destruct HL as [HL|HL]; [lia|]. unfold full_scans. cbn [fold_left].
    assert (E1 : addPlan (FullyAggregatedIndexScan false (full_idx nodes projection i) i) [] = [FullyAggregatedIndexScan false (full_idx nodes projection i) i]).
    { unfold PlanGenModel.addPlan. destruct (ordering nodes (FullyAggregatedIndexScan false (full_idx nodes projection i) i)); reflexivity. }
    rewrite E1. unfold PlanGenModel.addPlan. cbn [ordering add_unordered]. rewrite HL. split; [discriminate|]. intros p [<-|[]]. cbn [relations length]. split; [now apply full_planned|auto].
  - split; [apply (proj1 (adds_spec (scans nodes projection i) [])); left; now apply scans_nonempty|].
    intros p Hp. apply (proj2 (adds_spec (scans nodes projection i) [])) in Hp. cbn [pr_plans pr_rel]. destruct Hp as [Hp|[]].
    unfold scans in Hp. apply in_flat_map in Hp. destruct Hp as (idx & Hidx & Hp). assert (Hx : (idx < 6)%nat) by (cbn in Hidx; intuition lia).
    apply in_app_or in Hp. assert (Planned p /\ relations p = [i]) as [H1 H2] by (destruct Hp as [Hp|Hp]; eapply scan_of_planned; eauto). rewrite H2. auto.
Qed.
Lemma seeds_good is : (forall i, In i is -> (i < length nodes)%nat) -> (forall i, In i is -> constant_ok i /\ ((unused_slots i < 2)%nat \/ full_cost i)) ->
  Forall (good 1) (seeds le ge nodes projection is) /\ (is <> [] -> seeds le ge nodes projection is <> []) /\
  forall i, In i is -> exists pb, In pb (seeds le ge nodes projection is) /\ stands (pr_rel pb) [i].
Proof.
  intros HB HU. unfold seeds. split; [|split].
  - apply Forall_forall. intros pb Hp. apply in_map_iff in Hp. destruct Hp as (i & <- & Hi). destruct (HU i Hi). now apply scan_good; auto.
  - destruct is; [congruence|discriminate].
  - intros i Hi. exists (buildScan le ge nodes projection i). split; [now apply in_map|]. destruct (HU i Hi). now apply scan_good; auto.
Qed.

Lemma last_nth {A} (l : list A) d : last l d = nth (length l - 1) l d.
Proof.
  induction l as [|a [|b l] IH]; [reflexivity|reflexivity|]. change (last (a :: b :: l) d) with (last (b :: l) d). rewrite IH.
  change (length (a :: b :: l)) with (S (length (b :: l))). replace (S (length (b :: l)) - 1)%nat with (S (length (b :: l) - 1))%nat by (cbn [length]; lia). reflexivity.
Qed.
Lemma fold_best ps : forall p, In (fold_left (fun best p => if better p best then p else best) ps p) (p :: ps).
Proof.
  induction ps as [|q ps IH]; intros p; [now left|]. cbn [fold_left]. destruct (IH (if better q p then q else p)) as [H|H]; [|right; now right].
  rewrite <- H. destruct (better q p); [right; now left|now left].
Qed.
Theorem translate_planned : (0 < length nodes <= 64)%nat -> (forall i, (i < length nodes)%nat -> constant_ok i /\ ((unused_slots i < 2)%nat \/ full_cost i)) ->
  exists p, translate le ge better negative nodes projection = Some p /\ Planned p /\ complete nodes p.
Proof.
  intros Hlen HU. unfold translate, translate_int. replace (bs_max <? length nodes)%nat with false by (symmetry; apply Nat.ltb_ge; unfold bs_max; lia).
  destruct nodes as [|n0 rest] eqn:EN; [cbn in Hlen; lia|]. rewrite <- EN in *.
  destruct (seeds_good (seq 0 (length nodes))) as (F & Hne & HA).
  - intros i Hi. apply in_seq in Hi. lia.
  - intros i Hi. apply in_seq in Hi. apply HU. lia.
  - set (s := seeds le ge nodes projection (seq 0 (length nodes))) in *. assert (HT : tables [s]). { intros [|k] Hk; cbn in Hk; [|lia]. cbn [nth]. split; [|exact F]. apply Hne. intros E. apply (f_equal (@length _)) in E. rewrite seq_length in E. cbn in E. lia. }
    destruct (grow_good (length nodes) eq_refl (length rest) [s] HT) as [GT GL]; [cbn; lia|rewrite EN; reflexivity| |].
    { intros i Hi. cbn [nth]. apply HA. apply in_seq. lia. }
    rewrite last_nth, GL. destruct (GT (length nodes - 1)%nat ltac:(lia)) as [N1 N2]. destruct (nth (length nodes - 1) _ []) as [|pb t]; [congruence|].
    inversion N2 as [|? ? [Np Gp] _]; subst. destruct (pr_plans pb) as [|p ps]; [congruence|].
    exists (fold_left (fun best p => if better p best then p else best) ps p). split; [reflexivity|]. destruct (Gp _ (fold_best ps p)) as (P1 & L1 & S1). split; [exact P1|].
    unfold complete. destruct (planned_relations nodes projection _ P1) as [PN PB]. apply NoDup_Permutation_bis; [exact PN|rewrite seq_length; lia|].
    intros i Hi. apply in_seq. specialize (PB i Hi). lia.
Qed.
End Gen.
