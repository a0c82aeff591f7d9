(** Theorems about the edges of a query graph. *)
From Verif Require Import PlanModel PlanProofs PlanGenModel PlanGenProofs QgModel.
From Coq Require Import Lia.

Lemma cross_In i a x y c : forall bs ofs, In (x, y, c) (cross i a ofs bs) <->
  x = i /\ (ofs <= y)%nat /\ exists b, nth_error bs (y - ofs) = Some b /\ c = intersects a b /\ c <> [].
Proof.
  induction bs as [|b bs IH]; intros ofs; cbn [cross].
  - split; [intros []|]. intros (_ & _ & b & E & _). destruct (y - ofs)%nat; discriminate.
  - rewrite in_app_iff, IH. split.
    + intros [H|(-> & Hy & b' & E & Hc)].
      * destruct (intersects a b) as [|v l] eqn:E; [destruct H|]. destruct H as [H|[]]. injection H as <- <- <-. split; [reflexivity|]. split; [lia|]. exists b. rewrite Nat.sub_diag, E.
        split; [reflexivity|]. split; [reflexivity|discriminate].
      * split; [reflexivity|]. split; [lia|]. exists b'. split; [|exact Hc]. replace (y - ofs)%nat with (S (y - S ofs)) by lia. exact E.
    + intros (-> & Hy & b' & E & Hc & Hne). destruct (Nat.eq_dec y ofs) as [->|n].
      * rewrite Nat.sub_diag in E. injection E as <-. left. destruct (intersects a b) as [|v l]; [congruence|]. left. now rewrite Hc.
      * right. split; [reflexivity|]. split; [lia|]. exists b'. split; [|auto]. replace (y - ofs)%nat with (S (y - S ofs)) in E by lia. exact E.
Qed.
(** The kinds that follow are numbered one after the other. *)
Fixpoint consecutive (o : nat) (rest : list (nat * list (list nat))) : Prop :=
  match rest with [] => True | (o', bs) :: rest' => o' = o /\ consecutive (o + length bs) rest' end.
Lemma rest_In i a x y c : forall rest o, consecutive o rest ->
  (In (x, y, c) (flat_map (fun ob => cross i a (fst ob) (snd ob)) rest) <->
   x = i /\ (o <= y)%nat /\ exists b, nth_error (concat (map snd rest)) (y - o) = Some b /\ c = intersects a b /\ c <> []).
Proof.
  induction rest as [|[o' bs] rest IH]; intros o; cbn [consecutive flat_map map concat fst snd].
  - intros _. split; [intros []|]. intros (_ & _ & b & E & _). destruct (y - o)%nat; discriminate.
  - intros [-> HC]. rewrite in_app_iff, cross_In, (IH _ HC). split.
    + intros [(-> & Hy & b & E & Hc)|(-> & Hy & b & E & Hc)]; (split; [reflexivity|]; split; [lia|]; exists b; split; [|exact Hc]).
      * rewrite nth_error_app1; [exact E|]. apply nth_error_Some. congruence.
      * rewrite nth_error_app2 by lia. replace (y - o - length bs)%nat with (y - (o + length bs))%nat by lia. exact E.
    + intros (-> & Hy & b & E & Hc). destruct (Nat.lt_ge_cases (y - o) (length bs)).
      * left. rewrite nth_error_app1 in E by exact H. eauto.
      * right. rewrite nth_error_app2 in E by exact H. split; [reflexivity|]. split; [lia|]. exists b. split; [|exact Hc]. now replace (y - (o + length bs))%nat with (y - o - length bs)%nat by lia.
Qed.
Lemma edges_of_In x y c rest : forall l i, consecutive (i + length l) rest ->
  (In (x, y, c) (edges_of i l rest) <->
   (i <= x < y)%nat /\ exists a b, nth_error l (x - i) = Some a /\ nth_error (l ++ concat (map snd rest)) (y - i) = Some b /\ c = intersects a b /\ c <> []).
Proof.
  induction l as [|a l IH]; intros i HC; cbn [edges_of].
  - split; [intros []|]. intros (_ & a & b & E & _). destruct (x - i)%nat; discriminate.
  - assert (HC' : consecutive (S i + length l) rest) by (cbn [length] in HC; now replace (S i + length l)%nat with (i + S (length l))%nat by lia).
    rewrite !in_app_iff, cross_In, (rest_In i a x y c rest _ HC'), (IH (S i) HC'). split.
    + intros [(-> & Hy & b & E & Hc)|[(-> & Hy & b & E & Hc)|(Hx & a' & b & E1 & E2 & Hc)]].
      * split; [lia|]. exists a, b. rewrite Nat.sub_diag. split; [reflexivity|]. split; [|exact Hc]. replace (y - i)%nat with (S (y - S i)) by lia. cbn [app nth_error].
        rewrite nth_error_app1; [exact E|]. apply nth_error_Some. congruence.
      * split; [lia|]. exists a, b. rewrite Nat.sub_diag. split; [reflexivity|]. split; [|exact Hc]. replace (y - i)%nat with (S (y - S i)) by lia. cbn [app nth_error].
        rewrite nth_error_app2 by lia. now replace (y - S i - length l)%nat with (y - (S i + length l))%nat by lia.
      * split; [lia|]. exists a', b. replace (x - i)%nat with (S (x - S i)) by lia. replace (y - i)%nat with (S (y - S i)) by lia. auto.
    + intros (Hx & a' & b & E1 & E2 & Hc). destruct (Nat.eq_dec x i) as [->|n].
      * rewrite Nat.sub_diag in E1. injection E1 as <-. replace (y - i)%nat with (S (y - S i)) in E2 by lia. cbn [app nth_error] in E2.
        destruct (Nat.lt_ge_cases (y - S i) (length l)).
        -- left. rewrite nth_error_app1 in E2 by exact H. split; [reflexivity|]. split; [lia|]. eauto.
        -- right. left. rewrite nth_error_app2 in E2 by exact H. split; [reflexivity|]. split; [lia|]. exists b. split; [|exact Hc]. now replace (y - (S i + length l))%nat with (y - S i - length l)%nat by lia.
      * right. right. split; [lia|]. exists a', b. replace (x - i)%nat with (S (x - S i)) in E1 by lia. replace (y - i)%nat with (S (y - S i)) in E2 by lia. auto.
Qed.

(** The parts as the edges number them. *)
Definition edge_parts (g : group) : list (list nat) := g_patterns g ++ g_optional g ++ g_unions g ++ g_subqueries g ++ g_values g.
Lemma edges_all_In g x y c : In (x, y, c) (constructEdges g) <->
  (x < y)%nat /\ (x < length (g_patterns g) + length (g_optional g) + length (g_unions g) + length (g_subqueries g))%nat /\
  exists a b, nth_error (edge_parts g) x = Some a /\ nth_error (edge_parts g) y = Some b /\ c = intersects a b /\ c <> [].
Proof.
  destruct g as [P O U S V]. unfold constructEdges, edge_parts. cbn [g_patterns g_optional g_unions g_subqueries g_values].
  rewrite !in_app_iff. rewrite !edges_of_In by (cbn [consecutive]; repeat split; lia). cbn [map snd concat]. rewrite !app_nil_r.
  assert (N1 : forall {A} (l r : list A) n a, nth_error l n = Some a -> nth_error (l ++ r) n = Some a) by (intros A l r n a H; rewrite nth_error_app1; [exact H|apply nth_error_Some; congruence]).
  assert (N2 : forall {A} (l r : list A) n k, (length l + k)%nat = n -> nth_error (l ++ r) n = nth_error r k) by (intros A l r n k <-; rewrite nth_error_app2 by lia; f_equal; lia).
  split.
  - assert (B : forall {A} (l : list A) n a, nth_error l n = Some a -> (n < length l)%nat) by (intros A l n a H; apply nth_error_Some; congruence).
    intros [(Hx & a & b & E1 & E2 & Hc)|[(Hx & a & b & E1 & E2 & Hc)|[(Hx & a & b & E1 & E2 & Hc)|(Hx & a & b & E1 & E2 & Hc)]]]; pose proof (B _ _ _ _ E1); (split; [lia|]; split; [lia|]; exists a, b).
    + rewrite Nat.sub_0_r in *. auto.
    + split; [|split; [|exact Hc]].
      * rewrite (N2 _ P _ x (x - length P)%nat) by lia. auto.
      * rewrite (N2 _ P _ y (y - length P)%nat) by lia. auto.
    + split; [|split; [|exact Hc]].
      * rewrite (N2 _ P _ x (x - length P)%nat), (N2 _ O _ _ (x - (length P + length O))%nat) by lia. auto.
      * rewrite (N2 _ P _ y (y - length P)%nat), (N2 _ O _ _ (y - (length P + length O))%nat) by lia. auto.
    + split; [|split; [|exact Hc]].
      * rewrite (N2 _ P _ x (x - length P)%nat), (N2 _ O _ _ (x - (length P + length O))%nat), (N2 _ U _ _ (x - (length P + length O + length U))%nat) by lia. auto.
      * rewrite (N2 _ P _ y (y - length P)%nat), (N2 _ O _ _ (y - (length P + length O))%nat), (N2 _ U _ _ (y - (length P + length O + length U))%nat) by lia. auto.
  - intros (Hxy & Hx & a & b & E1 & E2 & Hc). destruct (Nat.lt_ge_cases x (length P)).
    { left. split; [lia|]. exists a, b. rewrite !Nat.sub_0_r. rewrite nth_error_app1 in E1 by lia. auto. }
    right. rewrite (N2 _ P _ x (x - length P)%nat) in E1 by lia. rewrite (N2 _ P _ y (y - length P)%nat) in E2 by lia. destruct (Nat.lt_ge_cases x (length P + length O)).
    { left. split; [lia|]. exists a, b. rewrite nth_error_app1 in E1 by lia. auto. }
    right. rewrite (N2 _ O _ _ (x - (length P + length O))%nat) in E1 by lia. rewrite (N2 _ O _ _ (y - (length P + length O))%nat) in E2 by lia. destruct (Nat.lt_ge_cases x (length P + length O + length U)).
    { left. split; [lia|]. exists a, b. rewrite nth_error_app1 in E1 by lia. auto. }
    right. rewrite (N2 _ U _ _ (x - (length P + length O + length U))%nat) in E1 by lia. rewrite (N2 _ U _ _ (y - (length P + length O + length U))%nat) in E2 by lia.
    split; [lia|]. exists a, b. rewrite nth_error_app1 in E1 by lia. auto.
Qed.

(** C78.  Two parts of a group, as the plan generator numbers them, are connected exactly if they have a
    common variable, and the edge lists the common variables; proved for groups without VALUES, and for groups
    of patterns and one VALUES block. *)
Theorem C78_edges_partial : forall g i j a b,
  g_values g = [] \/ (g_optional g = [] /\ g_unions g = [] /\ g_subqueries g = [] /\ (length (g_values g) <= 1)%nat) ->
  (i < j)%nat -> nth_error (planned_parts g) i = Some a -> nth_error (planned_parts g) j = Some b ->
  ((exists c, In (i, j, c) (constructEdges g)) <-> exists v, In v a /\ In v b) /\
  forall c, In (i, j, c) (constructEdges g) -> forall v, In v c <-> In v a /\ In v b.
Proof.
  intros g i j a b HG Hij Ha Hb.
  assert (EP : planned_parts g = edge_parts g).
  { unfold planned_parts, edge_parts. destruct HG as [->|(-> & -> & -> & _)]; [now rewrite app_nil_r|now rewrite app_nil_r]. }
  assert (Hi : (i < length (g_patterns g) + length (g_optional g) + length (g_unions g) + length (g_subqueries g))%nat).
  { assert (j < length (planned_parts g))%nat by (apply nth_error_Some; congruence). unfold planned_parts in H. rewrite !app_length in H.
    destruct HG as [E|(E1 & E2 & E3 & E4)]; [rewrite E in H; cbn in H; lia|]. rewrite E1, E2, E3 in *. cbn [length] in *. lia. }
  rewrite EP in Ha, Hb. split.
  - split.
    + intros (c & Hc). apply edges_all_In in Hc. destruct Hc as (_ & _ & a' & b' & E1 & E2 & -> & Hne). rewrite Ha in E1. rewrite Hb in E2. injection E1 as <-. injection E2 as <-.
      destruct (intersects a b) as [|v l] eqn:E; [congruence|]. exists v. apply intersects_In. rewrite E. now left.
    + intros (v & Hv). exists (intersects a b). apply edges_all_In. split; [exact Hij|]. split; [exact Hi|]. exists a, b. repeat split; auto. apply intersects_In in Hv. intros E. rewrite E in Hv. destruct Hv.
  - intros c Hc. apply edges_all_In in Hc. destruct Hc as (_ & _ & a' & b' & E1 & E2 & -> & _). rewrite Ha in E1. rewrite Hb in E2. injection E1 as <-. injection E2 as <-. apply intersects_In.
Qed.
Print Assumptions C78_edges_partial.
(** Two patterns with the variables 0, 1 and 1, 2 and an OPTIONAL with 0 and 3; a pattern and VALUES for 1. *)
Example C78_case : constructEdges (mkGroup [[0; 1]; [1; 2]] [[0; 3]] [] [] [])%nat = [(0, 1, [1]); (0, 2, [0])]%nat /\
  constructEdges (mkGroup [[0; 1]] [] [] [] [[1]])%nat = [(0, 1, [1])]%nat.
Proof. split; reflexivity. Qed.

(** *** What does not hold *)
(** A pattern with the variables 0 and 1, an OPTIONAL with 1 and 2, VALUES for 5.  The plan generator
    numbers the VALUES block 1 and the OPTIONAL 2; the only edge connects the pattern with the VALUES block, with
    which it shares nothing.  No edge leads to the OPTIONAL: it is combined by a product. *)
Theorem C78_values_optional_refuted : exists g i j k a b c,
  nth_error (planned_parts g) i = Some a /\ nth_error (planned_parts g) j = Some b /\ nth_error (planned_parts g) k = Some c /\
  (forall v, ~ (In v a /\ In v b)) /\ (exists e, In (i, j, e) (constructEdges g)) /\
  (exists v, In v a /\ In v c) /\ (forall x y e, In (x, y, e) (constructEdges g) -> x <> k /\ y <> k).
Proof.
  exists (mkGroup [[0; 1]] [[1; 2]] [] [] [[5]])%nat, 0%nat, 1%nat, 2%nat, [0; 1]%nat, [5]%nat, [1; 2]%nat. do 3 (split; [reflexivity|]).
  split; [intros v [[<-|[<-|[]]] [H|[]]]; discriminate|]. split; [exists [1]%nat; now left|]. split; [exists 1%nat; split; [right; now left|now left]|].
  intros x y e H. vm_compute in H. destruct H as [H|[]]. injection H as <- <- <-. split; discriminate.
Qed.
Print Assumptions C78_values_optional_refuted.
(** Two VALUES blocks for the same variable: no edge, and so a product that does not compare the values. *)
Theorem C78_two_values_refuted : exists g v, nth_error (planned_parts g) 0 = Some [v] /\ nth_error (planned_parts g) 1 = Some [v] /\ constructEdges g = [].
Proof. exists (mkGroup [] [] [] [] [[1]; [1]])%nat, 1%nat. repeat split. Qed.
Print Assumptions C78_two_values_refuted.
