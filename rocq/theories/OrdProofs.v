(** Proofs about ORDER BY. *)
From Coq Require Import ZifyBool.
From Verif Require Import OpModel OpSpec OpProofs OpProofs4 OpProofs7 OpProps2.
From Verif Require Import PlanModel PlanSpec PlanProofs PlanProofs2 PlanProofs3 PlanProofs5 DistProofs.
Local Open Scope Z_scope.

Lemma add_sorted x s : StronglySorted lt s -> StronglySorted lt (add x s).
Proof.
  induction 1 as [|y s H IH HF]; cbn [add]; [repeat constructor|]. destruct (Nat.ltb_spec x y) as [Hl|Hl].
  - constructor; [now constructor|]. constructor; [exact Hl|]. eapply Forall_impl; [|exact HF]. intros z Hz. lia.
  - destruct (Nat.eqb_spec x y); [now constructor|]. constructor; [exact IH|]. rewrite Forall_forall in *. intros z Hz. apply add_In in Hz. destruct Hz as [->|Hz]; [lia|auto].
Qed.
Lemma addAll_sorted xs : forall s, StronglySorted lt s -> StronglySorted lt (addAll xs s).
Proof. induction xs as [|x xs IH]; intros s H; [exact H|]. apply IH, add_sorted, H. Qed.
Lemma addAll_nodup xs s : StronglySorted lt s -> NoDup (addAll xs s).
Proof.
  intros H. apply (addAll_sorted xs) in H. induction H as [|y l H IH HF]; constructor; auto. intros Hy. rewrite Forall_forall in HF. specialize (HF y Hy). lia.
Qed.

Lemma map_repeat {A B} (f : A -> B) x n : map f (repeat x n) = repeat (f x) n.
Proof. induction n as [|n IH]; [reflexivity|]. cbn [repeat map]. now rewrite IH. Qed.
Section Renamed.
Variable reg : nat -> nat.
Definition named (v : regs) : regs := fun x => v (reg x).
Lemma precedes_named lookup order (v v' : regs) : precedes lookup (map (fun xd => (reg (fst xd), snd xd)) order) v v' <-> precedes lookup order (named v) (named v').
Proof. induction order as [|[x d] order IH]; [reflexivity|]. cbn [map precedes fst snd]. unfold named at 1 2 3 4 5 6. rewrite IH. reflexivity. Qed.
Lemma precedes_irrefl lookup order (v : regs) : ~ precedes lookup order v v.
Proof. induction order as [|[x d] order IH]; cbn [precedes]; [auto|]. cbn zeta. rewrite lex_irrefl. intros [H|[_ H]]; [destruct d; discriminate|auto]. Qed.
Definition sols (L : list (regs * Z)) : list regs := flat_map (fun a => repeat (named (fst a)) (Z.to_nat (snd a))) L.
Lemma sols_rows L xs : map (fun s : regs => map s xs) (sols L) = expand (map reg xs) L.
Proof.
  unfold sols, expand. induction L as [|a L IH]; [reflexivity|]. cbn [flat_map]. rewrite map_app, IH. f_equal. etransitivity; [apply map_repeat|]. rewrite map_map. reflexivity.
Qed.
Lemma sols_sorted lookup order L : StronglySorted (fun a b : regs * Z => ~ precedes lookup (map (fun xd => (reg (fst xd), snd xd)) order) (fst b) (fst a)) L ->
  StronglySorted (fun a b : regs => ~ precedes lookup order b a) (sols L).
Proof.
  induction 1 as [|a L H IH HF]; [constructor|]. unfold sols. cbn [flat_map]. fold (sols L).
  assert (HA : Forall (fun b => ~ precedes lookup order b (named (fst a))) (sols L)).
  { rewrite Forall_forall in *. intros s Hs. unfold sols in Hs. apply in_flat_map in Hs. destruct Hs as (b & Hb & Hs). apply repeat_spec in Hs. subst s.
    intros Hp. apply (HF b Hb). now apply precedes_named. }
  induction (Z.to_nat (snd a)) as [|n IHn]; [exact IH|]. cbn [repeat app]. constructor; [exact IHn|]. apply Forall_app. split; [|exact HA].
  apply Forall_forall. intros s Hs. apply repeat_spec in Hs. subst s. apply precedes_irrefl.
Qed.
(** Sorting the rows of [L] with the registers of the variables [xs]. *)
Lemma sorted_rows sortf lookup fcmp V W fuel xs order L input : sorts sortf -> incl (map reg xs) V -> incl V W -> NoDup (map reg xs) -> (length L < fuel)%nat ->
  incl (map fst order) xs -> Forall (fun xd => uniform lookup (reg (fst xd)) L) order -> Answers V W L input ->
  exists out, Answers (map reg xs) W out (sort_op sortf lookup 0 fcmp fuel (map reg xs) (map (fun xd => (Some (reg (fst xd)), snd xd)) order) input) /\ (length out <= fuel)%nat /\
    StronglySorted (fun a b : regs => ~ precedes lookup order b a) (sols out) /\
    forall ys t, incl ys xs -> occurs (map reg ys) out t = occurs (map reg ys) L t.
Proof.
  intros Hs H1 H2 H3 H4 H5 H6 HA.
  destruct (C62_sort sortf lookup fcmp V W (map reg xs) fuel (map (fun xd => (reg (fst xd), snd xd)) order) L input Hs H1 H2 H3 H4) as (out & HO & HP & HSS); [|exact HA|].
  { apply Forall_map. rewrite Forall_forall in *. intros xd Hx. cbn [fst]. split; [apply in_map, H5, in_map, Hx|now apply H6]. }
  rewrite map_map in HO. exists out. split; [exact HO|]. split; [|split; [now apply sols_sorted|]].
  - apply Permutation_length in HP. unfold table in HP. rewrite !map_length in HP. eapply Nat.le_trans; [apply Nat.eq_le_incl; exact HP|]. apply Nat.lt_le_incl. exact H4.
  - intros ys t Hy. apply (same_occurs (map reg xs)); [now apply incl_map|]. apply occurs_same. intros t'.
    assert (EO : forall l : list (regs * Z), occurs (map reg xs) l t' = fold_right (fun (e : list Z * Z) n => (if values_dec (fst e) t' then snd e else 0) + n) 0 (table (map reg xs) l)).
    { intros l. induction l as [|a l IH]; [reflexivity|]. rewrite occurs_cons, IH. reflexivity. }
    rewrite !EO. clear - HP. induction HP; cbn [fold_right]; lia.
Qed.
End Renamed.
