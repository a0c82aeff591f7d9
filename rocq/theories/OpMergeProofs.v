(** Proofs about the merge join: the rows as a function of the inputs, and one side of the join. *)
From Verif Require Export OpProofs7 OpMergeModel.
Local Open Scope Z_scope.

(** ** The rows *)
Section Merged.
Variables (lv rv : nat) (ltail : list nat) (lopt ropt : bool).
Local Notation X := (lv :: ltail).
Definition kl (a : regs * Z) : Z := fst a lv.
Definition kr (b : regs * Z) : Z := fst b rv.
Definition pr (a b : regs * Z) : regs * Z := (beside X (fst a) (fst b), snd a * snd b).
Definition nul (b : regs * Z) : regs * Z := (beside X (fun _ => null32) (fst b), snd b).
Definition nur (a : regs * Z) : regs * Z := (beside X (fst a) (fun _ => null32), snd a).
Definition nuls (B : list (regs * Z)) : list (regs * Z) := if lopt then map nul B else [].
Definition nurs (A : list (regs * Z)) : list (regs * Z) := if ropt then map nur A else [].
Fixpoint merged (A B : list (regs * Z)) : list (regs * Z) :=
  match A with
  | [] => nuls B
  | a :: A' =>
      nuls (filter (fun b => kr b <? kl a) B) ++
      match filter (fun b => kl a =? kr b) B with [] => nurs [a] | E => map (pr a) E end ++
      merged A' (if lopt then filter (fun b => kl a <? kr b) B else B)
  end.

Lemma filter_none {A} (p : A -> bool) l : Forall (fun x => p x = false) l -> filter p l = [].
Proof. induction 1 as [|x l H _ IH]; [reflexivity|]. cbn. rewrite H. exact IH. Qed.
Lemma filter_all {A} (p : A -> bool) l : Forall (fun x => p x = true) l -> filter p l = l.
Proof. induction 1 as [|x l H _ IH]; [reflexivity|]. cbn. rewrite H. f_equal. exact IH. Qed.

Lemma merged_lt a A b B : Forall (fun b => kl a < kr b) (b :: B) -> merged (a :: A) (b :: B) = nurs [a] ++ merged A (b :: B).
Proof.
  intros H. cbn [merged]. rewrite (filter_none (fun b => kr b <? kl a)), (filter_none (fun b => kl a =? kr b)).
  - replace (nuls []) with (@nil (regs * Z)) by (unfold nuls; destruct lopt; reflexivity). cbn [app]. f_equal. f_equal. destruct lopt; [|reflexivity].
    apply filter_all. eapply Forall_impl; [|exact H]. intros x Hx. apply Z.ltb_lt. exact Hx.
  - eapply Forall_impl; [|exact H]. intros x Hx. apply Z.eqb_neq. cbn beta in Hx. lia.
  - eapply Forall_impl; [|exact H]. intros x Hx. apply Z.ltb_ge. cbn beta in Hx. lia.
Qed.
Lemma merged_drop b : forall A B, lopt = false -> Forall (fun a => kl a <> kr b) A -> merged A (b :: B) = merged A B.
Proof.
  intros A B Ho H. revert B. induction H as [|a A Ha H IH]; intros B; cbn [merged].
  - unfold nuls. rewrite Ho. reflexivity.
  - unfold nuls. rewrite Ho. cbn [filter app]. destruct (Z.eqb_spec (kl a) (kr b)); [contradiction|]. f_equal. apply IH.
Qed.
Lemma merged_ext A : lopt = false -> forall B B', (forall a, In a A -> filter (fun b => kl a =? kr b) B = filter (fun b => kl a =? kr b) B') -> merged A B = merged A B'.
Proof.
  intros Ho. induction A as [|a A IHA]; intros B B' H; cbn [merged]; unfold nuls; rewrite Ho; [reflexivity|]. cbn [app].
  rewrite (H a (or_introl eq_refl)). f_equal. apply IHA. intros x Hx. apply H. right. exact Hx.
Qed.
Lemma merged_filter p A B : lopt = false -> (forall b, In b B -> p b = false -> Forall (fun a => kl a <> kr b) A) -> merged A (filter p B) = merged A B.
Proof.
  intros Ho H. apply merged_ext; [exact Ho|]. intros a Ha. induction B as [|b B IH]; [reflexivity|]. cbn [filter].
  assert (IH' := IH (fun x Hx => H x (or_intror Hx))). destruct (p b) eqn:E; cbn [filter].
  - rewrite IH'. reflexivity.
  - specialize (H b (or_introl eq_refl) E). rewrite Forall_forall in H. destruct (Z.eqb_spec (kl a) (kr b)) as [C|]; [exfalso; exact (H a Ha C)|exact IH'].
Qed.
Lemma merged_gt a A b B : kr b < kl a -> Forall (fun a' => kl a <= kl a') A -> merged (a :: A) (b :: B) = nuls [b] ++ merged (a :: A) B.
Proof.
  intros H HA. cbn [merged filter]. destruct (Z.ltb_spec (kr b) (kl a)); [|lia]. destruct (Z.eqb_spec (kl a) (kr b)); [lia|].
  destruct (Z.ltb_spec (kl a) (kr b)); [lia|]. unfold nuls. destruct lopt eqn:Eo; [reflexivity|]. cbn [app]. f_equal.
  apply merged_drop; [exact Eo|]. eapply Forall_impl; [|exact HA]. intros x Hx. cbn beta in Hx. lia.
Qed.
Lemma merged_eq a A b B : kl a = kr b -> Forall (fun x => kr b <= kr x) B ->
  merged (a :: A) (b :: B) = pr a b :: map (pr a) (filter (fun b => kl a =? kr b) B) ++
    merged A (if lopt then filter (fun b => kl a <? kr b) B else b :: B).
Proof.
  intros H HB. cbn [merged filter]. rewrite <- H. rewrite Z.eqb_refl, Z.ltb_irrefl.
  rewrite (filter_none (fun b => kr b <? kl a)); [|eapply Forall_impl; [|exact HB]; intros x Hx; apply Z.ltb_ge; cbn beta in Hx; lia].
  replace (nuls []) with (@nil (regs * Z)) by (unfold nuls; destruct lopt; reflexivity). cbn [app map]. reflexivity.
Qed.
(** The left side ended with the row [a], the right side with [b]. *)
Definition end_left (a : regs * Z) (B : list (regs * Z)) : list (regs * Z) :=
  map (pr a) (filter (fun b => kl a =? kr b) B) ++ nuls (filter (fun b => kl a <? kr b) B).
Definition end_right (b : regs * Z) (A : list (regs * Z)) : list (regs * Z) :=
  flat_map (fun a => if kl a =? kr b then [pr a b] else nurs [a]) A.
Lemma merged_end_left a b B : kl a = kr b -> Forall (fun x => kr b <= kr x) B -> merged [a] (b :: B) = pr a b :: end_left a B.
Proof.
  intros H HB. rewrite merged_eq by assumption. cbn [merged]. unfold end_left, nuls. destruct lopt; reflexivity.
Qed.
Lemma merged_nil A : merged A [] = nurs A.
Proof.
  induction A as [|a A IH]; cbn [merged filter].
  - unfold nuls, nurs. destruct lopt, ropt; reflexivity.
  - replace (if lopt then [] else []) with (@nil (regs * Z)) by (destruct lopt; reflexivity). rewrite IH.
    unfold nuls, nurs. destruct lopt, ropt; reflexivity.
Qed.
Lemma merged_end_right a A b : kl a = kr b -> (lopt = true -> ropt = false /\ Forall (fun x => kl x <> kr b) A) -> merged (a :: A) [b] = pr a b :: end_right b A.
Proof.
  intros H Hs. rewrite merged_eq by (auto using Forall_nil). cbn [filter map app]. f_equal. destruct lopt eqn:Eo.
  - destruct (Hs eq_refl) as [Hr HA]. rewrite merged_nil. unfold nurs, end_right. rewrite Hr. clear - HA Hr. induction HA as [|x A Hx _ IH]; [reflexivity|]. cbn [flat_map].
    destruct (Z.eqb_spec (kl x) (kr b)); [contradiction|]. replace (nurs [x]) with (@nil (regs * Z)) by (unfold nurs; rewrite Hr; reflexivity). exact IH.
  - clear - Eo. induction A as [|a A IH]; cbn [merged filter end_right flat_map]; unfold nuls; rewrite Eo; [reflexivity|]. cbn [app]. fold (end_right b A). rewrite <- IH.
    destruct (kl a =? kr b); reflexivity.
Qed.
End Merged.

(** ** One side *)
Section Side.
Variables (I : oper -> Prop) (V W X : list nat).
Hypothesis HV : incl V W.
Hypothesis HX : incl X V.
Hypothesis Hn : NoDup X.
(** The rows to come, when the registers are as the side left them. *)
Definition Fut (o : oper) (g : regs) (A : list (regs * Z)) : Prop := I o /\ Rows I V W (o_next o) (fun h => agree W h g) A.
(** The first row is in the registers. *)
Definition Cur (o : oper) (c : Z) (g : regs) (A : list (regs * Z)) : Prop :=
  match A with [] => False | a :: A' => Fut o g A' /\ agree X g (fst a) /\ c = snd a /\ 0 < snd a end.
(** The first row is in the shadow [sh]. *)
Definition Hid (o : oper) (sh : list Z) (g : regs) (A : list (regs * Z)) : Prop :=
  exists h c, sh = c :: map h X /\ Cur o c h A /\ (forall x, In x W -> ~ In x X -> g x = h x).
Lemma Fut_I o g A : Fut o g A -> I o.
Proof. intros H. apply H. Qed.
Lemma Cur_I o c g A : Cur o c g A -> I o.
Proof. destruct A; [contradiction|]. intros H. apply H. Qed.
Lemma Hid_I o sh g A : Hid o sh g A -> I o.
Proof. intros (h & c & _ & H & _). exact (Cur_I _ _ _ _ H). Qed.
Lemma Fut_agree o g g' A : agree W g' g -> Fut o g A -> Fut o g' A.
Proof. intros H [H1 H2]. split; [exact H1|]. eapply Rows_pre; [|exact H2]. intros h Hh. eapply agree_trans; eassumption. Qed.
Lemma Cur_agree o c g g' A : agree W g' g -> Cur o c g A -> Cur o c g' A.
Proof.
  destruct A as [|a A]; [contradiction|]. intros H (H1 & H2 & H3). split; [eapply Fut_agree; eassumption|]. split; [|exact H3].
  eapply agree_trans; [|exact H2]. eapply agree_incl; [|exact H]. eapply incl_tran; eassumption.
Qed.
Lemma Hid_agree o sh g g' A : (forall x, In x W -> ~ In x X -> g' x = g x) -> Hid o sh g A -> Hid o sh g' A.
Proof. intros H (h & c & E & H1 & H2). exists h, c. split; [exact E|]. split; [exact H1|]. intros x Hx Hx'. rewrite H by assumption. auto. Qed.
Lemma Hid_swap o sh g A : Hid o sh g A -> Cur o (hd 0 sh) (set_regs X (tl sh) g) A.
Proof.
  intros (h & c & -> & H1 & H2). cbn [hd tl]. eapply Cur_agree; [|exact H1]. intros x Hx.
  destruct (in_dec Nat.eq_dec x X) as [Hi|Hi]; [apply set_regs_vals; assumption|].
  rewrite <- (outside_set_regs X (map h X) g x Hi). auto.
Qed.
Lemma Cur_hide o c g g' A : outside X g g' -> Cur o c g A -> Hid o (c :: map g X) g' A.
Proof. intros H1 H2. exists g, c. split; [reflexivity|]. split; [exact H2|]. intros x _ Hx. symmetry. apply H1, Hx. Qed.
Lemma Fut_next o g A : Fut o g A -> exists c g1 o1, o_next o g = Some (c, g1, o1) /\ outside W g g1 /\ I o1 /\
  match A with [] => c = 0 | a :: A' => c = snd a /\ 0 < c /\ Cur o1 c g1 A end.
Proof.
  intros [H1 H2]. rewrite Rows_Got in H2. specialize (H2 g (agree_refl _ _)). destruct A as [|[v c] A].
  - destruct H2 as (g1 & o1 & E & O & HI). exists 0, g1, o1. auto.
  - destruct H2 as (Hc & g1 & o1 & E & Ag & O & HI & HR). exists c, g1, o1. split; [exact E|]. split; [exact O|]. split; [exact HI|]. split; [reflexivity|]. split; [exact Hc|].
    cbn [Cur fst snd]. split; [split; assumption|]. split; [|auto]. eapply agree_incl; eassumption.
Qed.
Lemma set_all_outside v g : outside X g (set_all X v g).
Proof. intros x Hx. rewrite set_all_spec. destruct (in_dec Nat.eq_dec x X); [contradiction|reflexivity]. Qed.
Lemma set_all_agree v g : agree X (set_all X v g) (fun _ => v).
Proof. intros x Hx. rewrite set_all_spec. destruct (in_dec Nat.eq_dec x X); [reflexivity|contradiction]. Qed.
End Side.
