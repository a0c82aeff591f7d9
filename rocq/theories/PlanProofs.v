(** Proofs about plans: sums over rows, sets and maps, solutions. *)
From Coq Require Import ZifyBool.
From Verif Require Import OpSpec OpProofs OpHashProofs OpHashProofs2.
From Verif Require Import PlanModel PlanSpec.
Local Open Scope Z_scope.

(** ** Sums of weights that depend on some registers *)
Definition respects (X : list nat) (w : regs -> Z) : Prop := forall g h, agree X g h -> w g = w h.
Definition weigh (w : regs -> Z) (L : list (regs * Z)) : Z := sumZ (fun a => w (fst a) * snd a) L.
(** The same rows, as far as the registers [X] are concerned. *)
Definition same (X : list nat) (L R : list (regs * Z)) : Prop := forall w, respects X w -> weigh w L = weigh w R.

Lemma same_refl X L : same X L L.
Proof. intros w _. reflexivity. Qed.
Lemma same_trans X A B C : same X A B -> same X B C -> same X A C.
Proof. intros H1 H2 w Hw. now rewrite H1, H2. Qed.
Lemma same_sym X A B : same X A B -> same X B A.
Proof. intros H w Hw. symmetry. auto. Qed.
Lemma respects_incl X Y w : incl X Y -> respects X w -> respects Y w.
Proof. intros H Hw g h A. apply Hw. eapply agree_incl; eauto. Qed.
Lemma same_incl X Y A B : incl X Y -> same Y A B -> same X A B.
Proof. intros H HS w Hw. apply HS. eapply respects_incl; eauto. Qed.

Lemma map_eq_agree (V : list nat) (g h : regs) : map g V = map h V <-> agree V g h.
Proof.
  split.
  - intros E x Hx. induction V as [|y V IH]; [destruct Hx|]. cbn in E. injection E as E1 E2. destruct Hx as [<-|Hx]; auto.
  - intros A. apply map_ext_in. exact A.
Qed.
Lemma one_key (u : list Z -> Z) k c K : NoDup K -> In k K -> sumZ (fun x => u x * (if values_dec k x then c else 0)) K = u k * c.
Proof.
  induction 1 as [|x K N HK IH]; [intros []|]. intros [->|Hi]; rewrite sumZ_cons.
  - destruct (values_dec k k); [|congruence]. rewrite (sumZ_ext _ (fun _ => 0)); [rewrite sumZ_0; lia|].
    intros y Hy. destruct (values_dec k y) as [->|]; [contradiction|lia].
  - destruct (values_dec k x) as [->|]; [contradiction|]. rewrite IH; auto; lia.
Qed.
(** The sum of a list by keys. *)
Lemma by_keys (V : list nat) (u : list Z -> Z) (L : list (regs * Z)) : forall K, NoDup K -> (forall a, In a L -> In (map (fst a) V) K) ->
  sumZ (fun a : regs * Z => u (map (fst a) V) * snd a) L = sumZ (fun k => u k * occurs V L k) K.
Proof.
  induction L as [|a L IH]; intros K HK HL.
  - symmetry. erewrite sumZ_ext; [apply sumZ_0|]. intros k _. cbn. lia.
  - rewrite sumZ_cons, (IH K HK) by (intros b Hb; apply HL; now right).
    transitivity (sumZ (fun k => u k * (if values_dec (map (fst a) V) k then snd a else 0)) K + sumZ (fun k => u k * occurs V L k) K).
    2: { rewrite <- sumZ_plus. apply sumZ_ext. intros k _. rewrite (occurs_sum V (a :: L)), sumZ_cons, <- occurs_sum. symmetry. apply Z.mul_add_distr_l. }
    f_equal. symmetry. apply one_key; auto. apply HL. now left.
Qed.
Lemma occurs_same V L R : (forall t, occurs V L t = occurs V R t) -> same V L R.
Proof.
  intros H w Hw.
  set (u := fun k => match find (fun a : regs * Z => if values_dec (map (fst a) V) k then true else false) (L ++ R) with Some a => w (fst a) | None => 0 end).
  assert (Hu : forall a, In a (L ++ R) -> w (fst a) = u (map (fst a) V)).
  { intros a Ha. unfold u. destruct (find _ (L ++ R)) as [b|] eqn:E.
    - apply find_some in E. destruct E as [_ E]. destruct (values_dec _ _) as [E'|]; [|discriminate]. apply Hw. apply map_eq_agree. auto.
    - exfalso. apply (find_none _ _ E) in Ha. destruct (values_dec _ _); [discriminate|congruence]. }
  assert (HK : NoDup (nodup values_dec (map (fun a : regs * Z => map (fst a) V) (L ++ R)))) by apply NoDup_nodup.
  assert (HI : forall a, In a (L ++ R) -> In (map (fst a) V) (nodup values_dec (map (fun a : regs * Z => map (fst a) V) (L ++ R)))).
  { intros a Ha. apply nodup_In. now apply (in_map (fun a : regs * Z => map (fst a) V)). }
  unfold weigh.
  rewrite (sumZ_ext _ (fun a : regs * Z => u (map (fst a) V) * snd a) L) by (intros a Ha; rewrite Hu; auto; apply in_or_app; auto).
  rewrite (sumZ_ext _ (fun a : regs * Z => u (map (fst a) V) * snd a) R) by (intros a Ha; rewrite Hu; auto; apply in_or_app; auto).
  rewrite (by_keys V u L _ HK) by (intros a Ha; apply HI, in_or_app; auto).
  rewrite (by_keys V u R _ HK) by (intros a Ha; apply HI, in_or_app; auto).
  apply sumZ_ext. intros k _. now rewrite H.
Qed.
Lemma same_occurs X V L R t : incl V X -> same X L R -> occurs V L t = occurs V R t.
Proof.
  intros HV H. assert (E : forall A, occurs V A t = weigh (fun g => if values_dec (map g V) t then 1 else 0) A).
  { intros A. rewrite occurs_sum. unfold weigh. apply sumZ_ext. intros [g c] _. cbn [fst snd]. destruct (values_dec (map g V) t); lia. }
  rewrite !E. apply H. intros g h A. replace (map h V) with (map g V); [reflexivity|]. apply map_eq_agree. eapply agree_incl; eauto.
Qed.
Lemma same_filter X p L R : (forall g h c d, agree X g h -> p (g, c) = p (h, d)) -> same X L R -> same X (filter p L) (filter p R).
Proof.
  intros Hp H w Hw. assert (E : forall A, weigh w (filter p A) = weigh (fun g => if p (g, 0) then w g else 0) A).
  { intros A. unfold weigh. rewrite sumZ_filter. apply sumZ_ext. intros [g c] _. cbn [fst snd]. rewrite (Hp g g c 0 (agree_refl _ _)). destruct (p (g, 0)); lia. }
  rewrite !E. apply H. intros g h A. rewrite (Hp g h 0 0 A), (Hw g h A). reflexivity.
Qed.
Lemma weigh_pairs w X L R : weigh w (pairs X L (fun _ => R)) = sumZ (fun a => sumZ (fun b => w (beside X (fst a) (fst b)) * snd b) R * snd a) L.
Proof.
  unfold weigh, pairs. rewrite sumZ_flat_map. apply sumZ_ext. intros a _. rewrite sumZ_map. cbn [fst snd].
  induction R as [|b R IH]; [reflexivity|]. rewrite !sumZ_cons, IH. lia.
Qed.
Lemma same_pairs Xl Xr L L' R R' : disjoint Xr Xl -> same Xl L L' -> same Xr R R' -> same (Xl ++ Xr) (pairs Xl L (fun _ => R)) (pairs Xl L' (fun _ => R')).
Proof.
  intros HD HL HR w Hw. rewrite !weigh_pairs.
  transitivity (weigh (fun g => sumZ (fun b => w (beside Xl g (fst b)) * snd b) R) L'); [|unfold weigh; apply sumZ_ext; intros a _; f_equal].
  - rewrite <- HL; [reflexivity|]. intros g h A. apply sumZ_ext. intros b _. f_equal. apply Hw. intros x _. unfold beside. destruct (in_dec _ _ _); auto.
  - apply (HR (fun g => w (beside Xl (fst a) g))). intros g h A. apply Hw. intros x Hx. unfold beside. destruct (in_dec _ _ _); auto.
    apply in_app_or in Hx. destruct Hx as [Hx|Hx]; [contradiction|auto].
Qed.
Lemma weigh_pos L : Forall (fun a : regs * Z => 0 < snd a) L -> Z.of_nat (length L) <= weigh (fun _ => 1) L.
Proof. induction 1 as [|a L Ha _ IH]; [reflexivity|]. unfold weigh in *. rewrite sumZ_cons. cbn [length]. lia. Qed.

(** ** Sets and maps *)
Lemma mem_In x s : mem x s = true <-> In x s.
Proof.
  unfold mem. rewrite existsb_exists. split.
  - intros (y & H & E). apply Nat.eqb_eq in E. now subst.
  - intros H. exists x. split; [exact H|apply Nat.eqb_refl].
Qed.
Lemma mem_out x s : mem x s = false <-> ~ In x s.
Proof. rewrite <- mem_In. destruct (mem x s); intuition congruence. Qed.
Lemma add_In x y s : In y (add x s) <-> y = x \/ In y s.
Proof.
  induction s as [|z s IH]; cbn [add]; [cbn; intuition congruence|].
  destruct (Nat.ltb_spec x z); [cbn; intuition congruence|]. destruct (Nat.eqb_spec x z) as [->|]; [cbn; intuition congruence|].
  cbn [In]. rewrite IH. intuition.
Qed.
Lemma addAll_In xs : forall y s, In y (addAll xs s) <-> In y xs \/ In y s.
Proof.
  unfold addAll. induction xs as [|x xs IH]; intros y s; cbn [fold_left]; [cbn; intuition|]. rewrite IH, add_In. cbn [In]. intuition.
Qed.
Lemma bget_In v r b : bget v b = Some r -> In (v, r) b.
Proof. induction b as [|[x q] b IH]; cbn [bget]; [discriminate|]. destruct (Nat.eqb_spec x v) as [->|]; [intros [= <-]; now left|right; auto]. Qed.
Lemma bget_put v w r b : bget v (bput w r b) = if (v =? w)%nat then Some r else bget v b.
Proof.
  induction b as [|[x q] b IH]; cbn [bput bget].
  - rewrite Nat.eqb_sym. reflexivity.
  - destruct (Nat.ltb_spec w x); [|destruct (Nat.eqb_spec w x) as [->|]]; cbn [bget].
    + rewrite (Nat.eqb_sym w v). destruct (v =? w)%nat; reflexivity.
    + rewrite (Nat.eqb_sym x v). destruct (v =? x)%nat; reflexivity.
    + rewrite IH. destruct (Nat.eqb_spec x v) as [->|]; [|reflexivity]. destruct (Nat.eqb_spec v w); [congruence|reflexivity].
Qed.
Lemma bput_In v w r q b : In (v, q) (bput w r b) -> (v = w /\ q = r) \/ In (v, q) b.
Proof.
  induction b as [|[x p] b IH]; cbn [bput]; [cbn; intuition congruence|].
  destruct (w <? x)%nat; [cbn; intuition congruence|]. destruct (w =? x)%nat; [cbn; intuition congruence|]. cbn [In]. intuition.
Qed.
Definition keyed (b : bindings) : Prop := StronglySorted lt (map fst b).
Lemma keyed_put v r b : keyed b -> keyed (bput v r b).
Proof.
  unfold keyed. induction b as [|[x q] b IH]; cbn [bput map fst]; intros H; [repeat constructor|].
  inversion H as [|? ? H1 H2]; subst.
  destruct (Nat.ltb_spec v x) as [Hv|Hv]; [|destruct (Nat.eqb_spec v x) as [->|]]; cbn [map fst].
  - constructor; [exact H|]. constructor; [exact Hv|]. eapply Forall_impl; [|exact H2]. intros; cbn in *; lia.
  - exact H.
  - constructor; [auto|]. rewrite Forall_forall in *. intros y Hy. apply in_map_iff in Hy. destruct Hy as ([y' q'] & <- & Hy). cbn [fst].
    apply bput_In in Hy. destruct Hy as [[-> _]|Hy]; [lia|]. apply H2. apply in_map_iff. now exists (y', q').
Qed.
Lemma keyed_In v r b : keyed b -> In (v, r) b -> bget v b = Some r.
Proof.
  unfold keyed. induction b as [|[x q] b IH]; cbn [map fst bget]; intros H Hi; [destruct Hi|]. inversion H as [|? ? H1 H2]; subst.
  destruct Hi as [[= -> ->]|Hi]; [now rewrite Nat.eqb_refl|]. destruct (Nat.eqb_spec x v) as [->|]; [|auto].
  exfalso. rewrite Forall_forall in H2. specialize (H2 v). enough (v < v)%nat by lia. apply H2. apply in_map_iff. now exists (v, r).
Qed.
Lemma keyed_nodup b : keyed b -> NoDup (map fst b).
Proof.
  unfold keyed. induction 1 as [|x l _ IH Hf]; constructor; auto. intros C. rewrite Forall_forall in Hf. specialize (Hf x C). lia.
Qed.
