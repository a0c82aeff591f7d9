(** Proofs about plans: the solutions of patterns. *)
From Coq Require Import ZifyBool.
From Verif Require Import OpSpec OpProofs OpHashProofs OpHashProofs2.
From Verif Require Import PlanModel PlanSpec PlanProofs.
Local Open Scope Z_scope.

Lemma vars_app ps qs : vars (ps ++ qs) = vars ps ++ vars qs.
Proof. apply flat_map_app. Qed.
Lemma val_agree s s' t : agree (term_vars t) s s' -> val s t = val s' t.
Proof. destruct t as [v|c]; intros H; [apply H; now left|reflexivity]. Qed.
Lemma instance_agree s s' n : agree (pattern_vars n) s s' -> instance s n = instance s' n.
Proof.
  unfold pattern_vars. rewrite !agree_app. intros (H1 & H2 & H3). unfold instance. now rewrite (val_agree s s'), (val_agree s s' (n_p n)), (val_agree s s' (n_o n)).
Qed.
Lemma vars_In ps n : In n ps -> incl (pattern_vars n) (vars ps).
Proof. intros H v Hv. apply in_flat_map. eauto. Qed.
Lemma solves_agree U ps s s' : agree (vars ps) s s' -> solves U ps s -> solves U ps s'.
Proof. intros A H n Hn. rewrite <- (instance_agree s s'); [auto|]. eapply agree_incl; [|exact A]. now apply vars_In. Qed.
Lemma solutions_sound U ps S s : solutions U ps S -> In s S -> solves U ps s.
Proof. intros [_ H] Hs. apply H. exists s. split; [exact Hs|apply agree_refl]. Qed.

Lemma sum_perm {A} (f : A -> Z) l l' : Permutation l l' -> sumZ f l = sumZ f l'.
Proof. induction 1; rewrite ?sumZ_cons in *; try lia; congruence. Qed.
Lemma keys_In U ps S s : solutions U ps S -> (solves U ps s <-> In (map s (vars ps)) (map (fun s => map s (vars ps)) S)).
Proof.
  intros [_ H]. rewrite (H s), in_map_iff. split; intros (s' & A & B); exists s'.
  - split; [|exact A]. now apply map_eq_agree.
  - split; [exact B|]. now apply map_eq_agree.
Qed.
Lemma keys_solve U ps S k : solutions U ps S -> In k (map (fun s => map s (vars ps)) S) -> exists s, k = map s (vars ps) /\ solves U ps s.
Proof. intros H Hk. apply in_map_iff in Hk. destruct Hk as (s & <- & Hs). exists s. split; [reflexivity|]. eapply solutions_sound; eauto. Qed.
(** Any two lists of the solutions give the same sums. *)
Lemma solutions_unique U ps S S' w : solutions U ps S -> solutions U ps S' -> respects (vars ps) w -> sumZ w S = sumZ w S'.
Proof.
  intros H H' Hw.
  set (u := fun k => match find (fun s : nat -> Z => if values_dec (map s (vars ps)) k then true else false) (S ++ S') with Some s => w s | None => 0 end).
  assert (Hu : forall s, In s (S ++ S') -> w s = u (map s (vars ps))).
  { intros s Hs. unfold u. destruct (find _ (S ++ S')) as [b|] eqn:E.
    - apply find_some in E. destruct E as [_ E]. destruct (values_dec _ _) as [E'|]; [|discriminate]. apply Hw. apply map_eq_agree. auto.
    - exfalso. apply (find_none _ _ E) in Hs. destruct (values_dec _ _); [discriminate|congruence]. }
  rewrite (sumZ_ext w (fun s => u (map s (vars ps))) S) by (intros s Hs; apply Hu, in_or_app; auto).
  rewrite (sumZ_ext w (fun s => u (map s (vars ps))) S') by (intros s Hs; apply Hu, in_or_app; auto).
  rewrite <- !(sumZ_map (fun s : nat -> Z => map s (vars ps)) u). apply sum_perm. apply NoDup_Permutation; [apply H|apply H'|].
  intros k. split; intros Hk.
  - destruct (keys_solve _ _ _ _ H Hk) as (s & -> & Hs). now apply (keys_In _ _ _ _ H').
  - destruct (keys_solve _ _ _ _ H' Hk) as (s & -> & Hs). now apply (keys_In _ _ _ _ H).
Qed.

(** ** Joins *)
Definition compat (C : list nat) (s s' : nat -> Z) : bool := forallb (fun v => s v =? s' v) C.
Definition merged (C X : list nat) (S1 S2 : list (nat -> Z)) : list (nat -> Z) :=
  flat_map (fun s => map (beside X s) (filter (compat C s) S2)) S1.
Lemma compat_iff C s s' : compat C s s' = true <-> agree C s s'.
Proof. unfold compat. rewrite forallb_forall. split; intros H v Hv; specialize (H v Hv); lia. Qed.
Lemma NoDup_app_intro {A} (l l' : list A) : NoDup l -> NoDup l' -> (forall x, In x l -> ~ In x l') -> NoDup (l ++ l').
Proof.
  intros H H' D. induction H as [|x l N _ IH]; [exact H'|]. cbn. constructor.
  - intros C. apply in_app_or in C. destruct C as [C|C]; [contradiction|]. exact (D x (or_introl eq_refl) C).
  - apply IH. intros y Hy. apply D. now right.
Qed.
Lemma NoDup_map_flat {A B C} (h : B -> C) (f : A -> list B) l :
  NoDup l -> (forall a, In a l -> NoDup (map h (f a))) ->
  (forall a a' b b', In a l -> In a' l -> In b (f a) -> In b' (f a') -> h b = h b' -> a = a') -> NoDup (map h (flat_map f l)).
Proof.
  induction 1 as [|a l N _ IH]; intros H1 H2; [constructor|]. cbn [flat_map]. rewrite map_app. apply NoDup_app_intro.
  - apply H1. now left.
  - apply IH; intros; [apply H1; now right|]. eapply H2; eauto; now right.
  - intros x Hx Hx'. apply in_map_iff in Hx, Hx'. destruct Hx as (b & <- & Hb). destruct Hx' as (b' & E & Hb'). apply in_flat_map in Hb'. destruct Hb' as (a' & Ha' & Hb').
    assert (a = a') by (eapply (H2 a a' b b'); eauto; [now left|now right]). subst. contradiction.
Qed.
Lemma NoDup_of_map {A B} (f : A -> B) l : NoDup (map f l) -> NoDup l.
Proof. apply NoDup_map_inv. Qed.
Lemma NoDup_map_inj {A B} (f : A -> B) l : NoDup (map f l) -> forall a b, In a l -> In b l -> f a = f b -> a = b.
Proof.
  induction l as [|x l IH]; cbn; intros H a b Ha Hb E; [destruct Ha|]. inversion H as [|? ? N H']; subst.
  destruct Ha as [<-|Ha], Hb as [<-|Hb]; auto.
  - exfalso. apply N. rewrite E. now apply in_map.
  - exfalso. apply N. rewrite <- E. now apply in_map.
Qed.
Lemma NoDup_map_of {A B} (f : A -> B) l : NoDup l -> (forall a b, In a l -> In b l -> f a = f b -> a = b) -> NoDup (map f l).
Proof.
  induction 1 as [|x l N _ IH]; intros H; [constructor|]. cbn. constructor.
  - intros C. apply in_map_iff in C. destruct C as (y & E & Hy). apply N. rewrite (H x y); auto; [now left|now right].
  - apply IH. intros; apply H; auto; now right.
Qed.
Lemma beside_in X a b x : In x X -> beside X a b x = a x.
Proof. intros H. unfold beside. destruct (in_dec _ _ _); tauto. Qed.
Lemma beside_out X a b x : ~ In x X -> beside X a b x = b x.
Proof. intros H. unfold beside. destruct (in_dec _ _ _); tauto. Qed.
Lemma beside_right X Y C s s' : (forall v, In v C <-> In v X /\ In v Y) -> compat C s s' = true -> agree Y (beside X s s') s'.
Proof.
  intros HC E v Hv. rewrite compat_iff in E. destruct (in_dec Nat.eq_dec v X) as [Hx|Hx]; [|now apply beside_out].
  rewrite beside_in by auto. apply E. now apply HC.
Qed.
Lemma solutions_join U ps qs C S1 S2 : (forall v, In v C <-> In v (vars ps) /\ In v (vars qs)) ->
  solutions U ps S1 -> solutions U qs S2 -> solutions U (ps ++ qs) (merged C (vars ps) S1 S2).
Proof.
  intros HC H1 H2. destruct H1 as [N1 H1'] eqn:E1. destruct H2 as [N2 H2'] eqn:E2. clear E1 E2. split.
  - rewrite vars_app. unfold merged. apply NoDup_map_flat.
    + apply (NoDup_of_map _ _ N1).
    + intros s Hs. rewrite map_map. apply NoDup_map_of; [apply NoDup_filter; apply (NoDup_of_map _ _ N2)|].
      intros a b Ha Hb E. apply filter_In in Ha, Hb. apply (NoDup_map_inj _ _ N2); try tauto. apply map_eq_agree. apply map_eq_agree in E. rewrite agree_app in E. destruct E as [_ E].
      intros v Hv. specialize (E v Hv). rewrite (beside_right _ (vars qs) C s a HC), (beside_right _ (vars qs) C s b HC) in E; tauto.
    + intros a a' b b' Ha Ha' Hb Hb' E. apply in_map_iff in Hb, Hb'. destruct Hb as (c & <- & _). destruct Hb' as (c' & <- & _).
      apply (NoDup_map_inj _ _ N1); auto. apply map_eq_agree. apply map_eq_agree in E. rewrite agree_app in E. destruct E as [E _].
      intros v Hv. specialize (E v Hv). rewrite !beside_in in E; auto.
  - intros s. rewrite vars_app. split.
    + intros H. assert (A1 : solves U ps s) by (intros n Hn; apply H, in_or_app; auto). assert (A2 : solves U qs s) by (intros n Hn; apply H, in_or_app; auto).
      apply H1' in A1. apply H2' in A2. destruct A1 as (s1 & I1 & A1). destruct A2 as (s2 & I2 & A2).
      assert (Hc : compat C s1 s2 = true). { apply compat_iff. intros v Hv. apply HC in Hv. rewrite A1, A2; tauto. }
      exists (beside (vars ps) s1 s2). split.
      * unfold merged. apply in_flat_map. exists s1. split; [exact I1|]. apply in_map, filter_In. auto.
      * apply agree_app. split; [intros v Hv; rewrite beside_in by auto; auto|]. eapply agree_trans; [|exact A2]. eapply beside_right; eauto.
    + intros (s' & Hs & A). unfold merged in Hs. apply in_flat_map in Hs. destruct Hs as (s1 & I1 & Hs). apply in_map_iff in Hs. destruct Hs as (s2 & <- & I2). apply filter_In in I2. destruct I2 as [I2 Hc].
      apply agree_app in A. destruct A as [A1 A2]. intros n Hn. apply in_app_or in Hn. destruct Hn as [Hn|Hn].
      * refine (solves_agree U ps s1 s _ _ n Hn); [|apply H1'; exists s1; split; [exact I1|apply agree_refl]].
        eapply agree_trans; [|exact A1]. intros v Hv. symmetry. now apply beside_in.
      * refine (solves_agree U qs s2 s _ _ n Hn); [|apply H2'; exists s2; split; [exact I2|apply agree_refl]].
        eapply agree_trans; [|exact A2]. apply agree_sym. eapply beside_right; eauto.
Qed.
Lemma filter_le {A} (f : A -> bool) l : (length (filter f l) <= length l)%nat.
Proof. induction l as [|x l IH]; [apply le_n|]. cbn. destruct (f x); cbn; lia. Qed.
Lemma merged_length C X S1 S2 : (length (merged C X S1 S2) <= length S1 * length S2)%nat.
Proof.
  unfold merged. induction S1 as [|s S1 IH]; [apply le_n|]. cbn [flat_map length Nat.mul]. rewrite app_length, map_length. apply Nat.add_le_mono; [apply filter_le|exact IH].
Qed.

(** ** One pattern *)
Definition comp (t : Z * Z * Z) (k : nat) : Z := match k with O => fst (fst t) | 1%nat => snd (fst t) | _ => snd t end.
Definition is_var (t : term) (v : nat) : bool := match t with Var x => (x =? v)%nat | Const _ => false end.
Definition read (n : node) (t : Z * Z * Z) : nat -> Z := fun v =>
  if is_var (slot n 0) v then comp t 0 else if is_var (slot n 1) v then comp t 1 else comp t 2.
Definition fits (n : node) (t : Z * Z * Z) : bool :=
  forallb (fun k => match slot n k with Const c => comp t k =? c | Var _ => true end) [0; 1; 2]%nat.
Lemma read_instance n t : NoDup (pattern_vars n) -> fits n t = true -> instance (read n t) n = t.
Proof.
  destruct n as [a b c], t as [[x y] z]. unfold pattern_vars, fits, instance, read, slot, comp. cbn [n_s n_p n_o forallb fst snd]. intros HN HF.
  destruct a as [a|a], b as [b|b], c as [c|c]; cbn [term_vars app val is_var] in *; rewrite ?Nat.eqb_refl;
  repeat match goal with H : NoDup (_ :: _) |- _ => inversion H; clear H; subst end; cbn [In] in *;
  repeat match goal with |- context [(?p =? ?q)%nat] => destruct (Nat.eqb_spec p q); [exfalso; intuition congruence|] end;
  repeat (f_equal; try lia).
Qed.
Lemma instance_fits s n : fits n (instance s n) = true.
Proof. destruct n as [[] [] []]; cbn; rewrite ?Z.eqb_refl; reflexivity. Qed.
Lemma read_agree s n : NoDup (pattern_vars n) -> agree (pattern_vars n) (read n (instance s n)) s.
Proof.
  intros HN v Hv. destruct n as [a b c]. unfold pattern_vars, read, slot, comp, instance in *. cbn [n_s n_p n_o fst snd] in *.
  repeat (apply in_app_or in Hv; destruct Hv as [Hv|Hv]).
  - destruct a; [|destruct Hv]. destruct Hv as [->|[]]. cbn. now rewrite Nat.eqb_refl.
  - destruct b; [|destruct Hv]. destruct Hv as [->|[]]. destruct a as [a|]; cbn; rewrite ?Nat.eqb_refl; [|reflexivity]. destruct (Nat.eqb_spec a v) as [->|]; [|reflexivity].
    exfalso. cbn in HN. inversion HN. cbn in *. tauto.
  - destruct c; [|destruct Hv]. destruct Hv as [->|[]].
    destruct a as [a|], b as [b|]; cbn; rewrite ?Nat.eqb_refl; try reflexivity;
    repeat match goal with |- context [(?p =? ?q)%nat] => destruct (Nat.eqb_spec p q) as [->|]; [exfalso; cbn in HN; repeat match goal with H : NoDup (_ :: _) |- _ => inversion H; clear H; subst end; cbn in *; tauto|] end; reflexivity.
Qed.
Lemma solutions_one U n : NoDup U -> NoDup (pattern_vars n) -> solutions U [n] (map (read n) (filter (fits n) U)).
Proof.
  intros HU HN. assert (EV : vars [n] = pattern_vars n) by (unfold vars; cbn; apply app_nil_r). split.
  - rewrite EV, map_map. apply NoDup_map_of; [now apply NoDup_filter|]. intros a b Ha Hb E. apply filter_In in Ha, Hb.
    rewrite <- (read_instance n a), <- (read_instance n b) by tauto. apply instance_agree. now apply map_eq_agree.
  - intros s. rewrite EV. split.
    + intros H. exists (read n (instance s n)). split; [|now apply read_agree]. apply in_map, filter_In. split; [apply H; now left|apply instance_fits].
    + intros (s' & Hs & A). apply in_map_iff in Hs. destruct Hs as (t & <- & Ht). apply filter_In in Ht. intros m [<-|[]].
      rewrite <- (instance_agree (read n t) s) by exact A. rewrite read_instance by tauto. tauto.
Qed.
Lemma solutions_nil U : solutions U [] [fun _ => 0].
Proof. split; [repeat constructor; intros []|]. intros s. split; [intros _; exists (fun _ => 0); split; [now left|intros v []]|intros _ n []]. Qed.
Lemma solutions_exist U : NoDup U -> forall ps, linear ps -> exists S, solutions U ps S /\ (length S <= length U ^ length ps)%nat.
Proof.
  intros HU. induction ps as [|n ps IH]; intros HL; [exists [fun _ => 0]; split; [apply solutions_nil|apply le_n]|].
  inversion HL as [|? ? Hn HL']; subst. destruct (IH HL') as (S & HS & LS).
  set (C := filter (fun v => mem v (vars ps)) (vars [n])).
  exists (merged C (vars [n]) (map (read n) (filter (fits n) U)) S). split.
  - apply (solutions_join U [n] ps C); auto using solutions_one. intros v. unfold C. rewrite filter_In, mem_In. reflexivity.
  - etransitivity; [apply merged_length|]. cbn [length Nat.pow]. apply Nat.mul_le_mono; [|exact LS]. rewrite map_length. apply filter_le.
Qed.
Lemma solutions_size U ps S : NoDup U -> linear ps -> solutions U ps S -> (length S <= length U ^ length ps)%nat.
Proof.
  intros HU HL HS. destruct (solutions_exist U HU ps HL) as (S' & HS' & L). assert (E := solutions_unique U ps S S' (fun _ => 1) HS HS' (fun _ _ _ => eq_refl)).
  assert (Len : forall l : list (nat -> Z), sumZ (fun _ => 1) l = Z.of_nat (length l)) by (induction l as [|x l IH]; [reflexivity|rewrite sumZ_cons, IH; cbn [length]; lia]).
  rewrite !Len in E. lia.
Qed.
