(** Proofs about the flat tree: building the file from the tree and the .idx files. *)
From Coq Require Import Sorted Lia ZifyBool.
From Verif Require Import FlatModel TableSpec TableProofs FlatProofs.
Local Open Scope Z_scope.
Ltac Zify.zify_post_hook ::= Z.div_mod_to_equations.

Fixpoint ofold {A B} (f : B -> A -> option A) (l : list B) (a : A) : option A :=
  match l with [] => Some a | x :: r => do a <- f x a; ofold f r a end.

(** Term, strategy, file and position. *)
Definition ent : Type := Z * (Z * Z * Z).
Definition on_ent {A} (step : Z -> Z -> Z -> Z -> A -> option A) (e : ent) (a : A) : option A :=
  let '(k, (s, f, p)) := e in step k s f p a.
(** The loops go through the entries [l]. *)
Definition reads (g : graph) (t : ts) (l : list ent) : Prop :=
  forall A (step : Z -> Z -> Z -> Z -> A -> option A) a, fl_loop g t step a = ofold (on_ent step) l a.

Section Write.
Variables (g : graph) (junk : Z -> nat -> list Z) (M : list (Z * tc)) (E : nat -> list ent).
Hypothesis Hjunk : forall k i, length (junk k i) = 8%nat.
Hypothesis HM : StronglySorted Z.lt (map fst M).
Hypothesis HM0 : forall k v, In (k, v) M -> 0 <= k.
Hypothesis HEs : forall i, In i (order g) -> StronglySorted Z.lt (map fst (E i)).
Hypothesis HEin : forall i k x, In i (order g) -> In (k, x) (E i) -> exists v, In (k, v) M /\ 0 < fl_n v i.
Hypothesis HEall : forall k v i, In (k, v) M -> In i (order g) -> look k (E i) = None -> v i = None.
Hypothesis Hsome : forall k v, In (k, v) M -> match g with Labelled => exists i, (i < 6)%nat /\ fl_n v i <> 0 | _ => v 3%nat = None -> v 4%nat <> None end.

Definition cE (i : nat) (k : Z) : Z * Z * Z := match look k (E i) with Some x => x | None => (0, 0, 0) end.
Definition C0 (i : nat) (k : Z) : Z * Z * Z := if Nat.eqb i 3 then cE 3 k else (0, 0, 0).
Notation R := (rec g junk M C0).

Lemma in3 : In 3%nat (order g).
Proof. destruct g; cbn; auto. Qed.

Lemma record_rec k v s f p : look k M = Some v -> cE 3 k = (s, f, p) -> fl_record g junk k v s f p = R k.
Proof.
  intros Ev Ec. unfold fl_record, rec. rewrite Ev. f_equal. destruct g; cbn [order flat_map C0 Nat.eqb]; rewrite Ec, ?app_nil_r; reflexivity.
Qed.

Lemma gaps_rec a key : (forall k, a < k < key -> look k M = None) -> fl_gaps g a key = flat_map R (range (a + 1) key).
Proof.
  intros H. unfold fl_gaps, range. set (n := Z.to_nat (key - (a + 1))). assert (Hn : forall i, In i (seq 0 n) -> a < a + 1 + Z.of_nat i < key) by (intros i Hi; apply in_seq in Hi; lia).
  revert Hn. generalize (seq 0 n). induction l as [|i l IH]; intros Hn; cbn [flat_map map]; auto.
  rewrite IH by (intros j Hj; apply Hn; now right). f_equal. unfold rec. rewrite H by (apply Hn; now left). reflexivity.
Qed.

(** The rest of the tree's iterator holds the terms after [a]. *)
Definition rests (l : list (Z * tc)) (a : Z) : Prop :=
  -1 <= a /\ StronglySorted Z.lt (map fst l) /\ (forall k, a < k -> look k l = look k M) /\ (forall k v, In (k, v) l -> a < k /\ In (k, v) M).

Lemma rests_step k v l a : rests ((k, v) :: l) a -> a < k /\ look k M = Some v /\ (forall x, a < x < k -> look x M = None) /\ rests l k.
Proof.
  intros (Ha & Hs & Hl & Hi). destruct (Hi k v (or_introl eq_refl)) as [Hk Hin]. split; auto. split; [now apply look_sorted|]. split.
  - intros x Hx. rewrite <- Hl by lia. apply look_none. intros j y [Ej|Hj]; [injection Ej as -> ->; lia|]. pose proof (sorted_head _ _ _ _ _ Hs Hj). lia.
  - split; [pose proof (HM0 k v Hin); lia|]. split; [cbn in Hs; now apply StronglySorted_inv in Hs|]. split.
    + intros x Hx. rewrite <- Hl by lia. cbn [look]. rewrite (proj2 (Z.eqb_neq k x)) by lia. reflexivity.
    + intros x y Hy. split; [now apply (sorted_head _ _ _ _ _ Hs Hy)|]. now apply (Hi x y (or_intror Hy)).
Qed.

Lemma checked v k : In (k, v) M -> (negb (unlabeled g) && forallb (fun i => fl_n v i =? 0) [4; 3; 0; 1; 2; 5]%nat)%bool = false.
Proof.
  intros H. specialize (Hsome k v H). destruct g; cbn [unlabeled negb andb]; auto. destruct Hsome as (i & Hi & Hn).
  destruct (forallb _ _) eqn:Ef; auto. exfalso. apply Hn. rewrite forallb_forall in Ef. specialize (Ef i). rewrite Z.eqb_eq in Ef. apply Ef.
  cbn. lia.
Qed.

Lemma seek_ok key : forall l a out v, rests l a -> In (key, v) l -> (forall k, a < k < key -> look k (E 3%nat) = None) ->
  exists r, fw_seek g junk key l a out = Some (v, mkFw r key (out ++ flat_map R (range (a + 1) key))) /\ rests r key.
Proof.
  induction l as [|[tk w] l IH]; intros a out v Hr Hin HN; [destruct Hin|].
  destruct (rests_step _ _ _ _ Hr) as (Hk & Ew & Hg & Hr'). pose proof Hr as (Ha & Hs & Hl & Hi). destruct (Hi tk w (or_introl eq_refl)) as [_ HinM].
  cbn [fw_seek]. rewrite (checked _ _ HinM). unfold fl_fill. rewrite Z.max_r by lia. rewrite Z.eqb_refl. cbn [negb]. rewrite (gaps_rec a tk Hg).
  destruct Hin as [Ek|Hin].
  - injection Ek as -> ->. rewrite Z.ltb_irrefl. exists l. split; auto.
  - pose proof (sorted_head _ _ _ _ _ Hs Hin) as Hlt. rewrite (proj2 (Z.ltb_ge key tk)) by lia. rewrite (proj2 (Z.ltb_lt tk key)) by lia.
    rewrite (record_rec tk w) by (auto; unfold cE; now rewrite HN by lia).
    destruct (IH tk ((out ++ flat_map R (range (a + 1) tk)) ++ R tk) v Hr' Hin) as (r & Er & Hr2); [intros k Hkk; apply HN; lia|].
    exists r. split; auto. rewrite Er. do 3 f_equal. rewrite (range_app (a + 1) tk key) by lia. rewrite (range_cons tk key) by lia. rewrite flat_map_app. cbn [flat_map]. now rewrite <- !app_assoc.
Qed.

(** The state after term [a]. *)
Definition written (w : fw) : Prop := rests (fw_tree w) (fw_key w) /\ fw_out w = recs g junk M C0 (fw_key w + 1) /\ (fw_key w = -1 \/ exists v, In (fw_key w, v) M).

Lemma recs_more a b : -1 <= a -> a < b -> recs g junk M C0 (a + 1) ++ flat_map R (range (a + 1) b) ++ R b = recs g junk M C0 (b + 1).
Proof.
  intros Ha Hb. unfold recs. rewrite (range_app 0 (a + 1) (b + 1)) by lia. rewrite (range_app (a + 1) b (b + 1)), range_one by lia.
  rewrite !flat_map_app. cbn [flat_map]. now rewrite app_nil_r.
Qed.

Lemma first_ok : forall l w, written w -> StronglySorted Z.lt (map fst l) -> (forall k, fw_key w < k -> look k l = look k (E 3%nat)) ->
  (forall k x, In (k, x) l -> fw_key w < k /\ In (k, x) (E 3%nat)) ->
  exists w', ofold (on_ent (fw_step g junk)) l w = Some w' /\ written w' /\ (forall k, fw_key w' < k -> look k (E 3%nat) = None).
Proof.
  induction l as [|[k [[s f] p]] l IH]; intros w Hw Hs Hl Hi; cbn [ofold].
  - exists w. split; auto. split; auto. intros k Hk. rewrite <- Hl by auto. reflexivity.
  - destruct (Hi k _ (or_introl eq_refl)) as [Hk Hin]. destruct Hw as (Hr & Ho & _). destruct (HEin _ _ _ in3 Hin) as (v & Hv & Hn).
    pose proof Hr as (Ha & Hsr & Hlr & Hir).
    assert (Hvl : In (k, v) (fw_tree w)). { apply look_In. rewrite Hlr by auto. now apply look_sorted. }
    destruct (seek_ok k (fw_tree w) (fw_key w) (fw_out w) v Hr Hvl) as (r & Er & Hr').
    { intros x Hx. rewrite <- Hl by lia. apply look_none. intros j y [Ej|Hj]; [assert (j = k) by congruence; lia|]. pose proof (sorted_head _ _ _ _ _ Hs Hj). lia. }
    cbn [on_ent]. unfold fw_step. rewrite Er. cbn [fw_tree fw_key fw_out].
    assert (Ev : look k M = Some v) by now apply look_sorted.
    assert (Ec : cE 3 k = (s, f, p)) by (unfold cE; rewrite (look_sorted k (s, f, p) (E 3%nat)); auto; apply HEs, in3).
    rewrite (record_rec k v s f p Ev Ec).
    match goal with |- context [ofold _ l ?x] => set (w' := x) end.
    destruct (IH w') as (w2 & E2 & Hw2 & HN2).
    + split; [exact Hr'|]. unfold w'. cbn [fw_out fw_key]. split; [|eauto]. rewrite Ho, <- app_assoc. apply recs_more; [lia|lia].
    + cbn in Hs. now apply StronglySorted_inv in Hs.
    + unfold w'. cbn [fw_key]. intros x Hx. rewrite <- Hl by lia. cbn [look]. now rewrite (proj2 (Z.eqb_neq k x)) by lia.
    + unfold w'. cbn [fw_key]. intros x y Hxy. split; [now apply (sorted_head _ _ _ _ _ Hs Hxy)|]. now apply (Hi x y (or_intror Hxy)).
    + exists w2. auto.
Qed.

(** One more than the greatest term. *)
Fixpoint above (l : list (Z * tc)) (a : Z) : Z := match l with [] => a + 1 | (k, _) :: r => above r k end.

Lemma rest_ok : forall l a out, rests l a -> (forall k, a < k -> look k (E 3%nat) = None) -> out = recs g junk M C0 (a + 1) ->
  fw_rest g junk l a out = Some (recs g junk M C0 (above l a)).
Proof.
  induction l as [|[tk v] l IH]; intros a out Hr HN ->; cbn [fw_rest above]; auto.
  destruct (rests_step _ _ _ _ Hr) as (Hk & Ew & Hg & Hr'). pose proof Hr as (Ha & _ & _ & Hi). destruct (Hi tk v (or_introl eq_refl)) as [_ HinM].
  rewrite (HEall tk v 3%nat HinM in3) by (apply HN; lia).
  assert (Hu : (unlabeled g && (match v 4%nat with Some _ => false | None => true end))%bool = false).
  { pose proof (Hsome tk v HinM) as H. pose proof (HEall tk v 3%nat HinM in3 (HN tk Hk)) as H3. destruct g; cbn [unlabeled andb]; auto; destruct (v 4%nat); auto; exfalso; now apply (H H3). }
  rewrite Hu. unfold fl_fill. rewrite Z.max_r by lia. rewrite (gaps_rec a tk Hg).
  rewrite (record_rec tk v) by (auto; unfold cE; now rewrite HN by lia). apply IH; auto.
  - intros k Hkk. apply HN. lia.
  - rewrite <- app_assoc. apply recs_more; lia.
Qed.

Lemma above_max l : forall a k v, StronglySorted Z.lt (map fst l) -> In (k, v) l -> k < above l a.
Proof.
  induction l as [|[j x] l IH]; intros a k v Hs Hin; [destruct Hin|]. cbn [above].
  assert (Hmin : forall l a, StronglySorted Z.lt (map fst l) -> (forall j x, In (j, x) l -> a < j) -> a < above l a).
  { clear. induction l as [|[j x] l IH]; intros a Hs Ha; cbn [above]; [lia|]. pose proof (Ha j x (or_introl eq_refl)). enough (j < above l j) by lia. apply IH.
    - cbn in Hs. now apply StronglySorted_inv in Hs.
    - intros i y Hi. now apply (sorted_head _ _ _ _ _ Hs Hi). }
  destruct Hin as [Ej|Hin].
  - injection Ej as -> ->. apply Hmin; [cbn in Hs; now apply StronglySorted_inv in Hs|]. intros i y Hi. now apply (sorted_head _ _ _ _ _ Hs Hi).
  - eapply IH; eauto. cbn in Hs. now apply StronglySorted_inv in Hs.
Qed.
Lemma above_last l a : l <> [] -> exists k v, In (k, v) l /\ above l a = k + 1.
Proof.
  revert a. induction l as [|[j x] l IH]; intros a H; [congruence|]. cbn [above]. destruct l as [|y l]; [exists j, x; cbn; auto|].
  destruct (IH j) as (k & v & Hin & Ek); [discriminate|]. exists k, v. split; auto. now right.
Qed.

Definition top (n : Z) : Prop := (forall k v, In (k, v) M -> k < n) /\ exists v, In (n - 1, v) M.

Lemma above_top l a : rests l a -> M <> [] -> (a = -1 \/ exists v, In (a, v) M) -> top (above l a).
Proof.
  intros (Ha & Hs & Hl & Hi) Hne Hv.
  assert (Hmin : forall l a, StronglySorted Z.lt (map fst l) -> (forall j x, In (j, x) l -> a < j) -> a < above l a).
  { clear. induction l as [|[j x] l IH]; intros a Hs Ha; cbn [above]; [lia|]. pose proof (Ha j x (or_introl eq_refl)). enough (j < above l j) by lia. apply IH.
    - cbn in Hs. now apply StronglySorted_inv in Hs.
    - intros i y Hi. now apply (sorted_head _ _ _ _ _ Hs Hi). }
  split.
  - intros k v Hin. destruct (Z_lt_le_dec a k) as [Hk|Hk].
    + apply (above_max l a k v Hs). apply look_In. rewrite Hl by auto. now apply look_sorted.
    + enough (a < above l a) by lia. apply Hmin; auto. intros j x Hj. now apply (Hi j x).
  - destruct l as [|x l].
    + cbn [above]. replace (a + 1 - 1) with a by lia. destruct Hv as [-> |Hv]; auto. exfalso. destruct M as [|[k v] M']; [congruence|].
      pose proof (HM0 k v (or_introl eq_refl)). specialize (Hl k). cbn [look] in Hl. rewrite Z.eqb_refl in Hl. specialize (Hl ltac:(lia)). discriminate.
    + destruct (above_last (x :: l) a) as (k & v & Hin & ->); [discriminate|]. exists v. replace (k + 1 - 1) with k by lia. now apply (Hi k v).
Qed.

Lemma first_all t : reads g t (E 3%nat) -> M <> [] -> exists n, fl_first g junk t M = Some (recs g junk M C0 n) /\ top n.
Proof.
  intros HR Hne. unfold fl_first. rewrite HR.
  assert (H0 : rests M (-1)).
  { split; [lia|]. split; auto. split; auto. intros k v Hin. split; auto. pose proof (HM0 k v Hin). lia. }
  destruct (first_ok (E 3%nat) (mkFw M (-1) [])) as (w & -> & (Hr & Ho & Hv) & HN); cbn [fw_key fw_tree fw_out]; auto using HEs, in3.
  - split; [exact H0|]. cbn [fw_key fw_out]. split; auto.
  - intros k x Hin. split; auto. destruct (HEin _ _ _ in3 Hin) as (v & Hm & _). pose proof (HM0 k v Hm). lia.
  - exists (above (fw_tree w) (fw_key w)). split; [now apply rest_ok|]. now apply above_top.
Qed.

(** The coordinates after those of permutation [i] are set. *)
Definition with_perm (i : nat) (l : list ent) (C : nat -> Z -> Z * Z * Z) (j : nat) (k : Z) : Z * Z * Z :=
  if Nat.eqb j i then match look k l with Some x => x | None => C j k end else C j k.

Lemma other_fold n i : top n -> In i (order g) -> forall l C, StronglySorted Z.lt (map fst l) -> (forall k x, In (k, x) l -> exists v, In (k, v) M /\ 0 < fl_n v i) ->
  ofold (on_ent (fun key strat file pos raw => wr raw (key * sizeblock g + (off i + 5)) ([strat mod 256] ++ le 2 file ++ le 5 pos))) l (recs g junk M C n) =
  Some (recs g junk M (with_perm i l C) n).
Proof.
  intros [Ht _] Hi. induction l as [|[k [[s f] p]] l IH]; intros C Hs HI; cbn [ofold].
  - f_equal. apply recs_ext. intros j k Hj Hk. unfold with_perm. now destruct (Nat.eqb j i).
  - destruct (HI k _ (or_introl eq_refl)) as (v & Hv & Hn). cbn [on_ent].
    rewrite (write_one g junk M Hjunk C n k v i s f p); auto; [|split; [apply (HM0 k v Hv)|apply (Ht k v Hv)]|now apply look_sorted].
    rewrite IH.
    + f_equal. apply recs_ext. intros j x Hj Hx. unfold with_perm. destruct (Nat.eqb_spec j i) as [-> |]; cbn [andb]; auto. cbn [look].
      destruct (Z.eqb_spec k x) as [-> |Hkx].
      * rewrite Z.eqb_refl. rewrite look_none; auto. intros y z Hy. pose proof (sorted_head _ _ _ _ _ Hs Hy). lia.
      * rewrite (proj2 (Z.eqb_neq x k)) by lia. reflexivity.
    + cbn in Hs. now apply StronglySorted_inv in Hs.
    + intros x y Hxy. apply (HI x y). now right.
Qed.

Definition has_files (t : option ts) (l : list ent) : Prop := match t with Some t => reads g t l | None => l = [] end.

Lemma other_ok n i t o C : top n -> In i (order g) -> o = off i + 5 -> has_files t (E i) ->
  fl_other g o (sizeblock g) t (recs g junk M C n) = Some (recs g junk M (with_perm i (E i) C) n).
Proof.
  intros Ht Hi -> HF. destruct t as [t|]; cbn [fl_other has_files] in *.
  - rewrite HF. apply other_fold; auto. intros k x Hin. eapply HEin; eauto.
  - rewrite HF. f_equal. apply recs_ext. intros j k Hj Hk. unfold with_perm. now destruct (Nat.eqb j i).
Qed.

Lemma load_all files t3 : files 3%nat = Some t3 -> (forall i, In i (order g) -> has_files (files i) (E i)) -> M <> [] ->
  exists n, fl_load g junk files M = Some (Some (recs g junk M cE n)) /\ top n.
Proof.
  intros E3 HF Hne. pose proof (HF 3%nat in3) as H3. rewrite E3 in H3. destruct (first_all t3 H3 Hne) as (n & E1 & Ht). exists n. split; auto.
  unfold fl_load. rewrite E3, E1. assert (HO := fun i t o C => other_ok n i t o C Ht).
  assert (Hfin : forall C, (forall i k, In i (order g) -> C i k = cE i k) -> recs g junk M C n = recs g junk M cE n).
  { intros C HC. apply recs_ext. intros i k Hi _. auto. }
  destruct g eqn:Eg.
  - change 83 with (sizeblock Labelled).
    rewrite (HO 4%nat (files 4%nat) 23) by (try reflexivity; try (apply HF); cbn; auto 10).
    rewrite (HO 0%nat (files 0%nat) 36) by (try reflexivity; try (apply HF); cbn; auto 10).
    rewrite (HO 1%nat (files 1%nat) 49) by (try reflexivity; try (apply HF); cbn; auto 10).
    rewrite (HO 2%nat (files 2%nat) 62) by (try reflexivity; try (apply HF); cbn; auto 10).
    rewrite (HO 5%nat (files 5%nat) 75) by (try reflexivity; try (apply HF); cbn; auto 10).
    apply f_equal, f_equal, Hfin. intros i k Hi. cbn [order In] in Hi. repeat (destruct Hi as [<- |Hi]; [|]); try destruct Hi; cbn [with_perm Nat.eqb C0]; unfold cE; destruct (look k _); reflexivity.
  - change 31 with (sizeblock Directed). rewrite (HO 4%nat (files 4%nat) 23) by (try reflexivity; try (apply HF); cbn; auto 10).
    apply f_equal, f_equal, Hfin. intros i k Hi. cbn [order In] in Hi. repeat (destruct Hi as [<- |Hi]; [|]); try destruct Hi; cbn [with_perm Nat.eqb C0]; unfold cE; destruct (look k _); reflexivity.
  - apply f_equal, f_equal, Hfin. intros i k Hi. cbn [order In] in Hi. destruct Hi as [<- |[]]. reflexivity.
Qed.
End Write.
