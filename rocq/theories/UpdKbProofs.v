(** A loaded database with updates. *)
From Coq Require Import Sorted Permutation ZifyBool.
From Verif Require Export UpdKbModel UpdKbSpec KbProofs8.
From Verif Require Import QueryModel QuerySpec SortSpec InserterSpec InserterProps ItrProofs CompProofs ScanProofs ItrProps DiffProps.
Local Open Scope Z_scope.

(** ** Histories and patterns *)
Section Transfer.
Variables (f : triple -> triple) (P : triple -> Prop).
Hypothesis Hf : forall x y, f x = f y -> x = y.
Definition image (S S' : triple -> Prop) : Prop := forall x, S' x <-> exists t, S t /\ P t /\ f t = x.
Definition upd_image (u u' : bool * list triple) : Prop := fst u' = fst u /\ image (fun t => In t (snd u)) (fun x => In x (snd u')).

Lemma step_image S S' u u' : image S S' -> upd_image u u' -> image (step_set S u) (step_set S' u').
Proof.
  destruct u as [b l], u' as [b' l']. intros HS [E HU] x. unfold step_set. cbn [fst snd] in *. subst b'. pose proof (HS x) as H1. pose proof (HU x) as H2. cbv beta in H2. destruct b.
  - rewrite H1, H2. split.
    + intros [(t & Ht & Hp & <-) Hn]. exists t. split; [|auto]. split; auto. intros Hi. apply Hn. eauto.
    + intros (t & [Ht Hn] & Hp & <-). split; [eauto|]. intros (t' & Hi & _ & E'). apply Hf in E'. now subst t'.
  - rewrite H1, H2. split.
    + intros [(t & Ht & Hp & <-)|(t & Ht & Hp & <-)]; exists t; auto.
    + intros (t & [Ht|Ht] & Hp & <-); [left|right]; eauto.
Qed.
Lemma replay_image h h' : Forall2 upd_image h h' -> forall S S', image S S' -> image (replay S h) (replay S' h').
Proof. induction 1 as [|u u' h h' Hu HF IH]; intros S S' HS; [exact HS|]. cbn. apply IH. now apply step_image. Qed.
Lemma valid_image h h' : Forall2 upd_image h h' -> forall S S', image S S' -> valid_history S h -> valid_history S' h'.
Proof.
  induction 1 as [|u u' h h' Hu HF IH]; intros S S' HS HV; cbn in *; auto. destruct HV as [V1 V2]. split; [|eapply IH; [|exact V2]; now apply step_image].
  destruct u as [b l], u' as [b' l']. intros x Hx. destruct Hu as [E HU]. cbn [fst snd] in *. subst b'. apply HU in Hx. destruct Hx as (t & Ht & Hp & <-). specialize (V1 t Ht). destruct b.
  - apply HS. eauto.
  - intros Hx. apply HS in Hx. destruct Hx as (t' & Ht' & _ & E'). apply Hf in E'. now subst t'.
Qed.
End Transfer.

(** ** Additions on top of an iterator that need not count *)
Lemma combine_false so first P R : sorters_ok so -> P <> [] ->
  Forall (fun p => snd p <> [] /\ Ready false (snd p) (fst p) /\ sorted (snd p) /\ (0 <= first -> Forall (fun x => fst (fst x) = first) (snd p))) P ->
  sorted R -> Permutation R (contents P) ->
  exists o, overlay_combine so first (map fst P) = Some o /\ Yields false R o.
Proof.
  intros [Hs1 Hs2] Hne HP HsR HpR. destruct P as [|p [|q P]]; [contradiction| |].
  - inversion HP as [|? ? (_ & Hr & Hs & _) _]; subst. exists (fst p). split; [reflexivity|].
    assert (R = snd p) as ->. { apply sorted_perm_eq; auto. rewrite HpR. cbn. now rewrite app_nil_r. } apply Hr.
  - unfold overlay_combine. cbn [map]. change (fst p :: fst q :: map fst P) with (map fst (p :: q :: P)). destruct (0 <=? first) eqn:E.
    + assert (HG : Forall (good_child first) (p :: q :: P)).
      { eapply Forall_impl; [|exact HP]. intros r (H1 & H2 & H3 & H4). split; auto. split; auto. split; auto. apply H4. lia. }
      eexists. split; [reflexivity|]. apply Yields_weaken with (cnt := true).
      apply (new_comp_yields (sort_comp so) first (p :: q :: P) R Hs1 HG ltac:(discriminate) HsR HpR).
    + destruct (new_cscan_yields (sort_scan so) (sort_scan_ign so) (p :: q :: P) R) as (o & Ho & Hy); auto.
      { eapply Forall_impl; [|exact HP]. intros r (_ & H2 & H3 & _). split; auto. apply H2. }
      exists o. split; auto. now apply Yields_weaken with (cnt := true).
Qed.

Definition adding (h : list (bool * list elem)) : Prop := Forall (fun u => fst u = false) h.
Lemma replay_adds h : adding h -> forall S x, replay S h x <-> S x \/ In x (concat (map snd h)).
Proof.
  induction 1 as [|u h Hu Hh IH]; intros S x; cbn [replay map concat]; [cbn; tauto|]. change (replay S (u :: h) x) with (replay (step_set S u) h x).
  rewrite IH, in_app_iff. unfold step_set. rewrite Hu. tauto.
Qed.
Lemma adds_nodup h : adding h -> Forall (fun u => StronglySorted elt (snd u)) h -> forall (S : elem -> Prop) l, readable_history S h -> NoDup l -> (forall x, S x <-> In x l) ->
  NoDup (concat (map snd h) ++ l).
Proof.
  induction 1 as [|u h Hu Hh IH]; intros HS S l HR Hn Hl; cbn [map concat]; [exact Hn|]. apply Forall_cons_iff in HS. destruct HS as [H1 HS]. cbn in HR. rewrite Hu in HR. destruct HR as [R1 R2].
  apply (Permutation_NoDup (l := concat (map snd h) ++ (snd u ++ l))).
  - rewrite !app_assoc. apply Permutation_app_tail, Permutation_app_comm.
  - apply (IH HS _ _ R2).
    + assert (Hd : NoDup (snd u)) by now apply strict_NoDup. assert (Hdis : forall y, In y (snd u) -> ~ In y l) by (intros y Hy Hy2; apply (R1 y Hy), Hl; auto).
      revert Hd Hdis Hn. generalize (snd u). clear. intros l1. induction l1 as [|a l1 IH]; cbn; auto. intros Hd Hx Hn. inversion Hd as [|? ? Ha Hd1]; subst. constructor; auto.
      rewrite in_app_iff. intros [Hi|Hi]; [contradiction|]. eapply Hx; eauto.
    + intros x. rewrite in_app_iff. unfold step_set. rewrite Hu, Hl. tauto.
Qed.

Definition child (first : Z) (p : pitr * list elem) : Prop :=
  snd p <> [] /\ Ready false (snd p) (fst p) /\ sorted (snd p) /\ (0 <= first -> Forall (fun x => fst (fst x) = first) (snd p)).
Lemma adds_loop fuel so first h diffs : Forall2 (diff_ok first) h diffs -> adding h -> forall its out,
  exists its', overlay_loop fuel so first diffs (map fst its) out = Some (map fst (its ++ its'), out) /\ Forall (child first) its' /\ contents its' = concat (map snd h).
Proof.
  induction 1 as [|u [b di] h diffs (E & Ha & Hs) HF IH]; intros Hadd its out.
  - exists []. rewrite app_nil_r. split; [reflexivity|]. split; [constructor|reflexivity].
  - apply Forall_cons_iff in Hadd. destruct Hadd as [Hu Hadd]. cbn [fst snd] in *. rewrite Hu in E. subst b. destruct Ha as (Hy & Hso & Hk).
    destruct (Yields_poll _ _ _ Hy) as (d1 & E1 & Hr). cbn [overlay_loop]. rewrite E1. destruct (snd u) as [|x l] eqn:El; cbn [nonempty].
    + destruct (IH Hadd its out) as (its' & E' & HC & Hcon). exists its'. split; [exact E'|]. split; auto. cbn [map concat]. rewrite El. exact Hcon.
    + destruct (IH Hadd (its ++ [(d1, x :: l)]) out) as (its' & E' & HC & Hcon). exists ((d1, x :: l) :: its'). rewrite map_app in E'. cbn [map fst] in E'. split.
      * rewrite <- app_assoc in E'. exact E'.
      * split; [constructor; auto|cbn [map concat]; unfold contents in *; cbn [map concat snd]; now rewrite El, Hcon]. split; [discriminate|]. split; [|split; auto].
        destruct Hr as [Hr1 Hr2]. split; [now apply Yields_weaken with (cnt := true)|]. cbn [fst snd]. destruct Hr2 as (o2 & Ha & Hb & _ & Hd). exists o2. split; [exact Ha|]. split; [exact Hb|]. split; [discriminate|]. now apply Yields_weaken with (cnt := true).
Qed.

Lemma overlay_adds fuel so first base h diffs out : sorters_ok so -> Yields false base out -> StronglySorted elt base ->
  (0 <= first -> Forall (fun x => fst (fst x) = first) base) ->
  Forall2 (diff_ok first) h diffs -> adding h -> readable_history (fun x => In x base) h ->
  exists o R, overlay fuel so first diffs out = Some o /\ Yields false R o /\ StronglySorted elt R /\ (forall x, In x R <-> replay (fun y => In y base) h x).
Proof.
  intros Hso Hy Hsb Hk HF Hadd HR. destruct (adds_loop fuel so first h diffs HF Hadd [] out) as (its & E & HC & Hcon). cbn [map app] in E. unfold overlay. rewrite E.
  assert (HS : Forall (fun u => StronglySorted elt (snd u)) h). { clear - HF. induction HF as [|u d h diffs (_ & _ & H) HF IH]; constructor; auto. }
  pose proof (adds_nodup h Hadd HS _ base HR (strict_NoDup _ Hsb) ltac:(tauto)) as HN.
  assert (Hmem : forall x, In x (concat (map snd h) ++ base) <-> replay (fun y => In y base) h x) by (intros x; rewrite (replay_adds h Hadd), in_app_iff; tauto).
  destruct its as [|p its].
  - cbn [map]. exists out, base. split; [reflexivity|]. split; auto. split; auto. intros x. rewrite <- Hmem, <- Hcon. cbn. tauto.
  - destruct (Yields_poll _ _ _ Hy) as (out1 & E1 & Hr). cbn [map]. rewrite E1. destruct (sorted_perm_exists (concat (map snd h) ++ base)) as (R & HsR & HpR).
    assert (HX : exists o, overlay_combine so first (if nonempty base then (fst p :: map fst its) ++ [out1] else fst p :: map fst its) = Some o /\ Yields false R o).
    { destruct base as [|x base]; cbn [nonempty].
      - apply (combine_false so first (p :: its)); auto; [discriminate|]. rewrite HpR, app_nil_r, <- Hcon. reflexivity.
      - replace ((fst p :: map fst its) ++ [out1]) with (map fst ((p :: its) ++ [(out1, x :: base)])) by (rewrite map_app; reflexivity).
        apply combine_false; auto; [discriminate| |].
        + apply Forall_app. split; auto. constructor; [|constructor]. cbn [fst snd]. split; [discriminate|]. split; auto. split; auto. now apply strict_sorted.
        + rewrite HpR, contents_app, Hcon. cbn. now rewrite app_nil_r. }
    destruct HX as (o & Eo & HyR). exists o, R. split; [exact Eo|]. split; auto. split.
    + apply sorted_NoDup_strict; auto. eapply Permutation_NoDup; [symmetry; exact HpR|exact HN].
    + intros x. rewrite <- Hmem. split; intros Hi; (eapply Permutation_in; [|exact Hi]); auto. now symmetry.
Qed.
