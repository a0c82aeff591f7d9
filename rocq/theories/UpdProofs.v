(** Proofs about Updater::match. *)
From Coq Require Import Sorted Permutation ZifyBool.
From Verif Require Import ItrProofs UpdSpec.
Local Open Scope Z_scope.

Lemma upd_cmp_lt o t : upd_cmp o t < 0 <-> elt (cur o) t.
Proof.
  destruct t as [[s p] ob]. unfold upd_cmp, elt, cur.
  destruct (key o <? s) eqn:?, (key o =? s) eqn:?, (value1 o <? p) eqn:?,
    (value1 o =? p) eqn:?, (value2 o <? ob) eqn:?, (value2 o =? ob) eqn:?; lia.
Qed.

Lemma upd_cmp_eq o t : upd_cmp o t = 0 <-> cur o = t.
Proof.
  destruct t as [[s p] ob]. unfold upd_cmp, cur.
  destruct (key o <? s) eqn:?, (key o =? s) eqn:?, (value1 o <? p) eqn:?,
    (value1 o =? p) eqn:?, (value2 o <? ob) eqn:?, (value2 o =? ob) eqn:?;
    split; intros H; try lia; try (injection H; intros; lia); f_equal; try f_equal; lia.
Qed.

(** The iterator kb stands on the first element of l and delivers the others; NULL when
    there is none. *)
Definition at_kb (cnt : bool) (l : list elem) (kb : option pitr) : Prop :=
  match kb, l with
  | None, [] => True
  | Some o, x :: t => cur o = x /\ Yields cnt t o
  | _, _ => False
  end.

Lemma at_step cnt x t o : at_kb cnt (x :: t) (Some o) ->
  exists o1, hasNext o = Some (nonempty t, o1) /\
    match t with
    | [] => True
    | _ => exists o2, next o1 = Some o2 /\ at_kb cnt t (Some o2)
    end.
Proof.
  intros [_ Hy]. rewrite Yields_unfold in Hy. destruct (Hy o (polls_refl o)) as (o1 & H1 & H2).
  exists o1; split; auto. destruct t as [|y t]; auto.
  destruct H2 as (o2 & H2 & H3 & _ & H4). exists o2; split; auto. split; auto.
Qed.

Lemma skip_ok cnt t : forall fuel l kb, at_kb cnt l kb -> StronglySorted elt l ->
  (length l < fuel)%nat ->
  exists l' kb', upd_skip fuel kb t = Some kb' /\ at_kb cnt l' kb' /\ StronglySorted elt l' /\
    (length l' <= length l)%nat /\
    (forall x, In x l' <-> In x l /\ ~ elt x t).
Proof.
  induction fuel as [|f IH]; intros l kb Ha Hs Hf; [lia|].
  destruct kb as [o|], l as [|x l]; cbn in Ha; try contradiction.
  2:{ exists [], None. cbn. repeat split; auto; tauto. }
  cbn [upd_skip]. destruct (upd_cmp o t <? 0) eqn:E.
  - assert (Hlt : elt (cur o) t) by (apply upd_cmp_lt; lia).
    destruct (at_step cnt x l o Ha) as (o1 & H1 & H2). rewrite H1.
    inversion Hs as [|? ? Hs' Hf']; subst. destruct Ha as [Hc _]. rewrite Hc in Hlt.
    assert (Hin : forall y, In y l /\ ~ elt y t <-> In y (x :: l) /\ ~ elt y t).
    { intros y. cbn. split; [tauto|]. intros [[->|H] H']; tauto. }
    destruct l as [|y l]; cbn [nonempty].
    + destruct (IH [] None) as (l' & kb' & A & B & C & D & F); [exact I|constructor|cbn in *; lia|].
      exists l', kb'. repeat split; auto.
      * cbn in *; lia.
      * apply F in H. destruct H as [[] _].
      * apply F in H. destruct H as [[] _].
      * intros H. apply F. apply Hin. exact H.
    + destruct H2 as (o2 & H2 & H3). rewrite H2.
      destruct (IH (y :: l) (Some o2)) as (l' & kb' & A & B & C & D & F); auto.
      { cbn in *; lia. }
      exists l', kb'. repeat split; auto.
      * cbn in *; lia.
      * apply F, Hin in H. tauto.
      * apply F, Hin in H. tauto.
      * intros H. apply F. apply Hin. exact H.
  - exists (x :: l), (Some o). split; auto. split; auto. split; auto. split; auto.
    intros y; split; [|tauto]. intros Hy; split; auto. intros Hlt.
    assert (Hn : ~ elt (cur o) t) by (intros H; apply upd_cmp_lt in H; lia).
    destruct Ha as [<- _]. destruct Hy as [<-|Hy]; auto.
    inversion Hs as [|? ? Hs' Hf']; subst. rewrite Forall_forall in Hf'.
    apply Hn. eapply elt_trans; eauto.
Qed.

Lemma loop_ok cnt ty fuel : forall input l kb, at_kb cnt l kb -> StronglySorted elt l ->
  StronglySorted elt input -> (length l < fuel)%nat ->
  exists out, upd_loop fuel ty kb input = Some out /\ StronglySorted elt out /\
    (forall x, In x out <-> In x input /\ effective ty (fun y => In y l) x).
Proof.
  induction input as [|t rest IH]; intros l kb Ha Hs Hi Hf.
  { exists []. cbn. repeat split; auto; try constructor; tauto. }
  inversion Hi as [|? ? Hi' Hft]; subst. rewrite Forall_forall in Hft.
  destruct (skip_ok cnt t fuel l kb Ha Hs Hf) as (l' & kb' & A & B & C & D & F).
  cbn [upd_loop]. rewrite A.
  assert (Hmem : forall x, In x (t :: rest) -> (In x l' <-> In x l)).
  { intros x Hx. rewrite F. split; [tauto|]. intros H; split; auto. intros Hlt.
    destruct Hx as [<-|Hx]; [now apply elt_irrefl in Hlt|].
    apply (elt_irrefl x). eapply elt_trans; eauto. }
  assert (Heff : forall x, In x (t :: rest) ->
    (effective ty (fun y => In y l') x <-> effective ty (fun y => In y l) x)).
  { intros x Hx. pose proof (Hmem x Hx). destruct ty; cbn; tauto. }
  destruct kb' as [o|].
  2:{ destruct l'; cbn in B; [|contradiction].
      destruct ty.
      - exists (t :: rest). split; auto. split; auto. intros x; split; [|tauto].
        intros Hx; split; auto. apply Heff; auto. cbn. tauto.
      - exists []. split; auto. split; [constructor|]. intros x; split; [cbn; tauto|].
        intros [Hx H]. apply Heff in H; auto. }
  destruct l' as [|x0 l']; cbn in B; [contradiction|].
  assert (Hx0 : upd_cmp o t = 0 <-> In t (x0 :: l')).
  { rewrite upd_cmp_eq. destruct B as [-> _]. split; [intros ->; now left|].
    intros [H|H]; auto. exfalso.
    assert (~ elt x0 t) by (apply F; now left).
    inversion C as [|? ? _ HC]; subst. rewrite Forall_forall in HC. auto. }
  assert (Hlen : (length (x0 :: l') < fuel)%nat) by lia.
  destruct (IH (x0 :: l') (Some o) B C Hi' Hlen) as (out & O1 & O2 & O3).
  assert (Hcons : forall out', StronglySorted elt out' -> (forall x, In x out' -> In x rest) ->
            StronglySorted elt (t :: out')).
  { intros out' H1 H2. constructor; auto. rewrite Forall_forall. auto. }
  destruct ty.
  - destruct (upd_cmp o t =? 0) eqn:E; cbn [negb].
    + exists out. split; auto. split; auto. intros x. rewrite O3. split.
      * intros [H1 H2]. split; [now right|]. apply Heff; [now right|auto].
      * intros [[<-|H1] H2].
        -- exfalso. apply Heff in H2; [|now left]. apply H2, Hx0. lia.
        -- split; auto. apply Heff in H2; [auto|now right].
    + rewrite O1. exists (t :: out). split; auto. split.
      { apply Hcons; auto. intros x Hx. apply O3 in Hx. tauto. }
      intros x. cbn [In]. rewrite O3. split.
      * intros [<-|[H1 H2]].
        -- split; auto. apply Heff; [now left|]. intros H. apply Hx0 in H. lia.
        -- split; auto. apply Heff; [now right|auto].
      * intros [[<-|H1] H2]; auto. right. split; auto. apply Heff in H2; [auto|now right].
  - destruct (upd_cmp o t =? 0) eqn:E.
    + assert (Ht : t = x0) by (destruct B as [<- _]; symmetry; apply upd_cmp_eq; lia).
      subst x0.
      inversion C as [|? ? Cs Cf]; subst.
      destruct (at_step cnt t l' o B) as (o1 & H1 & H2). rewrite H1.
      assert (Hrest : forall x, In x rest -> (In x l' <-> In x l)).
      { intros x Hx. rewrite <- (Hmem x) by now right. cbn. split; auto.
        intros [<-|H]; auto. exfalso. apply (elt_irrefl t). auto. }
      assert (Htl : In t l) by (apply (Hmem t); now left).
      destruct l' as [|y l']; cbn [nonempty].
      * exists [t]. split; auto. split; [repeat constructor|].
        intros x. cbn [In effective]. split.
        -- intros [<-|[]]; auto.
        -- intros [[<-|Hx] H]; auto. apply Hrest in H; auto.
      * destruct H2 as (o2 & H2 & H3). rewrite H2.
        destruct (IH (y :: l') (Some o2) H3 Cs Hi') as (out' & P1 & P2 & P3); [cbn in *; lia|].
        rewrite P1. exists (t :: out'). split; auto. split.
        { apply Hcons; auto. intros x Hx. apply P3 in Hx. tauto. }
        intros x. cbn [In]. rewrite P3. cbn [effective]. split.
        -- intros [<-|[Hx H]]; [auto|]. split; auto. apply Hrest; auto.
        -- intros [[<-|Hx] H]; auto. right. split; auto. apply Hrest; auto.
    + exists out. split; auto. split; auto. intros x. rewrite O3. split.
      * intros [Hx H]. split; [now right|]. apply Heff; [now right|auto].
      * intros [[<-|Hx] H].
        -- exfalso. apply Heff in H; [|now left]. cbn in H. apply Hx0 in H. lia.
        -- split; auto. apply Heff in H; [auto|now right].
Qed.

Lemma match_ok cnt ty fuel l o input :
  Yields cnt l o -> StronglySorted elt l -> StronglySorted elt input -> (length l < fuel)%nat ->
  exists out, upd_match fuel ty o input = Some out /\ StronglySorted elt out /\
    (forall x, In x out <-> In x input /\ effective ty (fun y => In y l) x).
Proof.
  intros Hy Hs Hi Hf. unfold upd_match. rewrite Yields_unfold in Hy.
  destruct (Hy o (polls_refl o)) as (o1 & H1 & H2). rewrite H1.
  destruct l as [|x l]; cbn [nonempty].
  - apply (loop_ok cnt ty fuel input [] None); auto.
  - destruct H2 as (o2 & H2 & H3 & _ & H4). rewrite H2.
    apply (loop_ok cnt ty fuel input (x :: l) (Some o2)); auto. split; auto.
Qed.
