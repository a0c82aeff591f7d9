(** The list of cached blocks of the string buffer. *)
From Verif Require Import TableProofs StrSpec.
From Coq Require Import ZifyBool Permutation.
Local Open Scope Z_scope.

(** ** Lists *)
Lemma upd_length {A} (l : list A) i x : length (upd l i x) = length l.
Proof. revert i. induction l; destruct i; cbn; auto. Qed.

Lemma upd_same {A} (l : list A) i x : (i < length l)%nat -> nth_error (upd l i x) i = Some x.
Proof. revert i. induction l; destruct i; cbn; intros; try lia; auto. apply IHl. lia. Qed.

Lemma upd_other {A} (l : list A) i j x : i <> j -> nth_error (upd l i x) j = nth_error l j.
Proof. revert i j. induction l; destruct i, j; cbn; intros; auto; try congruence. Qed.

Lemma nth_lt {A} (l : list A) i x : nth_error l i = Some x -> (i < length l)%nat.
Proof. intros H. apply nth_error_Some. congruence. Qed.

(** ** Linked lists *)
Fixpoint seg (cv : list (Z * Z)) (p : Z) (q : list Z) (e : Z) : Prop :=
  match q with
  | [] => True
  | i :: r => 0 <= i /\ nth_error cv (Z.to_nat i) = Some (p, hd e r) /\ seg cv i r e
  end.

Lemma last_cons {A} (i : A) r d : last (i :: r) d = last r i.
Proof. revert i d. induction r as [|j r IH]; intros i d; [reflexivity|]. change (last (i :: j :: r) d) with (last (j :: r) d). now rewrite !IH. Qed.

Lemma last_snoc {A} (l : list A) x d : last (l ++ [x]) d = x.
Proof. induction l as [|y l IH]; [reflexivity|]. cbn [app]. rewrite last_cons. destruct l; [reflexivity|]. cbn [app] in *. rewrite last_cons in *. auto. Qed.

Lemma seg_app cv q1 : forall p q2 e, seg cv p (q1 ++ q2) e <-> seg cv p q1 (hd e q2) /\ seg cv (last q1 p) q2 e.
Proof.
  induction q1 as [|i r IH]; intros p q2 e; cbn [app seg].
  - cbn. tauto.
  - rewrite IH, last_cons. replace (hd e (r ++ q2)) with (hd (hd e q2) r) by (destruct r; reflexivity). tauto.
Qed.

Lemma seg_upd cv i x q : forall p e, (forall j, In j q -> 0 <= j -> Z.to_nat j <> i) -> seg cv p q e -> seg (upd cv i x) p q e.
Proof.
  induction q as [|j r IH]; intros p e H; cbn [seg]; auto. intros (H1 & H2 & H3).
  split; [auto|]. split; [rewrite upd_other; auto; specialize (H j (or_introl eq_refl) H1); congruence|]. apply IH; auto. intros; apply H; cbn; auto.
Qed.

Lemma seg_snoc cv cv' q x : forall p e, seg cv p q e -> (forall i y, nth_error cv i = Some y -> nth_error cv' i = Some y) -> cv' = cv ++ x -> seg cv' p q e.
Proof.
  induction q as [|j r IH]; intros p e H Hm E; cbn [seg] in *; auto. destruct H as (H1 & H2 & H3). eauto 6.
Qed.

Definition LL (c : cache) (q : list Z) : Prop :=
  seg (c_cv c) (-1) q (-1) /\ c_first c = hd (-1) q /\ c_last c = last q (-1) /\ NoDup q.

Lemma seg_in cv q : forall p e i, seg cv p q e -> In i q -> 0 <= i /\ exists x, nth_error cv (Z.to_nat i) = Some x.
Proof.
  induction q as [|j r IH]; intros p e i H Hi; [destruct Hi|]. cbn [seg] in H; destruct H as (H1 & H2 & H3). destruct Hi as [->|Hi]; eauto.
Qed.

Lemma LL_in c q i : LL c q -> In i q -> 0 <= i /\ exists x, nth_error (c_cv c) (Z.to_nat i) = Some x.
Proof. intros (H & _). eapply seg_in; eauto. Qed.

Lemma cvget_some c i x : 0 <= i -> nth_error (c_cv c) (Z.to_nat i) = Some x -> cvget c i = Some x.
Proof. intros H1 H2. unfold cvget. destruct (Z.leb_spec 0 i); [auto|lia]. Qed.

(** What the operations do not change. *)
Definition same_but_links (c c' : cache) : Prop :=
  c_blocks c' = c_blocks c /\ c_elems c' = c_elems c /\ length (c_cv c') = length (c_cv c).

Lemma sbl_refl c : same_but_links c c. Proof. repeat split. Qed.
Lemma sbl_trans c1 c2 c3 : same_but_links c1 c2 -> same_but_links c2 c3 -> same_but_links c1 c3.
Proof. intros (A & B & C) (D & E & F). repeat split; congruence. Qed.

Lemma last_in {A} (q : list A) d : q <> [] -> In (last q d) q.
Proof. destruct q as [|i r]; [congruence|]. intros _. rewrite last_cons. revert i. induction r as [|j r IH]; intros i; [left; reflexivity|]. rewrite last_cons. right. apply IH. Qed.

Lemma pop_ok c i j r : LL c (i :: j :: r) -> exists c', pop_first c = Some (i, c') /\ LL c' (j :: r) /\ same_but_links c c'.
Proof.
  intros (H1 & H2 & H3 & H4). cbn [seg hd] in H1. destruct H1 as (P1 & P2 & P3 & P4 & P5).
  unfold pop_first. cbn in H2. rewrite H2. rewrite (cvget_some c i _ P1 P2). cbv beta iota.
  unfold set_prev. cbn [set_ends]. rewrite (cvget_some (set_ends c j (c_last c)) j _ P3 P4). cbv beta iota.
  eexists; split; [reflexivity|]. split; [|repeat split; cbn; rewrite ?upd_length; reflexivity].
  inversion H4 as [|? ? N1 N2]; subst. inversion N2 as [|? ? N3 N4]; subst.
  split; [|split; [reflexivity|split; [cbn [set_cv set_ends c_last]; rewrite H3, !last_cons; reflexivity|auto]]].
  cbn [set_cv c_cv set_ends seg]. split; [auto|]. split; [apply upd_same; eapply nth_lt; eauto|].
  apply seg_upd; auto. intros k Hk Hk0 E. assert (k = j) by lia. subst. contradiction.
Qed.

Lemma push_ok c q i : LL c q -> q <> [] -> ~ In i q -> 0 <= i -> (Z.to_nat i < length (c_cv c))%nat ->
  exists c', push_last c i = Some c' /\ LL c' (q ++ [i]) /\ same_but_links c c'.
Proof.
  intros (H1 & H2 & H3 & H4) Hq Hi H0 Hl.
  destruct (exists_last Hq) as (q0 & l & ->). rewrite last_snoc in H3.
  apply seg_app in H1. destruct H1 as (S1 & S2). cbn [hd seg] in S1, S2. destruct S2 as (L0 & L1 & _).
  assert (l <> i) by (intros ->; apply Hi; apply in_or_app; cbn; auto).
  destruct (nth_error (c_cv c) (Z.to_nat i)) as [[a b]|] eqn:Ei; [|apply nth_error_None in Ei; lia].
  assert (Hnl : Z.to_nat l <> Z.to_nat i) by lia.
  unfold push_last. rewrite H3. destruct (l =? -1) eqn:E; [lia|]. cbn [negb].
  unfold set_next at 1. rewrite (cvget_some c l _ L0 L1). cbv beta iota.
  unfold set_prev. erewrite (cvget_some _ i). 2: lia. 2:{ cbn [set_cv c_cv]. rewrite upd_other by auto. exact Ei. } cbv beta iota.
  unfold set_next. erewrite (cvget_some _ i). 2: lia. 2:{ cbn [set_cv c_cv]. apply upd_same. rewrite upd_length. lia. } cbv beta iota.
  eexists; split; [reflexivity|]. split; [|repeat split; cbn; rewrite ?upd_length; reflexivity].
  assert (Hnd : NoDup ((q0 ++ [l]) ++ [i])).
  { apply NoDup_rev in H4. rewrite <- (rev_involutive ((q0 ++ [l]) ++ [i])). apply NoDup_rev. rewrite rev_app_distr. cbn [rev app]. constructor; [|exact H4].
    rewrite <- in_rev. exact Hi. }
  split; [|split; [|split; [cbn; now rewrite last_snoc|exact Hnd]]].
  - cbn [set_cv c_cv set_ends c_last c_first].
    apply seg_app. split.
    + apply seg_upd. { intros j Hj Hj0 Ee. assert (j = i) by lia. subst. contradiction. }
      apply seg_upd. { intros j Hj Hj0 Ee. assert (j = i) by lia. subst. contradiction. }
      apply seg_app. cbn [hd]. split.
      * apply seg_upd; [|exact S1]. intros j Hj Hj0 Ee. assert (j = l) by lia. subst. apply NoDup_remove_2 in H4. rewrite app_nil_r in H4. contradiction.
      * cbn [seg hd]. split; [auto|]. split; [|auto]. apply upd_same. eapply nth_lt; eauto.
    + rewrite last_snoc. cbn [seg hd]. split; [auto|]. split; [|auto]. rewrite upd_same; [f_equal; f_equal; auto|]. rewrite !upd_length. lia.
  - cbn [set_ends c_first set_cv]. rewrite H2. destruct q0 as [|z q0]; cbn [app hd].
    + destruct (Z.eqb_spec l (-1)); [lia|auto].
    + destruct (Z.eqb_spec z (-1)); [|auto]. cbn [app seg] in S1. lia.
Qed.

(** The position of the block in the list changes. *)
Lemma seg_ext cv q : forall p e p', seg cv p q e -> (forall i r, q = i :: r -> nth_error cv (Z.to_nat i) = Some (p', hd e r)) -> seg cv p' q e.
Proof. destruct q as [|i r]; cbn [seg]; auto. intros p e p' (H1 & H2 & H3) H. split; [auto|]. split; [apply H; auto|auto]. Qed.

Definition unlink (c : cache) (i : Z) : option cache :=
  do (prev, succ) <- cvget c i;
  do c <- (if negb (prev =? -1) then set_next c prev succ else Some (set_ends c succ (c_last c)));
  do c <- (if negb (succ =? -1) then set_prev c succ prev else Some c);
  do c <- set_next c (c_last c) i;
  do c <- set_prev c i (c_last c);
  do c <- set_next c i (-1);
  Some (set_ends c (c_first c) i).

Lemma move_ok c q1 i q2 : LL c (q1 ++ i :: q2) -> q2 <> [] ->
  exists c', unlink c i = Some c' /\ LL c' (q1 ++ q2 ++ [i]) /\ same_but_links c c'.
Proof.
  intros (H1 & H2 & H3 & H4) Hq2.
  pose proof H1 as H1'. apply seg_app in H1. destruct H1 as (S1 & S2). cbn [hd seg] in S1, S2. destruct S2 as (I0 & I1 & S2).
  destruct (exists_last Hq2) as (q3 & l & E2).
  assert (Hl : c_last c = l). { rewrite H3, E2. change (i :: q3 ++ [l]) with ([i] ++ (q3 ++ [l])). rewrite app_assoc, app_assoc. apply last_snoc. }
  assert (Hni : ~ In i (q1 ++ q2)) by (apply NoDup_remove_2 in H4; auto).
  assert (Hnd : NoDup (q1 ++ q2)) by (apply NoDup_remove_1 in H4; auto).
  assert (Hlen : forall j, In j (q1 ++ i :: q2) -> 0 <= j /\ (Z.to_nat j < length (c_cv c))%nat).
  { intros j Hj. destruct (seg_in _ _ _ _ _ H1' Hj) as (A & x & Bx). split; [auto|]. eapply nth_lt; eauto. }
  assert (Lin : In l (q1 ++ i :: q2)) by (apply in_or_app; right; right; rewrite E2; apply in_or_app; cbn; auto).
  assert (Lne : l <> i). { intros ->. apply Hni. apply in_or_app. right. rewrite E2. apply in_or_app; cbn; auto. }
  assert (Iin : In i (q1 ++ i :: q2)) by (apply in_or_app; cbn; auto).
  destruct q2 as [|s r2]; [congruence|]. cbn [hd] in I1.
  cbn [seg] in S2. destruct S2 as (T0 & T1 & S2).
  assert (Sne : s <> i). { intros ->. apply Hni. apply in_or_app; cbn; auto. }
  unfold unlink. rewrite (cvget_some c i _ I0 I1). cbv beta iota.
  (* first: prev *)
  assert (Hprev : exists c1, (if negb (last q1 (-1) =? -1) then set_next c (last q1 (-1)) s else Some (set_ends c s (c_last c))) = Some c1 /\
    seg (c_cv c1) (-1) q1 s /\ seg (c_cv c1) i (s :: r2) (-1) /\ c_first c1 = hd s q1 /\ c_last c1 = l /\ nth_error (c_cv c1) (Z.to_nat i) = Some (last q1 (-1), s) /\ same_but_links c c1).
  { destruct q1 as [|z q1'].
    - cbn [last Z.eqb negb]. eexists; split; [reflexivity|]. cbn. repeat (split; [auto|]). repeat split.
    - destruct (exists_last (l := z :: q1') ltac:(congruence)) as (q0 & pl & Eq). rewrite Eq in *. rewrite last_snoc in *.
      apply seg_app in S1. cbn [hd seg] in S1. destruct S1 as (S1a & P0 & P1 & _).
      destruct (pl =? -1) eqn:E; [lia|]. cbn [negb]. unfold set_next. rewrite (cvget_some c pl _ P0 P1).
      eexists; split; [reflexivity|]. cbn [set_cv c_cv c_first c_last].
      assert (Npl : forall j, In j (i :: s :: r2) -> j <> pl).
      { intros j Hj ->. rewrite <- app_assoc in H4. cbn [app] in H4. apply NoDup_remove_2 in H4. apply H4. apply in_or_app. right. exact Hj. }
      split; [|split; [|split; [|split; [auto|split]]]].
      + apply seg_app. split.
        * cbn [hd]. apply seg_upd; [|exact S1a]. intros j Hj Hj0 Ee. assert (j = pl) by lia. subst.
          rewrite <- app_assoc in H4. cbn [app] in H4. apply NoDup_remove_2 in H4. apply H4. apply in_or_app. auto.
        * cbn [seg hd]. split; [auto|]. split; [|auto]. apply upd_same. eapply nth_lt; eauto.
      + apply seg_upd. { intros j Hj Hj0 Ee. assert (j = pl) by lia. eapply (Npl j); cbn; auto. } cbn [seg]. auto.
      + rewrite H2. destruct q0; reflexivity.
      + rewrite upd_other; [auto|]. specialize (Npl i (or_introl eq_refl)). lia.
      + repeat split; cbn; rewrite ?upd_length; reflexivity. }
  destruct Hprev as (c1 & -> & A1 & A2 & A3 & A4 & A5 & A6). cbv beta iota.
  destruct (s =? -1) eqn:Es; [lia|]. cbn [negb].
  unfold set_prev at 1. pose proof A2 as A2'. cbn [seg] in A2. destruct A2 as (_ & A2 & A7). rewrite (cvget_some c1 s _ T0 A2). cbv beta iota.
  set (cv2 := upd (c_cv c1) (Z.to_nat s) (last q1 (-1), hd (-1) r2)).
  assert (Lc1 : length (c_cv c1) = length (c_cv c)) by (destruct A6 as (_ & _ & X); exact X).
  assert (Len2 : length cv2 = length (c_cv c)) by (unfold cv2; rewrite upd_length; auto).
  assert (B1 : seg cv2 (-1) q1 s).
  { apply seg_upd; auto. intros j Hj Hj0 Ee. assert (j = s) by lia. subst. apply NoDup_remove_2 in Hnd. apply Hnd. apply in_or_app; auto. }
  assert (B2 : seg cv2 (last q1 (-1)) (s :: r2) (-1)).
  { cbn [seg]. split; [auto|]. split; [apply upd_same; rewrite Lc1; apply Hlen; apply in_or_app; cbn; auto|].
    apply seg_upd; auto. intros j Hj Hj0 Ee. assert (j = s) by lia. subst.
    apply NoDup_remove_2 in Hnd. apply Hnd. apply in_or_app; auto. }
  assert (B3 : seg cv2 (-1) (q1 ++ s :: r2) (-1)) by (apply seg_app; auto).
  assert (Ci : nth_error cv2 (Z.to_nat i) = Some (last q1 (-1), s)) by (unfold cv2; rewrite upd_other by lia; auto).
  (* the rest is push_last *)
  assert (LLc : LL (mkCa (c_blocks c) cv2 (hd s q1) l (c_elems c)) (q1 ++ s :: r2)).
  { split; [exact B3|]. split; [cbn; destruct q1; reflexivity|]. split; [|exact Hnd]. cbn. rewrite E2. rewrite app_assoc. now rewrite last_snoc. }
  destruct (push_ok _ (q1 ++ s :: r2) i LLc) as (c' & P1 & P2 & P3); auto.
  { destruct q1; discriminate. } { cbn. rewrite Len2. apply Hlen; auto. }
  unfold push_last in P1. cbn [c_last] in P1. destruct (l =? -1) eqn:El; [destruct (Hlen l Lin); lia|]. cbn [negb] in P1.
  unfold set_next at 1. cbn [set_cv c_last]. rewrite A4.
  unfold set_next at 1 in P1. unfold cvget at 1 in P1. cbn [c_cv] in P1.
  unfold cvget at 1. cbn [set_cv c_cv]. fold cv2.
  destruct (0 <=? l) eqn:E0; [|discriminate]. destruct (nth_error cv2 (Z.to_nat l)) as [[lp ln]|] eqn:En; [|discriminate]. cbv beta iota in P1 |- *.
  unfold set_prev in *. unfold cvget at 1 in P1. unfold cvget at 1. cbn [set_cv c_cv c_last] in P1 |- *. rewrite ?A4.
  destruct (0 <=? i) eqn:E0i; [|discriminate]. destruct (nth_error (upd cv2 (Z.to_nat l) (lp, i)) (Z.to_nat i)) as [[ip inn]|] eqn:Eni; [|discriminate]. cbv beta iota in P1 |- *.
  unfold set_next in *. unfold cvget in *. cbn [set_cv c_cv c_last c_first set_ends c_blocks c_elems] in P1 |- *. rewrite E0i in *.
  destruct (nth_error (upd (upd cv2 (Z.to_nat l) (lp, i)) (Z.to_nat i) (l, inn)) (Z.to_nat i)) as [[x y]|] eqn:Enx; [|discriminate].
  cbv beta iota in P1 |- *. unfold set_ends in *. cbn [set_cv c_cv c_last c_first c_blocks c_elems] in *.
  destruct A6 as (A61 & A62 & A63).
  eexists; split; [reflexivity|].
  assert (Hf : (if hd s q1 =? -1 then i else hd s q1) = hd s q1).
  { destruct (Z.eqb_spec (hd s q1) (-1)); [|auto]. exfalso. destruct q1 as [|z q1]; cbn in *; [lia|]. destruct A1 as (? & _). lia. }
  rewrite Hf in P1. injection P1 as P1. rewrite A3, A61, A62. rewrite P1. split; [|destruct P3 as (X & Y & Zz); repeat split; auto; cbn in *; congruence].
  rewrite app_assoc. cbn [app] in *. exact P2.
Qed.
