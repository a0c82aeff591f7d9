(** Proofs about the encoding of an update. *)
From Coq Require Import Sorted Permutation ZifyBool.
From Verif Require Import ItrProofs UpdSpec UpdProofs.
Local Open Scope Z_scope.

Lemma text_eqb_eq a b : text_eqb a b = true <-> a = b.
Proof. unfold text_eqb. destruct (list_eq_dec Z.eq_dec a b); split; congruence. Qed.
Lemma text_eqb_refl a : text_eqb a a = true.
Proof. now apply text_eqb_eq. Qed.
Lemma text_eqb_ne a b : text_eqb a b = false <-> a <> b.
Proof. rewrite <- text_eqb_eq. destruct (text_eqb a b); split; congruence. Qed.

(** ** lessThan on texts without NUL bytes *)
Lemma strncmp_opp : forall n a b, strncmp b a n = - strncmp a b n.
Proof.
  induction n as [|n IH]; intros [|x a] [|y b]; cbn; auto.
  rewrite (Z.eqb_sym y x). destruct (x =? y) eqn:E; [|lia].
  replace y with x by lia. destruct (x =? 0); auto.
Qed.

Lemma strncmp_zero : forall a b, ~ In 0 a -> length a = length b ->
  strncmp a b (length a) = 0 -> a = b.
Proof.
  induction a as [|x a IH]; intros [|y b] H0 Hl Hz; cbn in *; auto; try discriminate.
  destruct (x =? y) eqn:E; [|lia]. destruct (x =? 0) eqn:E0; [exfalso; apply H0; left; lia|].
  f_equal; [lia|]. apply IH; auto.
Qed.

Lemma lessThan_antisym a b : ~ In 0 a -> lessThan a b = false -> lessThan b a = false -> a = b.
Proof.
  intros H0 H1 H2. unfold lessThan in *. rewrite (Nat.min_comm (length b)) in H2.
  rewrite strncmp_opp in H2.
  set (c := strncmp a b (Nat.min (length a) (length b))) in *.
  destruct (c =? 0) eqn:E; cbn [negb] in H1.
  - replace (- c =? 0) with true in H2 by lia. cbn [negb] in H2.
    assert (length a = length b) by lia.
    apply strncmp_zero; auto. rewrite <- (Nat.min_id (length a)) at 1.
    rewrite H at 2. lia.
  - replace (- c =? 0) with false in H2 by lia. cbn [negb] in H2. lia.
Qed.

Lemma lessThan_nil a : lessThan a [] = false.
Proof. unfold lessThan. rewrite Nat.min_0_r. destruct a; reflexivity. Qed.

Lemma Forall2_impl {A B} (P Q : A -> B -> Prop) : (forall a b, P a b -> Q a b) ->
  forall l l', Forall2 P l l' -> Forall2 Q l l'.
Proof. induction 2; constructor; auto. Qed.

(** ** The passes *)
Section Pass.
  Context (dict : text -> option Z) (maxterm : nat) (next0 : Z).
  Hypothesis Hdict : dict_ok dict next0.
  Hypothesis Hnext : next0 < 2 ^ 63.

  Definition full (tmp : list (text * Z)) (t : text) : option Z :=
    match dict t with Some i => Some i | None => lookup t tmp end.

  Record inv (room : Z) (st : enc_st) : Prop := {
    i_sup : support st = [] \/ full (tmpdict st) (support st) = Some (previd st);
    i_next : next0 <= nextID st /\ nextID st + room < 2 ^ 63;
    i_tmp : forall t i, lookup t (tmpdict st) = Some i -> next0 <= i < nextID st /\ dict t = None;
    i_in : forall t i, In (t, i) (tmpdict st) -> lookup t (tmpdict st) = Some i;
    i_inj : forall t t' i, lookup t (tmpdict st) = Some i -> lookup t' (tmpdict st) = Some i ->
              t = t';
    i_nd : NoDup (map fst (tmpdict st)) }.

  Lemma full_range room st t i : inv room st -> full (tmpdict st) t = Some i -> 0 <= room ->
    0 <= i < 2 ^ 63.
  Proof.
    intros I H Hr. unfold full in H. destruct Hdict as (H0 & H1 & _).
    destruct (i_next _ _ I). destruct (dict t) eqn:E.
    - injection H as <-. apply H1 in E. lia.
    - apply (i_tmp _ _ I) in H. lia.
  Qed.

  Definition extends (a b : list (text * Z)) : Prop :=
    forall t i, lookup t a = Some i -> lookup t b = Some i.

  Lemma full_extends a b t i : extends a b -> full a t = Some i -> full b t = Some i.
  Proof. unfold full. intros H. destruct (dict t); auto. Qed.

  Lemma u64_small v : 0 <= v < 2 ^ 63 -> u64 v = v.
  Proof. intros. unfold u64. apply Z.mod_small. lia. Qed.

  (** A new entry. *)
  Lemma inv_new room st t : inv (room + 1) st -> 0 <= room -> dict t = None ->
    lookup t (tmpdict st) = None ->
    let st' := mkE t (nextID st) (nextID st + 1) ((t, nextID st) :: tmpdict st) in
    inv room st' /\ extends (tmpdict st) (tmpdict st') /\
    full (tmpdict st') t = Some (nextID st) /\
    (forall t' i, lookup t' (tmpdict st') = Some i -> lookup t' (tmpdict st) = Some i \/ t' = t).
  Proof.
    intros I Hr Hd Hl st'. subst st'. cbn [tmpdict support previd nextID lookup].
    destruct (i_next _ _ I) as [N1 N2].
    assert (Hfull : full ((t, nextID st) :: tmpdict st) t = Some (nextID st)).
    { unfold full. rewrite Hd. cbn. now rewrite text_eqb_refl. }
    assert (Hext : extends (tmpdict st) ((t, nextID st) :: tmpdict st)).
    { intros x i H. cbn. destruct (text_eqb x t) eqn:E; auto. apply text_eqb_eq in E. congruence. }
    split; [constructor; cbn [tmpdict support previd nextID lookup]|split; [|split]]; auto.
    - lia.
    - intros x i. destruct (text_eqb x t) eqn:E.
      + intros H. injection H as <-. apply text_eqb_eq in E. subst x. split; [lia|auto].
      + intros H. apply (i_tmp _ _ I) in H. split; [lia|tauto].
    - intros x i [H|H].
      + injection H as <- <-. now rewrite text_eqb_refl.
      + apply (i_in _ _ I) in H. now apply Hext in H.
    - intros x y i. destruct (text_eqb x t) eqn:E1, (text_eqb y t) eqn:E2; intros H1 H2.
      + apply text_eqb_eq in E1, E2. congruence.
      + injection H1 as <-. apply (i_tmp _ _ I) in H2. lia.
      + injection H2 as <-. apply (i_tmp _ _ I) in H1. lia.
      + eapply (i_inj _ _ I); eauto.
    - constructor; [|apply (i_nd _ _ I)]. cbn. intros H. apply in_map_iff in H.
      destruct H as ([x i] & Hx & H). cbn in Hx. subst x. apply (i_in _ _ I) in H. congruence.
    - intros x i. destruct (text_eqb x t) eqn:E; auto. apply text_eqb_eq in E. auto.
  Qed.

  Lemma inv_known room st t i : inv room st -> full (tmpdict st) t = Some i ->
    inv room (mkE t i (nextID st) (tmpdict st)).
  Proof. intros [] H. constructor; cbn; auto. Qed.

  Lemma inv_room a b st : inv a st -> b <= a -> inv b st.
  Proof. intros [] H. constructor; auto. lia. Qed.

  (** What a pass of an addition does to a list. *)
  Definition pass_spec (get : ttriple -> text) (set : ttriple -> Z -> ttriple)
      (st : enc_st) (l l' : list ttriple) (st' : enc_st) : Prop :=
    extends (tmpdict st) (tmpdict st') /\
    Forall2 (fun t t' => exists n, t' = set t n /\ full (tmpdict st') (get t) = Some n) l l' /\
    (forall t i, lookup t (tmpdict st') = Some i ->
       lookup t (tmpdict st) = Some i \/ In t (map get l)).

  Lemma pass_add_po get set : forall l st room, inv (room + Z.of_nat (length l)) st -> 0 <= room ->
    Forall (fun t => get t <> [] /\ (length (get t) <= maxterm)%nat) l ->
    exists l' st', pass (enc_po dict maxterm ADDITION_df) get set st l = Some (l', st') /\
      inv room st' /\ pass_spec get set st l l' st'.
  Proof.
    induction l as [|t l IH]; intros st room I Hr HF.
    { exists [], st. cbn [pass]. split; auto. split.
      - eapply inv_room; eauto. cbn. lia.
      - split; [intros ? ? H; exact H|]. split; [constructor|]. auto. }
    inversion HF as [|? ? [Hne Hlen] HF']; subst.
    cbn [length] in I.
    replace (room + Z.of_nat (S (length l))) with (room + Z.of_nat (length l) + 1) in I by lia.
    assert (Hgo : forall n st1, inv (room + Z.of_nat (length l)) st1 ->
      enc_po dict maxterm ADDITION_df st (get t) = Some (n, st1) ->
      extends (tmpdict st) (tmpdict st1) -> full (tmpdict st1) (get t) = Some n ->
      (forall t' i, lookup t' (tmpdict st1) = Some i ->
         lookup t' (tmpdict st) = Some i \/ t' = get t) ->
      exists l' st', pass (enc_po dict maxterm ADDITION_df) get set st (t :: l) = Some (l', st') /\
      inv room st' /\ pass_spec get set st (t :: l) l' st').
    { intros n st1 I1 H1 He Hf Hk. destruct (IH st1 room I1 Hr HF') as (l' & st' & P & J & E & F & K).
      exists (set t n :: l'), st'. cbn [pass]. rewrite H1, P. split; auto. split; auto.
      split; [intros x i H; auto|]. split.
      - constructor; auto. exists n; split; auto. eapply full_extends; eauto.
      - intros x i H. apply K in H. destruct H as [H|H]; [|right; now right].
        apply Hk in H. destruct H as [H| ->]; auto. right; now left. }
    assert (Hid : extends (tmpdict st) (tmpdict st)) by (intros ? ? H; exact H).
    unfold enc_po in Hgo. destruct (text_eqb (support st) (get t)) eqn:E.
    - apply text_eqb_eq in E. destruct (i_sup _ _ I) as [Hs|Hs]; [congruence|].
      rewrite E in Hs. apply (Hgo (previd st) st); auto.
      + eapply inv_room; eauto. lia.
      + rewrite u64_small; auto. eapply full_range; eauto. lia.
    - replace (maxterm <? length (get t))%nat with false in Hgo by lia.
      destruct (dict (get t)) as [id|] eqn:Ed.
      + assert (full (tmpdict st) (get t) = Some id) by (unfold full; now rewrite Ed).
        eapply Hgo; eauto. apply inv_known; auto. eapply inv_room; eauto. lia.
      + destruct (lookup (get t) (tmpdict st)) as [id|] eqn:El.
        * assert (full (tmpdict st) (get t) = Some id) by (unfold full; now rewrite Ed).
          eapply Hgo; eauto. apply inv_known; auto. eapply inv_room; eauto. lia.
        * destruct (inv_new (room + Z.of_nat (length l)) st (get t)) as (A & B & C & D); auto; try lia.
          eapply Hgo; eauto.
  Qed.

  (** The first pass does not look into tmpdict: it relies on the order. *)
  Lemma pass_add_s : forall l st room, inv (room + Z.of_nat (length l)) st -> 0 <= room ->
    Forall (fun t => tx_s t <> [] /\ (length (tx_s t) <= maxterm)%nat /\ ~ In 0 (tx_s t)) l ->
    StronglySorted (fun a b => sortByS b a = false) l ->
    (forall x, In x l -> lessThan (tx_s x) (support st) = false) ->
    (forall x, In x l -> lookup (tx_s x) (tmpdict st) <> None -> tx_s x = support st) ->
    exists l' st', pass (enc_s dict maxterm ADDITION_df) tx_s set_s st l = Some (l', st') /\
      inv room st' /\ pass_spec tx_s set_s st l l' st'.
  Proof.
    induction l as [|t l IH]; intros st room I Hr HF Hs Hle Hin.
    { exists [], st. cbn [pass]. split; auto. split.
      - eapply inv_room; eauto. cbn. lia.
      - split; [intros ? ? H; exact H|]. split; [constructor|]. auto. }
    inversion HF as [|? ? (Hne & Hlen & H0) HF']; subst.
    inversion Hs as [|? ? Hs' Hft]; subst. rewrite Forall_forall in Hft.
    cbn [length] in I.
    replace (room + Z.of_nat (S (length l))) with (room + Z.of_nat (length l) + 1) in I by lia.
    assert (Hgo : forall n st1, inv (room + Z.of_nat (length l)) st1 ->
      enc_s dict maxterm ADDITION_df st (tx_s t) = Some (n, st1) ->
      extends (tmpdict st) (tmpdict st1) -> full (tmpdict st1) (tx_s t) = Some n ->
      (forall t' i, lookup t' (tmpdict st1) = Some i ->
         lookup t' (tmpdict st) = Some i \/ t' = tx_s t) ->
      support st1 = tx_s t ->
      exists l' st', pass (enc_s dict maxterm ADDITION_df) tx_s set_s st (t :: l) = Some (l', st') /\
      inv room st' /\ pass_spec tx_s set_s st (t :: l) l' st').
    { intros n st1 I1 H1 He Hf Hk Hsup.
      destruct (IH st1 room I1 Hr HF') as (l' & st' & P & J & E & F & K); auto.
      - intros x Hx. rewrite Hsup. apply Hft in Hx. exact Hx.
      - intros x Hx Hl. rewrite Hsup.
        destruct (lookup (tx_s x) (tmpdict st1)) eqn:El; [|congruence].
        apply Hk in El. destruct El as [El|El]; auto.
        assert (Hxs : tx_s x = support st) by (apply Hin; [now right|congruence]).
        apply Hft in Hx. unfold sortByS in Hx. rewrite Hxs in *.
        symmetry. apply lessThan_antisym; auto. apply Hle. now left.
      - exists (set_s t n :: l'), st'. cbn [pass]. rewrite H1, P. split; auto. split; auto.
        split; [intros x i H; auto|]. split.
        + constructor; auto. exists n; split; auto. eapply full_extends; eauto.
        + intros x i H. apply K in H. destruct H as [H|H]; [|right; now right].
          apply Hk in H. destruct H as [H| ->]; auto. right; now left. }
    assert (Hid : extends (tmpdict st) (tmpdict st)) by (intros ? ? H; exact H).
    unfold enc_s in Hgo. destruct (text_eqb (support st) (tx_s t)) eqn:E.
    - apply text_eqb_eq in E. destruct (i_sup _ _ I) as [Hsu|Hsu]; [congruence|].
      rewrite E in Hsu. apply (Hgo (previd st) st); auto.
      + eapply inv_room; eauto. lia.
      + rewrite u64_small; auto. eapply full_range; eauto. lia.
    - replace (maxterm <? length (tx_s t))%nat with false in Hgo by lia.
      destruct (dict (tx_s t)) as [id|] eqn:Ed.
      + assert (full (tmpdict st) (tx_s t) = Some id) by (unfold full; now rewrite Ed).
        eapply Hgo; eauto. apply inv_known; auto. eapply inv_room; eauto. lia.
      + assert (El : lookup (tx_s t) (tmpdict st) = None).
        { destruct (lookup (tx_s t) (tmpdict st)) eqn:El; auto. apply text_eqb_ne in E.
          exfalso. apply E. symmetry. apply Hin; [now left|congruence]. }
        destruct (inv_new (room + Z.of_nat (length l)) st (tx_s t)) as (A & B & C & D); auto; try lia.
        eapply Hgo; eauto.
  Qed.

  (** ** Deletions *)
  Definition dinv (st : enc_st) : Prop :=
    tmpdict st = [] /\
    (support st = [] \/ forall i, dict (support st) = Some i -> previd st = i).

  Definition del_ok (exact : Prop) (t : text) (n : Z) : Prop :=
    (forall i, dict t = Some i -> n = i) /\ (exact -> dict t = None -> n = UINT64_MAX).

  Lemma count_occ_in (t : text) l : In t l -> (1 <= count_occ text_eq_dec l t)%nat.
  Proof. intros H. apply (count_occ_In text_eq_dec) in H. lia. Qed.

  (** The two turn functions are the same for deletions. *)
  Lemma enc_del_same st t :
    enc_s dict maxterm DELETE_df st t = enc_po dict maxterm DELETE_df st t.
  Proof. reflexivity. Qed.

  Lemma pass_del turn get set : turn = enc_s dict maxterm DELETE_df \/
      turn = enc_po dict maxterm DELETE_df ->
    forall l st, dinv st ->
    Forall (fun t => get t <> [] /\ (length (get t) <= maxterm)%nat) l ->
    exists l' st', pass turn get set st l = Some (l', st') /\ dinv st' /\
      Forall2 (fun t t' => exists n, t' = set t n /\
        del_ok (unknown_once dict (support st :: map get l)) (get t) n) l l'.
  Proof.
    intros Hturn.
    assert (Ht : forall st t, turn st t = enc_po dict maxterm DELETE_df st t).
    { intros st t. destruct Hturn as [-> | ->]; auto. }
    clear Hturn. induction l as [|t l IH]; intros st I HF.
    { exists [], st. cbn. auto. }
    inversion HF as [|? ? [Hne Hlen] HF']; subst.
    assert (Hgo : forall n st1, dinv st1 -> turn st (get t) = Some (n, st1) ->
      support st1 = get t ->
      del_ok (unknown_once dict (support st :: map get (t :: l))) (get t) n ->
      exists l' st', pass turn get set st (t :: l) = Some (l', st') /\ dinv st' /\
        Forall2 (fun a a' => exists n, a' = set a n /\
          del_ok (unknown_once dict (support st :: map get (t :: l))) (get a) n) (t :: l) l').
    { intros n st1 I1 H1 Hs1 Hd. destruct (IH st1 I1 HF') as (l' & st' & P & J & F).
      exists (set t n :: l'), st'. cbn [pass]. rewrite H1, P. split; auto. split; auto.
      constructor; [eauto|]. clear - F Hs1. revert F.
      assert (Hun : unknown_once dict (support st :: map get (t :: l)) ->
              unknown_once dict (support st1 :: map get l)).
      { intros H x Hx. specialize (H x Hx). rewrite Hs1. cbn [map] in H.
        cbn [count_occ] in *. destruct (text_eq_dec (support st) x), (text_eq_dec (get t) x); lia. }
      intros F. eapply Forall2_impl; [|exact F]. cbn beta.
      intros a b (n & -> & A & B). exists n. split; auto. split; auto. }
    rewrite Ht in Hgo. unfold enc_po in Hgo. destruct I as [I1 I2].
    destruct (text_eqb (support st) (get t)) eqn:E.
    - apply text_eqb_eq in E. apply (Hgo (u64 (previd st)) st); auto; [split; auto|].
      destruct I2 as [I2|I2]; [congruence|]. rewrite E in I2. split.
      + intros i Hi. rewrite (I2 i Hi). apply u64_small.
        destruct Hdict as (_ & H1 & _). apply H1 in Hi.
        lia.
      + intros Hu Hx. exfalso. specialize (Hu _ Hx). cbn [map count_occ] in Hu. rewrite E in Hu.
        destruct (text_eq_dec (get t) (get t)); [lia|congruence].
    - replace (maxterm <? length (get t))%nat with false in Hgo by lia.
      destruct (dict (get t)) as [id|] eqn:Ed.
      + eapply Hgo; [|reflexivity|reflexivity|].
        * split; auto. cbn. right. intros i Hi. congruence.
        * split; [congruence|]. intros _ H. congruence.
      + eapply Hgo; [|reflexivity|reflexivity|].
        * split; auto. cbn. right. intros i Hi. congruence.
        * split; auto. congruence.
  Qed.
End Pass.
