(** Proofs about the encoding of an update, continued: the three passes together. *)
From Coq Require Import Sorted Permutation ZifyBool.
From Verif Require Import ItrProofs UpdSpec UpdProofs UpdProofs2.
Local Open Scope Z_scope.

Definition txt (t : ttriple) : text * text * text := (tx_s t, tx_p t, tx_o t).

(** ** Sorting and removing duplicates *)
Lemma sorter_elt a b : sorter a b = true <-> elt a b.
Proof.
  destruct a as [[s p] o], b as [[s' p'] o']. unfold sorter, elt.
  destruct (s <? s') eqn:?, (s =? s') eqn:?, (p <? p') eqn:?, (p =? p') eqn:?; lia.
Qed.
Lemma sorter_false a b : sorter b a = false -> ele a b.
Proof.
  intros H. destruct (elt_tricho a b) as [[H1|H1]|H1]; [now left|now right|].
  apply sorter_elt in H1. congruence.
Qed.
Lemma triple_eqb_eq a b : triple_eqb a b = true <-> a = b.
Proof.
  destruct a as [[s p] o], b as [[s' p'] o']. unfold triple_eqb. split.
  - intros H. assert (s = s' /\ p = p' /\ o = o') as (-> & -> & ->) by lia. reflexivity.
  - intros H. injection H as -> -> ->. lia.
Qed.

Lemma unique_in x : forall l, In x (unique l) <-> In x l.
Proof.
  induction l as [|a l IH]; cbn [unique]; [tauto|].
  destruct (unique l) as [|y r] eqn:E.
  - cbn in IH |- *. tauto.
  - destruct (triple_eqb a y) eqn:E1.
    + apply triple_eqb_eq in E1. subst y. cbn [In] in *. tauto.
    + cbn [In] in *. tauto.
Qed.

Lemma unique_sorted : forall l, StronglySorted (fun a b => sorter b a = false) l ->
  StronglySorted elt (unique l).
Proof.
  induction l as [|a l IH]; intros Hs; cbn [unique]; [constructor|].
  inversion Hs as [|? ? Hs' Hf]; subst. specialize (IH Hs').
  assert (Hle : forall x, In x (unique l) -> ele a x).
  { intros x Hx. apply (proj1 (unique_in x l)) in Hx. rewrite Forall_forall in Hf. apply sorter_false. exact (Hf x Hx). }
  destruct (unique l) as [|y r] eqn:E; [repeat constructor|].
  inversion IH as [|? ? IH' HF]; subst.
  destruct (triple_eqb a y) eqn:E1.
  - apply triple_eqb_eq in E1. subst y. constructor; auto.
  - assert (Hlt : elt a y).
    { destruct (Hle y) as [H|H]; [now left|auto|]. apply triple_eqb_eq in H. congruence. }
    constructor; auto. constructor; auto. rewrite Forall_forall in *. intros x Hx.
    eapply elt_trans; eauto.
Qed.

Lemma final_ok so l : good_sorts so ->
  StronglySorted elt (unique (by_num so (parsed l))) /\
  (forall x, In x (unique (by_num so (parsed l))) <-> In x (parsed l)).
Proof.
  intros (_ & _ & _ & Hn). destruct (Hn (parsed l)) as [Hp Hs]. split.
  - apply unique_sorted; auto.
  - intros x. rewrite unique_in. split; apply Permutation_in; auto. now apply Permutation_sym.
Qed.

Lemma parsed_in l a b c : In (a, b, c) (parsed l) <->
  exists t, In t l /\ nums t = a /\ nump t = b /\ numo t = c /\
    a <> UINT64_MAX /\ b <> UINT64_MAX /\ c <> UINT64_MAX.
Proof.
  unfold parsed. rewrite in_map_iff. split.
  - intros (t & H & Hin). apply filter_In in Hin. destruct Hin as [Hin Hk]. injection H as <- <- <-.
    unfold known in Hk. exists t. repeat split; auto; lia.
  - intros (t & Hin & <- & <- & <- & H1 & H2 & H3). exists t. split; auto.
    apply filter_In. split; auto. unfold known. lia.
Qed.

(** ** One pass, seen on the list *)
Lemma pass_txt (P : ttriple -> Z -> Prop) set l l' :
  (forall t n, txt (set t n) = txt t) ->
  Forall2 (fun t t' => exists n, t' = set t n /\ P t n) l l' -> map txt l' = map txt l.
Proof.
  intros H. induction 1 as [|t t' l l' (n & -> & _) HF IH]; cbn; auto. rewrite H. f_equal. auto.
Qed.

Lemma pass_Forall (P : ttriple -> Z -> Prop) (Q R : ttriple -> Prop) set l l' :
  Forall2 (fun t t' => exists n, t' = set t n /\ P t n) l l' ->
  (forall t n, Q t -> P t n -> R (set t n)) -> Forall Q l -> Forall R l'.
Proof.
  intros HF H. induction HF as [|t t' l l' (n & -> & Hp) HF IH]; intros HQ; constructor.
  - inversion HQ; subst. auto.
  - inversion HQ; subst. auto.
Qed.

Lemma perm_Forall {A} (P : A -> Prop) l l' : Permutation l' l -> Forall P l -> Forall P l'.
Proof.
  intros Hp HF. rewrite Forall_forall in *. intros x Hx. apply HF. eapply Permutation_in; eauto.
Qed.

Lemma map_tx_s l : map tx_s l = map (fun x => fst (fst x)) (map txt l).
Proof. rewrite map_map. apply map_ext. reflexivity. Qed.
Lemma map_tx_p l : map tx_p l = map (fun x => snd (fst x)) (map txt l).
Proof. rewrite map_map. apply map_ext. reflexivity. Qed.
Lemma map_tx_o l : map tx_o l = map snd (map txt l).
Proof. rewrite map_map. apply map_ext. reflexivity. Qed.

(** Properties of texts only depend on the texts. *)
Lemma Forall_txt (P : text * text * text -> Prop) l l' :
  Permutation (map txt l') (map txt l) -> Forall (fun t => P (txt t)) l ->
  Forall (fun t => P (txt t)) l'.
Proof.
  intros Hp HF. apply Forall_map in HF. apply Forall_map. eapply perm_Forall; eauto.
Qed.

Definition sizes (maxterm : nat) (t : ttriple) : Prop :=
  Forall (fun x : text => x <> [] /\ (length x <= maxterm)%nat) [tx_s t; tx_p t; tx_o t].
Definition sizes_txt (maxterm : nat) (x : text * text * text) : Prop :=
  Forall (fun x : text => x <> [] /\ (length x <= maxterm)%nat) [fst (fst x); snd (fst x); snd x].

Section Encode.
  Context (dict : text -> option Z) (maxterm : nat) (next0 : Z) (so : sorts).
  Hypothesis Hdict : dict_ok dict next0.
  Hypothesis Hso : good_sorts so.

  Lemma encode_add triples : next0 + 3 * Z.of_nat (length triples) < 2 ^ 63 ->
    Forall (sizes maxterm) triples -> Forall (fun t => ~ In 0 (tx_s t)) triples ->
    exists l3 st room, encode dict maxterm ADDITION_df so next0 triples
        = Some (unique (by_num so (parsed l3)), tmpdict st) /\
      inv dict next0 room st /\ 0 <= room /\
      Permutation (map txt l3) (map txt triples) /\
      Forall (fun t => full dict (tmpdict st) (tx_s t) = Some (nums t) /\
                       full dict (tmpdict st) (tx_p t) = Some (nump t) /\
                       full dict (tmpdict st) (tx_o t) = Some (numo t)) l3 /\
      (forall t i, lookup t (tmpdict st) = Some i -> is_term triples t).
  Proof.
    intros Hroom Hsz Hnul.
    destruct Hso as (Hs & Hp & Ho & _).
    set (N := Z.of_nat (length triples)) in *. assert (Hn0 : next0 < 2 ^ 63) by lia.
    unfold encode.
    destruct (Hs triples) as [Ps Ss].
    assert (Hsz1 : Forall (sizes maxterm) (by_s so triples)) by (eapply perm_Forall; eauto).
    destruct (pass_add_s dict maxterm next0 Hdict Hn0 (by_s so triples)
                (mkE [] (-1) next0 []) (2 * N)) as (l1 & st1 & P1 & I1 & E1 & F1 & K1).
    { rewrite (Permutation_length Ps). fold N. constructor; cbn [support nextID tmpdict previd lookup In]; try (intros; discriminate); auto.
      - lia.
      - tauto.
      - constructor. }
    { lia. }
    { rewrite Forall_forall in *. intros t Ht. pose proof (Hsz1 t Ht) as H. inversion H; subst.
      split; [tauto|]. split; [tauto|]. apply Hnul. eapply Permutation_in; eauto. }
    { exact Ss. }
    { intros x Hx. apply lessThan_nil. }
    { intros x _ H. cbn in H. congruence. }
    rewrite P1.
    assert (T1 : Permutation (map txt l1) (map txt triples)).
    { rewrite (pass_txt _ set_s _ _ (fun t n => eq_refl) F1). now apply Permutation_map. }
    assert (L1 : length l1 = length triples).
    { rewrite <- (map_length txt l1), (Permutation_length T1). apply map_length. }
    assert (Q1 : Forall (fun t => full dict (tmpdict st1) (tx_s t) = Some (nums t)) l1).
    { eapply (pass_Forall _ (fun _ => True));
        [exact F1| |].
      - intros t n _ H. exact H.
      - rewrite Forall_forall; auto. }
    destruct (Hp l1) as [Pp _].
    assert (T1' : Permutation (map txt (by_p so l1)) (map txt triples)).
    { etransitivity; [apply Permutation_map; exact Pp|exact T1]. }
    assert (Hsz2 : Forall (sizes maxterm) (by_p so l1)).
    { apply (Forall_txt (sizes_txt maxterm)) with (l := triples); auto. }
    set (st1' := mkE [] (previd st1) (nextID st1) (tmpdict st1)) in *.
    assert (I1' : inv dict next0 (2 * N) st1').
    { destruct I1. constructor; cbn; auto. }
    destruct (pass_add_po dict maxterm next0 Hdict Hn0 tx_p set_p (by_p so l1) st1' N)
      as (l2 & st2 & P2 & I2 & E2 & F2 & K2).
    { rewrite (Permutation_length Pp), L1. fold N. replace (N + N) with (2 * N) by lia. exact I1'. }
    { lia. }
    { eapply Forall_impl; [|exact Hsz2]. intros t H. inversion H as [|? ? _ H']; subst.
      now inversion H'. }
    rewrite P2.
    assert (T2 : Permutation (map txt l2) (map txt triples)).
    { rewrite (pass_txt _ set_p _ _ (fun t n => eq_refl) F2). exact T1'. }
    assert (L2 : length l2 = length triples).
    { rewrite <- (map_length txt l2), (Permutation_length T2). apply map_length. }
    assert (Q2 : Forall (fun t => full dict (tmpdict st2) (tx_s t) = Some (nums t) /\
                                  full dict (tmpdict st2) (tx_p t) = Some (nump t)) l2).
    { eapply (pass_Forall _
                (fun t => full dict (tmpdict st1) (tx_s t) = Some (nums t)));
        [exact F2| |].
      - intros t n H1 H. split; [|exact H]. cbn. eapply full_extends; [exact E2|exact H1].
      - eapply perm_Forall; [exact Pp|exact Q1]. }
    destruct (Ho l2) as [Po _].
    assert (T2' : Permutation (map txt (by_o so l2)) (map txt triples)).
    { etransitivity; [apply Permutation_map; exact Po|exact T2]. }
    assert (Hsz3 : Forall (sizes maxterm) (by_o so l2)).
    { apply (Forall_txt (sizes_txt maxterm)) with (l := triples); auto. }
    set (st2' := mkE [] (previd st2) (nextID st2) (tmpdict st2)) in *.
    assert (I2' : inv dict next0 N st2').
    { destruct I2. constructor; cbn; auto. }
    destruct (pass_add_po dict maxterm next0 Hdict Hn0 tx_o set_o (by_o so l2) st2' 0)
      as (l3 & st3 & P3 & I3 & E3 & F3 & K3).
    { rewrite (Permutation_length Po), L2. fold N. exact I2'. }
    { lia. }
    { eapply Forall_impl; [|exact Hsz3]. intros t H. inversion H as [|? ? _ H']; subst.
      inversion H' as [|? ? _ H'']; subst. now inversion H''. }
    rewrite P3. exists l3, st3, 0. split; auto. split; auto. split; [lia|]. split; [|split].
    - rewrite (pass_txt _ set_o _ _ (fun t n => eq_refl) F3). exact T2'.
    - eapply (pass_Forall _
                (fun t => full dict (tmpdict st2) (tx_s t) = Some (nums t) /\
                          full dict (tmpdict st2) (tx_p t) = Some (nump t)));
        [exact F3| |].
      + intros t n [H1 H2] H. split; [|split; [|exact H]]; eapply full_extends; try exact E3; auto.
      + eapply perm_Forall; [exact Po|exact Q2].
    - intros t i H. unfold is_term, subjects, predicates, objects.
      apply K3 in H. destruct H as [H|H].
      2:{ right; right. rewrite map_tx_o in *. eapply Permutation_in; [|exact H].
          now apply Permutation_map. }
      apply K2 in H. destruct H as [H|H].
      2:{ right; left. rewrite map_tx_p in *. eapply Permutation_in; [|exact H].
          now apply Permutation_map. }
      apply K1 in H. destruct H as [H|H]; [discriminate|].
      left. eapply Permutation_in; [|exact H]. now apply Permutation_map.
  Qed.

  Lemma unknown_once_perm l l' : ~ In [] l' -> Permutation l' l -> unknown_once dict l ->
    unknown_once dict ([] :: l').
  Proof.
    intros Hn Hp H t Ht. cbn [count_occ].
    destruct (text_eq_dec [] t) as [<-|].
    - apply (count_occ_not_In text_eq_dec) in Hn. lia.
    - rewrite (Permutation_count_occ text_eq_dec) in Hp. rewrite Hp. auto.
  Qed.

  Lemma encode_del triples : next0 < 2 ^ 63 -> Forall (sizes maxterm) triples ->
    exists l3, encode dict maxterm DELETE_df so next0 triples
        = Some (unique (by_num so (parsed l3)), []) /\
      Permutation (map txt l3) (map txt triples) /\
      Forall (fun t => del_ok dict (unknown_once dict (subjects triples)) (tx_s t) (nums t) /\
                       del_ok dict (unknown_once dict (predicates triples)) (tx_p t) (nump t) /\
                       del_ok dict (unknown_once dict (objects triples)) (tx_o t) (numo t)) l3.
  Proof.
    intros Hroom Hsz.
    destruct Hso as (Hs & Hp & Ho & _). unfold encode.
    destruct (Hs triples) as [Ps _].
    assert (Hsz1 : Forall (sizes maxterm) (by_s so triples)) by (eapply perm_Forall; eauto).
    assert (Hne : forall l (get : ttriple -> text),
      Forall (fun t => get t <> [] /\ (length (get t) <= maxterm)%nat) l -> ~ In [] (map get l)).
    { intros l get HF H. apply in_map_iff in H. destruct H as (t & H & Ht).
      rewrite Forall_forall in HF. apply HF in Ht. tauto. }
    assert (Hex : forall (A B : Prop) t n, (A -> B) -> del_ok dict B t n -> del_ok dict A t n).
    { intros A B t n H [H1 H2]. split; auto. }
    assert (G1 : Forall (fun t => tx_s t <> [] /\ (length (tx_s t) <= maxterm)%nat) (by_s so triples)).
    { eapply Forall_impl; [|exact Hsz1]. intros t H. now inversion H. }
    destruct (pass_del dict maxterm next0 Hdict Hroom _ tx_s set_s (or_introl eq_refl) (by_s so triples)
                (mkE [] (-1) next0 [])) as (l1 & st1 & P1 & I1 & F1).
    { split; auto. }
    { exact G1. }
    rewrite P1.
    assert (T1 : Permutation (map txt l1) (map txt triples)).
    { rewrite (pass_txt _ set_s _ _ (fun t n => eq_refl) F1). now apply Permutation_map. }
    assert (Q1 : Forall (fun t =>
        del_ok dict (unknown_once dict (subjects triples)) (tx_s t) (nums t)) l1).
    { eapply (pass_Forall _ (fun _ => True)); [exact F1| |].
      - intros t n _ H. eapply Hex; [|exact H]. apply unknown_once_perm; auto.
        now apply Permutation_map.
      - rewrite Forall_forall; auto. }
    destruct (Hp l1) as [Pp _].
    assert (T1' : Permutation (map txt (by_p so l1)) (map txt triples)).
    { etransitivity; [apply Permutation_map; exact Pp|exact T1]. }
    assert (Hsz2 : Forall (sizes maxterm) (by_p so l1)).
    { apply (Forall_txt (sizes_txt maxterm)) with (l := triples); auto. }
    assert (G2 : Forall (fun t => tx_p t <> [] /\ (length (tx_p t) <= maxterm)%nat) (by_p so l1)).
    { eapply Forall_impl; [|exact Hsz2]. intros t H. inversion H as [|? ? _ H']; subst.
      now inversion H'. }
    destruct (pass_del dict maxterm next0 Hdict Hroom _ tx_p set_p (or_intror eq_refl) (by_p so l1)
                (mkE [] (previd st1) (nextID st1) (tmpdict st1))) as (l2 & st2 & P2 & I2 & F2).
    { split; [apply I1|]. now left. }
    { exact G2. }
    rewrite P2.
    assert (T2 : Permutation (map txt l2) (map txt triples)).
    { rewrite (pass_txt _ set_p _ _ (fun t n => eq_refl) F2). exact T1'. }
    assert (Q2 : Forall (fun t =>
        del_ok dict (unknown_once dict (subjects triples)) (tx_s t) (nums t) /\
        del_ok dict (unknown_once dict (predicates triples)) (tx_p t) (nump t)) l2).
    { eapply (pass_Forall _ (fun t =>
        del_ok dict (unknown_once dict (subjects triples)) (tx_s t) (nums t))); [exact F2| |].
      - intros t n H1 H. split; [exact H1|]. eapply Hex; [|exact H]. apply unknown_once_perm; auto.
        unfold predicates. rewrite !map_tx_p. now apply Permutation_map.
      - eapply perm_Forall; eauto. }
    destruct (Ho l2) as [Po _].
    assert (T2' : Permutation (map txt (by_o so l2)) (map txt triples)).
    { etransitivity; [apply Permutation_map; exact Po|exact T2]. }
    assert (Hsz3 : Forall (sizes maxterm) (by_o so l2)).
    { apply (Forall_txt (sizes_txt maxterm)) with (l := triples); auto. }
    assert (G3 : Forall (fun t => tx_o t <> [] /\ (length (tx_o t) <= maxterm)%nat) (by_o so l2)).
    { eapply Forall_impl; [|exact Hsz3]. intros t H. inversion H as [|? ? _ H']; subst.
      inversion H' as [|? ? _ H'']; subst. now inversion H''. }
    destruct (pass_del dict maxterm next0 Hdict Hroom _ tx_o set_o (or_intror eq_refl) (by_o so l2)
                (mkE [] (previd st2) (nextID st2) (tmpdict st2))) as (l3 & st3 & P3 & I3 & F3).
    { split; [apply I2|]. now left. }
    { exact G3. }
    rewrite P3. exists l3. split; [|split].
    - destruct I3 as [-> _]. reflexivity.
    - rewrite (pass_txt _ set_o _ _ (fun t n => eq_refl) F3). exact T2'.
    - eapply (pass_Forall _ (fun t =>
        del_ok dict (unknown_once dict (subjects triples)) (tx_s t) (nums t) /\
        del_ok dict (unknown_once dict (predicates triples)) (tx_p t) (nump t))); [exact F3| |].
      + intros t n [H1 H2] H. split; [exact H1|]. split; [exact H2|].
        eapply Hex; [|exact H]. apply unknown_once_perm; auto.
        unfold objects. rewrite !map_tx_o. now apply Permutation_map.
      + eapply perm_Forall; eauto.
  Qed.
End Encode.
