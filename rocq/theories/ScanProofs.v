(** Proofs about CompositeScanItr (second column not ignored) and about the overlay of
    updates built by Querier::getIterator. *)
From Coq Require Import Sorted Permutation Lia.
From Verif Require Export ItrModel ItrSpec ItrProofs CompProofs.
Local Open Scope Z_scope.

Lemma cscan_obj_hasNext sn si s : hasNext (cscan_obj sn si s) =
  let (b, s') := cscan_hasNext sn si s in Some (b, cscan_obj sn si s').
Proof. reflexivity. Qed.
Lemma cscan_obj_next sn si s : next (cscan_obj sn si s) =
  match cscan_next s with Some s' => Some (cscan_obj sn si s') | None => None end.
Proof. reflexivity. Qed.
Lemma cscan_obj_count sn si s :
  getCount (cscan_obj sn si s) = Some (cs_count s, cscan_obj sn si s).
Proof. reflexivity. Qed.
Lemma cscan_obj_cur sn si s : cur (cscan_obj sn si s) = (cs_key s, cs_v1 s, cs_v2 s).
Proof. reflexivity. Qed.

Definition SPos (p : pitr * list elem) : Prop :=
  exists t, snd p = cur (fst p) :: t /\ Yields false t (fst p) /\ sorted (snd p).

Lemma cscan_gt_spec a b : cscan_gt b a = false <-> ele (cur b) (cur a).
Proof.
  unfold cscan_gt, ele, elt, cur. split.
  - intros H.
    destruct (key a <? key b) eqn:E1; [discriminate|].
    destruct (key b =? key a) eqn:E2; [|left; lia].
    destruct (value1 a <? value1 b) eqn:E3; [discriminate|].
    destruct (value1 b =? value1 a) eqn:E4; [|left; lia].
    destruct (Z.eq_dec (value2 a) (value2 b)); [right; repeat f_equal; lia|left; lia].
  - intros [H|H].
    + destruct (key a <? key b) eqn:E1; [lia|].
      destruct (key b =? key a) eqn:E2; auto.
      destruct (value1 a <? value1 b) eqn:E3; [lia|].
      destruct (value1 b =? value1 a) eqn:E4; auto. lia.
    + injection H as H0 H1 H2. rewrite H0, H1, H2. rewrite !Z.ltb_irrefl, !Z.eqb_refl. reflexivity.
Qed.

Definition sdesc (P : list (pitr * list elem)) : Prop :=
  StronglySorted (fun p q => cscan_gt (fst q) (fst p) = false) P.

Lemma sdesc_min A z x :
  Forall SPos (A ++ [z]) -> sdesc (A ++ [z]) -> In x (contents (A ++ [z])) -> ele (cur (fst z)) x.
Proof.
  intros HP Hd Hx. unfold contents in Hx. apply in_concat in Hx as (l & Hl & Hx).
  apply in_map_iff in Hl as (p & <- & Hp).
  rewrite Forall_forall in HP. destruct (HP _ Hp) as (t & Ht & _ & Hs).
  assert (Hmin : ele (cur (fst p)) x).
  { rewrite Ht in Hx, Hs. destruct Hx as [<-|Hx]; [apply ele_refl|].
    inversion Hs as [|? ? _ Hf]; subst. rewrite Forall_forall in Hf; auto. }
  eapply ele_trans; [|exact Hmin].
  apply in_app_or in Hp as [Hp|[<-|[]]]; [|apply ele_refl].
  apply SS_app in Hd as (_ & _ & Hle).
  apply cscan_gt_spec. exact (Hle p z Hp (or_introl eq_refl)).
Qed.

Lemma cscan_yields sn si : std_sort cscan_gt sn ->
  forall R s P, cs_hnc s = false -> cs_ign s = false -> cs_children s = map fst P ->
    Forall SPos P -> sorted R -> Permutation R (contents P) ->
    Yields true R (cscan_obj sn si s).
Proof.
  intros Hsn. induction R as [|x R IH]; intros s P Hhnc Hign Hch HP HsR Hp.
  - assert (P = []) as ->.
    { destruct P as [|p P]; auto. inversion HP as [|? ? (t & Ht & _) _]; subst.
      apply Permutation_nil in Hp. unfold contents in Hp. cbn in Hp. rewrite Ht in Hp. discriminate. }
    eapply Yields_intro.
    + rewrite cscan_obj_hasNext. unfold cscan_hasNext. rewrite Hhnc, Hch. reflexivity.
    + reflexivity.
    + exact I.
  - assert (exists B, (if (1 <? length (map fst P))%nat then sn (map fst P) else map fst P) = map fst B /\
        Permutation B P /\ sdesc B) as (B & HB & HpB & HdB).
    { destruct (1 <? length (map fst P))%nat eqn:E.
      - destruct (Hsn (map fst P)) as [Hps Hs].
        destruct (desc_perm_fst P _ Hps) as (B & HB & HpB).
        exists B. rewrite HB. repeat split; auto. unfold sdesc.
        apply (SS_map (fun a b => cscan_gt b a = false) fst). rewrite HB. exact Hs.
      - exists P. repeat split; auto. apply Nat.ltb_ge in E. rewrite map_length in E.
        destruct P as [|p [|q P]]; cbn in E; try lia; repeat constructor. }
    assert (HPB : Forall SPos B) by (eapply Permutation_Forall; [symmetry; exact HpB|exact HP]).
    assert (HpR : Permutation (x :: R) (contents B)).
    { rewrite Hp. apply contents_perm. now symmetry. }
    destruct (@exists_last _ B) as (A & z & ->).
    { intros ->. cbn in HpR. apply Permutation_sym, Permutation_nil in HpR. discriminate. }
    assert (HPz : SPos z) by (rewrite Forall_forall in HPB; apply HPB, in_or_app; right; now left).
    assert (HPA : Forall SPos A) by (apply Forall_app in HPB; tauto).
    destruct HPz as (t & Ht & HyT & HsT).
    assert (Hx : cur (fst z) = x).
    { eapply sorted_perm_head; [exact HsR|exact HpR| |].
      - rewrite contents_app. apply in_or_app; right. cbn. rewrite Ht. cbn. auto.
      - intros y Hy. eapply sdesc_min; eauto. }
    assert (HpR' : Permutation R (contents A ++ t)).
    { rewrite contents_app in HpR. cbn in HpR. rewrite Ht, app_nil_r, Hx in HpR.
      apply Permutation_cons_inv with (a := x). rewrite HpR.
      symmetry. apply Permutation_middle. }
    assert (Hlen : (0 <? length (cs_children s))%nat = true).
    { rewrite Hch, map_length. apply Nat.ltb_lt.
      apply Permutation_length in HpB. rewrite app_length in HpB. cbn in HpB. lia. }
    destruct (Yields_poll _ _ _ HyT) as (z1 & Hn1 & _ & Hm).
    eapply Yields_intro.
    + rewrite cscan_obj_hasNext. unfold cscan_hasNext. rewrite Hhnc, Hlen, Hign, Hch, HB. reflexivity.
    + reflexivity.
    + destruct t as [|y t].
      * eexists. split; [|split; [|split]].
        -- rewrite cscan_obj_next. unfold cscan_next. cbn [cs_children].
           rewrite map_length, app_length, Nat.add_1_r, map_app. cbn [map].
           rewrite nth_app' by now rewrite map_length. cbn [cs_ign negb].
           rewrite Hn1. cbn [nonempty].
           rewrite <- (map_length fst A).
           rewrite firstn_app, Nat.sub_diag, firstn_all. cbn [firstn]. rewrite app_nil_r. reflexivity.
        -- rewrite cscan_obj_cur. cbn. exact Hx.
        -- intros _. eexists. apply cscan_obj_count.
        -- apply (IH _ A); auto.
           ++ inversion HsR; auto.
           ++ now rewrite app_nil_r in HpR'.
      * destruct Hm as (z2 & Hn2 & Hc2 & _ & Hy2).
        eexists. split; [|split; [|split]].
        -- rewrite cscan_obj_next. unfold cscan_next. cbn [cs_children].
           rewrite map_length, app_length, Nat.add_1_r, map_app. cbn [map].
           rewrite nth_app' by now rewrite map_length. cbn [cs_ign negb].
           rewrite Hn1. cbn [nonempty]. rewrite Hn2.
           rewrite upd_app' by now rewrite map_length. reflexivity.
        -- rewrite cscan_obj_cur. cbn. exact Hx.
        -- intros _. eexists. apply cscan_obj_count.
        -- apply (IH _ (A ++ [(z2, y :: t)])); auto.
           ++ rewrite map_app. reflexivity.
           ++ apply Forall_app; split; auto. constructor; [|constructor].
              exists t. cbn [fst snd]. subst y. rewrite Ht in HsT. inversion HsT; subst. auto.
           ++ inversion HsR; auto.
           ++ rewrite contents_app. cbn. now rewrite app_nil_r.
Qed.

Lemma cscan_add_ok (P : list (pitr * list elem)) :
  Forall (fun p => Yields false (snd p) (fst p) /\ sorted (snd p)) P ->
  exists Q, cscan_add_children (map fst P) = Some (map fst Q) /\ Forall SPos Q /\
    contents Q = contents P.
Proof.
  induction P as [|[c l] P IH]; intros HP.
  - exists []. cbn. auto.
  - inversion HP as [|? ? (Hy & Hs) HP']; subst. cbn [fst snd] in *.
    destruct (IH HP') as (Q & HQ & HQP & HQc).
    destruct (Yields_poll _ _ _ Hy) as (c1 & Hn1 & _ & Hm).
    cbn [map fst cscan_add_children]. rewrite Hn1. destruct l as [|x t]; cbn [nonempty].
    + exists Q. auto.
    + destruct Hm as (c2 & Hn2 & Hc2 & _ & Hy2). rewrite Hn2, HQ.
      exists ((c2, x :: t) :: Q). repeat split; auto.
      * constructor; auto. exists t. cbn. subst x. auto.
      * unfold contents in *. cbn. now rewrite HQc.
Qed.

Lemma new_cscan_yields sn si P R :
  std_sort cscan_gt sn ->
  Forall (fun p => Yields false (snd p) (fst p) /\ sorted (snd p)) P ->
  sorted R -> Permutation R (contents P) ->
  exists o, new_cscan_itr sn si (map fst P) = Some o /\ Yields true R o.
Proof.
  intros Hsn HP HsR HpR. destruct (cscan_add_ok P HP) as (Q & HQ & HQP & HQc).
  unfold new_cscan_itr. rewrite HQ. eexists; split; [reflexivity|].
  eapply (cscan_yields sn si Hsn R _ Q); auto. now rewrite HQc.
Qed.

(** ** The overlay *)
Definition sorters_ok (so : sorters) : Prop :=
  std_sort comp_gt (sort_comp so) /\ std_sort cscan_gt (sort_scan so).

(** An iterator for the request: delivers sorted elements, all with the requested key when
    a key was requested. *)
Definition answers (first : Z) (l : list elem) (o : pitr) : Prop :=
  Yields true l o /\ sorted l /\ (0 <= first -> Forall (fun x => fst (fst x) = first) l).

Lemma combine_ok so first P R :
  sorters_ok so -> P <> [] ->
  Forall (fun p => snd p <> [] /\ Ready true (snd p) (fst p) /\ answers first (snd p) (fst p)) P ->
  sorted R -> Permutation R (contents P) ->
  exists o, overlay_combine so first (map fst P) = Some o /\ answers first R o.
Proof.
  intros [Hs1 Hs2] Hne HP HsR HpR.
  assert (Hk : 0 <= first -> Forall (fun x => fst (fst x) = first) R).
  { intros Hf. rewrite Forall_forall in *. intros x Hx.
    eapply Permutation_in in Hx; [|exact HpR]. unfold contents in Hx.
    apply in_concat in Hx as (l & Hl & Hx). apply in_map_iff in Hl as (p & <- & Hp).
    destruct (HP p Hp) as (_ & _ & _ & _ & Hkp). specialize (Hkp Hf).
    rewrite Forall_forall in Hkp; auto. }
  destruct P as [|p [|q P]]; [contradiction| |].
  - inversion HP as [|? ? (_ & _ & Ha) _]; subst. exists (fst p). split; [reflexivity|].
    assert (R = snd p) as ->.
    { apply sorted_perm_eq; auto; [apply Ha|]. rewrite HpR. cbn. now rewrite app_nil_r. }
    auto.
  - unfold overlay_combine. cbn [map]. destruct (0 <=? first) eqn:E.
    + eexists; split; [reflexivity|]. split; [|split]; auto.
      change (fst p :: fst q :: map fst P) with (map fst (p :: q :: P)).
      eapply new_comp_yields; auto.
      eapply Forall_impl; [|exact HP]. intros r (H1 & (H2a & H2b) & H3 & H4 & H5).
      split; auto. split; [|split; auto; apply H5; lia].
      split; [eapply Yields_weaken; eauto|]. destruct (snd r); auto.
      destruct H2b as (o2 & ? & ? & _ & ?). exists o2.
      split; [assumption|split; [assumption|split; [discriminate|eapply Yields_weaken; eauto]]].
    + change (fst p :: fst q :: map fst P) with (map fst (p :: q :: P)).
      destruct (new_cscan_yields (sort_scan so) (sort_scan_ign so) (p :: q :: P) R) as (o & Ho & Hy); auto.
      { eapply Forall_impl; [|exact HP]. intros r (_ & _ & H3 & H4 & _). split; auto.
        eapply Yields_weaken; eauto. }
      exists o; split; auto. split; [|split]; auto.
Qed.

Definition NoDup_sorted (l : list elem) : Prop := StronglySorted elt l.

Lemma strict_sorted l : StronglySorted elt l -> sorted l.
Proof. induction 1; constructor; auto. eapply Forall_impl; [|eassumption]. intros; left; auto. Qed.

Lemma strict_NoDup l : StronglySorted elt l -> NoDup l.
Proof.
  induction 1 as [|a l Hs IH Hf]; constructor; auto. rewrite Forall_forall in Hf.
  intros Hin. eapply elt_irrefl; eauto.
Qed.

Lemma sorted_NoDup_strict l : sorted l -> NoDup l -> StronglySorted elt l.
Proof.
  induction 1 as [|a l Hs IH Hf]; intros Hn; constructor; inversion Hn; subst; auto.
  rewrite Forall_forall in *. intros x Hx. destruct (Hf x Hx); auto. subst; contradiction.
Qed.

(** The elements held by the collected iterators and by [out]. *)
Definition ovl_inv (first : Z) (St : elem -> Prop) (its : list (pitr * list elem))
  (out : pitr) (lout : list elem) (size : nat) : Prop :=
  Forall (fun p => snd p <> [] /\ Ready true (snd p) (fst p) /\ answers first (snd p) (fst p)) its /\
  answers first lout out /\
  NoDup (contents its ++ lout) /\
  (forall x, St x <-> In x (contents its ++ lout)) /\
  (length (contents its ++ lout) <= size)%nat.

Lemma polled_out first lout out :
  answers first lout out ->
  exists out1, hasNext out = Some (nonempty lout, out1) /\ answers first lout out1 /\
    Ready true lout out1.
Proof.
  intros (Hy & Hs & Hk). destruct (Yields_poll _ _ _ Hy) as (o1 & He & Hr).
  exists o1; split; auto. split; auto. split; [apply Hr|]. auto.
Qed.

Lemma ovl_final so first St its out lout size :
  sorters_ok so -> ovl_inv first St its out lout size -> its <> [] \/ lout <> [] ->
  exists ob out1 o R, hasNext out = Some (ob, out1) /\
    overlay_combine so first (if ob then map fst its ++ [out1] else map fst its) = Some o /\
    answers first R o /\ StronglySorted elt R /\ (forall x, St x <-> In x R) /\
    (length R <= size)%nat.
Proof.
  intros Hso (Hits & Hout & Hnd & Hst & Hlen) Hne.
  destruct (polled_out _ _ _ Hout) as (out1 & He & Ha1 & Hr1).
  destruct (sorted_perm_exists (contents its ++ lout)) as (R & HsR & HpR).
  set (P := if nonempty lout then its ++ [(out1, lout)] else its).
  assert (HP : Forall (fun p => snd p <> [] /\ Ready true (snd p) (fst p) /\ answers first (snd p) (fst p)) P).
  { unfold P. destruct lout; cbn [nonempty]; auto. apply Forall_app; split; auto.
    constructor; [|constructor]. cbn. split; [discriminate|]. auto. }
  assert (HcP : contents P = contents its ++ lout).
  { unfold P. destruct lout; cbn [nonempty]; [now rewrite app_nil_r|].
    rewrite contents_app. cbn. now rewrite app_nil_r. }
  assert (HmP : map fst P = if nonempty lout then map fst its ++ [out1] else map fst its).
  { unfold P. destruct lout; cbn [nonempty]; auto. now rewrite map_app. }
  destruct (combine_ok so first P R) as (o & Ho & Hao); auto.
  { unfold P. destruct lout; cbn [nonempty].
    - destruct Hne; auto; contradiction.
    - destruct its; discriminate. }
  { now rewrite HcP. }
  exists (nonempty lout), out1, o, R. rewrite <- HmP. repeat split; auto; try apply Hao.
  - apply sorted_NoDup_strict; auto. eapply Permutation_NoDup; [symmetry; exact HpR|auto].
  - intros Hx. apply Hst in Hx. eapply Permutation_in; [symmetry; exact HpR|auto].
  - intros Hx. apply Hst. eapply Permutation_in; eauto.
  - apply Permutation_length in HpR. lia.
Qed.

Definition hist_size (h : list (bool * list elem)) : nat :=
  fold_right (fun u n => (length (snd u) + n)%nat) O h.

(** An update and the iterator it gives for the request. *)
Definition diff_ok (first : Z) (u : bool * list elem) (d : bool * pitr) : Prop :=
  fst d = fst u /\ answers first (snd u) (snd d) /\ StronglySorted elt (snd u).

Lemma overlay_loop_ok fuel so first : sorters_ok so ->
  forall h diffs St its out lout size,
  Forall2 (diff_ok first) h diffs -> readable_history St h ->
  ovl_inv first St its out lout size -> (size + hist_size h + 1 < fuel)%nat ->
  exists its' out' lout' size',
    overlay_loop fuel so first diffs (map fst its) out = Some (map fst its', out') /\
    ovl_inv first (replay St h) its' out' lout' size'.
Proof.
  intros Hso. induction h as [|[del d] h IH]; intros diffs St its out lout size HF Hv Hinv Hfu;
    inversion HF as [|? [del' di] ? diffs' (Hd1 & (Hy & Hsd & Hk) & Hstr) HF']; subst.
  - do 4 eexists. split; [reflexivity|exact Hinv].
  - cbn [fst snd] in *. subst del'. destruct Hv as [Hv1 Hv2]. cbn [hist_size fold_right snd] in Hfu.
    fold (hist_size h) in Hfu.
    destruct (polled_out first d di (conj Hy (conj Hsd Hk))) as (d1 & He & Ha1 & Hr1).
    destruct d as [|x d].
    + (* nothing in this update for the request *)
      assert (Hinv' : ovl_inv first (step_set St (del, [])) its out lout size).
      { destruct Hinv as (H1 & H2 & H3 & H4 & H5). repeat split; auto; try apply H2.
        - intros Hx. apply H4. unfold step_set in Hx. cbn in Hx. destruct del; tauto.
        - intros Hx. unfold step_set. cbn. apply H4 in Hx. destruct del; tauto. }
      destruct (IH diffs' _ its out lout size HF' Hv2 Hinv') as (its' & out' & lout' & size' & Hl & Hi).
      { cbn in Hfu; lia. }
      exists its', out', lout', size'. split; auto.
      cbn [overlay_loop]. rewrite He. cbn [nonempty]. destruct del; exact Hl.
    + destruct del; cbn [overlay_loop]; rewrite He; cbn [nonempty].
      * (* delete *)
        destruct (ovl_final so first St its out lout size Hso Hinv)
          as (ob & out1 & o & R & Hhn & Hcomb & (HyR & HsR & HkR) & HstR & HR & HlR).
        { destruct Hinv as (_ & _ & _ & Hst & _).
          destruct Hv1 as [Hv1|[y Hv1]]; [discriminate|]. apply Hst in Hv1.
          destruct lout; [|right; discriminate]. destruct its; [contradiction|left; discriminate]. }
        rewrite Hhn, Hcomb.
        destruct (new_rm_yields fuel R (x :: d) o d1) as (r & Hr & HyRm); auto.
        { eapply Yields_weaken. apply Ha1. }
        { lia. }
        rewrite Hr.
        destruct (IH diffs' (step_set St (true, x :: d)) [] r (filter (keep (x :: d)) R) (length R))
          as (its' & out' & lout' & size' & Hl & Hi); auto.
        { split; [constructor|]. split; [split; [exact HyRm|split]|split; [|split; [intros y; split|]]].
          - apply strict_sorted. clear - HstR. induction HstR as [|a l Hs IHl Hf]; cbn; [constructor|].
            destruct (keep (x :: d) a); auto. constructor; auto.
            rewrite Forall_forall in *. intros y Hy. apply filter_In in Hy. apply Hf; tauto.
          - intros Hf. specialize (HkR Hf). rewrite Forall_forall in *. intros y Hyi.
            apply filter_In in Hyi. apply HkR; tauto.
          - cbn. apply NoDup_filter, strict_NoDup; auto.
          - intros [Hs1 Hs2]. cbn. apply filter_In. split; [now apply HR|].
            apply keep_spec. exact Hs2.
          - intros Hin. cbn in Hin. apply filter_In in Hin as [Hin Hkp].
            apply keep_spec in Hkp. split; [now apply HR|exact Hkp].
          - cbn. clear. induction R as [|a l IHl]; cbn; auto. destruct (keep (x :: d) a); cbn; lia. }
        { lia. }
        exists its', out', lout', size'. split; auto.
      * (* add *)
        destruct (IH diffs' (step_set St (false, x :: d)) (its ++ [(d1, x :: d)]) out lout
                    (size + length (x :: d))%nat)
          as (its' & out' & lout' & size' & Hl & Hi); auto.
        { destruct Hinv as (H1 & H2 & H3 & H4 & H5). 
          assert (Hperm : Permutation (contents (its ++ [(d1, x :: d)]) ++ lout)
                             ((x :: d) ++ contents its ++ lout)).
          { rewrite contents_app. unfold contents at 2. cbn [map concat snd]. rewrite app_nil_r.
            rewrite app_assoc. apply Permutation_app_tail, Permutation_app_comm. }
          split; [|split; [exact H2|split; [|split]]].
          - apply Forall_app; split; auto. constructor; [|constructor]. cbn [fst snd].
            split; [discriminate|]. auto.
          - eapply Permutation_NoDup; [symmetry; exact Hperm|].
            assert (Hnd : NoDup (x :: d)) by now apply strict_NoDup.
            assert (Hdis : forall y, In y (x :: d) -> ~ In y (contents its ++ lout)).
            { intros y Hy1 Hy2. apply (Hv1 y Hy1). now apply H4. }
            revert Hnd Hdis H3. generalize (x :: d) (contents its ++ lout). clear.
            intros l1 l2. induction l1 as [|a l1 IH1]; cbn; auto.
            intros Hn Hd Hn2. inversion Hn; subst. constructor; auto.
            rewrite in_app_iff. intros [Hi|Hi]; [contradiction|]. eapply Hd; eauto.
          - intros y. split.
            + intros Hy1. eapply Permutation_in; [symmetry; exact Hperm|].
              apply in_or_app. destruct Hy1 as [Hy1|Hy1]; [right; now apply H4|now left].
            + intros Hy1. eapply Permutation_in in Hy1; [|exact Hperm].
              apply in_app_or in Hy1 as [Hy1|Hy1]; [now right|left; now apply H4].
          - rewrite (Permutation_length Hperm), app_length. lia. }
        { cbn [length] in *. lia. }
        exists its', out', lout', size'. split; auto.
        rewrite map_app in Hl. exact Hl.
Qed.

Lemma overlay_ok fuel so first base h diffs out :
  sorters_ok so -> answers first base out -> StronglySorted elt base ->
  Forall2 (diff_ok first) h diffs ->
  readable_history (fun x => In x base) h ->
  (length base + hist_size h + 1 < fuel)%nat ->
  exists o R, overlay fuel so first diffs out = Some o /\ Yields true R o /\
    StronglySorted elt R /\ (forall x, In x R <-> replay (fun y => In y base) h x).
Proof.
  intros Hso Ha Hsb HF Hv Hfu.
  destruct (overlay_loop_ok fuel so first Hso h diffs (fun x => In x base) [] out base (length base))
    as (its & out1 & lout & size & Hl & Hinv); auto.
  { repeat split; auto; try apply Ha. cbn. now apply strict_NoDup. }
  unfold overlay. cbn [map] in Hl. rewrite Hl.
  destruct its as [|p its].
  - cbn [map]. exists out1, lout. destruct Hinv as (_ & (Hy & Hs & _) & Hnd & Hst & _).
    cbn in Hnd. repeat split; auto.
    + apply sorted_NoDup_strict; auto.
    + intros Hx. now apply Hst.
    + intros Hx. now apply Hst in Hx.
  - destruct (ovl_final so first _ (p :: its) out1 lout size Hso Hinv)
      as (ob & out2 & o & R & Hhn & Hcomb & (HyR & _) & HstR & HR & _).
    { left; discriminate. }
    exists o, R. cbn [map] in Hcomb |- *. rewrite Hhn. split; [exact Hcomb|].
    repeat split; auto; apply HR.
Qed.
