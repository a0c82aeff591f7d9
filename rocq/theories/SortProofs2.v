(** Lemmas for SortModel: the array, the rounds, the files. *)
From Coq Require Import List ZArith Bool Arith Lia Sorting.Sorted Sorting.Permutation ZifyBool.
Import ListNotations.
From Verif Require Import ItrModel QueryModel FileModel InserterModel NodeModel QuerySpec InserterSpec SortModel SortSpec SortProofs.
Local Open Scope nat_scope.

Notation qlist := (list quad).
Notation rlist := (list (list Z)).

Lemma set_nth_app {A} (u : list A) x v r : set_nth (u ++ x :: v) (length u) r = u ++ r :: v.
Proof. induction u; cbn; congruence. Qed.
Lemma put_ok u x v r : put (u ++ x :: v) (length u) r = Some (u ++ r :: v).
Proof.
  unfold put. rewrite app_length. cbn [length]. destruct (Nat.ltb_spec (length u) (length u + S (length v))); [|lia].
  now rewrite set_nth_app.
Qed.

(** A part of the array: what was loaded, and the free records. *)
Notation part := (list quad * list (list Z))%type.
Definition pbytes (ic : bool) (x : part) : rlist := map (rec_of ic) (fst x) ++ snd x.
Definition plen (x : part) : nat := length (fst x) + length (snd x).
Definition pcnt (x : part) : nat := length (fst x).
Lemma pbytes_length ic x : length (pbytes ic x) = plen x.
Proof. unfold pbytes, plen. now rewrite app_length, map_length. Qed.

Fixpoint layout (mi : nat) (lim : nat -> nat) (i : nat) (ns : list nat) : Prop :=
  match ns with
  | [] => True
  | n :: t => n = lim i /\ (t <> [] -> n = mi) /\ layout mi lim (S i) t
  end.
Lemma layout_mid mi lim i l1 n l2 : layout mi lim i (l1 ++ n :: l2) ->
  list_sum l1 = length l1 * mi /\ n = lim (i + length l1).
Proof.
  revert i. induction l1 as [|m l1 IH]; intros i; cbn [app layout length].
  - intros (E & _). split; [reflexivity|]. now rewrite Nat.add_0_r.
  - intros (E & H & HL). apply IH in HL. destruct HL as [E1 E2]. change (list_sum (m :: l1)) with (m + list_sum l1).
    rewrite H by (now destruct l1). split; [lia|]. rewrite E2. f_equal. lia.
Qed.

Lemma concat_length' ic (F : list part) : length (concat (map (pbytes ic) F)) = list_sum (map plen F).
Proof. induction F; cbn; auto. rewrite app_length, pbytes_length, IHF. reflexivity. Qed.

(** *** Loading *)
Lemma load1_ok ic J : forall st u w cnt,
  load1 ic (length J) (length u) cnt st (u ++ J ++ w) =
  Some (u ++ (map (rec_of ic) (firstn (length J) st) ++ skipn (length (firstn (length J) st)) J) ++ w,
        skipn (length J) st, cnt + length (firstn (length J) st)).
Proof.
  induction J as [|x J IH]; intros st u w cnt.
  - cbn [length load1 firstn map skipn app]. rewrite Nat.add_0_r. now destruct st.
  - cbn [length load1]. destruct st as [|q t]; [cbn [firstn map length skipn app]; now rewrite Nat.add_0_r|].
    cbn [app]. rewrite put_ok. cbn [firstn map length skipn app].
    replace (u ++ rec_of ic q :: J ++ w) with ((u ++ [rec_of ic q]) ++ J ++ w) by now rewrite <- app_assoc.
    replace (S (length u)) with (length (u ++ [rec_of ic q])) by (rewrite app_length; cbn; lia).
    rewrite IH. rewrite <- !app_assoc. cbn [app]. do 2 f_equal. lia.
Qed.

Lemma load_all_ok ic mi lim : forall sts i u Js, length Js = length sts -> length u = i * mi ->
  layout mi lim i (map (@length (list Z)) Js) ->
  exists (F : list part) (sts1 : list qlist),
    load_all ic mi lim i sts (u ++ concat Js) = Some (u ++ concat (map (pbytes ic) F), sts1, map pcnt F) /\
    map plen F = map (@length (list Z)) Js /\ length sts1 = length sts /\
    Permutation (concat (map fst F) ++ concat sts1) (concat sts) /\
    (Forall (fun n => 0 < n) (map (@length (list Z)) Js) -> concat sts <> [] -> concat (map fst F) <> []).
Proof.
  induction sts as [|st t IH]; intros i u [|J Js] HL Hu Hlay; try discriminate.
  - exists [], []. cbn. repeat split; auto.
  - injection HL as HL. cbn [map layout] in Hlay. destruct Hlay as (E1 & E2 & Hlay).
    cbn [load_all concat]. rewrite <- E1, <- Hu. rewrite (load1_ok ic J st u (concat Js) 0).
    set (A := firstn (length J) st). set (J' := skipn (length A) J).
    assert (HA : length A <= length J) by (unfold A; rewrite firstn_length; lia).
    assert (HJ : length A + length J' = length J) by (unfold J'; rewrite skipn_length; lia).
    rewrite app_assoc. cbn [fst snd].
    destruct Js as [|J2 Js].
    + destruct t; [|discriminate]. exists [(A, J')], [skipn (length J) st]. cbn [load_all map concat fst snd pbytes pcnt].
      rewrite !app_nil_r. repeat split; auto.
      * unfold plen. cbn. f_equal. exact HJ.
      * unfold A. now rewrite firstn_skipn.
      * intros HF Hne. inversion HF; subst. unfold A. destruct st; [easy|]. destruct J; [cbn in *; lia|discriminate].
    + specialize (IH (S i) (u ++ map (rec_of ic) A ++ J') (J2 :: Js)).
      destruct IH as (F & sts1 & IH1 & IH2 & IH3 & IH4 & IH5); auto.
      { rewrite !app_length, map_length. rewrite HJ, Hu, (E2 ltac:(discriminate)). lia. }
      rewrite IH1. exists ((A, J') :: F), (skipn (length J) st :: sts1). cbn [map concat fst snd pcnt]. repeat split.
      * change (pbytes ic (A, J')) with (map (rec_of ic) A ++ J'). now rewrite <- !app_assoc.
      * cbn [map] in IH2. rewrite IH2. f_equal. exact HJ.
      * cbn [length]. now rewrite IH3.
      * rewrite <- (firstn_skipn (length J) st) at 2. fold A.
        rewrite <- IH4. rewrite <- !app_assoc. apply Permutation_app_head. rewrite !app_assoc. apply Permutation_app_tail.
        apply Permutation_app_comm.
      * intros HF Hne E. apply app_eq_nil in E. destruct E as [EA EF]. inversion HF; subst.
        assert (st = []) as ->. { unfold A in EA. destruct st; auto. destruct J; [cbn in *; lia|discriminate]. }
        apply IH5; auto.
Qed.

(** *** Filling the holes *)
Definition os_ok (os : list nat) (sts : list qlist) : Prop :=
  NoDup os /\ forall i, In i os <-> nth i sts [] <> [].

Lemma opened_ok sts : os_ok (opened sts) sts.
Proof.
  unfold opened. split; [apply NoDup_filter, seq_NoDup|]. intros i. rewrite filter_In, in_seq. split.
  - intros [_ H]. now destruct (nth i sts []).
  - intros H. split; [|now destruct (nth i sts [])]. split; [lia|]. cbn.
    destruct (Nat.ltb_spec i (length sts)); auto. now rewrite nth_overflow in H.
Qed.

Lemma set_nth_length {A} (l : list A) i v : length (set_nth l i v) = length l.
Proof. revert i. induction l; intros [|i]; cbn; auto. Qed.
Lemma nth_set_nth {A} (l : list A) i j v d : i < length l -> nth j (set_nth l i v) d = if Nat.eqb j i then v else nth j l d.
Proof.
  revert i j. induction l as [|x l IH]; intros i j H; cbn in H; [lia|]. destruct i, j; cbn; auto. apply IH. lia.
Qed.
Lemma take_stream (sts : list qlist) i q t : nth i sts [] = q :: t ->
  Permutation (q :: concat (set_nth sts i t)) (concat sts).
Proof.
  revert i. induction sts as [|s sts IH]; intros [|i]; cbn; try discriminate.
  - intros ->. reflexivity.
  - intros E. rewrite <- (IH i E). apply Permutation_middle.
Qed.

Lemma remove_nth_length {A} i (l : list A) : i < length l -> length (remove_nth i l) = length l - 1.
Proof. intros H. unfold remove_nth. rewrite app_length, firstn_length, skipn_length. lia. Qed.
Lemma remove_nth_split {A} i (l : list A) d : i < length l -> l = firstn i l ++ nth i l d :: skipn (S i) l.
Proof.
  revert i. induction l as [|x l IH]; intros [|i] H; cbn in *; try lia; auto. f_equal. apply IH. lia.
Qed.
Lemma os_remove idx os sts q : idx < length os -> os_ok os sts -> nth (nth idx os 0) sts [] = [q] ->
  os_ok (remove_nth idx os) (set_nth sts (nth idx os 0) []).
Proof.
  intros Hi [Hn Ho] E. pose proof (remove_nth_split idx os 0 Hi) as Es. set (i := nth idx os 0) in *.
  assert (Hl : i < length sts). { destruct (Nat.ltb_spec i (length sts)); auto. now rewrite nth_overflow in E. }
  unfold remove_nth. rewrite Es in Hn. pose proof (NoDup_remove_2 _ _ _ Hn) as Hx. apply NoDup_remove_1 in Hn. split; auto.
  intros j. rewrite nth_set_nth by auto. split.
  - intros H. destruct (Nat.eqb_spec j i) as [->|]; [easy|]. apply Ho. rewrite Es. apply in_app_iff.
    apply in_app_iff in H. destruct H; auto. right. now right.
  - destruct (Nat.eqb_spec j i) as [->|Hj]; [easy|]. intros H. apply Ho in H. rewrite Es in H.
    apply in_app_iff in H. apply in_app_iff. destruct H as [H|[H|H]]; auto. now symmetry in H.
Qed.
Lemma os_keep i os sts q x t : os_ok os sts -> nth i sts [] = q :: x :: t -> os_ok os (set_nth sts i (x :: t)).
Proof.
  intros [Hn Ho] E. assert (Hl : i < length sts). { destruct (Nat.ltb_spec i (length sts)); auto. now rewrite nth_overflow in E. }
  split; auto. intros j. rewrite nth_set_nth by auto. destruct (Nat.eqb_spec j i) as [->|]; [|apply Ho].
  rewrite Ho, E. split; discriminate.
Qed.

Lemma fill_part_ok ic : forall J A idx os sts u w, os_ok os sts -> (os <> [] -> idx < length os) ->
  exists B J' os1 sts1,
    fill_part ic (length J) (length u) (length A) idx os sts (u ++ map (rec_of ic) A ++ J ++ w) =
      Some (u ++ map (rec_of ic) (A ++ B) ++ J' ++ w, sts1, os1, length (A ++ B)) /\
    length B + length J' = length J /\ os_ok os1 sts1 /\ length sts1 = length sts /\
    Permutation (B ++ concat sts1) (concat sts) /\ (J' = [] \/ os1 = []).
Proof.
  induction J as [|x J IH]; intros A idx os sts u w Hos Hidx.
  - exists [], [], os, sts. cbn [length fill_part]. rewrite app_nil_r. repeat split; auto; apply Hos.
  - cbn [length fill_part]. destruct (Nat.ltb_spec idx (length os)) as [Hi|Hi].
    + set (i := nth idx os 0). destruct (nth i sts []) as [|q t] eqn:E.
      { exfalso. assert (In i os) by now apply nth_In. apply Hos in H. congruence. }
      replace (u ++ map (rec_of ic) A ++ (x :: J) ++ w) with ((u ++ map (rec_of ic) A) ++ x :: J ++ w) by now rewrite <- !app_assoc.
      replace (length u + length A) with (length (u ++ map (rec_of ic) A)) by (rewrite app_length, map_length; lia).
      rewrite put_ok.
      replace ((u ++ map (rec_of ic) A) ++ rec_of ic q :: J ++ w) with (u ++ map (rec_of ic) (A ++ [q]) ++ J ++ w)
        by (rewrite map_app, <- !app_assoc; reflexivity).
      replace (S (length A)) with (length (A ++ [q])) by (rewrite app_length; cbn; lia).
      pose proof (take_stream _ _ _ _ E) as HP.
      assert (Hl : i < length sts). { destruct (Nat.ltb_spec i (length sts)); auto. now rewrite nth_overflow in E. }
      assert (K : forall (B : qlist) (J' : rlist) (os1 : list nat) (sts1 : list qlist), length B + length J' = length J ->
        Permutation (B ++ concat sts1) (concat (set_nth sts i t)) ->
        length (q :: B) + length J' = length (x :: J) /\ Permutation ((q :: B) ++ concat sts1) (concat sts) /\ (os1 = os1 :> list nat)).
      { intros B J' os1 sts1 H1 H2. split; [cbn; lia|]. split; auto. cbn [app]. rewrite H2. exact HP. }
      destruct t as [|y t].
      * specialize (IH (A ++ [q]) (if Nat.eqb idx (length (remove_nth idx os)) then 0 else idx) (remove_nth idx os) (set_nth sts i []) u w).
        destruct IH as (B & J' & os1 & sts1 & H1 & H2 & H3 & H4 & H5 & H6).
        { eapply os_remove; eauto. }
        { intros Hne. assert (Hp : 0 < length (remove_nth idx os)) by (destruct (remove_nth idx os); [easy|cbn; lia]).
          rewrite remove_nth_length in * by auto. destruct (Nat.eqb_spec idx (length os - 1)); lia. }
        rewrite H1. exists (q :: B), J', os1, sts1. destruct (K B J' os1 sts1 H2 H5) as (K1 & K2 & _).
        rewrite <- app_assoc. cbn [app]. repeat split; auto; try apply H3. now rewrite H4, set_nth_length.
      * specialize (IH (A ++ [q]) (Nat.modulo (idx + 1) (length os)) os (set_nth sts i (y :: t)) u w).
        destruct IH as (B & J' & os1 & sts1 & H1 & H2 & H3 & H4 & H5 & H6).
        { eapply os_keep; eauto. }
        { intros _. apply Nat.mod_upper_bound. lia. }
        rewrite H1. exists (q :: B), J', os1, sts1. destruct (K B J' os1 sts1 H2 H5) as (K1 & K2 & _).
        rewrite <- app_assoc. cbn [app]. repeat split; auto; try apply H3. now rewrite H4, set_nth_length.
    + exists [], (x :: J), os, sts. rewrite app_nil_r. repeat split; auto; try apply Hos.
      right. destruct os; auto. exfalso. specialize (Hidx ltac:(discriminate)). cbn in *. lia.
Qed.

Lemma cnt_mid (F1 : list part) x F2 : nth (length F1) (map pcnt (F1 ++ x :: F2)) 0 = pcnt x.
Proof. rewrite map_app. rewrite app_nth2; rewrite map_length; [|lia]. now rewrite Nat.sub_diag. Qed.
Lemma cnt_set (F1 : list part) x y F2 :
  set_nth (map pcnt (F1 ++ x :: F2)) (length F1) (pcnt y) = map pcnt (F1 ++ y :: F2).
Proof. rewrite !map_app. cbn [map]. rewrite <- (map_length pcnt F1). apply set_nth_app. Qed.

Lemma fill_ok ic mi lim : forall F2 F1 os sts fuel, 2 * length F2 < fuel -> os_ok os sts ->
  layout mi lim 0 (map plen (F1 ++ F2)) ->
  exists F' sts1,
    fill fuel ic mi lim (length F1) os sts (map pcnt (F1 ++ F2)) (concat (map (pbytes ic) (F1 ++ F2))) =
      Some (concat (map (pbytes ic) F'), sts1, map pcnt F') /\
    map plen F' = map plen (F1 ++ F2) /\ length sts1 = length sts /\
    Permutation (concat (map fst F') ++ concat sts1) (concat (map fst (F1 ++ F2)) ++ concat sts) /\
    length (concat (map fst (F1 ++ F2))) <= length (concat (map fst F')).
Proof.
  induction F2 as [|[A J] F2 IH]; intros F1 os sts fuel Hf Hos Hlay.
  - exists F1, sts. rewrite app_nil_r in *. destruct fuel; [cbn in Hf; lia|]. cbn [fill]. rewrite map_length, Nat.ltb_irrefl. cbn [andb].
    repeat split; auto.
  - assert (Hlen : length F1 <? length (map pcnt (F1 ++ (A, J) :: F2)) = true).
    { rewrite map_length, app_length. cbn. apply Nat.ltb_lt. lia. }
    assert (Hstop : forall fuel os sts F', os = [] -> fill fuel ic mi lim (length F1) os sts (map pcnt F') (concat (map (pbytes ic) F')) =
       Some (concat (map (pbytes ic) F'), sts, map pcnt F')).
    { intros fu os' sts' F' ->. destruct fu; cbn [fill]; now rewrite andb_false_r. }
    destruct os as [|o os].
    { exists (F1 ++ (A, J) :: F2), sts. rewrite Hstop; auto. }
    pose proof Hlay as HM. rewrite map_app in HM. cbn [map] in HM. apply layout_mid in HM. rewrite map_length in HM. destruct HM as [HM1 HM2]. cbn [Nat.add] in HM2.
    destruct fuel as [|fuel]; [lia|]. cbn [length] in Hf.
    assert (Hnext : forall fuel os sts A J, 2 * length F2 < fuel -> os <> [] -> os_ok os sts -> J = [] -> plen (A, J) = lim (length F1) ->
       layout mi lim 0 (map plen (F1 ++ (A, J) :: F2)) ->
       exists F' sts1, fill (S fuel) ic mi lim (length F1) os sts (map pcnt (F1 ++ (A, J) :: F2)) (concat (map (pbytes ic) (F1 ++ (A, J) :: F2))) =
         Some (concat (map (pbytes ic) F'), sts1, map pcnt F') /\
         map plen F' = map plen (F1 ++ (A, J) :: F2) /\ length sts1 = length sts /\
         Permutation (concat (map fst F') ++ concat sts1) (concat (map fst (F1 ++ (A, J) :: F2)) ++ concat sts) /\
         length (concat (map fst (F1 ++ (A, J) :: F2))) <= length (concat (map fst F'))).
    { clear - IH. intros fuel os sts A J Hf Hne Hos HJ HM Hlay. cbn [fill].
      assert (Hlen : length F1 <? length (map pcnt (F1 ++ (A, J) :: F2)) = true).
      { rewrite map_length, app_length. cbn. apply Nat.ltb_lt. lia. }
      rewrite Hlen. destruct os as [|o os]; [easy|]. cbn [andb negb]. rewrite cnt_mid.
      replace (pcnt (A, J) <? lim (length F1)) with false.
      2:{ symmetry. apply Nat.ltb_ge. rewrite <- HM. unfold plen, pcnt. subst J. cbn. lia. }
      specialize (IH (F1 ++ [(A, J)]) (o :: os) sts fuel Hf Hos). rewrite <- app_assoc in IH. cbn [app] in IH.
      replace (length (F1 ++ [(A, J)])) with (S (length F1)) in IH by (rewrite app_length; cbn; lia). now apply IH. }
    destruct J as [|x J].
    { apply Hnext; auto. lia. discriminate. }
    cbn [fill]. rewrite Hlen. cbn [andb negb]. rewrite cnt_mid.
    replace (pcnt (A, x :: J) <? lim (length F1)) with true.
    2:{ symmetry. apply Nat.ltb_lt. rewrite <- HM2. unfold plen, pcnt. cbn. lia. }
    assert (Es : lim (length F1) - pcnt (A, x :: J) = length (x :: J)) by (rewrite <- HM2; unfold plen, pcnt; cbn; lia).
    rewrite Es.
    replace (concat (map (pbytes ic) (F1 ++ (A, x :: J) :: F2))) with
      (concat (map (pbytes ic) F1) ++ map (rec_of ic) A ++ (x :: J) ++ concat (map (pbytes ic) F2)).
    2:{ rewrite map_app, concat_app. cbn [map concat]. unfold pbytes at 4. cbn [fst snd]. now rewrite <- !app_assoc. }
    replace (length F1 * mi) with (length (concat (map (pbytes ic) F1))) by now rewrite concat_length'.
    change (pcnt (A, x :: J)) with (length A).
    destruct (fill_part_ok ic (x :: J) A 0 (o :: os) sts (concat (map (pbytes ic) F1)) (concat (map (pbytes ic) F2))) as
      (B & J' & os1 & sts1 & H1 & H2 & H3 & H4 & H5 & H6); auto.
    { intros _. cbn. lia. }
    rewrite H1. clear H1. cbn [fst snd].
    change (length (A ++ B)) with (pcnt (A ++ B, J')). rewrite cnt_set.
    replace (concat (map (pbytes ic) F1) ++ map (rec_of ic) (A ++ B) ++ J' ++ concat (map (pbytes ic) F2)) with
      (concat (map (pbytes ic) (F1 ++ (A ++ B, J') :: F2))).
    2:{ rewrite map_app, concat_app. cbn [map concat]. unfold pbytes at 2. cbn [fst snd]. now rewrite <- !app_assoc. }
    assert (Hp : plen (A ++ B, J') = plen (A, x :: J)).
    { unfold plen. cbn [fst snd]. rewrite app_length. lia. }
    assert (Hlay' : map plen (F1 ++ (A ++ B, J') :: F2) = map plen (F1 ++ (A, x :: J) :: F2)).
    { rewrite !map_app. cbn [map]. now rewrite Hp. }
    assert (HPm : Permutation (concat (map fst (F1 ++ (A ++ B, J') :: F2)) ++ concat sts1)
                              (concat (map fst (F1 ++ (A, x :: J) :: F2)) ++ concat sts)).
    { rewrite <- H5. rewrite !map_app, !concat_app. cbn [map concat fst]. rewrite <- !app_assoc.
      apply Permutation_app_head, Permutation_app_head. rewrite !app_assoc. apply Permutation_app_tail, Permutation_app_comm. }
    assert (HLe : length (concat (map fst (F1 ++ (A, x :: J) :: F2))) <= length (concat (map fst (F1 ++ (A ++ B, J') :: F2)))).
    { rewrite !map_app, !concat_app, !app_length. cbn [map concat fst]. rewrite !app_length. lia. }
    destruct os1 as [|o1 os1].
    { rewrite Hstop by auto. exists (F1 ++ (A ++ B, J') :: F2), sts1. repeat split; auto. }
    destruct H6 as [HJ|]; [|discriminate].
    destruct fuel as [|fuel]; [lia|].
    destruct (Hnext fuel (o1 :: os1) sts1 (A ++ B) J') as (F' & sts2 & G1 & G2 & G3 & G4 & G5); auto; try discriminate.
    { lia. } { congruence. } { now rewrite Hlay'. }
    rewrite G1. exists F', sts2. repeat split; try congruence; [now rewrite G4, HPm|lia].
Qed.

(** *** Padding *)
Definition padrec (ic : bool) : list Z := repeat 1%Z (rsize ic).
Definition padded (ic : bool) (x : part) : rlist := map (rec_of ic) (fst x) ++ repeat (padrec ic) (length (snd x)).
Lemma pad_part_ok ic : forall J u w,
  pad_part ic (length J) (length u) (u ++ J ++ w) = Some (u ++ repeat (padrec ic) (length J) ++ w).
Proof.
  induction J as [|x J IH]; intros u w; cbn [length pad_part]; auto. cbn [app]. rewrite put_ok.
  replace (u ++ repeat 1%Z (rsize ic) :: J ++ w) with ((u ++ [padrec ic]) ++ J ++ w) by now rewrite <- app_assoc.
  replace (S (length u)) with (length (u ++ [padrec ic])) by (rewrite app_length; cbn; lia).
  rewrite IH. now rewrite <- app_assoc.
Qed.
Lemma pad_ok ic mi lim : forall F i u, length u = i * mi -> layout mi lim i (map plen F) ->
  pad ic mi lim i (map pcnt F) (u ++ concat (map (pbytes ic) F)) = Some (u ++ concat (map (padded ic) F)).
Proof.
  induction F as [|[A J] F IH]; intros i u Hu Hlay; cbn [map pad]; [reflexivity|].
  cbn [map layout] in Hlay. destruct Hlay as (E1 & E2 & Hlay).
  replace (lim i - pcnt (A, J)) with (length J) by (rewrite <- E1; unfold plen, pcnt; cbn; lia).
  cbn [concat]. unfold pbytes at 1. cbn [fst snd].
  replace (u ++ (map (rec_of ic) A ++ J) ++ concat (map (pbytes ic) F)) with
    ((u ++ map (rec_of ic) A) ++ J ++ concat (map (pbytes ic) F)) by now rewrite <- !app_assoc.
  replace (i * mi + pcnt (A, J)) with (length (u ++ map (rec_of ic) A)) by (rewrite app_length, map_length, Hu; reflexivity).
  rewrite pad_part_ok.
  replace ((u ++ map (rec_of ic) A) ++ repeat (padrec ic) (length J) ++ concat (map (pbytes ic) F)) with
    ((u ++ padded ic (A, J)) ++ concat (map (pbytes ic) F)) by (unfold padded; cbn [fst snd]; now rewrite <- !app_assoc).
  destruct F as [|x F].
  - cbn. now rewrite !app_nil_r.
  - rewrite (IH (S i) (u ++ padded ic (A, J))); auto.
    + now rewrite <- app_assoc.
    + unfold padded. rewrite !app_length, map_length, repeat_length. cbn [fst snd]. cbn [map] in E2.
      specialize (E2 ltac:(discriminate)). unfold plen in E2. cbn [fst snd] in E2. lia.
Qed.

Lemma padded_perm ic F : Permutation (concat (map (padded ic) F))
  (map (rec_of ic) (concat (map fst F)) ++ repeat (padrec ic) (list_sum (map plen F) - length (concat (map fst F)))).
Proof.
  assert (H : forall F : list part, length (concat (map fst F)) <= list_sum (map plen F)).
  { clear. intros F. induction F as [|x F IH]; cbn; auto. rewrite app_length. unfold plen at 1. unfold list_sum in *. lia. }
  induction F as [|x F IH]; cbn; auto. rewrite IH. specialize (H F). rewrite app_length.
  change (fold_right Nat.add 0 (map plen F)) with (list_sum (map plen F)).
  replace (plen x + list_sum (map plen F) - (length (fst x) + length (concat (map fst F)))) with
    (length (snd x) + (list_sum (map plen F) - length (concat (map fst F)))) by (change (plen x) with (length (fst x) + length (snd x)); lia).
  rewrite repeat_app, map_app. unfold padded at 1. rewrite <- !app_assoc. apply Permutation_app_head.
  rewrite !app_assoc. apply Permutation_app_tail, Permutation_app_comm.
Qed.

(** The free array, in parts. *)
Lemma split_parts mi lastmi P : forall k i (arr : rlist), i + S k = P -> length arr = k * mi + lastmi ->
  exists Js, arr = concat Js /\ length Js = S k /\
    layout mi (fun i => if Nat.eqb i (P - 1) then lastmi else mi) i (map (@length (list Z)) Js) /\
    Forall (fun n => n = mi \/ n = lastmi) (map (@length (list Z)) Js).
Proof.
  induction k as [|k IH]; intros i arr Hi HL.
  - exists [arr]. cbn. rewrite app_nil_r. replace (Nat.eqb i (P - 1)) with true by (symmetry; apply Nat.eqb_eq; lia).
    repeat split; auto. easy.
  - destruct (IH (S i) (skipn mi arr)) as (Js & E & L & H & HF); [lia|rewrite skipn_length; lia|].
    exists (firstn mi arr :: Js). cbn [concat length map layout]. rewrite <- E, firstn_skipn, L, firstn_length.
    replace (Nat.eqb i (P - 1)) with false by (symmetry; apply Nat.eqb_neq; lia).
    repeat split; auto; try lia. constructor; auto. left. lia.
Qed.

(** *** Dumping *)
Lemma skipn_add {A} a b (l : list A) : skipn a (skipn b l) = skipn (b + a) l.
Proof. revert l. induction b as [|b IH]; intros l; auto. destruct l; cbn; auto. now rewrite skipn_nil. Qed.
Lemma firstn_add {A} a b (l : list A) : firstn (a + b) l = firstn a l ++ firstn b (skipn a l).
Proof. revert l. induction a as [|a IH]; intros l; auto. destruct l; cbn; [now rewrite firstn_nil|]. now rewrite IH. Qed.

Lemma dump_parts_ok ic arr n chunk : forall k from, 1 <= k -> from <= n -> n <= length arr ->
  concat (dump_parts ic arr n chunk k from) = map (of_rec ic) (firstn (n - from) (skipn from arr)) /\
  length (dump_parts ic arr n chunk k from) = k.
Proof.
  induction k as [|k IH]; intros from Hk Hf Hn; [lia|]. cbn [dump_parts concat length].
  destruct k as [|k].
  - cbn. now rewrite app_nil_r.
  - set (next := Nat.min (from + chunk) n). assert (Hx : from <= next <= n) by (unfold next; lia).
    destruct (IH next) as [E L]; try lia. rewrite E, L. split; auto.
    rewrite <- map_app. f_equal. replace (n - from) with ((next - from) + (n - next)) by lia.
    rewrite firstn_add, skipn_add. do 3 f_equal. lia.
Qed.

(** The number of writers divides the number of parts. *)
Definition io_ok (P io : nat) : Prop := 1 <= P /\ 1 <= io /\ P mod io = 0.
Lemma io_div P io : io_ok P io -> P = io * (P / io) /\ 1 <= P / io.
Proof.
  intros (H1 & H2 & H3). pose proof (Nat.div_mod P io ltac:(lia)) as E. rewrite H3, Nat.add_0_r in E. split; auto.
  destruct (P / io); lia.
Qed.
Lemma dump_ok ic P io arr n : io_ok P io -> n <= length arr ->
  exists d, dump ic P io arr n = Some d /\ concat d = map (of_rec ic) (firstn n arr) /\ length d = P.
Proof.
  intros Hio Hn. destruct (io_div P io Hio) as [E1 E2]. destruct Hio as (H1 & H2 & H3). unfold dump.
  replace (Nat.eqb io 0) with false by (symmetry; apply Nat.eqb_neq; lia).
  replace (Nat.eqb (P / io) 0) with false by (symmetry; apply Nat.eqb_neq; lia).
  replace (Nat.ltb (length arr) n) with false by (symmetry; apply Nat.ltb_ge; lia).
  assert (Hd : (P - 1) / (P / io) < io). { apply Nat.div_lt_upper_bound; lia. }
  replace (Nat.ltb ((P - 1) / (P / io)) io) with true by (symmetry; now apply Nat.ltb_lt). cbn [orb negb].
  eexists. split; [reflexivity|]. destruct (dump_parts_ok ic arr n (Nat.max 1 (n / P)) P 0) as [E L]; try lia.
  now rewrite E, Nat.sub_0_r.
Qed.
