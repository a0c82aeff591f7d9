(** Proofs about the row layout. *)
From Coq Require Import Sorted Lia.
From Verif Require Export TableModel TableSpec TableProofs.
From Verif Require Import ArrayProofs.
Local Open Scope Z_scope.
Ltac Zify.zify_post_hook ::= Z.div_mod_to_equations.

Definition rows (w1 w2 : nat) (l : list (Z * Z)) : list Z :=
  flat_map (fun t => enc w1 (fst t) ++ enc w2 (snd t)) l.

Lemma row_write_rows w1 w2 l : row_write w1 w2 l = rows w1 w2 l.
Proof.
  unfold row_write. assert (H : forall out, fold_left (row_append w1 w2) l out = out ++ rows w1 w2 l).
  { induction l as [|t l IH]; intros out; cbn [fold_left rows flat_map]; [now rewrite app_nil_r|].
    rewrite IH. unfold row_append. unfold rows. now rewrite <- !app_assoc. }
  apply H.
Qed.

Lemma rows_length w1 w2 l : zlen (rows w1 w2 l) = bsz w1 w2 * zlen l.
Proof.
  induction l as [|t l IH]; cbn [rows flat_map length]; [lia|].
  unfold rows in IH. rewrite !app_length, !enc_length. unfold bsz in *. nia.
Qed.

Lemma rows_app w1 w2 l l' : rows w1 w2 (l ++ l') = rows w1 w2 l ++ rows w1 w2 l'.
Proof. apply flat_map_app. Qed.

Lemma filter_filter' {A} (p q : A -> bool) l :
  filter p (filter q l) = filter (fun x => q x && p x) l.
Proof.
  induction l as [|x l IH]; [reflexivity|]. cbn. destruct (q x); cbn; rewrite ?IH; auto.
Qed.

Section Row.
Variables (w1 w2 : nat) (m : mem).
Hypothesis W1 : (1 <= w1)%nat.
Let bs := bsz w1 w2.

Definition pfits (x : Z * Z) : Prop := fits w1 (fst x) /\ fits w2 (snd x).
(** Rows l are found at p. *)
Definition here (p : Z) (l : list (Z * Z)) : Prop :=
  contains m p (rows w1 w2 l) /\ Forall pfits l.

Lemma bs_pos : 1 <= bs. Proof. unfold bs, bsz. lia. Qed.

Lemma here_cons p x l : here p (x :: l) ->
  rd w1 m p = Some (fst x) /\ rd w2 m (p + Z.of_nat w1) = Some (snd x) /\ here (p + bs) l /\ pfits x.
Proof.
  intros [H Hf]. inversion Hf as [|? ? [F1 F2] Hf']; subst.
  cbn [rows flat_map] in H. apply contains_app in H as [H1 H2].
  apply contains_app in H1 as [H1 H3]. rewrite enc_length in H3.
  rewrite app_length, !enc_length in H2.
  split; [now apply rd_enc|]. split; [now apply rd_enc|]. split; [|split; auto].
  split; auto. unfold bs, bsz. replace (p + _) with (p + Z.of_nat (w1 + w2)) by lia. exact H2.
Qed.

Lemma here_bound p l : here p l -> 0 <= p /\ p + bs * zlen l <= zlen m.
Proof. intros [H _]. apply contains_bound in H. now rewrite rows_length in H. Qed.

Lemma here_fuel p l : here p l -> (length l < FU m)%nat.
Proof.
  intros H. apply here_bound in H. pose proof bs_pos. unfold FU.
  assert (zlen l <= bs * zlen l) by nia. lia.
Qed.

Lemma here_app p l l' : here p (l ++ l') <-> here p l /\ here (p + bs * zlen l) l'.
Proof.
  unfold here. rewrite rows_app, Forall_app. split.
  - intros [H [F1 F2]]. apply contains_app in H as [H1 H2]. rewrite rows_length in H2. auto.
  - intros [[H1 F1] [H2 F2]]. split; auto. apply contains_join; auto. now rewrite rows_length.
Qed.

Lemma ptr_ltb c n : (c <? c + bs * Z.of_nat (S n)) = true.
Proof. pose proof bs_pos. apply Z.ltb_lt. nia. Qed.
Lemma ptr_eqb c n : (c =? c + bs * Z.of_nat (S n)) = false.
Proof. pose proof bs_pos. apply Z.eqb_neq. nia. Qed.

Lemma row_run_ok strict v l : forall fuel c n, here c l -> (length l < fuel)%nat ->
  row_run fuel strict w1 bs m c (c + bs * zlen l) v n =
  Some (c + bs * zlen (takewhile (eq1 v) l), n + zlen (takewhile (eq1 v) l)).
Proof.
  pose proof bs_pos as Hbs.
  induction l as [|x l IH]; intros fuel c n H Hf; (destruct fuel as [|fuel]; [cbn in Hf; lia|]);
    cbn [row_run].
  - cbn [length takewhile]. change (Z.of_nat 0) with 0.
    replace (if strict then _ else _) with false; [f_equal; f_equal; lia|].
    destruct strict; cbv iota; lia.
  - apply here_cons in H as (H1 & _ & H2 & _).
    replace (if strict then _ else _) with true.
    2:{ cbn [length]. now rewrite ptr_ltb, ptr_eqb; destruct strict. }
    rewrite H1. cbn [takewhile]. unfold eq1 at 1 3. destruct (fst x =? v) eqn:E.
    + cbn [length] in *.
      replace (c + bs * Z.of_nat (S (length l))) with (c + bs + bs * zlen l) by lia.
      rewrite IH by (auto; lia). f_equal. f_equal; lia.
    + cbn [length]. f_equal. f_equal; lia.
Qed.

Lemma row_mv1_ok c1 l : forall fuel c last, here c l -> (length l < fuel)%nat ->
  row_mv1 fuel w1 bs m c (c + bs * zlen l) c1 last =
  Some (c + bs * zlen (takewhile (fun e => fst e <? c1) l),
        match dropwhile (fun e => fst e <? c1) l with
        | x :: _ => fst x
        | [] => match rev l with x :: _ => fst x | [] => last end
        end).
Proof.
  pose proof bs_pos as Hbs.
  induction l as [|x l IH]; intros fuel c last H Hf; (destruct fuel as [|fuel]; [cbn in Hf; lia|]);
    cbn [row_mv1].
  - cbn [length takewhile dropwhile rev]. change (Z.of_nat 0) with 0.
    replace (_ =? _) with true by lia. cbn [negb]. f_equal. f_equal. lia.
  - apply here_cons in H as (H1 & _ & H2 & _).
    cbn [length]. rewrite ptr_eqb. cbn [negb]. rewrite H1.
    cbn [takewhile dropwhile]. destruct (fst x <? c1) eqn:E.
    + replace (c1 <=? fst x) with false by lia. cbn [length] in *.
      replace (c + bs * Z.of_nat (S (length l))) with (c + bs + bs * zlen l) by lia.
      rewrite IH by (auto; lia). f_equal. f_equal; [lia|].
      destruct (dropwhile _ l); auto. cbn [rev]. destruct (rev l) as [|y r] eqn:Er; auto.
    + replace (c1 <=? fst x) with true by lia. cbn [length]. f_equal. f_equal; lia.
Qed.

Lemma row_mv2_ok a c2 l : forall fuel c, here c l -> (length l < fuel)%nat ->
  row_mv2 fuel w1 w2 m c (c + bs * zlen l) a c2 =
  Some (c + bs * zlen (takewhile (fun e => (fst e =? a) && (snd e <? c2)) l)).
Proof.
  pose proof bs_pos as Hbs.
  induction l as [|x l IH]; intros fuel c H Hf; (destruct fuel as [|fuel]; [cbn in Hf; lia|]);
    cbn [row_mv2].
  - cbn [length takewhile dropwhile rev]. change (Z.of_nat 0) with 0.
    replace (_ =? _) with true by lia. cbn [negb]. f_equal. lia.
  - apply here_cons in H as (H1 & H2 & H3 & _).
    cbn [length]. rewrite ptr_eqb. cbn [negb]. rewrite H1.
    cbn [takewhile]. destruct (fst x =? a) eqn:E; cbn [andb].
    + rewrite H2. destruct (snd x <? c2) eqn:E2.
      * cbn [length] in *. change (bsz w1 w2) with bs.
        replace (c + bs * Z.of_nat (S (length l))) with (c + bs + bs * zlen l) by lia.
        rewrite IH by (auto; lia). f_equal; lia.
      * cbn [length]. f_equal; lia.
    + cbn [length]. f_equal; lia.
Qed.

(** *** The object *)
Lemma row_obj_hasNext s : hasNext (row_obj s) = Some (row_hasNext s, row_obj s).
Proof. reflexivity. Qed.
Lemma row_obj_next s : next (row_obj s) =
  match row_next s with Some s' => Some (row_obj s') | None => None end.
Proof. reflexivity. Qed.
Lemma row_obj_cur s : cur (row_obj s) = (r_key s, r_v1 s, r_v2 s).
Proof. reflexivity. Qed.
Lemma row_obj_moveto s c1 c2 : moveto (row_obj s) c1 c2 =
  match row_moveto s c1 c2 with Some s' => Some (row_obj s') | None => None end.
Proof. reflexivity. Qed.
Lemma row_obj_ignore s : ignoreSecondColumn (row_obj s) =
  match row_ignore s with Some s' => Some (row_obj s') | None => None end.
Proof. reflexivity. Qed.
Lemma row_obj_count s : getCount (row_obj s) = Some (r_count s, row_obj s).
Proof. reflexivity. Qed.

(** State over the rest l. *)
Definition row_over (k : Z) (ign : bool) (l : list (Z * Z)) (s : row_st) : Prop :=
  r_w1 s = w1 /\ r_w2 s = w2 /\ r_mem s = m /\ r_key s = k /\ r_ign s = ign /\
  here (r_cur s) l /\ r_end s = r_cur s + bs * zlen l.
Definition row_marked (mk : option (list (Z * Z))) (s : row_st) : Prop :=
  forall l', mk = Some l' -> here (r_mark s) l' /\ r_end s = r_mark s + bs * zlen l' /\
    StronglySorted plt l'.

Definition row_gS (k : Z) (c : option (Z * Z)) (mk : option (list (Z * Z))) (g : list (Z * Z))
  (o : pitr) : Prop :=
  exists s l, o = row_obj s /\ g = groups l /\ StronglySorted plt l /\ row_over k true l s /\
    (forall x, c = Some x -> r_v1 s = fst x /\ r_count s = snd x /\
        Forall (fun e => fst x < fst e) l) /\
    (forall g', mk = Some g' -> exists l', g' = groups l' /\ row_marked (Some l') s).

Lemma row_over_hasNext k ign l s : row_over k ign l s -> row_hasNext s = nonempty l.
Proof.
  intros (_ & _ & _ & _ & _ & H & He). unfold row_hasNext. rewrite He.
  pose proof bs_pos. destruct l; cbn [nonempty length]; [|apply ptr_ltb].
  change (Z.of_nat 0) with 0. lia.
Qed.

Lemma groups_nonempty l : nonempty (groups l) = nonempty l.
Proof.
  destruct l as [|x l]; auto. unfold groups. cbn [map].
  destruct (nodup Z.eq_dec (fst x :: map fst l)) eqn:E; cbn [map nonempty]; auto.
  assert (H : In (fst x) (nodup Z.eq_dec (fst x :: map fst l))) by (apply nodup_In; now left).
  now rewrite E in H.
Qed.

Lemma groups_fst l a : In a (map fst (groups l)) <-> In a (map fst l).
Proof.
  unfold groups. rewrite map_map. cbn [fst]. rewrite map_id. apply nodup_In.
Qed.

(** Groups commute with dropping first values. *)
Lemma groups_filter p l : groups (filter (fun e => p (fst e)) l) = filter (fun g => p (fst g)) (groups l).
Proof.
  unfold groups.
  assert (H1 : nodup Z.eq_dec (map fst (filter (fun e => p (fst e)) l)) =
               filter p (nodup Z.eq_dec (map fst l))).
  { induction l as [|x l IH]; [reflexivity|]. cbn [filter map nodup].
    destruct (p (fst x)) eqn:E; cbn [map nodup].
    - destruct (in_dec Z.eq_dec (fst x) (map fst l)) as [H|H];
        destruct (in_dec Z.eq_dec (fst x) (map fst (filter (fun e => p (fst e)) l))) as [H'|H'];
        cbn [filter]; rewrite ?E, ?IH; auto; exfalso.
      + apply H'. apply in_map_iff in H as (y & Ey & Hy). apply in_map_iff. exists y. split; auto.
        apply filter_In. split; auto. now rewrite Ey.
      + apply H. apply in_map_iff in H' as (y & Ey & Hy). apply in_map_iff. exists y. split; auto.
        now apply filter_In in Hy.
    - destruct (in_dec Z.eq_dec (fst x) (map fst l)); cbn [filter]; rewrite ?E; auto. }
  rewrite H1. clear H1. generalize (nodup Z.eq_dec (map fst l)). intros as_.
  induction as_ as [|a as_ IH]; [reflexivity|]. cbn [filter map fst].
  destruct (p a) eqn:E; cbn [map]; rewrite IH; auto. f_equal. f_equal. f_equal. f_equal.
  clear IH. induction l as [|x l IHl]; [reflexivity|]. cbn [filter].
  destruct (p (fst x)) eqn:E1, (fst x =? a) eqn:E2; cbn [filter]; rewrite ?E2, ?IHl; auto.
  assert (fst x = a) by lia. congruence.
Qed.

Lemma row_gsim k : gcursor_sim k false (row_gS k).
Proof.
  pose proof bs_pos as Hbs.
  intros c mk g o (s & l & -> & -> & Hs & Ho & Hc & Hm).
  assert (Hn := row_over_hasNext _ _ _ _ Ho).
  assert (Hself : row_gS k c mk (groups l) (row_obj s)) by (exists s, l; auto 7).
  destruct Ho as (E1 & E2 & E3 & E4 & E5 & Hh & He).
  assert (Hmk : forall s', r_mark s' = r_mark s -> r_end s' = r_end s ->
    forall g', mk = Some g' -> exists l', g' = groups l' /\ row_marked (Some l') s').
  { intros s' M1 M2 g' Hg'. destruct (Hm g' Hg') as (l' & -> & Hl'). exists l'; split; auto.
    unfold row_marked in *. now rewrite M1, M2. }
  split; [|split; [|split; [|split]]].
  - rewrite row_obj_hasNext, Hn, groups_nonempty. split; auto.
    destruct l as [|x l]; [exact I|]. rewrite (groups_cons x l Hs).
    pose proof (here_fuel _ _ Hh) as Hfu.
    destruct (here_cons _ _ _ Hh) as (R1 & _ & Hh' & _).
    rewrite row_obj_next. unfold row_next, r_bs. rewrite E1, E2, E3, E5, R1. fold bs.
    pose proof (row_run_ok false (fst x) l (FU m) (r_cur s + bs) 1 Hh'
                  ltac:(cbn [length] in Hfu; lia)) as RR.
    replace (r_cur s + bs + bs * zlen l) with (r_end s) in RR by (rewrite He; cbn [length]; lia).
    rewrite RR.
    eexists; split; [reflexivity|]. split; [exact E4|]. split; [reflexivity|].
    eexists _, _. split; [reflexivity|]. split; [reflexivity|].
    split; [apply SS_dw; now apply SS_tail in Hs|].
    rewrite <- (tw_dw (eq1 (fst x)) l) in Hh'. apply here_app in Hh' as [_ Hh'].
    split; [|split].
    + unfold row_over. cbn [r_w1 r_w2 r_mem r_key r_ign r_cur r_end]. rewrite He.
      do 5 (split; auto). split; auto.
      rewrite <- (tw_dw (eq1 (fst x)) l) at 1. cbn [length]. rewrite app_length. lia.
    + intros y [= <-]. cbn. repeat split; auto.
      inversion Hs as [|? ? Hs' Hf]; subst. rewrite groups_filter_ne; auto.
      * apply Forall_forall. intros y Hy. apply filter_In in Hy as [Hy Hy'].
        rewrite Forall_forall in Hf. specialize (Hf y Hy). unfold plt in Hf. lia.
      * intros y Hy. rewrite Forall_forall in Hf. specialize (Hf y Hy). unfold plt in Hf. lia.
    + apply Hmk; reflexivity.
  - rewrite row_obj_count. eexists; split; [reflexivity|].
    intros x Hx. destruct (Hc x Hx) as (_ & H & _). exact H.
  - intros x c1 c2 Hx Hc1 [Hd|[Hd Hc2]]; [discriminate|]. destruct (Hc x Hx) as (V1 & _ & Hf).
    rewrite row_obj_moveto. unfold row_moveto. rewrite Hn, V1, E5. cbn [negb andb].
    replace (fst x <? c1) with true by lia. cbn [orb filter].
    replace (c1 <=? fst x) with false by lia.
    assert (Hd2 : filter (fun g => c1 <=? fst g) (groups l) =
                  groups (dropwhile (fun e => fst e <? c1) l)).
    { rewrite <- (groups_filter (fun a => c1 <=? a)). f_equal.
      rewrite (dw_filter plt); auto; [|intros ? ? _; unfold plt; lia].
      apply filter_ext. intros y. lia. }
    rewrite Hd2.
    replace (0 <? c2) with false by lia. cbn [andb].
    destruct l as [|y l].
    + cbn [nonempty negb andb]. eexists; split; [reflexivity|].
      exists s, []. split; auto. split; auto. split; auto.
      split; [unfold row_over; auto 8|]. split; [discriminate|]. apply Hmk; reflexivity.
    + cbn [nonempty negb andb]. unfold r_bs. rewrite ?E1, ?E2, ?E3. fold bs.
      rewrite He. rewrite row_mv1_ok by (auto; now apply (here_fuel _ _ Hh)).
      eexists; split; [reflexivity|].
      eexists _, _. split; [reflexivity|]. split; [reflexivity|].
      split; [now apply SS_dw|].
      rewrite <- (tw_dw (fun e => fst e <? c1) (y :: l)) in Hh. apply here_app in Hh as [Hh1 Hh2].
      split; [|split; [discriminate|apply Hmk; reflexivity]].
      unfold row_over. cbn [row_at r_w1 r_w2 r_mem r_key r_ign r_cur r_end].
      do 5 (split; auto). split; auto. rewrite He.
      rewrite <- (tw_dw (fun e => fst e <? c1) (y :: l)) at 1. rewrite app_length. lia.
  - exists (row_obj (row_mark s)). split; [reflexivity|]. exists (row_mark s), l.
    split; auto. split; auto. split; auto. split; [unfold row_over; cbn; auto 8|].
    split; [exact Hc|]. intros g' [= <-]. exists l. split; auto. intros l' [= <-]. cbn. auto.
  - intros g' i Hg'. destruct (Hm g' Hg') as (l' & -> & Hl').
    destruct (Hl' l' eq_refl) as (L1 & L2 & L3).
    exists (row_obj (row_reset s)). split; [reflexivity|]. exists (row_reset s), l'.
    split; auto. split; auto. split; auto. split; [unfold row_over; cbn; auto 8|].
    split; [discriminate|]. apply Hmk; reflexivity.
Qed.

Definition row_S (k : Z) (c : option (Z * Z)) (mk : option (list (Z * Z))) (l : list (Z * Z))
  (o : pitr) : Prop :=
  exists s, o = row_obj s /\ StronglySorted plt l /\ row_over k false l s /\ r_count s = 1 /\
    (forall x, c = Some x -> r_v1 s = fst x /\ r_v2 s = snd x /\ here (r_cur s - bs) (x :: l) /\
        StronglySorted plt (x :: l)) /\
    row_marked mk s.

Lemma row_ignore_fresh k l s : StronglySorted plt l -> row_over k false l s -> r_v1 s = -1 ->
  exists o1, ignoreSecondColumn (row_obj s) = Some o1 /\ GCursor k false (groups l) o1.
Proof.
  intros Hs (E1 & E2 & E3 & E4 & E5 & Hh & He) V.
  rewrite row_obj_ignore. unfold row_ignore. rewrite V. cbn [Z.eqb negb].
  eexists; split; [reflexivity|]. exists (row_gS k). split; [apply row_gsim|].
  eexists _, l. split; [reflexivity|]. split; auto. split; auto.
  split; [unfold row_over; cbn; auto 8|]. split; discriminate.
Qed.

Lemma row_sim k : cursor_sim k false (row_S k).
Proof.
  pose proof bs_pos as Hbs.
  intros c mk l o (s & -> & Hs & Ho & Hn1 & Hc & Hm).
  assert (Hn := row_over_hasNext _ _ _ _ Ho).
  assert (Hself : row_S k c mk l (row_obj s)) by (exists s; auto 7).
  destruct Ho as (E1 & E2 & E3 & E4 & E5 & Hh & He).
  split; [|split; [|split; [|split; [|split]]]].
  - rewrite row_obj_hasNext, Hn. split; auto.
    destruct l as [|x l]; [exact I|].
    destruct (here_cons _ _ _ Hh) as (R1 & R2 & Hh' & _).
    rewrite row_obj_next. unfold row_next. rewrite E1, E2, E3, E5, R1, R2.
    eexists; split; [reflexivity|]. split; [rewrite row_obj_cur; cbn; now rewrite E4|].
    eexists. split; [reflexivity|]. split; [now apply SS_tail in Hs|].
    split; [|split; [exact Hn1|split; [|exact Hm]]].
    + unfold row_over. cbn [r_w1 r_w2 r_mem r_key r_ign r_cur r_end].
      do 5 (split; auto). unfold bs, bsz in *. rewrite Z.add_assoc in Hh'. split; auto.
      rewrite He. cbn [length]. lia.
    + intros y [= <-]. cbn [r_v1 r_v2 r_cur]. split; auto. split; auto. split; auto.
      unfold bs, bsz. now replace (_ - _) with (r_cur s) by lia.
  - rewrite row_obj_count, Hn1. reflexivity.
  - intros x c1 c2 Hx Hc1 Hc2. destruct (Hc x Hx) as (V1 & V2 & Hh' & Hs').
    rewrite row_obj_moveto. unfold row_moveto. rewrite Hn, V1, V2, E5. cbn [negb andb].
    set (beyond := (fst x <? c1) || (c1 =? fst x) && (snd x <? c2)).
    assert (Hb : pair_lt x c1 c2 = beyond) by (unfold pair_lt, beyond; rewrite Z.eqb_sym; reflexivity).
    assert (Hmono : forall u v : Z * Z, plt u v -> pair_lt v c1 c2 = true -> pair_lt u c1 c2 = true)
      by (intros u v; unfold plt, pair_lt; lia).
    rewrite <- (dw_filter plt (fun e => pair_lt e c1 c2)) by (auto; intros; eapply Hmono; eauto).
    cbn [dropwhile]. rewrite Hb. destruct beyond eqn:Eb.
    + rewrite andb_true_r.
      assert (Hdd : dropwhile (fun e => pair_lt e c1 c2) l =
        dropwhile (fun e => (fst e =? c1) && (snd e <? c2)) (dropwhile (fun e => fst e <? c1) l)).
      { rewrite (dw_filter plt) by (auto; intros; eapply Hmono; eauto).
        rewrite (dw_filter plt (fun e => (fst e =? c1) && (snd e <? c2))).
        - rewrite (dw_filter plt (fun e => fst e <? c1)) by (auto; intros ? ? _; unfold plt; lia).
          rewrite filter_filter'. apply filter_ext. intros y. unfold pair_lt. lia.
        - now apply SS_dw.
        - intros u v Hu Huv Hv. rewrite (dw_filter plt) in Hu by (auto; intros ? ? _; unfold plt; lia).
          apply filter_In in Hu as [_ Hu]. unfold plt in Huv. lia. }
      rewrite Hdd.
      destruct l as [|y l].
      * cbn [nonempty negb]. eexists; split; [reflexivity|]. exists s. split; auto. split; [constructor|].
        split; [unfold row_over; auto 8|]. split; auto. split; [discriminate|]. exact Hm.
      * cbn [nonempty negb]. unfold r_bs. rewrite ?E1, ?E2, ?E3. fold bs.
        rewrite He, row_mv1_ok by (auto; now apply (here_fuel _ _ Hh)). rewrite <- He.
        set (p := fun e : Z * Z => fst e <? c1). set (q := fun e : Z * Z => (fst e =? c1) && (snd e <? c2)).
        set (d := dropwhile p (y :: l)) in *.
        set (t := takewhile p (y :: l)) in *.
        assert (Hlen : zlen (y :: l) = zlen t + zlen d)
          by (rewrite <- (tw_dw p (y :: l)), app_length; unfold t, d; lia).
        assert (HS : StronglySorted plt d) by (apply SS_dw; auto).
        assert (Hh2 : here (r_cur s + bs * zlen t) d).
        { unfold t, d. apply (here_app _ (takewhile p (y :: l))). now rewrite tw_dw. }
        assert (He2 : r_end s = r_cur s + bs * zlen t + bs * zlen d) by lia.
        assert (Hfin : forall n, n = r_cur s + bs * zlen t + bs * zlen (takewhile q d) ->
          row_S k None mk (dropwhile q d) (row_obj (row_at s n))).
        { intros n ->. exists (row_at s (r_cur s + bs * zlen t + bs * zlen (takewhile q d))).
          split; auto. split; [now apply SS_dw|]. split; [|split; auto; split; [discriminate|exact Hm]].
          unfold row_over. cbn [row_at r_w1 r_w2 r_mem r_key r_ign r_cur r_end].
          do 5 (split; auto). split.
          - apply (here_app _ (takewhile q d)). now rewrite tw_dw.
          - rewrite He2. rewrite <- (tw_dw q d) at 1. rewrite app_length. lia. }
        destruct ((0 <? c2) && _ && _) eqn:Econd.
        -- assert (d <> []). { intros Hd. rewrite Hd in He2. cbn [length] in He2. lia. }
           clearbody d t. destruct d as [|z d]; [congruence|].
           destruct (here_cons _ _ _ Hh2) as (Z1 & _ & _ & _). rewrite Z1.
           rewrite He2. rewrite (row_mv2_ok (fst z) c2 (z :: d)) by (auto; now apply (here_fuel _ _ Hh2)).
           eexists; split; [reflexivity|]. apply Hfin.
           replace (fst z) with c1 by (cbn in Econd; lia). reflexivity.
        -- eexists; split; [reflexivity|]. apply Hfin.
           replace (takewhile q d) with (@nil (Z * Z)); [cbn; lia|].
           clearbody d t. destruct d as [|z d]; [reflexivity|]. cbn [takewhile].
           replace (q z) with false; auto. symmetry. unfold q.
           destruct (fst z =? c1) eqn:Ez; auto. cbn [andb].
           destruct (here_cons _ _ _ Hh2) as (_ & _ & _ & [_ F2]). unfold fits in F2.
           destruct (0 <? c2) eqn:E0; [|lia]. cbn [andb] in Econd.
           rewrite He2 in Econd. cbn [length] in Econd. rewrite ptr_eqb in Econd. cbn in Econd. congruence.
    + rewrite andb_false_r. eexists; split; [reflexivity|]. unfold r_bs. rewrite E1, E2. fold bs.
      exists (row_at s (r_cur s - bs)). split; auto. split; auto. split; [|split; auto; split; [discriminate|exact Hm]].
      unfold row_over. cbn [row_at r_w1 r_w2 r_mem r_key r_ign r_cur r_end].
      do 5 (split; auto). split; auto. rewrite He. cbn [length]. lia.
  - exists (row_obj (row_mark s)). split; [reflexivity|]. exists (row_mark s).
    split; auto. split; auto. split; [unfold row_over; cbn; auto 8|]. split; auto.
    split; [exact Hc|]. intros l' [= <-]. cbn. auto.
  - intros l' i Hl'. destruct (Hm l' Hl') as (L1 & L2 & L3).
    exists (row_obj (row_reset s)). split; [reflexivity|]. exists (row_reset s).
    split; auto. split; auto. split; [unfold row_over; cbn; auto 8|]. split; auto.
    split; [discriminate|exact Hm].
  - intros x Hx. destruct (Hc x Hx) as (V1 & V2 & Hh' & Hs').
    rewrite row_obj_ignore. unfold row_ignore.
    destruct (here_cons _ _ _ Hh') as (_ & _ & _ & [F1 _]). unfold fits in F1.
    rewrite V1. replace (fst x =? -1) with false by lia. cbn [negb].
    unfold r_bs. rewrite E1, E2, E3. fold bs. rewrite He, row_run_ok by (auto; now apply (here_fuel _ _ Hh)).
    eexists; split; [reflexivity|]. exists (row_gS k). split; [apply row_gsim|].
    eexists _, (dropwhile (eq1 (fst x)) l). split; [reflexivity|].
    split.
    { rewrite groups_filter_ne; auto. intros y Hy. inversion Hs' as [|? ? _ Hf]; subst.
      rewrite Forall_forall in Hf. specialize (Hf y Hy). unfold plt in Hf. lia. }
    split; [now apply SS_dw|]. split; [|split; discriminate].
    unfold row_over. cbn [row_at r_w1 r_w2 r_mem r_key r_ign r_cur r_end].
    do 5 (split; auto). split.
    + apply (here_app _ (takewhile (eq1 (fst x)) l)). now rewrite tw_dw.
    + rewrite <- (tw_dw (eq1 (fst x)) l) at 1. rewrite app_length. lia.
Qed.

Lemma row_first k l s : StronglySorted plt l -> row_over k false l s -> r_count s = 1 ->
  IgnoresFirst k false l (row_obj s).
Proof.
  pose proof bs_pos as Hbs.
  intros Hs (E1 & E2 & E3 & E4 & E5 & Hh & He) Hn1 Hne. destruct l as [|x l]; [congruence|]. clear Hne.
  destruct (here_cons _ _ _ Hh) as (R1 & R2 & Hh' & [F1 _]). unfold fits in F1.
  rewrite row_obj_next. unfold row_next. rewrite E1, E2, E3, E5, R1, R2.
  eexists _, _, (row_gS k), _, _. split; [reflexivity|].
  rewrite row_obj_ignore. unfold row_ignore, r_bs. cbn [r_v1 r_w1 r_w2 r_mem r_cur r_end r_count].
  replace (fst x =? -1) with false by lia. cbn [negb].
  rewrite ?E1, ?E2, ?E3, Hn1. unfold bs, bsz in Hh', He. rewrite Z.add_assoc in Hh'.
  pose proof (row_run_ok true (fst x) l (FU m) _ 1 Hh' ltac:(pose proof (here_fuel _ _ Hh) as Hfu; cbn [length] in Hfu; lia)) as RR.
  replace (r_cur s + Z.of_nat w1 + Z.of_nat w2 + bs * zlen l) with (r_end s) in RR
    by (rewrite He; unfold bs, bsz; cbn [length]; lia).
  fold bs. rewrite RR.
  split; [reflexivity|]. rewrite (groups_cons x l Hs). split; [reflexivity|].
  split; [exact E4|]. split; [reflexivity|]. split; [apply row_gsim|].
  eexists _, _. split; [reflexivity|]. split; [reflexivity|].
  split; [apply SS_dw; now apply SS_tail in Hs|].
  rewrite <- (tw_dw (eq1 (fst x)) l) in Hh'. apply here_app in Hh' as [_ Hh'].
  split; [|split; [|discriminate]].
  - unfold row_over. cbn [r_w1 r_w2 r_mem r_key r_ign r_cur r_end]. rewrite He.
    do 5 (split; auto). split; auto. unfold bs, bsz.
    rewrite <- (tw_dw (eq1 (fst x)) l) at 1. cbn [length]. rewrite app_length. lia.
  - intros y [= <-]. cbn. repeat split; auto.
    inversion Hs as [|? ? Hs' Hf]; subst. rewrite groups_filter_ne; auto.
    + apply Forall_forall. intros y Hy. apply filter_In in Hy as [Hy Hy'].
      rewrite Forall_forall in Hf. specialize (Hf y Hy). unfold plt in Hf. lia.
    + intros y Hy. rewrite Forall_forall in Hf. specialize (Hf y Hy). unfold plt in Hf. lia.
Qed.

Lemma row_cursor k l s : StronglySorted plt l -> here s l ->
  Table k false l (row_obj (row_setup w1 w2 m k s (s + bs * zlen l))).
Proof.
  intros Hs Hh. assert (Ho : row_over k false l (row_setup w1 w2 m k s (s + bs * zlen l)))
    by (unfold row_over; cbn; auto 8).
  split; [|split].
  - exists (row_S k). split; [apply row_sim|]. eexists. split; [reflexivity|].
    split; auto. split; auto. split; auto. split; discriminate.
  - now apply row_ignore_fresh.
  - now apply row_first.
Qed.

(** *** Opening with constraints *)
Lemma here_nth s l i : here s l -> 0 <= i < len l ->
  rd w1 m (s + i * bs) = Some (fst (nthp l i)) /\ here (s + i * bs) (from l i).
Proof.
  intros H Hi. assert (H' : here (s + i * bs) (from l i)).
  { change l with (from l 0) in H at 1. rewrite (from_split l 0 i) in H by lia.
    apply here_app in H as [_ H]. rewrite firstn_length in H.
    change (length (from l 0)) with (length l) in H. unfold len in Hi.
    replace (Nat.min (Z.to_nat (i - 0)) (length l)) with (Z.to_nat i) in H by lia.
    rewrite Z2Nat.id in H by lia. now rewrite Z.mul_comm. }
  split; auto. rewrite from_cons in H' by lia. now apply here_cons in H'.
Qed.

Lemma plt_psorted l : StronglySorted plt l -> psorted l.
Proof.
  induction 1 as [|x l Hs IH Hf]; constructor; auto.
  eapply Forall_impl; [|exact Hf]. unfold plt, ple. intros; lia.
Qed.

Lemma quot_bs i j s : i <= j -> Z.quot (s + j * bs - (s + i * bs)) bs = j - i.
Proof.
  intros H. pose proof bs_pos. replace (_ - _) with ((j - i) * bs) by lia.
  apply Z.quot_mul. lia.
Qed.

Lemma row_halve_ok s l c1 : here s l -> StronglySorted plt l ->
  forall fuel i j, 0 <= i <= j -> j <= len l -> i < len l -> j - i < Z.of_nat fuel ->
  (forall a, 0 <= a < i -> fst (nthp l a) < c1) -> (i = 0 \/ fst (nthp l i) < c1) ->
  exists i', row_halve fuel w1 bs m (s + i * bs) (s + j * bs) (j - i) c1 = Some (s + i' * bs) /\
    0 <= i' < len l /\ (forall a, 0 <= a < i' -> fst (nthp l a) < c1) /\
    (i' = 0 \/ fst (nthp l i') < c1).
Proof.
  intros Hh Hs. assert (Hp := plt_psorted l Hs).
  induction fuel as [|fuel IH]; intros i j Hij Hj Hi Hf Hlow Hi0; [lia|].
  cbn [row_halve]. destruct (64 <? j - i) eqn:E; [|exists i; repeat split; auto; lia].
  set (mid := i + (j - i) / 2).
  replace (s + i * bs + (j - i) / 2 * bs) with (s + mid * bs) by (unfold mid; lia).
  assert (Hmid : i < mid < j - 1) by (unfold mid; lia).
  destruct (here_nth s l mid Hh ltac:(lia)) as [R _]. rewrite R.
  destruct (fst (nthp l mid) <? c1) eqn:E1.
  - rewrite quot_bs by lia. apply IH; try lia.
    intros a Ha. pose proof (psorted_fst l a mid Hp ltac:(lia) ltac:(lia)). lia.
  - replace (s + mid * bs - bs) with (s + (mid - 1) * bs) by lia.
    rewrite quot_bs by lia. apply IH; auto; lia.
Qed.

Lemma row_bsearch_ok s l c1 : here s l -> StronglySorted plt l -> l <> [] ->
  exists i, row_bsearch w1 bs m s (s + bs * zlen l) c1 = Some (s + i * bs) /\
    0 <= i < len l /\ (forall a, 0 <= a < i -> fst (nthp l a) < c1).
Proof.
  intros Hh Hs Hne. pose proof bs_pos. unfold row_bsearch.
  assert (Hl : 0 < len l) by (unfold len; destruct l; [congruence|cbn; lia]).
  pose proof (quot_bs 0 (len l) s ltac:(lia)) as Hq.
  replace (s + len l * bs - (s + 0 * bs)) with (s + bs * zlen l - s) in Hq by (unfold len; lia).
  rewrite Hq. destruct (64 <? len l - 0) eqn:E.
  - destruct (row_halve_ok s l c1 Hh Hs (FU m) 0 (len l)) as (i & Hr & Hi & Hlow & Hi0); try lia.
    { pose proof (here_fuel _ _ Hh). unfold len. lia. }
    replace (s + 0 * bs) with s in Hr by lia.
    replace (s + len l * bs) with (s + bs * zlen l) in Hr by (unfold len; lia).
    rewrite Hr. exists i. split; auto. unfold FU at 1. cbn [row_back].
    destruct (s <? s + i * bs) eqn:E1; auto.
    destruct (here_nth s l i Hh Hi) as [R _]. rewrite R.
    destruct Hi0 as [->|Hi0]; [lia|]. now replace (_ =? c1) with false by lia.
  - exists 0. split; [f_equal; lia|]. split; [lia|]. intros; lia.
Qed.

Lemma row_fwd1_ok c1 l : forall fuel x s, here s (x :: l) -> (length l < fuel)%nat ->
  exists l1 y l2, x :: l = l1 ++ y :: l2 /\ Forall (fun e => fst e < c1) l1 /\
    (c1 <= fst y \/ l2 = []) /\
    row_fwd1 fuel w1 bs m s (s + bs * zlen (x :: l)) (fst x) c1 = Some (s + bs * zlen l1, fst y).
Proof.
  pose proof bs_pos as Hbs.
  induction l as [|x' l IH]; intros fuel x s Hh Hf; (destruct fuel as [|fuel]; [cbn in Hf; lia|]).
  - exists [], x, []. split; auto. split; auto. split; auto. cbn [row_fwd1 length].
    change (Z.of_nat 1) with 1. replace (s + bs <? s + bs * 1) with false by lia.
    rewrite andb_false_r. f_equal. f_equal. change (Z.of_nat 0) with 0. lia.
  - cbn [row_fwd1]. destruct (fst x <? c1) eqn:E.
    + apply here_cons in Hh as (_ & _ & Hh & _). pose proof (here_cons _ _ _ Hh) as (R & _ & _ & _).
      replace (s + bs <? s + bs * zlen (x :: x' :: l)) with true
        by (cbn [length]; symmetry; apply Z.ltb_lt; nia).
      cbn [andb]. rewrite R.
      destruct (IH fuel x' (s + bs) Hh ltac:(cbn in Hf; lia)) as (l1 & y & l2 & E1 & E2 & E3 & E4).
      replace (s + bs * zlen (x :: x' :: l)) with (s + bs + bs * zlen (x' :: l)) by (cbn [length]; lia).
      rewrite E4. exists (x :: l1), y, l2. split; [cbn; now rewrite E1|].
      split; [constructor; auto; lia|]. split; auto. f_equal. f_equal. cbn [length]. lia.
    + cbn [andb]. exists [], x, (x' :: l). split; auto. split; auto. split; [left; lia|].
      f_equal. f_equal. change (zlen []) with 0. lia.
Qed.

Lemma row_endrun_ok c1 l : forall fuel s, here s l -> (length l < fuel)%nat ->
  row_endrun fuel w1 bs m s (s + bs * zlen l) c1 = Some (s + bs * zlen (takewhile (eq1 c1) l)).
Proof.
  pose proof bs_pos as Hbs.
  induction l as [|x l IH]; intros fuel s H Hf; (destruct fuel as [|fuel]; [cbn in Hf; lia|]);
    cbn [row_endrun].
  - cbn [length takewhile]. change (Z.of_nat 0) with 0. replace (_ <? _) with false by lia. f_equal. lia.
  - apply here_cons in H as (R & _ & H & _). cbn [length]. rewrite ptr_ltb, R.
    cbn [takewhile]. unfold eq1 at 1. destruct (fst x =? c1) eqn:E.
    + cbn [length] in *.
      replace (s + bs * Z.of_nat (S (length l))) with (s + bs + bs * zlen l) by lia.
      rewrite IH by (auto; lia). f_equal; lia.
    + cbn [length]. f_equal; lia.
Qed.

Lemma from_SS l i : StronglySorted plt l -> StronglySorted plt (from l i).
Proof.
  intros H. unfold from. rewrite <- (firstn_skipn (Z.to_nat i) l) in H. now apply SS_app_r in H.
Qed.

Lemma tw_eq1_filter a l : StronglySorted plt l -> (forall x, In x l -> a <= fst x) ->
  takewhile (eq1 a) l = filter (fun e => fst e =? a) l.
Proof.
  intros Hs Ha. apply takewhile_filter. intros pre x post -> Hx. unfold eq1 in *.
  apply Forall_forall. intros y Hy. apply SS_app_r in Hs. inversion Hs as [|? ? _ Hf]; subst.
  rewrite Forall_forall in Hf. specialize (Hf y Hy).
  specialize (Ha x (in_elt x pre post)). unfold plt in Hf. lia.
Qed.

Lemma filter_pm1 c1 l : c1 <> -1 -> filter (pair_matches c1 (-1)) l = filter (fun e => fst e =? c1) l.
Proof. intros H. apply filter_ext. intros e. unfold pair_matches. lia. Qed.

Lemma row_setup1_ok k l s c1 : here s l -> StronglySorted plt l -> l <> [] -> 0 <= c1 ->
  exists st, row_setup1 w1 w2 m k c1 s (s + bs * zlen l) = Some st /\
    Table k false (filter (pair_matches c1 (-1)) l) (row_obj st).
Proof.
  intros Hh Hs Hne Hc. pose proof bs_pos as Hbs. unfold row_setup1. fold bs.
  destruct (row_bsearch_ok s l c1 Hh Hs Hne) as (i & Hr & Hi & Hlow). rewrite Hr.
  destruct (here_nth s l i Hh Hi) as [R Hhi]. rewrite R.
  rewrite filter_pm1 by lia.
  rewrite (filter_from l i) by (try lia; intros j Hj; specialize (Hlow j Hj); lia).
  assert (Hsi := from_SS l i Hs).
  assert (Hlen : s + bs * zlen l = s + i * bs + bs * zlen (from l i)).
  { rewrite (from_length l i) by lia. unfold len. lia. }
  rewrite Hlen. clear Hr Hlow R.
  rewrite from_cons in Hhi, Hsi |- * by lia.
  remember (from l (i + 1)) as t eqn:Ht. remember (nthp l i) as x eqn:Hx.
  assert (Hfu := here_fuel _ _ Hhi).
  destruct (row_fwd1_ok c1 t (FU m) x (s + i * bs) Hhi ltac:(cbn in Hfu; lia))
    as (l1 & y & l2 & E1 & E2 & E3 & E4).
  rewrite E4. rewrite E1 in *. clear E4 E1 Ht Hx Hlen.
  apply here_app in Hhi as [_ Hy]. apply SS_app_r in Hsi.
  rewrite filter_app, filter_false
    by (eapply Forall_impl; [|exact E2]; cbn; intros; lia).
  cbn [app filter]. inversion Hsi as [|? ? Hs2 Hf2]; subst. rewrite Forall_forall in Hf2.
  destruct (fst y =? c1) eqn:E.
  - assert (Hfu2 := here_fuel _ _ Hy). pose proof (here_cons _ _ _ Hy) as (_ & _ & Hy2 & _).
    pose proof (row_endrun_ok c1 l2 (FU m) _ Hy2 ltac:(cbn in Hfu2; lia)) as HR.
    replace (s + i * bs + bs * zlen (l1 ++ y :: l2))
      with (s + i * bs + bs * zlen l1 + bs + bs * zlen l2)
      by (rewrite app_length; cbn [length]; lia).
    rewrite HR. eexists; split; [reflexivity|].
    rewrite <- tw_eq1_filter; auto.
    + replace (s + i * bs + bs * zlen l1 + bs + bs * zlen (takewhile (eq1 c1) l2)) with
        (s + i * bs + bs * zlen l1 + bs * zlen (y :: takewhile (eq1 c1) l2)) by (cbn [length]; lia).
      rewrite <- (tw_dw (eq1 c1) l2) in Hy, Hsi.
      change (y :: ?a ++ ?b) with ((y :: a) ++ b) in Hy, Hsi.
      apply row_cursor; [now apply SS_app_l in Hsi|now apply here_app in Hy].
    + intros z Hz. specialize (Hf2 z Hz). unfold plt in Hf2. lia.
  - eexists; split; [reflexivity|].
    rewrite filter_false.
    + pose proof (row_cursor k [] (s + i * bs + bs * zlen l1) (SSorted_nil _)) as HC.
      cbn [length] in HC. change (Z.of_nat 0) with 0 in HC. rewrite Z.mul_0_r, Z.add_0_r in HC.
      apply HC. apply (here_app _ [] (y :: l2)). exact Hy.
    + apply Forall_forall. intros z Hz. specialize (Hf2 z Hz).
      destruct E3 as [E3| ->]; [unfold plt in Hf2; lia|contradiction].
Qed.

Lemma rdn_some w : forall p, 0 <= p -> p + Z.of_nat w <= zlen m -> exists v, rdn w m p = Some v.
Proof.
  induction w as [|w IH]; intros p H0 H; cbn [rdn]; [eauto|].
  destruct (IH p H0 ltac:(lia)) as [v ->]. unfold getb.
  replace (0 <=? p + Z.of_nat w) with true by lia.
  destruct (nth_error m (Z.to_nat (p + Z.of_nat w))) eqn:E; [eauto|].
  apply nth_error_None in E. lia.
Qed.
Lemma rd_some w p : 0 <= p -> p + Z.of_nat w <= zlen m -> exists v, rd w m p = Some v.
Proof.
  intros H0 H. unfold rd. destruct (rdn_some w p H0 H) as [v ->]. destruct (_ && _); eauto.
Qed.

Lemma row_fwd2_ok c1 c2 l : forall fuel s v1 v2, here s l -> (length l < fuel)%nat ->
  s + bs * zlen l + bs <= zlen m ->
  match l with x :: _ => v1 = fst x /\ v2 = snd x | [] => True end ->
  exists v1' v2', row_fwd2 fuel w1 w2 m s (s + bs * zlen l) v1 v2 c1 c2 =
      Some (s + bs * zlen (takewhile (fun e => pair_lt e c1 c2) l), v1', v2') /\
    match dropwhile (fun e => pair_lt e c1 c2) l with x :: _ => v1' = fst x /\ v2' = snd x | [] => True end.
Proof.
  pose proof bs_pos as Hbs.
  induction l as [|x l IH]; intros fuel s v1 v2 Hh Hf Hpad Hx;
    (destruct fuel as [|fuel]; [cbn in Hf; lia|]); cbn [row_fwd2].
  - cbn [length takewhile dropwhile]. change (Z.of_nat 0) with 0.
    replace (s <? s + bs * 0) with false by lia. rewrite andb_false_r. exists v1, v2. split; auto.
    f_equal. f_equal. f_equal. lia.
  - destruct Hx as [-> ->]. cbn [length]. rewrite ptr_ltb, andb_true_r.
    change (if (fst x <? c1) || (fst x =? c1) && (snd x <? c2) then ?a else ?b)
      with (if pair_lt x c1 c2 then a else b).
    cbn [takewhile dropwhile].
    destruct (pair_lt x c1 c2).
    + apply here_cons in Hh as (_ & _ & Hh & _). fold bs. cbn [length] in *.
      replace (s + bs * Z.of_nat (S (length l))) with (s + bs + bs * zlen l) in * by lia.
      assert (Hv : exists a b, rd w1 m (s + bs) = Some a /\ rd w2 m (s + bs + Z.of_nat w1) = Some b /\
                match l with x :: _ => a = fst x /\ b = snd x | [] => True end).
      { destruct l as [|y l].
        - cbn [length] in Hpad. change (Z.of_nat 0) with 0 in Hpad. apply here_bound in Hh as [Hb _].
          destruct (rd_some w1 (s + bs)) as [a Ha]; [unfold bs, bsz in *; lia..|].
          destruct (rd_some w2 (s + bs + Z.of_nat w1)) as [b Hb']; [unfold bs, bsz in *; lia..|].
          eauto.
        - apply here_cons in Hh as (R1 & R2 & _ & _). eauto 6. }
      destruct Hv as (a & b & Ra & Rb & Hab). rewrite Ra, Rb.
      destruct (IH fuel (s + bs) a b Hh ltac:(lia) Hpad Hab) as (v1' & v2' & E1 & E2).
      exists v1', v2'. rewrite E1. split; auto. f_equal. f_equal. f_equal. cbn [length]. lia.
    + exists (fst x), (snd x). split; auto. cbn [length]. f_equal. f_equal. f_equal. lia.
Qed.

Lemma row_setup2_ok k l s c1 c2 : here s l -> StronglySorted plt l -> l <> [] ->
  0 <= c1 -> 0 <= c2 -> s + bs * zlen l + bs <= zlen m ->
  exists st, row_setup2 w1 w2 m k c1 c2 s (s + bs * zlen l) = Some st /\
    Table k false (filter (pair_matches c1 c2) l) (row_obj st).
Proof.
  intros Hh Hs Hne Hc1 Hc2 Hpad. pose proof bs_pos as Hbs. unfold row_setup2. fold bs.
  destruct (row_bsearch_ok s l c1 Hh Hs Hne) as (i & Hr & Hi & Hlow). rewrite Hr.
  destruct (here_nth s l i Hh Hi) as [_ Hhi].
  assert (Hpm : forall e, pair_matches c1 c2 e = (fst e =? c1) && (snd e =? c2))
    by (intros e; unfold pair_matches; lia).
  rewrite (filter_ext _ _ Hpm).
  rewrite (filter_from l i) by (try lia; intros j Hj; specialize (Hlow j Hj); lia).
  assert (Hsi := from_SS l i Hs).
  assert (Hlen : s + bs * zlen l = s + i * bs + bs * zlen (from l i)).
  { rewrite (from_length l i) by lia. unfold len. lia. }
  rewrite Hlen in Hpad |- *.
  destruct (from l i) as [|x t] eqn:Efrom; [rewrite from_cons in Efrom by lia; discriminate|].
  pose proof (here_cons _ _ _ Hhi) as (R1 & R2 & _ & _). rewrite R1, R2.
  destruct (row_fwd2_ok c1 c2 (x :: t) (FU m) (s + i * bs) (fst x) (snd x) Hhi
              (here_fuel _ _ Hhi) Hpad (conj eq_refl eq_refl)) as (v1 & v2 & E1 & E2).
  rewrite E1. set (p := fun e : Z * Z => pair_lt e c1 c2) in *.
  rewrite <- (tw_dw p (x :: t)) in Hhi. apply here_app in Hhi as [_ Hd].
  assert (Hsd : StronglySorted plt (dropwhile p (x :: t))) by now apply SS_dw.
  set (f := fun e : Z * Z => (fst e =? c1) && (snd e =? c2)).
  replace (filter f (x :: t)) with (filter f (dropwhile p (x :: t))).
  2:{ rewrite <- (tw_dw p (x :: t)) at 2. rewrite filter_app, (filter_false _ (takewhile _ _)); auto.
      eapply Forall_impl; [|apply tw_all]. unfold p, f. cbn. intros e He. unfold pair_lt in He. lia. }
  assert (Hlen2 : zlen (x :: t) = zlen (takewhile p (x :: t)) + zlen (dropwhile p (x :: t)))
    by (rewrite <- (tw_dw p (x :: t)) at 1; rewrite app_length; lia).
  rewrite Hlen2.
  pose proof (dw_head p (x :: t)) as Hhead.
  assert (Hempty : forall q, here q [] -> Table k false [] (row_obj (row_setup w1 w2 m k q q))).
  { intros q Hq. pose proof (row_cursor k [] q (SSorted_nil _) Hq) as HC.
    cbn [length] in HC. change (Z.of_nat 0) with 0 in HC. now rewrite Z.mul_0_r, Z.add_0_r in HC. }
  destruct (dropwhile p (x :: t)) as [|y l2].
  - cbn [length]. change (Z.of_nat 0) with 0.
    rewrite Z.add_0_r, Z.ltb_irrefl, andb_false_r.
    eexists; split; [reflexivity|]. cbn [filter]. now apply Hempty.
  - destruct E2 as [-> ->].
    rewrite (proj2 (Z.ltb_lt _ (s + i * bs + bs * (zlen (takewhile p (x :: t)) + zlen (y :: l2)))))
      by (cbn [length]; nia).
    rewrite andb_true_r. cbn [filter].
    inversion Hsd as [|? ? Hs2 Hf2]; subst. rewrite Forall_forall in Hf2.
    specialize (Hhead y l2 eq_refl). unfold p in Hhead.
    rewrite (filter_false _ l2).
    2:{ unfold f. apply Forall_forall. intros z Hz. specialize (Hf2 z Hz). unfold plt, pair_lt in *. lia. }
    change (f y) with ((fst y =? c1) && (snd y =? c2)).
    destruct ((fst y =? c1) && (snd y =? c2)).
    + eexists; split; [reflexivity|].
      replace (_ + bs) with (s + i * bs + bs * zlen (takewhile p (x :: t)) + bs * zlen [y])
        by (cbn [length]; change (Z.of_nat 1) with 1; lia).
      apply row_cursor; [repeat constructor|]. apply (here_app _ [y] l2) in Hd. tauto.
    + eexists; split; [reflexivity|]. apply Hempty. apply (here_app _ [] (y :: l2)). exact Hd.
Qed.

(** *** Cardinality *)
Lemma row_card_ok l : forall fuel c prev v1 n, here c l -> (length l < fuel)%nat -> StronglySorted plt l ->
  exists v', row_card fuel w1 bs m c (c + bs * zlen l) prev v1 n =
    Some (c + bs * zlen l, v', n + zlen (groups (dropwhile (eq1 prev) l))).
Proof.
  induction l as [|x l IH]; intros fuel c prev v1 n Hh Hf Hs; (destruct fuel as [|fuel]; cbn [length] in Hf; [lia|]).
  - cbn [row_card length dropwhile]. change (Z.of_nat 0) with 0. rewrite Z.mul_0_r, !Z.add_0_r, Z.eqb_refl. cbn [negb].
    now exists v1.
  - cbn [row_card dropwhile length]. rewrite ptr_eqb. cbn [negb].
    destruct (here_cons _ _ _ Hh) as (R1 & _ & Hh2 & _). rewrite R1. unfold eq1 at 1.
    replace (c + bs * Z.of_nat (S (length l))) with (c + bs + bs * zlen l) by lia.
    destruct (fst x =? prev) eqn:E.
    + apply IH; auto; [lia|]. now inversion Hs.
    + destruct (IH fuel (c + bs) (fst x) (fst x) (n + 1) Hh2 ltac:(lia) (SS_tail _ _ _ Hs)) as (v' & Ev).
      rewrite Ev. exists v'. rewrite (groups_cons x l Hs). cbn [length]. do 2 f_equal. lia.
Qed.

Lemma row_cardinality_ok k l s : here s l -> StronglySorted plt l ->
  (exists s', row_getCardinality (row_setup w1 w2 m k s (s + bs * zlen l)) = Some (zlen l, s')) /\
  (exists s1 s', row_ignore (row_setup w1 w2 m k s (s + bs * zlen l)) = Some s1 /\
     row_getCardinality s1 = Some (zlen (groups l), s')).
Proof.
  intros Hh Hs. pose proof bs_pos as Hb. split.
  - eexists. unfold row_getCardinality. cbn [row_setup r_ign r_end r_start r_bs]. do 2 f_equal.
    unfold r_bs. cbn [row_setup r_w1 r_w2]. fold bs.
    replace (s + bs * zlen l - s) with (zlen l * bs) by lia. apply Z.quot_mul. lia.
  - eexists. unfold row_ignore, row_getCardinality. cbn [row_setup r_v1 r_cur r_count Z.eqb negb].
    change (-1 =? -1) with true. cbn [negb]. 
    destruct (row_card_ok l (FU m) s (-1) (-1) 0 Hh ltac:(now apply (here_fuel s)) Hs) as (v' & E).
    eexists. split; [reflexivity|]. cbn [r_ign r_v1 r_mem r_w1 r_cur r_end negb].
    change (-1 =? -1) with true. cbn [negb]. unfold r_bs. cbn [r_w1 r_w2 row_setup r_mem r_end]. fold bs.
    rewrite E. cbn [Z.add].
    assert (Hdw : dropwhile (eq1 (-1)) l = l); [|now rewrite Hdw].
    destruct Hh as [_ Hf]. destruct l as [|x l]; auto. cbn [dropwhile]. unfold eq1.
    inversion Hf as [|? ? [F1 _] _]; subst. unfold fits in F1. now replace (fst x =? -1) with false by lia.
Qed.
End Row.
