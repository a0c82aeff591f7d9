(** Proofs about RmItr with the second column ignored. *)
From Coq Require Import Sorted Permutation Lia.
From Verif Require Import TallySpec ItrProofs CompProofs TallyProofs.
Local Open Scope Z_scope.

Definition at_or_after (y : elem) (k v : Z) : Prop := gk y < k \/ (gk y = k /\ gv y <= v).

(** What is left of the entries gm when those of gd are taken away. *)
Definition minus (gm gd : list elem) : list elem :=
  filter (fun x => 0 <? snd x) (map (fun x => (gk x, gv x, snd x - wt gd (gk x) (gv x))) gm).

Lemma minus_ext gm gd gd' : (forall x, In x gm -> wt gd (gk x) (gv x) = wt gd' (gk x) (gv x)) ->
  minus gm gd = minus gm gd'.
Proof.
  intros H. unfold minus. f_equal. apply map_ext_in. intros x Hx. now rewrite H.
Qed.
Lemma gsorted_after y tm x : gsorted (y :: tm) -> In x (y :: tm) -> at_or_after y (gk x) (gv x).
Proof.
  intros Hs [<-|Hx]; [right; lia|]. apply StronglySorted_inv in Hs as [_ F]. rewrite Forall_forall in F.
  specialize (F x Hx). apply group_lt_alt in F. unfold at_or_after. lia.
Qed.

Lemma cmp_groups r i x t y tm : Stands x t r -> Stands y tm i ->
  rm_cmp true r i = if (gk x <? gk y) || ((gk x =? gk y) && (gv x <? gv y)) then -1
                    else if (gk x =? gk y) && (gv x =? gv y) then 0 else 1.
Proof.
  intros (_ & Vr & _) (_ & Vi & _). destruct (Vr r (polls_refl _)) as [K1 V1], (Vi i (polls_refl _)) as [K2 V2].
  unfold rm_cmp. rewrite K1, V1, K2, V2. unfold gk, gv.
  destruct (fst (fst x) <? fst (fst y)) eqn:E1; [reflexivity|]. cbn [orb].
  destruct (fst (fst x) =? fst (fst y)) eqn:E2; cbn [andb]; [|reflexivity].
  destruct (snd (fst x) - snd (fst y) <? 0) eqn:E3.
  - replace (snd (fst x) <? snd (fst y)) with true by lia. reflexivity.
  - replace (snd (fst x) <? snd (fst y)) with false by lia.
    destruct (0 <? snd (fst x) - snd (fst y)) eqn:E4.
    + replace (snd (fst x) =? snd (fst y)) with false by lia. reflexivity.
    + replace (snd (fst x) =? snd (fst y)) with true by lia. reflexivity.
Qed.

Lemma advance_groups i y tm (Hi : Stands y tm i) : forall t x r fuel, Stands x t r -> gsorted (x :: t) ->
  (length t < fuel)%nat ->
  exists c r', rm_advance fuel true r i (rm_cmp true r i) = Some (c, r') /\
    ((c < 0 /\ (forall k v, at_or_after y k v -> wt (x :: t) k v = 0)) \/
     (0 <= c /\ exists x' t', Stands x' t' r' /\ gsorted (x' :: t') /\ (length t' <= length t)%nat /\
        incl (x' :: t') (x :: t) /\
        (forall k v, at_or_after y k v -> wt (x :: t) k v = wt (x' :: t') k v) /\
        ((c = 0 /\ gk x' = gk y /\ gv x' = gv y) \/
         (0 < c /\ (gk y < gk x' \/ (gk y = gk x' /\ gv y < gv x')))))).
Proof.
  induction t as [|x1 t IH]; intros x r fuel Hr Hs Hf; (destruct fuel as [|fuel]; [cbn in Hf; lia|]);
    pose proof (cmp_groups _ _ _ _ _ _ Hr Hi) as Hc;
    destruct ((gk x <? gk y) || ((gk x =? gk y) && (gv x <? gv y))) eqn:E1.
  - rewrite Hc. cbn [rm_advance]. change (-1 <? 0) with true. cbn iota.
    destruct Hr as (C & V & T). destruct (Tallies_poll _ _ T) as (r1 & -> & _). cbn [nonempty].
    exists (-1), r1. split; [reflexivity|]. left. split; [lia|]. intros k v Hk. rewrite wt_cons.
    unfold at_or_after in Hk. replace ((gk x =? k) && (gv x =? v)) with false by lia. reflexivity.
  - rewrite Hc. destruct ((gk x =? gk y) && (gv x =? gv y)) eqn:E2; eexists; exists r.
    + split; [reflexivity|]. right. split; [lia|]. exists x, []. split; [exact Hr|]. split; [auto|]. split; [auto|]. split; [apply incl_refl|]. split; [auto|]. left. lia.
    + split; [reflexivity|]. right. split; [lia|]. exists x, []. split; [exact Hr|]. split; [auto|]. split; [auto|]. split; [apply incl_refl|]. split; [auto|]. right. lia.
  - rewrite Hc. cbn [rm_advance]. change (-1 <? 0) with true. cbn iota.
    pose proof Hr as (C & V & T). destruct (Tallies_poll _ _ T) as (r1 & -> & _ & r2 & -> & Hr2). cbn [nonempty].
    assert (Hs1 : gsorted (x1 :: t)) by (apply (StronglySorted_inv Hs)).
    destruct (IH x1 r2 fuel Hr2 Hs1) as (c & r' & E & H); [cbn in Hf; lia|].
    exists c, r'. split; [exact E|].
    assert (Hw : forall k v, at_or_after y k v -> wt (x :: x1 :: t) k v = wt (x1 :: t) k v).
    { intros k v Hk. rewrite wt_cons. unfold at_or_after in Hk.
      replace ((gk x =? k) && (gv x =? v)) with false by lia. reflexivity. }
    destruct H as [[H1 H2]|(H1 & x' & t' & H2 & H3 & H4 & H5 & H6 & H7)].
    + left. split; auto. intros k v Hk. rewrite Hw; auto.
    + right. split; auto. exists x', t'. split; auto. split; auto. split; [cbn; lia|]. split; [intros a Ha; right; auto|]. split; auto.
      intros k v Hk. rewrite Hw; auto.
  - rewrite Hc. destruct ((gk x =? gk y) && (gv x =? gv y)) eqn:E2; eexists; exists r.
    + split; [reflexivity|]. right. split; [lia|]. exists x, (x1 :: t). split; [exact Hr|]. split; [auto|]. split; [auto|]. split; [apply incl_refl|]. split; [auto|]. left. lia.
    + split; [reflexivity|]. right. split; [lia|]. exists x, (x1 :: t). split; [exact Hr|]. split; [auto|]. split; [auto|]. split; [apply incl_refl|]. split; [auto|]. right. lia.
Qed.

(** What the deletion iterator still holds. *)
Definition rm_holds (valid : bool) (gd : list elem) (r : pitr) : Prop :=
  gsorted gd /\ gpos gd /\
  if valid then exists x t, gd = x :: t /\ Stands x t r else gd = [].

Definition rm_G (fuel : nat) (gm gd : list elem) (i r : pitr) (valid : bool) : Prop :=
  Tallies gm i /\ gsorted gm /\ gpos gm /\ rm_holds valid gd r /\ (length gm + length gd < fuel)%nat.

Lemma gpos_incl l l' : incl l l' -> gpos l' -> gpos l.
Proof. intros H Hp. unfold gpos in *. rewrite Forall_forall in *. auto. Qed.

Lemma loop_groups fuel0 : forall fuel gm gd i r valid n, rm_G fuel gm gd i r valid -> (fuel <= fuel0)%nat ->
  exists i' r' v' n',
    rm_loop fuel true i r valid n = Some (nonempty (minus gm gd), i', r', v', n') /\
    match minus gm gd with
    | [] => True
    | x :: R => n' = snd x /\ key i' = gk x /\ value1 i' = gv x /\
        exists gm' gd', rm_G fuel0 gm' gd' i' r' v' /\ minus gm' gd' = R
    end.
Proof.
  induction fuel as [|fuel IH]; intros gm gd i r valid n (T & Gs & Gp & H & Hl) Hf; [lia|].
  cbn [rm_loop]. destruct (Tallies_poll _ _ T) as (i1 & Hn & _ & Hm). rewrite Hn.
  destruct gm as [|y tm]; cbn [nonempty].
  { cbn [minus map filter nonempty]. repeat eexists. }
  destruct Hm as (i2 & -> & Hi). pose proof Hi as (C & V & Ti). destruct (V i2 (polls_refl _)) as [Ky Vy].
  pose proof (StronglySorted_inv Gs) as [Gs' F]. pose proof (Forall_inv_tail Gp) as Gp'. pose proof (Forall_inv Gp) as Gy. cbn beta in Gy.
  destruct H as (Ds & Dp & H). destruct valid.
  - destruct H as (x & t & -> & Hx).
    destruct (advance_groups i2 y tm Hi t x r (S fuel) Hx Ds) as (c & r' & -> & [(Hc & Hw)|(Hc & x' & t' & Hx' & Ds' & Hlt & Hinc & Hw & Hcase)]).
    { cbn in Hl. lia. }
    + (* the deletions are over *)
      replace (c <? 0) with true by lia. rewrite C.
      assert (E : minus (y :: tm) (x :: t) = minus (y :: tm) []).
      { apply minus_ext. intros z Hz. rewrite Hw; [reflexivity|]. eapply gsorted_after; eauto. }
      rewrite E. cbn [minus map filter snd]. rewrite Z.sub_0_r. replace (0 <? snd y) with true by lia. cbn [nonempty].
      exists i2, r', false, (snd y). split; auto. cbn [snd]. split; auto. split; auto. split; auto.
      exists tm, []. split; [|reflexivity]. split; auto. split; auto. split; auto. split; [repeat split; constructor|]. cbn in *. lia.
    + replace (c <? 0) with false by lia.
      assert (E : minus (y :: tm) (x :: t) = minus (y :: tm) (x' :: t')).
      { apply minus_ext. intros z Hz. apply Hw. eapply gsorted_after; eauto. }
      rewrite E. pose proof (gpos_incl _ _ Hinc Dp) as Dp'.
      assert (HG : forall f, (length tm + S (length t') < f)%nat -> rm_G f tm (x' :: t') i2 r' true).
      { intros f Hf'. split; auto. split; auto. split; auto. split; [split; [auto|split; [auto|eauto]]|]. exact Hf'. }
      destruct Hcase as [(-> & Kx & Vx)|(Hc' & Hlt')].
      * (* same group *)
        change (0 <? 0) with false. cbn iota. pose proof Hx' as (C' & _). rewrite C, C'.
        assert (Ew : wt (x' :: t') (gk y) (gv y) = snd x').
        { apply wt_in; auto. left. rewrite <- Kx, <- Vx. destruct x' as [[? ?] ?]; reflexivity. }
        assert (Em : minus (y :: tm) (x' :: t') = if 0 <? snd y - snd x' then (gk y, gv y, snd y - snd x') :: minus tm (x' :: t') else minus tm (x' :: t')).
        { unfold minus. cbn [map filter snd]. rewrite Ew. reflexivity. }
        rewrite Em. destruct (0 <? snd y - snd x') eqn:E0.
        -- cbn [nonempty]. exists i2, r', true, (snd y - snd x'). split; auto. cbn [snd]. split; auto. split; auto. split; auto.
           exists tm, (x' :: t'). split; [apply HG; cbn in *; lia|reflexivity].
        -- apply IH; [apply HG; cbn in *; lia|lia].
      * (* group not deleted *)
        replace (0 <? c) with true by lia. rewrite C.
        assert (Ew : wt (x' :: t') (gk y) (gv y) = 0).
        { apply wt_zero. intros z [<-|Hz]; [lia|]. pose proof (StronglySorted_inv Ds') as [_ F']. rewrite Forall_forall in F'.
          specialize (F' z Hz). apply group_lt_alt in F'. lia. }
        assert (Em : minus (y :: tm) (x' :: t') = (gk y, gv y, snd y) :: minus tm (x' :: t')).
        { unfold minus. cbn [map filter snd]. rewrite Ew, Z.sub_0_r. replace (0 <? snd y) with true by lia. reflexivity. }
        rewrite Em. cbn [nonempty]. exists i2, r', true, (snd y). split; auto. cbn [snd]. split; auto. split; auto. split; auto.
        exists tm, (x' :: t'). split; [apply HG; cbn in *; lia|reflexivity].
  - subst gd. rewrite C. 
    assert (Em : minus (y :: tm) [] = (gk y, gv y, snd y) :: minus tm []).
    { unfold minus. cbn [map filter snd]. cbn [wt fold_right]. rewrite Z.sub_0_r. replace (0 <? snd y) with true by lia. reflexivity. }
    rewrite Em. cbn [nonempty]. exists i2, r, false, (snd y). split; auto. cbn [snd]. split; auto. split; auto. split; auto.
    exists tm, []. split; [|reflexivity]. split; auto. split; auto. split; auto. split; [repeat split; constructor|]. cbn in *. lia.
Qed.

Lemma rm_polls fuel s o : polls (rm_itr_obj fuel s) o -> key o = rm_key s /\ value1 o = rm_v1 s /\ exists s', o = rm_itr_obj fuel s' /\ rm_key s' = rm_key s /\ rm_v1 s' = rm_v1 s.
Proof.
  induction 1 as [|a b c Hp (_ & _ & s' & -> & K & V) Hn]; [split; [|split]; [reflexivity|reflexivity|eauto]|].
  rewrite rm_obj_hasNext in Hn. unfold rm_hasNext in Hn. destruct (rm_hnc s').
  - injection Hn as _ <-. split; [exact K|]. split; [exact V|]. eauto.
  - destruct (rm_loop _ _ _ _ _ _) as [[[[[? ?] ?] ?] ?]|]; [|discriminate]. injection Hn as _ <-. split; [exact K|]. split; [exact V|]. eauto.
Qed.

Lemma rm_tallies fuel : forall R gm gd s, rm_hnc s = false -> rm_noseccol s = true ->
  rm_G fuel gm gd (rm_itr s) (rm_rmitr s) (rm_valid s) -> minus gm gd = R ->
  Tallies R (rm_itr_obj fuel s).
Proof.
  induction R as [|x R IH]; intros gm gd s Hhnc Hno Hinv Hm;
    destruct (loop_groups fuel fuel gm gd _ _ _ (rm_nextCount s) Hinv (le_n _)) as (i' & r' & v' & n' & Hl & Hrest); rewrite Hm in *.
  - eapply Tallies_intro; [rewrite rm_obj_hasNext; unfold rm_hasNext; rewrite Hhnc, Hno, Hl; reflexivity|rewrite rm_obj_hasNext; reflexivity|exact I].
  - destruct Hrest as (Hn & K & V & gm' & gd' & HG & Hm').
    eapply Tallies_intro; [rewrite rm_obj_hasNext; unfold rm_hasNext; rewrite Hhnc, Hno, Hl; reflexivity|rewrite rm_obj_hasNext; reflexivity|].
    eexists. split; [apply rm_obj_next|]. split; [|split].
    + rewrite rm_obj_count. cbn. now rewrite Hn.
    + intros o Ho. apply rm_polls in Ho as (K' & V' & _). rewrite K', V'. cbn. now rewrite K, V.
    + eapply (IH gm' gd'); [reflexivity|reflexivity|exact HG|exact Hm'].
Qed.

Lemma count_partition f l k v :
  count_of l k v = count_of (filter f l) k v + count_of (filter (fun x => negb (f x)) l) k v.
Proof.
  induction l as [|x l IH]; [reflexivity|]. cbn [filter]. destruct (f x); cbn [negb]; rewrite !count_cons; lia.
Qed.
Lemma tally_len l g : is_tally l g -> (length g <= length l)%nat.
Proof.
  intros [Gs H]. assert (Hl : (length (map fst g) <= length (map fst l))%nat); [|rewrite !map_length in Hl; exact Hl].
  apply NoDup_incl_length.
  - clear H. induction Gs as [|y g Gs IH F]; cbn; constructor; auto. intros Hx. apply in_map_iff in Hx as (z & E & Hz).
    rewrite Forall_forall in F. specialize (F z Hz). apply group_lt_alt in F. unfold gk, gv in F. rewrite E in F. lia.
  - intros [a b] Hx. apply in_map_iff in Hx as ([[k v] n] & E & Hz). cbn in E. injection E as -> ->.
    apply H in Hz as [-> Hn]. apply count_pos in Hn as (z & Hz & K & V). apply in_map_iff. exists z. split; auto.
    unfold gk, gv in *. destruct z as [[? ?] ?]. cbn in *. congruence.
Qed.

Lemma minus_tally M D gm gd : NoDup M -> NoDup D -> incl D M -> is_tally M gm -> is_tally D gd ->
  is_tally (filter (keep D) M) (minus gm gd).
Proof.
  intros NM ND Hi [Gs Hm] Hd. pose proof (proj1 (rep_tally _ _) Hd) as (_ & _ & Wd).
  assert (Hcnt : forall k v, count_of (filter (keep D) M) k v = count_of M k v - count_of D k v).
  { intros k v. assert (Hp : Permutation D (filter (fun x => negb (keep D x)) M)).
    { apply NoDup_Permutation; auto; [now apply NoDup_filter|]. intros a. rewrite filter_In.
      pose proof (keep_spec D a) as Hk. destruct (keep D a); cbn; split.
      - intros Ha. destruct (proj1 Hk eq_refl Ha).
      - intros [_ H]. discriminate.
      - auto.
      - intros _. destruct (in_dec elem_dec a D) as [|Hn]; auto. apply Hk in Hn. discriminate. }
    rewrite (count_perm _ _ k v Hp). pose proof (count_partition (keep D) M k v). lia. }
  split.
  - unfold minus. clear - Gs. induction Gs as [|y g Gs IH F]; [constructor|]. cbn [map filter].
    destruct (0 <? snd _); auto. constructor; auto. apply Forall_forall. intros z Hz. apply filter_In in Hz as [Hz _].
    apply in_map_iff in Hz as (w & <- & Hw). rewrite Forall_forall in F. specialize (F w Hw). apply group_lt_alt in F. exact F.
  - intros k v n. rewrite Hcnt. unfold minus. rewrite filter_In, in_map_iff. split.
    + intros [([[a b] m] & E & Hx) Hn]. injection E as <- <- <-. cbn [snd] in Hn. apply Hm in Hx as [-> _].
      unfold gk, gv. cbn [fst snd]. change (gk (a, b, count_of M a b)) with a in *. change (gv (a, b, count_of M a b)) with b in *.
      rewrite Wd in *. lia.
    + intros [-> Hn]. split; [|cbn; lia]. exists (k, v, count_of M k v). unfold gk, gv. cbn [fst snd]. rewrite Wd. split; auto.
      apply Hm. split; auto. pose proof (count_nonneg D k v). lia.
Qed.

(** A new RmItr whose second column is ignored at once. *)
Lemma rm_ignores fuel M D main del :
  (exists o1 g, ignoreSecondColumn main = Some o1 /\ is_tally M g /\ TReady g o1) ->
  AggregatesFirst D del -> NoDup M -> NoDup D -> incl D M -> (length M + length D < fuel)%nat ->
  exists o o1 g, new_rm_itr fuel main del = Some o /\ ignoreSecondColumn o = Some o1 /\
    is_tally (filter (keep D) M) g /\ Tallies g o1.
Proof.
  intros (i & gm & Ei & Hm & HT & (nm & Cm) & _) HA NM ND Hi Hf.
  destruct (HA del (polls_refl _)) as (d1 & d2 & d3 & x & t & E1 & E2 & E3 & Hd & HS).
  unfold new_rm_itr, rm_init. rewrite E1, E2. eexists. 
  pose proof HS as (Cd & _ & _).
  set (s0 := mkRm main d2 true false (-1) (-1) (-1) 0 0 false false (false, 0, 0, 0, 0)).
  assert (exists n2, rm_ignore s0 = Some (mkRm i d3 true true (-1) (-1) (-1) 0 n2 false false (false, 0, 0, 0, 0))) as (n2 & Es).
  { unfold rm_ignore, s0. cbn [rm_itr rm_rmitr rm_v1]. rewrite Ei, E3, Cm.
    destruct (value1 d3 =? value1 i); [rewrite Cd|]; eexists; reflexivity. }
  exists (rm_itr_obj fuel (mkRm i d3 true true (-1) (-1) (-1) 0 n2 false false (false, 0, 0, 0, 0))), (minus gm (x :: t)).
  split; [reflexivity|]. split; [|split].
  - change (match rm_ignore s0 with Some s' => Some (rm_itr_obj fuel s') | None => None end = Some (rm_itr_obj fuel (mkRm i d3 true true (-1) (-1) (-1) 0 n2 false false (false, 0, 0, 0, 0)))).
    now rewrite Es.
  - now apply minus_tally.
  - pose proof (proj1 (rep_tally _ _) Hm) as (G1 & G2 & _). pose proof (proj1 (rep_tally _ _) Hd) as (G3 & G4 & _).
    eapply rm_tallies; [reflexivity|reflexivity| |reflexivity]. split; [exact HT|]. split; auto. split; auto. split.
    + split; auto. split; auto. cbn. eauto.
    + pose proof (tally_len _ _ Hm). pose proof (tally_len _ _ Hd). lia.
Qed.
