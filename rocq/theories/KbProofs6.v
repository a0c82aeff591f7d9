(** ReOrderItr: a permutation that is not stored, from the triples in the order SPO. *)
From Coq Require Import Sorted Permutation ZifyBool.
From Verif Require Export KbProofs5.
From Verif Require Import QueryModel QuerySpec SortSpec.
Local Open Scope Z_scope.
Ltac Zify.zify_post_hook ::= Z.div_mod_to_equations.

Lemma Yields_inv cnt (I : list elem -> pitr -> Prop) :
  (forall l o, I l o -> exists o1, hasNext o = Some (nonempty l, o1) /\ I l o1 /\
     match l with [] => True | x :: t => exists o2, next o1 = Some o2 /\ cur o2 = x /\ (cnt = true -> exists c, getCount o2 = Some (c, o2)) /\ I t o2 end) ->
  forall l o, I l o -> Yields cnt l o.
Proof.
  intros H l. assert (HP : forall l o o', polls o o' -> I l o -> I l o').
  { intros l0 o o' Hp HI. induction Hp as [|o1 b o2 Hp IHp E]; [exact HI|]. destruct (H _ _ IHp) as (o3 & E3 & H3 & _). rewrite E in E3. injection E3 as _ ->. exact H3. }
  induction l as [|x l IH]; intros o HI; apply Yields_unfold; intros o' Hp; pose proof (HP _ _ _ Hp HI) as HI';
    destruct (H _ _ HI') as (o1 & E1 & _ & Hm); exists o1; split; auto.
  destruct Hm as (o2 & En & Ec & Hc & H2). exists o2. auto.
Qed.

Lemma Ready_Yields cnt l o : Ready cnt l o -> Yields cnt l o.
Proof. now intros [H _]. Qed.

Definition keep (p o : Z) (x : triple) : bool := ((p <? 0) || (snd (fst x) =? p)) && ((o <? 0) || (snd x =? o)).
Definition entry_of (idx : nat) (x : triple) : Z * (Z * Z) := let '(k, a, b) := view (Z.of_nat idx) x in (k, (a, b)).
Definition reordered (idx : nat) : Prop := idx = 1%nat \/ idx = 2%nat \/ idx = 4%nat \/ idx = 5%nat.

Lemma place_ok idx x : reordered idx -> ro_place idx x = Some (view (Z.of_nat idx) x).
Proof. intros [-> |[-> |[-> | ->]]]; destruct x as [[a b] c]; reflexivity. Qed.

(** ** Collecting the triples *)
Lemma fill_itr d idx p o : reordered idx -> forall l it fuel cnt, Yields cnt l it -> (length l < fuel)%nat ->
  (0 <= p -> Forall (fun x : triple => snd (fst x) = p) l) ->
  ro_fill fuel d idx p o (HItr it) = Some (map (entry_of idx) (filter (keep p o) l)).
Proof.
  intros Hr l. induction l as [|x l IH]; intros it fuel cnt Hy Hf Hp; destruct fuel as [|fuel]; cbn [length] in Hf; try lia; cbn [ro_fill h_hasNext].
  - destruct (Yields_poll _ _ _ Hy) as (o1 & -> & _). reflexivity.
  - destruct (Yields_poll _ _ _ Hy) as (o1 & -> & _ & o2 & E2 & Ec & _ & Hy2). cbn [nonempty h_next]. rewrite E2. cbn [h_cur]. rewrite Ec.
    destruct x as [[vs vp] vo].
    assert (Hp1 : 0 <= p -> vp = p) by (intros H0; specialize (Hp H0); now apply Forall_inv in Hp).
    assert (Hp2 : 0 <= p -> Forall (fun x : triple => snd (fst x) = p) l) by (intros H0; specialize (Hp H0); now apply Forall_inv_tail in Hp).
    assert (E0 : (0 <=? p) && negb (vp =? p) = false) by (destruct (Z.leb_spec 0 p); cbn; auto; rewrite Hp1 by auto; rewrite Z.eqb_refl; reflexivity).
    rewrite E0. specialize (IH o2 fuel cnt Hy2 ltac:(lia) Hp2). cbn [filter]. unfold keep at 1. cbn [fst snd].
    replace ((p <? 0) || (vp =? p)) with true by lia. cbn [andb].
    destruct (Z.ltb_spec o 0).
    + replace ((0 <=? o) && negb (vo =? o)) with false by lia. cbn [orb]. rewrite place_ok by auto. cbn [map]. unfold entry_of at 1. destruct (view _ _) as [[a b] c]. rewrite IH. reflexivity.
    + replace (0 <=? o) with true by lia. cbn [orb andb]. destruct (vo =? o); cbn [negb]; auto.
      rewrite place_ok by auto. cbn [map]. unfold entry_of at 1. destruct (view _ _) as [[a b] c]. rewrite IH. reflexivity.
Qed.

Section FillScan.
Variables (d : db) (tab0 : Z -> list (Z * Z)) (t : ts) (G : nat -> list table_t).
Hypothesis HS : Stored d 0 t G tab0.
Hypothesis Hpad : pad_ok (d_pad d).
Hypothesis Htab : forall k, StronglySorted plt (tab0 k).

Notation ins := (Inside true (dlists t G)).
Notation fresh := (Fresh (dlists t G)).

(** The state while the triples are read; [l] are the pairs of key [k] and [ks] the keys that are left. *)
Definition Sc (k : Z) (l : list (Z * Z)) (ks : list Z) (s : sc_st) : Prop :=
  (ins k l ks s /\ StronglySorted plt l /\ Forall (fun x => k < x) ks \/ l = [] /\ fresh ks s) /\ StronglySorted Z.lt ks.

Lemma sc_poll fuel k l ks s : Sc k l ks s ->
  match with_key k l ++ elems tab0 ks with
  | [] => exists s1, sc_hasNext d 0 s = Some (false, s1)
  | (k', a, b) :: r => exists s1 s2 l' ks', sc_hasNext d 0 s = Some (true, s1) /\ sc_next fuel d 0 s1 = Some s2 /\
      h_cur (HScan s2) = (k', a, b) /\ r = with_key k' l' ++ elems tab0 ks' /\ Sc k' l' ks' s2 /\ ins k' l' ks' s2 /\
      Forall (fun e => a <= fst e) l' /\ Forall (fun x => k' < x) ks'
  end.
Proof.
  intros [HSc Hks].
  assert (Hmv : forall s', no_table s' -> sc_ign s' = false -> dlists t G ks (sc_1 s') (sc_2 s') -> sc_hasNext d 0 s = sc_move d 0 s' ->
    match elems tab0 ks with
    | [] => exists s1, sc_hasNext d 0 s = Some (false, s1)
    | (k', a, b) :: r => exists s1 s2 l' ks', sc_hasNext d 0 s = Some (true, s1) /\ sc_next fuel d 0 s1 = Some s2 /\
        h_cur (HScan s2) = (k', a, b) /\ r = with_key k' l' ++ elems tab0 ks' /\ Sc k' l' ks' s2 /\ ins k' l' ks' s2 /\
        Forall (fun e => a <= fst e) l' /\ Forall (fun x => k' < x) ks'
    end).
  { intros s' Hn Hi Hl Eh. destruct (d_move d 0 tab0 t G HS ks s' Hl Hn) as (s1 & E1 & Hn1 & Hi1 & Hh1 & Hv1 & Hm). rewrite E1 in Eh.
    destruct ks as [|k0 ks]; [cbn; eauto|]. rewrite Hi in Hi1. destruct (d_next fuel d 0 tab0 t G HS k0 ks s1 Hm Hn1 Hi1 Hh1) as ([a b] & l0 & s2 & Et & E2 & HI & o & Eo & Ea & Eb & _).
    unfold elems. cbn [flat_map]. rewrite Et. cbn [with_key map app]. exists s1, s2, l0, ks. split; auto. split; auto.
    pose proof (Htab k0) as Hst. rewrite Et in Hst. apply StronglySorted_inv in Hst. destruct Hst as [Hs1 Hs2]. apply StronglySorted_inv in Hks. destruct Hks as [Hk1 Hk2].
    split; [|split; [reflexivity|split; [split; [left; auto|auto]|split; [auto|split; auto]]]].
    - cbn [h_cur]. rewrite Eo, Ea, Eb. destruct HI as (o' & _ & _ & _ & _ & Ek & _). now rewrite Ek.
    - eapply Forall_impl; [|exact Hs2]. intros [x y]. unfold plt. cbn. lia. }
  destruct HSc as [(HI & Hl & Hk)|[-> HF]].
  - destruct l as [|[a b] l].
    + destruct (inside_end d 0 _ _ _ _ _ HI) as (s' & H1 & H2 & H3 & H4). cbn [with_key map app]. now apply (Hmv s').
    + destruct (inside_poll fuel d 0 _ _ _ _ _ _ HI) as (s1 & E1 & _ & p' & l' & s2 & El & E2 & HI2 & o & Eo & Ea & Eb & _); [discriminate|]. injection El as <- <-.
      cbn [with_key map app]. exists s1, s2, l, ks. apply StronglySorted_inv in Hl. destruct Hl as [Hl1 Hl2]. split; auto. split; auto.
      split; [|split; [reflexivity|split; [split; [left; auto|auto]|split; [auto|split; auto]]]].
      * cbn [h_cur]. rewrite Eo, Ea, Eb. destruct HI2 as (o' & _ & _ & _ & _ & Ek & _). now rewrite Ek.
      * eapply Forall_impl; [|exact Hl2]. intros [x y]. unfold plt. cbn. lia.
  - pose proof (fresh_poll d 0 (dlists t G) ks s HF) as Ef. destruct HF as (H1 & H2 & H3 & H4). cbn [with_key map app]. now apply (Hmv s).
Qed.

Lemma sc_goto_ok fuel k l ks s : ins k l ks s -> Forall (fun x => k < x) ks -> (length (all_coords t G) < fuel)%nat ->
  exists s', sc_goto fuel d 0 (k + 1) s = Some s' /\ fresh ks s'.
Proof.
  intros (o & Ho & Hy & Hh & Hi & Ek & E2 & i & C & E1 & HR & Hin & Eks) Hk Hf. pose proof HS as (Hfile & HL & _). unfold sc_goto. rewrite Ek.
  replace (k <? k + 1) with true by lia. rewrite E2, E1, Hfile.
  destruct (goto_ok t G HL (d_pad d) (k + 1) fuel C i Hpad HR Hf) as (i' & C1 & C2 & Eg & EC & HC1 & HR2). rewrite Eg. eexists. split; [reflexivity|].
  assert (C1 = []).
  { destruct C1 as [|c C1]; auto. exfalso. apply Forall_inv in HC1. rewrite Eks, EC in Hk. cbn in Hk. apply Forall_inv in Hk. lia. }
  subst C1. cbn in EC. subst C2. split; [split; auto|]. split; [exact Hh|]. split; [exact Hi|]. split; auto. exists i', C. auto.
Qed.

Lemma fill_scan idx p o : reordered idx -> forall fuel k l ks s, Sc k l ks s ->
  (length (with_key k l ++ elems tab0 ks) + length (all_coords t G) < fuel)%nat ->
  ro_fill fuel d idx p o (HScan s) = Some (map (entry_of idx) (filter (keep p o) (with_key k l ++ elems tab0 ks))).
Proof.
  intros Hr. induction fuel as [|fuel IH]; intros k l ks s HSc Hf; [lia|]. cbn [ro_fill h_hasNext].
  pose proof (sc_poll (S fuel) k l ks s HSc) as Hpoll. destruct (with_key k l ++ elems tab0 ks) as [|[[vs vp] vo] r].
  - destruct Hpoll as (s1 & ->). reflexivity.
  - destruct Hpoll as (s1 & s2 & l' & ks' & -> & E2 & Ec & -> & HSc' & HI & Hge & Hks). cbn [h_next]. rewrite E2, Ec. cbn [length] in Hf.
    pose proof (IH vs l' ks' s2 HSc' ltac:(lia)) as IHr. cbn [filter]. unfold keep at 1. cbn [fst snd].
    destruct (Z.leb_spec 0 p) as [Hp|Hp]; cbn [andb].
    + destruct (Z.eqb_spec vp p) as [Hv|Hv]; cbn [negb].
      * replace (p <? 0) with false by lia. cbn [orb andb]. destruct (Z.ltb_spec o 0).
        -- replace ((0 <=? o) && negb (vo =? o)) with false by lia. cbn [orb]. rewrite place_ok by auto. cbn [map]. unfold entry_of at 1. destruct (view _ _) as [[a b] c]. rewrite IHr. reflexivity.
        -- replace (0 <=? o) with true by lia. cbn [orb andb]. destruct (vo =? o); cbn [negb]; auto.
           rewrite place_ok by auto. cbn [map]. unfold entry_of at 1. destruct (view _ _) as [[a b] c]. rewrite IHr. reflexivity.
      * replace ((p <? 0) || false) with false by lia. cbn [andb].
        destruct (Z.ltb_spec p vp) as [Hlt|Hlt]; [|exact IHr]. cbn [h_goto].
        destruct (sc_goto_ok (S fuel) vs l' ks' s2 HI Hks) as (s3 & -> & HF); [rewrite app_length in Hf; lia|].
        assert (HSc3 : Sc 0 [] ks' s3) by (split; [right; auto|apply HSc']).
        rewrite (IH 0 [] ks' s3 HSc3) by (rewrite app_length in *; cbn [with_key map length]; lia).
        assert (E0 : filter (keep p o) (with_key vs l') = []).
        { clear - Hge Hlt Hp. induction l' as [|[a b] l' IHl]; auto. cbn [with_key map filter fst snd]. unfold keep at 1. cbn [fst snd]. apply Forall_inv in Hge as H1. apply Forall_inv_tail in Hge. cbn in H1.
          replace ((p <? 0) || (a =? p)) with false by lia. cbn [andb]. apply IHl. exact Hge. }
        do 2 f_equal. symmetry. etransitivity; [apply filter_app|]. etransitivity; [apply f_equal2; [exact E0|reflexivity]|]. reflexivity.
    + replace (p <? 0) with true by lia. cbn [orb andb]. destruct (Z.ltb_spec o 0).
      -- replace ((0 <=? o) && negb (vo =? o)) with false by lia. cbn [orb]. rewrite place_ok by auto. cbn [map]. unfold entry_of at 1. destruct (view _ _) as [[a b] c]. rewrite IHr. reflexivity.
      -- replace (0 <=? o) with true by lia. cbn [orb andb]. destruct (vo =? o); cbn [negb]; auto.
         rewrite place_ok by auto. cbn [map]. unfold entry_of at 1. destruct (view _ _) as [[a b] c]. rewrite IHr. reflexivity.
Qed.
End FillScan.

(** ** The arrays *)
Definition arrays_list (a : list (Z * list (Z * Z))) : list elem := flat_map (fun e => with_key (fst e) (psort (snd e))) a.

Section Reorder.
Variables (fuel : nat) (d : db) (idx : nat) (p o : Z) (a : list (Z * list (Z * Z))).
Hypothesis Hne : Forall (fun e => snd e <> []) a.

Definition loads (s : ro_st) : Prop := ro_load fuel d idx p o s = Some a.
Definition RS (l : list elem) (x : pitr) : Prop := exists s r, x = ro_obj fuel d idx p o s /\ loads s /\ ro_ign s = false /\ (ro_index s <= length a)%nat /\
  l = r ++ arrays_list (skipn (ro_index s) a) /\
  match ro_itr s with None => r = [] | Some it => exists k q, r = with_key k q /\ ro_key s = k /\ Yields false (with_key k q) it end.

Lemma skip_none i : ro_skip (skipn i a) i = i.
Proof.
  destruct (skipn i a) as [|[k [|x r]] u] eqn:E; auto. exfalso. rewrite Forall_forall in Hne. apply (Hne (k, [])); auto.
  rewrite <- (firstn_skipn i a), E. apply in_or_app. right. now left.
Qed.

Lemma psort_ne l : l <> [] -> psort l <> [].
Proof. intros H E. apply H. pose proof (psort_perm l) as Hp. rewrite E in Hp. now apply Permutation_nil in Hp || (apply Permutation_sym, Permutation_nil in Hp). Qed.

Lemma rest_cons i k q : nth_error a i = Some (k, q) -> arrays_list (skipn i a) = with_key k (psort q) ++ arrays_list (skipn (S i) a).
Proof.
  intros E. replace (skipn i a) with ((k, q) :: skipn (S i) a); [reflexivity|].
  revert i E. clear. induction a as [|x l IH]; intros [|i] E; cbn in *; try discriminate; [congruence|]. now apply IH.
Qed.

Lemma nth_split i : (i < length a)%nat -> exists k q, nth_error a i = Some (k, q) /\ q <> [].
Proof.
  intros Hi. destruct (nth_error a i) as [[k q]|] eqn:E; [|apply nth_error_None in E; lia]. exists k, q. split; auto.
  apply nth_error_In in E. rewrite Forall_forall in Hne. apply (Hne _ E).
Qed.

Lemma rest_nonempty i : (i <= length a)%nat -> nonempty (arrays_list (skipn i a)) = Nat.ltb i (length a).
Proof.
  intros Hi. destruct (Nat.ltb_spec i (length a)) as [H|H].
  - destruct (nth_split i H) as (k & q & E & Hq). rewrite (rest_cons i k q E). apply psort_ne in Hq. now destruct (psort q).
  - rewrite skipn_all2 by lia. reflexivity.
Qed.

(** The state after hasNext. *)
Lemma rs_step : forall l x, RS l x -> exists x1, hasNext x = Some (nonempty l, x1) /\ RS l x1 /\
  match l with [] => True | y :: t => exists x2, next x1 = Some x2 /\ cur x2 = y /\ (false = true -> exists c, getCount x2 = Some (c, x2)) /\ RS t x2 end.
Proof.
  intros l x (s & r & -> & HL & Hi & Hx & -> & Hr). cbn [hasNext ro_obj]. unfold ro_hasNext. rewrite HL.
  (* the case in which the iterator of the last key is at its end, or there is none *)
  assert (Hend : forall it, match it with None => True | Some i => Yields false [] i end ->
    let s1 := mkRo (ro_helper s) (Some a) (ro_index s) it (ro_ign s) (ro_key s) in
    let l := arrays_list (skipn (ro_index s) a) in
    nonempty l = Nat.ltb (ro_index s) (length a) /\ RS l (ro_obj fuel d idx p o s1) /\
    match l with [] => True | y :: t => exists x2, next (ro_obj fuel d idx p o s1) = Some x2 /\ cur x2 = y /\ (false = true -> exists c, getCount x2 = Some (c, x2)) /\ RS t x2 end).
  { intros it Hit s1 l. split; [now apply rest_nonempty|]. split.
    - exists s1, []. split; auto. split; [reflexivity|]. split; auto. split; auto. split; auto. subst s1. cbn [ro_itr]. destruct it as [i|]; auto.
      exists (ro_key s), []. auto.
    - destruct l as [|y t] eqn:El; auto. subst l.
      destruct (Nat.ltb_spec (ro_index s) (length a)) as [H|H]; [|rewrite skipn_all2 in El by lia; discriminate].
      destruct (nth_split _ H) as (k & q & E & Hq). pose proof (rest_cons _ _ _ E) as Er. rewrite El in Er.
      destruct (arr_all k (psort q) (psort_ne _ Hq)) as (ao & Ea & Hy). apply Ready_Yields in Hy.
      destruct (first_ok _ _ _ _ Hy (psort_ne _ Hq)) as ([a1 b1] & q' & o2 & Eq & Ef & Hy2 & E1 & E2 & _).
      cbn [next ro_obj]. unfold ro_next, s1. cbn [ro_itr ro_arr ro_index ro_ign ro_helper].
      assert (He : exists it', ro_ended it = Some (true, it')).
      { destruct it as [i|]; cbn [ro_ended]; eauto. destruct (Yields_poll _ _ _ Hit) as (o1 & -> & _). cbn. eauto. }
      destruct He as (it' & ->). rewrite E, Ea, Hi, Ef. eexists. split; [reflexivity|].
      rewrite Eq in Er. cbn [with_key map app] in Er. injection Er as -> ->.
      split; [unfold cur; cbn [key value1 value2 ro_obj ro_key ro_itr]; now rewrite E1, E2|]. split; [discriminate|].
      eexists. exists (with_key k q'). split; [reflexivity|]. split; [reflexivity|]. split; [reflexivity|]. cbn [ro_index ro_itr ro_key]. split; [lia|]. split; [reflexivity|].
      exists k, q'. auto. }
  destruct (ro_itr s) as [it|] eqn:Eit.
  - destruct Hr as (k & q & -> & Ek & Hy). cbn [ro_ended]. destruct (Yields_poll _ _ _ Hy) as (o1 & E1 & HR). rewrite E1.
    destruct q as [|[a1 b1] q].
    + cbn [with_key map nonempty negb app orb]. rewrite skip_none. destruct (Hend (Some o1)) as (H1 & H2 & H3); [now apply Ready_Yields in HR|].
      eexists. split; [now rewrite H1|]. split; auto.
    + cbn [with_key map nonempty negb app orb]. eexists. split; [reflexivity|]. split.
      * eexists. exists (with_key k ((a1, b1) :: q)). split; [reflexivity|]. split; [reflexivity|]. split; [exact Hi|]. cbn [ro_index ro_itr ro_key]. split; auto. split; [reflexivity|].
        exists k, ((a1, b1) :: q). split; auto. split; auto. now apply Ready_Yields in HR.
      * pose proof (Ready_Yields _ _ _ HR) as Hy1. destruct (Yields_poll _ _ _ Hy1) as (o1' & E1' & _ & o2 & E2 & Ec & _ & Hy2).
        cbn [next ro_obj]. unfold ro_next. cbn [ro_itr ro_arr ro_index ro_ign ro_helper ro_ended ro_key]. rewrite E1'. cbn [nonempty negb]. rewrite E2.
        eexists. split; [reflexivity|]. unfold cur in *. cbn [key value1 value2 ro_obj ro_key ro_itr] in *. injection Ec as _ -> ->. split; [now rewrite Ek|]. split; [discriminate|].
        eexists. exists (with_key k q). split; [reflexivity|]. split; [reflexivity|]. split; [exact Hi|]. cbn [ro_index ro_itr ro_key]. split; auto. split; [reflexivity|].
        exists k, q. auto.
  - subst r. cbn [ro_ended]. cbn [negb orb app]. rewrite skip_none. destruct (Hend None I) as (H1 & H2 & H3). eexists. split; [now rewrite H1|]. split; auto.
Qed.

Lemma ro_yields s : loads s -> ro_ign s = false -> ro_index s = 0%nat -> ro_itr s = None ->
  Yields false (arrays_list a) (ro_obj fuel d idx p o s).
Proof.
  intros HL Hi Hx Ht. apply (Yields_inv false RS rs_step). exists s, []. split; auto. split; auto. split; auto. rewrite Hx, Ht. split; [lia|]. auto.
Qed.
End Reorder.
