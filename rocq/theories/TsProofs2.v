(** Iterators that move forward as index scans need it: tables, arrays, scans. *)
From Coq Require Import Sorted Permutation ZifyBool.
From Verif Require Import DomModel DomProps TsModel TsSpec TsProofs TableProofs.
From Verif Require Import ArrayProofs KbProofs KbProofs2.
Local Open Scope Z_scope.

Section SEEK.
Variable top : Z.

Definition SeekAt (c : option elem) (l : list elem) (o : pitr) : Prop := exists S, seek_sim top S /\ S c l o.
Lemma SeekAt_sim : seek_sim top SeekAt.
Proof.
  intros c l o (S & HS & H). destruct (HS _ _ _ H) as ((o1 & E & H1 & M) & MV). split.
  - exists o1. split; [exact E|]. split; [exists S; auto|]. destruct l as [|x t]; auto. destruct M as (o2 & A & B & C). exists o2. split; auto. split; auto. exists S; auto.
  - intros x a b Ec Ia Ib La. destruct (MV x a b Ec Ia Ib La) as (o2 & A & B). exists o2. split; auto. exists S; auto.
Qed.

Lemma skip_key k x y a b m : filter (fun e => negb ((c1 e =? c1 (k, x, y)) && pair_lt (c2 e, c3 e) a b)) (with_key k m) = with_key k (filter (fun e => negb (pair_lt e a b)) m).
Proof.
  induction m as [|[u v] m IH]; [reflexivity|]. cbn [with_key map filter]. unfold with_key in IH. rewrite IH. unfold c1, c2, c3. cbn [fst snd]. rewrite Z.eqb_refl. cbn [andb].
  destruct (pair_lt (u, v) a b); reflexivity.
Qed.

Lemma cursor_seek k bk l o : Cursor k bk l o -> Seek top (with_key k l) o.
Proof.
  intros (S & HS & H). exists (fun c L o => exists c' m lp, S c' m lp o /\ L = with_key k lp /\ forall e, c = Some e -> exists x, c' = Some x /\ e = (k, fst x, snd x)). split.
  - intros c L o' (c' & m & lp & Hs & -> & Hc). destruct (HS _ _ _ _ Hs) as ((E & M) & _ & MV & _). split.
    + exists o'. split; [destruct lp; exact E|]. split; [exists c', m, lp; split; auto; split; auto; discriminate|]. destruct lp as [|x t]; [exact I|]. cbn [with_key map].
      destruct M as (o2 & A & B & C). exists o2. split; auto. split; auto. exists (Some x), m, t. split; auto. split; auto. intros e Ee. injection Ee as <-. exists x. auto.
    + intros e a b Ee Ia Ib La. destruct (Hc e Ee) as (x & Ex & ->). destruct (MV x a b Ex Ia Ib) as (o2 & A & B). exists o2. split; auto. exists None, m. eexists. split; [exact B|].
      split; [|discriminate]. rewrite skip_key. cbn [filter]. replace (pair_lt x a b) with true; [reflexivity|]. unfold pair_lt, c2 in *. cbn [fst snd] in La. lia.
  - exists None, None, l. split; auto. split; auto. discriminate.
Qed.

Lemma empty_seek k : Seek top [] (empty_itr k).
Proof.
  exists (fun c L o => c = None /\ L = [] /\ o = empty_itr k). split; [|auto]. intros c L o (-> & -> & ->). split; [|discriminate].
  exists (empty_itr k). split; [reflexivity|]. split; auto.
Qed.

(** ** ArrayItr without constraints *)
Definition ASeek (k : Z) (arr : list (Z * Z)) (c : option elem) (l : list elem) (o : pitr) : Prop :=
  exists s, o = arr_obj s /\ a_arr s = arr /\ a_key s = k /\ a_ign s = false /\ a_c1 s = -1 /\ 0 <= a_pos s <= len arr /\ l = with_key k (from arr (a_pos s)) /\
    (a_hnc s = true -> a_n s = nonempty l) /\
    forall x, c = Some x -> 1 <= a_pos s /\ x = (k, a_v1 s, a_v2 s) /\ (a_v1 s, a_v2 s) = nthp arr (a_pos s - 1).
Lemma nonempty_key k m : nonempty (with_key k m) = nonempty m.
Proof. destruct m; reflexivity. Qed.
Lemma from_ne arr i : 0 <= i <= len arr -> nonempty (from arr i) = (i <? len arr).
Proof. intros H. destruct (Z.ltb_spec i (len arr)); [rewrite from_cons by lia; reflexivity|rewrite from_end by lia; reflexivity]. Qed.

Lemma dropwhile_filter l a b : psorted l -> dropwhile (fun e => pair_lt e a b) l = filter (fun e => negb (pair_lt e a b)) l.
Proof.
  induction 1 as [|x l Hs IH Hf]; [reflexivity|]. cbn [dropwhile filter]. destruct (pair_lt x a b) eqn:E; cbn [negb]; [exact IH|]. f_equal. symmetry. rewrite Forall_forall in Hf.
  clear IH Hs. induction l as [|y l IH]; [reflexivity|]. cbn [filter]. pose proof (Hf y (or_introl eq_refl)) as Hy. unfold ple in Hy.
  replace (pair_lt y a b) with false; [cbn [negb]; f_equal; apply IH; intros z Hz; apply Hf; now right|]. unfold pair_lt in *. destruct x as [x1 x2], y as [y1 y2]. cbn [fst snd] in *. lia.
Qed.

Lemma arr_move s a b : psorted (a_arr s) -> a_ign s = false -> 1 <= a_pos s <= len (a_arr s) -> (a_v1 s, a_v2 s) = nthp (a_arr s) (a_pos s - 1) -> a_v1 s < a ->
  exists pos, arr_moveto s a b = Some (arr_set s pos false (a_n s)) /\ 0 <= pos <= len (a_arr s) /\
    from (a_arr s) pos = filter (fun e => negb (pair_lt e a b)) (from (a_arr s) (a_pos s)).
Proof.
  intros Hs Hi Hp Hv La. unfold arr_moveto. replace (a <=? a_v1 s) with false by lia. cbn [andb]. unfold a_len. fold (len (a_arr s)).
  destruct (binarySearch_ok (a_arr s) (a_pos s) a Hs) as (r & -> & Hcase); [lia|].
  set (p' := if r <? 0 then - r - 1 else r).
  assert (Hp' : a_pos s - 1 <= p' <= len (a_arr s) /\ forall i, a_pos s <= i < p' -> pair_lt (nthp (a_arr s) i) a b = true).
  { destruct Hcase as [(H1 & H2 & H3)|(l & Hl & H1 & H2 & Hr)].
    - unfold p'. replace (r <? 0) with false by lia. split; [lia|]. intros i Hi'. specialize (H3 i Hi'). unfold pair_lt. lia.
    - destruct (len (a_arr s) <=? l) eqn:El.
      + assert (p' = l) by (unfold p'; subst r; replace (- l - 1 <? 0) with true by lia; lia). split; [lia|]. intros i Hi'. specialize (H1 i ltac:(lia)). unfold pair_lt. lia.
      + assert (p' = l - 1) by (unfold p'; subst r; replace (l - 1 <? 0) with false by lia; lia). split; [lia|]. intros i Hi'. specialize (H1 i ltac:(lia)). unfold pair_lt. lia. }
  destruct Hp' as [Hp1 Hp2]. change (fun e : Z * Z => (fst e <? a) || ((fst e =? a) && (snd e <? b))) with (fun e : Z * Z => pair_lt e a b).
  destruct (scan__ok (fun e => pair_lt e a b) (a_arr s) p') as (pos & -> & Hpos & Hfd & _ & _); [lia|].
  eexists; split; [reflexivity|]. split; [lia|]. rewrite <- dropwhile_filter by (now apply from_sorted). rewrite Hfd.
  destruct (Z.eq_dec p' (a_pos s - 1)) as [-> |Hne].
  - rewrite (from_cons (a_arr s) (a_pos s - 1)) by lia. replace (a_pos s - 1 + 1) with (a_pos s) by lia. cbn [dropwhile]. rewrite <- Hv.
    replace (pair_lt (a_v1 s, a_v2 s) a b) with true by (unfold pair_lt; cbn; lia). reflexivity.
  - rewrite (from_split (a_arr s) (a_pos s) p') by lia.
    assert (Hfa : Forall (fun e => pair_lt e a b = true) (firstn (Z.to_nat (p' - a_pos s)) (from (a_arr s) (a_pos s)))) by (apply (Forall_nthp (fun e => pair_lt e a b = true)); auto; lia).
    revert Hfa. generalize (firstn (Z.to_nat (p' - a_pos s)) (from (a_arr s) (a_pos s))). intros l0 Hl0. induction Hl0 as [|e l0 Ha _ IH]; cbn; auto. rewrite Ha. auto.
Qed.

Lemma aseek_sim k arr : psorted arr -> seek_sim top (ASeek k arr).
Proof.
  intros Hs c l o (s & -> & Ea & Ek & Ei & Ec & Hp & -> & Hn & Hc). split.
  - rewrite nonempty_key, from_ne in * by auto.
    assert (E : exists s1, arr_hasNext s = Some (a_pos s <? len arr, s1) /\ a_arr s1 = arr /\ a_key s1 = k /\ a_ign s1 = false /\ a_c1 s1 = -1 /\ a_pos s1 = a_pos s /\ a_hnc s1 = true /\ a_n s1 = (a_pos s <? len arr)).
    { unfold arr_hasNext. destruct (a_hnc s) eqn:Eh.
      - rewrite Hn by auto. exists s. auto 9.
      - rewrite Ei, Ec. cbn. unfold a_len. rewrite Ea. fold (len arr). eexists. split; [reflexivity|]. cbn. auto 9. }
    destruct E as (s1 & E & Q1 & Q2 & Q3 & Q4 & Q5 & Q6 & Q7). rewrite arr_obj_hasNext, E. exists (arr_obj s1). split; [reflexivity|]. split.
    { exists s1. rewrite Q5. split; auto. split; auto. split; auto. split; auto. split; auto. split; auto. split; auto. split; [|discriminate]. rewrite nonempty_key, from_ne by auto. auto. }
    destruct (Z.ltb_spec (a_pos s) (len arr)) as [Hl|Hl]; [|now rewrite from_end by lia].
    rewrite from_cons by lia. cbn [with_key map]. rewrite arr_obj_next. unfold arr_next. rewrite Q1, Q5, at_in by lia. eexists. split; [reflexivity|]. rewrite arr_obj_cur. cbn [a_key a_v1 a_v2].
    split; [now rewrite Q2|]. eexists. split; [reflexivity|]. cbn [a_arr a_key a_ign a_c1 a_pos a_hnc a_n a_v1 a_v2]. split; auto. split; auto. split; auto. split; auto. split; [lia|]. split; auto. split; [discriminate|].
    intros x Ex. injection Ex as <-. split; [lia|]. split; [reflexivity|]. replace (a_pos s + 1 - 1) with (a_pos s) by lia. now destruct (nthp arr (a_pos s)).
  - intros x a b Ex Ia Ib La. destruct (Hc x Ex) as (Hp1 & -> & Hv). unfold c2 in La. cbn [fst snd] in La. subst arr.
    destruct (arr_move s a b Hs Ei ltac:(lia) Hv ltac:(lia)) as (pos & E & Hpos & Hf).
    change (moveto (arr_obj s) a b) with (match arr_moveto s a b with Some s' => Some (arr_obj s') | None => None end). rewrite E. eexists. split; [reflexivity|].
    rewrite skip_key, <- Hf. eexists. split; [reflexivity|]. cbn [arr_set a_arr a_key a_ign a_c1 a_pos a_hnc a_n a_v1 a_v2]. split; auto. split; auto. split; auto. split; auto. split; auto. split; auto. split; discriminate.
Qed.

Lemma arr_seek k arr : psorted arr -> arr <> [] -> exists o, new_arr_itr k arr (-1) (-1) = Some o /\ Seek top (with_key k arr) o.
Proof.
  intros Hs Hne. eexists. split; [reflexivity|]. exists (ASeek k arr). split; [now apply aseek_sim|]. eexists. split; [reflexivity|]. cbn [a_arr a_key a_ign a_c1 a_pos a_hnc a_n a_v1 a_v2].
  split; auto. split; auto. split; auto. split; auto. split; [unfold len; lia|]. split; auto. split; [|discriminate]. intros _. destruct arr; [congruence|reflexivity].
Qed.

Lemma reverse_seek fuel cnt l old k : Yields cnt l old -> (length l < fuel)%nat ->
  exists o R, newItrOnReverse fuel old k (-1) (-1) = Some o /\ Seek top (with_key k R) o /\ psorted R /\ Permutation R (swapped l).
Proof.
  intros Hy Hf. unfold newItrOnReverse. rewrite (reverse_fill_ok cnt (-1) l old fuel Hy Hf).
  replace (filter (fun e => (-1 <? 0) || (fst e =? -1)) (swapped l)) with (swapped l) by (clear; induction (swapped l); cbn; auto; now f_equal).
  destruct (swapped l) as [|a L] eqn:EL.
  - exists (empty_itr k), []. split; [reflexivity|]. split; [apply empty_seek|]. split; constructor.
  - rewrite <- EL. destruct (arr_seek k (psort (swapped l))) as (o & E & H); [apply psort_sorted| |].
    { intros E0. pose proof (psort_perm (swapped l)) as P. rewrite E0 in P. apply Permutation_nil in P. congruence. }
    exists o, (psort (swapped l)). split; [exact E|]. split; [exact H|]. split; [apply psort_sorted|apply psort_perm].
Qed.
End SEEK.

(** Rows with only one second value are never left. *)
Lemma yields_seek v cnt l o : Yields cnt l o -> Forall (fun e => c2 e = v) l -> Seek v l o.
Proof.
  intros Hy Hf. exists (fun c l o => Yields cnt l o /\ Forall (fun e => c2 e = v) l /\ forall x, c = Some x -> c2 x = v). split; [|split; [auto|split; [auto|discriminate]]].
  clear. intros c l o (Hy & Hf & Hc). split.
  - destruct (Yields_poll _ _ _ Hy) as (o1 & E & Hy1 & M). exists o1. split; auto. split; [split; [auto|split; [auto|discriminate]]|]. destruct l as [|x t]; auto.
    destruct M as (o2 & A & B & _ & C). exists o2. inversion Hf; subst. split; auto. split; auto. split; auto. split; auto. intros y Ey. now injection Ey as <-.
  - intros x a b Ex _ _ La. specialize (Hc x Ex). lia.
Qed.

(** ** ScanItr *)
Section Scan.
Variables (top : Z) (fuel : nat) (d : db) (idx : nat) (tab : Z -> list (Z * Z)).
Variable lists : list Z -> option titr -> option titr -> Prop.
Variable moved : Z -> list Z -> option titr -> option titr -> Prop.
Notation at_ := (SeekAt top).

Definition in_table (s : sc_st) (o : pitr) : Prop := (sc_cur s = Some o /\ sc_rev s = None) \/ (sc_cur s = None /\ sc_rev s = Some o).
Definition SInside (c : option elem) (k : Z) (l : list (Z * Z)) (ks : list Z) (s : sc_st) : Prop :=
  exists o, in_table s o /\ SeekAt top c (with_key k l) o /\ sc_hnc s = false /\ sc_ign s = false /\ sc_key s = k /\ lists ks (sc_1 s) (sc_2 s) /\ ~ In k ks /\ NoDup ks.
Definition SPolled (k : Z) (l : list (Z * Z)) (ks : list Z) (s : sc_st) : Prop :=
  exists o p l' o2, in_table s o /\ l = p :: l' /\ next o = Some o2 /\ cur o2 = (k, fst p, snd p) /\ SeekAt top (Some (k, fst p, snd p)) (with_key k l') o2 /\
    sc_hnc s = true /\ sc_hn s = true /\ sc_ign s = false /\ sc_key s = k /\ lists ks (sc_1 s) (sc_2 s) /\ ~ In k ks /\ NoDup ks.
Definition SMoved (ks : list Z) (s : sc_st) : Prop :=
  no_table s /\ sc_ign s = false /\ sc_hnc s = true /\ sc_hn s = nonempty ks /\ NoDup ks /\ match ks with [] => True | k :: r => moved k r (sc_1 s) (sc_2 s) end.

Hypothesis Hmove : forall ks s, lists ks (sc_1 s) (sc_2 s) -> no_table s ->
  exists s1, sc_move d idx s = Some (nonempty ks, s1) /\ no_table s1 /\ sc_ign s1 = sc_ign s /\ sc_hnc s1 = true /\ sc_hn s1 = nonempty ks /\
    match ks with [] => True | k :: r => moved k r (sc_1 s1) (sc_2 s1) end.
Hypothesis Hnext : forall k ks s, moved k ks (sc_1 s) (sc_2 s) -> no_table s -> sc_ign s = false -> sc_hnc s = true ->
  exists p l s2 o, tab k = p :: l /\ sc_next fuel d idx s = Some s2 /\ in_table s2 o /\ cur o = (k, fst p, snd p) /\ SeekAt top (Some (k, fst p, snd p)) (with_key k l) o /\
    sc_hnc s2 = false /\ sc_ign s2 = false /\ sc_key s2 = k /\ lists ks (sc_1 s2) (sc_2 s2).

Definition SS (c : option elem) (l : list elem) (o : pitr) : Prop :=
  exists s, o = sc_obj fuel d idx s /\
  ((exists k t ks, SInside c k t ks s /\ l = with_key k t ++ elems tab ks /\ forall x, c = Some x -> c1 x = k) \/
   (c = None /\ exists k t ks, SPolled k t ks s /\ l = with_key k t ++ elems tab ks) \/
   (c = None /\ exists ks, Fresh lists ks s /\ NoDup ks /\ l = elems tab ks) \/
   (c = None /\ exists ks, SMoved ks s /\ l = elems tab ks)).

Lemma in_table_table s o : in_table s o -> sc_table s = Some o.
Proof. unfold in_table, sc_table. intros [[A B]|[A B]]; rewrite ?B; auto. Qed.

(** From the list of keys. *)
Lemma after_move ks s0 s1 s : NoDup ks -> no_table s -> sc_ign s = false -> lists ks (sc_1 s) (sc_2 s) -> sc_hasNext d idx s0 = sc_move d idx s ->
  sc_move d idx s = Some (nonempty ks, s1) -> SMoved ks s1.
Proof.
  intros ND Hn Hi HL Eh E. destruct (Hmove ks s HL Hn) as (s1' & E' & A & B & C & D & M). rewrite E in E'. injection E' as <-. unfold SMoved. rewrite B. auto 8.
Qed.
Lemma elems_tab_ne ks : (forall k, In k ks -> tab k <> []) -> nonempty (elems tab ks) = nonempty ks.
Proof.
  destruct ks as [|k r]; [reflexivity|]. intros H. unfold elems. cbn [flat_map]. destruct (tab k) as [|p l] eqn:E; [destruct (H k (or_introl eq_refl) E)|reflexivity].
Qed.
Lemma moved_next ks s : SMoved ks s -> nonempty (elems tab ks) = nonempty ks /\
  match elems tab ks with
  | [] => True
  | x :: t => exists o2, next (sc_obj fuel d idx s) = Some o2 /\ cur o2 = x /\ SS (Some x) t o2
  end.
Proof.
  intros (Hn & Hi & Hh & _ & ND & M). destruct ks as [|k r]; [split; [reflexivity|exact I]|].
  destruct (Hnext k r s M Hn Hi Hh) as (p & l & s2 & o & Et & E & HI & Ec & HS & A & B & C & D).
  assert (El : elems tab (k :: r) = (k, fst p, snd p) :: with_key k l ++ elems tab r) by (unfold elems; cbn [flat_map]; rewrite Et; reflexivity). rewrite El. split; [reflexivity|].
  rewrite sc_obj_next, E. eexists. split; [reflexivity|]. rewrite (sc_obj_cur _ _ _ _ _ (in_table_table _ _ HI)). unfold cur in Ec. injection Ec as _ E1 E2. split; [now rewrite C, E1, E2|].
  exists s2. split; auto. left. exists k, l, r. split; [|split; [reflexivity|]]. 2:{ intros x Ex. now injection Ex as <-. }
  inversion ND; subst. exists o. auto 9.
Qed.

Lemma ss_sim : seek_sim top SS.
Proof.
  intros c l o (s & -> & H). destruct H as [(k & t & ks & HI & -> & Hck)|[(-> & k & t & ks & HP & ->)|[(-> & ks & HF & ND & ->)|(-> & ks & HM & ->)]]].
  - destruct HI as (o & Ho & HS & Hh & Hi & Hk & HL & Nk & ND). destruct (SeekAt_sim top _ _ _ HS) as ((o1 & E & HS1 & M) & MV). split.
    + rewrite sc_obj_hasNext. destruct t as [|p t].
      * cbn [with_key map app nonempty] in *.
        assert (E1 : exists s', no_table s' /\ sc_ign s' = false /\ lists ks (sc_1 s') (sc_2 s') /\ sc_hasNext d idx s = sc_move d idx s').
        { unfold sc_hasNext. rewrite Hh. destruct Ho as [[Eu Ev]|[Eu Ev]]; rewrite Eu, ?Ev, E; eexists; (split; [|split; [|split; [|reflexivity]]]); cbn; auto; split; auto. }
        destruct E1 as (s' & Hn & Hi' & HL' & Eh). destruct (Hmove ks s' HL' Hn) as (s1 & E1 & _). pose proof (after_move ks s s1 s' ND Hn Hi' HL' Eh E1) as HM.
        rewrite Eh, E1. destruct (moved_next ks s1 HM) as (En & Mn). rewrite En. eexists. split; [reflexivity|]. split; [|exact Mn]. exists s1. split; auto. right. right. right. split; auto. exists ks. auto.
      * cbn [with_key map app nonempty] in *. destruct M as (o2 & E2 & C2 & S2).
        assert (E1 : exists s1, sc_hasNext d idx s = Some (true, s1) /\ in_table s1 o1 /\ sc_hnc s1 = true /\ sc_hn s1 = true /\ sc_ign s1 = false /\ sc_key s1 = k /\ lists ks (sc_1 s1) (sc_2 s1)).
        { unfold sc_hasNext, in_table. rewrite Hh. destruct Ho as [[Eu Ev]|[Eu Ev]]; rewrite Eu, ?Ev, E; eexists; (split; [reflexivity|]); cbn; auto 9. }
        destruct E1 as (s1 & -> & A1 & A2 & A3 & A4 & A5 & A6).
        exists (sc_obj fuel d idx s1). split; [reflexivity|]. split.
        { exists s1. split; auto. right. left. split; auto. exists k, (p :: t), ks. split; [|reflexivity]. exists o1, p, t, o2. auto 12. }
        assert (E3 : exists s2, sc_next fuel d idx s1 = Some s2 /\ in_table s2 o2 /\ sc_hnc s2 = false /\ sc_ign s2 = false /\ sc_key s2 = k /\ lists ks (sc_1 s2) (sc_2 s2)).
        { unfold sc_next, in_table. destruct A1 as [[Eu Ev]|[Eu Ev]]; rewrite Eu, ?Ev, E2; eexists; (split; [reflexivity|]); cbn; auto 9. }
        destruct E3 as (s2 & E3 & B1 & B2 & B3 & B4 & B5). rewrite sc_obj_next, E3. eexists. split; [reflexivity|]. rewrite (sc_obj_cur _ _ _ _ _ (in_table_table _ _ B1)).
        unfold cur in C2. injection C2 as _ Q1 Q2. split; [now rewrite B4, Q1, Q2|]. exists s2. split; auto. left. exists k, t, ks. split; [|split; [reflexivity|]]. 2:{ intros x Ex. now injection Ex as <-. }
        exists o2. auto 9.
    + intros x a b Ex Ia Ib La. destruct (MV x a b Ex Ia Ib La) as (o2 & E2 & S2). specialize (Hck x Ex).
      assert (EM : moveto (sc_obj fuel d idx s) a b = Some (sc_obj fuel d idx (sc_set s o2))) by (cbn; rewrite (in_table_table _ _ Ho), E2; reflexivity).
      rewrite EM. eexists. split; [reflexivity|].
      assert (EF : filter (fun e => negb ((c1 e =? c1 x) && pair_lt (c2 e, c3 e) a b)) (with_key k t ++ elems tab ks) = with_key k (filter (fun e => negb (pair_lt e a b)) t) ++ elems tab ks).
      { rewrite filter_app. f_equal.
        - destruct x as [[xk xa] xb]. unfold c1 in Hck. cbn in Hck. subst xk. apply skip_key.
        - apply filter_all. intros e He. unfold elems in He. apply in_flat_map in He. destruct He as (k' & Hk' & He). unfold with_key in He. apply in_map_iff in He. destruct He as (p & <- & _).
          unfold c1 at 1. cbn [fst]. rewrite Hck. destruct (Z.eqb_spec k' k) as [-> |]; [contradiction|reflexivity]. }
      rewrite EF. eexists. split; [reflexivity|]. left. exists k, (filter (fun e => negb (pair_lt e a b)) t), ks. split; [|split; [reflexivity|discriminate]].
      exists o2. split; [|split].
      * unfold in_table, sc_set. destruct Ho as [[Eu Ev]|[Eu Ev]]; rewrite Ev; cbn; auto.
      * destruct x as [[xk xa] xb]. unfold c1 in Hck. cbn in Hck. subst xk. rewrite skip_key in S2. exact S2.
      * unfold sc_set. destruct (sc_rev s); cbn; auto 9.
  - destruct HP as (o & p & t' & o2 & Ho & -> & E2 & C2 & S2 & Hh & Hhn & Hi & Hk & HL & Nk & ND). split; [|discriminate].
    rewrite sc_obj_hasNext, sc_hasNext_hnc by auto. rewrite Hhn. cbn [with_key map app nonempty]. exists (sc_obj fuel d idx s). split; [reflexivity|]. split.
    { exists s. split; auto. right. left. split; auto. exists k, (p :: t'), ks. split; [|reflexivity]. exists o, p, t', o2. auto 12. }
    assert (E3 : exists s2, sc_next fuel d idx s = Some s2 /\ in_table s2 o2 /\ sc_hnc s2 = false /\ sc_ign s2 = false /\ sc_key s2 = k /\ lists ks (sc_1 s2) (sc_2 s2)).
    { unfold sc_next, in_table. destruct Ho as [[Eu Ev]|[Eu Ev]]; rewrite Eu, ?Ev, E2; eexists; (split; [reflexivity|]); cbn; auto 9. }
    destruct E3 as (s2 & E3 & B1 & B2 & B3 & B4 & B5). rewrite sc_obj_next, E3. eexists. split; [reflexivity|]. rewrite (sc_obj_cur _ _ _ _ _ (in_table_table _ _ B1)).
    unfold cur in C2. injection C2 as _ Q1 Q2. split; [now rewrite B4, Q1, Q2|]. exists s2. split; auto. left. exists k, t', ks. split; [|split; [reflexivity|]]. 2:{ intros x Ex. now injection Ex as <-. }
    exists o2. auto 9.
  - split; [|discriminate]. rewrite sc_obj_hasNext, (fresh_poll d idx lists _ _ HF). destruct HF as (Hn & Hh & Hi & HL). destruct (Hmove ks s HL Hn) as (s1 & E1 & _).
    assert (Eh : sc_hasNext d idx s = sc_move d idx s) by (apply (fresh_poll d idx lists ks); split; auto).
    pose proof (after_move ks s s1 s ND Hn Hi HL Eh E1) as HM. rewrite E1. destruct (moved_next ks s1 HM) as (En & Mn). rewrite En. eexists. split; [reflexivity|]. split; [|exact Mn].
    exists s1. split; auto. right. right. right. split; auto. exists ks. auto.
  - split; [|discriminate]. destruct (moved_next ks s HM) as (En & Mn). rewrite sc_obj_hasNext, sc_hasNext_hnc by apply HM. rewrite En. destruct HM as (A & B & C & D & HM') eqn:EM. rewrite D. eexists. split; [reflexivity|]. split; [|exact Mn].
    exists s. split; auto. right. right. right. split; auto. exists ks. split; [exact HM|reflexivity].
Qed.

Lemma fresh_seek ks s : Fresh lists ks s -> NoDup ks -> Seek top (elems tab ks) (sc_obj fuel d idx s).
Proof. intros H ND. exists SS. split; [apply ss_sim|]. exists s. split; auto. right. right. left. split; auto. exists ks. auto. Qed.
End Scan.

Lemma first_seek top k l o : Seek top (with_key k l) o -> l <> [] ->
  exists p l' o2, l = p :: l' /\ sc_first false o = Some o2 /\ cur o2 = (k, fst p, snd p) /\ SeekAt top (Some (k, fst p, snd p)) (with_key k l') o2.
Proof.
  intros HS Hne. destruct l as [|p l]; [congruence|]. destruct HS as (S & Sim & H). destruct (Sim _ _ _ H) as ((o1 & E1 & _ & M) & _). cbn [with_key map nonempty] in *.
  destruct M as (o2 & E2 & Ec & H2). exists p, l, o2. unfold sc_first. rewrite E1. split; auto. split; auto. split; auto. exists S. auto.
Qed.

Section Direct.
Variables (top : Z) (fuel : nat) (d : db) (idx : nat) (tab : Z -> list (Z * Z)) (t : ts) (G : nat -> list table_t).
Hypothesis HS : Stored d idx t G tab.

Lemma open_cursor i c : In c (all_coords t G) -> On c i -> exists o, sc_open d idx i = Some o /\ Yields true (with_key (c_key c) (tab (c_key c))) o /\ tab (c_key c) <> [] /\
  exists bk, Cursor (c_key c) bk (tab (c_key c)) o.
Proof.
  destruct HS as (Hf & HL & HO). intros Hin Hon. rewrite Forall_forall in HO. specialize (HO c Hin). destruct c as [[[k f] p] st].
  destruct Hon as (E1 & E2 & E3 & E4). unfold sc_open. rewrite E4, E1, E2, E3. destruct HO as (Hne & o & Eo & Hy & HC & _). exists o. auto.
Qed.

Lemma d_next_seek : forall k ks s, dmoved t G k ks (sc_1 s) (sc_2 s) -> no_table s -> sc_ign s = false -> sc_hnc s = true ->
  exists p l s2 o, tab k = p :: l /\ sc_next fuel d idx s = Some s2 /\ in_table s2 o /\ cur o = (k, fst p, snd p) /\ SeekAt top (Some (k, fst p, snd p)) (with_key k l) o /\
    sc_hnc s2 = false /\ sc_ign s2 = false /\ sc_key s2 = k /\ dlists t G ks (sc_1 s2) (sc_2 s2).
Proof.
  intros k ks s (E2 & i & c & C & E1 & Ho & Hin & Ek & HR & Hinc & ->) [Hn1 Hn2] Hi Hh. unfold sc_next. rewrite Hn1, Hn2, E2, E1.
  destruct (open_cursor i c Hin Ho) as (o & -> & Hy & Hne & bk & HC). destruct (first_seek top _ _ _ (cursor_seek top _ _ _ _ HC) Hne) as (p & l & o2 & Et & Ef & Ec & HS2).
  assert (Eki : ti_key i = k) by (destruct c as [[[kc fc] pc] sc]; destruct Ho as (Eo & _); cbn in Ek; congruence).
  rewrite Hi, Ef. exists p, l. eexists. exists o2. split; [congruence|]. split; [reflexivity|]. rewrite Ek in *. split; [left; cbn; auto|]. split; auto. split; auto. cbn. split; auto. split; auto. split; auto.
  split; auto. exists i, C. auto.
Qed.

Lemma direct_seek ks s : Fresh (dlists t G) ks s -> NoDup ks -> Seek top (elems tab ks) (sc_obj fuel d idx s).
Proof. intros H ND. apply (fresh_seek top fuel d idx tab (dlists t G) (dmoved t G)); auto; [apply (d_move d idx tab t G HS)|apply d_next_seek]. Qed.
End Direct.

Section Reversed.
Variables (top : Z) (fuel : nat) (d : db) (idx : nat) (tab tab2 : Z -> list (Z * Z)) (t2 : ts) (G2 : nat -> list table_t).
Hypothesis Hidx : (2 < idx)%nat.
Hypothesis HS2 : Stored d (idx - 3) t2 G2 tab2.
Hypothesis HS1 : d_files d idx = None \/ exists t1 G1, Stored d idx t1 G1 tab.
Hypothesis Htab : forall c, In c (all_coords t2 G2) -> let k := c_key c in
  StronglySorted ple (tab k) /\ Permutation (map (fun e => (snd e, fst e)) (tab2 k)) (tab k) /\ (length (tab2 k) < fuel)%nat.
Hypothesis HND : NoDup (map c_key (all_coords t2 G2)).

Lemma r_next_seek : forall k ks s, rmoved d idx tab t2 G2 k ks (sc_1 s) (sc_2 s) -> no_table s -> sc_ign s = false -> sc_hnc s = true ->
  exists p l s2 o, tab k = p :: l /\ sc_next fuel d idx s = Some s2 /\ in_table s2 o /\ cur o = (k, fst p, snd p) /\ SeekAt top (Some (k, fst p, snd p)) (with_key k l) o /\
    sc_hnc s2 = false /\ sc_ign s2 = false /\ sc_key s2 = k /\ rlists d idx tab t2 G2 ks (sc_1 s2) (sc_2 s2).
Proof.
  intros k ks s (Ho1 & i & c & C & E2 & Ho & Hin & Ek & HR & Hinc & ->) [Hn1 Hn2] Hi Hh. unfold sc_next. rewrite Hn1, Hn2, E2.
  assert (Eki : ti_key i = k) by (destruct c as [[[kc fc] pc] sc]; destruct Ho as (Eo & _); cbn in Ek; congruence).
  destruct (Htab c Hin) as (Hsort & Hperm & Hlen). cbv zeta in *. rewrite Ek in *.
  destruct (open_on d (idx - 3) tab2 t2 G2 HS2 i c Hin Ho) as (o & Eo & Hy & Hne). rewrite Ek in Hy, Hne.
  assert (Hrev : exists p l s2 o', tab k = p :: l /\
    (do o <- sc_open d (idx - 3) i; do o <- newItrOnReverse fuel o (ti_key i) (-1) (-1); do o <- sc_first (sc_ign s) o;
     Some (mkSc (sc_1 s) (Some i) None (Some o) (sc_ign s) false (sc_hn s) (ti_key i))) = Some s2 /\ in_table s2 o' /\ cur o' = (k, fst p, snd p) /\ SeekAt top (Some (k, fst p, snd p)) (with_key k l) o' /\
    sc_hnc s2 = false /\ sc_ign s2 = false /\ sc_key s2 = k /\ rlists d idx tab t2 G2 (map c_key C) (sc_1 s2) (sc_2 s2)).
  { rewrite Eo. destruct (reverse_seek top fuel true _ o (ti_key i) Hy) as (o' & R & Er & Hy' & HsR & HpR); [unfold with_key; now rewrite map_length|].
    rewrite Er. assert (R = tab k).
    { apply ple_sorted_eq; auto. rewrite HpR, <- Hperm. unfold swapped, with_key. rewrite map_map. apply Permutation_refl. }
    subst R. assert (Hne' : tab k <> []). { intros E. rewrite E in Hperm. apply Permutation_length in Hperm. rewrite map_length in Hperm. destruct (tab2 k); [congruence|discriminate]. }
    destruct (first_seek _ _ _ _ Hy' Hne') as (p & l & o2 & Et & Ef & Ec & HSk). rewrite Hi, Ef. exists p, l. eexists. exists o2. rewrite Eki in *. split; [auto|]. split; [reflexivity|].
    split; [right; cbn; auto|]. split; auto. split; auto. cbn. split; auto. split; auto. split; auto. split; auto. exists i, C. auto. }
  destruct (sc_1 s) as [j|] eqn:E1; [|exact Hrev]. destruct (Z.eqb_spec (ti_key i) (ti_key j)) as [Ekj|]; [|exact Hrev]. clear Hrev.
  pose proof Ho1 as (t1 & G1 & c1 & C1 & HSt & Hon1 & Hin1 & HR1 & Hinc1).
  destruct (open_cursor d idx tab t1 G1 HSt j c1 Hin1 Hon1) as (o1 & Eo1 & Hy1 & Hne1 & bk & HC). rewrite Eo1.
  assert (Ek1 : c_key c1 = k) by (destruct c1 as [[[kc fc] pc] sc]; destruct Hon1 as (Eoo & _); cbn; congruence). rewrite Ek1 in *.
  destruct (first_seek top _ _ _ (cursor_seek top _ _ _ _ HC) Hne1) as (p & l & o2 & Et & Ef & Ec & HSk). rewrite Hi, Ef. exists p, l. eexists. exists o2. split; [auto|]. split; [reflexivity|].
  split; [left; cbn; auto|]. split; auto. split; auto. cbn. split; auto. split; auto. split; [congruence|]. split; auto. exists i, C. auto.
Qed.

Lemma reversed_seek : exists s, sc_init d idx = Some s /\ Seek top (elems tab (map c_key (all_coords t2 G2))) (sc_obj fuel d idx s).
Proof.
  pose proof HS2 as (Hf & HL & HO). unfold sc_init, kb_terms. destruct (Nat.leb_spec idx 2); [lia|]. rewrite Hf. destruct (init_ok _ _ HL) as (i & Ei & HR).
  pose proof (r_move d idx tab tab2 t2 G2 HS2) as RM.
  destruct HS1 as [E1|(t1 & G1 & HSt)].
  - rewrite E1, Ei. eexists. split; [reflexivity|]. apply (fresh_seek top fuel d idx tab (rlists d idx tab t2 G2) (rmoved d idx tab t2 G2)); auto; [apply r_next_seek|].
    split; [split; auto|]. split; auto. split; auto. split; [exact I|]. exists i, (all_coords t2 G2). repeat split; auto. apply incl_refl.
  - pose proof HSt as (Hf1 & HL1 & HO1). rewrite Hf1, Ei. destruct (init_ok _ _ HL1) as (i1 & -> & HR1).
    destruct (one_step d idx tab t1 G1 _ i1 HSt HR1 (incl_refl _)) as (r & -> & Hr). eexists. split; [reflexivity|].
    apply (fresh_seek top fuel d idx tab (rlists d idx tab t2 G2) (rmoved d idx tab t2 G2)); auto; [apply r_next_seek|]. split; [split; auto|]. split; auto. split; auto. split; [exact Hr|].
    exists i, (all_coords t2 G2). repeat split; auto. apply incl_refl.
Qed.
End Reversed.
