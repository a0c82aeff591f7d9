(** The string buffer: getBlock returns the block. *)
From Verif Require Import TableProofs StrSpec StrProofs StrProofs2 StrProofs3.
From Coq Require Import ZifyBool Permutation.
Local Open Scope Z_scope.

Section Cache.
Variables B cap : Z.
Variable readOnly : bool.
Variable lz : list Z -> list Z.
Variable unlz : list Z -> Z -> option (list Z).
Variable sched : nat -> nat.
Hypothesis Hcap : 5 <= cap.
Hypothesis Hlz : codec lz unlz.

Notation CORE := (CORE cap readOnly lz).

Lemma LL_blocks c b e q : LL c q -> LL (mkCa b (c_cv c) (c_first c) (c_last c) e) q.
Proof. intros (A & C & D & E). repeat split; auto. Qed.

Lemma perm_last_in (q q' : list Z) i : Permutation q (i :: q') -> last q (-1) <> i -> q <> [] -> In (last q (-1)) q'.
Proof.
  intros H1 H2 H3. pose proof (last_in q (-1) H3) as H. apply (Permutation_in _ H1) in H. destruct H; [congruence|auto].
Qed.

Lemma add_cache_old s bl q sub i : CORE s bl q sub -> MEMB s q -> blk s i = Some None ->
  exists s' q', add_cache cap readOnly lz sched (Z.of_nat i) s = Some s' /\ CORE s' bl (q' ++ [Z.of_nat i]) sub /\
    (forall k, In k q' <-> 0 <= k /\ exists a, blk s' (Z.to_nat k) = Some (Some a)) /\ blk s' i = Some None /\
    (forall k, In k q' -> In k q /\ blk s' (Z.to_nat k) = blk s (Z.to_nat k)) /\ (q <> [] -> In (last q (-1)) q') /\
    s_wr s' = s_wr s /\ s_usize s' = s_usize s.
Proof.
  intros C M Hi. pose proof C as C0. destruct C as [c1 c2 c3 c4 c5 c6 c7 c8 c9 c10 c11].
  assert (Hni : ~ In (Z.of_nat i) q). { intros Hx. apply M in Hx. destruct Hx as (_ & a & Ha). rewrite Nat2Z.id in Ha. congruence. }
  assert (Hlast : Z.of_nat i =? c_last (s_cache s) = false).
  { destruct c5 as (_ & _ & E & _). rewrite E. apply Z.eqb_neq. destruct q as [|x q]; [cbn; lia|]. intros Ex. apply Hni. rewrite Ex. apply last_in. discriminate. }
  unfold add_cache. rewrite Hlast.
  assert (HS : exists s1 q1, (if c_elems (s_cache s) =? cap then evict readOnly lz sched s else Some s) = Some s1 /\ CORE s1 bl q1 sub /\
    (forall k, In k q1 <-> 0 <= k /\ exists a, blk s1 (Z.to_nat k) = Some (Some a)) /\ blk s1 i = Some None /\
    (forall k, In k q1 -> In k q /\ blk s1 (Z.to_nat k) = blk s (Z.to_nat k)) /\ (q <> [] -> In (last q (-1)) q1) /\ s_wr s1 = s_wr s /\ s_usize s1 = s_usize s /\ zlength q1 < cap).
  { destruct (Z.eqb_spec (c_elems (s_cache s)) cap) as [He|He].
    - destruct (evict_ok cap readOnly lz sched s bl q sub C0) as (s1 & q1 & k & E & C1 & P1 & L1 & K0 & N1 & O1 & W1 & U1 & _); [intros; apply M; auto|lia|].
      exists s1, q1. split; [auto|]. split; [auto|].
      assert (Nd : NoDup (k :: q1)). { destruct c5 as (_ & _ & _ & X). eapply Permutation_NoDup; eauto. }
      assert (HM1 : forall x, In x q1 <-> 0 <= x /\ exists a, blk s1 (Z.to_nat x) = Some (Some a)).
      { intros x. split.
        - intros Hx. assert (Hxq : In x q) by (apply (Permutation_in _ (Permutation_sym P1)); cbn; auto). apply M in Hxq. destruct Hxq as (H0 & a & Ha).
          split; [auto|]. exists a. rewrite O1; auto. inversion Nd; subst. intros Ex. assert (x = k) by lia. subst. contradiction.
        - intros (H0 & a & Ha). assert (x <> k) by (intros ->; congruence). rewrite O1 in Ha by lia. assert (Hxq : In x q) by (apply M; eauto).
          apply (Permutation_in _ P1) in Hxq. destruct Hxq; [congruence|auto]. }
      split; [exact HM1|]. assert (Nik : i <> Z.to_nat k).
      { intros ->. assert (In k q) by (apply (Permutation_in _ (Permutation_sym P1)); cbn; auto). apply Hni. rewrite Z2Nat.id by lia. auto. }
      split; [rewrite O1; auto|]. split.
      { intros x Hx. split; [apply (Permutation_in _ (Permutation_sym P1)); cbn; auto|]. apply O1. inversion Nd; subst. pose proof Hx as Hx'. apply HM1 in Hx'. intros Ex. assert (x = k) by lia. subst. contradiction. }
      split; [intros; eapply perm_last_in; eauto|]. split; [auto|]. split; [auto|]. apply Permutation_length in P1. cbn in P1. lia.
    - exists s, q. split; [auto|]. split; [auto|]. split; [exact M|]. split; [auto|]. split; [auto|]. split; [intros; apply last_in; auto|]. repeat split; auto. lia. }
  destruct HS as (s1 & q1 & -> & C1 & M1 & N1 & K1 & L1 & W1 & U1 & Q1). cbv beta iota.
  pose proof C1 as C1'. destruct C1' as [d1 d2 d3 d4 d5 d6 d7 d8 d9 d10 d11].
  assert (Hil : (i < length bl)%nat) by (rewrite <- d1; eapply nth_lt; exact N1).
  destruct (Z.eqb_spec (Z.of_nat i) (zlength (c_cv (s_cache s1)))) as [Ei|_]; [lia|].
  assert (Hni1 : ~ In (Z.of_nat i) q1). { intros Hx. apply M1 in Hx. destruct Hx as (_ & a & Ha). rewrite Nat2Z.id in Ha. congruence. }
  assert (HP : exists c', (if c_last (s_cache s1) =? -1 then
               do c <- set_prev (s_cache s1) (Z.of_nat i) (-1); do c <- set_next c (Z.of_nat i) (-1); Some (set_ends c (Z.of_nat i) (Z.of_nat i))
             else push_last (s_cache s1) (Z.of_nat i)) = Some c' /\ LL c' (q1 ++ [Z.of_nat i]) /\ same_but_links (s_cache s1) c').
  { destruct q1 as [|x q1].
    - destruct d5 as (_ & _ & E & _). cbn [last] in E. rewrite E. cbn [Z.eqb]. change (-1 =? -1) with true. cbv iota.
      destruct (nth_error (c_cv (s_cache s1)) i) as [[pa pb]|] eqn:En; [|apply nth_error_None in En; lia].
      unfold set_prev. rewrite (cvget_some (s_cache s1) (Z.of_nat i) (pa, pb)) by (rewrite ?Nat2Z.id; auto; lia). cbv beta iota.
      unfold set_next. erewrite cvget_some; [| lia | cbn [set_cv c_cv]; rewrite Nat2Z.id; apply upd_same; lia]. cbv beta iota.
      eexists; split; [reflexivity|]. split; [|repeat split; cbn; rewrite ?upd_length; reflexivity].
      split; [|split; [reflexivity|split; [reflexivity|constructor; [cbn; tauto|constructor]]]].
      cbn [app seg hd set_ends set_cv c_cv]. rewrite Nat2Z.id. split; [lia|]. split; [|auto]. apply upd_same. rewrite upd_length. lia.
    - assert (E : c_last (s_cache s1) =? -1 = false).
      { pose proof d5 as (_ & _ & E & _). rewrite E. apply Z.eqb_neq. assert (Hin : In (last (x :: q1) (-1)) (x :: q1)) by (apply last_in; discriminate). apply M1 in Hin. lia. }
      rewrite E. apply push_ok; auto; [discriminate|lia|rewrite Nat2Z.id; lia]. }
  destruct HP as (c' & -> & LL' & SB1 & SB2 & SB3). cbv beta iota.
  assert (HB : forall k, blk (set_cache s1 (mkCa (c_blocks c') (c_cv c') (c_first c') (c_last c') (c_elems c' + 1))) k = blk s1 k).
  { intros k. unfold blk. cbn. now rewrite SB1. }
  eexists _, q1. split; [reflexivity|]. split.
  { constructor; cbn [set_cache s_cache s_mem s_bg c_blocks c_cv c_elems].
    - congruence.
    - congruence.
    - rewrite SB1. auto.
    - intros a b x. rewrite !HB. apply d4.
    - apply LL_blocks. auto.
    - rewrite SB2, d6, app_length. cbn. lia.
    - rewrite app_length. cbn. lia.
    - intros k. rewrite HB. apply d8.
    - rewrite SB1. auto.
    - auto.
    - auto. }
  split; [intros k; rewrite HB; apply M1|]. split; [rewrite HB; auto|]. split; [intros k Hk; rewrite HB; auto|]. split; [auto|]. split; [auto|]. auto.
Qed.

Definition CALM (s : sb) (bl : list (list Z)) : Prop :=
  (readOnly = true /\ (forall c, nth_error bl (length bl - 1) = Some c -> zlength c <= s_usize s mod B)) \/
  (readOnly = false /\ keeps_up sched) \/ (forall i, blk s i <> Some None).

Lemma slice_mid (a x b : list Z) n : n = zlength x -> slice (a ++ x ++ b) (zlength a) n = Some x.
Proof.
  intros ->. unfold slice. rewrite !app_length. destruct (_ && _) eqn:E; [|lia]. rewrite !Nat2Z.id.
  rewrite skipn_app, skipn_all, Nat.sub_diag. cbn [app skipn]. rewrite firstn_app, Nat.sub_diag, firstn_all. cbn [firstn]. now rewrite app_nil_r.
Qed.

Lemma filed_split k bl c d : nth_error bl k = Some c -> (k < d)%nat ->
  exists r, filed lz (firstn d bl) = filed lz (firstn k bl) ++ lz c ++ r.
Proof.
  intros H Hd. exists (filed lz (skipn (S k) (firstn d bl))). rewrite <- (firstn_skipn (S k) (firstn d bl)) at 1.
  rewrite firstn_firstn, Nat.min_l by lia. rewrite filed_app, (firstn_snoc _ _ _ H), filed_app. unfold filed at 2. cbn [map concat]. rewrite app_nil_r, <- app_assoc. reflexivity.
Qed.

Lemma work_sync s bl sub b : MemOK (s_mem s) (c_blocks (s_cache s)) bl -> BGI lz (s_bg s) (c_blocks (s_cache s)) bl sub ->
  sync lz sched s = Some (set_bg s b) -> work (s_bg s) = 0%nat -> work b = 0%nat.
Proof.
  intros HM HB E W. unfold sync in E.
  destruct (thr_steps_ok lz (sched (b_tick (s_bg s))) (s_mem s) (mkBg (b_sizes (s_bg s)) (b_file (s_bg s)) (b_slot (s_bg s)) (b_th (s_bg s)) (S (b_tick (s_bg s)))) _ _ _ HM HB) as (b' & E' & _ & _ & _ & W').
  rewrite E' in E. injection E as <-. rewrite W'. unfold work in *. cbn. lia.
Qed.

Lemma uncompress_ok s bl q sub i : CORE s bl (q ++ [Z.of_nat i]) sub ->
  (forall k, In k q <-> 0 <= k /\ exists a, blk s (Z.to_nat k) = Some (Some a)) -> blk s i = Some None ->
  (forall c, In c bl -> zlength c <= B) -> CALM s bl ->
  exists s' a, uncompress B lz unlz sched (Z.of_nat i) s = Some s' /\ CORE s' bl (q ++ [Z.of_nat i]) sub /\ MEMB s' (q ++ [Z.of_nat i]) /\
    blk s' i = Some (Some a) /\ (forall k, k <> i -> blk s' k = blk s k) /\ s_wr s' = s_wr s /\ s_usize s' = s_usize s.
Proof.
  intros C M Hi HB Calm. destruct C as [c1 c2 c3 c4 c5 c6 c7 c8 c9 c10 c11].
  assert (Hil : (i < length bl)%nat) by (rewrite <- c1; eapply nth_lt; exact Hi).
  destruct (nth_error bl i) as [c|] eqn:Ec; [|apply nth_error_None in Ec; lia].
  destruct (c8 _ Hi) as (Hd & Hw).
  destruct (sync_ok lz sched s bl sub c3 c9) as (b1 & E1 & B1 & D1 & K1).
  unfold uncompress. rewrite E1. cbn [set_bg s_bg].
  destruct (BGI_done _ _ _ _ _ B1) as (S1 & F1 & L1 & L2).
  assert (Hfin : nth_error (b_sizes b1) (Z.to_nat (Z.of_nat i)) = Some (zlength (filed lz (firstn (S i) bl)))).
  { rewrite S1, Nat2Z.id. rewrite psums_nth by (rewrite firstn_length; lia). rewrite firstn_firstn, Nat.min_l by lia. reflexivity. }
  assert (Hst : (if 0 <? Z.of_nat i then nth_error (b_sizes b1) (Z.to_nat (Z.of_nat i - 1)) else Some 0) = Some (zlength (filed lz (firstn i bl)))).
  { destruct (Z.ltb_spec 0 (Z.of_nat i)).
    - rewrite S1. rewrite psums_nth by (rewrite firstn_length; lia). rewrite firstn_firstn, Nat.min_l by lia. replace (S (Z.to_nat (Z.of_nat i - 1))) with i by lia. reflexivity.
    - replace i with O by lia. reflexivity. }
  rewrite Hst, Hfin. cbv beta iota.
  destruct (filed_split i bl c (done b1) Ec ltac:(lia)) as (r & Hr). rewrite F1, Hr.
  rewrite slice_mid.
  2:{ rewrite (firstn_snoc _ _ _ Ec), filed_app, app_length. unfold filed at 2. cbn [map concat]. rewrite app_nil_r. lia. }
  destruct (sync_ok lz sched (set_bg s b1) bl sub c3 B1) as (b2 & E2 & B2 & D2 & K2). rewrite E2.
  cbn [set_bg s_bg s_usize s_cache s_mem]. cbn [set_bg s_bg s_cache] in B2, D2.
  assert (Hun : unlz (lz c) (if Z.of_nat i =? zlength (b_sizes b2) - 1 then s_usize s mod B else B) = Some c).
  { rewrite Hlz. destruct (BGI_done _ _ _ _ _ B2) as (_ & _ & L3 & L4).
    assert (HcB : zlength c <= B) by (apply HB; eapply nth_error_In; eauto).
    destruct (Z.eqb_spec (Z.of_nat i) (zlength (b_sizes b2) - 1)) as [Ex|Ex].
    - destruct Calm as [(Ro & Hl)|[(Ro & Ku)|Hn]].
      + destruct (c10 Ro) as (W & Hs). assert (W1 : work b1 = 0%nat) by (eapply work_sync; eauto). assert (W2 : work b2 = 0%nat) by (eapply (work_sync (set_bg s b1)); eauto).
        destruct (work0 _ _ _ _ _ B2 W2) as (W3 & _). assert (i = (length bl - 1)%nat) by lia. subst i. specialize (Hl c Ec). destruct (Z.leb_spec (zlength c) (s_usize s mod B)); [auto|lia].
      + specialize (K2 Ku). destruct (work0 _ _ _ _ _ B2 K2) as (W3 & _). specialize (Hw Ro). lia.
      + exfalso. apply (Hn i). exact Hi.
    - destruct (Z.leb_spec (zlength c) B); [auto|lia]. }
  rewrite Hun.
  eexists _, (length (s_mem s)). split; [reflexivity|].
  assert (HB1 : nth_error (upd (c_blocks (s_cache s)) (Z.to_nat (Z.of_nat i)) (Some (length (s_mem s)))) i = Some (Some (length (s_mem s)))).
  { rewrite Nat2Z.id. apply upd_same. lia. }
  assert (HB0 : forall k, k <> i -> nth_error (upd (c_blocks (s_cache s)) (Z.to_nat (Z.of_nat i)) (Some (length (s_mem s)))) k = nth_error (c_blocks (s_cache s)) k).
  { intros k Hk. apply upd_other. lia. }
  assert (Hold : forall k a, nth_error (c_blocks (s_cache s)) k = Some (Some a) -> (a < length (s_mem s))%nat).
  { intros k a Hk. destruct (c3 _ _ Hk) as (cc & _ & Hcc). eapply deref_lt; eauto. }
  split.
  { constructor; cbn [set_cache set_mem set_bg s_cache s_mem s_bg c_blocks c_cv c_elems].
    - now rewrite upd_length.
    - auto.
    - intros k a Hk. destruct (Nat.eq_dec k i) as [->|Hne].
      + rewrite HB1 in Hk. injection Hk as <-. exists c. split; [auto|]. apply deref_new.
      + rewrite HB0 in Hk by auto. destruct (c3 _ _ Hk) as (cc & X & Y). exists cc. split; [auto|]. now apply deref_snoc.
    - unfold blk. cbn. intros j k a Hj Hk. destruct (Nat.eq_dec j i) as [->|Hj']; destruct (Nat.eq_dec k i) as [->|Hk']; auto.
      + rewrite HB1 in Hj. injection Hj as <-. rewrite HB0 in Hk by auto. apply Hold in Hk. lia.
      + rewrite HB1 in Hk. injection Hk as <-. rewrite HB0 in Hj by auto. apply Hold in Hj. lia.
      + rewrite HB0 in Hj, Hk by auto. eapply c4; eauto.
    - apply LL_blocks. auto.
    - auto.
    - auto.
    - unfold blk. cbn. intros k Hk. destruct (Nat.eq_dec k i) as [->|Hne]; [congruence|]. rewrite HB0 in Hk by auto. destruct (c8 _ Hk). split; [lia|auto].
    - assert (Hfl : forall j a n, flight (c_blocks (s_cache s)) bl j a n -> flight (upd (c_blocks (s_cache s)) (Z.to_nat (Z.of_nat i)) (Some (length (s_mem s)))) bl j a n).
      { intros j a n (cc & X & Y & Zz). exists cc. split; [auto|]. split; [|auto]. rewrite HB0; [auto|]. intros ->. unfold blk in Hi. congruence. }
      destruct B2 as (m & X1 & X2 & H). exists m. split; [auto|]. split; [auto|]. destruct (b_th b2).
      + destruct H as (F & Sl). split; [auto|]. destruct (b_slot b2) as [[? ?]|]; cbn in *; [|auto]. destruct Sl; split; auto.
      + destruct H as (F & Fl & Sl). split; [auto|]. split; [auto|]. destruct (b_slot b2) as [[? ?]|]; cbn in *; [|auto]. destruct Sl; split; auto.
      + destruct H as (k0 & cc & Em & G1 & G2 & G3 & Sl). exists k0, cc. do 4 (split; [auto|]). destruct (b_slot b2) as [[? ?]|]; cbn in *; [|auto]. destruct Sl; split; auto.
    - intros Ro. destruct (c10 Ro) as (W & Hs). split; [|auto]. eapply (work_sync (set_bg s b1)); eauto. eapply work_sync; eauto.
    - auto. }
  split.
  { intros k. rewrite in_app_iff. unfold blk. cbn [set_cache set_mem set_bg s_cache c_blocks In]. destruct (Z.eq_dec k (Z.of_nat i)) as [->|Hne].
    - rewrite Nat2Z.id in HB1 |- *. split; [intros _; split; [lia|]; eexists; exact HB1|intros _; right; left; reflexivity].
    - split.
      + intros [Hk|[Hk|[]]]; [|congruence]. apply M in Hk. destruct Hk as (H0 & a & Ha). split; [auto|]. exists a. rewrite HB0 by lia. exact Ha.
      + intros (H0 & a & Ha). left. apply M. split; [auto|]. exists a. rewrite HB0 in Ha by lia. exact Ha. }
  split; [exact HB1|]. split; [exact HB0|]. split; reflexivity.
Qed.

(** ** What the readers rely on *)
Definition OK (s : sb) (bl : list (list Z)) (sub : nat) : Prop :=
  exists q, CORE s bl q sub /\ MEMB s q /\ (forall c, In c bl -> zlength c <= B) /\ CALM s bl.
Definition top (s : sb) (i : nat) (a : nat) : Prop := c_last (s_cache s) = Z.of_nat i /\ blk s i = Some (Some a).

Lemma get_block_top s i a : top s i a -> get_block B cap readOnly lz unlz sched (Z.of_nat i) s = Some (a, s).
Proof. intros (H1 & H2). unfold get_block. unfold blk in H2. rewrite Nat2Z.id, H2, H1, Z.eqb_refl. reflexivity. Qed.

Lemma get_block_ok s bl sub i : OK s bl sub -> (i < length bl)%nat ->
  exists a s', get_block B cap readOnly lz unlz sched (Z.of_nat i) s = Some (a, s') /\ OK s' bl sub /\ top s' i a /\
    (forall j b, top s j b -> blk s' j = Some (Some b)) /\
    (forall j b, readOnly = false -> (length bl <= j + 3)%nat -> blk s j = Some (Some b) -> blk s' j = Some (Some b)) /\ s_wr s' = s_wr s /\ s_usize s' = s_usize s /\
    ((forall k, blk s k <> Some None) -> (forall k, blk s' k <> Some None)).
Proof.
  intros (q & C & M & HB & Calm) Hi. unfold get_block. pose proof C as C0. destruct C as [c1 c2 c3 c4 c5 c6 c7 c8 c9 c10 c11].
  rewrite Nat2Z.id. destruct (nth_error (c_blocks (s_cache s)) i) as [[a|]|] eqn:Ei; [| |apply nth_error_None in Ei; lia].
  - destruct (Z.eqb_spec (Z.of_nat i) (c_last (s_cache s))) as [El|El].
    + exists a, s. split; [reflexivity|]. split; [exists q; auto|]. split; [split; auto|]. split; [intros j b (_ & X); auto|]. split; [auto|]. auto.
    + assert (Iq : In (Z.of_nat i) q). { apply M. split; [lia|]. exists a. rewrite Nat2Z.id. exact Ei. }
      apply in_split in Iq. destruct Iq as (q1 & q2 & ->).
      assert (Hq2 : q2 <> []). { intros ->. destruct c5 as (_ & _ & X & _). rewrite last_snoc in X. congruence. }
      destruct (move_ok _ _ _ _ c5 Hq2) as (c' & E & LL' & SB). unfold unlink in E. 
      destruct (cvget (s_cache s) (Z.of_nat i)) as [[prev succ]|]; [|discriminate]. cbv beta iota in E |- *.
      destruct (if negb (prev =? -1) then _ else _) as [ca|]; [|discriminate].
      destruct (if negb (succ =? -1) then _ else _) as [cb|]; [|discriminate].
      destruct (set_next cb (c_last cb) (Z.of_nat i)) as [cc|]; [|discriminate].
      destruct (set_prev cc (Z.of_nat i) (c_last cc)) as [cd|]; [|discriminate].
      destruct (set_next cd (Z.of_nat i) (-1)) as [ce|]; [|discriminate]. injection E as E. rewrite E.
      destruct SB as (SB1 & SB2 & SB3).
      assert (HBk : forall k, blk (set_cache s c') k = blk s k) by (intros k; unfold blk; cbn; now rewrite SB1).
      eexists a, _. split; [reflexivity|]. split.
      { exists (q1 ++ q2 ++ [Z.of_nat i]). 
        assert (Hp : Permutation (q1 ++ Z.of_nat i :: q2) (q1 ++ q2 ++ [Z.of_nat i])). { apply Permutation_app_head. apply Permutation_cons_append. }
        split; [|split; [|split; [auto|]]].
        - constructor; cbn [set_cache s_cache s_mem s_bg].
          + congruence.
          + congruence.
          + rewrite SB1. auto.
          + intros x y z. rewrite !HBk. apply c4.
          + auto.
          + rewrite SB2, c6. apply Permutation_length in Hp. lia.
          + apply Permutation_length in Hp. lia.
          + intros k. rewrite HBk. apply c8.
          + rewrite SB1. auto.
          + auto.
          + auto.
        - intros k. rewrite HBk. specialize (M k). rewrite <- M. split; apply Permutation_in; auto. now symmetry.
        - destruct Calm as [X|[X|X]]; [left; exact X|right; left; exact X|right; right]. intros k. rewrite HBk. auto. }
      split. { split; [|rewrite HBk; exact Ei]. destruct LL' as (_ & _ & X & _). cbn. rewrite X, app_assoc, last_snoc. reflexivity. }
      split; [intros j b (_ & X); rewrite HBk; auto|]. split; [intros j b _ _; rewrite HBk; auto|]. split; [auto|]. split; [auto|]. intros X k. rewrite HBk. auto.
  - destruct (add_cache_old _ _ _ _ _ C0 M Ei) as (s1 & q1 & E1 & C1 & M1 & N1 & K1 & L1 & W1 & U1). rewrite E1. cbv beta iota.
    assert (Calm1 : CALM s1 bl).
    { destruct Calm as [(X1 & X2)|[X|X]]; [left; split; auto; rewrite U1; auto|right; left; exact X|]. exfalso. apply (X i). exact Ei. }
    destruct (uncompress_ok _ _ _ _ _ C1 M1 N1 HB Calm1) as (s2 & a & E2 & C2 & M2 & T2 & O2 & W2 & U2). rewrite E2. cbv beta iota.
    unfold blk in T2. rewrite T2. cbv beta iota.
    eexists a, s2. split; [reflexivity|]. split.
    { exists (q1 ++ [Z.of_nat i]). split; [auto|]. split; [auto|]. split; [auto|].
      destruct Calm as [(X1 & X2)|[X|X]]; [left; split; auto; rewrite U2, U1; auto|right; left; exact X|]. exfalso. apply (X i). exact Ei. }
    split. { split; [|exact T2]. destruct C2 as [_ _ _ _ (_ & _ & X & _) _ _ _ _ _ _]. rewrite X. apply last_snoc. }
    split.
    { intros j b (X1 & X2). assert (Hne : q <> []). { intros ->. destruct c5 as (_ & _ & Y & _). cbn in Y. lia. }
      specialize (L1 Hne). destruct c5 as (_ & _ & Y & _). rewrite <- Y, X1 in L1. destruct (K1 _ L1) as (_ & K2). rewrite Nat2Z.id in K2.
      assert (j <> i) by (intros ->; unfold blk in *; congruence). rewrite O2, K2; auto. }
    split.
    { intros j b Rw Hj Hb. assert (j <> i) by (intros ->; unfold blk in *; congruence). rewrite O2 by auto.
      assert (Hn : blk s1 j <> Some None). { intros X. apply (co_null _ _ _ _ _ _ _ C1) in X. destruct X as (_ & X). specialize (X Rw). lia. }
      assert (Hl : (j < length (c_blocks (s_cache s1)))%nat). { rewrite (co_len _ _ _ _ _ _ _ C1), <- c1. eapply nth_lt. exact Hb. }
      destruct (blk s1 j) as [[b'|]|] eqn:Ej; [|congruence|apply nth_error_None in Ej; lia].
      assert (Iq : In (Z.of_nat j) q1). { apply M1. rewrite Nat2Z.id. split; [lia|eauto]. }
      destruct (K1 _ Iq) as (_ & K2). rewrite Nat2Z.id in K2. congruence. }
    split; [congruence|]. split; [congruence|]. intros X. exfalso. apply (X i). exact Ei.
Qed.
End Cache.
