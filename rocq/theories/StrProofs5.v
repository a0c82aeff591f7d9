(** The string buffer: writing. *)
From Verif Require Import TableProofs StrSpec StrProofs StrProofs2 StrProofs3 StrProofs4.
From Coq Require Import ZifyBool Permutation.
Local Open Scope Z_scope.

Lemma nth_snoc {A} (l : list A) x i y : nth_error (l ++ [x]) i = Some y -> (i < length l)%nat /\ nth_error l i = Some y \/ i = length l /\ y = x.
Proof.
  intros H. pose proof (nth_lt _ _ _ H) as Hl. rewrite app_length in Hl. cbn in Hl. destruct (Nat.eq_dec i (length l)) as [->|Hne].
  - right. rewrite nth_error_app2, Nat.sub_diag in H by lia. cbn in H. split; congruence.
  - left. rewrite nth_error_app1 in H by lia. split; [lia|auto].
Qed.

Lemma nth_snoc_last {A} (l : list A) x : nth_error (l ++ [x]) (length l) = Some x.
Proof. rewrite nth_error_app2, Nat.sub_diag by lia. reflexivity. Qed.

(** A new block at the end of the list. *)
Lemma append_ll c q : LL c q -> q <> [] -> (forall i, In i q -> 0 <= i < zlength (c_cv c)) ->
  exists c', (let cv := c_cv c ++ [(c_last c, -1)] in
      do c <- set_next (set_cv c cv) (c_last c) (zlength cv - 1); Some (set_ends c (c_first c) (zlength cv - 1))) = Some c' /\
    LL c' (q ++ [zlength (c_cv c)]) /\ c_blocks c' = c_blocks c /\ c_elems c' = c_elems c /\ length (c_cv c') = S (length (c_cv c)).
Proof.
  intros (H1 & H2 & H3 & H4) Hq Hr. destruct (exists_last Hq) as (q0 & l & ->). rewrite last_snoc in H3.
  assert (Lr : 0 <= l < zlength (c_cv c)) by (apply Hr; apply in_or_app; cbn; auto).
  apply seg_app in H1. destruct H1 as (S1 & S2). cbn [hd seg] in S1, S2. destruct S2 as (L0 & L1 & _).
  cbv zeta. rewrite H3. unfold set_next. erewrite cvget_some; [|lia|cbn [set_cv c_cv]; rewrite nth_error_app1 by lia; exact L1]. cbv beta iota.
  eexists; split; [reflexivity|]. cbn [set_cv set_ends c_cv c_blocks c_elems]. rewrite app_length. cbn [length].
  replace (Z.of_nat (length (c_cv c) + 1) - 1) with (zlength (c_cv c)) by lia.
  split; [|split; [reflexivity|split; [reflexivity|rewrite upd_length, app_length; cbn; lia]]].
  set (n := zlength (c_cv c)) in *.
  assert (Hsn : forall q p e, seg (c_cv c) p q e -> seg (c_cv c ++ [(l, -1)]) p q e).
  { intros. eapply seg_snoc; eauto. intros i y Hy. rewrite nth_error_app1; auto. eapply nth_lt; eauto. }
  split; [|split; [|split]].
  - cbn [c_cv set_cv set_ends]. apply seg_app. split.
    + cbn [hd]. apply seg_app. split.
      * cbn [hd]. apply seg_upd; [|apply Hsn; exact S1]. intros j Hj Hj0 Ee. assert (j = l) by lia. subst. apply NoDup_remove_2 in H4. rewrite app_nil_r in H4. contradiction.
      * cbn [seg hd]. split; [auto|]. split; [|auto]. apply upd_same. rewrite app_length. lia.
    + rewrite last_snoc. cbn [seg hd]. split; [lia|]. split; [|auto]. rewrite upd_other by lia. rewrite nth_error_app2 by lia. replace (Z.to_nat n - length (c_cv c))%nat with O by lia. reflexivity.
  - cbn [set_ends set_cv c_first]. rewrite H2. destruct q0; reflexivity.
  - cbn [set_ends set_cv c_last]. rewrite last_snoc. reflexivity.
  - assert (Hn : ~ In n (q0 ++ [l])) by (intros X; apply Hr in X; lia).
    apply NoDup_rev in H4. rewrite <- (rev_involutive ((q0 ++ [l]) ++ [n])). apply NoDup_rev. rewrite rev_app_distr. cbn [rev app]. constructor; [|exact H4]. rewrite <- in_rev. exact Hn.
Qed.

Section Writing.
Variables B cap : Z.
Variable lz : list Z -> list Z.
Variable sched : nat -> nat.
Hypothesis Hcap : 5 <= cap.

Notation CORE := (CORE cap false lz).

Record WC (s : sb) (bl : list (list Z)) (q : list Z) : Prop := {
  wc_core : CORE s bl q (length bl - 1);
  wc_memb : MEMB s q;
  wc_pos : (1 <= length bl)%nat;
  wc_cur : blk s (length bl - 1) = Some (Some (w_cur (s_wr s)));
  wc_all : zlength bl <= cap -> forall i, blk s i <> Some None }.

Lemma wpos_wc s init c q : WC s (init ++ [c]) q -> deref (s_mem s) (w_cur (s_wr s)) = Some c.
Proof.
  intros [C M P X A]. destruct (co_mem _ _ _ _ _ _ _ C _ _ X) as (c' & H1 & H2). rewrite app_length in H1. cbn in H1.
  replace (length init + 1 - 1)%nat with (length init) in H1 by lia. rewrite nth_snoc_last in H1. congruence.
Qed.

Lemma BGI_change b blocks bl bl' sub : BGI lz b blocks bl sub -> (forall j, (j < sub)%nat -> nth_error bl' j = nth_error bl j) -> (sub <= length bl)%nat -> (sub <= length bl')%nat ->
  BGI lz b blocks bl' sub.
Proof.
  intros HB Hj Hl Hl'. destruct (BGI_done _ _ _ _ _ HB) as (_ & _ & L1 & L2). destruct HB as (m & Hs & Hm & H).
  assert (Hlm : length (b_sizes b) = m) by (rewrite Hs, psums_length, firstn_length; lia).
  assert (Hf : forall k, (k <= m)%nat -> firstn k bl' = firstn k bl).
  { intros k Hk. induction k as [|k IH]; [reflexivity|]. destruct (nth_error bl k) as [c|] eqn:E; [|apply nth_error_None in E; lia].
    rewrite (firstn_snoc bl _ _ E). rewrite (firstn_snoc bl' k c) by (rewrite Hj by lia; auto). rewrite IH by lia. reflexivity. }
  assert (Hfl : forall j a n, (j < sub)%nat -> flight blocks bl j a n -> flight blocks bl' j a n).
  { intros j a n Hjs (c & X & Y & Zz). exists c. rewrite Hj by auto. auto. }
  exists m. rewrite Hf by lia. split; [auto|]. split; [lia|]. destruct (b_th b).
  - destruct H as (F & Sl). split; [auto|]. destruct (b_slot b) as [[? ?]|]; cbn in *; [|auto]. destruct Sl; split; auto. apply Hfl; auto. lia.
  - destruct H as (F & Fl & Sl). split; [auto|]. assert (m < sub)%nat by (destruct (b_slot b) as [[? ?]|]; cbn in Sl; lia). split; [apply Hfl; auto|].
    destruct (b_slot b) as [[? ?]|]; cbn in *; [|auto]. destruct Sl; split; auto. apply Hfl; auto. lia.
  - destruct H as (k & c & -> & F1 & F2 & F3 & Sl). exists k, c. rewrite Hj by lia. rewrite Hf by lia. do 4 (split; [auto|]).
    destruct (b_slot b) as [[? ?]|]; cbn in *; [|auto]. destruct Sl; split; auto. apply Hfl; auto. lia.
Qed.

Lemma push_wc s init c q bs : WC s (init ++ [c]) q -> zlength c + zlength bs <= B ->
  exists s', push B bs s = Some s' /\ WC s' (init ++ [c ++ bs]) q /\ s_wr s' = s_wr s /\ s_usize s' = s_usize s + zlength bs.
Proof.
  intros W Hb. pose proof (wpos_wc _ _ _ _ W) as Hc. unfold push. rewrite Hc. destruct (Z.leb_spec (zlength c + zlength bs) B); [|lia].
  eexists; split; [reflexivity|]. split; [|split; reflexivity].
  destruct W as [C M P X A]. destruct C as [c1 c2 c3 c4 c5 c6 c7 c8 c9 c10 c11].
  assert (El : length (init ++ [c ++ bs]) = length (init ++ [c])) by (rewrite !app_length; reflexivity).
  assert (Ei : (length (init ++ [c]) - 1)%nat = length init) by (rewrite app_length; cbn; lia).
  constructor.
  - constructor; cbn [s_cache s_mem s_bg]; rewrite ?El; auto.
    + intros i a Hi. destruct (c3 _ _ Hi) as (d & X1 & X2). destruct (nth_snoc _ _ _ _ X1) as [(Y1 & Y2)|(Y1 & Y2)].
      * exists d. split; [rewrite nth_error_app1; auto|]. apply deref_upd_other; auto. intros ->. rewrite Ei in X. assert (i = length init) by (eapply c4; eauto). lia.
      * subst. exists (c ++ bs). split; [apply nth_snoc_last|]. rewrite Ei in X. unfold blk in X. rewrite X in Hi. injection Hi as <-. apply deref_upd_same. eapply deref_lt; eauto.
    + rewrite Ei in *. eapply BGI_change; eauto.
      * intros j Hj. rewrite !nth_error_app1; auto.
      * rewrite app_length. lia.
      * rewrite app_length. lia.
  - exact M.
  - lia.
  - rewrite El. exact X.
  - rewrite El. exact A.
Qed.

Lemma compress_wc s init c q : WC s (init ++ [c]) q ->
  exists s' q' a, compress_last cap false lz sched s = Some s' /\ WC s' ((init ++ [c]) ++ [[]]) q' /\
    s_wr s' = mkWr a (w_posBase (s_wr s)) 0 0 (w_matched (s_wr s)) /\ s_usize s' = s_usize s.
Proof.
  intros W. pose proof (wpos_wc _ _ _ _ W) as Hc. destruct W as [C M P X A]. destruct C as [c1 c2 c3 c4 c5 c6 c7 c8 c9 c10 c11].
  set (bl := init ++ [c]) in *.
  assert (Eb : length bl = S (length init)) by (unfold bl; rewrite app_length; cbn; lia).
  replace (length bl - 1)%nat with (length init) in * by lia.
  unfold compress_last.
  destruct (sync_ok lz sched s bl _ c3 c9) as (b1 & E1 & B1 & D1 & _). rewrite E1.
  destruct (wait_ok lz (set_bg s b1) bl (length init)) as (b2 & E2 & B2 & D2 & S2); [exact c3|exact B1|]. rewrite E2.
  cbn [set_bg s_bg s_cache] in B2, D2.
  unfold wpos. cbn [set_bg s_mem s_wr]. rewrite Hc. cbv beta iota. cbn [s_bg set_bg].
  set (b3 := mkBg (b_sizes b2) (b_file b2) (Some (w_cur (s_wr s), zlength c)) (b_th b2) (b_tick b2)).
  assert (B3 : BGI lz b3 (c_blocks (s_cache s)) bl (length bl)).
  { assert (Fl : flight (c_blocks (s_cache s)) bl (length init) (w_cur (s_wr s)) (zlength c)).
    { exists c. split; [apply nth_snoc_last|]. split; [exact X|reflexivity]. }
    destruct B2 as (m & Y1 & Y2 & H). exists m. cbn [b3 b_sizes b_th b_file b_slot]. split; [auto|]. split; [auto|]. rewrite S2 in H. destruct (b_th b2).
    - destruct H as (F & Sl). cbn in Sl. subst m. split; [auto|]. split; [exact Fl|lia].
    - destruct H as (F & Fl2 & Sl). cbn in Sl. split; [auto|]. split; [auto|]. rewrite Sl. split; [exact Fl|lia].
    - destruct H as (k & d & -> & F1 & F2 & F3 & Sl). cbn in Sl. exists k, d. do 4 (split; [auto|]). rewrite Sl. split; [exact Fl|lia]. }
  change (set_bg (set_bg (set_bg s b1) b2) b3) with (set_bg s b3).
  assert (D3 : (done (s_bg s) <= done b3)%nat) by (cbn in D1; unfold done in *; cbn; lia).
  destruct (sync_ok lz sched (set_bg s b3) bl (length bl)) as (b4 & E4 & B4 & D4 & _); [exact c3|exact B3|]. rewrite E4.
  cbn [set_bg s_bg s_cache] in B4, D4. change (set_bg (set_bg s b3) b4) with (set_bg s b4).
  assert (C4 : CORE (set_bg s b4) bl q (length bl)).
  { constructor; cbn [set_bg s_cache s_mem s_bg]; auto.
    - intros i Hi. destruct (c8 i Hi). split; [lia|auto].
    - discriminate. }
  assert (Mq : forall i, In i q -> 0 <= i < zlength bl). { intros i Hi. apply M in Hi. destruct Hi as (H0 & a & Ha). apply nth_lt in Ha. lia. }
  assert (Hqne : q <> []). { intros ->. assert (In (Z.of_nat (length init)) []) by (apply M; split; [lia|]; exists (w_cur (s_wr s)); rewrite Nat2Z.id; exact X). contradiction. }
  cbn [set_bg s_cache]. unfold add_cache. cbn [set_bg s_cache].
  assert (Hl : zlength (c_blocks (s_cache s)) =? c_last (s_cache s) = false).
  { apply Z.eqb_neq. destruct c5 as (_ & _ & Y & _). rewrite Y. pose proof (Mq _ (last_in q (-1) Hqne)). lia. }
  rewrite Hl.
  assert (HS : exists s1 q1, (if c_elems (s_cache s) =? cap then evict false lz sched (set_bg s b4) else Some (set_bg s b4)) = Some s1 /\ CORE s1 bl q1 (length bl) /\ MEMB s1 q1 /\
    blk s1 (length init) = Some (Some (w_cur (s_wr s))) /\ s_wr s1 = s_wr s /\ s_usize s1 = s_usize s /\ zlength q1 < cap /\ (zlength bl + 1 <= cap -> forall i, blk s1 i <> Some None)).
  { destruct (Z.eqb_spec (c_elems (s_cache s)) cap) as [He|He].
    - destruct (evict_ok cap false lz sched (set_bg s b4) bl q (length bl) C4) as (s1 & q1 & k & E & C1 & P1 & L1 & K0 & N1 & O1 & W1 & U1 & _); [intros; apply M; auto|lia|].
      exists s1, q1. split; [auto|]. split; [auto|].
      assert (Nd : NoDup (k :: q1)). { destruct c5 as (_ & _ & _ & Y). eapply Permutation_NoDup; eauto. }
      split.
      { intros x. split.
        - intros Hx. assert (Hxq : In x q) by (apply (Permutation_in _ (Permutation_sym P1)); cbn; auto). apply M in Hxq. destruct Hxq as (H0 & a & Ha).
          split; [auto|]. exists a. rewrite O1; auto. inversion Nd; subst. intros Ex. assert (x = k) by lia. subst. contradiction.
        - intros (H0 & a & Ha). assert (x <> k) by (intros ->; congruence). rewrite O1 in Ha by lia. assert (Hxq : In x q) by (apply M; eauto).
          apply (Permutation_in _ P1) in Hxq. destruct Hxq; [congruence|auto]. }
      split. { rewrite O1; [exact X|]. destruct (co_null _ _ _ _ _ _ _ C1 _ N1) as (_ & Y). specialize (Y eq_refl). lia. }
      split; [auto|]. split; [auto|]. split; [apply Permutation_length in P1; cbn in P1; lia|].
      intros Hc1. exfalso. assert (length q <= length bl)%nat by (apply nodup_range; [destruct c5 as (_ & _ & _ & Y); exact Y|auto]). lia.
    - exists (set_bg s b4), q. split; [auto|]. split; [auto|]. split; [exact M|]. split; [exact X|]. split; [auto|]. split; [auto|]. split; [lia|]. intros Hc1. apply A. lia. }
  destruct HS as (s1 & q1 & -> & C1 & M1 & X1 & W1 & U1 & Q1 & A1). cbv beta iota.
  destruct C1 as [d1 d2 d3 d4 d5 d6 d7 d8 d9 d10 d11].
  rewrite d2, c1, Z.eqb_refl. cbv beta iota.
  assert (Mq1 : forall i, In i q1 -> 0 <= i < zlength (c_cv (s_cache s1))). { intros i Hi. apply M1 in Hi. destruct Hi as (H0 & a & Ha). apply nth_lt in Ha. lia. }
  assert (Hqne1 : q1 <> []). { intros ->. assert (In (Z.of_nat (length init)) []) by (apply M1; split; [lia|]; exists (w_cur (s_wr s)); rewrite Nat2Z.id; exact X1). contradiction. }
  destruct (append_ll _ _ d5 Hqne1 Mq1) as (c' & E & L' & F1 & F2 & F3). cbv zeta in E.
  assert (Hl1 : c_last (s_cache s1) =? -1 = false).
  { apply Z.eqb_neq. destruct d5 as (_ & _ & Y & _). rewrite Y. pose proof (Mq1 _ (last_in q1 (-1) Hqne1)). lia. }
  rewrite Hl1, E. cbv beta iota.
  cbn [set_cache s_mem s_cache s_bg s_wr s_usize c_blocks c_cv c_first c_last c_elems].
  eexists _, (q1 ++ [zlength (c_cv (s_cache s1))]), (length (s_mem s1)). split; [reflexivity|].
  split; [|split; [rewrite W1; reflexivity|exact U1]].
  assert (Ll : length (bl ++ [[]]) = S (length bl)) by (rewrite app_length; cbn; lia).
  assert (Hold : forall k a, nth_error (c_blocks (s_cache s1)) k = Some (Some a) -> (a < length (s_mem s1))%nat).
  { intros k a Hk. destruct (d3 _ _ Hk) as (cc & _ & Hcc). eapply deref_lt; eauto. }
  constructor; rewrite ?Ll, ?Nat.sub_succ, ?Nat.sub_0_r.
  - constructor; cbn [s_mem s_cache s_bg c_blocks c_cv c_elems]; rewrite ?F1, ?Ll.
    + rewrite app_length. cbn. lia.
    + lia.
    + intros i a Hi. destruct (nth_snoc _ _ _ _ Hi) as [(Y1 & Y2)|(Y1 & Y2)].
      * destruct (d3 _ _ Y2) as (d & Z1 & Z2). exists d. split; [rewrite nth_error_app1; auto; lia|]. now apply deref_snoc.
      * injection Y2 as ->. subst i. exists []. split; [rewrite d1; apply nth_snoc_last|]. apply deref_new.
    + unfold blk. cbn. rewrite ?F1. intros i j a Hi Hj. destruct (nth_snoc _ _ _ _ Hi) as [(Y1 & Y2)|(Y1 & Y2)]; destruct (nth_snoc _ _ _ _ Hj) as [(Y3 & Y4)|(Y3 & Y4)].
      * eapply d4; eauto.
      * injection Y4 as ->. apply Hold in Y2. lia.
      * injection Y2 as ->. apply Hold in Y4. lia.
      * congruence.
    + apply LL_blocks. exact L'.
    + rewrite F2, d6, app_length. cbn. lia.
    + rewrite app_length. cbn. lia.
    + unfold blk. cbn. rewrite ?F1. intros i Hi. destruct (nth_snoc _ _ _ _ Hi) as [(Y1 & Y2)|(Y1 & Y2)]; [|discriminate].
      destruct (d8 _ Y2) as (Y3 & Y4). split; [auto|]. intros _. specialize (Y4 eq_refl). lia.
    + eapply (BGI_change _ _ bl); [|intros j Hj; rewrite nth_error_app1; auto|lia|lia].
      destruct d9 as (m & Y1 & Y2 & H).
      assert (Hfl : forall j a n, flight (c_blocks (s_cache s1)) bl j a n -> flight (c_blocks (s_cache s1) ++ [Some (length (s_mem s1))]) bl j a n).
      { intros j a n (d & Z1 & Z2 & Z3). exists d. split; [auto|]. split; [|auto]. rewrite nth_error_app1; auto. eapply nth_lt; eauto. }
      exists m. split; [auto|]. split; [auto|]. destruct (b_th (s_bg s1)).
      * destruct H as (F & Sl). split; [auto|]. destruct (b_slot (s_bg s1)) as [[? ?]|]; cbn in *; [|auto]. destruct Sl; split; auto.
      * destruct H as (F & Fl & Sl). split; [auto|]. split; [auto|]. destruct (b_slot (s_bg s1)) as [[? ?]|]; cbn in *; [|auto]. destruct Sl; split; auto.
      * destruct H as (k0 & cc & Em & G1 & G2 & G3 & Sl). exists k0, cc. do 4 (split; [auto|]). destruct (b_slot (s_bg s1)) as [[? ?]|]; cbn in *; [|auto]. destruct Sl; split; auto.
    + discriminate.
    + lia.
  - intros i. unfold blk. cbn [s_cache c_blocks]. rewrite ?F1, in_app_iff. cbn [In]. split.
    + intros [Hi|[Hi|[]]].
      * apply M1 in Hi. destruct Hi as (H0 & a & Ha). split; [auto|]. exists a. rewrite nth_error_app1; auto. eapply nth_lt; eauto.
      * subst i. split; [lia|]. rewrite Nat2Z.id, d2, <- d1. eexists. apply nth_snoc_last.
    + intros (H0 & a & Ha). destruct (nth_snoc _ _ _ _ Ha) as [(Y1 & Y2)|(Y1 & Y2)]; [left; apply M1; split; eauto|right; left; lia].
  - lia.
  - unfold blk. cbn [s_cache c_blocks s_wr w_cur]. rewrite ?F1, <- d1. apply nth_snoc_last.
  - intros Hc1 i. unfold blk. cbn [s_cache c_blocks]. rewrite ?F1. intros Hi. destruct (nth_snoc _ _ _ _ Hi) as [(Y1 & Y2)|(Y1 & Y2)]; [|discriminate]. apply (A1 ltac:(lia) i). exact Y2.
Qed.
End Writing.
