(** The string buffer: eviction and getBlock. *)
From Verif Require Import TableProofs StrSpec StrProofs StrProofs2.
From Coq Require Import ZifyBool Permutation.
Local Open Scope Z_scope.

Section Cache.
Variable cap : Z.
Variable readOnly : bool.
Variable lz : list Z -> list Z.
Variable sched : nat -> nat.

Definition blk (s : sb) (i : nat) : option (option nat) := nth_error (c_blocks (s_cache s)) i.

Record CORE (s : sb) (bl : list (list Z)) (q : list Z) (sub : nat) : Prop := {
  co_len : length (c_blocks (s_cache s)) = length bl;
  co_cv : length (c_cv (s_cache s)) = length bl;
  co_mem : MemOK (s_mem s) (c_blocks (s_cache s)) bl;
  co_inj : forall i j a, blk s i = Some (Some a) -> blk s j = Some (Some a) -> i = j;
  co_ll : LL (s_cache s) q;
  co_elems : c_elems (s_cache s) = zlength q;
  co_cap : zlength q <= cap;
  co_null : forall i, blk s i = Some None -> (i < done (s_bg s))%nat /\ (readOnly = false -> (i + 3 < length bl)%nat);
  co_bg : BGI lz (s_bg s) (c_blocks (s_cache s)) bl sub;
  co_ro : readOnly = true -> work (s_bg s) = 0%nat /\ sub = length bl;
  co_sub : (sub <= length bl <= S sub)%nat }.

Definition MEMB (s : sb) (q : list Z) : Prop := forall i, In i q <-> 0 <= i /\ exists a, blk s (Z.to_nat i) = Some (Some a).

Lemma nodup_range q n : NoDup q -> (forall i, In i q -> 0 <= i < Z.of_nat n) -> (length q <= n)%nat.
Proof.
  intros H1 H2. assert (E : incl q (map Z.of_nat (seq 0 n))).
  { intros i Hi. apply H2 in Hi. apply in_map_iff. exists (Z.to_nat i). split; [lia|]. apply in_seq. lia. }
  apply NoDup_incl_length in E; auto. now rewrite map_length, seq_length in E.
Qed.

Lemma filter_le {A} (f : A -> bool) l : (length (filter f l) <= length l)%nat.
Proof. induction l as [|x l IH]; cbn; [lia|]. destruct (f x); cbn; lia. Qed.

(** At most three blocks are protected. *)
Lemma protected_few c q : NoDup q -> (forall i, In i q -> 0 <= i < zlength (c_blocks c)) ->
  (length (filter (protected readOnly c) q) <= 3)%nat.
Proof.
  intros H1 H2. unfold protected. destruct readOnly; cbn [negb andb].
  - assert (E : forall l : list Z, filter (fun _ : Z => false) l = []) by (induction l; auto). rewrite E. cbn. lia.
  - assert (H : incl (map (fun i => i - (zlength (c_blocks c) - 3)) (filter (fun i => zlength (c_blocks c) - 3 <=? i) q)) [0; 1; 2]).
    { intros x Hx. apply in_map_iff in Hx. destruct Hx as (i & <- & Hi). apply filter_In in Hi. destruct Hi as (Hi & Hb). apply H2 in Hi. cbn. lia. }
    apply NoDup_incl_length in H.
    + rewrite map_length in H. exact H.
    + apply FinFun.Injective_map_NoDup; [intros x y E; lia|]. apply NoDup_filter. auto.
Qed.

Lemma evict_loop_ok P : forall f c i R, LL c (P ++ i :: R) -> (forall j, In j P -> protected readOnly c j = true) -> protected readOnly c i = false -> R <> [] ->
  (length P < f)%nat -> (forall j, In j (P ++ i :: R) -> 0 <= j < zlength (c_cv c)) ->
  exists c' , (do (k, c) <- pop_first c; evict_loop readOnly f k c) = Some (i, c') /\ LL c' (R ++ P) /\ same_but_links c c'.
Proof.
  induction P as [|p P IH]; intros f c i R HL HP Hi HR Hf Hin.
  - cbn [app] in HL. destruct R as [|r R]; [congruence|]. destruct (pop_ok _ _ _ _ HL) as (c1 & E1 & L1 & S1). rewrite E1.
    destruct f as [|f]; [lia|]. cbn [evict_loop]. unfold protected in *. destruct S1 as (S1 & S2 & S3). rewrite S1, Hi. exists c1. rewrite app_nil_r. repeat split; auto; apply L1.
  - cbn [app] in HL.
    assert (Hd : exists z r, P ++ i :: R = z :: r) by (destruct P; cbn; eauto). destruct Hd as (z & r & Hd).
    rewrite Hd in HL. destruct (pop_ok _ _ _ _ HL) as (c1 & E1 & L1 & S1). rewrite E1. destruct f as [|f]; [cbn in Hf; lia|]. cbn [evict_loop].
    assert (Pb : protected readOnly c1 p = true). { unfold protected in *. destruct S1 as (-> & _). apply HP. cbn; auto. }
    rewrite Pb. rewrite <- Hd in L1.
    destruct (push_ok c1 (P ++ i :: R) p) as (c2 & E2 & L2 & S2); auto.
    { destruct P; discriminate. }
    { rewrite <- Hd in HL. destruct HL as (_ & _ & _ & HN). inversion HN; auto. }
    { apply Hin. cbn; auto. }
    { destruct S1 as (_ & _ & ->). assert (0 <= p < zlength (c_cv c)) by (apply Hin; cbn; auto). lia. }
    rewrite E2. rewrite <- app_assoc in L2. cbn [app] in L2.
    destruct (IH f c2 i (R ++ [p])) as (c3 & E3 & L3 & S3); auto.
    + intros j Hj. unfold protected in *. destruct S2 as (-> & _). destruct S1 as (-> & _). apply HP. cbn; auto.
    + unfold protected in *. destruct S2 as (-> & _). destruct S1 as (-> & _). auto.
    + destruct R; discriminate.
    + cbn in Hf. lia.
    + intros j Hj. destruct S2 as (_ & _ & ->). destruct S1 as (_ & _ & ->). apply Hin. rewrite in_app_iff in Hj |- *. cbn [In] in *. rewrite in_app_iff in Hj. cbn [In] in *. tauto.
    + exists c3. rewrite <- app_assoc in L3. cbn [app] in L3. split; [exact E3|]. split; [exact L3|]. eapply sbl_trans; [exact S1|]. eapply sbl_trans; eauto.
Qed.

Lemma split_first {A} (f : A -> bool) q : (length (filter f q) < length q)%nat ->
  exists P i R, q = P ++ i :: R /\ (forall j, In j P -> f j = true) /\ f i = false /\ length P = length (filter f P).
Proof.
  induction q as [|x q IH]; cbn [filter length]; [lia|]. destruct (f x) eqn:E.
  - cbn [length]. intros H. destruct IH as (P & i & R & -> & H1 & H2 & H3); [lia|]. exists (x :: P), i, R. cbn [app filter length]. rewrite E. cbn [length].
    split; [auto|]. split; [intros j [<-|Hj]; auto|]. auto.
  - intros _. exists [], x, q. cbn. split; [auto|]. split; [tauto|]. auto.
Qed.

Lemma evict_ok s bl q sub : CORE s bl q sub -> (forall i, In i q -> 0 <= i /\ exists a, blk s (Z.to_nat i) = Some (Some a)) -> 5 <= zlength q ->
  exists s' q' i, evict readOnly lz sched s = Some s' /\ CORE s' bl q' sub /\ Permutation q (i :: q') /\ last q (-1) <> i /\ 0 <= i /\
    blk s' (Z.to_nat i) = Some None /\ (forall j, j <> Z.to_nat i -> blk s' j = blk s j) /\ s_wr s' = s_wr s /\ s_usize s' = s_usize s /\
    c_blocks (s_cache s') = upd (c_blocks (s_cache s)) (Z.to_nat i) None /\
    (forall a c, deref (s_mem s) a = Some c -> blk s (Z.to_nat i) <> Some (Some a) -> deref (s_mem s') a = Some c).
Proof.
  intros C Hq H5. destruct C as [c1 c2 c3 c4 c5 c6 c7 c8 c9 c10 c11].
  assert (Hr : forall i, In i q -> 0 <= i < zlength (c_blocks (s_cache s))).
  { intros i Hi. destruct (Hq i Hi) as (H0 & a & Ha). apply nth_lt in Ha. lia. }
  assert (Nd : NoDup q) by (destruct c5 as (_ & _ & _ & X); exact X).
  pose proof (protected_few (s_cache s) q Nd Hr) as HF.
  destruct (split_first (protected readOnly (s_cache s)) q) as (P & i & R & Eq & HP & Hi & HlP); [lia|].
  assert (LP : (length P <= 3)%nat). { rewrite Eq, filter_app, app_length in HF. lia. }
  assert (HR : R <> []). { intros ->. rewrite Eq, app_length in H5. cbn in H5. lia. }
  rewrite Eq in c5.
  destruct (evict_loop_ok P (S (length (c_blocks (s_cache s)))) (s_cache s) i R c5 HP Hi HR) as (c' & E & LL' & SB).
  { assert (length q <= length (c_blocks (s_cache s)))%nat by (apply nodup_range; auto). rewrite Eq, app_length in H. cbn in H. lia. }
  { rewrite <- Eq. intros j Hj. rewrite c2, <- c1. auto. }
  assert (Iq : In i q) by (rewrite Eq; apply in_or_app; cbn; auto).
  destruct (Hq i Iq) as (I0 & a & Ia).
  destruct (sync_ok lz sched s bl sub c3 c9) as (b & Es & Hb & Hd & _).
  destruct SB as (SB1 & SB2 & SB3).
  unfold evict. destruct (pop_first (s_cache s)) as [[k ck]|] eqn:Ep; [|discriminate]. cbv beta iota in E |- *.
  assert (Lk : length (c_blocks ck) = length (c_blocks (s_cache s))).
  { unfold pop_first in Ep. destruct (cvget (s_cache s) (c_first (s_cache s))) as [[x y]|]; [|discriminate]. unfold set_prev in Ep.
    destruct (cvget (set_ends (s_cache s) y (c_last (s_cache s))) y) as [[x' y']|]; [|discriminate]. injection Ep as <- <-. reflexivity. }
  rewrite Lk, E, Es, SB1. unfold blk in Ia. rewrite Ia. cbv beta iota.
  eexists _, (R ++ P), i. split; [reflexivity|].
  assert (HB0 : forall j, j <> Z.to_nat i -> nth_error (upd (c_blocks (s_cache s)) (Z.to_nat i) None) j = nth_error (c_blocks (s_cache s)) j) by (intros; apply upd_other; auto).
  assert (HB1 : nth_error (upd (c_blocks (s_cache s)) (Z.to_nat i) None) (Z.to_nat i) = Some None) by (apply upd_same; eapply nth_lt; eauto).
  assert (Idone : (Z.to_nat i < done b)%nat /\ (readOnly = false -> (Z.to_nat i + 3 < length bl)%nat)).
  { destruct (BGI_done _ _ _ _ _ Hb) as (_ & _ & D1 & D2). unfold protected in Hi. destruct readOnly eqn:Ero.
    - destruct (c10 eq_refl) as (W & Hsub). destruct (work0 _ _ _ _ _ c9 W) as (W1 & W2 & W3).
      assert (done (s_bg s) = sub) by (unfold done; rewrite W2; auto). pose proof (nth_lt _ _ _ Ia). split; [lia|discriminate].
    - cbn [negb andb] in Hi. pose proof (nth_lt _ _ _ Ia). split; [lia|intros _; lia]. }
  split.
  { constructor; cbn [s_cache s_mem s_bg set_cache set_mem set_bg c_blocks c_cv c_elems].
    - now rewrite upd_length.
    - congruence.
    - intros j a' Hj. destruct (Nat.eq_dec j (Z.to_nat i)) as [->|Hne]; [congruence|]. rewrite HB0 in Hj by auto.
      destruct (c3 _ _ Hj) as (cc & X1 & X2). exists cc. split; [auto|]. apply deref_upd_other; auto. intros ->. apply Hne. eapply c4; eauto.
    - unfold blk. cbn. intros j k' a' Hj Hk. destruct (Nat.eq_dec j (Z.to_nat i)) as [->|]; [congruence|]. destruct (Nat.eq_dec k' (Z.to_nat i)) as [->|]; [congruence|].
      rewrite HB0 in Hj, Hk by auto. eapply c4; eauto.
    - destruct LL' as (X1 & X2 & X3 & X4). repeat split; auto.
    - rewrite SB2, c6, Eq, !app_length. cbn. lia.
    - rewrite Eq, !app_length in *. cbn in c7. lia.
    - unfold blk. cbn. intros j Hj. destruct (Nat.eq_dec j (Z.to_nat i)) as [->|Hne]; [auto|]. rewrite HB0 in Hj by auto. destruct (c8 _ Hj). split; [lia|auto].
    - destruct (BGI_done _ _ _ _ _ Hb) as (_ & _ & D1 & _). destruct Hb as (m & Hs & Hm & H).
      assert (Hlm : length (b_sizes b) = m) by (rewrite Hs, psums_length, firstn_length; lia).
      assert (Hfl : forall j a' n, (m <= j)%nat -> flight (c_blocks (s_cache s)) bl j a' n -> flight (upd (c_blocks (s_cache s)) (Z.to_nat i) None) bl j a' n).
      { intros j a' n Hj (cc & X1 & X2 & X3). exists cc. split; [auto|]. split; [|auto]. rewrite HB0; [auto|]. lia. }
      exists m. split; [auto|]. split; [auto|]. destruct (b_th b).
      + destruct H as (F & Sl). split; [auto|]. destruct (b_slot b) as [[? ?]|]; cbn in *; [|auto]. destruct Sl; split; auto.
      + destruct H as (F & Fl & Sl). split; [auto|]. split; [auto|]. destruct (b_slot b) as [[? ?]|]; cbn in *; [|auto]. destruct Sl; split; auto.
      + destruct H as (k0 & cc & Em & F1 & F2 & F3 & Sl). exists k0, cc. do 4 (split; [auto|]). destruct (b_slot b) as [[? ?]|]; cbn in *; [|auto]. destruct Sl; split; auto.
    - intros Ero. destruct (c10 Ero) as (W & Hsub). split; [|auto]. destruct (work0 _ _ _ _ _ c9 W) as (W1 & W2 & W3).
      unfold sync in Es. destruct (thr_steps_ok lz (sched (b_tick (s_bg s))) (s_mem s) (mkBg (b_sizes (s_bg s)) (b_file (s_bg s)) (b_slot (s_bg s)) (b_th (s_bg s)) (S (b_tick (s_bg s)))) _ _ _ c3 c9) as (b' & E' & _ & _ & _ & W').
      rewrite E' in Es. injection Es as ->. rewrite W'. unfold work. cbn. rewrite W2, W3. reflexivity.
    - auto. }
  split. { rewrite Eq. rewrite (Permutation_app_comm R P). symmetry. apply Permutation_middle. }
  split. { rewrite Eq. destruct (exists_last HR) as (R0 & l & El). rewrite El. rewrite app_comm_cons, app_assoc, last_snoc. intros <-.
    rewrite Eq, El in Nd. apply NoDup_remove_2 in Nd. apply Nd. apply in_or_app. right. apply in_or_app. cbn. auto. }
  split; [auto|]. split; [exact HB1|]. split; [exact HB0|]. split; [reflexivity|]. split; [reflexivity|]. split; [reflexivity|].
  intros a' cc Ha' Hne. cbn. apply deref_upd_other; auto. intros ->. apply Hne. exact Ia.
Qed.
End Cache.
