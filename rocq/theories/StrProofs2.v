(** The string buffer: the background thread and the cache. *)
From Verif Require Import TableProofs StrSpec StrProofs.
From Coq Require Import ZifyBool Permutation.
Local Open Scope Z_scope.

Fixpoint psums (lz : list Z -> list Z) (acc : Z) (l : list (list Z)) : list Z :=
  match l with
  | [] => []
  | c :: r => (acc + zlength (lz c)) :: psums lz (acc + zlength (lz c)) r
  end.
Definition filed (lz : list Z -> list Z) (l : list (list Z)) : list Z := concat (map lz l).

Lemma psums_length lz l : forall acc, length (psums lz acc l) = length l.
Proof. induction l; cbn; auto. Qed.

Lemma filed_app lz l1 l2 : filed lz (l1 ++ l2) = filed lz l1 ++ filed lz l2.
Proof. unfold filed. now rewrite map_app, concat_app. Qed.

Lemma psums_snoc lz l c : forall acc, psums lz acc (l ++ [c]) = psums lz acc l ++ [last (psums lz acc l) acc + zlength (lz c)].
Proof.
  induction l as [|d l IH]; intros acc; [reflexivity|]. cbn [app psums]. rewrite IH, last_cons. reflexivity.
Qed.

Lemma psums_nth lz l : forall acc k, (k < length l)%nat -> nth_error (psums lz acc l) k = Some (acc + zlength (filed lz (firstn (S k) l))).
Proof.
  induction l as [|d l IH]; intros acc k Hk; [cbn in Hk; lia|]. destruct k; cbn [psums nth_error].
  - cbn [firstn]. unfold filed. cbn [map concat]. rewrite app_nil_r. reflexivity.
  - rewrite IH by (cbn in Hk; lia). rewrite (firstn_cons (S k)). change (d :: firstn (S k) l) with ([d] ++ firstn (S k) l). rewrite filed_app, app_length.
    unfold filed at 2. cbn [map concat]. rewrite app_nil_r. f_equal. lia.
Qed.

Lemma firstn_snoc {A} (l : list A) k x : nth_error l k = Some x -> firstn (S k) l = firstn k l ++ [x].
Proof.
  revert k. induction l as [|y l IH]; intros k H; [destruct k; discriminate|]. destruct k as [|k].
  - cbn in H. injection H as ->. reflexivity.
  - cbn [nth_error] in H. rewrite (firstn_cons (S k)), (IH _ H). reflexivity.
Qed.

Lemma slice_all c : slice c 0 (zlength c) = Some c.
Proof.
  unfold slice. destruct ((0 <=? 0) && (0 <=? zlength c) && (0 + zlength c <=? zlength c)) eqn:E; [|lia].
  rewrite Nat2Z.id. cbn [Z.to_nat skipn]. now rewrite firstn_all.
Qed.

Lemma deref_lt m a c : deref m a = Some c -> (a < length m)%nat.
Proof. unfold deref. intros H. apply nth_error_Some. destruct (nth_error m a); congruence. Qed.

Lemma deref_snoc m a c x : deref m a = Some c -> deref (m ++ [x]) a = Some c.
Proof. intros H. pose proof (deref_lt _ _ _ H). unfold deref in *. now rewrite nth_error_app1. Qed.

Lemma deref_new m c : deref (m ++ [Some c]) (length m) = Some c.
Proof. unfold deref. now rewrite nth_error_app2, Nat.sub_diag. Qed.

Lemma deref_upd_other m a b x c : a <> b -> deref m a = Some c -> deref (upd m b x) a = Some c.
Proof. unfold deref. intros H. now rewrite upd_other by auto. Qed.

Lemma deref_upd_same m a x : (a < length m)%nat -> deref (upd m a (Some x)) a = Some x.
Proof. unfold deref. intros H. now rewrite upd_same. Qed.

Section Cache.
Variables B cap : Z.
Variable readOnly : bool.
Variable lz : list Z -> list Z.
Variable unlz : list Z -> Z -> option (list Z).
Variable sched : nat -> nat.

Definition flight (blocks : list (option nat)) (bl : list (list Z)) (j a : nat) (n : Z) : Prop :=
  exists c, nth_error bl j = Some c /\ nth_error blocks j = Some (Some a) /\ n = zlength c.
Definition slot_ok (slot : option (nat * Z)) blocks bl (j sub : nat) : Prop :=
  match slot with None => j = sub | Some (a, n) => flight blocks bl j a n /\ S j = sub end.
Definition BGI (b : bg) (blocks : list (option nat)) (bl : list (list Z)) (sub : nat) : Prop :=
  exists m, b_sizes b = psums lz 0 (firstn m bl) /\ (m <= length bl)%nat /\
  match b_th b with
  | Idle => b_file b = filed lz (firstn m bl) /\ slot_ok (b_slot b) blocks bl m sub
  | Taken a n => b_file b = filed lz (firstn m bl) /\ flight blocks bl m a n /\ slot_ok (b_slot b) blocks bl (S m) sub
  | Sized cs => exists k c, m = S k /\ nth_error bl k = Some c /\ cs = lz c /\ b_file b = filed lz (firstn k bl) /\ slot_ok (b_slot b) blocks bl m sub
  end.
Definition done (b : bg) : nat := match b_th b with Sized _ => length (b_sizes b) - 1 | _ => length (b_sizes b) end.

Definition MemOK (mem : list (option (list Z))) (blocks : list (option nat)) (bl : list (list Z)) : Prop :=
  forall i a, nth_error blocks i = Some (Some a) -> exists c, nth_error bl i = Some c /\ deref mem a = Some c.

Lemma thr_step_ok mem b blocks bl sub : MemOK mem blocks bl -> BGI b blocks bl sub ->
  exists b', thr_step lz mem b = Some b' /\ BGI b' blocks bl sub /\ b_tick b' = b_tick b /\ (done b <= done b')%nat.
Proof.
  intros HM (m & Hs & Hm & H). unfold thr_step. destruct (b_th b) as [|a n|cs] eqn:Et.
  - destruct H as (Hf & Hsl). destruct (b_slot b) as [[a n]|] eqn:Es.
    + destruct Hsl as (Hfl & Hsub). eexists; split; [reflexivity|]. split; [|split; [reflexivity|unfold done; cbn; rewrite Et; lia]].
      exists m. cbn. auto.
    + eexists; split; [reflexivity|]. split; [|auto]. exists m. rewrite Et, Es. auto.
  - destruct H as (Hf & (c & C1 & C2 & C3) & Hsl). destruct (HM _ _ C2) as (c' & C1' & C4). rewrite C1 in C1'. injection C1' as <-.
    rewrite C4. subst n. rewrite slice_all. eexists; split; [reflexivity|]. split.
    + exists (S m). cbn [b_sizes b_th b_file b_slot]. rewrite (firstn_snoc _ _ _ C1), psums_snoc, <- Hs. split; [reflexivity|].
      split; [apply nth_error_Some; congruence|]. exists m, c. auto.
    + split; [reflexivity|]. unfold done. cbn. rewrite Et, app_length. cbn. lia.
  - destruct H as (k & c & -> & C1 & C2 & Hf & Hsl). eexists; split; [reflexivity|]. split.
    + exists (S k). cbn [b_sizes b_th b_file b_slot]. split; [auto|]. split; [auto|]. split; [|auto].
      rewrite (firstn_snoc _ _ _ C1), filed_app, Hf, C2. unfold filed at 3. cbn [map concat]. now rewrite app_nil_r.
    + split; [reflexivity|]. unfold done. cbn. rewrite Et. lia.
Qed.

Lemma BGI_done b blocks bl sub : BGI b blocks bl sub ->
  b_sizes b = psums lz 0 (firstn (length (b_sizes b)) bl) /\ b_file b = filed lz (firstn (done b) bl) /\ (done b <= length (b_sizes b) <= length bl)%nat /\ (length (b_sizes b) <= sub /\ sub <= done b + 2)%nat.
Proof.
  intros (m & Hs & Hm & H).
  assert (Hl : length (b_sizes b) = m) by (rewrite Hs, psums_length, firstn_length; lia).
  rewrite Hl at 1. split; [auto|]. unfold done. rewrite Hl. destruct (b_th b).
  - destruct H as (H1 & H2). split; [auto|]. split; [lia|]. destruct (b_slot b) as [[? ?]|]; cbn in H2; lia.
  - destruct H as (H1 & _ & H2). split; [auto|]. split; [lia|]. destruct (b_slot b) as [[? ?]|]; cbn in H2; lia.
  - destruct H as (k & c & -> & _ & _ & H1 & H2). rewrite Nat.sub_succ, Nat.sub_0_r. split; [auto|]. split; [lia|]. destruct (b_slot b) as [[? ?]|]; cbn in H2; lia.
Qed.

Definition work (b : bg) : nat :=
  match b_th b with Idle => 0 | Taken _ _ => 2 | Sized _ => 1 end + match b_slot b with None => 0 | Some _ => 3 end.

Lemma thr_step_work mem b b' : thr_step lz mem b = Some b' -> work b' = pred (work b).
Proof.
  unfold thr_step, work. destruct (b_th b) eqn:Et.
  - destruct (b_slot b) as [[a n]|] eqn:Es; intros H; injection H as <-; cbn; rewrite ?Et, ?Es; reflexivity.
  - destruct (deref mem a); [|discriminate]. destruct (slice _ _ _); [|discriminate]. intros H; injection H as <-; cbn. lia.
  - intros H; injection H as <-; cbn. lia.
Qed.

Lemma thr_steps_ok k : forall mem b blocks bl sub, MemOK mem blocks bl -> BGI b blocks bl sub ->
  exists b', thr_steps lz k mem b = Some b' /\ BGI b' blocks bl sub /\ (done b <= done b')%nat /\ b_tick b' = b_tick b /\ work b' = (work b - k)%nat.
Proof.
  induction k as [|k IH]; intros mem b blocks bl sub HM HB; cbn [thr_steps].
  - exists b. repeat split; auto. lia.
  - destruct (thr_step_ok _ _ _ _ _ HM HB) as (b1 & E1 & HB1 & T1 & D1). rewrite E1.
    destruct (IH _ _ _ _ _ HM HB1) as (b2 & E2 & HB2 & D2 & T2 & W2). exists b2. rewrite E2. apply thr_step_work in E1. repeat split; auto; try lia.
Qed.

Lemma sync_ok s bl sub : MemOK (s_mem s) (c_blocks (s_cache s)) bl -> BGI (s_bg s) (c_blocks (s_cache s)) bl sub ->
  exists b, sync lz sched s = Some (set_bg s b) /\ BGI b (c_blocks (s_cache s)) bl sub /\ (done (s_bg s) <= done b)%nat /\
    (keeps_up sched -> work b = 0%nat).
Proof.
  intros HM HB. unfold sync.
  destruct (thr_steps_ok (sched (b_tick (s_bg s))) (s_mem s)
    (mkBg (b_sizes (s_bg s)) (b_file (s_bg s)) (b_slot (s_bg s)) (b_th (s_bg s)) (S (b_tick (s_bg s)))) (c_blocks (s_cache s)) bl sub HM) as (b & E & H1 & H2 & H3 & H4).
  { exact HB. }
  rewrite E. exists b. split; [reflexivity|]. split; [auto|]. split; [exact H2|]. intros Hk. rewrite H4. specialize (Hk (b_tick (s_bg s))).
  unfold work. cbn. destruct (b_th (s_bg s)), (b_slot (s_bg s)); lia.
Qed.

Lemma work0 b blocks bl sub : BGI b blocks bl sub -> work b = 0%nat -> length (b_sizes b) = sub /\ b_th b = Idle /\ b_slot b = None.
Proof.
  intros HB H. unfold work in H. destruct (b_th b) eqn:Et; try (cbn in H; lia). destruct (b_slot b) eqn:Es; [cbn in H; lia|].
  destruct HB as (m & Hs & Hm & Hx). rewrite Et, Es in Hx. destruct Hx as (_ & Hx). cbn in Hx. split; [|auto]. rewrite Hs, psums_length, firstn_length. lia.
Qed.

Lemma wait_ok s bl sub : MemOK (s_mem s) (c_blocks (s_cache s)) bl -> BGI (s_bg s) (c_blocks (s_cache s)) bl sub ->
  exists b, wait lz 3 s = Some (set_bg s b) /\ BGI b (c_blocks (s_cache s)) bl sub /\ (done (s_bg s) <= done b)%nat /\ b_slot b = None.
Proof.
  intros HM HB. destruct (b_slot (s_bg s)) as [[a0 n0]|] eqn:Es.
  2:{ exists (s_bg s). cbn [wait]. rewrite Es. destruct s; cbn. auto. }
  assert (G : forall f b, (match b_th b with Idle => 1 | Taken _ _ => 3 | Sized _ => 2 end <= f)%nat -> BGI b (c_blocks (s_cache s)) bl sub ->
    b_slot b <> None -> exists b', wait lz f (set_bg s b) = Some (set_bg s b') /\ BGI b' (c_blocks (s_cache s)) bl sub /\ (done b <= done b')%nat /\ b_slot b' = None).
  { induction f as [|f IH]; intros b Hf HBb Hsl; [destruct (b_th b); lia|]. cbn [wait set_bg s_bg s_mem].
    destruct (thr_step_ok _ _ _ _ _ HM HBb) as (b1 & E1 & HB1 & T1 & D1). rewrite E1.
    destruct (b_slot b) as [[a n]|] eqn:Esb; [|congruence].
    change (set_bg (set_bg s b) b1) with (set_bg s b1).
    destruct (b_slot b1) as [p|] eqn:Es1.
    - destruct (IH b1) as (b' & E2 & HB2 & D2 & S2); auto; [|congruence|].
      + unfold thr_step in E1. destruct (b_th b) eqn:Et.
        * rewrite Esb in E1. injection E1 as <-. cbn in Es1. discriminate.
        * destruct (deref (s_mem s) a1); [|discriminate]. destruct (slice _ _ _); [|discriminate]. injection E1 as <-. cbn. lia.
        * injection E1 as <-. cbn. lia.
      + exists b'. repeat split; auto. lia.
    - exists b1. split; [|auto]. destruct f; cbn [wait set_bg s_bg]; rewrite Es1; reflexivity. }
  destruct (G 3%nat (s_bg s)) as (b' & E & H); auto; [destruct (b_th (s_bg s)); lia|congruence|].
  exists b'. replace (set_bg s (s_bg s)) with s in E by (destruct s; reflexivity). auto.
Qed.
End Cache.
