(** The string buffer: get and cmp. *)
From Verif Require Import TableProofs ColumnProofs StrSpec StrProofs StrProofs2 StrProofs3 StrProofs4 StrProofs5 StrProofs6.
From Coq Require Import ZifyBool Permutation.
Local Open Scope Z_scope.

Lemma skipn_skipn' {A} n m (l : list A) : skipn n (skipn m l) = skipn (m + n) l.
Proof. revert l. induction m as [|m IH]; intros l; [reflexivity|]. destruct l; [now rewrite !skipn_nil|]. cbn. apply IH. Qed.

Lemma prefix_split {A} (a l : list A) : firstn (length a) l = a -> exists r, l = a ++ r.
Proof. intros H. exists (skipn (length a) l). rewrite <- H at 1. now rewrite firstn_skipn. Qed.

Lemma tail_shift bl p y tl : 0 <= p -> tail bl p = y ++ tl -> tail bl (p + zlength y) = tl.
Proof.
  unfold tail. intros Hp E. replace (Z.to_nat (p + zlength y)) with (Z.to_nat p + length y)%nat by lia.
  rewrite <- skipn_skipn', E, skipn_app, skipn_all, Nat.sub_diag. reflexivity.
Qed.
Lemma tail_len bl p y tl : 0 <= p -> tail bl p = y ++ tl -> y ++ tl <> [] -> p + zlength y <= zlength (concat bl).
Proof.
  unfold tail. intros Hp E Hn. assert (H : length (skipn (Z.to_nat p) (concat bl)) = length (y ++ tl)) by now rewrite E.
  rewrite skipn_length, app_length in H. destruct (y ++ tl) eqn:Ey; [congruence|]. assert (length (y ++ tl) <> 0)%nat by (rewrite Ey; discriminate). rewrite app_length in H0. lia.
Qed.

Section Full.
Variable B : Z.
Hypothesis HB : 16 <= B <= 2 ^ 20.
Definition FullB (bl : list (list Z)) : Prop := forall i c, nth_error bl i = Some c -> zlength c <= B /\ ((S i < length bl)%nat -> zlength c = B).

Lemma FullB_tl d bl : FullB (d :: bl) -> FullB bl.
Proof. intros H i c E. destruct (H (S i) c E) as (A & C). split; auto. intros X. apply C. cbn. lia. Qed.

Lemma tail_in bl : FullB bl -> forall i c off, nth_error bl i = Some c -> 0 <= off <= B ->
  tail bl (Z.of_nat i * B + off) = skipn (Z.to_nat off) c ++ concat (skipn (S i) bl).
Proof.
  unfold tail. intros HF i. revert bl HF. induction i as [|i IH]; intros bl HF c off E Ho.
  - destruct bl as [|d bl]; [discriminate|]. injection E as ->. cbn [concat skipn]. replace (Z.of_nat 0 * B + off) with off by lia.
    rewrite skipn_app. f_equal. destruct (HF O c eq_refl) as (H1 & H2). destruct bl as [|e bl]; [cbn; now rewrite skipn_nil|].
    cbn in H2. replace (Z.to_nat off - length c)%nat with O by lia. reflexivity.
  - destruct bl as [|d bl]; [discriminate|]. cbn [nth_error] in E. change (skipn (S (S i)) (d :: bl)) with (skipn (S i) bl). cbn [concat].
    assert (Hd : zlength d = B). { apply (HF O d eq_refl). apply nth_lt in E. cbn. lia. }
    rewrite skipn_app, skipn_all2 by lia. cbn [app]. rewrite <- (IH bl (FullB_tl _ _ HF) c off E Ho). f_equal. lia.
Qed.

Lemma concat_len bl : FullB bl -> zlength (concat bl) <= zlength bl * B.
Proof.
  induction bl as [|d bl IH]; intros HF; [cbn; lia|]. specialize (IH (FullB_tl _ _ HF)). destruct (HF O d eq_refl) as (H & _). cbn [concat length]. rewrite app_length. lia.
Qed.

Lemma slice_ok c off y r : 0 <= off -> skipn (Z.to_nat off) c = y ++ r -> y <> [] -> slice c off (zlength y) = Some y.
Proof.
  intros H E Hy. assert (L : length (skipn (Z.to_nat off) c) = length (y ++ r)) by now rewrite E. rewrite skipn_length, app_length in L.
  destruct y as [|a y]; [congruence|]. unfold slice. cbn [length] in *. destruct (_ && _) eqn:Ec; [|lia].
  rewrite E, Nat2Z.id. cbn [length]. f_equal. change (firstn (length (a :: y)) ((a :: y) ++ r) = a :: y). rewrite firstn_app, Nat.sub_diag, firstn_all. cbn [firstn]. apply app_nil_r.
Qed.

(** The bytes at a position, up to the end of the block. *)
Lemma slice_tail bl i c off y tl : FullB bl -> nth_error bl i = Some c -> 0 <= off -> off + zlength y <= B ->
  tail bl (Z.of_nat i * B + off) = y ++ tl -> y <> [] -> slice c off (zlength y) = Some y.
Proof.
  intros HF E Ho Hy Et Hn. rewrite (tail_in bl HF i c off E) in Et by lia.
  destruct (HF i c E) as (H1 & H2).
  assert (Hl : (length y <= length (skipn (Z.to_nat off) c))%nat).
  { destruct (Nat.lt_ge_cases (S i) (length bl)) as [X|X].
    - specialize (H2 X). rewrite skipn_length. lia.
    - rewrite (skipn_all2 bl) in Et by lia. cbn in Et. rewrite app_nil_r in Et. rewrite Et, app_length. lia. }
  eapply slice_ok; auto. instantiate (1 := skipn (length y) (skipn (Z.to_nat off) c)).
  rewrite <- (firstn_skipn (length y) (skipn (Z.to_nat off) c)) at 1. f_equal.
  assert (X : firstn (length y) (skipn (Z.to_nat off) c ++ concat (skipn (S i) bl)) = firstn (length y) (y ++ tl)) by now rewrite Et.
  rewrite !firstn_app in X. replace (length y - length (skipn (Z.to_nat off) c))%nat with O in X by lia. rewrite Nat.sub_diag, firstn_all in X. cbn [firstn] in X. now rewrite !app_nil_r in X.
Qed.

Lemma tail_block bl i off y tl : FullB bl -> 0 <= off -> off <= B -> tail bl (Z.of_nat i * B + off) = y ++ tl -> y <> [] ->
  (i < length bl)%nat.
Proof.
  intros HF H0 H1 Et Hn. pose proof (concat_len _ HF). pose proof (tail_len bl (Z.of_nat i * B + off) y tl) as X.
  assert (Z.of_nat i * B + off + zlength y <= zlength (concat bl)). { apply X; auto; [lia|]. destruct y; [congruence|discriminate]. }
  destruct y as [|b y]; [congruence|]. cbn [length] in *. nia.
Qed.
End Full.

Lemma dec_ok m off v r : 0 <= off -> 0 <= v < 2 ^ 21 -> skipn (Z.to_nat off) m = enc_vint2 v ++ r -> dec_vint2 m off = Some (v, off + zlength (enc_vint2 v)).
Proof.
  intros Ho Hv E. unfold dec_vint2, enc_vint2 in *. apply decv_encv; [|lia|lia]. 
  pose proof (vint_len v Hv) as X. unfold enc_vint2 in X.
  assert (L : length (skipn (Z.to_nat off) m) = length (encv 5 v ++ r)) by now rewrite E. rewrite skipn_length, app_length in L.
  exists (firstn (Z.to_nat off) m), r. split; [now rewrite <- E, firstn_skipn|]. rewrite firstn_length. lia.
Qed.

Section Read.
Variables B cap : Z.
Variable readOnly : bool.
Variable lz : list Z -> list Z.
Variable unlz : list Z -> Z -> option (list Z).
Variable sched : nat -> nat.
Hypothesis Hcap : 5 <= cap.
Hypothesis Hlz : codec lz unlz.
Hypothesis HB : 16 <= B <= 2 ^ 20.
Variable bl : list (list Z).
Variable sub : nat.
Hypothesis HF : FullB B bl.
Notation OK := (OK B cap readOnly lz sched).

(** What reading leaves alone. *)
Definition FR (s s' : sb) : Prop :=
  (forall j b, readOnly = false -> (length bl <= j + 3)%nat -> blk s j = Some (Some b) -> blk s' j = Some (Some b)) /\
  s_wr s' = s_wr s /\ s_usize s' = s_usize s /\ ((forall k, blk s k <> Some None) -> (forall k, blk s' k <> Some None)).
Lemma FR_refl s : FR s s.
Proof. repeat split; auto. Qed.
Lemma FR_trans a b c : FR a b -> FR b c -> FR a c.
Proof. intros (A1 & A2 & A3 & A4) (B1 & B2 & B3 & B4). split; [eauto|]. split; [congruence|]. split; [congruence|]. auto. Qed.

Definition KEEP (s : sb) (k a : nat) : Prop := blk s k = Some (Some a) /\ (c_last (s_cache s) = Z.of_nat k \/ c_last (s_cache s) = Z.of_nat (S k)).

Lemma OK_deref s k a : OK s bl sub -> blk s k = Some (Some a) -> exists c, nth_error bl k = Some c /\ deref (s_mem s) a = Some c.
Proof. intros (q & C & _). apply (co_mem _ _ _ _ _ _ _ C). Qed.

Lemma next_keep s k a : OK s bl sub -> KEEP s k a -> (S k < length bl)%nat ->
  exists b s', get_block B cap readOnly lz unlz sched (Z.of_nat k + 1) s = Some (b, s') /\ OK s' bl sub /\ FR s s' /\ KEEP s' k a /\ top s' (S k) b.
Proof.
  intros O (K1 & K2) Hk. replace (Z.of_nat k + 1) with (Z.of_nat (S k)) by lia.
  destruct (get_block_ok B cap readOnly lz unlz sched Hcap Hlz s bl sub (S k) O Hk) as (b & s' & E & O' & T & R1 & R2 & R3 & R4 & R5).
  destruct K2 as [K2|K2].
  - exists b, s'. split; [auto|]. split; [auto|]. split; [split; auto|]. split; [|auto]. split; [apply R1; split; auto|]. right. apply T.
  - destruct (blk s (S k)) as [[b0|]|] eqn:Eb.
    + assert (T0 : top s (S k) b0) by (split; auto). pose proof (get_block_top B cap readOnly lz unlz sched s (S k) b0 T0) as E0. rewrite E0 in E. injection E as <- <-.
      exists b0, s. split; [exact E0|]. split; [auto|]. split; [apply FR_refl|]. split; [split; auto|auto].
    + exfalso. destruct O as (q & C & M & _). destruct (co_ll _ _ _ _ _ _ _ C) as (_ & _ & X & _).
      assert (Hq : q <> []) by (intros ->; cbn in X; lia). pose proof (last_in q (-1) Hq) as Hi. rewrite <- X, K2 in Hi. apply M in Hi. destruct Hi as (_ & x & Hx). rewrite Nat2Z.id in Hx. congruence.
    + exfalso. apply nth_error_None in Eb. destruct O as (q & C & _). rewrite (co_len _ _ _ _ _ _ _ C) in Eb. lia.
Qed.

Lemma get_vint_ok s k a off v tl : OK s bl sub -> blk s k = Some (Some a) -> 0 <= off <= B -> 0 <= v < 2 ^ 21 ->
  tail bl (Z.of_nat k * B + off) = enc_vint2 v ++ tl -> (off <= B - 4 \/ KEEP s k a) ->
  exists k' ptr off' s', get_vint B cap readOnly lz unlz sched (Z.of_nat k, Some a, off) s = Some (v, (Z.of_nat k', ptr, off'), s') /\
    OK s' bl sub /\ FR s s' /\ 0 <= off' < B /\ Z.of_nat k' * B + off' = Z.of_nat k * B + off + zlength (enc_vint2 v) /\
    tail bl (Z.of_nat k' * B + off') = tl /\
    ((k' = k /\ ptr = Some a /\ blk s' k = Some (Some a)) \/
     (k' = S k /\ off' <= 3 /\ ((exists b, ptr = Some b /\ top s' (S k) b) \/ (S k = length bl /\ ptr = None)))) /\
    (KEEP s k a -> KEEP s' k a) /\ (off <= B - 4 -> s' = s).
Proof.
  intros O Ha Ho Hv Et HK. pose proof (vint_len v Hv) as Lv. destruct (OK_deref _ _ _ O Ha) as (c & Ec & Ed).
  assert (Et' : tail bl (Z.of_nat k * B + off + zlength (enc_vint2 v)) = tl) by (apply tail_shift; [lia|auto]).
  unfold get_vint. cbn [bytes_at]. rewrite Ed. destruct (Z.ltb_spec (B - off) 4) as [Hn|Hn].
  - destruct HK as [HK|HK]; [lia|].
    rewrite (tail_in B HB bl HF k c off Ec Ho) in Et.
    pose proof O as (q & C & _). rewrite (co_len _ _ _ _ _ _ _ C).
    destruct (Z.ltb_spec (Z.of_nat k) (zlength bl - 1)) as [Hl|Hl].
    + destruct (next_keep s k a O HK) as (b & s' & E & O' & F' & K' & T'); [lia|]. rewrite E.
      destruct (OK_deref s' (S k) b O' (proj2 T')) as (d & Ed1 & Ed2). rewrite Ed2. cbv beta iota.
      set (h := skipn (Z.to_nat off) c) in *.
      assert (Ek : skipn (S k) bl = d :: skipn (S (S k)) bl).
      { clear - Ed1. revert Ed1. generalize (S k). intros n. revert bl. induction n as [|n IH]; intros [|e l] H; try discriminate; [injection H as ->; reflexivity|]. cbn [nth_error] in H. cbn [skipn]. rewrite (IH l H). reflexivity. }
      rewrite Ek in Et. cbn [concat] in Et. destruct (HF (S k) d Ed1) as (D1 & D2).
      assert (Es : exists r, h ++ firstn (4 - length h) d = enc_vint2 v ++ r).
      { destruct (Nat.lt_ge_cases (length d) (4 - length h)) as [X|X].
        - rewrite firstn_all2 by lia. assert (S (S k) >= length bl)%nat by (destruct (Nat.lt_ge_cases (S (S k)) (length bl)) as [Y|Y]; [specialize (D2 Y); lia|lia]).
          rewrite (skipn_all2 bl) in Et by lia. cbn in Et. rewrite app_nil_r in Et. eauto.
        - apply prefix_split.
          assert (Y : firstn (length (enc_vint2 v)) (h ++ d ++ concat (skipn (S (S k)) bl)) = enc_vint2 v).
          { rewrite Et, firstn_app, Nat.sub_diag, firstn_all. cbn [firstn]. apply app_nil_r. }
          etransitivity; [|exact Y]. rewrite !firstn_app. f_equal. rewrite firstn_firstn.
          replace (length (enc_vint2 v) - length h - length d)%nat with 0%nat by lia. cbn [firstn]. rewrite app_nil_r. f_equal. lia. }
      destruct Es as (r & Es). rewrite (dec_ok _ 0 v r) by (try lia; auto). rewrite Z.add_0_l. cbv beta iota.
      destruct (Z.leb_spec B (off + zlength (enc_vint2 v))) as [Hb|Hb].
      * exists (S k), (Some b), (off + zlength (enc_vint2 v) - B), s'. split; [replace (Z.of_nat (S k)) with (Z.of_nat k + 1) by lia; reflexivity|].
        split; [auto|]. split; [auto|]. split; [lia|]. split; [lia|]. split; [rewrite <- Et'; f_equal; lia|]. split; [right; split; [auto|]; split; [lia|]; left; eauto|]. split; [auto|lia].
      * exists k, (Some a), (off + zlength (enc_vint2 v)), s'. split; [auto|].
        split; [auto|]. split; [auto|]. split; [lia|]. split; [lia|]. split; [rewrite <- Et'; f_equal; lia|]. split; [left; repeat split; auto; apply K'|]. split; [auto|lia].
    + rewrite (skipn_all2 bl) in Et by lia. cbn [concat] in Et. rewrite app_nil_r in Et. rewrite (dec_ok _ 0 v tl) by (try lia; auto). rewrite Z.add_0_l. cbv beta iota.
      destruct (Z.leb_spec B (off + zlength (enc_vint2 v))) as [Hb|Hb].
      * exists (S k), None, (off + zlength (enc_vint2 v) - B), s. split; [replace (Z.of_nat (S k)) with (Z.of_nat k + 1) by lia; reflexivity|].
        split; [auto|]. split; [apply FR_refl|]. split; [lia|]. split; [lia|]. split; [rewrite <- Et'; f_equal; lia|]. apply nth_lt in Ec. split; [right; split; [auto|]; split; [lia|]; right; split; auto; lia|]. split; [auto|lia].
      * exists k, (Some a), (off + zlength (enc_vint2 v)), s. split; [auto|].
        split; [auto|]. split; [apply FR_refl|]. split; [lia|]. split; [lia|]. split; [rewrite <- Et'; f_equal; lia|]. split; [left; auto|]. split; [auto|lia].
  - assert (Hsl : slice c off (zlength (enc_vint2 v)) = Some (enc_vint2 v)).
    { eapply slice_tail; eauto; [lia|lia|]. intros X. rewrite X in Lv. cbn in Lv. lia. }
    assert (Hd : exists r, skipn (Z.to_nat off) c = enc_vint2 v ++ r).
    { unfold slice in Hsl. destruct (_ && _); [|discriminate]. injection Hsl as Hsl. exists (skipn (Z.to_nat (zlength (enc_vint2 v))) (skipn (Z.to_nat off) c)). rewrite <- Hsl at 1. now rewrite firstn_skipn. }
    destruct Hd as (r & Hd). rewrite (dec_ok _ off v r) by (try lia; auto). cbv beta iota.
    exists k, (Some a), (off + zlength (enc_vint2 v)), s. split; [auto|].
    split; [auto|]. split; [apply FR_refl|]. split; [lia|]. split; [lia|]. split; [rewrite <- Et'; f_equal; lia|]. split; [left; auto|]. split; [auto|auto].
Qed.

Lemma copy_ok s k a off y tl : OK s bl sub -> blk s k = Some (Some a) -> 0 <= off -> off + zlength y <= B ->
  tail bl (Z.of_nat k * B + off) = y ++ tl -> copy s (Some a) off (zlength y) = Some y.
Proof.
  intros O Ha Ho Hy Et. unfold copy. destruct (Z.eqb_spec (zlength y) 0) as [E|E]; [destruct y; [auto|cbn in E; lia]|].
  destruct (OK_deref _ _ _ O Ha) as (c & Ec & Ed). cbn [bytes_at]. rewrite Ed. eapply slice_tail; eauto. intros ->. cbn in E. lia.
Qed.
Lemma copy_nil s p off : copy s p off 0 = Some [].
Proof. reflexivity. Qed.

Lemma flag_ok s k a off f tl : OK s bl sub -> blk s k = Some (Some a) -> 0 <= off < B -> tail bl (Z.of_nat k * B + off) = f :: tl ->
  get_flag B cap readOnly lz unlz sched (Z.of_nat k, Some a, off) s = Some (f, (Z.of_nat k, Some a, off + 1), s) /\ tail bl (Z.of_nat k * B + (off + 1)) = tl.
Proof.
  intros O Ha Ho Et. unfold get_flag. destruct (Z.ltb_spec off B); [|lia]. destruct (OK_deref _ _ _ O Ha) as (c & Ec & Ed). cbn [bytes_at]. rewrite Ed.
  assert (Hs : slice c off (zlength [f]) = Some [f]) by (eapply slice_tail; [exact HB|exact HF|exact Ec|lia|cbn; lia|exact Et|discriminate]).
  split.
  - unfold getb. unfold slice in Hs. destruct ((0 <=? off) && _ && _) eqn:Ec2; [|discriminate]. assert (Hs1 : firstn 1 (skipn (Z.to_nat off) c) = [f]) by (change (Z.to_nat (zlength [f])) with 1%nat in Hs; congruence).
    destruct (Z.leb_spec 0 off); [|lia].
    assert (Hnth : nth_error c (Z.to_nat off) = Some f).
    { rewrite <- (firstn_skipn (Z.to_nat off) c). rewrite nth_error_app2 by (rewrite firstn_length; lia). rewrite firstn_length.
      replace (Z.to_nat off - Nat.min (Z.to_nat off) (length c))%nat with 0%nat by (cbn in Ec2; lia). destruct (skipn (Z.to_nat off) c); [discriminate|]. cbn in Hs1 |- *. congruence. }
    rewrite Hnth. reflexivity.
  - replace (Z.of_nat k * B + (off + 1)) with (Z.of_nat k * B + off + zlength [f]) by (cbn; lia). apply tail_shift; [lia|auto].
Qed.
End Read.
