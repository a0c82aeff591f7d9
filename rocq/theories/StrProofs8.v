(** The string buffer: get returns the string and cmp compares with it. *)
From Verif Require Import TableProofs ColumnProofs StrSpec StrProofs StrProofs2 StrProofs3 StrProofs4 StrProofs5 StrProofs6 StrProofs7.
From Coq Require Import ZifyBool Permutation.
Local Open Scope Z_scope.

(** ** Order *)
Lemma sub_cmp x y : (x - y ?= 0) = (x ?= y).
Proof. destruct (Z.compare_spec x y); destruct (Z.compare_spec (x - y) 0); auto; lia. Qed.

Lemma cmp_loop_spec a : forall b k, match cmp_loop a b k with
  | inl d => d <> 0 /\ forall r r', lex (a ++ r) (b ++ r') = (d ?= 0)
  | inr m => m = k + Z.min (zlength a) (zlength b) /\ firstn (Nat.min (length a) (length b)) a = firstn (Nat.min (length a) (length b)) b
  end.
Proof.
  induction a as [|x a IH]; intros b k; [cbn; split; [lia|auto]|]. destruct b as [|y b]; [cbn; split; [lia|auto]|].
  cbn [cmp_loop]. destruct (Z.eqb_spec x y) as [->|Hn].
  - specialize (IH b (k + 1)). destruct (cmp_loop a b (k + 1)) as [d|m].
    + destruct IH as (H1 & H2). split; [auto|]. intros r r'. cbn [app lex]. rewrite Z.compare_refl. apply H2.
    + destruct IH as (H1 & H2). cbn [length Nat.min firstn]. split; [lia|]. now rewrite H2.
  - split; [lia|]. intros r r'. cbn [app lex]. rewrite sub_cmp. destruct (Z.compare_spec x y); auto. congruence.
Qed.

Lemma lex_app a : forall b c, lex (a ++ b) (a ++ c) = lex b c.
Proof. induction a as [|x a IH]; intros b c; [reflexivity|]. cbn [app lex]. rewrite Z.compare_refl. apply IH. Qed.
Lemma lex_nil_l b : lex [] b = (0 - zlength b ?= 0).
Proof. destruct b; cbn; auto. Qed.
Lemma lex_nil_r b : lex b [] = (zlength b ?= 0).
Proof. destruct b; cbn; auto. Qed.

(** If the loop finds no difference one string is a prefix of the other. *)
Lemma same_prefix (a b : list Z) : firstn (Nat.min (length a) (length b)) a = firstn (Nat.min (length a) (length b)) b ->
  ((length a <= length b)%nat /\ b = a ++ skipn (length a) b) \/ ((length b < length a)%nat /\ a = b ++ skipn (length b) a).
Proof.
  intros H. destruct (Nat.le_gt_cases (length a) (length b)) as [L|L].
  - left. split; [auto|]. rewrite Nat.min_l in H by lia. rewrite firstn_all in H. rewrite H at 1. now rewrite firstn_skipn.
  - right. split; [auto|]. rewrite Nat.min_r in H by lia. rewrite firstn_all in H. rewrite <- H at 1. now rewrite firstn_skipn.
Qed.
Lemma lex_len a b : firstn (Nat.min (length a) (length b)) a = firstn (Nat.min (length a) (length b)) b -> lex a b = (zlength a - zlength b ?= 0).
Proof.
  intros H. destruct (same_prefix a b H) as [(L & E)|(L & E)].
  - revert E. generalize (skipn (length a) b). intros r ->. replace (lex a (a ++ r)) with (lex (a ++ []) (a ++ r)) by now rewrite app_nil_r. rewrite lex_app, lex_nil_l. rewrite app_length. f_equal. lia.
  - revert E. generalize (skipn (length b) a). intros r ->. replace (lex (b ++ r) b) with (lex (b ++ r) (b ++ [])) by now rewrite app_nil_r. rewrite lex_app, lex_nil_r. rewrite app_length. f_equal. lia.
Qed.

Lemma prefix_equals_spec a : forall b, (prefix_equals a b = 0 /\ exists r, b = a ++ r) \/
  (prefix_equals a b <> 0 /\ forall r, lex (a ++ r) b = (prefix_equals a b ?= 0)).
Proof.
  induction a as [|x a IH]; intros b; [left; split; [reflexivity|exists b; reflexivity]|].
  destruct b as [|y b]; [right; split; [discriminate|reflexivity]|]. cbn [prefix_equals]. destruct (Z.eqb_spec x y) as [->|Hn].
  - destruct (IH b) as [(H1 & r & H2)|(H1 & H2)]; [left; split; [auto|exists r; cbn; congruence]|right]. split; [auto|]. intros r. cbn [app lex]. rewrite Z.compare_refl. apply H2.
  - right. split; [lia|]. intros r. cbn [app lex]. rewrite sub_cmp. destruct (Z.compare_spec x y); auto. congruence.
Qed.

Section Read.
Variables B cap : Z.
Variable readOnly : bool.
Variable lz : list Z -> list Z.
Variable unlz : list Z -> Z -> option (list Z).
Variable sched : nat -> nat.
Hypothesis Hcap : 5 <= cap.
Hypothesis Hlz : codec lz unlz.
Hypothesis HB : 16 <= B <= 2 ^ 20.
Variable bl : list (list Z).
Variable sub : nat.
Hypothesis HF : FullB B bl.
Notation OK := (OK B cap readOnly lz sched).
Notation FR := (FR readOnly bl).
Notation total := (zlength (concat bl)).

Lemma get_block_fr s k : OK s bl sub -> (k < length bl)%nat ->
  exists a s', get_block B cap readOnly lz unlz sched (Z.of_nat k) s = Some (a, s') /\ OK s' bl sub /\ FR s s' /\ top s' k a.
Proof.
  intros K Hk. destruct (get_block_ok B cap readOnly lz unlz sched Hcap Hlz s bl sub k K Hk) as (b & s' & E & K' & T & R1 & R2 & R3 & R4 & R5).
  exists b, s'. split; [auto|]. split; [auto|]. split; [split; auto|auto].
Qed.
Lemma top_keep s k a : top s k a -> KEEP s k a.
Proof. intros (A & C). split; auto. Qed.

Lemma header s p sz f more : OK s bl sub -> 0 <= p -> 0 <= sz < 2 ^ 21 -> tail bl p = enc_vint2 sz ++ f :: more ->
  exists k a s1 k1 b off1 s2, p / B = Z.of_nat k /\ get_block B cap readOnly lz unlz sched (p / B) s = Some (a, s1) /\
    get_vint B cap readOnly lz unlz sched (p / B, Some a, p mod B) s1 = Some (sz, (Z.of_nat k1, Some b, off1), s2) /\
    get_flag B cap readOnly lz unlz sched (Z.of_nat k1, Some b, off1) s2 = Some (f, (Z.of_nat k1, Some b, off1 + 1), s2) /\
    OK s2 bl sub /\ FR s s2 /\ KEEP s2 k1 b /\ 0 <= off1 < B /\ tail bl (Z.of_nat k1 * B + (off1 + 1)) = more /\
    (p mod B + zlength (enc_vint2 sz) + 1 <= B -> k1 = k) /\ Z.of_nat k1 * B + (off1 + 1) <= total.
Proof.
  intros K Hp Hs Et. assert (Hm : 0 <= p mod B < B) by (apply Z.mod_pos_bound; lia). pose proof (Z.div_mod p B) as Hdm.
  assert (Hd : 0 <= p / B) by (apply Z.div_pos; lia). pose proof (vint_len sz Hs) as Lv.
  set (k := Z.to_nat (p / B)). assert (Hk : p / B = Z.of_nat k) by (unfold k; lia). assert (Hpk : p = Z.of_nat k * B + p mod B) by lia.
  rewrite Hk. rewrite Hpk in Et at 1.
  assert (Hl : (k < length bl)%nat). { eapply tail_block; [exact HB|exact HF| |..]; [| |exact Et|]; [lia|lia|]. intros X. rewrite X in Lv. cbn in Lv. lia. }
  destruct (get_block_fr s k K Hl) as (a & s1 & E1 & K1 & F1 & T1).
  destruct (get_vint_ok B cap readOnly lz unlz sched Hcap Hlz HB bl sub HF s1 k a (p mod B) sz (f :: more) K1 (proj2 T1)) as (k1 & ptr & off1 & s2 & E2 & K2 & F2 & O2 & P2 & Et2 & R2 & KP & _); auto; [lia|right; apply top_keep; auto|].
  assert (Hb : exists b, ptr = Some b /\ KEEP s2 k1 b).
  { destruct R2 as [(-> & -> & _)|(-> & X1 & [(b & -> & T2)|(X2 & X3)])]; [exists a; split; [auto|]; apply KP, top_keep; auto|exists b; split; [auto|apply top_keep; auto]|].
    exfalso. pose proof (tail_block B HB bl (S k) off1 [f] more HF) as X. assert (S k < length bl)%nat; [apply X; try lia; [exact Et2|discriminate]|lia]. }
  destruct Hb as (b & -> & K3).
  destruct (flag_ok B cap readOnly lz unlz sched HB bl sub HF s2 k1 b off1 f more K2 (proj1 K3) O2 Et2) as (E3 & Et3).
  exists k, a, s1, k1, b, off1, s2. split; [auto|]. split; [auto|]. split; [auto|]. split; [auto|]. split; [auto|]. split; [eapply FR_trans; eauto|]. split; [auto|]. split; [auto|]. split; [auto|].
  split; [intros X; nia|]. pose proof (tail_len bl (Z.of_nat k1 * B + off1) [f] more) as X. cbn [length] in X. rewrite Z.add_assoc. apply X; [lia|exact Et2|discriminate].
Qed.

Lemma prefix_part s k a off pb n rest : OK s bl sub -> KEEP s k a -> 0 <= off <= B -> 0 <= pb < 2 ^ 21 -> 0 <= n < 2 ^ 21 ->
  tail bl (Z.of_nat k * B + off) = enc_vint2 pb ++ enc_vint2 n ++ rest ->
  exists r1 s1 k2 ptr off2 s2, get_vint B cap readOnly lz unlz sched (Z.of_nat k, Some a, off) s = Some (pb, r1, s1) /\
    get_vint B cap readOnly lz unlz sched r1 s1 = Some (n, (Z.of_nat k2, ptr, off2), s2) /\ OK s2 bl sub /\ FR s s2 /\ KEEP s2 k a /\ 0 <= off2 < B /\
    tail bl (Z.of_nat k2 * B + off2) = rest /\ Z.of_nat k2 * B + off2 <= total /\
    ((k2 = k /\ ptr = Some a) \/ (k2 = S k /\ ((exists b, ptr = Some b /\ blk s2 (S k) = Some (Some b)) \/ (S k = length bl /\ ptr = None)))).
Proof.
  intros K Kp Ho Hpb Hn Et. pose proof (vint_len pb Hpb) as Lp. pose proof (vint_len n Hn) as Ln.
  destruct (get_vint_ok B cap readOnly lz unlz sched Hcap Hlz HB bl sub HF s k a off pb _ K (proj1 Kp) Ho Hpb Et) as (k1 & ptr1 & off1 & s1 & E1 & K1 & F1 & O1 & P1 & Et1 & R1 & KP1 & _); [auto|].
  specialize (KP1 Kp).
  destruct R1 as [(-> & -> & B1)|(-> & X1 & R1)].
  - destruct (get_vint_ok B cap readOnly lz unlz sched Hcap Hlz HB bl sub HF s1 k a off1 n rest K1 (proj1 KP1)) as (k2 & ptr2 & off2 & s2 & E2 & K2 & F2 & O2 & P2 & Et2 & R2 & KP2 & _); [lia|auto|exact Et1|auto|].
    exists (Z.of_nat k, Some a, off1), s1, k2, ptr2, off2, s2. split; [auto|]. split; [auto|]. split; [auto|]. split; [eapply FR_trans; eauto|]. split; [auto|]. split; [auto|]. split; [auto|]. split.
    { rewrite P2. apply (tail_len bl _ _ rest); [lia|auto|]. destruct (enc_vint2 n); [cbn in Ln; lia|discriminate]. }
    destruct R2 as [(-> & -> & _)|(-> & _ & [(b & -> & T)|X])]; [left; auto|right; split; [auto|]; left; exists b; split; [auto|apply T]|right; auto].
  - destruct R1 as [(b & -> & T)|(X2 & X3)].
    2:{ exfalso. pose proof (tail_block B HB bl (S k) off1 (enc_vint2 n) rest HF) as X. assert (S k < length bl)%nat; [|lia]. apply X; try lia; auto. intros Y. rewrite Y in Ln. cbn in Ln. lia. }
    destruct (get_vint_ok B cap readOnly lz unlz sched Hcap Hlz HB bl sub HF s1 (S k) b off1 n rest K1 (proj2 T)) as (k2 & ptr2 & off2 & s2 & E2 & K2 & F2 & O2 & P2 & Et2 & R2 & _ & Same); [lia|auto|exact Et1|left; lia|].
    rewrite Same in * by lia.
    exists (Z.of_nat (S k), Some b, off1), s1, k2, ptr2, off2, s1. split; [auto|]. split; [auto|]. split; [auto|]. split; [auto|]. split; [auto|]. split; [auto|]. split; [auto|]. split.
    { rewrite P2. apply (tail_len bl _ _ rest); [lia|auto|]. destruct (enc_vint2 n); [cbn in Ln; lia|discriminate]. }
    assert (k2 = S k) by nia. subst k2. right. split; [auto|]. left.
    destruct R2 as [(_ & -> & X)|(X & _)]; [exists b; auto|lia].
Qed.

Lemma next_block s k off y tl : OK s bl sub -> (k < length bl)%nat -> 0 <= off <= B -> tail bl (Z.of_nat k * B + off) = y ++ tl -> B < off + zlength y -> zlength y <= B ->
  exists a s', get_block B cap readOnly lz unlz sched (Z.of_nat k + 1) s = Some (a, s') /\ OK s' bl sub /\ FR s s' /\
    copy s' (Some a) 0 (zlength y - (B - off)) = Some (skipn (Z.to_nat (B - off)) y).
Proof.
  intros K Hk Ho Et Hy Hy2. pose proof (tail_len bl (Z.of_nat k * B + off) y tl) as X.
  assert (X' : Z.of_nat k * B + off + zlength y <= total) by (apply X; auto; [lia|]; destruct y; [cbn in Hy; lia|discriminate]). clear X.
  pose proof (concat_len B bl HF) as Hc.
  assert (Hk1 : (S k < length bl)%nat) by nia.
  replace (Z.of_nat k + 1) with (Z.of_nat (S k)) by lia. destruct (get_block_fr s (S k) K Hk1) as (a & s1 & E1 & K1 & F1 & T1).
  exists a, s1. split; [auto|]. split; [auto|]. split; [auto|].
  replace (zlength y - (B - off)) with (zlength (skipn (Z.to_nat (B - off)) y)) by (rewrite skipn_length; lia).
  eapply copy_ok; [exact HB|exact HF|exact K1|apply T1|lia|rewrite skipn_length; lia|]. instantiate (1 := tl).
  replace (Z.of_nat (S k) * B + 0) with (Z.of_nat k * B + off + zlength (firstn (Z.to_nat (B - off)) y)) by (rewrite firstn_length; lia).
  apply tail_shift; [lia|]. rewrite app_assoc, firstn_skipn. auto.
Qed.

Lemma first_part s k a off y tl : OK s bl sub -> blk s k = Some (Some a) -> 0 <= off <= B -> tail bl (Z.of_nat k * B + off) = y ++ tl -> B < off + zlength y ->
  copy s (Some a) off (B - off) = Some (firstn (Z.to_nat (B - off)) y).
Proof.
  intros K Ha Ho Et Hy. replace (B - off) with (zlength (firstn (Z.to_nat (B - off)) y)) at 1 by (rewrite firstn_length; lia).
  eapply copy_ok; [exact HB|exact HF|exact K|exact Ha|lia|rewrite firstn_length; lia|]. instantiate (1 := skipn (Z.to_nat (B - off)) y ++ tl).
  rewrite app_assoc, firstn_skipn. auto.
Qed.

Lemma get_block_out s : OK s bl sub -> get_block B cap readOnly lz unlz sched (Z.of_nat (length bl)) s = None.
Proof.
  intros (q & C & _). unfold get_block. rewrite Nat2Z.id. pose proof (co_len _ _ _ _ _ _ _ C) as E.
  destruct (nth_error (c_blocks (s_cache s)) (length bl)) eqn:En; [apply nth_lt in En; lia|reflexivity].
Qed.
Lemma at_end k off y tl : (k = length bl)%nat -> 0 <= off -> tail bl (Z.of_nat k * B + off) = y ++ tl -> Z.of_nat k * B + off <= total -> y ++ tl = [] /\ total mod B = 0.
Proof.
  intros -> Ho Et Hp. pose proof (concat_len B bl HF) as Hc. assert (total = Z.of_nat (length bl) * B) by lia. split.
  - rewrite <- Et. unfold tail. apply skipn_all2. lia.
  - rewrite H. apply Z.mod_mul. lia.
Qed.

Lemma fin_get pre s k a off y tl : OK s bl sub -> blk s k = Some (Some a) -> 0 <= off <= B -> zlength y <= B ->
  tail bl (Z.of_nat k * B + off) = y ++ tl -> Z.of_nat k * B + off <= total ->
  let e := (do (i, p, off, s) <-
    (if off =? B then do (a, s) <- get_block B cap readOnly lz unlz sched (Z.of_nat k + 1) s; Some (Z.of_nat k + 1, Some a, 0, s) else Some (Z.of_nat k, Some a, off, s));
  if B <? off + zlength y then
    do x <- copy s p off (B - off);
    do (a, s) <- get_block B cap readOnly lz unlz sched (i + 1) s;
    do y <- copy s (Some a) 0 (zlength y - (B - off));
    Some (pre ++ x ++ y, s)
  else
    do x <- copy s p off (zlength y);
    Some (pre ++ x, s)) in
  (exists s', e = Some (pre ++ y, s') /\ OK s' bl sub /\ FR s s') \/ (e = None /\ y ++ tl = [] /\ total mod B = 0).
Proof.
  intros K Ha Ho Hy Et Hpos e. assert (Hk : (k < length bl)%nat). { destruct (OK_deref _ _ _ _ _ _ _ _ _ _ K Ha) as (c & Ec & _). eapply nth_lt; eauto. }
  pose proof (concat_len B bl HF) as Hc.
  assert (Hd : (off = B /\ S k = length bl) \/ (off = B -> (S k < length bl)%nat)) by lia. destruct Hd as [(Eo & El)|Hd].
  { right. unfold e. destruct (Z.eqb_spec off B); [|lia]. replace (Z.of_nat k + 1) with (Z.of_nat (length bl)) by lia. rewrite (get_block_out s K). split; [auto|].
    apply (at_end (S k) 0); [auto|lia|rewrite <- Et; f_equal; lia|lia]. }
  left. unfold e. clear e.
  assert (HS : exists k1 b off1 s1, (if off =? B then do (a, s) <- get_block B cap readOnly lz unlz sched (Z.of_nat k + 1) s; Some (Z.of_nat k + 1, Some a, 0, s) else Some (Z.of_nat k, Some a, off, s)) = Some (Z.of_nat k1, Some b, off1, s1) /\
    OK s1 bl sub /\ FR s s1 /\ blk s1 k1 = Some (Some b) /\ 0 <= off1 <= B /\ tail bl (Z.of_nat k1 * B + off1) = y ++ tl).
  { destruct (Z.eqb_spec off B) as [->|Hne].
    - assert (Hk1 : (S k < length bl)%nat) by auto.
      destruct (get_block_fr s (S k) K Hk1) as (b & s1 & E1 & K1 & F1 & T1). replace (Z.of_nat k + 1) with (Z.of_nat (S k)) by lia. rewrite E1.
      exists (S k), b, 0, s1. split; [auto|]. split; [auto|]. split; [auto|]. split; [apply T1|]. split; [lia|]. rewrite <- Et. f_equal. lia.
    - exists k, a, off, s. split; [auto|]. split; [auto|]. split; [apply FR_refl|]. auto. }
  destruct HS as (k1 & b & off1 & s1 & -> & K1 & F1 & Hb & Ho1 & Et1). cbv beta iota.
  assert (Hk1 : (k1 < length bl)%nat). { destruct (OK_deref _ _ _ _ _ _ _ _ _ _ K1 Hb) as (c & Ec & _). eapply nth_lt; eauto. }
  destruct (Z.ltb_spec B (off1 + zlength y)) as [Hc1|Hc1].
  - rewrite (first_part s1 k1 b off1 y tl K1 Hb Ho1 Et1 Hc1).
    destruct (next_block s1 k1 off1 y tl K1 Hk1 Ho1 Et1 Hc1 Hy) as (a2 & s2 & E2 & K2 & F2 & C2). rewrite E2, C2. exists s2. rewrite firstn_skipn. split; [auto|]. split; [auto|]. eapply FR_trans; eauto.
  - rewrite (copy_ok B cap readOnly lz sched HB bl sub HF s1 k1 b off1 y tl K1 Hb) by (auto; lia). exists s1. auto.
Qed.

Lemma get_ok s p x tl : OK s bl sub -> stored B bl p x tl ->
  (exists s', get B cap readOnly lz unlz sched p s = Some (x, s') /\ OK s' bl sub /\ FR s s') \/
  (get B cap readOnly lz unlz sched p s = None /\ tl = [] /\ total mod B = 0).
Proof.
  intros K (Hp & Hx & St). unfold get. replace (p - p / B * B) with (p mod B) by (rewrite Z.mod_eq by lia; lia).
  assert (Hsz : 0 <= zlength x < 2 ^ 21) by lia.
  destruct St as [Et|(n & pb & c & Hn & Hpb & Et & Hh & Ec & Esl)].
  - destruct (header s p (zlength x) 0 (x ++ tl) K (proj1 Hp) Hsz Et) as (k & a & s1 & k1 & b & off1 & s2 & Hk & E1 & E2 & E3 & K2 & F2 & KP & O2 & Et2 & _ & Hpos).
    rewrite E1. cbv beta iota. rewrite E2. cbv beta iota. rewrite E3. cbv beta iota. change (0 =? 1) with false. cbv beta iota.
    destruct (fin_get [] s2 k1 b (off1 + 1) x tl K2 (proj1 KP)) as [(s3 & E4 & K3 & F3)|(E4 & X1 & X2)]; auto; [lia| |right; cbv zeta; rewrite E4; apply app_eq_nil in X1; tauto].
    left. cbv zeta. rewrite E4. exists s3. split; [auto|]. split; [auto|]. eapply FR_trans; eauto.
  - destruct (header s p (zlength x) 1 _ K (proj1 Hp) Hsz Et) as (k & a & s1 & k1 & b & off1 & s2 & Hk & E1 & E2 & E3 & K2 & F2 & KP & O2 & Et2 & Hsame & Hpos).
    specialize (Hsame Hh). subst k1. rewrite E1. cbv beta iota. rewrite E2. cbv beta iota. rewrite E3. cbv beta iota. change (1 =? 1) with true. cbv beta iota.
    set (y := skipn (Z.to_nat n) x) in *.
    assert (Ly : zlength x - n = zlength y) by (unfold y; rewrite skipn_length; lia).
    assert (Ef : firstn (Z.to_nat n) x ++ y = x) by apply firstn_skipn.
    destruct (prefix_part s2 k b (off1 + 1) pb n (y ++ tl) K2 KP) as (r1 & s3 & k2 & ptr & off2 & s4 & E4 & E5 & K4 & F4 & KP4 & O4 & Et4 & Hpos4 & Hptr); [lia|lia|lia|exact Et2|].
    rewrite E4. cbv beta iota. rewrite E5. cbv beta iota. rewrite Hk in *. rewrite Nat2Z.id in Ec.
    assert (Cp : forall st d, OK st bl sub -> blk st k = Some (Some d) -> copy st (Some d) pb n = Some (firstn (Z.to_nat n) x)).
    { intros st d Kst Hd. unfold copy. destruct (Z.eqb_spec n 0); [lia|]. destruct (OK_deref _ _ _ _ _ _ _ _ _ _ Kst Hd) as (c' & Ec' & Ed). cbn [bytes_at]. rewrite Ed. congruence. }
    destruct Hptr as [(-> & ->)|(-> & Hptr)].
    + rewrite Z.eqb_refl. cbn [negb]. rewrite (Cp s4 b K4 (proj1 KP4)). rewrite Ly.
      destruct (fin_get (firstn (Z.to_nat n) x) s4 k b off2 y tl K4 (proj1 KP4)) as [(s5 & E6 & K5 & F5)|(E6 & X1 & X2)]; auto; [lia|lia| |right; cbv zeta beta iota; rewrite E6; apply app_eq_nil in X1; tauto].
      left. cbv zeta beta iota. rewrite E6, Ef. exists s5. split; [auto|]. split; [auto|]. eapply FR_trans; [eapply FR_trans; [exact F2|exact F4]|auto].
    + destruct (Z.eqb_spec (Z.of_nat k) (Z.of_nat (S k))); [lia|]. cbn [negb].
      assert (Hkl : (k < length bl)%nat) by (eapply nth_lt; eauto).
      destruct (get_block_fr s4 k K4 Hkl) as (a5 & s5 & E6 & K5 & F5 & T5). rewrite E6. rewrite (Cp s5 a5 K5 (proj2 T5)).
      destruct (Nat.eq_dec (S k) (length bl)) as [El|El].
      { right. rewrite El, (get_block_out s5 K5). destruct (at_end (S k) off2 y tl El) as (X1 & X2); auto; [lia|]. apply app_eq_nil in X1. tauto. }
      assert (Hk1 : (S k < length bl)%nat). { destruct Hptr as [(b2 & -> & Hb2)|(X & _)]; [|congruence]. destruct (OK_deref _ _ _ _ _ _ _ _ _ _ K4 Hb2) as (c' & Ec' & _). eapply nth_lt; eauto. }
      destruct (get_block_fr s5 (S k) K5 Hk1) as (a6 & s6 & E7 & K6 & F6 & T6). rewrite E7. rewrite Ly.
      destruct (fin_get (firstn (Z.to_nat n) x) s6 (S k) a6 off2 y tl K6 (proj2 T6)) as [(s7 & E8 & K7 & F7)|(E8 & X1 & X2)]; auto; [lia|lia| |right; cbv zeta beta iota; rewrite E8; apply app_eq_nil in X1; tauto].
      left. cbv zeta beta iota. rewrite E8, Ef. exists s7. split; [auto|]. split; [auto|].
      eapply FR_trans; [exact F2|]. eapply FR_trans; [exact F4|]. eapply FR_trans; [exact F5|]. eapply FR_trans; [exact F6|auto].
Qed.

(** The end of cmp, for the bytes [y] from a position on. *)
Lemma fin_cmp s k ptr off y tl string : OK s bl sub ->
  ((exists a, ptr = Some a /\ blk s k = Some (Some a)) \/ (k = length bl /\ y = [])) -> 0 <= off <= B -> zlength y <= B ->
  tail bl (Z.of_nat k * B + off) = y ++ tl ->
  exists d s', (if off + zlength y <=? B then
    do x <- copy s ptr off (zlength y);
    match cmp_loop x string 0 with
    | inl d => Some (d, s)
    | inr _ => Some (zlength y - zlength string, s)
    end
  else
    do x <- copy s ptr off (B - off);
    match cmp_loop x string 0 with
    | inl d => Some (d, s)
    | inr k0 =>
      do (a, s) <- get_block B cap readOnly lz unlz sched (Z.of_nat k + 1) s;
      do y0 <- copy s (Some a) 0 (zlength y - (B - off));
      match cmp_loop y0 (skipn (Z.to_nat k0) string) k0 with
      | inl d => Some (d, s)
      | inr _ => Some (zlength y - (B - off) - zlength string + k0, s)
      end
    end) = Some (d, s') /\ (d ?= 0) = lex y string /\ OK s' bl sub /\ FR s s'.
Proof.
  intros K Hptr Ho Hy Et. destruct (Z.leb_spec (off + zlength y) B) as [Hc|Hc].
  - assert (Ecp : copy s ptr off (zlength y) = Some y).
    { destruct Hptr as [(a & -> & Ha)|(-> & ->)]; [|reflexivity]. eapply copy_ok; eauto. lia. }
    rewrite Ecp. pose proof (cmp_loop_spec y string 0) as X. destruct (cmp_loop y string 0) as [d|m].
    + exists d, s. split; [auto|]. split; [|split; [auto|apply FR_refl]]. destruct X as (_ & X). specialize (X [] []). now rewrite !app_nil_r in X.
    + exists (zlength y - zlength string), s. split; [auto|]. split; [|split; [auto|apply FR_refl]]. symmetry. apply lex_len. apply X.
  - destruct Hptr as [(a & -> & Ha)|(-> & ->)]; [|cbn in Hc; lia].
    rewrite (first_part s k a off y tl K Ha Ho Et Hc).
    set (y1 := firstn (Z.to_nat (B - off)) y) in *. set (y2 := skipn (Z.to_nat (B - off)) y) in *.
    assert (Ey : y = y1 ++ y2) by (symmetry; apply firstn_skipn).
    assert (L1 : zlength y1 = B - off) by (unfold y1; rewrite firstn_length; lia).
    assert (L2 : zlength y2 = zlength y - (B - off)) by (unfold y2; rewrite skipn_length; lia).
    assert (Hk : (k < length bl)%nat). { destruct (OK_deref _ _ _ _ _ _ _ _ _ _ K Ha) as (c & Ec & _). eapply nth_lt; eauto. }
    pose proof (cmp_loop_spec y1 string 0) as X. destruct (cmp_loop y1 string 0) as [d|m].
    + exists d, s. split; [auto|]. split; [|split; [auto|apply FR_refl]]. destruct X as (_ & X). specialize (X y2 []). rewrite app_nil_r in X. now rewrite Ey.
    + destruct X as (Em & X). destruct (next_block s k off y tl K Hk Ho Et Hc Hy) as (a2 & s2 & E2 & K2 & F2 & C2). rewrite E2, C2. fold y2.
      rewrite Ey. destruct (same_prefix _ _ X) as [(L & E)|(L & E)].
      * replace (Z.to_nat m) with (length y1) by lia. set (r := skipn (length y1) string) in *.
        pose proof (cmp_loop_spec y2 r m) as Y. destruct (cmp_loop y2 r m) as [d|m2].
        -- exists d, s2. split; [auto|]. split; [|auto]. destruct Y as (_ & Y). specialize (Y [] []). rewrite !app_nil_r in Y. rewrite E. now rewrite lex_app.
        -- eexists _, s2. split; [reflexivity|]. split; [|auto]. rewrite E at 2. rewrite lex_app. rewrite (lex_len _ _ (proj2 Y)). f_equal. unfold r. rewrite skipn_length. rewrite app_length. lia.
      * rewrite (skipn_all2 string) by lia. assert (Ez : cmp_loop y2 [] m = inr m) by (destruct y2; reflexivity). rewrite Ez.
        eexists _, s2. split; [reflexivity|]. split; [|auto].
        assert (El : lex (y1 ++ y2) string = Gt).
        { assert (Hr : exists r0 r, y1 = string ++ r0 :: r).
          { destruct (skipn (length string) y1) as [|r0 r] eqn:Er; [|eauto]. assert (length (skipn (length string) y1) = 0%nat) by now rewrite Er. rewrite skipn_length in H. lia. }
          destruct Hr as (r0 & r & ->). rewrite <- app_assoc. replace (lex (string ++ (r0 :: r) ++ y2) string) with (lex (string ++ (r0 :: r) ++ y2) (string ++ [])) by now rewrite app_nil_r.
          rewrite lex_app. reflexivity. }
        rewrite El. rewrite app_length. match goal with |- (?v ?= 0) = _ => destruct (Z.compare_spec v 0); auto; lia end.
Qed.

Lemma cmp_ok s p x tl string : OK s bl sub -> stored B bl p x tl ->
  exists d s', cmp B cap readOnly lz unlz sched p string s = Some (d, s') /\ (d ?= 0) = lex x string /\ OK s' bl sub /\ FR s s'.
Proof.
  intros K (Hp & Hx & St). unfold cmp.
  assert (Hsz : 0 <= zlength x < 2 ^ 21) by lia.
  destruct St as [Et|(n & pb & c & Hn & Hpb & Et & Hh & Ec & Esl)].
  - destruct (header s p (zlength x) 0 (x ++ tl) K (proj1 Hp) Hsz Et) as (k & a & s1 & k1 & b & off1 & s2 & Hk & E1 & E2 & E3 & K2 & F2 & KP & O2 & Et2 & _ & Hpos).
    rewrite E1. cbv beta iota. rewrite E2. cbv beta iota. rewrite E3. cbv beta iota. change (0 =? 1) with false. cbv beta iota. change (negb (0 =? 0)) with false. cbv beta iota zeta.
    destruct (fin_cmp s2 k1 (Some b) (off1 + 1) x tl string K2) as (d & s3 & E4 & E5 & K3 & F3); auto; [left; exists b; split; auto; apply KP|lia|].
    rewrite E4. exists d, s3. split; [auto|]. split; [auto|]. split; [auto|]. eapply FR_trans; eauto.
  - destruct (header s p (zlength x) 1 _ K (proj1 Hp) Hsz Et) as (k & a & s1 & k1 & b & off1 & s2 & Hk & E1 & E2 & E3 & K2 & F2 & KP & O2 & Et2 & Hsame & Hpos).
    specialize (Hsame Hh). subst k1. rewrite E1. cbv beta iota. rewrite E2. cbv beta iota. rewrite E3. cbv beta iota. change (1 =? 1) with true. cbv beta iota.
    set (y := skipn (Z.to_nat n) x) in *.
    assert (Ly : zlength x - n = zlength y) by (unfold y; rewrite skipn_length; lia).
    assert (Ef : firstn (Z.to_nat n) x ++ y = x) by apply firstn_skipn.
    destruct (prefix_part s2 k b (off1 + 1) pb n (y ++ tl) K2 KP) as (r1 & s3 & k2 & ptr & off2 & s4 & E4 & E5 & K4 & F4 & KP4 & O4 & Et4 & Hpos4 & Hptr); [lia|lia|lia|exact Et2|].
    rewrite E4. cbv beta iota. rewrite E5. cbv beta iota. rewrite Hk in *. rewrite Nat2Z.id in Ec.
    assert (Cp : copy s4 (Some b) pb n = Some (firstn (Z.to_nat n) x)).
    { unfold copy. destruct (Z.eqb_spec n 0); [lia|]. destruct (OK_deref _ _ _ _ _ _ _ _ _ _ K4 (proj1 KP4)) as (c' & Ec' & Ed). cbn [bytes_at]. rewrite Ed. congruence. }
    assert (Hq : (if negb (Z.of_nat k =? Z.of_nat k2) then nth_error (c_blocks (s_cache s4)) (Z.to_nat (Z.of_nat k)) else Some ptr) = Some (Some b)).
    { destruct (Z.eqb_spec (Z.of_nat k) (Z.of_nat k2)) as [E|E]; cbn [negb].
      - destruct Hptr as [(_ & ->)|(-> & _)]; [auto|lia].
      - rewrite Nat2Z.id. apply KP4. }
    rewrite Hq. cbv beta iota. rewrite Cp. cbv beta iota. rewrite Ly.
    destruct (prefix_equals_spec (firstn (Z.to_nat n) x) string) as [(P1 & r & P2)|(P1 & P2)].
    + rewrite P1. change (negb (0 =? 0)) with false. cbv beta iota zeta.
      assert (Es : skipn (Z.to_nat n) string = r).
      { rewrite P2, skipn_app, skipn_all2 by (rewrite firstn_length; lia). rewrite firstn_length. replace (Z.to_nat n - Nat.min (Z.to_nat n) (length x))%nat with 0%nat by lia. reflexivity. }
      rewrite Es.
      destruct (fin_cmp s4 k2 ptr off2 y tl r K4) as (d & s5 & E6 & E7 & K5 & F5); auto; [|lia|lia|].
      { destruct Hptr as [(-> & ->)|(-> & [(b2 & -> & Hb2)|(X1 & X2)])]; [left; exists b; split; auto; apply KP4|left; eauto|]. right. split; [auto|].
        destruct y as [|y0 y']; [auto|]. exfalso. pose proof (tail_block B HB bl (S k) off2 (y0 :: y') tl HF) as X. assert (S k < length bl)%nat; [|lia]. apply X; auto; try lia. discriminate. }
      rewrite E6. exists d, s5. split; [auto|]. split; [rewrite E7, P2; rewrite <- Ef at 1; now rewrite lex_app|]. split; [auto|]. eapply FR_trans; [eapply FR_trans; [exact F2|exact F4]|auto].
    + destruct (Z.eqb_spec (prefix_equals (firstn (Z.to_nat n) x) string) 0) as [X|X]; [congruence|]. cbn [negb].
      eexists _, s4. split; [reflexivity|]. split; [rewrite <- Ef at 2; symmetry; apply P2|]. split; [auto|]. eapply FR_trans; eauto.
Qed.
End Read.
