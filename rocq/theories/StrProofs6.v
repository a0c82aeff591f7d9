(** The string buffer: append. *)
From Verif Require Import TableProofs ColumnProofs StrSpec StrProofs StrProofs2 StrProofs3 StrProofs4 StrProofs5.
From Coq Require Import ZifyBool Permutation.
Local Open Scope Z_scope.

Lemma vint_len v : 0 <= v < 2 ^ 21 -> (1 <= length (enc_vint2 v) <= 3)%nat.
Proof.
  intros H. unfold enc_vint2. cbn [encv]. destruct (Z.ltb_spec v 128); [cbn; lia|]. cbn [length].
  destruct (Z.ltb_spec (v / 128) 128); [cbn; lia|]. cbn [length].
  destruct (Z.ltb_spec (v / 128 / 128) 128); [cbn; lia|]. exfalso. assert (v / 128 / 128 < 128) by (do 2 (apply Z.div_lt_upper_bound; [lia|]); lia). lia.
Qed.

Definition tail (bl : list (list Z)) (p : Z) : list Z := skipn (Z.to_nat p) (concat bl).

Lemma concat_snoc {A} (l : list (list A)) x : concat (l ++ [x]) = concat l ++ x.
Proof. rewrite concat_app. cbn. now rewrite app_nil_r. Qed.

Definition Ext (bl bl' : list (list Z)) : Prop :=
  (exists x, concat bl' = concat bl ++ x) /\ forall i c, nth_error bl i = Some c -> exists y, nth_error bl' i = Some (c ++ y).

Lemma Ext_trans a b c : Ext a b -> Ext b c -> Ext a c.
Proof.
  intros ((x & Hx) & H1) ((y & Hy) & H2). split; [exists (x ++ y); now rewrite Hy, Hx, app_assoc|].
  intros i d Hd. destruct (H1 _ _ Hd) as (u & Hu). destruct (H2 _ _ Hu) as (w & Hw). exists (u ++ w). now rewrite app_assoc.
Qed.
Lemma Ext_refl a : Ext a a.
Proof. split; [exists []; now rewrite app_nil_r|]. intros i c H. exists []. now rewrite app_nil_r. Qed.

Lemma Ext_push init c bs : Ext (init ++ [c]) (init ++ [c ++ bs]).
Proof.
  split; [exists bs; now rewrite !concat_snoc, app_assoc|]. intros i d H. destruct (nth_snoc _ _ _ _ H) as [(H1 & H2)|(H1 & H2)].
  - exists []. rewrite app_nil_r, nth_error_app1; auto.
  - subst. exists bs. apply nth_snoc_last.
Qed.
Lemma Ext_snoc bl c : Ext bl (bl ++ [c]).
Proof. split; [exists c; now rewrite concat_snoc|]. intros i d H. exists []. rewrite app_nil_r, nth_error_app1; auto. eapply nth_lt; eauto. Qed.

Section Append.
Variables B cap : Z.
Variable lz : list Z -> list Z.
Variable sched : nat -> nat.
Hypothesis Hcap : 5 <= cap.
Hypothesis HB : 16 <= B <= 2 ^ 20.

Definition Base (w : wr) (c : list Z) : Prop := 0 <= w_posBase w < B + 1 /\ 0 <= w_sizeBase w /\ (0 < w_sizeBase w -> w_posBase w + w_sizeBase w <= zlength c).
Record WI (s : sb) (init : list (list Z)) (c : list Z) : Prop := {
  wi_wc : exists q, WC cap lz s (init ++ [c]) q;
  wi_full : Forall (fun d => zlength d = B) init;
  wi_last : zlength c <= B;
  wi_size : s_usize s = zlength (concat (init ++ [c]));
  wi_base : Base (s_wr s) c }.

Lemma wi_wpos s init c : WI s init c -> wpos s = Some (zlength c).
Proof. intros [(q & W) _ _ _ _]. unfold wpos. now rewrite (wpos_wc _ _ _ _ _ _ W). Qed.

Lemma push_wi s init c bs : WI s init c -> zlength c + zlength bs <= B ->
  exists s', push B bs s = Some s' /\ WI s' init (c ++ bs) /\ s_wr s' = s_wr s.
Proof.
  intros [(q & W) F L U Ba] H. destruct (push_wc B cap lz s init c q bs W H) as (s' & E & W' & E1 & E2). exists s'. split; [auto|]. split; [|auto].
  constructor; eauto.
  - rewrite app_length. lia.
  - rewrite E2, U, !concat_snoc, !app_length. lia.
  - rewrite E1. destruct Ba as (B1 & B2 & B3). repeat split; auto; try lia. intros X. specialize (B3 X). rewrite app_length. lia.
Qed.

Lemma compress_wi s init c : WI s init c -> zlength c = B ->
  exists s' a, compress_last cap false lz sched s = Some s' /\ WI s' (init ++ [c]) [] /\ s_wr s' = mkWr a (w_posBase (s_wr s)) 0 0 (w_matched (s_wr s)).
Proof.
  intros [(q & W) F L U Ba] H. destruct (compress_wc cap lz sched Hcap s init c q W) as (s' & q' & a & E & W' & E1 & E2). exists s', a. split; [auto|]. split; [|auto].
  constructor; eauto.
  - apply Forall_app. split; auto.
  - cbn. lia.
  - rewrite E2, U, (concat_snoc (init ++ [c])), app_nil_r. reflexivity.
  - rewrite E1. destruct Ba as (B1 & B2 & B3). unfold Base. cbn [w_posBase w_sizeBase]. repeat split; try lia.
Qed.

(** Where the bytes go. *)
Definition crosses (c bs : list Z) : bool := B <? zlength c + zlength bs.
Definition fill_i (init : list (list Z)) (c bs : list Z) : list (list Z) := if crosses c bs then init ++ [c ++ firstn (Z.to_nat (B - zlength c)) bs] else init.
Definition fill_c (c bs : list Z) : list Z := if crosses c bs then skipn (Z.to_nat (B - zlength c)) bs else c ++ bs.

Lemma fill_ext init c bs : Ext (init ++ [c]) (fill_i init c bs ++ [fill_c c bs]).
Proof.
  unfold fill_i, fill_c. destruct (crosses c bs); [|apply Ext_push]. eapply Ext_trans; [|apply Ext_snoc]. apply Ext_push.
Qed.
Lemma fill_concat init c bs : concat (fill_i init c bs ++ [fill_c c bs]) = concat (init ++ [c]) ++ bs.
Proof.
  unfold fill_i, fill_c. destruct (crosses c bs).
  - rewrite !concat_snoc, <- !app_assoc. now rewrite firstn_skipn.
  - now rewrite !concat_snoc, app_assoc.
Qed.

Lemma fill_ne c bs : zlength c <= B -> c <> [] -> fill_c c bs <> [].
Proof.
  unfold fill_c, crosses. intros Hc H. destruct (Z.ltb_spec B (zlength c + zlength bs)) as [L|L]; [|destruct c; [congruence|discriminate]].
  intros X. assert (Y : length (skipn (Z.to_nat (B - zlength c)) bs) = 0%nat) by now rewrite X. rewrite skipn_length in Y. lia.
Qed.
Definition after (s s' : sb) (c bs : list Z) : Prop :=
  if crosses c bs then exists a, s_wr s' = mkWr a (w_posBase (s_wr s)) 0 0 (w_matched (s_wr s)) else s_wr s' = s_wr s.

Lemma write_cross s init c bs : WI s init c -> zlength bs <= B -> crosses c bs = true ->
  exists s', (do s <- push B (firstn (Z.to_nat (B - zlength c)) bs) s; do s <- compress_last cap false lz sched s; push B (skipn (Z.to_nat (B - zlength c)) bs) s) = Some s' /\
    WI s' (fill_i init c bs) (fill_c c bs) /\ after s s' c bs.
Proof.
  intros W Hb Hc. pose proof (wi_last _ _ _ W) as HL. unfold fill_i, fill_c, after. rewrite Hc. unfold crosses in Hc.
  destruct (push_wi s init c (firstn (Z.to_nat (B - zlength c)) bs) W) as (s1 & E1 & W1 & R1); [rewrite firstn_length; lia|]. rewrite E1.
  destruct (compress_wi _ _ _ W1) as (s2 & a & E2 & W2 & R2); [rewrite app_length, firstn_length; lia|]. rewrite E2.
  destruct (push_wi s2 _ [] (skipn (Z.to_nat (B - zlength c)) bs) W2) as (s3 & E3 & W3 & R3); [rewrite skipn_length; cbn; lia|]. rewrite E3.
  exists s3. split; [auto|]. split; [exact W3|]. exists a. rewrite R3, R2, R1. reflexivity.
Qed.

Lemma write_bytes_ok s init c bs : WI s init c -> zlength bs <= B ->
  exists s', write_bytes B cap false lz sched bs s = Some s' /\ WI s' (fill_i init c bs) (fill_c c bs) /\ after s s' c bs.
Proof.
  intros W Hb. unfold write_bytes. rewrite (wi_wpos _ _ _ W). cbv beta iota zeta. destruct (Z.leb_spec (zlength bs) (B - zlength c)) as [H|H].
  - assert (Hc : crosses c bs = false) by (unfold crosses; lia). unfold fill_i, fill_c, after. rewrite Hc.
    destruct (push_wi s init c bs W) as (s1 & E1 & W1 & R1); [lia|]. exists s1. auto.
  - apply write_cross; auto. unfold crosses. lia.
Qed.

Lemma write_vint_ok s init c n : WI s init c -> 0 <= n < 2 ^ 21 ->
  exists s', write_vint B cap false lz sched n s = Some s' /\ WI s' (fill_i init c (enc_vint2 n)) (fill_c c (enc_vint2 n)) /\ after s s' c (enc_vint2 n).
Proof.
  intros W Hn. pose proof (vint_len n Hn) as Hv. unfold write_vint. rewrite (wi_wpos _ _ _ W). cbv beta iota zeta.
  destruct ((B - zlength c <? 4) && (B - zlength c <? zlength (enc_vint2 n))) eqn:E.
  - destruct (Z.ltb_spec 4 (zlength (enc_vint2 n))); [lia|]. apply write_cross; auto; [lia|]. unfold crosses. lia.
  - assert (Hc : crosses c (enc_vint2 n) = false) by (unfold crosses; lia). unfold fill_i, fill_c, after. rewrite Hc.
    destruct (push_wi s init c (enc_vint2 n) W) as (s1 & E1 & W1 & R1); [lia|]. exists s1. auto.
Qed.

(** The record of a string. *)
Definition stored (bl : list (list Z)) (p : Z) (x tl : list Z) : Prop :=
  0 <= p <= zlength (concat bl) /\ zlength x <= B /\
  (tail bl p = enc_vint2 (zlength x) ++ [0] ++ x ++ tl \/
   exists n pb c, 0 < n <= zlength x /\ 0 <= pb < 2 ^ 21 /\
     tail bl p = enc_vint2 (zlength x) ++ [1] ++ enc_vint2 pb ++ enc_vint2 n ++ skipn (Z.to_nat n) x ++ tl /\
     p mod B + zlength (enc_vint2 (zlength x)) + 1 <= B /\ nth_error bl (Z.to_nat (p / B)) = Some c /\ slice c pb n = Some (firstn (Z.to_nat n) x)).

Lemma slice_app c d off n x : slice c off n = Some x -> slice (c ++ d) off n = Some x.
Proof.
  unfold slice. rewrite app_length. destruct (_ && _) eqn:E; [|discriminate]. intros H. injection H as <-.
  destruct ((0 <=? off) && (0 <=? n) && (off + n <=? Z.of_nat (length c + length d))) eqn:E2; [|lia].
  f_equal. rewrite skipn_app, firstn_app. rewrite skipn_length. replace (Z.to_nat n - (length c - Z.to_nat off))%nat with O by lia. cbn [firstn]. apply app_nil_r.
Qed.

Lemma stored_ext bl bl' p x tl y : stored bl p x tl -> Ext bl bl' -> concat bl' = concat bl ++ y -> stored bl' p x (tl ++ y).
Proof.
  intros (H1 & H2 & H3) (E1 & E2) E. split; [rewrite E, app_length; lia|]. split; [auto|].
  assert (Et : tail bl' p = tail bl p ++ y).
  { unfold tail. rewrite E, skipn_app. replace (Z.to_nat p - length (concat bl))%nat with O by lia. reflexivity. }
  rewrite Et. destruct H3 as [H3|(n & pb & c & Hn & Hp & H3 & H4 & H5 & H6)].
  - left. rewrite H3, <- !app_assoc. reflexivity.
  - right. destruct (E2 _ _ H5) as (z & Hz). exists n, pb, (c ++ z). split; [auto|]. split; [auto|]. split; [rewrite H3, <- !app_assoc; reflexivity|].
    split; [auto|]. split; [auto|]. now apply slice_app.
Qed.

Lemma common_spec a : forall b, 0 <= common a b <= Z.min (zlength a) (zlength b) /\ firstn (Z.to_nat (common a b)) a = firstn (Z.to_nat (common a b)) b.
Proof.
  induction a as [|x a IH]; intros [|y b]; cbn [common]; try (cbn; split; [lia|reflexivity]).
  destruct (Z.eqb_spec x y) as [->|]; [|cbn; split; [lia|reflexivity]]. destruct (IH b) as (H1 & H2). cbn [length]. split; [lia|].
  replace (Z.to_nat (1 + common a b)) with (S (Z.to_nat (common a b))) by lia. cbn [firstn]. now rewrite H2.
Qed.

Lemma concat_full (init : list (list Z)) : Forall (fun d => zlength d = B) init -> zlength (concat init) = zlength init * B.
Proof. induction init as [|d r IH]; intros H; [reflexivity|]. inversion H; subst. cbn [concat length]. rewrite app_length. specialize (IH H3). lia. Qed.

Lemma tail_all bl y bl' : concat bl' = concat bl ++ y -> tail bl' (zlength (concat bl)) = y.
Proof. intros E. unfold tail. rewrite E, Nat2Z.id, skipn_app, skipn_all, Nat.sub_diag. reflexivity. Qed.

Lemma append_wi s init c x : WI s init c -> zlength x <= B ->
  exists s' init' c' rec, append B cap false lz sched x s = Some s' /\ WI s' init' c' /\ rec <> [] /\ c' <> [] /\
    concat (init' ++ [c']) = concat (init ++ [c]) ++ rec /\ Ext (init ++ [c]) (init' ++ [c']) /\ stored (init' ++ [c']) (s_usize s) x [].
Proof.
  intros W Hx. unfold append.
  assert (Hsz : 0 <= zlength x < 2 ^ 21) by lia. set (v := enc_vint2 (zlength x)) in *.
  pose proof (vint_len _ Hsz) as Hv. fold v in Hv.
  destruct (write_vint_ok s init c _ W Hsz) as (s1 & E1 & W1 & A1). rewrite E1. fold v in W1, A1.
  pose proof (fill_ext init c v) as X1. pose proof (fill_concat init c v) as K1.
  set (i1 := fill_i init c v) in *. set (c1 := fill_c c v) in *.
  rewrite (wi_wpos _ _ _ W1). cbv beta iota.
  pose proof (wi_last _ _ _ W) as HLc. pose proof (wi_last _ _ _ W1) as HLc1.
  (* the flag's block *)
  assert (H2 : exists s2 i2 c2, (if B - zlength c1 =? 0 then compress_last cap false lz sched s1 else Some s1) = Some s2 /\ WI s2 i2 c2 /\ zlength c2 < B /\
    Ext (i1 ++ [c1]) (i2 ++ [c2]) /\ concat (i2 ++ [c2]) = concat (i1 ++ [c1]) /\
    (w_sizeBase (s_wr s2) = 0 \/ (s2 = s1 /\ i2 = i1 /\ c2 = c1 /\ crosses c v = false))).
  { destruct (Z.eqb_spec (B - zlength c1) 0) as [E|E].
    - destruct (compress_wi _ _ _ W1) as (s2 & a & E2 & W2 & R2); [lia|]. exists s2, (i1 ++ [c1]), []. split; [auto|]. split; [auto|]. split; [cbn; lia|].
      split; [apply Ext_snoc|]. split; [rewrite (concat_snoc (i1 ++ [c1])); apply app_nil_r|]. left. rewrite R2. reflexivity.
    - exists s1, i1, c1. split; [auto|]. split; [auto|]. split; [lia|]. split; [apply Ext_refl|]. split; [auto|].
      unfold after in A1. destruct (crosses c v); [left; destruct A1 as (a & ->); reflexivity|right; auto]. }
  destruct H2 as (s2 & i2 & c2 & -> & W2 & Lc2 & X2 & K2 & Hbase). cbv beta iota.
  (* the prefix *)
  assert (Hn : exists n, calc_prefix (w_cur (s_wr s)) x s2 = Some n /\ (n = 0 \/ (0 < n <= zlength x /\ s2 = s1 /\ i2 = i1 /\ c2 = c1 /\ crosses c v = false /\
      slice c2 (w_posBase (s_wr s2)) n = Some (firstn (Z.to_nat n) x)))).
  { unfold calc_prefix. destruct ((0 <? zlength x) && (w_entries (s_wr s2) <? 1024)); [|exists 0; auto].
    destruct Hbase as [Hb|(-> & -> & -> & Hcr)].
    - rewrite Hb. cbn [Z.ltb Z.compare]. cbn [common]. exists 0. cbn [andb]. auto.
    - destruct (Z.ltb_spec 0 (w_sizeBase (s_wr s1))) as [Hs|Hs].
      + unfold after in A1. rewrite Hcr in A1. rewrite <- A1.
        destruct (wi_wc _ _ _ W1) as (q1 & WC1). rewrite (wpos_wc _ _ _ _ _ _ WC1).
        destruct (wi_base _ _ _ W1) as (B1 & B2 & B3). specialize (B3 Hs).
        assert (Hsl : slice c1 (w_posBase (s_wr s1)) (w_sizeBase (s_wr s1)) = Some (firstn (Z.to_nat (w_sizeBase (s_wr s1))) (skipn (Z.to_nat (w_posBase (s_wr s1))) c1))).
        { unfold slice. destruct (_ && _) eqn:E; [auto|lia]. }
        rewrite Hsl. set (base := firstn _ (skipn _ c1)). pose proof (common_spec base x) as (C1 & C2).
        destruct ((4 <? common base x) && (w_matched (s_wr s1) <=? common base x)) eqn:E; [|eexists; split; [reflexivity|auto]].
        eexists; split; [reflexivity|]. right. split; [lia|]. split; [auto|]. split; [auto|]. split; [auto|]. split; [auto|].
        assert (Lb : length base = Z.to_nat (w_sizeBase (s_wr s1))) by (unfold base; rewrite firstn_length, skipn_length; lia).
        rewrite <- C2. unfold slice. destruct ((0 <=? w_posBase (s_wr s1)) && (0 <=? common base x) && (w_posBase (s_wr s1) + common base x <=? zlength c1)) eqn:E3; [|lia].
        f_equal. assert (Eb : forall k : nat, (k <= length base)%nat -> firstn k base = firstn k (skipn (Z.to_nat (w_posBase (s_wr s1))) c1)) by (intros k Hk; unfold base; rewrite firstn_firstn; f_equal; lia). rewrite Eb by lia. reflexivity.
      + exists 0. cbn [common andb Z.ltb Z.compare]. auto. }
  destruct Hn as (n & -> & Hn). cbv beta iota.
  pose proof (wi_size _ _ _ W) as HU.
  destruct (Z.eqb_spec n 0) as [En|En].
  - destruct (push_wi s2 i2 c2 [0] W2) as (s3 & E3 & W3 & R3); [cbn; lia|]. rewrite E3. rewrite (wi_wpos _ _ _ W3). cbv beta iota.
    set (sa := set_wr s3 (mkWr (w_cur (s_wr s3)) (zlength (c2 ++ [0])) (zlength x) 0 0)).
    assert (Hw : exists s', write_bytes B cap false lz sched x sa = Some s' /\ WI s' (fill_i i2 (c2 ++ [0]) x) (fill_c (c2 ++ [0]) x)).
    { pose proof W3 as W3'. destruct W3' as [(q & WC3) F3 L3 U3 Ba3].
      assert (WCa : WC cap lz sa (i2 ++ [c2 ++ [0]]) q).
      { destruct WC3 as [C M P X A]. constructor; auto. destruct C as [k1 k2 k3 k4 k5 k6 k7 k8 k9 k10 k11]. constructor; auto. }
      unfold write_bytes, wpos. rewrite (wpos_wc _ _ _ _ _ _ WCa). cbv beta iota zeta.
      destruct (Z.leb_spec (zlength x) (B - zlength (c2 ++ [0]))) as [H|H].
      - assert (Hc : crosses (c2 ++ [0]) x = false) by (unfold crosses; lia). unfold fill_i, fill_c. rewrite Hc.
        destruct (push_wc B cap lz sa i2 (c2 ++ [0]) q x WCa) as (s4 & E4 & W4 & R4 & U4); [lia|]. exists s4. split; [auto|]. constructor; eauto.
        + rewrite app_length. lia.
        + rewrite U4. unfold sa; cbn [set_wr s_usize]. rewrite U3, !concat_snoc, !app_length. lia.
        + rewrite R4. unfold Base, sa. cbn [set_wr s_wr w_posBase w_sizeBase]. rewrite !app_length in *. cbn [length] in *. lia.
      - assert (Hc : crosses (c2 ++ [0]) x = true) by (unfold crosses; lia). unfold fill_i, fill_c. rewrite Hc.
        set (rem := Z.to_nat (B - zlength (c2 ++ [0]))).
        destruct (push_wc B cap lz sa i2 (c2 ++ [0]) q (firstn rem x) WCa) as (s4 & E4 & W4 & R4 & U4); [rewrite firstn_length; lia|]. rewrite E4.
        destruct (compress_wc cap lz sched Hcap s4 i2 _ q W4) as (s5 & q5 & a & E5 & W5 & R5 & U5). rewrite E5.
        destruct (push_wc B cap lz s5 _ [] q5 (skipn rem x) W5) as (s6 & E6 & W6 & R6 & U6); [rewrite skipn_length; cbn; lia|]. rewrite E6.
        exists s6. split; [auto|]. constructor; eauto.
        + apply Forall_app. split; auto. constructor; auto. rewrite app_length, firstn_length. unfold rem. lia.
        + rewrite skipn_length. lia.
        + rewrite U6, U5, U4. unfold sa; cbn [set_wr s_usize]. rewrite U3. rewrite !concat_snoc, !app_length. lia.
        + rewrite R6, R5, R4. unfold Base, sa. cbn [set_wr s_wr w_posBase w_sizeBase]. rewrite !app_length in *. cbn [length] in *. lia. }
    destruct Hw as (s' & Ew & W'). exists s', (fill_i i2 (c2 ++ [0]) x), (fill_c (c2 ++ [0]) x), (v ++ [0] ++ x).
    assert (Kx : concat (fill_i i2 (c2 ++ [0]) x ++ [fill_c (c2 ++ [0]) x]) = concat (init ++ [c]) ++ v ++ [0] ++ x).
    { rewrite fill_concat, concat_snoc. rewrite (app_assoc (concat i2)). rewrite <- (concat_snoc i2), K2, K1, <- !app_assoc. reflexivity. }
    split; [exact Ew|]. split; [auto|]. split; [destruct v; discriminate|]. split; [apply fill_ne; [exact (wi_last _ _ _ W3)|destruct c2; discriminate]|]. split; [exact Kx|]. split.
    { eapply Ext_trans; [exact X1|]. eapply Ext_trans; [exact X2|]. eapply Ext_trans; [apply (Ext_push _ _ [0])|]. apply fill_ext. }
    split; [rewrite HU, Kx, app_length; lia|]. split; [auto|]. left. rewrite HU. rewrite (tail_all _ _ _ Kx). now rewrite app_nil_r.
  - destruct Hn as [Hn|(Hn & -> & -> & -> & Hcr & Hsl)]; [lia|].
    assert (Ec1 : c1 = c ++ v) by (unfold c1, fill_c; rewrite Hcr; reflexivity).
    assert (Ei1 : i1 = init) by (unfold i1, fill_i; rewrite Hcr; reflexivity).
    destruct (push_wi s1 i1 c1 [1] W2) as (s3 & E3 & W3 & R3); [cbn; lia|]. rewrite E3.
    set (pb := w_posBase (s_wr s1)) in *. rewrite R3. fold pb.
    assert (Hpb : 0 <= pb < 2 ^ 21) by (destruct (wi_base _ _ _ W1) as (X & _); unfold pb; lia).
    destruct (write_vint_ok s3 i1 (c1 ++ [1]) pb W3 Hpb) as (s4 & E4 & W4 & A4). rewrite E4.
    set (i4 := fill_i i1 (c1 ++ [1]) (enc_vint2 pb)) in *. set (c4 := fill_c (c1 ++ [1]) (enc_vint2 pb)) in *.
    destruct (write_vint_ok s4 i4 c4 n W4) as (s5 & E5 & W5 & A5); [lia|]. rewrite E5.
    set (i5 := fill_i i4 c4 (enc_vint2 n)) in *. set (c5 := fill_c c4 (enc_vint2 n)) in *.
    assert (W6 : WI (set_wr s5 (mkWr (w_cur (s_wr s5)) (w_posBase (s_wr s5)) (w_sizeBase (s_wr s5)) (w_entries (s_wr s5) + 1) n)) i5 c5).
    { destruct W5 as [(q & WC3) F3 L3 U3 Ba3]. constructor; auto.
      exists q. destruct WC3 as [C M P X A]. constructor; auto. destruct C as [k1 k2 k3 k4 k5 k6 k7 k8 k9 k10 k11]. constructor; auto. }
    destruct (write_bytes_ok _ i5 c5 (skipn (Z.to_nat n) x) W6) as (s7 & E7 & W7 & A7); [rewrite skipn_length; lia|]. cbv zeta. rewrite E7.
    set (i7 := fill_i i5 c5 (skipn (Z.to_nat n) x)) in *. set (c7 := fill_c c5 (skipn (Z.to_nat n) x)) in *.
    set (rec := v ++ [1] ++ enc_vint2 pb ++ enc_vint2 n ++ skipn (Z.to_nat n) x).
    exists s7, i7, c7, rec.
    assert (Kx : concat (i7 ++ [c7]) = concat (init ++ [c]) ++ rec).
    { unfold i7, c7. rewrite fill_concat. unfold i5, c5. rewrite fill_concat. unfold i4, c4. rewrite fill_concat. rewrite Ei1, Ec1. unfold rec.
      rewrite !concat_snoc, <- !app_assoc. reflexivity. }
    assert (Xx : Ext (c1 :: []) (c1 :: []) /\ Ext (i1 ++ [c1]) (i7 ++ [c7])).
    { split; [apply Ext_refl|]. eapply Ext_trans; [apply (Ext_push _ _ [1])|]. eapply Ext_trans; [apply (fill_ext _ _ (enc_vint2 pb))|].
      eapply Ext_trans; [apply (fill_ext _ _ (enc_vint2 n))|]. apply fill_ext. }
    destruct Xx as (_ & Xx).
    split; [auto|]. split; [auto|]. split; [unfold rec; destruct v; discriminate|]. split; [apply fill_ne; [exact (wi_last _ _ _ W5)|]; apply fill_ne; [exact (wi_last _ _ _ W4)|]; apply fill_ne; [exact (wi_last _ _ _ W3)|]; destruct c1; discriminate|]. split; [auto|]. split; [eapply Ext_trans; eauto|].
    pose proof (wi_full _ _ _ W) as HF. pose proof (concat_full _ HF) as HFl.
    assert (Hlt : zlength c < B). { rewrite Ec1, app_length in Lc2. lia. }
    assert (Hpos : s_usize s = zlength init * B + zlength c) by (rewrite HU, concat_snoc, app_length; lia).
    assert (Hdiv : s_usize s / B = zlength init). { symmetry. apply (Z.div_unique _ _ _ (zlength c)); lia. }
    assert (Hmod : s_usize s mod B = zlength c). { symmetry. apply (Z.mod_unique _ _ (zlength init)); lia. }
    split; [rewrite HU, Kx, app_length; lia|]. split; [auto|]. right.
    destruct (proj2 Xx (length init) c1) as (z & Hz). { rewrite Ei1. apply nth_snoc_last. }
    exists n, pb, (c1 ++ z). split; [auto|]. split; [auto|]. split. { rewrite HU, (tail_all _ _ _ Kx). unfold rec. rewrite app_nil_r. reflexivity. }
    fold v. split. { rewrite Hmod. rewrite Ec1, app_length in Lc2. lia. }
    split; [rewrite Hdiv, Nat2Z.id; auto|]. now apply slice_app.
Qed.
End Append.
