(** Proofs about growable files and the storage of tables. *)
From Verif Require Import ItrProofs TableSpec TableProofs FileModel FileSpec.
Local Open Scope Z_scope.
Ltac Zify.zify_post_hook ::= Z.div_mod_to_equations.

Lemma zlen_app {A} (a b : list A) : zlen (a ++ b) = zlen a + zlen b.
Proof. unfold zlen. rewrite app_length. lia. Qed.
Lemma zlen_nonneg {A} (a : list A) : 0 <= zlen a.
Proof. unfold zlen. lia. Qed.
Lemma zlen_repeat {A} (x : A) n : zlen (repeat x n) = Z.of_nat n.
Proof. unfold zlen. now rewrite repeat_length. Qed.

(** ** Files *)

Definition fd_ok (f : fd) : Prop := 0 <= f_size f <= zlen (f_buf f).

Lemma split_at (m : mem) p : 0 <= p <= zlen m -> exists a b, m = a ++ b /\ zlen a = p.
Proof.
  intros H. exists (firstn (Z.to_nat p) m), (skipn (Z.to_nat p) m). rewrite firstn_skipn. split; auto.
  unfold zlen in *. rewrite firstn_length. lia.
Qed.

Lemma wr_spec a old b bs p : zlen a = p -> length old = length bs -> wr (a ++ old ++ b) p bs = Some (a ++ bs ++ b).
Proof.
  intros <- E. unfold wr. assert (H : (0 <=? zlen a) && (zlen a + zlen bs <=? zlen (a ++ old ++ b)) = true).
  { rewrite !zlen_app. unfold zlen. rewrite andb_true_iff, !Z.leb_le. lia. }
  rewrite H. unfold zlen. rewrite Nat2Z.id, firstn_app, firstn_all, Nat.sub_diag. cbn [firstn]. rewrite app_nil_r.
  rewrite <- E, skipn_app, skipn_all2 by lia. cbn [app].
  replace (length a + length old - length a)%nat with (length old) by lia.
  now rewrite skipn_app, skipn_all, Nat.sub_diag.
Qed.

Lemma content_app a b n : zlen a = n -> fd_content (mkFd (a ++ b) n) = a.
Proof.
  intros <-. unfold fd_content, zlen. cbn. rewrite Nat2Z.id, firstn_app, firstn_all, Nat.sub_diag. cbn. apply app_nil_r.
Qed.

(** After making room there are n bytes behind the content. *)
Lemma room_ok small n f : fd_ok f -> 0 <= n ->
  exists gap rest, fd_room small n f = mkFd (fd_content f ++ gap ++ rest) (f_size f) /\ zlen gap = n /\
    zlen (fd_content f) = f_size f.
Proof.
  intros [H1 H2] Hn. destruct (split_at (f_buf f) (f_size f)) as (a & b & E & Ea); [lia|].
  assert (Ec : fd_content f = a).
  { unfold fd_content. rewrite E, <- Ea. apply content_app. reflexivity. }
  rewrite Ec. unfold fd_room. rewrite E, zlen_app, Ea.
  destruct (Z.ltb_spec (f_size f + zlen b) (n + f_size f)) as [L|L].
  - set (inc := Z.max small (Z.max n (f_size f + zlen b))).
    destruct (split_at (b ++ repeat 0 (Z.to_nat inc)) n) as (g & r & Eg & Hg).
    { rewrite zlen_app, zlen_repeat. unfold zlen in *. lia. }
    exists g, r. unfold fd_map. rewrite E, <- app_assoc, Eg. auto.
  - destruct (split_at b n) as (g & r & Eg & Hg); [lia|]. exists g, r.
    destruct f as [fb fs]. cbn in *. subst. auto.
Qed.

Lemma put_ok small n bs f : fd_ok f -> zlen bs <= n ->
  exists f', fd_put small n bs f = Some f' /\ fd_ok f' /\ fd_content f' = fd_content f ++ bs /\
    f_size f' = f_size f + zlen bs.
Proof.
  intros Hok Hn. assert (H0 := zlen_nonneg bs). destruct (room_ok small n f Hok ltac:(lia)) as (g & r & E & Eg & Ec).
  unfold fd_put. rewrite E. cbn [f_buf f_size].
  destruct (split_at g (zlen bs)) as (g1 & g2 & -> & Hg); [lia|].
  rewrite <- app_assoc, (wr_spec (fd_content f) g1 (g2 ++ r) bs); [|exact Ec|unfold zlen in Hg; lia].
  eexists. split; [reflexivity|]. rewrite app_assoc. split; [|split]; auto.
  - unfold fd_ok. cbn. rewrite !zlen_app. destruct Hok. pose proof (zlen_nonneg g2). pose proof (zlen_nonneg r). lia.
  - apply content_app. rewrite zlen_app. lia.
Qed.

Lemma zlen_enc w v : zlen (enc w v) = Z.of_nat w.
Proof. unfold zlen. now rewrite enc_length. Qed.

Lemma encv_le n v : 0 <= v < 2 ^ (7 * Z.of_nat n) -> (length (encv n v) <= n)%nat.
Proof.
  revert v. induction n as [|n IH]; intros v Hv; cbn; [lia|].
  destruct (Z.ltb_spec v 128); cbn; [lia|]. enough (length (encv n (v / 128)) <= n)%nat by lia. apply IH.
  replace (7 * Z.of_nat (S n)) with (7 * Z.of_nat n + 7) in Hv by lia. rewrite Z.pow_add_r in Hv by lia.
  change (2 ^ 7) with 128 in Hv. lia.
Qed.
Lemma encv_fuel n k v : 0 <= v < 2 ^ (7 * Z.of_nat n) -> (0 < n)%nat -> encv (n + k) v = encv n v.
Proof.
  revert v. induction n as [|n IH]; intros v Hv Hn; [lia|]. cbn.
  destruct (Z.ltb_spec v 128); auto. f_equal. destruct n as [|n].
  { cbn in Hv. lia. }
  apply IH; [|lia]. replace (7 * Z.of_nat (S (S n))) with (7 * Z.of_nat (S n) + 7) in Hv by lia.
  rewrite Z.pow_add_r in Hv by lia. change (2 ^ 7) with 128 in Hv. lia.
Qed.
Lemma vlong2_8 v : 0 <= v < 2 ^ 56 -> zlen (enc_vlong2 v) <= 8.
Proof.
  intros H. unfold enc_vlong2. change 10%nat with (8 + 2)%nat. rewrite encv_fuel by (cbn; lia).
  unfold zlen. pose proof (encv_le 8 v ltac:(cbn; lia)). lia.
Qed.

Lemma fd_step_ok small o f : fd_ok f -> fop_valid (f_size f) o ->
  exists f', fd_step small o f = Some f' /\ fd_ok f' /\ fstep (fd_content f) o (fd_content f') /\
    f_size f' = fop_size (f_size f) o.
Proof.
  intros Hok Hv. destruct o as [bs|w v|v|n|pos bs|pos diff]; cbn [fd_step fop_valid fop_size] in *.
  - destruct (put_ok small (zlen bs) bs f Hok) as (f' & E & H1 & H2 & H3); [lia|].
    exists f'. unfold fd_append. rewrite E, H2. repeat split; auto; try apply H1. constructor.
  - destruct (put_ok small (Z.of_nat w) (enc w v) f Hok) as (f' & E & H1 & H2 & H3); [rewrite zlen_enc; lia|].
    exists f'. unfold fd_appendField. rewrite E, H2. rewrite zlen_enc in H3. repeat split; auto; try apply H1. constructor.
  - destruct (put_ok small 8 (enc_vlong2 v) f Hok) as (f' & E & H1 & H2 & H3); [now apply vlong2_8|].
    exists f'. unfold fd_appendVLong2. rewrite E, H2. repeat split; auto; try apply H1. constructor.
  - destruct (room_ok small n f Hok Hv) as (g & r & E & Eg & Ec). unfold fd_reserve. rewrite E. cbn [f_buf f_size].
    eexists. split; [reflexivity|]. rewrite app_assoc. split; [|split]; auto.
    + unfold fd_ok. cbn. rewrite !zlen_app. destruct Hok. pose proof (zlen_nonneg r). lia.
    + rewrite content_app by (rewrite zlen_app; lia). constructor. exact Eg.
  - destruct Hv as [Hp Hl]. destruct Hok as [Hk1 Hk2]. assert (H0 := zlen_nonneg bs).
    destruct (split_at (f_buf f) (f_size f)) as (c & rest & E & Ec); [lia|].
    destruct (split_at c pos) as (a & b & -> & Ea); [rewrite Ec; lia|].
    rewrite zlen_app in Ec. destruct (split_at b (zlen bs)) as (old & b' & -> & Eo); [lia|].
    unfold fd_overwrite. rewrite E. replace ((a ++ old ++ b') ++ rest) with (a ++ old ++ (b' ++ rest)) by now rewrite <- !app_assoc.
    assert (Elen : length old = length bs) by (unfold zlen in Eo; lia).
    rewrite (wr_spec a old (b' ++ rest) bs pos Ea Elen). eexists. split; [reflexivity|].
    rewrite !zlen_app in *.
    replace (a ++ bs ++ b' ++ rest) with ((a ++ bs ++ b') ++ rest) by now rewrite <- !app_assoc.
    split; [|split]; auto.
    + unfold fd_ok. cbn. rewrite !zlen_app. pose proof (zlen_nonneg rest). lia.
    + rewrite content_app by (rewrite !zlen_app; lia).
      replace (fd_content f) with (a ++ old ++ b').
      * now constructor.
      * destruct f as [fb fs]. cbn [f_buf f_size] in *. subst fb. symmetry. apply content_app. rewrite !zlen_app. lia.
  - destruct Hv as [Hp Hd]. destruct (room_ok small diff f Hok Hd) as (g & r & E & Eg & Ec). unfold fd_shift.
    rewrite E. cbn [f_buf f_size]. destruct (Z.leb_spec pos (f_size f)); [|lia].
    destruct (split_at (fd_content f) pos) as (a & b & Eab & Ea); [lia|]. rewrite Eab in *. rewrite zlen_app in Ec.
    assert (Esrc : firstn (Z.to_nat (f_size f - pos)) (skipn (Z.to_nat pos) ((a ++ b) ++ g ++ r)) = b).
    { rewrite <- app_assoc. unfold zlen in Ea. replace (Z.to_nat pos) with (length a) by lia.
      rewrite skipn_app, skipn_all, Nat.sub_diag. cbn [skipn app]. unfold zlen in Ec.
      replace (Z.to_nat (f_size f - pos)) with (length b) by lia.
      rewrite firstn_app, firstn_all, Nat.sub_diag. cbn. apply app_nil_r. }
    rewrite Esrc.
    (* destination: a ++ b ++ g ++ r with |b ++ g| split as (diff bytes) ++ (|b| bytes) *)
    destruct (split_at (b ++ g) diff) as (x & y & Exy & Ex); [rewrite zlen_app; pose proof (zlen_nonneg b); lia|].
    assert (Ey : length y = length b).
    { assert (length (b ++ g) = length (x ++ y)) by now rewrite Exy. rewrite !app_length in H0. unfold zlen in *. lia. }
    replace ((a ++ b) ++ g ++ r) with ((a ++ x) ++ y ++ r).
    2:{ rewrite <- !app_assoc. f_equal. rewrite !app_assoc. f_equal. now rewrite Exy. }
    rewrite (wr_spec (a ++ x) y r b (pos + diff)); [|rewrite zlen_app; lia|exact Ey].
    eexists. split; [reflexivity|].
    replace ((a ++ x) ++ b ++ r) with ((a ++ x ++ b) ++ r) by now rewrite <- !app_assoc.
    split; [|split]; auto.
    + unfold fd_ok. cbn. rewrite !zlen_app. destruct Hok. pose proof (zlen_nonneg r). lia.
    + rewrite content_app by (rewrite !zlen_app; lia). rewrite <- Ex. now constructor.
Qed.

Lemma fd_run_ok small os : forall f, fd_ok f -> fops_valid (f_size f) os ->
  exists f', fd_run small os f = Some f' /\ fd_ok f' /\ fsteps (fd_content f) os (fd_content f').
Proof.
  induction os as [|o os IH]; intros f Hok Hv; cbn [fd_run fops_valid] in *.
  - exists f. repeat split; auto; try apply Hok. constructor.
  - destruct Hv as [V1 V2]. destruct (fd_step_ok small o f Hok V1) as (f1 & E & H1 & H2 & H3). rewrite E.
    rewrite <- H3 in V2. destruct (IH f1 H1 V2) as (f2 & E2 & H4 & H5). exists f2. repeat split; auto; try apply H4.
    econstructor; eauto.
Qed.

(** ** Table storage *)

Definition table_t := (Z * Z * list Z)%type.
Definition fcont (g : list table_t) : list Z := flat_map snd g.
Fixpoint marksof (p : Z) (g : list table_t) : list mark_t :=
  match g with
  | [] => []
  | (k, s, b) :: r => mkMark k p s :: marksof (p + zlen b) r
  end.
Definition idx_bytes (ms : list mark_t) : list Z := enc 8 (zlen ms) ++ flat_map mark_bytes ms.
Definition idx_ok (stored : list mark_t) (ix : option (list Z)) : Prop :=
  (ix = None /\ stored = []) \/ ix = Some (idx_bytes stored).

Lemma upd_same {A} (f : nat -> A) i v : upd f i v i = v.
Proof. unfold upd. now rewrite Nat.eqb_refl. Qed.
Lemma upd_other {A} (f : nat -> A) i j v : j <> i -> upd f i v j = f j.
Proof. intros H. unfold upd. now apply Nat.eqb_neq in H as ->. Qed.

Lemma set_nth_length {A} (l : list A) i v : length (set_nth l i v) = length l.
Proof. revert i. induction l as [|x l IH]; intros [|i]; cbn; auto. Qed.
Lemma set_nth_same {A} (l : list A) i v d : (i < length l)%nat -> nth i (set_nth l i v) d = v.
Proof. revert i. induction l as [|x l IH]; intros [|i]; cbn; intros; try lia; auto. apply IH. lia. Qed.
Lemma set_nth_other {A} (l : list A) i j v d : i <> j -> nth j (set_nth l i v) d = nth j l d.
Proof. revert i j. induction l as [|x l IH]; intros [|i] [|j]; cbn; intros; auto; congruence. Qed.

Lemma fcont_app a b : fcont (a ++ b) = fcont a ++ fcont b.
Proof. apply flat_map_app. Qed.
Lemma marksof_app p a b : marksof p (a ++ b) = marksof p a ++ marksof (p + zlen (fcont a)) b.
Proof.
  revert p. induction a as [|[[k s] bs] a IH]; intros p; cbn [marksof app fcont flat_map snd].
  - unfold zlen. cbn. f_equal. lia.
  - rewrite IH. fold (fcont a). rewrite zlen_app, Z.add_assoc. reflexivity.
Qed.
Lemma marksof_length p g : length (marksof p g) = length g.
Proof. revert p. induction g as [|[[k s] b] g IH]; intros p; cbn; auto. Qed.

Lemma rd8_head n r : 0 <= n < 2 ^ 63 -> rd 8 (enc 8 n ++ r) 0 = Some n.
Proof. intros H. apply rd_enc; [exists [], r; split; auto|unfold fits; cbn; lia]. Qed.

Lemma wr_head a r b : length a = length b -> wr (a ++ r) 0 b = Some (b ++ r).
Proof. intros E. exact (wr_spec [] a r b 0 eq_refl E). Qed.

Lemma store_ok stored ms old : idx_ok stored old -> zlen stored + zlen ms < 2 ^ 63 ->
  exists ix, storeFileIndex ms old = Some ix /\ idx_ok (stored ++ ms) (Some ix).
Proof.
  intros [[-> ->]| ->] H; unfold storeFileIndex.
  - eexists. split; [reflexivity|]. right. reflexivity.
  - pose proof (zlen_nonneg stored). pose proof (zlen_nonneg ms). unfold idx_bytes. rewrite rd8_head by lia.
    rewrite (wr_head (enc 8 (zlen stored))) by now rewrite !enc_length.
    eexists. split; [reflexivity|]. right. f_equal. unfold idx_bytes. rewrite flat_map_app, zlen_app, app_assoc. reflexivity.
Qed.

(** Marks in memory and on disk describe the tables [G]. *)
Definition marks_ok (marks : list (list mark_t)) (idx : nat -> option (list Z)) (G : nat -> list table_t) : Prop :=
  forall f, exists stored, marksof 0 (G f) = stored ++ nth f marks [] /\ idx_ok stored (idx f).

Lemma nth_error_nth' {A} (l : list A) i d : (i < length l)%nat -> nth_error l i = Some (nth i l d).
Proof. intros H. now apply nth_error_nth'. Qed.

Lemma flush_ok i t G : marks_ok (t_marks t) (t_idx t) G -> (i < length (t_marks t))%nat -> zlen (G i) < 2 ^ 63 ->
  exists ix, ts_flush i t = Some (mkTs (t_file t) (upd (t_idx t) i (Some ix)) (set_nth (t_marks t) i [])
      (t_created t) (t_last t) (t_sizeLast t) (t_cur t) (t_prev t)) /\
    marks_ok (set_nth (t_marks t) i []) (upd (t_idx t) i (Some ix)) G.
Proof.
  intros HM Hi HG. unfold ts_flush. rewrite (nth_error_nth' _ _ [] Hi).
  destruct (HM i) as (st & E & HI).
  assert (HL : zlen st + zlen (nth i (t_marks t) []) < 2 ^ 63).
  { rewrite <- zlen_app, <- E. unfold zlen in *. rewrite marksof_length. exact HG. }
  destruct (store_ok _ _ _ HI HL) as (ix & -> & HI'). exists ix. split; auto.
  intros f. destruct (Nat.eq_dec f i) as [-> |Hf].
  - exists (st ++ nth i (t_marks t) []). rewrite upd_same, set_nth_same by auto. now rewrite app_nil_r.
  - destruct (HM f) as (st' & E' & HI2). exists st'. rewrite upd_other, set_nth_other by auto. auto.
Qed.

Record ts_inv (t : ts) (G : nat -> list table_t) : Prop := {
  ti_file : forall f, t_file t f = fcont (G f);
  ti_marks : marks_ok (t_marks t) (t_idx t) G;
  ti_created : forall f, nth f (t_created t) 0 = zlen (G f);
  ti_len : length (t_created t) = length (t_marks t);
  ti_above : forall f, (t_last t < f)%nat -> G f = [];
  ti_last : length (t_marks t) = S (t_last t) \/ (t_marks t = [] /\ t_last t = 0%nat /\ G 0%nat = []);
  ti_size : t_sizeLast t = zlen (t_file t (t_last t));
  ti_prev : (t_prev t <= t_last t)%nat
}.

Lemma ts_new_inv : ts_inv ts_new (fun _ => []).
Proof.
  split; cbn; auto; intros f.
  - exists []. split; [now destruct f|]. left. auto.
  - now destruct f.
Qed.

Lemma nth_snoc_old {A} (l : list A) x d f : f <> length l -> nth f (l ++ [x]) d = nth f l d.
Proof.
  intros H. destruct (Nat.lt_ge_cases f (length l)); [now apply app_nth1|].
  rewrite app_nth2 by lia. rewrite (nth_overflow l) by lia. destruct (f - length l)%nat as [|[|n]] eqn:E; cbn; auto. lia.
Qed.

(** Starting a table, then writing any bytes and stopping. *)
Lemma ts_table max mm key strat t G : 0 <= max -> ts_inv t G -> (forall f, zlen (G f) < 2 ^ 62) ->
  match ts_start max mm key strat t with
  | None => S (t_last t) = MAX_N_FILES
  | Some (t1, mk) => (t_last t <= t_last t1 <= S (t_last t))%nat /\ mk = zlen (G (t_last t1)) /\
    forall bs, exists t2, ts_stop (zlen bs) (ts_write bs t1) = Some t2 /\ t_last t2 = t_last t1 /\
      ts_inv t2 (upd G (t_last t1) (G (t_last t1) ++ [(key, strat, bs)]))
  end.
Proof.
  intros Hmax HI HG. unfold ts_start.
  match goal with |- match match ?x with _ => _ end with _ => _ end => destruct x as [t0|] eqn:E0 end.
  2:{ destruct (max <? zlen (t_file t (t_last t))); [|discriminate].
      destruct (Nat.eqb_spec (S (t_last t)) MAX_N_FILES); [auto|discriminate]. }
  assert (H0 : t_file t0 = t_file t /\ t_idx t0 = t_idx t /\ t_marks t0 = t_marks t /\
            t_created t0 = t_created t /\ t_prev t0 = t_prev t /\ t_sizeLast t0 = zlen (t_file t (t_last t0)) /\
            (t_last t <= t_last t0 <= S (t_last t))%nat /\ (length (t_marks t) = t_last t0 \/ length (t_marks t) = S (t_last t0))).
  { destruct (Z.ltb_spec max (zlen (t_file t (t_last t)))) as [Ef|Ef].
    - destruct (Nat.eqb (S (t_last t)) MAX_N_FILES); [discriminate|]. injection E0 as <-. cbn.
      repeat split; auto. left. destruct (ti_last _ _ HI) as [H|(H1 & H2 & H3)]; auto.
      exfalso. rewrite (ti_file _ _ HI), H2, H3 in Ef. unfold zlen in Ef. cbn in Ef. lia.
    - injection E0 as <-. repeat split; auto. { apply HI. }
      destruct (ti_last _ _ HI) as [H|(H1 & H2 & H3)]; auto. left. rewrite H1, H2. reflexivity. }
  clear E0. destruct H0 as (F1 & F2 & F3 & F4 & F5 & F6 & F7 & F8).
  set (last := t_last t0) in *.
  (* room for the marks of this file *)
  assert (HP : exists marks created,
    (if Nat.leb (length (t_marks t0)) last then (t_marks t0 ++ [[]], t_created t0 ++ [0]) else (t_marks t0, t_created t0))
      = (marks, created) /\ length marks = S last /\ length created = S last /\
    (forall f, nth f marks [] = nth f (t_marks t) []) /\ (forall f, nth f created 0 = nth f (t_created t) 0)).
  { rewrite F3, F4. destruct (Nat.leb_spec (length (t_marks t)) last) as [L|L].
    - do 2 eexists. split; [reflexivity|]. rewrite !app_length, (ti_len _ _ HI). cbn. split; [lia|]. split; [lia|]. split; intros f.
      + destruct (Nat.eq_dec f (length (t_marks t))) as [-> |Hf]; [|now apply nth_snoc_old].
        rewrite app_nth2 by lia. rewrite Nat.sub_diag. symmetry. apply nth_overflow. lia.
      + destruct (Nat.eq_dec f (length (t_created t))) as [-> |Hf]; [|now apply nth_snoc_old].
        rewrite app_nth2 by lia. rewrite Nat.sub_diag. symmetry. apply nth_overflow. lia.
    - do 2 eexists. split; [reflexivity|]. rewrite (ti_len _ _ HI). repeat split; auto; lia. }
  destruct HP as (marks & created & EP & L1 & L2 & N1 & N2). rewrite EP. cbn beta iota.
  assert (HM : marks_ok marks (t_idx t0) G).
  { intros f. destruct (ti_marks _ _ HI f) as (st & A & B). exists st. rewrite N1, F2. auto. }
  rewrite (nth_error_nth' marks last []) by lia.
  (* the marks may be written out *)
  assert (H3 : exists t3, (if mm <=? zlen (nth last marks [])
    then ts_flush last (mkTs (t_file t0) (t_idx t0) marks created last (t_sizeLast t0) (t_cur t0) (t_prev t0))
    else Some (mkTs (t_file t0) (t_idx t0) marks created last (t_sizeLast t0) (t_cur t0) (t_prev t0))) = Some t3 /\
    t_file t3 = t_file t /\ marks_ok (t_marks t3) (t_idx t3) G /\ length (t_marks t3) = S last /\
    t_created t3 = created /\ t_sizeLast t3 = t_sizeLast t0 /\ t_prev t3 = t_prev t).
  { destruct (mm <=? zlen (nth last marks [])).
    - destruct (flush_ok last (mkTs (t_file t0) (t_idx t0) marks created last (t_sizeLast t0) (t_cur t0) (t_prev t0)) G)
        as (ix & E4 & HM'); cbn; auto; [lia|specialize (HG last); lia|].
      rewrite E4. eexists. split; [reflexivity|]. cbn in *. rewrite set_nth_length. repeat split; auto.
    - eexists. split; [reflexivity|]. cbn. repeat split; auto. }
  destruct H3 as (t3 & E3 & A1 & A2 & A3 & A4 & A5 & A6).
  rewrite E3, (nth_error_nth' (t_marks t3) last []), (nth_error_nth' (t_created t3) last 0) by (rewrite ?A4; lia).
  cbn [t_last]. rewrite A4, N2, (ti_created _ _ HI). split; [exact F7|]. split; [reflexivity|].
  intros bs. set (G' := upd G last (G last ++ [(key, strat, bs)])).
  assert (Hpos : t_sizeLast t3 = zlen (fcont (G last))) by (rewrite A5, F6; f_equal; apply HI).
  set (marks' := set_nth (t_marks t3) last (nth last (t_marks t3) [] ++ [mkMark key (t_sizeLast t3) strat])).
  assert (HM2 : marks_ok marks' (t_idx t3) G').
  { intros f. unfold G', marks'. destruct (A2 f) as (st & B1 & B2). exists st.
    destruct (Nat.eq_dec f last) as [-> |Hf].
    - rewrite upd_same, set_nth_same by lia. rewrite marksof_app, B1. cbn [marksof]. split; auto.
      rewrite <- app_assoc, Hpos. now rewrite Z.add_0_l.
    - rewrite upd_other, set_nth_other by auto. auto. }
  assert (L3 : length marks' = S last) by (unfold marks'; now rewrite set_nth_length).
  (* common part of the new invariant *)
  assert (HF : forall f, upd (t_file t3) last (t_file t3 last ++ bs) f = fcont (G' f)).
  { intros f. unfold G'. rewrite A1. destruct (Nat.eq_dec f last) as [-> |Hf].
    - rewrite !upd_same, fcont_app, (ti_file _ _ HI). cbn. now rewrite app_nil_r.
    - rewrite !upd_other by auto. apply HI. }
  assert (HC : forall f, nth f (set_nth created last (zlen (G last) + 1)) 0 = zlen (G' f)).
  { intros f. unfold G'. destruct (Nat.eq_dec f last) as [-> |Hf].
    - rewrite upd_same, set_nth_same by lia. rewrite zlen_app. reflexivity.
    - rewrite upd_other, set_nth_other by auto. rewrite N2. apply HI. }
  assert (HA : forall f, (last < f)%nat -> G' f = []).
  { intros f Hf. unfold G'. rewrite upd_other by lia. apply HI. lia. }
  assert (HS : t_sizeLast t3 + zlen bs = zlen (upd (t_file t3) last (t_file t3 last ++ bs) last)).
  { rewrite upd_same, zlen_app, Hpos, A1. f_equal. f_equal. symmetry. apply HI. }
  assert (HG' : forall f, zlen (G' f) < 2 ^ 63).
  { intros f. unfold G'. destruct (Nat.eq_dec f last) as [-> |Hf].
    - rewrite upd_same, zlen_app. specialize (HG last). unfold zlen at 2. cbn. lia.
    - rewrite upd_other by auto. specialize (HG f). lia. }
  unfold ts_stop, ts_write. cbn [t_file t_idx t_marks t_created t_last t_sizeLast t_cur t_prev]. fold marks'.
  destruct (Nat.eqb_spec (t_prev t3) last) as [Ep|Ep].
  - eexists. split; [reflexivity|]. split; [reflexivity|]. split; cbn; auto; try lia. rewrite set_nth_length. lia.
  - assert (Hp : (t_prev t3 < length marks')%nat).
    { rewrite L3, A6. pose proof (ti_prev _ _ HI). lia. }
    rewrite (nth_error_nth' marks' (t_prev t3) [] Hp).
    match goal with |- context [ts_flush (t_prev t3) ?x] => set (tt := x) end.
    destruct (flush_ok (t_prev t3) tt G') as (ix & E4 & HM'); auto.
    destruct (nth (t_prev t3) marks' []).
    + eexists. split; [reflexivity|]. split; [reflexivity|]. split; cbn; auto; try lia. rewrite set_nth_length. lia.
    + rewrite E4. eexists. split; [reflexivity|]. split; [reflexivity|]. split; cbn in *; auto; rewrite ?set_nth_length; auto; lia.
Qed.


(** ** The index files when all is written *)

Lemma stopFrom_ok ms : forall i idx G, 
  (forall f, exists stored, marksof 0 (G f) = stored ++ (if (f <? i)%nat then [] else nth (f - i) ms []) /\ idx_ok stored (idx f)) ->
  (forall f, zlen (G f) < 2 ^ 63) ->
  exists idx', ts_stopFrom i ms idx = Some idx' /\ forall f, idx_ok (marksof 0 (G f)) (idx' f).
Proof.
  induction ms as [|m ms IH]; intros i idx G H HG; cbn [ts_stopFrom].
  - exists idx. split; auto. intros f. destruct (H f) as (st & E & HI). rewrite E.
    replace (if (f <? i)%nat then [] else nth (f - i) (@nil (list mark_t)) []) with (@nil mark_t); [now rewrite app_nil_r|].
    destruct (f <? i)%nat; auto. now destruct (f - i)%nat.
  - assert (Hother : forall f, f <> i -> (if (f <? i)%nat then [] else nth (f - i) (m :: ms) []) =
        (if (f <? S i)%nat then [] else nth (f - S i) ms [])).
    { intros f Hf. destruct (Nat.ltb_spec f i), (Nat.ltb_spec f (S i)); try lia; auto.
      destruct (f - i)%nat as [|k] eqn:Ek; [lia|]. cbn. f_equal. lia. }
    destruct (H i) as (st & E & HI). rewrite Nat.ltb_irrefl, Nat.sub_diag in E. cbn [nth] in E.
    destruct m as [|m0 m'].
    + apply IH with (G := G); auto. intros f. destruct (Nat.eq_dec f i) as [-> |Hf].
      * exists st. split; auto. rewrite E. assert ((i <? S i)%nat = true) as -> by (apply Nat.ltb_lt; lia). reflexivity.
      * destruct (H f) as (st' & E' & HI'). exists st'. split; auto. now rewrite <- Hother.
    + assert (HL : zlen st + zlen (m0 :: m') < 2 ^ 63).
      { rewrite <- zlen_app, <- E. specialize (HG i). unfold zlen in *. rewrite marksof_length. exact HG. }
      destruct (store_ok _ _ _ HI HL) as (ix & -> & HI'). apply IH with (G := G); auto.
      intros f. destruct (Nat.eq_dec f i) as [-> |Hf].
      * exists (st ++ m0 :: m'). rewrite upd_same. split; auto. rewrite E.
        assert ((i <? S i)%nat = true) as -> by (apply Nat.ltb_lt; lia). now rewrite app_nil_r.
      * destruct (H f) as (st' & E' & HI2). exists st'. rewrite upd_other by auto. split; auto. now rewrite <- Hother.
Qed.

Lemma stopInsert_ok t G : ts_inv t G -> (forall f, zlen (G f) < 2 ^ 63) ->
  exists t', ts_stopInsert t = Some t' /\ t_file t' = t_file t /\ forall f, idx_ok (marksof 0 (G f)) (t_idx t' f).
Proof.
  intros HI HG. unfold ts_stopInsert. destruct (stopFrom_ok (t_marks t) 0 (t_idx t) G) as (idx' & E & H); auto.
  { intros f. destruct (ti_marks _ _ HI f) as (st & E & HX). exists st. cbn. now rewrite Nat.sub_0_r. }
  rewrite E. eexists. split; [reflexivity|]. auto.
Qed.

(** ** Opening a table *)

Lemma mark_bytes_length m : length (mark_bytes m) = 11%nat.
Proof. unfold mark_bytes. rewrite !app_length, !enc_length. reflexivity. Qed.

Lemma idx_entry ms i m : nth_error ms i = Some m ->
  contains (idx_bytes ms) (8 + 11 * Z.of_nat i) (enc 5 (mk_pos m)).
Proof.
  intros H. apply nth_error_split in H. destruct H as (a & b & -> & <-). unfold idx_bytes.
  set (n := zlen (a ++ m :: b)). rewrite flat_map_app. cbn [flat_map].
  exists (enc 8 n ++ flat_map mark_bytes a), ((enc 5 (mk_key m) ++ [mk_strat m mod 256]) ++ flat_map mark_bytes b).
  split.
  - unfold mark_bytes at 2. now rewrite <- !app_assoc.
  - rewrite app_length, enc_length. clear. replace (length (flat_map mark_bytes a)) with (11 * length a)%nat; [lia|].
    induction a as [|x a IH]; cbn [flat_map length]; auto. rewrite app_length, mark_bytes_length, <- IH. lia.
Qed.

Lemma marksof_nth p a k s b r : nth_error (marksof p (a ++ (k, s, b) :: r)) (length a) = Some (mkMark k (p + zlen (fcont a)) s).
Proof. rewrite marksof_app, nth_error_app2 by (rewrite marksof_length; auto). rewrite marksof_length. now rewrite Nat.sub_diag. Qed.

Lemma getTable_ok t file (g : list table_t) i k s b : idx_ok (marksof 0 g) (t_idx t file) -> t_file t file = fcont g ->
  nth_error g i = Some (k, s, b) -> b <> [] -> zlen (fcont g) < 2 ^ 40 -> zlen g < 2 ^ 63 ->
  exists p, ts_getTable t file (Z.of_nat i) = Some (p, p + zlen b) /\ contains (t_file t file) p b.
Proof.
  intros HI HF Hi Hb Hsz Hn. apply nth_error_split in Hi. destruct Hi as (a & r & Eg & <-).
  unfold ts_getTable. destruct HI as [[_ E]|E].
  { exfalso. assert (length (marksof 0 g) = 0%nat) by (rewrite E; reflexivity). rewrite marksof_length, Eg, app_length in H. cbn in H. lia. }
  rewrite E, HF. destruct (fcont g) as [|x0 m0] eqn:Em.
  { exfalso. rewrite Eg, fcont_app in Em. apply app_eq_nil in Em. destruct Em as [_ Em]. cbn in Em. apply app_eq_nil in Em. tauto. }
  rewrite <- Em in *. clear x0 m0 Em. unfold getPos.
  assert (HL : zlen (marksof 0 g) = zlen g) by (unfold zlen; now rewrite marksof_length).
  unfold idx_bytes at 1. rewrite rd8_head by (rewrite HL; unfold zlen in *; lia). rewrite HL.
  assert (Hs : 0 <= zlen (fcont a) < 2 ^ 40 /\ zlen (fcont a) + zlen b <= zlen (fcont g)).
  { rewrite Eg, fcont_app, zlen_app in *. cbn [fcont flat_map snd] in *. rewrite zlen_app in *.
    pose proof (zlen_nonneg (fcont a)). pose proof (zlen_nonneg b). pose proof (zlen_nonneg (flat_map snd r)). lia. }
  rewrite (rdn_enc 5 _ _ (zlen (fcont a))); [|rewrite Eg; apply (idx_entry _ _ _ (marksof_nth 0 a k s b r))|cbn; lia].
  assert (HEnd : (if Z.of_nat (length a) =? zlen g - 1 then Some (zlen (fcont g))
     else rdn 5 (idx_bytes (marksof 0 g)) (8 + 11 * (Z.of_nat (length a) + 1))) = Some (zlen (fcont a) + zlen b)).
  { destruct (Z.eqb_spec (Z.of_nat (length a)) (zlen g - 1)) as [El|El].
    - rewrite Eg in El |- *. unfold zlen in El. rewrite app_length in El. cbn in El. destruct r; [|cbn in El; lia].
      rewrite fcont_app, zlen_app. cbn. now rewrite app_nil_r.
    - destruct r as [|[[k' s'] b'] r'].
      { exfalso. apply El. rewrite Eg. unfold zlen. rewrite app_length. cbn. lia. }
      replace (Z.of_nat (length a) + 1) with (Z.of_nat (length (a ++ [(k, s, b)]))) by (rewrite app_length; cbn; lia).
      rewrite (rdn_enc 5 _ _ (zlen (fcont (a ++ [(k, s, b)])))).
      + rewrite fcont_app, zlen_app. cbn. now rewrite app_nil_r.
      + rewrite Eg. replace (a ++ (k, s, b) :: (k', s', b') :: r') with ((a ++ [(k, s, b)]) ++ (k', s', b') :: r') by now rewrite <- app_assoc.
        apply (idx_entry _ _ _ (marksof_nth 0 (a ++ [(k, s, b)]) k' s' b' r')).
      + rewrite fcont_app, zlen_app. cbn [fcont flat_map snd]. rewrite app_nil_r. split; [pose proof (zlen_nonneg b); lia|cbn [Z.of_nat Pos.of_succ_nat]; lia]. }
  rewrite HEnd. exists (zlen (fcont a)). split; [do 2 f_equal; lia|].
  rewrite Eg, fcont_app. cbn [fcont flat_map snd]. exists (fcont a), (flat_map snd r). split; auto.
Qed.

(** ** Storing many tables *)

Definition extends (G G' : nat -> list table_t) : Prop := forall f, exists r, G' f = G f ++ r.
Definition bytes_of (tabs : list table_t) : Z := zlen (fcont tabs).

Lemma ts_store_ok max mm tabs : 0 <= max -> forall t G t' cs, ts_inv t G ->
  (forall f, zlen (G f) + zlen tabs < 2 ^ 62) ->
  ts_store max mm tabs t = Some (t', cs) ->
  exists G', ts_inv t' G' /\ extends G G' /\
    (forall f, zlen (G' f) <= zlen (G f) + zlen tabs /\ zlen (fcont (G' f)) <= zlen (fcont (G f)) + bytes_of tabs) /\
    Forall2 (fun tab c => exists i, snd c = Z.of_nat i /\ nth_error (G' (fst c)) i = Some tab) tabs cs.
Proof.
  intros Hmax. induction tabs as [|[[key strat] bs] tabs IH]; intros t G t' cs HI HG E; cbn [ts_store] in E.
  - injection E as <- <-. exists G. split; auto. split; [intros f; exists []; now rewrite app_nil_r|]. split; [|constructor].
    intros f. unfold bytes_of, zlen. cbn. lia.
  - assert (HG0 : forall f, zlen (G f) < 2 ^ 62).
    { intros f. specialize (HG f). pose proof (zlen_nonneg ((key, strat, bs) :: tabs)). lia. }
    pose proof (ts_table max mm key strat t G Hmax HI HG0) as HT.
    destruct (ts_start max mm key strat t) as [[t1 mk]|]; [|discriminate].
    destruct HT as (_ & Hmk & HT). destruct (HT bs) as (t2 & E2 & _ & HI2). rewrite E2 in E.
    destruct (ts_store max mm tabs t2) as [[t3 cs']|] eqn:E3; [|discriminate]. injection E as <- <-.
    set (fl := t_last t1) in *. set (G1 := upd G fl (G fl ++ [(key, strat, bs)])) in *.
    assert (HG1 : forall f, zlen (G1 f) <= zlen (G f) + 1 /\ zlen (fcont (G1 f)) <= zlen (fcont (G f)) + zlen bs).
    { intros f. unfold G1. pose proof (zlen_nonneg bs). destruct (Nat.eq_dec f fl) as [-> |Hf].
      - rewrite upd_same, fcont_app, !zlen_app. cbn [fcont flat_map snd]. rewrite app_nil_r. unfold zlen at 2. cbn [length]. lia.
      - rewrite upd_other by auto. lia. }
    destruct (IH t2 G1 t3 cs' HI2) as (G' & J1 & J2 & J3 & J4); auto.
    { intros f. specialize (HG f). destruct (HG1 f). unfold zlen in *. cbn [length] in HG. lia. }
    exists G'. split; auto. split; [|split].
    + intros f. destruct (J2 f) as (r & Er). rewrite Er. unfold G1. destruct (Nat.eq_dec f fl) as [-> |Hf].
      * rewrite upd_same, <- app_assoc. eauto.
      * rewrite upd_other by auto. eauto.
    + intros f. destruct (J3 f), (HG1 f). unfold bytes_of in *. cbn [fcont flat_map snd]. rewrite zlen_app.
      fold (fcont tabs). unfold zlen in *. cbn [length]. lia.
    + constructor; auto. cbn [fst snd]. exists (length (G fl)). split; auto.
      destruct (J2 fl) as (r & Er). rewrite Er. unfold G1. rewrite upd_same, <- app_assoc.
      rewrite nth_error_app2, Nat.sub_diag by lia. reflexivity.
Qed.

Lemma Forall2_weaken_In {A B} (P Q : A -> B -> Prop) l1 l2 :
  (forall a b, In a l1 -> In b l2 -> P a b -> Q a b) -> Forall2 P l1 l2 -> Forall2 Q l1 l2.
Proof.
  intros H F. induction F as [|x y l1 l2 Hxy F IH]; constructor.
  - apply H; cbn; auto.
  - apply IH. intros a b Ha Hb. apply H; cbn; auto.
Qed.

Lemma ts_store_some max mm tabs : 0 <= max -> forall t G, ts_inv t G ->
  (forall f, zlen (G f) + zlen tabs < 2 ^ 62) -> (t_last t + length tabs < MAX_N_FILES)%nat ->
  exists t' cs, ts_store max mm tabs t = Some (t', cs).
Proof.
  intros Hmax. induction tabs as [|[[key strat] bs] tabs IH]; intros t G HI HG HL; cbn [ts_store]; eauto.
  assert (HG0 : forall f, zlen (G f) < 2 ^ 62).
  { intros f. specialize (HG f). pose proof (zlen_nonneg ((key, strat, bs) :: tabs)). lia. }
  pose proof (ts_table max mm key strat t G Hmax HI HG0) as HT. cbn [length] in HL.
  destruct (ts_start max mm key strat t) as [[t1 mk]|]; [|lia].
  destruct HT as (Hl & Hmk & HT). destruct (HT bs) as (t2 & E2 & El & HI2). rewrite E2.
  destruct (IH t2 _ HI2) as (t' & cs & ->); eauto; [|lia].
  intros f. specialize (HG f). unfold zlen in *. cbn [length] in HG. destruct (Nat.eq_dec f (t_last t1)) as [-> |Hf].
  - rewrite upd_same, app_length. cbn. lia.
  - rewrite upd_other by auto. lia.
Qed.
