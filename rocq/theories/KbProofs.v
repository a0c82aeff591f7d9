(** The lists of terms of a permutation: TermItr. *)
From Coq Require Import Sorted ZifyBool.
From Verif Require Export ItrSpec ItrProofs TableSpec TableProofs StrategyProofs FileProofs InserterProofs KbModel.
Local Open Scope Z_scope.
Ltac Zify.zify_post_hook ::= Z.div_mod_to_equations.

Notation coords := (Z * nat * Z * Z)%type.
Definition c_key (c : coords) : Z := fst (fst (fst c)).
Notation gkey := (fun g : table_t => fst (fst g)).

Record Listing (t : ts) (G : nat -> list table_t) : Prop := {
  li_idx : forall f, (f <= t_last t)%nat -> t_idx t f = Some (idx_bytes (marksof 0 (G f)));
  li_beyond : forall f, (t_last t < f)%nat -> idx_ok [] (t_idx t f);
  li_ne : forall f, (f <= t_last t)%nat -> G f <> [];
  li_len : forall f, zlen (G f) < 2 ^ 31;
  li_ent : forall f k s b, In (k, s, b) (G f) -> 0 <= k < 2 ^ 39 /\ -128 <= s < 128;
  li_sorted : forall f, StronglySorted Z.lt (map gkey (G f))
}.

Definition all_coords (t : ts) (G : nat -> list table_t) : list coords :=
  flat_map (fun f => entries_of f 0 (G f)) (seq 0 (S (t_last t))).
Definition rest (t : ts) (G : nat -> list table_t) (f j : nat) : list coords :=
  entries_of f j (skipn j (G f)) ++ flat_map (fun f => entries_of f 0 (G f)) (seq (S f) (t_last t - f)).

Definition In_file (G : nat -> list table_t) (f j : nat) (i : titr) : Prop :=
  (j <= length (G f))%nat /\ ti_ix i = idx_bytes (marksof 0 (G f)) /\
  ti_off i = 8 + 11 * Z.of_nat j /\ ti_end i = 8 + 11 * zlen (G f).
Definition At (t : ts) (G : nat -> list table_t) (f j : nat) (i : titr) : Prop :=
  (f <= t_last t)%nat /\ ti_cur i = f /\ ti_mark i = Z.of_nat j - 1 /\ In_file G f j i.
Definition Done (t : ts) (G : nat -> list table_t) (i : titr) : Prop :=
  (t_last t < ti_cur i)%nat /\ In_file G (t_last t) (length (G (t_last t))) i.
Definition Rem (t : ts) (G : nat -> list table_t) (C : list coords) (i : titr) : Prop :=
  (exists f j, At t G f j i /\ C = rest t G f j) \/ (C = [] /\ Done t G i).
(** The iterator stands on [c]. *)
Definition On (c : coords) (i : titr) : Prop :=
  let '(k, f, p, s) := c in ti_key i = k /\ ti_cur i = f /\ ti_mark i = p /\ ti_strat i = Some s.

Lemma rest_start t G : rest t G 0 0 = all_coords t G.
Proof. unfold rest, all_coords. cbn [skipn]. now rewrite Nat.sub_0_r. Qed.

Lemma rest_file t G f j : (f < t_last t)%nat ->
  rest t G f j = entries_of f j (skipn j (G f)) ++ rest t G (S f) 0.
Proof.
  intros H. unfold rest. f_equal. cbn [skipn]. replace (t_last t - f)%nat with (S (t_last t - S f))%nat by lia. reflexivity.
Qed.

Lemma rest_last t G j : rest t G (t_last t) j = entries_of (t_last t) j (skipn j (G (t_last t))).
Proof. unfold rest. rewrite Nat.sub_diag. cbn. apply app_nil_r. Qed.

Lemma entries_key f l : forall i, map c_key (entries_of f i l) = map gkey l.
Proof. induction l as [|[[k s] b] l IH]; intros i; cbn; auto. now rewrite IH. Qed.

Lemma entries_length f l : forall i, length (entries_of f i l) = length l.
Proof. induction l as [|[[k s] b] l IH]; intros i; cbn; auto. Qed.

Lemma skipn_cons {A} (l : list A) j x : nth_error l j = Some x -> skipn j l = x :: skipn (S j) l.
Proof. revert j. induction l as [|y l IH]; intros [|j] H; cbn in *; try discriminate; [congruence|]. now apply IH. Qed.

Lemma to_int32_id n : -2 ^ 31 <= n < 2 ^ 31 -> to_int32 n = n.
Proof. unfold to_int32. lia. Qed.

Lemma to_char_mod s : -128 <= s < 128 -> to_char (s mod 256) = s.
Proof. intros H. unfold to_char. destruct (Z.leb_spec 128 ((s mod 256) mod 256)); lia. Qed.

(** ** The bytes of an entry *)
Lemma idx_key ms i m : nth_error ms i = Some m ->
  contains (idx_bytes ms) (8 + 11 * Z.of_nat i + 5) (enc 5 (mk_key m) ++ [mk_strat m mod 256]).
Proof.
  intros H. apply nth_error_split in H. destruct H as (a & b & -> & <-). unfold idx_bytes.
  set (n := zlen (a ++ m :: b)). rewrite flat_map_app. cbn [flat_map].
  exists (enc 8 n ++ flat_map mark_bytes a ++ enc 5 (mk_pos m)), (flat_map mark_bytes b). split.
  - unfold mark_bytes at 2. now rewrite <- !app_assoc.
  - rewrite !app_length, !enc_length. replace (length (flat_map mark_bytes a)) with (11 * length a)%nat; [lia|].
    clear. induction a as [|x a IH]; cbn [flat_map length]; auto. rewrite app_length, mark_bytes_length, <- IH. lia.
Qed.

Lemma marksof_at g j k s b : nth_error g j = Some (k, s, b) -> exists p, nth_error (marksof 0 g) j = Some (mkMark k p s).
Proof.
  intros H. apply nth_error_split in H. destruct H as (a & r & -> & <-). eexists. apply marksof_nth.
Qed.

Lemma read_key g j k s b : nth_error g j = Some (k, s, b) -> 0 <= k < 2 ^ 39 -> rdn 5 (idx_bytes (marksof 0 g)) (8 + 11 * Z.of_nat j + 5) = Some k.
Proof.
  intros H Hk. destruct (marksof_at _ _ _ _ _ H) as [p Hp]. pose proof (idx_key _ _ _ Hp) as Hc. cbn [mk_key] in Hc.
  apply contains_app in Hc as [Hc _]. apply rdn_enc; auto. cbn. lia.
Qed.

Lemma read_strat g j k s b : nth_error g j = Some (k, s, b) -> getb (idx_bytes (marksof 0 g)) (8 + 11 * Z.of_nat j + 10) = Some (s mod 256).
Proof.
  intros H. destruct (marksof_at _ _ _ _ _ H) as [p Hp]. pose proof (idx_key _ _ _ Hp) as Hc. cbn [mk_key mk_strat] in Hc.
  apply contains_app in Hc as [_ Hc]. apply getb_contains in Hc. rewrite enc_length in Hc.
  replace (8 + 11 * Z.of_nat j + 10) with (8 + 11 * Z.of_nat j + 5 + Z.of_nat 5) by lia. exact Hc.
Qed.

Lemma idx_length g : zlen (idx_bytes (marksof 0 g)) = 8 + 11 * zlen g.
Proof.
  unfold idx_bytes, zlen. rewrite app_length, enc_length.
  replace (length (flat_map mark_bytes (marksof 0 g))) with (11 * length g)%nat; [lia|].
  rewrite <- (marksof_length 0 g). clear. induction (marksof 0 g) as [|x a IH]; cbn [flat_map length]; auto.
  rewrite app_length, mark_bytes_length, <- IH. lia.
Qed.

Notation byte b := (0 <= b < 256).
Lemma enc_bytes w : forall v, Forall (fun b => byte b) (enc w v).
Proof. induction w as [|w IH]; intros v; cbn; [constructor|]. apply Forall_app. split; auto. constructor; [lia|constructor]. Qed.
Lemma idx_all_bytes ms : Forall (fun b => byte b) (idx_bytes ms).
Proof.
  unfold idx_bytes. apply Forall_app. split; [apply enc_bytes|]. induction ms as [|m ms IH]; cbn [flat_map]; [constructor|].
  apply Forall_app. split; auto. unfold mark_bytes. rewrite !Forall_app. split; [apply enc_bytes|]. split; [apply enc_bytes|]. constructor; [lia|constructor].
Qed.

Lemma getb_byte m p : Forall (fun b => byte b) m -> 0 <= p < zlen m -> exists b, getb m p = Some b /\ byte b.
Proof.
  intros Hm Hp. unfold getb. destruct (Z.leb_spec 0 p); [|lia]. destruct (nth_error m (Z.to_nat p)) as [b|] eqn:E.
  - exists b. split; auto. rewrite Forall_forall in Hm. apply Hm. eapply nth_error_In. eauto.
  - exfalso. apply nth_error_None in E. unfold zlen in Hp. lia.
Qed.

Lemma contains_pad m pad p b : contains m p b -> contains (m ++ pad) p b.
Proof. intros (x & y & -> & E). exists x, (y ++ pad). split; auto. now rewrite <- !app_assoc. Qed.

Definition pad_ok (pad : list Z) : Prop := 16 <= zlen pad /\ Forall (fun b => byte b) pad.

(** The eight bytes read by the search are at least the key. *)
Lemma read_long g pad j k s b : pad_ok pad -> nth_error g j = Some (k, s, b) -> 0 <= k < 2 ^ 39 ->
  exists x, rd 8 (idx_bytes (marksof 0 g) ++ pad) (8 + 11 * Z.of_nat j + 5) = Some x /\ k <= x.
Proof.
  intros [Hp Hb] H Hk. destruct (marksof_at _ _ _ _ _ H) as [p Hm]. pose proof (idx_key _ _ _ Hm) as Hc. cbn [mk_key mk_strat] in Hc.
  apply (contains_pad _ pad) in Hc. apply contains_app in Hc as [Hc _].
  assert (R5 := rdn_enc 5 _ _ k Hc ltac:(cbn; lia)).
  assert (Hj : (j < length g)%nat) by (apply nth_error_Some; congruence).
  set (m := idx_bytes (marksof 0 g) ++ pad) in *.
  assert (Hl : zlen m = 8 + 11 * zlen g + zlen pad) by (unfold m; rewrite zlen_app, idx_length; reflexivity).
  assert (Hm' : Forall (fun b => byte b) m) by (apply Forall_app; split; auto using idx_all_bytes).
  set (q := 8 + 11 * Z.of_nat j + 5) in *. assert (Hq : 0 <= q /\ q + 7 < zlen m) by (unfold zlen in *; lia).
  destruct (getb_byte m (q + 5) Hm' ltac:(lia)) as (b5 & E5 & B5).
  destruct (getb_byte m (q + 6) Hm' ltac:(lia)) as (b6 & E6 & B6).
  destruct (getb_byte m (q + 7) Hm' ltac:(lia)) as (b7 & E7 & B7).
  assert (R : rdn 8 m q = Some (((k * 256 + b5) * 256 + b6) * 256 + b7)).
  { change (rdn 8 m q) with (do a <- (do a <- (do a <- rdn 5 m q; do b <- getb m (q + 5); Some (a * 256 + b)); do b <- getb m (q + 6); Some (a * 256 + b)); do b <- getb m (q + 7); Some (a * 256 + b)).
    now rewrite R5, E5, E6, E7. }
  unfold rd. rewrite R. cbn [Nat.eqb orb andb]. change (8 * Z.of_nat 8 - 1) with 63. change (2 ^ 63) with 9223372036854775808.
  destruct (Z.leb_spec 9223372036854775808 (((k * 256 + b5) * 256 + b6) * 256 + b7)) as [Hx|Hx]; [exfalso; lia|].
  eexists. split; [reflexivity|]. lia.
Qed.

(** ** Moving along the list *)
Section Moves.
Variables (t : ts) (G : nat -> list table_t).
Hypothesis HL : Listing t G.

Lemma open_ok f : (f <= t_last t)%nat -> ti_open t f = Some (idx_bytes (marksof 0 (G f)), 8, 8 + 11 * zlen (G f)).
Proof.
  intros H. unfold ti_open. rewrite (li_idx _ _ HL f H). unfold idx_bytes at 1.
  pose proof (li_len _ _ HL f). assert (E : zlen (marksof 0 (G f)) = zlen (G f)) by (unfold zlen; now rewrite marksof_length).
  rewrite rd8_head; rewrite E; auto. unfold zlen in *. lia.
Qed.

Lemma At_open f k : (f <= t_last t)%nat ->
  At t G f 0 (mkTitr f (idx_bytes (marksof 0 (G f))) 8 (8 + 11 * zlen (G f)) (-1) k).
Proof. intros H. split; [auto|]. split; [auto|]. split; [auto|]. split; [lia|]. cbn. auto. Qed.

Lemma init_ok : exists i, ti_init t = Some i /\ Rem t G (all_coords t G) i.
Proof.
  unfold ti_init. rewrite open_ok by lia. eexists. split; [reflexivity|]. left. exists 0%nat, 0%nat. split; [|symmetry; apply rest_start].
  apply At_open. lia.
Qed.

Lemma next_ok f j i : At t G f j i -> (j < length (G f))%nat -> exists c i', ti_next i = Some i' /\ On c i' /\
  At t G f (S j) i' /\ rest t G f j = c :: rest t G f (S j).
Proof.
  intros (Hf & Ec & Em & Hj & Ex & Eo & Ee) Hlt. destruct (nth_error (G f) j) as [[[k s] b]|] eqn:E; [|apply nth_error_None in E; lia].
  pose proof (nth_error_In _ _ E) as Hin. destruct (li_ent _ _ HL f k s b Hin) as [Hk Hs]. pose proof (li_len _ _ HL f) as Hlen.
  exists (k, f, to_int32 (Z.of_nat j), s). unfold ti_next. rewrite Ex, Eo, (read_key _ _ _ _ _ E Hk). eexists. split; [reflexivity|].
  cbn [ti_key ti_cur ti_mark On]. split; [|split].
  - split; auto. split; auto. split; [rewrite to_int32_id; unfold zlen in *; lia|]. unfold ti_strat. cbn [ti_ix ti_off].
    replace (8 + 11 * Z.of_nat j + 11 - 1) with (8 + 11 * Z.of_nat j + 10) by lia. rewrite (read_strat _ _ _ _ _ E). now rewrite to_char_mod.
  - split; auto. split; auto. split; [cbn [ti_mark]; lia|]. split; [lia|]. cbn [ti_ix ti_off ti_end]. split; auto. split; [lia|auto].
  - unfold rest. rewrite (skipn_cons _ _ _ E). cbn [entries_of app]. reflexivity.
Qed.

Lemma rest_end f : (f < t_last t)%nat -> rest t G f (length (G f)) = rest t G (S f) 0.
Proof. intros H. rewrite rest_file by auto. now rewrite skipn_all. Qed.

Lemma hasNext_ok C i : Rem t G C i ->
  exists i', ti_hasNext t i = Some (nonempty C, i') /\ ti_key i' = ti_key i /\
    (C = [] -> Rem t G [] i') /\ (C <> [] -> exists f j, At t G f j i' /\ (j < length (G f))%nat /\ C = rest t G f j).
Proof.
  intros [(f & j & HA & ->)|[-> HD]].
  - destruct HA as (Hf & Ec & Em & Hj & Ex & Eo & Ee). unfold ti_hasNext. rewrite Eo, Ee.
    destruct (Z.eqb_spec (8 + 11 * Z.of_nat j) (8 + 11 * zlen (G f))) as [E|E].
    + assert (j = length (G f)) by (unfold zlen in E; lia). subst j. rewrite Ec. destruct (Nat.leb_spec (S (t_last t)) (S f)) as [Hl|Hl].
      * assert (f = t_last t) by lia. rewrite H in *. rewrite rest_last, skipn_all. cbn [entries_of nonempty]. eexists. split; [reflexivity|].
        split; [auto|]. split; [|congruence]. intros _. right. split; auto. split; [cbn; lia|]. split; [lia|]. cbn [ti_ix ti_off ti_end]. unfold zlen in *. auto.
      * rewrite open_ok by lia. rewrite rest_end by lia. pose proof (li_ne _ _ HL (S f) ltac:(lia)) as Hne.
        assert (Hn : nonempty (rest t G (S f) 0) = true).
        { unfold rest. cbn [skipn]. destruct (G (S f)) as [|[[? ?] ?] ?]; [congruence|reflexivity]. }
        rewrite Hn. eexists. split; [reflexivity|]. split; [auto|]. split; [intros E0; rewrite E0 in Hn; discriminate|]. intros _. exists (S f), 0%nat.
        split; [apply At_open; lia|]. split; auto. destruct (G (S f)); [congruence|cbn; lia].
    + assert (Hlt : (j < length (G f))%nat) by (unfold zlen in E; lia).
      destruct (next_ok f j i) as (c & i' & _ & _ & _ & Er); [split; [|split; [|split; [|split; [|split]]]]; auto|auto|].
      rewrite Er. cbn [nonempty]. exists i. split; auto. split; auto. split; [discriminate|]. intros _. exists f, j.
      split; [split; [|split; [|split; [|split; [|split]]]]; auto|]. auto.
  - destruct HD as (Hl & Hj & Ex & Eo & Ee). unfold ti_hasNext. rewrite Eo, Ee. unfold zlen. rewrite Z.eqb_refl.
    destruct (Nat.leb_spec (S (t_last t)) (S (ti_cur i))); [|lia]. eexists. split; [reflexivity|]. split; [auto|]. split; [|congruence].
    intros _. right. split; auto. split; [cbn; lia|]. split; [lia|]. cbn. auto.
Qed.

Lemma step_cons c r i : Rem t G (c :: r) i -> exists i1 i2, ti_hasNext t i = Some (true, i1) /\ ti_next i1 = Some i2 /\ On c i2 /\ Rem t G r i2.
Proof.
  intros H. destruct (hasNext_ok _ _ H) as (i1 & E1 & _ & _ & H1). destruct H1 as (f & j & HA & Hj & E); [discriminate|].
  destruct (next_ok f j i1 HA Hj) as (c' & i2 & E2 & HO & HA2 & Er). rewrite Er in E. injection E as <- ->.
  exists i1, i2. split; auto. split; auto. split; auto. left. eauto.
Qed.

Lemma step_nil i : Rem t G [] i -> exists i1, ti_hasNext t i = Some (false, i1) /\ Rem t G [] i1.
Proof. intros H. destruct (hasNext_ok _ _ H) as (i1 & E1 & _ & H1 & _). exists i1. auto. Qed.

Lemma ti_step_ok C i : Rem t G C i -> exists r, ti_step t i = Some r /\
  match C with [] => r = None | c :: C' => exists i2, r = Some i2 /\ On c i2 /\ Rem t G C' i2 end.
Proof.
  intros H. unfold ti_step. destruct C as [|c C'].
  - destruct (step_nil _ H) as (i1 & -> & _). eauto.
  - destruct (step_cons _ _ _ H) as (i1 & i2 & -> & -> & H1 & H2). eexists. split; [reflexivity|]. eauto.
Qed.

(** ** gotoKey *)
Lemma sorted_nth (l : list table_t) x y a b : StronglySorted Z.lt (map gkey l) ->
  nth_error l x = Some a -> nth_error l y = Some b -> (x < y)%nat -> gkey a < gkey b.
Proof.
  revert x y. induction l as [|c l IH]; intros x y Hs Hx Hy Hlt; [destruct x; discriminate|].
  cbn [map] in Hs. apply StronglySorted_inv in Hs. destruct Hs as [H1 H2]. destruct y as [|y]; [lia|]. cbn in Hy. destruct x as [|x].
  - cbn in Hx. injection Hx as ->. rewrite Forall_forall in H2. apply H2. apply in_map_iff. exists b. split; auto. eapply nth_error_In; eauto.
  - cbn in Hx. apply (IH x y); auto. lia.
Qed.

Lemma below_all (l : list table_t) n c k : StronglySorted Z.lt (map gkey l) -> nth_error l n = Some c -> gkey c <= k ->
  forall x d, (x < n)%nat -> nth_error l x = Some d -> gkey d < k.
Proof. intros Hs Hn Hk x d Hx Hd. pose proof (sorted_nth l x n d c Hs Hd Hn Hx). cbv beta in *. lia. Qed.

Lemma search_ok pad f j k : pad_ok pad -> forall fuel a b, (j <= a <= b)%nat -> (b <= length (G f))%nat -> (b - a <= fuel)%nat ->
  (forall x d, (j <= x < a)%nat -> nth_error (G f) x = Some d -> gkey d < k) ->
  exists c, ti_search fuel (idx_bytes (marksof 0 (G f)) ++ pad) (8 + 11 * Z.of_nat j) (8 + 11 * Z.of_nat a) (8 + 11 * Z.of_nat b) k
      = Some (Z.of_nat c - Z.of_nat j, 8 + 11 * Z.of_nat c) /\ (a <= c <= b)%nat /\
    (forall x d, (j <= x < c)%nat -> nth_error (G f) x = Some d -> gkey d < k).
Proof.
  intros Hpad. induction fuel as [|fuel IH]; intros a b Ha Hb Hf Hlow; cbn [ti_search];
    destruct (Z.ltb_spec (8 + 11 * Z.of_nat a) (8 + 11 * Z.of_nat b)) as [Hl|Hl]; try lia.
  - exists a. split; [f_equal; f_equal; lia|]. split; [lia|auto].
  - set (mid := (a + (b - a) / 2)%nat).
    assert (Em : 8 + 11 * Z.of_nat a + (8 + 11 * Z.of_nat b - (8 + 11 * Z.of_nat a)) / 11 / 2 * 11 = 8 + 11 * Z.of_nat mid).
    { unfold mid. rewrite Nat2Z.inj_add, Nat2Z.inj_div, Nat2Z.inj_sub by lia. replace ((8 + 11 * Z.of_nat b - (8 + 11 * Z.of_nat a)) / 11) with (Z.of_nat b - Z.of_nat a) by lia. change (Z.of_nat 2) with 2. lia. }
    rewrite Em. assert (Hm : (a <= mid < b)%nat). { unfold mid. pose proof (Nat.div_lt (b - a) 2 ltac:(lia) ltac:(lia)). lia. }
    clearbody mid. clear Em. destruct (nth_error (G f) mid) as [[[km sm] bm]|] eqn:E; [|apply nth_error_None in E; lia].
    destruct (li_ent _ _ HL f km sm bm (nth_error_In _ _ E)) as [Hk _].
    destruct (read_long _ pad _ _ _ _ Hpad E Hk) as (x & -> & Hx).
    pose proof (below_all (G f) mid _ x (li_sorted _ _ HL f) E Hx) as HB.
    destruct (Z.ltb_spec x k); [|destruct (Z.ltb_spec k x)].
    + destruct (IH (S mid) b) as (c & Ec & Hc & Hc2); try lia.
      { intros y d Hy Hd. destruct (Nat.eq_dec y mid) as [-> |]; [rewrite E in Hd; injection Hd as <-; cbn; lia|]. specialize (HB y d ltac:(lia) Hd). cbv beta in *. lia. }
      exists c. split; [|split; [lia|auto]]. rewrite <- Ec. f_equal. lia.
    + destruct (IH a mid) as (c & Ec & Hc & Hc2); try lia; auto. exists c. split; [|split; [lia|auto]]. now rewrite <- Ec.
    + exists mid. split; [f_equal; f_equal; lia|]. split; [lia|]. intros y d Hy Hd. specialize (HB y d ltac:(lia) Hd). cbv beta in *. lia.
  - exists a. split; [f_equal; f_equal; lia|]. split; [lia|auto].
Qed.

Lemma entries_below f j c k : (j <= c)%nat -> (forall x d, (j <= x < c)%nat -> nth_error (G f) x = Some d -> gkey d < k) ->
  exists C1, entries_of f j (skipn j (G f)) = C1 ++ entries_of f c (skipn c (G f)) /\ Forall (fun e => c_key e < k) C1.
Proof.
  intros Hjc. remember (c - j)%nat as n eqn:En. revert j Hjc En. induction n as [|n IH]; intros j Hjc En Hlow.
  - assert (j = c) by lia. subst j. exists []. auto.
  - destruct (nth_error (G f) j) as [[[kj sj] bj]|] eqn:E.
    + destruct (IH (S j) ltac:(lia) ltac:(lia) ltac:(intros x d Hx; apply Hlow; lia)) as (C1 & E1 & F1). exists ((kj, f, to_int32 (Z.of_nat j), sj) :: C1).
      rewrite (skipn_cons _ _ _ E). cbn [entries_of app]. rewrite E1. split; auto. constructor; auto. cbn. apply (Hlow j (kj, sj, bj)); auto. lia.
    + apply nth_error_None in E. rewrite !skipn_all2 by lia. exists []. auto.
Qed.

Lemma last_key f : (f <= t_last t)%nat -> exists k, rdn 5 (idx_bytes (marksof 0 (G f))) (8 + 11 * zlen (G f) - 6) = Some k /\
  forall x d, nth_error (G f) x = Some d -> gkey d <= k.
Proof.
  intros Hf. pose proof (li_ne _ _ HL f Hf) as Hne. destruct (nth_error (G f) (length (G f) - 1)) as [[[k s] b]|] eqn:E.
  - destruct (li_ent _ _ HL f k s b (nth_error_In _ _ E)) as [Hk _]. exists k. split.
    + rewrite <- (read_key _ _ _ _ _ E Hk). f_equal. unfold zlen. destruct (G f); [congruence|]. cbn [length]. lia.
    + intros x d Hd. assert (Hx : (x < length (G f))%nat) by (apply nth_error_Some; congruence).
      destruct (Nat.eq_dec x (length (G f) - 1)) as [-> |Hn]; [rewrite E in Hd; injection Hd as <-; cbn; lia|].
      pose proof (sorted_nth _ x _ _ _ (li_sorted _ _ HL f) Hd E ltac:(lia)). cbn [fst] in *. lia.
  - exfalso. apply nth_error_None in E. destruct (G f); [congruence|cbn in E; lia].
Qed.

Lemma goto_at pad k : pad_ok pad -> forall fuel f j i, At t G f j i ->
  (forall f', (f <= f' <= t_last t)%nat -> (f' - f + length (G f') < fuel)%nat) ->
  exists i' C1 C2, ti_goto fuel pad t k i = Some i' /\ rest t G f j = C1 ++ C2 /\ Forall (fun c => c_key c < k) C1 /\ Rem t G C2 i'.
Proof.
  intros Hpad. induction fuel as [|fuel IH]; intros f j i HA Hfuel; pose proof HA as (Hf & Ec & Em & Hj & Ex & Eo & Ee).
  { specialize (Hfuel f). lia. }
  cbn [ti_goto]. rewrite Ex, Ee.
  destruct (last_key f Hf) as (lk & -> & Hlk). destruct (Z.ltb_spec lk k) as [Hlt|Hge].
  - assert (Hlow : forall x d, (j <= x < length (G f))%nat -> nth_error (G f) x = Some d -> gkey d < k).
    { intros x d _ Hd. specialize (Hlk x d Hd). cbv beta in *. lia. }
    destruct (entries_below f j (length (G f)) k Hj Hlow) as (C1 & E1 & F1). rewrite skipn_all in E1. cbn [entries_of] in E1. rewrite app_nil_r in E1.
    rewrite Ec. destruct (Nat.ltb_spec f (t_last t)) as [Hfl|Hfl].
    + rewrite open_ok by lia. rewrite (rest_file t G f j Hfl), E1.
      destruct (IH (S f) 0%nat _ (At_open (S f) (ti_key i) ltac:(lia))) as (i' & D1 & D2 & Ei & Ed & Fd & HR).
      { intros f' Hf'. specialize (Hfuel f' ltac:(lia)). lia. }
      exists i', (C1 ++ D1), D2. split; auto. split; [rewrite Ed; apply app_assoc|]. split; auto. now apply Forall_app.
    + assert (f = t_last t) by lia. eexists. exists C1, []. split; [reflexivity|]. split; [|split; [auto|]].
      * rewrite app_nil_r, <- E1. rewrite H. apply rest_last.
      * left. exists f, (length (G f)). split; [|rewrite H, rest_last, skipn_all; reflexivity].
        split; [auto|]. split; [auto|]. split; [cbn [ti_mark]; rewrite Em, Eo; unfold zlen; lia|]. split; [lia|]. cbn [ti_ix ti_off ti_end]. unfold zlen. auto.
  - rewrite Eo. unfold zlen.
    destruct (search_ok pad f j k Hpad (S fuel) j (length (G f))) as (c & Es & Hc & Hlow); try lia.
    { specialize (Hfuel f). lia. }
    rewrite Es. destruct (entries_below f j c k ltac:(lia) Hlow) as (C1 & E1 & F1).
    eexists. exists C1, (rest t G f c). split; [reflexivity|]. split; [|split; [auto|]].
    + unfold rest. rewrite E1. symmetry. apply app_assoc.
    + left. exists f, c. split; auto. split; auto. split; auto. split; [cbn; lia|]. split; [lia|]. cbn. unfold zlen in Ee. auto.
Qed.

Lemma coords_files n f : (forall x, (f <= x < f + n)%nat -> G x <> []) ->
  (n <= length (flat_map (fun f => entries_of f 0 (G f)) (seq f n)))%nat.
Proof.
  revert f. induction n as [|n IH]; intros f H; [lia|]. cbn [seq flat_map]. rewrite app_length, entries_length.
  specialize (IH (S f) ltac:(intros x Hx; apply H; lia)). specialize (H f ltac:(lia)). destruct (G f); [congruence|cbn [length]; lia].
Qed.

Lemma coords_fuel f : (f <= t_last t)%nat -> (f + length (G f) <= length (all_coords t G))%nat.
Proof.
  intros Hf. unfold all_coords. replace (S (t_last t)) with (f + S (t_last t - f))%nat by lia. rewrite seq_app, flat_map_app, app_length.
  cbn [seq flat_map Nat.add]. rewrite app_length, entries_length.
  pose proof (coords_files f 0) as H. specialize (H ltac:(intros x Hx; apply (li_ne _ _ HL); lia)). lia.
Qed.

Lemma goto_ok pad k fuel C i : pad_ok pad -> Rem t G C i -> (length (all_coords t G) < fuel)%nat ->
  exists i' C1 C2, ti_goto fuel pad t k i = Some i' /\ C = C1 ++ C2 /\ Forall (fun c => c_key c < k) C1 /\ Rem t G C2 i'.
Proof.
  intros Hpad [(f & j & HA & ->)|[-> HD]] Hfuel.
  - apply goto_at; auto. intros f' Hf'. pose proof (coords_fuel f' ltac:(lia)). lia.
  - destruct HD as (Hl & Hj & Ex & Eo & Ee). destruct fuel as [|fuel]; [lia|]. cbn [ti_goto]. rewrite Ex, Ee.
    destruct (last_key (t_last t) ltac:(lia)) as (lk & -> & _). destruct (Z.ltb_spec lk k).
    + destruct (Nat.ltb_spec (ti_cur i) (t_last t)); [lia|]. eexists. exists [], []. split; [reflexivity|]. split; auto. split; auto. right. split; auto.
      split; [cbn; lia|]. split; [lia|]. cbn [ti_ix ti_off ti_end]. unfold zlen. auto.
    + rewrite Eo. unfold zlen. cbn [ti_search]. destruct (Z.ltb_spec (8 + 11 * Z.of_nat (length (G (t_last t)))) (8 + 11 * Z.of_nat (length (G (t_last t))))); [lia|].
      eexists. exists [], []. split; [reflexivity|]. split; auto. split; auto. right. split; auto.
      split; [cbn; lia|]. split; [lia|]. cbn [ti_ix ti_off ti_end]. unfold zlen. auto.
Qed.

End Moves.
