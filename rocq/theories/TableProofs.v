(** Proofs about fixed-width fields and the row layout. *)
From Coq Require Import Sorted Lia.
From Verif Require Export TableModel TableSpec ItrProofs.
From Verif Require Import ArrayProofs CompProofs.
Local Open Scope Z_scope.
Ltac Zify.zify_post_hook ::= Z.div_mod_to_equations.

Notation zlen l := (Z.of_nat (length l)).

(** ** Memory *)
Lemma contains_app m p x y : contains m p (x ++ y) -> contains m p x /\ contains m (p + zlen x) y.
Proof.
  intros (pre & suf & -> & ->). split.
  - exists pre, (y ++ suf). now rewrite <- !app_assoc.
  - exists (pre ++ x), suf. rewrite <- !app_assoc. split; auto. rewrite app_length. lia.
Qed.

Lemma contains_bound m p x : contains m p x -> 0 <= p /\ p + zlen x <= zlen m.
Proof. intros (pre & suf & -> & ->). rewrite !app_length. lia. Qed.

Lemma contains_nil m p : 0 <= p <= zlen m -> contains m p [].
Proof.
  intros H. exists (firstn (Z.to_nat p) m), (skipn (Z.to_nat p) m). cbn [app].
  split; [now rewrite firstn_skipn|]. rewrite firstn_length. lia.
Qed.

Lemma app_len_inj {A} (a b c d : list A) : length a = length c -> a ++ b = c ++ d -> a = c /\ b = d.
Proof.
  revert c. induction a as [|x a IH]; intros [|y c] Hl H; cbn in *; try lia; auto.
  injection H as -> H. destruct (IH c) as [-> ->]; auto.
Qed.

Lemma contains_join m p x y : contains m p x -> contains m (p + zlen x) y -> contains m p (x ++ y).
Proof.
  intros (pre & suf & E1 & E2) (pre' & suf' & E3 & E4).
  exists pre, suf'. split; auto. rewrite E1 in E3.
  rewrite app_assoc in E3. apply app_len_inj in E3 as [E5 E6]; [|rewrite app_length; lia].
  subst suf. rewrite E1. now rewrite <- !app_assoc.
Qed.

Lemma getb_contains m p b bs : contains m p (b :: bs) -> getb m p = Some b.
Proof.
  intros (pre & suf & -> & ->). unfold getb.
  rewrite (proj2 (Z.leb_le _ _) (Nat2Z.is_nonneg _)), Nat2Z.id. rewrite nth_error_app2 by lia. now rewrite Nat.sub_diag.
Qed.

Lemma enc_length w : forall v, length (enc w v) = w.
Proof. induction w as [|w IH]; intros v; cbn [enc]; auto. rewrite app_length, IH. cbn. lia. Qed.

Lemma pow256_S w : 2 ^ (8 * Z.of_nat (S w)) = 256 * 2 ^ (8 * Z.of_nat w).
Proof.
  replace (8 * Z.of_nat (S w)) with (8 + 8 * Z.of_nat w) by lia.
  rewrite Z.pow_add_r by lia. reflexivity.
Qed.

Lemma rdn_enc w : forall m p v, contains m p (enc w v) -> 0 <= v < 2 ^ (8 * Z.of_nat w) ->
  rdn w m p = Some v.
Proof.
  induction w as [|w IH]; intros m p v H Hv.
  - cbn in Hv |- *. f_equal. lia.
  - cbn [enc] in H. apply contains_app in H as [H1 H2]. cbn [rdn].
    rewrite pow256_S in Hv.
    rewrite (IH m p (v / 256) H1) by (split; [lia|apply Z.div_lt_upper_bound; lia]).
    rewrite enc_length in H2. rewrite (getb_contains _ _ _ _ H2).
    f_equal. lia.
Qed.

Lemma rd_enc w m p v : contains m p (enc w v) -> fits w v -> rd w m p = Some v.
Proof.
  intros H Hv. unfold rd, fits in *.
  assert (Hw : 0 <= v < 2 ^ (8 * Z.of_nat w)).
  { destruct ((w =? 5)%nat || (w =? 8)%nat) eqn:E; auto.
    assert (2 ^ (8 * Z.of_nat w - 1) <= 2 ^ (8 * Z.of_nat w)) by (apply Z.pow_le_mono_r; lia).
    lia. }
  rewrite (rdn_enc w m p v H Hw).
  destruct ((w =? 5)%nat || (w =? 8)%nat) eqn:E; cbn [andb]; auto.
  destruct (_ <=? v) eqn:E2; [lia|reflexivity].
Qed.

(** ** Lists *)
Lemma tw_dw {A} (p : A -> bool) l : takewhile p l ++ dropwhile p l = l.
Proof. induction l as [|a l IH]; cbn; auto. destruct (p a); cbn; now rewrite ?IH. Qed.

Lemma tw_all {A} (p : A -> bool) l : Forall (fun x => p x = true) (takewhile p l).
Proof. induction l as [|a l IH]; cbn; auto. destruct (p a) eqn:E; auto. Qed.

Lemma dw_head {A} (p : A -> bool) l x t : dropwhile p l = x :: t -> p x = false.
Proof.
  induction l as [|a l IH]; cbn; [discriminate|]. destruct (p a) eqn:E; auto. now intros [= -> ->].
Qed.

Lemma filter_true {A} (p : A -> bool) l : Forall (fun x => p x = true) l -> filter p l = l.
Proof. induction 1; cbn; auto. now rewrite H, IHForall. Qed.

(** In a sorted list, skipping a predicate that never comes back is filtering. *)
Lemma dw_filter {A} (R : A -> A -> Prop) (p : A -> bool) l : StronglySorted R l ->
  (forall x y, In x l -> R x y -> p y = true -> p x = true) ->
  dropwhile p l = filter (fun x => negb (p x)) l.
Proof.
  intros Hs Hp. induction Hs as [|a l Hs IH Hf]; cbn; auto.
  destruct (p a) eqn:E; cbn [negb]; auto.
  - apply IH. intros x y Hx. apply Hp. now right.
  - f_equal. symmetry. apply filter_true. eapply Forall_impl; [|exact Hf].
    cbn. intros y Hy. destruct (p y) eqn:E'; auto.
    rewrite (Hp a y (or_introl eq_refl) Hy E') in E. discriminate.
Qed.

Lemma SS_tail {A} (R : A -> A -> Prop) x l : StronglySorted R (x :: l) -> StronglySorted R l.
Proof. now inversion 1. Qed.
Lemma SS_app_l {A} (R : A -> A -> Prop) l l' : StronglySorted R (l ++ l') -> StronglySorted R l.
Proof. intros H. apply (SS_app R) in H. tauto. Qed.
Lemma SS_app_r {A} (R : A -> A -> Prop) l l' : StronglySorted R (l ++ l') -> StronglySorted R l'.
Proof. intros H. apply (SS_app R) in H. tauto. Qed.

Lemma SS_dw {A} (R : A -> A -> Prop) p l : StronglySorted R l -> StronglySorted R (dropwhile p l).
Proof. intros H. rewrite <- (tw_dw p l) in H. now apply SS_app_r in H. Qed.
Lemma SS_filter {A} (R : A -> A -> Prop) p l : StronglySorted R l -> StronglySorted R (filter p l).
Proof.
  induction 1 as [|a l Hs IH Hf]; cbn; [constructor|]. destruct (p a); auto.
  constructor; auto. rewrite Forall_forall in *. intros x Hx. apply filter_In in Hx. apply Hf. tauto.
Qed.

Lemma plt_trans x y z : plt x y -> plt y z -> plt x z. Proof. unfold plt. lia. Qed.

(** Groups of a sorted list. *)
Lemma nodup_run a l l' : (forall x, In x l -> x = a) -> l <> [] -> ~ In a l' ->
  nodup Z.eq_dec (l ++ l') = a :: nodup Z.eq_dec l'.
Proof.
  intros Ha Hne Hn. induction l as [|b l IH]; [congruence|].
  assert (b = a) by (apply Ha; now left). subst b. cbn [app nodup].
  destruct (in_dec Z.eq_dec a (l ++ l')) as [H|H].
  - destruct l as [|b l]; [contradiction|]. apply IH; [|discriminate]. intros x Hx. apply Ha. now right.
  - destruct l as [|b l]; [reflexivity|].
    exfalso. apply H. left. apply Ha. right; now left.
Qed.

Lemma groups_run a l l' : l <> [] -> (forall x, In x l -> fst x = a) ->
  (forall x, In x l' -> fst x <> a) ->
  groups (l ++ l') = (a, zlen l) :: groups l'.
Proof.
  intros Hne Hl Hl'. unfold groups. rewrite map_app. rewrite (nodup_run a).
  - cbn [map]. f_equal.
    + f_equal. f_equal. rewrite filter_app, app_length.
      rewrite (filter_true _ l), (filter_false _ l'); [cbn; lia|..].
      * apply Forall_forall. intros x Hx. specialize (Hl' x Hx). lia.
      * apply Forall_forall. intros x Hx. specialize (Hl x Hx). lia.
    + apply map_ext_in. intros b Hb. apply nodup_In in Hb.
      apply in_map_iff in Hb as (x & <- & Hx). f_equal. f_equal. f_equal.
      rewrite filter_app, (filter_false _ l); auto.
      apply Forall_forall. intros y Hy. specialize (Hl y Hy). specialize (Hl' x Hx). lia.
  - intros x Hx. apply in_map_iff in Hx as (y & <- & Hy). auto.
  - destruct l; [congruence|discriminate].
  - intros Hx. apply in_map_iff in Hx as (y & E & Hy). now apply (Hl' y).
Qed.

Definition eq1 (a : Z) (e : Z * Z) : bool := fst e =? a.

Lemma groups_cons x l : StronglySorted plt (x :: l) ->
  groups (x :: l) = (fst x, 1 + zlen (takewhile (eq1 (fst x)) l)) :: groups (dropwhile (eq1 (fst x)) l).
Proof.
  intros Hs. rewrite <- (tw_dw (eq1 (fst x)) l) at 1.
  change (x :: ?a ++ ?b) with ((x :: a) ++ b). rewrite (groups_run (fst x)).
  - cbn [length]. f_equal. f_equal. lia.
  - discriminate.
  - intros y [<-|Hy]; auto. pose proof (tw_all (eq1 (fst x)) l) as H.
    rewrite Forall_forall in H. specialize (H y Hy). unfold eq1 in H. lia.
  - intros y Hy. inversion Hs as [|? ? Hs' Hf]; subst.
    rewrite (dw_filter plt (eq1 (fst x)) l) in Hy; auto.
    + apply filter_In in Hy as [_ Hy]. unfold eq1 in Hy. lia.
    + intros u v Hu Huv Hv. rewrite Forall_forall in Hf. specialize (Hf u Hu).
      unfold eq1, plt in *. lia.
Qed.

Lemma groups_filter_ne a l : StronglySorted plt l -> (forall x, In x l -> a <= fst x) ->
  dropwhile (eq1 a) l = filter (fun e => negb (fst e =? a)) l.
Proof.
  intros Hs Ha. apply (dw_filter plt); auto. intros x y Hx Hxy Hy.
  specialize (Ha x Hx). unfold eq1, plt in *. lia.
Qed.

(** A cursor delivers its pairs. *)
Lemma sim_yields k bk S : cursor_sim k bk S -> forall l c mk o, S c mk l o -> Yields true (with_key k l) o.
Proof.
  intros Hsim.
  induction l as [|x l IH]; intros c mk o HS; rewrite Yields_unfold; intros o' Hp.
  - assert (HS' : S c mk [] o').
    { clear - Hp HS Hsim. induction Hp as [|o1 b o2 Hp IH Hb]; auto.
      destruct (Hsim _ _ _ _ IH) as ((E & _) & _). congruence. }
    destruct (Hsim _ _ _ _ HS') as ((E & _) & _). exists o'. split; [exact E|exact I].
  - assert (HS' : S c mk (x :: l) o').
    { clear - Hp HS Hsim. induction Hp as [|o1 b o2 Hp IH Hb]; auto.
      destruct (Hsim _ _ _ _ IH) as ((E & _) & _). congruence. }
    destruct (Hsim _ _ _ _ HS') as ((E & o2 & N & C & H2) & _).
    exists o'. split; [exact E|]. exists o2. split; [exact N|]. split; [exact C|].
    split; [|eapply IH; eauto]. intros _. exists 1.
    destruct (Hsim _ _ _ _ H2) as (_ & G & _). exact G.
Qed.

Lemma Cursor_yields k bk l o : Cursor k bk l o -> Yields true (with_key k l) o.
Proof. intros (S & Hsim & HS). eapply sim_yields; eauto. Qed.

Lemma scan_yields k S : scan_sim k S -> forall l mk o, S mk l o -> Yields true (with_key k l) o.
Proof.
  intros Hsim.
  induction l as [|x l IH]; intros mk o HS; rewrite Yields_unfold; intros o' Hp.
  - assert (HS' : S mk [] o').
    { clear - Hp HS Hsim. induction Hp as [|o1 b o2 Hp IH Hb]; auto.
      destruct (Hsim _ _ _ IH) as ((E & _) & _). congruence. }
    destruct (Hsim _ _ _ HS') as ((E & _) & _). exists o'. split; [exact E|exact I].
  - assert (HS' : S mk (x :: l) o').
    { clear - Hp HS Hsim. induction Hp as [|o1 b o2 Hp IH Hb]; auto.
      destruct (Hsim _ _ _ IH) as ((E & _) & _). congruence. }
    destruct (Hsim _ _ _ HS') as ((E & o2 & N & C & H2) & _).
    exists o'. split; [exact E|]. exists o2. split; [exact N|]. split; [exact C|].
    split; [|eapply IH; eauto]. intros _. exists 1.
    destruct (Hsim _ _ _ H2) as (_ & G & _). exact G.
Qed.

(** ** Client programs *)
Lemma cursor_advance k bk S l : cursor_sim k bk S -> forall i c mk o, S c mk l o -> (i <= length l)%nat ->
  exists o', advance i o = Some o' /\ S (if i then c else nth_error l (pred i)) mk (skipn i l) o'.
Proof.
  intros HS. induction l as [|x l IH]; intros i c mk o H Hi; (destruct i as [|i]; [exists o; auto|]); cbn [length] in Hi; [lia|].
  destruct (HS _ _ _ _ H) as ((E & o2 & N & _ & H2) & _).
  destruct (IH i (Some x) mk o2 H2 ltac:(lia)) as (o' & E' & H').
  exists o'. cbn [advance nonempty] in *. rewrite E, N, E'. split; auto.
  cbn [skipn pred]. destruct i; exact H'.
Qed.

Lemma gcursor_advance k bk S l : gcursor_sim k bk S -> forall i c mk o, S c mk l o -> (i <= length l)%nat ->
  exists o', advance i o = Some o' /\ S (if i then c else nth_error l (pred i)) mk (skipn i l) o'.
Proof.
  intros HS. induction l as [|x l IH]; intros i c mk o H Hi; (destruct i as [|i]; [exists o; auto|]); cbn [length] in Hi; [lia|].
  destruct (HS _ _ _ _ H) as ((E & o2 & N & _ & _ & H2) & _).
  destruct (IH i (Some x) mk o2 H2 ltac:(lia)) as (o' & E' & H').
  exists o'. cbn [advance nonempty] in *. rewrite E, N, E'. split; auto.
  cbn [skipn pred]. destruct i; exact H'.
Qed.

Lemma gcursor_drain k bk S : gcursor_sim k bk S -> forall l c mk o fuel, S c mk l o -> (length l < fuel)%nat ->
  gdrain fuel o = Some l.
Proof.
  intros HS. induction l as [|x l IH]; intros c mk o fuel H Hf; (destruct fuel as [|fuel]; cbn [length] in Hf; [lia|]).
  - destruct (HS _ _ _ _ H) as ((E & _) & _). cbn [gdrain]. now rewrite E.
  - destruct (HS _ _ _ _ H) as ((E & o2 & N & _ & V & H2) & _).
    destruct (HS _ _ _ _ H2) as (_ & (n & C & Hn) & _). specialize (Hn x eq_refl). subst n.
    cbn [gdrain nonempty] in *. rewrite E, N, C, (IH _ _ _ fuel H2) by lia. rewrite V. now destruct x.
Qed.

Lemma client_moveto k bk l o i c1 c2 : Cursor k bk l o -> (i < length l)%nat -> int64 c1 -> int64 c2 ->
  exists o1 o2, advance (S i) o = Some o1 /\ moveto o1 c1 c2 = Some o2 /\
    Yields true (with_key k (filter (fun e => negb (pair_lt e c1 c2)) (skipn i l))) o2.
Proof.
  intros (S0 & HS & H0) Hi H1 H2.
  destruct (cursor_advance _ _ _ l HS (S i) _ _ _ H0 ltac:(lia)) as (o1 & E & H).
  cbn [pred] in H.
  assert (Hsk : exists x, nth_error l i = Some x /\ skipn i l = x :: skipn (S i) l).
  { clear - Hi. revert i Hi. induction l as [|y l IH]; intros i Hi; cbn [length] in Hi; [lia|].
    destruct i as [|i]; [exists y; auto|]. cbn [nth_error skipn]. destruct (IH i ltac:(lia)) as (x & ? & ?). eauto. }
  destruct Hsk as (x & Ex & Esk). rewrite Ex in H.
  destruct (HS _ _ _ _ H) as (_ & _ & M & _). destruct (M x c1 c2 eq_refl H1 H2) as (o2 & E2 & H3).
  exists o1, o2. split; auto. split; auto. rewrite Esk. eapply sim_yields; eauto.
Qed.

Lemma client_reset k bk l o i j n : Cursor k bk l o -> (i + j <= length l)%nat ->
  exists o1 o2 o3 o4, advance i o = Some o1 /\ mark o1 = Some o2 /\ advance j o2 = Some o3 /\
    reset o3 n = Some o4 /\ Yields true (with_key k (skipn i l)) o4.
Proof.
  intros (S0 & HS & H0) Hi.
  destruct (cursor_advance _ _ _ l HS i _ _ _ H0 ltac:(lia)) as (o1 & E1 & H1).
  destruct (HS _ _ _ _ H1) as (_ & _ & _ & (o2 & E2 & H2) & _).
  destruct (cursor_advance _ _ _ _ HS j _ _ _ H2) as (o3 & E3 & H3); [rewrite skipn_length; lia|].
  destruct (HS _ _ _ _ H3) as (_ & _ & _ & _ & R & _). destruct (R _ n eq_refl) as (o4 & E4 & H4).
  exists o1, o2, o3, o4. repeat (split; auto). eapply sim_yields; eauto.
Qed.

Lemma client_scan_reset k l o i j n : Scan k l o -> (i + j <= length l)%nat ->
  exists o1 o2 o3 o4, advance i o = Some o1 /\ mark o1 = Some o2 /\ advance j o2 = Some o3 /\
    reset o3 n = Some o4 /\ Yields true (with_key k (skipn i l)) o4.
Proof.
  intros (S0 & HS & H0) Hi.
  assert (HA : forall i l mk o, S0 mk l o -> (i <= length l)%nat -> exists o', advance i o = Some o' /\ S0 mk (skipn i l) o').
  { clear - HS. induction i as [|i IH]; intros l mk o H Hi; [eexists; split; [reflexivity|auto]|].
    destruct l as [|x l]; cbn [length] in Hi; [lia|].
    destruct (HS _ _ _ H) as ((E & o2 & N & _ & H2) & _).
    destruct (IH l mk o2 H2 ltac:(lia)) as (o' & E' & H'). exists o'. cbn [advance nonempty] in *. rewrite E, N, E'. auto. }
  destruct (HA i _ _ _ H0 ltac:(lia)) as (o1 & E1 & H1).
  destruct (HS _ _ _ H1) as (_ & _ & (o2 & E2 & H2) & _).
  destruct (HA j _ _ _ H2) as (o3 & E3 & H3); [rewrite skipn_length; lia|].
  destruct (HS _ _ _ H3) as (_ & _ & _ & R). destruct (R _ n eq_refl) as (o4 & E4 & H4).
  exists o1, o2, o3, o4. repeat (split; auto). eapply scan_yields; eauto.
Qed.

Lemma client_ignore k bk l o : Ignores k bk l o ->
  exists o1, ignoreSecondColumn o = Some o1 /\ forall fuel, (length l < fuel)%nat -> gdrain fuel o1 = Some (groups l).
Proof.
  intros (o1 & E & S0 & HS & H). exists o1. split; auto. intros fuel Hf. eapply gcursor_drain; eauto.
  unfold groups. rewrite map_length.
  assert (length (nodup Z.eq_dec (map fst l)) <= length l)%nat; [|lia].
  rewrite <- (map_length fst l). apply NoDup_incl_length; [apply NoDup_nodup|]. intros x Hx. now apply nodup_In in Hx.
Qed.

Lemma client_gmoveto k l o i c1 c2 : Ignores k true l o -> (i < length (groups l))%nat -> int64 c1 ->
  exists o1 o2 o3, ignoreSecondColumn o = Some o1 /\ advance (S i) o1 = Some o2 /\ moveto o2 c1 c2 = Some o3 /\
    forall fuel, (length l < fuel)%nat ->
    gdrain fuel o3 = Some (filter (fun g => c1 <=? fst g) (skipn i (groups l))).
Proof.
  intros (o1 & E & S0 & HS & H0) Hi H1.
  assert (Hlen : (length (groups l) <= length l)%nat).
  { unfold groups. rewrite map_length. rewrite <- (map_length fst l).
    apply NoDup_incl_length; [apply NoDup_nodup|]. intros x Hx. now apply nodup_In in Hx. }
  revert Hi Hlen H0. generalize (groups l) as g. intros g Hi Hlen H0.
  destruct (gcursor_advance _ _ _ g HS (S i) _ _ _ H0 ltac:(lia)) as (o2 & E2 & H).
  cbn [pred] in H.
  assert (Hsk : exists x, nth_error g i = Some x /\ skipn i g = x :: skipn (S i) g).
  { clear - Hi. revert i Hi. induction g as [|y g IH]; intros i Hi; cbn [length] in Hi; [lia|].
    destruct i as [|i]; [exists y; auto|]. cbn [nth_error skipn]. destruct (IH i ltac:(lia)) as (x & ? & ?). eauto. }
  destruct Hsk as (x & Ex & Esk). rewrite Ex in H.
  destruct (HS _ _ _ _ H) as (_ & _ & M & _). destruct (M x c1 c2 eq_refl H1 (or_introl eq_refl)) as (o3 & E3 & H3).
  exists o1, o2, o3. repeat (split; auto). intros fuel Hf. rewrite Esk. eapply gcursor_drain; eauto.
  assert (HL : forall (p : Z * Z -> bool) l, (length (filter p l) <= length l)%nat).
  { clear. intros p l. induction l as [|a l IH]; cbn; auto. destruct (p a); cbn; lia. }
  specialize (HL (fun g => c1 <=? fst g) (x :: skipn (S i) g)). rewrite <- Esk, skipn_length in HL. rewrite <- Esk. lia.
Qed.
