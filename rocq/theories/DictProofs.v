(** Proofs about the dictionary: one layer, and the file of the small updates. *)
From Coq Require Import Permutation ZifyBool.
From Verif Require Import UpdProofs2 DictSpec.
Local Open Scope Z_scope.

(** ** Association lists *)
Lemma lookup_some t i l : lookup t l = Some i -> In (t, i) l.
Proof.
  induction l as [|[k v] r IH]; cbn; [discriminate|].
  destruct (text_eqb t k) eqn:E; [|auto]. apply text_eqb_eq in E. intros H. injection H as ->.
  subst. now left.
Qed.
Lemma lookup_none t l : lookup t l = None <-> ~ In t (map fst l).
Proof.
  induction l as [|[k v] r IH]; cbn; [tauto|].
  destruct (text_eqb t k) eqn:E.
  - apply text_eqb_eq in E. subst. split; [discriminate|tauto].
  - apply text_eqb_ne in E. rewrite IH. split; [intros H [H'|H']; congruence || auto|tauto].
Qed.
Lemma lookup_in t i l : NoDup (map fst l) -> In (t, i) l -> lookup t l = Some i.
Proof.
  induction l as [|[k v] r IH]; cbn; [tauto|]. intros Hn [H|H]; inversion Hn; subst.
  - injection H as -> ->. now rewrite text_eqb_refl.
  - destruct (text_eqb t k) eqn:E; auto. apply text_eqb_eq in E. subst. exfalso.
    apply (in_map fst) in H. auto.
Qed.
Lemma lookupZ_some {A} t (i : A) l : lookupZ t l = Some i -> In (t, i) l.
Proof.
  induction l as [|[k v] r IH]; cbn; [discriminate|].
  destruct (t =? k) eqn:E; [|auto]. intros H. injection H as ->.
  left. f_equal. lia.
Qed.
Lemma lookupZ_none {A} t (l : list (Z * A)) : lookupZ t l = None <-> ~ In t (map fst l).
Proof.
  induction l as [|[k v] r IH]; cbn; [tauto|].
  destruct (t =? k) eqn:E.
  - split; [discriminate|]. intros H. exfalso. apply H. left. lia.
  - rewrite IH. split; [intros H [H'|H']; [lia|auto]|tauto].
Qed.
Lemma lookupZ_in {A} t (i : A) l : NoDup (map fst l) -> In (t, i) l -> lookupZ t l = Some i.
Proof.
  induction l as [|[k v] r IH]; cbn; [tauto|]. intros Hn [H|H]; inversion Hn; subst.
  - injection H as -> ->. now rewrite Z.eqb_refl.
  - destruct (t =? k) eqn:E; auto. exfalso. apply (in_map fst) in H. cbn in H.
    replace k with t in * by lia. auto.
Qed.

(** ** One layer *)
Record layer_ok (l : layer) (B : list (text * Z)) : Prop := {
  ok_t : forall t i, lookup t (t2i l) = Some i <-> In (t, i) B;
  ok_c : forall i c, lookupZ i (i2c l) = Some c -> exists t, nth_error (sb l) c = Some t /\ In (t, i) B;
  ok_i : forall t i, In (t, i) B -> exists c, lookupZ i (i2c l) = Some c /\ nth_error (sb l) c = Some t;
  ok_k : forall k, In k (map fst (i2c l)) <-> In k (map snd B) }.

Lemma layer_empty : layer_ok (mkL [] [] []) [].
Proof. constructor; cbn; try tauto; intros; try discriminate; split; [discriminate|tauto]. Qed.

Lemma layer_ext l B B' : (forall x, In x B <-> In x B') -> layer_ok l B -> layer_ok l B'.
Proof.
  intros H [A1 A2 A3 A4]. constructor.
  - intros t i. now rewrite A1, H.
  - intros i c Hc. destruct (A2 i c Hc) as (t & H1 & H2). exists t. split; auto. now apply H.
  - intros t i Hi. apply A3. now apply H.
  - intros k. rewrite A4. rewrite !in_map_iff. split; intros (x & Hx & Hin); exists x; split; auto; now apply H.
Qed.

Lemma layer_add l B t id : layer_ok l B -> ~ In t (map fst B) -> ~ In id (map snd B) ->
  layer_ok (mkL ((t, id) :: t2i l) ((id, length (sb l)) :: i2c l) (sb l ++ [t])) (B ++ [(t, id)]).
Proof.
  intros [A1 A2 A3 A4] Ht Hi. constructor; cbn [t2i i2c sb].
  - intros x i. cbn [lookup]. rewrite in_app_iff. cbn [In]. destruct (text_eqb x t) eqn:E.
    + apply text_eqb_eq in E. subst. split.
      * intros H. injection H as ->. auto.
      * intros [H|[H|[]]]; [|congruence]. apply (in_map fst) in H. contradiction.
    + apply text_eqb_ne in E. rewrite A1. split; [auto|]. intros [H|[H|[]]]; congruence.
  - intros i c. cbn [lookupZ]. destruct (i =? id) eqn:E.
    + intros H. injection H as <-. exists t. rewrite nth_error_app2, Nat.sub_diag by lia. split; auto.
      apply in_or_app. right. left. f_equal. lia.
    + intros H. destruct (A2 i c H) as (x & H1 & H2). exists x. split.
      * rewrite nth_error_app1; auto. apply nth_error_Some. congruence.
      * apply in_or_app; auto.
  - intros x i H. apply in_app_or in H. cbn [lookupZ]. destruct H as [H|[H|[]]].
    + destruct (i =? id) eqn:E.
      { exfalso. apply Hi. replace id with i by lia. apply (in_map snd) in H. auto. }
      destruct (A3 x i H) as (c & H1 & H2). exists c. split; auto.
      rewrite nth_error_app1; auto. apply nth_error_Some. congruence.
    + injection H as -> ->. rewrite Z.eqb_refl. exists (length (sb l)). split; auto.
      rewrite nth_error_app2, Nat.sub_diag by lia. reflexivity.
  - intros k. cbn [map fst]. rewrite map_app, in_app_iff. cbn. rewrite A4. tauto.
Qed.

Lemma write_layer_ok : forall new l B, layer_ok l B ->
  NoDup (map fst (B ++ new)) -> NoDup (map snd (B ++ new)) ->
  layer_ok (write_layer l new) (B ++ new).
Proof.
  induction new as [|[t id] new IH]; intros l B Hl H1 H2; cbn [write_layer].
  { now rewrite app_nil_r. }
  assert (Ht : ~ In t (map fst B)).
  { rewrite map_app in H1. cbn in H1. apply NoDup_remove_2 in H1. intros H. apply H1, in_or_app; auto. }
  assert (Hi : ~ In id (map snd B)).
  { rewrite map_app in H2. cbn in H2. apply NoDup_remove_2 in H2. intros H. apply H2, in_or_app; auto. }
  unfold insert_if_not_exists. destruct (lookup t (t2i l)) eqn:E.
  { apply (ok_t _ _ Hl) in E. apply (in_map fst) in E. contradiction. }
  replace (B ++ (t, id) :: new) with ((B ++ [(t, id)]) ++ new) in * by now rewrite <- app_assoc.
  apply IH; auto. unfold inv_put; cbn [t2i i2c sb]. now apply layer_add.
Qed.

Lemma nodup_app_r {X} (a b : list X) : NoDup (a ++ b) -> NoDup b.
Proof. induction a; cbn; auto. intros H. inversion H; auto. Qed.

(** ** Loading *)
Definition numbered (ts : list text) (start : nat) : list (text * Z) :=
  combine ts (map Z.of_nat (seq start (length ts))).

Lemma numbered_fst ts n : map fst (numbered ts n) = ts.
Proof.
  unfold numbered. revert n. induction ts as [|t ts IH]; intros n; cbn; auto. now rewrite IH.
Qed.
Lemma numbered_snd ts n : map snd (numbered ts n) = map Z.of_nat (seq n (length ts)).
Proof.
  unfold numbered. revert n. induction ts as [|t ts IH]; intros n; cbn; auto. now rewrite IH.
Qed.
Lemma numbered_cons t ts n : numbered (t :: ts) n = (t, Z.of_nat n) :: numbered ts (S n).
Proof. reflexivity. Qed.
Lemma numbered_app a b n : numbered (a ++ b) n = numbered a n ++ numbered b (n + length a).
Proof.
  revert n. induction a as [|t a IH]; intros n; cbn [app length].
  - now rewrite Nat.add_0_r.
  - rewrite !numbered_cons, IH. cbn. now rewrite <- Nat.add_succ_comm.
Qed.
Lemma nodup_of_nat n m : NoDup (map Z.of_nat (seq n m)).
Proof.
  apply FinFun.Injective_map_NoDup; [|apply seq_NoDup]. intros a b. lia.
Qed.

Lemma append_all_ok : forall ts l B n, layer_ok l B ->
  NoDup (map fst B ++ ts) -> NoDup (map snd B ++ map Z.of_nat (seq n (length ts))) ->
  layer_ok (fst (append_all l (Z.of_nat n) ts)) (B ++ numbered ts n) /\
  snd (append_all l (Z.of_nat n) ts) = Z.of_nat (n + length ts).
Proof.
  induction ts as [|t ts IH]; intros l B n Hl H1 H2; cbn [append_all].
  { cbn. rewrite app_nil_r. split; [exact Hl|lia]. }
  replace (Z.of_nat n + 1) with (Z.of_nat (S n)) by lia.
  cbn [length seq map] in *.
  assert (Ht : ~ In t (map fst B)).
  { apply NoDup_remove_2 in H1. intros H. apply H1, in_or_app; auto. }
  assert (Hi : ~ In (Z.of_nat n) (map snd B)).
  { apply NoDup_remove_2 in H2. intros H. apply H2, in_or_app; auto. }
  rewrite numbered_cons.
  replace (B ++ (t, Z.of_nat n) :: numbered ts (S n)) with
    ((B ++ [(t, Z.of_nat n)]) ++ numbered ts (S n)) by now rewrite <- app_assoc.
  replace (n + S (length ts))%nat with (S n + length ts)%nat by lia.
  apply IH.
  - unfold append_pair, tree_append, inv_put; cbn [t2i i2c sb]. now apply layer_add.
  - rewrite map_app, <- app_assoc. exact H1.
  - rewrite map_app, <- app_assoc. exact H2.
Qed.

Lemma put_all_ok : forall ts l B n, layer_ok l B ->
  NoDup (map fst B ++ ts) -> NoDup (map snd B ++ map Z.of_nat (seq n (length ts))) ->
  layer_ok (fst (put_all l (Z.of_nat n) ts)) (B ++ numbered ts n) /\
  snd (put_all l (Z.of_nat n) ts) = Z.of_nat (n + length ts).
Proof.
  induction ts as [|t ts IH]; intros l B n Hl H1 H2; cbn [put_all].
  { cbn. rewrite app_nil_r. split; [exact Hl|lia]. }
  cbn [length seq map] in *.
  assert (Ht : ~ In t (map fst B)).
  { apply NoDup_remove_2 in H1. intros H. apply H1, in_or_app; auto. }
  assert (Hi : ~ In (Z.of_nat n) (map snd B)).
  { apply NoDup_remove_2 in H2. intros H. apply H2, in_or_app; auto. }
  unfold put_pair, insert_if_not_exists. destruct (lookup t (t2i l)) eqn:E.
  { apply (ok_t _ _ Hl) in E. apply (in_map fst) in E. contradiction. }
  replace (Z.of_nat n + 1) with (Z.of_nat (S n)) by lia.
  rewrite numbered_cons.
  replace (B ++ (t, Z.of_nat n) :: numbered ts (S n)) with
    ((B ++ [(t, Z.of_nat n)]) ++ numbered ts (S n)) by now rewrite <- app_assoc.
  replace (n + S (length ts))%nat with (S n + length ts)%nat by lia.
  apply IH.
  - unfold inv_put; cbn [t2i i2c sb]. now apply layer_add.
  - rewrite map_app, <- app_assoc. exact H1.
  - rewrite map_app, <- app_assoc. exact H2.
Qed.

Lemma insert_dictionary_ok popular others l m :
  insert_dictionary popular others = (l, m) -> NoDup (popular ++ others) ->
  layer_ok l (numbered (popular ++ others) 0) /\
  m + 1 = Z.of_nat (length (popular ++ others)).
Proof.
  unfold insert_dictionary. intros H Hn.
  destruct (append_all (mkL [] [] []) (Z.of_nat (length popular)) others) as [l1 k1] eqn:E1.
  destruct (put_all l1 0 popular) as [l2 k2] eqn:E2. injection H as <- <-.
  assert (Hn2 : NoDup (others ++ popular)).
  { eapply Permutation_NoDup; [apply Permutation_app_comm|exact Hn]. }
  destruct (append_all_ok others _ [] (length popular) layer_empty) as [A1 A2].
  { cbn. now apply nodup_app_r in Hn. }
  { cbn. apply nodup_of_nat. }
  rewrite E1 in A1, A2. cbn [fst snd app] in A1, A2.
  destruct (put_all_ok popular l1 (numbered others (length popular)) 0 A1) as [B1 B2].
  { rewrite numbered_fst. exact Hn2. }
  { rewrite numbered_snd, <- map_app. eapply Permutation_NoDup; [|apply (nodup_of_nat 0 (length popular + length others))].
    rewrite seq_app. apply Permutation_map, Permutation_app_comm. }
  change (Z.of_nat 0) with 0 in *. rewrite E2 in B1, B2. cbn [fst snd] in B1, B2. split.
  - eapply layer_ext; [|exact B1]. intros x. rewrite numbered_app. cbn [Nat.add].
    rewrite !in_app_iff. tauto.
  - rewrite app_length. lia.
Qed.

(** ** Decimal numbers *)
Lemma digits_ok : forall fuel n, 0 <= n < 10 ^ Z.of_nat fuel -> (0 < fuel)%nat ->
  digits fuel n <> [] /\ Forall (fun c => isdigit c = true) (digits fuel n) /\
  number_of (digits fuel n) = n.
Proof.
  induction fuel as [|f IH]; intros n Hn Hf; [lia|]. cbn [digits].
  destruct (n <? 10) eqn:E.
  - split; [discriminate|]. split; [repeat constructor; unfold isdigit; lia|]. unfold number_of. cbn [fold_left]. lia.
  - assert (Hp : 10 ^ Z.of_nat (S f) = 10 * 10 ^ Z.of_nat f).
    { replace (Z.of_nat (S f)) with (Z.succ (Z.of_nat f)) by lia. apply Z.pow_succ_r. lia. }
    assert (f <> 0)%nat.
    { intros ->. cbn in Hn. lia. }
    destruct (IH (n / 10)) as (H1 & H2 & H3); [|lia|].
    { split; [apply Z.div_pos; lia|]. apply Z.div_lt_upper_bound; lia. }
    pose proof (Z.mod_pos_bound n 10 ltac:(lia)).
    split; [|split].
    + intros Hc. apply app_eq_nil in Hc. destruct Hc; discriminate.
    + apply Forall_app. split; auto. repeat constructor. unfold isdigit. lia.
    + unfold number_of in *. rewrite fold_left_app, H3. cbn [fold_left]. pose proof (Z.div_mod n 10). lia.
Qed.

Lemma decimal_ok n : 0 <= n < 2 ^ 64 ->
  decimal n <> [] /\ Forall (fun c => isdigit c = true) (decimal n) /\ number_of (decimal n) = n.
Proof. intros H. apply digits_ok; [|lia]. split; [lia|]. change (10 ^ Z.of_nat 20) with 100000000000000000000. lia. Qed.

(** ** Reading *)
Lemma take_while_app f a r c rest : Forall (fun x => f x = true) a -> r = c :: rest -> f c = false ->
  take_while f (a ++ r) = (a, r).
Proof.
  intros Ha -> Hc. induction Ha as [|x a Hx Ha IH]; cbn [app take_while].
  - now rewrite Hc.
  - rewrite Hx, IH. reflexivity.
Qed.

Lemma digit_not_space c : isdigit c = true -> isspace c = false.
Proof. unfold isdigit, isspace. lia. Qed.

Lemma read_num_ok ws n c rest old : Forall (fun x => isspace x = true) ws -> 0 <= n < 2 ^ 64 ->
  isdigit c = false ->
  read_num (mkIS (ws ++ decimal n ++ c :: rest) false false) old
  = (n, mkIS (c :: rest) false false).
Proof.
  intros Hws Hn Hc. destruct (decimal_ok n Hn) as (D1 & D2 & D3).
  unfold read_num. cbn [failbit eofbit left orb].
  assert (Hsk : skip_ws (ws ++ decimal n ++ c :: rest) = decimal n ++ c :: rest).
  { induction Hws as [|x ws Hx Hws IH]; cbn [app skip_ws].
    - destruct (decimal n) as [|x r]; [congruence|]. cbn [app skip_ws].
      inversion D2; subst. now rewrite digit_not_space.
    - now rewrite Hx. }
  rewrite Hsk. destruct (decimal n ++ c :: rest) as [|y r] eqn:E; [destruct (decimal n); discriminate|].
  rewrite <- E. rewrite (take_while_app isdigit (decimal n) (c :: rest) c rest); auto.
  destruct (decimal n) as [|z ds] eqn:E2; [congruence|]. now rewrite D3.
Qed.

Lemma read_num_nl n c rest old : 0 <= n < 2 ^ 64 -> isdigit c = false ->
  read_num (mkIS (10 :: decimal n ++ c :: rest) false false) old
  = (n, mkIS (c :: rest) false false).
Proof. intros. apply (read_num_ok [10]); auto. Qed.
Lemma read_num_0 n c rest old : 0 <= n < 2 ^ 64 -> isdigit c = false ->
  read_num (mkIS (decimal n ++ c :: rest) false false) old
  = (n, mkIS (c :: rest) false false).
Proof. intros. apply (read_num_ok []); auto. Qed.

Lemma read_str_ok t c rest : plain t -> isspace c = true ->
  read_str (mkIS (9 :: t ++ c :: rest) false false) = (t, mkIS (c :: rest) false false).
Proof.
  intros [Hne Hp] Hc. unfold read_str. cbn [failbit eofbit left orb].
  assert (Hsk : skip_ws (9 :: t ++ c :: rest) = t ++ c :: rest).
  { cbn [skip_ws]. change (isspace 9) with true. cbn iota.
    destruct t as [|x t]; [congruence|]. cbn [app skip_ws]. inversion Hp as [|? ? Hx Hp']; subst.
    now rewrite Hx. }
  rewrite Hsk. destruct (t ++ c :: rest) as [|y r] eqn:E; [destruct t; discriminate|].
  rewrite <- E.
  rewrite (take_while_app (fun c => negb (isspace c)) t (c :: rest) c rest); auto.
  - eapply Forall_impl; [|exact Hp]. cbn. intros a ->. reflexivity.
  - now rewrite Hc.
Qed.

Definition swap (l : list (Z * text)) : list (text * Z) := map (fun e => (snd e, fst e)) l.

Definition with_gud (d : dm) (it : list (Z * text)) : dm :=
  mkDM (dicts d) (beginrange d) (gud_idtext d ++ it) (gud_textid d ++ swap it)
    (gud_modified d) (gud_largestID d).

Lemma gud_loop_ok : forall order fuel d,
  (length order < fuel)%nat ->
  Forall (fun e => plain (snd e) /\ 0 <= fst e < 2 ^ 64) order ->
  NoDup (map fst (gud_idtext d ++ order)) -> NoDup (map fst (gud_textid d ++ swap order)) ->
  gud_loop fuel (mkIS (10 :: concat (map (fun e => decimal (fst e) ++ [9] ++ snd e ++ [10]) order))
                   false false) d
  = Some (with_gud d order).
Proof.
  induction order as [|[i t] order IH]; intros fuel d Hf HF N1 N2.
  - destruct fuel as [|f]; [cbn in Hf; lia|]. cbn. unfold with_gud. cbn.
    destruct d; cbn. rewrite !app_nil_r. destruct f; reflexivity.
  - destruct fuel as [|f]; [lia|]. inversion HF as [|? ? [Hp Hi] HF']; subst. cbn [fst snd] in *.
    cbn [gud_loop eofbit map concat fst snd].
    rewrite <- !app_assoc. cbn [app].
    rewrite read_num_nl; auto.
    rewrite read_str_ok; auto. destruct t as [|c t']; [destruct Hp; congruence|].
    set (t := c :: t') in *.
    assert (L1 : lookupZ i (gud_idtext d) = None).
    { apply lookupZ_none. rewrite map_app in N1. cbn in N1. apply NoDup_remove_2 in N1.
      intros H. apply N1, in_or_app; auto. }
    assert (L2 : lookup t (gud_textid d) = None).
    { apply lookup_none. rewrite map_app in N2. cbn in N2. apply NoDup_remove_2 in N2.
      intros H. apply N2, in_or_app; auto. }
    unfold hinsertZ, hinsertT. rewrite L1, L2.
    rewrite IH; auto.
    + unfold with_gud. cbn. now rewrite <- !app_assoc.
    + cbn in Hf. lia.
    + cbn. rewrite <- app_assoc. exact N1.
    + cbn. rewrite <- app_assoc. exact N2.
Qed.

Lemma new_dm_ok fuel mn largest order : (length order < fuel)%nat ->
  Forall (fun e => plain (snd e) /\ 0 <= fst e < 2 ^ 64) order -> 0 <= largest < 2 ^ 64 ->
  NoDup (map fst order) -> NoDup (map snd order) ->
  new_dm fuel mn (Some (gud_bytes largest order))
  = Some (mkDM [mn] [0] order (swap order) false largest).
Proof.
  intros Hf HF Hl N1 N2. unfold new_dm, gud_bytes. cbn [app].
  rewrite read_num_0; auto.
  rewrite gud_loop_ok; auto. cbn. unfold swap. rewrite map_map. exact N2.
Qed.
