(** Proofs about the hash join: the table. *)
From Verif Require Export OpProofs7 OpHashModel.
Local Open Scope Z_scope.

Definition ekey (e : hj_entry) : Z := fst (fst e).
Definition evals (e : hj_entry) : list Z := snd (fst e).
(** The sum of the counts, each with a weight that depends on the key and the values. *)
Definition total (w : Z -> list Z -> Z) (l : list hj_entry) : Z :=
  fold_right (fun e n => w (ekey e) (evals e) * snd e + n) 0 l.
Lemma total_app w a b : total w (a ++ b) = total w a + total w b.
Proof. induction a as [|e a IH]; [reflexivity|]. cbn [app total fold_right]. fold (total w (a ++ b)). fold (total w a). lia. Qed.
Lemma total_perm w a b : Permutation a b -> total w a = total w b.
Proof. induction 1; cbn [total fold_right] in *; try fold (total w l) in *; try fold (total w l') in *; lia. Qed.
Lemma total_ext w w' l : (forall e, In e l -> w (ekey e) (evals e) = w' (ekey e) (evals e)) -> total w l = total w' l.
Proof.
  intros H. induction l as [|e l IH]; [reflexivity|]. cbn [total fold_right]. fold (total w l). fold (total w' l).
  rewrite (H e (or_introl eq_refl)), IH; [reflexivity|]. intros x Hx. apply H. right. exact Hx.
Qed.
Lemma total_0 l : total (fun _ _ => 0) l = 0.
Proof. induction l as [|e l IH]; [reflexivity|]. cbn [total fold_right]. fold (total (fun _ _ => 0) l). lia. Qed.

Definition nonempty {A} (c : list A) : bool := match c with [] => false | _ => true end.
Definition chains (ht : hj_table) : list (list hj_entry) := filter nonempty ht.
Lemma chains_app a b : chains (a ++ b) = chains a ++ chains b.
Proof. unfold chains. induction a as [|c a IH]; [reflexivity|]. cbn. destruct (nonempty c); cbn; rewrite IH; reflexivity. Qed.
Lemma concat_chains ht : concat (chains ht) = concat ht.
Proof. induction ht as [|[|e c] ht IH]; [reflexivity|exact IH|]. cbn. f_equal. f_equal. exact IH. Qed.
Lemma chains_repeat n : chains (repeat [] n) = [].
Proof. induction n as [|n IH]; [reflexivity|exact IH]. Qed.
Lemma chains_in c ht : In c (chains ht) <-> In c ht /\ c <> [].
Proof. unfold chains. rewrite filter_In. destruct c; cbn; intuition congruence. Qed.

Section Table.
(** The number of further values of an entry. *)
Variable m : nat.
Definition chain_ok (c : list hj_entry) : Prop :=
  c <> [] /\ Forall (fun e => ekey e = hj_key c /\ 0 < snd e /\ length (evals e) = m) c.
Definition placed (n : nat) (ht : hj_table) : Prop := forall i c, nth_error ht i = Some c -> c <> [] ->
  i = hj_hash1 (hj_key c) (2 ^ n) \/ i = hj_hash2 (hj_key c) (2 ^ n).
Record Tab (n : nat) (ht : hj_table) : Prop := {
  tab_len : length ht = (2 * 2 ^ n)%nat;
  tab_placed : placed n ht;
  tab_keys : NoDup (map hj_key (chains ht));
  tab_chains : Forall chain_ok (chains ht) }.

Lemma pow2_pos n : (0 < 2 ^ n)%nat.
Proof. induction n; cbn; lia. Qed.
Lemma pow2_Z n : Z.of_nat (2 ^ n) = 2 ^ Z.of_nat n.
Proof. rewrite Nat2Z.inj_pow. reflexivity. Qed.
Lemma mask_eq x n : Z.land x (Z.of_nat (2 ^ n) - 1) = x mod 2 ^ Z.of_nat n.
Proof. rewrite pow2_Z, <- Z.land_ones by lia. f_equal. rewrite Z.ones_equiv. lia. Qed.
Lemma hash1_lt k n : (hj_hash1 k (2 ^ n) < 2 ^ n)%nat.
Proof.
  unfold hj_hash1. rewrite mask_eq. assert (H := Z.mod_pos_bound k (2 ^ Z.of_nat n) ltac:(apply Z.pow_pos_nonneg; lia)).
  assert (E := pow2_Z n). lia.
Qed.
Lemma hash2_range k n : (2 ^ n <= hj_hash2 k (2 ^ n) < 2 * 2 ^ n)%nat.
Proof.
  unfold hj_hash2. rewrite mask_eq. assert (H := Z.mod_pos_bound (Z.lxor k (Z.shiftr k 3)) (2 ^ Z.of_nat n) ltac:(apply Z.pow_pos_nonneg; lia)).
  assert (E := pow2_Z n). lia.
Qed.
Lemma size_half n (ht : hj_table) : length ht = (2 * 2 ^ n)%nat -> (length ht / 2)%nat = (2 ^ n)%nat.
Proof. intros ->. rewrite Nat.mul_comm. apply Nat.div_mul. lia. Qed.
Lemma get_nth_error (ht : hj_table) i : (i < length ht)%nat -> nth_error ht i = Some (hj_get ht i).
Proof. intros H. apply nth_error_nth'. exact H. Qed.
Lemma put_length ht i c : length (hj_put ht i c) = length ht.
Proof. apply upd_length. Qed.
Lemma put_chains ht i c : (i < length ht)%nat -> c <> [] ->
  Permutation (chains [hj_get ht i] ++ chains (hj_put ht i c)) (c :: chains ht).
Proof.
  intros Hi Hc. destruct (upd_split ht (fun _ => c) i _ (get_nth_error ht i Hi)) as (l1 & l2 & E1 & _ & E2).
  unfold hj_put. rewrite E2. rewrite E1 at 2.
  change (l1 ++ c :: l2) with (l1 ++ [c] ++ l2). change (l1 ++ hj_get ht i :: l2) with (l1 ++ [hj_get ht i] ++ l2).
  rewrite !chains_app. replace (chains [c]) with [c] by (destruct c; [congruence|reflexivity]).
  rewrite (Permutation_app_comm (chains l1) (chains [hj_get ht i] ++ chains l2)).
  rewrite (Permutation_app_comm (chains l1) ([c] ++ chains l2)).
  cbn [app]. rewrite <- Permutation_middle. apply perm_skip. rewrite <- app_assoc. reflexivity.
Qed.
Lemma put_placed n ht i c : placed n ht -> (i < length ht)%nat ->
  (i = hj_hash1 (hj_key c) (2 ^ n) \/ i = hj_hash2 (hj_key c) (2 ^ n)) -> placed n (hj_put ht i c).
Proof.
  intros Hp Hi Hc j c' E Hne. unfold hj_put in E. rewrite upd_nth_error in E. destruct (Nat.eqb_spec i j) as [Eij|]; [subst j|eapply Hp; eauto].
  rewrite (get_nth_error ht i Hi) in E. cbn in E. injection E as <-. exact Hc.
Qed.

(** *** Insertion *)
Lemma place_ok n : forall steps b ht e, Tab n ht -> chain_ok e -> ~ In (hj_key e) (map hj_key (chains ht)) ->
  match hj_place steps (2 ^ n) b ht e with
  | inl ht' => Tab n ht' /\ Permutation (chains ht') (e :: chains ht)
  | inr (ht', e') => Tab n ht' /\ chain_ok e' /\ Permutation (e' :: chains ht') (e :: chains ht)
  end.
Proof.
  induction steps as [|k IH]; intros b ht e [Tl Tp Tk Tc] He Hk; cbn [hj_place].
  - split; [constructor; assumption|]. split; [exact He|reflexivity].
  - set (slot := if b then hj_hash1 (hj_key e) (2 ^ n) else hj_hash2 (hj_key e) (2 ^ n)).
    assert (Hs : (slot < length ht)%nat).
    { rewrite Tl. unfold slot. assert (A := hash1_lt (hj_key e) n). assert (B := hash2_range (hj_key e) n). destruct b; lia. }
    assert (Hpl : slot = hj_hash1 (hj_key e) (2 ^ n) \/ slot = hj_hash2 (hj_key e) (2 ^ n)) by (unfold slot; destruct b; auto).
    assert (P := put_chains ht slot e Hs (proj1 He)). assert (Pl := put_placed n ht slot e Tp Hs Hpl).
    assert (Hl : length (hj_put ht slot e) = (2 * 2 ^ n)%nat) by (rewrite put_length; exact Tl).
    assert (Nk : NoDup (map hj_key (e :: chains ht))) by (cbn [map]; constructor; assumption).
    assert (Nc : Forall chain_ok (e :: chains ht)) by (constructor; assumption).
    rewrite <- P in Nc. apply (Permutation_map hj_key) in P as Pk. rewrite <- Pk in Nk.
    destruct (hj_get ht slot) as [|x old] eqn:Eo.
    + cbn [chains filter nonempty app] in *. split; [|exact P]. constructor; assumption.
    + cbn [chains filter nonempty app] in *. change (filter nonempty (hj_put ht slot e)) with (chains (hj_put ht slot e)) in *.
      cbn [map] in Nk. inversion Nk as [|? ? Nk1 Nk2]; subst. inversion Nc as [|? ? Nc1 Nc2]; subst.
      specialize (IH (negb b) (hj_put ht slot e) (x :: old) ltac:(constructor; assumption) Nc1 Nk1).
      destruct (hj_place k (2 ^ n) (negb b) (hj_put ht slot e) (x :: old)) as [ht'|[ht' e']].
      * destruct IH as [H1 H2]. split; [exact H1|]. rewrite H2. exact P.
      * destruct IH as (H1 & H2 & H3). split; [exact H1|]. split; [exact H2|]. rewrite H3. exact P.
Qed.
Definition fits (mem : Z) (n0 n : nat) : Prop := (n0 <= n)%nat /\ (n = n0 \/ 2 * 2 ^ Z.of_nat n <= mem).
Lemma insert_ok mem : forall fuel n ht e ht', Tab n ht -> chain_ok e -> ~ In (hj_key e) (map hj_key (chains ht)) ->
  hj_insert_rec fuel mem ht e = Some ht' ->
  exists n', fits mem n n' /\ Tab n' ht' /\ Permutation (chains ht') (e :: chains ht).
Proof.
  induction fuel as [|k IH]; intros n ht e ht' HT He Hk E; [discriminate|]. cbn [hj_insert_rec] in E.
  rewrite (size_half n ht (tab_len _ _ HT)) in E. assert (P := place_ok n (2 ^ n) true ht e HT He Hk).
  destruct (hj_place (2 ^ n) (2 ^ n) true ht e) as [ht1|[old e']].
  - injection E as <-. exists n. destruct P as [P1 P2]. split; [split; [lia|auto]|]. split; assumption.
  - destruct P as (P1 & P2 & P3). destruct (Z.ltb_spec mem (4 * Z.of_nat (2 ^ n))) as [|Hmem]; [discriminate|].
    assert (G : forall l t n1 t', fits mem (S n) n1 -> Tab n1 t -> Forall chain_ok (chains l) -> NoDup (map hj_key (chains l ++ chains t)) ->
      fold_left (fun acc c => do t <- acc; match c with [] => Some t | _ => hj_insert_rec k mem t c end) l (Some t) = Some t' ->
      exists n', fits mem (S n) n' /\ Tab n' t' /\ Permutation (chains t') (chains l ++ chains t)).
    { induction l as [|c l IHl]; intros t n1 t' Hf Ht Hl Hn Ef; cbn [fold_left] in Ef.
      - injection Ef as <-. exists n1. auto.
      - destruct c as [|x c]; [apply (IHl t n1 t'); assumption|].
        cbn [chains filter nonempty app] in Hl, Hn. change (filter nonempty l) with (chains l) in *.
        inversion Hl as [|? ? Hc Hl']; subst. cbn [map] in Hn. inversion Hn as [|? ? Hn1 Hn2]; subst.
        destruct (hj_insert_rec k mem t (x :: c)) as [t1|] eqn:E1.
        2:{ exfalso. clear - Ef. induction l as [|c0 l IH]; [discriminate|]. cbn [fold_left] in Ef. apply IH. exact Ef. }
        assert (Hx : ~ In (hj_key (x :: c)) (map hj_key (chains t))).
        { intros C. apply Hn1. rewrite map_app. apply in_or_app. right. exact C. }
        destruct (IH n1 t (x :: c) t1 Ht Hc Hx E1) as (n2 & F2 & T2 & Q2).
        destruct (IHl t1 n2 t') as (n3 & F3 & T3 & Q3); auto.
        + unfold fits in *. destruct Hf as [Hf1 Hf2], F2 as [F21 F22]. split; [lia|]. destruct F22 as [->|]; auto.
        + rewrite Q2. rewrite map_app. cbn [map]. rewrite <- Permutation_middle, <- map_app. exact Hn.
        + exists n3. split; [exact F3|]. split; [exact T3|]. cbn [chains filter nonempty app]. change (filter nonempty l) with (chains l).
          rewrite Q3, Q2. rewrite <- Permutation_middle. reflexivity. }
    assert (Nk : NoDup (map hj_key (e' :: chains old))).
    { rewrite P3. cbn [map]. constructor; [exact Hk|apply HT]. }
    cbn [map] in Nk. inversion Nk as [|? ? Nk1 Nk2]; subst.
    assert (T0 : Tab (S n) (repeat [] (4 * 2 ^ n))).
    { constructor.
      - rewrite repeat_length. cbn [Nat.pow]. lia.
      - intros i c Ei Hne. apply nth_error_In, repeat_spec in Ei. congruence.
      - rewrite chains_repeat. constructor.
      - rewrite chains_repeat. constructor. }
    destruct (fold_left _ old _) as [t1|] eqn:Ef; [|discriminate].
    destruct (G old (repeat [] (4 * 2 ^ n)) (S n) t1) as (n1 & F1 & T1 & Q1); auto.
    { split; [lia|auto]. }
    { apply P1. }
    { rewrite chains_repeat, app_nil_r. exact Nk2. }
    rewrite chains_repeat, app_nil_r in Q1.
    destruct (IH n1 t1 e' ht' T1 P2) as (n2 & F2 & T2 & Q2); [|exact E|].
    { rewrite Q1. exact Nk1. }
    exists n2. split; [|split; [exact T2|rewrite Q2, Q1; exact P3]].
    unfold fits in *. rewrite pow2_Z in Hmem.
    destruct F1 as [F11 F12], F2 as [F21 F22]. split; [lia|]. right.
    destruct F22 as [->|]; [|lia]. destruct F12 as [->|]; [|lia]. rewrite Nat2Z.inj_succ, Z.pow_succ_r by lia. lia.
Qed.
(** With room for 2^65 slots there is always a place: then the first hash is the key itself. *)
Lemma insert_total mem : 2 ^ 65 <= mem -> forall fuel n ht e, Tab n ht -> chain_ok e -> ~ In (hj_key e) (map hj_key (chains ht)) ->
  Forall (fun c => 0 <= hj_key c < 2 ^ 64) (e :: chains ht) -> (0 < fuel)%nat -> (65 <= fuel + n)%nat ->
  exists ht', hj_insert_rec fuel mem ht e = Some ht'.
Proof.
  intros Hmem. induction fuel as [|k IH]; intros n ht e HT He Hk Hr Hf Hn; [lia|]. cbn [hj_insert_rec].
  rewrite (size_half n ht (tab_len _ _ HT)).
  destruct (le_lt_dec 64 n) as [H64|H64].
  - exists (hj_put ht (hj_hash1 (hj_key e) (2 ^ n)) e).
    assert (Hpos := pow2_pos n). destruct (2 ^ n)%nat as [|sz] eqn:Esz; [lia|]. rewrite <- Esz.
    replace (hj_place (S sz) (2 ^ n) true ht e) with (hj_place (S sz) (2 ^ n) true ht e) by reflexivity. rewrite Esz at 1. cbn [hj_place].
    destruct (hj_get ht (hj_hash1 (hj_key e) (2 ^ n))) as [|x old] eqn:Eo; [reflexivity|]. exfalso.
    assert (Hi : (hj_hash1 (hj_key e) (2 ^ n) < length ht)%nat) by (rewrite (tab_len _ _ HT); assert (A := hash1_lt (hj_key e) n); lia).
    assert (En := get_nth_error ht _ Hi). rewrite Eo in En.
    assert (Hin : In (x :: old) (chains ht)) by (apply chains_in; split; [eapply nth_error_In; exact En|discriminate]).
    inversion Hr as [|? ? Hre Hrc]; subst. rewrite Forall_forall in Hrc. specialize (Hrc _ Hin).
    assert (Hid : forall k, 0 <= k < 2 ^ 64 -> hj_hash1 k (2 ^ n) = Z.to_nat k).
    { intros k0 Hk0. unfold hj_hash1. rewrite mask_eq, Z.mod_small; [reflexivity|]. split; [lia|].
      eapply Z.lt_le_trans; [apply Hk0|]. apply Z.pow_le_mono_r; lia. }
    destruct (tab_placed _ _ HT _ _ En ltac:(discriminate)) as [C|C].
    + rewrite !Hid in C by assumption. apply Hk. assert (Ek : hj_key e = hj_key (x :: old)) by lia. rewrite Ek. apply in_map. exact Hin.
    + assert (A := hash1_lt (hj_key e) n). assert (B := hash2_range (hj_key (x :: old)) n). lia.
  - assert (P := place_ok n (2 ^ n) true ht e HT He Hk).
    destruct (hj_place (2 ^ n) (2 ^ n) true ht e) as [ht1|[old e']]; [eauto|].
    destruct P as (P1 & P2 & P3).
    destruct (Z.ltb_spec mem (4 * Z.of_nat (2 ^ n))) as [C|_].
    { exfalso. rewrite pow2_Z in C. assert (2 ^ Z.of_nat n <= 2 ^ 63) by (apply Z.pow_le_mono_r; lia). lia. }
    assert (Nk : NoDup (map hj_key (e' :: chains old))).
    { rewrite P3. cbn [map]. constructor; [exact Hk|apply HT]. }
    rewrite <- P3 in Hr.
    cbn [map] in Nk. inversion Nk as [|? ? Nk1 Nk2]; subst. inversion Hr as [|? ? Hr1 Hr2]; subst.
    assert (T0 : Tab (S n) (repeat [] (4 * 2 ^ n))).
    { constructor.
      - rewrite repeat_length. cbn [Nat.pow]. lia.
      - intros i c Ei Hne. apply nth_error_In, repeat_spec in Ei. congruence.
      - rewrite chains_repeat. constructor.
      - rewrite chains_repeat. constructor. }
    assert (G : forall l t n1, (S n <= n1)%nat -> Tab n1 t -> Forall chain_ok (chains l) -> NoDup (map hj_key (chains l ++ chains t)) ->
      Forall (fun c => 0 <= hj_key c < 2 ^ 64) (chains l ++ chains t) ->
      exists n' t', fold_left (fun acc c => do t <- acc; match c with [] => Some t | _ => hj_insert_rec k mem t c end) l (Some t) = Some t' /\
      (S n <= n')%nat /\ Tab n' t' /\ Permutation (chains t') (chains l ++ chains t)).
    { induction l as [|c l IHl]; intros t n1 Hf1 Ht Hl Hnd Hrl; cbn [fold_left].
      - exists n1, t. auto.
      - destruct c as [|x c]; [apply (IHl t n1); assumption|].
        cbn [chains filter nonempty app] in Hl, Hnd, Hrl. change (filter nonempty l) with (chains l) in *.
        inversion Hl as [|? ? Hc Hl']; subst. cbn [map] in Hnd. inversion Hnd as [|? ? Hn1 Hn2]; subst. inversion Hrl as [|? ? Hx1 Hx2]; subst.
        assert (Hx : ~ In (hj_key (x :: c)) (map hj_key (chains t))).
        { intros C. apply Hn1. rewrite map_app. apply in_or_app. right. exact C. }
        destruct (IH n1 t (x :: c) Ht Hc Hx) as (t1 & E1).
        { constructor; [exact Hx1|]. apply Forall_app in Hx2. apply Hx2. }
        { lia. }
        { lia. }
        rewrite E1. destruct (insert_ok mem k n1 t (x :: c) t1 Ht Hc Hx E1) as (n2 & (F2 & _) & T2 & Q2).
        destruct (IHl t1 n2) as (n3 & t3 & E3 & F3 & T3 & Q3); auto.
        + lia.
        + rewrite Q2. rewrite map_app. cbn [map]. rewrite <- Permutation_middle, <- map_app. exact Hnd.
        + rewrite Q2. rewrite <- Permutation_middle. constructor; assumption.
        + exists n3, t3. split; [exact E3|]. split; [exact F3|]. split; [exact T3|]. cbn [chains filter nonempty app]. change (filter nonempty l) with (chains l).
          rewrite Q3, Q2. rewrite <- Permutation_middle. reflexivity. }
    destruct (G old (repeat [] (4 * 2 ^ n)) (S n)) as (n1 & t1 & E1 & F1 & T1 & Q1); auto.
    { apply P1. }
    { rewrite chains_repeat, app_nil_r. exact Nk2. }
    { rewrite chains_repeat, app_nil_r. exact Hr2. }
    match goal with |- exists _, match ?x with _ => _ end = _ => replace x with (Some t1) by (symmetry; exact E1) end.
    rewrite chains_repeat, app_nil_r in Q1. apply (IH n1).
    + exact T1.
    + exact P2.
    + rewrite Q1. exact Nk1.
    + rewrite Q1. constructor; assumption.
    + lia.
    + lia.
Qed.

(** *** One row *)
Lemma aggregate_ok key vals count : 0 < count -> length vals = m -> forall c c', hj_aggregate c key vals count = Some c' ->
  Forall (fun e => ekey e = key /\ 0 < snd e /\ length (evals e) = m) c ->
  Forall (fun e => ekey e = key /\ 0 < snd e /\ length (evals e) = m) c' /\ hj_key c' = hj_key c /\ c' <> [] /\
  forall w, total w c' = w key vals * count + total w c.
Proof.
  intros Hc Hv. induction c as [|[[k vs] c0] c IH]; intros c' E H; [discriminate|]. cbn [hj_aggregate] in E.
  inversion H as [|? ? (H1 & H2 & H3) H']; subst. cbn [ekey evals fst snd] in *.
  destruct (Z.eqb_spec k k) as [_|C]; [|congruence]. cbn [andb] in E. destruct (row_eqb vals vs) eqn:Er.
  - apply row_eqb_eq in Er. subst vs. injection E as <-. split; [|split; [reflexivity|split; [discriminate|]]].
    + constructor; [|exact H']. cbn. split; [reflexivity|]. split; [lia|exact H3].
    + intros w. cbn [total fold_right ekey evals fst snd]. fold (total w c). lia.
  - destruct (hj_aggregate c k vals count) as [r|] eqn:Ea; [|discriminate]. injection E as <-.
    destruct (IH r eq_refl H') as (G1 & G2 & G3 & G4). split; [|split; [reflexivity|split; [discriminate|]]].
    + constructor; [|exact G1]. cbn. auto.
    + intros w. cbn [total fold_right ekey evals fst snd]. fold (total w r). fold (total w c). rewrite G4. lia.
Qed.
Lemma put_ok n ht i c : Tab n ht -> (i < length ht)%nat -> hj_get ht i <> [] -> chain_ok c -> hj_key c = hj_key (hj_get ht i) ->
  Tab n (hj_put ht i c) /\ Permutation (hj_get ht i :: chains (hj_put ht i c)) (c :: chains ht).
Proof.
  intros [Tl Tp Tk Tc] Hi Hg Hc Ek. assert (P := put_chains ht i c Hi (proj1 Hc)).
  replace (chains [hj_get ht i]) with [hj_get ht i] in P by (destruct (hj_get ht i); [congruence|reflexivity]). cbn [app] in P.
  split; [|exact P]. constructor.
  - rewrite put_length. exact Tl.
  - apply put_placed; auto. rewrite Ek. apply (Tp i _ (get_nth_error ht i Hi) Hg).
  - assert (Q := Permutation_map hj_key P). cbn [map] in Q. rewrite Ek in Q. apply Permutation_cons_inv in Q. rewrite Q. exact Tk.
  - assert (Q : Forall chain_ok (c :: chains ht)) by (constructor; assumption). rewrite <- P in Q. inversion Q; assumption.
Qed.
Lemma slot_ok n ht i : Tab n ht -> hj_get ht i <> [] -> (i < length ht)%nat /\ In (hj_get ht i) (chains ht) /\ chain_ok (hj_get ht i).
Proof.
  intros HT Hg. assert (Hi : (i < length ht)%nat).
  { destruct (lt_dec i (length ht)) as [|C]; [assumption|]. exfalso. apply Hg. unfold hj_get. apply nth_overflow. lia. }
  assert (Hin : In (hj_get ht i) (chains ht)) by (apply chains_in; split; [apply nth_In; exact Hi|exact Hg]).
  split; [exact Hi|]. split; [exact Hin|]. assert (F := tab_chains _ _ HT). rewrite Forall_forall in F. apply F, Hin.
Qed.
Lemma is_key c key : hj_is c key = true -> c <> [] /\ hj_key c = key.
Proof. destruct c as [|[[k vs] n] c]; cbn; [discriminate|]. intros E. apply Z.eqb_eq in E. split; [discriminate|exact E]. Qed.
Definition added (ht ht' : hj_table) (key : Z) (vals : list Z) (count : Z) : Prop :=
  (forall w, total w (concat ht') = w key vals * count + total w (concat ht)) /\
  (forall c, In c (chains ht') -> hj_key c = key \/ exists c0, In c0 (chains ht) /\ hj_key c0 = hj_key c).
Lemma total_concat_perm w a b : Permutation a b -> total w (concat a) = total w (concat b).
Proof.
  intros P. apply total_perm. induction P; cbn [concat].
  - reflexivity.
  - rewrite IHP. reflexivity.
  - rewrite !app_assoc. apply Permutation_app_tail, Permutation_app_comm.
  - etransitivity; eassumption.
Qed.
Lemma bucket_ok n ht i key vals count : Tab n ht -> 0 < count -> length vals = m -> hj_is (hj_get ht i) key = true ->
  exists ht', match hj_aggregate (hj_get ht i) key vals count with
    | Some chain' => Some (hj_put ht i chain')
    | None => Some (hj_put ht i ((key, vals, count) :: hj_get ht i)) end = Some ht' /\
  Tab n ht' /\ added ht ht' key vals count.
Proof.
  intros HT Hc Hv Hi. apply is_key in Hi. destruct Hi as [Hne Hk]. destruct (slot_ok n ht i HT Hne) as (Hlt & Hin & _ & Hall). rewrite Hk in Hall.
  assert (G : forall c, chain_ok c -> hj_key c = key -> (forall w, total w c = w key vals * count + total w (hj_get ht i)) ->
    Tab n (hj_put ht i c) /\ added ht (hj_put ht i c) key vals count).
  { intros c Hok Ek Hw. destruct (put_ok n ht i c HT Hlt Hne Hok) as (T1 & P1); [congruence|]. split; [exact T1|]. split.
    - intros w. assert (E := total_concat_perm w _ _ P1). cbn [concat] in E. rewrite !total_app, Hw in E.
      rewrite !concat_chains in *. lia.
    - intros c1 H1. assert (H2 : In c1 (c :: chains ht)) by (eapply Permutation_in; [exact P1|right; exact H1]).
      destruct H2 as [<-|H2]; [left; exact Ek|right; exists c1; auto]. }
  destruct (hj_aggregate (hj_get ht i) key vals count) as [c'|] eqn:Ea; eexists; (split; [reflexivity|]); apply G.
  - destruct (aggregate_ok key vals count Hc Hv _ _ Ea Hall) as (G1 & G2 & G3 & _). split; [exact G3|]. rewrite G2, Hk. exact G1.
  - destruct (aggregate_ok key vals count Hc Hv _ _ Ea Hall) as (_ & G2 & _). congruence.
  - apply (aggregate_ok key vals count Hc Hv _ _ Ea Hall).
  - split; [discriminate|]. cbn [hj_key]. constructor; [cbn; auto|exact Hall].
  - reflexivity.
  - reflexivity.
Qed.
Lemma not_there n ht key : Tab n ht -> hj_is (hj_get ht (hj_hash1 key (2 ^ n))) key = false ->
  hj_is (hj_get ht (hj_hash2 key (2 ^ n))) key = false -> ~ In key (map hj_key (chains ht)).
Proof.
  intros HT H1 H2 Hin. apply in_map_iff in Hin. destruct Hin as (c & Ek & Hin). apply chains_in in Hin. destruct Hin as [Hin Hne].
  apply In_nth_error in Hin. destruct Hin as (i & Ei). assert (Eg : hj_get ht i = c) by (apply nth_error_nth; exact Ei).
  assert (Hc : hj_is c key = true) by (destruct c as [|[[k vs] x] c]; [congruence|]; cbn in *; subst; apply Z.eqb_refl).
  destruct (tab_placed _ _ HT i c Ei Hne) as [E|E]; rewrite Ek in E; subst i; congruence.
Qed.
Lemma add_ok mem n ht key vals count ht' : Tab n ht -> 0 < count -> length vals = m ->
  hj_add mem ht key vals count = Some ht' -> exists n', fits mem n n' /\ Tab n' ht' /\ added ht ht' key vals count.
Proof.
  intros HT Hc Hv E. unfold hj_add in E. rewrite (size_half n ht (tab_len _ _ HT)) in E.
  destruct (hj_is (hj_get ht (hj_hash1 key (2 ^ n))) key) eqn:E1.
  { destruct (bucket_ok n ht _ key vals count HT Hc Hv E1) as (h & Eh & Th & Ah). rewrite Eh in E. injection E as <-. exists n. split; [split; [lia|auto]|auto]. }
  destruct (hj_is (hj_get ht (hj_hash2 key (2 ^ n))) key) eqn:E2.
  { destruct (bucket_ok n ht _ key vals count HT Hc Hv E2) as (h & Eh & Th & Ah). rewrite Eh in E. injection E as <-. exists n. split; [split; [lia|auto]|auto]. }
  assert (Hn := not_there n ht key HT E1 E2). unfold hj_insert in E.
  destruct (insert_ok mem (S (Z.to_nat (Z.log2 mem))) n ht [(key, vals, count)] ht' HT) as (n' & F & T' & P); [|exact Hn|exact E|].
  { split; [discriminate|]. repeat constructor; assumption. }
  exists n'. split; [exact F|]. split; [exact T'|]. split.
  - intros w. rewrite <- (concat_chains ht'), (total_concat_perm w _ _ P). cbn [concat]. rewrite concat_chains, total_app.
    cbn [total fold_right ekey evals fst snd]. fold (total w (concat ht)). lia.
  - intros c H1. assert (H2 : In c ([(key, vals, count)] :: chains ht)) by (eapply Permutation_in; [exact P|exact H1]).
    destruct H2 as [<-|H2]; [left; reflexivity|right; exists c; auto].
Qed.
Lemma add_total mem n ht key vals count : 2 ^ 65 <= mem -> (10 <= n)%nat -> Tab n ht -> 0 < count -> length vals = m -> 0 <= key < 2 ^ 64 ->
  Forall (fun c => 0 <= hj_key c < 2 ^ 64) (chains ht) -> exists ht', hj_add mem ht key vals count = Some ht'.
Proof.
  intros Hm H10 HT Hc Hv Hk Hr. unfold hj_add. rewrite (size_half n ht (tab_len _ _ HT)).
  destruct (hj_is (hj_get ht (hj_hash1 key (2 ^ n))) key) eqn:E1.
  { destruct (bucket_ok n ht _ key vals count HT Hc Hv E1) as (h & Eh & _). eauto. }
  destruct (hj_is (hj_get ht (hj_hash2 key (2 ^ n))) key) eqn:E2.
  { destruct (bucket_ok n ht _ key vals count HT Hc Hv E2) as (h & Eh & _). eauto. }
  assert (Hl : 65 <= Z.log2 mem) by (rewrite <- (Z.log2_pow2 65) by lia; apply Z.log2_le_mono; exact Hm).
  apply (insert_total mem Hm _ n); auto; try lia.
  - split; [discriminate|]. repeat constructor; assumption.
  - apply (not_there n ht key HT E1 E2).
Qed.
Lemma lookup_ok n ht key : Tab n ht ->
  Forall (fun e => ekey e = key /\ 0 < snd e /\ length (evals e) = m) (hj_lookup ht key) /\
  forall w, total w (hj_lookup ht key) = total (fun k vs => if k =? key then w k vs else 0) (concat ht).
Proof.
  intros HT. unfold hj_lookup. rewrite (size_half n ht (tab_len _ _ HT)).
  assert (G : forall i, hj_is (hj_get ht i) key = true ->
    Forall (fun e => ekey e = key /\ 0 < snd e /\ length (evals e) = m) (hj_get ht i) /\
    forall w, total w (hj_get ht i) = total (fun k vs => if k =? key then w k vs else 0) (concat ht)).
  { intros i Hi. apply is_key in Hi. destruct Hi as [Hne Hk]. destruct (slot_ok n ht i HT Hne) as (Hlt & Hin & _ & Hall). rewrite Hk in Hall.
    split; [exact Hall|]. intros w. apply in_split in Hin. destruct Hin as (l1 & l2 & Es).
    assert (Nk := tab_keys _ _ HT). rewrite Es in Nk. rewrite map_app in Nk. cbn [map] in Nk. apply NoDup_remove_2 in Nk. rewrite <- map_app in Nk.
    assert (Fc := tab_chains _ _ HT). rewrite Es in Fc.
    rewrite <- (concat_chains ht), Es. rewrite (total_concat_perm _ _ (hj_get ht i :: l1 ++ l2)) by (symmetry; apply Permutation_middle).
    cbn [concat]. rewrite total_app.
    assert (E0 : total (fun k vs => if k =? key then w k vs else 0) (concat (l1 ++ l2)) = 0).
    { rewrite (total_ext _ (fun _ _ => 0)); [apply total_0|]. intros e He. apply in_concat in He. destruct He as (c & Hc & He).
      assert (Hok : chain_ok c).
      { rewrite Forall_forall in Fc. apply Fc. apply in_app_or in Hc. apply in_or_app. destruct Hc; [left|right; right]; assumption. }
      destruct Hok as [_ Hok]. rewrite Forall_forall in Hok. specialize (Hok e He). destruct (Z.eqb_spec (ekey e) key) as [C|]; [|reflexivity].
      exfalso. apply Nk. rewrite Hk, <- C. rewrite (proj1 Hok). apply in_map. exact Hc. }
    rewrite E0, Z.add_0_r. apply total_ext. intros e He. rewrite Forall_forall in Hall. rewrite (proj1 (Hall e He)), Z.eqb_refl. reflexivity. }
  destruct (hj_is (hj_get ht (hj_hash1 key (2 ^ n))) key) eqn:E1; [apply G; exact E1|].
  destruct (hj_is (hj_get ht (hj_hash2 key (2 ^ n))) key) eqn:E2; [apply G; exact E2|].
  split; [constructor|]. intros w. assert (Hn := not_there n ht key HT E1 E2).
  change (total w []) with 0. symmetry. rewrite (total_ext _ (fun _ _ => 0)); [apply total_0|]. intros e He. rewrite <- concat_chains in He. apply in_concat in He. destruct He as (c & Hc & He).
  assert (Hok := tab_chains _ _ HT). rewrite Forall_forall in Hok. destruct (Hok c Hc) as [_ H1]. rewrite Forall_forall in H1.
  destruct (Z.eqb_spec (ekey e) key) as [C|]; [|reflexivity]. exfalso. apply Hn. rewrite <- C, (proj1 (H1 e He)). apply in_map. exact Hc.
Qed.
Lemma tab_empty : Tab 10 (repeat [] (Z.to_nat 2048)).
Proof.
  constructor.
  - rewrite repeat_length. reflexivity.
  - intros i c Ei Hne. apply nth_error_In, repeat_spec in Ei. congruence.
  - rewrite chains_repeat. constructor.
  - rewrite chains_repeat. constructor.
Qed.
End Table.
