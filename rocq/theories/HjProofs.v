(** Proofs about hash joins of operators. *)
From Coq Require Import Sorted Permutation ZifyBool.
From Verif Require Import HjModel TupleSpec HjSpec TupleProofs.
Local Open Scope Z_scope.

Lemma key_eqb_keqb a b : key_eqb a b = keqb a b.
Proof. unfold key_eqb, keqb. destruct (list_eq_dec Z.eq_dec a b), (keq_dec a b); tauto. Qed.
Lemma keqb_true a b : keqb a b = true -> a = b.
Proof. unfold keqb. destruct (keq_dec a b); [auto|discriminate]. Qed.
Lemma keqb_sym a b : keqb a b = keqb b a.
Proof. unfold keqb. destruct (keq_dec a b), (keq_dec b a); congruence. Qed.

(** ** The map *)
Section Map.
Variable w : nat.
Variable fields : list nat.
Hypothesis W0 : w <> O.
Let kkf := kk fields.
Definition having (k : list Z) (l : list row) : list row := filter (fun r => keqb (kkf r) k) l.

(** [m] and [V] have the groups of the rows [done]. *)
Definition holds (V : list Z) (m : list (list Z * nat)) (done : list row) : Prop :=
  forall k, match h_find k m with
  | None => having k done = []
  | Some b => having k done <> [] /\ exists pre post, V = pre ++ Z.of_nat (length (having k done)) :: concat (having k done) ++ post /\ b = length pre
  end.

Lemma holds_app V m done V' : holds V m done -> holds (V ++ V') m done.
Proof.
  intros H k. specialize (H k). destruct (h_find k m) as [b|]; [|exact H]. destruct H as (Hn & pre & post & -> & ->). split; [exact Hn|]. exists pre, (post ++ V'). split; [|reflexivity]. rewrite <- !app_assoc. cbn. now rewrite <- !app_assoc.
Qed.
Lemma concat_len (l : list row) : wide w l -> length (concat l) = (length l * w)%nat.
Proof. intros H. induction H as [|r l Hr _ IH]; cbn; [reflexivity|]. rewrite app_length, IH, Hr. lia. Qed.

Lemma close_ok V begin prev m done cur : begin = length V -> holds V m done -> having prev done = [] -> cur <> [] -> wide w cur -> Forall (fun r => kkf r = prev) cur ->
  let h := h_close w (V ++ 1 :: concat cur) begin prev m in
  h_vals h = V ++ Z.of_nat (length cur) :: concat cur /\ holds (h_vals h) (h_map h) (done ++ cur).
Proof.
  intros -> HH HP HC WC HK h. subst h. unfold h_close. set (n := ((length (V ++ 1%Z :: concat cur) - length V - 1) / w)%nat).
  assert (En : n = length cur). { unfold n. rewrite app_length. cbn [length]. rewrite concat_len by auto. replace (length V + S (length cur * w) - length V - 1)%nat with (length cur * w)%nat by lia. now apply Nat.div_mul. }
  assert (EV : (if (1 <? n)%nat then set_nth (V ++ 1 :: concat cur) (length V) (Z.of_nat n) else V ++ 1 :: concat cur) = V ++ Z.of_nat (length cur) :: concat cur).
  { rewrite En. destruct (Nat.ltb_spec 1 (length cur)).
    - unfold set_nth. rewrite firstn_app, firstn_all, Nat.sub_diag, firstn_O, app_nil_r. rewrite skipn_app, skipn_all, Nat.sub_diag. reflexivity.
    - destruct cur as [|a [|b c]]; [contradiction|reflexivity|cbn in *; lia]. }
  cbn [h_vals h_map]. rewrite EV. split; [reflexivity|]. clear EV En n.
  assert (HF : h_find prev m = None). { specialize (HH prev). destruct (h_find prev m); [|reflexivity]. tauto. }
  intros k. unfold h_insert. rewrite HF. cbn [h_find]. rewrite key_eqb_keqb. unfold having in *. rewrite filter_app.
  destruct (keqb prev k) eqn:E.
  - apply keqb_true in E. subst k. rewrite HP. rewrite (filter_all _ cur) by (rewrite Forall_forall in HK |- *; intros x Hx; apply keqb_eq; auto). cbn [app]. split; [exact HC|]. exists V, []. rewrite app_nil_r. auto.
  - rewrite (filter_none _ cur), app_nil_r. { exact (holds_app _ _ _ _ HH k). } rewrite Forall_forall in HK |- *. intros x Hx. rewrite (HK x Hx). exact E.
Qed.

Lemma loop_ok : forall rows V prev m done cur, holds V m done -> having prev done = [] -> cur <> [] -> wide w cur -> Forall (fun r => kkf r = prev) cur -> wide w rows ->
  sby kkf (done ++ cur ++ rows) ->
  let h := h_loop w fields rows (V ++ 1 :: concat cur) (length V) prev m in holds (h_vals h) (h_map h) (done ++ cur ++ rows).
Proof.
  induction rows as [|r rows IH]; intros V prev m done cur HH HP HC WC HK WR HS; cbn [h_loop].
  - rewrite app_nil_r. apply close_ok; auto.
  - pose proof (Forall_inv WR) as Wr. pose proof (Forall_inv_tail WR) as WR'. cbv beta in Wr. rewrite key_eqb_keqb. change (map (col r) fields) with (kkf r). destruct (keqb (kkf r) prev) eqn:E.
    + apply keqb_true in E. specialize (IH V prev m done (cur ++ [r]) HH HP). rewrite concat_app in IH. cbn [concat] in IH. rewrite app_nil_r in IH. rewrite <- !app_assoc in *. cbn [app] in *. apply IH; auto.
      * destruct cur; discriminate.
      * apply Forall_app. split; [exact WC|]. constructor; auto.
      * apply Forall_app. split; [exact HK|]. constructor; auto.
    + destruct (close_ok V (length V) prev m done cur eq_refl HH HP HC WC HK) as [EV HH'].
      set (h := h_close w (V ++ 1 :: concat cur) (length V) prev m) in *. specialize (IH (h_vals h) (kkf r) (h_map h) (done ++ cur) [r] HH').
      cbn [concat] in IH. rewrite app_nil_r in IH. rewrite <- !app_assoc in IH. cbn [app] in IH. apply IH; auto; try discriminate; try (now constructor).
      unfold having. apply filter_none. rewrite Forall_forall. intros x Hx. destruct (keqb (kkf x) (kkf r)) eqn:EX; [|reflexivity]. exfalso. apply keqb_true in EX.
      (* sorted: x <= last of cur <= r, so all of cur equals r *)
      destruct cur as [|c cur]; [contradiction|]. assert (Ec : kkf c = prev) by (inversion HK; auto). assert (Hcr : row_le (kkf c) (kkf r)).
      { change ((c :: cur) ++ r :: rows) with ([c] ++ (cur ++ r :: rows)) in HS. rewrite app_assoc in HS. apply sby_app in HS as [_ HS]. apply HS; [apply in_or_app; right; now left|apply in_or_app; right; now left]. }
      assert (Lk : forall a b : row, length (kkf a) = length (kkf b)) by (intros; unfold kkf; now rewrite !kk_len).
      apply in_app_or in Hx as [Hx|Hx].
      * assert (Hxc : row_le (kkf x) (kkf c)) by (apply sby_app in HS as [_ HS]; apply HS; [exact Hx|now left]). rewrite EX in Hxc. apply le_cmp in Hxc, Hcr; auto. rewrite cmp_opp in Hxc. assert (E1 : kkf c = kkf r). { apply cmp_eq; auto. destruct (cmp_row (kkf c) (kkf r)); cbn in *; congruence. }
        rewrite <- E1, Ec, keqb_eq in E by reflexivity. discriminate.
      * rewrite Forall_forall in HK. rewrite (HK x Hx) in EX. rewrite <- EX, keqb_eq in E by reflexivity. discriminate.
Qed.

Lemma concat_nth : forall (l : list row) i, wide w l -> (i < length l)%nat -> forall post, firstn w (skipn (i * w) (concat l ++ post)) = nth i l [].
Proof.
  intros l i H. revert i. induction H as [|r l Hr _ IH]; intros i Hi post; [cbn in Hi; lia|]. cbn [concat]. destruct i as [|i]; cbn [Nat.mul nth].
  - cbn [skipn]. rewrite <- app_assoc, firstn_app, Hr, Nat.sub_diag, firstn_O, app_nil_r. rewrite <- Hr. apply firstn_all.
  - rewrite <- app_assoc, skipn_app, Hr. rewrite (skipn_all2 r) by lia. cbn [app]. replace (w + i * w - w)%nat with (i * w)%nat by lia. apply IH. cbn in Hi. lia.
Qed.

(** What a probe finds in the map: the rows with the key, in their order after sorting. *)
Lemma probe_ok srt rows k : sorts srt -> wide w rows -> h_probe w (h_fill srt w fields rows) k = having k (srt (sorter fields) rows).
Proof.
  intros HS WR. destruct (HS (sorter fields) rows) as [HP HO]. assert (WS : wide w (srt (sorter fields) rows)). { unfold wide in *. rewrite Forall_forall in *. intros x Hx. apply WR. eapply Permutation_in; eauto. }
  assert (HO' : sby kkf (srt (sorter fields) rows)).
  { assert (H : StronglySorted (fun a b => sorter fields b a = false) (srt (sorter fields) rows)).
    { apply HO; [intros a b Hab; rewrite sorter_cmp in Hab |- *; rewrite cmp_opp; destruct (cmp_row (map (col a) fields) (map (col b) fields)); cbn; congruence|]. intros a b c H1 H2. apply key_le in H1, H2. apply key_le. apply (row_le_trans _ (map (col b) fields)); auto; now rewrite !map_length. }
    clear -H. unfold sby. induction H as [|a l S IH HF]; constructor; auto. rewrite Forall_forall in HF |- *. intros x Hx. now apply key_le, HF. }
  unfold h_fill. destruct (srt (sorter fields) rows) as [|r l]; [reflexivity|]. pose proof (Forall_inv WS) as Wr. pose proof (Forall_inv_tail WS) as WL. cbv beta in Wr.
  pose proof (loop_ok l [] (kkf r) [] [] [r]) as HL. cbn [concat app length] in HL. rewrite app_nil_r in HL. change (map (col r) fields) with (kkf r).
  assert (HH : holds (h_vals (h_loop w fields l (1 :: r) 0 (kkf r) [])) (h_map (h_loop w fields l (1 :: r) 0 (kkf r) [])) (r :: l)).
  { apply HL; auto; try discriminate; try (now constructor). }
  set (h := h_loop w fields l (1 :: r) 0 (kkf r) []) in *. clearbody h. clear HL. specialize (HH k). unfold h_probe. destruct (h_find k (h_map h)) as [b|]; [|now rewrite HH].
  destruct HH as (Hn & pre & post & EV & ->). rewrite EV. rewrite app_nth2, Nat.sub_diag by lia. cbn [nth]. rewrite Nat2Z.id.
  assert (WG : wide w (having k (r :: l))). { unfold wide, having in *. rewrite Forall_forall in *. intros x Hx. apply filter_In in Hx as [Hx _]. auto. }
  transitivity (map (fun i => nth i (having k (r :: l)) []) (seq 0 (length (having k (r :: l))))).
  - apply map_ext_in. intros i Hi. apply in_seq in Hi. rewrite skipn_app, (skipn_all2 pre) by lia. replace (S (length pre) + i * w - length pre)%nat with (S (i * w)) by lia. cbn [app skipn].
    rewrite concat_nth by (auto; lia). reflexivity.
  - generalize (having k (r :: l)). clear. induction l as [|a l IH]; [reflexivity|]. cbn [length seq map nth]. f_equal. rewrite <- seq_shift, map_map. exact IH.
Qed.
End Map.

(** ** The plan *)
Lemma index_some x : forall l k, index_of x l = Some k -> (k < length l)%nat /\ nth k l 0 = x.
Proof. induction l as [|y l IH]; intros k; cbn; [discriminate|]. destruct (Z.eqb_spec y x) as [->|]; [intros E; injection E as <-; cbn; split; [lia|auto]|]. destruct (index_of x l) as [j|]; [|discriminate]. cbn. intros E. injection E as <-. destruct (IH j eq_refl). cbn. split; [lia|auto]. Qed.
Lemma index_none x l : index_of x l = None <-> ~ In x l.
Proof.
  induction l as [|y l IH]; cbn; [tauto|]. destruct (Z.eqb_spec y x) as [->|N]; [split; [discriminate|tauto]|]. destruct (index_of x l); cbn.
  - split; [discriminate|]. intros H. assert (H' : ~ In x l) by tauto. apply IH in H'. discriminate.
  - split; [|reflexivity]. intros _ [E|H]; [congruence|]. revert H. now apply IH.
Qed.

(** The joins, copied columns and variables of a child with distinct variables. *)
Lemma plan_ok lst proj : forall new cur j, NoDup new -> 
  plan_vars lst proj cur j new =
    (flat_map (fun i => match index_of (nth i new 0) cur with Some k => [(k, (j + i)%nat)] | None => [] end) (seq 0 (length new)),
     flat_map (fun i => if existsb (Z.eqb (nth i new 0)) cur then [] else if (if lst && negb (length proj =? 0)%nat then existsb (Z.eqb (nth i new 0)) proj else true) then [(j + i)%nat] else []) (seq 0 (length new)),
     cur ++ new_vars cur new).
Proof.
  induction new as [|v new IH]; intros cur j HN; [cbn; now rewrite app_nil_r|]. inversion HN as [|? ? Hv HN']. subst. cbn [plan_vars length seq flat_map nth]. rewrite <- seq_shift, !flat_map_concat_map, !map_map, <- !flat_map_concat_map. cbn [nth]. rewrite Nat.add_0_r.
  destruct (index_of v cur) as [k|] eqn:E.
  - destruct (index_some _ _ _ E) as [Hk Ek]. assert (Hin : In v cur) by (rewrite <- Ek; apply nth_In; lia). rewrite (proj2 (exists_in v cur) Hin). rewrite IH by auto. cbn [app]. unfold new_vars. cbn [filter]. rewrite (proj2 (exists_in v cur) Hin). cbn [negb].
    do 2 f_equal; [f_equal|]; apply fm_ext; intros i _; now rewrite <- Nat.add_succ_comm.
  - apply index_none in E. rewrite (proj2 (exists_notin v cur) E). rewrite IH by auto.
    assert (Hc : forall i, (i < length new)%nat -> existsb (Z.eqb (nth i new 0)) (cur ++ [v]) = existsb (Z.eqb (nth i new 0)) cur).
    { intros i Hi. rewrite existsb_app. cbn. rewrite orb_false_r. destruct (Z.eqb_spec (nth i new 0) v) as [E'|]; [|now rewrite orb_false_r]. exfalso. apply Hv. rewrite <- E'. now apply nth_In. }
    assert (Hi : forall i, (i < length new)%nat -> index_of (nth i new 0) (cur ++ [v]) = index_of (nth i new 0) cur).
    { intros i Hi. assert (Hne : v <> nth i new 0) by (intros ->; apply Hv; now apply nth_In). clear -Hne. induction cur as [|y cur IHc]; cbn; [destruct (Z.eqb_spec v (nth i new 0)); congruence|]. destruct (y =? nth i new 0); [reflexivity|]. now rewrite IHc. }
    f_equal; [f_equal|].
    + cbn [app]. apply fm_ext. intros i Hin. apply in_seq in Hin. rewrite Hi by lia. destruct (index_of (nth i new 0) cur); auto. now rewrite <- Nat.add_succ_comm.
    + set (cp := if lst && negb (length proj =? 0)%nat then existsb (Z.eqb v) proj else true).
      assert (EQ : flat_map (fun i => if existsb (Z.eqb (nth i new 0)) (cur ++ [v]) then [] else if (if lst && negb (length proj =? 0)%nat then existsb (Z.eqb (nth i new 0)) proj else true) then [(S j + i)%nat] else []) (seq 0 (length new)) =
        flat_map (fun x => if existsb (Z.eqb (nth x new 0)) cur then [] else if (if lst && negb (length proj =? 0)%nat then existsb (Z.eqb (nth x new 0)) proj else true) then [(j + S x)%nat] else []) (seq 0 (length new))).
      { apply fm_ext. intros i Hin. apply in_seq in Hin. rewrite Hc by lia. now rewrite <- Nat.add_succ_comm. }
      rewrite EQ. destruct cp; reflexivity.
    + rewrite <- app_assoc. cbn [app]. unfold new_vars. cbn [filter]. rewrite (proj2 (exists_notin v cur) E). cbn [negb]. do 2 f_equal. apply filter_ext_in. intros x Hx. destruct (In_nth _ _ 0 Hx) as (i & Hi' & <-). now rewrite Hc.
Qed.

Lemma seq_index {B} (f : nat -> B) x s : NoDup s ->
  flat_map (fun j => if x =? nth j s 0 then [f j] else []) (seq 0 (length s)) = match index_of x s with Some k => [f k] | None => [] end.
Proof.
  intros HN. revert f. induction s as [|v s IH]; intros f; [reflexivity|]. inversion HN as [|? ? Hn HN']. subst. cbn [length seq flat_map nth index_of]. rewrite <- seq_shift, flat_map_concat_map, map_map, <- flat_map_concat_map. cbn [nth].
  rewrite (IH HN' (fun j => f (S j))). rewrite (Z.eqb_sym v x). destruct (Z.eqb_spec x v) as [->|]; cbn [app]; [|now destruct (index_of x s)]. now rewrite (proj2 (index_none v s) Hn).
Qed.
Definition swap (p : nat * nat) : nat * nat := (snd p, fst p).
Definition jpos (s1 s2 : list Z) : list (nat * nat) := flat_map (fun i => match index_of (nth i s2 0) s1 with Some k => [(k, (0 + i)%nat)] | None => [] end) (seq 0 (length s2)).
Lemma jpos_swap s1 s2 : NoDup s1 -> jpos s1 s2 = map swap (tt_posJoins s2 s1).
Proof.
  intros HN. unfold jpos, tt_posJoins. rewrite map_fm. apply fm_ext. intros i _. rewrite seq_index by auto. now destruct (index_of (nth i s2 0) s1).
Qed.
Definition cpos (s1 s2 : list Z) : list nat := flat_map (fun i => if existsb (Z.eqb (nth i s2 0)) s1 then [] else [(0 + i)%nat]) (seq 0 (length s2)).
Lemma cpos_vars s1 s2 : map (fun i => nth i s2 0) (cpos s1 s2) = new_vars s1 s2.
Proof. unfold cpos, new_vars. rewrite filter_fm, map_fm, (fm_seq (fun x => if negb _ then _ else _) s2). apply fm_ext. intros i _. now destruct (existsb (Z.eqb (nth i s2 0)) s1). Qed.
Lemma cpos_extra s1 s2 r2 : NoDup s2 -> length r2 = length s2 -> map (col r2) (cpos s1 s2) = extra s1 s2 r2.
Proof.
  intros HN L. unfold cpos, extra, new_vars. rewrite filter_fm, !map_fm, (fm_seq (fun x => _) s2). apply fm_ext. intros i Hi. apply in_seq in Hi. destruct (existsb (Z.eqb (nth i s2 0)) s1); [reflexivity|]. cbn [negb map]. now rewrite value_nth by (auto; lia).
Qed.
Lemma cpos_len s1 s2 : length (cpos s1 s2) = length (new_vars s1 s2).
Proof. rewrite <- cpos_vars. now rewrite map_length. Qed.

Lemma compat_sym s1 s2 r1 r2 : compatible s1 s2 r1 r2 = compatible s2 s1 r2 r1.
Proof.
  assert (H : forall s1 s2 r1 r2, compatible s1 s2 r1 r2 = true -> compatible s2 s1 r2 r1 = true).
  { clear. intros s1 s2 r1 r2 H. unfold compatible in *. rewrite forallb_forall in *. intros x Hx. destruct (in_dec Z.eq_dec x s1) as [H1|H1].
    - specialize (H x H1). destruct (value s1 r1 x), (value s2 r2 x); auto. rewrite Z.eqb_sym. exact H.
    - rewrite (value_none s1 r1 x H1). now destruct (value s2 r2 x). }
  apply eq_true_iff_eq. split; apply H.
Qed.

Lemma fm_app_perm {A B} (f g : A -> list B) l : Permutation (flat_map (fun a => f a ++ g a) l) (flat_map f l ++ flat_map g l).
Proof.
  induction l as [|a l IH]; cbn; [constructor|]. rewrite IH. rewrite <- !app_assoc. apply Permutation_app_head. rewrite !app_assoc. apply Permutation_app_tail. apply Permutation_app_comm.
Qed.
Lemma fm_swap {A B C} (f : A -> B -> list C) la lb : Permutation (flat_map (fun b => flat_map (fun a => f a b) la) lb) (flat_map (fun a => flat_map (fun b => f a b) lb) la).
Proof.
  induction lb as [|b lb IH]; cbn.
  - induction la; cbn; auto.
  - rewrite IH. symmetry. apply fm_app_perm.
Qed.
Lemma map_filter_fm {A B} (f : A -> B) p l : map f (filter p l) = flat_map (fun x => if p x then [f x] else []) l.
Proof. rewrite filter_fm, map_fm. apply fm_ext. intros x _. now destruct (p x). Qed.

(** One step of the join. *)
Section Step.
Variable srt : (row -> row -> bool) -> list row -> list row.
Hypothesis Srt : sorts srt.
Variables s1 s2 : list Z.
Variables l1 l2 : list row.
Hypothesis N1 : NoDup s1.
Hypothesis N2 : NoDup s2.
Hypothesis W1 : wide (length s1) l1.
Hypothesis W2 : wide (length s2) l2.
Hypothesis Lk : (1 <= length (common s2 s1) <= 2)%nat.

Lemma s1_cons : length s1 <> O.
Proof. destruct s1; [|discriminate]. exfalso. unfold common in Lk. rewrite filter_none in Lk; [cbn in Lk; lia|]. apply Forall_forall. reflexivity. Qed.
Lemma jpos_len : (length (jpos s1 s2) =? 0)%nat || (2 <? length (jpos s1 s2))%nat = false.
Proof. clear W1 W2 Srt. rewrite jpos_swap, map_length, posjoins_len by auto. destruct (Nat.eqb_spec (length (common s2 s1)) 0); [lia|]. destruct (Nat.ltb_spec 2 (length (common s2 s1))); [lia|reflexivity]. Qed.

Lemma probe_compat r2 : In r2 l2 ->
  h_probe (length s1) (h_fill srt (length s1) (map fst (jpos s1 s2)) l1) (map (col r2) (map snd (jpos s1 s2))) = filter (fun r1 => compatible s1 s2 r1 r2) (srt (sorter (map fst (jpos s1 s2))) l1).
Proof.
  intros H2. rewrite (probe_ok _ _ s1_cons) by auto. unfold having. apply filter_ext_in. intros r1 H1. 
  assert (L1 : length r1 = length s1). { destruct (Srt (sorter (map fst (jpos s1 s2))) l1) as [HP _]. unfold wide in W1. rewrite Forall_forall in W1. apply W1. eapply Permutation_in; eauto. }
  assert (L2 : length r2 = length s2) by (unfold wide in W2; rewrite Forall_forall in W2; auto).
  rewrite compat_sym, compat_keys by auto. rewrite keqb_sym. rewrite jpos_swap by auto. unfold kk, kf, ks. rewrite !map_map. reflexivity.
Qed.
(** Pairs in the order of the join. *)
Lemma pairs_perm {B} (g : row -> row -> B) :
  Permutation (flat_map (fun r2 => map (fun r1 => g r1 r2) (h_probe (length s1) (h_fill srt (length s1) (map fst (jpos s1 s2)) l1) (map (col r2) (map snd (jpos s1 s2))))) l2)
              (flat_map (fun r1 => map (g r1) (filter (compatible s1 s2 r1) l2)) l1).
Proof.
  set (L := srt (sorter (map fst (jpos s1 s2))) l1).
  transitivity (flat_map (fun r1 => map (g r1) (filter (compatible s1 s2 r1) l2)) L); [|apply Permutation_flat_map, (proj1 (Srt _ _))].
  erewrite fm_ext by (intros r2 H2; rewrite (probe_compat r2 H2), (map_filter_fm (fun r1 => g r1 r2)); reflexivity).
  fold L. rewrite (fm_swap (fun r1 r2 => if compatible s1 s2 r1 r2 then [g r1 r2] else [])). erewrite fm_ext; [reflexivity|]. intros r1 _. cbn beta. now rewrite map_filter_fm.
Qed.
End Step.

Lemma join_sig_nodup s1 s2 : NoDup s1 -> NoDup s2 -> NoDup (join_sig s1 s2).
Proof.
  intros N1 N2. unfold join_sig. induction s1 as [|v s1 IH] using rev_ind; [cbn; now apply NoDup_filter|]. clear IH.
  set (s := s1 ++ [v]) in *. clearbody s. assert (HD : forall x, In x s -> ~ In x (new_vars s s2)). { intros x Hx Hn. unfold new_vars in Hn. apply filter_In in Hn as [_ Hn]. rewrite (proj2 (exists_in x s) Hx) in Hn. discriminate. }
  assert (HN : NoDup (new_vars s s2)) by now apply NoDup_filter. revert HD HN. generalize (new_vars s s2). clear -N1. induction N1 as [|a l Ha _ IH]; intros m HD HN; [exact HN|]. cbn. constructor.
  - intros H. apply in_app_or in H as [H|H]; [auto|]. apply (HD a); [now left|auto].
  - apply IH; auto. intros x Hx. apply HD. now right.
Qed.
Lemma extra_len s1 s2 r : length (extra s1 s2 r) = length (new_vars s1 s2).
Proof. apply map_length. Qed.
Lemma natural_wide s1 s2 l1 l2 : wide (length s1) l1 -> wide (length (join_sig s1 s2)) (natural_join s1 s2 l1 l2).
Proof.
  intros W. unfold wide in *. rewrite Forall_forall in *. intros x Hx. unfold natural_join in Hx. apply in_flat_map in Hx as (r1 & H1 & Hx). apply in_map_iff in Hx as (r2 & <- & _). unfold join_sig. rewrite !app_length, extra_len. f_equal. auto.
Qed.
Lemma wide_perm n l l' : Permutation l l' -> wide n l -> wide n l'.
Proof. intros HP W. unfold wide in *. rewrite Forall_forall in *. intros x Hx. apply W. eapply Permutation_in; [symmetry|]; eauto. Qed.
Lemma natural_perm' s1 s2 l1 l2 m1 : Permutation l1 m1 -> Permutation (natural_join s1 s2 l1 l2) (natural_join s1 s2 m1 l2).
Proof. intros H. unfold natural_join. now apply Permutation_flat_map. Qed.

Definition tab (c : child) : list Z * list row := (c_vars c, c_rows c).
Lemma join_all_perm : forall ts s l m, Permutation l m -> Permutation (snd (join_all s l ts)) (snd (join_all s m ts)) /\ fst (join_all s l ts) = fst (join_all s m ts).
Proof. induction ts as [|[s2 l2] ts IH]; intros s l m H; cbn; [auto|]. apply IH. now apply natural_perm'. Qed.
Lemma join_all_well : forall ts s l, well (s, l) -> Forall well ts -> well (join_all s l ts).
Proof.
  induction ts as [|[s2 l2] ts IH]; intros s l Hw Ht; [exact Hw|]. inversion Ht as [|? ? [N2 W2] Ht']. subst. destruct Hw as [N1 W1]. cbn [join_all fst snd] in *. apply IH; auto. split; cbn [fst snd]; [now apply join_sig_nodup|now apply natural_wide].
Qed.
Lemma join_all_sig ts : forall s l m, fst (join_all s l ts) = fst (join_all s m ts).
Proof. induction ts as [|[s2 l2] ts IH]; intros s l m; cbn; auto. Qed.

Lemma plan_rest_cur proj : forall cs s l, Forall well (map tab cs) -> snd (plan_rest proj s cs) = fst (join_all s l (map tab cs)).
Proof.
  induction cs as [|c cs IH]; intros s l H; [reflexivity|]. inversion H as [|? ? [N2 _] H']. subst. cbn [plan_rest map tab join_all]. rewrite plan_ok by exact N2. specialize (IH (s ++ new_vars s (c_vars c)) (natural_join s (c_vars c) l (c_rows c)) H').
  destruct (plan_rest proj (s ++ new_vars s (c_vars c)) cs) as [p q]. exact IH.
Qed.

(** The columns copied from the last child. *)
Definition cpos_last (proj s1 s2 : list Z) : list nat :=
  flat_map (fun i => if existsb (Z.eqb (nth i s2 0)) s1 then [] else if (if negb (length proj =? 0)%nat then existsb (Z.eqb (nth i s2 0)) proj else true) then [(0 + i)%nat] else []) (seq 0 (length s2)).
Lemma cpos_last_front proj s1 s2 a b : new_vars s1 s2 = a ++ b -> (proj = [] -> b = []) -> (proj <> [] -> incl a proj /\ forall x, In x b -> ~ In x proj) -> cpos_last proj s1 s2 = firstn (length a) (cpos s1 s2).
Proof.
  intros E HB HP. destruct proj as [|p proj].
  - rewrite HB, app_nil_r in E by reflexivity. rewrite <- E, <- cpos_len, firstn_all. unfold cpos_last, cpos. reflexivity.
  - assert (EF : cpos_last (p :: proj) s1 s2 = filter (fun i => existsb (Z.eqb (nth i s2 0)) (p :: proj)) (cpos s1 s2)).
    { unfold cpos_last, cpos. rewrite filter_fm. cbn [length Nat.eqb negb]. induction (seq 0 (length s2)) as [|i l IH]; [reflexivity|]. cbn [flat_map]. rewrite flat_map_app, IH. f_equal. destruct (existsb (Z.eqb (nth i s2 0)) s1); [reflexivity|]. cbn [flat_map]. now rewrite app_nil_r. }
    rewrite EF. set (P := p :: proj) in *. assert (HP' := HP ltac:(discriminate)). destruct HP' as [HA HB']. rewrite <- cpos_vars in E. clear EF HP HB. clearbody P. revert a E HA. induction (cpos s1 s2) as [|i l IH]; intros a E HA; [now rewrite firstn_nil|].
    destruct a as [|x a]; cbn [app map length firstn] in *.
    + destruct b as [|y b]; [discriminate|]. apply filter_none. rewrite Forall_forall. intros j Hj. apply exists_notin, HB'. rewrite <- E. change (nth i s2 0 :: map (fun i : nat => nth i s2 0) l) with (map (fun i : nat => nth i s2 0) (i :: l)). apply in_map_iff. eauto.
    + injection E as Ex E. cbn [filter]. rewrite (proj2 (exists_in _ P)) by (rewrite Ex; apply HA; now left). f_equal. apply IH; auto. intros y Hy. apply HA. now right.
Qed.

Lemma outs_all {A} (f : A -> option row) g l : (forall x, In x l -> f x = Some (g x)) -> hj_outs (map f l) = Some (map g l).
Proof. induction l as [|x l IH]; intros H; [reflexivity|]. cbn. rewrite (H x) by now left. cbn. rewrite IH by (intros y Hy; apply H; now right). reflexivity. Qed.
Lemma outs_perm f l : hj_outs l = Some f -> forall m, Permutation l m -> exists g, hj_outs m = Some g /\ Permutation f g.
Proof.
  intros E m HP. revert f E. induction HP as [|x l m HP IH|x y l|l m k HP1 IH1 HP2 IH2]; intros f E.
  - exists f. auto.
  - cbn in E |- *. destruct x as [r|]; [|discriminate]. cbn in E |- *. destruct (hj_outs l) as [rs|]; [|discriminate]. cbn in E. injection E as <-. destruct (IH rs eq_refl) as (g & -> & HPg). cbn. eauto.
  - cbn in E |- *. destruct y as [ry|], x as [rx|]; try discriminate; cbn in *; destruct (hj_outs l) as [rs|]; try discriminate; cbn in *; try discriminate. injection E as <-. exists (rx :: ry :: rs). split; [reflexivity|apply perm_swap].
  - destruct (IH1 f E) as (g & E1 & P1). destruct (IH2 g E1) as (h & E2 & P2). exists h. split; [auto|]. etransitivity; eauto.
Qed.

Lemma out_ok s1 s2 ret n r1 r2 : NoDup s2 -> length r1 = length s1 -> length r2 = length s2 -> Forall (fun k => (k < length s1 + n)%nat) ret -> (n <= length (cpos s1 s2))%nat ->
  hj_out (length s1) ret (firstn n (cpos s1 s2)) r1 r2 = Some (map (col (r1 ++ extra s1 s2 r2)) ret).
Proof.
  intros N2 L1 L2 HR Hn. unfold hj_out. induction HR as [|k ret Hk _ IH]; [reflexivity|]. cbn [fold_right map]. rewrite IH. cbv iota beta. change (col (r1 ++ extra s1 s2 r2) k) with (nth k (r1 ++ extra s1 s2 r2) 0). destruct (Nat.ltb_spec k (length s1)) as [Hlt|Hge].
  - rewrite app_nth1 by lia. reflexivity.
  - rewrite app_nth2 by lia. rewrite L1, <- (cpos_extra s1 s2 r2) by auto.
    assert (Hl : (k - length s1 < length (firstn n (cpos s1 s2)))%nat) by (rewrite firstn_length; lia).
    rewrite (nth_error_nth' _ O Hl). cbn. do 2 f_equal. rewrite (nth_indep _ 0 (col r2 0)) by (rewrite map_length; rewrite firstn_length in Hl; lia). rewrite map_nth. f_equal.
    rewrite <- (firstn_skipn n (cpos s1 s2)) at 2. now rewrite app_nth1 by auto.
Qed.

Theorem loop_join srt ret proj cl : sorts srt -> well (tab cl) -> forall mid s l, well (s, l) -> Forall well (map tab mid) -> linked s (map tab (mid ++ [cl])) ->
  (exists a b, new_vars (fst (join_all s [] (map tab mid))) (c_vars cl) = a ++ b /\ (proj = [] -> b = []) /\ (proj <> [] -> incl a proj /\ forall x, In x b -> ~ In x proj) /\
    Forall (fun k => (k < length (fst (join_all s [] (map tab mid))) + length a)%nat) ret) ->
  exists o, hj_loop srt ret (length s) l (fst (plan_rest proj s (mid ++ [cl]))) = Some o /\
    Permutation o (map (fun r => map (col r) ret) (snd (join_all s l (map tab (mid ++ [cl]))))).
Proof.
  intros HS [Nl Wl]. cbn [tab fst snd] in Nl, Wl. induction mid as [|c mid IH]; intros s l [N1 W1] HM HL HF; cbn [fst snd] in N1, W1.
  - cbn [app map plan_rest] in *. rewrite plan_ok by auto. cbn [fst hj_loop]. destruct HL as [HL _]. cbn [tab] in HL. cbn [join_all fst] in HF. destruct HF as (a & b & EF & HB & HP & HR).
    cbn [join_all tab snd]. destruct l as [|r0 l0].
    { exists []. split; [reflexivity|]. constructor. }
    set (L := r0 :: l0) in *. 
    change (flat_map (fun i => match index_of (nth i (c_vars cl) 0) s with Some k => [(k, (0 + i)%nat)] | None => [] end) (seq 0 (length (c_vars cl)))) with (jpos s (c_vars cl)).
    change (flat_map _ (seq 0 (length (c_vars cl)))) with (cpos_last proj s (c_vars cl)).
    rewrite jpos_len by auto. rewrite (cpos_last_front proj s (c_vars cl) a b) by auto.
    assert (Hn : (length a <= length (cpos s (c_vars cl)))%nat) by (rewrite cpos_len, EF, app_length; lia).
    pose proof (pairs_perm srt HS s (c_vars cl) L (c_rows cl) N1 Nl W1 Wl HL (fun r1 r2 => hj_out (length s) ret (firstn (length a) (cpos s (c_vars cl))) r1 r2)) as HPm.
    symmetry in HPm. eapply outs_perm in HPm.
    2:{ unfold natural_join. instantiate (1 := map (fun r => map (col r) ret) (natural_join s (c_vars cl) L (c_rows cl))). unfold natural_join. rewrite map_fm.
        assert (W1' : forall r, In r L -> length r = length s) by (now apply Forall_forall). assert (Wl' : forall r, In r (c_rows cl) -> length r = length (c_vars cl)) by (now apply Forall_forall). clear -W1' Wl' Nl HR Hn. induction L as [|r1 L IH]; [reflexivity|]. cbn [flat_map].
        assert (Happ : forall x y x' y', hj_outs x = Some x' -> hj_outs y = Some y' -> hj_outs (x ++ y) = Some (x' ++ y')).
        { clear. induction x as [|o x IHx]; intros y x' y' Ex Ey; cbn in *; [injection Ex as <-; exact Ey|]. destruct o as [r|]; [|discriminate]. cbn in *. destruct (hj_outs x) as [rs|]; [|discriminate]. cbn in *. injection Ex as <-. rewrite (IHx y rs y' eq_refl Ey). reflexivity. }
        apply Happ; [|apply IH; intros r Hr; apply W1'; now right]. rewrite map_map. apply outs_all. intros r2 Hr2. apply filter_In in Hr2 as [Hr2 _]. apply out_ok; auto. apply W1'. now left. }
    destruct HPm as (g & E & HPg). exists g. split; [exact E|]. now symmetry.
  - cbn [app map plan_rest] in *. inversion HM as [|? ? [N2 W2] HM']. subst. cbn [tab fst snd] in N2, W2. rewrite plan_ok by auto. destruct HL as [HL1 HL2]. cbn [tab] in HL1. cbn [join_all tab] in *.
    specialize (IH (join_sig s (c_vars c))). change (s ++ new_vars s (c_vars c)) with (join_sig s (c_vars c)).
    destruct l as [|r0 l0].
    { exists []. split; [destruct (plan_rest proj (join_sig s (c_vars c)) (mid ++ [cl])); reflexivity|]. replace (natural_join s (c_vars c) [] (c_rows c)) with (@nil row) by reflexivity.
      replace (snd (join_all (join_sig s (c_vars c)) [] (map tab (mid ++ [cl])))) with (@nil row); [constructor|]. generalize (join_sig s (c_vars c)) (map tab (mid ++ [cl])). clear. intros s ts. revert s. induction ts as [|[s2 l2] ts IH]; intros s; [reflexivity|]. apply IH. }
    set (L := r0 :: l0) in *.
    assert (Hcons : exists x y, mid ++ [cl] = x :: y) by (destruct mid; cbn; eauto). destruct Hcons as (cx & cy & Ec).
    pose proof (pairs_perm srt HS s (c_vars c) L (c_rows c) N1 N2 W1 W2 HL1 (fun r1 r2 => r1 ++ map (col r2) (cpos s (c_vars c)))) as HPm.
    set (J := flat_map _ (c_rows c)) in HPm at 1.
    assert (HPJ : Permutation J (natural_join s (c_vars c) L (c_rows c))).
    { rewrite HPm. unfold natural_join. erewrite fm_ext; [reflexivity|]. intros r1 _. cbn beta. apply map_ext_in. intros r2 Hr2. apply filter_In in Hr2 as [Hr2 _]. f_equal. apply cpos_extra; auto. unfold well in W2. rewrite Forall_forall in W2. auto. }
    assert (WJ : wide (length (join_sig s (c_vars c))) J). { eapply wide_perm; [symmetry; exact HPJ|]. now apply natural_wide. }
    destruct (IH J) as (o & Eo & Po); auto.
    + split; [now apply join_sig_nodup|exact WJ].
    + exists o. split.
      * rewrite <- Eo. destruct (plan_rest proj (join_sig s (c_vars c)) (mid ++ [cl])) as [pl cur] eqn:Epl. cbn [fst hj_loop]. fold (jpos s (c_vars c)). subst L. cbv iota.
        change (flat_map (fun i => match index_of (nth i (c_vars c) 0) s with Some k => [(k, (0 + i)%nat)] | None => [] end) (seq 0 (length (c_vars c)))) with (jpos s (c_vars c)). rewrite jpos_len by auto.
        assert (Epc : flat_map (fun i => if existsb (Z.eqb (nth i (c_vars c) 0)) s then [] else if (if match mid ++ [cl] with [] => true | _ => false end && negb (length proj =? 0)%nat then existsb (Z.eqb (nth i (c_vars c) 0)) proj else true) then [(0 + i)%nat] else []) (seq 0 (length (c_vars c))) = cpos s (c_vars c)).
        { rewrite Ec. reflexivity. }
        rewrite Epc. rewrite cpos_len. unfold join_sig. rewrite app_length. destruct pl as [|p pl]; [|reflexivity]. exfalso. rewrite Ec in Epl. cbn in Epl. destruct (plan_vars _ _ _ _ _) as [[? ?] ?] in Epl. destruct (plan_rest _ _ _) in Epl. discriminate.
      * rewrite Po. apply Permutation_map. now apply join_all_perm.
Qed.
