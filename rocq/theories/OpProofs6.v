(** Proofs about hash groupify, the values block and the output of the results. *)
From Verif Require Export OpProofs5.
Local Open Scope Z_scope.

(** ** HashGroupify *)
Lemma upd_length {A} (l : list A) f : forall i, length (upd l i f) = length l.
Proof. induction l as [|x l IH]; intros [|i]; cbn; auto. Qed.
Lemma upd_nth_error {A} (l : list A) f : forall i j,
  nth_error (upd l i f) j = if Nat.eqb i j then option_map f (nth_error l j) else nth_error l j.
Proof.
  induction l as [|x l IH]; intros [|i] [|j]; cbn; try reflexivity.
  - destruct (Nat.eqb i j); reflexivity.
  - apply IH.
Qed.
Lemma upd_nth {A} (l : list A) f d : forall i j, (j < length l)%nat ->
  nth j (upd l i f) d = if Nat.eqb i j then f (nth j l d) else nth j l d.
Proof.
  induction l as [|x l IH]; intros [|i] [|j] H; cbn in *; try lia; try reflexivity. apply IH. lia.
Qed.
Lemma upd_split {A} (l : list A) f : forall i x, nth_error l i = Some x ->
  exists l1 l2, l = l1 ++ x :: l2 /\ length l1 = i /\ upd l i f = l1 ++ f x :: l2.
Proof.
  induction l as [|y l IH]; intros [|i] x E; try discriminate.
  - injection E as ->. exists [], l. auto.
  - destruct (IH i x E) as (l1 & l2 & -> & <- & E2). exists (y :: l1), l2. cbn. rewrite E2. auto.
Qed.

Lemma hg_slot_lt h size : (0 < size)%nat -> (hg_slot h size < size)%nat.
Proof.
  intros Hs. unfold hg_slot. assert (H0 : 0 <= Z.land h (Z.of_nat size - 1)) by (apply Z.land_nonneg; right; lia).
  assert (H1 : Z.land h (Z.of_nat size - 1) <= Z.of_nat size - 1); [|lia].
  rewrite Z.land_comm. assert (L := Z.sub_nocarry_ldiff (Z.of_nat size - 1) (Z.land (Z.of_nat size - 1) h)).
  rewrite <- (Z.land_ldiff (Z.of_nat size - 1) h) in L.
  enough (0 <= Z.ldiff (Z.of_nat size - 1) h /\ Z.of_nat size - 1 = Z.land (Z.of_nat size - 1) h + Z.ldiff (Z.of_nat size - 1) h) by lia.
  split; [apply Z.ldiff_nonneg; left; lia|].
  rewrite Z.add_nocarry_lxor.
  - symmetry. apply Z.bits_inj'. intros k Hk. rewrite Z.lxor_spec, Z.land_spec, Z.ldiff_spec.
    destruct (Z.testbit (Z.of_nat size - 1) k), (Z.testbit h k); reflexivity.
  - apply Z.bits_inj'. intros k Hk. rewrite !Z.land_spec, Z.ldiff_spec, Z.bits_0.
    destruct (Z.testbit (Z.of_nat size - 1) k), (Z.testbit h k); reflexivity.
Qed.

(** The number of occurrences of the values [t] in a table. *)
Definition tab_occurs (tab : list (list Z * Z)) (t : list Z) : Z :=
  fold_right (fun a n => (if values_dec (fst a) t then snd a else 0) + n) 0 tab.
Lemma occurs_table V l t : occurs V l t = tab_occurs (table V l) t.
Proof. unfold occurs, table. induction l as [|a l IH]; [reflexivity|]. cbn [map fold_right tab_occurs fst snd] in *. rewrite IH. reflexivity. Qed.
Lemma tab_occurs_app a b t : tab_occurs (a ++ b) t = tab_occurs a t + tab_occurs b t.
Proof. unfold tab_occurs. induction a as [|x a IH]; cbn [app fold_right]; [reflexivity|]. rewrite IH. lia. Qed.
Lemma tab_occurs_perm a b t : Permutation a b -> tab_occurs a t = tab_occurs b t.
Proof.
  unfold tab_occurs. induction 1; cbn [fold_right]; try congruence; try lia.
Qed.

Definition grows (gs : list hg_group) : list (list Z * Z) := map (fun gr => (hg_vals gr, hg_count gr)) gs.
Definition chains (gs : list hg_group) (slots : list (list nat)) (ids : list nat) : Prop :=
  (forall i gr, In i ids -> nth_error gs i = Some gr -> In i (nth (hg_slot (hg_hash gr) (length slots)) slots [])) /\
  (forall s i, In i (nth s slots []) -> (i < length gs)%nat).
Record hg_inv (t : hg_tab) (tab : list (list Z * Z)) : Prop := {
  hi_nodup : NoDup (map hg_vals (hg_groups t));
  hi_hash : Forall (fun gr => hg_hash gr = hg_hashf (hg_vals gr)) (hg_groups t);
  hi_size : (0 < length (hg_slots t))%nat;
  hi_slots : chains (hg_groups t) (hg_slots t) (seq 0 (length (hg_groups t)));
  hi_pos : Forall (fun gr => 0 < hg_count gr) (hg_groups t);
  hi_len : forall n, Forall (fun a => length (fst a) = n) tab -> Forall (fun gr => length (hg_vals gr) = n) (hg_groups t);
  hi_occurs : forall v, tab_occurs (grows (hg_groups t)) v = tab_occurs tab v }.

Lemma hg_find_some gs chain vals i : hg_find gs chain vals = Some i ->
  exists gr, nth_error gs i = Some gr /\ hg_vals gr = vals.
Proof.
  induction chain as [|j chain IH]; cbn [hg_find]; [discriminate|].
  destruct (nth_error gs j) as [gr|] eqn:E; [|discriminate].
  destruct (row_eqb (hg_vals gr) vals) eqn:Er; [|exact IH].
  intros [= <-]. exists gr. split; [exact E|]. apply row_eqb_eq, Er.
Qed.
Lemma hg_find_none gs chain vals : (forall i, In i chain -> (i < length gs)%nat) -> hg_find gs chain vals = None ->
  forall i gr, In i chain -> nth_error gs i = Some gr -> hg_vals gr <> vals.
Proof.
  induction chain as [|j chain IH]; cbn [hg_find]; intros Hv; [intros _ i gr []|].
  destruct (nth_error gs j) as [gr|] eqn:E.
  2:{ exfalso. apply nth_error_None in E. specialize (Hv j (or_introl eq_refl)). lia. }
  destruct (row_eqb (hg_vals gr) vals) eqn:Er; [discriminate|]. intros Hf i gr' [<-|Hi] Hg.
  - rewrite E in Hg. injection Hg as <-. intros C. apply row_eqb_eq in C. congruence.
  - eapply IH; eauto. intros k Hk. apply Hv. right. exact Hk.
Qed.

Section Hg.
Variable enum : list hg_group -> list nat.
Hypothesis Henum : forall gs, Permutation (enum gs) (seq 0 (length gs)).

Lemma hg_rehash_chains gs size : (0 < size)%nat -> chains gs (hg_rehash enum gs size) (seq 0 (length gs)) /\ length (hg_rehash enum gs size) = size.
Proof.
  intros Hs. unfold hg_rehash.
  set (step := fun (slots : list (list nat)) i => match nth_error gs i with
    | Some gr => upd slots (hg_slot (hg_hash gr) size) (fun chain => i :: chain) | None => slots end).
  assert (G : forall ids slots done, length slots = size -> (forall i, In i ids -> (i < length gs)%nat) -> chains gs slots done ->
    chains gs (fold_left step ids slots) (ids ++ done) /\ length (fold_left step ids slots) = size).
  { induction ids as [|i ids IH]; intros slots done Hl Hv Hc; [auto|]. cbn [fold_left].
    assert (Hl' : length (step slots i) = size) by (unfold step; destruct (nth_error gs i); [rewrite upd_length|]; exact Hl).
    destruct (IH (step slots i) (i :: done)) as [C1 C2].
    - exact Hl'.
    - intros j Hj. apply Hv. right. exact Hj.
    - destruct Hc as [Hc1 Hc2]. assert (Hi := Hv i (or_introl eq_refl)).
      destruct (nth_error gs i) as [gi|] eqn:Ei; [|apply nth_error_None in Ei; lia].
      assert (Es : step slots i = upd slots (hg_slot (hg_hash gi) size) (fun chain => i :: chain)) by (unfold step; rewrite Ei; reflexivity).
      split.
      + intros j gr Hj Eg. rewrite Hl', Es. rewrite upd_nth by (rewrite Hl; apply hg_slot_lt, Hs).
        destruct Hj as [<-|Hj].
        * rewrite Ei in Eg. injection Eg as <-. rewrite Nat.eqb_refl. left. reflexivity.
        * specialize (Hc1 j gr Hj Eg). rewrite Hl in Hc1. destruct (Nat.eqb _ _); [right|]; exact Hc1.
      + intros s j Hj. rewrite Es in Hj. destruct (Nat.lt_ge_cases s (length slots)) as [Hlt|Hge].
        * rewrite upd_nth in Hj by exact Hlt. destruct (Nat.eqb _ _); [|eapply Hc2; exact Hj].
          destruct Hj as [<-|Hj]; [exact Hi|eapply Hc2; exact Hj].
        * rewrite nth_overflow in Hj by (rewrite upd_length; exact Hge). destruct Hj.
    - split; [|exact C2]. destruct C1 as [C1 C1']. split; [|exact C1'].
      intros j gr Hj. apply C1. cbn in Hj. destruct Hj as [<-|Hj]; [apply in_or_app; right; left; reflexivity|].
      apply in_app_or in Hj. destruct Hj; apply in_or_app; [left|right; right]; assumption. }
  destruct (G (enum gs) (repeat [] size) []) as [C1 C2].
  - apply repeat_length.
  - intros i Hi. apply (Permutation_in _ (Henum gs)) in Hi. apply in_seq in Hi. lia.
  - split; [intros i gr []|]. intros s i Hi. exfalso. clear - Hi. revert s Hi. induction size as [|n IH]; intros [|s]; cbn; auto; apply IH.
  - split; [|exact C2]. destruct C1 as [C1 C1']. split; [|exact C1']. intros i gr Hi. apply C1.
    rewrite app_nil_r. apply (Permutation_in _ (Permutation_sym (Henum gs))). exact Hi.
Qed.

Lemma grows_upd gs i gr f t : nth_error gs i = Some gr ->
  tab_occurs (grows (upd gs i f)) t = tab_occurs (grows gs) t - tab_occurs (grows [gr]) t + tab_occurs (grows [f gr]) t.
Proof.
  intros E. destruct (upd_split gs f i gr E) as (l1 & l2 & -> & _ & ->). unfold grows. rewrite !map_app, !tab_occurs_app.
  cbn [map]. unfold tab_occurs. cbn [fold_right]. lia.
Qed.

Lemma hg_add_inv t tab row : 0 < snd row -> hg_inv t tab -> hg_inv (hg_add enum t row) (tab ++ [row]).
Proof.
  intros Hpos [N H S [C1 C2] P Ln O]. unfold hg_add. cbn zeta.
  set (size := length (hg_slots t)) in *. set (hash := hg_hashf (fst row)). set (slot := hg_slot hash size).
  assert (Hslot : (slot < size)%nat) by (apply hg_slot_lt, S).
  destruct (hg_find (hg_groups t) (nth slot (hg_slots t) []) (fst row)) as [i|] eqn:Ef.
  - destruct (hg_find_some _ _ _ _ Ef) as (gr & Ei & Ev).
    assert (Hi := proj1 (nth_error_Some (hg_groups t) i) ltac:(congruence)).
    set (f := fun gr => mkGrp (hg_hash gr) (hg_count gr + snd row) (hg_vals gr)).
    assert (Em : forall B (h : hg_group -> B), (forall g, h (f g) = h g) -> map h (upd (hg_groups t) i f) = map h (hg_groups t)).
    { intros B h Hh. clear - Hh. revert i. induction (hg_groups t) as [|x l IH]; intros [|i]; cbn; try reflexivity; [rewrite Hh; reflexivity|rewrite IH; reflexivity]. }
    constructor; cbn [hg_groups hg_slots].
    + rewrite Em by reflexivity. exact N.
    + rewrite Forall_forall in *. intros x Hx. apply In_nth_error in Hx. destruct Hx as (j & Ej).
      rewrite upd_nth_error in Ej. destruct (Nat.eqb_spec i j) as [Eij|]; [subst j|apply H; exact (nth_error_In _ _ Ej)].
      rewrite Ei in Ej. cbn in Ej. injection Ej as <-. cbn. apply H. exact (nth_error_In _ _ Ei).
    + exact S.
    + rewrite upd_length. split; [|intros s j Hj; rewrite upd_length; eapply C2; exact Hj].
      intros j g Hj Ej. rewrite upd_nth_error in Ej. destruct (Nat.eqb_spec i j) as [Eij|]; [subst j|eapply C1; eassumption].
      rewrite Ei in Ej. cbn in Ej. injection Ej as <-. cbn [f hg_hash]. apply C1; [exact Hj|exact Ei].
    + rewrite Forall_forall in *. intros x Hx. apply In_nth_error in Hx. destruct Hx as (j & Ej).
      rewrite upd_nth_error in Ej. destruct (Nat.eqb_spec i j) as [Eij|]; [subst j|apply P; exact (nth_error_In _ _ Ej)].
      rewrite Ei in Ej. cbn in Ej. injection Ej as <-. cbn. assert (0 < hg_count gr) by (apply P; exact (nth_error_In _ _ Ei)). lia.
    + intros n Hl. rewrite Forall_app in Hl. destruct Hl as [Hl _]. specialize (Ln n Hl).
      rewrite Forall_forall in *. intros x Hx. apply In_nth_error in Hx. destruct Hx as (j & Ej).
      rewrite upd_nth_error in Ej. destruct (Nat.eqb_spec i j) as [Eij|]; [subst j|apply Ln; exact (nth_error_In _ _ Ej)].
      rewrite Ei in Ej. cbn in Ej. injection Ej as <-. cbn. apply Ln. exact (nth_error_In _ _ Ei).
    + intros v. rewrite (grows_upd _ i gr f v Ei), tab_occurs_app, O. unfold grows, f. unfold tab_occurs. cbn [map fold_right fst snd hg_vals hg_count hg_hash]. rewrite Ev.
      destruct (values_dec (fst row) v); lia.
  - assert (Hnew : ~ In (fst row) (map hg_vals (hg_groups t))).
    { intros C. apply in_map_iff in C. destruct C as (gr & Ev & Hg). apply In_nth_error in Hg. destruct Hg as (i & Ei).
      refine (hg_find_none _ _ _ (C2 slot) Ef i gr _ Ei Ev).
      assert (Hi := proj1 (nth_error_Some (hg_groups t) i) ltac:(congruence)).
      assert (Hc := C1 i gr ltac:(apply in_seq; lia) Ei). rewrite Forall_forall in H. rewrite (H gr (nth_error_In _ _ Ei)), Ev in Hc. exact Hc. }
    set (gnew := mkGrp hash (snd row) (fst row)).
    assert (N' : NoDup (map hg_vals (hg_groups t ++ [gnew]))).
    { rewrite map_app. cbn [map gnew hg_vals]. eapply Permutation_NoDup; [apply Permutation_cons_append|]. constructor; assumption. }
    assert (H' : Forall (fun gr => hg_hash gr = hg_hashf (hg_vals gr)) (hg_groups t ++ [gnew])).
    { apply Forall_app. split; [exact H|]. repeat constructor. }
    assert (P' : Forall (fun gr => 0 < hg_count gr) (hg_groups t ++ [gnew])).
    { apply Forall_app. split; [exact P|]. constructor; [exact Hpos|constructor]. }
    assert (L' : forall n, Forall (fun a => length (fst a) = n) (tab ++ [row]) -> Forall (fun gr => length (hg_vals gr) = n) (hg_groups t ++ [gnew])).
    { intros n Hl. apply Forall_app in Hl. destruct Hl as [Hl1 Hl2]. apply Forall_app. split; [auto|]. inversion Hl2; subst. constructor; [reflexivity|constructor]. }
    assert (O' : forall v, tab_occurs (grows (hg_groups t ++ [gnew])) v = tab_occurs (tab ++ [row]) v).
    { intros v. unfold grows. rewrite map_app, !tab_occurs_app. fold (grows (hg_groups t)). rewrite O. reflexivity. }
    destruct (hg_maxLoad size <=? Datatypes.S (hg_load t))%nat.
    + destruct (hg_rehash_chains (hg_groups t ++ [gnew]) (2 * size)) as [R1 R2]; [lia|].
      constructor; cbn [hg_groups hg_slots]; auto. rewrite R2. lia.
    + constructor; cbn [hg_groups hg_slots]; auto; [rewrite upd_length; exact S|].
      rewrite app_length. cbn [length]. split.
      * intros i gr Hi Ei. rewrite upd_length. fold size. apply in_seq in Hi.
        rewrite upd_nth by (apply hg_slot_lt, S).
        destruct (Nat.eq_dec i (length (hg_groups t))) as [->|Hne].
        -- rewrite nth_error_app2, Nat.sub_diag in Ei by lia. cbn in Ei. injection Ei as <-. cbn [gnew hg_hash]. fold slot.
           rewrite Nat.eqb_refl. left. reflexivity.
        -- rewrite nth_error_app1 in Ei by lia. assert (Hc := C1 i gr ltac:(apply in_seq; lia) Ei).
           destruct (Nat.eqb _ _); [right|]; exact Hc.
      * intros s i Hi. rewrite app_length. cbn [length]. destruct (Nat.lt_ge_cases s (length (hg_slots t))) as [Hlt|Hge].
        -- rewrite upd_nth in Hi by exact Hlt. destruct (Nat.eqb _ _); [destruct Hi as [<-|Hi]; [lia|]|]; apply C2 in Hi; lia.
        -- rewrite nth_overflow in Hi by (rewrite upd_length; exact Hge). destruct Hi.
Qed.

Lemma hg_build_inv tab : Forall (fun a => 0 < snd a) tab -> hg_inv (hg_build enum tab) tab.
Proof.
  unfold hg_build. intros Hp.
  assert (G : forall rest done t, Forall (fun a => 0 < snd a) rest -> hg_inv t done -> hg_inv (fold_left (hg_add enum) rest t) (done ++ rest)).
  { induction rest as [|r rest IH]; intros done t Hr Hi; [rewrite app_nil_r; exact Hi|]. inversion Hr; subst. cbn [fold_left].
    rewrite (app_assoc done [r] rest : done ++ r :: rest = _). apply IH; [assumption|]. apply hg_add_inv; assumption. }
  apply (G tab [] _ Hp). constructor; cbn [hg_groups hg_slots]; try (constructor; fail); try (intros; constructor); try (intros; reflexivity).
  - lia.
  - intros i gr [].
  - intros s i Hi. exfalso. revert s Hi. generalize 64%nat. intros n. induction n as [|n IH]; intros [|s]; cbn; auto; apply IH.
Qed.

Lemma hg_chain_perm t : Permutation (hg_chain enum t) (grows (hg_groups t)).
Proof.
  unfold hg_chain. set (gs := hg_groups t). set (f := fun i => match nth_error gs i with Some gr => [(hg_vals gr, hg_count gr)] | None => [] end).
  etransitivity; [apply (Permutation_flat_map f), Henum|].
  assert (G : forall l1 l2, gs = l1 ++ l2 -> flat_map f (seq (length l1) (length l2)) = grows l2).
  { intros l1 l2. revert l1. induction l2 as [|x l2 IH]; intros l1 E; [reflexivity|]. cbn [length seq flat_map grows map].
    assert (Ef : f (length l1) = [(hg_vals x, hg_count x)]).
    { unfold f. rewrite E, nth_error_app2, Nat.sub_diag by lia. reflexivity. }
    rewrite Ef. cbn [app]. f_equal. specialize (IH (l1 ++ [x])). rewrite app_length in IH. cbn [length] in IH.
    rewrite Nat.add_1_r in IH. apply IH. rewrite <- app_assoc. exact E. }
  specialize (G [] gs eq_refl). cbn [length] in G. rewrite G. reflexivity.
Qed.

Lemma hg_start I V W rs fuel L (pre : regs -> Prop) i rest :
  incl rs V -> incl V W -> NoDup rs -> (length L < fuel)%nat -> (exists g, pre g) ->
  let F := hg_first enum fuel rs in
  Rows I V W (o_first i) pre L ->
  let out := rows rs (hg_chain enum (hg_build enum (table rs L))) in
  Rows (so_ok I rs F) rs W (o_first (obj F (so_next rs) (mkSo i rest))) pre out /\
  NoDup (map fst (table rs out)) /\ forall t, occurs rs out t = occurs rs L t.
Proof.
  intros Hrs HV Hn Hf (g0 & Hg0) F HL out.
  assert (Hpos := Rows_pos _ _ _ _ _ _ g0 Hg0 HL).
  assert (Hwt := wide_table rs L Hpos).
  destruct (hg_build_inv (table rs L)) as [N H S C P Ln O].
  { eapply Forall_impl; [|exact Hwt]. intros a [_ Ha]. exact Ha. }
  set (t := hg_build enum (table rs L)) in *. assert (PC := hg_chain_perm t).
  assert (Hw : wide rs (hg_chain enum t)).
  { eapply wide_perm; [exact PC|]. unfold wide, grows. rewrite Forall_map.
    specialize (Ln (length rs) ltac:(eapply Forall_impl; [|exact Hwt]; intros a [Ha _]; exact Ha)).
    rewrite Forall_forall in *. intros x Hx. cbn. split; [apply Ln, Hx|apply P, Hx]. }
  split; [|split].
  - apply Rows_Got. intros g Hg. rewrite obj_first.
    destruct (collect_all_ok I V W rs Hrs pre L fuel i g [] Hf Hg HL) as (g1 & o1 & E & Ou & I1).
    assert (EF : F (mkSo i rest) g = so_next rs (mkSo o1 (hg_chain enum t)) g1).
    { unfold F, hg_first. cbn [so_input]. rewrite E. reflexivity. }
    rewrite EF. apply (Got_outside _ _ _ _ g1); [exact Ou|].
    apply (so_got I V W rs Hrs HV Hn F (hg_chain enum t) o1 g1 I1 Hw).
  - unfold out. rewrite table_rows by assumption.
    eapply Permutation_NoDup; [apply Permutation_map, Permutation_sym, PC|].
    unfold grows. rewrite map_map. exact N.
  - intros v. rewrite !occurs_table. unfold out. rewrite table_rows by assumption.
    rewrite (tab_occurs_perm _ _ v PC). apply O.
Qed.
End Hg.
