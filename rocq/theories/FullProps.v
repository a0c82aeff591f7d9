(** C81: index scans that skip two columns, and the lists of terms that they read. *)
From Coq Require Import Sorted Permutation ZifyBool.
From Verif Require Import QueryModel QuerySpec SortModel SortSpec InserterModel InserterSpec InserterProofs InserterProps TableProofs KbModel KbSpec KbProofs KbProofs2 KbProofs4 KbProofs5 KbProofs7 KbProofs8 KbProps.
From Verif Require Import AggModel FullModel TermModel TermSpec TermProofs TermProps FullProofs.
Local Open Scope Z_scope.

(** C81.  Over a list of terms [l] with positive counts, the scan ends and it delivers each term with its
    count. *)
Theorem C81_scan : forall l o n n0, Terms l o -> term_list l -> (length l < n)%nat -> fas_run n n0 (Some o) = Some l.
Proof. intros l o n n0 H [_ HP] Hn. now apply fas_run_ok. Qed.
Print Assumptions C81_scan.

(** ** A loaded database *)
Notation kf := (fun t : elem => fst (fst t)).
Lemma sorted_map {A} (f : A -> Z * Z) (l : list A) : StronglySorted Z.lt (map (fun x => fst (f x)) l) -> StronglySorted (fun a b => fst a < fst b) (map f l).
Proof.
  induction l as [|x l IH]; cbn; intros H; constructor; apply StronglySorted_inv in H; destruct H as [H1 H2]; auto.
  rewrite Forall_forall in *. intros y Hy. apply in_map_iff in Hy. destruct Hy as (z & <- & Hz). apply H2. apply in_map_iff. eauto.
Qed.
Lemma cnt_map N k : forall ks, NoDup ks -> cnt k (map (fun k => (k, N k)) ks) = if existsb (Z.eqb k) ks then N k else 0.
Proof.
  induction ks as [|x ks IH]; intros H; [reflexivity|]. inversion H as [|? ? Hx Hn]; subst. cbn [map cnt existsb]. rewrite (IH Hn). destruct (Z.eqb_spec x k) as [-> |Hne].
  - rewrite Z.eqb_refl. cbn [orb]. destruct (existsb (Z.eqb k) ks) eqn:E; [|lia]. exfalso. apply existsb_exists in E. destruct E as (y & Hy & Ey). apply Z.eqb_eq in Ey. subst y. auto.
  - destruct (Z.eqb_spec k x); [congruence|]. reflexivity.
Qed.
Lemma table_rows k W : zl (table_of k W) = Z.of_nat (length (filter (fun t : elem => kf t =? k) W)).
Proof. unfold zl, table_of. now rewrite map_length. Qed.
Lemma lt_nodup l : StronglySorted Z.lt l -> NoDup l.
Proof. induction 1 as [|x l Hs IH Hf]; constructor; auto. intros H. rewrite Forall_forall in Hf. specialize (Hf x H). lia. Qed.

Section Loaded.
Variables (U : list triple) (st : nat -> list (Z * Z) -> bool) (L : nat -> list entry) (d : db) (fuel : nat).
Hypothesis HD : DbOk U st L d.
Hypothesis Hfuel2 : (length U + length U < fuel)%nat.
Local Lemma Hfuel : (length U < fuel)%nat. Proof. lia. Qed.
Hypothesis Hne : U <> [].
Hypothesis HU : Forall (terms 39) U.
Hypothesis Hcov : forall k, covers d k.

Lemma perm_lt i : (i < 6)%nat -> (kt_perm i < 3)%nat.
Proof. intros H. unfold kt_perm. destruct (Nat.ltb_spec 2 i); lia. Qed.
Lemma perm_keys i : (i < 6)%nat -> keys (V U i) = keys (V U (kt_perm i)).
Proof. intros H. unfold kt_perm. destruct (Nat.ltb_spec 2 i); [apply keys_swap; lia|reflexivity]. Qed.
Lemma perm_count i k : (i < 6)%nat -> zl (table_of k (V U i)) = zl (table_of k (V U (kt_perm i))).
Proof.
  intros H. unfold kt_perm. destruct (Nat.ltb_spec 2 i); [|reflexivity]. pose proof (tab_perm U i k ltac:(lia)) as P. apply Permutation_length in P. rewrite map_length in P. exact (f_equal Z.of_nat (eq_sym P)).
Qed.

Lemma stored_terms i k : (i < 6)%nat -> kb_present d i = true ->
  exists o l, kb_getTermList fuel d i k = Some o /\ Terms l o /\ counts_of kf l (V U i).
Proof.
  intros Hi Hp. pose proof (perm_lt i Hi) as H3.
  assert (Hb : d_present d (kt_perm i) = true).
  { unfold kb_present in Hp. unfold kt_perm. destruct (Nat.ltb_spec 2 i) as [X|X].
    - destruct (Nat.leb_spec 3 i); [|lia]. apply Bool.orb_true_iff in Hp. destruct Hp as [Hp|Hp]; [apply (db_base _ _ _ _ HD); auto; lia|exact Hp].
    - destruct (Nat.leb_spec 3 i); [lia|]. now rewrite Bool.orb_false_r in Hp. }
  destruct (base_stored U st L d fuel HD Hfuel (kt_perm i) H3 Hb Hne) as (t & G & (Hf & HL & HO) & EK).
  unfold kb_getTermList. rewrite Hf. destruct (KbProofs.init_ok t G HL) as (i0 & E0 & HR). rewrite E0.
  set (N := fun k => zl (table_of k (V U i))).
  assert (HS : StronglySorted tlt (V U (kt_perm i))) by apply canon_sorted.
  eexists. exists (map (fun c => (KbProofs.c_key c, N (KbProofs.c_key c))) (all_coords t G)). split; [reflexivity|]. split.
  - apply (kt_terms d i t G N HL); [exact HR|]. intros c Hc.
    assert (Hk : In (KbProofs.c_key c) (keys (V U (kt_perm i)))) by (rewrite <- EK; now apply in_map).
    set (j := KbProofs.c_key c) in *. apply keys_In in Hk.
    assert (H0 : 0 <= j).
    { destruct (table_of j (V U (kt_perm i))) as [|[a b] r] eqn:E; [congruence|]. assert (X : In (j, a, b) (V U (kt_perm i))) by (apply table_In; rewrite E; now left).
      apply V_In in X. destruct X as (x & Hx & Ev). rewrite Forall_forall in HU. specialize (HU x Hx). destruct x as [[s p] o]. cbn in HU.
      destruct (kt_perm i) as [|[|[|n]]]; try lia; cbn in Ev; injection Ev; intros; lia. }
    assert (HNj : N j = zl (table_of j (V U (kt_perm i)))) by (apply perm_count; exact Hi).
    destruct (db_tree _ _ _ _ HD j H0 (Hcov j)) as [[_ HN]|(v & Ev & Hv)].
    + exfalso. specialize (HN (kt_perm i) ltac:(lia)). pose proof (no_entry U st L d fuel HD Hfuel (kt_perm i) j H3 Hb HN) as X. unfold tab in X. congruence.
    + specialize (Hv (kt_perm i) ltac:(lia)). destruct (entry_for j (L (kt_perm i))) as [co|] eqn:Ee.
      2:{ exfalso. pose proof (no_entry U st L d fuel HD Hfuel (kt_perm i) j H3 Hb Ee) as X. unfold tab in X. congruence. }
      exists v, co. split; [exact Ev|]. split; [exact Hv|]. unfold KbProofs3.entry_for in Ee. destruct (find _ (L (kt_perm i))) as [e|] eqn:F; [|discriminate]. injection Ee as <-. apply (find_key U fuel) in F; [|exact Hfuel]. destruct F as [He Ej].
      cbn [co_n KbProofs3.as_coord]. rewrite (lo_n _ _ _ _ _ (db_loaded _ _ _ _ HD (kt_perm i) ltac:(lia) Hb) e He), Ej, <- HNj. split; [reflexivity|].
      rewrite HNj. unfold zl. destruct (table_of j (V U (kt_perm i))); [congruence|cbn [length]; lia].
  - pose proof (keys_sorted _ HS) as HKs. rewrite <- EK in HKs. split; [split|].
    + apply sorted_map. exact HKs.
    + rewrite Forall_forall. intros x Hx. apply in_map_iff in Hx. destruct Hx as (c & <- & Hc). cbn [snd]. unfold N. rewrite (perm_count i _ Hi).
      assert (X : In (KbProofs.c_key c) (keys (V U (kt_perm i)))) by (rewrite <- EK; now apply in_map). apply keys_In in X. unfold zl. destruct (table_of _ _); [congruence|cbn [length]; lia].
    + intros j. rewrite <- (map_map KbProofs.c_key (fun k => (k, N k))), EK. rewrite (cnt_map N j).
      * rewrite <- table_rows. unfold N. destruct (existsb (Z.eqb j) (keys (V U (kt_perm i)))) eqn:E; [reflexivity|].
        rewrite (perm_count i _ Hi). destruct (table_of j (V U (kt_perm i))) as [|y r] eqn:Et; [reflexivity|]. exfalso.
        assert (X : In j (keys (V U (kt_perm i)))) by (apply keys_In; rewrite Et; discriminate).
        apply Bool.not_true_iff_false in E. apply E. apply existsb_exists. exists j. split; [exact X|apply Z.eqb_refl].
      * apply lt_nodup. rewrite <- EK. exact HKs.
Qed.

Lemma reordered_terms i k : (i = 1 \/ i = 4)%nat -> d_present d 0 = true -> d_present d (kt_perm i) = false ->
  exists o l, kb_getTermList fuel d i k = Some o /\ Terms (map (fun j => (j, 1)) l) o /\ StronglySorted Z.lt l /\
    forall j, In j l <-> exists t, In t U /\ snd t = j.
Proof.
  intros Hi H0 Hb. assert (H3 : (kt_perm i < 6)%nat) by (destruct Hi; subst i; cbn; lia).
  destruct (db_absent _ _ _ _ HD _ H3 Hb) as [_ Ef]. unfold kb_getTermList. rewrite Ef.
  assert (E0 : Nat.eqb (kt_perm i) 0 = false) by (destruct Hi; subst i; reflexivity). rewrite E0.
  assert (Hv : vok (-1)) by (unfold vok; lia).
  destruct (query_yields U st L d fuel HD Hfuel2 Hne 0 (-1) (-1) (-1)) as (it & l & Eq & Hy & (Hs & Ha)); auto; try lia.
  { unfold leading. cbn. lia. }
  rewrite Eq. destruct (ro_sort_ok (map (fun x : elem => snd x) l)) as [S1 S2].
  assert (Hl : (length l < fuel)%nat).
  { eapply Nat.le_lt_trans; [|exact Hfuel]. rewrite <- (map_length (view 0) U). apply NoDup_incl_length.
    - clear - Hs. induction Hs as [|x l Hs IH Hf]; constructor; auto. intros X. rewrite Forall_forall in Hf. apply (tlt_irrefl x). auto.
    - intros x Hx. apply Ha in Hx. destruct Hx as (t & Ht & _ & <-). now apply in_map. }
  eexists. exists (ro_sort (map (fun x : elem => snd x) l)). split; [reflexivity|]. split; [|split; [exact S1|]].
  - apply ro_terms. unfold ro_fill. rewrite (ro_read_yields l fuel it Hy Hl). destruct Hi; subst i; reflexivity.
  - intros j. rewrite S2, in_map_iff. split.
    + intros (x & <- & Hx). apply Ha in Hx. destruct Hx as (t & Ht & _ & <-). exists t. split; auto. now destruct t as [[a b] c].
    + intros (t & Ht & <-). exists t. split; auto. apply Ha. exists t. split; auto. split; [|now destruct t as [[a b] c]]. intros n _. left. destruct n as [|[|[|n]]]; cbn; lia.
Qed.
End Loaded.

Lemma counts_length l T : counts_of kf l T -> (length l <= length T)%nat.
Proof.
  intros [[Hs Hp] Hc]. rewrite <- (map_length fst l), <- (map_length kf T). apply NoDup_incl_length.
  - apply lt_nodup. clear - Hs. induction Hs as [|x l Hs IH Hf]; cbn; constructor; auto. rewrite Forall_forall in *. intros y Hy. apply in_map_iff in Hy. destruct Hy as (z & <- & Hz). now apply Hf.
  - intros k Hk. assert (X : 0 < cnt k l).
    { clear - Hp Hk. induction Hp as [|[k' c] l Hx Hp IH]; [destruct Hk|]. cbn [snd] in Hx. assert (P : 0 <= cnt k l) by (clear - Hp; induction Hp as [|[k' c] l Hx Hp IH]; cbn; [lia|]; cbn in Hx; destruct (k' =? k); lia).
      cbn [cnt]. destruct Hk as [Hk|Hk]; [cbn in Hk; subst; rewrite Z.eqb_refl; lia|]. specialize (IH Hk). destruct (k' =? k); lia. }
    rewrite Hc in X. destruct (filter (fun t : elem => kf t =? k) T) as [|x r] eqn:E; [cbn in X; lia|]. assert (Hx : In x (filter (fun t : elem => kf t =? k) T)) by (rewrite E; now left).
    apply filter_In in Hx. destruct Hx as [Hx Ek]. apply in_map_iff. exists x. split; [apply Z.eqb_eq; exact Ek|exact Hx].
Qed.

(** What the theorems on loaded databases suppose (as C70): the database [d] was loaded from the triples [U]. *)
Definition loaded_from (U : list triple) (fuel : nat) (d : db) : Prop :=
  exists inputs pad m, U <> [] /\ Forall (terms 39) U /\ zl U < 2 ^ 31 /\ prepared U inputs /\ pad_ok pad /\
    (1 <= m)%nat /\ (length U + length U + length U < fuel)%nat /\
    kb_load fuel (m + m) inputs pad = Some d /\
    (forall i t f, d_files d i = Some t -> zl (t_file t f) < 2 ^ 40).
Lemma loaded_db U fuel d : loaded_from U fuel d -> exists st L, DbOk U st L d /\ (length U + length U < fuel)%nat /\ U <> [] /\ Forall (terms 39) U /\ (forall k, covers d k) /\ d_present d 0 = true.
Proof.
  intros (inputs & pad & m & Hne & HU & Hsz & HP & Hpad & Hm & Hf & E & Hfl).
  unfold kb_load in E. destruct (load_perms (seq 0 6) inputs) as [ls|] eqn:Els; [|discriminate].
  assert (Hfl' : forall i t f, (i < 6)%nat -> snd (nth i ls ([], None)) = Some t -> zl (t_file t f) < 2 ^ 40).
  { intros i t f' _ Et. apply (Hfl i). clear - E Et. destruct (mg_all _ _) as [M|]; [|discriminate]. destruct (build_tc _ _); [|discriminate]. injection E as <-. exact Et. }
  destruct (load_ok U inputs pad ls HU HP Hsz Hpad Els Hfl' m fuel Hm Hf) as (d' & E' & HD & Hpr' & _ & tr & wl & Er & _).
  unfold kb_load in E'. rewrite Els in E'. rewrite E in E'. injection E' as <-.
  do 2 eexists. split; [exact HD|]. split; [lia|]. split; [exact Hne|]. split; [exact HU|]. split.
  - intros k. unfold covers. now rewrite Er.
  - rewrite (Hpr' 0%nat ltac:(lia)). destruct HP as (H0 & _). destruct (inputs 0%nat); congruence.
Qed.
Lemma V_answers U i : answers U i (-1, -1, -1) (V U i).
Proof.
  split; [apply canon_sorted|]. intros x. rewrite V_In. split.
  - intros (t & Ht & <-). exists t. split; auto. split; auto. intros j _. left. destruct j as [|[|[|j]]]; cbn; lia.
  - intros (t & Ht & _ & <-). eauto.
Qed.

(** C81.  The list of terms of a permutation that is stored, or read from the one with the last two columns
    exchanged, has each term of the first column once, in ascending order, with the number of triples that
    have it there; the number can be asked for any number of times. *)
Theorem C81_term_list : forall U fuel d, loaded_from U fuel d -> forall idx k, (idx < 6)%nat -> kb_present d idx = true ->
  exists o L l, answers U idx (-1, -1, -1) L /\ kb_getTermList fuel d idx k = Some o /\ Terms l o /\ counts_of (fun t => fst (fst t)) l L.
Proof.
  intros U fuel d HL idx k Hi Hp. destruct (loaded_db U fuel d HL) as (st & E & HD & Hf & Hne & HU & Hcov & _).
  destruct (stored_terms U st E d fuel HD Hf Hne HU Hcov idx k Hi Hp) as (o & l & Eo & HT & HC). exists o, (V U idx), l. split; [apply V_answers|auto].
Qed.
Print Assumptions C81_term_list.

(** C81.  A scan that skips two columns delivers these terms and numbers. *)
Theorem C81_loaded : forall U fuel d, loaded_from U fuel d -> forall idx n0 k, (idx < 6)%nat -> kb_present d idx = true ->
  exists L l, answers U idx (-1, -1, -1) L /\ fas_run fuel n0 (kb_getTermList fuel d idx k) = Some l /\ counts_of (fun t => fst (fst t)) l L.
Proof.
  intros U fuel d HL idx n0 k Hi Hp. destruct (C81_term_list U fuel d HL idx k Hi Hp) as (o & L & l & HA & Eo & HT & HC). exists L, l. split; [exact HA|]. split; [|exact HC].
  rewrite Eo. apply C81_scan; [exact HT|apply HC|]. destruct (loaded_db U fuel d HL) as (_ & _ & _ & Hf & _). eapply Nat.le_lt_trans; [apply (counts_length _ _ HC)|].
  eapply Nat.le_lt_trans; [|exact Hf]. etransitivity; [|apply Nat.le_add_r]. destruct HA as [Hs Ha]. rewrite <- (map_length (view (Z.of_nat idx)) U). apply NoDup_incl_length.
  - clear - Hs. induction Hs as [|x l Hs IH Hf]; constructor; auto. intros X. rewrite Forall_forall in Hf. apply (tlt_irrefl x). auto.
  - intros x Hx. apply Ha in Hx. destruct Hx as (t & Ht & _ & <-). now apply in_map.
Qed.
Print Assumptions C81_loaded.

(** C81.  With updates (as in C71): the list of terms over the loaded triples and a history of additions and
    deletions has the terms of the triples that are left, with their numbers, and so has the scan.  The lists
    of the updates are those of C71: in particular the one that a deletion gives away is a list for the same column,
    which the code has only for the subject (C71_deletions_refuted). *)
Theorem C81_updates_partial : forall U fuel d, loaded_from U fuel d -> forall idx n0 k sortf fuel2 us h, (idx < 6)%nat -> kb_present d idx = true ->
  std_sort ct_gt sortf -> valid_history (fun x => exists t, In t U /\ view (Z.of_nat idx) t = x) h ->
  Forall2 (fun u x => tu_del u = fst x /\ 0 < tu_new u /\ snd x <> [] /\ NoDup (snd x) /\
    exists l, counts_of (fun t => fst (fst t)) l (snd x) /\ Terms l (if tu_del u then tu_spo u else tu_itr u)) us h ->
  (length U + fold_right (fun x n => length (snd x) + n) 0 h < fuel2)%nat ->
  exists T l, NoDup T /\ (forall x, In x T <-> replay (fun x => exists t, In t U /\ view (Z.of_nat idx) t = x) h x) /\
    ((length T < fuel)%nat -> fas_run fuel n0 (do base <- kb_getTermList fuel d idx k; getTermList sortf fuel2 k base us) = Some l) /\
    counts_of (fun t => fst (fst t)) l T.
Proof.
  intros U fuel d HL idx n0 k sortf fuel2 us h Hi Hp Hso Hv HF Hf2. destruct (loaded_db U fuel d HL) as (st & E & HD & Hf & Hne & HU & Hcov & _).
  destruct (stored_terms U st E d fuel HD Hf Hne HU Hcov idx k Hi Hp) as (o & l & Eo & HT & HC).
  assert (Hb : forall x, In x (V U idx) <-> exists t, In t U /\ view (Z.of_nat idx) t = x) by (intros x; apply V_In).
  assert (Hrep : forall h S S', (forall x, S x <-> S' x) -> forall x : elem, replay S h x <-> replay S' h x).
  { clear. intros h. unfold replay. induction h as [|y h IH]; intros S S' HS x; [apply HS|]. cbn [fold_left]. apply IH. intros z. unfold step_set. destruct (fst y); rewrite HS; reflexivity. }
  assert (Hval : forall h S S', (forall x, S x <-> S' x) -> valid_history S h -> valid_history S' h).
  { clear. induction h as [|y h IH]; intros S S' HS; cbn [valid_history]; auto. intros [H1 H2]. split; [intros x Hx; specialize (H1 x Hx); destruct (fst y); rewrite <- HS; exact H1|]. eapply IH; [|exact H2]. intros z. unfold step_set. destruct (fst y); rewrite HS; reflexivity. }
  destruct (C71_term_list_partial sortf fuel2 k kf o (V U idx) l us h Hso (V_nodup U idx) HT HC) as (o2 & R & T & E2 & HT2 & HN & HI & HC2).
  - eapply Hval; [|exact Hv]. intros x. symmetry. apply Hb.
  - exact HF.
  - eapply Nat.le_lt_trans; [|exact Hf2]. apply Nat.add_le_mono_r. apply V_length.
  - exists T, R. split; [exact HN|]. split; [intros x; rewrite HI; apply Hrep; apply Hb|]. split; [|exact HC2].
    intros Hlen. rewrite Eo, E2. apply C81_scan; [exact HT2|apply HC2|]. eapply Nat.le_lt_trans; [apply (counts_length _ _ HC2)|exact Hlen].
Qed.
Print Assumptions C81_updates_partial.

(** ** A permutation that is not stored *)
(** C81.  If the objects come first in no stored permutation, the list is made from SPO: each object once, in
    ascending order, but always with the number 1. *)
Theorem C81_reordered : forall U fuel d, loaded_from U fuel d -> forall idx n0 k, (idx = 1 \/ idx = 4)%nat -> d_present d 1 = false ->
  exists l, fas_run fuel n0 (kb_getTermList fuel d idx k) = Some (map (fun j => (j, 1)) l) /\ StronglySorted Z.lt l /\
    forall j, In j l <-> exists t, In t U /\ snd t = j.
Proof.
  intros U fuel d HL idx n0 k Hi Hp. destruct (loaded_db U fuel d HL) as (st & E & HD & Hf & Hne & HU & Hcov & H0).
  destruct (reordered_terms U st E d fuel HD Hf Hne Hcov idx k Hi H0) as (o & l & Eo & HT & Hs & Hin); [destruct Hi; subst idx; exact Hp|].
  exists l. split; [|auto]. rewrite Eo. apply fas_run_ok; [exact HT|rewrite Forall_forall; intros x Hx; apply in_map_iff in Hx; destruct Hx as (j & <- & _); cbn; lia|].
  rewrite map_length. eapply Nat.le_lt_trans; [|exact Hf]. etransitivity; [|apply Nat.le_add_r]. rewrite <- (map_length (fun t : triple => snd t) U). apply NoDup_incl_length; [now apply lt_nodup|].
  intros j Hj. apply Hin in Hj. destruct Hj as (t & Ht & <-). now apply (in_map (fun t : triple => snd t)).
Qed.
Print Assumptions C81_reordered.

(** Cases: the subjects, and the objects and predicates from permutations with the other columns exchanged. *)
Example C81_case :
  (do d <- ex_db [0; 1; 2; 5]%nat; fas_run 20 0 (kb_getTermList 20 d 0 0)) = Some [(1, 3); (5, 1)] /\
  (do d <- ex_db [0; 1; 2; 5]%nat; fas_run 20 0 (kb_getTermList 20 d 4 0)) = Some [(3, 3); (4, 1)] /\
  (do d <- ex_db [0; 1; 2; 5]%nat; fas_run 20 0 (kb_getTermList 20 d 5 0)) = Some [(7, 3); (9, 1)].
Proof. vm_compute. repeat split. Qed.
(** The hypotheses hold for a database of four triples that stores SPO, POS and PSO. *)
Lemma ex_sizes : exists d, kb_load 20 (1 + 1) (ex_inputs [0; 2; 5]%nat) ex_pad = Some d /\ forall i t f, d_files d i = Some t -> zl (t_file t f) < 2 ^ 40.
Proof.
  destruct (kb_load 20 (1 + 1) (ex_inputs [0; 2; 5]%nat) ex_pad) as [d|] eqn:E; [|vm_compute in E; discriminate]. exists d. split; auto.
  intros i t f Et. vm_compute in E. injection E as <-. destruct i as [|[|[|[|[|[|[|i]]]]]]]; vm_compute in Et; try discriminate; injection Et as <-; destruct f as [|[|[|f]]]; vm_compute; reflexivity.
Qed.
Example C81_hyps : exists d, kb_load 20 (1 + 1) (ex_inputs [0; 2; 5]%nat) ex_pad = Some d /\ loaded_from ex_U 20 d.
Proof.
  destruct C70_hyps as (H1 & H2 & H3 & H4 & _). destruct ex_sizes as (d & E & H5). exists d. split; [exact E|].
  exists (ex_inputs [0; 2; 5]%nat), ex_pad, 1%nat. split; [exact H1|]. split; [exact H2|]. split; [reflexivity|]. split; [exact H3|]. split; [exact H4|]. split; [apply le_n|]. split; [cbn; lia|]. split; [exact E|exact H5].
Qed.
Example C81_hyps_perms : exists d, ex_db [0; 2; 5]%nat = Some d /\ kb_present d 0 = true /\ kb_present d 5 = true /\ d_present d 1 = false.
Proof. destruct (ex_db [0; 2; 5]%nat) as [d|] eqn:E; [|vm_compute in E; discriminate]. exists d. split; auto. vm_compute in E. injection E as <-. repeat split. Qed.
(** A case with updates: one addition to the objects. *)
Example C81_updates_case :
  (do d <- ex_db [0; 1; 2; 5]%nat; fas_run 20 0 (do base <- kb_getTermList 20 d 4 0; getTermList sr 20 0 base [mkTupd false 1 (dt_tree [(4, 2); (8, 1)] 0 0) (dt_tree [(1, 3)] 0 0)]))
  = Some [(3, 3); (4, 3); (8, 1)].
Proof. vm_compute. reflexivity. Qed.
Example C81_updates_hyps : valid_history (fun x => exists t, In t ex_U /\ view 4 t = x) [(false, [(4, 9, 9); (4, 9, 8); (8, 1, 1)])] /\
  counts_of (fun t => fst (fst t)) [(4, 2); (8, 1)] [(4, 9, 9); (4, 9, 8); (8, 1, 1)].
Proof.
  split; [split; [|exact I]|split; [split|]].
  - intros x Hx (t & Ht & Ev). cbn in Hx, Ht. decompose [or] Ht; try contradiction; subst t; cbn in Ev; subst x; decompose [or] Hx; try contradiction; discriminate.
  - repeat constructor.
  - repeat constructor.
  - intros k. cbn [cnt filter fst snd]. destruct (Z.eqb_spec 4 k), (Z.eqb_spec 8 k); cbn [length]; lia.
Qed.

(** C81.  The counts are wrong when the objects come first in no stored permutation: three triples have the
    object 3, the scan says one.  A query for the objects of all triples then has two rows instead of four. *)
Theorem C81_counts_refuted : exists d l, ex_db [0; 2; 5]%nat = Some d /\ fas_run 20 0 (kb_getTermList 20 d 4 0) = Some l /\
  length (filter (fun t => snd t =? 3) ex_U) = 3%nat /\ cnt 3 l = 1.
Proof.
  destruct (ex_db [0; 2; 5]%nat) as [d|] eqn:E; [|vm_compute in E; discriminate]. exists d, [(3, 1); (4, 1)]. split; [reflexivity|]. vm_compute in E. injection E as <-. vm_compute. repeat split.
Qed.
Print Assumptions C81_counts_refuted.
(** So they are for the predicates of a database that stores only SPO. *)
Example C81_predicates_case : (do d <- ex_db [0]%nat; fas_run 20 0 (kb_getTermList 20 d 5 0)) = Some [(7, 1); (9, 1)].
Proof. vm_compute. reflexivity. Qed.
