(** C70: a loaded database answers patterns. *)
From Coq Require Import ZArith List Sorting.Sorted Permutation ZifyBool.
From Verif Require Import QueryModel QuerySpec InserterModel InserterSpec InserterProps SortModel SortSpec SortProofs3 SortProps ItrModel ItrSpec KbModel KbSpec KbProofs8.
Import ListNotations.
Local Open Scope Z_scope.

(** C70.  A database is loaded from the triples [U]: the input of each permutation that is loaded
    is [U] in the order of the permutation (which is what the sorting gives, C27).  Then for every
    permutation and pattern the iterator gives each matching triple of [U] once, in the order of
    the permutation, whether the permutation is stored, read from the one with the last two
    columns exchanged, or computed from SPO; whatever the strategies of the tables, the
    thresholds, the number of files and the size of the tree's nodes.  If the permutation is one of
    the first two kinds, the bound terms have to be leading ones. *)
Theorem C70_queries : forall U inputs pad m fuel d,
  U <> [] -> Forall (terms 39) U -> zl U < 2 ^ 31 -> prepared U inputs -> pad_ok pad ->
  (1 <= m)%nat -> (length U + length U + length U < fuel)%nat ->
  kb_load fuel (m + m) inputs pad = Some d ->
  (forall i t f, d_files d i = Some t -> zl (t_file t f) < 2 ^ 40) ->
  forall idx s p o, (idx < 6)%nat -> -1 <= s < 2 ^ 63 -> -1 <= p < 2 ^ 63 -> -1 <= o < 2 ^ 63 ->
    (kb_present d idx = true -> leading idx (s, p, o)) ->
    exists it l, kb_query fuel d idx s p o = Some it /\ Yields false l it /\ answers U idx (s, p, o) l.
Proof.
  intros U inputs pad m fuel d Hne HU Hsz HP Hpad Hm Hf E Hfl idx s p o Hi Hs Hp Ho Hl.
  unfold kb_load in E. destruct (load_perms (seq 0 6) inputs) as [ls|] eqn:Els; [|discriminate].
  assert (Hfl' : forall i t f, (i < 6)%nat -> snd (nth i ls ([], None)) = Some t -> zl (t_file t f) < 2 ^ 40).
  { intros i t f _ Et. apply (Hfl i). clear - E Et. destruct (mg_all _ _) as [M|]; [|discriminate]. destruct (build_tc _ _); [|discriminate]. injection E as <-. exact Et. }
  destruct (load_ok U inputs pad ls HU HP Hsz Hpad Els Hfl' m fuel Hm Hf) as (d' & E' & HD & Hpr & _ & tr & wl & Er & _).
  unfold kb_load in E'. rewrite Els in E'. rewrite E in E'. injection E' as <-.
  apply (query_yields U _ _ d fuel HD); auto.
  - eapply Nat.le_lt_trans; [|exact Hf]. apply Nat.le_add_r.
  - rewrite Hpr by lia. destruct HP as (H0 & _). destruct (inputs 0%nat); congruence.
  - unfold covers. now rewrite Er.
  - unfold covers. now rewrite Er.
  - unfold covers. now rewrite Er.
Qed.
Print Assumptions C70_queries.

(** The loading succeeds if no permutation has more than 4095 first terms (a storage has at most
    4096 files). *)
Theorem C70_loads : forall U inputs pad m fuel,
  Forall (terms 39) U -> prepared U inputs -> pad_ok pad -> (1 <= m)%nat -> (length U + length U + length U < fuel)%nat ->
  zl U < 2 ^ 31 -> (forall i g q, (i < 6)%nat -> inputs i = Some (g, q) -> zl (keys (distinct (map fst q))) < 4096) ->
  exists ls, load_perms (seq 0 6) inputs = Some ls /\
    ((forall i t f, snd (nth i ls ([], None)) = Some t -> zl (t_file t f) < 2 ^ 40) ->
     exists d, kb_load fuel (m + m) inputs pad = Some d).
Proof.
  intros U inputs pad m fuel HU HP Hpad Hm Hf Hsz Hk.
  assert (HL : forall is_, (forall i, In i is_ -> (i < 6)%nat) -> exists ls, load_perms is_ inputs = Some ls).
  { induction is_ as [|i is_ IH]; intros Hi; [eexists; reflexivity|]. cbn [load_perms].
    destruct IH as (r & Er); [intros j Hj; apply Hi; now right|].
    assert (Ep : exists x, load_perm (inputs i) = Some x).
    { destruct (inputs i) as [[g q]|] eqn:Ei; [|eexists; reflexivity]. cbn [load_perm]. assert (H6 : (i < 6)%nat) by (apply Hi; now left).
      destruct HP as (_ & _ & HQ). destruct (HQ i g q H6 Ei) as (_ & Ho & Hopt & _).
      destruct (C27_loads (Z.of_nat i) U q (is_perm_of i H6) Ho HU) as [Hin _].
      destruct (C47_succeeds g q Hin Hopt (Hk i g q H6 Ei)) as (s & t' & -> & ->). eexists. reflexivity. }
    destruct Ep as (x & ->). rewrite Er. eexists. reflexivity. }
  destruct (HL (seq 0 6)) as (ls & Els); [intros i Hi; apply in_seq in Hi; lia|]. exists ls. split; auto.
  intros Hfl. destruct (load_ok U inputs pad ls HU HP Hsz Hpad Els (fun i t f _ => Hfl i t f) m fuel Hm Hf) as (d & Ed & _). eauto.
Qed.
Print Assumptions C70_loads.

(** The inputs are those that the sorting of the files of the loader gives (C27). *)
Theorem C70_files : forall ionthreads nthreads maxn est p0 perms junk files T,
  threads_ok ionthreads nthreads files -> array_ok nthreads maxn est files junk -> is_perm p0 -> chain p0 perms ->
  concat files = map (fun t => counted (view p0 t)) T -> Forall (terms 40) T ->
  Forall (fun t => tle (view p0 t) (filler, filler, filler)) T ->
  exists rs, sort_chunks false ionthreads nthreads maxn est p0 perms junk files = Some rs /\
    forall inputs, inputs 0%nat <> None -> (forall i, (3 <= i < 6)%nat -> inputs i <> None -> inputs (i - 3)%nat <> None) ->
    (forall i g q, (i < 6)%nat -> inputs i = Some (g, q) ->
       g_perm g = Z.of_nat i /\ options_ok g (distinct (map fst q)) /\ (forall f, g_fixed g = Some f -> isAggregated f = false) /\
       exists j, nth_error (p0 :: perms) j = Some (Z.of_nat i) /\ sorted_input j rs = Some q) ->
    prepared T inputs.
Proof.
  intros io nt maxn est p0 perms junk files T Hth HJ Hp Hch E HT HB.
  destruct (C27_input io nt maxn est p0 perms junk files T Hth HJ Hp Hch E HT HB) as (rs & E1 & H1). exists rs. split; auto.
  intros inputs H0 Hb HQ. split; auto. split; auto. intros i g q Hi Ei. destruct (HQ i g q Hi Ei) as (Hg & Hopt & Ha & j & Hj & Eq).
  destruct (H1 j _ Hj) as (q' & Eq' & Ho). rewrite Eq in Eq'. injection Eq' as <-. auto.
Qed.
Print Assumptions C70_files.

(** A case: four triples; SPO and POS, and PSO without its small tables, are stored. *)
Definition ex_U : list triple := [(1, 7, 3); (1, 7, 4); (5, 7, 3); (1, 9, 3)].
Definition ex_g (p : Z) : cfg := mkCfg p true false false None 0 false 3 1 40 2.
Definition ex_inputs (which : list nat) (i : nat) : option (cfg * list quad) :=
  if existsb (Nat.eqb i) which then Some (ex_g (Z.of_nat i), map (fun t => (t, 0)) (KbProofs5.canon (map (view (Z.of_nat i)) ex_U))) else None.
Definition ex_pad : list Z := repeat 0 16.
Definition ex_db (which : list nat) : option db := kb_load 20 2 (ex_inputs which) ex_pad.
Definition ex_answer (which : list nat) (idx : nat) (s p o : Z) : option (list elem) :=
  do d <- ex_db which; do it <- kb_query 20 d idx s p o; drain 20 it.

Example C70_case : ex_answer [0; 2; 5]%nat 0 1 7 (-1) = Some [(1, 7, 3); (1, 7, 4)] /\
  ex_answer [0; 2; 5]%nat 5 (-1) 7 (-1) = Some [(7, 1, 3); (7, 1, 4); (7, 5, 3)] /\
  ex_answer [0; 2; 5]%nat 5 (-1) (-1) (-1) = Some [(7, 1, 3); (7, 1, 4); (7, 5, 3); (9, 1, 3)] /\
  ex_answer [0; 2; 5]%nat 3 1 (-1) 3 = Some [(1, 3, 7); (1, 3, 9)] /\
  ex_answer [0; 2; 5]%nat 1 (-1) 7 3 = Some [(3, 7, 1); (3, 7, 5)] /\
  ex_answer [0; 2; 5]%nat 4 (-1) (-1) (-1) = Some [(3, 1, 7); (3, 1, 9); (3, 5, 7); (4, 1, 7)].
Proof. vm_compute. repeat split. Qed.

(** The hypotheses of the theorem hold for it. *)
Lemma ex_sorted (l : list triple) : StronglySorted tlt l -> SortSpec.sorted (map (fun t => (t, 0)) l).
Proof.
  unfold SortSpec.sorted. induction 1 as [|x l Hs IH Hf]; cbn; constructor; auto. rewrite map_map. cbn. rewrite map_id.
  eapply Forall_impl; [|exact Hf]. intros y. destruct x as [[a b] c], y as [[a' b'] c']. cbn. lia.
Qed.
Example C70_hyps : ex_U <> [] /\ Forall (terms 39) ex_U /\ prepared ex_U (ex_inputs [0; 2; 5]%nat) /\ pad_ok ex_pad /\
  exists d, ex_db [0; 2; 5]%nat = Some d /\ forall i t f, d_files d i = Some t -> zl (t_file t f) < 2 ^ 40.
Proof.
  split; [discriminate|]. split; [repeat constructor; cbn; lia|]. split; [split; [cbn; discriminate|split]|].
  - intros i Hi Hn. assert (i = 3 \/ i = 4 \/ i = 5)%nat as [-> |[-> | ->]] by lia; cbn in *; congruence.
  - intros i g q Hi E. unfold ex_inputs in E. destruct (existsb (Nat.eqb i) [0; 2; 5]%nat); [|discriminate].
    pose proof (f_equal (fun x => match x with Some y => fst y | None => g end) E) as Eg. pose proof (f_equal (fun x => match x with Some y => snd y | None => q end) E) as Eq. cbn [fst snd] in Eg, Eq. subst g q. clear E.
    split; [reflexivity|]. split; [split|].
    + apply ex_sorted, KbProofs5.canon_sorted.
    + unfold counted. rewrite <- (map_map (view (Z.of_nat i)) (fun t => (t, 0))). apply Permutation_map. apply NoDup_Permutation.
      * apply V_nodup.
      * apply FinFun.Injective_map_NoDup; [intros x y Exy; now apply (view_inj i)|]. repeat constructor; cbn; intuition discriminate.
      * intros x. apply KbProofs5.canon_In.
    + split; [|discriminate]. unfold options_ok. cbn [g_agg g_skip g_maxsize g_fixed ex_g]. split; auto. split; [unfold THRESHOLD_KEEP_MEMORY; lia|]. split; [lia|]. discriminate.
  - split; [split; [cbn; lia|repeat constructor; cbn; lia]|].
    destruct (ex_db [0; 2; 5]%nat) as [d|] eqn:E; [|vm_compute in E; discriminate]. exists d. split; auto.
    intros i t f Et. vm_compute in E. injection E as <-. destruct i as [|[|[|[|[|[|[|i]]]]]]]; vm_compute in Et; try discriminate; injection Et as <-; destruct f as [|[|[|f]]]; vm_compute; reflexivity.
Qed.

(** A pattern whose bound terms are not the leading ones of a stored permutation is not answered
    correctly: the constraint on the last column is ignored (querier.cpp 1016-1085 passes it to
    initNewIterator, which ignores it if the second column is free). *)
Theorem C70_leading_refuted : exists U which idx s p o l, ex_U = U /\ ex_answer which idx s p o = Some l /\ ~ answers U idx (s, p, o) l.
Proof.
  exists ex_U, [0; 2; 5]%nat, 0%nat, 1, (-1), 4, [(1, 7, 3); (1, 7, 4); (1, 9, 3)]. split; auto. split; [vm_compute; reflexivity|].
  intros [_ H]. destruct (proj1 (H (1, 7, 3)) (or_introl eq_refl)) as (t & _ & Hm & E). destruct t as [[a b] c]. cbn in E. injection E as -> -> ->.
  specialize (Hm 2%nat ltac:(lia)). unfold matches1 in Hm. cbn in Hm. lia.
Qed.
Print Assumptions C70_leading_refuted.

(** A scan of a database without triples: there is no list of terms, so that ScanItr asks for
    the one of permutation -3 (scanitr.cpp 42-44). *)
Theorem C70_empty_refuted : exists d, kb_load 1 2 (fun i => if Nat.eqb i 0 then Some (ex_g 0, []) else None) ex_pad = Some d /\
  kb_query 1 d 0 (-1) (-1) (-1) = None.
Proof. destruct (kb_load _ _ _ _) as [d|] eqn:E; [|vm_compute in E; discriminate]. exists d. split; auto. vm_compute in E. injection E as <-. vm_compute. reflexivity. Qed.
Print Assumptions C70_empty_refuted.
