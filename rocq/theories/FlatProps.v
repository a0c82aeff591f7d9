(** C24: the flat tree. *)
From Coq Require Import ZArith List Sorting.Sorted Permutation ZifyBool Lia.
From Verif Require Import QueryModel QuerySpec InserterModel InserterSpec InserterProps SortModel SortSpec SortProofs3 SortProps ItrModel ItrSpec FlatModel KbModel KbSpec KbProofs3 KbProofs4 KbProofs5 KbProofs7 KbProofs8 FlatProofs FlatProofs2 FlatProofs3 KbProps.
Import ListNotations.
Local Open Scope Z_scope.

(** [d] is a database loaded from the triples [U]. *)
Definition loaded_from (U : list triple) (fuel : nat) (d : db) : Prop :=
  U <> [] /\ Forall (terms 39) U /\ zl U < 2 ^ 31 /\
  (exists inputs pad m, prepared U inputs /\ pad_ok pad /\ (1 <= m)%nat /\ kb_load fuel (m + m) inputs pad = Some d) /\
  (6 * length U < fuel)%nat /\ (forall i t f, d_files d i = Some t -> zl (t_file t f) < 2 ^ 40).

(** The tree of [d] has coordinates for [k].  n - 1 is the greatest term of the tree. *)
Definition known (d : db) (k : Z) : Prop := exists u i c, kb_lookup d k = Some (Some u) /\ (i < 6)%nat /\ u i = Some c.
Definition terms_below (d : db) (n : Z) : Prop := 0 < n /\ known d (n - 1) /\ forall k, 0 <= k -> known d k -> k < n.

(** The flat tree gives for [k] what the tree of [d] gives: the same coordinates for each of the
    six permutations, and none if the tree does not have [k]. *)
Definition same_coordinates (d : db) (k : Z) (v : tc) : Prop :=
  exists r, kb_lookup d k = Some r /\ forall i, (i < 6)%nat -> v i = match r with Some u => u i | None => None end.

Lemma flat_all U fuel d : loaded_from U fuel d -> exists st L t wl,
  DbOk U st L d /\ d_root d = RTree t /\ walked t L wl /\ wl <> [] /\ (length wl < fuel)%nat /\ d_present d 0 = true.
Proof.
  intros (Hne & HU & Hsz & (inputs & pad & m & HP & Hpad & Hm & E) & Hf & Hfl).
  unfold kb_load in E. destruct (load_perms (seq 0 6) inputs) as [ls|] eqn:Els; [|discriminate].
  assert (Hfl' : forall i t f, (i < 6)%nat -> snd (nth i ls ([], None)) = Some t -> zl (t_file t f) < 2 ^ 40).
  { intros i t f _ Et. apply (Hfl i). clear - E Et. destruct (mg_all _ _) as [M|]; [|discriminate]. destruct (build_tc _ _); [|discriminate]. injection E as <-. exact Et. }
  assert (Hf1 : (length U < fuel)%nat) by (revert Hf; generalize (length U); intros; lia).
  assert (Hf3 : (length U + length U + length U < fuel)%nat) by lia.
  destruct (load_ok U inputs pad ls HU HP Hsz Hpad Els Hfl' m fuel Hm Hf3) as (d' & E' & HD & Hpr & _ & tr & wl & Er & HW).
  unfold kb_load in E'. rewrite Els in E'. rewrite E in E'. injection E' as <-.
  match type of HD with DbOk _ ?s ?l _ => exists s, l, tr, wl; set (L := l) in *; set (st := s) in * end. 
  assert (H0 : d_present d 0 = true). { rewrite Hpr by lia. destruct HP as (H0 & _). destruct (inputs 0%nat); congruence. }
  assert (Hlen : forall i, (i < 6)%nat -> (length (L i) <= length U)%nat).
  { intros i Hi. destruct (loaded_or U st L d HD i Hi) as [H|[-> _]]; [|apply Nat.le_0_l]. pose proof (lo_keys _ _ _ _ _ H) as EK. apply (f_equal (@length Z)) in EK. rewrite map_length in EK. rewrite EK.
    etransitivity; [apply filter_length_le|]. etransitivity; [apply keys_length|apply V_length]. }
  split; auto. split; auto. split; auto. destruct HW as (_ & Hs & Hk & _). split; [|split; [|exact H0]].
  - intros ->. assert (Hk0 : keys (V U 0) <> []) by (apply (keys_ne U st L d fuel HD Hf1 0%nat); [repeat constructor|exact Hne]).
    pose proof (lo_keys _ _ _ _ _ (db_loaded _ _ _ _ HD 0%nat ltac:(lia) H0)) as EK. destruct (keys (V U 0)) as [|k r] eqn:EKK; [congruence|].
    assert (Hin : In k (map e_key (L 0%nat))). { rewrite EK. apply filter_In. split; [now left|]. apply (db_all _ _ _ _ HD). lia. }
    assert (Hx : In k (map fst (@nil (Z * list (nat * coord))))) by (apply Hk; exists 0%nat; split; [lia|exact Hin]). destruct Hx.
  - apply Nat.le_lt_trans with (6 * length U)%nat; [|exact Hf]. rewrite <- (map_length fst wl).
    etransitivity; [apply (NoDup_incl_length (l' := flat_map (fun i => map e_key (L i)) (seq 0 6)))|].
    + clear - Hs. induction Hs as [|x l Hs IH HF]; constructor; auto. intros Hx. rewrite Forall_forall in HF. specialize (HF x Hx). lia.
    + intros k Hx. apply Hk in Hx. destruct Hx as (i & Hi & Hx). apply in_flat_map. exists i. split; [apply in_seq; lia|exact Hx].
    + cbn [seq flat_map]. rewrite !app_length, !map_length. cbn [length]. pose proof (Hlen 0%nat ltac:(lia)). pose proof (Hlen 1%nat ltac:(lia)). pose proof (Hlen 2%nat ltac:(lia)). pose proof (Hlen 3%nat ltac:(lia)). pose proof (Hlen 4%nat ltac:(lia)). pose proof (Hlen 5%nat ltac:(lia)). lia.
Qed.

Lemma entry_key k l : In k (map e_key l) <-> entry_for k l <> None.
Proof.
  rewrite entry_for_look. destruct (find (fun e => e_key e =? k) l) as [e|] eqn:E.
  - apply find_some in E. destruct E as [He E]. split; [discriminate|]. intros _. apply in_map_iff. exists e. split; auto. lia.
  - split; [|congruence]. intros H. apply in_map_iff in H. destruct H as (e & <- & He). apply (find_none _ _ E) in He. cbn in He. lia.
Qed.

Lemma flat_sum U fuel junk d :
  loaded_from U fuel d -> d_files d 3 <> None -> (forall k i, length (junk k i) = 8%nat) ->
  exists n raw, terms_below d n /\ n < 2 ^ 63 /\ kb_flat fuel junk d = Some (mkDb (RFlat raw) (d_files d) (d_present d) (d_pad d)) /\ zl raw = n * 83 /\
    (forall k, 0 <= k < n -> exists v, fl_get Labelled raw (d_pad d) k = Some v /\ same_coordinates d k v) /\
    (forall m, (Z.to_nat n <= m)%nat -> exists l, fl_walk m Labelled raw (d_pad d) 0 0 = Some l /\ map fst l = range 0 n /\ forall k v, In (k, v) l -> fl_get Labelled raw (d_pad d) k = Some v) /\
    exists st L, DbOk U st L (mkDb (RFlat raw) (d_files d) (d_present d) (d_pad d)).
Proof.
  intros HLo H3 Hj. destruct (flat_all U fuel d HLo) as (st & L & t & wl & HD & Er & HW & Hne & Hl & _).
  destruct HLo as (_ & _ & Hsz & _).
  destruct (flat_ok U st L d t wl junk HD Hsz Er HW Hj fuel H3 Hne Hl) as (n & raw & E & Hlen & Ht & Hg & Hwk).
  assert (Hlk : forall k, 0 <= k -> (kb_lookup d k = Some None /\ forall i, (i < 6)%nat -> entry_for k (L i) = None) \/
    exists v, kb_lookup d k = Some (Some v) /\ forall i, (i < 6)%nat -> v i = entry_for k (L i)).
  { intros k Hk. apply (db_tree _ _ _ _ HD k Hk). unfold covers. now rewrite Er. }
  pose proof (M_key L t wl HW) as HMk.
  assert (Hkn : forall k, 0 <= k -> known d k <-> In k (map fst (M wl))).
  { intros k Hk. rewrite HMk. split.
    - intros (u & i & c & Eu & Hi & Ec). exists i. split; auto. apply entry_key. destruct (Hlk k Hk) as [[E0 _]|(v & Ev & Hv)]; [congruence|]. assert (u = v) by congruence. subst u. rewrite <- Hv by auto. congruence.
    - intros (i & Hi & Hin). apply entry_key in Hin. destruct (Hlk k Hk) as [[_ Hn]|(v & Ev & Hv)]; [now rewrite Hn in Hin by auto|]. rewrite <- Hv in Hin by auto. destruct (v i) as [c|] eqn:Ec; [|congruence]. exists v, i, c. auto. }
  destruct Ht as [Ht (v0 & Hv0)]. assert (Hn : 0 <= n - 1) by (apply (M0 U st L d t wl junk HD Hsz HW Hj _ _ Hv0)).
  exists n, raw. split; [|split; [|split; [exact E|split; [exact Hlen|split; [|split; [exact Hwk|]]]]]].
  - split; [lia|]. split.
    + apply Hkn; auto. apply in_map_iff. exists (n - 1, v0). auto.
    + intros k Hk Hkk. apply Hkn in Hkk; auto. apply in_map_iff in Hkk. destruct Hkk as ([k' v] & <- & Hin). apply (Ht _ v Hin).
  - assert (Hin : In (n - 1) (map fst (M wl))) by (apply in_map_iff; exists (n - 1, v0); auto). apply HMk in Hin. destruct Hin as (i & Hi & Hin). apply in_map_iff in Hin. destruct Hin as (e & Ee & He).
    destruct (L_entry U st L d junk HD Hsz Hj i e Hi He) as [HF _]. unfold KbProofs3.fields_ok in HF. lia.
  - intros k Hk. destruct (Hg k Hk) as (v & Ev & Hv & _). exists v. split; auto. unfold same_coordinates. destruct (Hlk k ltac:(lia)) as [[-> Hno]|(u & -> & Hu)]; (eexists; split; [reflexivity|]); intros i Hi; rewrite Hv by auto; auto. symmetry. auto.
  - exists st, L. destruct HD as [H1 H2 H4 H5 H6 H7]. split; auto. intros k Hk Hc. unfold covers in Hc. cbn [d_root] in Hc. change (sizeblock Labelled) with 83 in Hc.
    destruct (Hg k ltac:(lia)) as (v & Ev & Hv & _). right. exists v. split; auto. unfold kb_lookup. cbn [d_root d_pad]. now rewrite Ev.
Qed.

(** C24.  If a database has tables in SOP, the flat tree is made; its record of each term up to the
    greatest one holds what the tree has for it, and terms below it that the tree does not have
    have no coordinates. *)
Theorem C24_lookup : forall U fuel junk d,
  loaded_from U fuel d -> d_files d 3 <> None -> (forall k i, length (junk k i) = 8%nat) ->
  exists n d', terms_below d n /\ kb_flat fuel junk d = Some d' /\
    forall k, 0 <= k < n -> exists v, kb_lookup d' k = Some (Some v) /\ same_coordinates d k v.
Proof.
  intros U fuel junk d HLo H3 Hj. destruct (flat_sum U fuel junk d HLo H3 Hj) as (n & raw & Ht & Hn & E & _ & Hg & _).
  eexists n, _. split; [exact Ht|]. split; [exact E|]. intros k Hk. destruct (Hg k Hk) as (v & Ev & Hv). exists v. split; auto. unfold kb_lookup. cbn [d_root d_pad]. now rewrite Ev.
Qed.
Print Assumptions C24_lookup.

(** The iterator of the flat tree goes through all numbers from 0 to the greatest term, with the
    coordinates that a lookup gives. *)
Theorem C24_iteration : forall U fuel junk d,
  loaded_from U fuel d -> d_files d 3 <> None -> (forall k i, length (junk k i) = 8%nat) ->
  exists n raw d', terms_below d n /\ kb_flat fuel junk d = Some d' /\ d_root d' = RFlat raw /\
    forall m, (Z.to_nat n <= m)%nat -> exists l, fl_walk m Labelled raw (d_pad d) 0 0 = Some l /\
      map fst l = map Z.of_nat (seq 0 (Z.to_nat n)) /\ forall k v, In (k, v) l -> same_coordinates d k v.
Proof.
  intros U fuel junk d HLo H3 Hj. destruct (flat_sum U fuel junk d HLo H3 Hj) as (n & raw & Ht & Hn & E & _ & Hg & Hw & _).
  eexists n, raw, _. split; [exact Ht|]. split; [exact E|]. split; [reflexivity|]. intros m Hm. destruct (Hw m Hm) as (l & El & Hk & Hv). exists l. split; auto. split.
  - rewrite Hk. unfold range. rewrite Z.sub_0_r. apply map_ext. intros i. apply Z.add_0_l.
  - intros k v Hin. assert (Hr : 0 <= k < n). { assert (Hin' : In k (map fst l)) by (apply in_map_iff; now exists (k, v)). rewrite Hk in Hin'. now apply range_In in Hin'. }
    destruct (Hg k Hr) as (v' & Ev & Hs). specialize (Hv k v Hin). congruence.
Qed.
Print Assumptions C24_iteration.

(** A database opened with the flat tree answers the patterns whose bound terms are not above the
    greatest term as C70 says. *)
Theorem C24_queries : forall U fuel junk d,
  loaded_from U fuel d -> d_files d 3 <> None -> (forall k i, length (junk k i) = 8%nat) ->
  exists n d', terms_below d n /\ kb_flat fuel junk d = Some d' /\
    forall idx s p o, (idx < 6)%nat -> -1 <= s < n -> -1 <= p < n -> -1 <= o < n ->
    (kb_present d idx = true -> leading idx (s, p, o)) ->
    exists it l, kb_query fuel d' idx s p o = Some it /\ Yields false l it /\ answers U idx (s, p, o) l.
Proof.
  intros U fuel junk d HLo H3 Hj. destruct (flat_sum U fuel junk d HLo H3 Hj) as (n & raw & Ht & Hn & E & Hlen & _ & _ & st & L & HD).
  destruct (flat_all U fuel d HLo) as (_ & _ & _ & _ & _ & _ & _ & _ & _ & H0). destruct HLo as (Hne & _ & Hsz & _ & Hf & _).
  eexists n, _. split; [exact Ht|]. split; [exact E|]. intros idx s p o Hi Hs Hp Ho Hl.
  assert (Hc : forall x, -1 <= x < n -> covers (mkDb (RFlat raw) (d_files d) (d_present d) (d_pad d)) x). { intros x Hx. unfold covers. cbn [d_root]. change (sizeblock Labelled) with 83. lia. }
  apply (query_yields U st L _ fuel HD); auto; unfold vok; try lia.
Qed.
Print Assumptions C24_queries.

(** A case: the triples of C70's case, with the permutations SPO, POS, SOP and PSO.  The terms are
    1, 3, 4, 5, 7 and 9. *)
Definition ex_junk (k : Z) (i : nat) : list Z := repeat 255 8.
Notation ex_d which := (kb_load 40 2 (ex_inputs which) ex_pad).
Definition ex_flat (which : list nat) : option db := do d <- ex_d which; kb_flat 40 ex_junk d.
Definition ex_all : list nat := [0; 2; 3; 5]%nat.
Definition ex_look (d : option db) (k : Z) : option (option (list (option coord))) :=
  do d <- d; do r <- kb_lookup d k; Some (match r with Some v => Some (map v (seq 0 6)) | None => None end).

Example C24_case :
  ex_look (ex_flat ex_all) 7 = ex_look (ex_d ex_all) 7 /\
  ex_look (ex_flat ex_all) 7 = Some (Some [None; None; Some (mkCoord 3 96 0 0); None; None; Some (mkCoord 3 96 0 0)]) /\
  ex_look (ex_flat ex_all) 2 = Some (Some [None; None; None; None; None; None]) /\ ex_look (ex_d ex_all) 2 = Some None /\
  (do d <- ex_flat ex_all; do it <- kb_query 40 d 0 1 7 (-1); drain 40 it) = Some [(1, 7, 3); (1, 7, 4)] /\
  (do d <- ex_flat ex_all; do it <- kb_query 40 d 1 (-1) 7 3; drain 40 it) = Some [(3, 7, 1); (3, 7, 5)].
Proof. vm_compute. repeat split. Qed.

(** The hypotheses of the theorems hold for it, and for one in which the last term has more triples. *)
Definition ex_U2 : list triple := [(1, 9, 3); (1, 9, 4); (5, 9, 3); (1, 7, 3)].
Definition ex_in (U : list triple) (which : list nat) (i : nat) : option (cfg * list quad) :=
  if existsb (Nat.eqb i) which then Some (ex_g (Z.of_nat i), map (fun t => (t, 0)) (KbProofs5.canon (map (view (Z.of_nat i)) U))) else None.
Lemma ex_prepared U : NoDup U -> prepared U (ex_in U ex_all).
Proof.
  intros HN. split; [cbn; discriminate|split].
  - intros i Hi Hn. assert (i = 3 \/ i = 4 \/ i = 5)%nat as [-> |[-> | ->]] by lia; cbn in *; congruence.
  - intros i g q Hi Ei. unfold ex_in in Ei. destruct (existsb (Nat.eqb i) ex_all); [|discriminate].
    pose proof (f_equal (fun x => match x with Some y => fst y | None => g end) Ei) as Eg. pose proof (f_equal (fun x => match x with Some y => snd y | None => q end) Ei) as Eq. cbn [fst snd] in Eg, Eq. subst g q. clear Ei.
    split; [reflexivity|]. split; [split|].
    + apply ex_sorted, KbProofs5.canon_sorted.
    + unfold counted. rewrite <- (map_map (view (Z.of_nat i)) (fun t => (t, 0))). apply Permutation_map. apply NoDup_Permutation.
      * apply V_nodup.
      * apply FinFun.Injective_map_NoDup; [intros x y Exy; now apply (view_inj i)|exact HN].
      * intros x. apply KbProofs5.canon_In.
    + split; [|discriminate]. unfold options_ok. cbn [g_agg g_skip g_maxsize g_fixed ex_g]. split; auto. split; [unfold THRESHOLD_KEEP_MEMORY; lia|]. split; [lia|]. discriminate.
Qed.
Lemma ex_loaded U d : NoDup U -> U <> [] -> Forall (terms 39) U -> length U = 4%nat -> kb_load 40 2 (ex_in U ex_all) ex_pad = Some d ->
  (forall i t f, d_files d i = Some t -> zl (t_file t f) < 2 ^ 40) -> loaded_from U 40 d.
Proof.
  intros HN Hne HF Hlen E Hfl. split; auto. split; auto. split; [rewrite Hlen; reflexivity|]. split; [|split; [rewrite Hlen; lia|exact Hfl]].
  exists (ex_in U ex_all), ex_pad, 1%nat. split; [now apply ex_prepared|]. split; [split; [cbn; lia|repeat constructor; cbn; lia]|]. split; [lia|exact E].
Qed.
Example C24_hyps : exists d, ex_d ex_all = Some d /\ loaded_from ex_U 40 d /\ d_files d 3 <> None /\ forall k i, length (ex_junk k i) = 8%nat.
Proof.
  destruct (ex_d ex_all) as [d|] eqn:E; [|vm_compute in E; discriminate]. exists d. split; auto.
  split; [|split; [|reflexivity]]; [|vm_compute in E; injection E as <-; vm_compute; discriminate].
  apply ex_loaded; [repeat constructor; cbn; intuition discriminate|discriminate|repeat constructor; cbn; lia|reflexivity|exact E|].
  intros i t f Et. vm_compute in E. injection E as <-. destruct i as [|[|[|[|[|[|[|i]]]]]]]; vm_compute in Et; try discriminate; injection Et as <-; destruct f as [|[|[|f]]]; vm_compute; reflexivity.
Qed.
Example C24_hyps2 : exists d, kb_load 40 2 (ex_in ex_U2 ex_all) ex_pad = Some d /\ loaded_from ex_U2 40 d /\ d_files d 3 <> None.
Proof.
  destruct (kb_load 40 2 (ex_in ex_U2 ex_all) ex_pad) as [d|] eqn:E; [|vm_compute in E; discriminate]. exists d. split; auto.
  split; [|vm_compute in E; injection E as <-; vm_compute; discriminate].
  apply ex_loaded; [repeat constructor; cbn; intuition discriminate|discriminate|repeat constructor; cbn; lia|reflexivity|exact E|].
  intros i t f Et. vm_compute in E. injection E as <-. destruct i as [|[|[|[|[|[|[|i]]]]]]]; vm_compute in Et; try discriminate; injection Et as <-; destruct f as [|[|[|f]]]; vm_compute; reflexivity.
Qed.

(** A lookup of a term above the greatest one, which the tree answers with "not found", reads
    outside of the file (flatroot.cpp 31-50 does not compare the term with the number of records). *)
Theorem C24_beyond_refuted : exists U fuel junk d d' k,
  loaded_from U fuel d /\ d_files d 3 <> None /\ kb_flat fuel junk d = Some d' /\ kb_lookup d k = Some None /\ kb_lookup d' k = None.
Proof.
  destruct C24_hyps as (d & E & HL & H3 & _). exists ex_U, 40%nat, ex_junk, d. vm_compute in E. injection E as <-. eexists. exists 10.
  split; [exact HL|]. split; [exact H3|]. split; [vm_compute; reflexivity|]. split; vm_compute; reflexivity.
Qed.
Print Assumptions C24_beyond_refuted.

(** The last record is read beyond the end of the file: the position of PSO takes five bytes, and
    eight are read (flatroot.cpp 17-29). *)
Theorem C24_end_refuted : exists U fuel junk d raw k,
  loaded_from U fuel d /\ d_files d 3 <> None /\ kb_flat fuel junk d = Some (mkDb (RFlat raw) (d_files d) (d_present d) (d_pad d)) /\
  known d k /\ fl_get Labelled raw [] k = None.
Proof.
  destruct C24_hyps2 as (d & E & HL & H3). exists ex_U2, 40%nat, ex_junk, d. vm_compute in E. injection E as <-. eexists. exists 9.
  split; [exact HL|]. split; [exact H3|]. split; [vm_compute; reflexivity|]. split; [|vm_compute; reflexivity].
  eexists. exists 5%nat. eexists. split; [vm_compute; reflexivity|]. split; [lia|]. vm_compute. reflexivity.
Qed.
Print Assumptions C24_end_refuted.

(** The iterator returns numbers that are not in the tree. *)
Theorem C24_gaps_refuted : exists U fuel junk d raw l k v,
  loaded_from U fuel d /\ d_files d 3 <> None /\ kb_flat fuel junk d = Some (mkDb (RFlat raw) (d_files d) (d_present d) (d_pad d)) /\
  fl_walk fuel Labelled raw (d_pad d) 0 0 = Some l /\ In (k, v) l /\ kb_lookup d k = Some None.
Proof.
  destruct C24_hyps as (d & E & HL & H3 & _). exists ex_U, 40%nat, ex_junk, d. vm_compute in E. injection E as <-. do 2 eexists. exists 0. eexists.
  split; [exact HL|]. split; [exact H3|]. split; [vm_compute; reflexivity|]. split; [vm_compute; reflexivity|]. split; [left; reflexivity|]. vm_compute. reflexivity.
Qed.
Print Assumptions C24_gaps_refuted.

(** If SOP has no tables while another permutation has, the flat tree cannot be made. *)
Theorem C24_no_sop_refuted : exists U inputs pad fuel junk d, prepared U inputs /\ kb_load fuel 2 inputs pad = Some d /\ known d 1 /\ kb_flat fuel junk d = None.
Proof.
  exists ex_U, (ex_inputs [0; 2; 5]%nat), ex_pad, 40%nat, ex_junk.
  destruct (kb_load 40 2 (ex_inputs [0; 2; 5]%nat) ex_pad) as [d|] eqn:E; [|vm_compute in E; discriminate]. exists d. split; [apply C70_hyps|]. split; auto.
  vm_compute in E. injection E as <-. split; [|vm_compute; reflexivity].
  eexists. exists 0%nat. eexists. split; [vm_compute; reflexivity|]. split; [lia|]. vm_compute. reflexivity.
Qed.
Print Assumptions C24_no_sop_refuted.

(** The three kinds of graphs.  [M] is what the tree's iterator returns and [E i] what the .idx
    files of permutation [i] hold (term, strategy, file, position): the flat tree gives for each
    term the number of elements of the tree with the strategy, file and position of the entry.
    Missing: that the entries of an unlabelled graph, whose strategies are rewritten, are those of
    the tables (for labelled graphs see C24_lookup). *)
Definition coordinates_of (M : list (Z * tc)) (E : nat -> list ent) (k : Z) (i : nat) : option coord :=
  match look k M with
  | Some v =>
    match v i with
    | Some c => let '(s, f, p) := match look k (E i) with Some x => x | None => (0, 0, 0) end in Some (mkCoord (co_n c) s f p)
    | None => None
    end
  | None => None
  end.
Theorem C24_graphs_partial : forall g junk files M E,
  (forall k i, length (junk k i) = 8%nat) -> StronglySorted Z.lt (map fst M) -> M <> [] ->
  (forall k v, In (k, v) M -> 0 <= k /\ (exists i, In i (order g) /\ v i <> None) /\
     forall i c, In i (order g) -> v i = Some c -> 0 < co_n c < 2 ^ 40 /\ exists x, In (k, x) (E i)) ->
  (forall i, In i (order g) -> StronglySorted Z.lt (map fst (E i)) /\ (forall k s f p, In (k, (s, f, p)) (E i) ->
     (exists v c, In (k, v) M /\ v i = Some c) /\ -128 <= s < 128 /\ 0 <= f < 2 ^ 15 /\ 0 <= p < 2 ^ 40)) ->
  files 3%nat <> None -> (forall i, In i (order g) -> has_files g (files i) (E i)) ->
  exists n raw, fl_load g junk files M = Some (Some raw) /\ (forall k v, In (k, v) M -> k < n) /\ zl raw = n * sizeblock g /\
    forall k pad, 0 <= k < n -> (3 <= length pad)%nat -> exists u, fl_get g raw pad k = Some u /\
      forall i, u i = if existsb (Nat.eqb i) (order g) then coordinates_of M E k i else None.
Proof.
  intros g junk files M E Hj Hs Hne HM HE H3 HF. destruct (files 3%nat) as [t3|] eqn:E3; [|congruence].
  assert (HEin : forall i k x, In i (order g) -> In (k, x) (E i) -> exists v, In (k, v) M /\ 0 < fl_n v i).
  { intros i k [[s f] p] Hi Hin. destruct (HE i Hi) as [_ H]. destruct (H k s f p Hin) as ((v & c & Hv & Ec) & _). exists v. split; auto. unfold fl_n. rewrite Ec. destruct (HM k v Hv) as (_ & _ & Hc). apply (Hc i c Hi Ec). }
  assert (HEall : forall k v i, In (k, v) M -> In i (order g) -> look k (E i) = None -> v i = None).
  { intros k v i Hv Hi Hl. destruct (v i) as [c|] eqn:Ec; auto. destruct (HM k v Hv) as (_ & _ & Hc). destruct (Hc i c Hi Ec) as (_ & x & Hx). rewrite (look_sorted k x (E i)) in Hl; [discriminate|apply (HE i Hi)|exact Hx]. }
  destruct (load_all g junk M E Hj Hs) with (files := files) (t3 := t3) as (n & El & Ht); auto.
  - intros k v Hv. apply (HM k v Hv).
  - intros i Hi. apply (HE i Hi).
  - intros k v Hv. destruct (HM k v Hv) as (_ & (i & Hi & Hn) & Hc). destruct g.
    + exists i. split; [cbn in Hi; lia|]. unfold fl_n. destruct (v i) as [c|] eqn:Ec; [|congruence]. destruct (Hc i c Hi Ec). lia.
    + intros E0 E1. cbn in Hi. destruct Hi as [<- |[<- |[]]]; congruence.
    + intros E0 E1. cbn in Hi. destruct Hi as [<- |[]]; congruence.
  - assert (Hn : 0 <= n). { destruct Ht as (_ & v & Hv). destruct (HM _ _ Hv). lia. }
    exists n. eexists. split; [exact El|]. split; [apply Ht|]. split; [exact (recs_length g junk M Hj _ n Hn)|]. intros k pad Hk Hpad.
    assert (HFi : fields g M (cE E) n).
    { intros k' v i Hk' Ev Hi. apply look_In in Ev. destruct (HM k' v Ev) as (_ & _ & Hc). unfold fl_n, cE. destruct (HE i Hi) as [_ HEi].
      assert (Hx : match look k' (E i) with Some (s, f, p) => -128 <= s < 128 /\ 0 <= f < 2 ^ 15 /\ 0 <= p < 2 ^ 40 | None => True end).
      { destruct (look k' (E i)) as [[[s f] p]|] eqn:Ex; auto. apply look_In in Ex. apply (HEi _ _ _ _ Ex). }
      destruct (v i) as [c|] eqn:Ec; [specialize (Hc i c Hi Ec)|]; destruct (look k' (E i)) as [[[s f] p]|]; lia. }
    destruct (get_all g junk M Hj (cE E) n pad k Hk HFi ltac:(lia)) as (u & Eu & Hu). exists u. split; auto. intros i. rewrite Hu. destruct (existsb (Nat.eqb i) (order g)) eqn:Ei; auto.
    apply existsb_exists in Ei. destruct Ei as (j & Hi & Ej). apply Nat.eqb_eq in Ej. subst j.
    unfold found, coordinates_of, cE. change (@look tc k M) with (@look (nat -> option coord) k M). destruct (look k M) as [v|] eqn:Ev; auto. apply look_In in Ev. destruct (HM k v Ev) as (_ & _ & Hc). destruct (v i) as [c|] eqn:Ec.
    + destruct (Hc i c Hi Ec) as [Hcn _]. assert (Efl : fl_n v i = co_n c) by (unfold fl_n; now rewrite Ec). rewrite Efl. rewrite (proj2 (Z.ltb_lt 0 (co_n c))) by lia. reflexivity.
    + assert (Efl : fl_n v i = 0) by (unfold fl_n; now rewrite Ec). rewrite Efl. reflexivity.
Qed.
Print Assumptions C24_graphs_partial.

(** A case with an undirected graph: terms 1 and 3, the second in another file. *)
Example C24_graphs_case :
  let c n := fun i : nat => if Nat.eqb i 3 then Some (mkCoord n 0 0 0) else None in
  let t := mkTs (fun f => match f with 0%nat => [1; 2; 3] | _ => [9; 9] end)
    (fun f => match f with 0%nat => Some (enc 8 1 ++ enc 5 0 ++ enc 5 1 ++ [5]) | 1%nat => Some (enc 8 1 ++ enc 5 0 ++ enc 5 3 ++ [6]) | _ => None end) [] [] 1 0 0 0 in
  reads Undirected t [(1, (5, 0, 0)); (3, (6, 1, 0))] /\
  (do r <- fl_load Undirected ex_junk (fun i => if Nat.eqb i 3 then Some t else None) [(1, c 4); (3, c 2)]; do raw <- r;
   do u <- fl_get Undirected raw [0; 0; 0] 3; Some (u 3%nat)) = Some (Some (mkCoord 2 6 1 0)).
Proof.
  cbv zeta. split; [|vm_compute; reflexivity]. intros A step a. vm_compute. destruct (step 1 5 0 0 a) as [a1|]; auto. destruct (step 3 6 1 0 a1); auto.
Qed.
