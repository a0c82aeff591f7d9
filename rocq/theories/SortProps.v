(** C25, C26, C27: sorting the input of the permutations. *)
From Coq Require Import List ZArith Lia Bool Arith Sorting.Sorted Sorting.Permutation.
Import ListNotations.
From Verif Require Import ItrModel QueryModel QuerySpec FileModel NodeModel InserterModel InserterSpec InserterProofs InserterProps
  SortModel SortSpec SortProofs SortProofs2 SortProofs3.
Local Open Scope Z_scope.

(** ** C25 Records *)

(** The numbers fit in the fields of a record: five bytes each; with a count the object has eight. *)
Definition fields_ok (ic : bool) (q : quad) : Prop :=
  let '(s, p, o, c) := q in
  0 <= s < 2 ^ 40 /\ 0 <= p < 2 ^ 40 /\ if ic then 0 <= o < 2 ^ 63 /\ 0 <= c < 2 ^ 40 else 0 <= o < 2 ^ 40 /\ c = 0.

Theorem C25_order : forall ic x y, fields_ok ic x -> fields_ok ic y ->
  (bytes_lt (rec_of ic x) (rec_of ic y) = true <-> qlt x y).
Proof. exact rec_order. Qed.
Print Assumptions C25_order.

Theorem C25_roundtrip : forall ic q, fields_ok ic q ->
  length (rec_of ic q) = rsize ic /\ Forall (fun b => 0 <= b < 256) (rec_of ic q) /\ of_rec ic (rec_of ic q) = q.
Proof. intros ic q H. split; [apply rec_length|]. split; [apply rec_bytes|]. now apply of_rec_rec. Qed.
Print Assumptions C25_roundtrip.

(** Sorting the bytes, with any number of threads, sorts the triples. *)
Theorem C25_sorts : forall ic nthreads l, Forall (fields_ok ic) l ->
  let l2 := map (of_rec ic) (sort_perm nthreads (map (rec_of ic) l)) in
  Permutation l2 l /\ StronglySorted (fun x y => ~ qlt y x) l2.
Proof.
  intros ic n l HF. cbv zeta. set (r := sort_perm n (map (rec_of ic) l)).
  assert (HP : Permutation r (map (rec_of ic) l)) by apply sort_perm_perm.
  destruct (Permutation_map_inv _ _ HP) as (l2 & E & P2). rewrite E.
  assert (HF2 : Forall (fields_ok ic) l2) by (eapply Permutation_Forall; eauto).
  assert (EM : map (of_rec ic) (map (rec_of ic) l2) = l2).
  { rewrite map_map. rewrite <- (map_id l2) at 2. apply map_ext_in. intros a Ha. apply of_rec_rec. rewrite Forall_forall in HF2. now apply HF2. }
  rewrite EM. split; [now symmetry|].
  assert (HS : StronglySorted (le bytes_lt) (map (rec_of ic) l2)).
  { rewrite <- E. apply sort_perm_sorted. }
  clear - HS HF2. induction l2 as [|x l2 IH]; [constructor|].
  inversion HF2 as [|? ? Hx Hl]; subst. cbn in HS. inversion HS as [|? ? HS1 HS2]; subst. constructor; [now apply IH|].
  rewrite Forall_map in HS2. rewrite Forall_forall in *. intros y Hy Hq. specialize (HS2 y Hy). unfold le in HS2.
  apply (rec_order ic y x) in Hq; [|now apply Hl|exact Hx]. congruence.
Qed.
Print Assumptions C25_sorts.

Example C25_case : fields_ok false (70000, 2, 2 ^ 40 - 1, 0) /\ fields_ok true (1, 256, 2 ^ 50, 255) /\
  bytes_lt (rec_of false (70000, 2, 3, 0)) (rec_of false (70000, 256, 1, 0)) = true /\
  map (of_rec false) (sort_perm 2 (map (rec_of false) [(3, 1, 256, 0); (3, 1, 7, 0); (2, 9, 9, 0)])) =
    [(2, 9, 9, 0); (3, 1, 7, 0); (3, 1, 256, 0)].
Proof. split; [cbn; lia|]. split; [cbn; lia|]. split; vm_compute; reflexivity. Qed.

(** ** C26 Changing the permutation of a record *)

Theorem C26_permute : forall cur next t, is_perm cur -> is_perm next -> cur <> next ->
  permute1 cur next (rec_of false (counted (view cur t))) = rec_of false (counted (view next t)).
Proof. exact permute_view. Qed.
Print Assumptions C26_permute.

Example C26_case : is_perm IDX_OSP /\ is_perm IDX_PSO /\
  of_rec false (permute1 IDX_OSP IDX_PSO (rec_of false (9, 7, 8, 0))) = (8, 7, 9, 0).
Proof. split; [vm_compute; split; discriminate|]. split; [vm_compute; split; discriminate|]. vm_compute. reflexivity. Qed.

(** Asked for the permutation the records have already, the code still moves the fields. *)
Theorem C26_same_refuted : exists cur t, is_perm cur /\ terms 40 t /\
  permute1 cur cur (rec_of false (counted (view cur t))) <> rec_of false (counted (view cur t)).
Proof.
  exists IDX_SPO, (1, 2, 3). split; [vm_compute; split; discriminate|]. split; [cbn; lia|]. vm_compute. discriminate.
Qed.
Print Assumptions C26_same_refuted.

(** Records with a count have eight bytes in the third field, of which five are moved. *)
Theorem C26_count_refuted : exists t c, terms 40 t /\ 0 <= c < 2 ^ 40 /\
  of_rec true (permute1 IDX_SPO IDX_SOP (rec_of true (t, c))) <> (view IDX_SOP t, c).
Proof. exists (1, 2, 3), 4. split; [cbn; lia|]. split; [lia|]. vm_compute. discriminate. Qed.
Print Assumptions C26_count_refuted.

(** ** C27 The sorted files *)

(** [junk k] is what the array of round k contains at the start; it is long enough. *)
Definition array_ok (nthreads maxn est : nat) (files : list (list quad)) (junk : nat -> list (list Z)) : Prop :=
  forall k, (nelem maxn est (psize nthreads files) <= length (junk k))%nat.

Lemma C27_hyps p0 files T : is_perm p0 -> concat files = map (fun t => counted (view p0 t)) T -> Forall (terms 40) T ->
  Forall (fun t => tle (view p0 t) (filler, filler, filler)) T ->
  Forall (fitsq false) (concat files) /\ Forall (below false) (concat files).
Proof.
  intros Hp E HT HB. rewrite E, !Forall_map. split.
  - eapply Forall_impl; [|exact HT]. intros t Ht. now apply view_fits.
  - rewrite Forall_forall in *. intros t Ht. apply below_tle; [now apply view_fits; auto|]. now apply HB.
Qed.

(** For each permutation of the list, the files written over all rounds are sorted and have
    together exactly the triples of the input, whatever the division of the input into files, the
    number of threads, the memory, and the junk in the memory. *)
Theorem C27_files : forall ionthreads nthreads maxn est p0 perms junk files T,
  threads_ok ionthreads nthreads files -> array_ok nthreads maxn est files junk -> is_perm p0 -> chain p0 perms ->
  concat files = map (fun t => counted (view p0 t)) T -> Forall (terms 40) T ->
  Forall (fun t => tle (view p0 t) (filler, filler, filler)) T ->
  exists rs, sort_chunks false ionthreads nthreads maxn est p0 perms junk files = Some rs /\
    forall i p, nth_error (p0 :: perms) i = Some p ->
      Forall sorted (sorted_files i rs) /\
      Permutation (concat (sorted_files i rs)) (map (fun t => counted (view p t)) T).
Proof.
  intros io nt maxn est p0 perms junk files T Hth HJ Hp Hch E HT HB.
  destruct (C27_hyps p0 files T Hp E HT HB) as [HF HB2].
  destruct (sort_chunks_ok false io nt maxn est p0 perms junk files Hth HJ HF HB2) as (rs & E1 & S1 & P1 & H1).
  exists rs. split; auto. intros [|i] p Hi; cbn in Hi.
  - injection Hi as <-. split; auto. now rewrite P1, E.
  - apply H1; auto. now rewrite E.
Qed.
Print Assumptions C27_files.

(** With counts (one permutation). *)
Theorem C27_counts : forall ionthreads nthreads maxn est p0 junk files,
  threads_ok ionthreads nthreads files -> array_ok nthreads maxn est files junk ->
  Forall (fields_ok true) (concat files) -> Forall (fun q => tle (fst q) (filler, filler, filler)) (concat files) ->
  exists rs, sort_chunks true ionthreads nthreads maxn est p0 [] junk files = Some rs /\
    Forall sorted (sorted_files 0 rs) /\ Permutation (concat (sorted_files 0 rs)) (concat files).
Proof.
  intros io nt maxn est p0 junk files Hth HJ HF HB.
  destruct (sort_chunks_ok true io nt maxn est p0 [] junk files Hth HJ HF) as (rs & E1 & S1 & P1 & _); [|eauto].
  rewrite Forall_forall in *. intros q Hq. apply below_count; [now apply HF|now apply HB].
Qed.
Print Assumptions C27_counts.

(** What the loader then reads, after merging the files: all the triples, in order. *)
Theorem C27_input : forall ionthreads nthreads maxn est p0 perms junk files T,
  threads_ok ionthreads nthreads files -> array_ok nthreads maxn est files junk -> is_perm p0 -> chain p0 perms ->
  concat files = map (fun t => counted (view p0 t)) T -> Forall (terms 40) T ->
  Forall (fun t => tle (view p0 t) (filler, filler, filler)) T ->
  exists rs, sort_chunks false ionthreads nthreads maxn est p0 perms junk files = Some rs /\
    forall i p, nth_error (p0 :: perms) i = Some p -> exists q, sorted_input i rs = Some q /\ in_order p T q.
Proof.
  intros io nt maxn est p0 perms junk files T Hth HJ Hp Hch E HT HB.
  destruct (C27_files io nt maxn est p0 perms junk files T Hth HJ Hp Hch E HT HB) as (rs & E1 & H1).
  exists rs. split; auto. intros i p Hi. destruct (H1 i p Hi) as [S1 P1].
  destruct (sorted_input_ok i rs S1) as (q & E2 & S2 & P2). exists q. split; auto. split; auto. now rewrite P2.
Qed.
Print Assumptions C27_input.

(** Such an input is one that the loader stores correctly (C47), and without repetitions it is the
    set of the triples. *)
Theorem C27_loads : forall p T q, is_perm p -> in_order p T q -> Forall (terms 39) T ->
  input_ok q /\ forall x, In x (distinct (map fst q)) <-> exists t, In t T /\ view p t = x.
Proof.
  intros p T q Hp [S P] HT.
  assert (HI : forall x, In x (map fst q) <-> exists t, In t T /\ view p t = x).
  { intros x. rewrite in_map_iff. split.
    - intros ([[[a b] c] n] & <- & Hin). apply (Permutation_in _ P) in Hin. apply in_map_iff in Hin.
      destruct Hin as (t & Et & Ht). exists t. split; auto. unfold counted in Et. injection Et as Et En. exact Et.
    - intros (t & Ht & <-). exists (counted (view p t)). split; auto. apply (Permutation_in _ (Permutation_sym P)). apply in_map_iff. eauto. }
  split.
  - split; auto. intros a b c Hin. apply HI in Hin. destruct Hin as (t & Ht & E). rewrite Forall_forall in HT. specialize (HT t Ht).
    destruct (perm_some p Hp) as (o & Eo & Ho). apply Ho in HT. unfold view in E. rewrite Eo in E. rewrite E in HT. cbn in HT. lia.
  - intros x. rewrite <- HI. unfold distinct. apply nodup_In.
Qed.
Print Assumptions C27_loads.

(** The permutations one after the other, each from the files of the one before.  PSO can only be
    the last, since the positions are not updated after it. *)
Theorem C27_blocks : forall g perms files T, sorter_ok g ->
  concat files = map counted T -> Forall (terms 40) T ->
  Forall (fun t => let '(a, b, c) := t in a <= filler /\ b <= filler /\ c <= filler) T ->
  Forall (fun p => In p [IDX_OPS; IDX_SOP; IDX_OSP; IDX_POS; IDX_PSO]) perms -> ~ In IDX_PSO (removelast perms) ->
  exists qs, all_blocks g perms files = Some qs /\ Forall2 (fun p q => in_order p T q) (IDX_SPO :: perms) qs.
Proof.
  intros g perms files T Hg E HT HB Hin Hps.
  assert (EV : map counted T = map (fun t => counted (view IDX_SPO t)) T).
  { apply map_ext. intros [[a b] c]. reflexivity. }
  rewrite EV in E. destruct (C27_hyps IDX_SPO files T) as [HF HB2]; auto.
  { vm_compute. split; discriminate. }
  { eapply Forall_impl; [|exact HB]. intros [[a b] c] H. unfold tle. cbn. lia. }
  unfold all_blocks. destruct (sort_one_ok g IDX_SPO files Hg HF HB2) as (fs & E1 & S1 & P1). rewrite E1.
  destruct (blocks_ok g T Hg HT HB perms (mkPoss 0 1 2) IDX_SPO fs) as (r & E2 & F2); auto.
  { vm_compute. split; discriminate. }
  { intros [[a b] c]. reflexivity. }
  { now rewrite P1, E. }
  rewrite E2. eexists. split; [reflexivity|]. constructor; auto. destruct (kmerge_ok fs S1) as [K1 K2]. split; auto. now rewrite K2, P1, E.
Qed.
Print Assumptions C27_blocks.

(** Three files, two threads with one reading thread, room for four records, so two rounds; the
    array is full of junk. *)
Definition ex_junk (k : nat) : list (list Z) := repeat (repeat 7 15) 4.
Definition ex_triples : list triple := [(5, 1, 300); (2, 9, 9); (5, 1, 2); (70000, 2, 1); (2, 9, 9)].
Definition ex_files : list (list quad) := [[(5, 1, 300, 0); (2, 9, 9, 0)]; [(5, 1, 2, 0); (70000, 2, 1, 0)]; [(2, 9, 9, 0)]].
Example C27_case : threads_ok 1 2 ex_files /\ array_ok 2 4 4 ex_files ex_junk /\ is_perm IDX_SPO /\ chain IDX_SPO [IDX_OPS; IDX_POS] /\
  concat ex_files = map (fun t => counted (view IDX_SPO t)) ex_triples /\ Forall (terms 40) ex_triples /\
  Forall (fun t => tle (view IDX_SPO t) (filler, filler, filler)) ex_triples.
Proof.
  split; [split; [auto|right; auto]|]. split; [intros k; cbn; auto|]. split; [vm_compute; split; discriminate|].
  split; [cbn; unfold is_perm, IDX_SPO, IDX_OPS, IDX_POS; lia|]. split; [reflexivity|].
  split; repeat constructor; cbn; lia.
Qed.
Example C27_result :
  (do rs <- sort_chunks false 1 2 4 4 IDX_SPO [IDX_OPS; IDX_POS] ex_junk ex_files;
   do q <- sorted_input 2 rs; Some (length rs, q)) =
  Some (2%nat, [(1, 2, 5, 0); (1, 300, 5, 0); (2, 1, 70000, 0); (9, 9, 2, 0); (9, 9, 2, 0)]).
Proof. vm_compute. reflexivity. Qed.

Definition ex_sorter : sorter := mkSorter 1 2 4 4 ex_junk.
Example C27_blocks_case : sorter_ok ex_sorter /\
  all_blocks ex_sorter [IDX_OPS; IDX_POS; IDX_PSO] ex_files = Some [
    [(2, 9, 9, 0); (2, 9, 9, 0); (5, 1, 2, 0); (5, 1, 300, 0); (70000, 2, 1, 0)];
    [(1, 2, 70000, 0); (2, 1, 5, 0); (9, 9, 2, 0); (9, 9, 2, 0); (300, 1, 5, 0)];
    [(1, 2, 5, 0); (1, 300, 5, 0); (2, 1, 70000, 0); (9, 9, 2, 0); (9, 9, 2, 0)];
    [(1, 5, 2, 0); (1, 5, 300, 0); (2, 70000, 1, 0); (9, 2, 9, 0); (9, 2, 9, 0)]].
Proof. split; [unfold sorter_ok; cbn; repeat split; auto|]. vm_compute. reflexivity. Qed.

(** The free space is filled with records of bytes 1, which are not above every triple: a triple
    with a larger first term is lost, and a filler is stored instead. *)
Theorem C27_filler_refuted : exists T est rs, Forall (terms 40) T /\
  sort_chunks false 1 1 est est IDX_SPO [] (fun _ => repeat [] est) [map counted T] = Some rs /\
  concat (sorted_files 0 rs) = [counted (filler, filler, filler)] /\ ~ In (filler, filler, filler) T.
Proof.
  exists [(8623620610, 1, 1)], 2%nat. eexists. split; [repeat constructor; cbn; lia|].
  split; [vm_compute; reflexivity|]. split; [vm_compute; reflexivity|].
  cbn. intros [H|[]]. discriminate.
Qed.
Print Assumptions C27_filler_refuted.

(** The number of reading threads must divide the number of threads: with three files, three
    threads and two of them reading, the code asks for a part that does not exist. *)
Theorem C27_threads_refuted : exists files junk,
  array_ok 3 9 9 files junk /\ Forall (fitsq false) (concat files) /\ Forall (below false) (concat files) /\
  sort_chunks false 2 3 9 9 IDX_SPO [] junk files = None.
Proof.
  exists [[(1, 2, 3, 0)]; [(4, 5, 6, 0)]; [(7, 8, 9, 0)]], (fun _ => repeat [] 9).
  split; [intros k; cbn; auto|]. split; [repeat constructor; cbn; lia|].
  split; [repeat constructor|]. vm_compute. reflexivity.
Qed.
Print Assumptions C27_threads_refuted.
