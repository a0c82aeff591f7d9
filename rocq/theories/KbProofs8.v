(** From the files of the loader to a database that answers. *)
From Coq Require Import Sorted Permutation ZifyBool.
From Verif Require Export KbProofs7.
From Verif Require Import QueryModel QuerySpec SortSpec SortProps InserterSpec InserterProps.
Local Open Scope Z_scope.
Ltac Zify.zify_post_hook ::= Z.div_mod_to_equations.

Lemma load_perms_nth inputs : forall is_ l, load_perms is_ inputs = Some l ->
  length l = length is_ /\ forall j i, nth_error is_ j = Some i -> exists x, load_perm (inputs i) = Some x /\ nth_error l j = Some x.
Proof.
  induction is_ as [|i0 is_ IH]; intros l E; cbn [load_perms] in E.
  - injection E as <-. split; auto. intros [|j] i H; discriminate.
  - destruct (load_perm (inputs i0)) as [x|] eqn:E0; [|discriminate]. destruct (load_perms is_ inputs) as [r|] eqn:E1; [|discriminate]. injection E as <-.
    destruct (IH r eq_refl) as [H1 H2]. split; [cbn; now rewrite H1|]. intros [|j] i H; cbn in H; [injection H as <-; eauto|]. now apply H2.
Qed.

Lemma seq_perm i : (i < 6)%nat -> nth_error (seq 0 6) i = Some i.
Proof. destruct i as [|[|[|[|[|[|i]]]]]]; try reflexivity. lia. Qed.
Lemma is_perm_of i : (i < 6)%nat -> is_perm (Z.of_nat i).
Proof. intros H. unfold is_perm. lia. Qed.

Section Load.
Variables (U : list triple) (inputs : nat -> option (cfg * list quad)) (pad : list Z) (ls : list (list entry * option ts)).
Hypothesis HU : Forall (terms 39) U.
Hypothesis HP : prepared U inputs.
Hypothesis Hsz : Z.of_nat (length U) < 2 ^ 31.
Hypothesis Hpad : pad_ok pad.
Hypothesis Hls : load_perms (seq 0 6) inputs = Some ls.
Notation L i := (fst (nth i ls ([], None))).
Notation fl i := (snd (nth i ls ([], None))).
Hypothesis Hfl : forall i t f, (i < 6)%nat -> fl i = Some t -> zl (t_file t f) < 2 ^ 40.

Definition stored (i : nat) (l : list (Z * Z)) : bool := match inputs i with Some (g, _) => negb (skipped g l) | None => true end.

Lemma nth_perm i : (i < 6)%nat -> load_perm (inputs i) = Some (L i, fl i).
Proof.
  intros Hi. destruct (load_perms_nth inputs _ _ Hls) as [_ H]. destruct (H i i (seq_perm i Hi)) as (x & Ex & En). rewrite Ex. rewrite (nth_error_nth _ _ _ En). now destruct x.
Qed.

Lemma input_V i g q : (i < 6)%nat -> inputs i = Some (g, q) -> input_ok q /\ distinct (map fst q) = V U i.
Proof.
  intros Hi E. destruct HP as (_ & _ & HQ). destruct (HQ i g q Hi E) as (_ & Ho & _). destruct (C27_loads (Z.of_nat i) U q (is_perm_of i Hi) Ho HU) as [H1 H2]. split; auto.
  apply tlt_eq; [apply nodup_sorted, H1|apply canon_sorted|]. intros x. rewrite H2. symmetry. apply V_In.
Qed.

Lemma loaded i g q : (i < 6)%nat -> inputs i = Some (g, q) -> Loaded (V U i) (stored i) pad (L i) (fl i).
Proof.
  intros Hi E. destruct (input_V i g q Hi E) as [H1 H2]. destruct HP as (_ & _ & HQ). destruct (HQ i g q Hi E) as (_ & _ & Hopt & Hagg).
  pose proof (nth_perm i Hi) as EL. rewrite E in EL. unfold stored. rewrite E. rewrite <- H2.
  assert (HlT : (length (distinct (map fst q)) <= length U)%nat) by (rewrite H2; apply V_length).
  apply perm_loaded; auto.
  - eapply Z.le_lt_trans; [|exact Hsz]. apply inj_le. eapply Nat.le_trans; [apply keys_length|exact HlT].
  - eapply Z.lt_trans; [eapply Z.le_lt_trans; [|exact Hsz]; apply inj_le; exact HlT|]. reflexivity.
  - intros t f Ef. now apply (Hfl i).
Qed.

Lemma absent i : (i < 6)%nat -> inputs i = None -> L i = [] /\ fl i = None.
Proof. intros Hi E. pose proof (nth_perm i Hi) as EL. rewrite E in EL. cbn in EL. injection EL as <- <-. auto. Qed.

Lemma stored_all i l : (i < 3)%nat -> stored i l = true.
Proof.
  intros Hi. unfold stored. destruct (inputs i) as [[g q]|] eqn:E; auto. destruct HP as (_ & _ & HQ). destruct (HQ i g q ltac:(lia) E) as (Hg & _). unfold skipped. rewrite Hg.
  assert (i = 0 \/ i = 1 \/ i = 2)%nat as [-> |[-> | ->]] by lia; reflexivity.
Qed.

Lemma L_keys i : (i < 6)%nat -> inputs i <> None -> map e_key (L i) = filter (fun k => stored i (tab U i k)) (keys (V U i)).
Proof. intros Hi Hn. destruct (inputs i) as [[g q]|] eqn:E; [|congruence]. apply (lo_keys _ _ _ _ _ (loaded i g q Hi E)). Qed.

Lemma L_lists : Lists (fun i => L i).
Proof.
  split.
  - intros i Hi. unfold ascending. destruct (inputs i) as [[g q]|] eqn:E.
    + rewrite L_keys by congruence || auto. apply filter_ss. apply keys_sorted, canon_sorted.
    + destruct (absent i Hi E) as [-> _]. constructor.
  - intros i Hi. destruct (inputs i) as [[g q]|] eqn:E.
    + assert (Hb : inputs (i - 3)%nat <> None) by (apply HP; auto; congruence). rewrite (L_keys i) by (lia || congruence). rewrite (L_keys (i - 3)) by (lia || auto).
      intros k Hk. apply filter_In in Hk. destruct Hk as [Hk _]. apply filter_In. rewrite keys_swap in Hk by lia. split; auto. apply stored_all. lia.
    + destruct (absent i ltac:(lia) E) as [-> _]. intros k [].
  - intros e f He Hf Ek. destruct (inputs 2%nat) as [[g2 q2]|] eqn:E2; [|destruct (absent 2 ltac:(lia) E2) as [E _]; rewrite E in He; destruct He].
    destruct (inputs 5%nat) as [[g5 q5]|] eqn:E5; [|destruct (absent 5 ltac:(lia) E5) as [E _]; rewrite E in Hf; destruct Hf].
    rewrite (lo_n _ _ _ _ _ (loaded 2 g2 q2 ltac:(lia) E2) e He), (lo_n _ _ _ _ _ (loaded 5 g5 q5 ltac:(lia) E5) f Hf), <- Ek.
    fold (tab U 2 (e_key e)) (tab U 5 (e_key e)). pose proof (Permutation_length (tab_perm U 5 (e_key e) ltac:(lia))) as HL. rewrite map_length in HL. cbn [Nat.sub] in HL.
    unfold zl, zlen. now rewrite HL.
Qed.

Lemma L_fields i : (i < 6)%nat -> Forall KbProofs3.fields_ok (L i).
Proof.
  intros Hi. destruct (inputs i) as [[g q]|] eqn:E; [apply (lo_fields _ _ _ _ _ (loaded i g q Hi E))|]. destruct (absent i Hi E) as [-> _]. constructor.
Qed.

Lemma L_length i : (i < 6)%nat -> (length (L i) <= length U)%nat.
Proof.
  intros Hi. destruct (inputs i) as [[g q]|] eqn:E.
  - rewrite <- (map_length e_key). rewrite L_keys by congruence || auto. etransitivity; [apply filter_length_le|]. etransitivity; [apply keys_length|]. apply V_length.
  - destruct (absent i Hi E) as [-> _]. cbn. lia.
Qed.

Lemma load_ok m fuel : (1 <= m)%nat -> (length U + length U + length U < fuel)%nat ->
  exists d, kb_load fuel (m + m) inputs pad = Some d /\ DbOk U stored (fun i => L i) d /\
    (forall i, (i < 6)%nat -> d_present d i = match inputs i with Some _ => true | None => false end) /\ (forall i, d_files d i = fl i) /\
    exists t l, d_root d = RTree t /\ walked t (fun i => L i) l.
Proof.
  intros Hm Hf. destruct (merged_tree m fuel (fun i => L i) Hm L_lists L_fields) as (M & t & EM & Et & (wl & HW) & HT).
  { unfold total. eapply Nat.le_lt_trans; [|exact Hf]. repeat apply Nat.add_le_mono; apply L_length; lia. }
  unfold kb_load. rewrite Hls, EM, Et. eexists. split; [reflexivity|]. split; [|split; [auto|split; [auto|exists t, wl; auto]]]. split; cbn [d_present d_files d_pad].
  - intros i Hi Hp. destruct (inputs i) as [[g q]|] eqn:E; [|discriminate]. now apply (loaded i g q).
  - intros i Hi Hp. destruct (inputs i) as [[g q]|] eqn:E; [discriminate|]. now apply absent.
  - intros i l Hi. now apply stored_all.
  - intros i Hi Hp. destruct HP as (_ & HB & _). specialize (HB i Hi). destruct (inputs i); [|discriminate]. destruct (inputs (i - 3)%nat); auto. exfalso. apply HB; congruence.
  - intros k _ _. unfold kb_lookup. cbn [d_root]. destruct (HT k) as [[-> H]|(l & -> & H)]; [left|right]; eauto.
  - exact Hpad.
Qed.
End Load.
