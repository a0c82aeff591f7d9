(** C44: the dictionary is a bijection over loading and every sequence of updates. *)
From Coq Require Import Permutation ZifyBool.
From Verif Require Import UpdProofs2 DictSpec DictProofs DictProofs2.
Local Open Scope Z_scope.

(** C44, loading: every loaded term, and nothing else, is found in both directions; the
    popular terms get the numbers 0, 1, ..., the others the numbers after them. *)
Theorem C44_loading : forall popular others l m,
  insert_dictionary popular others = (l, m) -> NoDup (popular ++ others) ->
  let n := length (popular ++ others) in
  m = Z.of_nat n - 1 /\
  contains (mkDM [l] [0] [] [] false 0) (combine (popular ++ others) (map Z.of_nat (seq 0 n))).
Proof.
  intros popular others l m H Hn n. destruct (insert_dictionary_ok _ _ _ _ H Hn) as [Hl Hm].
  split; [subst n; lia|]. subst n. fold (numbered (popular ++ others) 0).
  apply (contains_ok l (m + 1) [] [] (numbered (popular ++ others) 0) [] [] false 0); auto.
  - intros t i Hin. apply (in_map snd) in Hin. rewrite numbered_snd in Hin. cbn in Hin.
    apply in_map_iff in Hin. destruct Hin as (x & <- & Hx). apply in_seq in Hx. lia.
  - exact I.
  - constructor.
  - cbn. rewrite app_nil_r. reflexivity.
  - rewrite (numbered_fst (popular ++ others) 0). exact Hn.
  - rewrite (numbered_snd (popular ++ others) 0). apply nodup_of_nat.
Qed.
Print Assumptions C44_loading.

(** C44, in full except for terms with blanks in updates with less than [limit] (10000) new
    terms: after loading and any number of updates the database can be opened, both lookups
    find exactly the terms loaded or added, and the next identifier is above all of them. *)
Theorem C44_dictionary_partial : forall limit fuel enum k A fuel',
  (forall l, Permutation (enum l) l) ->
  history limit fuel enum k A -> (length A < fuel')%nat ->
  exists d next, open_dict fuel' k = Some (d, next) /\ contains d A /\
    (forall t i, In (t, i) A -> 0 <= i < next).
Proof.
  intros limit fuel enum k A fuel' He H Hf.
  destruct (history_inv _ _ _ _ _ He H) as (M & U & order & lg & HI).
  destruct (chain_keys _ _ _ (v_chain _ _ _ _ _ _ HI)) as [ks Hks].
  do 2 eexists. split; [eapply open_ok; eauto|].
  pose proof HI as [A1 A2 A3 A4 A5 A6 HA N1 N2 A10]. split.
  - eapply contains_ok; eauto.
  - intros t i Hin. split; [now apply (A10 t i Hin)|].
    destruct (chain_top _ _ _ A3) as [T1 T2].
    apply (Permutation_in _ HA) in Hin. rewrite !in_app_iff in Hin. destruct Hin as [H'|[H'|H']].
    + specialize (A2 t i H'). lia.
    + specialize (T2 t i H'). lia.
    + apply swap_in in H'. pose proof (proj1 (Forall_forall _ _) A5 _ H') as [_ Hle]. cbn in Hle. lia.
Qed.
Print Assumptions C44_dictionary_partial.

(** C44: the two lookups are inverse of each other. *)
Theorem C44_lookups_are_inverse_partial : forall limit fuel enum k A d next,
  (forall l, Permutation (enum l) l) ->
  history limit fuel enum k A -> open_dict fuel k = Some (d, next) ->
  (forall t i, get_number d t = Some i <-> get_text d i = Some t) /\
  (forall t t' i, get_number d t = Some i -> get_number d t' = Some i -> t = t') /\
  dict_ok (get_number d) next.
Proof.
  intros limit fuel enum k A d next He H Ho.
  destruct (C44_dictionary_partial _ _ _ _ _ (fuel + S (length A)) He H ltac:(lia)) as (d' & n' & Ho' & C & R).
  apply (open_dict_mono _ (fuel + S (length A))) in Ho; [|lia].
  rewrite Ho in Ho'. injection Ho' as <- <-.
  assert (H1 : forall t i, get_number d t = Some i <-> get_text d i = Some t).
  { intros t i. destruct (C t i) as [C1 C2]. now rewrite C1, C2. }
  assert (H2 : forall t t' i, get_number d t = Some i -> get_number d t' = Some i -> t = t').
  { intros t t' i E E'. apply H1 in E, E'. congruence. }
  split; auto. split; auto. split; [|split; auto].
  - destruct (history_inv _ _ _ _ _ He H) as (M & U & order & lg & HI).
    destruct (chain_keys _ _ _ (v_chain _ _ _ _ _ _ HI)) as [ks Hks].
    pose proof (open_any _ _ _ _ _ _ _ ks _ HI Hks Ho) as E. injection E as _ ->.
    pose proof (v_largest _ _ _ _ _ _ HI). lia.
  - intros t i E. apply C in E. eauto.
Qed.
Print Assumptions C44_lookups_are_inverse_partial.

(** C44: every update with new terms can be recorded. *)
Theorem C44_update_can_be_recorded : forall limit fuel enum k A new,
  (forall l, Permutation (enum l) l) ->
  history limit fuel enum k A -> (length A < fuel)%nat ->
  exists k', record_terms limit fuel enum k new = Some k'.
Proof.
  intros limit fuel enum k A new He H Hf.
  destruct (C44_dictionary_partial _ _ _ _ _ fuel He H Hf) as (d & next & Ho & _).
  unfold record_terms. rewrite Ho. destruct (write_dict limit d new) as [d1 up]. eauto.
Qed.
Print Assumptions C44_update_can_be_recorded.

(** Example: two popular terms and one other, a small update, a large one (the limit is 2)
    with a blank in a term, and a small one again; the enumeration of the hash map is reversed. *)
Definition ex_first : disk :=
  let '(l, m) := insert_dictionary [[60]; [61]] [[62; 62]] in mkDisk l (m + 1) [] None.
Definition ex_rec (k : disk) (new : list (text * Z)) : disk :=
  match record_terms 2 20 (@rev _) k new with Some k' => k' | None => k end.
Definition ex_open (k : disk) : dm * Z :=
  match open_dict 20 k with Some x => x | None => (mkDM [] [] [] [] false 0, 0) end.
Definition ex_A0 : list (text * Z) := [([60], 0); ([61], 1); ([62; 62], 2)].
Definition ex_n1 : list (text * Z) := [([70; 71], 3)].
Definition ex_n2 : list (text * Z) := [([81; 32; 49], 5); ([80], 4)].
Definition ex_n3 : list (text * Z) := [([90], 6)].
Definition ex_k1 := ex_rec ex_first ex_n1.
Definition ex_k2 := ex_rec ex_k1 ex_n2.
Definition ex_k3 := ex_rec ex_k2 ex_n3.

Lemma ex_step k A new : history 2 20 (@rev _) k A ->
  open_dict 20 k = Some (ex_open k) -> new_terms A (snd (ex_open k)) new ->
  ((length new < 2)%nat -> Forall (fun e => plain (fst e)) new) ->
  record_terms 2 20 (@rev _) k new = Some (ex_rec k new) ->
  history 2 20 (@rev _) (ex_rec k new) (A ++ new).
Proof. intros. destruct (ex_open k) as [d n]. eapply h_update; eauto. Qed.

Lemma ex_new_ok A next v new : next = v ->
  NoDup (map fst (A ++ new)) -> NoDup (map snd new) ->
  Forall (fun e => v <= snd e < 2 ^ 63) new -> new_terms A next new.
Proof.
  intros -> H1 H2 H3. rewrite map_app in H1. split; [|split; auto].
  - now apply nodup_app_r in H1.
  - intros t i Hin. split.
    + intros Ht. eapply nodup_app_disj; [exact H1|exact Ht|]. apply in_map_iff. now exists (t, i).
    + exact (proj1 (Forall_forall _ _) H3 _ Hin).
Qed.

Example C44_nonvacuous :
  history 2 20 (@rev _) ex_k3 (((ex_A0 ++ ex_n1) ++ ex_n2) ++ ex_n3) /\
  (forall l : list (Z * text), Permutation (rev l) l) /\
  snd (ex_open ex_k3) = 7 /\ length (ups ex_k3) = 1%nat /\
  get_text (fst (ex_open ex_k3)) 5 = Some [81; 32; 49] /\
  get_number (fst (ex_open ex_k3)) [70; 71] = Some 3.
Proof.
  split; [|split; [intros; apply Permutation_sym, Permutation_rev|vm_compute; auto]].
  assert (H0 : history 2 20 (@rev _) ex_first ex_A0).
  { apply (h_load 2 20 (@rev _) [[60]; [61]] [[62; 62]]).
    - vm_compute. reflexivity.
    - repeat constructor; cbn; intuition discriminate.
    - cbn. lia. }
  assert (H1 : history 2 20 (@rev _) ex_k1 (ex_A0 ++ ex_n1)).
  { unfold ex_k1. apply (ex_step ex_first ex_A0 ex_n1 H0);
    [vm_compute; reflexivity| | |vm_compute; reflexivity].
    - apply ex_new_ok with 3; [vm_compute; reflexivity| | |]; repeat constructor; cbn; try lia; intuition discriminate.
    - intros _. repeat constructor; discriminate. }
  assert (H2 : history 2 20 (@rev _) ex_k2 ((ex_A0 ++ ex_n1) ++ ex_n2)).
  { unfold ex_k2. apply (ex_step ex_k1 _ ex_n2 H1);
    [vm_compute; reflexivity| | |vm_compute; reflexivity].
    - apply ex_new_ok with 4; [vm_compute; reflexivity| | |]; repeat constructor; cbn; try lia; intuition discriminate.
    - intros H. cbn in H. lia. }
  unfold ex_k3. apply (ex_step ex_k2 _ ex_n3 H2); [vm_compute; reflexivity| | |vm_compute; reflexivity].
  - apply ex_new_ok with 6; [vm_compute; reflexivity| | |]; repeat constructor; cbn; try lia; intuition discriminate.
  - intros _. repeat constructor; discriminate.
Qed.

(** ** Terms with blanks *)

(** C44 is wrong for a term with a blank: the database can be written but not opened
    again.  The reader of the file of the small updates does not stop, however long it runs:
    after "5", TAB, "a blank b" it fails to read a number and never reaches the end. *)
Theorem C44_blank_database_cannot_be_opened_refuted : forall limit, (2 <= limit)%nat ->
  exists (popular others : list text) (l : layer) (m : Z) (new : list (text * Z)) (k' : disk),
    insert_dictionary popular others = (l, m) /\ NoDup (popular ++ others) /\
    new_terms (combine (popular ++ others) (map Z.of_nat (seq 0 (length (popular ++ others))))) (m + 1) new /\
    record_terms limit 20 (fun x => x) (mkDisk l (m + 1) [] None) new = Some k' /\
    forall fuel, open_dict fuel k' = None.
Proof.
  intros limit Hlim. exists [[60]], [], (mkL [([60], 0)] [(0, 0%nat)] [[60]]), 0, [([34; 97; 32; 98; 34], 1)].
  exists (mkDisk (mkL [([60], 0)] [(0, 0%nat)] [[60]]) 1 [] (Some [49; 10; 49; 9; 34; 97; 32; 98; 34; 10])).
  split; [reflexivity|]. split; [repeat constructor; cbn; tauto|]. split; [|split].
  - split; [|split].
    + repeat constructor; cbn; tauto.
    + repeat constructor; cbn; tauto.
    + intros t i [H|[]]. injection H as <- <-. cbn. split; [intuition discriminate|lia].
  - unfold record_terms, write_dict. cbn [length].
    replace (1 <? limit)%nat with true by lia. reflexivity.
  - intros fuel.
    assert (Hstuck : forall f l d, gud_loop f (mkIS l true false) d = None).
    { induction f as [|f IH]; intros l d; cbn; auto. }
    unfold open_dict, new_dm. cbn.
    destruct fuel as [|fuel]; cbn; [reflexivity|].
    destruct fuel as [|fuel]; cbn; [reflexivity|]. now rewrite Hstuck.
Qed.
Print Assumptions C44_blank_database_cannot_be_opened_refuted.

(** C44 is wrong for a blank followed by a number: the database is opened, but the term is
    cut, and the rest of it is taken for another term. *)
Theorem C44_blank_changes_the_terms_refuted : forall limit, (2 <= limit)%nat ->
  exists (popular others : list text) (l : layer) (m : Z) (new : list (text * Z)) (k' : disk) d next,
    insert_dictionary popular others = (l, m) /\ NoDup (popular ++ others) /\
    new_terms (combine (popular ++ others) (map Z.of_nat (seq 0 (length (popular ++ others))))) (m + 1) new /\
    record_terms limit 20 (fun x => x) (mkDisk l (m + 1) [] None) new = Some k' /\
    open_dict 20 k' = Some (d, next) /\
    In ([97; 32; 55; 32; 98], 1) new /\
    get_number d [97; 32; 55; 32; 98] = None /\ get_text d 1 = Some [97] /\ get_text d 7 = Some [98].
Proof.
  intros limit Hlim. exists [[60]], [], (mkL [([60], 0)] [(0, 0%nat)] [[60]]), 0, [([97; 32; 55; 32; 98], 1)].
  exists (mkDisk (mkL [([60], 0)] [(0, 0%nat)] [[60]]) 1 [] (Some [49; 10; 49; 9; 97; 32; 55; 32; 98; 10])).
  exists (fst (ex_open (mkDisk (mkL [([60], 0)] [(0, 0%nat)] [[60]]) 1 [] (Some [49; 10; 49; 9; 97; 32; 55; 32; 98; 10])))), 2.
  split; [reflexivity|]. split; [repeat constructor; cbn; tauto|]. split; [|split].
  - split; [|split].
    + repeat constructor; cbn; tauto.
    + repeat constructor; cbn; tauto.
    + intros t i [H|[]]. injection H as <- <-. cbn. split; [intuition discriminate|lia].
  - unfold record_terms, write_dict. cbn [length].
    replace (1 <? limit)%nat with true by lia. reflexivity.
  - vm_compute. intuition.
Qed.
Print Assumptions C44_blank_changes_the_terms_refuted.
