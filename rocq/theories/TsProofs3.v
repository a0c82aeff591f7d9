(** The iterators of a loaded database move forward as index scans need it. *)
From Coq Require Import Sorted Permutation ZifyBool.
From Verif Require Import DomModel DomProps TsModel TsSpec TsProofs TsProofs2.
From Verif Require Import QueryModel QuerySpec SortModel SortSpec InserterModel InserterSpec InserterProps ArrayProofs KbModel KbSpec KbProofs KbProofs2 KbProofs4 KbProofs5.
Local Open Scope Z_scope.

Section Answer.
Variables (top : Z) (U : list triple) (st : nat -> list (Z * Z) -> bool) (L : nat -> list entry) (d : db) (fuel : nat).
Hypothesis HD : DbOk U st L d.
Hypothesis Hfuel : (length U < fuel)%nat.

Lemma scan_all_seek i : (i < 6)%nat -> kb_present d i = true -> U <> [] -> exists s, sc_init d i = Some s /\ Seek top (V U i) (sc_obj fuel d i s).
Proof.
  intros Hi Hp Hne. assert (EV : elems (tab U i) (keys (V U i)) = V U i) by (apply elems_all, canon_sorted). unfold kb_present in Hp.
  destruct (Nat.leb_spec 3 i) as [H3|H3].
  - assert (Hpb : d_present d (i - 3) = true).
    { apply Bool.orb_true_iff in Hp. destruct Hp as [Hp|Hp]; auto. apply (db_base _ _ _ _ HD); auto. }
    destruct (base_stored U st L d fuel HD Hfuel (i - 3) ltac:(lia) Hpb Hne) as (t2 & G2 & HS2 & EK). rewrite <- EV, (keys_swap U i), <- EK by lia.
    apply (reversed_seek top fuel d i (tab U i) (tab U (i - 3)) t2 G2); auto.
    + destruct (d_files d i) as [t1|] eqn:Hf; auto. right. destruct (d_present d i) eqn:Hpi.
      * destruct (stored_of U st L d fuel HD Hfuel i t1 Hi Hpi Hf) as (G1 & HS1 & _). eauto.
      * destruct (db_absent _ _ _ _ HD i Hi Hpi) as [_ E]. congruence.
    + intros c Hc. cbv zeta. split; [apply plt_ple, tab_sorted|]. split; [apply tab_perm; lia|]. eapply Nat.le_lt_trans; [apply tab_length; lia|auto].
    + rewrite EK. unfold keys. apply NoDup_nodup.
  - rewrite Bool.orb_false_r in Hp. destruct (base_stored U st L d fuel HD Hfuel i H3 Hp Hne) as (t & G & HS & EK).
    destruct (direct_init d i (tab U i) t G HS ltac:(lia)) as (s & Es & Hfr). exists s. split; auto. rewrite <- EV, <- EK.
    apply (direct_seek top fuel d i (tab U i) t G HS); auto. rewrite EK. unfold keys. apply NoDup_nodup.
Qed.

Lemma get_seek i k l : (i < 6)%nat -> kb_present d i = true -> (forall j, (j < 6)%nat -> l j = entry_for k (L j)) ->
  exists o, kb_get fuel d i l k (-1) (-1) = Some o /\ Seek top (with_key k (tab U i k)) o.
Proof.
  intros Hi Hp Hl. unfold kb_get. rewrite (Hl i Hi). destruct (entry_for k (L i)) as [c|] eqn:E.
  - destruct (coord_opens U st L d fuel HD Hfuel i k c (-1) (-1) Hi E) as (o & Eo & _ & HC & _); try (unfold vok; lia). destruct (HC eq_refl) as (bk & HC'). exists o. split; auto. eapply cursor_seek; eauto.
  - unfold kb_present in Hp. destruct (Nat.leb_spec 3 i) as [H3|H3].
    + assert (Hpb : d_present d (i - 3) = true).
      { apply Bool.orb_true_iff in Hp. destruct Hp as [Hp|Hp]; auto. apply (db_base _ _ _ _ HD); auto. }
      rewrite (Hl (i - 3)%nat) by lia. destruct (entry_for k (L (i - 3)%nat)) as [c|] eqn:E3.
      * destruct (coord_opens U st L d fuel HD Hfuel (i - 3) k c (-1) (-1) ltac:(lia) E3) as (o & Eo & Hy & _); try (unfold vok; lia). rewrite Eo.
        rewrite all_true in Hy by auto.
        destruct (reverse_seek top fuel true _ o k Hy) as (o' & R & Er & Hy' & HsR & HpR).
        { unfold with_key. rewrite map_length. eapply Nat.le_lt_trans; [apply tab_length; lia|auto]. }
        exists o'. split; auto. replace (tab U i k) with R; auto. apply ple_sorted_eq; auto.
        { apply plt_ple, tab_sorted. }
        rewrite HpR. rewrite <- (tab_perm U i k ltac:(lia)). unfold swapped, with_key. rewrite map_map. cbn [fst snd]. apply Permutation_refl.
      * exists (empty_itr 0). split; auto. rewrite (no_entry_swap U i k); [apply empty_seek|lia|]. apply (no_entry U st L d fuel HD Hfuel); auto. lia.
    + rewrite Bool.orb_false_r in Hp. exists (empty_itr 0). split; auto. rewrite (no_entry U st L d fuel HD Hfuel i k) by auto. apply empty_seek.
Qed.

Lemma base_seek i s p o : (i < 6)%nat -> kb_present d i = true -> U <> [] -> vok s -> vok p -> vok o -> covers d s -> covers d p -> covers d o -> leading i (s, p, o) ->
  (let b := snd (fst (view (Z.of_nat i) (s, p, o))) in b < 0 \/ b = top) ->
  exists it, kb_query fuel d i s p o = Some it /\ Seek top (filter (pat_matches (view (Z.of_nat i) (s, p, o))) (V U i)) it.
Proof.
  intros Hi Hp Hne Hs Hpp Ho Cs Cp Co Hlead Hb.
  assert (EQ : forall h, kb_base fuel d i s p o = Some (Some h) -> kb_query fuel d i s p o = Some (match h with HItr it => it | HScan x => sc_obj fuel d i x end)) by (intros h0 Eb; unfold kb_query; rewrite Eb; now destruct h0).
  assert (Hv : let '(a, b, c) := view (Z.of_nat i) (s, p, o) in (vok a /\ covers d a) /\ vok b /\ vok c).
  { destruct i as [|[|[|[|[|[|i]]]]]]; cbn; auto. lia. }
  cbv zeta in Hb. destruct (Z_lt_le_dec (snd (fst (view (Z.of_nat i) (s, p, o)))) 0) as [Nb|Pb].
  2:{ destruct (base_yields U st L d fuel HD Hfuel i s p o Hi Hp Hne Hs Hpp Ho Cs Cp Co Hlead) as (h & Eh & Hy).
      exists (match h with HItr it => it | HScan x => sc_obj fuel d i x end). split; [now apply EQ|]. destruct Hb as [Hb|Hb]; [lia|]. rewrite <- Hb. eapply yields_seek; [exact Hy|]. rewrite Forall_forall. intros e He. apply filter_In in He. destruct He as [_ He].
      unfold pat_matches in He. destruct (view (Z.of_nat i) (s, p, o)) as [[a b] c]. cbn [fst snd] in *. unfold pair_matches in He. unfold c2. cbn [fst snd] in *. lia. }
  clear Hb. unfold kb_base in EQ. rewrite Hp in EQ. cbn [negb] in EQ. erewrite (split_view U) in EQ by eauto.
  unfold leading in Hlead. destruct (view (Z.of_nat i) (s, p, o)) as [[a b] c]. destruct Hlead as [L1 L2]. destruct Hv as ((Ha & Ca) & Hb & Hc). unfold vok in *. cbn [fst snd] in Nb.
  assert (b = -1) as -> by lia. assert (c = -1) as -> by lia.
  destruct (Z.leb_spec 0 a) as [H0|H0].
  - assert (EF : filter (pat_matches (a, -1, -1)) (V U i) = with_key a (tab U i a)).
    { transitivity (with_key a (filter (pair_matches (-1) (-1)) (tab U i a))); [|now rewrite all_true]. unfold tab. rewrite one_key. apply filter_ext. intros x. unfold pat_matches. replace (a =? -1) with false by lia. reflexivity. }
    rewrite EF. destruct (db_tree _ _ _ _ HD a H0 Ca) as [[Eg HN]|(l & Eg & Hl)]; rewrite Eg in EQ.
    + eexists. split; [apply EQ; reflexivity|]. cbn iota. rewrite (absent_empty U st L d fuel HD Hfuel i a Hi Hp HN). apply empty_seek.
    + destruct (get_seek i a l Hi Hp Hl) as (it & Ei & Hy). rewrite Ei in EQ. eexists. split; [apply EQ; reflexivity|]. exact Hy.
  - assert (a = -1) as -> by lia. destruct (scan_all_seek i Hi Hp Hne) as (x & Ex & Hy). rewrite Ex in EQ. eexists. split; [apply EQ; reflexivity|].
    replace (filter (pat_matches (-1, -1, -1)) (V U i)) with (V U i); auto. symmetry. apply filter_all. intros x0 _. reflexivity.
Qed.
End Answer.
