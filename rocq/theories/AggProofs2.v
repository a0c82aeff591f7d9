(** Scans of a loaded database with the last column skipped. *)
From Coq Require Import Sorted Permutation ZifyBool.
From Verif Require Import AggSpec TallyProofs TallyProofs3 AggProofs TsProofs2.
From Verif Require Import QueryModel QuerySpec SortModel SortSpec InserterModel InserterSpec InserterProps TableProofs ArrayProofs KbModel KbSpec KbProofs KbProofs2 KbProofs4 KbProofs5.
Local Open Scope Z_scope.

(** ** ScanItr *)
Section Scan.
Variables (fuel : nat) (d : db) (idx : nat) (tab : Z -> list (Z * Z)).
Variable lists : list Z -> option titr -> option titr -> Prop.
Variable moved : Z -> list Z -> option titr -> option titr -> Prop.
Hypothesis Hmove : forall ks s, lists ks (sc_1 s) (sc_2 s) -> no_table s ->
  exists s1, sc_move d idx s = Some (nonempty ks, s1) /\ no_table s1 /\ sc_ign s1 = sc_ign s /\ sc_hnc s1 = true /\ sc_hn s1 = nonempty ks /\
    match ks with [] => True | k :: r => moved k r (sc_1 s1) (sc_2 s1) end.
(** The table that next opens, on its first group. *)
Definition on_group (k : Z) (p : Z * Z) (l : list (Z * Z)) (ks : list Z) (s : sc_st) : Prop :=
  exists o o', in_table s o /\ value1 o = fst p /\ getCount o = Some (snd p, o') /\ value1 o' = fst p /\ Counts (with_key k l) o' /\
    sc_hnc s = false /\ sc_ign s = true /\ sc_key s = k /\ lists ks (sc_1 s) (sc_2 s).
Hypothesis Hnext : forall k ks s, moved k ks (sc_1 s) (sc_2 s) -> no_table s -> sc_ign s = true -> sc_hnc s = true ->
  exists p l s2, groups (tab k) = p :: l /\ sc_next fuel d idx s = Some s2 /\ on_group k p l ks s2.

Notation gelems := (elems (fun k => groups (tab k))).
Definition Rest (ks : list Z) : Prop := forall s0 s, no_table s -> sc_ign s = true -> lists ks (sc_1 s) (sc_2 s) -> sc_hasNext d idx s0 = sc_move d idx s ->
  Counts (gelems ks) (sc_obj fuel d idx s0).

Lemma sc_obj_getCount s o : sc_table s = Some o -> getCount (sc_obj fuel d idx s) = match getCount o with Some (c, o1) => Some (c, sc_obj fuel d idx (sc_set s o1)) | None => None end.
Proof. intros E. cbn. now rewrite E. Qed.
Lemma sc_obj_value1 s o : sc_table s = Some o -> value1 (sc_obj fuel d idx s) = value1 o.
Proof. intros E. cbn. now rewrite E. Qed.
Lemma set_in s o o' : in_table s o -> in_table (sc_set s o') o' /\ sc_hnc (sc_set s o') = sc_hnc s /\ sc_ign (sc_set s o') = sc_ign s /\ sc_key (sc_set s o') = sc_key s /\
  sc_1 (sc_set s o') = sc_1 s /\ sc_2 (sc_set s o') = sc_2 s.
Proof. unfold in_table, sc_set. intros [[A B]|[A B]]; rewrite B; cbn; auto 9. Qed.

(** What follows a group. *)
Lemma group_counts k p l ks s g : on_group k p l ks s ->
  (forall o s1, in_table s1 o -> Counts (with_key k l) o -> sc_hnc s1 = false -> sc_ign s1 = true -> sc_key s1 = k -> lists ks (sc_1 s1) (sc_2 s1) -> Counts g (sc_obj fuel d idx s1)) ->
  exists o3, key (sc_obj fuel d idx s) = k /\ value1 (sc_obj fuel d idx s) = fst p /\ getCount (sc_obj fuel d idx s) = Some (snd p, o3) /\ key o3 = k /\ value1 o3 = fst p /\ Counts g o3.
Proof.
  intros (o & o' & Ho & V & E & V' & HC & Hh & Hi & Hk & HL) HG. destruct (set_in s o o' Ho) as (A1 & A2 & A3 & A4 & A5 & A6).
  exists (sc_obj fuel d idx (sc_set s o')). split; [exact Hk|]. split; [rewrite (sc_obj_value1 s o); auto using in_table_table|]. split; [now rewrite (sc_obj_getCount s o (in_table_table _ _ Ho)), E|].
  split; [cbn; congruence|]. split; [rewrite (sc_obj_value1 _ o'); auto using in_table_table|]. apply (HG o'); auto; try congruence; rewrite ?A5, ?A6; auto.
Qed.

Lemma inside_counts k ks : Rest ks -> forall l s o, in_table s o -> Counts (with_key k l) o -> sc_hnc s = false -> sc_ign s = true -> sc_key s = k -> lists ks (sc_1 s) (sc_2 s) ->
  Counts (with_key k l ++ gelems ks) (sc_obj fuel d idx s).
Proof.
  intros HR. induction l as [|p l IH]; intros s o Ho HC Hh Hi Hk HL.
  - cbn [with_key map app] in *. destruct HC as (o1 & E & _). cbn [nonempty] in E.
    assert (E1 : exists s', no_table s' /\ sc_ign s' = true /\ lists ks (sc_1 s') (sc_2 s') /\ sc_hasNext d idx s = sc_move d idx s').
    { unfold sc_hasNext. rewrite Hh. destruct Ho as [[Eu Ev]|[Eu Ev]]; rewrite Eu, ?Ev, E; eexists; (split; [|split; [|split; [|reflexivity]]]); cbn; auto; split; auto. }
    destruct E1 as (s' & A & B & C & D). now apply (HR s s').
  - cbn [with_key map app Counts] in *. destruct HC as (o1 & E & o2 & o3 & E2 & K2 & V2 & E3 & K3 & V3 & HC). cbn [nonempty] in *.
    assert (E1 : exists s1, sc_hasNext d idx s = Some (true, s1) /\ in_table s1 o1 /\ sc_ign s1 = true /\ sc_key s1 = k /\ lists ks (sc_1 s1) (sc_2 s1)).
    { unfold sc_hasNext, in_table. rewrite Hh. destruct Ho as [[Eu Ev]|[Eu Ev]]; rewrite Eu, ?Ev, E; eexists; (split; [reflexivity|]); cbn; auto 9. }
    destruct E1 as (s1 & E1 & A1 & A2 & A3 & A4). exists (sc_obj fuel d idx s1). rewrite sc_obj_hasNext, E1. split; [reflexivity|].
    assert (E4 : exists s2, sc_next fuel d idx s1 = Some s2 /\ in_table s2 o2 /\ sc_hnc s2 = false /\ sc_ign s2 = true /\ sc_key s2 = k /\ lists ks (sc_1 s2) (sc_2 s2)).
    { unfold sc_next, in_table. destruct A1 as [[Eu Ev]|[Eu Ev]]; rewrite Eu, ?Ev, E2; eexists; (split; [reflexivity|]); cbn; auto 9. }
    destruct E4 as (s2 & E4 & B1 & B2 & B3 & B4 & B5). exists (sc_obj fuel d idx s2). rewrite sc_obj_next, E4.
    destruct (group_counts k p l ks s2 (with_key k l ++ gelems ks)) as (o4 & G1 & G2 & G3 & G4 & G5 & G6).
    { exists o2, o3. auto 12. }
    { intros o' s' ? ? ? ? ? ?. now apply (IH s' o'). }
    exists o4. auto 9.
Qed.

Lemma rest_counts ks : Rest ks.
Proof.
  induction ks as [|k ks IH]; intros s0 s Hn Hi HL Eh; destruct (Hmove _ s HL Hn) as (s1 & E1 & N1 & I1 & H1 & _ & M).
  - exists (sc_obj fuel d idx s1). rewrite sc_obj_hasNext, Eh, E1. split; [reflexivity|exact I].
  - destruct (Hnext k ks s1 M N1 ltac:(congruence) H1) as (p & l & s2 & Eg & E2 & HG). unfold elems. cbn [flat_map]. rewrite Eg. cbn [with_key map app Counts].
    exists (sc_obj fuel d idx s1). rewrite sc_obj_hasNext, Eh, E1. split; [reflexivity|]. exists (sc_obj fuel d idx s2). rewrite sc_obj_next, E2.
    destruct (group_counts k p l ks s2 (with_key k l ++ gelems ks) HG) as (o4 & G1 & G2 & G3 & G4 & G5 & G6).
    { intros o' s' ? ? ? ? ? ?. now apply (inside_counts k ks IH l s' o'). }
    exists o4. auto 9.
Qed.

Hypothesis Hsort : forall k, StronglySorted plt (tab k).
Lemma elems_tally ks : StronglySorted Z.lt ks -> is_tally (elems tab ks) (gelems ks).
Proof.
  induction 1 as [|k ks Hs IH Hf]; [split; [constructor|]; intros a b n; cbn; lia|]. unfold elems. cbn [flat_map]. apply tally_app; [now apply groups_tally|exact IH|].
  intros x y Hx Hy. unfold with_key in Hx. apply in_map_iff in Hx. destruct Hx as (e & <- & _). apply in_flat_map in Hy. destruct Hy as (k' & Hk' & Hy). unfold with_key in Hy. apply in_map_iff in Hy. destruct Hy as (e' & <- & _).
  rewrite Forall_forall in Hf. exact (Hf k' Hk').
Qed.
Lemma fresh_tallied ks s : Fresh lists ks s -> StronglySorted Z.lt ks -> Tallied (elems tab ks) (sc_obj fuel d idx s).
Proof.
  intros ((N1 & N2) & Hh & Hi & HL) Hks. set (s1 := mkSc (sc_1 s) (sc_2 s) None None true (sc_hnc s) (sc_hn s) (sc_key s)).
  exists (sc_obj fuel d idx s1), (gelems ks). split; [cbn; unfold sc_ignore; rewrite N1, N2; reflexivity|]. split; [now apply elems_tally|].
  apply (rest_counts ks s1 s1); auto; [split; reflexivity|]. unfold sc_hasNext. cbn. now rewrite Hh.
Qed.
End Scan.

Lemma first_group k l o : Tallied (with_key k l) o -> StronglySorted plt l -> l <> [] ->
  exists p r o1 o2, groups l = p :: r /\ sc_first true o = Some o1 /\ value1 o1 = fst p /\ getCount o1 = Some (snd p, o2) /\ value1 o2 = fst p /\ Counts (with_key k r) o2.
Proof.
  intros (o1 & g & Ei & HT & HC) Hs Hne. rewrite (tally_fun _ _ _ HT (groups_tally k l Hs)) in HC. destruct l as [|x l]; [congruence|]. rewrite (groups_cons x l Hs) in *.
  cbn [with_key map Counts fst snd] in HC. destruct HC as (o2 & E & o3 & o4 & E2 & K2 & V2 & E3 & K3 & V3 & HC). cbn [nonempty] in E. do 2 eexists. exists o3, o4. split; [reflexivity|]. cbn [fst snd].
  unfold sc_first. rewrite Ei, E. auto 9.
Qed.

Section Direct.
Variables (fuel : nat) (d : db) (idx : nat) (tab : Z -> list (Z * Z)) (t : ts) (G : nat -> list table_t).
Hypothesis HS : Stored d idx t G tab.
Hypothesis Hsort : forall k, StronglySorted plt (tab k).

Lemma open_tallied i c : In c (all_coords t G) -> On c i -> exists o, sc_open d idx i = Some o /\ tab (KbProofs.c_key c) <> [] /\ Tallied (with_key (KbProofs.c_key c) (tab (KbProofs.c_key c))) o.
Proof.
  destruct HS as (Hf & HL & HO). intros Hin Hon. rewrite Forall_forall in HO. specialize (HO c Hin). destruct c as [[[k f] p] st].
  destruct Hon as (E1 & E2 & E3 & E4). unfold sc_open. rewrite E4, E1, E2, E3. destruct HO as (Hne & o & Eo & Hy & HC & HA). exists o. split; auto. split; auto. now apply aggregates_tallied.
Qed.

Lemma d_next_tallied : forall k ks s, dmoved t G k ks (sc_1 s) (sc_2 s) -> no_table s -> sc_ign s = true -> sc_hnc s = true ->
  exists p l s2, groups (tab k) = p :: l /\ sc_next fuel d idx s = Some s2 /\ on_group (dlists t G) k p l ks s2.
Proof.
  intros k ks s (E2 & i & c & C & E1 & Ho & Hin & Ek & HR & Hinc & ->) [Hn1 Hn2] Hi Hh. unfold sc_next. rewrite Hn1, Hn2, E2, E1.
  destruct (open_tallied i c Hin Ho) as (o & -> & Hne & HT). rewrite Ek in *. destruct (first_group _ _ _ HT (Hsort k) Hne) as (p & l & o1 & o2 & Eg & Ef & V1 & Ec & V2 & HC).
  assert (Eki : ti_key i = k) by (destruct c as [[[kc fc] pc] sc]; destruct Ho as (Eo & _); cbn in Ek; congruence).
  rewrite Hi, Ef. exists p, l. eexists. split; auto. split; [reflexivity|]. exists o1, o2. split; [left; cbn; auto|]. cbn. split; auto. split; auto. split; auto. split; auto. split; auto. split; auto. split; auto.
  split; auto. exists i, C. auto.
Qed.

Lemma direct_tallied ks s : Fresh (dlists t G) ks s -> StronglySorted Z.lt ks -> Tallied (elems tab ks) (sc_obj fuel d idx s).
Proof. intros H ND. apply (fresh_tallied fuel d idx tab (dlists t G) (dmoved t G)); auto; [apply (d_move d idx tab t G HS)|apply d_next_tallied]. Qed.
End Direct.

Section Reversed.
Variables (fuel : nat) (d : db) (idx : nat) (tab tab2 : Z -> list (Z * Z)) (t2 : ts) (G2 : nat -> list table_t).
Hypothesis Hidx : (2 < idx)%nat.
Hypothesis HS2 : Stored d (idx - 3) t2 G2 tab2.
Hypothesis HS1 : d_files d idx = None \/ exists t1 G1, Stored d idx t1 G1 tab.
Hypothesis Hsort : forall k, StronglySorted plt (tab k).
Hypothesis Htab : forall c, In c (all_coords t2 G2) -> let k := KbProofs.c_key c in Permutation (map (fun e => (snd e, fst e)) (tab2 k)) (tab k) /\ (length (tab2 k) < fuel)%nat.
Hypothesis HND : StronglySorted Z.lt (map KbProofs.c_key (all_coords t2 G2)).

Lemma r_next_tallied : forall k ks s, rmoved d idx tab t2 G2 k ks (sc_1 s) (sc_2 s) -> no_table s -> sc_ign s = true -> sc_hnc s = true ->
  exists p l s2, groups (tab k) = p :: l /\ sc_next fuel d idx s = Some s2 /\ on_group (rlists d idx tab t2 G2) k p l ks s2.
Proof.
  intros k ks s (Ho1 & i & c & C & E2 & Ho & Hin & Ek & HR & Hinc & ->) [Hn1 Hn2] Hi Hh. unfold sc_next. rewrite Hn1, Hn2, E2.
  assert (Eki : ti_key i = k) by (destruct c as [[[kc fc] pc] sc]; destruct Ho as (Eo & _); cbn in Ek; congruence).
  destruct (Htab c Hin) as (Hperm & Hlen). cbv zeta in *. rewrite Ek in *.
  destruct (open_on d (idx - 3) tab2 t2 G2 HS2 i c Hin Ho) as (o & Eo & Hy & Hne). rewrite Ek in Hy, Hne.
  assert (Hrev : exists p l s2, groups (tab k) = p :: l /\
    (do o <- sc_open d (idx - 3) i; do o <- newItrOnReverse fuel o (ti_key i) (-1) (-1); do o <- sc_first (sc_ign s) o;
     Some (mkSc (sc_1 s) (Some i) None (Some o) (sc_ign s) false (sc_hn s) (ti_key i))) = Some s2 /\ on_group (rlists d idx tab t2 G2) k p l (map KbProofs.c_key C) s2).
  { rewrite Eo. destruct (reverse_tallied fuel true _ o (ti_key i) (-1) (tab k) Hy) as (o' & Er & HT); [unfold with_key; now rewrite map_length|lia|auto| |].
    { rewrite <- Hperm. unfold swapped, with_key. rewrite map_map. rewrite filter_all; [apply Permutation_refl|]. intros e _. reflexivity. }
    rewrite Er. rewrite Eki in *. assert (Hne' : tab k <> []). { intros E. rewrite E in Hperm. apply Permutation_length in Hperm. rewrite map_length in Hperm. destruct (tab2 k); [congruence|discriminate]. }
    destruct (first_group _ _ _ HT (Hsort k) Hne') as (p & l & o1 & o2 & Eg & Ef & V1 & Ec & V2 & HC). rewrite Hi, Ef. exists p, l. eexists. split; auto. split; [reflexivity|].
    exists o1, o2. split; [right; cbn; auto|]. cbn. split; auto. split; auto. split; auto. split; auto. split; auto. split; auto. split; auto. split; auto. exists i, C. auto. }
  destruct (sc_1 s) as [j|] eqn:E1; [|exact Hrev]. destruct (Z.eqb_spec (ti_key i) (ti_key j)) as [Ekj|]; [|exact Hrev]. clear Hrev.
  pose proof Ho1 as (t1 & G1 & c1 & C1 & HSt & Hon1 & Hin1 & HR1 & Hinc1).
  destruct (open_tallied d idx tab t1 G1 HSt j c1 Hin1 Hon1) as (o1 & Eo1 & Hne1 & HT). rewrite Eo1.
  assert (Ek1 : KbProofs.c_key c1 = k) by (destruct c1 as [[[kc fc] pc] sc]; destruct Hon1 as (Eoo & _); cbn; congruence). rewrite Ek1 in *.
  destruct (first_group _ _ _ HT (Hsort k) Hne1) as (p & l & o2 & o3 & Eg & Ef & V1 & Ec & V2 & HC). rewrite Hi, Ef. exists p, l. eexists. split; auto. split; [reflexivity|].
  exists o2, o3. split; [left; cbn; auto|]. cbn. split; auto. split; auto. split; auto. split; auto. split; auto. split; auto. split; [congruence|]. split; auto. exists i, C. auto.
Qed.

Lemma reversed_tallied : exists s, sc_init d idx = Some s /\ Tallied (elems tab (map KbProofs.c_key (all_coords t2 G2))) (sc_obj fuel d idx s).
Proof.
  pose proof HS2 as (Hf & HL & HO). unfold sc_init, kb_terms. destruct (Nat.leb_spec idx 2); [lia|]. rewrite Hf. destruct (init_ok _ _ HL) as (i & Ei & HR).
  pose proof (r_move d idx tab tab2 t2 G2 HS2) as RM.
  destruct HS1 as [E1|(t1 & G1 & HSt)].
  - rewrite E1, Ei. eexists. split; [reflexivity|]. apply (fresh_tallied fuel d idx tab (rlists d idx tab t2 G2) (rmoved d idx tab t2 G2)); auto; [apply r_next_tallied|].
    split; [split; auto|]. split; auto. split; auto. split; [exact I|]. exists i, (all_coords t2 G2). repeat split; auto. apply incl_refl.
  - pose proof HSt as (Hf1 & HL1 & HO1). rewrite Hf1, Ei. destruct (init_ok _ _ HL1) as (i1 & -> & HR1).
    destruct (one_step d idx tab t1 G1 _ i1 HSt HR1 (incl_refl _)) as (r & -> & Hr). eexists. split; [reflexivity|].
    apply (fresh_tallied fuel d idx tab (rlists d idx tab t2 G2) (rmoved d idx tab t2 G2)); auto; [apply r_next_tallied|]. split; [split; auto|]. split; auto. split; auto. split; [exact Hr|].
    exists i, (all_coords t2 G2). repeat split; auto. apply incl_refl.
Qed.
End Reversed.

(** ** A loaded database *)
Section Answer.
Variables (U : list triple) (st : nat -> list (Z * Z) -> bool) (L : nat -> list entry) (d : db) (fuel : nat).
Hypothesis HD : DbOk U st L d.
Hypothesis Hfuel : (length U < fuel)%nat.

Lemma scan_all_tallied i : (i < 6)%nat -> kb_present d i = true -> U <> [] -> exists s, sc_init d i = Some s /\ Tallied (V U i) (sc_obj fuel d i s).
Proof.
  intros Hi Hp Hne. assert (EV : elems (tab U i) (keys (V U i)) = V U i) by (apply elems_all, canon_sorted). unfold kb_present in Hp.
  assert (Hks : forall j, StronglySorted Z.lt (keys (V U j))) by (intros j; apply keys_sorted, canon_sorted).
  destruct (Nat.leb_spec 3 i) as [H3|H3].
  - assert (Hpb : d_present d (i - 3) = true).
    { apply Bool.orb_true_iff in Hp. destruct Hp as [Hp|Hp]; auto. apply (db_base _ _ _ _ HD); auto. }
    destruct (base_stored U st L d fuel HD Hfuel (i - 3) ltac:(lia) Hpb Hne) as (t2 & G2 & HS2 & EK). rewrite <- EV, (keys_swap U i), <- EK by lia.
    apply (reversed_tallied fuel d i (tab U i) (tab U (i - 3)) t2 G2); auto.
    + destruct (d_files d i) as [t1|] eqn:Hf; auto. right. destruct (d_present d i) eqn:Hpi.
      * destruct (stored_of U st L d fuel HD Hfuel i t1 Hi Hpi Hf) as (G1 & HS1 & _). eauto.
      * destruct (db_absent _ _ _ _ HD i Hi Hpi) as [_ E]. congruence.
    + intros k. apply tab_sorted.
    + intros c Hc. cbv zeta. split; [apply tab_perm; lia|]. eapply Nat.le_lt_trans; [apply tab_length; lia|auto].
    + rewrite EK. apply Hks.
  - rewrite Bool.orb_false_r in Hp. destruct (base_stored U st L d fuel HD Hfuel i H3 Hp Hne) as (t & G & HS & EK).
    destruct (direct_init d i (tab U i) t G HS ltac:(lia)) as (s & Es & Hfr). exists s. split; auto. rewrite <- EV, <- EK.
    apply (direct_tallied fuel d i (tab U i) t G HS); auto; [intros k; apply tab_sorted|]. rewrite EK. apply Hks.
Qed.

Lemma get_tallied i k l v1 : (i < 6)%nat -> kb_present d i = true -> vok v1 -> (forall j, (j < 6)%nat -> l j = entry_for k (L j)) ->
  exists o, kb_get fuel d i l k v1 (-1) = Some o /\ Tallied (with_key k (filter (pair_matches v1 (-1)) (tab U i k))) o.
Proof.
  intros Hi Hp Hv Hl. unfold kb_get. rewrite (Hl i Hi). destruct (entry_for k (L i)) as [c|] eqn:E.
  - destruct (coord_opens U st L d fuel HD Hfuel i k c v1 (-1) Hi E) as (o & Eo & _ & _ & HA); try (unfold vok in *; lia). exists o. split; auto. apply aggregates_tallied. auto.
  - unfold kb_present in Hp. destruct (Nat.leb_spec 3 i) as [H3|H3].
    + assert (Hpb : d_present d (i - 3) = true).
      { apply Bool.orb_true_iff in Hp. destruct Hp as [Hp|Hp]; auto. apply (db_base _ _ _ _ HD); auto. }
      rewrite (Hl (i - 3)%nat) by lia. destruct (entry_for k (L (i - 3)%nat)) as [c|] eqn:E3.
      * destruct (coord_opens U st L d fuel HD Hfuel (i - 3) k c (-1) (-1) ltac:(lia) E3) as (o & Eo & Hy & _); try (unfold vok; lia). rewrite Eo.
        rewrite all_true in Hy by auto.
        apply (reverse_tallied fuel true _ o k v1 _ Hy).
        { unfold with_key. rewrite map_length. eapply Nat.le_lt_trans; [apply tab_length; lia|auto]. }
        { unfold vok in Hv. lia. }
        { apply filter_ss, tab_sorted. }
        { transitivity (filter (pair_matches v1 (-1)) (map (fun e => (snd e, fst e)) (tab U (i - 3) k))).
          - pose proof (tab_perm U i k ltac:(lia)) as P. clear - P. symmetry. induction P; cbn; auto.
            + destruct (pair_matches v1 (-1) x); auto.
            + destruct (pair_matches v1 (-1) x), (pair_matches v1 (-1) y); auto. constructor.
            + etransitivity; eauto.
          - unfold swapped, with_key. rewrite map_map. cbn [fst snd]. apply Permutation_refl. }
      * exists (empty_itr 0). split; auto. rewrite (no_entry_swap U i k); [apply empty_tallied|lia|]. apply (no_entry U st L d fuel HD Hfuel); auto. lia.
    + rewrite Bool.orb_false_r in Hp. exists (empty_itr 0). split; auto. rewrite (no_entry U st L d fuel HD Hfuel i k) by auto. apply empty_tallied.
Qed.

Lemma base_tallied i s p o : (i < 6)%nat -> kb_present d i = true -> U <> [] -> vok s -> vok p -> vok o -> covers d s -> covers d p -> covers d o -> leading i (s, p, o) ->
  snd (view (Z.of_nat i) (s, p, o)) = -1 ->
  exists it, kb_query fuel d i s p o = Some it /\ Tallied (filter (pat_matches (view (Z.of_nat i) (s, p, o))) (V U i)) it.
Proof.
  intros Hi Hp Hne Hs Hpp Ho Cs Cp Co Hlead Hc1.
  assert (EQ : forall h, kb_base fuel d i s p o = Some (Some h) -> kb_query fuel d i s p o = Some (match h with HItr it => it | HScan x => sc_obj fuel d i x end)) by (intros h0 Eb; unfold kb_query; rewrite Eb; now destruct h0).
  assert (Hv : let '(a, b, c) := view (Z.of_nat i) (s, p, o) in (vok a /\ covers d a) /\ vok b /\ vok c).
  { destruct i as [|[|[|[|[|[|i]]]]]]; cbn; auto. lia. }
  unfold kb_base in EQ. rewrite Hp in EQ. cbn [negb] in EQ. erewrite (split_view U) in EQ by eauto.
  unfold leading in Hlead. destruct (view (Z.of_nat i) (s, p, o)) as [[a b] c]. destruct Hlead as [L1 L2]. destruct Hv as ((Ha & Ca) & Hb & Hc). cbn [fst snd] in Hc1. subst c.
  destruct (Z.leb_spec 0 a) as [H0|H0].
  - assert (EF : filter (pat_matches (a, b, -1)) (V U i) = with_key a (filter (pair_matches b (-1)) (tab U i a))).
    { symmetry. unfold tab. rewrite one_key. apply filter_ext. intros x. unfold pat_matches. replace (a =? -1) with false by lia. reflexivity. }
    rewrite EF. destruct (db_tree _ _ _ _ HD a H0 Ca) as [[Eg HN]|(l & Eg & Hl)]; rewrite Eg in EQ.
    + eexists. split; [apply EQ; reflexivity|]. cbn iota. rewrite (absent_empty U st L d fuel HD Hfuel i a Hi Hp HN). apply empty_tallied.
    + destruct (get_tallied i a l b Hi Hp Hb Hl) as (it & Ei & Hy). rewrite Ei in EQ. eexists. split; [apply EQ; reflexivity|]. exact Hy.
  - unfold vok in *. assert (a = -1) as -> by lia. assert (b = -1) as -> by lia. destruct (scan_all_tallied i Hi Hp Hne) as (x & Ex & Hy). rewrite Ex in EQ. eexists. split; [apply EQ; reflexivity|].
    replace (filter (pat_matches (-1, -1, -1)) (V U i)) with (V U i); auto. symmetry. apply filter_all. intros x0 _. reflexivity.
Qed.
End Answer.
