(** Scans over a permutation: ScanItr. *)
From Coq Require Import Sorted Permutation ZifyBool.
From Verif Require Export ArrayProofs KbProofs.
From Verif Require TallySpec.
Local Open Scope Z_scope.

(** A coordinate leads to the pairs [tab k]. *)
Definition Opens (d : db) (i : nat) (tab : Z -> list (Z * Z)) (c : coords) : Prop :=
  let '(k, f, p, s) := c in tab k <> [] /\ exists o, kb_open d i k f p s (-1) (-1) = Some o /\ Yields true (with_key k (tab k)) o /\ (exists bk, Cursor k bk (tab k) o) /\ TallySpec.Aggregates (with_key k (tab k)) o.
(** Permutation [i] is stored in [t]. *)
Definition Stored (d : db) (i : nat) (t : ts) (G : nat -> list table_t) (tab : Z -> list (Z * Z)) : Prop :=
  d_files d i = Some t /\ Listing t G /\ Forall (Opens d i tab) (all_coords t G).

Definition elems (tab : Z -> list (Z * Z)) (ks : list Z) : list elem := flat_map (fun k => with_key k (tab k)) ks.

Section Scan.
Variables (fuel : nat) (d : db) (idx : nat) (tab : Z -> list (Z * Z)) (cnt : bool).

(** What is needed of the state of the lists of terms: [Fresh ks s], the keys [ks] are left;
    [Moved k ks s], the lists are on key [k], whose table was not opened yet. *)
Variable lists : list Z -> option titr -> option titr -> Prop.
Variable moved : Z -> list Z -> option titr -> option titr -> Prop.

Definition no_table (s : sc_st) : Prop := sc_cur s = None /\ sc_rev s = None.
Definition Fresh (ks : list Z) (s : sc_st) : Prop := no_table s /\ sc_hnc s = false /\ sc_ign s = false /\ lists ks (sc_1 s) (sc_2 s).
Definition Inside (k : Z) (l : list (Z * Z)) (ks : list Z) (s : sc_st) : Prop :=
  exists o, ((sc_cur s = Some o /\ sc_rev s = None) \/ (sc_cur s = None /\ sc_rev s = Some o)) /\ Yields cnt (with_key k l) o /\
    sc_hnc s = false /\ sc_ign s = false /\ sc_key s = k /\ lists ks (sc_1 s) (sc_2 s).

Hypothesis Hmove : forall ks s, lists ks (sc_1 s) (sc_2 s) -> no_table s ->
  exists s1, sc_move d idx s = Some (nonempty ks, s1) /\ no_table s1 /\ sc_ign s1 = sc_ign s /\ sc_hnc s1 = true /\ sc_hn s1 = nonempty ks /\
    match ks with [] => True | k :: r => moved k r (sc_1 s1) (sc_2 s1) end.
Hypothesis Hnext : forall k ks s, moved k ks (sc_1 s) (sc_2 s) -> no_table s -> sc_ign s = false -> sc_hnc s = true ->
  exists p l s2, tab k = p :: l /\ sc_next fuel d idx s = Some s2 /\ Inside k l ks s2 /\
    (exists o, sc_table s2 = Some o /\ value1 o = fst p /\ value2 o = snd p /\ (cnt = true -> exists c, getCount o = Some (c, o))).

Lemma sc_hasNext_hnc s : sc_hnc s = true -> sc_hasNext d idx s = Some (sc_hn s, s).
Proof. intros H. unfold sc_hasNext. now rewrite H. Qed.

Lemma sc_set_same s o : sc_table s = Some o -> sc_set s o = s.
Proof. unfold sc_table, sc_set. destruct s as [a b c e f g h i]; cbn. destruct e; [congruence|]. intros ->. reflexivity. Qed.

Lemma sc_obj_hasNext s : hasNext (sc_obj fuel d idx s) = match sc_hasNext d idx s with Some (b, s1) => Some (b, sc_obj fuel d idx s1) | None => None end.
Proof. reflexivity. Qed.
Lemma sc_obj_next s : next (sc_obj fuel d idx s) = match sc_next fuel d idx s with Some s1 => Some (sc_obj fuel d idx s1) | None => None end.
Proof. reflexivity. Qed.
Lemma sc_obj_cur s o : sc_table s = Some o -> cur (sc_obj fuel d idx s) = (sc_key s, value1 o, value2 o).
Proof. intros H. unfold cur. cbn. now rewrite H. Qed.
Lemma sc_obj_count s o c : sc_table s = Some o -> getCount o = Some (c, o) -> getCount (sc_obj fuel d idx s) = Some (c, sc_obj fuel d idx s).
Proof. intros H E. cbn. rewrite H, E. now rewrite sc_set_same. Qed.

(** The table that was polled. *)
Lemma inside_poll k l ks s : Inside k l ks s -> l <> [] ->
  exists s1, sc_hasNext d idx s = Some (true, s1) /\ sc_hasNext d idx s1 = Some (true, s1) /\
    exists p l' s2, l = p :: l' /\ sc_next fuel d idx s1 = Some s2 /\ Inside k l' ks s2 /\
      (exists o, sc_table s2 = Some o /\ value1 o = fst p /\ value2 o = snd p /\ (cnt = true -> exists c, getCount o = Some (c, o))).
Proof.
  intros (o & Ho & Hy & Hh & Hi & Hk & HL) Hne. destruct l as [|p l']; [congruence|]. cbn [with_key map] in Hy.
  destruct (Yields_poll _ _ _ Hy) as (o1 & E1 & _ & o2 & E2 & Ec & Hc & Hy2). cbn [nonempty] in E1.
  unfold sc_hasNext. rewrite Hh. destruct Ho as [[Eu Ev]|[Eu Ev]]; rewrite Eu, ?Ev, E1; eexists; (split; [reflexivity|]); cbn [sc_hnc sc_hn]; (split; [reflexivity|]);
    exists p, l'; unfold sc_next; cbn [sc_cur sc_rev sc_1 sc_2 sc_ign sc_hn sc_key]; rewrite E2; eexists; (split; [reflexivity|]); (split; [reflexivity|]);
    (split; [exists o2; cbn; rewrite ?Ev; split; [auto|]; split; [exact Hy2|]; auto|]);
    exists o2; unfold cur in Ec; injection Ec as _ Ea Eb; cbn; rewrite ?Ev; auto.
Qed.

Lemma inside_end k ks s : Inside k [] ks s -> exists s', no_table s' /\ sc_ign s' = false /\ lists ks (sc_1 s') (sc_2 s') /\
  sc_hasNext d idx s = sc_move d idx s'.
Proof.
  intros (o & Ho & Hy & Hh & Hi & Hk & HL). destruct (Yields_poll _ _ _ Hy) as (o1 & E1 & _). cbn [with_key map nonempty] in E1.
  unfold sc_hasNext. rewrite Hh. destruct Ho as [[Eu Ev]|[Eu Ev]]; rewrite Eu, ?Ev, E1; eexists; (split; [|split; [|split; [|reflexivity]]]); cbn; auto; split; auto.
Qed.

Lemma fresh_poll ks s : Fresh ks s -> sc_hasNext d idx s = sc_move d idx s.
Proof. intros ((E1 & E2) & Hh & _). unfold sc_hasNext. now rewrite Hh, E1, E2. Qed.

Lemma moved_yields ks : (ks <> [] -> forall k l s, Inside k l (tl ks) s -> Yields cnt (with_key k l ++ elems tab (tl ks)) (sc_obj fuel d idx s)) ->
  forall s0 s, no_table s -> sc_ign s = false -> lists ks (sc_1 s) (sc_2 s) -> sc_hasNext d idx s0 = sc_move d idx s ->
  Yields cnt (elems tab ks) (sc_obj fuel d idx s0).
Proof.
  intros IH s0 s Hn Hi HL Eh. destruct (Hmove ks s HL Hn) as (s1 & E1 & Hn1 & Hi1 & Hh1 & Hv1 & Hm). rewrite E1 in Eh.
  destruct ks as [|k r].
  - apply (Yields_intro cnt [] _ (sc_obj fuel d idx s1)); auto.
    + rewrite sc_obj_hasNext, Eh. reflexivity.
    + rewrite sc_obj_hasNext, sc_hasNext_hnc, Hv1; auto.
  - rewrite Hi in Hi1. destruct (Hnext k r s1 Hm Hn1 Hi1 Hh1) as (p & l & s2 & Et & E2 & HI & o & Eo & Ea & Eb & Hc).
    assert (El : elems tab (k :: r) = (k, fst p, snd p) :: with_key k l ++ elems tab r) by (unfold elems; cbn [flat_map]; rewrite Et; reflexivity).
    apply (Yields_intro cnt _ _ (sc_obj fuel d idx s1)).
    + rewrite sc_obj_hasNext, Eh, El. reflexivity.
    + rewrite sc_obj_hasNext, sc_hasNext_hnc, Hv1, El; auto.
    + rewrite El. exists (sc_obj fuel d idx s2). rewrite sc_obj_next, E2. split; auto. split; [|split].
      * rewrite (sc_obj_cur _ _ Eo). destruct HI as (o' & _ & _ & _ & _ & Ek & _). now rewrite Ek, Ea, Eb.
      * intros Hcnt. destruct (Hc Hcnt) as [c Ecn]. exists c. now apply (sc_obj_count _ o).
      * apply IH; auto. discriminate.
Qed.

Lemma inside_yields ks : (forall s0 s, no_table s -> sc_ign s = false -> lists ks (sc_1 s) (sc_2 s) -> sc_hasNext d idx s0 = sc_move d idx s ->
    Yields cnt (elems tab ks) (sc_obj fuel d idx s0)) ->
  forall k l s, Inside k l ks s -> Yields cnt (with_key k l ++ elems tab ks) (sc_obj fuel d idx s).
Proof.
  intros IH k l. induction l as [|p l IHl]; intros s HI.
  - destruct (inside_end _ _ _ HI) as (s' & H1 & H2 & H3 & H4). cbn [with_key map app]. now apply (IH s s').
  - destruct (inside_poll _ _ _ _ HI) as (s1 & E1 & E1' & p' & l' & s2 & El & E2 & HI2 & o & Eo & Ea & Eb & Hc); [discriminate|]. injection El as <- <-.
    cbn [with_key map app]. apply (Yields_intro cnt _ _ (sc_obj fuel d idx s1)).
    + rewrite sc_obj_hasNext, E1. reflexivity.
    + rewrite sc_obj_hasNext, E1'. reflexivity.
    + exists (sc_obj fuel d idx s2). rewrite sc_obj_next, E2. split; auto. split; [|split].
      * rewrite (sc_obj_cur _ _ Eo). destruct HI2 as (o' & _ & _ & _ & _ & Ek & _). now rewrite Ek, Ea, Eb.
      * intros Hcnt. destruct (Hc Hcnt) as [c Ecn]. exists c. now apply (sc_obj_count _ o).
      * now apply IHl.
Qed.

Lemma scan_yields ks : (forall s0 s, no_table s -> sc_ign s = false -> lists ks (sc_1 s) (sc_2 s) -> sc_hasNext d idx s0 = sc_move d idx s ->
    Yields cnt (elems tab ks) (sc_obj fuel d idx s0)).
Proof.
  induction ks as [|k r IH]; apply moved_yields; [congruence|]. intros _. cbn [tl]. now apply inside_yields.
Qed.

Lemma fresh_yields ks s : Fresh ks s -> Yields cnt (elems tab ks) (sc_obj fuel d idx s).
Proof. intros H. pose proof (fresh_poll _ _ H) as E. destruct H as (H1 & H2 & H3 & H4). now apply (scan_yields ks s s). Qed.
End Scan.

(** ** A permutation with tables for all keys *)
Section Direct.
Variables (fuel : nat) (d : db) (idx : nat) (tab : Z -> list (Z * Z)) (t : ts) (G : nat -> list table_t).
Hypothesis HS : Stored d idx t G tab.

Definition dlists (ks : list Z) (a b : option titr) : Prop :=
  b = None /\ exists i C, a = Some i /\ Rem t G C i /\ incl C (all_coords t G) /\ ks = map c_key C.
Definition dmoved (k : Z) (ks : list Z) (a b : option titr) : Prop :=
  b = None /\ exists i c C, a = Some i /\ On c i /\ In c (all_coords t G) /\ c_key c = k /\ Rem t G C i /\ incl C (all_coords t G) /\ ks = map c_key C.

Lemma d_move : forall ks s, dlists ks (sc_1 s) (sc_2 s) -> no_table s ->
  exists s1, sc_move d idx s = Some (nonempty ks, s1) /\ no_table s1 /\ sc_ign s1 = sc_ign s /\ sc_hnc s1 = true /\ sc_hn s1 = nonempty ks /\
    match ks with [] => True | k :: r => dmoved k r (sc_1 s1) (sc_2 s1) end.
Proof.
  destruct HS as (Hf & HL & HO). intros ks s (E2 & i & C & E1 & HR & Hin & ->) [Hn1 Hn2]. unfold sc_move. rewrite E2, E1, Hf.
  destruct C as [|c C].
  - destruct (step_nil _ _ HL _ HR) as (i1 & -> & _). eexists. split; [reflexivity|]. repeat split; auto.
  - destruct (step_cons _ _ HL _ _ _ HR) as (i1 & i2 & -> & -> & Ho & HR2). eexists. split; [reflexivity|]. cbn [map nonempty].
    split; [split; auto|]. split; [auto|]. split; [auto|]. split; [auto|]. split; [auto|]. exists i2, c, C. split; auto. split; auto. split; [apply Hin; now left|].
    split; auto. split; auto. split; auto. intros x Hx. apply Hin. now right.
Qed.

Lemma open_on i c : In c (all_coords t G) -> On c i -> exists o, sc_open d idx i = Some o /\ Yields true (with_key (c_key c) (tab (c_key c))) o /\ tab (c_key c) <> [].
Proof.
  destruct HS as (Hf & HL & HO). intros Hin Hon. rewrite Forall_forall in HO. specialize (HO c Hin). destruct c as [[[k f] p] st].
  destruct Hon as (E1 & E2 & E3 & E4). unfold sc_open. rewrite E4, E1, E2, E3. destruct HO as (Hne & o & Eo & Hy & _). exists o. auto.
Qed.

Lemma first_ok cnt k l o : Yields cnt (with_key k l) o -> l <> [] ->
  exists p l' o2, l = p :: l' /\ sc_first false o = Some o2 /\ Yields cnt (with_key k l') o2 /\ value1 o2 = fst p /\ value2 o2 = snd p /\
    (cnt = true -> exists c, getCount o2 = Some (c, o2)).
Proof.
  intros Hy Hne. destruct l as [|p l]; [congruence|]. cbn [with_key map] in Hy.
  destruct (Yields_poll _ _ _ Hy) as (o1 & E1 & _ & o2 & E2 & Ec & Hc & Hy2). exists p, l, o2. unfold sc_first. rewrite E1. cbn [nonempty].
  unfold cur in Ec. injection Ec as _ Ea Eb. auto 7.
Qed.

Lemma d_next : forall k ks s, dmoved k ks (sc_1 s) (sc_2 s) -> no_table s -> sc_ign s = false -> sc_hnc s = true ->
  exists p l s2, tab k = p :: l /\ sc_next fuel d idx s = Some s2 /\ Inside true dlists k l ks s2 /\
    (exists o, sc_table s2 = Some o /\ value1 o = fst p /\ value2 o = snd p /\ (true = true -> exists c, getCount o = Some (c, o))).
Proof.
  intros k ks s (E2 & i & c & C & E1 & Ho & Hin & Ek & HR & Hinc & ->) [Hn1 Hn2] Hi Hh. unfold sc_next. rewrite Hn1, Hn2, E2, E1.
  destruct (open_on i c Hin Ho) as (o & -> & Hy & Hne). destruct (first_ok _ _ _ _ Hy Hne) as (p & l & o2 & Et & Ef & Hy2 & Ea & Eb & Hc).
  rewrite Hi, Ef. exists p, l. eexists. split; [congruence|]. split; [reflexivity|]. split.
  - exists o2. cbn. split; [auto|]. split; [congruence|]. split; auto. split; auto. split.
    + destruct c as [[[kc fc] pc] sc]. destruct Ho as (Eo & _). cbn in Ek. congruence.
    + split; auto. exists i, C. auto.
  - exists o2. cbn. auto.
Qed.

Lemma direct_fresh ks s : Fresh dlists ks s -> Yields true (elems tab ks) (sc_obj fuel d idx s).
Proof. apply (fresh_yields fuel d idx tab true dlists dmoved d_move d_next). Qed.

Lemma direct_init : (idx <= 2)%nat -> exists s, sc_init d idx = Some s /\ Fresh dlists (map c_key (all_coords t G)) s.
Proof.
  destruct HS as (Hf & HL & HO). intros Hidx. unfold sc_init, kb_terms. rewrite Hf. destruct (init_ok _ _ HL) as (i & -> & HR).
  destruct (Nat.leb_spec idx 2); [|lia]. eexists. split; [reflexivity|]. split; [split; auto|]. split; auto. split; auto. split; auto.
  exists i, (all_coords t G). repeat split; auto. apply incl_refl.
Qed.
End Direct.

(** ** A permutation with tables for some keys, the others are made from the permutation with
    the last two fields exchanged *)
Lemma ple_sorted_eq l l' : StronglySorted ple l -> StronglySorted ple l' -> Permutation l l' -> l = l'.
Proof.
  intros H1 H2 HP. assert (E : with_key 0 l = with_key 0 l').
  { apply sorted_perm_eq; [| |now apply Permutation_map]; clear HP; [clear H2; rename H1 into H|clear H1; rename H2 into H];
      induction H as [|x m Hs IH Hf]; cbn; constructor; auto; rewrite Forall_forall in *; intros y Hy; apply in_map_iff in Hy; destruct Hy as (z & <- & Hz);
      specialize (Hf z Hz); unfold ple, ele, elt in *; destruct x as [a b], z as [a' b']; cbn in *;
      (destruct (Z.eq_dec a a'), (Z.eq_dec b b'); subst; [right; auto|left; lia|left; lia|left; lia]). }
  clear - E. revert l' E. induction l as [|[a b] l IH]; intros [|[a' b'] l'] E; cbn in E; try discriminate; auto. injection E as -> -> E. f_equal. auto.
Qed.

Section Reversed.
Variables (fuel : nat) (d : db) (idx : nat) (tab tab2 : Z -> list (Z * Z)) (t2 : ts) (G2 : nat -> list table_t).
Hypothesis Hidx : (2 < idx)%nat.
Hypothesis HS2 : Stored d (idx - 3) t2 G2 tab2.
(** The storage of the permutation itself may be missing. *)
Hypothesis HS1 : d_files d idx = None \/ exists t1 G1, Stored d idx t1 G1 tab.
Hypothesis Htab : forall c, In c (all_coords t2 G2) -> let k := c_key c in
  StronglySorted ple (tab k) /\ Permutation (map (fun e => (snd e, fst e)) (tab2 k)) (tab k) /\ (length (tab2 k) < fuel)%nat.

Definition one (a : option titr) : Prop :=
  match a with
  | None => True
  | Some i1 => exists t1 G1 c C, Stored d idx t1 G1 tab /\ On c i1 /\ In c (all_coords t1 G1) /\ Rem t1 G1 C i1 /\ incl C (all_coords t1 G1)
  end.
Definition rlists (ks : list Z) (a b : option titr) : Prop :=
  one a /\ exists i C, b = Some i /\ Rem t2 G2 C i /\ incl C (all_coords t2 G2) /\ ks = map c_key C.
Definition rmoved (k : Z) (ks : list Z) (a b : option titr) : Prop :=
  one a /\ exists i c C, b = Some i /\ On c i /\ In c (all_coords t2 G2) /\ c_key c = k /\ Rem t2 G2 C i /\ incl C (all_coords t2 G2) /\ ks = map c_key C.

Lemma one_step t1 G1 C i : Stored d idx t1 G1 tab -> Rem t1 G1 C i -> incl C (all_coords t1 G1) -> exists r, ti_step t1 i = Some r /\ one r.
Proof.
  intros HS HR Hin. destruct HS as (Hf & HL & HO) eqn:EHS. destruct (ti_step_ok _ _ HL _ _ HR) as (r & Er & Hr). exists r. split; auto.
  destruct C as [|c C]; [now subst r|]. destruct Hr as (i2 & -> & H1 & H2). cbn. exists t1, G1, c, C. split; [exact HS|]. split; auto.
  split; [apply Hin; now left|]. split; auto. intros x Hx. apply Hin. now right.
Qed.

Lemma r_move : forall ks s, rlists ks (sc_1 s) (sc_2 s) -> no_table s ->
  exists s1, sc_move d idx s = Some (nonempty ks, s1) /\ no_table s1 /\ sc_ign s1 = sc_ign s /\ sc_hnc s1 = true /\ sc_hn s1 = nonempty ks /\
    match ks with [] => True | k :: r => rmoved k r (sc_1 s1) (sc_2 s1) end.
Proof.
  destruct HS2 as (Hf & HL & HO). intros ks s (Ho1 & i & C & E2 & HR & Hin & ->) [Hn1 Hn2]. unfold sc_move. rewrite E2, Hf.
  destruct C as [|c C].
  - destruct (step_nil _ _ HL _ HR) as (i1 & -> & _). eexists. split; [reflexivity|]. repeat split; auto.
  - destruct (step_cons _ _ HL _ _ _ HR) as (i1 & i2 & -> & -> & Ho & HR2).
    assert (Hst : exists r, (match sc_1 s with
                | Some i1 => if ti_key i1 <? ti_key i2 then do t1 <- d_files d idx; ti_step t1 i1 else Some (Some i1)
                | None => Some None
                end) = Some r /\ one r).
    { destruct (sc_1 s) as [j|] eqn:E1; [|eexists; split; [reflexivity|exact I]]. destruct (ti_key j <? ti_key i2); [|eauto].
      destruct Ho1 as (t1 & G1 & c1 & C1 & HSt & _ & _ & HR1 & Hin1). pose proof HSt as (Hf1 & _). rewrite Hf1. eapply one_step; eauto. }
    destruct Hst as (r & -> & Hr). eexists. split; [reflexivity|]. cbn [map nonempty].
    split; [split; auto|]. split; [auto|]. split; [auto|]. split; [auto|]. split; [auto|]. exists i2, c, C. split; auto. split; auto. split; [apply Hin; now left|].
    split; auto. split; auto. split; auto. intros x Hx. apply Hin. now right.
Qed.

Lemma r_next : forall k ks s, rmoved k ks (sc_1 s) (sc_2 s) -> no_table s -> sc_ign s = false -> sc_hnc s = true ->
  exists p l s2, tab k = p :: l /\ sc_next fuel d idx s = Some s2 /\ Inside false rlists k l ks s2 /\
    (exists o, sc_table s2 = Some o /\ value1 o = fst p /\ value2 o = snd p /\ (false = true -> exists c, getCount o = Some (c, o))).
Proof.
  intros k ks s (Ho1 & i & c & C & E2 & Ho & Hin & Ek & HR & Hinc & ->) [Hn1 Hn2] Hi Hh. unfold sc_next. rewrite Hn1, Hn2, E2.
  assert (Eki : ti_key i = k) by (destruct c as [[[kc fc] pc] sc]; destruct Ho as (Eo & _); cbn in Ek; congruence).
  destruct (Htab c Hin) as (Hsort & Hperm & Hlen). cbv zeta in *. rewrite Ek in *.
  destruct (open_on d (idx - 3) tab2 t2 G2 HS2 i c Hin Ho) as (o & Eo & Hy & Hne). rewrite Ek in Hy, Hne.
  assert (Hrev : exists p l s2, tab k = p :: l /\
    (do o <- sc_open d (idx - 3) i; do o <- newItrOnReverse fuel o (ti_key i) (-1) (-1); do o <- sc_first (sc_ign s) o;
     Some (mkSc (sc_1 s) (Some i) None (Some o) (sc_ign s) false (sc_hn s) (ti_key i))) = Some s2 /\ Inside false rlists k l (map c_key C) s2 /\
    (exists o, sc_table s2 = Some o /\ value1 o = fst p /\ value2 o = snd p /\ (false = true -> exists c, getCount o = Some (c, o)))).
  { rewrite Eo. destruct (reverse_ok fuel true _ o (ti_key i) (-1) (-1) Hy) as (o' & R & Er & Hy' & HsR & HpR); try lia; [unfold with_key; now rewrite map_length|].
    rewrite Er. assert (R = tab k).
    { apply ple_sorted_eq; auto. rewrite HpR, <- Hperm. replace (filter (pair_matches (-1) (-1)) (swapped (with_key k (tab2 k)))) with (map (fun e : Z * Z => (snd e, fst e)) (tab2 k)); auto.
      unfold swapped, with_key. rewrite map_map. cbn [snd fst]. clear. induction (tab2 k) as [|x m IH]; cbn; auto. now rewrite <- IH. }
    subst R. assert (Hne' : tab k <> []). { intros E. rewrite E in Hperm. apply Permutation_length in Hperm. rewrite map_length in Hperm. destruct (tab2 k); [congruence|discriminate]. }
    destruct (first_ok _ _ _ _ Hy' Hne') as (p & l & o2 & Et & Ef & Hy2 & Ea & Eb & Hc). rewrite Hi, Ef. exists p, l. eexists. split; [auto|]. split; [reflexivity|]. split.
    - exists o2. cbn. split; [auto|]. split; [congruence|]. split; auto. split; auto. split; auto. split; auto. exists i, C. auto.
    - exists o2. cbn. auto. }
  destruct (sc_1 s) as [j|] eqn:E1; [|exact Hrev]. destruct (Z.eqb_spec (ti_key i) (ti_key j)) as [Ekj|]; [|exact Hrev]. clear Hrev.
  pose proof Ho1 as (t1 & G1 & c1 & C1 & HSt & Hon1 & Hin1 & HR1 & Hinc1).
  destruct (open_on d idx tab t1 G1 HSt j c1 Hin1 Hon1) as (o1 & Eo1 & Hy1 & Hne1). rewrite Eo1.
  assert (Ek1 : c_key c1 = k) by (destruct c1 as [[[kc fc] pc] sc]; destruct Hon1 as (Eoo & _); cbn; congruence). rewrite Ek1 in *.
  destruct (first_ok _ _ _ _ Hy1 Hne1) as (p & l & o2 & Et & Ef & Hy2 & Ea & Eb & Hc). rewrite Hi, Ef. exists p, l. eexists. split; [auto|]. split; [reflexivity|]. split.
  - exists o2. cbn. split; [auto|]. split; [apply (Yields_weaken _ _ true); auto|]. split; auto. split; auto. split; [congruence|]. split; auto. exists i, C. auto.
  - exists o2. cbn. auto 6.
Qed.

Lemma reversed_scan : exists s, sc_init d idx = Some s /\ Yields false (elems tab (map c_key (all_coords t2 G2))) (sc_obj fuel d idx s).
Proof.
  pose proof HS2 as (Hf & HL & HO). unfold sc_init, kb_terms. destruct (Nat.leb_spec idx 2); [lia|]. rewrite Hf. destruct (init_ok _ _ HL) as (i & Ei & HR).
  destruct HS1 as [E1|(t1 & G1 & HSt)].
  - rewrite E1, Ei. eexists. split; [reflexivity|]. apply (fresh_yields fuel d idx tab false rlists rmoved r_move r_next). split; [split; auto|]. split; auto. split; auto. split; [exact I|].
    exists i, (all_coords t2 G2). repeat split; auto. apply incl_refl.
  - pose proof HSt as (Hf1 & HL1 & HO1). rewrite Hf1, Ei. destruct (init_ok _ _ HL1) as (i1 & -> & HR1).
    destruct (one_step t1 G1 _ i1 HSt HR1 (incl_refl _)) as (r & -> & Hr). eexists. split; [reflexivity|].
    apply (fresh_yields fuel d idx tab false rlists rmoved r_move r_next). split; [split; auto|]. split; auto. split; auto. split; [exact Hr|].
    exists i, (all_coords t2 G2). repeat split; auto. apply incl_refl.
Qed.
End Reversed.
