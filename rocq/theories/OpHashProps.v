(** The properties of the hash join, C56 and the hash part of C65. *)
From Verif Require Export OpProps OpHashProofs2.
Local Open Scope Z_scope.

(** The values of the registers [V] and the counts that a run returns. *)
Fixpoint run (V : list nat) (k : nat) (call : regs -> option (Z * regs * oper)) (g : regs) : option (list (list Z * Z)) :=
  match k with
  | O => None
  | S k' =>
      match call g with
      | None => None
      | Some (c, g', o') =>
          if c =? 0 then Some []
          else match run V k' (o_next o') g' with Some l => Some ((map g' V, c) :: l) | None => None end
      end
  end.
Lemma Rows_run I V W : forall l k call (pre : regs -> Prop) g tab, Rows I V W call pre l -> pre g -> run V k call g = Some tab -> table V l = tab.
Proof.
  induction l as [|[v c] l IH]; intros k call pre g tab HR Hg E; (destruct k as [|k]; [discriminate|]); cbn [run] in E;
    rewrite Rows_Got in HR; specialize (HR g Hg).
  - destruct HR as (g' & o' & E1 & _). rewrite E1 in E. injection E as <-. reflexivity.
  - destruct HR as (Hc & g' & o' & E1 & A & _ & _ & HR). rewrite E1 in E. destruct (Z.eqb_spec c 0); [lia|].
    destruct (run V k (o_next o') g') as [t|] eqn:E2; [|discriminate]. injection E as <-.
    cbn [table map fst snd]. rewrite (map_agree V v g') by (apply agree_sym; exact A). f_equal.
    apply (IH k (o_next o') (fun h => agree W h g') g' t HR); [apply agree_refl|exact E2].
Qed.
Lemma Answers_run V W l o k g tab : Answers V W l o -> run V k (o_first o) g = Some tab -> table V l = tab.
Proof. intros H E. apply (Rows_run any V W l k (o_first o) (fun _ => True) g); auto. Qed.

(** ** C56 *)
Definition kept (qualify : regs -> bool) (L : list (regs * Z)) : list (regs * Z) := filter (fun a => qualify (fst a)) L.

Lemma kept_pos q L : Forall (fun a : regs * Z => 0 < snd a) L -> Forall (fun a : regs * Z => 0 < snd a) (kept q L).
Proof. rewrite !Forall_forall. intros H a Ha. apply filter_In in Ha. apply H, Ha. Qed.

(** A run when the table can be built. *)
Lemma hash_run : forall lopt Vl Wl Vr Wr lv rv ltail rtail qualify L R left right fuel mem ht,
  incl Vl Wl -> incl Vr Wr -> disjoint Wl Wr -> incl (lv :: ltail) Vl -> NoDup (lv :: ltail) -> In rv Vr ->
  (forall g g', agree (lv :: ltail) g g' -> qualify g = qualify g') ->
  (length L < fuel)%nat -> (length R < fuel)%nat ->
  Answers Vl Wl L left -> Answers Vr Wr R right ->
  table_of mem qualify lv ltail (repeat [] (Z.to_nat 2048)) L = Some ht ->
  let X := hj_X lv ltail lopt in
  exists out, Answers (X ++ Vr) (Wl ++ Wr) out (hash_join fuel mem qualify lv rv ltail rtail lopt false left right) /\
  forall t, occurs (X ++ Vr) out t = occurs (X ++ Vr) (joined (lv :: ltail) lv rv (kept qualify L) R) t +
    (if lopt then occurs (X ++ Vr) (unmatched X lv rv (kept qualify L) R) t else 0).
Proof.
  intros * H1 H2 H3 H4 H5 H6 H7 H8 H9 HL HR Htab X.
  assert (Hp : Forall (fun a : regs * Z => 0 < snd a) L) by (apply (Rows_pos _ _ _ _ _ _ (fun _ => 0) Logic.I HL)).
  destruct (table_ok _ _ _ _ _ _ _ _ Hp (tab_empty (length ltail)) Htab) as (n & _ & HT & Htot & _).
  assert (Htot' : forall w, total w (concat ht) = total w (map (entry_of lv ltail) (wanted qualify L))).
  { intros w. rewrite Htot. replace (concat (repeat [] (Z.to_nat 2048))) with (@nil hj_entry); [cbn; lia|].
    clear. induction (Z.to_nat 2048) as [|k IH]; [reflexivity|exact IH]. }
  exists (flat_map (matched lv rv ltail lopt ht) R). split.
  - unfold Answers, hash_join.
    apply (Rows_I (hj_ok any fuel mem qualify lv rv ltail rtail lopt ht)); [intros; exact Logic.I|].
    eapply Rows_pre; [|apply (hj_run any Vl Wl Vr Wr [] (fun _ => R) fuel mem qualify lv rv ltail rtail lopt H1 H2 H3) with (v := fun _ => 0) (n := n) (L := L) (left := left); auto].
    + intros g _ x [].
    + intros x [].
    + eapply Rows_pre; [|exact HR]. intros g _. exact Logic.I.
  - intros t. apply (occurs_out Vr qualify lv rv ltail lopt n ht L); auto.
    intros x Hx Hx'. exact (H3 x (H1 x (H4 x Hx')) (H2 x Hx)).
Qed.
Lemma hash_built : forall lopt Vl Wl lv rv ltail rtail qualify L left right fuel mem g0,
  incl Vl Wl -> incl (lv :: ltail) Vl -> (forall g g', agree (lv :: ltail) g g' -> qualify g = qualify g') ->
  (length L < fuel)%nat -> Answers Vl Wl L left ->
  o_first (hash_join fuel mem qualify lv rv ltail rtail lopt false left right) g0 <> None ->
  exists ht, table_of mem qualify lv ltail (repeat [] (Z.to_nat 2048)) L = Some ht.
Proof.
  intros * H1 H4 H7 H8 HL Hf. destruct (table_of mem qualify lv ltail (repeat [] (Z.to_nat 2048)) L) as [ht|] eqn:E; [eauto|].
  exfalso. apply Hf. eapply (hj_fails Vl Wl fuel mem qualify lv rv ltail rtail lopt); eauto.
Qed.

(** Missing: that the first call does not throw, see below.  [qualify] is the test of the domains
    of the left registers; the rows it rejects are taken out of the left side. *)
Theorem C56_hash_join_partial : forall Vl Wl Vr Wr lv rv ltail rtail qualify L R left right fuel mem g0,
  incl Vl Wl -> incl Vr Wr -> disjoint Wl Wr -> incl (lv :: ltail) Vl -> NoDup (lv :: ltail) -> In rv Vr ->
  (forall g g', agree (lv :: ltail) g g' -> qualify g = qualify g') ->
  (length L < fuel)%nat -> (length R < fuel)%nat ->
  Answers Vl Wl L left -> Answers Vr Wr R right ->
  let join := hash_join fuel mem qualify lv rv ltail rtail false false left right in
  o_first join g0 <> None ->
  exists out, Answers ((lv :: ltail) ++ Vr) (Wl ++ Wr) out join /\
  forall t, occurs ((lv :: ltail) ++ Vr) out t =
            occurs ((lv :: ltail) ++ Vr) (joined (lv :: ltail) lv rv (kept qualify L) R) t.
Proof.
  intros * H1 H2 H3 H4 H5 H6 H7 H8 H9 HL HR join Hf.
  destruct (hash_built _ _ _ _ _ _ _ _ _ _ _ _ _ _ H1 H4 H7 H8 HL Hf) as (ht & Htab).
  destruct (hash_run false _ _ _ _ _ _ _ rtail _ _ _ _ _ _ _ _ H1 H2 H3 H4 H5 H6 H7 H8 H9 HL HR Htab) as (out & HA & HO).
  exists out. split; [exact HA|]. intros t. exact (eq_trans (HO t) (Z.add_0_r _)).
Qed.
Print Assumptions C56_hash_join_partial.
(** If the domains reject only rows without partner, nothing is lost. *)
Theorem C56_domains : forall X x y qualify L R,
  In x X -> ~ In y X ->
  (forall a b, In a L -> In b R -> qualify (fst a) = false -> fst a x <> fst b y) ->
  joined X x y (kept qualify L) R = joined X x y L R.
Proof.
  intros * Hx Hy Hq. unfold joined, pairs. induction L as [|a L IH]; [reflexivity|].
  assert (IH' := IH (fun a b Ha => Hq a b (or_intror Ha))). unfold kept in *. cbn [filter flat_map].
  match goal with |- context [if ?p then _ else _] => destruct p eqn:Eq end.
  - cbn [flat_map]. rewrite !filter_app. f_equal. exact IH'.
  - rewrite filter_app. etransitivity; [exact IH'|].
    assert (E : filter (fun p : regs * Z => fst p x =? fst p y) (map (fun b => (beside X (fst a) (fst b), snd a * snd b)) R) = []).
    { assert (Hq' := fun b Hb => Hq a b (or_introl eq_refl) Hb Eq). clear - Hx Hy Hq'. induction R as [|b R IHR]; [reflexivity|]. cbn [map filter fst].
      assert (Ne : (beside X (fst a) (fst b) x =? beside X (fst a) (fst b) y) = false).
      { assert (Ex : beside X (fst a) (fst b) x = fst a x) by (unfold beside; destruct (in_dec Nat.eq_dec x X); tauto).
        assert (Ey : beside X (fst a) (fst b) y = fst b y) by (unfold beside; destruct (in_dec Nat.eq_dec y X); tauto).
        rewrite Ex, Ey. apply Z.eqb_neq. apply Hq'. left. reflexivity. }
      match goal with |- (if ?p then _ else _) = _ => replace p with false by (symmetry; exact Ne) end.
      apply IHR. intros b' Hb'. apply Hq'. right. exact Hb'. }
    symmetry. exact (f_equal (fun z => z ++ _) E).
Qed.
Print Assumptions C56_domains.
(** With memory for 2^65 slots the first call never throws. *)
Lemma table_total mem qualify lv ltail : 2 ^ 65 <= mem -> forall L n ht0, (10 <= n)%nat -> Forall (fun a : regs * Z => 0 < snd a) L ->
  (forall a, In a L -> 0 <= fst a lv < 2 ^ 64) -> Tab (length ltail) n ht0 -> Forall (fun c => 0 <= hj_key c < 2 ^ 64) (chains ht0) ->
  exists ht, table_of mem qualify lv ltail ht0 L = Some ht.
Proof.
  intros Hm. induction L as [|a L IH]; intros n ht0 Hn Hp Hk HT Hc; [eexists; reflexivity|].
  inversion Hp as [|? ? Ha Hp']; subst. rewrite table_of_cons. destruct (qualify (fst a)).
  - destruct (add_total (length ltail) mem n ht0 (fst a lv) (map (fst a) ltail) (snd a) Hm Hn HT Ha (map_length _ _) (Hk a (or_introl eq_refl)) Hc) as (h1 & E1).
    rewrite E1. destruct (add_ok _ _ _ _ _ _ _ _ HT Ha (map_length _ _) E1) as (n1 & F1 & T1 & _ & B1).
    apply (IH n1); auto.
    + destruct F1. lia.
    + intros b Hb. apply Hk. right. exact Hb.
    + rewrite Forall_forall in *. intros c Hc1. destruct (B1 c Hc1) as [->|(c0 & H0 & <-)]; [apply Hk; left; reflexivity|auto].
  - apply (IH n); auto. intros b Hb. apply Hk. right. exact Hb.
Qed.
Theorem C56_hash_join_memory : forall Vl Wl Vr Wr lv rv ltail rtail qualify L R left right fuel mem,
  incl Vl Wl -> incl Vr Wr -> disjoint Wl Wr -> incl (lv :: ltail) Vl -> NoDup (lv :: ltail) -> In rv Vr ->
  (forall g g', agree (lv :: ltail) g g' -> qualify g = qualify g') ->
  (length L < fuel)%nat -> (length R < fuel)%nat ->
  Answers Vl Wl L left -> Answers Vr Wr R right ->
  2 ^ 65 <= mem -> (forall a, In a L -> 0 <= fst a lv < 2 ^ 64) ->
  exists out, Answers ((lv :: ltail) ++ Vr) (Wl ++ Wr) out (hash_join fuel mem qualify lv rv ltail rtail false false left right) /\
  forall t, occurs ((lv :: ltail) ++ Vr) out t =
            occurs ((lv :: ltail) ++ Vr) (joined (lv :: ltail) lv rv (kept qualify L) R) t.
Proof.
  intros * H1 H2 H3 H4 H5 H6 H7 H8 H9 HL HR Hm Hk.
  assert (Hp : Forall (fun a : regs * Z => 0 < snd a) L) by (apply (Rows_pos _ _ _ _ _ _ (fun _ => 0) Logic.I HL)).
  destruct (table_total mem qualify lv ltail Hm L 10 (repeat [] (Z.to_nat 2048)) (le_n _) Hp Hk (tab_empty _)) as (ht & Htab).
  { rewrite chains_repeat. constructor. }
  destruct (hash_run false _ _ _ _ _ _ _ rtail _ _ _ _ _ _ _ _ H1 H2 H3 H4 H5 H6 H7 H8 H9 HL HR Htab) as (out & HA & HO).
  exists out. split; [exact HA|]. intros t. exact (eq_trans (HO t) (Z.add_0_r _)).
Qed.
Print Assumptions C56_hash_join_memory.
(** The join can be run again; the right side may depend on registers set outside. *)
Theorem C56_restart : forall Vl Wl Vr Wr D lv rv ltail rtail qualify L f left right fuel mem g0,
  incl Vl Wl -> incl Vr Wr -> disjoint Wl Wr -> disjoint D Wl -> incl (lv :: ltail) Vl -> NoDup (lv :: ltail) -> In rv Vr ->
  (forall g g', agree (lv :: ltail) g g' -> qualify g = qualify g') ->
  (length L < fuel)%nat -> (forall v, (length (f v) < fuel)%nat) ->
  Answers Vl Wl L left -> Restarts Vr Wr D f right ->
  let join := hash_join fuel mem qualify lv rv ltail rtail false false left right in
  o_first join g0 <> None ->
  exists out, Restarts ((lv :: ltail) ++ Vr) (Wl ++ Wr) D out join /\
  forall v t, occurs ((lv :: ltail) ++ Vr) (out v) t =
              occurs ((lv :: ltail) ++ Vr) (joined (lv :: ltail) lv rv (kept qualify L) (f v)) t.
Proof.
  intros * H1 H2 H3 HD H4 H5 H6 H7 H8 H9 HL (Ir & HI & HR) join Hf.
  destruct (hash_built _ _ _ _ _ _ _ _ _ _ _ _ _ _ H1 H4 H7 H8 HL Hf) as (ht & Htab).
  assert (Hp : Forall (fun a : regs * Z => 0 < snd a) L) by (apply (Rows_pos _ _ _ _ _ _ (fun _ => 0) Logic.I HL)).
  destruct (table_ok _ _ _ _ _ _ _ _ Hp (tab_empty (length ltail)) Htab) as (n & _ & HT & Htot & _).
  assert (Htot' : forall w, total w (concat ht) = total w (map (entry_of lv ltail) (wanted qualify L))).
  { intros w. rewrite Htot. replace (concat (repeat [] (Z.to_nat 2048))) with (@nil hj_entry); [cbn; lia|].
    clear. induction (Z.to_nat 2048) as [|k IH]; [reflexivity|exact IH]. }
  exists (fun v => flat_map (matched lv rv ltail false ht) (f v)). split.
  - exists (fun o => o = join \/ hj_ok Ir fuel mem qualify lv rv ltail rtail false ht o). split; [left; reflexivity|].
    intros o' [->|(s & -> & HIs & Es)] v.
    + eapply Rows_I; [|apply (hj_run Ir Vl Wl Vr Wr D f fuel mem qualify lv rv ltail rtail false H1 H2 H3 HD) with (v := v) (n := n) (L := L) (left := left) (ht := ht); auto].
      intros o Ho. right. exact Ho.
    + eapply Rows_I; [|apply (hj_run Ir Vl Wl Vr Wr D f fuel mem qualify lv rv ltail rtail false H1 H2 H3 HD) with (v := v) (n := n) (L := L) (left := left) (ht := ht); auto].
      intros o Ho. right. exact Ho.
  - intros v t. etransitivity; [|apply Z.add_0_r]. apply (occurs_out Vr qualify lv rv ltail false n ht L); auto.
    intros x Hx Hx'. exact (H3 x (H1 x (H4 x Hx')) (H2 x Hx)).
Qed.
Print Assumptions C56_restart.

(** Left rows (1, 10), (2, 20) twice, (1, 11), (1, 10), (1025, 30); right rows (1, 5) three times, (7, 6), (1025, 8).
    The keys 1 and 1025 share a slot of the table. *)
Definition ex_hl := [([1; 10], 1); ([2; 20], 2); ([1; 11], 1); ([1; 10], 1); ([1025; 30], 1)].
Definition ex_hr := [([1; 5], 3); ([7; 6], 1); ([1025; 8], 1)].
Definition ex_hash (lopt ropt : bool) : oper := hash_join 9 4096 (fun _ => true) 1 3 [2%nat] [4%nat] lopt ropt
  (scan [1%nat; 2%nat] [] (fun _ => ex_hl)) (scan [3%nat; 4%nat] [] (fun _ => ex_hr)).
Lemma ex_hash_dis : disjoint [1%nat; 2%nat] [3%nat; 4%nat].
Proof. intros x [<-|[<-|[]]] [C|[C|[]]]; discriminate. Qed.
Example C56_example : exists out, Answers [1%nat; 2%nat; 3%nat; 4%nat] [1%nat; 2%nat; 3%nat; 4%nat] out (ex_hash false false) /\
  table [1%nat; 2%nat; 3%nat; 4%nat] out = [([1; 11; 1; 5], 3); ([1; 10; 1; 5], 6); ([1025; 30; 1025; 8], 1)].
Proof.
  destruct (C56_hash_join_partial [1%nat; 2%nat] [1%nat; 2%nat] [3%nat; 4%nat] [3%nat; 4%nat] 1 3 [2%nat] [4%nat] (fun _ => true)
    (rows [1%nat; 2%nat] ex_hl) (rows [3%nat; 4%nat] ex_hr) (scan [1%nat; 2%nat] [] (fun _ => ex_hl)) (scan [3%nat; 4%nat] [] (fun _ => ex_hr)) 9 4096 (fun _ => 0))
    as (out & HA & _); [apply incl_refl|apply incl_refl|apply ex_hash_dis|apply incl_refl|nodup|cbn; auto|reflexivity|cbn; lia|cbn; lia|apply scan_answers; [nodup|wide]|apply scan_answers; [nodup|wide]| |].
  - assert (E : match o_first (ex_hash false false) (fun _ => 0) with Some _ => true | None => false end = true) by (vm_compute; reflexivity).
    unfold ex_hash in E. destruct (o_first _ _); [discriminate|discriminate E].
  - exists out. split; [exact HA|]. eapply (Answers_run _ _ _ _ 9 (fun _ => 0)); [exact HA|]. vm_compute. reflexivity.
Qed.

(** Three rows with the integers 5, 2^60+5 and 2^61+5 as join values exhaust any memory of up to 2^58 slots. *)
Definition ex_keys : list (list Z * Z) := [([2 ^ 62 + 5], 1); ([2 ^ 62 + 2 ^ 60 + 5], 1); ([2 ^ 62 + 2 ^ 61 + 5], 1)].
Lemma same_slots n k : (n <= 57)%nat -> (k = 2 ^ 62 + 5 \/ k = 2 ^ 62 + 2 ^ 60 + 5 \/ k = 2 ^ 62 + 2 ^ 61 + 5) ->
  hj_hash1 k (2 ^ n) = hj_hash1 5 (2 ^ n) /\ hj_hash2 k (2 ^ n) = hj_hash2 5 (2 ^ n).
Proof.
  intros Hn Hk. unfold hj_hash1, hj_hash2. rewrite !mask_eq.
  assert (G : forall a b, a mod 2 ^ 57 = b mod 2 ^ 57 -> a mod 2 ^ Z.of_nat n = b mod 2 ^ Z.of_nat n).
  { intros a b E. rewrite <- !Z.land_ones in * by lia.
    replace (Z.ones (Z.of_nat n)) with (Z.land (Z.ones 57) (Z.ones (Z.of_nat n))); [rewrite !Z.land_assoc, E; reflexivity|].
    rewrite Z.land_comm, Z.land_ones by lia. apply Z.mod_small. rewrite Z.ones_equiv. assert (0 < 2 ^ Z.of_nat n) by (apply Z.pow_pos_nonneg; lia).
    assert (2 ^ Z.of_nat n <= 2 ^ 57) by (apply Z.pow_le_mono_r; lia). lia. }
  split; [|f_equal]; f_equal; apply G; destruct Hk as [->|[->| ->]]; vm_compute; reflexivity.
Qed.
Lemma three_keys mem : mem <= 2 ^ 58 -> table_of mem (fun _ => true) 1 [] (repeat [] (Z.to_nat 2048)) (rows [1%nat] ex_keys) = None.
Proof.
  intros Hm. destruct (table_of mem (fun _ => true) 1 [] (repeat [] (Z.to_nat 2048)) (rows [1%nat] ex_keys)) as [ht|] eqn:E; [|reflexivity].
  exfalso. assert (Hp : Forall (fun a : regs * Z => 0 < snd a) (rows [1%nat] ex_keys)) by (repeat constructor).
  destruct (table_ok _ _ _ _ _ _ _ _ Hp (tab_empty (@length nat [])) E) as (n & F & HT & Htot & Hkeys). clear E.
  assert (Hn : (n <= 57)%nat).
  { destruct F as [F1 [->|F2]]; [lia|]. destruct (le_lt_dec n 57) as [|C]; [assumption|]. exfalso.
    assert (2 ^ 58 <= 2 ^ Z.of_nat n) by (apply Z.pow_le_mono_r; lia). lia. }
  assert (Hin : forall k, (k = 2 ^ 62 + 5 \/ k = 2 ^ 62 + 2 ^ 60 + 5 \/ k = 2 ^ 62 + 2 ^ 61 + 5) ->
    exists i c, nth_error ht i = Some c /\ hj_key c = k /\ (i = hj_hash1 5 (2 ^ n) \/ i = hj_hash2 5 (2 ^ n))).
  { intros k Hk. assert (Hc : exists c, In c ht /\ c <> [] /\ hj_key c = k).
    { specialize (Htot (fun k' _ => if k' =? k then 1 else 0)).
      destruct (existsb (fun c => nonempty c && (hj_key c =? k)) ht) eqn:Ex.
      { apply existsb_exists in Ex. destruct Ex as (c & Hc & Ec). apply andb_prop in Ec. destruct Ec as [E1 E2]. apply Z.eqb_eq in E2.
        exists c. split; [exact Hc|]. split; [destruct c; discriminate|exact E2]. }
      exfalso. rewrite (total_ext _ (fun _ _ => 0) (concat ht)), total_0 in Htot.
      - revert Htot. replace (concat (repeat [] (Z.to_nat 2048))) with (@nil hj_entry).
        + destruct Hk as [->|[->| ->]]; vm_compute; discriminate.
        + clear. induction (Z.to_nat 2048) as [|j IH]; [reflexivity|exact IH].
      - intros e He. destruct (Z.eqb_spec (ekey e) k) as [Ek|]; [|reflexivity]. exfalso.
        apply in_concat in He. destruct He as (c & Hc & He).
        assert (Hne : c <> []) by (intros ->; destruct He).
        assert (Hok := tab_chains _ _ _ HT). rewrite Forall_forall in Hok. assert (Hc' : In c (chains ht)) by (apply chains_in; auto).
        destruct (Hok c Hc') as [_ H1]. rewrite Forall_forall in H1. destruct (H1 e He) as [H2 _].
        assert (C : existsb (fun c => nonempty c && (hj_key c =? k)) ht = true).
        { apply existsb_exists. exists c. split; [exact Hc|]. destruct c; [congruence|]. cbn [nonempty andb]. apply Z.eqb_eq. congruence. }
        congruence. }
    destruct Hc as (c & Hc & Hne & Ek). apply In_nth_error in Hc. destruct Hc as (i & Ei). exists i, c. split; [exact Ei|]. split; [exact Ek|].
    assert (Hp1 := tab_placed _ _ _ HT i c Ei Hne). rewrite Ek in Hp1. destruct (same_slots n k Hn Hk) as [S1 S2]. rewrite S1, S2 in Hp1. exact Hp1. }
  destruct (Hin (2 ^ 62 + 5)) as (i1 & c1 & N1 & K1 & P1); [auto|].
  destruct (Hin (2 ^ 62 + 2 ^ 60 + 5)) as (i2 & c2 & N2 & K2 & P2); [auto|].
  destruct (Hin (2 ^ 62 + 2 ^ 61 + 5)) as (i3 & c3 & N3 & K3 & P3); [auto|].
  assert (D12 : i1 <> i2) by (intros ->; rewrite N1 in N2; injection N2 as <-; rewrite K1 in K2; discriminate).
  assert (D13 : i1 <> i3) by (intros ->; rewrite N1 in N3; injection N3 as <-; rewrite K1 in K3; discriminate).
  assert (D23 : i2 <> i3) by (intros ->; rewrite N2 in N3; injection N3 as <-; rewrite K2 in K3; discriminate).
  destruct P1 as [->| ->], P2 as [->| ->], P3 as [->| ->]; congruence.
Qed.
Theorem C56_memory_refuted : exists L left, Answers [1%nat] [1%nat] L left /\ length L = 3%nat /\
  forall fuel mem rv rtail right g, (3 < fuel)%nat -> mem <= 2 ^ 58 ->
  o_first (hash_join fuel mem (fun _ => true) 1 rv [] rtail false false left right) g = None.
Proof.
  exists (rows [1%nat] ex_keys), (scan [1%nat] [] (fun _ => ex_keys)).
  assert (HA : Answers [1%nat] [1%nat] (rows [1%nat] ex_keys) (scan [1%nat] [] (fun _ => ex_keys))) by (apply scan_answers; [nodup|wide]).
  split; [exact HA|]. split; [reflexivity|].
  intros fuel mem rv rtail right g Hf Hm.
  eapply (hj_fails [1%nat] [1%nat]); [apply incl_refl|apply incl_refl|reflexivity| |exact HA|apply three_keys; exact Hm]. cbn. lia.
Qed.
Print Assumptions C56_memory_refuted.

(** ** C65, hash join *)
(** Missing: the join variable itself, see below, and an optional right side. *)
Theorem C65_hash_left_optional_partial : forall Vl Wl Vr Wr lv rv ltail rtail qualify L R left right fuel mem g0,
  incl Vl Wl -> incl Vr Wr -> disjoint Wl Wr -> incl (lv :: ltail) Vl -> NoDup (lv :: ltail) -> In rv Vr ->
  (forall g g', agree (lv :: ltail) g g' -> qualify g = qualify g') ->
  (length L < fuel)%nat -> (length R < fuel)%nat ->
  Answers Vl Wl L left -> Answers Vr Wr R right ->
  let join := hash_join fuel mem qualify lv rv ltail rtail true false left right in
  o_first join g0 <> None ->
  exists out, Answers (ltail ++ Vr) (Wl ++ Wr) out join /\
  forall t, occurs (ltail ++ Vr) out t =
            occurs (ltail ++ Vr) (joined (lv :: ltail) lv rv (kept qualify L) R ++ unmatched ltail lv rv (kept qualify L) R) t.
Proof.
  intros * H1 H2 H3 H4 H5 H6 H7 H8 H9 HL HR join Hf.
  destruct (hash_built _ _ _ _ _ _ _ _ _ _ _ _ _ _ H1 H4 H7 H8 HL Hf) as (ht & Htab).
  destruct (hash_run true _ _ _ _ _ _ _ rtail _ _ _ _ _ _ _ _ H1 H2 H3 H4 H5 H6 H7 H8 H9 HL HR Htab) as (out & HA & HO).
  exists out. split; [exact HA|]. intros t. rewrite occurs_app. exact (HO t).
Qed.
Print Assumptions C65_hash_left_optional_partial.
Example C65_hash_example : exists out, Answers [2%nat; 3%nat; 4%nat] [1%nat; 2%nat; 3%nat; 4%nat] out (ex_hash true false) /\
  table [2%nat; 3%nat; 4%nat] out = [([11; 1; 5], 3); ([10; 1; 5], 6); ([null32; 7; 6], 1); ([30; 1025; 8], 1)].
Proof.
  destruct (C65_hash_left_optional_partial [1%nat; 2%nat] [1%nat; 2%nat] [3%nat; 4%nat] [3%nat; 4%nat] 1 3 [2%nat] [4%nat] (fun _ => true)
    (rows [1%nat; 2%nat] ex_hl) (rows [3%nat; 4%nat] ex_hr) (scan [1%nat; 2%nat] [] (fun _ => ex_hl)) (scan [3%nat; 4%nat] [] (fun _ => ex_hr)) 9 4096 (fun _ => 0))
    as (out & HA & _); [apply incl_refl|apply incl_refl|apply ex_hash_dis|apply incl_refl|nodup|cbn; auto|reflexivity|cbn; lia|cbn; lia|apply scan_answers; [nodup|wide]|apply scan_answers; [nodup|wide]| |].
  - assert (E : match o_first (ex_hash true false) (fun _ => 0) with Some _ => true | None => false end = true) by (vm_compute; reflexivity).
    unfold ex_hash in E. destruct (o_first _ _); [discriminate|discriminate E].
  - exists out. split; [exact HA|]. eapply (Answers_run _ _ _ _ 9 (fun _ => 0)); [exact HA|]. vm_compute. reflexivity.
Qed.
(** The register of the join variable on the left side, which the plan reads, keeps the value of
    an earlier row when there is no partner: here it is 1 in the row of the right value 7. *)
Theorem C65_hash_variable_refuted :
  Answers [1%nat; 2%nat] [1%nat; 2%nat] (rows [1%nat; 2%nat] ex_hl) (scan [1%nat; 2%nat] [] (fun _ => ex_hl)) /\
  Answers [3%nat; 4%nat] [3%nat; 4%nat] (rows [3%nat; 4%nat] ex_hr) (scan [3%nat; 4%nat] [] (fun _ => ex_hr)) /\
  run [1%nat; 3%nat] 9 (o_first (ex_hash true false)) (fun _ => 0) = Some [([1; 1], 3); ([1; 1], 6); ([1; 7], 1); ([1025; 1025], 1)].
Proof. split; [apply scan_answers; [nodup|wide]|]. split; [apply scan_answers; [nodup|wide]|]. vm_compute. reflexivity. Qed.
Print Assumptions C65_hash_variable_refuted.
(** Optional right side: of the left rows without partner only one per join value is returned, and
    the register of the join variable is that of an earlier row. *)
Definition ex_lost : list (list Z * Z) := [([1; 10], 1); ([2; 20], 1); ([2; 21], 1)].
Definition ex_lost_join : oper := hash_join 9 4096 (fun _ => true) 1 3 [2%nat] [4%nat] false true
  (scan [1%nat; 2%nat] [] (fun _ => ex_lost)) (scan [3%nat; 4%nat] [] (fun _ => [([1; 5], 1)])).
Theorem C65_hash_right_optional_refuted :
  Answers [1%nat; 2%nat] [1%nat; 2%nat] (rows [1%nat; 2%nat] ex_lost) (scan [1%nat; 2%nat] [] (fun _ => ex_lost)) /\
  Answers [3%nat; 4%nat] [3%nat; 4%nat] (rows [3%nat; 4%nat] [([1; 5], 1)]) (scan [3%nat; 4%nat] [] (fun _ => [([1; 5], 1)])) /\
  run [1%nat; 2%nat; 4%nat] 9 (o_first ex_lost_join) (fun _ => 0) = Some [([1; 10; 5], 1); ([1; 21; null32], 1)] /\
  forall W out, Answers [1%nat; 2%nat; 4%nat] W out ex_lost_join -> occurs [1%nat; 2%nat; 4%nat] out [2; 20; null32] = 0.
Proof.
  split; [apply scan_answers; [nodup|wide]|]. split; [apply scan_answers; [nodup|wide]|].
  assert (E : run [1%nat; 2%nat; 4%nat] 9 (o_first ex_lost_join) (fun _ => 0) = Some [([1; 10; 5], 1); ([1; 21; null32], 1)]) by (vm_compute; reflexivity).
  split; [exact E|]. intros W out HA. rewrite occurs_table, (Answers_run _ _ _ _ _ _ _ HA E). reflexivity.
Qed.
Print Assumptions C65_hash_right_optional_refuted.
(** An optional right side without rows: no left row is returned. *)
Theorem C65_hash_empty_right_refuted : forall Vl Wl Vr Wr lv rv ltail rtail L left right fuel mem g,
  incl Vl Wl -> incl (lv :: ltail) Vl -> (length L < fuel)%nat -> Answers Vl Wl L left -> Answers Vr Wr [] right ->
  match o_first (hash_join fuel mem (fun _ => true) lv rv ltail rtail false true left right) g with
  | None => True
  | Some (c, _, _) => c = 0
  end.
Proof.
  intros * H1 H2 H3 HL HR. unfold hash_join. rewrite obj_first. unfold hj_first. cbn [hj_ht hj_left hj_right].
  destruct (o_first left g) as [[[c g1] l1]|]; [|exact Logic.I].
  destruct (hj_build _ _ _ _ _ _ _ _ _) as [[[g2 l2] ht]|]; [|exact Logic.I].
  unfold Answers in HR. rewrite Rows_Got in HR. destruct (HR g2 Logic.I) as (g3 & r3 & E3 & _). rewrite E3. reflexivity.
Qed.
Print Assumptions C65_hash_empty_right_refuted.
