(** Lists of terms of a stored permutation, and the scans over them. *)
From Coq Require Import Sorted Permutation ZifyBool.
From Verif Require Import TableProofs InserterModel InserterSpec InserterProofs KbModel KbProofs ItrSpec ItrProofs FullModel TermSpec TermProofs.
Local Open Scope Z_scope.

(** ** TermItr *)
Section Items.
Variables (d : db) (perm : nat) (t : ts) (G : nat -> list table_t) (N : Z -> Z).
Hypothesis HL : Listing t G.

Definition counted_as (k : Z) : Prop :=
  exists v c, kb_lookup d k = Some (Some v) /\ v (kt_perm perm) = Some c /\ co_n c = N k /\ 0 < N k.

Lemma kt_has s : hasNext (kt_obj d perm t s) = match kt_hasNext t s with Some (b, s1) => Some (b, kt_obj d perm t s1) | None => None end.
Proof. reflexivity. Qed.
Lemma kt_nx s : next (kt_obj d perm t s) = match kt_next s with Some s1 => Some (kt_obj d perm t s1) | None => None end.
Proof. reflexivity. Qed.
Lemma kt_gc s : getCount (kt_obj d perm t s) = match kt_count d perm s with Some (c, s1) => Some (c, kt_obj d perm t s1) | None => None end.
Proof. reflexivity. Qed.

Lemma kt_nil s : Rem t G [] (kt_i s) -> Terms [] (kt_obj d perm t s).
Proof.
  intros H. assert (HP : forall o', polls (kt_obj d perm t s) o' -> exists s', o' = kt_obj d perm t s' /\ Rem t G [] (kt_i s')).
  { intros o' P. induction P as [|a b c P (s' & -> & HR) E]; [eauto|]. rewrite kt_has in E. unfold kt_hasNext in E.
    destruct (step_nil t G HL _ HR) as (i1 & E1 & H1). rewrite E1 in E. injection E as <- <-. eexists. split; [reflexivity|]. exact H1. }
  intros o' P. destruct (HP o' P) as (s' & -> & HR). rewrite kt_has. unfold kt_hasNext.
  destruct (hasNext_ok t G HL [] _ HR) as (i1 & E1 & K & _). rewrite E1. cbn [nonempty]. eexists. split; [reflexivity|]. split; [exact K|exact I].
Qed.

Lemma kt_terms : forall C s, Rem t G C (kt_i s) -> (forall c, In c C -> counted_as (KbProofs.c_key c)) ->
  Terms (map (fun c => (KbProofs.c_key c, N (KbProofs.c_key c))) C) (kt_obj d perm t s).
Proof.
  induction C as [|c C IH]; intros s HR HC; [now apply kt_nil|].
  destruct (hasNext_ok t G HL _ _ HR) as (i1 & E1 & K & _ & H1). destruct H1 as (f & j & HA & Hj & E); [discriminate|].
  destruct (next_ok t G HL f j i1 HA Hj) as (c' & i2 & E2 & HO & HA2 & Er). rewrite Er in E. injection E as <- ->.
  assert (Hagain : ti_hasNext t i1 = Some (true, i1)).
  { destruct HA as (_ & _ & _ & _ & _ & Eo & Ee). unfold ti_hasNext. rewrite Eo, Ee. destruct (Z.eqb_spec (8 + 11 * Z.of_nat j) (8 + 11 * zlen (G f))) as [X|X]; [unfold zlen in X; lia|reflexivity]. }
  set (k := KbProofs.c_key c). apply (terms_intro _ _ (kt_obj d perm t (mkKt i1 (kt_cached s)))).
  - rewrite kt_has. unfold kt_hasNext. now rewrite E1.
  - exact K.
  - rewrite kt_has. unfold kt_hasNext. cbn [kt_i kt_cached]. now rewrite Hagain.
  - cbn [map]. exists (kt_obj d perm t (mkKt i2 (-1))). split; [rewrite kt_nx; unfold kt_next; cbn [kt_i]; now rewrite E2|].
    assert (Hk : ti_key i2 = k) by (unfold k; destruct c as [[[kc fc] pc] sc]; destruct HO as (X & _); exact X).
    destruct (HC c (or_introl eq_refl)) as (v & co & E3 & E4 & E5 & E6). fold k in E3, E4, E5, E6.
    assert (HR2 : Rem t G (rest t G f (S j)) i2) by (left; eauto).
    assert (HP : forall o3, counts (kt_obj d perm t (mkKt i2 (-1))) o3 -> exists s', o3 = kt_obj d perm t s' /\ kt_i s' = i2 /\ (kt_cached s' = -1 \/ kt_cached s' = N k)).
    { intros o3 P. induction P as [|o1 n o2 P (s' & -> & Es & Ec) E]; [eexists; split; [reflexivity|auto]|]. rewrite kt_gc in E. unfold kt_count in E.
      destruct (Z.ltb_spec (kt_cached s') 0) as [X|X].
      - rewrite Es, Hk, E3, E4 in E. injection E as <- <-. eexists. split; [reflexivity|]. cbn. auto.
      - injection E as <- <-. eauto. }
    intros o3 P. destruct (HP o3 P) as (s' & -> & Es & Ec). cbn [fst snd]. split; [cbn; now rewrite Es|]. split.
    + rewrite kt_gc. unfold kt_count. destruct (Z.ltb_spec (kt_cached s') 0) as [X|X].
      * rewrite Es, Hk, E3, E4. rewrite E5. eauto.
      * replace (kt_cached s') with (N k) by lia. eauto.
    + apply IH; [rewrite Es; exact HR2|]. intros c0 Hc0. apply HC. now right.
Qed.
End Items.

(** ** The operator *)
Lemma fas_on x l o s : On x l o -> ts_itr s = Some o -> exists o1, fas_take (true, s) = Some (Some x, TsModel.mkTs (Some o1) (ts_count s)) /\ Terms l o1.
Proof.
  intros H E. unfold fas_take, tsa_count. rewrite E. destruct (H o (counts_refl o)) as (K & (o4 & C) & _). rewrite C. rewrite K.
  exists o4. split; [now destruct x|]. apply (on_count _ _ _ _ _ H) in C. destruct C as [_ C]. now apply on_terms in C.
Qed.
Lemma fas_rest_ok : forall l n r s o, Terms l o -> Forall (fun x => 0 < snd x) l -> (length l < n)%nat ->
  ts_itr s = Some o -> fas_next s = Some r -> fas_rest n r = Some l.
Proof.
  induction l as [|x l IH]; intros n r s o HT HP Hn Es Er; (destruct n as [|n]; [cbn in Hn; lia|]).
  - destruct (terms_has _ _ HT) as (o1 & E1 & _ & _ & _). unfold fas_next, tsf_next in Er. rewrite Es, E1 in Er. cbn in Er. injection Er as <-. reflexivity.
  - destruct (terms_has _ _ HT) as (o1 & E1 & _ & _ & o2 & E2 & HO). unfold fas_next, tsf_next in Er. rewrite Es, E1 in Er. cbn [nonempty] in Er. rewrite E2 in Er.
    match type of Er with fas_take (true, ?s0) = _ => destruct (fas_on x l o2 s0 HO eq_refl) as (o3 & E3 & HT3) end. rewrite E3 in Er. injection Er as <-.
    inversion HP as [|? ? P1 P2]; subst. destruct x as [v c]. cbn [fas_rest fst snd] in *. destruct (Z.eqb_spec c 0); [lia|].
    match goal with |- context [fas_next ?s1] => destruct (fas_next s1) as [r1|] eqn:E4 end.
    + erewrite IH; [reflexivity|exact HT3|exact P2|cbn in Hn; lia| |exact E4]. reflexivity.
    + exfalso. unfold fas_next, tsf_next in E4. cbn [ts_itr] in E4. destruct (terms_has _ _ HT3) as (o5 & E5 & _ & _ & M). rewrite E5 in E4. destruct l as [|y l]; cbn [nonempty] in E4; [discriminate|].
      destruct M as (o6 & E6 & HO6). rewrite E6 in E4. match type of E4 with fas_take (true, ?s0) = _ => destruct (fas_on y l o6 s0 HO6 eq_refl) as (o7 & E7 & _) end. congruence.
Qed.
Lemma fas_run_ok l o n n0 : Terms l o -> Forall (fun x => 0 < snd x) l -> (length l < n)%nat -> fas_run n n0 (Some o) = Some l.
Proof.
  intros HT HP Hn. unfold fas_run, fas_first, tsf_first, ts_first. destruct (terms_has _ _ HT) as (o1 & E1 & _ & _ & M). rewrite E1. destruct n as [|n]; [lia|]. destruct l as [|x l]; cbn [nonempty]; [reflexivity|].
  destruct M as (o2 & E2 & HO). rewrite E2. match goal with |- context [fas_take (true, ?s0)] => destruct (fas_on x l o2 s0 HO eq_refl) as (o3 & E3 & HT3) end. rewrite E3.
  inversion HP as [|? ? P1 P2]; subst. destruct x as [v c]. cbn [fas_rest fst snd] in *. destruct (Z.eqb_spec c 0); [lia|].
  match goal with |- context [fas_next ?s1] => destruct (fas_next s1) as [r1|] eqn:E4 end.
  - erewrite fas_rest_ok; [reflexivity|exact HT3|exact P2|cbn in Hn; lia| |exact E4]. reflexivity.
  - exfalso. unfold fas_next, tsf_next in E4. cbn [ts_itr] in E4. destruct (terms_has _ _ HT3) as (o5 & E5 & _ & _ & M). rewrite E5 in E4. destruct l as [|y l]; cbn [nonempty] in E4; [discriminate|].
    destruct M as (o6 & E6 & HO6). rewrite E6 in E4. match type of E4 with fas_take (true, ?s0) = _ => destruct (fas_on y l o6 s0 HO6 eq_refl) as (o7 & E7 & _) end. congruence.
Qed.

(** ** ReOrderTermItr *)
Lemma ro_insert_In k l x : In x (ro_insert k l) <-> x = k \/ In x l.
Proof.
  induction l as [|y l IH]; cbn; [intuition|]. destruct (Z.ltb_spec k y); [cbn; intuition|]. destruct (Z.eqb_spec k y); [subst; cbn; intuition|]. cbn. rewrite IH. intuition.
Qed.
Lemma ro_insert_sorted k l : StronglySorted Z.lt l -> StronglySorted Z.lt (ro_insert k l).
Proof.
  induction 1 as [|y l Hs IH Hf]; cbn; [repeat constructor|]. destruct (Z.ltb_spec k y) as [X|X].
  - constructor; [constructor; auto|]. constructor; auto. rewrite Forall_forall in *. intros z Hz. specialize (Hf z Hz). lia.
  - destruct (Z.eqb_spec k y); [constructor; auto|]. constructor; auto. rewrite Forall_forall in *. intros z Hz. apply ro_insert_In in Hz. destruct Hz as [-> |Hz]; [lia|auto].
Qed.
Lemma ro_sort_ok l : StronglySorted Z.lt (ro_sort l) /\ forall x, In x (ro_sort l) <-> In x l.
Proof.
  induction l as [|y l [IH1 IH2]]; cbn; [split; [constructor|tauto]|]. split; [now apply ro_insert_sorted|]. intros x. rewrite ro_insert_In, IH2. intuition.
Qed.

Lemma ro_full fuel idx h : forall l k, Terms (map (fun k => (k, 1)) l) (ro_obj fuel idx h (mkRo (Some l) k)).
Proof.
  induction l as [|x l IH]; intros k; [apply (terms_intro _ _ (ro_obj fuel idx h (mkRo (Some []) k))); reflexivity || exact I|apply (terms_intro _ _ (ro_obj fuel idx h (mkRo (Some (x :: l)) k))); try reflexivity].
  cbn [map]. exists (ro_obj fuel idx h (mkRo (Some l) x)). split; [reflexivity|]. intros o3 P. assert (E : o3 = ro_obj fuel idx h (mkRo (Some l) x)).
  { induction P as [|o1 n o2 P -> E]; [reflexivity|]. cbn in E. injection E as _ <-. reflexivity. }
  subst o3. split; [reflexivity|]. split; [exists (ro_obj fuel idx h (mkRo (Some l) x)); reflexivity|]. apply IH.
Qed.
Lemma ro_terms fuel idx h l k : ro_fill fuel idx h = Some l -> Terms (map (fun k => (k, 1)) l) (ro_obj fuel idx h (mkRo None k)).
Proof.
  intros E. apply (terms_intro _ _ (ro_obj fuel idx h (mkRo (Some l) k))).
  - cbn. unfold ro_hasNext. cbn [ro_left]. rewrite E. now destruct l.
  - reflexivity.
  - now destruct l.
  - destruct l as [|x l]; [exact I|]. cbn [map]. exists (ro_obj fuel idx h (mkRo (Some l) x)). split; [reflexivity|]. intros o3 P. assert (E3 : o3 = ro_obj fuel idx h (mkRo (Some l) x)).
    { induction P as [|o1 n o2 P -> E']; [reflexivity|]. cbn in E'. injection E' as _ <-. reflexivity. }
    subst o3. split; [reflexivity|]. split; [exists (ro_obj fuel idx h (mkRo (Some l) x)); reflexivity|]. apply ro_full.
Qed.
Lemma ro_read_yields : forall l fuel o, Yields false l o -> (length l < fuel)%nat -> ro_read value2 fuel o = Some (map (fun x : elem => snd x) l).
Proof.
  induction l as [|x l IH]; intros fuel o H Hf; (destruct fuel as [|fuel]; [cbn in Hf; lia|]); destruct (Yields_poll _ _ _ H) as (o1 & E1 & _ & H1); cbn [ro_read]; rewrite E1; cbn [nonempty]; [reflexivity|].
  destruct H1 as (o2 & E2 & Ec & _ & Hy). rewrite E2. rewrite (IH fuel o2 Hy ltac:(cbn in Hf; lia)). cbn [map]. f_equal. f_equal. unfold cur in Ec. now rewrite <- Ec.
Qed.
