(** C09: the number of answers. *)
From Coq Require Import Permutation.
From Verif Require Import ItrProofs CardSpec.
Local Open Scope Z_scope.

(** *** Counting lists *)
Lemma cnt_app pat l l' : cnt pat (l ++ l') = cnt pat l + cnt pat l'.
Proof. unfold cnt. rewrite filter_app, app_length. lia. Qed.
Lemma cnt_perm pat l l' : Permutation l l' -> cnt pat l = cnt pat l'.
Proof. intros H. unfold cnt. f_equal. induction H; cbn; auto; try (destruct (matchb pat x)); try (destruct (matchb pat y)); cbn; auto; congruence. Qed.
Lemma cnt_nonneg pat l : 0 <= cnt pat l.
Proof. unfold cnt. lia. Qed.
Lemma minus_in (l d : list triple) x : In x (minus l d) <-> In x l /\ ~ In x d.
Proof.
  unfold minus. rewrite filter_In. destruct (in_dec elem_dec x d) as [Hd|Hd]; split.
  - intros [_ H]. discriminate.
  - intros [_ H]. contradiction.
  - intros [H _]. split; assumption.
  - intros [H _]. split; [assumption|reflexivity].
Qed.
Lemma nodup_app_disj {A} (l m : list A) : NoDup l -> NoDup m -> (forall x, In x l -> ~ In x m) -> NoDup (l ++ m).
Proof.
  intros Nl Nm H. induction Nl as [|x l Hx Nl IH]; cbn; auto. constructor.
  - intros Hi. apply in_app_or in Hi. destruct Hi as [Hi|Hi]; [contradiction|]. apply (H x); [left; reflexivity|assumption].
  - apply IH. intros y Hy. apply H. right. assumption.
Qed.
Lemma minus_split (l d : list triple) : NoDup l -> NoDup d -> incl d l -> Permutation l (minus l d ++ d).
Proof.
  intros Nl Nd Hi. apply NoDup_Permutation; auto.
  - apply nodup_app_disj; auto; [apply NoDup_filter; auto|]. intros x Hx. apply minus_in in Hx. tauto.
  - intros x. rewrite in_app_iff, minus_in. destruct (in_dec elem_dec x d) as [H|H]; split; intros; try tauto. apply Hi. exact H.
Qed.
Lemma apply_nodup (l : list triple) (u : bool * list triple) : NoDup l -> NoDup (snd u) -> (forall t, In t (snd u) -> if fst u then In t l else ~ In t l) -> NoDup (apply_update l u).
Proof.
  unfold apply_update. destruct u as [[|] d]; cbn [fst snd]; intros Nl Nd H; [apply NoDup_filter; auto|].
  apply nodup_app_disj; auto. intros x Hx Hd. exact (H x Hd Hx).
Qed.
Lemma current_nodup h : forall base, NoDup base -> valid base h -> NoDup (current base h).
Proof. induction h as [|u h IH]; intros base N V; cbn in *; auto. destruct V as (V1 & V2 & V3). apply IH; auto. apply apply_nodup; auto. Qed.
Definition signed (pat : triple) (u : bool * list triple) : Z := if fst u then - cnt pat (snd u) else cnt pat (snd u).
Lemma cnt_current pat h : forall base, NoDup base -> valid base h ->
  cnt pat (current base h) = fold_left (fun n u => n + signed pat u) h (cnt pat base).
Proof.
  induction h as [|u h IH]; intros base N V; cbn in *; auto. destruct V as (V1 & V2 & V3). unfold current in *. cbn [fold_left]. rewrite IH; auto; [|apply apply_nodup; auto].
  f_equal. unfold apply_update, signed. destruct u as [[|] d]; cbn [fst snd] in *.
  - rewrite (cnt_perm pat base (minus base d ++ d)) by (apply minus_split; auto). rewrite cnt_app. lia.
  - apply cnt_app.
Qed.
Lemma cnt_all l : cnt (-1, -1, -1) l = Z.of_nat (length l).
Proof. unfold cnt. f_equal. induction l as [|x l IH]; cbn [filter length]; auto. replace (matchb (-1, -1, -1) x) with true by reflexivity. cbn. auto. Qed.
Lemma cnt_vars s p o s' p' o' l : (s < 0 <-> s' < 0) -> (0 <= s -> s = s') -> (p < 0 <-> p' < 0) -> (0 <= p -> p = p') -> (o < 0 <-> o' < 0) -> (0 <= o -> o = o') ->
  cnt (s, p, o) l = cnt (s', p', o') l.
Proof.
  intros. unfold cnt. do 2 f_equal. assert (forall t, matchb (s, p, o) t = matchb (s', p', o') t) as E.
  { intros t. unfold matchb. cbn [field]. assert (E1 : forall a b v, (a < 0 <-> b < 0) -> (0 <= a -> a = b) -> (a <? 0) || (a =? v) = (b <? 0) || (b =? v)) by lia.
    rewrite (E1 s s'), (E1 p p'), (E1 o o') by auto. reflexivity. }
  induction l as [|x l IH]; cbn; auto. rewrite E, IH. reflexivity.
Qed.

(** *** The parts of the engine *)
Section Engine.
Variables (base : list triple) (h : list (bool * list triple)) (g : engine).
Hypotheses (HE : engine_of base h g) (HN : NoDup base) (HV : valid base h).

Lemma input_ok : getInputSize g = Z.of_nat (length (current base h)).
Proof.
  rewrite <- cnt_all, cnt_current, cnt_all by auto. unfold getInputSize. destruct HE as [HI HD _ _]. rewrite HI. clear - HD.
  generalize (Z.of_nat (length base)) as n. induction HD as [|u d h ds (H1 & H2 & _) HD IH]; intros n; cbn [fold_left]; auto.
  rewrite IH. f_equal. unfold signed. rewrite cnt_all, H1, H2. destruct (fst u); lia.
Qed.
Lemma diffs_sub idx ord k n : perm_positions idx = Some ord -> 0 <= k ->
  fold_left (fun t d => if d_del d then t - d_card d idx k else t + d_card d idx k) (g_diffs g) n =
  fold_left (fun n u => n + signed (key_pattern ord k) u) h n.
Proof.
  intros Ho Hk. destruct HE as [_ HD _ _]. clear - HD Ho Hk. revert n. induction HD as [|u d h ds (H1 & _ & H3) HD IH]; intros n; cbn [fold_left]; auto.
  rewrite IH. f_equal. unfold signed. rewrite H1, (H3 _ _ _ Ho Hk). destruct (fst u); lia.
Qed.
Lemma diffs_add idx ord k n : perm_positions idx = Some ord -> 0 <= k -> Forall (fun u => fst u = false) h ->
  fold_left (fun t d => t + d_card d idx k) (g_diffs g) n = fold_left (fun n u => n + signed (key_pattern ord k) u) h n.
Proof.
  intros Ho Hk Ha. destruct HE as [_ HD _ _]. clear - HD Ho Hk Ha. revert n. induction HD as [|u d h ds (H1 & _ & H3) HD IH]; intros n; cbn [fold_left]; auto.
  inversion Ha as [|? ? A1 A2]; subst. rewrite IH by auto. f_equal. unfold signed. rewrite A1, (H3 _ _ _ Ho Hk). reflexivity.
Qed.
Lemma lookup_ok k c : 0 <= k -> cache_ok g c -> cache_ok g (lookup g k c) /\ c_last (lookup g k c) = k.
Proof.
  intros Hk Hc. unfold lookup. destruct (Z.eqb_spec (c_last c) k) as [E|E]; [auto|].
  destruct (g_tree g k) as [v|] eqn:Et; cbn; split; auto; right; cbn; rewrite Et; auto.
Qed.
Lemma after_ok idx s p o c : cache_ok g c -> cache_ok g (after_it g idx s p o c).
Proof. intros Hc. unfold after_it. destruct getIterator_split as [[[a b] d]|]; auto. destruct (Z.leb_spec 0 a); auto. apply lookup_ok; auto. Qed.
Lemma elements_ok idx ord c : perm_positions idx = Some ord -> 0 <= c_last c -> cache_ok g c ->
  (forall v, g_tree g (c_last c) = Some v -> entry base ord (c_last c) (v idx)) ->
  elements c idx = cnt (key_pattern ord (c_last c)) base.
Proof.
  intros Ho Hk [[H _]|[_ H]] He; [lia|]. unfold elements. destruct HE as [_ _ HT _]. specialize (HT _ Hk). destruct (g_tree g (c_last c)) as [v|].
  - destruct H as [-> ->]. specialize (He _ eq_refl). destruct He as [[E1 ->]|[E1 ->]]; lia.
  - rewrite H. rewrite (HT _ _ Ho). reflexivity.
Qed.

Lemma it_ok s p o : -1 <= s -> -1 <= p -> -1 <= o -> ~ (s < 0 /\ p < 0 /\ o < 0) ->
  let n := cnt (s, p, o) (current base h) in let itr := g_it g (getIndex s p o) s p o in
  (i_empty itr = true -> n = 0) /\ (i_empty itr = false -> i_has itr = (0 <? n)) /\ i_card itr = Some n.
Proof.
  intros Hs Hp Ho Hb. assert (exists ord, perm_positions (getIndex s p o) = Some ord /\ let '(a, b, c) := reorder ord (s, p, o) in 0 <= a /\ (b < 0 -> c < 0)) as (ord & E & C).
  { unfold getIndex. destruct (Z.leb_spec 0 s), (Z.leb_spec 0 p), (Z.leb_spec 0 o); cbn [orb andb];
      repeat match goal with |- context [?a =? -2] => destruct (Z.eqb_spec a (-2)); [lia|] end; cbn [orb andb];
      try (eexists; split; [reflexivity|]; cbn; lia). }
  destruct HE as [_ _ _ HI]. destruct (HI _ ord s p o E Hs Hp Ho C) as (H1 & H2 & H3 & _). auto.
Qed.
End Engine.

Lemma unbound_cases s p o : unbound s p o = 2 -> (0 <= s /\ p < 0 /\ o < 0) \/ (s < 0 /\ 0 <= p /\ o < 0) \/ (s < 0 /\ p < 0 /\ 0 <= o).
Proof. unfold unbound. destruct (Z.ltb_spec s 0), (Z.ltb_spec p 0), (Z.ltb_spec o 0); lia. Qed.
Lemma full_match_one s p o l : 0 <= s -> 0 <= p -> 0 <= o -> NoDup l -> cnt (s, p, o) l = 0 \/ cnt (s, p, o) l = 1.
Proof.
  intros Hs Hp Ho N. unfold cnt. assert (HF : forall t, In t (filter (matchb (s, p, o)) l) -> t = (s, p, o)).
  { intros [[a b] c] Ht. apply filter_In in Ht. destruct Ht as [_ Ht]. unfold matchb in Ht. cbn [field] in Ht. repeat f_equal; lia. }
  assert (NoDup (filter (matchb (s, p, o)) l)) as N' by (apply NoDup_filter; auto). destruct (filter _ l) as [|x [|y m]]; cbn; auto.
  exfalso. inversion N' as [|? ? Hx _]; subst. apply Hx. left. rewrite (HF x), (HF y); cbn; auto.
Qed.

(** getCard is the number of answers, and earlier questions do not change that, except for
    patterns with exactly one constant after a deletion or without stored tables (see the
    refutations; missing here). *)
Theorem C09_getCard_partial : forall base h g s p o c, engine_of base h g -> NoDup base -> valid base h -> cache_ok g c ->
  -1 <= s -> -1 <= p -> -1 <= o ->
  (unbound s p o = 2 -> Forall (fun u => fst u = false) h /\ all_tables base g) ->
  exists c', getCard_internal g s p o c = Some (cnt (s, p, o) (current base h), c') /\ cache_ok g c'.
Proof.
  intros base h g s p o c HE HN HV Hc Hs Hp Ho Hu. unfold getCard_internal.
  destruct ((s <? 0) && (p <? 0) && (o <? 0)) eqn:E0.
  { exists c. split; auto. rewrite (input_ok base h g) by auto. rewrite <- cnt_all. do 2 f_equal. apply cnt_vars; lia. }
  destruct ((unbound s p o =? 2) && (g_present g (getIndex s p o) || ((3 <=? getIndex s p o) && g_present g (getIndex s p o - 3)))) eqn:E2.
  - apply andb_true_iff in E2. destruct E2 as [E2 _]. apply Z.eqb_eq in E2. destruct (Hu E2) as [Ha Ht]. apply unbound_cases in E2.
    set (key := if 0 <=? s then s else if 0 <=? p then p else o).
    assert (Hidx : exists ord, perm_positions (getIndex s p o) = Some ord /\ 0 <= key /\ forall l, cnt (s, p, o) l = cnt (key_pattern ord key) l).
    { unfold getIndex, key. destruct E2 as [(A & B & C)|[(A & B & C)|(A & B & C)]]; destruct (Z.leb_spec 0 s), (Z.leb_spec 0 p), (Z.leb_spec 0 o); try lia; cbn [orb andb];
        repeat match goal with |- context [?a =? -2] => destruct (Z.eqb_spec a (-2)); [lia|] end; cbn [orb andb];
        (eexists; split; [reflexivity|]; split; [lia|]; intros l; apply cnt_vars; lia). }
    destruct Hidx as (ord & Eo & Hk & Ec). destruct (lookup_ok g key c Hk Hc) as [Hc1 Hl]. exists (lookup g key c). split; auto. do 2 f_equal.
    rewrite (diffs_add base h g HE _ ord) by auto. rewrite Ec, cnt_current by auto. f_equal.
    rewrite (elements_ok base h g HE _ ord) by (rewrite ?Hl; auto; intros v Ev; eapply Ht; eauto). rewrite Hl. reflexivity.
  - destruct (it_ok base h g HE s p o Hs Hp Ho ltac:(lia)) as (I1 & I2 & I3). pose proof (after_ok g (getIndex s p o) s p o c Hc) as Hc1.
    pose proof (cnt_nonneg (s, p, o) (current base h)) as Hnn.
    eexists. split; [|exact Hc1]. destruct (i_empty (g_it g (getIndex s p o) s p o)) eqn:Ee; cbn [negb andb].
    + rewrite I1 by auto. reflexivity.
    + rewrite I2 by auto. destruct (Z.ltb_spec 0 (cnt (s, p, o) (current base h))) as [Hpos|Hz].
      * destruct (Z.eqb_spec (unbound s p o) 0) as [Eu|Eu]; [|now rewrite I3].
        do 2 f_equal. unfold unbound in Eu. destruct (Z.ltb_spec s 0), (Z.ltb_spec p 0), (Z.ltb_spec o 0); try lia.
        destruct (full_match_one s p o (current base h)); auto; try lia. apply current_nodup; auto.
      * do 2 f_equal. lia.
Qed.
Print Assumptions C09_getCard_partial.

(** *** Counting on a given index *)
Lemma distinct_const (f : triple -> Z) v pat l : (forall t, In t l -> matchb pat t = true -> f t = v) -> 0 < cnt pat l -> distinct Z.eq_dec f pat l = 1.
Proof.
  unfold distinct, cnt. intros H Hp. assert (forall m, (forall t, In t m -> f t = v) -> (0 < length m)%nat -> length (nodup Z.eq_dec (map f m)) = 1%nat) as G.
  { induction m as [|x m IH]; intros Hm Hl; cbn [length] in *; [lia|]. cbn [map nodup]. rewrite (Hm x) by (left; auto).
    destruct (in_dec Z.eq_dec v (map f m)) as [Hi|Hi].
    - destruct m as [|y m]; [destruct Hi|]. apply IH; [intros; apply Hm; right; auto|cbn; lia].
    - destruct m as [|y m]; [reflexivity|]. exfalso. apply Hi. left. apply Hm. right. left. auto. }
  rewrite G; auto; [|lia]. intros t Ht. apply filter_In in Ht. apply H; tauto.
Qed.
Lemma distinct_none {A} dec (f : triple -> A) pat l : cnt pat l = 0 -> distinct dec f pat l = 0.
Proof. unfold distinct, cnt. destruct (filter (matchb pat) l); cbn; auto. intros; lia. Qed.
Lemma distinct_inj (f : triple -> Z) pat l : NoDup l -> (forall t t', matchb pat t = true -> matchb pat t' = true -> f t = f t' -> t = t') ->
  distinct Z.eq_dec f pat l = cnt pat l.
Proof.
  intros N H. unfold distinct, cnt. f_equal. rewrite nodup_fixed_point, map_length; auto.
  assert (HF : forall t, In t (filter (matchb pat) l) -> matchb pat t = true) by (intros t Ht; apply filter_In in Ht; tauto).
  assert (Nf : NoDup (filter (matchb pat) l)) by (apply NoDup_filter; auto). induction Nf as [|x m Hx Nf IH]; cbn; constructor.
  - intros Hi. apply in_map_iff in Hi. destruct Hi as (y & Ey & Hy). apply Hx. rewrite (H x y); auto; apply HF; cbn; auto.
  - apply IH. intros; apply HF; right; auto.
Qed.
Lemma matchb_field pat t i : (i < 3)%nat -> matchb pat t = true -> 0 <= field pat i -> field t i = field pat i.
Proof.
  intros Hi H Hp. unfold matchb in H. destruct i as [|[|[|]]]; [| | |lia]; lia.
Qed.
(** Constants come first in the order of the index, and the key is one. *)
Definition constants_first (ord : list nat) (s p o : Z) : Prop := let '(a, b, c) := reorder ord (s, p, o) in 0 <= a /\ (b < 0 -> c < 0).

Ltac perm_cases Hp := unfold perm_positions in Hp;
  repeat match type of Hp with (if ?b then _ else _) = _ => destruct b eqn:? in Hp end; try discriminate; injection Hp as <-;
  repeat match goal with H : (_ =? _) = true |- _ => apply Z.eqb_eq in H end; repeat match goal with H : (_ =? _) = false |- _ => clear H end; subst.

Theorem C09_on_index : forall base h g idx ord s p o skip c, engine_of base h g -> NoDup base -> valid base h -> cache_ok g c ->
  perm_positions idx = Some ord -> -1 <= s -> -1 <= p -> -1 <= o ->
  constants_first ord s p o ->
  exists c', getCardOnIndex g idx s p o skip c =
    Some (if skip then distinct Z.eq_dec (fun t => field t (nth 1 ord 3%nat)) (s, p, o) (current base h) else cnt (s, p, o) (current base h), c') /\ cache_ok g c'.
Proof.
  intros base h g idx ord s p o skip c HE HN HV Hc Hperm Hs Hp Ho Hcf. pose proof (after_ok g idx s p o c Hc) as Hc1. pose proof (cnt_nonneg (s, p, o) (current base h)) as Hnn.
  destruct (eo_it _ _ _ HE idx ord s p o Hperm Hs Hp Ho Hcf) as (I1 & I2 & I3 & I4). unfold getCardOnIndex.
  match goal with |- context [if ?b && negb skip then _ else _] => replace b with false by (clear - Hperm Hcf; unfold constants_first in Hcf; perm_cases Hperm; cbn in *; lia) end.
  cbn [andb]. exists (after_it g idx s p o c). split; [|exact Hc1].
  destruct (i_empty (g_it g idx s p o)) eqn:Ee; cbn [negb andb].
  { rewrite I1 by auto. destruct skip; auto. rewrite distinct_none; auto. }
  rewrite I2 by auto. destruct (Z.ltb_spec 0 (cnt (s, p, o) (current base h))) as [Hpos|Hz].
  2:{ replace (cnt (s, p, o) (current base h)) with 0 by lia. destruct skip; auto. rewrite distinct_none by lia. auto. }
  destruct (Z.leb_spec 2 (unbound s p o)) as [H2|H2].
  - destruct skip; [rewrite I4; reflexivity|].
    set (idx2 := if 2 <? idx then idx - 3 else idx). destruct (g_present g idx2) eqn:Epr; cbn [negb]; [|rewrite I3; reflexivity].
    do 2 f_equal. set (c1 := after_it g idx s p o c) in *.
    assert (exists ord2 k, perm_positions idx2 = Some ord2 /\ idx2 < 3 /\ 0 <= k /\ c_last c1 = k /\ forall l, cnt (s, p, o) l = cnt (key_pattern ord2 k) l) as (ord2 & k & Ep2 & Hlt & Hk & El & Ec).
    { clear - Hperm Hcf H2 Hc. unfold constants_first in Hcf. subst idx2 c1. unfold unbound in H2.
      perm_cases Hperm; cbn in Hcf; do 2 eexists; (split; [reflexivity|]); (split; [reflexivity|]);
      match goal with |- 0 <= ?e /\ _ => match type of Hcf with 0 <= ?a /\ _ => unify e a end end; (split; [lia|]);
      (split; [unfold after_it; cbn [getIterator_split Z.eqb Pos.eqb IDX_SPO IDX_OPS IDX_POS IDX_SOP IDX_OSP IDX_PSO]; destruct (Z.leb_spec 0 s), (Z.leb_spec 0 p), (Z.leb_spec 0 o); try lia; apply lookup_ok; auto|]);
      intros l; apply cnt_vars; destruct (Z.ltb_spec s 0), (Z.ltb_spec p 0), (Z.ltb_spec o 0); lia. }
    rewrite El, (diffs_sub base h g HE idx2 ord2) by auto. rewrite Ec, cnt_current by auto. f_equal.
    rewrite (elements_ok base h g HE idx2 ord2); [rewrite El; reflexivity|auto|lia|auto|].
    intros v Ev. pose proof (eo_tree _ _ _ HE (c_last c1) ltac:(lia)) as HT. rewrite Ev in HT. apply HT; auto.
  - assert (Hd : skip = true -> distinct Z.eq_dec (fun t => field t (nth 1 ord 3%nat)) (s, p, o) (current base h) = 1).
    { intros _. apply (distinct_const _ (field (s, p, o) (nth 1 ord 3%nat))); auto. intros t _ Ht. apply matchb_field; auto;
      clear - Hperm Hcf H2; unfold constants_first in Hcf; unfold unbound in H2; destruct (Z.ltb_spec s 0), (Z.ltb_spec p 0), (Z.ltb_spec o 0); perm_cases Hperm; cbn in *; lia. }
    destruct (Z.eqb_spec (unbound s p o) 1) as [E1|E1].
    + destruct skip; [rewrite Hd by auto; reflexivity|]. rewrite I3. reflexivity.
    + destruct skip; [rewrite Hd by auto; reflexivity|]. do 2 f_equal. unfold unbound in *. destruct (Z.ltb_spec s 0), (Z.ltb_spec p 0), (Z.ltb_spec o 0); try lia.
      destruct (full_match_one s p o (current base h)); auto; try lia. apply current_nodup; auto.
Qed.
Print Assumptions C09_on_index.

(** All variables: the size of the database. *)
Theorem C09_size : forall base h g s p o idx c, engine_of base h g -> NoDup base -> valid base h -> s < 0 -> p < 0 -> o < 0 -> 0 <= idx <= 5 ->
  getCard_internal g s p o c = Some (Z.of_nat (length (current base h)), c) /\
  getCardOnIndex g idx s p o false c = Some (Z.of_nat (length (current base h)), c).
Proof.
  intros base h g s p o idx c HE HN HV Hs Hp Ho Hi. rewrite <- (input_ok base h g) by auto. unfold getCard_internal, getCardOnIndex.
  rewrite !(proj2 (Z.ltb_lt _ _)) by auto. split; auto.
  assert (idx = 0 \/ idx = 1 \/ idx = 2 \/ idx = 3 \/ idx = 4 \/ idx = 5) as [-> |[-> |[-> |[-> |[-> | -> ]]]]] by lia; reflexivity.
Qed.
Print Assumptions C09_size.

(** The number of different values at a free position. *)
Theorem C09_distinct : forall base h g s p o pos, engine_of base h g -> NoDup base -> valid base h ->
  -1 <= s -> -1 <= p -> -1 <= o -> ~ (s < 0 /\ p < 0 /\ o < 0) -> 0 <= pos <= 2 -> field (s, p, o) (Z.to_nat pos) = -1 ->
  getCardPos g s p o pos = Some (distinct Z.eq_dec (fun t => field t (Z.to_nat pos)) (s, p, o) (current base h)).
Proof.
  intros base h g s p o pos HE HN HV Hs Hp Ho Hb Hpos Hf. destruct (it_ok base h g HE s p o Hs Hp Ho Hb) as (I1 & I2 & I3). pose proof (cnt_nonneg (s, p, o) (current base h)) as Hnn.
  unfold getCardPos. replace ((s <? 0) && (p <? 0) && (o <? 0)) with false by lia.
  destruct (i_empty (g_it g (getIndex s p o) s p o)) eqn:Ee; cbn [negb andb].
  { rewrite distinct_none; auto. }
  rewrite I2 by auto. destruct (Z.ltb_spec 0 (cnt (s, p, o) (current base h))) as [Hq|Hz]; [|rewrite distinct_none by lia; auto].
  assert (Epos : (pos = 0 /\ s = -1) \/ (pos = 1 /\ p = -1) \/ (pos = 2 /\ o = -1)).
  { assert (pos = 0 \/ pos = 1 \/ pos = 2) as [-> |[-> | -> ]] by lia; [left|right; left|right; right]; split; auto. }
  destruct (Z.eqb_spec (unbound s p o) 0) as [U0|U0].
  { exfalso. unfold unbound in U0. destruct (Z.ltb_spec s 0), (Z.ltb_spec p 0), (Z.ltb_spec o 0); lia. }
  destruct (Z.eqb_spec (unbound s p o) 1) as [U1|U1].
  - rewrite I3. f_equal. symmetry. apply distinct_inj; [apply current_nodup; auto|]. intros [[a b] d] [[a' b'] d'] M M' E.
    unfold matchb in M, M'. cbn [field] in M, M'. unfold unbound in U1.
    destruct (Z.ltb_spec s 0), (Z.ltb_spec p 0), (Z.ltb_spec o 0); try lia; destruct Epos as [[-> Ev]|[[-> Ev]|[-> Ev]]]; try lia; [assert (Ea : a = a') by exact E; clear E|..]; [|assert (Eb : b = b') by exact E; clear E|assert (Ed : d = d') by exact E; clear E]; repeat f_equal; lia.
  - assert (U2 : unbound s p o = 2). { unfold unbound in *. destruct (Z.ltb_spec s 0), (Z.ltb_spec p 0), (Z.ltb_spec o 0); lia. } rewrite U2. cbn [Z.eqb Pos.eqb]. apply unbound_cases in U2.
    set (idx2 := if 0 <=? s then _ else _).
    replace (if getIndex s p o =? idx2 then g_it g (getIndex s p o) s p o else g_it g idx2 s p o) with (g_it g idx2 s p o) by (destruct (Z.eqb_spec (getIndex s p o) idx2) as [->|]; auto).
    assert (exists ord, perm_positions idx2 = Some ord /\ constants_first ord s p o /\ nth 1 ord 3%nat = Z.to_nat pos) as (ord & Ep & Hcf & En).
    { subst idx2. destruct U2 as [(A & B & C)|[(A & B & C)|(A & B & C)]]; destruct (Z.leb_spec 0 s), (Z.leb_spec 0 p); try lia;
      destruct Epos as [[-> Ev]|[[-> Ev]|[-> Ev]]]; try lia; cbn [Z.eqb Pos.eqb]; (eexists; split; [reflexivity|]; split; [unfold constants_first; cbn; lia|reflexivity]). }
    destruct (eo_it _ _ _ HE idx2 ord s p o Ep Hs Hp Ho Hcf) as (_ & _ & _ & I4). rewrite I4, En. reflexivity.
Qed.
Print Assumptions C09_distinct.

Theorem C09_exists : forall base h g s p o, engine_of base h g -> -1 <= s -> -1 <= p -> -1 <= o -> ~ (s < 0 /\ p < 0 /\ o < 0) ->
  (exists_ g s p o = true <-> exists t, In t (current base h) /\ matches (s, p, o) t) /\
  (isEmpty g s p o = true <-> forall t, In t (current base h) -> ~ matches (s, p, o) t).
Proof.
  intros base h g s p o HE Hs Hp Ho Hb. destruct (it_ok base h g HE s p o Hs Hp Ho Hb) as (I1 & I2 & _).
  assert (HM : forall t, matchb (s, p, o) t = true <-> matches (s, p, o) t).
  { intros t. unfold matches, matches1. split.
    - intros H i Hi. destruct (Z.ltb_spec (field (s, p, o) i) 0); [left; auto|right]. symmetry. apply matchb_field; auto.
    - intros H. pose proof (H 0%nat ltac:(lia)). pose proof (H 1%nat ltac:(lia)). pose proof (H 2%nat ltac:(lia)). destruct t as [[a b] d]. unfold matchb. cbn [field] in *. lia. }
  assert (HC : 0 < cnt (s, p, o) (current base h) <-> exists t, In t (current base h) /\ matches (s, p, o) t).
  { unfold cnt. split.
    - intros H. destruct (filter _ _) as [|t m] eqn:E; cbn in H; [lia|]. exists t. rewrite <- HM, <- filter_In, E. left. auto.
    - intros (t & Ht & Hm). apply HM in Hm. pose proof (proj2 (filter_In (matchb (s, p, o)) t _) (conj Ht Hm)) as Hi. destruct (filter _ _); [destruct Hi|cbn; lia]. }
  assert (HX : exists_ g s p o = (0 <? cnt (s, p, o) (current base h))).
  { unfold exists_. destruct (i_empty _) eqn:E; [rewrite I1 by auto; reflexivity|auto]. }
  assert (HY : isEmpty g s p o = negb (exists_ g s p o)).
  { unfold isEmpty, exists_. replace ((s <? 0) && (p <? 0) && (o <? 0)) with false by lia. destruct (i_empty _); auto. }
  rewrite HY, HX, <- HC. split; [lia|]. split.
  - intros H t Ht Hm. assert (0 < cnt (s, p, o) (current base h)) by (apply HC; eauto). lia.
  - intros H. destruct (Z.ltb_spec 0 (cnt (s, p, o) (current base h))) as [Hq|]; auto. apply HC in Hq. destruct Hq as (t & Ht & Hm). exfalso. eapply H; eauto.
Qed.
Print Assumptions C09_exists.

(** *** Example engines: the tables that are stored are chosen by [stored] *)
Definition ref_tree (base : list triple) (stored : Z -> bool) (k : Z) : option (Z -> option Z) :=
  if forallb (fun i => cnt (key_pattern [i] k) base =? 0) [0; 1; 2]%nat then None
  else Some (fun idx => match perm_positions idx with
    | Some ord => if stored idx then let n := cnt (key_pattern ord k) base in if n =? 0 then None else Some n else None
    | None => None end).
Definition ref_diff (u : bool * list triple) : diff :=
  mkDiff (fst u) (Z.of_nat (length (snd u))) (fun idx k => match perm_positions idx with Some ord => cnt (key_pattern ord k) (snd u) | None => 0 end).
Definition ref_qit (l : list triple) (idx s p o : Z) : qit :=
  match perm_positions idx with
  | Some ord => let n := cnt (s, p, o) l in
      mkQit (n =? 0) (0 <? n) (Some n) (Some (distinct Z.eq_dec (fun t => field t (nth 1 ord 3%nat)) (s, p, o) l))
  | None => mkQit true false None None
  end.
Definition ref_engine (base : list triple) (h : list (bool * list triple)) (present stored : Z -> bool) : engine :=
  mkEngine (Z.of_nat (length base)) (ref_tree base stored) present (map ref_diff h) (ref_qit (current base h)).
Lemma ref_engine_ok base h present stored : (forall idx, idx < 3 -> present idx = true -> stored idx = true) -> engine_of base h (ref_engine base h present stored).
Proof.
  intros Hst. assert (Hkp : forall ord k i, nth 0 ord 3%nat = i -> key_pattern ord k = key_pattern [i] k) by (intros; subst; reflexivity).
  split; cbn [ref_engine g_input g_tree g_present g_diffs g_it].
  - reflexivity.
  - induction h as [|u h IH]; cbn [map]; constructor; auto. cbn. split; [reflexivity|]. split; [reflexivity|]. intros idx ord k E _. rewrite E. reflexivity.
  - intros k Hk. unfold ref_tree. destruct (forallb _ _) eqn:E.
    + cbn [forallb] in E. intros idx ord Hp. assert (nth 0 ord 3%nat = 0%nat \/ nth 0 ord 3%nat = 1%nat \/ nth 0 ord 3%nat = 2%nat) as [Hn|[Hn|Hn]] by (clear E; perm_cases Hp; cbn; auto); rewrite (Hkp _ _ _ Hn); lia.
    + intros idx ord Hp Hi Hpr. rewrite Hp, Hst by auto. unfold entry. cbv zeta. pose proof (cnt_nonneg (key_pattern ord k) base). destruct (Z.eqb_spec (cnt (key_pattern ord k) base) 0); [left|right]; split; auto; lia.
  - intros idx ord s p o Hp _ _ _ _. unfold ref_qit. rewrite Hp. cbn [i_empty i_has i_card i_card_ign]. split; [lia|]. split; [auto|]. split; auto.
Qed.
Lemma ref_all_tables base h : all_tables base (ref_engine base h (fun _ => true) (fun _ => true)).
Proof.
  intros k v idx ord Hk Ev Hp. split; auto. cbn [ref_engine g_tree] in Ev. unfold ref_tree in Ev. destruct (forallb _ _); [discriminate|]. injection Ev as <-. rewrite Hp.
  unfold entry. cbv zeta. pose proof (cnt_nonneg (key_pattern ord k) base). destruct (Z.eqb_spec (cnt (key_pattern ord k) base) 0); [left|right]; split; auto; lia.
Qed.
Definition no_cache : cache := mkCache (-1) false (fun _ => None).
Lemma no_cache_ok g : cache_ok g no_cache.
Proof. left. auto. Qed.

Definition cd_base : list triple := [(1, 2, 3); (1, 2, 4); (1, 5, 3); (6, 2, 3)].
Definition cd_add : list (bool * list triple) := [(false, [(1, 7, 7); (8, 2, 3)]); (false, [(1, 9, 9)])].
Definition cd_del : list (bool * list triple) := [(false, [(1, 7, 7); (8, 2, 3)]); (true, [(1, 2, 4); (8, 2, 3)])].
Lemma cd_nodup : NoDup cd_base.
Proof. repeat constructor; cbn; intuition congruence. Qed.
Lemma cd_add_valid : valid cd_base cd_add.
Proof. cbn. repeat split; try (intros t [<-|[<-|[]]]); try (intros t [<-|[]]); try (repeat constructor); cbn; intuition congruence. Qed.
Lemma cd_del_valid : valid cd_base cd_del.
Proof.
  cbn. split; [repeat constructor; cbn; intuition congruence|]. split; [intros t [<-|[<-|[]]]; cbn; intuition congruence|].
  split; [repeat constructor; cbn; intuition congruence|]. split; [intros t [<-|[<-|[]]]; cbn; auto 10|auto].
Qed.
Definition all_stored : Z -> bool := fun _ => true.

Example C09_getCard_case : exists c', getCard_internal (ref_engine cd_base cd_add all_stored all_stored) 1 (-1) (-1) no_cache = Some (5, c').
Proof.
  destruct (C09_getCard_partial cd_base cd_add (ref_engine cd_base cd_add all_stored all_stored) 1 (-1) (-1) no_cache) as (c' & E & _); try lia; auto using cd_nodup, cd_add_valid, no_cache_ok.
  - apply ref_engine_ok. auto.
  - intros _. split; [repeat constructor|apply ref_all_tables].
  - exists c'. exact E.
Qed.
Example C09_getCard_two_constants_after_delete : exists c', getCard_internal (ref_engine cd_base cd_del all_stored all_stored) 1 2 (-1) no_cache = Some (1, c').
Proof.
  destruct (C09_getCard_partial cd_base cd_del (ref_engine cd_base cd_del all_stored all_stored) 1 2 (-1) no_cache) as (c' & E & _); try lia; auto using cd_nodup, cd_del_valid, no_cache_ok.
  - apply ref_engine_ok. auto.
  - intros U. discriminate.
  - exists c'. exact E.
Qed.
Example C09_on_index_case : exists c', getCardOnIndex (ref_engine cd_base cd_del all_stored all_stored) IDX_SOP 1 (-1) (-1) false no_cache = Some (3, c').
Proof.
  destruct (C09_on_index cd_base cd_del (ref_engine cd_base cd_del all_stored all_stored) IDX_SOP [0; 2; 1]%nat 1 (-1) (-1) false no_cache) as (c' & E & _); try lia; auto using cd_nodup, cd_del_valid, no_cache_ok.
  - apply ref_engine_ok. auto.
  - unfold constants_first. cbn. lia.
  - exists c'. exact E.
Qed.
Example C09_size_case : getCard_internal (ref_engine cd_base cd_del all_stored all_stored) (-1) (-1) (-1) no_cache = Some (4, no_cache).
Proof.
  apply (C09_size cd_base cd_del (ref_engine cd_base cd_del all_stored all_stored) (-1) (-1) (-1) 0 no_cache); auto using cd_nodup, cd_del_valid; try lia.
  apply ref_engine_ok. auto.
Qed.
Example C09_distinct_case : getCardPos (ref_engine cd_base cd_del all_stored all_stored) 1 (-1) (-1) 2 = Some 2.
Proof.
  rewrite (C09_distinct cd_base cd_del); auto using cd_nodup, cd_del_valid; try lia; apply ref_engine_ok. auto.
Qed.
Example C09_exists_case : exists_ (ref_engine cd_base cd_del all_stored all_stored) 1 2 (-1) = true /\ isEmpty (ref_engine cd_base cd_del all_stored all_stored) 1 2 4 = true.
Proof.
  split.
  - apply (C09_exists cd_base cd_del); try lia; [apply ref_engine_ok; auto|]. exists (1, 2, 3). split; [cbn; auto|]. intros i Hi. unfold matches1. destruct i as [|[|[|]]]; cbn; lia.
  - apply (C09_exists cd_base cd_del); try lia; [apply ref_engine_ok; auto|]. intros t Ht Hm. cbn in Ht.
    pose proof (Hm 1%nat ltac:(lia)) as M1. pose proof (Hm 2%nat ltac:(lia)) as M2. unfold matches1 in *. destruct Ht as [<-|[<-|[<-|[<-|[]]]]]; cbn in *; lia.
Qed.

(** *** What does not hold *)
(** After a deletion the number of answers of a pattern with one constant counts the deleted
    triples twice instead of leaving them out. *)
Theorem C09_delete_refuted : exists base h g, engine_of base h g /\ NoDup base /\ valid base h /\ all_tables base g /\
  exists c', getCard_internal g 1 (-1) (-1) no_cache = Some (5, c') /\ cnt (1, -1, -1) (current base h) = 3.
Proof.
  exists cd_base, cd_del, (ref_engine cd_base cd_del all_stored all_stored). split; [apply ref_engine_ok; auto|]. split; [apply cd_nodup|]. split; [apply cd_del_valid|]. split; [apply ref_all_tables|].
  eexists. split; reflexivity.
Qed.
Print Assumptions C09_delete_refuted.
(** How far it is off: twice the number of deleted triples that match. *)
Theorem C09_delete_error : forall base h g s p o c, engine_of base h g -> NoDup base -> valid base h -> cache_ok g c -> all_tables base g ->
  -1 <= s -> -1 <= p -> -1 <= o -> unbound s p o = 2 -> (g_present g (getIndex s p o) = true) ->
  exists c', getCard_internal g s p o c =
    Some (cnt (s, p, o) (current base h) + 2 * fold_left (fun (n : Z) (u : bool * list triple) => if fst u then n + cnt (s, p, o) (snd u) else n) h 0, c').
Proof.
  intros base h g s p o c HE HN HV Hc Ht Hs Hp Ho E2 Hpr. unfold getCard_internal.
  pose proof (unbound_cases _ _ _ E2) as Ecases. rewrite E2, Hpr. cbn [Z.eqb Pos.eqb orb andb].
  replace ((s <? 0) && (p <? 0) && (o <? 0)) with false by lia.
  set (key := if 0 <=? s then s else if 0 <=? p then p else o).
  assert (Hidx : exists ord, perm_positions (getIndex s p o) = Some ord /\ 0 <= key /\ forall l, cnt (s, p, o) l = cnt (key_pattern ord key) l).
  { clear Hpr. unfold getIndex, key. destruct Ecases as [(A & B & C)|[(A & B & C)|(A & B & C)]]; destruct (Z.leb_spec 0 s), (Z.leb_spec 0 p), (Z.leb_spec 0 o); try lia; cbn [orb andb];
      repeat match goal with |- context [?a =? -2] => destruct (Z.eqb_spec a (-2)); [lia|] end; cbn [orb andb];
      (eexists; split; [reflexivity|]; split; [lia|]; intros l; apply cnt_vars; lia). }
  destruct Hidx as (ord & Eo & Hk & Ec). destruct (lookup_ok g key c Hk Hc) as [Hc1 Hl]. exists (lookup g key c). do 2 f_equal.
  rewrite (elements_ok base h g HE _ ord) by (rewrite ?Hl; auto; intros v Ev; eapply Ht; eauto). rewrite Hl, Ec, cnt_current by auto.
  rewrite (Ec base) || idtac. pose proof (eo_diffs _ _ _ HE) as HD. generalize (cnt (key_pattern ord key) base) as n. clear - HD Eo Hk Ec.
  assert (HS : forall h' m, fold_left (fun (n : Z) (u : bool * list triple) => if fst u then n + cnt (s, p, o) (snd u) else n) h' m = m + fold_left (fun (n : Z) (u : bool * list triple) => if fst u then n + cnt (s, p, o) (snd u) else n) h' 0).
  { clear. induction h' as [|u h' IH]; intros m; cbn [fold_left]; [lia|]. destruct (fst u); rewrite IH; [rewrite (IH (0 + _))|]; lia. }
  assert (HS2 : forall h' m k, fold_left (fun n u => n + signed (key_pattern ord key) u) h' (m + k) = fold_left (fun n u => n + signed (key_pattern ord key) u) h' m + k).
  { clear. induction h' as [|u h' IH]; intros m k; cbn [fold_left]; [lia|]. rewrite <- IH. f_equal. lia. }
  induction HD as [|u d h ds (H1 & _ & H3) HD IH]; intros n; cbn [fold_left]; [lia|]. rewrite IH, (H3 _ _ _ Eo Hk). rewrite !HS2.
  unfold signed. destruct (fst u); [|lia]. rewrite (HS h (0 + _)), Ec. lia.
Qed.
Print Assumptions C09_delete_error.
Example C09_delete_error_case : exists c', getCard_internal (ref_engine cd_base cd_del all_stored all_stored) 1 (-1) (-1) no_cache = Some (3 + 2 * 1, c').
Proof.
  destruct (C09_delete_error cd_base cd_del (ref_engine cd_base cd_del all_stored all_stored) 1 (-1) (-1) no_cache) as (c' & E); try lia; auto using cd_nodup, cd_del_valid, no_cache_ok.
  - apply ref_engine_ok. auto.
  - apply ref_all_tables.
  - exists c'. exact E.
Qed.

(** With only three permutations, or when the table was skipped, a pattern with one constant has
    zero answers. *)
Theorem C09_three_permutations_refuted : exists base g, engine_of base [] g /\ NoDup base /\
  (forall idx, g_present g idx = (idx <? 3)) /\
  exists c', getCard_internal g 1 (-1) (-1) no_cache = Some (0, c') /\ cnt (1, -1, -1) base = 3.
Proof.
  exists cd_base, (ref_engine cd_base [] (fun i => i <? 3) (fun i => i <? 3)). split; [apply ref_engine_ok; auto|]. split; [apply cd_nodup|]. split; [reflexivity|]. eexists. split; reflexivity.
Qed.
Print Assumptions C09_three_permutations_refuted.
Theorem C09_skipped_refuted : exists base g, engine_of base [] g /\ NoDup base /\ (forall idx, 0 <= idx <= 5 -> g_present g idx = true) /\
  exists c', getCard_internal g 1 (-1) (-1) no_cache = Some (0, c') /\ cnt (1, -1, -1) base = 3.
Proof.
  exists cd_base, (ref_engine cd_base [] (fun i => i <? 6) (fun i => i <? 3)). split; [apply ref_engine_ok; intros; lia|]. split; [apply cd_nodup|]. split; [intros; cbn; lia|]. eexists. split; reflexivity.
Qed.
Print Assumptions C09_skipped_refuted.

(** Answers are remembered for the whole process: the same question after an update. *)
Theorem C09_memo_refuted : forall base h u g g' s p o n t c c', engine_of base h g -> engine_of base (h ++ [u]) g' ->
  getCard g s p o t c = Some (n, t, c) \/ getCard_internal g s p o c = Some (n, c') /\ find (fun e => key_eqb (fst e) (s, p, o)) t = None ->
  exists t' c1, getCard g s p o t c = Some (n, t', c1) /\ forall c2, option_map (fun r => fst (fst r)) (getCard g' s p o t' c2) = Some n.
Proof.
  intros base h u g g' s p o n t c c' _ _ [H|[H F]].
  - unfold getCard in *. destruct (find _ t) as [e|] eqn:F.
    + injection H as <-. exists t, c. split; auto. intros c2. rewrite F. reflexivity.
    + destruct (getCard_internal g s p o c) as [[m c3]|]; cbn in H; [|discriminate]. exfalso. injection H as _ H _. apply (f_equal (@length _)) in H. cbn in H. lia.
  - unfold getCard. rewrite F, H. cbn. exists (((s, p, o), n) :: t), c'. split; auto. intros c2. cbn [find fst]. unfold key_eqb at 1. cbn [fst snd]. rewrite !Z.eqb_refl. reflexivity.
Qed.
Print Assumptions C09_memo_refuted.
Example C09_memo_case : exists t c, getCard (ref_engine cd_base [] all_stored all_stored) 1 (-1) (-1) [] no_cache = Some (3, t, c) /\
  (forall c2, option_map (fun r => fst (fst r)) (getCard (ref_engine cd_base cd_add all_stored all_stored) 1 (-1) (-1) t c2) = Some 3) /\
  cnt (1, -1, -1) (current cd_base cd_add) = 5.
Proof. do 2 eexists. split; [reflexivity|]. split; [|reflexivity]. intros c2. reflexivity. Qed.

(** Deleting everything does not make the database empty. *)
Theorem C09_isEmpty_refuted : exists base h g, engine_of base h g /\ NoDup base /\ valid base h /\ current base h = [] /\ isEmpty g (-1) (-1) (-1) = false.
Proof.
  exists [(1, 2, 3)], [(true, [(1, 2, 3)])], (ref_engine [(1, 2, 3)] [(true, [(1, 2, 3)])] all_stored all_stored). split; [apply ref_engine_ok; auto|].
  split; [constructor; [auto|constructor]|]. split; [cbn; split; [constructor; [auto|constructor]|split; [intros t Ht; exact Ht|exact I]]|]. split; reflexivity.
Qed.
Print Assumptions C09_isEmpty_refuted.
(** Without deletions it is right. *)
Theorem C09_isEmpty_partial : forall base h g, engine_of base h g -> Forall (fun u => fst u = false) h ->
  (isEmpty g (-1) (-1) (-1) = true <-> current base h = []).
Proof.
  intros base h g HE HA. unfold isEmpty. cbn [Z.ltb Z.compare andb]. rewrite (eo_input _ _ _ HE). pose proof (eo_diffs _ _ _ HE) as HD. clear HE. revert base.
  induction HD as [|u d h ds (H1 & H2 & _) HD IH]; intros base; inversion HA as [|? ? A1 A2]; subst; cbn [existsb current fold_left].
  - rewrite andb_true_r. destruct base; cbn; split; intros; try lia; try discriminate; auto.
  - unfold current in *. cbn [fold_left]. rewrite <- IH by auto. unfold apply_update. rewrite A1, H2, app_length. destruct (Z.ltb_spec 0 (Z.of_nat (length (snd u)))); cbn [orb negb]; destruct (existsb _ ds); cbn [negb andb]; rewrite ?andb_false_r, ?andb_true_r; clear IH HD; revert H; generalize (length base), (length (snd u)); clear; intros; rewrite ?Z.eqb_eq; (split; intros E; [try discriminate E|]); try (exfalso; lia); try exact E; lia.
Qed.
Print Assumptions C09_isEmpty_partial.
Example C09_isEmpty_case : isEmpty (ref_engine [] [(false, [])] all_stored all_stored) (-1) (-1) (-1) = true.
Proof. apply (C09_isEmpty_partial [] [(false, [])]); [apply ref_engine_ok; auto|repeat constructor|reflexivity]. Qed.

(** The number of different values of a pattern without constants is refused. *)
Theorem C09_distinct_refuted : forall g pos, getCardPos g (-1) (-1) (-1) pos = None.
Proof. reflexivity. Qed.
Print Assumptions C09_distinct_refuted.
