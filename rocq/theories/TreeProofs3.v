(** Proofs about the B+tree: iteration and histories. *)
From Coq Require Import Sorting.Sorted ZifyBool.
From Verif Require Export TreeProofs2 TreeSpec.
Local Open Scope Z_scope.

Section T.
Variable V : Type.
Variable m : nat.
Notation content := (list (Z * V)).
Notation tree := (tree V).
Notation Shape := (Shape V m).
Notation dbl := (dbl V).
Notation W := (W V).
Notation wpre := (wpre V).
Notation wpost := (wpost V).

(** A node of content [l] below the ancestors [path]; [rest] is what follows it. *)
Inductive Path : list (frame V) -> tree -> content -> content -> Prop :=
| Path_nil t l : Path [] t l []
| Path_cons n cs1 t cs2 ks ls1 l ls2 up rest :
    KN n ks -> length (ls1 ++ l :: ls2) = S (length ks) -> length cs1 = length ls1 ->
    Shape (Inter n (cs1 ++ t :: cs2)) (concat (ls1 ++ l :: ls2)) ->
    Forall2 Shape (t :: cs2) (l :: ls2) -> Forall (fun l => l <> []) (ls1 ++ l :: ls2) -> incr (W ks (ls1 ++ l :: ls2)) ->
    Path up (Inter n (cs1 ++ t :: cs2)) (concat (ls1 ++ l :: ls2)) rest ->
    Path ((n, cs1 ++ t :: cs2, length cs1) :: up) t l (concat ls2 ++ rest).

Lemma in_wpre_sep ks ls k : length ks = length ls -> In k ks -> In (2 * k + 1) (wpre ks ls).
Proof.
  revert ls. induction ks as [|a ks IH]; intros [|l ls] E H; try discriminate; [destruct H|].
  unfold TreeProofs2.wpre. cbn [combine flat_map fst snd]. apply in_or_app. destruct H as [->|H].
  - left. apply in_or_app. right. now left.
  - right. apply IH; auto.
Qed.

(** A key of child i is looked for in child i. *)
Lemma child_of_key n ks ls1 l ls2 e : KN n ks -> length (ls1 ++ l :: ls2) = S (length ks) -> incr (W ks (ls1 ++ l :: ls2)) ->
  In e l -> kn_child n (fst e) = length ls1.
Proof.
  intros HK Hl Hi He. pose proof (incr_W_seps V ks _ Hl Hi) as Hks. rewrite (child_ok n ks _ HK Hks).
  rewrite app_length in Hl. cbn in Hl.
  rewrite <- (firstn_skipn (length ls1) ks) in Hi. rewrite W_at in Hi by (rewrite firstn_length; lia).
  apply incr_app in Hi as (_ & Hi & H1). apply incr_app in Hi as (_ & _ & H2).
  assert (Hd : In (2 * fst e) (dbl l)) by (unfold TreeProofs2.dbl; apply in_map_iff; eauto).
  apply below_unique; auto; [lia| |].
  - intros x Hx. specialize (H1 (2 * x + 1) (2 * fst e)). 
    assert (2 * x + 1 < 2 * fst e); [|lia]. apply H1; [apply in_wpre_sep; auto; rewrite firstn_length; lia|apply in_or_app; auto].
  - intros x Hx. specialize (H2 (2 * fst e) (2 * x + 1) Hd). 
    assert (2 * fst e < 2 * x + 1); [|lia]. apply H2. apply wpost_in_sep; auto. rewrite skipn_length. lia.
Qed.

(** The cursor stands in a leaf of content [l], and [rest] follows that leaf. *)
Definition At (c : cursor V) (l rest : content) : Prop :=
  Shape (Leaf (c_keys c) (c_vals c)) l /\ Path (c_path c) (Leaf (c_keys c) (c_vals c)) l rest /\ (c_path c <> [] -> l <> []).

Lemma down_first_ok : forall t l path rest, Shape t l -> l <> [] -> Path path t l rest ->
  exists c l' rest', down_first t path = Some c /\ At c l' rest' /\ l' ++ rest' = l ++ rest /\ c_pos c = 0%nat /\ l' <> [].
Proof.
  induction t as [n vs|n cs IH] using tree_ind'; intros l path rest H Hn HP.
  - cbn [down_first]. exists (mkCur path n vs 0), l, rest. repeat split; auto.
  - inversion H as [|n' cs' ks ls HK Hlk Hls HF HN Hi]; subst.
    destruct ls as [|l0 ls2]; [discriminate|]. inversion HF as [|t0 l0' cs2 ls2' Ht HF2]; subst.
    inversion IH as [|? ? IHt _]; subst. cbn [down_first]. rewrite at_child_ok. cbn [nth_error].
    inversion HN as [|? ? N0 N2]; subst.
    destruct (IHt l0 ((n, t0 :: cs2, 0%nat) :: path) (concat ls2 ++ rest) Ht N0) as (c & l' & rest' & E & HA & Ec & Hp & Hl').
    + apply (Path_cons n [] t0 cs2 ks [] l0 ls2 path rest); auto.
    + exists c, l', rest'. split; [exact E|]. split; [exact HA|]. split; [|auto]. rewrite Ec. cbn [concat]. now rewrite app_assoc.
Qed.

Lemma down_key_ok : forall t l path rest, Shape t l -> (path <> [] -> l <> []) -> (forall e, In e l -> 0 <= fst e) -> Path path t l rest ->
  exists c l' rest', down_key t path = Some c /\ At c l' rest' /\ l' ++ rest' = l ++ rest /\ c_pos c = 0%nat.
Proof.
  induction t as [n vs|n cs IH] using tree_ind'; intros l path rest H Hn Hpos HP.
  - cbn [down_key]. exists (mkCur path n vs 0), l, rest. repeat split; auto.
  - inversion H as [|n' cs' ks ls HK Hlk Hls HF HN Hi]; subst.
    destruct ls as [|l0 ls2]; [discriminate|]. inversion HF as [|t0 l0' cs2 ls2' Ht HF2]; subst.
    inversion IH as [|? ? IHt _]; subst. inversion HN as [|? ? N0 N2]; subst.
    assert (E0 : kn_child n 0 = 0%nat).
    { rewrite (child_ok n ks 0 HK (incr_W_seps V ks _ Hls Hi)). apply below_none. intros k Hk.
      unfold TreeProofs2.W in Hi. apply incr_app in Hi as (_ & _ & H2). cbn in Hls.
      destruct l0 as [|e r]; [congruence|]. specialize (H2 (2 * fst e) (2 * k + 1) (or_introl eq_refl)).
      specialize (Hpos e ltac:(cbn; now left)).
      assert (2 * fst e < 2 * k + 1); [|lia]. apply H2. apply wpost_in_sep; auto; lia. }
    cbn [down_key]. rewrite E0, at_child_ok. cbn [nth_error].
    destruct (IHt l0 ((n, t0 :: cs2, 0%nat) :: path) (concat ls2 ++ rest) Ht) as (c & l' & rest' & E & HA & Ec & Hp).
    + auto.
    + intros e He. apply Hpos. cbn. apply in_or_app. auto.
    + apply (Path_cons n [] t0 cs2 ks [] l0 ls2 path rest); auto.
    + exists c, l', rest'. split; [exact E|]. split; [exact HA|]. split; [|auto]. rewrite Ec. cbn [concat]. now rewrite app_assoc.
Qed.

Lemma right_ok : forall path t l rest, Path path t l rest -> Shape t l -> (path <> [] -> l <> []) ->
  (rest = [] /\ right t path = Some None) \/
  (exists c l' rest', right t path = Some (Some c) /\ At c l' rest' /\ l' ++ rest' = rest /\ c_pos c = 0%nat /\ l' <> []).
Proof.
  induction path as [|f up IH]; intros t l rest HP Ht Hn; inversion HP as [|n cs1 t0 cs2 ks ls1 l0 ls2 up' rest0 HK Hl Hcs HS HF HN Hi HU]; subst.
  - left. split; auto.
  - specialize (Hn ltac:(discriminate)).
    assert (Epos : getPosChild (n, cs1 ++ t :: cs2, length cs1) t = Z.of_nat (length cs1)).
    { unfold getPosChild. destruct l as [|e r]; [congruence|]. rewrite (smallest_ok V m t _ Ht e r eq_refl).
      rewrite (child_of_key n ks ls1 (e :: r) ls2 e HK Hl Hi (or_introl eq_refl)). rewrite Hcs, Nat.eqb_refl. reflexivity. }
    cbn [right]. rewrite Epos. pose proof HK as (Hsz & _). rewrite Hsz.
    rewrite app_length in Hl. cbn in Hl. inversion HF as [|? ? ? ? _ HF2]; subst.
    pose proof (Forall2_len _ _ _ HF2) as L2.
    destruct (Z.eqb_spec (Z.of_nat (length cs1)) (Z.of_nat (length ks))) as [E|E].
    + assert (ls2 = []) by (destruct ls2; auto; cbn in Hl; lia). subst ls2. cbn [concat app].
      assert (Nc : concat (ls1 ++ [l]) <> []).
      { rewrite concat_app. cbn. destruct l; [congruence|]. destruct (concat ls1); discriminate. }
      destruct (IH (Inter n (cs1 ++ t :: cs2)) _ rest0 HU HS (fun _ => Nc)) as [(-> & E1)|(c & l' & rest' & E1 & R)].
      * left. split; auto. destruct up; auto.
      * destruct up as [|f up]; [cbn in E1; discriminate|]. right. exists c, l', rest'. auto.
    + replace (Z.of_nat (length cs1) <? Z.of_nat (length ks)) with true by lia.
      destruct ls2 as [|l2 ls2]; [cbn in Hl; lia|]. inversion HF2 as [|t2 ? cs3 ? Ht2 HF3]; subst.
      replace (Z.to_nat (Z.of_nat (length cs1) + 1)) with (S (length cs1)) by lia. rewrite at_child_ok.
      rewrite nth_error_app2 by lia. replace (S (length cs1) - length cs1)%nat with 1%nat by lia. cbn [nth_error].
      assert (N2 : l2 <> []).
      { apply Forall_app in HN as (_ & HN). inversion HN as [|? ? _ HN2]; subst. now inversion HN2. }
      destruct (down_first_ok t2 l2 ((n, cs1 ++ t :: t2 :: cs3, S (length cs1)) :: up) (concat ls2 ++ rest0) Ht2 N2) as (c & l' & rest' & E1 & HA & E2 & E3 & E4).
      * replace (cs1 ++ t :: t2 :: cs3) with ((cs1 ++ [t]) ++ t2 :: cs3) in * by now rewrite <- app_assoc.
        replace (ls1 ++ l :: l2 :: ls2) with ((ls1 ++ [l]) ++ l2 :: ls2) in * by now rewrite <- app_assoc.
        replace (S (length cs1)) with (length (cs1 ++ [t])) by (rewrite app_length; cbn; lia).
        apply (Path_cons n (cs1 ++ [t]) t2 cs3 ks (ls1 ++ [l]) l2 ls2 up rest0); auto; rewrite ?app_length in *; cbn in *; lia.
      * right. exists c, l', rest'. rewrite E1. split; [reflexivity|]. split; [exact HA|]. split; [|auto]. rewrite E2. cbn [concat]. now rewrite app_assoc.
Qed.

Lemma walk_ok : forall fuel c l rest done, At c (done ++ l) rest -> c_pos c = length done ->
  (length l + length rest < fuel)%nat -> walk fuel c = Some (l ++ rest).
Proof.
  induction fuel as [|f IH]; intros c l rest done (HS & HP & HN) Hp Hf; [lia|].
  destruct (Shape_leaf_inv V m _ _ _ HS) as (HK & Hi & Hl & Hv). cbn [walk]. unfold itr_hasNext.
  pose proof HK as (Hsz & _). rewrite map_length, app_length in Hsz. rewrite Hsz, Hp.
  assert (Hgo : forall c l rest done, At c (done ++ l) rest -> c_pos c = length done -> l <> [] -> (length l + length rest < S f)%nat ->
            (do (k, v, c') <- itr_next c; do r <- walk f c'; Some ((k, v) :: r)) = Some (l ++ rest)).
  { clear - IH. intros c l rest done (HS & HP & HN) Hp Hn Hf. destruct l as [|(k, v) l]; [congruence|].
    destruct (Shape_leaf_inv V m _ _ _ HS) as (HK & Hi & Hl & Hv). unfold itr_next. rewrite Hv, Hp.
    rewrite map_app, nth_error_app2, map_length, Nat.sub_diag by (rewrite map_length; lia). cbn [map nth_error snd].
    rewrite (KN_keyAt _ _ (length done) k HK).
    2:{ rewrite map_app, nth_error_app2, map_length, Nat.sub_diag by (rewrite map_length; lia). reflexivity. }
    rewrite (IH _ l rest (done ++ [(k, v)])).
    - reflexivity.
    - unfold At. cbn [c_path c_keys c_vals]. rewrite <- app_assoc. cbn [app]. rewrite map_app in Hv. cbn [map snd] in Hv. rewrite <- Hv. auto.
    - cbn [c_pos]. rewrite app_length. cbn. lia.
    - cbn in Hf. lia. }
  destruct l as [|(k, v) l].
  - rewrite app_nil_r in *. replace (length done + length (@nil (Z * V)) <=? length done)%nat with true by (symmetry; apply Nat.leb_le; cbn; lia).
    destruct (right_ok _ _ _ _ HP HS HN) as [(-> & ->)|(c' & l' & rest' & -> & HA & E & Hp' & Hn')]; [reflexivity|].
    cbn [app]. rewrite <- E. apply (Hgo c' l' rest' []); auto. cbn in Hf. rewrite <- E, app_length in Hf. lia.
  - replace (length done + length ((k, v) :: l) <=? length done)%nat with false by (symmetry; apply Nat.leb_gt; cbn; lia).
    apply (Hgo c ((k, v) :: l) rest done); auto; [split; auto|discriminate].
Qed.

Theorem itr_ok t l : Shape t l -> (forall e, In e l -> 0 <= fst e) ->
  exists c, itr t = Some c /\ forall fuel, (length l < fuel)%nat -> walk fuel c = Some l.
Proof.
  intros H Hpos. destruct (down_key_ok t l [] [] H ltac:(congruence) Hpos (Path_nil t l)) as (c & l' & rest' & E & HA & El & Hp).
  exists c. split; [exact E|]. intros fuel Hf. rewrite app_nil_r in El. rewrite <- El. apply (walk_ok fuel c l' rest' []); auto.
  rewrite <- El, app_length in Hf. exact Hf.
Qed.
End T.

(** ** Histories. *)
Section H.
Variables P V : Type.
Variable store : P -> V.
Variable update : V -> P -> V.
Variable m : nat.
Hypothesis Hm : (1 <= m)%nat.
Notation mx := (m + m)%nat.

(** The value of a key after a history. *)
Fixpoint value_of (v : option V) (k : Z) (h : list (op P)) : option V :=
  match h with
  | [] => v
  | o :: r => value_of (if op_key o =? k then Some (match v with Some v => update v (op_val o) | None => store (op_val o) end) else v) k r
  end.

Lemma lookup_ins k x l j : incr (map fst l) ->
  lookup V j (ins P V store update k x l) =
  if k =? j then Some (match lookup V j l with Some v => update v x | None => store x end) else lookup V j l.
Proof.
  unfold lookup. induction l as [|(i, v) l IH]; intros Hs; cbn [ins find fst].
  - cbn. destruct (k =? j); reflexivity.
  - cbn [map fst] in Hs. apply incr_cons in Hs as (Hs & Hi). specialize (IH Hs).
    assert (Hnone : k < i -> find (fun e => fst e =? k) l = None).
    { intros Hk. apply find_none_all. intros e He. specialize (Hi (fst e) (in_map fst l e He)). lia. }
    destruct (Z.ltb_spec i k) as [H1|H1].
    + cbn [find fst]. destruct (Z.eqb_spec i j) as [->|H2].
      * replace (k =? j) with false by lia. reflexivity.
      * exact IH.
    + destruct (Z.eqb_spec i k) as [->|H2].
      * cbn [find fst snd]. destruct (k =? j); reflexivity.
      * cbn [find fst snd]. destruct (Z.eqb_spec k j) as [->|H3].
        -- replace (i =? j) with false by lia. rewrite Hnone by lia. reflexivity.
        -- reflexivity.
Qed.

Lemma build_ok : forall h t l before, Shape V m t l -> ranged V l ->
  (forall e, In e l -> In (fst e) before) -> allowed before h ->
  exists t' l', build store update mx t h = Some t' /\ Shape V m t' l' /\ ranged V l' /\
    (forall k, lookup V k l' = value_of (lookup V k l) k h).
Proof.
  induction h as [|o h IH]; intros t l before HS HR HB HA; [exists t, l; auto|].
  destruct HA as (Hk & Ho & HA). cbn [build].
  assert (Hstep : exists t', step store update mx t o = Some t' /\ Shape V m t' (ins P V store update (op_key o) (op_val o) l) /\ ranged V (ins P V store update (op_key o) (op_val o) l)).
  { destruct o as [k x|k x]; cbn [step op_key op_val] in *.
    - apply put_tree; auto.
    - apply append_tree; auto. }
  destruct Hstep as (t1 & -> & HS1 & HR1).
  destruct (IH t1 _ (op_key o :: before) HS1 HR1) as (t' & l' & E & HS' & HR' & Hv); auto.
  - intros e He. assert (H : In (fst e) (map fst (ins P V store update (op_key o) (op_val o) l))) by now apply in_map.
    apply ins_keys in H as [->|H]; [now left|]. right. apply in_map_iff in H as (e' & <- & H). auto.
  - exists t', l'. split; [exact E|]. split; [exact HS'|]. split; [exact HR'|]. intros k. rewrite Hv. cbn [value_of].
    rewrite lookup_ins by (eapply incr_dbl, Shape_incr; eauto). reflexivity.
Qed.
End H.
