From Verif Require Import QueryModel QuerySpec.
From Coq Require Import Sorted ZifyBool.
Local Open Scope Z_scope.

Ltac getidx :=
  unfold getIndex;
  repeat match goal with |- context [if ?b then _ else _] =>
    let H := fresh "Hb" in destruct b eqn:H end.

Definition bound_first (pat : triple) (ord : list nat) : Prop :=
  match ord with
  | [a; b; c] =>
      (0 <= field pat b -> 0 <= field pat a) /\ (0 <= field pat c -> 0 <= field pat b)
  | _ => False
  end.

Lemma getIndex_is_perm s p o : is_perm (getIndex s p o).
Proof. unfold is_perm; getidx; cbv; split; congruence. Qed.

Lemma getIndex_bound_first s p o :
  exists ord, perm_positions (getIndex s p o) = Some ord /\ bound_first (s, p, o) ord.
Proof.
  getidx; eexists; (split; [reflexivity|]); cbn; lia.
Qed.

Lemma getIndex_rank s p o ord i j :
  -2 <= s -> -2 <= p -> -2 <= o ->
  perm_positions (getIndex s p o) = Some ord ->
  (i < j < 3)%nat ->
  let rank v := if 0 <=? v then 0 else if v =? -2 then 1 else 2 in
  rank (field (s, p, o) (nth i ord 0%nat)) <= rank (field (s, p, o) (nth j ord 0%nat)).
Proof.
  intros Hs Hp Ho He Hij rank; unfold rank.
  assert (Hc : (i = 0 /\ j = 1 \/ i = 0 /\ j = 2 \/ i = 1 /\ j = 2)%nat) by lia.
  revert He; getidx; cbn; intros He; injection He as <-;
    destruct Hc as [[-> ->]|[[-> ->]|[-> ->]]]; cbn;
    repeat match goal with |- context [if ?b then _ else _] => destruct b eqn:? end; cbn [field nth] in *; lia.
Qed.

(** Contiguity of the answers in a list sorted by a permutation with bound positions
    first. *)
Definition convex (P : triple -> Prop) (ord : list nat) : Prop :=
  forall t1 t2 t3, P t1 -> P t3 -> lex_le ord t1 t2 -> lex_le ord t2 t3 -> P t2.

Lemma matches_convex pat a b c :
  (forall i, (i < 3)%nat -> i = a \/ i = b \/ i = c) ->
  bound_first pat [a; b; c] -> convex (matches pat) [a; b; c].
Proof.
  intros Hperm [Hb Hc] t1 t2 t3 H1 H3 L12 L23 i Hi.
  cbn in L12, L23.
  assert (M1 : forall k, k = a \/ k = b \/ k = c -> (k < 3)%nat ->
     (field pat k < 0 \/ field pat k = field t1 k) /\
     (field pat k < 0 \/ field pat k = field t3 k)).
  { intros k _ Hk; split; [apply H1|apply H3]; exact Hk. }
  assert (Fa : (a < 3)%nat -> field pat a < 0 \/ field pat a = field t2 a).
  { intros Ha. destruct (M1 a (or_introl eq_refl) Ha); lia. }
  unfold matches1.
  assert (Ea : forall t, (3 <= a)%nat -> field t a = field t 2).
  { intros [[? ?] ?] Ha; cbn. destruct a as [|[|?]]; try lia; reflexivity. }
  assert (Eb : forall t, (3 <= b)%nat -> field t b = field t 2).
  { intros [[? ?] ?] Ha; cbn. destruct b as [|[|?]]; try lia; reflexivity. }
  assert (Ec : forall t, (3 <= c)%nat -> field t c = field t 2).
  { intros [[? ?] ?] Ha; cbn. destruct c as [|[|?]]; try lia; reflexivity. }
  assert (Hlt : (a < 3 /\ b < 3 /\ c < 3)%nat).
  { destruct (Hperm 0%nat), (Hperm 1%nat), (Hperm 2%nat); lia. }
  destruct Hlt as (La & Lb & Lc).
  destruct (M1 a ltac:(auto) La), (M1 b ltac:(auto) Lb), (M1 c ltac:(auto) Lc).
  destruct (Hperm i Hi) as [-> | [-> | ->]]; lia.
Qed.

Lemma convex_contiguous (P : triple -> Prop) ord l :
  (forall t, P t \/ ~ P t) ->
  convex P ord -> StronglySorted (lex_le ord) l ->
  exists pre run post, l = pre ++ run ++ post /\
    Forall P run /\ Forall (fun t => ~ P t) pre /\ Forall (fun t => ~ P t) post.
Proof.
  intros Hdec Hcv. induction l as [|t l IH]; intros Hs.
  - exists [], [], []; repeat split; constructor.
  - inversion Hs as [|? ? Hs' Hall]; subst.
    destruct (IH Hs') as (pre & run & post & El & Hrun & Hpre & Hpost).
    destruct (Hdec t) as [Ht|Ht].
    + destruct run as [|r run].
      * exists [], [t], l; repeat split; auto.
        subst l; cbn [app]; apply Forall_app; auto.
      * destruct pre as [|q pre].
        -- exists [], (t :: r :: run), post; subst; repeat split; auto.
        -- exfalso. inversion Hpre as [|? ? Hq Hpre']; subst.
           inversion Hrun as [|? ? Hr Hrun']; subst.
           apply Hq. apply (Hcv t q r Ht Hr).
           ++ inversion Hall; subst; assumption.
           ++ inversion Hs' as [|? ? Hs'' Hall']; subst.
              rewrite Forall_forall in Hall'; apply Hall'.
              rewrite in_app_iff; cbn; auto.
    + exists (t :: pre), run, post; subst; repeat split; auto.
Qed.

Lemma matches_dec pat t : matches pat t \/ ~ matches pat t.
Proof.
  destruct pat as [[ps pp] po], t as [[s p] o].
  destruct (Z_lt_dec ps 0) as [?|?], (Z.eq_dec ps s) as [?|?],
           (Z_lt_dec pp 0) as [?|?], (Z.eq_dec pp p) as [?|?],
           (Z_lt_dec po 0) as [?|?], (Z.eq_dec po o) as [?|?];
  try (right; intros H;
       pose proof (H 0%nat ltac:(lia)) as H0; pose proof (H 1%nat ltac:(lia)) as H1;
       pose proof (H 2%nat ltac:(lia)) as H2; unfold matches1 in *; cbn in *; lia);
  left; intros [|[|[|i]]] Hi; unfold matches1; cbn; try lia.
Qed.

Lemma getIndex_contiguous s p o l ord :
  perm_positions (getIndex s p o) = Some ord ->
  StronglySorted (lex_le ord) l ->
  exists pre run post, l = pre ++ run ++ post /\
    Forall (matches (s, p, o)) run /\
    Forall (fun t => ~ matches (s, p, o) t) pre /\
    Forall (fun t => ~ matches (s, p, o) t) post.
Proof.
  intros He. apply convex_contiguous; [intros; apply matches_dec|].
  destruct (getIndex_bound_first s p o) as (ord' & He' & Hb).
  rewrite He in He'; injection He' as <-.
  assert (Hf : forall idx, is_perm idx -> forall od, perm_positions idx = Some od ->
     exists a b c, od = [a; b; c] /\ (forall i, (i < 3)%nat -> i = a \/ i = b \/ i = c)).
  { intros idx Hi od Hod.
    assert (Hx : idx = 0 \/ idx = 1 \/ idx = 2 \/ idx = 3 \/ idx = 4 \/ idx = 5)
      by (unfold is_perm in Hi; lia).
    destruct Hx as [->|[->|[->|[->|[->| ->]]]]]; injection Hod as <-;
      do 3 eexists; (split; [reflexivity|]); intros; lia. }
  destruct (Hf _ (getIndex_is_perm s p o) _ He) as (a & b & c & -> & Hp).
  apply matches_convex; assumption.
Qed.

Lemma six (P : Z -> Prop) :
  P 0 -> P 1 -> P 2 -> P 3 -> P 4 -> P 5 -> forall idx, is_perm idx -> P idx.
Proof.
  intros H0 H1 H2 H3 H4 H5 idx Hi.
  assert (Hx : idx = 0 \/ idx = 1 \/ idx = 2 \/ idx = 3 \/ idx = 4 \/ idx = 5)
    by (unfold is_perm in Hi; lia).
  destruct Hx as [->|[->|[->|[->|[->| ->]]]]]; assumption.
Qed.

Lemma order_roundtrip idx t : is_perm idx ->
  exists ord inv, getOrder idx = Some ord /\ getInvOrder idx = Some inv /\
    perm_positions idx = Some ord /\
    reorder inv (reorder ord t) = t /\ reorder ord (reorder inv t) = t.
Proof.
  revert idx; apply six; destruct t as [[s p] o];
    do 2 eexists; repeat (split; [reflexivity|]); reflexivity.
Qed.

Lemma permuted_roundtrip idx el1 el2 el3 : is_perm idx ->
  exists s p o, getPermuted_args idx el1 el2 el3 = Some (s, p, o) /\
    getIterator_split idx s p o = Some (el1, el2, el3).
Proof. revert idx; apply six; do 3 eexists; split; reflexivity. Qed.

Lemma split_is_order idx s p o : is_perm idx ->
  exists ord, perm_positions idx = Some ord /\
    getIterator_split idx s p o = Some (reorder ord (s, p, o)).
Proof. revert idx; apply six; eexists; split; reflexivity. Qed.
