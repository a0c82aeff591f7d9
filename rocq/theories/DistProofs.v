(** Proofs about SELECT DISTINCT. *)
From Coq Require Import ZifyBool.
From Verif Require Import OpModel OpSpec OpProofs OpProofs7 OpProps2.
From Verif Require Import PlanModel PlanSpec PlanProofs PlanProofs2 PlanProofs3 PlanProofs5 DistModel.
Local Open Scope Z_scope.

Lemma collect_rows V W out limit : incl out V -> forall L k i c entries g0 g v, (length L < k)%nat -> 0 <= entries < limit ->
  agree V g v -> agree W g g0 -> Rows any V W (o_next i) (fun h => agree W h g0) L ->
  exists es, rp_collect k limit out i c 0 entries g = Some es /\ map snd es = firstn (Z.to_nat (limit - entries)) (map (fun a => map (fst a) out) ((v, c) :: L)).
Proof.
  intros Hout L. induction L as [|[v' c'] L IH]; intros k i c entries g0 g v Hk Hn Hv Hg HL; (destruct k as [|k]; [cbn in Hk; lia|]);
    cbn [rp_collect]; cbn zeta; rewrite Rows_Got in HL; specialize (HL g Hg); rewrite (map_agree_incl V out g v Hout Hv); cbn [Z.ltb Z.compare andb];
    destruct (Z.to_nat (limit - entries)) as [|m] eqn:Em; try lia; cbn [map firstn fst].
  - destruct HL as (g1 & o1 & E & _). rewrite E. cbn iota beta. cbn [Z.eqb negb]. rewrite firstn_nil. destruct (_ <=? _); eexists; split; reflexivity.
  - destruct HL as (Hc' & g1 & o1 & E & A & O & _ & HL). rewrite E. cbn iota beta. destruct (Z.leb_spec limit (entries + 1)).
    + eexists. split; [reflexivity|]. replace m with 0%nat by lia. reflexivity.
    + destruct (Z.eqb_spec c' 0); [lia|]. cbn [negb]. destruct (IH k o1 c' (entries + 1) g1 g1 v') as (es & Ee & Em'); auto using agree_refl; [cbn in Hk; lia|lia|].
      rewrite Ee. eexists. split; [reflexivity|]. cbn [app map snd]. rewrite Em'. replace (Z.to_nat (limit - (entries + 1))) with m by lia. reflexivity.
Qed.
Lemma distinct_rows V W out limit L input fuel g : incl out V -> 1 <= limit -> (length L <= fuel)%nat -> Answers V W L input ->
  rp_distinct fuel limit 0 out input g = Some (firstn (Z.to_nat limit) (map (fun a => map (fst a) out) L)).
Proof.
  intros Ho Hl Hf HL. unfold Answers in HL. rewrite Rows_Got in HL. specialize (HL g Logic.I). unfold rp_distinct. destruct L as [|[v c] L].
  - destruct HL as (g1 & o1 & E & _). rewrite E. cbn iota beta. cbn [Z.eqb map]. now rewrite firstn_nil.
  - destruct HL as (Hc & g1 & o1 & E & A & O & _ & HL). rewrite E. cbn iota beta. destruct (Z.eqb_spec c 0); [lia|].
    destruct (collect_rows V W out limit Ho L fuel o1 c 0 g1 g1 v) as (es & Ee & Em); auto using agree_refl; try (cbn in Hf; lia).
    rewrite Ee. rewrite Em, Z.sub_0_r. reflexivity.
Qed.

Lemma occurs_cons V a l t : occurs V (a :: l) t = (if values_dec (map (fst a) V) t then snd a else 0) + occurs V l t.
Proof. reflexivity. Qed.
Lemma occurs_pos V L t : positive L -> (0 < occurs V L t <-> In t (map (fun a => map (fst a) V) L)).
Proof.
  intros HP. assert (H0 : forall l, positive l -> 0 <= occurs V l t).
  { intros l H. induction H as [|a l Ha H IH]; [cbn; lia|]. rewrite occurs_cons. destruct (values_dec _ _); lia. }
  induction HP as [|a l Ha HP IH]; [cbn; intuition lia|]. rewrite occurs_cons. cbn [map In]. specialize (H0 l HP).
  destruct (values_dec (map (fst a) V) t) as [E|E]; [split; [now left|lia]|]. rewrite Z.add_0_l, IH. intuition congruence.
Qed.
Lemma times_pos S xs t : 0 < times S xs t <-> In t (map (fun s : nat -> Z => map s xs) S).
Proof.
  unfold times. induction S as [|s S IH]; cbn [filter map In length]; [cbn; intuition lia|]. destruct (values_dec (map s xs) t) as [E|E]; cbn [length]; [split; [now left|lia]|].
  rewrite IH. intuition congruence.
Qed.
Lemma NoDup_inj {A B C} (f : A -> B) (g : A -> C) l : NoDup (map f l) -> (forall x y, In x l -> In y l -> g x = g y -> f x = f y) -> NoDup (map g l).
Proof.
  induction l as [|a l IH]; intros H HI; [constructor|]. cbn [map] in *. inversion H as [|? ? H1 H2]; subst. constructor.
  - intros Hin. apply H1. apply in_map_iff in Hin. destruct Hin as (b & E & Hb). apply in_map_iff. exists b. split; [apply HI; cbn; auto|exact Hb].
  - apply IH; [exact H2|]. intros x y Hx Hy. apply HI; now right.
Qed.
Lemma table_fst rs L : map fst (table rs L) = map (fun a => map (fst a) rs) L.
Proof. unfold table. rewrite map_map. reflexivity. Qed.
(** Grouping by registers and printing the same registers in any order. *)
Lemma grouped enum fuel rs outs W L input : (forall gs, Permutation (enum gs) (seq 0 (length gs))) -> incl rs W -> NoDup rs -> (length L < fuel)%nat ->
  incl outs rs -> incl rs outs -> Answers rs W L input ->
  exists out, Answers outs W out (OpModel.hash_groupify enum fuel rs input) /\ (length out <= fuel)%nat /\ NoDup (map (fun a => map (fst a) outs) out) /\
    forall t, In t (map (fun a => map (fst a) outs) out) <-> 0 < occurs outs L t.
Proof.
  intros He HW HN Hf H1 H2 HA. destruct (C62_hash_group enum rs W rs fuel L input He (incl_refl _) HW HN Hf HA) as (out & HO & HD & HS). rewrite table_fst in HD.
  assert (PL : positive L) by (eapply answers_pos; eauto). assert (PO : positive out) by (eapply answers_pos; eauto). exists out. split; [|split; [|split]].
  - eapply Rows_V; [exact H1|exact HO].
  - assert (HI : incl (map (fun a : regs * Z => map (fst a) rs) out) (map (fun a : regs * Z => map (fst a) rs) L)).
    { intros t Ht. apply occurs_pos; [exact PL|]. rewrite <- HS. now apply occurs_pos. }
    pose proof (NoDup_incl_length HD HI) as HL. rewrite !map_length in HL. eapply Nat.le_trans; [exact HL|]. apply Nat.lt_le_incl. exact Hf.
  - eapply NoDup_inj; [exact HD|]. intros x y _ _ E. apply map_eq_agree. apply map_eq_agree in E. eapply agree_incl; eauto.
  - intros t. rewrite <- occurs_pos by exact PO. rewrite (same_occurs rs outs out L t H1 (occurs_same rs out L HS)). reflexivity.
Qed.
