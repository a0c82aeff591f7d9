(** Proofs about plans: the rows of an index scan are the solutions of its pattern. *)
From Coq Require Import ZifyBool.
From Verif Require Import TermSpec FullModel.
From Verif Require Import OpSpec OpProofs OpHashProofs OpHashProofs2 KbSpec TsSpec TallySpec InserterProofs.
From Verif Require Import PlanModel PlanSpec PlanProofs PlanProofs2 PlanProofs3.
Local Open Scope Z_scope.

Lemma sorted_map {A B} (R : A -> A -> Prop) (R' : B -> B -> Prop) (h : A -> B) l :
  (forall x y, In x l -> In y l -> R x y -> R' (h x) (h y)) -> StronglySorted R l -> StronglySorted R' (map h l).
Proof.
  intros H HS. induction HS as [|x l HS IH HF]; [constructor|]. cbn [map]. constructor.
  - apply IH. intros a b Ha Hb. apply H; now right.
  - rewrite Forall_forall in *. intros y Hy. apply in_map_iff in Hy. destruct Hy as (z & <- & Hz). apply H; [now left|now right|auto].
Qed.
Lemma sorted_filter {A} (R : A -> A -> Prop) (p : A -> bool) l : StronglySorted R l -> StronglySorted R (filter p l).
Proof.
  induction 1 as [|x l HS IH HF]; [constructor|]. cbn [filter]. destruct (p x); [|exact IH]. constructor; [exact IH|].
  rewrite Forall_forall in *. intros y Hy. apply filter_In in Hy. apply HF, Hy.
Qed.
Lemma sorted_nodup l : StronglySorted tlt l -> NoDup l.
Proof.
  induction 1 as [|x l HS IH HF]; constructor; auto. intros C. rewrite Forall_forall in HF. exact (tlt_irrefl x (HF x C)).
Qed.

Lemma reg_div i k : (k < 3)%nat -> (reg_of i k / 3 = i /\ reg_of i k mod 3 = k)%nat.
Proof.
  intros H. unfold reg_of. split; symmetry; [apply (Nat.div_unique _ 3 i k)|apply (Nat.mod_unique _ 3 i k)]; lia.
Qed.
Lemma view_columns idx t k1 k2 k3 : (idx < 6)%nat -> columns idx = (k1, k2, k3) -> view (Z.of_nat idx) t = (comp t k1, comp t k2, comp t k3).
Proof.
  intros H E. destruct t as [[x y] z]. do 6 (destruct idx as [|idx]; [injection E as <- <- <-; reflexivity|]). lia.
Qed.
Lemma columns_perm idx k1 k2 k3 : (idx < 6)%nat -> columns idx = (k1, k2, k3) ->
  (k1 < 3 /\ k2 < 3 /\ k3 < 3 /\ k1 <> k2 /\ k1 <> k3 /\ k2 <> k3)%nat.
Proof. intros H E. do 6 (destruct idx as [|idx]; [injection E as <- <- <-; lia|]). lia. Qed.
Lemma comp_ext t t' : (forall k, (k < 3)%nat -> comp t k = comp t' k) -> t = t'.
Proof.
  destruct t as [[x y] z], t' as [[x' y'] z']. intros H. pose proof (H 0%nat ltac:(lia)) as H0. pose proof (H 1%nat ltac:(lia)) as H1. pose proof (H 2%nat ltac:(lia)) as H2. cbn in *. congruence.
Qed.
Lemma comp_instance s n k : comp (instance s n) k = val s (slot n k).
Proof. destruct k as [|[|k]]; reflexivity. Qed.

(** ** The sum over a tally *)
Lemma group_irrefl x : ~ group_lt x x.
Proof. destruct x as [[k v] n]. cbn. lia. Qed.
Lemma hit_sum (F : Z -> Z -> Z) a b (D : list elem) : StronglySorted group_lt D ->
  sumZ (fun x : elem => F (fst (fst x)) (snd (fst x)) * (if (a =? fst (fst x)) && (b =? snd (fst x)) then 1 else 0)) D =
  if existsb (fun x : elem => (a =? fst (fst x)) && (b =? snd (fst x))) D then F a b else 0.
Proof.
  induction 1 as [|[[k v] n] D HS IH HF]; [reflexivity|]. rewrite sumZ_cons, IH. cbn [existsb fst snd].
  destruct ((a =? k) && (b =? v)) eqn:E; cbn [orb]; [|lia].
  destruct (existsb _ D) eqn:Ex.
  { exfalso. apply existsb_exists in Ex. destruct Ex as ([[k' v'] n'] & Hx & E'). rewrite Forall_forall in HF. specialize (HF _ Hx). cbn in HF, E'. lia. }
  assert (a = k /\ b = v) as [-> ->] by lia. lia.
Qed.
Lemma tally_sum (F : Z -> Z -> Z) (l D : list elem) : is_tally l D ->
  sumZ (fun x : elem => F (fst (fst x)) (snd (fst x)) * snd x) D = sumZ (fun x : elem => F (fst (fst x)) (snd (fst x))) l.
Proof.
  intros [HS HD]. rewrite (sumZ_ext _ (fun x : elem => F (fst (fst x)) (snd (fst x)) * count_of l (fst (fst x)) (snd (fst x)))).
  2: { intros [[k v] n] Hx. apply HD in Hx. destruct Hx as [-> _]. reflexivity. }
  assert (HC : forall a b c, In (a, b, c) l -> existsb (fun x : elem => (a =? fst (fst x)) && (b =? snd (fst x))) D = true).
  { intros a b c H. apply existsb_exists. exists (a, b, count_of l a b). split; [|cbn [fst snd]; lia]. apply HD. split; [reflexivity|]. unfold count_of.
    assert (Hi : In (a, b, c) (filter (fun x : elem => (fst (fst x) =? a) && (snd (fst x) =? b)) l)) by (apply filter_In; split; [exact H|cbn [fst snd]; lia]).
    match goal with |- context [length ?x] => change (In (a, b, c) x) in Hi; destruct x; [destruct Hi|cbn [length]; lia] end. }
  clear HD. induction l as [|[[a b] c] l IH].
  - rewrite (sumZ_ext _ (fun _ : elem => 0)); [apply sumZ_0|]. intros x _. unfold count_of. cbn. lia.
  - rewrite sumZ_cons, <- IH by (intros; eapply HC; right; eauto). cbn [fst snd].
    rewrite (sumZ_ext _ (fun x : elem => F (fst (fst x)) (snd (fst x)) * (if (a =? fst (fst x)) && (b =? snd (fst x)) then 1 else 0) + F (fst (fst x)) (snd (fst x)) * count_of l (fst (fst x)) (snd (fst x)))).
    + rewrite sumZ_plus, hit_sum by exact HS. rewrite (HC a b c) by now left. reflexivity.
    + intros [[k v] n] _. cbn [fst snd]. unfold count_of. cbn [filter fst snd]. destruct ((a =? k) && (b =? v)); cbn [length]; lia.
Qed.

(** The sum over a list of terms. *)
Lemma cnt_absent (k : Z) (D : list (Z * Z)) : (forall x, In x D -> k < fst x) -> cnt k D = 0.
Proof.
  induction D as [|[a c] D IH]; intros H; [reflexivity|]. cbn [cnt]. rewrite IH by (intros; apply H; now right). specialize (H _ (or_introl eq_refl)). cbn [fst] in H.
  destruct (Z.eqb_spec a k); lia.
Qed.
Lemma cnt_In (D : list (Z * Z)) k n : term_list D -> In (k, n) D <-> n = cnt k D /\ 0 < n.
Proof.
  intros [HS HP]. induction HS as [|[a c] D HS IH HF]; [cbn; split; [intros []|lia]|]. inversion HP as [|? ? Hc HP']; subst. cbn [snd] in Hc. specialize (IH HP'). rewrite Forall_forall in HF.
  cbn [In cnt]. destruct (Z.eqb_spec a k) as [->|Hne].
  - rewrite (cnt_absent k D) by (intros x Hx; exact (HF x Hx)). split.
    + intros [E|H]; [injection E as <-; lia|]. specialize (HF _ H). cbn [fst] in HF. lia.
    + intros [-> _]. left. f_equal. lia.
  - rewrite Z.add_0_l, <- IH. split; [intros [E|H]; [congruence|exact H]|auto].
Qed.
Lemma counts_sum (F : Z -> Z) (l : list elem) D : counts_of (fun t : elem => fst (fst t)) D l ->
  sumZ (fun x : Z * Z => F (fst x) * snd x) D = sumZ (fun t : elem => F (fst (fst t))) l.
Proof.
  intros [HT HC]. set (D' := map (fun x : Z * Z => ((fst x, 0, snd x) : elem)) D). set (l' := map (fun t : elem => ((fst (fst t), 0, 0) : elem)) l).
  assert (H : is_tally l' D').
  { split.
    - unfold D'. destruct HT as [HS _]. clear HC. induction HS as [|x D HS IH HF]; [constructor|]. cbn [map]. constructor; [exact IH|]. rewrite Forall_forall in *.
      intros y Hy. apply in_map_iff in Hy. destruct Hy as (z & <- & Hz). specialize (HF z Hz). cbn. now left.
    - intros k v n.
      assert (EC : count_of l' k v = if v =? 0 then cnt k D else 0).
      { rewrite HC. unfold count_of, l'. clear. induction l as [|t l IH]; [cbn; now destruct (v =? 0)|]. cbn [map filter fst snd]. rewrite (Z.eqb_sym 0 v).
        destruct (fst (fst t) =? k), (v =? 0); cbn [andb length] in *; lia. }
      rewrite EC. unfold D'. rewrite in_map_iff. destruct (Z.eqb_spec v 0) as [->|Hv].
      + rewrite <- (cnt_In D k n HT). split; [intros ([a c] & E & Hx); cbn [fst snd] in E; injection E as -> ->; exact Hx|]. intros H. exists (k, n). auto.
      + split; [intros ([a c] & E & _); cbn [fst snd] in E; injection E; congruence|lia]. }
  pose proof (tally_sum (fun a _ => F a) l' D' H) as E. unfold D', l' in E. rewrite !sumZ_map in E. exact E.
Qed.

Section Plan.
Variables (U : list (Z * Z * Z)) (nodes : list node).
Local Notation node_of := (node_of nodes).
Definition regs_of (s : nat -> Z) : regs := fun x => val s (slot (node_of (x / 3)) (x mod 3)).
Definition rows_of (S : list (nat -> Z)) : list (regs * Z) := map (fun s => (regs_of s, 1)) S.
Definition pats (p : plan) : list node := map node_of (relations p).
Definition pvars (p : plan) : list nat := vars (pats p).
(** The registers [X] belong to variables among [Y]. *)
Definition owned (X Y : list nat) : Prop := forall x, In x X -> exists v, slot (node_of (x / 3)) (x mod 3) = Var v /\ In v Y.
Lemma regs_of_agree X Y s s' : owned X Y -> agree Y s s' -> agree X (regs_of s) (regs_of s').
Proof. intros H A x Hx. unfold regs_of. destruct (H x Hx) as (v & -> & Hv). cbn. auto. Qed.
Lemma weigh_rows w S : weigh w (rows_of S) = sumZ (fun s => w (regs_of s)) S.
Proof. unfold weigh, rows_of. rewrite sumZ_map. apply sumZ_ext. intros s _. cbn [fst snd]. lia. Qed.
Lemma same_solutions X ps S S' : owned X (vars ps) -> solutions U ps S -> solutions U ps S' -> same X (rows_of S) (rows_of S').
Proof.
  intros HX H H' w Hw. rewrite !weigh_rows. apply (solutions_unique U ps S S' (fun s => w (regs_of s)) H H').
  intros s s' A. apply Hw. eapply regs_of_agree; eauto.
Qed.
Lemma slot_vars_In n k v : (k < 3)%nat -> slot n k = Var v -> In v (pattern_vars n).
Proof.
  intros Hk E. unfold pattern_vars. destruct k as [|[|[|k]]]; [| | |lia]; cbn in E; rewrite E; cbn [term_vars]; rewrite !in_app_iff; cbn; auto.
Qed.
Lemma vars_slot n v : In v (pattern_vars n) -> exists k, (k < 3)%nat /\ slot n k = Var v.
Proof.
  unfold pattern_vars. rewrite !in_app_iff. destruct n as [a b c]; cbn. intros [H|[H|H]].
  - exists 0%nat. split; [lia|]. destruct a; cbn in H; [destruct H as [->|[]]; reflexivity|destruct H].
  - exists 1%nat. split; [lia|]. destruct b; cbn in H; [destruct H as [->|[]]; reflexivity|destruct H].
  - exists 2%nat. split; [lia|]. destruct c; cbn in H; [destruct H as [->|[]]; reflexivity|destruct H].
Qed.
Lemma slot_inj n k k' v : NoDup (pattern_vars n) -> (k < 3)%nat -> (k' < 3)%nat -> slot n k = Var v -> slot n k' = Var v -> k = k'.
Proof.
  intros HN Hk Hk' E E'. destruct n as [a b c]. unfold pattern_vars in HN. cbn [n_s n_p n_o] in HN.
  destruct k as [|[|[|k]]]; [| | |lia]; (destruct k' as [|[|[|k']]]; [| | |lia]); cbn in E, E'; auto; exfalso; subst; cbn [term_vars app] in HN;
    repeat match goal with H : NoDup (_ :: _) |- _ => inversion H; clear H; subst end; rewrite ?in_app_iff in *; cbn [In] in *; try tauto.
  - destruct a; cbn [term_vars app] in HN; repeat match goal with H : NoDup (_ :: _) |- _ => inversion H; clear H; subst end; cbn [In] in *; tauto.
  - destruct a; cbn [term_vars app] in HN; repeat match goal with H : NoDup (_ :: _) |- _ => inversion H; clear H; subst end; cbn [In] in *; tauto.
Qed.

(** ** Bindings *)
Definition binds (proj : list nat) (p : plan) (b : bindings) : Prop :=
  keyed b /\
  (forall v r, In (v, r) b -> In (r / 3)%nat (relations p) /\ slot (node_of (r / 3)) (r mod 3) = Var v) /\
  (forall v, (exists r, In (v, r) b) <-> In v proj /\ In v (pvars p)).
Lemma binds_owned proj p b : binds proj p b -> owned (map snd b) (pvars p).
Proof.
  intros (_ & H & H') x Hx. apply in_map_iff in Hx. destruct Hx as ([v r] & <- & Hi). cbn [snd]. exists v. split; [now apply H|].
  apply H'. now exists r.
Qed.
Lemma binds_nodup proj p b : binds proj p b -> NoDup (map snd b).
Proof.
  intros (HK & H & _). apply NoDup_map_of.
  - apply keyed_nodup in HK. now apply NoDup_map_inv in HK.
  - intros [v r] [v' r'] Ha Hb. cbn [snd]. intros <-. destruct (H v r Ha) as [_ E]. destruct (H v' r Hb) as [_ E']. congruence.
Qed.

(** ** Scans *)
Hypothesis HU : NoDup U.
Hypothesis Hlin : linear nodes.
Lemma node_linear i : NoDup (pattern_vars (node_of i)).
Proof.
  unfold PlanModel.node_of. destruct (nth_in_or_default i nodes (mkNode (Const 0) (Const 0) (Const 0))) as [H| ->]; [|constructor].
  unfold linear in Hlin. rewrite Forall_forall in Hlin. auto.
Qed.
Lemma pats_linear l : linear (map node_of l).
Proof. apply Forall_forall. intros n Hn. apply in_map_iff in Hn. destruct Hn as (i & <- & _). apply node_linear. Qed.

Section Leaf.
Variables (proj : list nat) (idx i k1 k2 k3 : nat).
Hypothesis Hidx : (idx < 6)%nat.
Hypothesis Hcol : columns idx = (k1, k2, k3).
Local Notation row := (scan_row (reg_of i k1) (reg_of i k2) (reg_of i k3) (bound nodes i k1) (bound nodes i k2) (bound nodes i k3)).
Local Notation leaf_regs := (scan_regs (reg_of i k1) (reg_of i k2) (reg_of i k3) (bound nodes i k1) (bound nodes i k2) (bound nodes i k3)).
Local Notation leaf_bindings := (resolve nodes proj i 2 (resolve nodes proj i 1 (resolve nodes proj i 0 []))).
Lemma resolve_keyed k b : keyed b -> keyed (resolve nodes proj i k b).
Proof. intros H. unfold resolve. destruct (slot _ _); [|exact H]. destruct (mem _ _); [now apply keyed_put|exact H]. Qed.
Lemma resolve_In k b v r : In (v, r) (resolve nodes proj i k b) -> (slot (node_of i) k = Var v /\ In v proj /\ r = reg_of i k) \/ In (v, r) b.
Proof.
  unfold resolve. destruct (slot (node_of i) k) as [x|c]; [|auto]. destruct (mem x proj) eqn:E; [|auto]. intros H. apply bput_In in H.
  destruct H as [[-> ->]|H]; [|auto]. left. apply mem_In in E. auto.
Qed.
Lemma resolve_get k b v : slot (node_of i) k = Var v -> In v proj -> bget v (resolve nodes proj i k b) = Some (reg_of i k).
Proof. intros E H. unfold resolve. rewrite E. apply mem_In in H. rewrite H, bget_put, Nat.eqb_refl. reflexivity. Qed.
Lemma resolve_get_other k b v r : bget v b = Some r -> exists r', bget v (resolve nodes proj i k b) = Some r'.
Proof.
  intros E. unfold resolve. destruct (slot (node_of i) k) as [x|c]; [|eauto]. destruct (mem x proj); [|eauto]. rewrite bget_put. destruct (v =? x)%nat; eauto.
Qed.
Lemma leaf_In v r : In (v, r) leaf_bindings -> exists k, (k < 3)%nat /\ slot (node_of i) k = Var v /\ In v proj /\ r = reg_of i k.
Proof.
  intros H. apply resolve_In in H. destruct H as [H|H]; [exists 2%nat; split; [lia|exact H]|].
  apply resolve_In in H. destruct H as [H|H]; [exists 1%nat; split; [lia|exact H]|].
  apply resolve_In in H. destruct H as [H|[]]. exists 0%nat. split; [lia|exact H].
Qed.
Lemma leaf_binds u : binds proj (IndexScan u idx i) leaf_bindings.
Proof.
  split; [|split].
  - repeat apply resolve_keyed. constructor.
  - intros v r H. destruct (leaf_In v r H) as (k & Hk & E & _ & ->). destruct (reg_div i k Hk) as [-> ->]. split; [now left|exact E].
  - intros v. unfold pvars, pats. cbn [relations map vars flat_map]. rewrite app_nil_r. split.
    + intros [r H]. destruct (leaf_In v r H) as (k & Hk & E & Hp & _). split; [exact Hp|]. eapply slot_vars_In; eauto.
    + intros [Hp Hv]. destruct (vars_slot _ _ Hv) as (k & Hk & E). enough (exists r, bget v leaf_bindings = Some r) as [r Hr] by (exists r; now apply bget_In).
      destruct k as [|[|[|k]]]; [| | |lia].
      * destruct (resolve_get_other 1 (resolve nodes proj i 0 []) v (reg_of i 0)) as [r Hr]; [now apply resolve_get|]. eapply resolve_get_other; eauto.
      * eapply resolve_get_other. now apply resolve_get.
      * eexists. now apply resolve_get.
Qed.
Lemma var_bound k v : slot (node_of i) k = Var v -> bound nodes i k = false.
Proof. unfold bound. intros ->. reflexivity. Qed.
Lemma leaf_regs_In k : (k < 3)%nat -> bound nodes i k = false -> In (reg_of i k) leaf_regs.
Proof.
  intros Hk Hb. destruct (columns_perm _ _ _ _ Hidx Hcol) as (A & B & C & D & E & F). unfold scan_regs. rewrite !in_app_iff.
  assert (k = k1 \/ k = k2 \/ k = k3) as [->|[->| ->]] by lia; rewrite Hb; cbn; auto.
Qed.
Lemma leaf_regs_rel x : In x leaf_regs -> (x / 3)%nat = i.
Proof.
  destruct (columns_perm _ _ _ _ Hidx Hcol) as (A & B & C & D & E & F). unfold scan_regs. rewrite !in_app_iff.
  intros [H|[H|H]]; (destruct (bound _ _ _) in H; [destruct H|]); destruct H as [<-|[]]; now apply reg_div.
Qed.
Lemma leaf_incl : incl (map snd leaf_bindings) leaf_regs.
Proof.
  intros x Hx. apply in_map_iff in Hx. destruct Hx as ([v r] & <- & H). destruct (leaf_In v r H) as (k & Hk & E & _ & ->). cbn [snd].
  apply leaf_regs_In; auto. eapply var_bound; eauto.
Qed.
Lemma row_at x1 x2 x3 k : (k < 3)%nat -> bound nodes i k = false ->
  fst (row (x1, x2, x3)) (reg_of i k) = if (k =? k1)%nat then x1 else if (k =? k2)%nat then x2 else x3.
Proof.
  intros Hk Hb. destruct (columns_perm _ _ _ _ Hidx Hcol) as (A & B & C & D & E & F). cbn [scan_row fst sc_write]. unfold set_reg, reg_of.
  assert (k = k1 \/ k = k2 \/ k = k3) as [->|[->| ->]] by lia; rewrite Hb;
  repeat match goal with |- context [if bound ?n ?a ?b then _ else _] => destruct (bound n a b) end; cbn beta iota;
  repeat match goal with |- context [(?a =? ?b)%nat] => destruct (Nat.eqb_spec a b) end; try reflexivity; lia.
Qed.
Lemma agrees_fits t : agrees (bound nodes i k1) (bound nodes i k2) (bound nodes i k3) (const nodes i k1, const nodes i k2, const nodes i k3) (view (Z.of_nat idx) t) = fits (node_of i) t.
Proof.
  rewrite (view_columns idx t k1 k2 k3) by auto.
  set (T := fun k => match slot (node_of i) k with Const c => comp t k =? c | Var _ => true end).
  assert (ET : forall k, negb (bound nodes i k) || (comp t k =? const nodes i k) = T k).
  { intros k. unfold T, bound, const. destruct (slot (node_of i) k); reflexivity. }
  transitivity (T k1 && T k2 && T k3); [rewrite <- !ET; reflexivity|].
  transitivity (T 0%nat && (T 1%nat && (T 2%nat && true))); [|reflexivity].
  clearbody T. clear - Hidx Hcol. do 6 (destruct idx as [|idx']; [injection Hcol as <- <- <-; destruct (T 0%nat), (T 1%nat), (T 2%nat); reflexivity|clear idx; rename idx' into idx]). lia.
Qed.
Lemma row_solution t k v : fits (node_of i) t = true -> (k < 3)%nat -> slot (node_of i) k = Var v ->
  fst (row (view (Z.of_nat idx) t)) (reg_of i k) = regs_of (read (node_of i) t) (reg_of i k).
Proof.
  intros HF Hk E. rewrite (view_columns idx t k1 k2 k3) by auto. rewrite row_at; [|auto|eapply var_bound; eauto].
  unfold regs_of. destruct (reg_div i k Hk) as [-> ->]. rewrite <- comp_instance, read_instance; [|apply node_linear|exact HF].
  destruct (columns_perm _ _ _ _ Hidx Hcol) as (A & B & C & D & E' & F).
  destruct (Nat.eqb_spec k k1) as [->|]; [reflexivity|]. destruct (Nat.eqb_spec k k2) as [->|]; [reflexivity|]. replace k3 with k by lia. reflexivity.
Qed.
Lemma view_perm LU : answers U idx (-1, -1, -1) LU -> Permutation LU (map (view (Z.of_nat idx)) U).
Proof.
  intros [HS HI]. apply NoDup_Permutation.
  - now apply sorted_nodup.
  - apply NoDup_map_of; [exact HU|]. intros a b _ _ E. rewrite !(view_columns idx _ k1 k2 k3) in E by auto. injection E as E1 E2 E3.
    destruct (columns_perm _ _ _ _ Hidx Hcol) as (A & B & C & D & E' & F). apply comp_ext. intros k Hk.
    assert (k = k1 \/ k = k2 \/ k = k3) as [->|[->| ->]] by lia; assumption.
  - intros x. rewrite HI, in_map_iff. split.
    + intros (t & Ht & _ & E). eauto.
    + intros (t & E & Ht). exists t. repeat split; auto. intros n Hn. left. do 3 (destruct n as [|n]; [cbn; lia|]). lia.
Qed.
Lemma leaf_same u LU S : answers U idx (-1, -1, -1) LU -> solutions U (pats (IndexScan u idx i)) S ->
  same (map snd leaf_bindings) (map row (filter (agrees (bound nodes i k1) (bound nodes i k2) (bound nodes i k3) (const nodes i k1, const nodes i k2, const nodes i k3)) LU)) (rows_of S).
Proof.
  intros HA HS. assert (HL := node_linear i). pose proof (solutions_one U (node_of i) HU HL) as H1.
  eapply same_trans; [|eapply same_solutions; [exact (binds_owned _ _ _ (leaf_binds u))|exact H1|exact HS]].
  intros w Hw. rewrite weigh_rows, sumZ_map, sumZ_filter. unfold weigh. rewrite sumZ_map, sumZ_filter.
  rewrite (sum_perm _ _ _ (view_perm LU HA)), sumZ_map. apply sumZ_ext. intros t _. rewrite agrees_fits. destruct (fits (node_of i) t) eqn:HF; [|reflexivity].
  change (snd (row (view (Z.of_nat idx) t))) with 1. rewrite Z.mul_1_r. apply Hw. intros x Hx. apply in_map_iff in Hx. destruct Hx as ([v r] & <- & H).
  destruct (leaf_In v r H) as (k & Hk & E & _ & ->). cbn [snd]. now apply (row_solution t k v).
Qed.
Lemma leaf_ascending LU v r : answers U idx (-1, -1, -1) LU -> ordering nodes (IndexScan false idx i) = Some v -> In (v, r) leaf_bindings ->
  ascending r (map row (filter (agrees (bound nodes i k1) (bound nodes i k2) (bound nodes i k3) (const nodes i k1, const nodes i k2, const nodes i k3)) LU)).
Proof.
  intros [HS _] HO Hi. destruct (leaf_In v r Hi) as (k & Hk & E & _ & ->). pose proof (var_bound k v E) as Hb. unfold ascending.
  apply (sorted_map tlt); [|now apply sorted_filter]. intros [[x1 x2] x3] [[y1 y2] y3] Hx Hy HT. rewrite !row_at by auto.
  apply filter_In in Hx, Hy. destruct Hx as [_ Hx], Hy as [_ Hy]. unfold agrees in Hx, Hy. cbn [c1 c2 c3 fst snd] in Hx, Hy. cbn in HT.
  destruct (columns_perm _ _ _ _ Hidx Hcol) as (A & B & C & D & E' & F). cbn [ordering] in HO. rewrite Hcol in HO.
  pose proof (node_linear i) as HN. unfold slot_var, bound, const in *.
  destruct (slot (node_of i) k1) as [v1|z1] eqn:E1.
  - injection HO as ->. rewrite (slot_inj _ k k1 v HN) by auto. rewrite Nat.eqb_refl. lia.
  - destruct (Nat.eqb_spec k k1) as [->|]; [congruence|]. destruct (slot (node_of i) k2) as [v2|z2] eqn:E2.
    + injection HO as ->. rewrite (slot_inj _ k k2 v HN) by auto. rewrite Nat.eqb_refl. lia.
    + destruct (Nat.eqb_spec k k2) as [->|]; [congruence|]. lia.
Qed.
(** Aggregated scans, if the variable of the last column is not wanted. *)
Lemma agg_binds u : binds proj (AggregatedIndexScan u idx i) leaf_bindings.
Proof. exact (leaf_binds u). Qed.
Variables (v3 : nat).
Hypothesis Hv3 : slot (node_of i) k3 = Var v3.
Hypothesis Hproj : ~ In v3 proj.
Lemma resolve_unused b : resolve nodes proj i k3 b = b.
Proof. unfold resolve. rewrite Hv3. destruct (mem v3 proj) eqn:E; [apply mem_In in E; contradiction|reflexivity]. Qed.
Lemma agg_bindings u :
  let res := fun k b => if negb u && (k =? k3)%nat && negb (bound nodes i k) then b else resolve nodes proj i k b in
  res 2%nat (res 1%nat (res 0%nat [])) = leaf_bindings.
Proof.
  assert (E : forall k b, (if negb u && (k =? k3)%nat && negb (bound nodes i k) then b else resolve nodes proj i k b) = resolve nodes proj i k b).
  { intros k b. destruct (Nat.eqb_spec k k3) as [->|]; [rewrite resolve_unused; now destruct (_ && _ && _)|]. now rewrite Bool.andb_false_r. }
  cbv beta zeta. now rewrite !E.
Qed.
Local Notation arow := (agg_row (reg_of i k1) (reg_of i k2) (bound nodes i k1) (bound nodes i k2)).
Local Notation aregs := (agg_regs (reg_of i k1) (reg_of i k2) (bound nodes i k1) (bound nodes i k2)).
Lemma agg_In v r : In (v, r) leaf_bindings -> exists k, (k = k1 \/ k = k2) /\ slot (node_of i) k = Var v /\ r = reg_of i k.
Proof.
  intros H. destruct (leaf_In v r H) as (k & Hk & E & Hp & ->). exists k. split; [|auto]. destruct (columns_perm _ _ _ _ Hidx Hcol) as (A & B & C & D & E' & F).
  assert (k <> k3) by (intros ->; congruence). lia.
Qed.
Lemma agg_incl : incl (map snd leaf_bindings) aregs.
Proof.
  intros x Hx. apply in_map_iff in Hx. destruct Hx as ([v r] & <- & H). destruct (agg_In v r H) as (k & Hk & E & ->). cbn [snd]. pose proof (var_bound _ _ E) as Hb.
  unfold agg_regs. apply in_or_app. destruct Hk as [->| ->]; rewrite Hb; [left|right]; now left.
Qed.
Lemma agg_regs_rel x : In x aregs -> (x / 3)%nat = i.
Proof.
  destruct (columns_perm _ _ _ _ Hidx Hcol) as (A & B & C & D & E & F). unfold agg_regs. rewrite !in_app_iff.
  intros [H|H]; (destruct (bound _ _ _) in H; [destruct H|]); destruct H as [<-|[]]; now apply reg_div.
Qed.
Lemma arow_at x1 x2 n k : (k = k1 \/ k = k2) -> bound nodes i k = false -> fst (arow (x1, x2, n)) (reg_of i k) = if (k =? k1)%nat then x1 else x2.
Proof.
  intros Hk Hb. destruct (columns_perm _ _ _ _ Hidx Hcol) as (A & B & C & D & E & F). cbn [agg_row fst snd ac_write]. unfold set_reg, reg_of.
  destruct Hk as [->| ->]; rewrite Hb;
  repeat match goal with |- context [if bound ?n ?a ?b then _ else _] => destruct (bound n a b) end; cbn beta iota;
  repeat match goal with |- context [(?a =? ?b)%nat] => destruct (Nat.eqb_spec a b) end; try reflexivity; lia.
Qed.
Lemma agg_same u L LU D S : answers U idx (-1, -1, -1) LU ->
  L = filter (agrees (bound nodes i k1) (bound nodes i k2) false (const nodes i k1, const nodes i k2, 0)) LU -> is_tally L D ->
  solutions U (pats (AggregatedIndexScan u idx i)) S -> same (map snd leaf_bindings) (map arow D) (rows_of S).
Proof.
  intros HA EL HT HS. eapply same_trans; [|apply (leaf_same u LU S HA HS)]. rewrite (var_bound _ _ Hv3).
  intros w Hw. unfold weigh. rewrite !sumZ_map. rewrite (sumZ_ext _ (fun x : elem => w (fst (arow (fst (fst x), snd (fst x), 0))) * snd x)).
  2: { intros [[x1 x2] n] _. reflexivity. }
  pose proof (tally_sum (fun x1 x2 => w (fst (arow (x1, x2, 0)))) L D HT) as ET. cbv beta in ET. etransitivity; [exact ET|]. rewrite EL.
  rewrite (filter_ext _ (agrees (bound nodes i k1) (bound nodes i k2) false (const nodes i k1, const nodes i k2, const nodes i k3))).
  2: { intros [[x1 x2] x3]. unfold agrees. reflexivity. }
  apply sumZ_ext. intros [[x1 x2] x3] _. cbn [fst snd scan_row]. rewrite Z.mul_1_r. apply Hw. intros x Hx. apply in_map_iff in Hx. destruct Hx as ([v r] & <- & H).
  destruct (agg_In v r H) as (k & Hk & E & ->). cbn [snd]. pose proof (var_bound _ _ E) as Hb. rewrite arow_at by auto.
  destruct (columns_perm _ _ _ _ Hidx Hcol) as (A & B & C & D' & E' & F).
  pose proof (row_at x1 x2 x3 k ltac:(destruct Hk as [->| ->]; assumption) Hb) as HR. cbn [scan_row fst] in HR. rewrite (var_bound _ _ Hv3) in HR. rewrite HR.
  destruct (Nat.eqb_spec k k1); [reflexivity|]. destruct (Nat.eqb_spec k k2); [reflexivity|lia].
Qed.
Lemma agg_ascending L LU D v r :
  L = filter (agrees (bound nodes i k1) (bound nodes i k2) false (const nodes i k1, const nodes i k2, 0)) LU -> is_tally L D ->
  ordering nodes (AggregatedIndexScan false idx i) = Some v -> In (v, r) leaf_bindings -> ascending r (map arow D).
Proof.
  intros EL [HS HD] HO Hi. destruct (agg_In v r Hi) as (k & Hk & E & ->). pose proof (var_bound k v E) as Hb. unfold ascending.
  apply (sorted_map group_lt); [|exact HS]. intros [[x1 x2] n] [[y1 y2] m] Hx Hy HT. rewrite !arow_at by auto.
  assert (Hag : forall a b c, In (a, b, c) D -> bound nodes i k1 = true -> a = const nodes i k1).
  { intros a b c H Hb1. apply HD in H. destruct H as [Hc Hp]. unfold count_of in Hc. assert (H : exists e, In e (filter (fun x : elem => (fst (fst x) =? a) && (snd (fst x) =? b)) L)).
    { match type of Hc with context [length ?x] => change (exists e, In e x); destruct x as [|e t]; [cbn in Hc; lia|exists e; now left] end. }
    destruct H as ([[a' b'] c'] & H).
    apply filter_In in H. destruct H as [H1 H2]. rewrite EL in H1. apply filter_In in H1. destruct H1 as [_ H1]. unfold agrees in H1. cbn [c1 c2 c3 fst snd] in H1, H2. rewrite Hb1 in H1. cbn [negb orb] in H1. lia. }
  destruct (columns_perm _ _ _ _ Hidx Hcol) as (A & B & C & D' & E' & F). cbn [ordering] in HO. rewrite Hcol in HO. cbn in HT.
  pose proof (node_linear i) as HN. unfold slot_var in HO.
  assert (Hk3 : (k < 3)%nat) by (destruct Hk as [->| ->]; assumption).
  destruct (slot (node_of i) k1) as [v1|z1] eqn:E1.
  - injection HO as ->. rewrite (slot_inj _ k k1 v HN) by auto. rewrite Nat.eqb_refl. lia.
  - destruct (Nat.eqb_spec k k1) as [->|]; [congruence|].
    assert (Hb1 : bound nodes i k1 = true) by (unfold bound; now rewrite E1). rewrite (Hag _ _ _ Hx Hb1), (Hag _ _ _ Hy Hb1) in HT. lia.
Qed.
(** Scans that skip two columns, if the variables of both are not wanted. *)
Variables (v1 v2 : nat).
Hypothesis Hv1 : slot (node_of i) k1 = Var v1.
Hypothesis Hv2 : slot (node_of i) k2 = Var v2.
Hypothesis Hproj2 : ~ In v2 proj.
Lemma full_binds u : binds proj (FullyAggregatedIndexScan u idx i) leaf_bindings.
Proof. exact (leaf_binds u). Qed.
Lemma full_bindings :
  let res := fun k b => if negb (k =? k1)%nat && negb (bound nodes i k) then b else resolve nodes proj i k b in
  res 2%nat (res 1%nat (res 0%nat [])) = leaf_bindings.
Proof.
  destruct (columns_perm _ _ _ _ Hidx Hcol) as (A & B & C & D & E' & F).
  assert (E : forall k b, (k < 3)%nat -> (if negb (k =? k1)%nat && negb (bound nodes i k) then b else resolve nodes proj i k b) = resolve nodes proj i k b).
  { intros k b Hk. destruct (Nat.eqb_spec k k1) as [->|]; [reflexivity|]. assert (k = k2 \/ k = k3) as [->| ->] by lia.
    - unfold resolve. rewrite Hv2. destruct (mem v2 proj) eqn:M; [apply mem_In in M; contradiction|]. now destruct (_ && _).
    - rewrite resolve_unused. now destruct (_ && _). }
  cbv beta zeta. rewrite !E by lia. reflexivity.
Qed.
Lemma full_In v r : In (v, r) leaf_bindings -> v = v1 /\ r = reg_of i k1.
Proof.
  intros H. destruct (agg_In v r H) as (k & Hk & E & ->). destruct (leaf_In v (reg_of i k) H) as (_ & _ & _ & Hp & _). destruct Hk as [->| ->].
  - split; congruence.
  - assert (v = v2) by congruence. subst v. contradiction.
Qed.
Lemma full_incl : incl (map snd leaf_bindings) [reg_of i k1].
Proof. intros x Hx. apply in_map_iff in Hx. destruct Hx as ([v r] & <- & H). destruct (full_In v r H) as [_ ->]. now left. Qed.
Lemma full_regs_rel x : In x [reg_of i k1] -> (x / 3)%nat = i.
Proof. intros [<-|[]]. destruct (columns_perm _ _ _ _ Hidx Hcol) as (A & _). now apply reg_div. Qed.
Lemma full_same u LU D S : answers U idx (-1, -1, -1) LU -> counts_of (fun t : elem => fst (fst t)) D LU ->
  solutions U (pats (FullyAggregatedIndexScan u idx i)) S -> same (map snd leaf_bindings) (map (full_row (reg_of i k1)) D) (rows_of S).
Proof.
  intros HA HT HS. eapply same_trans; [|apply (leaf_same u LU S HA HS)].
  intros w Hw. unfold weigh. rewrite !sumZ_map.
  etransitivity; [exact (counts_sum (fun x => w (set_reg (reg_of i k1) x (fun _ => 0))) LU D HT)|].
  rewrite filter_true.
  2: { apply Forall_forall. intros [[x1 x2] x3] _. unfold agrees. rewrite (var_bound _ _ Hv1), (var_bound _ _ Hv2), (var_bound _ _ Hv3). reflexivity. }
  apply sumZ_ext. intros [[x1 x2] x3] _. change (snd (row (x1, x2, x3))) with 1. rewrite Z.mul_1_r. apply Hw. intros x Hx. apply in_map_iff in Hx. destruct Hx as ([v r] & <- & H).
  destruct (full_In v r H) as [-> ->]. cbn [snd]. destruct (columns_perm _ _ _ _ Hidx Hcol) as (A & _). rewrite row_at by (auto; apply (var_bound _ _ Hv1)).
  rewrite Nat.eqb_refl. unfold set_reg. rewrite Nat.eqb_refl. reflexivity.
Qed.
Lemma full_ascending D v r : term_list D -> In (v, r) leaf_bindings -> ascending r (map (full_row (reg_of i k1)) D).
Proof.
  intros [HS _] Hi. destruct (full_In v r Hi) as [-> ->]. unfold ascending. apply (sorted_map (fun a b : Z * Z => fst a < fst b)); [|exact HS].
  intros [x c] [y d] _ _ HT. cbn [full_row fst snd] in *. unfold set_reg. rewrite Nat.eqb_refl. lia.
Qed.
End Leaf.
End Plan.
