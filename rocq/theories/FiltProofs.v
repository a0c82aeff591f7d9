(** Proofs about plans with FILTERs. *)
From Coq Require Import ZifyBool.
From Verif Require Import OpSpec OpProofs OpProps2.
From Verif Require Import PlanModel PlanSpec PlanProofs PlanProofs2 PlanProofs3 PlanProofs4 PlanProofs5 PlanProofs6 FiltModel.
From Verif Require Import FiltSpec.
From Verif Require Import SelModel SelSpec SelProofs SelProps.
Local Open Scope Z_scope.

(** ** Variables and registers *)
Lemma fvars_in_regs r : forall f, fvars (in_regs r f) = map r (fvars f).
Proof.
  fix IH 1. intros f. destruct f; cbn [in_regs fvars map]; rewrite ?map_app; rewrite <- ?IH; try reflexivity.
  f_equal. induction l as [|x l IHl]; [reflexivity|]. cbn [map flat_map]. now rewrite map_app, <- IH, <- IHl.
Qed.
Section Ren.
Variables (w : world) (r : nat -> nat) (s g : nat -> Z).
Local Notation row := (row_of w s).
Local Notation row' := (row_of w g).
Local Notation meets f := (forall x, In x (fvars f) -> g (r x) = s x).
Lemma operand_regs f t : Operand row f t -> meets f -> Operand row' (in_regs r f) t.
Proof.
  induction 1; cbn [in_regs fvars]; intros Hx; try (constructor; auto; fail).
  - constructor. unfold row_of in *. rewrite Hx; cbn; auto.
  - eapply Op_str_lit; eauto.
  - eapply Op_lang; eauto.
  - eapply Op_datatype; eauto.
Qed.
Lemma truth_regs f b : Truth row f b -> meets f -> Truth row' (in_regs r f) b.
Proof.
  induction 1; cbn [in_regs fvars]; intros Hx;
    try (econstructor; eauto using operand_regs, in_or_app; fail).
  - replace (match row x with Some _ => true | None => false end) with (match row' (r x) with Some _ => true | None => false end); [constructor|].
    unfold row_of. rewrite Hx; cbn; auto.
  - cbn [map]. apply T_in_hit. apply IHTruth. intros y0 Hy. apply Hx. cbn [fvars flat_map] in *. rewrite !in_app_iff in *. tauto.
  - cbn [map]. apply T_in_miss.
    + apply IHTruth1. intros y0 Hy. apply Hx. cbn [fvars flat_map] in *. rewrite !in_app_iff in *. tauto.
    + apply IHTruth2. intros y0 Hy. apply Hx. cbn [fvars flat_map] in *. rewrite !in_app_iff in *. tauto.
Qed.
Lemma is_var_regs f : is_var f -> is_var (in_regs r f).
Proof. intros [x ->]. cbn. eexists. reflexivity. Qed.
Lemma constant_regs f : constant_ok w f -> in_regs r f = f.
Proof. destruct f; cbn; intros H; try contradiction; reflexivity. Qed.
Lemma operand_ok_regs f : operand_ok w f -> operand_ok w (in_regs r f).
Proof. intros [H|H]; [left; now apply is_var_regs|right; now rewrite constant_regs]. Qed.
Lemma known_regs f : operand_ok w f -> known w f -> known w (in_regs r f).
Proof. intros [[x ->]|H] K; [exact I|]. now rewrite constant_regs. Qed.
Lemma operand_back f t : operand_ok w f -> meets f -> Operand row' (in_regs r f) t -> Operand row f t.
Proof.
  intros [[x ->]|H] Hx HO.
  - cbn in HO. inversion HO; subst. constructor. unfold row_of in *. rewrite <- Hx; cbn; auto.
  - rewrite constant_regs in HO by exact H. destruct f; cbn in H; try contradiction; inversion HO; subst; constructor.
Qed.
Lemma equal_ok_regs a b : equal_ok w row a b -> meets a -> meets b -> equal_ok w row' (in_regs r a) (in_regs r b).
Proof.
  intros (Ha & Hb & Hv & Hn) Xa Xb. split; [now apply operand_ok_regs|]. split; [now apply operand_ok_regs|]. split; [destruct Hv; [left|right]; now apply is_var_regs|].
  intros t1 t2 q1 q2 O1 O2. apply Hn; now apply operand_back.
Qed.
Lemma order_ok_regs a b : order_ok w row a b -> meets a -> meets b -> order_ok w row' (in_regs r a) (in_regs r b).
Proof.
  intros (Ha & Hb & Ka & Kb & H) Xa Xb. split; [now apply operand_ok_regs|]. split; [now apply operand_ok_regs|]. split; [now apply known_regs|]. split; [now apply known_regs|].
  intros t [O|O]; apply H; [left|right]; now apply operand_back.
Qed.
Lemma meets_l a b : (forall x, In x (fvars a ++ fvars b) -> g (r x) = s x) -> meets a.
Proof. intros H x Hx. apply H, in_or_app. now left. Qed.
Lemma meets_r a b : (forall x, In x (fvars a ++ fvars b) -> g (r x) = s x) -> meets b.
Proof. intros H x Hx. apply H, in_or_app. now right. Qed.
Lemma supported_regs f : Supported w s f -> meets f -> Supported w g (in_regs r f).
Proof.
  induction f; cbn [Supported in_regs fvars]; intros HS Hx; try contradiction;
    try (apply equal_ok_regs; eauto using meets_l, meets_r; fail); try (apply order_ok_regs; eauto using meets_l, meets_r; fail); auto using is_var_regs.
  - destruct HS. split; eauto using meets_l, meets_r.
  - destruct HS. split; eauto using meets_l, meets_r.
  - rewrite Hx by (cbn; auto). exact HS.
  - destruct HS as (Ha & Hb & Hv). split; [now apply operand_ok_regs|]. split; [now apply operand_ok_regs|]. destruct Hv; [left|right]; now apply is_var_regs.
  - destruct HS as (Hv & Hb). split; [now apply is_var_regs|]. intros t O. apply Hb. apply operand_back; auto. now left.
  - destruct HS as (Hv & Hl). split; [now apply is_var_regs|]. apply Forall_map. apply Forall_forall. intros y Hy. rewrite Forall_forall in Hl.
    apply equal_ok_regs; [now apply Hl|intros x X; apply Hx, in_or_app; now left|]. intros x X. apply Hx, in_or_app. right. apply in_flat_map. eauto.
Qed.
End Ren.
(** All the variables of ordinary filters are found. *)
Lemma ordinary_vars : forall f, ordinary f = true -> filter_vars f = fvars f.
Proof.
  fix IH 1. intros f. destruct f; cbn [ordinary filter_vars fvars]; intros H; try discriminate; try reflexivity; try (now apply IH);
    try (apply andb_prop in H; destruct H as [H1 H2]; rewrite (IH _ H1), (IH _ H2); reflexivity).
  apply andb_prop in H. destruct H as [H1 H2]. rewrite (IH _ H1). f_equal. revert H2. induction l as [|x l IHl]; [reflexivity|]. cbn [forallb flat_map]. intros H2.
  apply andb_prop in H2. destruct H2 as [H2 H3]. now rewrite (IH _ H2), (IHl H3).
Qed.

(** ** Comparisons with constants *)
Section Special.
Variables (w : world).
Hypothesis D : dict_ok w.
Lemma number_apart j u t : w_text w j = Some u -> w_number w t = None -> String.eqb u t = false.
Proof. intros Hj Ht. destruct (String.eqb_spec u t) as [->|]; [|reflexivity]. apply (to_number w D) in Hj. congruence. Qed.
Lemma id_ok o t j u : w_text w j = Some u -> o = w_number w t ->
  (j =? match o with Some i => i mod 2 ^ 32 | None => null32 end) = String.eqb u t.
Proof.
  intros Hj ->. destruct (w_number w t) as [k|] eqn:E.
  - pose proof (to_text w D _ _ E) as Hk. destruct (small_id w D _ _ Hk) as [-> _]. now apply (text_inj w D).
  - rewrite (number_apart j u t Hj E). pose proof (text_range w D _ _ Hj). lia.
Qed.
Lemma filter_id_ok row c t i j u : constant_ok w c -> Operand row c t -> filter_id w c = Some i -> w_text w j = Some u -> (j =? i) = String.eqb u t.
Proof.
  intros HC HO E Hj. destruct c; cbn in E; try discriminate; injection E as <-; inversion HO; subst; apply id_ok; auto. now apply (encode_form w D).
Qed.
Lemma id_constant c i : operand_ok w c -> filter_id w c = Some i -> constant_ok w c.
Proof. intros [[x ->]|H] E; [discriminate|exact H]. Qed.
Lemma compared_cases a b x i : compared w a b = Some (x, i) -> (a = FVar x /\ filter_id w b = Some i) \/ (b = FVar x /\ filter_id w a = Some i).
Proof.
  unfold compared. intros H. destruct (filter_id w b) as [k|] eqn:Eb; destruct (filter_id w a) as [m|] eqn:Ea;
    destruct a, b; try discriminate; injection H as <- <-; auto.
Qed.
Lemma compared_ok s a b x i t1 t2 z : equal_ok w (row_of w s) a b -> compared w a b = Some (x, i) ->
  Operand (row_of w s) a t1 -> Operand (row_of w s) b t2 -> Equals t1 t2 z -> (s x =? i) = z.
Proof.
  intros HE HC H1 H2 HZ. rewrite (equals_same w _ a b t1 t2 z HE H1 H2 HZ). destruct HE as (Oa & Ob & _). destruct (compared_cases a b x i HC) as [[-> E]|[-> E]].
  - inversion H1; subst. eapply filter_id_ok; eauto using id_constant.
  - inversion H2; subst. rewrite String.eqb_sym. eapply filter_id_ok; eauto using id_constant.
Qed.
Lemma equal_truth s a b x i z : equal_ok w (row_of w s) a b -> compared w a b = Some (x, i) -> Truth (row_of w s) (FEqual a b) z -> z = (s x =? i).
Proof. intros HE HC HT. inversion HT; subst. symmetry. eapply compared_ok; eauto. Qed.
Lemma notequal_truth s a b x i z : equal_ok w (row_of w s) a b -> compared w a b = Some (x, i) -> Truth (row_of w s) (FNotEqual a b) z -> z = negb (s x =? i).
Proof. intros HE HC HT. inversion HT; subst. f_equal. symmetry. eapply compared_ok; eauto. Qed.
Lemma special_ok s f z x values exclude : Supported w s f -> Truth (row_of w s) f z -> special w f = Some (x, values, exclude) ->
  (if in_dec Z.eq_dec (s x) values then negb exclude else exclude) = z.
Proof.
  intros HS HT E. destruct f; cbn [special] in E; try discriminate.
  - destruct (compared w f1 f2) as [[y i]|] eqn:EC; [|discriminate]. injection E as -> <- <-. rewrite (equal_truth s _ _ _ _ _ HS EC HT).
    destruct (in_dec _ _ _) as [[<-|[]]|N]; cbn [negb]; [now rewrite Z.eqb_refl|]. destruct (Z.eqb_spec (s x) i) as [E|]; [|reflexivity]. exfalso. apply N. now left.
  - destruct (compared w f1 f2) as [[y i]|] eqn:EC; [|discriminate]. injection E as -> <- <-. rewrite (notequal_truth s _ _ _ _ _ HS EC HT).
    destruct (in_dec _ _ _) as [[<-|[]]|N]; cbn [negb]; [now rewrite Z.eqb_refl|]. destruct (Z.eqb_spec (s x) i) as [E|]; [|reflexivity]. exfalso. apply N. now left.
  - destruct f; try discriminate. destruct (filter_ids w l) as [is|] eqn:EI; [|discriminate]. injection E as -> <- <-. cbn [negb]. destruct HS as [_ HS].
    revert is z EI HT. induction HS as [|y l Hy _ IH]; intros is z EI HT; cbn [filter_ids] in EI.
    + injection EI as <-. inversion HT; subst. reflexivity.
    + destruct (filter_id w y) as [i|] eqn:Ey; [|discriminate]. destruct (filter_ids w l) as [js|] eqn:El; [|discriminate]. injection EI as <-.
      assert (EC : compared w (FVar x) y = Some (x, i)) by (unfold compared; now rewrite Ey).
      inversion HT; subst.
      * match goal with H : Truth _ (FEqual _ _) true |- _ => pose proof (equal_truth s _ _ _ _ _ Hy EC H) as HQ end. symmetry in HQ. apply Z.eqb_eq in HQ.
        destruct (in_dec _ _ _) as [|N]; [reflexivity|]. exfalso. apply N. left. congruence.
      * match goal with H : Truth _ (FEqual _ _) false |- _ => pose proof (equal_truth s _ _ _ _ _ Hy EC H) as HQ end. symmetry in HQ. apply Z.eqb_neq in HQ.
        rewrite <- (IH js z eq_refl) by assumption. destruct (in_dec _ _ (i :: js)) as [[N|N]|N], (in_dec _ _ js) as [M|M]; auto; try congruence; try contradiction. exfalso. apply N. now right.
Qed.
Lemma special_var f x values exclude : special w f = Some (x, values, exclude) -> In x (fvars f).
Proof.
  destruct f; cbn [special]; try discriminate.
  - destruct (compared w f1 f2) as [[y i]|] eqn:EC; [|discriminate]. intros [= -> _ _]. cbn [fvars]. apply in_or_app. destruct (compared_cases _ _ _ _ EC) as [[-> _]|[-> _]]; cbn; auto.
  - destruct (compared w f1 f2) as [[y i]|] eqn:EC; [|discriminate]. intros [= -> _ _]. cbn [fvars]. apply in_or_app. destruct (compared_cases _ _ _ _ EC) as [[-> _]|[-> _]]; cbn; auto.
  - destruct f; try discriminate. destruct (filter_ids w l); [|discriminate]. intros [= -> _ _]. cbn. auto.
Qed.
End Special.

(** ** Rows *)
Definition row_eq (V : list nat) (g h : regs) : bool := if values_dec (map g V) (map h V) then true else false.
Lemma row_eq_iff V g h : row_eq V g h = true <-> agree V g h.
Proof. unfold row_eq. rewrite <- map_eq_agree. destruct (values_dec (map g V) (map h V)); split; congruence. Qed.
Lemma same_row V L R a : PlanProofs5.positive L -> same V L R -> In a L -> exists b, In b R /\ agree V (fst a) (fst b).
Proof.
  intros HP HS Ha. assert (E : existsb (fun b : regs * Z => row_eq V (fst a) (fst b)) R = true).
  { refine (same_all V (fun g => existsb (fun b : regs * Z => row_eq V g (fst b)) R) L R _ HP HS _ a Ha).
    - intros g h A. apply map_eq_agree in A. unfold row_eq. now rewrite A.
    - intros b Hb. apply existsb_exists. exists b. split; [exact Hb|]. apply row_eq_iff. intros x _. reflexivity. }
  apply existsb_exists in E. destruct E as (b & Hb & E). exists b. split; [exact Hb|]. now apply row_eq_iff.
Qed.
Fixpoint pick (V : list nat) (vs : list Z) (x : nat) : Z :=
  match V, vs with v :: V', c :: vs' => if (v =? x)%nat then c else pick V' vs' x | _, _ => 0 end.
Definition norm (V : list nat) (g : regs) : regs := pick V (map g V).
Lemma norm_agree V g x : In x V -> g x = norm V g x.
Proof. unfold norm. induction V as [|v V IH]; [intros []|]. cbn [map pick]. intros H. destruct (Nat.eqb_spec v x) as [->|N]; [reflexivity|]. destruct H as [H|H]; [congruence|auto]. Qed.
Section Verdict.
Variables (w : world) (V : list nat) (f : filt).
Hypothesis D : dict_ok w.
Definition verdict_of (g : regs) : bool := match check w (norm V g) (SelModel.build w f) (fun _ => None) with Some (b, _) => b | None => false end.
Lemma verdict_agree g h : agree V g h -> verdict_of g = verdict_of h.
Proof. intros A. apply map_eq_agree in A. unfold verdict_of, norm. now rewrite A. Qed.
Lemma verdict_ok g z : incl (fvars f) V -> Supported w g f -> Truth (row_of w g) f z -> verdict_of g = z.
Proof.
  intros HV HS HT. assert (A : forall x, In x (fvars f) -> g x = norm V g x) by (intros x Hx; apply norm_agree; auto).
  destruct (filter_check w (norm V g) D f z (fun _ => None)) as (m & E & _).
  - eapply supported_agree; eauto.
  - eapply truth_agree; eauto. intros x Hx. unfold row_of. now rewrite (A x Hx).
  - apply remembers_nothing.
  - unfold verdict_of. now rewrite E.
Qed.
End Verdict.

(** ** Filters on top of a plan *)
Section Layers.
Variables (w : world) (fuel : nat) (nodes : list node) (U : list (Z * Z * Z)) (p : plan) (keep : filt -> (nat -> Z) -> bool).
Hypothesis D : dict_ok w.
Local Notation rows_of := (PlanProofs4.rows_of nodes).
Local Notation regs_of := (PlanProofs4.regs_of nodes).
Local Notation pats := (PlanProofs4.pats nodes).
Local Notation pvars := (PlanProofs4.pvars nodes).
Definition kept (fs : list filt) (S : list (nat -> Z)) : list (nat -> Z) := filter (fun s => forallb (fun f => keep f s) fs) S.
Record Layer (proj : list nat) (fs : list filt) (o : oper) (b : bindings) (W : list nat) (L : list (regs * Z)) : Prop := {
  l_answers : Answers (map snd b) W L o;
  l_length : (length L < fuel)%nat;
  l_binds : binds nodes proj p b;
  l_same : forall S, solutions U (pats p) S -> same (map snd b) L (rows_of (kept fs S)) }.
Lemma filter_rows (k : regs * Z -> bool) (q : (nat -> Z) -> bool) S : (forall s, In s S -> k (regs_of s, 1) = q s) -> filter k (rows_of S) = rows_of (filter q S).
Proof.
  intros H. induction S as [|s S IH]; [reflexivity|]. cbn [PlanProofs4.rows_of map filter]. rewrite (H s (or_introl eq_refl)). fold (rows_of S).
  rewrite IH by (intros; apply H; now right). destruct (q s); reflexivity.
Qed.
Lemma kept_cons f fs S : filter (keep f) (kept fs S) = kept (f :: fs) S.
Proof. unfold kept. induction S as [|s S IH]; [reflexivity|]. cbn [filter forallb]. destruct (forallb _ fs); cbn [filter]; destruct (keep f s); cbn [andb]; now rewrite IH. Qed.
Lemma cleanup_binds proj vs b : binds nodes (addAll vs proj) p b -> binds nodes proj p (cleanup proj vs b).
Proof.
  intros (K & B & C). assert (HI : forall v r, In (v, r) (cleanup proj vs b) <-> In (v, r) b /\ In v proj).
  { intros v r. unfold cleanup. rewrite filter_In. cbn [fst]. split; intros [H1 H2]; (split; [exact H1|]).
    - assert (Hv : In v (addAll vs proj)) by (apply C; eauto). apply addAll_In in Hv. apply orb_prop in H2. destruct H2 as [H2|H2]; [now apply mem_In|].
      destruct Hv as [Hv|Hv]; [|exact Hv]. apply mem_In in Hv. rewrite Hv in H2. discriminate.
    - apply mem_In in H2. now rewrite H2. }
  split; [|split].
  - unfold keyed, cleanup in *. clear - K. induction b as [|[v r] b IH]; [constructor|]. cbn [map fst filter] in *. inversion K as [|? ? K1 K2]; subst.
    destruct (mem v proj || negb (mem v vs)); [|auto]. cbn [map fst]. constructor; [auto|]. rewrite Forall_forall in *. intros x Hx. apply K2.
    apply in_map_iff in Hx. destruct Hx as (e & <- & He). apply filter_In in He. apply in_map, He.
  - intros v r H. apply HI in H. now apply B.
  - intros v. split.
    + intros [r H]. apply HI in H. destruct H as [H1 H2]. split; [exact H2|]. apply C. eauto.
    + intros [H1 H2]. destruct (proj2 (C v)) as [r Hr]; [split; [apply addAll_In; auto|exact H2]|]. exists r. apply HI. auto.
Qed.
Lemma layer_filter proj fs f o b W L : ordinary f = true -> incl (fvars f) (pvars p) ->
  (exists S, solutions U (pats p) S) ->
  (forall s, solves U (pats p) s -> Supported w s f /\ Truth (row_of w s) f (keep f s)) ->
  Layer (addAll (addAll (filter_vars f) []) proj) fs o b W L ->
  exists o' L', filter_tree w fuel b f o = Some o' /\ Layer proj (f :: fs) o' (cleanup proj (addAll (filter_vars f) []) b) W L' /\ exists k, L' = filter k L.
Proof.
  intros HO HV (S0 & HS0) HT [HA HL HB HS]. rewrite (ordinary_vars f HO) in *. set (vs := addAll (fvars f) []) in *.
  destruct HB as (K & B & C). assert (Hget : forall x, In x (fvars f) -> exists r, bget x b = Some r /\ In (x, r) b).
  { intros x Hx. apply keyed_get; [exact K|]. apply C. split; [|auto]. apply addAll_In. left. apply addAll_In. now left. }
  assert (Hin : forall x, In x (fvars f) -> In (reg_for b x) (map snd b)).
  { intros x Hx. unfold reg_for. destruct (Hget x Hx) as (r & -> & Hr). exact (in_map snd _ _ Hr). }
  assert (Hval : forall s x, In x (fvars f) -> regs_of s (reg_for b x) = s x).
  { intros s x Hx. unfold reg_for, PlanProofs4.regs_of. destruct (Hget x Hx) as (r & -> & Hr). destruct (B x r Hr) as [_ ->]. reflexivity. }
  assert (Hreg : forallb (has_reg b) (fvars f) = true).
  { apply forallb_forall. intros x Hx. unfold has_reg. now destruct (Hget x Hx) as (r & -> & _). }
  assert (HB' := cleanup_binds proj vs b (conj K (conj B C))).
  assert (Hincl : incl (map snd (cleanup proj vs b)) (map snd b)).
  { intros x Hx. apply in_map_iff in Hx. destruct Hx as (e & <- & He). apply filter_In in He. apply in_map, He. }
  assert (Hlen : forall k : regs * Z -> bool, (length (filter k L) < fuel)%nat) by (intros k; assert (length (filter k L) <= length L)%nat; [clear; induction L as [|a l IH]; [apply le_n|cbn [filter length]; destruct (k a); cbn [length]; lia]|lia]).
  unfold filter_tree. rewrite (ordinary_vars f HO), Hreg. cbn [negb]. destruct (special w f) as [[[x values] ex]|] eqn:ES.
  - pose proof (special_var w f x values ex ES) as Hx. eexists _, (filter (fun a => if in_dec Z.eq_dec (fst a (reg_for b x)) values then negb ex else ex) L). split; [reflexivity|]. split; [|eexists; reflexivity]. split.
    + eapply Answers_V; [exact Hincl|]. apply C64_filter; [now apply Hin|exact HL|exact HA].
    + apply Hlen.
    + exact HB'.
    + intros S HSol. apply (same_incl _ (map snd b)); [exact Hincl|]. rewrite <- kept_cons.
      rewrite <- (filter_rows (fun a => if in_dec Z.eq_dec (fst a (reg_for b x)) values then negb ex else ex)).
      * apply same_filter; [|now apply HS]. intros g h c d A. cbn [fst]. now rewrite (A _ (Hin x Hx)).
      * intros s Hs. cbn [fst]. rewrite (Hval s x Hx). apply filter_In in Hs. destruct Hs as [Hs _]. destruct (HT s (solutions_sound _ _ _ _ HSol Hs)) as [H1 H2].
        eapply special_ok; eauto.
  - set (f' := in_regs (reg_for b) f). assert (HV' : incl (fvars f') (map snd b)).
    { intros x Hx. unfold f' in Hx. rewrite fvars_in_regs in Hx. apply in_map_iff in Hx. destruct Hx as (y & <- & Hy). auto. }
    assert (Hrow : forall g s, solves U (pats p) s -> agree (map snd b) g (regs_of s) -> Supported w g f' /\ Truth (row_of w g) f' (keep f s)).
    { intros g s Hs A. destruct (HT s Hs) as [H1 H2]. assert (Hm : forall x, In x (fvars f) -> g (reg_for b x) = s x) by (intros x Hx; rewrite (A _ (Hin x Hx)); auto).
      split; [eapply supported_regs; eauto|eapply truth_regs; eauto]. }
    eexists _, (filter (fun a => verdict_of w (map snd b) f' (fst a)) L). split; [reflexivity|]. split; [|eexists; reflexivity]. split.
    + eapply Answers_V; [exact Hincl|]. apply (C75_selection_partial w (map snd b) W f' (fun a => verdict_of w (map snd b) f' (fst a)) L); auto.
      intros a Ha. destruct (same_row _ _ _ _ (answers_pos _ _ _ _ HA) (HS S0 HS0) Ha) as (r & Hr & A). apply in_map_iff in Hr. destruct Hr as (s & <- & Hs). cbn [fst] in A.
      apply filter_In in Hs. destruct Hs as [Hs _]. destruct (Hrow (fst a) s (solutions_sound _ _ _ _ HS0 Hs) A) as [H1 H2]. split; [exact H1|].
      rewrite (verdict_ok w (map snd b) f' D (fst a) (keep f s)); auto.
    + apply Hlen.
    + exact HB'.
    + intros S HSol. apply (same_incl _ (map snd b)); [exact Hincl|]. rewrite <- kept_cons.
      rewrite <- (filter_rows (fun a => verdict_of w (map snd b) f' (fst a))).
      * apply same_filter; [|now apply HS]. intros g h c d A. cbn [fst]. now apply verdict_agree.
      * intros s Hs. cbn [fst]. apply filter_In in Hs. destruct Hs as [Hs _]. destruct (Hrow (regs_of s) s (solutions_sound _ _ _ _ HSol Hs) (agree_refl _ _)) as [H1 H2].
        apply verdict_ok; auto.
Qed.
Lemma layer_step proj fs f o b W L : ordinary f = true -> incl (fvars f) (pvars p) ->
  (exists S, solutions U (pats p) S) ->
  (forall s, solves U (pats p) s -> Supported w s f /\ Truth (row_of w s) f (keep f s)) ->
  Layer (addAll (addAll (filter_vars f) []) proj) fs o b W L ->
  exists o' L', filter_tree w fuel b f o = Some o' /\ Layer proj (f :: fs) o' (cleanup proj (addAll (filter_vars f) []) b) W L'.
Proof. intros H1 H2 H3 H4 H5. destruct (layer_filter proj fs f o b W L H1 H2 H3 H4 H5) as (o' & L' & H6 & H7 & _). eauto. Qed.
End Layers.
