(** Proofs about the operators. *)
From Verif Require Export OpSpec.
Local Open Scope Z_scope.

(** ** The contract. *)
Definition Got (I : oper -> Prop) (V W : list nat) (r : option (Z * regs * oper)) (g : regs)
  (l : list (regs * Z)) : Prop :=
  match l with
  | [] => exists g' o', r = Some (0, g', o') /\ outside W g g' /\ I o'
  | (v, c) :: l' =>
      0 < c /\ exists g' o', r = Some (c, g', o') /\ agree V g' v /\ outside W g g' /\ I o' /\
      Rows I V W (o_next o') (fun h => agree W h g') l'
  end.

Lemma Rows_Got I V W call pre l :
  Rows I V W call pre l <-> (forall g, pre g -> Got I V W (call g) g l).
Proof. destruct l as [|[v c] l]; cbn; tauto. Qed.

Lemma agree_refl X a : agree X a a.
Proof. intros x _. reflexivity. Qed.
Lemma agree_sym X a b : agree X a b -> agree X b a.
Proof. intros H x Hx. symmetry. auto. Qed.
Lemma agree_trans X a b c : agree X a b -> agree X b c -> agree X a c.
Proof. intros H1 H2 x Hx. rewrite H1; auto. Qed.
Lemma agree_incl X Y a b : incl X Y -> agree Y a b -> agree X a b.
Proof. intros H H1 x Hx. apply H1, H, Hx. Qed.
Lemma agree_app X Y a b : agree (X ++ Y) a b <-> agree X a b /\ agree Y a b.
Proof.
  unfold agree. split.
  - intros H; split; intros x Hx; apply H, in_or_app; auto.
  - intros [H1 H2] x Hx. apply in_app_or in Hx. destruct Hx; auto.
Qed.
Lemma outside_refl W a : outside W a a.
Proof. intros x _. reflexivity. Qed.
Lemma outside_trans W a b c : outside W a b -> outside W b c -> outside W a c.
Proof. intros H1 H2 x Hx. rewrite H1; auto. Qed.
Lemma outside_incl X Y a b : incl X Y -> outside X a b -> outside Y a b.
Proof. intros H H1 x Hx. apply H1. intros Hn. apply Hx, H, Hn. Qed.
Lemma outside_agree W X a b : disjoint X W -> outside W a b -> agree X a b.
Proof. intros H H1 x Hx. apply H1, H, Hx. Qed.
Lemma disjoint_sym X Y : disjoint X Y -> disjoint Y X.
Proof. intros H x Hx Hy. exact (H x Hy Hx). Qed.
Lemma disjoint_incl X Y X' Y' : incl X' X -> incl Y' Y -> disjoint X Y -> disjoint X' Y'.
Proof. intros H1 H2 H x Hx Hy. exact (H x (H1 x Hx) (H2 x Hy)). Qed.

Lemma Got_outside I V W r g g0 l : outside W g0 g -> Got I V W r g l -> Got I V W r g0 l.
Proof.
  intros H. destruct l as [|[v c] l]; cbn.
  - intros (g' & o' & E & Ho & HI). exists g', o'. split; [exact E|]. split; [|exact HI].
    eapply outside_trans; eassumption.
  - intros (Hc & g' & o' & E & Ha & Ho & HI). split; [exact Hc|]. exists g', o'.
    split; [exact E|]. split; [exact Ha|]. split; [|exact HI].
    eapply outside_trans; eassumption.
Qed.

Lemma Rows_pre I V W call (pre pre' : regs -> Prop) l :
  (forall g, pre' g -> pre g) -> Rows I V W call pre l -> Rows I V W call pre' l.
Proof. rewrite !Rows_Got. intros H H1 g Hg. apply H1, H, Hg. Qed.

Lemma Rows_I (I J : oper -> Prop) V W call pre l :
  (forall o, I o -> J o) -> Rows I V W call pre l -> Rows J V W call pre l.
Proof.
  intros H. revert call pre. induction l as [|[v c] l IH]; intros call pre H1; cbn in *; intros g Hg.
  - destruct (H1 g Hg) as (g' & o' & E & Ho & HI). exists g', o'. auto.
  - destruct (H1 g Hg) as (Hc & g' & o' & E & Ha & Ho & HI & Hr). split; [exact Hc|].
    exists g', o'. repeat (split; [auto|]). apply IH, Hr.
Qed.

(** Rows that agree on the visible registers are the same. *)
Definition same_rows (V : list nat) (l l' : list (regs * Z)) : Prop :=
  Forall2 (fun a b => agree V (fst a) (fst b) /\ snd a = snd b) l l'.
Lemma Rows_same I V W call pre l l' :
  same_rows V l l' -> Rows I V W call pre l -> Rows I V W call pre l'.
Proof.
  intros H. revert call pre. induction H as [|[v c] [v' c'] l l' [Ha Hc] H IH]; intros call pre H1; [exact H1|].
  cbn in *. subst c'. intros g Hg. destruct (H1 g Hg) as (H0 & g' & o' & E & Ha' & Ho & HI & Hr).
  split; [exact H0|]. exists g', o'. split; [exact E|]. split; [eapply agree_trans; eassumption|].
  split; [exact Ho|]. split; [exact HI|]. apply IH, Hr.
Qed.

Lemma Restarts_Answers V W f l o :
  (forall v, f v = l) -> Restarts V W [] f o -> Answers V W l o.
Proof.
  intros Hf (I & HI & H). unfold Answers. specialize (H o HI (fun _ => 0)). rewrite Hf in H.
  eapply Rows_I; [|eapply Rows_pre; [|exact H]].
  - intros; exact Logic.I.
  - intros g _ x [].
Qed.

Lemma obj_first {S} (f n : S -> regs -> option (Z * regs * S)) s g :
  o_first (obj f n s) g = match f s g with Some (c, g', s') => Some (c, g', obj f n s') | None => None end.
Proof. reflexivity. Qed.
Lemma obj_next {S} (f n : S -> regs -> option (Z * regs * S)) s g :
  o_next (obj f n s) g = match n s g with Some (c, g', s') => Some (c, g', obj f n s') | None => None end.
Proof. reflexivity. Qed.

Lemma beside_agree X a b : agree X (beside X a b) a.
Proof. intros x Hx. unfold beside. destruct (in_dec Nat.eq_dec x X); tauto. Qed.
Lemma beside_agree_r X Y a b : disjoint Y X -> agree Y (beside X a b) b.
Proof. intros H x Hx. unfold beside. destruct (in_dec Nat.eq_dec x X) as [i|]; [|reflexivity]. exfalso. exact (H x Hx i). Qed.
Lemma agree_beside X Y g a b : disjoint Y X -> agree X g a -> agree Y g b -> agree (X ++ Y) g (beside X a b).
Proof.
  intros H Ha Hb. apply agree_app. split.
  - eapply agree_trans; [exact Ha|]. apply agree_sym, beside_agree.
  - eapply agree_trans; [exact Hb|]. apply agree_sym, beside_agree_r, H.
Qed.

(** ** Nested loop join. *)
Section Nlj.
Variables (Il Ir : oper -> Prop) (Vl Wl Vr Wr D : list nat) (f : regs -> list (regs * Z)).
Hypothesis HVl : incl Vl Wl.
Hypothesis HVr : incl Vr Wr.
Hypothesis Hdis : disjoint Wl Wr.
Hypothesis HD : incl D Vl.
Hypothesis Hr : forall o', Ir o' -> forall v, Rows Ir Vr Wr (o_first o') (fun g => agree D g v) (f v).
Variable fuel : nat.

Definition nlj_ok (o : oper) : Prop :=
  exists l r lc, o = obj (nlj_first fuel) (nlj_next fuel) (mkNlj l r lc) /\ Il l /\ Ir r.

Definition nlj_res (r : option (Z * regs * nlj_st)) : option (Z * regs * oper) :=
  match r with Some (c, g', s') => Some (c, g', obj (nlj_first fuel) (nlj_next fuel) s') | None => None end.

Local Notation V := (Vl ++ Vr).
Local Notation W := (Wl ++ Wr).
Local Notation one v c := (fun b : regs * Z => (beside Vl v (fst b), c * snd b)).

Let dVV : disjoint Vr Vl.
Proof. eapply disjoint_incl; [exact HVr|exact HVl|]. apply disjoint_sym, Hdis. Qed.
Let wl : incl Wl W. Proof. intros x Hx; apply in_or_app; auto. Qed.
Let wr : incl Wr W. Proof. intros x Hx; apply in_or_app; auto. Qed.

Local Ltac out := first [apply (outside_incl _ _ _ _ wl); assumption | apply (outside_incl _ _ _ _ wr); assumption].

Definition nlj_stepP (L : list (regs * Z)) := forall k l r g0 g,
  (length L <= k)%nat -> Il l -> Ir r -> agree Wl g g0 ->
  Rows Il Vl Wl (o_next l) (fun h => agree Wl h g0) L ->
  Got nlj_ok V W (nlj_res (do (lc, g2, l1) <- o_next l g;
    if lc =? 0 then Some (0, g2, mkNlj l1 r lc) else nlj_loop k (mkNlj l1 r lc) g2)) g (pairs Vl L f).
Definition nlj_runP (L : list (regs * Z)) := forall R l r lc v g0,
  0 < lc -> Il l -> Ir r -> agree Vl g0 v ->
  Rows Ir Vr Wr (o_next r) (fun h => agree Wr h g0) R ->
  Rows Il Vl Wl (o_next l) (fun h => agree Wl h g0) L ->
  Rows nlj_ok V W (o_next (obj (nlj_first fuel) (nlj_next fuel) (mkNlj l r lc)))
       (fun h => agree W h g0) (map (one v lc) R ++ pairs Vl L f).
Definition nlj_loopP (L : list (regs * Z)) := forall k l r lc v g0 g,
  (length L < k)%nat -> 0 < lc -> Il l -> Ir r -> agree Vl g0 v -> agree Wl g g0 ->
  Rows Il Vl Wl (o_next l) (fun h => agree Wl h g0) L ->
  Got nlj_ok V W (nlj_res (nlj_loop k (mkNlj l r lc) g)) g (pairs Vl ((v, lc) :: L) f).

Lemma nlj_step_nil : nlj_stepP [].
Proof.
  intros k l r g0 g Hk HIl HIr Hg HL. rewrite Rows_Got in HL.
  destruct (HL g Hg) as (g2 & l2 & E2 & O2 & I2). rewrite E2. cbn.
  eexists g2, _. split; [reflexivity|]. split; [out|].
  exists l2, r, 0; auto.
Qed.

Lemma nlj_step_cons a L : nlj_loopP L -> nlj_stepP (a :: L).
Proof.
  intros HP k l r g0 g Hk HIl HIr Hg HL. destruct a as [v c]. rewrite Rows_Got in HL.
  destruct (HL g Hg) as (Hc & g2 & l2 & E2 & A2 & O2 & I2 & HL2). rewrite E2. cbn iota beta.
  destruct (Z.eqb_spec c 0); [lia|].
  apply (Got_outside _ _ _ _ g2); [out|].
  apply (HP k l2 r c v g2 g2); auto using agree_refl.
Qed.

Lemma nlj_run L : (length L <= fuel)%nat -> nlj_stepP L -> nlj_runP L.
Proof.
  intros Hf HS. intros R. induction R as [|[v' c'] R IHR]; intros l r lc v g0 Hlc HIl HIr Hv HR HL;
    apply Rows_Got; intros h Hh; apply agree_app in Hh; destruct Hh as [Hh1 Hh2];
    rewrite Rows_Got in HR; rewrite obj_next; unfold nlj_next; cbn [nlj_left nlj_right nlj_leftCount].
  - destruct (HR h Hh2) as (g1 & r1 & E1 & O1 & I1). rewrite E1. cbn iota beta. cbn [Z.eqb negb map app].
    apply (Got_outside _ _ _ _ g1); [out|].
    apply (HS fuel l r1 g0 g1); auto.
    eapply agree_trans; [|exact Hh1]. apply agree_sym. eapply outside_agree; eassumption.
  - destruct (HR h Hh2) as (Hc & g1 & r1 & E1 & A1 & O1 & I1 & R1). rewrite E1. cbn iota beta.
    destruct (Z.eqb_spec c' 0); [lia|]. cbn [negb map app fst snd Got].
    split; [nia|]. eexists g1, _. split; [reflexivity|].
    assert (AW : agree Wl g1 g0).
    { eapply agree_trans; [|exact Hh1]. apply agree_sym. eapply outside_agree; eassumption. }
    assert (AV : agree Vl g1 v) by (eapply agree_trans; [|exact Hv]; eapply agree_incl; eassumption).
    split; [apply agree_beside; auto|].
    split; [out|].
    split; [exists l, r1, lc; auto|].
    apply (IHR l r1 lc v g1); auto.
    eapply Rows_pre; [|exact HL]. intros k Hk. eapply agree_trans; eassumption.
Qed.

Lemma nlj_loop_ok L : nlj_stepP L -> nlj_runP L -> nlj_loopP L.
Proof.
  intros HS HR k l r lc v g0 g Hk Hlc HIl HIr Hv Hg HL. destruct k as [|k]; [lia|].
  cbn [nlj_loop nlj_left nlj_right nlj_leftCount].
  assert (HRf := Hr r HIr v). rewrite Rows_Got in HRf.
  assert (Hgv : agree Vl g v) by (eapply agree_trans; [eapply agree_incl; eassumption|exact Hv]).
  specialize (HRf g (agree_incl _ _ _ _ HD Hgv)).
  unfold pairs. cbn [flat_map fst snd]. fold (pairs Vl L f).
  destruct (f v) as [|[v' c'] R] eqn:Ef.
  - destruct HRf as (g1 & r1 & E1 & O1 & I1). rewrite E1. cbn iota beta. cbn [Z.eqb map app].
    apply (Got_outside _ _ _ _ g1); [out|].
    apply (HS k l r1 g0 g1); auto; [lia|].
    eapply agree_trans; [|exact Hg]. apply agree_sym. eapply outside_agree; eassumption.
  - destruct HRf as (Hc & g1 & r1 & E1 & A1 & O1 & I1 & R1). rewrite E1. cbn iota beta.
    destruct (Z.eqb_spec c' 0); [lia|]. cbn [nlj_res map app Got fst snd].
    split; [nia|]. eexists g1, _. split; [reflexivity|].
    assert (AW : agree Wl g1 g) by (apply agree_sym; eapply outside_agree; eassumption).
    assert (AV : agree Vl g1 v) by (eapply agree_trans; [|exact Hgv]; eapply agree_incl; eassumption).
    split; [apply agree_beside; auto|].
    split; [out|].
    split; [exists l, r1, lc; auto|].
    apply (HR R l r1 lc v g1); auto.
    eapply Rows_pre; [|exact HL]. intros h Hh. eapply agree_trans; [exact Hh|]. eapply agree_trans; eassumption.
Qed.

Lemma nlj_all L : (length L <= fuel)%nat -> nlj_stepP L.
Proof.
  induction L as [|a L IH]; intros Hf; [exact nlj_step_nil|].
  apply nlj_step_cons. cbn in Hf. apply nlj_loop_ok; [apply IH; lia|]. apply nlj_run; [lia|]. apply IH; lia.
Qed.

Lemma nlj_start (pre : regs -> Prop) L l r lc0 : (length L <= fuel)%nat -> Ir r ->
  Rows Il Vl Wl (o_first l) pre L ->
  Rows nlj_ok V W (o_first (obj (nlj_first fuel) (nlj_next fuel) (mkNlj l r lc0))) pre (pairs Vl L f).
Proof.
  intros Hf HIr HL. rewrite Rows_Got in *. intros g Hg. rewrite obj_first. unfold nlj_first.
  cbn [nlj_left nlj_right nlj_leftCount]. specialize (HL g Hg). destruct L as [|[v c] L].
  - destruct HL as (g1 & l1 & E1 & O1 & I1). rewrite E1. cbn.
    eexists g1, _. split; [reflexivity|]. split; [out|].
    exists l1, r, 0; auto.
  - destruct HL as (Hc & g1 & l1 & E1 & A1 & O1 & I1 & HL). rewrite E1. cbn iota beta.
    destruct (Z.eqb_spec c 0); [lia|].
    apply (Got_outside _ _ _ _ g1); [out|].
    cbn in Hf. assert (Hf' : (length L <= fuel)%nat) by lia.
    apply (nlj_loop_ok L (nlj_all L Hf') (nlj_run L Hf' (nlj_all L Hf')) fuel l1 r c v g1 g1); auto using agree_refl.
Qed.
End Nlj.

(** ** Filter. *)
Definition wrap {S} (f n : S -> regs -> option (Z * regs * S)) (r : option (Z * regs * S))
  : option (Z * regs * oper) :=
  match r with Some (c, g', s') => Some (c, g', obj f n s') | None => None end.

Lemma fold_min_le (l : list Z) m :
  let r := fold_left (fun m x => if x <? m then x else m) l m in
  r <= m /\ (forall x, In x l -> r <= x).
Proof.
  revert m. induction l as [|a l IH]; intros m; cbn; [split; [lia|tauto]|].
  destruct (IH (if a <? m then a else m)) as [H1 H2].
  destruct (Z.ltb_spec a m); (split; [lia|]); intros x [<-|Hx]; auto; lia.
Qed.
Lemma fold_max_ge (l : list Z) m :
  let r := fold_left (fun m x => if m <? x then x else m) l m in
  m <= r /\ (forall x, In x l -> x <= r).
Proof.
  revert m. induction l as [|a l IH]; intros m; cbn; [split; [lia|tauto]|].
  destruct (IH (if m <? a then a else m)) as [H1 H2].
  destruct (Z.ltb_spec m a); (split; [lia|]); intros x [<-|Hx]; auto; lia.
Qed.

Lemma fi_valid_iff values v : fi_valid values v = true <-> In v values.
Proof.
  unfold fi_valid. rewrite !andb_true_iff, existsb_exists. split.
  - intros [_ (x & Hx & E)]. apply Z.eqb_eq in E. replace v with x by lia. exact Hx.
  - intros H. repeat split.
    + apply Z.leb_le. destruct values as [|a l]; [destruct H|]. apply fold_min_le, H.
    + apply Z.leb_le. destruct values as [|a l]; [destruct H|]. apply fold_max_ge, H.
    + exists v. split; [exact H|]. apply Z.eqb_refl.
Qed.

Section Filter.
Variables (Ii : oper -> Prop) (V W : list nat) (exclude : bool) (values : list Z) (reg : nat) (fuel : nat).
Hypothesis HV : incl V W.
Hypothesis Hreg : In reg V.
Local Notation F := (fi_first fuel exclude values reg).
Local Notation N := (fi_next fuel exclude values reg).
Definition fi_ok (o : oper) : Prop := exists i, o = obj F N i /\ Ii i.
Local Notation pass := (fun a : regs * Z => fi_pass exclude values (fst a reg)).

Lemma fi_loop_ok L : (length L < fuel)%nat -> forall k i g0 g, (length L < k)%nat ->
  Rows Ii V W (o_next i) (fun h => agree W h g0) L -> agree W g g0 ->
  Got fi_ok V W (wrap F N (fi_next k exclude values reg i g)) g (filter pass L).
Proof.
  induction L as [|[v c] L IH]; intros Hf k i g0 g Hk HL Hg; (destruct k as [|k]; [cbn in Hk; lia|]);
    rewrite Rows_Got in HL; specialize (HL g Hg); cbn [fi_next].
  - destruct HL as (g1 & i1 & E & O & I1). rewrite E. cbn.
    eexists g1, _. split; [reflexivity|]. split; [exact O|]. exists i1; auto.
  - destruct HL as (Hc & g1 & i1 & E & A & O & I1 & HL). rewrite E. cbn iota beta.
    destruct (Z.eqb_spec c 0); [lia|]. cbn in Hf, Hk.
    rewrite (A reg Hreg). cbn [filter fst]. destruct (fi_pass exclude values (v reg)).
    + cbn [wrap Got]. split; [exact Hc|]. eexists g1, _. split; [reflexivity|].
      split; [exact A|]. split; [exact O|]. split; [exists i1; auto|].
      apply Rows_Got. intros h Hh. rewrite obj_next. apply (IH ltac:(lia) fuel i1 g1 h); auto; lia.
    + apply (Got_outside _ _ _ _ g1); [exact O|]. apply (IH ltac:(lia) k i1 g1 g1); auto using agree_refl; lia.
Qed.

Lemma fi_start (pre : regs -> Prop) L i : (length L < fuel)%nat ->
  Rows Ii V W (o_first i) pre L ->
  Rows fi_ok V W (o_first (obj F N i)) pre (filter pass L).
Proof.
  intros Hf HL. rewrite Rows_Got in *. intros g Hg. specialize (HL g Hg). rewrite obj_first. unfold fi_first.
  destruct L as [|[v c] L].
  - destruct HL as (g1 & i1 & E & O & I1). rewrite E. cbn.
    eexists g1, _. split; [reflexivity|]. split; [exact O|]. exists i1; auto.
  - destruct HL as (Hc & g1 & i1 & E & A & O & I1 & HL). rewrite E. cbn iota beta.
    destruct (Z.eqb_spec c 0); [lia|]. cbn in Hf.
    rewrite (A reg Hreg). cbn [filter fst]. destruct (fi_pass exclude values (v reg)).
    + cbn [Got]. split; [exact Hc|]. eexists g1, _. split; [reflexivity|].
      split; [exact A|]. split; [exact O|]. split; [exists i1; auto|].
      apply Rows_Got. intros h Hh. rewrite obj_next. apply (fi_loop_ok L ltac:(lia) fuel i1 g1 h); auto; lia.
    + apply (Got_outside _ _ _ _ g1); [exact O|].
      apply (fi_loop_ok L ltac:(lia) fuel i1 g1 g1); auto using agree_refl; lia.
Qed.
End Filter.

(** ** NestedLoopFilter: the input reads the register [reg] of the filter. *)
Section Nlf.
Variables (Ii : oper -> Prop) (V W : list nat) (reg : nat) (f : Z -> list (regs * Z)) (values : list Z).
Hypothesis HV : incl V W.
Hypothesis Hreg : ~ In reg W.
Hypothesis Hi : forall o', Ii o' -> forall x, Rows Ii V W (o_first o') (fun g => g reg = x) (f x).
Local Notation F := (nf_first values reg).
Local Notation N := (nf_next values reg).
Definition nf_ok (o : oper) : Prop := exists s, o = obj F N s /\ Ii (nf_input s).
(** The rows with the value of the filter register. *)
Local Notation rowsf x := (map (fun a : regs * Z => (set_reg reg x (fst a), snd a)) (f x)).

Lemma set_reg_other r v g x : x <> r -> set_reg r v g x = g x.
Proof. intros H. unfold set_reg. destruct (Nat.eqb_spec x r); tauto. Qed.
Lemma set_reg_same r v g : set_reg r v g r = v.
Proof. unfold set_reg. rewrite Nat.eqb_refl. reflexivity. Qed.

Lemma nf_agree g1 v x : agree V g1 v -> g1 reg = x -> agree (reg :: V) g1 (set_reg reg x v).
Proof.
  intros A E y Hy. destruct (Nat.eq_dec y reg) as [-> | Hn].
  - rewrite set_reg_same. exact E.
  - rewrite set_reg_other by exact Hn. apply A. destruct Hy as [<-|Hy]; [congruence|exact Hy].
Qed.

(** The statement for next at position [n], with [R] rows of the current value to come. *)
Lemma nf_run : forall rest n, skipn (S n) values = rest -> (n < length values)%nat ->
  (forall i g, Ii i -> Got nf_ok (reg :: V) (reg :: W) (wrap F N (nf_loop rest reg i (S n) g)) g (flat_map (fun x => rowsf x) rest)) ->
  forall R i x g0, Ii i -> g0 reg = x ->
  Rows Ii V W (o_next i) (fun h => agree W h g0) R ->
  Rows nf_ok (reg :: V) (reg :: W) (o_next (obj F N (mkNf i n))) (fun h => agree (reg :: W) h g0)
    (map (fun a => (set_reg reg x (fst a), snd a)) R ++ flat_map (fun x => rowsf x) rest).
Proof.
  intros rest n Hsk Hn Hloop. induction R as [|[v c] R IH]; intros i x g0 HI Hx HR;
    apply Rows_Got; intros h Hh; rewrite obj_next; unfold nf_next; cbn [nf_pos nf_input];
    (destruct (Nat.leb_spec (length values) n); [lia|]);
    rewrite Rows_Got in HR; specialize (HR h (agree_incl W (reg :: W) h g0 (fun y Hy => or_intror Hy) Hh)).
  - destruct HR as (g1 & i1 & E & O & I1). rewrite E. cbn iota beta. cbn [Z.eqb negb map app].
    rewrite Hsk. apply (Got_outside _ _ _ _ g1).
    + eapply outside_incl; [|exact O]. intros y Hy; right; exact Hy.
    + apply Hloop, I1.
  - destruct HR as (Hc & g1 & i1 & E & A & O & I1 & HR). rewrite E. cbn iota beta.
    destruct (Z.eqb_spec c 0); [lia|]. cbn [negb map app fst snd Got]. split; [exact Hc|].
    eexists g1, _. split; [reflexivity|].
    assert (Ex : g1 reg = x).
    { rewrite <- (O reg Hreg). rewrite (Hh reg (or_introl eq_refl)). exact Hx. }
    split; [apply nf_agree; assumption|].
    split. { eapply outside_incl; [|exact O]. intros y Hy; right; exact Hy. }
    split; [eexists; split; [reflexivity|exact I1]|].
    apply (IH i1 x g1 I1 Ex HR).
Qed.

Lemma nf_loop_ok : forall rest n, skipn n values = rest -> forall i g, Ii i ->
  Got nf_ok (reg :: V) (reg :: W) (wrap F N (nf_loop rest reg i n g)) g (flat_map (fun x => rowsf x) rest).
Proof.
  induction rest as [|x rest IH]; intros n Hsk i g HI; cbn [nf_loop flat_map].
  - cbn. eexists g, _. split; [reflexivity|]. split; [apply outside_refl|]. eexists; split; [reflexivity|exact HI].
  - assert (Hn : (n < length values)%nat).
    { destruct (le_lt_dec (length values) n) as [Hle|]; [|assumption].
      rewrite skipn_all2 in Hsk by exact Hle. discriminate. }
    assert (Hsk' : skipn (S n) values = rest).
    { clear -Hsk. revert n Hsk. induction values as [|a l IHl]; intros n Hsk; [destruct n; discriminate|].
      destruct n; [cbn in *; congruence|]. cbn [skipn] in *. apply IHl, Hsk. }
    assert (HR := Hi i HI x). rewrite Rows_Got in HR. specialize (HR (set_reg reg x g) (set_reg_same reg x g)).
    assert (O0 : outside (reg :: W) g (set_reg reg x g)).
    { intros y Hy. symmetry. apply set_reg_other. intros ->. apply Hy. left. reflexivity. }
    destruct (f x) as [|[v c] R] eqn:Ef.
    + destruct HR as (g1 & i1 & E & O & I1). rewrite E. cbn iota beta. cbn [Z.eqb negb map app].
      apply (Got_outside _ _ _ _ g1).
      * eapply outside_trans; [exact O0|]. eapply outside_incl; [|exact O]. intros y Hy; right; exact Hy.
      * apply IH; assumption.
    + destruct HR as (Hc & g1 & i1 & E & A & O & I1 & HR). rewrite E. cbn iota beta.
      destruct (Z.eqb_spec c 0); [lia|]. cbn [negb map app fst snd wrap Got]. split; [exact Hc|].
      eexists g1, _. split; [reflexivity|].
      assert (Ex : g1 reg = x) by (rewrite <- (O reg Hreg); apply set_reg_same).
      split; [apply nf_agree; assumption|].
      split. { eapply outside_trans; [exact O0|]. eapply outside_incl; [|exact O]. intros y Hy; right; exact Hy. }
      split; [eexists; split; [reflexivity|exact I1]|].
      apply (nf_run rest n Hsk' Hn); auto.
Qed.
End Nlf.
