(** Proofs about plans: selections that compare registers, and index scans as operators. *)
From Coq Require Import ZifyBool.
From Verif Require Import FullModel.
From Verif Require Import OpSpec OpProofs OpHashProofs OpHashProofs2 KbSpec TsSpec InserterProofs.
From Verif Require Import PlanModel PlanSpec PlanProofs PlanProofs2.
Local Open Scope Z_scope.

Lemma Rows_V I V V' W l : incl V' V -> forall call pre, Rows I V W call pre l -> Rows I V' W call pre l.
Proof.
  intros HV. induction l as [|[v c] l IH]; intros call pre H g Hg; specialize (H g Hg); [exact H|].
  destruct H as (Hc & g' & o' & E & A & O & HI & H). split; [exact Hc|]. exists g', o'. repeat split; auto.
  eapply agree_incl; eauto.
Qed.
Lemma Answers_V V V' W L o : incl V' V -> Answers V W L o -> Answers V' W L o.
Proof. intros H. now apply Rows_V. Qed.

(** ** Selections *)
Section Pure.
Variables (w : world) (e : expr) (V W : list nat) (keep : regs * Z -> bool) (fuel : nat).
Hypothesis Hcheck : forall g m v c, agree V g v -> check w g e m = Some (keep (v, c), m).
Local Notation F := (sel_first w fuel e).
Local Notation N := (sel_next w fuel e).
Lemma pure_loop L : (length L < fuel)%nat -> forall k i m g0 g, (length L < k)%nat ->
  Rows any V W (o_next i) (fun h => agree W h g0) L -> agree W g g0 ->
  Got any V W (wrap F N (sel_next w k e (mkSel i m) g)) g (filter keep L).
Proof.
  induction L as [|[v c] L IH]; intros Hf k i m g0 g Hk HL Hg; (destruct k as [|k]; [cbn in Hk; lia|]);
    rewrite Rows_Got in HL; specialize (HL g Hg); cbn [sel_next sel_input sel_map].
  - destruct HL as (g1 & i1 & E & O & I1). rewrite E. cbn.
    eexists g1, _. split; [reflexivity|]. split; [exact O|]. exact I.
  - destruct HL as (Hc & g1 & i1 & E & A & O & I1 & HL). rewrite E. cbn iota beta.
    destruct (Z.eqb_spec c 0); [lia|]. cbn in Hf, Hk.
    rewrite (Hcheck g1 m v c A). cbn [filter].
    destruct (keep (v, c)).
    + cbn [wrap Got]. split; [exact Hc|]. eexists g1, _. split; [reflexivity|].
      split; [exact A|]. split; [exact O|]. split; [exact I|].
      apply Rows_Got. intros h Hh. rewrite obj_next. apply (IH ltac:(lia) fuel i1 m g1 h); auto; lia.
    + apply (Got_outside _ _ _ _ g1); [exact O|]. apply (IH ltac:(lia) k i1 m g1 g1); auto using agree_refl; lia.
Qed.
Lemma pure_selection L i : (length L < fuel)%nat -> Answers V W L i -> Answers V W (filter keep L) (selection w fuel e i).
Proof.
  intros Hf HL. unfold Answers in *. rewrite Rows_Got in *. intros g Hg. specialize (HL g Hg). unfold selection. rewrite obj_first. unfold sel_first. cbn [sel_input sel_map].
  destruct L as [|[v c] L].
  - destruct HL as (g1 & i1 & E & O & I1). rewrite E. cbn.
    eexists g1, _. split; [reflexivity|]. split; [exact O|]. exact I.
  - destruct HL as (Hc & g1 & i1 & E & A & O & I1 & HL). rewrite E. cbn iota beta.
    destruct (Z.eqb_spec c 0); [lia|]. cbn in Hf.
    rewrite (Hcheck g1 _ v c A). cbn [filter].
    destruct (keep (v, c)).
    + cbn [wrap Got]. split; [exact Hc|]. eexists g1, _. split; [reflexivity|].
      split; [exact A|]. split; [exact O|]. split; [exact I|].
      apply Rows_Got. intros h Hh. rewrite obj_next. apply (pure_loop L ltac:(lia) fuel i1 _ g1 h); auto; lia.
    + apply (Got_outside _ _ _ _ g1); [exact O|].
      apply (pure_loop L ltac:(lia) fuel i1 _ g1 g1); auto using agree_refl; lia.
Qed.
End Pure.

Definition equals (ps : list (nat * nat)) (g : regs) : bool := forallb (fun p => g (fst p) =? g (snd p)) ps.
Definition conj_of (p : nat * nat) (ps : list (nat * nat)) : expr := fold_left (fun e p => EAnd e (equal_of p)) ps (equal_of p).
Lemma eval_equal w g p r m : eval w g (equal_of p) r m = Some (setBoolean (g (fst p) =? g (snd p)) r, m).
Proof. reflexivity. Qed.
Lemma eval_conj w g ps : forall e b, (forall r m, eval w g e r m = Some (setBoolean b r, m)) -> (forall v, e <> ETempLiteral v) ->
  forall r m, eval w g (fold_left (fun e p => EAnd e (equal_of p)) ps e) r m = Some (setBoolean (b && equals ps g) r, m).
Proof.
  induction ps as [|p ps IH]; intros e b He Ht r m; cbn [fold_left equals forallb].
  - rewrite He, Bool.andb_true_r. reflexivity.
  - rewrite (IH (EAnd e (equal_of p)) (b && (g (fst p) =? g (snd p)))).
    + unfold equals. now rewrite Bool.andb_assoc.
    + intros r' m'. cbn [eval]. destruct e; try (exfalso; now eapply Ht);
      rewrite He; cbn; destruct b; reflexivity.
    + discriminate.
Qed.
Lemma check_conj w g p ps m : check w g (conj_of p ps) m = Some (equals (p :: ps) g, m).
Proof.
  assert (E : forall r m, eval w g (conj_of p ps) r m = Some (setBoolean (equals (p :: ps) g) r, m)).
  { intros. unfold conj_of. rewrite (eval_conj w g ps (equal_of p) (g (fst p) =? g (snd p))); [reflexivity|intros; apply eval_equal|discriminate]. }
  unfold check, to_check. rewrite E.
  assert (T : forall v, conj_of p ps <> ETempLiteral v).
  { unfold conj_of. assert (H : forall e, (forall v, e <> ETempLiteral v) -> forall v, fold_left (fun e p => EAnd e (equal_of p)) ps e <> ETempLiteral v).
    { clear. induction ps as [|q qs IH]; intros e He; [exact He|]. cbn [fold_left]. apply IH. discriminate. }
    apply H. discriminate. }
  destruct (conj_of p ps); try reflexivity. exfalso. now eapply T.
Qed.
Lemma equals_agree V ps g h : incl (map fst ps) V -> incl (map snd ps) V -> agree V g h -> equals ps g = equals ps h.
Proof.
  intros H1 H2 A. unfold equals. induction ps as [|p ps IH]; [reflexivity|]. cbn [forallb].
  rewrite IH by (intros x Hx; first [apply H1; right; exact Hx|apply H2; right; exact Hx]).
  rewrite (A (fst p)) by (apply H1; now left). rewrite (A (snd p)) by (apply H2; now left). reflexivity.
Qed.
Lemma select_equal w fuel V W L i p ps : incl (map fst (p :: ps)) V -> incl (map snd (p :: ps)) V -> (length L < fuel)%nat ->
  Answers V W L i -> Answers V W (filter (fun a => equals (p :: ps) (fst a)) L) (selection w fuel (conj_of p ps) i).
Proof.
  intros H1 H2 Hf HL. eapply pure_selection; [|exact Hf|exact HL]. intros g m v c A. rewrite check_conj. cbn [fst]. now rewrite (equals_agree V _ g v).
Qed.

(** ** Index scans *)
Section Scan.
Variables (fuel : nat) (r1 r2 r3 : nat) (b1 b2 b3 : bool) (f : Z * Z * Z) (open : option Z -> option Z -> option Z -> option pitr).
Definition scan_regs : list nat := (if b1 then [] else [r1]) ++ (if b2 then [] else [r2]) ++ (if b3 then [] else [r3]).
Definition scan_row (r : Z * Z * Z) : regs * Z := (sc_write (r1, r2, r3) b1 b2 b3 r (fun _ => 0), 1).
Local Notation F := (sc_first fuel (r1, r2, r3) b1 b2 b3 f open).
Local Notation N := (sc_next fuel (r1, r2, r3) b1 b2 b3).
Lemma write_agree r g : agree scan_regs (sc_write (r1, r2, r3) b1 b2 b3 r g) (fst (scan_row r)).
Proof.
  destruct r as [[x y] z]. intros v Hv. cbn [scan_row fst sc_write]. unfold scan_regs in Hv. unfold set_reg.
  destruct b1, b2, b3; cbn [app In] in Hv; cbn beta iota; repeat match goal with |- context [(?a =? ?b)%nat] => destruct (Nat.eqb_spec a b) end; try reflexivity; intuition congruence.
Qed.
Lemma write_outside r g : outside scan_regs g (sc_write (r1, r2, r3) b1 b2 b3 r g).
Proof.
  destruct r as [[x y] z]. intros v Hv. cbn [sc_write]. unfold scan_regs in Hv. unfold set_reg.
  destruct b1, b2, b3; cbn [app In] in Hv; cbn beta iota; repeat match goal with |- context [(?a =? ?b)%nat] => destruct (Nat.eqb_spec a b) end; try reflexivity; intuition congruence.
Qed.
Lemma rest_rows n : forall D i s c, is_rest n fuel b1 b2 b3 (fun _ => no_hints) i s = Some D ->
  forall pre, Rows any scan_regs scan_regs (o_next (obj F N (c, Some s))) pre (map scan_row D).
Proof.
  induction n as [|n IH]; intros D i s c E pre; [discriminate|]. cbn [is_rest] in E.
  destruct (is_next fuel b1 b2 b3 no_hints s) as [[r s']|] eqn:En; [|discriminate].
  apply Rows_Got. intros g _. rewrite obj_next. unfold sc_next. cbn [snd]. rewrite En. destruct r as [r|].
  - destruct (is_rest n fuel b1 b2 b3 (fun _ => no_hints) (S i) s') as [D'|] eqn:Er; [|discriminate]. injection E as <-.
    cbn [map Got]. split; [cbn; lia|]. eexists _, _. split; [reflexivity|]. split; [apply write_agree|]. split; [apply write_outside|].
    split; [exact I|]. eapply IH; eauto.
  - injection E as <-. eexists _, _. split; [reflexivity|]. split; [intros x _; reflexivity|exact I].
Qed.
Lemma scan_answers D n : is_run n fuel 0 b1 b2 b3 open (fun _ => no_hints) f = Some D ->
  Answers scan_regs scan_regs (map scan_row D) (index_scan fuel (r1, r2, r3) b1 b2 b3 f open).
Proof.
  unfold is_run. intros E. destruct (is_first fuel 0 b1 b2 b3 open no_hints f) as [[r s]|] eqn:Ef; [|discriminate].
  apply Rows_Got. intros g _. unfold index_scan. rewrite obj_first. unfold sc_first. cbn [fst]. rewrite Ef. destruct r as [r|].
  - destruct (is_rest n fuel b1 b2 b3 (fun _ => no_hints) 1 s) as [D'|] eqn:Er; [|discriminate]. injection E as <-.
    cbn [map Got]. split; [cbn; lia|]. eexists _, _. split; [reflexivity|]. split; [apply write_agree|]. split; [apply write_outside|].
    split; [exact I|]. eapply rest_rows; eauto.
  - injection E as <-. eexists _, _. split; [reflexivity|]. split; [intros x _; reflexivity|exact I].
Qed.
End Scan.

(** ** Aggregated scans *)
Section Aggregated.
Variables (fuel : nat) (r1 r2 : nat) (b1 b2 : bool) (f : Z * Z) (open : option Z -> option Z -> option Z -> option pitr).
Definition agg_regs : list nat := (if b1 then [] else [r1]) ++ (if b2 then [] else [r2]).
Definition agg_row (x : elem) : regs * Z := (ac_write (r1, r2) b1 b2 (fst (fst x)) (snd (fst x)) (fun _ => 0), snd x).
Local Notation F := (ac_first fuel (r1, r2) b1 b2 f open).
Local Notation N := (ac_next fuel (r1, r2) b1 b2 f).
Lemma agg_write_agree a b c g : agree agg_regs (ac_write (r1, r2) b1 b2 a b g) (fst (agg_row (a, b, c))).
Proof.
  intros v Hv. cbn [agg_row fst snd ac_write]. unfold agg_regs in Hv. unfold set_reg.
  destruct b1, b2; cbn [app In] in Hv; cbn beta iota; repeat match goal with |- context [(?a =? ?b)%nat] => destruct (Nat.eqb_spec a b) end; try reflexivity; intuition congruence.
Qed.
Lemma agg_write_outside a b g : outside agg_regs g (ac_write (r1, r2) b1 b2 a b g).
Proof.
  intros v Hv. cbn [ac_write]. unfold agg_regs in Hv. unfold set_reg.
  destruct b1, b2; cbn [app In] in Hv; cbn beta iota; repeat match goal with |- context [(?a =? ?b)%nat] => destruct (Nat.eqb_spec a b) end; try reflexivity; intuition congruence.
Qed.
Lemma agg_rest_rows n : forall D s c, as_rest n fuel b1 b2 (own_hint b1 b2 f) s = Some D -> Forall (fun x => 0 < snd x) D ->
  forall pre, Rows any agg_regs agg_regs (o_next (obj F N (c, Some s))) pre (map agg_row D).
Proof.
  induction n as [|n IH]; intros D s c E HD pre; [discriminate|]. cbn [as_rest] in E.
  destruct (as_next fuel b1 b2 (own_hint b1 b2 f) s) as [[r s']|] eqn:En; [|discriminate].
  apply Rows_Got. intros g _. rewrite obj_next. unfold ac_next. cbn [snd]. rewrite En. destruct r as [[[a b] k]|].
  - destruct (as_rest n fuel b1 b2 (own_hint b1 b2 f) s') as [D'|] eqn:Er; [|discriminate]. injection E as <-. inversion HD as [|? ? Hk HD']; subst.
    cbn [map Got agg_row fst snd]. split; [exact Hk|]. eexists _, _. split; [reflexivity|]. split; [apply (agg_write_agree a b k)|]. split; [apply agg_write_outside|].
    split; [exact I|]. eapply IH; eauto.
  - injection E as <-. eexists _, _. split; [reflexivity|]. split; [intros x _; reflexivity|exact I].
Qed.
Lemma agg_answers D n : as_run n fuel 0 b1 b2 open f = Some D -> Forall (fun x => 0 < snd x) D ->
  Answers agg_regs agg_regs (map agg_row D) (aggregated_scan fuel (r1, r2) b1 b2 f open).
Proof.
  unfold as_run. intros E HD. destruct (as_first fuel 0 b1 b2 open (own_hint b1 b2 f) f) as [[r s]|] eqn:Ef; [|discriminate].
  apply Rows_Got. intros g _. unfold aggregated_scan. rewrite obj_first. unfold ac_first. cbn [fst]. rewrite Ef. destruct r as [[[a b] k]|].
  - destruct (as_rest n fuel b1 b2 (own_hint b1 b2 f) s) as [D'|] eqn:Er; [|discriminate]. injection E as <-. inversion HD as [|? ? Hk HD']; subst.
    cbn [map Got agg_row fst snd]. split; [exact Hk|]. eexists _, _. split; [reflexivity|]. split; [apply (agg_write_agree a b k)|]. split; [apply agg_write_outside|].
    split; [exact I|]. eapply agg_rest_rows; eauto.
  - injection E as <-. eexists _, _. split; [reflexivity|]. split; [intros x _; reflexivity|exact I].
Qed.
End Aggregated.

(** ** Scans that skip two columns *)
Section Fully.
Variables (r1 : nat) (tl : option pitr).
Definition full_row (x : Z * Z) : regs * Z := (set_reg r1 (fst x) (fun _ => 0), snd x).
Local Notation F := (fc_first r1 tl).
Local Notation N := (fc_next r1).
Lemma full_agree k c g : agree [r1] (set_reg r1 k g) (fst (full_row (k, c))).
Proof. intros v [<-|[]]. cbn [full_row fst]. unfold set_reg. now rewrite Nat.eqb_refl. Qed.
Lemma full_outside k g : outside [r1] g (set_reg r1 k g).
Proof. intros v Hv. unfold set_reg. cbn [In] in Hv. destruct (Nat.eqb_spec v r1); [subst; tauto|reflexivity]. Qed.
Lemma full_rest_rows n : forall D s c, (do r <- fas_next s; fas_rest n r) = Some D -> Forall (fun x => 0 < snd x) D ->
  forall pre, Rows any [r1] [r1] (o_next (obj F N (c, Some s))) pre (map full_row D).
Proof.
  induction n as [|n IH]; intros D s c E HD pre; destruct (fas_next s) as [[r s']|] eqn:En; try discriminate. cbn [fas_rest fst snd] in E.
  apply Rows_Got. intros g _. rewrite obj_next. unfold fc_next. cbn [snd]. rewrite En. unfold fc_result. cbn [fst snd]. destruct r as [[v k]|].
  - destruct (Z.eqb_spec k 0) as [->|Hk].
    + injection E as <-. eexists _, _. split; [reflexivity|]. split; [apply full_outside|exact I].
    + destruct (fas_next s') as [r2|] eqn:En2; [|discriminate]. destruct (fas_rest n r2) as [D'|] eqn:Er; [|discriminate]. injection E as <-. inversion HD as [|? ? Hk' HD']; subst.
      cbn [map Got full_row fst snd]. split; [exact Hk'|]. eexists _, _. split; [reflexivity|]. split; [apply (full_agree v k)|]. split; [apply full_outside|].
      split; [exact I|]. apply IH; [rewrite En2; exact Er|exact HD'].
  - injection E as <-. eexists _, _. split; [reflexivity|]. split; [intros x _; reflexivity|exact I].
Qed.
Lemma full_answers D n : fas_run n 0 tl = Some D -> Forall (fun x => 0 < snd x) D -> Answers [r1] [r1] (map full_row D) (fully_scan r1 tl).
Proof.
  unfold fas_run. intros E HD. destruct (fas_first 0 tl) as [[r s]|] eqn:Ef; [|discriminate]. destruct n as [|n]; [discriminate|]. cbn [fas_rest fst snd] in E.
  apply Rows_Got. intros g _. unfold fully_scan. rewrite obj_first. unfold fc_first. cbn [fst]. rewrite Ef. unfold fc_result. cbn [fst snd]. destruct r as [[v k]|].
  - destruct (Z.eqb_spec k 0) as [->|Hk].
    + injection E as <-. eexists _, _. split; [reflexivity|]. split; [apply full_outside|exact I].
    + destruct (fas_next s) as [r2|] eqn:En2; [|discriminate]. destruct (fas_rest n r2) as [D'|] eqn:Er; [|discriminate]. injection E as <-. inversion HD as [|? ? Hk' HD']; subst.
      cbn [map Got full_row fst snd]. split; [exact Hk'|]. eexists _, _. split; [reflexivity|]. split; [apply (full_agree v k)|]. split; [apply full_outside|].
      split; [exact I|]. eapply full_rest_rows; [rewrite En2; exact Er|exact HD'].
  - injection E as <-. eexists _, _. split; [reflexivity|]. split; [intros x _; reflexivity|exact I].
Qed.
End Fully.
