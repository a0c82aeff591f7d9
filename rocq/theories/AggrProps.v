(** C32: aggregates. *)
From Verif Require Import AggrSpec.
From Coq Require Import Lqa.
Local Open Scope Z_scope.

(** *** One call *)
(** The values seen so far without their counts, and the sum of the counts. *)
Definition vals (v : nat) (g : list row) : list value := map (fun r => r_vals r v) g.
Definition counts (g : list row) : Z := fold_right (fun r n => r_count r + n) 0 g.

Definition acc (g : list row) (c : call) : Prop :=
  let l := vals (f_in c) g in
  let sumok := numeric l -> if a1b c then all_int l /\ (inject_Z (a1i c) == total l)%Q else (a1d c == total l)%Q in
  let cur := if a1b c then inject_Z (a1i c) else a1d c in
  let ext (le : Q -> Q -> Prop) := a2b c = (match g with [] => true | _ => false end) /\
     (numeric l -> g <> [] -> (exists x q, In x l /\ num x = Some q /\ (q == cur)%Q) /\ forall x q, In x l -> num x = Some q -> le q cur) in
  match f_id c with
  | COUNT => a1i c = counts g
  | SUM => sumok
  | AVG => sumok /\ a2i c = Z.of_nat (length g) /\ (all_int l -> a1b c = true)
  | MAX => ext Qle
  | MIN => ext (fun a b => Qle b a)
  | OTHER => False
  end.
Definition same_call (c c' : call) : Prop := f_id c' = f_id c /\ f_in c' = f_in c /\ f_out c' = f_out c.

(** The variable holds a value with its count. *)
Definition holds (x : varv) (w : value) (n : Z) : Prop :=
  v_count x = n /\ match w with VInt z => v_type x = INT /\ v_int x = z | VDec q => v_type x = DEC /\ v_dec x = q | VSym z => v_type x = SYMBOL /\ v_int x = z end.

Lemma total_app l l' : (total (l ++ l') == total l + total l')%Q.
Proof. induction l as [|x l IH]; cbn; [lra|]. rewrite IH. lra. Qed.
Lemma total_one x : (total [x] == match num x with Some q => q | None => 0 end)%Q.
Proof. cbn. destruct (num x); lra. Qed.
Lemma vals_app v g g' : vals v (g ++ g') = vals v g ++ vals v g'.
Proof. apply map_app. Qed.
Lemma counts_app g g' : counts (g ++ g') = counts g + counts g'.
Proof. unfold counts. induction g; cbn; lia. Qed.
Lemma numeric_app l l' : numeric (l ++ l') <-> numeric l /\ numeric l'.
Proof. unfold numeric. split; [intros H; split; intros x Hx; apply H; apply in_or_app; auto|]. intros [H1 H2] x Hx. apply in_app_or in Hx. destruct Hx; auto. Qed.
Lemma all_int_app l l' : all_int (l ++ l') <-> all_int l /\ all_int l'.
Proof. unfold all_int. split; [intros H; split; intros x Hx; apply H; apply in_or_app; auto|]. intros [H1 H2] x Hx. apply in_app_or in Hx. destruct Hx; auto. Qed.
Lemma all_int_one z : all_int [VInt z].
Proof. intros x [<-|[]]. eauto. Qed.

Definition sum_state (l : list value) (c : call) : Prop := numeric l -> if a1b c then all_int l /\ (inject_Z (a1i c) == total l)%Q else (a1d c == total l)%Q.
Lemma add_value_ok x w n l c : holds x w n -> sum_state l c -> sum_state (l ++ [w]) (add_value x c) /\ ((all_int l -> a1b c = true) -> all_int (l ++ [w]) -> a1b (add_value x c) = true).
Proof.
  intros [_ Hx] Hs. unfold add_value. destruct w as [z|q|z]; destruct Hx as [Et Ev]; rewrite Et.
  - destruct (a1b c) eqn:Eb; split; unfold sum_state in *; cbn [a1b a1i a1d]; rewrite ?Eb in *.
    + intros Hn. apply numeric_app in Hn. destruct Hn as [Hn _]. destruct (Hs Hn) as [Hi Ht]. split; [apply all_int_app; split; auto using all_int_one|].
      rewrite total_app, total_one, <- Ht, Ev. cbn [num]. rewrite inject_Z_plus. lra.
    + auto.
    + intros Hn. apply numeric_app in Hn. destruct Hn as [Hn _]. specialize (Hs Hn). rewrite total_app, total_one, <- Hs, Ev. cbn [num]. lra.
    + intros H Hi. apply all_int_app in Hi. destruct Hi as [Hi _]. specialize (H Hi). congruence.
  - split; unfold sum_state in *; cbn [a1b a1i a1d].
    + intros Hn. apply numeric_app in Hn. destruct Hn as [Hn _]. specialize (Hs Hn). rewrite total_app, total_one, Ev. cbn [num]. destruct (a1b c); [destruct Hs as [_ Hs]|]; rewrite <- Hs; lra.
    + intros _ Hi. apply all_int_app in Hi. destruct Hi as [_ Hi]. destruct (Hi (VDec q)) as [z Ez]; [left; auto|discriminate].
  - split; unfold sum_state in *; cbn [a1b a1i a1d].
    + intros Hn. apply numeric_app in Hn. destruct Hn as [_ Hn]. destruct (Hn (VSym z)) as [q Eq]; [left; auto|discriminate].
    + intros _ Hi. apply all_int_app in Hi. destruct Hi as [_ Hi]. destruct (Hi (VSym z)) as [y Ey]; [left; auto|discriminate].
Qed.

Lemma Qltb_true a b : Qltb a b = true -> (a < b)%Q.
Proof. unfold Qltb. intros H. apply negb_true_iff in H. destruct (Qlt_le_dec a b) as [|L]; auto. apply Qle_bool_iff in L. congruence. Qed.
Lemma Qltb_false a b : Qltb a b = false -> (b <= a)%Q.
Proof. unfold Qltb. intros H. apply negb_false_iff in H. apply Qle_bool_iff. auto. Qed.

(** Extremes, for any total preorder given by [better]. *)
Lemma ext_ok (better : Q -> Q -> bool) (le : Q -> Q -> Prop) x w n g c r :
  (forall a b, better a b = true -> le b a) -> (forall a b, better a b = false -> le a b) ->
  (forall a, le a a) -> (forall a b d, le a b -> le b d -> le a d) -> (forall a b b', b == b' -> le a b -> le a b')%Q ->
  holds x w n -> r_vals r (f_in c) = w ->
  let good c l := numeric l -> l <> [] -> (exists x q, In x l /\ num x = Some q /\ (q == if a1b c then inject_Z (a1i c) else a1d c)%Q) /\
        (forall x q, In x l -> num x = Some q -> le q (if a1b c then inject_Z (a1i c) else a1d c)) in
  a2b c = (match g with [] => true | _ => false end) -> good c (vals (f_in c) g) ->
  exists c', execExt better x c = Some (None, c') /\ same_call c c' /\ a2b c' = false /\ good c' (vals (f_in c) (g ++ [r])).
Proof.
  intros B1 B2 Rf Tr Eqv [_ Hx] Er good Ea Hg. set (l := vals (f_in c) g) in *.
  assert (El : vals (f_in c) (g ++ [r]) = l ++ [w]) by (rewrite vals_app; cbn; rewrite Er; reflexivity). rewrite El. clear El.
  assert (Hnew : forall c' q, num w = Some q -> (if a1b c' then inject_Z (a1i c') else a1d c') = q ->
     (l <> [] -> a2b c = false -> better q (if a1b c then inject_Z (a1i c) else a1d c) = true) -> (a2b c = true -> l = []) -> good c' (l ++ [w])).
  { intros c' q Eq Ec Hb Hl Hn _. apply numeric_app in Hn. destruct Hn as [Hn _]. rewrite Ec. split.
    - exists w, q. split; [apply in_or_app; right; left; auto|]. split; auto. reflexivity.
    - intros y p Hy Ep. apply in_app_or in Hy. destruct Hy as [Hy|[<-|[]]].
      + assert (l <> []) as Hl' by (intros E; rewrite E in Hy; destruct Hy). destruct (Hg Hn Hl') as [_ Hall].
        eapply Tr; [eapply Hall; eauto|]. apply B1, Hb; auto. destruct (a2b c) eqn:E2; auto. rewrite Hl in Hy; auto. destruct Hy.
      + assert (p = q) by congruence. subst. apply Rf. }
  assert (Hkeep : forall q, num w = Some q -> a2b c = false -> better q (if a1b c then inject_Z (a1i c) else a1d c) = false -> good c (l ++ [w])).
  { intros q Eq E2 Hb Hn _. apply numeric_app in Hn. destruct Hn as [Hn _].
    assert (l <> []) as Hl by (subst l; destruct g; [congruence|discriminate]). destruct (Hg Hn Hl) as [(y & p & Hy & Ep & Eqp) Hall]. split.
    - exists y, p. split; [apply in_or_app; auto|auto].
    - intros y' p' Hy' Ep'. apply in_app_or in Hy'. destruct Hy' as [Hy'|[<-|[]]]; [eapply Hall; eauto|]. assert (p' = q) by congruence. subst. apply B2; auto. }
  assert (Hsym : num w = None -> forall c', good c' (l ++ [w])).
  { intros Hw c' Hn _. destruct (Hn w) as [q Eq]; [apply in_or_app; right; left; auto|congruence]. }
  assert (Hempty : a2b c = true -> l = []) by (subst l; destruct g; [auto|congruence]).
  unfold execExt. destruct w as [z|q|z]; destruct Hx as [Et Ev]; rewrite Et; eexists; (split; [reflexivity|]).
  - rewrite Ev. destruct (a2b c) eqn:E2; [split; [split; auto|]; split; [auto|]; eapply Hnew; cbn; eauto; discriminate|].
    destruct (better _ _) eqn:Eb; (split; [split; auto|]); (split; [auto|]); [eapply Hnew; cbn; eauto|eapply Hkeep; cbn; eauto].
  - rewrite Ev. destruct (a2b c) eqn:E2; [split; [split; auto|]; split; [auto|]; eapply Hnew; cbn; eauto; discriminate|].
    destruct (better _ _) eqn:Eb; (split; [split; auto|]); (split; [auto|]); [eapply Hnew; cbn; eauto|eapply Hkeep; cbn; eauto].
  - destruct (a2b c) eqn:E2; [split; [split; auto|]; split; [auto|]; apply Hsym; auto|].
    destruct (better _ _); (split; [split; auto|]); (split; [auto|]); apply Hsym; auto.
Qed.

Lemma exec_row x w r g c seen : holds x w (r_count r) -> r_vals r (f_in c) = w -> f_id c <> OTHER -> acc g c ->
  exists c', executeFunction false seen x c = Some (None, c', seen) /\ same_call c c' /\ acc (g ++ [r]) c'.
Proof.
  intros Hh Er Ho Ha. unfold executeFunction. cbn [andb]. assert (Hvals : vals (f_in c) (g ++ [r]) = vals (f_in c) g ++ [w]) by (rewrite vals_app; cbn; rewrite Er; auto).
  destruct (f_id c) eqn:Ef; unfold acc in Ha; rewrite Ef in Ha; cbn zeta in Ha.
  - assert (Et : v_type x <> NUL) by (destruct Hh as [_ Hh]; destruct w; destruct Hh as [-> _]; discriminate).
    unfold execCount. destruct (v_type x) eqn:E; try congruence; (eexists; split; [reflexivity|]; split; [split; auto|]; unfold acc; cbn [f_id]; rewrite Ef; cbn [a1i];
      destruct Hh as [Hc _]; rewrite counts_app, Hc, Ha; cbn; lia).
  - destruct Ha as [Ha1 Ha2]. destruct (ext_ok Qltb (fun a b => Qle b a) x w (r_count r) g c r) as (c' & E & Hs & H2 & Hg); auto.
    + intros a b H. apply Qltb_true in H. lra.
    + intros a b H. apply Qltb_false in H. auto.
    + intros; lra.
    + intros; lra.
    + intros; lra.
    + intros Hn Hne. apply Ha2; auto. intros ->. apply Hne. reflexivity.
    + unfold execMin. rewrite E. cbn. exists c'. split; auto. split; auto. unfold acc. destruct Hs as (S1 & S2 & S3). rewrite S1, S2, Ef. cbn zeta. split; [rewrite H2; destruct g; auto|].
      intros Hn _. apply Hg; auto. rewrite Hvals. destruct (vals (f_in c) g); discriminate.
  - destruct Ha as [Ha1 Ha2]. destruct (ext_ok (fun a b => Qltb b a) Qle x w (r_count r) g c r) as (c' & E & Hs & H2 & Hg); auto.
    + intros a b H. apply Qltb_true in H. lra.
    + intros a b H. apply Qltb_false in H. auto.
    + intros; lra.
    + intros; lra.
    + intros; lra.
    + intros Hn Hne. apply Ha2; auto. intros ->. apply Hne. reflexivity.
    + unfold execMax. rewrite E. cbn. exists c'. split; auto. split; auto. unfold acc. destruct Hs as (S1 & S2 & S3). rewrite S1, S2, Ef. cbn zeta. split; [rewrite H2; destruct g; auto|].
      intros Hn _. apply Hg; auto. rewrite Hvals. destruct (vals (f_in c) g); discriminate.
  - destruct (add_value_ok x w _ (vals (f_in c) g) c Hh Ha) as [H1 _].
    assert (E : execSum x c = Some (None, add_value x c)). { unfold execSum. destruct Hh as [_ Hh]. destruct w; destruct Hh as [-> _]; reflexivity. }
    rewrite E. cbn. eexists. split; [reflexivity|]. assert (Hs : same_call c (add_value x c)) by (unfold add_value, same_call; destruct (v_type x); [destruct (a1b c)|..]; auto).
    split; auto. unfold acc. destruct Hs as (S1 & S2 & _). rewrite S1, S2, Ef. cbn zeta. rewrite Hvals. exact H1.
  - destruct Ha as (Ha1 & Ha2 & Ha3). set (c1 := mkCall (f_id c) (f_in c) (f_out c) (a1i c) (a2i c + 1) (a1d c) (a1b c) (a2b c)).
    destruct (add_value_ok x w _ (vals (f_in c) g) c1 Hh Ha1) as [H1 H2].
    assert (E : execAvg x c = Some (None, add_value x c1)). { unfold execAvg. fold c1. destruct Hh as [_ Hh]. destruct w; destruct Hh as [-> _]; reflexivity. }
    rewrite E. cbn. eexists. split; [reflexivity|]. assert (Hs : same_call c (add_value x c1)) by (unfold add_value, same_call; destruct (v_type x); [destruct (a1b c1)|..]; auto).
    split; auto. assert (E2 : a2i (add_value x c1) = a2i c + 1) by (unfold add_value; destruct (v_type x); [destruct (a1b c1)|..]; auto).
    unfold acc. destruct Hs as (S1 & S2 & _). rewrite S1, S2, Ef, E2. cbn zeta. rewrite Hvals. split; [exact H1|]. split; [rewrite app_length; cbn; lia|]. apply H2. auto.
  - congruence.
Qed.

(** *** The handler *)
Definition inv (vars : list nat) (g : list row) (h : handler) : Prop :=
  (forall c, In c (h_calls h) -> In (f_in c) vars /\ ~ In (f_out c) vars /\ f_id c <> OTHER /\ acc g c) /\
  NoDup (map f_out (h_calls h)) /\ (forall f, h_distinct h f = false).

Lemma Forall2_in_l {A B} (R : A -> B -> Prop) l m : Forall2 R l m -> forall x, In x l -> exists y, In y m /\ R x y.
Proof. induction 1; intros z []; subst; eauto using in_eq; edestruct IHForall2 as (w & Hw & Hr); eauto. exists w. split; auto. right. auto. Qed.
Lemma Forall2_in_r {A B} (R : A -> B -> Prop) l m : Forall2 R l m -> forall y, In y m -> exists x, In x l /\ R x y.
Proof. induction 1; intros z []; subst; eauto using in_eq; edestruct IHForall2 as (w & Hw & Hr); eauto. exists w. split; auto. right. auto. Qed.
Lemma same_outs l m : Forall2 same_call l m -> map f_out m = map f_out l.
Proof. induction 1 as [|x y l m H _ IH]; cbn; auto. destruct H as (_ & _ & ->). rewrite IH. auto. Qed.

Lemma run_rows dist mask g r : (forall f, dist f = false) -> forall calls sets vars out,
  (forall c, In c calls -> mask (f_in c) = true /\ holds (vars (f_in c)) (r_vals r (f_in c)) (r_count r) /\ f_id c <> OTHER /\ acc g c) ->
  exists calls' sets', run_calls dist mask calls sets vars out = Some (calls', sets', vars, out) /\ Forall2 (fun c c' => same_call c c' /\ acc (g ++ [r]) c') calls calls'.
Proof.
  intros Hd. induction calls as [|c calls IH]; intros sets vars out H; cbn [run_calls]; [exists [], sets; split; auto|].
  destruct (H c (or_introl eq_refl)) as (Hm & Hh & Ho & Ha). rewrite Hm, Hd.
  destruct (exec_row _ _ r g c (sets (f_id c)) Hh eq_refl Ho Ha) as (c' & E & Hs & Ha'). rewrite E. cbn iota beta. 
  destruct (IH (updf sets (f_id c) (sets (f_id c))) vars out) as (cs & s' & E' & HF); [intros; apply H; right; auto|]. rewrite E'. cbn. exists (c' :: cs), s'. split; auto.
Qed.

Lemma fold_update r vars : forall h, let h' := fold_left (fun h v => updateVar v (r_vals r v) (r_count r) h) vars h in
  h_calls h' = h_calls h /\ h_distinct h' = h_distinct h /\ h_sets h' = h_sets h /\
  (forall v, In v vars -> h_mask h' v = true /\ holds (h_vars h' v) (r_vals r v) (r_count r)) /\
  (forall v, ~ In v vars -> h_mask h' v = h_mask h v /\ h_vars h' v = h_vars h v).
Proof.
  induction vars as [|v vars IH]; intros h; cbn zeta; cbn [fold_left].
  - split; [reflexivity|]. split; [reflexivity|]. split; [reflexivity|]. split; [intros ? []|auto].
  - destruct (IH (updateVar v (r_vals r v) (r_count r) h)) as (E1 & E2 & E3 & H1 & H2). cbn zeta in *. rewrite E1, E2, E3.
    split; [destruct (r_vals r v); reflexivity|]. split; [destruct (r_vals r v); reflexivity|]. split; [destruct (r_vals r v); reflexivity|]. split.
    + intros w Hw. destruct (in_dec Nat.eq_dec w vars) as [Hi|Hi]; [auto|]. destruct Hw as [<-|Hw]; [|contradiction]. destruct (H2 v Hi) as [-> ->].
      destruct (r_vals r v); unfold updateVar, updateVarInt, updateVarDec, updateVarSymbol, set_var, upd, holds; cbn; rewrite Nat.eqb_refl; auto.
    + intros w Hw. destruct (H2 w) as [-> ->]; [intros Hi; apply Hw; right; auto|]. assert (Hne : Nat.eqb w v = false) by (apply Nat.eqb_neq; intros ->; apply Hw; left; auto).
      destruct (r_vals r v); unfold updateVar, updateVarInt, updateVarDec, updateVarSymbol, set_var, upd; cbn; rewrite Hne; auto.
Qed.
Lemma fold_null vars : forall h, let h' := fold_left (fun h v => updateVarNull v h) vars h in
  h_calls h' = h_calls h /\ h_distinct h' = h_distinct h /\
  (forall v, In v vars -> h_mask h' v = true /\ v_type (h_vars h' v) = NUL) /\
  (forall v, ~ In v vars -> h_mask h' v = h_mask h v /\ h_vars h' v = h_vars h v).
Proof.
  induction vars as [|v vars IH]; intros h; cbn zeta; cbn [fold_left].
  - split; [reflexivity|]. split; [reflexivity|]. split; [intros ? []|auto].
  - destruct (IH (updateVarNull v h)) as (E1 & E2 & H1 & H2). cbn zeta in *. rewrite E1, E2.
    split; [reflexivity|]. split; [reflexivity|]. split.
    + intros w Hw. destruct (in_dec Nat.eq_dec w vars) as [Hi|Hi]; [auto|]. destruct Hw as [<-|Hw]; [|contradiction]. destruct (H2 v Hi) as [-> ->].
      unfold updateVarNull, set_var, upd; cbn; rewrite Nat.eqb_refl; auto.
    + intros w Hw. destruct (H2 w) as [-> ->]; [intros Hi; apply Hw; right; auto|]. assert (Hne : Nat.eqb w v = false) by (apply Nat.eqb_neq; intros ->; apply Hw; left; auto).
      unfold updateVarNull, set_var, upd; cbn; rewrite Hne; auto.
Qed.
Lemma existsb_nomask cs : existsb (fun c => nomask (f_out c)) cs = false.
Proof. induction cs; cbn; auto. Qed.

Lemma add_row_ok vars r g h : inv vars g h -> exists h', add_row vars r h = Some h' /\ inv vars (g ++ [r]) h' /\ Forall2 same_call (h_calls h) (h_calls h').
Proof.
  intros (Hc & Hn & Hd). unfold add_row, stopUpdate. destruct (fold_update r vars (startUpdate h)) as (E1 & E2 & E3 & H1 & H2). cbn zeta in *.
  set (h1 := fold_left _ vars (startUpdate h)) in *. cbn [startUpdate h_calls h_distinct h_sets h_mask h_vars] in *. cbn [stop_loop].
  destruct (run_rows (h_distinct h1) (h_mask h1) g r ltac:(rewrite E2; auto) (h_calls h1) (h_sets h1) (h_vars h1) nomask) as (cs & s' & E & HF).
  { intros c Hi. rewrite E1 in Hi. destruct (Hc c Hi) as (A & B & C & D). destruct (H1 _ A) as [M O]. auto. }
  rewrite E. cbn iota beta. rewrite existsb_nomask. eexists. split; [reflexivity|]. rewrite E1 in HF.
  assert (HS : Forall2 same_call (h_calls h) cs) by (clear - HF; induction HF as [|? ? ? ? [? ?]]; constructor; auto).
  split; [|exact HS]. unfold inv. cbn [h_calls h_distinct]. split; [|split].
  - intros c Hi. destruct (Forall2_in_r _ _ _ HF c Hi) as (c0 & Hi0 & (S1 & S2 & S3) & Ha). destruct (Hc c0 Hi0) as (A & B & C & D). rewrite S1, S2, S3. auto.
  - rewrite (same_outs _ _ HS). auto.
  - intros f. rewrite E2. auto.
Qed.

(** The value a call delivers at the end of a group. *)
Definition final (c : call) : result :=
  match f_id c with
  | COUNT => RInt (a1i c)
  | AVG => if a2i c =? 0 then RInt 0 else if a1b c then RInt (Z.quot (a1i c) (a2i c)) else RDec (a1d c / inject_Z (a2i c))
  | _ => if a1b c then RInt (a1i c) else RDec (a1d c)
  end.
Lemma exec_null x c seen g : v_type x = NUL -> f_id c <> OTHER -> acc g c -> g <> [] -> executeFunction false seen x c = Some (Some (final c), c, seen).
Proof.
  intros Et Ho Ha Hg. unfold executeFunction. cbn [andb]. unfold final. unfold acc in Ha. destruct (f_id c) eqn:E; try congruence;
    unfold execCount, execSum, execAvg, execMin, execMax, execExt; rewrite Et; try reflexivity.
  - destruct Ha as [-> _]. destruct g; [congruence|]. reflexivity.
  - destruct Ha as [-> _]. destruct g; [congruence|]. reflexivity.
Qed.
Lemma get_put r x : get_result (put_result r x) = Some r.
Proof. destruct r; reflexivity. Qed.
Lemma run_null dist mask g : (forall f, dist f = false) -> g <> [] -> forall calls sets vars out,
  (forall c, In c calls -> mask (f_in c) = true /\ v_type (vars (f_in c)) = NUL /\ f_id c <> OTHER /\ acc g c) ->
  (forall c c', In c calls -> In c' calls -> f_out c <> f_in c') -> NoDup (map f_out calls) ->
  exists sets' vars' out', run_calls dist mask calls sets vars out = Some (calls, sets', vars', out') /\
    (forall c, In c calls -> out' (f_out c) = true /\ get_result (vars' (f_out c)) = Some (final c)) /\
    (forall v, ~ In v (map f_out calls) -> out' v = out v /\ vars' v = vars v).
Proof.
  intros Hd Hg. induction calls as [|c calls IH]; intros sets vars out H Hio Hn; cbn [run_calls].
  - exists sets, vars, out. split; auto. split; [intros ? []|auto].
  - destruct (H c (or_introl eq_refl)) as (Hm & Ht & Ho & Ha). rewrite Hm, Hd, (exec_null _ _ _ g) by auto. cbn iota beta. 
    cbn [map] in Hn. inversion Hn as [|? ? Hn1 Hn2]; subst.
    destruct (IH (updf sets (f_id c) (sets (f_id c))) (upd vars (f_out c) (put_result (final c) (vars (f_out c)))) (upd out (f_out c) true)) as (s' & v' & o' & E & H1 & H2); auto.
    + intros d Hi. destruct (H d (or_intror Hi)) as (A & B & C & D). split; auto. split; auto. unfold upd. rewrite (proj2 (Nat.eqb_neq _ _)); auto. apply not_eq_sym. apply Hio; cbn; auto.
    + intros d d' Hi Hi'. apply Hio; right; auto.
    + rewrite E. cbn. exists s', v', o'. split; auto. split.
      * intros d [<-|Hi]; auto. destruct (H2 (f_out c)) as [-> ->]; auto. unfold upd. rewrite Nat.eqb_refl. split; auto. apply get_put.
      * intros v Hv. destruct (H2 v) as [-> ->]; [intros Hi; apply Hv; right; auto|]. unfold upd. rewrite (proj2 (Nat.eqb_neq v (f_out c))) by (intros ->; apply Hv; left; auto). auto.
Qed.
Lemma run_none dist mask : forall calls sets vars out, (forall c, In c calls -> mask (f_in c) = false) -> run_calls dist mask calls sets vars out = Some (calls, sets, vars, out).
Proof. induction calls as [|c calls IH]; intros sets vars out H; cbn [run_calls]; auto. rewrite (H c (or_introl eq_refl)). rewrite IH by (intros; apply H; right; auto). reflexivity. Qed.

Lemma end_group_ok vars g h : inv vars g h -> g <> [] -> exists h', end_group vars h = Some h' /\ h_calls h' = h_calls h /\ h_distinct h' = h_distinct h /\
  forall c, In c (h_calls h) -> get_result (h_vars h' (f_out c)) = Some (final c).
Proof.
  intros (Hc & Hn & Hd) Hg. unfold end_group, stopUpdate. destruct (fold_null vars (startUpdate h)) as (E1 & E2 & H1 & H2). cbn zeta in *.
  set (h1 := fold_left _ vars (startUpdate h)) in *. cbn [startUpdate h_calls h_distinct h_sets h_mask h_vars] in *. cbn [stop_loop].
  assert (Hio : forall c c', In c (h_calls h) -> In c' (h_calls h) -> f_out c <> f_in c').
  { intros c c' Hi Hi' E. destruct (Hc c Hi) as (_ & B & _). destruct (Hc c' Hi') as (A & _). apply B. rewrite E. auto. }
  destruct (run_null (h_distinct h1) (h_mask h1) g ltac:(rewrite E2; auto) Hg (h_calls h1) (h_sets h1) (h_vars h1) nomask) as (s' & v' & o' & E & R1 & R2).
  { intros c Hi. rewrite E1 in Hi. destruct (Hc c Hi) as (A & B & C & D). destruct (H1 _ A) as [M O]. auto. }
  { rewrite E1. auto. }
  { rewrite E1. auto. }
  rewrite E. cbn iota beta. rewrite E1 in *. destruct (existsb _ (h_calls h)) eqn:Ex.
  - cbn [stop_loop h_distinct h_mask h_calls h_sets h_vars]. rewrite run_none.
    + cbn iota beta. rewrite existsb_nomask. eexists. split; [reflexivity|]. cbn. split; auto. split; [rewrite E2; auto|]. intros c Hi. apply R1; auto.
    + intros c Hi. destruct (R2 (f_in c)) as [-> _]; auto. intros Hm. apply in_map_iff in Hm. destruct Hm as (d & Ed & Hid). apply (Hio d c); auto.
  - eexists. split; [reflexivity|]. cbn. split; auto. split; [rewrite E2; auto|]. intros c Hi. apply R1; auto.
Qed.

Lemma same_trans l m n : Forall2 same_call l m -> Forall2 same_call m n -> Forall2 same_call l n.
Proof. intros H. revert n. induction H as [|x y l m (A & B & C) H IH]; intros n Hn; inversion Hn as [|? ? ? ? (A' & B' & C')]; subst; constructor; auto. unfold same_call. rewrite A', B', C'. auto. Qed.
Lemma same_refl l : Forall2 same_call l l.
Proof. induction l; constructor; auto. split; auto. Qed.
Lemma same_rows_ok vars k : forall rows g h, inv vars g h -> exists g' rest h', rows = g' ++ rest /\ same_rows vars k rows h = Some (h', rest) /\
  inv vars (g ++ g') h' /\ Forall2 same_call (h_calls h) (h_calls h') /\ (forall r, In r g' -> r_keys r = k) /\ (forall r t, rest = r :: t -> r_keys r <> k).
Proof.
  induction rows as [|r rows IH]; intros g h Hi; cbn [same_rows].
  - exists [], [], h. rewrite (app_nil_r g). split; auto. split; auto. split; auto. split; [apply same_refl|]. split; [intros ? []|discriminate].
  - unfold keys_eqb. destruct (list_eq_dec Z.eq_dec (r_keys r) k) as [Ek|Ek].
    + destruct (add_row_ok vars r g h Hi) as (h1 & E & Hi1 & HS). rewrite E. cbn iota beta. 
      destruct (IH (g ++ [r]) h1 Hi1) as (g' & rest & h' & -> & E' & Hi' & HS' & Hk & Hr). exists (r :: g'), rest, h'. split; auto. split; auto.
      split; [rewrite <- app_assoc in Hi'; exact Hi'|]. split; [eapply same_trans; eauto|]. split; auto. intros x [<-|Hx]; auto.
    + exists [], (r :: rows), h. rewrite (app_nil_r g). split; auto. split; auto. split; auto. split; [apply same_refl|]. split; [intros ? []|]. intros x t E. injection E as <- <-. auto.
Qed.
Lemma acc_reset c : f_id c <> OTHER -> acc [] (call_reset c).
Proof.
  intros H. unfold acc. cbn. destruct (f_id c); try congruence; auto.
  - split; auto. intros _ Hn. congruence.
  - split; auto. intros _ Hn. congruence.
  - intros _. split; [intros ? []|reflexivity].
  - split; [intros _; split; [intros ? []|reflexivity]|]. auto.
Qed.

(** *** What is delivered for a group *)
Lemma solutions_in v g x : (forall r, In r g -> 0 < r_count r) -> In x (solutions v g) <-> In x (vals v g).
Proof.
  intros H. unfold solutions, vals. rewrite in_concat. split.
  - intros (l & Hl & Hx). apply in_map_iff in Hl. destruct Hl as (r & <- & Hr). apply repeat_spec in Hx. subst. apply in_map_iff. eauto.
  - intros Hx. apply in_map_iff in Hx. destruct Hx as (r & <- & Hr). exists (repeat (r_vals r v) (Z.to_nat (r_count r))). split; [apply in_map_iff; eauto|].
    specialize (H r Hr). destruct (Z.to_nat (r_count r)) eqn:E; [lia|]. left. auto.
Qed.
Lemma solutions_length v g : (forall r, In r g -> 0 < r_count r) -> Z.of_nat (length (solutions v g)) = counts g.
Proof.
  unfold solutions, counts. induction g as [|r g IH]; intros H; cbn; auto. rewrite app_length, repeat_length, Nat2Z.inj_add, IH by (intros; apply H; right; auto).
  specialize (H r (or_introl eq_refl)). lia.
Qed.
Lemma solutions_ones v g : (forall r, In r g -> r_count r = 1) -> solutions v g = vals v g.
Proof. unfold solutions, vals. induction g as [|r g IH]; intros H; cbn; auto. rewrite IH by (intros; apply H; right; auto). rewrite (H r (or_introl eq_refl)). reflexivity. Qed.
Lemma total_int l : all_int l -> exists s, (total l == inject_Z s)%Q.
Proof.
  induction l as [|x l IH]; intros H; [exists 0; reflexivity|]. destruct IH as [s Hs]; [intros y Hy; apply H; right; auto|]. destruct (H x (or_introl eq_refl)) as [z ->].
  exists (z + s). cbn. rewrite Hs, inject_Z_plus. reflexivity.
Qed.
Lemma final_ok c g : f_id c <> OTHER -> acc g c -> g <> [] -> (forall r, In r g -> 0 < r_count r) -> agg_ok c g (final c).
Proof.
  intros Ho Ha Hg Hp. unfold agg_ok, final. unfold acc in Ha.
  assert (HN : numeric (solutions (f_in c) g) -> numeric (vals (f_in c) g)) by (intros H x Hx; apply H, solutions_in; auto).
  destruct (f_id c) eqn:Ef; cbn zeta in *.
  - unfold count_ok. rewrite solutions_length, Ha by auto. reflexivity.
  - intros Hn. destruct Ha as [_ Ha]. destruct (Ha (HN Hn) Hg) as [(x & q & H1 & H2 & H3) H4]. unfold min_ok. replace (toQ (if a1b c then RInt (a1i c) else RDec (a1d c))) with (if a1b c then inject_Z (a1i c) else a1d c) by (destruct (a1b c); auto). split.
    + exists x, q. split; [apply solutions_in; auto|auto].
    + intros y p Hy. apply H4. apply solutions_in in Hy; auto.
  - intros Hn. destruct Ha as [_ Ha]. destruct (Ha (HN Hn) Hg) as [(x & q & H1 & H2 & H3) H4]. unfold max_ok. replace (toQ (if a1b c then RInt (a1i c) else RDec (a1d c))) with (if a1b c then inject_Z (a1i c) else a1d c) by (destruct (a1b c); auto). split.
    + exists x, q. split; [apply solutions_in; auto|auto].
    + intros y p Hy. apply H4. apply solutions_in in Hy; auto.
  - intros Hn H1. specialize (Ha (HN Hn)). unfold sum_ok. rewrite solutions_ones by auto. destruct (a1b c); [apply Ha|exact Ha].
  - intros Hn H1. destruct Ha as (Ha & H2 & H3). specialize (Ha (HN Hn)). rewrite H2.
    assert (Hl : 0 < Z.of_nat (length g)) by (destruct g; [congruence|cbn; lia]). rewrite (proj2 (Z.eqb_neq _ _)) by lia.
    assert (Elen : length (solutions (f_in c) g) = length g) by (rewrite solutions_ones by auto; apply map_length).
    unfold avg_truncated, avg_ok. rewrite Elen, solutions_ones by auto. destruct (a1b c) eqn:Eb.
    + left. destruct Ha as [Hi Ht]. split; auto. exists (Z.quot (a1i c) (Z.of_nat (length g))), (a1i c). split; auto. split; auto. rewrite Ht. reflexivity.
    + right. split; [intros Hi; specialize (H3 Hi); congruence|]. cbn [toQ]. rewrite <- Ha. field. intros E. unfold Qeq in E. cbn [inject_Z Qnum Qden] in E. lia.
  - congruence.
Qed.

(** The operator delivers one row per group, in order, with the keys of the group and for every
    function the aggregate of its solutions.  Missing: SUM and AVG of rows with counts above 1, the
    exact average of integers, and DISTINCT (all refuted below); nested aggregates. *)
Theorem C32_groups_partial : forall vars out rows h, ready vars h -> (forall r, In r rows -> 0 < r_count r) ->
  exists groups outs, all_groups (S (length rows)) vars out rows h = Some outs /\ runs rows groups /\
    Forall2 (fun g o => fst o = fst g /\
      forall i v c, nth_error out i = Some v -> In c (h_calls h) -> f_out c = v ->
        exists res, nth_error (snd o) i = Some (Some res) /\ agg_ok c (snd g) res) groups outs.
Proof.
  intros vars out rows h Hr. assert (Hi : inv vars [] h).
  { destruct Hr as [R1 R2 R3 R4 R5 R6]. split; [|auto]. intros c Hc. split; auto. split; auto. split; auto. rewrite <- (R1 c Hc). apply acc_reset. auto. }
  clear Hr. assert (G : forall fuel rows h0, (length rows < fuel)%nat -> inv vars [] h0 -> Forall2 same_call (h_calls h) (h_calls h0) -> (forall r, In r rows -> 0 < r_count r) ->
    exists groups outs, all_groups fuel vars out rows h0 = Some outs /\ runs rows groups /\
    Forall2 (fun g o => fst o = fst g /\ forall i v c, nth_error out i = Some v -> In c (h_calls h) -> f_out c = v ->
        exists res, nth_error (snd o) i = Some (Some res) /\ agg_ok c (snd g) res) groups outs).
  { clear Hi. induction fuel as [|f IH]; intros rws h0 Hlt Hi HS Hp; [lia|]. cbn [all_groups]. destruct rws as [|r rest]; [exists [], []; split; auto; split; constructor|].
    unfold processGroup. destruct (add_row_ok vars r [] h0 Hi) as (h1 & E1 & Hi1 & S1). rewrite E1. cbn iota beta. cbn [app] in Hi1.
    destruct (same_rows_ok vars (r_keys r) rest [r] h1 Hi1) as (g' & rest' & h2 & -> & E2 & Hi2 & S2 & Hk & Hne). rewrite E2. cbn iota beta.
    destruct (end_group_ok vars ([r] ++ g') h2 Hi2 ltac:(discriminate)) as (h3 & E3 & C3 & D3 & R3). rewrite E3. cbn iota beta.
    assert (S3 : Forall2 same_call (h_calls h) (h_calls h2)) by (eapply same_trans; [eapply same_trans|]; eauto).
    destruct (IH rest' (h_reset h3)) as (groups & outs & E & Hru & HF).
    - cbn in Hlt. rewrite app_length in Hlt. lia.
    - destruct Hi2 as (I1 & I2 & I3). split; [|split].
      + intros c Hc. cbn [h_reset h_calls] in Hc. rewrite C3 in Hc. apply in_map_iff in Hc. destruct Hc as (c0 & <- & Hc0). destruct (I1 c0 Hc0) as (A & B & C & D). cbn [call_reset f_in f_out f_id]. split; auto. split; auto. split; auto. apply acc_reset. auto.
      + cbn [h_reset h_calls]. rewrite C3, map_map. exact I2.
      + cbn [h_reset h_distinct]. rewrite D3. auto.
    - cbn [h_reset h_calls]. rewrite C3. eapply same_trans; [exact S3|]. clear. induction (h_calls h2); constructor; auto. split; auto.
    - intros x Hx. apply Hp. right. apply in_or_app. auto.
    - rewrite E. cbn iota beta. exists ((r_keys r, r :: g') :: groups). eexists. split; [reflexivity|]. split.
      + apply (runs_cons (r_keys r) (r :: g') rest' groups); auto; [discriminate|]. intros x [<-|Hx]; auto.
      + constructor; [|exact HF]. cbn [fst snd]. split; auto. intros i v c Hi0 Hc Ev. destruct (Forall2_in_l _ _ _ S3 c Hc) as (c2 & Hc2 & (A & B & C)).
        exists (final c2). rewrite nth_error_map, Hi0. cbn [option_map]. rewrite <- Ev, <- C, R3 by auto. split; auto.
        destruct Hi2 as (I1 & _). destruct (I1 c2 Hc2) as (_ & _ & O2 & A2). pose proof (final_ok c2 ([r] ++ g') O2 A2 ltac:(discriminate)) as F.
        assert (F' := F ltac:(intros x Hx; apply Hp; cbn in Hx; destruct Hx as [<-|Hx]; [left; auto|right; apply in_or_app; auto])). unfold agg_ok in *. rewrite A, B in F'. exact F'. }
  apply G; auto. apply same_refl.
Qed.
Print Assumptions C32_groups_partial.

(** *** Examples and refutations *)
Definition no_var : varv := mkVar 0 0 0 NUL.
Definition new_call (f : func) (i o : nat) : call := mkCall f i o 0 0 0 true true.
Definition new_handler (dist : func -> bool) (calls : list call) : handler := mkH dist (fun _ => []) (fun _ => no_var) calls nomask.
Definition no_distinct : func -> bool := fun _ => false.
Definition ag_calls : list call := [new_call COUNT 1 10; new_call MIN 1 11; new_call MAX 1 12; new_call SUM 1 13; new_call AVG 2 14]%nat.
Definition ag_row (k : list Z) (a b : value) (n : Z) : row := mkRow k (fun v => if Nat.eqb v 1 then a else b) n.
Definition ag_rows : list row := [ag_row [7] (VInt 5) (VInt 1) 1; ag_row [7] (VDec (1#2)) (VInt 2) 1; ag_row [8] (VInt 4) (VDec 3) 1].
Lemma ag_ready : ready [1; 2]%nat (new_handler no_distinct ag_calls).
Proof.
  split; cbn; auto; try (intros c [<-|[<-|[<-|[<-|[<-|[]]]]]]; cbn; auto; try lia; try discriminate). repeat constructor; cbn; lia.
Qed.
Example C32_case : exists groups outs, all_groups 4 [1; 2]%nat [10; 11; 12; 13; 14]%nat ag_rows (new_handler no_distinct ag_calls) = Some outs /\ runs ag_rows groups /\ length groups = 2%nat.
Proof.
  destruct (C32_groups_partial [1; 2]%nat [10; 11; 12; 13; 14]%nat ag_rows _ ag_ready) as (gs & os & E & Hr & HF); [intros r [<-|[<-|[<-|[]]]]; cbn; lia|].
  exists gs, os. split; auto. split; auto. replace (length gs) with (length os) by (clear - HF; induction HF; cbn; congruence). vm_compute in E. injection E as <-. reflexivity.
Qed.
Example C32_values : option_map (map (fun o => map (option_map (fun r => Qred (toQ r))) (snd o))) (all_groups 4 [1; 2]%nat [10; 11; 12; 13; 14]%nat ag_rows (new_handler no_distinct ag_calls)) =
  Some [[Some 2%Q; Some (1#2)%Q; Some 5%Q; Some (11#2)%Q; Some 1%Q]; [Some 1%Q; Some 4%Q; Some 4%Q; Some 4%Q; Some 3%Q]].
Proof. reflexivity. Qed.

Ltac give_outs := match goal with |- exists outs, ?e = Some outs /\ _ => let v := eval vm_compute in e in match v with Some ?o => exists o end
  | |- exists outs r, ?e = Some outs /\ _ => let v := eval vm_compute in e in match v with Some [([], [Some ?r])] => exists [([], [Some r])], r end end; split; [vm_compute; reflexivity|].
(** SUM counts a row once, whatever its count. *)
Theorem C32_sum_refuted : forall z n, 0 < z -> 1 < n -> exists outs r,
  all_groups 2 [1]%nat [10]%nat [ag_row [] (VInt z) (VInt z) n] (new_handler no_distinct [new_call SUM 1 10])%nat = Some outs /\
  nth_error outs 0 = Some ([], [Some r]) /\ ~ sum_ok (solutions 1 [ag_row [] (VInt z) (VInt z) n]) r.
Proof.
  intros z n Hz Hn. do 2 eexists. split; [reflexivity|]. split; [reflexivity|]. unfold sum_ok. cbn [toQ]. unfold solutions. cbn [map concat ag_row r_vals r_count Nat.eqb]. rewrite app_nil_r. intros H.
  assert (T : forall k, (total (repeat (VInt z) k) == inject_Z (Z.of_nat k * z))%Q).
  { induction k as [|k IH]; cbn [repeat total num]; [reflexivity|]. rewrite IH, <- inject_Z_plus. replace (Z.of_nat (S k) * z) with (z + Z.of_nat k * z) by lia. reflexivity. }
  rewrite T in H. unfold Qeq in H. cbn [inject_Z Qnum Qden] in H. rewrite Z2Nat.id in H by lia. assert (n * z = 1 * z) by (cbn in H; lia). nia.
Qed.
Print Assumptions C32_sum_refuted.
(** So does AVG: 1 and 4 with counts 1 and 3. *)
Theorem C32_avg_refuted : let g := [ag_row [] (VDec 1) (VInt 0) 1; ag_row [] (VDec 4) (VInt 0) 3] in exists outs r,
  all_groups 3 [1]%nat [10]%nat g (new_handler no_distinct [new_call AVG 1 10])%nat = Some outs /\
  nth_error outs 0 = Some ([], [Some r]) /\ ~ avg_ok (solutions 1 g) r.
Proof. cbn zeta. give_outs. split; [reflexivity|]. intros H. vm_compute in H. discriminate. Qed.
Print Assumptions C32_avg_refuted.
(** The average of integers is an integer: the average of 1 and 2 is 1. *)
Theorem C32_avg_int_refuted : let g := [ag_row [] (VInt 1) (VInt 0) 1; ag_row [] (VInt 2) (VInt 0) 1] in exists outs,
  all_groups 3 [1]%nat [10]%nat g (new_handler no_distinct [new_call AVG 1 10])%nat = Some outs /\
  nth_error outs 0 = Some ([], [Some (RInt 1)]) /\ ~ avg_ok (solutions 1 g) (RInt 1).
Proof. cbn zeta. give_outs. split; [reflexivity|]. intros H. vm_compute in H. discriminate. Qed.
Print Assumptions C32_avg_int_refuted.
(** A value that is not a number counts as the last decimal again: the sum of 5.0 and a term. *)
Theorem C32_symbol_refuted : let g := [ag_row [] (VDec 5) (VInt 0) 1; ag_row [] (VSym 9) (VInt 0) 1] in exists outs r,
  all_groups 3 [1]%nat [10]%nat g (new_handler no_distinct [new_call SUM 1 10])%nat = Some outs /\
  nth_error outs 0 = Some ([], [Some r]) /\ (toQ r == 10)%Q /\ (total (solutions 1 g) == 5)%Q.
Proof. cbn zeta. give_outs. split; [reflexivity|]. split; reflexivity. Qed.
Print Assumptions C32_symbol_refuted.
(** COUNT DISTINCT forgets nothing between groups: two groups with the same two terms are counted
    2 and 0. *)
Theorem C32_distinct_refuted : let rows := [ag_row [1] (VSym 8) (VInt 0) 1; ag_row [1] (VSym 9) (VInt 0) 1; ag_row [2] (VSym 8) (VInt 0) 1; ag_row [2] (VSym 9) (VInt 0) 1] in
  all_groups 5 [1]%nat [10]%nat rows (new_handler (fun _ => true) [new_call COUNT 1 10])%nat = Some [([1], [Some (RInt 2)]); ([2], [Some (RInt 0)])].
Proof. reflexivity. Qed.
Print Assumptions C32_distinct_refuted.
(** Two COUNT DISTINCT of different variables share what they have seen. *)
Theorem C32_distinct_shared_refuted : let rows := [ag_row [1] (VSym 8) (VSym 8) 1] in
  all_groups 5 [1; 2]%nat [10; 11]%nat rows (new_handler (fun _ => true) [new_call COUNT 1 10; new_call COUNT 2 11])%nat = Some [([1], [Some (RInt 1); Some (RInt 0)])].
Proof. reflexivity. Qed.
Print Assumptions C32_distinct_shared_refuted.

(** Integer results in a register: right from 0 to 2^62 - 1, never for negative numbers. *)
Theorem C32_register : forall z, 0 <= z < 2 ^ 62 -> is_integer (code_int z) = true /\ read_int (code_int z) = z.
Proof.
  intros z Hz. unfold is_integer, read_int, code_int. assert (H64 : z < 2 ^ 64) by (apply Z.lt_trans with (2 ^ 62); [lia|reflexivity]). rewrite Z.mod_small by lia.
  assert (Hhi : forall m, 62 <= m -> Z.testbit z m = false).
  { intros m Hm. destruct (Z.eq_dec z 0) as [->|Hnz]; [apply Z.bits_0|]. apply Z.bits_above_log2; [lia|]. assert (Z.log2 z < 62) by (apply Z.log2_lt_pow2; lia). lia. }
  split.
  - apply Z.eqb_eq. apply Z.bits_inj'. intros m Hm. rewrite Z.land_spec, Z.lor_spec. destruct (Z.ltb_spec m 62) as [L|G].
    + replace (3 * 2 ^ 62) with (Z.shiftl 3 62) by (rewrite Z.shiftl_mul_pow2; lia). rewrite Z.shiftl_spec_low by lia. rewrite andb_false_r. rewrite Z.pow2_bits_false by lia. auto.
    + rewrite Hhi by lia. cbn [orb]. replace (3 * 2 ^ 62) with (Z.shiftl 3 62) by (rewrite Z.shiftl_mul_pow2; lia). rewrite Z.shiftl_spec by lia.
      destruct (Z.eq_dec m 62) as [->|Hne]; [reflexivity|]. rewrite Z.pow2_bits_false by lia. reflexivity.
  - apply Z.bits_inj'. intros m Hm. rewrite Z.land_spec, Z.lor_spec. replace (2 ^ 62 - 1) with (Z.ones 62) by (rewrite Z.ones_equiv; lia). rewrite Z.testbit_ones_nonneg by lia. destruct (Z.ltb_spec m 62) as [L|G].
    + rewrite Z.pow2_bits_false by lia. rewrite orb_false_r, andb_true_r. auto.
    + rewrite andb_false_r. symmetry. apply Hhi. auto.
Qed.
Print Assumptions C32_register.
Example C32_register_case : read_int (code_int 12345) = 12345.
Proof. apply C32_register. lia. Qed.
Theorem C32_register_refuted : forall z, - 2 ^ 62 <= z < 0 -> is_integer (code_int z) = false /\ read_int (code_int z) <> z.
Proof.
  intros z Hz. unfold is_integer, read_int, code_int. rewrite <- (Z.land_ones z 64) by lia. split.
  - apply Z.eqb_neq. intros E. apply (f_equal (fun x => Z.testbit x 63)) in E. rewrite Z.land_spec, Z.lor_spec, Z.land_spec, Z.testbit_ones_nonneg in E by lia.
    assert (H : Z.testbit z 63 = true). { replace z with (- (- z)) by lia. rewrite Z.bits_opp by lia. apply negb_true_iff. destruct (Z.eq_dec (Z.pred (- z)) 0) as [->|Hn]; [apply Z.bits_0|]. apply Z.bits_above_log2; [lia|]. assert (Z.log2 (Z.pred (- z)) < 63); [|lia]. apply Z.log2_lt_pow2; [lia|]. assert (2 ^ 62 < 2 ^ 63) by reflexivity. lia. }
    rewrite H in E. discriminate.
  - intros E. assert (0 <= Z.land (Z.lor (Z.land z (Z.ones 64)) (2 ^ 62)) (2 ^ 62 - 1)) by (apply Z.land_nonneg; right; discriminate). lia.
Qed.
Print Assumptions C32_register_refuted.
