(** Proofs about the operators: union, product, merge union. *)

From Verif Require Export OpProofs2.
Local Open Scope Z_scope.

(** ** Union. *)
Lemma un_mapping_find m : NoDup (map snd m) -> (forall f t, In f (map fst m) -> In t (map snd m) -> f <> t) ->
  forall g x, un_mapping m g x =
    match find (fun ft => Nat.eqb (snd ft) x) m with Some ft => g (fst ft) | None => g x end.
Proof.
  unfold un_mapping. induction m as [|[f t] m IH]; intros Hn Hd g x; cbn [fold_left find fst snd]; [reflexivity|].
  cbn [map fst snd] in Hn, Hd. inversion Hn as [|? ? Hni Hn']; subst.
  rewrite IH; [|exact Hn'|intros f' t' Hf Ht; apply Hd; right; assumption].
  destruct (Nat.eqb_spec t x) as [-> | Hx].
  - destruct (find (fun ft => Nat.eqb (snd ft) x) m) as [ft|] eqn:Ef.
    + apply find_some in Ef. destruct Ef as [Hin E]. apply Nat.eqb_eq in E. exfalso. apply Hni. rewrite <- E. apply in_map, Hin.
    + apply set_reg_same.
  - destruct (find (fun ft => Nat.eqb (snd ft) x) m) as [ft|] eqn:Ef.
    + apply find_some in Ef. destruct Ef as [Hin E]. apply set_reg_other. apply Hd; [right; apply in_map, Hin|left; reflexivity].
    + apply set_reg_other. congruence.
Qed.
Lemma set_all_spec rs v : forall g x, set_all rs v g x = if in_dec Nat.eq_dec x rs then v else g x.
Proof.
  unfold set_all. induction rs as [|r rs IH]; intros g x; cbn [fold_left]; [reflexivity|].
  rewrite IH. destruct (in_dec Nat.eq_dec x rs) as [Hi|Hi]; destruct (in_dec Nat.eq_dec x (r :: rs)) as [Hj|Hj]; try reflexivity.
  - exfalso. apply Hj. right. exact Hi.
  - destruct Hj as [<-|Hj]; [apply set_reg_same|contradiction].
  - apply set_reg_other. intros ->. apply Hj. left. reflexivity.
Qed.

(** A part of a union with its rows; [s_F] holds of it before its first call, [s_I] always. *)
Record src := mkSrc {
  s_F : oper -> Prop; s_I : oper -> Prop; s_V : list nat; s_W : list nat;
  s_map : list (nat * nat); s_init : list nat; s_L : list (regs * Z) }.
Section Union.
Variables (V W : list nat).
Record src_ok (d : src) : Prop := {
  so_VW : incl (s_V d) (s_W d);
  so_W : incl (s_W d) W;
  so_to : incl (map snd (s_map d)) W;
  so_init : incl (s_init d) W;
  so_from : incl (map fst (s_map d)) (s_V d);
  so_d1 : disjoint (map snd (s_map d)) (s_W d);
  so_d2 : disjoint (s_init d) (s_W d);
  so_d3 : disjoint (map snd (s_map d)) (s_init d);
  so_nd : NoDup (map snd (s_map d));
  so_V : forall x, In x V -> In x (s_V d) \/ In x (map snd (s_map d)) \/ In x (s_init d);
  so_FI : forall o, s_F d o -> s_I d o;
  so_rows : forall o, s_F d o -> Rows (s_I d) (s_V d) (s_W d) (o_first o) (fun _ => True) (s_L d) }.
Definition part_of (P : src -> oper -> Prop) (p : un_part) (d : src) : Prop :=
  P d (up_op p) /\ up_map p = s_map d /\ up_init p = s_init d.
Variable ds : list src.
Hypothesis Hds : Forall src_ok ds.
Definition un_ok (o : oper) : Prop :=
  exists s, o = obj un_first un_next s /\ Forall2 (part_of s_I) (un_parts s) ds.

Lemma part_FI l l' : Forall src_ok l' -> Forall2 (part_of s_F) l l' -> Forall2 (part_of s_I) l l'.
Proof.
  intros Hok H. induction H as [|p d l l' (H1 & H2 & H3) H IH]; constructor.
  - inversion Hok; subst. split; [apply so_FI; assumption|auto].
  - apply IH. inversion Hok; assumption.
Qed.

Definition rows_of (d : src) : list (regs * Z) :=
  map (fun a => (union_row (s_map d) (s_init d) (fst a), snd a)) (s_L d).

Lemma un_put_split (a : list un_part) p b o :
  un_put (a ++ p :: b) (length a) o = a ++ mkPart o (up_map p) (up_init p) :: b.
Proof.
  unfold un_put. rewrite nth_error_app2 by lia. rewrite Nat.sub_diag. cbn [nth_error].
  rewrite firstn_app, Nat.sub_diag, firstn_all, firstn_O, app_nil_r. f_equal. f_equal.
  rewrite skipn_app. rewrite skipn_all2 by lia. replace (S (length a) - length a)%nat with 1%nat by lia. reflexivity.
Qed.

(** The registers after a row of a part. *)
Lemma un_row_ok d g1 v : src_ok d -> agree (s_V d) g1 v ->
  (forall x, In x (s_init d) -> g1 x = null32) ->
  agree V (un_mapping (s_map d) g1) (union_row (s_map d) (s_init d) v) /\
  agree (s_W d) (un_mapping (s_map d) g1) g1 /\
  outside W g1 (un_mapping (s_map d) g1) /\
  (forall x, In x (s_init d) -> un_mapping (s_map d) g1 x = null32).
Proof.
  intros Hd Hv Hi.
  assert (Hft : forall f t, In f (map fst (s_map d)) -> In t (map snd (s_map d)) -> f <> t).
  { intros f t Hf Ht ->. apply (so_d1 d Hd t Ht). apply (so_VW d Hd), (so_from d Hd), Hf. }
  assert (Hm := un_mapping_find (s_map d) (so_nd d Hd) Hft g1).
  assert (Hfind : forall x ft, find (fun ft => Nat.eqb (snd ft) x) (s_map d) = Some ft ->
     In (fst ft) (map fst (s_map d)) /\ In x (map snd (s_map d))).
  { intros x ft E. apply find_some in E. destruct E as [Hin E]. apply Nat.eqb_eq in E. subst x. split; apply in_map; exact Hin. }
  repeat split.
  - intros x Hx. rewrite Hm. unfold union_row.
    destruct (find _ (s_map d)) as [ft|] eqn:Ef.
    + apply Hv, (so_from d Hd), (Hfind x ft Ef).
    + destruct (in_dec Nat.eq_dec x (s_init d)) as [Hn|Hn]; [apply Hi, Hn|].
      destruct (so_V d Hd x Hx) as [H|[H|H]]; [apply Hv, H| |contradiction].
      exfalso. apply in_map_iff in H. destruct H as (ft & E & Hin).
      assert (X := find_none _ _ Ef ft Hin). cbn in X. rewrite E, Nat.eqb_refl in X. discriminate.
  - intros x Hx. rewrite Hm. destruct (find _ (s_map d)) as [ft|] eqn:Ef; [|reflexivity].
    exfalso. exact (so_d1 d Hd x (proj2 (Hfind x ft Ef)) Hx).
  - intros x Hx. rewrite Hm. destruct (find _ (s_map d)) as [ft|] eqn:Ef; [|reflexivity].
    exfalso. apply Hx, (so_to d Hd), (Hfind x ft Ef).
  - intros x Hx. rewrite Hm. destruct (find _ (s_map d)) as [ft|] eqn:Ef; [|apply Hi, Hx].
    exfalso. exact (so_d3 d Hd x (proj2 (Hfind x ft Ef)) Hx).
Qed.

Definition un_loopP (later : list src) : Prop := forall fuel done dd rest g,
  ds = dd ++ later -> Forall2 (part_of s_I) done dd -> Forall2 (part_of s_F) rest later ->
  rest <> [] -> (length rest <= fuel)%nat ->
  Got un_ok V W (wrap un_first un_next (un_firstFromPart fuel (mkUn (done ++ rest) (length done)) g)) g
    (flat_map rows_of later).
(** next with the part of [d] running, [R] to come, then [later]. *)
Lemma un_run d later dd : src_ok d -> ds = dd ++ d :: later -> (later <> [] -> un_loopP later) ->
  forall R done o rest g0,
  Forall2 (part_of s_I) done dd -> Forall2 (part_of s_F) rest later -> s_I d o ->
  (forall x, In x (s_init d) -> g0 x = null32) ->
  Rows (s_I d) (s_V d) (s_W d) (o_next o) (fun h => agree (s_W d) h g0) R ->
  Rows un_ok V W (o_next (obj un_first un_next (mkUn (done ++ mkPart o (s_map d) (s_init d) :: rest) (length done))))
    (fun h => agree W h g0)
    (map (fun a => (union_row (s_map d) (s_init d) (fst a), snd a)) R ++ flat_map rows_of later).
Proof.
  intros Hd Eds Hloop.
  induction R as [|[v c] R IH]; intros done o rest g0 Hdone Hrest HI Hinit HR;
    apply Rows_Got; intros h Hh; rewrite obj_next; unfold un_next; cbn [un_parts un_current];
    (destruct (Nat.leb_spec (length (done ++ mkPart o (s_map d) (s_init d) :: rest)) (length done)) as [Hle|_];
      [rewrite app_length in Hle; cbn in Hle; lia|]);
    rewrite nth_error_app2 by lia; rewrite Nat.sub_diag; cbn [nth_error up_op up_map up_init];
    rewrite Rows_Got in HR; specialize (HR h (agree_incl _ _ _ _ (so_W d Hd) Hh)).
  - destruct HR as (g1 & o1 & E & O & I1). rewrite E. cbn iota beta zeta. cbn [Z.eqb].
    rewrite un_put_split. cbn [up_map up_init map app].
    assert (Hall : Forall2 (part_of s_I) (done ++ mkPart o1 (s_map d) (s_init d) :: rest) ds).
    { rewrite Eds. apply Forall2_app; [exact Hdone|]. constructor; [split; auto|].
      apply part_FI; [|exact Hrest]. rewrite Eds in Hds. apply Forall_app in Hds. destruct Hds as [_ Hx]. inversion Hx; assumption. }
    rewrite app_length. cbn [length].
    apply (Got_outside _ _ _ _ g1). { eapply outside_incl; [exact (so_W d Hd)|exact O]. }
    destruct (Nat.leb_spec (length done + S (length rest)) (S (length done))) as [Hle|Hgt].
    + assert (rest = []) by (destruct rest; [reflexivity|cbn in Hle; lia]). subst rest.
      inversion Hrest; subst later. cbn. eexists g1, _. split; [reflexivity|]. split; [apply outside_refl|].
      eexists; split; [reflexivity|]. exact Hall.
    + assert (Hne : rest <> []) by (intros ->; cbn in Hgt; lia).
      assert (Hlne : later <> []) by (intros ->; inversion Hrest; congruence).
      change (mkPart o1 (s_map d) (s_init d) :: rest) with ([mkPart o1 (s_map d) (s_init d)] ++ rest).
      rewrite app_assoc. replace (S (length done)) with (length (done ++ [mkPart o1 (s_map d) (s_init d)])) by (rewrite app_length; cbn; lia).
      apply (Hloop Hlne _ _ (dd ++ [d])); auto.
      * rewrite Eds, <- app_assoc. reflexivity.
      * apply Forall2_app; [exact Hdone|]. constructor; [split; auto|constructor].
      * lia.
  - destruct HR as (Hc & g1 & o1 & E & A & O & I1 & HR). rewrite E. cbn iota beta zeta.
    destruct (Z.eqb_spec c 0); [lia|]. rewrite un_put_split. cbn [up_map up_init map app fst snd Got].
    split; [exact Hc|].
    assert (Hi1 : forall x, In x (s_init d) -> g1 x = null32).
    { intros x Hx. rewrite <- (O x (so_d2 d Hd x Hx)). rewrite (Hh x (so_init d Hd x Hx)). apply Hinit, Hx. }
    destruct (un_row_ok d g1 v Hd A Hi1) as (U1 & U2 & U3 & U4).
    eexists (un_mapping (s_map d) g1), _. split; [reflexivity|]. split; [exact U1|].
    split. { eapply outside_trans; [|exact U3]. eapply outside_incl; [exact (so_W d Hd)|exact O]. }
    split. { eexists; split; [reflexivity|]. cbn [un_parts]. rewrite Eds. apply Forall2_app; [exact Hdone|].
      constructor; [split; auto|]. apply part_FI; [|exact Hrest]. rewrite Eds in Hds. apply Forall_app in Hds. destruct Hds as [_ Hx]. inversion Hx; assumption. }
    apply (IH done o1 rest (un_mapping (s_map d) g1)); auto.
    eapply Rows_pre; [|exact HR]. intros k Hk. eapply agree_trans; eassumption.
Qed.

Lemma un_loop_ok later : un_loopP later.
Proof.
  induction later as [|d later IH]; intros fuel done dd rest g Eds Hdone Hrest Hne Hf.
  { inversion Hrest. congruence. }
  inversion Hrest as [|p ? rest' ? (Hp1 & Hp2 & Hp3) Hrest']; subst rest. destruct p as [o m init].
  cbn [up_op up_map up_init] in *. subst m init.
  assert (Hd : src_ok d). { rewrite Eds in Hds. apply Forall_app in Hds. destruct Hds as [_ Hx]. inversion Hx; assumption. }
  assert (Hl : Forall src_ok later). { rewrite Eds in Hds. apply Forall_app in Hds. destruct Hds as [_ Hx]. inversion Hx; assumption. }
  destruct fuel as [|fuel]; [cbn in Hf; lia|]. cbn [un_firstFromPart un_parts un_current].
  rewrite nth_error_app2 by lia. rewrite Nat.sub_diag. cbn [nth_error up_op up_map up_init].
  assert (HR := so_rows d Hd o Hp1). rewrite Rows_Got in HR. specialize (HR g Logic.I).
  cbn [flat_map]. unfold rows_of at 1.
  destruct (s_L d) as [|[v c] R] eqn:EL.
  - destruct HR as (g1 & o1 & E & O & I1). rewrite E. cbn iota beta zeta. cbn [Z.eqb map app].
    rewrite un_put_split. cbn [up_map up_init].
    apply (Got_outside _ _ _ _ g1). { eapply outside_incl; [exact (so_W d Hd)|exact O]. }
    rewrite app_length. cbn [length].
    destruct (Nat.leb_spec (length done + S (length rest')) (S (length done))) as [Hle|Hgt].
    + assert (rest' = []) by (destruct rest'; [reflexivity|cbn in Hle; lia]). subst rest'.
      inversion Hrest'; subst. cbn. eexists g1, _. split; [reflexivity|]. split; [apply outside_refl|].
      eexists; split; [reflexivity|]. cbn [un_parts]. rewrite Eds. apply Forall2_app; [exact Hdone|].
      constructor; [split; auto|constructor].
    + change (mkPart o1 (s_map d) (s_init d) :: rest') with ([mkPart o1 (s_map d) (s_init d)] ++ rest').
      rewrite app_assoc. replace (S (length done)) with (length (done ++ [mkPart o1 (s_map d) (s_init d)])) by (rewrite app_length; cbn; lia).
      apply (IH _ _ (dd ++ [d])); auto.
      * rewrite Eds, <- app_assoc. reflexivity.
      * apply Forall2_app; [exact Hdone|]. constructor; [split; auto|constructor].
      * intros ->; cbn in Hgt; lia.
      * cbn in Hf. lia.
  - destruct HR as (Hc & g1 & o1 & E & A & O & I1 & HR). rewrite E. cbn iota beta zeta.
    destruct (Z.eqb_spec c 0); [lia|]. rewrite un_put_split. cbn [up_map up_init map app fst snd wrap Got].
    split; [exact Hc|].
    set (g2 := set_all (s_init d) null32 g1).
    assert (A2 : agree (s_W d) g2 g1).
    { intros x Hx. unfold g2. rewrite set_all_spec. destruct (in_dec Nat.eq_dec x (s_init d)) as [Hi|]; [|reflexivity].
      exfalso. exact (so_d2 d Hd x Hi Hx). }
    assert (Hi1 : forall x, In x (s_init d) -> g2 x = null32).
    { intros x Hx. unfold g2. rewrite set_all_spec. destruct (in_dec Nat.eq_dec x (s_init d)); [reflexivity|contradiction]. }
    destruct (un_row_ok d g2 v Hd) as (U1 & U2 & U3 & U4); [|exact Hi1|].
    { eapply agree_trans; [|exact A]. eapply agree_incl; [exact (so_VW d Hd)|exact A2]. }
    eexists (un_mapping (s_map d) g2), _. split; [reflexivity|]. split; [exact U1|].
    split.
    { eapply outside_trans; [eapply outside_incl; [exact (so_W d Hd)|exact O]|].
      eapply outside_trans; [|exact U3]. intros x Hx. unfold g2. rewrite set_all_spec.
      destruct (in_dec Nat.eq_dec x (s_init d)) as [Hi|]; [|reflexivity]. exfalso. apply Hx, (so_init d Hd), Hi. }
    split.
    { eexists; split; [reflexivity|]. cbn [un_parts]. rewrite Eds. apply Forall2_app; [exact Hdone|].
      constructor; [split; auto|]. apply part_FI; assumption. }
    apply (un_run d later dd Hd Eds (fun _ => IH) R done o1 rest' (un_mapping (s_map d) g2)); auto.
    eapply Rows_pre; [|exact HR]. intros k Hk. eapply agree_trans; [exact Hk|]. eapply agree_trans; eassumption.
Qed.

Lemma un_start s (pre : regs -> Prop) : Forall2 (part_of s_F) (un_parts s) ds ->
  Rows un_ok V W (o_first (obj un_first un_next s)) pre (flat_map rows_of ds).
Proof.
  intros Hp. apply Rows_Got. intros g _. rewrite obj_first. unfold un_first.
  destruct (un_parts s) as [|p ps] eqn:E.
  - inversion Hp as [Hx H0|]; subst. cbn. eexists g, _. split; [reflexivity|]. split; [apply outside_refl|].
    eexists; split; [reflexivity|]. cbn. rewrite <- H0. constructor.
  - apply (un_loop_ok ds (length (p :: ps)) [] [] (p :: ps) g); auto. congruence.
Qed.
End Union.

(** ** Product. *)
Lemma set_regs_agree rs : forall vs g, NoDup rs -> length vs = length rs ->
  map (set_regs rs vs g) rs = vs /\ outside rs g (set_regs rs vs g).
Proof.
  assert (Hout : forall rs vs g, outside rs g (set_regs rs vs g)).
  { clear. induction rs as [|r rs IH]; intros [|v vs] g; cbn [set_regs]; try apply outside_refl.
    intros x Hx. rewrite <- (IH vs (set_reg r v g) x) by (intros H; apply Hx; right; exact H).
    symmetry. apply set_reg_other. intros ->. apply Hx. left. reflexivity. }
  induction rs as [|r rs IH]; intros [|v vs] g Hn Hl; cbn in Hl; try discriminate.
  - split; [reflexivity|apply outside_refl].
  - split; [|apply Hout]. inversion Hn as [|? ? Hni Hn']; subst. cbn [set_regs map]. f_equal.
    + rewrite <- (Hout rs vs (set_reg r v g) r Hni). apply set_reg_same.
    + apply IH; [exact Hn'|congruence].
Qed.
Lemma set_regs_vals rs (v : regs) g : NoDup rs -> agree rs (set_regs rs (map v rs) g) v.
Proof.
  intros Hn x Hx. destruct (set_regs_agree rs (map v rs) g Hn (map_length _ _)) as [E _].
  revert x Hx. clear Hn. revert E. generalize (set_regs rs (map v rs) g) as h. intros h.
  induction rs as [|r rs IH]; intros E x Hx; [destruct Hx|]. cbn in E. injection E as E1 E2.
  destruct Hx as [<-|Hx]; [exact E1|]. apply IH; assumption.
Qed.
Lemma outside_set_regs rs vs g : outside rs g (set_regs rs vs g).
Proof.
  revert vs g. induction rs as [|r rs IH]; intros [|v vs] g; cbn [set_regs]; try apply outside_refl.
  intros x Hx. rewrite <- (IH vs (set_reg r v g) x) by (intros H; apply Hx; right; exact H).
  symmetry. apply set_reg_other. intros ->. apply Hx. left. reflexivity.
Qed.

Section Cp.
Variables (Vl Wl Vr Wr : list nat) (lopt ropt : bool) (fuel : nat) (R : list (regs * Z)).
Hypothesis HVl : incl Vl Wl.
Hypothesis HVr : incl Vr Wr.
Hypothesis Hdis : disjoint Wl Wr.
Hypothesis Hnr : NoDup Vr.
Local Notation F := (cp_first fuel Vl Vr lopt ropt).
Local Notation N := (cp_next Vr).
Local Notation V := (Vl ++ Vr).
Local Notation W := (Wl ++ Wr).
Let wl : incl Wl W. Proof. intros x Hx; apply in_or_app; auto. Qed.
Let wr : incl Wr W. Proof. intros x Hx; apply in_or_app; auto. Qed.
Let dVV : disjoint Vr Vl.
Proof. eapply disjoint_incl; [exact HVr|exact HVl|]. apply disjoint_sym, Hdis. Qed.
Definition cp_rows (X : list (regs * Z)) : list (Z * list Z) := map (fun b => (snd b, map (fst b) Vr)) X.
Hypothesis Hpos : Forall (fun b => 0 < snd b) R.
Hypothesis Hne : R <> [].
Local Notation one v c := (fun b : regs * Z => (beside Vl v (fst b), c * snd b)).

Lemma cp_read_ok R' : forall k o c g0 g v buf, (length R' < k)%nat -> agree Vr g v -> agree Wr g g0 ->
  Rows any Vr Wr (o_next o) (fun h => agree Wr h g0) R' ->
  exists g' o', cp_read k Vr o c g buf = Some (g', o', buf ++ cp_rows ((v, c) :: R')) /\ outside Wr g g'.
Proof.
  induction R' as [|[v' c'] R' IH]; intros k o c g0 g v buf Hk Hv Hg HR; (destruct k as [|k]; [cbn in Hk; lia|]);
    cbn [cp_read]; rewrite Rows_Got in HR; specialize (HR g Hg).
  - destruct HR as (g1 & o1 & E & O & _). rewrite E. cbn.
    exists g1, o1. split; [|exact O]. rewrite (map_agree Vr g v Hv). reflexivity.
  - destruct HR as (Hc & g1 & o1 & E & A & O & _ & HR). rewrite E. cbn iota beta zeta.
    destruct (Z.eqb_spec c' 0); [lia|]. cbn in Hk.
    destruct (IH k o1 c' g1 g1 v' (buf ++ [(c, map g Vr)])) as (g' & o' & E2 & O2); auto using agree_refl; [lia|].
    exists g', o'. split; [|eapply outside_trans; eassumption].
    rewrite E2. rewrite <- app_assoc. cbn. rewrite (map_agree Vr g v Hv). reflexivity.
Qed.

(** next, with the left row [v] and the rows [R2] of the buffer to come. *)
Lemma cp_run (ex : bool) : forall L R2 R1 l r lc v g0, R = R1 ++ R2 -> 0 < lc -> agree Vl g0 v ->
  (if ex then L = [] else Rows any Vl Wl (o_next l) (fun h => agree Wl h g0) L) ->
  Rows any V W (o_next (obj F N (mkCp l r lc ex (cp_rows R) (length R1)))) (fun h => agree W h g0)
    (map (one v lc) R2 ++ pairs Vl L (fun _ => R)).
Proof.
  assert (Hlen : length (cp_rows R) = length R) by apply map_length.
  assert (Hstep : forall L R2 R1 l r lc v g0, R = R1 ++ R2 -> 0 < lc -> agree Vl g0 v ->
     (if ex then L = [] else Rows any Vl Wl (o_next l) (fun h => agree Wl h g0) L) ->
     (forall v1 c1 l1 g1 L', L = (v1, c1) :: L' -> 0 < c1 -> agree Vl g1 v1 ->
        Rows any Vl Wl (o_next l1) (fun h => agree Wl h g1) L' -> ex = false ->
        match R with [] => True | b :: R' =>
        Rows any V W (o_next (obj F N (mkCp l1 r c1 ex (cp_rows R) 1))) (fun h => agree W h g1)
            (map (one v1 c1) R' ++ pairs Vl L' (fun _ => R)) end) ->
     Rows any V W (o_next (obj F N (mkCp l r lc ex (cp_rows R) (length R1)))) (fun h => agree W h g0)
       (map (one v lc) R2 ++ pairs Vl L (fun _ => R))).
  { intros L R2. induction R2 as [|[v' c'] R2 IH2]; intros R1 l r lc v g0 ER Hlc Hv HL Hnext;
      apply Rows_Got; intros h Hh; rewrite obj_next; unfold cp_next; cbn [cp_idx cp_buffer cp_exhausted cp_left cp_right cp_leftCount].
    - rewrite app_nil_r in ER. subst R1. rewrite Hlen, Nat.eqb_refl. cbn [map app].
      destruct ex eqn:Eex.
      + subst L. cbn. eexists h, _. split; [reflexivity|]. split; [apply outside_refl|exact Logic.I].
      + apply agree_app in Hh. destruct Hh as [Hh1 Hh2]. rewrite Rows_Got in HL. specialize (HL h Hh1).
        destruct L as [|[v1 c1] L].
        * destruct HL as (g1 & l1 & E & O & _). rewrite E. cbn. eexists g1, _. split; [reflexivity|].
          split; [apply (outside_incl _ _ _ _ wl O)|exact Logic.I].
        * destruct HL as (Hc1 & g1 & l1 & E & A & O & _ & HL). rewrite E. cbn iota beta zeta.
          destruct (Z.eqb_spec c1 0); [lia|].
          assert (Hn := fun g1 A HL => Hnext v1 c1 l1 g1 L eq_refl Hc1 A HL eq_refl).
          unfold pairs. cbn [flat_map fst snd]. fold (pairs Vl L (fun _ => R)).
          destruct R as [|[v2 c2] R'] eqn:ER; [congruence|].
          cbn [cp_rows map nth_error fst snd app Got]. inversion Hpos as [|? ? Hp1 Hp2]; subst. cbn [snd] in Hp1.
          split; [nia|]. eexists _, _. split; [reflexivity|].
          set (g2 := set_regs Vr (map v2 Vr) g1).
          assert (AL : agree Wl g2 g1).
          { apply agree_sym. eapply outside_agree; [exact Hdis|]. eapply outside_incl; [exact HVr|apply outside_set_regs]. }
          assert (AVl : agree Vl g2 v1) by (eapply agree_trans; [eapply agree_incl; eassumption|exact A]).
          split; [apply agree_beside; [exact dVV|exact AVl|apply set_regs_vals, Hnr]|].
          split. { eapply outside_trans; [apply (outside_incl _ _ _ _ wl O)|]. apply (outside_incl _ _ _ _ wr). eapply outside_incl; [exact HVr|apply outside_set_regs]. }
          split; [exact Logic.I|].
          apply Hn; [exact AVl|]. eapply Rows_pre; [|exact HL]. intros k Hk. eapply agree_trans; eassumption.
    - assert (En : (length R1 =? length (cp_rows R))%nat = false).
      { apply Nat.eqb_neq. rewrite Hlen, ER, app_length. cbn. lia. }
      rewrite En.
      assert (Enth : nth_error (cp_rows R) (length R1) = Some (c', map v' Vr)).
      { rewrite ER. unfold cp_rows. rewrite map_app. rewrite nth_error_app2 by (rewrite map_length; lia).
        rewrite map_length, Nat.sub_diag. reflexivity. }
      rewrite Enth. cbn [fst snd map app Got].
      assert (Hc' : 0 < c'). { rewrite ER in Hpos. apply Forall_app in Hpos. destruct Hpos as [_ Hx]. apply Forall_inv in Hx. exact Hx. }
      split; [nia|]. eexists _, _. split; [reflexivity|].
      apply agree_app in Hh. destruct Hh as [Hh1 Hh2].
      set (g2 := set_regs Vr (map v' Vr) h).
      assert (AL : agree Wl g2 g0).
      { eapply agree_trans; [|exact Hh1]. apply agree_sym. eapply outside_agree; [exact Hdis|]. eapply outside_incl; [exact HVr|apply outside_set_regs]. }
      assert (AVl : agree Vl g2 v) by (eapply agree_trans; [eapply agree_incl; eassumption|exact Hv]).
      split; [apply agree_beside; [exact dVV|exact AVl|apply set_regs_vals, Hnr]|].
      split. { apply (outside_incl _ _ _ _ wr). eapply outside_incl; [exact HVr|apply outside_set_regs]. }
      split; [exact Logic.I|].
      replace (S (length R1)) with (length (R1 ++ [(v', c')])) by (rewrite app_length; cbn; lia).
      apply (IH2 (R1 ++ [(v', c')])); auto.
      + rewrite <- app_assoc. exact ER.
      + destruct ex; [exact HL|]. eapply Rows_pre; [|exact HL]. intros k Hk. eapply agree_trans; eassumption. }
  induction L as [|[v1 c1] L IH]; intros R2 R1 l r lc v g0 ER Hlc Hv HL; apply Hstep; auto.
  - intros; discriminate.
  - intros v2 c2 l1 g1 L' E Hc2 A HL' Ex. injection E as <- <- <-.
    destruct R as [|b R'] eqn:ERR; [exact Logic.I|].
    apply (IH R' [b] l1 r c1 v1 g1); auto. rewrite Ex. exact HL'.
Qed.
End Cp.

Definition pad (opt : bool) (L : list (regs * Z)) : list (regs * Z) :=
  match L with [] => if opt then [(fun _ => null64, 1)] else [] | _ => L end.

Lemma Rows_pos I V W call (pre : regs -> Prop) l g : pre g -> Rows I V W call pre l -> Forall (fun b => 0 < snd b) l.
Proof.
  revert call pre g. induction l as [|[v c] l IH]; intros call pre g Hg H; constructor.
  - destruct (H g Hg) as (Hc & _). exact Hc.
  - destruct (H g Hg) as (_ & g' & o' & _ & _ & _ & _ & Hr). eapply (IH _ _ g'); [|exact Hr]. apply agree_refl.
Qed.

Lemma cp_start Vl Wl Vr Wr lopt ropt fuel L R left right :
  incl Vl Wl -> incl Vr Wr -> disjoint Wl Wr -> NoDup Vr -> (length R <= fuel)%nat ->
  (R = [] -> ropt = false) ->
  Answers Vl Wl L left -> Answers Vr Wr R right ->
  Answers (Vl ++ Vr) (Wl ++ Wr) (pairs Vl (pad lopt L) (fun _ => R)) (cart_prod fuel Vl Vr lopt ropt left right).
Proof.
  intros HVl HVr Hdis Hn Hf Hr HL HR.
  assert (Hpos := Rows_pos _ _ _ _ _ _ (fun _ => 0) Logic.I HR).
  unfold Answers in *. rewrite Rows_Got in *. intros g _. specialize (HL g Logic.I).
  unfold cart_prod. rewrite obj_first. unfold cp_first. cbn [cp_left cp_right cp_exhausted cp_buffer cp_idx].
  assert (wl : incl Wl (Wl ++ Wr)) by (intros x Hx; apply in_or_app; auto).
  assert (wr : incl Wr (Wl ++ Wr)) by (intros x Hx; apply in_or_app; auto).
  assert (dVV : disjoint Vr Vl) by (eapply disjoint_incl; [exact HVr|exact HVl|]; apply disjoint_sym, Hdis).
  assert (Main : forall (lc : Z) v L' (ex : bool) l1 g0, 0 < lc -> agree Vl g0 v ->
    (if ex then L' = [] else Rows any Vl Wl (o_next l1) (fun h => agree Wl h g0) L') ->
    Got any (Vl ++ Vr) (Wl ++ Wr) (wrap (cp_first fuel Vl Vr lopt ropt) (cp_next Vr)
      (do (rc, g3, r1) <- o_first right g0;
       if rc =? 0 then
         if ropt then
           let buf := [] ++ [(1, map (fun _ => null64) Vr)] in
           do c0 <- nth_error buf 0; Some (lc * fst c0, g3, mkCp l1 r1 lc ex buf 1)
         else Some (0, g3, mkCp l1 r1 lc ex [] 0)
       else
         do (g4, r2, buf) <- cp_read fuel Vr r1 rc g3 [];
         do c0 <- nth_error buf 0;
         Some (lc * fst c0, set_regs Vr (snd c0) g4, mkCp l1 r2 lc ex buf 1))) g0
      (pairs Vl ((v, lc) :: L') (fun _ => R))).
  { intros lc v L' ex l1 g0 Hlc Hv HL'. specialize (HR g0 Logic.I).
    unfold pairs. cbn [flat_map fst snd]. fold (pairs Vl L' (fun _ => R)).
    destruct R as [|[v2 c2] R'].
    - destruct HR as (g3 & r1 & E & O & _). rewrite E. cbn iota beta. cbn [Z.eqb]. rewrite (Hr eq_refl).
      cbn [map app]. replace (pairs Vl L' (fun _ => [])) with (@nil (regs * Z)).
      2:{ clear. induction L' as [|a L' IH]; [reflexivity|exact IH]. }
      cbn. eexists g3, _. split; [reflexivity|]. split; [apply (outside_incl _ _ _ _ wr O)|exact Logic.I].
    - destruct HR as (Hc & g3 & r1 & E & A & O & _ & HR). rewrite E. cbn iota beta.
      destruct (Z.eqb_spec c2 0); [lia|].
      destruct (cp_read_ok Vr Wr R' fuel r1 c2 g3 g3 v2 []) as (g4 & r2 & E2 & O2); auto using agree_refl.
      rewrite E2. cbn iota beta. cbn [app]. change (nth_error (cp_rows Vr ((v2, c2) :: R')) 0) with (Some (c2, map v2 Vr)).
      cbn iota beta. cbn [fst snd map app wrap Got]. split; [nia|]. eexists _, _. split; [reflexivity|].
      set (g5 := set_regs Vr (map v2 Vr) g4).
      assert (O5 : outside Wr g0 g5).
      { eapply outside_trans; [exact O|]. eapply outside_trans; [exact O2|]. eapply outside_incl; [exact HVr|apply outside_set_regs]. }
      assert (AL : agree Wl g5 g0) by (apply agree_sym; eapply outside_agree; eassumption).
      assert (AV : agree Vl g5 v) by (eapply agree_trans; [eapply agree_incl; eassumption|exact Hv]).
      split; [apply agree_beside; [exact dVV|exact AV|apply set_regs_vals, Hn]|].
      split; [apply (outside_incl _ _ _ _ wr O5)|]. split; [exact Logic.I|].
      apply (cp_run Vl Wl Vr Wr lopt ropt fuel ((v2, c2) :: R') HVl HVr Hdis Hn Hpos ltac:(discriminate) ex L' R' [(v2, c2)]); auto.
      destruct ex; [exact HL'|]. eapply Rows_pre; [|exact HL']. intros k Hk. eapply agree_trans; eassumption. }
  destruct L as [|[v c] L].
  - destruct HL as (g1 & l1 & E & O & _). rewrite E. cbn iota beta zeta. cbn [Z.eqb andb]. destruct lopt; cbn [negb].
    + cbn [pad]. set (g2 := set_all Vl null64 g1).
      apply (Got_outside _ _ _ _ g2).
      { eapply outside_trans; [apply (outside_incl _ _ _ _ wl O)|]. intros x Hx. unfold g2. rewrite set_all_spec.
        destruct (in_dec Nat.eq_dec x Vl) as [Hi|]; [|reflexivity]. exfalso. apply Hx, wl, HVl, Hi. }
      refine (Main 1 (fun _ => null64) [] true l1 g2 ltac:(lia) _ eq_refl).
      intros x Hx. unfold g2. rewrite set_all_spec. destruct (in_dec Nat.eq_dec x Vl); [reflexivity|contradiction].
    + cbn. eexists g1, _. split; [reflexivity|]. split; [apply (outside_incl _ _ _ _ wl O)|exact Logic.I].
  - destruct HL as (Hc & g1 & l1 & E & A & O & _ & HL). rewrite E. cbn iota beta zeta.
    destruct (Z.eqb_spec c 0); [lia|]. cbn [andb pad].
    apply (Got_outside _ _ _ _ g1); [apply (outside_incl _ _ _ _ wl O)|].
    exact (Main c v L false l1 g1 Hc A HL).
Qed.

(** ** Merge union. *)
Lemma occurs_cons V a l t : occurs V (a :: l) t = (if values_dec (map (fst a) V) t then snd a else 0) + occurs V l t.
Proof. reflexivity. Qed.
Lemma occurs_app V l l' t : occurs V (l ++ l') t = occurs V l t + occurs V l' t.
Proof. induction l as [|a l IH]; cbn [app]; [reflexivity|]. rewrite !occurs_cons, IH. lia. Qed.

(** The merge of two lists of values with counts. *)
Fixpoint merge_vals (fuel : nat) (L R : list (Z * Z)) : list (Z * Z) :=
  match fuel with
  | O => []
  | S k =>
      match L, R with
      | [], _ => R
      | _, [] => L
      | (a, c) :: L', (b, d) :: R' =>
          if a <? b then (a, c) :: merge_vals k L' R
          else if b <? a then (b, d) :: merge_vals k L R'
          else (a, c + d) :: merge_vals k L' R'
      end
  end.

Section Mu.
Variables (Vl Wl Vr Wr : list nat) (result lreg rreg : nat).
Hypothesis Hdis : disjoint Wl Wr.
Hypothesis HVl : incl Vl Wl.
Hypothesis HVr : incl Vr Wr.
Hypothesis Hl : In lreg Vl.
Hypothesis Hr : In rreg Vr.
Hypothesis Hresl : ~ In result Wl.
Hypothesis Hresr : ~ In result Wr.
Local Notation F := (mu_first result lreg rreg).
Local Notation N := (mu_next result lreg rreg).
Local Notation W := (result :: Wl ++ Wr).
Local Notation out l := (map (fun p : Z * Z => ((fun _ => fst p) : regs, snd p)) l).
Definition vals (r : nat) (L : list (regs * Z)) : list (Z * Z) := map (fun a => (fst a r, snd a)) L.
Let wl : incl Wl W. Proof. intros x Hx; right; apply in_or_app; auto. Qed.
Let wr : incl Wr W. Proof. intros x Hx; right; apply in_or_app; auto. Qed.

Lemma set_result g v : outside W g (set_reg result v g) /\ agree Wl (set_reg result v g) g /\ agree Wr (set_reg result v g) g
  /\ agree [result] (set_reg result v g) (fun _ => v).
Proof.
  repeat split.
  - intros x Hx. symmetry. apply set_reg_other. intros ->. apply Hx. left. reflexivity.
  - intros x Hx. apply set_reg_other. congruence.
  - intros x Hx. apply set_reg_other. congruence.
  - intros x [<-|[]]. apply set_reg_same.
Qed.

(** One side is empty. *)
Lemma mu_run_r R : forall l r lc rc lv rv g0,
  Rows any Vr Wr (o_next r) (fun h => agree Wr h g0) R ->
  Rows any [result] W (o_next (obj F N (mkMu l r lc rc lv rv mu_leftEmpty))) (fun h => agree W h g0) (out (vals rreg R)).
Proof.
  induction R as [|[v c] R IH]; intros l r lc rc lv rv g0 HR; apply Rows_Got; intros h Hh; rewrite obj_next;
    unfold mu_next; cbn [mu_s mu_right]; rewrite Rows_Got in HR;
    specialize (HR h (agree_incl _ _ _ _ wr Hh)).
  - destruct HR as (g1 & r1 & E & O & _). rewrite E. cbn. eexists g1, _. split; [reflexivity|].
    split; [apply (outside_incl _ _ _ _ wr O)|exact Logic.I].
  - destruct HR as (Hc & g1 & r1 & E & A & O & _ & HR). rewrite E. cbn iota beta.
    destruct (Z.eqb_spec c 0); [lia|]. cbn [vals map Got fst snd]. split; [exact Hc|].
    destruct (set_result g1 (g1 rreg)) as (S1 & S2 & S3 & S4).
    eexists _, _. split; [reflexivity|]. split; [rewrite <- (A rreg Hr); exact S4|].
    split; [eapply outside_trans; [apply (outside_incl _ _ _ _ wr O)|exact S1]|]. split; [exact Logic.I|].
    apply IH. eapply Rows_pre; [|exact HR]. intros k Hk. eapply agree_trans; eassumption.
Qed.
Lemma mu_run_l L : forall l r lc rc lv rv g0,
  Rows any Vl Wl (o_next l) (fun h => agree Wl h g0) L ->
  Rows any [result] W (o_next (obj F N (mkMu l r lc rc lv rv mu_rightEmpty))) (fun h => agree W h g0) (out (vals lreg L)).
Proof.
  induction L as [|[v c] L IH]; intros l r lc rc lv rv g0 HL; apply Rows_Got; intros h Hh; rewrite obj_next;
    unfold mu_next; cbn [mu_s mu_left]; rewrite Rows_Got in HL;
    specialize (HL h (agree_incl _ _ _ _ wl Hh)).
  - destruct HL as (g1 & r1 & E & O & _). rewrite E. cbn. eexists g1, _. split; [reflexivity|].
    split; [apply (outside_incl _ _ _ _ wl O)|exact Logic.I].
  - destruct HL as (Hc & g1 & r1 & E & A & O & _ & HL). rewrite E. cbn iota beta.
    destruct (Z.eqb_spec c 0); [lia|]. cbn [vals map Got fst snd]. split; [exact Hc|].
    destruct (set_result g1 (g1 lreg)) as (S1 & S2 & S3 & S4).
    eexists _, _. split; [reflexivity|]. split; [rewrite <- (A lreg Hl); exact S4|].
    split; [eapply outside_trans; [apply (outside_incl _ _ _ _ wl O)|exact S1]|]. split; [exact Logic.I|].
    apply IH. eapply Rows_pre; [|exact HL]. intros k Hk. eapply agree_trans; eassumption.
Qed.

Lemma merge_vals_nil n L : (length L <= n)%nat -> merge_vals n L [] = L /\ merge_vals n [] L = L.
Proof. destruct n, L as [|[a c] L]; cbn; try lia; auto. Qed.

Lemma merge_vals_S k a c b d L R : merge_vals (S k) ((a, c) :: L) ((b, d) :: R) =
  if a <? b then (a, c) :: merge_vals k L ((b, d) :: R)
  else if b <? a then (b, d) :: merge_vals k ((a, c) :: L) R
  else (a, c + d) :: merge_vals k L R.
Proof. reflexivity. Qed.

(** Both current values at hand, the rows [L] and [R] to come, no value on both sides. *)
Lemma mu_compare_ok : forall n L R l r lc rc lv rv st g, (length L + length R < n)%nat -> 0 < lc -> 0 < rc ->
  (forall x, In x (lv :: map (fun a => fst a lreg) L) -> In x (rv :: map (fun a => fst a rreg) R) -> False) ->
  Rows any Vl Wl (o_next l) (fun h => agree Wl h g) L ->
  Rows any Vr Wr (o_next r) (fun h => agree Wr h g) R ->
  Got any [result] W (wrap F N (mu_compare result (mkMu l r lc rc lv rv st) g)) g
    (out (merge_vals (S n) ((lv, lc) :: vals lreg L) ((rv, rc) :: vals rreg R))).
Proof.
  induction n as [|n IH]; intros L R l r lc rc lv rv st g Hn Hlc Hrc Hno HL HR; [lia|].
  unfold mu_compare. cbn [mu_lv mu_rv mu_lc mu_rc mu_left mu_right].
  rewrite merge_vals_S.
  destruct (Z.ltb_spec lv rv) as [Hlt|Hge]; [|destruct (Z.ltb_spec rv lv) as [Hgt|Hle]].
  - cbn [wrap map fst snd Got]. split; [exact Hlc|]. destruct (set_result g lv) as (S1 & S2 & S3 & S4).
    eexists _, _. split; [reflexivity|]. split; [exact S4|]. split; [exact S1|]. split; [exact Logic.I|].
    apply Rows_Got. intros h Hh. rewrite obj_next. unfold mu_next. cbn [mu_s mu_left mu_right mu_rc mu_rv mu_lv].
    rewrite Rows_Got in HL. specialize (HL h (agree_trans _ _ _ _ (agree_incl _ _ _ _ wl Hh) S2)).
    assert (Hrh : agree Wr h g) by (eapply agree_trans; [exact (agree_incl _ _ _ _ wr Hh)|exact S3]).
    destruct L as [|[v1 c1] L'].
    + destruct HL as (g1 & l1 & E & O & _). rewrite E. cbn iota beta. cbn [Z.eqb]. cbn [vals map].
      fold (vals rreg R).
      rewrite (proj2 (merge_vals_nil (S n) ((rv, rc) :: vals rreg R) ltac:(unfold vals; cbn [length] in *; rewrite map_length; lia))).
      cbn [map Got fst snd wrap]. split; [exact Hrc|].
      destruct (set_result g1 rv) as (T1 & T2 & T3 & T4).
      eexists _, _. split; [reflexivity|]. split; [exact T4|].
      split; [eapply outside_trans; [apply (outside_incl _ _ _ _ wl O)|exact T1]|]. split; [exact Logic.I|].
      apply mu_run_r. eapply Rows_pre; [|exact HR]. intros k Hk.
      eapply agree_trans; [exact Hk|]. eapply agree_trans; [exact T3|].
      eapply agree_trans; [|exact Hrh]. apply agree_sym. eapply outside_agree; [|exact O]. apply disjoint_sym, Hdis.
    + destruct HL as (Hc1 & g1 & l1 & E & A & O & _ & HL). rewrite E. cbn iota beta zeta.
      destruct (Z.eqb_spec c1 0); [lia|]. cbn [length] in Hn.
      apply (Got_outside _ _ _ _ g1); [apply (outside_incl _ _ _ _ wl O)|].
      cbn [vals map fst snd]. fold (vals lreg L'). rewrite <- (A lreg Hl).
      apply (IH L' R l1 r c1 rc (g1 lreg) rv); auto; try lia.
      { intros x Hx. apply Hno. right. cbn [map fst]. rewrite <- (A lreg Hl). exact Hx. }
      eapply Rows_pre; [|exact HR]. intros k Hk. eapply agree_trans; [exact Hk|].
      eapply agree_trans; [|exact Hrh]. apply agree_sym. eapply outside_agree; [|exact O]. apply disjoint_sym, Hdis.
  - cbn [wrap map fst snd Got]. split; [exact Hrc|]. destruct (set_result g rv) as (S1 & S2 & S3 & S4).
    eexists _, _. split; [reflexivity|]. split; [exact S4|]. split; [exact S1|]. split; [exact Logic.I|].
    apply Rows_Got. intros h Hh. rewrite obj_next. unfold mu_next, mu_right_step. cbn [mu_s mu_right mu_left mu_lc mu_lv mu_rv].
    assert (Hlh : agree Wl h g) by (eapply agree_trans; [exact (agree_incl _ _ _ _ wl Hh)|exact S2]).
    rewrite Rows_Got in HR. specialize (HR h (agree_trans _ _ _ _ (agree_incl _ _ _ _ wr Hh) S3)).
    destruct R as [|[v2 c2] R'].
    + destruct HR as (g1 & r1 & E & O & _). rewrite E. cbn iota beta. cbn [Z.eqb]. cbn [vals map].
      fold (vals lreg L).
      rewrite (proj1 (merge_vals_nil (S n) ((lv, lc) :: vals lreg L) ltac:(unfold vals; cbn [length] in *; rewrite map_length; lia))).
      cbn [map Got fst snd wrap]. split; [exact Hlc|].
      destruct (set_result g1 lv) as (T1 & T2 & T3 & T4).
      eexists _, _. split; [reflexivity|]. split; [exact T4|].
      split; [eapply outside_trans; [apply (outside_incl _ _ _ _ wr O)|exact T1]|]. split; [exact Logic.I|].
      apply mu_run_l. eapply Rows_pre; [|exact HL]. intros k Hk.
      eapply agree_trans; [exact Hk|]. eapply agree_trans; [exact T2|].
      eapply agree_trans; [|exact Hlh]. apply agree_sym. eapply outside_agree; [exact Hdis|exact O].
    + destruct HR as (Hc1 & g1 & r1 & E & A & O & _ & HR). rewrite E. cbn iota beta zeta.
      destruct (Z.eqb_spec c2 0); [lia|]. cbn [length] in Hn.
      apply (Got_outside _ _ _ _ g1); [apply (outside_incl _ _ _ _ wr O)|].
      cbn [vals map fst snd]. fold (vals rreg R'). rewrite <- (A rreg Hr).
      apply (IH L R' l r1 lc c2 lv (g1 rreg)); auto; try lia.
      { intros x Hx Hx2. apply (Hno x Hx). right. cbn [map fst]. rewrite <- (A rreg Hr). exact Hx2. }
      eapply Rows_pre; [|exact HL]. intros k Hk. eapply agree_trans; [exact Hk|].
      eapply agree_trans; [|exact Hlh]. apply agree_sym. eapply outside_agree; [exact Hdis|exact O].
  - exfalso. apply (Hno lv); left; [reflexivity|lia].
Qed.

Lemma mu_start L R left right :
  (forall x, In x (map (fun a => fst a lreg) L) -> In x (map (fun a => fst a rreg) R) -> False) ->
  Answers Vl Wl L left -> Answers Vr Wr R right ->
  Answers [result] W (out (merge_vals (S (length L + length R)) (vals lreg L) (vals rreg R)))
    (merge_union result lreg rreg left right).
Proof.
  unfold Answers. rewrite !Rows_Got. intros Hno HL HR g _. specialize (HL g Logic.I).
  unfold merge_union. rewrite obj_first. unfold mu_first. cbn [mu_left mu_right mu_lv mu_rv mu_s].
  destruct L as [|[v1 c1] L'].
  - destruct HL as (g1 & l1 & E & O & _). rewrite E. cbn iota beta. cbn [Z.eqb]. cbn [vals map].
    fold (vals rreg R). cbn [length]. rewrite (proj2 (merge_vals_nil (S (0 + length R)) (vals rreg R) ltac:(unfold vals; rewrite map_length; lia))).
    specialize (HR g1 Logic.I). destruct R as [|[v2 c2] R'].
    + destruct HR as (g2 & r1 & E2 & O2 & _). rewrite E2. cbn. eexists _, _. split; [reflexivity|].
      split; [|exact Logic.I]. eapply outside_trans; [apply (outside_incl _ _ _ _ wl O)|apply (outside_incl _ _ _ _ wr O2)].
    + destruct HR as (Hc & g2 & r1 & E2 & A & O2 & _ & HR). rewrite E2. cbn iota beta.
      destruct (Z.eqb_spec c2 0); [lia|]. cbn [vals map Got fst snd wrap]. split; [exact Hc|].
      destruct (set_result g2 (g2 rreg)) as (S1 & S2 & S3 & S4).
      eexists _, _. split; [reflexivity|]. split; [rewrite <- (A rreg Hr); exact S4|].
      split. { eapply outside_trans; [apply (outside_incl _ _ _ _ wl O)|]. eapply outside_trans; [apply (outside_incl _ _ _ _ wr O2)|exact S1]. }
      split; [exact Logic.I|]. apply mu_run_r. eapply Rows_pre; [|exact HR]. intros k Hk.
      eapply agree_trans; [exact Hk|exact S3].
  - destruct HL as (Hc1 & g1 & l1 & E & A & O & _ & HL). rewrite E. cbn iota beta zeta.
    destruct (Z.eqb_spec c1 0); [lia|].
    specialize (HR g1 Logic.I). destruct R as [|[v2 c2] R'].
    + destruct HR as (g2 & r1 & E2 & O2 & _). rewrite E2. cbn iota beta. cbn [Z.eqb].
      assert (A2 : agree Wl g2 g1) by (apply agree_sym; eapply outside_agree; [exact Hdis|exact O2]).
      replace (vals rreg []) with (@nil (Z * Z)) by reflexivity.
      match goal with |- context [merge_vals ?n ?a ?b] => replace (merge_vals n a b) with a by (symmetry; exact (proj1 (merge_vals_nil n a ltac:(unfold vals; rewrite map_length; lia)))) end.
      cbn [vals map Got fst snd wrap]. split; [exact Hc1|].
      destruct (set_result g2 (g2 lreg)) as (S1 & S2 & S3 & S4).
      eexists _, _. split; [reflexivity|]. split; [rewrite <- (A lreg Hl), <- (A2 lreg (HVl _ Hl)); exact S4|].
      split. { eapply outside_trans; [apply (outside_incl _ _ _ _ wl O)|]. eapply outside_trans; [apply (outside_incl _ _ _ _ wr O2)|exact S1]. }
      split; [exact Logic.I|]. apply mu_run_l. eapply Rows_pre; [|exact HL]. intros k Hk.
      eapply agree_trans; [exact Hk|]. eapply agree_trans; [exact S2|exact A2].
    + destruct HR as (Hc2 & g2 & r1 & E2 & A2 & O2 & _ & HR). rewrite E2. cbn iota beta.
      destruct (Z.eqb_spec c2 0); [lia|].
      apply (Got_outside _ _ _ _ g2).
      { eapply outside_trans; [apply (outside_incl _ _ _ _ wl O)|apply (outside_incl _ _ _ _ wr O2)]. }
      cbn [vals map fst snd]. fold (vals lreg L') (vals rreg R'). rewrite <- (A lreg Hl), <- (A2 rreg Hr).
      apply (mu_compare_ok _ L' R'); auto; try (cbn [length]; lia).
      * intros x Hx Hx2. apply (Hno x); cbn [map fst]; rewrite <- ?(A lreg Hl), <- ?(A2 rreg Hr); assumption.
      * eapply Rows_pre; [|exact HL]. intros k Hk. eapply agree_trans; [exact Hk|].
        apply agree_sym. eapply outside_agree; [exact Hdis|exact O2].
Qed.
End Mu.

Lemma merge_vals_perm n : forall L R, (length L + length R < n)%nat ->
  (forall x, In x (map fst L) -> In x (map fst R) -> False) -> Permutation (merge_vals n L R) (L ++ R).
Proof.
  induction n as [|n IH]; intros L R Hn Hno; [lia|]. destruct L as [|[a c] L]; [reflexivity|].
  destruct R as [|[b d] R]; [cbn; rewrite app_nil_r; reflexivity|]. rewrite merge_vals_S. cbn [length] in Hn.
  destruct (Z.ltb_spec a b); [|destruct (Z.ltb_spec b a)].
  - cbn [app]. constructor. apply IH; [cbn [length]; lia|]. intros x Hx. apply Hno. right. exact Hx.
  - etransitivity; [|apply Permutation_middle]. constructor. apply IH; [cbn [length]; lia|]. intros x Hx Hx2. apply (Hno x Hx). right. exact Hx2.
  - exfalso. apply (Hno a); left; [reflexivity|cbn; lia].
Qed.
Lemma merge_vals_sorted n : forall L R lo, (length L + length R < n)%nat ->
  Sorted Z.le (lo :: map fst L) -> Sorted Z.le (lo :: map fst R) -> Sorted Z.le (lo :: map fst (merge_vals n L R)).
Proof.
  induction n as [|n IH]; intros L R lo Hn HL HR; [lia|]. destruct L as [|[a c] L]; [exact HR|].
  destruct R as [|[b d] R]; [exact HL|]. rewrite merge_vals_S. cbn [length map fst] in *.
  inversion HL as [|x l SL HdL]; subst. inversion HR as [|x l SR HdR]; subst. inversion HdL; subst. inversion HdR; subst.
  destruct (Z.ltb_spec a b); [|destruct (Z.ltb_spec b a)]; cbn [map fst].
  - constructor; [|constructor; lia]. apply IH; [cbn [length]; lia|exact SL|]. constructor; [exact SR|constructor; cbn; lia].
  - constructor; [|constructor; lia]. apply IH; [cbn [length]; lia| |exact SR]. constructor; [exact SL|constructor; cbn; lia].
  - assert (a = b) by lia. subst. constructor; [|constructor; lia]. apply IH; [lia|exact SL|exact SR].
Qed.
