(** Proofs about the operators: minus, union, product, limits. *)
From Verif Require Export OpProofs.
Local Open Scope Z_scope.

Lemma row_eqb_eq a : forall b, row_eqb a b = true <-> a = b.
Proof.
  induction a as [|x a IH]; intros [|y b]; cbn; try (split; congruence).
  rewrite andb_true_iff, Z.eqb_eq, IH. split; [intros [-> ->]; reflexivity|intros [=]; auto].
Qed.
Lemma row_in_In r rows : row_in r rows = true <-> In r rows.
Proof.
  unfold row_in. rewrite existsb_exists. split.
  - intros (x & Hx & E). apply row_eqb_eq in E. subst. exact Hx.
  - intros H. exists r. split; [exact H|]. apply row_eqb_eq. reflexivity.
Qed.
Lemma map_agree X (a b : regs) : agree X a b -> map a X = map b X.
Proof. intros H. apply map_ext_in. exact H. Qed.
Lemma map_agree_incl X Y (a b : regs) : incl Y X -> agree X a b -> map a Y = map b Y.
Proof. intros Hi H. apply map_agree. eapply agree_incl; eassumption. Qed.

Lemma Got_cases I V W r g l : Got I V W r g l ->
  (l = [] /\ exists g' o', r = Some (0, g', o') /\ outside W g g' /\ I o') \/
  (exists v c l', l = (v, c) :: l' /\ 0 < c /\ exists g' o', r = Some (c, g', o') /\ agree V g' v /\
     outside W g g' /\ I o' /\ Rows I V W (o_next o') (fun h => agree W h g') l').
Proof. destruct l as [|[v c] l]; cbn; intros H; [left; auto|right]. exists v, c, l. auto. Qed.

(** ** Minus. *)
Section Minus.
Variables (Im : oper -> Prop) (V W Vn Wn : list nat) (chk : list (nat * nat)) (fuel : nat)
  (n0 : oper) (M : list (regs * Z)).
Hypothesis Hdis : disjoint W Wn.
Hypothesis HV : incl V W.
Hypothesis HVn : incl Vn Wn.
Hypothesis H1 : incl (map fst chk) V.
Hypothesis H2 : incl (map snd chk) Vn.
Hypothesis Hchk : chk <> [] \/ M = [].
Hypothesis HfM : (length M <= fuel)%nat.
Hypothesis Hn0 : Answers Vn Wn M n0.
Local Notation F := (mi_first fuel chk).
Local Notation N := (mi_next fuel chk).
Definition mi_vals : list (list Z) := map (fun b => map (fst b) (map snd chk)) M.
Definition mi_ready (s : mi_st) : Prop :=
  (mi_loaded s = true /\ forall t, In t (mi_rows s) <-> In t mi_vals).
Definition mi_ok (o : oper) : Prop :=
  exists s, o = obj F N s /\ Im (mi_main s) /\
  (mi_ready s \/ (mi_loaded s = false /\ mi_rows s = [] /\ mi_minus s = n0)).
Local Notation P := (fun a : regs * Z => negb (row_in (map (fst a) (map fst chk)) mi_vals)).

Lemma mi_load_ok M' : forall k m g0 g v rows, (length M' < k)%nat -> chk <> [] ->
  agree Vn g v -> agree Wn g g0 ->
  Rows any Vn Wn (o_next m) (fun h => agree Wn h g0) M' ->
  exists g' m' rows', mi_load k chk m g rows = Some (g', m', rows') /\ outside Wn g g' /\
    forall t, In t rows' <-> In t rows \/ t = map v (map snd chk) \/
      In t (map (fun b => map (fst b) (map snd chk)) M').
Proof.
  induction M' as [|[v' c'] M' IH]; intros k m g0 g v rows Hk Hc Hv Hg HM; (destruct k as [|k]; [cbn in Hk; lia|]).
  all: assert (Er : map (fun p : nat * nat => g (snd p)) chk = map v (map snd chk))
      by (rewrite <- map_map; apply map_agree; eapply agree_incl; eassumption).
  all: assert (Hrows : exists rows1, (if row_in (map (fun p : nat * nat => g (snd p)) chk) rows then Some rows
           else if (length (map (fun p : nat * nat => g (snd p)) chk) =? 0)%nat then None
           else Some (rows ++ [map (fun p : nat * nat => g (snd p)) chk])) = Some rows1 /\
           forall t, In t rows1 <-> In t rows \/ t = map v (map snd chk)).
  1,3: rewrite Er; destruct (row_in (map v (map snd chk)) rows) eqn:Ei;
    [exists rows; split; [reflexivity|]; apply row_in_In in Ei; intros t; split; [tauto|]; intros [Ht| -> ]; assumption
    |rewrite !map_length; destruct (Nat.eqb_spec (length chk) 0) as [E0|E0];
     [destruct chk; [congruence|discriminate]|];
     eexists; split; [reflexivity|]; intros t; rewrite in_app_iff; cbn; intuition].
  all: destruct Hrows as (rows1 & E1 & Hrows1); cbn [mi_load]; rewrite E1; cbn iota beta;
    rewrite Rows_Got in HM; specialize (HM g Hg).
  - destruct HM as (g1 & m1 & E & O & _). rewrite E. cbn.
    exists g1, m1, rows1. split; [reflexivity|]. split; [exact O|].
    intros t. rewrite Hrows1. tauto.
  - destruct HM as (Hc' & g1 & m1 & E & A & O & _ & HM). rewrite E. cbn iota beta.
    destruct (Z.eqb_spec c' 0); [lia|].
    destruct (IH k m1 g1 g1 v' rows1) as (g' & m' & rows' & E2 & O2 & Hr); auto using agree_refl.
    { cbn in Hk. lia. }
    exists g', m', rows'. split; [exact E2|]. split; [eapply outside_trans; eassumption|].
    intros t. rewrite Hr, Hrows1. cbn [map In fst]. intuition.
Qed.

Let w1 : incl W (W ++ Wn). Proof. intros x Hx; apply in_or_app; auto. Qed.
Let w2 : incl Wn (W ++ Wn). Proof. intros x Hx; apply in_or_app; auto. Qed.

Lemma mi_check s g v : mi_ready s -> agree V g v ->
  row_in (map (fun p : nat * nat => g (fst p)) chk) (mi_rows s)
  = row_in (map v (map fst chk)) mi_vals.
Proof.
  intros [_ Hs] Hv. rewrite <- (map_map fst g). rewrite (map_agree_incl V (map fst chk) g v) by assumption.
  apply eq_true_iff_eq. rewrite !row_in_In. apply Hs.
Qed.

(** The loop on the current row [v], with the rows [L] to come. *)
Lemma mi_loop_ok L : (length L < fuel)%nat -> forall k s c v g0 g, (length L < k)%nat ->
  mi_ready s -> Im (mi_main s) -> 0 < c -> agree V g v -> agree W g g0 ->
  Rows Im V W (o_next (mi_main s)) (fun h => agree W h g0) L ->
  Got mi_ok V (W ++ Wn) (wrap F N (mi_loop k chk s c g)) g (filter P ((v, c) :: L)).
Proof.
  induction L as [|[v' c'] L IH]; intros Hf k s c v g0 g Hk Hs HI Hc Hv Hg HL; (destruct k as [|k]; [cbn in Hk; lia|]);
    cbn [mi_loop]; rewrite (mi_check s g v Hs Hv); cbn [filter fst];
    destruct (row_in (map v (map fst chk)) mi_vals) eqn:Ei; cbn [negb].
  - rewrite Rows_Got in HL. destruct (HL g Hg) as (g1 & m1 & E & O & I1). rewrite E. cbn.
    eexists g1, _. split; [reflexivity|]. split; [apply (outside_incl _ _ _ _ w1 O)|].
    eexists; split; [reflexivity|]. split; [exact I1|]. left. exact Hs.
  - cbn [wrap Got]. split; [exact Hc|]. eexists g, _. split; [reflexivity|]. split; [exact Hv|].
    split; [apply outside_refl|]. split; [eexists; split; [reflexivity|]; split; [exact HI|left; exact Hs]|].
    apply Rows_Got. intros h Hh. apply agree_app in Hh. destruct Hh as [Hh _].
    rewrite obj_next. unfold mi_next. rewrite Rows_Got in HL.
    destruct (HL h (agree_trans _ _ _ _ Hh Hg)) as (g1 & m1 & E & O & I1). rewrite E. cbn.
    eexists g1, _. split; [reflexivity|]. split; [apply (outside_incl _ _ _ _ w1 O)|].
    eexists; split; [reflexivity|]. split; [exact I1|]. left. exact Hs.
  - rewrite Rows_Got in HL. destruct (HL g Hg) as (Hc' & g1 & m1 & E & A & O & I1 & HL1). rewrite E. cbn iota beta.
    destruct (Z.eqb_spec c' 0); [lia|]. apply (Got_outside _ _ _ _ g1); [apply (outside_incl _ _ _ _ w1 O)|].
    cbn in Hf, Hk.
    apply (IH ltac:(lia) k _ c' v' g1 g1); cbn [mi_main]; auto using agree_refl; try lia.
  - cbn [wrap Got]. split; [exact Hc|]. eexists g, _. split; [reflexivity|]. split; [exact Hv|].
    split; [apply outside_refl|]. split; [eexists; split; [reflexivity|]; split; [exact HI|left; exact Hs]|].
    apply Rows_Got. intros h Hh. apply agree_app in Hh. destruct Hh as [Hh _].
    rewrite obj_next. unfold mi_next. rewrite Rows_Got in HL.
    destruct (HL h (agree_trans _ _ _ _ Hh Hg)) as (Hc' & g1 & m1 & E & A & O & I1 & HL1). rewrite E. cbn iota beta.
    destruct (Z.eqb_spec c' 0); [lia|]. apply (Got_outside _ _ _ _ g1); [apply (outside_incl _ _ _ _ w1 O)|].
    cbn in Hf.
    apply (IH ltac:(lia) fuel _ c' v' g1 g1); cbn [mi_main]; auto using agree_refl; try lia.
Qed.

Lemma mi_start (pre : regs -> Prop) L s : (length L < fuel)%nat -> Im (mi_main s) ->
  (mi_ready s \/ (mi_loaded s = false /\ mi_rows s = [] /\ mi_minus s = n0)) ->
  Rows Im V W (o_first (mi_main s)) pre L ->
  Rows mi_ok V (W ++ Wn) (o_first (obj F N s)) pre (filter P L).
Proof.
  intros Hf HI Hs HL. rewrite Rows_Got in *. intros g Hg. specialize (HL g Hg). rewrite obj_first. unfold mi_first.
  destruct L as [|[v c] L].
  - destruct HL as (g1 & m1 & E & O & I1). rewrite E. cbn.
    eexists g1, _. split; [reflexivity|]. split; [apply (outside_incl _ _ _ _ w1 O)|].
    eexists; split; [reflexivity|]. split; [exact I1|]. destruct Hs as [Hs|(Ha & Hb & Hc)]; [left; exact Hs|right]. auto.
  - destruct HL as (Hc & g1 & m1 & E & A & O & I1 & HL). rewrite E. cbn iota beta.
    destruct (Z.eqb_spec c 0); [lia|].
    apply (Got_outside _ _ _ _ g1); [apply (outside_incl _ _ _ _ w1 O)|]. cbn in Hf.
    destruct Hs as [Hs|(Ha & Hb & Hn)].
    + assert (Hl := proj1 Hs). rewrite Hl.
      apply (mi_loop_ok L ltac:(lia) fuel _ c v g1 g1); cbn [mi_main]; auto using agree_refl; try lia.
      destruct Hs as [_ Hs]. split; [reflexivity|exact Hs].
    + rewrite Ha, Hb, Hn. assert (HM := Hn0). unfold Answers in HM. rewrite Rows_Got in HM. specialize (HM g1 Logic.I).
      apply Got_cases in HM. destruct HM as [(EM & HM) | (v' & c' & M' & EM & HM)].
      * destruct HM as (g2 & n1 & E2 & O2 & _). rewrite E2. cbn iota beta. cbn [Z.eqb].
        apply (Got_outside _ _ _ _ g2); [apply (outside_incl _ _ _ _ w2 O2)|].
        assert (AW : agree W g2 g1) by (apply agree_sym; eapply outside_agree; eassumption).
        apply (mi_loop_ok L ltac:(lia) fuel _ c v g1 g2); cbn [mi_main]; auto; try lia.
        -- split; [reflexivity|]. unfold mi_vals. rewrite EM. cbn. tauto.
        -- eapply agree_trans; [eapply agree_incl; eassumption|exact A].
      * destruct HM as (Hc' & g2 & n1 & E2 & A2 & O2 & _ & HM). rewrite E2. cbn iota beta.
        destruct (Z.eqb_spec c' 0); [lia|].
        destruct (mi_load_ok M' fuel n1 g2 g2 v' []) as (g3 & nn & rows & E3 & O3 & Hr); auto using agree_refl.
        { rewrite EM in HfM. cbn in HfM. lia. }
        { destruct Hchk as [Hx|Hx]; [exact Hx|congruence]. }
        rewrite E3. cbn iota beta.
        apply (Got_outside _ _ _ _ g3).
        { apply (outside_incl _ _ _ _ w2). eapply outside_trans; eassumption. }
        assert (AW : agree W g3 g1).
        { apply agree_sym. eapply outside_agree; [exact Hdis|]. eapply outside_trans; eassumption. }
        apply (mi_loop_ok L ltac:(lia) fuel _ c v g1 g3); cbn [mi_main]; auto; try lia.
        -- split; [reflexivity|]. intros t. unfold mi_vals. rewrite EM. cbn [mi_rows]. rewrite Hr. cbn [map In fst]. intuition.
        -- eapply agree_trans; [eapply agree_incl; eassumption|exact A].
Qed.
End Minus.

(** ** DuplLimit. *)
Definition copies (dup : bool) (L : list (regs * Z)) : list (regs * Z) :=
  flat_map (fun a => repeat (fst a, 1) (if dup then Z.to_nat (snd a) else 1%nat)) L.

Section Dl.
Variables (V W : list nat) (dup : bool) (limit : Z) (offset : nat).
Hypothesis HV : incl V W.
Local Notation F := (dl_first dup limit offset).
Local Notation N := (dl_next dup limit).
Definition dl_inv (s : dl_st) (g0 : regs) (R : list (regs * Z)) : Prop :=
  exists v L, agree V g0 v /\ 1 <= dl_current s <= dl_entry s /\
    Rows any V W (o_next (dl_input s)) (fun h => agree W h g0) L /\
    R = repeat (v, 1) (if dup then Z.to_nat (dl_entry s - dl_current s) else 0%nat) ++ copies dup L.

Lemma dl_step s g0 R h : dl_inv s g0 R -> agree W h g0 -> dl_observed s < limit ->
  match R with
  | [] => exists g' s', dl_next dup limit s h = Some (0, g', s') /\ outside W h g'
  | (v, _) :: R' => exists g' s', dl_next dup limit s h = Some (1, g', s') /\ agree V g' v /\
      outside W h g' /\ dl_inv s' g' R' /\ dl_observed s' = dl_observed s + 1
  end.
Proof.
  intros (v & L & Hv & Hc & HL & ->) Hh Ho. unfold dl_next.
  destruct (Z.ltb_spec (dl_observed s) limit); [|lia].
  destruct (Z.ltb_spec (dl_current s) (dl_entry s)) as [Hlt|Hge]; cbn [andb].
  - destruct dup eqn:Ed.
    + assert (En : Z.to_nat (dl_entry s - dl_current s) = S (Z.to_nat (dl_entry s - (dl_current s + 1)))) by lia.
      rewrite En. cbn [repeat app]. eexists h, _. split; [reflexivity|].
      split; [eapply agree_trans; [eapply agree_incl; eassumption|exact Hv]|].
      split; [apply outside_refl|]. cbn [dl_observed]. split; [|reflexivity].
      exists v, L. cbn [dl_current dl_entry dl_input]. rewrite Ed.
      split; [eapply agree_trans; [eapply agree_incl; eassumption|exact Hv]|].
      split; [lia|]. split; [|reflexivity].
      eapply Rows_pre; [|exact HL]. intros k Hk. eapply agree_trans; eassumption.
    + cbn [repeat app]. rewrite Rows_Got in HL. specialize (HL h Hh). destruct L as [|[v1 c1] L]; cbn [copies flat_map fst snd repeat app].
      * destruct HL as (g1 & i1 & E & O & _). rewrite E. cbn. eexists _, _. split; [reflexivity|exact O].
      * destruct HL as (Hc1 & g1 & i1 & E & A & O & _ & HL). rewrite E. cbn iota beta.
        destruct (Z.eqb_spec c1 0); [lia|]. cbn [negb]. eexists g1, _. split; [reflexivity|].
        split; [exact A|]. split; [exact O|]. cbn [dl_observed]. split; [|reflexivity].
        exists v1, L. cbn [dl_current dl_entry dl_input]. rewrite Ed. split; [exact A|]. split; [lia|]. split; [exact HL|reflexivity].
  - assert (E0 : (if dup then Z.to_nat (dl_entry s - dl_current s) else 0%nat) = 0%nat) by (destruct dup; lia).
    rewrite E0. cbn [repeat app]. rewrite Rows_Got in HL. specialize (HL h Hh). destruct L as [|[v1 c1] L]; cbn [copies flat_map fst snd].
    + destruct HL as (g1 & i1 & E & O & _). rewrite E. cbn. eexists _, _. split; [reflexivity|exact O].
    + destruct HL as (Hc1 & g1 & i1 & E & A & O & _ & HL). rewrite E. cbn iota beta.
      destruct (Z.eqb_spec c1 0); [lia|]. cbn [negb].
      assert (En : (if dup then Z.to_nat c1 else 1%nat) = S (if dup then Z.to_nat (c1 - 1) else 0%nat)) by (destruct dup; lia).
      rewrite En. cbn [repeat app]. eexists g1, _. split; [reflexivity|].
      split; [exact A|]. split; [exact O|]. cbn [dl_observed]. split; [|reflexivity].
      exists v1, L. cbn [dl_current dl_entry dl_input]. split; [exact A|]. split; [lia|]. split; [exact HL|reflexivity].
Qed.

Lemma copies_1 L : Forall (fun a => snd a = 1) (copies dup L).
Proof.
  unfold copies. apply Forall_flat_map. apply Forall_forall. intros a _. apply Forall_forall.
  intros b Hb. apply repeat_spec in Hb. subst. reflexivity.
Qed.

Lemma dl_inv_1 s g0 R : dl_inv s g0 R -> Forall (fun a => snd a = 1) R.
Proof.
  intros (v & L & _ & _ & _ & ->). apply Forall_app. split; [|apply copies_1].
  apply Forall_forall. intros b Hb. apply repeat_spec in Hb. subst. reflexivity.
Qed.

Lemma dl_run R : forall s g0, dl_inv s g0 R ->
  Rows any V W (o_next (obj F N s)) (fun h => agree W h g0) (firstn (Z.to_nat (limit - dl_observed s)) R).
Proof.
  induction R as [|[v c] R IH]; intros s g0 Hi; apply Rows_Got; intros h Hh; rewrite obj_next;
    destruct (Z.ltb_spec (dl_observed s) limit) as [Ho|Ho].
  - rewrite firstn_nil. destruct (dl_step s g0 [] h Hi Hh Ho) as (g' & s' & E & O). rewrite E. cbn.
    eexists g', _. split; [reflexivity|]. split; [exact O|exact Logic.I].
  - rewrite firstn_nil. unfold dl_next. destruct (Z.ltb_spec (dl_observed s) limit); [lia|]. cbn.
    eexists h, _. split; [reflexivity|]. split; [apply outside_refl|exact Logic.I].
  - assert (En : Z.to_nat (limit - dl_observed s) = S (Z.to_nat (limit - (dl_observed s + 1)))) by lia.
    rewrite En. cbn [firstn].
    destruct (dl_step s g0 ((v, c) :: R) h Hi Hh Ho) as (g' & s' & E & A & O & Hi' & Eo). rewrite E.
    apply dl_inv_1 in Hi. apply Forall_inv in Hi. cbn [snd] in Hi. subst c. cbn [Got].
    split; [lia|]. eexists g', _. split; [reflexivity|]. split; [exact A|]. split; [exact O|]. split; [exact Logic.I|].
    rewrite <- Eo. apply IH, Hi'.
  - replace (Z.to_nat (limit - dl_observed s)) with 0%nat by lia. cbn [firstn].
    unfold dl_next. destruct (Z.ltb_spec (dl_observed s) limit); [lia|]. cbn.
    eexists h, _. split; [reflexivity|]. split; [apply outside_refl|exact Logic.I].
Qed.

Lemma dl_skip_ok o : forall R v s g, dl_inv s g R -> agree V g v -> dl_observed s = 0 -> 0 < limit ->
  Got any V W (wrap F N (dl_skip o dup limit s g)) g (firstn (Z.to_nat limit) (skipn o ((v, 1) :: R))).
Proof.
  induction o as [|o IH]; intros R v s g Hi Hv Ho Hl; cbn [dl_skip skipn].
  - assert (En : Z.to_nat limit = S (Z.to_nat (limit - 1))) by lia. rewrite En. cbn [firstn wrap Got].
    split; [lia|]. eexists g, _. split; [reflexivity|]. split; [exact Hv|]. split; [apply outside_refl|].
    split; [exact Logic.I|]. replace (limit - 1) with (limit - (dl_observed s + 1)) by lia.
    apply (dl_run R (mkDl (dl_input s) (dl_observed s + 1) (dl_entry s) (dl_current s)) g).
    destruct Hi as (v1 & L & H1 & H2 & H3 & H4). exists v1, L. auto.
  - assert (Hlt : dl_observed s < limit) by lia.
    assert (HS := dl_step s g R g Hi (agree_refl W g) Hlt). destruct R as [|[v1 c1] R].
    + destruct HS as (g' & s' & E & O). rewrite E. cbn iota beta. cbn [Z.eqb wrap].
      rewrite skipn_nil, firstn_nil. cbn. eexists g', _. split; [reflexivity|]. split; [exact O|exact Logic.I].
    + destruct HS as (g' & s' & E & A & O & Hi' & Eo). rewrite E. cbn iota beta. cbn [Z.eqb].
      apply (Got_outside _ _ _ _ g' _ _ O). apply dl_inv_1 in Hi. apply Forall_inv in Hi. cbn [snd] in Hi. subst c1.
      apply IH; auto. cbn [dl_observed]; lia.
Qed.

Lemma dl_start L i : Answers V W L i -> 0 <= limit ->
  Answers V W (firstn (Z.to_nat limit) (skipn offset (copies dup L))) (dupl_limit dup limit offset i).
Proof.
  intros HL Hl. unfold Answers, dupl_limit in *. rewrite Rows_Got in *. intros g _. specialize (HL g Logic.I).
  rewrite obj_first. unfold dl_first. cbn [dl_observed dl_input dl_current].
  destruct (Z.ltb_spec 0 limit) as [Hlt|Hge].
  - destruct L as [|[v c] L].
    + destruct HL as (g1 & i1 & E & O & _). rewrite E. cbn. rewrite skipn_nil, firstn_nil.
      eexists g1, _. split; [reflexivity|]. split; [exact O|exact Logic.I].
    + destruct HL as (Hc & g1 & i1 & E & A & O & _ & HL). rewrite E. cbn iota beta.
      destruct (Z.eqb_spec c 0); [lia|]. cbn [negb]. apply (Got_outside _ _ _ _ g1 _ _ O).
      unfold copies. cbn [flat_map fst snd].
      assert (En : (if dup then Z.to_nat c else 1%nat) = S (if dup then Z.to_nat (c - 1) else 0%nat)) by (destruct dup; lia).
      rewrite En. cbn [repeat app].
      apply (dl_skip_ok offset _ v (mkDl i1 0 c (0 + 1)) g1); auto.
      exists v, L. cbn [dl_current dl_entry dl_input]. split; [exact A|]. split; [lia|]. split; [exact HL|reflexivity].
  - replace (Z.to_nat limit) with 0%nat by lia. cbn. eexists g, _. split; [reflexivity|].
    split; [apply outside_refl|exact Logic.I].
Qed.
End Dl.
