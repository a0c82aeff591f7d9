(** Proofs about the hash join: building the table and looking up the right rows. *)
From Verif Require Export OpHashProofs.
Local Open Scope Z_scope.

Section Hj.
Variables (Ir : oper -> Prop) (Vl Wl Vr Wr D : list nat) (f : regs -> list (regs * Z)).
Variables (fuel : nat) (mem : Z) (qualify : regs -> bool) (lv rv : nat) (ltail rtail : list nat) (lopt : bool).
Hypothesis HVl : incl Vl Wl.
Hypothesis HVr : incl Vr Wr.
Hypothesis Hdis : disjoint Wl Wr.
Hypothesis HD : disjoint D Wl.
Hypothesis Hlv : incl (lv :: ltail) Vl.
Hypothesis Hnd : NoDup (lv :: ltail).
Hypothesis Hrv : In rv Vr.
Hypothesis Hq : forall g g', agree (lv :: ltail) g g' -> qualify g = qualify g'.
Hypothesis HfR : forall v, (length (f v) < fuel)%nat.

Local Notation first := (hj_first fuel mem qualify lv rv ltail rtail lopt false).
Local Notation next := (hj_next fuel lv rv ltail rtail lopt false).
Definition hj_X : list nat := if lopt then ltail else lv :: ltail.
Local Notation V := (hj_X ++ Vr).
Local Notation W := (Wl ++ Wr).
Let wl : incl Wl W. Proof. intros x Hx; apply in_or_app; auto. Qed.
Let wr : incl Wr W. Proof. intros x Hx; apply in_or_app; auto. Qed.
Local Ltac out := first [apply (outside_incl _ _ _ _ wl); assumption | apply (outside_incl _ _ _ _ wr); assumption].
Lemma X_sub : incl hj_X (lv :: ltail).
Proof. unfold hj_X. destruct lopt; [apply incl_tl|]; apply incl_refl. Qed.
Lemma X_wl : incl (lv :: ltail) Wl.
Proof. eapply incl_tran; eassumption. Qed.
Lemma Vr_X : disjoint Vr (lv :: ltail).
Proof. intros x H1 H2. apply (Hdis x (X_wl x H2) (HVr x H1)). Qed.

(** *** The table *)
Definition table_of (ht0 : hj_table) (l : list (regs * Z)) : option hj_table :=
  fold_left (fun acc a => do ht <- acc; if qualify (fst a) then hj_add mem ht (fst a lv) (map (fst a) ltail) (snd a) else Some ht) l (Some ht0).
Lemma table_of_none l : fold_left (fun acc a => do ht <- acc; if qualify (fst a) then hj_add mem ht (fst a lv) (map (fst a) ltail) (snd a) else Some ht) l None = None.
Proof. induction l as [|a l IH]; [reflexivity|]. cbn [fold_left]. exact IH. Qed.
Lemma table_of_cons ht0 a l : table_of ht0 (a :: l) =
  do ht <- (if qualify (fst a) then hj_add mem ht0 (fst a lv) (map (fst a) ltail) (snd a) else Some ht0); table_of ht l.
Proof.
  unfold table_of. cbn [fold_left].
  destruct (if qualify (fst a) then hj_add mem ht0 (fst a lv) (map (fst a) ltail) (snd a) else Some ht0) as [h|]; [reflexivity|apply table_of_none].
Qed.
Definition entry_of (a : regs * Z) : hj_entry := (fst a lv, map (fst a) ltail, snd a).
Definition wanted (l : list (regs * Z)) : list (regs * Z) := filter (fun a => qualify (fst a)) l.
Lemma table_ok : forall l n ht0 ht, Forall (fun a => 0 < snd a) l -> Tab (length ltail) n ht0 -> table_of ht0 l = Some ht ->
  exists n', fits mem n n' /\ Tab (length ltail) n' ht /\
  (forall w, total w (concat ht) = total w (map entry_of (wanted l)) + total w (concat ht0)) /\
  (forall c, In c (chains ht) -> In (hj_key c) (map (fun a => fst a lv) (wanted l)) \/ exists c0, In c0 (chains ht0) /\ hj_key c0 = hj_key c).
Proof.
  induction l as [|a l IH]; intros n ht0 ht Hp HT E.
  - injection E as <-. exists n. split; [split; [lia|auto]|]. split; [exact HT|]. split; [reflexivity|]. intros c Hc. right. exists c. auto.
  - inversion Hp as [|? ? Ha Hp']; subst. rewrite table_of_cons in E. unfold wanted. cbn [filter]. destruct (qualify (fst a)).
    + destruct (hj_add mem ht0 (fst a lv) (map (fst a) ltail) (snd a)) as [h1|] eqn:E1; [|discriminate].
      destruct (add_ok _ _ _ _ _ _ _ _ HT Ha (map_length _ _) E1) as (n1 & F1 & T1 & A1 & B1).
      destruct (IH n1 h1 ht Hp' T1 E) as (n2 & F2 & T2 & A2 & B2). exists n2.
      split. { unfold fits in *. destruct F1 as [F11 F12], F2 as [F21 F22]. split; [lia|]. destruct F22 as [->|]; auto. }
      split; [exact T2|]. split.
      * intros w. assert (E2 : total w (map entry_of (a :: wanted l)) = w (fst a lv) (map (fst a) ltail) * snd a + total w (map entry_of (wanted l))) by reflexivity.
        unfold wanted in E2. rewrite E2. rewrite A2, A1. unfold wanted. lia.
      * intros c Hc. destruct (B2 c Hc) as [H|(c0 & H0 & Ek)]; [left; right; exact H|].
        destruct (B1 c0 H0) as [H|(c1 & H1 & Ek1)]; [left; left; exact (eq_trans (eq_sym H) Ek)|]. right. exists c1. split; [exact H1|congruence].
    + destruct (IH n ht0 ht Hp' HT E) as (n2 & F2 & T2 & A2 & B2). exists n2. auto.
Qed.
Lemma build_ok : forall l k o c g0 g ht0 v, (S (length l) < k)%nat -> 0 < c -> agree Vl g0 v -> agree Wl g g0 ->
  Rows any Vl Wl (o_next o) (fun h => agree Wl h g0) l ->
  match table_of ht0 ((v, c) :: l) with
  | Some ht => exists g' o', hj_build mem qualify lv ltail k o c g ht0 = Some (g', o', ht) /\ outside Wl g g'
  | None => hj_build mem qualify lv ltail k o c g ht0 = None
  end.
Proof.
  induction l as [|[v1 c1] l IH]; intros k o c g0 g ht0 v Hk Hc Hv Hg HR; (destruct k as [|k]; [cbn in Hk; lia|]);
    rewrite table_of_cons; cbn [hj_build fst snd]; (destruct (Z.eqb_spec c 0); [lia|]);
    (assert (Hgv : agree (lv :: ltail) g v);
     [eapply agree_incl; [exact Hlv|]; eapply agree_trans; [|exact Hv]; eapply agree_incl; [exact HVl|exact Hg]|]);
    rewrite (Hq g v Hgv);
    replace (g lv) with (v lv) by (symmetry; apply Hgv; left; reflexivity);
    replace (map g ltail) with (map v ltail) by (symmetry; apply map_agree; intros x Hx; apply Hgv; right; exact Hx);
    (destruct (if qualify v then hj_add mem ht0 (v lv) (map v ltail) c else Some ht0) as [h1|]; [|reflexivity]);
    rewrite Rows_Got in HR; specialize (HR g Hg).
  - destruct HR as (g1 & o1 & E1 & O1 & _). rewrite E1. cbn [table_of fold_left]. destruct k as [|k]; [cbn in Hk; lia|]. cbn [hj_build Z.eqb].
    exists g1, o1. auto.
  - destruct HR as (Hc1 & g1 & o1 & E1 & A1 & O1 & _ & HR). rewrite E1.
    specialize (IH k o1 c1 g1 g1 h1 v1 ltac:(cbn in Hk; lia) Hc1 A1 (agree_refl _ _) HR).
    destruct (table_of h1 ((v1, c1) :: l)) as [ht|]; [|exact IH]. destruct IH as (g' & o' & E & O). exists g', o'. split; [exact E|].
    eapply outside_trans; eassumption.
Qed.

(** *** The rows *)
Variable ht : hj_table.
Variable n : nat.
Hypothesis HT : Tab (length ltail) n ht.
Definition erow (e : hj_entry) (v : regs) : regs := beside hj_X (as_row (lv :: ltail) (ekey e :: evals e)) v.
Definition pending (succ : bool) (it : list hj_entry) (v : regs) (c : Z) : list (regs * Z) :=
  map (fun e => (erow e v, snd e * c)) it ++ (if negb succ && lopt then [(beside hj_X (fun _ => null32) v, c)] else []).
Definition matched (b : regs * Z) : list (regs * Z) :=
  pending (nonempty (hj_lookup ht (fst b rv))) (hj_lookup ht (fst b rv)) (fst b) (snd b).
Definition hj_ok (o : oper) : Prop := exists s, o = obj first next s /\ Ir (hj_right s) /\ hj_ht s = Some ht.
Local Notation res r := (wrap first next r).

Lemma hj_probe_eq s r c g v : agree Vr g v -> hj_probe rv false ht s r c g =
  mkHj (hj_left s) r (Some ht) (hj_lookup ht (v rv)) c (nonempty (hj_lookup ht (v rv))) (hj_coll s) None.
Proof. intros A. unfold hj_probe. rewrite (A rv Hrv). cbn [andb]. destruct (hj_lookup ht (v rv)); reflexivity. Qed.

Definition entries_ok (it : list hj_entry) : Prop := Forall (fun e => 0 < snd e /\ length (evals e) = length ltail) it.
Lemma lookup_entries k : entries_ok (hj_lookup ht k).
Proof.
  destruct (lookup_ok _ _ _ k HT) as [H _]. unfold entries_ok. eapply Forall_impl; [|exact H]. intros e (_ & H1 & H2). auto.
Qed.

Definition runP (R : list (regs * Z)) : Prop := forall it succ k c v l r coll g0 g,
  (length R < k)%nat -> 0 < c -> Ir r -> agree Vr g0 v -> agree Wr g g0 -> entries_ok it ->
  Rows Ir Vr Wr (o_next r) (fun h => agree Wr h g0) R ->
  Got hj_ok V W (res (hj_loop lv rv ltail rtail lopt false k ht (mkHj l r (Some ht) it c succ coll None) g)) g
    (pending succ it v c ++ flat_map matched R).

Lemma run_step R : (match R with [] => True | _ :: R' => runP R' end) ->
  forall succ k c v l r coll g0 g, negb succ && lopt = false ->
  (length R < k)%nat -> 0 < c -> Ir r -> agree Vr g0 v -> agree Wr g g0 ->
  Rows Ir Vr Wr (o_next r) (fun h => agree Wr h g0) R ->
  Got hj_ok V W (res (hj_loop lv rv ltail rtail lopt false k ht (mkHj l r (Some ht) [] c succ coll None) g)) g (flat_map matched R).
Proof.
  intros IH succ k c v l r coll g0 g Hs Hk Hc HI Hv Hg HR. destruct k as [|k]; [lia|].
  cbn [hj_loop hj_iter hj_succ hj_rc hj_right hj_left hj_ht hj_coll hj_idx]. rewrite Hs. destruct (Z.eqb_spec c 0); [lia|].
  rewrite Rows_Got in HR. specialize (HR g Hg). destruct R as [|[v1 c1] R].
  - destruct HR as (g1 & r1 & E1 & O1 & I1). rewrite E1. cbn. eexists g1, _. split; [reflexivity|]. split; [out|].
    eexists. split; [reflexivity|]. cbn. auto.
  - destruct HR as (Hc1 & g1 & r1 & E1 & A1 & O1 & I1 & HR). rewrite E1. cbn iota beta. destruct (Z.eqb_spec c1 0); [lia|].
    rewrite (hj_probe_eq _ _ _ _ v1 A1). cbn [hj_left hj_coll]. cbn [flat_map].
    apply (Got_outside _ _ _ _ g1); [out|]. cbn [flat_map]. unfold matched at 1. cbn [fst snd].
    apply (IH _ _ k c1 v1 l r1 coll g1 g1); auto using agree_refl, lookup_entries. cbn in Hk. lia.
Qed.
Lemma run_all R : (match R with [] => True | _ :: R' => runP R' end) -> (length R < fuel)%nat -> runP R.
Proof.
  intros IH HRf. assert (ST := run_step R IH).
  intros it. induction it as [|e it IHit]; intros succ k c v l r coll g0 g Hk Hc HI Hv Hg He HR.
  - unfold pending. cbn [map app]. destruct (negb succ && lopt) eqn:Es.
    + cbn [app]. assert (Hlo : lopt = true) by (destruct lopt; [reflexivity|rewrite andb_false_r in Es; discriminate]).
      assert (Eloop : hj_loop lv rv ltail rtail lopt false k ht (mkHj l r (Some ht) [] c succ coll None) g =
        Some (c, set_all ltail null32 g, mkHj l r (Some ht) [] c true coll None)).
      { destruct k; cbn [hj_loop hj_iter hj_succ hj_rc hj_right hj_left hj_ht hj_coll hj_idx]; rewrite Es; reflexivity. }
      rewrite Eloop. cbn [wrap Got]. split; [exact Hc|]. eexists _, _. split; [reflexivity|].
      assert (O : outside (lv :: ltail) g (set_all ltail null32 g)).
      { intros x Hx. rewrite set_all_spec. destruct (in_dec Nat.eq_dec x ltail) as [C|]; [|reflexivity]. exfalso. apply Hx. right. exact C. }
      assert (Awr : agree Wr (set_all ltail null32 g) g0).
      { eapply agree_trans; [|exact Hg]. apply agree_sym. eapply outside_agree; [|exact O]. intros x H1 H2. exact (Hdis x (X_wl x H2) H1). }
      split; [|split; [|split]].
      * apply agree_beside.
        -- eapply disjoint_incl; [apply incl_refl|apply X_sub|apply Vr_X].
        -- unfold hj_X. rewrite Hlo. intros x Hx. rewrite set_all_spec. destruct (in_dec Nat.eq_dec x ltail); [reflexivity|contradiction].
        -- eapply agree_trans; [|exact Hv]. eapply agree_incl; [exact HVr|exact Awr].
      * eapply outside_incl; [|exact O]. eapply incl_tran; [apply X_wl|exact wl].
      * eexists. split; [reflexivity|]. cbn. auto.
      * apply Rows_Got. intros h Hh. apply agree_app in Hh. destruct Hh as [_ Hh].
        rewrite obj_next. unfold hj_next. cbn [hj_ht hj_idx].
        eapply (ST true fuel c v l r coll g0 h); auto. eapply agree_trans; eassumption.
    + cbn [app]. eapply ST; eauto.
  - inversion He as [|? ? [He1 He2] He']; subst. destruct e as [[key vs] n0]. cbn [snd evals fst] in He1, He2.
    assert (Eloop : hj_loop lv rv ltail rtail lopt false k ht (mkHj l r (Some ht) ((key, vs, n0) :: it) c succ coll None) g =
        Some (n0 * c, set_regs (lv :: ltail) (key :: vs) g, mkHj l r (Some ht) it c succ coll None)).
    { destruct k; reflexivity. }
    match type of Eloop with _ = ?y => match goal with |- Got _ _ _ (wrap _ _ ?x) _ _ => replace x with y by (symmetry; exact Eloop) end end.
    unfold pending. cbn [map app wrap Got snd]. split; [nia|]. eexists _, _. split; [reflexivity|].
    assert (O := outside_set_regs (lv :: ltail) (key :: vs) g).
    assert (Awr : agree Wr (set_regs (lv :: ltail) (key :: vs) g) g0).
    { eapply agree_trans; [|exact Hg]. apply agree_sym. eapply outside_agree; [|exact O]. intros x H1 H2. exact (Hdis x (X_wl x H2) H1). }
    split; [|split; [|split]].
    + unfold erow. cbn [ekey evals fst snd]. apply agree_beside.
      * eapply disjoint_incl; [apply incl_refl|apply X_sub|apply Vr_X].
      * eapply agree_incl; [apply X_sub|]. apply set_regs_as_row; [exact Hnd|]. cbn. rewrite He2. reflexivity.
      * eapply agree_trans; [|exact Hv]. eapply agree_incl; [exact HVr|exact Awr].
    + eapply outside_incl; [|exact O]. eapply incl_tran; [apply X_wl|exact wl].
    + eexists. split; [reflexivity|]. cbn. auto.
    + apply Rows_Got. intros h Hh. apply agree_app in Hh. destruct Hh as [_ Hh].
      rewrite obj_next. unfold hj_next. cbn [hj_ht hj_idx].
      apply (IHit succ fuel c v l r coll g0 h); auto. eapply agree_trans; eassumption.
Qed.
Lemma run_ok R : (length R < fuel)%nat -> runP R.
Proof.
  induction R as [|b R IHR]; intros HRf; apply run_all; auto. apply IHR. cbn in HRf. lia.
Qed.

Variables (L : list (regs * Z)) (left : oper).
Hypothesis HfL : (length L < fuel)%nat.
Hypothesis HL : Answers Vl Wl L left.
(** The calls of first, with the table built or not. *)
Lemma hj_right_ok v s g : Rows Ir Vr Wr (o_first (hj_right s)) (fun g => agree D g v) (f v) -> agree D g v -> forall l1,
  Got hj_ok V W (res (do (rc, g2, r1) <- o_first (hj_right s) g;
    let s1 := mkHj l1 r1 (Some ht) (hj_iter s) rc (hj_succ s) (hj_coll s) None in
    if (rc =? 0) && negb lopt then Some (0, g2, s1) else next (hj_probe rv false ht s1 r1 rc g2) g2)) g (flat_map matched (f v)).
Proof.
  intros HR Hg l1. assert (HfR' := HfR v). rewrite Rows_Got in HR. specialize (HR g Hg). destruct (f v) as [|[v1 c1] R].
  - destruct HR as (g1 & r1 & E1 & O1 & I1). rewrite E1. cbn iota beta. cbn [Z.eqb andb]. cbv zeta. destruct lopt eqn:Elo; cbn [negb].
    + rewrite (hj_probe_eq _ _ _ _ g1 (agree_refl _ _)). cbn [hj_left hj_coll]. unfold hj_next. cbn [hj_ht hj_idx].
      assert (Eloop : exists g2 s2, hj_loop lv rv ltail rtail true false fuel ht
         (mkHj l1 r1 (Some ht) (hj_lookup ht (g1 rv)) 0 (nonempty (hj_lookup ht (g1 rv))) (hj_coll s) None) g1 = Some (0, g2, s2) /\
         outside (lv :: ltail) g1 g2 /\ hj_right s2 = r1 /\ hj_ht s2 = Some ht).
      { destruct (hj_lookup ht (g1 rv)) as [|[[key vs] n0] it] eqn:El.
        - destruct fuel; cbn; eexists _, _; (split; [reflexivity|]); (split; [|auto]);
            intros x Hx; rewrite set_all_spec; (destruct (in_dec Nat.eq_dec x ltail) as [C|]; [|reflexivity]); exfalso; apply Hx; right; exact C.
        - destruct fuel; cbn [hj_loop hj_iter hj_rc nonempty hj_succ hj_left hj_right hj_ht hj_coll hj_idx];
            exists (set_regs (lv :: ltail) (key :: vs) g1); eexists; (split; [rewrite Z.mul_0_r; reflexivity|]);
            (split; [apply outside_set_regs|auto]). }
      destruct Eloop as (g2 & s2 & E2 & O2 & H1 & H2). rewrite E2. cbn. eexists g2, _. split; [reflexivity|]. split.
      * eapply outside_trans; [apply (outside_incl _ _ _ _ wr); exact O1|]. eapply outside_incl; [|exact O2]. eapply incl_tran; [apply X_wl|exact wl].
      * exists s2. rewrite Elo. split; [reflexivity|]. rewrite H1. auto.
    + cbn. eexists g1, _. split; [reflexivity|]. split; [out|]. eexists. rewrite Elo. split; [reflexivity|]. cbn. auto.
  - destruct HR as (Hc1 & g1 & r1 & E1 & A1 & O1 & I1 & HR). rewrite E1. cbn iota beta. destruct (Z.eqb_spec c1 0); [lia|]. cbn [andb]. cbv zeta.
    rewrite (hj_probe_eq _ _ _ _ v1 A1). cbn [hj_left hj_coll]. cbn [flat_map]. unfold matched at 1. cbn [fst snd].
    apply (Got_outside _ _ _ _ g1); [out|]. unfold hj_next. cbn [hj_ht hj_idx].
    apply (run_ok R ltac:(cbn in HfR'; lia) _ _ fuel c1 v1 _ r1 _ g1 g1); auto using agree_refl, lookup_entries. cbn in HfR'. lia.
Qed.
Lemma hj_run s v : table_of (repeat [] (Z.to_nat 2048)) L = Some ht -> (hj_ht s = None /\ hj_left s = left) \/ hj_ht s = Some ht ->
  Rows Ir Vr Wr (o_first (hj_right s)) (fun g => agree D g v) (f v) ->
  Rows hj_ok V W (o_first (obj first next s)) (fun g => agree D g v) (flat_map matched (f v)).
Proof.
  intros Htab [[Es El] | Es] HR; apply Rows_Got; intros g Hg; rewrite obj_first; unfold hj_first; rewrite Es.
  - assert (B : exists l1 g1, (do (c, g0, l0) <- o_first left g; hj_build mem qualify lv ltail fuel l0 c g0 (repeat [] (Z.to_nat 2048))) = Some (g1, l1, ht) /\ outside Wl g g1).
    { assert (HA := HL). unfold Answers in HA. rewrite Rows_Got in HA. specialize (HA g Logic.I). destruct L as [|[v0 c0] L0].
      - destruct HA as (g1 & o1 & E1 & O1 & _). rewrite E1. cbn in Htab. injection Htab as E0. rewrite <- E0. cbn in HfL.
        destruct fuel as [|k]; [lia|]. exists o1, g1. split; [reflexivity|exact O1].
      - destruct HA as (Hc & g1 & o1 & E1 & A1 & O1 & _ & HR1). rewrite E1.
        assert (B := build_ok L0 fuel o1 c0 g1 g1 (repeat [] (Z.to_nat 2048)) v0 ltac:(cbn in HfL; lia) Hc A1 (agree_refl _ _) HR1).
        rewrite Htab in B. destruct B as (g2 & o2 & E2 & O2). exists o2, g2. split; [exact E2|]. eapply outside_trans; eassumption. }
    destruct B as (l1 & g1 & E1 & O1). rewrite El, E1.
    apply (Got_outside _ _ _ _ g1); [out|].
    apply (hj_right_ok v s g1 HR).
    eapply agree_trans; [|exact Hg]. apply agree_sym. eapply outside_agree; [exact HD|exact O1].
  - apply (hj_right_ok v s g HR Hg).
Qed.
Lemma hj_fails : table_of (repeat [] (Z.to_nat 2048)) L = None -> forall r g, o_first (hash_join fuel mem qualify lv rv ltail rtail lopt false left r) g = None.
Proof.
  intros Htab r g. unfold hash_join. rewrite obj_first. unfold hj_first. cbn [hj_ht hj_left hj_right].
  assert (HA := HL). unfold Answers in HA. rewrite Rows_Got in HA. specialize (HA g Logic.I). destruct L as [|[v0 c0] L0]; [discriminate|].
  destruct HA as (Hc & g1 & o1 & E1 & A1 & O1 & _ & HR). rewrite E1.
  assert (B := build_ok L0 fuel o1 c0 g1 g1 (repeat [] (Z.to_nat 2048)) v0 ltac:(cbn in HfL; lia) Hc A1 (agree_refl _ _) HR).
  rewrite Htab in B. rewrite B. reflexivity.
Qed.
End Hj.

(** ** The rows are those of the join. *)
Definition sumZ {A} (g : A -> Z) (l : list A) : Z := fold_right (fun a n => g a + n) 0 l.
Lemma sumZ_cons {A} (g : A -> Z) a l : sumZ g (a :: l) = g a + sumZ g l.
Proof. reflexivity. Qed.
Lemma sumZ_app {A} (g : A -> Z) a b : sumZ g (a ++ b) = sumZ g a + sumZ g b.
Proof. induction a as [|x a IH]; [reflexivity|]. cbn [app]. rewrite !sumZ_cons, IH. lia. Qed.
Lemma sumZ_ext {A} (g h : A -> Z) l : (forall a, In a l -> g a = h a) -> sumZ g l = sumZ h l.
Proof. intros H. induction l as [|a l IH]; [reflexivity|]. rewrite !sumZ_cons, IH, (H a (or_introl eq_refl)); [reflexivity|]. intros x Hx. apply H. right. exact Hx. Qed.
Lemma sumZ_map {A B} (m : A -> B) (g : B -> Z) l : sumZ g (map m l) = sumZ (fun a => g (m a)) l.
Proof. induction l as [|a l IH]; [reflexivity|]. cbn [map]. rewrite !sumZ_cons, IH. reflexivity. Qed.
Lemma sumZ_plus {A} (g h : A -> Z) l : sumZ (fun a => g a + h a) l = sumZ g l + sumZ h l.
Proof. induction l as [|a l IH]; [reflexivity|]. rewrite !sumZ_cons, IH. lia. Qed.
Lemma sumZ_0 {A} (l : list A) : sumZ (fun _ => 0) l = 0.
Proof. induction l as [|a l IH]; [reflexivity|]. rewrite sumZ_cons, IH. reflexivity. Qed.
Lemma sumZ_flat_map {A B} (m : A -> list B) (g : B -> Z) l : sumZ g (flat_map m l) = sumZ (fun a => sumZ g (m a)) l.
Proof. induction l as [|a l IH]; [reflexivity|]. cbn [flat_map]. rewrite sumZ_app, sumZ_cons, IH. reflexivity. Qed.
Lemma sumZ_filter {A} (p : A -> bool) (g : A -> Z) l : sumZ g (filter p l) = sumZ (fun a => if p a then g a else 0) l.
Proof. induction l as [|a l IH]; [reflexivity|]. cbn [filter]. rewrite (sumZ_cons _ a l). destruct (p a); [rewrite sumZ_cons|]; rewrite IH; lia. Qed.
Lemma sumZ_swap {A B} (g : A -> B -> Z) la lb : sumZ (fun a => sumZ (g a) lb) la = sumZ (fun b => sumZ (fun a => g a b) la) lb.
Proof.
  induction la as [|a la IH].
  - change (sumZ (fun a => sumZ (g a) lb) []) with 0. symmetry. apply sumZ_0.
  - rewrite sumZ_cons, IH. rewrite <- sumZ_plus. apply sumZ_ext. intros b _. reflexivity.
Qed.
Lemma occurs_sum V l t : occurs V l t = sumZ (fun a => if values_dec (map (fst a) V) t then snd a else 0) l.
Proof. reflexivity. Qed.
Lemma total_sum w l : total w l = sumZ (fun e => w (ekey e) (evals e) * snd e) l.
Proof. reflexivity. Qed.

Lemma total_cons w e l : total w (e :: l) = w (ekey e) (evals e) * snd e + total w l.
Proof. reflexivity. Qed.

Section Rows.
Variables (Vr : list nat) (qualify : regs -> bool) (lv rv : nat) (ltail : list nat) (lopt : bool) (n : nat) (ht : hj_table) (L : list (regs * Z)).
Hypothesis Hnd : NoDup (lv :: ltail).
Hypothesis HX : disjoint Vr (lv :: ltail).
Hypothesis Hrv : In rv Vr.
Hypothesis HT : Tab (length ltail) n ht.
Hypothesis Hpos : Forall (fun a => 0 < snd a) L.
Hypothesis Htot : forall w, total w (concat ht) = total w (map (entry_of lv ltail) (wanted qualify L)).
Local Notation X := (hj_X lv ltail lopt).
Local Notation V := (X ++ Vr).
Local Notation A := (wanted qualify L).

Lemma row_same (a b : regs * Z) : map (erow lv ltail lopt (entry_of lv ltail a) (fst b)) V = map (beside (lv :: ltail) (fst a) (fst b)) V.
Proof.
  apply map_agree, agree_app. unfold erow, entry_of. cbn [ekey evals fst snd]. split; intros x Hx.
  - assert (Hx' := X_sub _ _ _ x Hx). unfold beside. destruct (in_dec Nat.eq_dec x X); [|contradiction]. destruct (in_dec Nat.eq_dec x (lv :: ltail)); [|contradiction].
    change (fst a lv :: map (fst a) ltail) with (map (fst a) (lv :: ltail)). unfold as_row. apply set_regs_vals; assumption.
  - assert (Hx' := HX x Hx). unfold beside. destruct (in_dec Nat.eq_dec x X) as [C|]; [exfalso; exact (Hx' (X_sub _ _ _ x C))|].
    destruct (in_dec Nat.eq_dec x (lv :: ltail)); [contradiction|reflexivity].
Qed.
Lemma occurs_matched (b : regs * Z) t :
  occurs V (map (fun e => (erow lv ltail lopt e (fst b), snd e * snd b)) (hj_lookup ht (fst b rv))) t =
  sumZ (fun a => if fst a lv =? fst b rv then if values_dec (map (beside (lv :: ltail) (fst a) (fst b)) V) t then snd a * snd b else 0 else 0) A.
Proof.
  set (w := fun k vs => if values_dec (map (erow lv ltail lopt (k, vs, 0) (fst b)) V) t then snd b else 0).
  transitivity (total w (hj_lookup ht (fst b rv))).
  - rewrite occurs_sum, sumZ_map, total_sum. apply sumZ_ext. intros [[k vs] c] _. unfold w. cbn [fst snd ekey evals].
    change (erow lv ltail lopt (k, vs, 0) (fst b)) with (erow lv ltail lopt (k, vs, c) (fst b)). destruct (values_dec _ t); lia.
  - rewrite (proj2 (lookup_ok _ _ _ (fst b rv) HT)), Htot, total_sum, sumZ_map. apply sumZ_ext. intros a _. change (ekey (entry_of lv ltail a)) with (fst a lv). change (evals (entry_of lv ltail a)) with (map (fst a) ltail). change (snd (entry_of lv ltail a)) with (snd a).
    match goal with |- (if ?p then _ else _) * _ = (if ?q then _ else _) => change q with p; destruct p end; [|reflexivity]. unfold w.
    change (erow lv ltail lopt (fst a lv, map (fst a) ltail, 0) (fst b)) with (erow lv ltail lopt (entry_of lv ltail a) (fst b)). rewrite row_same.
    destruct (values_dec _ t); [apply Z.mul_comm|apply Z.mul_0_l].
Qed.
Lemma lookup_empty k : nonempty (hj_lookup ht k) = negb (forallb (fun a : regs * Z => negb (fst a lv =? k)) A).
Proof.
  destruct (lookup_ok _ _ _ k HT) as [H1 H2]. specialize (H2 (fun _ _ => 1)). rewrite Htot in H2.
  assert (HA : Forall (fun a : regs * Z => 0 < snd a) A).
  { rewrite Forall_forall in *. intros a Ha. apply Hpos. apply filter_In in Ha. apply Ha. }
  assert (S : forall l : list hj_entry, Forall (fun e => ekey e = k /\ 0 < snd e /\ length (evals e) = length ltail) l -> (0 <? total (fun _ _ => 1) l) = nonempty l).
  { intros l Hl. destruct Hl as [|e l (_ & He & _) Hl]; [reflexivity|]. apply Z.ltb_lt.
    assert (0 <= total (fun _ _ => 1) l).
    { clear - Hl. induction Hl as [|e l (_ & He & _) Hl IH]; [cbn; lia|]. rewrite total_cons. lia. }
    rewrite total_cons. lia. }
  rewrite <- (S _ H1), H2. clear - HA. rewrite total_sum, sumZ_map.
  assert (P : forall l, Forall (fun a : regs * Z => 0 < snd a) l ->
    let s := sumZ (fun a : regs * Z => (if ekey (entry_of lv ltail a) =? k then 1 else 0) * snd (entry_of lv ltail a)) l in
    0 <= s /\ (0 <? s) = negb (forallb (fun a : regs * Z => negb (fst a lv =? k)) l)).
  { clear. intros l Hl. cbv zeta. induction Hl as [|a l Ha Hl [IH1 IH2]]; [split; [cbn; lia|reflexivity]|].
    rewrite sumZ_cons. cbn [forallb]. change (ekey (entry_of lv ltail a)) with (fst a lv). change (snd (entry_of lv ltail a)) with (snd a).
    destruct (fst a lv =? k) eqn:E.
    - split; [lia|]. cbn [negb andb]. apply Z.ltb_lt. lia.
    - rewrite Z.mul_0_l, Z.add_0_l. cbn [negb andb]. auto. }
  apply (P _ HA).
Qed.
Lemma occurs_joined R t : occurs V (joined (lv :: ltail) lv rv A R) t =
  sumZ (fun b => sumZ (fun a => if fst a lv =? fst b rv then if values_dec (map (beside (lv :: ltail) (fst a) (fst b)) V) t then snd a * snd b else 0 else 0) A) R.
Proof.
  unfold joined, pairs. rewrite occurs_sum, sumZ_filter, sumZ_flat_map. rewrite <- (sumZ_swap (fun a b : regs * Z => if fst a lv =? fst b rv then if values_dec (map (beside (lv :: ltail) (fst a) (fst b)) V) t then snd a * snd b else 0 else 0)).
  apply sumZ_ext. intros a _. rewrite sumZ_map. apply sumZ_ext. intros b _. cbn [fst snd].
  replace (beside (lv :: ltail) (fst a) (fst b) lv) with (fst a lv) by (symmetry; apply beside_agree; left; reflexivity).
  replace (beside (lv :: ltail) (fst a) (fst b) rv) with (fst b rv) by (symmetry; apply (beside_agree_r _ Vr); [exact HX|exact Hrv]).
  reflexivity.
Qed.
Lemma occurs_out R t : occurs V (flat_map (matched lv rv ltail lopt ht) R) t =
  occurs V (joined (lv :: ltail) lv rv A R) t + (if lopt then occurs V (unmatched X lv rv A R) t else 0).
Proof.
  rewrite occurs_joined. rewrite occurs_sum, sumZ_flat_map.
  assert (E : (if lopt then occurs V (unmatched X lv rv A R) t else 0) =
    sumZ (fun b : regs * Z => if negb (nonempty (hj_lookup ht (fst b rv))) && lopt then if values_dec (map (beside X (fun _ => null32) (fst b)) V) t then snd b else 0 else 0) R).
  { destruct lopt.
    - unfold unmatched. rewrite occurs_sum, sumZ_map, sumZ_filter. apply sumZ_ext. intros b _. rewrite lookup_empty, negb_involutive, andb_true_r. reflexivity.
    - symmetry. etransitivity; [|exact (sumZ_0 R)]. apply sumZ_ext. intros b _. rewrite andb_false_r. reflexivity. }
  rewrite E, <- sumZ_plus. apply sumZ_ext. intros b _. unfold matched, pending. rewrite sumZ_app. rewrite <- occurs_matched, <- occurs_sum.
  f_equal. match goal with |- sumZ _ (if ?p then _ else _) = (if ?q then _ else _) => change q with p; destruct p end; [|reflexivity].
  cbn [sumZ fold_right fst snd]. apply Z.add_0_r.
Qed.
End Rows.
