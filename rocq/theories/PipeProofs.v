From Coq Require Import List Arith Bool Lia Permutation.
Import ListNotations.
From Verif Require Import PipeModel.

Arguments KItem {A}. Arguments KEnd {A}.
Arguments PGet0 {A}. Arguments PSleep0 {A}. Arguments PLoop {A}. Arguments PPush {A}. Arguments PNotify {A}.
Arguments PGet {A}. Arguments PSleep {A}. Arguments PLast {A}. Arguments PNotifyL {A}. Arguments PDone {A}.
Arguments mkP {A}. Arguments s_rest {A}. Arguments s_p {A}. Arguments s_c {A}. Arguments s_free {A}.
Arguments s_exch {A}. Arguments s_mem {A}. Arguments s_out {A}. Arguments put {A}. Arguments wakeP {A}.

Section Proofs.
Context {A : Type}.
Variable cap : nat.
Hypothesis Hcap : 1 <= cap.

Definition held (p : ppc A) : list nat :=
  match p with PLoop b _ | PPush b _ _ | PLast b _ => [b] | _ => [] end.
Definition heldc (c : cpc) : list nat := match c with CProc b _ _ | CRel b _ => [b] | _ => [] end.
Definition kitem (k : kont A) : list A := match k with KItem t => [t] | KEnd => [] end.
Definition bufl (m : nat -> nat -> A) (b i n : nat) : list A := map (m b) (seq i (n - i)).
Definition pdata (m : nat -> nat -> A) (p : ppc A) : list A :=
  match p with
  | PLoop b i | PLast b i => bufl m b 0 i
  | PPush b i k => bufl m b 0 i ++ kitem k
  | PNotify k | PGet k | PSleep k => kitem k
  | _ => []
  end.
Definition cdata (m : nat -> nat -> A) (c : cpc) : list A :=
  match c with CProc b i n => bufl m b i n | _ => [] end.
Definition edata (m : nat -> nat -> A) (e : list (nat * nat)) : list A :=
  flat_map (fun x => bufl m (fst x) 0 (snd x)) e.
Definition csize (c : cpc) : list nat := match c with CProc _ _ n | CRel _ n | CNotify n => [n] | _ => [] end.
Definition pfin (p : ppc A) : bool := match p with PNotifyL | PDone => true | _ => false end.
Definition pend (p : ppc A) : bool :=
  match p with
  | PPush _ _ KEnd | PNotify KEnd | PGet KEnd | PSleep KEnd | PLast _ _ | PNotifyL | PDone => true
  | _ => false
  end.
Definition pbound (p : ppc A) : Prop :=
  match p with PLoop _ i => i <= cap | PPush _ i _ => i = cap | PLast _ i => i < cap | _ => True end.

Record Inv (nbuf : nat) (input : list A) (s : pst A) : Prop := {
  i_ids : Permutation (s_free s ++ held (s_p s) ++ map fst (s_exch s) ++ heldc (s_c s)) (seq 0 nbuf);
  i_data : s_out s ++ cdata (s_mem s) (s_c s) ++ edata (s_mem s) (s_exch s) ++ pdata (s_mem s) (s_p s) ++ s_rest s = input;
  i_end : pend (s_p s) = true -> s_rest s = [];
  i_bound : pbound (s_p s);
  i_c : match s_c s with CProc _ i n => i <= n | _ => True end;
  i_more : pfin (s_p s) = false -> s_c s <> CDone /\ Forall (eq cap) (csize (s_c s) ++ map snd (s_exch s));
  i_fin : pfin (s_p s) = true -> (s_c s = CDone /\ s_exch s = []) \/
    (s_c s <> CDone /\ exists l n, csize (s_c s) ++ map snd (s_exch s) = l ++ [n] /\ Forall (eq cap) l /\ n < cap);
  i_ps : match s_p s with PSleep0 | PSleep _ => s_free s = [] \/ exists n, s_c s = CNotify n | _ => True end;
  i_cs : s_c s = CSleep -> s_exch s = [] \/ match s_p s with PNotify _ | PNotifyL => True | _ => False end
}.

Lemma bufl_put_other m b i t b' j n : b' <> b -> bufl (put m b i t) b' j n = bufl m b' j n.
Proof.
  intros H. unfold bufl. apply map_ext. intros x. unfold put. apply Nat.eqb_neq in H. now rewrite H.
Qed.
Lemma bufl_put m b i t : bufl (put m b i t) b 0 (S i) = bufl m b 0 i ++ [t].
Proof.
  unfold bufl. rewrite !Nat.sub_0_r, seq_S, map_app. cbn [map plus]. f_equal.
  - apply map_ext_in. intros x Hx. apply in_seq in Hx. unfold put. rewrite Nat.eqb_refl. destruct (Nat.eqb_spec x i); [lia|reflexivity].
  - unfold put. now rewrite !Nat.eqb_refl.
Qed.
Lemma bufl_next m b i n : i < n -> bufl m b i n = m b i :: bufl m b (S i) n.
Proof. intros H. unfold bufl. replace (n - i) with (S (n - S i)) by lia. reflexivity. Qed.
Lemma bufl_done m b i n : n <= i -> bufl m b i n = [].
Proof. intros H. unfold bufl. replace (n - i) with 0 by lia. reflexivity. Qed.
Lemma edata_put m b i t e : ~ In b (map fst e) -> edata (put m b i t) e = edata m e.
Proof.
  intros H. unfold edata. induction e as [|[x n] e IH]; cbn [flat_map map fst snd In] in *; auto.
  rewrite bufl_put_other by tauto. f_equal. apply IH. tauto.
Qed.
Lemma cdata_put m b i t c : ~ In b (heldc c) -> cdata (put m b i t) c = cdata m c.
Proof. intros H. destruct c; cbn [cdata heldc In] in *; auto. apply bufl_put_other. intros ->. tauto. Qed.
Lemma edata_snoc m e b n : edata m (e ++ [(b, n)]) = edata m e ++ bufl m b 0 n.
Proof. unfold edata. rewrite flat_map_app. cbn. now rewrite app_nil_r. Qed.

Lemma inv_init nbuf m0 input : Inv nbuf input (pinit A nbuf m0 input).
Proof.
  split; cbn; auto.
  - now rewrite app_nil_r.
  - discriminate.
  - intros _. split; [discriminate|constructor].
  - discriminate.
Qed.

Lemma perm_fresh nbuf (f h e c : list nat) : Permutation (f ++ h ++ e ++ c) (seq 0 nbuf) -> NoDup (f ++ h ++ e ++ c).
Proof. intros H. eapply Permutation_NoDup; [symmetry; exact H|apply seq_NoDup]. Qed.

Ltac pinv := cbn [s_rest s_p s_c s_free s_exch s_mem s_out held heldc pdata cdata csize pfin pend pbound kitem wakeC wakeP] in *.

Lemma nd_mid (f e c : list nat) b : NoDup (f ++ [b] ++ e ++ c) -> ~ In b e /\ ~ In b c.
Proof.
  intros H. apply NoDup_remove_2 in H. rewrite !in_app_iff in H. tauto.
Qed.

Lemma chain_fin l n (x : nat) r : x :: r = l ++ [n] -> Forall (eq cap) l -> n < cap -> cap <= x ->
  exists l', r = l' ++ [n] /\ Forall (eq cap) l'.
Proof.
  intros E F Hn Hx. destruct l as [|y l]; cbn in E.
  - injection E as -> ->. lia.
  - injection E as -> ->. exists l. inversion F; auto.
Qed.
Lemma chain_last l n (x : nat) r : x :: r = l ++ [n] -> Forall (eq cap) l -> x < cap -> r = [].
Proof.
  intros E F Hx. destruct l as [|y l]; cbn in E.
  - injection E as -> ->. reflexivity.
  - injection E as -> ->. inversion F; subst. lia.
Qed.

Lemma inv_step nbuf input s s' : Inv nbuf input s -> pstep A cap s s' -> Inv nbuf input s'.
Proof.
  intros HI HS. destruct HS; destruct HI as [H1 H2 H3 H4 H5 H6 H7 H8 H9]; pinv.
  - (* get0 *) split; pinv; auto; try lia; try discriminate.
    + rewrite <- !app_assoc in *. exact H1.
  - (* sleep0 *) split; pinv; auto; try lia; try discriminate.
  - (* write *) assert (Hnd := nd_mid _ _ _ _ (perm_fresh _ _ _ _ _ H1)). destruct Hnd as [Hn1 Hn2]. split; pinv; auto; try lia; try discriminate.
    + rewrite edata_put, cdata_put, bufl_put, <- !app_assoc by auto. exact H2.
    
  - (* full *) split; pinv; auto; try lia; try discriminate.
    now rewrite <- !app_assoc.
  - (* push *) split; pinv; auto; try lia; try discriminate.
    + rewrite map_app. cbn [map fst]. etransitivity; [|exact H1]. apply Permutation_app_head. cbn [app].
      rewrite <- app_assoc. symmetry. apply Permutation_middle.
    + now rewrite edata_snoc, <- !app_assoc in *.
    + intros _. destruct (H6 eq_refl) as [A1 A2]. split; auto. rewrite map_app, app_assoc. apply Forall_app. split; auto. cbn. auto.
  - (* notify *) split; pinv; auto; try lia; try discriminate.
    + destruct c; exact H1.
    + destruct c; exact H2.
    + destruct c; auto.
    + intros _. destruct (H6 eq_refl) as [A1 A2]. split; [destruct c; auto; discriminate|destruct c; auto].
    + destruct c; discriminate.
  - (* sleep *) split; pinv; auto; try lia; try discriminate.
  - (* get item *) assert (Hnd := perm_fresh _ _ _ _ _ H1). cbn [app] in Hnd. rewrite <- app_assoc in Hnd. destruct (nd_mid _ _ _ _ Hnd) as [Hn1 Hn2].
    split; pinv; auto; try lia; try discriminate.
    + rewrite <- !app_assoc in *. exact H1.
    + rewrite edata_put, cdata_put by auto. rewrite bufl_put. exact H2.
  - (* end full *) split; pinv; auto; try lia; try discriminate.
    + rewrite !app_nil_r in *; exact H2.
  - (* get end *) split; pinv; auto; try lia; try discriminate.
    + rewrite <- !app_assoc in *. exact H1.
  - (* end *) split; pinv; auto; try lia; try discriminate.
  - (* last *) split; pinv; auto; try lia; try discriminate.
    + rewrite map_app. cbn [map fst]. etransitivity; [|exact H1]. apply Permutation_app_head. cbn [app].
      rewrite <- app_assoc. symmetry. apply Permutation_middle.
    + now rewrite edata_snoc, <- !app_assoc in *.
    + intros _. destruct (H6 eq_refl) as [A1 A2]. right. split; auto. exists (csize c ++ map snd e), i. rewrite map_app, app_assoc. auto.
  - (* notifyL *) split; pinv; auto; try lia; try discriminate.
    + destruct c; exact H1.
    + destruct c; exact H2.
    + destruct c; auto.
    + intros _. destruct (H7 eq_refl) as [[A1 A2]|[A1 A2]]; [left|right].
      * subst c. auto.
      * split; [destruct c; auto; discriminate|destruct c; auto].
    + destruct c; discriminate.
  - (* take *) split; pinv; auto; try lia; try discriminate.
    + cbn [map fst] in H1. etransitivity; [|exact H1]. apply Permutation_app_head, Permutation_app_head. rewrite app_nil_r. apply Permutation_sym, Permutation_cons_append.
    + unfold edata in H2. cbn [flat_map fst snd] in H2. rewrite <- app_assoc in H2. exact H2.
    + intros Hp. destruct (H6 Hp) as [_ A2]. split; [discriminate|exact A2].
    + intros Hp. destruct (H7 Hp) as [[A1 A2]|[A1 A2]]; [discriminate|]. right. split; [discriminate|exact A2].
    + destruct p; auto; destruct H8 as [|[n' H8]]; auto; discriminate.
  - (* sleep *) split; pinv; auto; try lia; try discriminate.
    + intros Hp. destruct (H6 Hp). split; [discriminate|auto].
    + intros Hp. destruct (H7 Hp) as [[A1 A2]|[A1 A2]]; [discriminate|]. right. split; [discriminate|exact A2].
    + destruct p; auto; destruct H8 as [|[n' H8]]; auto; discriminate.
  - (* item *) split; pinv; auto; try lia; try discriminate.
    + rewrite bufl_next in H2 by auto. now rewrite <- app_assoc.
    + intros Hp. destruct (H6 Hp). split; [discriminate|auto].
    + intros Hp. destruct (H7 Hp) as [[A1 A2]|[A1 A2]]; [discriminate|]. right. split; [discriminate|exact A2].
    + destruct p; auto; destruct H8 as [|[n' H8]]; auto; discriminate.
  - (* fin *) split; pinv; auto; try lia; try discriminate.
    + now rewrite bufl_done in H2 by auto.
    + intros Hp. destruct (H6 Hp). split; [discriminate|auto].
    + intros Hp. destruct (H7 Hp) as [[A1 A2]|[A1 A2]]; [discriminate|]. right. split; [discriminate|exact A2].
    + destruct p; auto; destruct H8 as [|[n' H8]]; auto; discriminate.
  - (* rel *) split; pinv; auto; try lia; try discriminate.
    + etransitivity; [|exact H1]. rewrite app_nil_r, <- app_assoc. apply Permutation_app_head. cbn [app].
      rewrite app_assoc. apply Permutation_cons_append.
    + intros Hp. destruct (H6 Hp). split; [discriminate|auto].
    + intros Hp. destruct (H7 Hp) as [[A1 A2]|[A1 A2]]; [discriminate|]. right. split; [discriminate|exact A2].
    + destruct p; auto; right; eauto.
  - (* notify more *) split; pinv; auto; try lia; try discriminate.
    + destruct p; exact H1.
    + destruct p; exact H2.
    + destruct p; auto.
    + destruct p; auto.
    + intros Hp. assert (Hp' : pfin p = false) by (destruct p; auto). destruct (H6 Hp') as [_ A2]. split; [discriminate|]. now inversion A2.
    + intros Hp. assert (Hp' : pfin p = true) by (destruct p; auto; discriminate). destruct (H7 Hp') as [[A1 A2]|[A1 (l & x & A2 & A3 & A4)]]; [discriminate|]. right.
      split; [discriminate|]. destruct (chain_fin _ _ _ _ A2 A3 A4 H) as (l' & B1 & B2). exists l', x. auto.
    + destruct p; auto.
  - (* notify done *) split; pinv; auto; try lia; try discriminate.
    + destruct p; exact H1.
    + destruct p; exact H2.
    + destruct p; auto.
    + destruct p; auto.
    + intros Hp. assert (Hp' : pfin p = false) by (destruct p; auto). destruct (H6 Hp') as [_ A2]. inversion A2; subst. lia.
    + intros Hp. assert (Hp' : pfin p = true) by (destruct p; auto; discriminate). destruct (H7 Hp') as [[A1 A2]|[A1 (l & x & A2 & A3 & A4)]]; [discriminate|]. left.
      split; auto. apply (chain_last _ _ _ _ A2 A3) in H. now destruct e.
    + destruct p; auto.
Qed.

Lemma inv_spur nbuf input s s' : Inv nbuf input s -> spurious A s s' -> Inv nbuf input s'.
Proof.
  intros HI HS. destruct HS; destruct HI as [H1 H2 H3 H4 H5 H6 H7 H8 H9]; pinv; split; pinv; auto; try discriminate.
  - intros Hp. destruct (H6 Hp). split; [discriminate|auto].
  - intros Hp. destruct (H7 Hp) as [[A1 A2]|[A1 A2]]; [discriminate|]. right. split; [discriminate|exact A2].
  - destruct p; auto; destruct H8 as [|[n' H8]]; auto; discriminate.
Qed.

Lemma reach_inv nbuf m0 input s : preach A cap nbuf m0 input s -> Inv nbuf input s.
Proof. induction 1; [apply inv_init|eapply inv_step|eapply inv_spur]; eauto. Qed.

Lemma live nbuf input s : 1 <= nbuf -> Inv nbuf input s -> (s_p s = PDone /\ s_c s = CDone) \/ exists s', pstep A cap s s'.
Proof.
  intros Hnb [H1 H2 H3 H4 H5 H6 H7 H8 H9]. destruct s as [r p c f e m o]; pinv.
  assert (Hc : c <> CSleep -> c <> CDone -> exists s', pstep A cap (mkP r p c f e m o) s').
  { intros Hc1 Hc2. destruct c; try congruence.
    - destruct e as [|[b n] e]; eexists; constructor.
    - destruct (Nat.lt_ge_cases i n); eexists; [now apply c_item|now apply c_fin].
    - eexists; constructor.
    - destruct (Nat.lt_ge_cases n cap); eexists; [now apply c_notify_done|now apply c_notify_more]. }
  assert (Hget : forall k, p = PGet k -> exists s', pstep A cap (mkP r p c f e m o) s').
  { intros k ->. destruct f as [|b f] using rev_ind; [eexists; constructor|]. destruct k; eexists; constructor. }
  assert (Hsl : (s_p (mkP r p c f e m o) = PSleep0 \/ exists k, s_p (mkP r p c f e m o) = PSleep k) ->
      exists s', pstep A cap (mkP r p c f e m o) s').
  { intros Hp. pinv. destruct c; try (apply Hc; discriminate); exfalso.
    - assert (Hf : f = []) by (destruct Hp as [-> |[k -> ]]; destruct H8 as [|[n H8]]; auto; discriminate).
      assert (He : e = []) by (destruct Hp as [-> |[k -> ]]; destruct (H9 eq_refl) as [|[]]; auto).
      subst f e. destruct Hp as [-> |[k -> ]]; cbn in H1; apply Permutation_length in H1; rewrite seq_length in H1; cbn in H1; lia.
    - assert (Hp' : pfin p = false) by (destruct Hp as [-> |[k -> ]]; auto). destruct (H6 Hp'). congruence. }
  destruct p; try (right; eexists; constructor; fail).
  - right. destruct f as [|b f] using rev_ind; eexists; constructor.
  - right. apply Hsl. auto.
  - right. destruct (Nat.eq_dec i cap); destruct r; eexists; [now apply p_end_full|now apply p_full|now apply p_end|now apply p_write].
  - right. eapply Hget; eauto.
  - right. apply Hsl. right. exists k. reflexivity.
  - destruct c; auto; try (right; apply Hc; discriminate). exfalso.
    destruct (H9 eq_refl) as [He|[]]. subst e. destruct (H7 eq_refl) as [[A1 _]|[_ (l & n & A1 & _)]]; [discriminate|]. cbn in A1. destruct l; discriminate.
Qed.

Lemma final nbuf input s : Inv nbuf input s -> s_p s = PDone -> s_c s = CDone ->
  s_out s = input /\ s_exch s = [] /\ Permutation (s_free s) (seq 0 nbuf).
Proof.
  intros [H1 H2 H3 H4 H5 H6 H7 H8 H9] Ep Ec. destruct s as [r p c f e m o]; pinv. subst p c. pinv.
  destruct (H7 eq_refl) as [[_ He]|[A1 _]]; [|congruence]. subst e. rewrite (H3 eq_refl) in *. cbn in *.
  rewrite !app_nil_r in *. auto.
Qed.

Lemma c_done_p nbuf input s : Inv nbuf input s -> s_c s = CDone -> pfin (s_p s) = true /\ s_out s = input.
Proof.
  intros [H1 H2 H3 H4 H5 H6 H7 H8 H9] Ec. destruct s as [r p c f e m o]; pinv. subst c. pinv.
  destruct (pfin p) eqn:Ef; [|destruct (H6 eq_refl); congruence]. split; auto.
  destruct (H7 eq_refl) as [[_ He]|[A1 _]]; [|congruence]. subst e. destruct p; try discriminate; rewrite (H3 eq_refl) in *; cbn in H2; now rewrite !app_nil_r in *.
Qed.

(** ** Termination *)

Definition wp (p : ppc A) : nat :=
  match p with
  | PDone => 0 | PNotifyL => 1 | PLast _ i => 6 + i
  | PGet KEnd | PSleep KEnd => 8 | PNotify KEnd => 9 | PPush _ i KEnd => 14 + i
  | PLoop _ i => 15 + i
  | PGet0 | PSleep0 => 16
  | PGet (KItem _) | PSleep (KItem _) => 17 | PNotify (KItem _) => 18 | PPush _ i (KItem _) => 23 + i
  end.
Definition bp (p : ppc A) : nat := match p with PGet0 | PGet _ => 1 | _ => 0 end.
Definition wc (c : cpc) : nat :=
  match c with CProc _ i n => (n - i) + 3 | CRel _ _ => 2 | CNotify _ => 1 | _ => 0 end.
Definition bc (c : cpc) : nat := match c with CCheck => 1 | _ => 0 end.
Fixpoint we (e : list (nat * nat)) : nat := match e with [] => 0 | (_, n) :: e => n + 4 + we e end.
Definition meas (s : pst A) : nat :=
  3 * (10 * length (s_rest s) + wp (s_p s) + we (s_exch s) + wc (s_c s)) + bp (s_p s) + bc (s_c s).

Lemma we_snoc e b n : we (e ++ [(b, n)]) = we e + n + 4.
Proof. clear Hcap. induction e as [|[x y] e IH]; cbn; lia. Qed.

Lemma meas_step s s' : pstep A cap s s' -> meas s' < meas s.
Proof.
  clear Hcap. intros H. destruct H; unfold meas; pinv; rewrite ?we_snoc; cbn [length we];
    try (destruct k as [t'|]); cbn [wp bp wc bc];
    try (destruct c; cbn [wakeC wc bc]; lia); try (destruct p as [| |? ?|? ? k'|k'|k'|k'|? ?| |]; try (destruct k'); cbn [wakeP wp bp wc bc]; lia); try lia.
Qed.

Lemma psteps_bound n s s' : psteps A cap n s s' -> n <= meas s.
Proof. clear Hcap. induction 1; [lia|]. pose proof (meas_step _ _ H). lia. Qed.
End Proofs.
