(** Proofs about group by and hash groupify. *)
From Verif Require Export OpProofs4.
Local Open Scope Z_scope.

(** ** GroupBy *)
Definition gkey (fs : list nat) (t : list Z * Z) : list Z := map (fun f => nth f (fst t) 0) fs.
Lemma gb_less_lex fs a b : gb_less fs a b = lex (gkey fs a) (gkey fs b).
Proof.
  induction fs as [|f fs IH]; [reflexivity|]. cbn [gb_less gkey map lex]. cbn zeta.
  destruct (nth f (fst a) 0 <? nth f (fst b) 0); [reflexivity|]. destruct (nth f (fst b) 0 <? nth f (fst a) 0); [reflexivity|]. exact IH.
Qed.
Lemma gb_same_key fs a b : gb_same fs a b = true <-> gkey fs a = gkey fs b.
Proof.
  unfold gb_same, gkey. rewrite forallb_forall. split.
  - intros H. apply map_ext_in. intros f Hf. apply Z.eqb_eq, H, Hf.
  - intros E f Hf. apply Z.eqb_eq. clear - E Hf. induction fs as [|x fs IH]; [destruct Hf|]. cbn in E. injection E as E1 E2.
    destruct Hf as [<-|Hf]; auto.
Qed.
Lemma gb_index_nth keys : NoDup keys -> forall i v k, nth_error keys i = Some v -> gb_index keys v k = Some (k + i)%nat.
Proof.
  induction 1 as [|x keys Hx Hn IH]; intros [|i] v k E; cbn in E; try discriminate; cbn [gb_index].
  - injection E as <-. rewrite Nat.eqb_refl, Nat.add_0_r. reflexivity.
  - destruct (Nat.eqb_spec x v) as [->|]; [exfalso; apply Hx; eapply nth_error_In; exact E|].
    rewrite (IH i v (S k) E). f_equal. lia.
Qed.
Lemma gb_fields_ok keys rs vars grp : NoDup keys -> registers keys rs vars grp ->
  exists fs, gb_fields keys vars = Some fs /\ forall a : regs, forall c, gkey fs (map a rs, c) = map a grp.
Proof.
  intros Hn H. induction H as [|v r vars grp (i & E1 & E2) H IH].
  - exists []. split; reflexivity.
  - destruct IH as (fs & Ef & Hk). exists (i :: fs). cbn [gb_fields]. rewrite (gb_index_nth keys Hn i v 0 E1), Ef. split; [reflexivity|].
    intros a c. cbn [gkey map fst]. f_equal; [|apply Hk with (c := c)].
    apply nth_error_nth. rewrite nth_error_map, E2. reflexivity.
Qed.

(** The rows a distinct GroupBy returns after the tuple [prev]. *)
Fixpoint dedup (fs : list nat) (prev : list Z * Z) (l : list (list Z * Z)) : list (list Z * Z) :=
  match l with
  | [] => []
  | t :: l' => if gb_same fs prev t then dedup fs t l' else t :: dedup fs t l'
  end.
Lemma gb_skip_ok fs l : forall prev i,
  match nth_error l (gb_skip fs prev l i - i) with
  | None => dedup fs prev l = []
  | Some t => dedup fs prev l = t :: dedup fs t (skipn (S (gb_skip fs prev l i - i)) l)
  end /\ (i <= gb_skip fs prev l i)%nat.
Proof.
  induction l as [|t l IH]; intros prev i; cbn [gb_skip dedup].
  - rewrite Nat.sub_diag. cbn. auto.
  - destruct (gb_same fs prev t).
    + destruct (IH t (S i)) as [H Hle]. split; [|lia].
      replace (gb_skip fs t l (S i) - i)%nat with (S (gb_skip fs t l (S i) - S i)) by lia. exact H.
    + rewrite Nat.sub_diag. cbn. auto.
Qed.
Lemma dedup_in fs l : forall prev x, In x (dedup fs prev l) -> In x l.
Proof.
  induction l as [|t l IH]; intros prev x; cbn; [auto|]. destruct (gb_same fs prev t); [right; eauto|].
  intros [->|H]; [left; reflexivity|right; eauto].
Qed.
Lemma dedup_keys fs l : forall prev, StronglySorted (fun a b => gb_less fs b a = false) (prev :: l) ->
  NoDup (map (gkey fs) (prev :: dedup fs prev l)) /\
  (forall x, In x (prev :: l) -> In (gkey fs x) (map (gkey fs) (prev :: dedup fs prev l))).
Proof.
  induction l as [|t l IH]; intros prev HS.
  - cbn. split; [repeat constructor; auto|]. intros x [->|[]]; auto.
  - inversion HS as [|? ? HS' HF]; subst. destruct (IH t HS') as [I1 I2]. cbn [dedup].
    destruct (gb_same fs prev t) eqn:E.
    + apply gb_same_key in E. cbn [map] in *. rewrite E. split; [exact I1|].
      intros x [->|Hx]; [rewrite E; left; reflexivity|]. apply I2, Hx.
    + assert (Hne : gkey fs prev <> gkey fs t) by (intros C; apply gb_same_key in C; congruence).
      split.
      * cbn [map]. constructor; [|exact I1]. intros [C|C]; [congruence|].
        apply in_map_iff in C. destruct C as (x & Ex & Hx). apply dedup_in in Hx.
        inversion HS' as [|? ? _ HF']; subst. rewrite Forall_forall in HF'. specialize (HF' x Hx).
        inversion HF as [|? ? Hpt _]; subst. rewrite gb_less_lex in *. rewrite Ex in HF'.
        apply Hne, lex_total; assumption.
      * intros x [->|Hx]; [left; reflexivity|]. right. apply I2, Hx.
Qed.

Lemma sorted_adjacent fs l : StronglySorted (fun a b => gb_less fs b a = false) l -> adjacent (gkey fs) l.
Proof.
  intros HS l1 a l2 b l3 -> E. induction l1 as [|x l1 IH]; [|inversion HS; subst; auto].
  cbn [app] in HS. inversion HS as [|? ? HS' HF]; subst. apply Forall_forall. intros x Hx.
  rewrite Forall_forall in HF. assert (H1 := HF x ltac:(apply in_or_app; auto)). cbn in H1.
  assert (H2 : gb_less fs b x = false).
  { clear - HS' Hx. induction l2 as [|y l2 IH]; [destruct Hx|]. cbn [app] in HS'. inversion HS' as [|? ? HS'' HF]; subst.
    destruct Hx as [->|Hx]; [|auto]. rewrite Forall_forall in HF. apply HF. apply in_or_app. right. left. reflexivity. }
  rewrite gb_less_lex in *. rewrite <- E in H2. apply lex_total; assumption.
Qed.

Lemma skipn_nth {A} (l : list A) : forall i t, nth_error l i = Some t -> skipn i l = t :: skipn (S i) l.
Proof. induction l as [|x l IH]; intros [|i] t E; try discriminate; [injection E as ->; reflexivity|]. apply IH, E. Qed.

Section Gb.
Variable sortf : (list Z * Z -> list Z * Z -> bool) -> list (list Z * Z) -> list (list Z * Z).
Variables (V W rs keys vars : list nat) (fuel : nat).
Hypothesis Hrs : incl rs V.
Hypothesis HV : incl V W.
Hypothesis Hn : NoDup rs.
Let HW : incl rs W. Proof. intros x Hx. apply HV, Hrs, Hx. Qed.
Definition one (distinct : bool) (t : list Z * Z) : list Z * Z := (fst t, if distinct then 1 else snd t).
Local Notation F d := (gb_first sortf fuel rs keys vars d).

Lemma gb_run fs vals : wide rs vals -> forall n i child g0, (length vals - i <= n)%nat ->
  Rows any rs W (o_next (obj (F false) (gb_next rs false) (mkGb child vals fs i))) (fun h => agree W h g0) (rows rs (skipn i vals)).
Proof.
  intros Hw. induction n as [|n IH]; intros i child g0 Hi; apply Rows_Got; intros h _; rewrite obj_next; unfold gb_next; cbn [gb_values gb_idx gb_child gb_fs];
    destruct (nth_error vals i) as [t|] eqn:E.
  - exfalso. assert (H := proj1 (nth_error_Some vals i) ltac:(congruence)). lia.
  - apply nth_error_None in E. rewrite skipn_all2 by exact E. cbn. eexists h, _. split; [reflexivity|]. split; [apply outside_refl|exact Logic.I].
  - assert (Hlt := proj1 (nth_error_Some vals i) ltac:(congruence)).
    assert (Et := skipn_nth vals i t E).
    rewrite Et. unfold wide in Hw. rewrite Forall_forall in Hw. destruct (Hw t (nth_error_In _ _ E)) as [Hl Hc].
    cbn [rows map Got fst snd]. split; [exact Hc|]. eexists _, _. split; [reflexivity|].
    split; [apply set_regs_as_row; assumption|]. split; [apply (outside_incl _ _ _ _ HW), outside_set_regs|]. split; [exact Logic.I|].
    apply IH. lia.
  - apply nth_error_None in E. rewrite skipn_all2 by exact E. cbn. eexists h, _. split; [reflexivity|]. split; [apply outside_refl|exact Logic.I].
Qed.

Lemma nth_error_skipn {A} (l : list A) i j : nth_error (skipn i l) j = nth_error l (i + j).
Proof. revert i. induction l as [|x l IH]; intros [|i]; cbn; try reflexivity; [destruct j; reflexivity|apply IH]. Qed.
Lemma skipn_add {A} (l : list A) i j : skipn j (skipn i l) = skipn (i + j) l.
Proof. revert i. induction l as [|x l IH]; intros [|i]; cbn; try reflexivity; [apply skipn_nil|apply IH]. Qed.

Lemma gb_run_distinct fs vals : wide rs vals -> forall n i prev child g0, (length vals - i <= n)%nat -> nth_error vals i = Some prev ->
  Rows any rs W (o_next (obj (F true) (gb_next rs true) (mkGb child vals fs (S i)))) (fun h => agree W h g0)
    (rows rs (map (one true) (dedup fs prev (skipn (S i) vals)))).
Proof.
  intros Hw. induction n as [|n IH]; intros i prev child g0 Hi Hp.
  { assert (H := proj1 (nth_error_Some vals i) ltac:(congruence)). lia. }
  apply Rows_Got; intros h _; rewrite obj_next; unfold gb_next; cbn [gb_values gb_idx gb_child gb_fs].
  replace (S i - 1)%nat with i by lia. rewrite Hp.
  destruct (gb_skip_ok fs (skipn (S i) vals) prev (S i)) as [Hd Hle].
  set (j := gb_skip fs prev (skipn (S i) vals) (S i)) in *.
  rewrite nth_error_skipn in Hd. replace (S i + (j - S i))%nat with j in Hd by lia.
  destruct (nth_error vals j) as [t|] eqn:E; rewrite Hd.
  - rewrite skipn_add. replace (S i + S (j - S i))%nat with (S j) by lia.
    unfold wide in Hw. rewrite Forall_forall in Hw. destruct (Hw t (nth_error_In _ _ E)) as [Hl Hc].
    cbn [rows map Got fst snd one]. split; [lia|]. eexists _, _. split; [reflexivity|].
    split; [apply set_regs_as_row; assumption|]. split; [apply (outside_incl _ _ _ _ HW), outside_set_regs|]. split; [exact Logic.I|].
    apply IH; [|exact E]. assert (H := proj1 (nth_error_Some vals j) ltac:(congruence)). lia.
  - cbn. eexists h, _. split; [reflexivity|]. split; [apply outside_refl|exact Logic.I].
Qed.

Lemma gb_start distinct L child grp : sorts sortf -> (length L < fuel)%nat -> NoDup keys -> registers keys rs vars grp ->
  Answers V W L child ->
  exists out, Answers rs W out (group_by sortf fuel rs keys vars distinct child) /\
  if distinct then
    NoDup (map (fun a => map (fst a) grp) out) /\
    (forall a, In a L -> In (map (fst a) grp) (map (fun a => map (fst a) grp) out)) /\
    (forall b, In b out -> snd b = 1 /\ In (map (fst b) rs) (map (fun a => map (fst a) rs) L))
  else Permutation (table rs out) (table rs L) /\ adjacent (fun a => map (fst a) grp) out.
Proof.
  intros Hs Hf Hk Hg HL. unfold Answers in HL.
  assert (Hpos := Rows_pos _ _ _ _ _ _ (fun _ => 0) Logic.I HL).
  destruct (gb_fields_ok keys rs vars grp Hk Hg) as (fs & Efs & Hfs).
  destruct (Hs (gb_less fs) (table rs L)) as [P S].
  { eapply strict_weak_ext; [|apply (strict_weak_lex (gkey fs))]. intros a b _ _. symmetry. apply gb_less_lex. }
  set (tab := sortf (gb_less fs) (table rs L)) in *.
  assert (Hw : wide rs tab) by (eapply wide_perm; [exact P|apply wide_table, Hpos]).
  assert (Hrow : forall t, In t tab -> exists a, In a L /\ t = (map (fst a) rs, snd a)).
  { intros t Ht. apply (Permutation_in _ P) in Ht. apply in_map_iff in Ht. destruct Ht as (a & <- & Ha). eauto. }
  assert (Hgrp : forall t, In t tab -> map (as_row rs (fst t)) grp = gkey fs t).
  { intros t Ht. destruct (Hrow t Ht) as (a & Ha & ->). rewrite Hfs. cbn [fst].
    rewrite <- (Hfs (as_row rs (map (fst a) rs)) (snd a)), as_row_vals by (auto; apply map_length). apply Hfs. }
  assert (Efirst : forall g, exists g1 o1, outside W g g1 /\ F distinct (mkGb child [] [] 0) g =
    match tab with
    | [] => Some (0, g1, mkGb o1 tab fs 1)
    | t :: _ => Some (if distinct then 1 else snd t, set_regs rs (fst t) g1, mkGb o1 tab fs 1)
    end).
  { intros g. destruct (collect_all_ok any V W rs Hrs (fun _ => True) L fuel child g [] Hf Logic.I HL) as (g1 & o1 & E & O & _).
    exists g1, o1. split; [exact O|]. unfold gb_first. cbn [gb_child gb_values]. rewrite E. cbn iota beta. rewrite Efs. cbn zeta iota. reflexivity. }
  destruct distinct.
  - exists (rows rs (map (one true) (match tab with [] => [] | t :: l => t :: dedup fs t l end))). split; [|].
    + unfold Answers. apply Rows_Got. intros g _. unfold group_by. rewrite obj_first.
      destruct (Efirst g) as (g1 & o1 & O & E). rewrite E. clear E Efirst. destruct tab as [|t l] eqn:Et.
      * cbn. eexists g1, _. split; [reflexivity|]. split; [exact O|exact Logic.I].
      * inversion Hw as [|? ? [Hl Hc] _]; subst. cbn [map rows one Got fst snd]. split; [lia|]. eexists _, _. split; [reflexivity|].
        split; [apply set_regs_as_row; assumption|].
        split; [eapply outside_trans; [exact O|]; apply (outside_incl _ _ _ _ HW), outside_set_regs|]. split; [exact Logic.I|].
        apply (gb_run_distinct fs (t :: l) Hw (length (t :: l)) 0 t); [lia|reflexivity].
    + destruct tab as [|t l] eqn:Et.
      * assert (L = []) by (apply Permutation_nil in P; destruct L; [reflexivity|discriminate]). subst L.
        cbn. split; [constructor|]. split; intros x [].
      * destruct (dedup_keys fs l t S) as [D1 D2].
        assert (Hsub : incl (t :: dedup fs t l) (t :: l)).
        { intros x [->|Hx]; [left; reflexivity|right; eapply dedup_in; exact Hx]. }
        assert (Ek : map (fun a : regs * Z => map (fst a) grp) (rows rs (map (one true) (t :: dedup fs t l))) = map (gkey fs) (t :: dedup fs t l)).
        { unfold rows. rewrite !map_map. apply map_ext_in. intros x Hx. cbn [one fst]. apply Hgrp, Hsub, Hx. }
        split; [exact (eq_ind_r (@NoDup _) D1 Ek)|]. split.
        -- intros a Ha.
           assert (Hin : In (map (fst a) grp) (map (gkey fs) (t :: dedup fs t l))).
           { rewrite <- (Hfs (fst a) (snd a)). apply D2.
             apply (Permutation_in _ (Permutation_sym P)). apply in_map_iff. eauto. }
           rewrite <- Ek in Hin. exact Hin.
        -- intros b Hb. unfold rows in Hb. apply in_map_iff in Hb. destruct Hb as (y & <- & Hy).
           apply in_map_iff in Hy. destruct Hy as (x & <- & Hx). cbn [one fst snd]. split; [reflexivity|].
           destruct (Hrow x (Hsub x Hx)) as (a & Ha & ->). cbn [fst]. rewrite as_row_vals by (auto; apply map_length).
           apply in_map_iff. eauto.
  - exists (rows rs tab). split; [|split].
    + unfold Answers. apply Rows_Got. intros g _. unfold group_by. rewrite obj_first.
      destruct (Efirst g) as (g1 & o1 & O & E). rewrite E. clear E Efirst. destruct tab as [|t l] eqn:Et.
      * cbn. eexists g1, _. split; [reflexivity|]. split; [exact O|exact Logic.I].
      * inversion Hw as [|? ? [Hl Hc] _]; subst. cbn [map rows Got fst snd]. split; [exact Hc|]. eexists _, _. split; [reflexivity|].
        split; [apply set_regs_as_row; assumption|].
        split; [eapply outside_trans; [exact O|]; apply (outside_incl _ _ _ _ HW), outside_set_regs|]. split; [exact Logic.I|].
        apply (gb_run fs (t :: l) Hw (length (t :: l)) 1); lia.
    + rewrite table_rows by assumption. exact P.
    + apply sorted_adjacent in S. intros l1 a l2 b l3 E Hab. unfold rows in E.
      apply map_eq_app in E. destruct E as (t1 & r1 & Et & E1 & E). destruct r1 as [|ta r1]; [discriminate|].
      cbn [map] in E. injection E as Ea E. apply map_eq_app in E. destruct E as (t2 & r2 & Er & E2 & E). subst r1.
      destruct r2 as [|tb r2]; [discriminate|]. cbn [map] in E. injection E as Eb E3. subst.
      cbn [fst] in *. rewrite !Hgrp in Hab by (rewrite Et; repeat (apply in_or_app; right; try (left; reflexivity); right)).
      specialize (S t1 ta t2 tb r2 Et Hab). apply Forall_forall. intros x Hx. apply in_map_iff in Hx. destruct Hx as (y & <- & Hy). cbn [fst].
      rewrite !Hgrp by (rewrite Et; apply in_or_app; right; try (left; reflexivity); right; apply in_or_app; left; exact Hy).
      rewrite Forall_forall in S. apply S, Hy.
Qed.
End Gb.
