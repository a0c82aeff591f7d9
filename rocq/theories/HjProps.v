(** C30: hash joins of operators deliver the natural join. *)
From Coq Require Import Sorted Permutation ZifyBool.
From Verif Require Import HjModel TupleSpec HjSpec TupleProofs HjProofs TupleProps.
Local Open Scope Z_scope.
Ltac Zify.zify_post_hook ::= Z.div_mod_to_equations.

Lemma first_copy n l : wide n l -> map (fun r => map (col r) (seq 0 n)) l = l.
Proof.
  intros W. rewrite <- (map_id l) at 2. apply map_ext_in. intros r Hr. unfold wide in W. rewrite Forall_forall in W. specialize (W r Hr). subst n. clear. unfold col. induction r as [|a r IH]; [reflexivity|]. cbn [length seq map nth]. f_equal. rewrite <- seq_shift, map_map. exact IH.
Qed.
Lemma index_some' x : forall l, In x l -> exists k, index_of x l = Some k.
Proof. intros l H. destruct (index_of x l) as [k|] eqn:E; [eauto|]. apply index_none in E. contradiction. Qed.
Lemma index_lt_app x a b k : index_of x (a ++ b) = Some k -> In x a -> (k < length a)%nat.
Proof. revert k. induction a as [|y a IH]; intros k E Hx; [contradiction|]. cbn in *. destruct (Z.eqb_spec y x) as [->|]; [injection E as <-; lia|]. destruct (index_of x (a ++ b)) as [j|] eqn:Ej; [|discriminate]. cbn in E. injection E as <-. destruct Hx as [|Hx]; [congruence|]. specialize (IH j eq_refl Hx). lia. Qed.

(** The rows of the result: the values of the projected variables. *)
Lemma return_values proj sig r : NoDup sig -> length r = length sig -> proj <> [] ->
  map (col r) (plan_return proj sig) = values sig (filter (fun x => existsb (Z.eqb x) sig) proj) r.
Proof.
  intros HN HL HP. unfold plan_return. destruct proj as [|p0 proj0]; [contradiction|]. set (proj := p0 :: proj0). clearbody proj. unfold values. rewrite map_filter_fm, map_fm. apply fm_ext. intros x _. destruct (index_of x sig) as [k|] eqn:E.
  - destruct (index_some _ _ _ E) as [Hk Ek]. rewrite (proj2 (exists_in x sig)) by (rewrite <- Ek; now apply nth_In). cbn [map]. rewrite <- Ek. now rewrite value_nth.
  - apply index_none in E. now rewrite (proj2 (exists_notin x sig) E).
Qed.

(** Without projections: the natural join of all the children, with every row as often as there are
    rows that make it. *)
Theorem C30_join : forall srt c0 mid cl, sorts srt -> well (tab c0) -> Forall well (map tab mid) -> well (tab cl) ->
  linked (c_vars c0) (map tab (mid ++ [cl])) ->
  exists l, hj_exec srt [] (c0 :: mid ++ [cl]) = Some l /\
    Permutation l (snd (join_all (c_vars c0) (c_rows c0) (map tab (mid ++ [cl])))).
Proof.
  intros srt c0 mid cl HS H0 HM HL HK. assert (HA : Forall well (map tab (mid ++ [cl]))) by (rewrite map_app; apply Forall_app; split; auto; constructor; auto).
  destruct (loop_join srt (plan_return [] (snd (plan_rest [] (c_vars c0) (mid ++ [cl])))) [] cl HS HL mid (c_vars c0) (c_rows c0) H0 HM HK) as (o & Eo & Po).
  - exists (new_vars (fst (join_all (c_vars c0) [] (map tab mid))) (c_vars cl)), []. rewrite app_nil_r. repeat split; auto; try contradiction. rewrite (plan_rest_cur [] _ _ [] HA). unfold plan_return. rewrite map_app. rewrite Forall_forall. intros k Hk. apply in_seq in Hk.
    assert (E : forall ts s l t, fst (join_all s l (ts ++ [t])) = join_sig (fst (join_all s l ts)) (fst t)). { clear. induction ts as [|[s2 l2] ts IH]; intros s l [s3 l3]; cbn; [reflexivity|]. apply IH. }
    cbn [map] in Hk. rewrite E in Hk. unfold join_sig in Hk. rewrite app_length in Hk. exact (proj2 Hk).
  - exists o. split.
    + unfold hj_exec. destruct (mid ++ [cl]) as [|x y] eqn:E; [destruct mid; discriminate|]. rewrite first_copy by exact (proj2 H0). destruct (plan_rest [] (c_vars c0) (x :: y)) as [pl cur]. exact Eo.
    + rewrite Po. rewrite (plan_rest_cur [] _ _ (c_rows c0) HA). destruct (join_all_well (map tab (mid ++ [cl])) (c_vars c0) (c_rows c0) H0 HA) as [_ W]. cbn [plan_return]. now rewrite first_copy by exact W.
Qed.
Print Assumptions C30_join.

(** With projections: the projected columns of the natural join, if among the variables that only
    the last child has those that are projected come first. *)
Theorem C30_projection_partial : forall srt proj c0 mid cl a b, sorts srt -> well (tab c0) -> Forall well (map tab mid) -> well (tab cl) ->
  linked (c_vars c0) (map tab (mid ++ [cl])) -> proj <> [] ->
  new_vars (fst (join_all (c_vars c0) (c_rows c0) (map tab mid))) (c_vars cl) = a ++ b -> incl a proj -> (forall x, In x b -> ~ In x proj) ->
  exists l, hj_exec srt proj (c0 :: mid ++ [cl]) = Some l /\
    let (sig, rows) := join_all (c_vars c0) (c_rows c0) (map tab (mid ++ [cl])) in
    Permutation l (map (values sig (filter (fun x => existsb (Z.eqb x) sig) proj)) rows).
Proof.
  intros srt proj c0 mid cl a b HS H0 HM HL HK HP EN HAp HBp. assert (HA : Forall well (map tab (mid ++ [cl]))) by (rewrite map_app; apply Forall_app; split; auto; constructor; auto).
  assert (E : forall ts s l t, fst (join_all s l (ts ++ [t])) = join_sig (fst (join_all s l ts)) (fst t)). { clear. induction ts as [|[s2 l2] ts IH]; intros s l [s3 l3]; cbn; [reflexivity|]. apply IH. }
  destruct (loop_join srt (plan_return proj (snd (plan_rest proj (c_vars c0) (mid ++ [cl])))) proj cl HS HL mid (c_vars c0) (c_rows c0) H0 HM HK) as (o & Eo & Po).
  - rewrite (join_all_sig _ _ (c_rows c0) []) in EN. exists a, b. repeat split; auto; try contradiction. rewrite (plan_rest_cur proj _ _ [] HA). rewrite map_app. cbn [map]. rewrite E. cbn [tab fst]. unfold join_sig. rewrite EN, app_assoc.
    rewrite Forall_forall. intros k Hk. unfold plan_return in Hk. destruct proj as [|p0 pr]; [contradiction|]. set (P := p0 :: pr) in *. clearbody P. apply in_flat_map in Hk as (x & Hx & Hk).
    destruct (index_of x _) as [j|] eqn:Ej in Hk; [|contradiction]. destruct Hk as [<-|[]]. destruct (index_some _ _ _ Ej) as [Hj Exj]. rewrite <- app_length. eapply index_lt_app; [exact Ej|].
    assert (Hin : In x ((fst (join_all (c_vars c0) [] (map tab mid)) ++ a) ++ b)) by (rewrite <- Exj; now apply nth_In). apply in_app_or in Hin as [|Hin]; [auto|]. exfalso. eapply HBp; eauto.
  - exists o. split.
    + unfold hj_exec. destruct (mid ++ [cl]) as [|x y] eqn:E1; [destruct mid; discriminate|]. rewrite first_copy by exact (proj2 H0). destruct (plan_rest proj (c_vars c0) (x :: y)) as [pl cur]. exact Eo.
    + rewrite (plan_rest_cur proj _ _ (c_rows c0) HA) in Po. destruct (join_all_well (map tab (mid ++ [cl])) (c_vars c0) (c_rows c0) H0 HA) as [N W]. destruct (join_all (c_vars c0) (c_rows c0) (map tab (mid ++ [cl]))) as [sig rows]. cbn [fst snd] in *.
      rewrite Po. erewrite map_ext_in; [reflexivity|]. intros r Hr. cbn beta. rewrite Forall_forall in W. now apply return_values; auto.
Qed.
Print Assumptions C30_projection_partial.

(** A projection on variables of the earlier children only, or on all that the last one adds, is such
    a projection. *)
Theorem C30_projection_cases : forall (proj new : list Z), (forall x, In x new -> ~ In x proj) \/ incl new proj ->
  exists a b, new = a ++ b /\ incl a proj /\ (forall x, In x b -> ~ In x proj).
Proof. intros proj new [H|H]; [exists [], new; repeat split; auto; intros x []|exists new, []; rewrite app_nil_r; repeat split; auto]. Qed.
Print Assumptions C30_projection_cases.

Lemma out_len w ret pc r1 r2 o : hj_out w ret pc r1 r2 = Some o -> length o = length ret.
Proof.
  unfold hj_out. revert o. induction ret as [|k ret IH]; intros o E; cbn [fold_right] in E; [injection E as <-; reflexivity|]. destruct (fold_right _ _ _) as [l|] in E, IH; [|discriminate]. specialize (IH l eq_refl).
  destruct (k <? w)%nat; [injection E as <-; cbn; lia|]. destruct (nth_error pc (k - w)); [|discriminate]. injection E as <-. cbn. lia.
Qed.
Lemma outs_len n : forall l o, (forall r, In (Some r) l -> length r = n) -> hj_outs l = Some o -> Forall (fun r => length r = n) o.
Proof. induction l as [|x l IH]; intros o H E; cbn in E; [injection E as <-; constructor|]. destruct x as [r|]; [|discriminate]. destruct (hj_outs l) as [rs|]; [|discriminate]. injection E as <-. constructor; [apply H; now left|]. apply IH; auto. intros r' Hr. apply H. now right. Qed.
Lemma loop_len srt ret : forall rest w rows o, hj_loop srt ret w rows rest = Some o -> Forall (fun r => length r = length ret) o.
Proof.
  induction rest as [|[[c js] pc] rest IH]; intros w rows o E; [discriminate|]. cbn [hj_loop] in E. destruct rows as [|r0 rows]; [injection E as <-; constructor|]. destruct (_ || _); [discriminate|]. destruct rest as [|x rest].
  - eapply outs_len; [|exact E]. intros r Hr. apply in_flat_map in Hr as (r2 & _ & Hr). apply in_map_iff in Hr as (r1 & Hr & _). eapply out_len. exact Hr.
  - eapply IH. exact E.
Qed.

(** hasNext, next and getElementAt list the rows of the output. *)
Theorem C30_walk : forall srt proj cs l, hj_exec srt proj cs = Some l -> Z.of_nat (length l) < 2 ^ 31 ->
  exists t, hj_table srt proj cs = Some t /\ (tt_size t <> O -> forall fuel, (length l < fuel)%nat -> hj_walk fuel t (-1) = Some l).
Proof.
  intros srt proj cs l HE HB. unfold hj_table. destruct cs as [|c0 [|c1 cs]]; try discriminate. rewrite HE. eexists. split; [reflexivity|]. set (t := mkTuples _ _ _ _). intros HZ fuel0 Hf0.
  assert (HW : Forall (fun r => length r = tt_size t) (tt_rows t)).
  { subst t. cbn [tt_size tt_rows]. unfold hj_exec in HE. destruct (plan_rest proj (c_vars c0) (c1 :: cs)) as [pl cur]. cbn [snd]. eapply loop_len. exact HE. }
  assert (EL : tt_rows t = l) by reflexivity. rewrite <- EL in HB, Hf0 |- *. clearbody t. clear HE EL l.
  assert (H : forall fuel k, (k <= length (tt_rows t))%nat -> (length (tt_rows t) - k < fuel)%nat -> hj_walk fuel t (Z.of_nat k - 1) = Some (skipn k (tt_rows t))).
  { induction fuel as [|fuel IH]; intros k Hk Hf; [lia|]. cbn [hj_walk]. rewrite Z.mod_small by lia. destruct (Z.ltb_spec (Z.of_nat (length (tt_rows t))) (2 ^ 31)); [|lia].
    destruct (Z.ltb_spec (Z.of_nat k - 1) (Z.of_nat (length (tt_rows t)) - 1)).
    - replace (Z.of_nat k - 1 + 1) with (Z.of_nat k) by lia. rewrite (cols_all t HW HZ ltac:(lia) k) by (auto; lia).
      rewrite (skipn_row t HZ k) by lia. replace (Z.of_nat k) with (Z.of_nat (S k) - 1) by lia. rewrite IH by lia. assert (Hk' : (k < length (tt_rows t))%nat) by lia. rewrite Forall_forall in HW. specialize (HW _ (nth_In _ [] Hk')). rewrite <- HW, firstn_all. reflexivity.
    - rewrite skipn_all2 by lia. reflexivity. }
  exact (H fuel0 0%nat ltac:(lia) ltac:(lia)).
Qed.
Print Assumptions C30_walk.

(** Non-vacuity: three children, with two shared variables in the last, and rows that match more
    than once. *)
Definition ch0 := mkChild [10; 20] [[1; 2]; [1; 3]; [4; 2]].
Definition ch1 := mkChild [20; 30] [[2; 7]; [2; 8]; [5; 9]; [3; 7]].
Definition ch2 := mkChild [30; 40; 10] [[7; 100; 1]; [8; 200; 4]; [7; 300; 1]; [9; 1; 1]].
Example C30_join_applies : well (tab ch0) /\ Forall well (map tab [ch1]) /\ well (tab ch2) /\ linked (c_vars ch0) (map tab ([ch1] ++ [ch2])).
Proof. unfold well. cbn. repeat split; repeat constructor; cbn; try lia; intuition lia. Qed.
Example C30_join_runs : hj_exec isort [] [ch0; ch1; ch2] = Some [[1; 2; 7; 100]; [1; 3; 7; 100]; [4; 2; 8; 200]; [1; 2; 7; 300]; [1; 3; 7; 300]].
Proof. vm_compute. reflexivity. Qed.
Example C30_projection_runs : hj_exec isort [40; 10] [ch0; ch1; ch2] = Some [[100; 1]; [100; 1]; [200; 4]; [300; 1]; [300; 1]] /\
  new_vars (fst (join_all (c_vars ch0) (c_rows ch0) (map tab [ch1]))) (c_vars ch2) = [40] ++ [] /\ incl [40] [40; 10].
Proof. repeat split; try (vm_compute; reflexivity). intros x [<-|[]]. now left. Qed.
Example C30_walk_runs : (do t <- hj_table isort [40; 10] [ch0; ch1; ch2]; hj_walk 6 t (-1)) = Some [[100; 1]; [100; 1]; [200; 4]; [300; 1]; [300; 1]].
Proof. vm_compute. reflexivity. Qed.

(** ** What the code gets wrong *)

(** A projection that leaves out a variable before another one of the last child reads
    outside of the columns to copy. *)
Theorem C30_projection_refuted : exists proj c0 cl, well (tab c0) /\ well (tab cl) /\ linked (c_vars c0) (map tab [cl]) /\ incl proj (join_sig (c_vars c0) (c_vars cl)) /\
  hj_exec isort proj [c0; cl] = None.
Proof.
  exists [4], (mkChild [1] [[10]]), (mkChild [1; 2; 4] [[10; 50; 60]]). split; [|split; [|split; [|split]]].
  - unfold well; cbn. repeat constructor; cbn; intuition lia.
  - unfold well; cbn. repeat constructor; cbn; intuition lia.
  - cbn. split; [lia|exact I].
  - intros x Hx. cbn in *. tauto.
  - vm_compute. reflexivity.
Qed.
Print Assumptions C30_projection_refuted.
(** Children that share no variable, or more than two, are not joined. *)
Theorem C30_shared_refuted : (exists c0 cl, well (tab c0) /\ well (tab cl) /\ common (c_vars cl) (c_vars c0) = [] /\ hj_exec isort [] [c0; cl] = None) /\
  (exists c0 cl, well (tab c0) /\ well (tab cl) /\ length (common (c_vars cl) (c_vars c0)) = 3%nat /\ hj_exec isort [] [c0; cl] = None).
Proof.
  split; [exists (mkChild [1] [[10]]), (mkChild [2] [[20]])|exists (mkChild [1; 2; 3] [[10; 20; 30]]), (mkChild [1; 2; 3] [[10; 20; 30]])]; unfold well; cbn; repeat split; repeat constructor; cbn; intuition lia.
Qed.
Print Assumptions C30_shared_refuted.
