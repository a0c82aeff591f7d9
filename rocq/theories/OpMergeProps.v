(** The properties of the merge join, C57 and the merge part of C65. *)
From Verif Require Export OpHashProps OpMergeProofs2.
Local Open Scope Z_scope.

(** ** The rows of the specification *)
Lemma joined_cons X x y a L R : In x X -> ~ In y X ->
  joined X x y (a :: L) R = map (fun b : regs * Z => (beside X (fst a) (fst b), snd a * snd b)) (filter (fun b : regs * Z => fst a x =? fst b y) R) ++ joined X x y L R.
Proof.
  intros Hx Hy. unfold joined, pairs. cbn [flat_map]. rewrite filter_app. f_equal. clear L.
  induction R as [|b R IH]; [reflexivity|]. cbn [map filter fst].
  assert (Ex : beside X (fst a) (fst b) x = fst a x) by (unfold beside; destruct (in_dec Nat.eq_dec x X); tauto).
  assert (Ey : beside X (fst a) (fst b) y = fst b y) by (unfold beside; destruct (in_dec Nat.eq_dec y X); tauto).
  rewrite Ex, Ey. destruct (fst a x =? fst b y); cbn [map]; [f_equal; exact IH|exact IH].
Qed.
Lemma merged_joined lv rv ltail A B : ~ In rv (lv :: ltail) -> merged lv rv ltail false false A B = joined (lv :: ltail) lv rv A B.
Proof.
  intros H. induction A as [|a A IH]; [reflexivity|]. rewrite joined_cons by (auto; left; reflexivity). cbn [merged nuls app]. rewrite IH. f_equal.
  unfold kl, kr, nurs. destruct (filter (fun b : regs * Z => fst a lv =? fst b rv) B); reflexivity.
Qed.
Lemma occurs_map V f l t : occurs V (map f l) t = fold_right (fun b n => (if values_dec (map (fst (f b : regs * Z)) V) t then snd (f b) else 0) + n) 0 (l : list (regs * Z)).
Proof. induction l as [|b l IH]; [reflexivity|]. cbn. rewrite <- IH. reflexivity. Qed.
Lemma occurs_cons V a l t : occurs V (a :: l) t = (if values_dec (map (fst a) V) t then snd a else 0) + occurs V l t.
Proof. reflexivity. Qed.
Lemma merged_left V lv rv ltail t : ~ In rv (lv :: ltail) -> forall A B, rising lv A ->
  occurs V (merged lv rv ltail true false A B) t =
  occurs V (joined (lv :: ltail) lv rv A B) t + occurs V (unmatched (lv :: ltail) lv rv A B) t.
Proof.
  intros H. induction A as [|a A IH]; intros B HS.
  - cbn [merged nuls]. unfold unmatched. cbn [forallb]. rewrite (filter_all _ B) by (apply Forall_forall; reflexivity). reflexivity.
  - inversion HS as [|? ? HS' Hlt]; subst. rewrite joined_cons by (auto; left; reflexivity). cbn [merged]. rewrite !occurs_app, IH by exact HS'.
    assert (E1 : occurs V (match filter (fun b : regs * Z => kl lv a =? kr rv b) B with [] => nurs lv ltail false [a] | E => map (pr lv ltail a) E end) t =
      occurs V (map (fun b : regs * Z => (beside (lv :: ltail) (fst a) (fst b), snd a * snd b)) (filter (fun b : regs * Z => fst a lv =? fst b rv) B)) t).
    { unfold kl, kr. destruct (filter (fun b : regs * Z => fst a lv =? fst b rv) B); reflexivity. }
    rewrite E1.
    assert (E2 : joined (lv :: ltail) lv rv A (filter (fun b => kl lv a <? kr rv b) B) = joined (lv :: ltail) lv rv A B).
    { rewrite <- !merged_joined by exact H. apply merged_filter; [reflexivity|]. intros b _ Hb. apply Z.ltb_ge in Hb. eapply Forall_impl; [|exact Hlt].
      intros x Hx. cbn beta in Hx. unfold kl in *. lia. }
    rewrite E2.
    assert (E3 : occurs V (unmatched (lv :: ltail) lv rv (a :: A) B) t =
      occurs V (nuls lv ltail true (filter (fun b => kr rv b <? kl lv a) B)) t + occurs V (unmatched (lv :: ltail) lv rv A (filter (fun b => kl lv a <? kr rv b) B)) t).
    { clear - Hlt. unfold unmatched, nuls. induction B as [|b B IH]; [reflexivity|]. cbn [filter forallb].
      unfold kl, kr in *. destruct (Z.eqb_spec (fst a lv) (fst b rv)) as [E|E]; cbn [negb andb].
      - destruct (Z.ltb_spec (fst b rv) (fst a lv)); [lia|]. destruct (Z.ltb_spec (fst a lv) (fst b rv)); [lia|]. exact IH.
      - destruct (Z.ltb_spec (fst b rv) (fst a lv)); destruct (Z.ltb_spec (fst a lv) (fst b rv)); try lia.
        + assert (Q : forallb (fun a0 : regs * Z => negb (fst a0 lv =? fst b rv)) A = true).
          { apply forallb_forall. intros x Hx. rewrite Forall_forall in Hlt. specialize (Hlt x Hx). apply negb_true_iff, Z.eqb_neq. lia. }
          rewrite Q. cbn [map]. rewrite !occurs_cons. etransitivity; [exact (f_equal (Z.add _) IH)|]. unfold nul. cbn [fst snd]. apply Z.add_assoc.
        + cbn [filter]. destruct (forallb (fun a0 : regs * Z => negb (fst a0 lv =? fst b rv)) A).
          * cbn [map]. rewrite !occurs_cons. etransitivity; [exact (f_equal (Z.add _) IH)|]. cbn [fst snd]. lia.
          * exact IH. }
    rewrite E3. lia.
Qed.
Lemma merged_right V lv rv ltail t A B : ~ In rv (lv :: ltail) ->
  occurs V (merged lv rv ltail false true A B) t =
  occurs V (joined (lv :: ltail) lv rv A B) t + occurs V (alone (lv :: ltail) lv rv A B) t.
Proof.
  intros H. induction A as [|a A IH]; [reflexivity|]. rewrite joined_cons by (auto; left; reflexivity). cbn [merged nuls app]. rewrite !occurs_app, IH.
  unfold alone. cbn [filter]. unfold kl, kr.
  assert (Q : forallb (fun b : regs * Z => negb (fst a lv =? fst b rv)) B = match filter (fun b : regs * Z => fst a lv =? fst b rv) B with [] => true | _ => false end).
  { clear. induction B as [|b B IH]; [reflexivity|]. cbn [forallb filter]. destruct (fst a lv =? fst b rv); [reflexivity|exact IH]. }
  rewrite Q. destruct (filter (fun b : regs * Z => fst a lv =? fst b rv) B) as [|b E]; cbn [nurs map].
  - rewrite !occurs_cons. unfold nur. cbn [fst snd]. cbn [occurs fold_right]. lia.
  - apply Z.add_assoc.
Qed.

(** ** The operator *)
Lemma merge_run lopt ropt Vl Wl Vr Wr D lv rv ltail rtail fl fr left right fuel :
  incl Vl Wl -> incl Vr Wr -> disjoint Wl Wr -> disjoint D Wl -> incl (lv :: ltail) Vl -> incl (rv :: rtail) Vr -> NoDup (lv :: ltail) -> NoDup (rv :: rtail) ->
  lopt && ropt = false -> (forall v, SL lv lopt ropt (fl v)) -> (forall v, SR rv lopt ropt (fr v)) ->
  (forall v, (2 * (length (fl v) + length (fr v)) + 1 < fuel)%nat) ->
  Restarts Vl Wl D fl left -> Restarts Vr Wr D fr right ->
  Restarts ((lv :: ltail) ++ (rv :: rtail)) (Wl ++ Wr) D (fun v => merged lv rv ltail lopt ropt (fl v) (fr v)) (merge_join fuel lv rv ltail rtail lopt ropt left right).
Proof.
  intros H1 H2 H3 HD H4 H5 H6 H7 Ho HSL HSR Hf (Il & IL & RL) (Ir & IR & RR).
  exists (mj_ok Il Ir fuel lv rv ltail rtail lopt ropt). split; [eexists; split; [reflexivity|]; split; assumption|].
  intros o (s & -> & Is & Is') v. exact (first_ok Il Ir Vl Wl Vr Wr fuel lv rv ltail rtail lopt ropt H1 H2 H3 H4 H5 H6 H7 Ho D fl fr HD v s Is Is' (RL _ Is v) (RR _ Is' v) (HSL v) (HSR v) (Hf v)).
Qed.
(** A single run. *)
Lemma merge_once lopt ropt Vl Wl Vr Wr lv rv ltail rtail L R left right fuel :
  incl Vl Wl -> incl Vr Wr -> disjoint Wl Wr -> incl (lv :: ltail) Vl -> incl (rv :: rtail) Vr -> NoDup (lv :: ltail) -> NoDup (rv :: rtail) ->
  lopt && ropt = false -> SL lv lopt ropt L -> SR rv lopt ropt R -> (2 * (length L + length R) + 1 < fuel)%nat ->
  Answers Vl Wl L left -> Answers Vr Wr R right ->
  Answers ((lv :: ltail) ++ (rv :: rtail)) (Wl ++ Wr) (merged lv rv ltail lopt ropt L R) (merge_join fuel lv rv ltail rtail lopt ropt left right).
Proof.
  intros H1 H2 H3 H4 H5 H6 H7 Ho HSL HSR Hf HL HR.
  apply (Rows_I (mj_ok any any fuel lv rv ltail rtail lopt ropt)); [intros; exact Logic.I|].
  eapply Rows_pre; [|apply (first_ok any any Vl Wl Vr Wr fuel lv rv ltail rtail lopt ropt H1 H2 H3 H4 H5 H6 H7 Ho [] (fun _ => L) (fun _ => R)) with (v := fun _ => 0); auto; try exact Logic.I].
  - intros g _ x [].
  - intros x [].
  - eapply Rows_pre; [|exact HL]. intros; exact Logic.I.
  - eapply Rows_pre; [|exact HR]. intros; exact Logic.I.
Qed.
Lemma not_in_left Wl Wr Vl Vr lv rv ltail rtail : incl Vl Wl -> incl Vr Wr -> disjoint Wl Wr -> incl (lv :: ltail) Vl -> incl (rv :: rtail) Vr -> ~ In rv (lv :: ltail).
Proof. intros H1 H2 H3 H4 H5 C. exact (H3 rv (H1 _ (H4 _ C)) (H2 _ (H5 _ (or_introl eq_refl)))). Qed.

(** ** C57 *)
Theorem C57_merge_join : forall Vl Wl Vr Wr lv rv ltail rtail L R left right fuel,
  incl Vl Wl -> incl Vr Wr -> disjoint Wl Wr ->
  incl (lv :: ltail) Vl -> incl (rv :: rtail) Vr -> NoDup (lv :: ltail) -> NoDup (rv :: rtail) ->
  ascending lv L -> ascending rv R -> (2 * (length L + length R) + 1 < fuel)%nat ->
  Answers Vl Wl L left -> Answers Vr Wr R right ->
  Answers ((lv :: ltail) ++ (rv :: rtail)) (Wl ++ Wr) (joined (lv :: ltail) lv rv L R)
    (merge_join fuel lv rv ltail rtail false false left right).
Proof.
  intros * H1 H2 H3 H4 H5 H6 H7 HSL HSR Hf HL HR. rewrite <- merged_joined by (eapply (not_in_left Wl Wr Vl Vr); eassumption).
  eapply merge_once; eauto; (split; [assumption|discriminate]).
Qed.
Print Assumptions C57_merge_join.
Theorem C57_restart : forall Vl Wl Vr Wr D lv rv ltail rtail fl fr left right fuel,
  incl Vl Wl -> incl Vr Wr -> disjoint Wl Wr -> disjoint D Wl ->
  incl (lv :: ltail) Vl -> incl (rv :: rtail) Vr -> NoDup (lv :: ltail) -> NoDup (rv :: rtail) ->
  (forall v, ascending lv (fl v)) -> (forall v, ascending rv (fr v)) -> (forall v, (2 * (length (fl v) + length (fr v)) + 1 < fuel)%nat) ->
  Restarts Vl Wl D fl left -> Restarts Vr Wr D fr right ->
  Restarts ((lv :: ltail) ++ (rv :: rtail)) (Wl ++ Wr) D (fun v => joined (lv :: ltail) lv rv (fl v) (fr v))
    (merge_join fuel lv rv ltail rtail false false left right).
Proof.
  intros * H1 H2 H3 HD H4 H5 H6 H7 HSL HSR Hf HL HR.
  assert (GL : forall v, SL lv false false (fl v)) by (intros v; split; [exact (HSL v)|intros C; discriminate C]).
  assert (GR : forall v, SR rv false false (fr v)) by (intros v; split; [exact (HSR v)|intros C; discriminate C]).
  assert (HM := merge_run false false Vl Wl Vr Wr D lv rv ltail rtail fl fr left right fuel H1 H2 H3 HD H4 H5 H6 H7 eq_refl GL GR Hf HL HR).
  destruct HM as (I & HI & HM). exists I. split; [exact HI|]. intros o Ho v. rewrite <- merged_joined by (eapply (not_in_left Wl Wr Vl Vr); eassumption). exact (HM o Ho v).
Qed.
Print Assumptions C57_restart.
(** Values that occur several times on both sides, on one side, and on no side. *)
Definition ex_ml := [([1; 10], 1); ([2; 20], 2); ([2; 21], 1); ([2; 22], 1); ([4; 40], 1); ([5; 50], 1); ([7; 70], 1); ([7; 71], 1)].
Definition ex_mr := [([2; 5], 3); ([2; 6], 1); ([3; 7], 1); ([5; 8], 1); ([5; 9], 1); ([7; 4], 1)].
Definition ex_merge (lopt ropt : bool) (l r : list (list Z * Z)) : oper := merge_join 99 1 3 [2%nat] [4%nat] lopt ropt
  (scan [1%nat; 2%nat] [] (fun _ => l)) (scan [3%nat; 4%nat] [] (fun _ => r)).
Example C57_example :
  Answers [1%nat; 2%nat; 3%nat; 4%nat] [1%nat; 2%nat; 3%nat; 4%nat] (joined [1%nat; 2%nat] 1 3 (rows [1%nat; 2%nat] ex_ml) (rows [3%nat; 4%nat] ex_mr)) (ex_merge false false ex_ml ex_mr) /\
  table [2%nat; 4%nat] (joined [1%nat; 2%nat] 1 3 (rows [1%nat; 2%nat] ex_ml) (rows [3%nat; 4%nat] ex_mr)) =
  [([20; 5], 6); ([20; 6], 2); ([21; 5], 3); ([21; 6], 1); ([22; 5], 3); ([22; 6], 1); ([50; 8], 1); ([50; 9], 1); ([70; 4], 1); ([71; 4], 1)].
Proof.
  split; [|vm_compute; reflexivity].
  apply (C57_merge_join [1%nat; 2%nat] [1%nat; 2%nat] [3%nat; 4%nat] [3%nat; 4%nat] 1 3 [2%nat] [4%nat]);
    [apply incl_refl|apply incl_refl|apply ex_hash_dis|apply incl_refl|apply incl_refl|nodup|nodup| | |cbn; lia|apply scan_answers; [nodup|wide]|apply scan_answers; [nodup|wide]];
    repeat constructor; cbn; lia.
Qed.

(** ** C65, merge join *)
(** Missing: repeated join values of the optional side and values from 2^32-1 on, see below. *)
Theorem C65_merge_left_optional_partial : forall Vl Wl Vr Wr lv rv ltail rtail L R left right fuel,
  incl Vl Wl -> incl Vr Wr -> disjoint Wl Wr ->
  incl (lv :: ltail) Vl -> incl (rv :: rtail) Vr -> NoDup (lv :: ltail) -> NoDup (rv :: rtail) ->
  rising lv L -> ascending rv R -> Forall (fun a => fst a lv < null32) L -> Forall (fun b => fst b rv < null32) R ->
  (2 * (length L + length R) + 1 < fuel)%nat ->
  Answers Vl Wl L left -> Answers Vr Wr R right ->
  exists out, Answers ((lv :: ltail) ++ (rv :: rtail)) (Wl ++ Wr) out (merge_join fuel lv rv ltail rtail true false left right) /\
  forall t, occurs ((lv :: ltail) ++ (rv :: rtail)) out t =
            occurs ((lv :: ltail) ++ (rv :: rtail)) (joined (lv :: ltail) lv rv L R ++ unmatched (lv :: ltail) lv rv L R) t.
Proof.
  intros * H1 H2 H3 H4 H5 H6 H7 HSL HSR HnL HnR Hf HL HR. eexists. split; [eapply merge_once; eauto; split; auto|].
  intros t. rewrite occurs_app. apply merged_left; [|exact HSL]. eapply (not_in_left Wl Wr Vl Vr); eassumption.
Qed.
Print Assumptions C65_merge_left_optional_partial.
Theorem C65_merge_right_optional_partial : forall Vl Wl Vr Wr lv rv ltail rtail L R left right fuel,
  incl Vl Wl -> incl Vr Wr -> disjoint Wl Wr ->
  incl (lv :: ltail) Vl -> incl (rv :: rtail) Vr -> NoDup (lv :: ltail) -> NoDup (rv :: rtail) ->
  ascending lv L -> rising rv R -> Forall (fun a => fst a lv < null32) L -> Forall (fun b => fst b rv < null32) R ->
  (2 * (length L + length R) + 1 < fuel)%nat ->
  Answers Vl Wl L left -> Answers Vr Wr R right ->
  exists out, Answers ((lv :: ltail) ++ (rv :: rtail)) (Wl ++ Wr) out (merge_join fuel lv rv ltail rtail false true left right) /\
  forall t, occurs ((lv :: ltail) ++ (rv :: rtail)) out t =
            occurs ((lv :: ltail) ++ (rv :: rtail)) (joined (lv :: ltail) lv rv L R ++ alone (lv :: ltail) lv rv L R) t.
Proof.
  intros * H1 H2 H3 H4 H5 H6 H7 HSL HSR HnL HnR Hf HL HR. eexists. split; [eapply merge_once; eauto; split; auto|].
  intros t. rewrite occurs_app. apply merged_right. eapply (not_in_left Wl Wr Vl Vr); eassumption.
Qed.
Print Assumptions C65_merge_right_optional_partial.
Definition ex_ol := [([1; 10], 1); ([2; 20], 2); ([5; 50], 1); ([7; 70], 1)].
Example C65_merge_left_example : exists out, Answers [1%nat; 2%nat; 3%nat; 4%nat] [1%nat; 2%nat; 3%nat; 4%nat] out (ex_merge true false ex_ol ex_mr) /\
  table [1%nat; 2%nat; 3%nat; 4%nat] out = [([2; 20; 2; 5], 6); ([2; 20; 2; 6], 2); ([null32; null32; 3; 7], 1); ([5; 50; 5; 8], 1); ([5; 50; 5; 9], 1); ([7; 70; 7; 4], 1)].
Proof.
  destruct (C65_merge_left_optional_partial [1%nat; 2%nat] [1%nat; 2%nat] [3%nat; 4%nat] [3%nat; 4%nat] 1 3 [2%nat] [4%nat]
    (rows [1%nat; 2%nat] ex_ol) (rows [3%nat; 4%nat] ex_mr) (scan [1%nat; 2%nat] [] (fun _ => ex_ol)) (scan [3%nat; 4%nat] [] (fun _ => ex_mr)) 99) as (out & HA & _);
    [apply incl_refl|apply incl_refl|apply ex_hash_dis|apply incl_refl|apply incl_refl|nodup|nodup| | | | |cbn; lia|apply scan_answers; [nodup|wide]|apply scan_answers; [nodup|wide]|];
    try (repeat constructor; cbn; lia).
  exists out. split; [exact HA|]. eapply (Answers_run _ _ _ _ 99 (fun _ => 0)); [exact HA|]. vm_compute. reflexivity.
Qed.
Example C65_merge_right_example : exists out, Answers [1%nat; 2%nat; 3%nat; 4%nat] [1%nat; 2%nat; 3%nat; 4%nat] out (ex_merge false true ex_ml ex_hr) /\
  table [1%nat; 2%nat; 3%nat; 4%nat] out = [([1; 10; 1; 5], 3); ([2; 20; null32; null32], 2); ([2; 21; null32; null32], 1); ([2; 22; null32; null32], 1);
    ([4; 40; null32; null32], 1); ([5; 50; null32; null32], 1); ([7; 70; 7; 6], 1); ([7; 71; 7; 6], 1)].
Proof.
  destruct (C65_merge_right_optional_partial [1%nat; 2%nat] [1%nat; 2%nat] [3%nat; 4%nat] [3%nat; 4%nat] 1 3 [2%nat] [4%nat]
    (rows [1%nat; 2%nat] ex_ml) (rows [3%nat; 4%nat] ex_hr) (scan [1%nat; 2%nat] [] (fun _ => ex_ml)) (scan [3%nat; 4%nat] [] (fun _ => ex_hr)) 99) as (out & HA & _);
    [apply incl_refl|apply incl_refl|apply ex_hash_dis|apply incl_refl|apply incl_refl|nodup|nodup| | | | |cbn; lia|apply scan_answers; [nodup|wide]|apply scan_answers; [nodup|wide]|];
    try (repeat constructor; cbn; lia).
  exists out. split; [exact HA|]. eapply (Answers_run _ _ _ _ 99 (fun _ => 0)); [exact HA|]. vm_compute. reflexivity.
Qed.
(** The optional left side has a value twice, the right side once: the next right row without
    partner is lost. *)
Definition ex_twice_left := ex_merge true false [([1; 10], 1); ([1; 11], 1)] [([1; 5], 1); ([2; 6], 1)].
Theorem C65_merge_repeated_left_refuted :
  run [1%nat; 2%nat; 3%nat; 4%nat] 9 (o_first ex_twice_left) (fun _ => 0) = Some [([1; 10; 1; 5], 1); ([1; 11; 1; 5], 1)] /\
  forall W out, Answers [1%nat; 2%nat; 3%nat; 4%nat] W out ex_twice_left -> occurs [1%nat; 2%nat; 3%nat; 4%nat] out [null32; null32; 2; 6] = 0.
Proof.
  assert (E : run [1%nat; 2%nat; 3%nat; 4%nat] 9 (o_first ex_twice_left) (fun _ => 0) = Some [([1; 10; 1; 5], 1); ([1; 11; 1; 5], 1)]) by (vm_compute; reflexivity).
  split; [exact E|]. intros W out HA. rewrite occurs_table, (Answers_run _ _ _ _ _ _ _ HA E). reflexivity.
Qed.
Print Assumptions C65_merge_repeated_left_refuted.
(** The same on the other side. *)
Definition ex_twice_right := ex_merge false true [([1; 10], 1); ([2; 20], 1)] [([1; 5], 1); ([1; 6], 1)].
Theorem C65_merge_repeated_right_refuted :
  run [1%nat; 2%nat; 3%nat; 4%nat] 9 (o_first ex_twice_right) (fun _ => 0) = Some [([1; 10; 1; 5], 1); ([1; 10; 1; 6], 1)] /\
  forall W out, Answers [1%nat; 2%nat; 3%nat; 4%nat] W out ex_twice_right -> occurs [1%nat; 2%nat; 3%nat; 4%nat] out [2; 20; null32; null32] = 0.
Proof.
  assert (E : run [1%nat; 2%nat; 3%nat; 4%nat] 9 (o_first ex_twice_right) (fun _ => 0) = Some [([1; 10; 1; 5], 1); ([1; 10; 1; 6], 1)]) by (vm_compute; reflexivity).
  split; [exact E|]. intros W out HA. rewrite occurs_table, (Answers_run _ _ _ _ _ _ _ HA E). reflexivity.
Qed.
Print Assumptions C65_merge_repeated_right_refuted.
(** A right value above 2^32-1, here the integer 1, after the optional left side has ended: the
    join does not end, however many rounds it is given. *)
Definition ex_endless (fuel : nat) : oper := merge_join fuel 1 3 [2%nat] [4%nat] true false
  (scan [1%nat; 2%nat] [] (fun _ => [([1; 10], 1)])) (scan [3%nat; 4%nat] [] (fun _ => [([2 ^ 62 + 1; 5], 1)])).
Lemma endless_step fuel s g : mj_scan s = ScanStepLeft -> mj_left s = obj (scan_first [1%nat; 2%nat] [] (fun _ => [([1; 10], 1)])) (scan_next [1%nat; 2%nat]) [] -> g 3%nat = 2 ^ 62 + 1 ->
  exists g1 s1, mj_round fuel 1 3 [2%nat] [4%nat] true false s g = Some (inl (g1, s1)) /\ mj_scan s1 = ScanStepLeft /\ mj_left s1 = mj_left s /\ g1 3%nat = 2 ^ 62 + 1.
Proof.
  intros E1 E2 E3. unfold mj_round. rewrite E1. unfold mj_step_left, mj_next_left. rewrite E2, obj_next. cbn [scan_next]. cbn [Z.eqb].
  unfold mj_compare. set (g1 := set_all [1%nat; 2%nat] null32 g).
  assert (F1 : g1 1%nat = null32) by reflexivity. assert (F3 : g1 3%nat = 2 ^ 62 + 1) by exact E3. rewrite F1, F3.
  replace (null32 <? 2 ^ 62 + 1) with true by reflexivity. unfold mj_cont. eexists g1, _. split; [reflexivity|]. auto.
Qed.
Lemma endless fuel : forall k s g, mj_scan s = ScanStepLeft -> mj_left s = obj (scan_first [1%nat; 2%nat] [] (fun _ => [([1; 10], 1)])) (scan_next [1%nat; 2%nat]) [] -> g 3%nat = 2 ^ 62 + 1 ->
  mj_loop fuel 1 3 [2%nat] [4%nat] true false k s g = None.
Proof.
  induction k as [|k IH]; intros s g E1 E2 E3; [reflexivity|]. cbn [mj_loop].
  destruct (endless_step fuel s g E1 E2 E3) as (g1 & s1 & E & F1 & F2 & F3). rewrite E. apply IH; [exact F1|rewrite F2; exact E2|exact F3].
Qed.
Theorem C65_merge_large_refuted :
  Answers [1%nat; 2%nat] [1%nat; 2%nat] (rows [1%nat; 2%nat] [([1; 10], 1)]) (scan [1%nat; 2%nat] [] (fun _ => [([1; 10], 1)])) /\
  Answers [3%nat; 4%nat] [3%nat; 4%nat] (rows [3%nat; 4%nat] [([2 ^ 62 + 1; 5], 1)]) (scan [3%nat; 4%nat] [] (fun _ => [([2 ^ 62 + 1; 5], 1)])) /\
  forall fuel g, o_first (ex_endless fuel) g = None.
Proof.
  split; [apply scan_answers; [nodup|wide]|]. split; [apply scan_answers; [nodup|wide]|]. intros fuel g.
  unfold ex_endless, merge_join. rewrite obj_first. unfold mj_first, scan. cbn [mj_left mj_right mj_set_left mj_set_lc]. rewrite obj_first.
  unfold scan_first at 1. cbn [scan_next fst snd]. cbn [Z.eqb andb Pos.eqb]. rewrite obj_first. unfold scan_first at 1. cbn [scan_next fst snd]. cbn [Z.eqb Pos.eqb].
  unfold mj_next. set (s0 := mj_set_scan ScanHasBoth _). set (g0 := set_regs [3%nat; 4%nat] _ _).
  destruct fuel as [|k]; [reflexivity|]. cbn [mj_loop]. unfold mj_round at 1. change (mj_scan s0) with ScanHasBoth. cbn iota.
  unfold mj_compare at 1. assert (F1 : g0 1%nat = 1) by reflexivity. assert (F3 : g0 3%nat = 2 ^ 62 + 1) by reflexivity. rewrite F1, F3.
  replace (1 <? 2 ^ 62 + 1) with true by reflexivity. unfold mj_cont.
  rewrite (endless (S k) k (mj_set_scan ScanStepLeft s0) g0 eq_refl eq_refl F3). reflexivity.
Qed.
Print Assumptions C65_merge_large_refuted.
