(** The properties of the SPARQL operators, C55 and C58-C64. *)
From Verif Require Export OpProofs7.
Local Open Scope Z_scope.

(** An input for the examples: it returns the rows of the table [tab d], where [d] are the
    values of the registers [D] at the time of the call of first. *)
Definition scan_next (rs : list nat) (s : list (list Z * Z)) (g : regs) : option (Z * regs * list (list Z * Z)) :=
  match s with [] => Some (0, g, []) | t :: l => Some (snd t, set_regs rs (fst t) g, l) end.
Definition scan_first (rs D : list nat) (tab : list Z -> list (list Z * Z)) (_ : list (list Z * Z)) (g : regs) :=
  scan_next rs (tab (map g D)) g.
Definition scan (rs D : list nat) (tab : list Z -> list (list Z * Z)) : oper :=
  obj (scan_first rs D tab) (scan_next rs) [].
Lemma scan_restarts rs D tab : NoDup rs -> (forall d, wide rs (tab d)) ->
  Restarts rs rs D (fun v => rows rs (tab (map v D))) (scan rs D tab).
Proof.
  intros Hn Hw. set (I := fun o => exists s, o = obj (scan_first rs D tab) (scan_next rs) s).
  assert (G : forall l g, wide rs l -> Got I rs rs (wrap (scan_first rs D tab) (scan_next rs) (scan_next rs l g)) g (rows rs l)).
  { induction l as [|[vs c] l IH]; intros g Hl.
    - cbn. eexists g, _. split; [reflexivity|]. split; [apply outside_refl|eexists; reflexivity].
    - inversion Hl as [|? ? [H1 H2] Hl']; subst. cbn [fst snd] in *. cbn [scan_next rows map Got wrap fst snd]. split; [exact H2|]. eexists _, _. split; [reflexivity|].
      split; [apply set_regs_as_row; assumption|]. split; [apply outside_set_regs|]. split; [eexists; reflexivity|].
      apply Rows_Got. intros h _. rewrite obj_next. apply IH, Hl'. }
  exists I. split; [eexists; reflexivity|].
  intros o' (s & ->) v. apply Rows_Got. intros g Hg. rewrite obj_first. unfold scan_first at 1. rewrite (map_agree D g v Hg). apply G, Hw.
Qed.
Lemma scan_answers rs tab : NoDup rs -> wide rs tab -> Answers rs rs (rows rs tab) (scan rs [] (fun _ => tab)).
Proof. intros Hn Hw. eapply Restarts_Answers; [|apply (scan_restarts rs [] (fun _ => tab)); auto]. reflexivity. Qed.
Ltac wide := repeat constructor.
Ltac nodup := repeat constructor; cbn; intuition congruence.

(** One step of a run. *)
Lemma Rows_step I V W call (pre : regs -> Prop) l g : Rows I V W call pre l -> pre g ->
  match call g with
  | None => False
  | Some (c, g1, o1) =>
      match l with
      | [] => c = 0 /\ I o1
      | (v, c') :: l' => c' = c /\ 0 < c /\ agree V g1 v /\ I o1 /\ Rows I V W (o_next o1) (fun h => agree W h g1) l'
      end
  end.
Proof.
  intros HR Hg. rewrite Rows_Got in HR. specialize (HR g Hg). destruct l as [|[v c'] l'].
  - destruct HR as (g' & o' & -> & _ & HI). auto.
  - destruct HR as (Hc & g' & o' & -> & A & _ & HI & HR). auto.
Qed.

Lemma Rows_next I V W call l g1 : Rows I V W call (fun h => agree W h g1) l ->
  match call g1 with
  | None => False
  | Some (c, g2, o1) =>
      match l with
      | [] => c = 0 /\ I o1
      | (v, c') :: l' => c' = c /\ 0 < c /\ agree V g2 v /\ I o1 /\ Rows I V W (o_next o1) (fun h => agree W h g2) l'
      end
  end.
Proof. intros H. apply (Rows_step _ _ _ _ _ _ g1 H), agree_refl. Qed.

(** ** C55 *)
Theorem C55_nested_loop_join : forall Vl Wl Vr Wr D (f : regs -> list (regs * Z)) L left right fuel lc0,
  incl Vl Wl -> incl Vr Wr -> disjoint Wl Wr -> incl D Vl -> (length L <= fuel)%nat ->
  Answers Vl Wl L left -> Restarts Vr Wr D f right ->
  Answers (Vl ++ Vr) (Wl ++ Wr) (pairs Vl L f) (nested_loop_join fuel left right lc0).
Proof.
  intros * H1 H2 H3 H4 Hf HL (Ir & HI & Hr). unfold Answers in *.
  eapply Rows_I; [|eapply (nlj_start any Ir Vl Wl Vr Wr D f); eauto]. intros o _. exact Logic.I.
Qed.
Print Assumptions C55_nested_loop_join.
(** The join can be run again, so it can be the right side of another one. *)
Theorem C55_restart : forall Vl Wl Vr Wr Dl D (fl : regs -> list (regs * Z)) f left right fuel lc0,
  incl Vl Wl -> incl Vr Wr -> disjoint Wl Wr -> incl D Vl -> (forall v, (length (fl v) <= fuel)%nat) ->
  Restarts Vl Wl Dl fl left -> Restarts Vr Wr D f right ->
  Restarts (Vl ++ Vr) (Wl ++ Wr) Dl (fun v => pairs Vl (fl v) f) (nested_loop_join fuel left right lc0).
Proof.
  intros * H1 H2 H3 H4 Hf (Il & HIl & Hl) (Ir & HI & Hr).
  exists (nlj_ok Il Ir fuel). split; [exists left, right, lc0; auto|].
  intros o' (l & r & lc & -> & H5 & H6) v. eapply (nlj_start Il Ir Vl Wl Vr Wr D f); eauto.
Qed.
Print Assumptions C55_restart.
(** Left rows 1, 2 (twice), 3; the right side returns x+10 and x+20, nothing for 3. *)
Definition ex_left := scan [1%nat] [] (fun _ => [([1], 1); ([2], 2); ([3], 1)]).
Definition ex_right := scan [2%nat] [1%nat] (fun d => match d with [3] => [] | [x] => [([x + 10], 1); ([x + 20], 3)] | _ => [] end).
Example C55_example : exists l,
  Answers ([1%nat] ++ [2%nat]) ([1%nat] ++ [2%nat]) l (nested_loop_join 9 ex_left ex_right 0) /\
  table [1%nat; 2%nat] l = [([1; 11], 1); ([1; 21], 3); ([2; 12], 2); ([2; 22], 6)].
Proof.
  eexists. split.
  - eapply (C55_nested_loop_join [1%nat] [1%nat] [2%nat] [2%nat] [1%nat]); [apply incl_refl|apply incl_refl| |apply incl_refl| |apply scan_answers|apply scan_restarts].
    + intros x [<-|[]] [C|[]]. discriminate.
    + cbn. lia.
    + nodup.
    + wide.
    + nodup.
    + intros d. destruct d as [|x [|]]; [constructor| |destruct x as [|[[]|[]|]|]; constructor].
      destruct x as [|[[]|[]|]|]; wide.
  - reflexivity.
Qed.

(** ** C58 *)
Definition padded (opt : bool) (L : list (regs * Z)) : list (regs * Z) :=
  match L with [] => if opt then [(fun _ => null64, 1)] else [] | _ => L end.
(** Missing: the right side both optional and empty, see below; and a product that is run again. *)
Theorem C58_product_partial : forall Vl Wl Vr Wr L R left right fuel lopt ropt,
  incl Vl Wl -> incl Vr Wr -> disjoint Wl Wr -> NoDup Vr -> (length R <= fuel)%nat ->
  (R = [] -> ropt = false) ->
  Answers Vl Wl L left -> Answers Vr Wr R right ->
  Answers (Vl ++ Vr) (Wl ++ Wr) (pairs Vl (padded lopt L) (fun _ => padded ropt R))
    (cart_prod fuel Vl Vr lopt ropt left right).
Proof.
  intros * H1 H2 H3 H4 H5 H6 HL HR.
  replace (padded ropt R) with R by (destruct R; [rewrite H6; reflexivity|reflexivity]).
  apply cp_start; assumption.
Qed.
Print Assumptions C58_product_partial.
Example C58_example :
  let l := scan [1%nat] [] (fun _ => [([1], 1); ([2], 2)]) in
  let r := scan [2%nat] [] (fun _ => [([7], 1); ([8], 3)]) in
  exists o, Answers ([1%nat] ++ [2%nat]) ([1%nat] ++ [2%nat]) o (cart_prod 9 [1%nat] [2%nat] false true l r) /\
  table [1%nat; 2%nat] o = [([1; 7], 1); ([1; 8], 3); ([2; 7], 2); ([2; 8], 6)].
Proof.
  cbv zeta. eexists. split.
  - apply C58_product_partial; [apply incl_refl|apply incl_refl| | | | |apply scan_answers|apply scan_answers]; try nodup; try wide.
    intros x [<-|[]] [C|[]]. discriminate.
  - reflexivity.
Qed.
(** With an empty optional right side the first row does not have its variables unbound:
    the register of the right side keeps what was in it. *)
Theorem C58_optional_refuted : exists left right,
  Answers [1%nat] [1%nat] (rows [1%nat] [([1], 1)]) left /\ Answers [2%nat] [2%nat] [] right /\
  ~ Answers ([1%nat] ++ [2%nat]) ([1%nat] ++ [2%nat])
      (pairs [1%nat] (padded false (rows [1%nat] [([1], 1)])) (fun _ => padded true []))
      (cart_prod 9 [1%nat] [2%nat] false true left right).
Proof.
  exists (scan [1%nat] [] (fun _ => [([1], 1)])), (scan [2%nat] [] (fun _ => [])).
  split; [apply scan_answers; [nodup|wide]|]. split; [apply (scan_answers [2%nat] []); [nodup|constructor]|].
  intros H. unfold Answers in H. rewrite Rows_Got in H. specialize (H (fun _ => 5) Logic.I). cbn [pairs padded rows map flat_map app] in H.
  destruct H as (_ & g' & o' & E & A & _).
  assert (E2 := f_equal (fun r => match r with Some (_, g, _) => g 2%nat | None => 0 end) E). cbn in E2.
  specialize (A 2%nat (or_intror (or_introl eq_refl))). rewrite <- E2 in A. discriminate A.
Qed.
Print Assumptions C58_optional_refuted.

(** ** C59 *)
(** The registers of a part: it writes to its own ones, is renamed to others, and every
    variable of the union is bound by it, renamed or unbound. *)
Record part_ok (V W : list nat) (p : un_part) (Vp Wp : list nat) : Prop := {
  po_VW : incl Vp Wp;
  po_W : incl (Wp ++ map snd (up_map p) ++ up_init p) W;
  po_from : incl (map fst (up_map p)) Vp;
  po_disjoint : disjoint (map snd (up_map p) ++ up_init p) Wp /\ disjoint (map snd (up_map p)) (up_init p) /\ NoDup (map snd (up_map p));
  po_bound : forall x, In x V -> In x Vp \/ In x (map snd (up_map p)) \/ In x (up_init p) }.
Lemma part_src V W p Vp Wp (F I : oper -> Prop) L : part_ok V W p Vp Wp -> (forall o, F o -> I o) ->
  (forall o, F o -> Rows I Vp Wp (o_first o) (fun _ => True) L) ->
  src_ok V W (mkSrc F I Vp Wp (up_map p) (up_init p) L).
Proof.
  intros [P1 P2 P3 (P4 & P5 & P6) P7] HF HR.
  constructor; cbn; auto; intros x Hx; try (apply P2, in_or_app; auto; right; apply in_or_app; auto; fail);
  intros Hy; refine (P4 x _ Hy); apply in_or_app; auto.
Qed.
Theorem C59_union : forall V W (ps : list (un_part * (list nat * list nat * list (regs * Z)))),
  Forall (fun p => part_ok V W (fst p) (fst (fst (snd p))) (snd (fst (snd p))) /\
                   Answers (fst (fst (snd p))) (snd (fst (snd p))) (snd (snd p)) (up_op (fst p))) ps ->
  Answers V W
    (flat_map (fun p => map (fun a => (union_row (up_map (fst p)) (up_init (fst p)) (fst a), snd a)) (snd (snd p))) ps)
    (union_op (map fst ps)).
Proof.
  intros V W ps H. unfold Answers.
  set (ds := map (fun p : un_part * (list nat * list nat * list (regs * Z)) =>
     mkSrc (fun o => o = up_op (fst p)) any (fst (fst (snd p))) (snd (fst (snd p))) (up_map (fst p)) (up_init (fst p)) (snd (snd p))) ps).
  replace (flat_map _ ps) with (flat_map rows_of ds).
  2:{ unfold ds. clear. induction ps as [|p ps IH]; [reflexivity|]. cbn [map flat_map]. rewrite IH. reflexivity. }
  eapply (Rows_I (un_ok ds)); [intros; exact Logic.I|]. apply un_start.
  - unfold ds. rewrite Forall_map. eapply Forall_impl; [|exact H]. intros p [Hp Ha]. apply part_src; [exact Hp|intros; exact Logic.I|].
    intros o ->. exact Ha.
  - unfold ds. cbn [un_parts]. clear. induction ps as [|p ps IH]; constructor; [|exact IH]. repeat split; reflexivity.
Qed.
Print Assumptions C59_union.
Theorem C59_restart : forall V W (ps : list (un_part * (list nat * list nat * list (regs * Z)))),
  Forall (fun p => part_ok V W (fst p) (fst (fst (snd p))) (snd (fst (snd p))) /\
                   Restarts (fst (fst (snd p))) (snd (fst (snd p))) [] (fun _ => snd (snd p)) (up_op (fst p))) ps ->
  Restarts V W []
    (fun _ => flat_map (fun p => map (fun a => (union_row (up_map (fst p)) (up_init (fst p)) (fst a), snd a)) (snd (snd p))) ps)
    (union_op (map fst ps)).
Proof.
  intros V W ps H.
  assert (G : exists ds : list src, Forall (src_ok V W) ds /\ Forall2 (part_of s_I) (map fst ps) ds /\
    Forall (fun d => forall o, s_I d o -> s_F d o) ds /\
    flat_map rows_of ds = flat_map (fun p => map (fun a => (union_row (up_map (fst p)) (up_init (fst p)) (fst a), snd a)) (snd (snd p))) ps).
  { induction H as [|p ps (Hp & I & HI & HR) _ (ds & D1 & D2 & D3 & D4)].
    - exists []. repeat split; constructor.
    - exists (mkSrc I I (fst (fst (snd p))) (snd (fst (snd p))) (up_map (fst p)) (up_init (fst p)) (snd (snd p)) :: ds).
      repeat split.
      + constructor; [|exact D1]. apply part_src; [exact Hp|auto|]. intros o Ho. eapply Rows_pre; [|exact (HR o Ho (fun _ => 0))].
        intros g _ x [].
      + cbn [map]. constructor; [|exact D2]. repeat split. exact HI.
      + constructor; [|exact D3]. auto.
      + cbn [flat_map]. rewrite D4. reflexivity. }
  destruct G as (ds & D1 & D2 & D3 & D4). rewrite <- D4.
  exists (un_ok ds). split; [exists (mkUn (map fst ps) 0); auto|].
  intros o' (s & -> & Hs) v. apply un_start; [exact D1|].
  clear - Hs D3. induction Hs as [|p d ps ds (H1 & H2 & H3) _ IH]; constructor; inversion D3; subst; [|auto].
  split; [auto|]. split; assumption.
Qed.
Print Assumptions C59_restart.
Example C59_example :
  let p1 := mkPart (scan [11%nat] [] (fun _ => [([1], 2)])) [(11%nat, 1%nat)] [2%nat] in
  let p2 := mkPart (scan [12%nat; 13%nat] [] (fun _ => [([3; 4], 1); ([5; 6], 1)])) [(12%nat, 1%nat); (13%nat, 2%nat)] [] in
  exists o, Answers [1%nat; 2%nat] [1%nat; 2%nat; 11%nat; 12%nat; 13%nat] o (union_op [p1; p2]) /\
  table [1%nat; 2%nat] o = [([1; null32], 2); ([3; 4], 1); ([5; 6], 1)].
Proof.
  cbv zeta. eexists. split.
  - apply (C59_union [1%nat; 2%nat] [1%nat; 2%nat; 11%nat; 12%nat; 13%nat]
      [(mkPart (scan [11%nat] [] (fun _ => [([1], 2)])) [(11%nat, 1%nat)] [2%nat], ([11%nat], [11%nat], rows [11%nat] [([1], 2)]));
       (mkPart (scan [12%nat; 13%nat] [] (fun _ => [([3; 4], 1); ([5; 6], 1)])) [(12%nat, 1%nat); (13%nat, 2%nat)] [], ([12%nat; 13%nat], [12%nat; 13%nat], rows [12%nat; 13%nat] [([3; 4], 1); ([5; 6], 1)]))]).
    repeat apply Forall_cons; [| |constructor]; (split; [constructor; cbn|apply scan_answers; [nodup|wide]]);
    unfold incl, disjoint; repeat split; try (intros x Hx; cbn in *; intuition (subst; try discriminate); fail); try nodup.
  - reflexivity.
Qed.
(** Unbound is written as the number 4294967295, which is also a possible term. *)
Theorem C59_unbound_refuted : exists p1 p2 o1 o2,
  Answers [1%nat] [1%nat; 2%nat] o1 (union_op [p1]) /\ Answers [1%nat] [1%nat; 2%nat] o2 (union_op [p2]) /\
  table [1%nat] o1 = table [1%nat] o2 /\
  up_init p1 = [1%nat] /\ up_init p2 = [] /\ up_map p2 = [(2%nat, 1%nat)] /\
  Answers [2%nat] [2%nat] [(fun _ => 4294967295, 1)] (up_op p2).
Proof.
  exists (mkPart (scan [2%nat] [] (fun _ => [([7], 1)])) [] [1%nat]), (mkPart (scan [2%nat] [] (fun _ => [([4294967295], 1)])) [(2%nat, 1%nat)] []).
  eexists. eexists. split; [|split; [|split; [|split; [|split; [|split]]]]].
  - apply (C59_union [1%nat] [1%nat; 2%nat] [(mkPart (scan [2%nat] [] (fun _ => [([7], 1)])) [] [1%nat], ([2%nat], [2%nat], rows [2%nat] [([7], 1)]))]).
    constructor; [|constructor]. split; [constructor; cbn|apply scan_answers; [nodup|wide]];
    unfold incl, disjoint; repeat split; try (intros x Hx; cbn in *; intuition (subst; try discriminate); fail); try nodup.
  - apply (C59_union [1%nat] [1%nat; 2%nat] [(mkPart (scan [2%nat] [] (fun _ => [([4294967295], 1)])) [(2%nat, 1%nat)] [], ([2%nat], [2%nat], rows [2%nat] [([4294967295], 1)]))]).
    constructor; [|constructor]. split; [constructor; cbn|apply scan_answers; [nodup|wide]];
    unfold incl, disjoint; repeat split; try (intros x Hx; cbn in *; intuition (subst; try discriminate); fail); try nodup.
  - reflexivity.
  - reflexivity.
  - reflexivity.
  - reflexivity.
  - cbn [up_op]. eapply Rows_same; [|apply scan_answers; [nodup|wide]]. repeat constructor. intros x [<-|[]]. reflexivity.
Qed.
Print Assumptions C59_unbound_refuted.
Lemma StronglySorted_fst (l : list (Z * Z)) : StronglySorted Z.le (map fst l) -> StronglySorted (fun a b => fst a <= fst b) l.
Proof.
  induction l as [|p l IH]; intros H; constructor; cbn [map] in H; apply StronglySorted_inv in H; destruct H as [H1 H2]; [auto|].
  rewrite Forall_map in H2. exact H2.
Qed.
(** The merging union of two sorted inputs without a common value. *)
Theorem C59_merge_union_partial : forall Vl Wl Vr Wr result lreg rreg L R left right,
  disjoint Wl Wr -> incl Vl Wl -> incl Vr Wr -> In lreg Vl -> In rreg Vr -> ~ In result Wl -> ~ In result Wr ->
  (forall a b, In a L -> In b R -> fst a lreg <> fst b rreg) ->
  StronglySorted (fun a b => fst a lreg <= fst b lreg) L -> StronglySorted (fun a b => fst a rreg <= fst b rreg) R ->
  Answers Vl Wl L left -> Answers Vr Wr R right ->
  exists out, Answers [result] (result :: Wl ++ Wr) out (merge_union result lreg rreg left right) /\
    Permutation (table [result] out) (table [lreg] L ++ table [rreg] R) /\
    StronglySorted (fun a b => fst a result <= fst b result) out.
Proof.
  intros * H1 H2 H3 H4 H5 H6 H7 Hno SL SR HL HR. eexists. split; [|split].
  - apply (mu_start Vl Wl Vr Wr result lreg rreg H1 H2 H4 H5 H6 H7 L R left right); try assumption.
    intros x Hx Hy. apply in_map_iff in Hx, Hy. destruct Hx as (a & <- & Ha), Hy as (b & Eb & Hb). exact (Hno a b Ha Hb (eq_sym Eb)).
  - assert (P := merge_vals_perm (S (length L + length R)) (vals lreg L) (vals rreg R)).
    apply (Permutation_map (fun p => ([fst p], snd p))) in P.
    + unfold table. rewrite map_map. cbn [map fst snd]. rewrite P, map_app. unfold vals. rewrite !map_map. reflexivity.
    + unfold vals. rewrite !map_length. lia.
    + unfold vals. rewrite !map_map. cbn [fst]. intros x Hx Hy. apply in_map_iff in Hx, Hy. destruct Hx as (a & <- & Ha), Hy as (b & Eb & Hb). exact (Hno a b Ha Hb (eq_sym Eb)).
  - apply StronglySorted_map. cbn [fst].
    assert (Hlo : exists lo, (forall a, In a L -> lo <= fst a lreg) /\ (forall a, In a R -> lo <= fst a rreg)).
    { exists (Z.min (fold_right (fun a m => Z.min (fst a lreg) m) 0 L) (fold_right (fun a m => Z.min (fst a rreg) m) 0 R)).
      assert (G : forall r (l : list (regs * Z)) a, In a l -> fold_right (fun a m => Z.min (fst a r) m) 0 l <= fst a r).
      { intros r l. induction l as [|x l IH]; intros a Ha; [destruct Ha|]. cbn [fold_right]. destruct Ha as [->|Ha]; [apply Z.le_min_l|]. exact (Z.le_trans _ _ _ (Z.le_min_r _ _) (IH a Ha)). }
      split; intros a Ha; [exact (Z.le_trans _ _ _ (Z.le_min_l _ _) (G _ _ a Ha))|exact (Z.le_trans _ _ _ (Z.le_min_r _ _) (G _ _ a Ha))]. }
    destruct Hlo as (lo & LoL & LoR).
    assert (Hs : forall r (l : list (regs * Z)), (forall a, In a l -> lo <= fst a r) -> StronglySorted (fun a b => fst a r <= fst b r) l -> Sorted Z.le (lo :: map fst (vals r l))).
    { intros r l Hl S. apply StronglySorted_Sorted. constructor.
      - unfold vals. rewrite map_map. apply StronglySorted_map. exact S.
      - unfold vals. rewrite map_map, Forall_map, Forall_forall. exact Hl. }
    assert (S := merge_vals_sorted (S (length L + length R)) (vals lreg L) (vals rreg R) lo ltac:(unfold vals; rewrite !map_length; apply Nat.lt_succ_diag_r) (Hs lreg L LoL SL) (Hs rreg R LoR SR)).
    apply Sorted_StronglySorted in S; [|intros a b c; apply Z.le_trans]. apply StronglySorted_inv in S. apply StronglySorted_fst, (proj1 S).
Qed.
Print Assumptions C59_merge_union_partial.
Example C59_merge_union_example :
  let l := scan [1%nat] [] (fun _ => [([1], 1); ([4], 2)]) in let r := scan [2%nat] [] (fun _ => [([3], 1); ([8], 3)]) in
  exists o, Answers [3%nat] [3%nat; 1%nat; 2%nat] o (merge_union 3 1 2 l r) /\
  Permutation (table [3%nat] o) [([1], 1); ([4], 2); ([3], 1); ([8], 3)].
Proof.
  cbv zeta. destruct (C59_merge_union_partial [1%nat] [1%nat] [2%nat] [2%nat] 3%nat 1%nat 2%nat (rows [1%nat] [([1], 1); ([4], 2)]) (rows [2%nat] [([3], 1); ([8], 3)])
    (scan [1%nat] [] (fun _ => [([1], 1); ([4], 2)])) (scan [2%nat] [] (fun _ => [([3], 1); ([8], 3)]))) as (o & H1 & H2 & _);
   try (apply scan_answers; [nodup|wide]); try apply incl_refl; try (cbn; intuition congruence).
  - intros x [<-|[]] [C|[]]. discriminate.
  - intros a b Ha Hb. cbn in Ha, Hb. intuition subst; cbn; discriminate.
  - repeat constructor; cbn; lia.
  - repeat constructor; cbn; lia.
  - exists o. split; [exact H1|exact H2].
Qed.
(** A value on both sides after which the left side ends is returned a second time. *)
Theorem C59_merge_union_refuted : exists left right l r,
  Answers [1%nat] [1%nat] l left /\ Answers [2%nat] [2%nat] r right /\ table [1%nat] l = [([5], 1)] /\ table [2%nat] r = [([5], 1)] /\
  forall out, Answers [3%nat] [3%nat; 1%nat; 2%nat] out (merge_union 3 1 2 left right) -> table [3%nat] out = [([5], 2); ([5], 1)].
Proof.
  exists (scan [1%nat] [] (fun _ => [([5], 1)])), (scan [2%nat] [] (fun _ => [([5], 1)])), (rows [1%nat] [([5], 1)]), (rows [2%nat] [([5], 1)]).
  split; [apply scan_answers; [nodup|wide]|]. split; [apply scan_answers; [nodup|wide]|]. split; [reflexivity|]. split; [reflexivity|].
  intros out H. unfold Answers in H.
  eapply (Rows_step _ _ _ _ _ _ (fun _ => 0)) in H; [|exact Logic.I].
  destruct out as [|[v c] out]; hnf in H; [destruct H; discriminate|]. destruct H as (-> & _ & Hv & _ & H).
  apply Rows_next in H.
  destruct out as [|[v2 c2] out]; hnf in H; [destruct H; discriminate|]. destruct H as (-> & _ & Hv2 & _ & H).
  apply Rows_next in H.
  destruct out as [|[v3 c3] out]; hnf in H; [|exfalso; destruct H as (_ & H & _); cbn in H; lia].
  specialize (Hv 3%nat (or_introl eq_refl)). specialize (Hv2 3%nat (or_introl eq_refl)). cbn in *. rewrite <- Hv, <- Hv2. reflexivity.
Qed.
Print Assumptions C59_merge_union_refuted.
