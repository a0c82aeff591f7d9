(** The properties of the SPARQL operators, C60-C64. *)
From Verif Require Export OpProps.
Local Open Scope Z_scope.

(** ** C60 *)
(** The rows of [L] for which no row of [M] has the same values, [chk] being the pairs of
    registers of the shared variables. *)
Definition without (chk : list (nat * nat)) (L M : list (regs * Z)) : list (regs * Z) :=
  filter (fun a => if in_dec values_dec (map (fst a) (map fst chk)) (map (fun b => map (fst b) (map snd chk)) M)
                   then false else true) L.
Lemma without_eq chk L M :
  filter (fun a : regs * Z => negb (row_in (map (fst a) (map fst chk)) (mi_vals chk M))) L = without chk L M.
Proof.
  apply filter_ext. intros a. destruct (row_in _ _) eqn:E; destruct (in_dec _ _ _) as [Hi|Hi]; try reflexivity; exfalso.
  - apply Hi. apply row_in_In in E. exact E.
  - exact (eq_true_false_abs _ (proj2 (row_in_In _ _) Hi) E).
Qed.
Theorem C60_minus : forall V W Vn Wn chk L M main minus fuel,
  disjoint W Wn -> incl V W -> incl (map fst chk) V -> incl (map snd chk) Vn ->
  chk <> [] -> (length M <= fuel)%nat -> (length L < fuel)%nat ->
  Answers V W L main -> Answers Vn Wn M minus ->
  Answers V (W ++ Wn) (without chk L M) (minus_op fuel chk main minus).
Proof.
  intros * H1 H2 H3 H4 H5 H6 H7 HL HM. unfold Answers.
  replace (without chk L M) with (filter (fun a : regs * Z => negb (row_in (map (fst a) (map fst chk)) (mi_vals chk M))) L).
  - eapply Rows_I; [|eapply (mi_start any V W Vn Wn chk fuel minus M)]; eauto; try (intros; exact Logic.I).
  - apply without_eq.
Qed.
Print Assumptions C60_minus.
Theorem C60_restart : forall V W Vn Wn D chk (f : regs -> list (regs * Z)) M main minus fuel,
  disjoint W Wn -> incl V W -> incl (map fst chk) V -> incl (map snd chk) Vn ->
  chk <> [] -> (length M <= fuel)%nat -> (forall v, (length (f v) < fuel)%nat) ->
  Restarts V W D f main -> Answers Vn Wn M minus ->
  Restarts V (W ++ Wn) D (fun v => without chk (f v) M) (minus_op fuel chk main minus).
Proof.
  intros * H1 H2 H3 H4 H5 H6 H7 (Im & HI & HL) HM.
  exists (mi_ok Im chk fuel minus M). split.
  - eexists. split; [reflexivity|]. split; [exact HI|]. right. repeat split.
  - intros o' (s & -> & Hm & Hs) v.
    replace (without chk (f v) M) with (filter (fun a : regs * Z => negb (row_in (map (fst a) (map fst chk)) (mi_vals chk M))) (f v)).
    + eapply (mi_start Im V W Vn Wn chk fuel minus M); eauto.
    + apply without_eq.
Qed.
Print Assumptions C60_restart.
Definition ex3 := rows [1%nat; 2%nat] [([1; 2], 1); ([3; 4], 2); ([3; 5], 1)].
Definition ex3_scan := scan [1%nat; 2%nat] [] (fun _ => [([1; 2], 1); ([3; 4], 2); ([3; 5], 1)]).
Example C60_example : exists o,
  Answers [1%nat; 2%nat] ([1%nat; 2%nat] ++ [11%nat; 12%nat]) o
    (minus_op 9 [(1%nat, 11%nat); (2%nat, 12%nat)] ex3_scan (scan [11%nat; 12%nat] [] (fun _ => [([3; 5], 1); ([7; 7], 1)]))) /\
  table [1%nat; 2%nat] o = [([1; 2], 1); ([3; 4], 2)].
Proof.
  eexists. split.
  - eapply (C60_minus _ _ [11%nat; 12%nat]); [| | | |discriminate| | |apply scan_answers; [nodup|wide]|apply scan_answers; [nodup|wide]];
      try (unfold incl, disjoint; intros x Hx; cbn in *; intuition (subst; try discriminate); fail); cbn; lia.
  - reflexivity.
Qed.
Lemma Answers_step V W l o g : Answers V W l o ->
  match o_first o g with
  | None => False
  | Some (c, g1, o1) =>
      match l with
      | [] => c = 0 /\ any o1
      | (v, c') :: l' => c' = c /\ 0 < c /\ agree V g1 v /\ any o1 /\ Rows any V W (o_next o1) (fun h => agree W h g1) l'
      end
  end.
Proof. intros H. apply (Rows_step _ _ _ _ _ _ g H). exact Logic.I. Qed.
(** Without shared variables, and rows on both sides, the number of rows is divided by zero. *)
Theorem C60_no_shared_variable_refuted : forall V W Vn Wn L M main minus fuel g,
  disjoint W Wn -> L <> [] -> M <> [] -> Answers V W L main -> Answers Vn Wn M minus ->
  o_first (minus_op fuel [] main minus) g = None.
Proof.
  intros * Hd HL HM AL AM. unfold minus_op. rewrite obj_first.
  apply (Answers_step _ _ _ _ g) in AL. unfold mi_first. cbn [mi_main].
  destruct (o_first main g) as [[[c g1] o1]|]; [|destruct AL]. destruct L as [|[v c'] L]; [congruence|]. destruct AL as (-> & Hc & _).
  destruct (Z.eqb_spec c 0); [lia|]. cbn [mi_loaded mi_minus mi_rows].
  apply (Answers_step _ _ _ _ g1) in AM.
  destruct (o_first minus g1) as [[[c2 g2] o2]|]; [|destruct AM]. destruct M as [|[v2 c2'] M]; [congruence|]. destruct AM as (-> & Hc2 & _).
  destruct (Z.eqb_spec c2 0); [lia|]. destruct fuel as [|k]; reflexivity.
Qed.
Print Assumptions C60_no_shared_variable_refuted.

(** ** C61 *)
Definition values_rows (rs : list nat) (block : list (list Z)) := rows rs (map (fun r => (r, 1)) block).
(** Missing: blocks with several variables and several rows, see below. *)
Theorem C61_values_partial : forall rs block,
  NoDup rs -> (0 < length rs)%nat -> Forall (fun r => length r = length rs) block ->
  (length rs = 1%nat \/ (length block <= 1)%nat) ->
  exists l, Answers rs rs l (values_scan rs (concat block)) /\ table rs l = map (fun r => (r, 1)) block.
Proof.
  intros rs block Hn Hk Hb Hs. eexists. split; [apply vs_start; assumption|].
  replace (firstn _ block) with block.
  - unfold table. apply table_rows; [exact Hn|]. unfold wide. rewrite Forall_map. eapply Forall_impl; [|exact Hb]. intros r Hr. cbn. split; [exact Hr|lia].
  - symmetry. apply firstn_all2. destruct (le_lt_dec (length block) (vs_rounds (length rs) (length block))) as [|Hl]; [assumption|].
    assert (E := proj2 (vs_rounds_lt (length rs) (length block) (vs_rounds (length rs) (length block)) Hk)).
    destruct Hs as [Hs|Hs]; [rewrite Hs in *; lia|]. assert (H0 : vs_rounds (length rs) (length block) = 0%nat) by lia. rewrite H0 in *. lia.
Qed.
Print Assumptions C61_values_partial.
Example C61_example : exists l, Answers [4%nat] [4%nat] l (values_scan [4%nat] (concat [[1]; [2]; [3]])) /\ table [4%nat] l = [([1], 1); ([2], 1); ([3], 1)].
Proof. destruct (C61_values_partial [4%nat] [[1]; [2]; [3]]) as (l & H & E); [nodup|cbn; lia|wide|auto|]. exists l. auto. Qed.
(** Every block with at least two variables and two rows loses rows. *)
Theorem C61_values_refuted : forall rs block V W l,
  NoDup rs -> (2 <= length rs)%nat -> (2 <= length block)%nat -> Forall (fun r => length r = length rs) block ->
  Answers V W l (values_scan rs (concat block)) -> (length l < length block)%nat.
Proof.
  intros rs block V W l Hn Hk H2 Hb H.
  rewrite (Answers_length _ _ _ _ _ _ _ H (vs_start rs block Hn ltac:(lia) Hb)).
  unfold rows. rewrite !map_length, firstn_length.
  destruct (le_lt_dec (length block) (vs_rounds (length rs) (length block))) as [Hl|]; [|lia].
  exfalso. assert (E := proj1 (vs_rounds_lt (length rs) (length block) (length block - 1) ltac:(lia)) ltac:(lia)). nia.
Qed.
Print Assumptions C61_values_refuted.
Example C61_refuted_example : exists l, Answers [4%nat; 5%nat] [4%nat; 5%nat] l (values_scan [4%nat; 5%nat] (concat [[1; 2]; [3; 4]])) /\ table [4%nat; 5%nat] l = [([1; 2], 1)].
Proof. eexists. split; [apply vs_start; [nodup|cbn; lia|wide]|reflexivity]. Qed.

(** ** C62: sorting *)
Theorem C62_sort : forall sortf lookup fcmp V W rs fuel order L input,
  sorts sortf -> incl rs V -> incl V W -> NoDup rs -> (length L < fuel)%nat ->
  Forall (fun o => In (fst o) rs /\ uniform lookup (fst o) L) order ->
  Answers V W L input ->
  exists out, Answers rs W out (sort_op sortf lookup 0 fcmp fuel rs (map (fun o => (Some (fst o), snd o)) order) input) /\
    Permutation (table rs out) (table rs L) /\
    StronglySorted (fun a b => ~ precedes lookup order (fst b) (fst a)) out.
Proof.
  intros * H1 H2 H3 H4 H5 H6 HA.
  destruct (sort_start sortf lookup fcmp any V W rs fuel order L (fun _ => True) input [] H1 H2 H3 H4 H5 H6 (ex_intro _ (fun _ => 0) Logic.I) HA) as (A & B & C).
  eexists. split; [eapply Rows_I; [|exact A]; intros; exact Logic.I|]. split; assumption.
Qed.
Print Assumptions C62_sort.
Theorem C62_sort_restart : forall sortf lookup fcmp V W D rs fuel order f input,
  sorts sortf -> incl rs V -> incl V W -> NoDup rs -> (forall v, (length (f v) < fuel)%nat) ->
  (forall v, Forall (fun o => In (fst o) rs /\ uniform lookup (fst o) (f v)) order) ->
  Restarts V W D f input ->
  exists out, Restarts rs W D out (sort_op sortf lookup 0 fcmp fuel rs (map (fun o => (Some (fst o), snd o)) order) input) /\
    forall v, Permutation (table rs (out v)) (table rs (f v)) /\
    StronglySorted (fun a b => ~ precedes lookup order (fst b) (fst a)) (out v).
Proof.
  intros * H1 H2 H3 H4 H5 H6 (I & HI & HA).
  assert (G := fun o' rest (Ho : I o') v => sort_start sortf lookup fcmp I V W rs fuel order (f v) (fun g => agree D g v) o' rest H1 H2 H3 H4 (H5 v) (H6 v)
     (ex_intro (fun g => agree D g v) v (agree_refl D v)) (HA o' Ho v)).
  eexists. split.
  - exists (so_ok I rs (so_first sortf lookup 0 fcmp fuel rs (order_of order))). split; [|intros o' (i & rest & -> & Hi) v; apply (G i rest Hi v)]. exists input, []. split; [reflexivity|exact HI].
  - intros v. apply (G input [] HI v).
Qed.
Print Assumptions C62_sort_restart.
(** Texts for the examples: a, b, ba. *)
Definition ex_text (v : Z) : option (list Z) := match v with 1 => Some [98] | 2 => Some [97] | 3 => Some [98; 97] | _ => None end.
Example C62_sort_example : exists out,
  Answers [1%nat] [1%nat] out (sort_op insertion_sort ex_text 0 (fun _ _ => 0) 9 [1%nat] (map (fun o => (Some (fst o), snd o)) [(1%nat, false)])
     (scan [1%nat] [] (fun _ => [([3], 1); ([1], 2); ([null64], 1); ([2], 5)]))) /\
  table [1%nat] out = [([null64], 1); ([2], 5); ([1], 2); ([3], 1)] /\
  Forall (fun o => In (fst o) [1%nat] /\ uniform ex_text (fst o) (rows [1%nat] [([3], 1); ([1], 2); ([null64], 1); ([2], 5)])) [(1%nat, false)].
Proof.
  assert (U : Forall (fun o : nat * bool => In (fst o) [1%nat] /\ uniform ex_text (fst o) (rows [1%nat] [([3], 1); ([1], 2); ([null64], 1); ([2], 5)])) [(1%nat, false)]).
  { constructor; [|constructor]. split; [left; reflexivity|]. right. intros a Ha.
    cbn in Ha. destruct Ha as [<-|[<-|[<-|[<-|[]]]]]; [right|right|left; reflexivity|right];
    (split; [cbn; lia|]; split; [eexists; reflexivity|]; intros b Hb; cbn in Hb; destruct Hb as [<-|[<-|[<-|[<-|[]]]]]; cbn; congruence). }
  destruct (sort_start insertion_sort ex_text (fun _ _ => 0) any [1%nat] [1%nat] [1%nat] 9 [(1%nat, false)] (rows [1%nat] [([3], 1); ([1], 2); ([null64], 1); ([2], 5)])
    (fun _ => True) (scan [1%nat] [] (fun _ => [([3], 1); ([1], 2); ([null64], 1); ([2], 5)])) []) as (A & B & C).
  - apply insertion_sort_sorts.
  - apply incl_refl.
  - apply incl_refl.
  - nodup.
  - cbn. lia.
  - exact U.
  - exists (fun _ => 0). exact Logic.I.
  - apply scan_answers; [nodup|wide].
  - eexists. split; [eapply Rows_I; [|exact A]; intros; exact Logic.I|]. split; [vm_compute; reflexivity|exact U].
Qed.
(** What the operator returns in any case. *)
Lemma sort_run sortf lookup cut fcmp V W rs fuel order L input :
  incl rs V -> incl V W -> NoDup rs -> (length L < fuel)%nat -> Answers V W L input ->
  forallb (fun sd => fst sd <? Z.of_nat (length rs)) (so_order rs order) = true ->
  let tab := sortf (so_less lookup cut fcmp (so_order rs order)) (table rs L) in
  wide rs tab -> Answers rs W (rows rs tab) (sort_op sortf lookup cut fcmp fuel rs order input).
Proof.
  intros Hrs HV Hn Hf HA Ho tab Hw. set (F := so_first sortf lookup cut fcmp fuel rs order).
  apply (Rows_I (so_ok any rs F)); [intros; exact Logic.I|]. apply Rows_Got. intros g Hg. unfold sort_op. rewrite obj_first. fold F.
  destruct (collect_all_ok any V W rs Hrs _ L fuel input g [] Hf Hg HA) as (g1 & o1 & E & O & I1).
  assert (EF : F (mkSo input []) g = so_next rs (mkSo o1 tab) g1).
  { unfold F, so_first. cbn [so_input]. rewrite E. cbn iota beta zeta. rewrite Ho. cbn [negb]. rewrite andb_false_r. reflexivity. }
  rewrite EF. apply (Got_outside _ _ _ _ g1); [exact O|]. apply (so_got any V W rs Hrs HV Hn F tab o1 g1 I1 Hw).
Qed.
(** If a variable is bound to numbers and texts, the texts can come out in the wrong order. *)
Theorem C62_sort_mixed_refuted : exists sortf lookup input L out,
  @sorts (list Z * Z) sortf /\ Answers [1%nat] [1%nat] L input /\
  Answers [1%nat] [1%nat] out (sort_op sortf lookup 0 (fun _ _ => 0) 9 [1%nat] [(Some 1%nat, false)] input) /\
  table [1%nat] out = [([1], 1); ([2 ^ 62 + 5], 1); ([2], 1)] /\ lookup 1 = Some [98] /\ lookup 2 = Some [97].
Proof.
  exists insertion_sort, ex_text, (scan [1%nat] [] (fun _ => [([1], 1); ([2 ^ 62 + 5], 1); ([2], 1)])), (rows [1%nat] [([1], 1); ([2 ^ 62 + 5], 1); ([2], 1)]).
  eexists. split; [apply insertion_sort_sorts|]. split; [apply scan_answers; [nodup|wide]|]. split.
  - apply (sort_run _ _ _ _ [1%nat] [1%nat] [1%nat] 9 _ (rows [1%nat] [([1], 1); ([2 ^ 62 + 5], 1); ([2], 1)])); [apply incl_refl|apply incl_refl|nodup|cbn; lia|apply scan_answers; [nodup|wide]|reflexivity|].
    unfold wide. vm_compute. wide.
  - vm_compute. auto.
Qed.
Print Assumptions C62_sort_mixed_refuted.
(** If the buffer left by an earlier lookup starts with '<', the last two bytes of the texts are not
    compared: the IRIs <a> and <b> come out in the order of their numbers. *)
Theorem C62_sort_iri_refuted : exists sortf lookup input L out,
  @sorts (list Z * Z) sortf /\ Answers [1%nat] [1%nat] L input /\
  Answers [1%nat] [1%nat] out (sort_op sortf lookup 2 (fun _ _ => 0) 9 [1%nat] [(Some 1%nat, false)] input) /\
  table [1%nat] out = [([1], 1); ([2], 1)] /\ lookup 1 = Some [60; 98; 62] /\ lookup 2 = Some [60; 97; 62].
Proof.
  exists insertion_sort, (fun v => match v with 1 => Some [60; 98; 62] | 2 => Some [60; 97; 62] | _ => None end), (scan [1%nat] [] (fun _ => [([2], 1); ([1], 1)])), (rows [1%nat] [([2], 1); ([1], 1)]).
  eexists. split; [apply insertion_sort_sorts|]. split; [apply scan_answers; [nodup|wide]|]. split.
  - apply (sort_run _ _ _ _ [1%nat] [1%nat] [1%nat] 9 _ (rows [1%nat] [([2], 1); ([1], 1)])); [apply incl_refl|apply incl_refl|nodup|cbn; lia|apply scan_answers; [nodup|wide]|reflexivity|].
    unfold wide. vm_compute. wide.
  - vm_compute. auto.
Qed.
Print Assumptions C62_sort_iri_refuted.
(** Ordering two or more rows by their count, or by a variable that is not kept, reads out of bounds. *)
Theorem C62_sort_count_refuted : forall sortf lookup cut fcmp V W rs fuel order L input desc g,
  incl rs V -> (length L < fuel)%nat -> Answers V W L input -> (2 <= length L)%nat ->
  Z.of_nat (length rs) <= 4294967295 -> In (None, desc) order ->
  o_first (sort_op sortf lookup cut fcmp fuel rs order input) g = None.
Proof.
  intros * Hrs Hf HA HL Hl Ho. unfold sort_op. rewrite obj_first. unfold so_first. cbn [so_input].
  destruct (collect_all_ok any V W rs Hrs _ L fuel input g [] Hf Logic.I HA) as (g1 & o1 & E & _). rewrite E. cbn iota beta zeta.
  replace (1 <? length ([] ++ table rs L))%nat with true.
  2:{ symmetry. apply Nat.ltb_lt. cbn [app]. unfold table. rewrite map_length. exact HL. }
  replace (forallb _ _) with false; [reflexivity|]. symmetry. apply Bool.not_true_is_false. intros C. rewrite forallb_forall in C.
  specialize (C (null32, desc)). cbn [fst] in C. assert (H : (null32 <? Z.of_nat (length rs)) = true).
  { apply C. apply in_map_iff. exists (None, desc). auto. }
  apply Z.ltb_lt in H. unfold null32 in H. lia.
Qed.
Print Assumptions C62_sort_count_refuted.

(** ** C62: grouping *)
Theorem C62_group : forall sortf V W rs keys vars grp fuel L child,
  sorts sortf -> incl rs V -> incl V W -> NoDup rs -> NoDup keys -> registers keys rs vars grp ->
  (length L < fuel)%nat -> Answers V W L child ->
  exists out, Answers rs W out (group_by sortf fuel rs keys vars false child) /\
    Permutation (table rs out) (table rs L) /\ adjacent (fun a => map (fst a) grp) out.
Proof.
  intros * H1 H2 H3 H4 H5 H6 H7 H8.
  destruct (gb_start sortf V W rs keys vars fuel H2 H3 H4 false L child grp H1 H7 H5 H6 H8) as (out & A & B). exists out. auto.
Qed.
Print Assumptions C62_group.
(** SELECT DISTINCT: one row for each combination of values, and no row that the input does not have. *)
Theorem C62_distinct : forall sortf V W rs keys vars grp fuel L child,
  sorts sortf -> incl rs V -> incl V W -> NoDup rs -> NoDup keys -> registers keys rs vars grp ->
  (length L < fuel)%nat -> Answers V W L child ->
  exists out, Answers rs W out (group_by sortf fuel rs keys vars true child) /\
    NoDup (map (fun a => map (fst a) grp) out) /\
    (forall a, In a L -> In (map (fst a) grp) (map (fun b => map (fst b) grp) out)) /\
    (forall b, In b out -> snd b = 1 /\ In (map (fst b) rs) (map (fun a => map (fst a) rs) L)).
Proof.
  intros * H1 H2 H3 H4 H5 H6 H7 H8.
  destruct (gb_start sortf V W rs keys vars fuel H2 H3 H4 true L child grp H1 H7 H5 H6 H8) as (out & A & B). exists out. auto.
Qed.
Print Assumptions C62_distinct.
Example C62_group_example : registers [7%nat; 8%nat] [1%nat; 2%nat] [7%nat] [1%nat] /\ exists out,
  Answers [1%nat; 2%nat] [1%nat; 2%nat] out (group_by insertion_sort 9 [1%nat; 2%nat] [7%nat; 8%nat] [7%nat] true ex3_scan) /\
  NoDup (map (fun a => map (fst a) [1%nat]) out) /\ (forall a, In a ex3 -> In (map (fst a) [1%nat]) (map (fun b => map (fst b) [1%nat]) out)).
Proof.
  assert (R : registers [7%nat; 8%nat] [1%nat; 2%nat] [7%nat] [1%nat]) by (repeat constructor; exists 0%nat; auto).
  split; [exact R|].
  destruct (C62_distinct insertion_sort [1%nat; 2%nat] [1%nat; 2%nat] [1%nat; 2%nat] [7%nat; 8%nat] [7%nat] [1%nat] 9 ex3 ex3_scan) as (out & A & B & C & _);
    [apply insertion_sort_sorts|apply incl_refl|apply incl_refl|nodup|nodup|exact R|cbn; lia|apply scan_answers; [nodup|wide]|].
  exists out. auto.
Qed.
(** The table is not cleared: run a second time, the operator returns the rows of both runs. *)
Theorem C62_group_restart_refuted : exists child, Restarts [1%nat] [1%nat] [] (fun _ => rows [1%nat] [([5], 1)]) child /\
  forall f, ~ Restarts [1%nat] [1%nat] [] f (group_by insertion_sort 9 [1%nat] [7%nat] [7%nat] false child).
Proof.
  exists (scan [1%nat] [] (fun _ => [([5], 1)])). split; [apply (scan_restarts [1%nat] []); [nodup|wide]|].
  intros f (I & HI & HR).
  assert (H := HR _ HI (fun _ => 0)). eapply (Rows_step _ _ _ _ _ _ (fun _ => 0)) in H; [|intros x _; reflexivity].
  destruct (f (fun _ => 0)) as [|[v c] l] eqn:Ef; hnf in H; [destruct H; discriminate|]. destruct H as (_ & _ & _ & HI2 & H).
  apply Rows_next in H. destruct l as [|[v1 c1] l]; hnf in H; [|destruct H as (_ & C & _); cbn in C; lia]. clear H.
  assert (H := HR _ HI2 (fun _ => 0)). eapply (Rows_step _ _ _ _ _ _ (fun _ => 0)) in H; [|intros x _; reflexivity].
  rewrite Ef in H. hnf in H. destruct H as (_ & _ & _ & _ & H). apply Rows_next in H. hnf in H. destruct H as (C & _). cbn in C. discriminate.
Qed.
Print Assumptions C62_group_restart_refuted.
(** Counting groups with the hash table; [enum] is the order in which the program goes through it. *)
Theorem C62_hash_group : forall enum V W rs fuel L input,
  (forall gs, Permutation (enum gs) (seq 0 (length gs))) -> incl rs V -> incl V W -> NoDup rs -> (length L < fuel)%nat ->
  Answers V W L input ->
  exists out, Answers rs W out (hash_groupify enum fuel rs input) /\
    NoDup (map fst (table rs out)) /\ forall t, occurs rs out t = occurs rs L t.
Proof.
  intros * He H2 H3 H4 H5 HA.
  destruct (hg_start enum He any V W rs fuel L (fun _ => True) input [] H2 H3 H4 H5 (ex_intro _ (fun _ => 0) Logic.I) HA) as (A & B & C).
  eexists. split; [eapply Rows_I; [|exact A]; intros; exact Logic.I|]. split; assumption.
Qed.
Print Assumptions C62_hash_group.
Theorem C62_hash_group_restart : forall enum V W D rs fuel f input,
  (forall gs, Permutation (enum gs) (seq 0 (length gs))) -> incl rs V -> incl V W -> NoDup rs -> (forall v, (length (f v) < fuel)%nat) ->
  Restarts V W D f input ->
  exists out, Restarts rs W D out (hash_groupify enum fuel rs input) /\
    forall v, NoDup (map fst (table rs (out v))) /\ forall t, occurs rs (out v) t = occurs rs (f v) t.
Proof.
  intros * He H2 H3 H4 H5 (I & HI & HA).
  assert (G := fun o' rest (Ho : I o') v => hg_start enum He I V W rs fuel (f v) (fun g => agree D g v) o' rest H2 H3 H4 (H5 v) (ex_intro (fun g => agree D g v) v (agree_refl D v)) (HA o' Ho v)).
  eexists. split.
  - exists (so_ok I rs (hg_first enum fuel rs)). split; [|intros o' (i & rest & -> & Hi) v; apply (G i rest Hi v)]. exists input, []. split; [reflexivity|exact HI].
  - intros v. apply (G input [] HI v).
Qed.
Print Assumptions C62_hash_group_restart.
Example C62_hash_group_example : exists out,
  Answers [1%nat] [1%nat; 2%nat] out (hash_groupify (fun gs => seq 0 (length gs)) 9 [1%nat] ex3_scan) /\ occurs [1%nat] out [3] = 3.
Proof.
  destruct (C62_hash_group (fun gs => seq 0 (length gs)) [1%nat; 2%nat] [1%nat; 2%nat] [1%nat] 9 ex3 ex3_scan) as (out & A & _ & B);
    [reflexivity|intros x [<-|[]]; left; reflexivity|apply incl_refl|nodup|cbn; lia|apply scan_answers; [nodup|wide]|].
  exists out. split; [exact A|]. rewrite B. reflexivity.
Qed.

(** ** C63 *)
Lemma expand_copies V L : expand V (copies true L) = expand V L.
Proof.
  induction L as [|[v c] L IH]; [reflexivity|]. unfold expand, copies. cbn [flat_map fst snd]. etransitivity; [apply flat_map_app|].
  refine (f_equal2 (@app _) _ IH). clear. induction (Z.to_nat c) as [|n IHn]; [reflexivity|]. cbn [repeat flat_map fst snd]. exact (f_equal (cons _) IHn).
Qed.
Lemma expand_ones V L : Forall (fun a => snd a = 1) L -> expand V L = map (fun a => map (fst a) V) L.
Proof. induction 1 as [|[v c] L H _ IH]; [reflexivity|]. cbn in H. subst c. exact (f_equal (cons _) IH). Qed.
Lemma copies_ones dup L : Forall (fun a => snd a = 1) (copies dup L).
Proof.
  unfold copies. apply Forall_flat_map, Forall_forall. intros a _. apply Forall_forall. intros b Hb. apply repeat_spec in Hb. subst. reflexivity.
Qed.
Lemma Forall_part {A} (P : A -> Prop) n m l : Forall P l -> Forall P (firstn n (skipn m l)).
Proof.
  rewrite !Forall_forall. intros H x Hx. apply H. rewrite <- (firstn_skipn m l), <- (firstn_skipn n (skipn m l)).
  apply in_or_app. right. apply in_or_app. left. exact Hx.
Qed.
(** A subquery with LIMIT and OFFSET. *)
Theorem C63_subquery : forall V W L input limit offset,
  incl V W -> 0 <= limit -> Answers V W L input ->
  exists out, Answers V W out (dupl_limit true limit offset input) /\
    expand V out = firstn (Z.to_nat limit) (skipn offset (expand V L)).
Proof.
  intros * HV Hl HA. eexists. split; [apply dl_start; eassumption|].
  rewrite expand_ones by apply Forall_part, copies_ones.
  rewrite <- firstn_map, <- skipn_map, <- expand_ones by apply copies_ones. rewrite expand_copies. reflexivity.
Qed.
Print Assumptions C63_subquery.
(** The same when repeated rows count once. *)
Theorem C63_subquery_reduced : forall V W L input limit offset,
  incl V W -> 0 <= limit -> Answers V W L input ->
  Answers V W (firstn (Z.to_nat limit) (skipn offset (map (fun a => (fst a, 1)) L))) (dupl_limit false limit offset input).
Proof.
  intros * HV Hl HA. replace (map _ L) with (copies false L); [apply dl_start; assumption|].
  clear. induction L as [|a L IH]; [reflexivity|]. exact (f_equal (cons _) IH).
Qed.
Print Assumptions C63_subquery_reduced.
(** The number of rows of a query whose results are only counted. *)
Theorem C63_counted : forall V W L input limit offset fuel g,
  0 <= limit -> 0 <= offset -> (length L <= fuel)%nat -> Answers V W L input ->
  rp_silent fuel limit offset input g =
    Some (Z.of_nat (length (firstn (Z.to_nat limit) (skipn (Z.to_nat offset) (expand V L))))).
Proof. intros. eapply rp_silent_ok; eauto. Qed.
Print Assumptions C63_counted.
(** The printed rows; a limit of 0 is missing, see below. *)
Theorem C63_printed_partial : forall V W L input limit offset out fuel g,
  incl out V -> 1 <= limit -> 0 <= offset -> (length L <= fuel)%nat -> Answers V W L input ->
  rp_text fuel limit offset out input g = Some (firstn (Z.to_nat limit) (skipn (Z.to_nat offset) (expand out L))).
Proof. intros. eapply rp_text_ok; eauto. Qed.
Print Assumptions C63_printed_partial.
(** The rows of the JSON result; only if no row is repeated, see below. *)
Theorem C63_json_partial : forall V W L input limit offset out fuel g,
  incl out V -> 1 <= limit -> 0 <= offset -> (length L <= fuel)%nat -> Answers V W L input ->
  Forall (fun a => snd a = 1) L ->
  rp_json fuel limit offset out input g = Some (firstn (Z.to_nat limit) (skipn (Z.to_nat offset) (expand out L))).
Proof. intros. eapply rp_json_ok; eauto. Qed.
Print Assumptions C63_json_partial.
Example C63_example : rp_text 9 2 2 [2%nat] ex3_scan (fun _ => 0) = Some [[4]; [5]] /\
  rp_silent 9 2 3 ex3_scan (fun _ => 0) = Some 1 /\
  exists out, Answers [1%nat; 2%nat] [1%nat; 2%nat] out (dupl_limit true 2 2 ex3_scan) /\ expand [2%nat] out = [[4]; [5]].
Proof.
  assert (A : Answers [1%nat; 2%nat] [1%nat; 2%nat] ex3 ex3_scan) by (apply scan_answers; [nodup|wide]).
  split; [|split].
  - rewrite (C63_printed_partial [1%nat; 2%nat] [1%nat; 2%nat] ex3); [reflexivity|intros x [<-|[]]; cbn; auto|lia|lia|cbn; lia|exact A].
  - rewrite (C63_counted [1%nat; 2%nat] [1%nat; 2%nat] ex3); [reflexivity|lia|lia|cbn; lia|exact A].
  - eexists. split; [apply (dl_start _ _ true 2 2 (incl_refl _) ex3 ex3_scan A); lia|reflexivity].
Qed.
(** LIMIT 0 prints a row. *)
Theorem C63_limit_zero_refuted : forall V W v c L input out fuel g,
  incl out V -> (1 <= fuel)%nat -> Answers V W ((v, c) :: L) input ->
  rp_text fuel 0 0 out input g = Some [map v out].
Proof.
  intros * Ho Hf HA. apply (Answers_step _ _ _ _ g) in HA. unfold rp_text.
  destruct (o_first input g) as [[[c' g1] o1]|]; [|destruct HA]. destruct HA as (-> & Hc & A & _).
  destruct (Z.eqb_spec c' 0); [lia|]. destruct fuel as [|k]; [lia|]. cbn [rp_print].
  cbn [Z.ltb Z.compare andb]. destruct (Z.to_nat c') as [|n0] eqn:En; [lia|]. cbn. f_equal. f_equal.
  apply map_ext_in. intros x Hx. apply A, Ho, Hx.
Qed.
Print Assumptions C63_limit_zero_refuted.
(** The JSON result has more rows than the limit if the last one is repeated. *)
Theorem C63_json_refuted : exists L input,
  Answers [1%nat] [1%nat] L input /\ rp_json 9 1 0 [1%nat] input (fun _ => 0) = Some [[5]; [5]].
Proof.
  exists (rows [1%nat] [([5], 2)]), (scan [1%nat] [] (fun _ => [([5], 2)])). split; [apply scan_answers; [nodup|wide]|vm_compute; reflexivity].
Qed.
Print Assumptions C63_json_refuted.

(** ** C64 *)
Lemma filter_eq exclude values reg (L : list (regs * Z)) :
  filter (fun a : regs * Z => fi_pass exclude values (fst a reg)) L =
  filter (fun a => if in_dec Z.eq_dec (fst a reg) values then negb exclude else exclude) L.
Proof.
  apply filter_ext. intros a. unfold fi_pass.
  destruct (fi_valid values _) eqn:E; destruct (in_dec _ _ _) as [Hi|Hi]; try (destruct exclude; reflexivity); exfalso.
  - apply Hi. apply fi_valid_iff in E. exact E.
  - exact (eq_true_false_abs _ (proj2 (fi_valid_iff _ _) Hi) E).
Qed.
Theorem C64_filter : forall V W exclude values reg L input fuel,
  In reg V -> (length L < fuel)%nat -> Answers V W L input ->
  Answers V W (filter (fun a => if in_dec Z.eq_dec (fst a reg) values then negb exclude else exclude) L)
    (filter_op fuel exclude values reg input).
Proof.
  intros * Hr Hf HA. unfold Answers.
  replace (filter _ L) with (filter (fun a : regs * Z => fi_pass exclude values (fst a reg)) L).
  - eapply Rows_I; [|eapply (fi_start any V W exclude values reg fuel Hr); eauto]. intros; exact Logic.I.
  - apply filter_eq.
Qed.
Print Assumptions C64_filter.
Theorem C64_filter_restart : forall V W D exclude values reg f input fuel,
  In reg V -> (forall v, (length (f v) < fuel)%nat) -> Restarts V W D f input ->
  Restarts V W D (fun v => filter (fun a => if in_dec Z.eq_dec (fst a reg) values then negb exclude else exclude) (f v))
    (filter_op fuel exclude values reg input).
Proof.
  intros * Hr Hf (I & HI & HA). exists (fi_ok I exclude values reg fuel). split; [exists input; auto|].
  intros o' (i & -> & Hi) v.
  replace (filter _ (f v)) with (filter (fun a : regs * Z => fi_pass exclude values (fst a reg)) (f v)).
  - eapply (fi_start I V W exclude values reg fuel Hr); eauto.
  - apply filter_eq.
Qed.
Print Assumptions C64_filter_restart.
Example C64_example : exists o, Answers [1%nat; 2%nat] [1%nat; 2%nat] o (filter_op 9 true [4; 7] 2 ex3_scan) /\
  table [1%nat; 2%nat] o = [([1; 2], 1); ([3; 5], 1)].
Proof.
  eexists. split; [apply C64_filter; [cbn; auto| |apply scan_answers; [nodup|wide]]; cbn; lia|reflexivity].
Qed.
(** The filter that tries the values: [f x] are the rows of the input when the register has the value [x]. *)
Theorem C64_nested_loop_filter : forall V W reg values f input,
  ~ In reg W -> Restarts V W [reg] (fun v => f (v reg)) input ->
  Answers (reg :: V) (reg :: W) (flat_map (fun x => map (fun a => (set_reg reg x (fst a), snd a)) (f x)) values)
    (nested_loop_filter values reg input).
Proof.
  intros * Hr (I & HI & HA). apply (Rows_I (nf_ok I reg values)); [intros; exact Logic.I|].
  apply Rows_Got. intros g _. unfold nested_loop_filter. rewrite obj_first. unfold nf_first at 2. cbn [nf_input].
  apply (nf_loop_ok I V W reg f values Hr); [|reflexivity|exact HI].
  intros o' Ho x. eapply Rows_pre; [|exact (HA o' Ho (fun _ => x))]. intros g' <- y [<-|[]]. reflexivity.
Qed.
Print Assumptions C64_nested_loop_filter.
Example C64_nested_example : exists o, Answers [1%nat; 2%nat] [1%nat; 2%nat] o (nested_loop_filter [4; 7] 1 (scan [2%nat] [1%nat] (fun d => match d with [4] => [([8], 1)] | _ => [([9], 2)] end))) /\
  table [1%nat; 2%nat] o = [([4; 8], 1); ([7; 9], 2)].
Proof.
  eexists. split.
  - apply (C64_nested_loop_filter [2%nat] [2%nat] 1%nat [4; 7] (fun x => rows [2%nat] (match x with 4 => [([8], 1)] | _ => [([9], 2)] end))); [cbn; intuition congruence|].
    assert (S := scan_restarts [2%nat] [1%nat] (fun d => match d with [4] => [([8], 1)] | _ => [([9], 2)] end)).
    destruct S as (I & HI & HR); [nodup| |].
    + intros d. destruct d as [|x [|? ?]]; try (wide; fail); destruct x as [|[[]|[[]|[]|]|]|]; wide.
    + exists I. split; [exact HI|]. intros o' Ho v. specialize (HR o' Ho v). cbn [map] in HR. destruct (v 1%nat) as [|[[]|[[]|[]|]|]|]; exact HR.
  - reflexivity.
Qed.
