(** Proofs about the operators that read their whole input: sort, group by, hash groupify. *)
From Verif Require Export OpProofs3.
Local Open Scope Z_scope.

Lemma table_app V l l' : table V (l ++ l') = table V l ++ table V l'.
Proof. apply map_app. Qed.

Section Collect.
Variables (I : oper -> Prop) (V W rs : list nat).
Hypothesis Hrs : incl rs V.

Lemma collect_ok L : forall k o c g0 g v acc, (length L + 1 < k)%nat -> 0 < c -> agree V g v -> agree W g g0 -> I o ->
  Rows I V W (o_next o) (fun h => agree W h g0) L ->
  exists g' o', collect k rs o c g acc = Some (g', o', acc ++ table rs ((v, c) :: L)) /\ outside W g g' /\ I o'.
Proof.
  induction L as [|[v' c'] L IH]; intros k o c g0 g v acc Hk Hc Hv Hg HI HL; (destruct k as [|k]; [cbn in Hk; lia|]);
    cbn [collect]; (destruct (Z.eqb_spec c 0); [lia|]); rewrite Rows_Got in HL; specialize (HL g Hg).
  - destruct HL as (g1 & o1 & E & O & I1). rewrite E. cbn iota beta zeta. destruct k as [|k]; [cbn in Hk; lia|]. cbn [collect Z.eqb].
    exists g1, o1. split; [|split; assumption]. unfold table. cbn [map fst snd]. rewrite (map_agree_incl V rs g v Hrs Hv). reflexivity.
  - destruct HL as (Hc' & g1 & o1 & E & A & O & I1 & HL). rewrite E. cbn iota beta zeta. cbn [length] in Hk.
    destruct (IH k o1 c' g1 g1 v' (acc ++ [(map g rs, c)])) as (g' & o' & E2 & O2 & I2); auto using agree_refl; [lia|].
    exists g', o'. split; [|split; [eapply outside_trans; eassumption|exact I2]].
    rewrite E2. rewrite <- app_assoc. unfold table. cbn [map fst snd app]. rewrite (map_agree_incl V rs g v Hrs Hv). reflexivity.
Qed.
Lemma collect_all_ok (pre : regs -> Prop) L k o g acc : (length L < k)%nat -> pre g ->
  Rows I V W (o_first o) pre L ->
  exists g' o', collect_all k rs o g acc = Some (g', o', acc ++ table rs L) /\ outside W g g' /\ I o'.
Proof.
  intros Hk Hg H. rewrite Rows_Got in H. specialize (H g Hg). unfold collect_all. destruct L as [|[v c] L].
  - destruct H as (g1 & o1 & E & O & I1). rewrite E. cbn iota beta. destruct k as [|k]; [cbn in Hk; lia|]. cbn [collect Z.eqb].
    exists g1, o1. cbn. rewrite app_nil_r. auto.
  - destruct H as (Hc & g1 & o1 & E & A & O & I1 & H). rewrite E. cbn iota beta. cbn [length] in Hk.
    destruct (collect_ok L k o1 c g1 g1 v acc) as (g' & o' & E2 & O2 & I2); auto using agree_refl; [lia|].
    exists g', o'. split; [exact E2|split; [eapply outside_trans; eassumption|exact I2]].
Qed.
End Collect.

(** A table as rows. *)
Definition as_row (rs : list nat) (vs : list Z) : regs := set_regs rs vs (fun _ => 0).
Definition rows (rs : list nat) (tab : list (list Z * Z)) : list (regs * Z) :=
  map (fun t => (as_row rs (fst t), snd t)) tab.
Definition wide (rs : list nat) (tab : list (list Z * Z)) : Prop := Forall (fun t => length (fst t) = length rs /\ 0 < snd t) tab.

Lemma map_eq_agree rs (a b : regs) : map a rs = map b rs -> agree rs a b.
Proof.
  induction rs as [|r rs IH]; intros E x Hx; [destruct Hx|]. cbn in E. injection E as E1 E2.
  destruct Hx as [<-|Hx]; [exact E1|apply IH; assumption].
Qed.
Lemma as_row_vals rs vs : NoDup rs -> length vs = length rs -> map (as_row rs vs) rs = vs.
Proof. intros Hn Hl. apply set_regs_agree; assumption. Qed.
Lemma set_regs_as_row rs vs g : NoDup rs -> length vs = length rs -> agree rs (set_regs rs vs g) (as_row rs vs).
Proof.
  intros Hn Hl. apply map_eq_agree. unfold as_row. rewrite !(fun g => proj1 (set_regs_agree rs vs g Hn Hl)). reflexivity.
Qed.
Lemma table_rows rs tab : NoDup rs -> wide rs tab -> table rs (rows rs tab) = tab.
Proof.
  intros Hn H. unfold table, rows. rewrite map_map. cbn [fst snd]. induction H as [|[vs c] tab [Hl _] H IH]; [reflexivity|].
  cbn [map fst snd] in *. rewrite IH, as_row_vals; auto.
Qed.
Lemma wide_table rs L : Forall (fun b => 0 < snd b) L -> wide rs (table rs L).
Proof. intros H. unfold wide, table. rewrite Forall_map. eapply Forall_impl; [|exact H]. intros a Ha. cbn. rewrite map_length. auto. Qed.
Lemma wide_perm rs a b : Permutation a b -> wide rs b -> wide rs a.
Proof. unfold wide. intros H. rewrite !Forall_forall. intros H1 x Hx. apply H1. eapply Permutation_in; eassumption. Qed.

Section So.
Variables (I : oper -> Prop) (V W rs : list nat).
Hypothesis Hrs : incl rs V.
Hypothesis HV : incl V W.
Hypothesis Hn : NoDup rs.
Variable F : so_st -> regs -> option (Z * regs * so_st).
Definition so_ok (o : oper) : Prop := exists i rest, o = obj F (so_next rs) (mkSo i rest) /\ I i.
Let HW : incl rs W. Proof. intros x Hx. apply HV, Hrs, Hx. Qed.

Lemma so_got tab : forall i g, I i -> wide rs tab ->
  Got so_ok rs W (wrap F (so_next rs) (so_next rs (mkSo i tab) g)) g (rows rs tab).
Proof.
  induction tab as [|[vs c] tab IH]; intros i g HI Hw; unfold so_next at 2; cbn [so_rest so_input].
  - cbn. eexists g, _. split; [reflexivity|]. split; [apply outside_refl|]. eexists _, _; eauto.
  - inversion Hw as [|? ? [Hl Hc] Hw']; subst. cbn [fst snd] in *. cbn [wrap rows map Got fst snd]. split; [exact Hc|].
    eexists _, _. split; [reflexivity|]. split; [apply set_regs_as_row; auto|].
    split; [apply (outside_incl _ _ _ _ HW), outside_set_regs|]. split; [eexists _, _; eauto|].
    apply Rows_Got. intros h _. rewrite obj_next. apply IH; auto.
Qed.
End So.

(** *** Comparisons *)
Lemma strict_weak_sub {A} (less : A -> A -> bool) l l' : incl l' l -> strict_weak less l -> strict_weak less l'.
Proof. intros Hi (H1 & H2 & H3). repeat split; intros; eauto. Qed.
Lemma strict_weak_ext {A} (f g : A -> A -> bool) l : (forall a b, In a l -> In b l -> f a b = g a b) ->
  strict_weak f l -> strict_weak g l.
Proof.
  intros E (H1 & H2 & H3). repeat split.
  - intros a Ha. rewrite <- E; auto.
  - intros a b c Ha Hb Hc. rewrite <- !E by assumption. eauto.
  - intros a b c Ha Hb Hc. rewrite <- !E by assumption. eauto.
Qed.
Lemma strict_weak_asym {A} (f : A -> A -> bool) l a b : strict_weak f l -> In a l -> In b l -> f a b = true -> f b a = false.
Proof.
  intros (H1 & H2 & H3) Ha Hb E. destruct (f b a) eqn:E2; [|reflexivity].
  rewrite <- (H1 a Ha). symmetry. exact (H2 _ _ _ Ha Hb Ha E E2).
Qed.
Lemma strict_weak_comb {A} (f r : A -> A -> bool) l : strict_weak f l -> strict_weak r l ->
  strict_weak (fun a b => if f a b then true else if f b a then false else r a b) l.
Proof.
  intros Hf Hr. assert (As := fun a b => strict_weak_asym f l a b Hf). destruct Hf as (F1 & F2 & F3), Hr as (R1 & R2 & R3). repeat split.
  - intros a Ha. rewrite F1, R1; auto.
  - intros a b c Ha Hb Hc. destruct (f a b) eqn:Eab.
    + intros _. destruct (f b c) eqn:Ebc; [rewrite (F2 a b c); auto|].
      destruct (f c b) eqn:Ecb; [discriminate|]. intros _. destruct (f a c) eqn:Eac; [reflexivity|].
      rewrite (F3 a c b) in Eab; auto; discriminate.
    + destruct (f b a) eqn:Eba; [discriminate|]. intros Rab. destruct (f b c) eqn:Ebc.
      * intros _. destruct (f a c) eqn:Eac; [reflexivity|]. rewrite (F3 b a c) in Ebc; auto; discriminate.
      * destruct (f c b) eqn:Ecb; [discriminate|]. intros Rbc.
        rewrite (F3 a b c), (F3 c b a), (R2 a b c); auto.
  - intros a b c Ha Hb Hc. destruct (f a b) eqn:Eab; [discriminate|]. destruct (f b a) eqn:Eba.
    + intros _. destruct (f b c) eqn:Ebc; [discriminate|]. intros _.
      rewrite (F3 a b c) by auto. destruct (f c a) eqn:Eca; [reflexivity|]. rewrite (F3 b c a) in Eba; auto; discriminate.
    + intros Rab. destruct (f b c) eqn:Ebc; [discriminate|]. rewrite (F3 a b c) by auto. destruct (f c b) eqn:Ecb.
      * intros _. destruct (f c a) eqn:Eca; [reflexivity|]. rewrite (F3 c a b) in Ecb; auto; discriminate.
      * intros Rbc. rewrite (F3 c b a), (R3 a b c); auto.
Qed.
Lemma strict_weak_key {A} (key : A -> Z) l : strict_weak (fun a b => key a <? key b) l.
Proof.
  repeat split; intros *; rewrite ?Z.ltb_lt, ?Z.ltb_ge; intros; lia.
Qed.
Lemma strict_weak_none {A} (l : list A) : strict_weak (fun _ _ => false) l.
Proof. repeat split; auto. Qed.

Lemma lex_irrefl a : lex a a = false.
Proof. induction a as [|x a IH]; cbn; [reflexivity|]. rewrite Z.ltb_irrefl. exact IH. Qed.
Lemma lex_trans a : forall b c, lex a b = true -> lex b c = true -> lex a c = true.
Proof.
  induction a as [|x a IH]; intros [|y b] [|z c]; cbn; try congruence.
  destruct (Z.ltb_spec x y), (Z.ltb_spec y x), (Z.ltb_spec y z), (Z.ltb_spec z y), (Z.ltb_spec x z), (Z.ltb_spec z x); try lia; try congruence. apply IH.
Qed.
Lemma lex_total a : forall b, lex a b = false -> lex b a = false -> a = b.
Proof.
  induction a as [|x a IH]; intros [|y b]; cbn; try congruence.
  destruct (Z.ltb_spec x y), (Z.ltb_spec y x); try congruence. intros. f_equal; [lia|auto].
Qed.
Lemma lex_asym a b : lex a b = true -> lex b a = false.
Proof. intros H. destruct (lex b a) eqn:E; [|reflexivity]. rewrite <- (lex_irrefl a). symmetry. eapply lex_trans; eassumption. Qed.
Lemma lex_negtrans a b c : lex a b = false -> lex b c = false -> lex a c = false.
Proof.
  intros H1 H2. destruct (lex a c) eqn:E; [|reflexivity]. destruct (lex b a) eqn:E2.
  - rewrite (lex_trans b a c) in H2; congruence.
  - rewrite (lex_total _ _ H1 E2) in E. congruence.
Qed.
Lemma strict_weak_lex {A} (key : A -> list Z) l : strict_weak (fun a b => lex (key a) (key b)) l.
Proof. repeat split; intros *; [intros; apply lex_irrefl|intros _ _ _; apply lex_trans|intros _ _ _; apply lex_negtrans]. Qed.
Lemma strict_weak_flip {A} (f : A -> A -> bool) l : strict_weak f l -> strict_weak (fun a b => f b a) l.
Proof. intros (H1 & H2 & H3). repeat split; intros; eauto. Qed.

(** *** An insertion sort meets the requirements of std::sort. *)
Definition insert {A} (less : A -> A -> bool) (x : A) : list A -> list A :=
  fix ins l := match l with [] => [x] | y :: l' => if less y x then y :: ins l' else x :: l end.
Definition insertion_sort {A} (less : A -> A -> bool) : list A -> list A :=
  fold_right (insert less) [].
Lemma insertion_sort_sorts {A} : sorts (@insertion_sort A).
Proof.
  intros less l. induction l as [|x l IH]; intros H; [split; constructor|].
  destruct IH as [P S]; [eapply strict_weak_sub; [|exact H]; intros y Hy; right; exact Hy|].
  cbn [insertion_sort fold_right]. fold (insertion_sort less l). set (m := insertion_sort less l) in *.
  assert (Hin : forall y, In y m -> In y (x :: l)) by (intros y Hy; right; eapply Permutation_in; eassumption).
  assert (PI : Permutation (insert less x m) (x :: m)).
  { clear. induction m as [|y m IH]; cbn; [reflexivity|]. destruct (less y x); [|reflexivity].
    rewrite IH. constructor. }
  split; [rewrite PI; constructor; exact P|].
  clear P PI. clearbody m. destruct H as (H1 & H2 & H3).
  assert (As : forall a b, In a (x :: l) -> In b (x :: l) -> less a b = true -> less b a = false).
  { intros a b. apply strict_weak_asym. repeat split; assumption. }
  induction S as [|y m S IH Hf]; [repeat constructor|]. cbn [insert].
  assert (Hx : In x (x :: l)) by (left; reflexivity).
  assert (Hy : In y (x :: l)) by (apply Hin; left; reflexivity).
  destruct (less y x) eqn:E.
  - constructor; [apply IH; intros z Hz; apply Hin; right; exact Hz|].
    assert (PI : forall z, In z (insert less x m) -> z = x \/ In z m).
    { clear. induction m as [|y m IH]; cbn; [intuition|]. intros z. destruct (less y x); cbn; [|intuition].
      intros [->|Hz]; [auto|]. destruct (IH z Hz); auto. }
    apply Forall_forall. intros z Hz. destruct (PI z Hz) as [-> | Hz']; [apply As; auto|].
    rewrite Forall_forall in Hf. apply Hf, Hz'.
  - constructor; [constructor; assumption|]. constructor; [exact E|].
    rewrite Forall_forall in Hf |- *. intros z Hz. specialize (Hf z Hz).
    apply (H3 z y x); auto. apply Hin. right. exact Hz.
Qed.

(** ** Sort *)
Section SortProof.
Variable lookup : Z -> option (list Z).
Variable fcmp : Z -> Z -> Z.
Local Notation vless := (so_value_less lookup 0 fcmp).

Lemma memcmp_lex a : forall b,
  (memcmp a b < 0 -> lex a b = true) /\ (0 < memcmp a b -> lex b a = true) /\
  (memcmp a b = 0 -> (length a < length b -> lex a b = true)%nat /\ (length b < length a -> lex b a = true)%nat /\
                     (length a = length b -> a = b)).
Proof.
  induction a as [|x a IH]; intros [|y b]; cbn; try (repeat split; intros; try lia; auto; fail).
  destruct (Z.ltb_spec x y), (Z.ltb_spec y x); try lia; try (repeat split; intros; try lia; auto; fail).
  destruct (IH b) as (I1 & I2 & I3). assert (x = y) by lia. subst. repeat split; intros; auto.
  - apply I3; [assumption|lia].
  - apply I3; [assumption|lia].
  - f_equal. apply I3; [assumption|lia].
Qed.

(** Two values of a uniform column are compared by their keys. *)
Lemma vless_int v1 v2 : (v1 = null64 \/ 2 ^ 62 <= v1 < 2 ^ 63) -> (v2 = null64 \/ 2 ^ 62 <= v2 < 2 ^ 63) ->
  vless v1 v2 = if lex (sort_key lookup v1) (sort_key lookup v2) then Some true
                else if lex (sort_key lookup v2) (sort_key lookup v1) then Some false else None.
Proof.
  unfold so_value_less, sort_key, null64, num_compare, isnumeric, isint. intros H1 H2.
  destruct (Z.eqb_spec v1 v2) as [->|Hne]; [rewrite lex_irrefl; reflexivity|].
  destruct (Z.eqb_spec v1 18446744073709551615), (Z.eqb_spec v2 18446744073709551615); try lia.
  - destruct (Z.leb_spec (2 ^ 62) v2); [reflexivity|lia].
  - destruct (Z.leb_spec (2 ^ 62) v1); [reflexivity|lia].
  - destruct H1 as [|H1]; [contradiction|]. destruct H2 as [|H2]; [contradiction|].
    rewrite (proj2 (Z.leb_le _ v1)), (proj2 (Z.leb_le _ v2)), (proj2 (Z.ltb_lt v1 _)), (proj2 (Z.ltb_lt v2 _)) by lia. cbn [andb lex].
    rewrite <- (Z.mod_unique v1 (2 ^ 62) 1 (v1 - 2 ^ 62)) by lia.
    rewrite <- (Z.mod_unique v2 (2 ^ 62) 1 (v2 - 2 ^ 62)) by lia.
    change (0 <? 0) with false. cbn iota.
    destruct (Z.ltb_spec (v1 - 2 ^ 62) (v2 - 2 ^ 62)), (Z.ltb_spec (v2 - 2 ^ 62) (v1 - 2 ^ 62)); try lia; reflexivity.
Qed.
Definition textual (v : Z) : Prop := v = null64 \/ (v < 2 ^ 62 /\ exists t, lookup v = Some t).
Lemma vless_text v1 v2 : textual v1 -> textual v2 -> (v1 <> null64 -> lookup v1 = lookup v2 -> v1 = v2) ->
  vless v1 v2 = if lex (sort_key lookup v1) (sort_key lookup v2) then Some true
                else if lex (sort_key lookup v2) (sort_key lookup v1) then Some false else None.
Proof.
  unfold textual, so_value_less, sort_key, null64, isnumeric. intros H1 H2 Hinj.
  destruct (Z.eqb_spec v1 v2) as [->|Hne]; [rewrite lex_irrefl; reflexivity|].
  destruct (Z.eqb_spec v1 18446744073709551615), (Z.eqb_spec v2 18446744073709551615); try lia.
  - destruct H2 as [|[H2 [t2 E2]]]; [contradiction|]. destruct (Z.leb_spec (2 ^ 62) v2); [lia|]. rewrite E2. reflexivity.
  - destruct H1 as [|[H1 [t1 E1]]]; [contradiction|]. destruct (Z.leb_spec (2 ^ 62) v1); [lia|]. rewrite E1. reflexivity.
  - destruct H1 as [|[H1 [t1 E1]]]; [contradiction|]. destruct H2 as [|[H2 [t2 E2]]]; [contradiction|].
    destruct (Z.leb_spec (2 ^ 62) v1); [lia|]. destruct (Z.leb_spec (2 ^ 62) v2); [lia|]. cbn [andb].
    rewrite E1, E2 in *. rewrite !Nat.sub_0_r, !firstn_all. cbn [lex]. change (1 <? 1) with false. cbn iota.
    destruct (memcmp_lex t1 t2) as (M1 & M2 & M3).
    destruct (Z.ltb_spec (memcmp t1 t2) 0) as [Hm|Hm]; [rewrite (M1 Hm); reflexivity|].
    destruct (Z.ltb_spec 0 (memcmp t1 t2)) as [Hp|Hp]; [rewrite (lex_asym _ _ (M2 Hp)), (M2 Hp); reflexivity|].
    destruct (M3 ltac:(lia)) as (L1 & L2 & L3).
    destruct (Nat.ltb_spec (length t1) (length t2)) as [Ha|Ha]; [rewrite (L1 Ha); reflexivity|].
    destruct (Nat.ltb_spec (length t2) (length t1)) as [Hb|Hb]; [rewrite (lex_asym _ _ (L2 Hb)), (L2 Hb); reflexivity|].
    exfalso. apply Hne, Hinj; [assumption|]. rewrite L3 by lia. reflexivity.
Qed.

Lemma gb_index_spec rs : forall r i j, gb_index rs r i = Some j -> (i <= j)%nat /\ (j - i < length rs)%nat /\ nth (j - i) rs 0%nat = r.
Proof.
  induction rs as [|x rs IH]; intros r i j; cbn [gb_index]; [discriminate|].
  destruct (Nat.eqb_spec x r) as [->|].
  - intros [= <-]. rewrite Nat.sub_diag. cbn. repeat split; lia.
  - intros E. apply IH in E. destruct E as (E1 & E2 & E3). destruct (j - i)%nat as [|m] eqn:En; [lia|].
    replace (j - S i)%nat with m in * by lia. cbn. repeat split; [lia|lia|exact E3].
Qed.
Lemma gb_index_in rs r : In r rs -> forall i, exists j, gb_index rs r i = Some j.
Proof.
  induction rs as [|x rs IH]; intros H i; [destruct H|]. cbn. destruct (Nat.eqb_spec x r); [eauto|].
  destruct H as [|H]; [contradiction|]. apply IH, H.
Qed.
Lemma nth_map_reg rs (v : regs) j r : (j < length rs)%nat -> nth j rs 0%nat = r -> nth j (map v rs) 0 = v r.
Proof. intros Hj E. rewrite (nth_indep _ 0 (v 0%nat)) by (rewrite map_length; exact Hj). rewrite map_nth, E. reflexivity. Qed.

Definition order_of (order : list (nat * bool)) : list (option nat * bool) := map (fun o => (Some (fst o), snd o)) order.

Variables (rs : list nat) (L : list (regs * Z)).
Lemma so_order_ok order : Forall (fun o => In (fst o) rs) order ->
  forallb (fun sd => fst sd <? Z.of_nat (length rs)) (so_order rs (order_of order)) = true.
Proof.
  unfold so_order, order_of. induction 1 as [|[r d] order H _ IH]; [reflexivity|]. cbn [map fst snd forallb] in *. rewrite IH.
  destruct (gb_index_in rs r H 0) as (j & E). rewrite E. apply gb_index_spec in E.
  rewrite (proj2 (Z.ltb_lt _ _)) by lia. reflexivity.
Qed.

Definition so_col (r : nat) (d : bool) (a b : regs * Z) : bool :=
  let x := sort_key lookup (fst a r) in let y := sort_key lookup (fst b r) in if d then lex y x else lex x y.
Lemma so_less_cons r d order a b : In r rs -> uniform lookup r L -> In a L -> In b L ->
  so_less lookup 0 fcmp (so_order rs (order_of ((r, d) :: order))) (map (fst a) rs, snd a) (map (fst b) rs, snd b)
  = if so_col r d a b then true else if so_col r d b a then false
    else so_less lookup 0 fcmp (so_order rs (order_of order)) (map (fst a) rs, snd a) (map (fst b) rs, snd b).
Proof.
  intros Hr Hu Ha Hb. unfold so_order, order_of. cbn [map fst snd so_less].
  destruct (gb_index_in rs r Hr 0) as (j & E). rewrite E. apply gb_index_spec in E. destruct E as (_ & E1 & E2).
  rewrite Nat.sub_0_r in *. rewrite Nat2Z.id. rewrite !(nth_map_reg rs _ j r E1 E2).
  assert (Hv : forall a b, In a L -> In b L -> vless (fst a r) (fst b r) = if lex (sort_key lookup (fst a r)) (sort_key lookup (fst b r)) then Some true
                else if lex (sort_key lookup (fst b r)) (sort_key lookup (fst a r)) then Some false else None).
  { clear - Hu. intros a b Ha Hb. destruct Hu as [Hu|Hu].
    - apply vless_int; auto.
    - apply vless_text.
      + destruct (Hu a Ha) as [|(H1 & H2 & H3)]; [left|right]; auto.
      + destruct (Hu b Hb) as [|(H1 & H2 & H3)]; [left|right]; auto.
      + intros Hne. destruct (Hu a Ha) as [|(H1 & H2 & H3)]; [contradiction|]. auto. }
  unfold so_col. destruct d; rewrite Hv by assumption.
  - destruct (lex (sort_key lookup (fst b r)) (sort_key lookup (fst a r))); [reflexivity|].
    destruct (lex (sort_key lookup (fst a r)) (sort_key lookup (fst b r))); reflexivity.
  - destruct (lex (sort_key lookup (fst a r)) (sort_key lookup (fst b r))); [reflexivity|].
    destruct (lex (sort_key lookup (fst b r)) (sort_key lookup (fst a r))); reflexivity.
Qed.

Local Notation cmp order := (so_less lookup 0 fcmp (so_order rs (order_of order))).
Lemma so_less_precedes order (Ho : Forall (fun o => In (fst o) rs /\ uniform lookup (fst o) L) order) a b : In a L -> In b L ->
  cmp order (map (fst a) rs, snd a) (map (fst b) rs, snd b) = true <-> precedes lookup order (fst a) (fst b).
Proof.
  intros Ha Hb. induction Ho as [|[r d] order' [H1 H2] _ IH]; [cbn; split; [discriminate|tauto]|]. cbn [fst] in *.
  rewrite so_less_cons by assumption. cbn [precedes]. rewrite <- IH.
  unfold so_col. set (x := sort_key lookup (fst a r)). set (y := sort_key lookup (fst b r)).
  assert (K : forall u v, (if lex u v then true else if lex v u then false else so_less lookup 0 fcmp (so_order rs (order_of order')) (map (fst a) rs, snd a) (map (fst b) rs, snd b)) = true
     <-> lex u v = true \/ (u = v /\ so_less lookup 0 fcmp (so_order rs (order_of order')) (map (fst a) rs, snd a) (map (fst b) rs, snd b) = true)).
  { intros u v. destruct (lex u v) eqn:E1; [intuition|]. destruct (lex v u) eqn:E2.
    - split; [discriminate|]. intros [|[-> _]]; [discriminate|]. rewrite lex_irrefl in E2. discriminate.
    - rewrite (lex_total _ _ E1 E2). intuition. }
  destruct d; rewrite K; intuition.
Qed.
Lemma so_less_weak order (Ho : Forall (fun o => In (fst o) rs /\ uniform lookup (fst o) L) order) :
  strict_weak (cmp order) (table rs L).
Proof.
  assert (G : strict_weak (fun a b => cmp order (map (fst a) rs, snd a) (map (fst b) rs, snd b)) L).
  { induction Ho as [|[r d] order' [H1 H2] _ IH]; [apply strict_weak_none|]. cbn [fst] in *.
    eapply strict_weak_ext.
    - intros a b Ha Hb. symmetry. apply so_less_cons; assumption.
    - apply (strict_weak_comb (so_col r d)); [|exact IH]. unfold so_col.
      destruct d; [apply (strict_weak_flip (fun a b : regs * Z => lex (sort_key lookup (fst a r)) (sort_key lookup (fst b r))))|];
      apply (strict_weak_lex (fun a : regs * Z => sort_key lookup (fst a r))). }
  destruct G as (G1 & G2 & G3). unfold table. repeat split.
  - intros a Ha. apply in_map_iff in Ha. destruct Ha as (x & <- & Hx). apply (G1 x Hx).
  - intros a b c Ha Hb Hc. apply in_map_iff in Ha, Hb, Hc. destruct Ha as (x & <- & Hx), Hb as (y & <- & Hy), Hc as (z & <- & Hz).
    apply (G2 x y z); assumption.
  - intros a b c Ha Hb Hc. apply in_map_iff in Ha, Hb, Hc. destruct Ha as (x & <- & Hx), Hb as (y & <- & Hy), Hc as (z & <- & Hz).
    apply (G3 x y z); assumption.
Qed.
End SortProof.

Lemma sort_key_agree lookup (a b : regs) order rs : Forall (fun o => In (fst o) rs) order -> agree rs a b ->
  forall c, (precedes lookup order a c <-> precedes lookup order b c) /\ (precedes lookup order c a <-> precedes lookup order c b).
Proof.
  intros Ho Hab c. induction Ho as [|[r d] order Hr _ IH]; [split; reflexivity|]. cbn [fst] in Hr. cbn [precedes].
  rewrite (Hab r Hr). destruct IH as [I1 I2]. rewrite I1, I2. split; reflexivity.
Qed.
Lemma StronglySorted_map {A B} (f : A -> B) R l : StronglySorted (fun a b => R (f a) (f b)) l -> StronglySorted R (map f l).
Proof. induction 1 as [|a l S IH F]; cbn; constructor; [exact IH|]. rewrite Forall_map. exact F. Qed.
Lemma StronglySorted_impl {A} (R Q : A -> A -> Prop) l : (forall a b, In a l -> In b l -> R a b -> Q a b) ->
  StronglySorted R l -> StronglySorted Q l.
Proof.
  intros H S. induction S as [|a l S IH F]; constructor.
  - apply IH. intros x y Hx Hy. apply H; right; assumption.
  - rewrite Forall_forall in F |- *. intros x Hx. apply H; [left; reflexivity|right; exact Hx|auto].
Qed.

Lemma sort_start sortf lookup fcmp I V W rs fuel order L (pre : regs -> Prop) i rest :
  sorts sortf -> incl rs V -> incl V W -> NoDup rs -> (length L < fuel)%nat ->
  Forall (fun o => In (fst o) rs /\ uniform lookup (fst o) L) order ->
  (exists g, pre g) ->
  let F := so_first sortf lookup 0 fcmp fuel rs (order_of order) in
  Rows I V W (o_first i) pre L ->
  let out := rows rs (sortf (so_less lookup 0 fcmp (so_order rs (order_of order))) (table rs L)) in
  Rows (so_ok I rs F) rs W (o_first (obj F (so_next rs) (mkSo i rest))) pre out /\
  Permutation (table rs out) (table rs L) /\
  StronglySorted (fun a b => ~ precedes lookup order (fst b) (fst a)) out.
Proof.
  intros Hs Hrs HV Hn Hf Ho (g0 & Hg0) F HL out.
  assert (Hpos := Rows_pos _ _ _ _ _ _ g0 Hg0 HL).
  assert (Ho' : Forall (fun o => In (fst o) rs) order) by (eapply Forall_impl; [|exact Ho]; intros o H; apply H).
  destruct (Hs _ _ (so_less_weak lookup fcmp rs L order Ho)) as [P S].
  set (tab := sortf (so_less lookup 0 fcmp (so_order rs (order_of order))) (table rs L)) in *.
  assert (Hw : wide rs tab) by (eapply wide_perm; [exact P|apply wide_table, Hpos]).
  split; [|split].
  - apply Rows_Got. intros g Hg. rewrite obj_first.
    destruct (collect_all_ok I V W rs Hrs pre L fuel i g [] Hf Hg HL) as (g1 & o1 & E & O & I1).
    assert (EF : F (mkSo i rest) g = so_next rs (mkSo o1 tab) g1).
    { unfold F, so_first. cbn [so_input]. rewrite E. cbn iota beta zeta.
      rewrite so_order_ok by exact Ho'. cbn [negb]. rewrite andb_false_r. reflexivity. }
    rewrite EF.
    apply (Got_outside _ _ _ _ g1); [exact O|].
    apply (so_got I V W rs Hrs HV Hn F tab o1 g1 I1 Hw).
  - unfold out. rewrite table_rows by assumption. exact P.
  - unfold out, rows. apply StronglySorted_map. eapply StronglySorted_impl; [|exact S].
    intros a b Ha Hb Hlt. cbn [fst].
    assert (G : forall t, In t tab -> exists x, In x L /\ t = (map (fst x) rs, snd x)).
    { intros t Ht. apply (Permutation_in _ P) in Ht. apply in_map_iff in Ht. destruct Ht as (x & <- & Hx). eauto. }
    destruct (G a Ha) as (x & Hx & ->), (G b Hb) as (y & Hy & ->). cbn [fst] in *.
    assert (Ax : forall z : regs, agree rs (as_row rs (map z rs)) z).
    { intros z. apply map_eq_agree. apply as_row_vals; [exact Hn|apply map_length]. }
    rewrite (proj1 (sort_key_agree lookup _ _ order rs Ho' (Ax (fst y)) _)).
    rewrite (proj2 (sort_key_agree lookup _ _ order rs Ho' (Ax (fst x)) _)).
    rewrite <- (so_less_precedes lookup fcmp rs L order Ho y x Hy Hx). congruence.
Qed.
