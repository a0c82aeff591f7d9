(** Proofs about index scans with hints. *)
From Coq Require Import ZifyBool.
From Verif Require Import TsModel TsSpec DomSpec DomProofs DomProps.
Local Open Scope Z_scope.

(** ** Hints *)
Lemma fold_up (r : Z) (P : Z * Z * Z -> Z) (up : Z * Z * Z -> Z -> Z * Z * Z) (Inv : Z * Z * Z -> Prop) :
  (forall s v, Inv s -> (v = umax \/ v <= r) -> uint64 v -> Inv (up s v)) ->
  forall l s, Inv s -> (forall v, In v l -> v = umax \/ v <= r) -> (forall v, In v l -> uint64 v) -> Inv (fold_left up l s).
Proof. intros H. induction l as [|v l IH]; intros s I A B; cbn; [exact I|]. apply IH; [apply H; auto; [apply A|apply B]; now left| |]; intros x Hx; [apply A|apply B]; now right. Qed.
Definition le3 (r s : Z * Z * Z) : Prop := 0 <= fst (fst s) <= fst (fst r) /\ 0 <= snd (fst s) <= snd (fst r) /\ 0 <= snd s <= snd r.
Lemma raise_le v x r : raise v x = true -> (v = umax \/ v <= r) -> x < v <= r.
Proof. unfold raise. intros H [E|E]; lia. Qed.
Lemma cand d v r : pot d -> 0 <= v <= r -> int64 r -> couldQualify d r = true -> exists x, nextCandidate d v = Some x /\ v <= x <= r.
Proof.
  intros P V [R0 R] Q. apply C72_no_skip; auto; unfold uint64; try lia. rewrite could_spec in Q. lia.
Qed.
Lemma hint1_ok c r s : int64_row r -> col_ok c -> allows c (c1 r) -> le3 r s -> exists s', hint1 c s = Some s' /\ le3 r s'.
Proof.
  intros (R1 & R2 & R3) (O1 & O2 & O3) (A1 & A2 & A3) L. unfold hint1. cbv zeta. unfold c1, c2, c3, int64 in *.
  set (up := fun s v => if raise v (fst (fst s)) then (v, 0, 0) else s).
  assert (U : forall s v, le3 r s -> (v = umax \/ v <= fst (fst r)) -> uint64 v -> le3 r (up s v)).
  { intros s0 v L0 H Uv. unfold up. destruct (raise v (fst (fst s0))) eqn:E; [|exact L0]. apply (raise_le _ _ _ E) in H. unfold le3, uint64 in *. cbn [fst snd]. lia. }
  set (s1 := match h_bound c with Some v => up s v | None => s end).
  change (match h_bound c with Some v => if raise v (fst (fst s)) then (v, 0, 0) else s | None => s end) with s1.
  assert (L1 : le3 r s1). { unfold s1. destruct (h_bound c); [apply U; auto|exact L]. }
  assert (L2 : le3 r (fold_left up (h_merge c) s1)) by (apply (fold_up (fst (fst r)) (fun s => 0)); auto).
  destruct (h_dom c) as [d|]; [|eauto]. destruct (cand d (fst (fst (fold_left up (h_merge c) s1))) (fst (fst r)) (O3 d eq_refl) (proj1 L2) R1 (A3 d eq_refl)) as (x & -> & X).
  destruct (Z.ltb_spec (fst (fst (fold_left up (h_merge c) s1))) x); eexists; (split; [reflexivity|]); [|exact L2]. unfold le3 in *; cbn [fst snd]; lia.
Qed.
Lemma hint2_ok c r s : int64_row r -> col_ok c -> allows c (c2 r) -> le3 r s -> exists s', hint2 c s = Some s' /\ le3 r s'.
Proof.
  intros (R1 & R2 & R3) (O1 & O2 & O3) (A1 & A2 & A3) L. unfold hint2. cbv zeta. unfold c1, c2, c3, int64 in *.
  set (up := fun s v => if raise v (snd (fst s)) then (fst (fst s), v, 0) else s).
  assert (U : forall s v, le3 r s -> (v = umax \/ v <= snd (fst r)) -> uint64 v -> le3 r (up s v)).
  { intros s0 v L0 H Uv. unfold up. destruct (raise v (snd (fst s0))) eqn:E; [|exact L0]. apply (raise_le _ _ _ E) in H. unfold le3, uint64 in *. cbn [fst snd]. lia. }
  set (s1 := match h_bound c with Some v => up s v | None => s end).
  change (match h_bound c with Some v => if raise v (snd (fst s)) then (fst (fst s), v, 0) else s | None => s end) with s1.
  assert (L1 : le3 r s1). { unfold s1. destruct (h_bound c); [apply U; auto|exact L]. }
  assert (L2 : le3 r (fold_left up (h_merge c) s1)) by (apply (fold_up (snd (fst r)) (fun s => 0)); auto).
  destruct (h_dom c) as [d|]; [|eauto]. destruct (cand d (snd (fst (fold_left up (h_merge c) s1))) (snd (fst r)) (O3 d eq_refl) (proj1 (proj2 L2)) R2 (A3 d eq_refl)) as (x & -> & X).
  destruct (Z.ltb_spec (snd (fst (fold_left up (h_merge c) s1))) x); eexists; (split; [reflexivity|]); [|exact L2]. unfold le3 in *; cbn [fst snd]; lia.
Qed.
Lemma hint3_ok c r s : int64_row r -> col_ok c -> allows c (c3 r) -> le3 r s -> exists s', hint3 c s = Some s' /\ le3 r s'.
Proof.
  intros (R1 & R2 & R3) (O1 & O2 & O3) (A1 & A2 & A3) L. unfold hint3. cbv zeta. unfold c1, c2, c3, int64 in *.
  set (up := fun s v => if raise v (snd s) then (fst s, v) else s).
  assert (U : forall s v, le3 r s -> (v = umax \/ v <= snd r) -> uint64 v -> le3 r (up s v)).
  { intros s0 v L0 H Uv. unfold up. destruct (raise v (snd s0)) eqn:E; [|exact L0]. apply (raise_le _ _ _ E) in H. unfold le3, uint64 in *. cbn [fst snd]. lia. }
  set (s1 := match h_bound c with Some v => up s v | None => s end).
  change (match h_bound c with Some v => if raise v (snd s) then (fst s, v) else s | None => s end) with s1.
  assert (L1 : le3 r s1). { unfold s1. destruct (h_bound c); [apply U; auto|exact L]. }
  assert (L2 : le3 r (fold_left up (h_merge c) s1)) by (apply (fold_up (snd r) (fun s => 0)); auto).
  destruct (h_dom c) as [d|]; [|eauto]. destruct (cand d (snd (fold_left up (h_merge c) s1)) (snd r) (O3 d eq_refl) (proj2 (proj2 L2)) R3 (A3 d eq_refl)) as (x & -> & X).
  destruct (raise x (snd (fold_left up (h_merge c) s1))) eqn:E; eexists; (split; [reflexivity|]); [|exact L2]. unfold raise, le3 in *; cbn [fst snd]; lia.
Qed.
(** A hint stays at or below every row that it does not rule out, in every column. *)
Lemma hint_next_ok h r : hint_ok h -> int64_row r -> wanted h r -> exists s, hint_next h (0, 0, 0) = Some s /\ le3 r s.
Proof.
  destruct h as [[a b] c]. intros (O1 & O2 & O3) R (W1 & W2 & W3). cbn [fst snd] in *. unfold hint_next.
  assert (L : le3 r (0, 0, 0)) by (destruct R as (? & ? & ?); unfold le3, c1, c2, c3, int64 in *; cbn [fst snd]; lia).
  destruct (hint1_ok a r _ R O1 W1 L) as (s1 & -> & L1). destruct (hint2_ok b r _ R O2 W2 L1) as (s2 & -> & L2). destruct (hint3_ok c r _ R O3 W3 L2) as (s3 & -> & L3). eauto.
Qed.

(** ** Lists *)
Lemma sub_refl {A} (l : list A) : sublist l l.
Proof. induction l; [apply sub_nil|now apply sub_take]. Qed.
Lemma sub_trans {A} (b c : list A) : sublist b c -> forall a, sublist a b -> sublist a c.
Proof.
  induction 1 as [|x b c H IH|x b c H IH]; intros a Ha; [exact Ha|apply sub_skip; auto|]. inversion Ha; subst; [apply sub_skip|apply sub_take]; auto.
Qed.
Lemma sub_filter {A} f (l : list A) : sublist (filter f l) l.
Proof. induction l as [|x l IH]; cbn; [constructor|]. destruct (f x); [apply sub_take|apply sub_skip]; auto. Qed.
Lemma sub_filter2 {A} f (l l' : list A) : sublist l l' -> sublist (filter f l) (filter f l').
Proof. induction 1; cbn; [constructor| |]; destruct (f x); auto; [apply sub_skip|apply sub_take]; auto. Qed.
Lemma sub_in {A} (l l' : list A) x : sublist l l' -> In x l -> In x l'.
Proof. induction 1 as [|y l l' _ IH|y l l' _ IH]; cbn; intros Q; auto. destruct Q as [->|Q]; [now left|right; auto]. Qed.
Lemma sub_length {A} (l l' : list A) : sublist l l' -> (length l <= length l')%nat.
Proof. induction 1; cbn; lia. Qed.
Lemma sub_forall {A} (P : A -> Prop) (l l' : list A) : sublist l l' -> Forall P l' -> Forall P l.
Proof. intros H F. rewrite Forall_forall in *. intros x Hx. apply F. eapply sub_in; eauto. Qed.
Lemma filter_filter_eq {A} (W g : A -> bool) l : (forall x, In x l -> W x = true -> g x = true) -> filter W (filter g l) = filter W l.
Proof.
  induction l as [|x l IH]; intros H; [reflexivity|]. cbn. destruct (g x) eqn:G; cbn; [destruct (W x); rewrite IH; auto; intros; apply H; auto; now right|].
  destruct (W x) eqn:E; [rewrite (H x) in G; [discriminate|now left|exact E]|]. apply IH. intros; apply H; auto; now right.
Qed.
Lemma filter_comm {A} (f g : A -> bool) l : filter f (filter g l) = filter g (filter f l).
Proof. induction l as [|x l IH]; [reflexivity|]. cbn. destruct (f x) eqn:F, (g x) eqn:G; cbn; rewrite ?F, ?G, IH; reflexivity. Qed.

(** ** TridentScan *)
Section SCAN.
Variable S0 : option elem -> list elem -> pitr -> Prop.
Variable top : Z.
Hypothesis Sim : seek_sim top S0.
Variable W : elem -> bool.

(** What a hint may do with the rest of the rows. *)
Definition kept (l' l : list elem) : Prop := sublist l' l /\ filter W l' = filter W l.
Lemma kept_refl l : kept l l. Proof. split; [apply sub_refl|reflexivity]. Qed.
Definition at_row (x : elem) (l : list elem) (t : ts_st) : Prop := exists o, ts_itr t = Some o /\ cur o = x /\ S0 (Some x) l o.

Lemma ts_next_ok h t x l : at_row x l t -> hint_ok h -> Forall int64_row (x :: l) ->
  (exists r, int64_row r /\ wanted h r /\ c2 r <= top) -> (forall e, In e l -> W e = true -> wanted h e) ->
  exists l' t', ts_next h t = Some (nonempty l', t') /\ kept l' l /\ match l' with [] => True | y :: l'' => at_row y l'' t' end.
Proof.
  intros (o & Eo & Ec & HS) Ho Hr (r & Rr & Wr & Tr) HW. destruct t as [ti n]. cbn [ts_itr] in Eo. subst ti. unfold ts_next. cbn [ts_itr ts_count].
  assert (F : forall o' l', S0 (Some x) l' o' \/ S0 None l' o' -> exists t', (do (b, itr) <- hasNext o'; if b then do itr0 <- next itr; Some (true, mkTs (Some itr0) (if counthint_max <? n then 0 else n + 1)) else Some (false, mkTs None (if counthint_max <? n then 0 else n + 1))) = Some (nonempty l', t') /\ match l' with [] => True | y :: l'' => at_row y l'' t' end).
  { intros o' l' HS'. assert (HS2 : exists c, S0 c l' o') by (destruct HS'; eauto). destruct HS2 as (c & HS2). destruct (Sim _ _ _ HS2) as ((o1 & -> & _ & M) & _).
    destruct l' as [|y l'']; cbn [nonempty]; [eexists; split; [reflexivity|exact Logic.I]|]. destruct M as (o2 & -> & C & S2). eexists. split; [reflexivity|]. exists o2. auto. }
  destruct (Z.eqb_spec n 0) as [N|N].
  2:{ destruct (F o l (or_introl HS)) as (t' & E & M). exists l, t'. split; [exact E|]. split; [apply kept_refl|exact M]. }
  destruct (hint_next_ok h r Ho Rr Wr) as ([[s p] q] & Es & Ls). rewrite Es.
  assert (V : value1 o = c2 x) by (rewrite <- Ec; reflexivity). rewrite V.
  destruct (Z.ltb_spec (c2 x) p) as [P|P].
  2:{ destruct (F o l (or_introl HS)) as (t' & E & M). exists l, t'. split; [exact E|]. split; [apply kept_refl|exact M]. }
  unfold le3 in Ls; cbn [fst snd] in Ls. destruct Rr as (R1 & R2 & R3). unfold c1, c2, c3, int64 in R1, R2, R3, Tr.
  assert (TP : to_i64 p = p) by (unfold to_i64; destruct (Z.ltb_spec p (2 ^ 63)); lia). assert (TQ : to_i64 q = q) by (unfold to_i64; destruct (Z.ltb_spec q (2 ^ 63)); lia). rewrite TP, TQ.
  destruct (Sim _ _ _ HS) as (_ & MV). destruct (MV x p q eq_refl) as (o1 & -> & HS1); [unfold int64; lia|unfold int64; lia|lia|].
  destruct (F o1 _ (or_intror HS1)) as (t' & E & M). eexists _, t'. split; [exact E|]. split; [|exact M].
  split; [apply sub_filter|]. apply filter_filter_eq. intros e He We. specialize (HW e He We).
  inversion Hr as [|? ? _ Hl]; subst. rewrite Forall_forall in Hl. destruct (hint_next_ok h e Ho (Hl e He) HW) as (s2 & Es2 & L2). rewrite Es in Es2. injection Es2 as <-. unfold le3 in L2; cbn [fst snd] in L2.
  unfold pair_lt, c1, c2, c3. cbn [fst snd]. lia.
Qed.

(** ** IndexScan *)
Variables b1 b2 b3 : bool.
Variable f : elem.
Definition prefix (e : elem) : bool := negb b1 || ((c1 e =? c1 f) && (negb b2 || ((c2 e =? c2 f) && (negb b3 || (c3 e =? c3 f))))).
Lemma check_ok e : prefix e = true -> is_check b1 b2 b3 f e = if agrees b1 b2 b3 f e then Row e else Skip.
Proof.
  unfold prefix. destruct f as [[f1 f2] f3], e as [[v1 v2] v3]. unfold agrees, is_check, c1, c2, c3. cbn [fst snd]. intros H.
  destruct b1, b2, b3; cbn [negb orb andb] in *; destruct (Z.eqb_spec v1 f1), (Z.eqb_spec v2 f2), (Z.eqb_spec v3 f3); cbn [negb orb andb] in *; try discriminate H; subst; rewrite ?Z.ltb_irrefl; reflexivity.
Qed.
Variable hs : nat -> hint.
Hypothesis Hok : forall i, hint_ok (hs i).
Hypothesis Hsome : forall i, exists r, int64_row r /\ wanted (hs i) r /\ c2 r <= top.
Notation F := (agrees b1 b2 b3 f).

(** The rest [l'] and the delivered row [e], if any, account for [l]. *)
Definition good (l : list elem) : Prop := Forall int64_row l /\ Forall (fun e => prefix e = true) l /\ forall i e, In e l -> W e = true -> wanted (hs i) e.
Lemma good_sub l l' : sublist l' l -> good l -> good l'.
Proof. intros Hs (A & B & C). split; [eapply sub_forall; eauto|]. split; [eapply sub_forall; eauto|]. intros i e He. apply C. eapply sub_in; eauto. Qed.
Definition found (l : list elem) (res : option (option elem * is_st)) : Prop :=
  exists r s', res = Some (r, s') /\ is_f s' = f /\
    match r with
    | None => filter W (filter F l) = []
    | Some e => F e = true /\ exists l', sublist (e :: l') l /\ filter W (filter F (e :: l')) = filter W (filter F l) /\ at_row e l' (is_ts s')
    end.
Lemma found_skip l l' res : kept l' l -> found l' res -> found l res.
Proof.
  intros [K1 K2] (r & s' & E & Ef & M). exists r, s'. split; [exact E|]. split; [exact Ef|].
  assert (KF : filter W (filter F l') = filter W (filter F l)) by (rewrite filter_comm, K2, filter_comm; reflexivity). destruct r as [e|]; [|congruence].
  destruct M as (Fe & l2 & A & B & C). split; [exact Fe|]. exists l2. split; [eapply sub_trans; eauto|]. split; [congruence|exact C].
Qed.
Lemma next_found i : forall fuel l x s, is_f s = f -> at_row x l (is_ts s) -> int64_row x -> good l -> (length l < fuel)%nat -> found l (is_next fuel b1 b2 b3 (hs i) s).
Proof.
  induction fuel as [|fuel IH]; intros l x s Ef Ax Hx G Lf; [lia|]. cbn [is_next].
  destruct (ts_next_ok (hs i) (is_ts s) x l Ax (Hok i)) as (l1 & t' & E & K & M); [constructor; [exact Hx|apply G]|apply Hsome|intros e He; apply G; exact He|]. rewrite E.
  apply (found_skip l l1 _ K). assert (G1 : good l1) by (apply (good_sub l); [apply K|exact G]). assert (L1 : (length l1 <= length l)%nat) by (apply sub_length, K).
  destruct l1 as [|y l2]; cbn [nonempty].
  { exists None. eexists. split; [reflexivity|]. split; [exact Ef|reflexivity]. }
  unfold ts_row. destruct M as (o & Eo & Ec & HS). rewrite Eo, Ec. cbn [is_f]. rewrite Ef.
  assert (Py : prefix y = true) by (destruct G1 as (_ & P & _); inversion P; auto). rewrite check_ok by exact Py.
  destruct (F y) eqn:Fy.
  - exists (Some y). eexists. split; [reflexivity|]. split; [reflexivity|]. split; [exact Fy|]. exists l2. split; [apply sub_refl|]. split; [reflexivity|]. exists o. auto.
  - assert (FS : found l2 (is_next fuel b1 b2 b3 (hs i) (mkIs t' f))).
    { apply (IH l2 y); auto; [exists o; auto|destruct G1 as (I & _); inversion I; auto|apply (good_sub (y :: l2)); [apply sub_skip, sub_refl|exact G1]|cbn [length] in L1; lia]. }
    destruct FS as (r & s' & E2 & Ef2 & M2). exists r, s'. split; [exact E2|]. split; [exact Ef2|]. cbn [filter]. rewrite Fy. destruct r as [e|]; [|exact M2]. destruct M2 as (Fe & l3 & A & B & C). split; [exact Fe|]. exists l3. split; [now apply sub_skip|]. split; [exact B|exact C].
Qed.
Definition delivers (l : list elem) (res : option (list elem)) : Prop :=
  exists D, res = Some D /\ sublist D (filter F l) /\ filter W D = filter W (filter F l).
Lemma rest_ok fuel : forall n l i x s, is_f s = f -> at_row x l (is_ts s) -> int64_row x -> good l -> (length l < fuel)%nat -> (length l < n)%nat ->
  delivers l (is_rest n fuel b1 b2 b3 hs i s).
Proof.
  induction n as [|n IH]; intros l i x s Ef Ax Hx G Lf Ln; [lia|]. cbn [is_rest]. destruct (next_found i fuel l x s Ef Ax Hx G Lf) as (r & s' & E & Ef' & M). rewrite E.
  destruct r as [e|].
  2:{ exists []. split; [reflexivity|]. split; [|symmetry; exact M]. clear. induction (filter F l); [apply sub_nil|now apply sub_skip]. }
  destruct M as (Fe & l' & A & B & C). assert (G' : good (e :: l')) by (eapply good_sub; eauto). assert (L' : (length (e :: l') <= length l)%nat) by (now apply sub_length). cbn [length] in L'.
  destruct (IH l' (S i) e s' Ef' C) as (D & ED & SD & WD); [destruct G' as (I & _); inversion I; auto|apply (good_sub (e :: l')); [apply sub_skip, sub_refl|exact G']|lia|lia|].
  exists (e :: D). rewrite ED. split; [reflexivity|]. split.
  - eapply sub_trans; [apply sub_filter2; exact A|]. cbn [filter]. rewrite Fe. now apply sub_take.
  - rewrite <- B. cbn [filter]. rewrite Fe. cbn [filter]. destruct (W e); [f_equal|]; exact WD.
Qed.
Lemma run_ok n fuel n0 open o l : S0 None l o -> good l -> (length l < fuel)%nat -> (length l < n)%nat ->
  (match b1, b2, b3 with
   | true, false, _ => open (Some (c1 f)) None None
   | true, true, false => open (Some (c1 f)) (Some (c2 f)) None
   | true, true, true => open (Some (c1 f)) (Some (c2 f)) (Some (c3 f))
   | false, _, _ => open None None None
   end) = Some o ->
  delivers l (is_run n fuel n0 b1 b2 b3 open hs f).
Proof.
  intros HS G Lf Ln Eo. unfold is_run, is_first.
  assert (EO : (let '(f1, f2, f3) := f in match b1, b2, b3 with | true, false, _ => open (Some f1) None None | true, true, false => open (Some f1) (Some f2) None | true, true, true => open (Some f1) (Some f2) (Some f3) | false, _, _ => open None None None end) = Some o).
  { destruct f as [[f1 f2] f3]. exact Eo. }
  destruct f as [[f1 f2] f3] eqn:EF. rewrite EO. unfold ts_first.
  destruct (Sim _ _ _ HS) as ((o1 & -> & _ & M) & _). destruct l as [|y l2]; cbn [nonempty].
  { exists []. split; [reflexivity|]. split; constructor. }
  destruct M as (o2 & -> & C & S2). unfold ts_row. cbn [ts_itr]. rewrite C. rewrite <- EF in *.
  assert (Py : prefix y = true) by (destruct G as (_ & P & _); inversion P; auto). rewrite check_ok by exact Py.
  assert (Hy : int64_row y) by (destruct G as (I & _); inversion I; auto).
  assert (G2 : good l2) by (apply (good_sub (y :: l2)); [apply sub_skip, sub_refl|exact G]). cbn [length] in *.
  assert (A2 : at_row y l2 (mkTs (Some o2) n0)) by (exists o2; auto).
  destruct (F y) eqn:Fy.
  - destruct (rest_ok fuel n l2 1%nat y (mkIs (mkTs (Some o2) n0) f) eq_refl A2 Hy G2 ltac:(lia) ltac:(lia)) as (D & -> & SD & WD). exists (y :: D). split; [reflexivity|]. cbn [filter]. rewrite Fy. split; [now apply sub_take|]. cbn [filter]. destruct (W y); [f_equal|]; exact WD.
  - destruct (next_found 0%nat fuel l2 y (mkIs (mkTs (Some o2) n0) f) eq_refl A2 Hy G2 ltac:(lia)) as (r & s' & -> & Ef' & M).
    destruct r as [e|].
    2:{ exists []. split; [reflexivity|]. cbn [filter]. rewrite Fy. split; [|symmetry; exact M]. clear. induction (filter F l2); [apply sub_nil|now apply sub_skip]. }
    destruct M as (Fe & l' & A & B & C'). assert (G' : good (e :: l')) by (eapply good_sub; eauto). assert (L' : (length (e :: l') <= length l2)%nat) by (now apply sub_length). cbn [length] in L'.
    destruct (rest_ok fuel n l' 1%nat e s' Ef' C') as (D & ED & SD & WD); [destruct G' as (I & _); inversion I; auto|apply (good_sub (e :: l')); [apply sub_skip, sub_refl|exact G']|lia|lia|].
    exists (e :: D). rewrite ED. split; [reflexivity|]. cbn [filter]. rewrite Fy. split.
    + eapply sub_trans; [apply sub_filter2; exact A|]. cbn [filter]. rewrite Fe. now apply sub_take.
    + rewrite <- B. cbn [filter]. rewrite Fe. cbn [filter]. destruct (W e); [f_equal|]; exact WD.
Qed.
End SCAN.
