(** Proofs about tables of tuples. *)
From Coq Require Import Sorted Permutation ZifyBool.
From Verif Require Import TupleModel TupleSpec.
Local Open Scope Z_scope.

(** ** The order of rows *)
Lemma cmp_lt r1 : forall r2, length r1 = length r2 -> cmp_row r1 r2 = Lt -> row_le r1 r2 /\ r1 <> r2.
Proof.
  induction r1 as [|a r1 IH]; intros [|b r2] Hl; cbn [cmp_row row_le]; try discriminate. cbn in Hl.
  destruct (Z.ltb_spec a b); [intros _; split; [now left|intros E; injection E; lia]|]. destruct (Z.ltb_spec b a); [discriminate|].
  intros E. destruct (IH r2 ltac:(lia) E) as [H1 H2]. split; [right; split; [lia|auto]|]. intros E'. injection E'. auto.
Qed.
Lemma cmp_eq r1 : forall r2, length r1 = length r2 -> cmp_row r1 r2 = Eq <-> r1 = r2.
Proof.
  induction r1 as [|a r1 IH]; intros [|b r2] Hl; cbn [cmp_row]; try discriminate; [tauto|]. cbn in Hl.
  destruct (Z.ltb_spec a b); [split; [discriminate|intros E; injection E; lia]|]. destruct (Z.ltb_spec b a); [split; [discriminate|intros E; injection E; lia]|].
  rewrite IH by lia. split; [intros ->; f_equal; lia|]. intros E. now injection E.
Qed.
Lemma cmp_opp r1 : forall r2, cmp_row r2 r1 = CompOpp (cmp_row r1 r2).
Proof.
  induction r1 as [|a r1 IH]; intros [|b r2]; cbn [cmp_row CompOpp]; auto. destruct (Z.ltb_spec a b), (Z.ltb_spec b a); auto; lia.
Qed.
Lemma le_refl r : row_le r r.
Proof. induction r; cbn; auto. Qed.
Lemma le_cmp r1 : forall r2, length r1 = length r2 -> row_le r1 r2 <-> cmp_row r1 r2 <> Gt.
Proof.
  induction r1 as [|a r1 IH]; intros [|b r2] Hl; cbn [cmp_row row_le]; try discriminate; [split; [discriminate|auto]|]. cbn in Hl.
  rewrite (IH r2) by lia. destruct (Z.ltb_spec a b); [split; [discriminate|now left]|]. destruct (Z.ltb_spec b a); [split; [intros [H1|[H1 _]]; lia|congruence]|].
  split; [intros [H1|[_ H1]]; [lia|auto]|]. intros H1. right. split; [lia|auto].
Qed.
Lemma lt_le_trans r1 : forall r2 r3, length r1 = length r2 -> length r2 = length r3 -> cmp_row r1 r2 = Lt -> row_le r2 r3 -> cmp_row r1 r3 = Lt.
Proof.
  induction r1 as [|a r1 IH]; intros [|b r2] [|c r3] H1 H2; cbn [cmp_row row_le]; try discriminate. cbn in H1, H2.
  destruct (Z.ltb_spec a b).
  - intros _ [H3|[H3 _]]; rewrite (proj2 (Z.ltb_lt a c)) by lia; auto.
  - destruct (Z.ltb_spec b a); [discriminate|]. intros E [H3|[H3 H4]]; [rewrite (proj2 (Z.ltb_lt a c)) by lia; auto|].
    rewrite (proj2 (Z.ltb_ge a c)), (proj2 (Z.ltb_ge c a)) by lia. apply (IH r2 r3); auto; congruence.
Qed.

Definition wide (n : nat) (l : list row) : Prop := Forall (fun r => length r = n) l.

(** ** merge *)
Fixpoint msort (fuel : nat) (l1 l2 : list row) : list row :=
  match fuel with
  | O => l1 ++ l2
  | S fuel =>
    match l1, l2 with
    | r1 :: t1, r2 :: t2 =>
      match cmp_row r1 r2 with
      | Lt => r1 :: msort fuel t1 l2
      | Gt => r2 :: msort fuel l1 t2
      | Eq => r1 :: msort fuel t1 t2
      end
    | _, _ => l1 ++ l2
    end
  end.
Definition opt {A} (x : option A) : list A := match x with Some a => [a] | None => [] end.

Lemma merge_loop_ok : forall fuel l1 l2 p1 p2 out, (length (opt p1 ++ l1) + length (opt p2 ++ l2) < fuel)%nat ->
  merge_loop fuel l1 l2 p1 p2 out = Some (out ++ msort fuel (opt p1 ++ l1) (opt p2 ++ l2)).
Proof.
  induction fuel as [|fuel IH]; intros l1 l2 p1 p2 out Hf; [lia|]. cbn [merge_loop].
  set (n1 := match p1 with Some r => Some (r, l1) | None => match l1 with x :: t => Some (x, t) | [] => None end end).
  set (n2 := match p2 with Some r => Some (r, l2) | None => match l2 with x :: t => Some (x, t) | [] => None end end).
  assert (E1 : opt p1 ++ l1 = match n1 with Some (r, l) => r :: l | None => [] end) by (unfold n1; destruct p1, l1; reflexivity).
  assert (E2 : opt p2 ++ l2 = match n2 with Some (r, l) => r :: l | None => [] end) by (unfold n2; destruct p2, l2; reflexivity).
  change (match p1 with Some r => [r] | None => [] end) with (opt p1). change (match p2 with Some r => [r] | None => [] end) with (opt p2).
  rewrite (app_assoc (opt p1) l1). rewrite E1, E2 in *. clear E1 E2. destruct n1 as [[r1 m1]|]; [|cbn [msort app]; reflexivity].
  destruct n2 as [[r2 m2]|]; [|cbn [msort]; reflexivity]. cbn [msort]. destruct (cmp_row r1 r2); rewrite IH by (cbn [opt app length] in *; lia); cbn [opt app]; rewrite <- app_assoc; reflexivity.
Qed.

Lemma count_cons r x l : count r (x :: l) = ((if list_eq_dec Z.eq_dec x r then 1 else 0) + count r l)%nat.
Proof. unfold count. cbn [count_occ]. destruct (list_eq_dec Z.eq_dec x r); reflexivity. Qed.
Lemma count_zero r l : ~ In r l -> count r l = 0%nat.
Proof. apply count_occ_not_In. Qed.

Lemma below_all n r1 l : wide n l -> length r1 = n -> sorted_rows l -> match l with r2 :: _ => cmp_row r1 r2 = Lt | [] => True end ->
  Forall (fun r => cmp_row r1 r = Lt) l.
Proof.
  intros Hw Hl Hs Hh. destruct l as [|r2 l]; constructor; auto. inversion Hw as [|? ? Hw1 Hw2]. subst. unfold sorted_rows in Hs. apply StronglySorted_inv in Hs as [_ HF]. rewrite Forall_forall in HF |- *.
  intros x Hx. rewrite Forall_forall in Hw2. specialize (Hw2 x Hx). eapply (lt_le_trans r1 r2 x); auto; congruence.
Qed.
Lemma below_notin r1 l : Forall (fun r => cmp_row r1 r = Lt) l -> ~ In r1 l.
Proof. intros HF Hin. rewrite Forall_forall in HF. specialize (HF r1 Hin). rewrite (proj2 (cmp_eq r1 r1 eq_refl) eq_refl) in HF. discriminate. Qed.
Lemma sorted_tail x l : sorted_rows (x :: l) -> sorted_rows l.
Proof. intros H. unfold sorted_rows in *. now apply StronglySorted_inv in H. Qed.

Lemma msort_incl : forall fuel l1 l2 r, In r (msort fuel l1 l2) -> In r l1 \/ In r l2.
Proof.
  induction fuel as [|fuel IH]; intros l1 l2 r; cbn [msort]; [apply in_app_or|]. destruct l1 as [|r1 t1]; [intros H; now right|]. destruct l2 as [|r2 t2]; [intros H; apply in_app_or in H; tauto|].
  destruct (cmp_row r1 r2); intros [->|H]; auto; try (now left; left); try (now right; left); apply IH in H; cbn [In] in *; tauto.
Qed.

Lemma msort_spec n : forall fuel l1 l2, (length l1 + length l2 <= fuel)%nat -> wide n l1 -> wide n l2 -> sorted_rows l1 -> sorted_rows l2 ->
  sorted_rows (msort fuel l1 l2) /\ forall r, count r (msort fuel l1 l2) = Nat.max (count r l1) (count r l2).
Proof.
  induction fuel as [|fuel IH]; intros l1 l2 Hf W1 W2 S1 S2.
  { destruct l1; [|cbn in Hf; lia]. destruct l2; [|cbn in Hf; lia]. cbn. split; auto. }
  cbn [msort]. destruct l1 as [|r1 t1]; [cbn [app]; split; auto|]. destruct l2 as [|r2 t2]; [rewrite app_nil_r; split; auto; intros r; cbn [count count_occ]; unfold count; cbn; lia|].
  cbn [length] in Hf. inversion W1 as [|? ? L1 W1']. inversion W2 as [|? ? L2 W2']. subst. pose proof (sorted_tail _ _ S1) as S1'. pose proof (sorted_tail _ _ S2) as S2'.
  assert (HS : forall x l m, sorted_rows m -> (forall y, In y m -> In y l) -> Forall (row_le x) l -> sorted_rows (x :: m)).
  { intros x l m Hm Hi HF. unfold sorted_rows in *. constructor; auto. rewrite Forall_forall in *. auto. }
  unfold sorted_rows in S1, S2. apply StronglySorted_inv in S1 as [_ F1]. apply StronglySorted_inv in S2 as [_ F2].
  destruct (cmp_row r1 r2) eqn:E.
  - apply cmp_eq in E; [|congruence]. subst r2. destruct (IH t1 t2 ltac:(lia) W1' W2' S1' S2') as [HS1 HC]. split.
    + apply (HS _ (t1 ++ t2)); auto; [intros y Hy; apply in_or_app; eapply msort_incl; eauto|]. apply Forall_app. auto.
    + intros r. rewrite !count_cons, HC. destruct (list_eq_dec Z.eq_dec r1 r); lia.
  - assert (HF : Forall (fun r => cmp_row r1 r = Lt) (r2 :: t2)) by (apply (below_all (length r1)); auto; constructor; auto).
    destruct (IH t1 (r2 :: t2) ltac:(cbn; lia) W1' W2 S1' ltac:(constructor; auto)) as [HS1 HC]. split.
    + apply (HS _ (t1 ++ r2 :: t2)); auto; [intros y Hy; apply in_or_app; eapply msort_incl; eauto|]. apply Forall_app. split; auto.
      rewrite Forall_forall in HF |- *. intros y Hy. apply le_cmp; [unfold wide in W2; rewrite Forall_forall in W2; rewrite (W2 y Hy); reflexivity|]. rewrite (HF y Hy). discriminate.
    + intros r. rewrite count_cons, HC. rewrite (count_cons r r1 t1). destruct (list_eq_dec Z.eq_dec r1 r) as [<- |]; [|lia]. rewrite (count_zero r1 (r2 :: t2)) by now apply below_notin. lia.
  - assert (E' : cmp_row r2 r1 = Lt) by (rewrite cmp_opp, E; reflexivity). assert (HF : Forall (fun r => cmp_row r2 r = Lt) (r1 :: t1)) by (apply (below_all (length r1)); auto; constructor; auto).
    destruct (IH (r1 :: t1) t2 ltac:(cbn; lia) W1 W2' ltac:(constructor; auto) S2') as [HS1 HC]. split.
    + apply (HS _ ((r1 :: t1) ++ t2)); auto; [intros y Hy; apply in_or_app; eapply msort_incl; eauto|]. apply Forall_app. split; auto.
      rewrite Forall_forall in HF |- *. intros y Hy. apply le_cmp; [unfold wide in W1; rewrite Forall_forall in W1; rewrite (W1 y Hy); congruence|]. rewrite (HF y Hy). discriminate.
    + intros r. rewrite count_cons, HC. rewrite (count_cons r r2 t2). destruct (list_eq_dec Z.eq_dec r2 r) as [<- |]; [|lia]. rewrite (count_zero r2 (r1 :: t1)) by now apply below_notin. lia.
Qed.

(** ** retain *)
Lemma retain_ok n T : forall fuel l1 l2 p1 prev p2 out, (length l1 + length l2 < fuel)%nat -> wide n (opt p1 ++ l1) -> wide n (opt p2 ++ l2) -> wide n (opt prev) ->
  (p1 = None \/ p2 = None) ->
  (forall r, In r (opt p2 ++ l2) -> In r T) -> (forall q, prev = Some q -> In q out \/ In q T \/ p1 = Some q) ->
  exists res, retain_loop fuel l1 l2 p1 prev p2 out = Some res /\
    (forall r, In r out -> In r res) /\ (forall r, In r res -> In r out \/ In r (opt p1 ++ l1)) /\ (forall r, In r (opt p1 ++ l1) -> In r res \/ In r T).
Proof.
  induction fuel as [|fuel IH]; intros l1 l2 p1 prev p2 out Hf W1 W2 Wp Hp HT Hq; [lia|]. cbn [retain_loop].
  change (match p1 with Some r => [r] | None => [] end) with (opt p1).
  assert (Hend : exists res, Some (out ++ opt p1 ++ l1) = Some res /\ (forall r, In r out -> In r res) /\ (forall r, In r res -> In r out \/ In r (opt p1 ++ l1)) /\ (forall r, In r (opt p1 ++ l1) -> In r res \/ In r T)).
  { eexists. split; [reflexivity|]. split; [intros r H; apply in_or_app; now left|]. split; [intros r H; now apply in_app_or in H|]. intros r H. left. apply in_or_app. now right. }
  destruct l1 as [|x t1]; [exact Hend|]. destruct l2 as [|y t2]; [exact Hend|]. clear Hend. cbn [length] in Hf.
  assert (Hgo : forall r1 m1 pv, wide n (r1 :: m1) -> (forall r, In r (r1 :: m1) <-> In r (opt p1 ++ x :: t1)) -> wide n (opt pv) -> (forall q, pv = Some q -> In q out \/ In q T \/ q = r1) ->
    (p2 = None /\ (length m1 <= S (length t1))%nat \/ (length m1 <= length t1)%nat) ->
    exists res, (let (r2, l2) := match p2 with Some r => (r, y :: t2) | None => (y, t2) end in
        match cmp_row r1 r2 with
        | Eq => retain_loop fuel m1 l2 None pv None out
        | Lt => retain_loop fuel m1 l2 None pv (Some r2) (out ++ [r1])
        | Gt => retain_loop fuel m1 l2 (Some r1) pv None out
        end) = Some res /\ (forall r, In r out -> In r res) /\ (forall r, In r res -> In r out \/ In r (opt p1 ++ x :: t1)) /\ (forall r, In r (opt p1 ++ x :: t1) -> In r res \/ In r T)).
  { intros r1 m1 pv W Heq Wv Hv Hm.
    assert (exists r2 m2, match p2 with Some r => (r, y :: t2) | None => (y, t2) end = (r2, m2) /\ wide n (r2 :: m2) /\ (forall r, In r (r2 :: m2) -> In r T) /\ (length m1 + length m2 < fuel)%nat) as (r2 & m2 & E2 & W2' & HT' & Hf').
    { destruct p2 as [r2|]; [exists r2, (y :: t2)|exists y, t2]; (split; [reflexivity|split; [exact W2|split; [exact HT|]]]); cbn [length]; destruct Hm as [[Hm1 Hm]|Hm]; try discriminate; lia. }
    rewrite E2. inversion W as [|? ? Wr Wm]. inversion W2' as [|? ? Wr2 Wm2]. subst.
    destruct (cmp_row r1 r2) eqn:E.
    - apply cmp_eq in E; [|congruence]. subst r2. destruct (IH m1 m2 None pv None out) as (res & E' & A & B & C); auto; [intros r H; apply HT'; now right|intros q Hq'; destruct (Hv q Hq') as [?|[?| ->]]; auto; right; left; apply HT'; now left|].
      exists res. split; [exact E'|]. split; [auto|]. split; [intros r H; apply B in H as [?|H]; auto; right; apply Heq; now right|]. intros r H. apply Heq in H as [<- |H]; [right; apply HT'; now left|auto].
    - destruct (IH m1 m2 None pv (Some r2) (out ++ [r1])) as (res & E' & A & B & C); auto; [intros q Hq'; destruct (Hv q Hq') as [?|[?| ->]]; auto; left; apply in_or_app; cbn; auto|].
      exists res. split; [exact E'|]. split; [intros r H; apply A, in_or_app; auto|]. split; [intros r H; apply B in H as [H|H]; [apply in_app_or in H as [?|[<- |[]]]; auto; right; apply Heq; now left|right; apply Heq; now right]|].
      intros r H. apply Heq in H as [<- |H]; [left; apply A, in_or_app; cbn; auto|auto].
    - destruct (IH m1 m2 (Some r1) pv None out) as (res & E' & A & B & C); auto; [intros r H; apply HT'; now right|intros q Hq'; destruct (Hv q Hq') as [?|[?| ->]]; auto|].
      exists res. split; [exact E'|]. split; [auto|]. split; [intros r H; apply B in H as [?|H]; auto; right; apply Heq; exact H|]. intros r H. apply Heq in H. auto. }
  destruct p1 as [r|].
  - apply Hgo; [exact W1|intros r'; cbn; tauto|exact Wp| |].
    + intros q E. destruct (Hq q E) as [?|[?|E1]]; auto. injection E1 as ->. auto.
    + left. destruct Hp as [Hp|Hp]; [discriminate|]. split; [exact Hp|cbn; lia].
  - assert (Hx : wide n (opt (Some x))) by (inversion W1; subst; constructor; auto; constructor).
    assert (Hfresh : forall q, Some x = Some q -> In q out \/ In q T \/ q = x) by (intros q E; injection E as ->; auto).
    destruct prev as [q|]; [destruct (cmp_row q x) eqn:E|]; try (apply Hgo; [exact W1|intros r'; cbn; tauto|exact Hx|exact Hfresh|right; lia]).
    inversion W1 as [|? ? Wx W1']. inversion Wp as [|? ? Wq _]. subst. apply cmp_eq in E; [|congruence]. subst q.
    destruct (IH t1 (y :: t2) None (Some x) p2 out) as (res & E' & A & B & C); auto; [cbn; lia|].
    exists res. split; [exact E'|]. split; [auto|]. split; [intros r H; apply B in H as [?|H]; auto; right; now right|]. intros r [<- |H]; [|auto].
    destruct (Hq x eq_refl) as [?|[?|?]]; [left; auto|auto|discriminate].
Qed.

Lemma lt_trans r1 r2 r3 : length r1 = length r2 -> length r2 = length r3 -> cmp_row r1 r2 = Lt -> cmp_row r2 r3 = Lt -> cmp_row r1 r3 = Lt.
Proof. intros L1 L2 H1 H2. apply (lt_le_trans r1 r2 r3); auto. now apply cmp_lt. Qed.
Lemma le_lt_trans r1 r2 r3 : length r1 = length r2 -> length r2 = length r3 -> row_le r1 r2 -> cmp_row r2 r3 = Lt -> cmp_row r1 r3 = Lt.
Proof.
  intros L1 L2 H1 H2. destruct (cmp_row r1 r2) eqn:E; [apply cmp_eq in E; congruence|eapply lt_trans; eauto|]. apply le_cmp in H1; auto. congruence.
Qed.
Lemma le_neq r1 r2 : length r1 = length r2 -> row_le r1 r2 -> cmp_row r1 r2 <> Eq -> cmp_row r1 r2 = Lt.
Proof. intros L H1 H2. apply le_cmp in H1; auto. destruct (cmp_row r1 r2); congruence. Qed.
Lemma lt_irrefl r : cmp_row r r <> Lt.
Proof. rewrite (proj2 (cmp_eq r r eq_refl) eq_refl). discriminate. Qed.

Section Retain.
Variable n : nat.
Variables (T : list row) (z1 z2 : row).
Hypothesis WT : wide n T.
Hypothesis ST : sorted_rows T.
Hypothesis HZ2 : last T z2 = z2.
Hypothesis Wz1 : length z1 = n.
Hypothesis Wz2 : length z2 = n.

Definition rinv (l1 l2 : list row) (p1 prev p2 : option row) (pas : list row) : Prop :=
  match p1 with
  | None => match prev with None => pas = [] /\ p2 = None | Some q => Forall (fun r => row_le r q) pas /\ Forall (row_le q) l1 /\ (p2 <> None -> Forall (fun r => cmp_row r q = Lt) pas) end
  | Some r => p2 = None /\ Forall (fun x => cmp_row x r = Lt) pas /\ prev = Some r
  end.

Lemma last_le : forall l z, sorted_rows l -> last l z = z -> forall r, In r l -> row_le r z.
Proof.
  induction l as [|a l IH]; intros z Hs Hl r Hin; [contradiction|]. destruct l as [|b l]; [cbn in Hl; destruct Hin as [<- |[]]; subst; apply le_refl|].
  assert (Hl' : last (b :: l) z = z) by exact Hl. destruct Hin as [<- |Hin]; [|eapply IH; eauto; eapply sorted_tail; eauto]. unfold sorted_rows in Hs. apply StronglySorted_inv in Hs as [_ HF]. rewrite Forall_forall in HF. apply HF.
  rewrite <- Hl'. clear. revert b. induction l as [|c l IH]; intros b; [now left|]. right. change (last (b :: c :: l) z) with (last (c :: l) z). apply IH.
Qed.
Lemma last_tail (x : row) l z : last (x :: l) z = z -> last l z = z.
Proof. destruct l; auto. Qed.

Lemma retain_inner : forall fuel l1 l2 p1 prev p2 out pas, wide n (opt p1 ++ l1) -> wide n (opt prev) -> sorted_rows (opt p1 ++ l1) ->
  T = pas ++ opt p2 ++ l2 -> last (opt p1 ++ l1) z1 = z1 -> rinv l1 l2 p1 prev p2 pas ->
  (forall r, In r out -> cmp_row r z1 = Lt -> cmp_row r z2 = Lt -> ~ In r T) ->
  forall res, retain_loop fuel l1 l2 p1 prev p2 out = Some res -> forall r, In r res -> cmp_row r z1 = Lt -> cmp_row r z2 = Lt -> ~ In r T.
Proof.
  induction fuel as [|fuel IH]; intros l1 l2 p1 prev p2 out pas W1 Wp S1 ET HZ1 HI HO res; [discriminate|]. cbn [retain_loop].
  change (match p1 with Some r => [r] | None => [] end) with (opt p1).
  assert (Wpas : wide n pas) by (unfold wide in *; rewrite ET in WT; apply Forall_app in WT; tauto).
  assert (Hend : (l1 = [] \/ l2 = []) -> Some (out ++ opt p1 ++ l1) = Some res -> forall r, In r res -> cmp_row r z1 = Lt -> cmp_row r z2 = Lt -> ~ In r T).
  { intros Hor E r Hin Hr1 Hr2 HinT. injection E as <-. apply in_app_or in Hin as [Hin|Hin]; [exact (HO r Hin Hr1 Hr2 HinT)|].
    destruct l1 as [|x t1].
    - rewrite app_nil_r in *. destruct p1 as [r'|]; [|contradiction]. destruct Hin as [<- |[]]. cbn in HZ1. subst. now apply lt_irrefl in Hr1.
    - destruct Hor as [?|Hl2]; [discriminate|]. subst l2. rewrite app_nil_r in ET.
      assert (Lr : length r = n) by (unfold wide in W1; rewrite Forall_forall in W1; auto).
      assert (Hz : forall y, In y T -> row_le y z2) by (apply last_le; auto).
      assert (HzT : T <> [] -> In z2 T). { intros HT. rewrite <- HZ2. clear -HT. destruct T as [|t0 T0]; [contradiction|]. clear HT. revert t0. induction T0 as [|c l IHl]; intros b; [now left|]. right. change (last (b :: c :: l) z2) with (last (c :: l) z2). apply IHl. }
      unfold rinv in HI. destruct p1 as [r'|].
      + destruct HI as (-> & HF & ->). cbn [opt] in ET. rewrite app_nil_r in ET. subst pas. assert (Hne : T <> []) by (intros E; rewrite E in HinT; contradiction).
        rewrite Forall_forall in HF. specialize (HF z2 (HzT Hne)). assert (Hle : row_le r' r). { destruct Hin as [<- |Hin]; [apply le_refl|]. cbn [opt app] in S1. unfold sorted_rows in S1. apply StronglySorted_inv in S1 as [_ HF']. rewrite Forall_forall in HF'. auto. }
        assert (Lr' : length r' = n) by (inversion W1; auto). assert (E1 : cmp_row z2 r = Lt) by (apply (lt_le_trans z2 r' r); congruence). apply (lt_irrefl r). apply (lt_trans r z2 r); congruence.
      + cbn [opt app] in *. destruct prev as [q|]; [|destruct HI as [-> ->]; cbn in ET; rewrite ET in HinT; contradiction]. destruct HI as (Hp & Hq & Hp2).
        assert (Lq : length q = n) by (inversion Wp; auto). assert (Hle : row_le q r) by (rewrite Forall_forall in Hq; auto).
        rewrite ET in HinT. apply in_app_or in HinT as [HinT|HinT].
        * destruct p2 as [y|].
          -- assert (HF : Forall (fun r0 : list Z => cmp_row r0 q = Lt) pas) by (apply Hp2; discriminate). rewrite Forall_forall in HF. apply (lt_irrefl r). apply (lt_le_trans r q r); auto; congruence.
          -- cbn [opt] in ET. rewrite app_nil_r in ET. subst pas. assert (Hne : T <> []) by (intros E; rewrite E in HinT; contradiction). rewrite Forall_forall in Hp. specialize (Hp z2 (HzT Hne)).
             assert (E1 : cmp_row r q = Lt) by (apply (lt_le_trans r z2 q); auto; congruence). apply (lt_irrefl r). apply (lt_le_trans r q r); auto; congruence.
        * destruct p2 as [y|]; [|contradiction]. destruct HinT as [<- |[]]. cbn [opt] in ET. rewrite ET in HZ2. rewrite last_last in HZ2. subst y. now apply lt_irrefl in Hr2. }
  destruct l1 as [|x t1]; [intros E; apply Hend; auto|]. destruct l2 as [|y t2]; [intros E; apply Hend; auto|]. clear Hend.
  assert (Hgo : forall r1 m1 pv, wide n (r1 :: m1) -> sorted_rows (r1 :: m1) -> last (r1 :: m1) z1 = z1 -> pv = Some r1 -> Forall (fun r => cmp_row r r1 = Lt) pas ->
    (let (r2, l2) := match p2 with Some r => (r, y :: t2) | None => (y, t2) end in
        match cmp_row r1 r2 with
        | Eq => retain_loop fuel m1 l2 None pv None out
        | Lt => retain_loop fuel m1 l2 None pv (Some r2) (out ++ [r1])
        | Gt => retain_loop fuel m1 l2 (Some r1) pv None out
        end) = Some res -> forall r, In r res -> cmp_row r z1 = Lt -> cmp_row r z2 = Lt -> ~ In r T).
  { intros r1 m1 pv W SR HL -> HF.
    assert (exists r2 m2, match p2 with Some r => (r, y :: t2) | None => (y, t2) end = (r2, m2) /\ T = pas ++ r2 :: m2) as (r2 & m2 & E2 & ET').
    { destruct p2 as [r2|]; [exists r2, (y :: t2)|exists y, t2]; auto. }
    rewrite E2. clear E2 ET. rename ET' into ET. assert (WT' := WT). unfold wide in WT'. rewrite ET in WT'. apply Forall_app in WT' as [_ WT']. inversion WT' as [|? ? Lr2 Wm2]. inversion W as [|? ? Lr1 Wm1]. subst x0 l x1 l0.
    assert (SR' := SR). unfold sorted_rows in SR'. apply StronglySorted_inv in SR' as [Sm1 Fm1]. assert (Wv : wide n (opt (Some r1))) by (constructor; [auto|constructor]).
    assert (Hle : Forall (fun r => row_le r r1) pas). { rewrite Forall_forall in HF |- *. intros a Ha. apply cmp_lt; auto. unfold wide in Wpas. rewrite Forall_forall in Wpas. rewrite (Wpas a Ha). congruence. }
    destruct (cmp_row r1 r2) eqn:E.
    - apply cmp_eq in E; [|congruence]. subst r2. apply (IH m1 m2 None (Some r1) None out (pas ++ [r1])); auto; [rewrite <- app_assoc; exact ET|eapply last_tail; eauto|].
      cbn. split; [apply Forall_app; split; [exact Hle|constructor; [apply le_refl|constructor]]|]. split; [exact Fm1|congruence].
    - apply (IH m1 m2 None (Some r1) (Some r2) (out ++ [r1]) pas); auto; [eapply last_tail; eauto|cbn; auto|].
      intros r Hr. apply in_app_or in Hr as [Hr|[<- |[]]]; [auto|]. intros _ _ Hin. rewrite ET in Hin. apply in_app_or in Hin as [Hin|Hin].
      + rewrite Forall_forall in HF. exact (lt_irrefl r1 (HF r1 Hin)).
      + assert (HB : Forall (fun r => cmp_row r1 r = Lt) (r2 :: m2)). { apply (below_all n); auto. rewrite ET in ST. clear -ST. induction pas as [|a pas IHp]; [exact ST|]. apply IHp. now apply sorted_tail in ST. }
        now apply below_notin in HB.
    - apply (IH m1 m2 (Some r1) (Some r1) None out (pas ++ [r2])); auto; [rewrite <- app_assoc; exact ET|]. cbn. split; [auto|]. split; [|auto]. apply Forall_app. split; [exact HF|]. constructor; [rewrite cmp_opp, E; reflexivity|constructor]. }
  destruct p1 as [r1|].
  - destruct HI as (-> & HF & ->). apply Hgo; auto.
  - cbn [opt app] in *. cbn in HI. destruct prev as [q|].
    + destruct HI as (Hp & Hq & Hp2). inversion W1 as [|? ? Lx Wt1]. inversion Wp as [|? ? Lq _]. inversion Hq as [|? ? Hqx Hqt]. subst x0 l x1 l0 x2 l1.
      assert (HX : cmp_row q x <> Eq -> Forall (fun r => cmp_row r x = Lt) pas). { intros HN. rewrite Forall_forall in Hp |- *. intros a Ha. assert (La : length a = n) by (unfold wide in Wpas; rewrite Forall_forall in Wpas; auto). apply (le_lt_trans a q x); auto; [congruence|congruence|]. apply le_neq; auto; congruence. }
      destruct (cmp_row q x) eqn:E; try (apply Hgo; auto; apply HX; congruence). apply cmp_eq in E; [|congruence]. subst q.
      apply (IH t1 (y :: t2) None (Some x) p2 out pas); auto; [eapply sorted_tail; eauto|eapply last_tail; eauto|]. cbn. auto.
    + destruct HI as [-> ->]. apply Hgo; auto.
Qed.
End Retain.

(** ** Joins *)
Definition kf (ps : list (nat * nat)) (r : row) : list Z := map (fun p => col r (fst p)) ps.
Definition ks (ps : list (nat * nat)) (r : row) : list Z := map (fun p => col r (snd p)) ps.
Lemma cmp_at_keys ps r1 r2 : cmp_at ps r1 r2 = cmp_row (kf ps r1) (ks ps r2).
Proof. unfold kf, ks. induction ps as [|[i j] ps IH]; cbn [cmp_at map cmp_row fst snd]; auto. now rewrite IH. Qed.
Lemma kf_len ps r : length (kf ps r) = length ps. Proof. apply map_length. Qed.
Lemma ks_len ps r : length (ks ps r) = length ps. Proof. apply map_length. Qed.
Lemma keq_dec (a b : list Z) : {a = b} + {a <> b}.
Proof. apply (list_eq_dec Z.eq_dec). Qed.
Definition keqb (a b : list Z) : bool := if keq_dec a b then true else false.

Section Ranges.
Variable ps : list (nat * nat).
Let m := length ps.

Lemma span_gen (k : row -> list Z) qs : (forall r x, cmp_at qs r x = cmp_row (k r) (k x)) -> (forall r, length (k r) = m) ->
  forall r l a b, span qs r l = (a, b) -> l = a ++ b /\ Forall (fun x => k x = k r) a /\ match b with x :: _ => k x <> k r | [] => True end.
Proof.
  intros Hc Hl r. induction l as [|x l IH]; intros a b; cbn [span]; [intros E; injection E as <- <-; auto|].
  destruct (cmp_at qs r x) eqn:E.
  - destruct (span qs r l) as [a' b'] eqn:E'. intros H. injection H as <- <-. destruct (IH _ _ eq_refl) as (-> & HF & Hb). split; [reflexivity|]. split; [|exact Hb].
    constructor; auto. rewrite Hc in E. symmetry. apply cmp_eq; auto. now rewrite !Hl.
  - intros H. injection H as <- <-. split; [reflexivity|]. split; [constructor|]. intros EK. rewrite Hc, EK, (proj2 (cmp_eq _ _ eq_refl) eq_refl) in E. discriminate.
  - intros H. injection H as <- <-. split; [reflexivity|]. split; [constructor|]. intros EK. rewrite Hc, EK, (proj2 (cmp_eq _ _ eq_refl) eq_refl) in E. discriminate.
Qed.
Lemma span_f r l a b : span (map (fun p => (fst p, fst p)) ps) r l = (a, b) -> l = a ++ b /\ Forall (fun x => kf ps x = kf ps r) a /\ match b with x :: _ => kf ps x <> kf ps r | [] => True end.
Proof. apply span_gen; [|intros; apply kf_len]. intros r' x. rewrite cmp_at_keys. unfold kf, ks. rewrite !map_map. reflexivity. Qed.
Lemma span_s r l a b : span (map (fun p => (snd p, snd p)) ps) r l = (a, b) -> l = a ++ b /\ Forall (fun x => ks ps x = ks ps r) a /\ match b with x :: _ => ks ps x <> ks ps r | [] => True end.
Proof. apply span_gen; [|intros; apply ks_len]. intros r' x. rewrite cmp_at_keys. unfold kf, ks. rewrite !map_map. reflexivity. Qed.

Definition sby (k : row -> list Z) (l : list row) : Prop := StronglySorted (fun a b => row_le (k a) (k b)) l.
Definition joined {A} (f : row -> row -> A) (l1 l2 : list row) : list A :=
  flat_map (fun r1 => map (f r1) (filter (fun r2 => keqb (kf ps r1) (ks ps r2)) l2)) l1.
Definition flatten {A} (f : row -> row -> A) (rs : list (list row * list row)) : list A :=
  flat_map (fun ab => flat_map (fun r1 => map (f r1) (snd ab)) (fst ab)) rs.

Lemma filter_none {A} (p : A -> bool) l : Forall (fun x => p x = false) l -> filter p l = [].
Proof. induction 1 as [|x l H _ IH]; cbn; [reflexivity|]. now rewrite H. Qed.
Lemma filter_all {A} (p : A -> bool) l : Forall (fun x => p x = true) l -> filter p l = l.
Proof. induction 1 as [|x l H _ IH]; cbn; [reflexivity|]. now rewrite H, IH. Qed.
Lemma fm_ext {A B} (f g : A -> list B) l : (forall x, In x l -> f x = g x) -> flat_map f l = flat_map g l.
Proof. induction l as [|x l IH]; intros H; cbn; [reflexivity|]. rewrite H, IH; [reflexivity| |now left]. intros y Hy. apply H. now right. Qed.
Lemma keqb_neq a b : a <> b -> keqb a b = false.
Proof. unfold keqb. destruct (keq_dec a b); tauto. Qed.
Lemma keqb_eq a b : a = b -> keqb a b = true.
Proof. unfold keqb. destruct (keq_dec a b); tauto. Qed.

Lemma sby_app k a b : sby k (a ++ b) -> sby k b /\ forall x y, In x a -> In y b -> row_le (k x) (k y).
Proof.
  induction a as [|c a IH]; cbn; intros H; [split; [exact H|contradiction]|]. unfold sby in *. apply StronglySorted_inv in H as [H HF]. destruct (IH H) as [H1 H2]. split; [exact H1|].
  intros x y [<- |Hx] Hy; [|auto]. rewrite Forall_forall in HF. apply HF, in_or_app. auto.
Qed.

(** What follows a group has a larger key. *)
Lemma after (k : row -> list Z) r l : (forall r, length (k r) = m) -> sby k (r :: l) -> match l with x :: _ => k x <> k r | [] => True end -> forall x, In x l -> cmp_row (k r) (k x) = Lt.
Proof.
  intros Hl Hs Hh x Hx. destruct l as [|y l]; [contradiction|]. unfold sby in Hs. apply StronglySorted_inv in Hs as [Hs HF]. assert (Hy : cmp_row (k r) (k y) = Lt).
  { apply le_neq; [now rewrite !Hl|inversion HF; auto|]. intros E. apply cmp_eq in E; [|now rewrite !Hl]. congruence. }
  destruct Hx as [<- |Hx]; [exact Hy|]. apply StronglySorted_inv in Hs as [_ HF']. rewrite Forall_forall in HF'. apply (lt_le_trans _ (k y)); auto; now rewrite !Hl.
Qed.

Lemma ranges_ok A (f : row -> row -> A) : forall fuel l1 l2, (length l1 + length l2 < fuel)%nat -> sby (kf ps) l1 -> sby (ks ps) l2 ->
  exists rs, ranges fuel ps l1 l2 = Some rs /\ flatten f rs = joined f l1 l2.
Proof.
  induction fuel as [|fuel IH]; intros l1 l2 Hf B1 B2; [lia|]. cbn [ranges].
  destruct l1 as [|r1 t1]; [exists []; split; reflexivity|].
  destruct l2 as [|r2 t2]. { exists []. split; [reflexivity|]. unfold joined. cbn. symmetry. clear. induction t1; cbn; auto. }
  cbn [length] in Hf. rewrite cmp_at_keys.
  assert (L : forall a b, length (kf ps a) = length (ks ps b)) by (intros; rewrite kf_len, ks_len; reflexivity).
  destruct (cmp_row (kf ps r1) (ks ps r2)) eqn:E.
  - apply cmp_eq in E; [|auto]. destruct (span (map (fun p => (fst p, fst p)) ps) r1 t1) as [a1 b1] eqn:E1. destruct (span (map (fun p => (snd p, snd p)) ps) r2 t2) as [a2 b2] eqn:E2.
    apply span_f in E1 as (-> & F1 & H1). apply span_s in E2 as (-> & F2 & H2). rewrite !app_length in Hf.
    assert (B1' : sby (kf ps) (r1 :: b1)). { unfold sby in *. apply StronglySorted_inv in B1 as [B1 HF]. constructor; [now apply sby_app in B1|]. apply Forall_app in HF. tauto. }
    assert (B2' : sby (ks ps) (r2 :: b2)). { unfold sby in *. apply StronglySorted_inv in B2 as [B2 HF]. constructor; [now apply sby_app in B2|]. apply Forall_app in HF. tauto. }
    pose proof (after _ _ _ (kf_len ps) B1' H1) as G1. pose proof (after _ _ _ (ks_len ps) B2' H2) as G2.
    destruct (IH b1 b2) as (rs & Er & Hr); [lia|now apply StronglySorted_inv in B1'|now apply StronglySorted_inv in B2'|].
    rewrite Er. eexists. split; [reflexivity|]. unfold flatten, joined in *. cbn [flat_map fst snd]. rewrite Hr.
    assert (HA : forall r, kf ps r = kf ps r1 -> filter (fun r0 => keqb (kf ps r) (ks ps r0)) (r2 :: a2 ++ b2) = r2 :: a2).
    { intros r Er'. change (r2 :: a2 ++ b2) with ((r2 :: a2) ++ b2). rewrite filter_app, filter_all, filter_none; [apply app_nil_r| |].
      - rewrite Forall_forall. intros x Hx. apply keqb_neq. specialize (G2 x Hx). intros EK. rewrite <- EK, Er', E in G2. now apply lt_irrefl in G2.
      - constructor; [apply keqb_eq; congruence|]. rewrite Forall_forall in F2 |- *. intros x Hx. apply keqb_eq. rewrite (F2 x Hx). congruence. }
    rewrite HA by reflexivity. rewrite flat_map_app, <- !app_assoc. f_equal. f_equal.
    + apply fm_ext. intros x Hx. rewrite Forall_forall in F1. rewrite HA by auto. reflexivity.
    + apply fm_ext. intros x Hx. f_equal. change (r2 :: a2 ++ b2) with ((r2 :: a2) ++ b2). rewrite filter_app. rewrite (filter_none _ (r2 :: a2)); [reflexivity|]. specialize (G1 x Hx).
      constructor; [apply keqb_neq; intros EK; rewrite EK, E in G1; now apply lt_irrefl in G1|]. rewrite Forall_forall in F2 |- *. intros y Hy. apply keqb_neq. intros EK. rewrite EK, (F2 y Hy), E in G1. now apply lt_irrefl in G1.
  - destruct (IH t1 (r2 :: t2)) as (rs & Er & Hr); [cbn; lia|now apply StronglySorted_inv in B1|exact B2|]. exists rs. split; [exact Er|]. rewrite Hr. unfold joined. cbn [flat_map]. rewrite filter_none; [reflexivity|].
    rewrite Forall_forall. intros x Hx. apply keqb_neq. intros EK. assert (HL : cmp_row (kf ps r1) (ks ps x) = Lt).
    { destruct Hx as [<- |Hx]; [exact E|]. apply StronglySorted_inv in B2 as [_ HF]. rewrite Forall_forall in HF. apply (lt_le_trans _ (ks ps r2)); auto. now rewrite !ks_len. }
    rewrite EK in HL. now apply lt_irrefl in HL.
  - destruct (IH (r1 :: t1) t2) as (rs & Er & Hr); [cbn; lia|exact B1|now apply StronglySorted_inv in B2|]. exists rs. split; [exact Er|]. rewrite Hr. unfold joined. apply fm_ext. intros x Hx. cbn [filter].
    rewrite keqb_neq; [reflexivity|]. intros EK. assert (E' : cmp_row (ks ps r2) (kf ps r1) = Lt) by (rewrite cmp_opp, E; reflexivity).
    assert (HL : cmp_row (ks ps r2) (kf ps x) = Lt). { destruct Hx as [<- |Hx]; [exact E'|]. apply StronglySorted_inv in B1 as [_ HF]. rewrite Forall_forall in HF. apply (lt_le_trans _ (kf ps r1)); auto. now rewrite !kf_len. }
    rewrite EK in HL. now apply lt_irrefl in HL.
Qed.

(** Without any order: what is joined has the same key. *)
Lemma ranges_sound A (f : row -> row -> A) : forall fuel l1 l2, (length l1 + length l2 < fuel)%nat ->
  exists rs, ranges fuel ps l1 l2 = Some rs /\ forall x, In x (flatten f rs) -> In x (joined f l1 l2).
Proof.
  induction fuel as [|fuel IH]; intros l1 l2 Hf; [lia|]. cbn [ranges].
  destruct l1 as [|r1 t1]; [exists []; split; [reflexivity|contradiction]|].
  destruct l2 as [|r2 t2]; [exists []; split; [reflexivity|contradiction]|].
  cbn [length] in Hf. rewrite cmp_at_keys.
  assert (HM : forall l1 l1' l2 l2' x, (forall y, In y l1 -> In y l1') -> (forall y, In y l2 -> In y l2') -> In x (joined f l1 l2) -> In x (joined f l1' l2')).
  { clear. intros l1 l1' l2 l2' x H1 H2 Hx. unfold joined in *. apply in_flat_map in Hx as (r1 & Hr1 & Hx). apply in_map_iff in Hx as (r2 & <- & Hr2). apply filter_In in Hr2 as [Hr2 E].
    apply in_flat_map. exists r1. split; [auto|]. apply in_map, filter_In. auto. }
  destruct (cmp_row (kf ps r1) (ks ps r2)) eqn:E.
  - apply cmp_eq in E; [|now rewrite kf_len, ks_len]. destruct (span (map (fun p => (fst p, fst p)) ps) r1 t1) as [a1 b1] eqn:E1. destruct (span (map (fun p => (snd p, snd p)) ps) r2 t2) as [a2 b2] eqn:E2.
    apply span_f in E1 as (-> & F1 & H1). apply span_s in E2 as (-> & F2 & H2). rewrite !app_length in Hf. destruct (IH b1 b2) as (rs & Er & Hr); [lia|].
    rewrite Er. eexists. split; [reflexivity|]. intros x Hx. unfold flatten in Hx. cbn [flat_map fst snd] in Hx. apply in_app_or in Hx as [Hx|Hx].
    + change (In x (flat_map (fun r1 : row => map (f r1) (r2 :: a2)) (r1 :: a1))) in Hx. apply in_flat_map in Hx as (u & Hu & Hx). apply in_map_iff in Hx as (v & <- & Hv). unfold joined. apply in_flat_map. exists u.
      split; [apply (in_or_app (r1 :: a1) b1); now left|]. apply in_map, filter_In. split; [apply (in_or_app (r2 :: a2) b2); now left|]. apply keqb_eq. rewrite Forall_forall in F1, F2.
      assert (EU : kf ps u = kf ps r1) by (destruct Hu as [<- |Hu]; auto). assert (EV : ks ps v = ks ps r2) by (destruct Hv as [<- |Hv]; auto). congruence.
    + apply Hr in Hx. revert Hx. apply HM; intros y Hy; right; apply in_or_app; auto.
  - destruct (IH t1 (r2 :: t2)) as (rs & Er & Hr); [cbn; lia|]. exists rs. split; [exact Er|]. intros x Hx. apply Hr in Hx. revert Hx. apply HM; auto. intros y Hy. now right.
  - destruct (IH (r1 :: t1) t2) as (rs & Er & Hr); [cbn; lia|]. exists rs. split; [exact Er|]. intros x Hx. apply Hr in Hx. revert Hx. apply HM; auto. intros y Hy. now right.
Qed.
End Ranges.

Lemma nth_repeat_lt (a : Z) n j d : (j < n)%nat -> nth j (repeat a n) d = a.
Proof. revert j. induction n as [|n IH]; intros [|j] H; cbn; auto; try lia. apply IH. lia. Qed.

(** *** Variables and columns *)
Definition vof (sig : list Z) (r : row) (x : Z) : Z := match value sig r x with Some a => a | None => 0 end.

Lemma value_nth : forall sig r i, NoDup sig -> length r = length sig -> (i < length sig)%nat -> value sig r (nth i sig 0) = Some (col r i).
Proof.
  induction sig as [|v sig IH]; intros [|a r] i HN Hl Hi; cbn in Hl, Hi; try lia. inversion HN as [|? ? Hn HN']. subst. destruct i as [|i]; cbn [nth value].
  - now rewrite Z.eqb_refl.
  - destruct (Z.eqb_spec v (nth i sig 0)) as [E|]; [exfalso; apply Hn; rewrite E; apply nth_In; lia|]. rewrite IH by (auto; lia). reflexivity.
Qed.
Lemma value_none : forall sig r x, ~ In x sig -> value sig r x = None.
Proof. induction sig as [|v sig IH]; intros r x Hn; [reflexivity|]. destruct r as [|a r]; [reflexivity|]. cbn. destruct (Z.eqb_spec v x) as [->|]; [exfalso; apply Hn; now left|]. apply IH. intros H. apply Hn. now right. Qed.
Lemma exists_in x s : existsb (Z.eqb x) s = true <-> In x s.
Proof. rewrite existsb_exists. split; [intros (y & Hy & E); apply Z.eqb_eq in E; now subst|intros H; exists x; split; [auto|apply Z.eqb_refl]]. Qed.
Lemma exists_notin x s : existsb (Z.eqb x) s = false <-> ~ In x s.
Proof. rewrite <- exists_in. destruct (existsb (Z.eqb x) s); split; congruence. Qed.

Lemma fm_seq {B} (g : Z -> list B) (s : list Z) : flat_map g s = flat_map (fun i => g (nth i s 0)) (seq 0 (length s)).
Proof.
  rewrite (flat_map_concat_map (fun i => g (nth i s 0))), <- (map_map (fun i => nth i s 0) g), <- flat_map_concat_map. f_equal.
  clear. induction s as [|a s IH]; [reflexivity|]. cbn [length seq map nth]. f_equal. rewrite <- seq_shift, map_map. exact IH.
Qed.
Lemma filter_fm {A} (p : A -> bool) l : filter p l = flat_map (fun x => if p x then [x] else []) l.
Proof. induction l as [|x l IH]; cbn; [reflexivity|]. rewrite IH. now destruct (p x). Qed.
Lemma map_fm {A B C} (h : B -> C) (g : A -> list B) l : map h (flat_map g l) = flat_map (fun x => map h (g x)) l.
Proof. induction l as [|x l IH]; cbn; [reflexivity|]. now rewrite map_app, IH. Qed.

(** The only column of [s] that has the variable [x]. *)
Lemma inner (s : list Z) (r : row) x : NoDup s -> length r = length s ->
  flat_map (fun j => if x =? nth j s 0 then [col r j] else []) (seq 0 (length s)) = (if existsb (Z.eqb x) s then [vof s r x] else []).
Proof.
  intros HN Hl. revert r Hl. induction s as [|v s IH]; intros [|a r] Hl; try discriminate; [reflexivity|]. inversion HN as [|? ? Hn HN']. subst. cbn [length seq flat_map nth existsb]. rewrite <- seq_shift.
  rewrite flat_map_concat_map, map_map, <- flat_map_concat_map. cbn [nth]. change (col (a :: r) 0) with a.
  replace (flat_map (fun j : nat => if x =? nth j s 0 then [col (a :: r) (S j)] else []) (seq 0 (length s))) with (if existsb (Z.eqb x) s then [vof s r x] else []) by (symmetry; apply (IH HN' r); cbn in Hl; lia).
  unfold vof. cbn [value]. rewrite (Z.eqb_sym v x). destruct (Z.eqb_spec x v) as [->|]; [|reflexivity]. rewrite (proj2 (exists_notin v s) Hn). reflexivity.
Qed.

Lemma keys_f s1 s2 r : NoDup s1 -> NoDup s2 -> length r = length s1 -> kf (tt_posJoins s1 s2) r = values s1 (common s1 s2) r.
Proof.
  intros N1 N2 Hl. unfold kf, tt_posJoins, values, common. rewrite filter_fm, !map_fm, (fm_seq (fun x => _) s1). apply fm_ext. intros i Hi. apply in_seq in Hi. rewrite map_fm.
  replace (flat_map (fun x => map (fun p : nat * nat => col r (fst p)) (if nth i s1 0 =? nth x s2 0 then [(i, x)] else [])) (seq 0 (length s2)))
    with (flat_map (fun x => if nth i s1 0 =? nth x s2 0 then [col r i] else []) (seq 0 (length s2))) by (apply fm_ext; intros x _; destruct (nth i s1 0 =? nth x s2 0); reflexivity).
  pose proof (inner s2 (repeat (col r i) (length s2)) (nth i s1 0) N2 (repeat_length _ _)) as HI.
  transitivity (flat_map (fun j => if nth i s1 0 =? nth j s2 0 then [col (repeat (col r i) (length s2)) j] else []) (seq 0 (length s2))).
  { apply fm_ext. intros j Hj. apply in_seq in Hj. destruct (nth i s1 0 =? nth j s2 0); auto. unfold col. rewrite nth_repeat_lt by lia. reflexivity. }
  rewrite HI. destruct (existsb (Z.eqb (nth i s1 0)) s2) eqn:E; [|reflexivity]. cbn [map]. rewrite value_nth by (auto; lia). f_equal. apply exists_in in E. destruct (In_nth s2 _ 0 E) as (j & Hj & Ej).
  unfold vof. rewrite <- Ej, value_nth by (auto; rewrite repeat_length; reflexivity). unfold col. now rewrite nth_repeat_lt by lia.
Qed.
Lemma keys_s s1 s2 r : NoDup s2 -> length r = length s2 -> ks (tt_posJoins s1 s2) r = values s2 (common s1 s2) r.
Proof.
  intros N2 Hl. unfold ks, tt_posJoins, values, common. rewrite filter_fm, !map_fm, (fm_seq (fun x => _) s1). apply fm_ext. intros i Hi. rewrite map_fm.
  transitivity (flat_map (fun j => if nth i s1 0 =? nth j s2 0 then [col r j] else []) (seq 0 (length s2))).
  { apply fm_ext. intros j Hj. destruct (nth i s1 0 =? nth j s2 0); reflexivity. }
  rewrite inner by auto. destruct (existsb (Z.eqb (nth i s1 0)) s2); reflexivity.
Qed.
Lemma compat_keys s1 s2 r1 r2 : NoDup s1 -> NoDup s2 -> length r1 = length s1 -> length r2 = length s2 ->
  compatible s1 s2 r1 r2 = keqb (kf (tt_posJoins s1 s2) r1) (ks (tt_posJoins s1 s2) r2).
Proof.
  intros N1 N2 L1 L2. rewrite keys_f, keys_s by auto. unfold compatible, values, common.
  assert (HV1 : forall x, In x s1 -> value s1 r1 x = Some (vof s1 r1 x)). { intros x Hx. destruct (In_nth _ _ 0 Hx) as (i & Hi & <-). unfold vof. now rewrite value_nth by auto. }
  assert (HV2 : forall x, In x s2 -> value s2 r2 x = Some (vof s2 r2 x)). { intros x Hx. destruct (In_nth _ _ 0 Hx) as (i & Hi & <-). unfold vof. now rewrite value_nth by auto. }
  change (fun x : Z => match value s1 r1 x with Some a => a | None => 0 end) with (vof s1 r1). change (fun x : Z => match value s2 r2 x with Some a => a | None => 0 end) with (vof s2 r2).
  clear N1 N2 L1 L2. assert (H : forall l, (forall x, In x l -> In x s1) -> forallb (fun x => match value s1 r1 x with Some a => match value s2 r2 x with Some b => a =? b | None => true end | None => true end) l =
    keqb (map (vof s1 r1) (filter (fun x => existsb (Z.eqb x) s2) l)) (map (vof s2 r2) (filter (fun x => existsb (Z.eqb x) s2) l))); [|apply H; auto].
  induction l as [|x l IH]; intros Hl; [now rewrite keqb_eq|]. cbn [forallb filter]. rewrite IH by (intros y Hy; apply Hl; now right). rewrite HV1 by (apply Hl; now left).
  destruct (existsb (Z.eqb x) s2) eqn:E.
  - apply exists_in in E. rewrite HV2 by auto. cbn [map]. unfold keqb. destruct (Z.eqb_spec (vof s1 r1 x) (vof s2 r2 x)) as [E1|E1]; cbn [andb].
    + rewrite E1. destruct (keq_dec (map (vof s1 r1) _) (map (vof s2 r2) _)) as [E2|E2]; destruct (keq_dec (_ :: _) (_ :: _)) as [E3|E3]; auto; [rewrite E2 in E3; tauto|injection E3; intros E4; tauto].
    + destruct (keq_dec (_ :: _) (_ :: _)) as [E3|E3]; auto. injection E3. tauto.
  - apply exists_notin in E. rewrite value_none by auto. reflexivity.
Qed.

Lemma copy_extra s1 s2 r2 : NoDup s1 -> NoDup s2 -> length r2 = length s2 ->
  map (col r2) (tt_toCopy (tt_posJoins s1 s2) (length s2)) = extra s1 s2 r2 /\ map (fun i => nth i s2 0) (tt_toCopy (tt_posJoins s1 s2) (length s2)) = new_vars s1 s2.
Proof.
  intros N1 N2 L2.
  assert (HL : length (tt_posJoins s1 s2) = length (common s1 s2)). { rewrite <- (ks_len _ r2), keys_s by auto. apply map_length. }
  unfold tt_toCopy. destruct (Nat.ltb_spec (length (tt_posJoins s1 s2)) (length s2)) as [Hlt|Hge].
  - assert (HF : filter (fun i => negb (existsb (fun p => (i =? snd p)%nat) (tt_posJoins s1 s2))) (seq 0 (length s2)) = flat_map (fun i => if negb (existsb (Z.eqb (nth i s2 0)) s1) then [i] else []) (seq 0 (length s2))).
    { rewrite filter_fm. apply fm_ext. intros i Hi. apply in_seq in Hi. replace (existsb (fun p => (i =? snd p)%nat) (tt_posJoins s1 s2)) with (existsb (Z.eqb (nth i s2 0)) s1); [reflexivity|].
      apply eq_true_iff_eq. rewrite exists_in, existsb_exists. unfold tt_posJoins. split.
      - intros Hin. destruct (In_nth _ _ 0 Hin) as (k & Hk & Ek). exists (k, i). split; [|apply Nat.eqb_refl]. apply in_flat_map. exists k. split; [apply in_seq; lia|]. apply in_flat_map. exists i. split; [apply in_seq; lia|]. rewrite Ek, Z.eqb_refl. now left.
      - intros (p & Hp & E). apply Nat.eqb_eq in E. apply in_flat_map in Hp as (k & Hk & Hp). apply in_flat_map in Hp as (j & Hj & Hp). apply in_seq in Hk. destruct (Z.eqb_spec (nth k s1 0) (nth j s2 0)) as [E'|]; [|contradiction]. destruct Hp as [<- |[]]. cbn in E. subst j.
        rewrite <- E'. apply nth_In. lia. }
    rewrite HF. unfold extra, new_vars. rewrite filter_fm, !map_fm. split.
    + rewrite (fm_seq (fun x => _) s2). apply fm_ext. intros i Hi. apply in_seq in Hi. destruct (negb (existsb (Z.eqb (nth i s2 0)) s1)); [|reflexivity]. cbn [map]. now rewrite value_nth by (auto; lia).
    + rewrite (fm_seq (fun x => if negb _ then _ else _) s2). apply fm_ext. intros i Hi. destruct (negb (existsb (Z.eqb (nth i s2 0)) s1)); reflexivity.
  - assert (HN : new_vars s1 s2 = []). { unfold new_vars. apply filter_none. rewrite Forall_forall. intros x Hx. apply negb_false_iff, exists_in.
      assert (Hi : incl s2 (common s1 s2)). { apply NoDup_length_incl; [unfold common; now apply NoDup_filter|lia|]. intros y Hy. unfold common in Hy. apply filter_In in Hy as [_ Hy]. now apply exists_in in Hy. }
      apply Hi in Hx. unfold common in Hx. now apply filter_In in Hx. }
    unfold extra. rewrite HN. auto.
Qed.

Lemma adds_ok : forall l n sig, tt_adds (tt_new (S n) sig) l = mkTuples (S n) sig l (match l with [] => true | _ => false end).
Proof.
  intros l n sig. unfold tt_adds, tt_new. enough (H : forall l k e, fold_left tt_add l (mkTuples (S n) sig k e) = mkTuples (S n) sig (k ++ l) (match l with [] => e | _ => false end)) by (rewrite H; reflexivity).
  clear. induction l as [|r l IH]; intros k e; cbn [fold_left]; [now rewrite app_nil_r|]. unfold tt_add. cbn [tt_size tt_sig tt_rows]. rewrite IH, <- app_assoc. destruct l; reflexivity.
Qed.


Lemma joined_natural t1 t2 : table_ok t1 -> table_ok t2 ->
  joined (tt_posJoins (tt_sig t1) (tt_sig t2)) (fun r1 r2 => r1 ++ map (col r2) (tt_toCopy (tt_posJoins (tt_sig t1) (tt_sig t2)) (tt_size t2))) (tt_rows t1) (tt_rows t2)
  = natural_join (tt_sig t1) (tt_sig t2) (tt_rows t1) (tt_rows t2).
Proof.
  intros (Z1 & _ & N1 & W1) (Z2 & _ & N2 & W2). unfold joined, natural_join. apply fm_ext. intros r1 H1. rewrite Forall_forall in W1, W2. rewrite Z2.
  assert (E : forall l, (forall r, In r l -> In r (tt_rows t2)) -> filter (fun r2 => keqb (kf (tt_posJoins (tt_sig t1) (tt_sig t2)) r1) (ks (tt_posJoins (tt_sig t1) (tt_sig t2)) r2)) l = filter (compatible (tt_sig t1) (tt_sig t2) r1) l).
  { intros l Hl. apply filter_ext_in. intros r Hr. rewrite compat_keys; auto. }
  rewrite E by auto. apply map_ext_in. intros r2 H2. apply filter_In in H2 as [H2 _]. f_equal. apply copy_extra; auto.
Qed.

Lemma nil_posjoins s1 s2 : length (tt_posJoins s1 s2) = length (common s1 s2) -> common s1 s2 = [] -> tt_posJoins s1 s2 = [].
Proof. intros H E. rewrite E in H. now apply length_zero_iff_nil in H. Qed.


Lemma sort_some srt fields t : (length fields <= 8)%nat -> tt_size t <> O -> exists s, tt_sortBy srt fields t = Some s.
Proof. intros H1 H2. unfold tt_sortBy. destruct (Nat.ltb_spec 8 (length fields)); [lia|]. destruct (tt_size t); [contradiction|eauto]. Qed.

Lemma posjoins_len s1 s2 : NoDup s2 -> length (tt_posJoins s1 s2) = length (common s1 s2).
Proof. intros N2. rewrite <- (ks_len _ (repeat 0 (length s2))), keys_s by (auto; apply repeat_length). apply map_length. Qed.

Lemma by_keys (k : row -> list Z) (v : row -> list Z) l : (forall r, In r l -> k r = v r) -> StronglySorted (fun a b => row_le (v a) (v b)) l -> sby k l.
Proof.
  intros H S. unfold sby. induction S as [|a l S IH HF]; constructor; [apply IH; intros; apply H; now right|]. rewrite Forall_forall in HF |- *. intros x Hx. rewrite (H a), (H x) by (cbn; auto). apply HF, Hx.
Qed.

Lemma join_unfold srt t1 t2 : tt_sig t1 <> [] -> tt_sig t2 <> [] -> tt_join srt t1 t2 =
  let s1 := tt_sig t1 in let s2 := tt_sig t2 in
  match tt_posJoins s1 s2 with
  | [] => Some (tt_adds (tt_new (length (s1 ++ s2)) (s1 ++ s2)) (flat_map (fun r1 => map (fun r2 => r1 ++ r2) (tt_rows t2)) (tt_rows t1)))
  | ps => let cp := tt_toCopy ps (tt_size t2) in let sig := s1 ++ map (fun i => nth i s2 0) cp in
      do _ <- tt_sortBy srt (map fst ps) t1; do _ <- tt_sortBy srt (map snd ps) t2; do rs <- tt_ranges ps t1 t2;
      Some (tt_adds (tt_new (length sig) sig) (flatten (fun r1 r2 => r1 ++ map (col r2) cp) rs))
  end.
Proof. intros H1 H2. unfold tt_join. destruct (tt_sig t1); [contradiction|]. destruct (tt_sig t2); [contradiction|]. reflexivity. Qed.
Lemma hits_unfold srt t1 t2 : tt_sig t1 <> [] -> tt_sig t2 <> [] -> tt_hits srt t1 t2 =
  match tt_posJoins (tt_sig t1) (tt_sig t2) with
  | [] => Some None
  | ps => do _ <- tt_sortBy srt (map fst ps) t1; do _ <- tt_sortBy srt (map snd ps) t2; do rs <- tt_ranges ps t1 t2;
      Some (Some (fold_left (fun n ab => n + Z.of_nat (length (fst ab)) * Z.of_nat (length (snd ab))) rs 0))
  end.
Proof. intros H1 H2. unfold tt_hits. destruct (tt_sig t1); [contradiction|]. destruct (tt_sig t2); [contradiction|]. reflexivity. Qed.

Lemma adds_ok' n sig l : n <> O -> tt_adds (tt_new n sig) l = mkTuples n sig l (empty_of l).
Proof. destruct n; [contradiction|]. intros _. apply adds_ok. Qed.

(** No common variable: the product. *)
Lemma natural_product t1 t2 : table_ok t1 -> table_ok t2 -> tt_posJoins (tt_sig t1) (tt_sig t2) = [] ->
  natural_join (tt_sig t1) (tt_sig t2) (tt_rows t1) (tt_rows t2) = flat_map (fun r1 => map (fun r2 => r1 ++ r2) (tt_rows t2)) (tt_rows t1) /\ join_sig (tt_sig t1) (tt_sig t2) = tt_sig t1 ++ tt_sig t2.
Proof.
  intros T1 T2 E. rewrite <- joined_natural by auto. rewrite E. destruct T1 as (Z1 & E1 & N1 & W1), T2 as (Z2 & E2 & N2 & W2).
  assert (HC : tt_toCopy [] (length (tt_sig t2)) = seq 0 (length (tt_sig t2))). { unfold tt_toCopy. cbn [length existsb negb]. destruct (tt_sig t2); [contradiction|]. apply filter_all. now rewrite Forall_forall. }
  assert (HS : forall l : list Z, map (fun i => nth i l 0) (seq 0 (length l)) = l). { clear. induction l as [|a l IH]; [reflexivity|]. cbn [length seq map nth]. rewrite <- seq_shift, map_map. now rewrite IH. }
  split.
  - unfold joined, kf, ks. cbn [map]. rewrite Z2, HC. apply fm_ext. intros r1 _. rewrite filter_all by (rewrite Forall_forall; intros; now apply keqb_eq). apply map_ext_in. intros r2 H2. f_equal. rewrite Forall_forall in W2. rewrite <- (W2 r2 H2). unfold col. apply HS.
  - unfold join_sig. f_equal. destruct (copy_extra (tt_sig t1) (tt_sig t2) (repeat 0 (length (tt_sig t2))) N1 N2 (repeat_length _ _)) as [_ H]. rewrite <- H, E, HC. apply HS.
Qed.

Lemma join_gen (P : list row -> Prop) srt t1 t2 : table_ok t1 -> table_ok t2 -> (length (common (tt_sig t1) (tt_sig t2)) <= 8)%nat ->
  P (natural_join (tt_sig t1) (tt_sig t2) (tt_rows t1) (tt_rows t2)) ->
  (exists rs, tt_ranges (tt_posJoins (tt_sig t1) (tt_sig t2)) t1 t2 = Some rs /\ P (flatten (fun r1 r2 => r1 ++ map (col r2) (tt_toCopy (tt_posJoins (tt_sig t1) (tt_sig t2)) (tt_size t2))) rs)) ->
  exists l, tt_join srt t1 t2 = Some (mkTuples (length (join_sig (tt_sig t1) (tt_sig t2))) (join_sig (tt_sig t1) (tt_sig t2)) l (empty_of l)) /\ P l.
Proof.
  intros T1 T2 H8 HP (rs & Er & HR). assert (T1' := T1). assert (T2' := T2). destruct T1 as (Z1 & E1 & N1 & W1), T2 as (Z2 & E2 & N2 & W2). rewrite join_unfold by auto. cbv zeta.
  assert (HJ : length (join_sig (tt_sig t1) (tt_sig t2)) <> O). { unfold join_sig. rewrite app_length. destruct (tt_sig t1); [contradiction|]. cbn. lia. }
  destruct (tt_posJoins (tt_sig t1) (tt_sig t2)) as [|p0 ps0] eqn:EP.
  - destruct (natural_product t1 t2 T1' T2' EP) as [HN HS]. rewrite <- HN, <- HS, adds_ok' by auto. eauto.
  - rewrite <- EP in *. pose proof (posjoins_len (tt_sig t1) (tt_sig t2) N2) as HL.
    destruct (sort_some srt (map fst (tt_posJoins (tt_sig t1) (tt_sig t2))) t1) as [x1 Ex1]; [rewrite map_length; lia|rewrite Z1; destruct (tt_sig t1); [contradiction|discriminate]|].
    destruct (sort_some srt (map snd (tt_posJoins (tt_sig t1) (tt_sig t2))) t2) as [x2 Ex2]; [rewrite map_length; lia|rewrite Z2; destruct (tt_sig t2); [contradiction|discriminate]|].
    rewrite Ex1, Ex2, Er. destruct (copy_extra (tt_sig t1) (tt_sig t2) (repeat 0 (length (tt_sig t2))) N1 N2 (repeat_length _ _)) as [_ HS]. rewrite Z2 in *. rewrite HS. fold (join_sig (tt_sig t1) (tt_sig t2)). rewrite adds_ok' by auto. eauto.
Qed.

Lemma join_sorted srt t1 t2 : table_ok t1 -> table_ok t2 -> (length (common (tt_sig t1) (tt_sig t2)) <= 8)%nat ->
  sorted_on (tt_sig t1) (common (tt_sig t1) (tt_sig t2)) (tt_rows t1) -> sorted_on (tt_sig t2) (common (tt_sig t1) (tt_sig t2)) (tt_rows t2) ->
  exists l, tt_join srt t1 t2 = Some (mkTuples (length (join_sig (tt_sig t1) (tt_sig t2))) (join_sig (tt_sig t1) (tt_sig t2)) l (empty_of l)) /\
    l = natural_join (tt_sig t1) (tt_sig t2) (tt_rows t1) (tt_rows t2).
Proof.
  intros T1 T2 H8 S1 S2. apply join_gen; auto. rewrite <- joined_natural by auto. destruct T1 as (Z1 & E1 & N1 & W1), T2 as (Z2 & E2 & N2 & W2). rewrite Forall_forall in W1, W2. apply ranges_ok; [lia| |].
  - eapply by_keys; [|exact S1]. intros r Hr. apply keys_f; auto.
  - eapply by_keys; [|exact S2]. intros r Hr. apply keys_s; auto.
Qed.
Lemma join_sound srt t1 t2 : table_ok t1 -> table_ok t2 -> (length (common (tt_sig t1) (tt_sig t2)) <= 8)%nat ->
  exists l, tt_join srt t1 t2 = Some (mkTuples (length (join_sig (tt_sig t1) (tt_sig t2))) (join_sig (tt_sig t1) (tt_sig t2)) l (empty_of l)) /\
    forall r, In r l -> In r (natural_join (tt_sig t1) (tt_sig t2) (tt_rows t1) (tt_rows t2)).
Proof.
  intros T1 T2 H8. apply join_gen; auto. rewrite <- joined_natural by auto. unfold tt_ranges.
  destruct (ranges_sound (tt_posJoins (tt_sig t1) (tt_sig t2)) _ (fun r1 r2 => r1 ++ map (col r2) (tt_toCopy (tt_posJoins (tt_sig t1) (tt_sig t2)) (tt_size t2))) (S (length (tt_rows t1) + length (tt_rows t2))) (tt_rows t1) (tt_rows t2)) as (rs & Er & Hr); [lia|]. eauto.
Qed.

Lemma flatten_len {A} (f : row -> row -> A) : forall rs n, fold_left (fun n ab => n + Z.of_nat (length (fst ab)) * Z.of_nat (length (snd ab))) rs n = n + Z.of_nat (length (flatten f rs)).
Proof.
  induction rs as [|[a b] rs IH]; intros n; cbn [fold_left fst snd]; [cbn; lia|]. rewrite IH. unfold flatten. cbn [flat_map fst snd]. rewrite app_length, Nat2Z.inj_add.
  assert (E : length (flat_map (fun r1 => map (f r1) b) a) = (length a * length b)%nat). { clear. induction a as [|x a IH]; cbn [flat_map length]; [reflexivity|]. rewrite app_length, map_length, IH. lia. }
  rewrite E. lia.
Qed.

Lemma hits_sorted srt t1 t2 : table_ok t1 -> table_ok t2 -> (length (common (tt_sig t1) (tt_sig t2)) <= 8)%nat -> common (tt_sig t1) (tt_sig t2) <> [] ->
  sorted_on (tt_sig t1) (common (tt_sig t1) (tt_sig t2)) (tt_rows t1) -> sorted_on (tt_sig t2) (common (tt_sig t1) (tt_sig t2)) (tt_rows t2) ->
  tt_hits srt t1 t2 = Some (Some (Z.of_nat (length (natural_join (tt_sig t1) (tt_sig t2) (tt_rows t1) (tt_rows t2))))).
Proof.
  intros T1 T2 H8 HC S1 S2. rewrite <- joined_natural by auto. destruct T1 as (Z1 & E1 & N1 & W1), T2 as (Z2 & E2 & N2 & W2). rewrite Forall_forall in W1, W2. rewrite hits_unfold by auto.
  pose proof (posjoins_len (tt_sig t1) (tt_sig t2) N2) as HL.
  destruct (ranges_ok (tt_posJoins (tt_sig t1) (tt_sig t2)) _ (fun r1 r2 => r1 ++ map (col r2) (tt_toCopy (tt_posJoins (tt_sig t1) (tt_sig t2)) (tt_size t2))) (S (length (tt_rows t1) + length (tt_rows t2))) (tt_rows t1) (tt_rows t2)) as (rs & Er & Hr);
    [lia|eapply by_keys; [|exact S1]; intros r Hr; apply keys_f; auto|eapply by_keys; [|exact S2]; intros r Hr; apply keys_s; auto|].
  rewrite <- Hr. destruct (tt_posJoins (tt_sig t1) (tt_sig t2)) as [|p0 ps0] eqn:EP; [cbn in HL; destruct (common (tt_sig t1) (tt_sig t2)); [contradiction|discriminate]|]. cbv iota beta zeta. rewrite <- EP in *.
  destruct (sort_some srt (map fst (tt_posJoins (tt_sig t1) (tt_sig t2))) t1) as [x1 Ex1]; [rewrite map_length; lia|rewrite Z1; destruct (tt_sig t1); [contradiction|discriminate]|].
  destruct (sort_some srt (map snd (tt_posJoins (tt_sig t1) (tt_sig t2))) t2) as [x2 Ex2]; [rewrite map_length; lia|rewrite Z2; destruct (tt_sig t2); [contradiction|discriminate]|].
  rewrite Ex1, Ex2. unfold tt_ranges. rewrite Er. rewrite (flatten_len (fun r1 r2 => r1 ++ map (col r2) (tt_toCopy (tt_posJoins (tt_sig t1) (tt_sig t2)) (tt_size t2)))). reflexivity.
Qed.

(** ** Sorting *)
Lemma sorter_cmp fields : forall r1 r2, sorter fields r1 r2 = match cmp_row (map (col r1) fields) (map (col r2) fields) with Lt => true | _ => false end.
Proof. induction fields as [|f fields IH]; intros r1 r2; cbn [sorter map cmp_row]; [reflexivity|]. rewrite IH. destruct (Z.eqb_spec (col r1 f) (col r2 f)); cbn [negb]; destruct (Z.ltb_spec (col r1 f) (col r2 f)), (Z.ltb_spec (col r2 f) (col r1 f)); auto; lia. Qed.


Lemma key_le fields r1 r2 : sorter fields r2 r1 = false <-> row_le (map (col r1) fields) (map (col r2) fields).
Proof.
  rewrite sorter_cmp, le_cmp by (now rewrite !map_length). rewrite (cmp_opp (map (col r1) fields)). destruct (cmp_row (map (col r1) fields) (map (col r2) fields)); cbn; split; congruence.
Qed.
Lemma row_le_trans : forall r1 r2 r3, length r1 = length r2 -> length r2 = length r3 -> row_le r1 r2 -> row_le r2 r3 -> row_le r1 r3.
Proof.
  intros r1 r2 r3 L1 L2 H1 H2. destruct (cmp_row r1 r2) eqn:E; [apply cmp_eq in E; congruence| |apply le_cmp in H1; congruence]. apply cmp_lt; [congruence|]. eapply lt_le_trans; eauto.
Qed.

Lemma sort_ok srt fields t s : sorts srt -> tt_size t <> O -> tt_sortBy srt fields t = Some s ->
  tt_size s = tt_size t /\ tt_sig s = tt_sig t /\ Permutation (tt_rows s) (tt_rows t) /\ tt_empty s = empty_of (tt_rows s) /\
  StronglySorted (fun a b => row_le (map (col a) fields) (map (col b) fields)) (tt_rows s).
Proof.
  intros HS HZ. unfold tt_sortBy. destruct (8 <? length fields)%nat; [discriminate|]. destruct (tt_size t) as [|n] eqn:E; [contradiction|]. rewrite adds_ok. intros H. injection H as <-. cbn [tt_size tt_sig tt_rows tt_empty].
  destruct (HS (sorter fields) (tt_rows t)) as [HP HO]. split; [reflexivity|]. split; [reflexivity|]. split; [exact HP|]. split; [reflexivity|].
  assert (HO' : StronglySorted (fun a b => sorter fields b a = false) (srt (sorter fields) (tt_rows t))).
  { apply HO; [intros a b Hab; rewrite sorter_cmp in Hab |- *; rewrite cmp_opp; destruct (cmp_row (map (col a) fields) (map (col b) fields)); cbn; congruence|]. intros a b c H1 H2. apply key_le in H1, H2. apply key_le. apply (row_le_trans _ (map (col b) fields)); auto; now rewrite !map_length. }
  clear -HO'. induction HO' as [|a l S IH HF]; constructor; auto. rewrite Forall_forall in HF |- *. intros x Hx. now apply key_le, HF.
Qed.

(** ** Dense and sparse rows *)
Lemma group_sum fields : forall l prev n, fold_right Nat.add O (group_sizes fields prev l n) = (n + length l)%nat.
Proof. induction l as [|x l IH]; intros prev n; cbn [group_sizes]; [cbn; lia|]. destruct (forallb _ fields); [rewrite IH; cbn; lia|]. cbn [fold_right]. rewrite IH. cbn. lia. Qed.
Lemma split_perm n : forall sizes l d s d' s', fold_right Nat.add O sizes = length l -> split_groups n sizes l d s = (d', s') -> Permutation (d' ++ s') (d ++ s ++ l).
Proof.
  induction sizes as [|k sizes IH]; intros l d s d' s' HL; cbn [split_groups fold_right] in *.
  - intros E. injection E as <- <-. destruct l; [|discriminate]. now rewrite app_nil_r.
  - assert (HL' : fold_right Nat.add O sizes = length (skipn k l)) by (rewrite skipn_length; lia). destruct (n <? k * k)%nat; intros E; apply IH in E; auto; rewrite E; rewrite <- (firstn_skipn k l) at 3; rewrite <- !app_assoc; apply Permutation_app_head.
    + rewrite !app_assoc. apply Permutation_app_tail. apply Permutation_app_comm.
    + apply Permutation_refl.
Qed.

Definition kk (fields : list nat) (r : row) : list Z := map (col r) fields.
Lemma kk_len fields r : length (kk fields r) = length fields. Proof. apply map_length. Qed.
Lemma same_kk fields x y : forallb (fun f => col x f =? col y f) fields = keqb (kk fields x) (kk fields y).
Proof.
  unfold kk, keqb. induction fields as [|f l IH]; cbn [forallb map]; [now destruct (keq_dec [] [])|]. rewrite IH. destruct (Z.eqb_spec (col x f) (col y f)) as [E|E]; cbn [andb].
  - rewrite E. destruct (keq_dec (map (col x) l) (map (col y) l)) as [E2|E2]; destruct (keq_dec (_ :: _) (_ :: _)) as [E3|E3]; auto; [rewrite E2 in E3; tauto|injection E3; tauto].
  - destruct (keq_dec (_ :: _) (_ :: _)) as [E3|E3]; auto. injection E3. tauto.
Qed.
Lemma group_ext fields : forall l l' p p' n, map (kk fields) l = map (kk fields) l' -> kk fields p = kk fields p' -> group_sizes fields p l n = group_sizes fields p' l' n.
Proof.
  induction l as [|x l IH]; intros [|x' l'] p p' n E Ep; try discriminate; [reflexivity|]. cbn [map] in E. injection E as E1 E2. cbn [group_sizes]. rewrite !same_kk, Ep, E1. destruct (keqb _ _); [now apply IH|]. f_equal. now apply IH.
Qed.
Definition alike (fields : list nat) (r : row) (l : list row) : nat := length (filter (fun x => keqb (kk fields x) (kk fields r)) l).

Lemma split_grow n : forall sizes l d s d' s', split_groups n sizes l d s = (d', s') -> exists d2 s2, split_groups n sizes l [] [] = (d2, s2) /\ d' = d ++ d2 /\ s' = s ++ s2.
Proof.
  induction sizes as [|k sizes IH]; intros l d s d' s'; cbn [split_groups]; [intros E; injection E as <- <-; exists [], []; rewrite !app_nil_r; auto|]. destruct (n <? k * k)%nat; intros E; destruct (IH _ _ _ _ _ E) as (d2 & s2 & E2 & -> & ->).
  - destruct (split_groups n sizes (skipn k l) ([] ++ firstn k l) []) as [d3 s3] eqn:E3. destruct (IH _ _ _ _ _ E3) as (d4 & s4 & E4 & -> & ->). rewrite E2 in E4. injection E4 as <- <-. do 2 eexists. split; [reflexivity|]. rewrite <- app_assoc. auto.
  - destruct (split_groups n sizes (skipn k l) [] ([] ++ firstn k l)) as [d3 s3] eqn:E3. destruct (IH _ _ _ _ _ E3) as (d4 & s4 & E4 & -> & ->). rewrite E2 in E4. injection E4 as <- <-. do 2 eexists. split; [reflexivity|]. rewrite <- app_assoc. auto.
Qed.

Lemma split_alike n fields : forall l p pre d s, Forall (fun r => kk fields r = kk fields p) pre -> sby (kk fields) (p :: l) ->
  split_groups n (group_sizes fields p l (length pre)) (pre ++ l) [] [] = (d, s) ->
  (forall r, In r d -> (n < alike fields r (pre ++ l) * alike fields r (pre ++ l))%nat) /\ (forall r, In r s -> (alike fields r (pre ++ l) * alike fields r (pre ++ l) <= n)%nat).
Proof.
  induction l as [|x l IH]; intros p pre d s HP HS.
  - cbn [group_sizes split_groups]. rewrite app_nil_r, firstn_all. assert (HA : forall r, In r pre -> alike fields r pre = length pre).
    { intros r Hr. unfold alike. rewrite filter_all; [reflexivity|]. rewrite Forall_forall in HP |- *. intros y Hy. apply keqb_eq. rewrite (HP y Hy), (HP r Hr). reflexivity. }
    destruct (Nat.ltb_spec n (length pre * length pre)); intros E; injection E as <- <-; cbn [app]; split; intros r Hr; try contradiction; rewrite HA by auto; lia.
  - cbn [group_sizes]. rewrite same_kk. assert (HS' : sby (kk fields) (x :: l)) by (unfold sby in *; now apply StronglySorted_inv in HS). unfold keqb. destruct (keq_dec (kk fields x) (kk fields p)) as [E|E].
    + replace (pre ++ x :: l) with ((pre ++ [x]) ++ l) by (now rewrite <- app_assoc). replace (S (length pre)) with (length (pre ++ [x])) by (rewrite app_length; cbn; lia). apply IH; [|exact HS'].
      apply Forall_app. split; [|constructor; [reflexivity|constructor]]. rewrite Forall_forall in HP |- *. intros y Hy. rewrite (HP y Hy). congruence.
    + assert (HX : forall y, In y (x :: l) -> kk fields y <> kk fields p). { intros y Hy EY. assert (HL : forall r, length (kk fields r) = length (map (fun f => (f, f)) fields)) by (intros; rewrite kk_len, map_length; reflexivity).
        pose proof (after (map (fun f => (f, f)) fields) (kk fields) p (x :: l) HL HS E y Hy) as HA. rewrite EY in HA. now apply lt_irrefl in HA. }
      cbn [split_groups]. rewrite firstn_app, firstn_all, Nat.sub_diag, firstn_O, app_nil_r. rewrite skipn_app, skipn_all, Nat.sub_diag. cbn [app skipn].
      assert (HA : forall r, In r pre -> alike fields r (pre ++ x :: l) = length pre).
      { intros r Hr. unfold alike. rewrite Forall_forall in HP. rewrite filter_app, filter_all, filter_none; [now rewrite app_nil_r| |]; rewrite Forall_forall; intros y Hy; [apply keqb_neq; rewrite (HP r Hr); auto|apply keqb_eq; rewrite (HP y Hy), (HP r Hr); reflexivity]. }
      assert (HB : forall r, In r (x :: l) -> alike fields r (pre ++ x :: l) = alike fields r (x :: l)).
      { intros r Hr. unfold alike. rewrite Forall_forall in HP. rewrite filter_app, (filter_none _ pre); [reflexivity|]. rewrite Forall_forall. intros y Hy. apply keqb_neq. rewrite (HP y Hy). intros EE. now apply (HX r Hr). }
      assert (HI : forall d2 s2, split_groups n (group_sizes fields x l 1) (x :: l) [] [] = (d2, s2) -> forall r, In r (d2 ++ s2) -> In r (x :: l)).
      { intros d2 s2 E2 r Hr. apply split_perm in E2; [|rewrite group_sum; cbn; lia]. apply (Permutation_in _ E2) in Hr. exact Hr. }
      destruct (split_groups n (group_sizes fields x l 1) (x :: l) [] []) as [d2 s2] eqn:E2. specialize (HI _ _ eq_refl).
      destruct (IH x [x] d2 s2) as [HD HSp]; [constructor; auto|exact HS'|exact E2|]. cbn [app] in HD, HSp.
      destruct (Nat.ltb_spec n (length pre * length pre)); intros EE; destruct (split_grow _ _ _ _ _ _ _ EE) as (d3 & s3 & E3 & -> & ->); rewrite E2 in E3; injection E3 as <- <-; split; intros r Hr; cbn [app] in Hr; try (apply in_app_or in Hr as [Hr|Hr]);
        first [rewrite HA by auto; lia | rewrite HB by (apply HI, in_or_app; auto); auto].
Qed.
Lemma sorted_eq m : forall l l' : list row, wide m l -> sorted_rows l -> sorted_rows l' -> Permutation l l' -> l = l'.
Proof.
  induction l as [|x l IH]; intros l' W S1 S2 HP; [apply Permutation_nil in HP; now subst|]. destruct l' as [|x' l']; [apply Permutation_sym, Permutation_nil in HP; discriminate|].
  assert (E : x = x'). { assert (Hx' : In x' (x :: l)) by (apply (Permutation_in _ (Permutation_sym HP)); now left). assert (Hx : In x (x' :: l')) by (apply (Permutation_in _ HP); now left).
    assert (L : length x = length x') by (unfold wide in W; rewrite Forall_forall in W; rewrite (W x' Hx'), (W x); [reflexivity|now left]).
    unfold sorted_rows in *. apply StronglySorted_inv in S1 as [_ F1], S2 as [_ F2]. rewrite Forall_forall in F1, F2.
    destruct Hx' as [->|Hx']; [reflexivity|]. destruct Hx as [->|Hx]; [reflexivity|]. specialize (F1 _ Hx'). specialize (F2 _ Hx). apply le_cmp in F1, F2; auto. rewrite cmp_opp in F2. apply cmp_eq; auto. destruct (cmp_row x x'); cbn in *; congruence. }
  subst x'. f_equal. apply IH; [now inversion W|now apply sorted_tail in S1|now apply sorted_tail in S2|]. now apply Permutation_cons_inv in HP.
Qed.
Lemma sby_map k l : sby k l -> sorted_rows (map k l).
Proof. intros S. unfold sby, sorted_rows in *. induction S as [|a l S IH HF]; cbn; constructor; auto. rewrite Forall_forall in HF |- *. intros y Hy. apply in_map_iff in Hy as (x & <- & Hx). auto. Qed.
Lemma sorted_keys_eq fields l l' : sby (kk fields) l -> sby (kk fields) l' -> Permutation l l' -> map (kk fields) l = map (kk fields) l'.
Proof.
  intros S1 S2 HP. apply (sorted_eq (length fields)); [|now apply sby_map|now apply sby_map|now apply Permutation_map]. unfold wide. rewrite Forall_forall. intros y Hy. apply in_map_iff in Hy as (x & <- & _). apply kk_len.
Qed.

(** ** The iterator *)
Section Iter.
Variable t : tuples.
Hypothesis Wide : Forall (fun r => length r = tt_size t) (tt_rows t).
Hypothesis Pos : tt_size t <> O.
Let N := length (tt_rows t).
Hypothesis Small : Z.of_nat (length (tt_rows t)) < 2 ^ 32.
Let rowat (k : nat) : row := nth k (tt_rows t) [].

Lemma nrows_N : tt_nrows t = N.
Proof. clear Wide Small. unfold tt_nrows. destruct (tt_size t); [contradiction|reflexivity]. Qed.
Lemma at_ok k c : (k < N)%nat -> (c < tt_size t)%nat -> ti_at t (Z.of_nat k) c = Some (col (rowat k) c).
Proof.
  intros Hk Hc. unfold ti_at. rewrite Z.mod_small, Nat2Z.id by (unfold N in Hk; lia). unfold rowat. unfold N in Hk. clear Pos Small N rowat. assert (W := Wide). clear Wide. revert k Hk. induction W as [|r l Hr _ IH]; intros k Hk; cbn [length] in Hk; [lia|]. cbn [concat].
  destruct k as [|k]; cbn [Nat.mul Nat.add nth].
  - rewrite nth_error_app1 by lia. unfold col. apply nth_error_nth'. lia.
  - rewrite nth_error_app2 by lia. rewrite <- (IH k) by lia. f_equal. lia.
Qed.
Lemma cols_ok k i : (k < N)%nat -> ti_counter i = Z.of_nat k -> forall n c, (c + n <= tt_size t)%nat -> ti_cols t i c n = Some (firstn n (skipn c (rowat k))).
Proof.
  intros Hk Ei. assert (HL : length (rowat k) = tt_size t) by (rewrite Forall_forall in Wide; apply Wide, nth_In; exact Hk).
  induction n as [|n IH]; intros c Hc; [reflexivity|]. cbn [ti_cols]. unfold ti_elem. rewrite Ei, at_ok by lia. cbn beta iota. rewrite IH by lia.
  assert (E : skipn c (rowat k) = col (rowat k) c :: skipn (S c) (rowat k)).
  { clear -HL Hc. unfold col. assert (Hc' : (c < length (rowat k))%nat) by lia. clear HL Hc. revert c Hc'. generalize (rowat k). induction l as [|a l IH]; intros [|c] H; cbn in *; try lia; auto. rewrite IH by lia. reflexivity. }
  rewrite E. reflexivity.
Qed.
Lemma cols_all k i : (k < N)%nat -> ti_counter i = Z.of_nat k -> forall w, (w <= tt_size t)%nat -> ti_cols t i 0 w = Some (firstn w (rowat k)).
Proof. intros Hk Ei w Hw. rewrite (cols_ok k i Hk Ei) by lia. reflexivity. Qed.
Lemma skipn_row k : (k < N)%nat -> skipn k (tt_rows t) = rowat k :: skipn (S k) (tt_rows t).
Proof. unfold rowat, N. generalize (tt_rows t). induction k as [|k IH]; intros [|a l] H; cbn in *; try lia; auto. apply IH. lia. Qed.

Lemma walk_plain w cnt : (w <= tt_size t)%nat -> forall fuel k i, (N - k < fuel)%nat -> (k <= N)%nat -> ti_counter i = Z.of_nat k - 1 -> ti_hnc i = false -> ti_skip i = false ->
  ti_walk fuel w cnt t i = Some (map (fun r => (firstn w r, if cnt then 1 else 0)) (skipn k (tt_rows t))).
Proof.
  intros Hw. induction fuel as [|fuel IH]; intros k i Hf Hk Ec Eh Es; [lia|]. cbn [ti_walk]. unfold ti_hasNext. destruct (tt_size t) as [|sz] eqn:EZ; [contradiction|]. rewrite <- EZ in *. rewrite Eh, Es. cbn [andb fst snd]. rewrite nrows_N, Ec.
  replace (Z.of_nat k - 1 + 1) with (Z.of_nat k) by lia. destruct (Z.ltb_spec (Z.of_nat k) (Z.of_nat N)) as [Hlt|Hge].
  - unfold ti_next1. cbn [ti_next ti_skip ti_hn]. rewrite (cols_all k) by (cbn; auto; lia). rewrite skipn_row by lia. cbn [map]. unfold ti_count. cbn [ti_skip].
    destruct cnt; cbn [fst snd]; rewrite (IH (S k)) by first [reflexivity|lia|cbn [ti_counter]; lia|assumption]; reflexivity.
  - replace k with N by lia. unfold N. now rewrite skipn_all.
Qed.

Section Skip.
Hypothesis Two : (2 <= tt_size t)%nat.
Lemma same_ok a b : (a < N)%nat -> (b < N)%nat -> exists s, ti_same t (Z.of_nat a) (Z.of_nat b) = Some s /\ (s = true <-> key2 (rowat b) = key2 (rowat a)).
Proof.
  intros Ha Hb. unfold ti_same. rewrite !at_ok by lia. unfold key2. change (nth 0 (rowat a) 0) with (col (rowat a) 0). change (nth 1 (rowat a) 0) with (col (rowat a) 1). change (nth 0 (rowat b) 0) with (col (rowat b) 0). change (nth 1 (rowat b) 0) with (col (rowat b) 1).
  destruct (Z.eqb_spec (col (rowat a) 0) (col (rowat b) 0)) as [E|E].
  - eexists. split; [reflexivity|]. rewrite E, Z.eqb_eq. split; [congruence|]. intros H. now injection H.
  - exists false. split; [reflexivity|]. split; [discriminate|]. intros H. injection H. congruence.
Qed.
Lemma advance_ok c : (c < N)%nat -> forall fuel n, (N - n < fuel)%nat -> (c <= n <= N)%nat -> (forall k, (c <= k < n)%nat -> key2 (rowat k) = key2 (rowat c)) ->
  exists e, ti_advance fuel t (Z.of_nat c) (Z.of_nat n) = Some (Z.of_nat e) /\ (n <= e <= N)%nat /\ (c < e)%nat /\ (forall k, (c <= k < e)%nat -> key2 (rowat k) = key2 (rowat c)) /\ (e = N \/ (e < N)%nat /\ key2 (rowat e) <> key2 (rowat c)).
Proof.
  intros Hc. induction fuel as [|fuel IH]; intros n Hf Hn HK; [lia|]. cbn [ti_advance]. rewrite nrows_N. destruct (Z.ltb_spec (Z.of_nat n) (Z.of_nat N)) as [Hlt|Hge].
  - destruct (same_ok c n Hc ltac:(lia)) as (s & Es & Hs). rewrite Es. destruct s.
    + destruct (IH (S n)) as (e & E & H1 & H2 & H3 & H4); [lia|lia| |].
      { intros k Hk. destruct (Nat.eq_dec k n) as [->|]; [now apply Hs|]. apply HK. lia. }
      exists e. replace (Z.of_nat n + 1) with (Z.of_nat (S n)) by lia. split; [exact E|]. split; [lia|]. auto.
    + assert (HD : key2 (rowat n) <> key2 (rowat c)) by (intros E; apply Hs in E; discriminate).
      assert (c <> n) by (intros ->; now apply HD). exists n. split; [reflexivity|]. split; [lia|]. split; [lia|]. split; [exact HK|]. right. split; [lia|exact HD].
  - exists n. split; [reflexivity|]. split; [lia|]. split; [lia|]. split; [exact HK|]. left. lia.
Qed.

(** The iterator will step to row [e] next. *)
Definition at_pos (i : titer) (e : nat) : Prop := ti_skip i = true /\ exists j, ti_hasNext t i = Some (Z.of_nat e <? Z.of_nat N, j) /\ ti_skip j = true /\ ti_next j = Z.of_nat e.

Lemma at_end c n e h hn : (c < N)%nat -> (c <= n <= N)%nat -> h = false ->
  ti_advance (S N) t (Z.of_nat c) (Z.of_nat n) = Some (Z.of_nat e) -> at_pos (mkTiter (Z.of_nat c) true h hn (Z.of_nat n)) e.
Proof.
  intros Hc Hn -> E. split; [reflexivity|]. unfold ti_hasNext. cbn [ti_hnc ti_skip ti_counter ti_next ti_hn]. replace (tt_size t) with (S (pred (tt_size t))) by lia. rewrite (proj2 (Z.eqb_neq (Z.of_nat c) (-1))) by lia. cbn [andb negb]. rewrite nrows_N, E. eexists. split; [reflexivity|]. auto.
Qed.

Lemma skipn_group : forall e e', (e < e')%nat -> (e' <= N)%nat -> skipn e (tt_rows t) = (rowat e :: map rowat (seq (S e) (e' - S e))) ++ skipn e' (tt_rows t).
Proof.
  intros e e' H1 H2. rewrite skipn_row by lia. cbn [app]. f_equal. remember (e' - S e)%nat as d eqn:Ed. replace e' with (S e + d)%nat in * by lia. clear Ed. generalize dependent (S e). induction d as [|d IH]; intros s Hlt Hle; cbn [seq map app]; [now rewrite Nat.add_0_r|].
  rewrite skipn_row by lia. f_equal. rewrite (IH (S s)) by lia. do 2 f_equal. lia.
Qed.

Lemma walk_skip w cnt : (w <= tt_size t)%nat -> forall fuel e i, (N - e < fuel)%nat -> (e <= N)%nat -> at_pos i e ->
  exists gs, grouped gs (skipn e (tt_rows t)) /\ ti_walk fuel w cnt t i = Some (map (fun g => (firstn w (hd [] g), if cnt then Z.of_nat (length g) else 0)) gs).
Proof.
  intros Hw. induction fuel as [|fuel IH]; intros e i Hf He (Es & j & Ej & Ejs & Ejn); [lia|]. cbn [ti_walk]. rewrite Ej. cbn [fst snd]. destruct (Z.ltb_spec (Z.of_nat e) (Z.of_nat N)) as [Hlt|Hge].
  - unfold ti_next1. rewrite Ejn, Ejs. rewrite (cols_all e) by (cbn; auto; lia).
    destruct (advance_ok e ltac:(lia) (S N) e) as (e' & E & H1 & H2 & H3 & H4); [lia|lia|intros k Hk; replace k with e by lia; reflexivity|].
    destruct (advance_ok e ltac:(lia) (S N) e') as (e2 & E2 & G1 & G2 & G3 & G4); [lia|lia|exact H3|].
    assert (e2 = e'). { destruct H4 as [->|[H4 H4']]; [lia|]. destruct (Nat.eq_dec e2 e'); auto. exfalso. apply H4', G3. lia. } subst e2.
    assert (HG : forall gs, grouped gs (skipn e' (tt_rows t)) -> grouped ((rowat e :: map rowat (seq (S e) (e' - S e))) :: gs) (skipn e (tt_rows t))).
    { intros gs Hg. rewrite (skipn_group e e') by lia. constructor; [|exact Hg|].
      - rewrite Forall_forall. intros x Hx. apply in_map_iff in Hx as (k & <- & Hk). apply in_seq in Hk. apply H3. lia.
      - destruct H4 as [->|[H4 H4']]; [unfold N; now rewrite skipn_all|]. rewrite skipn_row by lia. exact H4'. }
    assert (HLn : length (rowat e :: map rowat (seq (S e) (e' - S e))) = (e' - e)%nat) by (cbn [length]; rewrite map_length, seq_length; lia).
    destruct cnt.
    + unfold ti_count. cbn [ti_skip ti_counter ti_next ti_hnc ti_hn]. rewrite nrows_N, E. cbn [fst snd]. destruct (IH e' (mkTiter (Z.of_nat e) true false (ti_hn j) (Z.of_nat e'))) as (gs & Hg & Ew); [lia|lia|apply at_end; auto; lia|].
      rewrite Ew. eexists. split; [apply HG, Hg|]. cbn [map hd]. rewrite HLn. do 3 f_equal. lia.
    + destruct (IH e' (mkTiter (Z.of_nat e) true false (ti_hn j) (Z.of_nat e))) as (gs & Hg & Ew); [lia|lia|apply at_end; auto; lia|].
      rewrite Ew. eexists. split; [apply HG, Hg|]. reflexivity.
  - exists []. replace e with N by lia. unfold N. rewrite skipn_all. split; [constructor|reflexivity].
Qed.
End Skip.
End Iter.
