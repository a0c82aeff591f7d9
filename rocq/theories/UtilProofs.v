From Coq Require Export Sorting.Sorted Sorting.Permutation.
From Verif Require Import ItrModel UtilModel UtilSpec.
Local Open Scope Z_scope.

(** ** Parallel loop *)

Lemma zrange_shift a k n : forall j, map (fun i => a + Z.of_nat i) (seq (k + j) n) = map (fun i => a + Z.of_nat k + Z.of_nat i) (seq j n).
Proof.
  induction n as [|n IH]; intros j; cbn [seq map]; auto. f_equal; [lia|]. rewrite <- IH. do 2 f_equal. lia.
Qed.
Lemma zrange_app a b c : a <= b -> b <= c -> zrange a b ++ zrange b c = zrange a c.
Proof.
  intros H1 H2. unfold zrange. replace (Z.to_nat (c - a)) with (Z.to_nat (b - a) + Z.to_nat (c - b))%nat by lia.
  rewrite seq_app, map_app. f_equal. cbn [plus]. rewrite <- (Nat.add_0_r (Z.to_nat (b - a))), zrange_shift.
  apply map_ext. intros i. lia.
Qed.

Lemma pf_loop_ok delta fin : 0 < delta < 2 ^ 64 -> 0 <= fin < 2 ^ 63 -> forall k cb ce, 0 <= ce < fin -> ce = 0 \/ delta <= ce ->
  fin <= ce + Z.of_nat k * delta ->
  visits (fst (pf_loop k cb ce fin delta) ++ [(snd (pf_loop k cb ce fin delta), fin)]) = zrange ce fin /\
  Forall (fun p => fst p < snd p) (fst (pf_loop k cb ce fin delta)) /\ (length (fst (pf_loop k cb ce fin delta)) < k)%nat.
Proof.
  intros Hd Hf. induction k as [|k IH]; intros cb ce Hc H0 Hk; [lia|]. cbn [pf_loop].
  destruct (Z.ltb_spec ce fin); [|lia].
  assert (E : u64 (ce + delta) = ce + delta) by (unfold u64; apply Z.mod_small; lia). rewrite E.
  destruct (Z.leb_spec fin (ce + delta)).
  - cbn [fst snd app visits flat_map]. rewrite app_nil_r. split; auto. split; auto. cbn. lia.
  - specialize (IH ce (ce + delta)). destruct (pf_loop k ce (ce + delta) fin delta) as [r b]. cbn [fst snd] in *.
    destruct IH as (I1 & I2 & I3); try lia. split; [|split; [constructor; auto; cbn; lia|cbn; lia]].
    cbn [app]. change (visits ((ce, ce + delta) :: r ++ [(b, fin)])) with (zrange ce (ce + delta) ++ visits (r ++ [(b, fin)])).
    rewrite I1. apply zrange_app; lia.
Qed.

(** ** Sorting *)

Section SortP.
Context {A : Type} (cmp : A -> A -> bool).
Hypothesis Hw : weak_order cmp.

Lemma merge_nil_r a : std_merge A cmp a [] = a.
Proof. destruct a; reflexivity. Qed.
Lemma merge_cons x a y b : std_merge A cmp (x :: a) (y :: b) =
  if cmp y x then y :: std_merge A cmp (x :: a) b else x :: std_merge A cmp a (y :: b).
Proof. reflexivity. Qed.

Lemma merge_perm a : forall b, Permutation (std_merge A cmp a b) (a ++ b).
Proof.
  induction a as [|x a IHa]; intros b; [reflexivity|]. induction b as [|y b IHb].
  - now rewrite merge_nil_r, app_nil_r.
  - rewrite merge_cons. destruct (cmp y x).
    + rewrite IHb. apply Permutation_middle.
    + cbn [app]. constructor. apply IHa.
Qed.

Lemma merge_sorted a : forall b, in_order cmp a -> in_order cmp b -> in_order cmp (std_merge A cmp a b).
Proof.
  destruct Hw as [Has Htr]. induction a as [|x a IHa]; intros b Ha Hb; [exact Hb|]. induction b as [|y b IHb].
  - now rewrite merge_nil_r.
  - rewrite merge_cons. apply StronglySorted_inv in Hb as Hb'. destruct Hb' as [Hb1 Hb2].
    apply StronglySorted_inv in Ha as Ha'. destruct Ha' as [Ha1 Ha2]. rewrite Forall_forall in Ha2, Hb2.
    destruct (cmp y x) eqn:E.
    + constructor; [now apply IHb|]. rewrite Forall_forall. intros z Hz. apply (Permutation_in z (merge_perm (x :: a) b)) in Hz.
      apply in_app_or in Hz. destruct Hz as [[<-|Hz]|Hz]; auto. apply Has in E. specialize (Ha2 z Hz). eapply Htr; eauto.
    + constructor; [now apply IHa|]. rewrite Forall_forall. intros z Hz. apply (Permutation_in z (merge_perm a (y :: b))) in Hz.
      apply in_app_or in Hz. destruct Hz as [Hz|[<-|Hz]]; auto. specialize (Hb2 z Hz). eapply Htr; eauto.
Qed.

Lemma sort_int_ok stdsort : (forall l, Permutation (stdsort l) l /\ in_order cmp (stdsort l)) ->
  forall fuel l n, Permutation (sort_int A cmp stdsort fuel l n) l /\ in_order cmp (sort_int A cmp stdsort fuel l n).
Proof.
  intros Hs. induction fuel as [|f IH]; intros l n; cbn [sort_int]; auto.
  destruct (_ || _); auto. split.
  - rewrite merge_perm. etransitivity; [apply Permutation_app; apply IH|]. now rewrite firstn_skipn.
  - apply merge_sorted; apply IH.
Qed.
End SortP.

(** ** Memory manager *)

Lemma set_len l i b : length (set_slot l i b) = length l.
Proof. revert i. induction l as [|x l IH]; intros [|i]; cbn; auto. Qed.
Lemma set_nth l i b j : (i < length l)%nat -> nth j (set_slot l i b) None = if Nat.eqb j i then b else nth j l None.
Proof.
  revert i j. induction l as [|x l IH]; intros [|i] [|j]; cbn; try lia; auto. intros H. apply IH. lia.
Qed.
Definition bsize (b : option mblock) : Z := match b with None => 0 | Some b => b_bytes b end.
Definition bfree (b : option mblock) : Z := match b with None => 1 | Some _ => 0 end.
Definition blocked (b : option mblock) : Z := match b with Some b => if 0 <? b_lock b then b_bytes b else 0 | None => 0 end.
Lemma set_total l i b : (i < length l)%nat -> total (set_slot l i b) = total l - bsize (nth i l None) + bsize b.
Proof.
  revert i. induction l as [|x l IH]; intros [|i] H; cbn [length nth set_slot locked total unused blocked bsize bfree] in *; try lia.
  - destruct b, x; cbn [locked total unused blocked bsize bfree]; lia.
  - rewrite IH by lia. destruct x; lia.
Qed.
Lemma set_unused l i b : (i < length l)%nat -> unused (set_slot l i b) = unused l - bfree (nth i l None) + bfree b.
Proof.
  revert i. induction l as [|x l IH]; intros [|i] H; cbn [length nth set_slot locked total unused blocked bsize bfree] in *; try lia.
  - destruct b, x; cbn [locked total unused blocked bsize bfree]; lia.
  - rewrite IH by lia. destruct x; lia.
Qed.
Lemma set_locked l i b : (i < length l)%nat -> locked (set_slot l i b) = locked l - blocked (nth i l None) + blocked b.
Proof.
  revert i. induction l as [|x l IH]; intros [|i] H; cbn [length nth set_slot locked total unused blocked bsize bfree] in *; try lia.
  - destruct b, x; cbn [locked total unused blocked bsize bfree]; lia.
  - rewrite IH by lia. destruct x; lia.
Qed.
Lemma slot_some s i b : slot s i = Some b -> (i < length (m_blocks s))%nat.
Proof.
  unfold slot. intros H. destruct (Nat.lt_ge_cases i (length (m_blocks s))); auto. rewrite nth_overflow in H by auto. discriminate.
Qed.

Record MInv (n : nat) (max : Z) (s : mm) : Prop := {
  mi_len : length (m_blocks s) = n;
  mi_max : m_max s = max;
  mi_bytes : m_bytes s = total (m_blocks s);
  mi_left : m_left s = unused (m_blocks s);
  mi_start : (m_start s <= n)%nat;
  mi_end : (m_end s <= n)%nat;
  mi_pos : forall i b, slot s i = Some b -> 0 <= b_bytes b
}.

Lemma mm_new_inv n max : MInv n max (mm_new n max).
Proof.
  split; cbn; auto; try lia.
  - apply repeat_length.
  - induction n; cbn; auto.
  - induction n; cbn [repeat unused]; auto. rewrite <- IHn. lia.
  - intros i b. unfold slot. cbn. intros H. assert (H' : In (Some b) (repeat None n)).
    { rewrite <- H. apply nth_In. destruct (Nat.lt_ge_cases i (length (repeat (@None mblock) n))); auto. rewrite nth_overflow in H by auto. discriminate. }
    apply repeat_spec in H'. discriminate.
Qed.

Lemma slot_set s i b j mx by_ st en lf dd : (i < length (m_blocks s))%nat ->
  slot (mkMM mx by_ (set_slot (m_blocks s) i b) st en lf dd) j = if Nat.eqb j i then b else slot s j.
Proof. intros H. unfold slot. cbn. now apply set_nth. Qed.

Lemma removeBlock_inv n max i s s' : MInv n max s -> mm_removeBlock i s = Some s' -> MInv n max s' /\
  exists b, slot s i = Some b /\ m_dead s' = b :: m_dead s /\ m_bytes s' = m_bytes s - b_bytes b /\ m_left s' = m_left s + 1 /\
    (forall j, slot s' j = if Nat.eqb j i then None else slot s j) /\ m_start s' = m_start s /\ m_end s' = m_end s /\
    locked (m_blocks s') = locked (m_blocks s) - blocked (Some b).
Proof.
  intros [H1 H2 H3 H4 H5 H6 H7] E. unfold mm_removeBlock in E. destruct (slot s i) as [b|] eqn:Es; [|discriminate].
  pose proof (slot_some _ _ _ Es) as Hi. injection E as <-.
  assert (Hn : nth i (m_blocks s) None = Some b) by exact Es. split.
  - split; cbn [m_blocks m_max m_bytes m_left m_start m_end]; auto.
    + now rewrite set_len.
    + rewrite set_total, Hn by auto. cbn. lia.
    + rewrite set_unused, Hn by auto. cbn. lia.
    + intros j b'. rewrite slot_set by auto. destruct (Nat.eqb j i); [discriminate|apply H7].
  - exists b. repeat (split; auto); [intros j; now apply slot_set|]. cbn [m_blocks]. rewrite set_locked, Hn by auto. cbn [blocked]. lia.
Qed.

Lemma forget_inv n max i s : MInv n max s -> MInv n max (mm_forget i s) /\
  m_dead (mm_forget i s) = m_dead s /\ (forall j, slot (mm_forget i s) j = if Nat.eqb j i then None else slot s j).
Proof.
  intros [H1 H2 H3 H4 H5 H6 H7]. unfold mm_forget. destruct (slot s i) as [b|] eqn:Es.
  - pose proof (slot_some _ _ _ Es) as Hi. assert (Hn : nth i (m_blocks s) None = Some b) by exact Es. split; [|split; auto].
    + split; cbn [m_blocks m_max m_bytes m_left m_start m_end]; auto.
      * now rewrite set_len.
      * rewrite set_total, Hn by auto. cbn. lia.
      * rewrite set_unused, Hn by auto. cbn. lia.
      * intros j b'. rewrite slot_set by auto. destruct (Nat.eqb j i); [discriminate|apply H7].
    + intros j. now apply slot_set.
  - split; [split; auto|]. split; auto. intros j. destruct (Nat.eqb_spec j i); congruence.
Qed.

(** The circular search. *)
Definition nxt (n i : nat) : nat := if Nat.eqb (S i) n then 0%nat else S i.
Lemma scan_none f s i : (0 < length (m_blocks s))%nat -> (i < length (m_blocks s))%nat -> (f <= length (m_blocks s))%nat ->
  mm_scan f s i = None -> forall d, (d < f)%nat -> victim (slot s ((i + d) mod (length (m_blocks s)))) = false.
Proof.
  revert i. induction f as [|f IH]; intros i Hn Hi Hf E d Hd; [lia|]. cbn [mm_scan] in E.
  destruct (victim (slot s i)) eqn:Ev; [discriminate|]. destruct d as [|d].
  - rewrite Nat.add_0_r, Nat.mod_small by auto. exact Ev.
  - set (n := length (m_blocks s)) in *. destruct (Nat.eqb_spec (S i) n).
    + specialize (IH 0%nat Hn Hn ltac:(lia) E d ltac:(lia)). replace (i + S d)%nat with (d + 1 * n)%nat by lia. rewrite Nat.mod_add by lia. exact IH.
    + replace (i + S d)%nat with (S i + d)%nat by lia. apply IH; auto; lia.
Qed.
Lemma scan_some f s i r : mm_scan f s i = Some r -> victim (slot s r) = true.
Proof.
  revert i. induction f as [|f IH]; intros i; cbn [mm_scan]; [discriminate|]. destruct (victim (slot s i)) eqn:E; [congruence|apply IH].
Qed.
Lemma scan_finds s i : (i < length (m_blocks s))%nat -> (exists j, victim (slot s j) = true) -> mm_scan (length (m_blocks s)) s i <> None.
Proof.
  intros Hi [j Hj] E. assert (Hlt : (j < length (m_blocks s))%nat).
  { destruct (Nat.lt_ge_cases j (length (m_blocks s))); auto. unfold slot in Hj. rewrite nth_overflow in Hj by auto. discriminate. }
  set (n := length (m_blocks s)) in *. assert (Hd : (((j + n - i) mod n) < n)%nat) by (apply Nat.mod_upper_bound; lia).
  pose proof (scan_none n s i ltac:(lia) Hi (le_n _) E _ Hd) as H. fold n in H.
  replace ((i + (j + n - i) mod n) mod n)%nat with j in H; [congruence|].
  rewrite Nat.add_mod_idemp_r by lia. replace (i + (j + n - i))%nat with (j + 1 * n)%nat by lia. rewrite Nat.mod_add by lia. now rewrite Nat.mod_small.
Qed.

Lemma find_some f s i r : mm_find f s i = Some r -> slot s r = None.
Proof. revert i. induction f as [|f IH]; intros i; cbn [mm_find]; [discriminate|]. destruct (slot s i) eqn:E; [apply IH|congruence]. Qed.
Lemma find_lt f s i r : (0 < length (m_blocks s))%nat -> (i < length (m_blocks s))%nat -> mm_find f s i = Some r -> (r < length (m_blocks s))%nat.
Proof.
  revert i. induction f as [|f IH]; intros i Hn Hi; cbn [mm_find]; [discriminate|]. destruct (slot s i) eqn:E; [|congruence]. apply IH; auto.
  apply Nat.mod_upper_bound. lia.
Qed.
Lemma find_none f s i : (i < length (m_blocks s))%nat -> mm_find f s i = None -> forall d, (d < f)%nat -> slot s ((i + d) mod (length (m_blocks s))) <> None.
Proof.
  revert i. induction f as [|f IH]; intros i Hi E d Hd; [lia|]. cbn [mm_find] in E. set (n := length (m_blocks s)) in *.
  destruct (slot s i) eqn:Ev; [|discriminate]. destruct d as [|d].
  - rewrite Nat.add_0_r, Nat.mod_small by auto. congruence.
  - specialize (IH (S i mod n)%nat (Nat.mod_upper_bound (S i) n ltac:(lia)) E d ltac:(lia)).
    rewrite Nat.add_mod_idemp_l in IH by lia. now replace (i + S d)%nat with (S i + d)%nat by lia.
Qed.
Lemma unused_exists l : 0 < unused l -> exists j, (j < length l)%nat /\ nth j l None = None.
Proof.
  induction l as [|[x|] l IH]; cbn; try lia.
  - intros H. destruct (IH H) as (j & H1 & H2). exists (S j). cbn. split; auto. lia.
  - intros _. exists 0%nat. cbn. split; auto. lia.
Qed.
Lemma unused_none l : unused l = 0 -> forall j, (j < length l)%nat -> nth j l None <> None.
Proof.
  assert (Hp : forall l, 0 <= unused l) by (clear; intros l0; induction l0 as [|[] l0 IH0]; cbn [unused]; lia).
  induction l as [|[x|] l IH]; cbn [unused length nth]; intros H j Hj; try lia.
  - destruct j; cbn; [discriminate|]. apply IH; auto. lia.
  - specialize (Hp l). lia.
Qed.
Lemma find_finds n max s i : MInv n max s -> (i < n)%nat -> 0 < m_left s -> mm_find n s i <> None.
Proof.
  intros HI Hi Hl E. destruct HI as [H1 H2 H3 H4 H5 H6 H7]. rewrite H4 in Hl. apply unused_exists in Hl. destruct Hl as (j & Hj & Ej).
  rewrite <- H1 in *. set (n' := length (m_blocks s)) in *.
  assert (Hd : (((j + n' - i) mod n') < n')%nat) by (apply Nat.mod_upper_bound; lia).
  pose proof (find_none n' s i Hi E _ Hd) as H. fold n' in H.
  replace ((i + (j + n' - i) mod n') mod n')%nat with j in H; [unfold slot in H; congruence|].
  rewrite Nat.add_mod_idemp_r by lia. replace (i + (j + n' - i))%nat with (j + 1 * n')%nat by lia. rewrite Nat.mod_add by lia. now rewrite Nat.mod_small.
Qed.

Lemma unused_le l : 0 <= unused l <= Z.of_nat (length l).
Proof. induction l as [|[]]; cbn [unused length]; lia. Qed.
Lemma unused_all l : unused l = Z.of_nat (length l) -> total l = 0.
Proof.
  induction l as [|[b|] l IH]; cbn [unused total length]; auto; intros H.
  - pose proof (unused_le l). lia.
  - apply IH. lia.
Qed.

(** Blocks survive except the victims. *)
Definition survives (s s' : mm) (dead : list mblock) : Prop :=
  m_dead s' = dead ++ m_dead s /\ Forall (fun b => b_lock b <= 0) dead /\
  (forall i b, slot s' i = Some b -> slot s i = Some b) /\
  (forall i b, slot s i = Some b -> slot s' i = Some b \/ (slot s' i = None /\ In b dead)) /\
  locked (m_blocks s') = locked (m_blocks s) /\
  (forall b, In b dead -> exists i, slot s i = Some b /\ slot s' i = None).
Lemma survives_refl s : survives s s [].
Proof. unfold survives. cbn. repeat split; auto. tauto. Qed.
Lemma survives_trans s1 s2 s3 d1 d2 : survives s1 s2 d1 -> survives s2 s3 d2 -> survives s1 s3 (d2 ++ d1).
Proof.
  intros (A1 & A2 & A3 & A4 & A5 & A6) (B1 & B2 & B3 & B4 & B5 & B6). unfold survives. rewrite B1, A1, app_assoc. split; auto. split; [apply Forall_app; auto|].
  split; [auto|]. split; [|split; [congruence|]].
  2:{ intros b H. apply in_app_or in H. destruct H as [H|H].
      - destruct (B6 b H) as (i & H1 & H2). exists i. auto.
      - destruct (A6 b H) as (i & H1 & H2). exists i. split; auto. destruct (slot s3 i) eqn:E; auto. apply B3 in E. congruence. }
  intros i b H. destruct (A4 i b H) as [H1|[H1 H2]].
  - destruct (B4 i b H1) as [H2|[H2 H3]]; auto. right. split; auto. apply in_or_app; auto.
  - right. split; [|apply in_or_app; auto]. destruct (slot s3 i) eqn:E; auto. apply B3 in E. congruence.
Qed.

Lemma removeOne_inv n max s s' : MInv n max s -> mm_removeOne s = Some s' ->
  MInv n max s' /\ exists dead, survives s s' dead /\ m_end s' = m_end s /\
    m_left s' = (if m_left s <? Z.of_nat n then m_left s + 1 else m_left s) /\ m_bytes s' <= m_bytes s.
Proof.
  intros HI E. unfold mm_removeOne in E. rewrite (mi_len _ _ _ HI) in E.
  destruct (Z.ltb_spec (m_left s) (Z.of_nat n)) as [Hl|Hl].
  2:{ injection E as <-. split; auto. exists []. split; [apply survives_refl|]. split; auto. split; auto. lia. }
  match type of E with context [mm_scan _ _ ?z] => set (st := z) in * end.
  destruct (mm_scan n s st) as [i|] eqn:Es; [|discriminate]. destruct (mm_removeBlock i s) as [s1|] eqn:Er; [|discriminate]. injection E as <-.
  apply scan_some in Es. destruct (removeBlock_inv _ _ _ _ _ HI Er) as (HI1 & b & Eb & D1 & D2 & D3 & D4 & D5 & D6 & D7).
  rewrite Eb in Es. cbn [victim] in Es. apply negb_true_iff in Es. rewrite Z.ltb_ge in Es.
  pose proof (slot_some _ _ _ Eb) as Hi. rewrite (mi_len _ _ _ HI) in Hi. split.
  - destruct HI1. split; cbn; auto.
  - exists [b]. split; [|cbn; split; auto; split; auto; pose proof (mi_pos _ _ _ HI i b Eb); lia].
    unfold survives. cbn [m_dead m_blocks]. split; [exact D1|]. split; [constructor; auto|].
    assert (D4' : forall j, slot (mkMM (m_max s1) (m_bytes s1) (m_blocks s1) (S i) (m_end s1) (m_left s1) (m_dead s1)) j =
      if Nat.eqb j i then None else slot s j) by exact D4.
    split; [|split; [|split]].
    + intros j b'. rewrite D4'. destruct (Nat.eqb j i); [discriminate|auto].
    + intros j b' H. rewrite D4'. destruct (Nat.eqb_spec j i) as [-> |]; auto. right. split; auto. cbn. left. congruence.
    + rewrite D7. cbn. destruct (Z.ltb_spec 0 (b_lock b)); lia.
    + intros b' [<- |[]]. exists i. split; auto. rewrite D4', Nat.eqb_refl. reflexivity.
Qed.

Lemma evict_inv n max f s s' : MInv n max s -> mm_evict f s = Some s' ->
  MInv n max s' /\ (exists dead, survives s s' dead) /\ m_end s' = m_end s /\ m_bytes s' < max /\ 0 < m_left s'.
Proof.
  revert s. induction f as [|f IH]; intros s HI E; cbn [mm_evict] in E.
  - destruct (Z.leb_spec (m_max s) (m_bytes s)); cbn in E; [discriminate|]. destruct (Z.eqb_spec (m_left s) 0); [discriminate|]. injection E as <-.
    destruct HI. pose proof (unused_le (m_blocks s)). repeat (split; auto); try lia. exists []. apply survives_refl.
  - destruct ((m_max s <=? m_bytes s) || (m_left s =? 0)) eqn:Ec.
    + destruct (mm_removeOne s) as [s1|] eqn:E1; [|discriminate]. destruct (removeOne_inv _ _ _ _ HI E1) as (HI1 & d1 & S1 & F1 & _).
      destruct (IH s1 HI1 E) as (HI2 & [d2 S2] & F2 & F3 & F4). split; auto. split; [|split; [congruence|auto]]. exists (d2 ++ d1). eapply survives_trans; eauto.
    + injection E as <-. apply orb_false_iff in Ec. destruct Ec as [C1 C2]. rewrite Z.leb_gt in C1. rewrite Z.eqb_neq in C2.
      destruct HI. pose proof (unused_le (m_blocks s)). repeat (split; auto); try lia. exists []. apply survives_refl.
Qed.

Lemma locked_none l : (forall i b, nth i l None = Some b -> 0 < b_lock b) -> locked l = total l.
Proof.
  induction l as [|[b|] l IH]; cbn [locked total]; auto; intros H.
  - pose proof (H 0%nat b eq_refl). destruct (Z.ltb_spec 0 (b_lock b)); [|lia]. rewrite IH; auto. intros i. apply (H (S i)).
  - apply IH. intros i. apply (H (S i)).
Qed.
Lemma victim_ex s : (exists j, victim (slot s j) = true) \/ (forall i b, slot s i = Some b -> 0 < b_lock b).
Proof.
  unfold slot. generalize (m_blocks s). intros l. induction l as [|x l IH].
  - right. intros [|i] b; discriminate.
  - destruct (victim x) eqn:E; [left; exists 0%nat; exact E|]. destruct IH as [[j Hj]|IH]; [left; exists (S j); exact Hj|].
    right. intros [|i] b; cbn; [intros ->|apply IH]. cbn in E. apply negb_false_iff in E. now rewrite Z.ltb_lt in E.
Qed.

Lemma evict_ok n max s : (0 < n)%nat -> MInv n max s -> locked (m_blocks s) < max ->
  (m_left s <> 0 \/ exists j, victim (slot s j) = true) -> forall f, Z.of_nat n - m_left s < Z.of_nat f -> mm_evict f s <> None.
Proof.
  intros Hn HI Hl Hv f. revert s HI Hl Hv. induction f as [|f IH]; intros s HI Hl Hv Hf; cbn [mm_evict].
  - pose proof (unused_le (m_blocks s)). destruct HI. lia.
  - destruct ((m_max s <=? m_bytes s) || (m_left s =? 0)) eqn:Ec; [|discriminate].
    assert (Hlt : m_left s < Z.of_nat n).
    { destruct HI. pose proof (unused_le (m_blocks s)). destruct (Z.eq_dec (m_left s) (Z.of_nat n)); [|lia].
      apply orb_prop in Ec. rewrite Z.leb_le, Z.eqb_eq in Ec. destruct Ec as [Ec|Ec]; [|lia].
      rewrite mi_left0, <- mi_len0 in e. apply unused_all in e. assert (0 <= locked (m_blocks s)); [|lia].
      clear - mi_pos0. unfold slot in mi_pos0. induction (m_blocks s) as [|[b|] l IH]; cbn [locked]; [lia| |].
      - assert (0 <= locked l) by (apply IH; intros i; apply (mi_pos0 (S i))). specialize (mi_pos0 0%nat b eq_refl). destruct (0 <? b_lock b); lia.
      - apply IH. intros i. apply (mi_pos0 (S i)). }
    assert (Hv' : exists j, victim (slot s j) = true).
    { destruct (victim_ex s) as [|Hall]; auto. destruct Hv as [Hv|]; auto. exfalso.
      apply orb_prop in Ec. rewrite Z.leb_le, Z.eqb_eq in Ec. destruct Ec as [Ec|Ec]; [|lia].
      assert (locked (m_blocks s) = total (m_blocks s)) by (apply locked_none; exact Hall). destruct HI. lia. }
    assert (E : exists s1, mm_removeOne s = Some s1).
    { unfold mm_removeOne. rewrite (mi_len _ _ _ HI). destruct (Z.ltb_spec (m_left s) (Z.of_nat n)); [|lia].
      match goal with |- context [mm_scan _ _ ?z] => set (st := z) end.
      assert (Hst : (st < length (m_blocks s))%nat).
      { unfold st. pose proof (mi_start _ _ _ HI). pose proof (mi_len _ _ _ HI). destruct (Nat.eqb_spec (m_start s) n); lia. }
      pose proof (scan_finds s st Hst Hv') as H'. rewrite (mi_len _ _ _ HI) in H'. destruct (mm_scan n s st) as [i|] eqn:Es; [|congruence].
      apply scan_some in Es. unfold mm_removeBlock. destruct (slot s i) as [b|]; [|discriminate]. eauto. }
    destruct E as [s1 E]. rewrite E. destruct (removeOne_inv _ _ _ _ HI E) as (HI1 & d & S1 & F1 & F2 & F3).
    destruct (Z.ltb_spec (m_left s) (Z.of_nat n)); [|lia]. destruct S1 as (_ & _ & _ & _ & S5).
    apply IH; auto; try lia. left. pose proof (unused_le (m_blocks s)). destruct HI. lia.
Qed.

Lemma add_inv n max bytes e p s s' i : (0 < n)%nat -> MInv n max s -> 0 <= bytes -> mm_add bytes e p s = Some (s', i) ->
  MInv n max s' /\ exists s1 dead, survives s s1 dead /\ slot s1 i = None /\ (i < n)%nat /\ m_dead s' = m_dead s1 /\
    (forall j, slot s' j = if Nat.eqb j i then Some (mkBlk e p bytes 0) else slot s1 j) /\
    (m_bytes s + bytes <= max -> s1 = s) /\ (max < m_bytes s + bytes -> m_bytes s1 < max) /\ m_bytes s' = m_bytes s1 + bytes.
Proof.
  intros Hn HI Hb E. unfold mm_add in E. rewrite (mi_max _ _ _ HI) in E.
  destruct (if max <? m_bytes s + bytes then mm_evict (S (length (m_blocks s))) s else Some s) as [s1|] eqn:E1; [|discriminate].
  assert (H1 : MInv n max s1 /\ (exists dead, survives s s1 dead) /\ (m_bytes s + bytes <= max -> s1 = s) /\ (max < m_bytes s + bytes -> m_bytes s1 < max)).
  { destruct (Z.ltb_spec max (m_bytes s + bytes)).
    - destruct (evict_inv _ _ _ _ _ HI E1) as (A1 & A2 & A3 & A4 & A5). repeat (split; auto). lia.
    - injection E1 as <-. split; auto. split; [exists []; apply survives_refl|]. split; auto. lia. }
  destruct H1 as (HI1 & [dead Hd] & P1 & P2). clear E1. cbv zeta in E. rewrite (mi_len _ _ _ HI1) in E.
  match type of E with context [mm_find _ _ ?z] => set (st := z) in * end.
  destruct (mm_find n s1 st) as [j|] eqn:Ef; [|discriminate]. injection E as <- <-.
  assert (Hst : (st < n)%nat).
  { unfold st. pose proof (mi_end _ _ _ HI1). destruct (Nat.eqb_spec (m_end s1) n); lia. }
  assert (Hj : (j < n)%nat) by (rewrite <- (mi_len _ _ _ HI1) in *; eapply find_lt; eauto).
  apply find_some in Ef. assert (Hn' : nth j (m_blocks s1) None = None) by exact Ef.
  assert (Hj' : (j < length (m_blocks s1))%nat) by (rewrite (mi_len _ _ _ HI1); auto).
  split.
  - destruct HI1 as [H1 H2 H3 H4 H5 H6 H7]. split; cbn [m_blocks m_max m_bytes m_left m_start m_end]; auto.
    + now rewrite set_len.
    + rewrite set_total, Hn' by auto. cbn. lia.
    + rewrite set_unused, Hn' by auto. cbn. lia.
    + intros k b. rewrite slot_set by auto. destruct (Nat.eqb k j); [intros [= <-]; exact Hb|apply H7].
  - exists s1, dead. repeat (split; auto). intros k. now apply slot_set.
Qed.

Lemma add_ok n max bytes e p s : (0 < n)%nat -> MInv n max s -> 0 <= bytes -> locked (m_blocks s) < max ->
  (0 < m_left s \/ (max < m_bytes s + bytes /\ exists j, victim (slot s j) = true)) ->
  exists s' i, mm_add bytes e p s = Some (s', i).
Proof.
  intros Hn HI Hb Hl Hv. unfold mm_add. rewrite (mi_max _ _ _ HI).
  assert (E1 : exists s1, (if max <? m_bytes s + bytes then mm_evict (S (length (m_blocks s))) s else Some s) = Some s1).
  { destruct (Z.ltb_spec max (m_bytes s + bytes)); [|eauto].
    assert (Hne : mm_evict (S (length (m_blocks s))) s <> None).
    { apply (evict_ok n max); auto; [destruct Hv as [|[_ ?]]; [left; lia|auto]|]. rewrite (mi_len _ _ _ HI). destruct HI. pose proof (unused_le (m_blocks s)). lia. }
    destruct (mm_evict (S (length (m_blocks s))) s); [eauto|congruence]. }
  destruct E1 as [s1 E1]. rewrite E1.
  assert (HI1 : MInv n max s1 /\ 0 < m_left s1).
  { destruct (Z.ltb_spec max (m_bytes s + bytes)).
    - destruct (evict_inv _ _ _ _ _ HI E1) as (A1 & A2 & A3 & A4 & A5). auto.
    - injection E1 as <-. split; auto. destruct Hv as [|[? _]]; auto. lia. }
  destruct HI1 as [HI1 Hl1]. cbv zeta. rewrite (mi_len _ _ _ HI1).
  match goal with |- context [mm_find _ _ ?z] => set (st := z) end.
  assert (Hst : (st < n)%nat).
  { unfold st. pose proof (mi_end _ _ _ HI1). destruct (Nat.eqb_spec (m_end s1) n); lia. }
  pose proof (find_finds n max s1 st HI1 Hst Hl1). destruct (mm_find n s1 st); [eauto|congruence].
Qed.

Lemma update_inv n max i bytes s s' : MInv n max s -> 0 <= bytes -> mm_update i bytes s = Some s' ->
  MInv n max s' /\ exists b, slot s i = Some b /\ m_dead s' = m_dead s /\
    forall j, slot s' j = if Nat.eqb j i then Some (mkBlk (b_elem b) (b_parent b) bytes (b_lock b)) else slot s j.
Proof.
  intros [H1 H2 H3 H4 H5 H6 H7] Hb E. unfold mm_update in E. destruct (slot s i) as [b|] eqn:Es; [|discriminate].
  pose proof (slot_some _ _ _ Es) as Hi. injection E as <-. assert (Hn : nth i (m_blocks s) None = Some b) by exact Es. split.
  - split; cbn [m_blocks m_max m_bytes m_left m_start m_end]; auto.
    + now rewrite set_len.
    + rewrite set_total, Hn by auto. cbn. lia.
    + rewrite set_unused, Hn by auto. cbn. lia.
    + intros j b'. rewrite slot_set by auto. destruct (Nat.eqb j i); [intros [= <-]; exact Hb|apply H7].
  - exists b. split; auto. split; auto. intros j. now apply slot_set.
Qed.
Lemma lock_inv n max d i s s' : MInv n max s -> mm_lock d i s = Some s' ->
  MInv n max s' /\ exists b, slot s i = Some b /\ m_dead s' = m_dead s /\ m_bytes s' = m_bytes s /\
    forall j, slot s' j = if Nat.eqb j i then Some (mkBlk (b_elem b) (b_parent b) (b_bytes b) (b_lock b + d)) else slot s j.
Proof.
  intros [H1 H2 H3 H4 H5 H6 H7] E. unfold mm_lock in E. destruct (slot s i) as [b|] eqn:Es; [|discriminate].
  pose proof (slot_some _ _ _ Es) as Hi. injection E as <-. assert (Hn : nth i (m_blocks s) None = Some b) by exact Es. split.
  - split; cbn [m_blocks m_max m_bytes m_left m_start m_end]; auto.
    + now rewrite set_len.
    + rewrite set_total, Hn by auto. cbn. lia.
    + rewrite set_unused, Hn by auto. cbn. lia.
    + intros j b'. rewrite slot_set by auto. destruct (Nat.eqb j i); [intros [= <-]; cbn; eauto|apply H7].
  - exists b. repeat (split; auto). intros j. now apply slot_set.
Qed.

(** ** JSON *)

Lemma hexval_dig d : 0 <= d < 16 -> hexval (hexdig d) = Some d.
Proof.
  intros H. unfold hexdig, hexval. destruct (Z.ltb_spec d 10).
  - destruct (Z.leb_spec 48 (48 + d)), (Z.leb_spec (48 + d) 57); try lia. cbn [andb]. f_equal. lia.
  - destruct (Z.leb_spec 48 (87 + d)), (Z.leb_spec (87 + d) 57); try lia. cbn [andb].
    destruct (Z.leb_spec 97 (87 + d)), (Z.leb_spec (87 + d) 102); try lia. cbn [andb]. f_equal. lia.
Qed.

Lemma read_escaped s : bytes s -> forall rest, read_str (escape_json s ++ 34 :: rest) = Some (s, rest).
Proof.
  induction 1 as [|c s Hc Hs IH]; intros rest; [reflexivity|]. cbn [escape_json flat_map].
  change (flat_map (fun c => if (c =? 34) || (c =? 92) || ((0 <=? c) && (c <=? 31)) then [92; 117] ++ hex4 c else [c]) s) with (escape_json s).
  destruct ((c =? 34) || (c =? 92) || ((0 <=? c) && (c <=? 31))) eqn:E.
  - assert (Hlt : c < 128).
    { apply orb_prop in E. destruct E as [E|E]; [apply orb_prop in E; rewrite !Z.eqb_eq in E; lia|].
      apply andb_prop in E. rewrite !Z.leb_le in E. lia. }
    unfold hex4. cbn [app read_str]. rewrite !hexval_dig by (apply Z.mod_pos_bound; lia). rewrite IH.
    cbn [Z.eqb]. replace (4096 * (c / 4096 mod 16) + 256 * (c / 256 mod 16) + 16 * (c / 16 mod 16) + c mod 16) with c.
    + unfold utf8. destruct (Z.ltb_spec c 128); [|lia]. reflexivity.
    + assert (c / 4096 = 0) by (apply Z.div_small; lia). assert (c / 256 = 0) by (apply Z.div_small; lia). rewrite H, H0.
      pose proof (Z.div_mod c 16 ltac:(lia)). assert (c / 16 mod 16 = c / 16) by (apply Z.mod_small; split; [apply Z.div_pos; lia|apply Z.div_lt_upper_bound; lia]).
      rewrite H2. change (0 mod 16) with 0. lia.
  - apply orb_false_iff in E. destruct E as [E1 E2]. apply orb_false_iff in E1. destruct E1 as [E0 E1].
    cbn [app read_str]. rewrite E0, E1. apply andb_false_iff in E2. rewrite !Z.leb_gt in E2.
    destruct (Z.ltb_spec c 32); [lia|]. now rewrite IH.
Qed.

Lemma json_rect' (P : json -> Prop) :
  (forall vals kids lvals lkids, Forall (fun p => P (snd p)) kids -> Forall P lkids -> P (Js vals kids lvals lkids)) -> forall j, P j.
Proof.
  intros H. fix IH 1. intros [vals kids lvals lkids]. apply H.
  - induction kids as [|[n c] kids IHk]; constructor; [apply IH|exact IHk].
  - induction lkids as [|c lkids IHk]; constructor; [apply IH|exact IHk].
Qed.

Definition opens (t : str) : Prop := exists c t', t = c :: t' /\ (c = 34 \/ c = 91 \/ c = 123).
Definition reads (t : str) (v : jv) : Prop :=
  opens t /\ exists f0, forall f rest, (f0 <= f)%nat -> read_val f (t ++ rest) = Some (v, rest).

Lemma skip_opens t rest : opens t -> skip_ws (t ++ rest) = t ++ rest.
Proof. intros (c & t' & -> & [->|[->| ->]]); reflexivity. Qed.

Lemma reads_str s : bytes s -> reads (quoted s) (JStr s).
Proof.
  intros H. split; [exists 34; eexists; split; [reflexivity|auto]|]. exists 1%nat. intros [|f] rest Hf; [lia|].
  unfold quoted. cbn [app read_val skip_ws]. change (is_ws 34) with false. cbn [Z.eqb Pos.eqb].
  rewrite <- app_assoc. cbn [app]. now rewrite read_escaped.
Qed.

Lemma elems_ok ts vs : Forall2 reads ts vs -> ts <> [] ->
  exists f0, forall f rest, (f0 <= f)%nat -> read_elems f (commas ts ++ 93 :: rest) = Some (vs, rest).
Proof.
  induction 1 as [|t v ts vs [Ho [f1 Hr]] H IH]; [congruence|]. intros _. destruct ts as [|t2 ts].
  - inversion H; subst. exists (S f1). intros [|f] rest Hf; [lia|]. cbn [read_elems commas]. rewrite Hr by lia. reflexivity.
  - destruct IH as [f2 IH]; [discriminate|]. exists (S (Nat.max f1 f2)). intros [|f] rest Hf; [lia|].
    cbn [read_elems]. change (commas (t :: t2 :: ts)) with (t ++ [44] ++ commas (t2 :: ts)). rewrite <- !app_assoc, Hr by lia.
    cbn [app skip_ws]. change (is_ws 44) with false. cbn [Z.eqb Pos.eqb]. rewrite IH by lia. reflexivity.
Qed.
Definition member (p : str * str) : str := quoted (fst p) ++ [32; 58; 32] ++ snd p.
Lemma members_ok ps vs : Forall2 (fun p v => bytes (fst p) /\ fst v = fst p /\ reads (snd p) (snd v)) ps vs -> ps <> [] ->
  exists f0, forall f rest, (f0 <= f)%nat -> read_members f (commas (map member ps) ++ 125 :: rest) = Some (vs, rest).
Proof.
  assert (Hm : forall n t v f1, bytes n -> opens t -> (forall f rest, (f1 <= f)%nat -> read_val f (t ++ rest) = Some (v, rest)) ->
    forall f rest, (f1 <= f)%nat ->
    read_members (S f) (member (n, t) ++ rest) =
    match skip_ws rest with
    | c :: r => if c =? 44 then do (l, q) <- read_members f r; Some ((n, v) :: l, q)
                else if c =? 125 then Some ([(n, v)], r) else None
    | [] => None
    end).
  { intros n t v f1 Hn Ho Hr f rest Hf. unfold member, quoted. cbn [fst snd app read_members skip_ws]. change (is_ws 34) with false.
    cbn [Z.eqb Pos.eqb]. rewrite <- !app_assoc. cbn [app]. rewrite read_escaped by auto. cbn [skip_ws]. change (is_ws 32) with true. cbn [skip_ws].
    change (is_ws 58) with false. cbn [Z.eqb Pos.eqb].
    assert (Hsp : read_val f (32 :: t ++ rest) = read_val f (t ++ rest)).
    { destruct f; [reflexivity|]. cbn [read_val skip_ws]. change (is_ws 32) with true. reflexivity. }
    rewrite Hsp, Hr by auto. reflexivity. }
  induction 1 as [|[n t] [n' v] ps vs (Hb & En & Ho & [f1 Hr]) H IH]; [congruence|]. cbn [fst snd] in *. subst n'. intros _. destruct ps as [|p2 ps].
  - inversion H; subst. exists (S f1). intros [|f] rest Hf; [lia|]. cbn [map commas]. rewrite (Hm n t v f1) by (auto; lia). reflexivity.
  - destruct IH as [f2 IH]; [discriminate|]. exists (S (Nat.max f1 f2)). intros [|f] rest Hf; [lia|].
    cbn [map]. change (commas (member (n, t) :: member p2 :: map member ps)) with (member (n, t) ++ [44] ++ commas (map member (p2 :: ps))).
    rewrite <- !app_assoc. rewrite (Hm n t v f1) by (auto; lia). cbn [app skip_ws]. change (is_ws 44) with false. cbn [Z.eqb Pos.eqb]. rewrite IH by lia. reflexivity.
Qed.

Lemma commas_opens ts rest : Forall opens ts -> ts <> [] -> opens (commas ts ++ rest).
Proof.
  intros H Hne. destruct ts as [|t ts]; [congruence|]. inversion H as [|? ? (c & t' & -> & Hc)]; subst.
  exists c. destruct ts; cbn; eauto.
Qed.
Lemma arr_ok ts vs : Forall2 reads ts vs -> ts <> [] -> reads ([91] ++ commas ts ++ [93]) (JArr vs).
Proof.
  intros H Hne. split; [exists 91; eexists; split; [reflexivity|auto]|]. destruct (elems_ok _ _ H Hne) as [f0 Hf].
  exists (S f0). intros [|f] rest Hle; [lia|]. cbn [app read_val skip_ws]. change (is_ws 91) with false. cbn [Z.eqb Pos.eqb].
  rewrite <- app_assoc. assert (Ho : opens (commas ts ++ [93] ++ rest)).
  { apply commas_opens; auto. clear - H. induction H; constructor; auto. now destruct H. }
  pose proof (skip_opens _ [] Ho) as Hs. rewrite app_nil_r in Hs. rewrite Hs. specialize (Hf f rest ltac:(lia)).
  cbn [app] in *. destruct Ho as (c & t' & Ec & Hc). rewrite Ec in *. destruct (Z.eqb_spec c 93); [lia|]. rewrite Hf. reflexivity.
Qed.
Lemma obj_ok ps vs : Forall2 (fun p v => bytes (fst p) /\ fst v = fst p /\ reads (snd p) (snd v)) ps vs ->
  reads ([123] ++ commas (map member ps) ++ [125]) (JObj vs).
Proof.
  intros H. split; [exists 123; eexists; split; [reflexivity|auto]|]. destruct ps as [|p ps].
  - inversion H; subst. exists 1%nat. intros [|f] rest Hle; [lia|]. reflexivity.
  - destruct (members_ok _ _ H ltac:(discriminate)) as [f0 Hf].
    exists (S f0). intros [|f] rest Hle; [lia|]. cbn [app read_val skip_ws]. change (is_ws 123) with false. cbn [Z.eqb Pos.eqb].
    rewrite <- app_assoc. assert (Ho : opens (commas (map member (p :: ps)) ++ [125] ++ rest)).
    { apply commas_opens; [|discriminate]. rewrite Forall_forall. intros x Hx. apply in_map_iff in Hx. destruct Hx as (q & <- & _). exists 34. eexists. split; [reflexivity|auto]. }
    pose proof (skip_opens _ [] Ho) as Hs. rewrite app_nil_r in Hs. rewrite Hs. specialize (Hf f rest ltac:(lia)).
    cbn [app] in *. destruct Ho as (c & t' & Ec & Hc). rewrite Ec in *. destruct (Z.eqb_spec c 125); [lia|]. rewrite Hf. reflexivity.
Qed.

Lemma all_some_spec {A} (l : list (option A)) r : all_some l = Some r <-> l = map Some r.
Proof.
  revert r. induction l as [|[a|] l IH]; intros r; cbn.
  - split; [intros [= <-]; reflexivity|destruct r; cbn; congruence].
  - destruct (all_some l) as [r'|].
    + split; [intros [= <-]; cbn; f_equal; now apply IH|]. destruct r as [|x r]; cbn; [discriminate|]. intros [= -> E]. apply IH in E. congruence.
    + split; [discriminate|]. destruct r as [|x r]; cbn; [discriminate|]. intros [= -> E]. apply IH in E. congruence.
  - split; [discriminate|]. destruct r; discriminate.
Qed.
Lemma fold_and_Forall {A} (P : A -> Prop) l : fold_right and True (map P l) <-> Forall P l.
Proof. induction l as [|x l IH]; cbn; [split; auto|]. rewrite IH. split; [intros []; now constructor|inversion 1; auto]. Qed.

Lemma write_ok j : json_bytes j -> forall t, json_write j = Some t -> reads t (doc j).
Proof.
  induction j as [vals kids lvals lkids IHk IHl] using json_rect'. cbn [json_bytes]. rewrite !fold_and_Forall.
  intros (B1 & B2 & B3 & B4) t E. cbn [json_write doc] in *. destruct lkids as [|c lkids].
  - destruct lvals as [|v lvals].
    + destruct (all_some _) as [r|] eqn:Er; [|discriminate]. match type of E with Some ?x = _ => assert (Et : x = t) by congruence end. rewrite <- Et. clear E Et. apply all_some_spec in Er.
      assert (Hk : exists ks, r = map member ks /\ Forall2 (fun p v => bytes (fst p) /\ fst v = fst p /\ reads (snd p) (snd v)) ks (map (fun '(n, c) => (n, doc c)) kids)).
      { clear - Er B2 IHk. revert r Er. induction kids as [|[n c] kids IH]; intros r Er; cbn [map] in Er.
        - destruct r; [|discriminate]. exists []. split; constructor.
        - destruct r as [|x r]; [discriminate|]. cbn [map] in Er. injection Er as E1 E2. inversion IHk as [|? ? K1 K2]; subst.
          inversion B2 as [|? ? B01 B2']; subst. destruct B01 as [B0 B1]. destruct (json_write c) as [tc|] eqn:Ec; [|discriminate]. injection E1 as <-.
          destruct (IH K2 B2' r E2) as (ks & -> & Hks). exists ((n, tc) :: ks). split; [reflexivity|]. constructor; auto. }
      destruct Hk as (ks & -> & Hks).
      assert (Hv : map (fun '(n, v) => quoted n ++ [32; 58; 32] ++ quoted v) vals = map member (map (fun '(n, v) => (n, quoted v)) vals)).
      { rewrite map_map. apply map_ext. intros [n v]. reflexivity. }
      rewrite Hv, <- map_app. apply obj_ok. apply Forall2_app; auto. clear - B1.
      induction B1 as [|[n v] vals [H1 H2] H IH]; cbn [map]; constructor; auto. cbn [fst snd] in *. split; auto. split; auto. now apply reads_str.
    + destruct vals; [|discriminate]. destruct kids; [|discriminate]. match type of E with Some ?x = _ => assert (Et : x = t) by congruence end. rewrite <- Et. clear E Et. apply arr_ok; [|discriminate].
      clear - B3. induction B3; cbn [map]; constructor; auto. now apply reads_str.
  - destruct lvals; [|discriminate]. destruct vals; [|discriminate]. destruct kids; [|discriminate].
    destruct (all_some (map json_write (c :: lkids))) as [r|] eqn:Er; [|discriminate]. match type of E with Some ?x = _ => assert (Et : x = t) by congruence end. rewrite <- Et. clear E Et. apply all_some_spec in Er.
    apply arr_ok; [|destruct r; discriminate]. clear - Er B4 IHl. revert r Er. induction (c :: lkids) as [|x l IH]; intros r Er; cbn [map] in *.
    + destruct r; [constructor|discriminate].
    + destruct r as [|y r]; [discriminate|]. injection Er as E1 E2. inversion IHl; subst. inversion B4; subst. constructor; auto.
Qed.

Lemma write_total j : one_kind j <-> json_write j <> None.
Proof.
  induction j as [vals kids lvals lkids IHk IHl] using json_rect'. cbn [one_kind json_write]. rewrite !fold_and_Forall.
  assert (Hl : Forall one_kind lkids <-> all_some (map json_write lkids) <> None).
  { clear - IHl. induction IHl as [|c l Hc H IH]; cbn [map all_some]; [split; [discriminate|constructor]|].
    destruct (json_write c) as [t|].
    - destruct (all_some (map json_write l)).
      + split; [discriminate|]. intros _. constructor; [now apply Hc|now apply IH].
      + split; [|congruence]. inversion 1; subst. exfalso. apply IH; auto.
    - split; [|congruence]. inversion 1; subst. exfalso. apply Hc; auto. }
  assert (Hk : Forall (fun '(_, c) => one_kind c) kids <->
    all_some (map (fun '(n, c) => do t <- json_write c; Some (quoted n ++ [32; 58; 32] ++ t)) kids) <> None).
  { clear - IHk. induction IHk as [|[n c] l Hc H IH]; cbn [map all_some fold_right]; [split; [discriminate|constructor]|]. cbn [snd] in Hc.
    destruct (json_write c) as [t|].
    - destruct (all_some (map _ l)).
      + split; [discriminate|]. intros _. constructor; [now apply Hc|now apply IH].
      + split; [|congruence]. inversion 1; subst. exfalso. apply IH; auto.
    - split; [|congruence]. inversion 1; subst. exfalso. apply Hc; auto. }
  destruct lkids as [|c lkids].
  - destruct lvals as [|v lvals].
    + rewrite Hk. destruct (all_some (map _ kids)).
      * split; [discriminate|]. intros _. repeat split; auto; discriminate.
      * split; [|congruence]. intros (_ & _ & H & _). congruence.
    + destruct vals; [|split; [intros (_ & [?|[? _]] & _); discriminate|congruence]].
      destruct kids; [|split; [intros (_ & [?|[_ ?]] & _); discriminate|congruence]].
      split; [discriminate|]. intros _. repeat split; auto; constructor.
  - destruct lvals; [|split; [intros ([?|[? _]] & _); discriminate|congruence]].
    destruct vals; [|split; [intros ([?|(_ & ? & _)] & _); discriminate|congruence]].
    destruct kids; [|split; [intros ([?|(_ & _ & ?)] & _); discriminate|congruence]].
    rewrite Hl. destruct (all_some (map json_write (c :: lkids))).
    + split; [discriminate|]. intros _. repeat split; auto; try discriminate.
    + split; [|congruence]. intros (_ & _ & _ & H). congruence.
Qed.
