(** C28, C29, C33, C49: parallel loops and sorting, the memory manager, JSON output. *)
From Verif Require Import ItrModel UtilModel UtilSpec UtilProofs.
Local Open Scope Z_scope.

(** ** C28 *)

(** A loop that starts at 0 visits every index exactly once, in at most [nthreads] ranges. *)
Theorem C28_from_zero_partial : forall fin grainsize n, 0 <= fin < 2 ^ 63 -> 0 <= grainsize < 2 ^ 64 -> (1 <= n)%nat ->
  Z.of_nat n < 2 ^ 31 ->
  visits (parallel_for 0 fin grainsize n) = zrange 0 fin /\ (length (parallel_for 0 fin grainsize n) <= n)%nat.
Proof.
  intros fin g n Hf Hg Hn Hn2. unfold parallel_for. rewrite Z.sub_0_r.
  assert (Eu : u64 (fin + Z.of_nat n - 1) = fin + Z.of_nat n - 1) by (unfold u64; apply Z.mod_small; lia). rewrite Eu. clear Eu.
  set (d := (fin + Z.of_nat n - 1) / Z.of_nat n).
  assert (Hd : fin <= Z.of_nat n * d < fin + Z.of_nat n).
  { pose proof (Z.div_mod (fin + Z.of_nat n - 1) (Z.of_nat n) ltac:(lia)) as E. fold d in E.
    pose proof (Z.mod_pos_bound (fin + Z.of_nat n - 1) (Z.of_nat n) ltac:(lia)). lia. }
  assert (Hd0 : 0 <= d) by (apply Z.div_pos; lia).
  assert (Hdu : d <= fin + Z.of_nat n - 1) by (apply Z.div_le_upper_bound; nia).
  destruct (Z.eq_dec fin 0) as [-> |Hne].
  - destruct n; [lia|]. cbn. split; auto; lia.
  - assert (0 < d) by nia. destruct (pf_loop_ok (Z.max g d) fin ltac:(lia) ltac:(lia) n 0 0 ltac:(lia) (or_introl eq_refl) ltac:(nia)) as (H1 & H2 & H3).
    destruct (pf_loop n 0 0 fin (Z.max g d)) as [r b]. cbn [fst snd] in *. split; auto. rewrite app_length. cbn. lia.
Qed.
Print Assumptions C28_from_zero_partial.
Example C28_case : parallel_for 0 10 1 4 = [(0, 3); (3, 6); (6, 9); (9, 10)].
Proof. reflexivity. Qed.

(** Refuted in general: a loop over [5,10) visits indices below 5, and some indices twice. *)
Theorem C28_begin_refuted :
  parallel_for 5 10 1 2 = [(0, 3); (3, 6); (3, 10)] /\ zrange 5 10 = [5; 6; 7; 8; 9] /\
  visits (parallel_for 5 10 1 2) = [0; 1; 2; 3; 4; 5; 3; 4; 5; 6; 7; 8; 9].
Proof. vm_compute. auto. Qed.
Print Assumptions C28_begin_refuted.

(** ** C49 *)

(** Sorting with any number of threads sorts, provided the sequential sort does. *)
Theorem C49_sort : forall A (cmp : A -> A -> bool) stdsort, weak_order cmp ->
  (forall l, Permutation (stdsort l) l /\ in_order cmp (stdsort l)) ->
  forall fuel l nthreads,
    Permutation (sort_int A cmp stdsort fuel l nthreads) l /\ in_order cmp (sort_int A cmp stdsort fuel l nthreads).
Proof. intros A cmp stdsort Hw Hs fuel l n. now apply sort_int_ok. Qed.
Print Assumptions C49_sort.

(** The bound on the depth is reached by no run. *)
Theorem C49_depth : forall A (cmp : A -> A -> bool) stdsort nthreads fuel l, 0 <= nthreads < 2 ^ Z.of_nat fuel ->
  sort_int A cmp stdsort (S fuel) l nthreads = sort_int A cmp stdsort fuel l nthreads.
Proof.
  intros A cmp stdsort n fuel. revert n. induction fuel as [|f IH]; intros n l Hn.
  - cbn [sort_int]. destruct (Z.ltb_spec n 2); [|lia]. now rewrite orb_true_r.
  - change (sort_int A cmp stdsort (S (S f)) l n) with (if (Z.of_nat (length l) <=? 1024) || (n <? 2) then stdsort l
      else let mid := Z.to_nat (Z.quot (Z.of_nat (length l)) 2) in
           std_merge A cmp (sort_int A cmp stdsort (S f) (firstn mid l) (Z.quot n 2)) (sort_int A cmp stdsort (S f) (skipn mid l) (Z.quot n 2))).
    change (sort_int A cmp stdsort (S f) l n) with (if (Z.of_nat (length l) <=? 1024) || (n <? 2) then stdsort l
      else let mid := Z.to_nat (Z.quot (Z.of_nat (length l)) 2) in
           std_merge A cmp (sort_int A cmp stdsort f (firstn mid l) (Z.quot n 2)) (sort_int A cmp stdsort f (skipn mid l) (Z.quot n 2))).
    assert (0 <= Z.quot n 2 < 2 ^ Z.of_nat f).
    { rewrite Z.quot_div_nonneg by lia. split; [apply Z.div_pos; lia|]. apply Z.div_lt_upper_bound; [lia|]. rewrite Nat2Z.inj_succ, Z.pow_succ_r in Hn; lia. }
    cbv zeta. now rewrite !IH.
Qed.
Print Assumptions C49_depth.

Fixpoint ins_sort (l : list Z) : list Z :=
  match l with [] => [] | x :: t => std_merge Z Z.ltb [x] (ins_sort t) end.
Example C49_case : weak_order Z.ltb /\ (forall l, Permutation (ins_sort l) l /\ in_order Z.ltb (ins_sort l)) /\
  let l := map (fun i => (7 * Z.of_nat i) mod 1030) (seq 0 1030) in
  sort_int Z Z.ltb ins_sort 3 l 5 = zrange 0 1030 /\ nth 5 l 0 = 35.
Proof.
  assert (Hw : weak_order Z.ltb). { split; intros; rewrite ?Z.ltb_lt, ?Z.ltb_ge in *; lia. }
  split; auto. split.
  - induction l as [|x l [I1 I2]]; cbn [ins_sort]; [split; constructor|]. split.
    + rewrite merge_perm. now constructor.
    + apply merge_sorted; auto. repeat constructor.
  - vm_compute. auto.
Qed.

(** ** C29 *)

(** The calls on a memory manager, with the identifiers it gave out. *)
Inductive mop :=
| OpAdd (bytes : Z) (elem parent : nat) | OpUpdate (i : nat) (bytes : Z) | OpLock (i : nat) | OpRelease (i : nat)
| OpRemove (i : nat) | OpForget (i : nat).
Definition op_ok (o : mop) : Prop := match o with OpAdd b _ _ | OpUpdate _ b => 0 <= b | _ => True end.
Definition apply_op (o : mop) (s : mm) : option mm :=
  match o with
  | OpAdd b e p => do (s, _) <- mm_add b e p s; Some s
  | OpUpdate i b => mm_update i b s
  | OpLock i => mm_addLock i s
  | OpRelease i => mm_releaseLock i s
  | OpRemove i => mm_removeBlock i s
  | OpForget i => Some (mm_forget i s)
  end.
Inductive history (n : nat) (max : Z) : mm -> Prop :=
| h_new : history n max (mm_new n max)
| h_op s o s' : history n max s -> op_ok o -> apply_op o s = Some s' -> history n max s'.

Lemma history_inv n max s : (0 < n)%nat -> history n max s -> MInv n max s.
Proof.
  intros Hn. induction 1 as [|s o s' H IH Ho E]; [apply mm_new_inv|]. destruct o; cbn [apply_op op_ok] in *.
  - destruct (mm_add bytes elem parent s) as [[s1 i]|] eqn:E1; [|discriminate]. injection E as <-. now apply (add_inv _ _ _ _ _ _ _ _ Hn IH Ho) in E1.
  - now apply (update_inv _ _ _ _ _ _ IH Ho) in E.
  - now apply (lock_inv _ _ _ _ _ _ IH) in E.
  - now apply (lock_inv _ _ _ _ _ _ IH) in E.
  - now apply (removeBlock_inv _ _ _ _ _ IH) in E.
  - injection E as <-. now apply forget_inv.
Qed.

(** The byte counter is the total size of the blocks in use, and the count of free slots is right,
    after every history. *)
Theorem C29_bytes : forall n max s, (0 < n)%nat -> history n max s ->
  m_bytes s = total (m_blocks s) /\ m_left s = unused (m_blocks s) /\ length (m_blocks s) = n.
Proof. intros n max s Hn H. apply history_inv in H; auto. destruct H. auto. Qed.
Print Assumptions C29_bytes.

(** Adding a block only deletes blocks that are not locked, keeps every other block, takes a
    slot that is free, and makes room: then the total is below the maximum before the new
    block is counted. *)
Theorem C29_add : forall n max s bytes e p s' i, (0 < n)%nat -> history n max s -> 0 <= bytes ->
  mm_add bytes e p s = Some (s', i) ->
  exists dead, m_dead s' = dead ++ m_dead s /\ Forall (fun b => b_lock b <= 0) dead /\
    slot s' i = Some (mkBlk e p bytes 0) /\
    (forall j b, j <> i -> slot s' j = Some b -> slot s j = Some b) /\
    (forall j b, slot s j = Some b -> (slot s' j = Some b /\ j <> i) \/ In b dead) /\
    (forall b, In b dead -> exists j, slot s j = Some b) /\
    (m_bytes s + bytes <= max -> dead = []) /\
    m_bytes s' <= Z.max max (max - 1 + bytes).
Proof.
  intros n max s bytes e p s' i Hn H Hb E. apply history_inv in H; auto.
  destruct (add_inv _ _ _ _ _ _ _ _ Hn H Hb E) as (HI & s1 & dead & (D1 & D2 & D3 & D4 & D5 & D6) & F1 & F2 & F3 & F4 & F5 & F6 & F7).
  exists dead. split; [congruence|]. split; auto. split; [rewrite F4, Nat.eqb_refl; reflexivity|]. split; [|split; [|split; [|split]]].
  - intros j b Hj. rewrite F4. destruct (Nat.eqb_spec j i); [congruence|]. apply D3.
  - intros j b Hj. destruct (D4 j b Hj) as [H1|[H1 H2]]; auto. left. rewrite F4. destruct (Nat.eqb_spec j i); [congruence|auto].
  - intros b Hb'. destruct (D6 b Hb') as (j & H1 & H2). eauto.
  - intros Hle. rewrite (F5 Hle) in D1. destruct dead as [|x dead]; auto. apply (f_equal (@length _)) in D1. rewrite app_length in D1. cbn in D1. lia.
  - destruct (Z.le_gt_cases (m_bytes s + bytes) max) as [H1|H1].
    + rewrite F7, (F5 H1). lia.
    + specialize (F6 ltac:(lia)). lia.
Qed.
Print Assumptions C29_add.

(** The other calls touch one block, and only [removeBlock] deletes it. *)
Theorem C29_other : forall n max s o s', (0 < n)%nat -> history n max s -> op_ok o ->
  (forall b e p, o <> OpAdd b e p) -> apply_op o s = Some s' ->
  (forall j b, slot s j = Some b ->
     match o with
     | OpRemove i | OpForget i => if Nat.eqb j i then slot s' j = None else slot s' j = Some b
     | OpUpdate i n => if Nat.eqb j i then slot s' j = Some (mkBlk (b_elem b) (b_parent b) n (b_lock b)) else slot s' j = Some b
     | OpLock i => if Nat.eqb j i then slot s' j = Some (mkBlk (b_elem b) (b_parent b) (b_bytes b) (b_lock b + 1)) else slot s' j = Some b
     | OpRelease i => if Nat.eqb j i then slot s' j = Some (mkBlk (b_elem b) (b_parent b) (b_bytes b) (b_lock b - 1)) else slot s' j = Some b
     | OpAdd _ _ _ => True
     end) /\
  match o with OpRemove i => exists b, slot s i = Some b /\ m_dead s' = b :: m_dead s | _ => m_dead s' = m_dead s end.
Proof.
  intros n max s o s' Hn H Ho Ha E. apply history_inv in H; auto. destruct o; cbn [apply_op op_ok] in *.
  - exfalso. eapply Ha; eauto.
  - destruct (update_inv _ _ _ _ _ _ H Ho E) as (_ & b & E1 & E2 & E3). split; auto. intros j b' Hj. rewrite E3. destruct (Nat.eqb_spec j i); congruence.
  - destruct (lock_inv _ _ _ _ _ _ H E) as (_ & b & E1 & E2 & _ & E3). split; auto. intros j b' Hj. rewrite E3. destruct (Nat.eqb_spec j i); congruence.
  - destruct (lock_inv _ _ _ _ _ _ H E) as (_ & b & E1 & E2 & _ & E3). split; auto. intros j b' Hj. rewrite E3. destruct (Nat.eqb_spec j i); [|congruence]. subst j. rewrite E1 in Hj. injection Hj as <-. reflexivity.
  - destruct (removeBlock_inv _ _ _ _ _ H E) as (_ & b & E1 & E2 & _ & _ & E3 & _). split; eauto. intros j b' Hj. rewrite E3. destruct (Nat.eqb_spec j i); congruence.
  - injection E as <-. destruct (forget_inv _ _ i _ H) as (_ & E2 & E3). split; auto. intros j b' Hj. rewrite E3. destruct (Nat.eqb_spec j i); congruence.
Qed.
Print Assumptions C29_other.

(** Adding ends if the locked blocks are smaller than the maximum, and there is a free slot or an
    unlocked block that the size of the new one makes it evict. *)
Theorem C29_add_ends_partial : forall n max s bytes e p, (0 < n)%nat -> history n max s -> 0 <= bytes ->
  locked (m_blocks s) < max ->
  (0 < m_left s \/ (max < m_bytes s + bytes /\ exists j b, slot s j = Some b /\ b_lock b <= 0)) ->
  exists s' i, mm_add bytes e p s = Some (s', i).
Proof.
  intros n max s bytes e p Hn H Hb Hl Hv. apply history_inv in H; auto. apply (add_ok n max); auto.
  destruct Hv as [|[H1 (j & b & E & Hj)]]; auto. right. split; auto. exists j. rewrite E. cbn. apply negb_true_iff. now rewrite Z.ltb_ge.
Qed.
Print Assumptions C29_add_ends_partial.

(** Refuted in general: with all slots in use and bytes to spare, add searches a free slot
    forever. *)
Theorem C29_full_refuted :
  let s := mkMM 1000 2 [Some (mkBlk 0 0 1 0); Some (mkBlk 1 1 1 0)] 0 2 0 [] in
  (exists s1, apply_op (OpAdd 1 0 0) (mm_new 2 1000) = Some s1 /\ apply_op (OpAdd 1 1 1) s1 = Some s) /\
  history 2 1000 s /\ mm_add 1 9 9 s = None.
Proof.
  cbv zeta. assert (E : exists s1, apply_op (OpAdd 1 0 0) (mm_new 2 1000) = Some s1 /\
    apply_op (OpAdd 1 1 1) s1 = Some (mkMM 1000 2 [Some (mkBlk 0 0 1 0); Some (mkBlk 1 1 1 0)] 0 2 0 [])) by (eexists; split; reflexivity).
  split; auto. destruct E as (s1 & E1 & E2). split; [|reflexivity].
  eapply h_op; [eapply h_op; [apply h_new| |exact E1]| |exact E2]; cbn; lia.
Qed.
Print Assumptions C29_full_refuted.
Fixpoint run_ops (l : list mop) (s : mm) : option mm :=
  match l with [] => Some s | o :: l => do s1 <- apply_op o s; run_ops l s1 end.
Lemma run_history n max l : Forall op_ok l -> forall s s', history n max s -> run_ops l s = Some s' -> history n max s'.
Proof.
  induction 1 as [|o l Ho H IH]; intros s s' Hs E; cbn [run_ops] in E; [congruence|].
  destruct (apply_op o s) as [s1|] eqn:E1; [|discriminate]. eapply IH; [|exact E]. eapply h_op; eauto.
Qed.
(** Three blocks of which one is locked; a fourth one evicts an unlocked one. *)
Definition ex_mm : mm :=
  mkMM 10 12 [Some (mkBlk 0 0 4 1); Some (mkBlk 1 0 4 0); Some (mkBlk 2 0 4 0)] 0 3 0 [].
Example C29_case : history 3 10 ex_mm /\
  mm_add 5 3 0 ex_mm =
    Some (mkMM 10 13 [Some (mkBlk 0 0 4 1); Some (mkBlk 3 0 5 0); Some (mkBlk 2 0 4 0)] 2 2 0 [mkBlk 1 0 4 0], 1%nat).
Proof.
  split; [|reflexivity].
  apply (run_history 3 10 [OpAdd 4 0 0; OpAdd 4 1 0; OpAdd 4 2 0; OpLock 0]) with (s := mm_new 3 10).
  - repeat constructor; cbn; lia.
  - apply h_new.
  - reflexivity.
Qed.

(** ** C33 *)

(** A JSON reader gets the original string back from an escaped one, and stops exactly at its
    closing quote. *)
Theorem C33_string : forall s rest, bytes s -> read_str (escape_json s ++ 34 :: rest) = Some (s, rest).
Proof. intros s rest H. now apply read_escaped. Qed.
Print Assumptions C33_string.

(** What JSON::write produces is read as the document it stands for, whatever follows. *)
Theorem C33_document : forall j t, json_bytes j -> json_write j = Some t ->
  exists f0, forall f rest, (f0 <= f)%nat -> read_val f (t ++ rest) = Some (doc j, rest).
Proof. intros j t Hb E. now apply (write_ok j Hb t) in E as [_ H]. Qed.
Print Assumptions C33_document.

(** It fails exactly for objects that mix named members and list elements. *)
Theorem C33_fails : forall j, json_write j <> None <-> one_kind j.
Proof. intros j. symmetry. apply write_total. Qed.
Print Assumptions C33_fails.

Example C33_case :
  let j := Js [([97], [34; 92; 10; 195; 169])] [([98], Js [] [] [] [Js [] [] [] []; Js [] [] [[34]; []] []])] [] [] in
  json_bytes j /\ one_kind j /\
  exists t, json_write j = Some t /\ read_val 20 t =
    Some (JObj [([97], JStr [34; 92; 10; 195; 169]); ([98], JArr [JObj []; JArr [JStr [34]; JStr []]])], []).
Proof.
  cbv zeta. split; [|split].
  - cbn. unfold bytes. repeat split; repeat (constructor; try lia).
  - cbn. intuition auto.
  - eexists. split; reflexivity.
Qed.
