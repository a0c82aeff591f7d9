(** C20, C21, C22: the string buffer.  The code has B = 65536 (SB_BLOCK_SIZE, include/trident/kb/consts.h 93). *)
From Verif Require Import TableProofs ColumnProofs StrSpec StrProofs StrProofs2 StrProofs3 StrProofs4 StrProofs5 StrProofs6 StrProofs7 StrProofs8 StrProofs9.
From Coq Require Import ZifyBool.
Local Open Scope Z_scope.

(** ** C20 *)
(** A string of at most a block can always be appended, whatever the background thread does, if nothing was looked up
    or every block is still in memory or the thread keeps up. *)
Theorem C20_append_succeeds_partial : forall B cap lz unlz sched reads s l x,
  5 <= cap -> codec lz unlz -> 16 <= B <= 2 ^ 20 -> written B cap lz unlz sched reads s l ->
  reads = false \/ keeps_up sched \/ all_cached B cap s -> zlength x <= B ->
  exists s', append B cap false lz sched x s = Some s'.
Proof.
  intros B cap lz unlz sched reads s l x Hcap Hlz HB W Hc Hx. destruct (written_inv B cap lz unlz sched Hcap Hlz HB reads s l W Hc) as (init & c & I).
  destruct (append_inv B cap lz sched Hcap HB s l init c x I Hx) as (s' & i' & c' & E & _). eauto.
Qed.
Print Assumptions C20_append_succeeds_partial.

(** What get() returns at the position of a string is that string. *)
Theorem C20_get_returns_the_string_partial : forall B cap lz unlz sched reads s l x p,
  5 <= cap -> codec lz unlz -> 16 <= B <= 2 ^ 20 -> written B cap lz unlz sched reads s l ->
  keeps_up sched \/ all_cached B cap s -> In (x, p) l -> not_at_end B s l p ->
  exists s', get B cap false lz unlz sched p s = Some (x, s').
Proof.
  intros B cap lz unlz sched reads s l x p Hcap Hlz HB W Hc Hi Hn.
  destruct (written_inv B cap lz unlz sched Hcap Hlz HB reads s l W (or_intror Hc)) as (init & c & I).
  pose proof (INV_ok B cap lz sched Hcap HB _ _ _ _ I Hc) as K. destruct I as (W1 & Hne & L1 & L2).
  pose proof (WI_full B cap lz _ _ _ W1) as HF.
  destruct Hn as [Hn|(l0 & y & q & -> & Hq)].
  - destruct (L1 _ _ Hi) as (tl & Ht). destruct (get_ok B cap false lz unlz sched Hcap Hlz HB _ _ HF s p x tl K Ht) as [(s' & E & _)|(_ & _ & E)]; [eauto|].
    rewrite (wi_size _ _ _ _ _ _ W1) in Hn. congruence.
  - apply in_app_or in Hi. destruct Hi as [Hi|[Hi|[]]]; [|congruence]. destruct (L2 _ _ _ eq_refl _ _ Hi) as (tl & Htl & Ht).
    destruct (get_ok B cap false lz unlz sched Hcap Hlz HB _ _ HF s p x tl K Ht) as [(s' & E & _)|(_ & E & _)]; [eauto|congruence].
Qed.
Print Assumptions C20_get_returns_the_string_partial.

(** ** C21 *)
(** The sign of cmp() is the order of the two byte strings. *)
Theorem C21_cmp_is_the_order_partial : forall B cap lz unlz sched reads s l x p y,
  5 <= cap -> codec lz unlz -> 16 <= B <= 2 ^ 20 -> written B cap lz unlz sched reads s l ->
  keeps_up sched \/ all_cached B cap s -> In (x, p) l ->
  exists d s', cmp B cap false lz unlz sched p y s = Some (d, s') /\ (d ?= 0) = lex x y.
Proof.
  intros B cap lz unlz sched reads s l x p y Hcap Hlz HB W Hc Hi.
  destruct (written_inv B cap lz unlz sched Hcap Hlz HB reads s l W (or_intror Hc)) as (init & c & I).
  pose proof (INV_ok B cap lz sched Hcap HB _ _ _ _ I Hc) as K. destruct I as (W1 & Hne & L1 & L2).
  pose proof (WI_full B cap lz _ _ _ W1) as HF. destruct (L1 _ _ Hi) as (tl & Ht).
  destruct (cmp_ok B cap false lz unlz sched Hcap Hlz HB _ _ HF s p x tl y K Ht) as (d & s' & E & Ed & _). eauto.
Qed.
Print Assumptions C21_cmp_is_the_order_partial.

(** ** C22 *)
(** A closed buffer can be opened again, with any size of the cache, and after any history of lookups get() and cmp()
    answer for every string as before.  The number of bytes must not be a multiple of the block size. *)
Theorem C22_closed_and_opened_partial : forall B cap lz unlz sched reads s l,
  5 <= cap -> codec lz unlz -> 16 <= B <= 2 ^ 20 -> written B cap lz unlz sched reads s l ->
  reads = false \/ keeps_up sched \/ all_cached B cap s -> s_usize s mod B <> 0 -> s_usize s < 2 ^ 64 ->
  exists file idx, sb_close B cap lz sched s = Some (file, idx) /\
  (zlength file < 2 ^ 64 -> forall cap' sched', 5 <= cap' ->
    (exists s1, sb_open file idx = Some s1 /\ s_usize s1 = s_usize s) /\
    forall s2, opened B cap' lz unlz sched' file idx l s2 -> forall x p, In (x, p) l ->
      (exists s3, get B cap' true lz unlz sched' p s2 = Some (x, s3)) /\
      (forall y, exists d s3, cmp B cap' true lz unlz sched' p y s2 = Some (d, s3) /\ (d ?= 0) = lex x y)).
Proof.
  intros B cap lz unlz sched reads s l Hcap Hlz HB W Hc Hu Hu2.
  destruct (written_inv B cap lz unlz sched Hcap Hlz HB reads s l W Hc) as (init & c & I).
  pose proof (close_ok B cap lz sched Hcap HB _ _ _ _ I Hu) as E. destruct I as (W1 & Hne & L1 & L2).
  pose proof (WI_full B cap lz _ _ _ W1) as HF.
  do 2 eexists. split; [exact E|]. intros Hf cap' sched' Hcap'. rewrite (wi_size _ _ _ _ _ _ W1) in *. set (bl := init ++ [c]) in *. split.
  - destruct (open_ok B cap' lz unlz sched' bl _ Hcap' Hlz HB HF eq_refl Hu Hu2 Hf) as (s1 & E1 & _ & E2). eauto.
  - intros s2 O2 x p Hi. pose proof (opened_inv B cap' lz unlz sched' Hcap' Hlz HB bl HF Hu Hu2 Hf l L1 s2 O2) as K.
    destruct (L1 _ _ Hi) as (tl & Ht). split.
    + destruct (get_ok B cap' true lz unlz sched' Hcap' Hlz HB _ _ HF s2 p x tl K Ht) as [(s' & E1 & _)|(_ & _ & E1)]; [eauto|congruence].
    + intros y. destruct (cmp_ok B cap' true lz unlz sched' Hcap' Hlz HB _ _ HF s2 p x tl y K Ht) as (d & s' & E1 & Ed & _). eauto.
Qed.
Print Assumptions C22_closed_and_opened_partial.

(** ** Concrete buffers *)
Inductive op := Put (x : list Z) | Get (p : Z) | Cmp (p : Z) (x : list Z).
Section Run.
Variables B cap : Z.
Variable lz : list Z -> list Z.
Variable unlz : list Z -> Z -> option (list Z).
Variable sched : nat -> nat.
Fixpoint run (ops : list op) (s : sb) (l : list (list Z * Z)) : option (sb * list (list Z * Z)) :=
  match ops with
  | [] => Some (s, l)
  | Put x :: r => if zlength x <=? B then match append B cap false lz sched x s with Some s' => run r s' (l ++ [(x, s_usize s)]) | None => None end else None
  | Get p :: r => if existsb (Z.eqb p) (map snd l) then match get B cap false lz unlz sched p s with Some (_, s') => run r s' l | None => None end else None
  | Cmp p x :: r => if existsb (Z.eqb p) (map snd l) then match cmp B cap false lz unlz sched p x s with Some (_, s') => run r s' l | None => None end else None
  end.
Lemma run_written ops : forall s l s' l', written B cap lz unlz sched true s l -> run ops s l = Some (s', l') -> written B cap lz unlz sched true s' l'.
Proof.
  assert (Hex : forall p (l : list (list Z * Z)), existsb (Z.eqb p) (map snd l) = true -> In p (map snd l)).
  { intros p l H. apply existsb_exists in H. destruct H as (q & Hq & E). apply Z.eqb_eq in E. subst. auto. }
  induction ops as [|o ops IH]; intros s l s' l' W H; cbn [run] in H; [congruence|]. destruct o as [x|p|p x].
  - destruct (Z.leb_spec (zlength x) B); [|discriminate]. destruct (append B cap false lz sched x s) eqn:E; [|discriminate]. eapply IH; [|exact H]. eapply written_append; eauto.
  - destruct (existsb _ _) eqn:X; [|discriminate]. destruct (get B cap false lz unlz sched p s) as [(y & s1)|] eqn:E; [|discriminate]. eapply IH; [|exact H]. eapply written_get; eauto.
  - destruct (existsb _ _) eqn:X; [|discriminate]. destruct (cmp B cap false lz unlz sched p x s) as [(y & s1)|] eqn:E; [|discriminate]. eapply IH; [|exact H]. eapply written_cmp; eauto.
Qed.
Definition from_new (ops : list op) : option (sb * list (list Z * Z)) := match sb_new cap sched with Some s => run ops s [] | None => None end.
Lemma from_new_written ops s l : from_new ops = Some (s, l) -> written B cap lz unlz sched true s l.
Proof. unfold from_new. destruct (sb_new cap sched) eqn:E; [|discriminate]. apply run_written. now constructor. Qed.
End Run.

(** A compression that leaves a block as it is. *)
Definition plain (c : list Z) : list Z := c.
Definition unplain (c : list Z) (n : Z) : option (list Z) := if zlength c <=? n then Some c else None.
Lemma plain_codec : codec plain unplain.
Proof. intros c n. reflexivity. Qed.

Fixpoint eql (a b : list Z) : bool := match a, b with [], [] => true | x :: a, y :: b => (x =? y) && eql a b | _, _ => false end.
Lemma eql_refl a : eql a a = true.
Proof. induction a; cbn; [auto|]. rewrite Z.eqb_refl. auto. Qed.
Definition differs (r : option (list Z * sb)) (x : list Z) : bool := match r with Some (y, _) => negb (eql y x) | None => true end.
Lemma differs_ok r x : differs r x = true -> forall s', r <> Some (x, s').
Proof. intros H s' ->. cbn in H. rewrite eql_refl in H. discriminate. Qed.
Definition rep (v n : Z) : list Z := repeat v (Z.to_nat n).

Definition slow : nat -> nat := fun _ => 0%nat.
Definition fast : nat -> nat := fun _ => 9%nat.
Lemma fast_keeps_up : keeps_up fast.
Proof. intros t. unfold fast. lia. Qed.

(** Blocks of 16 bytes, four strings with shared prefixes over three blocks, lookups in between. *)
Definition words : list op :=
  [Put [1; 2; 3; 4; 5; 6]; Put [1; 2; 3; 4; 5; 7; 8]; Get 0; Put [1; 2; 3; 4; 5; 7; 8; 9; 9; 9]; Cmp 8 [1; 2]; Put [2; 2; 2; 2; 2; 2; 2; 2]; Get 14].
Example C20_C21_words : exists s l, written 16 5 plain unplain slow true s l /\ all_cached 16 5 s /\ s_usize s mod 16 <> 0 /\
  map snd l = [0; 8; 14; 23] /\ match get 16 5 false plain unplain slow 14 s with Some (x, _) => x = [1; 2; 3; 4; 5; 7; 8; 9; 9; 9] | None => False end /\
  match cmp 16 5 false plain unplain slow 14 [1; 2; 3; 4; 5; 7; 8; 9; 10] s with Some (d, _) => d < 0 | None => False end.
Proof.
  destruct (from_new 16 5 plain unplain slow words) as [(s & l)|] eqn:E; [|vm_compute in E; discriminate].
  exists s, l. split; [eapply from_new_written; exact E|]. vm_compute in E. injection E as <- <-. vm_compute. repeat split; discriminate.
Qed.
Example C22_words : match from_new 16 5 plain unplain slow words with
  | Some (s, l) => match sb_close 16 5 plain slow s with
    | Some (file, idx) => match sb_open file idx with
      | Some s1 => match get 16 5 true plain unplain slow 23 s1 with Some (x, _) => x = [2; 2; 2; 2; 2; 2; 2; 2] | None => False end
      | None => False end
    | None => False end
  | None => False end.
Proof. vm_compute. reflexivity. Qed.

(** ** What does not hold, with the block size of the code *)
(** A thread that lags behind: six strings fill six blocks.  A block that leaves the cache before the blocks after it
    have been compressed is read back with the size of the last block (lines 382-385). *)
Definition six : list op := map (fun v => Put (rep v 65000)) [1; 2; 3; 4; 5; 6] ++ [Get 0; Get 65004].
Lemma found x p ops B cap lz unlz sched : forall s l, from_new B cap lz unlz sched ops = Some (s, l) ->
  existsb (fun e => eql (fst e) x && (snd e =? p)) l = true -> exists y, In (y, p) l /\ eql y x = true.
Proof.
  intros s l _ H. apply existsb_exists in H. destruct H as ((y & q) & Hi & E). cbn in E. apply andb_true_iff in E. destruct E as (E1 & E2). apply Z.eqb_eq in E2. subst q. eauto.
Qed.
Lemma eql_eq a : forall b, eql a b = true -> a = b.
Proof. induction a as [|x a IH]; intros [|y b] H; cbn in H; try discriminate; [auto|]. apply andb_true_iff in H. destruct H as (H1 & H2). apply Z.eqb_eq in H1. apply IH in H2. congruence. Qed.

Theorem C20_get_with_a_slow_thread_refuted : exists s l x p,
  written 65536 5 plain unplain slow true s l /\ In (x, p) l /\ s_usize s mod 65536 <> 0 /\
  forall s', get 65536 5 false plain unplain slow p s <> Some (x, s').
Proof.
  destruct (from_new 65536 5 plain unplain slow six) as [(s & l)|] eqn:E.
  2:{ exfalso. assert (H : match from_new 65536 5 plain unplain slow six with Some _ => true | None => false end = true) by (vm_compute; reflexivity). rewrite E in H. discriminate. }
  assert (H : match from_new 65536 5 plain unplain slow six with
    | Some (s, l) => existsb (fun e => eql (fst e) (rep 3 65000) && (snd e =? 130008)) l && negb (s_usize s mod 65536 =? 0) && differs (get 65536 5 false plain unplain slow 130008 s) (rep 3 65000)
    | None => false end = true) by (vm_compute; reflexivity).
  rewrite E in H. apply andb_true_iff in H. destruct H as (H & H3). apply andb_true_iff in H. destruct H as (H1 & H2).
  destruct (found _ _ _ _ _ _ _ _ _ _ E H1) as (y & Hy & Ey). apply eql_eq in Ey. subst y.
  exists s, l, (rep 3 65000), 130008. split; [eapply from_new_written; exact E|]. split; [exact Hy|]. split; [|apply differs_ok, H3].
  intros X. rewrite X in H2. discriminate.
Qed.
Print Assumptions C20_get_with_a_slow_thread_refuted.

(** The empty string as the last one, ending at the end of a block (lines 467-471 ask for the next block). *)
Theorem C20_empty_string_at_the_end_of_a_block_refuted : exists s l p,
  written 65536 5 plain unplain fast true s l /\ In ([], p) l /\ all_cached 65536 5 s /\
  forall s', get 65536 5 false plain unplain fast p s <> Some ([], s').
Proof.
  set (ops := [Put (rep 7 65530); Put []]).
  destruct (from_new 65536 5 plain unplain fast ops) as [(s & l)|] eqn:E.
  2:{ exfalso. assert (H : match from_new 65536 5 plain unplain fast ops with Some _ => true | None => false end = true) by (vm_compute; reflexivity). rewrite E in H. discriminate. }
  assert (H : match from_new 65536 5 plain unplain fast ops with
    | Some (s, l) => existsb (fun e => eql (fst e) [] && (snd e =? 65534)) l && (s_usize s <=? 5 * 65536) && differs (get 65536 5 false plain unplain fast 65534 s) []
    | None => false end = true) by (vm_compute; reflexivity).
  rewrite E in H. apply andb_true_iff in H. destruct H as (H & H3). apply andb_true_iff in H. destruct H as (H1 & H2).
  destruct (found _ _ _ _ _ _ _ _ _ _ E H1) as (y & Hy & Ey). apply eql_eq in Ey. subst y.
  exists s, l, 65534. split; [eapply from_new_written; exact E|]. split; [exact Hy|]. split; [apply Z.leb_le, H2|apply differs_ok, H3].
Qed.
Print Assumptions C20_empty_string_at_the_end_of_a_block_refuted.

(** A string that is longer than two blocks overruns the buffer (lines 305-320). *)
Theorem C20_append_of_a_long_string_refuted : exists s x,
  written 65536 5 plain unplain fast true s [] /\ append 65536 5 false plain fast x s = None.
Proof.
  destruct (from_new 65536 5 plain unplain fast []) as [(s & l)|] eqn:E; [|vm_compute in E; discriminate].
  exists s, (rep 7 131073). pose proof (from_new_written _ _ _ _ _ _ _ _ E) as W. vm_compute in E. injection E as <- <-. split; [exact W|]. vm_compute. reflexivity.
Qed.
Print Assumptions C20_append_of_a_long_string_refuted.

(** A buffer whose size is a multiple of the block size loses its last block when it is closed (lines 585-588). *)
Theorem C22_full_last_block_is_lost_refuted : exists s l x p file idx s1,
  written 65536 5 plain unplain fast true s l /\ In (x, p) l /\
  sb_close 65536 5 plain fast s = Some (file, idx) /\ sb_open file idx = Some s1 /\ file = [] /\
  forall s', get 65536 5 true plain unplain fast p s1 <> Some (x, s').
Proof.
  set (ops := [Put (rep 7 65532)]). set (x := rep 7 65532).
  destruct (from_new 65536 5 plain unplain fast ops) as [(s & l)|] eqn:E.
  2:{ exfalso. assert (H : match from_new 65536 5 plain unplain fast ops with Some _ => true | None => false end = true) by (vm_compute; reflexivity). rewrite E in H. discriminate. }
  assert (H : match from_new 65536 5 plain unplain fast ops with
    | Some (s, l) => existsb (fun e => eql (fst e) x && (snd e =? 0)) l && 
       match sb_close 65536 5 plain fast s with Some (file, idx) => eql file [] && match sb_open file idx with Some s1 => differs (get 65536 5 true plain unplain fast 0 s1) x | None => false end | None => false end
    | None => false end = true) by (vm_compute; reflexivity).
  rewrite E in H. apply andb_true_iff in H. destruct H as (H1 & H2).
  destruct (found _ _ _ _ _ _ _ _ _ _ E H1) as (y & Hy & Ey). apply eql_eq in Ey. subst y.
  destruct (sb_close 65536 5 plain fast s) as [(file & idx)|] eqn:E2; [|discriminate].
  apply andb_true_iff in H2. destruct H2 as (H2 & H3). destruct (sb_open file idx) as [s1|] eqn:E3; [|discriminate].
  exists s, l, x, 0, file, idx, s1. split; [eapply from_new_written; exact E|]. split; [exact Hy|]. split; [exact E2|]. split; [exact E3|]. split; [apply eql_eq, H2|apply differs_ok, H3].
Qed.
Print Assumptions C22_full_last_block_is_lost_refuted.
