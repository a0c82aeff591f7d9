From Verif Require Import ItrModel UtilModel UtilSpec UtilProofs SessModel SessSpec.
Local Open Scope Z_scope.

Lemma sset_len l i v : length (set_sess l i v) = length l.
Proof. revert i; induction l; destruct i; cbn; auto. Qed.
Lemma sset_nth l i v j : (i < length l)%nat -> nth_error (set_sess l i v) j = if Nat.eqb j i then Some v else nth_error l j.
Proof.
  revert i j; induction l as [|x l IH]; intros i j H; [cbn in H; lia|]. destruct i, j; cbn; auto. apply IH. cbn in H. lia.
Qed.
Lemma sset_count l i v w x : nth_error l i = Some x ->
  Z.of_nat (count_occ Z.eq_dec (set_sess l i v) w) =
  Z.of_nat (count_occ Z.eq_dec l w) - (if x =? w then 1 else 0) + (if v =? w then 1 else 0).
Proof.
  revert i; induction l as [|y l IH]; intros [|i] H; try discriminate; cbn [nth_error set_sess count_occ] in *.
  - injection H as ->. destruct (Z.eq_dec x w), (Z.eq_dec v w), (Z.eqb_spec x w), (Z.eqb_spec v w); try congruence; lia.
  - specialize (IH _ H). destruct (Z.eq_dec y w); lia.
Qed.

Record SInv (n : nat) (max : Z) (ns : nat) (s : fm) : Prop := {
  si_mm : MInv n max (f_mm s);
  si_open : forall id t, f_open s id = Some t -> exists b, slot (f_mm s) t = Some b /\ b_parent b = id;
  si_blk : forall t b, slot (f_mm s) t = Some b -> f_open s (b_parent b) = Some t;
  si_lock : forall t b, slot (f_mm s) t = Some b -> b_lock b = sessions_on s t;
  si_sess : forall k v, nth_error (f_sess s) k = Some v -> v = FREE \/ v = EMPTY \/ exists t b, v = Z.of_nat t /\ slot (f_mm s) t = Some b;
  si_len : length (f_sess s) = ns
}.

Lemma slot_lt m t b : slot m t = Some b -> (t < length (m_blocks m))%nat.
Proof. apply slot_some. Qed.

Lemma count_repeat v w n : v <> w -> count_occ Z.eq_dec (repeat v n) w = 0%nat.
Proof. intros H. induction n; cbn; auto. destruct (Z.eq_dec v w); [congruence|auto]. Qed.
Lemma sess_new slots bytes ns mf : SInv slots bytes ns (fm_new slots bytes ns mf).
Proof.
  assert (Hn : forall t, slot (f_mm (fm_new slots bytes ns mf)) t = None).
  { intros t. unfold slot. cbn [f_mm fm_new mm_new m_blocks]. destruct (nth_in_or_default t (repeat (@None mblock) slots) None) as [H|H]; auto.
    now apply repeat_spec in H. }
  split; auto.
  - apply mm_new_inv.
  - discriminate.
  - intros t b. rewrite Hn. discriminate.
  - intros t b. rewrite Hn. discriminate.
  - intros k v H. apply nth_error_In in H. cbn in H. apply repeat_spec in H. auto.
  - cbn. apply repeat_length.
Qed.

(** Sessions and locks. *)
Lemma free_neg (t : nat) : FREE <> Z.of_nat t. Proof. unfold FREE. lia. Qed.
Lemma empty_neg (t : nat) : EMPTY <> Z.of_nat t. Proof. unfold EMPTY. lia. Qed.

Lemma nth_err (l : list Z) i d : (i < length l)%nat -> nth_error l i = Some (nth i l d).
Proof. intros H. destruct (nth_error l i) eqn:E. - f_equal. symmetry. eapply nth_error_nth; eauto. - apply nth_error_None in E. lia. Qed.

Lemma ns_some f l a b k : (0 < length l)%nat -> (a < length l)%nat -> ns_loop f l a = (b, Some k) -> (k < length l)%nat /\ nth k l 0 = FREE.
Proof.
  revert a; induction f as [|f IH]; intros a Hl Ha E; cbn [ns_loop] in E.
  - destruct (Z.eqb_spec (nth a l 0) FREE); [|discriminate]. injection E as <- <-. auto.
  - destruct (Z.eqb_spec (nth a l 0) FREE); [injection E as <- <-; auto|]. eapply IH; [| |exact E]; auto. apply Nat.mod_upper_bound. lia.
Qed.
Lemma ns_none f l a b : (a < length l)%nat -> ns_loop f l a = (b, None) ->
  forall d, (d <= f)%nat -> nth ((a + d) mod length l) l 0 <> FREE.
Proof.
  revert a; induction f as [|f IH]; intros a Ha E d Hd; cbn [ns_loop] in E.
  - assert (d = 0)%nat by lia. subst. rewrite Nat.add_0_r, Nat.mod_small by auto. destruct (Z.eqb_spec (nth a l 0) FREE); [discriminate|auto].
  - destruct (Z.eqb_spec (nth a l 0) FREE); [discriminate|]. destruct d as [|d].
    + rewrite Nat.add_0_r, Nat.mod_small by auto. auto.
    + specialize (IH _ ltac:(apply Nat.mod_upper_bound; lia) E d ltac:(lia)). rewrite Nat.add_mod_idemp_l in IH by lia.
      replace (a + S d)%nat with (S a + d)%nat by lia. exact IH.
Qed.
Lemma ns_last f l a b : (0 < length l)%nat -> (a < length l)%nat -> ns_loop f l a = (b, None) -> (b < length l)%nat.
Proof.
  revert a; induction f as [|f IH]; intros a Hl Ha E; cbn [ns_loop] in E; destruct (nth a l 0 =? FREE); try discriminate.
  - injection E as <-. apply Nat.mod_upper_bound. lia.
  - eapply IH; [| |exact E]; auto. apply Nat.mod_upper_bound. lia.
Qed.

(** The invariant of the session cursor. *)
Definition last_ok (s : fm) : Prop := (f_last s < length (f_sess s))%nat.

Lemma new_session_inv n max ns s s' r : (0 < ns)%nat -> SInv n max ns s -> last_ok s -> new_session s = (s', r) ->
  SInv n max ns s' /\ last_ok s' /\ f_mm s' = f_mm s /\ f_open s' = f_open s /\
  match r with
  | Some k => nth_error (f_sess s) k = Some FREE /\ f_sess s' = set_sess (f_sess s) k EMPTY
  | None => f_sess s' = f_sess s /\ forall k v, nth_error (f_sess s) k = Some v -> v <> FREE
  end.
Proof.
  intros Hns HI Hl E. pose proof (si_len _ _ _ _ HI) as Hlen. unfold new_session in E.
  destruct (ns_loop (length (f_sess s)) (f_sess s) (f_last s)) as [b [k|]] eqn:El; injection E as <- <-.
  - apply ns_some in El; [|lia|exact Hl]. destruct El as [Hk Ek]. assert (En : nth_error (f_sess s) k = Some FREE) by (rewrite (nth_err _ _ 0) by auto; congruence).
    split; [split|]; cbn [f_mm f_open f_sess f_last]; auto.
    + apply (si_mm _ _ _ _ HI).
    + apply (si_open _ _ _ _ HI).
    + apply (si_blk _ _ _ _ HI).
    + intros t b0 Hb. rewrite (si_lock _ _ _ _ HI t b0 Hb). unfold sessions_on. cbn [f_sess]. rewrite (sset_count _ _ _ _ _ En).
      pose proof (free_neg t). pose proof (empty_neg t). destruct (Z.eqb_spec FREE (Z.of_nat t)), (Z.eqb_spec EMPTY (Z.of_nat t)); try congruence. lia.
    + intros j v. rewrite sset_nth by auto. destruct (Nat.eqb j k); [intros [= <-]; auto|apply (si_sess _ _ _ _ HI)].
    + now rewrite sset_len.
    + split; [|auto]. unfold last_ok. cbn [f_sess f_last]. rewrite sset_len. apply Nat.mod_upper_bound. lia.
  - assert (Hpos : (0 < length (f_sess s))%nat) by lia. pose proof (ns_last _ _ _ _ Hpos Hl El) as Hb. split; [split; apply HI|]. split; [exact Hb|]. cbn [f_mm f_open f_sess]. repeat (split; auto).
    intros k v Hk Hv. assert (Hkl : (k < length (f_sess s))%nat) by (apply nth_error_Some; congruence).
    set (m := length (f_sess s)) in *. unfold last_ok in Hl. fold m in Hl.
    set (d := ((k + m - f_last s) mod m)%nat).
    assert (Hd : (d < m)%nat) by (apply Nat.mod_upper_bound; lia).
    pose proof (ns_none _ _ _ _ Hl El d ltac:(unfold m in *; lia)) as H. fold m in H.
    assert (Ed : ((f_last s + d) mod m = k)%nat).
    { unfold d. rewrite Nat.add_mod_idemp_r by lia. replace (f_last s + (k + m - f_last s))%nat with (k + 1 * m)%nat by lia.
      rewrite Nat.mod_add by lia. now apply Nat.mod_small. }
    rewrite Ed in H. rewrite (nth_err _ _ 0) in Hk by auto. congruence.
Qed.

(** Releasing the lock of one session. *)
Definition releases (v : Z) (m : mm) : option mm := if 0 <=? v then mm_releaseLock (Z.to_nat v) m else Some m.
Lemma releases_inv n max ns s k v : SInv n max ns s -> nth_error (f_sess s) k = Some v -> exists m,
  releases v (f_mm s) = Some m /\ MInv n max m /\
  forall t, slot m t = match slot (f_mm s) t with
                       | None => None
                       | Some b => Some (mkBlk (b_elem b) (b_parent b) (b_bytes b) (b_lock b - (if v =? Z.of_nat t then 1 else 0)))
                       end.
Proof.
  intros HI Hk. unfold releases. destruct (si_sess _ _ _ _ HI k v Hk) as [-> |[-> |(t & b & -> & Hb)]].
  - exists (f_mm s). split; auto. split; [apply HI|]. intros t. destruct (slot (f_mm s) t) as [[e p by_ lk]|]; auto. cbn [b_elem b_parent b_bytes b_lock].
    destruct (Z.eqb_spec FREE (Z.of_nat t)) as [E|E]; [destruct (free_neg _ E)|]. do 2 f_equal. lia.
  - exists (f_mm s). split; auto. split; [apply HI|]. intros t. destruct (slot (f_mm s) t) as [[e p by_ lk]|]; auto. cbn [b_elem b_parent b_bytes b_lock].
    destruct (Z.eqb_spec EMPTY (Z.of_nat t)) as [E|E]; [destruct (empty_neg _ E)|]. do 2 f_equal. lia.
  - rewrite (proj2 (Z.leb_le 0 (Z.of_nat t))), Nat2Z.id by lia. unfold mm_releaseLock.
    destruct (mm_lock (-1) t (f_mm s)) as [m|] eqn:E; [|unfold mm_lock in E; rewrite Hb in E; discriminate].
    exists m. split; auto. destruct (lock_inv _ _ _ _ _ _ (si_mm _ _ _ _ HI) E) as (HI1 & b' & Eb & _ & _ & H). split; auto.
    intros t'. rewrite H. destruct (Nat.eqb_spec t' t) as [-> |Hne].
    + rewrite Eb, Z.eqb_refl. do 2 f_equal.
    + destruct (Z.eqb_spec (Z.of_nat t) (Z.of_nat t')); [lia|]. destruct (slot (f_mm s) t') as [[e p by_ lk]|]; auto. cbn [b_elem b_parent b_bytes b_lock]. do 2 f_equal. lia.
Qed.

Lemma close_session_inv n max ns s k : SInv n max ns s -> (k < ns)%nat -> exists s', close_session k s = Some s' /\
  SInv n max ns s' /\ f_open s' = f_open s /\ f_last s' = f_last s /\ f_sess s' = set_sess (f_sess s) k FREE /\
  (forall t b, slot (f_mm s) t = Some b -> exists b', slot (f_mm s') t = Some b' /\ b_parent b' = b_parent b).
Proof.
  intros HI Hk. rewrite <- (si_len _ _ _ _ HI) in Hk. pose proof (nth_err _ _ 0 Hk) as Ev. set (v := nth k (f_sess s) 0) in *.
  destruct (releases_inv _ _ _ _ _ _ HI Ev) as (m & Em & HM & Hs). unfold close_session. rewrite Ev. fold (releases v (f_mm s)). rewrite Em.
  eexists. split; [reflexivity|]. cbn [with_sess with_mm f_open f_last f_sess f_mm]. split; [split|repeat (split; auto)]; cbn [with_sess with_mm f_open f_last f_sess f_mm].
  - exact HM.
  - intros id t Ho. destruct (si_open _ _ _ _ HI id t Ho) as (b & Hb & Hp). rewrite Hs, Hb. eexists; split; eauto.
  - intros t b. rewrite Hs. destruct (slot (f_mm s) t) as [b0|] eqn:E0; [|discriminate]. intros [= <-]. cbn. now apply (si_blk _ _ _ _ HI).
  - intros t b. rewrite Hs. destruct (slot (f_mm s) t) as [b0|] eqn:E0; [|discriminate]. intros [= <-]. cbn [b_lock].
    rewrite (si_lock _ _ _ _ HI t b0 E0). unfold sessions_on. cbn [f_sess with_sess with_mm]. rewrite (sset_count _ _ _ _ _ Ev).
    pose proof (free_neg t). destruct (Z.eqb_spec FREE (Z.of_nat t)); [congruence|]. lia.
  - intros j w. rewrite sset_nth by auto. destruct (Nat.eqb j k); [intros [= <-]; auto|]. intros Hj.
    destruct (si_sess _ _ _ _ HI j w Hj) as [? |[? |(t & b & -> & Hb)]]; auto. right. right. exists t. rewrite Hs, Hb. eauto.
  - rewrite sset_len. apply HI.
  - intros t b Hb. rewrite Hs, Hb. eauto.
Qed.

(** Closing files. *)
Lemma lf_some fuel m o l n idx first l1 n1 x rem : lf_loop fuel m o l n idx first = Some (l1, n1, x, rem) ->
  rem = true -> exists t, o x = Some t /\ mm_isUsed t m = Some false.
Proof.
  revert l n idx first; induction fuel as [|f IH]; intros l n idx first E Hr; [discriminate|]. cbn [lf_loop] in E.
  destruct (o idx) as [t|] eqn:Eo.
  - destruct (mm_isUsed t m) as [[|]|] eqn:Eu; [|injection E as <- <- <- <-; eauto|discriminate].
    destruct (l ++ [idx]) as [|y l2]; [discriminate|].
    match type of E with context [if ?c then _ else _] => destruct c end; [injection E as <- <- <- <-; discriminate|]. eapply IH; eauto.
  - destruct l as [|y l2]; [discriminate|].
    match type of E with context [if ?c then _ else _] => destruct c end; [injection E as <- <- <- <-; discriminate|]. eapply IH; eauto.
Qed.

Lemma lf_ends2 m o y (Hm : forall x t, o x = Some t -> mm_isUsed t m <> None) : forall l1 fuel l2 n idx, (length l1 < fuel)%nat ->
  lf_loop fuel m o (l1 ++ y :: l2) n idx (Some y) <> None.
Proof.
  induction l1 as [|x l1 IH]; intros fuel l2 n idx Hf; (destruct fuel as [|f]; [cbn in Hf; lia|]); cbn [lf_loop app].
  - destruct (o idx) as [t|] eqn:Eo; [specialize (Hm idx t Eo); destruct (mm_isUsed t m) as [[|]|]; try congruence|]; cbn [app]; rewrite Nat.eqb_refl; discriminate.
  - destruct (o idx) as [t|] eqn:Eo; [pose proof (Hm idx t Eo); destruct (mm_isUsed t m) as [[|]|]; try congruence|]; cbn [app];
      (destruct (Nat.eqb x y); [discriminate|]); rewrite <- ?app_assoc; cbn [app]; apply IH; cbn in Hf; lia.
Qed.
Lemma lf_ends m o (Hm : forall x t, o x = Some t -> mm_isUsed t m <> None) : forall l fuel n idx, (2 * length l + 2 <= fuel)%nat ->
  (exists x, In x (idx :: l) /\ o x <> None) -> lf_loop fuel m o l n idx None <> None.
Proof.
  induction l as [|y l IH]; intros fuel n idx Hf (x & Hx & Ho); (destruct fuel as [|f]; [lia|]); cbn [lf_loop].
  - destruct Hx as [-> |[]]. destruct (o x) as [t|] eqn:Eo; [|congruence]. pose proof (Hm x t Eo). destruct (mm_isUsed t m) as [[|]|]; try congruence.
    cbn. rewrite Nat.eqb_refl. discriminate.
  - destruct (o idx) as [t|] eqn:Eo.
    + pose proof (Hm idx t Eo). destruct (mm_isUsed t m) as [[|]|]; try congruence. cbn [app]. destruct (Nat.eqb y idx); [discriminate|].
      apply lf_ends2; auto. cbn in Hf. lia.
    + apply IH; [cbn in Hf; lia|]. destruct Hx as [-> |Hx]; [congruence|]. eauto.
Qed.

Lemma close_one_inv n max ns s s' : SInv n max ns s -> close_one s = Some s' ->
  SInv n max ns s' /\ f_sess s' = f_sess s /\ f_last s' = f_last s /\ f_max s' = f_max s /\
  (forall id, f_open s id = None -> f_open s' id = None) /\
  (forall id t, f_open s id = Some t -> f_open s' id = Some t \/ (f_open s' id = None /\ sessions_on s t = 0)) /\
  (forall t b, slot (f_mm s') t = Some b -> slot (f_mm s) t = Some b) /\
  (forall t b, slot (f_mm s) t = Some b -> slot (f_mm s') t = Some b \/ sessions_on s t = 0).
Proof.
  intros HI E. unfold close_one in E. destruct (f_max s <=? f_n s); [|injection E as <-; repeat (split; auto)].
  destruct (f_list s) as [|x l]; [discriminate|]. destruct (match l with [] => true | _ => false end); [discriminate|].
  match type of E with context [lf_loop ?a ?b ?c ?d ?e ?f ?g] => destruct (lf_loop a b c d e f g) as [[[[l1 n1] idx] rem]|] eqn:El end; [|discriminate].
  destruct rem.
  2:{ injection E as <-. repeat (split; auto); apply HI. }
  destruct (lf_some _ _ _ _ _ _ _ _ _ _ _ El eq_refl) as (t & Eo & Eu). rewrite Eo in E. injection E as <-.
  unfold mm_isUsed in Eu. destruct (slot (f_mm s) t) as [b|] eqn:Eb; [|discriminate]. injection Eu as Eu. rewrite Z.ltb_ge in Eu.
  destruct (forget_inv _ _ t _ (si_mm _ _ _ _ HI)) as (HM & _ & Hs).
  assert (E0 : sessions_on s t = 0).
  { pose proof (si_lock _ _ _ _ HI t b Eb) as H. unfold sessions_on in *. lia. }
  cbn [f_mm f_open f_sess f_last f_max]. split; [|repeat (split; auto)].
  - split; cbn [f_mm f_open f_sess f_last].
    + exact HM.
    + intros id t'. unfold upd. destruct (Nat.eqb_spec id idx); [discriminate|]. intros Ho.
      destruct (si_open _ _ _ _ HI id t' Ho) as (b' & Hb & Hp). exists b'. rewrite Hs. destruct (Nat.eqb_spec t' t) as [-> |]; auto.
      exfalso. pose proof (si_blk _ _ _ _ HI t b' Hb) as H. destruct (si_open _ _ _ _ HI idx t Eo) as (b2 & Hb2 & Hp2). congruence.
    + intros t' b'. rewrite Hs. destruct (Nat.eqb_spec t' t); [discriminate|]. intros Hb. pose proof (si_blk _ _ _ _ HI t' b' Hb) as H.
      unfold upd. destruct (Nat.eqb_spec (b_parent b') idx) as [Ee|]; auto. rewrite Ee, Eo in H. congruence.
    + intros t' b'. rewrite Hs. destruct (Nat.eqb_spec t' t); [discriminate|]. intros Hb. now apply (si_lock _ _ _ _ HI).
    + intros k v Hk. destruct (si_sess _ _ _ _ HI k v Hk) as [? |[? |(t' & b' & Ev & Hb)]]; auto. right. right. exists t', b'. rewrite Hs.
      destruct (Nat.eqb_spec t' t) as [-> |]; auto. exfalso. subst v. unfold sessions_on in E0.
      apply nth_error_In in Hk. apply (count_occ_In Z.eq_dec) in Hk. lia.
    + apply HI.
  - intros id Ho. unfold upd. destruct (Nat.eqb id idx); auto.
  - intros id t' Ho. unfold upd. destruct (Nat.eqb_spec id idx) as [-> |]; auto. right. split; auto. congruence.
  - intros t' b'. rewrite Hs. destruct (Nat.eqb t' t); [discriminate|auto].
  - intros t' b' Hb. rewrite Hs. destruct (Nat.eqb_spec t' t) as [-> |]; auto.
Qed.

Lemma clear_dead_spec d o id : clear_dead o d id = if existsb (fun b => Nat.eqb id (b_parent b)) d then None else o id.
Proof.
  induction d as [|b d IH]; cbn [clear_dead fold_right existsb]; auto. unfold upd at 1. destruct (Nat.eqb id (b_parent b)); auto.
Qed.
Lemma evicted_spec m m' dead : m_dead m' = dead ++ m_dead m -> evicted m m' = dead.
Proof. intros E. unfold evicted. rewrite E, app_length. replace (length dead + length (m_dead m) - length (m_dead m))%nat with (length dead + 0)%nat by lia. rewrite firstn_app_2. apply app_nil_r. Qed.

Lemma load_inv n max ns id size s s' : (0 < n)%nat -> 0 <= size -> SInv n max ns s -> load_file id size s = Some s' ->
  SInv n max ns s' /\ f_sess s' = f_sess s /\ f_last s' = f_last s /\
  (exists t, f_open s' id = Some t) /\
  (forall j, j <> id -> f_open s j = None -> f_open s' j = None) /\
  (forall j t, f_open s j = Some t -> f_open s' j = Some t \/ (f_open s' j = None /\ sessions_on s t = 0)) /\
  (forall t b, slot (f_mm s) t = Some b -> slot (f_mm s') t = Some b \/ sessions_on s t = 0).
Proof.
  intros Hn Hz HI E. unfold load_file in E. destruct (f_open s id) as [t0|] eqn:Eo; [injection E as <-; repeat (split; eauto)|].
  destruct (close_one s) as [s1|] eqn:E1; [|discriminate]. destruct (close_one_inv _ _ _ _ _ HI E1) as (HI1 & A1 & A2 & A3 & A4 & A5 & A6 & A7).
  destruct (mm_add size id id (f_mm s1)) as [[m t]|] eqn:Ea; [|discriminate]. injection E as <-.
  destruct (add_inv _ _ _ _ _ _ _ _ Hn (si_mm _ _ _ _ HI1) Hz Ea) as (HM & m1 & dead & (D1 & D2 & D3 & D4 & D5 & D6) & F1 & F2 & F3 & F4 & _).
  assert (Ee : evicted (f_mm s1) m = dead) by (apply evicted_spec; congruence).
  cbn [f_mm f_open f_sess f_last]. rewrite Ee.
  (* a file is cleared exactly if its block is gone *)
  assert (Hc : forall j t', f_open s1 j = Some t' -> (clear_dead (f_open s1) dead j = Some t' /\ slot m1 t' <> None) \/
    (clear_dead (f_open s1) dead j = None /\ slot m1 t' = None /\ sessions_on s1 t' = 0)).
  { intros j t' Hj. rewrite clear_dead_spec. destruct (si_open _ _ _ _ HI1 j t' Hj) as (b & Hb & Hp).
    destruct (existsb (fun b => Nat.eqb j (b_parent b)) dead) eqn:Ex.
    - apply existsb_exists in Ex. destruct Ex as (b1 & Hb1 & Hp1). apply Nat.eqb_eq in Hp1.
      destruct (D6 b1 Hb1) as (i & G1 & G2). pose proof (si_blk _ _ _ _ HI1 i b1 G1) as G3. rewrite <- Hp1, Hj in G3. injection G3 as <-.
      right. repeat split; auto. rewrite Forall_forall in D2. specialize (D2 b1 Hb1). pose proof (si_lock _ _ _ _ HI1 t' b1 G1) as G4. unfold sessions_on in *. lia.
    - left. split; auto. destruct (D4 t' b Hb) as [H|[H1 H2]]; [congruence|]. exfalso.
      assert (Hx : existsb (fun b => Nat.eqb j (b_parent b)) dead = true); [|congruence]. apply existsb_exists. exists b. split; auto. apply Nat.eqb_eq. auto. }
  assert (Hnone : clear_dead (f_open s1) dead id = None).
  { rewrite clear_dead_spec. destruct (existsb _ dead); auto. }
  assert (Ht : forall b, slot (f_mm s1) t = Some b -> In b dead /\ sessions_on s1 t = 0).
  { intros b Hb. destruct (D4 t b Hb) as [H|[H1 H2]]; [congruence|]. split; auto. rewrite Forall_forall in D2. specialize (D2 b H2). pose proof (si_lock _ _ _ _ HI1 t b Hb) as G4. unfold sessions_on in *. lia. }
  assert (Hd : forall t' b, slot (f_mm s1) t' = Some b -> slot m1 t' = Some b \/ (slot m1 t' = None /\ sessions_on s1 t' = 0)).
  { intros t' b Hb. destruct (D4 t' b Hb) as [H|[H1 H2]]; auto. right. split; auto. rewrite Forall_forall in D2. specialize (D2 b H2). pose proof (si_lock _ _ _ _ HI1 t' b Hb) as G4. unfold sessions_on in *. lia. }
  assert (Hs0 : sessions_on s1 t = 0).
  { destruct (slot (f_mm s1) t) as [b|] eqn:Eb; [now apply (Ht b)|]. unfold sessions_on. destruct (count_occ Z.eq_dec (f_sess s1) (Z.of_nat t)) eqn:Ec; auto. exfalso.
    assert (Hin : In (Z.of_nat t) (f_sess s1)) by (apply (count_occ_In Z.eq_dec); lia). apply In_nth_error in Hin. destruct Hin as [k Hk].
    destruct (si_sess _ _ _ _ HI1 k _ Hk) as [H|[H|(t' & b & H & Hb)]]; [unfold FREE in H; lia|unfold EMPTY in H; lia|]. apply Nat2Z.inj in H. congruence. }
  assert (Hon : forall t', sessions_on s1 t' = sessions_on s t') by (intros; unfold sessions_on; congruence).
  split; [|split; [auto|split; [auto|split; [|split; [|split]]]]].
  - split; cbn [f_mm f_open f_sess f_last].
    + exact HM.
    + intros j t'. unfold upd. destruct (Nat.eqb_spec j id) as [-> |Hj].
      * intros [= <-]. rewrite F4, Nat.eqb_refl. eexists; split; reflexivity.
      * intros Ho. destruct (f_open s1 j) as [t1|] eqn:Ej; [|rewrite clear_dead_spec, Ej in Ho; destruct (existsb _ dead); discriminate].
        destruct (Hc j t1 Ej) as [[H1 H2]|[H1 _]]; [|congruence]. rewrite H1 in Ho. injection Ho as <-.
        destruct (si_open _ _ _ _ HI1 j t1 Ej) as (b & Hb & Hp). exists b. split; auto. rewrite F4. destruct (Nat.eqb_spec t1 t) as [-> |]; [congruence|].
        destruct (Hd t1 b Hb) as [?|[? _]]; congruence.
    + intros t' b. rewrite F4. destruct (Nat.eqb_spec t' t) as [-> |Hne].
      * intros [= <-]. cbn [b_parent]. unfold upd. now rewrite Nat.eqb_refl.
      * intros Hb. pose proof (D3 t' b Hb) as Hb1. pose proof (si_blk _ _ _ _ HI1 t' b Hb1) as Hj.
        unfold upd. destruct (Nat.eqb_spec (b_parent b) id) as [Ei|_]; [rewrite Ei, A4 in Hj by auto; discriminate|].
        destruct (Hc _ _ Hj) as [[H1 _]|(_ & H2 & _)]; [auto|congruence].
    + intros t' b. rewrite F4. destruct (Nat.eqb_spec t' t) as [-> |Hne].
      * intros [= <-]. cbn [b_lock]. symmetry. exact Hs0.
      * intros Hb. pose proof (D3 t' b Hb) as Hb1. exact (si_lock _ _ _ _ HI1 t' b Hb1).
    + intros k v Hk. destruct (si_sess _ _ _ _ HI1 k v Hk) as [?|[?|(t' & b & Ev & Hb)]]; auto. right. right. exists t'. rewrite F4.
      destruct (Nat.eqb_spec t' t) as [-> |]; [eauto|]. exists b. split; auto. destruct (Hd t' b Hb) as [?|[_ H]]; auto. exfalso. subst v.
      unfold sessions_on in H. apply nth_error_In in Hk. apply (count_occ_In Z.eq_dec) in Hk. lia.
    + apply HI1.
  - exists t. unfold upd. now rewrite Nat.eqb_refl.
  - intros j Hj Ho. unfold upd. destruct (Nat.eqb_spec j id); [congruence|]. rewrite clear_dead_spec. destruct (existsb _ dead); auto.
  - intros j t' Ho. unfold upd. destruct (Nat.eqb_spec j id) as [-> |Hj]; [congruence|].
    destruct (A5 j t' Ho) as [H|[H1 H2]].
    + destruct (Hc j t' H) as [[H1 _]|(H1 & _ & H2)]; auto. right. split; auto. now rewrite <- Hon.
    + right. split; auto. rewrite clear_dead_spec. destruct (existsb _ dead); auto.
  - intros t' b Hb. destruct (A7 t' b Hb) as [H|H]; auto. rewrite F4. destruct (Nat.eqb_spec t' t) as [-> |].
    + right. now rewrite <- Hon.
    + destruct (Hd t' b H) as [?|[_ H1]]; auto. right. now rewrite <- Hon.
Qed.

Lemma ses_inv n max ns id size k s s' : (0 < n)%nat -> 0 <= size -> SInv n max ns s -> (k < ns)%nat -> get_buffer_ses id size k s = Some s' ->
  SInv n max ns s' /\ f_last s' = f_last s /\
  (exists t, f_open s' id = Some t /\ f_sess s' = set_sess (f_sess s) k (Z.of_nat t)) /\
  (forall j t, f_open s j = Some t -> f_open s' j = Some t \/ sessions_on s t = 0) /\
  (forall t b, slot (f_mm s) t = Some b -> (exists b', slot (f_mm s') t = Some b' /\ b_parent b' = b_parent b) \/ sessions_on s t = 0).
Proof.
  intros Hn Hz HI Hk E. unfold get_buffer_ses in E. destruct (load_file id size s) as [s1|] eqn:El; [|discriminate].
  destruct (load_inv _ _ _ _ _ _ _ Hn Hz HI El) as (HI1 & A1 & A2 & (t & At) & A4 & A5 & A6). rewrite At in E.
  assert (Hk1 : (k < length (f_sess s1))%nat) by (rewrite (si_len _ _ _ _ HI1); auto).
  pose proof (nth_err _ _ 0 Hk1) as Ev. set (v := nth k (f_sess s1) 0) in *. rewrite Ev in E.
  assert (Hset : forall l i (x : Z), nth_error l i = Some x -> set_sess l i x = l).
  { induction l as [|y l IH]; intros [|i] x H; cbn in *; try discriminate; [congruence|]. f_equal. now apply IH. }
  destruct (Z.eqb_spec v (Z.of_nat t)) as [Evt|Hvt].
  - injection E as <-. split; auto. split; auto. split; [exists t; split; auto; rewrite <- A1; symmetry; apply Hset; congruence|]. split.
    + intros j t' Hj. destruct (A5 j t' Hj) as [|[_ ]]; auto.
    + intros t' b Hb. destruct (A6 t' b Hb); eauto.
  - destruct (releases_inv _ _ _ _ _ _ HI1 Ev) as (m & Em & HM & Hs). fold (releases v (f_mm s1)) in E. rewrite Em in E.
    destruct (mm_addLock t m) as [m2|] eqn:E2; [|discriminate]. injection E as <-.
    destruct (lock_inv _ _ _ _ _ _ HM E2) as (HM2 & b2 & Eb2 & _ & _ & Hs2).
    assert (Hb : exists b1, slot (f_mm s1) t = Some b1 /\ b2 = mkBlk (b_elem b1) (b_parent b1) (b_bytes b1) (b_lock b1)).
    { rewrite Hs in Eb2. destruct (slot (f_mm s1) t) as [b1|]; [|discriminate]. exists b1. split; auto. injection Eb2 as <-.
      destruct (Z.eqb_spec v (Z.of_nat t)); [congruence|]. f_equal. lia. }
    destruct Hb as (b1 & Eb1 & Eb). cbn [with_sess with_mm f_open f_last f_sess f_mm].
    assert (Hsl : forall t' b, slot m2 t' = Some b -> exists b0, slot (f_mm s1) t' = Some b0 /\ b_parent b = b_parent b0 /\
      b_lock b = b_lock b0 - (if v =? Z.of_nat t' then 1 else 0) + (if Z.of_nat t =? Z.of_nat t' then 1 else 0)).
    { intros t' b. rewrite Hs2. destruct (Nat.eqb_spec t' t) as [-> |Hne].
      - intros [= <-]. exists b1. split; auto. subst b2. cbn [b_parent b_lock]. split; auto. rewrite Z.eqb_refl. destruct (Z.eqb_spec v (Z.of_nat t)); [congruence|]. lia.
      - rewrite Hs. destruct (slot (f_mm s1) t') as [b0|]; [|discriminate]. intros [= <-]. exists b0. cbn [b_parent b_lock]. repeat split; auto.
        destruct (Z.eqb_spec (Z.of_nat t) (Z.of_nat t')); lia. }
    assert (Hsl2 : forall t' b, slot (f_mm s1) t' = Some b -> exists b', slot m2 t' = Some b' /\ b_parent b' = b_parent b).
    { intros t' b Hb. rewrite Hs2. destruct (Nat.eqb_spec t' t) as [-> |Hne].
      - eexists. split; [reflexivity|]. cbn. subst b2. cbn. congruence.
      - rewrite Hs, Hb. eexists. split; [reflexivity|]. reflexivity. }
    split; [split|]; cbn [with_sess with_mm f_open f_last f_sess f_mm].
    + exact HM2.
    + intros j t' Hj. destruct (si_open _ _ _ _ HI1 j t' Hj) as (b & Hb & Hp). destruct (Hsl2 t' b Hb) as (b' & Hb' & Hp'). exists b'. split; auto. congruence.
    + intros t' b Hb. destruct (Hsl t' b Hb) as (b0 & Hb0 & -> & _). now apply (si_blk _ _ _ _ HI1).
    + intros t' b Hb. destruct (Hsl t' b Hb) as (b0 & Hb0 & _ & ->). rewrite (si_lock _ _ _ _ HI1 t' b0 Hb0).
      unfold sessions_on. cbn [with_sess f_sess]. rewrite (sset_count _ _ _ _ _ Ev). reflexivity.
    + intros j w. rewrite sset_nth by auto. destruct (Nat.eqb j k).
      * intros [= <-]. right. right. exists t. destruct (Hsl2 t b1 Eb1) as (b' & Hb' & _). eauto.
      * intros Hj. destruct (si_sess _ _ _ _ HI1 j w Hj) as [?|[?|(t' & b & -> & Hb)]]; auto. right. right. exists t'. destruct (Hsl2 t' b Hb) as (b' & Hb' & _). eauto.
    + rewrite sset_len. apply HI1.
    + split; auto. split; [exists t; split; auto; congruence|]. split.
      * intros j t' Hj. destruct (A5 j t' Hj) as [|[_ ]]; auto.
      * intros t' b Hb. destruct (A6 t' b Hb) as [H|H]; auto.
Qed.

Lemma grow_inv n max ns id size s s' : 0 <= size -> SInv n max ns s -> grow id size s = Some s' ->
  SInv n max ns s' /\ f_last s' = f_last s /\ f_open s' = f_open s /\ f_sess s' = f_sess s /\
  (forall t b, slot (f_mm s) t = Some b -> exists b', slot (f_mm s') t = Some b' /\ b_parent b' = b_parent b).
Proof.
  intros Hz HI E. unfold grow in E. destruct (f_open s id) as [t|] eqn:Eo; [|discriminate]. destruct (mm_update t size (f_mm s)) as [m|] eqn:Em; [|discriminate].
  injection E as <-. destruct (update_inv _ _ _ _ _ _ (si_mm _ _ _ _ HI) Hz Em) as (HM & b & Eb & _ & Hs). cbn [with_mm f_mm f_open f_sess f_last].
  assert (Hs2 : forall t' b0, slot (f_mm s) t' = Some b0 -> exists b', slot m t' = Some b' /\ b_parent b' = b_parent b0).
  { intros t' b0 Hb. rewrite Hs. destruct (Nat.eqb_spec t' t) as [-> |]; [|eauto]. eexists. split; [reflexivity|]. cbn. congruence. }
  split; [split|repeat (split; auto)]; cbn [with_mm f_mm f_open f_sess f_last].
  - exact HM.
  - intros j t' Hj. destruct (si_open _ _ _ _ HI j t' Hj) as (b0 & Hb & Hp). destruct (Hs2 t' b0 Hb) as (b' & Hb' & Hp'). exists b'. split; auto. congruence.
  - intros t' b0. rewrite Hs. destruct (Nat.eqb_spec t' t) as [-> |]; [|apply (si_blk _ _ _ _ HI)]. intros [= <-]. cbn. now apply (si_blk _ _ _ _ HI).
  - intros t' b0. rewrite Hs. destruct (Nat.eqb_spec t' t) as [-> |]; [|apply (si_lock _ _ _ _ HI)]. intros [= <-]. cbn. now apply (si_lock _ _ _ _ HI).
  - intros k v Hk. destruct (si_sess _ _ _ _ HI k v Hk) as [?|[?|(t' & b0 & -> & Hb)]]; auto. right. right. exists t'. destruct (Hs2 t' b0 Hb) as (b' & Hb' & _). eauto.
  - apply HI.
Qed.

Lemma in_use_lt n max ns s k : SInv n max ns s -> in_use s k -> (k < ns)%nat.
Proof. intros HI (v & Hv & _). rewrite <- (si_len _ _ _ _ HI). apply nth_error_Some. congruence. Qed.

(** One call. *)
Lemma run1_inv n max ns c s s' : (0 < n)%nat -> (0 < ns)%nat -> SInv n max ns s -> last_ok s -> call_ok s c -> run1 c s = Some s' ->
  SInv n max ns s' /\ last_ok s' /\
  (forall k, in_use s k -> c <> CloseSession k -> in_use s' k) /\
  (forall k id, holds s k id -> ~ uses k c -> holds s' k id).
Proof.
  intros Hn Hns HI Hl Hc E.
  (* what is needed of the sessions and the open files *)
  assert (Hgen : f_last s' = f_last s -> SInv n max ns s' ->
    (forall j, match c with ReadSes _ _ k | CloseSession k => j <> k | _ => True end -> nth_error (f_sess s') j = nth_error (f_sess s) j) ->
    (match c with ReadSes _ _ k => in_use s' k | _ => True end) ->
    (forall j t, f_open s j = Some t -> f_open s' j = Some t \/ sessions_on s t = 0) ->
    (forall t b, slot (f_mm s) t = Some b -> (exists b', slot (f_mm s') t = Some b' /\ b_parent b' = b_parent b) \/ sessions_on s t = 0) ->
    SInv n max ns s' /\ last_ok s' /\ (forall k, in_use s k -> c <> CloseSession k -> in_use s' k) /\
    (forall k id, holds s k id -> ~ uses k c -> holds s' k id)).
  { intros G1 G2 G3 G4 G5 G6. split; auto. split; [unfold last_ok in *; rewrite G1, (si_len _ _ _ _ G2), <- (si_len _ _ _ _ HI); auto|]. split.
    - intros k (v & Hv & Hf) Hck. assert (Hd : match c with ReadSes _ _ j | CloseSession j => k <> j | _ => True end \/ in_use s' k).
      { destruct c as [|j| |a b j|]; auto; destruct (Nat.eq_dec k j) as [-> |]; auto. }
      destruct Hd as [Hd|Hd]; auto. exists v. split; auto. rewrite G3; auto.
    - intros k id (t & b & H1 & H2 & H3 & H4) Hu. assert (Hpos : sessions_on s t <> 0).
      { unfold sessions_on. apply nth_error_In in H2. apply (count_occ_In Z.eq_dec) in H2. lia. }
      destruct (G5 id t H1) as [H5|]; [|congruence]. destruct (G6 t b H3) as [(b' & H6 & H7)|]; [|congruence].
      exists t, b'. repeat split; auto; [|congruence]. rewrite G3; auto. destruct c; cbn in Hu; auto. }
  destruct c as [|k|id size|id size k|id size]; cbn [run1 call_ok] in *.
  - destruct (new_session s) as [s1 r] eqn:En. injection E as <-. cbn [fst]. destruct (new_session_inv _ _ _ _ _ _ Hns HI Hl En) as (A1 & A2 & A3 & A4 & A5).
    split; auto. split; auto. destruct r as [k|].
    + destruct A5 as [A5 A6]. assert (Hk : (k < length (f_sess s))%nat) by (apply nth_error_Some; congruence).
      assert (Hx : forall j, j <> k -> nth_error (f_sess s1) j = nth_error (f_sess s) j).
      { intros j Hj. rewrite A6, sset_nth by auto. destruct (Nat.eqb_spec j k); congruence. }
      split.
      * intros j (v & Hv & Hf) _. exists v. split; auto. rewrite Hx; congruence.
      * intros j id (t & b & H1 & H2 & H3 & H4) _. exists t, b. rewrite A3, A4, Hx; auto. pose proof (free_neg t). congruence.
    + destruct A5 as [A5 _]. split; [unfold in_use; rewrite A5; auto|unfold holds; rewrite A3, A4, A5; auto].
  - pose proof (in_use_lt _ _ _ _ _ HI Hc) as Hk. destruct (close_session_inv _ _ _ _ _ HI Hk) as (s1 & E1 & A1 & A2 & A3 & A4 & A5).
    rewrite E in E1. injection E1 as <-. rewrite <- (si_len _ _ _ _ HI) in Hk. apply Hgen; auto.
    + intros j Hj. rewrite A4, sset_nth by auto. destruct (Nat.eqb_spec j k); congruence.
    + intros j t. rewrite A2. auto.
  - destruct (load_inv _ _ _ _ _ _ _ Hn Hc HI E) as (A1 & A2 & A3 & A4 & A5 & A6 & A7). apply Hgen; auto.
    + intros j _. congruence.
    + intros j t Hj. destruct (A6 j t Hj) as [|[_ ]]; auto.
    + intros t b Hb. destruct (A7 t b Hb); eauto.
  - destruct Hc as [Hz Hk]. pose proof (in_use_lt _ _ _ _ _ HI Hk) as Hkn. destruct (ses_inv _ _ _ _ _ _ _ _ Hn Hz HI Hkn E) as (A1 & A2 & (t & A3 & A4) & A5 & A6).
    rewrite <- (si_len _ _ _ _ HI) in Hkn. apply Hgen; auto.
    + intros j Hj. rewrite A4, sset_nth by auto. destruct (Nat.eqb_spec j k); congruence.
    + exists (Z.of_nat t). rewrite A4, sset_nth, Nat.eqb_refl by auto. split; auto. pose proof (free_neg t). congruence.
  - destruct (grow_inv _ _ _ _ _ _ _ Hc HI E) as (A1 & A2 & A3 & A4 & A5). apply Hgen; auto.
    + intros j _. congruence.
    + intros j t. rewrite A3. auto.
Qed.
Lemma calls_inv n max ns s l s' : (0 < n)%nat -> (0 < ns)%nat -> calls s l s' -> SInv n max ns s -> last_ok s -> SInv n max ns s' /\ last_ok s'.
Proof.
  intros Hn Hns. induction 1 as [s|s c s1 l s2 Hc E _ IH]; intros HI Hl; auto. destruct (run1_inv _ _ _ _ _ _ Hn Hns HI Hl Hc E) as (A1 & A2 & _). auto.
Qed.
