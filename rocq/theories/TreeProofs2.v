(** Proofs about the B+tree: put and get. *)
From Coq Require Import Sorting.Sorted ZifyBool.
From Verif Require Export TreeProofs.
Local Open Scope Z_scope.

Lemma at_child_ok {A R} (f : A -> option R) l p : at_child f p l = do c <- nth_error l p; f c.
Proof. revert p. induction l as [|c l IH]; intros [|p]; cbn; auto. Qed.

Lemma nth_error_split_ex {A} (l : list A) p c : nth_error l p = Some c -> exists l1 l2, l = l1 ++ c :: l2 /\ length l1 = p.
Proof. apply nth_error_split. Qed.

Lemma set_at_mid {A} (l1 l2 : list A) c d p : length l1 = p -> set_at p d (l1 ++ c :: l2) = l1 ++ d :: l2.
Proof.
  intros <-. unfold set_at. rewrite firstn_app, Nat.sub_diag, firstn_all. cbn [firstn]. rewrite app_nil_r. f_equal. f_equal.
  rewrite skipn_app. rewrite skipn_all2 by lia. replace (S (length l1) - length l1)%nat with 1%nat by lia. reflexivity.
Qed.

Lemma ins_at_mid {A} (l1 l2 : list A) d p : length l1 = p -> ins_at p d (l1 ++ l2) = l1 ++ d :: l2.
Proof.
  intros <-. unfold ins_at. rewrite firstn_app, Nat.sub_diag, firstn_all. cbn [firstn]. rewrite app_nil_r. f_equal. f_equal.
  rewrite skipn_app, skipn_all, Nat.sub_diag. reflexivity.
Qed.

Lemma ins_at_length {A} p (x : A) l : (p <= length l)%nat -> length (ins_at p x l) = S (length l).
Proof. intros H. unfold ins_at. rewrite app_length, firstn_length. cbn [length]. rewrite skipn_length. lia. Qed.

Lemma ins_at_firstn {A} p (x : A) l k : (p <= k)%nat -> (p <= length l)%nat -> firstn (S k) (ins_at p x l) = ins_at p x (firstn k l).
Proof.
  intros H Hp. unfold ins_at. rewrite firstn_app. rewrite (firstn_all2 (firstn p l)) by (rewrite firstn_length; lia).
  rewrite firstn_length, Nat.min_l by lia. replace (S k - p)%nat with (S (k - p)) by lia. cbn [firstn].
  rewrite firstn_firstn, Nat.min_l by lia. f_equal. f_equal.
  rewrite <- skipn_firstn_comm. reflexivity.
Qed.

Lemma ins_at_skipn {A} p (x : A) l k : (p <= k)%nat -> (p <= length l)%nat -> skipn (S k) (ins_at p x l) = skipn k l.
Proof.
  intros H Hp. unfold ins_at. rewrite skipn_app. rewrite skipn_all2 by (rewrite firstn_length; lia).
  rewrite firstn_length, Nat.min_l by lia. replace (S k - p)%nat with (S (k - p)) by lia. cbn [skipn app].
  rewrite <- (firstn_skipn p l) at 2. rewrite skipn_app. rewrite (skipn_all2 (firstn p l)) by (rewrite firstn_length; lia).
  rewrite firstn_length, Nat.min_l by lia. reflexivity.
Qed.

Lemma ins_at_firstn_low {A} p (x : A) l k : (k <= p)%nat -> (p <= length l)%nat -> firstn k (ins_at p x l) = firstn k l.
Proof.
  intros H Hp. unfold ins_at. rewrite firstn_app, firstn_firstn, firstn_length. rewrite !Nat.min_l by lia.
  replace (k - p)%nat with 0%nat by lia. cbn [firstn]. now rewrite app_nil_r.
Qed.

Lemma ins_at_skipn_low {A} p (x : A) l k : (k <= p)%nat -> (p <= length l)%nat -> skipn k (ins_at p x l) = ins_at (p - k) x (skipn k l).
Proof.
  intros H Hp. unfold ins_at. rewrite skipn_app, firstn_length, Nat.min_l by lia.
  replace (k - p)%nat with 0%nat by lia. cbn [skipn]. f_equal.
  - rewrite firstn_skipn_comm. do 2 f_equal. lia.
  - f_equal. rewrite <- (firstn_skipn k l) at 1. rewrite skipn_app, firstn_length, Nat.min_l by lia.
    rewrite skipn_all2 by (rewrite firstn_length; lia). reflexivity.
Qed.

Section T.
Variables P V : Type.
Variable store : P -> V.
Variable update : V -> P -> V.
Variable m : nat.
Notation mx := (m + m)%nat.
Notation content := (list (Z * V)).
Notation tree := (tree V).

Lemma div2_mx : Nat.div2 mx = m.
Proof. replace mx with (2 * m)%nat by lia. apply Nat.div2_double. Qed.

Lemma tree_ind' (Q : tree -> Prop) :
  (forall n vs, Q (Leaf n vs)) -> (forall n cs, Forall Q cs -> Q (Inter n cs)) -> forall t, Q t.
Proof.
  intros H1 H2. fix IH 1. intros [n vs|n cs]; [apply H1|]. apply H2.
  induction cs as [|c cs IHc]; constructor; auto.
Qed.

(** The sorted association list after a put. *)
Fixpoint ins (k : Z) (x : P) (l : content) : content :=
  match l with
  | [] => [(k, store x)]
  | (j, v) :: r => if j <? k then (j, v) :: ins k x r else if j =? k then (j, update v x) :: r else (k, store x) :: l
  end.

Definition dbl (l : content) : list Z := map (fun e => 2 * fst e) l.

Definition wpre (ks : list Z) (ls : list content) : list Z := flat_map (fun e : Z * content => dbl (snd e) ++ [2 * fst e + 1]) (combine ks ls).
Definition wpost (ks : list Z) (ls : list content) : list Z := flat_map (fun e : Z * content => 2 * fst e + 1 :: dbl (snd e)) (combine ks ls).
(** Keys and separators of an intermediate node in one list; keys are doubled. *)
Definition W (ks : list Z) (ls : list content) : list Z :=
  match ls with [] => [] | l :: ls => dbl l ++ wpost ks ls end.

Definition ranged (l : content) : Prop := forall e, In e l -> 0 <= fst e < 2 ^ 62.

Inductive Shape : tree -> content -> Prop :=
| Sh_leaf n l : KN n (map fst l) -> incr (dbl l) -> (length l <= mx)%nat -> Shape (Leaf n (map snd l)) l
| Sh_inter n cs ks ls :
    KN n ks -> (length ks <= mx)%nat -> length ls = S (length ks) ->
    Forall2 Shape cs ls -> Forall (fun l => l <> []) ls -> incr (W ks ls) ->
    Shape (Inter n cs) (concat ls).

Lemma dbl_app a b : dbl (a ++ b) = dbl a ++ dbl b.
Proof. apply map_app. Qed.

Lemma W_at ks1 ks2 ls1 l ls2 : length ks1 = length ls1 ->
  W (ks1 ++ ks2) (ls1 ++ l :: ls2) = wpre ks1 ls1 ++ dbl l ++ wpost ks2 ls2.
Proof.
  revert ls1. induction ks1 as [|k ks1 IH]; intros [|l1 ls1] E; try discriminate; [reflexivity|].
  injection E as E. specialize (IH ls1 E). cbn [app]. unfold W at 1. unfold wpre. cbn [combine flat_map fst snd].
  rewrite <- !app_assoc. f_equal. 
  destruct ls1 as [|l2 ls1]; destruct ks1 as [|k1 ks1]; try discriminate.
  - cbn [app] in *. unfold wpost at 1. cbn [combine flat_map fst snd]. cbn [app]. f_equal.
  - cbn [app] in *. unfold wpost at 1. cbn [combine flat_map fst snd]. cbn [app]. f_equal. exact IH.
Qed.

Lemma W_cut ks1 k ks2 ls1 ls2 : length ls1 = S (length ks1) -> ls2 <> [] ->
  W (ks1 ++ k :: ks2) (ls1 ++ ls2) = W ks1 ls1 ++ (2 * k + 1) :: W ks2 ls2.
Proof.
  intros E Hn. destruct ls2 as [|l2 ls2]; [congruence|].
  replace (ks1 ++ k :: ks2) with ((ks1 ++ [k]) ++ ks2) by now rewrite <- app_assoc.
  rewrite W_at by (rewrite app_length; cbn; lia).
  destruct (@exists_last _ ls1) as (ls & l & ->); [destruct ls1; discriminate|].
  rewrite app_length in E. cbn in E.
  replace ks1 with (ks1 ++ []) at 2 by apply app_nil_r. rewrite W_at by lia.
  assert (Ew : wpre (ks1 ++ [k]) (ls ++ [l]) = wpre ks1 ls ++ dbl l ++ [2 * k + 1]).
  { assert (El : length ks1 = length ls) by lia. clear - El. revert ls El.
    induction ks1 as [|a ks1 IH]; intros [|b ls] El; try discriminate; [unfold wpre; cbn [app combine flat_map fst snd]; now rewrite app_nil_r|].
    injection El as El. cbn [app]. unfold wpre in *. cbn [combine flat_map]. rewrite IH by auto. rewrite <- !app_assoc. reflexivity. }
  rewrite Ew. unfold wpost at 2. cbn [combine flat_map]. rewrite app_nil_r, <- !app_assoc. reflexivity.
Qed.

Lemma wpost_in_sep ks ls k : length ks = length ls -> In k ks -> In (2 * k + 1) (wpost ks ls).
Proof.
  revert ls. induction ks as [|a ks IH]; intros [|l ls] E H; try discriminate; [destruct H|].
  unfold wpost. cbn [combine flat_map fst snd]. destruct H as [->|H]; [now left|]. right. apply in_or_app. right.
  apply IH; auto.
Qed.

Lemma incr_map_inv (f : Z -> Z) l : (forall a b, f a < f b -> a < b) -> incr (map f l) -> incr l.
Proof.
  intros Hf. induction l as [|a l IH]; intros H; [constructor|]. cbn in H. apply incr_cons in H as (H1 & H2).
  apply incr_cons. split; auto. intros y Hy. apply Hf. apply H2. now apply in_map.
Qed.

Lemma incr_dbl l : incr (dbl l) <-> incr (map fst l).
Proof.
  unfold dbl. rewrite <- (map_map fst (Z.mul 2)). split.
  - apply incr_map_inv. intros; lia.
  - induction (map fst l) as [|a r IH]; intros H; [constructor|]. apply incr_cons in H as (H1 & H2). cbn [map]. apply incr_cons.
    split; auto. intros y Hy. apply in_map_iff in Hy as (z & <- & Hz). specialize (H2 z Hz). lia.
Qed.

Lemma incr_wpost ks ls : length ks = length ls -> incr (wpost ks ls) -> incr ks.
Proof.
  revert ls. induction ks as [|k ks IH]; intros [|l ls] E H; try discriminate; [constructor|].
  injection E as E. unfold wpost in H. cbn [combine flat_map fst snd app] in H. apply incr_cons in H as (H1 & H2).
  apply incr_app in H1 as (_ & H1 & _). apply incr_cons. split; [eapply IH; eauto|]. intros y Hy.
  enough (2 * k + 1 < 2 * y + 1) by lia. apply H2. apply in_or_app. right. now apply wpost_in_sep.
Qed.

Lemma incr_W_seps ks ls : length ls = S (length ks) -> incr (W ks ls) -> incr ks.
Proof.
  destruct ls as [|l ls]; [discriminate|]. intros E H. cbn in E. unfold W in H. apply incr_app in H as (_ & H & _).
  eapply incr_wpost; eauto. lia.
Qed.

Lemma incr_wpost_cont ks ls : length ks = length ls -> incr (wpost ks ls) -> incr (dbl (concat ls)) /\
  (forall x, In x (dbl (concat ls)) -> In x (wpost ks ls)).
Proof.
  revert ls. induction ks as [|k ks IH]; intros [|l ls] E H; try discriminate; [split; [constructor|intros x []]|].
  injection E as E. unfold wpost in *. cbn [combine flat_map fst snd app concat] in *. apply incr_cons in H as (H1 & H2).
  apply incr_app in H1 as (H1 & H3 & H4). destruct (IH ls E H3) as (I1 & I2). rewrite dbl_app. split.
  - apply incr_app. repeat split; auto.
  - intros x Hx. right. apply in_app_or in Hx as [Hx|Hx]; apply in_or_app; auto.
Qed.

Lemma incr_W_cont ks ls : length ls = S (length ks) -> incr (W ks ls) -> incr (dbl (concat ls)).
Proof.
  destruct ls as [|l ls]; [discriminate|]. intros E H. cbn in E. unfold W in H. apply incr_app in H as (H1 & H2 & H3).
  destruct (incr_wpost_cont ks ls ltac:(lia) H2) as (H4 & H5). cbn [concat]. rewrite dbl_app. apply incr_app. repeat split; auto.
Qed.

Lemma Shape_incr t l : Shape t l -> incr (dbl l).
Proof. intros H. inversion H; subst; auto. eapply incr_W_cont; eauto. Qed.

Lemma Shape_leaf_inv n vs l : Shape (Leaf n vs) l -> KN n (map fst l) /\ incr (map fst l) /\ (length l <= mx)%nat /\ vs = map snd l.
Proof. intros H. inversion H as [n' l' HK Hi Hl E1 E2|]; subst. repeat split; auto; try apply HK. now apply incr_dbl. Qed.

(** Insertion. *)
Lemma ins_app k x l1 l2 l3 : (forall e, In e l1 -> fst e < k) -> (forall e, In e l3 -> k < fst e) ->
  ins k x (l1 ++ l2 ++ l3) = l1 ++ ins k x l2 ++ l3.
Proof.
  intros H1 H3. induction l1 as [|(j, v) l1 IH]; cbn [app].
  - induction l2 as [|(j, v) l2 IH]; cbn [app ins].
    + destruct l3 as [|(j, v) l3]; [reflexivity|]. cbn [ins app]. specialize (H3 (j, v) (or_introl eq_refl)). cbn in H3.
      replace (j <? k) with false by lia. replace (j =? k) with false by lia. reflexivity.
    + destruct (j <? k); [cbn; now rewrite IH|]. now destruct (j =? k).
  - cbn [ins]. specialize (H1 (j, v) (or_introl eq_refl)) as Hj. cbn in Hj. replace (j <? k) with true by lia.
    rewrite IH; auto. intros e He. apply H1. now right.
Qed.

Lemma ins_not_nil k x l : ins k x l <> [].
Proof. destruct l as [|(j, v) r]; cbn; [discriminate|]. destruct (j <? k); [discriminate|]. destruct (j =? k); discriminate. Qed.

Lemma ins_keys k x l y : In y (map fst (ins k x l)) -> y = k \/ In y (map fst l).
Proof.
  induction l as [|(j, v) r IH]; cbn; [intuition|]. destruct (j <? k); cbn; [intuition|].
  destruct (j =? k); cbn; intuition.
Qed.

Lemma ins_incr k x l : incr (map fst l) -> incr (map fst (ins k x l)).
Proof.
  induction l as [|(j, v) r IH]; intros H; cbn in *; [constructor; auto; constructor|].
  apply incr_cons in H as (H1 & H2). destruct (Z.ltb_spec j k); cbn.
  - apply incr_cons. split; auto. intros y Hy. apply ins_keys in Hy as [->|Hy]; auto.
  - destruct (Z.eqb_spec j k); cbn; apply incr_cons; split; auto; [now apply incr_cons|].
    intros y [<-|Hy]; [lia|]. specialize (H2 y Hy). lia.
Qed.

Lemma ins_ranged k x l : 0 <= k < 2 ^ 62 -> ranged l -> ranged (ins k x l).
Proof.
  intros Hk Hr e He. assert (H : In (fst e) (map fst (ins k x l))) by now apply in_map.
  apply ins_keys in H as [->|H]; auto. apply in_map_iff in H as (e' & <- & H). auto.
Qed.

(** The smallest and the largest key. *)
Lemma smallest_ok : forall t l, Shape t l -> forall e r, l = e :: r -> smallest t = Some (fst e).
Proof.
  induction t as [n vs|n cs IH] using tree_ind'; intros l H e r E; inversion H as [n' l' HK Hi Hl|n' cs' ks ls HK Hlk Hls HF HN Hi]; subst.
  - cbn. f_equal. eapply KN_first; eauto. reflexivity.
  - cbn [smallest]. rewrite at_child_ok. inversion HF as [|c l0 cs0 ls0 Hc HF0]; subst; [discriminate|].
    cbn [nth_error]. inversion IH as [|? ? IHc _]; subst. inversion HN as [|? ? Hn0 _]; subst.
    destruct l0 as [|e0 r0]; [congruence|].
    match goal with E : concat _ = _ |- _ => cbn in E; injection E as <- _ end. eapply IHc; eauto.
Qed.

Lemma largest_tr : forall t l, Shape t l -> forall e r, l = r ++ [e] -> largest t = Some (fst e).
Proof.
  induction t as [n vs|n cs IH] using tree_ind'; intros l H e r E; inversion H as [n' l' HK Hi Hl|n' cs' ks ls HK Hlk Hls HF HN Hi]; subst.
  - cbn. f_equal. eapply largest_ok; [exact HK|]. rewrite map_app. reflexivity.
  - cbn [largest]. rewrite at_child_ok. destruct (@exists_last _ ls) as (ls1 & l0 & ->); [destruct ls; discriminate|].
    apply Forall2_app_inv_r in HF as (cs1 & cs2 & HF1 & HF2 & ->). inversion HF2 as [|c ? ? ? Hc HF3]; subst. inversion HF3; subst.
    rewrite app_length in Hls. cbn in Hls.
    assert (El : length cs1 = length ls1) by (clear - HF1; induction HF1; cbn; congruence).
    destruct HK as (Hsz & _). rewrite Hsz. rewrite nth_error_app2 by lia. replace (length ks - length cs1)%nat with 0%nat by lia.
    cbn [nth_error]. apply Forall_app in IH as (_ & IH). inversion IH as [|? ? IHc _]; subst.
    apply Forall_app in HN as (_ & HN). inversion HN as [|? ? Hn0 _]; subst.
    destruct (@exists_last _ l0 Hn0) as (r0 & e0 & ->).
    match goal with E1 : concat _ = _ |- _ => rename E1 into E end. rewrite concat_app in E. cbn [concat] in E. rewrite app_nil_r, app_assoc in E.
    apply app_inj_tail in E as (_ & <-). eapply IHc; eauto.
Qed.

Lemma below_map_fst k (l : content) : incr (map fst l) ->
  (forall e, In e (firstn (below k (map fst l)) l) -> fst e < k) /\
  (forall e, In e (skipn (below k (map fst l)) l) -> k <= fst e).
Proof.
  intros Hs. destruct (below_split k (map fst l) Hs) as (H1 & H2). split; intros e He.
  - apply H1. rewrite firstn_map. now apply in_map.
  - apply H2. rewrite skipn_map. now apply in_map.
Qed.

(** get finds what the content says. *)
Definition lookup (k : Z) (l : content) : option V := match find (fun e => fst e =? k) l with Some e => Some (snd e) | None => None end.

Lemma find_app_skip (f : Z * V -> bool) l1 l2 : (forall e, In e l1 -> f e = false) -> find f (l1 ++ l2) = find f l2.
Proof.
  induction l1 as [|e l1 IH]; intros H; [reflexivity|]. cbn. rewrite (H e (or_introl eq_refl)). apply IH. intros; apply H; now right.
Qed.
Lemma find_none_all (f : Z * V -> bool) l : (forall e, In e l -> f e = false) -> find f l = None.
Proof. intros H. rewrite <- (app_nil_r l). rewrite find_app_skip; auto. Qed.

Lemma find_app_left (f : Z * V -> bool) l1 l2 : (forall e, In e l2 -> f e = false) -> find f (l1 ++ l2) = find f l1.
Proof.
  intros H. induction l1 as [|e l1 IH]; cbn; [now apply find_none_all|]. destruct (f e); auto.
Qed.

Lemma wpre_below key ks ls R : length ks = length ls -> incr (wpre ks ls ++ R) -> (forall k, In k ks -> k < key) ->
  forall a, In a (wpre ks ls) -> a < 2 * key.
Proof.
  revert ls. induction ks as [|k ks IH]; intros [|l ls] E H Hk a Ha; try discriminate; [destruct Ha|].
  injection E as E. unfold wpre in *. cbn [combine flat_map fst snd] in *. rewrite <- !app_assoc in H.
  apply incr_app in H as (_ & H & H0). apply in_app_or in Ha as [Ha|Ha].
  - pose proof (Hk k (or_introl eq_refl)). apply in_app_or in Ha as [Ha|[<-|[]]]; [|lia].
    specialize (H0 a (2 * k + 1) Ha (or_introl eq_refl)). lia.
  - cbn [app] in H. apply incr_cons in H as (H & _). eapply IH; eauto. intros; apply Hk; now right.
Qed.

Lemma wpost_above key ks ls : length ks = length ls -> incr (wpost ks ls) -> (forall k, In k ks -> key <= k) ->
  forall a, In a (wpost ks ls) -> 2 * key < a.
Proof.
  revert ls. induction ks as [|k ks IH]; intros [|l ls] E H Hk a Ha; try discriminate; [destruct Ha|].
  injection E as E. unfold wpost in *. cbn [combine flat_map fst snd] in *. cbn [app] in H.
  apply incr_cons in H as (H & H0). pose proof (Hk k (or_introl eq_refl)). destruct Ha as [<-|Ha]; [lia|].
  specialize (H0 a Ha). lia.
Qed.

Lemma in_wpre_cont ks ls e : length ks = length ls -> In e (concat ls) -> In (2 * fst e) (wpre ks ls).
Proof.
  revert ls. induction ks as [|k ks IH]; intros [|l ls] E H; try discriminate; [destruct H|].
  injection E as E. unfold wpre. cbn [combine flat_map fst snd]. cbn [concat] in H. apply in_or_app. apply in_app_or in H as [H|H].
  - left. apply in_or_app. left. unfold dbl. apply in_map_iff. eauto.
  - right. apply IH; auto.
Qed.

Lemma in_wpost_cont ks ls e : length ks = length ls -> In e (concat ls) -> In (2 * fst e) (wpost ks ls).
Proof.
  revert ls. induction ks as [|k ks IH]; intros [|l ls] E H; try discriminate; [destruct H|].
  injection E as E. unfold wpost. cbn [combine flat_map fst snd]. cbn [concat] in H. right. apply in_or_app. apply in_app_or in H as [H|H].
  - left. unfold dbl. apply in_map_iff. eauto.
  - right. apply IH; auto.
Qed.

(** Where a key belongs in an intermediate node. *)
Lemma route n cs ks ls key : KN n ks -> length ls = S (length ks) -> Forall2 Shape cs ls -> incr (W ks ls) ->
  exists c cs1 cs2 l ls1 ls2, let p := kn_child n key in
    cs = cs1 ++ c :: cs2 /\ ls = ls1 ++ l :: ls2 /\ length cs1 = p /\ length ls1 = p /\ (p <= length ks)%nat /\
    Forall2 Shape cs1 ls1 /\ Shape c l /\ Forall2 Shape cs2 ls2 /\
    W ks ls = wpre (firstn p ks) ls1 ++ dbl l ++ wpost (skipn p ks) ls2 /\
    (forall a, In a (wpre (firstn p ks) ls1) -> a < 2 * key) /\
    (forall a, In a (wpost (skipn p ks) ls2) -> 2 * key < a) /\
    (forall e, In e (concat ls1) -> fst e < key) /\ (forall e, In e (concat ls2) -> key < fst e).
Proof.
  intros HK Hl HF Hi. pose proof (incr_W_seps ks ls Hl Hi) as Hks.
  pose proof (child_ok n ks key HK Hks) as Ep. set (p := kn_child n key) in *.
  assert (Hp : (p <= length ks)%nat) by (rewrite Ep; apply below_le).
  destruct (nth_error ls p) as [l|] eqn:El; [|apply nth_error_None in El; lia].
  destruct (nth_error_split ls p El) as (ls1 & ls2 & -> & L1).
  apply Forall2_app_inv_r in HF as (cs1 & cs0 & HF1 & HF2 & ->). inversion HF2 as [|c ? cs2 ? Hc HF3]; subst cs0.
  assert (Lc : length cs1 = length ls1) by (clear - HF1; induction HF1; cbn; congruence).
  rewrite app_length in Hl. cbn in Hl.
  assert (EW : W ks (ls1 ++ l :: ls2) = wpre (firstn p ks) ls1 ++ dbl l ++ wpost (skipn p ks) ls2).
  { rewrite <- (firstn_skipn p ks) at 1. apply W_at. rewrite firstn_length. lia. }
  destruct (below_split key ks Hks) as (B1 & B2). rewrite <- Ep in B1, B2.
  assert (A1 : forall a, In a (wpre (firstn p ks) ls1) -> a < 2 * key).
  { rewrite EW in Hi. eapply wpre_below; eauto. rewrite firstn_length. lia. }
  assert (A2 : forall a, In a (wpost (skipn p ks) ls2) -> 2 * key < a).
  { rewrite EW in Hi. apply incr_app in Hi as (_ & Hi & _). apply incr_app in Hi as (_ & Hi & _).
    eapply wpost_above; eauto. rewrite skipn_length. lia. }
  exists c, cs1, cs2, l, ls1, ls2. cbn. repeat split; auto; try congruence.
  - intros e He. specialize (A1 _ (in_wpre_cont (firstn p ks) ls1 e ltac:(rewrite firstn_length; lia) He)). lia.
  - intros e He. specialize (A2 _ (in_wpost_cont (skipn p ks) ls2 e ltac:(rewrite skipn_length; lia) He)). lia.
Qed.

Lemma leaf_pos n (l : content) k : KN n (map fst l) -> incr (map fst l) ->
  match find (fun e => fst e =? k) l with
  | Some e => kn_pos n k = Z.of_nat (below k (map fst l)) /\ nth_error l (below k (map fst l)) = Some e
  | None => kn_pos n k = - Z.of_nat (below k (map fst l)) - 1
  end.
Proof.
  intros HK Hs. pose proof (pos_ok n _ k HK Hs) as E. destruct (find (fun e => fst e =? k) l) as [e|] eqn:F.
  - apply find_some in F as (He & Hk). apply Z.eqb_eq in Hk.
    assert (Hin : In k (map fst l)) by (rewrite <- Hk; now apply in_map).
    assert (Ee : existsb (Z.eqb k) (map fst l) = true) by (apply existsb_exists; exists k; split; auto; apply Z.eqb_refl).
    rewrite Ee in E. split; auto. pose proof (in_below k _ Hs Hin) as Hb. rewrite nth_error_map in Hb.
    destruct (nth_error l (below k (map fst l))) as [e'|] eqn:En; [|discriminate]. cbn in Hb. injection Hb as Hb.
    f_equal. apply In_nth_error in He as (i & Hi).
    destruct (Nat.lt_trichotomy i (below k (map fst l))) as [Hlt|[->|Hlt]]; [|congruence|].
    + pose proof (incr_nth _ Hs i (below k (map fst l)) (fst e) (fst e') Hlt) as HH. rewrite !nth_error_map, Hi, En in HH.
      specialize (HH eq_refl eq_refl). lia.
    + pose proof (incr_nth _ Hs (below k (map fst l)) i (fst e') (fst e) Hlt) as HH. rewrite !nth_error_map, Hi, En in HH.
      specialize (HH eq_refl eq_refl). lia.
  - destruct (existsb (Z.eqb k) (map fst l)) eqn:Ee; auto. exfalso. apply existsb_exists in Ee as (y & Hy & Ey).
    apply Z.eqb_eq in Ey as <-. apply in_map_iff in Hy as (e & <- & He). pose proof (find_none _ _ F e He). cbn in H. lia.
Qed.

Theorem get_ok : forall t l k, Shape t l -> get t k = Some (lookup k l).
Proof.
  induction t as [n vs|n cs IH] using tree_ind'; intros l k H; inversion H as [n' l' HK Hi Hl|n' cs' ks ls HK Hlk Hls HF HN Hi]; subst.
  - cbn [get]. unfold leaf_get, lookup. apply incr_dbl in Hi. pose proof (leaf_pos n l k HK Hi) as Hp.
    destruct (find (fun e => fst e =? k) l) as [e|].
    + destruct Hp as (-> & En). replace (Z.of_nat (below k (map fst l)) <? 0) with false by lia.
      rewrite Nat2Z.id, nth_error_map, En. reflexivity.
    + rewrite Hp. replace (- Z.of_nat (below k (map fst l)) - 1 <? 0) with true by lia. reflexivity.
  - cbn [get]. rewrite at_child_ok.
    destruct (route n cs ks ls k HK Hls HF Hi) as (c & cs1 & cs2 & l & ls1 & ls2 & -> & -> & L1 & L2 & Hp & _ & Hc & _ & _ & _ & _ & B1 & B2).
    rewrite nth_error_app2 by lia. rewrite L1, Nat.sub_diag. cbn [nth_error].
    apply Forall_app in IH as (_ & IH). inversion IH as [|? ? IHc _]; subst. rewrite (IHc l k Hc). f_equal.
    rewrite concat_app. cbn [concat]. unfold lookup. rewrite find_app_skip by (intros e He; specialize (B1 e He); lia).
    rewrite find_app_left by (intros e He; specialize (B2 e He); lia). reflexivity.
Qed.

(** *** put. *)
Lemma ins_split k x (l : content) : incr (map fst l) -> find (fun e => fst e =? k) l = None ->
  ins k x l = ins_at (below k (map fst l)) (k, store x) l.
Proof.
  intros Hs F. induction l as [|(j, v) l IH]; [reflexivity|]. cbn [map fst] in *. apply incr_cons in Hs as (Hs & Hj).
  cbn [find fst] in F. destruct (Z.eqb_spec j k) as [->|Hne]; [discriminate|].
  cbn [ins]. unfold below. cbn [filter]. destruct (Z.ltb_spec j k) as [Hlt|Hge].
  - cbn [length]. unfold ins_at in *. cbn [firstn skipn app]. f_equal. apply IH; auto.
  - replace (j =? k) with false by lia. assert (E : filter (fun y => y <? k) (map fst l) = []).
    { apply length_zero_iff_nil. apply below_none. intros y Hy. specialize (Hj y Hy). lia. }
    rewrite E. reflexivity.
Qed.

Lemma ins_set k x (l : content) e : incr (map fst l) -> find (fun e => fst e =? k) l = Some e ->
  ins k x l = set_at (below k (map fst l)) (k, update (snd e) x) l.
Proof.
  intros Hs F. induction l as [|(j, v) l IH]; [discriminate|]. cbn [map fst] in *. apply incr_cons in Hs as (Hs & Hj).
  cbn [find fst] in F. cbn [ins]. unfold below. cbn [filter]. destruct (Z.eqb_spec j k) as [->|Hne].
  - injection F as <-. rewrite Z.ltb_irrefl. assert (E : filter (fun y => y <? k) (map fst l) = []).
    { apply length_zero_iff_nil. apply below_none. intros y Hy. specialize (Hj y Hy). lia. }
    rewrite E. reflexivity.
  - assert (Hlt : j < k). { apply find_some in F as (F1 & F2). apply Z.eqb_eq in F2. apply Hj. rewrite <- F2. now apply in_map. }
    replace (j <? k) with true by lia. cbn [length]. unfold set_at in *. cbn [firstn skipn app]. f_equal. apply IH; auto.
Qed.

Lemma map_ins_at {A B} (f : A -> B) p x l : map f (ins_at p x l) = ins_at p (f x) (map f l).
Proof. unfold ins_at. rewrite map_app. cbn [map]. now rewrite firstn_map, skipn_map. Qed.
Lemma map_set_at {A B} (f : A -> B) p x l : map f (set_at p x l) = set_at p (f x) (map f l).
Proof. unfold set_at. rewrite map_app. cbn [map]. now rewrite firstn_map, skipn_map. Qed.

Lemma set_at_same {A} (l : list A) p x : nth_error l p = Some x -> set_at p x l = l.
Proof. intros H. destruct (nth_error_split l p H) as (l1 & l2 & -> & E). now rewrite (set_at_mid l1 l2 x x p E). Qed.

Lemma leaf_add_ok n (l : content) k x : KN n (map fst l) -> incr (map fst l) -> (length l < mx)%nat ->
  exists n', leaf_add store update n (map snd l) (kn_pos n k) k x = Some (n', map snd (ins k x l)) /\
    KN n' (map fst (ins k x l)) /\ (length (ins k x l) <= mx)%nat.
Proof.
  intros HK Hs Hl. unfold leaf_add. pose proof (leaf_pos n l k HK Hs) as Hp.
  pose proof (below_le k (map fst l)) as Hb. rewrite map_length in Hb.
  pose proof (ins_incr k x l Hs) as Hi.
  destruct (find (fun e => fst e =? k) l) as [e|] eqn:F.
  - destruct Hp as (-> & En). replace (Z.of_nat (below k (map fst l)) <? 0) with false by lia.
    rewrite Nat2Z.id, nth_error_map, En. cbn [option_map].
    rewrite (ins_set k x l e Hs F). exists n. split; [|split].
    + f_equal. f_equal. now rewrite map_set_at.
    + rewrite map_set_at. cbn [fst]. rewrite set_at_same; auto. rewrite nth_error_map, En. cbn. f_equal.
      apply find_some in F as (_ & F). now apply Z.eqb_eq.
    + destruct (nth_error_split _ _ En) as (l1 & l2 & E & L1). rewrite E at 2. rewrite set_at_mid by auto.
      rewrite E in Hl. rewrite app_length in *. cbn in *. lia.
  - rewrite Hp. replace (- Z.of_nat (below k (map fst l)) - 1 <? 0) with true by lia.
    replace (Z.to_nat (- (- Z.of_nat (below k (map fst l)) - 1) - 1)) with (below k (map fst l)) by lia.
    rewrite (ins_split k x l Hs F) in *. eexists. split; [|split].
    + f_equal. f_equal. now rewrite map_ins_at.
    + rewrite map_ins_at in *. cbn [fst] in *. apply put_ok; auto. rewrite map_length. lia.
    + rewrite ins_at_length by lia. lia.
Qed.

(** What put returns for a node with content [l] that becomes [l']. *)
Definition PutOk (r : option (tree * option tree)) (l' : content) : Prop :=
  (exists t, r = Some (t, None) /\ Shape t l') \/
  (exists t s la lb, r = Some (t, Some s) /\ Shape t la /\ Shape s lb /\ la <> [] /\ lb <> [] /\ l' = la ++ lb).

Hypothesis Hm : (1 <= m)%nat.

(** p is the answer of pos, or of append for a key above all others. *)
Lemma leaf_insert_ok n l p k x : Shape (Leaf n (map snd l)) l -> p = kn_pos n k ->
  PutOk (leaf_insert store update mx n (map snd l) p k x) (ins k x l).
Proof.
  intros H ->. destruct (Shape_leaf_inv _ _ _ H) as (HK & Hi & Hl & _).
  unfold leaf_insert. rewrite div2_mx. unfold kn_full. pose proof HK as (Hsz & _). rewrite map_length in Hsz. rewrite Hsz.
  destruct (Nat.eqb_spec (length l) mx) as [Hfull|Hfull].
  2:{ rewrite andb_false_r. destruct (leaf_add_ok n l k x HK Hi ltac:(lia)) as (n' & -> & HK' & Hl'). left.
      eexists. split; [reflexivity|]. constructor; auto. apply incr_dbl. now apply ins_incr. }
  rewrite andb_true_r. pose proof (leaf_pos n l k HK Hi) as Hp.
  destruct (find (fun e => fst e =? k) l) as [e|] eqn:F.
  - (* the key exists *)
    destruct Hp as (Hp & En). rewrite Hp. replace (Z.of_nat (below k (map fst l)) <? 0) with false by lia. left.
    unfold leaf_add. replace (Z.of_nat (below k (map fst l)) <? 0) with false by lia.
    rewrite Nat2Z.id, nth_error_map, En. cbn [option_map]. eexists. split; [reflexivity|].
    rewrite (ins_set k x l e Hi F).
    replace (set_at (below k (map fst l)) (update (snd e) x) (map snd l)) with (map snd (set_at (below k (map fst l)) (k, update (snd e) x) l)) by (now rewrite map_set_at).
    assert (Ek : map fst (set_at (below k (map fst l)) (k, update (snd e) x) l) = map fst l).
    { rewrite map_set_at. cbn [fst]. apply set_at_same. rewrite nth_error_map, En. cbn. f_equal.
      apply find_some in F as (_ & F). now apply Z.eqb_eq. }
    constructor; [now rewrite Ek|apply incr_dbl; now rewrite Ek|]. rewrite <- (map_length fst), Ek, map_length. lia.
  - rewrite Hp. replace (- Z.of_nat (below k (map fst l)) - 1 <? 0) with true by lia. cbn [andb].
    destruct (split_ok m n (map fst l) HK Hi Hm ltac:(rewrite map_length; lia)) as (S1 & S2).
    destruct (kn_split mx n kn_new) as (n1, n2). cbn [fst snd] in S1, S2. rewrite firstn_map in S1. rewrite skipn_map in S2.
    rewrite firstn_map, skipn_map, firstn_map. rewrite (firstn_all2 (n := m) (skipn m l)) by (rewrite skipn_length; lia).
    set (l1 := firstn m l) in *. set (l2 := skipn m l) in *.
    assert (El : l = l1 ++ l2) by (symmetry; apply firstn_skipn).
    assert (L1 : length l1 = m) by (unfold l1; rewrite firstn_length; lia).
    assert (L2 : length l2 = m) by (unfold l2; rewrite skipn_length; lia).
    assert (Hi' := Hi). rewrite El, map_app in Hi'. apply incr_app in Hi' as (I1 & I2 & I12).
    assert (Hk0 : forall e, In e l -> fst e <> k).
    { intros e He. pose proof (find_none _ _ F e He). cbn in H. lia. }
    destruct (below_map_fst k l Hi) as (B1 & B2).
    destruct (Z.ltb_spec (- (- Z.of_nat (below k (map fst l)) - 1) - 1) (Z.of_nat m)) as [Hlt|Hge].
    + destruct (leaf_add_ok n1 l1 k x S1 I1 ltac:(lia)) as (n' & -> & HK' & Hl'). right.
      exists (Leaf n' (map snd (ins k x l1))), (Leaf n2 (map snd l2)), (ins k x l1), l2. split; [reflexivity|].
      split; [constructor; auto; apply incr_dbl; now apply ins_incr|]. split; [constructor; auto; [now apply incr_dbl|lia]|].
      split; [apply ins_not_nil|]. split; [destruct l2; [cbn in L2; lia|discriminate]|].
      rewrite El. rewrite <- (app_nil_l (l1 ++ l2)) at 1. rewrite ins_app; auto; [intros e []|].
      intros e He. assert (k <= fst e); [|specialize (Hk0 e ltac:(rewrite El; apply in_or_app; auto)); lia].
      apply B2. apply in_skipn_nth. apply In_nth_error in He as (i & Hi2). exists (m + i)%nat. split; [lia|].
      rewrite El, nth_error_app2 by lia. rewrite L1. replace (m + i - m)%nat with i by lia. exact Hi2.
    + destruct (leaf_add_ok n2 l2 k x S2 I2 ltac:(lia)) as (n' & -> & HK' & Hl'). right.
      exists (Leaf n1 (map snd l1)), (Leaf n' (map snd (ins k x l2))), l1, (ins k x l2). split; [reflexivity|].
      split; [constructor; auto; [now apply incr_dbl|lia]|]. split; [constructor; auto; apply incr_dbl; now apply ins_incr|].
      split; [destruct l1; [cbn in L1; lia|discriminate]|]. split; [apply ins_not_nil|].
      rewrite El. replace (l1 ++ l2) with (l1 ++ l2 ++ []) by now rewrite app_nil_r. rewrite ins_app; [now rewrite app_nil_r| |intros e []].
      intros e He. apply B1. apply in_firstn_nth. apply In_nth_error in He as (i & Hi2). exists i.
      assert (i < length l1)%nat by (apply nth_error_Some; congruence). split; [lia|].
      rewrite El, nth_error_app1 by lia. exact Hi2.
Qed.

Lemma numAvg_ok c s la lb : Shape c la -> Shape s lb -> la <> [] -> lb <> [] -> ranged la -> ranged lb -> incr (dbl la ++ dbl lb) ->
  exists a, (forall n p, numAvg n p c s = Some (kn_put n a p)) /\ (forall y, In y (dbl la) -> y < 2 * a + 1) /\ (forall y, In y (dbl lb) -> 2 * a + 1 < y).
Proof.
  intros H1 H2 N1 N2 R1 R2 Hi. destruct (@exists_last _ la N1) as (r1 & e1 & ->). destruct lb as [|e2 r2]; [congruence|].
  assert (H12 : fst e1 < fst e2).
  { apply incr_app in Hi as (_ & _ & Hi). specialize (Hi (2 * fst e1) (2 * fst e2)).
    assert (2 * fst e1 < 2 * fst e2); [|lia]. apply Hi; [rewrite dbl_app; apply in_or_app; right; now left|now left]. }
  pose proof (R1 e1 ltac:(apply in_or_app; right; now left)). pose proof (R2 e2 (or_introl eq_refl)).
  pose proof (average_ok (fst e1) (fst e2) ltac:(lia) H12 ltac:(lia)) as Ha.
  exists (average (fst e1) (fst e2)).
  split; [intros n p; unfold numAvg; now rewrite (largest_tr c _ H1 e1 r1 eq_refl), (smallest_ok s _ H2 e2 r2 eq_refl)|]. apply incr_app in Hi as (I1 & I2 & I12). split.
  - intros y Hy. rewrite dbl_app in *. apply incr_app in I1 as (_ & _ & I1). apply in_app_or in Hy as [Hy|[<-|[]]]; [|lia].
    specialize (I1 y (2 * fst e1) Hy (or_introl eq_refl)). lia.
  - intros y [<-|Hy]; [lia|]. unfold dbl in I2, Hy. cbn [map] in I2. apply incr_cons in I2 as (_ & I2). specialize (I2 y Hy). lia.
Qed.

Lemma Forall2_firstn {A B} (R : A -> B -> Prop) l1 l2 k : Forall2 R l1 l2 -> Forall2 R (firstn k l1) (firstn k l2).
Proof. intros H. revert k. induction H; intros [|k]; cbn; constructor; auto. Qed.
Lemma Forall2_skipn {A B} (R : A -> B -> Prop) l1 l2 k : Forall2 R l1 l2 -> Forall2 R (skipn k l1) (skipn k l2).
Proof. intros H. revert k. induction H; intros [|k]; cbn; auto. Qed.
Lemma Forall2_len {A B} (R : A -> B -> Prop) l1 l2 : Forall2 R l1 l2 -> length l1 = length l2.
Proof. induction 1; cbn; congruence. Qed.
Lemma Forall_firstn {A} (R : A -> Prop) l k : Forall R l -> Forall R (firstn k l).
Proof. intros H. revert k. induction H; intros [|k]; cbn; constructor; auto. Qed.
Lemma Forall_skipn {A} (R : A -> Prop) l k : Forall R l -> Forall R (skipn k l).
Proof. intros H. revert k. induction H; intros [|k]; cbn; auto. Qed.

(** A node with one key too many, cut in two. *)
Lemma cut ks ls cs n0 n1 : length ks = S mx -> length ls = S (S mx) ->
  Forall2 Shape cs ls -> Forall (fun l => l <> []) ls -> incr (W ks ls) ->
  KN n0 (firstn m ks) -> KN n1 (skipn (S m) ks) ->
  PutOk (Some (Inter n0 (firstn (S m) cs), Some (Inter n1 (skipn (S m) cs)))) (concat ls).
Proof.
  intros Hk Hl HF HN Hi K0 K1. right.
  destruct (nth_error ks m) as [k|] eqn:Ek; [|apply nth_error_None in Ek; lia].
  destruct (nth_error_split ks m Ek) as (ks1 & ks2 & -> & E1).
  rewrite app_length in Hk. cbn in Hk.
  assert (E0 : firstn m (ks1 ++ k :: ks2) = ks1) by (rewrite firstn_app, E1, Nat.sub_diag, firstn_all2 by lia; cbn; now rewrite app_nil_r).
  assert (E2 : skipn (S m) (ks1 ++ k :: ks2) = ks2) by (rewrite skipn_app, E1, skipn_all2 by lia; replace (S m - m)%nat with 1%nat by lia; reflexivity).
  rewrite E0 in K0. rewrite E2 in K1.
  assert (L1 : length (firstn (S m) ls) = S m) by (rewrite firstn_length; lia).
  assert (L2 : length (skipn (S m) ls) = S m) by (rewrite skipn_length; lia).
  assert (N2 : skipn (S m) ls <> []) by (intros E; rewrite E in L2; discriminate).
  rewrite <- (firstn_skipn (S m) ls) in Hi. rewrite W_cut in Hi by (auto; lia).
  apply incr_app in Hi as (I1 & I2 & _). apply incr_cons in I2 as (I2 & _).
  exists (Inter n0 (firstn (S m) cs)), (Inter n1 (skipn (S m) cs)), (concat (firstn (S m) ls)), (concat (skipn (S m) ls)).
  assert (Hne : forall l : list content, Forall (fun l => l <> []) l -> l <> [] -> concat l <> []).
  { intros [|a l] Ha Hn; [congruence|]. inversion Ha; subst. cbn. destruct a; [congruence|discriminate]. }
  split; [reflexivity|]. split; [|split; [|split; [|split]]].
  - apply (Sh_inter n0 _ ks1); auto; [lia|lia|now apply Forall2_firstn|now apply Forall_firstn].
  - apply (Sh_inter n1 _ ks2); auto; [lia|lia|now apply Forall2_skipn|now apply Forall_skipn].
  - apply Hne; [now apply Forall_firstn|]. intros E; rewrite E in L1; discriminate.
  - apply Hne; auto. now apply Forall_skipn.
  - rewrite <- concat_app, firstn_skipn. reflexivity.
Qed.

Lemma updateChildren_ok n ks cs1 c cs2 s ls1 la lb ls2 p A B :
  KN n ks -> (length ks <= mx)%nat -> length cs1 = p -> length ls1 = p -> (length ls2 = length ks - p)%nat -> (p <= length ks)%nat ->
  Forall2 Shape cs1 ls1 -> Shape c la -> Shape s lb -> Forall2 Shape cs2 ls2 ->
  Forall (fun l => l <> []) (ls1 ++ ls2) -> la <> [] -> lb <> [] -> ranged la -> ranged lb ->
  A = wpre (firstn p ks) ls1 -> B = wpost (skipn p ks) ls2 -> incr (A ++ dbl la ++ dbl lb ++ B) ->
  PutOk (updateChildren mx n (cs1 ++ c :: cs2) p s) (concat ls1 ++ la ++ lb ++ concat ls2).
Proof.
  intros HK Hlk Lc Ll L2 Hp F1 Hc Hs F2 HN Na Nb Ra Rb EA EB Hi.
  assert (Hab : incr (dbl la ++ dbl lb)).
  { apply incr_app in Hi as (_ & Hi & _). rewrite app_assoc in Hi. now apply incr_app in Hi. }
  set (cs' := cs1 ++ c :: s :: cs2). set (ls' := ls1 ++ la :: lb :: ls2).
  assert (Ecs : ins_at (S p) s (cs1 ++ c :: cs2) = cs').
  { unfold cs'. replace (cs1 ++ c :: cs2) with ((cs1 ++ [c]) ++ cs2) by now rewrite <- app_assoc.
    rewrite ins_at_mid by (rewrite app_length; cbn; lia). now rewrite <- app_assoc. }
  assert (HF' : Forall2 Shape cs' ls') by (apply Forall2_app; auto).
  assert (HN' : Forall (fun l => l <> []) ls').
  { unfold ls'. apply Forall_app in HN as (? & ?). apply Forall_app. split; auto. }
  assert (Ec : concat ls' = concat ls1 ++ la ++ lb ++ concat ls2) by (unfold ls'; rewrite concat_app; reflexivity).
  (* the new separator *)
  assert (Havg : exists a, (forall n' q, numAvg n' q c s = Some (kn_put n' a q)) /\ incr (W (ins_at p a ks) ls')).
  { destruct (numAvg_ok c s la lb Hc Hs Na Nb Ra Rb Hab) as (a & E & H1 & H2). exists a. split; [exact E|].
    unfold ins_at, ls'. rewrite W_at by (rewrite firstn_length; lia).
    unfold wpost. cbn [combine flat_map fst snd]. fold (wpost (skipn p ks) ls2).
    rewrite <- EA, <- EB. cbn [app]. apply incr_app in Hi as (IA & Hi & IAx). apply incr_app in Hi as (Ia & Hi & Iax).
    apply incr_app in Hi as (Ib & IB & IbB).
    assert (Xa : exists y, In y (dbl la)) by (destruct la as [|e r]; [congruence|]; eexists; now left).
    assert (Xb : exists y, In y (dbl lb)) by (destruct lb as [|e r]; [congruence|]; eexists; now left).
    destruct Xa as (ya & Hya). destruct Xb as (yb & Hyb).
    apply incr_app. repeat split; auto.
    + apply incr_app. repeat split; auto.
      * apply incr_cons. split; [apply incr_app; repeat split; auto|]. intros y Hy. apply in_app_or in Hy as [Hy|Hy]; auto.
        specialize (H2 yb Hyb). specialize (IbB yb y Hyb Hy). lia.
      * intros y z Hy [<-|Hz]; auto.
    + intros y z Hy Hz. apply in_app_or in Hz as [Hz|[<-|Hz]].
      * apply IAx; auto. apply in_or_app; auto.
      * specialize (IAx y ya Hy ltac:(apply in_or_app; auto)). specialize (H1 ya Hya). lia.
      * apply IAx; auto. apply in_or_app; auto. }
  destruct Havg as (a & Ea & HW).
  assert (Ll' : length ls' = S (S (length ks))) by (unfold ls'; rewrite app_length; cbn; lia).
  assert (Lk' : length (ins_at p a ks) = S (length ks)) by (now apply ins_at_length).
  assert (Hks' : incr (ins_at p a ks)) by (apply (incr_W_seps _ ls'); auto; lia).
  rewrite <- Ec. unfold updateChildren. unfold kn_full. pose proof HK as (Hsz & _). rewrite Hsz.
  assert (Enth : nth_error (cs1 ++ c :: cs2) p = Some c) by (rewrite nth_error_app2, Lc, Nat.sub_diag by lia; reflexivity).
  destruct (Nat.eqb_spec (length ks) mx) as [Hfull|Hfull].
  2:{ rewrite Enth, Ea, Ecs. left. eexists. split; [reflexivity|]. apply (Sh_inter _ _ (ins_at p a ks)); auto; try lia.
      apply put_ok; auto. }
  rewrite div2_mx.
  assert (Hks : incr ks).
  { unfold ins_at in Hks'. apply incr_app in Hks' as (I1 & I2 & I3). apply incr_cons in I2 as (I2 & _).
    rewrite <- (firstn_skipn p ks). apply incr_app. repeat split; auto. intros x y Hx Hy. apply I3; auto. now right. }
  destruct (split_ok m n ks HK Hks Hm Hfull) as (S1 & S2). destruct (kn_split mx n kn_new) as (n0, n1). cbn [fst snd] in S1, S2.
  assert (Lcs : length (cs1 ++ c :: cs2) = S mx).
  { rewrite app_length. cbn. pose proof (Forall2_len _ _ _ F2). lia. }
  assert (Hcut := cut (ins_at p a ks) ls' cs'). 
  destruct (Nat.ltb_spec p m) as [Hpm|Hpm].
  - rewrite nth_error_firstn || idtac.
    replace (nth_error (firstn m (cs1 ++ c :: cs2)) p) with (Some c).
    2:{ symmetry. rewrite <- (firstn_skipn m (cs1 ++ c :: cs2)) in Enth. rewrite nth_error_app1 in Enth; auto. rewrite firstn_length. lia. }
    rewrite Ea. rewrite (firstn_all2 (n := m + 1)) by (rewrite skipn_length; lia).
    rewrite <- ins_at_firstn by lia. rewrite Ecs.
    rewrite <- (ins_at_skipn (S p) s (cs1 ++ c :: cs2) m) by lia. rewrite Ecs.
    apply Hcut; auto; try lia.
    + destruct (nth_error ks (m - 1)) as [kk|] eqn:Ek; [|apply nth_error_None in Ek; lia].
      assert (Ef : firstn m ks = firstn (m - 1) ks ++ [kk]).
      { clear - Ek Hm. destruct (nth_error_split ks _ Ek) as (k1 & k2 & -> & E). rewrite !firstn_app, E, Nat.sub_diag. cbn [firstn].
        rewrite (firstn_all2 (n := m)), (firstn_all2 (n := m - 1)) by lia. rewrite app_nil_r. f_equal.
        replace (m - (m - 1))%nat with 1%nat by lia. reflexivity. }
      rewrite Ef in S1. pose proof (removeLast_ok _ _ _ S1) as S3.
      replace m with (S (m - 1)) by lia. rewrite ins_at_firstn by lia. apply put_ok; auto; [rewrite firstn_length; lia|].
      rewrite <- ins_at_firstn by lia. clear - Hks'. rewrite <- (firstn_skipn (S (m - 1)) (ins_at p a ks)) in Hks'. now apply incr_app in Hks'.
    + now rewrite ins_at_skipn by lia.
  - destruct (Nat.ltb_spec m p) as [Hmp|Hmp].
    + rewrite (firstn_all2 (n := m)) by (rewrite skipn_length; lia).
      replace (nth_error (skipn (m + 1) (cs1 ++ c :: cs2)) (p - (m + 1))) with (Some c).
      2:{ symmetry. rewrite <- (firstn_skipn (m + 1) (cs1 ++ c :: cs2)) in Enth. rewrite nth_error_app2 in Enth; rewrite firstn_length in *; [|lia].
          rewrite <- Enth. f_equal. lia. }
      rewrite Ea. replace (S (p - (m + 1))) with (S p - (m + 1))%nat by lia. rewrite <- ins_at_skipn_low by lia. rewrite Ecs.
      rewrite <- (ins_at_firstn_low (S p) s (cs1 ++ c :: cs2) (m + 1)) by lia. rewrite Ecs. rewrite !Nat.add_1_r.
      apply Hcut; auto; try lia.
      * now rewrite ins_at_firstn_low by lia.
      * destruct (skipn m ks) as [|kk r] eqn:Ek. { apply (f_equal (@length Z)) in Ek. rewrite skipn_length in Ek. cbn in Ek. lia. }
        pose proof (removeFirst_ok _ _ _ S2) as S3.
        assert (Er : skipn (S m) ks = r).
        { rewrite <- (firstn_skipn m ks), Ek, skipn_app, firstn_length, Nat.min_l by lia. rewrite skipn_all2 by (rewrite firstn_length; lia).
          replace (S m - m)%nat with 1%nat by lia. reflexivity. }
        rewrite ins_at_skipn_low by lia. rewrite Er. apply put_ok; auto.
        { apply (f_equal (@length Z)) in Er. rewrite skipn_length in Er. lia. }
        rewrite <- Er, <- ins_at_skipn_low by lia. clear - Hks'. rewrite <- (firstn_skipn (S m) (ins_at p a ks)) in Hks'. now apply incr_app in Hks'.
    + assert (p = m) by lia. rewrite (firstn_all2 (n := m)) by (rewrite skipn_length; lia).
      replace (s :: skipn (m + 1) (cs1 ++ c :: cs2)) with (skipn (S m) cs').
      2:{ rewrite <- Ecs. rewrite ins_at_skipn_low by lia. replace (S p - S m)%nat with 0%nat by lia. rewrite Nat.add_1_r. reflexivity. }
      rewrite <- (ins_at_firstn_low (S p) s (cs1 ++ c :: cs2) (m + 1)) by lia. rewrite Ecs. rewrite Nat.add_1_r.
      apply Hcut; auto; try lia.
      * now rewrite ins_at_firstn_low by lia.
      * now rewrite ins_at_skipn by lia.
Qed.

Lemma ranged_app l1 l2 : ranged (l1 ++ l2) <-> ranged l1 /\ ranged l2.
Proof.
  unfold ranged. split; [intros H; split; intros e He; apply H; apply in_or_app; auto|].
  intros (H1 & H2) e He. apply in_app_or in He as [He|He]; auto.
Qed.

(** One level of put: the child at the position of the key was changed. *)
Lemma level_ok n cs1 c cs2 ks ls1 l ls2 p key r x :
  KN n ks -> (length ks <= mx)%nat -> length cs1 = p -> length ls1 = p -> length ls2 = (length ks - p)%nat -> (p <= length ks)%nat ->
  Forall2 Shape cs1 ls1 -> Forall2 Shape cs2 ls2 -> Forall (fun l => l <> []) (ls1 ++ l :: ls2) ->
  incr (wpre (firstn p ks) ls1 ++ dbl l ++ wpost (skipn p ks) ls2) ->
  (forall a, In a (wpre (firstn p ks) ls1) -> a < 2 * key) ->
  (forall a, In a (wpost (skipn p ks) ls2) -> 2 * key < a) ->
  0 <= key < 2 ^ 62 -> ranged l ->
  PutOk r (ins key x l) ->
  PutOk (do (c', s) <- r;
         match s with
         | None => Some (Inter n (set_at p c' (cs1 ++ c :: cs2)), None)
         | Some s => updateChildren mx n (set_at p c' (cs1 ++ c :: cs2)) p s
         end) (concat ls1 ++ ins key x l ++ concat ls2).
Proof.
  intros HK Hlk Lc Ll L2 Hp F1 F2 HN Hi A1 A2 Hkey Hr Hput.
  assert (Hi' : incr (wpre (firstn p ks) ls1 ++ dbl (ins key x l) ++ wpost (skipn p ks) ls2)).
  { apply incr_app in Hi as (I1 & I2 & I3). apply incr_app in I2 as (I4 & I5 & I6).
    assert (Hin : forall y, In y (dbl (ins key x l)) -> y = 2 * key \/ In y (dbl l)).
    { intros y Hy. unfold dbl in *. rewrite <- (map_map fst (Z.mul 2)) in *. apply in_map_iff in Hy as (z & <- & Hz).
      apply ins_keys in Hz as [->|Hz]; auto. right. now apply in_map. }
    apply incr_app. repeat split; auto.
    - apply incr_app. repeat split; auto; [apply incr_dbl; apply ins_incr; now apply incr_dbl|].
      intros y z Hy Hz. apply Hin in Hy as [->|Hy]; auto.
    - intros y z Hy Hz. apply in_app_or in Hz as [Hz|Hz]; [|apply I3; auto; apply in_or_app; auto].
      apply Hin in Hz as [->|Hz]; auto. apply I3; auto. apply in_or_app; auto. }
  assert (HN1 := HN). apply Forall_app in HN1 as (N1 & N2). inversion N2 as [|? ? Nl N3]; subst.
  pose proof (ins_ranged key x l Hkey Hr) as Hr'.
  destruct Hput as [(t & -> & Ht)|(t & s & la & lb & -> & Ht & Hs & Na & Nb & E)].
  - left. rewrite set_at_mid by auto. eexists. split; [reflexivity|].
    replace (concat ls1 ++ ins key x l ++ concat ls2) with (concat (ls1 ++ ins key x l :: ls2)) by now rewrite concat_app.
    apply (Sh_inter _ _ ks); auto.
    + rewrite app_length. cbn. lia.
    + apply Forall2_app; auto.
    + apply Forall_app. split; auto. constructor; auto. apply ins_not_nil.
    + rewrite <- (firstn_skipn (length cs1) ks). rewrite W_at by (rewrite firstn_length; lia). exact Hi'.
  - rewrite set_at_mid by auto. rewrite E in *. apply ranged_app in Hr' as (Ra & Rb). rewrite <- app_assoc.
    eapply updateChildren_ok; eauto.
    + apply Forall_app; auto.
    + rewrite dbl_app, <- app_assoc in Hi'. exact Hi'.
Qed.

Theorem put_node_ok : forall t l key x, Shape t l -> 0 <= key < 2 ^ 62 -> ranged l ->
  PutOk (put_node store update mx t key x) (ins key x l).
Proof.
  induction t as [n vs|n cs IH] using tree_ind'; intros l key x H Hkey Hr; inversion H as [n' l' HK Hi Hl|n' cs' ks ls HK Hlk Hls HF HN Hi]; subst.
  - cbn [put_node]. now apply leaf_insert_ok.
  - cbn [put_node]. rewrite at_child_ok.
    destruct (route n cs ks ls key HK Hls HF Hi) as (c & cs1 & cs2 & l & ls1 & ls2 & -> & -> & L1 & L2 & Hp & F1 & Hc & F2 & EW & A1 & A2 & B1 & B2).
    rewrite nth_error_app2 by lia. rewrite L1, Nat.sub_diag. cbn [nth_error].
    apply Forall_app in IH as (_ & IH). inversion IH as [|? ? IHc _]; subst.
    rewrite concat_app in *. cbn [concat] in *. apply ranged_app in Hr as (R1 & Hr). apply ranged_app in Hr as (Rl & R2).
    rewrite ins_app by auto. rewrite EW in Hi. rewrite app_length in Hls. cbn in Hls.
    eapply level_ok; eauto. lia.
Qed.

Lemma grow_ok r l' : PutOk r l' -> ranged l' -> incr (dbl l') -> exists t, (do r <- r; grow r) = Some t /\ Shape t l'.
Proof.
  intros [(t & -> & Ht)|(t & s & la & lb & -> & Ht & Hs & Na & Nb & ->)] Hr Hi.
  - exists t. split; [reflexivity|auto].
  - unfold grow. cbn [fst snd]. apply ranged_app in Hr as (Ra & Rb). rewrite dbl_app in Hi.
    destruct (numAvg_ok t s la lb Ht Hs Na Nb Ra Rb Hi) as (a & E & H1 & H2). rewrite E. eexists. split; [reflexivity|].
    replace (la ++ lb) with (concat [la; lb]) by (cbn; now rewrite app_nil_r).
    apply incr_app in Hi as (Ia & Ib & Iab). apply (Sh_inter _ _ [a]); auto; try (cbn; lia).
    + apply (put_ok kn_new [] a 0); [apply KN_new|lia|]. constructor; constructor.
    + unfold W, wpost. cbn [combine flat_map fst snd app]. rewrite app_nil_r. apply incr_app. repeat split; auto.
      * apply incr_cons. auto.
      * intros y z Hy [<-|Hz]; auto.
Qed.

Theorem put_tree t l key x : Shape t l -> ranged l -> 0 <= key < 2 ^ 62 ->
  exists t', put store update mx t key x = Some t' /\ Shape t' (ins key x l) /\ ranged (ins key x l).
Proof.
  intros H Hr Hk. pose proof (ins_ranged key x l Hk Hr) as Hr'.
  destruct (grow_ok _ _ (put_node_ok t l key x H Hk Hr) Hr') as (t' & E & Ht).
  - apply incr_dbl, ins_incr, incr_dbl. eapply Shape_incr; eauto.
  - exists t'. auto.
Qed.

(** append is put when the key is above all others. *)
Lemma append_is_put : forall t l key x, Shape t l -> (forall e, In e l -> fst e < key) ->
  append_node store update mx t key x = put_node store update mx t key x.
Proof.
  induction t as [n vs|n cs IH] using tree_ind'; intros l key x H Ha; inversion H as [n' l' HK Hi Hl|n' cs' ks ls HK Hlk Hls HF HN Hi]; subst.
  - cbn [append_node put_node]. f_equal. apply incr_dbl in Hi. rewrite (pos_ok n (map fst l) key HK Hi).
    assert (Hall : forall y, In y (map fst l) -> y < key) by (intros y Hy; apply in_map_iff in Hy as (e & <- & He); auto).
    rewrite below_all by auto. destruct HK as (-> & _).
    destruct (existsb (Z.eqb key) (map fst l)) eqn:E; auto. apply existsb_exists in E as (y & Hy & E). apply Z.eqb_eq in E as <-.
    specialize (Hall key Hy). lia.
  - cbn [append_node put_node]. 
    destruct (route n cs ks ls key HK Hls HF Hi) as (c & cs1 & cs2 & l & ls1 & ls2 & -> & -> & L1 & L2 & Hp & F1 & Hc & F2 & EW & A1 & A2 & B1 & B2).
    rewrite concat_app in Ha. cbn [concat] in Ha.
    assert (Els : ls2 = []).
    { destruct ls2 as [|l2 ls2]; auto. apply Forall_app in HN as (_ & HN). inversion HN as [|? ? _ HN2]; subst. inversion HN2 as [|? ? N2 _]; subst.
      destruct l2 as [|e r]; [congruence|]. specialize (B2 e (or_introl eq_refl)). specialize (Ha e).
      assert (fst e < key); [|lia]. apply Ha. apply in_or_app. right. apply in_or_app. right. now left. }
    subst ls2. rewrite app_length in Hls. cbn in Hls. pose proof HK as (Hsz & _).
    replace (kn_child n key) with (kn_size n) by lia. rewrite !at_child_ok.
    rewrite nth_error_app2 by lia. replace (kn_size n - length cs1)%nat with 0%nat by lia. cbn [nth_error].
    apply Forall_app in IH as (_ & IH). inversion IH as [|? ? IHc _]; subst. rewrite (IHc l key x Hc); auto.
    intros e He. apply Ha. apply in_or_app. right. apply in_or_app. auto.
Qed.

Theorem append_tree t l key x : Shape t l -> ranged l -> 0 <= key < 2 ^ 62 -> (forall e, In e l -> fst e < key) ->
  exists t', append store update mx t key x = Some t' /\ Shape t' (ins key x l) /\ ranged (ins key x l).
Proof.
  intros H Hr Hk Ha. unfold append. rewrite (append_is_put t l key x H Ha). now apply put_tree.
Qed.

Lemma Shape_new : Shape tr_new [].
Proof. apply (Sh_leaf kn_new []); [apply KN_new|constructor|cbn; lia]. Qed.
End T.
