(** Proofs about iteration with the second column ignored: tables, CompositeItr, RmItr. *)
From Coq Require Import Sorted Permutation Lia.
From Verif Require Import TallySpec ItrProofs CompProofs.
Local Open Scope Z_scope.

(** ** Contract *)
Lemma Tallies_unfold g o : Tallies g o <->
  forall o', polls o o' ->
  exists o1, hasNext o' = Some (nonempty g, o1) /\
    match g with
    | [] => True
    | x :: t => exists o2, next o1 = Some o2 /\ Stands x t o2
    end.
Proof.
  destruct g as [|[[k v] n] t]; cbn [Tallies]; [reflexivity|].
  unfold Stands. cbn [fst snd]. split; intros H o' Hp; destruct (H o' Hp) as (o1 & E & o2 & N & C); eauto 6.
Qed.

Lemma Tallies_polls g o o' : Tallies g o -> polls o o' -> Tallies g o'.
Proof. rewrite !Tallies_unfold. intros H Hp o2 Hp2. apply H. eapply polls_trans; eauto. Qed.

Lemma Tallies_poll g o : Tallies g o -> exists o1, hasNext o = Some (nonempty g, o1) /\ polls o o1 /\
  match g with
  | [] => True
  | x :: t => exists o2, next o1 = Some o2 /\ Stands x t o2
  end.
Proof.
  intros H. rewrite Tallies_unfold in H. destruct (H o (polls_refl o)) as (o1 & E & Hm).
  exists o1. split; auto. split; auto. econstructor; [constructor|exact E].
Qed.

Lemma Tallies_intro g o o1 :
  hasNext o = Some (nonempty g, o1) -> hasNext o1 = Some (nonempty g, o1) ->
  match g with
  | [] => True
  | x :: t => exists o2, next o1 = Some o2 /\ Stands x t o2
  end -> Tallies g o.
Proof.
  intros H H1 Hm. apply Tallies_unfold. intros o' Hp.
  assert (o' = o \/ o' = o1) as Ho.
  { induction Hp as [|a b c Hp [-> | -> ] Hn]; auto; right; congruence. }
  exists o1; split; auto. destruct Ho as [-> | -> ]; auto.
Qed.

Lemma Tallies_drain g : forall o fuel, Tallies g o -> (length g < fuel)%nat -> tdrain fuel o = Some g.
Proof.
  induction g as [|x t IH]; intros o fuel H Hf; (destruct fuel as [|fuel]; [cbn in Hf; lia|]);
    destruct (Tallies_poll _ _ H) as (o1 & E & _ & Hm); cbn [tdrain]; rewrite E; cbn [nonempty].
  - reflexivity.
  - destruct Hm as (o2 & -> & C & V & T). rewrite C, (IH o2 fuel); auto; [|cbn in Hf; lia].
    destruct (V o2 (polls_refl _)) as [-> ->]. destruct x as [[? ?] ?]; reflexivity.
Qed.

(** ** Tallies of lists *)
Notation gsorted := (StronglySorted group_lt).
Definition gk (x : elem) : Z := fst (fst x).
Definition gv (x : elem) : Z := snd (fst x).

Lemma group_lt_alt x y : group_lt x y <-> gk x < gk y \/ (gk x = gk y /\ gv x < gv y).
Proof. destruct x as [[? ?] ?], y as [[? ?] ?]. reflexivity. Qed.

Lemma count_app l l' k v : count_of (l ++ l') k v = count_of l k v + count_of l' k v.
Proof. unfold count_of. rewrite filter_app, app_length. apply Nat2Z.inj_add. Qed.
Lemma count_nonneg l k v : 0 <= count_of l k v.
Proof. unfold count_of. lia. Qed.
Lemma count_cons x l k v : count_of (x :: l) k v =
  (if (gk x =? k) && (gv x =? v) then 1 else 0) + count_of l k v.
Proof. unfold count_of, gk, gv. cbn [filter]. destruct (_ && _); cbn [length]; lia. Qed.
Lemma count_pos l k v : 0 < count_of l k v <-> exists x, In x l /\ gk x = k /\ gv x = v.
Proof.
  induction l as [|x l IH].
  - cbn. split; [lia|]. intros (? & [] & _).
  - rewrite count_cons. pose proof (count_nonneg l k v).
    destruct ((gk x =? k) && (gv x =? v)) eqn:E.
    + split; [|lia]. intros _. exists x. split; [now left|lia].
    + rewrite Z.add_0_l, IH. split; intros (y & Hy & H1 & H2).
      * exists y. split; [now right|auto].
      * destruct Hy as [<-|Hy]; [lia|eauto].
Qed.
Lemma count_perm l l' k v : Permutation l l' -> count_of l k v = count_of l' k v.
Proof.
  induction 1 as [|x l l' H IH|x y l|l1 l2 l3 _ IH1 _ IH2]; rewrite ?count_cons; lia.
Qed.

(** Insertion of one row. *)
Fixpoint tally_add (k v : Z) (g : list elem) : list elem :=
  match g with
  | [] => [(k, v, 1)]
  | (k', v', n) :: t =>
    if (k =? k') && (v =? v') then (k', v', n + 1) :: t
    else if (k <? k') || ((k =? k') && (v <? v')) then (k, v, 1) :: g
    else (k', v', n) :: tally_add k v t
  end.
Lemma tally_add_in k v g : forall x, In x (tally_add k v g) -> (gk x = k /\ gv x = v) \/ In x g.
Proof.
  induction g as [|[[k' v'] n] t IH]; intros x; cbn [tally_add].
  - intros [<-|[]]. left. auto.
  - destruct ((k =? k') && (v =? v')) eqn:E1; [|destruct ((k <? k') || _) eqn:E2].
    + intros [<-|H]; [left; cbn; lia|right; now right].
    + intros [<-|H]; [left; auto|auto].
    + intros [<-|H]; [right; now left|]. apply IH in H. destruct H; auto. right. now right.
Qed.
Lemma tally_add_sorted k v g : gsorted g -> gsorted (tally_add k v g).
Proof.
  induction g as [|[[k' v'] n] t IH]; intros H; cbn [tally_add]; [repeat constructor|].
  inversion H as [|? ? Hs Hf]; subst.
  destruct ((k =? k') && (v =? v')) eqn:E1; [|destruct ((k <? k') || _) eqn:E2].
  - constructor; auto.
  - constructor; auto. constructor; [cbn; lia|].
    eapply Forall_impl; [|exact Hf]. intros [[a b] c]. cbn. lia.
  - constructor; auto. apply Forall_forall. intros x Hx. apply tally_add_in in Hx as [[H1 H2]|Hx].
    + apply group_lt_alt. cbn. lia.
    + rewrite Forall_forall in Hf. auto.
Qed.

(** The number an entry list gives for a key and value. *)
Definition wt (g : list elem) (k v : Z) : Z :=
  fold_right (fun x s => (if (gk x =? k) && (gv x =? v) then snd x else 0) + s) 0 g.
Lemma wt_cons x g k v : wt (x :: g) k v = (if (gk x =? k) && (gv x =? v) then snd x else 0) + wt g k v.
Proof. reflexivity. Qed.
Lemma wt_add k v g k' v' : wt (tally_add k v g) k' v' = (if (k =? k') && (v =? v') then 1 else 0) + wt g k' v'.
Proof.
  induction g as [|[[a b] n] t IH]; cbn [tally_add].
  - reflexivity.
  - destruct ((k =? a) && (v =? b)) eqn:E1; [|destruct ((k <? a) || _) eqn:E2].
    + rewrite !wt_cons. cbn [gk gv fst snd]. unfold gk, gv. cbn [fst snd].
      assert (k = a /\ v = b) as [-> ->] by lia. destruct ((a =? k') && (b =? v')); lia.
    + rewrite !wt_cons. unfold gk, gv. cbn [fst snd]. lia.
    + rewrite !wt_cons, IH. lia.
Qed.
Definition gpos (g : list elem) : Prop := Forall (fun x => 0 < snd x) g.
Lemma wt_zero g k v : (forall x, In x g -> gk x = k -> gv x = v -> False) -> wt g k v = 0.
Proof.
  induction g as [|x g IH]; intros H; [reflexivity|]. rewrite wt_cons, IH.
  - destruct ((gk x =? k) && (gv x =? v)) eqn:E; [|lia]. exfalso. apply (H x); [now left|lia|lia].
  - intros y Hy. apply H. now right.
Qed.
Lemma wt_in g k v n : gsorted g -> In (k, v, n) g -> wt g k v = n.
Proof.
  induction 1 as [|x g Hs IH Hf]; [intros []|]. rewrite wt_cons. intros [->|H].
  - unfold gk, gv. cbn [fst snd]. rewrite !Z.eqb_refl. cbn [andb]. rewrite wt_zero; [lia|].
    intros y Hy H1 H2. rewrite Forall_forall in Hf. specialize (Hf y Hy). apply group_lt_alt in Hf.
    unfold gk, gv in *. cbn [fst snd] in *. lia.
  - rewrite IH by auto. rewrite Forall_forall in Hf. specialize (Hf _ H). apply group_lt_alt in Hf.
    destruct ((gk x =? k) && (gv x =? v)) eqn:E; [|lia]. unfold gk, gv in *. cbn [fst snd] in *. lia.
Qed.
Lemma wt_pos_in g k v : gpos g -> 0 < wt g k v -> exists n, In (k, v, n) g.
Proof.
  induction g as [|x g IH]; intros Hp H; [cbn in H; lia|]. rewrite wt_cons in H. inversion Hp; subst.
  destruct ((gk x =? k) && (gv x =? v)) eqn:E.
  - exists (snd x). left. destruct x as [[a b] c]. unfold gk, gv in E. cbn [fst snd] in *. assert (a = k /\ b = v) as [-> ->] by lia. reflexivity.
  - destruct IH as (n & Hn); [auto|lia|]. exists n. now right.
Qed.
Lemma wt_nonneg g k v : gpos g -> 0 <= wt g k v.
Proof. induction 1 as [|x g H _ IH]; [cbn; lia|]. rewrite wt_cons. destruct (_ && _); lia. Qed.

(** The tally of a list, by the numbers. *)
Definition rep (g : list elem) (W : Z -> Z -> Z) : Prop :=
  gsorted g /\ gpos g /\ forall k v, wt g k v = W k v.
Lemma rep_tally l g : is_tally l g <-> rep g (count_of l).
Proof.
  split.
  - intros [Hs Hin]. split; auto. assert (Hp : gpos g).
    { apply Forall_forall. intros [[k v] n] Hx. apply Hin in Hx. cbn. lia. }
    split; auto. intros k v. pose proof (count_nonneg l k v).
    destruct (Z.eq_dec (count_of l k v) 0) as [E|E].
    + rewrite E. apply wt_zero. intros [[a b] n] Hx. unfold gk, gv. cbn [fst snd]. intros -> ->.
      apply Hin in Hx. lia.
    + apply wt_in; auto. apply Hin. lia.
  - intros (Hs & Hp & Hw). split; auto. intros k v n. rewrite <- Hw. split.
    + intros Hx. split; [symmetry; now apply wt_in|]. unfold gpos in Hp. rewrite Forall_forall in Hp. now apply (Hp (k, v, n)).
    + intros [-> H]. destruct (wt_pos_in g k v Hp H) as (n & Hn). now rewrite (wt_in g k v n).
Qed.
Lemma tally_exists l : exists g, is_tally l g.
Proof.
  cut (exists g, rep g (count_of l)); [intros (g & H); exists g; now apply rep_tally|].
  induction l as [|x l (g & Hs & Hp & Hw)].
  - exists []. split; [constructor|]. split; [constructor|]. reflexivity.
  - exists (tally_add (gk x) (gv x) g). split; [now apply tally_add_sorted|]. split.
    + clear - Hp. induction g as [|[[a b] n] t IH]; cbn [tally_add]; [repeat constructor; cbn; lia|].
      inversion Hp; subst. cbn [snd] in *. destruct (_ && _); [|destruct (_ || _)]; repeat constructor; auto; cbn; try lia.
      now apply IH.
    + intros k v. rewrite wt_add, count_cons, Hw. reflexivity.
Qed.
Lemma rep_unique g g' W : rep g W -> rep g' W -> g = g'.
Proof.
  revert g' W. induction g as [|x g IH]; intros g' W (Hs & Hp & Hw) (Hs' & Hp' & Hw').
  - destruct g' as [|[[k v] n] g']; auto. exfalso. inversion Hp'; subst.
    assert (E : wt ((k, v, n) :: g') k v = n) by (apply wt_in; [auto|now left]).
    rewrite Hw', <- Hw in E. cbn in E, H1. lia.
  - destruct g' as [|y g'].
    { exfalso. destruct x as [[k v] n]. inversion Hp; subst.
      assert (E : wt ((k, v, n) :: g) k v = n) by (apply wt_in; [auto|now left]).
      rewrite Hw, <- Hw' in E. cbn in E, H1. lia. }
    assert (Hxy : x = y).
    { assert (Hx : In x (y :: g')).
      { destruct x as [[k v] n]. assert (E : wt ((k, v, n) :: g) k v = n) by (apply wt_in; [auto|now left]).
        inversion Hp; subst. cbn in H1. rewrite Hw, <- Hw' in E.
        destruct (wt_pos_in _ k v Hp') as (n' & Hn'); [lia|]. now rewrite (wt_in _ _ _ _ Hs' Hn') in E; subst. }
      assert (Hy : In y (x :: g)).
      { destruct y as [[k v] n]. assert (E : wt ((k, v, n) :: g') k v = n) by (apply wt_in; [auto|now left]).
        inversion Hp'; subst. cbn in H1. rewrite Hw', <- Hw in E.
        destruct (wt_pos_in _ k v Hp) as (n' & Hn'); [lia|]. now rewrite (wt_in _ _ _ _ Hs Hn') in E; subst. }
      destruct Hx as [->|Hx]; auto. destruct Hy as [->|Hy]; auto.
      inversion Hs as [|? ? _ F]; inversion Hs' as [|? ? _ F']; subst. rewrite Forall_forall in F, F'.
      specialize (F _ Hy). specialize (F' _ Hx). apply group_lt_alt in F. apply group_lt_alt in F'. lia. }
    subst y. f_equal. inversion Hs; inversion Hs'; inversion Hp; inversion Hp'; subst.
    apply (IH g' (wt g)); [split; auto|]. split; [auto|]. split; [auto|]. intros k v.
    specialize (Hw k v). specialize (Hw' k v). rewrite wt_cons in Hw, Hw'. lia.
Qed.

Lemma wt_app g g' k v : wt (g ++ g') k v = wt g k v + wt g' k v.
Proof. induction g as [|x g IH]; [reflexivity|]. cbn [app]. rewrite !wt_cons, IH. lia. Qed.
Lemma wt_perm g g' k v : Permutation g g' -> wt g k v = wt g' k v.
Proof. induction 1; rewrite ?wt_cons; lia. Qed.
Lemma rep_ext g W W' : (forall k v, W k v = W' k v) -> rep g W -> rep g W'.
Proof. intros H (A & B & C). repeat split; auto. intros; rewrite C; auto. Qed.

(** ** CompositeItr with the second column ignored *)
(** A child that stands on the first of its entries. *)
Definition St (k : Z) (p : pitr * list elem) : Prop :=
  exists x t, snd p = x :: t /\ Stands x t (fst p) /\ gsorted (snd p) /\ gpos (snd p) /\
    Forall (fun y => gk y = k) (snd p).
(** A child that reaches the first of its entries with next. *)
Definition Rd (k : Z) (p : pitr * list elem) : Prop :=
  exists x t o, snd p = x :: t /\ next (fst p) = Some o /\ Stands x t o /\ gsorted (snd p) /\
    gpos (snd p) /\ Forall (fun y => gk y = k) (snd p).

Definition descg (P : list (pitr * list elem)) : Prop :=
  StronglySorted (fun p q => value1 (fst q) <= value1 (fst p)) P.
Definition rests (P : list (pitr * list elem)) : list elem := concat (map (fun p => tl (snd p)) P).

Lemma St_value k p : St k p -> exists x t, snd p = x :: t /\ value1 (fst p) = gv x /\ gk x = k.
Proof.
  intros (x & t & E & (_ & V & _) & _ & _ & F). exists x, t. split; auto. split.
  - apply (V (fst p)). constructor.
  - rewrite E in F. now inversion F.
Qed.

Lemma swap_far {A} (l m : list A) a z r :
  swap (length l + S (length m)) (length l) (l ++ a :: m ++ z :: r) = l ++ z :: m ++ a :: r.
Proof.
  unfold swap. rewrite nth_app.
  replace (l ++ a :: m ++ z :: r) with ((l ++ a :: m) ++ z :: r) by (rewrite <- app_assoc; reflexivity).
  assert (L : forall b, (length l + S (length m))%nat = length (l ++ b :: m)) by (intros; rewrite app_length; cbn; lia).
  rewrite (nth_app' (length l + S (length m)) (l ++ a :: m)) by apply L.
  rewrite (upd_app' (length l + S (length m)) (l ++ a :: m)) by apply L.
  rewrite <- app_assoc. cbn [app]. now rewrite upd_app.
Qed.
Lemma swap_same {A} (l : list A) a r : swap (length l) (length l) (l ++ a :: r) = l ++ a :: r.
Proof. unfold swap. rewrite nth_app. now rewrite !upd_app. Qed.

(** The loop of hasNext: of the children Z that stand on the value v, those that have more
    entries stay, the others are swapped out. *)
Lemma hn_ign_loop k v (A : list (pitr * list elem)) (HA : Forall (fun p => value1 (fst p) <> v) A)
  (Z : list (pitr * list elem)) : forall Zok dead decr ok,
  Forall (fun p => St k p /\ value1 (fst p) = v) Z ->
  Forall (fun p => Rd k p /\ value1 (fst p) = v) Zok ->
  ok = nonempty Zok ->
  exists Zk dead' decr',
    comp_hn_ign (length (A ++ Z)) v (map fst (A ++ Z) ++ map fst Zok ++ dead)
      (length (A ++ Z) + length Zok) decr ok =
    Some (map fst (A ++ Zk) ++ dead', length (A ++ Zk), decr', nonempty Zk) /\
    Forall (fun p => Rd k p /\ value1 (fst p) = v) Zk /\
    Permutation (contents Zk) (rests Z ++ contents Zok) /\
    (decr = true -> decr' = true) /\ (Zk = [] -> Z <> [] -> decr' = true).
Proof.
  induction Z as [|p Z IH] using rev_ind; intros Zok dead decr ok HZ Hok ->.
  - exists Zok, dead, decr. rewrite app_nil_r. cbn [rests map concat app].
    split; [|split; [auto|split; [reflexivity|split; auto; intros _ []; reflexivity]]].
    rewrite map_app, <- app_assoc, app_length.
    destruct A as [|q A] using rev_ind; [reflexivity|]. clear IHA. rewrite app_length, Nat.add_1_r.
    cbn [comp_hn_ign]. rewrite map_app, <- app_assoc. cbn [map app].
    rewrite nth_app' by now rewrite map_length.
    apply Forall_app in HA as [_ HA]. inversion HA; subst.
    destruct (Z.eqb_spec (value1 (fst q)) v); [contradiction|]. reflexivity.
  - apply Forall_app in HZ as [HZ Hp]. inversion Hp as [|? ? [Hst Hv] _]; subst.
    destruct Hst as (x & t & Es & (_ & V & T) & Gs & Gp & Gk).
    destruct (Tallies_poll _ _ T) as (c1 & Hn & Hpl & Hm).
    rewrite app_assoc, app_length, Nat.add_1_r. cbn [comp_hn_ign].
    set (v := value1 (fst p)) in *.
    rewrite (map_app _ (A ++ Z) [p]), <- app_assoc. cbn [map app].
    rewrite nth_app' by now rewrite map_length. fold v. rewrite Z.eqb_refl, Hn.
    rewrite upd_app' by now rewrite map_length.
    assert (Hc1 : value1 c1 = v).
    { transitivity (snd (fst x)); [apply (V _ Hpl)|symmetry; apply (V _ (polls_refl _))]. }
    destruct t as [|y t]; cbn [nonempty].
    + (* exhausted *)
      assert (Hr : rests (Z ++ [p]) = rests Z).
      { unfold rests. rewrite map_app, concat_app. cbn. rewrite Es. cbn. now rewrite app_nil_r. }
      rewrite Hr.
      assert (Zok = [] \/ exists mid w, Zok = mid ++ [w]) as [-> | (mid & w & ->)].
      { destruct Zok as [|w mid]; [now left|right]. destruct (@exists_last _ (w :: mid)) as (a & b & ->); [discriminate|eauto]. }
      * cbn [map app length nonempty]. rewrite Nat.add_0_r, Nat.sub_succ, Nat.sub_0_r.
        pose proof (swap_same (map fst (A ++ Z)) c1 dead) as Hs. rewrite map_length in Hs. rewrite Hs.
        destruct (IH [] (c1 :: dead) true false HZ) as (Zk & dead' & decr' & E & H1 & H2 & H3 & H4); auto.
        cbn [map app length] in E. rewrite Nat.add_0_r in E. rewrite E.
        exists Zk, dead', decr'. repeat split; auto.
      * rewrite (map_app _ mid [w]), <- (app_assoc (map fst mid)). cbn [map app].
        replace (S (length (A ++ Z)) + length (mid ++ [w]) - 1)%nat with (length (A ++ Z) + S (length mid))%nat
          by (rewrite (app_length mid); cbn; lia).
        pose proof (swap_far (map fst (A ++ Z)) (map fst mid) c1 (fst w) dead) as Hs. rewrite !map_length in Hs. rewrite Hs.
        destruct (IH (w :: mid) (c1 :: dead) true true HZ) as (Zk & dead' & decr' & E & H1 & H2 & H3 & H4); auto.
        { apply Forall_app in Hok as [Hm' Hw]. inversion Hw; subst. constructor; auto. }
        cbn [map app length] in E.
        replace (nonempty (mid ++ [w])) with true by (destruct mid; reflexivity).
        rewrite E.
        exists Zk, dead', decr'. repeat split; auto.
        rewrite H2. apply Permutation_app_head. unfold contents. rewrite map_app, concat_app. cbn. rewrite app_nil_r.
        apply Permutation_app_comm.
    + (* goes on *)
      destruct Hm as (o2 & Hn2 & S2).
      destruct (IH ((c1, y :: t) :: Zok) dead decr true HZ) as (Zk & dead' & decr' & E & H1 & H2 & H3 & H4); auto.
      { constructor; auto. split; auto. exists y, t, o2. cbn [fst snd]. rewrite Es in Gs, Gp, Gk.
        split; auto. split; auto. split; [exact S2|]. split; [now inversion Gs|]. split; [now inversion Gp|now inversion Gk]. }
      cbn [map app length fst] in E. rewrite Nat.add_succ_r in E. cbn [Nat.add]. rewrite E.
      exists Zk, dead', decr'. repeat split; auto.
      * rewrite H2. unfold rests, contents. rewrite map_app, concat_app. cbn. rewrite Es. cbn [tl].
        rewrite app_nil_r, <- app_assoc. reflexivity.
      * intros -> _. exfalso. apply Permutation_nil in H2. apply app_eq_nil in H2 as [_ H2]. discriminate.
Qed.

(** The other children that stand on the value just delivered move on. *)
Lemma next_others_loop k srt v (A : list (pitr * list elem))
  (HA : Forall (fun p => negb srt || (v =? value1 (fst p)) = false) A)
  (Z : list (pitr * list elem)) : forall rest must,
  Forall (fun p => Rd k p /\ negb srt || (v =? value1 (fst p)) = true) Z ->
  exists Q, comp_next_others (length (A ++ Z)) srt v (map fst (A ++ Z) ++ rest) must =
      Some (map fst (A ++ Q) ++ rest, must || nonempty Z) /\
    map snd Q = map snd Z /\ Forall (St k) Q.
Proof.
  induction Z as [|p Z IH] using rev_ind; intros rest must HZ.
  - exists []. rewrite app_nil_r. cbn [nonempty]. rewrite Bool.orb_false_r. split; [|auto].
    clear - HA. revert rest. induction A as [|a A IHA] using rev_ind; intros rest; [reflexivity|].
    rewrite app_length, Nat.add_1_r. cbn [comp_next_others]. rewrite map_app, <- app_assoc. cbn [map app].
    rewrite nth_app' by now rewrite map_length. apply Forall_app in HA as [HA Ha]. inversion Ha; subst.
    rewrite H1. now rewrite IHA.
  - apply Forall_app in HZ as [HZ Hp]. inversion Hp as [|? ? [(x & t & o & Es & Hn & S & Gs & Gp & Gk) Hc] _]; subst.
    rewrite app_assoc, app_length, Nat.add_1_r. cbn [comp_next_others].
    rewrite (map_app _ (A ++ Z) [p]), <- app_assoc. cbn [map app].
    rewrite nth_app' by now rewrite map_length. rewrite Hc, Hn.
    rewrite upd_app' by now rewrite map_length.
    destruct (IH (o :: rest) true HZ) as (Q & E & HQ & HQP).
    exists (Q ++ [(o, snd p)]). split; [|split].
    + rewrite E. rewrite (app_assoc A Q), (map_app _ (A ++ Q)), <- app_assoc. cbn [map app fst orb].
      replace (nonempty (Z ++ [p])) with true by (destruct Z; reflexivity). now rewrite Bool.orb_true_r.
    + rewrite !map_app, HQ. reflexivity.
    + apply Forall_app; split; auto. constructor; [|constructor]. exists x, t. auto.
Qed.

(** Order of the children. *)
Lemma bubble_desc (A : list (pitr * list elem)) : forall z dead,
  descg A ->
  exists B, comp_bubble (length A) (map fst A ++ fst z :: dead) = map fst B ++ dead /\
    Permutation B (A ++ [z]) /\ descg B.
Proof.
  induction A as [|a A IH] using rev_ind; intros z dead Hd.
  - exists [z]. cbn. repeat split; auto. constructor; constructor.
  - rewrite app_length, Nat.add_comm. cbn [length Nat.add comp_bubble].
    rewrite map_app. cbn [map]. rewrite <- !app_assoc. cbn [app].
    assert (Hn1 : nth_error (map fst A ++ fst a :: fst z :: dead) (S (length A)) = Some (fst z)).
    { replace (map fst A ++ fst a :: fst z :: dead) with ((map fst A ++ [fst a]) ++ fst z :: dead)
        by now rewrite <- app_assoc.
      apply nth_app'. rewrite app_length, map_length; cbn; lia. }
    rewrite Hn1. rewrite nth_app' by now rewrite map_length.
    apply SS_app in Hd as (Hd & _ & Hle).
    destruct (comp_gt (fst z) (fst a)) eqn:E.
    + assert (Hsw : swap (S (length A)) (length A) (map fst A ++ fst a :: fst z :: dead) =
                    map fst A ++ fst z :: fst a :: dead).
      { rewrite <- (map_length (@fst pitr (list elem)) A) at 1 2. apply swap_adj. }
      rewrite Hsw. destruct (IH z (fst a :: dead) Hd) as (B & HB & Hp & HdB).
      exists (B ++ [a]). split; [|split].
      * rewrite HB, map_app, <- app_assoc. reflexivity.
      * rewrite Hp, <- !app_assoc. cbn [app]. apply Permutation_app_head. apply perm_swap.
      * apply SS_app. split; [auto|]. split; [repeat constructor|].
        intros x y Hx [<-|[]]. eapply Permutation_in in Hx; [|exact Hp].
        apply in_app_or in Hx as [Hx|[<-|[]]].
        -- apply Hle; auto. now left.
        -- unfold comp_gt in E. lia.
    + exists ((A ++ [a]) ++ [z]). split; [|split].
      * rewrite !map_app, <- !app_assoc. reflexivity.
      * rewrite <- app_assoc. reflexivity.
      * apply SS_app. split; [|split; [repeat constructor|]].
        -- apply SS_app; repeat split; auto. repeat constructor.
        -- unfold comp_gt in E. intros x y Hx [<-|[]]. apply in_app_or in Hx as [Hx|[<-|[]]]; [|lia].
           specialize (Hle x a Hx (or_introl eq_refl)). lia.
Qed.
Lemma rearrange_desc sf (P : list (pitr * list elem)) dead :
  std_sort comp_gt sf ->
  exists B, comp_rearrange sf true (length P) (map fst P ++ dead) = map fst B ++ dead /\
    Permutation B P /\ descg B.
Proof.
  intros Hsf. unfold comp_rearrange.
  destruct P as [|p [|q [|r P]]].
  - exists []. cbn. repeat split; auto. constructor.
  - exists [p]. cbn. repeat split; auto. repeat constructor.
  - cbn [length map app negb andb]. rewrite Bool.orb_false_r.
    destruct (value1 (fst p) <? value1 (fst q)) eqn:E.
    + exists [q; p]. split; [reflexivity|]. split; [constructor|].
      constructor; [repeat constructor|]. constructor; [|constructor]. lia.
    + exists [p; q]. split; [reflexivity|]. split; [reflexivity|]. constructor; [repeat constructor|].
      constructor; [|constructor]. lia.
  - set (P' := p :: q :: r :: P) in *.
    assert (Hl : length P' = S (S (S (length P)))) by reflexivity.
    rewrite Hl. cbn [Nat.ltb Nat.leb]. rewrite <- Hl.
    destruct (rearrange_len P' dead) as [-> ->].
    destruct (Hsf (map fst P')) as [Hp Hs].
    destruct (desc_perm_fst P' _ Hp) as (B & HB & HpB).
    exists B. rewrite HB. repeat split; auto.
    unfold descg. rewrite <- HB in Hs. apply (SS_map (fun a b => comp_gt b a = false) fst) in Hs.
    clear - Hs. induction Hs as [|b B Hs IH Hf]; constructor; auto.
    eapply Forall_impl; [|exact Hf]. intros y Hy. cbn beta in Hy. unfold comp_gt in Hy. lia.
Qed.

(** The sum of the counts. *)
Definition hcount (v : Z) (p : pitr * list elem) : Z :=
  if value1 (fst p) =? v then match snd p with x :: _ => snd x | [] => 0 end else 0.
Fixpoint csum (v : Z) (P : list (pitr * list elem)) : Z :=
  match P with [] => 0 | p :: t => hcount v p + csum v t end.
Lemma csum_app v P Q : csum v (P ++ Q) = csum v P + csum v Q.
Proof. induction P as [|p P IH]; [reflexivity|]. cbn [app csum]. rewrite IH. lia. Qed.
Lemma counts_loop k v (P : list (pitr * list elem)) : forall rest acc,
  Forall (St k) P ->
  comp_counts (length P) v (map fst P ++ rest) acc = Some (map fst P ++ rest, acc + csum v P).
Proof.
  induction P as [|p P IH] using rev_ind; intros rest acc HP; [cbn; now rewrite Z.add_0_r|].
  apply Forall_app in HP as [HP Hp]. inversion Hp as [|? ? (x & t & Es & (C & V & T) & _) _]; subst.
  rewrite app_length, Nat.add_1_r. cbn [comp_counts]. rewrite map_app, <- app_assoc. cbn [map app].
  rewrite nth_app' by now rewrite map_length.
  rewrite csum_app. cbn [csum]. assert (Hh : hcount v p = if value1 (fst p) =? v then snd x else 0).
  { unfold hcount. now rewrite Es. }
  rewrite Hh. destruct (value1 (fst p) =? v) eqn:E.
  - rewrite C. rewrite upd_app' by now rewrite map_length. rewrite IH by auto.
    do 2 f_equal. lia.
  - rewrite IH by auto. do 2 f_equal. lia.
Qed.

(** The entry delivered next: the smallest value, with the sum of the counts. *)
Lemma csum_wt k v P : Forall (St k) P -> Forall (fun p => v <= value1 (fst p)) P ->
  csum v P = wt (contents P) k v.
Proof.
  induction 1 as [|p P Hp HP IH]; intros H; [reflexivity|]. inversion H; subst. cbn [csum].
  unfold contents. cbn [map concat]. rewrite wt_app. fold (contents P). rewrite IH by auto. f_equal.
  destruct (St_value _ _ Hp) as (x & t & E & V & K). unfold hcount. rewrite E, V.
  destruct Hp as (x' & t' & E' & _ & Gs & _ & Gk). rewrite wt_cons, wt_zero.
  - destruct (Z.eqb_spec (gv x) v), (Z.eqb_spec (gk x) k); cbn [andb]; lia.
  - intros y Hy Ky Vy. rewrite E in Gs. inversion Gs as [|? ? _ F]; subst. rewrite Forall_forall in F.
    specialize (F y Hy). apply group_lt_alt in F. lia.
Qed.
Lemma heads_wt k v Z k' v' : Forall (St k) Z -> Forall (fun p => value1 (fst p) = v) Z ->
  wt (contents Z) k' v' = wt (rests Z) k' v' + (if (k =? k') && (v =? v') then csum v Z else 0).
Proof.
  induction 1 as [|p Z Hp HZ IH]; intros H; [cbn; destruct (_ && _); reflexivity|]. inversion H; subst.
  unfold contents, rests in *. cbn [map concat csum]. rewrite !wt_app, IH by auto.
  destruct (St_value _ _ Hp) as (x & t & E & V & K). unfold hcount. rewrite E, Z.eqb_refl. cbn [tl].
  rewrite wt_cons, K, <- V. destruct (_ && _); lia.
Qed.
Lemma contents_pos k P : Forall (St k) P -> gpos (contents P).
Proof.
  unfold gpos, contents. induction 1 as [|p P Hp HP IH]; cbn; [constructor|]. apply Forall_app. split; auto.
  destruct Hp as (? & ? & _ & _ & _ & G & _). exact G.
Qed.
Lemma desc_split v B : descg B -> Forall (fun p => v <= value1 (fst p)) B ->
  exists A Z, B = A ++ Z /\ Forall (fun p => value1 (fst p) = v) Z /\ Forall (fun p => value1 (fst p) <> v) A.
Proof.
  induction 1 as [|b B Hs IH Hf]; intros H; [exists [], []; auto|]. inversion H as [|? ? Hb HB]; subst.
  destruct (Z.eq_dec (value1 (fst b)) v) as [E|E].
  - exists [], (b :: B). split; auto. split; auto. constructor; auto.
    rewrite Forall_forall in *. intros p Hp. specialize (Hf p Hp). specialize (HB p Hp). lia.
  - destruct (IH HB) as (A & Z & -> & H1 & H2). exists (b :: A), Z. auto.
Qed.
Lemma tally_deliver k x R B :
  Forall (St k) B -> descg B -> rep (x :: R) (wt (contents B)) ->
  exists A Z z, B = A ++ Z ++ [z] /\ gk x = k /\
    Forall (fun p => value1 (fst p) = gv x) (Z ++ [z]) /\ Forall (fun p => value1 (fst p) <> gv x) A /\
    csum (gv x) B = snd x /\ rep R (wt (rests (Z ++ [z]) ++ contents A)).
Proof.
  intros HB Hd (Gs & Gp & Gw).
  destruct (@exists_last _ B) as (B0 & z & ->).
  { intros ->. specialize (Gw (gk x) (gv x)). rewrite (wt_in _ _ _ (snd x)) in Gw.
    - cbn in Gw. inversion Gp; lia.
    - auto.
    - left. destruct x as [[? ?] ?]. reflexivity. }
  assert (Hmin : Forall (fun p => value1 (fst z) <= value1 (fst p)) (B0 ++ [z])).
  { apply SS_app in Hd as (_ & _ & H). apply Forall_app. split; [|repeat constructor; lia].
    apply Forall_forall. intros p Hp. apply H; auto. now left. }
  assert (Hz : exists y ty, snd z = y :: ty /\ value1 (fst z) = gv y /\ gk y = k).
  { apply (St_value k). apply Forall_app in HB as [_ HB]. now inversion HB. }
  destruct Hz as (y & ty & Ey & Vz & Ky).
  pose proof (contents_pos _ _ HB) as Cp.
  assert (Hx0 : 0 < wt (x :: R) (gk x) (gv x)).
  { rewrite (wt_in _ _ _ (snd x)); [inversion Gp; auto|auto|left; destruct x as [[? ?] ?]; reflexivity]. }
  rewrite Gw in Hx0. destruct (wt_pos_in _ _ _ Cp Hx0) as (n & Hn).
  unfold contents in Hn. apply in_concat in Hn as (l & Hl & Hn). apply in_map_iff in Hl as (p & <- & Hp).
  assert (Hle : gk x = k /\ value1 (fst z) <= gv x).
  { rewrite Forall_forall in HB, Hmin. specialize (Hmin p Hp). specialize (HB p Hp).
    destruct (St_value _ _ HB) as (h & th & Eh & Vh & Kh). destruct HB as (? & ? & _ & _ & Gs' & _ & Gk').
    rewrite Forall_forall in Gk'. pose proof (Gk' _ Hn) as Kx. unfold gk at 1 in Kx. cbn [fst] in Kx.
    split; auto. rewrite Eh in Hn, Gs'. destruct Hn as [->|Hn].
    - unfold gv at 1 in Vh. cbn [fst snd] in Vh. lia.
    - inversion Gs' as [|? ? _ F]; subst. rewrite Forall_forall in F. specialize (F _ Hn). apply group_lt_alt in F.
      unfold gk, gv in *. cbn [fst snd] in *. lia. }
  destruct Hle as [Kx Hle].
  assert (Hin : exists m, In (k, value1 (fst z), m) (x :: R)).
  { apply wt_pos_in; auto. rewrite Gw, contents_app, wt_app.
    apply Forall_app in HB as [HB0 HBz]. pose proof (wt_nonneg _ k (value1 (fst z)) (contents_pos _ _ HB0)).
    pose proof (contents_pos _ _ HBz) as Hzp. unfold contents in *. cbn [map concat] in *. rewrite Ey in *. cbn [app] in *.
    rewrite wt_cons, Ky, Vz, !Z.eqb_refl. cbn [andb]. inversion Hzp as [|? ? H1 H2]; subst.
    pose proof (wt_nonneg _ (gk y) (gv y) H2). rewrite Vz in H. lia. }
  assert (Ev : value1 (fst z) = gv x).
  { destruct Hin as (m & [E|Hin]).
    - rewrite E. reflexivity.
    - pose proof (proj2 (StronglySorted_inv Gs)) as F. rewrite Forall_forall in F. specialize (F _ Hin). apply group_lt_alt in F.
      change (gk (k, value1 (fst z), m)) with k in F. change (gv (k, value1 (fst z), m)) with (value1 (fst z)) in F. lia. }
  rewrite Ev in Hmin. pose proof Hmin as Hmin'. apply Forall_app in Hmin' as [Hmin0 _].
  destruct (desc_split (gv x) B0) as (A & Z & -> & HZ & HA); auto.
  { apply SS_app in Hd. tauto. }
  exists A, Z, z. rewrite <- app_assoc. split; auto. split; auto.
  assert (HZz : Forall (fun p => value1 (fst p) = gv x) (Z ++ [z])) by (apply Forall_app; split; auto).
  split; auto. split; auto.
  assert (Hc : csum (gv x) (A ++ Z ++ [z]) = snd x).
  { rewrite <- app_assoc in HB, Hmin, Gw. rewrite (csum_wt k) by auto. rewrite <- Gw, <- Kx. apply wt_in; auto.
    left. destruct x as [[? ?] ?]; reflexivity. }
  split; auto. split; [apply (StronglySorted_inv Gs)|]. split; [apply (Forall_inv_tail Gp)|]. intros k' v'.
  specialize (Gw k' v'). rewrite <- app_assoc, contents_app, wt_app in Gw.
  rewrite <- app_assoc in HB. apply Forall_app in HB as [HB1 HB2]. rewrite (heads_wt k (gv x) (Z ++ [z]) k' v' HB2 HZz) in Gw.
  rewrite wt_app. rewrite wt_cons, Kx in Gw. rewrite csum_app in Hc.
  assert (HcA : csum (gv x) A = 0).
  { clear - HA. induction HA as [|p A Hp _ IH]; [reflexivity|]. cbn [csum]. rewrite IH. unfold hcount.
    destruct (Z.eqb_spec (value1 (fst p)) (gv x)); [contradiction|reflexivity]. }
  destruct (_ && _); lia.
Qed.

(** State after next, second column ignored. *)
Definition comp_T (k : Z) (R : list elem) (s : comp_st) : Prop :=
  exists A Z dead,
    c_children s = map fst (A ++ Z) ++ dead /\ c_active s = length (A ++ Z) /\
    c_hnc s = false /\ c_ign s = true /\ c_key s = k /\ Z <> [] /\
    (c_sorted s = true \/ length (A ++ Z) = 1%nat) /\
    Forall (St k) (A ++ Z) /\ descg A /\
    Forall (fun p => value1 (fst p) = c_v1 s) Z /\ Forall (fun p => value1 (fst p) <> c_v1 s) A /\
    rep R (wt (rests Z ++ contents A)).

(** The part of next after the children have been moved. *)
Definition comp_land (s : comp_st) (ch : list pitr) (srt : bool) (v n : Z) : comp_st :=
  mkComp ch (c_active s) v (c_v2 s) (c_key s) true (c_hn s) false srt (c_decr s) n (c_saved s).

Lemma land_ok k x R B dead s last :
  Forall (St k) B -> descg B -> rep (x :: R) (wt (contents B)) ->
  c_active s = S last -> S last = length B -> c_ign s = true -> c_key s = k ->
  exists c, nth_error (map fst B ++ dead) last = Some c /\ value1 c = gv x /\
    comp_counts (c_active s) (value1 c) (map fst B ++ dead) 0 = Some (map fst B ++ dead, snd x) /\
    forall srt, srt = true \/ length B = 1%nat -> comp_T k R (comp_land s (map fst B ++ dead) srt (gv x) (snd x)).
Proof.
  intros HB Hd Hr Ha Hl Hi Hk.
  destruct (tally_deliver k x R B HB Hd Hr) as (A & Z & z & E & Kx & HZ & HA & Hc & Hr').
  exists (fst z). assert (El : last = length (A ++ Z)).
  { rewrite E, app_assoc, app_length in Hl. cbn in Hl. lia. }
  assert (Ez : value1 (fst z) = gv x) by (apply Forall_app in HZ as [_ HZ]; now inversion HZ).
  split; [|split; [auto|split]].
  - rewrite E, app_assoc, map_app, <- app_assoc. cbn [map app]. apply nth_app'. now rewrite map_length.
  - rewrite Ha, Hl, Ez, (counts_loop k) by auto. now rewrite Hc.
  - intros srt Hs. exists A, (Z ++ [z]), dead. cbn. rewrite <- E. repeat split; auto.
    + congruence.
    + destruct Z; discriminate.
    + rewrite E in Hd. apply SS_app in Hd. tauto.
    + apply Hr'.
    + apply Hr'.
    + apply Hr'.
Qed.

(** State before next, second column ignored. *)
Definition comp_Q (k : Z) (R : list elem) (s : comp_st) : Prop :=
  exists A Zk dead,
    c_children s = map fst (A ++ Zk) ++ dead /\ c_active s = length (A ++ Zk) /\
    c_hnc s = true /\ c_hn s = nonempty R /\ c_ign s = true /\ c_key s = k /\
    c_decr s = negb (nonempty Zk) /\
    Forall (St k) A /\ descg A /\
    Forall (fun p => negb (c_sorted s) || (c_v1 s =? value1 (fst p)) = false) A /\
    Forall (fun p => Rd k p /\ negb (c_sorted s) || (c_v1 s =? value1 (fst p)) = true) Zk /\
    rep R (wt (contents Zk ++ contents A)).

Lemma rep_wt_perm R l l' : Permutation l l' -> rep R (wt l) -> rep R (wt l').
Proof. intros H. apply rep_ext. intros. now apply wt_perm. Qed.

Lemma Q_next sf k x R s : std_sort comp_gt sf -> comp_Q k (x :: R) s ->
  exists s', comp_next sf s = Some s' /\ comp_T k R s' /\ c_v1 s' = gv x /\ c_count s' = snd x /\ c_key s' = k.
Proof.
  intros Hsf (A & Zk & dead & Hch & Hact & Hhnc & Hhn & Hign & Hkey & Hdec & HA & Hd & HcA & HcZ & Hr).
  assert (Hne : A ++ Zk <> []).
  { intros E. apply app_eq_nil in E as [-> ->]. cbn in Hr. destruct Hr as (Gs & Gp & Gw).
    specialize (Gw (gk x) (gv x)). rewrite (wt_in _ _ _ (snd x)) in Gw; auto.
    - cbn in Gw. inversion Gp; lia.
    - left. destruct x as [[? ?] ?]; reflexivity. }
  assert (exists last, c_active s = S last) as (last & Hlast).
  { rewrite Hact. destruct (A ++ Zk); [contradiction|]. eexists; reflexivity. }
  assert (Zk = [] \/ exists Z z, Zk = Z ++ [z]) as [-> | (Z & z & ->)].
  { destruct Zk as [|w mid]; [now left|right]. destruct (@exists_last _ (w :: mid)) as (a & b & ->); [discriminate|eauto]. }
  - (* nothing to move *)
    cbn [nonempty negb] in Hdec. rewrite app_nil_r in *. cbn [contents map concat app] in Hr.
    assert (Hs : c_sorted s = true).
    { destruct A as [|a A]; [contradiction|]. inversion HcA; subst. destruct (c_sorted s); auto. }
    destruct (land_ok k x R A dead s last) as (c & Hc & Hv & Hn & Ht); auto; [congruence|].
    exists (comp_land s (map fst A ++ dead) true (gv x) (snd x)). split; [|split; [apply Ht; now left|auto]].
    unfold comp_next. rewrite Hhnc, Hlast, Hdec, Hch, Hc. cbn iota. rewrite Hign. cbn [negb].
    rewrite Hlast in Hn. rewrite Hn, Hs, Hv. unfold comp_land. now rewrite Hlast, Hdec.
  - replace (nonempty (Z ++ [z])) with true in Hdec by (destruct Z; reflexivity). cbn [negb] in Hdec.
    apply Forall_app in HcZ as [HcZ Hz]. inversion Hz as [|? ? [(y & t & o & Es & Hn & So & Gs & Gp & Gk) Hcz] _]; subst.
    destruct (next_others_loop (c_key s) (c_sorted s) (c_v1 s) A HcA Z (o :: dead) false HcZ) as (Q & E & HQ & HQP).
    assert (Ell : last = length (A ++ Z)).
    { rewrite Hlast in Hact. rewrite app_assoc, app_length in Hact. cbn in Hact. lia. }
    assert (HlQ : length Q = length Z) by (rewrite <- (map_length snd Q), HQ, map_length; auto).
    assert (HP : Forall (St (c_key s)) (A ++ Q ++ [(o, snd z)])).
    { apply Forall_app; split; auto. apply Forall_app; split; auto. constructor; [|constructor]. exists y, t. auto. }
    assert (exists B srt,
       (if nonempty Z then (comp_rearrange sf true (S last) (map fst (A ++ Q) ++ o :: dead), true)
        else (comp_bubble last (map fst (A ++ Q) ++ o :: dead), c_sorted s)) = (map fst B ++ dead, srt) /\
        Permutation B (A ++ Q ++ [(o, snd z)]) /\ descg B /\ (srt = true \/ length B = 1%nat))
      as (B & srt & HB & HpB & HdB & Hsrt).
    { destruct Z as [|a Z'] eqn:EZ.
      - destruct Q; [|discriminate]. rewrite app_nil_r in *. cbn [nonempty app].
        destruct (bubble_desc A (o, snd z) dead Hd) as (B & E1 & E2 & E3). cbn [fst] in E1.
        exists B, (c_sorted s). rewrite Ell, E1. split; auto. split; auto. split; auto.
        destruct A as [|a A].
        + right. apply Permutation_length in E2. exact E2.
        + left. inversion HcA; subst. destruct (c_sorted s); auto.
      - destruct (rearrange_desc sf (A ++ Q ++ [(o, snd z)]) dead Hsf) as (B & E1 & E2 & E3).
        exists B, true. cbn [nonempty]. replace (S last) with (length (A ++ Q ++ [(o, snd z)])).
        + replace (map fst (A ++ Q) ++ o :: dead) with (map fst (A ++ Q ++ [(o, snd z)]) ++ dead).
          * rewrite E1. auto.
          * rewrite !map_app, <- !app_assoc. reflexivity.
        + rewrite Ell, !app_length, HlQ. cbn. lia. }
    assert (HPB : Forall (St (c_key s)) B).
    { eapply Permutation_Forall; [symmetry; exact HpB|]. exact HP. }
    assert (Hlen : S last = length B).
    { apply Permutation_length in HpB. rewrite HpB, Ell, !app_length, HlQ. cbn. lia. }
    destruct (land_ok (c_key s) x R B dead s last) as (c & Hc & Hv & Hn' & Ht); auto.
    { eapply rep_wt_perm; [|exact Hr]. rewrite (contents_perm _ _ HpB). unfold contents.
      rewrite !map_app, !concat_app, HQ. cbn. apply Permutation_app_comm. }
    exists (comp_land s (map fst B ++ dead) srt (gv x) (snd x)). split; [|split; [apply Ht; auto|auto]].
    unfold comp_next. rewrite Hhnc, Hlast, Hdec, Hch. cbn iota.
    rewrite (app_assoc A Z), map_app, <- app_assoc. cbn [map app].
    rewrite nth_app' by now rewrite map_length. rewrite Hn.
    rewrite upd_app' by now rewrite map_length. rewrite Hign, Bool.orb_true_r, Ell, E. cbn [orb].
    assert (Hif : (if nonempty Z
          then Some (comp_rearrange sf true (S (length (A ++ Z))) (map fst (A ++ Q) ++ o :: dead), true)
          else Some (comp_bubble (length (A ++ Z)) (map fst (A ++ Q) ++ o :: dead), c_sorted s)) = Some (map fst B ++ dead, srt)).
    { rewrite <- HB, Ell. destruct (nonempty Z); reflexivity. }
    rewrite Hif. rewrite Ell in Hc. rewrite Hc. cbn [negb].
    rewrite Hlast, Ell in Hn'. rewrite Hn', Hv. unfold comp_land. now rewrite Hlast, Hdec, Ell.
Qed.

Lemma T_poll k R s : comp_T k R s ->
  exists s1, comp_hasNext s = Some (nonempty R, s1) /\ comp_Q k R s1 /\ c_v1 s1 = c_v1 s /\ c_key s1 = k.
Proof.
  intros (A & Z & dead & Hch & Hact & Hhnc & Hign & Hkey & HZ & Hsrt & HP & Hd & HvZ & HvA & Hr).
  apply Forall_app in HP as [HPA HPZ].
  destruct (hn_ign_loop k (c_v1 s) A HvA Z [] dead false false) as (Zk & dead' & decr' & E & H1 & H2 & _ & H4); auto.
  { apply Forall_forall. intros p Hp. rewrite Forall_forall in *. auto. }
  cbn [map app length] in E. rewrite Nat.add_0_r in E.
  unfold contents in H2 at 2. cbn [map concat] in H2. rewrite app_nil_r in H2.
  assert (Hr' : rep R (wt (contents Zk ++ contents A))).
  { eapply rep_wt_perm; [|exact Hr]. now rewrite H2. }
  assert (Hnb : (0 <? length (A ++ Zk))%nat = nonempty R).
  { destruct R as [|x R].
    - assert (HA0 : A = []).
      { destruct A as [|a A]; auto. exfalso. destruct Hr' as (_ & _ & Gw). inversion HPA as [|? ? Ha _]; subst.
        destruct (St_value _ _ Ha) as (y & t & Ey & _ & _). specialize (Gw (gk y) (gv y)).
        rewrite wt_app in Gw. unfold contents at 2 in Gw. cbn [map concat] in Gw. rewrite Ey in Gw. cbn [app] in Gw.
        rewrite wt_cons, !Z.eqb_refl, wt_app in Gw. cbn [andb] in Gw.
        pose proof (contents_pos _ _ HPA) as Cp. unfold contents in Cp. cbn [map concat] in Cp. rewrite Ey in Cp.
        cbn [app] in Cp. inversion Cp as [|? ? C1 C2]; subst. unfold gpos in *. apply Forall_app in C2 as [C2 C3].
        pose proof (wt_nonneg _ (gk y) (gv y) C2). pose proof (wt_nonneg _ (gk y) (gv y) C3).
        assert (Cz : gpos (contents Zk)).
        { clear - H1. unfold gpos, contents. induction H1 as [|p P [Hp _] HP IH]; cbn; [constructor|]. apply Forall_app. split; auto.
          destruct Hp as (? & ? & ? & _ & _ & _ & _ & G & _). exact G. }
        pose proof (wt_nonneg _ (gk y) (gv y) Cz). cbn in Gw. lia. }
      subst A. destruct Zk as [|z Zk]; [reflexivity|]. exfalso.
      destruct Hr' as (_ & _ & Gw). unfold contents at 2 in Gw. cbn [map concat] in Gw. 
      inversion H1 as [|? ? [(y & t & o & Ey & _ & _ & _ & Gp & _) _] H1']; subst.
      specialize (Gw (gk y) (gv y)). rewrite app_nil_r in Gw. unfold contents in Gw. cbn [map concat] in Gw. rewrite Ey in Gw. cbn [app] in Gw.
      rewrite wt_cons, !Z.eqb_refl, wt_app in Gw. cbn [andb] in Gw. rewrite Ey in Gp. inversion Gp as [|? ? C1 C2]; subst.
      pose proof (wt_nonneg _ (gk y) (gv y) C2).
      assert (Cz : gpos (contents Zk)).
      { clear - H1'. unfold gpos, contents. induction H1' as [|p P [Hp _] HP IH]; cbn; [constructor|]. apply Forall_app. split; auto.
        destruct Hp as (? & ? & ? & _ & _ & _ & _ & G & _). exact G. }
      pose proof (wt_nonneg _ (gk y) (gv y) Cz). unfold contents in *. cbn in Gw. lia.
    - assert (A ++ Zk <> []).
      { intros E0. apply app_eq_nil in E0 as [-> ->]. destruct Hr' as (Gs & Gp & Gw).
        specialize (Gw (gk x) (gv x)). rewrite (wt_in _ _ _ (snd x)) in Gw; auto.
        - cbn in Gw. inversion Gp; lia.
        - left. destruct x as [[? ?] ?]; reflexivity. }
      destruct (A ++ Zk); [contradiction|reflexivity]. }
  eexists. split; [|split; [|split]].
  - unfold comp_hasNext. rewrite Hhnc, Hact. destruct (length (A ++ Z)) as [|last] eqn:El.
    { destruct A; [|discriminate]. destruct Z; [contradiction|discriminate]. }
    rewrite Hign, Hch. cbn [negb]. rewrite E. cbn iota zeta. rewrite Hnb. reflexivity.
  - exists A, Zk, dead'. cbn. repeat split; auto.
    + destruct Zk; cbn; [rewrite H4; auto|]. destruct decr'; reflexivity.
    + apply Forall_forall. intros p Hp. rewrite Forall_forall in HvA. specialize (HvA p Hp).
      destruct Hsrt as [-> | Hl].
      * cbn. lia.
      * rewrite app_length in Hl. destruct A; [contradiction|]. destruct Z; [contradiction|]. cbn in Hl. lia.
    + eapply Forall_impl; [|exact H1]. intros p [Hp Hv]. split; auto. rewrite Hv, Z.eqb_refl. apply Bool.orb_true_r.
    + apply Hr'.
    + apply Hr'.
    + apply Hr'.
  - reflexivity.
  - exact Hkey.
Qed.

Lemma Q_hasNext k R s : comp_Q k R s -> comp_hasNext s = Some (nonempty R, s).
Proof. intros (A & Zk & dead & _ & _ & H & H' & _). unfold comp_hasNext. now rewrite H, H'. Qed.

Lemma T_polls sf k R s o : comp_T k R s -> polls (comp_obj sf s) o ->
  exists s', o = comp_obj sf s' /\ c_v1 s' = c_v1 s /\ c_key s' = k /\ (s' = s \/ comp_Q k R s').
Proof.
  intros HT Hp. destruct (T_poll _ _ _ HT) as (s1 & E & HQ & V & K).
  assert (Hk : c_key s = k) by (destruct HT as (? & ? & ? & _ & _ & _ & _ & H & _); exact H).
  induction Hp as [|a b c Hp (s' & -> & V' & K' & Hs) Hn].
  - exists s. auto.
  - rewrite comp_obj_hasNext in Hn. destruct Hs as [-> | Hs].
    + rewrite E in Hn. injection Hn as <- <-. exists s1. auto.
    + rewrite (Q_hasNext _ _ _ Hs) in Hn. injection Hn as <- <-. exists s'. auto.
Qed.

Lemma T_tallies sf k R : std_sort comp_gt sf -> forall s, comp_T k R s -> Tallies R (comp_obj sf s).
Proof.
  intros Hsf. induction R as [|x R IH]; intros s HT; destruct (T_poll _ _ _ HT) as (s1 & E & HQ & V & K).
  - eapply Tallies_intro; [rewrite comp_obj_hasNext, E; reflexivity| |exact I].
    now rewrite comp_obj_hasNext, (Q_hasNext _ _ _ HQ).
  - eapply Tallies_intro; [rewrite comp_obj_hasNext, E; reflexivity| |].
    + now rewrite comp_obj_hasNext, (Q_hasNext _ _ _ HQ).
    + destruct (Q_next sf k x R s1 Hsf HQ) as (s2 & E2 & HT2 & V2 & C2 & K2).
      exists (comp_obj sf s2). rewrite comp_obj_next, E2. split; auto.
      assert (Kx : gk x = k).
      { clear - HQ. destruct HQ as (A & Zk & dead & _ & _ & _ & _ & _ & _ & _ & HA & _ & _ & HZ & (Gs & Gp & Gw)).
        assert (Hx0 : 0 < wt (x :: R) (gk x) (gv x)).
        { rewrite (wt_in _ _ _ (snd x)); [inversion Gp; auto|auto|left; destruct x as [[? ?] ?]; reflexivity]. }
        rewrite Gw in Hx0.
        assert (Cp : gpos (contents Zk ++ contents A)).
        { apply Forall_app. split; [|apply (contents_pos _ _ HA)].
          clear - HZ. unfold contents. induction HZ as [|p P [Hp _] HP IH]; cbn; [constructor|]. apply Forall_app. split; auto.
          destruct Hp as (? & ? & ? & _ & _ & _ & _ & G & _). exact G. }
        destruct (wt_pos_in _ _ _ Cp Hx0) as (n & Hn). apply in_app_or in Hn as [Hn|Hn];
          unfold contents in Hn; apply in_concat in Hn as (l & Hl & Hn); apply in_map_iff in Hl as (p & <- & Hp); rewrite Forall_forall in HA, HZ.
        - destruct (HZ p Hp) as [(? & ? & ? & _ & _ & _ & _ & _ & G) _]. rewrite Forall_forall in G. apply (G _ Hn).
        - destruct (HA p Hp) as (? & ? & _ & _ & _ & _ & G). rewrite Forall_forall in G. apply (G _ Hn). }
      split; [|split].
      * rewrite comp_obj_count, C2. reflexivity.
      * intros o Ho. destruct (T_polls _ _ _ _ _ HT2 Ho) as (s3 & -> & V3 & K3 & _). cbn [key value1 comp_obj].
        change (c_key s3 = gk x /\ c_v1 s3 = gv x). split; congruence.
      * apply IH; auto.
Qed.

(** CompositeItr: ignoring the second column at the start. *)
Lemma ign_loop (P : list (pitr * list elem)) : forall rest acc,
  Forall (fun p => exists o1, ignoreSecondColumn (fst p) = Some o1 /\ TReady (snd p) o1) P ->
  exists Q, comp_ign_loop (length P) (-1) (map fst P ++ rest) acc = Some (map fst Q ++ rest, acc) /\
    map snd Q = map snd P /\ Forall (fun p => TReady (snd p) (fst p)) Q.
Proof.
  induction P as [|p P IH] using rev_ind; intros rest acc HP; [exists []; auto|].
  apply Forall_app in HP as [HP Hp]. inversion Hp as [|? ? (o1 & E & T) _]; subst.
  rewrite app_length, Nat.add_1_r. cbn [comp_ign_loop]. rewrite map_app, <- app_assoc. cbn [map app].
  rewrite nth_app' by now rewrite map_length. rewrite E. cbn [negb andb Z.eqb].
  change (-1 =? -1) with true. cbn [negb andb].
  rewrite upd_app' by now rewrite map_length.
  destruct (IH (o1 :: rest) acc HP) as (Q & E1 & E2 & E3).
  exists (Q ++ [(o1, snd p)]). split; [|split].
  - rewrite E1, map_app, <- app_assoc. reflexivity.
  - rewrite !map_app, E2. reflexivity.
  - apply Forall_app. split; auto.
Qed.

Definition key_is (k : Z) (l : list elem) : Prop := Forall (fun x => fst (fst x) = k) l.

Lemma tally_keys k l g : key_is k l -> is_tally l g -> Forall (fun y => gk y = k) g.
Proof.
  intros Hk [_ H]. apply Forall_forall. intros [[a b] n] Hx. apply H in Hx as [-> Hn].
  apply count_pos in Hn as (x & Hx & <- & _). unfold key_is in Hk. rewrite Forall_forall in Hk.
  exact (Hk x Hx).
Qed.
Lemma tally_nonempty l g : is_tally l g -> l <> [] -> g <> [].
Proof.
  intros [_ H] Hl ->. destruct l as [|x l]; [contradiction|].
  destruct (proj2 (H (gk x) (gv x) (count_of (x :: l) (gk x) (gv x)))).
  split; auto. apply count_pos. exists x. split; [now left|auto].
Qed.
Lemma tally_nil l : is_tally l [] -> l = [].
Proof. intros H. destruct l; auto. exfalso. eapply tally_nonempty; eauto. discriminate. Qed.

Lemma comp_ignores sf k P R :
  std_sort comp_gt sf -> P <> [] ->
  Forall (fun p => snd p <> [] /\ key_is k (snd p) /\
    exists o1 g, ignoreSecondColumn (fst p) = Some o1 /\ is_tally (snd p) g /\ TReady g o1) P ->
  Permutation R (contents P) ->
  exists o1 g, ignoreSecondColumn (new_comp_itr sf (map fst P) k) = Some o1 /\ is_tally R g /\ TReady g o1.
Proof.
  intros Hsf Hne HP HR.
  assert (exists G, map fst G = map fst P /\
    Forall (fun p => exists o1, ignoreSecondColumn (fst p) = Some o1 /\ TReady (snd p) o1) G /\
    Forall (fun p => snd p <> [] /\ gsorted (snd p) /\ gpos (snd p) /\ Forall (fun y => gk y = k) (snd p)) G /\
    forall a b, wt (contents G) a b = count_of (contents P) a b) as (G & EG & HG & HG2 & HW).
  { clear - HP. induction HP as [|p P (Hl & Hk & o1 & g & E & T & TR) HP IH].
    - exists []. repeat split; auto.
    - destruct IH as (G & EG & HG & HG2 & HW). exists ((fst p, g) :: G). cbn [map fst]. rewrite EG.
      split; auto. split; [constructor; eauto|].
      pose proof (proj1 (rep_tally _ _) T) as (Gs & Gp & Gw). split.
      + constructor; auto. cbn. split; [eapply tally_nonempty; eauto|]. split; auto. split; auto. eapply tally_keys; eauto.
      + intros a b. unfold contents in *. cbn [map concat snd]. rewrite wt_app, count_app, HW, Gw. reflexivity. }
  destruct (tally_exists R) as (g & Tg).
  assert (Hr : rep g (wt (contents G))).
  { eapply rep_ext; [|apply rep_tally; exact Tg]. intros a b. rewrite HW. now apply count_perm. }
  destruct (ign_loop G [] 0 HG) as (Q & E1 & E2 & E3). rewrite !app_nil_r in E1.
  assert (Hlen : length P = length G) by (rewrite <- (map_length fst P), <- EG, map_length; auto).
  assert (HG0 : G <> []) by (intros ->; destruct P; [contradiction|discriminate]).
  assert (Hg0 : g <> []).
  { intros ->. destruct P as [|p P]; [contradiction|]. inversion HP as [|? ? (Hl & _) _]; subst.
    apply tally_nil in Tg. subst. unfold contents in HR. cbn in HR. apply Permutation_nil in HR. apply app_eq_nil in HR as [HR _]. auto. }
  assert (HQne : Q <> []) by (intros ->; destruct G; [contradiction|discriminate]).
  set (s := comp_init (map fst P) k).
  assert (HQ : comp_Q k g (mkComp (map fst Q) (c_active s) (c_v1 s) (c_v2 s) (c_key s) true (c_hn s) (c_hnc s)
          (c_sorted s) (c_decr s) 0 (c_saved s))).
  { exists [], Q, []. cbn. rewrite !app_nil_r. split; auto. split.
    { rewrite map_length, Hlen, <- (map_length snd G), <- E2, map_length. reflexivity. }
    split; auto. split; [destruct P; [contradiction|]; destruct g; [contradiction|reflexivity]|]. split; auto. split; auto.
    split; [destruct Q; [contradiction|reflexivity]|]. split; [constructor|]. split; [constructor|]. split; [constructor|]. split.
    - assert (H : Forall (fun l => l <> [] /\ gsorted l /\ gpos l /\ Forall (fun y => gk y = k) l) (map snd Q)).
      { rewrite E2. apply Forall_map. exact HG2. }
      apply Forall_map in H. rewrite Forall_forall in *. intros p Hp. split; auto.
      destruct (H p Hp) as (H1 & H2 & H3 & H4). destruct (E3 p Hp) as (_ & _ & Hm).
      destruct p as [c l]; cbn [fst snd] in *. destruct l as [|x t]; [contradiction|]. destruct Hm as (o2 & Hn & S2).
      exists x, t, o2. cbn [fst snd]. auto 10.
    - eapply rep_ext; [|exact Hr]. intros. unfold contents. now rewrite E2. }
  assert (E : ignoreSecondColumn (new_comp_itr sf (map fst P) k) = Some (comp_obj sf (mkComp (map fst Q) (c_active s) (c_v1 s) (c_v2 s) (c_key s) true (c_hn s) (c_hnc s)
          (c_sorted s) (c_decr s) 0 (c_saved s)))).
  { change (match comp_ignore s with Some s' => Some (comp_obj sf s') | None => None end =
      Some (comp_obj sf (mkComp (map fst Q) (c_active s) (c_v1 s) (c_v2 s) (c_key s) true (c_hn s) (c_hnc s)
          (c_sorted s) (c_decr s) 0 (c_saved s)))).
    unfold comp_ignore. change (c_children s) with (map fst P). change (c_v1 s) with (-1) at 1.
    rewrite map_length, Hlen, <- EG, E1. reflexivity. }
  eexists. exists g. split; [exact E|]. split; auto.
  set (s1 := mkComp (map fst Q) (c_active s) (c_v1 s) (c_v2 s) (c_key s) true (c_hn s) (c_hnc s)
          (c_sorted s) (c_decr s) 0 (c_saved s)) in *.
  assert (Hm : match g with
    | [] => True
    | x :: t => exists o2, next (comp_obj sf s1) = Some o2 /\ Stands x t o2
    end).
  { destruct g as [|x t]; auto.
    destruct (Q_next sf k x t s1 Hsf HQ) as (s2 & En & HT & V2 & C2 & K2).
    exists (comp_obj sf s2). rewrite comp_obj_next, En. split; auto. split; [|split].
    - rewrite comp_obj_count, C2. reflexivity.
    - intros o Ho. destruct (T_polls _ _ _ _ _ HT Ho) as (s3 & -> & V3 & K3 & _).
      change (c_key s3 = gk x /\ c_v1 s3 = gv x). rewrite K3, V3, V2. split; auto.
      assert (Kx : Forall (fun y => gk y = k) (x :: t)).
      { eapply tally_keys; [|exact Tg]. unfold key_is. eapply Permutation_Forall; [symmetry; exact HR|].
        clear - HP. unfold contents. induction HP as [|p P (_ & Hk & _) HP IH]; cbn; [constructor|]. apply Forall_app; auto. }
      inversion Kx; auto.
    - eapply T_tallies; eauto. }
  split; [|split; [eexists; apply comp_obj_count|exact Hm]].
  eapply Tallies_intro; [rewrite comp_obj_hasNext, (Q_hasNext _ _ _ HQ); reflexivity|rewrite comp_obj_hasNext, (Q_hasNext _ _ _ HQ); reflexivity|exact Hm].
Qed.

(** A fresh CompositeItr does not change when hasNext is called. *)
Lemma new_comp_polls sf ch k o : polls (new_comp_itr sf ch k) o -> o = new_comp_itr sf ch k.
Proof.
  induction 1 as [|a b c Hp IH Hn]; auto. subst a. unfold new_comp_itr in Hn at 1. rewrite comp_obj_hasNext in Hn.
  cbn in Hn. injection Hn as _ <-. reflexivity.
Qed.

Lemma comp_aggregates sf k P R :
  std_sort comp_gt sf -> P <> [] ->
  Forall (fun p => snd p <> [] /\ key_is k (snd p) /\ sorted (snd p) /\ Ready true (snd p) (fst p) /\ Aggregates (snd p) (fst p)) P ->
  Permutation R (contents P) -> sorted R ->
  Aggregates R (new_comp_itr sf (map fst P) k).
Proof.
  intros Hsf Hne HP HR HS. split.
  - destruct (new_comp_yields sf k P R) as [H _]; auto.
    eapply Forall_impl; [|exact HP]. intros p (H1 & H2 & H3 & [H4 H5] & _). split; auto. split; [|auto].
    split; [eapply Yields_weaken; eauto|]. destruct (snd p); auto.
    destruct H5 as (o2 & N & C & _ & Y). exists o2. split; auto. split; auto. split; [discriminate|]. eapply Yields_weaken; eauto.
  - intros o' Hp. apply new_comp_polls in Hp. subst o'.
    apply (comp_ignores sf k P R); auto. eapply Forall_impl; [|exact HP].
    intros p (H1 & H2 & _ & _ & _ & H). split; auto. split; auto. apply H. constructor.
Qed.
