(** C35, C71: lists of keys over updates. *)
From Coq Require Import Sorted Permutation ZifyBool.
From Verif Require Import TermModel ItrSpec TermSpec TermProofs ItrProps.
Local Open Scope Z_scope.

(** The list of a tree. *)
Theorem dt_tree_terms : forall l k c, Terms l (dt_tree l k c).
Proof.
  induction l as [|[k' c'] l IH]; intros k c.
  - eapply (terms_intro [] _ (dt_tree [] k c)); try reflexivity; exact Logic.I.
  - eapply (terms_intro ((k', c') :: l) _ (dt_tree ((k', c') :: l) k c)); try reflexivity. exists (dt_tree l k' c'). split; [reflexivity|].
    intros o3 H. assert (E : o3 = dt_tree l k' c'). { induction H as [|o1 n o2 H IH' E]; [reflexivity|]. rewrite IH' in E. cbn in E. now injection E as _ <-. } subst o3. split; [reflexivity|]. split; [exists (dt_tree l k' c'); reflexivity|apply IH].
Qed.
Theorem read_terms_ok : forall l o n, Terms l o -> (length l < n)%nat -> read_terms n o = Some l.
Proof.
  induction l as [|x l IH]; intros o [|n] H L; cbn in L; try lia; destruct (terms_has _ _ H) as (o1 & E & _ & _ & M); cbn [read_terms]; rewrite E; cbn [nonempty]; [reflexivity|].
  destruct M as (o2 & E2 & O2). rewrite E2. destruct (O2 o2 (counts_refl o2)) as (K & (o3 & E3) & _). rewrite E3. destruct (on_count _ _ _ _ _ O2 E3) as [_ O3]. rewrite (IH o3 n (on_terms _ _ _ O3) ltac:(lia)). rewrite K. now destruct x.
Qed.

(** ** C35 *)
(** A CompositeTermItr to which any number of lists are added delivers every key once, in order, with
    the sum of its counts in the lists. *)
Theorem C35_composite : forall sortf k (ls : list (list (Z * Z))) os,
  std_sort ct_gt sortf -> Forall2 Terms ls os -> Forall term_list ls ->
  exists s R, fold_left (fun s o => do s <- s; ct_add sortf s o) os (Some (ct_init k)) = Some s /\
    Terms R (ct_obj sortf s) /\ term_list R /\ forall j, cnt j R = fold_right (fun l n => cnt j l + n) 0 ls.
Proof.
  intros sf k ls os Sf H2 HT.
  assert (G : forall s ds, cinv s ds -> ct_hnc s = true -> ct_nc s = nonempty ds -> exists s' ds', fold_left (fun s o => do s <- s; ct_add sf s o) os (Some s) = Some s' /\ cinv s' ds' /\ ct_hnc s' = true /\ ct_nc s' = nonempty ds' /\ forall j, dsum j ds' = dsum j ds + fold_right (fun l n => cnt j l + n) 0 ls).
  { induction H2 as [|l o ls os Hl _ IH]; intros s ds I Hh Hc; [exists s, ds; repeat split; auto; try apply I; intros j; cbn; lia|]. inversion HT as [|? ? Tl HT']. subst.
    destruct (add_ok sf Sf s ds l o I Hh Hc Hl Tl) as (s1 & ds1 & E1 & I1 & Hh1 & Hc1 & S1). cbn [fold_left]. rewrite E1. destruct (IH HT' s1 ds1 I1 Hh1 Hc1) as (s' & ds' & E' & I' & Hh' & Hc' & S'). exists s', ds'. repeat split; auto; try apply I'. intros j. cbn [fold_right]. rewrite S', S1. lia. }
  destruct (G (ct_init k) [] (cinv_init k) eq_refl eq_refl) as (s & ds & E & I & Hh & Hc & HS). destruct (comp_terms sf Sf (dlen ds) ds s (Nat.le_refl _) I Hh Hc) as (R & TR & OR & CR).
  exists s, R. split; [exact E|]. split; [exact TR|]. split; [exact OR|]. intros j. rewrite CR, HS. reflexivity.
Qed.
(** RmCompositeTermItr delivers the keys of the first list with the counts of the second one taken
    off, without the keys that have nothing left.  The list to remove is not empty, and removes no
    more than there is. *)
Theorem C35_removed : forall fuel k main rm M D,
  Terms M main -> Terms D rm -> term_list M -> term_list D -> D <> [] -> (forall j, cnt j D <= cnt j M) ->
  (length M + length D < fuel)%nat ->
  exists s R, rt_init k main rm = Some s /\ Terms R (rt_obj fuel s) /\ term_list R /\ forall j, cnt j R = cnt j M - cnt j D.
Proof.
  intros fuel k main rm M D HM HD TM TD ND HC HF. destruct (init_ok k fuel main rm M D HM HD TM TD ND HC HF) as (s & E & HT). destruct (taken_off_ok M D TM (proj2 TD) HC) as [A B]. exists s, (taken_off M D). repeat split; auto; apply A.
Qed.
Definition sr := isort ct_gt.
Lemma sr_ok : std_sort ct_gt sr.
Proof. apply isort_std; unfold ct_gt; intros; lia. Qed.
Definition tlA : list (Z * Z) := [(2, 3); (5, 1); (9, 4)].
Definition tlB : list (Z * Z) := [(1, 2); (5, 6)].
Definition tlC : list (Z * Z) := [(5, 1); (9, 1); (10, 7)].
Ltac tl_auto := split; repeat constructor; cbn; try lia.
Example C35_composite_case : Forall2 Terms [tlA; tlB; tlC] [dt_tree tlA 0 0; dt_tree tlB 0 0; dt_tree tlC 0 0] /\ Forall term_list [tlA; tlB; tlC].
Proof. split; repeat constructor; try apply dt_tree_terms; cbn; lia. Qed.
Example C35_composite_runs : (do s <- fold_left (fun s o => do s <- s; ct_add sr s o) [dt_tree tlA 0 0; dt_tree tlB 0 0; dt_tree tlC 0 0] (Some (ct_init 0)); read_terms 9 (ct_obj sr s)) = Some [(1, 2); (2, 3); (5, 8); (9, 5); (10, 7)].
Proof. reflexivity. Qed.
Definition tlD : list (Z * Z) := [(5, 1); (9, 1)].
Example C35_removed_case : Terms tlA (dt_tree tlA 0 0) /\ Terms tlD (dt_tree tlD 0 0) /\ term_list tlA /\ term_list tlD /\ (forall j, cnt j tlD <= cnt j tlA) /\
  (do s <- rt_init 0 (dt_tree tlA 0 0) (dt_tree tlD 0 0); read_terms 9 (rt_obj 9 s)) = Some [(2, 3); (9, 3)].
Proof.
  split; [apply dt_tree_terms|]. split; [apply dt_tree_terms|]. split; [tl_auto|]. split; [tl_auto|]. split; [|reflexivity].
  intros j. unfold tlD, tlA. cbn [cnt]. destruct (2 =? j), (5 =? j), (9 =? j); lia.
Qed.

(** ** C71 *)
(** After a valid history of updates, the list has exactly the keys of the triples that are there,
    with their numbers, if no update is passed over (each has new or vanishing keys) and each
    deletion is listed by the same key (its IDX_SPO list). *)
Theorem C71_term_list_partial : forall sortf fuel k (kf : elem -> Z) base B l us h,
  std_sort ct_gt sortf -> NoDup B -> Terms l base -> counts_of kf l B ->
  valid_history (fun x => In x B) h ->
  Forall2 (fun u x => tu_del u = fst x /\ 0 < tu_new u /\ snd x <> [] /\ NoDup (snd x) /\
    exists l, counts_of kf l (snd x) /\ Terms l (if tu_del u then tu_spo u else tu_itr u)) us h ->
  (length B + fold_right (fun x n => length (snd x) + n) 0 h < fuel)%nat ->
  exists o R T, getTermList sortf fuel k base us = Some o /\ Terms R o /\
    NoDup T /\ (forall x, In x T <-> replay (fun x => In x B) h x) /\ counts_of kf R T.
Proof.
  intros sf fuel k kf base B l us h Sf NB HT HC HV H2 HF.
  destruct (loop_hist sf Sf kf k fuel us h (inr base) B NB (ex_intro _ l (conj HT HC)) HV H2) as (o & R & T & A & C & D & N & E).
  { clear -HF. assert (EQ : forall h : list (bool * list elem), total h = fold_right (fun x n => (length (snd x) + n)%nat) O h) by (induction h0; cbn; congruence). rewrite EQ. exact HF. }
  exists o, R, T. auto.
Qed.
(** A history of additions: each notes whether it has keys that no triple had before. *)
Fixpoint additions (kf : elem -> Z) (T : list elem) (us : list tupd) (h : list (list elem)) : Prop :=
  match us, h with
  | [], [] => True
  | u :: us, d :: h => tu_del u = false /\ d <> [] /\ NoDup d /\ (forall x, In x d -> ~ In x T) /\
      (exists l, counts_of kf l d /\ Terms l (tu_itr u)) /\
      (0 < tu_new u <-> exists x, In x d /\ forall y, In y T -> kf y <> kf x) /\ additions kf (T ++ d) us h
  | _, _ => False
  end.
(** Without deletions the keys are exact for every permutation; the counts can only be too small. *)
Theorem C71_additions : forall sortf fuel k kf base B l us h,
  std_sort ct_gt sortf -> NoDup B -> Terms l base -> counts_of kf l B -> additions kf B us h ->
  (length B + length (concat h) < fuel)%nat ->
  exists o R, getTermList sortf fuel k base us = Some o /\ Terms R o /\ term_list R /\
    forall j, (In j (map fst R) <-> exists x, In x (B ++ concat h) /\ kf x = j) /\
      cnt j R <= Z.of_nat (length (filter (fun t => kf t =? j) (B ++ concat h))).
Proof.
  intros sf fuel k kf base B l us h Sf NB HT HC HA HF.
  (* the updates that are read *)
  set (keep := fun p : tupd * list elem => 0 <? tu_new (fst p)).
  assert (G : forall us h T (S : elem -> Prop), (forall x, S x -> In x T) -> (forall x, In x T -> exists y, S y /\ kf y = kf x) -> additions kf T us h ->
    exists us' h', (forall f, gt_loop sf fuel k us f = gt_loop sf fuel k us' f) /\ Forall2 (upd_ok kf) us' (map (fun d => (false, d)) h') /\ valid_history S (map (fun d => (false, d)) h') /\
      (length (concat h') <= length (concat h))%nat /\
      (forall x, replay S (map (fun d => (false, d)) h') x -> In x (T ++ concat h)) /\
      (forall x, In x (T ++ concat h) -> exists y, replay S (map (fun d => (false, d)) h') y /\ kf y = kf x)).
  { clear. induction us as [|u us IH]; intros [|d h] T S H1 H2 HA; try contradiction.
    - exists [], []. cbn. rewrite app_nil_r. repeat split; auto. 
    - destruct HA as (Ed & Nd & ND & Dis & (l & Cl & Tl) & Hn & HA). destruct (Z.ltb_spec 0 (tu_new u)) as [L|G].
      + destruct (IH h (T ++ d) (step_set S (false, d))) as (us' & h' & A & B & C & LL & D & E); auto.
        { intros x [Hx|Hx]; apply in_or_app; auto. }
        { intros x Hx. apply in_app_or in Hx as [Hx|Hx]; [destruct (H2 x Hx) as (y & Hy & Ey); exists y; split; [now left|auto]|exists x; split; [now right|auto]]. }
        exists (u :: us'), (d :: h'). split; [|split; [|split; [|split; [|split]]]].
        * intros f. cbn [gt_loop]. rewrite Ed. destruct (0 <? tu_new u); [|apply A]. destruct f as [s|o]; [destruct (ct_add sf s (tu_itr u)); auto|]. destruct (ct_add sf (ct_init k) o) as [s|]; auto. destruct (ct_add sf s (tu_itr u)); auto.
        * constructor; [|exact B]. unfold upd_ok. rewrite Ed. cbn [fst snd]. repeat split; auto. exists l. auto.
        * cbn [map valid_history fst snd]. split; [|exact C]. intros x Hx HS. apply (Dis x Hx). auto.
        * cbn. rewrite !app_length. lia.
        * intros x Hx. cbn [concat]. rewrite app_assoc. apply D. exact Hx.
        * intros x Hx. cbn [concat] in Hx. rewrite app_assoc in Hx. apply E. exact Hx.
      + destruct (IH h (T ++ d) S) as (us' & h' & A & B & C & LL & D & E); auto.
        { intros x Hx. apply in_or_app. auto. }
        { intros x Hx. apply in_app_or in Hx as [Hx|Hx]; [auto|]. destruct (in_dec Z.eq_dec (kf x) (map kf T)) as [Hi|Hi].
          - apply in_map_iff in Hi as (y & Ey & Hy). destruct (H2 y Hy) as (z & Hz & Ez). exists z. split; [auto|congruence].
          - exfalso. assert (0 < tu_new u); [|lia]. apply Hn. exists x. split; [auto|]. intros y Hy E0. apply Hi. rewrite <- E0. now apply in_map. }
        exists us', h'. split; [|split; [exact B|split; [exact C|split; [cbn; rewrite app_length; lia|split]]]].
        * intros f. cbn [gt_loop]. destruct (Z.ltb_spec 0 (tu_new u)); [lia|]. apply A.
        * intros x Hx. cbn [concat]. rewrite app_assoc. apply D. exact Hx.
        * intros x Hx. cbn [concat] in Hx. rewrite app_assoc in Hx. apply E. exact Hx. }
  destruct (G us h B (fun x => In x B) (fun x Hx => Hx) (fun x Hx => ex_intro _ x (conj Hx eq_refl)) HA) as (us' & h' & A & H2 & HV & LL & D & E).
  destruct (loop_hist sf Sf kf k fuel us' _ (inr base) B NB (ex_intro _ l (conj HT HC)) HV H2) as (o & R & T & A' & TR & CR & NT & ET).
  { assert (EQ : total (map (fun d => (false, d)) h') = length (concat h')). { clear. induction h' as [|d h' IH]; [reflexivity|]. cbn [map total snd concat]. rewrite app_length, IH. reflexivity. } lia. }
  exists o, R. split; [unfold getTermList; rewrite A; exact A'|]. split; [exact TR|]. split; [apply CR|]. intros j. split.
  - assert (HI : In j (map fst R) <-> exists x, In x T /\ kf x = j).
    { destruct CR as [OK CR]. split.
      - intros Hj. apply in_map_iff in Hj as ([j' c] & <- & Hx). cbn. assert (P : 0 < cnt j' R) by (apply cnt_in; [apply OK|eauto]). rewrite CR in P. destruct (filter (fun t => kf t =? j') T) as [|x ts] eqn:EF; [cbn in P; lia|]. assert (Hf : In x (filter (fun t => kf t =? j') T)) by (rewrite EF; now left). apply filter_In in Hf as [Hf Ef]. exists x. split; [auto|lia].
      - intros (x & Hx & Ex). assert (P : 0 < cnt j R). { rewrite CR. assert (Hf : In x (filter (fun t => kf t =? j) T)) by (apply filter_In; split; [auto|lia]). destruct (filter (fun t => kf t =? j) T); [contradiction|]. cbn. lia. } apply cnt_in in P as (c & Hc); [|apply OK]. apply in_map_iff. exists (j, c). auto. }
    rewrite HI. split.
    + intros (x & Hx & Ex). exists x. split; [|auto]. apply D, ET, Hx.
    + intros (x & Hx & Ex). destruct (E x Hx) as (y & Hy & Ey). exists y. split; [now apply ET|congruence].
  - rewrite (proj2 CR). assert (HL : (length (filter (fun t => (kf t =? j)%Z) T) <= length (filter (fun t => (kf t =? j)%Z) (B ++ concat h)))%nat); [|lia].
    apply NoDup_incl_length; [now apply NoDup_filter|]. intros x Hx. apply filter_In in Hx as [Hx Ex]. apply filter_In. split; [|auto]. apply D, ET, Hx.
Qed.
(** The number that an addition notes is the number of its keys that are not in the list of keys. *)
Theorem C71_noted : forall fuel ex l keys,
  Terms l ex -> term_list l -> l <> [] -> StronglySorted Z.lt keys -> (length l < fuel)%nat ->
  exists e cur, us_start ex = Some (e, cur) /\
    us_add fuel keys e cur = Some (Z.of_nat (length (filter (fun k => negb (existsb (Z.eqb k) (map fst l))) keys))).
Proof.
  intros fuel ex l keys HT OK NE S HF. destruct l as [|y l]; [contradiction|]. destruct (terms_has _ _ HT) as (o1 & E1 & _ & _ & (o2 & E2 & O2)). unfold us_start. rewrite E1. cbn [nonempty]. rewrite E2. exists o2, (key o2). split; [reflexivity|].
  rewrite (us_add_ok fuel keys (y :: l) o2 (match keys with [] => 0 | k :: _ => k end)); auto.
  - unfold new_keys. f_equal. f_equal. f_equal. apply filter_ext. intros k. pose proof (cnt_nonneg k (y :: l) (proj2 OK)) as P. pose proof (cnt_in k (y :: l) (proj2 OK)) as HI. destruct (existsb (Z.eqb k) (map fst (y :: l))) eqn:EX; cbn [negb].
    + apply existsb_exists in EX as (k' & Hk & Ek). assert (k' = k) by lia. subst k'. apply in_map_iff in Hk as ([k' c] & Ek' & Hx). cbn in Ek'. subst k'. assert (0 < cnt k (y :: l)) by (apply HI; eauto). lia.
    + destruct (Z.eqb_spec (cnt k (y :: l)) 0); [auto|]. assert (P' : 0 < cnt k (y :: l)) by lia. apply HI in P' as (c & Hc). assert (existsb (Z.eqb k) (map fst (y :: l)) = true); [|congruence]. apply existsb_exists. exists k. split; [apply in_map_iff; exists (k, c); auto|lia].
  - intros k Hk. destruct keys as [|k0 keys]; [contradiction|]. inversion S as [|? ? S' F]. subst. rewrite Forall_forall in F. destruct Hk as [->|Hk]; [lia|]. specialize (F k Hk). lia.
Qed.
(** The number that a deletion notes is the number of its keys whose count in the list is the count
    of the deletion: the keys that vanish, if the counts in the list are right. *)
Theorem C71_noted_removed : forall fuel ex l keys,
  Terms l ex -> term_list l -> l <> [] -> term_list keys -> (forall x, In x keys -> In (fst x) (map fst l)) -> (length l < fuel)%nat ->
  exists e cur, us_start ex = Some (e, cur) /\
    us_rm fuel keys e cur = Some (Z.of_nat (length (filter (fun x => cnt (fst x) l =? snd x) keys))).
Proof.
  intros fuel ex l keys HT OK NE S HI HF. destruct l as [|y l]; [contradiction|]. destruct (terms_has _ _ HT) as (o1 & E1 & _ & _ & (o2 & E2 & O2)). unfold us_start. rewrite E1. cbn [nonempty]. rewrite E2. exists o2, (key o2). split; [reflexivity|].
  rewrite (us_rm_ok fuel keys (y :: l) o2); auto. intros x Hx. specialize (HI x Hx). apply cnt_in; [apply OK|]. apply in_map_iff in HI as ([k c] & E & Hc). cbn in E. subst k. eauto.
Qed.

(** Triples for the cases below: (s, p, o); the key is the subject. *)
Definition ks (t : elem) : Z := fst (fst t).
Definition kp (t : elem) : Z := snd (fst t).
Definition baseT : list elem := [(1, 10, 100); (2, 10, 100)].
Definition addT : list elem := [(1, 11, 100); (3, 10, 100)].
Definition delT : list elem := [(2, 10, 100); (1, 10, 100)].
Definition u_add := mkTupd false 1 (dt_tree [(1, 1); (3, 1)] 0 0) (dt_tree [(1, 1); (3, 1)] 0 0).
Definition u_del := mkTupd true 1 (dt_tree [(1, 1); (2, 1)] 0 0) (dt_tree [(1, 1); (2, 1)] 0 0).
Example C71_case : NoDup baseT /\ counts_of ks [(1, 1); (2, 1)] baseT /\ valid_history (fun x => In x baseT) [(false, addT); (true, delT)] /\
  Forall2 (fun u x => tu_del u = fst x /\ 0 < tu_new u /\ snd x <> [] /\ NoDup (snd x) /\
    exists l, counts_of ks l (snd x) /\ Terms l (if tu_del u then tu_spo u else tu_itr u)) [u_add; u_del] [(false, addT); (true, delT)] /\
  (do o <- getTermList sr 9 0 (dt_tree [(1, 1); (2, 1)] 0 0) [u_add; u_del]; read_terms 9 o) = Some [(1, 1); (3, 1)].
Proof.
  assert (CT : forall l ts, term_list l -> Forall (fun t => In (ks t) (map fst l)) ts -> Forall (fun x => Z.of_nat (length (filter (fun t => ks t =? fst x) ts)) = snd x) l -> counts_of ks l ts).
  { intros l ts OK H1 H2. split; [exact OK|]. intros k. rewrite Forall_forall in H1, H2. destruct (in_dec Z.eq_dec k (map fst l)) as [Hi|Hi].
    - apply in_map_iff in Hi as ([k' c] & <- & Hx). pose proof (H2 _ Hx) as E. cbn [fst snd] in E |- *. rewrite E. clear -OK Hx. induction l as [|[k0 c0] l IH]; [contradiction|]. pose proof (tl_cons _ _ OK) as (OK' & _ & F). destruct (cnt_head _ _ _ OK) as [E _]. destruct Hx as [[= -> ->]|Hx]; [exact E|]. specialize (F _ Hx). cbn in F. cbn. destruct (Z.eqb_spec k0 k'); [lia|]. rewrite IH; auto.
    - assert (E0 : cnt k l = 0). { pose proof (cnt_nonneg k l (proj2 OK)). destruct (Z.eq_dec (cnt k l) 0); [auto|]. assert (P : 0 < cnt k l) by lia. apply cnt_in in P as (c & Hc); [|apply OK]. exfalso. apply Hi. apply in_map_iff. exists (k, c). auto. }
      rewrite E0. destruct (filter (fun t => ks t =? k) ts) as [|t r] eqn:E; [reflexivity|]. assert (Hf : In t (filter (fun t => ks t =? k) ts)) by (rewrite E; now left). apply filter_In in Hf as [Hf Ef]. exfalso. apply Hi. specialize (H1 t Hf). replace k with (ks t) by lia. exact H1. }
  assert (ND : forall a b : elem, a <> b -> NoDup [a; b]) by (intros a b H; constructor; [intros [E|[]]; congruence|constructor; [intros []|constructor]]).
  split; [apply ND; congruence|]. split; [apply CT; [tl_auto|repeat (apply Forall_cons; [cbn; auto|]); apply Forall_nil|repeat (apply Forall_cons; [reflexivity|]); apply Forall_nil]|]. split.
  { split; [|split; [|exact Logic.I]].
    - intros x Hx. cbn in Hx |- *. destruct Hx as [<-|[<-|[]]]; intros [E|[E|[]]]; discriminate.
    - intros x Hx. cbn in Hx |- *. unfold step_set. cbn. destruct Hx as [<-|[<-|[]]]; auto. }
  split; [|reflexivity]. constructor; [|constructor; [|constructor]]; cbn [tu_del tu_new u_add u_del fst snd tu_spo tu_itr].
  - split; [reflexivity|]. split; [lia|]. split; [discriminate|]. split; [apply ND; congruence|]. exists [(1, 1); (3, 1)]. split; [|apply dt_tree_terms]. apply CT; [tl_auto|repeat (apply Forall_cons; [cbn; auto|]); apply Forall_nil|repeat (apply Forall_cons; [reflexivity|]); apply Forall_nil].
  - split; [reflexivity|]. split; [lia|]. split; [discriminate|]. split; [apply ND; congruence|]. exists [(1, 1); (2, 1)]. split; [|apply dt_tree_terms]. apply CT; [tl_auto|repeat (apply Forall_cons; [cbn; auto|]); apply Forall_nil|repeat (apply Forall_cons; [reflexivity|]); apply Forall_nil].
Qed.
Definition u_old := mkTupd false 0 (dt_tree [(1, 2)] 0 0) (dt_tree [(1, 2)] 0 0).
Example C71_additions_case : additions ks baseT [u_old; u_add] [[(1, 11, 100); (1, 12, 100)]; [(1, 13, 100); (3, 10, 100)]] /\
  (do o <- getTermList sr 9 0 (dt_tree [(1, 1); (2, 1)] 0 0) [u_old; u_add]; read_terms 9 o) = Some [(1, 2); (2, 1); (3, 1)].
Proof.
  split; [|reflexivity]. cbn [additions]. split; [reflexivity|]. split; [discriminate|]. split; [constructor; [intros [E|[]]; discriminate|constructor; [intros []|constructor]]|].
  split; [intros x [<-|[<-|[]]]; cbn; intros [E|[E|[]]]; discriminate|]. split; [exists [(1, 2)]; split; [split; [tl_auto|]|apply dt_tree_terms]; intros k; cbn [cnt filter ks fst]; destruct (1 =? k); reflexivity|].
  split; [split; [cbn; lia|intros (x & Hx & H); exfalso; apply (H (1, 10, 100)); [now left|]; destruct Hx as [<-|[<-|[]]]; reflexivity]|].
  split; [reflexivity|]. split; [discriminate|]. split; [constructor; [intros [E|[]]; discriminate|constructor; [intros []|constructor]]|].
  split; [intros x [<-|[<-|[]]]; cbn; intros [E|[E|[E|[E|[]]]]]; discriminate|]. split; [exists [(1, 1); (3, 1)]; split; [split; [tl_auto|]|apply dt_tree_terms]; intros k; cbn [cnt filter ks fst]; destruct (Z.eqb_spec 1 k), (Z.eqb_spec 3 k); try reflexivity; lia|].
  split; [|exact Logic.I]. split; [intros _|cbn; lia]. exists (3, 10, 100). split; [right; now left|]. intros y Hy. cbn in Hy. destruct Hy as [<-|[<-|[<-|[<-|[]]]]]; cbn; lia.
Qed.
Example C71_noted_case : (do (e, c) <- us_start (dt_tree tlA 0 0); us_add 9 [1; 2; 5; 6; 11] e c) = Some 3 /\
  (do (e, c) <- us_start (dt_tree tlA 0 0); us_rm 9 [(2, 3); (5, 1); (9, 3)] e c) = Some 2.
Proof. split; reflexivity. Qed.
(** An addition without new keys is passed over: the count of its key is too small.  Here one triple
    of key 1 is there, one more is added, and the list says 1. *)
Theorem C71_counts_refuted : exists n u,
  (do (e, c) <- us_start (dt_tree [(1, 1); (2, 1)] 0 0); us_add 9 [1] e c) = Some n /\
  u = mkTupd false n (dt_tree [(1, 1)] 0 0) (dt_tree [(1, 1)] 0 0) /\
  (do o <- getTermList sr 9 0 (dt_tree [(1, 1); (2, 1)] 0 0) [u]; read_terms 9 o) = Some [(1, 1); (2, 1)].
Proof. exists 0. eexists. split; [reflexivity|]. split; reflexivity. Qed.
(** After that, the deletion of both triples of the key is taken not to remove the key: 1 is still in
    the list although no triple has it. *)
Theorem C71_vanished_refuted : exists n m u d,
  (do (e, c) <- us_start (dt_tree [(1, 1); (2, 1)] 0 0); us_add 9 [1] e c) = Some n /\
  u = mkTupd false n (dt_tree [(1, 1)] 0 0) (dt_tree [(1, 1)] 0 0) /\
  (do o <- getTermList sr 9 0 (dt_tree [(1, 1); (2, 1)] 0 0) [u]; do (e, c) <- us_start o; us_rm 9 [(1, 2)] e c) = Some m /\
  d = mkTupd true m (dt_tree [(1, 2)] 0 0) (dt_tree [(1, 2)] 0 0) /\
  (do o <- getTermList sr 9 0 (dt_tree [(1, 1); (2, 1)] 0 0) [u; d]; read_terms 9 o) = Some [(1, 1); (2, 1)].
Proof. exists 0, 0. do 2 eexists. split; [reflexivity|]. split; [reflexivity|]. split; [reflexivity|]. split; reflexivity. Qed.
(** For the other permutations deletions are read from the list of subjects.  Here the only triple
    (10, 1, 5) of predicate 1 is deleted; 1 is still in the list of predicates. *)
Theorem C71_deletions_refuted : exists B d,
  valid_history (fun x => In x B) [(true, d)] /\ ~ (exists x, replay (fun x => In x B) [(true, d)] x /\ kp x = 1) /\
  (do o <- getTermList sr 9 0 (dt_tree [(1, 1); (2, 1)] 0 0) [mkTupd true 1 (dt_tree [(1, 1)] 0 0) (dt_tree [(10, 1)] 0 0)]; read_terms 9 o) = Some [(1, 1); (2, 1)] /\
  B = [(10, 1, 5); (11, 2, 5)] /\ d = [(10, 1, 5)].
Proof.
  exists [(10, 1, 5); (11, 2, 5)], [(10, 1, 5)]. split; [|split; [|auto]].
  - split; [|exact Logic.I]. intros x [<-|[]]. cbn. auto.
  - intros (x & [[<-|[<-|[]]] N] & E); cbn in *; [auto|discriminate].
Qed.
(** The counts of the lists made from arrays are whatever the coordinates hold. *)
Theorem C71_array_counts_refuted : forall c, read_terms 9 (dt_array [4; 7] 0 c) = Some [(4, c); (7, c)].
Proof. reflexivity. Qed.

Print Assumptions dt_tree_terms.
Print Assumptions read_terms_ok.
Print Assumptions C35_composite.
Print Assumptions C35_removed.
Print Assumptions C71_term_list_partial.
Print Assumptions C71_additions.
Print Assumptions C71_noted.
Print Assumptions C71_noted_removed.
Print Assumptions C71_counts_refuted.
Print Assumptions C71_vanished_refuted.
Print Assumptions C71_deletions_refuted.
Print Assumptions C71_array_counts_refuted.
