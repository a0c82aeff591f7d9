(** C37, C52, C53, C54: enumerating, grouping and accessing the edges that match a pattern. *)
From Coq Require Import Sorted Permutation.
From Verif Require Import ItrProofs EdgeSpec EdgeProofs.
Local Open Scope Z_scope.

(** *** Examples share this database and engine. *)
Definition ex_db : list triple := [(5, 7, 5); (5, 7, 6); (6, 7, 7); (7, 6, 5); (7, 7, 7); (8, 8, 5)].
Definition ex_get := ref_get ex_db.
Definition ex_fresh : fs_st := mkFs (empty_itr 0) 0 0 false false (false, false).

Lemma ins_in x l : forall y, In y (ins x l) <-> y = x \/ In y l.
Proof.
  induction l as [|z l IH]; cbn [ins]; intros y; [cbn; intuition|]. destruct (_ <? 0); cbn [In]; [intuition|]. rewrite IH. intuition.
Qed.
Lemma ins_cmp x z : rm_cmp false (list_itr x []) (list_itr z []) <? 0 = true <-> elt x z.
Proof.
  unfold rm_cmp. destruct x as [[a b] c], z as [[a' b'] c']. cbn [key value1 value2 list_itr fst snd elt].
  destruct (Z.ltb_spec a a'), (Z.eqb_spec a a'), (Z.ltb_spec (b - b') 0), (Z.ltb_spec 0 (b - b')), (Z.ltb_spec (c - c') 0), (Z.ltb_spec 0 (c - c')); cbn; split; intros H'; try discriminate; try lia; try reflexivity.
Qed.
Lemma ins_sorted x l : ~ In x l -> StronglySorted elt l -> StronglySorted elt (ins x l).
Proof.
  intros Hx HS. induction HS as [|z l S IH F]; cbn [ins]; [repeat constructor|]. destruct (_ <? 0) eqn:E.
  - apply ins_cmp in E. constructor; [constructor; auto|]. constructor; auto. eapply Forall_impl; [|exact F]. intros. eapply elt_trans; eauto.
  - constructor; [apply IH; intros H; apply Hx; right; auto|]. assert (elt z x).
    { destruct (elt_tricho x z) as [[H|H]|H]; auto; [apply ins_cmp in H; congruence|exfalso; apply Hx; left; auto]. }
    apply Forall_forall. intros y Hy. apply ins_in in Hy. destruct Hy as [->|Hy]; auto. rewrite Forall_forall in F. auto.
Qed.
Lemma fold_ins l : NoDup l -> StronglySorted elt (fold_right ins [] l) /\ forall y, In y (fold_right ins [] l) <-> In y l.
Proof.
  induction 1 as [|x l Hx N [IS II]]; cbn [fold_right]; [split; [constructor|reflexivity]|]. split.
  - apply ins_sorted; auto. rewrite II. auto.
  - intros y. rewrite ins_in, II. cbn. intuition.
Qed.
Lemma reorder_inj idx ord t t' : perm_positions idx = Some ord -> reorder ord t = reorder ord t' -> t = t'.
Proof.
  intros H E. destruct t as [[a b] c], t' as [[a' b'] c']. unfold perm_positions in H.
  repeat (match goal with H : (if ?b then _ else _) = _ |- _ => destruct b end); try discriminate;
    (apply (f_equal (fun o => match o with Some l => l | None => [] end)) in H; subst ord; unfold reorder in E; cbn in E; injection E; intros; subst; reflexivity).
Qed.
(** The reference engine meets the hypothesis of the theorems, for every database. *)
Lemma ref_serves db : NoDup db -> (forall t, In t db -> 0 <= field t 0 /\ 0 <= field t 1 /\ 0 <= field t 2) -> serves (ref_get db) db.
Proof.
  intros HN Hp idx ord s p o Ho Hs Hp1 Ho1 HC. unfold ref_get.
  exists (ref_list db idx s p o). split; [apply list_yields|]. unfold ref_list. rewrite Ho. destruct (reorder ord (s, p, o)) as [[a b] c] eqn:ER.
  assert (N : NoDup (filter (fun x => let '(k, v, w) := x in (a <? 0) || ((a =? k) && ref_ok b v && ref_ok c w)) (map (reorder ord) db))).
  { apply NoDup_filter. clear - HN Ho. induction HN as [|t l Ht N IH]; cbn; constructor; auto. intros Hi. apply in_map_iff in Hi. destruct Hi as (u & E & Hu).
    apply (reorder_inj idx) in E; auto. subst. contradiction. }
  destruct (fold_ins _ N) as [S I]. split; auto. intros x. rewrite I, filter_In, in_map_iff.
  assert (HM : forall t, In t db -> (let '(k, v, w) := reorder ord t in (a <? 0) || ((a =? k) && ref_ok b v && ref_ok c w)) = true <-> matches (s, p, o) t).
  { intros t Ht. unfold constants_first in HC. rewrite ER in HC. assert (HM : matches (s, p, o) t <-> (s < 0 \/ s = field t 0) /\ (p < 0 \/ p = field t 1) /\ (o < 0 \/ o = field t 2)).
    { split; [apply matches_fields|]. intros (H1 & H2 & H3) i Hi. destruct i as [|[|[|i]]]; auto; lia. }
    rewrite HM. destruct t as [[x1 x2] x3]. cbn in HM. clear HM. cbn [field] in *. unfold ref_ok. unfold perm_positions in Ho.
    repeat (match goal with H : (if ?b then _ else _) = _ |- _ => destruct b end); try discriminate;
    (apply (f_equal (fun o => match o with Some l => l | None => [] end)) in Ho; subst ord; cbn in ER |- *; injection ER as <- <- <-; lia). }
  split.
  - intros [(t & <- & Ht) H]. exists t. split; auto. split; auto. apply HM; auto.
  - intros (t & Ht & M & ->). split; [eauto|]. apply HM; auto.
Qed.
Lemma ex_serves : serves ex_get ex_db.
Proof.
  apply ref_serves.
  - unfold ex_db. repeat (constructor; [cbn; intuition congruence|]). constructor.
  - intros t Ht. cbn in Ht. repeat destruct Ht as [<- | Ht]; cbn; try lia.
Qed.

Lemma sorted_irrefl_nodup {A} (R : A -> A -> Prop) l : (forall x, ~ R x x) -> StronglySorted R l -> NoDup l.
Proof.
  intros HR. induction 1 as [|x l S IH F]; constructor; auto. intros Hi. rewrite Forall_forall in F. apply (HR x), F, Hi.
Qed.
Lemma lex_lt_irrefl ord t : ~ lex_lt ord t t.
Proof. induction ord as [|i ord IH]; cbn; [tauto|]. intros [H|[_ H]]; [lia|auto]. Qed.
Lemma src_len (db : list triple) l ord (P : triple -> Prop) : StronglySorted elt l ->
  (forall x, In x l <-> exists t, In t db /\ P t /\ x = reorder ord t) -> (length l <= length db)%nat.
Proof.
  intros S H. rewrite <- (map_length (reorder ord) db). apply NoDup_incl_length; [eapply sorted_irrefl_nodup; [|exact S]; apply elt_irrefl|].
  intros x Hx. apply H in Hx. destruct Hx as (t & Ht & _ & ->). apply in_map. auto.
Qed.
Lemma answer_distinct s r d t : distinct_vars s r d -> answer (s, r, d) t <-> matches (s, r, d) t.
Proof.
  intros [D1 D2]. split; [intros H; apply H|]. intros H. split; auto.
  intros [|[|[|i]]] [|[|[|j]]] Hi Hj; cbn; intros; try reflexivity; exfalso; lia.
Qed.

(** *** C52: the edges in the promised order *)
Theorem C52_edges : forall getIt db fresh fuel k s r d, serves getIt db -> (length db < fuel)%nat -> distinct_vars s r d ->
  exists e l, edg getIt fresh fuel k s r d = Some e /\ e_drain fuel e = Some l /\
    (forall t, In t l <-> In t db /\ answer (s, r, d) t) /\ StronglySorted (lex_lt (positions k)) l.
Proof.
  intros getIt db fresh fuel k s r d Hs Hf Hd.
  destruct (edg_source getIt db Hs k s r d) as (ord & inv & l & E1 & E2 & _ & F & L & Y & S & HI & HA & HS).
  unfold edg, getEdgeItr. rewrite E2. apply sameVar_none in Hd. rewrite Hd. do 2 eexists. split; [reflexivity|].
  pose proof (src_len db l ord _ S HI). split; [eapply e_drain_ok; eauto; lia|]. split; auto.
  intros t. rewrite HA. apply sameVar_none in Hd. rewrite answer_distinct; tauto.
Qed.
Print Assumptions C52_edges.
Example C52_case : distinct_vars (-1) 7 (-2) /\
  (do e <- edg ex_get ex_fresh 10 SRD (-1) 7 (-2); e_drain 10 e) = Some [(5, 7, 5); (5, 7, 6); (6, 7, 7); (7, 7, 7)] /\
  (do e <- edg ex_get ex_fresh 10 DSR (-1) 7 (-2); e_drain 10 e) = Some [(5, 7, 5); (5, 7, 6); (6, 7, 7); (7, 7, 7)] /\
  (do e <- edg ex_get ex_fresh 10 DRS (-1) (-3) (-2); e_drain 10 e) =
    Some [(7, 6, 5); (5, 7, 5); (8, 8, 5); (5, 7, 6); (6, 7, 7); (7, 7, 7)].
Proof. repeat split; try lia; vm_compute; reflexivity. Qed.

(** *** C37: a variable that occurs twice *)
(** The filter delivers exactly the elements with equal values, when its object is as new. *)
Theorem C37_filter : forall i j cnt l u obj fuel, good_pos i j -> Yields cnt l u -> (length l < fuel)%nat -> fs_hnc obj = false ->
  Yields false (filter (fun x => field x i =? field x j) l) (fs_obj fuel (fs_init obj u (Z.of_nat i) (Z.of_nat j))).
Proof. intros i j cnt l u obj fuel Hg Y Hf Hh. exact (fs_yields i j Hg (length l) l cnt (fs_init obj u (Z.of_nat i) (Z.of_nat j)) fuel (le_n _) Y Hf eq_refl eq_refl Hh). Qed.
Print Assumptions C37_filter.
Example C37_filter_case : Yields false [(5, 7, 7); (6, 8, 8)]
  (fs_obj 9 (fs_init ex_fresh (list_itr (0, 0, 0) [(5, 7, 7); (5, 7, 8); (6, 8, 8)]) 1 2)).
Proof. apply (C37_filter 1 2 false [(5, 7, 7); (5, 7, 8); (6, 8, 8)] _ ex_fresh 9); auto using list_yields; [right; right; auto|cbn; lia]. Qed.

(** Patterns with one variable at exactly two positions i and j, when the index asked has the same
    two positions at i and j.  Missing: the other indices, the same variable three times and
    objects that were used before; see the refutations. *)
Theorem C37_edges_partial : forall getIt db fresh fuel k s r d i j ord, serves getIt db -> (length db < fuel)%nat ->
  fs_hnc fresh = false ->
  (i < j < 3)%nat -> field (s, r, d) i < 0 -> field (s, r, d) i = field (s, r, d) j ->
  (forall m, (m < 3)%nat -> m <> i -> m <> j -> field (s, r, d) m <> field (s, r, d) i) ->
  perm_positions (edg_idx k s r d) = Some ord ->
  (nth i ord 3 = i /\ nth j ord 3 = j \/ nth i ord 3 = j /\ nth j ord 3 = i)%nat ->
  exists e l, edg getIt fresh fuel k s r d = Some e /\ e_drain fuel e = Some l /\
    (forall t, In t l <-> In t db /\ answer (s, r, d) t) /\ StronglySorted (lex_lt (positions k)) l.
Proof.
  intros getIt db fresh fuel k s r d i j ord Hs Hf Hh Hij Hv He Ho Hord Hpos.
  destruct (edg_source getIt db Hs k s r d) as (ord' & inv & l & E1 & E2 & HR & F & L & Y & S & HI & HA & HS).
  assert (ord' = ord) as -> by congruence.
  assert (Hsv : sameVar s r d = Some (Z.of_nat i, Z.of_nat j) /\ good_pos i j).
  { unfold sameVar, good_pos. destruct i as [|[|[|i]]], j as [|[|[|j]]]; try lia; cbn [field] in *;
      pose proof (Ho 0%nat ltac:(lia)) as G0; pose proof (Ho 1%nat ltac:(lia)) as G1; pose proof (Ho 2%nat ltac:(lia)) as G2; cbn [field] in *.
    - subst r. destruct (Z.ltb_spec s 0); [|lia]. rewrite Z.eqb_refl. cbn. auto.
    - subst d. destruct (Z.ltb_spec s 0); [|lia]. destruct (Z.eqb_spec r s); [lia|]. rewrite Z.eqb_refl. cbn. auto.
    - subst d. destruct (Z.eqb_spec r s); [lia|]. destruct (Z.ltb_spec r 0); [|lia]. rewrite !andb_false_r. rewrite Z.eqb_refl. cbn. auto. }
  destruct Hsv as [Hsv Hg]. unfold edg, getEdgeItr. rewrite E2, Hsv. do 2 eexists. split; [reflexivity|].
  pose proof (src_len db l ord _ S HI). pose proof (C37_filter i j false l _ fresh fuel Hg Y ltac:(lia) Hh) as YF.
  assert (HL : forall P : elem -> bool, (length (filter P l) <= length l)%nat) by (intros P; clear; induction l; cbn; auto; destruct (P a); cbn; lia).
  split; [eapply e_drain_ok; eauto; specialize (HL (fun x => field x i =? field x j)); unfold triple, elem in *; lia|].
  assert (Hsame : forall t, field (reorder ord t) i =? field (reorder ord t) j = true <-> field t i = field t j).
  { assert (Hn : forall m t, (m < 3)%nat -> field (reorder ord t) m = field t (nth m ord 3%nat)).
    { assert (length ord = 3%nat) as Lo. { unfold perm_positions in Hord. repeat (match goal with H : (if ?b then _ else _) = _ |- _ => destruct b end); try discriminate;
        (apply (f_equal (fun o => match o with Some l => l | None => [] end)) in Hord; subst ord; reflexivity). }
      intros m t Hm. destruct ord as [|a [|b [|c [|? ?]]]]; try discriminate. destruct m as [|[|[|m]]]; auto; lia. }
    intros t. rewrite !Hn by lia. destruct Hpos as [[-> ->]|[-> ->]]; rewrite Z.eqb_eq; split; auto. }
  split.
  - intros t. rewrite in_map_iff. transitivity (In t db /\ matches (s, r, d) t /\ field t i = field t j).
    + split.
      * intros (x & <- & Hx). apply filter_In in Hx. destruct Hx as [Hx Ex]. apply HI in Hx. destruct Hx as (u & Hu & M & ->). rewrite HR. apply Hsame in Ex. auto.
      * intros (H1 & H2 & H3). exists (reorder ord t). split; auto. apply filter_In. split; [apply HI; eauto|]. apply Hsame. auto.
    + split; [intros (H1 & H2 & H3)|intros (H1 & H2 & H3); split; auto; split; auto; apply H3; auto; lia]. split; auto. split; auto.
      intros a b Ha Hb Va Eab. destruct (Nat.eq_dec a b) as [->|Nab]; auto.
      assert (Hc : forall m, (m < 3)%nat -> m = i \/ m = j \/ field (s, r, d) m <> field (s, r, d) i).
      { intros m Hm. destruct (Nat.eq_dec m i); auto. destruct (Nat.eq_dec m j); auto. }
      assert (Hthird : forall m m', (m < 3)%nat -> (m' < 3)%nat -> m <> i -> m <> j -> m' <> i -> m' <> j -> m = m') by lia.
      clear - Hc Hthird Nab Ha Hb Eab H3 He.
      destruct (Hc a Ha) as [->|[->|Na]], (Hc b Hb) as [->|[->|Nb]]; auto; try (exfalso; auto; fail).
      * exfalso. apply Nb. rewrite He. auto.
      * exfalso. apply Na. rewrite He. auto.
      * exfalso. apply Nab, Hthird; auto; intros ->; auto.
  - assert (forall P : elem -> bool, StronglySorted (lex_lt (positions k)) (map (reorder inv) (filter P l))) as HF; [|apply HF].
    intros P. clear - HS. induction l as [|x l IH]; cbn [filter map] in *; auto. inversion HS as [|? ? HS' Fx]; subst. destruct (P x); auto. cbn [map]. constructor; auto.
    apply Forall_forall. intros y Hy. apply in_map_iff in Hy. destruct Hy as (z & <- & Hz). rewrite Forall_forall in Fx. apply Fx, in_map. apply filter_In in Hz. apply Hz.
Qed.
Print Assumptions C37_edges_partial.
Example C37_edges_case :
  (do e <- edg ex_get ex_fresh 10 SRD (-2) (-1) (-2); e_drain 10 e) = Some [(5, 7, 5); (7, 7, 7)] /\
  (do e <- edg ex_get ex_fresh 10 SRD 7 (-2) (-2); e_drain 10 e) = Some [(7, 7, 7)] /\
  (do e <- edg ex_get ex_fresh 10 RSD (-2) (-2) (-3); e_drain 10 e) = Some [(7, 7, 7); (8, 8, 5)].
Proof. repeat split; vm_compute; reflexivity. Qed.

(** The filter compares the positions of the index, not those of the pattern: the loops of
    relation 7 are not returned, an edge that is no answer is. *)
Theorem C37_index_refuted : exists getIt db fresh s r d l, serves getIt db /\ fs_hnc fresh = false /\
  (do e <- edg getIt fresh 10 SRD s r d; e_drain 10 e) = Some l /\
  (exists t, In t db /\ answer (s, r, d) t /\ ~ In t l) /\ (exists t, In t l /\ ~ answer (s, r, d) t).
Proof.
  exists ex_get, ex_db, ex_fresh, (-2), 7, (-2), [(6, 7, 7); (7, 7, 7)]. split; [exact ex_serves|]. split; [reflexivity|]. split; [vm_compute; reflexivity|]. split.
  - exists (5, 7, 5). split; [left; reflexivity|]. split.
    + split; [intros [|[|[|i]]] Hi; cbn; unfold matches1; lia|]. intros [|[|[|i]]] [|[|[|j]]] Hi Hj; cbn; lia.
    + cbn. intuition congruence.
  - exists (6, 7, 7). split; [left; reflexivity|]. intros [_ H]. specialize (H 0%nat 2%nat ltac:(lia) ltac:(lia) ltac:(cbn; lia) ltac:(cbn; lia)). cbn in H. lia.
Qed.
Print Assumptions C37_index_refuted.
(** The same variable three times: only two positions are compared. *)
Theorem C37_three_refuted : exists getIt db fresh s r d l t, serves getIt db /\ fs_hnc fresh = false /\
  (do e <- edg getIt fresh 10 SRD s r d; e_drain 10 e) = Some l /\ In t l /\ ~ answer (s, r, d) t.
Proof.
  exists ex_get, ex_db, ex_fresh, (-2), (-2), (-2), [(7, 7, 7); (8, 8, 5)], (8, 8, 5). split; [exact ex_serves|]. split; [reflexivity|]. split; [vm_compute; reflexivity|].
  split; [right; left; reflexivity|]. intros [_ H]. specialize (H 0%nat 2%nat ltac:(lia) ltac:(lia) ltac:(cbn; lia) ltac:(cbn; lia)). cbn in H. lia.
Qed.
Print Assumptions C37_three_refuted.
(** An object that delivered all its elements and was released answers the next pattern with
    nothing: countEdges twice gives two results. *)
Theorem C37_reuse_refuted : exists getIt db fresh s r d used, serves getIt db /\ fs_hnc fresh = false /\
  countEdges getIt (fun _ _ _ => 0) fresh 10 s r d = Some 2 /\
  fs_hasNext 10 (fs_init fresh (list_itr (0, 0, 0) []) 0 1) = Some (false, used) /\
  countEdges getIt (fun _ _ _ => 0) used 10 s r d = Some 0.
Proof.
  exists ex_get, ex_db, ex_fresh, (-2), (-2), (-3). eexists. split; [exact ex_serves|]. split; [reflexivity|]. split; [vm_compute; reflexivity|].
  split; [reflexivity|vm_compute; reflexivity].
Qed.
Print Assumptions C37_reuse_refuted.
(** countEdges passes the variables on as they are; a constant subject with a repeated variable
    other than -1 is never found. *)
Theorem C37_count_refuted : exists getIt db fresh s r d t, serves getIt db /\ fs_hnc fresh = false /\
  In t db /\ answer (s, r, d) t /\ countEdges getIt (fun _ _ _ => 0) fresh 10 s r d = Some 0.
Proof.
  exists ex_get, ex_db, ex_fresh, 7, (-2), (-2), (7, 7, 7). split; [exact ex_serves|]. split; [reflexivity|]. split; [cbn; tauto|]. split; [|vm_compute; reflexivity].
  split; [intros [|[|[|i]]] Hi; cbn; unfold matches1; lia|]. intros [|[|[|i]]] [|[|[|j]]] Hi Hj; cbn; lia.
Qed.
Print Assumptions C37_count_refuted.

(** *** C53: groups *)
Lemma filter_map_len {A B} (f : A -> B) (P : B -> bool) (Q : A -> bool) l : (forall x, P (f x) = Q x) -> length (filter P (map f l)) = length (filter Q l).
Proof. intros H. induction l as [|x l IH]; cbn; auto. rewrite H. destruct (Q x); cbn; auto. Qed.
Lemma groups_ok two inv it l ps fuel : Yields false l it -> StronglySorted elt l -> (length l < fuel)%nat ->
  (forall x, group_key ps (reorder inv x) = kkey two x) ->
  exists res g, drain_groups fuel two (Some (mkEdge inv it)) = Some res /\ Forall2 (fun a b => (if two then read2 else read1) a = Some b) res g /\
    is_grouping ps (map (reorder inv) l) g /\ forall c, kc_count fuel fuel two (kc_new (mkEdge inv it)) c = Some (c + Z.of_nat (length g)).
Proof.
  intros Y S Hf Hk.
  assert (Ha : kc_at l inv (kc_new (mkEdge inv it))). { split; [reflexivity|]. split; [reflexivity|]. left. split; [reflexivity|exact Y]. }
  destruct (kc_drain_ok fuel two inv (length l) l _ fuel (le_n _) Ha Hf Hf) as (res & g & E & HF & HR & HC).
  exists res, g. split; [exact E|]. split; [exact HF|]. split; [|exact HC].
  destruct (runs_grouping _ _ _ HR S) as (N & I & C). split; [exact N|]. split.
  - intros k. rewrite I. split.
    + intros (x & Hx & <-). exists (reorder inv x). split; [apply in_map; auto|apply Hk].
    + intros (t & Ht & <-). apply in_map_iff in Ht. destruct Ht as (x & <- & Hx). exists x. rewrite Hk. auto.
  - intros k n Hn. rewrite (C _ _ Hn). unfold kcount. f_equal. symmetry. apply filter_map_len. intros x. rewrite Hk. reflexivity.
Qed.

(** What is assumed of getCard: it counts the answers of a pattern. *)
Definition counts (getCard : Z -> Z -> Z -> Z) (db : list triple) : Prop :=
  forall s r d, distinct_vars s r d -> exists ans, NoDup ans /\ (forall t, In t ans <-> In t db /\ answer (s, r, d) t) /\ getCard s r d = Z.of_nat (length ans).
(** [grouped ps pat db g]: g are the groups of the answers to pat by the positions ps. *)
Definition grouped (ps : list nat) (pat : triple) (db : list triple) (g : list (list Z * Z)) : Prop :=
  exists ans, NoDup ans /\ (forall t, In t ans <-> In t db /\ answer pat t) /\ is_grouping ps ans g.

Lemma src_grouped getIt db k s r d ps two inv : serves getIt db -> distinct_vars s r d ->
  getInvOrder (edg_idx k s r d) = Some inv -> (forall x, group_key ps (reorder inv x) = kkey two x) ->
  forall fuel fresh, (length db < fuel)%nat ->
  exists res g, drain_groups fuel two (edg getIt fresh fuel k s r d) = Some res /\ Forall2 (fun a b => (if two then read2 else read1) a = Some b) res g /\
    grouped ps (s, r, d) db g /\
    (do e <- edg getIt fresh fuel k s r d; kc_count fuel fuel two (kc_new e) 0) = Some (Z.of_nat (length g)).
Proof.
  intros Hs Hd Hi Hk fuel fresh Hf. destruct (edg_source getIt db Hs k s r d) as (ord & inv' & l & E1 & E2 & _ & F & L & Y & S & HI & HA & HS).
  assert (inv' = inv) as -> by congruence. pose proof (src_len db l ord _ S HI).
  destruct (groups_ok two inv _ l ps fuel Y S ltac:(lia) Hk) as (res & g & E & HF & HG & HC).
  exists res, g. unfold edg, getEdgeItr. rewrite E2. rewrite (proj2 (sameVar_none s r d) Hd). split; [exact E|]. split; [exact HF|]. split; [|apply HC].
  exists (map (reorder inv) l). split; [eapply sorted_irrefl_nodup; [|exact HS]; apply lex_lt_irrefl|]. split; [|exact HG].
  intros t. rewrite HA, answer_distinct by auto. reflexivity.
Qed.
Lemma const_grouped getCard db s r d p k : counts getCard db -> distinct_vars s r d -> (p < 3)%nat -> field (s, r, d) p = k -> 0 <= k ->
  exists g, Forall2 (fun a b => read1 a = Some b) (const1 getCard s r d k) g /\ grouped [p] (s, r, d) db g.
Proof.
  intros HC Hd Hp Hk H0. destruct (HC s r d Hd) as (ans & N & I & E). unfold const1. rewrite E.
  assert (Hall : forall t, In t ans -> group_key [p] t = [k]).
  { intros t Ht. apply I in Ht. destruct Ht as (_ & M & _). specialize (M p Hp). unfold matches1 in M. cbn. f_equal. lia. }
  destruct ans as [|t ans].
  - cbn. exists []. split; [constructor|]. exists []. split; [constructor|]. split; [exact I|]. split; [constructor|]. split; [|intros ? ? []].
    intros k'. cbn. split; [tauto|]. intros (? & [] & _).
  - destruct (Z.ltb_spec 0 (Z.of_nat (length (t :: ans)))) as [_|Hn]; [|cbn [length] in Hn; lia].
    exists [([k], Z.of_nat (length (t :: ans)))]. split; [constructor; [reflexivity|constructor]|]. exists (t :: ans). split; [exact N|]. split; [exact I|].
    split; [repeat constructor; intros []|]. split.
    + intros k'. cbn [map fst In]. split.
      * intros [<-|[]]. exists t. split; [left; auto|]. apply Hall. left. auto.
      * intros (u & Hu & <-). left. symmetry. apply Hall. auto.
    + intros k' n [En|[]]. assert (k' = [k] /\ n = Z.of_nat (length (t :: ans))) as [-> ->] by (split; congruence). f_equal.
      assert (HF : forall l, (forall t, In t l -> group_key [p] t = [k]) -> length (filter (fun t0 => if list_eq_dec Z.eq_dec (group_key [p] t0) [k] then true else false) l) = length l).
      { induction l as [|u l IH]; intros H; cbn [filter]; auto. rewrite (H u) by (left; auto). destruct list_eq_dec; [|congruence]. cbn [length]. f_equal. apply IH. intros. apply H. right. auto. }
      symmetry. apply HF. exact Hall.
Qed.

(** A counter that meets the assumption, for every database. *)
Definition ref_card (db : list triple) (s r d : Z) : Z :=
  Z.of_nat (length (filter (fun t => ((s <? 0) || (s =? field t 0)) && ((r <? 0) || (r =? field t 1)) && ((d <? 0) || (d =? field t 2))) db)).
Lemma ref_counts db : NoDup db -> counts (ref_card db) db.
Proof.
  intros N s r d Hd. eexists. split; [|split; [|reflexivity]]; [apply NoDup_filter; auto|]. intros t. rewrite filter_In, answer_distinct by auto.
  assert (M : matches (s, r, d) t <-> (s < 0 \/ s = field t 0) /\ (r < 0 \/ r = field t 1) /\ (d < 0 \/ d = field t 2)).
  { split; [apply matches_fields|]. intros (H1 & H2 & H3) i Hi. destruct i as [|[|[|i]]]; auto; lia. }
  rewrite M. split; intros [H1 H2]; (split; [exact H1|]); clear H1.
  - apply andb_true_iff in H2. destruct H2 as [H2 H3]. apply andb_true_iff in H2. destruct H2 as [H1 H2]. lia.
  - lia.
Qed.

(** One key: the groups are right when the key is a constant, or when all three positions are
    different variables.  Missing: the key is a variable and another position a constant; see the
    refutation. *)
Theorem C53_one_key_partial : forall getIt getCard db fresh fuel s r d, serves getIt db -> counts getCard db -> (length db < fuel)%nat ->
  distinct_vars s r d ->
  (0 <= s \/ (s < 0 /\ r < 0 /\ d < 0) ->
    exists res g, grp_s getIt getCard fresh fuel s r d = Some res /\ Forall2 (fun a b => read1 a = Some b) res g /\ grouped [0%nat] (s, r, d) db g) /\
  (0 <= r \/ (s < 0 /\ r < 0 /\ d < 0) ->
    exists res g, grp_r getIt getCard fresh fuel s r d = Some res /\ Forall2 (fun a b => read1 a = Some b) res g /\ grouped [1%nat] (s, r, d) db g) /\
  (0 <= d \/ (s < 0 /\ r < 0 /\ d < 0) ->
    exists res g, grp_d getIt getCard fresh fuel s r d = Some res /\ Forall2 (fun a b => read1 a = Some b) res g /\ grouped [2%nat] (s, r, d) db g).
Proof.
  intros getIt getCard db fresh fuel s r d Hs Hc Hf Hd. unfold grp_s, grp_r, grp_d. split; [|split]; intros H.
  - destruct (Z.leb_spec 0 s) as [H0|H0].
    + destruct (const_grouped getCard db s r d 0 s Hc Hd ltac:(lia) eq_refl H0) as (g & HF & HG). do 2 eexists. split; [reflexivity|]. eauto.
    + destruct (Z.leb_spec 0 d); [lia|]. assert (Ei : edg_idx SRD s r d = IDX_SPO) by (unfold edg_idx; destruct (Z.leb_spec 0 d), (Z.leb_spec 0 r); auto; lia).
      destruct (src_grouped getIt db SRD s r d [0%nat] false [0;1;2]%nat Hs Hd ltac:(rewrite Ei; reflexivity) ltac:(intros [[? ?] ?]; reflexivity) fuel fresh Hf) as (res & g & E & HF & HG & _). eauto.
  - destruct (Z.leb_spec 0 r) as [H0|H0].
    + destruct (const_grouped getCard db s r d 1 r Hc Hd ltac:(lia) eq_refl H0) as (g & HF & HG). do 2 eexists. split; [reflexivity|]. eauto.
    + destruct (Z.leb_spec 0 d); [lia|]. assert (Ei : edg_idx RSD s r d = IDX_PSO) by (unfold edg_idx; destruct (Z.leb_spec 0 d), (Z.leb_spec 0 s); auto; lia).
      destruct (src_grouped getIt db RSD s r d [1%nat] false [1;0;2]%nat Hs Hd ltac:(rewrite Ei; reflexivity) ltac:(intros [[? ?] ?]; reflexivity) fuel fresh Hf) as (res & g & E & HF & HG & _). eauto.
  - destruct (Z.leb_spec 0 d) as [H0|H0].
    + destruct (const_grouped getCard db s r d 2 d Hc Hd ltac:(lia) eq_refl H0) as (g & HF & HG). do 2 eexists. split; [reflexivity|]. eauto.
    + destruct (Z.leb_spec 0 r); [lia|]. assert (Ei : edg_idx DSR s r d = IDX_OSP) by (unfold edg_idx; destruct (Z.leb_spec 0 r), (Z.leb_spec 0 s); auto; lia).
      destruct (src_grouped getIt db DSR s r d [2%nat] false [1;2;0]%nat Hs Hd ltac:(rewrite Ei; reflexivity) ltac:(intros [[? ?] ?]; reflexivity) fuel fresh Hf) as (res & g & E & HF & HG & _). eauto.
Qed.
Print Assumptions C53_one_key_partial.

(** Two keys: the groups by the first two positions of the name, and their number, are right when
    the second and third position of the name are variables.  Missing: the other patterns. *)
Theorem C53_two_keys_partial : forall getIt getCard db fresh fuel k s r d, serves getIt db -> (length db < fuel)%nat -> distinct_vars s r d ->
  field (s, r, d) (nth 1 (positions k) 3%nat) < 0 -> field (s, r, d) (nth 2 (positions k) 3%nat) < 0 ->
  exists res g, grp2 getIt getCard fresh fuel k s r d = Some res /\ Forall2 (fun a b => read2 a = Some b) res g /\
    grouped (firstn 2 (positions k)) (s, r, d) db g /\ cnt_grp2 getIt getCard fresh fuel k s r d = Some (Z.of_nat (length g)).
Proof.
  intros getIt getCard db fresh fuel k s r d Hs Hf Hd H1 H2.
  assert (Hinv : exists inv, getInvOrder (edg_idx k s r d) = Some inv /\ forall x, group_key (firstn 2 (positions k)) (reorder inv x) = kkey true x).
  { destruct k; cbn [positions nth field] in H1, H2; unfold edg_idx; repeat match goal with |- context [0 <=? ?v] => destruct (Z.leb_spec 0 v); try lia end;
      (eexists; split; [reflexivity|intros [[? ?] ?]; reflexivity]). }
  destruct Hinv as (inv & Ei & Hk).
  destruct (src_grouped getIt db k s r d _ true inv Hs Hd Ei Hk fuel fresh Hf) as (res & g & E & HF & HG & HC).
  exists res, g. unfold grp2, cnt_grp2. destruct k; cbn [positions nth field] in H1, H2;
    repeat match goal with |- context [0 <=? ?v] => destruct (Z.leb_spec 0 v); try lia end; cbn [andb]; auto.
Qed.
Print Assumptions C53_two_keys_partial.
Example C53_case : counts (ref_card ex_db) ex_db /\
  grp_s ex_get (ref_card ex_db) ex_fresh 10 7 (-2) (-3) = Some [(Some 7, None, 2)] /\
  grp_s ex_get (fun _ _ _ => 0) ex_fresh 10 (-1) (-2) (-3) = Some [(Some 5, None, 2); (Some 6, None, 1); (Some 7, None, 2); (Some 8, None, 1)] /\
  grp2 ex_get (fun _ _ _ => 0) ex_fresh 10 RDS (-1) (-2) (-3) =
    Some [(Some 6, Some 5, 1); (Some 7, Some 5, 1); (Some 7, Some 6, 1); (Some 7, Some 7, 2); (Some 8, Some 5, 1)].
Proof.
  split; [apply ref_counts; unfold ex_db; repeat (constructor; [cbn; intuition congruence|]); constructor|].
  repeat split; vm_compute; reflexivity.
Qed.

(** With a constant elsewhere the group key is that constant: the sources of relation 7 come as
    one group with key 7. *)
Theorem C53_one_key_refuted : exists getIt getCard db fresh s r d res, serves getIt db /\ distinct_vars s r d /\
  grp_s getIt getCard fresh 10 s r d = Some res /\ forall g, grouped [0%nat] (s, r, d) db g -> ~ Forall2 (fun a b => read1 a = Some b) res g.
Proof.
  exists ex_get, (fun _ _ _ => 0), ex_db, ex_fresh, (-1), 7, (-2), [(Some 7, None, 4)]. split; [exact ex_serves|]. split; [split; lia|]. split; [vm_compute; reflexivity|].
  intros g (ans & N & I & _ & G & _) HF. inversion HF as [|a b ? g' E HF' ]; subst. inversion HF'; subst. cbn in E. injection E as <-.
  destruct (proj2 (G [5])) as [Ek|[]]; [|cbn in Ek; congruence]. exists (5, 7, 5). split; [|reflexivity]. apply I. split; [left; reflexivity|].
  apply answer_distinct; [split; lia|]. intros [|[|[|i]]] Hi; cbn; unfold matches1; lia.
Qed.
Print Assumptions C53_one_key_refuted.
(** Two constant keys: the first key is overwritten by the second, which stays unset. *)
Theorem C53_two_constants_refuted : forall getIt getCard fresh fuel s r d, 0 <= s -> 0 <= r -> s <> r -> 0 < getCard s r d ->
  grp2 getIt getCard fresh fuel SRD s r d = Some [(Some r, None, getCard s r d)].
Proof.
  intros. unfold grp2, const2. destruct (Z.leb_spec 0 s), (Z.leb_spec 0 r), (Z.ltb_spec 0 (getCard s r d)); try lia. reflexivity.
Qed.
Print Assumptions C53_two_constants_refuted.
(** The number of groups with a constant destination counts sources, not (source, relation). *)
Theorem C53_number_refuted : exists getIt getCard db fresh s r d n, serves getIt db /\ distinct_vars s r d /\
  cnt_grp2 getIt getCard fresh 10 SRD s r d = Some n /\ forall g, grouped [0; 1]%nat (s, r, d) db g -> Z.of_nat (length g) <> n.
Proof.
  set (db := [(5, 7, 5); (5, 8, 5)] : list triple).
  exists (ref_get db), (fun _ _ _ => 0), db, ex_fresh, (-1), (-2), 5, 1. split.
  { apply ref_serves.
    - repeat (constructor; [cbn; intuition congruence|]). constructor.
    - intros t Ht. cbn in Ht. repeat destruct Ht as [<- | Ht]; cbn; try lia. }
  split; [split; lia|]. split; [vm_compute; reflexivity|].
  intros g (ans & N & I & _ & G & _) HL. destruct g as [|[k n] [|? ?]]; cbn [length] in HL; try lia.
  assert (Hm : forall t, In t db -> matches (-1, -2, 5) t) by (intros t [<-|[<-|[]]] [|[|[|i]]] Hi; cbn; unfold matches1; lia).
  assert (H1 : In [5; 7] (map fst [(k, n)])). { apply G. exists (5, 7, 5). split; [|reflexivity]. apply I. split; [left; auto|]. apply answer_distinct; [split; lia|]. apply Hm. left. auto. }
  assert (H2 : In [5; 8] (map fst [(k, n)])). { apply G. exists (5, 8, 5). split; [|reflexivity]. apply I. split; [right; left; auto|]. apply answer_distinct; [split; lia|]. apply Hm. right. left. auto. }
  cbn in H1, H2. destruct H1 as [->|[]], H2 as [H2|[]]. discriminate.
Qed.
Print Assumptions C53_number_refuted.

(** *** C54: access by position *)
(** Asking hasNext does not change the values the iterator stands on (true of tables, not of
    FilterSameItr). *)
Fixpoint Still (l : list elem) (o : pitr) : Prop :=
  forall b o1, hasNext o = Some (b, o1) -> cur o1 = cur o /\
    match l with [] => True | _ :: t => forall o2, next o1 = Some o2 -> Still t o2 end.
Lemma Still_step l o b o1 : Still l o -> hasNext o = Some (b, o1) -> cur o1 = cur o.
Proof. destruct l; intros H E; cbn in H; apply (H _ _ E). Qed.
Lemma list_still l : forall c, Still l (list_itr c l).
Proof.
  induction l as [|x l IH]; intros c b o1 E; cbn in E; injection E as <- <-; (split; [reflexivity|]); auto.
  intros o2 E2. cbn in E2. injection E2 as <-. apply IH.
Qed.

Lemma e_triple_at a b c o : Forall (fun i => (i < 3)%nat) [a; b; c] -> e_triple (mkEdge [a; b; c] o) = Some (reorder [a; b; c] (cur o)).
Proof.
  intros HF. unfold e_triple, e_field, reorder. cbn [e_order nth_error nth].
  assert (Hv : forall i, (i < 3)%nat -> e_value {| e_order := [a; b; c]; e_itr := o |} i = Some (field (cur o) i)).
  { intros [|[|[|i]]] Hi; cbn; auto; lia. }
  inversion HF as [|? ? H1 HF1]; subst. inversion HF1 as [|? ? H2 HF2]; subst. inversion HF2 as [|? ? H3 HF3]; subst.
  rewrite !Hv by auto. reflexivity.
Qed.
(** [pos_loop] after hasNext was asked, the iterator standing on x before. *)
Lemma pos_loop_ok inv : forall n l o o1 x, Yields false l o -> Still l o -> hasNext o = Some (nonempty l, o1) -> cur o = x ->
  ((n < length l)%nat -> exists o', pos_loop n (mkEdge inv o1) (nonempty l) = Some (mkEdge inv o', true) /\ Some (cur o') = nth_error (x :: l) n) /\
  ((length l <= n)%nat -> forall e, pos_loop n (mkEdge inv o1) (nonempty l) <> Some (e, true)).
Proof.
  induction n as [|n IH]; intros l o o1 x HY HS Eh Ex.
  - split.
    + intros Hl. destruct l as [|y l]; [cbn in Hl; lia|]. exists o1. split; [reflexivity|]. cbn. f_equal. rewrite <- Ex. eapply Still_step; eauto.
    + intros Hl. destruct l as [|y l]; [|cbn in Hl; lia]. cbn. congruence.
  - destruct l as [|y l].
    + split; [cbn; lia|]. intros _ e. cbn. congruence.
    + destruct (Yields_poll _ _ _ HY) as (o1' & Eh' & _ & o2 & E2 & Ec & _ & Y2). rewrite Eh in Eh'. injection Eh' as <-.
      assert (S2 : Still l o2) by (destruct (HS _ _ Eh) as [_ H]; apply H; auto).
      destruct (Yields_poll _ _ _ Y2) as (o3 & Eh3 & _). cbn [pos_loop nonempty]. unfold e_next, e_hasNext. cbn [e_itr e_order]. rewrite E2. cbn [e_itr e_order]. rewrite Eh3.
      destruct (IH l o2 o3 y Y2 S2 Eh3 Ec) as [I1 I2]. cbn [length nth_error]. split.
      * intros Hl. apply I1. lia.
      * intros Hl. apply I2. lia.
Qed.

(** Position n > 0 returns the edge before the one at n (counting from 0), and the last edge is
    never returned. *)
Theorem C54_previous_partial : forall getIt db fresh fuel k s r d, serves getIt db ->
  (forall idx a b c l, Yields false l (getIt idx a b c) -> Still l (getIt idx a b c)) -> distinct_vars s r d ->
  exists l, (forall t, In t l <-> In t db /\ answer (s, r, d) t) /\ StronglySorted (lex_lt (positions k)) l /\
    forall n, pos getIt fresh fuel k s r d (S n) = if (S n <? length l)%nat then nth_error l n else None.
Proof.
  intros getIt db fresh fuel k s r d Hs Hst Hd.
  destruct (edg_source getIt db Hs k s r d) as (ord & inv & l & E1 & E2 & _ & F & L & Y & S & HI & HA & HS).
  exists (map (reorder inv) l). split; [intros t; rewrite HA, answer_distinct by auto; reflexivity|]. split; [exact HS|]. intros n.
  unfold pos, edg, getEdgeItr. rewrite E2, (proj2 (sameVar_none s r d) Hd). set (o := getIt _ _ _ _) in *.
  destruct (Yields_poll _ _ _ Y) as (o1 & Eh & _). unfold e_hasNext at 1. cbn [e_itr e_order]. rewrite Eh.
  destruct (pos_loop_ok inv (Datatypes.S n) l o o1 (cur o) Y (Hst _ _ _ _ _ Y) Eh eq_refl) as [P1 P2]. rewrite map_length.
  destruct (le_lt_dec (length l) (Datatypes.S n)) as [Hl|Hl].
  2: match goal with |- _ = if ?b then _ else _ => replace b with true by (symmetry; apply Nat.ltb_lt; exact Hl) end.
  1: match goal with |- _ = if ?b then _ else _ => replace b with false by (symmetry; apply Nat.ltb_ge; exact Hl) end.
  - specialize (P2 Hl). destruct pos_loop as [[e b]|]; auto. destruct b; auto. exfalso. eapply P2. reflexivity.
  - destruct (P1 Hl) as (o' & E & Ec). rewrite E. destruct inv as [|a [|b [|c [|? ?]]]]; try discriminate. rewrite e_triple_at by auto.
    cbn [nth_error] in Ec. symmetry in Ec. rewrite (map_nth_error _ _ _ Ec). reflexivity.
Qed.
Print Assumptions C54_previous_partial.
Example C54_case : (forall idx a b c l, Yields false l (ex_get idx a b c) -> Still l (ex_get idx a b c)) /\
  pos ex_get ex_fresh 10 SRD (-1) 7 (-2) 2 = Some (5, 7, 6) /\ pos ex_get ex_fresh 10 SRD (-1) 7 (-2) 4 = None.
Proof.
  split; [|split; vm_compute; reflexivity]. intros idx a b c l Y. unfold ex_get, ref_get in *.
  assert (E : l = ref_list ex_db idx a b c); [|subst l; apply list_still].
  pose proof (Yields_drain _ _ _ (S (length l + length (ref_list ex_db idx a b c))) Y ltac:(lia)) as D1.
  pose proof (Yields_drain _ _ _ (S (length l + length (ref_list ex_db idx a b c))) (list_yields false (ref_list ex_db idx a b c) (0,0,0)) ltac:(lia)) as D2. congruence.
Qed.

(** Position 1 of a list of at least two edges is its first edge, and the last edge of the list
    cannot be accessed. *)
Theorem C54_pos_refuted : exists getIt db fresh s r d l, serves getIt db /\ distinct_vars s r d /\
  (do e <- edg getIt fresh 10 SRD s r d; e_drain 10 e) = Some l /\
  pos getIt fresh 10 SRD s r d 1 = nth_error l 0 /\ nth_error l 0 <> nth_error l 1 /\ pos getIt fresh 10 SRD s r d (length l) = None /\
  forall n, (n < 4)%nat -> pos getIt fresh 10 SRD s r d n <> nth_error l 3.
Proof.
  exists ex_get, ex_db, ex_fresh, (-1), 7, (-2), [(5, 7, 5); (5, 7, 6); (6, 7, 7); (7, 7, 7)]. split; [exact ex_serves|]. split; [split; lia|].
  split; [vm_compute; reflexivity|]. split; [vm_compute; reflexivity|]. split; [discriminate|]. split; [vm_compute; reflexivity|].
  intros [|[|[|[|n]]]] Hn; try lia; vm_compute; discriminate.
Qed.
Print Assumptions C54_pos_refuted.
