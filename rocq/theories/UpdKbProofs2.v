(** The answers of a database with updates. *)
From Coq Require Import Sorted Permutation ZifyBool.
From Verif Require Export UpdKbProofs.
From Verif Require Import QueryModel QuerySpec SortSpec InserterSpec InserterProps ItrProofs CompProofs ScanProofs ItrProps DiffProps.
Local Open Scope Z_scope.

Lemma elt_tlt l : StronglySorted elt l <-> StronglySorted tlt l.
Proof. reflexivity. Qed.

Section Db.
Variables (U : list triple) (st : nat -> list (Z * Z) -> bool) (L : nat -> list entry) (d : db) (fuel : nat).
Hypothesis HD : DbOk U st L d.
Hypothesis Hfuel : (length U < fuel)%nat.

(** The iterators that can count. *)
Definition counting (i : nat) (a : Z) : Prop := (i < 3)%nat \/ (d_present d i = true /\ (forall l, st i l = true) /\ 0 <= a).

Lemma no_entry_all i k : (i < 6)%nat -> d_present d i = true -> (forall l, st i l = true) -> entry_for k (L i) = None -> tab U i k = [].
Proof.
  intros Hi Hp Hst E. unfold entry_for in E. destruct (find _ (L i)) eqn:F; [discriminate|]. apply (find_none_key U fuel Hfuel) in F.
  rewrite (lo_keys _ _ _ _ _ (db_loaded _ _ _ _ HD i Hi Hp)) in F. destruct (tab U i k) eqn:Et; auto. exfalso. apply F. apply filter_In. split; [|apply Hst].
  apply keys_In. unfold tab in Et. rewrite Et. discriminate.
Qed.

Lemma get_counts i k l v1 v2 : (i < 6)%nat -> kb_present d i = true -> (forall j, (j < 6)%nat -> l j = entry_for k (L j)) ->
  (v1 = -1 -> v2 = -1) -> vok v1 -> vok v2 -> (i < 3)%nat \/ d_present d i = true /\ (forall t, st i t = true) ->
  exists o, kb_get fuel d i l k v1 v2 = Some o /\ Yields true (with_key k (filter (pair_matches v1 v2) (tab U i k))) o.
Proof.
  intros Hi Hp Hl Hc H1 H2 HC. unfold kb_get. rewrite (Hl i Hi). destruct (entry_for k (L i)) as [c|] eqn:E.
  - destruct (coord_opens U st L d fuel HD Hfuel i k c v1 v2 Hi E Hc H1 H2) as (o & Eo & Hy & _). eauto.
  - assert (Ht : tab U i k = []).
    { apply no_entry_all; auto; destruct HC as [HC|[HC1 HC2]]; auto.
      - unfold kb_present in Hp. destruct (Nat.leb_spec 3 i); [lia|]. now rewrite Bool.orb_false_r in Hp.
      - intros t. now apply (db_all _ _ _ _ HD). }
    rewrite Ht. destruct (Nat.leb_spec 3 i) as [H3|H3]; [|exists (empty_itr 0); split; auto; apply empty_yields].
    rewrite (Hl (i - 3)%nat) by lia. destruct (entry_for k (L (i - 3)%nat)) as [c|] eqn:E3; [|exists (empty_itr 0); split; auto; apply empty_yields].
    exfalso. unfold entry_for in E3. destruct (find _ (L (i - 3)%nat)) as [e|] eqn:F; [|discriminate]. apply (KbProofs5.find_key U fuel Hfuel) in F. destruct F as [He <-].
    assert (Hpb : d_present d (i - 3) = true). { destruct (d_present d (i - 3)) eqn:Hpb; auto. destruct (db_absent _ _ _ _ HD (i - 3)%nat ltac:(lia) Hpb) as [E0 _]. rewrite E0 in He. destruct He. }
    assert (Hin : In (e_key e) (map e_key (L (i - 3)%nat))) by now apply in_map. rewrite (lo_keys _ _ _ _ _ (db_loaded _ _ _ _ HD (i - 3)%nat ltac:(lia) Hpb)) in Hin.
    apply filter_In in Hin. destruct Hin as [Hin _]. apply keys_In in Hin. apply Hin. fold (tab U (i - 3) (e_key e)).
    pose proof (tab_perm U i (e_key e) ltac:(lia)) as P. rewrite Ht in P. apply Permutation_sym, Permutation_nil in P. now apply map_eq_nil in P.
Qed.

Lemma base_counts i s p o : (i < 6)%nat -> kb_present d i = true -> U <> [] -> vok s -> vok p -> vok o -> covers d s -> covers d p -> covers d o -> leading i (s, p, o) ->
  counting i (fst (fst (view (Z.of_nat i) (s, p, o)))) ->
  exists h, kb_base fuel d i s p o = Some (Some h) /\
    Yields true (filter (pat_matches (view (Z.of_nat i) (s, p, o))) (V U i)) (h_itr fuel d i h).
Proof.
  intros Hi Hp Hne Hs Hpp Ho Cs Cp Co Hlead HC. unfold kb_base. rewrite Hp. cbn [negb]. rewrite (split_view U fuel Hfuel) by auto.
  assert (Hv : let '(a, b, c) := view (Z.of_nat i) (s, p, o) in (vok a /\ covers d a) /\ vok b /\ vok c).
  { destruct i as [|[|[|[|[|[|i]]]]]]; cbn; auto. lia. }
  unfold leading in Hlead. destruct (view (Z.of_nat i) (s, p, o)) as [[a b] c]. destruct Hlead as [L1 L2]. destruct Hv as ((Ha & Ca) & Hb & Hc). unfold vok in *. cbn [fst snd] in HC.
  destruct (Z.leb_spec 0 a) as [H0|H0].
  - assert (EF : filter (pat_matches (a, b, c)) (V U i) = with_key a (filter (pair_matches b c) (tab U i a))).
    { unfold tab. rewrite one_key. apply filter_ext. intros x. unfold pat_matches. replace (a =? -1) with false by lia. reflexivity. }
    rewrite EF. destruct (db_tree _ _ _ _ HD a H0 Ca) as [[Eg HN]|(l & Eg & Hl)]; rewrite Eg.
    + eexists. split; [reflexivity|]. cbn iota. rewrite (absent_empty U st L d fuel HD Hfuel i a Hi Hp HN). apply empty_yields.
    + destruct (get_counts i a l b c Hi Hp Hl) as (it & Ei & Hy); unfold vok; try lia. { destruct HC as [HC|(HC1 & HC2 & _)]; auto. } rewrite Ei. eexists. split; [reflexivity|]. exact Hy.
  - assert (a = -1) as -> by lia. assert (b = -1) as -> by lia. assert (c = -1) as -> by lia.
    destruct HC as [H3|(_ & _ & HC)]; [|lia]. assert (EV : elems (tab U i) (keys (V U i)) = V U i) by (apply elems_all, canon_sorted).
    unfold kb_present in Hp. destruct (Nat.leb_spec 3 i); [lia|]. rewrite Bool.orb_false_r in Hp. destruct (base_stored U st L d fuel HD Hfuel i H3 Hp Hne) as (t & G & HS & EK).
    destruct (direct_init d i (tab U i) t G HS ltac:(lia)) as (x & Ex & Hfr). rewrite Ex. eexists. split; [reflexivity|]. cbn [h_itr].
    replace (filter (pat_matches (-1, -1, -1)) (V U i)) with (V U i) by (symmetry; apply filter_all; intros x0 _; reflexivity).
    rewrite <- EV, <- EK. now apply (direct_fresh fuel d i (tab U i) t G HS).
Qed.
End Db.

(** ** The updates *)
Lemma view_reorder i : (i < 6)%nat -> exists ord, perm_positions (Z.of_nat i) = Some ord /\ forall t, view (Z.of_nat i) t = reorder ord t.
Proof. intros Hi. unfold view. destruct (perm_positions (Z.of_nat i)) as [ord|] eqn:E; [eauto|]. destruct i as [|[|[|[|[|[|i]]]]]]; try discriminate. lia. Qed.

Definition in_pattern (i : nat) (pat : triple) := upd_image (view (Z.of_nat i)) (matches pat).

Lemma image_selected i s p o all ord R : (i < 6)%nat -> vok s -> vok p -> vok o -> (forall t, view (Z.of_nat i) t = reorder ord t) ->
  (forall x, In x R <-> (exists t, In t all /\ x = reorder ord t) /\ pat_matches (view (Z.of_nat i) (s, p, o)) x = true) ->
  image (view (Z.of_nat i)) (matches (s, p, o)) (fun t => In t all) (fun x => In x R).
Proof.
  intros Hi Hs Hp Ho Hv HR x. cbv beta. rewrite HR. split.
  - intros [(t & Ht & ->) Hm]. rewrite <- Hv in *. exists t. split; auto. split; auto. now apply (view_matches i).
  - intros (t & Ht & Hm & <-). split; [exists t; split; auto|]. now apply view_matches.
Qed.

Lemma upd_one i s p o all u : (i < 6)%nat -> vok s -> vok p -> vok o -> leading i (s, p, o) ->
  written all (up_ix u) -> (forall i, 8 <= Z.of_nat (length (up_pad u i))) ->
  let '(a, b, c) := view (Z.of_nat i) (s, p, o) in
  exists it R, upd_itr (Z.of_nat i) a b c u = Some it /\ Yields true R it /\ StronglySorted elt R /\
    image (view (Z.of_nat i)) (matches (s, p, o)) (fun t => In t all) (fun x => In x R) /\ (0 <= a -> Forall (fun x => fst (fst x) = a) R).
Proof.
  intros Hi Hs Hp Ho Hl HW Hpad. destruct (view_reorder i Hi) as (ord & Eo & Hv).
  assert (HI : forall R, (forall x, In x R <-> (exists t, In t all /\ x = reorder ord t) /\ pat_matches (view (Z.of_nat i) (s, p, o)) x = true) ->
    image (view (Z.of_nat i)) (matches (s, p, o)) (fun t => In t all) (fun x => In x R)) by (intros R HR; eapply image_selected; eauto).
  assert (Hvk : let '(a, b, c) := view (Z.of_nat i) (s, p, o) in vok a /\ vok b /\ vok c) by (destruct i as [|[|[|[|[|[|i]]]]]]; cbn; auto; lia).
  unfold leading in Hl. destruct (view (Z.of_nat i) (s, p, o)) as [[a b] c]. destruct Hl as [L1 L2]. destruct Hvk as (Va & Vb & Vc). unfold vok in *. unfold upd_itr.
  destruct (Z.leb_spec 0 a) as [H0|H0].
  - assert (HX : exists it R, diff_get (up_ix u) (up_mem u) (Z.of_nat i) a b c = Some it /\ Yields true R it /\ StronglySorted elt R /\ (forall x, In x R <-> selected all ord a b c x)).
    { change (up_mem u) with (fun j => dx_file (up_ix u) j ++ up_pad u j). destruct (Z.eq_dec c (-1)) as [-> |Hc].
      - apply (C43_lookup_partial all (up_ix u) (up_pad u) (Z.of_nat i) ord a b HW Eo); unfold int64; lia.
      - apply (C43_lookup_all_partial all (up_ix u) (up_pad u) (Z.of_nat i) ord a b c HW Eo); unfold int64; try lia. apply Hpad. }
    destruct HX as (it & R & E & Hy & HsR & HR). exists it, R. split; [exact E|]. split; auto. split; auto. split.
    + apply HI. intros x. rewrite HR. unfold selected, pat_matches, pair_matches. destruct x as [[x0 x1] x2]. cbn [field fst snd]. split; intros [Ha Hb]; (split; [exact Ha|lia]).
    + intros _. rewrite Forall_forall. intros x Hx. apply HR in Hx. destruct Hx as (_ & Hx & _). destruct x as [[x0 x1] x2]. exact Hx.
  - assert (a = -1) as -> by lia. assert (b = -1) as -> by lia. assert (c = -1) as -> by lia.
    destruct (C43_scan_partial all (up_ix u) (up_pad u) (Z.of_nat i) ord HW Eo) as (R & Hy & HsR & HR). eexists. exists R. split; [reflexivity|]. split; [exact Hy|]. split; auto. split; [|lia].
    apply HI. intros x. rewrite HR. split; [intros H; split; auto|tauto].
Qed.

Lemma upd_all i s p o h us : (i < 6)%nat -> vok s -> vok p -> vok o -> leading i (s, p, o) -> history_written h us ->
  let '(a, b, c) := view (Z.of_nat i) (s, p, o) in
  exists fs h', upd_itrs (Z.of_nat i) a b c us = Some fs /\ Forall2 (diff_ok a) h' fs /\ Forall2 (in_pattern i (s, p, o)) h h' /\
    (hist_size h' <= list_sum (map (fun u => length (snd u)) h))%nat.
Proof.
  intros Hi Hs Hp Ho Hl HW. pose proof (fun all u => upd_one i s p o all u Hi Hs Hp Ho Hl) as H1. unfold in_pattern. destruct (view (Z.of_nat i) (s, p, o)) as [[a b] c].
  induction HW as [|u x h us (E & Hw & Hpad) HW (fs & h' & Ef & HF & HI & Hsz)].
  - exists [], []. cbn. repeat split; constructor.
  - destruct (H1 (snd u) x Hw Hpad) as (it & R & Ei & Hy & HsR & HR & Hk). exists ((fst u, it) :: fs), ((fst u, R) :: h'). cbn [upd_itrs]. rewrite Ei, Ef, E. split; [reflexivity|].
    split; [constructor; auto|split; [constructor; auto|]].
    + split; [reflexivity|]. split; [|exact HsR]. split; [exact Hy|]. split; [now apply strict_sorted|exact Hk].
    + split; [reflexivity|exact HR].
    + unfold list_sum in *. cbn [hist_size fold_right map snd]. fold (hist_size h'). apply Nat.add_le_mono; [|exact Hsz].
      apply Nat.le_trans with (length (map (view (Z.of_nat i)) (snd u))); [|now rewrite map_length]. apply NoDup_incl_length; [now apply strict_NoDup|]. intros y Hy'. apply HR in Hy'. destruct Hy' as (t & Ht & _ & <-). now apply in_map.
Qed.

(** ** The answers *)
Lemma image_base i s p o U : (i < 6)%nat -> vok s -> vok p -> vok o ->
  image (view (Z.of_nat i)) (matches (s, p, o)) (fun t => In t U) (fun x => In x (filter (pat_matches (view (Z.of_nat i) (s, p, o))) (V U i))).
Proof. intros Hi Hs Hp Ho x. cbv beta. apply (proj2 (answers_filter U i s p o Hi Hs Hp Ho)). Qed.

Section Answers.
Variables (U : list triple) (st : nat -> list (Z * Z) -> bool) (L : nat -> list entry) (d : db) (fuel : nat).
Hypothesis HD : DbOk U st L d.
Hypothesis Hne : U <> [].
Variables (so : sorters) (h : list (bool * list triple)) (us : list UpdKbModel.upd).
Hypothesis Hso : sorters_ok so.
Hypothesis HW : history_written h us.
Hypothesis HV : valid_history (fun t => In t U) h.
Hypothesis Hfuel : (length U + length U + length U + list_sum (map (fun u => length (snd u)) h) + 1 < fuel)%nat.
Notation S := (replay (fun t => In t U) h).
Hypothesis Hroot : exists t, d_root d = RTree t.

Lemma in_tree k : covers d k.
Proof. destruct Hroot as [t E]. unfold covers. now rewrite E. Qed.
Lemma fuel1 : (length U < fuel)%nat.
Proof. lia. Qed.

Lemma over_present i s p o : (i < 6)%nat -> kb_present d i = true -> vok s -> vok p -> vok o -> leading i (s, p, o) ->
  counting st d i (fst (fst (view (Z.of_nat i) (s, p, o)))) \/ adding h ->
  exists r l, kb_over fuel so d us i s p o = Some (Some r) /\ (us <> [] -> exists it, r = HItr it) /\ Yields false l (h_itr fuel d i r) /\ answers_of S i (s, p, o) l.
Proof.
  intros Hi Hp Hs Hpp Ho Hlead HC. set (B := filter (pat_matches (view (Z.of_nat i) (s, p, o))) (V U i)).
  assert (HB : exists r, kb_base fuel d i s p o = Some (Some r) /\ Yields false B (h_itr fuel d i r) /\ (counting st d i (fst (fst (view (Z.of_nat i) (s, p, o)))) -> Yields true B (h_itr fuel d i r))).
  { destruct (base_yields U st L d fuel HD fuel1 i s p o Hi Hp Hne Hs Hpp Ho (in_tree _) (in_tree _) (in_tree _) Hlead) as (r & E & Hy). exists r. split; [exact E|]. split; [exact Hy|].
    intros Hc. destruct (base_counts U st L d fuel HD fuel1 i s p o Hi Hp Hne Hs Hpp Ho (in_tree _) (in_tree _) (in_tree _) Hlead Hc) as (r' & E' & Hy'). rewrite E in E'. injection E' as <-. exact Hy'. }
  destruct HB as (r & Eb & Hy & Hyt). unfold kb_over. rewrite Eb.
  assert (HsB : StronglySorted elt B) by (apply elt_tlt; apply answers_filter; auto).
  assert (HIB : image (view (Z.of_nat i)) (matches (s, p, o)) (fun t => In t U) (fun x => In x B)) by (apply image_base; auto).
  destruct us as [|u0 us'] eqn:Eus.
  - inversion HW; subst. exists r, B. split; [reflexivity|]. split; [congruence|]. split; [exact Hy|]. split; [apply elt_tlt; exact HsB|]. exact HIB.
  - rewrite <- Eus in *. rewrite (split_view U fuel fuel1) by auto. pose proof (upd_all i s p o h us Hi Hs Hpp Ho Hlead HW) as HU.
    assert (HkB : 0 <= fst (fst (view (Z.of_nat i) (s, p, o))) -> Forall (fun x : elem => fst (fst x) = fst (fst (view (Z.of_nat i) (s, p, o)))) B).
    { intros H0. rewrite Forall_forall. intros x Hx. unfold B in Hx. apply filter_In in Hx. destruct Hx as [_ Hx]. unfold pat_matches in Hx. destruct (view _ _) as [[a b] c]. cbn [fst snd] in *. lia. }
    destruct (view (Z.of_nat i) (s, p, o)) as [[a b] c]. cbn [fst snd] in *. destruct HU as (fs & h' & Ef & HF & HI & Hsz). rewrite Ef.
    assert (HinjV : forall x y, view (Z.of_nat i) x = view (Z.of_nat i) y -> x = y) by (intros x y; now apply view_inj).
    pose proof (replay_image _ _ HinjV h h' HI _ _ HIB) as HR. pose proof (valid_image _ _ HinjV h h' HI _ _ HIB HV) as HV'. apply valid_readable in HV'.
    assert (HlB : (@length elem B <= length U)%nat) by (etransitivity; [apply filter_length_le|apply V_length]).
    assert (HO : exists o R, overlay fuel so a fs (h_itr fuel d i r) = Some o /\ Yields false R o /\ StronglySorted elt R /\ (forall x, In x R <-> replay (fun y => In y B) h' x)).
    { destruct HC as [HC|HC].
      - destruct (overlay_ok fuel so a B h' fs (h_itr fuel d i r)) as (x & R & E & HyR & HsR & HmR); auto.
        + split; [apply Hyt; exact HC|]. split; [now apply strict_sorted|exact HkB].
        + clear - Hfuel Hsz HlB. lia.
        + exists x, R. split; auto. split; auto. now apply Yields_weaken with (cnt := true).
      - apply overlay_adds; auto. clear - HC HI. unfold adding in *. induction HI as [|u u' h h' [E _] HI IH]; [constructor|]. apply Forall_cons_iff in HC. destruct HC as [H1 HC]. constructor; [|auto]. destruct u, u'; cbn in *; congruence. }
    destruct HO as (x & R & E & HyR & HsR & HmR). rewrite E. exists (HItr x), R. split; [reflexivity|]. split; [eauto|]. split; [exact HyR|]. split; [apply elt_tlt; exact HsR|].
    intros y. rewrite HmR. apply HR.
Qed.

(** A permutation that is made from SPO. *)
Lemma over_absent i s p o : (i < 6)%nat -> kb_present d i = false -> d_present d 0 = true -> vok s -> vok p -> vok o -> 0 <= s \/ p = -1 ->
  us <> [] -> exists it l, kb_updated fuel so d us i s p o = Some it /\ Yields false l it /\ answers_of S i (s, p, o) l.
Proof.
  intros Hi Hn H0 Hs Hpp Ho Hsp Hus. set (o' := if p =? -1 then -1 else o).
  assert (Hp0 : kb_present d 0 = true) by (unfold kb_present; now rewrite H0).
  assert (Hr : reordered i).
  { unfold kb_present in Hn. apply Bool.orb_false_iff in Hn. destruct Hn as [H1 H2]. unfold reordered. destruct i as [|[|[|[|[|[|i]]]]]]; auto; try congruence; [|lia]. cbn in H2. congruence. }
  assert (Hvo : vok o') by (unfold o', vok in *; destruct (p =? -1); lia).
  assert (Hl0 : leading 0 (s, p, o')) by (unfold leading, o', vok in *; cbn; destruct (Z.eqb_spec p (-1)); lia).
  destruct (over_present 0 s p o' ltac:(lia) Hp0 Hs Hpp Hvo Hl0) as (r & l & Er & Hit & Hy & HsL & HmL); [left; left; lia|]. destruct (Hit Hus) as (it & ->). cbn [h_itr] in Hy.
  assert (Eo : kb_over fuel so d us 0 s p o = kb_over fuel so d us 0 s p o').
  { unfold o'. destruct (Z.eqb_spec p (-1)) as [-> |]; auto. unfold kb_over.
    assert (Eb : kb_base fuel d 0 s (-1) o = kb_base fuel d 0 s (-1) (-1)).
    { reflexivity. }
    rewrite Eb. destruct (kb_base fuel d 0 s (-1) (-1)) as [[h0|]|]; auto. destruct us as [|u0 us']; auto.
    change (getIterator_split (Z.of_nat 0) s (-1) o) with (Some (s, -1, o)). change (getIterator_split (Z.of_nat 0) s (-1) (-1)) with (Some (s, -1, -1)).
    assert (Eu : forall l, upd_itrs (Z.of_nat 0) s (-1) o l = upd_itrs (Z.of_nat 0) s (-1) (-1) l).
    { clear. induction l as [|u l IH]; auto. cbn [upd_itrs]. rewrite IH. reflexivity. }
    cbv beta iota. now rewrite Eu. }
  assert (Ei : Nat.eqb i 0 || Nat.eqb i 3 = false) by (destruct Hr as [-> |[-> |[-> | ->]]]; reflexivity).
  unfold kb_updated. unfold kb_over at 1. unfold kb_base at 1. rewrite Hn. cbn [negb]. rewrite Ei, Eo, Er. cbn beta iota.
  assert (HmL' : forall t, In t l <-> S t /\ matches (s, p, o') t).
  { intros t. rewrite HmL. split; [intros (t' & Ht & Hm & E); rewrite view0 in E; subst; auto|]. intros [Ht Hm]. exists t. split; auto. split; auto. apply view0. }
  assert (HNl : NoDup l) by (apply strict_NoDup, elt_tlt; exact HsL).
  assert (Hkeep : forall t, In t l /\ KbProofs6.keep p o t = true <-> In t l /\ matches (s, p, o) t).
  { intros [[a b] c]. split; intros [H1 H2]; split; auto; apply HmL' in H1; destruct H1 as [_ H1]; rewrite KbProofs7.matches_iff in *; unfold KbProofs6.keep in *; cbn [fst snd] in *; unfold vok in *; lia. }
  assert (Hrep : forall h0 (S0 : triple -> Prop) l0, (forall t, S0 t -> In t l0) -> forall t, replay S0 h0 t -> In t (l0 ++ concat (map snd h0))).
  { clear. induction h0 as [|[b x] h0 IH]; intros S0 l0 HS t Ht; cbn [map concat snd]; [rewrite app_nil_r; auto|]. change (replay (step_set S0 (b, x)) h0 t) in Ht. rewrite app_assoc.
    eapply IH; [|exact Ht]. intros y Hy. rewrite in_app_iff. unfold step_set in Hy. cbn [fst snd] in Hy. destruct b; [left; apply HS; tauto|]. destruct Hy as [Hy|Hy]; auto. }
  assert (Hlen : (length l < fuel)%nat).
  { assert (Hle : (length l <= length (U ++ concat (map snd h)))%nat).
    { apply NoDup_incl_length; auto. intros t Ht. apply HmL' in Ht. destruct Ht as [Ht _]. eapply Hrep; [|exact Ht]. auto. }
    assert (Hcc : length (concat (map snd h)) = list_sum (map (fun u => length (snd u)) h)).
    { clear. unfold list_sum. induction h as [|u h0 IH]; auto. cbn [map concat fold_right]. rewrite app_length. now rewrite IH. }
    rewrite app_length, Hcc in Hle. clear - Hle Hfuel. lia. }
  assert (Ef : ro_fill fuel d i p o (HItr it) = Some (map (entry_of i) (filter (KbProofs6.keep p o) l))).
  { apply (fill_itr d i p o Hr l it fuel false); auto. intros H1. rewrite Forall_forall. intros [[a b] c] Hx. apply HmL' in Hx. destruct Hx as [_ Hx]. rewrite KbProofs7.matches_iff in Hx. cbn [fst snd]. lia. }
  eexists. exists (arrays_list (ro_array (map (entry_of i) (filter (KbProofs6.keep p o) l)))). split; [reflexivity|]. split.
  - apply ro_yields; auto; [apply array_ne|]. unfold loads, ro_load. cbn [ro_arr ro_helper]. now rewrite Ef.
  - destruct (answers_arrays l i s p o l Hi Hs Hpp Ho HNl Hkeep) as [A1 A2]. split; [exact A1|]. intros x. rewrite A2. split.
    + intros (t & Ht & Hm & E). exists t. split; [now apply HmL'|auto].
    + intros (t & Ht & Hm & E). exists t. split; [|auto]. apply HmL'. split; auto. destruct t as [[a b] c]. rewrite KbProofs7.matches_iff in *. unfold o', vok in *. destruct (Z.eqb_spec p (-1)); lia.
Qed.
End Answers.
