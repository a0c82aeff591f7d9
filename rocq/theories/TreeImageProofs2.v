(** Proofs about a tree on disk. *)
From Coq Require Import Sorting.Sorted ZifyBool.
From Verif Require Export TreeImageProofs.
From Verif Require Import TableProofs TreeProofs2 TreeProofs3 TreeProofs4.
Local Open Scope Z_scope.

Lemma made_KN n ks : made n ks -> KN n ks /\ incr ks.
Proof.
  induction 1 as [|n ks k p _ (IH & IHs) Hp Hi|n ks mn _ (IH & IHs) Hm Hl|n ks mn _ (IH & IHs) Hm Hl|n ks x _ (IH & IHs)|n ks x _ (IH & IHs)].
  - split; [apply KN_new|constructor].
  - split; auto. now apply (put_ok n ks k p).
  - split; [now apply split_ok|]. rewrite <- (firstn_skipn mn ks) in IHs. now apply incr_app in IHs.
  - split; [now apply split_ok|]. rewrite <- (firstn_skipn mn ks) in IHs. now apply incr_app in IHs.
  - split; [now apply removeLast_ok with x|]. now apply incr_app in IHs.
  - split; [now apply removeFirst_ok with x|]. now apply incr_cons in IHs.
Qed.

Lemma imageStep_big n ks : KN n ks -> incr ks -> (1 < length ks)%nat -> 128 <= kn_imageStep n ->
  exists d, 128 <= d < 256 /\ constant_step d ks.
Proof.
  intros HK Hs Hl Hb. destruct (imageStep_ok n ks HK Hs Hl) as [(E & _)|(E & Hks)]; [lia|].
  exists (kn_imageStep n). split; [lia|]. now exists (kn_first n).
Qed.

Section D.
Variable V : Type.
Variable m0 : nat.
Notation mx := (m0 + m0)%nat.
Variable image : kn -> list V -> option (list Z).
Variable load : kn -> mem -> Z -> option (kn * list V).
Variable okv : V -> Prop.
Hypothesis Hload : forall n ks vs b m old, KN n ks -> incr ks -> (forall x, In x ks -> 0 <= x < 2 ^ 63) -> zlen ks < 2 ^ 31 ->
  1 <= kn_step old -> ((1 < length ks)%nat -> kn_imageStep n < 128) -> length vs = length ks ->
  (forall v, In v vs -> okv v) -> image n vs = Some b -> contains m 0 b ->
  exists n', load old m 0 = Some (n', vs) /\ Read n' ks.
Hypothesis Hmx : Z.of_nat mx < 2 ^ 31.

Lemma in_W_cont ks ls e : length ls = S (length ks) -> In e (concat ls) -> In (2 * fst e) (W V ks ls).
Proof.
  intros Hl He. destruct ls as [|l ls]; [destruct He|]. cbn [concat W] in *. apply in_or_app. apply in_app_or in He as [He|He].
  - left. unfold dbl. apply in_map_iff. eauto.
  - right. apply in_wpost_cont; [cbn in Hl; lia|auto].
Qed.

Lemma seps_ranged ks ls : length ls = S (length ks) -> Forall (fun l => l <> []) ls -> incr (W V ks ls) -> ranged V (concat ls) ->
  forall k, In k ks -> 0 <= k < 2 ^ 63.
Proof.
  intros Hl Hn Hi Hr k Hk. apply in_split in Hk as (ks1 & ks2 & ->). rewrite app_length in Hl. cbn [length] in Hl.
  set (ls1 := firstn (S (length ks1)) ls). set (ls2 := skipn (S (length ks1)) ls).
  assert (E : ls = ls1 ++ ls2) by (symmetry; apply firstn_skipn).
  assert (L1 : length ls1 = S (length ks1)) by (unfold ls1; rewrite firstn_length; lia).
  assert (L2 : length ls2 = S (length ks2)) by (unfold ls2; rewrite skipn_length; lia).
  clearbody ls1 ls2. subst ls. apply Forall_app in Hn as (Hn1 & Hn2).
  rewrite W_cut in Hi by (auto; now destruct ls2). apply incr_app in Hi as (_ & Hi & Hlt).
  apply incr_cons in Hi as (_ & Hgt). rewrite concat_app in Hr.
  destruct ls1 as [|[|a l1] ls1]; [discriminate|inversion Hn1; congruence|].
  destruct ls2 as [|[|b l2] ls2]; [discriminate|inversion Hn2; congruence|].
  assert (Ha : 2 * fst a < 2 * k + 1).
  { apply Hlt; [|now left]. apply in_W_cont; [exact L1|]. now left. }
  assert (Hb : 2 * k + 1 < 2 * fst b). { apply Hgt. apply in_W_cont; [exact L2|]. now left. }
  pose proof (Hr a ltac:(now left)). pose proof (Hr b ltac:(apply in_or_app; right; now left)). lia.
Qed.

Lemma KN_Read_pos n ks n' k : KN n ks -> incr ks -> Read n' ks -> kn_pos n' k = kn_pos n k.
Proof. intros HK Hs (_ & _ & Hp). rewrite Hp. symmetry. now apply pos_ok. Qed.

Lemma ids_at : forall (ids : list Z) m p i c, contains m p (flat_map (enc 8) ids) -> nth_error ids i = Some c -> 0 <= c < 2 ^ 63 ->
  rdn 8 m (p + 8 * Z.of_nat i) = Some c.
Proof.
  induction ids as [|x ids IH]; intros m p i c H Hi Hc; [now destruct i|].
  change (flat_map (enc 8) (x :: ids)) with (enc 8 x ++ flat_map (enc 8) ids) in H. apply contains_app in H as (C1 & C2). rewrite enc_length in C2. destruct i as [|i]; cbn [nth_error] in Hi.
  - injection Hi as ->. replace (p + 8 * Z.of_nat 0) with p by lia. apply rdn_enc; auto. change (2 ^ (8 * Z.of_nat 8)) with (2 ^ 64). lia.
  - replace (p + 8 * Z.of_nat (S i)) with (p + Z.of_nat 8 + 8 * Z.of_nat i) by lia. now apply IH.
Qed.

Fixpoint okvals (t : tree V) : Prop :=
  match t with
  | Leaf _ vs => forall v, In v vs -> okv v
  | Inter _ cs => (fix go (cs : list (tree V)) : Prop := match cs with [] => True | c :: cs => okvals c /\ go cs end) cs
  end.

Lemma okvals_of : forall t l, Shape V m0 t l -> (forall e, In e l -> okv (snd e)) -> okvals t.
Proof.
  induction t as [n vs|n cs IH] using tree_ind'; intros l HS Ho; inversion HS as [n' l' HK Hi Hl|n' cs' ks ls HK Hlk Hls HF HN Hi]; subst.
  - intros v Hv. apply in_map_iff in Hv as (e & <- & He). auto.
  - cbn [okvals]. clear - IH HF Ho. revert ls HF Ho. induction cs as [|c cs IHc]; intros ls HF Ho; [exact I|].
    inversion HF as [|? l ? ls' H1 H2]; subst. inversion IH; subst. split.
    + apply (H3 l H1). intros e He. apply Ho. cbn. apply in_or_app. now left.
    + apply (IHc H4 ls' H2). intros e He. apply Ho. cbn. apply in_or_app. now right.
Qed.

Theorem disk_ok d olds : (forall i, 1 <= kn_step (olds i)) -> forall t l id, Shape V m0 t l -> ranged V l -> okvals t ->
  stored image d t id -> small_steps t -> exists f0, forall fuel k, (f0 <= fuel)%nat ->
  disk_get load d olds fuel id k = get t k.
Proof.
  intros Hold. induction t as [n vs|n cs IH] using tree_ind'; intros l id HS Hr Ho Hst Hsm;
    inversion HS as [n' l' HK Hi Hl|n' cs' ks ls HK Hlk Hls HF HN Hi]; subst.
  - exists 1%nat. intros [|fuel] k Hf; [lia|]. cbn [disk_get get].
    destruct Hst as (b & m & Eb & Ed & Hc). rewrite Ed.
    destruct (Hload n (map fst l) (map snd l) b m (olds id)) as (n' & -> & HR); auto.
    + now apply incr_dbl.
    + intros x Hx. apply in_map_iff in Hx as (e & <- & He). specialize (Hr e He). lia.
    + rewrite map_length. lia.
    + intros H. apply Hsm. destruct HK as (-> & _). exact H.
    + now rewrite !map_length.
    + unfold leaf_get. rewrite (KN_Read_pos n (map fst l) n' k); auto. now apply incr_dbl.
  - destruct Hst as (ids & m & Ed & Hc & Hgo). destruct Hsm as (Hsm & Hgs).
    pose proof (incr_W_seps V ks ls Hls Hi) as Hks.
    apply contains_app in Hc as (C1 & C2).
    destruct (load_ok n ks kn_new m 0 HK Hks) as (n' & El & HR); auto.
    { eapply seps_ranged; eauto. } { lia. } { cbn; lia. } { intros H. apply Hsm. destruct HK as (-> & _). exact H. }
    assert (Hall : exists f0, forall fuel k i c cid, (f0 <= fuel)%nat -> nth_error cs i = Some c -> nth_error ids i = Some cid ->
      disk_get load d olds fuel cid k = get c k /\ 0 <= cid < 2 ^ 63).
    { clear - IH HF Hr Ho Hgo Hgs. revert ls ids HF Hr Hgo. induction cs as [|c cs IHc]; intros ls ids HF Hr Hgo.
      - exists 0%nat. intros fuel k [|i] c cid _ E; discriminate.
      - destruct ids as [|i0 ids]; [contradiction|]. destruct Hgo as (Hid & Hst & Hgo). destruct Hgs as (Hs1 & Hgs). destruct Ho as (Ho1 & Ho).
        inversion HF as [|? l ? ls' H1 H2]; subst. inversion IH as [|? ? IH1 IH2]; subst.
        assert (Hr1 : ranged V l) by (intros e He; apply Hr; cbn; apply in_or_app; now left).
        assert (Hr2 : ranged V (concat ls')) by (intros e He; apply Hr; cbn; apply in_or_app; now right).
        destruct (IH1 l i0 H1 Hr1 Ho1 Hst Hs1) as (f1 & F1). destruct (IHc IH2 Ho Hgs ls' ids H2 Hr2 Hgo) as (f2 & F2).
        exists (Nat.max f1 f2). intros fuel k [|i] c' cid Hf E1 E2; cbn [nth_error] in *.
        + injection E1 as <-. injection E2 as <-. split; auto. apply F1. lia.
        + apply (F2 fuel k i); auto. lia. }
    destruct Hall as (f0 & F). exists (S f0). intros [|fuel] k Hf; [lia|]. cbn [disk_get get]. rewrite Ed, El.
    assert (Ec : kn_child n' k = kn_child n k) by (unfold kn_child; rewrite (KN_Read_pos n ks n' k); auto). rewrite Ec.
    assert (Lids : length ids = length cs).
    { clear - Hgo. revert ids Hgo. induction cs as [|c cs IHc]; intros [|i ids] H; try contradiction; cbn; auto. f_equal. now apply IHc. }
    assert (Lcs : length cs = length ls) by (apply (Forall2_len _ _ _ HF)).
    assert (Hp : (kn_child n k <= length ks)%nat) by (rewrite (child_ok n ks k HK Hks); apply below_le).
    destruct (nth_error ids (kn_child n k)) as [cid|] eqn:Ei; [|apply nth_error_None in Ei; lia].
    destruct (nth_error cs (kn_child n k)) as [c|] eqn:Ecs; [|apply nth_error_None in Ecs; lia].
    rewrite at_child_ok, Ecs. destruct (F fuel k _ _ _ ltac:(lia) Ecs Ei) as (F1 & F2).
    rewrite (ids_at ids m _ _ cid C2 Ei F2). exact F1.
Qed.
End D.

(** ** The two kinds of leaves *)
Lemma load_num n ks vs b m old : KN n ks -> incr ks -> (forall x, In x ks -> 0 <= x < 2 ^ 63) -> zlen ks < 2 ^ 31 ->
  1 <= kn_step old -> ((1 < length ks)%nat -> kn_imageStep n < 128) -> length vs = length ks ->
  (forall v, In v vs -> 0 <= v < 2 ^ 63) -> Some (leaf_image_num n vs) = Some b -> contains m 0 b ->
  exists n', leaf_load_num old m 0 = Some (n', vs) /\ Read n' ks.
Proof.
  intros HK Hs Hr Hl Ho Hst Hv Hok Eb Hc. match type of Eb with Some ?x = Some b => assert (Eb2 : b = x) by congruence end. subst b. clear Eb. unfold leaf_image_num, serialize_numberlist in Hc. apply contains_app in Hc as (C1 & C2).
  destruct (load_ok n ks old m 0 HK Hs Hr Hl Ho Hst C1) as (n' & El & HR). exists n'. split; auto.
  unfold leaf_load_num. rewrite El. pose proof HR as (Es & _). rewrite Es, <- Hv. unfold unserialize_numberlist.
  now rewrite (loadKeys_ok m vs _ C2 Hok).
Qed.

Lemma load_tc n ks vs b m old : KN n ks -> incr ks -> (forall x, In x ks -> 0 <= x < 2 ^ 63) -> zlen ks < 2 ^ 31 ->
  1 <= kn_step old -> ((1 < length ks)%nat -> kn_imageStep n < 128) -> length vs = length ks ->
  (forall v, In v vs -> (exists u, v = list_of u) /\ forall e, In e v -> co_ok (snd e)) -> leaf_image_tc n vs = Some b -> contains m 0 b ->
  exists n', leaf_load_tc old m 0 = Some (n', vs) /\ Read n' ks.
Proof.
  intros HK Hs Hr Hl Ho Hst Hv Hok Eb Hc. unfold leaf_image_tc in Eb. destruct (serialize_values vs) as [bv|] eqn:Ev; [|discriminate].
  match type of Eb with Some ?x = Some b => assert (Eb2 : b = x) by congruence end. subst b. clear Eb. apply contains_app in Hc as (C1 & C2).
  destruct (load_ok n ks old m 0 HK Hs Hr Hl Ho Hst C1) as (n' & El & HR). exists n'. split; auto.
  unfold leaf_load_tc. rewrite El. pose proof HR as (Es & _). rewrite Es, <- Hv.
  match goal with |- (do vs0 <- ?f (seq 0 (length vs)); _) = _ =>
    assert (Hgo : forall k i, (i + k = length vs)%nat -> f (seq i k) = Some (skipn i vs)) end.
  { induction k as [|k IH]; intros i Hi; cbn [seq].
    - now rewrite skipn_all2 by lia.
    - destruct (nth_error vs i) as [v|] eqn:E; [|apply nth_error_None in E; lia].
      rewrite (parseInternalLine_ok vs bv m _ i v Ev C2 Hok E). rewrite IH by lia.
      destruct (nth_error_split _ _ E) as (v1 & v2 & -> & L). f_equal.
      rewrite !skipn_app. repeat rewrite (skipn_all2 v1) by lia. replace (S i - length v1)%nat with 1%nat by lia.
      replace (i - length v1)%nat with 0%nat by lia. reflexivity. }
  rewrite (Hgo (length vs) 0%nat) by lia. reflexivity.
Qed.
