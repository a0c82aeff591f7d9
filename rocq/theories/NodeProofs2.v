(** Proofs for the node store: closing, compressing and reading again. *)
From Coq Require Import ZifyBool.
From Verif Require Import TableProofs FileModel FileSpec FileProofs NodeSpec NodeProofs.
Local Open Scope Z_scope.

Lemma idx_parts cs junk idx : idx_file cs junk = Some idx -> NoDup (map c_id (concat cs)) ->
  exists coords, idx = enc 4 (zlen (concat cs)) ++ coords ++ flat_map fbytes (flagged cs) /\ zlen coords = 4 * zlen (concat cs) /\
    forall id, In id (map c_id (concat cs)) <-> 0 <= id < zlen (concat cs).
Proof.
  intros E HN. unfold idx_file in E. rewrite idx_chains_flat in E.
  destruct (idx_flat (flagged cs) _ _) as [[coords body]|] eqn:Ei; [|discriminate]. injection E as <-.
  assert (HN' : NoDup (map (fun x => c_id (snd x)) (flagged cs))) by (rewrite <- map_map, map_snd_flagged; exact HN).
  destruct (idx_flat_ok _ _ _ _ _ HN' Ei) as (-> & Hz & _ & Hs). exists coords. split; auto.
  assert (Hcl : zlen coords <= 4 * zlen (concat cs)) by (rewrite Hz; unfold zlen; rewrite firstn_length; lia).
  assert (Hin : incl (map c_id (concat cs)) (map Z.of_nat (seq 0 (Z.to_nat (zlen coords / 4))))).
  { intros z Hz'. rewrite <- map_snd_flagged, map_map in Hz'. apply in_map_iff in Hz' as (y & <- & Hy). apply In_nth_error in Hy as (j & Hj).
    pose proof (contains_bound _ _ _ (Hs j y Hj)) as [Hd1 Hd2]. rewrite zlen_enc in Hd2.
    apply in_map_iff. exists (Z.to_nat (c_id (snd y))). split; [lia|]. apply in_seq.
    pose proof (Z.div_le_lower_bound (zlen coords) 4 (c_id (snd y) + 1) ltac:(lia) ltac:(lia)). lia. }
  assert (Hcl' : zlen coords = 4 * zlen (concat cs)).
  { pose proof (NoDup_incl_length HN Hin) as Hl. rewrite !map_length, seq_length in Hl.
    pose proof (Z.div_mod (zlen coords) 4 ltac:(lia)). pose proof (Z.mod_pos_bound (zlen coords) 4 ltac:(lia)). unfold zlen in *. lia. }
  split; auto. rewrite Hcl' in Hin. replace (4 * zlen (concat cs) / 4) with (zlen (concat cs)) in Hin by (rewrite Z.mul_comm, Z.div_mul; lia).
  intros id. split.
  - intros H. apply Hin in H. apply in_map_iff in H as (i & <- & H). apply in_seq in H. lia.
  - intros H. assert (Hin' : incl (map Z.of_nat (seq 0 (Z.to_nat (zlen (concat cs))))) (map c_id (concat cs))).
    { apply NoDup_length_incl; auto. rewrite !map_length, seq_length. unfold zlen. lia. }
    apply Hin'. apply in_map_iff. exists (Z.to_nat id). split; [lia|]. apply in_seq. lia.
Qed.

Lemma nd_get_outside cs junk idx files id : idx_file cs junk = Some idx -> NoDup (map c_id (concat cs)) -> zlen (concat cs) < 2 ^ 31 ->
  ~ In id (map c_id (concat cs)) -> nd_get (mkNd idx files) id = None.
Proof.
  intros E HN Hn Hid. destruct (idx_parts _ _ _ E HN) as (coords & -> & Hc & Hids). unfold nd_get. cbn [d_idx d_files].
  pose proof (zlen_nonneg (concat cs)) as Hz.
  rewrite (rdn_enc 4 _ 0 (zlen (concat cs))).
  - rewrite int32_id by lia. rewrite Hids in Hid. destruct ((0 <=? id) && (id <? zlen (concat cs))) eqn:Eb; [lia|reflexivity].
  - exists [], (coords ++ flat_map fbytes (flagged cs)). auto.
  - change (2 ^ (8 * Z.of_nat 4)) with 4294967296. lia.
Qed.

(** A store whose files are tiled by blocks, after closing. *)
Definition img (x : blk) : list Z := firstn (Z.to_nat (c_size (fst x))) (snd x).
Lemma zlen_img file p bs x : placed file p bs -> 0 <= p -> In x bs -> zlen (img x) = c_size (fst x).
Proof.
  intros Hp Hp0 Hi. destruct x as [c b]. destruct (placed_pos _ _ _ Hp Hp0 c b Hi) as (_ & _ & Hok & _). destruct Hok as (Ha & Hs & _).
  unfold img, zlen. cbn [fst snd]. rewrite firstn_length. unfold zlen in Ha. lia.
Qed.

Lemma bytes_at_mid (a x b : list Z) n : n = zlen x -> bytes_at (a ++ x ++ b) (zlen a) n = Some x.
Proof.
  intros ->. unfold bytes_at. rewrite !zlen_app. pose proof (zlen_nonneg a). pose proof (zlen_nonneg b).
  destruct ((0 <=? zlen a) && (zlen a + zlen x <=? zlen a + (zlen x + zlen b))) eqn:E; [|lia]. f_equal.
  unfold zlen. rewrite !Nat2Z.id, skipn_app, skipn_all, Nat.sub_diag. cbn. rewrite firstn_app, firstn_all, Nat.sub_diag. cbn. apply app_nil_r.
Qed.
Lemma bytes_at_block pre c b post : c_pos c = zlen (bytes pre) -> node_ok c b ->
  bytes_at (bytes (pre ++ (c, b) :: post)) (c_pos c) (c_size c) = Some (img (c, b)).
Proof.
  intros Hp (Ha & Hs & _ & _). rewrite bytes_app. change (bytes ((c, b) :: post)) with (b ++ bytes post).
  rewrite <- (firstn_skipn (Z.to_nat (c_size c)) b) at 1. rewrite <- app_assoc, Hp. apply bytes_at_mid.
  unfold img, zlen in *. cbn [fst snd]. rewrite firstn_length. lia.
Qed.

Lemma end_look init s B junk d : Inv init s B -> 30 * zlen (concat B) + 5 < 2 ^ 31 -> nm_end s junk = Some d ->
  (forall id, nd_get d id = look B id) /\ (forall i bs, nth_error B i = Some bs -> d_files d i = Some (bytes bs)) /\
  idx_file (map (map fst) B) junk = Some (d_idx d).
Proof.
  intros HI Hn E. unfold nm_end in E. rewrite (iv_chains _ _ _ HI) in E. destruct (idx_file _ junk) as [idx|] eqn:Ei; [|discriminate]. injection E as <-.
  pose proof (iv_ids _ _ _ HI) as HN. assert (HN' := HN). rewrite (iv_chains _ _ _ HI), ids_entry in HN'. rewrite (iv_chains _ _ _ HI) in HN.
  assert (Hlen : zlen (concat (map (map fst) B)) = zlen (concat B)) by (rewrite concat_map_fst; unfold zlen; now rewrite map_length).
  assert (Hfiles : forall i bs, nth_error B i = Some bs ->
    match n_fds s i with Some f => if f_size f =? 0 then None else Some (fd_content f) | None => None end = Some (bytes bs)).
  { intros i bs Hi. destruct (iv_files _ _ _ HI i bs Hi) as (Hbn & Hp & f & Ef & Hfo & Hfc). rewrite Ef.
    pose proof (content_size f Hfo) as Hcs. rewrite Hfc in *. destruct (Z.eqb_spec (f_size f) 0) as [E0|]; auto.
    exfalso. destruct bs as [|[c b] bs]; [congruence|]. cbn [placed] in Hp. destruct Hp as (_ & _ & (Ha & Hb & _) & _).
    unfold bytes in Hcs. cbn [map concat snd] in Hcs. rewrite zlen_app in Hcs. pose proof (zlen_nonneg (concat (map snd bs))). lia. }
  split; [|split; auto].
  intros id. destruct (in_dec Z.eq_dec id (map c_id (concat (map (map fst) B)))) as [Hi|Hi].
  - rewrite concat_map_fst in Hi. apply in_map_iff in Hi as (c & <- & Hi). apply in_map_iff in Hi as ([c' b] & Ec & Hi). cbn in Ec. subst c'.
    assert (Hin := Hi). apply in_concat_split in Hi as (B1 & pre & post & B2 & EB).
    assert (Hlk : look B (c_id c) = Some (snd (entry (c, b)))). { rewrite EB in HN' |- *. rewrite look_split by auto. cbn [fst]. now rewrite Z.eqb_refl. }
    rewrite Hlk. destruct (idx_parts _ _ _ Ei HN) as (_ & _ & _ & Hids).
    assert (Hcin : In c (concat (map (map fst) B))) by (rewrite concat_map_fst; apply in_map_iff; exists (c, b); auto).
    assert (Hidr : 0 <= c_id c < zlen (concat B)) by (rewrite <- Hlen; apply Hids; now apply in_map).
    assert (Hnth : nth_error B (length B1) = Some (pre ++ (c, b) :: post)) by (now rewrite EB, nth_error_app2, Nat.sub_diag by lia).
    destruct (iv_files _ _ _ HI _ _ Hnth) as (_ & Hp & _).
    rewrite placed_app in Hp. cbn [placed] in Hp. destruct Hp as (_ & Hfile & Hpos & Hno & _). assert (Hno' := Hno). destruct Hno' as (Ha & Hs & Ha2 & Hp2).
    change (nd_get {| d_idx := idx; d_files := fun i => match n_fds s i with Some f => if f_size f =? 0 then None else Some (fd_content f) | None => None end |} (c_id c) = Some (c_children c, img (c, b))).
    apply nd_get_ok with (c := c) (cs := map (map fst) B) (junk := junk) (f := bytes (pre ++ (c, b) :: post)); auto.
    + rewrite Hlen. exact Hn.
    + unfold cn_ok. split; [lia|]. split; [|lia]. rewrite Hfile. pose proof (iv_last _ _ _ HI) as Hl. pose proof (iv_max _ _ _ HI) as Hm.
      assert (length B1 < length B)%nat by (apply nth_error_Some; congruence). destruct B; cbn [length] in *; lia.
    + rewrite Hfile. apply Hfiles. exact Hnth.
    + apply bytes_at_block; auto.
  - rewrite (nd_get_outside _ _ _ _ _ Ei HN); auto; [|rewrite Hlen; lia]. unfold look. rewrite assoc_none; auto. now rewrite <- ids_entry.
Qed.

Lemma end_some init s B junk : Inv init s B -> 4 * zlen (concat B) <= zlen junk ->
  (forall c, In c (concat (n_chains s)) -> 0 <= c_id c < zlen (concat B)) -> exists d, nm_end s junk = Some d.
Proof.
  intros HI Hj Hids. unfold nm_end, idx_file. rewrite idx_chains_flat.
  assert (Hlen : length (concat (n_chains s)) = length (concat B)) by (rewrite (iv_chains _ _ _ HI), concat_map_fst; now rewrite map_length).
  assert (G : forall l coords p, (forall x, In x l -> 0 <= c_id (snd x) /\ c_id (snd x) * 4 + 4 <= zlen coords) -> exists r, idx_flat l coords p = Some r).
  { induction l as [|x l IH]; intros coords p H; cbn [idx_flat]; [eauto|]. destruct (H x (or_introl eq_refl)) as [H1 H2].
    destruct (wr coords (c_id (snd x) * 4) (enc 4 (p + 1))) as [c1|] eqn:Ew.
    - destruct (IH c1 (p + 26)) as [[c2 r] E]; [intros y Hy; rewrite (wr_zlen _ _ _ _ Ew); apply H; now right|]. rewrite E. eauto.
    - exfalso. unfold wr in Ew. rewrite zlen_enc in Ew. destruct ((0 <=? c_id (snd x) * 4) && (c_id (snd x) * 4 + Z.of_nat 4 <=? zlen coords)) eqn:E; [discriminate|lia]. }
  destruct (G (flagged (n_chains s)) (firstn (4 * length (concat (n_chains s))) junk) (4 + 4 * zlen (concat (n_chains s)))) as [[c b] E].
  - intros x Hx. assert (Hi : In (snd x) (concat (n_chains s))) by (rewrite <- map_snd_flagged; now apply in_map).
    pose proof (Hids _ Hi) as Hr. unfold zlen at 1. rewrite firstn_length, Hlen. unfold zlen in *. lia.
  - rewrite E. eauto.
Qed.

(** ** compressSpace *)
Fixpoint regroup (l : list (bool * cnode)) (acc : list (list cnode)) : list (list cnode) :=
  match l with
  | [] => acc
  | (true, c) :: t => regroup t (acc ++ [[c]])
  | (false, c) :: t => regroup t (removelast acc ++ [last acc [] ++ [c]])
  end.
Lemma regroup_false l : forall A g, regroup (map (fun c => (false, c)) l) (A ++ [g]) = A ++ [g ++ l].
Proof.
  induction l as [|c l IH]; intros A g; cbn [map regroup].
  - now rewrite app_nil_r.
  - rewrite removelast_last, last_last, IH, <- app_assoc. reflexivity.
Qed.
Lemma regroup_app a : forall b acc, regroup (a ++ b) acc = regroup b (regroup a acc).
Proof. induction a as [|[[|] c] a IH]; intros b acc; cbn [app regroup]; auto. Qed.
Lemma regroup_flagged cs : forall acc, (forall l, In l cs -> l <> []) -> regroup (flagged cs) acc = acc ++ cs.
Proof.
  induction cs as [|l cs IH]; intros acc H; cbn [flagged flat_map].
  - now rewrite app_nil_r.
  - rewrite regroup_app. destruct l as [|c l]; [exfalso; apply (H []); auto; now left|]. cbn [flag_chain regroup].
    rewrite regroup_false. fold (flagged cs). rewrite IH by (intros l' Hl; apply H; now right). rewrite <- app_assoc. reflexivity.
Qed.
Lemma nd_groups_ok l : forall u acc fuel, (length l <= fuel)%nat -> (forall x, In x l -> cn_ok (snd x)) ->
  match l with (false, _) :: _ => acc <> [] | _ => True end ->
  nd_groups fuel (u ++ flat_map fbytes l) (zlen u) acc = Some (regroup l acc).
Proof.
  induction l as [|[fl c] l IH]; intros u acc fuel Hf Hok Hacc.
  - cbn [flat_map regroup]. rewrite app_nil_r. destruct fuel; cbn [nd_groups]; destruct (Z.ltb_spec (zlen u) (zlen u)); auto; lia.
  - destruct fuel as [|fuel]; [cbn in Hf; lia|]. cbn [nd_groups]. rewrite zlen_app. cbn [flat_map]. rewrite zlen_app, zlen_fbytes.
    pose proof (zlen_nonneg (flat_map fbytes l)) as Hz. destruct (Z.ltb_spec (zlen u) (zlen u + (26 + zlen (flat_map fbytes l)))); [|lia].
    unfold fbytes at 1 3. cbn [fst snd].
    rewrite (getb_contains _ _ (if fl then 1 else 0) (cn_bytes c)).
    2:{ exists u, (flat_map fbytes l). split; reflexivity. }
    rewrite (cn_parse_ok _ _ c).
    2:{ exists (u ++ [if fl then 1 else 0]), (flat_map fbytes l). split; [now rewrite <- !app_assoc|].
        change (zlen u + 1 = zlen (u ++ [if fl then 1 else 0])). rewrite zlen_app. reflexivity. }
    2:{ apply (Hok (fl, c)). now left. }
    specialize (IH (u ++ fbytes (fl, c))). rewrite zlen_app, zlen_fbytes in IH. rewrite <- !app_assoc in IH.
    assert (Hok' : forall x, In x l -> cn_ok (snd x)) by (intros x Hx; apply Hok; now right). cbn in Hf.
    destruct fl; cbn [Z.eqb negb regroup].
    + change (1 =? 0) with false. cbn [negb]. apply IH; auto; [lia|]. destruct l as [|[[|] c'] l]; auto. destruct acc; discriminate.
    + change (0 =? 0) with true. cbn [negb]. destruct acc as [|a0 acc]; [congruence|]. apply IH; auto; [lia|].
      destruct l as [|[[|] c'] l]; auto. intros E. symmetry in E. now apply app_cons_not_nil in E.
Qed.

Fixpoint packed (p : Z) (bs : list blk) : list cnode :=
  match bs with
  | [] => []
  | (c, b) :: t => mkCn (c_id c) (c_size c) (c_size c) p (c_file c) (c_children c) :: packed (p + c_size c) t
  end.
Definition imgs (bs : list blk) : list Z := flat_map img bs.

Lemma nd_pack_ok bufsz bs : forall pre out r file, placed file (zlen (bytes pre)) bs -> zlen out <= zlen (bytes pre) ->
  nd_pack bufsz (bytes (pre ++ bs)) (map fst bs) out = Some r -> r = (packed (zlen out) bs, out ++ imgs bs).
Proof.
  induction bs as [|[c b] bs IH]; intros pre out r file Hp Ho E; cbn [map fst nd_pack packed imgs flat_map] in *.
  - injection E as <-. now rewrite app_nil_r.
  - destruct Hp as (H1 & H2 & H3 & H4). destruct (bufsz <? c_size c); [discriminate|].
    rewrite bytes_at_block in E by auto. assert (H3' := H3). destruct H3' as (Ha & Hs & Ha2 & Hp2).
    assert (Hi : zlen (img (c, b)) = c_size c). { unfold img, zlen. cbn [fst snd]. rewrite firstn_length. unfold zlen in Ha. lia. }
    assert (Hpre : zlen (bytes (pre ++ [(c, b)])) = zlen (bytes pre) + zlen b).
    { rewrite bytes_app, zlen_app. unfold bytes at 2. cbn. now rewrite app_nil_r. }
    destruct (nd_pack bufsz _ (map fst bs) (out ++ img (c, b))) as [[r1 o1]|] eqn:Er; [|discriminate]. injection E as <-.
    assert (Er' : nd_pack bufsz (bytes ((pre ++ [(c, b)]) ++ bs)) (map fst bs) (out ++ img (c, b)) = Some (r1, o1)) by (rewrite <- app_assoc; exact Er).
    clear Er. rename Er' into Er. apply (IH (pre ++ [(c, b)]) _ _ file) in Er.
    + injection Er as -> ->. rewrite zlen_app, Hi, int32_id by (pose proof (zlen_nonneg out); lia). now rewrite <- app_assoc.
    + rewrite Hpre. exact H4.
    + rewrite Hpre, zlen_app, Hi. lia.
Qed.

Lemma nd_rewrite_ok bufsz B : forall i files r, (forall k bs, nth_error B k = Some bs -> files (i + k)%nat = Some (bytes bs) /\ placed (i + k) 0 bs) ->
  nd_rewrite bufsz files i (map (map fst) B) = Some r ->
  fst r = map (packed 0) B /\ (forall k bs, nth_error B k = Some bs -> snd r (i + k)%nat = Some (imgs bs)) /\
  forall j, (j < i)%nat -> snd r j = files j.
Proof.
  induction B as [|bs B IH]; intros i files r Hf E; cbn [map nd_rewrite] in E.
  - injection E as <-. cbn. split; auto. split; auto. intros k bs H. destruct k; discriminate.
  - destruct (Hf O bs eq_refl) as [F1 F2]. rewrite Nat.add_0_r in F1, F2. rewrite F1 in E.
    destruct (nd_pack bufsz (bytes bs) (map fst bs) []) as [[g1 out]|] eqn:Ep; [|discriminate].
    apply (nd_pack_ok bufsz bs [] [] _ i) in Ep; auto; [|reflexivity]. injection Ep as -> ->. cbn [app] in E. change (zlen (@nil Z)) with 0 in E.
    destruct (nd_rewrite bufsz _ (S i) (map (map fst) B)) as [[r1 f1]|] eqn:Er; [|discriminate]. injection E as <-.
    apply IH in Er.
    + cbn [fst snd] in *. destruct Er as (-> & Er1 & Er2). split; auto. split.
      * intros [|k] bs' Hk; cbn in Hk.
        -- injection Hk as <-. rewrite Nat.add_0_r, Er2 by lia. apply upd_same.
        -- replace (i + S k)%nat with (S i + k)%nat by lia. auto.
      * intros j Hj. rewrite Er2 by lia. apply upd_other. lia.
    + intros k bs' Hk. destruct (Hf (S k) bs' Hk) as [G1 G2]. rewrite upd_other by lia.
      replace (S i + k)%nat with (i + S k)%nat by lia. auto.
Qed.

Lemma packed_ids bs : forall p, map c_id (packed p bs) = map c_id (map fst bs).
Proof. induction bs as [|[c b] bs IH]; intros p; cbn; auto. now rewrite IH. Qed.
Lemma concat_packed_ids B : map c_id (concat (map (packed 0) B)) = map c_id (concat (map (map fst) B)).
Proof. induction B as [|bs B IH]; auto. cbn [map concat]. rewrite !map_app, packed_ids, IH. reflexivity. Qed.
Lemma packed_app bs : forall p bs2, packed p (bs ++ bs2) = packed p bs ++ packed (p + zlen (imgs bs)) bs2 \/ exists c b, In (c, b) bs /\ zlen (img (c, b)) <> c_size c.
Proof.
  induction bs as [|[c b] bs IH]; intros p bs2; cbn [app packed imgs flat_map].
  - left. change (zlen (@nil Z)) with 0. now rewrite Z.add_0_r.
  - destruct (Z.eq_dec (zlen (img (c, b))) (c_size c)) as [E|E]; [|right; exists c, b; split; auto; now left].
    destruct (IH (p + c_size c) bs2) as [H|(c' & b' & Hi & H)]; [|right; exists c', b'; split; auto; now right].
    left. rewrite H. fold (imgs bs). rewrite zlen_app, E, Z.add_assoc. reflexivity.
Qed.
Lemma imgs_le file bs : forall p, placed file p bs -> 0 <= p -> zlen (imgs bs) <= zlen (bytes bs).
Proof.
  induction bs as [|[c b] bs IH]; intros p H Hp; cbn [imgs flat_map]; [apply Z.le_refl|]. destruct H as (_ & _ & (Ha & Hs & _) & H4).
  unfold bytes. cbn [map concat snd]. fold (bytes bs) (imgs bs). rewrite !zlen_app. pose proof (zlen_nonneg b).
  specialize (IH _ H4 ltac:(lia)). unfold img, zlen at 1. cbn [fst snd]. rewrite firstn_length. unfold zlen in *. lia.
Qed.

Lemma placed_max file bs : forall p, placed file p bs -> 0 <= p < 2 ^ 31 -> forall pre x post, bs = pre ++ x :: post -> p + zlen (bytes pre) < 2 ^ 31.
Proof.
  intros p H Hp pre [c b] post ->. rewrite placed_app in H. destruct H as (_ & _ & H2 & H3 & _). destruct H3 as (_ & _ & _ & H3). lia.
Qed.

Lemma compress_look init s B junk d bufsz junk2 d2 : Inv init s B -> 30 * zlen (concat B) + 5 < 2 ^ 31 -> nm_end s junk = Some d ->
  nd_compress bufsz junk2 d = Some d2 ->
  (forall id, nd_get d2 id = look B id) /\ (forall i bs, nth_error B i = Some bs -> d_files d2 i = Some (imgs bs)).
Proof.
  intros HI Hn Ed Ec. destruct (end_look _ _ _ _ _ HI Hn Ed) as (_ & Hfiles & Eidx).
  pose proof (iv_ids _ _ _ HI) as HN. assert (HN' := HN). rewrite (iv_chains _ _ _ HI), ids_entry in HN'. rewrite (iv_chains _ _ _ HI) in HN.
  assert (Hlen : zlen (concat (map (map fst) B)) = zlen (concat B)) by (rewrite concat_map_fst; unfold zlen; now rewrite map_length).
  destruct (idx_parts _ _ _ Eidx HN) as (coords & Ei & Hc & Hids).
  assert (Hplaced : forall k bs, nth_error B k = Some bs -> placed k 0 bs) by (intros k bs Hk; apply (iv_files _ _ _ HI k bs Hk)).
  assert (Hfl : (length B <= MAX_N_FILES)%nat).
  { pose proof (iv_last _ _ _ HI) as Hl. pose proof (iv_max _ _ _ HI) as Hm. destruct B; cbn [length] in *; lia. }
  assert (Hcok : forall c, In c (concat (map (map fst) B)) -> cn_ok c).
  { intros c Hi. assert (Hidr : 0 <= c_id c < zlen (concat B)) by (rewrite <- Hlen; apply Hids; now apply in_map).
    rewrite concat_map_fst in Hi. apply in_map_iff in Hi as ([c' b] & E & Hi). cbn in E. subst c'. apply in_concat in Hi as (bs & Hbs & Hi).
    apply In_nth_error in Hbs as (k & Hk). destruct (placed_pos _ _ _ (Hplaced k bs Hk) (Z.le_refl 0) c b Hi) as (Hp1 & Hp2 & (Ha & Hs & Ha2 & Hp3) & Hfile).
    unfold cn_ok. split; [lia|]. split; [|lia]. rewrite Hfile. assert (k < length B)%nat by (apply nth_error_Some; congruence). lia. }
  unfold nd_compress in Ec. rewrite Ei in Ec. pose proof (zlen_nonneg (concat B)) as Hz. rewrite Hlen in Ec.
  rewrite (rdn_enc 4 _ 0 (zlen (concat B))) in Ec.
  2:{ exists [], (coords ++ flat_map fbytes (flagged (map (map fst) B))). auto. }
  2:{ change (2 ^ (8 * Z.of_nat 4)) with 4294967296. lia. }
  rewrite int32_id in Ec by lia.
  replace (4 + 4 * zlen (concat B)) with (zlen (enc 4 (zlen (concat B)) ++ coords)) in Ec by (rewrite zlen_app, zlen_enc, Hc, Hlen; lia).
  set (U := enc 4 (zlen (concat B)) ++ coords) in *. rewrite app_assoc in Ec. fold U in Ec.
  rewrite nd_groups_ok in Ec.
  2:{ rewrite app_length. pose proof (zlen_flat_fbytes (flagged (map (map fst) B))) as H. unfold zlen in H. lia. }
  2:{ intros x Hx. apply Hcok. rewrite <- map_snd_flagged. now apply in_map. }
  2:{ destruct (map (map fst) B) as [|l0 l1] eqn:EB; cbn; auto. destruct l0 as [|c0 l0]; cbn; auto.
      exfalso. destruct B as [|bs0 B']; [discriminate|]. cbn in EB. injection EB as EB _. destruct (iv_files _ _ _ HI O bs0 eq_refl) as (Hb & _).
      destruct bs0; [destruct (Hb eq_refl)|discriminate]. }
  rewrite regroup_flagged in Ec.
  2:{ intros l Hl. apply in_map_iff in Hl as (bs & <- & Hl). apply In_nth_error in Hl as (k & Hk). destruct (iv_files _ _ _ HI k bs Hk) as (Hb & _).
      destruct bs; [destruct (Hb eq_refl)|discriminate]. }
  cbn [app] in Ec. destruct (nd_rewrite bufsz (d_files d) 0 (map (map fst) B)) as [[gs1 files1]|] eqn:Er; [|discriminate].
  assert (Hpre : forall k bs, nth_error B k = Some bs -> d_files d (0 + k)%nat = Some (bytes bs) /\ placed (0 + k) 0 bs).
  { intros k bs Hk. split; [apply Hfiles; exact Hk|now apply Hplaced]. }
  destruct (nd_rewrite_ok bufsz B 0 (d_files d) _ Hpre Er) as (Eg & Ef & _).
  cbn [fst snd] in Eg, Ef. subst gs1. destruct (wr _ 0 _) as [junk1|]; [|discriminate].
  destruct (idx_file (map (packed 0) B) junk1) as [idx2|] eqn:Ei2; [|discriminate]. injection Ec as <-. cbn [d_files].
  split; [|exact Ef].
  assert (HN2 : NoDup (map c_id (concat (map (packed 0) B)))) by (rewrite concat_packed_ids; exact HN).
  assert (Hlen2 : zlen (concat (map (packed 0) B)) = zlen (concat B)).
  { rewrite <- Hlen. pose proof (f_equal (@length _) (concat_packed_ids B)) as H. rewrite !map_length in H. unfold zlen. lia. }
  intros id. destruct (in_dec Z.eq_dec id (map c_id (concat (map (map fst) B)))) as [Hi|Hi].
  - rewrite concat_map_fst in Hi. apply in_map_iff in Hi as (c & <- & Hi). apply in_map_iff in Hi as ([c' b] & Ec & Hi). cbn in Ec. subst c'.
    assert (Hin := Hi). apply in_concat in Hi as (bs & Hbs & Hi). apply In_nth_error in Hbs as (k & Hk). apply in_split in Hi as (pre & post & ->).
    assert (HB : exists B1 B2, B = B1 ++ (pre ++ (c, b) :: post) :: B2) by (apply nth_error_split in Hk as (B1 & B2 & -> & _); eauto).
    destruct HB as (B1 & B2 & HB).
    assert (Hlk : look B (c_id c) = Some (snd (entry (c, b)))). { rewrite HB in HN' |- *. rewrite look_split by auto. cbn [fst]. now rewrite Z.eqb_refl. }
    rewrite Hlk. pose proof (Hplaced _ _ Hk) as Hp. assert (Hp' := Hp). rewrite placed_app in Hp'. cbn [placed] in Hp'. destruct Hp' as (Hp1 & Hfile & Hpos & Hno & _).
    assert (Hszs : forall c' b', In (c', b') (pre ++ (c, b) :: post) -> zlen (img (c', b')) = c_size c').
    { intros c' b' Hi'. apply (zlen_img _ _ _ (c', b') Hp (Z.le_refl 0) Hi'). }
    destruct (packed_app pre 0 ((c, b) :: post)) as [Epk|(c' & b' & Hi' & Hne)].
    2:{ exfalso. apply Hne. apply Hszs. apply in_app_iff. now left. }
    cbn [packed] in Epk. rewrite Z.add_0_l in Epk.
    set (c2 := mkCn (c_id c) (c_size c) (c_size c) (zlen (imgs pre)) (c_file c) (c_children c)).
    pose proof (Hcok c) as Hok. destruct Hok as (O1 & O2 & O3 & O4 & O5).
    { rewrite concat_map_fst. apply in_map_iff. exists (c, b). auto. }
    pose proof (imgs_le _ pre 0 Hp1 (Z.le_refl 0)) as Himle. pose proof (zlen_nonneg (imgs pre)) as Himnn.
    pose proof (nd_get_ok (map (packed 0) B) junk1 idx2 files1 c2 (imgs (pre ++ (c, b) :: post)) (img (c, b)) Ei2 HN2) as G.
    cbn [c_id c_file c_pos c_size c_children c2] in G. cbn [snd entry fst]. apply G.
    + rewrite Hlen2. exact Hn.
    + apply in_concat. exists (packed 0 (pre ++ (c, b) :: post)). split.
      * apply in_map. eapply nth_error_In; eauto.
      * rewrite Epk. apply in_app_iff. right. left. reflexivity.
    + unfold cn_ok. cbn [c_id c_file c_pos c_size c_avail]. split; [exact O1|]. split; [exact O2|]. cbn [c2 c_pos c_size c_avail]. lia.
    + rewrite Hfile. apply (Ef k). exact Hk.
    + unfold imgs at 1. rewrite flat_map_app. cbn [flat_map]. apply bytes_at_mid. symmetry. apply Hszs. apply in_app_iff. right. now left.
  - rewrite (nd_get_outside _ _ _ _ _ Ei2 HN2); [|lia|now rewrite concat_packed_ids]. unfold look. rewrite assoc_none; auto. now rewrite <- ids_entry.
Qed.
