(** C41: the store of the tree nodes. *)
From Coq Require Import ZifyBool.
From Verif Require Import TableProofs TreeImageSpec TreeImageProps TreeProps FileModel FileSpec FileProofs NodeSpec NodeProofs NodeProofs2.
Local Open Scope Z_scope.

Lemma run_new small init minsz maxsz es s : params init minsz maxsz -> proper es -> steady es ->
  nm_run small init minsz maxsz es nm_new = Some s ->
  exists B, Inv init s B /\ forall k, look B k = last_put k es.
Proof.
  intros HP Hp Hs E. destruct (run_inv small init minsz maxsz es HP nm_new [] s Hp Hs) as (B & HI & Hl); auto.
  - intros id k b n k0 x _ H. discriminate.
  - apply nm_new_inv.
  - exists B. split; auto. intros k. rewrite Hl. destruct (last_put k es); auto.
Qed.

(** Whatever nodes are written, in which order and with which sizes, and whichever files are
    closed in between, reading a node gives the last image written for it. *)
Theorem C41_read : forall small init minsz maxsz es s, params init minsz maxsz -> proper es -> steady es ->
  nm_run small init minsz maxsz es nm_new = Some s ->
  forall id, nm_get init s id = last_put id es.
Proof.
  intros small init minsz maxsz es s HP Hp Hs E id. destruct (run_new _ _ _ _ _ _ HP Hp Hs E) as (B & HI & Hl).
  now rewrite (get_look _ _ _ _ HI).
Qed.
Print Assumptions C41_read.

(** The hypotheses can be computed. *)
Definition properb (es : list nev) : bool :=
  forallb (fun e => match e with Put _ _ _ n => (1 <=? n) && (n <? 2 ^ 31) | Close _ => true end) es.
Definition steadyb (es : list nev) : bool :=
  forallb (fun e => forallb (fun f => match e, f with
                                      | Put i k _ _, Put j l _ _ => negb (i =? j) || Bool.eqb k l
                                      | _, _ => true
                                      end) es) es.
Lemma properb_ok es : properb es = true -> proper es.
Proof. intros H id k b n Hi. pose proof (proj1 (forallb_forall _ _) H _ Hi) as G. cbn beta iota in G. lia. Qed.
Lemma steadyb_ok es : steadyb es = true -> steady es.
Proof.
  intros H id k1 b1 n1 k2 b2 n2 H1 H2. pose proof (proj1 (forallb_forall _ _) H _ H1) as G. cbn beta in G.
  pose proof (proj1 (forallb_forall _ _) G _ H2) as G2. cbn beta iota in G2. rewrite Z.eqb_refl in G2. now apply Bool.eqb_prop.
Qed.

Definition im (k : Z) (n : nat) : list Z := map (fun i => (k + Z.of_nat i) mod 256) (seq 0 n).
(** Nodes of growing and shrinking sizes in files of at most 100 bytes. *)
Definition some_puts : list nev :=
  [Put 0 true (im 7 60) 10; Put 1 false (im 9 60) 30; Close 0; Put 2 false (im 100 60) 55; Put 0 true (im 3 1200) 1100;
   Put 3 false (im 5 70) 41; Close 0; Put 1 false (im 50 60) 20; Put 2 false (im 60 5000) 4000; Close 1; Put 3 false (im 8 90) 70].
Example C41_case : params 64 20 100 /\ proper some_puts /\ steady some_puts /\
  (do s <- nm_run 16 64 20 100 some_puts nm_new; Some (map c_file (concat (n_chains s)), map c_pos (concat (n_chains s)), nm_get 64 s 1))
  = Some ([0; 0; 0; 1]%nat, [0; 2068; 2098; 0], Some (false, im 50 20)).
Proof.
  split; [unfold params; lia|]. split; [|split].
  - apply properb_ok. vm_compute. reflexivity.
  - apply steadyb_ok. vm_compute. reflexivity.
  - vm_compute. reflexivity.
Qed.

(** No byte of a file belongs to two nodes, and the bytes of a node are in its file. *)
Theorem C41_disjoint : forall small init minsz maxsz es s, params init minsz maxsz -> proper es -> steady es ->
  nm_run small init minsz maxsz es nm_new = Some s ->
  forall c1 c2 p, In c1 (concat (n_chains s)) -> In c2 (concat (n_chains s)) -> c_file c1 = c_file c2 ->
  covers c1 p -> covers c2 p -> c_id c1 = c_id c2.
Proof.
  intros small init minsz maxsz es s HP Hp Hs E c1 c2 p H1 H2 Hf Hc1 Hc2. destruct (run_new _ _ _ _ _ _ HP Hp Hs E) as (B & HI & Hl).
  rewrite (iv_chains _ _ _ HI), concat_map_fst in H1, H2. apply in_map_iff in H1 as ([c1' b1] & E1 & H1), H2 as ([c2' b2] & E2 & H2).
  cbn in E1, E2. subst c1' c2'. apply in_concat in H1 as (bs1 & Hb1 & H1), H2 as (bs2 & Hb2 & H2).
  apply In_nth_error in Hb1 as (k1 & Hk1), Hb2 as (k2 & Hk2).
  destruct (iv_files _ _ _ HI k1 bs1 Hk1) as (_ & P1 & _). destruct (iv_files _ _ _ HI k2 bs2 Hk2) as (_ & P2 & _).
  destruct (placed_pos _ _ _ P1 (Z.le_refl 0) c1 b1 H1) as (_ & _ & _ & F1). destruct (placed_pos _ _ _ P2 (Z.le_refl 0) c2 b2 H2) as (_ & _ & _ & F2).
  assert (k1 = k2) by congruence. subst k2. assert (bs1 = bs2) by congruence. subst bs2.
  clear - P1 H1 H2 Hc1 Hc2. enough (G : forall q, 0 <= q -> placed k1 q bs1 -> c_id c1 = c_id c2) by exact (G 0 (Z.le_refl 0) P1).
  clear P1. induction bs1 as [|[c b] bs IH]; intros q Hq P; [destruct H1|].
  cbn [placed] in P. destruct P as (P0 & P1 & (Ha & _) & P2). pose proof (zlen_nonneg b). unfold covers in *.
  destruct H1 as [E1|H1], H2 as [E2|H2].
  - congruence.
  - injection E1 as -> ->. destruct (placed_pos _ _ _ P2 ltac:(lia) c2 b2 H2) as (G & _). lia.
  - injection E2 as -> ->. destruct (placed_pos _ _ _ P2 ltac:(lia) c1 b1 H1) as (G & _). lia.
  - apply (IH H1 H2 (q + zlen b)); auto. lia.
Qed.
Print Assumptions C41_disjoint.

(** Writing succeeds as long as an int can address the files and there are not more new nodes
    than files; the buffer must have at least the minimal number of bytes of a node. *)
Theorem C41_succeeds : forall small init minsz maxsz es, params init minsz maxsz -> proper es ->
  (forall id k b n, In (Put id k b n) es -> Z.max minsz n <= zlen b) -> needed minsz es < 2 ^ 31 -> (puts es < MAX_N_FILES)%nat ->
  exists s, nm_run small init minsz maxsz es nm_new = Some s.
Proof.
  intros small init minsz maxsz es HP Hp Hb Hn Hf. apply (run_some small init minsz maxsz es HP nm_new []); auto.
  apply nm_new_inv.
Qed.
Print Assumptions C41_succeeds.

Fixpoint put_ids (es : list nev) : list Z :=
  match es with [] => [] | Put id _ _ _ :: t => id :: put_ids t | Close _ :: t => put_ids t end.
Lemma put_ids_length es : length (put_ids es) = puts es.
Proof. induction es as [|[|] es IH]; cbn; auto. Qed.
Lemma last_put_in id es x : last_put id es = Some x -> In id (put_ids es).
Proof.
  revert x. induction es as [|e es IH]; intros x H; cbn in *; [discriminate|]. destruct (last_put id es) as [y|] eqn:E.
  - destruct e; cbn; eauto.
  - destruct e as [i k b n|]; [|discriminate]. destruct (Z.eqb_spec i id); [subst; now left|discriminate].
Qed.
Lemma few_nodes init s B es : Inv init s B -> (forall k, look B k = last_put k es) -> zlen (concat B) <= Z.of_nat (puts es).
Proof.
  intros HI Hl. pose proof (iv_ids _ _ _ HI) as HN. rewrite (iv_chains _ _ _ HI), ids_entry in HN.
  assert (Hin : incl (map fst (map entry (concat B))) (put_ids es)).
  { intros id Hi. apply in_map_iff in Hi as ([i v] & <- & Hi). cbn [fst]. apply (last_put_in _ _ v). rewrite <- Hl. now apply assoc_in. }
  apply NoDup_incl_length in Hin; auto. rewrite !map_length, put_ids_length in Hin. unfold zlen. lia.
Qed.

(** After closing, a read-only store on the same files gives the last images. *)
Theorem C41_reopen : forall small init minsz maxsz es s junk d, params init minsz maxsz -> proper es -> steady es ->
  30 * Z.of_nat (puts es) + 5 < 2 ^ 31 -> nm_run small init minsz maxsz es nm_new = Some s -> nm_end s junk = Some d ->
  forall id, nd_get d id = last_put id es.
Proof.
  intros small init minsz maxsz es s junk d HP Hp Hs Hn E Ed id. destruct (run_new _ _ _ _ _ _ HP Hp Hs E) as (B & HI & Hl).
  pose proof (few_nodes _ _ _ _ HI Hl) as Hf. destruct (end_look _ _ _ _ _ HI ltac:(lia) Ed) as (H & _). now rewrite H.
Qed.
Print Assumptions C41_reopen.

(** The same when the space between the images is removed; then a file has just the images. *)
Theorem C41_compress : forall small init minsz maxsz es s junk d bufsz junk2 d2, params init minsz maxsz -> proper es -> steady es ->
  30 * Z.of_nat (puts es) + 5 < 2 ^ 31 -> nm_run small init minsz maxsz es nm_new = Some s -> nm_end s junk = Some d ->
  nd_compress bufsz junk2 d = Some d2 ->
  (forall id, nd_get d2 id = last_put id es) /\
  forall i l, nth_error (n_chains s) i = Some l ->
    exists ims, mapo (fun c => option_map snd (last_put (c_id c) es)) l = Some ims /\ d_files d2 i = Some (concat ims).
Proof.
  intros small init minsz maxsz es s junk d bufsz junk2 d2 HP Hp Hs Hn E Ed Ec. destruct (run_new _ _ _ _ _ _ HP Hp Hs E) as (B & HI & Hl).
  pose proof (few_nodes _ _ _ _ HI Hl) as Hf. destruct (compress_look _ _ _ _ _ _ _ _ HI ltac:(lia) Ed Ec) as (H1 & H2). split.
  - intros id. now rewrite H1.
  - intros i l Hi. rewrite (iv_chains _ _ _ HI), nth_error_map in Hi. match type of Hi with option_map _ ?e = _ => destruct e as [bs|] eqn:Eb end; [|discriminate]. injection Hi as <-.
    exists (map img bs). rewrite (H2 i bs Eb). split; [|unfold imgs; now rewrite flat_map_concat_map].
    pose proof (iv_ids _ _ _ HI) as HN. rewrite (iv_chains _ _ _ HI), ids_entry in HN.
    assert (Hsub : forall x, In x bs -> option_map snd (last_put (c_id (fst x)) es) = Some (img x)).
    { intros x Hx. rewrite <- Hl. unfold look. rewrite (assoc_in _ (snd (entry x)) _ HN); [reflexivity|].
      replace (c_id (fst x), snd (entry x)) with (entry x) by reflexivity. apply in_map. apply in_concat. exists bs. split; auto. eapply nth_error_In; eauto. }
    clear - Hsub. induction bs as [|x bs IH]; cbn [map mapo]; auto. rewrite (Hsub x) by now left. rewrite IH; auto. intros y Hy. apply Hsub. now right.
Qed.
Print Assumptions C41_compress.

(** Closing succeeds if the nodes have the ids 0, ..., n - 1. *)
Theorem C41_closes : forall small init minsz maxsz es s junk n, params init minsz maxsz -> proper es -> steady es ->
  nm_run small init minsz maxsz es nm_new = Some s -> dense es n -> 4 * n <= zlen junk -> exists d, nm_end s junk = Some d.
Proof.
  intros small init minsz maxsz es s junk n HP Hp Hs E Hd Hj. destruct (run_new _ _ _ _ _ _ HP Hp Hs E) as (B & HI & Hl).
  pose proof (iv_ids _ _ _ HI) as HN. rewrite (iv_chains _ _ _ HI), ids_entry in HN.
  assert (Hids : forall id, In id (map fst (map entry (concat B))) <-> 0 <= id < n).
  { intros id. rewrite <- (Hd id). split.
    - intros H. apply in_map_iff in H as ([i v] & <- & H). exists v. rewrite <- Hl. now apply assoc_in.
    - intros (x & Hx). rewrite <- Hl in Hx. apply assoc_some in Hx. apply (in_map fst) in Hx. exact Hx. }
  assert (Hlen : zlen (concat B) = Z.max 0 n).
  { assert (I1 : incl (map fst (map entry (concat B))) (map Z.of_nat (seq 0 (Z.to_nat n)))).
    { intros id Hi. apply Hids in Hi. apply in_map_iff. exists (Z.to_nat id). split; [lia|]. apply in_seq. lia. }
    assert (I2 : incl (map Z.of_nat (seq 0 (Z.to_nat n))) (map fst (map entry (concat B)))).
    { intros id Hi. apply Hids. apply in_map_iff in Hi as (i & <- & Hi). apply in_seq in Hi. lia. }
    apply NoDup_incl_length in I1; auto. apply NoDup_incl_length in I2.
    - rewrite !map_length, seq_length in *. unfold zlen. lia.
    - apply FinFun.Injective_map_NoDup; [intros a b; lia|apply seq_NoDup]. }
  apply (end_some init s B junk HI).
  - pose proof (zlen_nonneg junk). lia.
  - intros c Hc. apply (in_map c_id) in Hc. rewrite (iv_chains _ _ _ HI), ids_entry in Hc. apply Hids in Hc. lia.
Qed.
Print Assumptions C41_closes.

Example C41_reopen_case : dense some_puts 4 /\
  (do s <- nm_run 16 64 20 100 some_puts nm_new; do d <- nm_end s (repeat 77 16); do d2 <- nd_compress 5000 (repeat 88 16) d;
   Some (nd_get d 2, map (nd_get d2) [0; 1; 3; 4], option_map zlen (d_files d2 0)))
  = Some (Some (false, im 60 4000), [Some (true, im 3 1100); Some (false, im 50 20); Some (false, im 8 70); None], Some 5120).
Proof.
  split.
  - intros id. split.
    + intros (x & H). apply last_put_in in H. cbn in H. lia.
    + intros H. assert (H' : id = 0 \/ id = 1 \/ id = 2 \/ id = 3) by lia. destruct H' as [->|[->|[->| ->]]]; eexists; vm_compute; reflexivity.
  - vm_compute. reflexivity.
Qed.

(** A gap in the ids makes the destructor write outside of its array. *)
Theorem C41_gap_refuted : exists es s, proper es /\ steady es /\ nm_run 1024 1025 0 100 es nm_new = Some s /\ forall junk, nm_end s junk = None.
Proof.
  exists [Put 1 false [7; 8] 2]. eexists. split; [|split; [|split; [vm_compute; reflexivity|]]].
  - intros id k b n [H|[]]. injection H as <- <- <- <-. lia.
  - intros id k1 b1 n1 k2 b2 n2 [H1|[]] [H2|[]]. injection H1 as <- <- _ _. injection H2 as <- _ _. reflexivity.
  - intros junk. unfold nm_end, idx_file. cbn [n_chains concat app length idx_chains idx_chain]. unfold wr.
    set (j := firstn (4 * 1) junk). assert (zlen j <= 4) by (unfold j, zlen; rewrite firstn_length; lia).
    change (c_id _ * 4) with 4. rewrite zlen_enc. destruct ((0 <=? 4) && (4 + Z.of_nat 4 <=? zlen j)) eqn:E; [lia|reflexivity].
Qed.
Print Assumptions C41_gap_refuted.

(** *** The tree on disk: C17 and C41 *)
Lemma stored_ext {V} (image : kn -> list V -> option (list Z)) d1 d2 : (forall i, d1 i = d2 i) ->
  forall t id, stored image d1 t id -> stored image d2 t id.
Proof.
  intros Hd. fix IH 1. intros [n vs|n cs] id H; cbn [stored] in *.
  - destruct H as (b & m & H1 & H2 & H3). exists b, m. rewrite <- Hd. auto.
  - destruct H as (ids & m & H1 & H2 & H3). exists ids, m. rewrite <- Hd. split; auto. split; auto. clear - IH H3.
    revert ids H3. induction cs as [|c cs IHc]; intros [|i ids] H3; auto. destruct H3 as (G1 & G2 & G3). split; [exact G1|split; [now apply IH|now apply IHc]].
Qed.

(** If the last image written for each node is that of the node of the tree that a history
    made, then after closing, compressing and opening again a lookup gives the last value. *)
Theorem C41_tree_partial : forall m h small init minsz maxsz es s junk d bufsz junk2 d2, (1 <= m)%nat -> Z.of_nat (m + m) < 2 ^ 31 ->
  allowed [] h -> (forall o, In o h -> 0 <= op_val o < 2 ^ 63) ->
  params init minsz maxsz -> proper es -> steady es -> 30 * Z.of_nat (puts es) + 5 < 2 ^ 31 ->
  nm_run small init minsz maxsz es nm_new = Some s -> nm_end s junk = Some d -> nd_compress bufsz junk2 d = Some d2 ->
  exists t, build_num (m + m) h = Some t /\
    forall olds root, stored num_image (fun id => last_put id es) t root -> small_steps t -> (forall i, 1 <= kn_step (olds i)) ->
    exists f0, forall fuel k, (f0 <= fuel)%nat ->
      disk_get leaf_load_num (nd_get d) olds fuel root k = Some (last_value k h) /\
      disk_get leaf_load_num (nd_get d2) olds fuel root k = Some (last_value k h).
Proof.
  intros m h small init minsz maxsz es s junk d bufsz junk2 d2 Hm Hmx HA Hv HP Hp Hs Hn E Ed Ec.
  destruct (C17_disk_partial m h Hm Hmx HA Hv) as (t & Et & HT). exists t. split; auto. intros olds root Hst Hsm Hold.
  assert (S1 : stored num_image (nd_get d) t root).
  { eapply stored_ext; [|exact Hst]. intros i. symmetry. eapply C41_reopen; eauto. }
  assert (S2 : stored num_image (nd_get d2) t root).
  { eapply stored_ext; [|exact Hst]. intros i. symmetry. eapply C41_compress; eauto. }
  destruct (HT (nd_get d) olds root S1 Hsm Hold) as (f1 & F1). destruct (HT (nd_get d2) olds root S2 Hsm Hold) as (f2 & F2).
  exists (Nat.max f1 f2). intros fuel k Hf. split; [apply F1; lia|apply F2; lia].
Qed.
Print Assumptions C41_tree_partial.

(** The same for term coordinates. *)
Theorem C41_tree_coordinates_partial : forall m h small init minsz maxsz es s junk d bufsz junk2 d2, (1 <= m)%nat -> Z.of_nat (m + m) < 2 ^ 31 ->
  allowed [] h -> replacing h -> (forall o i c, In o h -> op_val o i = Some c -> fits_fields c) ->
  params init minsz maxsz -> proper es -> steady es -> 30 * Z.of_nat (puts es) + 5 < 2 ^ 31 ->
  nm_run small init minsz maxsz es nm_new = Some s -> nm_end s junk = Some d -> nd_compress bufsz junk2 d = Some d2 ->
  exists t, build_tc (m + m) h = Some t /\
    forall olds root, stored leaf_image_tc (fun id => last_put id es) t root -> small_steps t -> (forall i, 1 <= kn_step (olds i)) ->
    exists f0, forall fuel k, (f0 <= fuel)%nat ->
      disk_get leaf_load_tc (nd_get d) olds fuel root k = Some (option_map coords (last_value k h)) /\
      disk_get leaf_load_tc (nd_get d2) olds fuel root k = Some (option_map coords (last_value k h)).
Proof.
  intros m h small init minsz maxsz es s junk d bufsz junk2 d2 Hm Hmx HA Hrp Hv HP Hp Hs Hn E Ed Ec.
  destruct (C17_disk_coordinates_partial m h Hm Hmx HA Hrp Hv) as (t & Et & HT). exists t. split; auto. intros olds root Hst Hsm Hold.
  assert (S1 : stored leaf_image_tc (nd_get d) t root).
  { eapply stored_ext; [|exact Hst]. intros i. symmetry. eapply C41_reopen; eauto. }
  assert (S2 : stored leaf_image_tc (nd_get d2) t root).
  { eapply stored_ext; [|exact Hst]. intros i. symmetry. eapply C41_compress; eauto. }
  destruct (HT (nd_get d) olds root S1 Hsm Hold) as (f1 & F1). destruct (HT (nd_get d2) olds root S2 Hsm Hold) as (f2 & F2).
  exists (Nat.max f1 f2). intros fuel k Hf. split; [apply F1; lia|apply F2; lia].
Qed.
Print Assumptions C41_tree_coordinates_partial.

(** The nodes of the tree of [some_history], written after older images. *)
Definition final_puts (t : tree Z) : list nev :=
  let pad b := b ++ repeat 0 40 in
  let node i t := match t with
                  | Leaf n vs => Put i false (pad (leaf_image_num n vs)) (zlen (leaf_image_num n vs))
                  | Inter n cs => let b := kn_image n ++ flat_map (enc 8) (map (fun i => Z.of_nat (S i)) (seq 0 (length cs))) in Put i true (pad b) (zlen b)
                  end in
  match t with
  | Leaf _ _ => [node 0 t]
  | Inter _ cs => map (fun p => node (Z.of_nat (S (fst p))) (snd p)) (combine (seq 0 (length cs)) cs) ++ [node 0 t]
  end.
Definition tree_puts (t : tree Z) : list nev :=
  [Put 0 true (im 1 50) 9; Put 2 false (im 1 50) 3; Put 1 false (im 4 3000) 2000; Close 0; Put 3 false (im 4 60) 50; Put 4 false (im 9 40) 31] ++ final_puts t.
Example C41_tree_case : exists t, build_num 4 some_history = Some t /\ proper (tree_puts t) /\ steady (tree_puts t) /\
  stored num_image (fun id => last_put id (tree_puts t)) t 0 /\
  (do s <- nm_run 16 64 20 100 (tree_puts t) nm_new; do d <- nm_end s (repeat 77 20); do d2 <- nd_compress 5000 (repeat 88 20) d; Some (length (n_chains s))) = Some 2%nat.
Proof.
  eexists. split; [vm_compute; reflexivity|]. split; [|split; [|split]].
  - apply properb_ok. vm_compute. reflexivity.
  - apply steadyb_ok. vm_compute. reflexivity.
  - assert (Hc : forall a, contains a 0 a) by (intros a; exists [], []; rewrite app_nil_r; split; reflexivity).
    exists [1; 2; 3; 4]. eexists. split; [vm_compute; reflexivity|]. split; [apply Hc|].
    repeat (split; [lia|split; [eexists _, _; split; [reflexivity|split; [vm_compute; reflexivity|apply Hc]]|]]). exact I.
  - vm_compute. reflexivity.
Qed.
