(** Proofs about the column layout. *)
From Coq Require Import Sorted Lia.
From Verif Require Export ColumnModel TableSpec TableProofs.
From Verif Require Import ArrayProofs CompProofs RowProofs ClusterProofs.
Local Open Scope Z_scope.
Ltac Zify.zify_post_hook ::= Z.div_mod_to_equations.

(** ** Codecs *)
Lemma decv_encv n : forall m p v, contains m p (encv n v) -> 0 <= v < 2 ^ (7 * Z.of_nat n) -> (0 < n)%nat ->
  decv n m p = Some (v, p + zlen (encv n v)).
Proof.
  induction n as [|n IH]; intros m p v H Hv Hn; [lia|].
  cbn [encv decv] in *. destruct (v <? 128) eqn:E.
  - rewrite (getb_contains _ _ _ _ H), E. reflexivity.
  - rewrite (getb_contains _ _ _ _ H).
    replace (v mod 128 + 128 <? 128) with false by (symmetry; apply Z.ltb_ge; lia).
    change (?x :: ?y) with ([x] ++ y) in H. apply contains_app in H as [_ H].
    change (zlen [_]) with 1 in H.
    assert (H7 : 2 ^ (7 * Z.of_nat (S n)) = 128 * 2 ^ (7 * Z.of_nat n)).
    { replace (7 * Z.of_nat (S n)) with (7 + 7 * Z.of_nat n) by lia. rewrite Z.pow_add_r by lia. reflexivity. }
    destruct n as [|n]; [change (2 ^ (7 * Z.of_nat 1)) with 128 in Hv; lia|].
    rewrite (IH _ _ _ H); [|split; [lia|]|lia].
    + f_equal. f_equal; [lia|]. change (zlen (?a :: ?b)) with (Z.of_nat (S (length b))). lia.
    + apply Z.div_lt_upper_bound; lia.
Qed.

Lemma vlong2_ok m p v : contains m p (enc_vlong2 v) -> 0 <= v < 2 ^ 63 ->
  dec_vlong2 m p = Some (v, p + zlen (enc_vlong2 v)).
Proof.
  intros H Hv. apply decv_encv; auto; [|lia].
  assert (2 ^ 63 <= 2 ^ (7 * Z.of_nat 10)) by (apply Z.pow_le_mono_r; lia). lia.
Qed.

Lemma nbytes_fits v : 0 <= v < 2 ^ 56 -> v < 2 ^ (8 * Z.of_nat (nbytes v)) /\ (1 <= nbytes v <= 7)%nat.
Proof.
  intros Hv. unfold nbytes.
  assert (H : forall n v, 0 <= v < 2 ^ (8 * Z.of_nat n) -> (0 < n)%nat ->
    v < 2 ^ (8 * Z.of_nat (nbytes_ n v)) /\ (1 <= nbytes_ n v <= n)%nat).
  { clear. induction n as [|n IH]; intros v Hv Hn; [lia|].
    change (nbytes_ (S n) v) with (if v <? 256 then 1%nat else S (nbytes_ n (v / 256))).
    destruct (v <? 256) eqn:E; [change (2 ^ (8 * Z.of_nat 1)) with 256; lia|].
    rewrite pow256_S in *. destruct n as [|n]; [change (2 ^ (8 * Z.of_nat 0)) with 1 in Hv; lia|].
    destruct (IH (v / 256)) as [H1 H2]; [split; [lia|]|lia|].
    - apply Z.div_lt_upper_bound; lia.
    - split; [|lia]. assert (v / 256 < 2 ^ (8 * Z.of_nat (nbytes_ (S n) (v / 256)))) by lia.
      lia. }
  apply H; [|lia]. exact Hv.
Qed.

Lemma nbytes_mono_fits v w : 0 <= v <= w -> w < 2 ^ 56 -> 0 <= v < 2 ^ (8 * Z.of_nat (nbytes w)).
Proof. intros H1 H2. destruct (nbytes_fits w) as [H _]; lia. Qed.

(** ** The writer *)
Definition seconds (G : list (Z * list Z)) : list Z := flat_map snd G.
Fixpoint ents (b1 bc bo : nat) (off : Z) (G : list (Z * list Z)) : list Z :=
  match G with
  | [] => []
  | g :: G => col_entry b1 bc bo (fst g) (zlen (snd g)) off ++ ents b1 bc bo (off + zlen (snd g)) G
  end.
Fixpoint starts (off : Z) (G : list (Z * list Z)) : list (Z * Z) :=
  match G with [] => [] | g :: G => (fst g, off) :: starts (off + zlen (snd g)) G end.

Lemma seconds_app G G' : seconds (G ++ G') = seconds G ++ seconds G'.
Proof. apply flat_map_app. Qed.
Lemma seconds_1 a ws : seconds [(a, ws)] = ws.
Proof. apply app_nil_r. Qed.
Lemma starts_app G G' : forall off, starts off (G ++ G') = starts off G ++ starts (off + zlen (seconds G)) G'.
Proof.
  induction G as [|g G IH]; intros off; cbn [app starts seconds flat_map length].
  - now rewrite Z.add_0_r.
  - rewrite IH. do 3 f_equal. rewrite app_length. unfold seconds. lia.
Qed.
Lemma starts_length G : forall off, length (starts off G) = length G.
Proof. induction G; intros; cbn; auto. Qed.

Lemma dump1mem_ents b1 bc bo G : forall off tot, tot = off + zlen (seconds G) ->
  ci_dump1mem b1 bc bo tot (starts off G) = ents b1 bc bo off G.
Proof.
  induction G as [|g G IH]; intros off tot Ht; [reflexivity|].
  cbn [starts ci_dump1mem ents fst snd]. cbn [seconds flat_map] in Ht. rewrite app_length in Ht.
  f_equal.
  - f_equal. destruct G as [|g' G]; cbn [starts snd].
    + cbn in Ht. lia.
    + lia.
  - apply IH. unfold seconds. lia.
Qed.

(** Entries offloaded to disk are written as those in memory. *)
Lemma dump1_mem b1 bc bo tot l2 : forall l1 a s, a <> -1 -> (forall x, In x l1 -> fst x <> -1) ->
  (let '(out, pk, ps) := ci_dump1 b1 bc bo a s l1 in
   out ++ col_entry b1 bc bo pk (match l2 with v :: _ => snd v - ps | [] => tot - ps end) ps)
   ++ ci_dump1mem b1 bc bo tot l2 = ci_dump1mem b1 bc bo tot ((a, s) :: l1 ++ l2).
Proof.
  induction l1 as [|[b t] l1 IH]; intros a s Ha Hl; cbn [ci_dump1 app].
  - cbn [app ci_dump1mem fst snd]. destruct l2; reflexivity.
  - specialize (IH b t (Hl (b, t) (or_introl eq_refl)) (fun x Hx => Hl x (or_intror Hx))).
    destruct (ci_dump1 b1 bc bo b t l1) as [[out pk] ps].
    replace (a =? -1) with false by lia. cbn [negb].
    change (ci_dump1mem b1 bc bo tot ((a, s) :: (b, t) :: l1 ++ l2)) with
      (col_entry b1 bc bo a (t - s) s ++ ci_dump1mem b1 bc bo tot ((b, t) :: l1 ++ l2)).
    rewrite <- IH, <- !app_assoc. reflexivity.
Qed.

(** What the writer has seen so far. *)
Definition ci_inv (s : ci_st) (G : list (Z * list Z)) : Prop :=
  ci_off1 s ++ ci_first s = starts 0 G /\ ci_off2 s ++ ci_second s = seconds G /\
  Forall (fun g => snd g <> []) G /\ adj (map fst G) /\
  ci_prevel1 s = last (map fst G) (-1) /\
  ci_prevtot s = zlen (seconds (removelast G)) /\
  Forall (fun g => zlen (snd g) <= ci_lg s) (removelast G) /\
  Forall (fun g => fst g <= ci_l1 s) G /\ Forall (fun v => v <= ci_l2 s) (seconds G) /\
  0 <= ci_lg s <= zlen (seconds G) /\ 0 <= ci_l1 s /\ 0 <= ci_l2 s /\
  (forall B, 0 <= B -> Forall (fun g => fst g <= B) G -> ci_l1 s <= B) /\
  (forall B, 0 <= B -> Forall (fun v => v <= B) (seconds G) -> ci_l2 s <= B).

Lemma ci_total_inv s G : ci_inv s G -> ci_total s = zlen (seconds G).
Proof.
  intros (_ & H & _). rewrite <- H, app_length. unfold ci_total. lia.
Qed.

Lemma last_snoc {A} (l : list A) x d : last (l ++ [x]) d = x.
Proof. apply last_last. Qed.

Lemma ci_append_inv th s G t : ci_inv s G -> 0 <= fst t -> 0 <= snd t ->
  exists G', ci_inv (ci_append th s t) G' /\ pairs G' = pairs G ++ [t].
Proof.
  intros HI. pose proof (ci_total_inv _ _ HI) as Htot.
  destruct HI as (I1 & I2 & I3 & I4 & I5 & I6 & I7 & I8 & I9 & I10 & I11 & I12 & I13 & I14).
  destruct t as [t1 t2]. cbn [fst snd]. intros Ht1 Ht2.
  (* offloading does not matter *)
  assert (Hoff : forall s2 G', ci_inv s2 G' ->
    ci_inv (let s3 :=
      if th <=? Z.of_nat (length (ci_first s2)) then
        mkCi [] (ci_second s2) (ci_lg s2) (ci_l1 s2) (ci_l2 s2) (ci_prevtot s2) (ci_prevel1 s2)
          (ci_off1 s2 ++ ci_first s2) (ci_off2 s2)
      else s2 in
      if th <=? Z.of_nat (length (ci_second s3)) then
        mkCi (ci_first s3) [] (ci_lg s3) (ci_l1 s3) (ci_l2 s3) (ci_prevtot s3) (ci_prevel1 s3)
          (ci_off1 s3) (ci_off2 s3 ++ ci_second s3)
      else s3) G').
  { intros s2 G' HI. cbv zeta.
    assert (H1 : ci_inv (if th <=? Z.of_nat (length (ci_first s2)) then
        mkCi [] (ci_second s2) (ci_lg s2) (ci_l1 s2) (ci_l2 s2) (ci_prevtot s2) (ci_prevel1 s2)
          (ci_off1 s2 ++ ci_first s2) (ci_off2 s2)
      else s2) G').
    { destruct (th <=? _); auto. unfold ci_inv in *. cbn. rewrite app_nil_r. exact HI. }
    destruct (th <=? Z.of_nat (length (ci_second _))); auto.
    unfold ci_inv in *. cbn. rewrite app_nil_r. exact H1. }
  unfold ci_append. destruct (ci_prevel1 s =? t1) eqn:E; cbn [negb].
  - (* same group *)
    destruct G as [|[a ws] G _] using rev_ind; [cbn in I5; lia|].
    rewrite map_app in *. cbn [map fst] in *. rewrite last_snoc in I5.
    assert (Ea : a = t1) by lia. assert (Ep : ci_prevel1 s = t1) by lia. clear I5 E. subst a. rewrite removelast_last in *.
    rewrite seconds_app, app_length, seconds_1 in Htot. rewrite seconds_app, seconds_1 in I2, I9, I10.
    setoid_rewrite seconds_app in I14. setoid_rewrite seconds_1 in I14.
    exists (G ++ [(t1, ws ++ [t2])]). split.
    + apply Hoff. unfold ci_inv. cbn [ci_off1 ci_first ci_off2 ci_second ci_prevel1 ci_prevtot ci_lg ci_l1 ci_l2].
      rewrite map_app, removelast_last, !seconds_app. cbn [map fst].
      rewrite seconds_1.
      rewrite last_snoc, starts_app in *. cbn [starts fst] in *.
      apply Forall_app in I3 as [I3a I3b]. apply Forall_app in I8 as [I8a I8b].
      apply Forall_app in I9 as [I9a I9b].
      split; auto. split; [now rewrite app_assoc, I2, app_assoc|].
      split; [apply Forall_app; split; auto; constructor; auto; cbn; now destruct ws|].
      split; auto. split; auto. split; auto. split; auto.
      assert (M1 : ci_l1 s <= if ci_l1 s <=? t1 then t1 else ci_l1 s) by (destruct (ci_l1 s <=? t1) eqn:?; lia).
      assert (M1' : t1 <= if ci_l1 s <=? t1 then t1 else ci_l1 s) by (destruct (ci_l1 s <=? t1) eqn:?; lia).
      assert (M2 : ci_l2 s <= if ci_l2 s <=? t2 then t2 else ci_l2 s) by (destruct (ci_l2 s <=? t2) eqn:?; lia).
      assert (M2' : t2 <= if ci_l2 s <=? t2 then t2 else ci_l2 s) by (destruct (ci_l2 s <=? t2) eqn:?; lia).
      split; [apply Forall_app; split; [eapply Forall_impl; [|exact I8a]; cbn; intros; lia|constructor; auto]|].
      split.
      { rewrite !Forall_app. split; [eapply Forall_impl; [|exact I9a]; cbn; intros; lia|].
        split; [eapply Forall_impl; [|exact I9b]; cbn; intros; lia|constructor; auto]. }
      rewrite !app_length in *. cbn [length] in *. split; [lia|]. split; [lia|]. split; [lia|]. split.
      * intros B HB HF. rewrite Forall_app in HF. destruct HF as [HF1 HF2].
        apply Forall_inv in HF2. cbn [fst] in HF2.
        destruct (ci_l1 s <=? t1) eqn:?; auto. apply I13; auto. rewrite Forall_app. split; auto.
      * intros B HB HF. rewrite !Forall_app in HF. destruct HF as (HF1 & HF2 & HF3). apply Forall_inv in HF3.
        destruct (ci_l2 s <=? t2) eqn:?; auto. apply I14; auto. rewrite Forall_app. split; auto.
    + rewrite !pairs_app, <- app_assoc. f_equal. cbn [pairs flat_map fst snd].
      rewrite !app_nil_r, map_app. reflexivity.
  - (* new group *)
    exists (G ++ [(t1, [t2])]). split.
    + apply Hoff. unfold ci_inv. cbn [ci_off1 ci_first ci_off2 ci_second ci_prevel1 ci_prevtot ci_lg ci_l1 ci_l2].
      rewrite map_app, removelast_last, !seconds_app. cbn [map fst].
      rewrite seconds_1.
      rewrite last_snoc, starts_app. cbn [starts fst]. rewrite Htot.
      split; [now rewrite app_assoc, I1, Z.add_0_l|]. split; [now rewrite app_assoc, I2|].
      split; [apply Forall_app; split; auto; constructor; auto; discriminate|].
      split.
      { apply adj_snoc; auto. intros l1 a Ha. rewrite Ha, last_snoc in I5. lia. }
      split; auto. split; auto.
      assert (M1 : ci_l1 s <= if ci_l1 s <=? t1 then t1 else ci_l1 s) by (destruct (ci_l1 s <=? t1) eqn:?; lia).
      assert (M1' : t1 <= if ci_l1 s <=? t1 then t1 else ci_l1 s) by (destruct (ci_l1 s <=? t1) eqn:?; lia).
      assert (M2 : ci_l2 s <= if ci_l2 s <=? t2 then t2 else ci_l2 s) by (destruct (ci_l2 s <=? t2) eqn:?; lia).
      assert (M2' : t2 <= if ci_l2 s <=? t2 then t2 else ci_l2 s) by (destruct (ci_l2 s <=? t2) eqn:?; lia).
      assert (Hp : zlen (seconds (removelast G)) <= zlen (seconds G)).
      { destruct G as [|g G _] using rev_ind; [cbn; lia|]. rewrite removelast_last, seconds_app, app_length. lia. }
      split.
      { destruct G as [|[a ws] G _] using rev_ind; [constructor|]. rewrite removelast_last in *.
        rewrite seconds_app, app_length, I6, seconds_1. apply Forall_app. split; [|constructor; auto; cbn [snd]; match goal with |- context [ci_lg s <? ?x] => destruct (Z.ltb_spec (ci_lg s) x) end; lia].
        eapply Forall_impl; [|exact I7]. cbn. intros x Hx. match goal with |- context [ci_lg s <? ?x] => destruct (Z.ltb_spec (ci_lg s) x) end; lia. }
      split; [apply Forall_app; split; [eapply Forall_impl; [|exact I8]; cbn; intros; lia|constructor; auto]|].
      split; [apply Forall_app; split; [eapply Forall_impl; [|exact I9]; cbn; intros; lia|constructor; auto]|].
      rewrite !app_length. cbn [length]. split; [match goal with |- context [ci_lg s <? ?x] => destruct (Z.ltb_spec (ci_lg s) x) end; lia|]. split; [lia|]. split; [lia|]. split.
      * intros B HB HF. rewrite Forall_app in HF. destruct HF as [HF1 HF2].
        apply Forall_inv in HF2. cbn [fst] in HF2. destruct (ci_l1 s <=? t1) eqn:?; auto.
      * intros B HB HF. rewrite !Forall_app in HF. destruct HF as (HF1 & HF3). apply Forall_inv in HF3.
        destruct (ci_l2 s <=? t2) eqn:?; auto.
    + rewrite pairs_app. reflexivity.
Qed.

(** Bytes that are read as the number v. *)
Definition vlong (vb : list Z) (v : Z) : Prop :=
  forall m p, contains m p vb -> dec_vlong2 m p = Some (v, p + zlen vb).

(** A column table of the groups G whose header gives nt as the number of pairs. *)
Record col_layout (bs : list Z) (b1 b2 bc bo : nat) (G : list (Z * list Z)) (nt : Z) : Prop := {
  lay_bytes : exists vb vt, bs = [Z.of_nat b1 * 8 + Z.of_nat b2; Z.of_nat bc * 8 + Z.of_nat bo] ++
    vb ++ vt ++ ents b1 bc bo 0 G ++ flat_map (enc b2) (seconds G) /\ vlong vb (zlen G) /\ vlong vt nt;
  lay_widths : (1 <= b1 <= 7 /\ 1 <= b2 <= 7 /\ 1 <= bc <= 7 /\ 1 <= bo <= 7)%nat;
  lay_ne : Forall (fun g => snd g <> []) G;
  lay_adj : adj (map fst G);
  lay_first : Forall (fun g => 0 <= fst g < 2 ^ (8 * Z.of_nat b1)) G;
  lay_count : Forall (fun g => zlen (snd g) < 2 ^ (8 * Z.of_nat bc)) G;
  lay_off : zlen (seconds G) < 2 ^ (8 * Z.of_nat bo);
  lay_second : Forall (fun v => 0 <= v < 2 ^ (8 * Z.of_nat b2)) (seconds G)
}.

Lemma col_write_spec th l :
  (forall x, In x l -> 0 <= fst x < 2 ^ 56 /\ 0 <= snd x < 2 ^ 56) -> zlen l < 2 ^ 56 ->
  exists b1 b2 bc bo G, col_layout (col_write th l) b1 b2 bc bo G (zlen (seconds G)) /\ pairs G = l.
Proof.
  intros Hl Hlen. unfold col_write.
  assert (H : forall l0 s G, (forall x, In x l0 -> 0 <= fst x < 2 ^ 56 /\ 0 <= snd x < 2 ^ 56) -> ci_inv s G ->
    exists G', ci_inv (fold_left (ci_append th) l0 s) G' /\ pairs G' = pairs G ++ l0).
  { induction l0 as [|x l0 IH]; intros s G Hx HI; cbn [fold_left].
    - exists G. rewrite app_nil_r. auto.
    - destruct (ci_append_inv th s G x HI) as (G1 & H1 & H2); try apply Hx; try now left.
      destruct (IH _ G1 (fun y Hy => Hx y (or_intror Hy)) H1) as (G2 & H3 & H4).
      exists G2. split; auto. rewrite H4, H2, <- app_assoc. reflexivity. }
  destruct (H l ci_start [] Hl) as (G & HI & HP).
  { unfold ci_inv. cbn. repeat (split; auto); try lia. intros l1 a b l2 E. destruct l1; discriminate. }
  clear H. cbn [pairs flat_map app] in HP. fold (pairs G) in HP.
  set (s := fold_left (ci_append th) l ci_start) in *. clearbody s.
  assert (Htot := ci_total_inv _ _ HI).
  assert (Hsl : zlen (seconds G) = zlen l).
  { rewrite <- HP. clear. induction G as [|g G IH]; cbn [seconds pairs flat_map]; auto.
    rewrite !app_length, map_length. unfold seconds, pairs in IH. lia. }
  destruct HI as (I1 & I2 & I3 & I4 & I5 & I6 & I7 & I8 & I9 & I10 & I11 & I12 & I13 & I14).
  assert (HGl : forall g, In g G -> 0 <= fst g < 2 ^ 56 /\ forall v, In v (snd g) -> 0 <= v < 2 ^ 56).
  { intros g Hg. rewrite Forall_forall in I3. specialize (I3 g Hg).
    assert (Hin : forall v, In v (snd g) -> In (fst g, v) l).
    { intros v Hv. rewrite <- HP. apply in_flat_map. exists g. split; auto. now apply in_map. }
    split.
    - destruct (snd g) as [|v vs]; [congruence|]. now apply (Hl (fst g, v)), Hin; left.
    - intros v Hv. now apply (Hl (fst g, v)), Hin. }
  assert (Hsec : forall v, In v (seconds G) -> 0 <= v < 2 ^ 56).
  { intros v Hv. apply in_flat_map in Hv as (g & Hg & Hv). now apply (HGl g Hg). }
  assert (HL1 : 0 <= ci_l1 s < 2 ^ 56).
  { split; auto. assert (ci_l1 s <= 2 ^ 56 - 1); [|lia]. apply I13; [lia|].
    apply Forall_forall. intros g Hg. specialize (HGl g Hg). lia. }
  assert (HL2 : 0 <= ci_l2 s < 2 ^ 56).
  { split; auto. assert (ci_l2 s <= 2 ^ 56 - 1); [|lia]. apply I14; [lia|].
    apply Forall_forall. intros g Hg. specialize (Hsec g Hg). lia. }
  unfold ci_stop. cbv zeta. rewrite Htot.
  set (lg := if ci_lg s <? zlen (seconds G) - ci_prevtot s then zlen (seconds G) - ci_prevtot s else ci_lg s).
  assert (Hlg : 0 <= lg <= zlen (seconds G)) by (unfold lg; match goal with |- context [ci_lg s <? ?x] => destruct (Z.ltb_spec (ci_lg s) x) end; lia).
  assert (Hlgm : Forall (fun g => zlen (snd g) <= lg) G).
  { clear - I6 I7. unfold lg. destruct G as [|[a ws] G _] using rev_ind; [constructor|].
    rewrite removelast_last in *. rewrite seconds_app, app_length, I6, seconds_1. apply Forall_app. split; [|constructor; auto; cbn [snd]; match goal with |- context [ci_lg s <? ?x] => destruct (Z.ltb_spec (ci_lg s) x) end; lia].
    eapply Forall_impl; [|exact I7]. cbn. intros x Hx. match goal with |- context [ci_lg s <? ?x] => destruct (Z.ltb_spec (ci_lg s) x) end; lia. }
  clearbody lg.
  exists (nbytes (ci_l1 s)), (nbytes (ci_l2 s)), (nbytes lg), (nbytes (zlen (seconds G))), G.
  destruct (nbytes_fits (ci_l1 s) HL1) as [_ W1]. destruct (nbytes_fits (ci_l2 s) HL2) as [_ W2].
  destruct (nbytes_fits lg ltac:(lia)) as [_ W3]. destruct (nbytes_fits (zlen (seconds G)) ltac:(lia)) as [FO W4].
  split; auto. split; auto.
  - exists (enc_vlong2 (zlen G)), (enc_vlong2 (zlen (seconds G))).
    assert (HGs : zlen G <= zlen (seconds G)).
    { clear - I3. induction I3 as [|g G Hg Hn IH]; [reflexivity|]. cbn [length seconds flat_map].
      rewrite app_length. unfold seconds in IH. destruct (snd g); [congruence|]. cbn [length]. lia. }
    split; [|split; intros ? ? Hv; apply vlong2_ok; auto; lia].
    f_equal; [f_equal; [|f_equal]; lia|].
    f_equal; [f_equal|].
    { transitivity (Z.of_nat (length (ci_off1 s ++ ci_first s))); [rewrite app_length; lia|].
      now rewrite I1, starts_length. }
    f_equal. rewrite <- flat_map_app, I2. rewrite !app_assoc. f_equal.
    rewrite <- (dump1mem_ents _ _ _ G 0 (zlen (seconds G))) by lia. rewrite <- I1.
    destruct (ci_off1 s) as [|[a t] off] eqn:Eo; [reflexivity|].
    assert (Hk : forall x, In x ((a, t) :: off ++ ci_first s) -> fst x <> -1).
    { cbn [app] in I1. rewrite I1. clear - HGl. intros x Hx.
      assert (exists g, In g G /\ fst x = fst g) as (g & Hg & ->).
      { revert Hx. generalize 0. clear. induction G as [|g G IH]; intros o Hx; [contradiction|].
        destruct Hx as [<- |Hx]; [exists g; cbn; auto|]. destruct (IH _ Hx) as (g' & Hg' & ?). exists g'. cbn; auto. }
      specialize (HGl g Hg). lia. }
    cbn [ci_dump1]. change (negb (-1 =? -1)) with false. cbv iota. cbn [app].
    rewrite <- (dump1_mem _ _ _ _ (ci_first s) off a t).
    + destruct (ci_dump1 _ _ _ a t off) as [[out pk] ps]. cbn [app]. reflexivity.
    + apply (Hk (a, t)). now left.
    + intros x Hx. apply Hk. right. apply in_or_app. now left.
  - rewrite Forall_forall in *. intros g Hg. apply nbytes_mono_fits; [|lia]. specialize (HGl g Hg). specialize (I8 g Hg). lia.
  - rewrite Forall_forall in *. intros g Hg. apply nbytes_mono_fits; [|lia]. specialize (Hlgm g Hg). cbn in Hlgm. lia.
  - rewrite Forall_forall in *. intros v Hv. apply nbytes_mono_fits; [|lia]. specialize (Hsec v Hv). specialize (I9 v Hv). lia.
Qed.

(** ** The reader *)
Lemma filter_sub {A} (p q : A -> bool) l : (forall x, In x l -> p x = true -> q x = true) ->
  filter p l = filter p (filter q l).
Proof.
  induction l as [|a l IH]; intros H; cbn [filter]; auto.
  rewrite IH by (intros x Hx; apply H; now right).
  destruct (q a) eqn:E; cbn [filter]; auto.
  destruct (p a) eqn:E2; auto. rewrite (H a) in E; auto; [discriminate|now left].
Qed.

Lemma match2_head c1 c2 l : StronglySorted plt l -> 0 <= c1 -> 0 <= c2 ->
  filter (pair_matches c1 c2) l =
  match filter (fun e => negb (pair_lt e c1 c2)) l with
  | (v1, v2) :: _ => if (v1 =? c1) && (v2 =? c2) then [(c1, c2)] else []
  | [] => []
  end.
Proof.
  intros Hs H1 H2. rewrite (filter_sub _ (fun e => negb (pair_lt e c1 c2))).
  2:{ intros x _. unfold pair_matches, pair_lt. lia. }
  assert (Hs2 := SS_filter plt (fun e => negb (pair_lt e c1 c2)) l Hs).
  destruct (filter (fun e => negb (pair_lt e c1 c2)) l) as [|[v1 v2] t] eqn:E; auto.
  assert (Hge : pair_lt (v1, v2) c1 c2 = false).
  { assert (Hi : In (v1, v2) (filter (fun e => negb (pair_lt e c1 c2)) l)) by (rewrite E; now left).
    apply filter_In in Hi as [_ Hi]. now destruct (pair_lt (v1, v2) c1 c2). }
  inversion Hs2 as [|? ? _ Hf]; subst. cbn [filter].
  rewrite filter_false.
  2:{ eapply Forall_impl; [|exact Hf]. intros [w1 w2] Hw. unfold plt, pair_lt, pair_matches in *. cbn [fst snd] in *. lia. }
  unfold pair_matches. cbn [fst snd].
  replace (c1 =? -1) with false by lia. replace (c2 =? -1) with false by lia. cbn [orb].
  destruct ((v1 =? c1) && (v2 =? c2)) eqn:Eq; auto. f_equal. f_equal; lia.
Qed.

Section Column.
Variables (b1 b2 bc bo : nat) (m : mem).
Hypothesis B1 : (1 <= b1)%nat.
Hypothesis B2 : (1 <= b2)%nat.
Hypothesis BC : (1 <= bc)%nat.
Let z1 := Z.of_nat b1.
Let z2 := Z.of_nat b2.
Let zc := Z.of_nat bc.
Let zo := Z.of_nat bo.
Let bfb := z1 + zc + zo.

Definition ufits (w : nat) (v : Z) : Prop := 0 <= v < 2 ^ (8 * Z.of_nat w).

(** Entries of groups G, whose second values start at index off, are found at p. *)
Definition ehere (p off : Z) (G : list (Z * list Z)) : Prop :=
  contains m p (ents b1 bc bo off G) /\
  Forall (fun g => snd g <> [] /\ ufits b1 (fst g) /\ ufits bc (zlen (snd g))) G /\
  0 <= off /\ ufits bo (off + zlen (seconds G)).
(** Second values vs are found at p. *)
Definition vhere (p : Z) (vs : list Z) : Prop :=
  contains m p (flat_map (enc b2) vs) /\ Forall (ufits b2) vs.

Definition col_ok (G : list (Z * list Z)) : Prop :=
  StronglySorted glt G /\ Forall (fun g => StronglySorted Z.lt (snd g)) G.

Lemma ents_length G : forall off, zlen (ents b1 bc bo off G) = bfb * zlen G.
Proof.
  induction G as [|g G IH]; intros off; cbn [ents length]; [lia|].
  unfold col_entry. specialize (IH (off + zlen (snd g))). rewrite !app_length, !enc_length in *. unfold bfb, z1, zc, zo in *. lia.
Qed.

Lemma bfb_pos : 0 < bfb. Proof. unfold bfb, z1, zc, zo. lia. Qed.
Lemma z2_pos : 0 < z2. Proof. unfold z2. lia. Qed.

Lemma ehere_cons p off g G : ehere p off (g :: G) ->
  rdn b1 m p = Some (fst g) /\ rdn bc m (p + z1) = Some (zlen (snd g)) /\
  rdn bo m (p + z1 + zc) = Some off /\ ehere (p + bfb) (off + zlen (snd g)) G /\ snd g <> [] /\ 0 <= fst g.
Proof.
  intros (H & Hf & Ho & Hu). inversion Hf as [|? ? (N & F1 & F2) Hf2]; subst.
  cbn [ents] in H. unfold col_entry in H. cbn [seconds flat_map] in Hu. rewrite app_length in Hu.
  rewrite <- !app_assoc in H.
  apply contains_app in H as [H1 H]. rewrite enc_length in H.
  apply contains_app in H as [H2 H]. rewrite enc_length in H.
  apply contains_app in H as [H3 H4]. rewrite enc_length in H4. unfold ufits, seconds in *.
  split; [now apply rdn_enc|]. split; [now apply rdn_enc|].
  split; [apply rdn_enc; auto; lia|]. split; [|split; [auto|lia]].
  split; [|split; [auto|split; [lia|]]].
  - unfold bfb. replace (p + (z1 + zc + zo)) with (p + z1 + zc + zo) by lia. exact H4.
  - unfold ufits, seconds. lia.
Qed.

Lemma ehere_app p off G1 G2 : ehere p off (G1 ++ G2) ->
  ehere (p + bfb * zlen G1) (off + zlen (seconds G1)) G2.
Proof.
  revert p off. induction G1 as [|g G1 IH]; intros p off H; cbn [app] in H.
  - cbn [length seconds flat_map]. change (Z.of_nat 0) with 0. now rewrite Z.mul_0_r, !Z.add_0_r.
  - apply ehere_cons in H as (_ & _ & _ & H & _). apply IH in H.
    replace (p + bfb * zlen (g :: G1)) with (p + bfb + bfb * zlen G1) by (cbn [length]; lia).
    replace (off + zlen (seconds (g :: G1))) with (off + zlen (snd g) + zlen (seconds G1)); auto.
    cbn [seconds flat_map]. rewrite app_length. unfold seconds. lia.
Qed.

Lemma ehere_first p off g G : ehere p off (g :: G) -> ehere p off [g].
Proof.
  intros (H & Hf & Ho & Hu). cbn [ents] in H.
  assert (H' : contains m p (ents b1 bc bo off [g])).
  { cbn [ents]. rewrite app_nil_r. now apply contains_app in H. }
  split; [exact H'|]. split; [constructor; [now inversion Hf|constructor]|]. split; auto.
  unfold ufits in *. cbn [seconds flat_map] in *. rewrite app_length in *. cbn [length]. lia.
Qed.

Lemma ehere_bound p off G : ehere p off G -> 0 <= p /\ p + bfb * zlen G <= zlen m.
Proof. intros (H & _). apply contains_bound in H. now rewrite ents_length in H. Qed.

Lemma vs_len vs : zlen (flat_map (enc b2) vs) = z2 * zlen vs.
Proof.
  induction vs as [|v vs IH]; cbn [flat_map length]; [lia|]. rewrite app_length, enc_length. unfold z2 in *. nia.
Qed.

Lemma vhere_cons p v vs : vhere p (v :: vs) -> rdn b2 m p = Some v /\ vhere (p + z2) vs /\ 0 <= v.
Proof.
  intros (H & Hf). inversion Hf as [|? ? F1 F2]; subst. cbn [flat_map] in H.
  apply contains_app in H as [H1 H2]. rewrite enc_length in H2. unfold ufits in F1.
  split; [now apply rdn_enc|]. split; [split; auto|lia].
Qed.

Lemma vhere_app p vs ws : vhere p (vs ++ ws) -> vhere p vs /\ vhere (p + z2 * zlen vs) ws.
Proof.
  intros (H & Hf). rewrite flat_map_app in H. apply contains_app in H as [H1 H2]. rewrite vs_len in H2.
  apply Forall_app in Hf as [F1 F2]. repeat split; auto.
Qed.

Lemma vhere_bound p vs : vhere p vs -> 0 <= p /\ p + z2 * zlen vs <= zlen m.
Proof. intros (H & _). apply contains_bound in H. now rewrite vs_len in H. Qed.

(** *** Binary search over a column of fields *)
Lemma col_bsearch_ok w stride p (vals : list Z) c : 0 < stride -> StronglySorted Z.lt vals ->
  (forall i, 0 <= i < zlen vals -> rdn w m (p + i * stride) = Some (nth (Z.to_nat i) vals 0)) ->
  forall fuel lo hi, 0 <= lo <= hi -> hi <= zlen vals -> hi - lo < Z.of_nat fuel ->
  (forall i, (i < Z.to_nat lo)%nat -> nth i vals 0 < c) ->
  (forall i, (Z.to_nat hi <= i < length vals)%nat -> c < nth i vals 0) ->
  exists s r, col_bsearch fuel w stride m (p + lo * stride) (p + hi * stride) c = Some (s, r) /\
    match r with
    | Some q => q = p + zlen (takewhile (fun v => v <? c) vals) * stride /\ In c vals
    | None => s = p + zlen (takewhile (fun v => v <? c) vals) * stride /\ ~ In c vals
    end.
Proof.
  intros Hst Hs Hrd. induction fuel as [|fuel IH]; intros lo hi Hlo Hhi Hf L1 L2; [lia|].
  cbn [col_bsearch]. destruct (Z.ltb_spec (p + lo * stride) (p + hi * stride)) as [E|E].
  - assert (Hlt : lo < hi) by nia.
    replace (Z.quot (p + hi * stride - (p + lo * stride)) stride) with (hi - lo).
    2:{ replace (p + hi * stride - (p + lo * stride)) with ((hi - lo) * stride) by lia. rewrite Z.quot_mul; lia. }
    rewrite Z.quot_div_nonneg by lia.
    set (mid := lo + (hi - lo) / 2).
    replace (p + lo * stride + (hi - lo) / 2 * stride) with (p + mid * stride) by (unfold mid; lia).
    assert (Hmid : lo <= mid < hi) by (unfold mid; lia).
    rewrite (Hrd mid) by lia.
    destruct (nth (Z.to_nat mid) vals 0 <? c) eqn:E1; [|destruct (c <? nth (Z.to_nat mid) vals 0) eqn:E2].
    + replace (p + mid * stride + stride) with (p + (mid + 1) * stride) by lia. apply IH; try lia; auto.
      intros i Hi. destruct (Nat.eq_dec i (Z.to_nat mid)) as [->|Hne]; [lia|].
      pose proof (Zsorted_nth vals i (Z.to_nat mid) Hs ltac:(lia)). lia.
    + apply IH; try lia; auto.
      intros i Hi. destruct (Nat.eq_dec i (Z.to_nat mid)) as [->|Hne]; [lia|].
      pose proof (Zsorted_nth vals (Z.to_nat mid) i Hs ltac:(lia)). lia.
    + do 2 eexists. split; [reflexivity|]. cbv beta iota.
      assert (He : nth (Z.to_nat mid) vals 0 = c) by lia.
      split.
      * rewrite (tw_count vals c (Z.to_nat mid)); auto; try lia.
        -- intros i Hi. pose proof (Zsorted_nth vals i (Z.to_nat mid) Hs ltac:(lia)). lia.
        -- intros i Hi. destruct (Nat.eq_dec i (Z.to_nat mid)) as [->|Hne]; [lia|].
           pose proof (Zsorted_nth vals (Z.to_nat mid) i Hs ltac:(lia)). lia.
      * rewrite <- He. apply nth_In. lia.
  - assert (lo = hi) by nia. subst hi.
    do 2 eexists. split; [reflexivity|]. cbv beta iota. split.
    + rewrite (tw_count vals c (Z.to_nat lo)); auto; try lia.
      intros i Hi. specialize (L2 i Hi). lia.
    + intros Hin. apply (In_nth _ _ 0) in Hin as (n & Hn & Hv).
      destruct (Nat.lt_ge_cases n (Z.to_nat lo)) as [Hl|Hl]; [specialize (L1 n Hl)|specialize (L2 n (conj Hl Hn))]; lia.
Qed.

Lemma vhere_nth p vs i : vhere p vs -> 0 <= i < zlen vs -> rdn b2 m (p + i * z2) = Some (nth (Z.to_nat i) vs 0).
Proof.
  intros H Hi. rewrite <- (Z2Nat.id i) by lia. rewrite Nat2Z.id.
  assert (Hi' : (Z.to_nat i < length vs)%nat) by lia. clear Hi. revert Hi'.
  generalize (Z.to_nat i). clear i. intros i. revert p vs H.
  induction i as [|i IH]; intros p [|v vs] H Hi; cbn [length] in Hi; try lia.
  - apply vhere_cons in H as (H & _). change (Z.of_nat 0) with 0. now rewrite Z.mul_0_l, Z.add_0_r.
  - apply vhere_cons in H as (_ & H & _). cbn [nth]. rewrite <- (IH _ _ H) by lia. f_equal. lia.
Qed.

Lemma ehere_nth p off G i : ehere p off G -> 0 <= i < zlen (map fst G) ->
  rdn b1 m (p + i * bfb) = Some (nth (Z.to_nat i) (map fst G) 0).
Proof.
  intros H Hi. rewrite <- (Z2Nat.id i) by lia. rewrite Nat2Z.id.
  assert (Hi' : (Z.to_nat i < length (map fst G))%nat) by lia. clear Hi. revert Hi'.
  generalize (Z.to_nat i). clear i. intros i. revert p off G H.
  induction i as [|i IH]; intros p off [|g G] H Hi; cbn [length map] in Hi; try lia.
  - apply ehere_cons in H as (H & _). change (Z.of_nat 0) with 0. now rewrite Z.mul_0_l, Z.add_0_r.
  - apply ehere_cons in H as (_ & _ & _ & H & _). cbn [nth map]. rewrite <- (IH _ _ _ H) by lia. f_equal. lia.
Qed.

Lemma SS_fst G : StronglySorted glt G -> StronglySorted Z.lt (map fst G).
Proof.
  induction 1 as [|g G Hs IH Hf]; constructor; auto.
  apply Forall_forall. intros x Hx. apply in_map_iff in Hx as (g' & <- & Hg). rewrite Forall_forall in Hf. now apply Hf.
Qed.

Lemma vsearch p vs c : vhere p vs -> StronglySorted Z.lt vs ->
  exists s r, col_bsearch (FU m) b2 z2 m p (p + z2 * zlen vs) c = Some (s, r) /\
    let q := p + z2 * zlen (takewhile (fun v => v <? c) vs) in
    match r with Some q' => q' = q /\ In c vs | None => s = q /\ ~ In c vs end.
Proof.
  intros H Hs. pose proof (vhere_bound _ _ H). pose proof z2_pos.
  destruct (col_bsearch_ok b2 z2 p vs c z2_pos Hs (fun i Hi => vhere_nth p vs i H Hi) (FU m) 0 (zlen vs))
    as (s & r & E & Hr); try lia; [unfold FU; nia|].
  replace (p + 0 * z2) with p in E by lia. replace (p + zlen vs * z2) with (p + z2 * zlen vs) in E by lia.
  exists s, r. split; auto. cbv zeta. rewrite (Z.mul_comm z2). exact Hr.
Qed.

Definition tw1 (c : Z) (G : list (Z * list Z)) := takewhile (fun g => fst g <? c) G.

Lemma esearch p off G c : ehere p off G -> StronglySorted glt G ->
  exists s r, col_bsearch (FU m) b1 bfb m p (p + bfb * zlen G) c = Some (s, r) /\
    let q := p + bfb * zlen (tw1 c G) in
    match r with Some q' => q' = q /\ In c (map fst G) | None => s = q /\ ~ In c (map fst G) end.
Proof.
  intros H Hs. pose proof (ehere_bound _ _ _ H). pose proof bfb_pos.
  destruct (col_bsearch_ok b1 bfb p (map fst G) c bfb_pos (SS_fst _ Hs) (fun i Hi => ehere_nth p off G i H Hi)
    (FU m) 0 (zlen G)) as (s & r & E & Hr); rewrite ?map_length; try lia; [unfold FU; nia|].
  replace (p + 0 * bfb) with p in E by lia. replace (p + zlen G * bfb) with (p + bfb * zlen G) in E by lia.
  assert (Ht : length (takewhile (fun v => v <? c) (map fst G)) = length (tw1 c G)).
  { unfold tw1. clear. induction G as [|g G IH]; cbn; auto. destruct (fst g <? c); cbn; auto. }
  rewrite Ht in Hr. exists s, r. split; auto. cbv zeta. rewrite (Z.mul_comm bfb). exact Hr.
Qed.

(** *** Unfolding the object *)
Lemma col_obj_hasNext s : hasNext (col_obj s) = Some (col_hasNext s, col_obj s). Proof. reflexivity. Qed.
Lemma col_obj_next s : next (col_obj s) = match col_next s with Some s' => Some (col_obj s') | None => None end.
Proof. reflexivity. Qed.
Lemma col_obj_cur s : cur (col_obj s) = (d_key s, d_v1 s, d_v2 s). Proof. reflexivity. Qed.
Lemma col_obj_value1 s : value1 (col_obj s) = d_v1 s. Proof. reflexivity. Qed.
Lemma col_obj_key s : key (col_obj s) = d_key s. Proof. reflexivity. Qed.
Lemma col_obj_count s : getCount (col_obj s) = Some (col_getCount s, col_obj s). Proof. reflexivity. Qed.
Lemma col_obj_moveto s a b : moveto (col_obj s) a b =
  match col_moveto s a b with Some s' => Some (col_obj s') | None => None end.
Proof. reflexivity. Qed.
Lemma col_obj_ignore s : ignoreSecondColumn (col_obj s) = Some (col_obj (col_ignore s)). Proof. reflexivity. Qed.

Lemma tw1_dw c G : G = tw1 c G ++ gfilter c G.
Proof. symmetry. apply tw_dw. Qed.

Lemma gfilter_ehere c p off G : ehere p off G ->
  ehere (p + bfb * zlen (tw1 c G)) (off + zlen (seconds (tw1 c G))) (gfilter c G) /\
  zlen G = zlen (tw1 c G) + zlen (gfilter c G).
Proof.
  intros H. split.
  - apply ehere_app. now rewrite <- tw1_dw.
  - rewrite (tw1_dw c G) at 1. rewrite app_length. lia.
Qed.

Lemma gfilter_in c G : StronglySorted glt G ->
  match gfilter c G with
  | [] => ~ In c (map fst G)
  | g :: _ => c <= fst g /\ (In c (map fst G) <-> fst g = c)
  end.
Proof.
  intros Hs. assert (H : In c (map fst G) <-> In c (map fst (gfilter c G))).
  { rewrite (tw1_dw c G) at 1. rewrite map_app, in_app_iff. split; [|tauto]. intros [H|H]; auto.
    apply in_map_iff in H as (g & Hg & Hin). pose proof (tw_all (fun g => fst g <? c) G) as Ht.
    rewrite Forall_forall in Ht. specialize (Ht g Hin). cbn in Ht. lia. }
  destruct (gfilter c G) as [|g G1] eqn:E; [rewrite H; auto|].
  assert (Hg : c <= fst g) by (apply dw_head in E; lia). split; auto. rewrite H. cbn [map In].
  split; [|auto]. intros [Hx|Hx]; auto. apply in_map_iff in Hx as (g' & Hg' & Hin).
  assert (Hs2 : StronglySorted glt (g :: G1)) by (rewrite <- E; now apply gfilter_sorted).
  inversion Hs2 as [|? ? _ Hf]; subst. rewrite Forall_forall in Hf. specialize (Hf g' Hin). unfold glt in Hf. lia.
Qed.

(** *** Cursor without the second column *)
Definition col_over (k sp2 e : Z) (ign : bool) (s : col_st) : Prop :=
  d_b1 s = b1 /\ d_b2 s = b2 /\ d_bc s = bc /\ d_bo s = bo /\ d_mem s = m /\ d_key s = k /\
  d_end s = e /\ d_sp2 s = sp2 /\ d_ign s = ign.

Definition col_gpos (sp2 cp1 : Z) (G : list (Z * list Z)) : Prop :=
  exists off, ehere cp1 off G /\ sp2 = cp1 + bfb * zlen G /\ StronglySorted glt G.

Definition col_gS (k sp2 e : Z) (c : option (Z * Z)) (mk : option (list (Z * Z))) (l : list (Z * Z))
  (o : pitr) : Prop :=
  exists s G, o = col_obj s /\ l = map gcount G /\ col_over k sp2 e true s /\ col_gpos sp2 (d_cp1 s) G /\
    (forall x, c = Some x -> exists ws, x = (d_v1 s, zlen ws) /\ d_cc s = zlen ws /\
       col_gpos sp2 (d_cp1 s - bfb) ((d_v1 s, ws) :: G)) /\
    (forall l', mk = Some l' -> exists G', l' = map gcount G' /\
       col_gpos sp2 (let '(_, cp1, _, _, _, _, _) := d_saved s in cp1) G').

Lemma col_gsim k sp2 e : gcursor_sim k true (col_gS k sp2 e).
Proof.
  pose proof bfb_pos as Hbp.
  intros c mk l o (s & G & -> & -> & Ho & HG & Hc & Hm).
  assert (Hself : col_gS k sp2 e c mk (map gcount G) (col_obj s)) by (exists s, G; auto 8).
  assert (Ho' := Ho). destruct Ho' as (E1 & E2 & E3 & E4 & E5 & E6 & E7 & E8 & E9).
  assert (HG' := HG). destruct HG' as (off & Hh & He & Hs).
  assert (Hn : col_hasNext s = nonempty (map gcount G)).
  { unfold col_hasNext. rewrite E9, E8, He. cbn [negb andb]. rewrite orb_false_r.
    destruct G as [|g G]; cbn [map nonempty length].
    - change (Z.of_nat 0) with 0. rewrite Z.mul_0_r. apply Z.ltb_ge. lia.
    - apply Z.ltb_lt. nia. }
  assert (Hfin : forall v1 v2 cc sc sb2 cp1 cp2 G', col_gpos sp2 cp1 G' ->
    col_gS k sp2 e None mk (map gcount G') (col_obj (col_set s v1 v2 cc sc sb2 cp1 cp2))).
  { intros v1 v2 cc sc sb2 cp1 cp2 G' H. eexists _, G'. split; [reflexivity|]. split; [reflexivity|].
    split; [exact Ho|]. split; [exact H|]. split; [discriminate|exact Hm]. }
  split; [|split; [|split; [|split]]].
  - rewrite col_obj_hasNext, Hn. split; auto.
    destruct G as [|[a ws] G]; [exact I|]. cbn [map].
    destruct (ehere_cons _ _ _ _ Hh) as (R1 & R2 & _ & Hv & _ & _). cbn [fst snd] in *.
    rewrite col_obj_next. unfold col_next. rewrite E9, E1, E3, E4, E5. cbn [orb negb]. fold z1 zc zo. rewrite R1, R2.
    eexists; split; [reflexivity|]. rewrite col_obj_key, col_obj_value1.
    split; [exact E6|]. split; [reflexivity|].
    eexists _, G. split; [reflexivity|]. split; [reflexivity|]. split; [exact Ho|].
    cbn [col_set d_cp1 d_v1 d_cc d_saved].
    split; [|split; [|exact Hm]].
    + exists (off + zlen ws). replace (d_cp1 s + z1 + (zc + zo)) with (d_cp1 s + bfb) by (unfold bfb; lia).
      split; auto. split; [rewrite He; cbn [length]; lia|]. now apply SS_tail in Hs.
    + intros x [= <-]. exists ws. unfold gcount. cbn [fst snd].
      replace (d_cp1 s + z1 + (zc + zo) - bfb) with (d_cp1 s) by (unfold bfb; lia). auto.
  - rewrite col_obj_count. unfold col_getCount. rewrite E9. eexists; split; [reflexivity|].
    intros x Hx. destruct (Hc x Hx) as (ws & -> & Hcg & _). exact Hcg.
  - intros x c1 c2 Hx Hc1 _. destruct (Hc x Hx) as (ws & -> & Hcg & Hp). cbn [fst snd].
    assert (Hs' : StronglySorted glt ((d_v1 s, ws) :: G)) by (destruct Hp as (? & _ & _ & Hp); exact Hp).
    change ((d_v1 s, zlen ws) :: map gcount G) with (map gcount ((d_v1 s, ws) :: G)).
    rewrite <- gfilter_map by auto. unfold gfilter. cbn [dropwhile fst]. fold (gfilter c1 G).
    rewrite col_obj_moveto. unfold col_moveto, col_moveto1, d_bfb. rewrite Hn, E9. cbn [negb andb orb]. rewrite !orb_false_r.
    destruct (d_v1 s <? c1) eqn:Ev.
    + destruct (nonempty (map gcount G)) eqn:En; cbn [negb andb].
      * destruct (esearch _ _ _ c1 Hh Hs) as (q & r & Eq & Hr).
        replace (u64 c1) with c1 by (unfold u64, int64 in *; rewrite Z.mod_small; lia).
        rewrite <- He in Eq. rewrite E1, E3, E4, E5, E8. fold z1 zc zo. fold bfb. rewrite Eq.
        destruct (gfilter_ehere c1 _ _ _ Hh) as [Hh2 Hl].
        assert (Hgp : col_gpos sp2 (d_cp1 s + bfb * zlen (tw1 c1 G)) (gfilter c1 G)).
        { exists (off + zlen (seconds (tw1 c1 G))). split; auto. split; [lia|]. now apply gfilter_sorted. }
        pose proof (gfilter_in c1 G Hs) as Hin.
        destruct r as [mid|]; cbv zeta in Hr.
        -- destruct Hr as [-> Hin2].
           destruct (gfilter c1 G) as [|g G1] eqn:EG; [contradiction|].
           destruct (ehere_cons _ _ _ _ Hh2) as (_ & _ & R3 & _). rewrite R3.
           eexists; split; [reflexivity|]. apply Hfin. exact Hgp.
        -- destruct Hr as [-> _].
           destruct (Z.leb_spec sp2 (d_cp1 s + bfb * zlen (tw1 c1 G))) as [Hle|Hle].
           ++ assert (Hz : zlen (gfilter c1 G) = 0) by nia.
              destruct (gfilter c1 G) as [|g G1] eqn:EG; [|cbn [length] in Hz; lia].
              eexists; split; [reflexivity|]. apply Hfin.
              replace sp2 with (d_cp1 s + bfb * zlen (tw1 c1 G)) at 2; [exact Hgp|].
              cbn [length] in Hl. lia.
           ++ destruct (gfilter c1 G) as [|g G1] eqn:EG; [cbn [length] in Hl; lia|].
              destruct (ehere_cons _ _ _ _ Hh2) as (_ & _ & R3 & _). rewrite R3.
              eexists; split; [reflexivity|]. apply Hfin. exact Hgp.
      * eexists; split; [reflexivity|]. destruct G; [|discriminate].
        exists s, []. do 4 (split; auto). split; [discriminate|exact Hm].
    + rewrite andb_false_r. eexists; split; [reflexivity|]. apply Hfin.
      rewrite E1, E3, E4. exact Hp.
  - exists (col_obj (col_mark s)). split; [reflexivity|]. exists (col_mark s), G.
    split; auto. split; auto. split; [exact Ho|]. split; [exact HG|]. split; [exact Hc|].
    intros l' [= <-]. exists G. split; auto.
  - intros l' i Hl'. destruct (Hm l' Hl') as (G' & -> & HG').
    exists (col_obj (col_reset s)). split; [reflexivity|]. unfold col_reset in *.
    destruct (d_saved s) as [[[[[[a b] c'] d] f] g] h] eqn:Es.
    apply Hfin. exact HG'.
Qed.

(** *** Cursor over the pairs *)
Definition col_pos (sp2 e cp1 cp2 v1 cc sc sb2 : Z) (vs : list Z) (G : list (Z * list Z)) : Prop :=
  exists off, ehere cp1 off G /\ sp2 = cp1 + bfb * zlen G /\
  vhere cp2 (vs ++ seconds G) /\ e = cp2 + z2 * zlen (vs ++ seconds G) /\
  sp2 + off * z2 = cp2 + z2 * zlen vs /\
  (vs <> [] \/ G <> [] -> cc - sc = zlen vs) /\
  (vs <> [] -> 0 <= v1 /\ sb2 + cc * z2 = cp2 + z2 * zlen vs /\ rdn bc m (cp1 - bfb + z1) = Some cc) /\
  StronglySorted Z.lt vs /\ col_ok G /\ Forall (fun g => v1 < fst g) G.

Definition col_S (k sp2 e : Z) (c : option (Z * Z)) (mk : option (list (Z * Z))) (l : list (Z * Z))
  (o : pitr) : Prop :=
  exists s vs G, o = col_obj s /\ l = rest (d_v1 s) vs G /\ col_over k sp2 e false s /\
    col_pos sp2 e (d_cp1 s) (d_cp2 s) (d_v1 s) (d_cc s) (d_sc s) (d_sb2 s) vs G /\
    (forall x, c = Some x -> x = (d_v1 s, d_v2 s) /\
       col_pos sp2 e (d_cp1 s) (d_cp2 s - z2) (d_v1 s) (d_cc s) (d_sc s - 1) (d_sb2 s) (d_v2 s :: vs) G) /\
    (forall l', mk = Some l' -> exists vs' G',
       let '(v1, cp1, cc, sc, sb2, _, cp2) := d_saved s in
       l' = rest v1 vs' G' /\ col_pos sp2 e cp1 cp2 v1 cc sc sb2 vs' G').

Lemma rest_nonempty' v1 vs G : Forall (fun g => snd g <> []) G ->
  nonempty (rest v1 vs G) = nonempty vs || nonempty G.
Proof.
  intros H. unfold rest. destruct vs; cbn [map app nonempty orb]; auto.
  destruct G as [|[a [|v vs]] G]; auto. inversion H; subst. now cbn in *.
Qed.

Lemma ehere_ne p off G : ehere p off G -> Forall (fun g => snd g <> []) G.
Proof. intros (_ & H & _). eapply Forall_impl; [|exact H]. intros g Hg. apply Hg. Qed.

Lemma col_hasNext_ok k sp2 e s vs G v1 : col_over k sp2 e false s ->
  col_pos sp2 e (d_cp1 s) (d_cp2 s) v1 (d_cc s) (d_sc s) (d_sb2 s) vs G ->
  col_hasNext s = nonempty (rest (d_v1 s) vs G).
Proof.
  pose proof bfb_pos. pose proof z2_pos.
  intros (_ & _ & _ & _ & _ & _ & E7 & E8 & E9) (off & Hh & He & Hv & Hend & _).
  unfold col_hasNext. rewrite (rest_nonempty' _ _ _ (ehere_ne _ _ _ Hh)), E7, E8, E9. cbn [negb andb].
  rewrite app_length in Hend.
  destruct G as [|g G]; cbn [nonempty length seconds flat_map] in *.
  - change (Z.of_nat 0) with 0 in *. rewrite Z.mul_0_r in He. rewrite Nat.add_0_r in Hend.
    replace (d_cp1 s <? sp2) with false by (symmetry; apply Z.ltb_ge; lia). rewrite orb_false_r. cbn [orb].
    destruct vs; cbn [nonempty length] in *.
    + apply Z.ltb_ge. lia.
    + apply Z.ltb_lt. nia.
  - rewrite orb_true_r. replace (d_cp1 s <? sp2) with true by (symmetry; apply Z.ltb_lt; nia). reflexivity.
Qed.

Lemma col_next_ok k sp2 e s vs G : col_over k sp2 e false s ->
  col_pos sp2 e (d_cp1 s) (d_cp2 s) (d_v1 s) (d_cc s) (d_sc s) (d_sb2 s) vs G ->
  match rest (d_v1 s) vs G with
  | [] => True
  | x :: l' => exists v1 v2 cc sc sb2 cp1 cp2 vs' G',
      col_next s = Some (col_set s v1 v2 cc sc sb2 cp1 cp2) /\ x = (v1, v2) /\ l' = rest v1 vs' G' /\
      (vs <> [] -> v1 = d_v1 s /\ vs = v2 :: vs' /\ G' = G) /\ (vs = [] -> G = (v1, v2 :: vs') :: G') /\
      (vs = [] -> cp1 = d_cp1 s + bfb /\ sb2 = d_cp2 s) /\
      col_pos sp2 e cp1 cp2 v1 cc sc sb2 vs' G' /\
      col_pos sp2 e cp1 (cp2 - z2) v1 cc (sc - 1) sb2 (v2 :: vs') G'
  end.
Proof.
  intros (E1 & E2 & E3 & E4 & E5 & E6 & E7 & E8 & E9) HP.
  assert (HP' := HP). destruct HP' as (off & Hh & He & Hv & Hend & Hoff & Hcnt & Hb & Hsv & [Hsg Hss] & Hv1).
  unfold col_next, d_z2. rewrite E9, E1, E2, E3, E4, E5. fold z1 z2 zc zo. cbn [orb negb].
  destruct vs as [|v vs].
  - destruct G as [|[a [|w ws]] G]; [exact I| |].
    { apply ehere_ne in Hh. inversion Hh; subst. now cbn in *. }
    cbn [rest pairs flat_map map app fst snd length] in *.
    replace (d_sc s =? d_cc s) with true.
    2:{ symmetry. apply Z.eqb_eq. assert (Hcs : d_cc s - d_sc s = Z.of_nat 0) by (apply Hcnt; right; discriminate). change (Z.of_nat 0) with 0 in Hcs. clear - Hcs. lia. }
    destruct (ehere_cons _ _ _ _ Hh) as (R1 & R2 & _ & Hh2 & _ & Ha). cbn [fst snd] in *.
    rewrite R1, R2. cbn [col_set d_cp2 d_v1 d_cc d_sc d_sb2 d_cp1].
    cbn [seconds flat_map snd app] in Hv.
    destruct (vhere_cons _ _ _ Hv) as (R3 & Hv2 & _). rewrite R3.
    inversion Hss as [|? ? Hss1 Hss2]; subst. inversion Hsg as [|? ? Hsg1 Hsg2]; subst.
    cbn [fst snd] in *.
    do 9 eexists. split; [reflexivity|]. split; [reflexivity|]. split; [reflexivity|].
    split; [congruence|]. split; [reflexivity|].
    split; [intros _; split; [unfold bfb; lia|reflexivity]|].
    assert (HFa : Forall (fun g => a < fst g) G) by exact Hsg2.
    replace (d_cp1 s + z1 + (zc + zo)) with (d_cp1 s + bfb) by (unfold bfb; lia).
    cbn [seconds flat_map snd length] in *. rewrite app_length in *. cbn [length] in *.
    fold (seconds G) in *. clear - Hh2 He Hv Hv2 Hend Hoff Hss1 Hss2 Hsg1 Hsg2 HFa Ha R2.
    assert (R2' : rdn bc m (d_cp1 s + bfb - bfb + z1) = Some (zlen (w :: ws)))
      by (replace (d_cp1 s + bfb - bfb + z1) with (d_cp1 s + z1) by lia; exact R2).
    split.
    + exists (off + zlen (w :: ws)). split; [exact Hh2|]. split; [lia|]. split; [exact Hv2|].
      split; [rewrite app_length; lia|]. split; [cbn [length]; lia|]. split; [intros _; lia|].
      split; [intros _; split; [lia|split; [nia|exact R2']]|]. split; [now inversion Hss1|]. split; [split; auto|auto].
    + exists (off + zlen (w :: ws)).
      replace (d_cp2 s + z2 - z2) with (d_cp2 s) by lia.
      split; [exact Hh2|]. split; [lia|]. split; [exact Hv|].
      split; [cbn [app length]; rewrite app_length; lia|]. split; [cbn [length]; lia|]. split; [cbn [length]; intros _; lia|].
      split; [cbn [length]; intros _; split; [lia|split; [nia|exact R2']]|]. split; [auto|]. split; [split; auto|auto].
  - cbn [rest map app] in *.
    assert (Hcs : d_cc s - d_sc s = zlen (v :: vs)) by (apply Hcnt; left; discriminate). cbn [length] in Hcs.
    replace (d_sc s =? d_cc s) with false by (symmetry; apply Z.eqb_neq; lia).
    destruct (Hb ltac:(discriminate)) as (Hb1 & Hb2 & Hb3).
    destruct (vhere_cons _ _ _ Hv) as (R3 & Hv2 & _). rewrite R3.
    do 9 eexists. split; [reflexivity|]. split; [reflexivity|]. split; [reflexivity|].
    split; [auto|]. split; [discriminate|]. split; [discriminate|].
    split.
    + exists off. split; [exact Hh|]. split; [lia|]. split; [exact Hv2|].
      split; [cbn [length] in Hend; lia|]. split; [cbn [length] in Hoff; lia|]. split; [intros _; lia|].
      split; [intros _; split; [auto|split; [cbn [length] in Hb2; lia|exact Hb3]]|]. split; [now inversion Hsv|]. split; [split; auto|auto].
    + replace (d_cp2 s + z2 - z2) with (d_cp2 s) by lia. replace (d_sc s + 1 - 1) with (d_sc s) by lia. exact HP.
Qed.


Lemma col_m2 s vs c2 : d_b2 s = b2 -> d_mem s = m -> vhere (d_cp2 s) vs -> StronglySorted Z.lt vs ->
  d_sb2 s + d_cc s * z2 = d_cp2 s + z2 * zlen vs -> int64 c2 ->
  exists v2 sc cp2,
    (let e := d_sb2 s + d_cc s * z2 in
     do (p, r) <- col_bsearch (FU m) b2 z2 m (d_cp2 s) e (u64 c2);
     match r with
     | Some mid =>
       Some (col_set s (d_v1 s) (d_v2 s) (d_cc s) (Z.quot (mid - d_sb2 s) z2) (d_sb2 s) (d_cp1 s) mid)
     | None =>
       let '(sc, cp2) := if e <=? p then (d_cc s, e) else (Z.quot (p - d_sb2 s) z2, p) in
       Some (col_set s (d_v1 s) (if cp2 =? d_end s then 0 else d_v2 s) (d_cc s) sc (d_sb2 s) (d_cp1 s) cp2)
     end) = Some (col_set s (d_v1 s) v2 (d_cc s) sc (d_sb2 s) (d_cp1 s) cp2) /\
    cp2 = d_cp2 s + z2 * zlen (takewhile (fun v => v <? c2) vs) /\
    d_cc s - sc = zlen (dropwhile (fun v => v <? c2) vs).
Proof.
  intros E2 E5 Hv Hs He Hc2. pose proof z2_pos as Hz. cbv zeta. rewrite He.
  destruct (vsearch _ _ c2 Hv Hs) as (p & r & E & Hr).
  replace (u64 c2) with c2 by (unfold u64, int64 in *; rewrite Z.mod_small; lia). rewrite E.
  assert (Hl : zlen vs = zlen (takewhile (fun v => v <? c2) vs) + zlen (dropwhile (fun v => v <? c2) vs)).
  { rewrite <- (tw_dw (fun v => v <? c2) vs) at 1. rewrite app_length. lia. }
  assert (Hq : Z.quot (d_cp2 s + z2 * zlen (takewhile (fun v => v <? c2) vs) - d_sb2 s) z2 =
    d_cc s - zlen (dropwhile (fun v => v <? c2) vs)).
  { replace (d_cp2 s + z2 * zlen (takewhile (fun v => v <? c2) vs) - d_sb2 s) with
      ((d_cc s - zlen (dropwhile (fun v => v <? c2) vs)) * z2) by nia. apply Z.quot_mul. lia. }
  destruct r as [mid|]; cbv zeta in Hr; destruct Hr as [-> _].
  - rewrite Hq. do 3 eexists. split; [reflexivity|]. split; [reflexivity|lia].
  - rewrite Hq.
    destruct (Z.leb_spec (d_cp2 s + z2 * zlen vs) (d_cp2 s + z2 * zlen (takewhile (fun v => v <? c2) vs))) as [Hle|Hle].
    + assert (zlen (dropwhile (fun v => v <? c2) vs) = 0) by nia.
      do 3 eexists. split; [reflexivity|]. split; [|lia].
      replace (zlen vs) with (zlen (takewhile (fun v => v <? c2) vs)) by lia. reflexivity.
    + do 3 eexists. split; [reflexivity|]. split; [reflexivity|lia].
Qed.

Lemma rest_cons v1 v2 vs G : (v1, v2) :: rest v1 vs G = rest v1 (v2 :: vs) G.
Proof. reflexivity. Qed.

Lemma seconds_gf c G : zlen (seconds G) = zlen (seconds (tw1 c G)) + zlen (seconds (gfilter c G)).
Proof. rewrite (tw1_dw c G) at 1. rewrite seconds_app, app_length. lia. Qed.

Definition col_inv (k sp2 e : Z) (l : list (Z * Z)) (s : col_st) : Prop :=
  exists vs G, l = rest (d_v1 s) vs G /\ col_over k sp2 e false s /\
    col_pos sp2 e (d_cp1 s) (d_cp2 s) (d_v1 s) (d_cc s) (d_sc s) (d_sb2 s) vs G.

Lemma col_moveto_ok k sp2 e s vs G c1 c2 : col_over k sp2 e false s ->
  col_pos sp2 e (d_cp1 s) (d_cp2 s) (d_v1 s) (d_cc s) (d_sc s) (d_sb2 s) vs G ->
  col_pos sp2 e (d_cp1 s) (d_cp2 s - z2) (d_v1 s) (d_cc s) (d_sc s - 1) (d_sb2 s) (d_v2 s :: vs) G ->
  int64 c1 -> int64 c2 ->
  exists s', col_moveto s c1 c2 = Some s' /\
    col_inv k sp2 e (filter (fun e => negb (pair_lt e c1 c2)) (rest (d_v1 s) (d_v2 s :: vs) G)) s' /\
    d_saved s' = d_saved s.
Proof.
  pose proof bfb_pos as Hbp. pose proof z2_pos as Hz2.
  intros Ho HP HPb Hc1 Hc2.
  assert (Ho' := Ho). destruct Ho' as (E1 & E2 & E3 & E4 & E5 & E6 & E7 & E8 & E9).
  assert (Hn := col_hasNext_ok _ _ _ _ _ _ _ Ho HP).
  assert (Hfin : forall v1 v2 cc sc sb2 cp1 cp2 vs' G', col_pos sp2 e cp1 cp2 v1 cc sc sb2 vs' G' ->
    col_inv k sp2 e (rest v1 vs' G') (col_set s v1 v2 cc sc sb2 cp1 cp2) /\
    d_saved (col_set s v1 v2 cc sc sb2 cp1 cp2) = d_saved s).
  { intros v1 v2 cc sc sb2 cp1 cp2 vs' G' H. split; [|reflexivity]. exists vs', G'. auto. }
  assert (HP' := HP). destruct HP' as (off & Hh & He & Hv & Hend & Hoff & Hcnt & Hb & Hsv & [Hsg Hss] & Hv1).
  assert (HPb' := HPb). destruct HPb' as (offb & _ & _ & Hvb & _ & _ & Hcntb & Hbb & Hsvb & _ & _).
  destruct (Hbb ltac:(discriminate)) as (Hv1p & Hsb & Hrc). clear Hbb.
  assert (Hv2 : 0 <= d_v2 s) by (apply vhere_cons in Hvb; tauto).
  assert (Hcc : d_cc s - (d_sc s - 1) = zlen (d_v2 s :: vs)) by (apply Hcntb; left; discriminate).
  cbn [length] in Hcc, Hsb.
  unfold col_moveto. rewrite Hn, E9. cbn [negb andb].
  set (beyond := (d_v1 s <? c1) || (c1 =? d_v1 s) && (d_v2 s <? c2)).
  destruct (negb (nonempty (rest (d_v1 s) vs G)) && beyond) eqn:Eend.
  + apply andb_prop in Eend as [En Eb]. rewrite rest_nonempty' in En by (eapply ehere_ne; eauto).
    destruct vs; [|discriminate]. destruct G; [|discriminate].
    eexists; split; [reflexivity|]. rewrite filter_false.
    * split; [exists [], []; split; auto|reflexivity].
    * repeat constructor. unfold pair_lt. cbn [fst snd]. unfold beyond in Eb. rewrite (Z.eqb_sym (d_v1 s)), Eb. reflexivity.
  + unfold col_moveto1, d_bfb, d_z2. rewrite E1, E2, E3, E4, E5, E7, E8, E9. fold z1 z2 zc zo. fold bfb.
    destruct (d_v1 s <? c1) eqn:Ev.
    * rewrite filter_rest_lt, filter_pairs_skip by lia.
      replace (u64 c1) with c1 by (unfold u64, int64 in *; rewrite Z.mod_small; lia).
      destruct (esearch _ _ _ c1 Hh Hsg) as (q0 & r & Eq & Hr). rewrite <- He in Eq. rewrite Eq.
      destruct (gfilter_ehere c1 _ _ _ Hh) as [Hh2 Hl].
      pose proof (gfilter_in c1 G Hsg) as Hin.
      assert (Hsg2 := gfilter_sorted c1 G Hsg). pose proof (seconds_gf c1 G) as Hsl.
      set (p1 := d_cp1 s + bfb * zlen (tw1 c1 G)) in *.
      set (off1 := off + zlen (seconds (tw1 c1 G))) in *.
      assert (Hvg : vhere (sp2 + off1 * z2) (seconds (gfilter c1 G))).
      { rewrite (tw1_dw c1 G), seconds_app, app_assoc in Hv. apply vhere_app in Hv as [_ Hv].
        rewrite app_length in Hv. replace (sp2 + off1 * z2) with
          (d_cp2 s + z2 * Z.of_nat (length vs + length (seconds (tw1 c1 G)))); [exact Hv|].
        unfold off1. lia. }
      assert (Hendg : e = sp2 + off1 * z2 + z2 * zlen (seconds (gfilter c1 G))).
      { rewrite app_length in Hend. unfold off1. lia. }
      assert (Hss2 : Forall (fun g => StronglySorted Z.lt (snd g)) (gfilter c1 G)).
      { apply Forall_forall; intros g Hg; apply gfilter_incl in Hg. rewrite Forall_forall in Hss. auto. }
      assert (Hv12 : Forall (fun g => d_v1 s < fst g) (gfilter c1 G)).
      { apply Forall_forall; intros g Hg; apply gfilter_incl in Hg. rewrite Forall_forall in Hv1. auto. }
      assert (Hgp : forall sb2, col_pos sp2 e p1 (sp2 + off1 * z2) (d_v1 s) 0 0 sb2 [] (gfilter c1 G)).
      { intros sb2. exists off1. split; auto. split; [unfold p1; lia|]. split; [exact Hvg|]. split; [exact Hendg|].
        split; [cbn [length]; lia|]. split; [reflexivity|]. split; [congruence|]. split; [constructor|].
        split; [split|]; auto. }
      destruct r as [mid|]; cbv zeta in Hr.
      -- destruct Hr as [-> Hin2].
         destruct (gfilter c1 G) as [|g G1] eqn:EG; [contradiction|].
         assert (Hg : fst g = c1) by (apply Hin; auto).
         destruct (ehere_cons _ _ _ _ Hh2) as (R1 & R2 & R3 & Hh3 & Hgn & Ha). rewrite R3. cbv beta iota.
         unfold col_moveto2. cbn [col_set d_v2 d_b1 d_bc d_bo d_b2 d_mem d_cp1 andb].
         replace (-1 <? c2) with true by (unfold int64 in Hc2; symmetry; apply Z.ltb_lt; lia).
         change (-1 =? -1) with true. cbv iota. unfold d_z2. cbn [col_set d_b2].
         rewrite E1, E2, E3, E4, E5. fold z1 z2 zc zo. rewrite R1, R2.
         set (q := sp2 + off1 * z2) in *.
         replace (p1 + z1 + (zc + zo)) with (p1 + bfb) by (unfold bfb; lia).
         set (s1 := col_set s (fst g) (-1) (zlen (snd g)) 0 q (p1 + bfb) q).
         change (col_set (col_set s (d_v1 s) (-1) 0 0 q p1 q) _ _ _ _ _ _ _) with s1.
         cbn [seconds flat_map] in Hvg, Hendg.
         destruct (vhere_app _ _ _ Hvg) as [Hvg1 Hvg2].
         assert (Hss3 := Forall_inv Hss2). assert (Hss4 := Forall_inv_tail Hss2).
         assert (Hsg3 := SS_tail _ _ _ Hsg2). assert (Hsg4 : Forall (glt g) G1) by (now inversion Hsg2).
         destruct (col_m2 s1 (snd g) c2 E2 E5 Hvg1 Hss3 ltac:(cbn; lia) Hc2) as (v2' & sc' & cp2' & W & C1 & C2).
         eexists; split; [exact W|].
         replace (pairs (g :: G1)) with (rest c1 (snd g) G1) by (rewrite <- Hg; reflexivity).
         assert (HF1 : Forall (fun g' => c1 < fst g') G1) by (rewrite <- Hg; exact Hsg4).
         rewrite filter_rest by (auto; lia). rewrite Z.eqb_refl.
         pose proof (tw_dw (fun v => v <? c2) (snd g)) as Htd.
         set (tw := takewhile (fun v => v <? c2) (snd g)) in *.
         set (dw := dropwhile (fun v => v <? c2) (snd g)) in *.
         assert (Hlen : zlen (snd g) = zlen tw + zlen dw) by (rewrite <- Htd, app_length; lia).
         assert (HPn : col_pos sp2 e (p1 + bfb) cp2' c1 (zlen (snd g)) sc' q dw G1).
         { exists (off1 + zlen (snd g)). split; [exact Hh3|]. split; [unfold p1; cbn [length] in Hl; lia|].
           cbn [d_cp2 s1 col_set d_cc] in C1, C2.
           split.
           { rewrite C1. rewrite <- Htd, <- app_assoc in Hvg. apply vhere_app in Hvg as [_ Hvg]. exact Hvg. }
           rewrite app_length in Hendg |- *. unfold seconds in *.
           split; [lia|]. split; [unfold q in *; lia|]. split; [intros _; exact C2|].
           split; [intros _; split; [lia|split; [unfold q in *; lia|]]|].
           { replace (p1 + bfb - bfb + z1) with (p1 + z1) by lia. exact R2. }
           split; [now apply SS_dw|]. split; [split|]; auto. }
         rewrite <- Hg in HPn |- *.
         exact (Hfin _ v2' _ _ _ _ _ _ _ HPn).
      -- destruct Hr as [-> Hnin].
         destruct (Z.leb_spec sp2 p1) as [Hle|Hle].
         ++ assert (Hz : zlen (gfilter c1 G) = 0) by (unfold p1 in Hle; nia).
            destruct (gfilter c1 G) as [|g G1] eqn:EG; [|cbn [length] in Hz; lia].
            unfold col_moveto2. cbn [col_set d_v2 andb].
            change (negb (-1 =? -1)) with false. cbv iota.
            eexists; split; [reflexivity|]. cbn [pairs flat_map filter].
            apply (Hfin (d_v1 s) (-1) (d_cc s) 0 (d_sb2 s) sp2 e [] []).
            exists off1. cbn [length] in Hl. change (Z.of_nat 0) with 0 in Hl.
            cbn [seconds flat_map app length] in *. change (Z.of_nat 0) with 0 in *. rewrite Z.mul_0_r, Z.add_0_r in *.
            replace sp2 with p1 at 1 by (unfold p1; lia). split; [exact Hh2|].
            split; [lia|]. split; [rewrite Hendg; exact Hvg|]. split; [lia|]. split; [lia|].
            split; [intros [H|H]; congruence|]. split; [congruence|]. split; [constructor|]. split; [split; constructor|constructor].
         ++ destruct (gfilter c1 G) as [|g G1] eqn:EG; [cbn [length] in Hl; unfold p1 in Hle; lia|].
            destruct (ehere_cons _ _ _ _ Hh2) as (_ & _ & R3 & _). rewrite R3.
            unfold col_moveto2. cbn [col_set d_v2 andb].
            change (negb (-1 =? -1)) with false. cbv iota.
            eexists; split; [reflexivity|].
            rewrite filter_true.
            { exact (Hfin (d_v1 s) (-1) 0 0 (sp2 + off1 * z2) p1 (sp2 + off1 * z2) [] (g :: G1) (Hgp _)). }
            apply Forall_forall. intros y Hy. apply pairs_fst in Hy as (g' & Hg' & Ey).
            assert (c1 < fst g). { destruct Hin as [Hi1 Hi2]. assert (fst g <> c1) by (intros Hx2; apply Hnin, Hi2, Hx2). lia. }
            assert (fst g <= fst g').
            { inversion Hsg2 as [|? ? _ Hf]; subst. rewrite Forall_forall in Hf.
              destruct Hg' as [-> |Hg']; [lia|]. specialize (Hf g' Hg'). unfold glt in Hf. lia. }
            unfold pair_lt. lia.
    * rewrite filter_rest; [|auto|auto|lia].
      destruct (c1 =? d_v1 s) eqn:Eq.
      -- cbv beta iota. unfold col_moveto2. cbn [andb dropwhile].
         destruct (d_v2 s <? c2) eqn:E2c.
         ++ replace (d_v2 s =? -1) with false by lia. unfold d_z2. rewrite E2, E5. fold z2.
            apply vhere_app in Hv as Hv'. destruct Hv' as [Hva Hvr].
            destruct (col_m2 s vs c2 E2 E5 Hva Hsv ltac:(lia) Hc2) as (v2' & sc' & cp2' & W & C1 & C2).
            eexists; split; [exact W|]. apply Hfin.
            pose proof (tw_dw (fun v => v <? c2) vs) as Htd.
            set (tw := takewhile (fun v => v <? c2) vs) in *.
            set (dw := dropwhile (fun v => v <? c2) vs) in *.
            assert (Hlen : zlen vs = zlen tw + zlen dw) by (rewrite <- Htd, app_length; lia).
            exists off. split; [exact Hh|]. split; [exact He|].
            split.
            { rewrite C1. rewrite <- Htd, <- app_assoc in Hv. apply vhere_app in Hv as [_ Hv]. exact Hv. }
            rewrite app_length in *. split; [lia|]. split; [lia|]. split; [intros _; exact C2|].
            split; [intros _; split; [lia|split; [lia|exact Hrc]]|]. split; [now apply SS_dw|]. split; [split|]; auto.
         ++ replace (d_v2 s =? -1) with false by lia. cbn [negb]. unfold d_z2. rewrite E2. fold z2.
            eexists; split; [reflexivity|]. apply Hfin. exact HPb.
      -- cbv beta iota. unfold col_moveto2. cbn [andb].
         replace (d_v2 s =? -1) with false by lia. cbn [negb]. unfold d_z2. rewrite E2. fold z2.
         eexists; split; [reflexivity|]. apply Hfin. exact HPb.
Qed.

Lemma col_sim k sp2 e : cursor_sim k true (col_S k sp2 e).
Proof.
  pose proof bfb_pos as Hbp. pose proof z2_pos as Hz2.
  intros c mk l o (s & vs & G & -> & -> & Ho & HP & Hc & Hm).
  assert (Hself : col_S k sp2 e c mk (rest (d_v1 s) vs G) (col_obj s)) by (exists s, vs, G; auto 8).
  assert (Ho' := Ho). destruct Ho' as (E1 & E2 & E3 & E4 & E5 & E6 & E7 & E8 & E9).
  assert (Hn := col_hasNext_ok _ _ _ _ _ _ _ Ho HP).
  assert (Hfin : forall v1 v2 cc sc sb2 cp1 cp2 vs' G', col_pos sp2 e cp1 cp2 v1 cc sc sb2 vs' G' ->
    col_S k sp2 e None mk (rest v1 vs' G') (col_obj (col_set s v1 v2 cc sc sb2 cp1 cp2))).
  { intros v1 v2 cc sc sb2 cp1 cp2 vs' G' H. eexists _, vs', G'. split; [reflexivity|]. split; [reflexivity|].
    split; [exact Ho|]. split; [exact H|]. split; [discriminate|exact Hm]. }
  split; [|split; [|split; [|split; [|split]]]].
  - rewrite col_obj_hasNext, Hn. split; auto.
    pose proof (col_next_ok k sp2 e s vs G Ho HP) as HN.
    destruct (rest (d_v1 s) vs G) as [|x l] eqn:El; [exact I|].
    destruct HN as (v1 & v2 & cc & sc & sb2 & cp1 & cp2 & vs' & G' & N1 & -> & -> & N4 & N5 & _ & P1 & P2).
    rewrite col_obj_next, N1. eexists; split; [reflexivity|].
    split; [rewrite col_obj_cur; cbn; now rewrite E6|].
    eexists _, vs', G'. split; [reflexivity|]. split; [reflexivity|]. split; [exact Ho|].
    cbn [col_set d_cp1 d_cp2 d_v1 d_v2 d_cc d_sc d_sb2 d_saved].
    split; [exact P1|]. split; [|exact Hm]. intros x [= <-]. split; auto.
  - rewrite col_obj_count. unfold col_getCount. now rewrite E9.
  - intros x c1 c2 Hx Hc1 Hc2. destruct (Hc x Hx) as (-> & HPb). cbn [fst snd].
    rewrite rest_cons, col_obj_moveto.
    destruct (col_moveto_ok k sp2 e s vs G c1 c2 Ho HP HPb Hc1 Hc2) as (s' & -> & (vs' & G' & -> & I1 & I2) & Es).
    eexists; split; [reflexivity|]. exists s', vs', G'. do 4 (split; auto). split; [discriminate|].
    rewrite Es. exact Hm.
  - exists (col_obj (col_mark s)). split; [reflexivity|]. exists (col_mark s), vs, G.
    split; auto. split; auto. split; [exact Ho|]. split; [exact HP|]. split; [exact Hc|].
    intros l' [= <-]. exists vs, G. cbn [col_mark d_saved]. auto.
  - intros l' i Hl'. destruct (Hm l' Hl') as (vs' & G' & HG').
    exists (col_obj (col_reset s)). split; [reflexivity|]. unfold col_reset in *.
    destruct (d_saved s) as [[[[[[a b] c'] d] f] g] h] eqn:Es. destruct HG' as [-> HG'].
    apply Hfin. exact HG'.
  - intros x Hx. destruct (Hc x Hx) as (-> & HPb). cbn [fst].
    rewrite col_obj_ignore. eexists; split; [reflexivity|]. exists (col_gS k sp2 e). split; [apply col_gsim|].
    destruct HP as (off & Hh & He & Hv & Hend & Hoff & Hcnt & Hb & Hsv & [Hsg Hss] & Hv1).
    eexists _, G. split; [reflexivity|]. split.
    { unfold rest. rewrite filter_app, filter_false, filter_true.
      - cbn [app]. rewrite <- groups_pairs; auto. eapply ehere_ne; eauto.
      - apply Forall_forall. intros y Hy. apply pairs_fst in Hy as (g' & Hg' & Ey).
        rewrite Forall_forall in Hv1. specialize (Hv1 g' Hg'). lia.
      - apply Forall_forall. intros y Hy. apply in_map_iff in Hy as (v & <- & _). cbn [fst]. lia. }
    split; [unfold col_over in *; cbn; tauto|].
    split; [|split; discriminate]. cbn [col_ignore d_cp1]. exists off. auto.
Qed.

(** *** Opening *)
Definition col_init (k sp1 sp2 e nt nu : Z) : col_st :=
  mkCol b1 b2 bc bo m (-1) (-1) nt nu 0 0 e sp1 sp2 0 sp1 sp2 false (0, 0, 0, 0, 0, 0, 0) k.

Lemma col_setup_ok bs k p G {nt} : contains m p bs -> col_layout bs b1 b2 bc bo G nt ->
  exists sp1, let sp2 := sp1 + bfb * zlen G in
    col_setup m k p (p + zlen bs) =
      Some (col_init k sp1 sp2 (p + zlen bs) nt (zlen G)) /\
    ehere sp1 0 G /\ vhere sp2 (seconds G) /\ p + zlen bs = sp2 + z2 * zlen (seconds G).
Proof.
  intros Hc [(vb & vt & Lb & Vb & Vt) Lw Ln La Lf Lc Lo Ls]. set (e := p + zlen bs).
  assert (He : e = p + zlen bs) by reflexivity. clearbody e. subst bs.
  pose proof (contains_app _ _ _ _ Hc) as [H1 H2]. change (zlen [_; _]) with 2 in H2.
  pose proof (contains_app _ _ [_] [_] H1) as [_ H12]. change (zlen [_]) with 1 in H12.
  pose proof (contains_app _ _ _ _ H2) as [H3 H4].
  pose proof (contains_app _ _ _ _ H4) as [H5 H6].
  pose proof (contains_app _ _ _ _ H6) as [H7 H8]. rewrite ents_length in H8.
  set (sp1 := p + 2 + zlen vb + zlen vt) in *.
  exists sp1. unfold col_setup. cbv zeta.
  rewrite (getb_contains _ _ _ _ H1), (getb_contains _ _ _ _ H12).
  rewrite (Vb _ _ H3), (Vt _ _ H5). fold sp1.
  replace (Z.to_nat ((Z.of_nat b1 * 8 + Z.of_nat b2) / 8 mod 8)) with b1 by lia.
  replace (Z.to_nat ((Z.of_nat b1 * 8 + Z.of_nat b2) mod 8)) with b2 by lia.
  replace (Z.to_nat ((Z.of_nat bc * 8 + Z.of_nat bo) / 8 mod 8)) with bc by lia.
  replace (Z.to_nat ((Z.of_nat bc * 8 + Z.of_nat bo) mod 8)) with bo by lia.
  split; [reflexivity|]. split; [|split; [split; [exact H8|exact Ls]|]].
  - split; [exact H7|]. split.
    + apply Forall_forall. intros g Hg. rewrite Forall_forall in *. unfold ufits.
      split; [now apply Ln|]. split; [now apply Lf|]. specialize (Lc _ Hg). lia.
    + unfold ufits. lia.
  - rewrite He. rewrite !app_length, Nat2Z.inj_add, !Nat2Z.inj_add.
    change (Z.of_nat (length [_; _])) with 2. rewrite ents_length, vs_len. unfold sp1. lia.
Qed.

Lemma col_init_pos k sp1 sp2 e nt nu G : ehere sp1 0 G -> vhere sp2 (seconds G) -> sp2 = sp1 + bfb * zlen G ->
  e = sp2 + z2 * zlen (seconds G) -> col_ok G ->
  col_over k sp2 e false (col_init k sp1 sp2 e nt nu) /\
  col_pos sp2 e sp1 sp2 (-1) 0 0 0 [] G.
Proof.
  intros Hh Hv E1 E2 Hok. split; [unfold col_over, col_init; cbn; auto 10|].
  exists 0. split; auto. split; auto. split; auto. split; auto. cbn [length]. change (Z.of_nat 0) with 0.
  split; [lia|]. split; [lia|]. split; [congruence|]. split; [constructor|]. split; auto.
  destruct Hh as (_ & Hh & _). eapply Forall_impl; [|exact Hh]. intros g (_ & Hg & _). unfold ufits in Hg. lia.
Qed.

Lemma col_gopen k sp1 sp2 e s G off : ehere sp1 off G -> sp2 = sp1 + bfb * zlen G -> StronglySorted glt G ->
  col_over k sp2 e false s -> d_cp1 s = sp1 -> Ignores k true (pairs G) (col_obj s).
Proof.
  intros Hh E1 Hok Ho Ec. rewrite <- Ec in *. clear Ec. eexists; split; [apply col_obj_ignore|].
  exists (col_gS k sp2 e). split; [apply col_gsim|].
  eexists _, G. split; [reflexivity|]. split; [apply groups_pairs; auto; eapply ehere_ne; eauto|].
  split; [unfold col_over in *; cbn; tauto|].
  split; [|split; discriminate]. cbn [col_ignore d_cp1]. exists off. auto.
Qed.

Lemma col_first k sp1 sp2 e nt nu G : ehere sp1 0 G -> vhere sp2 (seconds G) -> sp2 = sp1 + bfb * zlen G ->
  StronglySorted glt G -> IgnoresFirst k true (pairs G) (col_obj (col_init k sp1 sp2 e nt nu)).
Proof.
  intros Hh Hv E1 Hs Hne. destruct G as [|[a ws] G]; [cbn in Hne; congruence|]. clear Hne.
  assert (HN := ehere_ne _ _ _ Hh).
  destruct (ehere_cons _ _ _ _ Hh) as (R1 & R2 & _ & Hh2 & Hw & Ha). cbn [fst snd] in *.
  destruct ws as [|v ws]; [congruence|].
  cbn [seconds flat_map snd app] in Hv. destruct (vhere_cons _ _ _ Hv) as (R3 & _).
  rewrite col_obj_next. unfold col_next, col_init, d_z2. cbn [d_ign d_sc d_cc d_b1 d_b2 d_bc d_bo d_mem d_cp1 d_cp2].
  fold z1 z2 zc zo. cbn [orb negb]. rewrite Z.eqb_refl, R1, R2. cbn [col_set d_cp2]. rewrite R3.
  do 5 eexists. split; [reflexivity|]. rewrite col_obj_ignore. split; [reflexivity|].
  rewrite groups_pairs by auto. cbn [map]. split; [reflexivity|].
  split; [reflexivity|]. split; [reflexivity|]. split; [apply (col_gsim k sp2 e)|].
  eexists _, G. split; [reflexivity|]. split; [reflexivity|].
  split; [unfold col_over; cbn; auto 10|]. cbn [col_ignore col_set d_cp1 d_v1 d_cc d_saved].
  replace (sp1 + z1 + (zc + zo)) with (sp1 + bfb) by (unfold bfb; lia).
  split; [|split; [|discriminate]].
  - exists (0 + zlen (v :: ws)). split; auto. split; [rewrite E1; cbn [length]; lia|]. now apply SS_tail in Hs.
  - intros x [= <-]. exists (v :: ws). split; [reflexivity|]. split; [reflexivity|].
    replace (sp1 + bfb - bfb) with sp1 by lia. exists 0. auto.
Qed.

Lemma col_open k sp1 sp2 e nt nu G : ehere sp1 0 G -> vhere sp2 (seconds G) -> sp2 = sp1 + bfb * zlen G ->
  e = sp2 + z2 * zlen (seconds G) -> col_ok G ->
  Table k true (pairs G) (col_obj (col_init k sp1 sp2 e nt nu)).
Proof.
  intros Hh Hv E1 E2 Hok. destruct (col_init_pos k sp1 sp2 e nt nu G Hh Hv E1 E2 Hok) as [Ho HP].
  split; [|split].
  - exists (col_S k sp2 e). split; [apply col_sim|].
    eexists _, [], G. split; [reflexivity|]. split; [reflexivity|]. split; [exact Ho|]. split; [exact HP|].
    split; discriminate.
  - eapply col_gopen; eauto. apply Hok.
  - apply col_first; auto. apply Hok.
Qed.

(** A state that has nothing to deliver. *)
Definition col_deadst (s : col_st) : Prop :=
  d_ign s = false /\ d_sp2 s <= d_cp1 s /\ d_end s <= d_cp2 s.
Definition col_dead (k : Z) (c : option (Z * Z)) (mk : option (list (Z * Z))) (l : list (Z * Z))
  (o : pitr) : Prop :=
  c = None /\ l = [] /\ exists s, o = col_obj s /\ col_deadst s /\
    (forall l', mk = Some l' -> l' = [] /\ col_deadst (col_reset s)).

Lemma col_dead_hasNext s : col_deadst s -> col_hasNext s = false.
Proof.
  intros (E1 & E2 & E3). unfold col_hasNext. rewrite E1.
  replace (d_cp1 s <? d_sp2 s) with false by lia. replace (d_cp2 s <? d_end s) with false by lia. reflexivity.
Qed.

Lemma col_dead_sim k : cursor_sim k true (col_dead k).
Proof.
  intros c mk l o (-> & -> & s & -> & Hd & Hm).
  assert (Hself : col_dead k None mk [] (col_obj s)) by (split; auto; split; auto; exists s; auto).
  split; [|split; [|split; [|split; [|split]]]]; try discriminate.
  - rewrite col_obj_hasNext, (col_dead_hasNext _ Hd). auto.
  - rewrite col_obj_count. unfold col_getCount. destruct Hd as (-> & _). auto.
  - exists (col_obj (col_mark s)). split; [reflexivity|]. split; auto. split; auto. exists (col_mark s).
    split; auto. split; auto. intros l' [= <-]. auto.
  - intros l' i Hl'. destruct (Hm l' Hl') as [-> H]. exists (col_obj (col_reset s)). split; [reflexivity|].
    split; auto. split; auto. eexists. split; [reflexivity|]. split; auto. intros l2 Hl2.
    assert (H2 := H). unfold col_reset in *. destruct (d_saved s) as [[[[[[a b] c'] d] f] g] h] eqn:Es.
    cbn [col_set d_saved]. rewrite Es. split; [|exact H2]. congruence.
Qed.

(** A state that delivers one pair, as left by setup(c1, c2). *)
Definition col_at (s : col_st) (sc cp2 : Z) (sv : Z * Z * Z * Z * Z * Z * Z) : col_st :=
  mkCol (d_b1 s) (d_b2 s) (d_bc s) (d_bo s) (d_mem s) (d_v1 s) (d_v2 s) (d_nTerms s) (d_nUniq s)
    (d_cc s) sc (d_end s) (d_sp1 s) (d_sp2 s) (d_sb2 s) (d_sp2 s) cp2 (d_ign s) sv (d_key s).
Definition one_sc (sc : Z) (b : bool) : Z := if b then sc + 1 else sc.
Definition one_cp (e : Z) (b : bool) : Z := if b then e else e - z2.
Definition one_l (c1 c2 : Z) (b : bool) : list (Z * Z) := if b then [] else [(c1, c2)].
Definition col_one (s0 : col_st) (sc : Z) (c : option (Z * Z)) (mk : option (list (Z * Z))) (l : list (Z * Z))
  (o : pitr) : Prop :=
  exists b sv, o = col_obj (col_at s0 (one_sc sc b) (one_cp (d_end s0) b) sv) /\
    l = one_l (d_v1 s0) (d_v2 s0) b /\
    (forall x, c = Some x -> x = (d_v1 s0, d_v2 s0) /\ b = true) /\
    (forall l', mk = Some l' -> exists b', l' = one_l (d_v1 s0) (d_v2 s0) b' /\
       sv = (d_v1 s0, d_sp2 s0, d_cc s0, one_sc sc b', d_sb2 s0, d_v2 s0, one_cp (d_end s0) b')).

Lemma col_one_sim s0 k sp2 e sc off : col_over k sp2 e false s0 -> ehere (d_sp2 s0) off [] ->
  rdn b2 m (d_end s0 - z2) = Some (d_v2 s0) -> 0 <= d_v2 s0 -> sc < d_cc s0 ->
  cursor_sim k true (col_one s0 sc).
Proof.
  pose proof z2_pos as Hz2.
  intros Ho He Hr Hv Hsc c mk l o (b & sv & -> & -> & Hc & Hm).
  assert (Hself : col_one s0 sc c mk (one_l (d_v1 s0) (d_v2 s0) b) (col_obj (col_at s0 (one_sc sc b) (one_cp (d_end s0) b) sv)))
    by (exists b, sv; auto).
  set (s := col_at s0 (one_sc sc b) (one_cp (d_end s0) b) sv) in *.
  assert (Ho' := Ho). destruct Ho' as (E1 & E2 & E3 & E4 & E5 & E6 & E7 & E8 & E9).
  assert (Hn : col_hasNext s = nonempty (one_l (d_v1 s0) (d_v2 s0) b)).
  { unfold col_hasNext, s, col_at; cbn [d_cp1 d_sp2 d_ign d_cp2 d_end]. rewrite Z.ltb_irrefl, E9. cbn [orb negb andb].
    destruct b; cbn [one_cp one_l nonempty]; lia. }
  split; [|split; [|split; [|split; [|split]]]].
  - rewrite col_obj_hasNext, Hn. split; auto.
    destruct b; cbn [one_l]; [exact I|].
    rewrite col_obj_next. unfold col_next, s, col_at, d_z2. cbn [d_ign d_sc d_cc d_b2 d_mem d_cp2 one_cp one_sc].
    replace (sc =? d_cc s0) with false by lia. rewrite E9. cbn [orb negb].
    rewrite E2, E5. fold z2. cbn [d_cp2]. rewrite Hr.
    eexists; split; [reflexivity|]. cbn [fst snd]. split; [rewrite col_obj_cur; cbn; now rewrite E6|].
    exists true, sv. split.
    { cbn [one_sc one_cp]. unfold col_set, col_at. cbn. rewrite E2, E5, E9. do 2 f_equal. lia. }
    split; [reflexivity|]. split; [now intros x [= <-]|exact Hm].
  - rewrite col_obj_count. unfold col_getCount, s, col_at; cbn [d_ign]. now rewrite E9.
  - intros x c1 c2 Hx Hc1 Hc2. destruct (Hc x Hx) as (-> & ->).
    rewrite col_obj_moveto. unfold col_moveto. rewrite Hn. cbn [one_l nonempty negb andb].
    replace (d_v1 s) with (d_v1 s0) by reflexivity. replace (d_v2 s) with (d_v2 s0) by reflexivity.
    replace (d_ign s) with false by (symmetry; exact E9). cbn [negb andb filter].
    unfold pair_lt. cbn [fst snd]. rewrite (Z.eqb_sym (d_v1 s0) c1).
    destruct ((d_v1 s0 <? c1) || (c1 =? d_v1 s0) && (d_v2 s0 <? c2)) eqn:Eb; cbn [negb].
    + eexists; split; [reflexivity|]. exists true, sv. split; [reflexivity|]. split; [reflexivity|]. split; [discriminate|exact Hm].
    + apply orb_false_elim in Eb as [Eb1 Eb2].
      unfold col_moveto1. replace (d_v1 s) with (d_v1 s0) by reflexivity. rewrite Eb1.
      replace (d_ign s) with false by (symmetry; exact E9).
      unfold col_moveto2. replace (d_v2 s) with (d_v2 s0) by reflexivity.
      rewrite Eb2. replace (d_v2 s0 =? -1) with false by lia. cbn [negb].
      eexists; split; [reflexivity|]. exists false, sv. split.
      { cbn [one_sc one_cp]. unfold col_set, s, col_at, d_z2. cbn. rewrite E2. fold z2. do 2 f_equal. lia. }
      split; [reflexivity|]. split; [discriminate|exact Hm].
  - exists (col_obj (col_mark s)). split; [reflexivity|].
    eexists b, _. split; [reflexivity|]. split; auto. split; auto.
    intros l' [= <-]. exists b. auto.
  - intros l' i Hl'. destruct (Hm l' Hl') as (b' & -> & Hsv).
    exists (col_obj (col_reset s)). split; [reflexivity|].
    exists b', sv. split; [|split; [reflexivity|split; [discriminate|exact Hm]]].
    unfold col_reset, s, col_at. cbn [d_saved]. rewrite Hsv. reflexivity.
  - intros x Hx. destruct (Hc x Hx) as (-> & ->). cbn [one_l filter]. change (groups []) with (groups (pairs [])).
    eapply (col_gopen k (d_sp2 s0) (d_sp2 s0) (d_end s0)); eauto.
    + cbn [length]. lia.
    + constructor.
    + unfold col_over, s, col_at in *. cbn. tauto.
Qed.

Lemma rest_inj v : forall vs vs' G G', Forall (fun g => v < fst g) G -> Forall (fun g => v < fst g) G' ->
  rest v vs G = rest v vs' G' -> vs = vs' /\ pairs G = pairs G'.
Proof.
  assert (HF : forall G w l, Forall (fun g => v < fst g) G -> pairs G = (v, w) :: l -> False).
  { intros G w l HG HE. assert (Hi : In (v, w) (pairs G)) by (rewrite HE; now left).
    apply pairs_fst in Hi as (g & Hg & E). rewrite Forall_forall in HG. specialize (HG g Hg). cbn in E. lia. }
  induction vs as [|w vs IH]; intros [|w' vs'] G G' H1 H2 H; unfold rest in *; cbn [map app] in H.
  - auto.
  - exfalso. eapply HF; [exact H1|exact H].
  - exfalso. eapply HF; [exact H2|symmetry; exact H].
  - injection H as -> H. destruct (IH vs' G G' H1 H2 H) as [-> ->]. auto.
Qed.

(** setup followed by next and moveto and next, as done by both constrained setups. *)
Lemma col_seek k sp1 sp2 e nt nu G c1 c2 : ehere sp1 0 G -> vhere sp2 (seconds G) -> sp2 = sp1 + bfb * zlen G ->
  e = sp2 + z2 * zlen (seconds G) -> col_ok G -> G <> [] -> int64 c1 -> int64 c2 ->
  let s0 := col_init k sp1 sp2 e nt nu in
  col_hasNext s0 = true /\ exists s1 s2, col_next s0 = Some s1 /\ col_moveto s1 c1 c2 = Some s2 /\
  match filter (fun e => negb (pair_lt e c1 c2)) (pairs G) with
  | [] => col_hasNext s2 = false /\ col_over k sp2 e false s2
  | (v1, v2) :: l => col_hasNext s2 = true /\ exists s3 vs G', col_next s2 = Some s3 /\
      l = rest v1 vs G' /\ d_v1 s3 = v1 /\ d_v2 s3 = v2 /\ col_over k sp2 e false s3 /\
      col_pos sp2 e (d_cp1 s3) (d_cp2 s3 - z2) v1 (d_cc s3) (d_sc s3 - 1) (d_sb2 s3) (v2 :: vs) G'
  end.
Proof.
  intros Hh Hv E1 E2 Hok Hne Hc1 Hc2 s0.
  destruct (col_init_pos k sp1 sp2 e nt nu G Hh Hv E1 E2 Hok) as [Ho HP]. fold s0 in Ho.
  pose proof (col_hasNext_ok k sp2 e s0 [] G (-1) Ho HP) as Hn. rewrite rest_nonempty' in Hn by (eapply ehere_ne; eauto).
  destruct G as [|g G]; [congruence|]. split; [exact Hn|].
  pose proof (col_next_ok k sp2 e s0 [] (g :: G) Ho HP) as HN.
  change (rest (d_v1 s0) [] (g :: G)) with (pairs (g :: G)) in HN.
  destruct (pairs (g :: G)) as [|[v1 v2] l] eqn:El.
  { apply ehere_ne in Hh. destruct g as [a [|w ws]]; inversion Hh; subst; [cbn in *; congruence|discriminate]. }
  destruct HN as (a1 & a2 & cc & sc & sb2 & cp1 & cp2 & vs & G1 & N1 & [= <- <-] & Hl & _ & _ & _ & P1 & P2).
  set (s1 := col_set s0 v1 v2 cc sc sb2 cp1 cp2) in *.
  destruct (col_moveto_ok k sp2 e s1 vs G1 c1 c2 Ho P1 P2 Hc1 Hc2) as (s2 & M1 & (vs2 & G2 & M2 & O2 & P3) & _).
  change (rest (d_v1 s1) (d_v2 s1 :: vs) G1) with ((v1, v2) :: rest v1 vs G1) in M2. rewrite <- Hl in M2.
  exists s1, s2. split; [exact N1|]. split; [exact M1|].
  rewrite M2. pose proof (col_hasNext_ok _ _ _ _ _ _ _ O2 P3) as Hn2.
  pose proof (col_next_ok k sp2 e s2 vs2 G2 O2 P3) as HN2.
  destruct (rest (d_v1 s2) vs2 G2) as [|[w1 w2] l2] eqn:El2.
  - split; [exact Hn2|exact O2].
  - split; [exact Hn2|].
    destruct HN2 as (b1' & b2' & cc2 & sc2 & sb2' & cp1' & cp2' & vs3 & G3 & N2 & [= <- <-] & Hl2 & _ & _ & _ & P4 & P5).
    eexists _, vs3, G3. split; [exact N2|]. split; [exact Hl2|]. split; [reflexivity|]. split; [reflexivity|].
    split; [exact O2|exact P5].
Qed.

Lemma col_fail_dead k sp2 e s : col_over k sp2 e false s -> col_deadst (col_fail s).
Proof. intros (_ & _ & _ & _ & _ & _ & _ & _ & E). unfold col_deadst, col_fail. cbn. repeat split; auto; lia. Qed.

Lemma col_setup2_ok bs k p G {nt} c1 c2 : contains m p bs -> col_layout bs b1 b2 bc bo G nt ->
  StronglySorted plt (pairs G) -> int64 c1 -> int64 c2 ->
  exists st, col_setup2 m k c1 c2 p (p + zlen bs) = Some st /\
    Cursor k true (filter (pair_matches c1 c2) (pairs G)) (col_obj st).
Proof.
  pose proof z2_pos as Hz2.
  intros Hc Hl Hs Hc1 Hc2.
  destruct (col_setup_ok bs k p G Hc Hl) as (sp1 & E & Hh & Hv & He).
  set (sp2 := sp1 + bfb * zlen G) in *. set (e := p + zlen bs) in *.
  assert (Hok : col_ok G) by (destruct Hl; split; apply pairs_sorted; auto).
  unfold col_setup2. rewrite E.
  assert (HG : G = [] \/ G <> []) by (destruct G; [now left|right; discriminate]).
  destruct HG as [-> |Hne].
  - assert (Hd : col_deadst (col_init k sp1 sp2 e nt (zlen (@nil (Z * list Z))))).
    { unfold col_deadst, col_init. cbn [d_ign d_sp2 d_cp1 d_end d_cp2]. split; auto.
      unfold sp2. cbn [seconds flat_map length] in *. lia. }
    rewrite (col_dead_hasNext _ Hd). eexists; split; [reflexivity|].
    exists (col_dead k). split; [apply col_dead_sim|]. split; auto. split; auto.
    eexists. split; [reflexivity|]. split; [exact Hd|discriminate].
  - destruct (col_seek k sp1 sp2 e nt (zlen G) G c1 c2 Hh Hv eq_refl He Hok Hne Hc1 Hc2)
      as (Hn & s1 & s2 & N1 & M1 & HS).
    cbv zeta in Hn, N1. rewrite Hn, N1, M1.
    rewrite (match2_head c1 c2 _ Hs); [|unfold int64 in *; lia|unfold int64 in *; lia].
    destruct (filter (fun e => negb (pair_lt e c1 c2)) (pairs G)) as [|[v1 v2] l].
    + destruct HS as [Hn2 Ho2]. rewrite Hn2. eexists; split; [reflexivity|].
      exists (col_dead k). split; [apply col_dead_sim|]. split; auto. split; auto.
      eexists. split; [reflexivity|]. split; [eapply col_fail_dead; eauto|discriminate].
    + destruct HS as (Hn2 & s3 & vs & G' & N3 & -> & V1 & V2 & Ho3 & HP3). rewrite Hn2, N3, V1, V2.
      destruct ((v1 =? c1) && (v2 =? c2)) eqn:Eq.
      2:{ eexists; split; [reflexivity|].
          exists (col_dead k). split; [apply col_dead_sim|]. split; auto. split; auto.
          eexists. split; [reflexivity|]. split; [eapply col_fail_dead; eauto|discriminate]. }
      assert (A1 : v1 = c1) by lia. assert (A2 : v2 = c2) by lia. rewrite A1, A2 in *. clear A1 A2 v1 v2.
      assert (Ho' := Ho3). destruct Ho' as (E1 & E2 & E3 & E4 & E5 & E6 & E7 & E8 & E9).
      destruct HP3 as (off & Q1 & Q2 & Q3 & Q4 & Q5 & Q6 & Q7 & _).
      assert (Hnil : ehere sp2 (off + zlen (seconds G')) []).
      { rewrite Q2. apply ehere_app. now rewrite app_nil_r. }
      set (st := mkCol _ _ _ _ _ _ _ _ _ _ _ _ _ _ _ _ _ _ _ _).
      eexists; split; [reflexivity|].
      exists (col_one st (d_sc s3 - 1)). 
      assert (Hcc : d_cc s3 - (d_sc s3 - 1) = zlen (c2 :: vs)) by (apply Q6; left; discriminate). cbn [length] in Hcc.
      destruct (vhere_cons _ _ _ Q3) as (R & _ & _).
      split.
      * apply (col_one_sim st k sp2 (d_cp2 s3) (d_sc s3 - 1) (off + zlen (seconds G'))).
        -- unfold col_over, st in *. cbn. tauto.
        -- cbn [st d_sp2]. rewrite E8. exact Hnil.
        -- cbn [st d_end d_v2]. rewrite ?V2. exact R.
        -- cbn [st d_v2]. rewrite ?V2. unfold int64 in Hc2. lia.
        -- cbn [st d_cc]. lia.
      * exists false, (d_saved s3). split.
        { unfold st, col_at, one_sc, one_cp. cbn. unfold d_z2. rewrite ?E2, ?E5. reflexivity. }
        split; [unfold one_l, st; cbn; congruence|]. split; discriminate.
Qed.

(** What setup(c1) leaves: the whole group is scanned from [d_sb2], the entry of the group
    being read again only before the last pair. *)
Definition col_scan (c1 : Z) (n : Z) (sp2 e : Z) (s : col_st) (vs : list Z) (v1 cc sc cp1 cp2 : Z) : Prop :=
  v1 = c1 /\ vhere cp2 vs /\ e = cp2 + z2 * zlen vs /\
  match vs with
  | [] => sp2 <= cp1
  | _ => cp1 = sp2 - bfb /\ cc = n /\ sc + zlen vs = n + 1
  end.
Definition col_scanS (k c1 n sp2 e : Z) (mk : option (list (Z * Z))) (l : list (Z * Z)) (o : pitr) : Prop :=
  exists s vs, o = col_obj s /\ l = map (pair c1) vs /\ col_over k sp2 e false s /\
    col_scan c1 n sp2 e s vs (d_v1 s) (d_cc s) (d_sc s) (d_cp1 s) (d_cp2 s) /\
    (forall l', mk = Some l' -> exists vs', l' = map (pair c1) vs' /\
      let '(v1, cp1, cc, sc, _, _, cp2) := d_saved s in col_scan c1 n sp2 e s vs' v1 cc sc cp1 cp2).

Lemma col_scan_sim k c1 n sp2 e : rdn b1 m (sp2 - bfb) = Some c1 -> rdn bc m (sp2 - bfb + z1) = Some n ->
  scan_sim k (col_scanS k c1 n sp2 e).
Proof.
  pose proof bfb_pos as Hbp. pose proof z2_pos as Hz2.
  intros R1 R2 mk l o (s & vs & -> & -> & Ho & HP & Hm).
  assert (Hself : col_scanS k c1 n sp2 e mk (map (pair c1) vs) (col_obj s)) by (exists s, vs; auto).
  assert (Ho' := Ho). destruct Ho' as (E1 & E2 & E3 & E4 & E5 & E6 & E7 & E8 & E9).
  assert (HP' := HP). destruct HP' as (Ev & Hv & He & Hq).
  split; [|split; [|split]].
  - rewrite col_obj_hasNext.
    assert (Hn : col_hasNext s = nonempty (map (pair c1) vs)).
    { unfold col_hasNext. rewrite E7, E8, E9. cbn [negb andb].
      destruct vs as [|v vs]; cbn [map nonempty length] in *.
      - replace (d_cp1 s <? sp2) with false by lia. cbn [orb]. apply Z.ltb_ge. lia.
      - replace (d_cp1 s <? sp2) with true by lia. reflexivity. }
    rewrite Hn. split; auto.
    destruct vs as [|v vs]; cbn [map]; [exact I|].
    destruct Hq as (Hcp1 & Hcc & Hsc). cbn [length] in Hsc.
    destruct (vhere_cons _ _ _ Hv) as (R3 & Hv2 & _).
    rewrite col_obj_next. unfold col_next, d_z2. rewrite E9, E1, E2, E3, E4, E5. fold z1 z2 zc zo. cbn [orb negb].
    destruct vs as [|v' vs].
    + replace (d_sc s =? d_cc s) with true by (symmetry; apply Z.eqb_eq; cbn [length] in Hsc; lia).
      rewrite Hcp1, R1, R2. cbn [col_set d_cp2 d_v1 d_cc d_sc d_sb2 d_cp1]. rewrite R3.
      eexists; split; [reflexivity|]. split; [rewrite col_obj_cur; cbn; now rewrite E6|].
      eexists _, []. split; [reflexivity|]. split; [reflexivity|]. split; [exact Ho|].
      split; [|exact Hm]. split; [reflexivity|].
      cbn [col_set d_cp1 d_cp2 d_v1 d_cc d_sc]. split; [exact Hv2|]. cbn [length] in He |- *. split; [lia|]. unfold bfb. lia.
    + replace (d_sc s =? d_cc s) with false by (symmetry; apply Z.eqb_neq; cbn [length] in Hsc; lia).
      rewrite R3.
      eexists; split; [reflexivity|]. split; [rewrite col_obj_cur; cbn; now rewrite E6, Ev|].
      eexists _, (v' :: vs). split; [reflexivity|]. split; [reflexivity|]. split; [exact Ho|].
      split; [|exact Hm]. split; [exact Ev|].
      cbn [col_set d_cp1 d_cp2 d_v1 d_cc d_sc]. split; [exact Hv2|]. cbn [length] in He |- *. split; [lia|].
      split; [exact Hcp1|]. split; [exact Hcc|]. cbn [length] in Hsc. lia.
  - rewrite col_obj_count. unfold col_getCount. now rewrite E9.
  - exists (col_obj (col_mark s)). split; [reflexivity|]. exists (col_mark s), vs. split; auto. split; auto.
    split; [exact Ho|]. split; [exact HP|]. intros l' [= <-]. exists vs. split; auto.
  - intros l' i Hl'. destruct (Hm l' Hl') as (vs' & -> & HP2).
    exists (col_obj (col_reset s)). split; [reflexivity|].
    eexists _, vs'. split; [reflexivity|]. split; [reflexivity|]. unfold col_reset.
    destruct (d_saved s) as [[[[[[a b] c'] d] f] g] h] eqn:Es.
    split; [exact Ho|]. split; [exact HP2|]. cbn [col_set d_saved]. rewrite Es. exact Hm.
Qed.

Lemma cursor_scan k bk l o : Cursor k bk l o -> Scan k l o.
Proof.
  intros (S & HS & H0). exists (fun mk l o => exists c, S c mk l o). split; [|eauto].
  intros mk l1 o1 (c & H). destruct (HS _ _ _ _ H) as ((A1 & A3) & B & _ & (o3 & C1 & C2) & D & _).
  split; [|split; [exact B|split]].
  - split; auto. destruct l1; auto. destruct A3 as (o4 & ? & ? & ?); eauto 6.
  - exists o3. split; eauto.
  - intros l' i Hl'. destruct (D l' i Hl') as (o4 & ? & ?). eauto.
Qed.

Lemma col_setup1_ok bs k p G {nt} c1 : contains m p bs -> col_layout bs b1 b2 bc bo G nt ->
  StronglySorted plt (pairs G) -> int64 c1 ->
  exists st, col_setup1 m k c1 p (p + zlen bs) = Some st /\
    (filter (pair_matches c1 (-1)) (pairs G) <> [] ->
     col_getCardinality st = zlen (filter (pair_matches c1 (-1)) (pairs G)) /\
     col_getCardinality (col_ignore st) = 1 /\
     (d_b2 st = b2 /\ d_mem st = m /\ d_cc st = zlen (filter (pair_matches c1 (-1)) (pairs G)) /\
      vhere (d_sb2 st) (map snd (filter (pair_matches c1 (-1)) (pairs G))))) /\
    Scan k (filter (pair_matches c1 (-1)) (pairs G)) (col_obj st) /\
    Ignores k true (filter (pair_matches c1 (-1)) (pairs G)) (col_obj st).
Proof.
  pose proof z2_pos as Hz2.
  intros Hc Hl Hs Hc1.
  destruct (col_setup_ok bs k p G Hc Hl) as (sp1 & E & Hh & Hv & He).
  set (sp2 := sp1 + bfb * zlen G) in *. set (e := p + zlen bs) in *.
  assert (Hok : col_ok G) by (destruct Hl; split; apply pairs_sorted; auto).
  assert (Hnil : ehere sp2 (0 + zlen (seconds G)) []).
  { apply ehere_app. now rewrite app_nil_r. }
  unfold col_setup1. rewrite E.
  assert (HG : G = [] \/ G <> []) by (destruct G; [now left|right; discriminate]).
  assert (Hdead : forall st, col_over k sp2 e false st -> col_deadst st -> d_cp1 st = sp2 ->
    (@nil (Z * Z) <> [] -> col_getCardinality st = zlen (@nil (Z * Z)) /\ col_getCardinality (col_ignore st) = 1 /\
      (d_b2 st = b2 /\ d_mem st = m /\ d_cc st = zlen (@nil (Z * Z)) /\ vhere (d_sb2 st) (map snd (@nil (Z * Z))))) /\
    Scan k [] (col_obj st) /\ Ignores k true [] (col_obj st)).
  { intros st Ho Hd Hcp. split; [congruence|]. split.
    - apply (cursor_scan k true). exists (col_dead k). split; [apply col_dead_sim|]. split; auto. split; auto.
      exists st. split; auto. split; auto. discriminate.
    - eapply (col_gopen k sp2 sp2 e st []); eauto; [cbn [length]; lia|constructor]. }
  destruct HG as [-> |Hne].
  - assert (Hd : col_deadst (col_init k sp1 sp2 e nt (zlen (@nil (Z * list Z))))).
    { unfold col_deadst, col_init. cbn [d_ign d_sp2 d_cp1 d_end d_cp2]. split; auto.
      unfold sp2. cbn [seconds flat_map length] in *. lia. }
    rewrite (col_dead_hasNext _ Hd). eexists; split; [reflexivity|].
    apply Hdead; auto; [|unfold sp2; cbn; lia].
    apply (col_init_pos k sp1 sp2 e _ _ [] Hh Hv eq_refl He Hok).
  - destruct (col_seek k sp1 sp2 e nt (zlen G) G c1 0 Hh Hv eq_refl He Hok Hne Hc1 ltac:(unfold int64; lia))
      as (Hn & s1 & s2 & N1 & M1 & HS).
    cbv zeta in Hn, N1. rewrite Hn, N1, M1.
    assert (Hpos : forall x, In x (pairs G) -> 0 <= snd x).
    { intros [x y] Hx. unfold pairs in Hx. apply in_flat_map in Hx as (g & Hg & Hx). apply in_map_iff in Hx as (v & [= _ <-] & Hx).
      destruct Hv as [_ Hv]. rewrite Forall_forall in Hv.
      specialize (Hv v). unfold ufits in Hv. cbn [snd]. apply Hv. unfold seconds. apply in_flat_map. eauto. }
    assert (Hint : 0 <= c1) by (unfold int64 in Hc1; lia).
    assert (HM : filter (pair_matches c1 (-1)) (pairs G) =
      filter (pair_matches c1 (-1)) (filter (fun e => negb (pair_lt e c1 0)) (pairs G))).
    { apply filter_sub. intros x Hx. specialize (Hpos x Hx). unfold pair_matches, pair_lt. lia. }
    assert (HF : filter (fun e => negb (pair_lt e c1 0)) (pairs G) = pairs (gfilter c1 G)).
    { rewrite filter_pairs_skip. apply filter_true. apply Forall_forall. intros x Hx.
      assert (Hx2 : 0 <= snd x).
      { apply Hpos. rewrite (tw1_dw c1 G), pairs_app. apply in_or_app. now right. }
      apply pairs_fst in Hx as (g & Hg & Eg).
      assert (Hge : c1 <= fst g).
      { pose proof (gfilter_in c1 G (proj1 Hok)) as Hin. pose proof (gfilter_sorted c1 G (proj1 Hok)) as Hsg.
        destruct (gfilter c1 G) as [|g0 G0]; [contradiction|]. inversion Hsg as [|? ? _ Hf]; subst.
        rewrite Forall_forall in Hf. destruct Hg as [-> |Hg]; [lia|]. specialize (Hf g Hg). unfold glt in Hf. lia. }
      unfold pair_lt. lia. }
    rewrite HM.
    destruct (filter (fun e => negb (pair_lt e c1 0)) (pairs G)) as [|[v1 v2] l] eqn:EF.
    + destruct HS as [Hn2 Ho2]. rewrite Hn2. eexists; split; [reflexivity|].
      cbn [filter]. apply Hdead; [exact Ho2|eapply col_fail_dead; eauto|apply Ho2].
    + destruct HS as (Hn2 & s3 & vs & G' & N3 & -> & V1 & V2 & Ho3 & HP3). rewrite Hn2, N3, V1.
      assert (Ho' := Ho3). destruct Ho' as (E1 & E2 & E3 & E4 & E5 & E6 & E7 & E8 & E9).
      destruct HP3 as (off & Q1 & Q2 & Q3 & Q4 & Q5 & Q6 & Q7 & Q8 & [Q9 Q10] & Q11).
      change ((v1, v2) :: rest v1 vs G') with (rest v1 (v2 :: vs) G') in *.
      destruct (v1 =? c1) eqn:Eq.
      * assert (A1 : v1 = c1) by lia. rewrite A1 in *. clear A1 Eq v1.
        assert (Hfm : filter (pair_matches c1 (-1)) (rest c1 (v2 :: vs) G') = map (pair c1) (v2 :: vs)).
        { unfold rest. rewrite filter_app, filter_true, filter_false, app_nil_r; auto.
          - apply Forall_forall. intros x Hx. apply pairs_fst in Hx as (g & Hg & Eg).
            rewrite Forall_forall in Q11. specialize (Q11 g Hg). unfold pair_matches. lia.
          - apply Forall_forall. intros x Hx. apply in_map_iff in Hx as (v & <- & _). unfold pair_matches. cbn. lia. }
        rewrite Hfm.
        destruct (gfilter_ehere c1 _ _ _ Hh) as [Hh2 Hl2].
        pose proof (gfilter_in c1 G (proj1 Hok)) as Hin. pose proof (gfilter_sorted c1 G (proj1 Hok)) as Hsg.
        destruct (gfilter c1 G) as [|[a ws] G1] eqn:EG; [discriminate|].
        assert (Ha : a = c1).
        { assert (Hi : In (c1, v2) (pairs ((a, ws) :: G1))) by (rewrite <- HF; now left).
          apply pairs_fst in Hi as (g & Hg & Eg). cbn [fst] in *. inversion Hsg as [|? ? _ Hf]; subst.
          rewrite Forall_forall in Hf. destruct Hg as [<-|Hg]; [cbn in Eg; congruence|]. specialize (Hf g Hg). unfold glt in Hf. cbn [fst] in Hf. lia. }
        rewrite Ha in *. clear Ha a.
        assert (Hgt1 : Forall (fun g => c1 < fst g) G1) by (inversion Hsg; auto).
        change (pairs ((c1, ws) :: G1)) with (rest c1 ws G1) in HF.
        destruct (rest_inj c1 (v2 :: vs) ws G' G1 Q11 Hgt1 HF) as [<- HpG].
        assert (HlG : zlen G' = zlen G1).
        { assert (Hg : map gcount G' = map gcount G1).
          { rewrite <- !groups_pairs; auto.
            - now rewrite HpG.
            - apply ehere_ne in Hh2. now inversion Hh2.
            - now inversion Hsg.
            - eapply ehere_ne; eauto. }
          apply (f_equal (@length _)) in Hg. rewrite !map_length in Hg. lia. }
        destruct (ehere_cons _ _ _ _ Hh2) as (R1 & R2 & _). cbn [fst snd] in R1, R2.
        set (E0 := sp1 + bfb * zlen (tw1 c1 G)) in *.
        assert (HE0 : d_cp1 s3 - bfb = E0) by (unfold E0, sp2 in *; cbn [length] in Hl2; lia).
        destruct (Q7 ltac:(discriminate)) as (_ & Q7b & Q7c). rewrite HE0, R2 in Q7c.
        assert (Q7d : d_cc s3 = zlen (v2 :: vs)) by congruence. clear Q7c. rewrite Q7d in *.
        assert (Hsb : d_sb2 s3 = d_cp2 s3 - z2) by lia.
        assert (Hsc : d_sc s3 = 1).
        { assert (Hcc : zlen (v2 :: vs) - (d_sc s3 - 1) = zlen (v2 :: vs)) by (apply Q6; left; discriminate). lia. }
        set (st := mkCol _ _ _ _ _ _ _ _ _ _ _ _ _ _ _ _ _ _ _ _).
        eexists; split; [reflexivity|].
        assert (Hos : col_over k (d_cp1 s3) (d_sb2 s3 + zlen (v2 :: vs) * z2) false st).
        { unfold col_over, st in *. cbn [d_b1 d_b2 d_bc d_bo d_mem d_key d_end d_sp2 d_ign]. unfold d_z2. rewrite E2. fold z2. tauto. }
        assert (Hc1st : d_cp1 st = E0).
        { unfold st. cbn [d_cp1]. unfold d_bfb. rewrite E1, E3, E4. fold z1 zc zo. fold bfb. exact HE0. }
        split.
        { intros _. unfold col_getCardinality, col_ignore, st. cbn [d_ign d_nTerms d_nUniq d_b2 d_mem d_cc d_sb2]. rewrite E9, map_length. split; auto. split; auto.
          split; [exact E2|]. split; auto. split; auto. rewrite map_map. cbn [snd]. rewrite map_id, Hsb. apply vhere_app in Q3 as [Q3 _]. exact Q3. }
        split.
        -- exists (col_scanS k c1 (zlen (v2 :: vs)) (d_cp1 s3) (d_sb2 s3 + zlen (v2 :: vs) * z2)). split.
           { apply col_scan_sim; rewrite HE0; auto. }
           exists st, (v2 :: vs). split; auto. split; auto. split; [exact Hos|]. split; [|discriminate].
           split; [reflexivity|]. rewrite Hc1st. unfold st at 1 2 3. cbn [d_cp2 d_cc d_sc]. split.
           { rewrite Hsb. apply vhere_app in Q3 as [Q3 _]. exact Q3. }
           split; [lia|]. split; [lia|]. split; [reflexivity|]. cbn; rewrite ?Hsc; lia.
        -- replace (map (pair c1) (v2 :: vs)) with (pairs [(c1, v2 :: vs)]) by (cbn [pairs flat_map fst snd]; apply app_nil_r).
           eapply (col_gopen k E0 (d_cp1 s3) _ st [(c1, v2 :: vs)]); [|cbn [length]; lia|repeat constructor|exact Hos|exact Hc1st].
           eapply ehere_first; eauto.
      * rewrite filter_false.
        2:{ assert (Hge : c1 <= v1).
            { assert (Hi : In (v1, v2) (filter (fun e => negb (pair_lt e c1 0)) (pairs G))) by (rewrite EF; now left).
              apply filter_In in Hi as [_ Hi]. unfold pair_lt in Hi. cbn [fst snd] in Hi. lia. }
            apply Forall_forall. intros x Hx. unfold rest in Hx. apply in_app_or in Hx as [Hx|Hx].
            - apply in_map_iff in Hx as (v & <- & _). unfold pair_matches. cbn. lia.
            - apply pairs_fst in Hx as (g & Hg & Eg). rewrite Forall_forall in Q11. specialize (Q11 g Hg).
              unfold pair_matches. lia. }
        eexists; split; [reflexivity|].
        apply Hdead; [exact Ho3|eapply col_fail_dead; eauto|apply Ho3].
Qed.
End Column.
