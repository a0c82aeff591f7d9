(** Proofs about the choice and the coding of table layouts. *)
From Coq Require Import Sorted.
From Verif Require Export TableModel ColumnModel ItrProofs TableSpec TableProofs RowProofs ClusterProofs ColumnProofs TableProps StrategyModel.
Local Open Scope Z_scope.
Ltac Zify.zify_post_hook ::= Z.div_mod_to_equations.

Definition code03 (c : Z) : Prop := c = 0 \/ c = 1 \/ c = 2 \/ c = 3.

Lemma code_width c : code03 c -> is_width (width_of_code c).
Proof. intros [-> |[-> |[-> | -> ]]]; cbn; unfold is_width; auto. Qed.

Lemma flag_code nb : code03 (flagbytes nb).
Proof.
  unfold flagbytes, code03. destruct (nb =? 1)%nat; auto. destruct (nb =? 2)%nat; auto.
  destruct (nb <? 5)%nat; auto.
Qed.

Lemma flag_fits v mx : 0 <= v <= mx -> mx < 2 ^ 39 -> fits (width_of_code (flagbytes (nbytes mx))) v.
Proof.
  intros Hv Hm. destruct (nbytes_fits mx) as [H1 H2]; [lia|].
  remember (nbytes mx) as n eqn:En. clear En. unfold fits.
  destruct n as [|[|[|[|[|n]]]]]; [lia| | | | |]; cbn [flagbytes Nat.eqb Nat.ltb Nat.leb width_of_code Z.eqb orb];
    try (cbn in H1 |- *; lia).
Qed.

Lemma row_sig f1 f2 : code03 f1 -> code03 f2 ->
  let sig := to_char (setBytesField2 (setBytesField1 (setStorageType 0 NEWROW_ITR) f1) f2) in
  getBinaryTable sig = Some (RRow (width_of_code f1) (width_of_code f2)) /\
  getBinaryTableInserter sig = Some (IRow f1 f2).
Proof. intros [-> |[-> |[-> | -> ]]] [-> |[-> |[-> | -> ]]]; vm_compute; auto. Qed.

Lemma cl_sig f1 f2 (b : bool) : code03 f1 -> code03 f2 ->
  let st := setBytesField2 (setBytesField1 (setStorageType 0 NEWCLUSTER_ITR) f1) f2 in
  let sig := to_char (if b then Z.lor st 1 else st) in
  getBinaryTable sig = Some (RCluster (width_of_code f1) (width_of_code f2) (if b then 4%nat else 1%nat)) /\
  getBinaryTableInserter sig = Some (ICluster f1 f2 (if b then 4 else 1)).
Proof. destruct b; intros [-> |[-> |[-> | -> ]]] [-> |[-> |[-> | -> ]]]; vm_compute; auto. Qed.

(** ** One pass over the pairs *)

Definition countf (a : Z) (l : list (Z * Z)) : Z := Z.of_nat (length (filter (fun e => fst e =? a) l)).

Lemma countf_app a l x : countf a (l ++ [x]) = countf a l + (if fst x =? a then 1 else 0).
Proof.
  unfold countf. rewrite filter_app, app_length. cbn. destruct (fst x =? a); cbn; lia.
Qed.

Lemma countf_0 a l : (forall x, In x l -> fst x <> a) -> countf a l = 0.
Proof.
  intros H. unfold countf. induction l as [|x l IH]; auto. cbn.
  destruct (Z.eqb_spec (fst x) a) as [E|E]; [exfalso; apply (H x); cbn; auto|]. apply IH.
  intros y Hy. apply H. now right.
Qed.

Lemma SS_snoc {A} (R : A -> A -> Prop) l x : StronglySorted R (l ++ [x]) ->
  StronglySorted R l /\ Forall (fun y => R y x) l.
Proof.
  induction l as [|a l IH]; cbn; intros H; [repeat constructor|].
  inversion H as [|? ? H1 H2]; subst. destruct (IH H1) as [I1 I2].
  apply Forall_app in H2. destruct H2 as [H2 H3]. split; constructor; auto. now inversion H3.
Qed.

Record ds_ok (l : list (Z * Z)) (s : ds_st) : Prop := {
  do_1 : forall x, In x l -> fst x <= ds_max1 s /\ snd x <= ds_max2 s;
  do_m : 0 <= ds_max1 s /\ 0 <= ds_max2 s;
  do_p : forall x, In x l -> fst x <= ds_prev s;
  do_c : ds_cur s = countf (ds_prev s) l;
  do_g : forall a, countf a l <= ds_maxg s;
  do_w : forall M, 0 <= M -> (forall x, In x l -> fst x <= M /\ snd x <= M) -> ds_max1 s <= M /\ ds_max2 s <= M
}.

Lemma ds_pass l : StronglySorted plt l -> (forall x, In x l -> 0 <= fst x) ->
  ds_ok l (fold_left ds_step l (mkDs 0 0 0 0 0 (-1))) /\
  (l <> [] -> exists b, In (ds_prev (fold_left ds_step l (mkDs 0 0 0 0 0 (-1))), b) l).
Proof.
  induction l as [|[a b] l IH] using rev_ind; intros Hs Hp.
  { split; [|congruence]. split; cbn; intros; try lia; try contradiction; reflexivity || auto. }
  rewrite fold_left_app. cbn [fold_left].
  apply SS_snoc in Hs. destruct Hs as [Hs Hl]. rewrite Forall_forall in Hl.
  destruct IH as [[I1 I2 I3 I4 I5 I6] IN]; auto.
  { intros x Hx. apply Hp. apply in_or_app. auto. }
  set (s := fold_left ds_step l (mkDs 0 0 0 0 0 (-1))) in *.
  assert (Ha : 0 <= a) by (apply (Hp (a, b)); apply in_or_app; right; cbn; auto).
  assert (Hlast : ds_prev s <= a).
  { destruct l as [|z l']; [subst s; cbn [fold_left ds_prev]; lia|]. destruct IN as [b' Hb']; [congruence|].
    specialize (Hl _ Hb'). unfold plt in Hl. cbn [fst snd] in Hl. lia. }
  unfold ds_step. split.
  - split; cbn [ds_max1 ds_max2 ds_prev ds_cur ds_maxg ds_ngroups].
    + intros x Hx. apply in_app_or in Hx. destruct Hx as [Hx|[<-|[]]]; cbn [fst snd].
      * destruct (I1 x Hx). destruct (Z.ltb_spec (ds_max1 s) a), (Z.ltb_spec (ds_max2 s) b); lia.
      * destruct (Z.ltb_spec (ds_max1 s) a), (Z.ltb_spec (ds_max2 s) b); lia.
    + destruct (Z.ltb_spec (ds_max1 s) a), (Z.ltb_spec (ds_max2 s) b); lia.
    + intros x Hx. apply in_app_or in Hx. destruct Hx as [Hx|[<-|[]]]; cbn [fst snd].
      * specialize (I3 x Hx). destruct (Z.eqb_spec a (ds_prev s)); cbn [negb]; lia.
      * destruct (Z.eqb_spec a (ds_prev s)); cbn [negb]; lia.
    + rewrite countf_app. cbn [fst]. destruct (Z.eqb_spec a (ds_prev s)) as [E|E]; cbn [negb].
      * rewrite I4, E, Z.eqb_refl. lia.
      * rewrite Z.eqb_refl, (countf_0 a l); [lia|]. intros x Hx. specialize (I3 x Hx). lia.
    + intros c. rewrite countf_app. cbn [fst]. specialize (I5 c) as I5c.
      destruct (Z.eqb_spec a (ds_prev s)) as [E|E]; cbn [negb].
      * destruct (Z.eqb_spec a c) as [E2|E2].
        -- subst c. rewrite E, <- I4. destruct (Z.ltb_spec (ds_maxg s) (ds_cur s + 1)); lia.
        -- destruct (Z.ltb_spec (ds_maxg s) (ds_cur s + 1)); lia.
      * destruct (Z.eqb_spec a c) as [E2|E2].
        -- subst c. rewrite (countf_0 a l); [destruct (Z.ltb_spec (ds_maxg s) (0 + 1)); lia|].
           intros x Hx. specialize (I3 x Hx). lia.
        -- destruct (Z.ltb_spec (ds_maxg s) (0 + 1)); lia.
    + intros M HM H. destruct (I6 M HM) as [J1 J2].
      { intros x Hx. apply H. apply in_or_app. auto. }
      destruct (H (a, b)) as [J3 J4]; [apply in_or_app; right; cbn; auto|]. cbn [fst snd] in *.
      destruct (Z.ltb_spec (ds_max1 s) a), (Z.ltb_spec (ds_max2 s) b); lia.
  - intros _. cbn [ds_prev]. destruct (Z.eqb_spec a (ds_prev s)) as [E|E]; cbn [negb].
    + exists b. apply in_or_app. right. cbn. left. now rewrite E.
    + exists b. apply in_or_app. right. cbn. auto.
Qed.

(** ** The reader can represent the table *)

Definition reader_fits (r : reader) (l : list (Z * Z)) : Prop :=
  match r with
  | RColumn => True
  | RRow w1 w2 => is_width w1 /\ is_width w2 /\ pairs_fit w1 w2 l
  | RCluster w1 w2 wc => is_width w1 /\ is_width w2 /\ is_width wc /\ pairs_fit w1 w2 l /\ counts_fit wc l
  end.

Definition reader_write (th : Z) (r : reader) (l : list (Z * Z)) : list Z :=
  match r with
  | RColumn => col_write th l
  | RRow w1 w2 => row_write w1 w2 l
  | RCluster w1 w2 wc => cl_write w1 w2 wc l
  end.

Definition below39 (l : list (Z * Z)) : Prop := forall a b, In (a, b) l -> 0 <= a < 2 ^ 39 /\ 0 <= b < 2 ^ 39.

Lemma groups_count a n l : In (a, n) (groups l) -> n = countf a l.
Proof. unfold groups. intros H. apply in_map_iff in H. destruct H as (x & [= <- <-] & _). reflexivity. Qed.

Lemma groups_count1 a n l : In (a, n) (groups l) -> 1 <= n <= zl l.
Proof.
  unfold groups. intros H. apply in_map_iff in H. destruct H as (x & [= <- <-] & Hx).
  apply nodup_In, in_map_iff in Hx. destruct Hx as (y & <- & Hy). split.
  - destruct (filter (fun e => fst e =? fst y) l) eqn:E; [|cbn; lia].
    exfalso. assert (In y []) by (rewrite <- E; apply filter_In; split; auto; apply Z.eqb_refl). contradiction.
  - assert (length (filter (fun e => (fst e =? fst y)%Z) l) <= length l)%nat; [|lia].
    clear. induction l as [|x l IH]; cbn; auto. destruct (fst x =? fst y); cbn; lia.
Qed.

(** Every strategy that the choice can give, for a table of which only the first part was seen
    when the choice was made. *)
Lemma strategy_ok l0 l ncc ur : StronglySorted plt l -> below39 l ->
  l0 = firstn (Z.to_nat THRESHOLD_KEEP_MEMORY) l ->
  let sig := determineStrategy l0 ncc ur in
  exists r i, getBinaryTable sig = Some r /\ getBinaryTableInserter sig = Some i /\ -128 <= sig < 128 /\
    reader_fits r l /\ forall th, ins_write th i l = Some (reader_write th r l).
Proof.
  intros Hs Hb E0. cbv zeta. assert (Hrange : forall v, -128 <= to_char v < 128) by (intros; unfold to_char; lia).
  assert (Hc3 : code03 3) by (unfold code03; auto).
  unfold determineStrategy. destruct (Z.ltb_spec (Z.of_nat (length l0)) THRESHOLD_KEEP_MEMORY) as [HT|HT].
  - assert (El : l0 = l).
    { subst l0. rewrite firstn_length in HT. apply firstn_all2. unfold THRESHOLD_KEEP_MEMORY in *. lia. }
    clear E0. subst l0. destruct (ds_pass l Hs) as [[D1 D2 D3 D4 D5 D6] _].
    { intros [a b] Hx. apply (Hb a b Hx). }
    set (s := fold_left ds_step l (mkDs 0 0 0 0 0 (-1))) in *.
    assert (Hmx : ds_max1 s < 2 ^ 39 /\ ds_max2 s < 2 ^ 39).
    { destruct (D6 (2 ^ 39 - 1)); try lia. intros [a b] Hx. specialize (Hb a b Hx). cbn. lia. }
    assert (Hpf : pairs_fit (width_of_code (flagbytes (nbytes (ds_max1 s)))) (width_of_code (flagbytes (nbytes (ds_max2 s)))) l).
    { intros a b Hx. specialize (Hb a b Hx). specialize (D1 _ Hx). cbn in D1. split; apply flag_fits; lia. }
    destruct (ncc <=? ds_ngroups s).
    { exists RColumn, IColumn. repeat split; try apply Hrange. }
    destruct (_ <? _).
    + destruct (row_sig _ _ (flag_code (nbytes (ds_max1 s))) (flag_code (nbytes (ds_max2 s)))) as [R1 R2].
      do 2 eexists. split; [exact R1|]. split; [exact R2|]. split; [apply Hrange|].
      split; [|reflexivity]. cbn. auto using code_width, flag_code.
    + set (big := 1 <? (if ds_maxg s <=? 255 then 1 else 4)).
      destruct (cl_sig _ _ big (flag_code (nbytes (ds_max1 s))) (flag_code (nbytes (ds_max2 s)))) as [R1 R2].
      do 2 eexists. split; [exact R1|]. split; [exact R2|]. split; [apply Hrange|]. split.
      * split; [auto using code_width, flag_code|]. split; [auto using code_width, flag_code|].
        split; [destruct big; unfold is_width; auto|]. split; [exact Hpf|]. intros a n H.
        assert (G1 := groups_count1 _ _ _ H). apply groups_count in H. specialize (D5 a). subst n.
        unfold fits, big. unfold THRESHOLD_KEEP_MEMORY in HT.
        destruct (Z.leb_spec (ds_maxg s) 255); cbn; lia.
      * intros th. unfold reader_write. cbn. destruct big; reflexivity.
  - assert (HB : forall a b, In (a, b) l -> fits 5 a /\ fits 5 b).
    { intros a b Hx. specialize (Hb a b Hx). unfold fits. cbn. lia. }
    destruct ur.
    + destruct (row_sig 3 3 Hc3 Hc3) as [R1 R2].
      do 2 eexists. split; [exact R1|]. split; [exact R2|]. split; [apply Hrange|]. split; [|reflexivity].
      cbn. unfold is_width. auto 8.
    + exists RColumn, IColumn. repeat split; try apply Hrange.
Qed.

(** ** Opening a stored table *)

Lemma below39_56 l : below39 l -> pairs_below56 l.
Proof. intros H a b Hx. specialize (H a b Hx). lia. Qed.

Lemma tbl_open_all r th m k p l : reader_fits r l -> StronglySorted plt l -> below39 l -> zl l < 2 ^ 56 ->
  contains m p (reader_write th r l) ->
  exists o bk, tbl_open r m k (-1) (-1) p (p + zl (reader_write th r l)) = Some o /\ Table k bk l o.
Proof.
  intros Hf Hs Hb Hl Hc. destruct r as [|w1 w2|w1 w2 wc]; cbn [tbl_open reader_write reader_fits] in *;
    change (-1 =? -1) with true; cbn iota.
  - destruct (C12_column_open th m k p l Hs (below39_56 _ Hb) Hl Hc) as (st & -> & _ & _ & HT). eauto.
  - destruct Hf as (W1 & W2 & Hf). do 2 eexists. split; [reflexivity|]. now apply C10_row_open.
  - destruct Hf as (W1 & W2 & W3 & Hf & Hn). do 2 eexists. split; [reflexivity|]. now apply C11_cluster_open.
Qed.

Lemma yields_table k bk l o : Table k bk l o -> Yields true (with_key k l) o.
Proof. intros [H _]. eapply Cursor_yields; eauto. Qed.

Lemma tbl_open_first r th m k p l c1 : reader_fits r l -> StronglySorted plt l -> below39 l -> zl l < 2 ^ 56 ->
  contains m p (reader_write th r l) -> l <> [] -> int64 c1 ->
  exists o, tbl_open r m k c1 (-1) p (p + zl (reader_write th r l)) = Some o /\
    Yields true (with_key k (filter (pair_matches c1 (-1)) l)) o.
Proof.
  intros Hf Hs Hb Hl Hc Hn H1. assert (Hc1 : (c1 =? -1) = false) by (apply Z.eqb_neq; unfold int64 in H1; lia).
  destruct r as [|w1 w2|w1 w2 wc]; cbn [tbl_open reader_write reader_fits] in *; rewrite Hc1;
    change (-1 =? -1) with true; cbn iota.
  - destruct (C12_column_open_first_partial th m k p l c1 Hs (below39_56 _ Hb) Hl H1 Hc) as (st & -> & HS & _).
    eexists. split; [reflexivity|]. now apply C12_scan_yields.
  - destruct Hf as (W1 & W2 & Hf). unfold int64 in H1.
    destruct (C10_row_open_first w1 w2 m k p l c1 W1 W2 Hs Hf Hc Hn) as (st & -> & HT); [lia|].
    eexists. split; [reflexivity|]. eapply yields_table; eauto.
  - destruct Hf as (W1 & W2 & W3 & Hf & Hn'). unfold int64 in H1.
    destruct (C11_cluster_open_first w1 w2 wc m k p l c1 W1 W2 W3 Hs Hf Hn' Hc) as (st & -> & HT); [lia|].
    eexists. split; [reflexivity|]. eapply yields_table; eauto.
Qed.

Lemma width_le8 w : is_width w -> Z.of_nat w <= 8.
Proof. unfold is_width. lia. Qed.

Lemma tbl_open_both r th m k p l c1 c2 : reader_fits r l -> StronglySorted plt l -> below39 l -> zl l < 2 ^ 56 ->
  contains m p (reader_write th r l) -> l <> [] -> int64 c1 -> int64 c2 ->
  p + zl (reader_write th r l) + 16 <= zl m ->
  exists o, tbl_open r m k c1 c2 p (p + zl (reader_write th r l)) = Some o /\
    Yields true (with_key k (filter (pair_matches c1 c2) l)) o.
Proof.
  intros Hf Hs Hb Hl Hc Hn H1 H2 Hm. assert (Hc1 : (c1 =? -1) = false) by (apply Z.eqb_neq; unfold int64 in H1; lia).
  assert (Hc2 : (c2 =? -1) = false) by (apply Z.eqb_neq; unfold int64 in H2; lia).
  destruct r as [|w1 w2|w1 w2 wc]; cbn [tbl_open reader_write reader_fits] in *; rewrite Hc1, Hc2; cbn iota.
  - destruct (C12_column_open_both th m k p l c1 c2 Hs (below39_56 _ Hb) Hl H1 H2 Hc) as (st & -> & HS).
    eexists. split; [reflexivity|]. eapply Cursor_yields; eauto.
  - destruct Hf as (W1 & W2 & Hf). unfold int64 in *. assert (V1 := width_le8 _ W1). assert (V2 := width_le8 _ W2).
    destruct (C10_row_open_both_partial w1 w2 m k p l c1 c2 W1 W2 Hs Hf Hc Hn) as (st & -> & HT); try lia.
    eexists. split; [reflexivity|]. eapply yields_table; eauto.
  - destruct Hf as (W1 & W2 & W3 & Hf & Hn'). unfold int64 in *.
    destruct (C11_cluster_open_both w1 w2 wc m k p l c1 c2 W1 W2 W3 Hs Hf Hn' Hc) as (st & -> & HT); try lia.
    eexists. split; [reflexivity|]. eapply Cursor_yields; eauto.
Qed.
