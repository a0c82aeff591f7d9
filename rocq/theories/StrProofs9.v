(** The string buffer: histories, close and open. *)
From Verif Require Import TableProofs ColumnProofs StrSpec StrProofs StrProofs2 StrProofs3 StrProofs4 StrProofs5 StrProofs6 StrProofs7 StrProofs8.
From Coq Require Import ZifyBool Permutation.
Local Open Scope Z_scope.

(** ** The size does not shrink *)
Ltac opt H := repeat match type of H with
  | match ?e with Some _ => _ | None => None end = Some _ => let E := fresh "E" in destruct e eqn:E; [|discriminate H]
  | (let '(_, _) := ?e in _) = _ => destruct e
  | (if ?b then _ else _) = _ => let E := fresh "E" in destruct b eqn:E
  end.

Section Mono.
Variables B cap : Z.
Variable lz : list Z -> list Z.
Variable sched : nat -> nat.

Lemma sync_us s s' : sync lz sched s = Some s' -> s_usize s' = s_usize s.
Proof. unfold sync. intros H. opt H. injection H as <-. reflexivity. Qed.
Lemma wait_us f : forall s s', wait lz f s = Some s' -> s_usize s' = s_usize s.
Proof.
  induction f as [|f IH]; intros s s' H; cbn [wait] in H; destruct (b_slot (s_bg s)); try discriminate; try (injection H as <-; reflexivity).
  opt H. apply IH in H. exact H.
Qed.
Lemma evict_us s s' : evict false lz sched s = Some s' -> s_usize s' = s_usize s.
Proof.
  unfold evict. intros H. opt H. apply sync_us in E1. injection H as <-. cbn. exact E1.
Qed.
Lemma add_us i s s' : add_cache cap false lz sched i s = Some s' -> s_usize s' = s_usize s.
Proof.
  unfold add_cache. intros H. destruct (i =? _); [injection H as <-; reflexivity|].
  destruct (if c_elems (s_cache s) =? cap then evict false lz sched s else Some s) as [s1|] eqn:E1; [|discriminate].
  assert (s_usize s1 = s_usize s). { destruct (c_elems (s_cache s) =? cap); [apply evict_us in E1; auto|congruence]. }
  cbv zeta in H. match type of H with match ?e with Some _ => _ | None => _ end = _ => destruct e; [|discriminate] end. injection H as <-. exact H0.
Qed.
Lemma compress_us s s' : compress_last cap false lz sched s = Some s' -> s_usize s' = s_usize s.
Proof.
  unfold compress_last. intros H. 
  destruct (sync lz sched s) as [s1|] eqn:E1; [|discriminate]. destruct (wait lz 3 s1) as [s2|] eqn:E2; [|discriminate].
  destruct (wpos s2) as [p|]; [|discriminate]. cbv zeta in H.
  match type of H with match ?e with Some _ => _ | None => _ end = _ => destruct e as [s3|] eqn:E3; [|discriminate] end.
  match type of H with match ?e with Some _ => _ | None => _ end = _ => destruct e as [s4|] eqn:E4; [|discriminate] end.
  injection H as <-. cbn. apply sync_us in E1, E3. apply wait_us in E2. apply add_us in E4. cbn in E3. congruence.
Qed.
Lemma push_us bs s s' : push B bs s = Some s' -> s_usize s <= s_usize s'.
Proof. unfold push. intros H. opt H; [|discriminate]. injection H as <-. cbn. lia. Qed.
Lemma vint_us n s s' : write_vint B cap false lz sched n s = Some s' -> s_usize s <= s_usize s'.
Proof.
  unfold write_vint. intros H. destruct (wpos s) as [p|]; [|discriminate]. cbv zeta in H. destruct (_ && _); [|eapply push_us; eauto].
  destruct (4 <? _); [discriminate|].
  destruct (push B _ s) as [s1|] eqn:E1; [|discriminate]. destruct (compress_last cap false lz sched s1) as [s2|] eqn:E2; [|discriminate].
  apply push_us in E1, H. apply compress_us in E2. lia.
Qed.
Lemma bytes_us n s s' : write_bytes B cap false lz sched n s = Some s' -> s_usize s <= s_usize s'.
Proof.
  unfold write_bytes. intros H. destruct (wpos s) as [p|]; [|discriminate]. cbv zeta in H. destruct (_ <=? _); [eapply push_us; eauto|].
  destruct (push B _ s) as [s1|] eqn:E1; [|discriminate]. destruct (compress_last cap false lz sched s1) as [s2|] eqn:E2; [|discriminate].
  apply push_us in E1, H. apply compress_us in E2. lia.
Qed.
Lemma append_us x s s' : append B cap false lz sched x s = Some s' -> s_usize s <= s_usize s'.
Proof.
  unfold append. intros H. destruct (write_vint B cap false lz sched _ s) as [s1|] eqn:E1; [|discriminate]. apply vint_us in E1.
  destruct (wpos s1) as [p|]; [|discriminate].
  destruct (if B - p =? 0 then compress_last cap false lz sched s1 else Some s1) as [s2|] eqn:E2; [|discriminate].
  assert (s_usize s2 = s_usize s1). { destruct (B - p =? 0); [apply compress_us in E2; auto|congruence]. }
  destruct (calc_prefix _ x s2) as [n|]; [|discriminate]. destruct (n =? 0).
  - destruct (push B [0] s2) as [s3|] eqn:E3; [|discriminate]. apply push_us in E3. destruct (wpos s3); [|discriminate]. apply bytes_us in H. cbn in H. lia.
  - destruct (push B [1] s2) as [s3|] eqn:E3; [|discriminate]. apply push_us in E3.
    destruct (write_vint B cap false lz sched _ s3) as [s4|] eqn:E4; [|discriminate]. apply vint_us in E4.
    destruct (write_vint B cap false lz sched _ s4) as [s5|] eqn:E5; [|discriminate]. apply vint_us in E5. cbv zeta in H. apply bytes_us in H. cbn in H. lia.
Qed.

Variable unlz : list Z -> Z -> option (list Z).
Ltac dm := repeat match goal with
  | E : match ?e with _ => _ end = Some _ |- _ => destruct e eqn:?; try discriminate E
  | E : Some _ = Some _ |- _ => injection E; clear E; intros; subst
  end.
Lemma uncompress_us b s s' : uncompress B lz unlz sched b s = Some s' -> s_usize s' = s_usize s.
Proof.
  unfold uncompress. intros H. destruct (sync lz sched s) as [s1|] eqn:E1; [|discriminate]. cbv zeta in H.
  match type of H with match ?e with Some _ => _ | None => _ end = _ => destruct e; [|discriminate] end.
  match type of H with match ?e with Some _ => _ | None => _ end = _ => destruct e; [|discriminate] end.
  match type of H with match ?e with Some _ => _ | None => _ end = _ => destruct e; [|discriminate] end.
  destruct (sync lz sched s1) as [s2|] eqn:E2; [|discriminate]. injection H as <-. cbn. apply sync_us in E1, E2. congruence.
Qed.
Lemma block_us i s a s' : get_block B cap false lz unlz sched i s = Some (a, s') -> s_usize s' = s_usize s.
Proof.
  unfold get_block. intros H. cbv zeta in H. destruct (nth_error _ _) as [[b|]|]; [| |discriminate].
  - destruct (i =? _); [injection H; intros; subst; reflexivity|]. dm; reflexivity.
  - destruct (add_cache cap false lz sched i s) as [s1|] eqn:E1; [|discriminate]. destruct (uncompress B lz unlz sched i s1) as [s2|] eqn:E2; [|discriminate].
    apply add_us in E1. apply uncompress_us in E2. match type of H with match ?e with Some _ => _ | None => _ end = _ => destruct e; [|discriminate] end. injection H as <- <-. congruence.
Qed.
Lemma get_vint_us r s v r' s' : get_vint B cap false lz unlz sched r s = Some (v, r', s') -> s_usize s' = s_usize s.
Proof.
  unfold get_vint. intros H. destruct r as ((i & p) & off). destruct (bytes_at s p) as [c|]; [|discriminate]. cbv zeta in H. destruct (B - off <? 4); [|dm; reflexivity].
  match type of H with match ?e with Some _ => _ | None => _ end = _ => destruct e as [((sup & nx) & s1)|] eqn:E1; [|discriminate] end.
  assert (s_usize s1 = s_usize s). { destruct (i <? _); [|congruence]. destruct (get_block B cap false lz unlz sched (i + 1) s) as [(a & s2)|] eqn:E2; [|discriminate]. apply block_us in E2. destruct (deref _ _); [|discriminate]. congruence. }
  dm; auto.
Qed.
Lemma get_flag_us r s v r' s' : get_flag B cap false lz unlz sched r s = Some (v, r', s') -> s_usize s' = s_usize s.
Proof.
  unfold get_flag. intros H. destruct r as ((i & p) & off). destruct (off <? B); [dm; reflexivity|].
  destruct (get_block B cap false lz unlz sched (i + 1) s) as [(a & s2)|] eqn:E2; [|discriminate]. apply block_us in E2. dm; auto.
Qed.
Ltac us := repeat match goal with
  | E : get_block B cap false lz unlz sched _ _ = Some _ |- _ => apply block_us in E
  | E : get_vint B cap false lz unlz sched _ _ = Some _ |- _ => apply get_vint_us in E
  | E : get_flag B cap false lz unlz sched _ _ = Some _ |- _ => apply get_flag_us in E
  end.
Lemma get_us p s x s' : get B cap false lz unlz sched p s = Some (x, s') -> s_usize s' = s_usize s.
Proof. unfold get. cbv zeta. intros H. dm; us; congruence. Qed.
Lemma cmp_us p x s c s' : cmp B cap false lz unlz sched p x s = Some (c, s') -> s_usize s' = s_usize s.
Proof. unfold cmp. cbv zeta. intros H. dm; us; congruence. Qed.
End Mono.

Section Histories.
Variables B cap : Z.
Variable lz : list Z -> list Z.
Variable unlz : list Z -> Z -> option (list Z).
Variable sched : nat -> nat.
Hypothesis Hcap : 5 <= cap.
Hypothesis Hlz : codec lz unlz.
Hypothesis HB : 16 <= B <= 2 ^ 20.

Definition listed (bl : list (list Z)) (l : list (list Z * Z)) : Prop :=
  (forall x p, In (x, p) l -> exists tl, stored B bl p x tl) /\
  (forall l0 y q, l = l0 ++ [(y, q)] -> forall x p, In (x, p) l0 -> exists tl, tl <> [] /\ stored B bl p x tl).
Definition INV (s : sb) (l : list (list Z * Z)) (init : list (list Z)) (c : list Z) : Prop :=
  WI B cap lz s init c /\ (init = [] \/ c <> []) /\ listed (init ++ [c]) l.
Definition calm (reads : bool) (s : sb) : Prop := reads = false \/ keeps_up sched \/ all_cached B cap s.

Lemma WI_full s init c : WI B cap lz s init c -> FullB B (init ++ [c]).
Proof.
  intros W i d E. destruct (nth_snoc _ _ _ _ E) as [(L & E')|(-> & <-)].
  - pose proof (wi_full _ _ _ _ _ _ W) as F. rewrite Forall_forall in F. specialize (F d (nth_error_In _ _ E')). lia.
  - pose proof (wi_last _ _ _ _ _ _ W). split; [auto|]. rewrite app_length. cbn. lia.
Qed.

Lemma INV_ok s l init c : INV s l init c -> keeps_up sched \/ all_cached B cap s -> OK B cap false lz sched s (init ++ [c]) (length (init ++ [c]) - 1).
Proof.
  intros (W & Hne & _) Hc. pose proof (WI_full _ _ _ W) as HF. pose proof W as W0. destruct W as [(q & WCq) F L U Ba]. exists q. split; [apply WCq|]. split; [apply WCq|]. split.
  - intros d Hd. apply In_nth_error in Hd. destruct Hd as (i & Hi). apply HF in Hi. lia.
  - destruct Hc as [Hc|Hc]; [right; left; auto|]. right. right. apply (wc_all _ _ _ _ _ WCq). unfold all_cached in Hc. rewrite U in Hc.
    rewrite concat_snoc, app_length in Hc. pose proof (concat_full B HB init F) as E. rewrite app_length. cbn [length].
    destruct Hne as [->|Hne]; [cbn; lia|]. assert (0 < length c)%nat by (destruct c; [congruence|cbn; lia]). nia.
Qed.

Lemma INV_back s s' l init c : INV s l init c -> OK B cap false lz sched s' (init ++ [c]) (length (init ++ [c]) - 1) -> FR false (init ++ [c]) s s' -> INV s' l init c.
Proof.
  intros (W & Hne & HL) (q' & C' & M' & _ & _) (F1 & F2 & F3 & F4). split; [|auto]. destruct W as [(q & WCq) F L U Ba]. constructor.
  - exists q'. destruct WCq as [C M P X A]. constructor; auto.
    + rewrite F2. apply F1; auto. lia.
  - auto.
  - auto.
  - congruence.
  - rewrite F2. auto.
Qed.

Lemma new_inv s : sb_new cap sched = Some s -> INV s [] [] [].
Proof.
  unfold sb_new, add_cache. cbn [s_cache c_last c_elems c_cv]. destruct (Z.eqb_spec 0 (-1)); [lia|]. destruct (Z.eqb_spec 0 cap); [lia|]. cbn. intros H. injection H as <-.
  split; [|split; [auto|split; [intros ? ? []|intros [|? ?] ? ? E; discriminate]]].
  constructor; cbn; try lia; try (now constructor); [|unfold Base; cbn; lia].
  exists [0]. constructor; cbn.
  - constructor; cbn.
    + reflexivity.
    + reflexivity.
    + intros [|i] a H; cbn in H; [injection H as <-; exists []; auto|destruct i; discriminate].
    + intros [|i] [|j] a H1 H2; unfold blk in *; cbn in *; auto; try (destruct i; discriminate); destruct j; discriminate.
    + split; [|split; [reflexivity|split; [reflexivity|constructor; [cbn; tauto|constructor]]]]. cbn. split; [lia|]. auto.
    + reflexivity.
    + lia.
    + intros [|i] H; unfold blk in H; cbn in H; [discriminate|destruct i; discriminate].
    + exists 0%nat. cbn. auto.
    + discriminate.
    + lia.
  - intros i. unfold blk. cbn. split.
    + intros [<-|[]]. split; [lia|]. exists 0%nat. reflexivity.
    + intros (H & a & Ha). left. destruct (Z.to_nat i) as [|m7] eqn:E; [lia|]. cbn in Ha. destruct m7; discriminate.
  - lia.
  - reflexivity.
  - intros _ [|i] H; unfold blk in H; cbn in H; [discriminate|destruct i; discriminate].
Qed.

Lemma append_inv s l init c x : INV s l init c -> zlength x <= B ->
  exists s' init' c', append B cap false lz sched x s = Some s' /\ INV s' (l ++ [(x, s_usize s)]) init' c'.
Proof.
  intros (W & Hne & (L1 & L2)) Hx. destruct (append_wi B cap lz sched Hcap HB s init c x W Hx) as (s' & i' & c' & rec & E & W' & Hr & Hc' & Ec & Ex & St).
  exists s', i', c'. split; [auto|]. split; [auto|]. split; [auto|].
  assert (Old : forall y p, In (y, p) l -> exists tl, tl <> [] /\ stored B (i' ++ [c']) p y tl).
  { intros y p Hy. destruct (L1 y p Hy) as (tl & Ht). exists (tl ++ rec). split; [destruct tl; [auto|discriminate]|]. eapply stored_ext; eauto. }
  split.
  - intros y p Hy. apply in_app_iff in Hy. destruct Hy as [Hy|[Hy|[]]]; [destruct (Old y p Hy) as (tl & _ & Ht); eauto|]. injection Hy as <- <-. eauto.
  - intros l0 y q El z p Hz. apply app_inj_tail in El. destruct El as (<- & _). auto.
Qed.

Lemma written_inv reads s l : written B cap lz unlz sched reads s l -> calm reads s -> exists init c, INV s l init c.
Proof.
  induction 1 as [s Hs|s l x s' H IH Hx E|s l p y s' Hr H IH E Hp|s l p x c s' Hr H IH E Hp]; intros Hc.
  - exists [], []. apply new_inv. auto.
  - destruct IH as (init & c & I). { destruct Hc as [Hc|[Hc|Hc]]; [left; auto|right; left; auto|right; right]. apply append_us in E. unfold all_cached in *. lia. }
    destruct (append_inv s l init c x I Hx) as (s2 & i2 & c2 & E2 & I2). rewrite E in E2. injection E2 as <-. eauto.
  - apply in_map_iff in Hp. destruct Hp as ((x & p') & <- & Hp). cbn [snd] in *.
    assert (Hc' : keeps_up sched \/ all_cached B cap s). { unfold calm, all_cached in *. apply get_us in E. rewrite E in Hc. destruct Hc as [?|?]; [congruence|auto]. }
    destruct IH as (init & c & I); [right; auto|]. destruct I as (W & Hne & L1 & L2). destruct (L1 _ _ Hp) as (tl & Ht).
    assert (I : INV s l init c) by (split; [auto|]; split; [auto|]; split; auto).
    destruct (get_ok B cap false lz unlz sched Hcap Hlz HB _ _ (WI_full _ _ _ W) s p' x tl (INV_ok _ _ _ _ I Hc') Ht) as [(s2 & E2 & K2 & F2)|(E2 & _)]; [|congruence].
    rewrite E in E2. injection E2 as <- <-. exists init, c. eapply INV_back; eauto.
  - apply in_map_iff in Hp. destruct Hp as ((y & p') & <- & Hp). cbn [snd] in *.
    assert (Hc' : keeps_up sched \/ all_cached B cap s). { unfold calm, all_cached in *. apply cmp_us in E. rewrite E in Hc. destruct Hc as [?|?]; [congruence|auto]. }
    destruct IH as (init & d & I); [right; auto|]. destruct I as (W & Hne & L1 & L2). destruct (L1 _ _ Hp) as (tl & Ht).
    assert (I : INV s l init d) by (split; [auto|]; split; [auto|]; split; auto).
    destruct (cmp_ok B cap false lz unlz sched Hcap Hlz HB _ _ (WI_full _ _ _ W) s p' y tl x (INV_ok _ _ _ _ I Hc') Ht) as (e & s2 & E2 & _ & K2 & F2).
    rewrite E in E2. injection E2 as <- <-. exists init, d. eapply INV_back; eauto.
Qed.

(** ** Close *)
Lemma close_ok s l init c : INV s l init c -> s_usize s mod B <> 0 ->
  sb_close B cap lz sched s = Some (filed lz (init ++ [c]), enc 8 (s_usize s) ++ flat_map (enc 8) (psums lz 0 (init ++ [c]))).
Proof.
  intros (W & _ & _) Hu. pose proof (Z.mod_pos_bound (s_usize s) B). unfold sb_close. destruct (Z.ltb_spec 0 (s_usize s mod B)); [|lia].
  destruct W as [(q & WCq) F L U Ba]. destruct (compress_wc cap lz sched Hcap s init c q WCq) as (s' & q' & a & E & W' & E1 & E2). rewrite E.
  destruct W' as [C M P X A]. set (bl := init ++ [c]) in *.
  destruct (thr_steps_ok lz 6 (s_mem s') (s_bg s') (c_blocks (s_cache s')) (bl ++ [[]]) (length (bl ++ [[]]) - 1)) as (b & Eb & Bb & _ & _ & Wb); [apply C|apply C|].
  rewrite Eb. assert (W0 : work b = 0%nat). { rewrite Wb. unfold work. destruct (b_th (s_bg s')), (b_slot (s_bg s')); cbn; lia. }
  destruct (work0 _ _ _ _ _ Bb W0) as (H1 & H2 & H3). destruct (BGI_done _ _ _ _ _ Bb) as (D1 & D2 & _ & _).
  assert (Ed : done b = length (b_sizes b)) by (unfold done; rewrite H2; auto). rewrite Ed in D2. rewrite H1 in D1, D2.
  assert (Ef : firstn (length (bl ++ [[]]) - 1) (bl ++ [[]]) = bl). { rewrite app_length. cbn [length]. replace (length bl + 1 - 1)%nat with (length bl) by lia. rewrite firstn_app, Nat.sub_diag, firstn_all. cbn [firstn]. apply app_nil_r. }
  rewrite Ef in D1, D2. rewrite D1, D2, E2. reflexivity.
Qed.

(** ** Open *)
Lemma rdn_short w m p : (0 < w)%nat -> zlength m <= p -> rdn w m p = None.
Proof.
  induction w as [|w IH]; intros Hw Hp; [lia|]. cbn [rdn]. destruct w as [|w]; [|rewrite IH by lia; reflexivity].
  cbn [rdn]. unfold getb. destruct (0 <=? p + Z.of_nat 0); [|reflexivity]. destruct (nth_error m (Z.to_nat (p + Z.of_nat 0))) eqn:E; [apply nth_lt in E; lia|reflexivity].
Qed.
Lemma read_sizes_ok z : forall f pre, Forall (fun v => 0 <= v < 2 ^ 64) z -> (length z < f)%nat ->
  read_sizes f (pre ++ flat_map (enc 8) z) (zlength pre) = z.
Proof.
  induction z as [|v z IH]; intros f pre Hz Hf; destruct f as [|f]; try (cbn in Hf; lia); cbn [read_sizes flat_map].
  - rewrite app_nil_r. assert (E : rdn 8 pre (zlength pre) = None); [|now rewrite E]. apply rdn_short; lia.
  - inversion Hz; subst. rewrite (rdn_enc 8 _ (zlength pre) v); [|exists pre, (flat_map (enc 8) z); auto|lia].
    f_equal. rewrite app_assoc. replace (zlength pre + 8) with (zlength (pre ++ enc 8 v)) by (rewrite app_length, enc_length; lia). apply IH; [auto|]. cbn in Hf. lia.
Qed.

Lemma psums_bound l : forall acc, 0 <= acc -> Forall (fun v => 0 <= v <= acc + zlength (filed lz l)) (psums lz acc l).
Proof.
  induction l as [|d l IH]; intros acc Ha; cbn [psums]; constructor.
  - change (d :: l) with ([d] ++ l). rewrite filed_app, app_length. unfold filed at 1. cbn [map concat]. rewrite app_nil_r. lia.
  - eapply Forall_impl; [|apply IH; lia]. cbn beta. intros v Hv. change (d :: l) with ([d] ++ l). rewrite filed_app, app_length. unfold filed at 1. cbn [map concat]. rewrite app_nil_r. lia.
Qed.

End Histories.

Lemma open_ok B cap lz unlz sched bl u : 5 <= cap -> codec lz unlz -> 16 <= B <= 2 ^ 20 -> FullB B bl -> u = zlength (concat bl) -> u mod B <> 0 -> u < 2 ^ 64 -> zlength (filed lz bl) < 2 ^ 64 ->
  exists s, sb_open (filed lz bl) (enc 8 u ++ flat_map (enc 8) (psums lz 0 bl)) = Some s /\ OK B cap true lz sched s bl (length bl) /\ s_usize s = u.
Proof.
  intros Hcap Hlz HB HF Eu Hu Hu2 Hf. unfold sb_open.
  rewrite (rdn_enc 8 _ 0 u); [|exists [], (flat_map (enc 8) (psums lz 0 bl)); auto|lia].
  assert (Er : read_sizes (length (enc 8 u ++ flat_map (enc 8) (psums lz 0 bl))) (enc 8 u ++ flat_map (enc 8) (psums lz 0 bl)) 8 = psums lz 0 bl).
  { replace 8 with (zlength (enc 8 u)) at 4 by (rewrite enc_length; reflexivity). apply read_sizes_ok.
    - eapply Forall_impl; [|apply psums_bound; lia]. cbn beta. lia.
    - rewrite app_length, enc_length. generalize (psums lz 0 bl). induction l as [|v l IH]; [cbn; lia|]. cbn [flat_map]. rewrite app_length, enc_length. cbn [length]. lia. }
  cbv zeta. rewrite Er. eexists; split; [reflexivity|]. split; [|reflexivity].
  assert (Hnone : forall k, nth_error (map (fun _ : Z => @None nat) (psums lz 0 bl)) k = (if (k <? length bl)%nat then Some None else None)).
  { intros k. destruct (Nat.ltb_spec k (length bl)) as [L|L].
    - rewrite nth_error_map, psums_nth by auto. reflexivity.
    - apply nth_error_None. rewrite map_length, psums_length. auto. }
  exists []. split; [|split; [|split]].
  - constructor; cbn.
    + rewrite map_length, psums_length. reflexivity.
    + rewrite map_length, psums_length. reflexivity.
    + intros i a H. rewrite Hnone in H. destruct (_ <? _)%nat; discriminate.
    + intros i j a H. unfold blk in H. cbn in H. rewrite Hnone in H. destruct (_ <? _)%nat; discriminate.
    + repeat split; cbn; auto. constructor.
    + reflexivity.
    + lia.
    + intros i H. split; [|discriminate]. unfold done. cbn. rewrite psums_length. unfold blk in H. cbn in H. rewrite Hnone in H. destruct (Nat.ltb_spec i (length bl)); [auto|discriminate].
    + exists (length bl). cbn. rewrite firstn_all. auto.
    + intros _. cbn. auto.
    + lia.
  - intros i. unfold blk. cbn. split; [intros []|]. intros (_ & a & H). rewrite Hnone in H. destruct (_ <? _)%nat; discriminate.
  - intros c Hc. apply In_nth_error in Hc. destruct Hc as (i & Hi). apply HF in Hi. lia.
  - left. split; [auto|]. cbn [s_usize]. intros c Hc.
    assert (Hl : (1 <= length bl)%nat) by (apply nth_lt in Hc; lia).
    assert (Ebl : bl = firstn (length bl - 1) bl ++ [c]).
    { pose proof (firstn_snoc bl _ _ Hc) as X. replace (S (length bl - 1)) with (length bl) in X by lia. now rewrite firstn_all in X. }
    assert (Ff : Forall (fun d => zlength d = B) (firstn (length bl - 1) bl)).
    { apply Forall_forall. intros d Hd. apply In_nth_error in Hd. destruct Hd as (i & Hi). pose proof (nth_lt _ _ _ Hi) as Li. rewrite firstn_length in Li.
      assert (Hi' : nth_error bl i = Some d). { rewrite Ebl, nth_error_app1; auto. rewrite firstn_length. lia. }
      apply HF in Hi'. apply Hi'. lia. }
    pose proof (HF _ _ Hc) as (Hc1 & _). pose proof (concat_full B HB _ Ff) as Hcf.
    assert (Eu2 : u = zlength (firstn (length bl - 1) bl) * B + zlength c). { rewrite Eu. rewrite Ebl at 1. rewrite concat_snoc, app_length. lia. }
    destruct (Z.eq_dec (zlength c) B) as [Ec|Ec].
    + exfalso. apply Hu. rewrite Eu2, Ec. replace (zlength (firstn (length bl - 1) bl) * B + B) with ((zlength (firstn (length bl - 1) bl) + 1) * B) by lia. apply Z.mod_mul. lia.
    + rewrite Eu2. rewrite Z.add_comm, Z.mod_add, Z.mod_small by lia. lia.
Qed.

Section Opened.
Variables B cap : Z.
Variable lz : list Z -> list Z.
Variable unlz : list Z -> Z -> option (list Z).
Variable sched : nat -> nat.
Hypothesis Hcap : 5 <= cap.
Hypothesis Hlz : codec lz unlz.
Hypothesis HB : 16 <= B <= 2 ^ 20.
Variable bl : list (list Z).
Hypothesis HF : FullB B bl.
Hypothesis Hu : zlength (concat bl) mod B <> 0.
Hypothesis Hu2 : zlength (concat bl) < 2 ^ 64.
Hypothesis Hf : zlength (filed lz bl) < 2 ^ 64.
Variable l : list (list Z * Z).
Hypothesis HL : forall x p, In (x, p) l -> exists tl, stored B bl p x tl.

Lemma opened_inv s : opened B cap lz unlz sched (filed lz bl) (enc 8 (zlength (concat bl)) ++ flat_map (enc 8) (psums lz 0 bl)) l s ->
  OK B cap true lz sched s bl (length bl).
Proof.
  induction 1 as [s Hs|s p y s' H IH E Hp|s p x c s' H IH E Hp].
  - destruct (open_ok B cap lz unlz sched bl _ Hcap Hlz HB HF eq_refl Hu Hu2 Hf) as (s2 & E2 & K & _). congruence.
  - apply in_map_iff in Hp. destruct Hp as ((x & p') & <- & Hp). cbn [snd] in *. destruct (HL _ _ Hp) as (tl & Ht).
    destruct (get_ok B cap true lz unlz sched Hcap Hlz HB bl _ HF s p' x tl IH Ht) as [(s2 & E2 & K2 & _)|(E2 & _)]; congruence.
  - apply in_map_iff in Hp. destruct Hp as ((y & p') & <- & Hp). cbn [snd] in *. destruct (HL _ _ Hp) as (tl & Ht).
    destruct (cmp_ok B cap true lz unlz sched Hcap Hlz HB bl _ HF s p' y tl x IH Ht) as (e & s2 & E2 & _ & K2 & _). congruence.
Qed.
End Opened.
