(** Proofs about the values block and the output of the results. *)
From Verif Require Export OpProofs6.
Local Open Scope Z_scope.

(** ** ValuesScan *)
Lemma vs_read_ok rs : forall row pre post p g, length row = length rs -> length pre = p ->
  vs_read rs (pre ++ row ++ post) p g = Some (set_regs rs row g, (p + length rs)%nat).
Proof.
  induction rs as [|r rs IH]; intros [|v row] pre post p g Hl Hp; try discriminate; cbn [vs_read set_regs].
  - rewrite Nat.add_0_r. reflexivity.
  - cbn [app]. rewrite nth_error_app2, Hp, Nat.sub_diag by lia. cbn [nth_error].
    change (pre ++ v :: row ++ post) with (pre ++ [v] ++ row ++ post). rewrite app_assoc.
    rewrite IH; [cbn [length]; do 2 f_equal; lia|injection Hl; auto|]. rewrite app_length. cbn. lia.
Qed.
Lemma concat_length k (rowsl : list (list Z)) : Forall (fun r => length r = k) rowsl -> length (concat rowsl) = (length rowsl * k)%nat.
Proof. induction 1 as [|r l Hr _ IH]; [reflexivity|]. cbn [concat length]. rewrite app_length, IH, Hr. lia. Qed.

Lemma firstn_app_le {A} n (a b : list A) : (length a <= n)%nat -> firstn n (a ++ b) = a ++ firstn (n - length a) b.
Proof. intros H. rewrite firstn_app, firstn_all2 by exact H. reflexivity. Qed.

(** What the operator returns: the first rows, as many as fit in [n] values. *)
Definition vs_rounds (k n : nat) : nat := ((n + k - 1) / k)%nat.
Lemma vs_rounds_lt k n i : (0 < k)%nat -> (i < vs_rounds k n <-> i * k < n)%nat.
Proof.
  intros Hk. unfold vs_rounds. split; intros H.
  - assert (k * ((n + k - 1) / k) <= n + k - 1)%nat by (apply Nat.mul_div_le; lia). nia.
  - apply (Nat.lt_le_trans _ (i + 1)); [lia|]. apply Nat.div_le_lower_bound; lia.
Qed.

Lemma vs_start rs rowsl : NoDup rs -> (0 < length rs)%nat -> Forall (fun r => length r = length rs) rowsl ->
  Answers rs rs (rows rs (map (fun r => (r, 1)) (firstn (vs_rounds (length rs) (length rowsl)) rowsl)))
    (values_scan rs (concat rowsl)).
Proof.
  intros Hn Hk Hr. set (k := length rs) in *. set (n := length rowsl).
  assert (Etot : vs_toBeProcessed rs (concat rowsl) = n).
  { unfold vs_toBeProcessed. rewrite (concat_length k) by exact Hr. fold k n.
    destruct (Nat.ltb_spec 0 k); [|lia]. apply Nat.div_mul. lia. }
  assert (G : forall m i g, (n - i <= m)%nat -> (i <= n)%nat ->
    Got any rs rs (wrap (vs_next rs (concat rowsl)) (vs_next rs (concat rowsl)) (vs_next rs (concat rowsl) (i * k) g)) g
      (rows rs (map (fun r => (r, 1)) (firstn (vs_rounds k n - i) (skipn i rowsl))))).
  { induction m as [|m IH]; intros i g Hm Hi; unfold vs_next at 3; rewrite Etot; destruct (Nat.ltb_spec (i * k) n) as [Hlt|Hge].
    - exfalso. nia.
    - rewrite skipn_all2 by (fold n; lia). rewrite firstn_nil. cbn. eexists g, _. split; [reflexivity|]. split; [apply outside_refl|exact Logic.I].
    - destruct (nth_error rowsl i) as [row|] eqn:E.
      2:{ apply nth_error_None in E. fold n in E. nia. }
      assert (Hrow : length row = k) by (rewrite Forall_forall in Hr; apply Hr, (nth_error_In _ _ E)).
      assert (Esk := skipn_nth rowsl i row E).
      assert (Ev : concat rowsl = concat (firstn i rowsl) ++ row ++ concat (skipn (S i) rowsl)).
      { rewrite <- (firstn_skipn i rowsl) at 1. rewrite concat_app, Esk. reflexivity. }
      rewrite Ev, vs_read_ok; [|exact Hrow|].
      2:{ rewrite (concat_length k), firstn_length_le; [reflexivity|fold n; lia|].
          rewrite Forall_forall in *. intros x Hx. apply Hr. rewrite <- (firstn_skipn i rowsl). apply in_or_app. auto. }
      rewrite <- Ev. cbn iota beta. apply (vs_rounds_lt k n i Hk) in Hlt.
      destruct (vs_rounds k n - i)%nat as [|q] eqn:Eq; [lia|]. rewrite Esk. cbn [firstn map rows wrap Got fst snd].
      split; [lia|]. eexists _, _. split; [reflexivity|]. split; [apply set_regs_as_row; assumption|].
      split; [apply outside_set_regs|]. split; [exact Logic.I|].
      apply Rows_Got. intros h _. rewrite obj_next. fold k. replace (i * k + k)%nat with (S i * k)%nat by lia.
      replace q with (vs_rounds k n - S i)%nat by lia. apply IH; [lia|].
      assert (i < n)%nat by (apply (vs_rounds_lt k n i Hk) in Hlt; nia). lia.
    - assert (~ (i < vs_rounds k n)%nat) by (rewrite vs_rounds_lt; lia).
      replace (vs_rounds k n - i)%nat with 0%nat by lia.
      cbn. eexists g, _. split; [reflexivity|]. split; [apply outside_refl|exact Logic.I]. }
  unfold Answers. apply Rows_Got. intros g _. unfold values_scan. rewrite obj_first.
  specialize (G n 0%nat g ltac:(lia) ltac:(lia)). rewrite Nat.sub_0_r in G. exact G.
Qed.

(** Two descriptions of the same run agree. *)
Lemma Rows_det I J V W V' W' call (pre : regs -> Prop) l : forall l' call' (pre' : regs -> Prop) g,
  call = call' -> pre g -> pre' g ->
  Rows I V W call pre l -> Rows J V' W' call' pre' l' -> length l = length l'.
Proof.
  revert call pre. induction l as [|[v c] l IH]; intros call pre [|[v' c'] l'] call' pre' g <- H1 H2 HR HR'; try reflexivity.
  - destruct (HR g H1) as (g1 & o1 & E1 & _). destruct (HR' g H2) as (Hc & g2 & o2 & E2 & _). rewrite E1 in E2. injection E2 as E2 _ _. lia.
  - destruct (HR g H1) as (Hc & g1 & o1 & E1 & _). destruct (HR' g H2) as (g2 & o2 & E2 & _). rewrite E1 in E2. injection E2 as E2 _ _. lia.
  - destruct (HR g H1) as (_ & g1 & o1 & E1 & _ & _ & _ & T1). destruct (HR' g H2) as (_ & g2 & o2 & E2 & _ & _ & _ & T2).
    rewrite E1 in E2. injection E2 as _ <- <-. cbn [length]. f_equal.
    refine (IH _ (fun h => agree W h g1) l' _ (fun h => agree W' h g1) g1 eq_refl _ _ T1 T2); apply agree_refl.
Qed.
Lemma Answers_length V W V' W' l l' o : Answers V W l o -> Answers V' W' l' o -> length l = length l'.
Proof. intros H1 H2. exact (Rows_det any any _ _ _ _ _ _ _ _ _ _ (fun _ => 0) eq_refl Logic.I Logic.I H1 H2). Qed.

(** ** ResultsPrinter *)
Definition total (L : list (regs * Z)) : Z := fold_right (fun a n => snd a + n) 0 L.
Lemma expand_length V L : Forall (fun a => 0 <= snd a) L -> Z.of_nat (length (expand V L)) = total L.
Proof.
  unfold expand, total. induction 1 as [|a L Ha _ IH]; [reflexivity|]. cbn [flat_map fold_right]. rewrite app_length, repeat_length, Nat2Z.inj_add, IH, Z2Nat.id by exact Ha. reflexivity.
Qed.
Lemma total_nonneg L : Forall (fun a => 0 < snd a) L -> 0 <= total L.
Proof. unfold total. induction 1 as [|a L Ha _ IH]; cbn [fold_right]; lia. Qed.

Section Rp.
Variables (V W out : list nat) (limit : Z).
Hypothesis Hout : incl out V.
Hypothesis Hlim : 0 <= limit.

Lemma rp_count_ok L : forall k i c o nrows g0 g, (length L < k)%nat -> 0 < c -> 0 <= o -> 0 <= nrows <= limit ->
  Forall (fun a => 0 < snd a) L -> agree W g g0 ->
  Rows any V W (o_next i) (fun h => agree W h g0) L ->
  rp_count k limit i c o nrows g = Some (Z.min limit (nrows + Z.max 0 (c + total L - o))).
Proof.
  induction L as [|[v' c'] L IH]; intros k i c o nrows g0 g Hk Hc Ho Hn Hpos Hg HL; (destruct k as [|k]; [cbn in Hk; lia|]);
    cbn [rp_count]; cbn zeta; rewrite Rows_Got in HL; specialize (HL g Hg); cbn [total fold_right snd].
  - destruct HL as (g1 & o1 & E & _). rewrite E. cbn iota beta. cbn [Z.eqb negb andb]. f_equal.
    destruct (Z.ltb_spec 0 o), (Z.leb_spec c o); cbn [andb]; try lia; destruct (Z.ltb_spec limit (nrows + (c - o))); try lia;
      destruct (Z.ltb_spec limit (nrows + c)); lia.
  - destruct HL as (Hc' & g1 & o1 & E & A & O & _ & HL). rewrite E. cbn iota beta. inversion Hpos as [|? ? _ Hpos']; subst.
    assert (Ht := total_nonneg L Hpos'). unfold total in *. destruct (Z.eqb_spec c' 0); [lia|]. cbn [negb andb length] in *.
    set (n' := if (0 <? o) && (c <=? o) then nrows else if limit <? nrows + (if 0 <? o then c - o else c) then limit else nrows + (if 0 <? o then c - o else c)).
    assert (Hn' : 0 <= n' <= limit /\ n' = Z.min limit (nrows + Z.max 0 (c - o))).
    { unfold n'. destruct (Z.ltb_spec 0 o), (Z.leb_spec c o); cbn [andb]; try lia; destruct (Z.ltb_spec limit (nrows + (c - o))); try lia;
      destruct (Z.ltb_spec limit (nrows + c)); lia. }
    destruct (Z.ltb_spec n' limit) as [Hlt|Hge].
    + rewrite (IH k o1 c' _ n' g1 g1); auto using agree_refl; try lia.
      2:{ destruct (Z.ltb_spec 0 o), (Z.leb_spec c o); cbn [andb]; lia. }
      f_equal. destruct (Z.ltb_spec 0 o), (Z.leb_spec c o); cbn [andb]; try lia.
    + f_equal. lia.
Qed.
Lemma rp_silent_ok L input offset fuel g : 0 <= offset -> (length L <= fuel)%nat -> Answers V W L input ->
  rp_silent fuel limit offset input g = Some (Z.of_nat (length (firstn (Z.to_nat limit) (skipn (Z.to_nat offset) (expand out L))))).
Proof.
  intros Ho Hf HL. assert (Hpos := Rows_pos _ _ _ _ _ _ g Logic.I HL). unfold Answers in HL. rewrite Rows_Got in HL. specialize (HL g Logic.I).
  rewrite firstn_length, skipn_length. assert (Et := expand_length out L ltac:(eapply Forall_impl; [|exact Hpos]; cbn; lia)).
  assert (Ht := total_nonneg L Hpos).
  unfold rp_silent. destruct L as [|[v c] L].
  - destruct HL as (g1 & o1 & E & _). rewrite E. cbn iota beta. cbn [Z.eqb]. f_equal. cbn [total fold_right] in Et. lia.
  - destruct HL as (Hc & g1 & o1 & E & A & O & _ & HL). rewrite E. cbn iota beta. destruct (Z.eqb_spec c 0); [lia|].
    inversion Hpos; subst. rewrite (rp_count_ok L fuel o1 c offset 0 g1 g1); auto using agree_refl; try lia.
    f_equal. cbn [total fold_right snd] in Et. fold (total L) in Et. lia.
Qed.

Lemma rp_copies_ok c row : forall nrows, 0 <= nrows < limit ->
  rp_copies c limit row nrows = (repeat row (Nat.min c (Z.to_nat (limit - nrows))), nrows + Z.of_nat (Nat.min c (Z.to_nat (limit - nrows)))).
Proof.
  induction c as [|c IH]; intros nrows Hn; cbn [rp_copies]; [cbn; rewrite Z.add_0_r; reflexivity|].
  destruct (Z.leb_spec limit (nrows + 1)).
  - replace (Z.to_nat (limit - nrows)) with 1%nat by lia. replace (Nat.min (S c) 1) with 1%nat by lia. reflexivity.
  - rewrite IH by lia. replace (Z.to_nat (limit - nrows)) with (S (Z.to_nat (limit - (nrows + 1)))) by lia. cbn [Nat.min repeat]. f_equal. lia.
Qed.
Lemma firstn_repeat {A} (x : A) n m : firstn n (repeat x m) = repeat x (Nat.min m n).
Proof. revert m. induction n as [|n IH]; intros [|m]; cbn; try reflexivity. rewrite IH. reflexivity. Qed.
Lemma skipn_repeat {A} (x : A) n m : skipn n (repeat x m) = repeat x (m - n).
Proof. revert m. induction n as [|n IH]; intros [|m]; cbn; try reflexivity. apply IH. Qed.

Lemma rp_print_ok L : forall k i c o nrows g0 g v, (length L < k)%nat -> 0 < c -> 0 <= o -> 0 <= nrows < limit ->
  agree V g v -> agree W g g0 ->
  Rows any V W (o_next i) (fun h => agree W h g0) L ->
  rp_print k limit out i c o nrows g = Some (firstn (Z.to_nat (limit - nrows)) (skipn (Z.to_nat o) (expand out ((v, c) :: L)))).
Proof.
  induction L as [|[v' c'] L IH]; intros k i c o nrows g0 g v Hk Hc Ho Hn Hv Hg HL; (destruct k as [|k]; [cbn in Hk; lia|]);
    cbn [rp_print]; cbn zeta; rewrite Rows_Got in HL; specialize (HL g Hg);
    rewrite (map_agree_incl V out g v Hout Hv);
    unfold expand; cbn [flat_map fst snd].
  - rewrite app_nil_r, skipn_repeat, firstn_repeat. destruct HL as (g1 & o1 & E & _). rewrite E. cbn iota beta. cbn [Z.eqb negb].
    destruct (Z.ltb_spec 0 o) as [Ho1|Ho1], (Z.leb_spec c o) as [Hco|Hco]; cbn [andb]; try lia.
    + replace (Z.to_nat c - Z.to_nat o)%nat with 0%nat by lia. reflexivity.
    + rewrite rp_copies_ok by lia. replace (Z.to_nat (c - o)) with (Z.to_nat c - Z.to_nat o)%nat by lia. destruct (_ <=? _); reflexivity.
    + rewrite rp_copies_ok by lia. replace (Z.to_nat c - Z.to_nat o)%nat with (Z.to_nat c) by lia. destruct (_ <=? _); reflexivity.
  - destruct HL as (Hc' & g1 & o1 & E & A & O & _ & HL). rewrite E. cbn iota beta. destruct (Z.eqb_spec c' 0); [lia|]. cbn [negb length] in *.
    fold (expand out L).
    assert (Hrest : forall o', 0 <= o' -> forall nr, 0 <= nr < limit -> rp_print k limit out o1 c' o' nr g1 =
       Some (firstn (Z.to_nat (limit - nr)) (skipn (Z.to_nat o') (expand out ((v', c') :: L))))).
    { intros o' Ho' nr Hnr. apply (IH k o1 c' o' nr g1 g1 v'); auto using agree_refl; lia. }
    assert (Hprint : forall cc, 0 < cc ->
      (let '(rows, nrows') := rp_copies (Z.to_nat cc) limit (map v out) nrows in
        if limit <=? nrows' then Some rows
        else do l <- rp_print k limit out o1 c' 0 nrows' g1; Some (rows ++ l)) =
      Some (firstn (Z.to_nat (limit - nrows)) (repeat (map v out) (Z.to_nat cc) ++ expand out ((v', c') :: L)))).
    { intros cc Hcc. rewrite rp_copies_ok by lia. set (m := Nat.min (Z.to_nat cc) (Z.to_nat (limit - nrows))).
      destruct (Z.leb_spec limit (nrows + Z.of_nat m)) as [Hl|Hl].
      - f_equal. rewrite firstn_app, repeat_length, firstn_repeat. fold m.
        replace (Z.to_nat (limit - nrows) - Z.to_nat cc)%nat with 0%nat by lia. cbn [firstn]. rewrite app_nil_r. reflexivity.
      - rewrite Hrest by lia. cbn iota beta. f_equal. cbn [Z.to_nat skipn]. rewrite firstn_app_le by (rewrite repeat_length; lia).
        rewrite repeat_length. f_equal; [f_equal; lia|]. f_equal. lia. }
    unfold expand in Hprint, Hrest. cbn [flat_map fst snd] in Hprint, Hrest. fold (expand out L) in Hprint, Hrest.
    destruct (Z.ltb_spec 0 o) as [Ho1|Ho1], (Z.leb_spec c o) as [Hco|Hco]; cbn [andb]; try lia.
    + rewrite Hrest by lia. f_equal. f_equal.
      rewrite (skipn_app (Z.to_nat o)), skipn_repeat, repeat_length. replace (Z.to_nat c - Z.to_nat o)%nat with 0%nat by lia. cbn [repeat app].
      f_equal. lia.
    + rewrite Hprint by lia. f_equal. f_equal. rewrite skipn_app, skipn_repeat, repeat_length.
      replace (Z.to_nat o - Z.to_nat c)%nat with 0%nat by lia. cbn [skipn]. f_equal. f_equal. lia.
    + rewrite Hprint by lia. replace (Z.to_nat o) with 0%nat by lia. reflexivity.
Qed.
Lemma rp_text_ok L input offset fuel g : 0 <= offset -> 1 <= limit -> (length L <= fuel)%nat -> Answers V W L input ->
  rp_text fuel limit offset out input g = Some (firstn (Z.to_nat limit) (skipn (Z.to_nat offset) (expand out L))).
Proof.
  intros Ho Hl Hf HL. unfold Answers in HL. rewrite Rows_Got in HL. specialize (HL g Logic.I).
  unfold rp_text. destruct L as [|[v c] L].
  - destruct HL as (g1 & o1 & E & _). rewrite E. cbn iota beta. cbn [Z.eqb]. cbn. rewrite skipn_nil, firstn_nil. reflexivity.
  - destruct HL as (Hc & g1 & o1 & E & A & O & _ & HL). rewrite E. cbn iota beta. destruct (Z.eqb_spec c 0); [lia|].
    rewrite (rp_print_ok L fuel o1 c offset 0 g1 g1 v); auto using agree_refl; try lia. rewrite Z.sub_0_r. reflexivity.
Qed.

Lemma rp_collect_ok L : forall k i o entries g0 g v, (length L < k)%nat -> 0 <= o -> 0 <= entries < limit ->
  Forall (fun a => snd a = 1) L -> agree V g v -> agree W g g0 ->
  Rows any V W (o_next i) (fun h => agree W h g0) L ->
  rp_collect k limit out i 1 o entries g =
    Some (map (fun r => (1, r)) (firstn (Z.to_nat (limit - entries)) (skipn (Z.to_nat o) (expand out ((v, 1) :: L))))).
Proof.
  induction L as [|[v' c'] L IH]; intros k i o entries g0 g v Hk Ho Hn Hone Hv Hg HL; (destruct k as [|k]; [cbn in Hk; lia|]);
    cbn [rp_collect]; cbn zeta; rewrite Rows_Got in HL; specialize (HL g Hg);
    rewrite (map_agree_incl V out g v Hout Hv);
    unfold expand; cbn [flat_map fst snd]; change (Z.to_nat 1) with 1%nat; cbn [repeat app].
  - destruct HL as (g1 & o1 & E & _). rewrite E. cbn iota beta. cbn [Z.eqb negb].
    destruct (Z.to_nat (limit - entries)) as [|m] eqn:Em; [lia|].
    destruct (Z.ltb_spec 0 o) as [Ho1|Ho1], (Z.leb_spec 1 o) as [Hco|Hco]; cbn [andb]; try lia.
    + destruct (Z.to_nat o) as [|q] eqn:Eq; [lia|]. cbn [skipn]. rewrite skipn_nil, firstn_nil. reflexivity.
    + replace (Z.to_nat o) with 0%nat by lia. cbn [skipn firstn]. rewrite firstn_nil. destruct (_ <=? _); reflexivity.
  - inversion Hone as [|? ? Hc1 Hone']; subst. cbn [snd] in Hc1. subst c'.
    destruct HL as (Hc' & g1 & o1 & E & A & O & _ & HL). rewrite E. cbn iota beta. cbn [Z.eqb negb length] in *.
    assert (Hrest : forall o', 0 <= o' -> forall nr, 0 <= nr < limit -> rp_collect k limit out o1 1 o' nr g1 =
       Some (map (fun r => (1, r)) (firstn (Z.to_nat (limit - nr)) (skipn (Z.to_nat o') (expand out ((v', 1) :: L)))))).
    { intros o' Ho' nr Hnr. apply (IH k o1 o' nr g1 g1 v'); auto using agree_refl; lia. }
    unfold expand in Hrest. cbn [flat_map fst snd] in Hrest. change (Z.to_nat 1) with 1%nat in Hrest. cbn [repeat app] in Hrest.
    cbn [flat_map fst snd]. change (Z.to_nat 1) with 1%nat. cbn [repeat app].
    destruct (Z.to_nat (limit - entries)) as [|m] eqn:Em; [lia|].
    destruct (Z.ltb_spec 0 o) as [Ho1|Ho1], (Z.leb_spec 1 o) as [Hco|Hco]; cbn [andb]; try lia.
    + rewrite Hrest by lia. rewrite Em. cbn iota beta. cbn [app]. replace (Z.to_nat o) with (S (Z.to_nat (o - 1))) by lia. reflexivity.
    + replace (Z.to_nat o) with 0%nat by lia. cbn [skipn]. destruct (Z.leb_spec limit (entries + 1)).
      * replace m with 0%nat by lia. reflexivity.
      * rewrite Hrest by lia. cbn iota beta. cbn [Z.to_nat skipn]. replace (Z.to_nat (limit - (entries + 1))) with m by lia. reflexivity.
Qed.
Lemma rp_json_ok L input offset fuel g : 0 <= offset -> 1 <= limit -> (length L <= fuel)%nat -> Forall (fun a => snd a = 1) L ->
  Answers V W L input ->
  rp_json fuel limit offset out input g = Some (firstn (Z.to_nat limit) (skipn (Z.to_nat offset) (expand out L))).
Proof.
  intros Ho Hl Hf Hone HL. unfold Answers in HL. rewrite Rows_Got in HL. specialize (HL g Logic.I).
  unfold rp_json. destruct L as [|[v c] L].
  - destruct HL as (g1 & o1 & E & _). rewrite E. cbn iota beta. cbn [Z.eqb]. cbn. rewrite skipn_nil, firstn_nil. reflexivity.
  - destruct HL as (Hc & g1 & o1 & E & A & O & _ & HL). rewrite E. cbn iota beta. destruct (Z.eqb_spec c 0); [lia|].
    inversion Hone as [|? ? Hc1 Hone']; subst. cbn [snd] in Hc1. subst c.
    rewrite (rp_collect_ok L fuel o1 offset 0 g1 g1 v); auto using agree_refl; try lia. rewrite Z.sub_0_r. f_equal.
    set (l := firstn _ _). clear. induction l as [|x l IH]; [reflexivity|]. cbn [map flat_map fst snd]. rewrite IH. reflexivity.
Qed.
End Rp.
