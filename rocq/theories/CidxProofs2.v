(** Lemmas on the iterator over the cache of ranges. *)
From Verif Require Export CidxProofs.
Local Open Scope Z_scope.

Section Rows.
Variable rows : Z -> list Z.

(** The pairs of the keys a .. a + n - 1. *)
Fixpoint flat (a : Z) (n : nat) : pairs :=
  match n with O => [] | S n' => map (pair a) (rows a) ++ flat (a + 1) n' end.
Lemma flat_app a n m : flat a (n + m) = flat a n ++ flat (a + Z.of_nat n) m.
Proof.
  revert a. induction n as [|n IH]; intros a; cbn [flat Nat.add]; [now rewrite Z.add_0_r|]. rewrite IH, <- app_assoc. do 3 f_equal. lia.
Qed.
Lemma flat_keys a n x : In x (flat a n) -> a <= fst x < a + Z.of_nat n.
Proof.
  revert a. induction n as [|n IH]; intros a; cbn [flat]; [intros []|]. intros I. apply in_app_or in I as [I|I].
  - apply in_map_iff in I as (y & <- & _). cbn. lia.
  - apply IH in I. lia.
Qed.
Definition full (a : Z) (n : nat) : Prop := forall k, a <= k < a + Z.of_nat n -> rows k <> [].
Lemma flat_long a n : full a n -> (n <= length (flat a n))%nat.
Proof.
  revert a. induction n as [|n IH]; intros a F; cbn [flat]; [cbn; lia|]. rewrite app_length, map_length.
  assert (rows a <> []) by (apply F; lia). destruct (rows a) eqn:E; [easy|]. cbn [length].
  assert (full (a + 1) n) by (intros k Hk; apply F; lia). specialize (IH _ H0). lia.
Qed.

(** A block that has all pairs of its range of keys, possibly after some of smaller keys. *)
Definition good (ps : pairs) (b : block) : Prop :=
  inside ps b /\ 0 <= b_sk b <= b_ek b /\ full (b_sk b) (Z.to_nat (b_ek b - b_sk b + 1)) /\
  exists pre, content ps b = pre ++ flat (b_sk b) (Z.to_nat (b_ek b - b_sk b + 1)) /\ Forall (fun x => fst x < b_sk b) pre.
Lemma good_app ps q b : good ps b -> good (ps ++ q) b.
Proof. intros (I & A & F & pre & E & P). split; [now apply inside_app|]. split; [exact A|]. split; [exact F|]. exists pre. split; [now rewrite content_app|exact P]. Qed.
(** Whether a block is good depends on what it says. *)
Lemma good_says ps b ps' b' : inside ps' b' -> says ps b = says ps' b' -> good ps b -> good ps' b'.
Proof.
  intros I' E (I & A & F & pre & C & P). unfold says in E. injection E as E1 E2 E3. unfold good. rewrite <- E1, <- E2, <- E3. split; [exact I'|]. split; [exact A|]. split; [exact F|]. now exists pre.
Qed.

(** *** Going to a key in a block *)
Lemma skip_ok p pre l e c1 fuel j : forall i, (i = j + length pre)%nat ->
  skipn j p = pre ++ l -> (i <= e <= length p)%nat -> Forall (fun x => fst x < c1) pre -> (i < e)%nat -> (match l with [] => False | x :: _ => fst x = c1 end) ->
  (length pre <= fuel)%nat -> skip_less fuel p j e c1 = Some i.
Proof.
  revert j pre. induction fuel as [|f IH]; intros j pre i Hi Hs He Hp Hl Hx Hf.
  - destruct pre; cbn in Hf; [|lia]. cbn in Hi, Hs. rewrite Nat.add_0_r in Hi. subst i. unfold skip_less. destruct (Nat.ltb_spec j e); [|lia].
    destruct l as [|x l]; [easy|]. assert (E : nth_error p j = Some x) by (clear - Hs; revert j Hs; induction p as [|y p IHp]; intros [|j] Hs; cbn in *; try discriminate; [congruence|now apply IHp]). rewrite E, Hx. now rewrite Z.ltb_irrefl.
  - cbn [skip_less]. destruct (Nat.ltb_spec j e); [|lia]. destruct pre as [|y pre].
    + cbn in Hi, Hs. rewrite Nat.add_0_r in Hi. subst i. destruct l as [|x l]; [easy|].
      assert (E : nth_error p j = Some x) by (clear - Hs; revert j Hs; induction p as [|y p IHp]; intros [|j] Hs; cbn in *; try discriminate; [congruence|now apply IHp]). rewrite E, Hx. now rewrite Z.ltb_irrefl.
    + assert (E : nth_error p j = Some y /\ skipn (S j) p = pre ++ l) by (clear - Hs; revert j Hs; induction p as [|z p IHp]; intros [|j] Hs; cbn in *; try discriminate; [injection Hs as -> ->; auto|now apply IHp]).
      destruct E as [-> Es]. inversion Hp as [|? ? Y Hp']; subst. assert (T : fst y <? c1 = true) by now apply Z.ltb_lt. rewrite T.
      apply (IH (S j) pre); cbn in *; auto; lia.
Qed.
(** The position of a key, for the whole block. *)
Lemma block_pos ps b c1 : good ps b -> b_sk b <= c1 <= b_ek b ->
  exists i n, skip_less (length ps) ps (b_sa b + Z.to_nat (c1 - b_sk b)) (b_ea b) c1 = Some i /\
    (i < b_ea b)%nat /\ n = Z.to_nat (b_ek b - c1) /\ firstn (b_ea b - i) (skipn i ps) = map (pair c1) (rows c1) ++ flat (c1 + 1) n /\ rows c1 <> [] /\ (b_ea b <= length ps)%nat.
Proof.
  intros ([I1 I2] & A & F & pre & C & P) R. set (k := Z.to_nat (c1 - b_sk b)). set (n := Z.to_nat (b_ek b - c1)).
  assert (EN : Z.to_nat (b_ek b - b_sk b + 1) = (k + S n)%nat) by lia. rewrite EN, flat_app in C. replace (b_sk b + Z.of_nat k) with c1 in C by lia. cbn [flat] in C. rewrite app_assoc in C.
  set (p0 := pre ++ flat (b_sk b) k) in *. set (l := map (pair c1) (rows c1) ++ flat (c1 + 1) n) in *.
  assert (Fk : full (b_sk b) k) by (intros x Hx; apply F; lia). assert (Hr : rows c1 <> []) by (apply F; lia).
  assert (Lk : (k <= length p0)%nat) by (unfold p0; rewrite app_length; pose proof (flat_long _ _ Fk); lia).
  assert (Lc : length (content ps b) = (b_ea b - b_sa b)%nat) by (apply content_length; split; auto).
  assert (Ll : (length p0 + length l = b_ea b - b_sa b)%nat) by (rewrite <- Lc, C, app_length; reflexivity).
  assert (Nl : (0 < length l)%nat) by (unfold l; rewrite app_length, map_length; destruct (rows c1); [easy|cbn; lia]).
  assert (Sk : skipn (b_sa b) ps = p0 ++ l ++ skipn (b_ea b) ps).
  { rewrite <- (firstn_skipn (b_ea b - b_sa b) (skipn (b_sa b) ps)). fold (content ps b). rewrite C, <- app_assoc. f_equal. f_equal.
    clear - I1. revert ps. generalize (b_sa b) (b_ea b) I1. clear. intros a e H ps. rewrite <- (Nat.sub_add a e H) at 2. generalize (e - a)%nat. intros m. revert ps. clear. induction a as [|a IH]; intros ps; [now rewrite Nat.add_0_r|].
    destruct ps; [rewrite !skipn_nil; destruct m; reflexivity|]. rewrite Nat.add_succ_r. cbn. apply IH. }
  assert (Sj : forall m, (m <= length p0)%nat -> skipn (b_sa b + m) ps = skipn m p0 ++ l ++ skipn (b_ea b) ps).
  { intros m Hm. assert (G : forall a m' (q : pairs), skipn (a + m') q = skipn m' (skipn a q)). { clear. induction a; intros m' q; [reflexivity|]. destruct q; cbn; [now rewrite skipn_nil|apply IHa]. }
    rewrite G, Sk, skipn_app. replace (m - length p0)%nat with 0%nat by lia. reflexivity. }
  exists (b_sa b + length p0)%nat, n. split; [|split; [lia|split; [reflexivity|split; [|split; [exact Hr|exact I2]]]]].
  - apply (skip_ok ps (skipn k p0) (l ++ skipn (b_ea b) ps)).
    + rewrite skipn_length. lia.
    + now apply Sj.
    + lia.
    + assert (Fp : Forall (fun x => fst x < c1) p0).
      { unfold p0. apply Forall_app. split; [eapply Forall_impl; [|exact P]; cbn; intros; lia|]. rewrite Forall_forall. intros x Hx. apply flat_keys in Hx. lia. }
      clear - Fp. revert Fp. generalize p0. generalize k. clear. induction k as [|k IHk]; intros p0 Fp; [exact Fp|]. destruct p0; [constructor|]. inversion Fp; subst. now apply IHk.
    + lia.
    + unfold l. destruct (rows c1); [easy|reflexivity].
    + rewrite skipn_length. pose proof (skipn_length (b_sa b) ps) as Q. rewrite Sk, !app_length in Q. lia.
  - rewrite (Sj (length p0)) by lia. rewrite skipn_all. cbn [app]. replace (b_ea b - (b_sa b + length p0))%nat with (length l) by lia. rewrite firstn_app, Nat.sub_diag, firstn_all. cbn. now rewrite app_nil_r.
Qed.

(** *** Reading all second values *)
Definition at_group (s : citr) (r : list Z) : Prop :=
  exists p n, ci_vec s = Some p /\ ci_group s = true /\ (ci_end s <= length p)%nat /\ (ci_idx s <= ci_end s)%nat /\ full (ci_v1 s + 1) 0 /\
    firstn (ci_end s - ci_idx s) (skipn (ci_idx s) p) = map (pair (ci_v1 s)) r ++ flat (ci_v1 s + 1) n /\
    (ci_hnc s = true -> ci_n s = match r with [] => false | _ => true end).
(** What reading does not change. *)
Definition same (s t : citr) : Prop :=
  ci_new t = ci_new s /\ ci_blocks t = ci_blocks s /\ ci_start t = ci_start s /\ ci_last t = ci_last s /\ ci_exist t = ci_exist s.
Lemma first_nth (p : pairs) i e x t : firstn (e - i) (skipn i p) = x :: t -> (i < e)%nat /\ nth_error p i = Some x /\ firstn (e - S i) (skipn (S i) p) = t.
Proof.
  intros H. destruct (Nat.leb_spec e i) as [L|L]; [replace (e - i)%nat with 0%nat in H by lia; discriminate|]. split; [exact L|].
  replace (e - i)%nat with (S (e - S i)) in H by lia. revert H. generalize (e - S i)%nat. clear L. intros n. revert p. induction i as [|i IH]; intros p H; destruct p; cbn [skipn] in *; try (cbn in H; discriminate).
  - cbn in H. injection H as -> <-. auto.
  - destruct (IH _ H) as [A B]. split; [exact A|exact B].
Qed.
Lemma hasNext_ok s r : at_group s r -> exists t, ci_hasNext s = Some (match r with [] => false | _ => true end, t) /\ at_group t r /\ same s t /\ ci_hnc t = true.
Proof.
  intros (p & n & V & G & E1 & E2 & F & R & N). unfold ci_hasNext. destruct (ci_hnc s) eqn:H.
  - exists s. rewrite N by auto. split; [reflexivity|]. split; [exists p, n; auto 8|]. repeat split; auto.
  - rewrite G. assert (X : (if (ci_end s <=? ci_idx s)%nat then Some false else do p0 <- ci_vec s; do x <- nth_error p0 (ci_idx s); Some (fst x =? ci_v1 s)) = Some (match r with [] => false | _ => true end)).
    { destruct (Nat.leb_spec (ci_end s) (ci_idx s)) as [L|L].
      - replace (ci_end s - ci_idx s)%nat with 0%nat in R by lia. destruct r; [reflexivity|discriminate].
      - rewrite V. destruct (nth_error p (ci_idx s)) as [x|] eqn:Ex; [|apply nth_error_None in Ex; lia].
        assert (Y : exists t, map (pair (ci_v1 s)) r ++ flat (ci_v1 s + 1) n = x :: t).
        { rewrite <- R. replace (ci_end s - ci_idx s)%nat with (S (ci_end s - S (ci_idx s))) by lia. clear - Ex. revert p Ex. generalize (ci_end s - S (ci_idx s))%nat. intros m. induction (ci_idx s) as [|i IH]; intros [|y p] Ex; cbn in *; try discriminate; [injection Ex as ->; eauto|apply IH; auto]. }
        destruct Y as [t Y]. destruct r as [|y r]; cbn in Y.
        + assert (I : In x (flat (ci_v1 s + 1) n)) by (rewrite Y; now left). apply flat_keys in I. f_equal. apply Z.eqb_neq. lia.
        + injection Y as <- _. cbn. now rewrite Z.eqb_refl. }
    rewrite X. eexists. split; [reflexivity|]. split; [exists p, n; cbn; unfold ci_vec in *; cbn; auto 10|]. repeat split; auto.
Qed.
Lemma drain_ok r : forall s fuel, at_group s r -> (length r <= fuel)%nat -> exists t, ci_drain fuel s = Some (r, t) /\ same s t.
Proof.
  induction r as [|y r IH]; intros s fuel A L.
  - destruct (hasNext_ok s [] A) as (t & E & _ & S & _). exists t. destruct fuel; cbn [ci_drain]; rewrite E; auto.
  - destruct fuel as [|f]; [cbn in L; lia|]. destruct (hasNext_ok s _ A) as (t & E & B & S & _). cbn [ci_drain]. rewrite E.
    destruct B as (p & n & V & G & E1 & E2 & F & R & N). cbn [map app] in R. apply first_nth in R as (R1 & R2 & R3).
    unfold ci_next. rewrite V, R2. cbn [snd].
    match goal with |- context [ci_drain f ?u] => set (u1 := u) end.
    assert (Au : at_group u1 r). { exists p, n. unfold u1, ci_vec in *. cbn. repeat split; auto. discriminate. }
    destruct (IH u1 f Au) as (t2 & -> & S2); [cbn in L; lia|]. exists t2. split; [reflexivity|].
    unfold same in *. unfold u1 in S2. cbn in S2. intuition congruence.
Qed.

(** *** The invariant of a session *)
Definition covered (bs : list block) (k : Z) : Prop := exists b, In b bs /\ b_sk b <= k <= b_ek b.
Definition free (ex : option (list block * pairs)) (a : Z) (n : Z) : Prop :=
  forall e k, ex = Some e -> a <= k <= n -> ~ covered (fst e) k.
Definition ex_ok (ex : option (list block * pairs)) : Prop :=
  forall e, ex = Some e -> ordered (fst e) /\ Forall (good (snd e)) (fst e).
Definition Ses (s : citr) : Prop :=
  Forall (fun b => good (ci_new s) b /\ free (ci_exist s) (b_sk b) (b_ek b)) (ci_blocks s) /\
  (ci_start s = length (ci_new s) \/
   (ci_start s < length (ci_new s))%nat /\ exists a, good (ci_new s) (mkB a (ci_last s) (ci_start s) (length (ci_new s))) /\ free (ci_exist s) a (ci_last s) /\
      skipn (ci_start s) (ci_new s) = flat a (Z.to_nat (ci_last s - a + 1))) /\
  ex_ok (ci_exist s).

Lemma flat_last a n : full a (S n) -> exists l y, flat a (S n) = l ++ [(a + Z.of_nat n, y)].
Proof.
  intros F. replace (S n) with (n + 1)%nat by lia. rewrite flat_app. cbn [flat]. rewrite app_nil_r.
  assert (H : rows (a + Z.of_nat n) <> []) by (apply F; lia). destruct (exists_last H) as (r & y & ->). rewrite map_app, app_assoc. cbn. eauto.
Qed.
Lemma delta_ok new start a last : (start < length new)%nat -> good new (mkB a last start (length new)) ->
  skipn start new = flat a (Z.to_nat (last - a + 1)) -> delta_block new start = Some (mkB a last start (length new)).
Proof.
  intros L (I & [A1 A2] & F & _) E. cbn in *. unfold delta_block. set (n := Z.to_nat (last - a)). replace (Z.to_nat (last - a + 1)) with (S n) in * by lia.
  assert (N0 : exists t y, flat a (S n) = (a, y) :: t). { cbn [flat]. assert (H : rows a <> []) by (apply F; lia). destruct (rows a) as [|y r]; [easy|]. cbn. eauto. }
  destruct N0 as (t & y & N0). destruct (flat_last a n F) as (l & z & N1).
  assert (X1 : nth_error new start = Some (a, y)). { rewrite N0 in E. clear - E. revert start E. induction new as [|x new IH]; intros [|s] E; cbn in *; try discriminate; [congruence|now apply IH]. }
  assert (X2 : nth_error new (length new - 1) = Some (last, z)).
  { rewrite <- (firstn_skipn start new) at 1. rewrite E, N1. replace (a + Z.of_nat n) with last by lia. rewrite app_assoc. rewrite nth_error_app2.
    - replace (length new - 1 - length (firstn start new ++ l))%nat with 0%nat; [reflexivity|]. pose proof (f_equal (@length _) E) as Q. rewrite N1, skipn_length, app_length in Q. cbn in Q. rewrite app_length, firstn_length. lia.
    - pose proof (f_equal (@length _) E) as Q. rewrite N1, skipn_length, app_length in Q. cbn in Q. rewrite app_length, firstn_length. lia. }
  rewrite X1, X2. reflexivity.
Qed.

Lemma goto_ok s c1 : Ses s -> 0 <= c1 ->
  (forall e, ci_exist s = Some e -> exists r, searchBlock (fst e) c1 = Some r /\ match r with Some b => In b (fst e) /\ b_sk b <= c1 <= b_ek b | None => ~ covered (fst e) c1 end) ->
  exists b t, gotoFirstTerm rows s c1 = Some (b, t) /\ ci_exist t = ci_exist s /\
    (at_group t (rows c1) \/ rows c1 = [] /\ ci_hnc t = true /\ ci_n t = false) /\ (forall u, same t u -> Ses u).
Proof.
  intros (HB & HD & HX) C Hs. unfold gotoFirstTerm.
  assert (Ex : exists r, (match ci_exist s with Some e => searchBlock (fst e) c1 | None => Some None end) = Some r /\
    match r with Some b => exists e, ci_exist s = Some e /\ In b (fst e) /\ b_sk b <= c1 <= b_ek b | None => free (ci_exist s) c1 c1 end).
  { destruct (ci_exist s) as [e|] eqn:E.
    - destruct (Hs e eq_refl) as ([b|] & -> & H); [exists (Some b); split; [reflexivity|exists e; tauto]|exists None; split; [reflexivity|]]. intros e' k Ee Hk. injection Ee as <-. now replace k with c1 by lia.
    - exists None. split; [reflexivity|]. intros e k Ee. discriminate. }
  destruct Ex as ([b|] & -> & Hb).
  - destruct Hb as (e & Ee & I & R). rewrite Ee. destruct (HX e Ee) as [Ho Hg]. rewrite Forall_forall in Hg.
    destruct (block_pos (snd e) b c1 (Hg b I) R) as (i & n & -> & L & _ & Q & N & LE).
    destruct (rows c1) as [|y r] eqn:Er; [easy|]. cbn [map app] in Q. pose proof Q as Q0. apply first_nth in Q as (_ & Q2 & _). rewrite Q2. cbn [fst snd]. rewrite Z.eqb_refl.
    do 2 eexists. split; [reflexivity|]. cbn [ci_exist]. split; [reflexivity|]. split.
    + left. exists (snd e), n. cbn. unfold ci_vec. cbn. repeat split; auto; [lia|]. intros k Hk. lia.
    + intros u (U1 & U2 & U3 & U4 & U5). cbn in *. unfold Ses. rewrite U1, U2, U3, U4, U5. rewrite Ee in *. tauto.
  - (* not cached *)
    assert (D : exists bl st, (if negb (c1 =? ci_last s + 1) && negb (Nat.eqb (length (ci_new s)) (ci_start s)) then do b <- delta_block (ci_new s) (ci_start s); Some (ci_blocks s ++ [b], length (ci_new s)) else Some (ci_blocks s, ci_start s)) = Some (bl, st) /\
      Forall (fun b => good (ci_new s) b /\ free (ci_exist s) (b_sk b) (b_ek b)) bl /\
      (st = length (ci_new s) \/ c1 = ci_last s + 1 /\ (st < length (ci_new s))%nat /\ exists a, good (ci_new s) (mkB a (ci_last s) st (length (ci_new s))) /\ free (ci_exist s) a (ci_last s) /\ skipn st (ci_new s) = flat a (Z.to_nat (ci_last s - a + 1)))).
    { destruct HD as [HD|(HD & a & G & Fr & Sk)].
      - rewrite HD, Nat.eqb_refl, andb_false_r. do 2 eexists. split; [reflexivity|]. auto.
      - destruct (Nat.eqb_spec (length (ci_new s)) (ci_start s)) as [X|X]; [lia|]. destruct (Z.eqb_spec c1 (ci_last s + 1)) as [Y|Y]; cbn [negb andb].
        + do 2 eexists. split; [reflexivity|]. split; [exact HB|]. right. split; [exact Y|]. split; [exact HD|]. now exists a.
        + rewrite (delta_ok _ _ a (ci_last s)); auto. do 2 eexists. split; [reflexivity|]. split; [|now left]. apply Forall_app. split; [exact HB|]. constructor; [|constructor]. split; [exact G|exact Fr]. }
    destruct D as (bl & st & -> & HB' & HD'). cbn [fst snd].
    destruct (rows c1) as [|y r] eqn:Er.
    + cbn [map]. rewrite app_nil_r, Nat.eqb_refl. cbn [negb]. do 2 eexists. split; [reflexivity|]. cbn [ci_exist]. split; [reflexivity|]. split; [right; auto|].
      intros u (U1 & U2 & U3 & U4 & U5). cbn in *. unfold Ses. rewrite U1, U2, U3, U4, U5. split; [exact HB'|]. split; [|exact HX]. destruct HD' as [->|(_ & A & B)]; auto.
    + rewrite <- Er. assert (Nr : rows c1 <> []) by (rewrite Er; discriminate).
      assert (Ln : length (ci_new s ++ map (pair c1) (rows c1)) = (length (ci_new s) + length (rows c1))%nat) by (rewrite app_length, map_length; reflexivity).
      destruct (Nat.eqb_spec (length (ci_new s ++ map (pair c1) (rows c1))) (length (ci_new s))) as [X|X]; [rewrite Ln, Er in X; cbn in X; lia|]. cbn [negb].
      assert (X0 : nth_error (ci_new s ++ map (pair c1) (rows c1)) (length (ci_new s)) = Some (c1, y)) by (rewrite nth_error_app2, Nat.sub_diag, Er by lia; reflexivity). rewrite X0. cbn [snd].
      do 2 eexists. split; [reflexivity|]. cbn [ci_exist]. split; [reflexivity|]. split.
      * left. exists (ci_new s ++ map (pair c1) (rows c1)), 0%nat. unfold ci_vec. cbn. repeat split; auto; [lia|intros k Hk; lia| |].
        -- rewrite skipn_app, skipn_all, Nat.sub_diag, Ln. cbn. rewrite app_nil_r. replace (length (ci_new s) + length (rows c1) - length (ci_new s))%nat with (length (map (pair c1) (rows c1))) by (rewrite map_length; lia). apply firstn_all.
        -- rewrite Er. reflexivity.
      * intros u (U1 & U2 & U3 & U4 & U5). cbn in *. unfold Ses. rewrite U1, U2, U3, U4, U5. split; [|split; [|exact HX]].
        -- eapply Forall_impl; [|exact HB']. intros b [G Fb]. split; [now apply good_app|exact Fb].
        -- right. rewrite Ln. assert (Lr : (0 < length (rows c1))%nat) by (rewrite Er; cbn; lia).
           destruct HD' as [->|(-> & L & a & G & Fr & Sk)].
           ++ split; [lia|]. exists c1. assert (SK : skipn (length (ci_new s)) (ci_new s ++ map (pair c1) (rows c1)) = flat c1 (Z.to_nat (c1 - c1 + 1))).
              { rewrite skipn_app, skipn_all, Nat.sub_diag. replace (Z.to_nat (c1 - c1 + 1)) with 1%nat by lia. cbn. now rewrite app_nil_r. }
              split; [|split; [exact Hb|exact SK]]. split; [split; cbn; lia|]. split; [cbn; lia|]. split; [cbn; intros k Hk; replace k with c1 by lia; exact Nr|].
              exists []. split; [|constructor]. unfold content. cbn [b_sa b_ea b_sk b_ek]. rewrite SK. cbn [app]. apply firstn_all2. rewrite <- SK, skipn_length. lia.
           ++ split; [lia|]. exists a. destruct G as (GI & GA & GF & _). cbn in GA, GF.
              assert (SK : skipn st (ci_new s ++ map (pair (ci_last s + 1)) (rows (ci_last s + 1))) = flat a (Z.to_nat (ci_last s + 1 - a + 1))).
              { rewrite skipn_app. replace (st - length (ci_new s))%nat with 0%nat by lia. cbn [skipn]. rewrite Sk. replace (Z.to_nat (ci_last s + 1 - a + 1)) with (Z.to_nat (ci_last s - a + 1) + 1)%nat by lia. rewrite flat_app. f_equal. cbn [flat]. rewrite app_nil_r. replace (a + Z.of_nat (Z.to_nat (ci_last s - a + 1))) with (ci_last s + 1) by lia. reflexivity. }
              split; [|split; [|exact SK]].
              ** split; [split; cbn; lia|]. split; [cbn; lia|]. split.
                 { cbn. intros k Hk. destruct (Z.eq_dec k (ci_last s + 1)) as [->|]; [exact Nr|]. apply GF. lia. }
                 exists []. split; [|constructor]. unfold content. cbn [b_sa b_ea b_sk b_ek]. rewrite SK. cbn [app]. apply firstn_all2. rewrite <- SK, skipn_length. lia.
              ** intros e k Ee Hk. destruct (Z.eq_dec k (ci_last s + 1)) as [->|]; [apply (Hb e _ Ee); lia|apply (Fr e k Ee); lia].
Qed.
End Rows.
