(** Lemmas on the sessions of the iterator over the cache of ranges. *)
From Verif Require Export CidxProofs2.
Local Open Scope Z_scope.

Section Rows.
Variable rows : Z -> list Z.
Notation good := (good rows).

Lemma good_shift ps b e : good ps b -> b_sk b <= e < b_ek b ->
  good ps (mkB (e + 1) (b_ek b) (b_sa b + Z.to_nat (e - b_sk b + 1)) (b_ea b)).
Proof.
  intros ([I1 I2] & A & F & pre & C & P) R. set (n := Z.to_nat (e - b_sk b + 1)). set (m := Z.to_nat (b_ek b - (e + 1) + 1)).
  assert (EN : Z.to_nat (b_ek b - b_sk b + 1) = (n + m)%nat) by lia. rewrite EN, flat_app in C. replace (b_sk b + Z.of_nat n) with (e + 1) in C by lia.
  assert (Fn : full rows (b_sk b) n) by (intros k Hk; apply F; lia). pose proof (flat_long rows _ _ Fn) as L.
  assert (Lc : length (content ps b) = (b_ea b - b_sa b)%nat) by (apply content_length; split; auto).
  rewrite C, !app_length in Lc. split; [split; cbn; lia|]. split; [cbn; lia|]. cbn [b_sk b_ek]. fold m. split; [intros k Hk; apply F; lia|].
  exists (skipn n (pre ++ flat rows (b_sk b) n)). split.
  - unfold content. cbn [b_sa b_ea]. replace (b_ea b - (b_sa b + n))%nat with (b_ea b - b_sa b - n)%nat by lia.
    assert (G : forall a m' (q : pairs), skipn (a + m') q = skipn m' (skipn a q)). { clear. induction a; intros m' q; [reflexivity|]. destruct q; cbn; [now rewrite skipn_nil|apply IHa]. }
    rewrite G, <- skipn_firstn_comm. fold (content ps b). rewrite C, app_assoc, skipn_app. replace (n - length (pre ++ flat rows (b_sk b) n))%nat with 0%nat by (rewrite app_length; lia). reflexivity.
  - assert (Fp : Forall (fun x => fst x < e + 1) (pre ++ flat rows (b_sk b) n)).
    { apply Forall_app. split; [eapply Forall_impl; [|exact P]; cbn; intros; lia|]. rewrite Forall_forall. intros x Hx. apply flat_keys in Hx. lia. }
    clear - Fp. revert Fp. generalize (pre ++ flat rows (b_sk b) n). generalize n. clear. induction n as [|n IHn]; intros q Fp; [exact Fp|]. destruct q; [constructor|]. inversion Fp; subst. now apply IHn.
Qed.
Lemma dedup_ok ps ex bs : Forall (fun b => good ps b /\ free ex (b_sk b) (b_ek b)) bs -> forall last,
  Forall (fun b => good ps b /\ free ex (b_sk b) (b_ek b)) (dedup last bs) /\ ordered (dedup last bs) /\
  (forall k e, last = Some (k, e) -> Forall (fun b => e < b_sk b) (dedup last bs)).
Proof.
  induction 1 as [|b t [G Fr] Ht IH]; intros last; cbn [dedup].
  - split; [constructor|]. split; [split; constructor|]. constructor.
  - assert (Push : forall b', good ps b' -> free ex (b_sk b') (b_ek b') ->
      Forall (fun b => good ps b /\ free ex (b_sk b) (b_ek b)) (b' :: dedup (Some (b_sk b', b_ek b')) t) /\ ordered (b' :: dedup (Some (b_sk b', b_ek b')) t) /\
      (forall e, e < b_sk b' -> Forall (fun b => e < b_sk b) (b' :: dedup (Some (b_sk b', b_ek b')) t))).
    { intros b' G' F'. destruct (IH (Some (b_sk b', b_ek b'))) as (A & [B1 B2] & C). specialize (C _ _ eq_refl). pose proof G' as (_ & R & _).
      split; [now constructor|]. split; [split; [now constructor|constructor; [lia|exact B2]]|]. intros e L. constructor; [exact L|]. eapply Forall_impl; [|exact C]. cbn. intros; lia. }
    pose proof G as (_ & R & _). destruct last as [[k e]|].
    + destruct (negb (b_sk b =? k)); [|exact (IH (Some (k, e)))]. destruct (Z.leb_spec (b_sk b) e).
      * destruct (Z.leb_spec (b_ek b) e); [exact (IH (Some (k, e)))|].
        match goal with |- context [dedup (Some (b_sk ?x, b_ek _)) _] => destruct (Push x) as (P1 & P2 & P3) end.
        -- apply good_shift; auto; lia.
        -- intros e' k' Ee Hk. apply (Fr e' k' Ee). cbn in Hk. lia.
        -- split; [exact P1|]. split; [exact P2|]. intros k' e' E. injection E as <- <-. apply P3. cbn. lia.
      * destruct (Push b G Fr) as (P1 & P2 & P3). split; [exact P1|]. split; [exact P2|]. intros k' e' E. injection E as <- <-. apply P3. lia.
    + destruct (Push b G Fr) as (P1 & P2 & P3). split; [exact P1|]. split; [exact P2|]. discriminate.
Qed.

Lemma ordered_apart ps bs : ordered bs -> ForallOrdPairs apart (map (says ps) bs).
Proof.
  intros [H _]. induction H as [|a l H IH F]; cbn [map]; constructor; auto. rewrite Forall_forall in *. intros x Hx. apply in_map_iff in Hx as (y & <- & Hy). left. cbn. now apply F.
Qed.
Lemma apart_app (l m : list (Z * Z * pairs)) : ForallOrdPairs apart l -> ForallOrdPairs apart m -> (forall x y, In x l -> In y m -> apart x y) -> ForallOrdPairs apart (l ++ m).
Proof.
  induction 1 as [|a l F H IH]; intros Hm X; cbn [app]; [exact Hm|]. constructor.
  - apply Forall_app. split; [exact F|]. rewrite Forall_forall. intros y Hy. apply X; [now left|exact Hy].
  - apply IH; auto. intros x y Hx Hy. apply X; [now right|exact Hy].
Qed.
End Rows.

(** The whole cache. *)
Definition cache_ok (rows : Z -> Z -> list Z) (c : cache) : Prop :=
  forall key e, getIndex c key = Some e -> ordered (fst e) /\ Forall (good (rows key) (snd e)) (fst e).

Lemma clear_ok srt rows c key s : sorts_blocks srt -> cache_ok rows c -> Ses (rows key) s -> ci_exist s = getIndex c key ->
  exists c', ci_clear srt c key s = Some c' /\ cache_ok rows c'.
Proof.
  intros HS HC (HB & HD & HX) HE. unfold ci_clear. destruct (0 <? length (ci_new s))%nat; [|exists c; auto].
  assert (E : exists bs, (if negb (Nat.eqb (ci_start s) (length (ci_new s))) then do b <- delta_block (ci_new s) (ci_start s); Some (ci_blocks s ++ [b]) else Some (ci_blocks s)) = Some bs /\
    Forall (fun b => good (rows key) (ci_new s) b /\ free (ci_exist s) (b_sk b) (b_ek b)) bs).
  { destruct HD as [HD|(HD & a & G & Fr & Sk)].
    - rewrite HD, Nat.eqb_refl. eexists. split; [reflexivity|exact HB].
    - destruct (Nat.eqb_spec (ci_start s) (length (ci_new s))); [lia|]. cbn [negb]. rewrite (delta_ok (rows key) _ _ a (ci_last s)); auto. eexists. split; [reflexivity|]. apply Forall_app. split; [exact HB|]. constructor; [|constructor]. split; [exact G|exact Fr]. }
  destruct E as (bs & -> & Hbs). destruct (HS bs) as [P _].
  apply (Permutation_Forall (Permutation_sym P)) in Hbs. destruct (dedup_ok (rows key) (ci_new s) (ci_exist s) _ Hbs None) as (D1 & D2 & _). revert D1 D2. generalize (dedup None (srt bs)). clear bs P Hbs. intros out D1 D2.
  assert (DI : Forall (inside (ci_new s)) out) by (eapply Forall_impl; [|exact D1]; intros b [G _]; apply G).
  unfold storeIdx. destruct (getIndex c key) as [e|] eqn:G.
  - destruct (HC key e G) as [O1 G1]. assert (I1 : Forall (inside (snd e)) (fst e)) by (eapply Forall_impl; [|exact G1]; intros b Hb; apply Hb).
    destruct (add_ok out (ci_new s) DI e I1) as (e' & -> & I2 & M & _). eexists. split; [reflexivity|]. intros k f. rewrite get_set. destruct (Z.eqb_spec key k) as [<-|N]; [|apply HC]. intros Ef. injection Ef as <-. cbn [fst snd].
    assert (G2 : Forall (good (rows key) (snd e')) (fst e')).
    { rewrite Forall_forall. intros b Hb. assert (Is : In (says (snd e') b) (map (says (snd e)) (fst e) ++ map (says (ci_new s)) out)) by (rewrite <- M; now apply in_map).
      rewrite Forall_forall in I2, G1, D1. apply in_app_or in Is as [Is|Is]; apply in_map_iff in Is as (x & Ex & Hx).
      - exact (good_says (rows key) _ x _ b (I2 b Hb) Ex (G1 x Hx)).
      - exact (good_says (rows key) _ x _ b (I2 b Hb) Ex (proj1 (D1 x Hx))). }
    split.
    + apply (sort_ordered srt _ (snd e')); auto.
      * eapply Forall_impl; [|exact G2]. intros b (_ & R & _). lia.
      * rewrite M. apply apart_app; [now apply ordered_apart|now apply ordered_apart|]. intros x y Hx Hy. apply in_map_iff in Hx as (b1 & <- & Hb1). apply in_map_iff in Hy as (b2 & <- & Hb2).
        rewrite Forall_forall in G1, D1. destruct (G1 b1 Hb1) as (_ & R1 & _). destruct (D1 b2 Hb2) as ((_ & R2 & _) & Fr). unfold apart. cbn.
        destruct (Z.ltb_spec (b_ek b1) (b_sk b2)); [now left|]. destruct (Z.ltb_spec (b_ek b2) (b_sk b1)); [now right|]. exfalso.
        apply (Fr e (Z.max (b_sk b1) (b_sk b2)) HE); [lia|]. exists b1. split; [exact Hb1|lia].
    + destruct (HS (fst e')) as [P _]. exact (Permutation_Forall (Permutation_sym P) G2).
  - eexists. split; [reflexivity|]. intros k f. rewrite get_set. destruct (Z.eqb_spec key k) as [<-|N]; [|apply HC]. intros Ef. injection Ef as <-. cbn [fst snd]. split; [exact D2|]. eapply Forall_impl; [|exact D1]. intros b Hb. apply Hb.
Qed.

Lemma init_ses rows c key : cache_ok rows c -> Ses (rows key) (ci_init c key).
Proof. intros HC. split; [constructor|]. split; [now left|]. intros e E. apply (HC key e E). Qed.
Lemma drain_empty fuel s : ci_hnc s = true -> ci_n s = false -> ci_drain fuel s = Some ([], s).
Proof. intros H N. destruct fuel; cbn [ci_drain]; unfold ci_hasNext; rewrite H, N; reflexivity. Qed.
(** A request can be looked up. *)
Definition askable (ex : option (list block * pairs)) (c1 : Z) : Prop := forall e, ex = Some e -> searchBlock (fst e) c1 <> None.
Lemma reads_ok rows fuel cs : forall s, Ses rows s -> Forall (fun c1 => 0 <= c1 /\ (length (rows c1) <= fuel)%nat) cs ->
  (Forall (askable (ci_exist s)) cs -> exists t, ci_reads fuel rows s cs = Some (map rows cs, t) /\ Ses rows t /\ ci_exist t = ci_exist s) /\
  (~ Forall (askable (ci_exist s)) cs -> ci_reads fuel rows s cs = None).
Proof.
  induction cs as [|c1 cs IH]; intros s HS HF; cbn [ci_reads map].
  - split; [intros _; exists s; auto|]. intros N. exfalso. apply N. constructor.
  - inversion HF as [|? ? [H0 Hl] HF']; subst. 
    assert (Dec : askable (ci_exist s) c1 \/ exists e, ci_exist s = Some e /\ searchBlock (fst e) c1 = None).
    { destruct (ci_exist s) as [e|] eqn:E; [|left; discriminate]. destruct (searchBlock (fst e) c1) eqn:B; [left|right; eauto]. intros e' Ee. injection Ee as <-. congruence. }
    destruct Dec as [Ask|(e & Ee & B)].
    + destruct (goto_ok rows s c1 HS H0) as (b & t & -> & Et & At & Su).
      { intros e Ee. destruct HS as (_ & _ & HX). destruct (HX e Ee) as [Ho _]. destruct (search_spec (fst e) c1 Ho H0 (Ask e Ee)) as (r & Er & Hr). exists r. split; [exact Er|]. destruct r as [x|]; [exact Hr|]. intros (x & Ix & Rx). exact (Hr x Ix Rx). }
      assert (Dr : exists u, ci_drain fuel t = Some (rows c1, u) /\ same t u).
      { destruct At as [At|(R0 & A1 & A2)]; [exact (drain_ok rows (rows c1) t fuel At Hl)|]. exists t. rewrite R0, drain_empty by auto. split; [reflexivity|]. repeat split; auto. }
      destruct Dr as (u & -> & Sm). destruct (IH u (Su u Sm) HF') as [I1 I2].
      assert (Eu : ci_exist u = ci_exist s) by (destruct Sm as (_ & _ & _ & _ & ->); exact Et). rewrite Eu in *. split.
      * intros A. inversion A; subst. destruct I1 as (v & -> & Sv & Ev); [assumption|]. exists v. auto.
      * intros N. rewrite I2; [reflexivity|]. intros A. apply N. now constructor.
    + split; [intros A; inversion A as [|? ? X _]; subst; exfalso; exact (X e Ee B)|]. intros _. unfold gotoFirstTerm. rewrite Ee, B. reflexivity.
Qed.
Lemma askable_dec ex cs : Forall (askable ex) cs \/ ~ Forall (askable ex) cs.
Proof.
  induction cs as [|c cs IH]; [left; constructor|]. assert (D : askable ex c \/ ~ askable ex c).
  { destruct ex as [e|]; [|left; discriminate]. destruct (searchBlock (fst e) c) eqn:B; [left; intros e' Ee; injection Ee as <-; congruence|right; intros A; exact (A e eq_refl B)]. }
  destruct D as [D|D]; [|right; intros A; inversion A; auto]. destruct IH as [IH|IH]; [left; now constructor|right; intros A; inversion A; auto].
Qed.
Lemma session_ok srt rows fuel c key cs : sorts_blocks srt -> cache_ok rows c -> Forall (fun c1 => 0 <= c1 /\ (length (rows key c1) <= fuel)%nat) cs ->
  Forall (askable (getIndex c key)) cs -> exists c', session fuel srt rows c key cs = Some (map (rows key) cs, c') /\ cache_ok rows c'.
Proof.
  intros HS HC HF A. unfold session. destruct (reads_ok (rows key) fuel cs (ci_init c key) (init_ses rows c key HC) HF) as [R _].
  destruct (R A) as (t & -> & St & Et). destruct (clear_ok srt rows c key t HS HC St Et) as (c' & -> & HC'). eauto.
Qed.
Lemma sessions_ok srt rows fuel l : sorts_blocks srt -> Forall (fun x => Forall (fun c1 => 0 <= c1 /\ (length (rows (fst x) c1) <= fuel)%nat) (snd x)) l ->
  forall c out c', cache_ok rows c -> sessions fuel srt rows c l = Some (out, c') -> out = map (fun x => map (rows (fst x)) (snd x)) l /\ cache_ok rows c'.
Proof.
  intros HS. induction 1 as [|[key cs] l Hx Hl IH]; intros c out c' HC E; cbn [sessions] in E.
  - injection E as <- <-. auto.
  - cbn [fst snd] in Hx. destruct (askable_dec (getIndex c key) cs) as [A|A].
    + destruct (session_ok srt rows fuel c key cs HS HC Hx A) as (c1 & E1 & HC1). rewrite E1 in E.
      destruct (sessions fuel srt rows c1 l) as [[rs c2]|] eqn:E2; [|discriminate]. injection E as <- <-. destruct (IH c1 rs c2 HC1 E2) as [-> H]. auto.
    + unfold session in E. destruct (reads_ok (rows key) fuel cs (ci_init c key) (init_ses rows c key HC) Hx) as [_ R]. rewrite R in E by exact A. discriminate.
Qed.
