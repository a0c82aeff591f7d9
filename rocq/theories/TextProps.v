(** C68: a database of textual triples after any sequence of textual updates. *)
From Coq Require Import Sorted Permutation ZifyBool.
From Verif Require Import ItrProofs ItrProps UpdProofs2 UpdProps DictSpec DictProofs DictProofs2 DictProps TextSpec.
Local Open Scope Z_scope.

Section Text.
  Variable limit maxterm fuel : nat.
  Variable so : sorters.
  Variable tso : sorts.
  Variable enum : list (Z * text) -> list (Z * text).
  Variable enumt : list (text * Z) -> list (text * Z).
  Variable popular others : list text.
  Variable out : pitr.
  Variable base : list elem.
  Hypothesis Hs1 : std_sort comp_gt (sort_comp so).
  Hypothesis Hs2 : std_sort cscan_gt (sort_scan so).
  Hypothesis Hy : Yields true base out.
  Hypothesis Hsb : StronglySorted elt base.
  Hypothesis Htso : good_sorts tso.
  Hypothesis He : forall l, Permutation (enum l) l.
  Hypothesis Het : forall l, Permutation (enumt l) l.
  Hypothesis Hnd : NoDup (popular ++ others).
  Hypothesis Hlen : Z.of_nat (length (popular ++ others)) < 2 ^ 63.
  Hypothesis Hbase : forall a b c, In (a, b, c) base ->
    0 <= a < Z.of_nat (length (popular ++ others)) /\
    0 <= b < Z.of_nat (length (popular ++ others)) /\
    0 <= c < Z.of_nat (length (popular ++ others)).

  Notation B := (fun y => In y base).
  Notation S0 := (loaded (popular ++ others) base).

  Record good (k : disk) (d : list (bool * pitr)) (r : trequests) (A : list (text * Z))
      (h : list (bool * list elem)) (r' : requests) : Prop := {
    g_hist : history limit fuel enum k A;
    g_ses : session fuel so out h d r';
    g_sorted : Forall (fun u => StronglySorted elt (snd u)) r';
    g_size : (request_size r' <= tsize r)%nat;
    g_len : (length A <= length (popular ++ others) + 3 * tsize r)%nat;
    g_nc : forall a b c, replay B (as_history r') (a, b, c) ->
      exists s p o, In (s, a) A /\ In (p, b) A /\ In (o, c) A /\ treplay S0 r (s, p, o);
    g_cn : forall s p o, treplay S0 r (s, p, o) ->
      exists a b c, In (s, a) A /\ In (p, b) A /\ In (o, c) A /\ replay B (as_history r') (a, b, c) }.

  Lemma nth_numbered ts a t : nth_error ts a = Some t <-> In (t, Z.of_nat a) (numbered ts 0).
  Proof.
    assert (H : forall n, nth_error ts a = Some t <-> In (t, Z.of_nat (n + a)) (numbered ts n)).
    { revert a. induction ts as [|x ts IH]; intros a n.
      - destruct a; cbn; split; try discriminate; tauto.
      - rewrite numbered_cons. destruct a as [|a]; cbn [nth_error In].
        + rewrite Nat.add_0_r. split; [intros H; injection H as ->; auto|].
          intros [H|H]; [congruence|]. exfalso. apply (in_map snd) in H. rewrite numbered_snd in H.
          apply in_map_iff in H. destruct H as (y & Hy' & Hin). apply in_seq in Hin. cbn in Hy'. lia.
        + rewrite (IH a (S n)). replace (S n + a)%nat with (n + S a)%nat by lia. split; [auto|].
          intros [H|H]; auto. exfalso. injection H as _ H. lia. }
    apply (H 0%nat).
  Qed.

  Lemma good_load l m : insert_dictionary popular others = (l, m) ->
    good (mkDisk l (m + 1) [] None) [] [] (numbered (popular ++ others) 0) [] [].
  Proof.
    intros Hi. constructor.
    - exact (h_load limit fuel enum popular others l m Hi Hnd Hlen).
    - constructor.
    - constructor.
    - cbn. lia.
    - rewrite <- (map_length fst (numbered _ _)), numbered_fst. lia.
    - intros a b c H. cbn in H. pose proof (Hbase _ _ _ H) as (H1 & H2 & H3).
      assert (Hex : forall i, 0 <= i < Z.of_nat (length (popular ++ others)) ->
        exists t, nth_error (popular ++ others) (Z.to_nat i) = Some t).
      { intros i Hr. destruct (nth_error (popular ++ others) (Z.to_nat i)) eqn:E; eauto.
        apply nth_error_None in E. lia. }
      destruct (Hex a H1) as [s Es], (Hex b H2) as [p Ep], (Hex c H3) as [o Eo].
      exists s, p, o. cbn.
      assert (Hin : forall i t, 0 <= i -> nth_error (popular ++ others) (Z.to_nat i) = Some t ->
         In (t, i) (numbered (popular ++ others) 0)).
      { intros i t Hp Hn. apply nth_numbered in Hn. now rewrite Z2Nat.id in Hn. }
      split; [apply Hin; auto; lia|]. split; [apply Hin; auto; lia|]. split; [apply Hin; auto; lia|].
      exists (Z.to_nat a), (Z.to_nat b), (Z.to_nat c). rewrite !Z2Nat.id by lia. auto.
    - intros s p o (a & b & c & H1 & H2 & H3 & H4).
      exists (Z.of_nat a), (Z.of_nat b), (Z.of_nat c).
      rewrite <- !nth_numbered. auto.
  Qed.

  (** What is known before an update. *)
  Lemma before k d r A h r' dict next o :
    good k d r A h r' -> open_dict fuel k = Some (dict, next) ->
    overlay fuel so (-1) d out = Some o -> (length base + tsize r + 1 < fuel)%nat ->
    contains dict A /\ dict_ok (get_number dict) next /\
    (forall t i, In (t, i) A -> 0 <= i < next) /\
    exists R, Yields true R o /\ StronglySorted elt R /\ (length R < fuel)%nat /\
      (forall x, In x R <-> replay B (as_history r') x).
  Proof.
    intros G Ho Hov Hf. pose proof G as [Hh Hse Hso Hsz HlA Hnc Hcn].
    destruct (C44_lookups_are_inverse_partial _ _ _ _ _ _ _ He Hh Ho) as (_ & _ & Hd).
    destruct (C44_dictionary_partial _ _ _ _ _ (fuel + S (length A)) He Hh ltac:(lia)) as (d' & n' & Ho' & C & R).
    apply (open_dict_mono _ (fuel + S (length A))) in Ho; [|lia].
    rewrite Ho in Ho'. injection Ho' as <- <-.
    split; auto. split; auto. split; auto.
    destruct (session_ok fuel so base out Hs1 Hs2 Hy Hsb h d r' Hse Hso ltac:(lia)) as (V & Rp & F2 & Sz).
    destruct (C06_query_sees_history fuel so (-1) base h d out) as (o' & L & E & HR & HsR & HinR);
      auto; try lia.
    rewrite Hov in E. injection E as <-. exists L. split; auto. split; auto. split.
    - assert (length L <= length (base ++ concat (map snd h)))%nat.
      { apply NoDup_incl_length; [now apply sorted_nodup|]. intros x Hx. apply replay_in.
        now apply HinR. }
      rewrite app_length, concat_length, map_map in H. lia.
    - intros x. now rewrite HinR, Rp.
  Qed.

  Lemma sized l triples (f : ttriple -> elem) : StronglySorted elt l ->
    (forall x, In x l -> exists t, In t triples /\ x = f t) -> (length l <= length triples)%nat.
  Proof.
    intros Hs Hi. rewrite <- (map_length f triples). apply NoDup_incl_length; [now apply sorted_nodup|].
    intros x Hx. destruct (Hi x Hx) as (t & Ht & ->). now apply in_map.
  Qed.

  Lemma replay_snoc r' u x : replay B (as_history (r' ++ [u])) x <->
    step_set (replay B (as_history r')) (is_delete (fst u), snd u) x.
  Proof. unfold replay, as_history. rewrite map_app, fold_left_app. reflexivity. Qed.
  Lemma treplay_snoc r u x : treplay S0 (r ++ [u]) x <-> tstep (treplay S0 r) u x.
  Proof. unfold treplay. rewrite fold_left_app. reflexivity. Qed.
  Lemma request_size_snoc r' u : request_size (r' ++ [u]) = (request_size r' + length (snd u))%nat.
  Proof. unfold request_size. rewrite map_app, list_sum_app. cbn. lia. Qed.
  Lemma tsize_snoc r u : tsize (r ++ [u]) = (tsize r + length (snd u))%nat.
  Proof. unfold tsize. rewrite map_app, list_sum_app. cbn. lia. Qed.

  (** A deletion. *)
  Lemma good_del k d r A h r' triples dict next o rec tmp :
    good k d r A h r' -> open_dict fuel k = Some (dict, next) ->
    overlay fuel so (-1) d out = Some o -> (length base + tsize r + 1 < fuel)%nat ->
    good_request maxterm (get_number dict) next DELETE_df triples ->
    compress_update (get_number dict) maxterm fuel DELETE_df tso next o triples = Some (rec, tmp) ->
    exists l, StronglySorted elt l /\ upd_match fuel DELETE_df o l = Some rec /\
    forall d' h', session fuel so out h' d' (r' ++ [(DELETE_df, l)]) ->
    good k d' (r ++ [(DELETE_df, triples)]) A h' (r' ++ [(DELETE_df, l)]).
  Proof.
    intros G Ho Hov Hf (Q1 & Q2 & Q3 & Q4 & Q5) Hc.
    destruct (before _ _ _ _ _ _ _ _ _ G Ho Hov Hf) as (C & D & Rg & R & HyR & HsR & HlR & HR).
    destruct (C08_deletion_encoding_partial (get_number dict) maxterm next tso triples D Htso Q1 ltac:(lia))
      as (l & E & S & I1 & I2).
    specialize (I2 Q3 Q4 Q5).
    unfold compress_update in Hc. rewrite E in Hc.
    destruct (upd_match fuel DELETE_df o l) as [rec'|] eqn:Em; [|discriminate]. injection Hc as -> <-.
    exists l. split; auto. split; auto. intros d' h' Hses'.
    pose proof G as [Hh Hse Hso Hsz HlA Hnc Hcn].
    assert (HA1 : forall t i, get_number dict t = Some i <-> In (t, i) A) by (intros; apply C).
    constructor; auto.
    - apply Forall_app. split; auto.
    - rewrite request_size_snoc, tsize_snoc. cbn [snd].
      enough (length l <= length triples)%nat by lia.
      set (num := fun t => match get_number dict t with Some i => i | None => 0 end).
      apply (sized l triples (fun t => (num (tx_s t), num (tx_p t), num (tx_o t)))); auto.
      intros [[a b] c] Hx. destruct (I2 _ Hx) as (t & Ht & H1 & H2 & H3). exists t. split; auto.
      unfold num. now rewrite H1, H2, H3.
    - rewrite tsize_snoc. lia.
    - intros a b c Hx. apply replay_snoc in Hx. cbn in Hx. destruct Hx as [Hx Hn].
      destruct (Hnc a b c Hx) as (s & p & q & H1 & H2 & H3 & H4). exists s, p, q.
      split; auto. split; auto. split; auto. apply treplay_snoc. cbn. split; auto.
      intros Hin. apply in_map_iff in Hin. destruct Hin as (t & Ht & Hin). injection Ht as <- <- <-.
      apply Hn, I1. exists t. rewrite !HA1. auto.
    - intros s p q Hx. apply treplay_snoc in Hx. cbn in Hx. destruct Hx as [Hx Hn].
      destruct (Hcn s p q Hx) as (a & b & c & H1 & H2 & H3 & H4). exists a, b, c.
      split; auto. split; auto. split; auto. apply replay_snoc. cbn. split; auto.
      intros Hin. destruct (I2 _ Hin) as (t & Ht & E1 & E2 & E3). apply Hn.
      apply in_map_iff. exists t. split; auto. unfold texts_of.
      apply HA1 in H1, H2, H3. destruct D as (_ & _ & D).
      f_equal; [f_equal|]; eapply D; eauto.
  Qed.

  (** An addition; A' are the terms afterwards. *)
  Lemma good_add k d r A h r' triples dict next o rec tmp :
    good k d r A h r' -> open_dict fuel k = Some (dict, next) ->
    overlay fuel so (-1) d out = Some o -> (length base + tsize r + 1 < fuel)%nat ->
    good_request maxterm (get_number dict) next ADDITION_df triples ->
    compress_update (get_number dict) maxterm fuel ADDITION_df tso next o triples = Some (rec, tmp) ->
    exists l, StronglySorted elt l /\ upd_match fuel ADDITION_df o l = Some rec /\
    new_terms A next tmp /\
    forall k' d' h' A', session fuel so out h' d' (r' ++ [(ADDITION_df, l)]) ->
    history limit fuel enum k' A' ->
    (rec = [] /\ A' = A \/ (forall x, In x A' <-> In x A \/ In x tmp) /\
                            length A' = (length A + length tmp)%nat) ->
    good k' d' (r ++ [(ADDITION_df, triples)]) A' h' (r' ++ [(ADDITION_df, l)]).
  Proof.
    intros G Ho Hov Hf (Q1 & Q2 & Q3) Hc.
    destruct (before _ _ _ _ _ _ _ _ _ G Ho Hov Hf) as (C & D & Rg & R & HyR & HsR & HlR & HR).
    destruct (C08_addition_encoding (get_number dict) maxterm next tso triples D Htso Q1 Q3 Q2)
      as (l & tmp' & code & E & (K1 & K2 & K3) & S & I & T & N & U).
    unfold compress_update in Hc. rewrite E in Hc.
    destruct (upd_match fuel ADDITION_df o l) as [rec'|] eqn:Em; [|discriminate]. injection Hc as -> ->.
    exists l. split; auto. split; auto.
    pose proof G as [Hh Hse Hso Hsz HlA Hnc Hcn].
    assert (HA1 : forall t i, get_number dict t = Some i <-> In (t, i) A) by (intros; apply C).
    split.
    { split; [exact N|]. split.
      - clear - N T K3. induction tmp as [|[t i] tmp IH]; cbn; [constructor|].
        assert (Hind : forall tmp0, NoDup (map fst tmp0) ->
          (forall t i, In (t, i) tmp0 -> is_term triples t /\ code t = i) -> NoDup (map snd tmp0)).
        { clear - K3. induction tmp0 as [|[t i] tmp0 IH]; cbn; intros N T; [constructor|].
          inversion N; subst. constructor; auto. intros Hin. apply in_map_iff in Hin.
          destruct Hin as ([t' i'] & Hi & Hin). cbn in Hi. subst i'.
          destruct (T t i (or_introl eq_refl)) as [T1 T2], (T t' i (or_intror Hin)) as [T3 T4].
          assert (t = t') by (apply K3; auto; congruence). subst t'.
          apply (in_map fst) in Hin. contradiction. }
        apply (Hind ((t, i) :: tmp)); auto. intros t' i' Hin. apply T in Hin. tauto.
      - intros t i Hin. pose proof (U t i Hin) as HU. apply T in Hin. destruct Hin as (T1 & T2 & T3). split.
        + intros H. apply in_map_iff in H. destruct H as ([t' j] & Ht & H). cbn in Ht. subst t'.
          apply HA1 in H. congruence.
        + subst i. split; auto. }
    intros k' d' h' A' Hses' Hh' Hcase.
    assert (HAA : forall x, In x A -> In x A').
    { intros x Hx. destruct Hcase as [[_ ->]|[Hc _]]; auto. apply Hc. auto. }
    assert (Hcode : forall t, In t triples -> In (tx_s t, code (tx_s t)) A' /\
        In (tx_p t, code (tx_p t)) A' /\ In (tx_o t, code (tx_o t)) A').
    { intros t Ht.
      assert (Ht1 : is_term triples (tx_s t)) by (left; now apply in_map).
      assert (Ht2 : is_term triples (tx_p t)) by (right; left; now apply in_map).
      assert (Ht3 : is_term triples (tx_o t)) by (right; right; now apply in_map).
      destruct Hcase as [[-> ->]|[Hc _]].
      - destruct (C07_match true fuel R o l HyR HsR S HlR) as [(rec & M & _ & IO) _].
        rewrite Em in M. injection M as <-.
        assert (Hin : In (code (tx_s t), code (tx_p t), code (tx_o t)) R).
        { destruct (in_dec elem_dec (code (tx_s t), code (tx_p t), code (tx_o t)) R) as [Hi|Hi]; auto.
          exfalso. apply (proj2 (IO (code (tx_s t), code (tx_p t), code (tx_o t)))). split; auto.
          apply I. exists t. auto. }
        apply HR in Hin. destruct (Hnc _ _ _ Hin) as (s & p & q & G1 & G2 & G3 & _).
        assert (Hk : forall x y, is_term triples x -> In (y, code x) A -> In (x, code x) A).
        { intros x y Hx Hiny. destruct (get_number dict x) as [i|] eqn:Ex.
          - rewrite (K1 x i Hx Ex). now apply HA1.
          - pose proof (K2 x Hx Ex). pose proof (Rg _ _ Hiny). lia. }
        split; [|split]; eapply Hk; eauto.
      - assert (Hk : forall x, is_term triples x -> In (x, code x) A').
        { intros x Hx. apply Hc. destruct (get_number dict x) as [i|] eqn:Ex.
          - left. rewrite (K1 x i Hx Ex). now apply HA1.
          - right. apply T. auto. }
        split; [|split]; apply Hk; auto. }
    constructor; auto.
    - apply Forall_app. split; auto.
    - rewrite request_size_snoc, tsize_snoc. cbn [snd].
      enough (length l <= length triples)%nat by lia.
      apply (sized l triples (fun t => (code (tx_s t), code (tx_p t), code (tx_o t)))); auto.
      intros [[a b] c] Hx. apply I in Hx. destruct Hx as (t & Ht & H1 & H2 & H3). exists t. split; auto.
      congruence.
    - rewrite tsize_snoc. cbn [snd].
      assert (length tmp <= 3 * length triples)%nat.
      { rewrite <- (map_length fst tmp).
        replace (3 * length triples)%nat with (length (subjects triples ++ predicates triples ++ objects triples)).
        - apply NoDup_incl_length; auto. intros t Ht. apply in_map_iff in Ht.
          destruct Ht as ([t' i] & Ht & Hin). cbn in Ht. subst t'. apply T in Hin. destruct Hin as (Hin & _).
          rewrite !in_app_iff. exact Hin.
        - rewrite !app_length. unfold subjects, predicates, objects. rewrite !map_length. lia. }
      destruct Hcase as [[_ ->]|[_ ->]]; lia.
    - intros a b c Hx. apply replay_snoc in Hx. cbn in Hx. destruct Hx as [Hx|Hx].
      + destruct (Hnc a b c Hx) as (s & p & q & H1 & H2 & H3 & H4). exists s, p, q.
        split; auto. split; auto. split; auto. apply treplay_snoc. cbn. auto.
      + apply I in Hx. destruct Hx as (t & Ht & H1 & H2 & H3). injection H1 as <-. injection H2 as <-. injection H3 as <-.
        exists (tx_s t), (tx_p t), (tx_o t). destruct (Hcode t Ht) as (G1 & G2 & G3).
        split; auto. split; auto. split; auto. apply treplay_snoc. cbn. right.
        apply in_map_iff. exists t. auto.
    - intros s p q Hx. apply treplay_snoc in Hx. cbn in Hx. destruct Hx as [Hx|Hx].
      + destruct (Hcn s p q Hx) as (a & b & c & H1 & H2 & H3 & H4). exists a, b, c.
        split; auto. split; auto. split; auto. apply replay_snoc. cbn. auto.
      + apply in_map_iff in Hx. destruct Hx as (t & Ht & Hin). injection Ht as <- <- <-.
        destruct (Hcode t Hin) as (G1 & G2 & G3).
        do 3 eexists. split; [exact G1|]. split; [exact G2|]. split; [exact G3|].
        apply replay_snoc. cbn. right. apply I. exists t. auto.
  Qed.

  Lemma tsession_good k d r :
    tsession limit maxterm fuel so tso enum enumt popular others out k d r ->
    (length base + tsize r + 1 < fuel)%nat ->
    exists A h r', good k d r A h r'.
  Proof.
    induction 1 as [l m Hi
      |k d r ty triples dict next o tmp H IH Ho Hov Hg Hc
      |k d r triples dict next o rec tmp di k' H IH Ho Hov Hg Hc Hne Hdi Hpl Hrec
      |k d r triples dict next o rec tmp di H IH Ho Hov Hg Hc Hne Hdi]; intros Hf.
    - do 3 eexists. apply good_load; eauto.
    - rewrite tsize_snoc in Hf. destruct IH as (A & h & r' & G); [lia|]. destruct ty.
      + destruct (good_add _ _ _ _ _ _ _ _ _ _ _ _ G Ho Hov ltac:(lia) Hg Hc) as (l & S & M & _ & K).
        exists A, h, (r' ++ [(ADDITION_df, l)]). apply K; auto.
        * eapply ses_empty; eauto. apply (g_ses _ _ _ _ _ _ G).
        * apply (g_hist _ _ _ _ _ _ G).
      + destruct (good_del _ _ _ _ _ _ _ _ _ _ _ _ G Ho Hov ltac:(lia) Hg Hc) as (l & S & M & K).
        exists A, h, (r' ++ [(DELETE_df, l)]). apply K; auto.
        eapply ses_empty; eauto. apply (g_ses _ _ _ _ _ _ G).
    - rewrite tsize_snoc in Hf. destruct IH as (A & h & r' & G); [lia|].
      destruct (good_add _ _ _ _ _ _ _ _ _ _ _ _ G Ho Hov ltac:(lia) Hg Hc) as (l & S & M & (N1 & N2 & N3) & K).
      exists (A ++ enumt tmp), (h ++ [(false, rec)]), (r' ++ [(ADDITION_df, l)]). apply K.
      + apply (ses_recorded fuel so out h d r' ADDITION_df l o rec di); auto. apply (g_ses _ _ _ _ _ _ G).
      + eapply h_update; [apply (g_hist _ _ _ _ _ _ G)|exact Ho| | |exact Hrec].
        * split; [|split].
          -- eapply Permutation_NoDup; [apply Permutation_map, Permutation_sym, Het|exact N1].
          -- eapply Permutation_NoDup; [apply Permutation_map, Permutation_sym, Het|exact N2].
          -- intros t i Hin. apply N3. eapply Permutation_in; [apply Het|exact Hin].
        * rewrite (Permutation_length (Het tmp)). intros Hl.
          eapply Permutation_Forall; [apply Permutation_sym, Het|auto].
      + right. split; [|now rewrite app_length, (Permutation_length (Het tmp))].
        intros x. rewrite in_app_iff. split; intros [Hx|Hx]; auto; right.
        * eapply Permutation_in; [apply Het|exact Hx].
        * eapply Permutation_in; [apply Permutation_sym, Het|exact Hx].
    - rewrite tsize_snoc in Hf. destruct IH as (A & h & r' & G); [lia|].
      destruct (good_del _ _ _ _ _ _ _ _ _ _ _ _ G Ho Hov ltac:(lia) Hg Hc) as (l & S & M & K).
      exists A, (h ++ [(true, rec)]), (r' ++ [(DELETE_df, l)]). apply K.
      apply (ses_recorded fuel so out h d r' DELETE_df l o rec di); auto. apply (g_ses _ _ _ _ _ _ G).
  Qed.
End Text.

(** C68.  A database is loaded with the triples [base] over the terms [popular ++ others], and
    the requests [r] are recorded one after the other.  Then the database can be opened, and
    the triples it enumerates, read through its dictionary, are exactly those a user expects;
    every number in them has a text. *)
Theorem C68_database_of_texts_partial :
  forall limit maxterm fuel so tso enum enumt popular others out base k d r,
  std_sort comp_gt (sort_comp so) -> std_sort cscan_gt (sort_scan so) -> good_sorts tso ->
  (forall l, Permutation (enum l) l) -> (forall l, Permutation (enumt l) l) ->
  Yields true base out -> StronglySorted elt base ->
  NoDup (popular ++ others) -> Z.of_nat (length (popular ++ others)) < 2 ^ 63 ->
  (forall a b c, In (a, b, c) base ->
    0 <= a < Z.of_nat (length (popular ++ others)) /\
    0 <= b < Z.of_nat (length (popular ++ others)) /\
    0 <= c < Z.of_nat (length (popular ++ others))) ->
  tsession limit maxterm fuel so tso enum enumt popular others out k d r ->
  (length base + tsize r + 1 < fuel)%nat ->
  exists fuel' dict next o R,
    open_dict fuel' k = Some (dict, next) /\
    overlay fuel so (-1) d out = Some o /\ Yields true R o /\ StronglySorted elt R /\
    (forall x, shown (get_number dict) R x <-> treplay (loaded (popular ++ others) base) r x) /\
    (forall a b c, In (a, b, c) R -> exists s p q, get_text dict a = Some s /\
       get_text dict b = Some p /\ get_text dict c = Some q /\
       treplay (loaded (popular ++ others) base) r (s, p, q)).
Proof.
  intros limit maxterm fuel so tso enum enumt popular others out base k d r
    Hs1 Hs2 Htso He Het Hy Hsb Hnd Hlen Hbase Hses Hf.
  destruct (tsession_good limit maxterm fuel so tso enum enumt popular others out base
    Hs1 Hs2 Hy Hsb Htso He Het Hnd Hlen Hbase k d r Hses Hf) as (A & h & r' & G).
  pose proof G as [Hh Hse Hso Hsz HlA Hnc Hcn].
  destruct (C44_dictionary_partial _ _ _ _ _ (S (length A)) He Hh ltac:(lia)) as (dict & next & Ho & C & Rg).
  destruct (C67_updates_do_what_was_requested fuel so base out h d r' Hs1 Hs2 Hy Hsb Hse Hso ltac:(lia))
    as (o & R & Hov & HyR & HsR & HR).
  exists (S (length A)), dict, next, o, R.
  split; auto. split; auto. split; auto. split; auto.
  assert (HA1 : forall t i, get_number dict t = Some i <-> In (t, i) A) by (intros; apply C).
  assert (HA2 : forall t i, get_text dict i = Some t <-> In (t, i) A) by (intros; apply C).
  split.
  - intros [[s p] q]. unfold shown. split.
    + intros (a & b & c & H1 & H2 & H3 & H4). apply HR in H4.
      destruct (Hnc a b c H4) as (s' & p' & q' & G1 & G2 & G3 & G4).
      apply HA1, HA2 in H1, H2, H3. apply HA2 in G1, G2, G3.
      replace s with s' by congruence. replace p with p' by congruence. replace q with q' by congruence.
      exact G4.
    + intros H. destruct (Hcn s p q H) as (a & b & c & G1 & G2 & G3 & G4). exists a, b, c.
      rewrite !HA1. split; auto. split; auto. split; auto. now apply HR.
  - intros a b c Hin. apply HR in Hin. destruct (Hnc a b c Hin) as (s & p & q & G1 & G2 & G3 & G4).
    exists s, p, q. rewrite !HA2. auto.
Qed.
Print Assumptions C68_database_of_texts_partial.

(** C68.  A database whose requests were recorded accepts the next one: it can be opened,
    and a good request with terms without blanks is recorded. *)
Theorem C68_requests_can_be_recorded :
  forall limit maxterm fuel so tso enum enumt popular others out base k d r,
  std_sort comp_gt (sort_comp so) -> std_sort cscan_gt (sort_scan so) -> good_sorts tso ->
  (forall l, Permutation (enum l) l) -> (forall l, Permutation (enumt l) l) ->
  Yields true base out -> StronglySorted elt base ->
  NoDup (popular ++ others) -> Z.of_nat (length (popular ++ others)) < 2 ^ 63 ->
  (forall a b c, In (a, b, c) base ->
    0 <= a < Z.of_nat (length (popular ++ others)) /\
    0 <= b < Z.of_nat (length (popular ++ others)) /\
    0 <= c < Z.of_nat (length (popular ++ others))) ->
  tsession limit maxterm fuel so tso enum enumt popular others out k d r ->
  (length base + tsize r + 1 < fuel)%nat -> (length (popular ++ others) + 3 * tsize r < fuel)%nat ->
  exists dict next, open_dict fuel k = Some (dict, next) /\
  forall ty triples,
    good_request maxterm (get_number dict) next ty triples ->
    (forall t, is_term triples t -> plain t) ->
    exists k' d', tsession limit maxterm fuel so tso enum enumt popular others out k' d' (r ++ [(ty, triples)]).
Proof.
  intros limit maxterm fuel so tso enum enumt popular others out base k d r
    Hs1 Hs2 Htso He Het Hy Hsb Hnd Hlen Hbase Hses Hf Hf2.
  destruct (tsession_good limit maxterm fuel so tso enum enumt popular others out base
    Hs1 Hs2 Hy Hsb Htso He Het Hnd Hlen Hbase k d r Hses Hf) as (A & h & r' & G).
  pose proof G as [Hh Hse Hso Hsz HlA Hnc Hcn].
  destruct (C44_dictionary_partial _ _ _ _ _ fuel He Hh ltac:(lia)) as (dict & next & Ho & C & Rg).
  exists dict, next. split; auto. intros ty triples Hg Hpl.
  destruct (C67_updates_do_what_was_requested fuel so base out h d r' Hs1 Hs2 Hy Hsb Hse Hso ltac:(lia))
    as (o & _ & Hov & _).
  destruct (before limit fuel so enum enumt popular others out base Hs1 Hs2 Hy Hsb He Het Hbase
    k d r A h r' dict next o G Ho Hov Hf) as (_ & D & _ & R & HyR & HsR & HlR & _).
  destruct ty.
  - destruct Hg as (Q1 & Q2 & Q3).
    destruct (C08_addition_encoding (get_number dict) maxterm next tso triples D Htso Q1 Q3 Q2)
      as (l & tmp & code & E & _ & S & _ & T & _ & _).
    destruct (C07_match true fuel R o l HyR HsR S HlR) as [(rec & M & _) _].
    assert (Hc : compress_update (get_number dict) maxterm fuel ADDITION_df tso next o triples = Some (rec, tmp)).
    { unfold compress_update. now rewrite E, M. }
    destruct rec as [|x rec].
    + exists k, d. eapply ts_empty; eauto. split; auto.
    + assert (Hr : exists k', record_terms limit fuel enum k (enumt tmp) = Some k').
      { unfold record_terms. rewrite Ho. destruct (write_dict limit dict (enumt tmp)). eauto. }
      destruct Hr as [k' Hr].
      exists k', (d ++ [(false, list_itr (0, 0, 0) (x :: rec))]).
      eapply ts_add; eauto; [split; auto|discriminate|apply list_yields|].
      intros _. apply Forall_forall. intros [t i] Hin. apply T in Hin. apply Hpl. apply Hin.
  - destruct Hg as (Q1 & Q2 & Q3).
    destruct (C08_deletion_encoding_partial (get_number dict) maxterm next tso triples D Htso Q1 ltac:(lia))
      as (l & E & S & _).
    destruct (C07_match true fuel R o l HyR HsR S HlR) as [_ (rec & M & _)].
    assert (Hc : compress_update (get_number dict) maxterm fuel DELETE_df tso next o triples = Some (rec, [])).
    { unfold compress_update. now rewrite E, M. }
    destruct rec as [|x rec].
    + exists k, d. eapply ts_empty; eauto. split; auto.
    + exists k, (d ++ [(true, list_itr (0, 0, 0) (x :: rec))]).
      eapply ts_del; eauto; [split; auto|discriminate|apply list_yields].
Qed.
Print Assumptions C68_requests_can_be_recorded.

(** Example: one loaded triple; an addition of two triples with new terms, then a deletion
    of the loaded triple and of one with an unknown term. *)
Definition ex_so : sorters := {| sort_comp := isort comp_gt; sort_scan := isort cscan_gt;
                                 sort_scan_ign := isort cscan_gt |}.
Definition ex_tt (a b c : Z) : ttriple := ttr [a] [b] [c].
Definition ex_db := tsession 5 9 100 ex_so ex_sorts (fun l => l) (fun l => l) [[60]] [[61]]
    (list_itr (0, 0, 0) [(0, 1, 0)]).
Definition ex_t0 : disk := let '(l, m) := insert_dictionary [[60]] [[61]] in mkDisk l (m + 1) [] None.
Definition ex_dict (k : disk) : dm * Z :=
  match open_dict 100 k with Some x => x | None => (mkDM [] [] [] [] false 0, 0) end.
Definition ex_add : list ttriple := [ex_tt 70 61 60; ex_tt 70 61 71].
Definition ex_del : list ttriple := [ex_tt 60 61 60; ex_tt 80 61 60].
Definition ex_tmp : list (text * Z) := [([71], 3); ([70], 2)].
Definition ex_t1 : disk :=
  match record_terms 5 100 (fun l => l) ex_t0 ex_tmp with Some k => k | None => ex_t0 end.
Lemma ex_short (l : list ttriple) : Forall (fun t => length (tx_s t) = 1%nat /\ length (tx_p t) = 1%nat /\
    length (tx_o t) = 1%nat) l -> forall t, is_term l t -> t <> [] /\ (length t <= 9)%nat.
Proof.
  intros H t Ht. rewrite Forall_forall in H.
  assert (length t = 1%nat).
  { destruct Ht as [Ht|[Ht|Ht]]; apply in_map_iff in Ht; destruct Ht as (x & <- & Hx); now apply H. }
  split; [|lia]. intros ->. discriminate.
Qed.

Example C68_nonvacuous : exists k d,
  ex_db k d [(ADDITION_df, ex_add); (DELETE_df, ex_del)] /\
  treplay (loaded [[60]; [61]] [(0, 1, 0)]) [(ADDITION_df, ex_add); (DELETE_df, ex_del)]
    ([70], [61], [71]) /\
  ~ treplay (loaded [[60]; [61]] [(0, 1, 0)]) [(ADDITION_df, ex_add); (DELETE_df, ex_del)]
    ([60], [61], [60]).
Proof.
  assert (H0 : ex_db ex_t0 [] []) by (apply ts_load; reflexivity).
  assert (H1 : exists d, ex_db ex_t1 d [(ADDITION_df, ex_add)]).
  { eexists. eapply (ts_add 5 9 100 ex_so ex_sorts (fun l => l) (fun l => l) [[60]] [[61]] _ ex_t0 [] []
      ex_add (fst (ex_dict ex_t0)) (snd (ex_dict ex_t0)) _ [(2, 1, 0); (2, 1, 3)] ex_tmp
      (list_itr (0, 0, 0) [(2, 1, 0); (2, 1, 3)]) ex_t1); auto.
    - vm_compute. reflexivity.
    - split; [apply ex_short; repeat constructor|]. split; [vm_compute; reflexivity|].
      intros t Ht. repeat destruct Ht as [<-|Ht]; try easy; cbn; intuition discriminate.
    - vm_compute. reflexivity.
    - discriminate.
    - apply list_yields.
    - intros _. repeat constructor; discriminate. }
  destruct H1 as (d1 & H1).
  destruct (C68_requests_can_be_recorded 5 9 100 ex_so ex_sorts (fun l => l) (fun l => l) [[60]] [[61]]
    (list_itr (0, 0, 0) [(0, 1, 0)]) [(0, 1, 0)] ex_t1 d1 [(ADDITION_df, ex_add)])
    as (dict & next & Ho & K); auto.
  - apply std_sort_nonvacuous.
  - apply std_sort_nonvacuous.
  - apply ex_sorts_good.
  - apply list_yields.
  - repeat constructor.
  - repeat constructor; cbn; intuition discriminate.
  - reflexivity.
  - intros a b c [H|[]]. injection H as <- <- <-. cbn. lia.
  - cbn. lia.
  - cbn. lia.
  - assert (E : open_dict 100 ex_t1 = Some (ex_dict ex_t1)) by (vm_compute; reflexivity).
    rewrite Ho in E.
    assert (E' : (dict, next) = ex_dict ex_t1) by congruence. clear E.
    destruct (K DELETE_df ex_del) as (k & d & Hdb).
    + split; [apply ex_short; repeat constructor|].
      assert (dict = fst (ex_dict ex_t1) /\ next = snd (ex_dict ex_t1)) as [-> ->].
      { now rewrite <- E'. }
      split; [vm_compute; reflexivity|].
      assert (Hk : forall t, In t [[60]; [61]; [70]; [71]] -> get_number (fst (ex_dict ex_t1)) t <> None).
      { intros t Ht. repeat destruct Ht as [<-|Ht]; try easy; vm_compute; discriminate. }
      assert (Hu : forall l, Forall (fun t => In t [[60]; [61]; [80]]) l ->
        (count_occ text_eq_dec l [80%Z] <= 1)%nat -> unknown_once (get_number (fst (ex_dict ex_t1))) l).
      { intros l Hl Hc t Ht. destruct (in_dec text_eq_dec t l) as [Hi|Hi].
        - rewrite Forall_forall in Hl. apply Hl in Hi.
          destruct Hi as [<-|[<-|[<-|[]]]]; auto; exfalso; eapply Hk; eauto; cbn; auto.
        - apply (count_occ_not_In text_eq_dec) in Hi. lia. }
      split; [|split]; apply Hu; (cbn; lia) || (repeat (apply Forall_cons; [cbn; tauto|]); apply Forall_nil).
    + intros t [Ht|[Ht|Ht]]; repeat destruct Ht as [<-|Ht]; try easy; repeat constructor; discriminate.
    + exists k, d. split; [exact Hdb|]. split.
      * cbn. split; [right; right; left; reflexivity|]. intuition discriminate.
      * cbn. intros [_ Hn]. apply Hn. now left.
Qed.
