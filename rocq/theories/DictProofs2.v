(** Proofs about the dictionary: several layers, opening and closing. *)
From Coq Require Import Permutation ZifyBool.
From Verif Require Import UpdProofs2 DictSpec DictProofs.
Local Open Scope Z_scope.

Lemma nodup_fun {X Y} (l : list (X * Y)) a b c : NoDup (map fst l) ->
  In (a, b) l -> In (a, c) l -> b = c.
Proof.
  induction l as [|[x y] l IH]; cbn; [tauto|]. intros Hn [H|H] [H'|H']; inversion Hn; subst.
  - congruence.
  - injection H as -> ->. apply (in_map fst) in H'. contradiction.
  - injection H' as -> ->. apply (in_map fst) in H. contradiction.
  - auto.
Qed.
Lemma nodup_fun2 {X Y} (l : list (X * Y)) a b c : NoDup (map snd l) ->
  In (b, a) l -> In (c, a) l -> b = c.
Proof.
  induction l as [|[x y] l IH]; cbn; [tauto|]. intros Hn [H|H] [H'|H']; inversion Hn; subst.
  - congruence.
  - injection H as -> ->. apply (in_map snd) in H'. contradiction.
  - injection H' as -> ->. apply (in_map snd) in H. contradiction.
  - auto.
Qed.
Lemma nodup_app_l {X} (a b : list X) : NoDup (a ++ b) -> NoDup a.
Proof.
  intros H. apply nodup_app_r with b. eapply Permutation_NoDup; [apply Permutation_app_comm|exact H].
Qed.
Lemma NoDup_app_intro {X} (a b : list X) : NoDup a -> NoDup b ->
  (forall x, In x a -> In x b -> False) -> NoDup (a ++ b).
Proof.
  induction 1 as [|x a Hx Ha IH]; cbn; auto. intros Hb H. constructor.
  - rewrite in_app_iff. intros [H'|H']; [auto|]. eapply H; cbn; eauto.
  - apply IH; auto. intros y H1 H2. eapply H; cbn; eauto.
Qed.
Lemma nodup_app_disj {X} (a b : list X) x : NoDup (a ++ b) -> In x a -> In x b -> False.
Proof.
  induction a as [|y a IH]; cbn; [tauto|]. intros H [->|Ha] Hb; inversion H; subst; auto.
  apply H2, in_or_app; auto.
Qed.

(** ** Search over the layers *)
Lemma number_in_some ls Bs t i : Forall2 layer_ok ls Bs -> number_in ls t = Some i -> In (t, i) (concat Bs).
Proof.
  induction 1 as [|l B ls Bs Hl H IH]; cbn; [discriminate|].
  destruct (lookup t (t2i l)) eqn:E; intros Hi; apply in_or_app; auto.
  injection Hi as ->. left. now apply (ok_t _ _ Hl).
Qed.
Lemma number_in_none ls Bs t i : Forall2 layer_ok ls Bs -> number_in ls t = None -> ~ In (t, i) (concat Bs).
Proof.
  induction 1 as [|l B ls Bs Hl H IH]; cbn; [tauto|].
  destruct (lookup t (t2i l)) eqn:E; [discriminate|]. intros Hi Hin. apply in_app_or in Hin.
  destruct Hin as [Hin|Hin]; [|now apply IH].
  apply (ok_t _ _ Hl) in Hin. congruence.
Qed.

Lemma first_key_ok l B k : layer_ok l B -> first_key l = Some k ->
  In k (map snd B) /\ forall t i, In (t, i) B -> k <= i.
Proof.
  intros Hl. unfold first_key. intros H.
  assert (Hk : In k (map fst (i2c l)) /\ forall x, In x (map fst (i2c l)) -> k <= x).
  { destruct (map fst (i2c l)) as [|y r]; [discriminate|]. injection H as <-. clear.
    induction r as [|z r IH]; cbn.
    - split; auto. intros x [->|[]]. lia.
    - destruct IH as [IH1 IH2]. split.
      + destruct (Z.min_spec z (fold_right Z.min y r)) as [[_ ->]|[_ ->]]; auto.
        destruct IH1 as [IH1|IH1]; auto.
      + intros x [->|[->|Hx]]; [specialize (IH2 x (or_introl eq_refl))| |specialize (IH2 x (or_intror Hx))]; lia. }
  destruct Hk as [H1 H2]. split; [now apply (ok_k _ _ Hl)|].
  intros t i Hi. apply H2. apply (ok_k _ _ Hl). apply in_map_iff. exists (t, i); auto.
Qed.
Lemma first_key_some l B : layer_ok l B -> B <> [] -> exists k, first_key l = Some k.
Proof.
  intros Hl HB. unfold first_key. destruct (map fst (i2c l)) as [|y r] eqn:E; [|eauto].
  destruct B as [|[t i] B]; [congruence|]. exfalso.
  assert (H : In i (map fst (i2c l))) by (apply (ok_k _ _ Hl); cbn; auto).
  now rewrite E in H.
Qed.

Fixpoint chain (lo : Z) (us : list (layer * Z)) (U : list (list (text * Z))) : Prop :=
  match us, U with
  | [], [] => True
  | u :: us', B :: U' =>
    layer_ok (fst u) B /\ B <> [] /\ (forall t i, In (t, i) B -> lo <= i < snd u) /\
    chain (snd u) us' U'
  | _, _ => False
  end.

Definition keys (us : list (layer * Z)) (ks : list Z) : Prop :=
  Forall2 (fun u k => first_key (fst u) = Some k) us ks.

Lemma chain_layers : forall us lo U, chain lo us U -> Forall2 layer_ok (map fst us) U.
Proof.
  induction us as [|u us IH]; intros lo [|B U]; cbn; try tauto; [constructor|].
  intros (H1 & _ & _ & H2). constructor; eauto.
Qed.
Lemma chain_keys : forall us lo U, chain lo us U -> exists ks, keys us ks.
Proof.
  induction us as [|u us IH]; intros lo [|B U]; cbn; try tauto.
  - exists []. constructor.
  - intros (H1 & Hn & _ & H2). destruct (first_key_some _ _ H1 Hn) as [k Hk].
    destruct (IH _ _ H2) as [ks Hks]. exists (k :: ks). now constructor.
Qed.
Lemma chain_lt (u : layer * Z) (B : list (text * Z)) lo : B <> [] -> (forall t i, In (t, i) B -> lo <= i < snd u) -> lo < snd u.
Proof. destruct B as [|[t i] B]; [congruence|]. intros _ H. specialize (H t i (or_introl eq_refl)). lia. Qed.

Definition top (lo : Z) (us : list (layer * Z)) : Z := fold_left (fun m u => Z.max m (snd u)) us lo.

Lemma chain_top : forall us lo U, chain lo us U -> lo <= top lo us /\
  (forall t i, In (t, i) (concat U) -> lo <= i < top lo us).
Proof.
  induction us as [|u us IH]; intros lo [|B U]; cbn [chain]; try tauto.
  - intros _. cbn. split; [lia|tauto].
  - intros (H1 & Hn & H3 & H2). pose proof (chain_lt _ _ _ Hn H3) as Hlt.
    unfold top. cbn [fold_left]. replace (Z.max lo (snd u)) with (snd u) by lia.
    destruct (IH _ _ H2) as [A1 A2]. fold (top (snd u) us). split; [lia|].
    intros t i. cbn [concat]. rewrite in_app_iff. intros [H|H].
    + specialize (H3 t i H). lia.
    + specialize (A2 t i H). lia.
Qed.
Lemma chain_app : forall us lo U u B, chain lo us U -> layer_ok (fst u) B -> B <> [] ->
  (forall t i, In (t, i) B -> top lo us <= i < snd u) ->
  chain lo (us ++ [u]) (U ++ [B]).
Proof.
  induction us as [|v us IH]; intros lo [|C U] u B; cbn [chain app]; try tauto.
  intros (H1 & Hn & H3 & H2) Hl HB Hr. pose proof (chain_lt _ _ _ Hn H3) as Hlt.
  split; [auto|]. split; [auto|]. split; [auto|]. apply IH; auto.
  intros t i Hi. specialize (Hr t i Hi). unfold top in Hr. cbn [fold_left] in Hr.
  now replace (Z.max lo (snd v)) with (snd v) in Hr by lia.
Qed.

Lemma find_idx_low : forall us lo U ks i, chain lo us U -> keys us ks -> i < lo -> find_idx ks i = 0%nat.
Proof.
  intros us lo U ks i Hc Hk Hi. destruct Hk as [|u k us ks Hk1 Hk]; [reflexivity|].
  destruct U as [|B U]; cbn in Hc; [tauto|]. destruct Hc as (H1 & Hn & H3 & H2).
  destruct (first_key_ok _ _ _ H1 Hk1) as [Hkin _]. apply in_map_iff in Hkin.
  destruct Hkin as ([t j] & <- & Hin). specialize (H3 t j Hin). cbn.
  now replace (j <=? i) with false by lia.
Qed.
Lemma find_idx_ok : forall us lo U ks m B t i, chain lo us U -> keys us ks ->
  nth_error U m = Some B -> In (t, i) B -> find_idx ks i = S m.
Proof.
  induction us as [|u us IH]; intros lo U ks m B t i Hc Hk HB Hin.
  { destruct U; cbn in Hc; [|tauto]. destruct m; discriminate. }
  destruct U as [|C U]; cbn [chain] in Hc; [tauto|]. destruct Hc as (H1 & Hn & H3 & H2).
  inversion Hk as [|? k ? ks' Hk1 Hk']; subst. cbn [find_idx].
  destruct (first_key_ok _ _ _ H1 Hk1) as [Hkin Hmin]. apply in_map_iff in Hkin.
  destruct Hkin as ([t' j] & Hj & Hjin). cbn in Hj. subst j. pose proof (H3 t' k Hjin) as Hkr.
  destruct m as [|m]; cbn in HB.
  - injection HB as ->. pose proof (Hmin t i Hin). replace (k <=? i) with true by lia. f_equal.
    eapply find_idx_low; eauto. specialize (H3 t i Hin). lia.
  - destruct (chain_top _ _ _ H2) as [_ A2].
    assert (Hci : In (t, i) (concat U)).
    { apply in_concat. exists B. split; auto. eapply nth_error_In; eauto. }
    specialize (A2 t i Hci). replace (k <=? i) with true by lia. f_equal. eauto.
Qed.
Lemma find_idx_bound : forall us ks i, keys us ks -> (find_idx ks i <= length us)%nat.
Proof.
  induction 1 as [|u k us ks H1 H IH]; cbn; [lia|]. destruct (k <=? i); lia.
Qed.

Lemma forall2_nth {X Y} (R : X -> Y -> Prop) : forall l l' n x, Forall2 R l l' -> nth_error l n = Some x ->
  exists y, nth_error l' n = Some y /\ R x y.
Proof.
  intros l l' n x H. revert n. induction H as [|a b l l' Hab H IH]; intros [|n]; cbn; try discriminate.
  - intros Hx. injection Hx as <-. eauto.
  - apply IH.
Qed.
Lemma forall2_nth_r {X Y} (R : X -> Y -> Prop) : forall l l' n y, Forall2 R l l' -> nth_error l' n = Some y ->
  exists x, nth_error l n = Some x /\ R x y.
Proof.
  intros l l' n x H. revert n. induction H as [|a b l l' Hab H IH]; intros [|n]; cbn; try discriminate.
  - intros Hx. injection Hx as <-. eauto.
  - apply IH.
Qed.

Lemma swap_in l t i : In (t, i) (swap l) <-> In (i, t) l.
Proof.
  unfold swap. rewrite in_map_iff. split.
  - intros ([a b] & H & Hin). injection H as <- <-. exact Hin.
  - intros H. exists (i, t). auto.
Qed.

(** ** The dictionary in memory *)
Lemma contains_ok mn lo us U M ks order md lg A :
  layer_ok mn M -> (forall t i, In (t, i) M -> i < lo) ->
  chain lo us U -> keys us ks ->
  Permutation A (M ++ concat U ++ swap order) -> NoDup (map fst A) -> NoDup (map snd A) ->
  contains (mkDM (mn :: map fst us) (0 :: ks) order (swap order) md lg) A.
Proof.
  intros Hm Hlo Hc Hk HA N1 N2.
  assert (HF : Forall2 layer_ok (mn :: map fst us) (M :: U)).
  { constructor; auto. eapply chain_layers; eauto. }
  assert (HinA : forall x, In x A <-> In x (concat (M :: U)) \/ In x (swap order)).
  { intros x. cbn [concat]. rewrite !in_app_iff. split.
    - intros H. apply (Permutation_in _ HA) in H. rewrite !in_app_iff in H. tauto.
    - intros H. apply (Permutation_in _ (Permutation_sym HA)). rewrite !in_app_iff. tauto. }
  assert (No : NoDup (map fst order)).
  { assert (NoDup (map snd (swap order))).
    { eapply nodup_app_r with (a := map snd (concat U)). rewrite <- map_app.
      eapply nodup_app_r with (a := map snd M). rewrite <- map_app.
      eapply Permutation_NoDup; [apply Permutation_map, HA|exact N2]. }
    unfold swap in H. rewrite map_map in H. exact H. }
  assert (No2 : NoDup (map fst (swap order))).
  { eapply nodup_app_r with (a := map fst (concat U)). rewrite <- map_app.
    eapply nodup_app_r with (a := map fst M). rewrite <- map_app.
    eapply Permutation_NoDup; [apply Permutation_map, HA|exact N1]. }
  intros t i. split.
  - unfold get_number. cbn [dicts gud_textid]. split.
    + destruct (number_in (mn :: map fst us) t) eqn:E.
      * intros H. injection H as ->. apply HinA. left. eapply number_in_some; eauto.
      * intros H. apply HinA. right. now apply lookup_some.
    + intros H. destruct (number_in (mn :: map fst us) t) eqn:E.
      * f_equal. apply (number_in_some _ _ _ _ HF) in E.
        assert (Hz : In (t, z) A) by (apply HinA; auto). exact (nodup_fun A t z i N1 Hz H).
      * apply HinA in H. destruct H as [H|H].
        -- exfalso. eapply number_in_none; eauto.
        -- now apply lookup_in.
  - unfold get_text. cbn [dicts beginrange gud_idtext tl]. split.
    + destruct (nth_error (mn :: map fst us) (find_idx ks i)) as [l|] eqn:E; [|discriminate].
      cbn. destruct (forall2_nth _ _ _ _ _ HF E) as (B & HB & Hl).
      destruct (lookupZ i (i2c l)) as [c|] eqn:E2.
      * intros H. destruct (ok_c _ _ Hl _ _ E2) as (t' & H1 & H2). replace t' with t in * by congruence.
        apply HinA. left. apply in_concat. exists B. split; auto. eapply nth_error_In; eauto.
      * intros H. apply HinA. right. apply swap_in. now apply lookupZ_some.
    + intros H. pose proof H as HA'. apply HinA in H. destruct H as [H|H].
      * apply in_concat in H. destruct H as (B & HB & Hin). cbn [In] in HB.
        assert (Hx : exists m, nth_error (M :: U) m = Some B /\ find_idx ks i = m).
        { destruct HB as [<-|HB].
          - exists 0%nat. split; [reflexivity|]. eapply find_idx_low; eauto.
          - apply In_nth_error in HB. destruct HB as [m Hm']. exists (S m). split; [exact Hm'|].
            eapply find_idx_ok; eauto. }
        destruct Hx as (m & Hm' & ->).
        destruct (forall2_nth_r _ _ _ _ _ HF Hm') as (l & Hl1 & Hl). rewrite Hl1. cbn.
        destruct (ok_i _ _ Hl _ _ Hin) as (c & -> & ->). reflexivity.
      * destruct (nth_error (mn :: map fst us) (find_idx ks i)) as [l|] eqn:E.
        2:{ apply nth_error_None in E. cbn in E. rewrite map_length in E.
            pose proof (find_idx_bound us ks i Hk). lia. }
        cbn. destruct (forall2_nth _ _ _ _ _ HF E) as (B & HB & Hl).
        destruct (lookupZ i (i2c l)) as [c|] eqn:E2.
        -- exfalso. destruct (ok_c _ _ Hl _ _ E2) as (t' & H1 & H2).
           assert (Hin' : In (t', i) (concat (M :: U))).
           { apply in_concat. exists B. split; auto. eapply nth_error_In; eauto. }
           assert (HN : NoDup (map snd (M ++ concat U) ++ map snd (swap order))).
           { rewrite <- map_app, <- app_assoc. eapply Permutation_NoDup; [apply Permutation_map, HA|exact N2]. }
           eapply nodup_app_disj; [exact HN| |].
           ++ apply in_map_iff. exists (t', i). split; [reflexivity|exact Hin'].
           ++ apply in_map_iff. exists (t, i). split; [reflexivity|exact H].
        -- apply lookupZ_in; auto. now apply swap_in.
Qed.

(** ** Fuel *)
Lemma gud_loop_mono : forall f f' s d x, (f <= f')%nat -> gud_loop f s d = Some x -> gud_loop f' s d = Some x.
Proof.
  induction f as [|f IH]; intros f' s d x Hf H; cbn in H.
  - destruct (eofbit s) eqn:E; [|discriminate]. destruct f'; cbn; now rewrite E.
  - destruct f' as [|f']; [lia|]. cbn. destruct (eofbit s); auto.
    destruct (read_num s 0) as [id s1]. destruct (read_str s1) as [t s2]. apply IH; auto. lia.
Qed.
Lemma open_dict_mono f f' k x : (f <= f')%nat -> open_dict f k = Some x -> open_dict f' k = Some x.
Proof.
  unfold open_dict, new_dm. intros Hf. destruct (gud k) as [b|]; [|auto].
  destruct (read_num (mkIS b false false) 0) as [lg s].
  destruct (gud_loop f s _) eqn:E; [|discriminate]. cbn.
  intros H. rewrite (gud_loop_mono _ _ _ _ _ Hf E). exact H.
Qed.

(** ** The files *)
Definition gud_state (g : option (list Z)) (order : list (Z * text)) (largest : Z) : Prop :=
  (g = None /\ order = [] /\ largest = 0) \/ g = Some (gud_bytes largest order).

Record Inv (k : disk) (A M : list (text * Z)) (U : list (list (text * Z)))
    (order : list (Z * text)) (largest : Z) : Prop := {
  v_main : layer_ok (main k) M;
  v_mid : forall t i, In (t, i) M -> i < main_next k;
  v_chain : chain (main_next k) (ups k) U;
  v_gud : gud_state (gud k) order largest;
  v_plain : Forall (fun e => plain (snd e) /\ fst e <= largest) order;
  v_largest : 0 <= largest < 2 ^ 63;
  v_A : Permutation A (M ++ concat U ++ swap order);
  v_nt : NoDup (map fst A);
  v_ni : NoDup (map snd A);
  v_rng : forall t i, In (t, i) A -> 0 <= i < 2 ^ 63 }.

Lemma add_updates_ok : forall us ks d, keys us ks ->
  add_updates d (map fst us) =
  Some (mkDM (dicts d ++ map fst us) (beginrange d ++ ks) (gud_idtext d) (gud_textid d)
         (gud_modified d) (gud_largestID d)).
Proof.
  intros us ks d H. revert d. induction H as [|u k us ks H1 H IH]; intros d; cbn [map add_updates].
  - rewrite !app_nil_r. now destruct d.
  - rewrite H1. cbn. rewrite IH. cbn. now rewrite <- !app_assoc.
Qed.

Lemma order_nodup k A M U order lg : Inv k A M U order lg ->
  NoDup (map fst order) /\ NoDup (map snd order) /\
  Forall (fun e => plain (snd e) /\ 0 <= fst e < 2 ^ 64) order /\ (length order <= length A)%nat.
Proof.
  intros [A1 A2 A3 A4 A5 A6 HA N1 N2 A10].
  split; [|split; [|split]].
  - assert (NoDup (map snd (swap order))).
    { eapply nodup_app_r with (a := map snd (concat U)). rewrite <- map_app.
      eapply nodup_app_r with (a := map snd M). rewrite <- map_app.
      eapply Permutation_NoDup; [apply Permutation_map, HA|exact N2]. }
    unfold swap in H. rewrite map_map in H. exact H.
  - assert (NoDup (map fst (swap order))).
    { eapply nodup_app_r with (a := map fst (concat U)). rewrite <- map_app.
      eapply nodup_app_r with (a := map fst M). rewrite <- map_app.
      eapply Permutation_NoDup; [apply Permutation_map, HA|exact N1]. }
    unfold swap in H. rewrite map_map in H. exact H.
  - apply Forall_forall. intros [i t] Hin. pose proof (proj1 (Forall_forall _ _) A5 _ Hin) as [Hp Hle].
    split; auto. cbn in *.
    assert (In (t, i) A).
    { apply (Permutation_in _ (Permutation_sym HA)). rewrite !in_app_iff. right. right. now apply swap_in. }
    specialize (A10 t i H). lia.
  - rewrite (Permutation_length HA), !app_length. unfold swap. rewrite map_length. lia.
Qed.

Lemma open_ok fuel k A M U order lg ks : Inv k A M U order lg -> keys (ups k) ks ->
  (length A < fuel)%nat ->
  open_dict fuel k =
  Some (mkDM (main k :: map fst (ups k)) (0 :: ks) order (swap order) false lg,
        Z.max (top (main_next k) (ups k)) (lg + 1)).
Proof.
  intros HI Hk Hf. destruct (order_nodup _ _ _ _ _ _ HI) as (O1 & O2 & O3 & O4).
  destruct HI as [A1 A2 A3 A4 A5 A6 HA N1 N2 A10]. unfold open_dict.
  assert (Hn : new_dm fuel (main k) (gud k) = Some (mkDM [main k] [0] order (swap order) false lg)).
  { destruct A4 as [(-> & -> & ->)| ->]; [reflexivity|]. apply new_dm_ok; auto; lia. }
  rewrite Hn. cbn. rewrite (add_updates_ok _ ks) by auto. reflexivity.
Qed.

Lemma open_any fuel k A M U order lg ks x : Inv k A M U order lg -> keys (ups k) ks ->
  open_dict fuel k = Some x ->
  x = (mkDM (main k :: map fst (ups k)) (0 :: ks) order (swap order) false lg,
        Z.max (top (main_next k) (ups k)) (lg + 1)).
Proof.
  intros HI Hk Hx. apply (open_dict_mono _ (fuel + S (length A))) in Hx; [|lia].
  rewrite (open_ok _ _ _ _ _ _ _ ks HI Hk) in Hx by lia. now injection Hx as <-.
Qed.

(** ** Writing the new terms *)
Definition unswap (l : list (text * Z)) : list (Z * text) := map (fun e => (snd e, fst e)) l.

Lemma put_many_ok : forall new d,
  NoDup (map fst (gud_idtext d) ++ map snd new) -> NoDup (map fst (gud_textid d) ++ map fst new) ->
  exists lg, put_many d new =
    mkDM (dicts d) (beginrange d) (gud_idtext d ++ unswap new) (gud_textid d ++ new)
      (gud_modified d || match new with [] => false | _ => true end) lg /\
    gud_largestID d <= lg /\ (forall t i, In (t, i) new -> i <= lg) /\
    (lg = gud_largestID d \/ exists t, In (t, lg) new).
Proof.
  induction new as [|[t i] new IH]; intros d N1 N2; cbn [put_many].
  - exists (gud_largestID d). cbn. rewrite !app_nil_r, orb_false_r. destruct d; cbn.
    split; auto. split; [lia|]. split; [tauto|auto].
  - cbn [map fst snd] in *.
    assert (L1 : lookupZ i (gud_idtext d) = None).
    { apply lookupZ_none. apply NoDup_remove_2 in N1. intros H. apply N1, in_or_app; auto. }
    assert (L2 : lookup t (gud_textid d) = None).
    { apply lookup_none. apply NoDup_remove_2 in N2. intros H. apply N2, in_or_app; auto. }
    unfold put_in_update, hinsertZ, hinsertT. rewrite L1, L2.
    destruct (IH (mkDM (dicts d) (beginrange d) (gud_idtext d ++ [(i, t)]) (gud_textid d ++ [(t, i)])
       true (if gud_largestID d <? i then i else gud_largestID d))) as (lg & E & H1 & H2 & H3).
    { cbn. rewrite map_app, <- app_assoc. exact N1. }
    { cbn. rewrite map_app, <- app_assoc. exact N2. }
    exists lg. rewrite E. cbn [gud_idtext gud_textid dicts beginrange gud_modified gud_largestID] in *.
    split; [|split; [|split]].
    + cbn. rewrite <- !app_assoc, orb_true_r. reflexivity.
    + destruct (gud_largestID d <? i) eqn:Eq; lia.
    + intros t' i' [H|H]; [|eauto]. injection H as <- <-. destruct (gud_largestID d <? i) eqn:Eq; lia.
    + destruct H3 as [H3|[t' H3]].
      * destruct (gud_largestID d <? i) eqn:Eq; [right; exists t; left; congruence|auto].
      * right. exists t'. cbn; auto.
Qed.

Lemma max_id_ok l : forall t i, In (t, i) l -> i <= max_id l.
Proof.
  unfold max_id. intros t i.
  assert (H : forall l m, m <= fold_left (fun m e => if m <? snd (e : text * Z) then snd e else m) l m /\
     (In (t, i) l -> i <= fold_left (fun m e => if m <? snd e then snd e else m) l m)).
  { clear. induction l as [|[t' i'] l IH]; intros m; cbn [fold_left In]; [split; [lia|tauto]|].
    cbn [snd]. destruct (IH (if m <? i' then i' else m)) as [H1 H2].
    destruct (m <? i') eqn:E; split; try lia; intros [H|H]; auto; injection H as -> ->; lia. }
  intros Hin. now apply H.
Qed.

Lemma unswap_swap l : swap (unswap l) = l.
Proof. unfold swap, unswap. rewrite map_map. cbn. rewrite <- (map_id l) at 2. apply map_ext. now intros []. Qed.
Lemma swap_app a b : swap (a ++ b) = swap a ++ swap b.
Proof. apply map_app. Qed.

Lemma record_ok limit fuel enum k A M U order lg d next new k' :
  (forall l, Permutation (enum l) l) ->
  Inv k A M U order lg -> open_dict fuel k = Some (d, next) -> new_terms A next new ->
  ((length new < limit)%nat -> Forall (fun e => plain (fst e)) new) ->
  record_terms limit fuel enum k new = Some k' ->
  exists U' order' lg', Inv k' (A ++ new) M U' order' lg'.
Proof.
  intros He HI Ho (Hn1 & Hn2 & Hfr) Hpl Hr.
  destruct (chain_keys _ _ _ (v_chain _ _ _ _ _ _ HI)) as [ks Hks].
  pose proof (open_any _ _ _ _ _ _ _ ks _ HI Hks Ho) as Hd. injection Hd as Hd Hnext.
  pose proof HI as [A1 A2 A3 A4 A5 A6 HA N1 N2 A10].
  assert (HinA : forall x, In x A <-> In x M \/ In x (concat U) \/ In x (swap order)).
  { intros x. split.
    - intros H. apply (Permutation_in _ HA) in H. rewrite !in_app_iff in H. tauto.
    - intros H. apply (Permutation_in _ (Permutation_sym HA)). rewrite !in_app_iff. tauto. }
  destruct (chain_top _ _ _ A3) as [T1 T2].
  assert (Hbelow : forall t i, In (t, i) A -> i < next).
  { intros t i Hin. apply HinA in Hin. destruct Hin as [H|[H|H]].
    - specialize (A2 t i H). lia.
    - specialize (T2 t i H). lia.
    - apply swap_in in H. pose proof (proj1 (Forall_forall _ _) A5 _ H) as [_ Hle]. cbn in Hle. lia. }
  assert (N1' : NoDup (map fst (A ++ new))).
  { rewrite map_app. apply NoDup_app_intro; auto.
    intros x Hx Hy. apply in_map_iff in Hy. destruct Hy as ([t i] & Ht & Hy). cbn in Ht. subst x.
    destruct (Hfr t i Hy); auto. }
  assert (N2' : NoDup (map snd (A ++ new))).
  { rewrite map_app. apply NoDup_app_intro; auto.
    intros x Hx Hy. apply in_map_iff in Hy. destruct Hy as ([t i] & Ht & Hy). cbn in Ht. subst x.
    apply in_map_iff in Hx. destruct Hx as ([t' i'] & Ht & Hx). cbn in Ht. subst i'.
    specialize (Hbelow _ _ Hx). destruct (Hfr t i Hy). lia. }
  assert (Hnext0 : 0 <= next) by lia.
  assert (R' : forall t i, In (t, i) (A ++ new) -> 0 <= i < 2 ^ 63).
  { intros t i Hin. apply in_app_or in Hin. destruct Hin as [H|H]; [eauto|].
    destruct (Hfr t i H). lia. }
  unfold record_terms in Hr. rewrite Ho in Hr. cbn iota beta in Hr.
  unfold write_dict in Hr. destruct new as [|[t0 i0] new0].
  { exists U, order, lg. rewrite app_nil_r. unfold close_dict in Hr. subst d.
    cbn [gud_modified andb] in Hr. injection Hr as <-. rewrite app_nil_r. destruct k; exact HI. }
  set (new := (t0, i0) :: new0) in *.
  destruct (length new <? limit)%nat eqn:El.
  - (* a small update *)
    destruct (put_many_ok new d) as (lg' & E & L1 & L2 & L3).
    { subst d. cbn [gud_idtext]. eapply Permutation_NoDup in N2'; [|apply Permutation_map, Permutation_app_tail, HA].
      rewrite <- !app_assoc in N2'. rewrite !map_app in N2'. apply nodup_app_r, nodup_app_r in N2'.
      unfold swap in N2'. rewrite map_map in N2'. exact N2'. }
    { subst d. cbn [gud_textid]. eapply Permutation_NoDup in N1'; [|apply Permutation_map, Permutation_app_tail, HA].
      rewrite <- !app_assoc in N1'. rewrite !map_app in N1'. apply nodup_app_r, nodup_app_r in N1'.
      exact N1'. }
    rewrite E in Hr. subst d. cbn [gud_idtext gud_textid dicts beginrange gud_modified gud_largestID orb] in *.
    unfold close_dict in Hr. cbn [gud_modified gud_idtext gud_largestID] in Hr.
    assert (Hne : exists y r, order ++ unswap new = y :: r).
    { destruct order; cbn; eauto. }
    assert (Hm : match new with [] => false | _ => true end = true) by reflexivity.
    rewrite Hm in Hr. destruct Hne as (y & r & Hne). rewrite Hne in Hr. cbn [andb] in Hr.
    rewrite <- Hne in Hr. injection Hr as <-.
    set (order' := enum (order ++ unswap new)) in *.
    assert (Pord : Permutation order' (order ++ unswap new)) by apply He.
    exists U, order', lg'. cbn [main main_next ups gud]. rewrite app_nil_r.
    assert (Hlg' : 0 <= lg' < 2 ^ 63).
    { destruct L3 as [->|[t L3]]; [lia|]. destruct (Hfr t lg' L3). lia. }
    constructor; cbn [main main_next ups gud]; auto.
    + right. reflexivity.
    + eapply Permutation_Forall; [apply Permutation_sym, Pord|]. apply Forall_app. split.
      * eapply Forall_impl; [|exact A5]. intros [i t] [P1 P2]. split; auto. cbn in *. lia.
      * apply Forall_forall. intros [i t] Hin. unfold unswap in Hin. apply in_map_iff in Hin.
        destruct Hin as ([t' i'] & Heq & Hin). injection Heq as -> ->. cbn [fst snd].
        assert (Hlt : (length new < limit)%nat) by (apply Nat.ltb_lt; exact El).
        pose proof (proj1 (Forall_forall _ _) (Hpl Hlt) _ Hin). split; [auto|eauto].
    + rewrite (Permutation_map _ Pord : Permutation (swap order') (swap (order ++ unswap new))).
      rewrite swap_app, unswap_swap, !app_assoc. apply Permutation_app_tail. now rewrite <- app_assoc.
  - (* a large update *)
    subst d. unfold close_dict in Hr. cbn [gud_modified andb] in Hr. injection Hr as <-.
    exists (U ++ [new]), order, lg. constructor; cbn [main main_next ups gud]; auto.
    + apply chain_app; auto.
      * cbn [fst]. exact (write_layer_ok new (mkL [] [] []) [] layer_empty Hn1 Hn2).
      * discriminate.
      * intros t i Hin. cbn [snd]. pose proof (max_id_ok _ _ _ Hin). destruct (Hfr t i Hin). lia.
    + rewrite concat_app. cbn [concat]. rewrite app_nil_r, HA, <- !app_assoc.
      apply Permutation_app_head, Permutation_app_head, Permutation_app_comm.
Qed.

Lemma load_ok popular others l m : insert_dictionary popular others = (l, m) ->
  NoDup (popular ++ others) -> Z.of_nat (length (popular ++ others)) < 2 ^ 63 ->
  Inv (mkDisk l (m + 1) [] None) (numbered (popular ++ others) 0)
    (numbered (popular ++ others) 0) [] [] 0.
Proof.
  intros Hi Hn Hl. destruct (insert_dictionary_ok _ _ _ _ Hi Hn) as [H1 H2].
  assert (HR : forall t i, In (t, i) (numbered (popular ++ others) 0) ->
     0 <= i < Z.of_nat (length (popular ++ others))).
  { intros t i Hin. apply (in_map snd) in Hin. rewrite numbered_snd in Hin. cbn in Hin.
    apply in_map_iff in Hin. destruct Hin as (x & <- & Hx). apply in_seq in Hx. lia. }
  constructor; cbn [main main_next ups gud chain concat swap map app]; auto.
  - intros t i Hin. specialize (HR t i Hin). lia.
  - left. auto.
  - lia.
  - now rewrite app_nil_r.
  - now rewrite numbered_fst.
  - rewrite numbered_snd. apply nodup_of_nat.
  - intros t i Hin. specialize (HR t i Hin). lia.
Qed.

Lemma history_inv limit fuel enum k A : (forall l, Permutation (enum l) l) ->
  history limit fuel enum k A -> exists M U order lg, Inv k A M U order lg.
Proof.
  intros He. induction 1 as [popular others l m H1 H2 H3|k A d next new k' H IH Ho Hn Hp Hr].
  - do 4 eexists. apply load_ok; eauto.
  - destruct IH as (M & U & order & lg & HI). exists M. eapply record_ok; eauto.
Qed.
