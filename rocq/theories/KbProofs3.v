(** Merging the coordinates of the permutations and looking them up. *)
From Coq Require Import Sorted ZifyBool.
From Verif Require Export TableProofs FileProofs KbModel.
From Verif Require Import TreeProps.
Local Open Scope Z_scope.
Ltac Zify.zify_post_hook ::= Z.div_mod_to_equations.

(** ** The records *)
Definition fields_ok (e : entry) : Prop :=
  0 <= e_key e < 2 ^ 62 /\ 0 <= e_n e < 2 ^ 63 /\ Z.of_nat (e_file e) < 2 ^ 12 /\ 0 <= e_pos e < 2 ^ 31 /\ -128 <= e_strat e < 128.

Lemma tw_length e : length (tw_bytes e) = 23%nat.
Proof. unfold tw_bytes. rewrite !app_length, !enc_length. reflexivity. Qed.

Lemma contains_at pre b suf p : p = Z.of_nat (length pre) -> contains (pre ++ b ++ suf) p b.
Proof. intros ->. exists pre, suf. auto. Qed.

Lemma getFirst_cons e r : fields_ok e -> getFirst (tw_bytes e ++ r) = Some (e, r).
Proof.
  intros (Hk & Hn & Hf & Hp & Hs). unfold getFirst. pose proof (tw_length e) as HL.
  destruct (Nat.ltb_spec (length (tw_bytes e ++ r)) 23) as [H|H]; [rewrite app_length in H; lia|]. clear H.
  assert (Hskip : skipn 23 (tw_bytes e ++ r) = r) by (rewrite skipn_app, HL, skipn_all2 by lia; reflexivity). rewrite Hskip. clear Hskip HL.
  assert (C1 : contains (tw_bytes e ++ r) 0 (enc 8 (e_key e))).
  { unfold tw_bytes. rewrite <- !app_assoc. apply (contains_at []). reflexivity. }
  assert (C2 : contains (tw_bytes e ++ r) 8 (enc 8 (e_n e))).
  { unfold tw_bytes. rewrite <- !app_assoc. apply contains_at. now rewrite enc_length. }
  assert (C3 : contains (tw_bytes e ++ r) 16 (enc 2 (Z.of_nat (e_file e)))).
  { unfold tw_bytes. rewrite <- !app_assoc. rewrite (app_assoc (enc 8 (e_key e))). apply contains_at. now rewrite app_length, !enc_length. }
  assert (C4 : contains (tw_bytes e ++ r) 18 (enc 4 (e_pos e))).
  { unfold tw_bytes. rewrite <- !app_assoc. rewrite (app_assoc (enc 8 (e_n e))), (app_assoc (enc 8 (e_key e))). apply contains_at. now rewrite !app_length, !enc_length. }
  assert (C5 : contains (tw_bytes e ++ r) 22 [e_strat e mod 256]).
  { unfold tw_bytes. rewrite <- !app_assoc. rewrite (app_assoc (enc 2 _)), (app_assoc (enc 8 (e_n e))), (app_assoc (enc 8 (e_key e))). apply contains_at. now rewrite !app_length, !enc_length. }
  rewrite (rd_enc 8 _ _ _ C1), (rd_enc 8 _ _ _ C2) by (unfold fits; cbn; lia).
  rewrite (rdn_enc 2 _ _ _ C3), (rdn_enc 4 _ _ _ C4) by (cbn; lia). rewrite (getb_contains _ _ _ _ C5).
  destruct e as [k n f p s]; cbn [e_key e_n e_file e_pos e_strat] in *. f_equal. f_equal.
  replace (Z.to_nat (to_short (Z.of_nat f))) with f by (unfold to_short; lia).
  replace (to_int32 p) with p by (unfold to_int32; lia).
  replace (to_char (s mod 256)) with s; auto. unfold to_char. destruct (Z.leb_spec 128 ((s mod 256) mod 256)); lia.
Qed.

Definition st_of (l : list entry) : stream :=
  match l with [] => mkStream None [] | e :: t => mkStream (Some e) (tw_file t) end.
Lemma stream_of_file l : Forall fields_ok l -> stream_of (tw_file l) = st_of l.
Proof.
  intros H. unfold stream_of. destruct H as [|e l He Hl]; [reflexivity|]. cbn [tw_file flat_map]. fold (tw_file l). now rewrite getFirst_cons.
Qed.

(** ** One step *)
Definition drop (k : Z) (l : list entry) : list entry :=
  match l with e :: t => if e_key e =? k then t else l | [] => [] end.
Definition as_coord (e : entry) : coord := mkCoord (e_n e) (e_strat e) (Z.of_nat (e_file e)) (e_pos e).
Definition headc (k : Z) (l : list entry) : option coord :=
  match l with e :: _ => if e_key e =? k then Some (as_coord e) else None | [] => None end.
Definition headed (k : Z) (l : list entry) : bool := match l with e :: _ => e_key e =? k | [] => false end.

Notation start s := (@pair mstate tc s (fun _ => None)).
Definition St (L : nat -> list entry) (v : tc) (x : mstate * tc) : Prop :=
  (forall i, (i < 6)%nat -> fst x i = st_of (L i) /\ Forall fields_ok (L i)) /\ forall i, (i < 6)%nat -> snd x i = v i.

Lemma live_ok L v x i : St L v x -> (i < 6)%nat -> mg_live (fst x) i = nonempty (L i).
Proof. intros [H _] Hi. unfold mg_live. destruct (H i Hi) as [-> _]. now destruct (L i). Qed.
Lemma key_ok L v x i e t : St L v x -> (i < 6)%nat -> L i = e :: t -> mg_key (fst x) i = e_key e.
Proof. intros [H _] Hi E. unfold mg_key. destruct (H i Hi) as [-> _]. now rewrite E. Qed.
Lemma n_ok L v x i e t : St L v x -> (i < 6)%nat -> L i = e :: t -> mg_n (fst x) i = e_n e.
Proof. intros [H _] Hi E. unfold mg_n. destruct (H i Hi) as [-> _]. now rewrite E. Qed.
Lemma headed_ok L v x i k : St L v x -> (i < 6)%nat -> (mg_live (fst x) i && (mg_key (fst x) i =? k))%bool = headed k (L i).
Proof.
  intros HS Hi. rewrite (live_ok L v x i HS Hi). unfold headed. destruct (L i) as [|e t] eqn:E; cbn; auto. now rewrite (key_ok L v x i e t HS Hi E).
Qed.

Lemma take_ok L v x i e t : St L v x -> (i < 6)%nat -> L i = e :: t -> St (FileModel.upd L i t) (FileModel.upd v i (Some (as_coord e))) (mg_take i x).
Proof.
  intros [H1 H2] Hi E. destruct x as [s w]. cbn [fst snd] in *. unfold mg_take. destruct (H1 i Hi) as [Es Ef]. rewrite Es, E. cbn [st_of m_el m_rest].
  rewrite E in Ef. inversion Ef as [|? ? Fe Ft]; subst. split; cbn [fst snd]; intros j Hj; unfold FileModel.upd; destruct (Nat.eqb_spec j i); auto.
  rewrite stream_of_file; auto.
Qed.

Lemma if_ok L v x i k : St L v x -> (i < 6)%nat ->
  St (FileModel.upd L i (drop k (L i))) (FileModel.upd v i (if headed k (L i) then headc k (L i) else v i)) (mg_if i k x).
Proof.
  intros HS Hi. unfold mg_if. rewrite (headed_ok L v x i k HS Hi). destruct (headed k (L i)) eqn:Eh.
  - unfold headed in Eh. destruct (L i) as [|e t] eqn:E; [discriminate|]. cbn. rewrite Eh. now apply take_ok.
  - destruct HS as [H1 H2]. split; intros j Hj; unfold FileModel.upd; destruct (Nat.eqb_spec j i) as [-> |]; auto.
    unfold headed, drop in *. destruct (H1 i Hi). destruct (L i); auto. now rewrite Eh.
Qed.

Lemma with_ok L v x chk i j k : St L v x -> (i < 6)%nat -> (j < 6)%nat -> i <> j ->
  (headed k (L j) = true -> headed k (L i) = true) ->
  (chk = true -> forall e f t u, L i = e :: t -> L j = f :: u -> e_key e = k -> e_key f = k -> e_n e = e_n f) ->
  mg_with chk i j k x = Some (mg_if i k (mg_if j k x)).
Proof.
  intros HS Hi Hj Hij Himp Hn. unfold mg_with. rewrite (headed_ok L v x i k HS Hi), (headed_ok L v x j k HS Hj).
  pose proof (if_ok L v x j k HS Hj) as HS2. destruct (headed k (L i)) eqn:Ei.
  - unfold headed in Ei. destruct (L i) as [|e t] eqn:Li; [discriminate|].
    assert (Ht : forall y, St (FileModel.upd L j (drop k (L j))) (FileModel.upd v j (if headed k (L j) then headc k (L j) else v j)) y -> mg_take i y = mg_if i k y).
    { intros y Hy. unfold mg_if. rewrite (headed_ok _ _ y i k Hy Hi). unfold FileModel.upd. destruct (Nat.eqb_spec i j); [contradiction|]. rewrite Li. cbn. now rewrite Ei. }
    destruct (headed k (L j)) eqn:Ej.
    + destruct (L j) as [|f u] eqn:Lj; [discriminate|]. cbn in Ej. rewrite (n_ok _ _ _ _ _ _ HS Hi Li), (n_ok _ _ _ _ _ _ HS Hj Lj).
      assert (En : (chk && negb (e_n e =? e_n f))%bool = false).
      { destruct chk; auto. cbn. rewrite (Hn eq_refl e f t u); auto; [now rewrite Z.eqb_refl| |]; lia. }
      rewrite En. f_equal. rewrite <- (Ht (mg_if j k x)); auto. unfold mg_if. rewrite (headed_ok L v x j k HS Hj), Lj. cbn. now rewrite Ej.
    + f_equal. rewrite <- (Ht (mg_if j k x)); auto. unfold mg_if. now rewrite (headed_ok L v x j k HS Hj), Ej.
  - assert (Ej : headed k (L j) = false) by (destruct (headed k (L j)); auto; specialize (Himp eq_refl); discriminate).
    f_equal. unfold mg_if. rewrite (headed_ok L v x j k HS Hj), Ej, (headed_ok L v x i k HS Hi), Ei. reflexivity.
Qed.

Lemma if_none L v x i k : St L v x -> (i < 6)%nat -> headed k (L i) = false -> mg_if i k x = x.
Proof. intros HS Hi E. unfold mg_if. now rewrite (headed_ok L v x i k HS Hi), E. Qed.

(** The six lists. *)
Definition ascending (l : list entry) : Prop := StronglySorted Z.lt (map e_key l).
Record Lists (L : nat -> list entry) : Prop := {
  ls_asc : forall i, (i < 6)%nat -> ascending (L i);
  ls_sub : forall i, (3 <= i < 6)%nat -> incl (map e_key (L i)) (map e_key (L (i - 3)%nat));
  ls_n : forall e f, In e (L 2%nat) -> In f (L 5%nat) -> e_key e = e_key f -> e_n e = e_n f
}.

Lemma asc_head e t x : ascending (e :: t) -> In x t -> e_key e < e_key x.
Proof. intros H Hx. unfold ascending in H. cbn in H. apply StronglySorted_inv in H. destruct H as [_ H]. rewrite Forall_forall in H. apply H. now apply in_map. Qed.

Lemma sub_head L i e t k : Lists L -> (3 <= i < 6)%nat -> L i = e :: t -> e_key e = k ->
  (forall x, In x (L (i - 3)%nat) -> k <= e_key x) -> headed k (L (i - 3)%nat) = true.
Proof.
  intros HL Hi E Ek Hmin. assert (Hin : In k (map e_key (L (i - 3)%nat))).
  { apply (ls_sub _ HL i Hi). rewrite E. left. auto. }
  apply in_map_iff in Hin. destruct Hin as (x & Ex & Hx). pose proof (ls_asc _ HL (i - 3)%nat ltac:(lia)) as Ha.
  destruct (L (i - 3)%nat) as [|y u] eqn:E3; [destruct Hx|]. cbn. apply Z.eqb_eq. destruct Hx as [-> |Hx]; auto.
  pose proof (asc_head _ _ _ Ha Hx). specialize (Hmin y (or_introl eq_refl)). lia.
Qed.

Lemma six (i : nat) : (i < 6)%nat -> i = 0%nat \/ i = 1%nat \/ i = 2%nat \/ i = 3%nat \/ i = 4%nat \/ i = 5%nat.
Proof. lia. Qed.

Definition ifs (k : Z) (order : list nat) (x : mstate * tc) : mstate * tc := fold_left (fun x i => mg_if i k x) order x.
Notation mem i l := (existsb (Nat.eqb i) l).

Lemma ifs_ok k order : forall L v x, NoDup order -> Forall (fun i => (i < 6)%nat) order -> St L v x ->
  St (fun i => if mem i order then drop k (L i) else L i)
     (fun i => if mem i order then (if headed k (L i) then headc k (L i) else v i) else v i) (ifs k order x).
Proof.
  induction order as [|i r IH]; intros L v x Hn Hf HS; [exact HS|]. inversion Hn as [|? ? Hi Hn']; subst. inversion Hf as [|? ? Hi6 Hf']; subst.
  specialize (IH _ _ _ Hn' Hf' (if_ok _ _ _ i k HS Hi6)). unfold ifs in *. cbn [fold_left]. destruct IH as [A B].
  assert (Hm : mem i r = false).
  { apply not_true_is_false. intros E. apply Hi. apply existsb_exists in E. destruct E as (y & Hy & E). apply Nat.eqb_eq in E. now subst y. }
  split; intros j Hj; [specialize (A j Hj)|specialize (B j Hj)]; cbn [existsb]; unfold FileModel.upd in A, B |- *; destruct (Nat.eqb_spec j i) as [Ej|Ej]; cbn [orb]; rewrite ?Ej, ?Hm in *; auto.
Qed.

Lemma branch_ok k order L s : NoDup order -> Forall (fun i => (i < 6)%nat) order -> St L (fun _ => None) (start s) ->
  (forall i, (i < 6)%nat -> mem i order = false -> headed k (L i) = false) ->
  St (fun i => drop k (L i)) (fun i => headc k (L i)) (ifs k order (start s)).
Proof.
  intros Hn Hf HS Hno. destruct (ifs_ok k order _ _ _ Hn Hf HS) as [A B].
  split; intros i Hi; [specialize (A i Hi)|specialize (B i Hi)]; specialize (Hno i Hi); destruct (mem i order); auto.
  - specialize (Hno eq_refl). destruct (L i) as [|e t]; auto. cbn in *. now rewrite Hno.
  - rewrite B. destruct (L i) as [|e t]; cbn; auto. destruct (e_key e =? k); auto.
  - rewrite B. specialize (Hno eq_refl). destruct (L i) as [|e t]; auto. cbn in *. now rewrite Hno.
Qed.

(** The smallest key. *)
Definition least (k : Z) (L : nat -> list entry) : Prop :=
  (forall i x, (i < 6)%nat -> In x (L i) -> k <= e_key x) /\ exists i, (i < 3)%nat /\ headed k (L i) = true.

Lemma least_of L k : Lists L -> (forall i x, (i < 3)%nat -> In x (L i) -> k <= e_key x) -> (exists i, (i < 3)%nat /\ headed k (L i) = true) -> least k L.
Proof.
  intros HL H1 H2. split; auto. intros i x Hi Hx. destruct (Nat.lt_ge_cases i 3) as [|Hg]; [eauto|].
  assert (Hin : In (e_key x) (map e_key (L (i - 3)%nat))) by (apply (ls_sub _ HL i); [lia|now apply in_map]).
  apply in_map_iff in Hin. destruct Hin as (y & <- & Hy). apply (H1 (i - 3)%nat); auto. lia.
Qed.

Lemma head_least l e t x : ascending l -> l = e :: t -> In x l -> e_key e <= e_key x.
Proof. intros Ha -> [-> |Hx]; [lia|]. pose proof (asc_head _ _ _ Ha Hx). lia. Qed.

Lemma get_ok L s : Lists L -> St L (fun _ => None) (start s) ->
  (mg_get s = Some None /\ forall i, (i < 6)%nat -> L i = []) \/
  exists k v s', mg_get s = Some (Some (k, v, s')) /\ least k L /\ St (fun i => drop k (L i)) (fun i => headc k (L i)) (s', v).
Proof.
  intros HL HS.
  assert (Hlive : forall i, (i < 6)%nat -> mg_live s i = nonempty (L i)) by (intros i Hi; apply (live_ok L _ _ i HS Hi)).
  assert (Hkey : forall i e t, (i < 6)%nat -> L i = e :: t -> mg_key s i = e_key e) by (intros i e t Hi E; apply (key_ok L _ _ i e t HS Hi E)).
  assert (Hfin : forall k order, mg_get s = Some (Some (k, snd (ifs k order (start s)), fst (ifs k order (start s)))) -> least k L ->
    NoDup order -> Forall (fun i => (i < 6)%nat) order -> (forall i, (i < 6)%nat -> mem i order = false -> headed k (L i) = false) ->
    exists k v s', mg_get s = Some (Some (k, v, s')) /\ least k L /\ St (fun i => drop k (L i)) (fun i => headc k (L i)) (s', v)).
  { intros k order E Hl Hn Hf Hno. exists k. do 2 eexists. split; [exact E|]. split; auto. pose proof (branch_ok k order L s Hn Hf HS Hno) as H. now destruct (ifs k order (start s)). }
  assert (Hsub : forall k i, least k L -> (3 <= i < 6)%nat -> headed k (L i) = true -> headed k (L (i - 3)%nat) = true).
  { intros k i [Hm _] Hi Hh. destruct (L i) as [|e t] eqn:E; [discriminate|]. cbn in Hh. apply (sub_head L i e t k HL Hi E); [lia|].
    intros x Hx'. apply (Hm (i - 3)%nat); auto. lia. }
  assert (Hn25 : forall L' k, (L' 2%nat = L 2%nat) -> (L' 5%nat = L 5%nat) -> true = true -> forall e f t u, L' 2%nat = e :: t -> L' 5%nat = f :: u -> e_key e = k -> e_key f = k -> e_n e = e_n f).
  { intros L' k E2 E5 _ e f t u A B Ke Kf. apply (ls_n _ HL); [rewrite <- E2, A; now left|rewrite <- E5, B; now left|congruence]. }
  assert (Hmin : forall i e t, (i < 6)%nat -> L i = e :: t -> forall x, In x (L i) -> e_key e <= e_key x).
  { intros i e t Hi E x Hxx. apply (head_least (L i) e t); auto. apply (ls_asc _ HL i Hi). }
  assert (Hno : forall i k, (i < 6)%nat -> (forall x, In x (L i) -> k < e_key x) -> headed k (L i) = false).
  { intros i k Hi Hne. destruct (L i) as [|e t] eqn:E; auto. cbn. specialize (Hne e (or_introl eq_refl)). lia. }
  assert (Hle : forall i k, (i < 3)%nat -> (negb (mg_live s i) || (k <=? mg_key s i))%bool = true -> forall x, In x (L i) -> k <= e_key x).
  { intros i k Hi Hb x Hxx. rewrite Hlive in Hb by lia. destruct (L i) as [|e t] eqn:E; [destruct Hxx|]. pose proof (Hmin i e t ltac:(lia) E x ltac:(now rewrite E)).
    rewrite (Hkey i e t) in Hb by (auto; lia). cbn [nonempty negb orb] in Hb. lia. }
  assert (Hgt : forall i k, (i < 3)%nat -> (negb (mg_live s i) || (k <=? mg_key s i))%bool = false -> exists e, In e (L i) /\ e_key e < k).
  { intros i k Hi Hb. rewrite Hlive in Hb by lia. destruct (L i) as [|e t] eqn:E; [discriminate|]. exists e. split; [now left|].
    rewrite (Hkey i e t) in Hb by (auto; lia). cbn [nonempty negb orb] in Hb. lia. }
  unfold mg_get in *. cbv zeta in *.
  match goal with |- context [if ?b then _ else _] => destruct b eqn:B1 end; rewrite Hlive in B1 by lia.
  - (* subjects *)
    right. destruct (L 0%nat) as [|e0 t0] eqn:E0; [discriminate|]. cbn [nonempty andb] in B1. apply andb_true_iff in B1. destruct B1 as [B1 B2].
    set (k := mg_key s 0) in *. assert (Hk : k = e_key e0) by (apply (Hkey 0%nat e0 t0); auto; lia).
    assert (Hl : least k L).
    { apply least_of; auto.
      - intros i x Hi Hxx. assert (i = 0 \/ i = 1 \/ i = 2)%nat as [-> |[-> | ->]] by lia.
        + rewrite Hk. apply (Hmin 0%nat e0 t0); auto; lia.
        + apply (Hle 1%nat k); auto.
        + apply (Hle 2%nat k); auto.
      - exists 0%nat. split; [lia|]. rewrite E0. cbn. lia. }
    apply (Hfin k [3; 4; 1; 5; 2; 0]%nat); auto.
    + pose proof (if_ok _ _ _ 3 k HS ltac:(lia)) as H3.
      rewrite (with_ok _ _ _ false 1 4 k H3); [|lia|lia|lia| |discriminate].
      2:{ cbn [FileModel.upd Nat.eqb]. intros Hh. apply (Hsub k 4%nat Hl); auto; lia. }
      pose proof (if_ok _ _ _ 4 k H3 ltac:(lia)) as H4. pose proof (if_ok _ _ _ 1 k H4 ltac:(lia)) as H1.
      rewrite (with_ok _ _ _ true 2 5 k H1); [|lia|lia|lia| |].
      2:{ cbn [FileModel.upd Nat.eqb]. intros Hh. apply (Hsub k 5%nat Hl); auto; lia. }
      2:{ apply Hn25; reflexivity. }
      pose proof (if_ok _ _ _ 5 k H1 ltac:(lia)) as H5. pose proof (if_ok _ _ _ 2 k H5 ltac:(lia)) as H2.
      assert (E : mg_take 0 (mg_if 2 k (mg_if 5 k (mg_if 1 k (mg_if 4 k (mg_if 3 k (start s)))))) = ifs k [3; 4; 1; 5; 2; 0]%nat (start s)).
      { unfold ifs. cbn [fold_left]. unfold mg_if at 6. rewrite (headed_ok _ _ _ 0 k H2) by lia. cbn [FileModel.upd Nat.eqb]. rewrite E0. cbn [headed]. rewrite <- Hk, Z.eqb_refl. reflexivity. }
      now rewrite E.
    + repeat constructor; cbn; lia.
    + repeat constructor; lia.
    + intros i Hi. destruct (six i Hi) as [-> |[-> |[-> |[-> |[-> | ->]]]]]; discriminate.
  - assert (B1' : forall k, (forall x, In x (L 1%nat) -> k <= e_key x) -> (forall x, In x (L 2%nat) -> k <= e_key x) -> (L 1%nat <> [] \/ L 2%nat <> []) -> (forall x, In x (L 0%nat) -> k < e_key x)).
    { intros k H1 H2 _ x Hxx. destruct (L 0%nat) as [|e0 t0] eqn:E0; [destruct Hxx|]. cbn [nonempty andb] in B1.
      pose proof (Hmin 0%nat e0 t0 ltac:(lia) E0 x ltac:(now rewrite E0)) as Hm. pose proof (Hkey 0%nat e0 t0 ltac:(lia) E0) as K0.
      apply andb_false_iff in B1. destruct B1 as [B1|B1]; apply Hgt in B1; try lia; destruct B1 as (e & He & Hlt); [specialize (H1 e He)|specialize (H2 e He)]; lia. }
    match goal with |- context [if ?b then _ else _] => destruct b eqn:B2 end; rewrite Hlive in B2 by lia.
    + (* objects *)
      right. destruct (L 1%nat) as [|e1 t1] eqn:E1; [discriminate|]. cbn [nonempty andb] in B2.
      set (k := mg_key s 1) in *. assert (Hk : k = e_key e1) by (apply (Hkey 1%nat e1 t1); auto; lia).
      assert (Hk1 : forall x, In x (L 1%nat) -> k <= e_key x) by (intros x Hxx; rewrite Hk; apply (Hmin 1%nat e1 t1); auto; lia). rewrite E1 in Hk1.
      assert (Hk2 : forall x, In x (L 2%nat) -> k <= e_key x) by (apply Hle; auto).
      assert (Hk0 : forall x, In x (L 0%nat) -> k < e_key x) by (apply B1'; auto; left; discriminate).
      assert (Hl : least k L).
      { apply least_of; auto.
        - intros i x Hi Hxx. assert (i = 0 \/ i = 1 \/ i = 2)%nat as [-> |[-> | ->]] by lia; auto; [specialize (Hk0 x Hxx); lia|rewrite E1 in Hxx; auto].
        - exists 1%nat. split; [lia|]. rewrite E1. cbn. lia. }
      apply (Hfin k [4; 5; 2; 1]%nat); auto.
      * pose proof (if_ok _ _ _ 4 k HS ltac:(lia)) as H4.
        rewrite (with_ok _ _ _ true 2 5 k H4); [|lia|lia|lia| |].
        2:{ cbn [FileModel.upd Nat.eqb]. intros Hh. apply (Hsub k 5%nat Hl); auto; lia. }
        2:{ apply Hn25; reflexivity. }
        pose proof (if_ok _ _ _ 5 k H4 ltac:(lia)) as H5. pose proof (if_ok _ _ _ 2 k H5 ltac:(lia)) as H2.
        assert (E : mg_take 1 (mg_if 2 k (mg_if 5 k (mg_if 4 k (start s)))) = ifs k [4; 5; 2; 1]%nat (start s)).
        { unfold ifs. cbn [fold_left]. unfold mg_if at 4. rewrite (headed_ok _ _ _ 1 k H2) by lia. cbn [FileModel.upd Nat.eqb]. rewrite E1. cbn [headed]. rewrite <- Hk, Z.eqb_refl. reflexivity. }
        now rewrite E.
      * repeat constructor; cbn; lia.
      * repeat constructor; lia.
      * assert (N0 : headed k (L 0%nat) = false) by (apply Hno; [lia|auto]).
        intros i Hi. destruct (six i Hi) as [-> |[-> |[-> |[-> |[-> | ->]]]]]; try discriminate; intros _; auto.
        destruct (headed k (L 3%nat)) eqn:N; auto. apply (Hsub k 3%nat Hl) in N; [cbn in N; congruence|lia].
    + match goal with |- context [if ?b then _ else _] => destruct b eqn:B3 end; rewrite Hlive in B3 by lia.
      * (* predicates *)
        right. destruct (L 2%nat) as [|e2 t2] eqn:E2; [discriminate|].
        set (k := mg_key s 2) in *. assert (Hk : k = e_key e2) by (apply (Hkey 2%nat e2 t2); auto; lia).
        assert (Hk2 : forall x, In x (L 2%nat) -> k <= e_key x) by (intros x Hxx; rewrite Hk; apply (Hmin 2%nat e2 t2); auto; lia). rewrite E2 in Hk2.
        assert (Hk1 : forall x, In x (L 1%nat) -> k < e_key x).
        { intros x Hxx. destruct (L 1%nat) as [|e1 t1] eqn:E1; [destruct Hxx|]. cbn [nonempty andb] in B2. pose proof (Hmin 1%nat e1 t1 ltac:(lia) E1 x ltac:(now rewrite E1)).
          pose proof (Hkey 1%nat e1 t1 ltac:(lia) E1). cbn [negb orb] in B2. lia. }
        assert (Hk0 : forall x, In x (L 0%nat) -> k < e_key x) by (apply B1'; auto; [intros x Hxx; specialize (Hk1 x Hxx); lia|right; discriminate]).
        assert (Hl : least k L).
        { apply least_of; auto.
          - intros i x Hi Hxx. assert (i = 0 \/ i = 1 \/ i = 2)%nat as [-> |[-> | ->]] by lia; auto; [specialize (Hk0 x Hxx); lia|specialize (Hk1 x Hxx); lia|rewrite E2 in Hxx; auto].
          - exists 2%nat. split; [lia|]. rewrite E2. cbn. lia. }
        apply (Hfin k [5; 2]%nat); auto.
        -- rewrite (with_ok _ _ _ true 2 5 k HS); [reflexivity|lia|lia|lia| |].
           ++ intros Hh. apply (Hsub k 5%nat Hl); auto; lia.
           ++ intros _. apply (Hn25 L); auto.
        -- repeat constructor; cbn; lia.
        -- repeat constructor; lia.
        -- assert (N0 : headed k (L 0%nat) = false) by (apply Hno; [lia|auto]). assert (N1 : headed k (L 1%nat) = false) by (apply Hno; [lia|auto]).
           intros i Hi. destruct (six i Hi) as [-> |[-> |[-> |[-> |[-> | ->]]]]]; try discriminate; intros _; auto.
           ++ destruct (headed k (L 3%nat)) eqn:N; auto. apply (Hsub k 3%nat Hl) in N; [cbn in N; congruence|lia].
           ++ destruct (headed k (L 4%nat)) eqn:N; auto. apply (Hsub k 4%nat Hl) in N; [cbn in N; congruence|lia].
      * left. split; auto. destruct (L 2%nat) as [|e2 t2] eqn:E2; [|discriminate]. clear Hfin B3.
        assert (E1 : L 1%nat = []). { destruct (L 1%nat) as [|e1 t1]; auto. discriminate. }
        assert (E0 : L 0%nat = []). { destruct (L 0%nat) as [|e0 t0]; auto. cbn [nonempty andb] in B1. apply andb_false_iff in B1. destruct B1 as [B1|B1]; [|discriminate]. apply Hgt in B1; [|lia]. destruct B1 as (e & He & _). rewrite E1 in He. destruct He. }
        assert (Hs : forall i, (3 <= i < 6)%nat -> L (i - 3)%nat = [] -> L i = []).
        { intros i Hi E. pose proof (ls_sub _ HL i Hi) as Hinc. rewrite E in Hinc. destruct (L i) as [|e t]; auto. destruct (Hinc (e_key e)). now left. }
        intros i Hi. destruct (six i Hi) as [-> |[-> |[-> |[-> |[-> | ->]]]]]; auto; apply Hs; auto; lia.
Qed.

(** ** All steps *)
Definition entry_for (k : Z) (l : list entry) : option coord :=
  match find (fun e => e_key e =? k) l with Some e => Some (as_coord e) | None => None end.

Lemma drop_incl k l x : In x (drop k l) -> In x l.
Proof. unfold drop. destruct l as [|e t]; auto. destruct (e_key e =? k); auto. now right. Qed.
Lemma drop_asc k l : ascending l -> ascending (drop k l).
Proof. unfold drop, ascending. destruct l as [|e t]; auto. destruct (e_key e =? k); auto. cbn. intros H. now apply StronglySorted_inv in H. Qed.
Lemma drop_above k l x : ascending l -> (forall y, In y l -> k <= e_key y) -> In x (drop k l) -> k < e_key x.
Proof.
  intros Ha Hm Hx. unfold drop in Hx. destruct l as [|e t]; [destruct Hx|]. destruct (Z.eqb_spec (e_key e) k) as [E|E].
  - pose proof (asc_head _ _ _ Ha Hx). lia.
  - specialize (Hm e (or_introl eq_refl)) as He. destruct Hx as [<- |Hx]; [lia|]. pose proof (asc_head _ _ _ Ha Hx). lia.
Qed.
Lemma drop_other k k' l : k' <> k -> entry_for k' (drop k l) = entry_for k' l.
Proof.
  intros Hne. unfold entry_for, drop. destruct l as [|e t]; auto. destruct (Z.eqb_spec (e_key e) k); auto. cbn [find].
  destruct (Z.eqb_spec (e_key e) k'); [lia|auto].
Qed.
Lemma head_entry k l : ascending l -> (forall y, In y l -> k <= e_key y) -> headc k l = entry_for k l.
Proof.
  intros Ha Hm. unfold headc, entry_for. destruct l as [|e t]; auto. cbn [find]. destruct (Z.eqb_spec (e_key e) k); auto.
  destruct (find (fun e0 => e_key e0 =? k) t) as [f|] eqn:E; auto. exfalso. apply find_some in E. destruct E as [Hf E].
  pose proof (asc_head _ _ _ Ha Hf). specialize (Hm e (or_introl eq_refl)). lia.
Qed.

Definition total (L : nat -> list entry) : nat := (length (L 0) + length (L 1) + length (L 2))%nat.

Lemma drop_length k l : length (drop k l) = (length l - if headed k l then 1 else 0)%nat.
Proof. unfold drop, headed. destruct l as [|e t]; auto. destruct (e_key e =? k); cbn [length]; lia. Qed.
Lemma headed_ne k l : headed k l = true -> (1 <= length l)%nat.
Proof. destruct l; cbn; [discriminate|lia]. Qed.

Lemma Lists_drop L k : Lists L -> least k L -> Lists (fun i => drop k (L i)).
Proof.
  intros HL [Hm _]. split.
  - intros i Hi. apply drop_asc. now apply (ls_asc _ HL).
  - intros i Hi x Hx. apply in_map_iff in Hx. destruct Hx as (e & <- & He).
    assert (Hk : k < e_key e) by (apply (drop_above k (L i)); auto; [apply (ls_asc _ HL); lia|intros y Hy; apply (Hm i); auto; lia]).
    assert (Hin : In (e_key e) (map e_key (L (i - 3)%nat))) by (apply (ls_sub _ HL i Hi); apply in_map; eapply drop_incl; eauto).
    apply in_map_iff in Hin. destruct Hin as (f & Ef & Hf). apply in_map_iff. exists f. split; auto. unfold drop.
    destruct (L (i - 3)%nat) as [|y u]; auto. destruct (Z.eqb_spec (e_key y) k); auto. destruct Hf as [-> |Hf]; auto. lia.
  - intros e f He Hf E. apply (ls_n _ HL); auto; eapply drop_incl; eauto.
Qed.

Lemma mg_all_ok : forall fuel L s, Lists L -> St L (fun _ => None) (start s) -> (total L < fuel)%nat ->
  exists M, mg_all fuel s = Some M /\ StronglySorted Z.lt (map fst M) /\
    (forall k, In k (map fst M) <-> exists i, (i < 6)%nat /\ In k (map e_key (L i))) /\
    (forall k v, In (k, v) M -> forall i, (i < 6)%nat -> v i = entry_for k (L i)).
Proof.
  induction fuel as [|fuel IH]; intros L s HL HS Hf; [lia|]. cbn [mg_all]. destruct (get_ok L s HL HS) as [[-> HE]|(k & v & s' & -> & Hl & HS')].
  - exists []. split; auto. split; [constructor|]. split; [|intros k v []]. intros k. split; [intros []|]. intros (i & Hi & Hin). rewrite (HE i Hi) in Hin. destruct Hin.
  - pose proof (Lists_drop L k HL Hl) as HL'. destruct HS' as [HS1 HS2]. cbn [fst snd] in HS1, HS2.
    assert (HS'' : St (fun i => drop k (L i)) (fun _ => None) (start s')) by (split; [exact HS1|auto]).
    assert (Hf' : (total (fun i => drop k (L i)) < fuel)%nat).
    { destruct Hl as [_ (i & Hi & Hh)]. unfold total in *. rewrite !drop_length. pose proof (headed_ne _ _ Hh) as H1.
      assert (i = 0 \/ i = 1 \/ i = 2)%nat as [-> |[-> | ->]] by lia; rewrite Hh in *; lia. }
    destruct (IH _ s' HL' HS'' Hf') as (M & EM & HsM & HkM & HvM). rewrite EM. exists ((k, v) :: M). split; auto.
    destruct Hl as [Hm (i0 & Hi0 & Hh0)].
    assert (Habove : forall x, In x (map fst M) -> k < x).
    { intros x Hx. apply HkM in Hx. destruct Hx as (i & Hi & Hx). apply in_map_iff in Hx. destruct Hx as (e & <- & He).
      apply (drop_above k (L i)); auto; [now apply (ls_asc _ HL)|intros y Hy; now apply (Hm i)]. }
    split; [|split].
    + cbn [map fst]. constructor; auto. rewrite Forall_forall. exact Habove.
    + intros x. cbn [map fst]. split.
      * intros [<- |Hx].
        -- exists i0. split; [lia|]. unfold headed in Hh0. destruct (L i0) as [|e t]; [discriminate|]. left. lia.
        -- apply HkM in Hx. destruct Hx as (i & Hi & Hx). exists i. split; auto. apply in_map_iff in Hx. destruct Hx as (e & <- & He). apply in_map. eapply drop_incl; eauto.
      * intros (i & Hi & Hx). destruct (Z.eq_dec x k) as [-> |Hne]; [now left|right]. apply HkM. exists i. split; auto.
        apply in_map_iff in Hx. destruct Hx as (e & <- & He). apply in_map. unfold drop. destruct (L i) as [|y u]; auto.
        destruct (Z.eqb_spec (e_key y) k); auto. destruct He as [-> |He]; [congruence|auto].
    + intros k' v' [E|Hin] i Hi.
      * injection E as <- <-. rewrite (HS2 i Hi). apply head_entry; [now apply (ls_asc _ HL)|intros y Hy; now apply (Hm i)].
      * rewrite (HvM k' v' Hin i Hi). apply drop_other. assert (Hx : In k' (map fst M)) by (apply in_map_iff; now exists (k', v')). specialize (Habove k' Hx). lia.
Qed.

(** ** The tree *)
Definition puts (M : list (Z * tc)) : list (op tc) := map (fun kv => Put (fst kv) (snd kv)) M.

Lemma puts_allowed M : (forall k v, In (k, v) M -> 0 <= k < 2 ^ 62) -> forall b, allowed b (puts M).
Proof.
  induction M as [|[k v] M IH]; intros H b; cbn; auto. split; [apply (H k v); now left|]. split; auto. apply IH. intros k' v' Hin. apply (H k' v'). now right.
Qed.
Lemma puts_keys M o r1 r2 : puts M = r1 ++ o :: r2 -> In (op_key o) (map fst M).
Proof.
  intros E. assert (Hin : In o (puts M)) by (rewrite E; apply in_or_app; right; now left). unfold puts in Hin. apply in_map_iff in Hin.
  destruct Hin as ([k v] & <- & Hin). apply in_map_iff. now exists (k, v).
Qed.
Lemma puts_replacing M : StronglySorted Z.lt (map fst M) -> replacing (puts M).
Proof.
  induction M as [|[k v] M IH]; intros H; cbn [puts map replacing]; auto. fold (puts M). cbn [map fst] in H. apply StronglySorted_inv in H. destruct H as [H1 H2].
  split; auto. intros o' r1 r2 E Ek _. exfalso. apply puts_keys in E. rewrite Ek in E. cbn in E. rewrite Forall_forall in H2. specialize (H2 k E). lia.
Qed.
Lemma puts_last M k : StronglySorted Z.lt (map fst M) ->
  match last_value k (puts M) with None => ~ In k (map fst M) | Some v => In (k, v) M end.
Proof.
  induction M as [|[k' v'] M IH]; intros H; cbn [puts map last_value]; auto. fold (puts M). cbn [map fst] in H. apply StronglySorted_inv in H. destruct H as [H1 H2].
  specialize (IH H1). destruct (last_value k (puts M)) as [v|].
  - now right.
  - cbn [op_key op_val fst snd]. destruct (Z.eqb_spec k' k) as [-> |Hne]; [now left|]. cbn. intros [E|E]; auto.
Qed.

(** What the iterator of the tree returns. *)
Definition walked (t : tree (list (nat * coord))) (L : nat -> list entry) (l : list (Z * list (nat * coord))) : Prop :=
  (exists c, itr t = Some c /\ forall fuel, (length l < fuel)%nat -> walk fuel c = Some l) /\ StronglySorted Z.lt (map fst l) /\
  (forall k, In k (map fst l) <-> exists i, (i < 6)%nat /\ In k (map e_key (L i))) /\
  forall k x i, In (k, x) l -> (i < 6)%nat -> tc_of x i = entry_for k (L i).

Lemma merged_tree m fuel L : (1 <= m)%nat -> Lists L -> (forall i, (i < 6)%nat -> Forall fields_ok (L i)) -> (total L < fuel)%nat ->
  exists M t, mg_all fuel (fun i => stream_of (tw_file (L i))) = Some M /\ build_tc (m + m) (map (fun kv => Put (fst kv) (snd kv)) M) = Some t /\
    (exists l, walked t L l) /\
    forall k, (get t k = Some None /\ forall i, (i < 6)%nat -> entry_for k (L i) = None) \/
              exists l, get t k = Some (Some l) /\ forall i, (i < 6)%nat -> tc_of l i = entry_for k (L i).
Proof.
  intros Hm HL Hf Hfuel.
  assert (HS : St L (fun _ => None) (start (fun i => stream_of (tw_file (L i))))).
  { split; auto. intros i Hi. cbn [fst]. split; auto. apply stream_of_file. auto. }
  destruct (mg_all_ok fuel L _ HL HS Hfuel) as (M & EM & HsM & HkM & HvM). exists M.
  assert (Hr : forall k v, In (k, v) M -> 0 <= k < 2 ^ 62).
  { intros k v Hin. assert (Hx : In k (map fst M)) by (apply in_map_iff; now exists (k, v)). apply HkM in Hx. destruct Hx as (i & Hi & Hx).
    apply in_map_iff in Hx. destruct Hx as (e & <- & He). specialize (Hf i Hi). rewrite Forall_forall in Hf. apply (Hf e He). }
  destruct (C17_coordinates_partial m (puts M) Hm (puts_allowed M Hr []) (puts_replacing M HsM)) as (t & Et & Hget).
  exists t. split; auto. split; [exact Et|]. split.
  { destruct (C18_coordinates_partial m (puts M) Hm (puts_allowed M Hr []) (puts_replacing M HsM)) as (t' & c & l & Et' & Ec & Hw & Hinc & Hk & Hv).
    assert (t' = t) by (rewrite Et in Et'; congruence). subst t'. exists l. split; [eauto|]. split; [exact Hinc|].
    assert (HkL : forall k, In k (map fst l) <-> In k (map fst M)).
    { intros k. rewrite Hk. pose proof (puts_last M k HsM) as Hp. destruct (last_value k (puts M)) as [v|]; [|split; [congruence|]; intros Hx; exfalso; now apply Hp]. split; [|congruence].
      intros _. apply in_map_iff. exists (k, v). auto. }
    split.
    - intros k. rewrite HkL. apply HkM.
    - intros k x i Hin Hi. pose proof (proj1 (HkL k) ltac:(apply in_map_iff; exists (k, x); auto)) as HM'. pose proof (puts_last M k HsM) as Hp.
      destruct (last_value k (puts M)) as [v|] eqn:El; [|exfalso; now apply Hp]. rewrite (Hv k x v i Hin El Hi). now apply HvM. }
  intros k. specialize (Hget k). pose proof (puts_last M k HsM) as Hp. destruct (last_value k (puts M)) as [v|].
  - right. destruct Hget as (l & E1 & E2). exists l. split; auto. intros i Hi. rewrite (E2 i Hi). now apply HvM.
  - left. split; auto. intros i Hi. unfold entry_for. destruct (find (fun e => e_key e =? k) (L i)) as [e|] eqn:E; auto. exfalso. apply Hp. apply HkM.
    apply find_some in E. destruct E as [He E]. exists i. split; auto. apply in_map_iff. exists e. split; auto. lia.
Qed.
