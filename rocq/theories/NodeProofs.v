(** Proofs for the node store: blocks tile the files. *)
From Coq Require Import ZifyBool.
From Verif Require Import TableProofs FileModel FileSpec FileProofs NodeSpec.
Local Open Scope Z_scope.

Lemma contains_app m p x y : contains m p (x ++ y) -> contains m p x /\ contains m (p + zlen x) y.
Proof. exact (TableProofs.contains_app m p x y). Qed.
Lemma contains_bound m p x : contains m p x -> 0 <= p /\ p + zlen x <= zlen m.
Proof. exact (TableProofs.contains_bound m p x). Qed.

Definition blk := (cnode * list Z)%type.

Definition node_ok (c : cnode) (b : list Z) : Prop :=
  c_avail c = zlen b /\ 1 <= c_size c <= c_avail c /\ c_avail c < 2 ^ 31 /\ 0 <= c_pos c < 2 ^ 31.
Fixpoint placed (file : nat) (p : Z) (bs : list blk) : Prop :=
  match bs with
  | [] => True
  | (c, b) :: t => c_file c = file /\ c_pos c = p /\ node_ok c b /\ placed file (p + zlen b) t
  end.
Definition bytes (bs : list blk) : list Z := concat (map snd bs).

Record Inv (init : Z) (s : nm) (B : list (list blk)) : Prop := {
  iv_chains : n_chains s = map (map fst) B;
  iv_open : n_open s = match B with [] => false | _ => true end;
  iv_last : match B with [] => n_last s = O | _ => length B = S (n_last s) end;
  iv_max : (n_last s < MAX_N_FILES)%nat;
  iv_ids : NoDup (map c_id (concat (n_chains s)));
  iv_none : forall i, (length B <= i)%nat -> n_fds s i = None;
  iv_files : forall i bs, nth_error B i = Some bs ->
    bs <> [] /\ placed i 0 bs /\ exists f, n_fds s i = Some f /\ fd_ok f /\ fd_content f = bytes bs
}.

Definition entry (x : blk) : Z * (bool * list Z) :=
  (c_id (fst x), (c_children (fst x), firstn (Z.to_nat (c_size (fst x))) (snd x))).
Fixpoint assoc {A} (k : Z) (l : list (Z * A)) : option A :=
  match l with [] => None | (i, v) :: t => if i =? k then Some v else assoc k t end.
Definition look (B : list (list blk)) (id : Z) : option (bool * list Z) := assoc id (map entry (concat B)).

Lemma bytes_app a b : bytes (a ++ b) = bytes a ++ bytes b.
Proof. unfold bytes. now rewrite map_app, concat_app. Qed.
Lemma placed_app file a : forall p b, placed file p (a ++ b) <-> placed file p a /\ placed file (p + zlen (bytes a)) b.
Proof.
  induction a as [|[c x] a IH]; intros p b; cbn [app placed].
  - unfold bytes; cbn. rewrite Z.add_0_r. tauto.
  - rewrite IH. unfold bytes. cbn [map concat snd]. rewrite zlen_app, Z.add_assoc. tauto.
Qed.

Lemma nm_new_inv init : Inv init nm_new [].
Proof.
  split; cbn; auto.
  - unfold MAX_N_FILES. lia.
  - constructor.
  - intros i bs H. destruct i; discriminate.
Qed.

Lemma incr_bounds m : 0 < m -> m <= incr m <= m + 1023.
Proof.
  intros H. assert (E : incr m = (m + 1023) / 1024 * 1024).
  { unfold incr. change (Z.lnot 1023) with (Z.lnot (Z.ones 10)). rewrite <- Z.ldiff_land, Z.ldiff_ones_r by lia.
    now rewrite Z.shiftr_div_pow2, Z.shiftl_mul_pow2 by lia. }
  rewrite E.
  pose proof (Z.div_mod (m + 1023) 1024 ltac:(lia)). pose proof (Z.mod_pos_bound (m + 1023) 1024 ltac:(lia)). lia.
Qed.

Lemma chk_some v r : chk v = Some r -> r = v /\ - 2 ^ 31 <= v < 2 ^ 31.
Proof. unfold chk. destruct (_ && _) eqn:E; [|discriminate]. intros [= <-]. lia. Qed.
Lemma chk_none v : chk v = None -> v < - 2 ^ 31 \/ 2 ^ 31 <= v.
Proof. unfold chk. destruct (_ && _) eqn:E; [discriminate|]. lia. Qed.

(** ** Lists *)
Definition moved (d : Z) (c : cnode) : cnode := mkCn (c_id c) (c_size c) (c_avail c) (c_pos c + d) (c_file c) (c_children c).

Lemma mapo_move d l : match mapo (move d) l with
                      | Some r => r = map (moved d) l /\ forall c, In c l -> c_pos c + d < 2 ^ 31
                      | None => exists c, In c l /\ (c_pos c + d < - 2 ^ 31 \/ 2 ^ 31 <= c_pos c + d)
                      end.
Proof.
  induction l as [|c l IH]; cbn [mapo map]; [split; auto; intros c []|]. unfold move at 1.
  destruct (chk (c_pos c + d)) as [p|] eqn:E.
  - apply chk_some in E as [-> E]. destruct (mapo (move d) l) as [r|].
    + destruct IH as [-> H]. split; auto. intros x [<-|Hx]; auto. lia.
    + destruct IH as (x & Hx & H). exists x. split; auto. now right.
  - apply chk_none in E. exists c. split; auto. now left.
Qed.
Lemma mapo_some {A} (l : list A) : mapo Some l = Some l.
Proof. induction l as [|x l IH]; cbn; auto. now rewrite IH. Qed.

Lemma on_node_none id f g l : ~ In id (map c_id l) -> on_node id f g l = Some l.
Proof.
  induction l as [|c l IH]; cbn [on_node map]; intros H; auto. destruct (Z.eqb_spec (c_id c) id) as [E|E].
  - exfalso. apply H. now left.
  - rewrite IH; auto. intros Hc. apply H. now right.
Qed.
Lemma on_node_mid id f g pre c post : ~ In id (map c_id pre) -> c_id c = id ->
  on_node id f g (pre ++ c :: post) = do c1 <- f c; do r <- mapo g post; Some (pre ++ c1 :: r).
Proof.
  induction pre as [|x pre IH]; cbn [app on_node map]; intros H E.
  - rewrite E, Z.eqb_refl. reflexivity.
  - destruct (Z.eqb_spec (c_id x) id) as [Ex|Ex]; [exfalso; apply H; now left|].
    rewrite IH; auto; [|intros Hc; apply H; now right]. destruct (f c); auto. destruct (mapo g post); auto.
Qed.
Lemma mapo_on_node_none id f g cs : ~ In id (map c_id (concat cs)) -> mapo (on_node id f g) cs = Some cs.
Proof.
  induction cs as [|l cs IH]; cbn [mapo concat]; intros H; auto. rewrite map_app, in_app_iff in H.
  rewrite on_node_none, IH; auto.
Qed.
Lemma mapo_app {A B} (f : A -> option B) a b : mapo f (a ++ b) = do x <- mapo f a; do y <- mapo f b; Some (x ++ y).
Proof.
  induction a as [|x a IH]; cbn [app mapo].
  - destruct (mapo f b); auto.
  - rewrite IH. destruct (f x); auto. destruct (mapo f a); auto. destruct (mapo f b); auto.
Qed.
Lemma on_chains_mid id f g C1 pre c post C2 : NoDup (map c_id (concat (C1 ++ (pre ++ c :: post) :: C2))) -> c_id c = id ->
  mapo (on_node id f g) (C1 ++ (pre ++ c :: post) :: C2) =
  do c1 <- f c; do r <- mapo g post; Some (C1 ++ (pre ++ c1 :: r) :: C2).
Proof.
  intros HN E. rewrite concat_app in HN. cbn [concat] in HN.
  replace (concat C1 ++ (pre ++ c :: post) ++ concat C2) with ((concat C1 ++ pre) ++ c :: (post ++ concat C2)) in HN
    by now rewrite <- !app_assoc.
  rewrite map_app in HN. cbn [map] in HN. apply NoDup_remove_2 in HN. rewrite E, !map_app, !in_app_iff in HN.
  rewrite mapo_app. rewrite mapo_on_node_none by tauto. cbn [mapo]. rewrite on_node_mid by tauto.
  destruct (f c); auto. destruct (mapo g post); auto. rewrite mapo_on_node_none by tauto. auto.
Qed.

Lemma find_split {A} (p : A -> bool) l x : find p l = Some x -> exists a b, l = a ++ x :: b /\ p x = true.
Proof.
  intros H. destruct (find_some _ _ H) as [Hi Hp]. apply in_split in Hi as (a & b & ->). eauto.
Qed.
Lemma in_concat_split {A} (x : A) : forall cs, In x (concat cs) -> exists C1 pre post C2, cs = C1 ++ (pre ++ x :: post) :: C2.
Proof.
  intros cs H. apply in_concat in H as (l & Hl & Hx). apply in_split in Hl as (C1 & C2 & ->).
  apply in_split in Hx as (pre & post & ->). eauto.
Qed.
Lemma map_split {A B} (f : A -> B) l : forall a b, map f l = a ++ b -> exists x y, l = x ++ y /\ map f x = a /\ map f y = b.
Proof.
  intros a. revert l. induction a as [|u a IH]; intros l b H.
  - exists [], l. auto.
  - destruct l as [|v l]; [discriminate|]. cbn in H. injection H as E H. destruct (IH _ _ H) as (x & y & -> & <- & <-).
    exists (v :: x), y. cbn. now rewrite E.
Qed.
Lemma map_cons_split {A B} (f : A -> B) l u b : map f l = u :: b -> exists v y, l = v :: y /\ f v = u /\ map f y = b.
Proof. destruct l as [|v l]; [discriminate|]. cbn. intros [= <- <-]. eauto. Qed.

Lemma concat_map_fst (B : list (list blk)) : concat (map (map fst) B) = map fst (concat B).
Proof. symmetry. apply concat_map. Qed.
Lemma ids_entry B : map c_id (concat (map (map fst) B)) = map fst (map entry (concat B)).
Proof. rewrite concat_map_fst, !map_map. reflexivity. Qed.

Lemma assoc_app {A} k (a b : list (Z * A)) : assoc k (a ++ b) = match assoc k a with Some v => Some v | None => assoc k b end.
Proof. induction a as [|[i v] a IH]; cbn; auto. destruct (i =? k); auto. Qed.
Lemma assoc_none {A} k (l : list (Z * A)) : ~ In k (map fst l) -> assoc k l = None.
Proof.
  induction l as [|[i v] l IH]; cbn; intros H; auto. destruct (Z.eqb_spec i k) as [E|E]; [exfalso; auto|]. auto.
Qed.
Lemma assoc_in {A} k v (l : list (Z * A)) : NoDup (map fst l) -> In (k, v) l -> assoc k l = Some v.
Proof.
  induction l as [|[i w] l IH]; cbn [map fst assoc]; intros HN H0; [destruct H0|destruct H0 as [E|H]].
  - injection E as -> ->. now rewrite Z.eqb_refl.
  - inversion HN as [|? ? Hn HN']; subst. destruct (Z.eqb_spec i k) as [->|E]; auto.
    exfalso. apply Hn. change k with (fst (k, v)). now apply in_map.
Qed.
Lemma assoc_some {A} k v (l : list (Z * A)) : assoc k l = Some v -> In (k, v) l.
Proof.
  induction l as [|[i w] l IH]; cbn; [discriminate|]. destruct (Z.eqb_spec i k) as [->|E]; auto. intros [= ->]. auto.
Qed.

(** ** Files *)
Lemma app_inj_len {A} (a : list A) : forall a' b b', length a' = length a -> a' ++ b' = a ++ b -> a' = a /\ b' = b.
Proof.
  induction a as [|x a IH]; intros [|y a'] b b' Hl E; try discriminate; auto. cbn in *. injection E as -> E.
  destruct (IH a' b b') as [-> ->]; auto.
Qed.
Lemma shift_ok small pos diff f a b : fd_ok f -> 0 <= diff -> zlen a = pos -> fd_content f = a ++ b ->
  exists f' gap, fd_shift small pos diff f = Some f' /\ fd_ok f' /\ fd_content f' = a ++ gap ++ b /\ zlen gap = diff.
Proof.
  intros Hok Hd Ha Hc. pose proof (zlen_nonneg a) as Hz. pose proof (zlen_nonneg b) as Hzb.
  assert (Hsz : f_size f = zlen a + zlen b).
  { destruct (room_ok 0 0 f Hok ltac:(lia)) as (? & ? & _ & _ & E). rewrite Hc, zlen_app in E. lia. }
  destruct (fd_step_ok small (FShift pos diff) f Hok) as (f' & E & H1 & H2 & _); [cbn; lia|]. cbn [fd_step] in E.
  exists f'. rewrite Hc in H2. inversion H2 as [| | | | |a' b' pos' gap Ha' E1 E2 E3]; subst.
  assert (a' = a /\ b' = b) as [-> ->].
  { apply app_inj_len; auto. unfold zlen in *; lia. }
  exists gap. auto.
Qed.
Lemma overwrite_ok pos bs f a old b : fd_ok f -> zlen a = pos -> length old = length bs -> fd_content f = a ++ old ++ b ->
  exists f', fd_overwrite pos bs f = Some f' /\ fd_ok f' /\ fd_content f' = a ++ bs ++ b.
Proof.
  intros Hok Ha Hl Hc. pose proof (zlen_nonneg a) as Hz. pose proof (zlen_nonneg b) as Hzb.
  assert (Hsz : f_size f = zlen a + zlen old + zlen b).
  { destruct (room_ok 0 0 f Hok ltac:(lia)) as (? & ? & _ & _ & E). rewrite Hc, !zlen_app in E. lia. }
  destruct (fd_step_ok 0 (FOverwrite pos bs) f Hok) as (f' & E & H1 & H2 & _); [cbn; unfold zlen in *; lia|]. cbn [fd_step] in E.
  exists f'. split; auto. split; auto. rewrite Hc in H2. inversion H2 as [| | | |a' old' b' pos' bs' Ha' Hl' E1 E2 E3|]; subst.
  assert (a' = a /\ old' ++ b' = old ++ b) as [-> E4].
  { apply app_inj_len; auto. unfold zlen in *; lia. }
  destruct (app_inj_len old old' b b') as [_ ->]; auto. congruence.
Qed.
Lemma content_size f : fd_ok f -> zlen (fd_content f) = f_size f.
Proof. intros H. destruct (room_ok 0 0 f H ltac:(lia)) as (? & ? & _ & _ & E). exact E. Qed.

(** ** Writing *)
Definition mvb (d : Z) (x : blk) : blk := (moved d (fst x), snd x).
Lemma moved0 c : moved 0 c = c.
Proof. destruct c. unfold moved. cbn. now rewrite Z.add_0_r. Qed.
Lemma mvb0 l : map (mvb 0) l = l.
Proof. induction l as [|[c b] l IH]; cbn; auto. unfold mvb at 1. cbn. now rewrite moved0, IH. Qed.
Lemma map_fst_mvb d l : map fst (map (mvb d) l) = map (moved d) (map fst l).
Proof. rewrite !map_map. reflexivity. Qed.
Lemma map_snd_mvb d l : map snd (map (mvb d) l) = map snd l.
Proof. rewrite !map_map. reflexivity. Qed.
Lemma entry_mvb d l : map entry (map (mvb d) l) = map entry l.
Proof. rewrite map_map. reflexivity. Qed.
Lemma placed_mvb file d l : forall p, 0 <= p + d -> placed file p l -> (forall c, In c (map fst l) -> c_pos c + d < 2 ^ 31) ->
  placed file (p + d) (map (mvb d) l).
Proof.
  induction l as [|[c b] l IH]; intros p Hp H Hr; cbn [map placed mvb fst snd] in *; auto.
  destruct H as (H1 & H2 & H3 & H4). unfold node_ok in *. cbn [moved c_file c_pos c_avail c_size].
  pose proof (Hr c (or_introl eq_refl)) as Hc. pose proof (zlen_nonneg b) as Hb. repeat split; try tauto; try lia.
  replace (p + d + zlen b) with (p + zlen b + d) by lia. apply IH; [lia|exact H4|]. intros x Hx. apply Hr. now right.
Qed.

Lemma upd_same' {A} (f : nat -> A) i v j : j = i -> upd f i v j = v.
Proof. intros ->. apply upd_same. Qed.

Lemma replace_inv init s s2 B1 pre c b post B2 c2 b2 d f2 :
  Inv init s (B1 ++ (pre ++ (c, b) :: post) :: B2) ->
  n_chains s2 = map (map fst) B1 ++ (map fst pre ++ c2 :: map (moved d) (map fst post)) :: map (map fst) B2 ->
  n_open s2 = n_open s -> n_last s2 = n_last s ->
  (forall j, n_fds s2 j = upd (n_fds s) (length B1) (Some f2) j) -> fd_ok f2 ->
  fd_content f2 = bytes pre ++ b2 ++ bytes post ->
  c_id c2 = c_id c -> c_file c2 = c_file c -> c_pos c2 = c_pos c -> node_ok c2 b2 -> zlen b2 = zlen b + d -> 0 <= d ->
  (forall x, In x (map fst post) -> c_pos x + d < 2 ^ 31) ->
  Inv init s2 (B1 ++ (pre ++ (c2, b2) :: map (mvb d) post) :: B2).
Proof.
  intros HI E1 E2 E3 E4 Hf Hc Hid Hfile Hpos Hno Hlen Hd Hr.
  assert (Hch : n_chains s2 = map (map fst) (B1 ++ (pre ++ (c2, b2) :: map (mvb d) post) :: B2)).
  { rewrite E1, map_app. cbn [map]. rewrite map_app. cbn [map fst]. now rewrite map_fst_mvb. }
  assert (Hlen' : forall X, length (B1 ++ (X : list blk) :: B2) = length (B1 ++ (pre ++ (c, b) :: post) :: B2))
    by (intros; rewrite !app_length; reflexivity).
  assert (HnB : forall (X : list blk), B1 ++ X :: B2 <> []) by (intros X E; symmetry in E; now apply app_cons_not_nil in E).
  split; auto.
  - rewrite E2, (iv_open _ _ _ HI). destruct (B1 ++ _ :: B2) eqn:E; [now apply HnB in E|].
    destruct (B1 ++ (pre ++ (c2, b2) :: _) :: B2) eqn:E'; [now apply HnB in E'|]. reflexivity.
  - rewrite E3. pose proof (iv_last _ _ _ HI) as H. destruct (B1 ++ (pre ++ (c, b) :: post) :: B2) eqn:E; [now apply HnB in E|].
    destruct (B1 ++ (pre ++ (c2, b2) :: _) :: B2) eqn:E'; [now apply HnB in E'|]. rewrite <- E', Hlen'. exact H.
  - rewrite E3. apply (iv_max _ _ _ HI).
  - rewrite Hch, ids_entry. pose proof (iv_ids _ _ _ HI) as H. rewrite (iv_chains _ _ _ HI), ids_entry in H.
    rewrite !concat_app in *. cbn [concat] in *. rewrite !map_app in *. cbn [map] in *. rewrite entry_mvb.
    unfold entry at 3. cbn [fst]. rewrite Hid. exact H.
  - intros j Hj. rewrite E4, upd_other. apply (iv_none _ _ _ HI). rewrite Hlen' in Hj. exact Hj.
    rewrite app_length in Hj. cbn [length] in Hj. lia.
  - intros j bs Hj. destruct (Nat.eq_dec j (length B1)) as [->|Hne].
    + rewrite nth_error_app2, Nat.sub_diag in Hj by lia. cbn in Hj. injection Hj as <-.
      destruct (iv_files _ _ _ HI (length B1) (pre ++ (c, b) :: post)) as (_ & Hp & f & Ef & Hfo & Hfc).
      { now rewrite nth_error_app2, Nat.sub_diag by lia. }
      split; [|split].
      * intros E. symmetry in E. now apply app_cons_not_nil in E.
      * rewrite placed_app in Hp |- *. cbn [placed] in Hp |- *. destruct Hp as (Hp1 & Hp2 & Hp3 & Hp4 & Hp5).
        rewrite Hfile, Hpos. repeat split; auto; try apply Hno. rewrite Hlen. rewrite Z.add_assoc. apply placed_mvb; auto.
        pose proof (zlen_nonneg (bytes pre)). pose proof (zlen_nonneg b). lia.
      * exists f2. rewrite E4, upd_same. split; auto. split; auto. rewrite Hc, bytes_app. f_equal.
        unfold bytes. cbn [map snd concat]. now rewrite map_snd_mvb.
    + assert (Hj' : nth_error (B1 ++ (pre ++ (c, b) :: post) :: B2) j = Some bs).
      { destruct (Nat.lt_ge_cases j (length B1)).
        - rewrite nth_error_app1 in * by lia. exact Hj.
        - rewrite nth_error_app2 in * by lia. destruct (j - length B1)%nat eqn:Ej; [lia|]. exact Hj. }
      destruct (iv_files _ _ _ HI j bs Hj') as (Hn & Hp & f & Ef & Hfo & Hfc). split; auto. split; auto.
      exists f. rewrite E4, upd_other by auto. auto.
Qed.

Definition kind_of (B : list (list blk)) (id : Z) (kind : bool) : bool :=
  match look B id with Some (k, _) => k | None => kind end.

Lemma look_split B1 pre x post B2 : NoDup (map fst (map entry (concat (B1 ++ (pre ++ x :: post) :: B2)))) ->
  forall k, look (B1 ++ (pre ++ x :: post) :: B2) k =
    if k =? c_id (fst x) then Some (snd (entry x)) else assoc k (map entry (concat B1 ++ pre) ++ map entry (post ++ concat B2)).
Proof.
  intros HN k. unfold look. rewrite concat_app in *. cbn [concat] in *.
  replace (concat B1 ++ (pre ++ x :: post) ++ concat B2) with ((concat B1 ++ pre) ++ x :: (post ++ concat B2)) in *
    by now rewrite <- !app_assoc.
  rewrite map_app in *. cbn [map] in *. rewrite map_app in HN. cbn [map] in HN.
  destruct (Z.eqb_spec k (c_id (fst x))) as [->|Hk].
  - apply assoc_in; [now rewrite map_app|]. apply in_app_iff. right. left. reflexivity.
  - rewrite !assoc_app. cbn [assoc]. unfold entry at 2. destruct (Z.eqb_spec (c_id (fst x)) k); [congruence|]. reflexivity.
Qed.

Definition flen (B : list (list blk)) (i : nat) : Z := zlen (bytes (nth i B [])).

Lemma placed_pos file bs : forall p, placed file p bs -> 0 <= p -> forall c b, In (c, b) bs ->
  p <= c_pos c /\ c_pos c + zlen b <= p + zlen (bytes bs) /\ node_ok c b /\ c_file c = file.
Proof.
  induction bs as [|[c0 b0] bs IH]; intros p H Hp c b Hi; [destruct Hi|]. cbn [placed] in H. destruct H as (H1 & H2 & H3 & H4).
  unfold bytes. cbn [map snd concat]. rewrite zlen_app. pose proof (zlen_nonneg b0). destruct Hi as [E|Hi].
  - injection E as -> ->. pose proof (zlen_nonneg (concat (map snd bs))). repeat split; auto; try lia; apply H3.
  - destruct (IH _ H4 ltac:(lia) c b Hi) as (Ha & Hb & Hc & Hd). unfold bytes in Hb. repeat split; auto; try lia; apply Hc.
Qed.

Lemma find_cn_split init s B id c : Inv init s B -> find_cn s id = Some c ->
  exists B1 pre b post B2, B = B1 ++ (pre ++ (c, b) :: post) :: B2 /\ c_id c = id.
Proof.
  intros HI E. unfold find_cn in E. apply find_some in E as [Hi Hid]. rewrite (iv_chains _ _ _ HI), concat_map_fst in Hi.
  apply in_map_iff in Hi as ([c' b] & Ec & Hi). cbn in Ec. subst c'. apply in_concat_split in Hi as (B1 & pre & post & B2 & ->).
  exists B1, pre, b, post, B2. split; auto. now apply Z.eqb_eq.
Qed.
Lemma find_cn_none init s B id : Inv init s B -> find_cn s id = None -> ~ In id (map fst (map entry (concat B))).
Proof.
  intros HI E Hi. rewrite <- ids_entry, <- (iv_chains _ _ _ HI) in Hi. apply in_map_iff in Hi as (c & Ec & Hi).
  unfold find_cn in E. pose proof (find_none _ _ E c Hi) as H. cbn in H. apply Z.eqb_neq in H. auto.
Qed.

Definition too_long (B : list (list blk)) (size : Z) : Prop := exists bs, In bs B /\ 2 ^ 31 <= zlen (bytes bs) + size + 1023.

Definition put_result (init minsz : Z) (id : Z) (kind : bool) (buf : list Z) (size : Z) (s : nm) (B : list (list blk)) (r : option nm) : Prop :=
  match r with
  | Some s' => exists B', Inv init s' B' /\
      (forall k, look B' k = if k =? id then Some (kind_of B id kind, firstn (Z.to_nat size) buf) else look B k) /\
      zlen (bytes (concat B')) <= zlen (bytes (concat B)) + Z.max minsz size + 1023 /\ (n_last s' <= S (n_last s))%nat
  | None => zlen buf < Z.max minsz size \/ S (n_last s) = MAX_N_FILES \/ too_long B size
  end.

Lemma bytes_split B1 (X : list blk) B2 : zlen (bytes (concat (B1 ++ X :: B2))) = zlen (bytes (concat B1)) + zlen (bytes X) + zlen (bytes (concat B2)).
Proof. rewrite concat_app. cbn [concat]. rewrite !bytes_app, !zlen_app. lia. Qed.
Lemma bytes_mid pre x post : zlen (bytes (pre ++ x :: post)) = zlen (bytes pre) + zlen (snd x) + zlen (bytes post).
Proof. rewrite bytes_app, zlen_app. unfold bytes at 2. cbn [map concat]. rewrite zlen_app. unfold bytes. lia. Qed.

Lemma put_existing small init minsz maxsz id kind buf size s B c : 0 <= init -> minsz < 2 ^ 31 -> 1 <= size < 2 ^ 31 -> Inv init s B ->
  size <= zlen buf -> find_cn s id = Some c ->
  put_result init minsz id kind buf size s B (nm_put small init minsz maxsz id kind buf size s).
Proof.
  intros Hinit Hmin Hsize HI Hbuf Ef. unfold nm_put. destruct (Z.ltb_spec (zlen buf) size); [lia|]. rewrite Ef.
  destruct (find_cn_split _ _ _ _ _ HI Ef) as (B1 & pre & b & post & B2 & -> & Hid).
  pose proof (iv_ids _ _ _ HI) as HN. assert (HN' := HN). rewrite (iv_chains _ _ _ HI), ids_entry in HN'.
  destruct (iv_files _ _ _ HI (length B1) (pre ++ (c, b) :: post)) as (_ & Hp & f & Efd & Hfo & Hfc).
  { now rewrite nth_error_app2, Nat.sub_diag by lia. }
  assert (Hp' := Hp). rewrite placed_app in Hp'. cbn [placed] in Hp'. destruct Hp' as (Hp1 & Hfile & Hpos & Hno & Hp5).
  rewrite Z.add_0_l in Hpos. destruct Hno as (Hav & Hsz & Hav2 & Hpos2).
  rewrite bytes_app in Hfc. change (bytes ((c, b) :: post)) with (b ++ bytes post) in Hfc.
  set (img := firstn (Z.to_nat size) buf).
  assert (Himg : zlen img = size). { unfold img, zlen. rewrite firstn_length. unfold zlen in Hbuf. lia. }
  assert (Hch : n_chains s = map (map fst) B1 ++ (map fst pre ++ c :: map fst post) :: map (map fst) B2).
  { rewrite (iv_chains _ _ _ HI), map_app. cbn [map]. rewrite map_app. reflexivity. }
  assert (Hlk : forall c2 b2 d s2, Inv init s2 (B1 ++ (pre ++ (c2, b2) :: map (mvb d) post) :: B2) -> c_id c2 = id ->
            c_children c2 = c_children c -> c_size c2 = size -> firstn (Z.to_nat size) b2 = img ->
            forall k, look (B1 ++ (pre ++ (c2, b2) :: map (mvb d) post) :: B2) k =
              if k =? id then Some (kind_of (B1 ++ (pre ++ (c, b) :: post) :: B2) id kind, img)
              else look (B1 ++ (pre ++ (c, b) :: post) :: B2) k).
  { intros c2 b2 d s2 HI2 Hid2 Hk2 Hs2 Hb2 k. pose proof (iv_ids _ _ _ HI2) as HN2. rewrite (iv_chains _ _ _ HI2), ids_entry in HN2.
    rewrite !look_split by auto. unfold kind_of. rewrite look_split by auto. cbn [fst snd entry]. rewrite Hid2, Hid, Z.eqb_refl.
    rewrite Hk2, Hs2, Hb2. destruct (k =? id); auto. rewrite !map_app, entry_mvb. reflexivity. }
  destruct (Z.ltb_spec (c_avail c) size) as [Hgrow|Hfit].
  - (* the file grows *)
    pose proof (incr_bounds (size - c_avail c) ltac:(lia)) as Hinc. set (diff := incr (size - c_avail c)) in *.
    assert (Hbad : 2 ^ 31 <= zlen (bytes (pre ++ (c, b) :: post)) + size + 1023 ->
               put_result init minsz id kind buf size s (B1 ++ (pre ++ (c, b) :: post) :: B2) None).
    { intros Hb. right. right. exists (pre ++ (c, b) :: post). split; auto. apply in_app_iff. right. now left. }
    rewrite bytes_mid in Hbad. cbn [snd] in Hbad. pose proof (zlen_nonneg (bytes pre)) as Hz1. pose proof (zlen_nonneg (bytes post)) as Hz2.
    destruct (chk (size - c_avail c + 1023)) as [m|] eqn:Ek; [clear m Ek|apply chk_none in Ek; apply Hbad; lia].
    unfold load at 1. rewrite Hfile, Efd.
    destruct (shift_ok small (c_pos c) diff f (bytes pre) (b ++ bytes post)) as (f1 & gap & Es & Hf1 & Hc1 & Hgap); auto; [lia|].
    rewrite Es. unfold on_chains at 1. cbn [set_fd n_chains]. rewrite Hch. rewrite on_chains_mid; auto; [|now rewrite <- Hch].
    unfold grow. destruct (chk (c_avail c + diff)) as [a|] eqn:Ea; [apply chk_some in Ea as [-> Ea]|apply chk_none in Ea; apply Hbad; lia].
    pose proof (mapo_move diff (map fst post)) as Hmv. destruct (mapo (move diff) (map fst post)) as [r|].
    2:{ destruct Hmv as (x & Hx & Hxr). apply in_map_iff in Hx as ([x' bx] & E & Hx). cbn in E. subst x'.
        destruct (placed_pos _ _ _ Hp5 ltac:(pose proof (zlen_nonneg b); lia) x bx Hx) as (Ha & Hb & Hc & _). pose proof (zlen_nonneg bx).
        apply Hbad. lia. }
    destruct Hmv as [-> Hmv]. set (c1 := mkCn (c_id c) (c_size c) (c_avail c + diff) (c_pos c) (c_file c) (c_children c)).
    cbn [n_chains n_open n_last n_fds set_fd]. unfold load. cbn [n_fds]. rewrite upd_same.
    destruct (split_at (gap ++ b) size) as (old & rest & Eor & Hold); [rewrite zlen_app; lia|].
    destruct (overwrite_ok (c_pos c) img f1 (bytes pre) old (rest ++ bytes post)) as (f2 & Eo & Hf2 & Hc2); auto.
    { unfold zlen in *. lia. }
    { rewrite Hc1. f_equal. rewrite !app_assoc. now rewrite Eor. }
    rewrite Eo. unfold on_chains. cbn [n_chains set_fd n_open n_last n_fds]. rewrite on_chains_mid.
    2:{ rewrite Hch in HN. rewrite !concat_app, !map_app in *. cbn [concat] in *. rewrite !map_app in *. cbn [map c1 c_id] in *.
        assert (Em : map c_id (map (moved diff) (map fst post)) = map c_id (map fst post)) by now rewrite (map_map (moved diff)).
        rewrite Em. exact HN. }
    2:{ exact Hid. }
    rewrite mapo_some.
    assert (HI2 : forall s2, n_chains s2 = map (map fst) B1 ++ (map fst pre ++ with_size size c1 :: map (moved diff) (map fst post)) :: map (map fst) B2 ->
              n_open s2 = n_open s -> n_last s2 = n_last s -> (forall j, n_fds s2 j = upd (n_fds s) (length B1) (Some f2) j) ->
              Inv init s2 (B1 ++ (pre ++ (with_size size c1, img ++ rest) :: map (mvb diff) post) :: B2)).
    { intros s2 G1 G2 G3 G4. eapply replace_inv with (f2 := f2); eauto; cbn [with_size c1 c_id c_file c_pos c_avail c_size].
      - now rewrite Hc2, <- app_assoc.
      - assert (zlen (gap ++ b) = zlen (old ++ rest)) as E by now rewrite Eor. rewrite !zlen_app in E.
        unfold node_ok. cbn [with_size c1 c_id c_file c_pos c_avail c_size]. rewrite zlen_app. lia.
      - assert (zlen (gap ++ b) = zlen (old ++ rest)) as E by now rewrite Eor. rewrite !zlen_app in E. rewrite zlen_app. lia.
      - lia. }
    eexists. split; [apply HI2; cbn [n_chains n_open n_last n_fds]; auto|].
    { intros j. unfold upd. destruct (Nat.eqb j (length B1)); auto. }
    split; [|split]; cbn [n_last]; auto.
    + intros k. eapply Hlk; eauto.
      * apply (HI2 (mkNm (map (map fst) B1 ++ (map fst pre ++ with_size size c1 :: map (moved diff) (map fst post)) :: map (map fst) B2)
                      (n_open s) (n_last s) (upd (n_fds s) (length B1) (Some f2)))); auto.
      * rewrite firstn_app. replace (Z.to_nat size) with (length img) by (unfold zlen in Himg; lia).
        rewrite firstn_all, Nat.sub_diag. cbn. apply app_nil_r.
    + rewrite !bytes_split, !bytes_mid. cbn [snd]. unfold bytes at 3. rewrite map_snd_mvb. fold (bytes post).
      assert (zlen (gap ++ b) = zlen (old ++ rest)) as E by now rewrite Eor. rewrite !zlen_app in E. rewrite zlen_app. lia.
  - (* it fits *)
    unfold load. rewrite Hfile, Efd.
    destruct (split_at b size) as (old & rest & Eor & Hold); [lia|].
    destruct (overwrite_ok (c_pos c) img f (bytes pre) old (rest ++ bytes post)) as (f2 & Eo & Hf2 & Hc2); auto.
    { unfold zlen in *. lia. }
    { rewrite Hfc. f_equal. now rewrite Eor, <- app_assoc. }
    rewrite Eo. unfold on_chains. cbn [n_chains set_fd n_open n_last n_fds]. rewrite Hch. rewrite on_chains_mid; auto; [|now rewrite <- Hch].
    rewrite mapo_some.
    assert (HI2 : forall s2, n_chains s2 = map (map fst) B1 ++ (map fst pre ++ with_size size c :: map fst post) :: map (map fst) B2 ->
              n_open s2 = n_open s -> n_last s2 = n_last s -> (forall j, n_fds s2 j = upd (n_fds s) (length B1) (Some f2) j) ->
              Inv init s2 (B1 ++ (pre ++ (with_size size c, img ++ rest) :: map (mvb 0) post) :: B2)).
    { intros s2 G1 G2 G3 G4. eapply replace_inv with (f2 := f2); eauto; cbn [with_size c_id c_file c_pos c_avail c_size].
      - rewrite G1. replace (map (moved 0) (map fst post)) with (map fst post); auto. rewrite <- map_fst_mvb, mvb0. reflexivity.
      - now rewrite Hc2, <- app_assoc.
      - assert (zlen b = zlen (old ++ rest)) as E by now rewrite Eor. rewrite !zlen_app in E.
        unfold node_ok. cbn [with_size c_id c_file c_pos c_avail c_size]. rewrite zlen_app. lia.
      - assert (zlen b = zlen (old ++ rest)) as E by now rewrite Eor. rewrite !zlen_app in E. rewrite zlen_app. lia.
      - lia.
      - intros x Hx. apply in_map_iff in Hx as ([x' bx] & E & Hx). cbn in E. subst x'.
        destruct (placed_pos _ _ _ Hp5 ltac:(pose proof (zlen_nonneg (bytes pre)); pose proof (zlen_nonneg b); lia) x bx Hx) as (_ & _ & Hc & _).
        destruct Hc as (_ & _ & _ & Hc). lia. }
    eexists. split; [apply HI2; cbn [n_chains n_open n_last n_fds]; auto|].
    split; [|split]; cbn [n_last]; auto.
    + intros k. eapply Hlk; eauto.
      * apply (HI2 (mkNm (map (map fst) B1 ++ (map fst pre ++ with_size size c :: map fst post) :: map (map fst) B2)
                      (n_open s) (n_last s) (upd (n_fds s) (length B1) (Some f2)))); auto.
      * rewrite firstn_app. replace (Z.to_nat size) with (length img) by (unfold zlen in Himg; lia).
        rewrite firstn_all, Nat.sub_diag. cbn. apply app_nil_r.
    + rewrite mvb0, !bytes_split, !bytes_mid. cbn [snd].
      assert (zlen b = zlen (old ++ rest)) as E by now rewrite Eor. rewrite !zlen_app in E. rewrite zlen_app. lia.
Qed.

Lemma int32_id v : 0 <= v < 2 ^ 31 -> int32 v = v.
Proof. intros H. unfold int32. rewrite Z.mod_small by lia. destruct (Z.ltb_spec v (2 ^ 31)); lia. Qed.

Lemma fd_new_ok init : 0 <= init -> fd_ok (fd_new init) /\ fd_content (fd_new init) = [].
Proof.
  intros H. unfold fd_new, fd_ok, fd_content. cbn [f_buf f_size]. rewrite zlen_repeat. split; [lia|reflexivity].
Qed.

Lemma look_snoc (B B' : list (list blk)) c b : concat B' = concat B ++ [(c, b)] -> ~ In (c_id c) (map fst (map entry (concat B))) ->
  forall k, look B' k = if k =? c_id c then Some (snd (entry (c, b))) else look B k.
Proof.
  intros E Hn k. unfold look. rewrite E, map_app, assoc_app. cbn [map assoc]. unfold entry at 2. cbn [fst snd].
  destruct (Z.eqb_spec k (c_id c)) as [->|Hk].
  - rewrite assoc_none by auto. now rewrite Z.eqb_refl.
  - destruct (Z.eqb_spec (c_id c) k); [congruence|]. destruct (assoc k (map entry (concat B))); auto.
Qed.

Lemma put_new small init minsz maxsz id kind buf size s B : params init minsz maxsz -> 1 <= size < 2 ^ 31 -> Inv init s B ->
  size <= zlen buf -> find_cn s id = None ->
  put_result init minsz id kind buf size s B (nm_put small init minsz maxsz id kind buf size s).
Proof.
  intros (Hinit & Hmin & Hmax) Hsize HI Hbuf Ef. unfold nm_put. destruct (Z.ltb_spec (zlen buf) size); [lia|]. rewrite Ef.
  pose proof (find_cn_none _ _ _ _ HI Ef) as Hnew. set (avail := Z.max minsz size).
  assert (Hkind : kind_of B id kind = kind). { unfold kind_of, look. now rewrite assoc_none. }
  destruct (fd_new_ok init Hinit) as [Hn1 Hn2].
  destruct (Z.ltb_spec (zlen buf) avail) as [Hshort|Hlong].
  { assert (Hb : put_result init minsz id kind buf size s B None) by (left; exact Hshort).
    destruct (maxsz <=? _); auto. destruct (Nat.eqb _ _); auto. }
  set (blkb := firstn (Z.to_nat avail) buf).
  assert (Hblk : zlen blkb = avail). { unfold blkb, zlen. rewrite firstn_length. unfold zlen in Hlong. lia. }
  assert (Himg : firstn (Z.to_nat size) blkb = firstn (Z.to_nat size) buf).
  { unfold blkb. rewrite firstn_firstn. f_equal. lia. }
  (* a new chain *)
  assert (Hchain : forall s1, n_chains s1 = n_chains s -> n_open s1 = false -> n_last s1 = length B -> (n_last s1 < MAX_N_FILES)%nat -> n_fds s1 = n_fds s ->
     (n_last s1 <= S (n_last s))%nat ->
     put_result init minsz id kind buf size s B
       (let f := load init s1 (n_last s1) in
        let c := mkCn id size avail (int32 (f_size f)) (n_last s1) kind in
        do f1 <- fd_append small blkb f;
        Some (mkNm (n_chains s1 ++ [[c]]) true (n_last s1) (upd (n_fds s1) (n_last s1) (Some f1))))).
  { intros s1 E1 E2 E3 E4 E5 E6. cbv zeta. unfold load. rewrite E5, (iv_none _ _ _ HI) by lia.
    destruct (put_ok small (zlen blkb) blkb (fd_new init) Hn1) as (f1 & Ea & Hf1 & Hc1 & Hs1); [lia|]. unfold fd_append. rewrite Ea.
    change (f_size (fd_new init)) with 0. change (int32 0) with 0. set (c := mkCn id size avail 0 (n_last s1) kind).
    exists (B ++ [[(c, blkb)]]). split; [|split; [|split]].
    - split; cbn [n_chains n_open n_last n_fds].
      + now rewrite E1, (iv_chains _ _ _ HI), map_app.
      + destruct B; reflexivity.
      + rewrite E3. destruct (B ++ _) eqn:E; [destruct B; discriminate|]. rewrite <- E, app_length. cbn. lia.
      + exact E4.
      + rewrite E1, concat_app, map_app. cbn [concat app].
        apply NoDup_Add with (a := id) (l := map c_id (concat (n_chains s))).
        * change (map c_id [c]) with [id]. pose proof (Add_app id (map c_id (concat (n_chains s))) []) as H'. now rewrite app_nil_r in H'.
        * split; [apply (iv_ids _ _ _ HI)|]. rewrite (iv_chains _ _ _ HI), ids_entry. exact Hnew.
      + intros i Hi. rewrite app_length in Hi. cbn in Hi. rewrite upd_other by lia. apply (iv_none _ _ _ HI). lia.
      + intros i bs Hi. destruct (Nat.eq_dec i (length B)) as [->|Hne].
        * rewrite nth_error_app2, Nat.sub_diag in Hi by lia. cbn in Hi. injection Hi as <-. split; [discriminate|]. split.
          -- cbn [placed c c_file c_pos]. repeat split; auto; unfold node_ok, c; cbn [c_avail c_size c_pos]; lia.
          -- exists f1. rewrite E3, upd_same. split; auto. split; auto. rewrite Hc1, Hn2. unfold bytes. cbn. now rewrite app_nil_r.
        * assert (Hlt : (i < length B)%nat).
          { assert (i < length (B ++ [[(c, blkb)]]))%nat by (apply nth_error_Some; congruence). rewrite app_length in H0. cbn in H0. lia. }
          rewrite nth_error_app1 in Hi by lia. rewrite upd_other by lia. apply (iv_files _ _ _ HI i bs Hi).
    - intros k. rewrite Hkind. rewrite (look_snoc B _ c blkb); auto.
      + change (c_id c) with id. cbn [snd entry fst c c_children c_size]. now rewrite Himg.
      + rewrite concat_app. reflexivity.
    - rewrite concat_app, bytes_app, zlen_app. unfold bytes at 2. cbn [concat map snd app]. rewrite app_nil_r. lia.
    - exact E6. }
  destruct B as [|b0 Bt] eqn:EB.
  - (* the first node *)
    unfold load at 1. rewrite (iv_none _ _ _ HI) by (cbn; lia). change (f_size (fd_new init)) with 0.
    destruct (Z.leb_spec maxsz 0); [lia|]. rewrite (iv_open _ _ _ HI). apply (Hchain s); auto.
    + apply (iv_open _ _ _ HI).
    + apply (iv_last _ _ _ HI).
    + apply (iv_max _ _ _ HI).
  - destruct (exists_last (l := b0 :: Bt)) as (B0 & bl & Es); [discriminate|].
    pose proof (iv_last _ _ _ HI) as Hlast. cbv iota in Hlast. rewrite Es in Hlast. rewrite app_length in Hlast. cbn in Hlast.
    assert (El : n_last s = length B0) by lia.
    destruct (iv_files _ _ _ HI (length B0) bl) as (Hbn & Hp & f & Efd & Hfo & Hfc).
    { now rewrite Es, nth_error_app2, Nat.sub_diag by lia. }
    unfold load at 1. rewrite El, Efd. destruct (Z.leb_spec maxsz (f_size f)) as [Hfull|Hroom].
    + destruct (Nat.eqb_spec (S (length B0)) MAX_N_FILES) as [E|E]; [right; left; lia|].
      apply (Hchain (mkNm (n_chains s) false (S (length B0)) (n_fds s))); cbn [n_chains n_open n_last n_fds]; auto.
      * rewrite Es, app_length. cbn. lia.
      * pose proof (iv_max _ _ _ HI). lia.
      * lia.
    + rewrite (iv_open _ _ _ HI). unfold load. rewrite El, Efd.
      assert (Hchs : n_chains s = map (map fst) B0 ++ [map fst bl]).
      { rewrite (iv_chains _ _ _ HI), Es, map_app. reflexivity. }
      rewrite Hchs, removelast_last, last_last.
      destruct (put_ok small (zlen blkb) blkb f Hfo) as (f1 & Ea & Hf1 & Hc1 & Hs1); [lia|]. unfold fd_append. rewrite Ea.
      pose proof (content_size f Hfo) as Hcs. pose proof (zlen_nonneg (bytes bl)) as Hz. rewrite Hfc in Hcs.
      rewrite int32_id by lia. set (c := mkCn id size avail (f_size f) (length B0) kind).
      exists (B0 ++ [bl ++ [(c, blkb)]]). split; [|split; [|split]].
      * split; cbn [n_chains n_open n_last n_fds].
        -- rewrite map_app. cbn [map]. rewrite map_app. reflexivity.
        -- destruct B0; reflexivity.
        -- destruct (B0 ++ [bl ++ [(c, blkb)]]) eqn:E; [destruct B0; discriminate|]. apply (f_equal (@length _)) in E. rewrite app_length in E. cbn in E |- *. lia.
        -- pose proof (iv_max _ _ _ HI). lia.
        -- pose proof (iv_ids _ _ _ HI) as HN. rewrite Hchs in HN. rewrite concat_app in HN |- *. cbn [concat] in HN |- *. rewrite app_nil_r in HN |- *.
           rewrite app_assoc, map_app.
           apply NoDup_Add with (a := id) (l := map c_id (concat (map (map fst) B0) ++ map fst bl)).
           ++ change (map c_id [c]) with [id]. pose proof (Add_app id (map c_id (concat (map (map fst) B0) ++ map fst bl)) []) as H'. now rewrite app_nil_r in H'.
           ++ split; auto. intros Hi. apply Hnew. rewrite <- ids_entry. rewrite Es, map_app, concat_app. cbn [map concat]. now rewrite app_nil_r.
        -- intros i Hi. rewrite app_length in Hi. cbn in Hi. rewrite upd_other by lia. apply (iv_none _ _ _ HI). rewrite Es, app_length. cbn. lia.
        -- intros i bs Hi. destruct (Nat.eq_dec i (length B0)) as [->|Hne].
           ++ rewrite nth_error_app2, Nat.sub_diag in Hi by lia. cbn in Hi. injection Hi as <-.
              split; [intros E; symmetry in E; now apply app_cons_not_nil in E|]. split.
              ** rewrite placed_app. split; auto. cbn [placed c c_file c_pos]. repeat split; auto; unfold node_ok, c; cbn [c_avail c_size c_pos]; try lia.
              ** exists f1. rewrite upd_same. split; auto. split; auto. rewrite Hc1, Hfc, bytes_app. unfold bytes at 3. cbn. now rewrite app_nil_r.
           ++ assert (Hlt : (i < length B0)%nat).
              { assert (i < length (B0 ++ [bl ++ [(c, blkb)]]))%nat by (apply nth_error_Some; congruence). rewrite app_length in H0. cbn in H0. lia. }
              rewrite nth_error_app1 in Hi by lia. rewrite upd_other by lia. apply (iv_files _ _ _ HI i bs). now rewrite Es, nth_error_app1 by lia.
      * intros k. rewrite Hkind. rewrite (look_snoc (b0 :: Bt) _ c blkb); auto.
        -- change (c_id c) with id. cbn [snd entry fst c c_children c_size]. now rewrite Himg.
        -- rewrite Es, !concat_app. cbn [concat]. rewrite !app_nil_r. now rewrite app_assoc.
      * rewrite Es, !concat_app. cbn [concat]. rewrite !app_nil_r, !bytes_app, !zlen_app. unfold bytes at 3. cbn [concat map snd]. rewrite app_nil_r. lia.
      * cbn [n_last]. lia.
Qed.

Lemma put_any small init minsz maxsz id kind buf size s B : params init minsz maxsz -> 1 <= size < 2 ^ 31 -> Inv init s B ->
  put_result init minsz id kind buf size s B (nm_put small init minsz maxsz id kind buf size s).
Proof.
  intros HP Hs HI. destruct (Z.ltb_spec (zlen buf) size) as [L|L].
  - unfold nm_put. destruct (Z.ltb_spec (zlen buf) size); [|lia]. left. lia.
  - destruct (find_cn s id) as [c|] eqn:E; [eapply put_existing; eauto; apply HP|now apply put_new].
Qed.

Lemma close_inv init s B i : Inv init s B -> Inv init (nm_close s i) B.
Proof.
  intros HI. unfold nm_close. split; cbn [n_chains n_open n_last n_fds]; try apply HI.
  - intros j Hj. pose proof (iv_none _ _ _ HI j Hj) as E. destruct (n_fds s i) as [f|] eqn:Ei; auto.
    destruct (Nat.eqb_spec j i) as [->|]; [congruence|auto].
  - intros j bs Hj. destruct (iv_files _ _ _ HI j bs Hj) as (Hn & Hp & f & Ef & Hfo & Hfc). split; auto. split; auto.
    destruct (n_fds s i) as [g|] eqn:Ei; [|eauto]. destruct (Nat.eqb_spec j i) as [->|]; [|eauto].
    assert (g = f) by congruence. subst g. pose proof (content_size f Hfo) as Hcs.
    destruct (Z.eqb_spec (f_size f) 0) as [E0|E0].
    + exfalso. destruct bs as [|[c b] bs]; [congruence|]. cbn [placed] in Hp. destruct Hp as (_ & _ & (Ha & Hb & _) & _).
      rewrite Hfc in Hcs. unfold bytes in Hcs. cbn [map concat snd] in Hcs. rewrite zlen_app in Hcs.
      pose proof (zlen_nonneg (concat (map snd bs))). lia.
    + exists (fd_open (fd_content f)). split; auto. unfold fd_open, fd_ok. cbn [f_buf f_size]. split.
      * pose proof (zlen_nonneg (fd_content f)). lia.
      * rewrite <- Hfc. unfold fd_content at 1. cbn [f_buf f_size]. unfold zlen. now rewrite Nat2Z.id, firstn_all.
Qed.

Lemma get_look init s B id : Inv init s B -> nm_get init s id = look B id.
Proof.
  intros HI. unfold nm_get. destruct (find_cn s id) as [c|] eqn:E.
  - destruct (find_cn_split _ _ _ _ _ HI E) as (B1 & pre & b & post & B2 & EB & Hid). subst B.
    destruct (iv_files _ _ _ HI (length B1) (pre ++ (c, b) :: post)) as (_ & Hp & f & Efd & Hfo & Hfc).
    { now rewrite nth_error_app2, Nat.sub_diag by lia. }
    pose proof (iv_ids _ _ _ HI) as HN. rewrite (iv_chains _ _ _ HI), ids_entry in HN. rewrite look_split by auto. cbn [fst]. rewrite Hid, Z.eqb_refl.
    rewrite placed_app in Hp. cbn [placed] in Hp. destruct Hp as (Hp1 & Hfile & Hpos & Hno & Hp5).
    unfold cn_read, load. rewrite Hfile, Efd. unfold bytes_at.
    rewrite bytes_app in Hfc. change (bytes ((c, b) :: post)) with (b ++ bytes post) in Hfc.
    destruct Hno as (Ha & Hb & _ & _). pose proof (content_size f Hfo) as Hcs. rewrite Hfc, !zlen_app in Hcs. destruct Hfo as [Hk1 Hk2].
    pose proof (zlen_nonneg (bytes pre)). pose proof (zlen_nonneg (bytes post)).
    destruct ((0 <=? c_pos c) && (c_pos c + c_size c <=? zlen (f_buf f))) eqn:Eb; [|lia]. unfold entry. cbn [fst snd]. do 2 f_equal.
    unfold fd_content in Hfc. assert (Ebuf : f_buf f = (bytes pre ++ b ++ bytes post) ++ skipn (Z.to_nat (f_size f)) (f_buf f)).
    { rewrite <- Hfc. now rewrite firstn_skipn. }
    rewrite Ebuf, <- !app_assoc. replace (Z.to_nat (c_pos c)) with (length (bytes pre)) by (unfold zlen in Hpos; lia).
    rewrite skipn_app, skipn_all, Nat.sub_diag. cbn [skipn app]. rewrite firstn_app.
    replace (Z.to_nat (c_size c) - length b)%nat with O by (unfold zlen in Ha; lia). cbn. apply app_nil_r.
  - unfold look. now rewrite assoc_none by (eapply find_cn_none; eauto).
Qed.

(** ** Histories *)
Definition agrees (B : list (list blk)) (es : list nev) : Prop :=
  forall id k b n k0 x, In (Put id k b n) es -> look B id = Some (k0, x) -> k0 = k.

Lemma run_inv small init minsz maxsz es : params init minsz maxsz -> forall s B s', proper es -> steady es -> agrees B es -> Inv init s B ->
  nm_run small init minsz maxsz es s = Some s' ->
  exists B', Inv init s' B' /\ forall k, look B' k = match last_put k es with Some x => Some x | None => look B k end.
Proof.
  intros HP. induction es as [|e es IH]; intros s B s' Hpr Hst Hag HI E; cbn [nm_run last_put] in *.
  - injection E as <-. eauto.
  - assert (Hpr' : proper es) by (intros id k b n Hi; eapply Hpr; right; eauto).
    assert (Hst' : steady es) by (intros id k1 b1 n1 k2 b2 n2 Hi1 Hi2; eapply Hst; right; eauto).
    destruct e as [id kind buf size|i]; cbn [nm_step] in E.
    + pose proof (put_any small init minsz maxsz id kind buf size s B HP (Hpr id kind buf size (or_introl eq_refl)) HI) as Hput.
      destruct (nm_put small init minsz maxsz id kind buf size s) as [s1|]; [|discriminate].
      destruct Hput as (B1 & HI1 & Hl1 & _ & _).
      assert (Hk : kind_of B id kind = kind).
      { unfold kind_of. destruct (look B id) as [[k0 x]|] eqn:El; auto. eapply Hag; [left; reflexivity|exact El]. }
      rewrite Hk in Hl1.
      destruct (IH s1 B1 s' Hpr' Hst') as (B' & HI' & Hl'); auto.
      { intros id' k b n k0 x Hi Hlk. rewrite Hl1 in Hlk. destruct (Z.eqb_spec id' id) as [->|Hne].
        - injection Hlk as <- _. eapply Hst; [left; reflexivity|right; exact Hi].
        - eapply Hag; [right; exact Hi|exact Hlk]. }
      exists B'. split; auto. intros k. rewrite Hl', Hl1, Z.eqb_sym. destruct (last_put k es); auto. destruct (id =? k); auto.
    + destruct (IH (nm_close s i) B s' Hpr' Hst') as (B' & HI' & Hl'); auto.
      { intros id' k b n k0 x Hi Hlk. eapply Hag; [right; exact Hi|exact Hlk]. }
      { now apply close_inv. }
      exists B'. split; auto. intros k. rewrite Hl'. destruct (last_put k es); auto.
Qed.

Lemma too_long_total B size bs : In bs B -> zlen (bytes bs) + size + 1023 <= zlen (bytes (concat B)) + size + 1023.
Proof.
  intros H. apply in_split in H as (B1 & B2 & ->). rewrite bytes_split.
  pose proof (zlen_nonneg (bytes (concat B1))). pose proof (zlen_nonneg (bytes (concat B2))). lia.
Qed.
Lemma needed_nonneg minsz es : proper es -> 0 <= needed minsz es.
Proof.
  induction es as [|[id k b n|i] es IH]; intros Hp; cbn [needed]; [lia| |].
  - pose proof (Hp id k b n (or_introl eq_refl)). assert (proper es) by (intros id' k' b' n' Hi; eapply Hp; right; eauto). specialize (IH H0). lia.
  - apply IH. intros id' k' b' n' Hi; eapply Hp; right; eauto.
Qed.
Lemma run_some small init minsz maxsz es : params init minsz maxsz -> forall s B, proper es -> Inv init s B ->
  (forall id k b n, In (Put id k b n) es -> Z.max minsz n <= zlen b) ->
  zlen (bytes (concat B)) + needed minsz es < 2 ^ 31 -> (n_last s + puts es < MAX_N_FILES)%nat ->
  exists s', nm_run small init minsz maxsz es s = Some s'.
Proof.
  intros HP. induction es as [|e es IH]; intros s B Hpr HI Hb Hn Hf; cbn [nm_run needed puts] in *; [eauto|].
  assert (Hpr' : proper es) by (intros id k b n Hi; eapply Hpr; right; eauto).
  assert (Hb' : forall id k b n, In (Put id k b n) es -> Z.max minsz n <= zlen b) by (intros id k b n Hi; eapply Hb; right; eauto).
  pose proof (needed_nonneg minsz es Hpr') as Hnn.
  destruct e as [id kind buf size|i]; cbn [nm_step].
  - pose proof (put_any small init minsz maxsz id kind buf size s B HP (Hpr id kind buf size (or_introl eq_refl)) HI) as Hput.
    pose proof (Hb id kind buf size (or_introl eq_refl)) as Hbuf.
    destruct (nm_put small init minsz maxsz id kind buf size s) as [s1|].
    + destruct Hput as (B1 & HI1 & _ & Ht & Hl). apply (IH s1 B1); auto; [clear - Ht Hn; lia|clear - Hl Hf; lia].
    + exfalso. destruct Hput as [H|[H|(bs & Hi & H)]]; try lia. pose proof (too_long_total B size bs Hi). lia.
  - apply (IH (nm_close s i) B); auto. now apply close_inv.
Qed.

(** ** The idx file *)
Lemma zlen_cn_bytes c : zlen (cn_bytes c) = 25.
Proof. unfold cn_bytes. rewrite !zlen_app, !zlen_enc. reflexivity. Qed.

Definition cn_ok (c : cnode) : Prop :=
  0 <= c_id c < 2 ^ 63 /\ (c_file c < MAX_N_FILES)%nat /\ 0 <= c_pos c < 2 ^ 31 /\ 0 <= c_size c < 2 ^ 31 /\ 0 <= c_avail c < 2 ^ 31.

Lemma cn_parse_ok m p c : contains m p (cn_bytes c) -> cn_ok c -> cn_parse m p = Some c.
Proof.
  intros H (Hid & Hf & Hp & Hs & Ha). unfold cn_bytes in H.
  apply contains_app in H as [H1 H]. apply contains_app in H as [H2 H]. apply contains_app in H as [H3 H].
  apply contains_app in H as [H4 H]. apply contains_app in H as [H5 H6]. rewrite ?zlen_enc in *.
  change (zlen [if c_children c then 1 else 0]) with 1 in *. unfold cn_parse.
  rewrite (rd_enc 8 m p (c_id c)) by (auto; unfold fits; cbn; lia).
  rewrite (getb_contains m (p + 8) _ [] H2).
  assert (Hf' : 0 <= Z.of_nat (c_file c) < 2 ^ 31) by (unfold MAX_N_FILES in Hf; lia).
  rewrite (rdn_enc 4 m (p + 9) (Z.of_nat (c_file c))); [|replace (p + 9) with (p + Z.of_nat 8 + 1) by lia; exact H3|cbn; lia].
  rewrite (rdn_enc 4 m (p + 13) (c_pos c)); [|replace (p + 13) with (p + Z.of_nat 8 + 1 + Z.of_nat 4) by lia; exact H4|cbn; lia].
  rewrite (rdn_enc 4 m (p + 17) (c_size c)); [|replace (p + 17) with (p + Z.of_nat 8 + 1 + Z.of_nat 4 + Z.of_nat 4) by lia; exact H5|cbn; lia].
  rewrite (rdn_enc 4 m (p + 21) (c_avail c)); [|replace (p + 21) with (p + Z.of_nat 8 + 1 + Z.of_nat 4 + Z.of_nat 4 + Z.of_nat 4) by lia; exact H6|cbn; lia].
  rewrite !int32_id by auto. rewrite Nat2Z.id. destruct c as [i sz av ps fl ch]. cbn. destruct ch; reflexivity.
Qed.

Lemma wr_inv m p bs m' : wr m p bs = Some m' -> exists a old b, m = a ++ old ++ b /\ m' = a ++ bs ++ b /\ zlen a = p /\ length old = length bs.
Proof.
  unfold wr. destruct ((0 <=? p) && (p + zlen bs <=? zlen m)) eqn:E; [|discriminate]. intros [= <-].
  exists (firstn (Z.to_nat p) m), (firstn (length bs) (skipn (Z.to_nat p) m)), (skipn (Z.to_nat p + length bs) m).
  assert (Hl : (Z.to_nat p + length bs <= length m)%nat) by (unfold zlen in E; lia). repeat split.
  - replace (skipn (Z.to_nat p + length bs) m) with (skipn (length bs) (skipn (Z.to_nat p) m)).
    + now rewrite !firstn_skipn.
    + rewrite Nat.add_comm. clear. revert m. induction (Z.to_nat p) as [|n IH]; intros [|x m]; cbn; auto.
      * now rewrite Nat.add_0_r.
      * now rewrite Nat.add_0_r.
      * now rewrite !skipn_nil.
      * rewrite Nat.add_succ_r. cbn. apply IH.
  - unfold zlen. rewrite firstn_length. lia.
  - rewrite firstn_length, skipn_length. lia.
Qed.
Lemma wr_contains m p bs m' : wr m p bs = Some m' -> contains m' p bs.
Proof. intros H. apply wr_inv in H as (a & old & b & _ & -> & <- & _). exists a, b. split; auto. Qed.
Lemma wr_zlen m p bs m' : wr m p bs = Some m' -> zlen m' = zlen m.
Proof. intros H. apply wr_inv in H as (a & old & b & -> & -> & _ & Hl). rewrite !zlen_app. unfold zlen. lia. Qed.
Lemma wr_bounds m p bs m' : wr m p bs = Some m' -> 0 <= p /\ p + zlen bs <= zlen m.
Proof. unfold wr. destruct ((0 <=? p) && (p + zlen bs <=? zlen m)) eqn:E; [lia|discriminate]. Qed.
Lemma wr_keeps m p bs m' q x : wr m p bs = Some m' -> contains m q x -> q + zlen x <= p \/ p + zlen bs <= q -> contains m' q x.
Proof.
  intros H (u & v & E & Hu) Hd. change (q = zlen u) in Hu. apply wr_inv in H as (a & old & b & Em & -> & Hp & Hl).
  assert (Hlz : zlen old = zlen bs) by (unfold zlen; lia). rewrite Em in E. destruct Hd as [Hd|Hd].
  - destruct (split_at a (q + zlen x)) as (a1 & a2 & -> & Ha1); [pose proof (zlen_nonneg u); pose proof (zlen_nonneg x); lia|].
    rewrite <- (app_assoc a1) in E.
    assert (Ha : a1 = u ++ x). { apply (app_inj_len (u ++ x) a1 v (a2 ++ old ++ b)); [|rewrite <- app_assoc; exact E].
      rewrite app_length. unfold zlen in *. lia. }
    subst a1. exists u, (a2 ++ bs ++ b). split; auto. now rewrite <- !app_assoc.
  - destruct (split_at u (p + zlen bs)) as (u1 & u2 & -> & Hu1); [pose proof (zlen_nonneg a); pose proof (zlen_nonneg bs); lia|].
    assert (Hb : b = u2 ++ x ++ v).
    { apply (app_inj_len u1 (a ++ old) (u2 ++ x ++ v) b); [rewrite app_length; unfold zlen in *; lia|].
      rewrite <- app_assoc, E, <- app_assoc. reflexivity. }
    subst b. exists (a ++ bs ++ u2), v. split; [now rewrite <- !app_assoc|]. rewrite zlen_app in Hu. change (q = zlen (a ++ bs ++ u2)). rewrite !zlen_app. lia.
Qed.

(** All nodes with their flags. *)
Definition flag_chain (l : list cnode) : list (bool * cnode) :=
  match l with [] => [] | c :: t => (true, c) :: map (fun c => (false, c)) t end.
Definition flagged (cs : list (list cnode)) : list (bool * cnode) := flat_map flag_chain cs.
Definition fbytes (x : bool * cnode) : list Z := (if fst x then 1 else 0) :: cn_bytes (snd x).
Fixpoint idx_flat (l : list (bool * cnode)) (coords : mem) (p : Z) : option (mem * list Z) :=
  match l with
  | [] => Some (coords, [])
  | x :: t =>
    do coords1 <- wr coords (c_id (snd x) * 4) (enc 4 (p + 1));
    do (coords2, r) <- idx_flat t coords1 (p + 26);
    Some (coords2, fbytes x ++ r)
  end.
Lemma idx_flat_app a : forall b coords p,
  idx_flat (a ++ b) coords p = do (c1, x) <- idx_flat a coords p; do (c2, y) <- idx_flat b c1 (p + zlen x); Some (c2, x ++ y).
Proof.
  induction a as [|x a IH]; intros b coords p; cbn [app idx_flat].
  - change (zlen (@nil Z)) with 0. rewrite Z.add_0_r. destruct (idx_flat b coords p) as [[? ?]|]; auto.
  - destruct (wr coords _ _) as [c1|]; auto. rewrite IH. destruct (idx_flat a c1 (p + 26)) as [[c2 y]|]; auto.
    rewrite zlen_app. assert (E : zlen (fbytes x) = 26).
    { unfold fbytes. change (zlen (?a :: ?l)) with (zlen ([a] ++ l)). rewrite zlen_app, zlen_cn_bytes. reflexivity. }
    rewrite E, Z.add_assoc. destruct (idx_flat b c2 _) as [[? ?]|]; auto.
Qed.
Lemma idx_chain_flat l : forall coords p, idx_chain false l coords p = idx_flat (map (fun c => (false, c)) l) coords p.
Proof.
  induction l as [|c l IH]; intros coords p; cbn [idx_chain map idx_flat snd]; auto. destruct (wr coords _ _); auto.
  rewrite IH. destruct (idx_flat _ _ _) as [[? ?]|]; auto.
Qed.
Lemma idx_chains_flat cs : forall coords p, idx_chains cs coords p = idx_flat (flagged cs) coords p.
Proof.
  induction cs as [|l cs IH]; intros coords p; cbn [idx_chains flagged flat_map]; auto. rewrite idx_flat_app.
  assert (E : idx_chain true l coords p = idx_flat (flag_chain l) coords p).
  { destruct l as [|c l]; cbn [idx_chain flag_chain idx_flat snd]; auto. destruct (wr coords _ _); auto.
    rewrite idx_chain_flat. destruct (idx_flat _ _ _) as [[? ?]|]; auto. }
  rewrite E. destruct (idx_flat (flag_chain l) coords p) as [[c1 x]|]; auto. rewrite IH. reflexivity.
Qed.
Lemma map_snd_flagged cs : map snd (flagged cs) = concat cs.
Proof.
  induction cs as [|l cs IH]; cbn [flagged flat_map concat]; auto. rewrite map_app. fold (flagged cs). rewrite IH. f_equal.
  destruct l as [|c l]; cbn; auto. f_equal. rewrite map_map. cbn. apply map_id.
Qed.

Lemma zlen_fbytes x : zlen (fbytes x) = 26.
Proof. unfold fbytes. change (zlen (?a :: ?l)) with (zlen ([a] ++ l)). rewrite zlen_app, zlen_cn_bytes. reflexivity. Qed.

Lemma idx_flat_ok l : forall coords p coords' b, NoDup (map (fun x => c_id (snd x)) l) -> idx_flat l coords p = Some (coords', b) ->
  b = flat_map fbytes l /\ zlen coords' = zlen coords /\
  (forall q x, contains coords q x -> (forall y, In y l -> q + zlen x <= c_id (snd y) * 4 \/ c_id (snd y) * 4 + 4 <= q) -> contains coords' q x) /\
  (forall k x, nth_error l k = Some x -> contains coords' (c_id (snd x) * 4) (enc 4 (p + 26 * Z.of_nat k + 1))).
Proof.
  induction l as [|x l IH]; intros coords p coords' b HN E; cbn [idx_flat map flat_map] in *.
  - injection E as <- <-. repeat split; auto. intros k x Hk. destruct k; discriminate.
  - destruct (wr coords _ _) as [c1|] eqn:Ew; [|discriminate]. destruct (idx_flat l c1 (p + 26)) as [[c2 r]|] eqn:Ei; [|discriminate].
    injection E as <- <-. inversion HN as [|? ? Hn HN']; subst. destruct (IH _ _ _ _ HN' Ei) as (-> & Hz & Hk & Hs).
    split; [reflexivity|]. split; [rewrite Hz; eapply wr_zlen; eauto|]. split.
    + intros q y Hc Hd. apply Hk.
      * eapply wr_keeps; eauto. rewrite zlen_enc. apply (Hd x). now left.
      * intros z Hz'. apply Hd. now right.
    + intros k y Hy. destruct k as [|k]; cbn in Hy.
      * injection Hy as <-. rewrite Z.mul_0_r, Z.add_0_r. apply Hk; [eapply wr_contains; eauto|].
        intros y Hy. rewrite zlen_enc. assert (c_id (snd y) <> c_id (snd x)).
        { intros E. apply Hn. rewrite <- E. now apply (in_map (fun x => c_id (snd x))). }
        lia.
      * replace (p + 26 * Z.of_nat (S k) + 1) with (p + 26 + 26 * Z.of_nat k + 1) by lia. now apply Hs.
Qed.

Lemma contains_mid' (a x b : list Z) : contains (a ++ x ++ b) (zlen a) x.
Proof. exists a, b. auto. Qed.
Lemma contains_in m p x (a b : list Z) : contains m p x -> contains (a ++ m ++ b) (zlen a + p) x.
Proof. intros (u & v & -> & ->). exists (a ++ u), (v ++ b). split; [now rewrite <- !app_assoc|]. unfold zlen. rewrite app_length. lia. Qed.

Lemma flat_fbytes_split l k x : nth_error l k = Some x ->
  exists u v, flat_map fbytes l = u ++ fbytes x ++ v /\ zlen u = 26 * Z.of_nat k.
Proof.
  revert k. induction l as [|y l IH]; intros [|k] H; cbn in H; try discriminate.
  - injection H as ->. exists [], (flat_map fbytes l). auto.
  - destruct (IH k H) as (u & v & E & Hu). exists (fbytes y ++ u), v. cbn [flat_map]. rewrite E, app_assoc. split; auto.
    rewrite zlen_app, zlen_fbytes. lia.
Qed.
Lemma zlen_flat_fbytes l : zlen (flat_map fbytes l) = 26 * zlen l.
Proof.
  induction l as [|x l IH]; auto. cbn [flat_map]. rewrite zlen_app, zlen_fbytes, IH. unfold zlen. cbn [length]. lia.
Qed.

(** Reading a node of a store from disk. *)
Lemma nd_get_ok cs junk idx files c f b : idx_file cs junk = Some idx -> NoDup (map c_id (concat cs)) ->
  30 * zlen (concat cs) + 5 < 2 ^ 31 -> In c (concat cs) -> cn_ok c -> files (c_file c) = Some f ->
  bytes_at f (c_pos c) (c_size c) = Some b -> nd_get (mkNd idx files) (c_id c) = Some (c_children c, b).
Proof.
  intros E HN Hn Hi Hok Hf Hb. unfold idx_file in E. rewrite idx_chains_flat in E.
  destruct (idx_flat (flagged cs) _ _) as [[coords body]|] eqn:Ei; [|discriminate]. injection E as <-.
  assert (HN' : NoDup (map (fun x => c_id (snd x)) (flagged cs))) by (rewrite <- map_map, map_snd_flagged; exact HN).
  destruct (idx_flat_ok _ _ _ _ _ HN' Ei) as (-> & Hz & _ & Hs).
  rewrite <- map_snd_flagged in Hi. apply in_map_iff in Hi as (x & <- & Hi). apply In_nth_error in Hi as (k & Hk).
  assert (Hkl : Z.of_nat k < zlen (concat cs)).
  { rewrite <- map_snd_flagged. unfold zlen. rewrite map_length. assert (k < length (flagged cs))%nat by (apply nth_error_Some; congruence). lia. }
  pose proof (Hs k x Hk) as Hc. pose proof (contains_bound _ _ _ Hc) as [Hc1 Hc2]. rewrite zlen_enc in Hc2.
  assert (Hcl : zlen coords <= 4 * zlen (concat cs)).
  { rewrite Hz. unfold zlen. rewrite firstn_length. lia. }
  assert (Hid : 0 <= c_id (snd x) < zlen (concat cs)) by lia.
  unfold nd_get. cbn [d_idx d_files].
  rewrite (rdn_enc 4 _ 0 (zlen (concat cs))).
  2:{ exists [], (coords ++ flat_map fbytes (flagged cs)). auto. }
  2:{ pose proof (zlen_nonneg (concat cs)). cbn. lia. }
  rewrite int32_id by (pose proof (zlen_nonneg (concat cs)); lia).
  destruct ((0 <=? c_id (snd x)) && (c_id (snd x) <? zlen (concat cs))) eqn:Eb; [|lia].
  rewrite (rdn_enc 4 _ (4 + c_id (snd x) * 4) (4 + 4 * zlen (concat cs) + 26 * Z.of_nat k + 1)).
  2:{ pose proof (contains_in coords (c_id (snd x) * 4) _ (enc 4 (zlen (concat cs))) (flat_map fbytes (flagged cs)) Hc) as H.
      rewrite zlen_enc in H. exact H. }
  2:{ change (2 ^ (8 * Z.of_nat 4)) with 4294967296. lia. }
  rewrite int32_id by lia.
  destruct (flat_fbytes_split _ _ _ Hk) as (u & v & Eu & Hu).
  (* the coordinates have four bytes for each node *)
  assert (Hcl' : zlen coords = 4 * zlen (concat cs)).
  { enough (4 * zlen (concat cs) <= zlen coords) by lia.
    assert (Hin : incl (map c_id (concat cs)) (map Z.of_nat (seq 0 (Z.to_nat (zlen coords / 4))))).
    { intros z Hz'. rewrite <- map_snd_flagged, map_map in Hz'. apply in_map_iff in Hz' as (y & <- & Hy). apply In_nth_error in Hy as (j & Hj).
      pose proof (contains_bound _ _ _ (Hs j y Hj)) as [Hd1 Hd2]. rewrite zlen_enc in Hd2.
      apply in_map_iff. exists (Z.to_nat (c_id (snd y))). split; [lia|]. apply in_seq. 
      pose proof (Z.div_le_lower_bound (zlen coords) 4 (c_id (snd y) + 1) ltac:(lia) ltac:(lia)). lia. }
    apply NoDup_incl_length in Hin; auto. rewrite !map_length, seq_length in Hin.
    pose proof (Z.div_mod (zlen coords) 4 ltac:(lia)). pose proof (Z.mod_pos_bound (zlen coords) 4 ltac:(lia)). unfold zlen in *. lia. }
  rewrite (cn_parse_ok _ _ (snd x)).
  - rewrite Hf, Hb. reflexivity.
  - rewrite Eu. exists (enc 4 (zlen (concat cs)) ++ coords ++ u ++ [if fst x then 1 else 0]), v. split.
    + unfold fbytes. rewrite <- !app_assoc. reflexivity.
    + change (4 + 4 * zlen (concat cs) + 26 * Z.of_nat k + 1 = zlen (enc 4 (zlen (concat cs)) ++ coords ++ u ++ [if fst x then 1 else 0])).
      rewrite !zlen_app, zlen_enc, Hcl', Hu. change (zlen [if fst x then 1 else 0]) with 1. lia.
  - exact Hok.
Qed.
