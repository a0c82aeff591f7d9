(** C31: tables of tuples. *)
From Coq Require Import Sorted Permutation.
From Verif Require Import TupleModel TupleSpec TupleProofs.
Local Open Scope Z_scope.

Definition two (l : list (list Z)) : tuples := mkTuples 2 [1; 2] l (empty_of l).
(** Insertion sort does what std::sort promises. *)
Fixpoint ins (f : list Z -> list Z -> bool) (x : list Z) (l : list (list Z)) : list (list Z) :=
  match l with [] => [x] | y :: t => if f y x then y :: ins f x t else x :: l end.
Definition isort (f : list Z -> list Z -> bool) (l : list (list Z)) : list (list Z) := fold_right (ins f) [] l.
Lemma ins_perm f x l : Permutation (ins f x l) (x :: l).
Proof. induction l as [|y l IH]; cbn; [auto|]. destruct (f y x); [|auto]. rewrite IH. apply perm_swap. Qed.

(** ** merge *)

(** Of two sorted tables with rows of the same length: the sorted table in which each row occurs as
    often as in that of the two in which it occurs more often. *)
Theorem C31_merge : forall t1 t2, tt_size t1 <> O ->
  Forall (fun r => length r = tt_size t1) (tt_rows t1) -> Forall (fun r => length r = tt_size t1) (tt_rows t2) ->
  sorted_rows (tt_rows t1) -> sorted_rows (tt_rows t2) ->
  exists t, tt_merge t1 t2 = Some t /\ tt_size t = tt_size t1 /\ tt_nrows t = length (tt_rows t) /\ sorted_rows (tt_rows t) /\
    forall r, count r (tt_rows t) = Nat.max (count r (tt_rows t1)) (count r (tt_rows t2)).
Proof.
  intros t1 t2 H0 W1 W2 S1 S2. unfold tt_merge. rewrite merge_loop_ok by (cbn; lia). cbn [opt app]. eexists. split; [reflexivity|]. cbn [tt_size tt_rows]. split; [reflexivity|].
  split; [unfold tt_nrows; cbn; destruct (tt_size t1); [contradiction|reflexivity]|]. eapply msort_spec; eauto.
Qed.
Print Assumptions C31_merge.
Example C31_merge_case : sorted_rows [[1; 2]; [1; 2]; [4; 0]] /\ sorted_rows [[1; 2]; [3; 9]; [4; 0]] /\
  option_map tt_rows (tt_merge (two [[1; 2]; [1; 2]; [4; 0]]) (two [[1; 2]; [3; 9]; [4; 0]])) = Some [[1; 2]; [1; 2]; [3; 9]; [4; 0]].
Proof. split; [|split]; [repeat constructor; cbn; intuition lia|repeat constructor; cbn; intuition lia|reflexivity]. Qed.

(** ** retain *)

(** Whatever the tables: no row is invented, and no row that the other table lacks is lost. *)
Theorem C31_retain_partial : forall t1 t2 n, Forall (fun r => length r = n) (tt_rows t1) -> Forall (fun r => length r = n) (tt_rows t2) ->
  exists t, tt_retain t1 t2 = Some t /\
    (forall r, In r (tt_rows t) -> In r (tt_rows t1)) /\
    (forall r, In r (tt_rows t1) -> ~ In r (tt_rows t2) -> In r (tt_rows t)).
Proof.
  intros t1 t2 n W1 W2. unfold tt_retain. destruct (retain_ok n (tt_rows t2) (S (length (tt_rows t1) + length (tt_rows t2))) (tt_rows t1) (tt_rows t2) None None None []) as (res & E & A & B & C); [lia|exact W1|exact W2|constructor|now left|auto|discriminate|].
  rewrite E. eexists. split; [reflexivity|]. cbn [tt_rows]. split; [intros r Hr; apply B in Hr as [[]|Hr]; exact Hr|]. intros r Hr Hn. destruct (C r Hr); tauto.
Qed.
Print Assumptions C31_retain_partial.

(** Of sorted tables: a row that comes before the last row of both is kept only if the other table
    lacks it. *)
Theorem C31_retain_inner_partial : forall t1 t2 n z1 z2, Forall (fun r => length r = n) (tt_rows t1) -> Forall (fun r => length r = n) (tt_rows t2) ->
  sorted_rows (tt_rows t1) -> sorted_rows (tt_rows t2) -> length z1 = n -> length z2 = n -> last (tt_rows t1) z1 = z1 -> last (tt_rows t2) z2 = z2 ->
  forall t, tt_retain t1 t2 = Some t -> forall r, row_le r z1 -> r <> z1 -> row_le r z2 -> r <> z2 -> length r = n -> In r (tt_rows t) -> ~ In r (tt_rows t2).
Proof.
  intros t1 t2 n z1 z2 W1 W2 S1 S2 L1 L2 E1 E2 t. unfold tt_retain. destruct (retain_loop _ _ _ _ _ _ _) as [res|] eqn:E; [|discriminate]. intros H. injection H as <-. cbn [tt_rows]. intros r H1 N1 H2 N2 Lr Hin.
  refine (retain_inner n (tt_rows t2) z1 z2 W2 S2 E2 L1 L2 _ _ _ None None None [] [] W1 _ S1 _ E1 _ _ res E r Hin _ _); cbn; try (now constructor); try tauto.
  - apply le_neq; [congruence|exact H1|]. intros EE. apply cmp_eq in EE; congruence.
  - apply le_neq; [congruence|exact H2|]. intros EE. apply cmp_eq in EE; congruence.
Qed.
Print Assumptions C31_retain_inner_partial.
Example C31_retain_case : sorted_rows [[1; 1]; [2; 2]; [2; 2]; [9; 9]] /\ sorted_rows [[2; 2]; [8; 8]; [9; 0]] /\
  option_map tt_rows (tt_retain (two [[1; 1]; [2; 2]; [2; 2]; [9; 9]]) (two [[2; 2]; [8; 8]; [9; 0]])) = Some [[1; 1]; [9; 9]].
Proof. split; [|split]; [repeat constructor; cbn; intuition lia|repeat constructor; cbn; intuition lia|reflexivity]. Qed.

(** The last row of either table is not compared: a row of both tables can be kept. *)
Theorem C31_retain_refuted :
  (exists t1 t2 t r, sorted_rows (tt_rows t1) /\ sorted_rows (tt_rows t2) /\ tt_retain t1 t2 = Some t /\ In r (tt_rows t) /\ In r (tt_rows t2) /\ last (tt_rows t2) [] = r) /\
  (exists t1 t2 t r, sorted_rows (tt_rows t1) /\ sorted_rows (tt_rows t2) /\ tt_retain t1 t2 = Some t /\ In r (tt_rows t) /\ In r (tt_rows t2) /\ last (tt_rows t2) [] <> r).
Proof.
  split.
  - exists (two [[1; 1]; [2; 2]]), (two [[2; 2]]). eexists. exists [2; 2]. split; [repeat constructor; cbn; intuition lia|]. split; [repeat constructor|]. split; [reflexivity|]. cbn. auto.
  - exists (two [[5; 5]]), (two [[3; 3]; [5; 5]; [6; 6]]). eexists. exists [5; 5]. split; [repeat constructor|]. split; [repeat constructor; cbn; intuition lia|]. split; [reflexivity|]. cbn. split; [auto|]. split; [auto|]. discriminate.
Qed.
Print Assumptions C31_retain_refuted.

(** The tables that merge and retain return say that they are empty. *)
Theorem C31_empty_refuted : exists t1 t2 m r, tt_merge t1 t2 = Some m /\ tt_empty m = true /\ tt_nrows m <> O /\ tt_retain t1 t2 = Some r /\ tt_empty r = true /\ tt_nrows r <> O.
Proof. exists (two [[1; 1]]), (two [[2; 2]]). do 2 eexists. cbn. repeat split; discriminate. Qed.
Print Assumptions C31_empty_refuted.

(** ** Joins *)

(** Of tables that are sorted on the variables they share: the natural join, each row as often as
    in it and in its order; with no shared variable, which leaves no condition on the order, the
    product. *)
Theorem C31_join : forall srt t1 t2, table_ok t1 -> table_ok t2 ->
  let s1 := tt_sig t1 in let s2 := tt_sig t2 in
  (length (common s1 s2) <= 8)%nat -> sorted_on s1 (common s1 s2) (tt_rows t1) -> sorted_on s2 (common s1 s2) (tt_rows t2) ->
  tt_join srt t1 t2 = Some (mkTuples (length (join_sig s1 s2)) (join_sig s1 s2) (natural_join s1 s2 (tt_rows t1) (tt_rows t2))
                                     (empty_of (natural_join s1 s2 (tt_rows t1) (tt_rows t2)))).
Proof. intros srt t1 t2 T1 T2 s1 s2 H8 S1 S2. destruct (join_sorted srt t1 t2 T1 T2 H8 S1 S2) as (l & E & ->). exact E. Qed.
Print Assumptions C31_join.

Lemma perm_filter {A} (p : A -> bool) l l' : Permutation l l' -> Permutation (filter p l) (filter p l').
Proof. induction 1; cbn; auto; [destruct (p x); auto|destruct (p x), (p y); auto; apply perm_swap|eapply perm_trans; eauto]. Qed.
Lemma natural_perm s1 s2 l1 l2 m1 m2 : Permutation l1 m1 -> Permutation l2 m2 -> Permutation (natural_join s1 s2 l1 l2) (natural_join s1 s2 m1 m2).
Proof.
  intros H1 H2. unfold natural_join. transitivity (flat_map (fun r1 => map (fun r2 => r1 ++ extra s1 s2 r2) (filter (compatible s1 s2 r1) l2)) m1); [now apply Permutation_flat_map|].
  clear H1 l1. induction m1 as [|x m IH]; cbn; auto. apply Permutation_app; auto. apply Permutation_map, perm_filter, H2.
Qed.

(** A table sorted by sortBy on the columns that getPosJoins names is a table sorted on the shared
    variables; so sorting first gives the join of any two tables. *)
Theorem C31_sort_join : forall srt t1 t2 u1 u2, sorts srt -> table_ok t1 -> table_ok t2 ->
  let s1 := tt_sig t1 in let s2 := tt_sig t2 in
  tt_sortBy srt (map fst (tt_posJoins s1 s2)) t1 = Some u1 -> tt_sortBy srt (map snd (tt_posJoins s1 s2)) t2 = Some u2 ->
  exists t, tt_join srt u1 u2 = Some t /\ tt_sig t = join_sig s1 s2 /\ Permutation (tt_rows t) (natural_join s1 s2 (tt_rows t1) (tt_rows t2)).
Proof.
  intros srt t1 t2 u1 u2 HS T1 T2 s1 s2 E1 E2. assert (HL : (length (tt_posJoins s1 s2) <= 8)%nat). { unfold tt_sortBy in E1. rewrite map_length in E1. destruct (Nat.ltb_spec 8 (length (tt_posJoins s1 s2))); [discriminate|lia]. }
  destruct T1 as (Z1 & N1 & D1 & W1), T2 as (Z2 & N2 & D2 & W2). fold s1 in Z1, N1, D1, W1. fold s2 in Z2, N2, D2, W2.
  destruct (sort_ok srt (map fst (tt_posJoins s1 s2)) t1 u1 HS) as (A1 & A2 & A3 & A4 & A5); [rewrite Z1; destruct s1; [contradiction|discriminate]|exact E1|].
  destruct (sort_ok srt (map snd (tt_posJoins s1 s2)) t2 u2 HS) as (B1 & B2 & B3 & B4 & B5); [rewrite Z2; destruct s2; [contradiction|discriminate]|exact E2|]. fold s1 in A2. fold s2 in B2.
  assert (V1 : Forall (fun r => length r = length s1) (tt_rows u1)) by (rewrite Forall_forall in *; intros x Hx; apply W1; eapply Permutation_in; eauto).
  assert (V2 : Forall (fun r => length r = length s2) (tt_rows u2)) by (rewrite Forall_forall in *; intros x Hx; apply W2; eapply Permutation_in; eauto).
  assert (U1 : table_ok u1) by (unfold table_ok; rewrite A1, A2; auto). assert (U2 : table_ok u2) by (unfold table_ok; rewrite B1, B2; auto).
  eexists. split; [apply C31_join; auto; rewrite A2, B2|].
  - rewrite <- posjoins_len; auto.
  - eapply by_keys; [|exact A5]. intros r Hr. cbn beta. fold (values s1 (common s1 s2) r). rewrite <- keys_f; auto; [unfold kf; now rewrite map_map|]. rewrite Forall_forall in V1. auto.
  - eapply by_keys; [|exact B5]. intros r Hr. cbn beta. fold (values s2 (common s1 s2) r). rewrite <- keys_s; auto; [unfold ks; now rewrite map_map|]. rewrite Forall_forall in V2. auto.
  - cbn [tt_sig tt_rows]. rewrite A2, B2. split; [reflexivity|]. now apply natural_perm.
Qed.
Print Assumptions C31_sort_join.

(** Of tables in any order: nothing but rows of the natural join. *)
Theorem C31_join_partial : forall srt t1 t2, table_ok t1 -> table_ok t2 ->
  let s1 := tt_sig t1 in let s2 := tt_sig t2 in (length (common s1 s2) <= 8)%nat ->
  exists t, tt_join srt t1 t2 = Some t /\ tt_sig t = join_sig s1 s2 /\ forall r, In r (tt_rows t) -> In r (natural_join s1 s2 (tt_rows t1) (tt_rows t2)).
Proof. intros srt t1 t2 T1 T2 s1 s2 H8. destruct (join_sound srt t1 t2 T1 T2 H8) as (l & E & H). eexists. split; [exact E|]. auto. Qed.
Print Assumptions C31_join_partial.

Definition ja : tuples := mkTuples 2 [1; 2] [[1; 10]; [1; 11]; [2; 12]; [4; 13]] false.
Definition jb : tuples := mkTuples 2 [3; 1] [[30; 1]; [31; 1]; [32; 3]; [33; 4]] false.
Example C31_join_case : table_ok ja /\ table_ok jb /\ (length (common (tt_sig ja) (tt_sig jb)) <= 8)%nat /\ common (tt_sig ja) (tt_sig jb) = [1] /\
  sorted_on (tt_sig ja) (common (tt_sig ja) (tt_sig jb)) (tt_rows ja) /\ sorted_on (tt_sig jb) (common (tt_sig ja) (tt_sig jb)) (tt_rows jb) /\
  option_map tt_rows (tt_join isort ja jb) = Some [[1; 10; 30]; [1; 10; 31]; [1; 11; 30]; [1; 11; 31]; [4; 13; 33]].
Proof.
  assert (D : forall a b : Z, a <> b -> NoDup [a; b]) by (intros a b H; constructor; [intros [E|[]]; auto|constructor; [intros []|constructor]]).
  repeat split; try reflexivity; try discriminate; try (apply D; discriminate); try (repeat constructor; fail); cbn; try lia; repeat constructor; cbn; intuition lia.
Qed.
Lemma isort_sorts : sorts isort.
Proof.
  intros f l. split.
  - induction l as [|x l IH]; cbn; [auto|]. rewrite ins_perm. auto.
  - intros Ha Ht. induction l as [|x l IH]; [constructor|]. change (isort f (x :: l)) with (ins f x (isort f l)). set (m := isort f l) in *. clearbody m. clear l.
    induction m as [|y m IHm]; cbn; [repeat constructor|]. apply StronglySorted_inv in IH as [IH HF]. destruct (f y x) eqn:E.
    + constructor; [auto|]. rewrite Forall_forall in *. intros z Hz. apply (Permutation_in _ (ins_perm f x m)) in Hz as [<- |Hz]; [now apply Ha|auto].
    + constructor; [constructor; auto|]. constructor; [exact E|]. rewrite Forall_forall in *. intros z Hz. apply (Ht x y z); auto.
Qed.
Example C31_sort_join_case : sorts isort /\
  exists u1 u2, tt_sortBy isort (map fst (tt_posJoins [1; 2] [3; 1])) (two [[2; 5]; [1; 6]]) = Some u1 /\
    tt_sortBy isort (map snd (tt_posJoins [1; 2] [3; 1])) (mkTuples 2 [3; 1] [[7; 2]; [8; 1]] false) = Some u2 /\ option_map tt_rows (tt_join isort u1 u2) = Some [[1; 6; 8]; [2; 5; 7]].
Proof. split; [apply isort_sorts|]. do 2 eexists. split; [reflexivity|]. split; [reflexivity|]. reflexivity. Qed.

(** Joins of tables that are not sorted lose rows: the sorted copies are made, but not used. *)
Theorem C31_join_refuted : exists t1 t2 t r, table_ok t1 /\ table_ok t2 /\ tt_join isort t1 t2 = Some t /\
  In r (natural_join (tt_sig t1) (tt_sig t2) (tt_rows t1) (tt_rows t2)) /\ ~ In r (tt_rows t).
Proof.
  exists (two [[2; 5]; [1; 6]]), (mkTuples 2 [3; 1] [[8; 1]; [7; 2]] false). eexists. exists [1; 6; 8].
  assert (D : forall a b : Z, a <> b -> NoDup [a; b]) by (intros a b H; constructor; [intros [E|[]]; auto|constructor; [intros []|constructor]]).
  split; [repeat split; [discriminate|apply D; discriminate|repeat constructor]|]. split; [repeat split; [discriminate|apply D; discriminate|repeat constructor]|].
  split; [reflexivity|]. split; [cbn; auto|]. cbn. intuition discriminate.
Qed.
Print Assumptions C31_join_refuted.
(** A signature in which a variable occurs twice: a variable of the second table gets lost. *)
Theorem C31_join_twice_refuted : exists t1 t2 t, tt_sig t1 = [1; 1] /\ tt_sig t2 = [1; 2] /\ tt_rows t1 = [[4; 4]] /\ tt_rows t2 = [[4; 5]] /\
  tt_join isort t1 t2 = Some t /\ tt_sig t = [1; 1] /\ tt_rows t = [[4; 4]].
Proof. exists (mkTuples 2 [1; 1] [[4; 4]] false), (two [[4; 5]]). eexists. repeat split; reflexivity. Qed.
Print Assumptions C31_join_twice_refuted.

(** joinHitRates counts the rows of the join; with no shared variable it does not set the count. *)
Theorem C31_hits : forall srt t1 t2, table_ok t1 -> table_ok t2 ->
  let s1 := tt_sig t1 in let s2 := tt_sig t2 in
  (length (common s1 s2) <= 8)%nat -> common s1 s2 <> [] -> sorted_on s1 (common s1 s2) (tt_rows t1) -> sorted_on s2 (common s1 s2) (tt_rows t2) ->
  tt_hits srt t1 t2 = Some (Some (Z.of_nat (length (natural_join s1 s2 (tt_rows t1) (tt_rows t2))))).
Proof. intros srt t1 t2 T1 T2 s1 s2 H8 HC S1 S2. now apply hits_sorted. Qed.
Print Assumptions C31_hits.
Example C31_hits_case : tt_hits isort ja jb = Some (Some 5). Proof. reflexivity. Qed.
Theorem C31_hits_refuted : exists t1 t2, table_ok t1 /\ table_ok t2 /\ natural_join (tt_sig t1) (tt_sig t2) (tt_rows t1) (tt_rows t2) <> [] /\ tt_hits isort t1 t2 = Some None.
Proof.
  exists (mkTuples 1 [1] [[5]] false), (mkTuples 1 [2] [[6]] false). split; [|split; [|split; [discriminate|reflexivity]]]; repeat split; try discriminate; repeat constructor; intros [].
Qed.
Print Assumptions C31_hits_refuted.

(** sortBy: the same rows, sorted on the fields; more than eight fields throw. *)
Theorem C31_sort : forall srt fields t, sorts srt -> tt_size t <> O -> (length fields <= 8)%nat ->
  exists s, tt_sortBy srt fields t = Some s /\ tt_size s = tt_size t /\ tt_sig s = tt_sig t /\ Permutation (tt_rows s) (tt_rows t) /\ tt_empty s = empty_of (tt_rows s) /\
    StronglySorted (fun a b => row_le (map (fun f => nth f a 0) fields) (map (fun f => nth f b 0) fields)) (tt_rows s).
Proof. intros srt fields t HS HZ H8. destruct (sort_some srt fields t H8 HZ) as [s E]. exists s. split; [exact E|]. exact (sort_ok srt fields t s HS HZ E). Qed.
Print Assumptions C31_sort.
Example C31_sort_case : option_map tt_rows (tt_sortBy isort [1%nat] (two [[1; 9]; [2; 3]; [0; 4]])) = Some [[2; 3]; [0; 4]; [1; 9]].
Proof. reflexivity. Qed.

(** ** Dense and sparse rows *)

(** The two tables have together the rows of the table; of a table without rows there are none. *)
Theorem C31_dense_sparse_partial : forall srt t1 t2, sorts srt -> tt_size t1 <> O -> (length (tt_posJoins (tt_sig t1) (tt_sig t2)) <= 8)%nat ->
  match tt_rows t1 with
  | [] => tt_denseSparse srt t1 t2 = None
  | _ => exists d s, tt_denseSparse srt t1 t2 = Some (d, s) /\ tt_sig d = tt_sig t1 /\ tt_sig s = tt_sig t1 /\ Permutation (tt_rows d ++ tt_rows s) (tt_rows t1)
  end.
Proof.
  intros srt t1 t2 HS HZ H8. unfold tt_denseSparse. destruct (sort_some srt (map fst (tt_posJoins (tt_sig t1) (tt_sig t2))) t1) as [s E]; [now rewrite map_length|exact HZ|]. rewrite E.
  destruct (sort_ok srt _ t1 s HS HZ E) as (_ & _ & HP & _ & _). pose proof (Permutation_length HP) as HL.
  destruct (tt_rows t1) as [|x0 l0] eqn:E1; [destruct (tt_rows s); [reflexivity|discriminate]|]. destruct (tt_rows s) as [|x l] eqn:E2; [discriminate|].
  destruct (split_groups _ _ _ _ _) as [d p] eqn:EG. rewrite !adds_ok' by auto. do 2 eexists. split; [reflexivity|]. cbn [tt_sig tt_rows]. split; [reflexivity|]. split; [reflexivity|].
  apply split_perm in EG; [exact EG|]. rewrite group_sum. cbn [length] in *. lia.
Qed.
Print Assumptions C31_dense_sparse_partial.
Example C31_dense_sparse_case : option_map (fun ds => (tt_rows (fst ds), tt_rows (snd ds))) (tt_denseSparse isort (two [[1; 4]; [1; 5]; [1; 6]; [2; 7]; [3; 8]]) jb) = Some ([[1; 4]; [1; 5]; [1; 6]], [[2; 7]; [3; 8]]).
Proof. reflexivity. Qed.
(** Of a table sorted on the shared variables: the rows whose values there are those of more rows
    than the square root of all are dense, the others sparse. *)
Theorem C31_dense_sparse : forall srt t1 t2 d s, sorts srt -> table_ok t1 -> table_ok t2 ->
  let vars := common (tt_sig t1) (tt_sig t2) in let key := values (tt_sig t1) vars in
  (length vars <= 8)%nat -> sorted_on (tt_sig t1) vars (tt_rows t1) -> tt_denseSparse srt t1 t2 = Some (d, s) ->
  let n := length (tt_rows t1) in let freq := fun r => length (filter (fun x => if list_eq_dec Z.eq_dec (key x) (key r) then true else false) (tt_rows t1)) in
  Permutation (tt_rows d ++ tt_rows s) (tt_rows t1) /\ (forall r, In r (tt_rows d) -> (n < freq r * freq r)%nat) /\ (forall r, In r (tt_rows s) -> (freq r * freq r <= n)%nat).
Proof.
  intros srt t1 t2 d s HS T1 T2 vars key H8 HO E n freq. destruct T1 as (Z1 & N1 & D1 & W1), T2 as (Z2 & N2 & D2 & W2).
  assert (HZ : tt_size t1 <> O) by (rewrite Z1; destruct (tt_sig t1); [contradiction|discriminate]).
  assert (HL : (length (tt_posJoins (tt_sig t1) (tt_sig t2)) <= 8)%nat) by (rewrite posjoins_len; auto).
  assert (HP : Permutation (tt_rows d ++ tt_rows s) (tt_rows t1)). { pose proof (C31_dense_sparse_partial srt t1 t2 HS HZ HL) as H. rewrite E in H. destruct (tt_rows t1); [discriminate|]. destruct H as (d' & s' & E' & _ & _ & H). injection E' as <- <-. exact H. }
  split; [exact HP|]. set (fields := map fst (tt_posJoins (tt_sig t1) (tt_sig t2))) in *.
  assert (HK : forall r, In r (tt_rows t1) -> kk fields r = key r). { intros r Hr. unfold key, vars. rewrite <- keys_f; auto; [unfold kk, fields, kf; now rewrite map_map|]. rewrite Forall_forall in W1. auto. }
  assert (HF : forall r, In r (tt_rows t1) -> alike fields r (tt_rows t1) = freq r). { intros r Hr. unfold alike, freq. f_equal. apply filter_ext_in. intros x Hx. unfold keqb. rewrite !HK by auto. destruct (keq_dec _ _), (list_eq_dec Z.eq_dec _ _); tauto. }
  assert (S1 : sby (kk fields) (tt_rows t1)) by (eapply by_keys; [|exact HO]; exact HK).
  unfold tt_denseSparse in E. fold fields in E. destruct (sort_some srt fields t1) as [u Eu]; [unfold fields; now rewrite map_length|exact HZ|]. rewrite Eu in E.
  destruct (sort_ok srt _ t1 u HS HZ Eu) as (_ & _ & HPu & _ & S2). change (sby (kk fields) (tt_rows u)) in S2. pose proof (sorted_keys_eq fields _ _ S2 S1 HPu) as EK. pose proof (Permutation_length HPu) as EL.
  destruct (tt_rows u) as [|x l] eqn:E2; [discriminate|]. destruct (tt_rows t1) as [|x0 l0] eqn:E1; [discriminate|]. cbn [map] in EK. injection EK as EK1 EK2.
  rewrite (group_ext fields l l0 x x0) in E by auto. destruct (split_groups _ _ _ _ _) as [d' s'] eqn:EG. rewrite !adds_ok' in E by auto. injection E as <- <-. cbn [tt_rows] in *.
  rewrite EL in EG. change (x0 :: l0) with ([x0] ++ l0) in EG at 2. destruct (split_alike (length (x0 :: l0)) fields l0 x0 [x0] d' s') as [HD HSp]; [constructor; auto|exact S1|exact EG|]. cbn [app] in HD, HSp.
  split; intros r Hr; rewrite <- HF; auto; apply (Permutation_in _ HP), in_or_app; auto.
Qed.
Print Assumptions C31_dense_sparse.
(** In a table that is not sorted the groups are cut elsewhere: a row can be put with those that
    are frequent although it is the only one of its kind. *)
Theorem C31_dense_sparse_refuted : exists t1 t2 d s, table_ok t1 /\ table_ok t2 /\ tt_denseSparse isort t1 t2 = Some (d, s) /\ In [3; 8] (tt_rows d) /\
  filter (fun r => nth 0 r 0 =? 3) (tt_rows t1) = [[3; 8]].
Proof.
  exists (two [[3; 8]; [1; 4]; [1; 5]; [1; 6]; [2; 7]]), jb. do 2 eexists.
  assert (D : forall a b : Z, a <> b -> NoDup [a; b]) by (intros a b H; constructor; [intros [E|[]]; auto|constructor; [intros []|constructor]]).
  split; [repeat split; [discriminate|apply D; discriminate|repeat constructor]|]. split; [repeat split; [discriminate|apply D; discriminate|repeat constructor]|]. split; [reflexivity|]. cbn. auto.
Qed.
Print Assumptions C31_dense_sparse_refuted.

(** ** The iterator *)

(** A walk delivers all rows in their order (here their first [w] columns), each with count 1. *)
Theorem C31_walk : forall t w cnt, tt_size t <> O -> Forall (fun r => length r = tt_size t) (tt_rows t) -> Z.of_nat (length (tt_rows t)) < 2 ^ 32 -> (w <= tt_size t)%nat ->
  ti_walk (S (length (tt_rows t))) w cnt t ti_new = Some (map (fun r => (firstn w r, if cnt then 1 else 0)) (tt_rows t)).
Proof. intros t w cnt HZ W HN Hw. rewrite (walk_plain t W HZ HN w cnt Hw _ 0%nat); auto; lia. Qed.
Print Assumptions C31_walk.
(** A walk that skips the last column delivers the groups of neighbours that agree on the first two
    columns, with the number of rows of each if it is asked for. *)
Theorem C31_walk_skip : forall t w cnt, (2 <= tt_size t)%nat -> Forall (fun r => length r = tt_size t) (tt_rows t) -> Z.of_nat (length (tt_rows t)) < 2 ^ 32 -> (w <= tt_size t)%nat ->
  exists gs, grouped gs (tt_rows t) /\
    ti_walk (S (length (tt_rows t))) w cnt t (ti_skipLast ti_new) = Some (map (fun g => (firstn w (hd [] g), if cnt then Z.of_nat (length g) else 0)) gs).
Proof.
  intros t w cnt H2 W HN Hw. apply (walk_skip t W ltac:(lia) HN H2 w cnt Hw _ 0%nat); [lia|lia|]. split; [reflexivity|]. unfold ti_hasNext. cbn [ti_skipLast ti_new ti_counter ti_skip ti_hnc ti_hn ti_next].
  replace (tt_size t) with (S (pred (tt_size t))) by lia. cbn [andb negb Z.eqb]. rewrite nrows_N by (auto; lia). eexists. split; [reflexivity|]. auto.
Qed.
Print Assumptions C31_walk_skip.
Definition three : tuples := mkTuples 3 [] [[1; 2; 3]; [1; 2; 4]; [1; 3; 3]; [2; 3; 3]; [2; 3; 5]] false.
Example C31_walk_case : ti_walk 6 3 true three ti_new = Some [([1; 2; 3], 1); ([1; 2; 4], 1); ([1; 3; 3], 1); ([2; 3; 3], 1); ([2; 3; 5], 1)] /\
  ti_walk 6 2 true three (ti_skipLast ti_new) = Some [([1; 2], 2); ([1; 3], 1); ([2; 3], 2)].
Proof. split; reflexivity. Qed.
(** A table without columns has one row or none. *)
Theorem C31_walk_zero : forall t cnt, tt_size t = O -> ti_walk 2 0 cnt t ti_new = Some (if tt_empty t then [] else [([], if cnt then 1 else 0)]).
Proof. intros t cnt H. cbn. unfold ti_hasNext. rewrite H. cbn. destruct (tt_empty t); [reflexivity|]. cbn. destruct cnt; cbn; rewrite ?H; reflexivity. Qed.
Print Assumptions C31_walk_zero.
