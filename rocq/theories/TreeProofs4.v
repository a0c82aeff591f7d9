(** Proofs about the term coordinates of a leaf. *)
From Coq Require Import Sorting.Sorted ZifyBool.
From Verif Require Export TreeSpec TreeProofs3.
Local Open Scope Z_scope.

(** The list of the coordinates of [u], in the order of the permutations. *)
Definition list_of (u : tc) : list (nat * coord) :=
  flat_map (fun i => match u i with Some c => [(i, c)] | None => [] end) (seq 0 6).

Definition merged (u v : tc) : tc := fun j =>
  match v j with
  | Some c => Some c
  | None => if existsb (fun i => match v i with Some _ => true | None => false end) (seq 0 j) then u j else None
  end.

Lemma add_list_of u v : addCoordinates (list_of u) v = list_of (merged u v).
Proof.
  unfold list_of, merged, addCoordinates. cbn [seq flat_map app existsb].
  cbn [add_loop]. unfold add_one.
  destruct (v 0%nat), (v 1%nat), (v 2%nat), (v 3%nat), (v 4%nat), (v 5%nat);
  destruct (u 0%nat), (u 1%nat), (u 2%nat), (u 3%nat), (u 4%nat), (u 5%nat); reflexivity.
Qed.

Lemma tc_of_list u i : (i < 6)%nat -> tc_of (list_of u) i = u i.
Proof.
  intros H. unfold tc_of, list_of. cbn [seq flat_map app].
  do 6 (destruct i as [|i]; [destruct (u 0%nat), (u 1%nat), (u 2%nat), (u 3%nat), (u 4%nat), (u 5%nat); reflexivity|]). lia.
Qed.

Lemma list_of_ext u v : (forall i, (i < 6)%nat -> u i = v i) -> list_of u = list_of v.
Proof. intros H. unfold list_of. cbn [seq flat_map]. rewrite !H by lia. reflexivity. Qed.

Lemma addCoordinates_nil v : addCoordinates [] v = list_of v.
Proof.
  change [] with (list_of (fun _ => None)). rewrite add_list_of. apply list_of_ext. intros i _. unfold merged.
  destruct (v i); auto. now destruct (existsb _ _).
Qed.
