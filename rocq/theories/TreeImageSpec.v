(** What a tree on disk is, and the nodes that insertions make. *)
From Coq Require Import Sorting.Sorted.
From Verif Require Export TreeImageModel TreeSpec TableSpec.
Local Open Scope Z_scope.

(** A node that insertions, splits and removals (at both ends, as the tree does) have made,
    and its keys. *)
Inductive made : kn -> list Z -> Prop :=
| made_new : made kn_new []
| made_put n ks k p : made n ks -> (p <= length ks)%nat -> increasing (firstn p ks ++ k :: skipn p ks) ->
    made (kn_put n k p) (firstn p ks ++ k :: skipn p ks)
| made_left n ks mn : made n ks -> (1 <= mn)%nat -> length ks = (mn + mn)%nat ->
    made (fst (kn_split (mn + mn) n kn_new)) (firstn mn ks)
| made_right n ks mn : made n ks -> (1 <= mn)%nat -> length ks = (mn + mn)%nat ->
    made (snd (kn_split (mn + mn) n kn_new)) (skipn mn ks)
| made_noLast n ks x : made n (ks ++ [x]) -> made (kn_removeLast n) ks
| made_noFirst n ks x : made n (x :: ks) -> made (kn_removeFirst n) ks.

(** [ks] is a, a + d, a + 2d, ... *)
Definition constant_step (d : Z) (ks : list Z) : Prop :=
  exists a, ks = map (fun i => a + Z.of_nat i * d) (seq 0 (length ks)).

(** The place of a key: its index, or -i-1 where i keys are smaller. *)
Definition place (k : Z) (ks : list Z) : Z :=
  let i := Z.of_nat (length (filter (fun x => x <? k) ks)) in
  if existsb (Z.eqb k) ks then i else - i - 1.

(** Coordinates that fit in their fields. *)
Definition fits_fields (c : coord) : Prop :=
  0 <= co_n c < 2 ^ 63 /\ 0 <= co_file c < 2 ^ 16 /\ 0 <= co_pos c < 2 ^ 63 /\ 0 <= co_strat c < 256.

(** The list that a leaf keeps for [u]. *)
Definition coords (u : tc) : list (nat * coord) :=
  flat_map (fun i => match u i with Some c => [(i, c)] | None => [] end) (seq 0 6).

(** The disk holds the tree [t], its root under [id].  [image] writes a leaf. *)
Fixpoint stored {V} (image : kn -> list V -> option (list Z)) (d : disk) (t : tree V) (id : Z) : Prop :=
  match t with
  | Leaf n vs => exists b m, image n vs = Some b /\ d id = Some (false, m) /\ contains m 0 b
  | Inter n cs => exists ids m,
      d id = Some (true, m) /\ contains m 0 (kn_image n ++ flat_map (enc 8) ids) /\
      (fix go (cs : list (tree V)) (ids : list Z) : Prop :=
         match cs, ids with
         | [], [] => True
         | c :: cs, i :: ids => 0 <= i < 2 ^ 63 /\ stored image d c i /\ go cs ids
         | _, _ => False
         end) cs ids
  end.

(** No node of the tree is written with a step that does not fit a signed char. *)
Fixpoint small_steps {V} (t : tree V) : Prop :=
  match t with
  | Leaf n _ => (1 < kn_size n)%nat -> kn_imageStep n < 128
  | Inter n cs => ((1 < kn_size n)%nat -> kn_imageStep n < 128) /\
      (fix go (cs : list (tree V)) : Prop := match cs with [] => True | c :: cs => small_steps c /\ go cs end) cs
  end.
