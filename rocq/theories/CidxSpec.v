(** What the cache of ranges promises. *)
From Coq Require Export Permutation Sorted.
From Verif Require Export CidxModel.
Local Open Scope Z_scope.

(** std::sort does what the standard promises. *)
Definition sorts_blocks (srt : list block -> list block) : Prop :=
  forall l, Permutation (srt l) l /\ StronglySorted (fun a b => blt b a = false) (srt l).
(** The pairs that a block points to. *)
Definition content (ps : pairs) (b : block) : pairs := firstn (b_ea b - b_sa b) (skipn (b_sa b) ps).
(** What a block says: its range of keys and its pairs. *)
Definition says (ps : pairs) (b : block) : Z * Z * pairs := (b_sk b, b_ek b, content ps b).
Definition inside (ps : pairs) (b : block) : Prop := (b_sa b <= b_ea b <= length ps)%nat.
(** Ranges of keys in order, without overlaps. *)
Definition ordered (bs : list block) : Prop := StronglySorted (fun a b => b_ek a < b_sk b) bs /\ Forall (fun b => b_sk b <= b_ek b) bs.
Definition apart (x y : Z * Z * pairs) : Prop := snd (fst x) < fst (fst y) \/ snd (fst y) < fst (fst x).

(** A sequence of stored ranges and what it says about a key. *)
Definition stores := list (Z * list block * pairs).
Fixpoint store_all (srt : list block -> list block) (c : cache) (h : stores) : option cache :=
  match h with
  | [] => Some c
  | (k, bs, ps) :: t => do c' <- storeIdx srt c k bs ps; store_all srt c' t
  end.
Definition said (key : Z) (h : stores) : list (Z * Z * pairs) :=
  flat_map (fun x => let '(k, bs, ps) := x in if k =? key then map (says ps) bs else []) h.
Definition stored_key (key : Z) (h : stores) : bool := existsb (fun x => let '(k, _, _) := x in k =? key) h.
