(** Specification of the node store. *)
From Verif Require Export NodeModel.
Local Open Scope Z_scope.

(** The kind and the image given to the last call that wrote node [id]. *)
Fixpoint last_put (id : Z) (es : list nev) : option (bool * list Z) :=
  match es with
  | [] => None
  | e :: t =>
    match last_put id t, e with
    | Some x, _ => Some x
    | None, Put i kind buf size => if i =? id then Some (kind, firstn (Z.to_nat size) buf) else None
    | None, Close _ => None
    end
  end.

(** Calls with images of at least one byte whose sizes are ints. *)
Definition proper (es : list nev) : Prop :=
  forall id kind buf size, In (Put id kind buf size) es -> 1 <= size < 2 ^ 31.
(** A node does not change its kind. *)
Definition steady (es : list nev) : Prop :=
  forall id k1 b1 n1 k2 b2 n2, In (Put id k1 b1 n1) es -> In (Put id k2 b2 n2) es -> k1 = k2.
(** What the parameters of a store are: ints, and a positive maximal file size. *)
Definition params (init minsz maxsz : Z) : Prop := 0 <= init /\ minsz < 2 ^ 31 /\ 1 <= maxsz < 2 ^ 31.

(** The number of bytes all calls may need. *)
Fixpoint needed (minsz : Z) (es : list nev) : Z :=
  match es with
  | [] => 0
  | Put _ _ _ size :: t => Z.max minsz size + 1023 + needed minsz t
  | Close _ :: t => needed minsz t
  end.
Fixpoint puts (es : list nev) : nat :=
  match es with [] => O | Put _ _ _ _ :: t => S (puts t) | Close _ :: t => puts t end.

(** The byte range of a node in its file. *)
Definition covers (c : cnode) (p : Z) : Prop := c_pos c <= p < c_pos c + c_avail c.

(** The ids of the written nodes are 0, 1, ..., n - 1. *)
Definition dense (es : list nev) (n : Z) : Prop :=
  forall id, (exists x, last_put id es = Some x) <-> 0 <= id < n.
