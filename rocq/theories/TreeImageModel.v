(** The images of tree nodes on disk, src/trident/tree/node.cpp and leaf.cpp.

    Utils::encode_vlong (kognac) is modelled by the same 7-bit groups as
    Utils::encode_vlong2. *)
From Verif Require Export TreeModel.
Local Open Scope Z_scope.

(** node.cpp 152-157: all differences equal to the first one. *)
Fixpoint same_steps (step prev : Z) (l : list Z) : bool :=
  match l with
  | [] => true
  | x :: r => (x - prev =? step) && same_steps step x r
  end.

(** node.cpp 138-159: the step that is written. *)
Definition kn_imageStep (n : kn) : Z :=
  let s := Z.of_nat (kn_size n) in
  let k0 := kn_at n 0 in
  let kl := kn_at n (s - 2) in
  if kn_cons n || ((k0 =? 1) && (kl =? s - 1)) then 1
  else if (0 <? k0) && (k0 <? 256) && (Z.rem kl k0 =? 0) && (Z.quot kl k0 =? s - 1)
          && same_steps k0 k0 (skipn 1 (firstn (kn_size n - 1) (kn_keys n))) then k0
  else 0.

(** node.cpp 131-178, Node::serialize with numeric keys. *)
Definition kn_image (n : kn) : list Z :=
  enc 4 (Z.of_nat (kn_size n)) ++
  (if (0 <? kn_size n)%nat then
     enc 8 (kn_first n) ++
     (if (1 <? kn_size n)%nat then
        kn_imageStep n ::
        (if kn_imageStep n =? 0 then flat_map enc_vlong2 (firstn (kn_size n - 1) (kn_keys n)) else [])
      else [])
   else []).

(** node.cpp 120-122. *)
Fixpoint kn_loadKeys (m : mem) (k : nat) (p : Z) : option (list Z * Z) :=
  match k with
  | O => Some ([], p)
  | S k => do (x, p) <- dec_vlong2 m p; do (r, p) <- kn_loadKeys m k p; Some (x :: r, p)
  end.

(** node.cpp 94-129, Node::unserialize with numeric keys; [old] is the node object that is
    filled, new or used before.  The step is a signed char (node.cpp 104). *)
Definition kn_load (old : kn) (m : mem) (p : Z) : option (kn * Z) :=
  do s <- rdn 4 m p;
  let p := p + 4 in
  if 0 <? s then
    do f <- rdn 8 m p;
    let p := p + 8 in
    if 1 <? s then
      do b <- getb m p;
      let step := if b <? 128 then b else b - 256 in
      let p := p + 1 in
      if 0 <? step then Some (mkKn f (kn_keys old) true step (Z.to_nat s), p)
      else do (ks, p) <- kn_loadKeys m (Z.to_nat s - 1) p; Some (mkKn f ks false (kn_step old) (Z.to_nat s), p)
    else Some (mkKn f (kn_keys old) (kn_cons old) (kn_step old) (Z.to_nat s), p)
  else Some (mkKn (kn_first old) (kn_keys old) (kn_cons old) (kn_step old) (Z.to_nat s), p).

(** ** Values of a leaf *)
(** Utils::encode_vint2: at most 5 groups of 7 bits. *)
Definition enc_vint2 (v : Z) : list Z := encv 5 v.
Definition dec_vint2 (m : mem) (p : Z) : option (Z * Z) := decv 5 m p.

(** leaf.cpp 234-241: the coordinates of one term, and the bits of their permutations. *)
Definition co_image (c : coord) : list Z :=
  enc_vlong2 (co_n c) ++ enc_vint2 (co_file c) ++ enc_vlong2 (co_pos c) ++ [co_strat c mod 256].
Fixpoint line_image (l : list (nat * coord)) (comb : Z) : list Z * Z :=
  match l with
  | [] => ([], comb)
  | (i, c) :: r => let '(b, comb) := line_image r (Z.lor comb (2 ^ Z.of_nat i)) in (co_image c ++ b, comb)
  end.

(** leaf.cpp 215-245: the three areas; [off] is posValues - posValueOrig.  [None] is
    exit(1). *)
Fixpoint vals_image (vs : list (list (nat * coord))) (off : Z) : option (list Z * list Z * list Z) :=
  match vs with
  | [] => Some ([], [], [])
  | l :: r =>
    if 65535 <? off then None else
    let '(b, comb) := line_image l 0 in
    do (cs, ss, bs) <- vals_image r (off + Z.of_nat (length b));
    Some (comb mod 256 :: cs, enc 2 off ++ ss, b ++ bs)
  end.
(** leaf.cpp 205-251, Leaf::serialize_values.  The two arrays of the leaf are one list. *)
Definition serialize_values (vs : list (list (nat * coord))) : option (list Z) :=
  do (cs, ss, bs) <- vals_image vs 4;
  Some (cs ++ ss ++ enc 4 (4 + Z.of_nat (length bs)) ++ bs).

(** leaf.cpp 645, NCOMBS. *)
Definition NCOMBS : list nat :=
  [0; 1; 1; 2; 1; 2; 2; 3; 1; 2; 2; 3; 2; 3; 3; 4; 1; 2; 2; 3; 2; 3; 3; 4; 2; 3; 3; 4; 3; 4; 4; 5; 1; 2; 2; 3; 2; 3; 3; 4; 2; 3; 3; 4; 3; 4; 4; 5; 2; 3; 3; 4; 3; 4; 4; 5; 3; 4; 4; 5; 4; 5; 5; 6]%nat.

(** leaf.cpp 672-675: skip the permutations that are not there. *)
Fixpoint skip_zeros (fuel : nat) (perms : Z) (idx : nat) : option (Z * nat) :=
  match fuel with
  | O => None
  | S f => if Z.odd perms then Some (perms, idx) else skip_zeros f (perms / 2) (S idx)
  end.
(** leaf.cpp 666-690. *)
Fixpoint parse_loop (m : mem) (k : nat) (perms : Z) (idx : nat) (p : Z) : option (list (nat * coord)) :=
  match k with
  | O => Some []
  | S k =>
    do (n, p) <- dec_vlong2 m p;
    do (f, p) <- dec_vint2 m p;
    do (o, p) <- dec_vlong2 m p;
    do s <- getb m p;
    do (perms, idx) <- skip_zeros 8 perms idx;
    do r <- parse_loop m k (perms / 2) (S idx) (p + 1);
    Some ((idx, mkCoord n s (f mod 65536) o) :: r)
  end.
(** leaf.cpp 650-705, Leaf::parseInternalLine; [raw] is where rawNode points to. *)
Definition parseInternalLine (m : mem) (raw : Z) (size : nat) (i : nat) : option (list (nat * coord)) :=
  do perms <- getb m (raw + Z.of_nat i);
  do s <- rdn 2 m (raw + Z.of_nat size + Z.of_nat i * 2);
  do k <- nth_error NCOMBS (Z.to_nat perms);
  parse_loop m k perms 0 (raw + s + Z.of_nat size * 3).

(** leaf.cpp 198-203 and 146-149: values that are numbers. *)
Definition serialize_numberlist (vs : list Z) : list Z := flat_map enc_vlong2 vs.
Definition unserialize_numberlist (m : mem) (size : nat) (p : Z) : option (list Z * Z) := kn_loadKeys m size p.

(** leaf.cpp 253-267 and 179-196: a leaf with numbers as values, and the image of an
    intermediate node's keys is the same as that of a leaf (intermediatenode.cpp). *)
Definition leaf_image_num (n : kn) (vs : list Z) : list Z := kn_image n ++ serialize_numberlist vs.
Definition leaf_load_num (old : kn) (m : mem) (p : Z) : option (kn * list Z) :=
  do (n, p) <- kn_load old m p; do (vs, _) <- unserialize_numberlist m (kn_size n) p; Some (n, vs).
Definition leaf_image_tc (n : kn) (vs : list (list (nat * coord))) : option (list Z) :=
  do b <- serialize_values vs; Some (kn_image n ++ b).
Definition leaf_load_tc (old : kn) (m : mem) (p : Z) : option (kn * list (list (nat * coord))) :=
  do (n, p) <- kn_load old m p;
  do vs <- (fix go (l : list nat) := match l with
            | [] => Some []
            | i :: l => do v <- parseInternalLine m p (kn_size n) i; do r <- go l; Some (v :: r)
            end) (seq 0 (kn_size n));
  Some (n, vs).

(** ** A tree on disk.
    What the node manager returns for a node: whether the node has children, and its bytes
    (cache.cpp 48-51; LZ4 compression, cache.cpp 60-66, is not modelled).  *)
Definition disk := Z -> option (bool * mem).

(** cache.cpp 48-71, intermediatenode.cpp 58-73, 91-98, 394-409 and root.cpp 105-122: get of a
    tree whose nodes are all on disk.  Intermediate nodes are new objects; [olds] says in which
    state the leaf object is that the factory returns for a node. *)
Fixpoint disk_get {V} (load : kn -> mem -> Z -> option (kn * list V)) (d : disk) (olds : Z -> kn)
    (fuel : nat) (id key : Z) : option (option V) :=
  match fuel with
  | O => None
  | S f =>
    do (children, m) <- d id;
    if children : bool then
      do (n, p) <- kn_load kn_new m 0;
      do c <- rdn 8 m (p + 8 * Z.of_nat (kn_child n key));
      disk_get load d olds f c key
    else
      do (n, vs) <- load (olds id) m 0;
      leaf_get n vs key
  end.
