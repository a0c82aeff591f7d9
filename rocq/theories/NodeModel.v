(** The store of the tree nodes: node images in numbered files that grow in the middle, and
    the file that says where they are. *)
From Verif Require Export FileModel.
Local Open Scope Z_scope.

(** include/trident/tree/nodemanager.h 36-46, CachedNode.  The pointers previous and next are
    the order of the list the node is in. *)
Record cnode := mkCn { c_id : Z; c_size : Z; c_avail : Z; c_pos : Z; c_file : nat; c_children : bool }.

(** nodemanager.h 61-84.  [n_chains]: for each element of firstElementsPerFile the nodes that
    are reached from it over next.  [n_open]: lastNodeInserted is not NULL (then it is the last
    node of the last chain).  storedNodes is the set of the nodes of all chains.  [n_last] is
    lastCreatedFile, and also lastFileId of the FileManager, which has the same value.
    [n_fds]: the files that exist; a descriptor that was closed stays as an exact mapping of
    its content. *)
Record nm := mkNm { n_chains : list (list cnode); n_open : bool; n_last : nat; n_fds : nat -> option fd }.

(** nodemanager.cpp 32-85, constructor, on an empty directory.
    Simplification: on a directory with files, a writable store starts in the same way, with no
    node in storedNodes (57-71 only allocate the arrays of the read-only mode). *)
Definition nm_new : nm := mkNm [] false 0 (fun _ => None).

(** The type int; a conversion wraps around. *)
Definition int32 (v : Z) : Z := let r := v mod 2 ^ 32 in if r <? 2 ^ 31 then r else r - 2 ^ 32.
(** Signed overflow is undefined behaviour. *)
Definition chk (v : Z) : option Z := if (- 2 ^ 31 <=? v) && (v <? 2 ^ 31) then Some v else None.

(** filemanager.h 73-127, load_file: a missing file is created (filedescriptor.cpp 75-81).
    Closing other files is the event [Close] below. *)
Definition load (init : Z) (s : nm) (i : nat) : fd :=
  match n_fds s i with Some f => f | None => fd_new init end.

Definition set_fd (s : nm) (i : nat) (f : fd) : nm :=
  mkNm (n_chains s) (n_open s) (n_last s) (upd (n_fds s) i (Some f)).

(** filemanager.h 88-113: load_file closes another file when too many are open (whichever
    it is); filedescriptor.cpp 215-234: a file without content is removed, the others are cut. *)
Definition nm_close (s : nm) (i : nat) : nm :=
  mkNm (n_chains s) (n_open s) (n_last s)
    (match n_fds s i with
     | Some f => fun j => if Nat.eqb j i then (if f_size f =? 0 then None else Some (fd_open (fd_content f))) else n_fds s j
     | None => n_fds s
     end).

(** nodemanager.cpp 130-146, getCachedNode, when the store is writable. *)
Definition find_cn (s : nm) (id : Z) : option cnode :=
  find (fun c => c_id c =? id) (concat (n_chains s)).

Fixpoint mapo {A B} (f : A -> option B) (l : list A) : option (list B) :=
  match l with
  | [] => Some []
  | x :: t => do y <- f x; do r <- mapo f t; Some (y :: r)
  end.

(** A change [f] of the node [id] and [g] of all nodes reached from it over next. *)
Fixpoint on_node (id : Z) (f g : cnode -> option cnode) (l : list cnode) : option (list cnode) :=
  match l with
  | [] => Some []
  | c :: t => if c_id c =? id then do c1 <- f c; do r <- mapo g t; Some (c1 :: r)
              else do r <- on_node id f g t; Some (c :: r)
  end.
Definition on_chains (id : Z) (f g : cnode -> option cnode) (s : nm) : option nm :=
  do cs <- mapo (on_node id f g) (n_chains s);
  Some (mkNm cs (n_open s) (n_last s) (n_fds s)).

Definition with_size (size : Z) (c : cnode) : cnode :=
  mkCn (c_id c) size (c_avail c) (c_pos c) (c_file c) (c_children c).
(** nodemanager.cpp 160, availableSize += diff, and 163, posIndex += diff. *)
Definition grow (diff : Z) (c : cnode) : option cnode :=
  do a <- chk (c_avail c + diff);
  Some (mkCn (c_id c) (c_size c) a (c_pos c) (c_file c) (c_children c)).
Definition move (diff : Z) (c : cnode) : option cnode :=
  do p <- chk (c_pos c + diff);
  Some (mkCn (c_id c) (c_size c) (c_avail c) p (c_file c) (c_children c)).

(** nodemanager.cpp 156: the missing bytes, rounded up to a multiple of 1024. *)
Definition incr (missing : Z) : Z := Z.land (missing + 1023) (Z.lnot 1023).

(** nodemanager.cpp 148-206, put.  [buf] is the buffer of the caller, of which [size] bytes are
    the image; a new node writes availableSize bytes of it (201).  [small] is SMALLEST_INCR,
    [init] the size of a new file, [minsz] nodeMinSize, [maxsz] fileMaxSize. *)
Definition nm_put (small init minsz maxsz : Z) (id : Z) (children : bool) (buf : list Z) (size : Z) (s : nm)
  : option nm :=
  if zlen buf <? size then None else
  match find_cn s id with
  | Some c =>
    do s1 <- (if c_avail c <? size then
                do m <- chk (size - c_avail c + 1023);
                let diff := incr (size - c_avail c) in
                do f <- fd_shift small (c_pos c) diff (load init s (c_file c));
                on_chains id (grow diff) (move diff) (set_fd s (c_file c) f)
              else Some s);
    do f <- fd_overwrite (c_pos c) (firstn (Z.to_nat size) buf) (load init s1 (c_file c));
    on_chains id (fun c => Some (with_size size c)) Some (set_fd s1 (c_file c) f)
  | None =>
    let avail := Z.max minsz size in
    do s1 <- (if maxsz <=? f_size (load init s (n_last s)) then
                if Nat.eqb (S (n_last s)) MAX_N_FILES then None
                else Some (mkNm (n_chains s) false (S (n_last s)) (n_fds s))
              else Some s);
    let f := load init s1 (n_last s1) in
    let c := mkCn id size avail (int32 (f_size f)) (n_last s1) children in
    let chains := if n_open s1 then removelast (n_chains s1) ++ [last (n_chains s1) [] ++ [c]]
                  else n_chains s1 ++ [[c]] in
    if zlen buf <? avail then None else
    do f1 <- fd_append small (firstn (Z.to_nat avail) buf) f;
    Some (mkNm chains true (n_last s1) (upd (n_fds s1) (n_last s1) (Some f1)))
  end.

(** Reading [n] bytes at [p]; outside of the mapping it is undefined behaviour. *)
Definition bytes_at (m : mem) (p n : Z) : option (list Z) :=
  if (0 <=? p) && (p + n <=? zlen m) then Some (firstn (Z.to_nat n) (skipn (Z.to_nat p) m)) else None.

(** nodemanager.cpp 125-128, get, for the node [c]; the caller reads nodeSize bytes
    (src/trident/tree/cache.cpp 48-71). *)
Definition cn_read (init : Z) (s : nm) (c : cnode) : option (bool * list Z) :=
  do b <- bytes_at (f_buf (load init s (c_file c))) (c_pos c) (c_size c);
  Some (c_children c, b).
Definition nm_get (init : Z) (s : nm) (id : Z) : option (bool * list Z) :=
  do c <- find_cn s id; cn_read init s c.

(** What happens to a store. *)
Inductive nev := Put (id : Z) (children : bool) (buf : list Z) (size : Z) | Close (i : nat).
Definition nm_step (small init minsz maxsz : Z) (e : nev) (s : nm) : option nm :=
  match e with
  | Put id ch buf size => nm_put small init minsz maxsz id ch buf size s
  | Close i => Some (nm_close s i)
  end.
Fixpoint nm_run (small init minsz maxsz : Z) (es : list nev) (s : nm) : option nm :=
  match es with
  | [] => Some s
  | e :: t => do s1 <- nm_step small init minsz maxsz e s; nm_run small init minsz maxsz t s1
  end.

(** ** The idx file *)

(** nodemanager.cpp 109-123, serializeTo (NODE_SIZE, 25 bytes). *)
Definition cn_bytes (c : cnode) : list Z :=
  enc 8 (c_id c) ++ [if c_children c then 1 else 0] ++ enc 4 (Z.of_nat (c_file c)) ++ enc 4 (c_pos c) ++
  enc 4 (c_size c) ++ enc 4 (c_avail c).

(** nodemanager.cpp 88-107, unserializeNodeFrom.  The fields of four bytes are ints (the file
    index a short; both casts keep what serializeTo wrote). *)
Definition cn_parse (m : mem) (p : Z) : option cnode :=
  do id <- rd 8 m p;
  do ch <- getb m (p + 8);
  do file <- rdn 4 m (p + 9);
  do pos <- rdn 4 m (p + 13);
  do size <- rdn 4 m (p + 17);
  do avail <- rdn 4 m (p + 21);
  Some (mkCn id (int32 size) (int32 avail) (int32 pos) (Z.to_nat file) (ch =? 1)).

(** nodemanager.cpp 315-335 and 265-276: the flag of each node, the node, and its position in
    coordinatesSpace, which is an array of four bytes for each node; writing outside of it is
    undefined behaviour.  [p] is the position in the idx file. *)
Fixpoint idx_chain (first : bool) (l : list cnode) (coords : mem) (p : Z) : option (mem * list Z) :=
  match l with
  | [] => Some (coords, [])
  | c :: t =>
    do coords1 <- wr coords (c_id c * 4) (enc 4 (p + 1));
    do (coords2, r) <- idx_chain false t coords1 (p + 26);
    Some (coords2, (if first then 1 else 0) :: cn_bytes c ++ r)
  end.
Fixpoint idx_chains (cs : list (list cnode)) (coords : mem) (p : Z) : option (mem * list Z) :=
  match cs with
  | [] => Some (coords, [])
  | l :: t =>
    do (coords1, b) <- idx_chain true l coords p;
    do (coords2, r) <- idx_chains t coords1 (p + zlen b);
    Some (coords2, b ++ r)
  end.
(** The idx file with these chains; [junk] is what coordinatesSpace holds when it is allocated. *)
Definition idx_file (cs : list (list cnode)) (junk : list Z) : option (list Z) :=
  let n := zlen (concat cs) in
  do (coords, b) <- idx_chains cs (firstn (4 * length (concat cs)) junk) (4 + 4 * n);
  Some (enc 4 n ++ coords ++ b).

(** What is on disk after a store is closed. *)
Record ndisk := mkNd { d_idx : list Z; d_files : nat -> option (list Z) }.

(** nodemanager.cpp 297-357, destructor of a writable store. *)
Definition nm_end (s : nm) (junk : list Z) : option ndisk :=
  do idx <- idx_file (n_chains s) junk;
  Some (mkNd idx (fun i => match n_fds s i with
                           | Some f => if f_size f =? 0 then None else Some (fd_content f)
                           | None => None
                           end)).

(** nodemanager.cpp 73-84 and 130-138, getCachedNode, then get (125-128), of a read-only store.
    nodesLoaded has one element for each node. *)
Definition nd_get (d : ndisk) (id : Z) : option (bool * list Z) :=
  do n <- rdn 4 (d_idx d) 0;
  if (0 <=? id) && (id <? int32 n) then
    do p <- rdn 4 (d_idx d) (4 + id * 4);
    do c <- cn_parse (d_idx d) (int32 p);
    do f <- d_files d (c_file c);
    do b <- bytes_at f (c_pos c) (c_size c);
    Some (c_children c, b)
  else None.

(** ** nodemanager.cpp 208-295, compressSpace *)

(** 219-233: the nodes of the idx file, a new group where the flag is set; a node before the
    first flag would index the vector at -1. *)
Fixpoint nd_groups (fuel : nat) (m : mem) (p : Z) (acc : list (list cnode)) : option (list (list cnode)) :=
  if p <? zlen m then
    match fuel with
    | O => None
    | S fuel =>
      do b <- getb m p;
      do c <- cn_parse m (p + 1);
      if negb (b =? 0) then nd_groups fuel m (p + 26) (acc ++ [[c]])
      else match acc with
           | [] => None
           | _ => nd_groups fuel m (p + 26) (removelast acc ++ [last acc [] ++ [c]])
           end
    end
  else Some acc.

(** 256-264: the images one after the other in the new file; supportBuffer has [bufsz] bytes. *)
Fixpoint nd_pack (bufsz : Z) (f : list Z) (l : list cnode) (out : list Z) : option (list cnode * list Z) :=
  match l with
  | [] => Some ([], out)
  | c :: t =>
    if bufsz <? c_size c then None else
    do b <- bytes_at f (c_pos c) (c_size c);
    do (r, out1) <- nd_pack bufsz f t (out ++ b);
    Some (mkCn (c_id c) (c_size c) (c_size c) (int32 (zlen out)) (c_file c) (c_children c) :: r, out1)
  end.
(** 246-289: the i-th group from file i. *)
Fixpoint nd_rewrite (bufsz : Z) (files : nat -> option (list Z)) (i : nat) (gs : list (list cnode))
  : option (list (list cnode) * (nat -> option (list Z))) :=
  match gs with
  | [] => Some ([], files)
  | g :: t =>
    do f <- files i;
    do (g1, out) <- nd_pack bufsz f g [];
    do (r, files1) <- nd_rewrite bufsz (upd files i (Some out)) (S i) t;
    Some (g1 :: r, files1)
  end.
(** All of compressSpace.  Line 243 writes four bytes in coordinatesSpace, also when it is empty. *)
Definition nd_compress (bufsz : Z) (junk : list Z) (d : ndisk) : option ndisk :=
  do n <- rdn 4 (d_idx d) 0;
  do gs <- nd_groups (length (d_idx d)) (d_idx d) (4 + 4 * int32 n) [];
  do (gs1, files1) <- nd_rewrite bufsz (d_files d) 0 gs;
  do junk1 <- wr (firstn (4 * length (concat gs)) junk) 0 (enc 4 (zlen (concat gs)));
  do idx <- idx_file gs1 junk1;
  Some (mkNd idx files1).
