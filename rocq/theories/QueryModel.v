(** Model of the permutation tables and of the index choice of the query engine.
    Source: src/trident/kb/querier.cpp *)
From Coq Require Export List ZArith Lia Bool.
Export ListNotations.
Local Open Scope Z_scope.

(** include/trident/kb/consts.h: permutation identifiers. *)
Definition IDX_SPO : Z := 0.
Definition IDX_OPS : Z := 1.
Definition IDX_POS : Z := 2.
Definition IDX_SOP : Z := 3.
Definition IDX_OSP : Z := 4.
Definition IDX_PSO : Z := 5.

(** src/trident/kb/querier.cpp 587-644, Querier::getIndex.  Pattern values are
    signed 64-bit integers: >= 0 is a constant, -2 a variable that a join will bind,
    -1 a free variable. Function body copied branch by branch. *)
Definition getIndex (s p o : Z) : Z :=
  if 0 <=? s then
    if (0 <=? p) || ((p =? -2) && (o <? 0)) then IDX_SPO else IDX_SOP
  else if 0 <=? o then
    if (0 <=? p) || (p =? -2) then IDX_OPS else IDX_OSP
  else if 0 <=? p then
    if (0 <=? o) || (o =? -2) then IDX_POS else IDX_PSO
  else if s =? -2 then
    if negb (p =? -1) || (o =? -1) then IDX_SPO else IDX_SOP
  else if o =? -2 then
    if negb (p =? -1) || (s =? -1) then IDX_OPS else IDX_OSP
  else if p =? -2 then
    if negb (o =? -1) || (s =? -1) then IDX_POS else IDX_PSO
  else IDX_SPO.

(** src/trident/kb/querier.cpp 40-52 and 1264-1280, Querier::getOrder.  The arrays
    PERM_*; [None] models the NULL pointer returned for an unknown id. *)
Definition getOrder (idx : Z) : option (list nat) :=
  if idx =? IDX_SPO then Some [0; 1; 2]%nat
  else if idx =? IDX_OPS then Some [2; 1; 0]%nat
  else if idx =? IDX_POS then Some [1; 2; 0]%nat
  else if idx =? IDX_OSP then Some [2; 0; 1]%nat
  else if idx =? IDX_PSO then Some [1; 0; 2]%nat
  else if idx =? IDX_SOP then Some [0; 2; 1]%nat
  else None.

(** src/trident/kb/querier.cpp 40-52 and 1282-1298, Querier::getInvOrder. *)
Definition getInvOrder (idx : Z) : option (list nat) :=
  if idx =? IDX_SPO then Some [0; 1; 2]%nat
  else if idx =? IDX_OPS then Some [2; 1; 0]%nat
  else if idx =? IDX_POS then Some [2; 0; 1]%nat
  else if idx =? IDX_OSP then Some [1; 2; 0]%nat
  else if idx =? IDX_PSO then Some [1; 0; 2]%nat
  else if idx =? IDX_SOP then Some [0; 2; 1]%nat
  else None.

(** src/trident/kb/querier.cpp 689-707, Querier::getPermuted: the (s,p,o) arguments
    that are passed on to getIterator; [None] models the throw at line 706. *)
Definition getPermuted_args (idx el1 el2 el3 : Z) : option (Z * Z * Z) :=
  if idx =? IDX_SPO then Some (el1, el2, el3)
  else if idx =? IDX_SOP then Some (el1, el3, el2)
  else if idx =? IDX_POS then Some (el3, el1, el2)
  else if idx =? IDX_PSO then Some (el2, el1, el3)
  else if idx =? IDX_OSP then Some (el2, el3, el1)
  else if idx =? IDX_OPS then Some (el3, el2, el1)
  else None.

(** src/trident/kb/querier.cpp 1026-1063 (switch in Querier::getIterator): how
    the pattern is split into the key and the two constraints of the pair iterator. *)
Definition getIterator_split (idx s p o : Z) : option (Z * Z * Z) :=
  if idx =? IDX_SPO then Some (s, p, o)
  else if idx =? IDX_OPS then Some (o, p, s)
  else if idx =? IDX_POS then Some (p, o, s)
  else if idx =? IDX_SOP then Some (s, o, p)
  else if idx =? IDX_OSP then Some (o, s, p)
  else if idx =? IDX_PSO then Some (p, s, o)
  else None.
