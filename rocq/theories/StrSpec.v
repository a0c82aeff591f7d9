(** What the string buffer has to do, without its representation. *)
From Verif Require Export StrModel.
Local Open Scope Z_scope.

(** Order of byte strings. *)
Fixpoint lex (a b : list Z) : comparison :=
  match a, b with
  | [], [] => Eq
  | [], _ :: _ => Lt
  | _ :: _, [] => Gt
  | x :: a, y :: b => match x ?= y with Eq => lex a b | c => c end
  end.

(** LZ4: a block is decompressed if the buffer is large enough, else the decompression fails. *)
Definition codec (lz : list Z -> list Z) (unlz : list Z -> Z -> option (list Z)) : Prop :=
  forall c n, unlz (lz c) n = if zlength c <=? n then Some c else None.

Section Histories.
Variables B cap : Z.
Variable lz : list Z -> list Z.
Variable unlz : list Z -> Z -> option (list Z).
Variable sched : nat -> nat.

(** A buffer for writing after any history of appends and, if [reads], of lookups and comparisons.  The list has the
    strings appended so far and the positions, which are what getSize() said before the append. *)
Inductive written (reads : bool) : sb -> list (list Z * Z) -> Prop :=
| written_new s : sb_new cap sched = Some s -> written reads s []
| written_append s l x s' : written reads s l -> zlength x <= B ->
    append B cap false lz sched x s = Some s' -> written reads s' (l ++ [(x, s_usize s)])
| written_get s l p y s' : reads = true -> written reads s l ->
    get B cap false lz unlz sched p s = Some (y, s') -> In p (map snd l) -> written reads s' l
| written_cmp s l p x c s' : reads = true -> written reads s l ->
    cmp B cap false lz unlz sched p x s = Some (c, s') -> In p (map snd l) -> written reads s' l.

(** A closed buffer that was opened for reading, after any history of lookups and comparisons. *)
Inductive opened (file idx : list Z) (l : list (list Z * Z)) : sb -> Prop :=
| opened_new s : sb_open file idx = Some s -> opened file idx l s
| opened_get s p y s' : opened file idx l s ->
    get B cap true lz unlz sched p s = Some (y, s') -> In p (map snd l) -> opened file idx l s'
| opened_cmp s p x c s' : opened file idx l s ->
    cmp B cap true lz unlz sched p x s = Some (c, s') -> In p (map snd l) -> opened file idx l s'.

(** The background thread has finished its work whenever the main thread looks. *)
Definition keeps_up : Prop := forall t, (9 <= sched t)%nat.
(** All blocks are in memory. *)
Definition all_cached (s : sb) : Prop := s_usize s <= cap * B.
(** The string at [p] is not the last one of a buffer that ends at the end of a block. *)
Definition not_at_end (s : sb) (l : list (list Z * Z)) (p : Z) : Prop :=
  s_usize s mod B <> 0 \/ exists l0 y q, l = l0 ++ [(y, q)] /\ p <> q.
End Histories.
