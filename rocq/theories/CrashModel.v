(** What an update writes and in which order: Updater::creatediffupdate
    (src/trident/kb/updater.cpp 318-369), the destructor of DictMgmt
    (src/trident/kb/dictmgmt.cpp 325-341), and what the next opening makes of it
    (KB::addDiffIndex, src/trident/kb/kb.cpp 603-649).

    Each effect below is one group of files; a crash within a group is not modelled: a
    directory of an update is either absent or has a complete index. *)
From Verif Require Export DictModel.
Local Open Scope Z_scope.

Inductive effect : Type :=
| e_index (rec : list elem)      (** updater.cpp 344-345, DiffIndex3::createDiffIndex *)
| e_layer (u : layer * Z)        (** updater.cpp 351, writeDict of at least 10000 terms *)
| e_flag (ty : utype)            (** updater.cpp 352-357, the file ADD or DEL *)
| e_gud (bytes : list Z).        (** dictmgmt.cpp 325-341, when the database is closed *)

(** The files of the dictionary and, per update, whether it has a file ADD, and its triples. *)
Record db := mkDb { files : disk; updates : list (bool * list elem) }.

Fixpoint set_last (l : list (bool * list elem)) : list (bool * list elem) :=
  match l with
  | [] => []
  | [(_, r)] => [(true, r)]
  | u :: l' => u :: set_last l'
  end.

Definition apply_effect (x : db) (e : effect) : db :=
  let k := files x in
  match e with
  | e_index rec => mkDb k (updates x ++ [(false, rec)])
  | e_layer u => mkDb (mkDisk (main k) (main_next k) (ups k ++ [u]) (gud k)) (updates x)
  | e_flag ADDITION_df => mkDb k (set_last (updates x))
  | e_flag DELETE_df => x
  | e_gud b => mkDb (mkDisk (main k) (main_next k) (ups k) (Some b)) (updates x)
  end.
Definition run (es : list effect) (x : db) : db := fold_left apply_effect es x.

(** updater.cpp 338-357 with the dictionary in memory [d], the triples to be recorded [rec]
    and the new terms [tmp]; then the destructor.  No triples: nothing is written. *)
Definition update_effects (limit : nat) (enum : list (Z * text) -> list (Z * text)) (d : dm)
    (ty : utype) (rec : list elem) (tmp : list (text * Z)) : list effect :=
  match rec with
  | [] => []
  | _ =>
    let '(d1, up) := match ty with ADDITION_df => write_dict limit d tmp | DELETE_df => (d, None) end in
    [e_index rec] ++
    match up with Some u => [e_layer u] | None => [] end ++
    [e_flag ty] ++
    if gud_modified d1 && match gud_idtext d1 with [] => false | _ => true end
    then [e_gud (gud_bytes (gud_largestID d1) (enum (gud_idtext d1)))] else []
  end.

(** kb.cpp 604-609: an update without a file ADD is a deletion. *)
Definition read_updates (x : db) : list (bool * list elem) :=
  map (fun u => (negb (fst u), snd u)) (updates x).
