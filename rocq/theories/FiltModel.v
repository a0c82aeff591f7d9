(** Plans with FILTERs: rdf3x/src/cts/CodeGen.cpp, translateFilter, and the filters that PlanGen.cpp puts on top of
    the joins. *)
From Verif Require Export PlanModel.
Local Open Scope Z_scope.

(** CodeGen.cpp 453-464, collectVariables: the variables of a filter.  The fourth argument of REPLACE
    and the pattern of NOT EXISTS are not searched. *)
Fixpoint filter_vars (f : filt) : list nat :=
  match f with
  | FOr a b | FAnd a b | FEqual a b | FNotEqual a b | FLess a b | FLessOrEqual a b | FGreater a b | FGreaterOrEqual a b
  | FArith _ a b | FLangMatches a b | FContains a b | FSameTerm a b | FRegex a b => filter_vars a ++ filter_vars b
  | FNot a | FNeg a | FStr a | FLang a | FDatatype a | FIsIRI a | FIsBlank a | FIsLiteral a | FNotIn a _ => filter_vars a
  | FLit _ | FIri _ | FNotExists _ _ => []
  | FVar x | FBound x => [x]
  | FReplace a p q _ => filter_vars a ++ filter_vars p ++ filter_vars q
  | FIn a l => filter_vars a ++ flat_map filter_vars l
  end.
(** CodeGen.cpp 477-615, buildSelection: the filter with the registers [r] in place of the variables. *)
Fixpoint in_regs (r : nat -> nat) (f : filt) : filt :=
  match f with
  | FOr a b => FOr (in_regs r a) (in_regs r b)
  | FAnd a b => FAnd (in_regs r a) (in_regs r b)
  | FNot a => FNot (in_regs r a)
  | FEqual a b => FEqual (in_regs r a) (in_regs r b)
  | FNotEqual a b => FNotEqual (in_regs r a) (in_regs r b)
  | FLess a b => FLess (in_regs r a) (in_regs r b)
  | FLessOrEqual a b => FLessOrEqual (in_regs r a) (in_regs r b)
  | FGreater a b => FGreater (in_regs r a) (in_regs r b)
  | FGreaterOrEqual a b => FGreaterOrEqual (in_regs r a) (in_regs r b)
  | FArith op a b => FArith op (in_regs r a) (in_regs r b)
  | FNeg a => FNeg (in_regs r a)
  | FLit l => FLit l
  | FIri v => FIri v
  | FVar x => FVar (r x)
  | FStr a => FStr (in_regs r a)
  | FLang a => FLang (in_regs r a)
  | FLangMatches a b => FLangMatches (in_regs r a) (in_regs r b)
  | FContains a b => FContains (in_regs r a) (in_regs r b)
  | FDatatype a => FDatatype (in_regs r a)
  | FBound x => FBound (r x)
  | FSameTerm a b => FSameTerm (in_regs r a) (in_regs r b)
  | FIsIRI a => FIsIRI (in_regs r a)
  | FIsBlank a => FIsBlank (in_regs r a)
  | FIsLiteral a => FIsLiteral (in_regs r a)
  | FRegex a b => FRegex (in_regs r a) (in_regs r b)
  | FReplace a p q g => FReplace (in_regs r a) (in_regs r p) (in_regs r q) (in_regs r g)
  | FIn a l => FIn (in_regs r a) (map (in_regs r) l)
  | FNotIn a vs => FNotIn (in_regs r a) vs
  | FNotExists x found => FNotExists (r x) found
  end.

Section Filters.
Variables (w : world) (fuel : nat) (memory : Z).
Variable open : nat -> option Z -> option Z -> option Z -> option pitr.
Variable terms : nat -> option pitr.
Variable nodes : list node.
(** SemanticAnalysis.cpp 378-425: the id of a constant of a filter; it has 32 bits, and all are set if the
    dictionary does not have the constant. *)
Definition filter_id (f : filt) : option Z :=
  match f with
  | FLit l => Some (match encode_lit w l with Some i => i mod 2 ^ 32 | None => null32 end)
  | FIri v => Some (match lookup_iri w v with Some i => i mod 2 ^ 32 | None => null32 end)
  | _ => None
  end.
Fixpoint filter_ids (l : list filt) : option (list Z) :=
  match l with
  | [] => Some []
  | f :: l' => do i <- filter_id f; do is <- filter_ids l'; Some (i :: is)
  end.
(** CodeGen.cpp 738-771: a variable that is compared with a constant, or with a list of constants: the variable, the
    ids of the constants, and whether they are excluded. *)
Definition compared (a b : filt) : option (nat * Z) :=
  match a, filter_id b with
  | FVar x, Some i => Some (x, i)
  | _, _ => match b, filter_id a with FVar x, Some i => Some (x, i) | _, _ => None end
  end.
Definition special (f : filt) : option (nat * list Z * bool) :=
  match f with
  | FEqual a b => do (x, i) <- compared a b; Some (x, [i], false)
  | FNotEqual a b => do (x, i) <- compared a b; Some (x, [i], true)
  | FIn (FVar x) l => do is <- filter_ids l; Some (x, is, false)
  | _ => None
  end.
(** The register of a variable (0 for one that has none). *)
Definition reg_for (b : bindings) (v : nat) : nat := match bget v b with Some r => r | None => 0%nat end.
Definition has_reg (b : bindings) (v : nat) : bool := match bget v b with Some _ => true | None => false end.
(** CodeGen.cpp 738-774: the operator.  [None]: a variable without register (the code then builds a selection on a null value, which
    is not modelled). *)
Definition filter_tree (b : bindings) (f : filt) (tree : oper) : option oper :=
  if negb (forallb (has_reg b) (filter_vars f)) then None else
  match special f with
  | Some (x, values, exclude) => Some (filter_op fuel exclude values (reg_for b x) tree)
  | None => Some (selection w fuel (SelModel.build w (in_regs (reg_for b) f)) tree)
  end.
(** CodeGen.cpp 776-779: the registers of variables that only the filter needs are dropped. *)
Definition cleanup (proj vs : list nat) (b : bindings) : bindings :=
  filter (fun e => mem (fst e) proj || negb (mem (fst e) vs)) b.
(** CodeGen.cpp 721-782, translateFilter, for a plan with the filters [fs] on top, the outermost first. *)
Fixpoint translateFilters (proj : list nat) (fs : list filt) (p : plan) : option (oper * bindings) :=
  match fs with
  | [] => translatePlan w fuel memory open terms nodes proj p
  | f :: fs' =>
    let vs := addAll (filter_vars f) [] in
    do (tree, b) <- translateFilters (addAll vs proj) fs' p;
    do o <- filter_tree b f tree;
    Some (o, cleanup proj vs b)
  end.
(** PlanGen.cpp 1239-1265: the filters that are not yet part of the plan are put on top of it, one after the other.
    CodeGen.cpp 1161-1208, translateIntern.  Simplification: none is part of the plan [p]; buildFilters
    (PlanGen.cpp 150-210) puts those that have variables of one pattern only above its scan: see PushModel.v. *)
Definition translateFiltered (projection : list nat) (filters : list filt) (p : plan) : option (oper * list nat) :=
  do (o, b) <- translateFilters (addAll projection []) (rev filters) p;
  Some (o, map (fun x => match bget x b with Some r => r | None => (3 * length nodes)%nat end) projection).
End Filters.
