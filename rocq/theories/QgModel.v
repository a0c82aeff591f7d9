(** The edges of a query graph (rdf3x/src/cts/QueryGraph.cpp) and the numbers that the plan generator gives to the
    parts of a group (rdf3x/src/cts/PlanGen.cpp).

    A part (a triple pattern, an OPTIONAL, a UNION, a subquery or a VALUES block) is the set of its variables. *)
From Verif Require Export PlanGenModel.

(** rdf3x/include/cts/infra/QueryGraph.hpp, SubQuery; QueryGraph.cpp 222-263: the variables of each part. *)
Record group := mkGroup { g_patterns : list (list nat); g_optional : list (list nat); g_unions : list (list nat); g_subqueries : list (list nat); g_values : list (list nat) }.
(** QueryGraph.cpp 272-286: the edges from the part [i] with the variables [a] to the parts numbered from [ofs]. *)
Fixpoint cross (i : nat) (a : list nat) (ofs : nat) (bs : list (list nat)) : list (nat * nat * list nat) :=
  match bs with
  | [] => []
  | b :: bs' => match intersects a b with [] => [] | c => [(i, ofs, c)] end ++ cross i a (S ofs) bs'
  end.
(** 271-287, 288-301, 302-312, 313-320: the edges of the parts of one kind, numbered from [i], among each
    other and to the kinds that follow. *)
Fixpoint edges_of (i : nat) (l : list (list nat)) (rest : list (nat * list (list nat))) : list (nat * nat * list nat) :=
  match l with
  | [] => []
  | a :: l' => cross i a (S i) l' ++ flat_map (fun ob => cross i a (fst ob) (snd ob)) rest ++ edges_of (S i) l' rest
  end.
(** 265-321, constructEdges.  There is no loop for the VALUES blocks. *)
Definition constructEdges (g : group) : list (nat * nat * list nat) :=
  let optionalOfs := length (g_patterns g) in
  let unionOfs := (optionalOfs + length (g_optional g))%nat in
  let subqueryOfs := (unionOfs + length (g_unions g))%nat in
  let valueOfs := (subqueryOfs + length (g_subqueries g))%nat in
  edges_of 0 (g_patterns g) [(optionalOfs, g_optional g); (unionOfs, g_unions g); (subqueryOfs, g_subqueries g); (valueOfs, g_values g)] ++
  edges_of optionalOfs (g_optional g) [(unionOfs, g_unions g); (subqueryOfs, g_subqueries g); (valueOfs, g_values g)] ++
  edges_of unionOfs (g_unions g) [(subqueryOfs, g_subqueries g); (valueOfs, g_values g)] ++
  edges_of subqueryOfs (g_subqueries g) [(valueOfs, g_values g)].
(** PlanGen.cpp 937-987: the parts in the order in which the plan generator numbers them. *)
Definition planned_parts (g : group) : list (list nat) := g_patterns g ++ g_values g ++ g_optional g ++ g_unions g ++ g_subqueries g.
