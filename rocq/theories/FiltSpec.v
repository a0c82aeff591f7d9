(** FILTERs without REPLACE and NOT EXISTS. *)
From Verif Require Export SelSpec PlanSpec FiltModel.
Fixpoint ordinary (f : filt) : bool :=
  match f with
  | FOr a b | FAnd a b | FEqual a b | FNotEqual a b | FLess a b | FLessOrEqual a b | FGreater a b | FGreaterOrEqual a b
  | FArith _ a b | FLangMatches a b | FContains a b | FSameTerm a b | FRegex a b => ordinary a && ordinary b
  | FNot a | FNeg a | FStr a | FLang a | FDatatype a | FIsIRI a | FIsBlank a | FIsLiteral a | FNotIn a _ => ordinary a
  | FLit _ | FIri _ | FVar _ | FBound _ => true
  | FIn a l => ordinary a && forallb ordinary l
  | FReplace _ _ _ _ | FNotExists _ _ => false
  end.
