(** What a FILTER means, in terms of the terms a row binds. *)
From Verif Require Export OpSpec SelModel.
From Coq Require Export QArith.
Local Open Scope string_scope.
Local Open Scope Z_scope.

(** Terms are strings as in N-Triples: <iri>, _:blank, "text", "text"@language, "text"^^<type>. *)
Definition literal (v suffix : string) : string := quote ++ v ++ quote ++ suffix.
Definition typed (v dt : string) : string := literal v ("^^<" ++ dt ++ ">").
Definition iri (v : string) : string := "<" ++ v ++ ">".
Definition form (l : lit) : string :=
  match l with
  | LPlain v => literal v ""
  | LLang v lang => literal v ("@" ++ lang)
  | LTyped v dt => if String.eqb dt (xsd "string") then literal v "" else typed v dt
  end.
(** The first character. *)
Definition starts (c : ascii) (s : string) : bool := match s with String d _ => Ascii.eqb c d | "" => false end.

(** *** Numbers *)
Definition chars := list_ascii_of_string.
Definition is_digit (c : ascii) : Prop := 48 <= Z.of_N (N_of_ascii c) <= 57.
Definition digits (s : string) : Prop := s <> "" /\ Forall is_digit (chars s).
(** The value of a list of digits, the last of which counts once. *)
Fixpoint value (s : string) : Z :=
  match s with
  | "" => 0
  | String c r => (Z.of_N (N_of_ascii c) - 48) * 10 ^ Z.of_nat (String.length r) + value r
  end.
(** A sign and what it does. *)
Definition sign (s : string) (k : Z) : Prop := (s = "" /\ k = 1) \/ (s = "+" /\ k = 1) \/ (s = "-" /\ k = -1).
Definition int_text (v : string) (z : Z) : Prop := exists s k ds, sign s k /\ digits ds /\ v = s ++ ds /\ z = k * value ds.
Definition dec_text (v : string) (q : Q) : Prop :=
  exists s k d1 d2, sign s k /\ digits d1 /\ digits d2 /\ v = s ++ d1 ++ "." ++ d2 /\
  (q == inject_Z (k * value (d1 ++ d2)) / inject_Z (10 ^ Z.of_nat (String.length d2)))%Q.
(** The terms that are numbers: integers of 64 bits, doubles and floats without exponent. *)
Definition number (t : string) (q : Q) : Prop :=
  (exists v z, int_text v z /\ - 2 ^ 63 <= z < 2 ^ 63 /\ t = typed v (xsd "integer") /\ (q == inject_Z z)%Q) \/
  (exists v dt, (dt = xsd "double" \/ dt = xsd "float") /\ t = typed v dt /\
     (dec_text v q \/ exists z, int_text v z /\ (q == inject_Z z)%Q)).

(** *** Dates *)
Definition date (t : string) (y m d : Z) : Prop :=
  exists ys ms ds, digits ys /\ digits ms /\ digits ds /\ value ys = y /\ value ms = m /\ value ds = d /\
  y <= 9999 /\ m <= 12 /\ d <= 31 /\ t = typed (ys ++ "-" ++ ms ++ "-" ++ ds) (xsd "date").
Definition date_compare (y m d y' m' d' : Z) : comparison :=
  match Z.compare y y' with Eq => match Z.compare m m' with Eq => Z.compare d d' | c => c end | c => c end.

(** *** Comparisons *)
(** The order of two terms: of numbers, of dates, of texts without type and language. *)
Inductive Ordered : string -> string -> comparison -> Prop :=
| Ord_number t1 t2 q1 q2 : number t1 q1 -> number t2 q2 -> Ordered t1 t2 (q1 ?= q2)%Q
| Ord_date t1 t2 y m d y' m' d' : date t1 y m d -> date t2 y' m' d' -> Ordered t1 t2 (date_compare y m d y' m' d')
| Ord_text v1 v2 : Ordered (literal v1 "") (literal v2 "") (String.compare v1 v2).
(** Numbers are equal if their values are, other terms if they are the same. *)
Inductive Equals : string -> string -> bool -> Prop :=
| Eq_number t1 t2 q1 q2 : number t1 q1 -> number t2 q2 -> Equals t1 t2 (Qeq_bool q1 q2)
| Eq_term t1 t2 : ~ ((exists q, number t1 q) /\ (exists q, number t2 q)) -> Equals t1 t2 (String.eqb t1 t2).

(** *** Filters.  [row] gives the term of each variable that is bound. *)
Inductive Operand (row : nat -> option string) : filt -> string -> Prop :=
| Op_var x t : row x = Some t -> Operand row (FVar x) t
| Op_lit l : Operand row (FLit l) (form l)
| Op_iri v : Operand row (FIri v) (iri v)
| Op_str_iri a v : Operand row a (iri v) -> Operand row (FStr a) (literal v "")
| Op_str_lit a v s : Operand row a (literal v s) -> Operand row (FStr a) (literal v "")
| Op_lang a v l : Operand row a (literal v ("@" ++ l)) -> Operand row (FLang a) (literal l "")
| Op_datatype a v dt : Operand row a (typed v dt) -> Operand row (FDatatype a) (iri dt).

(** The filter is true, or false; no rule applies to a filter that has an error. *)
Inductive Truth (row : nat -> option string) : filt -> bool -> Prop :=
| T_or_l a b : Truth row a true -> Truth row (FOr a b) true
| T_or_r a b x : Truth row a false -> Truth row b x -> Truth row (FOr a b) x
| T_and_l a b : Truth row a false -> Truth row (FAnd a b) false
| T_and_r a b x : Truth row a true -> Truth row b x -> Truth row (FAnd a b) x
| T_not a x : Truth row a x -> Truth row (FNot a) (negb x)
| T_equal a b t1 t2 x : Operand row a t1 -> Operand row b t2 -> Equals t1 t2 x -> Truth row (FEqual a b) x
| T_notequal a b t1 t2 x : Operand row a t1 -> Operand row b t2 -> Equals t1 t2 x -> Truth row (FNotEqual a b) (negb x)
| T_less a b t1 t2 c : Operand row a t1 -> Operand row b t2 -> Ordered t1 t2 c ->
    Truth row (FLess a b) (match c with Lt => true | _ => false end)
| T_lesseq a b t1 t2 c : Operand row a t1 -> Operand row b t2 -> Ordered t1 t2 c ->
    Truth row (FLessOrEqual a b) (match c with Gt => false | _ => true end)
| T_greater a b t1 t2 c : Operand row a t1 -> Operand row b t2 -> Ordered t1 t2 c ->
    Truth row (FGreater a b) (match c with Gt => true | _ => false end)
| T_greatereq a b t1 t2 c : Operand row a t1 -> Operand row b t2 -> Ordered t1 t2 c ->
    Truth row (FGreaterOrEqual a b) (match c with Lt => false | _ => true end)
| T_bound x : Truth row (FBound x) (match row x with Some _ => true | None => false end)
| T_sameterm a b t1 t2 : Operand row a t1 -> Operand row b t2 -> Truth row (FSameTerm a b) (String.eqb t1 t2)
| T_isiri a t : Operand row a t -> Truth row (FIsIRI a) (starts "<" t)
| T_isblank a t : Operand row a t -> Truth row (FIsBlank a) (starts "_" t)
| T_isliteral a t : Operand row a t -> Truth row (FIsLiteral a) (starts (ascii_of_nat 34) t)
| T_contains a b v1 s1 v2 s2 : Operand row a (literal v1 s1) -> Operand row b (literal v2 s2) ->
    Truth row (FContains a b) (match index 0 v2 v1 with Some _ => true | None => false end)
| T_in_nil a : Truth row (FIn a []) false
| T_in_hit a x l : Truth row (FEqual a x) true -> Truth row (FIn a (x :: l)) true
| T_in_miss a x l y : Truth row (FEqual a x) false -> Truth row (FIn a l) y -> Truth row (FIn a (x :: l)) y.

(** *** The dictionary and the rows *)
(** Each id of less than 32 bits stands for one term; terms are IRIs, blank nodes or literals. *)
Definition dict_ok (w : world) : Prop :=
  (forall i t, w_text w i = Some t <-> w_number w t = Some i) /\
  (forall i t, w_text w i = Some t -> 0 <= i < null32 /\
     ((exists v, t = iri v) \/ starts "_" t = true \/ exists v s, t = literal v s)).
(** The row that the registers hold; the two values that operators put for "unbound" stand for no term. *)
Definition row_of (w : world) (g : regs) : nat -> option string := fun x => w_text w (g x).
(** The variables of a filter. *)
Fixpoint fvars (f : filt) : list nat :=
  match f with
  | FOr a b | FAnd a b | FEqual a b | FNotEqual a b | FLess a b | FLessOrEqual a b | FGreater a b | FGreaterOrEqual a b
  | FArith _ a b | FLangMatches a b | FContains a b | FSameTerm a b | FRegex a b => fvars a ++ fvars b
  | FNot a | FNeg a | FStr a | FLang a | FDatatype a | FIsIRI a | FIsBlank a | FIsLiteral a | FNotIn a _ => fvars a
  | FLit _ | FIri _ => []
  | FVar x | FBound x | FNotExists x _ => [x]
  | FReplace a p q f => fvars a ++ fvars p ++ fvars q ++ fvars f
  | FIn a l => fvars a ++ flat_map fvars l
  end%list.

(** *** Filters for which the claim holds *)
(** A text that cannot be taken for a term. *)
Definition free_text (v : string) : Prop := starts "<" v = false /\ starts "_" v = false /\ starts (ascii_of_nat 34) v = false.
(** A constant: a literal without language whose type is one of six, and whose text is not that of
    an IRI of the dictionary unless the dictionary has the literal; or an IRI. *)
Definition constant_ok (w : world) (f : filt) : Prop :=
  match f with
  | FLit l => free_text (lit_value l) /\
      (w_number w (form l) <> None \/ w_number w (iri (lit_value l)) = None) /\
      match l with
      | LPlain _ => True
      | LTyped _ dt => In dt [xsd "string"; xsd "integer"; xsd "date"; xsd "decimal"; xsd "double"; xsd "boolean"]
      | LLang _ _ => False
      end
  | FIri v => free_text v
  | _ => False
  end.
Definition is_var (f : filt) : Prop := exists x, f = FVar x.
(** The dictionary has the constant. *)
Definition known (w : world) (f : filt) : Prop :=
  match f with FLit l => w_number w (form l) <> None | FIri v => w_number w (iri v) <> None | _ => True end.
Definition operand_ok (w : world) (f : filt) : Prop := is_var f \/ constant_ok w f.
(** Texts without characters below the quote. *)
Definition high_text (t : string) : Prop := forall v, t = literal v "" -> Forall (fun c => 34 < Z.of_N (N_of_ascii c)) (chars v).
Definition equal_ok (w : world) (row : nat -> option string) (a b : filt) : Prop :=
  operand_ok w a /\ operand_ok w b /\ (is_var a \/ is_var b) /\
  (* equal numbers are written the same *)
  (forall t1 t2 q1 q2, Operand row a t1 -> Operand row b t2 -> number t1 q1 -> number t2 q2 -> (q1 == q2)%Q -> t1 = t2).
Definition order_ok (w : world) (row : nat -> option string) (a b : filt) : Prop :=
  operand_ok w a /\ operand_ok w b /\ known w a /\ known w b /\
  (forall t, Operand row a t \/ Operand row b t -> high_text t).
Fixpoint Supported (w : world) (g : regs) (f : filt) : Prop :=
  match f with
  | FOr a b | FAnd a b => Supported w g a /\ Supported w g b
  | FNot a => Supported w g a
  | FEqual a b | FNotEqual a b => equal_ok w (row_of w g) a b
  | FSameTerm a b => operand_ok w a /\ operand_ok w b /\ (is_var a \/ is_var b)
  | FLess a b | FLessOrEqual a b | FGreater a b | FGreaterOrEqual a b => order_ok w (row_of w g) a b
  | FBound x => w_text w (g x) <> None \/ g x = null64
  | FIsIRI a => is_var a
  | FIsLiteral a => is_var a /\ forall t, Operand (row_of w g) a t -> starts "_" t = false
  | FIn a l => is_var a /\ Forall (equal_ok w (row_of w g) a) l
  | _ => False
  end.
(** What the runtime remembers about ids is right. *)
Definition remembers (w : world) (m : vmap) : Prop :=
  forall i v, m i = Some v -> exists s ty, lookupById w i = Some (s, ty) /\ classify s = Some (Some v).
