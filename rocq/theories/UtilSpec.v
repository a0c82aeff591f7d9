(** What the utilities should do. *)
From Coq Require Import ZArith List Bool Sorting.Sorted Sorting.Permutation.
From Verif Require Import ItrModel UtilModel.
Import ListNotations.
Local Open Scope Z_scope.

(** The numbers from [a] to [b] (exclusive). *)
Definition zrange (a b : Z) : list Z := map (fun i => a + Z.of_nat i) (seq 0 (Z.to_nat (b - a))).
(** The indices a loop over some ranges visits. *)
Definition visits (l : list (Z * Z)) : list Z := flat_map (fun p => zrange (fst p) (snd p)) l.

(** A comparison of a sorting function. *)
Definition weak_order {A} (cmp : A -> A -> bool) : Prop :=
  (forall x y, cmp x y = true -> cmp y x = false) /\
  (forall x y z, cmp y x = false -> cmp z y = false -> cmp z x = false).
Definition in_order {A} (cmp : A -> A -> bool) (l : list A) : Prop :=
  StronglySorted (fun x y => cmp y x = false) l.

(** Memory manager: total size of the blocks in use. *)
Fixpoint total (l : list (option mblock)) : Z :=
  match l with [] => 0 | None :: t => total t | Some b :: t => b_bytes b + total t end.
Fixpoint unused (l : list (option mblock)) : Z :=
  match l with [] => 0 | None :: t => 1 + unused t | Some _ :: t => unused t end.
(** Total size of the locked blocks. *)
Fixpoint locked (l : list (option mblock)) : Z :=
  match l with [] => 0 | Some b :: t => (if 0 <? b_lock b then b_bytes b else 0) + locked t | None :: t => locked t end.

(** ** JSON documents (RFC 8259) with strings, arrays and objects only *)
Inductive jv := JStr (s : str) | JArr (l : list jv) | JObj (l : list (str * jv)).

Definition is_ws (c : Z) : bool := (c =? 32) || (c =? 9) || (c =? 10) || (c =? 13).
Fixpoint skip_ws (t : str) : str := match t with c :: r => if is_ws c then skip_ws r else t | [] => [] end.
Definition hexval (c : Z) : option Z :=
  if (48 <=? c) && (c <=? 57) then Some (c - 48)
  else if (97 <=? c) && (c <=? 102) then Some (c - 87)
  else if (65 <=? c) && (c <=? 70) then Some (c - 55) else None.
(** UTF-8 code of a \u escape (surrogates are not combined). *)
Definition utf8 (v : Z) : str :=
  if v <? 128 then [v]
  else if v <? 2048 then [192 + v / 64; 128 + v mod 64]
  else [224 + v / 4096; 128 + v / 64 mod 64; 128 + v mod 64].
(** The escapes for quote, backslash, slash, b, f, n, r, t. *)
Definition simple_escape (c : Z) : option Z :=
  if (c =? 34) || (c =? 92) || (c =? 47) then Some c
  else if c =? 98 then Some 8 else if c =? 102 then Some 12 else if c =? 110 then Some 10
  else if c =? 114 then Some 13 else if c =? 116 then Some 9 else None.

(** What follows the opening quote: the string and what follows the closing quote. *)
Fixpoint read_str (t : str) : option (str * str) :=
  match t with
  | [] => None
  | c :: r =>
    if c =? 34 then Some ([], r)
    else if c =? 92 then
      match r with
      | e :: r1 =>
        if e =? 117 then
          match r1 with
          | a :: b :: c :: d :: r2 =>
            do a <- hexval a; do b <- hexval b; do c <- hexval c; do d <- hexval d;
            do (s, q) <- read_str r2; Some (utf8 (4096 * a + 256 * b + 16 * c + d) ++ s, q)
          | _ => None
          end
        else do x <- simple_escape e; do (s, q) <- read_str r1; Some (x :: s, q)
      | [] => None
      end
    else if c <? 32 then None
    else do (s, q) <- read_str r; Some (c :: s, q)
  end.

(** A recursive descent reader; [f] bounds the recursion. *)
Fixpoint read_val (f : nat) (t : str) : option (jv * str) :=
  match f with
  | O => None
  | S f =>
    match skip_ws t with
    | c :: r =>
      if c =? 34 then do (s, q) <- read_str r; Some (JStr s, q)
      else if c =? 91 then
        match skip_ws r with
        | x :: q => if x =? 93 then Some (JArr [], q) else do (l, q) <- read_elems f r; Some (JArr l, q)
        | [] => None
        end
      else if c =? 123 then
        match skip_ws r with
        | x :: q => if x =? 125 then Some (JObj [], q) else do (l, q) <- read_members f r; Some (JObj l, q)
        | [] => None
        end
      else None
    | [] => None
    end
  end
with read_elems (f : nat) (t : str) : option (list jv * str) :=
  match f with
  | O => None
  | S f =>
    do (v, q) <- read_val f t;
    match skip_ws q with
    | c :: r => if c =? 44 then do (l, q) <- read_elems f r; Some (v :: l, q)
                else if c =? 93 then Some ([v], r) else None
    | [] => None
    end
  end
with read_members (f : nat) (t : str) : option (list (str * jv) * str) :=
  match f with
  | O => None
  | S f =>
    match skip_ws t with
    | c :: r =>
      if c =? 34 then
        do (n, q) <- read_str r;
        match skip_ws q with
        | c :: r =>
          if c =? 58 then
            do (v, q) <- read_val f r;
            match skip_ws q with
            | c :: r => if c =? 44 then do (l, q) <- read_members f r; Some ((n, v) :: l, q)
                        else if c =? 125 then Some ([(n, v)], r) else None
            | [] => None
            end
          else None
        | [] => None
        end
      else None
    | [] => None
    end
  end.

(** The document a JSON object stands for; lists take precedence, an empty one is an object. *)
Fixpoint doc (j : json) : jv :=
  match j with
  | Js vals kids lvals lkids =>
    match lkids with
    | _ :: _ => JArr (map doc lkids)
    | [] => match lvals with
            | _ :: _ => JArr (map JStr lvals)
            | [] => JObj (map (fun '(n, v) => (n, JStr v)) vals ++ map (fun '(n, c) => (n, doc c)) kids)
            end
    end
  end.
Definition bytes (s : str) : Prop := Forall (fun c => 0 <= c < 256) s.
(** All the strings of an object are made of bytes. *)
Fixpoint json_bytes (j : json) : Prop :=
  match j with
  | Js vals kids lvals lkids =>
    Forall (fun p => bytes (fst p) /\ bytes (snd p)) vals /\
    fold_right and True (map (fun '(n, c) => bytes n /\ json_bytes c) kids) /\
    Forall bytes lvals /\
    fold_right and True (map json_bytes lkids)
  end.
(** At every level there is only one of: a list of objects, a list of strings, named members. *)
Fixpoint one_kind (j : json) : Prop :=
  match j with
  | Js vals kids lvals lkids =>
    (lkids = [] \/ (lvals = [] /\ vals = [] /\ kids = [])) /\
    (lvals = [] \/ (vals = [] /\ kids = [])) /\
    fold_right and True (map (fun '(_, c) => one_kind c) kids) /\
    fold_right and True (map one_kind lkids)
  end.
