(** Domain descriptions: the filters that operators of a query put on the values of a register.
    rdf3x/src/rts/DomainDescription.cpp and rdf3x/include/rts/runtime/DomainDescription.hpp. *)
From Coq Require Export ZArith List Lia Bool.
Export ListNotations.
Local Open Scope Z_scope.

(** uint64_t arithmetic. *)
Definition u64 (x : Z) : Z := x mod 2 ^ 64.
(** UINT64_MAX. *)
Definition umax : Z := 2 ^ 64 - 1.

(** DomainDescription.hpp 22-36: min, max and the 128 words of the filter.  An index of the filter
    out of range is undefined behaviour in the code; the indices below are all in range. *)
Record dom := mkDom { d_min : Z; d_max : Z; d_filter : list Z }.
(** DomainDescription.hpp 24, filterSize. *)
Definition filterSize : Z := 128.
(** DomainDescription.hpp 28, filterEntryBits. *)
Definition filterEntryBits : Z := 64.
(** filter[i]. *)
Definition entry (d : dom) (i : Z) : Z := nth (Z.to_nat i) (d_filter d) 0.
(** DomainDescription.hpp 30, [filterEntry1 << n]. *)
Definition bitmask (n : Z) : Z := u64 (Z.shiftl 1 n).

(** DomainDescription.cpp 38-47, couldQualify. *)
Definition couldQualify (d : dom) (value : Z) : bool :=
  if (value <? d_min d) || (d_max d <? value) then false
  else
    let bit := value mod (filterSize * filterEntryBits) in
    negb (Z.land (entry d (bit / filterEntryBits)) (bitmask (bit mod filterEntryBits)) =? 0).

(** DomainDescription.cpp 63-66, 77-80 and 93-96: [while (!(entry & mask)) { mask <<= 1; value++; }].
    [None] when the fuel runs out; 64 turns suffice if one of the bits is set. *)
Fixpoint bit_loop (fuel : nat) (e mask value : Z) : option Z :=
  if Z.land e mask =? 0 then
    match fuel with
    | O => None
    | S fuel' => bit_loop fuel' e (u64 (Z.shiftl mask 1)) (u64 (value + 1))
    end
  else Some value.
(** DomainDescription.cpp 67-68, 81-82 and 97-98. *)
Definition within (d : dom) (value : Z) : Z := if d_max d <? value then umax else value.
(** DomainDescription.cpp 73-74 and 89-90: the first index from [index] on, in [n] turns, with an
    entry that is not zero. *)
Fixpoint find_entry (n : nat) (d : dom) (index : Z) : option Z :=
  match n with
  | O => None
  | S n' => if entry d index =? 0 then find_entry n' d (index + 1) else Some index
  end.

(** DomainDescription.cpp 48-103, nextCandidate. *)
Definition nextCandidate (d : dom) (value : Z) : option Z :=
  let value := if value <? d_min d then d_min d else value in
  if d_max d <? value then Some umax
  else
    let bit := value mod (filterSize * filterEntryBits) in
    let slot := bit / filterEntryBits in
    let ofs := bit mod filterEntryBits in
    let e := entry d slot in
    let mask := bitmask ofs in
    if negb (Z.land e mask =? 0) then Some value
    else if negb (Z.land e (umax - (mask - 1)) =? 0) then
      match bit_loop 64 e mask value with Some v => Some (within d v) | None => None end
    else
      let value := u64 (value + (filterEntryBits - ofs)) in
      match find_entry (Z.to_nat (filterSize - (slot + 1))) d (slot + 1) with
      | Some index =>
        let value := u64 (value + filterEntryBits * (index - slot - 1)) in
        match bit_loop 64 (entry d index) (bitmask 0) value with Some v => Some (within d v) | None => None end
      | None =>
        let value := u64 (value + filterEntryBits * (filterSize - slot - 1)) in
        match find_entry (Z.to_nat (slot + 1)) d 0 with
        | Some index =>
          let value := u64 (value + filterEntryBits * index) in
          match bit_loop 64 (entry d index) (bitmask 0) value with Some v => Some (within d v) | None => None end
        | None => Some umax
        end
      end.

(** DomainDescription.cpp 105-112, the constructor of PotentialDomainDescription. *)
Definition potential : dom := mkDom 0 umax (repeat umax 128).
(** DomainDescription.cpp 156-162, the constructor of ObservedDomainDescription. *)
Definition observed : dom := mkDom umax 0 (repeat 0 128).
(** DomainDescription.cpp 132, 151: the words of two filters combined. *)
Definition land_words (a b : list Z) : list Z := map (fun p => Z.land (fst p) (snd p)) (combine a b).
(** DomainDescription.cpp 117-138, sync: both sides afterwards.  The lock is not modelled (it is
    chosen by the address of one of the two sides); the function runs without interruption. *)
Definition sync (a b : dom) : dom * dom :=
  let amin := if d_min a <? d_min b then d_min b else d_min a in
  let bmin := if d_min b <? amin then amin else d_min b in
  let amax := if d_max b <? d_max a then d_max b else d_max a in
  let bmax := if amax <? d_max b then amax else d_max b in
  let f := land_words (d_filter a) (d_filter b) in
  (mkDom amin amax f, mkDom bmin bmax f).
(** DomainDescription.cpp 140-154, restrictTo. *)
Definition restrictTo (a b : dom) : dom :=
  mkDom (if d_min a <? d_min b then d_min b else d_min a)
        (if d_max b <? d_max a then d_max b else d_max a)
        (land_words (d_filter a) (d_filter b)).
(** A word replaced. *)
Fixpoint set_word (n : nat) (w : Z) (l : list Z) : list Z :=
  match l, n with
  | [], _ => []
  | _ :: t, O => w :: t
  | x :: t, S n' => x :: set_word n' w t
  end.
(** DomainDescription.cpp 164-174, add. *)
Definition add (d : dom) (value : Z) : dom :=
  let bit := value mod (filterSize * filterEntryBits) in
  let i := bit / filterEntryBits in
  mkDom (if value <? d_min d then value else d_min d)
        (if d_max d <? value then value else d_max d)
        (set_word (Z.to_nat i) (Z.lor (entry d i) (bitmask (bit mod filterEntryBits))) (d_filter d)).
