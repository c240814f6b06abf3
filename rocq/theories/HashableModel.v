(** * Model of the hashable wrappers (/repo/src/collection/hashable.go:46-455).

    Simplified: pointers to wrappers (receiver, argument and elements) are not nil. [f] is the hash function
    handed to HashUint32. *)
From Coq Require Import List NArith ZArith Bool.
From Coq Require Import Strings.Byte.
From Verif Require Import Base CmpModel.
Import ListNotations.

(** The element types of the integer wrappers. *)
Inductive ikind := KInt16 | KUint16 | KInt32 | KUint32 | KInt64 | KUint64.
Definition ikind_eqb (a b : ikind) : bool :=
  match a, b with
  | KInt16, KInt16 | KUint16, KUint16 | KInt32, KInt32 | KUint32, KUint32 | KInt64, KInt64 | KUint64, KUint64 => true
  | _, _ => false
  end.
(** The literal factor in the slice expressions at hashable.go:207, 256, 305, 354, 403 and 452. *)
Definition ikind_width (k : ikind) : nat :=
  match k with KInt16 | KUint16 => 2 | KInt32 | KUint32 => 4 | KInt64 | KUint64 => 8 end.

(** A wrapper object. An integer slice comes with its capacity in elements. *)
Inductive hobj : Type :=
| HBytes (s : gslice)                              (* HashableByteSlice *)
| HInts (k : ikind) (s : option (list Z * nat))    (* HashableInt16Slice ... HashableUint64Slice *)
| HSlice (s : option (list (option hobj))).        (* HashableSlice; [None] inside is a nil interface *)

(** Memory of an integer of [w] bytes: two's complement, little-endian. *)
Fixpoint le_put (w : nat) (x : Z) : bytes :=
  match w with
  | O => []
  | S w' => n2b (Z.to_N (x mod 256)) :: le_put w' (x / 256)
  end.

(** Equal of two wrappers: HashableByteSlice 129-150, the integer wrappers 176-197 and so on, HashableSlice
    56-88. A wrapper of another type is not equal. *)
Fixpoint hobj_equal (a b : hobj) {struct a} : bool :=
  match a, b with
  | HBytes s, HBytes t =>
      if Nat.eqb (length (gcontent s)) (length (gcontent t)) then equal_byte_slice s t else false
  | HInts k s, HInts k' t =>
      if ikind_eqb k k' then
        let len (o : option (list Z * nat)) := match o with Some (l, _) => length l | None => 0 end in
        if Nat.eqb (len s) (len t) then equal_int_slice (option_map fst s) (option_map fst t) else false
      else false
  | HSlice s, HSlice t =>
      let m := match t with Some m => m | None => [] end in
      match s with
      | None => Nat.eqb 0 (length m)
      | Some l =>
          if Nat.eqb (length l) (length m) then
            (fix loop (l : list (option hobj)) (m : list (option hobj)) {struct l} : bool :=
               match l, m with
               | [], _ => true
               | None :: l', None :: m' => loop l' m'
               | Some x :: l', Some y :: m' => if hobj_equal x y then loop l' m' else false
               | _, _ => false
               end) l m
          else false
      end
  | _, _ => false
  end.

(** HashUint32: HashableSlice 91-113 (the test [Implements(reflect.TypeOf((IHashable)(nil)))] passes a nil
    type and so panics on every non-nil element), HashableByteSlice 153-160, the integer wrappers 200-209 and
    so on (the slice header is reinterpreted as []byte with the capacity still counted in elements, so the
    slice expression panics when [len * width > cap]). *)
Fixpoint xor_elems (empty_hash : N) (l : list (option hobj)) (h : N) : res N :=
  match l with
  | [] => Ok h
  | None :: l' => xor_elems empty_hash l' (N.lxor h empty_hash)
  | Some _ :: _ => Panic
  end.
Definition hobj_hash (f : bytes -> N) (a : hobj) : res N :=
  match a with
  | HBytes None => Ok (f [])
  | HBytes (Some s) => Ok (f s)
  | HInts _ None => Ok (f [])
  | HInts k (Some (l, cap)) =>
      if Nat.leb (length l * ikind_width k) cap
      then Ok (f (flat_map (le_put (ikind_width k)) l))
      else Panic
  | HSlice None => Ok (f [])
  | HSlice (Some l) => xor_elems (f []) l (f [])
  end.
