(** * Model of slice equality and comparison
    (/repo/src/collection/util.go and /repo/src/collection/comparable.go). *)
From Coq Require Import List NArith ZArith Bool.
From Coq Require Import Strings.Byte.
From Verif Require Import Base.
Import ListNotations.

Section Generic.
  Context {A : Type}.

  (** Body of EqualByteSlice (util.go:207-229) after the nil tests; the variants for the integer types
      (util.go:231-421) are the same text at another element type, so the element test is a parameter.
      [for i := range a { if a[i] != b[i] }] runs only when both lengths agree, so walking both lists
      is the index loop. *)
  Fixpoint equal_loop (eqb : A -> A -> bool) (a b : list A) : bool :=
    match a, b with
    | [], _ => true
    | x :: a', y :: b' => if eqb x y then equal_loop eqb a' b' else false
    | _ :: _, [] => false
    end.

  (** EqualByteSlice and its variants, util.go:207-421. [None] is the nil slice. *)
  Definition equal_slice (eqb : A -> A -> bool) (a b : option (list A)) : bool :=
    match a, b with
    | None, None => true
    | None, Some _ => false
    | Some _, None => false
    | Some a', Some b' =>
        if Nat.eqb (length a') (length b') then equal_loop eqb a' b' else false
    end.

  (** Loop of CompareSlice/CompareByteSlice and variants, util.go:437-458, 471-491 and so on.
      [rest] is [s1[i:]]. The bound test is the one in the source, [len(s1) < i], and an index [s2[i]]
      beyond the end of [s2] panics. [cmp] is the element comparison. *)
  Fixpoint compare_loop (cmp : A -> A -> res Z) (s1 s2 rest : list A) (i : nat) : res Z :=
    match rest with
    | [] => Ok (if Nat.ltb (length s1) (length s2) then (-1)%Z else 0%Z)
    | a :: rest' =>
        if Nat.ltb (length s1) i then Ok 1%Z
        else
          match nth_error s2 i with
          | None => Panic
          | Some b =>
              let? c := cmp a b in
              if Z.eqb c 0 then compare_loop cmp s1 s2 rest' (S i) else Ok c
          end
    end.

  (** CompareSlice (util.go:427-458) and, at primitive element types, CompareByteSlice (460-492),
      CompareInt8Slice ... CompareIntSlice (494-765). *)
  Definition compare_slice (cmp : A -> A -> res Z) (s1 s2 : option (list A)) : res Z :=
    match s1, s2 with
    | None, None => Ok 0%Z
    | None, Some _ => Ok (-1)%Z
    | Some _, None => Ok 1%Z
    | Some l1, Some l2 => compare_loop cmp l1 l2 l1 0
    end.

  (** Element comparison [if a < b return -1 else if a > b return 1 else continue]
      of the primitive variants, util.go:477-483. *)
  Definition prim_cmp (ltb : A -> A -> bool) (a b : A) : res Z :=
    if ltb a b then Ok (-1)%Z else if ltb b a then Ok 1%Z else Ok 0%Z.
End Generic.

(** Go's [<] on bytes. *)
Definition byte_ltb (a b : byte) : bool := N.ltb (b2n a) (b2n b).

(** EqualByteSlice, util.go:207-229. *)
Definition equal_byte_slice (a b : gslice) : bool := equal_slice byte_eqb a b.

(** CompareByteSlice, util.go:460-492. *)
Definition compare_byte_slice (a b : gslice) : res Z := compare_slice (prim_cmp byte_ltb) a b.

(** EqualInt8Slice ... EqualIntSlice, util.go:231-421: elements as integers. *)
Definition equal_int_slice (a b : option (list Z)) : bool := equal_slice Z.eqb a b.

(** CompareInt8Slice ... CompareIntSlice, util.go:494-765: elements as integers. *)
Definition compare_int_slice (a b : option (list Z)) : res Z := compare_slice (prim_cmp Z.ltb) a b.

(** The argument of Equal/Compare of a comparable slice: a nil interface, a typed nil pointer,
    a pointer to a wrapper around a slice, or a value of some other type. *)
Inductive cobj (A : Type) : Type :=
| CNil
| CNilPtr
| CWrap (s : option (list A))
| COther.
Arguments CNil {A}.
Arguments CNilPtr {A}.
Arguments CWrap {A} s.
Arguments COther {A}.

(** ComparableByteSlice.Equal, comparable.go:116-137 (and the integer variants 160-561).
    The receiver [None] is a nil pointer. *)
Definition comparable_equal {A} (eqb : A -> A -> bool) (s : option (option (list A))) (t : cobj A) : res bool :=
  match s, t with
  | None, CNil => Ok true
  | None, _ => Ok false
  | Some _, CNil => Ok false
  | Some _, COther => Ok false
  | Some _, CNilPtr => Panic                     (* th.slice on a nil pointer *)
  | Some sl, CWrap tl =>
      let len (o : option (list A)) := match o with Some l => length l | None => 0 end in
      if Nat.eqb (len sl) (len tl) then Ok (equal_slice eqb sl tl) else Ok false
  end.

(** ComparableByteSlice.Compare, comparable.go:140-157 (and the integer variants).
    Note that the nil test on the argument is on the pointer [c], not on [c.slice]. *)
Definition comparable_compare {A} (cmp : A -> A -> res Z) (s : option (option (list A))) (t : cobj A) : res Z :=
  match s with
  | None => Panic                                (* s.slice on a nil pointer *)
  | Some sl =>
      let c_is_nil := match t with CNil | CNilPtr => true | _ => false end in
      match sl with
      | None => if c_is_nil then Ok 0%Z else Ok (-1)%Z
      | Some _ =>
          if c_is_nil then Ok 1%Z
          else match t with
               | CWrap tl => compare_slice cmp sl tl
               | _ => Panic                      (* explicit panic on a type mismatch *)
               end
      end
  end.

(** NewComparableByteSlice(s).Equal(t) and .Compare(t), comparable.go:111-157. *)
Definition cbs_equal (s : gslice) (t : cobj byte) : res bool := comparable_equal byte_eqb (Some s) t.
Definition cbs_compare (s : gslice) (t : cobj byte) : res Z :=
  comparable_compare (prim_cmp byte_ltb) (Some s) t.
