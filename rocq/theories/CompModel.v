(** * Model of the comparable wrappers, nested to any depth
    (/repo/src/collection/comparable.go:39-157 and the integer variants, util.go:29-38 and 427-458). *)
From Coq Require Import List NArith ZArith Bool.
From Coq Require Import Strings.Byte.
From Verif Require Import Base CmpModel.
Import ListNotations.

(** The pointer types that implement IComparable here: *ComparableSlice, *ComparableByteSlice and the
    integer variants, which are numbered (Int8, Int16, Uint16, Int32, Uint32, Int64, Uint64). *)
Inductive ckind : Type := KList | KBytes | KNums (k : nat).

(** An IComparable: the nil interface, a nil pointer of one of the types, or a pointer to a wrapper
    around a slice ([None] is the nil slice). The elements of a ComparableSlice are themselves
    IComparables. A cyclic value (a slice that contains a pointer to its own wrapper) is not
    represented: Equal and Compare do not return on it. *)
Inductive cval : Type :=
| VNone
| VNilPtr (k : ckind)
| VBytes (s : gslice)
| VNums (k : nat) (s : option (list Z))
| VList (s : option (list cval)).

(** What a ComparableByteSlice sees of its argument. *)
Definition seen_by_bytes (t : cval) : cobj byte :=
  match t with
  | VNone => CNil
  | VNilPtr KBytes => CNilPtr
  | VBytes s => CWrap s
  | _ => COther
  end.

(** What an integer variant sees of its argument. *)
Definition seen_by_nums (k : nat) (t : cval) : cobj Z :=
  match t with
  | VNone => CNil
  | VNilPtr (KNums k') => if Nat.eqb k k' then CNilPtr else COther
  | VNums k' s => if Nat.eqb k k' then CWrap s else COther
  | _ => COther
  end.

(** IsNil on an IComparable, util.go:29-38: the nil interface or a nil pointer. *)
Definition is_nil (t : cval) : bool :=
  match t with VNone | VNilPtr _ => true | _ => false end.

(** [x == nil] on an interface. *)
Definition is_none (t : cval) : bool :=
  match t with VNone => true | _ => false end.

(** A nil argument of Compare: a nil pointer counts as nil whatever its type. *)
Definition as_nil {A} (t : cval) : cobj A :=
  match t with VNone => CNil | _ => CNilPtr end.

Definition elements (s : option (list cval)) : list cval :=
  match s with Some l => l | None => [] end.

(** r.Equal(t). A method call on the nil interface panics; on a nil pointer the method runs.
    ComparableSlice.Equal is comparable.go:52-85, with its loop inside. *)
Fixpoint comp_equal (r t : cval) {struct r} : res bool :=
  match r with
  | VNone => Panic
  | VNilPtr _ => Ok (is_none t)
  | VBytes s => comparable_equal byte_eqb (Some s) (seen_by_bytes t)
  | VNums k s => comparable_equal Z.eqb (Some s) (seen_by_nums k t)
  | VList s =>
      match t with
      | VNone => Ok false
      | VNilPtr KList => Panic                   (* th.slice on a nil pointer *)
      | VList s' =>
          if Nat.eqb (length (elements s)) (length (elements s')) then
            match s with
            | None => Ok true                    (* range over a nil slice *)
            | Some l =>
            (fix loop (rest : list cval) (i : nat) {struct rest} : res bool :=
               match rest with
               | [] => Ok true
               | a :: rest' =>
                   match nth_error (elements s') i with
                   | None => Panic
                   | Some b =>
                       if negb (Bool.eqb (is_none a) (is_none b)) then Ok false
                       else if is_none a then loop rest' (S i)
                       else
                         let? e := comp_equal a b in
                         if e then loop rest' (S i) else Ok false
                   end
               end) l 0
            end
          else Ok false
      | _ => Ok false
      end
  end.

(** r.Compare(c). On a nil pointer the method reads s.slice and panics.
    ComparableSlice.Compare is comparable.go:88-104 and the loop is CompareSlice, util.go:427-458. *)
Fixpoint comp_compare (r c : cval) {struct r} : res Z :=
  match r with
  | VNone => Panic
  | VNilPtr _ => Panic
  | VBytes s =>
      comparable_compare (prim_cmp byte_ltb) (Some s) (if is_nil c then as_nil c else seen_by_bytes c)
  | VNums k s =>
      comparable_compare (prim_cmp Z.ltb) (Some s) (if is_nil c then as_nil c else seen_by_nums k c)
  | VList s =>
      match s with
      | None => if is_nil c then Ok 0%Z else Ok (-1)%Z
      | Some l1 =>
          if is_nil c then Ok 1%Z
          else
            match c with
            | VList None => Ok 1%Z
            | VList (Some l2) =>
                (fix loop (rest : list cval) (i : nat) {struct rest} : res Z :=
                   match rest with
                   | [] => Ok (if Nat.ltb (length l1) (length l2) then (-1)%Z else 0%Z)
                   | a :: rest' =>
                       if Nat.ltb (length l1) i then Ok 1%Z
                       else
                         match nth_error l2 i with
                         | None => Panic
                         | Some b =>
                             let? x := comp_compare a b in
                             if Z.eqb x 0 then loop rest' (S i) else Ok x
                         end
                   end) l1 0
            | _ => Panic                         (* explicit panic on a type mismatch *)
            end
      end
  end.
