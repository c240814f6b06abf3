(** * Specification vocabulary for comparable wrappers, independent of Equal and Compare. *)
From Coq Require Import List NArith ZArith.
From Coq Require Import Strings.Byte.
From Verif Require Import Base CmpSpec CompModel.
Import ListNotations.

(** Same type and same content, element by element; a nil and an empty ComparableSlice have the same
    content. A nil pointer is like nothing. *)
Inductive alike : cval -> cval -> Prop :=
| alike_none : alike VNone VNone
| alike_bytes s : alike (VBytes s) (VBytes s)
| alike_nums k s : alike (VNums k s) (VNums k s)
| alike_list s s' : alikes (match s with Some l => l | None => [] end)
                           (match s' with Some l => l | None => [] end) ->
                    alike (VList s) (VList s')
with alikes : list cval -> list cval -> Prop :=
| alikes_nil : alikes [] []
| alikes_cons x y l l' : alike x y -> alikes l l' -> alikes (x :: l) (y :: l').

(** Equal(r, t) runs into a nil: a method call on the nil interface, or a nil pointer of the
    receiver's own type, possibly after equal elements. *)
Inductive equal_trap : cval -> cval -> Prop :=
| trap_none t : equal_trap VNone t
| trap_bytes s : equal_trap (VBytes s) (VNilPtr KBytes)
| trap_nums k s : equal_trap (VNums k s) (VNilPtr (KNums k))
| trap_list s : equal_trap (VList s) (VNilPtr KList)
| trap_in pre pre' x y l l' : alikes pre pre' -> x <> VNone -> equal_trap x y -> length l = length l' ->
    equal_trap (VList (Some (pre ++ x :: l))) (VList (Some (pre' ++ y :: l'))).

(** No nil anywhere: no nil interface, no nil pointer, no nil slice. *)
Inductive solid : cval -> Prop :=
| solid_bytes l : solid (VBytes (Some l))
| solid_nums k l : solid (VNums k (Some l))
| solid_list l : Forall solid l -> solid (VList (Some l)).

(** The type of a wrapper. *)
Definition kind_of (v : cval) : option ckind :=
  match v with
  | VNone => None
  | VNilPtr k => Some k
  | VBytes _ => Some KBytes
  | VNums k _ => Some (KNums k)
  | VList _ => Some KList
  end.

(** Lexicographic order, at every depth. *)
Inductive below : cval -> cval -> Prop :=
| below_bytes l l' : lex_lt byte_lt l l' -> below (VBytes (Some l)) (VBytes (Some l'))
| below_nums k l l' : lex_lt Z.lt l l' -> below (VNums k (Some l)) (VNums k (Some l'))
| below_prefix l y l' : below (VList (Some l)) (VList (Some (l ++ y :: l')))
| below_in pre x y l l' : below x y -> below (VList (Some (pre ++ x :: l))) (VList (Some (pre ++ y :: l'))).

(** At the first place where the two differ, the types differ or the receiver is longer. *)
Inductive clash : cval -> cval -> Prop :=
| clash_kind a b : kind_of a <> kind_of b -> clash a b
| clash_bytes l l' : proper_prefix l' l -> clash (VBytes (Some l)) (VBytes (Some l'))
| clash_nums k l l' : proper_prefix l' l -> clash (VNums k (Some l)) (VNums k (Some l'))
| clash_prefix l y l' : clash (VList (Some (l ++ y :: l'))) (VList (Some l))
| clash_in pre x y l l' : clash x y -> clash (VList (Some (pre ++ x :: l))) (VList (Some (pre ++ y :: l'))).

(** Outcome of comparing two lists when [C] compares elements: equal throughout, the first list ends
    first, the second list ends first, or the first pair that is not equal decides. *)
Inductive list_outcome (C : cval -> cval -> res Z) : list cval -> list cval -> res Z -> Prop :=
| lo_equal l m : Forall2 (fun a b => C a b = Ok 0%Z) l m -> list_outcome C l m (Ok 0%Z)
| lo_short l m y m' : Forall2 (fun a b => C a b = Ok 0%Z) l m -> list_outcome C l (m ++ y :: m') (Ok (-1)%Z)
| lo_long l m x l' : Forall2 (fun a b => C a b = Ok 0%Z) l m -> list_outcome C (l ++ x :: l') m Panic
| lo_first l m x y l' m' o : Forall2 (fun a b => C a b = Ok 0%Z) l m -> C x y = o -> o <> Ok 0%Z ->
    list_outcome C (l ++ x :: l') (m ++ y :: m') o.
