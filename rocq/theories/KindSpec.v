(** * Specification vocabulary for the kinds of values. *)
From Coq Require Import List NArith ZArith Bool.
From Coq Require Import Strings.Byte.
From Verif Require Import Base ValueModel KindModel.
Import ListNotations.

(** Exactly one of the three kinds. *)
Definition one_kind (f : face) : Prop :=
  (f_prim f = true /\ f_arr f = false /\ f_recs f = false) \/
  (f_prim f = false /\ f_arr f = true /\ f_recs f = false) \/
  (f_prim f = false /\ f_arr f = false /\ f_recs f = true).

(** Values made with the API: constructed ones, whatever they hold, and parsed ones. *)
Inductive made : value -> Prop :=
| made_prim d : made (VPrim d)
| made_arr e l : made (VArr e l)
| made_recs e l : made (VRecs e l)
| made_std buf m n : new_std_value buf = Ok (m, n) -> made (VStd m)
| made_simple buf v n : new_simple_value buf = Ok (v, n) -> made v.

(** An array or a record list without elements. *)
Inductive hollow : value -> Prop :=
| hollow_arr e : hollow (VArr e [])
| hollow_recs e : hollow (VRecs e []).

(** [b] are the bytes of [v]: Buf after Encode succeeded, or Buf of a parsed value. *)
Inductive bytes_of : value -> gslice -> Prop :=
| bytes_encoded v o b : encode (fresh v) = (o, Ok tt) -> obj_buf o = Ok b -> bytes_of v b
| bytes_parsed v b : is_encoded (fresh v) = true -> obj_buf (fresh v) = Ok b -> bytes_of v b.

(** Parsing the bytes [b], whatever follows them, gives a value that answers as [f]. *)
Definition parses_as (b : bytes) (f : face) : Prop :=
  forall more : bytes, exists m, new_std_value (b ++ more) = Ok (m, zlen b) /\ face_of (VStd m) = f.
