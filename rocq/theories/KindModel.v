(** * Model of what the IValue interface says of a value and of its encoding (/repo/src/util/value_util.go:16-39):
    IsNil, IsPrimitive, IsValueArray, IsRecordList, Size, Value, and, around Encode, IsEncoded, Buf and ValueMagic.

    Values are those of ValueModel; a value held by an array or a record list is not changed behind its back. A
    ValueArray or RecordList whose slice is nil is not modelled (the constructors never make one). *)
From Coq Require Import List NArith ZArith Bool.
From Coq Require Import Strings.Byte.
From Verif Require Import Base EndianModel VarintModel KeyModel ValueModel.
Import ListNotations.
Local Open Scope Z_scope.

Record face : Type := Face {
  f_nil : bool;
  f_prim : bool;
  f_arr : bool;
  f_recs : bool;
  f_size : N;
  f_value : gslice }.

(** SimpleMappedValue 80-98, 116-118; StandardMappedValue 225-263, 356-367; Primitive 610-628, 648-651;
    ValueArray 791-809, 833-835; RecordList 1030-1048, 1072-1074. *)
Definition face_of (v : value) : face :=
  match v with
  | VSimple _ c => Face (value_is_nil v) true false false 0 (Some c)
  | VStd m => Face (mv_is_nil m) (mv_is_primitive m) (mv_is_array m) (mv_is_records m) (mv_size m) (mv_value m)
  | VPrim d => Face (value_is_nil v) true false false 0 d
  | VArr _ l => Face (value_is_nil v) (value_is_nil v || false) true false (uint16 (N.of_nat (length l))) None
  | VRecs _ l => Face (value_is_nil v) (value_is_nil v || false) false true (uint16 (N.of_nat (length l))) None
  end.

(** A value with the fields [encoded], [magic] (only Primitive has it) and [buf] of the structs. *)
Record vobj : Type := VObj { o_value : value; o_encoded : bool; o_magic : byte; o_buf : gslice }.

(** NewPrimitive 603-605, NewValueArray 784-786 and RecordList 1023-1025 with the elements appended (Append clears
    [encoded]); parsed values own their buffer. *)
Definition fresh (v : value) : vobj :=
  match v with
  | VStd m => VObj v true x00 (Some (mv_buf m))
  | VSimple b _ => VObj v true x00 (Some b)
  | _ => VObj v false x00 None
  end.

(** The magic field Primitive.Encode stores, 690-736. *)
Definition prim_magic (d : gslice) : byte :=
  match d with
  | None => x00
  | Some data => if zlen data =? 0 then x00 else if zlen data <? 256 then x01 else x02
  end.

(** Encode: SimpleMappedValue 139-141 and StandardMappedValue 388-390 refuse; Primitive 690-736; ValueArray 870-936;
    RecordList 1109-1172. An error leaves the object as it was. *)
Definition encode (o : vobj) : vobj * res unit :=
  match value_encode (o_value o) with
  | Ok b =>
      (match o_value o with
       | VPrim None => VObj (VPrim None) true x00 None
       | VPrim (Some d) => VObj (VPrim (Some d)) true (prim_magic (Some d)) (Some b)
       | v => VObj v true (o_magic o) (Some b)
       end, Ok tt)
  | Err => (o, Err)
  | Panic => (o, Panic)
  end.

(** IsEncoded 135-137, 384-386, 686-688, 866-868, 1105-1107. *)
Definition is_encoded (o : vobj) : bool :=
  match o_value o with VStd _ => true | VSimple _ _ => true | _ => o_encoded o end.
(** Buf 127-129, 376-378, 665-672, 849-856, 1088-1095. *)
Definition obj_buf (o : vobj) : res gslice :=
  match o_value o with
  | VStd _ | VSimple _ _ => Ok (o_buf o)
  | _ => if o_encoded o then Ok (o_buf o) else Panic
  end.
(** ValueMagic 123-125, 372-374, 656-663, 840-847, 1079-1086. *)
Definition value_magic (o : vobj) : res byte :=
  match o_value o with
  | VStd _ | VSimple _ _ => go_index (gcontent (o_buf o)) 0
  | VPrim _ => if o_encoded o then Ok (o_magic o) else Panic
  | _ => if o_encoded o then go_index (gcontent (o_buf o)) 0 else Panic
  end.
