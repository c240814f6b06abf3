(** * What the bytes of a constructed value or record keep of it.

    A nil primitive that is an element of an array is counted and otherwise leaves nothing; an empty array or record
    list that is an element is written as an empty primitive. *)
From Coq Require Import List NArith ZArith.
From Coq Require Import Strings.Byte.
From Verif Require Import Base KeyModel ValueModel ValueSpec.
Import ListNotations.

(** An array has [n] elements, of which those in [l] left something. *)
Inductive shape : Type :=
| SPrim (data : list byte)
| SArr (n : nat) (l : list shape)
| SRecs (l : list rshape)
with rshape : Type :=
| SRec (key : option (list (list byte))) (value scheme : option shape) (tail : option (Z * option (Z * Z))).

(** The shape of an object. Values and records below are built by the API from constructed parts; the parts of records
    that count as absent are those of [ValueSpec.osays]. *)
Inductive stands : value -> shape -> Prop :=
| stands_prim d : stands (VPrim (Some d)) (SPrim d)
| stands_no_values e : stands (VArr e []) (SPrim [])
| stands_no_records e : stands (VRecs e []) (SPrim [])
| stands_arr e l ts : l <> [] -> stands_all l ts -> stands (VArr e l) (SArr (length l) ts)
| stands_recs e l ts : l <> [] -> rstands_all l ts -> stands (VRecs e l) (SRecs ts)
with stands_all : list value -> list shape -> Prop :=
| stands_nil : stands_all [] []
| stands_skip l ts : stands_all l ts -> stands_all (VPrim None :: l) ts
| stands_cons v t l ts : stands v t -> stands_all l ts -> stands_all (v :: l) (t :: ts)
with rstands : record -> rshape -> Prop :=
| rstands_rec e k v s ts a b tk tv tsch tt :
    key_says k tk -> ostands v tv -> ostands s tsch -> tail_says ts a b tt ->
    rstands (Rec e k v s ts a b) (SRec tk tv tsch tt)
with rstands_all : list record -> list rshape -> Prop :=
| rstands_nil : rstands_all [] []
| rstands_cons r t l ts : rstands r t -> rstands_all l ts -> rstands_all (r :: l) (t :: ts)
with ostands : option value -> option shape -> Prop :=
| ostands_none : ostands None None
| ostands_empty v : empty_value v -> ostands (Some v) None
| ostands_some v t : stands v t -> ~ empty_value v -> ostands (Some v) (Some t).

(** Objects that have a shape: their keys are constructed or empty and their times and signatures are in range. *)
Inductive fit : value -> Prop :=
| fit_prim d : fit (VPrim d)
| fit_arr e l : (forall v, In v l -> fit v) -> fit (VArr e l)
| fit_recs e l : (forall r, In r l -> rfit r) -> fit (VRecs e l)
with rfit : record -> Prop :=
| rfit_rec e k v s ts a b tk tt : key_says k tk -> tail_says ts a b tt ->
    (forall x, v = Some x -> fit x) -> (forall x, s = Some x -> fit x) -> rfit (Rec e k v s ts a b).
