(** * Specification vocabulary for editable copies of parsed objects. *)
From Coq Require Import List NArith ZArith.
From Coq Require Import Strings.Byte.
From Verif Require Import Base KeyModel ValueModel ViewModel ViewSpec EditModel.
Import ListNotations.

(** Contents with nothing shared. *)
Inductive shown :=
| SBytes (b : list byte)
| SArray (l : list shown)
| SRecords (l : list shown)
| SKey (keys : list (list byte))
| SRecord (key value scheme : shown) (ts : option Z) (sig : option (Z * Z)).

(** What an editable copy holds when the memory is [M]. *)
Fixpoint look (M : list (list byte)) (x : made) : shown :=
  match x with
  | MBytes w => SBytes (now M w 0 (w_len w))
  | MArray l => SArray (map (look M) l)
  | MRecords l => SRecords (map (look M) l)
  | MKey ks => SKey (map (fun w => now M w 0 (w_len w)) ks)
  | MRecord k v c ts sig => SRecord (look M k) (look M v) (look M c) ts sig
  end.

(** [contents e t]: [t] is all that a parsed object that says [e] says, down to the last element. Everything must be
    readable, and sub keys must not be empty. *)
Inductive contents : reading -> shown -> Prop :=
| con_primitive m : mv_body m = BPrim -> contents (RVal m) (SBytes (mv_content m))
| con_simple b c : contents (RSimple b c) (SBytes c)
| con_array m cs l : mv_body m = BArr cs -> contents_from m KValue 0 (length cs) l -> contents (RVal m) (SArray l)
| con_records m cs l : mv_body m = BRec cs -> contents_from m KRecord 0 (length cs) l -> contents (RVal m) (SRecords l)
| con_key k ks : map gcontent (ikey_keys k) = ks -> ~ In [] ks -> contents (RKey k) (SKey ks)
| con_record r b k v c ts sig k' v' c' : r = MRec b k v c ts sig ->
    contents (part_of r KeyPart) k' -> contents (part_of r ValuePart) v' -> contents (part_of r SchemePart) c' ->
    contents (RRec r) (SRecord k' v' c' ts sig)
with contents_from : mval -> kind -> nat -> nat -> list shown -> Prop :=
| from_none m k i : contents_from m k i 0 []
| from_next m k i n e t l : element m k i = Some e -> contents e t -> contents_from m k (S i) n l ->
    contents_from m k i (S n) (t :: l).

(** The slices of an editable copy: the bytes of primitives, and the sub keys. *)
Fixpoint byte_slices (x : made) : list win :=
  match x with
  | MBytes w => [w]
  | MArray l | MRecords l => flat_map byte_slices l
  | MKey _ => []
  | MRecord k v c _ _ => byte_slices k ++ byte_slices v ++ byte_slices c
  end.
Fixpoint key_slices (x : made) : list win :=
  match x with
  | MBytes _ => []
  | MArray l | MRecords l => flat_map key_slices l
  | MKey ks => ks
  | MRecord k v c _ _ => key_slices k ++ key_slices v ++ key_slices c
  end.

(** A call that writes nothing. *)
Definition no_write (o : op) : Prop := forall b i x, o <> OWrite b i x.
