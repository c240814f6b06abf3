(** * Model of the answers of IEncodable (/repo/src/util/encodable.go:11-51) by the sixteen types that implement it.

    An object is its type and its flags. Whether a byte content can be parsed, encoded or copied is not computed here (the
    models of keys, values, records, schemes and tries do that): each call carries the outcome that the content gives, and
    the theorems hold for all of them. Simplified: receivers are not nil, and updates are those that return. *)
From Coq Require Import List Bool.
From Verif Require Import Base.
Import ListNotations.

Inductive cls : Type :=
| EmptyKey | MappedKey | Key                                      (* key_util.go *)
| SimpleMappedValue | StandardMappedValue | Primitive | ValueArray | RecordList    (* value_util.go *)
| MappedRecord | Record_                                          (* record_util.go *)
| MappedScheme | Scheme                                           (* scheme_util.go *)
| MappedTrie | MappedTrieNode | Trie | TrieNode.                  (* trie_util.go *)

(** The fields [encoded] of constructed and [decoded] of mapped objects, and whether the slice field is nil ([keys] of
    MappedKey, [data_array] of ValueArray, [record_list] of RecordList). *)
Record obj : Type := Obj { o_cls : cls; o_encoded : bool; o_decoded : bool; o_nil : bool }.

(** The calls. [o] is what the content gives; [dummy] is whether the bytes of a MappedTrieNode are those of a dummy node;
    [c] is the type that the content of a StandardMappedValue gives to its editable copy. *)
Inductive call : Type :=
| IsEncoded
| Encode (o : res unit)
| IsDecoded
| Decode (dummy : bool) (o : res unit)
| Copy (dummy : bool) (o : res unit)
| CopyConstruct (c : cls) (o : res unit)
| Buf
| Update.

Inductive answer : Type :=
| ABool (b : bool)
| ADone (r : res unit)
| ACopy (r : res cls).        (* the type of the object made *)

(** The zero value of each type, which every package can make. *)
Definition zero_of (c : cls) : obj := Obj c false false true.
(** What Decode leaves behind when it succeeds: SimpleMappedValue value_util.go:147-160, StandardMappedValue 396-511,
    MappedKey key_util.go:219-242, MappedRecord record_util.go:157-250, MappedScheme scheme_util.go:154-198, MappedTrie
    trie_util.go:190-227; MappedTrieNode 419-479 sets [decoded] for dummy nodes only. *)
Definition decoded_obj (dummy : bool) (x : obj) : obj :=
  match o_cls x with
  | MappedTrieNode => Obj MappedTrieNode (o_encoded x) (o_decoded x || dummy) (o_nil x)
  | c => Obj c (o_encoded x) true false
  end.

(** Constructors: NewEmptyKey key_util.go:38, NewMappedKey 147-157, NewKey 358-368; NewSimpleMappedValue value_util.go:66-75,
    NewStandardMappedValue 205-221, NewPrimitive 603, NewValueArray 784, NewRecordList 1023; NewMappedRecord
    record_util.go:54-70, NewRecord 313; NewMappedSchemd scheme_util.go:44 (does not decode), NewScheme 239; NewMappedTrie
    trie_util.go:88-98, NewMappedTrieNode 288-298 (the error of Decode is dropped), NewTrie 542, NewTrieNode 783. *)
Definition make (c : cls) (dummy : bool) (o : res unit) : res obj :=
  match c with
  | EmptyKey | Key | Primitive | ValueArray | RecordList | Record_ | Scheme | Trie | TrieNode | MappedScheme =>
      Ok (Obj c false false false)
  | MappedKey | SimpleMappedValue | StandardMappedValue | MappedRecord | MappedTrie =>
      rmap (fun _ => decoded_obj dummy (zero_of c)) o
  | MappedTrieNode =>
      match o with
      | Ok _ => Ok (decoded_obj dummy (zero_of MappedTrieNode))
      | Err => Ok (zero_of MappedTrieNode)
      | Panic => Panic
      end
  end.

(** IsEncoded: key_util.go:65, 207, 399; value_util.go:135, 384, 686, 866, 1105; record_util.go:145, 405; scheme_util.go:142,
    320; trie_util.go:178, 407, 663, 877. *)
Definition is_encoded (x : obj) : bool :=
  match o_cls x with
  | EmptyKey | MappedKey | SimpleMappedValue | StandardMappedValue | MappedRecord | MappedScheme | MappedTrie | MappedTrieNode => true
  | _ => o_encoded x
  end.

(** Encode: key_util.go:69-71, 211-213, 403-430; value_util.go:139-141, 388-390, 690-736, 870-936 and 1109-1172 (a nil slice
    is no error and leaves the object as it is); record_util.go:149-151, 409-468; scheme_util.go:146-148, 324-370;
    trie_util.go:182-184, 411-413, 667-725 (panics at the root, whose parent is nil: C62_encode_refuted), 881-912. *)
Definition set_encoded (x : obj) (b : bool) : obj := Obj (o_cls x) b (o_decoded x) (o_nil x).
Definition encode (x : obj) (o : res unit) : obj * res unit :=
  match o_cls x with
  | EmptyKey | MappedKey => (x, Ok tt)
  | SimpleMappedValue | StandardMappedValue | MappedRecord | MappedScheme | MappedTrie | MappedTrieNode => (x, Err)
  | Trie => (x, Panic)
  | ValueArray | RecordList =>
      if o_nil x then (x, Ok tt)
      else match o with Ok _ => (set_encoded x true, Ok tt) | _ => (x, o) end
  | _ => match o with Ok _ => (set_encoded x true, Ok tt) | _ => (x, o) end
  end.

(** IsDecoded: key_util.go:73, 215 ([keys == nil]), 432; value_util.go:143, 392, 738, 938, 1174; record_util.go:153, 470;
    scheme_util.go:150, 372; trie_util.go:186, 415, 727, 914. *)
Definition is_decoded (x : obj) : bool :=
  match o_cls x with
  | MappedKey => o_nil x
  | SimpleMappedValue | StandardMappedValue | MappedRecord | MappedScheme | MappedTrie | MappedTrieNode => o_decoded x
  | _ => true
  end.

(** Decode of the constructed types: key_util.go:77-79, 436-438; value_util.go:742, 942, 1178; record_util.go:474;
    scheme_util.go:376; trie_util.go:731, 918. *)
Definition decode (x : obj) (dummy : bool) (o : res unit) : obj * res unit :=
  match o_cls x with
  | EmptyKey => (x, Ok tt)
  | Key | Primitive | ValueArray | RecordList | Record_ | Scheme | Trie | TrieNode => (x, Err)
  | _ => match o with Ok _ => (decoded_obj dummy x, Ok tt) | _ => (x, o) end
  end.

(** Copy: key_util.go:81-83, 244-251, 440-449; value_util.go:165-175, 516-526, 749-761, 949-963, 1185-1199;
    record_util.go:255-264, 481-503; scheme_util.go:203-221 and 383-401; trie_util.go:232-242, 491-504, 738-748, 934-946.
    The parsers of the mapped types panic on an error. The buffer of a Trie is nil, and its copy is the MappedTrie of no
    bytes (C95_trie_copy_refuted). *)
Definition copy (x : obj) (dummy : bool) (o : res unit) : res obj :=
  match o_cls x with
  | EmptyKey | Primitive | Scheme => Ok (Obj (o_cls x) false false false)
  | Key | TrieNode | ValueArray | RecordList | Record_ =>
      match o with Ok _ => Ok (Obj (o_cls x) false false false) | _ => Panic end
  | MappedScheme => Ok (Obj Scheme false false false)
  | Trie => Ok (decoded_obj dummy (zero_of MappedTrie))
  | c => match o with Ok _ => Ok (decoded_obj dummy (zero_of c)) | _ => Panic end
  end.

(** CopyConstruct: key_util.go:85-87, 253-262, 451-460; value_util.go:177-183, 528-586, 763-766, 965-984, 1201-1220;
    record_util.go:266-293, 505-540; scheme_util.go:223-226, 403-406; trie_util.go:243-245, 506-508, 750-752, 948-950. *)
Definition copy_construct (x : obj) (c : cls) (o : res unit) : res obj :=
  match o_cls x with
  | EmptyKey => Ok (Obj EmptyKey false false false)
  | MappedKey | Key => match o with Ok _ => Ok (Obj Key false false false) | _ => Panic end
  | SimpleMappedValue | Primitive => Ok (Obj Primitive false false false)
  | StandardMappedValue =>
      rmap (fun _ => Obj (match c with ValueArray => ValueArray | RecordList => RecordList | _ => Primitive end) false false false) o
  | ValueArray => rmap (fun _ => Obj ValueArray false false false) o
  | RecordList => rmap (fun _ => Obj RecordList false false false) o
  | MappedRecord | Record_ => rmap (fun _ => Obj Record_ false false false) o
  | MappedScheme | Scheme => Ok (Obj Scheme false false false)
  | MappedTrie | MappedTrieNode => Err
  | Trie => Ok (decoded_obj true (zero_of MappedTrie))
  | TrieNode => match o with Ok _ => Ok (Obj TrieNode false false false) | _ => Panic end
  end.

(** Buf: key_util.go:55-59, 193-198 (IsEmpty panics on bytes that are not parsed, which no MappedKey holds), 387-393;
    value_util.go:127, 376, 665-672, 849-856, 1088-1095; record_util.go:137, 360-367; scheme_util.go:116, 297-304;
    trie_util.go:170, 399, 648-654, 866-872. *)
Definition buf (x : obj) : res unit := if is_encoded x then Ok tt else Panic.

(** Updates: Key.Add key_util.go:545-554, ValueArray.Append and DeleteAt value_util.go:989-1006, RecordList 1225-1242, the
    setters of Record record_util.go:545-605, Trie.Set trie_util.go:578-617, the setters of TrieNode 849-864 and 926-929.
    Key and TrieNode leave [encoded] alone. The mapped types and the types without updates refuse. *)
Definition update (x : obj) : obj * res unit :=
  match o_cls x with
  | ValueArray | RecordList => (Obj (o_cls x) false (o_decoded x) false, Ok tt)
  | Record_ => (set_encoded x false, Ok tt)
  | Key | Trie | TrieNode => (x, Ok tt)
  | _ => (x, Err)
  end.

(** A call: the object afterwards, the answer, and the object made, if any. *)
Definition made (r : res obj) : list obj := match r with Ok x => [x] | _ => [] end.
Definition answer_to (x : obj) (k : call) : obj * answer * list obj :=
  match k with
  | IsEncoded => (x, ABool (is_encoded x), [])
  | Encode o => let (x', r) := encode x o in (x', ADone r, [])
  | IsDecoded => (x, ABool (is_decoded x), [])
  | Decode d o => let (x', r) := decode x d o in (x', ADone r, [])
  | Copy d o => let r := copy x d o in (x, ACopy (rmap o_cls r), made r)
  | CopyConstruct c o => let r := copy_construct x c o in (x, ACopy (rmap o_cls r), made r)
  | Buf => (x, ADone (buf x), [])
  | Update => let (x', r) := update x in (x', ADone r, [])
  end.

(** Programs: make objects and call them; a copy is a further object, the last one. *)
Inductive event : Type :=
| New (c : cls) (dummy : bool) (o : res unit)
| Zero (c : cls)
| On (i : nat) (k : call).

Fixpoint put (w : list obj) (i : nat) (x : obj) : list obj :=
  match w, i with
  | [], _ => []
  | _ :: w', O => x :: w'
  | y :: w', S i' => y :: put w' i' x
  end.
(** Calls of objects that were not made answer nothing. *)
Definition step (w : list obj) (e : event) : list obj * option answer :=
  match e with
  | New c d o => let r := make c d o in (w ++ made r, Some (ACopy (rmap o_cls r)))
  | Zero c => (w ++ [zero_of c], Some (ACopy (Ok c)))
  | On i k =>
      match nth_error w i with
      | Some x => match answer_to x k with (x', a, l) => (put w i x' ++ l, Some a) end
      | None => (w, None)
      end
  end.
Fixpoint answers (w : list obj) (es : list event) : list (option answer) :=
  match es with
  | [] => []
  | e :: es' => let (w', a) := step w e in a :: answers w' es'
  end.
