(** * The protocol of IEncodable as its comments give it (/repo/src/util/encodable.go:13-44), for every program.

    The specification follows a program by what it asked and was told: which kind each object is, whether an encoding of
    its present content is kept (a successful Encode and no successful update since) and whether it was parsed. *)
From Coq Require Import List Bool.
From Verif Require Import Base ProtoModel.
Import ListNotations.

(** Mapped types hold bytes to read, constructed types are built by the program. EmptyKey is neither; it is counted as
    mapped here, as its IsEncoded is always true. *)
Definition mapped (c : cls) : bool :=
  match c with
  | EmptyKey | MappedKey | SimpleMappedValue | StandardMappedValue | MappedRecord | MappedScheme | MappedTrie | MappedTrieNode => true
  | _ => false
  end.

(** What the program knows of an object. *)
Record face : Type := Face { f_cls : cls; f_cache : bool; f_parsed : bool }.
(** Mapped objects come parsed from their constructors and from Copy, but for NewMappedSchemd, which only keeps the bytes.
    A zero value is not parsed. EmptyKey has nothing to parse. *)
Definition new_face (c : cls) : face := Face c false (match c with MappedScheme => false | _ => true end).
Definition copied_face (c : cls) : face := Face c false true.
Definition zero_face (c : cls) : face := Face c false (match c with EmptyKey => true | _ => false end).
Definition told (f : face) (k : call) (a : answer) : face :=
  match k, a with
  | Encode _, ADone (Ok _) => Face (f_cls f) true (f_parsed f)
  | Decode _ _, ADone (Ok _) => Face (f_cls f) (f_cache f) true
  | Update, ADone (Ok _) => Face (f_cls f) false (f_parsed f)
  | _, _ => f
  end.

Fixpoint fput (w : list face) (i : nat) (x : face) : list face :=
  match w, i with
  | [], _ => []
  | _ :: w', O => x :: w'
  | y :: w', S i' => y :: fput w' i' x
  end.
Definition follow (w : list face) (e : event) (a : option answer) : list face :=
  match e, a with
  | New _ _ _, Some (ACopy (Ok c)) => w ++ [new_face c]
  | Zero _, Some (ACopy (Ok c)) => w ++ [zero_face c]
  | On i k, Some b =>
      match nth_error w i with
      | Some f => fput w i (told f k b) ++ match b with ACopy (Ok c) => [copied_face c] | _ => [] end
      | None => w
      end
  | _, _ => w
  end.
Fixpoint faces (w : list face) (es : list event) (l : list (option answer)) : list face :=
  match es, l with
  | e :: es', a :: l' => faces (follow w e a) es' l'
  | _, _ => w
  end.

(** The clauses. *)
Inductive clause : Type := CIsEncoded | CEncode | CIsDecoded | CDecode | CCopy | CCopyConstruct | CBuf.

Definition is_ok {A} (r : res A) : bool := match r with Ok _ => true | _ => false end.
Definition is_err {A} (r : res A) : bool := match r with Err => true | _ => false end.
(** An object is made if the content allows it, and it is of the kind asked for. *)
Definition makes (o : res unit) (r : res cls) (kind : bool) : bool :=
  match r with Ok c => Bool.eqb (mapped c) kind | _ => negb (is_ok o) end.

(** The clause a call is about, and whether the answer keeps it. *)
Definition keeps (cl : clause) (f : face) (k : call) (a : answer) : bool :=
  let m := mapped (f_cls f) in
  match cl, k, a with
  (* always true for mapped data; for constructed data, whether an encoding is kept *)
  | CIsEncoded, IsEncoded, ABool b => Bool.eqb b (m || f_cache f)
  (* an error for mapped data; for constructed data, as the content allows *)
  | CEncode, Encode o, ADone r => if m then is_err r else implb (is_ok o) (is_ok r)
  (* always true for constructed data; for mapped data, whether it is parsed *)
  | CIsDecoded, IsDecoded, ABool b => Bool.eqb b (negb m || f_parsed f)
  (* an error for constructed data; for mapped data, as the content allows *)
  | CDecode, Decode _ o, ADone r => if m then implb (is_ok o) (is_ok r) else is_err r
  (* the same kind *)
  | CCopy, Copy _ o, ACopy r => makes o r m
  (* constructed *)
  | CCopyConstruct, CopyConstruct _ o, ACopy r => makes o r false
  (* the encoding, if there is one *)
  | CBuf, Buf, ADone r => Bool.eqb (is_ok r) (m || f_cache f)
  | _, _, _ => true
  end.

(** After the program [es], the call [k] of object [i], of type [c], breaks the clause. *)
Definition breaks (es : list event) (i : nat) (k : call) (c : cls) (cl : clause) : Prop :=
  exists f a,
    nth_error (faces [] es (answers [] es)) i = Some f /\ f_cls f = c /\
    nth_error (answers [] (es ++ [On i k])) (length es) = Some (Some a) /\
    keeps cl f k a = false.

(** The defects: which types can be made to break which clause. *)
Definition defect (c : cls) (cl : clause) : bool :=
  match c, cl with
  | EmptyKey, (CEncode | CCopyConstruct) => true
  | MappedKey, (CEncode | CIsDecoded) => true
  | Key, (CIsEncoded | CBuf) => true
  | ValueArray, (CIsEncoded | CBuf) => true
  | RecordList, (CIsEncoded | CBuf) => true
  | MappedScheme, CCopy => true
  | MappedTrie, CCopyConstruct => true
  | MappedTrieNode, (CIsDecoded | CCopyConstruct) => true
  | Trie, (CEncode | CCopy | CCopyConstruct) => true
  | TrieNode, (CIsEncoded | CBuf) => true
  | _, _ => false
  end.
