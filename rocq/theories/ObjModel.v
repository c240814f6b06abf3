(** * Values, records and keys as objects that share memory
    (/repo/src/util/value_util.go:588-1242, /repo/src/util/record_util.go:295-599, /repo/src/util/key_util.go:347-554).

    ValueModel and KeyModel treat an object as a value. Here objects live in a heap and hold references to each other
    and to byte memory that the caller can still write to. An object has the fields of the Go struct; [encoded] and [buf]
    are kept, so that Buf can be asked at any time. Primitive.magic is left out (it is the first byte of the buffer, or
    0). The slices of pointers inside arrays and record lists are never handed out and are lists here. Parsed objects
    refuse to be encoded and are constants; writing to the memory they were parsed from is in ViewModel.v. *)
From Coq Require Import List NArith ZArith Bool.
From Coq Require Import Strings.Byte.
From Verif Require Import Base VarintModel KeyModel ValueModel.
Import ListNotations.
Local Open Scope Z_scope.

(** A byte slice: memory block, offset and length; nil is [None]. *)
Record slc := Sl { sl_blk : nat; sl_off : nat; sl_len : nat }.
Definition ref := nat.

(** Primitive, value_util.go:591-598; ValueArray, 772-779; RecordList, 1011-1018; Record, record_util.go:299-313; Key,
    key_util.go:351-356; parsed values, records and keys. *)
Inductive obj : Type :=
| OPrim (encoded : bool) (buf data : option slc)
| OArr (encoded : bool) (buf : option slc) (est : Z) (elems : list ref)
| ORecs (encoded : bool) (buf : option slc) (est : Z) (elems : list ref)
| ORec (encoded : bool) (buf : option slc) (est : Z * Z * Z) (key val scheme : option ref) (ts sig_r sig_s : option Z)
| OKeyObj (encoded : bool) (keys : list (option slc)) (buf : option slc) (est : Z)
| OStd (m : mval)
| OSimple (buf content : bytes)
| OMapped (r : mrec)
| OEmptyKey
| OMKey (keys : list gslice) (buf : bytes).

Record heap := Heap { mem : list bytes; objs : list obj }.

Definition get (h : heap) (a : ref) : option obj := nth_error (objs h) a.
Fixpoint upd {A} (l : list A) (i : nat) (x : A) : list A :=
  match l, i with
  | [], _ => []
  | _ :: l', O => x :: l'
  | y :: l', S i' => y :: upd l' i' x
  end.
Definition put (h : heap) (a : ref) (o : obj) : heap := Heap (mem h) (upd (objs h) a o).
(** A new memory block, and the slice that covers it. *)
Definition new_block (h : heap) (b : bytes) : heap * slc :=
  (Heap (mem h ++ [b]) (objs h), Sl (length (mem h)) 0 (length b)).
Definition new_obj (h : heap) (o : obj) : heap * ref := (Heap (mem h) (objs h ++ [o]), length (objs h)).

(** The bytes of a slice. *)
Definition rd (h : heap) (s : option slc) : gslice :=
  match s with
  | None => None
  | Some s => Some (firstn (sl_len s) (skipn (sl_off s) (nth (sl_blk s) (mem h) [])))
  end.

(** ** Accessors of values, records and keys: IsEncoded, Buf (panics when not encoded), EstBufSize, IsNil, IsEmpty. A
    reference of the wrong kind is excluded by Go's types; it panics here. *)
Definition obj_encoded (o : obj) : bool :=
  match o with
  | OPrim e _ _ | OArr e _ _ _ | ORecs e _ _ _ | ORec e _ _ _ _ _ _ _ _ | OKeyObj e _ _ _ => e
  | _ => true
  end.
Definition obj_slice (o : obj) : option slc :=
  match o with
  | OPrim _ b _ | OArr _ b _ _ | ORecs _ b _ _ | ORec _ b _ _ _ _ _ _ _ | OKeyObj _ _ b _ => b
  | _ => None
  end.
Definition obj_buf (h : heap) (o : obj) : res gslice :=
  match o with
  | OStd m => Ok (Some (mv_buf m))
  | OSimple b _ => Ok (Some b)
  | OMapped r => Ok (Some (mr_buf r))
  | OEmptyKey => ikey_buf KEmpty
  | OMKey ks b => ikey_buf (KMapped ks b)
  | _ => if obj_encoded o then Ok (rd h (obj_slice o)) else Panic
  end.
Definition buf_of (h : heap) (a : ref) : res gslice :=
  match get h a with Some o => obj_buf h o | None => Panic end.

Definition obj_est (h : heap) (o : obj) : Z :=
  match o with
  | OPrim _ _ d => value_est (VPrim (rd h d))
  | OArr _ _ e _ => value_est (VArr e [])
  | ORecs _ _ e _ => value_est (VRecs e [])
  | ORec _ _ e _ _ _ t a b => record_est (Rec e None None None t a b)
  | OKeyObj _ _ _ e => e
  | OStd m => value_est (VStd m)
  | OSimple b c => value_est (VSimple b c)
  | OMapped r => record_est (RMapped r)
  | OEmptyKey => ikey_est KEmpty
  | OMKey ks b => ikey_est (KMapped ks b)
  end.
Definition est_of (h : heap) (a : ref) : res Z := match get h a with Some o => Ok (obj_est h o) | None => Panic end.

(** IsNil of a value, value_util.go:80-82, 225-227, 610-612, 791-793, 1030-1032. *)
Definition is_nil_of (h : heap) (a : ref) : res bool :=
  match get h a with
  | Some (OPrim _ _ d) => Ok (value_is_nil (VPrim (rd h d)))
  | Some (OArr _ _ _ l) | Some (ORecs _ _ _ l) => Ok (match l with [] => true | _ => false end)
  | Some (OStd m) => Ok (mv_is_nil m)
  | Some (OSimple b c) => Ok (value_is_nil (VSimple b c))
  | _ => Panic
  end.
(** IsEmpty of a key, key_util.go:42-44, 159-169, 370-372. *)
Definition is_empty_of (h : heap) (a : ref) : res bool :=
  match get h a with
  | Some (OKeyObj _ ks _ _) => Ok (match ks with [] => true | _ => false end)
  | Some OEmptyKey => Ok true
  | Some (OMKey ks b) => Ok (ikey_is_empty (KMapped ks b))
  | _ => Panic
  end.

(** ** Encode: the new heap and whether an error is returned. [None] is out of fuel: a value that contains itself is
    encoded for ever. *)

(** Key.Encode, key_util.go:403-430. *)
Definition key_enc (h : heap) (a : ref) : heap * res unit :=
  match get h a with
  | Some (OKeyObj _ ks _ _) =>
      match encode_keys (map (rd h) ks) with
      | Ok b => let (h1, s) := new_block h b in (put h1 a (OKeyObj true ks (Some s) (zlen b)), Ok tt)
      | Err => (h, Err)
      | Panic => (h, Panic)
      end
  | Some OEmptyKey | Some (OMKey _ _) => (h, Ok tt)
  | _ => (h, Panic)
  end.

(** The loops value_util.go:894-901 and 1132-1140: the heap and the content written. *)
Fixpoint enc_all (enc : heap -> ref -> option (heap * res unit)) (h : heap) (l : list ref) : option (heap * res bytes) :=
  match l with
  | [] => Some (h, Ok [])
  | x :: l' =>
      match enc h x with
      | None => None
      | Some (h1, Ok _) =>
          match buf_of h1 x with
          | Ok b =>
              match enc_all enc h1 l' with
              | None => None
              | Some (h2, Ok c) => Some (h2, Ok (gcontent b ++ c))
              | Some (h2, r) => Some (h2, r)
              end
          | _ => Some (h1, Panic)
          end
      | Some (h1, Err) => Some (h1, Err)
      | Some (h1, Panic) => Some (h1, Panic)
      end
  end.

(** One optional part of Record.Encode, record_util.go:413-447: encode it unless it is absent or [skip]ped; its bytes. *)
Definition enc_part (skip : heap -> ref -> res bool) (enc : heap -> ref -> option (heap * res unit))
    (h : heap) (p : option ref) : option (heap * res (bool * bytes)) :=
  match p with
  | None => Some (h, Ok (false, []))
  | Some x =>
      match skip h x with
      | Ok true => Some (h, Ok (false, []))
      | Ok false =>
          match enc h x with
          | None => None
          | Some (h1, Ok _) =>
              match buf_of h1 x with Ok b => Some (h1, Ok (true, gcontent b)) | _ => Some (h1, Panic) end
          | Some (h1, Err) => Some (h1, Err)
          | Some (h1, Panic) => Some (h1, Panic)
          end
      | _ => Some (h, Panic)
      end
  end.
Definition part_bit (present : bool) (k : N) : N := if present then N.shiftl 1 k else 0%N.

(** Primitive.Encode 690-736, ValueArray.Encode 870-936, RecordList.Encode 1109-1172 (its estBufSize stays), the parsed
    kinds 139-141 and 388-390; Record.Encode, record_util.go:409-468, MappedRecord.Encode 149-151. *)
Fixpoint venc (fuel : nat) (h : heap) (a : ref) : option (heap * res unit) :=
  match fuel with
  | O => None
  | S n =>
      match get h a with
      | Some (OPrim _ _ d) =>
          match d, prim_encode (rd h d) with
          | None, Ok _ => Some (put h a (OPrim true None d), Ok tt)
          | Some _, Ok b => let (h1, s) := new_block h b in Some (put h1 a (OPrim true (Some s) d), Ok tt)
          | _, Err => Some (h, Err)
          | _, Panic => Some (h, Panic)
          end
      | Some (OArr _ _ _ l) =>
          match size_header 6 (length l) with
          | Ok (magic, sizes) =>
              match enc_all (venc n) h l with
              | None => None
              | Some (h1, Ok content) =>
                  match with_content magic sizes content with
                  | Ok b => let (h2, s) := new_block h1 b in Some (put h2 a (OArr true (Some s) (zlen b) l), Ok tt)
                  | Err => Some (h1, Err)
                  | Panic => Some (h1, Panic)
                  end
              | Some (h1, Err) => Some (h1, Err)
              | Some (h1, Panic) => Some (h1, Panic)
              end
          | _ => Some (h, Err)
          end
      | Some (ORecs _ _ est l) =>
          match size_header 4 (length l) with
          | Ok (magic, sizes) =>
              match enc_all (renc n) h l with
              | None => None
              | Some (h1, Ok content) =>
                  match with_content magic sizes content with
                  | Ok b => let (h2, s) := new_block h1 b in Some (put h2 a (ORecs true (Some s) est l), Ok tt)
                  | Err => Some (h1, Err)
                  | Panic => Some (h1, Panic)
                  end
              | Some (h1, Err) => Some (h1, Err)
              | Some (h1, Panic) => Some (h1, Panic)
              end
          | _ => Some (h, Err)
          end
      | Some (OStd _) | Some (OSimple _ _) => Some (h, Err)
      | _ => Some (h, Panic)
      end
  end
with renc (fuel : nat) (h : heap) (a : ref) : option (heap * res unit) :=
  match fuel with
  | O => None
  | S n =>
      match get h a with
      | Some (ORec _ _ est k v s t sr ss) =>
          match enc_part is_empty_of (fun h x => Some (key_enc h x)) h k with
          | None => None
          | Some (h1, Err) => Some (h1, Err)
          | Some (h1, Panic) => Some (h1, Panic)
          | Some (h1, Ok (kb, kbytes)) =>
              match enc_part is_nil_of (venc n) h1 v with
              | None => None
              | Some (h2, Err) => Some (h2, Err)
              | Some (h2, Panic) => Some (h2, Panic)
              | Some (h2, Ok (vb, vbytes)) =>
                  match enc_part is_nil_of (venc n) h2 s with
                  | None => None
                  | Some (h3, Err) => Some (h3, Err)
                  | Some (h3, Panic) => Some (h3, Panic)
                  | Some (h3, Ok (sb, sbytes)) =>
                      let (tb, tbytes) := tail_part t sr ss in
                      let b := n2b (N.lor (N.lor (N.lor (part_bit kb 6) (part_bit vb 5)) (part_bit sb 4)) tb)
                               :: kbytes ++ vbytes ++ sbytes ++ tbytes in
                      let (h4, sl) := new_block h3 b in
                      Some (put h4 a (ORec true (Some sl) est k v s t sr ss), Ok tt)
                  end
              end
          end
      | Some (OMapped _) => Some (h, Err)
      | _ => Some (h, Panic)
      end
  end.

(** ** Copy: the new heap and the copy. Primitive.Copy 749-761, ValueArray.Copy 949-963, RecordList.Copy 1185-1199,
    StandardMappedValue.Copy 516-526, SimpleMappedValue.Copy 165-175; Record.Copy, record_util.go:481-504,
    MappedRecord.Copy 255-264; Key.Copy, key_util.go:440-449, EmptyKey.Copy 81-83, MappedKey.Copy 244-251. A copied key
    holds the very slices of the original: Add, 545-554, does not copy. *)
Fixpoint add_slices (h : heap) (e : bool) (ks : list (option slc)) (b : option slc) (est : Z) (l : list (option slc)) : res obj :=
  match l with
  | [] => Ok (OKeyObj e ks b est)
  | s :: l' =>
      match gcontent (rd h s) with
      | [] => Panic
      | c => add_slices h e (ks ++ [s]) b (est + 1 + zlen c) l'
      end
  end.
Definition key_copy (h : heap) (a : ref) : heap * res ref :=
  match get h a with
  | Some (OKeyObj _ ks _ _) =>
      match add_slices h false [] None 1 ks with
      | Ok o => let (h1, x) := new_obj h o in (h1, Ok x)
      | _ => (h, Panic)
      end
  | Some OEmptyKey => let (h1, x) := new_obj h OEmptyKey in (h1, Ok x)
  | Some (OMKey _ b) =>
      match new_mapped_key (Some b) with
      | Ok (KMapped ks' b', _) => let (h1, x) := new_obj h (OMKey ks' b') in (h1, Ok x)
      | _ => (h, Panic)
      end
  | _ => (h, Panic)
  end.
Fixpoint copy_all (cp : heap -> ref -> option (heap * res ref)) (h : heap) (l : list ref) : option (heap * res (list ref)) :=
  match l with
  | [] => Some (h, Ok [])
  | x :: l' =>
      match cp h x with
      | None => None
      | Some (h1, Ok y) =>
          match copy_all cp h1 l' with
          | None => None
          | Some (h2, Ok ys) => Some (h2, Ok (y :: ys))
          | Some (h2, r) => Some (h2, r)
          end
      | Some (h1, Err) => Some (h1, Err)
      | Some (h1, Panic) => Some (h1, Panic)
      end
  end.
Definition copy_part (cp : heap -> ref -> option (heap * res ref)) (h : heap) (p : option ref) : option (heap * res (option ref)) :=
  match p with
  | None => Some (h, Ok None)
  | Some x =>
      match cp h x with
      | None => None
      | Some (h1, Ok y) => Some (h1, Ok (Some y))
      | Some (h1, Err) => Some (h1, Err)
      | Some (h1, Panic) => Some (h1, Panic)
      end
  end.
Fixpoint vcopy (fuel : nat) (h : heap) (a : ref) : option (heap * res ref) :=
  match fuel with
  | O => None
  | S n =>
      match get h a with
      | Some (OPrim _ _ None) => let (h1, x) := new_obj h (OPrim false None None) in Some (h1, Ok x)
      | Some (OPrim _ _ (Some d)) =>
          let (h1, s) := new_block h (gcontent (rd h (Some d))) in
          let (h2, x) := new_obj h1 (OPrim false None (Some s)) in Some (h2, Ok x)
      | Some (OArr _ _ _ l) =>
          match copy_all (vcopy n) h l with
          | None => None
          | Some (h1, Ok l') => let (h2, x) := new_obj h1 (OArr false None 1 l') in Some (h2, Ok x)
          | Some (h1, Err) => Some (h1, Err)
          | Some (h1, Panic) => Some (h1, Panic)
          end
      | Some (ORecs _ _ _ l) =>
          match copy_all (rcopy n) h l with
          | None => None
          | Some (h1, Ok l') => let (h2, x) := new_obj h1 (ORecs false None 1 l') in Some (h2, Ok x)
          | Some (h1, Err) => Some (h1, Err)
          | Some (h1, Panic) => Some (h1, Panic)
          end
      | Some (OStd m) =>
          match new_std_value (mv_buf m) with
          | Ok (m', _) => let (h1, x) := new_obj h (OStd m') in Some (h1, Ok x)
          | _ => Some (h, Panic)
          end
      | Some (OSimple b _) =>
          match new_simple_value b with
          | Ok (VSimple b' c', _) => let (h1, x) := new_obj h (OSimple b' c') in Some (h1, Ok x)
          | _ => Some (h, Panic)
          end
      | _ => Some (h, Panic)
      end
  end
with rcopy (fuel : nat) (h : heap) (a : ref) : option (heap * res ref) :=
  match fuel with
  | O => None
  | S n =>
      match get h a with
      | Some (ORec _ _ _ k v s t sr ss) =>
          match copy_part (fun h x => Some (key_copy h x)) h k with
          | None => None
          | Some (h1, Err) => Some (h1, Err)
          | Some (h1, Panic) => Some (h1, Panic)
          | Some (h1, Ok k') =>
              match copy_part (vcopy n) h1 v with
              | None => None
              | Some (h2, Err) => Some (h2, Err)
              | Some (h2, Panic) => Some (h2, Panic)
              | Some (h2, Ok v') =>
                  match copy_part (vcopy n) h2 s with
                  | None => None
                  | Some (h3, Err) => Some (h3, Err)
                  | Some (h3, Panic) => Some (h3, Panic)
                  | Some (h3, Ok s') =>
                      let (h4, x) := new_obj h3 (ORec false None (0, 0, 0) k' v' s' t sr ss) in Some (h4, Ok x)
                  end
              end
          end
      | Some (OMapped r) =>
          match new_mapped_record (mr_buf r) with
          | Ok (r', _) => let (h1, x) := new_obj h (OMapped r') in Some (h1, Ok x)
          | _ => Some (h, Panic)
          end
      | _ => Some (h, Panic)
      end
  end.

(** ** Calls of a client. [Write] is an assignment to a byte of any block the client can see: its own slices and the
    slices returned by Buf. [Parsed] brings in an object made by one of the parsers. SetK, SetV and SetS are a
    constructor followed by the corresponding setter. *)
Inductive op : Type :=
| NewBytes (b : bytes)
| Write (blk i : nat) (x : byte)
| NewPrim (d : option slc)
| NewArr
| NewRecs
| NewRec
| NewKeyObj
| NewSimpleKeyObj (d : option slc)
| Parsed (o : obj)
| AppendVal (a x : ref)
| DeleteVal (a : ref) (i : N)
| AppendRec (a x : ref)
| DeleteRec (a : ref) (i : N)
| AddSub (a : ref) (s : option slc)
| SetKeyOf (a k : ref)
| SetValOf (a v : ref)
| SetSchemeOf (a v : ref)
| SetTimeOf (a : ref) (t : option Z)
| SetSigOf (a : ref) (r s : option Z)
| EncodeVal (fuel : nat) (a : ref)
| EncodeRec (fuel : nat) (a : ref)
| EncodeKey (a : ref)
| CopyVal (fuel : nat) (a : ref)
| CopyRec (fuel : nat) (a : ref)
| CopyKey (a : ref).

(** A slice that exists: Go allows no other. *)
Definition slice_ok (h : heap) (s : option slc) : bool :=
  match s with
  | None => true
  | Some s => Nat.ltb (sl_blk s) (length (mem h)) && Nat.leb (sl_off s + sl_len s) (length (nth (sl_blk s) (mem h) []))
  end.
Definition is_parsed (o : obj) : bool :=
  match o with OStd _ | OSimple _ _ | OMapped _ | OEmptyKey | OMKey _ _ => true | _ => false end.
Definition delete_at {A} (l : list A) (i : N) : list A := firstn (N.to_nat i) l ++ skipn (S (N.to_nat i)) l.
(** Types of references. *)
Definition is_val (h : heap) (a : ref) : bool :=
  match get h a with Some (OPrim _ _ _) | Some (OArr _ _ _ _) | Some (ORecs _ _ _ _) | Some (OStd _) | Some (OSimple _ _) => true | _ => false end.
Definition is_rec (h : heap) (a : ref) : bool :=
  match get h a with Some (ORec _ _ _ _ _ _ _ _ _) | Some (OMapped _) => true | _ => false end.
Definition is_key (h : heap) (a : ref) : bool :=
  match get h a with Some (OKeyObj _ _ _ _) | Some OEmptyKey | Some (OMKey _ _) => true | _ => false end.

(** One call: the heap afterwards. [None]: the call is ill-typed, panics or does not return; the history ends. A
    returned error is not the end: Append 989-994 and 1225-1230, DeleteAt 996-1006 and 1232-1242, Add, key_util.go:545-554,
    SetKey 546-551, SetValue 560-565, SetScheme 574-579, SetTimestamp 588-592, SetSignature 594-599. *)
Definition step (h : heap) (o : op) : option heap :=
  match o with
  | NewBytes b => Some (fst (new_block h b))
  | Write k i x =>
      match nth_error (mem h) k with
      | Some b => if Nat.ltb i (length b) then Some (Heap (upd (mem h) k (upd b i x)) (objs h)) else None
      | None => None
      end
  | NewPrim d => if slice_ok h d then Some (fst (new_obj h (OPrim false None d))) else None
  | NewArr => Some (fst (new_obj h (OArr false None 1 [])))
  | NewRecs => Some (fst (new_obj h (ORecs false None 1 [])))
  | NewRec => Some (fst (new_obj h (ORec false None (0, 0, 0) None None None None None None)))
  | NewKeyObj => Some (fst (new_obj h (OKeyObj false [] None 1)))
  | NewSimpleKeyObj d =>
      if slice_ok h d then Some (fst (new_obj h (OKeyObj false [d] None (2 + zlen (gcontent (rd h d)))))) else None
  | Parsed o => if is_parsed o then Some (fst (new_obj h o)) else None
  | AppendVal a x =>
      match get h a, est_of h x with
      | Some (OArr _ b e l), Ok n => if is_val h x then Some (put h a (OArr false b (e + n) (l ++ [x]))) else None
      | _, _ => None
      end
  | DeleteVal a i =>
      match get h a with
      | Some (OArr _ b e l) =>
          if (uint16 (N.of_nat (length l)) <=? i)%N then None
          else match nth_error l (N.to_nat i) with
               | Some x => match est_of h x with Ok n => Some (put h a (OArr false b (e - n) (delete_at l i))) | _ => None end
               | None => None
               end
      | _ => None
      end
  | AppendRec a x =>
      match get h a, est_of h x with
      | Some (ORecs _ b e l), Ok n => if is_rec h x then Some (put h a (ORecs false b (e + n) (l ++ [x]))) else None
      | _, _ => None
      end
  | DeleteRec a i =>
      match get h a with
      | Some (ORecs _ b e l) =>
          if (uint16 (N.of_nat (length l)) <=? i)%N then None
          else match nth_error l (N.to_nat i) with
               | Some x => match est_of h x with Ok n => Some (put h a (ORecs false b (e - n) (delete_at l i))) | _ => None end
               | None => None
               end
      | _ => None
      end
  | AddSub a s =>
      match get h a with
      | Some (OKeyObj e ks b est) =>
          if slice_ok h s
          then match add_slices h e ks b est [s] with Ok o' => Some (put h a o') | _ => None end
          else None
      | _ => None
      end
  | SetKeyOf a k =>
      match get h a, est_of h k with
      | Some (ORec _ b (_, ev, es) _ v s t r q), Ok n =>
          if is_key h k then Some (put h a (ORec false b (n, ev, es) (Some k) v s t r q)) else None
      | _, _ => None
      end
  | SetValOf a v =>
      match get h a, est_of h v with
      | Some (ORec _ b (ek, _, es) k _ s t r q), Ok n =>
          if is_val h v then Some (put h a (ORec false b (ek, n, es) k (Some v) s t r q)) else None
      | _, _ => None
      end
  | SetSchemeOf a v =>
      match get h a, est_of h v with
      | Some (ORec _ b (ek, ev, _) k w _ t r q), Ok n =>
          if is_val h v then Some (put h a (ORec false b (ek, ev, n) k w (Some v) t r q)) else None
      | _, _ => None
      end
  | SetTimeOf a t =>
      match get h a with
      | Some (ORec _ b e k v s _ r q) => Some (put h a (ORec false b e k v s t r q))
      | _ => None
      end
  | SetSigOf a r q =>
      match get h a with
      | Some (ORec _ b e k v s t _ _) => Some (put h a (ORec false b e k v s t r q))
      | _ => None
      end
  | EncodeVal n a => match venc n h a with Some (h', Ok _) | Some (h', Err) => Some h' | _ => None end
  | EncodeRec n a => match renc n h a with Some (h', Ok _) | Some (h', Err) => Some h' | _ => None end
  | EncodeKey a => match key_enc h a with (h', Ok _) | (h', Err) => Some h' | _ => None end
  | CopyVal n a => match vcopy n h a with Some (h', Ok _) | Some (h', Err) => Some h' | _ => None end
  | CopyRec n a => match rcopy n h a with Some (h', Ok _) | Some (h', Err) => Some h' | _ => None end
  | CopyKey a => match key_copy h a with (h', Ok _) | (h', Err) => Some h' | _ => None end
  end.
Definition empty_heap : heap := Heap [] [].
Fixpoint run (h : heap) (ops : list op) : option heap :=
  match ops with [] => Some h | o :: ops' => match step h o with Some h' => run h' ops' | None => None end end.
