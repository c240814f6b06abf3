(** * Model of values and records (/repo/src/util/value_util.go, /repo/src/util/record_util.go).

    Encode stores its bytes in the object and Buf returns them; here [value_encode] is the result of Encode
    followed by Buf. Objects reachable through several pointers are not modelled: a value held by an array or a
    record is not changed behind its back. The cells of parsed arrays, which ValueAt fills lazily, are
    modelled as state. *)
From Coq Require Import List NArith ZArith Bool.
From Coq Require Import Strings.Byte.
From Verif Require Import Base EndianModel VarintModel KeyModel.
Import ListNotations.
Local Open Scope Z_scope.

(** MAX_VALUE_LENGTH and MAX_SCHEME_LENGTH, const_util.go:20-21 (MAX_KEY_LENGTH is in KeyModel). *)
Definition max_value_length : Z := 57344.
Definition max_scheme_length : Z := 1024.

(** ** Parsed values and records

    [mval]: StandardMappedValue, value_util.go:189-200, decoded. [vcell]: an entry of [data_array]: nil, a nil
    *StandardMappedValue inside a non-nil interface (left behind by a failed parse), or a parsed value.
    [mrec]: MappedRecord, record_util.go:38-49, decoded. *)
Inductive mval : Type :=
| MVal (buf content : bytes) (body : mbody)
with mbody : Type :=
| BPrim
| BArr (cells : list vcell)
| BRec (cells : list rcell)
with vcell : Type :=
| VEmpty
| VBroken
| VCell (m : mval)
with rcell : Type :=
| REmpty
| RBroken
| RCell (r : mrec)
with mrec : Type :=
| MRec (buf : bytes) (key : ikey) (value scheme : mval) (ts : option Z) (sig : option (Z * Z)).

Definition mv_buf (m : mval) : bytes := match m with MVal b _ _ => b end.
Definition mv_content (m : mval) : bytes := match m with MVal _ c _ => c end.
Definition mv_body (m : mval) : mbody := match m with MVal _ _ b => b end.
Definition mr_buf (r : mrec) : bytes := match r with MRec b _ _ _ _ _ => b end.

(** StandardMappedValue.Decode, value_util.go:396-511, the data-array part 403-426 (magic bits 7-6): body so far, position,
    [format_is_set]. *)
Definition decode_array_bits (buf : bytes) (magic : N) : res (mbody * Z * bool) :=
  match ((magic / 64) mod 4)%N with
  | 0%N => Ok (BPrim, 1, false)
  | 1%N => if zlen buf <? 1 + 1 then Err
           else let? s := go_index buf 1 in Ok (BArr (repeat VEmpty (N.to_nat (b2n s))), 2, true)
  | 2%N => if zlen buf <? 2 + 1 then Err
           else let? rest := go_from buf 1 in
                let? s := be_read 2 rest in Ok (BArr (repeat VEmpty (N.to_nat s)), 3, true)
  | _ => Err
  end.

(** The record-list part, value_util.go:428-457 (magic bits 5-4). *)
Definition decode_record_bits (buf : bytes) (magic : N) (body : mbody) (pos : Z) (set : bool) : res (mbody * Z) :=
  match ((magic / 16) mod 4)%N with
  | 0%N => Ok (body, pos)
  | 1%N => if set then Err
           else if zlen buf <? 1 + pos then Err
           else let? s := go_index buf pos in Ok (BRec (repeat REmpty (N.to_nat (b2n s))), pos + 1)
  | 2%N => if set then Err
           else if zlen buf <? 2 + pos then Err
           else let? rest := go_from buf pos in
                let? s := be_read 2 rest in Ok (BRec (repeat REmpty (N.to_nat s)), pos + 2)
  | _ => Err
  end.

(** The content part, value_util.go:479-504 (magic bits 1-0): content length and end position. *)
Definition decode_length_bits (buf : bytes) (magic : N) (pos : Z) : res (Z * Z) :=
  match (magic mod 4)%N with
  | 0%N => Ok (0, pos)
  | 1%N => if zlen buf <? 1 + pos then Err
           else let? n := go_index buf pos in
                let n := Z.of_N (b2n n) in
                if zlen buf <? 1 + pos + n then Err else Ok (n, pos + 1 + n)
  | 2%N => if zlen buf <? 2 + pos then Err
           else let? rest := go_from buf pos in
                let? n := be_read 2 rest in
                let n := Z.of_N n in
                if zlen buf <? 2 + pos + n then Err else Ok (n, pos + 2 + n)
  | _ => Err
  end.

(** Decode, value_util.go:396-511, on the buffer of a new object; on an error the object is dropped by the
    constructor. *)
Definition std_decode (buf : bytes) : res (mval * Z) :=
  let? b0 := go_index buf 0 in
  let magic := b2n b0 in
  let? (body, pos, set) := decode_array_bits buf magic in
  let? (body, pos) := decode_record_bits buf magic body pos set in
  if N.testbit magic 3 then Err                  (* lookup, 459-467 *)
  else if N.testbit magic 2 then Err             (* compression, 469-477 *)
  else
    let? (n, pos) := decode_length_bits buf magic pos in
    let? content := go_slice buf (pos - n) pos in
    let? buf' := go_upto buf pos in
    Ok (MVal buf' content body, pos).

(** NewStandardMappedValue, value_util.go:205-220. *)
Definition new_std_value (buf : bytes) : res (mval * Z) :=
  if zlen buf <? 1 then Err else std_decode buf.

(** IsNil 225-227 (the buffer of a parsed value is never empty), IsPrimitive 229-236, IsValueArray 238-245,
    IsRecordList 247-254, Size 256-263, Value 356-367. The slices made
    by Decode are non-nil even for size 0. *)
Definition mv_is_nil (m : mval) : bool := match mv_buf m with b :: _ => N.eqb (b2n b) 0 | [] => true end.
Definition mv_is_primitive (m : mval) : bool := match mv_body m with BPrim => true | _ => false end.
Definition mv_is_array (m : mval) : bool := match mv_body m with BArr _ => true | _ => false end.
Definition mv_is_records (m : mval) : bool := match mv_body m with BRec _ => true | _ => false end.
Definition mv_size (m : mval) : N :=
  match mv_body m with BPrim => 0 | BArr cs => N.of_nat (length cs) | BRec cs => N.of_nat (length cs) end%N.
Definition mv_value (m : mval) : gslice := match mv_body m with BPrim => Some (mv_content m) | _ => None end.

(** The loop of ValueAt, value_util.go:285-297: fills the cells up to the requested one. The cells are changed
    even when the call fails: a failed parse stores a nil pointer. *)
Fixpoint load_values (content : bytes) (cells : list vcell) (todo : nat) (pos : Z) : list vcell * res unit :=
  match todo, cells with
  | O, _ => (cells, Ok tt)
  | S _, [] => (cells, Panic)
  | S n, VEmpty :: cs =>
      if zlen content <? pos then (cells, Err)
      else match (let? rest := go_from content pos in new_std_value rest) with
           | Ok (m, _) => let (cs', r) := load_values content cs n (pos + zlen (mv_buf m)) in (VCell m :: cs', r)
           | Err => (VBroken :: cs, Err)
           | Panic => (cells, Panic)
           end
  | S _, VBroken :: _ => (cells, Panic)            (* Buf on a nil pointer *)
  | S n, VCell m :: cs => let (cs', r) := load_values content cs n (pos + zlen (mv_buf m)) in (VCell m :: cs', r)
  end.

(** ValueAt, value_util.go:265-300 (a parsed value is always decoded). [Ok VBroken] is the nil pointer returned without an error. *)
Definition value_at (m : mval) (idx : N) : mval * res vcell :=
  match m with
  | MVal buf content (BArr cells) =>
      match nth_error cells (N.to_nat idx) with
      | None => (m, Err)
      | Some VEmpty =>
          let (cells', r) := load_values content cells (S (N.to_nat idx)) 0 in
          (MVal buf content (BArr cells'),
           let? _ := r in match nth_error cells' (N.to_nat idx) with Some c => Ok c | None => Panic end)
      | Some c => (m, Ok c)
      end
  | _ => (m, Err)
  end.

(** BytesToTime of the record timestamp and the 64 signature bytes, record_util.go:214-242: timestamp,
    signature, end position. *)
Definition decode_record_tail (buf : bytes) (magic : N) (pos : Z) : res (option Z * option (Z * Z) * Z) :=
  let? (ts, pos) :=
    (if N.testbit magic 2 then
       if zlen buf <? pos then Err
       else let? rest := go_from buf pos in
            let? t := bytes_to_time rest in Ok (Some t, pos + 8)
     else Ok (None, pos)) in
  if N.testbit magic 1 then
    if zlen buf <? pos then Err
    else if zlen buf <? pos + 64 then Ok (ts, None, pos)
    else let? r := go_slice buf pos (pos + 32) in
         let? s := go_slice buf (pos + 32) (pos + 64) in
         Ok (ts, Some (bytes_to_big r, bytes_to_big s), pos + 64)
  else Ok (ts, None, pos).

(** MappedRecord.Decode, record_util.go:157-250. An absent key, value or scheme stays a nil interface, on which
    the call of Buf panics. *)
Definition record_decode (buf : bytes) : res (mrec * Z) :=
  let? b0 := go_index buf 0 in
  let magic := b2n b0 in
  let? key := (if N.testbit magic 6
               then let? rest := go_from buf 1 in let? (k, _) := new_mapped_key (Some rest) in Ok k
               else Panic) in
  let? kbuf := ikey_buf key in
  if max_key_length <? zlen (gcontent kbuf) then Err
  else
    let pos := 1 + zlen (gcontent kbuf) in
    if zlen buf <? pos then Err
    else
      let? value := (if N.testbit magic 5
                     then let? rest := go_from buf pos in let? (v, _) := new_std_value rest in Ok v
                     else Panic) in
      if max_value_length <? zlen (mv_buf value) then Err
      else
        let pos := pos + zlen (mv_buf value) in
        if zlen buf <? pos then Err
        else
          let? scheme := (if N.testbit magic 4
                          then let? rest := go_from buf pos in let? (v, _) := new_std_value rest in Ok v
                          else Panic) in
          if max_scheme_length <? zlen (mv_buf scheme) then Err
          else
            let pos := pos + zlen (mv_buf scheme) in
            let? (ts, sig, pos) := decode_record_tail buf magic pos in
            let? buf' := go_upto buf pos in
            Ok (MRec buf' key value scheme ts sig, pos).

(** NewMappedRecord, record_util.go:54-71. *)
Definition new_mapped_record (buf : bytes) : res (mrec * Z) :=
  if zlen buf <? 1 then Err else record_decode buf.

(** The loop of RecordAt, value_util.go:322-333, and RecordAt, 302-336. *)
Fixpoint load_records (content : bytes) (cells : list rcell) (todo : nat) (pos : Z) : list rcell * res unit :=
  match todo, cells with
  | O, _ => (cells, Ok tt)
  | S _, [] => (cells, Panic)
  | S n, REmpty :: cs =>
      if zlen content <? pos then (cells, Err)
      else match (let? rest := go_from content pos in new_mapped_record rest) with
           | Ok (m, _) => let (cs', r) := load_records content cs n (pos + zlen (mr_buf m)) in (RCell m :: cs', r)
           | Err => (RBroken :: cs, Err)
           | Panic => (cells, Panic)
           end
  | S _, RBroken :: _ => (cells, Panic)
  | S n, RCell m :: cs => let (cs', r) := load_records content cs n (pos + zlen (mr_buf m)) in (RCell m :: cs', r)
  end.
Definition record_at (m : mval) (idx : N) : mval * res rcell :=
  match m with
  | MVal buf content (BRec cells) =>
      match nth_error cells (N.to_nat idx) with
      | None => (m, Err)
      | Some REmpty =>
          let (cells', r) := load_records content cells (S (N.to_nat idx)) 0 in
          (MVal buf content (BRec cells'),
           let? _ := r in match nth_error cells' (N.to_nat idx) with Some c => Ok c | None => Panic end)
      | Some c => (m, Ok c)
      end
  | _ => (m, Err)
  end.

(** ** Constructed values and records

    [VPrim]: Primitive, value_util.go:591-598. [VArr est elems]: ValueArray, 772-779, with its [estBufSize]; its
    slice is never nil when made with NewValueArray. [VRecs est elems]: RecordList, 1011-1018. [VStd]: a parsed
    value used as an element. [VSimple buf content]: SimpleMappedValue, 55-61. [Rec est ...]: Record,
    record_util.go:299-313, with estKeySize, estDataSize and estSchemeSize; nil pointers inside non-nil interfaces
    are not modelled. [RMapped]: a parsed record used as an element. *)
Inductive value : Type :=
| VPrim (data : gslice)
| VArr (est : Z) (elems : list value)
| VRecs (est : Z) (elems : list record)
| VStd (m : mval)
| VSimple (buf content : bytes)
with record : Type :=
| Rec (est : Z * Z * Z) (key : option ikey) (val scheme : option value) (ts sig_r sig_s : option Z)
| RMapped (r : mrec).

(** NewSimpleMappedValue and Decode, value_util.go:66-75, 147-160. *)
Definition new_simple_value (buf : bytes) : res (value * Z) :=
  let? (data, n) := decode_varchar buf in
  let? buf' := go_upto buf n in
  Ok (VSimple buf' data, n).

(** IsNil, value_util.go:80-82, 225-227, 610-612, 791-793, 1030-1032. *)
Definition value_is_nil (v : value) : bool :=
  match v with
  | VPrim d => match gcontent d with [] => true | _ => false end
  | VArr _ l => match l with [] => true | _ => false end
  | VRecs _ l => match l with [] => true | _ => false end
  | VStd m => mv_is_nil m
  | VSimple _ c => match c with [] => true | _ => false end
  end.

(** Primitive.Encode, value_util.go:690-736. *)
Definition prim_encode (d : gslice) : res bytes :=
  match d with
  | None => Ok []
  | Some data =>
      let n := zlen data in
      if n =? 0 then Ok [x00]
      else if n <? 256 then Ok (x01 :: n2b (Z.to_N n) :: data)
      else if n <? 65536 then Ok (x02 :: n2b (N.shiftr (Z.to_N n) 8) :: n2b (Z.to_N n) :: data)
      else Err
  end.

(** The size header of ValueArray.Encode (877-891, [shift] = 6) and RecordList.Encode (1115-1129, [shift] = 4):
    magic byte so far and size bytes. *)
Definition size_header (shift : N) (n : nat) : res (N * bytes) :=
  let size := Z.of_nat n in
  if size =? 0 then Ok (0%N, [])
  else if size <? 256 then Ok (N.shiftl 1 shift, [n2b (Z.to_N size)])
  else if size <? 65536 then Ok (N.shiftl 2 shift, [n2b (N.shiftr (Z.to_N size) 8); n2b (Z.to_N size)])
  else Err.
(** The content part, 903-935 and 1142-1171. *)
Definition with_content (magic : N) (sizes content : bytes) : res bytes :=
  let n := zlen content in
  if n =? 0 then Ok (n2b magic :: sizes)
  else if n <? 256 then Ok (n2b (N.lor magic 1) :: sizes ++ n2b (Z.to_N n) :: content)
  else if n <? 65536 then
    Ok (n2b (N.lor magic 2) :: sizes ++ n2b (N.shiftr (Z.to_N n) 8) :: n2b (Z.to_N n) :: content)
  else Err.

(** Key part of Record.Encode, record_util.go:413-423: magic bit and bytes. *)
Definition key_part (key : option ikey) : res (N * bytes) :=
  match key with
  | None => Ok (0%N, [])
  | Some k =>
      if ikey_is_empty k then Ok (0%N, [])
      else let? k' := key_encode k in
           let? b := ikey_buf k' in
           Ok (N.shiftl 1 6, gcontent b)
  end.
(** Timestamp and signature part, record_util.go:449-461. *)
Definition tail_part (ts sig_r sig_s : option Z) : N * bytes :=
  match ts with
  | None => (0%N, [])
  | Some t =>
      match sig_r, sig_s with
      | Some r, Some s => (N.lor (N.shiftl 1 2) (N.shiftl 1 1), time_to_bytes t ++ big_to_bytes r ++ big_to_bytes s)
      | _, _ => (N.shiftl 1 2, time_to_bytes t)
      end
  end.

(** Encode followed by Buf: SimpleMappedValue 139-141 and StandardMappedValue 388-390 refuse, Primitive 690-736,
    ValueArray 870-936, RecordList 1109-1172; Record, record_util.go:409-468; MappedRecord 149-151 refuses. *)
Fixpoint value_encode (v : value) : res bytes :=
  match v with
  | VPrim d => prim_encode d
  | VArr _ l =>
      let? (magic, sizes) := size_header 6 (length l) in
      let? content := (fix go (l : list value) : res bytes :=
        match l with [] => Ok [] | x :: l' => let? b := value_encode x in let? r := go l' in Ok (b ++ r) end) l in
      with_content magic sizes content
  | VRecs _ l =>
      let? (magic, sizes) := size_header 4 (length l) in
      let? content := (fix go (l : list record) : res bytes :=
        match l with [] => Ok [] | x :: l' => let? b := record_encode x in let? r := go l' in Ok (b ++ r) end) l in
      with_content magic sizes content
  | VStd _ => Err
  | VSimple _ _ => Err
  end
with record_encode (r : record) : res bytes :=
  match r with
  | Rec _ key val scheme ts sig_r sig_s =>
      let? (kb, kbytes) := key_part key in
      let? (vb, vbytes) :=
        match val with
        | None => Ok (0%N, [])
        | Some v => if value_is_nil v then Ok (0%N, [])
                    else let? b := value_encode v in Ok (N.shiftl 1 5, b)
        end in
      let? (sb, sbytes) :=
        match scheme with
        | None => Ok (0%N, [])
        | Some v => if value_is_nil v then Ok (0%N, [])
                    else let? b := value_encode v in Ok (N.shiftl 1 4, b)
        end in
      let (tb, tbytes) := tail_part ts sig_r sig_s in
      Ok (n2b (N.lor (N.lor (N.lor kb vb) sb) tb) :: kbytes ++ vbytes ++ sbytes ++ tbytes)
  | RMapped _ => Err
  end.

(** EstBufSize, value_util.go:131-133, 380-382, 674-684, 858-864, 1097-1103; record_util.go:141-143, 366-403. *)
Definition value_est (v : value) : Z :=
  match v with
  | VPrim d =>
      let n := zlen (gcontent d) in
      if n <? 128 then 1 + n else if n <? 32768 then 2 + n else if n <? 8388608 then 3 + n else 4 + n
  | VArr est _ => if est <=? 0 then 1 else est
  | VRecs est _ => if est <=? 0 then 1 else est
  | VStd m => zlen (mv_buf m)
  | VSimple buf _ => zlen buf
  end.
Definition at_least_1 (n : Z) : Z := if n <=? 0 then 1 else n.
Definition record_est (r : record) : Z :=
  match r with
  | RMapped m => zlen (mr_buf m)
  | Rec (ek, ev, es) _ _ _ ts sig_r sig_s =>
      1 + at_least_1 ek + at_least_1 ev + at_least_1 es
      + (match ts with Some _ => 8 | None => 0 end)
      + (match sig_r, sig_s with Some _, Some _ => 64 | _, _ => 0 end)
  end.

(** ** ValueArray as an object: NewValueArray 784-786, Size 807-809, ValueAt 811-818, Append 989-994,
    DeleteAt 996-1006, and the update of [estBufSize] by Encode 870-936. *)
Definition uint16 (n : N) : N := (n mod 65536)%N.
Definition new_value_array : value := VArr 1 [].
Definition va_elems (v : value) : list value := match v with VArr _ l => l | _ => [] end.
Definition va_size (v : value) : N := uint16 (N.of_nat (length (va_elems v))).
Definition va_value_at (v : value) (idx : N) : res value :=
  if (va_size v <=? idx)%N then Err
  else match nth_error (va_elems v) (N.to_nat idx) with Some x => Ok x | None => Panic end.
Definition va_append (v : value) (x : value) : value :=
  match v with VArr est l => VArr (est + value_est x) (l ++ [x]) | _ => v end.
Definition va_delete_at (v : value) (idx : N) : res value :=
  match v with
  | VArr est l =>
      if (va_size v <=? idx)%N then Panic
      else match nth_error l (N.to_nat idx) with
           | Some x => Ok (VArr (est - value_est x) (firstn (N.to_nat idx) l ++ skipn (S (N.to_nat idx)) l))
           | None => Panic
           end
  | _ => Panic
  end.
Definition va_encode (v : value) : value * res bytes :=
  match v, value_encode v with
  | VArr _ l, Ok b => (VArr (zlen b) l, Ok b)
  | _, r => (v, r)
  end.

(** RecordList: NewRecordList 1023-1025, Append 1225-1230. *)
Definition new_record_list : value := VRecs 1 [].
Definition rl_append (v : value) (x : record) : value :=
  match v with VRecs est l => VRecs (est + record_est x) (l ++ [x]) | _ => v end.

(** Record: NewRecord 318-320, SetKey 546-551, SetValue 560-565, SetScheme 574-579, SetTimestamp 588-592,
    SetSignature 594-599 (SetK, SetV and SetS wrap their bytes and do the same). *)
Definition new_record : record := Rec (0, 0, 0) None None None None None None.
Definition set_key (r : record) (k : ikey) : record :=
  match r with Rec (_, ev, es) _ v s t a b => Rec (ikey_est k, ev, es) (Some k) v s t a b | _ => r end.
Definition set_value (r : record) (v : value) : record :=
  match r with Rec (ek, _, es) k _ s t a b => Rec (ek, value_est v, es) k (Some v) s t a b | _ => r end.
Definition set_scheme (r : record) (s : value) : record :=
  match r with Rec (ek, ev, _) k v _ t a b => Rec (ek, ev, value_est s) k v (Some s) t a b | _ => r end.
Definition set_timestamp (r : record) (t : option Z) : record :=
  match r with Rec e k v s _ a b => Rec e k v s t a b | _ => r end.
Definition set_signature (r : record) (a b : option Z) : record :=
  match r with Rec e k v s t _ _ => Rec e k v s t a b | _ => r end.

(** ** Copies

    Copy, value_util.go:165-175, 516-526, 749-761, 949-963, 1185-1199, record_util.go:255-264, 481-504. *)
Fixpoint value_copy (v : value) : res value :=
  match v with
  | VPrim d => Ok (VPrim d)
  | VArr _ l =>
      let? l' := (fix go (l : list value) : res (list value) :=
        match l with [] => Ok [] | x :: l' => let? y := value_copy x in let? r := go l' in Ok (y :: r) end) l in
      Ok (VArr 1 l')
  | VRecs _ l =>
      let? l' := (fix go (l : list record) : res (list record) :=
        match l with [] => Ok [] | x :: l' => let? y := record_copy x in let? r := go l' in Ok (y :: r) end) l in
      Ok (VRecs 1 l')
  | VStd m => match new_std_value (mv_buf m) with Ok (m', _) => Ok (VStd m') | _ => Panic end
  | VSimple buf _ => match new_simple_value buf with Ok (v', _) => Ok v' | _ => Panic end
  end
with record_copy (r : record) : res record :=
  match r with
  | Rec _ key val scheme ts sig_r sig_s =>
      let? key' := match key with None => Ok None | Some k => let? k' := ikey_copy k in Ok (Some k') end in
      let? val' := match val with None => Ok None | Some v => let? v' := value_copy v in Ok (Some v') end in
      let? scheme' := match scheme with None => Ok None | Some v => let? v' := value_copy v in Ok (Some v') end in
      Ok (Rec (0, 0, 0) key' val' scheme' ts sig_r sig_s)
  | RMapped m => match new_mapped_record (mr_buf m) with Ok (m', _) => Ok (RMapped m') | _ => Panic end
  end.

(** MappedRecord.CopyConstruct, record_util.go:266-293, given how its values are copied: a failing part is a nil
    interface whose type is asserted before the error is looked at, which panics. *)
Definition assert_part {A} (x : res A) : res A := match x with Err => Panic | r => r end.
Definition mr_copy_with (cc : mval -> res value) (r : mrec) : res record :=
  match r with
  | MRec _ key val scheme ts sig =>
      let? k := assert_part (ikey_copy_construct key) in
      let? v := assert_part (cc val) in
      let? s := assert_part (cc scheme) in
      Ok (Rec (0, 0, 0) (Some k) (Some v) (Some s) ts (option_map fst sig) (option_map snd sig))
  end.

(** The loops of StandardMappedValue.CopyConstruct, value_util.go:543-556 and 564-577. The object changes while its
    elements are loaded. *)
Fixpoint copy_values (cc : mval -> res value) (n : nat) (idx : N) (m : mval) (acc : value) : res value :=
  match n with
  | O => Ok acc
  | S n' =>
      let (m', c) := value_at m idx in
      let? c := c in
      match c with
      | VCell d => let? v := cc d in copy_values cc n' (idx + 1)%N m' (va_append acc v)
      | _ => Panic                                  (* method call on a nil pointer *)
      end
  end.
Fixpoint copy_records (cc : mval -> res value) (n : nat) (idx : N) (m : mval) (acc : value) : res value :=
  match n with
  | O => Ok acc
  | S n' =>
      let (m', c) := record_at m idx in
      let? c := c in
      match c with
      | RCell d => let? r := mr_copy_with cc d in copy_records cc n' (idx + 1)%N m' (rl_append acc r)
      | _ => Panic
      end
  end.

(** StandardMappedValue.CopyConstruct, value_util.go:528-585. [fuel] bounds the nesting; an element's buffer is
    shorter than its parent's, so the length of the buffer is enough. *)
Fixpoint mv_copy_construct (fuel : nat) (m : mval) : res value :=
  match fuel with
  | O => Err
  | S fuel' =>
      match mv_body m with
      | BPrim => Ok (VPrim (Some (mv_content m)))
      | BArr cells => copy_values (mv_copy_construct fuel') (length cells) 0%N m new_value_array
      | BRec cells => copy_records (mv_copy_construct fuel') (length cells) 0%N m new_record_list
      end
  end.
Definition std_copy_construct (m : mval) : res value := mv_copy_construct (S (length (mv_buf m))) m.

(** CopyConstruct of the constructed kinds, value_util.go:177-183, 763-766, 965-984, 1201-1220,
    record_util.go:506-541. *)
Fixpoint value_copy_construct (v : value) : res value :=
  match v with
  | VPrim d => Ok (VPrim d)
  | VArr _ l =>
      let? l' := (fix go (l : list value) : res (list value) :=
        match l with [] => Ok [] | x :: l' => let? y := value_copy_construct x in let? r := go l' in Ok (y :: r) end) l in
      Ok (VArr 1 l')
  | VRecs _ l =>
      let? l' := (fix go (l : list record) : res (list record) :=
        match l with [] => Ok [] | x :: l' => let? y := record_copy_construct x in let? r := go l' in Ok (y :: r) end) l in
      Ok (VRecs 1 l')
  | VStd m => std_copy_construct m
  | VSimple _ c => Ok (VPrim (Some c))
  end
with record_copy_construct (r : record) : res record :=
  match r with
  | Rec _ key val scheme ts sig_r sig_s =>
      let? key' := match key with None => Ok None | Some k => let? k' := ikey_copy_construct k in Ok (Some k') end in
      let? val' := match val with None => Ok None | Some v => let? v' := value_copy_construct v in Ok (Some v') end in
      let? scheme' := match scheme with None => Ok None | Some v => let? v' := value_copy_construct v in Ok (Some v') end in
      Ok (Rec (0, 0, 0) key' val' scheme' ts sig_r sig_s)
  | RMapped m => mr_copy_with std_copy_construct m
  end.
