(** * Model of calling Decode on objects that were parsed before (/repo/src/util/value_util.go,
    /repo/src/util/record_util.go, /repo/src/util/key_util.go).

    A parsed object keeps a window on the buffer of its caller, who may write other bytes there and call Decode
    again. Here an object is what its struct holds, and [mem] are the bytes now in the buffer it was parsed from, from
    its first byte on. Decode changes the struct as it goes, also when it fails in the end. The elements of arrays and
    record lists, which ValueAt and RecordAt parse later, are only counted; what they say after writes is the matter of
    the model of views. The parts of a record are taken as they were when parsed. *)
From Coq Require Import List NArith ZArith Bool.
From Coq Require Import Strings.Byte.
From Verif Require Import Base EndianModel VarintModel KeyModel ValueModel KindModel.
Import ListNotations.
Local Open Scope Z_scope.

(** ** StandardMappedValue, value_util.go:189-200: length of [buf], lengths of [data_array] and [record_list] unless
    nil, [size], [content] as a range of [buf], [decoded]. *)
Record sval : Type := SVal {
  s_len : nat;
  s_arr : option N;
  s_recs : option N;
  s_size : N;
  s_content : nat * nat;
  s_decoded : bool }.

(** The object made by NewStandardMappedValue, 211, before Decode. *)
Definition s_new (len : nat) : sval := SVal len None None 0 (0%nat, 0%nat) false.
Definition s_buf (mem : bytes) (o : sval) : bytes := firstn (s_len o) mem.

Definition put_array (o : sval) (n : N) : sval :=
  SVal (s_len o) (Some n) (s_recs o) n (s_content o) (s_decoded o).
Definition put_records (o : sval) (n : N) : sval :=
  SVal (s_len o) (s_arr o) (Some n) n (s_content o) (s_decoded o).

(** Decode, the data-array part 403-426: the object, position and [format_is_set]. *)
Definition s_array_part (buf : bytes) (magic : N) (o : sval) : sval * res (Z * bool) :=
  match ((magic / 64) mod 4)%N with
  | 0%N => (o, Ok (1, false))
  | 1%N => if zlen buf <? 1 + 1 then (o, Err)
           else match go_index buf 1 with
                | Ok s => (put_array o (b2n s), Ok (2, true))
                | Err => (o, Err)
                | Panic => (o, Panic)
                end
  | 2%N => if zlen buf <? 2 + 1 then (o, Err)
           else match (let? rest := go_from buf 1 in be_read 2 rest) with
                | Ok s => (put_array o s, Ok (3, true))
                | Err => (o, Err)
                | Panic => (o, Panic)
                end
  | _ => (o, Err)
  end.

(** The record-list part 428-457. *)
Definition s_record_part (buf : bytes) (magic : N) (o : sval) (pos : Z) (set : bool) : sval * res Z :=
  match ((magic / 16) mod 4)%N with
  | 0%N => (o, Ok pos)
  | 1%N => if set then (o, Err)
           else if zlen buf <? 1 + pos then (o, Err)
           else match go_index buf pos with
                | Ok s => (put_records o (b2n s), Ok (pos + 1))
                | Err => (o, Err)
                | Panic => (o, Panic)
                end
  | 2%N => if set then (o, Err)
           else if zlen buf <? 2 + pos then (o, Err)
           else match (let? rest := go_from buf pos in be_read 2 rest) with
                | Ok s => (put_records o s, Ok (pos + 2))
                | Err => (o, Err)
                | Panic => (o, Panic)
                end
  | _ => (o, Err)
  end.

(** StandardMappedValue.Decode, 396-511; the content part 479-504 is the one of ValueModel. *)
Definition s_decode (mem : bytes) (o : sval) : sval * res Z :=
  let buf := s_buf mem o in
  match go_index buf 0 with
  | Ok b0 =>
      let magic := b2n b0 in
      match s_array_part buf magic o with
      | (o, Ok (pos, set)) =>
          match s_record_part buf magic o pos set with
          | (o, Ok pos) =>
              if N.testbit magic 3 then (o, Err)
              else if N.testbit magic 2 then (o, Err)
              else match decode_length_bits buf magic pos with
                   | Ok (n, pos) =>
                       (SVal (Z.to_nat pos) (s_arr o) (s_recs o) (s_size o) (Z.to_nat (pos - n), Z.to_nat n) true, Ok pos)
                   | Err => (o, Err)
                   | Panic => (o, Panic)
                   end
          | (o, Err) => (o, Err)
          | (o, Panic) => (o, Panic)
          end
      | (o, Err) => (o, Err)
      | (o, Panic) => (o, Panic)
      end
  | Err => (o, Err)
  | Panic => (o, Panic)
  end.

(** IsNil 225-227, IsPrimitive 229-236, IsValueArray 238-245, IsRecordList 247-254, Size 256-263, Value 356-367 of a
    decoded object. *)
Definition range (mem : bytes) (w : nat * nat) : bytes := firstn (snd w) (skipn (fst w) mem).
Definition is_some {A} (o : option A) : bool := match o with Some _ => true | None => false end.
Definition s_face (mem : bytes) (o : sval) : face :=
  Face (match s_buf mem o with b :: _ => N.eqb (b2n b) 0 | [] => true end)
       (negb (is_some (s_arr o)) && negb (is_some (s_recs o)))
       (is_some (s_arr o)) (is_some (s_recs o)) (s_size o)
       (if is_some (s_arr o) || is_some (s_recs o) then None else Some (range mem (s_content o))).

(** ValueAt 265-300 up to line 279, where it looks at the entry, and RecordAt 302-336 up to line 316. *)
Definition s_value_at (o : sval) (idx : N) : res unit :=
  match s_arr o with
  | None => Err
  | Some n => if (s_size o <=? idx)%N then Err else if (idx <? n)%N then Ok tt else Panic
  end.
Definition s_record_at (o : sval) (idx : N) : res unit :=
  match s_recs o with
  | None => Err
  | Some n => if (s_size o <=? idx)%N then Err else if (idx <? n)%N then Ok tt else Panic
  end.

(** ** SimpleMappedValue, value_util.go:55-61, and its Decode 147-160. *)
Record pval : Type := PVal { p_len : nat; p_content : nat * nat; p_decoded : bool }.
Definition p_new (len : nat) : pval := PVal len (0%nat, 0%nat) false.
Definition p_buf (mem : bytes) (o : pval) : bytes := firstn (p_len o) mem.
Definition p_decode (mem : bytes) (o : pval) : pval * res Z :=
  match decode_varchar (p_buf mem o) with
  | Ok (data, n) => (PVal (Z.to_nat n) (Z.to_nat n - length data, length data)%nat true, Ok n)
  | Err => (o, Err)
  | Panic => (o, Panic)
  end.

(** ** MappedKey, key_util.go:137-142: [keys] as parsed; [buf] is never cut. Decode 219-242: [keys] is made anew and
    filled; an error leaves the rest nil. *)
Record kval : Type := KVal { k_keys : list gslice; k_decoded : bool }.
Definition k_new : kval := KVal [] false.
Fixpoint k_fill (n : nat) (buf : bytes) (pos : Z) : list gslice * res Z :=
  match n with
  | O => ([], Ok pos)
  | S n' =>
      match (let? rest := go_from buf pos in decode_varchar rest) with
      | Ok (k, l) => let (ks, r) := k_fill n' buf (pos + l) in (Some k :: ks, r)
      | Err => (repeat None n, Err)
      | Panic => (repeat None n, Panic)
      end
  end.
Definition k_decode (buf : bytes) (o : kval) : kval * res Z :=
  match decode_uvarint64 buf with
  | Ok (n, l) =>
      if make_slices_ok n
      then match k_fill (N.to_nat n) buf l with
           | (ks, Ok pos) => (KVal ks true, Ok pos)
           | (ks, Err) => (KVal ks (k_decoded o), Err)
           | (ks, Panic) => (KVal ks (k_decoded o), Panic)
           end
      else (o, Panic)
  | Err => (o, Err)
  | Panic => (o, Panic)
  end.

(** ** MappedRecord, record_util.go:38-49. *)
Record rval : Type := RVal {
  r_len : nat;
  r_key : option ikey;
  r_value : option mval;
  r_scheme : option mval;
  r_ts : option Z;
  r_sig : option (Z * Z);
  r_decoded : bool }.
Definition r_new (len : nat) : rval := RVal len None None None None None false.
Definition r_buf (mem : bytes) (o : rval) : bytes := firstn (r_len o) mem.

Definition put_key (o : rval) (k : ikey) : rval :=
  RVal (r_len o) (Some k) (r_value o) (r_scheme o) (r_ts o) (r_sig o) (r_decoded o).
Definition put_value (o : rval) (v : mval) : rval :=
  RVal (r_len o) (r_key o) (Some v) (r_scheme o) (r_ts o) (r_sig o) (r_decoded o).
Definition put_scheme (o : rval) (v : mval) : rval :=
  RVal (r_len o) (r_key o) (r_value o) (Some v) (r_ts o) (r_sig o) (r_decoded o).
Definition put_ts (o : rval) (t : option Z) : rval :=
  RVal (r_len o) (r_key o) (r_value o) (r_scheme o) t (r_sig o) (r_decoded o).
Definition put_sig (o : rval) (s : option (Z * Z)) : rval :=
  RVal (r_len o) (r_key o) (r_value o) (r_scheme o) (r_ts o) s (r_decoded o).

(** Key part of Decode, record_util.go:166-178. The local variable [key] is nil without the bit, and the call of Buf
    panics. *)
Definition r_key_part (buf : bytes) (magic : N) : res (ikey * Z) :=
  let? key := (if N.testbit magic 6
               then let? rest := go_from buf 1 in let? (k, _) := new_mapped_key (Some rest) in Ok k
               else Panic) in
  let? kbuf := ikey_buf key in
  if max_key_length <? zlen (gcontent kbuf) then Err else Ok (key, 1 + zlen (gcontent kbuf)).
(** Value and scheme parts, 180-212. *)
Definition r_value_part (buf : bytes) (bit : bool) (limit pos : Z) : res (mval * Z) :=
  if zlen buf <? pos then Err
  else
    let? value := (if bit then let? rest := go_from buf pos in let? (v, _) := new_std_value rest in Ok v else Panic) in
    if limit <? zlen (mv_buf value) then Err else Ok (value, pos + zlen (mv_buf value)).
(** Timestamp part, 214-226: on an error of BytesToTime the timestamp is nil. *)
Definition r_ts_part (buf : bytes) (magic : N) (o : rval) (pos : Z) : rval * res Z :=
  if N.testbit magic 2 then
    if zlen buf <? pos then (o, Err)
    else match (let? rest := go_from buf pos in bytes_to_time rest) with
         | Ok t => (put_ts o (Some t), Ok (pos + 8))
         | Err => (put_ts o None, Err)
         | Panic => (o, Panic)
         end
  else (o, Ok pos).
(** Signature part, 228-242. *)
Definition r_sig_part (buf : bytes) (magic : N) (o : rval) (pos : Z) : rval * res Z :=
  if N.testbit magic 1 then
    if zlen buf <? pos then (o, Err)
    else if zlen buf <? pos + 64 then (put_sig o None, Ok pos)
    else match (let? r := go_slice buf pos (pos + 32) in
                let? s := go_slice buf (pos + 32) (pos + 64) in Ok (bytes_to_big r, bytes_to_big s)) with
         | Ok rs => (put_sig o (Some rs), Ok (pos + 64))
         | Err => (o, Err)
         | Panic => (o, Panic)
         end
  else (o, Ok pos).

(** MappedRecord.Decode, record_util.go:157-250. *)
Definition r_decode (mem : bytes) (o : rval) : rval * res Z :=
  let buf := r_buf mem o in
  match go_index buf 0 with
  | Panic => (o, Panic)
  | Err => (o, Err)
  | Ok b0 =>
    let magic := b2n b0 in
    match r_key_part buf magic with
    | Panic => (o, Panic)
    | Err => (o, Err)
    | Ok (k, pos) =>
      let o := put_key o k in
      match r_value_part buf (N.testbit magic 5) max_value_length pos with
      | Panic => (o, Panic)
      | Err => (o, Err)
      | Ok (v, pos) =>
        let o := put_value o v in
        match r_value_part buf (N.testbit magic 4) max_scheme_length pos with
        | Panic => (o, Panic)
        | Err => (o, Err)
        | Ok (s, pos) =>
          let o := put_scheme o s in
          match r_ts_part buf magic o pos with
          | (o, Panic) => (o, Panic)
          | (o, Err) => (o, Err)
          | (o, Ok pos) =>
            match r_sig_part buf magic o pos with
            | (o, Panic) => (o, Panic)
            | (o, Err) => (o, Err)
            | (o, Ok pos) =>
              match go_upto buf pos with
              | Panic => (o, Panic)
              | Err => (o, Err)
              | Ok _ => (RVal (Z.to_nat pos) (r_key o) (r_value o) (r_scheme o) (r_ts o) (r_sig o) true, Ok pos)
              end
            end
          end
        end
      end
    end
  end.
