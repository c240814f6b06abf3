(** * Parsed values, records and keys as objects that look into a buffer of the caller
    (/repo/src/util/value_util.go:51-586, /repo/src/util/record_util.go:34-293, /repo/src/util/key_util.go:133-262).

    ValueModel and KeyModel hold the bytes of a parsed object themselves. In the code a parsed object keeps slices of the
    buffer it was parsed from, and the elements that ValueAt and RecordAt load later are parsed from these slices at that
    time. Here the memory is a list of blocks, a slice is a window on a block, parsed objects live in a list of objects,
    and the caller may write to any block at any time. Timestamps and signatures are copied when they are parsed
    (BytesToTime, ByteArrayToBigInt). Slices beyond their length (up to their capacity) are not modelled: every slice
    expression of the code is behind a check of the length. *)
From Coq Require Import List NArith ZArith Bool.
From Coq Require Import Strings.Byte.
From Verif Require Import Base EndianModel VarintModel KeyModel ValueModel.
Import ListNotations.
Local Open Scope Z_scope.

Record win := Win { w_blk : nat; w_off : nat; w_len : nat }.
Definition memory := list bytes.
(** The bytes in a window at the moment. *)
Definition rdw (M : memory) (w : win) : bytes := firstn (w_len w) (skipn (w_off w) (nth (w_blk w) M [])).
(** The slice expressions [s[lo:hi]] and [s[lo:]]. *)
Definition win_slice (w : win) (lo hi : Z) : res win :=
  if (0 <=? lo) && (lo <=? hi) && (hi <=? Z.of_nat (w_len w))
  then Ok (Win (w_blk w) (w_off w + Z.to_nat lo) (Z.to_nat (hi - lo))) else Panic.
Definition win_from (w : win) (lo : Z) : res win := win_slice w lo (Z.of_nat (w_len w)).

(** An entry of [data_array] or [record_list]: nil, a nil pointer in a non-nil interface, an object. *)
Inductive cell := CEmpty | CBroken | CRef (a : nat).
Inductive pbody := PPrim | PArr (cells : list cell) | PRecs (cells : list cell).
(** StandardMappedValue, value_util.go:189-200; SimpleMappedValue, 55-61; MappedKey, key_util.go:137-142; MappedRecord,
    record_util.go:38-49, with the objects of its key, value and scheme. *)
Inductive pobj :=
| PVal (buf content : win) (body : pbody)
| PSimple (buf content : win)
| PKey (keys : list win) (buf : win)
| PRec (buf : win) (key value scheme : nat) (ts : option Z) (sig : option (Z * Z)).
Record st := St { s_mem : memory; s_objs : list pobj }.

(** ** Parsing *)

(** The slices made by Decode, value_util.go:416, 424, 439, 452, hold nils. *)
Definition fresh_body (b : mbody) : pbody :=
  match b with
  | BPrim => PPrim
  | BArr cs => PArr (map (fun _ => CEmpty) cs)
  | BRec cs => PRecs (map (fun _ => CEmpty) cs)
  end.
(** NewStandardMappedValue and Decode, value_util.go:205-220, 396-511; the three groups of magic bits as in ValueModel. *)
Definition parse_value (M : memory) (w : win) : res pobj :=
  let buf := rdw M w in
  if zlen buf <? 1 then Err
  else
    let? b0 := go_index buf 0 in
    let magic := b2n b0 in
    let? (body, pos, set) := decode_array_bits buf magic in
    let? (body, pos) := decode_record_bits buf magic body pos set in
    if N.testbit magic 3 then Err
    else if N.testbit magic 2 then Err
    else
      let? (n, pos) := decode_length_bits buf magic pos in
      let? cw := win_slice w (pos - n) pos in
      let? bw := win_slice w 0 pos in
      Ok (PVal bw cw (fresh_body body)).

(** DecodeVarchar, misc_util.go:112-130: the window of the content and the consumed length. *)
Definition parse_varchar (M : memory) (w : win) : res (win * Z) :=
  let? (data, e) := decode_varchar (rdw M w) in
  let? dw := win_slice w (e - zlen data) e in
  Ok (dw, e).
(** NewSimpleMappedValue and Decode, value_util.go:66-75, 147-160. *)
Definition parse_simple (M : memory) (w : win) : res pobj :=
  let? (cw, e) := parse_varchar M w in
  let? bw := win_slice w 0 e in
  Ok (PSimple bw cw).

(** NewMappedKey and Decode, key_util.go:147-157, 219-242. The whole slice stays the buffer of the key. *)
Fixpoint parse_subkeys (M : memory) (w : win) (n : nat) (pos : Z) : res (list win * Z) :=
  match n with
  | O => Ok ([], pos)
  | S n' =>
      let? rest := win_from w pos in
      let? (k, l) := parse_varchar M rest in
      let? (ks, pos') := parse_subkeys M w n' (pos + l) in
      Ok (k :: ks, pos')
  end.
Definition parse_key (M : memory) (w : win) : res pobj :=
  let? (n, l) := decode_uvarint64 (rdw M w) in
  if make_slices_ok n then let? (ks, _) := parse_subkeys M w (N.to_nat n) l in Ok (PKey ks w) else Panic.
(** The length of Buf of a parsed key, key_util.go:159-169, 193-198. *)
Definition key_len (o : pobj) : Z :=
  match o with
  | PKey ks w => match w_len w, ks with O, _ => 1 | _, [] => 1 | n, _ => Z.of_nat n end
  | _ => 0
  end.
Definition val_len (o : pobj) : Z := match o with PVal bw _ _ => Z.of_nat (w_len bw) | _ => 0 end.

(** NewMappedRecord and Decode, record_util.go:54-71, 157-250: key, value, scheme, and the record given their places. *)
Definition parse_record (M : memory) (w : win) : res (pobj * pobj * pobj * (nat -> pobj)) :=
  let buf := rdw M w in
  if zlen buf <? 1 then Err
  else
    let? b0 := go_index buf 0 in
    let magic := b2n b0 in
    let? key := (if N.testbit magic 6 then let? kw := win_from w 1 in parse_key M kw else Panic) in
    if max_key_length <? key_len key then Err
    else
      let pos := 1 + key_len key in
      if zlen buf <? pos then Err
      else
        let? value := (if N.testbit magic 5 then let? vw := win_from w pos in parse_value M vw else Panic) in
        if max_value_length <? val_len value then Err
        else
          let pos := pos + val_len value in
          if zlen buf <? pos then Err
          else
            let? scheme := (if N.testbit magic 4 then let? sw := win_from w pos in parse_value M sw else Panic) in
            if max_scheme_length <? val_len scheme then Err
            else
              let pos := pos + val_len scheme in
              let? (ts, sig, pos) := decode_record_tail buf magic pos in
              let? bw := win_slice w 0 pos in
              Ok (key, value, scheme, fun a => PRec bw (a + 1) (a + 2) (a + 3) ts sig).

(** A new object; on an error the object is dropped. *)
Definition alloc (s : st) (r : res pobj) : st * res nat :=
  match r with
  | Ok o => (St (s_mem s) (s_objs s ++ [o]), Ok (length (s_objs s)))
  | Err => (s, Err)
  | Panic => (s, Panic)
  end.
Definition new_value (s : st) (w : win) : st * res nat := alloc s (parse_value (s_mem s) w).
Definition new_simple (s : st) (w : win) : st * res nat := alloc s (parse_simple (s_mem s) w).
Definition new_key_at (s : st) (w : win) : st * res nat := alloc s (parse_key (s_mem s) w).
Definition new_record_at (s : st) (w : win) : st * res nat :=
  match parse_record (s_mem s) w with
  | Ok (k, v, c, r) =>
      let a := length (s_objs s) in (St (s_mem s) (s_objs s ++ [r a; k; v; c]), Ok a)
  | Err => (s, Err)
  | Panic => (s, Panic)
  end.

(** ** Elements: ValueAt, value_util.go:265-300, and RecordAt, 302-336. *)

(** len of Buf of an element. *)
Definition elem_len (s : st) (a : nat) : Z :=
  match nth_error (s_objs s) a with
  | Some (PVal bw _ _) => Z.of_nat (w_len bw)
  | Some (PRec bw _ _ _ _ _) => Z.of_nat (w_len bw)
  | _ => 0
  end.
(** The loops 285-297 and 322-333. The cells are stored back when the loop is over; parsing an element does not look at them. *)
Fixpoint load_cells (parse : st -> win -> st * res nat) (s : st) (cw : win) (cells : list cell) (todo : nat) (pos : Z) {struct todo}
  : st * list cell * res unit :=
  match todo, cells with
  | O, _ => (s, cells, Ok tt)
  | S _, [] => (s, cells, Panic)
  | S n, CEmpty :: cs =>
      if Z.of_nat (w_len cw) <? pos then (s, cells, Err)
      else
        match win_from cw pos with
        | Ok rest =>
            match parse s rest with
            | (s1, Ok a) =>
                let '(s2, cs', r) := load_cells parse s1 cw cs n (pos + elem_len s1 a) in (s2, CRef a :: cs', r)
            | (s1, Err) => (s1, CBroken :: cs, Err)
            | (s1, Panic) => (s1, cells, Panic)
            end
        | _ => (s, cells, Panic)
        end
  | S _, CBroken :: _ => (s, cells, Panic)           (* Buf on a nil pointer *)
  | S n, CRef a :: cs =>
      let '(s2, cs', r) := load_cells parse s cw cs n (pos + elem_len s a) in (s2, CRef a :: cs', r)
  end.

Fixpoint upd {A} (l : list A) (i : nat) (x : A) : list A :=
  match l, i with
  | [], _ => []
  | _ :: l', O => x :: l'
  | y :: l', S i' => y :: upd l' i' x
  end.
Definition put (s : st) (a : nat) (o : pobj) : st := St (s_mem s) (upd (s_objs s) a o).

(** What a call answers. [ANil]: a nil pointer without an error. *)
Inductive obs :=
| ADone
| ARef (a : nat)
| ANil
| ABytes (b : gslice)
| AKind (primitive array records : bool)
| ASize (n : N)
| AKeys (ks : list bytes)
| ATail (ts : option Z) (sig : option (Z * Z)).

Definition cell_obs (c : option cell) : res obs :=
  match c with Some (CRef a) => Ok (ARef a) | Some CBroken => Ok ANil | _ => Panic end.
Definition elem_at (parse : st -> win -> st * res nat) (s : st) (a : nat) (bw cw : win) (wrap : list cell -> pbody)
    (cells : list cell) (i : nat) : st * res obs :=
  match nth_error cells i with
  | None => (s, Err)
  | Some CEmpty =>
      let '(s1, cells', r) := load_cells parse s cw cells (S i) 0 in
      (put s1 a (PVal bw cw (wrap cells')), let? _ := r in cell_obs (nth_error cells' i))
  | c => (s, cell_obs c)
  end.

(** ** Calls

    The caller makes a buffer, writes a byte to one, parses a slice of one, asks an object for its Buf, Value, IsPrimitive
    and the like, Size, Key, Timestamp and Signature, for an element, for its key, value or scheme, or for a Copy.
    [Err] also stands for a method that the object does not have. *)
Inductive part := KeyPart | ValuePart | SchemePart.
Inductive kind := KValue | KSimple | KKey | KRecord.
Inductive op :=
| OMake (b : bytes)
| OWrite (blk i : nat) (x : byte)
| OParse (k : kind) (w : win)
| OBuf (a : nat)
| OContent (a : nat)
| OKind (a : nat)
| OSize (a : nat)
| OKeys (a : nat)
| OTail (a : nat)
| OValueAt (a i : nat)
| ORecordAt (a i : nat)
| OPart (a : nat) (p : part)
| OCopy (a : nat).

Definition parse_as (k : kind) : st -> win -> st * res nat :=
  match k with KValue => new_value | KSimple => new_simple | KKey => new_key_at | KRecord => new_record_at end.
Definition as_ref (r : st * res nat) : st * res obs := (fst r, let? a := snd r in Ok (ARef a)).
(** A failing parse inside Copy is turned into a panic. *)
Definition no_err (r : st * res nat) : st * res nat := (fst r, match snd r with Err => Panic | x => x end).
(** A slice of a block. *)
Definition in_range (M : memory) (w : win) : bool :=
  ((w_blk w <? length M) && (w_off w + w_len w <=? length (nth (w_blk w) M [])))%nat.

(** Copy, value_util.go:165-175, 516-526, record_util.go:255-264 (a new buffer), key_util.go:244-251 (the same one). *)
Definition copy_into (k : kind) (s : st) (bw : win) : st * res nat :=
  let b := rdw (s_mem s) bw in
  no_err (parse_as k (St (s_mem s ++ [b]) (s_objs s)) (Win (length (s_mem s)) 0 (length b))).

Definition step (s : st) (o : op) : st * res obs :=
  let M := s_mem s in
  match o with
  | OMake b => (St (M ++ [b]) (s_objs s), Ok ADone)
  | OWrite blk i x =>
      if (i <? length (nth blk M []))%nat then (St (upd M blk (upd (nth blk M []) i x)) (s_objs s), Ok ADone) else (s, Panic)
  | OParse k w => if in_range M w then as_ref (parse_as k s w) else (s, Panic)
  | OBuf a =>
      (s, match nth_error (s_objs s) a with
          | Some (PVal bw _ _) | Some (PSimple bw _) | Some (PRec bw _ _ _ _ _) => Ok (ABytes (Some (rdw M bw)))
          | Some (PKey ks w) => match w_len w, ks with O, _ | _, [] => Ok (ABytes (Some [x00])) | _, _ => Ok (ABytes (Some (rdw M w))) end
          | None => Err
          end)
  | OContent a =>
      (s, match nth_error (s_objs s) a with
          | Some (PVal _ cw PPrim) => Ok (ABytes (Some (rdw M cw)))
          | Some (PVal _ _ _) => Ok (ABytes None)
          | Some (PSimple _ cw) => Ok (ABytes (Some (rdw M cw)))
          | _ => Err
          end)
  | OKind a =>
      (s, match nth_error (s_objs s) a with
          | Some (PVal _ _ PPrim) | Some (PSimple _ _) => Ok (AKind true false false)
          | Some (PVal _ _ (PArr _)) => Ok (AKind false true false)
          | Some (PVal _ _ (PRecs _)) => Ok (AKind false false true)
          | _ => Err
          end)
  | OSize a =>
      (s, match nth_error (s_objs s) a with
          | Some (PVal _ _ PPrim) | Some (PSimple _ _) => Ok (ASize 0)
          | Some (PVal _ _ (PArr cs)) | Some (PVal _ _ (PRecs cs)) => Ok (ASize (N.of_nat (length cs)))
          | _ => Err
          end)
  | OKeys a => (s, match nth_error (s_objs s) a with Some (PKey ks _) => Ok (AKeys (map (rdw M) ks)) | _ => Err end)
  | OTail a => (s, match nth_error (s_objs s) a with Some (PRec _ _ _ _ ts sig) => Ok (ATail ts sig) | _ => Err end)
  | OValueAt a i =>
      match nth_error (s_objs s) a with
      | Some (PVal bw cw (PArr cells)) => elem_at new_value s a bw cw PArr cells i
      | _ => (s, Err)
      end
  | ORecordAt a i =>
      match nth_error (s_objs s) a with
      | Some (PVal bw cw (PRecs cells)) => elem_at new_record_at s a bw cw PRecs cells i
      | _ => (s, Err)
      end
  | OPart a p =>
      (s, match nth_error (s_objs s) a with
          | Some (PRec _ k v c _ _) => Ok (ARef (match p with KeyPart => k | ValuePart => v | SchemePart => c end))
          | _ => Err
          end)
  | OCopy a =>
      match nth_error (s_objs s) a with
      | Some (PVal bw _ _) => as_ref (copy_into KValue s bw)
      | Some (PSimple bw _) => as_ref (copy_into KSimple s bw)
      | Some (PRec bw _ _ _ _ _) => as_ref (copy_into KRecord s bw)
      | Some (PKey _ w) => as_ref (no_err (new_key_at s w))
      | None => (s, Err)
      end
  end.

(** A sequence of calls; the client recovers from panics and goes on. *)
Fixpoint run (s : st) (ops : list op) : st * list (res obs) :=
  match ops with
  | [] => (s, [])
  | o :: ops' => let (s1, r) := step s o in let (s2, rs) := run s1 ops' in (s2, r :: rs)
  end.
