(** * Schemes as objects that share memory (/repo/src/util/scheme_util.go).

    SchemeModel treats a scheme as a value. Here the byte slices of a scheme lie in memory that the client can write to,
    the slice of buckets is itself memory that Buckets hands out, and a MappedScheme changes while it is decoded, also by a
    Decode that fails. Two simplifications: the empty slice DecodeVarchar returns for empty input is a slice of length 0
    behind the bytes read, and the client replaces elements of a slice of buckets but does not reslice it. *)
From Coq Require Import List NArith ZArith Bool.
From Coq Require Import Strings.Byte.
From Verif Require Import Base VarintModel KeyModel SchemeModel.
Import ListNotations.
Local Open Scope Z_scope.

(** A byte slice: block, offset, length; nil is [None]. *)
Record slice := Sli { in_block : nat; start : nat; len : nat }.

(** MappedScheme, scheme_util.go:34-42, and Scheme, 232-240. [flag] is decoded, respectively encoded. [f_buckets] is the
    number of a list of slices. *)
Inductive kind := KMappedScheme | KScheme.
Record sobj := SObj {
  f_kind : kind;
  f_flag : bool;
  f_buf : option slice;
  f_domain : option slice;
  f_tablet : option slice;
  f_buckets : option nat
}.
Record state := State { blocks : list bytes; lists : list (list (option slice)); objects : list sobj }.

Fixpoint replace {A} (l : list A) (i : nat) (x : A) : list A :=
  match l, i with
  | [], _ => []
  | _ :: l', O => x :: l'
  | y :: l', S i' => y :: replace l' i' x
  end.
Definition bytes_in (s : state) (x : option slice) : gslice :=
  match x with
  | None => None
  | Some x => Some (firstn (len x) (skipn (start x) (nth (in_block x) (blocks s) [])))
  end.
Definition slices_in (s : state) (x : option nat) : option (list (option slice)) :=
  match x with None => None | Some i => Some (nth i (lists s) []) end.
(** The three fields as they are read now. *)
Definition fields (s : state) (o : sobj) : scheme :=
  mkScheme (bytes_in s (f_domain o)) (bytes_in s (f_tablet o)) (option_map (map (bytes_in s)) (slices_in s (f_buckets o))).
Definition object (s : state) (a : nat) : option sobj := nth_error (objects s) a.
Definition set_object (s : state) (a : nat) (o : sobj) : state := State (blocks s) (lists s) (replace (objects s) a o).

(** ** Accessors. *)

(** The test at the start of the accessors of MappedScheme; those of Scheme have none. *)
Definition readable (o : sobj) : bool := match f_kind o with KMappedScheme => f_flag o | KScheme => true end.
(** Domain and Tablet, scheme_util.go:48-55, 70-77, 246-248, 258-260. *)
Definition get_domain (s : state) (o : sobj) : res gslice := if readable o then Ok (bytes_in s (f_domain o)) else Panic.
Definition get_tablet (s : state) (o : sobj) : res gslice := if readable o then Ok (bytes_in s (f_tablet o)) else Panic.
(** DomainName and TabletName, 57-68, 79-90, 250-256, 262-268. *)
Definition get_domain_name (s : state) (o : sobj) : res bytes :=
  if readable o then Ok (match bytes_in s (f_domain o) with None => [] | Some d => d end) else Panic.
Definition get_tablet_name (s : state) (o : sobj) : res bytes :=
  if readable o then Ok (match bytes_in s (f_tablet o) with None => [] | Some t => t end) else Panic.
(** Buckets, 92-99 and 270-272. *)
Definition get_buckets (s : state) (o : sobj) : res (option (list gslice)) :=
  if readable o then Ok (option_map (map (bytes_in s)) (slices_in s (f_buckets o))) else Panic.
(** BucketAt, 101-112 and 274-280. *)
Definition get_bucket_at (s : state) (o : sobj) (idx : Z) : res gslice :=
  if readable o then
    match slices_in s (f_buckets o) with
    | None => Panic
    | Some bs => let? b := go_index bs idx in Ok (bytes_in s b)
    end
  else Panic.
(** SchemeMagic, 117-119 and 285-292; Buf, 121-123 and 294-301. *)
Definition get_buf (s : state) (o : sobj) : res gslice :=
  match f_kind o with
  | KMappedScheme => Ok (bytes_in s (f_buf o))
  | KScheme => if f_flag o then Ok (bytes_in s (f_buf o)) else Panic
  end.
Definition get_magic (s : state) (o : sobj) : res byte := let? b := get_buf s o in go_index (gcontent b) 0.
(** EstBufSize, 125-140 and 303-318; IsEncoded, 142-144 and 320-322; IsDecoded, 150-152 and 372-374. *)
Definition get_est (s : state) (o : sobj) : Z := est_scheme (fields s o).
Definition is_encoded (o : sobj) : bool := match f_kind o with KMappedScheme => true | KScheme => f_flag o end.
Definition is_decoded (o : sobj) : bool := match f_kind o with KMappedScheme => f_flag o | KScheme => true end.

(** ** Decode, scheme_util.go:154-198; of a Scheme, 376-378. *)

(** [DecodeVarchar(s.buf[pos:])] for the buffer [b] with the bytes [c]: the slice it returns and the next position. *)
Definition read_slice (b : slice) (c : bytes) (pos : Z) : res (slice * Z) :=
  let? r := go_from c pos in
  let? (d, l) := decode_varchar r in
  Ok (Sli (in_block b) (start b + Z.to_nat (pos + l) - length d) (length d), pos + l).
(** The loop 187-193 over the remaining elements [rest] (all nil) of the new slice; [done] are the ones assigned. *)
Fixpoint read_buckets (b : slice) (c : bytes) (done : list (option slice)) (rest : nat) (pos : Z) : list (option slice) * res Z :=
  match rest with
  | O => (done, Ok pos)
  | S n =>
      match read_slice b c pos with
      | Ok (x, pos') => read_buckets b c (done ++ [Some x]) n pos'
      | Err => (done ++ repeat None (S n), Err)
      | Panic => (done ++ repeat None (S n), Panic)
      end
  end.
Definition decode (s : state) (a : nat) (o : sobj) : state * res Z :=
  match f_kind o with
  | KScheme => (s, Err)
  | KMappedScheme =>
      match f_buf o, gcontent (bytes_in s (f_buf o)) with
      | Some b, (_ :: _) as c =>
          match read_slice b c 1 with
          | Panic => (s, Panic)
          | Err => (set_object s a (SObj KMappedScheme (f_flag o) (f_buf o) None (f_tablet o) (f_buckets o)), Err)
          | Ok (d, p1) =>
              let o1 := SObj KMappedScheme (f_flag o) (f_buf o) (Some d) (f_tablet o) (f_buckets o) in
              match read_slice b c p1 with
              | Panic => (set_object s a o1, Panic)
              | Err => (set_object s a (SObj KMappedScheme (f_flag o) (f_buf o) (Some d) None (f_buckets o)), Err)
              | Ok (t, p2) =>
                  let o2 := SObj KMappedScheme (f_flag o) (f_buf o) (Some d) (Some t) (f_buckets o) in
                  match (let? r := go_from c p2 in decode_uvarint64 r) with
                  | Panic => (set_object s a o2, Panic)
                  | Err => (set_object s a o2, Err)
                  | Ok (n, l) =>
                      if make_slices_ok n then
                        let (bs, r) := read_buckets b c [] (N.to_nat n) (p2 + l) in
                        let flag := match r with Ok _ => true | _ => f_flag o end in
                        (State (blocks s) (lists s ++ [bs])
                           (replace (objects s) a (SObj KMappedScheme flag (f_buf o) (Some d) (Some t) (Some (length (lists s))))), r)
                      else (set_object s a o2, Panic)
                  end
              end
          end
      | _, _ => (s, Panic)
      end
  end.

(** ** Encode, 324-370; of a MappedScheme, 146-148. *)
Definition encode (s : state) (a : nat) (o : sobj) : state * res unit :=
  match f_kind o with
  | KMappedScheme => (s, Err)
  | KScheme =>
      match encode_scheme (fields s o) with
      | Ok b =>
          (State (blocks s ++ [b]) (lists s)
             (replace (objects s) a (SObj KScheme true (Some (Sli (length (blocks s)) 0 (length b))) (f_domain o) (f_tablet o) (f_buckets o))), Ok tt)
      | Err => (s, Err)
      | Panic => (s, Panic)
      end
  end.

(** ** Copy and CopyConstruct, 203-226 and 383-406: of both kinds, without a look at decoded. *)
Definition copy_of (s : state) (o : sobj) : state :=
  match slices_in s (f_buckets o) with
  | None => State (blocks s) (lists s) (objects s ++ [SObj KScheme false None (f_domain o) (f_tablet o) None])
  | Some bs => State (blocks s) (lists s ++ [bs])
                 (objects s ++ [SObj KScheme false None (f_domain o) (f_tablet o) (Some (length (lists s)))])
  end.

(** ** What a client does *)
Inductive call :=
| NewBlock (b : bytes)
| WriteByte (k i : nat) (x : byte)
| WriteBucket (k i : nat) (x : option slice)
| NewMappedScheme (b : option slice)
| NewSchemeObj
| CallDecode (a : nat)
| CallEncode (a : nat)
| CallCopy (a : nat).
Definition slice_exists (s : state) (x : option slice) : bool :=
  match x with
  | None => true
  | Some x => Nat.ltb (in_block x) (length (blocks s)) && Nat.leb (start x + len x) (length (nth (in_block x) (blocks s) []))
  end.
(** The state afterwards, also after an error or a panic; [None]: the client cannot make this call. *)
Definition after_call (s : state) (c : call) : option state :=
  match c with
  | NewBlock b => Some (State (blocks s ++ [b]) (lists s) (objects s))
  | WriteByte k i x =>
      match nth_error (blocks s) k with
      | Some b => if Nat.ltb i (length b) then Some (State (replace (blocks s) k (replace b i x)) (lists s) (objects s)) else None
      | None => None
      end
  | WriteBucket k i x =>
      match nth_error (lists s) k with
      | Some l => if Nat.ltb i (length l) && slice_exists s x
                  then Some (State (blocks s) (replace (lists s) k (replace l i x)) (objects s)) else None
      | None => None
      end
  | NewMappedScheme b =>
      if slice_exists s b then Some (State (blocks s) (lists s) (objects s ++ [SObj KMappedScheme false b None None None])) else None
  | NewSchemeObj => Some (State (blocks s) (lists s) (objects s ++ [SObj KScheme false None None None None]))
  | CallDecode a => match object s a with Some o => Some (fst (decode s a o)) | None => None end
  | CallEncode a => match object s a with Some o => Some (fst (encode s a o)) | None => None end
  | CallCopy a => match object s a with Some o => Some (copy_of s o) | None => None end
  end.
Fixpoint after_calls (s : state) (cs : list call) : option state :=
  match cs with
  | [] => Some s
  | c :: cs' => match after_call s c with Some s' => after_calls s' cs' | None => None end
  end.
Definition no_schemes : state := State [] [] [].
