(** * What calls on schemes may change. *)
From Coq Require Import List NArith ZArith Bool.
From Coq Require Import Strings.Byte.
From Verif Require Import Base VarintModel KeyModel SchemeModel SchemeObjModel.
Import ListNotations.
Local Open Scope Z_scope.

(** The slices a scheme holds: domain, tablet and the buckets. *)
Definition held_slices (s : state) (o : sobj) : list (option slice) :=
  f_domain o :: f_tablet o :: match f_buckets o with Some i => nth i (lists s) [] | None => [] end.
(** Byte [i] of block [k] belongs to the slice. *)
Definition covers (x : option slice) (k i : nat) : Prop :=
  match x with Some x => in_block x = k /\ (start x <= i < start x + len x)%nat | None => False end.
(** The call changes something that scheme [a] shows: a byte of a slice it holds, an element of its slice of buckets, or it
    is a Decode of [a]. *)
Definition disturbs (s : state) (a : nat) (c : call) : Prop :=
  match object s a with
  | None => False
  | Some o =>
      match c with
      | WriteByte k i _ => exists x, In x (held_slices s o) /\ covers x k i
      | WriteBucket k _ _ => f_buckets o = Some k
      | CallDecode b => b = a
      | _ => False
      end
  end.
(** No call of the history does. *)
Fixpoint undisturbed (s : state) (a : nat) (cs : list call) : Prop :=
  match cs with
  | [] => True
  | c :: cs' => ~ disturbs s a c /\ match after_call s c with Some s' => undisturbed s' a cs' | None => True end
  end.
(** What scheme [a] shows now. *)
Definition shown (s : state) (a : nat) : option scheme := option_map (fields s) (object s a).
(** What Buf of [a] returns now. *)
Definition shown_buf (s : state) (a : nat) : option (res gslice) := option_map (get_buf s) (object s a).
(** States a client can reach. *)
Definition reachable (s : state) : Prop := exists cs, after_calls no_schemes cs = Some s.

(** The fields after a Decode of a buffer with the bytes [b], however it ends: each field that was read, in order; a field
    whose reading gave an error is nil; the fields behind it are as before. *)
Fixpoint buckets_read (n : nat) (b : bytes) (pos : Z) : list gslice :=
  match n with
  | O => []
  | S m => match (let? r := go_from b pos in decode_varchar r) with
           | Ok (d, l) => Some d :: buckets_read m b (pos + l)
           | _ => repeat None n
           end
  end.
Definition after_decode (f : scheme) (b : bytes) : scheme :=
  match b with
  | [] => f
  | _ =>
    match (let? r := go_from b 1 in decode_varchar r) with
    | Panic => f
    | Err => mkScheme None (s_tablet f) (s_buckets f)
    | Ok (d, l1) =>
      match (let? r := go_from b (1 + l1) in decode_varchar r) with
      | Panic => mkScheme (Some d) (s_tablet f) (s_buckets f)
      | Err => mkScheme (Some d) None (s_buckets f)
      | Ok (t, l2) =>
        match (let? r := go_from b (1 + l1 + l2) in decode_uvarint64 r) with
        | Ok (n, l3) => if make_slices_ok n then mkScheme (Some d) (Some t) (Some (buckets_read (N.to_nat n) b (1 + l1 + l2 + l3)))
                        else mkScheme (Some d) (Some t) (s_buckets f)
        | _ => mkScheme (Some d) (Some t) (s_buckets f)
        end
      end
    end
  end.
