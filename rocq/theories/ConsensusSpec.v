(** * Orders and layouts for consensus times and identifiers, independent of the model. *)
From Coq Require Import List NArith.
From Coq Require Import Strings.Byte.
Import ListNotations.
Local Open Scope N_scope.

(** Lexicographic order on (term, millis, count). *)
Definition raft_before (t m c t' m' c' : N) : Prop :=
  t < t' \/ (t = t' /\ (m < m' \/ (m = m' /\ c < c'))).

(** [fields_at ps l fs r]: reading, from the start of [l], one 32-byte field for every [true] of [ps] gives [fs] (absent fields are
    [None]) and leaves [r]. *)
Inductive fields_at : list bool -> list byte -> list (option (list byte)) -> list byte -> Prop :=
| fa_nil r : fields_at [] r [] r
| fa_absent ps l fs r : fields_at ps l fs r -> fields_at (false :: ps) l (None :: fs) r
| fa_present ps f l fs r : length f = 32%nat -> fields_at ps l fs r -> fields_at (true :: ps) (f ++ l) (Some f :: fs) r.

(** Which of universe, cluster, federation, service, shard start and shard end a magic byte announces. *)
Definition announced (m : byte) : list bool :=
  let b k := N.testbit (Byte.to_N m) k in [b 7; b 6; b 5; b 4; b 3; b 3].

(** A magic byte is legal when it announces something and its three low bits are clear. *)
Definition legal_magic (m : byte) : Prop := Byte.to_N m <> 0 /\ Byte.to_N m mod 8 = 0.

(** Number of bytes announced after the magic. *)
Definition announced_bytes (m : byte) : nat := 32 * length (filter (fun b => b) (announced m)).
