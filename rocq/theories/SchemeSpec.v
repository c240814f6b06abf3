(** * What an encoded scheme is, independent of the model's encoder and decoder. *)
From Coq Require Import List NArith.
From Coq Require Import Strings.Byte.
From Verif Require Import VarintSpec.
Import ListNotations.

(** A missing field takes no bytes; a present one is length-prefixed. *)
Definition opt_varchar (o : option (list byte)) (l : list byte) : Prop :=
  match o with None => l = [] | Some d => varchar_of d l end.

(** A nil bucket inside a present list is written as an empty one. *)
Definition content (o : option (list byte)) : list byte := match o with Some l => l | None => [] end.

(** The list of buckets: shortest numeral of the count, then every bucket length-prefixed. *)
Definition opt_buckets (o : option (list (option (list byte)))) (l : list byte) : Prop :=
  match o with
  | None => l = []
  | Some bs => exists c ls, uvarint_minimal c (N.of_nat (length bs)) /\
                            Forall2 varchar_of (map content bs) ls /\ l = c ++ concat ls
  end.

(** One zero byte, then the three fields. *)
Definition scheme_bytes (d t : option (list byte)) (bs : option (list (option (list byte)))) (l : list byte) : Prop :=
  exists dl tl bl, opt_varchar d dl /\ opt_varchar t tl /\ opt_buckets bs bl /\ l = x00 :: dl ++ tl ++ bl.

(** The buckets of a possibly nil list, nil counting as empty. *)
Definition bucket_contents (o : option (list (option (list byte)))) : list (list byte) :=
  match o with Some bs => map content bs | None => [] end.
