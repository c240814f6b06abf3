(** * Final theorems on base58: C26, C27. *)
From Coq Require Import List NArith ZArith Bool Lia.
From Coq Require Import Strings.Byte Strings.String.
From Verif Require Import Base EndianModel Base58Model Base58Spec Base58Proofs.
Import ListNotations.

(** ** C26 *)
Theorem C26_base58_roundtrip : forall b : bytes,
  exists s, base58_encode b = Ok s /\ base58_decode s = Some b.
Proof.
  intros b. destruct (base58_encode_spec b) as (s & E & O). exists s. split; [assumption|]. now apply base58_of_decode.
Qed.
Print Assumptions C26_base58_roundtrip.

Theorem C26_base58_alphabet : forall b s : bytes,
  base58_encode b = Ok s -> Forall (fun c => In c base58_chars) s.
Proof. intros b s H. apply base58_encode_of in H. eapply base58_of_alphabet, H. Qed.
Print Assumptions C26_base58_alphabet.

(** The text is the standard base58 reading of the bytes, and nothing else is. *)
Theorem C26_base58_meaning : forall b s : bytes, base58_encode b = Ok s <-> base58_of b s.
Proof. exact base58_encode_of. Qed.
Print Assumptions C26_base58_meaning.

Theorem C26_base58_injective : forall b b' s : bytes,
  base58_encode b = Ok s -> base58_encode b' = Ok s -> b = b'.
Proof.
  intros b b' s H H'. apply base58_encode_of, base58_of_decode in H, H'. congruence.
Qed.
Print Assumptions C26_base58_injective.

Example C26_applies :
  base58_encode (list_byte_of_string "Hello World!") = Ok (list_byte_of_string "2NEpo7TZRRrLZSi2U") /\
  base58_encode [x00; x00; x28; x7f; xb4; xcd] = Ok (list_byte_of_string "11233QC4") /\
  base58_encode [] = Ok [] /\ base58_decode [] = Some [].
Proof. repeat split; vm_compute; reflexivity. Qed.

(** ** C27 *)
Theorem C27_base58_encode_decode : forall s : bytes,
  Forall (fun c => In c base58_chars) s -> exists b, base58_decode s = Some b /\ base58_encode b = Ok s.
Proof.
  intros s F. destruct (base58_valid_of s F) as (b & O). exists b. split; [now apply base58_of_decode|].
  now apply base58_encode_of.
Qed.
Print Assumptions C27_base58_encode_decode.

Theorem C27_base58_rejects : forall s : bytes,
  base58_decode s = None <-> exists c, In c s /\ ~ In c base58_chars.
Proof.
  intros s. split; [|apply base58_decode_invalid]. intros H.
  destruct (Forall_Exists_dec (fun c => In c base58_chars) (fun c => in_dec Byte.byte_eq_dec c base58_chars) s) as [F|X].
  - destruct (C27_base58_encode_decode s F) as (b & D & _). congruence.
  - now apply Exists_exists.
Qed.
Print Assumptions C27_base58_rejects.

Theorem C27_base58_decode_injective : forall s s' b : bytes,
  base58_decode s = Some b -> base58_decode s' = Some b -> s = s'.
Proof. intros s s' b H H'. apply base58_decode_of in H, H'. eapply base58_of_fun; eauto. Qed.
Print Assumptions C27_base58_decode_injective.

Example C27_applies :
  base58_decode (list_byte_of_string "11233QC4") = Some [x00; x00; x28; x7f; xb4; xcd] /\
  base58_decode (list_byte_of_string "0OIl") = None /\ base58_decode (list_byte_of_string "2l") = None.
Proof. repeat split; vm_compute; reflexivity. Qed.
