(** * The functions of src/util/lc_util.go:97-157 that ask for a passphrase or look for key files. *)
From Coq Require Import List NArith ZArith Bool.
From Coq Require Import Strings.Byte.
From Verif Require Import Base KeyStoreModel.
Import ListNotations.

(** os.Stat of a path of the model succeeds if something is there. *)
Definition there (f : fs) (path : res bytes) : res bool :=
  let? p := path in Ok (match f (resolve p) with Some _ => true | None => false end).
(** LCExistPubKey, 101-108, and LCExistPrivKey, 110-117. *)
Definition exist_pub_key (f : fs) (cls : Z) (id : bytes) : res bool := there f (pub_key_path cls id).
Definition exist_priv_key (f : fs) (cls : Z) (id : bytes) : res bool := there f (priv_key_path cls id).
(** LCSaveKeyPairPrompt, 150-157, when [secret] is typed; it is asked for once. LCSaveKeyPair 145-147, LCLoadPubKey 120-122
    and LCLoadPrivKey 125-127 are save_key_pair, load_pub_key and load_priv_key; LCLoadPrivKeyPrompt 130-142 is
    load_priv_key_prompt. *)
Definition save_key_pair_prompt (f : fs) (cls : Z) (id : bytes) (pub priv : Z) (secret nonce : bytes) : fs * res unit :=
  if prompt_accepts secret then save_key_pair f cls id pub priv secret nonce else (f, Err).
