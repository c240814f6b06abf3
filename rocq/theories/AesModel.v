(** * Model of AES (crypto/aes) and of AES-GCM with a 12-byte nonce, a 16-byte tag and no additional data (crypto/cipher).

    Library code, modelled from FIPS 197 and NIST SP 800-38D, as used by lc_util.go:278-291 and 343-366.
    AesProps.v proves that these definitions are the ones of the standards (AesSpec.v) and computes their test vectors. *)
From Coq Require Import List NArith ZArith Bool.
From Coq Require Import Strings.Byte.
From Verif Require Import Base EndianModel.
Import ListNotations.
Local Open Scope N_scope.

(** ** AES, on lists of numbers below 256 *)
Definition aes_sbox : list N :=
  [
   0x63; 0x7c; 0x77; 0x7b; 0xf2; 0x6b; 0x6f; 0xc5; 0x30; 0x01; 0x67; 0x2b; 0xfe; 0xd7; 0xab; 0x76;
   0xca; 0x82; 0xc9; 0x7d; 0xfa; 0x59; 0x47; 0xf0; 0xad; 0xd4; 0xa2; 0xaf; 0x9c; 0xa4; 0x72; 0xc0;
   0xb7; 0xfd; 0x93; 0x26; 0x36; 0x3f; 0xf7; 0xcc; 0x34; 0xa5; 0xe5; 0xf1; 0x71; 0xd8; 0x31; 0x15;
   0x04; 0xc7; 0x23; 0xc3; 0x18; 0x96; 0x05; 0x9a; 0x07; 0x12; 0x80; 0xe2; 0xeb; 0x27; 0xb2; 0x75;
   0x09; 0x83; 0x2c; 0x1a; 0x1b; 0x6e; 0x5a; 0xa0; 0x52; 0x3b; 0xd6; 0xb3; 0x29; 0xe3; 0x2f; 0x84;
   0x53; 0xd1; 0x00; 0xed; 0x20; 0xfc; 0xb1; 0x5b; 0x6a; 0xcb; 0xbe; 0x39; 0x4a; 0x4c; 0x58; 0xcf;
   0xd0; 0xef; 0xaa; 0xfb; 0x43; 0x4d; 0x33; 0x85; 0x45; 0xf9; 0x02; 0x7f; 0x50; 0x3c; 0x9f; 0xa8;
   0x51; 0xa3; 0x40; 0x8f; 0x92; 0x9d; 0x38; 0xf5; 0xbc; 0xb6; 0xda; 0x21; 0x10; 0xff; 0xf3; 0xd2;
   0xcd; 0x0c; 0x13; 0xec; 0x5f; 0x97; 0x44; 0x17; 0xc4; 0xa7; 0x7e; 0x3d; 0x64; 0x5d; 0x19; 0x73;
   0x60; 0x81; 0x4f; 0xdc; 0x22; 0x2a; 0x90; 0x88; 0x46; 0xee; 0xb8; 0x14; 0xde; 0x5e; 0x0b; 0xdb;
   0xe0; 0x32; 0x3a; 0x0a; 0x49; 0x06; 0x24; 0x5c; 0xc2; 0xd3; 0xac; 0x62; 0x91; 0x95; 0xe4; 0x79;
   0xe7; 0xc8; 0x37; 0x6d; 0x8d; 0xd5; 0x4e; 0xa9; 0x6c; 0x56; 0xf4; 0xea; 0x65; 0x7a; 0xae; 0x08;
   0xba; 0x78; 0x25; 0x2e; 0x1c; 0xa6; 0xb4; 0xc6; 0xe8; 0xdd; 0x74; 0x1f; 0x4b; 0xbd; 0x8b; 0x8a;
   0x70; 0x3e; 0xb5; 0x66; 0x48; 0x03; 0xf6; 0x0e; 0x61; 0x35; 0x57; 0xb9; 0x86; 0xc1; 0x1d; 0x9e;
   0xe1; 0xf8; 0x98; 0x11; 0x69; 0xd9; 0x8e; 0x94; 0x9b; 0x1e; 0x87; 0xe9; 0xce; 0x55; 0x28; 0xdf;
   0x8c; 0xa1; 0x89; 0x0d; 0xbf; 0xe6; 0x42; 0x68; 0x41; 0x99; 0x2d; 0x0f; 0xb0; 0x54; 0xbb; 0x16
  ].
Definition sub_byte (a : N) : N := nth (N.to_nat a) aes_sbox 0.
Definition xtime (a : N) : N := let d := 2 * a in if d <? 256 then d else N.lxor d 0x11b.
Definition xor_list (a b : list N) : list N := map (fun p => N.lxor (fst p) (snd p)) (combine a b).
Fixpoint iter_n {A} (n : nat) (f : A -> A) (x : A) : A := match n with O => x | S n' => f (iter_n n' f x) end.

(** Key expansion, FIPS 197 section 5.2: [ws] are the words so far, latest first, [i] how many. *)
Definition rot_word (w : list N) : list N := match w with a :: w' => w' ++ [a] | [] => [] end.
Definition rcon (i : nat) : list N := [iter_n (i - 1) xtime 1; 0; 0; 0].
Fixpoint expand (fuel nk i : nat) (ws : list (list N)) : list (list N) :=
  match fuel with
  | O => ws
  | S fuel' =>
      let t := hd [] ws in
      let t' := if Nat.eqb (i mod nk) 0 then xor_list (map sub_byte (rot_word t)) (rcon (i / nk))
                else if Nat.ltb 6 nk && Nat.eqb (i mod nk) 4 then map sub_byte t
                else t in
      expand fuel' nk (S i) (xor_list (nth (nk - 1) ws []) t' :: ws)
  end.
Fixpoint chunks {A} (n fuel : nat) (l : list A) : list (list A) :=
  match fuel with
  | O => []
  | S fuel' => match l with [] => [] | _ => firstn n l :: chunks n fuel' (skipn n l) end
  end.
Definition key_words (key : bytes) : list (list N) := chunks 4 (length key) (map b2n key).
(** The round keys, each of 16 bytes. *)
Definition key_schedule (key : bytes) : list (list N) :=
  let nk := Nat.div (length key) 4 in
  let ws := rev (expand (4 * (nk + 7) - nk) nk nk (rev (key_words key))) in
  map (@concat N) (chunks 4 (length ws) ws).

Definition shift_rows (s : list N) : list N :=
  map (fun i => nth (Nat.modulo (i + 4 * (Nat.modulo i 4)) 16) s 0) (seq 0 16).
Definition mix_column (c : list N) : list N :=
  match c with
  | [a; b; d; e] =>
      let x3 v := N.lxor (xtime v) v in
      [N.lxor (N.lxor (xtime a) (x3 b)) (N.lxor d e);
       N.lxor (N.lxor a (xtime b)) (N.lxor (x3 d) e);
       N.lxor (N.lxor a b) (N.lxor (xtime d) (x3 e));
       N.lxor (N.lxor (x3 a) b) (N.lxor d (xtime e))]
  | _ => c
  end.
Definition mix_columns (s : list N) : list N := concat (map mix_column (chunks 4 4 s)).
Fixpoint rounds (rks : list (list N)) (s : list N) : list N :=
  match rks with
  | [] => s
  | [rk] => xor_list (shift_rows (map sub_byte s)) rk
  | rk :: rks' => rounds rks' (xor_list (mix_columns (shift_rows (map sub_byte s))) rk)
  end.
(** One block, as numbers of 16 bytes, big endian. *)
Definition aes_block (rks : list (list N)) (x : N) : N :=
  let s := map b2n (be_put 16 x) in
  be_get (map n2b (match rks with [] => s | rk :: rks' => rounds rks' (xor_list s rk) end)).
(** aes.NewCipher: a key of 16, 24 or 32 bytes. *)
Definition aes_key_size (n : nat) : bool := Nat.eqb n 16 || Nat.eqb n 24 || Nat.eqb n 32.
Definition new_cipher (key : bytes) : res (list (list N)) :=
  if aes_key_size (length key) then Ok (key_schedule key) else Err.

(** ** GCM *)
Definition gf_poly : N := N.shiftl 0xe1 120.
Fixpoint gf_mul_loop (i : nat) (x z v : N) : N :=
  match i with
  | O => z
  | S i' =>
      let z' := if N.testbit x (N.of_nat i') then N.lxor z v else z in
      let v' := if N.odd v then N.lxor (N.div2 v) gf_poly else N.div2 v in
      gf_mul_loop i' x z' v'
  end.
Definition gf_mul (x y : N) : N := gf_mul_loop 128 x 0 y.
Definition pad_block (l : bytes) : N := be_get (l ++ repeat x00 (16 - length l)).
Definition ghash (h : N) (c : bytes) : N :=
  let y := fold_left (fun y b => gf_mul (N.lxor y (pad_block b)) h) (chunks 16 (length c) c) 0 in
  gf_mul (N.lxor y (8 * N.of_nat (length c) mod 2 ^ 64)) h.
Definition counter_block (nonce : bytes) (i : N) : N := be_get nonce * 2 ^ 32 + i mod 2 ^ 32.
(** The key stream of the counter mode: block [i] encrypts the counter [i + 2]. *)
Definition keystream (rks : list (list N)) (nonce : bytes) (n : nat) : bytes :=
  concat (map (fun i => be_put 16 (aes_block rks (counter_block nonce (N.of_nat i + 2)))) (seq 0 n)).
Definition xor_bytes (a b : bytes) : bytes := map (fun p => n2b (N.lxor (b2n (fst p)) (b2n (snd p)))) (combine a b).
Definition gcm_tag (rks : list (list N)) (nonce c : bytes) : bytes :=
  be_put 16 (N.lxor (ghash (aes_block rks 0) c) (aes_block rks (counter_block nonce 1))).
Definition gcm_crypt (rks : list (list N)) (nonce l : bytes) : bytes :=
  xor_bytes l (keystream rks nonce (Nat.div (length l + 15) 16)).
(** Seal(nil, nonce, plaintext, nil). *)
Definition gcm_seal (rks : list (list N)) (nonce p : bytes) : bytes :=
  let c := gcm_crypt rks nonce p in c ++ gcm_tag rks nonce c.
(** Open(nil, nonce, ciphertext, nil): too short, too long or a wrong tag is an error. *)
Definition gcm_open (rks : list (list N)) (nonce c : bytes) : res bytes :=
  if (zlen c <? 16)%Z then Err
  else if ((2 ^ 32 - 2) * 16 + 16 <? zlen c)%Z then Err
  else
    let d := firstn (length c - 16) c in
    let t := skipn (length c - 16) c in
    if forallb (fun p => byte_eqb (fst p) (snd p)) (combine t (gcm_tag rks nonce d)) then Ok (gcm_crypt rks nonce d) else Err.
