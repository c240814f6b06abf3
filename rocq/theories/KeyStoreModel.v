(** * Model of the key files (/repo/src/util/lc_util.go), of AESPad (ecdsa_util.go) and of the key generator (/repo/src/main/pkeygen.go).

    Not modelled: permissions, full disks, symbolic links, NUL bytes in names, the public point belonging to a private scalar. *)
From Coq Require Import List NArith ZArith Bool.
From Coq Require Import Strings.Byte Strings.String.
From Verif Require Import Base EndianModel CrcModel AesModel.
Import ListNotations.
Local Open Scope Z_scope.

(** ** Paths *)
Definition str (s : string) : bytes := list_byte_of_string s.
(** The name that lc_get_etc_dir, lc_get_pub_key_path and lc_get_priv_key_path (lc_util.go:162-215) use for a class, const_util.go:26-30. Any other
    class panics. *)
Definition class_name (cls : Z) : res bytes :=
  if cls =? 1 then Ok (str "node")
  else if cls =? 2 then Ok (str "cluster")
  else if cls =? 3 then Ok (str "universe")
  else if cls =? 4 then Ok (str "service")
  else if cls =? 5 then Ok (str "federation")
  else Panic.
(** lc_get_etc_dir, lc_util.go:162-177. *)
Definition etc_dir (cls : Z) : res bytes := let? n := class_name cls in Ok (str "/etc/poodle" ++ str "/" ++ n)%list.
(** lc_get_key_dir, lc_util.go:179-181. *)
Definition key_dir (cls : Z) (id : bytes) : res bytes := let? d := etc_dir cls in Ok (d ++ str "/" ++ id)%list.
(** lc_get_pub_key_path and lc_get_priv_key_path, lc_util.go:183-215. *)
Definition pub_key_path (cls : Z) (id : bytes) : res bytes :=
  let? n := class_name cls in let? d := key_dir cls id in Ok (d ++ str "/" ++ n ++ str "_id.pub")%list.
Definition priv_key_path (cls : Z) (id : bytes) : res bytes :=
  let? n := class_name cls in let? d := key_dir cls id in Ok (d ++ str "/" ++ n ++ str "_id")%list.

(** What the operating system makes of an absolute path: the names between slashes, without empty ones and ".", and ".." taking back the name
    before it. Simplified: that the name before ".." must itself be a directory, and that MkdirAll creates it, is left out (KeygenModel.v walks
    the names one by one). *)
Fixpoint split_slash (cur : bytes) (s : bytes) : list bytes :=
  match s with
  | [] => [cur]
  | c :: s' => if byte_eqb c x2f then cur :: split_slash [] s' else split_slash (cur ++ [c]) s'
  end.
Definition bytes_eqb (a b : bytes) : bool := if list_eq_dec Byte.byte_eq_dec a b then true else false.
Definition norm_step (acc : list bytes) (x : bytes) : list bytes :=
  if bytes_eqb x [] || bytes_eqb x (str ".") then acc
  else if bytes_eqb x (str "..") then removelast acc
  else (acc ++ [x])%list.
Definition resolve (s : bytes) : list bytes := fold_left norm_step (split_slash [] s) [].

(** ** Files *)
Inductive entry := File (content : bytes) | Dir.
Definition fs := list bytes -> option entry.
Definition path_eqb (p q : list bytes) : bool := if list_eq_dec (list_eq_dec Byte.byte_eq_dec) p q then true else false.
Definition fs_set (f : fs) (p : list bytes) (e : entry) : fs := fun q => if path_eqb q p then Some e else f q.
(** The non-empty prefixes of a path. *)
Definition prefixes (p : list bytes) : list (list bytes) := map (fun k => firstn k p) (seq 1 (List.length p)).
Definition is_file (f : fs) (p : list bytes) : bool := match f p with Some (File _) => true | _ => false end.
Definition is_dir (f : fs) (p : list bytes) : bool := match p with [] => true | _ => match f p with Some Dir => true | _ => false end end.
(** os.MkdirAll. *)
Definition mkdir_all (f : fs) (p : list bytes) : fs :=
  fun q => if existsb (path_eqb q) (prefixes p) then Some Dir else f q.
(** lc_mkdir_if_not_exist, lc_util.go:296-309. When a name above is a file, Stat fails with ENOTDIR, nothing is created, and Mode() of the nil
    result panics. *)
Definition mkdir_if_not_exist (f : fs) (path : bytes) : res fs :=
  let p := resolve path in
  match p with
  | [] => Ok f
  | _ =>
      match f p with
      | Some Dir => Ok f
      | Some (File _) => Err
      | None => if existsb (is_file f) (prefixes p) then Panic else Ok (mkdir_all f p)
      end
  end.
(** ioutil.WriteFile: open with O_CREATE and O_TRUNC, then write. *)
Definition can_write (f : fs) (p : list bytes) : bool :=
  match p with [] => false | _ => negb (is_dir f p) && is_dir f (removelast p) end.
Definition write_file (f : fs) (path content : bytes) : res fs :=
  let p := resolve path in
  if can_write f p then Ok (fs_set f p (File content)) else Err.
Definition read_file (f : fs) (path : bytes) : res bytes :=
  match f (resolve path) with Some (File c) => Ok c | _ => Err end.

(** ** Loading *)
(** The checksum, big endian, as written by binary.BigEndian.PutUint32. *)
Definition crc_bytes (l : bytes) : bytes := be_put 4 (crc32 l).
(** lc_load_key_data, lc_util.go:218-251, after the file has been read. [n - 4] negative panics. *)
Definition parse_key_data (input : bytes) : res bytes :=
  let? output := hex_decode input in
  let n := zlen output in
  let? data := go_upto output (n - 4) in
  let? crc := go_slice output (n - 4) n in
  if bytes_eqb (crc_bytes data) crc then Ok data else Err.
Definition load_key_data (f : fs) (path : bytes) : res bytes :=
  let? input := read_file f path in parse_key_data input.
(** lc_load_pub_key, lc_util.go:254-263: the X coordinate (ECDSAGetPublicKey, ecdsa_util.go:68-75; Y is in EcdsaModel). *)
Definition load_pub_key (f : fs) (cls : Z) (id : bytes) : res Z :=
  let? path := pub_key_path cls id in
  let? data := load_key_data f path in
  Ok (bytes_to_big data).
(** lc_load_priv_key, lc_util.go:266-294: the scalar D. [data[:12]] alone could reach into the capacity of output, but then [data[12:]] panics. *)
Definition open_priv_data (secret data : bytes) : res Z :=
  let? nonce := go_upto data 12 in
  let? ciphertext := go_from data 12 in
  let? block := new_cipher secret in
  let? plaintext := gcm_open block nonce ciphertext in
  Ok (bytes_to_big plaintext).
Definition load_priv_key (f : fs) (cls : Z) (id secret : bytes) : res Z :=
  let? path := priv_key_path cls id in
  let? data := load_key_data f path in
  open_priv_data secret data.

(** ** Saving *)
(** The texts of the two files, lc_util.go:359-369; [nonce] is what rand.Reader delivered. *)
Definition pub_text (pub : Z) : bytes :=
  let b := big_to_bytes pub in hex_encode (b ++ crc_bytes b)%list.
Definition priv_text (block : list (list N)) (nonce : bytes) (priv : Z) : bytes :=
  let e := (nonce ++ gcm_seal block nonce (big_to_bytes priv))%list in hex_encode (e ++ crc_bytes e)%list.
(** lc_save_key_pair, lc_util.go:333-384: the file system afterwards and the outcome. *)
Definition save_key_pair (f : fs) (cls : Z) (id : bytes) (pub priv : Z) (secret nonce : bytes) : fs * res unit :=
  match key_dir cls id, pub_key_path cls id, priv_key_path cls id with
  | Ok dir, Ok pub_path, Ok priv_path =>
      match mkdir_if_not_exist f dir with
      | Ok f1 =>
          match new_cipher secret with
          | Ok block =>
              match write_file f1 priv_path (priv_text block nonce priv) with
              | Ok f2 =>
                  match write_file f2 pub_path (pub_text pub) with
                  | Ok f3 => (f3, Ok tt)
                  | Err => (f2, Err)
                  | Panic => (f2, Panic)
                  end
              | Err => (f1, Err)
              | Panic => (f1, Panic)
              end
          | Err => (f1, Err)
          | Panic => (f1, Panic)
          end
      | Err => (f, Err)
      | Panic => (f, Panic)
      end
  | _, _, _ => (f, Panic)
  end.

(** A crash while saving: the file being written holds the first [k] characters of its text (0 after it has been truncated). *)
Inductive crash_point := BeforeWrites | InPriv (k : nat) | InPub (k : nat).
Definition crash_state (f1 : fs) (pub_path priv_path pubt privt : bytes) (c : crash_point) : fs :=
  match c with
  | BeforeWrites => f1
  | InPriv k => fs_set f1 (resolve priv_path) (File (firstn k privt))
  | InPub k => fs_set (fs_set f1 (resolve priv_path) (File privt)) (resolve pub_path) (File (firstn k pubt))
  end.

(** ** Passphrases *)
(** AESPad, ecdsa_util.go:30-38. *)
Definition aes_pad (input : bytes) : bytes :=
  if 16 <=? zlen input then skipn (List.length input - 16) input
  else (input ++ repeat x00 (16 - List.length input))%list.
(** pkeygen.go:33-34: make 16 bytes and copy the passphrase into them. *)
Definition pkeygen_secret (secret : bytes) : bytes := firstn 16 (secret ++ repeat x00 16)%list.
(** PromptPassphrase, lc_util.go:36-68: at least 8 bytes. *)
Definition prompt_accepts (secret : bytes) : bool := 8 <=? zlen secret.
(** LCLoadPrivKeyPrompt, lc_util.go:130-142, when the prompt delivers [secret]. *)
Definition load_priv_key_prompt (f : fs) (cls : Z) (id secret : bytes) : res Z :=
  let? path := priv_key_path cls id in
  match f (resolve path) with
  | None => Err
  | Some _ => if prompt_accepts secret then load_priv_key f cls id secret else Err
  end.
(** generate_key_pair, pkeygen.go:23-44: the id is X in lower case hex (an even number of digits). *)
Definition lower_digit (n : N) : byte := (if n <? 10 then n2b (48 + n) else n2b (87 + n))%N.
Definition hex_lower (l : bytes) : bytes := flat_map (fun b => [lower_digit (b2n b / 16); lower_digit (b2n b mod 16)])%N l.
Definition pkeygen_id (pub : Z) : bytes := hex_lower (big_bytes pub).
Definition pkeygen (f : fs) (cls pub priv : Z) (passphrase nonce : bytes) : fs * res unit :=
  if prompt_accepts passphrase then save_key_pair f cls (pkeygen_id pub) pub priv (pkeygen_secret passphrase) nonce else (f, Err).
