(** * Model of the key generator with aliases (/repo/src/main/pkeygen.go) on a file system with symbolic links.

    The directories under /etc/poodle may hold links, so the functions of lc_util.go are modelled again here on such a file
    system; texts of files, paths and secrets are those of KeyStoreModel. Not modelled: permissions and full disks, hard
    links, NUL bytes in names, what is printed, and changes by other processes during the run. A slash or "/." at the end of a path counts
    for nothing. *)
From Coq Require Import List NArith ZArith Bool.
From Coq Require Import Strings.Byte Strings.String.
From Verif Require Import Base CrcModel AesModel KeyStoreModel.
Import ListNotations.
Local Open Scope list_scope.

(** ** File system *)

(** What there is at a place: the names on the way from the root, none of them a link. The root is a directory. *)
Notation place := (list bytes).
Inductive node := NFile (content : bytes) | NDir | NLink (target : bytes).
Definition disk := list (place * node).
Definition at_place (d : disk) (p : place) : option node :=
  match p with
  | [] => Some NDir
  | _ => option_map snd (find (fun e => path_eqb (fst e) p) d)
  end.
Definition put_node (d : disk) (p : place) (n : node) : disk := (p, n) :: d.
Definition drop_node (d : disk) (p : place) : disk := filter (fun e => negb (path_eqb (fst e) p)) d.
(** Whether there is a name in the directory at a place. *)
Definition is_empty_dir (d : disk) (p : place) : bool :=
  negb (existsb (fun e => match fst e with [] => false | _ => path_eqb (removelast (fst e)) p end) d).

(** The names in a path. *)
Definition names (s : bytes) : list bytes :=
  filter (fun x => negb (bytes_eqb x []) && negb (bytes_eqb x (str "."))) (split_slash [] s).
Definition absolute (s : bytes) : bool := match s with c :: _ => byte_eqb c x2f | [] => false end.

(** Path lookup of Linux, path_resolution(7). [Here]: there is something at the place. [Absent]: only the last name does not
    exist (ENOENT). [Missing]: a name before the last does not exist (ENOENT). [NotDir]: a name before the last is a file
    (ENOTDIR). [Loop]: too many links (ELOOP). [follow] says whether a link at the end is followed. *)
Inductive lookup := Here (p : place) | Absent (p : place) | Missing | NotDir | Loop.
Fixpoint walk (links : nat) (d : disk) (follow : bool) : place -> list bytes -> lookup :=
  fix go (cwd : place) (ns : list bytes) {struct ns} : lookup :=
    match ns with
    | [] => Here cwd
    | x :: rest =>
        if bytes_eqb x (str "..") then go (removelast cwd) rest
        else
          let p := cwd ++ [x] in
          match at_place d p with
          | None => match rest with [] => Absent p | _ => Missing end
          | Some NDir => go p rest
          | Some (NFile _) => match rest with [] => Here p | _ => NotDir end
          | Some (NLink t) =>
              match rest, follow with
              | [], false => Here p
              | _, _ =>
                  match links with
                  | O => Loop
                  | S l => walk l d follow (if absolute t then [] else cwd) (names t ++ rest)
                  end
              end
          end
    end.
(** The limit is 40 links. *)
Definition stat (d : disk) (path : bytes) : lookup := walk 40 d true [] (names path).
Definition lstat (d : disk) (path : bytes) : lookup := walk 40 d false [] (names path).
(** os.IsNotExist of the error of os.Stat. *)
Definition not_exist (l : lookup) : bool := match l with Absent _ | Missing => true | _ => false end.

(** ** Calls of the standard library *)

(** os.Remove: unlink, or rmdir if that fails. *)
Definition remove (d : disk) (path : bytes) : res disk :=
  match lstat d path with
  | Here [] => Err
  | Here p =>
      match at_place d p with
      | Some NDir => if is_empty_dir d p then Ok (drop_node d p) else Err
      | _ => Ok (drop_node d p)
      end
  | _ => Err
  end.
(** os.Symlink. *)
Definition symlink (d : disk) (target path : bytes) : res disk :=
  match lstat d path with Absent p => Ok (put_node d p (NLink target)) | _ => Err end.
(** os.Mkdir. *)
Definition mkdir (d : disk) (ns : list bytes) : disk * bool :=
  match walk 40 d false [] ns with Absent p => (put_node d p NDir, true) | _ => (d, false) end.
(** os.MkdirAll for an absolute path of names, the last name first. *)
Fixpoint mkdir_all (d : disk) (rns : list bytes) : disk * bool :=
  match walk 40 d true [] (rev rns) with
  | Here p => (d, match at_place d p with Some NDir => true | _ => false end)
  | _ =>
      match rns with
      | [] => (d, true)
      | _ :: up => let (d1, ok) := mkdir_all d up in if ok : bool then mkdir d1 (rev rns) else (d1, false)
      end
  end.
(** ioutil.WriteFile and ioutil.ReadFile. *)
Definition write_file (d : disk) (path content : bytes) : res disk :=
  match stat d path with
  | Here p => match at_place d p with Some (NFile _) => Ok (put_node d p (NFile content)) | _ => Err end
  | Absent p => Ok (put_node d p (NFile content))
  | _ => Err
  end.
Definition read_file (d : disk) (path : bytes) : res bytes :=
  match stat d path with
  | Here p => match at_place d p with Some (NFile c) => Ok c | _ => Err end
  | _ => Err
  end.

(** ** lc_util.go *)

(** LCExistPubKey and LCExistPrivKey, 101-117. *)
Definition exist_file (d : disk) (path : bytes) : bool := match stat d path with Here _ => true | _ => false end.
Definition exist_pub_key (d : disk) (cls : Z) (id : bytes) : res bool := rmap (exist_file d) (pub_key_path cls id).
Definition exist_priv_key (d : disk) (cls : Z) (id : bytes) : res bool := rmap (exist_file d) (priv_key_path cls id).
(** lc_load_pub_key, 254-263, and lc_load_priv_key, 266-294, with lc_load_key_data, 218-251. *)
Definition load_pub_key (d : disk) (cls : Z) (id : bytes) : res Z :=
  let? path := pub_key_path cls id in
  let? input := read_file d path in
  let? data := parse_key_data input in
  Ok (EndianModel.bytes_to_big data).
Definition load_priv_key (d : disk) (cls : Z) (id secret : bytes) : res Z :=
  let? path := priv_key_path cls id in
  let? input := read_file d path in
  let? data := parse_key_data input in
  open_priv_data secret data.
(** lc_mkdir_if_not_exist, 296-309. If the second Stat fails, Mode() of its nil result panics. *)
Definition mkdir_if_not_exist (d : disk) (path : bytes) : disk * res unit :=
  let d1 := if not_exist (stat d path) then fst (mkdir_all d (rev (names path))) else d in
  (d1, match stat d1 path with
       | Here p => match at_place d1 p with Some NDir => Ok tt | _ => Err end
       | _ => Panic
       end).
(** lc_save_key_pair, 333-384. *)
Definition save_key_pair (d : disk) (cls : Z) (id : bytes) (pub priv : Z) (secret nonce : bytes) : disk * res unit :=
  match key_dir cls id, pub_key_path cls id, priv_key_path cls id with
  | Ok dir, Ok pub_path, Ok priv_path =>
      match mkdir_if_not_exist d dir with
      | (d1, Ok _) =>
          match new_cipher secret with
          | Ok block =>
              match write_file d1 priv_path (priv_text block nonce priv) with
              | Ok d2 => match write_file d2 pub_path (pub_text pub) with Ok d3 => (d3, Ok tt) | Err => (d2, Err) | Panic => (d2, Panic) end
              | Err => (d1, Err)
              | Panic => (d1, Panic)
              end
          | Err => (d1, Err)
          | Panic => (d1, Panic)
          end
      | (d1, Err) => (d1, Err)
      | (d1, Panic) => (d1, Panic)
      end
  | _, _, _ => (d, Panic)
  end.

(** ** pkeygen.go *)

(** PromptPassphrase(true), lc_util.go:36-68, when the user types two phrases. *)
Definition prompt_twice (p1 p2 : bytes) : bool := (8 <=? zlen p1)%Z && bytes_eqb p1 p2.
(** check_path_exist, 14-21. *)
Definition check_path_exist (d : disk) (path : bytes) : bool := negb (not_exist (stat d path)).
(** What the user gives: the flags alias and force (100-102), the answer to the question (52; spaces around it are gone),
    and two passphrases. What the random source gives: a key pair and a nonce. *)
Record input := Input {
  in_alias : bytes; in_force : bool; in_answer : bytes; in_phrase1 : bytes; in_phrase2 : bytes;
  in_pub : Z; in_priv : Z; in_nonce : bytes
}.
Inductive ending := Done | Exit (code : nat) | Crashed.
(** process_key, 45-96, with generate_key_pair, 23-43. *)
Definition process_key (d : disk) (cls : Z) (i : input) : disk * ending :=
  match etc_dir cls with
  | Ok etc =>
      let alias_path := etc ++ str "/" ++ in_alias i in
      let has_alias := negb (bytes_eqb (in_alias i) []) in
      if has_alias && check_path_exist d alias_path && negb (in_force i) &&
         negb (bytes_eqb (in_answer i) (str "y")) && negb (bytes_eqb (in_answer i) (str "Y"))
      then (d, Exit 1)
      else if negb (prompt_twice (in_phrase1 i) (in_phrase2 i)) then (d, Exit 1)
      else
        let id := pkeygen_id (in_pub i) in
        let secret := pkeygen_secret (in_phrase1 i) in
        match save_key_pair d cls id (in_pub i) (in_priv i) secret (in_nonce i) with
        | (d1, Err) => (d1, Exit 1)
        | (d1, Panic) => (d1, Crashed)
        | (d1, Ok _) =>
            match (let? _ := load_pub_key d1 cls id in load_priv_key d1 cls id secret) with
            | Err => (d1, Exit 1)
            | Panic => (d1, Crashed)
            | Ok _ =>
                if negb has_alias then (d1, Done)
                else
                  match (if check_path_exist d1 alias_path then remove d1 alias_path else Ok d1) with
                  | Ok d2 =>
                      match symlink d2 (etc ++ str "/" ++ id) alias_path with
                      | Ok d3 => (d3, Done)
                      | Err => (d2, Exit 1)
                      | Panic => (d2, Crashed)
                      end
                  | Err => (d1, Exit 1)
                  | Panic => (d1, Crashed)
                  end
            end
        end
  | _ => (d, Crashed)
  end.
(** main, 98-123: the flag class. *)
Definition class_of (c : bytes) : option Z :=
  if bytes_eqb c (str "node") then Some 1%Z
  else if bytes_eqb c (str "cluster") then Some 2%Z
  else if bytes_eqb c (str "universe") then Some 3%Z
  else if bytes_eqb c (str "service") then Some 4%Z
  else if bytes_eqb c (str "federation") then Some 5%Z
  else None.
Definition keygen_main (d : disk) (class : bytes) (i : input) : disk * ending :=
  match class_of class with
  | Some cls => process_key d cls i
  | None => (d, Exit 2)
  end.
