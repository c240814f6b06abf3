(** * Vocabulary for statements about the key generator and aliases *)
From Coq Require Import List NArith ZArith Bool.
From Coq Require Import Strings.Byte Strings.String.
From Verif Require Import Base AesModel KeyStoreModel KeyStoreSpec KeygenModel.
Import ListNotations.
Local Open Scope list_scope.

(** Everything lies in a directory. *)
Definition tidy (d : disk) : Prop := forall p x, at_place d (p ++ [x]) <> None -> at_place d p = Some NDir.
(** The directory of a class: /etc/poodle/node and so on. *)
Definition class_place (n : bytes) : place := [str "etc"; str "poodle"; n].
(** There is a directory at each place on the way to [p], or nothing. *)
Definition real_path (d : disk) (p : place) : Prop :=
  forall a b, p = a ++ b -> a <> [] -> at_place d a = None \/ at_place d a = Some NDir.
(** Nothing, or a file. *)
Definition free_or_file (d : disk) (p : place) : Prop := at_place d p = None \/ exists c, at_place d p = Some (NFile c).
Definition in_dir (d : disk) (p : place) : Prop := exists x, at_place d (p ++ [x]) <> None.

(** Following the names [ns] from [cwd], with at most [l] links, ends at a name that does not exist. *)
Inductive nowhere (d : disk) : nat -> place -> list bytes -> Prop :=
| no_name l cwd x ns : x <> str ".." -> at_place d (cwd ++ [x]) = None -> nowhere d l cwd (x :: ns)
| no_up l cwd ns : nowhere d l (removelast cwd) ns -> nowhere d l cwd (str ".." :: ns)
| no_dir l cwd x ns : x <> str ".." -> at_place d (cwd ++ [x]) = Some NDir -> nowhere d l (cwd ++ [x]) ns -> nowhere d l cwd (x :: ns)
| no_link l cwd x ns t : x <> str ".." -> at_place d (cwd ++ [x]) = Some (NLink t) ->
    nowhere d l (if absolute t then [] else cwd) (names t ++ ns) -> nowhere d (S l) cwd (x :: ns).
(** A link at place [p ++ [x]] to something that does not exist. *)
Definition dangling (d : disk) (p : place) (x : bytes) : Prop :=
  exists t, at_place d (p ++ [x]) = Some (NLink t) /\ nowhere d 39 (if absolute t then [] else p) (names t).

(** [d1] is [d] with the key directory of [id] and the two files in it. *)
Definition with_key (d d1 : disk) (n id privt pubt : bytes) : Prop :=
  let k := class_place n ++ [id] in
  at_place d1 (k ++ [n ++ str "_id"]) = Some (NFile privt) /\
  at_place d1 (k ++ [n ++ str "_id.pub"]) = Some (NFile pubt) /\
  (forall a b, k = a ++ b -> a <> [] -> at_place d1 a = Some NDir) /\
  (forall q, q <> k ++ [n ++ str "_id"] -> q <> k ++ [n ++ str "_id.pub"] -> (forall b, k <> q ++ b) -> at_place d1 q = at_place d q).
(** [d2] is [d1] with a link at [p]. *)
Definition with_link (d1 d2 : disk) (p : place) (target : bytes) : Prop :=
  at_place d2 p = Some (NLink target) /\ forall q, q <> p -> at_place d2 q = at_place d1 q.

(** A name that cannot be taken by a new link: a link to nothing, or a directory with something in it. *)
Definition blocked (d : disk) (p : place) (x : bytes) : Prop :=
  dangling d p x \/ (at_place d (p ++ [x]) = Some NDir /\ in_dir d (p ++ [x])).
(** The state in which a new key [id] can be stored. *)
Definition ready (d : disk) (n id : bytes) : Prop :=
  tidy d /\ real_path d (class_place n ++ [id]) /\
  free_or_file d (class_place n ++ [id; n ++ str "_id"]) /\ free_or_file d (class_place n ++ [id; n ++ str "_id.pub"]).

(** What the user says. *)
Definition consents (i : input) : Prop := in_force i = true \/ in_answer i = str "y" \/ in_answer i = str "Y".
Definition good_phrases (i : input) : Prop := (8 <= List.length (in_phrase1 i))%nat /\ in_phrase2 i = in_phrase1 i.
(** The generated numbers are in range. *)
Definition good_numbers (i : input) : Prop :=
  (0 < in_pub i < 2 ^ 256)%Z /\ (0 <= in_priv i < 2 ^ 256)%Z /\ List.length (in_nonce i) = 12%nat.
