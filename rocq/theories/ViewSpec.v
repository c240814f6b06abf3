(** * Specification vocabulary for parsed objects that look into a buffer. *)
From Coq Require Import List NArith ZArith.
From Coq Require Import Strings.Byte.
From Verif Require Import Base KeyModel ValueModel ViewModel.
Import ListNotations.

(** What a parse of given bytes says once and for all, with nothing shared: the objects of ValueModel and KeyModel. *)
Inductive reading :=
| RVal (m : mval)
| RSimple (buf content : list byte)
| RKey (k : ikey)
| RRec (r : mrec).
Definition reads (k : kind) (b : list byte) : option reading :=
  match k with
  | KValue => match new_std_value b with Ok (m, _) => Some (RVal m) | _ => None end
  | KSimple => match new_simple_value b with Ok (VSimple x c, _) => Some (RSimple x c) | _ => None end
  | KKey => match new_mapped_key (Some b) with Ok (x, _) => Some (RKey x) | _ => None end
  | KRecord => match new_mapped_record b with Ok (r, _) => Some (RRec r) | _ => None end
  end.
(** The number of bytes of Buf of a value or record. *)
Definition extent (e : reading) : nat :=
  match e with RVal m => length (mv_buf m) | RSimple b _ => length b | RKey _ => 0 | RRec r => length (mr_buf r) end.

(** The [i]-th of the values or records that lie one after the other in [c]. *)
Fixpoint nth_in (k : kind) (c : list byte) (i : nat) : option reading :=
  match reads k c with
  | Some e => match i with O => Some e | S i' => nth_in k (skipn (extent e) c) i' end
  | None => None
  end.

(** What an object says: a value that is asked for element [i] of kind [k], if it has one. *)
Definition element (m : mval) (k : kind) (i : nat) : option reading :=
  match mv_body m, k with
  | BArr cs, KValue => if Nat.ltb i (length cs) then nth_in KValue (mv_content m) i else None
  | BRec cs, KRecord => if Nat.ltb i (length cs) then nth_in KRecord (mv_content m) i else None
  | _, _ => None
  end.
Definition part_of (r : mrec) (p : part) : reading :=
  match r, p with
  | MRec _ k _ _ _ _, KeyPart => RKey k
  | MRec _ _ v _ _ _, ValuePart => RVal v
  | MRec _ _ _ c _ _, SchemePart => RVal c
  end.

(** A reference to an object if there is something to refer to, and none otherwise. *)
Definition ref_if {A} (o : option A) (r : res obs) : Prop :=
  match o with Some _ => exists d, r = Ok (ARef d) | None => forall d, r <> Ok (ARef d) end.

(** [right e a o r]: if [o] is a call on object [a], and [a] says [e], then [r] is the answer to expect. *)
Definition right (e : reading) (a : nat) (o : op) (r : res obs) : Prop :=
  match e with
  | RVal m =>
      (o = OBuf a -> r = Ok (ABytes (Some (mv_buf m)))) /\
      (o = OContent a -> r = Ok (ABytes (match mv_body m with BPrim => Some (mv_content m) | _ => None end))) /\
      (o = OKind a -> r = Ok (match mv_body m with
                              | BPrim => AKind true false false | BArr _ => AKind false true false
                              | BRec _ => AKind false false true end)) /\
      (o = OSize a -> r = Ok (ASize (match mv_body m with
                                     | BPrim => 0 | BArr l => N.of_nat (length l) | BRec l => N.of_nat (length l) end))) /\
      (forall i, o = OValueAt a i -> ref_if (element m KValue i) r) /\
      (forall i, o = ORecordAt a i -> ref_if (element m KRecord i) r) /\
      (o = OCopy a -> exists d, r = Ok (ARef d))
  | RSimple b c =>
      (o = OBuf a -> r = Ok (ABytes (Some b))) /\
      (o = OContent a -> r = Ok (ABytes (Some c))) /\
      (o = OKind a -> r = Ok (AKind true false false)) /\
      (o = OSize a -> r = Ok (ASize 0)) /\
      (o = OCopy a -> exists d, r = Ok (ARef d))
  | RKey k =>
      (o = OBuf a -> r = rmap ABytes (ikey_buf k)) /\
      (o = OKeys a -> r = Ok (AKeys (map gcontent (ikey_keys k)))) /\
      (o = OCopy a -> exists d, r = Ok (ARef d))
  | RRec x =>
      (o = OBuf a -> r = Ok (ABytes (Some (mr_buf x)))) /\
      (o = OTail a -> r = match x with MRec _ _ _ _ ts sig => Ok (ATail ts sig) end) /\
      (forall p, o = OPart a p -> exists d, r = Ok (ARef d)) /\
      (o = OCopy a -> ref_if (reads KRecord (mr_buf x)) r)
  end.

(** Which objects are known to say what, by calls and their answers, when object [a] says [e] at the start: elements
    and parts that were handed out, and copies of keys. *)
Inductive says (a : nat) (e : reading) (ops : list op) (rs : list (res obs)) : nat -> reading -> Prop :=
| says_start : says a e ops rs a e
| says_value j b m i c x :
    says a e (firstn j ops) (firstn j rs) b (RVal m) ->
    nth_error ops j = Some (OValueAt b i) -> nth_error rs j = Some (Ok (ARef c)) -> element m KValue i = Some x ->
    says a e ops rs c x
| says_record j b m i c x :
    says a e (firstn j ops) (firstn j rs) b (RVal m) ->
    nth_error ops j = Some (ORecordAt b i) -> nth_error rs j = Some (Ok (ARef c)) -> element m KRecord i = Some x ->
    says a e ops rs c x
| says_part j b r p c :
    says a e (firstn j ops) (firstn j rs) b (RRec r) ->
    nth_error ops j = Some (OPart b p) -> nth_error rs j = Some (Ok (ARef c)) ->
    says a e ops rs c (part_of r p)
| says_key_copy j b k c :
    says a e (firstn j ops) (firstn j rs) b (RKey k) ->
    nth_error ops j = Some (OCopy b) -> nth_error rs j = Some (Ok (ARef c)) ->
    says a e ops rs c (RKey k).

(** A call that writes nothing into the window. *)
Definition spares (R : win) (o : op) : Prop :=
  forall b i x, o = OWrite b i x -> b <> w_blk R \/ i < w_off R \/ w_off R + w_len R <= i.

(** What the caller's memory becomes by a call: a write changes one byte, making a buffer and copying add a block. *)
Definition byte_at (M : list (list byte)) (b i : nat) : option byte := nth_error (nth b M []) i.
(** The [n] bytes from position [i] of a window at the moment. *)
Definition now (M : list (list byte)) (w : win) (i n : nat) : list byte :=
  firstn n (skipn (w_off w + i) (nth (w_blk w) M [])).

(** What object [d], parsed from window [w] when the memory was [M0] and saying [e] then, answers in state [s]: the bytes
    that are now where its parts were found. [places]: where the sub keys are, start and length. [refs]: the key, value and
    scheme objects. *)
Definition tells (s : st) (o : op) : res obs := snd (step s o).
Definition window_answers (e : reading) (M0 : list (list byte)) (w : win) (places : list (nat * nat)) (refs : part -> nat)
    (d : nat) (s : st) : Prop :=
  let here i n := Some (now (s_mem s) w i n) in
  match e with
  | RVal m =>
      tells s (OBuf d) = Ok (ABytes (here 0 (length (mv_buf m)))) /\
      match mv_body m with
      | BPrim => tells s (OKind d) = Ok (AKind true false false) /\ tells s (OSize d) = Ok (ASize 0) /\
          tells s (OContent d) = Ok (ABytes (here (length (mv_buf m) - length (mv_content m)) (length (mv_content m))))
      | BArr l => tells s (OKind d) = Ok (AKind false true false) /\ tells s (OSize d) = Ok (ASize (N.of_nat (length l))) /\
          tells s (OContent d) = Ok (ABytes None)
      | BRec l => tells s (OKind d) = Ok (AKind false false true) /\ tells s (OSize d) = Ok (ASize (N.of_nat (length l))) /\
          tells s (OContent d) = Ok (ABytes None)
      end
  | RSimple b c =>
      tells s (OBuf d) = Ok (ABytes (here 0 (length b))) /\
      tells s (OContent d) = Ok (ABytes (here (length b - length c) (length c))) /\
      tells s (OKind d) = Ok (AKind true false false) /\ tells s (OSize d) = Ok (ASize 0)
  | RKey k =>
      map gcontent (ikey_keys k) = map (fun '(i, n) => now M0 w i n) places /\
      tells s (OKeys d) = Ok (AKeys (map (fun '(i, n) => now (s_mem s) w i n) places)) /\
      tells s (OBuf d) = Ok (ABytes (match places with [] => Some [x00] | _ => here 0 (w_len w) end))
  | RRec (MRec b k v c ts sig) =>
      tells s (OBuf d) = Ok (ABytes (here 0 (length b))) /\
      tells s (OTail d) = Ok (ATail ts sig) /\
      (forall p, tells s (OPart d p) = Ok (ARef (refs p))) /\
      (forall kb, ikey_buf k = Ok (Some kb) ->
        tells s (OBuf (refs ValuePart)) = Ok (ABytes (here (1 + length kb) (length (mv_buf v)))) /\
        tells s (OBuf (refs SchemePart)) = Ok (ABytes (here (1 + length kb + length (mv_buf v)) (length (mv_buf c)))))
  end.

(** The kind of an object. *)
Definition is_a (s : st) (a : nat) (k : kind) : Prop :=
  match nth_error (s_objs s) a, k with
  | Some (PVal _ _ _), KValue | Some (PSimple _ _), KSimple | Some (PKey _ _), KKey | Some (PRec _ _ _ _ _ _), KRecord => True
  | _, _ => False
  end.
