(** * What EstBufSize answers over a history of calls: a ledger kept by somebody who watches the calls.

    The reader notes, for every object and every part of a record, what the calls so far have put on its account. Nothing of the
    objects' own counters is used; EstBufSize of an argument is asked when the call is made. *)
From Coq Require Import List NArith ZArith Bool Arith.
From Coq Require Import Strings.Byte.
From Verif Require Import Base KeyModel ValueModel ObjModel ObjSpec.
Import ListNotations.
Local Open Scope Z_scope.

(** EstBufSize of an object, asked now (0 when there is no such object). *)
Definition size_of (h : heap) (a : ref) : Z := match est_of h a with Ok n => n | _ => 0 end.
Definition elements (h : heap) (a : ref) : list ref :=
  match get h a with Some (OArr _ _ _ l) | Some (ORecs _ _ _ l) => l | _ => [] end.
Definition subkeys (h : heap) (a : ref) : list (option slc) := match get h a with Some (OKeyObj _ ks _ _) => ks | _ => [] end.
Definition parts (h : heap) (a : ref) : option ref * option ref * option ref :=
  match get h a with Some (ORec _ _ _ k v s _ _ _) => (k, v, s) | _ => (None, None, None) end.
Definition total (l : list Z) : Z := fold_right Z.add 0 l.
Definition len_of (h : heap) (s : option slc) : Z := zlen (gcontent (rd h s)).

Inductive account := Whole | KeyPart | ValuePart | SchemePart.
Definition ledger := ref -> account -> Z.
Definition same_account (c d : account) : bool :=
  match c, d with Whole, Whole | KeyPart, KeyPart | ValuePart, ValuePart | SchemePart, SchemePart => true | _, _ => false end.
Definition set_to (p : ledger) (a : ref) (c : account) (n : Z) : ledger :=
  fun x d => if Nat.eqb x a && same_account c d then n else p x d.

(** A new object: one byte for an array, a list or a key, and one byte and its length for every sub key. *)
Definition opening (h : heap) (a : ref) (c : account) : Z :=
  match c, get h a with
  | Whole, Some (OArr _ _ _ _) | Whole, Some (ORecs _ _ _ _) => 1
  | Whole, Some (OKeyObj _ ks _ _) => 1 + total (map (fun s => 1 + len_of h s) ks)
  | _, _ => 0
  end.
(** Arrays and keys which an Encode has given a new buffer. *)
Definition counts_buf (h : heap) (a : ref) : bool := match get h a with Some (OArr _ _ _ _) | Some (OKeyObj _ _ _ _) => true | _ => false end.
Definition slot (h : heap) (a : ref) : option slc := match get h a with Some o => obj_slice o | None => None end.
Definition moved (h h' : heap) (a : ref) : bool :=
  match slot h' a, slot h a with
  | Some s', Some s => negb (Nat.eqb (sl_blk s') (sl_blk s))
  | Some _, None => true
  | None, _ => false
  end.

(** The ledger after one call, made in [h] and leaving [h']. *)
Definition book (h : heap) (o : op) (p : ledger) : ledger :=
  match o with
  | AppendVal a x | AppendRec a x => set_to p a Whole (p a Whole + size_of h x)
  | DeleteVal a i | DeleteRec a i => set_to p a Whole (p a Whole - size_of h (nth (N.to_nat i) (elements h a) O))
  | AddSub a s => set_to p a Whole (p a Whole + (1 + len_of h s))
  | SetKeyOf a k => set_to p a KeyPart (size_of h k)
  | SetValOf a v => set_to p a ValuePart (size_of h v)
  | SetSchemeOf a v => set_to p a SchemePart (size_of h v)
  | _ => p
  end.
Definition next (h : heap) (o : op) (h' : heap) (p : ledger) : ledger :=
  fun a c =>
    if Nat.leb (length (objs h)) a then opening h' a c
    else if is_encode o && same_account c Whole && counts_buf h' a && moved h h' a then len_of h' (slot h' a)
    else book h o p a c.
Fixpoint ledger_after (h : heap) (p : ledger) (ops : list op) : ledger :=
  match ops with
  | [] => p
  | o :: ops' => match step h o with Some h' => ledger_after h' (next h o h' p) ops' | None => p end
  end.
Definition no_entries : ledger := fun _ _ => 0.

(** What EstBufSize should answer, by the ledger. *)
Definition shown (h : heap) (p : ledger) (a : ref) : Z :=
  match get h a with
  | Some (OPrim _ _ d) =>
      let n := len_of h d in n + (if n <? 2 ^ 7 then 1 else if n <? 2 ^ 15 then 2 else if n <? 2 ^ 23 then 3 else 4)
  | Some (OArr _ _ _ _) | Some (ORecs _ _ _ _) => Z.max 1 (p a Whole)
  | Some (OKeyObj _ _ _ _) => p a Whole
  | Some (ORec _ _ _ _ _ _ t r q) =>
      1 + Z.max 1 (p a KeyPart) + Z.max 1 (p a ValuePart) + Z.max 1 (p a SchemePart)
      + (match t with Some _ => 8 | None => 0 end) + (match r, q with Some _, Some _ => 64 | _, _ => 0 end)
  | Some (OStd m) => zlen (mv_buf m)
  | Some (OSimple b _) => zlen b
  | Some (OMapped r) => zlen (mr_buf r)
  | Some OEmptyKey => 1
  | Some (OMKey ks b) => match b, ks with _ :: _, _ :: _ => zlen b | _, _ => 1 end
  | None => 0
  end.

(** ** Histories that build from the bottom up: no Encode, no Copy of a value or record, and no change of an object that another object
    holds (or that it holds itself). *)
Definition holds (h : heap) (b a : ref) : Prop :=
  In a (elements h b) \/ let '(k, v, s) := parts h b in k = Some a \/ v = Some a \/ s = Some a.
Definition copies (o : op) : bool := match o with CopyVal _ _ | CopyRec _ _ => true | _ => false end.
Definition tidy_call (h' : heap) (o : op) : Prop :=
  is_encode o = false /\ copies o = false /\ forall a, target o = Some a -> forall b, ~ holds h' b a.
Fixpoint tidy (h : heap) (ops : list op) : Prop :=
  match ops with
  | [] => True
  | o :: ops' => match step h o with Some h' => tidy_call h' o /\ tidy h' ops' | None => False end
  end.
Definition part_size (h : heap) (p : option ref) : Z := match p with Some x => Z.max 1 (size_of h x) | None => 1 end.
(** EstBufSize of an object from the present EstBufSize of what it holds. *)
Definition adds_up (h : heap) (a : ref) : Prop :=
  match get h a with
  | Some (OArr _ _ _ l) | Some (ORecs _ _ _ l) => size_of h a = 1 + total (map (size_of h) l)
  | Some (OKeyObj _ ks _ _) => size_of h a = 1 + total (map (fun s => 1 + len_of h s) ks)
  | Some (ORec _ _ _ k v s t r q) =>
      size_of h a = 1 + part_size h k + part_size h v + part_size h s
        + (match t with Some _ => 8 | None => 0 end) + (match r, q with Some _, Some _ => 64 | _, _ => 0 end)
  | _ => True
  end.
