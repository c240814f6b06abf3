(** * What the objects of a heap say now, and what it means that two heaps say the same. *)
From Coq Require Import List NArith ZArith Bool.
From Coq Require Import Strings.Byte.
From Verif Require Import Base KeyModel ValueModel ObjModel.
Import ListNotations.

(** The present contents of an object, read through all references: a value of ValueModel without the cached fields
    (estimates are 0, keys are not encoded). [None]: the references do not end within [n] steps, or have wrong types. *)
Fixpoint opt_all {A B} (f : A -> option B) (l : list A) : option (list B) :=
  match l with
  | [] => Some []
  | x :: l' => match f x, opt_all f l' with Some y, Some r => Some (y :: r) | _, _ => None end
  end.
Definition opt_part {A B} (f : A -> option B) (p : option A) : option (option B) :=
  match p with None => Some None | Some x => match f x with Some y => Some (Some y) | None => None end end.
Definition kview (h : heap) (a : ref) : option ikey :=
  match get h a with
  | Some (OKeyObj _ ks _ _) => Some (KKey false (map (rd h) ks) None 0)
  | Some OEmptyKey => Some KEmpty
  | Some (OMKey ks b) => Some (KMapped ks b)
  | _ => None
  end.
Fixpoint vview (n : nat) (h : heap) (a : ref) : option value :=
  match n with
  | O => None
  | S n' =>
      match get h a with
      | Some (OPrim _ _ d) => Some (VPrim (rd h d))
      | Some (OArr _ _ _ l) => option_map (VArr 0) (opt_all (vview n' h) l)
      | Some (ORecs _ _ _ l) => option_map (VRecs 0) (opt_all (rview n' h) l)
      | Some (OStd m) => Some (VStd m)
      | Some (OSimple b c) => Some (VSimple b c)
      | _ => None
      end
  end
with rview (n : nat) (h : heap) (a : ref) : option record :=
  match n with
  | O => None
  | S n' =>
      match get h a with
      | Some (ORec _ _ _ k v s t sr ss) =>
          match opt_part (kview h) k, opt_part (vview n' h) v, opt_part (vview n' h) s with
          | Some k', Some v', Some s' => Some (Rec (0, 0, 0)%Z k' v' s' t sr ss)
          | _, _, _ => None
          end
      | Some (OMapped r) => Some (RMapped r)
      | _ => None
      end
  end.

(** An object without its cache: the fields that setters set. *)
Definition bare (o : obj) : obj :=
  match o with
  | OPrim _ _ d => OPrim false None d
  | OArr _ _ _ l => OArr false None 0 l
  | ORecs _ _ _ l => ORecs false None 0 l
  | ORec _ _ _ k v s t r q => ORec false None (0, 0, 0)%Z k v s t r q
  | OKeyObj _ ks _ _ => OKeyObj false ks None 0
  | o => o
  end.

(** Only caches differ, and memory has only grown. *)
Definition same (h h' : heap) : Prop :=
  (exists more, mem h' = mem h ++ more) /\
  length (objs h') = length (objs h) /\
  forall a o, get h a = Some o -> exists o', get h' a = Some o' /\ bare o' = bare o.

(** All slices held by objects exist. *)
Definition slices_of (o : obj) : list (option slc) :=
  match o with
  | OPrim _ b d => [b; d]
  | OArr _ b _ _ | ORecs _ b _ _ | ORec _ b _ _ _ _ _ _ _ => [b]
  | OKeyObj _ ks b _ => b :: ks
  | _ => []
  end.
Definition sound (h : heap) : Prop :=
  forall a o s, get h a = Some o -> In s (slices_of o) -> slice_ok h s = true.

(** The buffer of [a] is the encoding of what [a] says in [h]. *)
Definition current_val (h : heap) (a : ref) : Prop :=
  exists n v b g, vview n h a = Some v /\ value_encode v = Ok b /\ buf_of h a = Ok g /\ gcontent g = b.
Definition current_rec (h : heap) (a : ref) : Prop :=
  exists n r b g, rview n h a = Some r /\ record_encode r = Ok b /\ buf_of h a = Ok g /\ gcontent g = b.
Definition current_key (h : heap) (a : ref) : Prop :=
  exists ks b, (exists e bf est, get h a = Some (OKeyObj e ks bf est)) /\ encode_keys (map (rd h) ks) = Ok b /\
    buf_of h a = Ok (Some b).
Definition current (h : heap) (a : ref) : Prop := current_val h a \/ current_rec h a \/ current_key h a.

(** ** What a value depends on: the objects and the memory blocks read by [vview] and [rview]. *)
Definition blk_of (s : option slc) : list nat := match s with Some s => [sl_blk s] | None => [] end.
Definition kblks (h : heap) (a : ref) : list nat :=
  match get h a with Some (OKeyObj _ ks _ _) => flat_map blk_of ks | _ => [] end.
Definition on_part {A} (f : ref -> list A) (p : option ref) : list A := match p with Some x => f x | None => [] end.
Fixpoint vobjs (n : nat) (h : heap) (a : ref) : list ref :=
  match n with
  | O => []
  | S n' =>
      a :: match get h a with
           | Some (OArr _ _ _ l) => flat_map (vobjs n' h) l
           | Some (ORecs _ _ _ l) => flat_map (robjs n' h) l
           | _ => []
           end
  end
with robjs (n : nat) (h : heap) (a : ref) : list ref :=
  match n with
  | O => []
  | S n' =>
      a :: match get h a with
           | Some (ORec _ _ _ k v s _ _ _) => on_part (fun x => [x]) k ++ on_part (vobjs n' h) v ++ on_part (vobjs n' h) s
           | _ => []
           end
  end.
Fixpoint vblks (n : nat) (h : heap) (a : ref) : list nat :=
  match n with
  | O => []
  | S n' =>
      match get h a with
      | Some (OPrim _ _ d) => blk_of d
      | Some (OArr _ _ _ l) => flat_map (vblks n' h) l
      | Some (ORecs _ _ _ l) => flat_map (rblks n' h) l
      | _ => []
      end
  end
with rblks (n : nat) (h : heap) (a : ref) : list nat :=
  match n with
  | O => []
  | S n' =>
      match get h a with
      | Some (ORec _ _ _ k v s _ _ _) => on_part (kblks h) k ++ on_part (vblks n' h) v ++ on_part (vblks n' h) s
      | _ => []
      end
  end.

(** The object whose contents a call changes, and the block it writes to. *)
Definition target (o : op) : option ref :=
  match o with
  | AppendVal a _ | DeleteVal a _ | AppendRec a _ | DeleteRec a _ | AddSub a _ | SetKeyOf a _ | SetValOf a _
  | SetSchemeOf a _ | SetTimeOf a _ | SetSigOf a _ _ => Some a
  | _ => None
  end.
Definition is_encode (o : op) : bool := match o with EncodeVal _ _ | EncodeRec _ _ | EncodeKey _ => true | _ => false end.
Definition writes (o : op) : option nat := match o with Write k _ _ => Some k | _ => None end.
(** A call that changes none of the given objects and blocks. *)
Definition avoids (ro : list ref) (rb : list nat) (o : op) : Prop :=
  (forall a, target o = Some a -> ~ In a ro) /\ (forall k, writes o = Some k -> ~ In k rb).
(** A history that changes nothing that [a] depends on, and does not write into the buffers of [a]. *)
Definition buf_blk (h : heap) (a : ref) : list nat :=
  match get h a with Some o => blk_of (obj_slice o) | None => [] end.
Fixpoint calm (ro : list ref) (rb : list nat) (a : ref) (h : heap) (ops : list op) : Prop :=
  match ops with
  | [] => True
  | o :: ops' => avoids ro (buf_blk h a ++ rb) o /\ match step h o with Some h' => calm ro rb a h' ops' | None => True end
  end.

(** The blocks held by the keys of a value or record. *)
Fixpoint vkeyblks (n : nat) (h : heap) (a : ref) : list nat :=
  match n with
  | O => []
  | S n' =>
      match get h a with
      | Some (OArr _ _ _ l) => flat_map (vkeyblks n' h) l
      | Some (ORecs _ _ _ l) => flat_map (rkeyblks n' h) l
      | _ => []
      end
  end
with rkeyblks (n : nat) (h : heap) (a : ref) : list nat :=
  match n with
  | O => []
  | S n' =>
      match get h a with
      | Some (ORec _ _ _ k v s _ _ _) => on_part (kblks h) k ++ on_part (vkeyblks n' h) v ++ on_part (vkeyblks n' h) s
      | _ => []
      end
  end.
(** Parsed objects hold what the parser makes of their bytes. *)
Definition settled (o : obj) : Prop :=
  match o with
  | OStd m => exists k, new_std_value (mv_buf m) = Ok (m, k)
  | OSimple b c => exists k, new_simple_value b = Ok (VSimple b c, k)
  | OMapped r => exists k, new_mapped_record (mr_buf r) = Ok (r, k)
  | OMKey ks b => exists k, new_mapped_key (Some b) = Ok (KMapped ks b, k)
  | _ => True
  end.
Definition all_settled (h : heap) (l : list ref) : Prop := forall a o, In a l -> get h a = Some o -> settled o.

(** ** What a call does to the object it is called on, both without caches. *)
Definition becomes (o : op) (x x' : obj) : Prop :=
  match o with
  | AppendVal _ v => exists l, x = OArr false None 0 l /\ x' = OArr false None 0 (l ++ [v])
  | AppendRec _ r => exists l, x = ORecs false None 0 l /\ x' = ORecs false None 0 (l ++ [r])
  | DeleteVal _ i => exists l1 v l2, N.of_nat (length l1) = i /\ x = OArr false None 0 (l1 ++ v :: l2) /\ x' = OArr false None 0 (l1 ++ l2)
  | DeleteRec _ i => exists l1 r l2, N.of_nat (length l1) = i /\ x = ORecs false None 0 (l1 ++ r :: l2) /\ x' = ORecs false None 0 (l1 ++ l2)
  | AddSub _ s => exists ks, x = OKeyObj false ks None 0 /\ x' = OKeyObj false (ks ++ [s]) None 0
  | SetKeyOf _ y | SetValOf _ y | SetSchemeOf _ y =>
      exists k v s t r q, x = ORec false None (0, 0, 0)%Z k v s t r q /\
        x' = match o with
             | SetKeyOf _ _ => ORec false None (0, 0, 0)%Z (Some y) v s t r q
             | SetValOf _ _ => ORec false None (0, 0, 0)%Z k (Some y) s t r q
             | _ => ORec false None (0, 0, 0)%Z k v (Some y) t r q
             end
  | SetTimeOf _ t' => exists k v s t r q, x = ORec false None (0, 0, 0)%Z k v s t r q /\ x' = ORec false None (0, 0, 0)%Z k v s t' r q
  | SetSigOf _ r' q' => exists k v s t r q, x = ORec false None (0, 0, 0)%Z k v s t r q /\ x' = ORec false None (0, 0, 0)%Z k v s t r' q'
  | _ => False
  end.
(** The object a constructor makes. *)
Definition made (o : op) (x : obj) : Prop :=
  match o with
  | NewPrim d => x = OPrim false None d
  | NewArr => bare x = OArr false None 0 [] /\ obj_encoded x = false
  | NewRecs => bare x = ORecs false None 0 [] /\ obj_encoded x = false
  | NewRec => x = ORec false None (0, 0, 0)%Z None None None None None None
  | NewKeyObj => bare x = OKeyObj false [] None 0 /\ obj_encoded x = false
  | NewSimpleKeyObj d => bare x = OKeyObj false [d] None 0 /\ obj_encoded x = false
  | Parsed y => x = y
  | _ => False
  end.
Definition makes (o : op) : bool :=
  match o with NewPrim _ | NewArr | NewRecs | NewRec | NewKeyObj | NewSimpleKeyObj _ | Parsed _ => true | _ => false end.
(** Byte [i] of block [k]. *)
Definition byte_at (h : heap) (k i : nat) : option byte := match nth_error (mem h) k with Some b => nth_error b i | None => None end.
Definition block_size (h : heap) (k : nat) : option nat := option_map (@length byte) (nth_error (mem h) k).
(** What kind of object [a] is, and when a call on it returns. *)
Definition array_of (h : heap) (a : ref) (l : list ref) : Prop := exists e b est, get h a = Some (OArr e b est l).
Definition records_of (h : heap) (a : ref) (l : list ref) : Prop := exists e b est, get h a = Some (ORecs e b est l).
Definition record_at (h : heap) (a : ref) : Prop := exists e b est k v s t r q, get h a = Some (ORec e b est k v s t r q).
Definition sub_ok (h : heap) (s : option slc) : Prop := slice_ok h s = true /\ exists x l, rd h s = Some (x :: l).
Definition callable (h : heap) (o : op) : Prop :=
  match o with
  | AppendVal a x => (exists l, array_of h a l) /\ is_val h x = true
  | AppendRec a x => (exists l, records_of h a l) /\ is_rec h x = true
  | DeleteVal a i => exists l, array_of h a l /\ (i < N.of_nat (length l) mod 2 ^ 16)%N
  | DeleteRec a i => exists l, records_of h a l /\ (i < N.of_nat (length l) mod 2 ^ 16)%N
  | AddSub a s => (exists e ks b est, get h a = Some (OKeyObj e ks b est)) /\ sub_ok h s
  | SetKeyOf a k => record_at h a /\ is_key h k = true
  | SetValOf a v | SetSchemeOf a v => record_at h a /\ is_val h v = true
  | SetTimeOf a _ | SetSigOf a _ _ => record_at h a
  | _ => False
  end.
