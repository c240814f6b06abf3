(** * What trie nodes are to do: nodes with lists of children, and paths. *)
From Coq Require Import List NArith ZArith.
From Coq Require Import Strings.Byte.
From Verif Require Import Base CmpSpec KeyModel ValueModel AVLModel AVLSpec VarintSpec TrieObjModel.
Import ListNotations.

(** A node as its user sees it: the children are a list of (sub key, node) in ascending order of the sub keys. *)
Record anode := mk_anode {
  a_parent : option nat;
  a_key : gslice;
  a_data : option value;
  a_kids : list (gslice * option nat);
  a_buf : option bytes;
  a_off : N }.
Definition view (x : node) : anode :=
  mk_anode (nd_parent x) (nd_key x) (nd_data x) (inorder (avl_root (nd_kids x))) (nd_buf x) (nd_off x).
Definition views (h : nodes) : list anode := map view h.

Definition in_order (l : list (gslice * option nat)) : Prop := ascending (slice_lt byte_lt) l.
(** [l'] is [l] with [c] stored under [k]; [l'] is [l] without [k]. *)
Definition kids_put (k : gslice) (c : option nat) (l l' : list (gslice * option nat)) : Prop :=
  in_order l' /\ forall e, In e l' <-> e = (k, c) \/ (In e l /\ fst e <> k).
Definition kids_without (k : gslice) (l l' : list (gslice * option nat)) : Prop :=
  in_order l' /\ forall e, In e l' <-> In e l /\ fst e <> k.

(** Node [a] is [x]; only node [a] changes, to [x']. *)
Definition is_node (ns : list anode) (a : nat) (x : anode) : Prop := nth_error ns a = Some x.
Definition becomes (ns : list anode) (a : nat) (x' : anode) (ns' : list anode) : Prop :=
  ns' = firstn a ns ++ x' :: skipn (S a) ns.

(** The bytes of an encoded node: sub key with its length, offset of the parent, value, number of children. *)
Definition node_layout (k : bytes) (off : N) (v : value) (n : nat) (b : bytes) : Prop :=
  exists lk lo d ln, b = lk ++ k ++ lo ++ d ++ ln /\
    uvarint_numeral lk (N.of_nat (length k)) /\ uvarint_numeral lo off /\ value_encode v = Ok d /\ uvarint_numeral ln (N.of_nat n).

(** What each call on a node does to the nodes [ns], and its result. *)
Definition does (ns : list anode) (c : tcall) (ns' : list anode) (r : res tout) : Prop :=
  match c with
  | NNew p k d =>
      ns' = ns ++ [mk_anode p (match p with None => None | Some _ => k end) d [] None 0] /\ r = Ok (RNode (Some (length ns)))
  | NParent a => exists x, is_node ns a x /\ ns' = ns /\ r = Ok (RNode (a_parent x))
  | NKey a => exists x, is_node ns a x /\ ns' = ns /\ r = Ok (RKey (a_key x))
  | NFullKey a => ns' = ns /\ r = Panic
  | NSize a => exists x, is_node ns a x /\ ns' = ns /\ r = Ok (RSize (Z.of_nat (length (a_kids x))))
  | NGet a k => exists x, is_node ns a x /\ ns' = ns /\
      ((exists c, In (k, Some c) (a_kids x) /\ r = Ok (RNode (Some c))) \/
       ((forall c, ~ In (k, Some c) (a_kids x)) /\ r = Panic))
  | NPut a k c => exists x l, is_node ns a x /\ kids_put k c (a_kids x) l /\
      becomes ns a (mk_anode (a_parent x) (a_key x) (a_data x) l (a_buf x) (a_off x)) ns' /\ r = Ok RNone
  | NRemove a k => exists x l, is_node ns a x /\ kids_without k (a_kids x) l /\
      becomes ns a (mk_anode (a_parent x) (a_key x) (a_data x) l (a_buf x) (a_off x)) ns' /\ r = Ok RNone
  | NValue a => exists x, is_node ns a x /\ ns' = ns /\ r = Ok (RValue (a_data x))
  | NSetValue a d => exists x, is_node ns a x /\
      becomes ns a (mk_anode (a_parent x) (a_key x) d (a_kids x) (a_buf x) (a_off x)) ns' /\ r = Ok RNone
  | NOffset a => exists x, is_node ns a x /\ ns' = ns /\ r = Ok (ROff (a_off x))
  | NSetOffset a o => exists x, is_node ns a x /\
      becomes ns a (mk_anode (a_parent x) (a_key x) (a_data x) (a_kids x) (a_buf x) (o mod 2 ^ 32)%N) ns' /\ r = Ok RNone
  | NEncode a => exists x, is_node ns a x /\
      match a_parent x, a_data x with
      | Some p, Some v => exists y, is_node ns p y /\
          match value_encode v with
          | Ok _ => exists b, node_layout (match a_key x with Some k => k | None => [] end) (a_off y) v (length (a_kids x)) b /\
              becomes ns a (mk_anode (a_parent x) (a_key x) (a_data x) (a_kids x) (Some b) (a_off x)) ns' /\ r = Ok RNone
          | Err => ns' = ns /\ r = Err
          | Panic => ns' = ns /\ r = Panic
          end
      | _, _ => ns' = ns /\ r = Panic
      end
  | NIsEncoded a => exists x, is_node ns a x /\ ns' = ns /\ r = Ok (RBool (match a_buf x with Some _ => true | None => false end))
  | NBuf a => exists x, is_node ns a x /\ ns' = ns /\ r = match a_buf x with Some b => Ok (RBytes b) | None => Panic end
  | NCopy a => exists x, is_node ns a x /\
      ns' = ns ++ [mk_anode (a_parent x) (a_key x) (a_data x) (a_kids x) None 0] /\ r = Ok (RNode (Some (length ns)))
  | TrGet _ _ | TrSet _ _ _ => True
  end.

(** ** Tries *)

(** Every child is stored under its own key in its own parent. *)
Definition linked (ns : list anode) : Prop :=
  forall a x k o, is_node ns a x -> In (k, o) (a_kids x) ->
    exists c y, o = Some c /\ is_node ns c y /\ a_parent y = Some a /\ a_key y = k.
(** [a] is reached from [r] along the sub keys [ks]. *)
Inductive at_path (ns : list anode) : nat -> list gslice -> nat -> Prop :=
| at_here : forall r, at_path ns r [] r
| at_below : forall r x k c ks a,
    is_node ns r x -> In (k, Some c) (a_kids x) -> at_path ns c ks a -> at_path ns r (k :: ks) a.
(** The trie with root [r] holds [v] under the sub keys [ks]. *)
Definition holds_at (ns : list anode) (r : nat) (ks : list gslice) (v : value) : Prop :=
  exists a x, at_path ns r ks a /\ is_node ns a x /\ a_data x = Some v.
Definition starts_with (ks q : list gslice) : Prop := exists rest, q = ks ++ rest.
(** A root without children and without data. *)
Definition bare (ns : list anode) (r : nat) : Prop := exists x, is_node ns r x /\ a_kids x = [] /\ a_data x = None.
Definition is_root (ns : list anode) (r : nat) : Prop := exists x, is_node ns r x /\ a_parent x = None.

(** ** Calls on existing nodes with sub keys from [P] *)
Definition key_from (P : bytes -> Prop) (k : gslice) : Prop := exists l, k = Some l /\ P l.
(** Slices and maps in memory are shorter than this. *)
Definition in_memory (x : anode) : Prop :=
  (N.of_nat (match a_key x with Some k => length k | None => 0 end) < 2 ^ 62 /\ N.of_nat (length (a_kids x)) < 2 ^ 62)%N.
Definition exists_at (ns : list anode) (a : nat) : Prop := a < length ns.
Definition legal (P : bytes -> Prop) (ns : list anode) (c : tcall) : Prop :=
  match c with
  | NNew p _ _ => match p with Some p => exists_at ns p | None => True end
  | NGet a k | NRemove a k => exists_at ns a /\ key_from P k
  | NPut a k c => exists_at ns a /\ key_from P k /\ match c with Some c => exists_at ns c | None => True end
  | NParent a | NKey a | NFullKey a | NSize a | NValue a | NOffset a | NIsEncoded a | NBuf a | NCopy a => exists_at ns a
  | NSetValue a _ | NSetOffset a _ => exists_at ns a
  | NEncode a => exists x, is_node ns a x /\ in_memory x
  | TrGet r k => exists_at ns r /\ Forall (key_from P) (ikey_keys k)
  | TrSet r k d => exists_at ns r /\ Forall (key_from P) (ikey_keys k) /\ (d = None -> linked ns /\ is_root ns r)
  end.
Inductive reachable (P : bytes -> Prop) : nodes -> Prop :=
| reach_none : reachable P []
| reach_call : forall h c, reachable P h -> legal P (views h) c -> reachable P (fst (tstep h c)).
