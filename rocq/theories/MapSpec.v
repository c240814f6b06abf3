(** * What a map is: histories of calls, the entries they leave, and the answers they must give.
    Written without reference to any tree or table. *)
From Coq Require Import List ZArith.
From Verif Require Import Base AVLModel.
Import ListNotations.

Section MapSpec.
  Context {K V : Type} (eqv : K -> K -> Prop).

  (** The call can change what is stored under [k]. *)
  Definition touches (k : K) (op : mop K V) : Prop :=
    match op with
    | MPut k' _ => eqv k k'
    | MRemove k' => eqv k k'
    | MGet _ => False
    end.

  (** After history [h] (oldest call first) the map holds the entry [(k, v)]: it was put, and no later
      call touched the key. *)
  Definition stored (h : list (mop K V)) (k : K) (v : V) : Prop :=
    exists h1 h2, h = h1 ++ MPut k v :: h2 /\ Forall (fun op => ~ touches k op) h2.

  Definition op_key (op : mop K V) : K :=
    match op with MPut k _ => k | MRemove k => k | MGet k => k end.

  (** [r] is the entry held under a key equal to [k] after history [h] ([None] if there is none). *)
  Definition entry_at (h : list (mop K V)) (k : K) (r : option (K * V)) : Prop :=
    match r with
    | Some (k', v') => eqv k k' /\ stored h k' v'
    | None => forall k' v', eqv k k' -> ~ stored h k' v'
    end.

  (** The results of the calls [ops] made after [h]: each call (Get, Put and Remove alike) reports the
      entry held just before it. *)
  Inductive answers : list (mop K V) -> list (mop K V) -> list (option (K * V)) -> Prop :=
  | answers_nil : forall h, answers h [] []
  | answers_cons : forall h op ops o os,
      entry_at h (op_key op) o -> answers (h ++ [op]) ops os -> answers h (op :: ops) (o :: os).

  (** [l] lists every entry held after [h] exactly once. *)
  Definition lists_entries (h : list (mop K V)) (l : list (K * V)) : Prop :=
    (forall k v, In (k, v) l <-> stored h k v) /\
    ForallOrdPairs (fun a b => ~ eqv (fst a) (fst b)) l.
End MapSpec.

(** The key type as seen through [Equal] and [Compare] on the keys in [D]: [eqv] is an equivalence,
    [lt] a strict total order up to [eqv], and the calls decide them without panicking. *)
Record total_keys {K : Type} (D : K -> Prop) (eqv lt : K -> K -> Prop)
    (equalb : K -> K -> res bool) (compare : K -> K -> res Z) : Prop := {
  tk_equal : forall a b, D a -> D b -> exists e, equalb a b = Ok e /\ (e = true <-> eqv a b);
  tk_compare : forall a b, D a -> D b -> exists c, compare a b = Ok c /\
      ((c < 0)%Z <-> lt a b) /\ ((0 < c)%Z <-> lt b a);
  tk_refl : forall a, D a -> eqv a a;
  tk_sym : forall a b, eqv a b -> eqv b a;
  tk_trans : forall a b c, eqv a b -> eqv b c -> eqv a c;
  tk_irrefl : forall a b, eqv a b -> ~ lt a b;
  tk_lt_trans : forall a b c, lt a b -> lt b c -> lt a c;
  tk_lt_l : forall a b c, eqv a b -> lt b c -> lt a c;
  tk_lt_r : forall a b c, lt a b -> eqv b c -> lt a c;
  tk_total : forall a b, D a -> D b -> lt a b \/ eqv a b \/ lt b a
}.

(** An iterator over a fixed list of entries. *)
Fixpoint list_iter {E : Type} (l : list E) (cs : list icall) : list (iobs E) :=
  match cs with
  | [] => []
  | CHasNext :: cs' => OHas (match l with [] => false | _ => true end) :: list_iter l cs'
  | CPeek :: cs' => OPeek (hd_error l) :: list_iter l cs'
  | CNext :: cs' => ONext (hd_error l) :: list_iter (tl l) cs'
  end.

(** The same, where Next and Peek on an exhausted iteration panic. *)
Fixpoint strict_list_iter {E : Type} (l : list E) (cs : list icall) : res (list (iobs E)) :=
  match cs with
  | [] => Ok []
  | CHasNext :: cs' => let? os := strict_list_iter l cs' in Ok (OHas (match l with [] => false | _ => true end) :: os)
  | CPeek :: cs' =>
      match l with
      | [] => Panic
      | x :: _ => let? os := strict_list_iter l cs' in Ok (OPeek (Some x) :: os)
      end
  | CNext :: cs' =>
      match l with
      | [] => Panic
      | x :: l' => let? os := strict_list_iter l' cs' in Ok (ONext (Some x) :: os)
      end
  end.
