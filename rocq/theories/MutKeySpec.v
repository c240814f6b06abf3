(** * What a map should answer when key objects are changed: it goes by the contents at the time of each call. *)
From Coq Require Import List.
From Verif Require Import Base AVLModel MapSpec MutKeyModel.
Import ListNotations.

Section MutKeySpec.
  Context {X V : Type} (eqv : X -> X -> Prop).

  Definition world (w : list X) (evs : list (event X V)) : list X := fold_left after evs w.

  (** Only objects that exist are used. *)
  Fixpoint proper (w : list X) (evs : list (event X V)) : Prop :=
    match evs with
    | [] => True
    | e :: evs' =>
        match e with Make _ => True | Change i _ => i < length w | Call op => op_key op < length w end /\ proper (after w e) evs'
    end.

  (** The contents ever given to an object. *)
  Definition contents (evs : list (event X V)) : list X :=
    flat_map (fun e => match e with Make x => [x] | Change _ x => [x] | Call _ => [] end) evs.

  (** The calls, with the object passed as key and its content then. *)
  Definition named (w : list X) (op : mop nat (option V)) : list (mop (nat * X) (option V)) :=
    match nth_error w (op_key op) with
    | None => []
    | Some x => [match op with MPut i v => MPut (i, x) v | MRemove i => MRemove (i, x) | MGet i => MGet (i, x) end]
    end.
  Fixpoint calls (w : list X) (evs : list (event X V)) : list (mop (nat * X) (option V)) :=
    match evs with
    | [] => []
    | Call op :: evs' => named w op ++ calls w evs'
    | e :: evs' => calls (after w e) evs'
    end.
  (** Keys are compared by content. *)
  Definition same (a b : nat * X) : Prop := eqv (snd a) (snd b).

  (** The object was passed to Put. *)
  Definition given (evs : list (event X V)) (i : nat) : Prop := exists v, In (Call (MPut i v)) evs.
  (** The object is a key of the map: it was passed to Put, and no later Put or Remove had an equal key. *)
  Definition held (evs : list (event X V)) (i : nat) : Prop := exists x v, stored same (calls [] evs) (i, x) v.

  (** No object is changed while it is a key of the map. *)
  Definition keys_left_alone (evs : list (event X V)) : Prop :=
    forall e1 i x e2, evs = e1 ++ Change i x :: e2 -> ~ held e1 i.

  (** An object that was passed to Put was changed, and [x] was its content before or after. *)
  Definition disturbed (evs : list (event X V)) (x : X) : Prop :=
    exists e1 i y e2, evs = e1 ++ Change i y :: e2 /\ given e1 i /\
      (eqv x y \/ exists z, nth_error (world [] e1) i = Some z /\ eqv x z).

  (** The value a call reports. *)
  Definition value_of (e : option ((nat * X) * option V)) : option V := match e with Some (_, v) => v | None => None end.
End MutKeySpec.
