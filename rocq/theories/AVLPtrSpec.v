(** * Several sorted maps and iterators: what their calls must show. Written without reference to trees or memory. *)
From Coq Require Import List ZArith Bool Arith.
From Verif Require Import Base AVLModel MapSpec AVLSpec AVLPtrModel.
Import ListNotations.

Section PtrSpec.
  Context {K V : Type} (eqv lt : K -> K -> Prop).
  Notation pop := (pop K V).

  (** The number of maps created. *)
  Definition is_new (op : pop) : bool := match op with PNew => true | _ => false end.
  Definition maps (ops : list pop) : nat := length (filter is_new ops).

  (** The call as a call on map [m] with a key; nothing if it is not one. *)
  Definition call_on (m : nat) (op : pop) : list (mop K V) :=
    match op with
    | PPut m' (Some k) v => if (m' =? m)%nat then [MPut k v] else []
    | PRemove m' (Some k) => if (m' =? m)%nat then [MRemove k] else []
    | PGet m' k => if (m' =? m)%nat then [MGet k] else []
    | _ => []
    end.
  (** The history of map [m], when [made] maps exist before the first call. *)
  Fixpoint hist_from (made m : nat) (ops : list pop) : list (mop K V) :=
    match ops with
    | [] => []
    | op :: ops' => (if (m <? made)%nat then call_on m op else []) ++ hist_from (if is_new op then S made else made) m ops'
    end.
  Definition hist (m : nat) (ops : list pop) : list (mop K V) := hist_from 0 m ops.

  (** The iterators created: the map and the number of calls made before. *)
  Fixpoint iters_from (j : nat) (ops : list pop) (os : list (res (pobs K V))) : list (nat * nat) :=
    match ops, os with
    | PIter m _ _ :: ops', Ok _ :: os' => (m, j) :: iters_from (S j) ops' os'
    | _ :: ops', _ :: os' => iters_from (S j) ops' os'
    | _, _ => []
    end.
  Definition iters (ops : list pop) (os : list (res (pobs K V))) : list (nat * nat) := iters_from 0 ops os.

  (** The map [m] holds the entry [(k, v)] after the calls [ops]. *)
  Definition held (ops : list pop) (m : nat) (k : K) (v : V) : Prop := stored eqv (hist m ops) k v.

  (** The answer [o] to the call [op] made after [ops], for the calls on maps. *)
  Definition map_answer (ops : list pop) (op : pop) (o : res (pobs K V)) : Prop :=
    match op with
    | PNew => o = Ok PODone
    | PPut m k _ | PRemove m k =>
        if (m <? maps ops)%nat
        then match k with
             | None => o = Panic
             | Some k => exists e, o = Ok (POEntry e) /\ entry_at eqv (hist m ops) k e
             end
        else o = Err
    | PGet m k =>
        if (m <? maps ops)%nat then exists e, o = Ok (POEntry e) /\ entry_at eqv (hist m ops) k e else o = Err
    | PSize m =>
        if (m <? maps ops)%nat
        then exists l, lists_entries eqv (hist m ops) l /\ o = Ok (POInt (Z.of_nat (length l)))
        else o = Err
    | _ => True
    end.

  (** [start] lies after [end_]. *)
  Definition reversed (start end_ : option K) : Prop :=
    match start, end_ with Some s, Some e => lt e s | _, _ => False end.

  (** The answer to the calls on iterators: no panic once the iterator exists, and an entry that is shown was in the map at
      some moment between the creation of the iterator and the call. *)
  Definition iter_answer (ops : list pop) (os : list (res (pobs K V))) (op : pop) (o : res (pobs K V)) : Prop :=
    match op with
    | PIter m start end_ =>
        if (m <? maps ops)%nat
        then (reversed start end_ -> o = Panic) /\ (~ reversed start end_ -> o = Ok PODone)
        else o = Err
    | PHasNext i =>
        match nth_error (iters ops os) i with
        | None => o = Err
        | Some _ => exists b, o = Ok (POBool b)
        end
    | PPeek i | PNext i =>
        match nth_error (iters ops os) i with
        | None => o = Err
        | Some (m, c) => exists e, o = Ok (POEntry e) /\
            match e with
            | None => True
            | Some (k, v) => exists j, (c <= j <= length ops)%nat /\ held (firstn j ops) m k v
            end
        end
    | _ => True
    end.

  (** Since the call number [c] no call has changed the set of keys of map [m]: Put was only called with a key that was
      there, Remove only with one that was not. *)
  Definition calm (c m : nat) (ops : list pop) : Prop :=
    forall j op, (c <= j)%nat -> nth_error ops j = Some op ->
      match op with
      | PPut m' (Some k) _ => m' = m -> exists k' v', eqv k k' /\ held (firstn j ops) m k' v'
      | PRemove m' (Some k) => m' = m -> forall k' v', eqv k k' -> ~ held (firstn j ops) m k' v'
      | _ => True
      end.
  (** How often Next was called on iterator [i] since call number [c]. *)
  Definition is_next (i : nat) (op : pop) : bool := match op with PNext i' => (i' =? i)%nat | _ => false end.
  Definition nexts (i c : nat) (ops : list pop) : nat := length (filter (is_next i) (skipn c ops)).

  (** The calls on maps. *)
  Definition map_call (op : pop) : Prop :=
    match op with PNew | PPut _ _ _ | PRemove _ _ | PGet _ _ | PSize _ => True | _ => False end.
  (** The calls that returned, and their answers. *)
  Definition returned (o : res (pobs K V)) : bool := match o with Ok _ => true | _ => false end.
  Definition kept (ops : list pop) (os : list (res (pobs K V))) : list pop :=
    map fst (filter (fun c => returned (snd c)) (combine ops os)).

  (** A call on a map with a key that can be compared with the keys there. *)
  Definition comparable (compare : K -> K -> res Z) (ops : list pop) (op : pop) : Prop :=
    match op with
    | PPut m (Some k) _ | PRemove m (Some k) | PGet m k =>
        (m < maps ops)%nat /\ forall k' v', held ops m k' v' -> exists c, compare k' k = Ok c
    | PSize m => (m < maps ops)%nat
    | PNew => True
    | _ => False
    end.

  (** The entries found in memory below [p], in order. *)
  Inductive reads (h : @heap K V) : ptr -> list (K * V) -> Prop :=
  | reads_nil : reads h None []
  | reads_cell a k v b l r xs ys : nth_error h a = Some (Cell k v b l r) -> reads h l xs -> reads h r ys ->
      reads h (Some a) (xs ++ (k, v) :: ys).

  (** The keys a call mentions. *)
  Definition keys_in (D : K -> Prop) (op : pop) : Prop :=
    let opt k := match k with None => True | Some k => D k end in
    match op with
    | PPut _ k _ | PRemove _ k => opt k
    | PGet _ k => D k
    | PIter _ s e => opt s /\ opt e
    | _ => True
    end.
End PtrSpec.

Section Damage.
  Context {K V : Type} (equalb : K -> K -> res bool).

  (** No two entries have keys that Equal calls equal. *)
  Definition unique (l : list (K * V)) : Prop :=
    ForallOrdPairs (fun a b => equalb (fst a) (fst b) <> Ok true /\ equalb (fst b) (fst a) <> Ok true) l.

  (** Two entries side by side, the second replaced by a copy of the first. *)
  Definition copied_over (key : K) (before after : list (K * V)) : Prop :=
    exists l1 x y l2, before = l1 ++ x :: y :: l2 /\ after = l1 ++ x :: x :: l2 /\ equalb (fst y) key = Ok true.

  (** What a call that did not return has changed: nothing but for Remove, and then nothing in the other maps and at most one
      entry of this one. *)
  Definition survives (s s' : @sys K V) (op : pop K V) : Prop :=
    match op with
    | PRemove m (Some k) =>
        s_trees s' = s_trees s /\ s_iters s' = s_iters s /\
        forall m' p z, nth_error (s_trees s) m' = Some (p, z) ->
          exists before after, reads (s_heap s) p before /\ reads (s_heap s') p after /\ length after = length before /\
            (m' <> m -> after = before) /\ incl after before /\
            (unique before -> after = before \/ copied_over k before after)
    | PHasNext _ | PPeek _ | PNext _ => s_heap s' = s_heap s /\ s_trees s' = s_trees s
    | _ => s' = s
    end.
End Damage.

(** Keys whose Compare may panic, but only when the receiver is the larger one; else as [total_keys]. *)
Record one_sided_keys {K : Type} (D : K -> Prop) (eqv lt : K -> K -> Prop)
    (equalb : K -> K -> res bool) (compare : K -> K -> res Z) : Prop := {
  ok_equal : forall a b, D a -> D b -> exists e, equalb a b = Ok e /\ (e = true <-> eqv a b);
  ok_compare : forall a b, D a -> D b ->
      (exists c, compare a b = Ok c /\ ((c < 0)%Z <-> lt a b) /\ ((0 < c)%Z <-> lt b a)) \/ (compare a b = Panic /\ lt b a);
  ok_refl : forall a, D a -> eqv a a;
  ok_sym : forall a b, eqv a b -> eqv b a;
  ok_trans : forall a b c, eqv a b -> eqv b c -> eqv a c;
  ok_irrefl : forall a b, eqv a b -> ~ lt a b;
  ok_lt_trans : forall a b c, lt a b -> lt b c -> lt a c;
  ok_lt_l : forall a b c, eqv a b -> lt b c -> lt a c;
  ok_lt_r : forall a b c, lt a b -> eqv b c -> lt a c;
  ok_total : forall a b, D a -> D b -> lt a b \/ eqv a b \/ lt b a
}.
