(** * Specification vocabulary for values and records: abstract trees, their wire format, and what an object of the
    model stands for or shows through its API. *)
From Coq Require Import List NArith ZArith.
From Coq Require Import Strings.Byte.
From Verif Require Import Base EndianModel VarintSpec KeySpec KeyModel ValueModel.
Import ListNotations.

(** What a value or record says. A record's parts are optional; a signature needs a timestamp. *)
Inductive tree : Type :=
| TPrim (data : list byte)
| TArr (l : list tree)
| TRecs (l : list rtree)
with rtree : Type :=
| TRec (key : option (list (list byte))) (value scheme : option tree) (tail : option (Z * option (Z * Z))).

(** ** Wire format *)

(** A count below 65536: nothing for 0, else one byte, else two bytes big-endian; [code] tells which. *)
Inductive count_field : N -> N -> list byte -> Prop :=
| count_0 : count_field 0 0 []
| count_1 b : (0 < Byte.to_N b)%N -> count_field (Byte.to_N b) 1 [b]
| count_2 h l : (0 < Byte.to_N h)%N -> count_field (256 * Byte.to_N h + Byte.to_N l) 2 [h; l].

(** At most 4096 bytes of key. *)
Definition key_wire (k : option (list (list byte))) (l : list byte) : Prop :=
  match k with None => l = [] | Some ks => ks <> [] /\ key_bytes ks l /\ length l <= 4096 end.
Definition tail_wire (t : option (Z * option (Z * Z))) (l : list byte) : Prop :=
  match t with
  | None => l = []
  | Some (ns, None) => length l = 8 /\ Z.of_N (be_get l) = (ns mod 2 ^ 64)%Z
  | Some (ns, Some (r, s)) =>
      exists a b c, l = a ++ b ++ c /\ length a = 8 /\ Z.of_N (be_get a) = (ns mod 2 ^ 64)%Z /\
        length b = 32 /\ Z.of_N (be_get b) = r /\ length c = 32 /\ Z.of_N (be_get c) = s
  end.
(** A presence bit of weight [w]. *)
Definition bit {A} (o : option A) (w : N) : N := match o with Some _ => w | None => 0 end.
Definition has_sig (t : option (Z * option (Z * Z))) : option (Z * Z) := match t with Some (_, o) => o | None => None end.

(** Value: a magic byte, the number of elements (arrays and record lists), the content length, the content.
    Record: a magic byte with presence bits, key, value, scheme, timestamp, signature. *)
Inductive wire : tree -> list byte -> Prop :=
| wire_prim m d lc lf :
    count_field (N.of_nat (length d)) lc lf -> Byte.to_N m = lc -> wire (TPrim d) (m :: lf ++ d)
| wire_arr m ts c sc sf lc lf :
    ts <> [] -> wires ts c -> count_field (N.of_nat (length ts)) sc sf -> count_field (N.of_nat (length c)) lc lf ->
    Byte.to_N m = (64 * sc + lc)%N -> wire (TArr ts) (m :: sf ++ lf ++ c)
| wire_recs m ts c sc sf lc lf :
    ts <> [] -> rwires ts c -> count_field (N.of_nat (length ts)) sc sf -> count_field (N.of_nat (length c)) lc lf ->
    Byte.to_N m = (16 * sc + lc)%N -> wire (TRecs ts) (m :: sf ++ lf ++ c)
with wires : list tree -> list byte -> Prop :=
| wires_nil : wires [] []
| wires_cons t ts a b : wire t a -> wires ts b -> wires (t :: ts) (a ++ b)
with rwire : rtree -> list byte -> Prop :=
| rwire_rec m k v s t kb vb sb tb :
    key_wire k kb -> owire v vb -> owire s sb -> tail_wire t tb ->
    Byte.to_N m = (bit k 64 + bit v 32 + bit s 16 + bit t 4 + bit (has_sig t) 2)%N ->
    rwire (TRec k v s t) (m :: kb ++ vb ++ sb ++ tb)
with rwires : list rtree -> list byte -> Prop :=
| rwires_nil : rwires [] []
| rwires_cons t ts a b : rwire t a -> rwires ts b -> rwires (t :: ts) (a ++ b)
with owire : option tree -> list byte -> Prop :=
| owire_none : owire None []
| owire_some t l : wire t l -> owire (Some t) l.

(** ** What a constructed object stands for

    Values: non-nil primitives, non-empty arrays and record lists. Records: an empty key and a nil or empty value or
    scheme count as absent; sub keys fit in memory; times are int64 nanoseconds; signature numbers have at most 256
    bits; without a timestamp the signature does not count. *)
Inductive key_says : option ikey -> option (list (list byte)) -> Prop :=
| key_none : key_says None None
| key_empty k : ikey_is_empty k = true -> key_says (Some k) None
| key_some e ks buf est : ks <> [] -> Forall (fun s => (zlen (gcontent s) + 10 < 2 ^ 63)%Z) ks ->
    (zlen ks < 2 ^ 43)%Z -> key_says (Some (KKey e ks buf est)) (Some (map gcontent ks)).
Inductive tail_says : option Z -> option Z -> option Z -> option (Z * option (Z * Z)) -> Prop :=
| tail_none a b : tail_says None a b None
| tail_ts t a b : (- 2 ^ 63 <= t < 2 ^ 63)%Z -> a = None \/ b = None -> tail_says (Some t) a b (Some (t, None))
| tail_sig t r s : (- 2 ^ 63 <= t < 2 ^ 63)%Z -> (0 <= r < 2 ^ 256)%Z -> (0 <= s < 2 ^ 256)%Z ->
    tail_says (Some t) (Some r) (Some s) (Some (t, Some (r, s))).
Inductive empty_value : value -> Prop :=
| empty_nil : empty_value (VPrim None)
| empty_prim : empty_value (VPrim (Some []))
| empty_arr e : empty_value (VArr e [])
| empty_recs e : empty_value (VRecs e []).

Inductive says : value -> tree -> Prop :=
| says_prim d : says (VPrim (Some d)) (TPrim d)
| says_arr e l ts : l <> [] -> says_all l ts -> says (VArr e l) (TArr ts)
| says_recs e l ts : l <> [] -> rsays_all l ts -> says (VRecs e l) (TRecs ts)
with says_all : list value -> list tree -> Prop :=
| says_nil : says_all [] []
| says_cons v t l ts : says v t -> says_all l ts -> says_all (v :: l) (t :: ts)
with rsays : record -> rtree -> Prop :=
| rsays_rec e k v s ts a b tk tv tsch tt :
    key_says k tk -> osays v tv -> osays s tsch -> tail_says ts a b tt ->
    rsays (Rec e k v s ts a b) (TRec tk tv tsch tt)
with rsays_all : list record -> list rtree -> Prop :=
| rsays_nil : rsays_all [] []
| rsays_cons r t l ts : rsays r t -> rsays_all l ts -> rsays_all (r :: l) (t :: ts)
with osays : option value -> option tree -> Prop :=
| osays_none : osays None None
| osays_empty v : empty_value v -> osays (Some v) None
| osays_some v t : says v t -> ~ empty_value v -> osays (Some v) (Some t).

(** Values without record lists. *)
Inductive plain : value -> Prop :=
| plain_prim d : plain (VPrim d)
| plain_arr e l : (forall v, In v l -> plain v) -> plain (VArr e l).

(** ** What a parsed value shows: IsPrimitive, IsValueArray, Size, Value, and ValueAt at every index. *)
Inductive shows : mval -> tree -> Prop :=
| shows_prim m d :
    mv_is_primitive m = true -> mv_is_array m = false -> mv_is_records m = false -> mv_value m = Some d ->
    shows m (TPrim d)
| shows_arr m ts :
    mv_is_primitive m = false -> mv_is_array m = true -> mv_is_records m = false ->
    mv_size m = N.of_nat (length ts) ->
    (forall i t, nth_error ts i = Some t ->
       exists c, snd (value_at m (N.of_nat i)) = Ok (VCell c) /\ shows c t) ->
    shows m (TArr ts).

(** ** Sequences of accesses

    [reads c ms r]: parsing [c] repeatedly from fresh gives the values [ms] and leaves [r]. *)
Inductive reads : list byte -> list mval -> list byte -> Prop :=
| reads_nil c : reads c [] c
| reads_cons c m n ms r : new_std_value c = Ok (m, n) -> reads (skipn (Z.to_nat n) c) ms r -> reads c (m :: ms) r.
(** Every element of every array, at any depth, parses. *)
Inductive well_formed : mval -> Prop :=
| wf_prim b c : well_formed (MVal b c BPrim)
| wf_recs b c cells : well_formed (MVal b c (BRec cells))
| wf_arr b c cells ms r : reads c ms r -> length ms = length cells -> (forall x, In x ms -> well_formed x) ->
    well_formed (MVal b c (BArr cells)).
(** ValueAt calls on one object: what each returns. *)
Fixpoint run_value_at (m : mval) (idxs : list N) : list (res vcell) :=
  match idxs with
  | [] => []
  | i :: idxs' => let (m', r) := value_at m i in r :: run_value_at m' idxs'
  end.
(** What they return when [ms] are the elements that parse, [n] is the declared size, and [failed] says whether a
    call has failed on an element before. *)
Fixpoint expected (n : nat) (ms : list mval) (failed : bool) (idxs : list N) : list (res vcell) :=
  match idxs with
  | [] => []
  | i :: idxs' =>
      match nth_error ms (N.to_nat i) with
      | Some e => Ok (VCell e) :: expected n ms failed idxs'
      | None =>
          if Nat.leb n (N.to_nat i) then Err :: expected n ms failed idxs'
          else if failed
               then (if Nat.eqb (N.to_nat i) (length ms) then Ok VBroken else Panic) :: expected n ms true idxs'
               else Err :: expected n ms true idxs'
      end
  end.
(** What one sees of an object without touching its elements. *)
Definition face (m : mval) : (bool * bool * bool) * N * gslice * list byte :=
  (mv_is_primitive m, mv_is_array m, mv_is_records m, mv_size m, mv_value m, mv_buf m).
(** The element along a path of indices, read from freshly parsed elements only. *)
Fixpoint fresh_at (m : mval) (path : list N) : res mval :=
  match path with
  | [] => Ok m
  | i :: path' =>
      match snd (value_at m i) with
      | Ok (VCell c) => fresh_at c path'
      | Ok _ => Panic
      | Err => Err
      | Panic => Panic
      end
  end.
(** A client that follows a path through ValueAt calls on the live object, whose elements change as they are loaded:
    the new object and the face found. *)
Fixpoint set_nth {A} (l : list A) (i : nat) (x : A) : list A :=
  match l, i with
  | [], _ => []
  | _ :: l', O => x :: l'
  | y :: l', S i' => y :: set_nth l' i' x
  end.
Definition put_element (m : mval) (i : N) (c : mval) : mval :=
  match m with
  | MVal b ct (BArr cells) => MVal b ct (BArr (set_nth cells (N.to_nat i) (VCell c)))
  | _ => m
  end.
Fixpoint live_at (m : mval) (path : list N) : mval * res ((bool * bool * bool) * N * gslice * list byte) :=
  match path with
  | [] => (m, Ok (face m))
  | i :: path' =>
      let (m', r) := value_at m i in
      match r with
      | Ok (VCell c) => let (c', o) := live_at c path' in (put_element m' i c', o)
      | Ok _ => (m', Panic)
      | Err => (m', Err)
      | Panic => (m', Panic)
      end
  end.
Fixpoint live_run (m : mval) (paths : list (list N)) : list (res ((bool * bool * bool) * N * gslice * list byte)) :=
  match paths with
  | [] => []
  | p :: ps => let (m', o) := live_at m p in o :: live_run m' ps
  end.

(** ** Objects the API can build: parsed parts come from a parser, possibly changed by later accesses, which keep the
    buffer. *)
Definition made_key (k : ikey) : Prop :=
  match k with KMapped ks buf => exists n, decode_keys buf = Ok (ks, n) | _ => True end.
Inductive made : value -> Prop :=
| made_prim d : made (VPrim d)
| made_arr e l : (forall v, In v l -> made v) -> made (VArr e l)
| made_recs e l : (forall r, In r l -> rmade r) -> made (VRecs e l)
| made_std m c n e : new_std_value c = Ok (e, n) -> mv_buf m = mv_buf e -> made (VStd m)
| made_simple c v n : new_simple_value c = Ok (v, n) -> made v
with rmade : record -> Prop :=
| rmade_rec e k v s t a b : (forall k', k = Some k' -> made_key k') -> (forall v', v = Some v' -> made v') ->
    (forall s', s = Some s' -> made s') -> rmade (Rec e k v s t a b)
| rmade_mapped m c n e : new_mapped_record c = Ok (e, n) -> mr_buf m = mr_buf e -> rmade (RMapped m).

(** ** Value arrays as lists *)
Inductive va_op := AAppend (v : value) | ADelete (i : N) | AAt (i : N) | ASize | AEncode.
(** What a call reports: nothing, an element, a refusal, a size, bytes. *)
Inductive va_out := ODone | OElem (v : value) | ORefused | OPanic | OSize (n : N) | OBytes (r : res (list byte)).
Fixpoint va_run (a : value) (ops : list va_op) : list va_out * value :=
  match ops with
  | [] => ([], a)
  | o :: ops' =>
      let (out, a') :=
        match o with
        | AAppend v => (ODone, va_append a v)
        | ADelete i => match va_delete_at a i with Ok a' => (ODone, a') | _ => (OPanic, a) end
        | AAt i => (match va_value_at a i with Ok v => OElem v | Err => ORefused | Panic => OPanic end, a)
        | ASize => (OSize (va_size a), a)
        | AEncode => let (a', r) := va_encode a in (OBytes r, a')
        end in
      let (outs, a'') := va_run a' ops' in (out :: outs, a'')
  end.
(** The same history on a list whose length is seen through [view]; a refused deletion is a panic. *)
Fixpoint list_run (view : N -> N) (l : list value) (ops : list va_op) : list va_out * list value :=
  match ops with
  | [] => ([], l)
  | o :: ops' =>
      let size := view (N.of_nat (length l)) in
      let (out, l') :=
        match o with
        | AAppend v => (ODone, l ++ [v])
        | ADelete i => if N.ltb i size then (ODone, firstn (N.to_nat i) l ++ skipn (S (N.to_nat i)) l) else (OPanic, l)
        | AAt i => (if N.ltb i size then match nth_error l (N.to_nat i) with Some v => OElem v | None => OPanic end
                    else ORefused, l)
        | ASize => (OSize size, l)
        | AEncode => (OBytes (value_encode (VArr 0 l)), l)
        end in
      let (outs, l'') := list_run view l' ops' in (out :: outs, l'')
  end.
Fixpoint appends (ops : list va_op) : nat :=
  match ops with [] => 0 | AAppend _ :: ops' => S (appends ops') | _ :: ops' => appends ops' end.

(** ** Estimates: arrays made by appending, and the number of bytes by which an estimate may be too small. *)
Inductive appended : value -> Prop :=
| appended_prim d : appended (VPrim d)
| appended_arr l : (forall v, In v l -> appended v) ->
    appended (VArr (1 + fold_right (fun v s => (value_est v + s)%Z) 0%Z l) l).
Fixpoint slack (v : value) : Z :=
  match v with
  | VPrim _ => 1
  | VArr _ l => 4 + (fix go (l : list value) : Z := match l with [] => 0 | x :: l' => slack x + go l' end) l
  | _ => 0
  end%Z.
