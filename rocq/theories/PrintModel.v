(** * Model of Print and ToString (/repo/src/collection/object.go:14-25, avl.go:81-94 and 280-317, hash.go:257-289,
    /repo/src/util/key_util.go:125-131, 326-346 and 524-543, trie_util.go:250-262, 513-529, 757-769 and 955-978).

    The output is the sequence of bytes written; the writer does not fail (its errors are ignored anyway). The indent is an unbounded
    integer. How fmt shows a key or a value under %v is a parameter. *)
From Coq Require Import List NArith ZArith Bool String.
From Coq Require Import Strings.Byte.
From Verif Require Import Base KeyModel AVLModel HashModel.
Import ListNotations.
Local Open Scope Z_scope.

Definition str (s : string) : bytes := list_byte_of_string s.

(** strconv.Itoa and %d (Go standard library): decimal digits, most significant first; [fuel] bounds their number. *)
Fixpoint digits (fuel : nat) (n : N) : bytes :=
  match fuel with
  | O => []
  | S f => if (n <? 10)%N then [n2b (48 + n)] else digits f (n / 10)%N ++ [n2b (48 + n mod 10)]
  end.
Definition dec_N (n : N) : bytes := digits (S (N.to_nat (N.size n))) n.
Definition dec (z : Z) : bytes := if z <? 0 then x2d :: dec_N (Z.to_N (- z)) else dec_N (Z.to_N z).

(** An operand of a format: a string, an int, the nil interface, or anything else by the name of its type and its text. *)
Inductive farg : Type :=
| AStr (s : bytes)
| AInt (z : Z)
| ANil
| AAny (typ text : bytes).

(** The text of an operand. All formats below use verbs that suit their operands: %s for strings, %d for integers, %v, and %x and %.2f, whose texts
    are given as [AAny]. *)
Definition arg_text (a : farg) : bytes :=
  match a with AStr s => s | AInt z => dec z | ANil => str "<nil>" | AAny _ t => t end.

(** Operands that no verb asked for (fmt, doPrintf). *)
Definition extra_arg (a : farg) : bytes :=
  match a with
  | AStr s => str "string=" ++ s
  | AInt z => str "int=" ++ dec z
  | ANil => str "<nil>"
  | AAny typ t => typ ++ str "=" ++ t
  end.
Fixpoint commas (l : list bytes) : bytes :=
  match l with [] => [] | [x] => x | x :: l' => x ++ str ", " ++ commas l' end.
Definition extra (args : list farg) : bytes :=
  match args with [] => [] | _ => str "%!(EXTRA " ++ commas (map extra_arg args) ++ str ")" end.

(** Padding to a width; the operand is a string of ASCII letters or empty wherever a width is used. *)
Definition padded (minus zero : bool) (wid : option Z) (t : bytes) : bytes :=
  match wid with
  | None => t
  | Some w =>
      let fill := repeat (if zero then x30 else x20) (Z.to_nat (w - zlen t)) in
      if minus then t ++ fill else fill ++ t
  end.

(** Where the scan of a format is: in plain text, or inside a verb, with the flags - and 0, the width so far, and the part that comes
    next (flags, width, precision). *)
Inductive stage := SFlags | SWidth | SPrec.
Inductive scan := Plain | Verb (minus zero : bool) (wid : option Z) (st : stage).

Definition digit (c : byte) : option Z :=
  let n := Z.of_N (b2n c) in if (48 <=? n) && (n <=? 57) then Some (n - 48) else None.

(** fmt's doPrintf (Go standard library) without argument indexes and *: a width whose leading digits exceed one million ends the scan (parsenum and
    tooLarge), which gives NOVERB, and the operands left over are listed. *)
Fixpoint printf (f : bytes) (s : scan) (args : list farg) : bytes :=
  match f with
  | [] => (match s with Plain => [] | _ => str "%!(NOVERB)" end) ++ extra args
  | c :: f' =>
      match s with
      | Plain => if byte_eqb c x25 then printf f' (Verb false false None SFlags) args else c :: printf f' Plain args
      | Verb minus zero wid st =>
          let finish :=
            if byte_eqb c x25 then x25 :: printf f' Plain args
            else match args with
                 | [] => str "%!" ++ c :: str "(MISSING)" ++ printf f' Plain []
                 | a :: args' => padded minus zero wid (arg_text a) ++ printf f' Plain args'
                 end in
          match st, digit c with
          | SFlags, Some d =>
              if d =? 0 then printf f' (Verb minus (negb minus) wid SFlags) args
              else printf f' (Verb minus zero (Some d) SWidth) args
          | SWidth, Some d =>
              let n := match wid with Some n => n | None => 0 end in
              if 1000000 <? n then str "%!(NOVERB)" ++ extra args
              else printf f' (Verb minus zero (Some (n * 10 + d)) SWidth) args
          | SPrec, Some _ => printf f' s args
          | SFlags, None =>
              if byte_eqb c x2d then printf f' (Verb true false wid SFlags) args
              else if byte_eqb c x2e then printf f' (Verb minus zero wid SPrec) args
              else finish
          | SWidth, None => if byte_eqb c x2e then printf f' (Verb minus zero wid SPrec) args else finish
          | SPrec, None => finish
          end
      end
  end.
Definition sprintf (f : bytes) (args : list farg) : bytes := printf f Plain args.

(** [%v] of a byte slice: its elements in decimal. *)
Fixpoint spaced (l : list bytes) : bytes :=
  match l with [] => [] | [x] => x | x :: l' => x ++ str " " ++ spaced l' end.
Definition bytes_text (b : bytes) : bytes := str "[" ++ spaced (map (fun c => dec (Z.of_N (b2n c))) b) ++ str "]".
Definition abytes (b : bytes) : farg := AAny (str "[]uint8") (bytes_text b).
(** [%x] of a byte slice. *)
Definition hex_digit (n : N) : byte := n2b (if (n <? 10)%N then 48 + n else 87 + n)%N.
Definition hex_text (b : bytes) : bytes := flat_map (fun c => [hex_digit (b2n c / 16)%N; hex_digit (b2n c mod 16)%N]) b.

Definition nl : bytes := [x0a].

(** ** The collections *)
Section Tables.
  Context {K V : Type} (ktext : K -> farg) (vtext : V -> farg).

  (** [l1] and [l2] of AVLNode.Print and ToString, avl.go:281-287 and 304-310. *)
  Definition child_key (t : tree K V) : farg := match t with Leaf => ANil | Node k _ _ _ _ => ktext k end.

  (** AVLNode.ToString, avl.go:303-317. *)
  Definition tree_text (k : K) (v : V) (b : Z) (l r : tree K V) : bytes :=
    sprintf (str "k=%v, v=%v, b=%d, l=[%v, %v]") [ktext k; vtext v; AInt b; child_key l; child_key r].
  (** AVLNode.Print, avl.go:280-301. *)
  Fixpoint tree_print (t : tree K V) (indent : Z) : bytes :=
    match t with
    | Leaf => []
    | Node k v b l r =>
        sprintf (str "%" ++ dec indent ++ str "vk=%v, v=%v, b=%d, l=[%v, %v]" ++ nl)
                [AStr []; ktext k; vtext v; AInt b; child_key l; child_key r]
        ++ tree_print l (indent + 4) ++ tree_print r (indent + 4)
    end.
  (** AVLTree.ToString and Print, avl.go:81-94. *)
  Definition avl_text (t : avl K V) : bytes :=
    match avl_root t with
    | Leaf => sprintf (str "AVLTree: s=%d, %v") [AInt (avl_size t); ANil]
    | Node k v b l r => sprintf (str "AVLTree: s=%d, %v") [AInt (avl_size t); AStr (tree_text k v b l r)]
    end.
  Definition avl_print (t : avl K V) (indent : Z) : bytes :=
    sprintf (str "%" ++ dec indent ++ str "v%s" ++ nl) [AStr []; AStr (avl_text t)]
    ++ tree_print (avl_root t) (indent + 4).

  (** HashNode.ToString and Print, hash.go:275-288: a node with the rest of its chain. *)
  Definition chain_text (k : K) (v : V) (rest : list (K * V)) : bytes :=
    match rest with
    | [] => sprintf (str "k=%v, v=%v, l=[%v]") [ktext k; vtext v; ANil]
    | (k', _) :: _ => sprintf (str "k=%v, v=%v, l=[%v]") [ktext k; vtext v; ktext k']
    end.
  Fixpoint chain_print (c : list (K * V)) (indent : Z) : bytes :=
    match c with
    | [] => []
    | (k, v) :: c' =>
        sprintf (str "%" ++ dec indent ++ str "s%s" ++ nl) [AStr []; AStr (chain_text k v c')]
        ++ chain_print c' (indent + 4)
    end.
  (** Hash.ToString and Print, hash.go:257-273: seed, load factor and multiplier are not part of the state of HashModel; [lf] and [m] are the texts
      of the last two. *)
  Definition hash_text (h : hash K V) (seed : Z) (lf m : bytes) : bytes :=
    sprintf (str "Hash: size=%d, capacity=%d, seed=%d, lf=%.2f, m=%.2f, ")
            [AInt (h_size h); AInt (zlen (h_array h)); AAny (str "collection.MurmurSeed") (dec seed);
             AAny (str "float32") lf; AAny (str "float32") m].
  Definition hash_print (h : hash K V) (seed : Z) (lf m : bytes) (indent : Z) : bytes :=
    sprintf (str "%" ++ dec indent ++ str "s%s" ++ nl) [AStr []; AStr (hash_text h seed lf m)]
    ++ flat_map (fun c => chain_print c (indent + 4)) (h_array h).
End Tables.

(** ** Keys *)
(** The loops over the sub keys, key_util.go:329-331, 339-341, 526-528 and 537-539. *)
Fixpoint subkeys_print (i : Z) (ks : list gslice) : bytes :=
  match ks with
  | [] => []
  | k :: ks' => sprintf (str "    subKey[%d] = %v" ++ nl) [AInt i; abytes (gcontent k)] ++ subkeys_print (i + 1) ks'
  end.
Fixpoint subkeys_text (i : Z) (ks : list gslice) : bytes :=
  match ks with
  | [] => []
  | k :: ks' => sprintf (nl ++ str "    subKey[%d] = %v") [AInt i; abytes (gcontent k)] ++ subkeys_text (i + 1) ks'
  end.
(** [k.buf[:MinInt(len(k.buf), 32)]]. *)
Definition buf_head (n : nat) (b : bytes) : bytes := firstn n b.

(** EmptyKey 125-127, MappedKey 326-334, Key 524-531: Print. *)
Definition key_print (k : ikey) (indent : Z) : bytes :=
  match k with
  | KEmpty => sprintf (str "EmptyKey") []
  | KMapped ks buf =>
      sprintf (str "MappedKey:" ++ nl) [] ++ subkeys_print 0 ks ++ sprintf (str "    buf = %v" ++ nl) [abytes (buf_head 32 buf)]
  | KKey _ ks buf _ =>
      sprintf (str "Key:" ++ nl) [] ++ subkeys_print 0 ks
      ++ sprintf (str "    buf = %v" ++ nl) [abytes (buf_head 32 (gcontent buf))]
  end.
(** EmptyKey 129-131, MappedKey 336-345, Key 533-543: ToString. *)
Definition key_text (k : ikey) : bytes :=
  match k with
  | KEmpty => sprintf (str "EmptyKey") []
  | KMapped ks buf =>
      sprintf (str "MappedKey") [] ++ subkeys_text 0 ks ++ sprintf (nl ++ str "    buf = %v") [abytes (buf_head 32 buf)]
  | KKey _ ks buf _ =>
      sprintf (str "Key") [] ++ subkeys_text 0 ks ++ sprintf (nl ++ str "    buf = %v") [abytes (buf_head 32 (gcontent buf))]
  end.

(** ** Tries *)
(** A constructed or parsed node with its key, the text of its value, offset and buffer. The children are [None] in a node without a children map, which
    MappedTrie.Decode leaves behind (trie_util.go:194 and 204); a child is [None] if PutChild stored nil. *)
Inductive pnode : Type :=
| PNode (mapped : bool) (key : gslice) (data : farg) (off : Z) (buf : gslice) (kids : option (avl gslice (option pnode))).

(** ToString of a node, trie_util.go:521-529 and 963-978. *)
Definition node_text (n : pnode) : res bytes :=
  match n with
  | PNode mapped key data off buf kids =>
      match kids with
      | None => Panic                              (* Size on a nil map *)
      | Some m =>
          Ok (sprintf (str (if mapped then "MappedTrieNode: k=%x, child=[%d], data=%v, off=%d, buf=%v "
                            else "TrieNode: k=%x, child=[%d], data=%v, off=%d, buf=%v "))
                      [AAny (str "[]uint8") (hex_text (gcontent key)); AInt (avl_size m); data;
                       AAny (str "uint32") (dec off); abytes (buf_head 16 (gcontent buf))])
      end
  end.
(** Print of a node, trie_util.go:513-519 and 955-961. The children are visited in the order of an iteration (ascending, C11); a nil child fails the
    type assertion. What was written before a panic is dropped. *)
Fixpoint node_print (n : pnode) (indent : Z) : res bytes :=
  let? s := node_text n in
  match n with
  | PNode _ _ _ _ _ None => Panic
  | PNode _ _ _ _ _ (Some m) =>
      let? rest :=
        (fix walk (t : tree gslice (option pnode)) : res bytes :=
           match t with
           | Leaf => Ok []
           | Node _ c _ l r =>
               let? a := walk l in
               let? b := match c with None => Panic | Some c => node_print c (indent + 4) end in
               let? c := walk r in
               Ok (a ++ b ++ c)
           end) (avl_root m) in
      Ok (sprintf (str "%" ++ dec indent ++ str "s%s") [AStr []; AStr s] ++ rest)
  end.
(** ToString and Print of a trie, trie_util.go:250-262 and 757-769: [root] is [None] for a nil root. *)
Definition trie_text (mapped : bool) (root : option pnode) (buf : bytes) : res bytes :=
  match root with
  | None => Panic
  | Some n =>
      let? s := node_text n in
      Ok (sprintf (str (if mapped then "MappedTrie: r=%s, buf=%v" else "Trie: r=%s, buf=%v")) [AStr s; abytes (buf_head 32 buf)])
  end.
Definition trie_print (mapped : bool) (root : option pnode) (buf : bytes) (indent : Z) : res bytes :=
  let? s := trie_text mapped root buf in
  let line := sprintf (str "%" ++ dec indent ++ str "%s" ++ nl) [AStr []; AStr s] in
  match root with
  | None => Ok line
  | Some n => let? rest := node_print n (indent + 4) in Ok (line ++ rest)
  end.
(** The root of a parsed trie, trie_util.go:194: a MappedTrieNode literal without children; C63 says which buffers parse. *)
Definition parsed_root (buf : bytes) : pnode := PNode true None ANil 0 (Some buf) None.
