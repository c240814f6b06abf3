# Formal model of project-poodle/poodle

The Go sources under `/repo/src` are modelled by total Gallina functions in Rocq (Coq 8.16.1).
`properties.jsonl` lists the properties (C01, C02, ...). `MANIFEST.json` maps each property to theorems.
`seeded/LOG.jsonl` records the attempts to break the theorems by editing the model. Most edits were made
by a script that stops at the first theorem whose proof fails: `theorems_failed` lists the theorems that rest on the proof
that failed, and a proof that fails is not by itself a refutation of its statement.

## Conventions of the model

* **Results.** `Base.res A` is `Ok a | Err | Panic`. `Err` is a returned Go `error` (the message is dropped),
  `Panic` is a run-time panic (explicit `panic`, index or slice out of range, nil dereference, failed type
  assertion, division by zero). Every partial Go operation is modelled by a function that returns `Panic`
  where Go panics, so "never panics" is a statement about the model.
* **Bytes.** `byte` is `Coq.Init.Byte.byte` (256 constructors), so a byte string is any `list byte` and no
  well-formedness hypothesis is needed. A Go `[]byte` whose nil-ness matters is `option (list byte)`
  (`None` = nil).
* **Integers.** Fixed-width integers are `N` or `Z`; wrap-around is written out (`mod 2^32`, `mod 2^64`,
  two's complement conversion) wherever the code can reach it. `int` is 64 bits.
* **Pointers.** Trees, chains and buffers are modelled as values. Aliasing between a Go object and a buffer the
  caller later overwrites is not modelled, unless a definition says otherwise.
* **Loops.** Structural recursion where possible. Loops that need not terminate take fuel and return an explicit
  out-of-fuel result; theorems are then about all fuel values.
* **Outside world.** Random numbers, clock, AES-GCM, hash seeds and the file system are explicit arguments.
  Hypotheses about them (for example "open undoes seal") appear as premises of the theorems that need them.
* **Properties that the code violates.** The English statement stays in `properties.jsonl`. A theorem whose name
  ends in `_refuted` exhibits a witness (or shows that it fails for all inputs). Where possible an exact
  characterisation of the behaviour is proved, and the part of the property that does hold is proved in a theorem whose name ends
  in `_partial`. Such properties have status `partial` in the manifest.

## File layout (`rocq/theories`)

For each area `X`: `XModel.v` (definitions with citations of `/repo/src`, no proofs), `XSpec.v` where the specification
needs its own vocabulary (written without the model's helpers), `XProofs.v` (lemmas), `XProps.v` (only the final
theorems, each followed by `Print Assumptions`, and the examples that show that hypotheses can be met).

## Trusted base

* Coq 8.16.1's kernel (including `vm_compute`), and `coqchk`.
* No axioms of our own. `Print Assumptions` of each theorem is printed in the build; see the section
  "Assumptions" at the end of this file.
* The correspondence between the Go text and the model. It was written by hand by reading `/repo`; nothing was run.
  Every definition cites the lines it models and says what it leaves out.
* The model of the Go standard library: `encoding/binary`, `encoding/hex`, `hash/crc32`, `math/big`, `time`, the file calls of `os` with path lookup as on Linux, and the language semantics
  (slicing, integer conversion, type assertions on nil interfaces).

## What is not modelled

* `main/*` (command line) except `main/pkeygen`, `pdb/{db,journal,memtable,tablet}.go`
  (interfaces without code), and how fmt shows a key or
  value under `%v` (a parameter of C107 and C108).
* Changes to the list of sub-keys returned by `Key()`. Writes to memory that parsed objects point into are modelled in
  `ViewModel.v`, writes to all other memory in `ObjModel.v`, but there is no history that mixes the two.
* Memory exhaustion and stack overflow (a call that recurses for ever is one that does not return); data races (no code in the repository starts goroutines).
* `pdb/sstable.go` refers to functions that no longer exist in `util`; it is modelled under the renaming stated in
  `SSTableModel.v`.
* How the Go standard library computes: AES-GCM (`AesModel.v`) and ECDSA over P-256 (`CurveModel.v`, affine
  coordinates) are modelled from the standards and not from the Go sources. The random reader of ECDSA is the list of
  the numbers it yields, and the point at infinity is no pair of coordinates (the library writes it as two zeroes).
  SHA-256 and MD5 (`DigestModel.v`) are modelled after the way crypto/sha256 and crypto/md5 work and are proved to compute
  what the standards define (C119); the table of MD5, which the RFC defines by the sine, is taken as it is.
* Float32 in the hash table: a float is a rational, and each operation is the exact result rounded to nearest even.
  `math.Pow` is taken to be Go's portable version (repeated squaring in float64); an assembly version may round
  differently. The integer obtained from NaN is a parameter.

## Plan per property

| Id | What is modelled | How it is proved |
|----|------------------|------------------|
| C01 | `CompareByteSlice`, `CompareXSlice` loop with the literal bound test `len(s1) < i` and an out-of-range index as `Panic` | exact characterisation by induction: result is the lexicographic order, panic iff the second slice is a proper prefix of the first; refutation by witness |
| C02 | same | from C01's characterisation |
| C03 | `ComparableXSlice.Equal/Compare` including the nil test on the wrong operand | exact characterisation; refutation for two nil slices |
| C04 | `EqualXSlice` | induction |
| C05 | big-endian put/get of fixed width | arithmetic on base 256 |
| C06 | `TimeToBytes`/`BytesToTime` on `int64` nanoseconds | as C05 with two's complement |
| C07 | `BigIntToByteArray`/`ByteArrayToBigInt`, `big.Int.Bytes` | base 256 arithmetic |
| C08 | `AVLTree` with stored balance factors, `putR`, `removeR`, rotations, as in the code | refinement to a finite map given by a function; induction over histories |
| C09 | same | height/balance invariant; Fibonacci-type bound on size |
| C10 | same | size equals number of keys of the abstract map |
| C11 | `AVLIterator` with explicit path stack | simulation: remaining sequence of an iterator state |
| C12 | same | invariance of the remaining sequence under `HasNext`/`Peek` |
| C13 | `RangeIterator` with the comparison signs as written | exact characterisation, refutation, partial for end-only ranges |
| C14 | `SortedMapIterator`, `HashMapIterator` type assertion on a nil interface | refuted; exact |
| C15 | AVL with a comparison that may panic | refuted by history |
| C16 | same, prefix-free key set | refinement restricted to a key set on which comparison is total |
| C17 | `Hash` with chains, arbitrary hash function and arbitrary resize decisions | refinement to a finite map |
| C18 | default growth/shrink thresholds as exact rationals | arithmetic invariant |
| C19 | `HashIterator` | refuted for every table; exact |
| C20 | `MurmurSeed.Hash` index by index | equality with a separately written reference |
| C21 | `HashableX`, key hashing, capacity of the re-sliced view | induction; refutation for integer slices and `HashableSlice` |
| C22-C25 | Go's `PutUvarint`/`Uvarint` with shift/overflow handling; the decode checks with 64-bit wrap | induction on groups of seven bits; exact domain of success |
| C26, C27 | base58 via big integers | uniqueness of positional representation |
| C28-C35 | `EmptyKey`, `MappedKey`, `Key` | list induction over the codec lemmas |
| C36-C43 | `Primitive`, `ValueArray`, `StandardMappedValue` | induction over nested values; state machine for the lazy cache; shapes (ShapeSpec.v) say exactly which values and records share their bytes |
| C44-C47 | `Record.Encode`, `MappedRecord.Decode` | refutation for all records; injectivity by a reference decoder |
| C48 | `Scheme`, `MappedScheme` | codec lemmas; refutation |
| C49-C52 | consensus time and id | case analysis, arithmetic |
| C53-C58 | `MPHBuild` (fuel, any bucket order), `Lookup`, `Encode`, `NewMPHTable` | loop invariants; divergence for all fuel |
| C59, C60 | `rand_util.go` with wrap-around | arithmetic; refutation for signed variants |
| C61-C63 | trie and mapped trie | reachable-state invariant |
| C64, C65, C74 | `AESPad`, pkeygen padding, the padding (none) on the loading side | list lemmas |
| C66-C70 | key store over an abstract file system with crash points (`KeyStore*`); hex; CRC-32 (`Crc*`, with a specification by polynomial division in `CrcSpec`); AES-GCM (`AesModel`) | codec lemmas, injectivity of CRC steps, CRC register as remainder, GCM opens what it seals |
| C71, C75 | `ECDSACalculateY`, `math/big` `ModSqrt` for a prime that is 3 mod 4, `IsOnCurve` (`Ecdsa*`) | `NumberTheory.v`: Fermat's theorem, Pocklington's criterion with a certificate for the P-256 modulus, square roots |
| C72 | `LoadSSTableV1` (`SSTable*`) | case analysis; exact condition of panics; refutation |
| C73 | `Copy`/`CopyConstruct` of keys | case analysis |
| C76 | `NewMPHTable` on arbitrary bytes (`MPHParse`) | exact condition of panics by following the parser |
| C77-C80 | values, records and keys as heap objects with shared sub-objects, shared byte memory and cached buffers; histories of calls (`Obj*`) | refinement of the heap to plain values; history and frame lemmas; endless recursion as out-of-fuel for all fuel |
| C81-C82 | comparable wrappers nested to any depth, with nil interfaces, nil pointers and nil slices (`Comp*`) | nested induction; index loops read as walks |
| C83-C84 | resize decisions of `Hash` in float32, with NaN and infinite settings (`F32*`) | rounding to nearest as a function on rationals; error bounds; invariant over histories; which calls panic, for all capacities and histories (`F32RunProps`) |
| C85-C88 | `AVLTree` and `AVLIterator` as linked nodes in a heap, several maps and iterators, panics that leave the heap as it is at that moment (`AVLPtr*`) | refinement of the tree model by disjoint footprints; a set of cells per iterator closed under links; comparison with its panics filled in |
| C89 | single calls on objects in shared memory (`ObjCallProps`) | exact effect per call; elements of arrays exist in every reachable heap |
| C90-C91 | `MappedScheme` and `Scheme` as objects in shared memory: slices into blocks, slices of buckets handed out, effects of a failing Decode (`SchemeObj*`) | all slices held exist and no two schemes share a slice of buckets in every reachable state; frame lemma per call |
| C92-C95 | `TrieNode` and `MappedTrieNode` as objects in shared memory, linked in any shape; `Trie.Get`/`Set` on them with the clean-up loop; the table of known nodes; copies (`TrieObj*`) | children are search trees in every reachable state, also under sub keys that are prefixes of each other (`TrieObjKids`, `TrieObjAny`); removal of a child that was found returns; paths from the root are unique in a linked trie; every buffer has a reading |
| C96-C97 | parsed values, records and keys as windows on memory the caller writes to, with elements parsed when first asked for; their copies (`View*`) | each object keeps places fixed at the parse; invariant over histories; exact answers as a reading of the bytes there now |
| C98-C99 | `TrieKeyIterator` and `TrieRangeIterator` over a client's nodes, with loops that may not end (`TrieIter*`) | the stack of an iterator as the list of nodes still to come; exact answers as a filter and a cut of the list of all nodes |
| C100-C101 | `main/pkeygen` with aliases on a file system with symbolic links; path lookup as on Linux (`Keygen*`) | lookup through real directories step by step; "ends at a missing name" as an inductive relation equivalent to the lookup; explicit contents after each call |
| C102 | the questions of `IValue` (kind, IsNil, Size, Value, ValueMagic) to every implementation (`Kind*`) | a face (the answers) compared before and after the bytes are parsed |
| C103-C104 | `Decode` called again on parsed values, keys and records whose buffer was written to (`Refill*`); elements of arrays and record lists are counted, not loaded (C96 loads them); the parts of a record are as of its parse | a new parse of the bytes in the window; the heading of the first byte as a small type |
| C105 | the sorted map with `EmptyKey`, `MappedKey` and `Key` objects as keys (`KeyMapProps`) | the comparison of keys as an instance of the one-sided comparisons of C86: panics left out, the rest is a total order |
| C106 | maps whose key objects are changed by their owner (`MutKeyModel`: objects are indices into the list of present contents; the tables and trees are those of C17 and C11) | all keys left alone: the invariants carried over changes of other objects; any changes: an invariant for one class of equal keys only (`MutKeyClass`), and balance without order (`MutKeySorted`) |
| C107, C108 | `Print` and `ToString` of trees, hash tables, keys, tries and trie nodes, with fmt's scan of a format (flags, width and its limit, missing and extra operands) as a function on bytes (`PrintModel`) | the digits of the indent are scanned back by induction on n/10; rows against a preorder with depths; nodes by an induction principle through the children map |
| C109 | `EstBufSize` over histories of calls on objects (`ObjModel`, spec `EstSpec`) | a ledger kept beside the heap; invariants over every call, with a relation between the heaps before and after Encode; for tidy histories the counters are the sums of the present sizes |
| C110 | `CopyConstruct` of parsed values, records and keys, on the memory of `ViewModel` (`EditModel`, spec `EditSpec`) | the invariant of C96 carried through the copy; fuel bounded by the length of the buffer because every element is shorter than its array; new blocks counted in order |
| C111 | the flags behind `IsEncoded`, `Encode`, `IsDecoded`, `Decode`, `Copy`, `CopyConstruct`, `Buf` of all sixteen `IEncodable` types; what contents allow is an input of each call (`ProtoModel`, spec `ProtoSpec`) | a relation between the flags and what the program was told, kept by every event; a finite table of defects shown exact |
| C112 | `PromptText` with `bufio.Reader.ReadString` and `strings.TrimSpace`; the input is the list of what the reads return (`PromptModel`, spec `PromptSpec`) | the codes of Unicode's white space are prefix and suffix free, so the trimmed text is unique; induction on the reads |
| C113 | `LCSetLoggerStdout`, `LCSetLoggerFileTmp` and the destination and flags of package `log`; formats of lines left open (`LoggerModel`, spec `LoggerSpec`) | the state as a function of the history, kept by every call |
| C114 | `LCSaveKeyPairPrompt`, `LCExistPubKey`, `LCExistPrivKey` on the file system of `KeyStoreModel` (`KeyPromptModel`, spec `KeyStoreSpec`) | from the outcomes of a save (C66) by cases |
| C115 | AES and GCM (`AesModel`) against the equations of FIPS 197 and SP 800-38D (`AesSpec`), and the texts of the key files | states as functions of row and column, invariant of the key expansion, sums of products by powers of x; S-box by computation on 256 bytes |
| C116 | `ECDSASign`, `ECDSAVerify`, `ECDSAGetPrivateKey` with the chord and tangent addition of P-256 (`CurveModel`), and keys that were saved and loaded | group law from one definition of the slope for chords and tangents (associativity by explicit combinations), primality of N by a Pocklington certificate, N G = 0 by computation with given slopes; exact set of accepted signatures; refutation for pairs whose Y is not a square |
| C117 | the same | two points with one X are opposite, so the exact set of hashes for which a signature is accepted; twins and truncated hashes refute |
| C118 | `CopyConstruct` of constructed values and records and of parsed record lists (`ValueModel`) | induction over what was built; for parsed lists the records read one after the other, and more fuel changes no copy |
| C119 | `SumSHA256`, `SumSHA256d`, `SumMD5` with the digests of crypto/sha256 and crypto/md5 (`DigestModel`) against FIPS 180-4 and RFC 1321 (`DigestSpec`) | words bit by bit, invariant of a digest that has taken some bytes, uniqueness of the specified sums; a collision is traced back block by block |
| C120 | `lc_get_node_conf_path`, `lc_get_lib_dir`, `lc_get_transaction_log_dir`, `lc_get_domain_dir`, `lc_get_log_dir` (`NodePathModel`) against walks through directories (`NodePathSpec`) | the resolution of a path is the walk through its names; false for ".." and names with separators, true for proper names |
| C121 | the `Min…`/`Max…` functions and `randUint32` of collection/util.go (`MinMaxModel`) against least and greatest numbers and one-to-one draws | cases; false for uint because `MinUnt` and `MaxUint` take int |
| C122 | the file helpers of util/fsync.go (`FsyncModel`): files as synced bytes and a list of later changes, of which a crash keeps any selection | every call adds a change, syncs or leaves a file alone; induction over the calls |

## Assumptions

Every theorem named in `MANIFEST.json` is followed by `Print Assumptions`, and every one of them prints
"Closed under the global context": no axiom is used, neither ours nor the library's. `coqchk` lists the seven
constants `Coq.ssr.ssrunder.Under_rel.*`; they are opaque definitions behind a module type of the standard library
(loaded with `lia`) and occur in no theorem's assumptions.
