{"id": "C01", "title": "Slice comparison is lexicographic", "statement": "For any two byte slices (and likewise for any two slices of ints) the comparison call returns a negative, zero or positive number exactly when the first slice is lexicographically smaller than, equal to or larger than the second, where a nil slice sorts before every non-nil slice; it never panics.", "quantifier": "all pairs of slices, of any length and content, nil or not", "why_tests_cant": "the prefix relation between two slices of arbitrary length has infinitely many cases; a handful of equal-length samples never meets it", "anchors": ["src/collection/util.go:CompareByteSlice", "src/collection/util.go:CompareInt8Slice..CompareUint64Slice", "src/collection/comparable.go:ComparableByteSlice.Compare"]}
{"id": "C02", "title": "Comparison is a consistent ordering wherever it returns", "statement": "On slices for which the comparison calls return, the result is antisymmetric (swapping the arguments flips the sign), transitive, and zero only for slices with the same content, so that sorted containers see one strict order.", "quantifier": "all pairs and triples of slices", "why_tests_cant": "order laws quantify over triples of unbounded slices", "anchors": ["src/collection/util.go:CompareByteSlice", "src/collection/comparable.go"]}
{"id": "C03", "title": "Equality and ordering of comparable slices agree", "statement": "For any two comparable byte slices, Equal returns true exactly when Compare returns 0.", "quantifier": "all pairs of comparable slices, including ones wrapping nil", "why_tests_cant": "the claim relates two functions on every pair of values, including nil wrappers that samples leave out", "anchors": ["src/collection/comparable.go:ComparableByteSlice.Equal", "src/collection/comparable.go:ComparableByteSlice.Compare"]}
{"id": "C04", "title": "Slice equality is exact", "statement": "EqualByteSlice and its integer variants return true exactly when both arguments are nil, or both are non-nil with the same length and the same elements; the relation is an equivalence.", "quantifier": "all pairs/triples of slices", "why_tests_cant": "exactness in both directions over unbounded slices", "anchors": ["src/collection/util.go:EqualByteSlice"]}
{"id": "C05", "title": "Fixed-width integers survive conversion to bytes", "statement": "Converting an int64, int32 or uint32 to a byte array and back yields the same number; the arrays have exactly 8 or 4 bytes, and for non-negative numbers the byte-wise lexicographic order of the arrays is the numeric order.", "quantifier": "all 2^64 / 2^32 values and all pairs of them", "why_tests_cant": "value spaces of 2^64 and pairs of them cannot be enumerated", "anchors": ["src/collection/util.go:Int64ToByteArray", "src/collection/util.go:ByteArrayToInt64", "src/collection/util.go:Uint32ToByteArray"]}
{"id": "C06", "title": "Timestamps survive conversion to bytes", "statement": "Serialising a time to 8 bytes and parsing it back yields the same nanosecond instant, for every instant representable as a signed 64-bit nanosecond count; parsing fewer than 8 bytes is an error and extra bytes are ignored.", "quantifier": "all int64 nanosecond instants, all byte buffers", "why_tests_cant": "2^64 instants, unbounded buffers", "anchors": ["src/collection/util.go:TimeToBytes", "src/collection/util.go:BytesToTime"]}
{"id": "C07", "title": "Big integers survive 32-byte serialisation", "statement": "A non-negative integer below 2^256 serialises to exactly 32 bytes and parses back to itself; in general what is parsed back is the magnitude modulo 2^256.", "quantifier": "all integers, including negative and oversized ones", "why_tests_cant": "2^256 values; the truncation behaviour is on an infinite set", "anchors": ["src/collection/util.go:BigIntToByteArray", "src/collection/util.go:ByteArrayToBigInt"]}
{"id": "C08", "title": "Sorted map behaves as a map under every history", "statement": "After any sequence of Put, Remove and Get calls on a sorted map whose keys are totally ordered, every Get returns the value of the latest Put of an equal key not followed by a Remove of it, and nothing otherwise; Put and Remove return the value that was previously stored.", "quantifier": "all finite histories of operations, all keys and values", "why_tests_cant": "histories are unbounded and rebalancing depends on the whole history", "anchors": ["src/collection/avl.go:AVLTree.Put", "src/collection/avl.go:AVLTree.Remove", "src/collection/avl.go:AVLTree.Get", "src/collection/sorted_map.go"]}
{"id": "C09", "title": "Sorted map stays ordered and balanced", "statement": "After any history of Put and Remove the tree is ordered, every node's recorded balance is the true height difference and lies in {-1,0,1}, and therefore the number of key comparisons of a lookup is logarithmic in the number of entries.", "quantifier": "all finite histories", "why_tests_cant": "an invariant over unbounded trees; a single rotation mistake may show only in rare shapes", "anchors": ["src/collection/avl.go:putR", "src/collection/avl.go:removeR", "src/collection/avl.go:adjustBalance"]}
{"id": "C10", "title": "Sorted map Size is exact", "statement": "After any history, Size returns the number of distinct keys currently stored.", "quantifier": "all finite histories", "why_tests_cant": "size bookkeeping interacts with replace and with remove of absent keys over unbounded histories", "anchors": ["src/collection/avl.go:AVLTree.Size", "src/collection/avl.go:AVLTree.Put", "src/collection/avl.go:AVLTree.Remove"]}
{"id": "C11", "title": "Full iteration yields each entry once, in order", "statement": "Iterating a sorted map or set from start to end yields every stored entry exactly once in strictly ascending key order.", "quantifier": "all reachable trees", "why_tests_cant": "all tree shapes; explicit-stack traversal errors depend on shape", "anchors": ["src/collection/avl.go:AVLIterator.advance", "src/collection/avl.go:AVLIterator.Next"]}
{"id": "C12", "title": "HasNext and Peek never disturb an iteration", "statement": "For any interleaving of HasNext, Peek and Next on a tree iterator, the sequence of values returned by Next is the in-order sequence; HasNext tells whether a further Next yields an entry and Peek shows that very entry.", "quantifier": "all trees and all finite call sequences", "why_tests_cant": "call interleavings are unbounded", "anchors": ["src/collection/avl.go:AVLIterator.HasNext", "src/collection/avl.go:AVLIterator.Peek"]}
{"id": "C13", "title": "Range iteration yields exactly the requested interval", "statement": "RangeIterator(start, end) on a sorted map yields exactly the entries with start <= key < end, in ascending order, where a missing bound is unbounded.", "quantifier": "all trees, all start and end keys", "why_tests_cant": "correctness depends on the position of the bounds relative to arbitrary tree shapes", "anchors": ["src/collection/avl.go:AVLTree.RangeIterator", "src/collection/avl.go:AVLIterator.advance"]}
{"id": "C14", "title": "An exhausted map iterator reports the end without panicking", "statement": "Calling Next or Peek on a sorted-map, sorted-set, hash-map or hash-set iterator that has no further entry returns nil and does not panic.", "quantifier": "all containers and all call sequences", "why_tests_cant": "the end of iteration has to be handled in every state", "anchors": ["src/collection/sorted_map.go:SortedMapIterator.Next", "src/collection/sorted_set.go", "src/collection/hash_map.go", "src/collection/hash_set.go"]}
{"id": "C15", "title": "Sorted map accepts arbitrary byte-slice keys", "statement": "With byte-slice keys no Put, Get or Remove panics, whatever keys were stored before.", "quantifier": "all histories over arbitrary byte-slice keys", "why_tests_cant": "whether two keys meet in a comparison depends on the whole history and tree shape", "anchors": ["src/collection/avl.go", "src/collection/comparable.go:ComparableByteSlice", "src/collection/util.go:CompareByteSlice"]}
{"id": "C16", "title": "Sorted map over prefix-free byte-slice keys is a correct map", "statement": "If no stored or queried key is a proper prefix of another (for instance all keys have the same length), a sorted map with byte-slice keys never panics and behaves as a map.", "quantifier": "all histories over a prefix-free key set", "why_tests_cant": "unbounded histories", "anchors": ["src/collection/avl.go", "src/collection/comparable.go:ComparableByteSlice"]}
{"id": "C17", "title": "Hash map behaves as a map under every history", "statement": "After any sequence of Put, Remove and Get calls on a hash map, for every hash seed and every hash function consistent with key equality, and across every resize, Get returns the value of the latest Put of an equal key not followed by a Remove of it; Put and Remove return the previous value; Size is the number of stored keys.", "quantifier": "all finite histories, seeds, hash functions, resize points", "why_tests_cant": "resizes rehash the whole table at history-dependent points; collisions depend on a random seed", "anchors": ["src/collection/hash.go:Hash.Put", "src/collection/hash.go:Hash.Get", "src/collection/hash.go:Hash.Remove", "src/collection/hash.go:Hash.resize"]}
{"id": "C18", "title": "Hash map load stays bounded", "statement": "With default settings, after every operation the table has at least 10 slots and the number of entries is below 3/4 of the number of slots.", "quantifier": "all finite histories", "why_tests_cant": "an arithmetic invariant along unbounded histories of growth and shrinkage", "anchors": ["src/collection/hash.go:Hash.Put", "src/collection/hash.go:Hash.Remove", "src/collection/hash.go:Hash.resize"]}
{"id": "C19", "title": "Iterating a hash map yields every entry once", "statement": "Iterating a hash map or hash set yields each stored entry exactly once.", "quantifier": "all reachable hash maps", "why_tests_cant": "bucket layouts depend on seed and history", "anchors": ["src/collection/hash.go:HashIterator.advance", "src/collection/hash_map.go", "src/collection/hash_set.go"]}
{"id": "C20", "title": "Hash function is MurmurHash3 x86 32-bit", "statement": "For every seed and every byte string, the seeded hash equals the published MurmurHash3_x86_32 definition and is a 32-bit value.", "quantifier": "all seeds, all byte strings", "why_tests_cant": "test vectors cover a handful of lengths; tail handling and wrap-around vary with length and content", "anchors": ["src/collection/hash.go:MurmurSeed.Hash"]}
{"id": "C21", "title": "Equal keys have equal hashes", "statement": "Whenever two hashable values (byte slices, integer slices, keys of any of the three representations) compare Equal, their hashes under every hash function coincide, so equal keys land in the same bucket; computing the hash never panics.", "quantifier": "all pairs of hashable values, all hash functions", "why_tests_cant": "relates two functions over all pairs of values and over memory-capacity states", "anchors": ["src/collection/hashable.go", "src/util/key_util.go:HashUint32"]}
{"id": "C22", "title": "Variable-length integers decode to what was encoded", "statement": "Decoding the varint (signed or unsigned) encoding of a 64-bit number yields that number and the number of bytes consumed, whatever bytes follow.", "quantifier": "all 64-bit values, all suffixes", "why_tests_cant": "2^64 values; failures depend on value versus suffix length", "anchors": ["src/util/misc_util.go:EncodeUvarint64", "src/util/misc_util.go:DecodeUvarint64", "src/util/misc_util.go:EncodeVarint64", "src/util/misc_util.go:DecodeVarint64"]}
{"id": "C23", "title": "Length-prefixed byte strings decode to what was encoded", "statement": "Decoding EncodeVarchar(data) followed by any bytes yields data and the exact number of bytes consumed.", "quantifier": "all byte strings (of a length a machine can hold), all suffixes", "why_tests_cant": "unbounded data and suffixes; length-prefix size varies", "anchors": ["src/util/misc_util.go:EncodeVarchar", "src/util/misc_util.go:DecodeVarchar"]}
{"id": "C24", "title": "Decoding a length-prefixed string never panics", "statement": "DecodeVarchar on arbitrary bytes returns a value or an error; it never panics.", "quantifier": "all byte buffers", "why_tests_cant": "the offending buffers are astronomically rare among random ones", "anchors": ["src/util/misc_util.go:DecodeVarchar"]}
{"id": "C25", "title": "Varchar decoding stays inside the buffer and is self-delimiting", "statement": "When DecodeVarchar succeeds it consumed at most the buffer, the returned content is a sub-slice of it ending where consumption ends, and appending bytes to a non-empty buffer does not change the result; two different strings never have one encoding that is a prefix of the other's.", "quantifier": "all byte buffers and suffixes", "why_tests_cant": "quantifies over all buffers and all continuations", "anchors": ["src/util/misc_util.go:DecodeVarchar", "src/util/misc_util.go:EncodeVarchar"]}
{"id": "C26", "title": "Base58 decode inverts encode", "statement": "Base58Decode(Base58Encode(b)) = b for every byte string b, leading zero bytes included; hence encoding is injective, and the text uses only the 58 alphabet characters.", "quantifier": "all byte strings", "why_tests_cant": "arbitrary-precision base conversion over unbounded strings", "anchors": ["src/util/base58_util.go:Base58Encode", "src/util/base58_util.go:Base58Decode"]}
{"id": "C27", "title": "Base58 encode inverts decode on valid text", "statement": "For every string over the base58 alphabet, encoding its decoding gives the same string back; every string with a character outside the alphabet is rejected.", "quantifier": "all strings", "why_tests_cant": "arbitrary-precision base conversion over unbounded strings", "anchors": ["src/util/base58_util.go:Base58Decode", "src/util/base58_util.go:b58"]}
{"id": "C28", "title": "Keys survive encode and decode", "statement": "For every key that Encode accepts, parsing the encoded bytes followed by anything yields an Equal key and consumes exactly the encoded bytes.", "quantifier": "all keys, all suffixes", "why_tests_cant": "unbounded number and size of sub keys", "anchors": ["src/util/key_util.go:Key.Encode", "src/util/key_util.go:MappedKey.Decode"]}
{"id": "C29", "title": "The key size limit is enforced exactly", "statement": "Key Encode fails exactly when the encoding would exceed 4096 bytes; every encoding it produces is at most 4096 bytes.", "quantifier": "all keys", "why_tests_cant": "boundary conditions over unbounded sub-key lists", "anchors": ["src/util/key_util.go:Key.Encode", "src/util/const_util.go:MAX_KEY_LENGTH"]}
{"id": "C30", "title": "Parsing a key from untrusted bytes never panics", "statement": "NewMappedKey on arbitrary bytes returns a key or an error.", "quantifier": "all byte buffers", "why_tests_cant": "the offending buffers are rare among random ones", "anchors": ["src/util/key_util.go:NewMappedKey", "src/util/key_util.go:MappedKey.Decode"]}
{"id": "C31", "title": "A truncated key is rejected", "statement": "Parsing any proper prefix of an encoded non-empty key reports an error.", "quantifier": "all keys, all truncation points", "why_tests_cant": "all cut points of all keys", "anchors": ["src/util/key_util.go:MappedKey.Decode", "src/util/misc_util.go:DecodeVarchar"]}
{"id": "C32", "title": "Key equality ignores representation", "statement": "Equal on keys is an equivalence relation that depends only on the list of sub keys, not on whether the key is empty, parsed from a buffer or built in memory.", "quantifier": "all pairs/triples of keys in any of the three representations", "why_tests_cant": "nine combinations of representations times unbounded content", "anchors": ["src/util/key_util.go:EmptyKey.Equal", "src/util/key_util.go:MappedKey.Equal", "src/util/key_util.go:Key.Equal"]}
{"id": "C33", "title": "Key comparison is the lexicographic order of sub keys", "statement": "Compare on keys returns the lexicographic order of the sub-key lists (sub keys ordered lexicographically by bytes, a proper prefix sorting first) and never panics.", "quantifier": "all pairs of keys in any representation", "why_tests_cant": "prefix relations at two levels over unbounded content", "anchors": ["src/util/key_util.go:Key.Compare", "src/util/key_util.go:MappedKey.Compare", "src/util/key_util.go:EmptyKey.Compare"]}
{"id": "C34", "title": "An encoded key's bytes reflect its current sub keys", "statement": "After any sequence of Add and Encode calls, whenever a key reports being encoded its bytes are the encoding of its current sub keys.", "quantifier": "all finite call sequences", "why_tests_cant": "call sequences are unbounded", "anchors": ["src/util/key_util.go:Key.Add", "src/util/key_util.go:Key.Encode", "src/util/key_util.go:Key.Buf"]}
{"id": "C35", "title": "A parsed key's bytes are its own encoding", "statement": "The bytes reported by a key parsed from the front of a buffer are exactly the bytes that were consumed.", "quantifier": "all buffers that parse", "why_tests_cant": "depends on whatever follows the key in the buffer", "anchors": ["src/util/key_util.go:MappedKey.Buf"]}
{"id": "C36", "title": "Values survive encode and decode", "statement": "For every value built from non-nil primitives and non-empty nested arrays that Encode accepts, parsing the encoded bytes followed by anything consumes exactly these bytes and yields a value with the same shape and the same primitive contents at every index, to any nesting depth.", "quantifier": "all nested values, all suffixes", "why_tests_cant": "unbounded nesting and sizes", "anchors": ["src/util/value_util.go:Primitive.Encode", "src/util/value_util.go:ValueArray.Encode", "src/util/value_util.go:StandardMappedValue.Decode", "src/util/value_util.go:StandardMappedValue.ValueAt"]}
{"id": "C37", "title": "Parsing a value from untrusted bytes is safe", "statement": "NewStandardMappedValue on arbitrary bytes returns a value or an error and never panics; on success it consumed between 1 and all bytes and the value's bytes are exactly the consumed prefix.", "quantifier": "all byte buffers", "why_tests_cant": "all buffers", "anchors": ["src/util/value_util.go:StandardMappedValue.Decode"]}
{"id": "C38", "title": "Value parsing depends only on the consumed bytes", "statement": "If a buffer parses as a value, then the consumed prefix alone, or followed by different bytes, parses to the same value.", "quantifier": "all byte buffers and suffixes", "why_tests_cant": "all continuations of all buffers", "anchors": ["src/util/value_util.go:StandardMappedValue.Decode"]}
{"id": "C39", "title": "Lazy element access is order independent", "statement": "For a parsed array all of whose elements parse, any sequence of ValueAt calls returns for each index the element at that index, independent of which elements were accessed before.", "quantifier": "all well-formed arrays, all access sequences", "why_tests_cant": "cached lazy decoding depends on the access history", "anchors": ["src/util/value_util.go:StandardMappedValue.ValueAt"]}
{"id": "C40", "title": "A failing element access keeps failing", "statement": "If ValueAt(i) on a parsed array reports an error, a later ValueAt(i) reports an error too.", "quantifier": "all parsed arrays, all access sequences", "why_tests_cant": "needs a history of two calls on a malformed array", "anchors": ["src/util/value_util.go:StandardMappedValue.ValueAt", "src/util/value_util.go:StandardMappedValue.RecordAt"]}
{"id": "C41", "title": "Copy-constructing a decoded value preserves its encoding", "statement": "For every value built from non-nil primitives and non-empty nested arrays, parsing its encoding, copy-constructing an editable value and encoding that again gives the same bytes; copying an in-memory value preserves its encoding.", "quantifier": "all nested values", "why_tests_cant": "unbounded nesting", "anchors": ["src/util/value_util.go:StandardMappedValue.CopyConstruct", "src/util/value_util.go:ValueArray.Copy", "src/util/value_util.go:Primitive.Copy"]}
{"id": "C42", "title": "Value arrays behave as lists", "statement": "Under any sequence of Append, DeleteAt, ValueAt and Size calls, a value array behaves as a list: Size is its length, ValueAt(i) its i-th element, DeleteAt(i) removes exactly that element, and an index at or beyond the length is refused.", "quantifier": "all finite histories of any length", "why_tests_cant": "sizes are 16-bit, so behaviour changes at 65536 elements", "anchors": ["src/util/value_util.go:ValueArray.Append", "src/util/value_util.go:ValueArray.DeleteAt", "src/util/value_util.go:ValueArray.ValueAt", "src/util/value_util.go:ValueArray.Size"]}
{"id": "C43", "title": "The estimated buffer size is an upper bound", "statement": "EstBufSize of a key or value is at least the number of bytes Encode produces.", "quantifier": "all keys and values", "why_tests_cant": "size thresholds over unbounded content", "anchors": ["src/util/value_util.go:Primitive.EstBufSize", "src/util/key_util.go:Key.EstBufSize"]}
{"id": "C44", "title": "Records survive encode and decode", "statement": "Parsing the bytes of an encoded record yields a record with the same key, value, scheme, timestamp and signature.", "quantifier": "all records", "why_tests_cant": "all combinations of optional parts and contents", "anchors": ["src/util/record_util.go:Record.Encode", "src/util/record_util.go:MappedRecord.Decode"]}
{"id": "C45", "title": "Record encoding is unambiguous", "statement": "Two records whose encodings are equal have equal keys, values, schemes, timestamps and (if a timestamp is present) signatures; no record encoding is a proper prefix of another.", "quantifier": "all pairs of records", "why_tests_cant": "injectivity over all pairs", "anchors": ["src/util/record_util.go:Record.Encode"]}
{"id": "C46", "title": "Parsing a record from untrusted bytes never panics", "statement": "NewMappedRecord on arbitrary bytes returns a record or an error.", "quantifier": "all byte buffers", "why_tests_cant": "all buffers", "anchors": ["src/util/record_util.go:MappedRecord.Decode"]}
{"id": "C47", "title": "A record's signature is part of its encoding", "statement": "If a record carries a signature then its encoding contains it: records that differ only in the signature have different encodings.", "quantifier": "all records", "why_tests_cant": "depends on which optional parts are present", "anchors": ["src/util/record_util.go:Record.Encode"]}
{"id": "C48", "title": "Schemes survive encode and decode", "statement": "Parsing the bytes of an encoded scheme yields the same domain, tablet and buckets.", "quantifier": "all schemes", "why_tests_cant": "all combinations of absent and present parts", "anchors": ["src/util/scheme_util.go:Scheme.Encode", "src/util/scheme_util.go:MappedScheme.Decode"]}
{"id": "C49", "title": "Ledger time: codec and total order", "statement": "A ledger time parses back from its bytes, and GT, GE, EQ, NE, LT, LE are the six relations of one total order; comparing with a raft time is an error.", "quantifier": "all pairs of ledger times", "why_tests_cant": "2^64 pairs", "anchors": ["src/util/consensus_util.go:LedgerTime", "src/util/consensus_util.go:NewConsensusTime"]}
{"id": "C50", "title": "Raft time survives serialisation", "statement": "Parsing the bytes of a raft time yields the same term, millis and count.", "quantifier": "all raft times", "why_tests_cant": "2^96 values", "anchors": ["src/util/consensus_util.go:RaftTime.Buf", "src/util/consensus_util.go:NewConsensusTime"]}
{"id": "C51", "title": "Raft time comparisons form one total order", "statement": "GT, GE, EQ, NE, LT and LE on raft times are the six relations of the lexicographic order on (term, millis, count); in particular LT is the converse of GT and LE the negation of GT.", "quantifier": "all pairs of raft times", "why_tests_cant": "2^192 pairs", "anchors": ["src/util/consensus_util.go:RaftTime.LT", "src/util/consensus_util.go:RaftTime.LE", "src/util/consensus_util.go:RaftTime.GT"]}
{"id": "C52", "title": "Consensus ID parsing is exact and safe", "statement": "Parsing arbitrary bytes as a consensus ID returns an ID or an error and never panics; on success the ID's bytes are the prefix whose length is determined by the magic byte, the parts are the consecutive 32-byte fields announced by the magic, and Copy yields an identical ID.", "quantifier": "all byte buffers", "why_tests_cant": "all buffers, 2^5 layouts", "anchors": ["src/util/consensus_util.go:NewMappedConsensusID", "src/util/consensus_util.go:MappedConsensusID.Copy"]}
{"id": "C53", "title": "Perfect-hash lookup finds every member", "statement": "If building a table from a list of pairwise unequal keys finishes, then looking up the i-th key returns index i and ok, whether verification is by key or by hash, for every hash function and every order in which equal-size buckets are processed.", "quantifier": "all key lists, hash functions, bucket orders", "why_tests_cant": "depends on hash values of arbitrary key sets and on displacement history", "anchors": ["src/util/mph_util.go:MPHBuild", "src/util/mph_util.go:MPHTable.Lookup"]}
{"id": "C54", "title": "Perfect-hash lookup by key rejects strangers", "statement": "On a table built with verification by key from a non-empty key list, Lookup returns ok exactly for keys Equal to a member, and then the index of an Equal member; it does not panic.", "quantifier": "all key lists, all queried keys", "why_tests_cant": "all queries against all tables", "anchors": ["src/util/mph_util.go:MPHTable.Lookup"]}
{"id": "C55", "title": "A perfect-hash table survives serialisation", "statement": "Parsing the bytes of a built table, followed by anything, consumes exactly these bytes and yields a table on which every Lookup gives the same answer.", "quantifier": "all built tables, all suffixes, all queries", "why_tests_cant": "all tables and queries", "anchors": ["src/util/mph_util.go:MPHTable.Encode", "src/util/mph_util.go:NewMPHTable"]}
{"id": "C56", "title": "Building a perfect-hash table terminates", "statement": "Building a table from any list of pairwise unequal keys finishes.", "quantifier": "all key lists", "why_tests_cant": "non-termination cannot be observed by a finite test", "anchors": ["src/util/mph_util.go:MPHBuild", "src/util/key_util.go:HashUint32"]}
{"id": "C57", "title": "Lookup never panics", "statement": "Lookup on any table that was built or parsed successfully never panics.", "quantifier": "all tables (including from an empty key list or untrusted bytes), all queries", "why_tests_cant": "all tables and queries", "anchors": ["src/util/mph_util.go:MPHTable.Lookup", "src/util/mph_util.go:NewMPHTable"]}
{"id": "C58", "title": "A reloaded perfect-hash table can be saved again", "statement": "Encoding a table that was parsed from bytes gives the same bytes.", "quantifier": "all built tables", "why_tests_cant": "all tables", "anchors": ["src/util/mph_util.go:MPHTable.Encode", "src/util/key_util.go:MappedKey.Buf"]}
{"id": "C59", "title": "Ranged random numbers stay in range", "statement": "Each ranged random function, called with min < max, returns a number r with min <= r < max for every random source output.", "quantifier": "all min, max and all outputs of the random source", "why_tests_cant": "randomised; out-of-range results depend on the drawn bits and on overflow", "anchors": ["src/util/rand_util.go"]}
{"id": "C60", "title": "Verification hashes use seeds from the intended range", "statement": "The seed used for verifying lookups by hash is drawn from at least 2^16 up to 2^32-1.", "quantifier": "all outputs of the random source", "why_tests_cant": "randomised", "anchors": ["src/util/mph_util.go:MPHBuild"]}
{"id": "C61", "title": "Trie stores and finds keys", "statement": "After Set(k, v) on a trie, Get(k) returns v and Get of a key never set reports absence; neither panics.", "quantifier": "all histories of Set and Get, all keys", "why_tests_cant": "unbounded histories", "anchors": ["src/util/trie_util.go:Trie.Set", "src/util/trie_util.go:Trie.Get", "src/util/trie_util.go:TrieNode.GetChild"]}
{"id": "C62", "title": "Trie iteration and serialisation are available", "statement": "Key iterators, range iterators and Encode of a trie return without panicking.", "quantifier": "all reachable tries, all argument keys", "why_tests_cant": "all reachable states", "anchors": ["src/util/trie_util.go:TrieNode.FullKey", "src/util/trie_util.go:NewTrieKeyIterator", "src/util/trie_util.go:TrieNode.Encode"]}
{"id": "C63", "title": "Parsing a serialised trie never panics", "statement": "NewMappedTrie on arbitrary bytes returns a trie or an error.", "quantifier": "all byte buffers", "why_tests_cant": "all buffers", "anchors": ["src/util/trie_util.go:MappedTrie.Decode", "src/util/trie_util.go:MappedTrieNode.Decode"]}
{"id": "C64", "title": "Passphrase padding yields a valid AES key", "statement": "AESPad returns exactly 16 bytes for every secret, leaves 16-byte secrets unchanged, and depends only on the last 16 bytes of longer secrets.", "quantifier": "all secrets", "why_tests_cant": "all byte strings", "anchors": ["src/util/ecdsa_util.go:AESPad"]}
{"id": "C65", "title": "Different passphrases give different AES keys", "statement": "Two different passphrases of at least 8 characters never yield the same padded AES key.", "quantifier": "all pairs of passphrases", "why_tests_cant": "all pairs", "anchors": ["src/util/ecdsa_util.go:AESPad", "src/main/pkeygen.go"]}
{"id": "C66", "title": "A saved key pair loads back", "statement": "After saving a key pair under a class and id, loading the public key yields the same X coordinate and loading the private key with the same secret yields the same private scalar; keys saved under other classes or ids are untouched.", "quantifier": "all key pairs, secrets, nonces, classes, ids, prior file contents", "why_tests_cant": "all keys and prior file-system states", "anchors": ["src/util/lc_util.go:lc_save_key_pair", "src/util/lc_util.go:lc_load_key_data", "src/util/lc_util.go:lc_load_priv_key"]}
{"id": "C67", "title": "Corruption of a key file is detected", "statement": "If any single byte of a key file's decoded content (data or checksum) is changed, loading it reports an error.", "quantifier": "all file contents, all positions, all replacement bytes", "why_tests_cant": "all contents times all positions times all replacement values", "anchors": ["src/util/lc_util.go:lc_load_key_data"]}
{"id": "C68", "title": "Loading an arbitrary key file never panics", "statement": "Loading a key file with any content returns data or an error.", "quantifier": "all file contents", "why_tests_cant": "all contents", "anchors": ["src/util/lc_util.go:lc_load_key_data", "src/util/lc_util.go:lc_load_priv_key"]}
{"id": "C69", "title": "Saving a key pair is crash safe", "statement": "If the process crashes at any point while saving a key pair over an existing pair, a later load of the private key and of the public key returns either the old pair or the new pair, and does not panic.", "quantifier": "all crash points, all old and new pairs", "why_tests_cant": "crash points inside the write of a file", "anchors": ["src/util/lc_util.go:lc_save_key_pair"]}
{"id": "C70", "title": "Key paths of different owners never collide", "statement": "For ids without a path separator, the private and public key paths of different classes or ids are all distinct and lie below the configuration directory of their class; unknown classes are refused.", "quantifier": "all classes and ids", "why_tests_cant": "all id strings", "anchors": ["src/util/lc_util.go:lc_get_priv_key_path", "src/util/lc_util.go:lc_get_pub_key_path"]}
{"id": "C71", "title": "A loaded public key is the saved public key", "statement": "The Y coordinate reconstructed when loading a public key equals the Y coordinate of the key that was saved.", "quantifier": "all curve points", "why_tests_cant": "2^256 points", "anchors": ["src/util/ecdsa_util.go:ECDSACalculateY", "src/util/lc_util.go"]}
{"id": "C72", "title": "Opening an SSTable checks its header", "statement": "Opening an SSTable on arbitrary file bytes returns a table or an error and never panics; if it succeeds the stored checksums match the bytes they cover.", "quantifier": "all file contents", "why_tests_cant": "all contents", "anchors": ["src/pdb/sstable.go:LoadSSTableV1"]}
{"id": "C73", "title": "Copying a key yields an equal key", "statement": "Copy and CopyConstruct of any key (empty, parsed or built in memory) return a key Equal to the original and never panic.", "quantifier": "all keys in any representation", "why_tests_cant": "depends on every sub key being non-empty, over unbounded lists", "anchors": ["src/util/key_util.go:Key.Copy", "src/util/key_util.go:MappedKey.CopyConstruct", "src/util/key_util.go:Key.Add"]}
{"id": "C74", "title": "A generated key loads with its passphrase", "statement": "A key pair generated by pkeygen with some passphrase is loaded by LCLoadPrivKeyPrompt when the same passphrase is entered.", "quantifier": "all key pairs, passphrases of at least 8 bytes, nonces and prior file contents", "why_tests_cant": "all passphrase lengths and contents", "anchors": ["src/main/pkeygen.go:generate_key_pair", "src/util/lc_util.go:LCLoadPrivKeyPrompt", "src/util/lc_util.go:lc_load_priv_key"]}
{"id": "C75", "title": "A loaded public key is a point of the curve", "statement": "Every public key that LCLoadPubKey returns without an error is a point of the curve with reduced coordinates.", "quantifier": "all file contents, classes and ids", "why_tests_cant": "about half of all 2^256 abscissae have no point", "anchors": ["src/util/ecdsa_util.go:ECDSAGetPublicKey", "src/util/ecdsa_util.go:ECDSACalculateY", "src/util/lc_util.go:lc_load_pub_key"]}
{"id": "C76", "title": "Parsing a perfect hash table never panics", "statement": "Parsing a perfect hash table from arbitrary bytes returns a table that lies inside the buffer, or an error, and never panics.", "quantifier": "all byte strings", "why_tests_cant": "all byte strings", "anchors": ["src/util/mph_util.go:NewMPHTable", "src/util/key_util.go:NewMappedKey"]}
{"id": "C77", "title": "Encode writes the present contents", "statement": "In any program state, encoding a value, record or key returns exactly the result of encoding its present contents (read through all shared objects and memory), Buf then is that encoding, and no contents of any object change.", "quantifier": "all histories of constructor, setter, encode, copy and memory write calls, all objects with finite contents", "why_tests_cant": "arbitrary sharing and aliasing between objects and byte slices", "anchors": ["src/util/value_util.go:Encode", "src/util/record_util.go:Record.Encode", "src/util/key_util.go:Key.Encode"]}
{"id": "C78", "title": "An encoded object has an up-to-date buffer", "statement": "Whenever IsEncoded is true for a value, record or key, Buf equals the encoding of its present contents.", "quantifier": "all histories of calls", "why_tests_cant": "staleness depends on the order of calls on shared parts", "anchors": ["src/util/value_util.go:IsEncoded", "src/util/value_util.go:Append", "src/util/record_util.go:SetValue", "src/util/key_util.go:Key.Add"]}
{"id": "C79", "title": "Copies are independent of the original", "statement": "Copy of a value or record succeeds with equal contents; later changes to the original, its parts or its memory do not change the copy, and vice versa.", "quantifier": "all histories before and after the copy", "why_tests_cant": "aliasing over unbounded histories", "anchors": ["src/util/value_util.go:Copy", "src/util/record_util.go:Record.Copy", "src/util/key_util.go:Key.Copy"]}
{"id": "C80", "title": "Encode returns", "statement": "Encode of every value and record returns after finitely many steps.", "quantifier": "all reachable states", "why_tests_cant": "non-termination cannot be observed by a test", "anchors": ["src/util/value_util.go:ValueArray.Encode", "src/util/value_util.go:RecordList.Encode", "src/util/record_util.go:Record.Encode"]}
{"id": "C81", "title": "Equality of comparable values is safe and means equal contents", "statement": "Equal on a comparable value (byte slice, integer slice or list, nested to any depth) never panics, is an equivalence, and answers true exactly when both have the same type and the same contents.", "quantifier": "all comparable values of any depth as receiver and argument, including nil at any place", "why_tests_cant": "unbounded nesting, and a nil pointer may hide at any place behind an equal prefix", "anchors": ["src/collection/comparable.go:ComparableSlice.Equal", "src/collection/comparable.go:ComparableByteSlice.Equal"]}
{"id": "C82", "title": "Comparison of nested values is a total order", "statement": "Compare on comparable values is the lexicographic order at every depth: it never panics, is antisymmetric and transitive, and is 0 exactly when Equal is true.", "quantifier": "all comparable values of any depth, including nil at any place", "why_tests_cant": "unbounded nesting; triples of values for transitivity", "anchors": ["src/collection/comparable.go:ComparableSlice.Compare", "src/collection/util.go:CompareSlice"]}
{"id": "C83", "title": "A hash map with any settings behaves as a map", "statement": "A hash table made with any initial capacity, load factor and multiplier answers every history of Put, Get and Remove as a map, with the resize decisions computed in float32.", "quantifier": "all capacities, all float32 load factors and multipliers including NaN and infinities, all histories", "why_tests_cant": "rounding decides when and how far to resize; settings times histories are unbounded", "anchors": ["src/collection/hash.go:NewCustomHash", "src/collection/hash.go:Put", "src/collection/hash.go:Remove"]}
{"id": "C84", "title": "The load of a hash map stays bounded for all settings", "statement": "After any history the table has at least 10 slots and its load is below the load factor in force (the given one moved into [0.5, 1]).", "quantifier": "all capacities, all float32 load factors and multipliers, all histories", "why_tests_cant": "float32 rounding over unbounded histories", "anchors": ["src/collection/hash.go:NewCustomHash", "src/collection/hash.go:Put", "src/collection/hash.go:Remove"]}
{"id": "C85", "title": "Sorted maps in shared memory behave as independent maps", "statement": "Any number of sorted maps used in any interleaving, on the level of linked nodes in memory: every Put, Get, Remove and Size answers as if its map were a value of its own, and what can be read from memory below the root of a map are its entries in order.", "quantifier": "all histories of calls on any number of maps and iterators, all keys with a total order", "why_tests_cant": "node sharing between maps or with copies handed out shows only after particular sequences of rotations and removals", "anchors": ["src/collection/avl.go:putR", "src/collection/avl.go:removeR", "src/collection/avl.go:Put", "src/collection/avl.go:Remove"]}
{"id": "C86", "title": "A panicking call leaves a map of byte-slice keys unchanged", "statement": "When a call on a sorted map with non-nil byte-slice keys panics and the client recovers, the map is as before the call: the history could as well have been run without the panicking calls.", "quantifier": "all histories of Put, Get, Remove and Size on any number of maps, with keys that are prefixes of each other", "why_tests_cant": "Remove writes to the tree before its last comparison; needs a panic at every possible point of every tree", "anchors": ["src/collection/avl.go:removeR", "src/collection/avl.go:putR", "src/collection/comparable.go:ComparableByteSlice.Compare"]}
{"id": "C87", "title": "An iterator survives modification of its map", "statement": "HasNext, Peek and Next on an iterator never panic and always return, however the map is modified meanwhile, and every entry shown was in the map at some moment since the creation of the iterator.", "quantifier": "all histories of calls on any number of maps and iterators, all ranges", "why_tests_cant": "interleavings of modification and iteration are unbounded; an endless loop cannot be observed", "anchors": ["src/collection/avl.go:advance", "src/collection/avl.go:Next", "src/collection/avl.go:Remove"]}
{"id": "C88", "title": "Iteration under modification visits every entry that stays", "statement": "An iterator shows every entry that is in the map during the whole iteration, exactly once and in ascending order, whatever other entries are put or removed meanwhile.", "quantifier": "all histories of calls on any number of maps and iterators", "why_tests_cant": "depends on where rotations and the copy in Remove move entries relative to the iterator's path", "anchors": ["src/collection/avl.go:advance", "src/collection/avl.go:rotateSingle", "src/collection/avl.go:removeR"]}
{"id": "C89", "title": "A call changes exactly what it names", "statement": "Append, DeleteAt, Add and the setters of a record change only the object called on, and in it only the named element or field; DeleteAt removes the element at the index for every valid index and refuses every other; no other object, no byte the client owns and no other field changes.", "quantifier": "all histories of constructors, calls, encodings, copies and writes to the client's memory", "why_tests_cant": "an object shares slices and elements with others; changes elsewhere are not looked at by tests of one object", "anchors": ["src/util/value_util.go:ValueArray.Append", "src/util/value_util.go:ValueArray.DeleteAt", "src/util/value_util.go:RecordList.DeleteAt", "src/util/record_util.go:SetSignature", "src/util/record_util.go:SetTimestamp", "src/util/key_util.go:Add"]}
{"id": "C90", "title": "A decoded scheme shows the fields of its buffer", "statement": "Whenever a mapped scheme is decoded its accessors return the domain, tablet and buckets that its buffer encodes; when it is not decoded they panic. Decode ends exactly as parsing the current bytes does and touches nothing but the scheme itself.", "quantifier": "all histories of decoding, encoding, copying and writes to the client's memory, all buffers", "why_tests_cant": "a Decode that fails half-way, or memory that changes under the scheme, is not part of the tests", "anchors": ["src/util/scheme_util.go:MappedScheme.Decode", "src/util/scheme_util.go:MappedScheme.Domain", "src/util/scheme_util.go:MappedScheme.BucketAt"]}
{"id": "C91", "title": "Copy of a scheme is a deep copy", "statement": "A copy shows the same domain, tablet and buckets as its source, and keeps showing them whatever happens to the source, to the memory of the source and to the slices handed out; encoding the copy gives the bytes of what it shows.", "quantifier": "all histories of decoding, encoding, copying and writes to memory and to slices handed out", "why_tests_cant": "aliasing between a copy, its source and the client's buffer is invisible until one of them is written", "anchors": ["src/util/scheme_util.go:MappedScheme.Copy", "src/util/scheme_util.go:Scheme.Copy", "src/util/scheme_util.go:Scheme.Encode", "src/util/scheme_util.go:Buckets"]}
{"id": "C92", "title": "Trie nodes: children form a map and a node knows its path", "statement": "PutChild, GetChild, RemoveChild and ChildSize treat the children of a node as a map from sub keys to nodes, and GetChild of an absent key gives nil; FullKey gives the sub keys from the root to the node; every other call changes only the node it is for.", "quantifier": "all histories of calls on any number of trie nodes linked in any shape, all sub keys none of which is a prefix of another", "why_tests_cant": "nodes can be linked in every shape, also below parents that do not know them; tests build one small tree", "anchors": ["src/util/trie_util.go:TrieNode.GetChild", "src/util/trie_util.go:TrieNode.PutChild", "src/util/trie_util.go:TrieNode.RemoveChild", "src/util/trie_util.go:TrieNode.FullKey", "src/util/trie_util.go:TrieNode.Encode"]}
{"id": "C93", "title": "Set with nil on a trie removes exactly one entry", "statement": "On a trie whose nodes exist, Get returns the value stored under a key and nil if there is none; Set stores a value and returns the former one; Set with nil removes the entry of that key and no other, also when it is the last one.", "quantifier": "all tries linked from nodes, all histories of calls, all keys", "why_tests_cant": "the clean-up after a removal walks up through any number of nodes; which ones depends on the shape of the trie", "anchors": ["src/util/trie_util.go:Trie.Get", "src/util/trie_util.go:Trie.Set"]}
{"id": "C94", "title": "A written trie node can be parsed", "statement": "NewMappedTrieNode of a buffer written by TrieNode.Encode gives a node that shows the key and the value written, linked below its parent; a buffer that is not a node gives an error.", "quantifier": "all buffers, all histories of parsed nodes and tables of known nodes", "why_tests_cant": "the space of buffers is unbounded; the parser is never run on what the encoder writes", "anchors": ["src/util/trie_util.go:NewMappedTrieNode", "src/util/trie_util.go:MappedTrieNode.Decode", "src/util/trie_util.go:MappedTrieNode.Key", "src/util/trie_util.go:TrieNode.Encode"]}
{"id": "C95", "title": "A copy of a trie or trie node has the same contents and is independent", "statement": "Copy of a trie node, of a parsed node or of a trie shows the same contents as the original, and neither changes with the other.", "quantifier": "all histories of calls on nodes and copies, all tries", "why_tests_cant": "sharing shows only when one of the two is changed later", "anchors": ["src/util/trie_util.go:TrieNode.Copy", "src/util/trie_util.go:MappedTrieNode.Copy", "src/util/trie_util.go:Trie.Copy"]}
{"id": "C96", "title": "Parsed objects keep saying what was parsed", "statement": "A value, record or key parsed from a slice keeps answering every accessor as a parse of those bytes does, for itself and for the elements and parts reached from it, in any order of calls, whatever the caller does with the slice and with other objects afterwards.", "quantifier": "all histories of parsing, accessor calls, copies and writes to the caller's memory, all buffers and windows into them", "why_tests_cant": "the objects are windows on the caller's buffer, and elements are parsed when they are first asked for; the effect of a write depends on when elements were loaded", "anchors": ["src/util/value_util.go:StandardMappedValue.Decode", "src/util/value_util.go:StandardMappedValue.ValueAt", "src/util/value_util.go:StandardMappedValue.RecordAt", "src/util/value_util.go:SimpleMappedValue.Decode", "src/util/record_util.go:MappedRecord.Decode", "src/util/key_util.go:MappedKey.Decode"]}
{"id": "C97", "title": "Copies of parsed objects are independent and always succeed", "statement": "Copy of a parsed value, record or key succeeds, says the same as the original, and afterwards neither notices what happens to the other or to its memory.", "quantifier": "all histories of parsing, accessor calls, copies and writes to the caller's memory, all buffers and windows into them", "why_tests_cant": "sharing of memory between a copy and its original shows only after a write, and a copy parses the bytes again", "anchors": ["src/util/value_util.go:StandardMappedValue.Copy", "src/util/value_util.go:SimpleMappedValue.Copy", "src/util/record_util.go:MappedRecord.Copy", "src/util/key_util.go:MappedKey.Copy"]}
{"id": "C98", "title": "An iterator over a trie shows every node once, in key order", "statement": "A key iterator over a trie of a client's nodes shows the given node and all nodes below it, each once, a node before its children and the children in the order of their keys; HasNext tells whether Next returns a node; and it can start at any node of the trie.", "quantifier": "all tries, all starting nodes, all sequences of HasNext, Peek and Next", "why_tests_cant": "no node type of the package can be iterated, so the iterator is never run; the number of shapes and call sequences is unbounded", "anchors": ["src/util/trie_util.go:NewTrieKeyIterator", "src/util/trie_util.go:TrieKeyIterator.HasNext", "src/util/trie_util.go:TrieKeyIterator.Next", "src/util/trie_util.go:TrieKeyIterator.Peek"]}
{"id": "C99", "title": "A range iterator over a trie shows exactly the nodes of the range", "statement": "A range iterator over a trie of a client's nodes shows the nodes from start (inclusive) to end (exclusive), a nil bound meaning no bound, in key order, and then says that there is no more; every call returns.", "quantifier": "all tries, all pairs of bounds, all sequences of HasNext, Peek and Next", "why_tests_cant": "which nodes are missing, and which calls never return, depends on the shape of the trie around both bounds", "anchors": ["src/util/trie_util.go:NewTrieRangeIterator", "src/util/trie_util.go:TrieRangeIterator.HasNext", "src/util/trie_util.go:TrieRangeIterator.Next", "src/util/trie_util.go:TrieRangeIterator.Peek"]}
{"id": "C100", "title": "An alias given to the key generator names the new key", "statement": "A run of the key generator with an alias, a passphrase that is accepted, and consent where the alias already exists (the flag force, or the answer y), stores the key and ends well; afterwards the public and private key load under the alias as well as under the id of the key.", "quantifier": "all file systems in which the new key can be stored, all aliases, answers, passphrases and keys", "why_tests_cant": "the outcome depends on what the alias was before: nothing, a file, a directory, a link, or a link to something that is gone", "anchors": ["src/main/pkeygen.go:process_key", "src/main/pkeygen.go:check_path_exist", "src/main/pkeygen.go:generate_key_pair", "src/util/lc_util.go:LCLoadPubKey", "src/util/lc_util.go:LCLoadPrivKey"]}
{"id": "C101", "title": "The key generator changes nothing but the new key and the alias", "statement": "A run of the key generator changes nothing in the file system but the directory of the new key and the entry of the alias in the directory of the class; a run where the user declines, the passphrase is refused or the class is unknown changes nothing at all.", "quantifier": "all file systems in which the new key can be stored, all aliases, answers, passphrases and keys", "why_tests_cant": "damage to other keys shows only for particular aliases and file systems", "anchors": ["src/main/pkeygen.go:process_key", "src/main/pkeygen.go:main", "src/util/lc_util.go:lc_save_key_pair", "src/util/lc_util.go:PromptPassphrase"]}
{"id": "C102", "title": "A value keeps its kind through its bytes", "statement": "Every value is exactly one of primitive, value array and record list, and its bytes (Buf of an encoded or parsed value) parse back with NewStandardMappedValue to a value of the same kind with the same IsNil, Size and Value; ValueMagic is the first byte of Buf, and 0xff for a value that is not encoded.", "quantifier": "all values of all implementations of IValue, encoded or not, with all contents", "why_tests_cant": "the answers come from different fields in each implementation, and which of them agree depends on the content and on its size", "anchors": ["src/util/value_util.go:IValue", "src/util/value_util.go:Primitive", "src/util/value_util.go:ValueArray", "src/util/value_util.go:RecordList", "src/util/value_util.go:SimpleMappedValue", "src/util/value_util.go:StandardMappedValue"]}
{"id": "C103", "title": "A parsed value or key decoded again shows what its buffer holds now", "statement": "After the caller has written other bytes into the buffer of a parsed value or key, a Decode that succeeds makes it answer as a new parse of these bytes would, and IsDecoded says so; a Decode that fails leaves it as it was; and Decode without a write in between changes nothing.", "quantifier": "all buffers, all contents written to them, all sequences of writes and calls of Decode, in all states of the object", "why_tests_cant": "what is left of the first parse shows only for particular pairs of old and new bytes", "anchors": ["src/util/value_util.go:StandardMappedValue.Decode", "src/util/value_util.go:SimpleMappedValue.Decode", "src/util/key_util.go:MappedKey.Decode", "src/util/key_util.go:MappedKey.IsDecoded"]}
{"id": "C104", "title": "A parsed record decoded again shows what its buffer holds now", "statement": "After the caller has written other bytes into the buffer of a parsed record, a Decode that succeeds makes it answer as a new parse of these bytes would; a Decode that fails leaves it as it was; and Decode without a write in between changes nothing.", "quantifier": "all buffers, all contents written to them, in all states of the record", "why_tests_cant": "what is left of the first parse shows only for particular pairs of old and new bytes", "anchors": ["src/util/record_util.go:MappedRecord.Decode", "src/util/record_util.go:NewMappedRecord"]}
{"id": "C105", "title": "A sorted map keyed by keys behaves as a map", "statement": "For every sequence of Put, Get, Remove and iteration on a sorted map whose keys are IKey objects of any implementation (EmptyKey, MappedKey and Key mixed), every call returns the answer of a finite map in which two keys are the same entry exactly if they have the same sub keys, and iteration shows the entries in the order of the sub keys.", "quantifier": "all sequences of calls, all keys of all implementations with any number of sub keys", "why_tests_cant": "whether a call panics depends on which keys the search compares, and so on the balance of the tree", "anchors": ["src/util/key_util.go:Key.Equal", "src/util/key_util.go:Key.Compare", "src/util/key_util.go:MappedKey.Compare", "src/util/key_util.go:EmptyKey.Compare", "src/collection/sorted_map.go", "src/collection/avl.go:AVLTree.Put", "src/collection/avl.go:AVLTree.Get", "src/collection/avl.go:AVLTree.Remove"]}
{"id": "C106", "title": "A map goes by the contents its keys had when they were put", "statement": "Changing the content of an object that was passed to Put, for example writing to the slice wrapped as key, does not change what a hash map or sorted map answers: every later Put, Get and Remove answers as a finite map in which each entry is filed under the content its key had when it was put.", "quantifier": "all sequences of making objects, changing their contents and calling the map, all hash functions, all settings", "why_tests_cant": "the effect depends on the slot of the old and new content, or on where the changed key is in the tree, and appears in a later call", "anchors": ["src/collection/hash_map.go", "src/collection/sorted_map.go", "src/collection/hash.go:Hash.Put", "src/collection/avl.go:AVLTree.Put", "src/collection/hashable.go", "src/collection/comparable.go"]}
{"id": "C107", "title": "Print of a tree or hash table shows every entry once, on a line of its own", "statement": "Print of an AVLTree or Hash with any indent writes one line for the table, with its number of entries, and then one line for every entry it holds, each exactly once and further indented than the table; ToString of the table contains no return character.", "quantifier": "all histories of the table, all keys, all values and all hash functions whose texts contain no return character, all indents", "why_tests_cant": "a row that is missing, doubled or not ended depends on the shape of the tree or chain and on the width that fmt accepts", "anchors": ["src/collection/avl.go:AVLTree.Print", "src/collection/avl.go:AVLTree.ToString", "src/collection/avl.go:AVLNode.Print", "src/collection/avl.go:AVLNode.ToString", "src/collection/hash.go:Hash.Print", "src/collection/hash.go:Hash.ToString", "src/collection/hash.go:HashNode.Print", "src/collection/hash.go:HashNode.ToString", "src/collection/object.go:IPrintable"]}
{"id": "C108", "title": "ToString of a key or trie is one line, and Print indents and separates children by returns", "statement": "As IPrintable says: ToString of every key, trie and trie node returns a text without return characters, and Print with an indent writes the object indented by it with its children separated by return characters.", "quantifier": "all keys, tries and trie nodes, constructed and parsed, all indents", "why_tests_cant": "no test prints an object and compares the text", "anchors": ["src/collection/object.go:IPrintable", "src/util/key_util.go:Key.Print", "src/util/key_util.go:Key.ToString", "src/util/key_util.go:MappedKey.Print", "src/util/key_util.go:MappedKey.ToString", "src/util/key_util.go:EmptyKey.Print", "src/util/trie_util.go:Trie.Print", "src/util/trie_util.go:Trie.ToString", "src/util/trie_util.go:TrieNode.Print", "src/util/trie_util.go:TrieNode.ToString", "src/util/trie_util.go:MappedTrie.Print", "src/util/trie_util.go:MappedTrieNode.Print"]}
{"id": "C109", "title": "Estimated sizes add up", "statement": "At every time EstBufSize of a value array or record list is one more than the sum of the present EstBufSize of its elements, that of a key is one byte and one more byte and the length for each sub key, and that of a record is computed from the present EstBufSize of its key, value and scheme, its timestamp and its signature.", "quantifier": "all histories of calls on values, records and keys that share elements and memory, with Encode, Copy and changes of elements at any time", "why_tests_cant": "the estimate is a counter changed by each call; whether it is still right depends on the whole history of the object and of everything it holds", "anchors": ["src/util/value_util.go:ValueArray.EstBufSize", "src/util/value_util.go:ValueArray.Append", "src/util/value_util.go:ValueArray.DeleteAt", "src/util/value_util.go:ValueArray.Encode", "src/util/value_util.go:ValueArray.Copy", "src/util/value_util.go:RecordList.EstBufSize", "src/util/value_util.go:RecordList.Append", "src/util/value_util.go:RecordList.DeleteAt", "src/util/record_util.go:Record.EstBufSize", "src/util/record_util.go:Record.SetKey", "src/util/record_util.go:Record.SetValue", "src/util/record_util.go:Record.SetScheme", "src/util/key_util.go:Key.Add", "src/util/key_util.go:Key.Encode"]}
{"id": "C110", "title": "An editable copy of a parsed object says the same and is independent", "statement": "CopyConstruct of a parsed value, record or key returns a constructed object with the same contents, down to the last element and sub key, or an error; later changes of the buffer that the original was parsed from do not change the copy, and changes of the copy do not change the original.", "quantifier": "all parsed values, records and keys and everything reached from them, after all calls and writes elsewhere, and all later calls and writes", "why_tests_cant": "whether a copy shares memory with the original shows only after a later write into a buffer, and which elements can be read depends on every nested length in the bytes", "anchors": ["src/util/value_util.go:SimpleMappedValue.CopyConstruct", "src/util/value_util.go:StandardMappedValue.CopyConstruct", "src/util/record_util.go:MappedRecord.CopyConstruct", "src/util/key_util.go:MappedKey.CopyConstruct", "src/util/key_util.go:Key.Add"]}
{"id": "C111", "title": "Every IEncodable keeps the protocol its interface describes", "statement": "As the comments of IEncodable say, for every object of every type that implements it, at every time: IsEncoded is true for mapped data and, for constructed data, true exactly while an encoding of the present content is kept; Encode is refused by mapped data; IsDecoded is true for constructed data and, for mapped data, true exactly after it was parsed; Decode is refused by constructed data; Copy returns an object of the same kind; CopyConstruct returns a constructed one; and Buf returns the encoding exactly if there is one.", "quantifier": "all programs that make objects of the sixteen types, as zero values too, and call them and their copies in any order, with any contents", "why_tests_cant": "a flag that is wrong shows only after the particular calls that should have set or cleared it, and there are sixteen types with seven methods each", "anchors": ["src/util/encodable.go:IEncodable", "src/util/key_util.go:EmptyKey", "src/util/key_util.go:MappedKey", "src/util/key_util.go:Key", "src/util/value_util.go:SimpleMappedValue", "src/util/value_util.go:StandardMappedValue", "src/util/value_util.go:Primitive", "src/util/value_util.go:ValueArray", "src/util/value_util.go:RecordList", "src/util/record_util.go:MappedRecord", "src/util/record_util.go:Record", "src/util/scheme_util.go:MappedScheme", "src/util/scheme_util.go:Scheme", "src/util/trie_util.go:MappedTrie", "src/util/trie_util.go:MappedTrieNode", "src/util/trie_util.go:Trie", "src/util/trie_util.go:TrieNode"]}
{"id": "C112", "title": "Questions put with PromptText are answered by the lines of the input, one after the other", "statement": "PromptText prints the prompt, a colon and a space and returns the next line of standard input without the white space around it; questions asked one after the other get the lines of the input in their order, and whoever reads standard input next gets what comes after the last answered line.", "quantifier": "all inputs, however the operating system divides them into reads, all prompts and all numbers of questions", "why_tests_cant": "whether input is lost depends on how it arrives in reads: by line from a terminal, in pieces of any length from a pipe or file, and a test under one of them does not show the other", "anchors": ["src/util/lc_util.go:PromptText", "src/main/pkeygen.go:process_key"]}
{"id": "C113", "title": "Log lines arrive where the last logger call says", "statement": "After LCSetLoggerStdout every line of the standard logger goes to standard output, after LCSetLoggerFileTmp returned without an error to the log file of the process, and before any of them to standard error; a call that returns an error changes nothing; the file is opened only once; flags are short file name, date and time, with microseconds in the file.", "quantifier": "all sequences of the two calls and of printed lines, with every outcome of opening the file", "why_tests_cant": "the destination after a call depends on the calls before it, and a lost log line gives no error", "anchors": ["src/util/lc_util.go:LCSetLoggerStdout", "src/util/lc_util.go:LCSetLoggerFileTmp", "src/util/lc_util.go:lc_get_log_file_tmp"]}
{"id": "C114", "title": "A pair saved under a typed passphrase is there and is loaded with it", "statement": "LCSaveKeyPairPrompt saves the pair under every passphrase that the prompt accepts; afterwards LCExistPubKey and LCExistPrivKey answer true, LCLoadPubKey returns the public key and LCLoadPrivKeyPrompt with the same passphrase the private one.", "quantifier": "all passphrases, key pairs, classes, ids, nonces and file systems", "why_tests_cant": "whether a passphrase works depends on its length in a way the prompt does not show, and on the files before", "anchors": ["src/util/lc_util.go:LCSaveKeyPairPrompt", "src/util/lc_util.go:LCLoadPrivKeyPrompt", "src/util/lc_util.go:LCExistPubKey", "src/util/lc_util.go:LCExistPrivKey", "src/util/lc_util.go:PromptPassphrase"]}
{"id": "C115", "title": "The key files have the published format", "statement": "A saved private key file is a hex dump in capitals of a nonce of 12 bytes, of the scalar as 32 big-endian bytes sealed by AES-GCM as FIPS 197 and NIST SP 800-38D define it with the secret as the key and no additional data, and of the IEEE CRC-32 of the two, big endian; a public key file is one of the 32 bytes of the X coordinate and their CRC-32. Loading opens exactly the texts that are the result of such sealing.", "quantifier": "all keys of 16, 24 and 32 bytes, nonces, scalars, coordinates and sealed texts up to the limit of GCM", "why_tests_cant": "that files can be read by other implementations of the standards is a statement about every key, nonce and text; test vectors show a few of them", "anchors": ["src/util/lc_util.go:lc_save_key_pair", "src/util/lc_util.go:lc_save_pub_key", "src/util/lc_util.go:lc_load_priv_key", "src/util/lc_util.go:lc_load_key_data"]}
{"id": "C116", "title": "A signature made with the private key of a pair is accepted with its public key", "statement": "For every key pair that ECDSAGenerateKey makes or ECDSAGetPrivateKey rebuilds, every hash and every random number drawn, a signature that ECDSASign returns is accepted by ECDSAVerify with the public key of the pair and the same hash; this also holds after the pair was saved with LCSaveKeyPair and loaded with LCLoadPrivKey and LCLoadPubKey.", "quantifier": "all private keys, hashes of any length, random numbers, secrets, nonces and file systems", "why_tests_cant": "the keys, hashes and random numbers are numbers of 256 bits, and whether a loaded public key is the right one depends on a property of its Y coordinate that half of all keys have", "anchors": ["src/util/ecdsa_util.go:ECDSASign", "src/util/ecdsa_util.go:ECDSAVerify", "src/util/ecdsa_util.go:ECDSAGetPrivateKey", "src/util/ecdsa_util.go:ECDSAGetPublicKey", "src/util/ecdsa_util.go:ECDSAGenerateKey", "src/util/lc_util.go:lc_save_key_pair", "src/util/lc_util.go:lc_load_pub_key"]}
{"id": "C117", "title": "A signature is accepted for nothing but the hash that was signed", "statement": "ECDSAVerify accepts a signature returned by ECDSASign for no other hash than the one signed, and for that hash no other signature can be made from it without the private key.", "quantifier": "all private keys, pairs of hashes of any length and random numbers", "why_tests_cant": "the other hashes and signatures that are accepted are single values among 2^256, found by arithmetic and not by trying", "anchors": ["src/util/ecdsa_util.go:ECDSASign", "src/util/ecdsa_util.go:ECDSAVerify"]}
{"id": "C118", "title": "An editable copy of what was built in memory encodes the same", "statement": "CopyConstruct of a value or record all of whose parts were constructed succeeds, returns what Copy returns, and the copy encodes to the same bytes as the original; CopyConstruct of a parsed record list whose records can be read and copied returns the copies of these records in their order, with an EstBufSize of one more than theirs together.", "quantifier": "all nested values and records built in memory, all parsed record lists", "why_tests_cant": "unbounded nesting, and the elements of a parsed list are found one from the end of the other", "anchors": ["src/util/value_util.go:ValueArray.CopyConstruct", "src/util/value_util.go:RecordList.CopyConstruct", "src/util/value_util.go:StandardMappedValue.CopyConstruct", "src/util/value_util.go:RecordList.Append", "src/util/record_util.go:Record.CopyConstruct"]}
{"id": "C119", "title": "The sums are those of SHA-256 and MD5 and keep different data apart as far as these do", "statement": "For all data SumSHA256 returns exactly the 32 bytes FIPS 180-4 defines, SumSHA256d the SHA-256 sum of the SHA-256 sum, and SumMD5 exactly the 16 bytes RFC 1321 defines, none panics; and if SumSHA256 or SumSHA256d returns the same for different data then two different inputs of one step of SHA-256 with the same output can be given, while for SumMD5 there are two texts of 128 bytes that may be exchanged for each other at the start of any data without changing the sum.", "quantifier": "all data of fewer than 2^64 bits", "why_tests_cant": "unbounded data cross the block and padding boundaries in all ways, and no collision of SHA-256 is known to test with", "anchors": ["src/util/ecdsa_util.go:SumSHA256", "src/util/ecdsa_util.go:SumSHA256d", "src/util/ecdsa_util.go:SumMD5"]}
{"id": "C120", "title": "The files and directories of a node are places of their own", "statement": "For every node id and domain name the configuration file, the library directory, the transaction log directory, the domain directory and the log directory are exactly the places that walking through the names of the id and of the domain leads to; different items, nodes and domains have different places, each lies below the directory for its kind and, apart from the library and log directories, below a directory of its node, and none is a key file.", "quantifier": "all node ids and domain names, with and without separators, all kinds of items, all classes of keys", "why_tests_cant": "names are arbitrary byte strings and the claim compares every two of them; tests use a few harmless names", "anchors": ["src/util/lc_util.go:lc_get_node_conf_path", "src/util/lc_util.go:lc_get_lib_dir", "src/util/lc_util.go:lc_get_transaction_log_dir", "src/util/lc_util.go:lc_get_domain_dir", "src/util/lc_util.go:lc_get_log_dir"]}
{"id": "C121", "title": "Min and Max return the least and the greatest, and every seed of a hash table is as likely as any other", "statement": "For all arguments MinInt, MinInt8, MinUnt8 and the other Min functions return the smaller argument and the Max functions the larger one, for uint as for the other types; and randUint32, which seeds every hash table, maps the four random bytes one to one onto all numbers of 32 bits and never panics on them.", "quantifier": "all pairs of numbers of each type, all four random bytes", "why_tests_cant": "the arguments have 2^128 combinations and the one that fails needs a number from the upper half of uint; that all seeds occur equally often is a statement about all 2^32 draws", "anchors": ["src/collection/util.go:MinInt", "src/collection/util.go:MaxInt", "src/collection/util.go:MinUnt", "src/collection/util.go:MaxUint", "src/collection/util.go:randUint32"]}
{"id": "C122", "title": "What was synced is still there after a crash", "statement": "For every sequence of Open, Write, Sync and Close calls on any files and handles: once Sync has returned, a crash at any later time leaves at least as many bytes in the file as it had at that moment, unless its name is opened again; from Open on the file holds only zero bytes, as many as were written if one handle writes; files that are not opened are not touched; Open, Write and Sync panic exactly when the system refuses or the handle is nil or closed or the size is negative, and Close never panics.", "quantifier": "all sequences of calls, all handles of all files, all failures of the system, all moments of a crash", "why_tests_cant": "a crash can come at any moment and leave any selection of the changes that are not synced; tests do not crash the machine", "anchors": ["src/util/fsync.go:Open", "src/util/fsync.go:Write", "src/util/fsync.go:Sync", "src/util/fsync.go:Close"]}
