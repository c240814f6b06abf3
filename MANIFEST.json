{
 "claims": [
  {
   "property": "C01",
   "status": "partial",
   "theorems": [
    "C01_byte_compare_exact",
    "C01_int_compare_exact",
    "C01_byte_compare_total_refuted",
    "C01_byte_compare_partial",
    "C01_int_compare_partial",
    "C01_comparable_compare_exact"
   ],
   "note": "The statement is false of the code: when the second slice is a proper prefix of the first, the comparison panics. The exact behaviour is characterised; the order is right in every other case."
  },
  {
   "property": "C02",
   "status": "proved",
   "theorems": [
    "C02_byte_compare_antisym",
    "C02_byte_compare_trans",
    "C02_byte_compare_zero",
    "C02_int_compare_antisym",
    "C02_int_compare_trans"
   ],
   "note": ""
  },
  {
   "property": "C03",
   "status": "partial",
   "theorems": [
    "C03_equal_compare_partial",
    "C03_equal_compare_refuted",
    "C03_exact"
   ],
   "note": "False for two nil slices (Equal is true but Compare is -1 in both directions); C03_exact: agreement holds exactly otherwise."
  },
  {
   "property": "C04",
   "status": "proved",
   "theorems": [
    "C04_equal_byte_slice_exact",
    "C04_equal_int_slice_exact",
    "C04_comparable_equal_exact"
   ],
   "note": ""
  },
  {
   "property": "C05",
   "status": "proved",
   "theorems": [
    "C05_int64_roundtrip",
    "C05_int32_roundtrip",
    "C05_uint32_roundtrip",
    "C05_lengths",
    "C05_int64_order",
    "C05_uint32_order",
    "C05_int64_bijection"
   ],
   "note": ""
  },
  {
   "property": "C06",
   "status": "proved",
   "theorems": [
    "C06_time_roundtrip",
    "C06_time_parse"
   ],
   "note": ""
  },
  {
   "property": "C07",
   "status": "proved",
   "theorems": [
    "C07_big_roundtrip",
    "C07_big_roundtrip_general",
    "C07_bytes_roundtrip"
   ],
   "note": ""
  },
  {
   "property": "C08",
   "status": "proved",
   "theorems": [
    "C08_tree_history",
    "C08_sorted_map_history",
    "C08_sorted_set",
    "C08_nil_key"
   ],
   "note": ""
  },
  {
   "property": "C09",
   "status": "proved",
   "theorems": [
    "C09_ordered_balanced",
    "C09_lookup_cost"
   ],
   "note": ""
  },
  {
   "property": "C10",
   "status": "proved",
   "theorems": [
    "C10_size_exact"
   ],
   "note": ""
  },
  {
   "property": "C11",
   "status": "proved",
   "theorems": [
    "C11_iteration_in_order"
   ],
   "note": ""
  },
  {
   "property": "C12",
   "status": "proved",
   "theorems": [
    "C12_calls_as_on_list"
   ],
   "note": ""
  },
  {
   "property": "C13",
   "status": "partial",
   "theorems": [
    "C13_range_exact",
    "C13_range_refuted",
    "C13_range_partial"
   ],
   "note": "False: the start bound is tested with the wrong sign, so a start above the smallest key is ignored and a smaller one empties the iteration. Exact behaviour proved; correct without a start or when the start is the smallest key."
  },
  {
   "property": "C14",
   "status": "partial",
   "theorems": [
    "C14_sorted_exact",
    "C14_sorted_refuted",
    "C14_tree_iterator_partial",
    "C14_hash_exact",
    "C14_hash_refuted"
   ],
   "note": "False: the map and set iterators assert a node type on a nil interface, so Next/Peek at the end panic on every sorted and hash container (on hash containers always, since their iterators never reach an entry). Exact behaviour proved; the underlying tree iterator does report the end."
  },
  {
   "property": "C15",
   "status": "partial",
   "theorems": [
    "C15_prefix_refuted",
    "C15_nil_slice_refuted"
   ],
   "note": "False: a query with a proper prefix of a key on the search path panics, and a nil-slice key can become unremovable. The part that holds is C16."
  },
  {
   "property": "C16",
   "status": "proved",
   "theorems": [
    "C16_prefix_free_history",
    "C16_fixed_length"
   ],
   "note": ""
  },
  {
   "property": "C17",
   "status": "proved",
   "theorems": [
    "C17_table_history",
    "C17_default_history",
    "C17_hash_map_history",
    "C17_hash_set",
    "C17_byte_slice_map",
    "C17_key_map",
    "C17_float32_history"
   ],
   "note": "Proved for every hash function consistent with equality, every resize policy asking for capacities below 2^32, and for the default settings for fewer than 2^31 calls; instances for byte-slice keys and composite keys with the murmur hash of any seed; C17_float32_history for the float32 decisions and fewer than 2^28 calls."
  },
  {
   "property": "C18",
   "status": "proved",
   "theorems": [
    "C18_load_bounded",
    "C18_float32_load",
    "C18_policies_agree"
   ],
   "note": "Proved for the default policy in exact arithmetic and fewer than 2^31 calls. C18_policies_agree: it equals the float32 policy up to 2^20 slots and entries. C18_float32_load: the float32 policy for fewer than 2^28 calls, exact below 2^24 slots and up to a factor 1 - 2^-22 beyond."
  },
  {
   "property": "C19",
   "status": "partial",
   "theorems": [
    "C19_iterator_exact",
    "C19_every_state_exact",
    "C19_no_entry_shown_refuted",
    "C19_empty_map_partial"
   ],
   "note": "False: the iterator never loads a bucket, so it shows no entry of any table. Exact behaviour proved; right only on empty tables."
  },
  {
   "property": "C20",
   "status": "proved",
   "theorems": [
    "C20_murmur3"
   ],
   "note": ""
  },
  {
   "property": "C21",
   "status": "partial",
   "theorems": [
    "C21_equal_same_hash",
    "C21_equal_exact",
    "C21_equal_keys_same_hash",
    "C21_panic_exact",
    "C21_never_panics_refuted",
    "C21_no_panic_partial",
    "C21_ints_exact",
    "C21_nil_elements_exact"
   ],
   "note": "Equal values have equal hashes whenever both hashes return (all wrappers and keys). 'Never panics' is false: integer slices with len*width > cap and slices of hashables with a non-nil element panic; exact condition proved."
  },
  {
   "property": "C22",
   "status": "partial",
   "theorems": [
    "C22_encode_numeral",
    "C22_encode_minimal",
    "C22_uvarint_exact",
    "C22_varint_exact",
    "C22_uvarint_roundtrip_partial",
    "C22_varint_roundtrip_partial",
    "C22_roundtrip_refuted",
    "C22_decode_never_panics"
   ],
   "note": "False: the decoders reject a value that is larger than the number of bytes that follow it. The exact domain of success is characterised."
  },
  {
   "property": "C23",
   "status": "proved",
   "theorems": [
    "C23_varchar_roundtrip",
    "C23_varchar_layout"
   ],
   "note": ""
  },
  {
   "property": "C24",
   "status": "partial",
   "theorems": [
    "C24_varchar_panic_exact",
    "C24_varchar_never_panics_refuted",
    "C24_varchar_never_panics_partial"
   ],
   "note": "False: a length numeral of 2^63 or more panics. The exact set of panicking buffers is characterised."
  },
  {
   "property": "C25",
   "status": "proved",
   "theorems": [
    "C25_varchar_inside",
    "C25_varchar_extension",
    "C25_varchar_prefix_free"
   ],
   "note": ""
  },
  {
   "property": "C26",
   "status": "proved",
   "theorems": [
    "C26_base58_roundtrip",
    "C26_base58_alphabet",
    "C26_base58_meaning",
    "C26_base58_injective"
   ],
   "note": ""
  },
  {
   "property": "C27",
   "status": "proved",
   "theorems": [
    "C27_base58_encode_decode",
    "C27_base58_rejects",
    "C27_base58_decode_injective"
   ],
   "note": ""
  },
  {
   "property": "C28",
   "status": "partial",
   "theorems": [
    "C28_key_roundtrip",
    "C28_key_roundtrip_equal_partial",
    "C28_equal_exact",
    "C28_key_roundtrip_refuted"
   ],
   "note": "Holds for every key without a nil sub key. A nil sub key (NewSimpleKey(nil)) parses back as an empty non-nil one, which Equal tells apart."
  },
  {
   "property": "C29",
   "status": "proved",
   "theorems": [
    "C29_key_limit",
    "C29_key_encode",
    "C29_key_bytes_unique"
   ],
   "note": ""
  },
  {
   "property": "C30",
   "status": "partial",
   "theorems": [
    "C30_key_parse_panic_exact",
    "C30_key_parse_refuted",
    "C30_key_parse_safe_partial"
   ],
   "note": "False: huge counts or lengths panic. The exact set of panicking buffers is characterised."
  },
  {
   "property": "C31",
   "status": "partial",
   "theorems": [
    "C31_truncation_exact",
    "C31_truncation_partial",
    "C31_truncation_refuted"
   ],
   "note": "False: cuts between sub keys can be accepted, missing sub keys become empty. The exact set of accepted truncations is characterised."
  },
  {
   "property": "C32",
   "status": "proved",
   "theorems": [
    "C32_equal_exact",
    "C32_equal_equivalence",
    "C32_equal_nil"
   ],
   "note": ""
  },
  {
   "property": "C33",
   "status": "partial",
   "theorems": [
    "C33_compare_exact",
    "C33_compare_partial",
    "C33_compare_refuted"
   ],
   "note": "False: Compare panics when the argument is a proper prefix at either level. Exact behaviour characterised; correct in all other cases."
  },
  {
   "property": "C34",
   "status": "partial",
   "theorems": [
    "C34_history_exact",
    "C34_history_partial",
    "C34_history_refuted",
    "C34_flags_exact",
    "C34_est_exact"
   ],
   "note": "False: Add keeps the bytes of the last Encode. The exact history semantics is proved."
  },
  {
   "property": "C35",
   "status": "partial",
   "theorems": [
    "C35_mapped_buf_exact",
    "C35_mapped_buf_partial",
    "C35_mapped_buf_refuted"
   ],
   "note": "False when bytes follow the key: Buf is the whole buffer. Exact behaviour characterised."
  },
  {
   "property": "C36",
   "status": "proved",
   "theorems": [
    "C36_wire_format",
    "C36_roundtrip",
    "C36_unambiguous",
    "C36_covered",
    "C36_shape_exact",
    "C36_shape_covered"
   ],
   "note": ""
  },
  {
   "property": "C37",
   "status": "proved",
   "theorems": [
    "C37_parse_safe",
    "C37_parse_inside",
    "C37_parse_content"
   ],
   "note": ""
  },
  {
   "property": "C38",
   "status": "proved",
   "theorems": [
    "C38_locality",
    "C38_prefix_free"
   ],
   "note": ""
  },
  {
   "property": "C39",
   "status": "proved",
   "theorems": [
    "C39_order_independent",
    "C39_nested"
   ],
   "note": ""
  },
  {
   "property": "C40",
   "status": "partial",
   "theorems": [
    "C40_access_exact",
    "C40_failing_access_refuted",
    "C40_failing_record_refuted",
    "C40_out_of_range_partial"
   ],
   "note": "False of the code: a failed parse leaves a nil pointer in the cell, so the next ValueAt of the same index returns it without an error and later indices panic (C40_failing_access_refuted; the same for RecordAt). C40_access_exact gives the result of every call sequence on every parsed array; C40_out_of_range_partial proves the property for indices out of range and non-arrays."
  },
  {
   "property": "C41",
   "status": "proved",
   "theorems": [
    "C41_copy_construct",
    "C41_copy_construct_accessed",
    "C41_copy",
    "C41_record_copy",
    "C41_copy_succeeds",
    "C41_record_copy_construct"
   ],
   "note": ""
  },
  {
   "property": "C42",
   "status": "partial",
   "theorems": [
    "C42_history_exact",
    "C42_history_partial",
    "C42_history_refuted"
   ],
   "note": "Size is a uint16, so an array of 65536 elements reports size 0 (C42_history_refuted). C42_history_exact describes every history with sizes modulo 65536; C42_history_partial proves the property below 65536 elements."
  },
  {
   "property": "C43",
   "status": "partial",
   "theorems": [
    "C43_primitive_exact",
    "C43_key_exact",
    "C43_estimate_refuted",
    "C43_bound_partial",
    "C43_after_encode_partial",
    "C43_scheme_exact"
   ],
   "note": "False of the code for primitives of 1-127 and 256-32767 bytes (one byte short, C43_primitive_exact), for arrays, and for keys with 128 or more sub keys or a sub key of 128 bytes or more (C43_key_exact). C43_bound_partial bounds how much is missing; after Encode the estimate is exact."
  },
  {
   "property": "C44",
   "status": "partial",
   "theorems": [
    "C44_wire_format",
    "C44_record_roundtrip_refuted",
    "C44_hand_laid_partial",
    "C44_setters",
    "C44_setters_wire"
   ],
   "note": "False of the code for every record: C44_record_roundtrip_refuted proves that no encoded record parses back, whatever follows it. C44_hand_laid_partial is the half that works: a layout with an explicit empty key, which Encode never produces. C44_wire_format gives the exact encoding."
  },
  {
   "property": "C45",
   "status": "partial",
   "theorems": [
    "C45_unambiguous_refuted",
    "C45_unambiguous_partial",
    "C45_exact",
    "C45_covered"
   ],
   "note": "False for arrays with nil elements and for parsed keys with trailing bytes (C45_unambiguous_refuted). C45_unambiguous_partial proves it, with prefix-freeness, for constructed keys and values whose primitives are non-nil and whose arrays and record lists are non-empty, to any depth. C45_exact: with nil elements and empty arrays anywhere, encodings are equal exactly if the shapes are (a nil element is only counted, an empty array or record list inside another is an empty primitive), and none is a proper prefix of another; C45_covered: every record of constructed parts in range has a shape."
  },
  {
   "property": "C46",
   "status": "partial",
   "theorems": [
    "C46_record_panic_exact",
    "C46_record_safe_refuted",
    "C46_record_safe_partial"
   ],
   "note": "False of the code: C46_record_panic_exact gives exactly the buffers on which it panics; C46_record_safe_partial proves safety when the magic byte has the key, value and scheme bits and the key itself parses without a panic."
  },
  {
   "property": "C47",
   "status": "partial",
   "theorems": [
    "C47_signature_refuted",
    "C47_signature_exact",
    "C47_signature_partial"
   ],
   "note": "False without a timestamp (the signature is dropped) and for numbers outside [0, 2^256); C47_signature_exact and C47_signature_partial prove it with a timestamp and numbers in range."
  },
  {
   "property": "C48",
   "status": "partial",
   "theorems": [
    "C48_scheme_layout",
    "C48_scheme_roundtrip_refuted",
    "C48_scheme_unreadable",
    "C48_scheme_roundtrip_exact",
    "C48_scheme_roundtrip_partial",
    "C48_copied_scheme_roundtrip",
    "C48_scheme_injective"
   ],
   "note": "False: the encoder skips nil fields but writes no flag for them and the decoder reads all three fields unconditionally (scheme_util.go:161,170,179 test b|bit). Proved: exact layout, exact set of schemes that survive, round trip with domain and tablet present, round trip of copies of parsed schemes."
  },
  {
   "property": "C49",
   "status": "proved",
   "theorems": [
    "C49_ledger_roundtrip",
    "C49_ledger_order",
    "C49_mixed_times_error",
    "C49_ledger_bytes_injective"
   ],
   "note": ""
  },
  {
   "property": "C50",
   "status": "partial",
   "theorems": [
    "C50_raft_roundtrip_refuted",
    "C50_raft_bytes_exact",
    "C50_raft_parse_partial",
    "C50_raft_bytes_injective",
    "C50_parse_time_exact"
   ],
   "note": "False for every raft time: RaftTime.Buf writes the term over the magic byte. Proved: the bytes exactly, that no raft time parses back, that the parser reads the intended layout, and that parsing is exact and never panics."
  },
  {
   "property": "C51",
   "status": "partial",
   "theorems": [
    "C51_raft_lt_le_exact",
    "C51_raft_order_refuted",
    "C51_raft_gt_and_lt_together",
    "C51_raft_order_partial",
    "C51_raft_before_total_order"
   ],
   "note": "False: RaftTime.LT and LE repeat the same comparison in both branches. Proved: exact behaviour of LT and LE, GT/GE/EQ/NE are right, no false negatives of LT/LE."
  },
  {
   "property": "C52",
   "status": "partial",
   "theorems": [
    "C52_consensus_id_exact",
    "C52_never_panics_refuted",
    "C52_panics_exactly_on_empty",
    "C52_parse_copy_partial"
   ],
   "note": "False only for the empty buffer, where building the error message panics. Proved: exact parse on all other buffers, panic exactly on the empty one, copies identical."
  },
  {
   "property": "C53",
   "status": "proved",
   "theorems": [
    "C53_lookup_finds_members",
    "C53_finished_means_distinct"
   ],
   "note": "For every hash function, rearrangement of the buckets and mode, for fewer than 2^32 keys (indices are stored as uint32). Unequal keys are not a hypothesis: a finished build implies them."
  },
  {
   "property": "C54",
   "status": "proved",
   "theorems": [
    "C54_by_key_exact",
    "C54_by_hash_exact"
   ],
   "note": "Fewer than 2^32 keys. C54_by_hash_exact also says when a table verified by hash accepts a stranger."
  },
  {
   "property": "C55",
   "status": "partial",
   "theorems": [
    "C55_by_hash_roundtrip",
    "C55_by_key_roundtrip",
    "C55_nil_sub_key_refuted",
    "C55_stale_key_refuted"
   ],
   "note": "By hash: proved, for at most 2^31 keys (lengths are written as uint32). By key: parsing succeeds and consumes exactly the bytes for keys whose bytes describe their sub keys, and all answers agree exactly when no sub key is nil; refuted for nil sub keys and for keys extended after Encode."
  },
  {
   "property": "C56",
   "status": "partial",
   "theorems": [
    "C56_rearranged_sub_keys_diverge",
    "C56_terminates_refuted",
    "C56_cancelling_sub_keys_diverge",
    "C56_indistinct_exact",
    "C56_indistinct_diverge",
    "C56_seeds_exhausted",
    "C56_rich_terminates_partial",
    "C56_single_terminates_partial"
   ],
   "note": "False: keys are hashed by XOR of their sub keys, so two keys in which every content occurs with the same parity are never separated (exactly these, C56_indistinct_exact) and the build loops forever, for every hash function. Proved: termination when the seeds can realise every assignment of slots, and for a single key; 2^32 attempts decide."
  },
  {
   "property": "C57",
   "status": "partial",
   "theorems": [
    "C57_empty_table_refuted",
    "C57_parsed_table_refuted",
    "C57_built_partial",
    "C57_well_formed_partial",
    "C57_lookup_exact"
   ],
   "note": "False for tables built from no keys and for parsed tables (NewMPHTable checks no masks or indices). Proved for tables built from at least one key and for all tables with consistent masks and indices. C57_lookup_exact gives every outcome on every table."
  },
  {
   "property": "C58",
   "status": "partial",
   "theorems": [
    "C58_by_hash",
    "C58_by_key_exact",
    "C58_by_key_refuted"
   ],
   "note": "By hash: proved. By key: false in general, since Buf of a parsed key is the rest of the buffer; C58_by_key_exact says exactly when the bytes agree."
  },
  {
   "property": "C59",
   "status": "partial",
   "theorems": [
    "C59_plain_draws",
    "C59_unsigned_in_range",
    "C59_unsigned_onto",
    "C59_signed_in_range_refuted",
    "C59_signed_exact",
    "C59_signed_nonnegative_partial",
    "C59_empty_range_panics"
   ],
   "note": "Unsigned ranges: proved. Signed ranges: false for negative draws unless the reduction divides them; C59_signed_exact gives the exact condition."
  },
  {
   "property": "C60",
   "status": "partial",
   "theorems": [
    "C60_verify_seed_exact",
    "C60_verify_seed_refuted"
   ],
   "note": "False: 2^16 and 2^32-1 are XOR in Go, so the seed is always between 18 and 32."
  },
  {
   "property": "C61",
   "status": "partial",
   "theorems": [
    "C61_reachable_tries",
    "C61_exact",
    "C61_empty_key_partial",
    "C61_refuted"
   ],
   "note": "False of the code: GetChild asserts the type of a nil interface, so the first Get or Set of a non-empty key panics (C61_refuted). C61_exact says which histories return (those on the empty key only) and that they behave as a map; C61_empty_key_partial is the part that holds."
  },
  {
   "property": "C62",
   "status": "partial",
   "theorems": [
    "C62_iterators_refuted",
    "C62_key_iterator_refuted",
    "C62_encode_refuted",
    "C62_mapped_iterators_exact",
    "C62_has_next_inverted",
    "C62_peek_exact"
   ],
   "note": "False of the code: FullKey of the root adds its nil key and panics, so Iterator, RangeIterator and KeyIterator panic on every reachable trie, and Encode dereferences the nil parent of the root. For parsed tries and for the iterator states the exact behaviour is proved (HasNext is inverted)."
  },
  {
   "property": "C63",
   "status": "partial",
   "theorems": [
    "C63_panic_exact",
    "C63_accepts_exact",
    "C63_refuted",
    "C63_dummies_partial"
   ],
   "note": "False of the code: any complete node makes NewMappedTrie put a child into a nil map (C63_refuted). C63_panic_exact and C63_accepts_exact characterise panics and acceptance for all buffers; C63_dummies_partial is the part that holds."
  },
  {
   "property": "C64",
   "status": "proved",
   "theorems": [
    "C64_length",
    "C64_identity",
    "C64_last_16",
    "C64_short",
    "C64_valid_key"
   ],
   "note": ""
  },
  {
   "property": "C65",
   "status": "partial",
   "theorems": [
    "C65_refuted",
    "C65_short_partial",
    "C65_pkeygen_refuted",
    "C65_paddings_agree",
    "C65_exact",
    "C65_pkeygen_exact"
   ],
   "note": "False: longer passphrases sharing their last 16 bytes, and passphrases differing by trailing zero bytes, give one key (C65_refuted); C65_short_partial: injective on at most 16 bytes without trailing zero bytes. pkeygen keeps the first 16 bytes instead (C65_pkeygen_refuted)."
  },
  {
   "property": "C66",
   "status": "partial",
   "theorems": [
    "C66_roundtrip",
    "C66_save_succeeds",
    "C66_root_save",
    "C66_save_exact",
    "C66_others_untouched",
    "C66_refuted"
   ],
   "note": "Round trip proved for all ids and prior states whenever the save succeeds; other owners untouched for proper names. False for the ids \"\" and \".\", which name the same files (C66_refuted)."
  },
  {
   "property": "C67",
   "status": "proved",
   "theorems": [
    "C67_single_byte",
    "C67_burst",
    "C67_checksum",
    "C67_accepts_exact",
    "C67_crc32_unique",
    "C67_single_character"
   ],
   "note": "Also bursts of up to four bytes, any change of the checksum, and any change of one character of the text."
  },
  {
   "property": "C68",
   "status": "partial",
   "theorems": [
    "C68_key_data_exact",
    "C68_priv_exact",
    "C68_pub_exact",
    "C68_refuted",
    "C68_partial"
   ],
   "note": "False: exact panic conditions C68_key_data_exact, C68_pub_exact and C68_priv_exact (fewer than 4 decoded bytes; private keys also with fewer than 12 data bytes)."
  },
  {
   "property": "C69",
   "status": "partial",
   "theorems": [
    "C69_truncated_refuted",
    "C69_mixed_refuted",
    "C69_partial",
    "C69_torn",
    "C69_torn_exact",
    "C69_torn_refuted"
   ],
   "note": "False: a crash after truncation makes the next load panic (C69_truncated_refuted), a crash between the files leaves a mixed pair (C69_mixed_refuted), and a public key with four leading zeros torn after 8 characters loads as the key 0 (C69_torn_refuted). C69_partial: before the first write the old pair, after the last the new pair. C69_torn_exact: what loading makes of a file cut at any character."
  },
  {
   "property": "C70",
   "status": "partial",
   "theorems": [
    "C70_unknown_class",
    "C70_strings_distinct",
    "C70_files_partial",
    "C70_refuted",
    "C70_exact",
    "C70_same_exact",
    "C70_below_exact"
   ],
   "note": "As strings: proved (C70_strings_distinct), unknown classes panic. As files: false for \"\", \".\" and \"..\" (C70_refuted). C70_exact: where the path leads for every id; C70_same_exact: two ids without separators are one file exactly if equal or both \"\" or \".\"; C70_below_exact: only \"..\" leaves the directory; C70_files_partial: proper names."
  },
  {
   "property": "C71",
   "status": "partial",
   "theorems": [
    "C71_mod_sqrt",
    "C71_exact",
    "C71_partial",
    "C71_refuted"
   ],
   "note": "False: only X is stored, and the root that is itself a square is taken. C71_exact: the loaded Y is right exactly if Y is a square modulo p; C71_refuted: for every point, it or its inverse is lost. Rests on a proof (Pocklington) that p is prime."
  },
  {
   "property": "C72",
   "status": "partial",
   "theorems": [
    "C72_open_exact",
    "C72_panic_exact",
    "C72_refuted",
    "C72_checksums_partial"
   ],
   "note": "Refuted: a file holding only the version number panics (empty consensus id), and so does an offset table cut short (sstable.go:209-211 sets err without returning), and any hash table that panics (C76). Proved: the exact set of files that open and that panic, and that both checksums match whenever a file opens. The pdb package does not compile as it stands; the renaming used is in SSTableModel.v."
  },
  {
   "property": "C73",
   "status": "partial",
   "theorems": [
    "C73_copy_construct_exact",
    "C73_mapped_copy",
    "C73_copy_refuted"
   ],
   "note": "False for keys with an empty sub key (CopyConstruct panics). Exact condition proved."
  },
  {
   "property": "C74",
   "status": "partial",
   "theorems": [
    "C74_partial",
    "C74_refuted",
    "C74_padded",
    "C74_longer_refuted",
    "C74_exact"
   ],
   "note": "False: loading passes the passphrase itself as AES key while the generator pads it. C74_exact: a generated key loads exactly if the passphrase has 16, 24 or 32 bytes and as a key opens what its padded form sealed; C74_partial: passphrases of 16 bytes load; C74_refuted: every passphrase whose length is not 16, 24 or 32 fails; C74_longer_refuted: a failing one of 24 bytes; C74_padded: the padded passphrase always loads."
  },
  {
   "property": "C75",
   "status": "partial",
   "theorems": [
    "C75_exact",
    "C75_refuted",
    "C75_partial"
   ],
   "note": "False: Y is nil for an X without a point and X need not be reduced (C75_refuted). C75_exact says what is loaded for every file; C75_partial: an X of a point loads as a point."
  },
  {
   "property": "C76",
   "status": "partial",
   "theorems": [
    "C76_panic_exact",
    "C76_refuted",
    "C76_partial"
   ],
   "note": "Refuted: a table that keeps keys panics on a key header announcing a huge length (as C30). Proved: the exact panic condition, tables that keep hashes never panic, and a parsed table lies inside the buffer."
  },
  {
   "property": "C77",
   "status": "proved",
   "theorems": [
    "C77_encode_value",
    "C77_encode_record",
    "C77_encode_key"
   ],
   "note": "Links the heap model (shared objects and memory) with the models of plain values used by the other theorems."
  },
  {
   "property": "C78",
   "status": "partial",
   "theorems": [
    "C78_refuted",
    "C78_exact",
    "C78_value_partial",
    "C78_record_partial"
   ],
   "note": "False: changing a part, writing to the bytes, or Key.Add after Encode leave a stale buffer with IsEncoded true (C78_refuted). C78_exact: the buffer is always the encoding at some earlier Encode call. C78_value_partial and C78_record_partial: up to date as long as nothing below is changed."
  },
  {
   "property": "C79",
   "status": "partial",
   "theorems": [
    "C79_value_exact",
    "C79_record_exact",
    "C79_refuted",
    "C79_value_partial",
    "C79_record_partial",
    "C79_parsed_settled"
   ],
   "note": "False for keys: a copied key shares its sub-key bytes (C79_refuted). Proved: contents equal, no shared objects, no other shared memory, and independence under all later histories that do not write sub-key bytes."
  },
  {
   "property": "C80",
   "status": "partial",
   "theorems": [
    "C80_exact",
    "C80_refuted",
    "C80_partial"
   ],
   "note": "False: an array can be appended to itself (C80_refuted). C80_exact says when Encode succeeds; C80_partial: it returns on all finite contents."
  },
  {
   "property": "C81",
   "status": "partial",
   "theorems": [
    "C81_exact",
    "C81_refuted",
    "C81_partial"
   ],
   "note": "False with nil pointers: a nil pointer of the receiver's own type as argument panics, and a nil pointer is not equal to itself (C81_refuted). C81_exact is the complete answer for every pair; C81_partial: an equivalence without nil pointers."
  },
  {
   "property": "C82",
   "status": "partial",
   "theorems": [
    "C82_exact",
    "C82_nil_exact",
    "C82_list_exact",
    "C82_refuted",
    "C82_partial"
   ],
   "note": "False: a longer list on the left of its own prefix panics, as do different types; a nil slice is not 0 against itself (C82_refuted). C82_exact, C82_nil_exact and C82_list_exact give every outcome; C82_partial: order laws on values without nil."
  },
  {
   "property": "C83",
   "status": "partial",
   "theorems": [
    "C83_rounding",
    "C83_partial",
    "C83_exact",
    "C83_refuted",
    "C83_settings",
    "C83_history",
    "C83_panic_exact",
    "C83_growth_refuted"
   ],
   "note": "False: the first call panics exactly when the capacity is a positive multiple of 2^32 (C83_exact, C83_refuted), and growing can lead there too (C83_growth_refuted: 2^31 slots, load factor 1/2, multiplier 2). For all capacities, settings and histories: the calls that return answer as a map (C83_history), and the next call panics exactly if it has to take a remainder by a multiple of 2^32 (C83_panic_exact). C83_partial: no panic for capacities below 2^32 and fewer than 2^28 calls, if int(NaN) is below 2^32. C83_rounding: the rounding used is to nearest. Nothing else is missing."
  },
  {
   "property": "C84",
   "status": "partial",
   "theorems": [
    "C84_partial",
    "C84_refuted",
    "C84_nan_refuted",
    "C84_history_partial"
   ],
   "note": "False with a NaN load factor or a NaN multiplier: the size grows without bound over a bounded number of slots, whatever int(NaN) is (C84_nan_refuted; C84_refuted with 10 slots). C84_history_partial: settings that are not NaN, every capacity and every history whose calls return; exact below 2^24 slots and up to a factor 1 - 2^-22 beyond. C84_partial: the calls do return for capacities below 2^32 and fewer than 2^28 calls."
  },
  {
   "property": "C85",
   "status": "proved",
   "theorems": [
    "C85_linked_maps_history",
    "C85_byte_slices",
    "C85_memory"
   ],
   "note": ""
  },
  {
   "property": "C86",
   "status": "proved",
   "theorems": [
    "C86_byte_slices",
    "C86_one_sided_keys",
    "C86_any_keys",
    "C86_damage_happens"
   ],
   "note": "C86_byte_slices is the claim. C86_one_sided_keys: the same for all keys whose Compare panics only if the receiver is the larger. C86_any_keys: for any Equal and Compare at all, calls end, a failed Put, Get or Size changes nothing, a failed Remove at most replaces one entry by a copy of its neighbour; C86_damage_happens shows that it can."
  },
  {
   "property": "C87",
   "status": "proved",
   "theorems": [
    "C87_iterator_survives"
   ],
   "note": ""
  },
  {
   "property": "C88",
   "status": "partial",
   "theorems": [
    "C88_lost_refuted",
    "C88_twice_refuted",
    "C88_drain_refuted",
    "C88_range_refuted",
    "C88_same_keys_partial",
    "C88_bounds_partial"
   ],
   "note": "False: an entry is lost, shown twice or the iteration ends early (C88_lost_refuted, C88_twice_refuted, C88_drain_refuted); a start is not respected (C88_range_refuted). C88_same_keys_partial: while the set of keys stays the same an iterator without bounds shows exactly the entries, in order, with current values. C88_bounds_partial: the same for iterators with a start or an end, by the rule of C13."
  },
  {
   "property": "C89",
   "status": "partial",
   "theorems": [
    "C89_call_exact",
    "C89_slice_reads",
    "C89_returns_exact",
    "C89_delete_partial",
    "C89_delete_refuted"
   ],
   "note": "C89_call_exact, C89_slice_reads and C89_returns_exact are the claim but for DeleteAt on 2^16 or more elements: it compares the index with the number of elements modulo 2^16 and panics on every index of an array with 2^16 elements (C89_delete_refuted); C89_delete_partial: exact below."
  },
  {
   "property": "C90",
   "status": "partial",
   "theorems": [
    "C90_decode_exact",
    "C90_accessors_exact",
    "C90_decoded_partial",
    "C90_failed_decode_refuted"
   ],
   "note": "C90_decode_exact and C90_accessors_exact give the exact behaviour. The claim is false after a second Decode that fails: decoded stays true and the fields are a mixture (C90_failed_decode_refuted, C90_failed_decode_shows). C90_decoded_partial: it holds from a successful Decode until the client writes to a byte of a field, replaces a bucket or decodes again."
  },
  {
   "property": "C91",
   "status": "partial",
   "theorems": [
    "C91_copy_exact",
    "C91_undisturbed_partial",
    "C91_buckets_independent",
    "C91_encode_exact",
    "C91_deep_copy_refuted"
   ],
   "note": "Copy shares the bytes of domain, tablet and buckets with its source: a write to the buffer changes the copy (C91_deep_copy_refuted). C91_copy_exact, C91_buckets_independent, C91_encode_exact and C91_undisturbed_partial: all the rest holds, for every history that does not write to bytes of the fields."
  },
  {
   "property": "C92",
   "status": "partial",
   "theorems": [
    "C92_call_exact",
    "C92_children_partial",
    "C92_absent_child_refuted",
    "C92_full_key_refuted",
    "C92_call_any_partial",
    "C92_no_clash_partial",
    "C92_prefix_keys_refuted"
   ],
   "note": "C92_call_exact gives the effect of every node call in every history; C92_children_partial: a put child is found and other keys are not affected. False for absent keys, where GetChild panics (C92_absent_child_refuted), and for FullKey, which panics for every node (C92_full_key_refuted). Keys of which one is a prefix of another: C92_call_any_partial and C92_no_clash_partial (as usual, or a panic that changes nothing and only when a child key extends the key of the call); C92_prefix_keys_refuted: a child that GetChild returned panics after a third child was put."
  },
  {
   "property": "C93",
   "status": "partial",
   "theorems": [
    "C93_get_exact",
    "C93_set_exact",
    "C93_set_contents_partial",
    "C93_remove_exact",
    "C93_refuted",
    "C93_get_any",
    "C93_set_any",
    "C93_remove_any"
   ],
   "note": "C93_get_exact, C93_set_exact and C93_remove_exact give every outcome. False: removing a key also loses all entries below it, removing the last entry panics, and a key without node panics in Get and Set (C93_refuted). C93_set_contents_partial: Set of a value on an existing node changes that entry only. C93_get_any, C93_set_any and C93_remove_any: the same for any non-nil sub keys, with a further panic where a sub key is a proper prefix of a child key on the path."
  },
  {
   "property": "C94",
   "status": "partial",
   "theorems": [
    "C94_call_exact",
    "C94_reads_total",
    "C94_key_value_refuted",
    "C94_error_dropped_refuted",
    "C94_written_node_refuted",
    "C94_empty_node_partial"
   ],
   "note": "C94_call_exact gives the effect of every call for every buffer (C94_reads_total). False: no parsed node ever shows a key or a value (C94_key_value_refuted), errors are dropped (C94_error_dropped_refuted), and what Encode writes is not read (C94_written_node_refuted). C94_empty_node_partial: empty nodes are parsed."
  },
  {
   "property": "C95",
   "status": "partial",
   "theorems": [
    "C95_node_copy_exact",
    "C95_independent_partial",
    "C95_node_copy_refuted",
    "C95_mapped_copy_refuted",
    "C95_trie_copy_refuted"
   ],
   "note": "False: the children are shared and keep the original as parent (C95_node_copy_refuted), a copy of a parsed node takes the place of the original (C95_mapped_copy_refuted), the copy of a trie is empty (C95_trie_copy_refuted). C95_node_copy_exact and C95_independent_partial: a copied node has the same fields and is not changed by calls on other nodes."
  },
  {
   "property": "C96",
   "status": "partial",
   "theorems": [
    "C96_windows_exact",
    "C96_parse_exact",
    "C96_only_writes",
    "C96_refuted",
    "C96_broken_element_refuted",
    "C96_out_of_range",
    "C96_untouched_partial"
   ],
   "note": "C96_windows_exact: what an object answers after any history, as places in the buffer fixed at the parse; C96_only_writes: no call changes a byte. False when the caller writes into the buffer: elements handed out, and the value of a record but not its timestamp, change (C96_refuted). False also without writes: an element that cannot be read is an error once, then nil, and those after it panic (C96_broken_element_refuted). C96_out_of_range: indexes past the end are errors in every state. C96_untouched_partial: full statement for the elements that can be read, for every history that writes nothing into the window parsed."
  },
  {
   "property": "C97",
   "status": "partial",
   "theorems": [
    "C97_copy_exact",
    "C97_key_shares_refuted",
    "C97_record_copy_refuted",
    "C97_overwritten_refuted",
    "C97_value_copy_partial"
   ],
   "note": "C97_copy_exact: every outcome of Copy of values and records and the independence of the copy. False: a copied key shares its memory (C97_key_shares_refuted), Copy panics for some records just parsed (C97_record_copy_refuted) and for overwritten buffers (C97_overwritten_refuted). C97_value_copy_partial: values not overwritten can always be copied."
  },
  {
   "property": "C98",
   "status": "partial",
   "theorems": [
    "C98_nodes_membership",
    "C98_nodes_order",
    "C98_whole_exact",
    "C98_from_exact",
    "C98_refuted",
    "C98_partial"
   ],
   "note": "C98_whole_exact and C98_from_exact give all answers of an iterator over the whole trie or from a node; C98_nodes_membership and C98_nodes_order say what is in that list. False: HasNext says the opposite, and a node two levels below the root is refused (C98_refuted). C98_partial: calls of Next from the root or a child of it show every node below once, in key order, then nothing. Sub keys of which one is a prefix of another are left out (C16)."
  },
  {
   "property": "C99",
   "status": "partial",
   "theorems": [
    "C99_range_exact",
    "C99_refuted",
    "C99_partial"
   ],
   "note": "C99_range_exact gives every answer for all tries and bounds. False: without end the iterator hangs after the first node at level two that has no successor there, an end that is not in the trie does not end the range, a start other than the first key panics, and a trie with only a root never ends (C99_refuted). C99_partial: the full statement for ranges that start with the root or its first child, end with a node of the trie, and have no node before the end that is deeper than the end. Sub keys of which one is a prefix of another are left out (C16)."
  },
  {
   "property": "C100",
   "status": "partial",
   "theorems": [
    "C100_run_exact",
    "C100_alias_partial",
    "C100_rotate_partial",
    "C100_refuted"
   ],
   "note": "False: an alias that is a link to a directory that is gone, or a directory that is not empty, is not replaced even with force; the key is stored and the run fails (C100_refuted, C100_run_exact). C100_run_exact gives every outcome for plain aliases; C100_alias_partial: after a run that ends well the key loads under both names; C100_rotate_partial: new aliases and links to the directory of another key. Aliases with slashes are left to C101."
  },
  {
   "property": "C101",
   "status": "partial",
   "theorems": [
    "C101_declined",
    "C101_refused_phrase",
    "C101_class_flag",
    "C101_untouched_partial",
    "C101_slash_alias",
    "C101_refuted",
    "C101_in_the_way",
    "C101_dangling_dir"
   ],
   "note": "C101_declined, C101_refused_phrase: for every file system and alias; C101_class_flag: the names of classes. False for aliases with a slash: the alias other/node_id deletes the private key of another key and the run ends well (C101_slash_alias, C101_refuted). C101_untouched_partial: the full statement for plain aliases."
  },
  {
   "property": "C102",
   "status": "partial",
   "theorems": [
    "C102_one_kind_exact",
    "C102_kind_survives_partial",
    "C102_magic",
    "C102_empty_exact",
    "C102_nil_exact",
    "C102_simple_exact",
    "C102_not_encoded",
    "C102_refuted"
   ],
   "note": "C102_one_kind_exact, C102_empty_exact, C102_nil_exact, C102_simple_exact, C102_magic and C102_not_encoded say for every value what holds. False: an empty array or record list has two kinds and parses back as a nil primitive; the buffer of a nil primitive does not parse; length-prefixed values have another format; ValueMagic of a value that is not encoded panics (C102_refuted). C102_kind_survives_partial: the full statement for all other values."
  },
  {
   "property": "C103",
   "status": "partial",
   "theorems": [
    "C103_value_exact",
    "C103_value_shows_exact",
    "C103_value_first",
    "C103_elements_exact",
    "C103_value_again",
    "C103_value_sticky",
    "C103_value_window",
    "C103_simple_exact",
    "C103_simple_again",
    "C103_simple_first",
    "C103_key_first",
    "C103_key_exact",
    "C103_key_again",
    "C103_refuted"
   ],
   "note": "C103_value_exact, C103_simple_exact and C103_key_exact give the outcome of every Decode; C103_value_shows_exact says when a value shows what a new parse shows. False: array and record counts of the earlier bytes stay (C103_value_sticky), a Decode that fails changes Size or loses sub keys, and IsDecoded of a parsed key is false (C103_refuted). C103_simple_exact is the full statement for length-prefixed values."
  },
  {
   "property": "C104",
   "status": "partial",
   "theorems": [
    "C104_record_exact",
    "C104_record_shows_exact",
    "C104_record_again_partial",
    "C104_refuted"
   ],
   "note": "C104_record_exact gives the outcome of every Decode; C104_record_shows_exact says when the record shows what a new parse shows. False: the timestamp and signature of the earlier bytes stay, a Decode that fails leaves new parts beside old ones, and some parsed records cannot be decoded again (C104_refuted). C104_record_again_partial: records whose empty key is written as one byte."
  },
  {
   "property": "C105",
   "status": "partial",
   "theorems": [
    "C105_keys_one_sided",
    "C105_calls_exact",
    "C105_history_partial",
    "C105_iteration_partial",
    "C105_refuted"
   ],
   "note": "False where one key of the map is a proper prefix of another or is empty: such calls panic or not depending on the balance of the tree (C105_refuted). C105_calls_exact: a call that returns gives the right answer, a call that panics leaves the map as it was, and a call whose key is apart from all keys held returns. C105_history_partial and C105_iteration_partial: right answers and order throughout for keys none of which is a proper prefix of another, for example keys of one shape."
  },
  {
   "property": "C106",
   "status": "partial",
   "theorems": [
    "C106_hash_partial",
    "C106_sorted_partial",
    "C106_hash_any",
    "C106_sorted_any",
    "C106_default_hash_any",
    "C106_hash_refuted",
    "C106_sorted_refuted",
    "C106_sorted_others_refuted",
    "C106_sorted_twice_refuted"
   ],
   "note": "False for every hash function and order: a key changed after Put is no longer found under its old content (C106_hash_refuted, C106_sorted_refuted); a sorted map then also loses keys that were not changed (C106_sorted_others_refuted) and Remove can leave an entry twice (C106_sorted_twice_refuted). C106_hash_partial and C106_sorted_partial: all answers are right if no object is changed while it is a key of the map. C106_hash_any, C106_default_hash_any and C106_sorted_any: whatever is changed, all calls return, a value is only answered for a key object equal now that was put with it, the tree stays balanced, and a hash map is right about every content no changed key had."
  },
  {
   "property": "C107",
   "status": "partial",
   "theorems": [
    "C107_numbers",
    "C107_padding",
    "C107_tree_lines",
    "C107_tree_history",
    "C107_hash_lines",
    "C107_hash_history",
    "C107_too_wide",
    "C107_wide_refuted"
   ],
   "note": "False for indents that come to more than 10000009: fmt refuses the width and everything is written on one line without returns (C107_too_wide, C107_wide_refuted). Up to that width the exact lines are given for every tree and table (C107_tree_lines, C107_hash_lines) and after every history every entry held has exactly one line (C107_tree_history, C107_hash_history)."
  },
  {
   "property": "C108",
   "status": "partial",
   "theorems": [
    "C108_empty_key_partial",
    "C108_key_print",
    "C108_key_indent",
    "C108_key_text",
    "C108_keys_refuted",
    "C108_hexadecimal",
    "C108_decimal_bytes",
    "C108_trie_text",
    "C108_node_print",
    "C108_trie_print",
    "C108_tries_refuted"
   ],
   "note": "False: ToString of every Key and MappedKey contains returns and their Print ignores the indent (C108_keys_refuted, C108_key_indent); Print of a trie writes fmt's complaint about its format, children are not separated by returns, and parsed tries cannot be shown at all: ToString and Print panic (C108_tries_refuted). C108_empty_key_partial: EmptyKey is one line. Exact texts: C108_key_print, C108_key_text, C108_node_print, C108_trie_print; ToString of constructed tries and nodes is one line (C108_trie_text)."
  },
  {
   "property": "C109",
   "status": "partial",
   "theorems": [
    "C109_ledger",
    "C109_after_encode",
    "C109_failed_encode",
    "C109_goes_on",
    "C109_encode_keeps",
    "C109_adds_up_partial",
    "C109_adds_up_refuted"
   ],
   "note": "False: an array, list or record does not learn of changes, Encode or later growth of what it holds; a copy counts none of its elements and after deletions is in debt, which hides later appends; Encode leaves the estimate of a record list as it was (C109_adds_up_refuted). C109_ledger: the exact answer for every object after every history, from a ledger of the calls. C109_adds_up_partial: the sums are right in histories without Encode and Copy in which nothing is changed after it was put into something else. C109_after_encode, C109_encode_keeps: what Encode does to the estimates."
  },
  {
   "property": "C110",
   "status": "partial",
   "theorems": [
    "C110_contents",
    "C110_contents_unique",
    "C110_own_memory",
    "C110_independent_partial",
    "C110_key_exact",
    "C110_panic_or_copy",
    "C110_key_shares_refuted",
    "C110_empty_sub_key_refuted",
    "C110_unreadable_refuted"
   ],
   "note": "False of keys and of what cannot be copied: the copy of a key shares the bytes of the sub keys with the buffer of the original for ever (C110_key_exact, C110_key_shares_refuted); a key with an empty sub key panics (C110_empty_sub_key_refuted); an array with an unreadable element gives an error once and panics afterwards, and a record with such a value panics at once (C110_unreadable_refuted). C110_contents: for everything else the copy has exactly the contents of the bytes, CopyConstruct always returns, and it writes nothing. C110_own_memory: the bytes of a copy are in new buffers, one per value. C110_independent_partial: copies of values and records keep their contents through any later calls and writes outside their own buffers. Missing: independence of copies of keys (false), and an error instead of a panic (false)."
  },
  {
   "property": "C111",
   "status": "partial",
   "theorems": [
    "C111_exact",
    "C111_protocol_partial",
    "C111_lists_partial",
    "C111_mapped_key_refuted",
    "C111_empty_key_refuted",
    "C111_stale_refuted",
    "C111_trie_refuted",
    "C111_trie_node_refuted",
    "C111_mapped_scheme_refuted",
    "C111_new",
    "C111_failed_copies",
    "C111_failed_work",
    "C111_updates"
   ],
   "note": "False of ten of the sixteen types; C111_exact: which type can be made to break which clause, and that no other can. MappedKey.IsDecoded always answers the opposite and Encode is not refused (C111_mapped_key_refuted); EmptyKey refuses neither Encode nor Decode (C111_empty_key_refuted); a Key or TrieNode that was encoded says so for ever, also after changes (C111_stale_refuted); a Trie never encodes and its copies are mapped (C111_trie_refuted); a parsed trie node does not count as decoded (C111_trie_node_refuted); a MappedScheme is copied to a Scheme (C111_mapped_scheme_refuted). C111_new, C111_failed_copies, C111_failed_work, C111_updates: what every call answers when the contents do not allow it, and which types take updates. C111_protocol_partial: all clauses for parsed and primitive values, records and Scheme; C111_lists_partial: and for arrays and record lists that do not begin as zero values."
  },
  {
   "property": "C112",
   "status": "partial",
   "theorems": [
    "C112_trimmed_one",
    "C112_exact",
    "C112_no_space_around",
    "C112_terminal_partial",
    "C112_lost",
    "C112_lines_refuted",
    "C112_next_reader_refuted"
   ],
   "note": "False of input that arrives in reads longer than a line, as from a pipe or file: each call makes a reader of its own and drops what it has read after the newline, so that the second question gets an empty answer and a passphrase that follows is lost (C112_lines_refuted, C112_next_reader_refuted). C112_exact: what one call prints, reads and returns; C112_trimmed_one: the trimmed text is one text, for all of Unicode's white space; C112_no_space_around; C112_lost: exactly which bytes are lost. C112_terminal_partial: the whole statement if no read goes beyond a newline, as at a terminal. Missing: all other inputs (false)."
  },
  {
   "property": "C113",
   "status": "partial",
   "theorems": [
    "C113_exact",
    "C113_errors",
    "C113_error_changes_nothing",
    "C113_opened_once",
    "C113_once_partial",
    "C113_log_refuted",
    "C113_back_to_file_refuted"
   ],
   "note": "False after a second call of LCSetLoggerFileTmp: it returns no error and sets a nil file, and every line after it is lost (C113_log_refuted, C113_back_to_file_refuted for every history). C113_exact: what arrives after any calls; C113_errors, C113_error_changes_nothing, C113_opened_once. C113_once_partial: the whole statement if the call is not made again after it succeeded. Missing: the other histories (false)."
  },
  {
   "property": "C114",
   "status": "partial",
   "theorems": [
    "C114_roundtrip",
    "C114_succeeds_partial",
    "C114_prompt_exact",
    "C114_refused",
    "C114_refuted",
    "C114_exists_exact"
   ],
   "note": "False of every passphrase that has not 16, 24 or 32 bytes, although the prompt accepts all of 8 bytes and more: the save is refused on every file system and the key files stay as they were (C114_refused, C114_refuted). C114_roundtrip: if a save succeeds, the rest of the statement holds. C114_succeeds_partial: passphrases of 16, 24 and 32 bytes on an empty file system. C114_exists_exact: when the two tests answer true. Missing: the other passphrases (false); for other file systems see C66_save_exact."
  },
  {
   "property": "C115",
   "status": "proved",
   "theorems": [
    "C115_sbox",
    "C115_aes",
    "C115_aes_vectors",
    "C115_seal",
    "C115_seal_vectors",
    "C115_open",
    "C115_private_file",
    "C115_public_file",
    "C115_saved"
   ],
   "note": "C115_sbox, C115_aes: the block function modelled is AES as FIPS 197 describes it (S-box by inverse and affine map, rows, columns and key expansion by their equations), for all keys and blocks; C115_seal and C115_open: sealing and opening are GCM as SP 800-38D describes it, in both directions; C115_private_file, C115_public_file, C115_saved: the files. The test vectors of both standards are computed (C115_aes_vectors, C115_seal_vectors). That crypto/aes and crypto/cipher implement the standards is trusted."
  },
  {
   "property": "C116",
   "status": "partial",
   "theorems": [
    "C116_group",
    "C116_order",
    "C116_verify_exact",
    "C116_sign",
    "C116_sign_verify",
    "C116_loaded_exact",
    "C116_loaded_partial",
    "C116_loaded_refuted"
   ],
   "note": "Proved for pairs in memory: C116_group (P-256 is a commutative group under the addition modelled), C116_order (N is prime and the order of the base point), C116_verify_exact (which signatures are accepted with the key of d, in both directions), C116_sign, C116_sign_verify. False for pairs that were saved and loaded: the file keeps X only, and the loaded public key is that of N - d exactly if Y is not a square (C116_loaded_exact); for every such pair and every number drawn there is a hash whose signature is rejected (C116_loaded_refuted). C116_loaded_partial: pairs whose Y is a square. Missing: the other half of the loaded pairs (false). That crypto/ecdsa implements the standard is trusted; the base point at infinity as a public key is not modelled as the library writes it."
  },
  {
   "property": "C117",
   "status": "partial",
   "theorems": [
    "C117_exact",
    "C117_refuted",
    "C117_partial"
   ],
   "note": "False: (r, N - s) is accepted with (r, s); bytes after the 32nd are ignored and leading zeroes of shorter hashes too (C117_refuted, for every signature). C117_exact: all hashes for which a signature is accepted. C117_partial: among hashes of 32 bytes below N, only the one signed, if r is at least P - N and the hash is not the opposite one. Missing: the excluded cases (the first two kinds are false; whether points with X coordinates that differ by N exist for a given signature is not decided)."
  },
  {
   "property": "C118",
   "status": "proved",
   "theorems": [
    "C118_built",
    "C118_built_record",
    "C118_record_list",
    "C118_parsed_record_exact"
   ],
   "note": "C118_built and C118_built_record: constructed parts only, no empty sub key (Key.Add accepts none). C118_record_list: parsed lists. Independence of such copies from parsed originals is C110."
  },
  {
   "property": "C119",
   "status": "proved",
   "theorems": [
    "C119_constants",
    "C119_lengths",
    "C119_sha256",
    "C119_md5",
    "C119_double",
    "C119_vectors",
    "C119_collision",
    "C119_double_collision",
    "C119_md5_collision"
   ],
   "note": "C119_sha256, C119_double and C119_md5 are equivalences with the standards as written in DigestSpec.v; the constants of SHA-256 are proved to be the roots of the first primes (C119_constants), those of MD5 (from the sine) are taken as the table."
  },
  {
   "property": "C120",
   "status": "partial",
   "theorems": [
    "C120_walk",
    "C120_exact",
    "C120_places",
    "C120_distinct_partial",
    "C120_key_files_partial",
    "C120_below_partial",
    "C120_refuted"
   ],
   "note": "False as stated (C120_refuted): the domain \"..\" is the library directory of the node, the node \"..\" leaves the directory for nodes, and a domain with separators can be the transaction log or a domain of another node. C120_exact says for all names where each path leads; C120_distinct_partial, C120_below_partial and C120_key_files_partial hold for proper names (no separator, not empty, not \".\" or \"..\")."
  },
  {
   "property": "C121",
   "status": "partial",
   "theorems": [
    "C121_min_exact",
    "C121_max_exact",
    "C121_uint_exact",
    "C121_uint_refuted",
    "C121_seed",
    "C121_seed_one_to_one"
   ],
   "note": "True for all types but uint (C121_min_exact, C121_max_exact), and for seeds (C121_seed, C121_seed_one_to_one). False for uint: MinUnt and MaxUint take int, so with one number from 2^63 on they return the wrong one (C121_uint_refuted); C121_uint_exact: right exactly if both or neither have the highest bit."
  },
  {
   "property": "C122",
   "status": "proved",
   "theorems": [
    "C122_durable",
    "C122_zeros",
    "C122_written",
    "C122_write_exact",
    "C122_others",
    "C122_panic_exact",
    "C122_closed",
    "C122_crash_zeros",
    "C122_unsynced"
   ],
   "note": "C122_durable: whatever is called after Sync, a crash leaves at least what the file had; C122_crash_zeros: and then only zero bytes; C122_unsynced: before a Sync the old content can come back; C122_zeros and C122_written: the content; C122_write_exact: one Write, also a failed one; C122_others: files that are not opened; C122_panic_exact: when calls panic; C122_closed: after Close. That the name of a new file survives a crash is not modelled."
  }
 ]
}
