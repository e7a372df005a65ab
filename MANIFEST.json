{
 "claims": [
  {
   "property": "C01",
   "status": "proved",
   "theorems": [
    "C01_exactly_one_place",
    "C01_fill",
    "C01_Bin",
    "C01_Bin_gap_panics_refuted"
   ],
   "note": "Bin(x) panics for x in a gap between bins; NaN is counted as overflow."
  },
  {
   "property": "C02",
   "status": "proved",
   "theorems": [
    "C02_fill_history"
   ],
   "note": "Holds for any arithmetic; int64 counter overflow not modelled."
  },
  {
   "property": "C03",
   "status": "proved",
   "theorems": [
    "C03_FromEdges_panics",
    "C03_FromEdges",
    "C03_FromBins",
    "C03_FromEdges_accepts_NaN_refuted"
   ],
   "note": "NaN edges at the front are accepted by NewH1DFromEdges."
  },
  {
   "property": "C04",
   "status": "proved",
   "theorems": [
    "C04_add_scaled",
    "C04_add",
    "C04_sub",
    "C04_add_checks_binning_refuted"
   ],
   "note": "Any commutative ring. AddH1D does not compare inner edges."
  },
  {
   "property": "C05",
   "status": "proved",
   "theorems": [
    "C05_scale",
    "C05_integral0",
    "C05_integral2",
    "C05_integral_full"
   ],
   "note": "Any commutative ring."
  },
  {
   "property": "C06",
   "status": "proved",
   "theorems": [
    "C06_H2D_history",
    "C06_H2D_accepts"
   ],
   "note": ""
  },
  {
   "property": "C07",
   "status": "proved",
   "theorems": [
    "C07_Filter",
    "C07_Take",
    "C07_Resize",
    "C07_Resize_negative",
    "C07_Map",
    "C07_Find"
   ],
   "note": "Memory model with aliasing; elements between the old length and n within capacity keep stale storage in Resize. Index slices of Take/Find in separate memory."
  },
  {
   "property": "C08",
   "status": "proved",
   "theorems": [
    "C08_round_trip",
    "C08_whole_buffer",
    "C08_nul_string_refuted",
    "C08_empty_strings_refuted"
   ],
   "note": "Strings starting with a NUL byte and arrays of empty strings at the end of a buffer are the exceptions (refuted by witnesses, excluded by hypotheses)."
  },
  {
   "property": "C09",
   "status": "proved",
   "theorems": [
    "C09_header",
    "C09_oversize_refuted"
   ],
   "note": "Payload bound 2^30-2 as in the property; beyond it the byte count is silently wrong."
  },
  {
   "property": "C10",
   "status": "partial",
   "theorems": [
    "C10_nbits_close_partial",
    "C10_nbits_behaviour",
    "C10_nbits_refuted",
    "C10_range_partial"
   ],
   "note": "The property is false of the code (operator precedence in the mantissa rounding); the exact decoded value is characterised and closeness proved for the inputs where it holds. Range (min/max factor) encoding proved on the integer quantisation step only."
  },
  {
   "property": "C11",
   "status": "partial",
   "theorems": [
    "C11_free_bytes",
    "C11_disjoint_partial",
    "C11_add_disjoint_partial",
    "C11_disjoint_refuted",
    "C11_returned",
    "C11_best"
   ],
   "note": "The set of free bytes is exact for every history; segments are disjoint and non adjacent when no byte is released twice. A release spanning two free segments leaves overlapping segments (refuted witness)."
  },
  {
   "property": "C12",
   "status": "proved",
   "theorems": [
    "C12_round_trip",
    "C12_far_key",
    "C12_advertised_length",
    "C12_long_name_refuted"
   ],
   "note": "Key lengths of 32768 bytes and more are truncated on file (refuted witness); strings starting with NUL excluded (C08)."
  },
  {
   "property": "C13",
   "status": "proved",
   "theorems": [
    "C13_round_trip",
    "C13_order",
    "C13_unpack_pack",
    "C13_early",
    "C13_late_refuted"
   ],
   "note": "time.Date normalisation of out-of-range fields not modelled."
  },
  {
   "property": "C14",
   "status": "proved",
   "theorems": [
    "C14_encode_decode",
    "C14_plain",
    "C14_cycle_text",
    "C14_two_separators",
    "C14_wrap_refuted"
   ],
   "note": ""
  },
  {
   "property": "C15",
   "status": "partial",
   "theorems": [
    "C15_get",
    "C15_cycles",
    "C15_refused",
    "C15_accepted",
    "C15_slash_refuted",
    "C15_go_class_refuted",
    "C15_semicolon_refuted",
    "C15_9999_refuted"
   ],
   "note": "Proved for names without ';' and cycles other than 9999; '/' in the object's own name is accepted, a Go-style class name cannot be put twice (refuted witnesses)."
  },
  {
   "property": "C47",
   "status": "proved",
   "theorems": [
    "C47_space",
    "C47_marker",
    "C47_bigfile_refuted"
   ],
   "note": "Past 2e9 bytes giving back the last record makes every later placement fail (refuted witness)."
  },
  {
   "property": "C48",
   "status": "proved",
   "theorems": [
    "C48_segments"
   ],
   "note": ""
  },
  {
   "property": "C49",
   "status": "proved",
   "theorems": [
    "C49_keys",
    "C49_header"
   ],
   "note": ""
  },
  {
   "property": "C16",
   "status": "partial",
   "theorems": [
    "C16_round_trip",
    "C16_total",
    "C16_stored",
    "C16_load_partial",
    "C16_load_refuted",
    "C16_truncation_refuted",
    "C16_incompressible_refuted",
    "C16_lz4_refuted"
   ],
   "note": "Round trip proved for any number of blocks and any library meeting its contract, when no block loses its end unnoticed or every block shrinks. Refuted in general: a framed payload of the original size is loaded as raw; a cut last write goes unnoticed; incompressible payloads fail or panic instead of being stored."
  },
  {
   "property": "C17",
   "status": "partial",
   "theorems": [
    "C17_round_trip",
    "C17_repack",
    "C17_normal",
    "C17_refuted"
   ],
   "note": "Inverse for all levels 0..99 except zstd level 9 (refuted), negative levels other than -1 corrupt the algorithm (refuted)."
  },
  {
   "property": "C18",
   "status": "partial",
   "theorems": [
    "C18_partition_partial",
    "C18_total",
    "C18_total_refuted",
    "C18_flush_refuted"
   ],
   "note": "Partition and read back proved for every history that does not panic; no panic when entries have a fixed size or at most entryOffsetLen bytes each. Refuted otherwise: one long entry stops the offsets array from growing and Write panics; writing after Flush panics. Branches without sub-branches; basket compression is C16."
  },
  {
   "property": "C19",
   "status": "partial",
   "theorems": [
    "C19_forward_partial",
    "C19_backward_refuted",
    "C19_held_refuted"
   ],
   "note": "Proved for all non-decreasing sequences of entries; going back to an earlier basket is refuted by witnesses."
  },
  {
   "property": "C20",
   "status": "proved",
   "theorems": [
    "C20_range",
    "C20_rejects",
    "C20_pipeline"
   ],
   "note": "Basket layouts are those the writer makes; read errors of the file are not modelled."
  },
  {
   "property": "C21",
   "status": "partial",
   "theorems": [
    "C21_chain_partial",
    "C21_trees",
    "C21_empty_refuted"
   ],
   "note": "All non-empty ranges; some empty ranges panic (refuted witnesses)."
  },
  {
   "property": "C22",
   "status": "proved",
   "theorems": [
    "C22_join",
    "C22_lock_step",
    "C22_unique_refuted"
   ],
   "note": "A name occurring twice inside one tree is accepted (witness)."
  },
  {
   "property": "C23",
   "status": "partial",
   "theorems": [
    "C23_add_partial",
    "C23_disjoint_refuted",
    "C23_disjoint",
    "C23_split"
   ],
   "note": "Coverage, order and split proved for every history; disjointness proved when the added spans come from split, refuted for spans that overlap several cached ones (concurrent calls)."
  },
  {
   "property": "C24",
   "status": "partial",
   "theorems": [
    "C24_history_partial",
    "C24_end_refuted",
    "C24_poison_refuted",
    "C24_concurrent"
   ],
   "note": "All histories of calls inside the remote file, one at a time (no byte fetched twice) or concurrent with failing remote reads. A call reaching past the end returns and caches stale bytes of the caller's buffer (refuted witnesses)."
  },
  {
   "property": "C25",
   "status": "partial",
   "theorems": [
    "C25_structures",
    "C25_file",
    "C25_values",
    "C25_truncated",
    "C25_ambiguous",
    "C25_scan_partial",
    "C25_scan_refuted",
    "C25_mixed_refuted",
    "C25_get_refuted"
   ],
   "note": "Random access to every record of every stream, values by name, and sequential scans over records of one kind. Refuted: scans over streams mixing kinds, or whose compressed records have a tail the decompressor does not take; Get on a record without a block of its own name panics. gob encoding of values and the compression libraries are parameters with a stated contract."
  },
  {
   "property": "C26",
   "status": "proved",
   "theorems": [
    "C26_options",
    "C26_defaults"
   ],
   "note": "Levels outside 0..14 read back as the default; codec bits above 12 are dropped (both part of the statements)."
  },
  {
   "property": "C27",
   "status": "partial",
   "theorems": [
    "C27_record",
    "C27_stream_partial",
    "C27_no_panic",
    "C27_skip_refuted",
    "C27_marker_refuted",
    "C27_map_refuted"
   ],
   "note": "All sequences of records, block names and values of any nested type. Refuted: skipping an uncompressed record whose length is not a multiple of 4; unconnected blocks whose payload holds the block marker; maps of structs panic on writing."
  },
  {
   "property": "C28",
   "status": "partial",
   "theorems": [
    "C28_pointers_partial",
    "C28_twice_refuted"
   ],
   "note": "All object graphs over any blocks, connected or not, any iteration order of the tag map; an object tagged twice in a record makes pointers to it ambiguous (refuted witness)."
  },
  {
   "property": "C29",
   "status": "partial",
   "theorems": [
    "C29_decode_partial",
    "C29_round_trip_partial",
    "C29_description",
    "C29_last_bit_refuted",
    "C29_unknown_refuted"
   ],
   "note": "All layouts and ids. A field that reaches bit 63 is decoded right only when this bit is not set (refuted witness otherwise); an unknown name silently gives the first field."
  },
  {
   "property": "C30",
   "status": "partial",
   "theorems": [
    "C30_heap",
    "C30_sorted",
    "C30_nan_refuted"
   ],
   "note": "All histories and distances other than NaN; with a NaN inside, a pop may return a larger element (refuted witness)."
  },
  {
   "property": "C31",
   "status": "proved",
   "theorems": [
    "C31_history",
    "C31_partition",
    "C31_minimal",
    "C31_sum",
    "C31_float64"
   ],
   "note": "Any recombiner and any metric; the Kt and Cambridge shortcuts of InclusiveJets need what their metrics give (largest distance so far, equal beam distances), discharged for float64 and math.Max. Geometry of distances is a parameter; strategy N3Dumb (the other one is not implemented in the code)."
  },
  {
   "property": "C32",
   "status": "proved",
   "theorems": [
    "C32_exclusive",
    "C32_reject",
    "C32_dcut",
    "C32_negative_refuted"
   ],
   "note": "A negative number of jets panics instead of being rejected (witness; the statement is about 0..n and more than n)."
  },
  {
   "property": "C33",
   "status": "partial",
   "theorems": [
    "C33_round_trip",
    "C33_total",
    "C33_injective",
    "C33_refuted",
    "C33_bool_refuted",
    "C33_write_path"
   ],
   "note": "All messages of all request, response and header types that have no hole (sendable). Refuted by witnesses outside: write with another path id, open with status but no compression, more than 255 overrides, rename with long old path, statx flags above 255, directory listings with '.', prepare of one empty path or paths with newlines."
  },
  {
   "property": "C34",
   "status": "partial",
   "theorems": [
    "C34_requests",
    "C34_cut",
    "C34_responses",
    "C34_negative_length_refuted"
   ],
   "note": "All sequences of messages and all chunkings; a response header that announces a negative length panics the reader (refuted witness)."
  },
  {
   "property": "C35",
   "status": "partial",
   "theorems": [
    "C35_unique",
    "C35_exclusive",
    "C35_delivery",
    "C35_claimed",
    "C35_lost",
    "C35_reclaim",
    "C35_claim",
    "C35_stream",
    "C35_abandoned_refuted"
   ],
   "note": "All interleavings of claims, sends, receives, unclaims and closes. Refuted: a claimer that stops receiving without unclaiming (a cancelled request) blocks every other stream. Liveness is not stated."
  },
  {
   "property": "C36",
   "status": "partial",
   "theorems": [
    "C36_opaque",
    "C36_last",
    "C36_requests",
    "C36_wire",
    "C36_refuted"
   ],
   "note": "All paths and opaque data without '?'. Refuted: with a '?' the data is cut; a path without opaque data reports the whole path; a stat by handle becomes a stat of path '?...'."
  },
  {
   "property": "C37",
   "status": "partial",
   "theorems": [
    "C37_history_partial",
    "C37_read_all",
    "C37_seek_end_refuted",
    "C37_past_end_refuted",
    "C37_short_refuted",
    "C37_large_refuted"
   ],
   "note": "All histories of Read, ReadAt and Seek inside the file, against a server that returns what the file holds. Refuted: Seek from the end has the wrong sign; past the end Read never gives EOF; a short ReadAt has a nil error; buffers of 2^31 bytes or more make the server panic."
  },
  {
   "property": "C38",
   "status": "partial",
   "theorems": [
    "C38_policy",
    "C38_monotone",
    "C38_open",
    "C38_session",
    "C38_pedantic_refuted",
    "C38_verifyw_refuted"
   ],
   "note": "All levels, overrides and sequences of requests: exactly the requests the policy asks for are preceded by a signature with increasing numbers over the bytes sent. Refuted: level pedantic does not sign all; the data of a checked write is left out of the hash but the flag does not say so. SHA-256 is a parameter."
  },
  {
   "property": "C39",
   "status": "partial",
   "theorems": [
    "C39_redirections",
    "C39_connections",
    "C39_opaque",
    "C39_parse",
    "C39_short_refuted"
   ],
   "note": "Every network of servers, possibly with cycles. A redirection shorter than 4 bytes panics (refuted witness). Deadlines and concurrent session set-up are not modelled."
  },
  {
   "property": "C50",
   "status": "partial",
   "theorems": [
    "C50_url",
    "C50_local",
    "C50_no_path_refuted"
   ],
   "note": "An address without path panics (refuted for all addresses). net.SplitHostPort and ParseInt are parameters."
  },
  {
   "property": "C54",
   "status": "partial",
   "theorems": [
    "C54_answers",
    "C54_unknown_refuted",
    "C54_later_refuted"
   ],
   "note": "All interleavings of well-formed answers. Refuted: an answer on a stream not in flight panics the client; the status waitresp (answer comes later) is taken for the answer."
  },
  {
   "property": "C40",
   "status": "partial",
   "theorems": [
    "C40_declarations",
    "C40_start",
    "C40_types",
    "C40_types_refuted",
    "C40_self_refuted"
   ],
   "note": "All histories of declarations: accepted iff no port is contradicted, every input has a producer and no cycle through two or more components. Refuted: a component that needs its own output is accepted; the type of an output is not compared with that of an input declared earlier."
  },
  {
   "property": "C41",
   "status": "proved",
   "theorems": [
    "C41_components",
    "C41_cycles"
   ],
   "note": "All finite graphs, including edges to vertices that are no keys: partition into the strongly connected components in reverse topological order, no panic."
  },
  {
   "property": "C42",
   "status": "partial",
   "theorems": [
    "C42_get",
    "C42_available",
    "C42_single",
    "C42_abort",
    "C42_two_puts_refuted"
   ],
   "note": "All tasks, schedules and aborts. Refuted: when a key is put twice, a Get can hang for ever, also after an abort."
  },
  {
   "property": "C55",
   "status": "partial",
   "theorems": [
    "C55_ends",
    "C55_progress",
    "C55_deterministic",
    "C55_self_refuted"
   ],
   "note": "All accepted declarations without a task that reads its own output (that one hangs: refuted witness), all task programs that do what they declare, all schedules."
  },
  {
   "property": "C43",
   "status": "partial",
   "theorems": [
    "C43_bound",
    "C43_once",
    "C43_wait",
    "C43_progress",
    "C43_ends",
    "C43_zero_refuted",
    "C43_late_refuted"
   ],
   "note": "All interleavings of Do, workers, errors and Wait. Refuted: NewRun(0) blocks; Wait before the last Do returned can panic. Functions that panic are not modelled."
  },
  {
   "property": "C45",
   "status": "partial",
   "theorems": [
    "C45_graph",
    "C45_particles",
    "C45_vertices",
    "C45_codes",
    "C45_total",
    "C45_delete",
    "C45_orphan_refuted",
    "C45_collision_refuted",
    "C45_move_refuted"
   ],
   "note": "All histories of the event API. Refuted: collision of a chosen with a suggested barcode, a vertex moved between events, a particle added to a vertex without event (panic)."
  },
  {
   "property": "C46",
   "status": "proved",
   "theorems": [
    "C46_weights"
   ],
   "note": "All histories of Add, Slice and At, with duplicate names and missing keys."
  },
  {
   "property": "C44",
   "status": "partial",
   "theorems": [
    "C44_digit",
    "C44_sign",
    "C44_meson_anti",
    "C44_hadron_anti",
    "C44_valid_anti",
    "C44_charge",
    "C44_meson_charge",
    "C44_meson_integral",
    "C44_baryon_charge",
    "C44_diquark_charge",
    "C44_nucleus",
    "C44_dyon",
    "C44_panic",
    "C44_has",
    "C44_exclusive",
    "C44_elementary",
    "C44_lepton",
    "C44_spin",
    "C44_LS",
    "C44_pentaquark",
    "C44_fourth_refuted",
    "C44_antinucleus_refuted",
    "C44_panic_refuted",
    "C44_pion_refuted",
    "C44_qball_refuted",
    "C44_least_refuted"
   ],
   "note": "All 64-bit ids. Refuted: the least integer; Charge panics on an exactly described set of ids, among them all supersymmetric particles; antinuclei; Q-balls; quark contents of mesons with Nq2 = 2; spin of the fourth family. The rounding of the final product with 1/3 is not modelled."
  },
  {
   "property": "C51",
   "status": "partial",
   "theorems": [
    "C51_clean",
    "C51_place",
    "C51_no_base",
    "C51_confined",
    "C51_no_dotdot",
    "C51_untouched",
    "C51_unseen",
    "C51_escape_refuted",
    "C51_steal_refuted",
    "C51_touched_refuted"
   ],
   "note": "Proved for the paths that at no point climb above their start, for all histories: files outside keep their content and do not influence responses. Refuted for paths with .. that climb: the server joins them to the base path without a check. Symbolic links are not modelled."
  },
  {
   "property": "C53",
   "status": "partial",
   "theorems": [
    "C53_exact",
    "C53_serve",
    "C53_negative_refuted",
    "C53_large_refuted"
   ],
   "note": "C53_exact says which requests below 2^31 bytes of data panic: reads of a negative length on an open handle. Refuted for those, and for requests with 2^31 bytes of data or more."
  },
  {
   "property": "C56",
   "status": "partial",
   "theorems": [
    "C56_history",
    "C56_server",
    "C56_wire",
    "C56_client",
    "C56_status_refuted",
    "C56_close_size_refuted",
    "C56_leak_refuted"
   ],
   "note": "All histories of requests on files of any sessions, handled one at a time, with no file removed or renamed while open, over a file system of plain files. On the wire for one session that waits for each response. Refuted: status dropped from the response to an open for a compressed file; the size given at close is not checked; a file opened when no handle is found stays open."
  },
  {
   "property": "C52",
   "status": "partial",
   "theorems": [
    "C52_isolation",
    "C52_unique",
    "C52_usable",
    "C52_closed",
    "C52_progress",
    "C52_end",
    "C52_leak_refuted"
   ],
   "note": "All schedules of any number of requests and sessions. The end of a session closes its files when no open of it is under way (C52_end); refuted otherwise: an open that races with the end of its connection leaves its file open for good. A step is what a goroutine does under one lock; the contents of files are in C56."
  },
  {
   "property": "C57",
   "status": "partial",
   "theorems": [
    "C57_round_trip",
    "C57_self_reference_refuted",
    "C57_self_reference_panic_refuted",
    "C57_cycle_writes_forever_refuted",
    "C57_nil_in_list_refuted"
   ],
   "note": "All graphs without cycles, with any sharing, in a buffer below 1 GiB, for six classes. Refuted with cycles: an object that refers to itself is read with an error or a panic, and a cycle through a later object of a class is written without end. Refuted for a list that holds nil: reading it panics. The identifier of a referenced object is read with 24 bits and the on-heap flag is set, as in ROOT."
  },
  {
   "property": "C58",
   "status": "partial",
   "theorems": [
    "C58_reopen",
    "C58_total",
    "C58_size",
    "C58_stored",
    "C58_compressed",
    "C58_long_name_refuted",
    "C58_uuid_refuted",
    "C58_large_lost",
    "C58_large_refuted"
   ],
   "note": "All histories and trees, for files below 2 GB, file names up to 478 bytes, keys below 32760 bytes of header and at most 32767 entries of one name in a directory; payloads are those that C16 loads back. Not modelled: failures of the operating system, streamers (any payload), the decoding of the objects themselves. Refuted: a file whose name has 479 bytes is written without error and cannot be opened; the UUID of the file is read two bytes off; in files of 2 GB or more the directories other than the root are lost."
  },
  {
   "property": "C59",
   "status": "partial",
   "theorems": [
    "C59_reopen",
    "C59_get",
    "C59_inside",
    "C59_mkdir_object_panics",
    "C59_no_panic_refuted",
    "C59_leading_slash_refuted",
    "C59_trailing_slash_refuted"
   ],
   "note": "All histories of calls of which no path goes through an object, in the limits of C58. Refuted: Mkdir of a path of an object, and Put below one, panic; Put of /c is refused; Mkdir of a/ makes a directory without name."
  },
  {
   "property": "C60",
   "status": "partial",
   "theorems": [
    "C60_walk",
    "C60_skip_object_refuted",
    "C60_dotdot_refuted"
   ],
   "note": "All files of C59 whose names are not . and .. and all functions, with any state. Refuted: SkipDir returned on an object does not skip the remaining keys of its directory, which the documentation promises; paths through names . and .. are cleaned away."
  },
  {
   "property": "C61",
   "status": "partial",
   "theorems": [
    "C61_new_cart",
    "C61_new_pt",
    "C61_new_e",
    "C61_new_et",
    "C61_new_ipt",
    "C61_convert",
    "C61_convert_all",
    "C61_add_cart",
    "C61_add",
    "C61_iadd",
    "C61_scale",
    "C61_set_ptetaphim",
    "C61_set_ptetaphie",
    "C61_equal",
    "C61_equal_transitive_refuted",
    "C61_beam_refuted",
    "C61_rest_refuted",
    "C61_add_rest_refuted",
    "C61_negative_refuted",
    "C61_spacelike_refuted"
   ],
   "note": "Over the real numbers with infinities and NaN: rounding and overflow are not modelled. Vectors not spacelike, off the beam axis, pseudo-rapidity up to 710; type IPtCotThPhiM for positive energies or massless. Refuted outside of that: along the beam PtEtaPhiM holds NaN, at rest (also the sum of two back-to-back particles) EtEtaPhiM holds NaN, IPtCotThPhiM loses the sign of negative energies, spacelike vectors are changed; Equal is not transitive."
  },
  {
   "property": "C62",
   "status": "partial",
   "theorems": [
    "C62_invariant",
    "C62_inverse",
    "C62_boostof",
    "C62_speed",
    "C62_rest",
    "C62_compose",
    "C62_rapidity",
    "C62_kinds",
    "C62_invmass",
    "C62_invmass_sym",
    "C62_costheta",
    "C62_deltaphi",
    "C62_deltar",
    "C62_deltaphi_range_refuted"
   ],
   "note": "Over the real numbers: rounding is not modelled. Boosts of the type PxPyPzE for all vectors, of the other types when the result is in the domain of C61. Refuted: DeltaPhi reaches pi, the documentation says [-pi,pi[."
  },
  {
   "property": "C63",
   "status": "partial",
   "theorems": [
    "C63_roundtrip",
    "C63_again",
    "C63_built",
    "C63_blank_name_refuted",
    "C63_no_vertex_refuted",
    "C63_pdf_refuted",
    "C63_lost_refuted",
    "C63_counter_refuted"
   ],
   "note": "All well-formed events with at least one vertex, names of weights without blanks, lines below 65536 bytes; reading and printing of numbers and quoting are models of the Go standard library. Not modelled: Flow.Particle, units that are not among the constants. Refuted: a name with a blank makes the file unreadable; an event without vertices is lost or makes the file unreadable; a missing PdfInfo comes back with zeros; a beam without end vertex and the names of vertex weights are lost; barcodes given to vertices added to an event that was read take the place of existing ones."
  },
  {
   "property": "C64",
   "status": "partial",
   "theorems": [
    "C64_reuse",
    "C64_truncated",
    "C64_copy",
    "C64_copy_truncated",
    "C64_end",
    "C64_copy_leak_refuted",
    "C64_ascii_refuted",
    "C64_blank_line_refuted",
    "C64_empty_refuted",
    "C64_cut_number_refuted",
    "C64_dangling_refuted"
   ],
   "note": "In the limits of C63. Copy returns no error on a file that was cut. Refuted: Copy gives the optional parts of an event to later events that have none; IO_Ascii files cannot be read; a blank line panics; a file without events is an error; a file cut inside a number is read with another number; an end vertex that is not in the file panics; Decode after the second io.EOF waits for ever."
  },
  {
   "property": "C65",
   "status": "partial",
   "theorems": [
    "C65_H1D_equal_bins",
    "C65_H2D_equal_bins",
    "C65_P1D_fill",
    "C65_H1D_top_refuted",
    "C65_H1D_infinite_width_refuted",
    "C65_P1D_no_panic_refuted",
    "C65_P1D_bin_refuted",
    "C65_P1D_nan_refuted"
   ],
   "note": "With the rounding of float64. Refuted: an entry below xmax but above the last edge, which rounding puts below xmax, is overflow; a range of infinite width loses entries; P1D panics on an entry just below xmax and, on amd64, on a NaN; the bin that P1D fills may start above the entry."
  },
  {
   "property": "C66",
   "status": "proved",
   "theorems": [
    "C66_H1D",
    "C66_H2D",
    "C66_P1D",
    "C66_S2D",
    "C66_size_H1D",
    "C66_rio",
    "C66_bad_annotations",
    "C66_error_refuted",
    "C66_eof_refuted"
   ],
   "note": "encoding/gob is a parameter: the annotations are assumed to survive it; the bytes are at most 2^48. Refuted beside: bad bytes panic instead of giving an error, also a negative length in a rio stream; a stream cut right behind the length gives io.EOF."
  },
  {
   "property": "C67",
   "status": "partial",
   "theorems": [
    "C67_roundtrip",
    "C67_nil",
    "C67_bytes_refuted",
    "C67_bools_refuted",
    "C67_grid_refuted"
   ],
   "note": "For the field types whose code compiles and is right: integers, floats, complex128, strings, structs with and without name, slices and arrays of structs, pointers. Refuted for []byte (comes back with as many zeros in front), bool inside of a slice of structs (reads other elements), arrays of arrays (only the diagonal is assigned). For bool and [n]byte elsewhere, complex64, slices and arrays of other elements and pointers to pointers the printed code does not compile."
  },
  {
   "property": "C68",
   "status": "partial",
   "theorems": [
    "C68_divide",
    "C68_different_bins",
    "C68_self",
    "C68_scatter",
    "C68_sort",
    "C68_less",
    "C68_fewer_bins_refuted",
    "C68_more_bins_refuted",
    "C68_small_edges_refuted",
    "C68_ignore_nan_refuted",
    "C68_ignore_drops_refuted",
    "C68_negative_error_refuted",
    "C68_result_annotation_refuted",
    "C68_focus_refuted",
    "C68_sort_nan_refuted"
   ],
   "note": "Float64 arithmetic with its rounding. The bounds on the error are for bins whose width, weight and sum of squared weights are between 2^-150 and 2^150. Refuted beside: fewer bins in the denominator panic and more are dropped instead of an error, edges below 1e-8 are all the same, DivIgnoreNaNs keeps a NaN and drops a 0, errors of negative ratios are negative, setting an annotation of the result panics, a mean outside of the bin, NaN in points."
  },
  {
   "property": "C69",
   "status": "partial",
   "theorems": [
    "C69_sample",
    "C69_sample_in_bin",
    "C69_cdf",
    "C69_cdf_mono",
    "C69_gap_panics",
    "C69_width_refuted",
    "C69_empty_bin_refuted",
    "C69_gap_refuted",
    "C69_cdf_flat_refuted",
    "C69_empty_refuted",
    "C69_no_bins_refuted"
   ],
   "note": "The uniform number is an argument. C69_sample says exactly which width is used: that of the next bin. Refuted: with bins of several widths the sample lands outside of its bin, even in an empty one; CDF panics in a gap between bins and is a step function that does not match the samples; a histogram without entries gives the last edge, one without bins panics."
  },
  {
   "property": "C70",
   "status": "partial",
   "theorems": [
    "C70_event",
    "C70_no_panic",
    "C70_params_bytes",
    "C70_children",
    "C70_type_names",
    "C70_index_partial",
    "C70_type_names_refuted",
    "C70_index_refuted",
    "C70_vectors_refuted",
    "C70_generic_refuted",
    "C70_cluster_refuted"
   ],
   "note": "C70_event is proved for all events whose collections are storable: not LCFloatVec, LCIntVec, LCStrVec (never readable, C70_vectors_refuted), generic objects of fixed size have the same sizes (C70_generic_refuted), clusters have a weight for each hit (C70_cluster_refuted, a panic); objects are tagged once. What each flag stores is stated in LcioDataSpec.v, without the codecs. Old versions of the format are modelled but nothing is proved for them. The index of a file is read right only without 64-bit offsets."
  },
  {
   "property": "C71",
   "status": "partial",
   "theorems": [
    "C71_file",
    "C71_truncated",
    "C71_add",
    "C71_weight",
    "C71_weight_refuted",
    "C71_unknown_type_refuted"
   ],
   "note": "C71_file and C71_truncated are proved for all sequences of calls whose records fit in 2^31 bytes and whose collections are storable (see C70). That writing a storable event raises no error is a hypothesis (fits_rec). Weight panics on an empty list (C71_weight_refuted) and Next panics on a type it does not know (C71_unknown_type_refuted)."
  },
  {
   "property": "C72",
   "status": "partial",
   "theorems": [
    "C72_orientation",
    "C72_orientation_finite",
    "C72_orientation_call",
    "C72_orientation_swap",
    "C72_orientation_decides",
    "C72_incircle",
    "C72_incircle_cw",
    "C72_incircle_call",
    "C72_circle",
    "C72_robust_orientation",
    "C72_robust_incircle",
    "C72_orientation_small_refuted",
    "C72_incircle_scale_refuted"
   ],
   "note": "The filters and the exact versions are proved. The fallback of Orientation and Incircle (LU factorisation of gonum) is not modelled: C72_orientation_call and C72_incircle_call take it as a parameter. Below the sizes of the hypotheses the claim is false for Orientation (C72_orientation_small_refuted). There is no theorem on when the filter of Incircle decides; it does not for small circles (C72_incircle_scale_refuted)."
  },
  {
   "property": "C73",
   "status": "partial",
   "theorems": [
    "C73_roundtrip",
    "C73_get_set",
    "C73_index",
    "C73_values",
    "C73_no_panic",
    "C73_panic_refuted",
    "C73_string_refuted",
    "C73_int_refuted",
    "C73_info_refuted",
    "C73_width_refuted",
    "C73_section_refuted",
    "C73_name_refuted",
    "C73_index_none_refuted"
   ],
   "note": "Proved with the verb %v of float64 as a parameter that reads back as the same number; Unicode, hexadecimal floating point numbers and errors of readers and writers are not modelled. Outside the hypotheses the claim is false: strings in blocks other than SPINFO and DCINFO, integers outside MODSEL, versions with blanks, infinite widths, lower-case names (the _refuted theorems). Decode panics on the lines of C73_panic_refuted."
  },
  {
   "property": "C74",
   "status": "partial",
   "theorems": [
    "C74_roundtrip",
    "C74_stream",
    "C74_end",
    "C74_encode_panic",
    "C74_decode_panic",
    "C74_negative_refuted",
    "C74_longer_refuted"
   ],
   "note": "Proved for events whose slices have one length. Errors of readers and writers, what an error leaves in the event, and hexadecimal numbers are not modelled; fmt.Fscanf is modelled in ScanfModel.v. Events with a negative Nhep are written and make Decode panic (C74_negative_refuted); particles beyond Nhep are not written (C74_longer_refuted)."
  },
  {
   "property": "C75",
   "status": "partial",
   "theorems": [
    "C75_roundtrip",
    "C75_whole",
    "C75_stream",
    "C75_encode_panic",
    "C75_spin_refuted",
    "C75_nan_refuted",
    "C75_subevents_refuted",
    "C75_negative_refuted",
    "C75_attribute_refuted",
    "C75_noevents_refuted",
    "C75_neve_refuted",
    "C75_header_refuted"
   ],
   "note": "Proved for files of version 1.0 without sub-events. Of encoding/xml the tokens for elements, attributes and ASCII text are modelled; comments, entities, name spaces and processing instructions are not. Errors of readers and writers are not modelled. False, with witnesses: that spins are kept (0.5 becomes 0), that NaN lifetimes, sub-events, a header with a less-than sign or no events at all give a readable file, that Decode does not panic for a negative NUP and NewDecoder for a root element without attributes, and that cross section information can be written."
  },
  {
   "property": "C76",
   "status": "partial",
   "theorems": [
    "C76_roundtrip",
    "C76_range",
    "C76_append",
    "C76_buffer",
    "C76_crlf_refuted",
    "C76_empty_refuted",
    "C76_comment_refuted",
    "C76_slice_refuted",
    "C76_header_order_refuted",
    "C76_header_refuted",
    "C76_negative_refuted"
   ],
   "note": "Proved for every text of floating point numbers that reads back exactly (assumed of strconv with the shortest precision; the example uses 17 digits, for which it is proved). The parts of encoding/csv that are used are modelled for ASCII separators; structs, 32-bit floating point numbers and errors of the file system are not. False, with witnesses: that strings with a carriage return before a newline, rows that are one empty string, rows that begin with the comment character and slices come back, that a header stays after the rows written before it, that a header without the comment character can be read past, and that a negative first row is an error or yields the rows before end."
  },
  {
   "property": "C77",
   "status": "partial",
   "theorems": [
    "C77_histo_roundtrip",
    "C77_profile_roundtrip",
    "C77_annotations",
    "C77_counts_lost",
    "C77_count_refuted",
    "C77_edges_refuted",
    "C77_name_refuted",
    "C77_path_refuted"
   ],
   "note": "Version 2 of the format. The YAML text of annotations is a parameter: what is needed is that it is read back when followed by three dashes and a newline. The zero value is read into. The step of the binning of a profile, lines of 65536 bytes or more, and version 1 are not modelled. False, with witnesses: that counts of ten million and more come back, that a bin whose edges agree to 7 digits keeps its width, that names with a newline can be read, and that an annotation Path leaves the name alone."
  },
  {
   "property": "C78",
   "status": "partial",
   "theorems": [
    "C78_archive",
    "C78_parts",
    "C78_end_refuted",
    "C78_unclosed_refuted",
    "C78_garbage_refuted",
    "C78_range_refuted"
   ],
   "note": "Version 2 of the format; the YAML text of annotations and sort.Sort are parameters, and so is what two-dimensional histograms are read as. False, with witnesses: that Read reports the end of a block that was not begun (it panics), that an object after a block without an end is read, that a line that is not a point is an error in a scatter, and that every profile that was written can be read (a range narrower than 7 digits panics)."
  },
  {
   "property": "C79",
   "status": "partial",
   "theorems": [
    "C79_roundtrip",
    "C79_fill_refuted",
    "C79_columns_refuted",
    "C79_range_refuted",
    "C79_empty_refuted"
   ],
   "note": "Version 2 of the format; the YAML text of annotations is a parameter. Outflows are not written. False, with witnesses: that a histogram that was read finds its bins when filled (with unequal widths it finds others), that columns whose edges are the same to 7 digits are both read (one is lost without an error), and that reading does not panic (an empty range or no bins)."
  },
  {
   "property": "C80",
   "status": "partial",
   "theorems": [
    "C80_constants",
    "C80_table",
    "C80_unique",
    "C80_malformed",
    "C80_stable",
    "C80_long_line",
    "C80_short_lived",
    "C80_name_refuted",
    "C80_tabs_refuted",
    "C80_long_refuted",
    "C80_short_refuted"
   ],
   "note": "False, with witnesses: that the particle found by a name has that name, that columns may be separated by tabs alone, that all lines are read or an error is reported (what follows a line of 65536 bytes is dropped silently), and that a particle with a lifetime and no width is not stable (below 1e-20 s it is). IsStable for a width so small that the lifetime overflows, and for lifetimes of 1e-20 and more, is not characterised."
  },
  {
   "property": "C81",
   "status": "partial",
   "theorems": [
    "C81_value",
    "C81_compare",
    "C81_argument",
    "C81_total",
    "C81_rows",
    "C81_all",
    "C81_error",
    "C81_guard",
    "C81_zero",
    "C81_bits",
    "C81_tree",
    "C81_arguments",
    "C81_no_panic",
    "C81_literals",
    "C81_query",
    "C81_written",
    "C81_read",
    "C81_scan_type",
    "C81_length",
    "C81_array_refuted",
    "C81_deps",
    "C81_agree",
    "C81_select",
    "C81_second_refuted",
    "C81_selected_refuted",
    "C81_missing_refuted",
    "C81_boolean_refuted",
    "C81_literal_refuted",
    "C81_columns_refuted",
    "C81_overflow_refuted",
    "C81_number_refuted"
   ],
   "note": "False, with witnesses: that a comparison with a literal outside the type of the column can be evaluated, that columns of different integer types can be compared, that sums are exact when they overflow, that a condition that is no boolean is an error (it stops the program), and that missing or boolean arguments are errors (they panic in the call), that every expression between SELECT and FROM is answered (only the first one is) that a comparison can be selected (it stops the program), and that the type told of a column of arrays is that of its values. Floating point columns, the parser and the goroutine that reads the tree are not modelled."
  }
 ]
}