# Formal model of go-hep/hep — design

## 1. Shape

`rocq/theories/` holds, per modelled Go package,

* `<Pkg>Model.v` — total Gallina functions transcribing the Go code function by function; every
  definition cites `file:lines` in /repo and says where it simplifies;
* `<Pkg>Spec.v` (or the head of `<Pkg>Props.v` when short) — the independent specification
  (sets of bytes, list functions, reachability, …), not using helpers of the model;
* `<Pkg>Proofs.v` — lemmas and invariants;
* `<Pkg>Props.v` — the property theorems (named after the property id), one `Example` per theorem
  showing that its hypotheses are satisfiable on a non-trivial case, and `Print Assumptions`.

Modelling conventions

* Go integers: `Z`, with explicit wrap (`wrapU w`, `wrapS w`) where the code can overflow or truncates.
* `[]byte`: `list Z` with every element in [0,256); big/little endian encoders in `Bytes.v`.
* Errors are values (`option` / result types); panics are a distinct constructor.
* `float64`: when only comparisons matter, IEEE binary64 (`spec_float` valid for 53/1024) with its
  comparison, NaN and infinities included (`F64.v`, no axioms).  When only the order of additions
  matters the arithmetic is an arbitrary set of operations without laws (so it covers binary64 with
  its rounding).  When the property is about exact arithmetic it is stated over any commutative ring.
* Goroutines/channels: explicit transition systems; theorems quantify over all reachable states.
* External code (zlib, network, clock, hash) : universally quantified functions or oracles with the
  stated contract as hypothesis of the theorem.
* Loops: structural recursion, or fuel with a theorem that the fuel given suffices.

## 2. Trusted base

* Coq 8.16.1 kernel (`coqc`, re-checked with `coqchk`).
* The transcription from Go to Gallina (by reading; the Go code is never executed here), and the Go
  language/library facts recalled in comments (e.g. `sort.Search`, `copy`, `append`, map semantics).
* Assumptions: see section 5 (what `Print Assumptions` lists for each theorem).

## 3. Plan per property

| id | modelled | proof |
|----|----------|-------|
| C01 | `coordToIndex`, `IndexOf` with `sort.Search` as real binary search over binary64 edges | binary-search correctness on monotone predicates, order embedding of binary64 in Z |
| C02 | `fill` on Binning1D, arbitrary arithmetic | induction on fill history; each bin = fold over filtered history |
| C03 | constructors, sort as any permutation sorting by Min | case analysis, list induction |
| C04,C05 | `addScaled`, `scaleW`, `Integral` over a commutative ring | induction with ring |
| C06 | Binning2D | from C01 lemmas + index arithmetic |
| C07 | slices as (array, offset, len, cap) with shared backing store | loop invariants |
| C08,C09 | WBuffer/RBuffer codecs | per-primitive round trip + sequence induction |
| C10 | bit-level encode/decode on Z | refuted by witness + strongest true statement |
| C11 | freeList operations on Z segments | invariant + set semantics |
| C12–C15 | Key codec, datime packing, name;cycle parser, directory key table | codec lemmas, bit arithmetic, history induction |
| C16,C17 | block splitting and header framing, abstract codec | induction on blocks |
| C18–C22 | branch writer state machine, basket tables, bkreader spans, chain offsets, join | invariants over write history |
| C23,C24 | span list operations, cache state machine | set semantics, history invariant |
| C25–C28 | rio/sio framing and pointer ids | codec lemmas, id-injectivity invariant |
| C29 | bit-field extraction on 64-bit words | `Z.testbit` |
| C30 | array heap with sift-up/down | heap invariant, multiset |
| C31,C32 | clustering loop over arbitrary scale/distance/comparison/recombiner | history forest invariant |
| C33,C34 | message codecs, framing over chunked transports | codec combinators |
| C35 | mux as a transition system | invariant on reachable states |
| C36–C39 | path strings, file position machine, requirement table, redirect loop | direct |
| C40,C41 | port declaration tables, Tarjan | graph reachability |
| C42,C43 | channel based transition systems | inductive invariants over schedules |
| C47–C50 | placement of records, free-segment records, key lists, addresses | invariants over histories, codec lemmas, parser lemmas |
| C51–C53, C56 | xrootd server: paths, sessions as shared objects, requests as threads, byte streams | invariants over histories and schedules |
| C57 | object references: writer and reader with their tables of references, graphs of six classes | pure encoder, simulation of the writer, invariant between the graph and what was read |
| C58 | ROOT files as bytes: Create, Put, Mkdir, Close, Open, Get, with keys, directories, free segments and compression | invariant of the disk layout, closing as refinement, reader lemmas record by record |
| C59 | Nested paths: riofs.Dir over the files of C58 | a tree of paths as specification, related to the directories of the file by an invariant; Get over any directories that answer as a store |
| C60 | Walk | the list of the paths of the tree, parents first; walking is visiting that list, for every function |
| C61, C62 | fmom: five representations of four-momenta, boosts, distances; over the reals with infinities and NaN | each type answers as the physical vector it stands for; Lorentz algebra |
| C63, C64 | hepmc text: Encoder, Decoder, Copy over bytes; printing and parsing of floats and quoted strings as models of the standard library | refinement line by line; simulation of cut streams |
| C65 | hbook: histograms with bins of equal width and profiles, with the rounding of float64 (Flocq) | monotone rounded edges; bounds on rounding errors; induction on fills |
| C66, C67 | hbook: the binary form of histograms (*_brio.go); the semantics of the code that brio-gen prints, by the types of the fields | readers composed of steps that invert the writers; a run that ends well also ends well with more bytes behind, so a cut one cannot |
| C68, C69 | hbook: DivideH1D, NewS2DFromH1D, the order of points, Rand1D, with float64 rounding | numbers near a real number (relative errors that add up), monotone rounding for the shares and for the search, uniqueness of sorted lists |
| C70 | lcio: MarshalSio and UnmarshalSio of the 21 collections, parameters, names of types, index; the record of an event | the codecs as lists of operations; every operation is a pair of a writer and a reader (`good`) composed by lists of operations, then by blocks, then by the record; a table of what each flag keeps, written apart (LcioDataSpec.v) |
| C71 | lcio: Writer, Reader, Event.Add, Weight; sio: Stream.ReadRecord and WriteRecord with the blocks of lcio | the record of C70 and the headers inside the framing of C27; induction on the calls, with whatever is left of a cut file as a tail from which no event can be read |
| C72 | fastjet/internal/predicates | error analysis: an invariant bounds the distance to the exact value by a part of the bound that the code computes, for each operation, without assumption on overflow; then the determinants are related to the geometry over the reals |
| C73 | slha | line by line: the text of each line is a list of fields between blanks, the reader gives the fields back; rounding to 9 decimal digits and back is shown to be stable by an error analysis over the integers |
| C74 | hepevt, fmt.Fscanf | model of Fscanf for lines of numbers; each field is read back whatever follows it; then induction over the particles with the slices split at the current one |
| C75 | lhef, fmt.Fscanf | tokens of the XML that is written; a walk over tokens for seek and next; fields of a line as in C74; the nearest whole number up to 2^53 is exact in binary, so %1.f. reads back |
| C76 | csvutil, encoding/csv | text as bytes; lines with the normal form of their end; a quoted field by induction on its text across lines; rows as a chain of reads |
| C77 | hbook YODA of H1D and P1D | one model for both kinds; a line is a row of numbers with 7 digits and a count, read by the formats of Fscanf; the loop over the lines by induction on the bins |
| C78 | hbook/yodacnv, S2D and P1D YODA | an archive is a list of blocks of lines; the loop of Read by induction on the lines of a block and on the blocks, for any state left by the block before |
| C79 | H2D YODA | the bins are a grid written by columns: the n-th element of a concatenation of blocks of the same length; the number of columns is that of the classes of equal low edges |
| C80 | heppdt tables | blanks and tokens by induction on the text; maps as lists, the newest first: what is found is the last row |
| C81 | groot/rsql conditions | relational meaning over unbounded integers, unique; soundness of eval by induction on the expression; a typing under which eval is total |
| C44–C46 | digit arithmetic, pointer graph as finite maps, weights | arithmetic, history invariants |

Properties that turn out false of the faithful model are kept in full, refuted by a witness theorem
(`…_refuted`), and the strongest true variant is proved; see section 4.

## 4. Findings (behaviours of the code that contradict what the API suggests)

Each finding marked (W) is proved by a `…_refuted` theorem.

* hbook: `H1D.Bin(x)` panics for x in a gap between bins; NaN edges are accepted by the constructors;
  `AddH1D` compares only the outer edges and the number of bins, not the inner edges.
* sliceop: `Resize` within capacity exposes stale storage between the old length and n.
* rbytes: a string whose first byte is NUL is read back as "" (W); an array of empty strings at the end of a
  full buffer fails with EOF (W); byte counts of 2^30 and more are silently wrong (W).
* rbytes Float16/Double32 with nbits: `man & 1 << nbits` precedence slip, odd rounded mantissas decode to the top
  of the binade (W).
* riofs freelist: releasing a segment that spans two free segments leaves overlapping segments (W).
* riofs file: past 2e9 bytes, giving back the last record makes all later placements fail (W).
* riofs key: key lengths of 32768 and more are truncated to 16 bits on file (W).
* riofs dates: dates from 2059 on come back 64 years earlier (W), dates before 1995 panic.
* riofs name;cycle: "name;65537" is cycle 1 (W); two ';' panic.
* riofs dir: Put("", obj) accepts a '/' from the object's name (W); two objects of a Go-named class "a.B" cannot be
  put under the same name (W); a name containing ';' is accepted but never found (W); "name;9999" is the latest
  version whatever the number of versions (W).
* rcompress: a framed payload that happens to have the size of the original is loaded as uncompressed (W); a last
  write that only partly fits in the buffer is accepted and the payload is damaged (W); a payload that does not
  compress is an error (stream codecs, W) or overruns the buffer (LZ4, W) instead of being stored as it is;
  zstd level 9 becomes 4, level -2 changes the algorithm (W).
* rtree writer: `write` stores the byte size of a long entry as the size of the offsets array, which then is not
  grown: one entry of more than entryOffsetLen bytes followed by enough small ones panics (W); Flush leaves no
  current basket: writing, flushing or closing afterwards panics (W).
* rtree direct access: going back to an earlier basket picks the wrong one (W).
* rtree chain: an empty range at the end of the chain, or at a boundary next to an empty tree, panics (W).
* rtree join: a branch name that occurs twice in one tree is accepted (W).

- groot/riofs/plugin/http/span.go `add`: a span that overlaps several cached spans swallows only the first, the result is
  no longer disjoint (C23_disjoint_refuted). Needs concurrent calls. Reads stay right (C24_concurrent).
- groot/internal/httpio/reader.go `ReadAt` returns a short count with a nil error when the range reaches past the end of the
  resource; the read cache ignores the count, stores the stale bytes of the caller's buffer in its file and serves them
  (C24_end_refuted, C24_poison_refuted).

- rio/scanner.go `Scan` does not discard what the decompressor leaves of a compressed record: the next record is then misread
  or the scanner panics (C25_scan_refuted).  The decompressor made for the first unpacked record is reused for records of other
  kinds (C25_mixed_refuted), and blocks of earlier records stay in the record of the scanner.
- rio/file.go `Get` of a record that has no block of the same name dereferences nil (C25_get_refuted).  A user record named
  ".rio.meta" with a block of that name makes `Close` fail.
- rio/rio.go `NewOptions`: levels above 14 silently become the default level, codec bits above the twelfth are dropped.

- sio/stream.go: uncompressed records are not padded when written but their length is rounded up when they are skipped: the
  next record is lost if the length is not a multiple of 4 (C27_skip_refuted).
- sio/record.go `read` finds the end of a block that is not connected by looking for the next block marker: a payload with the
  marker at its start hides all later blocks without error, at offsets 1..3 it panics (C27_marker_refuted).
- sio/encoder.go: structs as keys or elements of a map panic (C27_map_refuted).
- sio/sio.go: an object tagged twice in a record makes the relocation of pointers to it depend on map order (C28_twice_refuted).

- lcio/cellid.go: a field that ends at bit 63 of the id is sign-extended by the shift: an unsigned one comes out negative, a
  signed one wrong (C29_last_bit_refuted).  `Get` of a name that is not in the layout gives the value of the first field
  (C29_unknown_refuted).
- fastjet/internal/heap: distances that are NaN break the order (C30_nan_refuted).

- fastjet/clustersequence.go `ExclusiveJetsUpTo` panics for a negative number of jets (C32_negative_refuted), and `ExclusiveJets`
  with a negative cut reports "too many exclusive jets".  recombiner.go `Preprocess` of the pt and et schemes changes the
  momentum without refreshing the cached rapidity, azimuth and pt (outside the model: prep is a parameter).

- xrootd/internal/xrdenc `ReadBool` reads the byte after the one that holds the value (C33_bool_refuted).
- xrootd/xrdproto: messages that are not read back as sent (C33_refuted): write on a path id other than 0 (the data is announced
  but not sent on the connection, C33_write_path), open response with a status but no compression, more than 255 security
  overrides, mv with an old path of 65536 bytes or more, statx flags above 255, directory listings whose first entry is "."
  or that end in NUL, prepare of [""] or of paths with a newline.
- xrootd/xrdproto `ReadResponse` panics on a header that announces a negative length (C34_negative_length_refuted).

- xrootd/xrdproto/xrdproto.go `Opaque`: a path without '?' reports the whole path as opaque data; opaque data with a '?' is cut;
  `SetOpaque` turns a stat by handle into a stat of the path "?..." (C36_refuted).
- xrootd/xrdio/xrdio.go: `Seek` from the end subtracts the offset (C37_seek_end_refuted); after a seek past the end, `Read` returns
  0, nil for ever (C37_past_end_refuted); `ReadAt` returns a short count with a nil error (C37_short_refuted); a buffer of 2^31
  bytes or more announces a negative length, and the server panics in make (C37_large_refuted).
- xrootd/xrdproto/signing: at the pedantic level several requests are not signed (C38_pedantic_refuted); for verifyw the data
  is left out of the hash but the "no data hash" flag is not set (C38_verifyw_refuted).
- xrootd/session.go: a redirection of less than 4 bytes panics (C39_short_refuted); a response on a stream not in flight panics
  (C54_unknown_refuted); the status waitresp (4006) is taken for the final answer (C54_later_refuted); a request that is cancelled
  keeps its stream and blocks the reader of the connection when its answer comes (C35_abandoned_refuted).
  Not modelled: client.go `getSession` does not look again after taking the write lock, the second of two sessions replaces the first.
- xrootd/internal/mux: 511 of the 65536 stream ids are never handed out.
- xrootd/xrdio/parse.go: an address without a path panics (C50_no_path_refuted).

- **dflow**: a task that declares the same port as input and as output is accepted (self edges are left out of the graph, fwk/dflow.go), and its event never ends (C40_self_refuted, C55_self_refuted).
- **dflow**: the type of an output port is not compared with the type of an input port declared before it (C40_types_refuted): an application whose consumer is configured first starts with ports of different types.
- **store**: Get puts the value back outside of its select; when a second Put under the same key fills the channel in between, Get hangs for ever, even after the store is closed (C42_two_puts_refuted).
- **app**: with no task, sequential running indexes ctxs[0] and panics, and concurrent running waits for ever; io.EOF of an input stream is an error in sequential mode and the end of the events in concurrent mode. (Read from the code; not in the model.)

- **parallel** (fwk/utils/parallel): with NewRun(0) every Do blocks for ever (C43_zero_refuted); Wait called while a Do is still running can close the channel under it, which panics (C43_late_refuted).
- **hepmc**: a barcode suggested by AddVertex/SetParticle that collides with one chosen by the user replaces the older entry (C45_collision_refuted); a vertex moved to another event takes its outgoing particles out of the first event although another vertex there has them as incoming (C45_move_refuted); adding a particle to a vertex without an event panics (C45_orphan_refuted).

- **heppdt** (pid.go): FundamentalID tests the digit Nq2 for 2 where the numbering scheme needs "Nq2 and Nq1 are both 0". Hence supersymmetric particles are never recognised and their Charge indexes the table with -1 and panics, as does that of the geantinos 101 and 102 (C44_panic_refuted; C44_panic says exactly when); the pions, the rho and all mesons with Nq2 = 2 contain no quark (C44_pion_refuted). IsQBall is a copy of IsSUSY: codes 100xxxx0 are never Q-balls (C44_qball_refuted). A dyon whose charge is a multiple of ten is not recognised (C44_dyon). Antinuclei have the charge of the nucleus (C44_antinucleus_refuted). The least integer has negative digits (C44_least_refuted).
- **heppdt**: the quarks and leptons of a fourth family (7, 8, 17, 18) are valid ids but JSpin gives them 0 (C44_fourth_refuted).

- **xrootd server**: the path of a request is joined to the base path with path.Join, which resolves `..`; a path that climbs above its start leaves the base path (C51_escape_refuted), so a client reads (C51_steal_refuted) and removes (C51_touched_refuted) any file the server process may. Paths that never climb above their start are confined (C51_confined, C51_untouched, C51_unseen).
- **xrootd server**: a read of a negative length on an open handle makes `make([]byte, n)` panic in the goroutine of the request, which nothing recovers: the whole server stops (C53_negative_refuted); so does a request with 2^31 bytes of data or more, whose length is read back as negative (C53_large_refuted). C53_exact: no other request panics.
- **xrootd server**: an open with both the options ReturnStatus and Compress gets a response whose status is not written (C56_status_refuted); the size given with a close is ignored (C56_close_size_refuted); when 100 random handles are all taken, or Stat fails, the file just opened is never closed (C56_leak_refuted for the first).
- **xrootd server**: an open that is under way when its connection ends makes the session again after CloseSession has removed it; its file and the session are never released (C52_leak_refuted).
- **object references**: the writer records the reference of an object before its contents ("to handle self reference"), the reader of a new class after them. A reference to an object from its own contents is then unknown to the reader, which skips it without clearing the flag bit of the byte count, 1 GiB too far: the object comes back as nil with an error (C57_self_reference_refuted), or reading panics when anything follows (C57_self_reference_panic_refuted). For the second and later objects of a class the writer records the reference after the contents: a cycle through such an object makes it recurse until the stack is exhausted (C57_cycle_writes_forever_refuted).
- **rcont.List**: a list that holds nil is written without error and reading it back panics (C57_nil_in_list_refuted); pairs of a TMap with a nil key are dropped by the reader.

- **ROOT files**: a file created under a name of 479 bytes or more is filled and closed without error and cannot be opened again: the root directory then has a header of more than 1000 bytes, which the reader refuses (C58_long_name_refuted).
- **ROOT files**: in a file that reaches 2^31 bytes every directory other than the root is lost: `Close` gives the version of large files to the root directory only (`groot/riofs/dir.go:281-285`), so the place of the list of keys of the other directories is written in 32 bits and read back as a negative number, for which the reader returns no keys and no error (C58_large_lost, and C58_large_refuted for a history of four calls).
- **ROOT files**: the header of the file holds the version of the UUID and the UUID, and the reader expects the UUID alone: it is read two bytes off (C58_uuid_refuted). A new directory is first written with the name and title of the file before its header, which is past the space reserved for it, and corrected when the file is closed.
- **Nested paths**: `riofs.Dir(f).Mkdir(p)` panics when `p` is the path of an object, and `Put` panics when its path goes through one: `groot/riofs/walk.go:155` asserts a type on the nil directory that the failed assertion before it left (C59_mkdir_object_panics for every file, C59_no_panic_refuted).
- **Nested paths**: `Put("/a/c", o)` works and `Put("/c", o)` is refused (C59_leading_slash_refuted); `Mkdir("a/")` makes the directory `a` and inside it a directory without a name (C59_trailing_slash_refuted).
- **Walk**: the documentation of `WalkFunc` says that `SkipDir` returned on an object skips the remaining keys of its directory; they are visited (C60_skip_object_refuted). Objects named `.` or `..` are reported under the path of another directory (C60_dotdot_refuted).
- **Four-momenta**: a particle along the beam converted to `PtEtaPhiM` has `NaN` as z component (C61_beam_refuted); a particle at rest converted to `EtEtaPhiM` has the energy `NaN`, and so has the sum of two back-to-back particles of that type (C61_rest_refuted, C61_add_rest_refuted). `IPtCotThPhiM` loses the sign of a negative energy, which the other types keep (C61_negative_refuted). Spacelike vectors change when converted (C61_spacelike_refuted). `Equal` is not transitive (C61_equal_transitive_refuted).
- **Four-momenta**: `DeltaPhi` returns pi for the angles 0 and pi; its documentation gives the range [-pi,pi[ (C62_deltaphi_range_refuted). The sign is that of the second angle minus the first, whereas `DeltaEta` is the first minus the second.

- **HepMC text**: a weight name that holds a blank is printed quoted with the blank, and the decoder cuts lines at blanks: the file cannot be read (C63_blank_name_refuted). An event without vertices makes the decoder read on into the next event, which takes its place without an error, or fail at the end of the file (C63_no_vertex_refuted). A nil `PdfInfo` is read as zeros (C63_pdf_refuted); a beam particle without end vertex and the names of vertex weights are lost (C63_lost_refuted). `Decode` does not set the barcode counters: `AddVertex` of a new vertex on an event that was read takes barcode -1 and replaces that vertex (C63_counter_refuted).
- **HepMC streams**: `Copy` (and any loop that decodes into one `Event`) leaves cross section, heavy ion data, signal vertex, beams and weight names of earlier events in later ones that have none (C64_copy_leak_refuted, C64_reuse). A file cut anywhere between lines ends with `io.EOF`, so `Copy` reports success (C64_copy_truncated); cut inside the last number it is read with a wrong number (C64_cut_number_refuted). The second call of `Decode` after the last event returns `io.EOF`, the third waits for ever on the channel of the line reader (C64_end). IO_Ascii files always fail (C64_ascii_refuted); an empty line between events and an end vertex that is not in the file panic (C64_blank_line_refuted, C64_dangling_refuted); a file written without any event is an error for Decode and Copy (C64_empty_refuted).
- **Bins of equal width**: `NewH1D(49, 0, 1)` has its last edge below 1, and the entry 0.9999999999999999 is counted as overflow (C65_H1D_top_refuted). `NewH1D(10, -1e308, 1e308)` has bins of infinite width: entries are in the total but in no bin and no outflow (C65_H1D_infinite_width_refuted). `NewP1D(2, -1, 1).Fill(0.9999999999999999, y, w)` panics with an index out of range (C65_P1D_no_panic_refuted); a NaN panics on amd64 (C65_P1D_nan_refuted), where H1D counts it as overflow. In `NewP1D(10, 0, 1)` the entry 0.3 goes to the bin that starts at 0.30000000000000004; `NewH1D` puts it into the one before (C65_P1D_bin_refuted).
- **Binary form of histograms**: UnmarshalBinary has no check of its own: bytes that were cut or damaged panic with an index out of range instead of an error; RioUnmarshal panics on a negative length (C66_error_refuted), and a stream cut right behind the 8 bytes of the length gives `io.EOF`, as at a clean end (C66_eof_refuted).
- **brio-gen**: a field of type `[]byte` is read as `make([]byte, n)` followed by `append`, so it comes back with n zeros in front (C67_bytes_refuted). The bool in a `[]struct{ b bool }` is read from `data[i]` with the index of the loop instead of `data[0]` (C67_bools_refuted; outside of a loop `i` is undefined and the code does not compile). The loops over an array of arrays use `x[i][i]` with the inner `i` (C67_grid_refuted). By reading: the code printed for complex64 passes a uint32 to PutUint64, elements of slices and arrays that are not structs are taken as pointers (`byte(o)` with `o := &x[i]`), a slice of pointers assigns a struct to a pointer, `[n]byte` uses an `n` that is not there; none of this compiles, as the golden file testdata/briotest_brio.go shows. When the printed methods are already in the package, a second run of brio-gen treats a pointer to such a struct as a BinaryUnmarshaler and reads through the nil pointer.
- **Ratio of histograms**: DivideH1D does not compare the numbers of bins: with fewer bins in the denominator it panics (C68_fewer_bins_refuted), more are ignored (C68_more_bins_refuted). Two edges below 1e-8 are always taken as equal, so histograms in small units (e.g. seconds for nanosecond times) with different bins are divided without an error (C68_small_edges_refuted). DivIgnoreNaNs only looks at empty bins: a NaN height stays (C68_ignore_nan_refuted), a ratio that is 0 with an error (weights +1 and -1) is dropped (C68_ignore_drops_refuted). A negative ratio gets a negative error (C68_negative_error_refuted). The S2D that is returned has a nil map of annotations: setting its name panics (C68_result_annotation_refuted).
- **Scatter of a histogram**: with the mean as position and weights of both signs the point is outside of its bin, with a negative error (C68_focus_refuted).
- **Rand1D**: the position in the bin is scaled with the width of the *next* bin (`xbin := d.bins[i+1]`), so with bins of several widths the samples leave the bin; with edges 0, 1, 10 and equal weights the number 0.4 gives 7.2 instead of 0.8 (C69_width_refuted), and samples fall into bins without entries (C69_empty_bin_refuted). CDF is constant over each bin (C69_cdf_flat_refuted) and panics in a gap between bins (C69_gap_panics).
- **LCIO vectors**: LCFloatVec, LCIntVec and LCStrVec write their elements twice (`enc.Encode(vec.Elements)` in collections.go:70, 150, 230, then the loop), so that no such collection, even an empty one, can be read back: the reader stops with ErrBlockShortRead or garbage (C70_vectors_refuted).
- **LCIO generic objects** with the flag for a fixed size: only the sizes of the first object are written; objects of other sizes are written without any error and cannot be read back (C70_generic_refuted).
- **LCIO references**: typeFrom knows `*_References` but typeName has no case for them: an event with such a collection cannot be written, WriteEvent panics (C70_type_names_refuted). Names that typeFrom does not know panic in the reader.
- **LCIO clusters** with less weights than hits make the writer panic (C70_cluster_refuted); weights beyond the number of hits are dropped.
- **LCIO index**: `ControlWord&2 == 1` and `ControlWord&4 == 1` (meta.go:88 and 95) are never true: 64-bit offsets are read as 32-bit ones and everything after is shifted (C70_index_refuted).
- **LCIO**: the parameters of a simulated calorimeter hit are never written (they come back empty, as the table in LcioDataSpec.v says); particle ids of clusters are not tagged, pointers to them come back nil. Params.String is not modelled (it prints the strings where the floats are meant).
- **LCIO weight**: Weight panics when the parameters have an empty list under `_weight` (C71_weight_refuted).
- **LCIO unknown types**: an event header that names a type that typeFrom does not know makes Reader.Next panic, the error it could return is not used (C71_unknown_type_refuted); a file written by another LCIO implementation with a user type cannot be read past that event.
- **Orientation of tiny points**: when products are below 2^-1022 the bound of the rounding error is itself rounded to 0, and Orientation says CW of points that turn to the left (C72_orientation_small_refuted).
- **Incircle is not scale invariant**: mulFloat64 adds the new error to the old one without multiplying the old one away (`p.e += ... + p.e*|f|`), so for a circle of radius 2^-18 around the origin the bound is larger than the determinant and the filter does not decide on a point near its centre (C72_incircle_scale_refuted); the slower fallback is used.
- **Incircle, squares**: the bound of the error does not count the rounding of x*x+y*y; the answers are right all the same, because macheps is twice the largest relative error of an operation (C72_incircle).
- **Exact predicates not used**: robustOrientation and robustIncircle are exact (C72_robust_orientation, C72_robust_incircle) but Orientation and Incircle fall back on an LU factorisation that declares badly conditioned matrices singular, hence Colinear or On.
- **slha.Decode panics on malformed data lines**: a line of blanks or a blank followed by a comment inside a block makes `make([]int, -1)`; the same line in a decay, a decay with only one field, a negative number of products and fewer products than announced index out of range (C73_panic_refuted, C73_no_panic).
- **slha: strings in user blocks cannot be read**: anyvalue returns the string together with the error of Atoi, and Decode stops with it; Encode writes such values (C73_string_refuted).
- **slha: the integer case of anyvalue is never reached**: every integer is also a floating point number, so integers outside MODSEL come back as float64 (C73_values, C73_int_refuted).
- **slha: SPINFO values with blanks** such as a program name with its version in the same value are written but cannot be read (C73_info_refuted); infinite widths are written but the expression for DECAY lines does not accept them (C73_width_refuted).
- **slha: unknown sections**: the data lines after e.g. XSECTION are added to the block or the decay before it (C73_section_refuted).
- **slha: names and empty indices**: block names come back in upper case (C73_name_refuted); Index of an index without components is [0] (C73_index_none_refuted).
- **%.8E and back** is stable for normal numbers up to 10^308 (FloatDigits.v); it is not for some subnormal numbers, where two neighbours have the same 9 digits.
- **hepevt: negative Nhep**: Encode writes it, Decode slices with it and panics (C74_negative_refuted, C74_decode_panic).
- **lhef: spins**: Encode writes SPINUP and VTIMUP with %1.f., so a spin (a cosine) of 0.5 is read back as 0 (C75_spin_refuted), and NaN there makes the event unreadable (C75_nan_refuted).
- **lhef: sub-events**: the start tag eventgroup is never closed with a greater-than sign; Decode fails for every such event (C75_subevents_refuted).
- **lhef: panics**: Decode for a negative NUP, which Encode writes (C75_negative_refuted); NewDecoder for a root element without attributes (C75_attribute_refuted); Encode with XSecInfo.Neve above 0 (C75_neve_refuted).
- **lhef: no events**: an Encoder that is closed without events writes the end tag alone; the run is lost (C75_noevents_refuted). A header with a less-than sign makes the file unreadable (C75_header_refuted).
- **csvutil: rows lost**: WriteRow does not quote a field that begins with the comment character, and a row that is one empty string is an empty line; both are skipped when read (C76_comment_refuted, C76_empty_refuted). A carriage return before a newline in a string disappears (C76_crlf_refuted).
- **csvutil: headers**: WriteHeader writes to the file and WriteRow to a buffer, so a header written after rows may come before them (C76_header_order_refuted). ReadRows with a negative first row yields rows beyond end (C76_negative_refuted). Slices can be written and not scanned (C76_slice_refuted).
- **hbook: YODA counts**: the number of entries is written as a floating point number with 7 digits, so counts of 10^7 and more are rounded (C77_counts_lost, C77_count_refuted); a bin whose edges agree to 7 digits has no width when read (C77_edges_refuted).
- **hbook: YODA names**: a newline in the name cuts the header, and an annotation Path takes the place of the name (C77_name_refuted, C77_path_refuted). P1D.UnmarshalYODA leaves the sums of weights of the y part at zero (not observable through P1D's methods; H2D copies them).
- **hbook/yodacnv: Read**: a line END YODA_ before any BEGIN YODA_ makes Read panic (reflect.New of a nil type; C78_end_refuted). The flag that skips a block of an unknown type is only cleared by an END, so if that is missing the next object is lost (C78_unclosed_refuted).
- **hbook: S2D.UnmarshalYODA**: the error of Fscanf is not assigned, so lines that are not points become points at zero (C78_garbage_refuted). P1D.UnmarshalYODA panics on a profile whose range is empty with 7 digits, though MarshalYODA wrote it (C78_range_refuted).
- **hbook: H2D.UnmarshalYODA**: the edges by which Fill finds a bin are those of newBinning2D, of equal widths, whatever the widths of the bins that were read: a number is put into a bin that does not contain it (C79_fill_refuted). Columns whose low edges are the same to 7 digits are counted once and the bins of the others are lost without an error (C79_columns_refuted); an empty range and a table without bins panic (C79_range_refuted, C79_empty_refuted). Outflows are never written.
- **heppdt: parse**: the error of the scanner is not looked at after the loop, so a line of 65536 bytes or more ends the table silently (C80_long_line, C80_long_refuted). Only spaces separate columns (C80_tabs_refuted). When a number is there twice, with two names, the first name leads to a particle with the second (C80_name_refuted).
- **heppdt: calcWidthFromLifetime, IsStable**: a lifetime between 0 and 1e-20 s is made a width of 0, and the particle is stable, as if it had no lifetime (C80_short_lived, C80_short_refuted).
- **groot/rsql/rsqldrv: coerce1**: a literal that the type of the column cannot hold is left as it is, and the comparison is then an error: `WHERE x < 1000` for a column of int8 gives no rows (C81_literal_refuted). Columns of different integer types cannot be compared at all (C81_columns_refuted).
- **groot/rsql/rsqldrv: driverRows.start**: the value of the filter is asserted to be a bool in a goroutine: a condition like `WHERE x - 1` stops the program of the user (C81_number_refuted).
- **groot/rsql/rsqldrv: newValueExpr, idealValArgFrom**: a query with fewer arguments than places, or with a boolean as an argument, panics in the call of the user (C81_missing_refuted, C81_boolean_refuted).
- **groot/rsql/rsqldrv: extractColsFromSelect, Next**: of `SELECT x, y` only `x` is answered, without an error (C81_second_refuted). A selected comparison has no column, and the row is written beyond its slice (C81_selected_refuted).
- **groot/rsql/rsqldrv: colDescrFrom**: the scan type of a column of arrays or slices is the type of their elements (C81_length, C81_array_refuted).
- **groot/rsql/rsqldrv: operatorFrom**: the operators on bits are accepted, and fail at the first row with the message "impossible" (C81_bits).

## 5. Assumptions listed by Print Assumptions

Every property file ends with `Print Assumptions`; all theorems are "Closed under the global context" unless
listed here. The theorems of C61, C62, C65, C68, C69, C72, C79 and C80 (`FmomProps.v`, `FmomBoost.v`, `HistProps.v`,
`HopsProps.v`, `PredProps.v`, `YodaH2Props.v`, `PdtProps.v`) are about real numbers, or about models that add,
multiply or divide floating-point numbers with Flocq, whose operations carry proofs about real numbers. They use the axioms of
the standard library that its real numbers rest on:
`ClassicalDedekindReals.sig_not_dec`, `ClassicalDedekindReals.sig_forall_dec`,
`FunctionalExtensionality.functional_extensionality_dep` and, for those that use trigonometric functions, roots or
floating-point operations, `Classical_Prop.classic`. No other theorem has an assumption.

## 6. What is modelled, what is not

The header comment of each `*Model.v` lists the Go files and functions it transcribes and the simplifications.
Not modelled: everything else, in particular compression algorithms, operating-system files and network, GUI and
plotting code, code generators, command-line programs, reflection-based type mapping.

<!-- coverage -->
Generated by tools/coverage.py from the citations in the models. A function is listed as modelled when a definition cites lines of it.

864 functions in 159 files are cited.

| file | modelled | not modelled |
|---|---|---|
| brio/cmd/brio-gen/internal/gen/gen.go | Generator.genMarshal, Generator.genMarshalType, Generator.genUnmarshal, Generator.genUnmarshalType | NewGenerator, Generator.printf, Generator.Generate, isByteType, qualTypeName, Generator.Format, importPkg, init |
| csvutil/csv.go | formatValue, Create, Append, Table.Close, Table.ReadRows, Table.WriteHeader, Table.WriteRow, Table.write, Rows.Scan, Rows.scan, Rows.skip, Rows.Next | min, Open, Table.writeStruct, Rows.Err, Rows.Close, Rows.NumFields, Rows.Fields, Rows.scanStruct |
| fastjet/clustersequence.go | NewClusterSequence, ClusterSequence.NumExclusiveJets, ClusterSequence.ExclusiveJets, ClusterSequence.ExclusiveJetsUpTo, ClusterSequence.InclusiveJets, ClusterSequence.init, ClusterSequence.run, ClusterSequence.Constituents, ClusterSequence.addConstituents, ClusterSequence.jetScaleForAlgorithm, ClusterSequence.ijRecombinationStep, ClusterSequence.ibRecombinationStep, ClusterSequence.addStepToHistory, ClusterSequence.runN3Dumb | ClusterSequence.setStructure, ClusterSequence.runNlnN |
| fastjet/internal/heap/heap.go | New, Heap.Push, Heap.Pop, Heap.IsEmpty, Heap.moveUp, Heap.moveDown, Heap.less, Heap.swap | - |
| fastjet/internal/predicates/float64Pred.go | newFloat64Pred, float64Pred.addFloat64Pred, float64Pred.subFloat64Pred, float64Pred.mulFloat64 | - |
| fastjet/internal/predicates/incircle.go | Incircle, simpleIncircle, rowFloat, robustIncircle, rowBig | RelativePosition.String, matIncircle |
| fastjet/internal/predicates/orientation.go | Orientation, simpleOrientation, robustOrientation | OrientationKind.String, matOrientation |
| fmom/eetaphim.go | NewEEtaPhiM, EEtaPhiM.E, EEtaPhiM.Eta, EEtaPhiM.Phi, EEtaPhiM.M, EEtaPhiM.M2, EEtaPhiM.P, EEtaPhiM.P2, EEtaPhiM.CosPhi, EEtaPhiM.SinPhi, EEtaPhiM.TanTh, EEtaPhiM.CotTh, EEtaPhiM.CosTh, EEtaPhiM.SinTh, EEtaPhiM.Pt, EEtaPhiM.Et, EEtaPhiM.IPt, EEtaPhiM.Rapidity, EEtaPhiM.Px, EEtaPhiM.Py, EEtaPhiM.Pz, EEtaPhiM.Set | EEtaPhiM.String, EEtaPhiM.Clone |
| fmom/etetaphim.go | NewEtEtaPhiM, EtEtaPhiM.Et, EtEtaPhiM.Eta, EtEtaPhiM.Phi, EtEtaPhiM.M, EtEtaPhiM.M2, EtEtaPhiM.P, EtEtaPhiM.P2, EtEtaPhiM.CosPhi, EtEtaPhiM.SinPhi, EtEtaPhiM.TanTh, EtEtaPhiM.CotTh, EtEtaPhiM.CosTh, EtEtaPhiM.SinTh, EtEtaPhiM.Pt, EtEtaPhiM.E, EtEtaPhiM.IPt, EtEtaPhiM.Rapidity, EtEtaPhiM.Px, EtEtaPhiM.Py, EtEtaPhiM.Pz, EtEtaPhiM.Set | EtEtaPhiM.String, EtEtaPhiM.Clone |
| fmom/iptcotthphim.go | NewIPtCotThPhiM, IPtCotThPhiM.IPt, IPtCotThPhiM.CotTh, IPtCotThPhiM.Phi, IPtCotThPhiM.M, IPtCotThPhiM.Pt, IPtCotThPhiM.P, IPtCotThPhiM.P2, IPtCotThPhiM.M2, IPtCotThPhiM.TanTh, IPtCotThPhiM.SinTh, IPtCotThPhiM.CosTh, IPtCotThPhiM.E, IPtCotThPhiM.Et, IPtCotThPhiM.Eta, IPtCotThPhiM.Rapidity, IPtCotThPhiM.Px, IPtCotThPhiM.Py, IPtCotThPhiM.Pz, IPtCotThPhiM.CosPhi, IPtCotThPhiM.SinPhi, IPtCotThPhiM.Set | IPtCotThPhiM.String, IPtCotThPhiM.Clone |
| fmom/ops.go | Equal, p4equal, cmpeq, Add, IAdd, Scale, InvMass, BoostOf, Boost, VecOf | - |
| fmom/ptetaphim.go | NewPtEtaPhiM, PtEtaPhiM.Pt, PtEtaPhiM.Eta, PtEtaPhiM.Phi, PtEtaPhiM.M, PtEtaPhiM.E, PtEtaPhiM.P, PtEtaPhiM.P2, PtEtaPhiM.M2, PtEtaPhiM.CosPhi, PtEtaPhiM.SinPhi, PtEtaPhiM.CotTh, PtEtaPhiM.CosTh, PtEtaPhiM.SinTh, PtEtaPhiM.TanTh, PtEtaPhiM.Et, PtEtaPhiM.IPt, PtEtaPhiM.Rapidity, PtEtaPhiM.Px, PtEtaPhiM.Py, PtEtaPhiM.Pz, PtEtaPhiM.Set | PtEtaPhiM.String, PtEtaPhiM.Clone |
| fmom/pxpypze.go | NewPxPyPzE, PxPyPzE.M2, PxPyPzE.M, PxPyPzE.Eta, PxPyPzE.Phi, PxPyPzE.P2, PxPyPzE.P, PxPyPzE.CosPhi, PxPyPzE.SinPhi, PxPyPzE.TanTh, PxPyPzE.CotTh, PxPyPzE.CosTh, PxPyPzE.SinTh, PxPyPzE.Pt, PxPyPzE.Et, PxPyPzE.IPt, PxPyPzE.Rapidity, PxPyPzE.Set, PxPyPzE.SetPtEtaPhiM, PxPyPzE.SetPtEtaPhiE | PxPyPzE.String, PxPyPzE.Clone, PxPyPzE.Px, PxPyPzE.Py, PxPyPzE.Pz, PxPyPzE.E, PxPyPzE.X, PxPyPzE.Y, PxPyPzE.Z, PxPyPzE.T |
| fmom/utils.go | DeltaPhi, DeltaEta, DeltaR, Dot, CosTheta | - |
| fwk/app.go | appmgr.runSequential | NewApp, appmgr.Type, appmgr.Name, appmgr.Component, appmgr.addComponent, appmgr.HasComponent, appmgr.Components, appmgr.AddTask, appmgr.DelTask, appmgr.HasTask, appmgr.GetTask, appmgr.Tasks, appmgr.AddSvc, appmgr.DelSvc, appmgr.HasSvc, appmgr.GetSvc, appmgr.Svcs, appmgr.DeclProp, appmgr.SetProp, appmgr.GetProp, appmgr.HasProp, appmgr.DeclInPort, appmgr.DeclOutPort, appmgr.FSMState, appmgr.Run, appmgr.Scripter, appmgr.configure, appmgr.start, appmgr.run, appmgr.runConcurrent, appmgr.startInputStream, appmgr.startOutputStreams, appmgr.stop, appmgr.shutdown, appmgr.Msg, appmgr.printDataFlow, init |
| fwk/dflow.go | dflowsvc.StartSvc, dflowsvc.addInNode, dflowsvc.addOutNode | newNode, dflowsvc.Configure, dflowsvc.StopSvc, dflowsvc.keys, nodeFlow.Attributes, dflowsvc.dumpGraph, newDataFlowSvc, init |
| fwk/store.go | datastore.Get, datastore.Put, datastore.reset, datastore.close | datastore.Configure, datastore.Has, datastore.StartSvc, datastore.StopSvc, init |
| fwk/utils/parallel/parallel.go | NewRun, Run.Do, Run.Wait | Errors.Error |
| fwk/utils/tarjan/tarjan.go | Connections, data.strongConnect | - |
| fwk/worker.go | worker.runTask | newWorker, worker.run, taskrunner.run |
| groot/internal/httpio/reader.go | Reader.ReadAt | Open, Reader.Size, Reader.Name, Reader.Close, Reader.Read, Reader.Seek, Reader.getReq, rng |
| groot/internal/rcompress/rcompress.go | SettingsFrom, Settings.Compression, kindOf, rootCompressAlgLvl, Compress, compressBlock, Decompress, wbuff.Write | - |
| groot/rbase/named.go | Named.Class, Named.UnmarshalROOT, Named.MarshalROOT | NewNamed, Named.RVersion, Named.Name, Named.Title, Named.SetName, Named.SetTitle, Named.UID, Named.Sizeof, tstringSizeof, Named.RMembers, init |
| groot/rbase/object.go | Object.UnmarshalROOT, Object.MarshalROOT | NewObject, Object.Class, Object.UID, Object.RVersion, Object.SetID, Object.SetBit, Object.ResetBit, Object.SetBits, Object.TestBits, Object.RMembers, init |
| groot/rbase/objstring.go | ObjString.Class, ObjString.UnmarshalROOT, ObjString.MarshalROOT | NewObjString, ObjString.RVersion, ObjString.UID, ObjString.Name, ObjString.Title, ObjString.String, init |
| groot/rbase/uuid.go | UUID.MarshalROOT, UUID.UnmarshalROOTv1, UUID.UnmarshalROOT | UUID.Class, UUID.RVersion, UUID.Sizeof, init |
| groot/rbytes/rbuffer.go | RBuffer.ReadHeader, RBuffer.Pos, RBuffer.SetPos, RBuffer.setPos, RBuffer.Len, RBuffer.read, RBuffer.ReadStdString, RBuffer.ReadString, RBuffer.ReadCString, RBuffer.ReadBool, RBuffer.readBool, RBuffer.ReadU8, RBuffer.readU8, RBuffer.ReadI8, RBuffer.readI8, RBuffer.readWithFactorF16, RBuffer.readWithNbitsF16, RBuffer.readWithFactorD32, RBuffer.readWithNbitsD32, RBuffer.ReadStaticArrayI32, RBuffer.ReadArrayBool, RBuffer.ReadArrayI8, RBuffer.ReadArrayU8, RBuffer.ReadArrayString, RBuffer.ReadStdVectorStrs, RBuffer.SkipVersion, RBuffer.CheckHeader, RBuffer.ReadObject, RBuffer.ReadObjectAny, RBuffer.ReadStdBitset | rbuff.Read, rbuff.ReadByte, rbuff.Seek, NewRBuffer, RBuffer.Reset, RBuffer.StreamerInfo, RBuffer.Err, RBuffer.SetErr, RBuffer.Read, RBuffer.bytes, RBuffer.DumpHex, RBuffer.ReadF16, RBuffer.ReadD32, RBuffer.ReadArrayF16, RBuffer.ReadArrayD32, RBuffer.SkipObject, RBuffer.RStream |
| groot/rbytes/rbuffer_gen.go | RBuffer.ReadArrayU16, RBuffer.ReadU16, RBuffer.ReadStdVectorU16 | RBuffer.ReadArrayU32, RBuffer.ReadU32, RBuffer.ReadStdVectorU32, RBuffer.ReadArrayU64, RBuffer.ReadU64, RBuffer.ReadStdVectorU64, RBuffer.ReadArrayI16, RBuffer.ReadI16, RBuffer.ReadStdVectorI16, RBuffer.ReadArrayI32, RBuffer.ReadI32, RBuffer.ReadStdVectorI32, RBuffer.ReadArrayI64, RBuffer.ReadI64, RBuffer.ReadStdVectorI64, RBuffer.ReadArrayF32, RBuffer.ReadF32, RBuffer.ReadStdVectorF32, RBuffer.ReadArrayF64, RBuffer.ReadF64, RBuffer.ReadStdVectorF64 |
| groot/rbytes/wbuffer.go | wbuff.Write, wbuff.grow, WBuffer.Pos, WBuffer.SetPos, WBuffer.setPos, WBuffer.WriteHeader, WBuffer.SetHeader, WBuffer.WriteObjectAny, WBuffer.WriteClass, WBuffer.write, WBuffer.WriteI8, WBuffer.writeI8, WBuffer.writeI32, WBuffer.WriteU8, WBuffer.writeU8, WBuffer.writeU16, WBuffer.writeU32, WBuffer.writeF32, WBuffer.WriteF16, WBuffer.WriteD32, WBuffer.WriteBool, WBuffer.WriteStdString, WBuffer.WriteString, WBuffer.writeString, WBuffer.WriteCString, WBuffer.WriteStaticArrayI32, WBuffer.WriteArrayBool, WBuffer.WriteArrayI8, WBuffer.WriteArrayU8, WBuffer.strlen, WBuffer.WriteArrayString, WBuffer.WriteStdVectorStrs, WBuffer.WriteStdBitset | NewWBuffer, WBuffer.StreamerInfo, WBuffer.Grow, WBuffer.buffer, WBuffer.Bytes, WBuffer.Err, WBuffer.SetErr, WBuffer.Len, WBuffer.DumpHex, WBuffer.Write, WBuffer.WriteObject, WBuffer.WriteArrayF16, WBuffer.WriteArrayD32 |
| groot/rbytes/wbuffer_gen.go | WBuffer.WriteArrayU16, WBuffer.WriteU16, WBuffer.WriteStdVectorU16, WBuffer.WriteU32, WBuffer.WriteU64, WBuffer.WriteI16, WBuffer.WriteI32, WBuffer.WriteI64, WBuffer.WriteF32, WBuffer.WriteF64 | WBuffer.WriteArrayU32, WBuffer.WriteStdVectorU32, WBuffer.WriteArrayU64, WBuffer.WriteStdVectorU64, WBuffer.WriteArrayI16, WBuffer.WriteStdVectorI16, WBuffer.WriteArrayI32, WBuffer.WriteStdVectorI32, WBuffer.WriteArrayI64, WBuffer.WriteStdVectorI64, WBuffer.WriteArrayF32, WBuffer.WriteStdVectorF32, WBuffer.WriteArrayF64, WBuffer.WriteStdVectorF64 |
| groot/rcont/list.go | NewList, List.Class, List.Title, List.Append, List.MarshalROOT, List.UnmarshalROOT, HashList.Class, HashList.MarshalROOT, HashList.UnmarshalROOT | List.RVersion, List.UID, List.Name, List.At, List.Last, List.Len, List.RMembers, HashList.RVersion, init |
| groot/rcont/map.go | Map.MarshalROOT, Map.UnmarshalROOT | NewMap, Map.RVersion, Map.Class, Map.UID, Map.Name, Map.Title, Map.SetName, Map.Table, init |
| groot/rcont/objarray.go | ObjArray.Class, ObjArray.MarshalROOT, ObjArray.UnmarshalROOT | NewObjArray, ObjArray.RVersion, ObjArray.UID, ObjArray.Name, ObjArray.Title, ObjArray.TestBits, ObjArray.At, ObjArray.Last, ObjArray.Len, ObjArray.LowerBound, ObjArray.SetElems, init |
| groot/rcont/refarray.go | RefArray.Class, RefArray.MarshalROOT, RefArray.UnmarshalROOT | NewRefArray, RefArray.RVersion, RefArray.UID, RefArray.Name, RefArray.Title, RefArray.At, RefArray.Last, RefArray.Len, RefArray.UIDs, init |
| groot/rdict/gen.go | GoName2Cxx | gotype2RMeta, Typename |
| groot/riofs/blocks.go | freeSegment.free, freeSegment.sizeof, freeSegment.MarshalROOT, freeSegment.UnmarshalROOT, freeList.Less, freeList.add, freeList.find, freeList.consolidate, freeList.remove, freeList.best | t.Class, init, freeList.Len, freeList.Swap, freeList.last |
| groot/riofs/dir.go | newDirectoryFile, tdirectoryFile.isBigFile, tdirectoryFile.recordSize, tdirectoryFile.readDirInfo, tdirectoryFile.readKeys, tdirectoryFile.close, tdirectoryFile.save, tdirectoryFile.saveSelf, tdirectoryFile.writeHeader, tdirectoryFile.Get, tdirectoryFile.Put, tdirectoryFile.Mkdir, tdirectoryFile.MarshalROOT, tdirectoryFile.UnmarshalROOT, tdirectoryFile.writeKeys | tdirectory.RVersion, tdirectory.Class, tdirectory.Name, tdirectory.Title, tdirectory.MarshalROOT, tdirectory.UnmarshalROOT, tdirectoryFile.Keys, tdirectoryFile.Parent, tdirectoryFile.RVersion, tdirectoryFile.Class, tdirectoryFile.Name, tdirectoryFile.Title, tdirectoryFile.StreamerInfo, tdirectoryFile.addStreamer, tdirectoryFile.records, init, isCoreType, isCxxBuiltin |
| groot/riofs/file.go | Open, Create, File.setEnd, File.readHeader, File.writeHeader, File.Close, File.readStreamerInfo, File.writeStreamerInfo, File.markFree, File.readFreeSegments, File.writeFreeSegments, File.IsBigFile | NewReader, File.Stat, File.Read, File.ReadAt, File.WriteAt, File.Version, File.Keys, File.Name, File.Title, File.Class, File.Compression, File.findDepStreamers, File.StreamerInfos, File.StreamerInfo, File.RegisterStreamer, File.addStreamer, File.Get, File.Put, File.Mkdir, File.Parent, File.SegmentMap, File.Records, autogenCtx.StreamerInfo |
| groot/riofs/key.go | newKey, NewKey, newKeyFrom, newKeyFromBuf, NewKeyForBasketInternal, Key.Value, Key.Object, Key.load, Key.isCompressed, Key.isBigFile, keylenFor, Key.MarshalROOT, Key.UnmarshalROOT, Key.writeFile | WithKeyCompression, newKeyCfg, noKeyError.Error, keyTypeError.Error, KeyFromDir, Key.RVersion, Key.Class, Key.ClassName, Key.Name, Key.Title, Key.Cycle, Key.Nbytes, Key.ObjLen, Key.KeyLen, Key.SeekKey, Key.Buffer, Key.SetFile, Key.SetBuffer, Key.ObjectType, Key.Bytes, Key.Load, Key.sizeof, Key.records, init |
| groot/riofs/plugin/http/preader.go | preader.ReadAt, preader.pread | preader.Close, preader.Read |
| groot/riofs/plugin/http/rcache.go | rcache.ReadAt, rcache.fetch | rcacheOf, rcache.Close, rcache.Read, rcache.split |
| groot/riofs/plugin/http/span.go | split, spans.consolidate, spans.add | spans.remove |
| groot/riofs/sizeof.go | tstringSizeof | datimeSizeof |
| groot/riofs/utils.go | decodeNameCycle, datime2time, time2datime | - |
| groot/riofs/walk.go | Walk, walk, recDir.get, recDir.put, recDir.mkdir, recDir.walkdir, recDir.walkobj | recDir.Get, recDir.Put, recDir.Keys, recDir.Mkdir, recDir.Parent, Dir, fileOf, Get |
| groot/rsql/rsqldrv/driver.go | newDriverRows, driverRows.extractDepsFromSelect, driverRows.extractColsFromSelect, driverRows.ColumnTypeLength, driverRows.start, driverRows.Next, newExprFrom | init, Open, Create, rootDriver.open, rootDriver.connect, rootDriver.Open, driverConn.Prepare, driverConn.Close, driverConn.Begin, driverConn.Commit, driverConn.Rollback, driverConn.ExecContext, driverConn.exec, driverConn.QueryContext, driverConn.query, driverResult.LastInsertId, driverResult.RowsAffected, varsFrom, driverRows.Columns, driverRows.ColumnTypeScanType, driverRows.ColumnTypeNullable, driverRows.Close, driverStmt.Close, driverStmt.NumInput, driverStmt.Exec, driverStmt.Query |
| groot/rsql/rsqldrv/expr.go | binExpr.eval, operatorFrom, identExpr.eval, newValueExpr, idealValArgFrom, valueExpr.eval, tupleExpr.eval | newExecCtx, newBinExpr, binExpr.sql, binExpr.isStatic, binExpr.load, eval, eval2, operator.String, identExpr.sql, identExpr.isStatic, valueExpr.sql, valueExpr.isStatic, tupleExpr.sql, tupleExpr.isStatic |
| groot/rsql/rsqldrv/types.go | coerce, coerce1, colDescrFromLeaf, colDescrFrom | - |
| groot/rtree/basket.go | newBasketFrom, Basket.update, Basket.writeFile | Basket.Name, Basket.Title, Basket.RVersion, Basket.Class, Basket.MarshalROOT, Basket.UnmarshalROOT, Basket.loadLeaf, Basket.computeEntryOffsets, Basket.canGenerateOffsetArray, Basket.grow, init |
| groot/rtree/bkreader.go | newBkReader, bkreader.findBaskets, bkreader.run, bkreader.read | bkreader.close |
| groot/rtree/branch.go | newBranchFromWVar, tbranch.UnmarshalROOT, tbranch.loadEntry, tbranch.loadBasket, tbranch.findBasketIndex, tbranch.createNewBasket, tbranch.write, tbranch.flush | tbranch.RVersion, tbranch.Name, tbranch.Title, tbranch.Class, tbranch.getTree, tbranch.setTree, tbranch.Branches, tbranch.Leaves, tbranch.Branch, tbranch.Leaf, tbranch.GoType, tbranch.getReadEntry, tbranch.getEntry, tbranch.MarshalROOT, tbranch.setupBasket, tbranch.setStreamer, tbranch.setStreamerElement, tbranch.writeToBuffer, tbranchObject.RVersion, tbranchObject.Class, tbranchObject.MarshalROOT, tbranchObject.UnmarshalROOT, newBranchElementFromWVar, tbranchElement.RVersion, tbranchElement.Class, tbranchElement.MarshalROOT, tbranchElement.UnmarshalROOT, tbranchElement.loadEntry, tbranchElement.setupReadStreamer, tbranchElement.GoType, tbranchElement.setStreamer, tbranchElement.setStreamerElement, tbranchElement.write, tbranchElement.writeToBuffer, btopOf, init, basketCtx.inflate |
| groot/rtree/chain.go | Chain, chain.Entries | ChainOf, chain.loadTree, chain.Class, chain.Name, chain.Title, chain.Branches, chain.Branch, chain.Leaves, chain.Leaf |
| groot/rtree/join.go | Join | join.Class, join.Name, join.Title, join.Entries, join.Branches, join.Branch, join.Leaves, join.Leaf |
| groot/rtree/rbasket.go | rbasket.loadRLeaf, rbasket.inflate | rbasket.reset |
| groot/rtree/rbranch.go | newRBranch, rbranch.start, rbranch.read | rbranch.stop, rbranch.reset, asBranch |
| groot/rtree/rchain.go | newRChain, rchain.run, rchain.findTrees | rchain.Close, rchain.rvars, rchain.loadRVars, rchain.runTree, rchain.start, rchain.stop, rchain.reset |
| groot/rtree/reader.go | Reader.setup, rtree.run, rtree.read | WithRange, WithPrefetchBaskets, NewReader, Reader.Close, Reader.Read, Reader.Reset, Reader.FormulaFunc, Reader.Formula, sanitizeRVars, rtree.rvars, newReader, newRTree, rtree.Close, rtree.start, rtree.stop, rtree.reset, rtree.rcountFunc, rtree.rcountLeaf |
| groot/rtree/rjoin.go | rjoin.run, rjoin.read | newRJoin, rjoin.loadRVars, rjoin.Close, rjoin.rvars, rjoin.reset, rjoin.start, rjoin.stop |
| groot/rtree/writer.go | wtree.Close | WithLZ4, WithLZMA, WithoutCompression, WithZlib, WithZstd, WithBasketSize, WithTitle, WithSplitLevel, NewWriter, wtree.SetTitle, wtree.ROOTMerge, wtree.Write, wtree.Flush, fileOf, flattenArrayType |
| groot/rtypes/factory.go | factory.Get | factory.Len, factory.Keys, factory.HasKey, factory.Add |
| hbook/ann.go | Annotation.MarshalBinary, Annotation.UnmarshalBinary | Annotation.clone, Annotation.MarshalYODA, Annotation.marshalYODAv1, Annotation.marshalYODAv2, Annotation.UnmarshalYODA, Annotation.unmarshalYODAv1, Annotation.unmarshalYODAv2 |
| hbook/bin1d.go | Bin1D.fill, Bin1D.XMid, Bin1D.XWidth, Bin1D.XFocus, Bin1D.XMean, Bin1Ds.IndexOf | Bin1D.clone, D.Rank, Bin1D.addScaled, Bin1D.scaleW, Bin1D.Entries, Bin1D.EffEntries, Bin1D.SumW, Bin1D.SumW2, Bin1D.ErrW, Bin1D.XEdges, Bin1D.XMin, Bin1D.XMax, Bin1D.XVariance, Bin1D.XStdDev, Bin1D.XStdErr, Bin1D.XRMS, Bin1Ds.Len, Bin1Ds.Less, Bin1Ds.Swap |
| hbook/binning1d.go | newBinning1D, newBinning1DFromBins, newBinning1DFromEdges, Binning1D.fill, Binning1D.coordToIndex, Binning1D.scaleW | Binning1D.clone, Binning1D.entries, Binning1D.effEntries, Binning1D.xMin, Binning1D.xMax, Binning1D.Underflow, Binning1D.Overflow |
| hbook/binning2d.go | newBinning2D, newBinning2DFromEdges, Binning2D.fill, Binning2D.coordToIndex | Binning2D.entries, Binning2D.effEntries, Binning2D.xMin, Binning2D.xMax, Binning2D.yMin, Binning2D.yMax |
| hbook/binning_brio.go | Range.MarshalBinary, Range.UnmarshalBinary, Binning1D.MarshalBinary, Binning1D.UnmarshalBinary, binningP1D.MarshalBinary, binningP1D.UnmarshalBinary, Bin1D.MarshalBinary, Bin1D.UnmarshalBinary, BinP1D.MarshalBinary, BinP1D.UnmarshalBinary, Binning2D.MarshalBinary, Binning2D.UnmarshalBinary, Bin2D.MarshalBinary, Bin2D.UnmarshalBinary | - |
| hbook/dist.go | Dist0D.fill, Dist0D.addScaled, Dist0D.scaleW, Dist1D.mean, Dist1D.fill, Dist1D.addScaled, Dist1D.scaleW, Dist2D.fill | Dist0D.clone, Dist0D.Rank, Dist0D.Entries, Dist0D.EffEntries, Dist0D.errW, Dist1D.clone, Dist1D.Rank, Dist1D.Entries, Dist1D.EffEntries, Dist1D.SumW, Dist1D.SumW2, Dist1D.SumWX, Dist1D.SumWX2, Dist1D.errW, Dist1D.variance, Dist1D.stdDev, Dist1D.stdErr, Dist1D.rms, Dist2D.Rank, Dist2D.Entries, Dist2D.EffEntries, Dist2D.SumW, Dist2D.SumW2, Dist2D.SumWX, Dist2D.SumWX2, Dist2D.SumWY, Dist2D.SumWY2, Dist2D.SumWXY, Dist2D.xMean, Dist2D.yMean, Dist2D.xVariance, Dist2D.yVariance, Dist2D.xStdDev, Dist2D.yStdDev, Dist2D.xStdErr, Dist2D.yStdErr, Dist2D.xRMS, Dist2D.yRMS, Dist2D.scaleW |
| hbook/dist_brio.go | Dist0D.MarshalBinary, Dist0D.UnmarshalBinary, Dist1D.MarshalBinary, Dist1D.UnmarshalBinary, Dist2D.MarshalBinary, Dist2D.UnmarshalBinary | - |
| hbook/h1d.go | H1D.Name, H1D.Fill, H1D.FillN, H1D.Bin, H1D.Integral, H1D.RioMarshal, H1D.RioUnmarshal, H1D.annToYODA, H1D.annFromYODA, H1D.marshalYODAv2, H1D.unmarshalYODAv2 | NewH1D, NewH1DFromEdges, NewH1DFromBins, H1D.Clone, H1D.Annotation, H1D.Rank, H1D.Entries, H1D.EffEntries, H1D.SumW, H1D.SumW2, H1D.SumWX, H1D.SumWX2, H1D.XMean, H1D.XVariance, H1D.XStdDev, H1D.XStdErr, H1D.XRMS, H1D.XMin, H1D.XMax, H1D.Scale, H1D.Value, H1D.Error, H1D.Len, H1D.XY, H1D.DataRange, H1D.RioVersion, H1D.MarshalYODA, H1D.marshalYODAv1, H1D.UnmarshalYODA, H1D.unmarshalYODAv1, H1D.Counts, init |
| hbook/h2d.go | H2D.marshalYODAv2, H2D.unmarshalYODAv2 | NewH2D, NewH2DFromEdges, H2D.Name, H2D.Annotation, H2D.Rank, H2D.Entries, H2D.EffEntries, H2D.SumW, H2D.SumW2, H2D.SumWX, H2D.SumWX2, H2D.SumWY, H2D.SumWY2, H2D.SumWXY, H2D.XMean, H2D.YMean, H2D.XVariance, H2D.YVariance, H2D.XStdDev, H2D.YStdDev, H2D.XStdErr, H2D.YStdErr, H2D.XRMS, H2D.YRMS, H2D.Fill, H2D.FillN, H2D.Bin, H2D.XMin, H2D.XMax, H2D.YMin, H2D.YMax, H2D.Integral, H2D.GridXYZ, h2dGridXYZ.Dims, h2dGridXYZ.Z, h2dGridXYZ.X, h2dGridXYZ.Y, H2D.annToYODA, H2D.annFromYODA, H2D.MarshalYODA, H2D.marshalYODAv1, H2D.UnmarshalYODA, H2D.unmarshalYODAv1 |
| hbook/hbook.go | Range.Width | Range.clone |
| hbook/hbook_brio.go | H1D.MarshalBinary, H1D.UnmarshalBinary, H2D.MarshalBinary, H2D.UnmarshalBinary, P1D.MarshalBinary, P1D.UnmarshalBinary, S2D.MarshalBinary, S2D.UnmarshalBinary | - |
| hbook/ops.go | DivideH1D, newDivConfig, DivIgnoreNaNs, DivReplaceNaNs, fuzzyEq, AddScaledH1D, AddH1D, SubH1D | - |
| hbook/p1d.go | P1D.Fill, P1D.annToYODA, P1D.annFromYODA, P1D.marshalYODAv2, P1D.unmarshalYODAv2, newBinningP1D, binningP1D.fill, binningP1D.coordToIndex | NewP1D, NewP1DFromH1D, NewP1DFromH1D, P1D.Name, P1D.Annotation, P1D.Rank, P1D.Entries, P1D.EffEntries, P1D.Binning, P1D.SumW, P1D.SumW2, P1D.XMean, P1D.XVariance, P1D.XStdDev, P1D.XStdErr, P1D.XRMS, P1D.XMin, P1D.XMax, P1D.Scale, P1D.MarshalYODA, P1D.marshalYODAv1, P1D.UnmarshalYODA, P1D.unmarshalYODAv1, binningP1D.entries, binningP1D.effEntries, binningP1D.xMin, binningP1D.xMax, binningP1D.scaleW, binningP1D.Bins, D.Rank, BinP1D.scaleW, BinP1D.fill, BinP1D.Entries, BinP1D.EffEntries, BinP1D.SumW, BinP1D.SumW2, BinP1D.XEdges, BinP1D.XMin, BinP1D.XMax, BinP1D.XMid, BinP1D.XWidth, BinP1D.XFocus, BinP1D.XMean, BinP1D.XVariance, BinP1D.XStdDev, BinP1D.XStdErr, BinP1D.XRMS |
| hbook/points.go | Point2D.XMin, Point2D.XMax, Point2D.YMin, Point2D.YMax, Point2D.ScaleX, Point2D.ScaleY, points2D.Less | Point2D.ScaleXY, points2D.Len, points2D.Swap |
| hbook/points_brio.go | Point2D.MarshalBinary, Point2D.UnmarshalBinary | - |
| hbook/rand_h1d.go | NewRand1D, Rand1D.search, Rand1D.Rand, Rand1D.CDF | - |
| hbook/s2d.go | NewS2DFromH1D, S2D.marshalYODAv2, S2D.unmarshalYODAv2 | NewS2D, NewS2DFrom, NewS2DFromP1D, S2D.Annotation, S2D.Name, S2D.Rank, S2D.Entries, S2D.Fill, S2D.Sort, S2D.Points, S2D.Point, S2D.ScaleX, S2D.ScaleY, S2D.ScaleXY, S2D.Len, S2D.XY, S2D.XError, S2D.YError, S2D.DataRange, S2D.annToYODA, S2D.annFromYODA, S2D.MarshalYODA, S2D.marshalYODAv1, S2D.UnmarshalYODA, S2D.unmarshalYODAv1 |
| hbook/yoda.go | readYODAHeader | - |
| hbook/yodacnv/yoda.go | Read, Write, splitHeader | - |
| hepevt/ascii_io.go | Encoder.Encode, Decoder.Decode | NewEncoder, NewDecoder |
| hepmc/decoder.go | NewDecoder, Decoder.readlines, Decoder.readline, Decoder.Decode, Decoder.findFileType, Decoder.findEndKey, Decoder.decodeUnits, Decoder.decodeCrossSection, Decoder.decodeEvent, Decoder.decodeVertex, Decoder.decodeParticle, Decoder.decodeFlow, Decoder.decodeHeavyIon, Decoder.decodePdfInfo, Decoder.decodeASCII | Decoder.decodeExtendedASCII |
| hepmc/encoder.go | Encoder.Close, Encoder.Encode, Encoder.encodeVertex, Encoder.encodeParticle, Encoder.encodeFlow, Encoder.encodeCrossSection, Encoder.encodeHeavyIon, Encoder.encodePdfInfo | NewEncoder |
| hepmc/hepmc.go | Delete, Event.AddVertex, Event.removeVertex, Event.removeParticle, Event.vBarcode, Event.pBarcode, Vertex.setParentEvent, Vertex.AddParticleIn, Vertex.AddParticleOut, Vertex.removeParticleIn, Vertex.removeParticleOut, Weights.Add, Weights.At, NewWeights | Event.Delete, Event.Print, Particle.dump, Particles.Len, Particles.Less, Particles.Swap, Vertices.Len, Vertices.Less, Vertices.Swap, Vertex.Print |
| hepmc/io.go | Copy, NewASCIIReader, ASCIIReader.Read, NewASCIIWriter, ASCIIWriter.Write | ASCIIWriter.Close |
| hepmc/units.go | MomentumUnit.String, MomentumUnitFromString, LengthUnit.String, LengthUnitFromString | - |
| hepmc/utils.go | tokens.next, tokens.at, tokens.float64, tokens.float32, tokens.int, tokens.int64 | newtokens, tokens.String |
| hepmc/version.go | VersionName | - |
| heppdt/parser.go | parse | - |
| heppdt/particle.go | Particle.IsStable | - |
| heppdt/pdt.go | New, Table.Len, Table.ParticleByID, Table.ParticleByName | Table.Name, Table.PDT, init |
| heppdt/pid.go | PID.ExtraBits, PID.FundamentalID, PID.Digit, PID.findQ, PID.AbsPID, PID.IsValid, PID.IsMeson, PID.IsBaryon, PID.IsDiQuark, PID.IsHadron, PID.IsLepton, PID.IsNucleus, PID.IsPentaquark, PID.IsSUSY, PID.IsRhadron, PID.IsDyon, PID.IsQBall, PID.HasUp, PID.HasDown, PID.HasStrange, PID.HasCharm, PID.HasBottom, PID.HasTop, PID.A, PID.Z, PID.Lambda, PID.JSpin, PID.LSpin, PID.SSpin, PID.threeCharge, PID.Charge, PID.Quarks | - |
| heppdt/resonance.go | Resonance.Lifetime | Resonance.SetTotalWidthFromLifetime |
| heppdt/utils.go | calcWidthFromLifetime | - |
| lcio/bits.go | Flags.Test | - |
| lcio/calohit.go | CalorimeterHitContainer.MarshalSio, CalorimeterHitContainer.UnmarshalSio | CalorimeterHitContainer.String, CalorimeterHitContainer.VersionSio, CalorimeterHit.GetCellID0, CalorimeterHit.GetCellID1 |
| lcio/cellid.go | CellIDDecoder.Get, CellIDDecoder.value, newBitField64, bitField64.Description, bitFieldValue.value, iabs | NewCellIDDecoder, NewCellIDDecoderFrom, CellIDDecoder.Value, CellIDDecoder.ValueString, bitField64.valueString |
| lcio/cluster.go | ClusterContainer.MarshalSio, ClusterContainer.UnmarshalSio | ClusterContainer.String, ClusterContainer.VersionSio |
| lcio/collections.go | FloatVec.MarshalSio, FloatVec.UnmarshalSio, IntVec.MarshalSio, IntVec.UnmarshalSio, StrVec.MarshalSio, StrVec.UnmarshalSio, GenericObject.MarshalSio, GenericObject.UnmarshalSio, RelationContainer.MarshalSio, RelationContainer.UnmarshalSio, References.MarshalSio, References.UnmarshalSio | ID, FloatVec.String, FloatVec.VersionSio, IntVec.String, IntVec.VersionSio, StrVec.String, StrVec.VersionSio, GenericObject.String, GenericObjectData.String, GenericObject.VersionSio, RelationContainer.String, RelationContainer.VersionSio, References.VersionSio |
| lcio/event.go | RunHeader.MarshalSio, RunHeader.UnmarshalSio, EventHeader.MarshalSio, EventHeader.UnmarshalSio, EventHeader.Weight, Params.MarshalSio, Params.UnmarshalSio, Event.Add, Event.Weight | RunHeader.String, RunHeader.VersionSio, EventHeader.String, EventHeader.VersionSio, Params.String, Params.VersionSio, Event.Names, Event.Get, Event.Has, Event.String |
| lcio/mc.go | McParticleContainer.MarshalSio, McParticleContainer.UnmarshalSio, McParticleContainer.LinkSio, McParticle.MarshalSio, McParticle.UnmarshalSio | McParticleContainer.String, McParticleContainer.VersionSio, McParticle.Energy, McParticle.EndPoint, McParticle.SimStatusString, McParticle.IsCreatedInSimulation, McParticle.IsBackScatter, McParticle.VertexIsNotEnpointOfParent, McParticle.IsDecayedInTracker, McParticle.IsDecayedInCalorimeter, McParticle.HasLeftDetector, McParticle.IsStopped, McParticle.IsOverlay, McParticle.VersionSio |
| lcio/meta.go | Index.UnmarshalSio | Index.MarshalSio |
| lcio/rawcalohit.go | RawCalorimeterHitContainer.MarshalSio, RawCalorimeterHitContainer.UnmarshalSio | RawCalorimeterHitContainer.String, RawCalorimeterHitContainer.VersionSio, RawCalorimeterHit.GetCellID0, RawCalorimeterHit.GetCellID1 |
| lcio/reader.go | Open, Reader.init, Reader.Next, Reader.remap | Reader.Close, Reader.RunHeader, Reader.EventHeader, Reader.Event, Reader.Err |
| lcio/recparticle.go | RecParticleContainer.MarshalSio, RecParticleContainer.UnmarshalSio | RecParticleContainer.String, RecParticleContainer.VersionSio |
| lcio/simcalohit.go | SimCalorimeterHitContainer.MarshalSio, SimCalorimeterHitContainer.UnmarshalSio | SimCalorimeterHitContainer.String, SimCalorimeterHitContainer.VersionSio, SimCalorimeterHit.GetCellID0, SimCalorimeterHit.GetCellID1 |
| lcio/simtrackerhit.go | SimTrackerHitContainer.MarshalSio, SimTrackerHitContainer.UnmarshalSio | SimTrackerHit.GetCellID0, SimTrackerHit.GetCellID1, SimTrackerHitContainer.String, SimTrackerHitContainer.VersionSio |
| lcio/track.go | TrackContainer.MarshalSio, TrackContainer.UnmarshalSio | Track.D0, Track.Phi, Track.Omega, Track.Z0, Track.TanL, TrackContainer.String, TrackContainer.VersionSio |
| lcio/trackerdata.go | TrackerDataContainer.MarshalSio, TrackerDataContainer.UnmarshalSio | TrackerData.GetCellID0, TrackerData.GetCellID1, TrackerDataContainer.String, TrackerDataContainer.VersionSio |
| lcio/trackerhit.go | TrackerHitContainer.MarshalSio, TrackerHitContainer.UnmarshalSio | TrackerHit.GetCellID0, TrackerHit.GetCellID1, TrackerHitContainer.String, TrackerHitContainer.VersionSio |
| lcio/trackerhitplane.go | TrackerHitPlaneContainer.MarshalSio, TrackerHitPlaneContainer.UnmarshalSio | TrackerHitPlane.GetCellID0, TrackerHitPlane.GetCellID1, TrackerHitPlaneContainer.String, TrackerHitPlaneContainer.VersionSio |
| lcio/trackerhitzcylinder.go | TrackerHitZCylinderContainer.MarshalSio, TrackerHitZCylinderContainer.UnmarshalSio | TrackerHitZCylinder.GetCellID0, TrackerHitZCylinder.GetCellID1, TrackerHitZCylinderContainer.String, TrackerHitZCylinderContainer.VersionSio |
| lcio/trackerpulse.go | TrackerPulseContainer.MarshalSio, TrackerPulseContainer.UnmarshalSio | TrackerPulse.GetCellID0, TrackerPulse.GetCellID1, TrackerPulseContainer.String, TrackerPulseContainer.VersionSio |
| lcio/trackerrawdata.go | TrackerRawDataContainer.MarshalSio, TrackerRawDataContainer.UnmarshalSio | TrackerRawData.GetCellID0, TrackerRawData.GetCellID1, TrackerRawDataContainer.String, TrackerRawDataContainer.VersionSio |
| lcio/types.go | typeFrom, typeName | - |
| lcio/vertex.go | VertexContainer.MarshalSio, VertexContainer.UnmarshalSio | Vertex.AlgName, VertexContainer.String, VertexContainer.VersionSio |
| lcio/writer.go | Writer.SetCompressionLevel, Writer.WriteRunHeader, Writer.WriteEvent | Create, Writer.Close, Writer.init |
| lhef/reader.go | NewDecoder, Decoder.next, Decoder.seek, Decoder.Decode | - |
| lhef/writer.go | Encoder.init, Encoder.Encode, Encoder.Close | NewEncoder |
| rio/block.go | Block.Write | newBlock, Block.Name, Block.RioVersion, Block.Read |
| rio/file.go | Open, File.Get | File.Keys, File.Has, File.Close |
| rio/record.go | Record.Connect, Record.Block, Record.Write, Record.readRecord, Record.readBlocks | newRecord, Record.Read, Record.Name, Record.Unpack, Record.SetUnpack, Record.Compress, Record.Options |
| rio/rio.go | rioHeader.RioMarshal, rioHeader.RioUnmarshal, Options.CompressorKind, Options.CompressorLevel, Options.CompressorCodec, NewOptions, rioRecord.RioMarshal, rioRecord.RioUnmarshal, rioRecord.unmarshalHeader, rioRecord.unmarshalData, rioBlock.RioMarshal, rioBlock.RioUnmarshal, rioFooter.RioMarshal, rioFooter.RioUnmarshal, rioFooter.unmarshalHeader, rioFooter.unmarshalData | rioHeader.RioVersion, rioRecord.MarshalBinary, rioRecord.UnmarshalBinary, rioRecord.RioVersion, rioBlock.MarshalBinary, rioBlock.UnmarshalBinary, rioBlock.RioVersion, rioFooter.MarshalBinary, rioFooter.UnmarshalBinary, rioFooter.RioVersion, recordsByName.Len, recordsByName.Swap, recordsByName.Less |
| rio/scanner.go | Scanner.Scan | NewScanner, Scanner.Select, Scanner.seek, Scanner.Err, Scanner.Record |
| rio/utils.go | rioAlignU32, rioAlign | nameFromType |
| rio/writer.go | NewWriter, Writer.Record, Writer.Close, Writer.writeRecord | cwriter.Write, cwriter.Flush, Writer.SetCompressor, Writer.WriteValue, encoder.Encode |
| sio/decoder.go | unmarshal, bread | NewDecoder, Decoder.Decode, Decoder.Tag, Decoder.Pointer, Decoder.Err |
| sio/defs.go | align4U32 | - |
| sio/encoder.go | marshal, bwrite | NewEncoder, Encoder.Encode, Encoder.Tag, Encoder.Pointer, Encoder.Err |
| sio/record.go | Record.Compress, Record.read, Record.write | Record.Name, Record.Unpack, Record.SetUnpack, Record.SetCompress, Record.Options, Record.Disconnect, Record.Connect |
| sio/sio.go | reader.VersionSio, reader.Tag, reader.Pointer, reader.relocate, writer.Tag, writer.Pointer, writer.genID | newReader, reader.Read, reader.Bytes, reader.Len, reader.Next, newWriter, newWriterFrom, writer.Write, writer.Bytes, writer.Len, writer.VersionSio |
| sio/stream.go | Stream.ReadRecord, Stream.WriteRecord | Open, Create, Stream.Fd, Stream.Close, Stream.Stat, Stream.Sync, Stream.Name, Stream.FileName, Stream.Mode, Stream.SetCompressionLevel, Stream.CurPos, Stream.Seek, Stream.Record, Stream.HasRecord, Stream.DelRecord, Stream.Records, Stream.read, Stream.write |
| slha/decode.go | Decode, addDecayEntry | addBlockEntry, anyvalue |
| slha/encode.go | blockFormat, Encode | - |
| slha/slha.go | Block.Get, Block.Set, DataArray.Get, DataArray.pos, NewIndex, Index.Index, strindex, Blocks.Get, Particles.Get | Value.Int, Value.Float, Value.Interface, Value.Kind, Value.Comment, Blocks.Keys, Particles.Len, Particles.Less, Particles.Swap |
| sliceop/sliceop.go | Filter, Map, Find, Take, Resize | - |
| xrootd/client.go | Client.sendSession, Client.getSession | WithAuth, Client.addAuth, Client.initSecurityProviders, NewClient, Client.Close, Client.Send |
| xrootd/default_handler.go | defaultHandler.Login, defaultHandler.Protocol, defaultHandler.Ping | Default, defaultHandler.Dirlist, defaultHandler.Handshake, defaultHandler.CloseSession, defaultHandler.Open, defaultHandler.Close, defaultHandler.Read, defaultHandler.Write, defaultHandler.Stat, defaultHandler.Sync, defaultHandler.Truncate, defaultHandler.Rename, defaultHandler.Mkdir, defaultHandler.Remove, defaultHandler.RemoveDir |
| xrootd/file.go | file.ReadAtContext, file.ReadAt | file.Compression, file.Info, file.Handle, file.Close, file.CloseVerify, file.Sync, file.WriteAtContext, file.WriteAt, file.Truncate, file.StatVirtualFS, file.Stat, file.VerifyWriteAt, file.do |
| xrootd/fshandler.go | fshandler.Open, fshandler.Close, fshandler.Read, fshandler.Write, fshandler.getFile, fshandler.Stat, fshandler.Truncate, fshandler.Sync, fshandler.Rename, fshandler.Remove, fshandler.CloseSession | NewFSHandler, fshandler.Dirlist, fshandler.Mkdir, fshandler.RemoveDir |
| xrootd/internal/mux/mux.go | ParseRedirection, New, Mux.Close, Mux.Claim, Mux.ClaimWithID, Mux.Unclaim, Mux.SendData | - |
| xrootd/internal/xrdenc/xrdenc.go | WBuffer.WriteU8, WBuffer.WriteU16, WBuffer.WriteI32, WBuffer.WriteI64, WBuffer.WriteBool, WBuffer.WriteLen, WBuffer.WriteBytes, WBuffer.WriteStr, WBuffer.Next, RBuffer.ReadU8, RBuffer.Len, RBuffer.ReadU16, RBuffer.ReadI32, RBuffer.ReadI64, RBuffer.ReadBool, RBuffer.ReadLen, RBuffer.ReadBytes, RBuffer.ReadStr, RBuffer.Skip, RBuffer.Bytes | WBuffer.Bytes, NewRBuffer, RBuffer.Pos |
| xrootd/server.go | Server.handleConnection, Server.handleRequest | NewServer, Server.Shutdown, Server.Serve, Server.handleHandshake, newUnmarshalingErrorResponse |
| xrootd/session.go | cliSession.consume, cliSession.send, cliSession.Send | newSession, cliSession.Close, cliSession.handleReadError, cliSession.handleWaitResponse, cliSession.cleanupRequest, cliSession.writeRequest, cliSession.claimPathID, cliSession.unclaimPathID, cliSession.sign, newSubSession |
| xrootd/xrdfs/file.go | FileCompression.MarshalXrd, FileCompression.UnmarshalXrd | - |
| xrootd/xrdfs/stat.go | EntryStatFrom, EntryStat.MarshalXrd, EntryStat.UnmarshalXrd | EntryStat.Name, EntryStat.Size, EntryStat.ModTime, EntryStat.Sys, EntryStat.Mode, EntryStat.IsExecutable, EntryStat.IsDir, EntryStat.IsOther, EntryStat.IsOffline, EntryStat.IsReadable, EntryStat.IsWritable, EntryStat.IsPOSCPending, VirtualFSStat.MarshalXrd, VirtualFSStat.UnmarshalXrd |
| xrootd/xrdio/parse.go | Parse, parseUA, parseUser | - |
| xrootd/xrdio/xrdio.go | Open, OpenFrom, File.Read, File.ReadAt, File.Seek | File.Name, File.Close, File.Write, File.WriteAt, File.Stat |
| xrootd/xrdproto/chmod/chmod.go | Request.Opaque, Request.SetOpaque | Request.MarshalXrd, Request.UnmarshalXrd, Request.ReqID, Request.ShouldSign |
| xrootd/xrdproto/dirlist/dirlist.go | Response.MarshalXrd, Response.UnmarshalXrd, Request.Opaque, Request.SetOpaque | Response.RespID, NewRequest, Request.ReqID, Request.ShouldSign, Request.MarshalXrd, Request.UnmarshalXrd |
| xrootd/xrdproto/mkdir/mkdir.go | Request.Opaque, Request.SetOpaque | Request.MarshalXrd, Request.UnmarshalXrd, Request.ReqID, Request.ShouldSign |
| xrootd/xrdproto/mv/mv.go | Request.UnmarshalXrd, Request.Opaque, Request.SetOpaque | Request.MarshalXrd, Request.ReqID, Request.ShouldSign |
| xrootd/xrdproto/open/open.go | Response.UnmarshalXrd, Request.Opaque, Request.SetOpaque, Request.ShouldSign | Response.MarshalXrd, Response.RespID, NewRequest, Request.MarshalXrd, Request.UnmarshalXrd, Request.ReqID |
| xrootd/xrdproto/read/read.go | OptionalArgs.UnmarshalXrd, ReadAhead.MarshalXrd, ReadAhead.UnmarshalXrd, Request.UnmarshalXrd | Response.MarshalXrd, Response.UnmarshalXrd, Response.RespID, OptionalArgs.MarshalXrd, Request.ReqID, Request.ShouldSign, Request.MarshalXrd, Request.PathID, Request.SetPathID, Request.Direction, Request.PathData |
| xrootd/xrdproto/rm/rm.go | Request.Opaque, Request.SetOpaque | Request.MarshalXrd, Request.UnmarshalXrd, Request.ReqID, Request.ShouldSign |
| xrootd/xrdproto/rmdir/rmdir.go | Request.Opaque, Request.SetOpaque | Request.MarshalXrd, Request.UnmarshalXrd, Request.ReqID, Request.ShouldSign |
| xrootd/xrdproto/signing/signing.go | Requirements.Needed, New | Default |
| xrootd/xrdproto/sigver/sigver.go | NewRequest | Request.ReqID, Request.ShouldSign, Request.MarshalXrd, Request.UnmarshalXrd |
| xrootd/xrdproto/stat/stat.go | Request.Opaque, Request.SetOpaque | VirtualFSResponse.RespID, DefaultResponse.RespID, Request.MarshalXrd, Request.UnmarshalXrd, Request.ReqID, Request.ShouldSign |
| xrootd/xrdproto/xrdproto.go | ServerError.UnmarshalXrd, SecurityOverride.MarshalXrd, SecurityOverride.UnmarshalXrd, SetOpaque, Opaque, ReadRequest, WriteResponse, ReadResponse, ReadResponseWithReuse | WaitResponse.MarshalXrd, WaitResponse.UnmarshalXrd, ServerError.Error, ServerError.MarshalXrd, ResponseHeader.MarshalXrd, ResponseHeader.UnmarshalXrd, ResponseHeader.Error, RequestHeader.MarshalXrd, RequestHeader.UnmarshalXrd |

Files of the same packages of which nothing is modelled: fastjet/clustersequence_area.go, fastjet/clustersequence_structure.go, fastjet/definition.go, fastjet/internal/predicates/bigfunctions.go, fastjet/jet.go, fastjet/plugin.go, fastjet/recombiner.go, fastjet/scheme.go, fastjet/strategy.go, fastjet/utils.go, fwk/core.go, fwk/ctx.go, fwk/hsvc.go, fwk/inputstream.go, fwk/msgstream.go, fwk/outputstream.go, fwk/registry.go, fwk/runner.go, fwk/svcbase.go, fwk/taskbase.go, groot/internal/httpio/httpio.go, groot/internal/rcompress/kind_string.go, groot/rbase/attaxis.go, groot/rbase/attfill.go, groot/rbase/attline.go, groot/rbase/attmarker.go, groot/rbase/attpad.go, groot/rbase/datime.go, groot/rbase/processid.go, groot/rbase/qobject.go, groot/rbase/ref.go, groot/rbase/string.go, groot/rbase/vpad.go, groot/rbytes/rbytes.go, groot/rbytes/sliceops.go, groot/rcont/array_gen.go, groot/rcont/clonesarray.go, groot/rcont/reftable.go, groot/rdict/cxx_root_streamers_gen.go, groot/rdict/db.go, groot/rdict/decoder.go, groot/rdict/descr.go, groot/rdict/encoder.go, groot/rdict/gen_streamer.go, groot/rdict/gen_type.go, groot/rdict/object.go, groot/rdict/rdict.go, groot/rdict/rstreamer.go, groot/rdict/streamer.go, groot/rdict/type.go, groot/rdict/visit.go, groot/rdict/wstreamer.go, groot/rdict/z_tstring_streamer.go, groot/riofs/compress.go, groot/riofs/dobj.go, groot/riofs/fileplugin.go, groot/riofs/memfile.go, groot/riofs/plugin/http/http.go, groot/riofs/streamers.go, groot/rsql/rsqldrv/connector.go, groot/rtree/copy.go, groot/rtree/formula.go, groot/rtree/leaf.go, groot/rtree/leaf_gen.go, groot/rtree/rleaf.go, groot/rtree/rleaf_gen.go, groot/rtree/rtree.go, groot/rtree/rvar.go, groot/rtree/tree.go, groot/rtree/wvar.go, groot/rtypes/rtypes.go, hbook/bin2d.go, hbook/io.go, heppdt/constituent.go, heppdt/gen-tabledata.go, heppdt/heppdt.go, rio/compressor.go, rio/reader.go, sio/block.go, xrootd/auth.go, xrootd/bind.go, xrootd/filesystem.go, xrootd/handshake.go, xrootd/login.go, xrootd/ping.go, xrootd/port.go, xrootd/protocol.go, xrootd/xrdproto/gen-marshal.go.

Packages of which nothing is modelled: ., brio, brio/cmd/brio-gen, brio/cmd/brio-gen/internal/briotest, brio/cmd/brio-gen/internal/gen/_test/pkg, ci, cmd/arrow2root, cmd/fits2root, cmd/hepmc2root, cmd/lhef2hepmc, cmd/npy2root, cmd/podio-gen, cmd/rio2yoda, cmd/root2arrow, cmd/root2csv, cmd/root2fits, cmd/root2npy, cmd/root2yoda, cmd/yoda2rio, cmd/yoda2root, csvutil/csvdriver, fads, fads/cmd/fads-app, fads/cmd/fads-rivet-mc-generic, fastjet/internal/delaunay, fit, fwk/cmd/fwk-app, fwk/cmd/fwk-cpu-cruncher, fwk/cmd/fwk-list-components, fwk/cmd/fwk-new-comp, fwk/examples/fwk-ex-tuto-1, fwk/examples/fwk-ex-tuto-2, fwk/examples/fwk-ex-tuto-3, fwk/examples/fwk-ex-tuto-4-write-histo, fwk/examples/fwk-ex-tuto-5-read-histo, fwk/examples/fwk-ex-tuto-6-write-data, fwk/examples/fwk-ex-tuto-7-read-data, fwk/fsm, fwk/hbooksvc, fwk/internal/fwktest, fwk/job, fwk/rio, fwk/utils/builder, geo/gdml, groot, groot/cmd/root-cp, groot/cmd/root-diff, groot/cmd/root-dump, groot/cmd/root-gen-datareader, groot/cmd/root-gen-rfunc, groot/cmd/root-gen-streamer, groot/cmd/root-gen-type, groot/cmd/root-ls, groot/cmd/root-merge, groot/cmd/root-print, groot/cmd/root-split, groot/cmd/root-srv, groot/exp/rntup, groot/internal, groot/internal/genroot, groot/internal/rdatatest, groot/internal/rtests, groot/rarrow, groot/rcmd, groot/rcolors, groot/rhist, groot/riofs/gendata, groot/riofs/plugin/xrootd, groot/rjson, groot/rmeta, groot/rnpy, groot/root, groot/rpad, groot/rphys, groot/rsql, groot/rsrv, groot/rsrv/internal/hexcolor, groot/rtree/rfunc, groot/rvers, groot/ztypes, hbook/ntup, hbook/ntup/ntcsv, hbook/ntup/ntroot, hbook/rootcnv, hepmc/go-hepmc-dump, hepmc/rootcnv, hplot, hplot/cmd/hplot, hplot/htex, hplot/internal/talbot, hplot/vgop, internal/diff, lcio/cmd/lcio-ls, lcio/example/lcio-ex-read-event, rio/cmd/rio-ls-records, sio/cmd/sio-ls-records, slha/example/go-slha-basic, xrootd/cmd/xrd-client, xrootd/cmd/xrd-cp, xrootd/cmd/xrd-ls, xrootd/cmd/xrd-srv, xrootd/xrdproto/admin, xrootd/xrdproto/auth, xrootd/xrdproto/auth/host, xrootd/xrdproto/auth/krb5, xrootd/xrdproto/auth/unix, xrootd/xrdproto/bind, xrootd/xrdproto/decrypt, xrootd/xrdproto/endsess, xrootd/xrdproto/handshake, xrootd/xrdproto/locate, xrootd/xrdproto/login, xrootd/xrdproto/ping, xrootd/xrdproto/prepare, xrootd/xrdproto/protocol, xrootd/xrdproto/query, xrootd/xrdproto/statx, xrootd/xrdproto/sync, xrootd/xrdproto/truncate, xrootd/xrdproto/verifyw, xrootd/xrdproto/write, xrootd/xrdproto/xrdclose.
<!-- end of coverage -->
