#!/usr/bin/env python3
# Source of /verif/properties.jsonl: run `python3 tools/props.py` to regenerate it.
import json, os
P = []
def p(id, title, statement, quantifier, why, anchors):
    P.append(dict(id=id, title=title, statement=statement, quantifier=quantifier,
                  why_tests_cant=why, anchors=anchors))

# ---------------------------------------------------------------- hbook
p("C01", "H1D: every fill lands in exactly the bin that contains it",
  "For a 1-dim histogram whose bins are sorted by lower edge and do not overlap (any widths, any gaps), Fill(x,w) adds the entry to the total and to exactly one of: the unique bin with low<=x<high, the underflow (x below the range), the overflow (x at or above the range), or nothing else when x lies in a gap between bins. Bin(x) returns that same bin.",
  "every well-formed list of bins (any number, any binary64 edges), every binary64 x including infinities and NaN",
  "binary search over arbitrary edge lists with IEEE comparisons: the edge lists and coordinates are unbounded and NaN/inf/rounding corner cases cannot be enumerated",
  ["hbook/binning1d.go:coordToIndex,fill", "hbook/bin1d.go:Bin1Ds.IndexOf", "hbook/h1d.go:Fill,Bin"])
p("C02", "H1D: contents after any fill history",
  "After any sequence of Fill calls on a fresh histogram, each bin (and underflow, overflow, total) holds bit for bit the distribution obtained by feeding, in order, exactly the fills that belong to it; Entries() equals the number of fills and equals the sum over bins, underflow, overflow and gap fills.",
  "every well-formed binning and every finite sequence of (x,w) fills",
  "sequences are unbounded and a misplaced fill shows only for specific histories",
  ["hbook/h1d.go:Fill,FillN", "hbook/binning1d.go:fill", "hbook/dist.go:Dist0D.fill,Dist1D.fill"])
p("C03", "H1D constructors accept exactly valid binnings",
  "NewH1DFromEdges panics exactly when there are fewer than two edges, or they are not sorted, or two consecutive edges are equal; otherwise bin i is [edge i, edge i+1). NewH1DFromBins panics on an empty list or overlapping bins; otherwise the histogram holds the same bins sorted by lower edge.",
  "every list of binary64 edges / ranges",
  "acceptance is a universally quantified statement over all edge lists",
  ["hbook/binning1d.go:newBinning1D,newBinning1DFromBins,newBinning1DFromEdges"])
p("C04", "Adding histograms is filling with both data sets",
  "In exact arithmetic, AddH1D of a histogram filled with A and one with the same binning filled with B equals the histogram filled with A then B (all bins, under/overflow and totals, all moments); SubH1D/AddScaledH1D(alpha) scale SumW, SumWX and SumWX2 by alpha and SumW2 by alpha squared.",
  "every binning, all pairs of fill sequences, all alpha, in any commutative ring",
  "requires all pairs of fill histories",
  ["hbook/ops.go:AddScaledH1D,AddH1D,SubH1D", "hbook/dist.go:addScaled"])
p("C05", "Scale is equivalent to filling with scaled weights",
  "In exact arithmetic, h.Scale(f) after filling with weights w_i equals filling with weights f*w_i, for bins, outflows and total; the number of entries is unchanged. Integral() equals the total weight and Integral(-Inf,+Inf) equals it too when no fill fell in a gap.",
  "every binning, fill history and factor",
  "quantifies over all histories",
  ["hbook/h1d.go:Scale,Integral", "hbook/dist.go:scaleW", "hbook/binning1d.go:scaleW"])
p("C06", "H2D: the nine regions partition the plane",
  "For a 2-dim histogram built from edges, Fill(x,y,w) adds the entry to the total and to exactly one place: the unique bin containing (x,y), or the one of the eight outflow regions whose x- and y-side match; cells are addressed consistently (the cell at column ix, row iy has the ix-th x range and the iy-th y range).",
  "all sorted x and y edges, all binary64 points (NaN and infinities included), all fill sequences",
  "two-dimensional index arithmetic with sentinel values; corner cases depend on joint values",
  ["hbook/binning2d.go:coordToIndex,fill,newBinning2DFromEdges,newBinning2D", "hbook/h2d.go:Fill"])
# ---------------------------------------------------------------- sliceop
p("C07", "sliceop functions equal their list specification",
  "Filter returns exactly the elements satisfying the predicate in order; Map applies f pointwise; Find returns the increasing list of indices satisfying the predicate; Take returns the elements at the given indices and rejects unsorted, duplicated or too-long index lists; Resize keeps the prefix. This also holds when dst aliases src (in-place Filter and Take).",
  "all slices, destinations (including the source itself), predicates and index lists",
  "aliasing bugs appear only for some lengths/capacities/overlaps",
  ["sliceop/sliceop.go:Filter,Map,Find,Take,Resize"])
# ---------------------------------------------------------------- groot/rbytes
p("C08", "ROOT buffer primitives round trip",
  "Writing any sequence of primitive values (bool, [u]int8..64, float32/64 bits, strings, C-strings) to a write buffer and reading the same sequence back yields the same values and leaves the read position exactly after the last byte.",
  "all sequences of primitive values; strings of any length below 2^32-1 (NUL-free for C-strings)",
  "length-prefix switch at 254/255 bytes and arbitrary interleavings",
  ["groot/rbytes/wbuffer.go", "groot/rbytes/wbuffer_gen.go", "groot/rbytes/rbuffer.go", "groot/rbytes/rbuffer_gen.go"])
p("C09", "ROOT object header byte count",
  "The byte count stored by SetHeader is the number of bytes written after the byte-count field; ReadHeader returns the same version, start position and length, and CheckHeader accepts exactly when the payload reader consumed those bytes.",
  "all payloads shorter than 2^30-2 bytes, all versions, any position in the buffer",
  "payload sizes are unbounded",
  ["groot/rbytes/wbuffer.go:WriteHeader,SetHeader", "groot/rbytes/rbuffer.go:ReadHeader,CheckHeader"])
p("C10", "Truncated floats (Float16_t/Double32_t) stay close to the value",
  "Writing a value through the reduced-mantissa encoding with n mantissa bits and reading it back gives the value rounded to n bits (relative error at most 2^-n).",
  "all finite floats, all mantissa sizes",
  "bit-level rounding over 2^32/2^64 inputs",
  ["groot/rbytes/wbuffer.go:WriteF16,WriteD32", "groot/rbytes/rbuffer.go:ReadF16,ReadD32"])
# ---------------------------------------------------------------- groot/riofs
p("C11", "Free-segment list stays a sorted list of disjoint segments covering exactly the freed bytes",
  "After any sequence of segment releases, the list of free segments is sorted, non-overlapping and non-adjacent, and a byte is free if and only if it belonged to one of the released segments.",
  "every sequence of add operations with arbitrary (overlapping, adjacent, nested) segments",
  "merging logic has many adjacency cases depending on history",
  ["groot/riofs/blocks.go:freeList.add,consolidate,find,best,last", "groot/riofs/file.go:markFree"])
p("C12", "Key header round trip",
  "Reading a key header that was marshalled gives back the same version, sizes, cycle, seek positions, class, name and title; the number of bytes written is the advertised key length.",
  "all keys with field values in range, small- and big-file variants, all names",
  "name/title lengths and 32/64-bit seek switch are unbounded",
  ["groot/riofs/key.go:MarshalROOT,UnmarshalROOT,keylenFor,sizeof"])
p("C13", "Packed date-time round trip",
  "Converting a time to the packed 32-bit ROOT date and back returns the same instant to the second for all UTC times from 1995-01-01 up to the end of 2058, and the packed order is the chronological order.",
  "all valid calendar dates/times in the range",
  "2 billion values; boundary of the 6-bit year field",
  ["groot/riofs/utils.go:datime2time,time2datime", "groot/rbase/datime.go"])
p("C14", "Name;cycle decoding",
  "decoding 'name;N' yields name and cycle N, 'name' yields the latest-cycle sentinel, and encoding then decoding a (name, cycle) pair is the identity for every name without ';' and 0<=cycle<=32767.",
  "all strings",
  "string domain is unbounded",
  ["groot/riofs/utils.go:decodeNameCycle"])
p("C15", "Directory Put/Get history",
  "After any sequence of Put calls, Get(name) returns the last object successfully put under name, Get('name;c') returns the object put as the c-th under that name, names containing '/' or empty are rejected, putting a different class under an existing name is rejected, and cycles for a name are 1,2,3,... in order.",
  "every history of Put calls (any names, classes), up to 32767 versions per name",
  "histories are unbounded",
  ["groot/riofs/dir.go:tdirectoryFile.Put,Get"])
# ---------------------------------------------------------------- groot/rcompress
p("C16", "Compressed payload framing round trip",
  "Decompressing what Compress produced yields the original bytes, for every payload size (including payloads split in several 0xffffff-byte blocks) and any per-block codec satisfying its own round trip; when compression does not help the input is stored unchanged.",
  "all byte strings, all compression settings, any lossless block codec",
  "multi-block payloads exceed 16 MiB; the codec is arbitrary",
  ["groot/internal/rcompress/rcompress.go:Compress,compressBlock,Decompress"])
p("C17", "Compression settings encode/decode",
  "Settings{Alg,Lvl}.Compression() and SettingsFrom are mutually inverse for every algorithm and every level in 0..99.",
  "all algorithm/level pairs", "arithmetic encoding over the full domain",
  ["groot/internal/rcompress/rcompress.go:Settings.Compression,SettingsFrom"])
# ---------------------------------------------------------------- groot/rtree
p("C18", "Basket partition: a branch written entry by entry reads back the same entries",
  "Whatever the entry sizes and the basket-size threshold, the baskets flushed by the tree writer partition the entries in order: basket k holds the contiguous entries [first_k, first_{k+1}), and reading entry i from the basket that covers i returns the bytes written by the i-th Write.",
  "every sequence of entry payloads (any sizes, including empty) and every basket size",
  "auto-flush points depend on the whole history of sizes",
  ["groot/rtree/branch.go:write,flush,createNewBasket", "groot/rtree/basket.go", "groot/rtree/writer.go"])
p("C19", "Basket index lookup",
  "For any increasing basket-entry table the lookup used when reading entry i returns the basket whose entry range contains i, whatever sequence of entries was read before (the cached basket never goes stale).",
  "all basket tables, all sequences of accessed entries",
  "the result depends on cached state from previous reads",
  ["groot/rtree/branch.go:findBasketIndex,loadBasket,loadEntry"])
p("C20", "Reading a range of a tree visits each entry exactly once, in order",
  "A reader over [beg,end) yields exactly the entries beg, beg+1, ..., end-1, each once and in order, with the data of the basket that contains it, for any basket layout and any read-ahead size; ranges outside the tree are rejected.",
  "all trees (basket layouts), all ranges, all read-ahead sizes and schedules of the prefetcher",
  "prefetching goroutine schedule and layouts",
  ["groot/rtree/bkreader.go", "groot/rtree/rbranch.go", "groot/rtree/rtree.go", "groot/rtree/reader.go"])
p("C21", "Chain of trees reads like the concatenation",
  "Entries() of a chain is the sum of its trees' entries and reading entry i of the chain reads entry i-offset of the tree that contains it; a range [beg,end) of the chain visits the concatenation of the trees' entries restricted to the range.",
  "all lists of trees (including empty trees) and all ranges",
  "off-by-one at tree boundaries and empty trees",
  ["groot/rtree/chain.go", "groot/rtree/rchain.go"])
p("C22", "Join of trees",
  "A join is accepted exactly when all trees have the same number of entries and no two different trees share a branch name; it then exposes the branches of all trees and reads entry i of every tree in lock step.",
  "all lists of trees", "quantifies over all branch name sets",
  ["groot/rtree/join.go", "groot/rtree/rjoin.go"])
# ---------------------------------------------------------------- http cache
p("C23", "Span arithmetic of the HTTP read cache",
  "The set of cached spans stays sorted and disjoint and covers exactly the bytes added; splitting a request against the cache returns exactly the missing bytes, in order.",
  "every sequence of added spans and every request",
  "overlap/adjacency cases depend on history",
  ["groot/riofs/plugin/http/span.go"])
p("C24", "Cached remote reads return the remote bytes",
  "After any sequence of ReadAt calls, ReadAt(p,off) returns the same bytes as reading the remote content at off, and bytes already fetched are not fetched again.",
  "all remote contents and all histories of ReadAt calls",
  "cache state depends on the whole history",
  ["groot/riofs/plugin/http/rcache.go", "groot/riofs/plugin/http/preader.go"])
# ---------------------------------------------------------------- rio / sio
p("C25", "rio record stream round trip",
  "Decoding the header/record/block/footer structures produced by the writer gives back the same fields and consumes exactly the bytes written; all records are 4-byte aligned and every offset stored in the footer metadata points at the record it describes.",
  "all record names, block contents and sequences of records",
  "lengths and alignment padding unbounded",
  ["rio/record.go", "rio/block.go", "rio/rio.go", "rio/writer.go", "rio/utils.go"])
p("C26", "rio options packing",
  "The (compressor kind, level, codec) triple packed in an option word is recovered unchanged.",
  "all kinds, levels -1..9 and codecs below 2^12",
  "bit-field domain",
  ["rio/rio.go:NewOptions,CompressorKind,CompressorLevel,CompressorCodec"])
p("C27", "sio record/block framing round trip",
  "Reading back records written with WriteRecord returns the connected blocks' payloads; skipping a record that is not unpacked leaves the stream positioned at the next record.",
  "all sequences of records, block names and payloads",
  "alignment and skip arithmetic for all lengths",
  ["sio/stream.go:ReadRecord,WriteRecord", "sio/record.go:read,write", "sio/defs.go:align4U32"])
p("C28", "sio pointer/tag relocation",
  "After reading a record, every pointer refers to the object that carried the same tag when written: two pointers are equal after reading iff they were equal when written, for any number of blocks.",
  "all object graphs spread over any number of blocks",
  "id allocation across blocks depends on history",
  ["sio/sio.go:Tag,Pointer,genID,relocate", "sio/record.go:write"])
# ---------------------------------------------------------------- lcio
p("C29", "LCIO cell-id decoding",
  "For a cell-id encoding string with contiguous fields, decoding a 64-bit id yields for every field the value that was encoded at its offset/width (two's complement when the width is negative).",
  "all field layouts within 64 bits and all field values",
  "2^64 ids and all layouts",
  ["lcio/bits.go", "lcio/cellid.go"])
# ---------------------------------------------------------------- fastjet
p("C30", "Min-heap pops in order",
  "For any history of Push and Pop, Pop returns an element with the smallest distance currently held, the multiset of held elements is exactly pushed minus popped, and IsEmpty is accurate.",
  "all histories of operations, all distances",
  "heap shape depends on history",
  ["fastjet/internal/heap/heap.go"])
p("C31", "Jet clustering: constituents partition the input",
  "For any input particles, any jet algorithm metric and recombiner, the clustering ends with a history of exactly 2n steps, every particle is a constituent of exactly one inclusive jet (ptmin=0, generic algorithms), and constituents of a jet are pairwise distinct.",
  "all inputs, metrics (even inconsistent ones, NaN distances included) and recombination schemes",
  "bookkeeping of indices over all merge orders",
  ["fastjet/clustersequence.go:runN3Dumb,ijRecombinationStep,ibRecombinationStep,addStepToHistory,addConstituents,InclusiveJets"])
p("C32", "Exclusive jets: exact count and partition",
  "ExclusiveJetsUpTo(k) for 0<=k<=n returns exactly k jets whose constituents partition all particles not yet merged with the beam at that stage; requests for more than n jets are rejected.",
  "all inputs, metrics, and 0<=k<=n",
  "depends on merge order",
  ["fastjet/clustersequence.go:ExclusiveJetsUpTo,NumExclusiveJets,ExclusiveJets"])
# ---------------------------------------------------------------- xrootd
p("C33", "xrootd wire codec round trip",
  "For every request/response/header type, unmarshalling the marshalled bytes returns the same message and consumes exactly the bytes written.",
  "all messages with in-range fields (path/data lengths up to 2^31-1)",
  "unbounded payloads",
  ["xrootd/internal/xrdenc/xrdenc.go", "xrootd/xrdproto/*"])
p("C34", "xrootd message framing",
  "A byte stream made of the concatenation of any number of framed requests (or responses) is split back into exactly those messages, in order, however the transport chunks the bytes.",
  "all message sequences and chunkings",
  "schedules of partial reads",
  ["xrootd/xrdproto/xrdproto.go:ReadRequest,ReadResponse,WriteResponse"])
p("C35", "Stream-id multiplexer: unique ids and delivery to the claimer",
  "In any history of Claim/ClaimWithID/SendData/Unclaim, two outstanding claims never hold the same stream id, data sent for an id is delivered to the channel of its current claim and no other, in order, and an unclaimed id can be claimed again.",
  "all interleavings of operations by any number of clients",
  "concurrency schedules",
  ["xrootd/internal/mux/mux.go"])
p("C36", "Opaque data on paths",
  "After SetOpaque(path, o), Opaque(path) is o and the part before '?' is the original path.",
  "all paths and opaque strings", "string domain unbounded",
  ["xrootd/xrdproto/xrdproto.go:SetOpaque,Opaque"])
p("C37", "xrdio.File behaves as io.ReadSeeker over the remote file",
  "Read/Seek/ReadAt on an xrootd file behave as the io contracts say: reads return the file bytes at the current offset, Seek with each whence moves to the documented position, EOF is reported at the end.",
  "all histories of reads and seeks, all file contents",
  "history-dependent position",
  ["xrootd/xrdio/xrdio.go"])
p("C38", "Request signing policy",
  "The set of requests that must be signed grows monotonically with the security level, and overrides take precedence over the level.",
  "all levels, override lists, request ids",
  "quantifies over override lists",
  ["xrootd/xrdproto/signing/signing.go"])
p("C39", "Redirections are followed at most ten times",
  "A client request follows server redirections to the last session and fails after more than ten, for every server behaviour.",
  "all sequences of redirections", "server behaviour is arbitrary",
  ["xrootd/client.go:sendSession"])
# ---------------------------------------------------------------- fwk
p("C40", "Data-flow declaration: missing inputs, duplicate outputs and cycles are rejected",
  "The framework accepts a set of declared task ports iff every input has a producer, no output is produced twice and there is no dependency cycle.",
  "all sets of tasks and ports", "graph-theoretic property",
  ["fwk/dflow.go", "fwk/utils/tarjan/tarjan.go"])
p("C41", "Strongly connected components",
  "The Tarjan implementation returns a partition of the vertices into exactly the strongly connected components, in reverse topological order.",
  "all directed graphs", "all graphs",
  ["fwk/utils/tarjan/tarjan.go"])
p("C42", "Event store hand-off",
  "In every interleaving of producers and consumers for one event, a consumer's Get returns the value put by the producer, blocks until it is there, every consumer sees it, and no value leaks from the previous event.",
  "all schedules, any number of consumers",
  "concurrency schedules",
  ["fwk/store.go"])
p("C43", "Bounded parallelism",
  "The parallel runner never has more than the configured number of tasks running, runs each task exactly once, waits for all, and returns all errors.",
  "all schedules and task sets", "concurrency schedules",
  ["fwk/utils/parallel/parallel.go"])
# ---------------------------------------------------------------- heppdt / hepmc
p("C44", "Particle-id digits and charge conjugation",
  "Digit(loc) is the loc-th decimal digit of |pid|; classification predicates depend only on |pid| except where an antiparticle is illegal; Charge(-pid) = -Charge(pid) for every pid that is not a nucleus.",
  "all 64-bit particle ids", "2^64 ids",
  ["heppdt/pid.go"])
p("C45", "HepMC event graph invariants",
  "After any history of AddVertex/AddParticleIn/AddParticleOut, a particle appears in at most one vertex's incoming list and one vertex's outgoing list, at most once, exactly when its EndVertex/ProdVertex says so, and the event maps contain it under its barcode.",
  "all histories on an event", "histories unbounded",
  ["hepmc/hepmc.go"])
p("C46", "HepMC weights container",
  "Weights.Add/At behave as a map with insertion order: At(n) returns the value added under n, duplicates are rejected, the slice lists values in insertion order.",
  "all histories of Add", "histories unbounded", ["hepmc/hepmc.go:Weights"])

if __name__ == "__main__":
    d = os.path.dirname(os.path.dirname(os.path.abspath(__file__)))
    extra = os.path.join(d, "tools", "props_extra.py")
    if os.path.exists(extra):
        exec(open(extra).read())
    ids = [x["id"] for x in P]
    assert len(ids) == len(set(ids)), "duplicate id"
    with open(os.path.join(d, "properties.jsonl"), "w") as f:
        for x in P:
            f.write(json.dumps(x, ensure_ascii=False) + "\n")
    print(len(P), "properties")
