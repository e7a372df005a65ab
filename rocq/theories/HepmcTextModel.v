(* Model of the text form of HepMC events: hepmc/encoder.go, hepmc/decoder.go, hepmc/utils.go, hepmc/units.go and Copy of hepmc/io.go,
   over the event graph of HepmcModel.  Bytes in, bytes out.
   Simplified: writing to the underlying stream never fails; after an error the contents of the event being read are not
   described (only that there was an error); Flow.Particle is left out; momentum and length units other than the named
   constants are left out; a slice that is too large for the memory is not considered.  float32 values are the float64
   values that the conversion to float32 (a parameter) leaves alone.  sort.Sort is an insertion sort (the order of elements
   with equal barcodes is not specified by Go).  The order of the iteration over a map is a parameter. *)
From Coq Require Import ZArith List Lia Bool.
From Flocq Require Import IEEE754.BinarySingleNaN.
From Verif Require Import Bytes GoLib GoStrings GoQuote F64 FloatText DflowModel HepmcModel.
Import ListNotations.
Local Open Scope Z_scope.

(* the fields of Particle, Vertex, HeavyIon, PdfInfo and Event that are not part of the graph *)
(* hepmc/hepmc.go:288-298, 709-718 *)
Record pdata := PData { px : f64; py : f64; pz : f64; pe : f64; mass : f64; theta : f64; phi : f64; pdg : Z; status : Z; flow : amap Z }.
(* hepmc/hepmc.go:357-365 Vertex; the names of its weights are kept to show that they are lost *)
Record vdata := VData { vx : f64; vy : f64; vz : f64; vt : f64; vid : Z; vws : list f64; vwm : list (str * Z) }.
(* hepmc/hepmc.go:629-643 *)
Record heavyion := HIon { hi_n : list Z; hi_f : list f64 }.     (* nine integers, four float32 *)
(* hepmc/hepmc.go:656-666 *)
Record pdfinfo := Pdf { id1 : Z; id2 : Z; lha1 : Z; lha2 : Z; x1 : f64; x2 : f64; qscale : f64; pdf1 : f64; pdf2 : f64 }.
(* hepmc/units.go:12-29 *)
Inductive munit := MEV | GEV.
Inductive lunit := MM | CM.
(* hepmc/hepmc.go:59-83 Event, without the maps and counters, which are in HepmcModel; wslice None: nil *)
Record edata := EData { sigid : Z; evnum : Z; mpi : Z; scale : f64; aqcd : f64; aqed : f64;
  signal : option nat; beam1 : option nat; beam2 : option nat; wslice : option (list f64); wmap : list (str * Z); rndm : list Z;
  xsec : option (f64 * f64); hion : option heavyion; pdfi : option pdfinfo; mu : munit; lu : lunit }.
(* the memory: the graph, the data, and the next free addresses *)
Record mem := { gr : heap; pd : nat -> pdata; vd : nat -> vdata; ed : nat -> edata; np : nat; nv : nat }.

(* hepmc/units.go:31-39, 52-60 *)
Definition MEVs : str := [77; 69; 86].
Definition GEVs : str := [71; 69; 86].
Definition MMs : str := [77; 77].
Definition CMs : str := [67; 77].
Definition munit_str (u : munit) : str := match u with MEV => MEVs | GEV => GEVs end.
Definition lunit_str (u : lunit) : str := match u with MM => MMs | CM => CMs end.
(* hepmc/units.go:42-50, 63-71 *)
Definition munit_of (s : str) : option munit := if str_eqb s MEVs then Some MEV else if str_eqb s GEVs then Some GEV else None.
Definition lunit_of (s : str) : option lunit := if str_eqb s MMs then Some MM else if str_eqb s CMs then Some CM else None.

(* maps from names *)
Fixpoint sget (m : list (str * Z)) (n : str) : option Z := match m with [] => None | (k, i) :: m' => if str_eqb k n then Some i else sget m' n end.
Fixpoint sset (m : list (str * Z)) (n : str) (i : Z) : list (str * Z) :=
  match m with [] => [(n, i)] | (k, j) :: m' => if str_eqb k n then (k, i) :: m' else (k, j) :: sset m' n i end.

(* sort.Sort by increasing key *)
Fixpoint insertBy {A} (key : A -> Z) (x : A) (l : list A) : list A :=
  match l with [] => [x] | y :: l' => if key x <=? key y then x :: l else y :: insertBy key x l' end.
Definition sortBy {A} (key : A -> Z) (l : list A) : list A := fold_right (insertBy key) [] l.
(* sort.Sort(sort.Reverse(..)): the other order; elements with the same key keep their order *)
Definition rsortBy {A} (key : A -> Z) (l : list A) : list A := sortBy (fun x => - key x) l.

(* 0, 1, .., n-1 *)
Definition indices (n : nat) : list Z := map Z.of_nat (seq 0 n).

Section Text.
(* the order in which a map is visited *)
Variable visit : forall A : Type, list A -> list A.
(* strconv.IsPrint from 128 on *)
Variable isPrint : Z -> bool.
(* conversion to float32, and back *)
Variable f32 : f64 -> f64.

Definition ftext (x : f64) : str := fmt_e 17 x.    (* %1.16e *)

(* ---- hepmc/encoder.go: the pieces printed, line by line; blanks of the formats are between the pieces ---- *)
Definition sE : str := [69].
Definition sN : str := [78].
Definition sU : str := [85].
Definition sC : str := [67].
Definition sH : str := [72].
Definition sF : str := [70].
Definition sV : str := [86].
Definition sP : str := [80].
Definition obc (f : nat -> Z) (o : option nat) : Z := match o with Some a => f a | None => 0 end.
Definition vbc (m : mem) (v : nat) : Z := v_bc (verts (gr m) v).
Definition pbc (m : mem) (p : nat) : Z := p_bc (parts (gr m) p).
Definition weightsOf (d : edata) : list f64 := match wslice d with Some l => l | None => [] end.
(* hepmc/encoder.go:62-115 *)
Definition lineE (m : mem) (e : nat) : list str :=
  let d := ed m e in
  [sE; itoa (evnum d); itoa (mpi d); ftext (scale d); ftext (aqcd d); ftext (aqed d); itoa (sigid d); itoa (obc (vbc m) (signal d));
   itoa (zlen (e_verts (evts (gr m) e))); itoa (obc (pbc m) (beam1 d)); itoa (obc (pbc m) (beam2 d)); itoa (zlen (rndm d))] ++
  map itoa (rndm d) ++ [itoa (zlen (weightsOf d))] ++ map ftext (weightsOf d).
(* hepmc/encoder.go:117-121: the name of each weight *)
Definition namesOf (w : list (str * Z)) : amap str := fold_left (fun ns x => set ns (snd x) (fst x)) (visit _ w) [].
Definition nameAt (ns : amap str) (i : Z) : str := match get ns i with Some n => n | None => [] end.
(* hepmc/encoder.go:116-136: a blank after every name *)
Definition linesN (d : edata) : list (list str) :=
  match weightsOf d with
  | [] => []
  | ws => [[sN; itoa (zlen ws)] ++ map (fun i => quote isPrint (nameAt (namesOf (wmap d)) i)) (indices (length ws)) ++ [[]]]
  end.
(* hepmc/encoder.go:138-147 *)
Definition lineU (d : edata) : list str := [sU; munit_str (mu d); lunit_str (lu d)].
(* hepmc/encoder.go:287-296 *)
Definition linesC (d : edata) : list (list str) := match xsec d with Some (v, r) => [[sC; ftext v; ftext r]] | None => [] end.
(* hepmc/encoder.go:298-318 *)
Definition linesH (d : edata) : list (list str) := match hion d with Some h => [sH :: map itoa (hi_n h) ++ map ftext (hi_f h)] | None => [] end.
(* hepmc/encoder.go:320-344: also without the information *)
Definition zeropdf : pdfinfo := Pdf 0 0 0 0 fzero fzero fzero fzero fzero.
Definition lineF (d : edata) : list str :=
  let f := match pdfi d with Some f => f | None => zeropdf end in
  [sF; itoa (id1 f); itoa (id2 f); ftext (x1 f); ftext (x2 f); ftext (qscale f); ftext (pdf1 f); ftext (pdf2 f); itoa (lha1 f); itoa (lha2 f)].
(* hepmc/encoder.go:266-285 *)
Definition flowText (fl : amap Z) : list str :=
  itoa (zlen fl) :: concat (map (fun k => [itoa k; itoa (match get fl k with Some v => v | None => 0 end)]) (sortBy (fun k => k) (keys (visit _ fl)))).
(* hepmc/encoder.go:235-264 *)
Definition lineP (m : mem) (p : nat) : list str :=
  let d := pd m p in
  [sP; itoa (pbc m p); itoa (pdg d); ftext (px d); ftext (py d); ftext (pz d); ftext (pe d); ftext (mass d); itoa (status d); ftext (theta d); ftext (phi d);
   itoa (obc (vbc m) (p_end (parts (gr m) p)))] ++ flowText (flow d).
(* hepmc/encoder.go:184-233 *)
Definition orphan (m : mem) (p : nat) : bool := match p_prod (parts (gr m) p) with None => true | Some _ => false end.
Definition orphans (m : mem) (v : nat) : list nat := filter (orphan m) (v_in (verts (gr m) v)).
Definition lineV (m : mem) (v : nat) : list str :=
  let d := vd m v in
  [sV; itoa (vbc m v); itoa (vid d); ftext (vx d); ftext (vy d); ftext (vz d); ftext (vt d); itoa (zlen (orphans m v)); itoa (zlen (v_out (verts (gr m) v)));
   itoa (zlen (vws d))] ++ map ftext (vws d).
Definition linesV (m : mem) (v : nat) : list (list str) := lineV m v :: map (lineP m) (orphans m v ++ v_out (verts (gr m) v)).
(* hepmc/encoder.go:169-181: vertices by decreasing barcode *)
Definition vertsOf (m : mem) (e : nat) : list nat := rsortBy (vbc m) (map snd (visit _ (e_verts (evts (gr m) e)))).
(* hepmc/encoder.go:62-182 *)
Definition linesEvt (m : mem) (e : nat) : list (list str) :=
  let d := ed m e in
  [lineE m e] ++ linesN d ++ [lineU d] ++ linesC d ++ linesH d ++ [lineF d] ++ concat (map (linesV m) (vertsOf m e)).
Definition lineText (l : list str) : str := join 32 l ++ [10].
Definition linesText (ls : list (list str)) : str := concat (map lineText ls).
(* "HepMC::IO_GenEvent-START_EVENT_LISTING" and the others of hepmc/filetype.go:7-20 *)
Definition sHepMC : str := [72; 101; 112; 77; 67; 58; 58; 73; 79; 95].
Definition sGenEvent : str := [71; 101; 110; 69; 118; 101; 110; 116].
Definition sAscii : str := [65; 115; 99; 105; 105].
Definition sExtended : str := [69; 120; 116; 101; 110; 100; 101; 100].
Definition sStart : str := [45; 83; 84; 65; 82; 84; 95].
Definition sEnd : str := [45; 69; 78; 68; 95].
Definition sListing : str := [69; 86; 69; 78; 84; 95; 76; 73; 83; 84; 73; 78; 71].
Definition sData : str := [80; 65; 82; 84; 73; 67; 76; 69; 95; 68; 65; 84; 65].
Definition startGenEvent : str := sHepMC ++ sGenEvent ++ sStart ++ sListing.
Definition startASCII : str := sHepMC ++ sAscii ++ sStart ++ sListing.
Definition startExtendedASCII : str := sHepMC ++ sExtended ++ sAscii ++ sStart ++ sListing.
Definition endGenEvent : str := sHepMC ++ sGenEvent ++ sEnd ++ sListing.
Definition endASCII : str := sHepMC ++ sAscii ++ sEnd ++ sListing.
Definition endExtendedASCII : str := sHepMC ++ sExtended ++ sAscii ++ sEnd ++ sListing.
Definition startPdt : str := sHepMC ++ sAscii ++ sStart ++ sData.
Definition startExtendedASCIIPdt : str := sHepMC ++ sExtended ++ sAscii ++ sStart ++ sData.
Definition endPdt : str := sHepMC ++ sAscii ++ sEnd ++ sData.
Definition endExtendedASCIIPdt : str := sHepMC ++ sExtended ++ sAscii ++ sEnd ++ sData.
(* "HepMC::Version" and its number, hepmc/version.go:7-10 *)
Definition sVersion : str := [72; 101; 112; 77; 67; 58; 58; 86; 101; 114; 115; 105; 111; 110].
Definition sVersionName : str := [50; 46; 48; 54; 46; 48; 57].
(* hepmc/encoder.go:44-60: printed before the first event *)
Definition headerText : str := [10] ++ lineText [sVersion; sVersionName] ++ lineText [startGenEvent].
(* an Encoder: has the header been printed *)
Definition encode (seen : bool) (m : mem) (e : nat) : str := (if seen then [] else headerText) ++ linesText (linesEvt m e).
(* hepmc/encoder.go:25-38 *)
Definition close (seen : bool) : str := if seen then lineText [endGenEvent] else [].
(* NewEncoder, Encode of every event, Close *)
Definition write (m : mem) (es : list nat) : str :=
  match es with [] => [] | e :: es' => encode false m e ++ concat (map (encode true m) es') ++ close true end.

(* ---- hepmc/decoder.go ---- *)
(* io.EOF is told apart from other errors; Crash is a panic; Hang: waits for ever *)
Inductive out (A : Type) := Val (a : A) | Eof | Err | Crash | Hang.
Arguments Val {A} a. Arguments Eof {A}. Arguments Err {A}. Arguments Crash {A}. Arguments Hang {A}.
Definition obind {A B} (o : out A) (f : A -> out B) : out B :=
  match o with Val a => f a | Eof => Eof | Err => Err | Crash => Crash | Hang => Hang end.
Notation "'dv' x <- r ; k" := (obind r (fun x => k)) (at level 200, x name, r at level 100, k at level 200).
Notation "'dv' ' p <- r ; k" := (obind r (fun x => match x with p => k end)) (at level 200, p pattern, r at level 100, k at level 200).

(* bufio.Scanner with ScanLines: lines without their end, a last line may have none; a line of 65536 bytes or more stops it *)
Definition dropCR (l : str) : str := match rev l with 13 :: r => rev r | _ => l end.
Fixpoint rawlines (ls : list str) : list str := match ls with [] => [] | [[]] => [] | l :: ls' => l :: rawlines ls' end.
Fixpoint scan (ls : list str) : list str * bool :=
  match ls with
  | [] => ([], true)
  | l :: ls' => if zlen l <? 65536 then let '(r, ok) := scan ls' in (dropCR l :: r, ok) else ([], false)
  end.
(* hepmc/decoder.go:42-59: what the goroutine sends: lines cut at blanks, then an error; fin None: the error has been sent, nothing follows *)
Inductive ending := EndEOF | EndErr.
Record strm := { sl : list (list str); fin : option ending }.
Definition readlines (text : str) : strm :=
  let '(ls, ok) := scan (rawlines (split 10 text)) in {| sl := map (split 32) ls; fin := Some (if ok then EndEOF else EndErr) |}.
(* hepmc/decoder.go:61-64 *)
Definition readline (s : strm) : out (list str) * strm :=
  match sl s with
  | l :: ls => (Val l, {| sl := ls; fin := fin s |})
  | [] => match fin s with
          | Some EndEOF => (Eof, {| sl := []; fin := None |})
          | Some EndErr => (Err, {| sl := []; fin := None |})
          | None => (Hang, s)
          end
  end.
(* hepmc/filetype.go:22-31 *)
Inductive ftype := FNone | FGenEvent | FASCII | FExtendedASCII | FASCIIPdt | FExtendedASCIIPdt.
(* hepmc/decoder.go:22-30; the barcodes kept in the decoder are set anew by every Decode *)
Record decoder := { ds : strm; seenHdr : bool; ft : ftype }.
(* hepmc/decoder.go:33-40 *)
Definition newDecoder (text : str) : decoder := {| ds := readlines text; seenHdr := false; ft := FNone |}.

(* hepmc/utils.go:24-53: pieces of a line *)
Definition toks := list str.
Definition next (t : toks) : str * toks := match t with [] => ([], []) | s :: t' => (s, t') end.
Definition tint (t : toks) : out (Z * toks) := let '(s, t') := next t in match atoi s with Some v => Val (v, t') | None => Err end.
Definition tflt (t : toks) : out (f64 * toks) := let '(s, t') := next t in match parse_float s with Some v => Val (v, t') | None => Err end.
Definition tflt32 (t : toks) : out (f64 * toks) := let '(s, t') := next t in match parse_float s with Some v => Val (f32 v, t') | None => Err end.
Fixpoint trep {A} (f : toks -> out (A * toks)) (n : nat) (t : toks) : out (list A * toks) :=
  match n with O => Val ([], t) | S n' => dv '(x, t1) <- f t; dv '(xs, t2) <- trep f n' t1; Val (x :: xs, t2) end.
(* make([]T, n) and n values: a negative length panics *)
Definition tmake {A} (f : toks -> out (A * toks)) (n : Z) (t : toks) : out (list A * toks) := if n <? 0 then Crash else trep f (Z.to_nat n) t.
(* peek := tokens.next(); peek[0] *)
Definition peek (t : toks) : out (Z * toks) := let '(s, t') := next t in match s with [] => Crash | c :: _ => Val (c, t') end.
Definition guard (b : bool) : out unit := if b then Val tt else Err.

(* hepmc/decoder.go:249-288 *)
Fixpoint findType (ls : list (list str)) : option (ftype * list (list str)) :=
  match ls with
  | [] => None
  | l :: ls' =>
    let s := fst (next l) in
    if str_eqb s startGenEvent then Some (FGenEvent, ls') else if str_eqb s startASCII then Some (FASCII, ls')
    else if str_eqb s startExtendedASCII then Some (FExtendedASCII, ls') else if str_eqb s startPdt then Some (FASCIIPdt, ls')
    else if str_eqb s startExtendedASCIIPdt then Some (FExtendedASCIIPdt, ls') else findType ls'
  end.
Definition findFileType (d : decoder) : out unit * decoder :=
  match findType (sl (ds d)) with
  | Some (f, ls) => (Val tt, {| ds := {| sl := ls; fin := fin (ds d) |}; seenHdr := true; ft := f |})
  | None => match fin (ds d) with
            | Some _ => (Err, {| ds := {| sl := []; fin := None |}; seenHdr := seenHdr d; ft := ft d |})   (* io.ErrUnexpectedEOF, or the error *)
            | None => (Hang, d)
            end
  end.
Definition ftype_eqb (a b : ftype) : bool :=
  match a, b with FNone, FNone | FGenEvent, FGenEvent | FASCII, FASCII | FExtendedASCII, FExtendedASCII | FASCIIPdt, FASCIIPdt | FExtendedASCIIPdt, FExtendedASCIIPdt => true | _, _ => false end.
(* hepmc/decoder.go:290-327: never without an error *)
Definition findEndKey (f : ftype) (l : toks) : out unit :=
  let s := fst (next l) in
  match s with
  | [] => Crash
  | c :: _ =>
    if negb (c =? 72) then Err else
    let r := if str_eqb s endGenEvent then FGenEvent else if str_eqb s endASCII then FASCII else if str_eqb s endExtendedASCII then FExtendedASCII
             else if str_eqb s endPdt then FASCIIPdt else if str_eqb s endExtendedASCIIPdt then FExtendedASCIIPdt else FNone in
    match r with FNone => Err | _ => if ftype_eqb r f then Eof else Err end
  end.

(* what the line E tells *)
Record hdr := { nvtx : Z; sigbc : Z; bp1 : Z; bp2 : Z }.
Definition setEvtMap (m : mem) (e : nat) (x : evt) : mem := {| gr := setEvt (gr m) e x; pd := pd m; vd := vd m; ed := ed m; np := np m; nv := nv m |}.
Definition setEd (m : mem) (e : nat) (x : edata) : mem := {| gr := gr m; pd := pd m; vd := vd m; ed := upd (ed m) e x; np := np m; nv := nv m |}.
(* hepmc/decoder.go:463-478, 899-914: the maps are new; the counters of barcodes are left alone *)
Definition fillEvt (m : mem) (e : nat) (num mpi' : Z) (sc qcd qed : f64) (sid : Z) (rs : list Z) (ws : list f64) : mem :=
  let d := ed m e in let x := evts (gr m) e in
  setEvtMap (setEd m e (EData sid num mpi' sc qcd qed (signal d) (beam1 d) (beam2 d) (Some ws) (match wslice d with None => [] | Some _ => wmap d end) rs
     (xsec d) (hion d) (pdfi d) (mu d) (lu d)))
    e {| e_verts := []; e_parts := []; e_bcp := e_bcp x; e_bcv := e_bcv x; e_nil := false |}.
(* hepmc/decoder.go:369-479 *)
Definition decodeEvent (m : mem) (e : nat) (t : toks) : out (hdr * mem) :=
  dv '(c, t) <- peek t; dv _ <- guard (c =? 69);
  dv '(num, t) <- tint t; dv '(mp, t) <- tint t; dv '(sc, t) <- tflt t; dv '(qcd, t) <- tflt t; dv '(qed, t) <- tflt t; dv '(sid, t) <- tint t;
  dv '(sb, t) <- tint t; dv '(n, t) <- tint t; dv '(b1, t) <- tint t; dv '(b2, t) <- tint t;
  dv '(nr, t) <- tint t; dv '(rs, t) <- tmake tint nr t; dv '(nw, t) <- tint t; dv '(ws, t) <- tmake tflt nw t;
  Val ({| nvtx := n; sigbc := sb; bp1 := b1; bp2 := b2 |}, fillEvt m e num mp sc qcd qed sid rs ws).
(* hepmc/decoder.go:824-915 *)
Definition decodeASCII (m : mem) (e : nat) (t : toks) : out (hdr * mem) :=
  dv '(num, t) <- tint t; dv '(sc, t) <- tflt t; dv '(qcd, t) <- tflt t; dv '(qed, t) <- tflt t; dv '(sid, t) <- tint t;
  dv '(sb, t) <- tint t; dv '(n, t) <- tint t;
  dv '(nr, t) <- tint t; dv '(rs, t) <- tmake tint nr t; dv '(nw, t) <- tint t; dv '(ws, t) <- tmake tflt nw t;
  Val ({| nvtx := n; sigbc := sb; bp1 := 0; bp2 := 0 |}, fillEvt m e num 0 sc qcd qed sid rs ws).
(* hepmc/decoder.go:127-144 *)
Fixpoint names (n : nat) (i : Z) (w : list (str * Z)) (t : toks) : out (list (str * Z)) :=
  match n with
  | O => Val w
  | S n' => let '(s, t') := next t in match unquote s with Some x => names n' (i + 1) (sset w x i) t' | None => Err end
  end.
Definition decodeN (m : mem) (e : nat) (t : toks) : out mem :=
  let '(_, t) := next t in dv '(n, t) <- tint t; dv w <- names (Z.to_nat n) 0 [] t;
  let d := ed m e in
  Val (setEd m e (EData (sigid d) (evnum d) (mpi d) (scale d) (aqcd d) (aqed d) (signal d) (beam1 d) (beam2 d) (wslice d) w (rndm d) (xsec d) (hion d) (pdfi d) (mu d) (lu d))).
(* hepmc/decoder.go:329-348 *)
Definition decodeUnits (m : mem) (e : nat) (t : toks) : out mem :=
  dv '(c, t) <- peek t; dv _ <- guard (c =? 85); let '(a, t) := next t in let '(b, t) := next t in
  match munit_of a, lunit_of b with
  | Some u, Some l => let d := ed m e in
    Val (setEd m e (EData (sigid d) (evnum d) (mpi d) (scale d) (aqcd d) (aqed d) (signal d) (beam1 d) (beam2 d) (wslice d) (wmap d) (rndm d) (xsec d) (hion d) (pdfi d) u l))
  | _, _ => Err
  end.
(* hepmc/decoder.go:350-367 *)
Definition decodeCrossSection (m : mem) (e : nat) (t : toks) : out mem :=
  dv '(c, t) <- peek t; dv _ <- guard (c =? 67); dv '(v, t) <- tflt t; dv '(r, t) <- tflt t;
  let d := ed m e in
  Val (setEd m e (EData (sigid d) (evnum d) (mpi d) (scale d) (aqcd d) (aqed d) (signal d) (beam1 d) (beam2 d) (wslice d) (wmap d) (rndm d) (Some (v, r)) (hion d) (pdfi d) (mu d) (lu d))).
(* hepmc/decoder.go:687-763 *)
Definition decodeHeavyIon (m : mem) (e : nat) (t : toks) : out mem :=
  dv '(c, t) <- peek t; dv _ <- guard (c =? 72); dv '(ns, t) <- trep tint 9 t; dv '(fs, t) <- trep tflt32 4 t;
  let d := ed m e in
  Val (setEd m e (EData (sigid d) (evnum d) (mpi d) (scale d) (aqcd d) (aqed d) (signal d) (beam1 d) (beam2 d) (wslice d) (wmap d) (rndm d) (xsec d) (Some (HIon ns fs)) (pdfi d) (mu d) (lu d))).
(* hepmc/decoder.go:765-822 *)
Definition decodePdfInfo (m : mem) (e : nat) (t : toks) : out mem :=
  dv '(c, t) <- peek t; dv _ <- guard (c =? 70); dv '(i1, t) <- tint t; dv '(i2, t) <- tint t; dv '(a1, t) <- tflt t; dv '(a2, t) <- tflt t; dv '(q, t) <- tflt t;
  dv '(f1, t) <- tflt t; dv '(f2, t) <- tflt t; dv '(l1, t) <- tint t; dv '(l2, t) <- tint t;
  let d := ed m e in
  Val (setEd m e (EData (sigid d) (evnum d) (mpi d) (scale d) (aqcd d) (aqed d) (signal d) (beam1 d) (beam2 d) (wslice d) (wmap d) (rndm d) (xsec d) (hion d) (Some (Pdf i1 i2 l1 l2 a1 a2 q f1 f2)) (mu d) (lu d))).
(* hepmc/decoder.go:107-187: one line before the vertices; None: the vertices begin *)
Definition withH (h : hdr) (o : out mem) : out (option (hdr * mem)) := dv m <- o; Val (Some (h, m)).
Definition headLine (f : ftype) (e : nat) (t : toks) (h : hdr) (m : mem) : out (option (hdr * mem)) :=
  dv '(c, _) <- peek t;
  if c =? 69 then
    match f with
    | FGenEvent | FExtendedASCII => dv x <- decodeEvent m e t; Val (Some x)
    | FASCII => dv x <- decodeASCII m e t; Val (Some x)
    | _ => Err
    end
  else if c =? 78 then withH h (decodeN m e t)
  else if c =? 85 then match f with FGenEvent => withH h (decodeUnits m e t) | _ => Val (Some (h, m)) end
  else if c =? 67 then withH h (decodeCrossSection m e t)
  else if c =? 72 then match f with FGenEvent | FExtendedASCII => withH h (decodeHeavyIon m e t) | _ => Val (Some (h, m)) end
  else if c =? 70 then match f with FGenEvent | FExtendedASCII => withH h (decodePdfInfo m e t) | _ => Val (Some (h, m)) end
  else if (c =? 86) || (c =? 80) then Val None
  else Err.
(* hepmc/decoder.go:105-193: t is the current line, ls those that follow; the result has the line the vertices begin with *)
Fixpoint head (f : ftype) (e : nat) (t : toks) (ls : list (list str)) (fn : option ending) (h : hdr) (m : mem) : out (toks * hdr * mem) * strm :=
  match headLine f e t h m with
  | Val None => (Val (t, h, m), {| sl := ls; fin := fn |})
  | Val (Some (h', m')) =>
    match ls with
    | t' :: ls' => head f e t' ls' fn h' m'
    | [] => let '(o, s) := readline {| sl := []; fin := fn |} in (obind o (fun _ => Err), s)
    end
  | Eof => (Eof, {| sl := ls; fin := fn |})
  | Err => (Err, {| sl := ls; fin := fn |})
  | Crash => (Crash, {| sl := ls; fin := fn |})
  | Hang => (Hang, {| sl := ls; fin := fn |})
  end.

(* hepmc/decoder.go:667-685 *)
Fixpoint decodeFlow (n : nat) (fl : amap Z) (t : toks) : out (amap Z) :=
  match n with O => Val fl | S n' => dv '(k, t) <- tint t; dv '(v, t) <- tint t; decodeFlow n' (set fl k v) t end.
(* hepmc/decoder.go:584-665: barcode, barcode of the end vertex, data *)
Definition decodeParticle (f : ftype) (t : toks) : out (Z * Z * pdata) :=
  dv '(c, t) <- peek t; dv _ <- guard (c =? 80);
  dv '(bc, t) <- tint t; dv '(pg, t) <- tint t; dv '(x, t) <- tflt t; dv '(y, t) <- tflt t; dv '(z, t) <- tflt t; dv '(en, t) <- tflt t;
  dv '(ms, t) <- match f with FASCII => Val (fzero, t) | _ => tflt t end;
  dv '(st, t) <- tint t; dv '(th, t) <- tflt t; dv '(ph, t) <- tflt t; dv '(eb, t) <- tint t; dv '(nf, t) <- tint t; dv fl <- decodeFlow (Z.to_nat nf) [] t;
  Val (bc, eb, PData x y z en ms th ph pg st fl).
(* a new particle in the event: hepmc/decoder.go:555-564, 569-578, 661-663 *)
Definition newPart (m : mem) (e : nat) (prod : option nat) (bc : Z) (d : pdata) : mem :=
  let x := evts (gr m) e in
  {| gr := setEvt (setPart (gr m) (np m) {| p_bc := bc; p_prod := prod; p_end := None |}) e
             {| e_verts := e_verts x; e_parts := set (e_parts x) bc (np m); e_bcp := e_bcp x; e_bcv := e_bcv x; e_nil := e_nil x |};
     pd := upd (pd m) (np m) d; vd := vd m; ed := ed m; np := S (np m); nv := nv m |}.
(* the particles of a vertex: hepmc/decoder.go:554-565, 568-580 *)
Fixpoint decodeParts (f : ftype) (e : nat) (prod : option nat) (n : nat) (pidx : amap Z) (m : mem) (s : strm) : out (list nat * amap Z * mem) * strm :=
  match n with
  | O => (Val ([], pidx, m), s)
  | S n' =>
    let '(o, s1) := readline s in
    match obind o (decodeParticle f) with
    | Val (bc, eb, d) =>
      let pidx1 := if eb =? 0 then pidx else set pidx bc eb in
      let '(o2, s2) := decodeParts f e prod n' pidx1 (newPart m e prod bc d) s1 in
      (dv '(ps, pidx2, m2) <- o2; Val (np m :: ps, pidx2, m2), s2)
    | Eof => (Eof, s1) | Err => (Err, s1) | Crash => (Crash, s1) | Hang => (Hang, s1)
    end
  end.
(* hepmc/decoder.go:481-549: barcode, orphans, particles out, data *)
Definition decodeVLine (t : toks) : out (Z * Z * Z * vdata) :=
  dv '(c, t) <- peek t; dv _ <- guard (c =? 86);
  dv '(bc, t) <- tint t; dv '(id, t) <- tint t; dv '(x, t) <- tflt t; dv '(y, t) <- tflt t; dv '(z, t) <- tflt t; dv '(tt', t) <- tflt t;
  dv '(no, t) <- tint t; dv '(nout, t) <- tint t; dv '(nw, t) <- tint t; dv '(ws, t) <- tmake tflt nw t;
  Val (bc, no, nout, VData x y z tt' id ws []).
(* hepmc/decoder.go:208-215, 481-582; the address of the vertex is taken first *)
Definition newVert (m : mem) (e v : nat) (bc : Z) (ps : list nat) (d : vdata) : mem :=
  let x := evts (gr m) e in
  {| gr := setEvt (setVert (gr m) v {| v_bc := bc; v_in := []; v_out := sortBy (pbc m) ps; v_ev := Some e |}) e
             {| e_verts := set (e_verts x) bc v; e_parts := e_parts x; e_bcp := e_bcp x; e_bcv := e_bcv x; e_nil := e_nil x |};
     pd := pd m; vd := upd (vd m) v d; ed := ed m; np := np m; nv := nv m |}.
Definition decodeVertex (f : ftype) (e : nat) (t : toks) (pidx : amap Z) (m : mem) (s : strm) : out (amap Z * mem) * strm :=
  match decodeVLine t with
  | Val (bc, no, nout, d) =>
    let v := nv m in
    let m0 := {| gr := gr m; pd := pd m; vd := vd m; ed := ed m; np := np m; nv := S (nv m) |} in
    let '(o1, s1) := decodeParts f e None (Z.to_nat no) pidx m0 s in
    match o1 with
    | Val (_, pidx1, m1) =>
      if nout <? 0 then (Crash, s1) else
      let '(o2, s2) := decodeParts f e (Some v) (Z.to_nat nout) pidx1 m1 s1 in
      (dv '(ps, pidx2, m2) <- o2; Val (pidx2, newVert m2 e v bc ps d), s2)
    | Eof => (Eof, s1) | Err => (Err, s1) | Crash => (Crash, s1) | Hang => (Hang, s1)
    end
  | Eof => (Eof, s) | Err => (Err, s) | Crash => (Crash, s) | Hang => (Hang, s)
  end.
(* hepmc/decoder.go:201-216: the first vertex is on the line already read *)
Fixpoint decodeVerts (f : ftype) (e : nat) (t : option toks) (n : nat) (pidx : amap Z) (m : mem) (s : strm) : out (amap Z * mem) * strm :=
  match n with
  | O => (Val (pidx, m), s)
  | S n' =>
    let '(o, s1) := match t with Some l => (Val l, s) | None => readline s end in
    match o with
    | Val l =>
      let '(o2, s2) := decodeVertex f e l pidx m s1 in
      match o2 with
      | Val (pidx2, m2) => decodeVerts f e None n' pidx2 m2 s2
      | Eof => (Eof, s2) | Err => (Err, s2) | Crash => (Crash, s2) | Hang => (Hang, s2)
      end
    | Eof => (Eof, s1) | Err => (Err, s1) | Crash => (Crash, s1) | Hang => (Hang, s1)
    end
  end.
(* hepmc/decoder.go:218-229 *)
Definition setSignal (m : mem) (e : nat) (sb : Z) : out mem :=
  if sb =? 0 then Val m else
  let d := ed m e in
  let sg := match find (fun v => vbc m v =? sb) (map snd (visit _ (e_verts (evts (gr m) e)))) with Some v => Some v | None => signal d end in
  match sg with
  | None => Err
  | Some _ => Val (setEd m e (EData (sigid d) (evnum d) (mpi d) (scale d) (aqcd d) (aqed d) sg (beam1 d) (beam2 d) (wslice d) (wmap d) (rndm d) (xsec d) (hion d) (pdfi d) (mu d) (lu d)))
  end.
(* hepmc/decoder.go:232-245: a vertex that does not exist is a nil pointer *)
Definition link (e : nat) (h : hdr) (m : mem) (i eb : Z) : out mem :=
  match get (e_parts (evts (gr m) e)) i, get (e_verts (evts (gr m) e)) eb with
  | Some p, Some v =>
    let x := verts (gr m) v in let q := parts (gr m) p in let d := ed m e in
    let b1 := if p_bc q =? bp1 h then Some p else beam1 d in
    let b2 := if p_bc q =? bp2 h then Some p else beam2 d in
    Val {| gr := setPart (setVert (gr m) v {| v_bc := v_bc x; v_in := sortBy (pbc m) (v_in x ++ [p]); v_out := v_out x; v_ev := v_ev x |})
                   p {| p_bc := p_bc q; p_prod := p_prod q; p_end := Some v |};
           pd := pd m; vd := vd m;
           ed := upd (ed m) e (EData (sigid d) (evnum d) (mpi d) (scale d) (aqcd d) (aqed d) (signal d) b1 b2 (wslice d) (wmap d) (rndm d) (xsec d) (hion d) (pdfi d) (mu d) (lu d));
           np := np m; nv := nv m |}
  | _, _ => Crash
  end.
Fixpoint links (e : nat) (h : hdr) (l : list (Z * Z)) (m : mem) : out mem :=
  match l with [] => Val m | (i, eb) :: l' => dv m1 <- link e h m i eb; links e h l' m1 end.
Definition finish (e : nat) (h : hdr) (pidx : amap Z) (m : mem) : out mem := dv m1 <- setSignal m e (sigbc h); links e h (visit _ pidx) m1.
(* hepmc/decoder.go:67-247 after the file type is known *)
Definition hdr0 : hdr := {| nvtx := 0; sigbc := 0; bp1 := 0; bp2 := 0 |}.
Definition decodeBody (f : ftype) (m : mem) (e : nat) (s : strm) : out mem * strm :=
  let '(o, s1) := readline s in
  match o with
  | Val t =>
    match peek t with
    | Val (c, _) =>
      if negb (c =? 69) then (dv _ <- findEndKey f t; Err, s1)
      else
        let '(o2, s2) := head f e t (sl s1) (fin s1) hdr0 m in
        match o2 with
        | Val (t2, h, m2) =>
          let '(o3, s3) := decodeVerts f e (Some t2) (Z.to_nat (nvtx h)) [] m2 s2 in
          (dv '(pidx, m3) <- o3; finish e h pidx m3, s3)
        | Eof => (Eof, s2) | Err => (Err, s2) | Crash => (Crash, s2) | Hang => (Hang, s2)
        end
    | _ => (Crash, s1)
    end
  | Eof => (Eof, s1) | Err => (Err, s1) | Crash => (Crash, s1) | Hang => (Hang, s1)
  end.
Definition decode (d : decoder) (m : mem) (e : nat) : out mem * decoder :=
  let '(o, d1) := if seenHdr d then (Val tt, d) else findFileType d in
  match o with
  | Val _ => let '(r, s) := decodeBody (ft d1) m e (ds d1) in (r, {| ds := s; seenHdr := true; ft := ft d1 |})
  | Eof => (Eof, d1) | Err => (Err, d1) | Crash => (Crash, d1) | Hang => (Hang, d1)
  end.

(* hepmc/io.go:33-55 with an ASCIIReader and an ASCIIWriter (57-85): one event is used for all; number of events copied,
   whether there was an error, and what was written.  k bounds the number of events. *)
Inductive copied := Copied (n : Z) (err : bool) (text : str) | CopyCrash | CopyHang.
Fixpoint copy_loop (k : nat) (d : decoder) (m : mem) (e : nat) (n : Z) (text : str) : copied :=
  match k with
  | O => CopyHang
  | S k' =>
    let '(o, d1) := decode d m e in
    match o with
    | Val m1 => copy_loop k' d1 m1 e (n + 1) (text ++ encode (negb (n =? 0)) m1 e)
    | Eof => Copied n false text
    | Err => Copied n true text
    | Crash => CopyCrash
    | Hang => CopyHang
    end
  end.
Definition copy (text : str) (m : mem) (e : nat) : copied := copy_loop (S (length text)) (newDecoder text) m e 0 [].
End Text.
