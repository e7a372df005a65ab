(* Model of the binary form of the histograms of hbook: MarshalBinary and UnmarshalBinary of Range, Dist0D, Dist1D, Dist2D,
   Bin1D, BinP1D, Bin2D, Binning1D, binningP1D, Binning2D, Point2D, H1D, H2D, P1D and S2D (hbook/dist_brio.go,
   hbook/binning_brio.go, hbook/points_brio.go, hbook/hbook_brio.go, written by brio-gen) and RioMarshal and RioUnmarshal of H1D
   (hbook/h1d.go).
   A float64 is its 64 bits, so that the payload of a NaN is kept; an int is a 64-bit int.  A slice of bytes is its bytes up to
   its capacity and its length, because data[:n] may go beyond the length and only data[n:] may not.
   Parameters: encoding/gob, which writes and reads the annotations (hbook/ann.go:91-109 MarshalBinary, UnmarshalBinary); None
   is an error.
   Simplified: memory that is exhausted is not considered, only make with a length that Go refuses (linux/amd64, where an
   allocation is at most 2^48 bytes). *)
From Coq Require Import ZArith List Bool.
From Verif Require Import GoLib Bytes.
Import ListNotations.
Open Scope Z_scope.

(* ---- slices of bytes ---- *)
Record sl := { sb : list Z; sn : Z }.
(* a slice of bytes with no room behind it *)
Definition full (b : list Z) : sl := {| sb := b; sn := zlen b |}.
(* data[:n] *)
Definition upto (n : Z) (d : sl) : res sl := if (0 <=? n) && (n <=? zlen (sb d)) then Ok {| sb := sb d; sn := n |} else Panic.
(* data[n:] *)
Definition from (n : Z) (d : sl) : res sl :=
  if (0 <=? n) && (n <=? sn d) then Ok {| sb := skipn (Z.to_nat n) (sb d); sn := sn d - n |} else Panic.
(* the bytes of a slice *)
Definition bytes (d : sl) : list Z := firstn (Z.to_nat (sn d)) (sb d).

(* make([]T, n) for a T of size bytes *)
Definition mk (size n : Z) : res nat := if (0 <=? n) && (size * n <=? 2 ^ 48) then Ok (Z.to_nat n) else Panic.

(* binary.LittleEndian.PutUint64(buf[..8], uint64(v)); data = append(data, buf[..8]...) *)
Definition put8 (v : Z) : list Z := le 8 v.
(* x = binary.LittleEndian.Uint64(data[..8]); data = data[8:] *)
Definition get8 (d : sl) : res (Z * sl) :=
  do s <- upto 8 d; do d' <- from 8 d; Ok (unle (bytes s), d').
(* x = int64(binary.LittleEndian.Uint64(data[..8])); data = data[8:] *)
Definition get8i (d : sl) : res (Z * sl) := do p <- get8 d; Ok (wrapS 64 (fst p), snd p).
(* sub, err := o.MarshalBinary() ...; data = append(data, sub...) *)
Definition frame (sub : list Z) : list Z := put8 (zlen sub) ++ sub.
(* n := int(binary.LittleEndian.Uint64(data[..8])); data = data[8:]; err = o.UnmarshalBinary(data[:n]) ...; data = data[n:];
   the error of all types but Annotation is nil *)
Definition unframe {A} (f : sl -> res A) (d : sl) : res (A * sl) :=
  do p <- get8i d; do s <- upto (fst p) (snd p); do a <- f s; do d' <- from (fst p) (snd p); Ok (a, d').
(* for i := range x { oi := &x[i]; ... } *)
Fixpoint loop {A} (f : A -> sl -> res A) (os : list A) (d : sl) : res (list A * sl) :=
  match os with [] => Ok ([], d) | o :: tl => do p <- unframe (f o) d; do q <- loop f tl (snd p); Ok (fst p :: fst q, snd q) end.
(* n := int(binary.LittleEndian.Uint64(data[..8])); x = make([]T, n); data = data[8:]; for i := range x ... *)
Definition slice {A} (size : Z) (zero : A) (f : A -> sl -> res A) (d : sl) : res (list A * sl) :=
  do p <- get8i d; do k <- mk size (fst p); loop f (repeat zero k) (snd p).

(* ---- the types; the fields are written in this order ---- *)
(* hbook/hbook.go:28-31 *)
Record Range := { Min : Z; Max : Z }.
(* hbook/dist.go:10-14, 69-75, 189-195 *)
Record Dist0D := { N : Z; SumW : Z; SumW2 : Z }.
Record Dist1D := { Dist : Dist0D; SumWX : Z; SumWX2 : Z }.
Record Dist2D := { DX : Dist1D; DY : Dist1D; SumWXY : Z }.
(* hbook/bin1d.go:10-13 *)
Record Bin1D := { b1range : Range; b1dist : Dist1D }.
(* hbook/p1d.go:648-651 *)
Record BinP1D := { bpxrange : Range; bpdist : Dist2D }.
(* hbook/bin2d.go:8-12 *)
Record Bin2D := { b2xrange : Range; b2yrange : Range; b2dist : Dist2D }.
(* hbook/binning1d.go:34-39; Outflows is an array of 2 *)
Record Binning1D := { n1bins : list Bin1D; n1dist : Dist1D; n1out : list Dist1D; n1xrange : Range }.
(* hbook/p1d.go:561-567; outflows is an array of 2 *)
Record BinningP1D := { npbins : list BinP1D; npdist : Dist2D; npout : list Dist2D; npxrange : Range; npxstep : Z }.
(* hbook/binning2d.go:21-31; Outflows is an array of 8 *)
Record Binning2D := { n2bins : list Bin2D; n2dist : Dist2D; n2out : list Dist2D; n2xrange : Range; n2yrange : Range;
                      Nx : Z; Ny : Z; XEdges : list Bin1D; YEdges : list Bin1D }.
(* hbook/points.go:8-13 *)
Record Point2D := { PX : Z; PY : Z; ErrX : Range; ErrY : Range }.

(* the zero values, of which make fills a slice *)
Definition Range0 : Range := {| Min := 0; Max := 0 |}.
Definition Dist0 : Dist0D := {| N := 0; SumW := 0; SumW2 := 0 |}.
Definition Dist1 : Dist1D := {| Dist := Dist0; SumWX := 0; SumWX2 := 0 |}.
Definition Dist2 : Dist2D := {| DX := Dist1; DY := Dist1; SumWXY := 0 |}.
Definition Bin1D0 : Bin1D := {| b1range := Range0; b1dist := Dist1 |}.
Definition BinP1D0 : BinP1D := {| bpxrange := Range0; bpdist := Dist2 |}.
Definition Bin2D0 : Bin2D := {| b2xrange := Range0; b2yrange := Range0; b2dist := Dist2 |}.
Definition Point2D0 : Point2D := {| PX := 0; PY := 0; ErrX := Range0; ErrY := Range0 |}.

(* ---- MarshalBinary ---- *)
(* hbook/binning_brio.go:11-18 *)
Definition mRange (o : Range) : list Z := put8 (Min o) ++ put8 (Max o).
(* hbook/dist_brio.go:11-20 *)
Definition mDist0D (o : Dist0D) : list Z := put8 (N o) ++ put8 (SumW o) ++ put8 (SumW2 o).
(* hbook/dist_brio.go:35-51 *)
Definition mDist1D (o : Dist1D) : list Z := frame (mDist0D (Dist o)) ++ put8 (SumWX o) ++ put8 (SumWX2 o).
(* hbook/dist_brio.go:73-96 *)
Definition mDist2D (o : Dist2D) : list Z := frame (mDist1D (DX o)) ++ frame (mDist1D (DY o)) ++ put8 (SumWXY o).
(* hbook/binning_brio.go:241-262 *)
Definition mBin1D (o : Bin1D) : list Z := frame (mRange (b1range o)) ++ frame (mDist1D (b1dist o)).
(* hbook/binning_brio.go:289-310 *)
Definition mBinP1D (o : BinP1D) : list Z := frame (mRange (bpxrange o)) ++ frame (mDist2D (bpdist o)).
(* hbook/binning_brio.go:528-558 *)
Definition mBin2D (o : Bin2D) : list Z := frame (mRange (b2xrange o)) ++ frame (mRange (b2yrange o)) ++ frame (mDist2D (b2dist o)).
(* for i := range x { o := &x[i]; ... } *)
Definition mlist {A} (f : A -> list Z) (os : list A) : list Z := flat_map (fun o => frame (f o)) os.
Definition mslice {A} (f : A -> list Z) (os : list A) : list Z := put8 (zlen os) ++ mlist f os.
(* hbook/binning_brio.go:31-78 *)
Definition mBinning1D (o : Binning1D) : list Z :=
  mslice mBin1D (n1bins o) ++ frame (mDist1D (n1dist o)) ++ mlist mDist1D (n1out o) ++ frame (mRange (n1xrange o)).
(* hbook/binning_brio.go:134-183 *)
Definition mBinningP1D (o : BinningP1D) : list Z :=
  mslice mBinP1D (npbins o) ++ frame (mDist2D (npdist o)) ++ mlist mDist2D (npout o) ++ frame (mRange (npxrange o)) ++ put8 (npxstep o).
(* hbook/binning_brio.go:337-425 *)
Definition mBinning2D (o : Binning2D) : list Z :=
  mslice mBin2D (n2bins o) ++ frame (mDist2D (n2dist o)) ++ mlist mDist2D (n2out o) ++ frame (mRange (n2xrange o)) ++
  frame (mRange (n2yrange o)) ++ put8 (Nx o) ++ put8 (Ny o) ++ mslice mBin1D (XEdges o) ++ mslice mBin1D (YEdges o).
(* hbook/points_brio.go:11-36 *)
Definition mPoint2D (o : Point2D) : list Z := put8 (PX o) ++ put8 (PY o) ++ frame (mRange (ErrX o)) ++ frame (mRange (ErrY o)).

(* ---- UnmarshalBinary into the receiver o: what is left of data is dropped at the end of each ---- *)
(* hbook/binning_brio.go:21-28 *)
Definition rRange (o : Range) (d : sl) : res (Range * sl) :=
  do a <- get8 d; do b <- get8 (snd a); Ok ({| Min := fst a; Max := fst b |}, snd b).
(* hbook/dist_brio.go:23-32 *)
Definition rDist0D (o : Dist0D) (d : sl) : res (Dist0D * sl) :=
  do a <- get8i d; do b <- get8 (snd a); do c <- get8 (snd b); Ok ({| N := fst a; SumW := fst b; SumW2 := fst c |}, snd c).
(* _ = data *)
Definition drop {A} (f : A -> sl -> res (A * sl)) (o : A) (d : sl) : res A := do p <- f o d; Ok (fst p).
(* hbook/dist_brio.go:54-70 *)
Definition rDist1D (o : Dist1D) (d : sl) : res (Dist1D * sl) :=
  do a <- unframe (drop rDist0D (Dist o)) d; do b <- get8 (snd a); do c <- get8 (snd b);
  Ok ({| Dist := fst a; SumWX := fst b; SumWX2 := fst c |}, snd c).
(* hbook/dist_brio.go:99-122 *)
Definition rDist2D (o : Dist2D) (d : sl) : res (Dist2D * sl) :=
  do a <- unframe (drop rDist1D (DX o)) d; do b <- unframe (drop rDist1D (DY o)) (snd a); do c <- get8 (snd b);
  Ok ({| DX := fst a; DY := fst b; SumWXY := fst c |}, snd c).
(* hbook/binning_brio.go:265-286 *)
Definition rBin1D (o : Bin1D) (d : sl) : res (Bin1D * sl) :=
  do a <- unframe (drop rRange (b1range o)) d; do b <- unframe (drop rDist1D (b1dist o)) (snd a);
  Ok ({| b1range := fst a; b1dist := fst b |}, snd b).
(* hbook/binning_brio.go:313-334 *)
Definition rBinP1D (o : BinP1D) (d : sl) : res (BinP1D * sl) :=
  do a <- unframe (drop rRange (bpxrange o)) d; do b <- unframe (drop rDist2D (bpdist o)) (snd a);
  Ok ({| bpxrange := fst a; bpdist := fst b |}, snd b).
(* hbook/binning_brio.go:561-591 *)
Definition rBin2D (o : Bin2D) (d : sl) : res (Bin2D * sl) :=
  do a <- unframe (drop rRange (b2xrange o)) d; do b <- unframe (drop rRange (b2yrange o)) (snd a);
  do c <- unframe (drop rDist2D (b2dist o)) (snd b); Ok ({| b2xrange := fst a; b2yrange := fst b; b2dist := fst c |}, snd c).
(* hbook/binning_brio.go:81-131; the sizes of a Bin1D, BinP1D, Bin2D and Point2D are 56, 104, 120 and 48 bytes *)
Definition rBinning1D (o : Binning1D) (d : sl) : res (Binning1D * sl) :=
  do a <- slice 56 Bin1D0 (drop rBin1D) d; do b <- unframe (drop rDist1D (n1dist o)) (snd a);
  do c <- loop (drop rDist1D) (n1out o) (snd b); do e <- unframe (drop rRange (n1xrange o)) (snd c);
  Ok ({| n1bins := fst a; n1dist := fst b; n1out := fst c; n1xrange := fst e |}, snd e).
(* hbook/binning_brio.go:186-238 *)
Definition rBinningP1D (o : BinningP1D) (d : sl) : res (BinningP1D * sl) :=
  do a <- slice 104 BinP1D0 (drop rBinP1D) d; do b <- unframe (drop rDist2D (npdist o)) (snd a);
  do c <- loop (drop rDist2D) (npout o) (snd b); do e <- unframe (drop rRange (npxrange o)) (snd c); do f <- get8 (snd e);
  Ok ({| npbins := fst a; npdist := fst b; npout := fst c; npxrange := fst e; npxstep := fst f |}, snd f).
(* hbook/binning_brio.go:428-525 *)
Definition rBinning2D (o : Binning2D) (d : sl) : res (Binning2D * sl) :=
  do a <- slice 120 Bin2D0 (drop rBin2D) d; do b <- unframe (drop rDist2D (n2dist o)) (snd a);
  do c <- loop (drop rDist2D) (n2out o) (snd b); do e <- unframe (drop rRange (n2xrange o)) (snd c);
  do f <- unframe (drop rRange (n2yrange o)) (snd e); do g <- get8i (snd f); do h <- get8i (snd g);
  do i <- slice 56 Bin1D0 (drop rBin1D) (snd h); do j <- slice 56 Bin1D0 (drop rBin1D) (snd i);
  Ok ({| n2bins := fst a; n2dist := fst b; n2out := fst c; n2xrange := fst e; n2yrange := fst f; Nx := fst g; Ny := fst h;
         XEdges := fst i; YEdges := fst j |}, snd j).
(* hbook/points_brio.go:39-64 *)
Definition rPoint2D (o : Point2D) (d : sl) : res (Point2D * sl) :=
  do a <- get8 d; do b <- get8 (snd a); do c <- unframe (drop rRange (ErrX o)) (snd b); do e <- unframe (drop rRange (ErrY o)) (snd c);
  Ok ({| PX := fst a; PY := fst b; ErrX := fst c; ErrY := fst e |}, snd e).

(* ---- histograms, with their annotations ---- *)
Section Ann.
Context {Ann : Type}.
Variable gobenc : Ann -> option (list Z).
Variable gobdec : list Z -> option Ann.

(* hbook/h1d.go:21-24, hbook/h2d.go:16-19, hbook/p1d.go:16-19 and hbook/s2d.go:19-22: B is Binning1D, Binning2D, binningP1D, or
   a slice of points *)
Record obj (B : Type) := { bng : B; ann : Ann }.
Arguments bng {B}. Arguments ann {B}.
(* what UnmarshalBinary leaves in the receiver, and whether it returns an error *)
Definition out (B : Type) : Type := obj B * bool.

(* the second half of hbook/hbook_brio.go:10-31, 58-79, 106-127, 154-180; None: the error of the annotations *)
Definition mAnn {B} (o : obj B) (b : list Z) : option (list Z) :=
  match gobenc (ann o) with None => None | Some s => Some (b ++ frame s) end.
(* hbook/hbook_brio.go:10-31 *)
Definition mH1D (o : obj Binning1D) : option (list Z) := mAnn o (frame (mBinning1D (bng o))).
(* hbook/hbook_brio.go:58-79 *)
Definition mH2D (o : obj Binning2D) : option (list Z) := mAnn o (frame (mBinning2D (bng o))).
(* hbook/hbook_brio.go:106-127 *)
Definition mP1D (o : obj BinningP1D) : option (list Z) := mAnn o (frame (mBinningP1D (bng o))).
(* hbook/hbook_brio.go:154-180 *)
Definition mS2D (o : obj (list Point2D)) : option (list Z) := mAnn o (mslice mPoint2D (bng o)).

(* the second half of hbook/hbook_brio.go:34-55, 82-103, 130-151, 183-212; with an error the annotations stay as they were *)
Definition rAnn {B} (o : obj B) (b : B) (d : sl) : res (out B * sl) :=
  do p <- get8i d; do s <- upto (fst p) (snd p);
  match gobdec (bytes s) with
  | None => Ok ({| bng := b; ann := ann o |}, true, snd p)
  | Some a => do d' <- from (fst p) (snd p); Ok ({| bng := b; ann := a |}, false, d')
  end.
Definition uAnn {B} (r : res (out B * sl)) : res (out B) := do p <- r; Ok (fst p).
(* hbook/hbook_brio.go:34-55 *)
Definition rH1D (o : obj Binning1D) (d : sl) := do p <- unframe (drop rBinning1D (bng o)) d; rAnn o (fst p) (snd p).
Definition uH1D (o : obj Binning1D) (d : list Z) : res (out Binning1D) := uAnn (rH1D o (full d)).
(* hbook/hbook_brio.go:82-103 *)
Definition rH2D (o : obj Binning2D) (d : sl) := do p <- unframe (drop rBinning2D (bng o)) d; rAnn o (fst p) (snd p).
Definition uH2D (o : obj Binning2D) (d : list Z) : res (out Binning2D) := uAnn (rH2D o (full d)).
(* hbook/hbook_brio.go:130-151 *)
Definition rP1D (o : obj BinningP1D) (d : sl) := do p <- unframe (drop rBinningP1D (bng o)) d; rAnn o (fst p) (snd p).
Definition uP1D (o : obj BinningP1D) (d : list Z) : res (out BinningP1D) := uAnn (rP1D o (full d)).
(* hbook/hbook_brio.go:183-212 *)
Definition rS2D (o : obj (list Point2D)) (d : sl) := do p <- slice 48 Point2D0 (drop rPoint2D) d; rAnn o (fst p) (snd p).
Definition uS2D (o : obj (list Point2D)) (d : list Z) : res (out (list Point2D)) := uAnn (rS2D o (full d)).

(* ---- hbook/h1d.go:295-325: a stream of bytes ---- *)
Inductive rerr := EOF | UnexpectedEOF | BadData.
(* io.ReadFull: what was asked for or an error, and what is left of the stream *)
Definition readFull (n : Z) (s : list Z) : (list Z + rerr) * list Z :=
  if n =? 0 then (inl [], s)
  else if n <=? zlen s then (inl (firstn (Z.to_nat n) s), skipn (Z.to_nat n) s)
  else (inr (match s with [] => EOF | _ => UnexpectedEOF end), []).
(* hbook/h1d.go:296-309 RioMarshal, to a stream that takes everything *)
Definition rioMarshal (o : obj Binning1D) : option (list Z) :=
  match mH1D o with None => None | Some d => Some (put8 (zlen d) ++ d) end.
(* hbook/h1d.go:312-325 RioUnmarshal: the histogram, the error if any, and what is left of the stream *)
Definition rioUnmarshal (o : obj Binning1D) (s : list Z) : res (obj Binning1D * option rerr * list Z) :=
  match readFull 8 s with
  | (inr e, t) => Ok (o, Some e, t)
  | (inl b, t) =>
    do n <- mk 1 (wrapS 64 (unle b));
    match readFull (Z.of_nat n) t with
    | (inr e, t') => Ok (o, Some e, t')
    | (inl b, t') => do p <- uH1D o b; Ok (fst p, if snd p then Some BadData else None, t')
    end
  end.
End Ann.
Arguments bng {Ann B}. Arguments ann {Ann B}.
