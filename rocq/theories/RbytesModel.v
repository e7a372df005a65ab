(* Model of groot/rbytes: write and read buffers.
   Bytes are Z in [0,256).  Strings are byte lists.  Floats are their IEEE bit patterns
   (math.Float32bits etc. are bijections on the modelled values). *)
From Coq Require Import ZArith List Bool Arith.
From Verif Require Import GoLib Bytes.
Import ListNotations.
Local Open Scope Z_scope.

(* groot/rbytes/consts.go:8-15 *)
Definition kByteCountMask : Z := 2 ^ 30.       (* 0x40000000 *)
Definition kClassMask : Z := 2 ^ 31.           (* 0x80000000 *)
Definition kNewClassTag : Z := 2 ^ 32 - 1.     (* 0xFFFFFFFF *)
Definition kMapOffset : Z := 2.
Definition StreamedMemberWise : Z := 2 ^ 14.   (* 0x4000 *)
(* groot/rvers/doc.go:16 StreamerBaseSTL = StreamerInfo = 10 (versions_gen.go:50) *)
Definition StreamerBaseSTL : Z := 10.

(* groot/rbytes/wbuffer.go:20-23,63-69: wp is w.w.p (all of its length), wc is w.w.c;
   werr is whether w.err is non-nil; refs and the streamer context are not modelled here *)
Record wbuf := { wp : list Z; wc : nat; werr : bool; woff : Z }.
Definition w_set_p w p := {| wp := p; wc := wc w; werr := werr w; woff := woff w |}.
Definition w_set_c w c := {| wp := wp w; wc := c; werr := werr w; woff := woff w |}.
Definition w_set_err w e := {| wp := wp w; wc := wc w; werr := e; woff := woff w |}.

Section Writer.
(* what the fresh part of a grown buffer contains (memory left over from earlier use, or
   zeroes): any function of the index *)
Variable junk : nat -> Z.

(* wbuffer.go:38-60 grow, n >= 0: the length always grows by n; capacity is not modelled *)
Definition grow (n : nat) (w : wbuf) : wbuf :=
  w_set_p w (wp w ++ map junk (seq (length (wp w)) n)).

(* p[c:c+len(bs)] = bs, panics when out of bounds *)
Definition poke (p : list Z) (c : nat) (bs : list Z) : res (list Z) :=
  if (c + length bs <=? length p)%nat
  then Ok (firstn c p ++ bs ++ skipn (c + length bs) p) else Panic.

(* wbuffer.go:259-307 writeI8, writeU8, writeU16, writeU32, writeI32, writeF32 and the bodies
   of wbuffer_gen.go: put the bytes and advance *)
Definition put_bytes (bs : list Z) (w : wbuf) : res wbuf :=
  do p <- poke (wp w) (wc w) bs; Ok (w_set_c (w_set_p w p) (wc w + length bs)%nat).

(* wbuffer.go:25-32 (wbuff).Write, wbuffer.go:243-249 write (w.err becomes the error returned) *)
Definition write (v : list Z) (w : wbuf) : res wbuf :=
  if werr w then Ok w
  else
    let w := grow (length v) w in
    if (length (wp w) <=? wc w)%nat then Ok (w_set_err w true)
    else
      let n := Nat.min (length v) (length (wp w) - wc w) in
      put_bytes (firstn n v) w.

(* wbuffer.go:251-257 WriteI8, 272-278 WriteU8 ([width] 1); wbuffer_gen.go:33-43 WriteU16,
   87-97 WriteU32, 141-151 WriteU64, 194-203 WriteI16, 245-254 WriteI32, 296-305 WriteI64,
   347-356 WriteF32, 398-407 WriteF64 (widths 2, 4, 8): grow, then big-endian bytes of the
   two's complement / IEEE bit pattern *)
Definition WriteInt (width : nat) (v : Z) (w : wbuf) : res wbuf :=
  if werr w then Ok w else put_bytes (be width v) (grow width w).

(* wbuffer.go:412-419 WriteBool (does not look at w.err) *)
Definition WriteBool (v : bool) (w : wbuf) : res wbuf :=
  put_bytes [if v then 1 else 0] (grow 1 w).

(* wbuffer.go:434-451 WriteString *)
Definition WriteString (v : list Z) (w : wbuf) : res wbuf :=
  if werr w then Ok w
  else
    let l := length v in
    if (l <? 255)%nat then
      do w1 <- put_bytes (be 1 (Z.of_nat l)) (grow (1 + l) w);
      if (0 <? l)%nat then write v w1 else Ok w1
    else
      do w1 <- put_bytes (be 1 255) (grow (1 + 4 + l) w);
      do w2 <- put_bytes (be 4 (Z.of_nat l)) w1;
      write v w2.

(* wbuffer.go:453-466 writeString *)
Definition writeString (v : list Z) (w : wbuf) : res wbuf :=
  if werr w then Ok w
  else
    let l := length v in
    if (l <? 255)%nat then
      do w1 <- put_bytes (be 1 (Z.of_nat l)) w; write v w1
    else
      do w1 <- put_bytes (be 1 255) w;
      do w2 <- put_bytes (be 4 (Z.of_nat l)) w1;
      write v w2.

(* the bytes before the first NUL *)
Fixpoint until_nul (v : list Z) : list Z :=
  match v with [] => [] | b :: t => if b =? 0 then [] else b :: until_nul t end.
(* wbuffer.go:468-482 WriteCString: up to and including the first NUL, adding one if absent *)
Definition WriteCString (v : list Z) (w : wbuf) : res wbuf :=
  if werr w then Ok w else write (until_nul v ++ [0]) w.

Fixpoint put_all (bss : list (list Z)) (w : wbuf) : res wbuf :=
  match bss with [] => Ok w | b :: t => do w' <- put_bytes b w; put_all t w' end.

(* wbuffer_gen.go:16-31 WriteArrayU16 and its siblings (U32 70, U64 124, I16 178, I32 229,
   I64 280, F32 331, F64 382); wbuffer.go:509-527 WriteArrayI8/U8 (width 1) *)
Definition WriteArrayInt (width : nat) (vs : list Z) (w : wbuf) : res wbuf :=
  if werr w then Ok w else put_all (map (be width) vs) (grow (length vs * width) w).
(* wbuffer.go:495-507 WriteArrayBool *)
Definition WriteArrayBool (vs : list bool) (w : wbuf) : res wbuf :=
  if werr w then Ok w
  else put_all (map (fun b : bool => [if b then 1 else 0]) vs) (grow (length vs) w).
(* wbuffer.go:484-493 WriteStaticArrayI32 *)
Definition WriteStaticArrayI32 (vs : list Z) (w : wbuf) : res wbuf :=
  if werr w then Ok w
  else put_all (be 4 (Z.of_nat (length vs)) :: map (be 4) vs) (grow (4 + 4 * length vs) w).
(* wbuffer.go:584-590 WriteStdBitset (ignores w.err): last byte first *)
Definition WriteStdBitset (vs : list Z) (w : wbuf) : res wbuf :=
  put_all (map (fun b => [b]) (rev vs)) (grow (length vs) w).

(* wbuffer.go:541-547 strlen *)
Definition strlen (v : list Z) : nat := if (length v <? 255)%nat then 1 + length v else 1 + 4 + length v.
Fixpoint writeStrings (vs : list (list Z)) (w : wbuf) : res wbuf :=
  match vs with [] => Ok w | v :: t => do w' <- writeString v w; writeStrings t w' end.
(* wbuffer.go:549-562 WriteArrayString *)
Definition WriteArrayString (vs : list (list Z)) (w : wbuf) : res wbuf :=
  if werr w then Ok w
  else writeStrings vs (grow (list_sum (map strlen vs)) w).

(* wbuffer.go:100-102 Pos; 108-112 setPos (a negative position is not modelled: it would
   panic at the next access) *)
Definition wPos (w : wbuf) : Z := Z.of_nat (wc w) + woff w.
Definition wsetPos (pos : Z) (w : wbuf) : wbuf := w_set_c w (Z.to_nat (pos - woff w)).
(* wbuffer.go:95 Bytes *)
Definition wBytes (w : wbuf) : list Z := firstn (wc w) (wp w).

(* groot/rbytes/rbytes.go:20-27 Header *)
Record Header := { hName : list Z; hVers : Z; hPos : Z; hLen : Z; hMW : bool }.

(* wbuffer.go:132-147 WriteHeader *)
Definition WriteHeader (name : list Z) (vers : Z) (w : wbuf) : res (Header * wbuf) :=
  let hdr := {| hName := name; hVers := vers; hPos := wPos w; hLen := 0; hMW := false |} in
  if werr w then Ok (hdr, w)
  else
    do w1 <- put_bytes (be 4 0) (grow 6 w);
    do w2 <- put_bytes (be 2 vers) w1;
    Ok (hdr, w2).
(* wbuffer.go:149-161 SetHeader: returns the number of bytes *)
Definition SetHeader (hdr : Header) (w : wbuf) : res (Z * wbuf) :=
  if werr w then Ok (0, w)
  else
    let cur := wPos w in
    let cnt := cur - hPos hdr - 4 in
    do w1 <- WriteInt 4 (wrapU 32 (Z.lor cnt kByteCountMask)) (wsetPos (hPos hdr) w);
    Ok (cnt + 4, wsetPos cur w1).

(* wbuffer.go:421-432 WriteStdString *)
Definition WriteStdString (v : list Z) (w : wbuf) : res wbuf :=
  if werr w then Ok w
  else
    do hw <- WriteHeader [115;116;114;105;110;103] StreamerBaseSTL w;
    do w1 <- WriteString v (snd hw);
    do nw <- SetHeader (fst hw) w1;
    Ok (snd nw).
(* wbuffer_gen.go:45-68 WriteStdVectorU16 and its siblings *)
Definition WriteStdVectorInt (name : list Z) (width : nat) (vs : list Z) (w : wbuf) : res wbuf :=
  if werr w then Ok w
  else
    do hw <- WriteHeader name StreamerBaseSTL w;
    do w1 <- WriteInt 4 (Z.of_nat (length vs)) (snd hw);
    do w2 <- put_all (map (be width) vs) (grow (length vs * width) w1);
    if werr w2 then Ok w2
    else do nw <- SetHeader (fst hw) w2; Ok (snd nw).
(* wbuffer.go:564-582 WriteStdVectorStrs *)
Definition WriteStdVectorStrs (name : list Z) (vs : list (list Z)) (w : wbuf) : res wbuf :=
  if werr w then Ok w
  else
    do hw <- WriteHeader name StreamerBaseSTL w;
    do w1 <- WriteInt 4 (Z.of_nat (length vs)) (snd hw);
    do w2 <- writeStrings vs (grow (list_sum (map strlen vs)) w1);
    do nw <- SetHeader (fst hw) w2; Ok (snd nw).
End Writer.

(* ------------------------------------------------------------------ reading *)
(* groot/rbytes/rbuffer.go:18-21,59-65 *)
Record rbuf := { rp : list Z; rc : nat; rerr : bool; roff : Z }.
Definition r_set_c r c := {| rp := rp r; rc := c; rerr := rerr r; roff := roff r |}.
Definition r_set_err r e := {| rp := rp r; rc := rc r; rerr := e; roff := roff r |}.
Definition rd (A : Type) : Type := rbuf -> res (A * rbuf).

(* p[beg:beg+n]; the model panics as soon as the bytes are not all within len(p) (Go would
   accept slicing into spare capacity) *)
Definition take (n : nat) : rd (list Z) := fun r =>
  if (rc r + n <=? length (rp r))%nat
  then Ok (firstn n (skipn (rc r) (rp r)), r_set_c r (rc r + n)%nat) else Panic.

(* rbuffer.go:291-303 ReadU8, rbuffer_gen.go:41-50 ReadU16, 98 ReadU32, 155 ReadU64; F32 376,
   F64 431 as bit patterns *)
Definition ReadUint (width : nat) : rd Z := fun r =>
  if rerr r then Ok (0, r) else do br <- take width r; Ok (unbe (fst br), snd br).
(* rbuffer.go:305-317 ReadI8, rbuffer_gen.go:211 ReadI16, 266 ReadI32, 321 ReadI64 *)
Definition ReadSint (width : nat) : rd Z := fun r =>
  if rerr r then Ok (0, r)
  else do br <- take width r; Ok (wrapS (8 * Z.of_nat width) (unbe (fst br)), snd br).
(* rbuffer.go:279-289 ReadBool *)
Definition ReadBool : rd bool := fun r =>
  if rerr r then Ok (false, r)
  else do br <- take 1 r; Ok (negb (wrapS 8 (unbe (fst br)) =? 0), snd br).

(* rbuffer.go:169-175 read(data): n = copy(data, p[c:]); [data0] is the previous contents *)
Definition read_into (data0 : list Z) : rd (list Z) := fun r =>
  if rerr r then Ok (data0, r)
  else if (length (rp r) <? rc r)%nat then Panic
  else
    let n := Nat.min (length data0) (length (rp r) - rc r) in
    Ok (firstn n (skipn (rc r) (rp r)) ++ skipn n data0, r_set_c r (rc r + n)%nat).

(* rbuffer.go:233-261 ReadString *)
Definition ReadString : rd (list Z) := fun r =>
  if rerr r then Ok ([], r)
  else
    do ur <- ReadUint 1 r;
    do nr <- (if fst ur =? 255 then ReadUint 4 (snd ur) else Ok ur);
    if fst nr =? 0 then Ok ([], snd nr)
    else
      do vr <- ReadUint 1 (snd nr);
      if fst vr =? 0 then Ok ([], snd vr)
      else
        do br <- read_into (repeat 0 (Z.to_nat (fst nr - 1))) (snd vr);
        Ok (fst vr :: fst br, snd br).

(* rbuffer.go:263-277 ReadCString(n): byte by byte until a NUL or n bytes; past the end
   read() copies nothing and the byte stays 0 *)
Fixpoint ReadCString_loop (n : nat) (r : rbuf) : res (list Z * rbuf) :=
  match n with
  | O => Ok ([], r)
  | S n' =>
      do br <- read_into [0] r;
      match fst br with
      | b :: _ => if b =? 0 then Ok ([], snd br)
                  else do tr <- ReadCString_loop n' (snd br); Ok (b :: fst tr, snd tr)
      | [] => Panic
      end
  end.
Definition ReadCString (n : nat) : rd (list Z) := fun r =>
  if rerr r then Ok ([], r) else ReadCString_loop n r.

Fixpoint read_n {A} (f : rd A) (n : nat) (r : rbuf) : res (list A * rbuf) :=
  match n with
  | O => Ok ([], r)
  | S n' => do ar <- f r; do lr <- read_n f n' (snd ar); Ok (fst ar :: fst lr, snd lr)
  end.

(* rbuffer.go:162-164 Len *)
Definition rLen (r : rbuf) : Z := Z.of_nat (length (rp r)) - Z.of_nat (rc r).
(* rbuffer_gen.go:17-39 ReadArrayU16 ..., rbuffer.go:418-458 ReadArrayBool/I8/U8, 489-501
   ReadArrayString: nothing is done when the array is empty or longer than the bytes left;
   [f] reads one element; old0 is the array passed in *)
Definition ReadArray {A} (f : rd A) (old : list A) : rd (list A) := fun r =>
  if rerr r then Ok (old, r)
  else if (length old =? 0)%nat || (rLen r <? Z.of_nat (length old)) then Ok (old, r)
  else read_n f (length old) r.
(* rbuffer.go:396-416 ReadStaticArrayI32; nil is the empty list *)
Definition ReadStaticArrayI32 : rd (list Z) := fun r =>
  if rerr r then Ok ([], r)
  else
    do nr <- ReadSint 4 r;
    if (fst nr <=? 0) || (rLen (snd nr) <? fst nr) then Ok ([], snd nr)
    else read_n (ReadSint 4) (Z.to_nat (fst nr)) (snd nr).
(* rbuffer.go:717-722 ReadStdBitset: fills from the last element *)
Definition ReadStdBitset (n : nat) : rd (list Z) := fun r =>
  do lr <- read_n (fun r => do br <- take 1 r; Ok (unbe (fst br), snd br)) n r;
  Ok (rev (fst lr), snd lr).

(* rbuffer.go:152-160 Pos, setPos *)
Definition rPos (r : rbuf) : Z := Z.of_nat (rc r) + roff r.
Definition rsetPos (pos : Z) (r : rbuf) : rbuf := r_set_c r (Z.to_nat (pos - roff r)).

Section Headers.
(* the streamer-info context: None when nil, else name -> (class version, checksum) *)
Variable sictx : option (list Z -> option (Z * Z)).

(* rbuffer.go:99-141 ReadHeader *)
Definition ReadHeader (name : list Z) (vmax : Z) : rd Header := fun r =>
  let pos := rPos r in
  if rerr r then Ok ({| hName := name; hVers := 0; hPos := pos; hLen := 0; hMW := false |}, r)
  else
    do br <- ReadUint 4 r;
    let bcnt := fst br in
    do lvr <- (if negb (Z.land bcnt kByteCountMask =? 0)
               then do vr <- ReadUint 2 (snd br);
                    Ok (wrapS 32 (Z.ldiff bcnt kByteCountMask), wrapS 16 (fst vr), snd vr)
               else do vr <- ReadUint 2 (rsetPos pos (snd br));
                    Ok (0, wrapS 16 (fst vr), snd vr));
    let '(ln, vers, r2) := lvr in
    let mw := negb (Z.land vers StreamedMemberWise =? 0) in
    let vers := if mw then Z.ldiff vers StreamedMemberWise else vers in
    do vr <- (if vers <=? 0 then
                match name, sictx with
                | _ :: _, Some ctx =>
                    match ctx name with
                    | Some (cv, ck) =>
                        if cv =? vers then Ok (vers, r2)
                        else do kr <- ReadUint 4 r2;
                             Ok (if ck =? fst kr then wrapS 16 cv else vers, snd kr)
                    | None => Ok (vers, r2)
                    end
                | _, _ => Ok (vers, r2)
                end
              else Ok (vers, r2));
    if (0 <=? vmax) && (vmax <? fst vr) then Panic
    else Ok ({| hName := name; hVers := fst vr; hPos := pos; hLen := ln; hMW := mw |}, snd vr).

(* rbuffer.go:547-577 CheckHeader *)
Definition CheckHeader (hdr : Header) (r : rbuf) : rbuf :=
  if rerr r then r
  else if hLen hdr <=? 0 then r
  else
    let want := hPos hdr + hLen hdr + 4 in
    if rPos r =? want then r else r_set_err r true.

(* rbuffer.go:216-231 ReadStdString *)
Definition ReadStdString : rd (list Z) := fun r =>
  if rerr r then Ok ([], r)
  else
    do hr <- ReadHeader [115;116;114;105;110;103] StreamerBaseSTL r;
    if StreamerBaseSTL <? hVers (fst hr) then Ok ([], r_set_err (snd hr) true)
    else
      do sr <- ReadString (snd hr);
      Ok (fst sr, CheckHeader (fst hr) (snd sr)).

(* rbuffer_gen.go:52-72 ReadStdVectorU16 and its siblings; rbuffer.go:503-515
   ReadStdVectorStrs (which has no version test; ReadHeader panics first anyway).
   Resizing to a negative length panics. *)
Definition ReadStdVector {A} (name : list Z) (f : rd A) : rd (list A) := fun r =>
  if rerr r then Ok ([], r)
  else
    do hr <- ReadHeader name StreamerBaseSTL r;
    if StreamerBaseSTL <? hVers (fst hr) then Ok ([], r_set_err (snd hr) true)
    else
      do nr <- ReadSint 4 (snd hr);
      if fst nr <? 0 then Panic
      else
        do lr <- read_n f (Z.to_nat (fst nr)) (snd nr);
        Ok (fst lr, CheckHeader (fst hr) (snd lr)).
End Headers.
