(* Model of the compressed payload framing, groot/internal/rcompress/rcompress.go, and of how the payload of
   a key is loaded, groot/riofs/key.go.  The compression libraries are functions of a [codec] record. *)
From Coq Require Import ZArith List Lia Bool.
From Verif Require Import Bytes GoLib.
Import ListNotations.
Local Open Scope Z_scope.

(* rcompress.go:30-39 *)
Definition UseGlobal := 0. Definition ZLIB := 1. Definition LZMA := 2. Definition OldCompression := 3.
Definition LZ4 := 4. Definition ZSTD := 5. Definition UndefinedCompression := 6.

(* ---- settings ---- *)
(* compress/flate: DefaultCompression = -1, BestSpeed = 1, BestCompression = 9;
   klauspost zstd: SpeedFastest = 1, SpeedBestCompression = 4 *)
(* rcompress.go:72-104 (Settings).Compression; None is the panic for an unknown algorithm *)
Definition Compression (alg lvl : Z) : res Z :=
  do lvl <-
    (if lvl =? -1 then
       if alg =? ZLIB then Ok 6 else if alg =? LZ4 then Ok 1 else if alg =? LZMA then Ok 1
       else if alg =? ZSTD then Ok 1 else Panic
     else if lvl =? 1 then Ok (if alg =? ZSTD then 1 else lvl)
     else if lvl =? 9 then Ok (if alg =? ZSTD then 4 else lvl)
     else if 99 <? lvl then Ok 99 else Ok lvl);
  Ok (wrapS 32 (wrapS 32 (alg * 100) + wrapS 32 lvl)).
(* rcompress.go:63-66 SettingsFrom, 135-142 rootCompressAlgLvl (Go division truncates towards zero) *)
Definition SettingsFrom (compr : Z) : Z * Z := (Z.quot compr 100, Z.rem compr 100).

(* ---- blocks ---- *)
Definition HeaderSize : Z := 9.
Definition kMaxCompressedBlockSize : Z := 16777215.   (* 0xffffff *)

(* The libraries.  [cWrite]/[cClose]: what the stream compressors pass to the underlying Write, in order, while
   writing the source and while closing.  [cDec k n s]: reading n bytes from the decompressor of a stream s
   (io.ReadFull), and how many bytes of s it has consumed.  LZ4 works on whole blocks; an empty result means
   "not compressible". *)
Record codec := {
  cWrite : Z -> Z -> list Z -> list (list Z);
  cClose : Z -> Z -> list Z -> list (list Z);
  cDec : Z -> nat -> list Z -> option (list Z * nat);
  lz4Enc : Z -> list Z -> list Z;
  lz4Dec : nat -> list Z -> option (list Z);
  lz4Sum : list Z -> list Z }.

(* rcompress.go:445-452 wbuff.Write into a buffer of [room] bytes; None is errNoCompression.  The count it
   returns is ignored by the compressor (as compress/flate does). *)
Definition wbuff_write (room : nat) (acc p : list Z) : option (list Z) :=
  if (room <=? length acc)%nat then None else Some (acc ++ firstn (room - length acc) p).
Fixpoint write_all (room : nat) (acc : list Z) (ps : list (list Z)) : option (list Z) :=
  match ps with
  | [] => Some acc
  | p :: ps' => match wbuff_write room acc p with None => None | Some acc' => write_all room acc' ps' end
  end.

Inductive bres := BOk (bytes : list Z) (n : Z) | BNo | BErr.   (* nil, errNoCompression, another error *)

(* rcompress.go:337-343: the header in front of a block *)
Definition blockHeader (a b c dstsz srcsz : Z) : list Z := [a; b; c] ++ le 3 dstsz ++ le 3 srcsz.
Definition finish (a b c : Z) (payload src : list Z) (dstsz : Z) : bres :=
  if kMaxCompressedBlockSize <? dstsz then BNo
  else BOk (blockHeader a b c dstsz (zlen src) ++ payload) (HeaderSize + dstsz).

(* rcompress.go:187-347 compressBlock; [room] = len(tgt) - 9 (tgt always holds a header: see comp_loop) *)
Definition compressBlock (c : codec) (alg lvl : Z) (room : nat) (src : list Z) : bres :=
  if alg =? ZLIB then
    match write_all room [] (cWrite c alg lvl src) with
    | None => BErr                                   (* the error is wrapped: 211-215 *)
    | Some acc =>
        match write_all room acc (cClose c alg lvl src) with
        | None => BNo
        | Some out => finish 90 76 8 out src (zlen out)
        end
    end
  else if alg =? LZMA then
    match write_all room [] (cWrite c alg lvl src) with
    | None => BErr
    | Some acc =>
        match write_all room acc (cClose c alg lvl src) with
        | None => BNo
        | Some out => finish 88 90 0 out src (zlen out)
        end
    end
  else if alg =? LZ4 then
    match lz4Enc c lvl src with
    | [] => BNo
    | e => let wrk := lz4Sum c e ++ e in finish 76 52 1 (firstn room wrk) src (zlen wrk)
    end
  else if alg =? ZSTD then
    match write_all room [] (cWrite c alg lvl src) with
    | None => BErr
    | Some acc =>
        match write_all room acc (cClose c alg lvl src) with
        | None => BNo
        | Some out => if zlen src <=? zlen out then BNo else finish 90 83 1 out src (zlen out)
        end
    end
  else BErr.

Inductive cres := COk (bytes : list Z) | CNo | CErr.
Section Blocks.
  Variable blksz : nat.
  (* rcompress.go:165-182: the loop over blocks; [room] is len(dst) - cur.  A block that claims more bytes than
     there are makes dst[cur:] or dst[:cur] panic (or expose spare capacity; modelled as a panic) *)
  Fixpoint comp_loop (c : codec) (fuel : nat) (alg lvl room : Z) (src : list Z) : res cres :=
    match src, fuel with
    | [], _ => Ok (COk [])
    | _, O => Ok (COk [])
    | _, S fuel' =>
        if room <? HeaderSize then Panic
        else
          match compressBlock c alg lvl (Z.to_nat (room - HeaderSize)) (firstn blksz src) with
          | BNo => Ok CNo
          | BErr => Ok CErr
          | BOk bs n =>
              if room <? n then Panic
              else
                do r <- comp_loop c fuel' alg lvl (room - n) (skipn blksz src);
                Ok (match r with COk rest => COk (bs ++ rest) | _ => r end)
          end
    end.
  (* rcompress.go:146-185 Compress with a nil dst; None is an error *)
  Definition compress_blk (c : codec) (src : list Z) (compr : Z) : res (option (list Z)) :=
    let alg := Z.quot compr 100 in
    let lvl := Z.rem compr 100 in
    if (alg =? 0) || (lvl =? 0) || (zlen src <? 512) then Ok (Some src)
    else
      let size := zlen src + (zlen src / Z.of_nat blksz + 1) * HeaderSize in
      do r <- comp_loop c (length src) alg lvl size src;
      Ok (match r with COk out => Some out | CNo => Some src | CErr => None end).
End Blocks.
Definition Compress := compress_blk (Z.to_nat kMaxCompressedBlockSize).

(* rcompress.go:117-133 kindOf *)
Definition kindOf (h : list Z) : Z :=
  match h with
  | a :: b :: _ =>
      if (a =? 90) && (b =? 76) then ZLIB
      else if (a =? 88) && (b =? 90) then LZMA
      else if (a =? 76) && (b =? 52) then LZ4
      else if (a =? 90) && (b =? 83) then ZSTD
      else if (a =? 67) && (b =? 83) then OldCompression else UndefinedCompression
  | _ => UndefinedCompression
  end.

(* rcompress.go:350-438 Decompress into a buffer of [buflen] bytes; None is an error.  A block larger than what is
   left of the buffer panics.  With LZMA, skipping the bytes left uses a single Read, taken to be complete. *)
Fixpoint decomp_loop (c : codec) (fuel : nat) (buflen : nat) (out src : list Z) : res (option (list Z)) :=
  match fuel with
  | O => Ok None
  | S fuel' =>
      if (buflen <=? length out)%nat then Ok (Some out)
      else if (length src <? 9)%nat then Ok None
      else
        let hdr := firstn 9 src in
        let rest := skipn 9 src in
        let srcsz := unle (firstn 3 (skipn 3 hdr)) in
        let tgtsz := unle (skipn 6 hdr) in
        let tgt := Z.to_nat tgtsz in
        if (buflen <? length out + tgt)%nat then Panic
        else
          let lim := firstn (Z.to_nat srcsz) rest in
          let k := kindOf hdr in
          if k =? ZLIB then
            match cDec c k tgt lim with
            | None => Ok None
            | Some (d, used) => decomp_loop c fuel' buflen (out ++ d) (skipn used rest)
            end
          else if k =? LZ4 then
            if (length rest <? Z.to_nat srcsz)%nat then Ok None
            else if srcsz <? 8 then Panic
            else
              match lz4Dec c tgt (skipn 8 lim) with
              | Some d => decomp_loop c fuel' buflen (out ++ d) (skipn (Z.to_nat srcsz) rest)
              | None =>
                  if tgtsz <? srcsz
                  then decomp_loop c fuel' buflen (out ++ firstn tgt (skipn 8 lim ++ repeat 0 tgt)) (skipn (Z.to_nat srcsz) rest)
                  else Ok None
              end
          else if k =? LZMA then
            match cDec c k tgt lim with
            | None => Ok None
            | Some (d, used) => decomp_loop c fuel' buflen (out ++ d) (skipn (Z.to_nat srcsz) rest)
            end
          else if k =? ZSTD then
            match cDec c k tgt lim with
            | None => Ok None
            | Some (d, used) =>
                if Z.of_nat used <? srcsz then Panic
                else decomp_loop c fuel' buflen (out ++ d) (skipn used rest)
            end
          else Panic
  end.
Definition Decompress (c : codec) (buflen : nat) (src : list Z) : res (option (list Z)) :=
  decomp_loop c (S (length src)) buflen [] src.

(* groot/riofs/key.go:456-478 (Key).load of a key read from file: [objlen] and [csize] = nbytes - keylen are in
   the key header, [bytes] is the file from the end of the key header on (507-509 isCompressed) *)
Definition load (c : codec) (objlen csize : Z) (bytes : list Z) : res (option (list Z)) :=
  if objlen <? 0 then Panic
  else if negb (objlen =? csize) then Decompress c (Z.to_nat objlen) (firstn (Z.to_nat csize) bytes)
  else if zlen bytes <? objlen then Ok None
  else Ok (Some (firstn (Z.to_nat objlen) bytes)).
