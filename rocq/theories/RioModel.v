(* Model of rio: rio.go (options and the binary layout of records, blocks and footers), utils.go (alignment), block.go,
   record.go (Write, readRecord, readBlocks), writer.go, file.go (Open, Get, Has) and scanner.go (Scan).
   Streams are lists of bytes.  The compression libraries and the encoding of values in a block (gonuts/binary) are parameters.
   Readers are assumed to return as many bytes as are asked for when they are there. *)
From Coq Require Import ZArith List Lia Bool.
From Verif Require Import Bytes GoLib GoStrings Parse.
Import ListNotations.
Local Open Scope Z_scope.

(* ---- options ---- *)
(* rio.go:20-22 *)
Definition maskCodec : Z := 0xfff.
Definition maskLevel : Z := 0xf000.
Definition maskCompr : Z := 0xffff0000.
(* rio.go:132-134, CompressorKind is a uint16 *)
Definition CompressorKind (o : Z) : Z := wrapU 16 (Z.shiftr (Z.land o maskCompr) 16).
(* rio.go:137-143, flate.DefaultCompression is -1 *)
Definition CompressorLevel (o : Z) : Z :=
  let lvl := Z.shiftr (Z.land o maskLevel) 12 in if lvl =? 0xf then -1 else lvl.
(* rio.go:146-148 *)
Definition CompressorCodec (o : Z) : Z := Z.land o maskCodec.
(* rio.go:152-166, compr a uint16, lvl and codec ints *)
Definition NewOptions (compr lvl codec : Z) : Z :=
  let lvl := if (lvl <=? -1) || (0xf <=? lvl) then 0xf else lvl in
  let compr := if compr =? 0 then 3 else compr in
  Z.lor (Z.lor (wrapU 32 (Z.shiftl (wrapU 32 compr) 16)) (wrapU 32 (Z.shiftl (wrapU 32 lvl) 12)))
        (Z.land (wrapU 32 codec) maskCodec).

(* ---- layout ---- *)
(* utils.go:17-19; utils.go:12-14 is the same in 32 bits *)
Definition rioAlign (sz : Z) : Z := sz + Z.land (4 - Z.land sz 3) 3.
Definition rioAlignU32 (sz : Z) : Z := wrapU 32 (sz + Z.land (4 - Z.land sz 3) 3).
Definition pad4 (bs : list Z) : list Z := bs ++ repeat 0 (Z.to_nat (rioAlign (zlen bs) - zlen bs)).
(* rio.go:35-39 *)
Definition rioMagic : list Z := [0x72; 0x69; 0x6f; 0].
Definition recFrame : list Z := [0xab; 0xad; 0xca; 0xfe].
Definition blkFrame : list Z := [0xde; 0xad; 0xbe; 0xef].
Definition ftrFrame : list Z := [0xca; 0xfe; 0xba; 0xbe].
(* ".rio.meta" *)
Definition MetaRecord : str := [46; 114; 105; 111; 46; 109; 101; 116; 97].

(* rio.go:169-191 *)
Record rrec := { rlen : Z; ropts : Z; rclen : Z; rxlen : Z; rname : str }.
(* rio.go:322-327 *)
Record rblk := { blen : Z; bver : Z; bname : str; bdata : list Z }.
(* rio.go:88-102 *)
Definition hdr_marshal (n : Z) (frame : list Z) : list Z := le 4 n ++ frame.
(* rio.go:208-251 *)
Definition rec_marshal (r : rrec) : list Z :=
  hdr_marshal (rlen r) recFrame ++ le 4 (ropts r) ++ le 4 (rclen r) ++ le 4 (rxlen r) ++ le 4 (zlen (rname r)) ++ pad4 (rname r).
(* rio.go:344-402 *)
Definition blk_marshal (b : rblk) : list Z :=
  hdr_marshal (blen b) blkFrame ++ le 4 (bver b) ++ le 4 (zlen (bname b)) ++ pad4 (bname b) ++ pad4 (bdata b).
(* rio.go:483-497 *)
Definition ftr_marshal (n meta : Z) : list Z := hdr_marshal n ftrFrame ++ le 8 meta.

(* rio.go:104-121 *)
Definition hdr_parse : parser (Z * list Z) := n <~~ ple 4 ;; f <~~ take 4 ;; pret (n, f).
(* one call of Read, which may be short: rio.go:306-307 *)
Definition read_some (n : nat) : parser (list Z) :=
  fun l => match n, l with
           | S _, [] => None
           | _, _ => Some (firstn n l ++ repeat 0 (n - length l), skipn n l)
           end.
(* rio.go:284-315 unmarshalData *)
Definition rec_data (n : Z) : parser rrec :=
  o <~~ ple 4 ;; c <~~ ple 4 ;; x <~~ ple 4 ;; k <~~ ple 4 ;;
  b <~~ read_some (Z.to_nat (rioAlign k)) ;;
  pret {| rlen := n; ropts := o; rclen := c; rxlen := x; rname := firstn (Z.to_nat k) b |}.
(* rio.go:253-282 *)
Definition rec_parse : parser rrec :=
  h <~~ hdr_parse ;; _ <~~ pguard (str_eqb (snd h) recFrame) ;; rec_data (fst h).
(* rio.go:404-452 *)
Definition blk_parse : parser rblk :=
  h <~~ hdr_parse ;; _ <~~ pguard (str_eqb (snd h) blkFrame) ;;
  v <~~ ple 4 ;; k <~~ ple 4 ;; b <~~ take (Z.to_nat (rioAlign k)) ;; d <~~ take (Z.to_nat (rioAlign (fst h))) ;;
  pret {| blen := fst h; bver := v; bname := firstn (Z.to_nat k) b; bdata := firstn (Z.to_nat (fst h)) d |}.
(* rio.go:499-538, Meta is an int64 *)
Definition ftr_parse : parser Z :=
  h <~~ hdr_parse ;; _ <~~ pguard (str_eqb (snd h) ftrFrame) ;; m <~~ ple 8 ;; pret (wrapS 64 m).

(* ---- parameters ---- *)
(* file metadata, rio.go:541-562 (type names left out) *)
Record meta := { mrecs : list (str * list str); moffs : list (str * list (Z * Z)) }.
(* compressor.go: the registered kinds; deflate; inflate of a limited source when so many bytes are wanted: the bytes
   obtained and how many were taken from the source.  The encoding of the metadata block. *)
Record codec := { known : Z -> bool; deflate : Z -> list Z -> list Z; inflate : Z -> list Z -> nat -> list Z * nat;
                  encMeta : meta -> list Z; decMeta : list Z -> option meta }.

(* ---- writing ---- *)
(* ghost: a record written at a position *)
Record entry := { epos : Z; ename : str; eopts : Z; eblks : list rblk; ebytes : list Z }.
Record wst := { wout : list Z; wopt : Z; wrecs : list (str * (Z * list rblk)); woffs : list (str * list (Z * Z)); wlog : list entry }.
(* writer.go:43-58 *)
Definition writer0 : wst := {| wout := rioMagic; wopt := NewOptions 0 (-1) 0; wrecs := []; woffs := []; wlog := [] |}.
Fixpoint lookup {A} (k : str) (m : list (str * A)) : option A :=
  match m with [] => None | (k', v) :: m' => if str_eqb k k' then Some v else lookup k m' end.
Fixpoint put {A} (k : str) (v : A) (m : list (str * A)) : list (str * A) :=
  match m with [] => [(k, v)] | (k', v') :: m' => if str_eqb k k' then (k, v) :: m' else (k', v') :: put k v m' end.
(* writer.go:73-81 Record(name): the record and the writer *)
Definition get_rec (n : str) (w : wst) : (Z * list rblk) * wst :=
  match lookup n (wrecs w) with
  | Some r => (r, w)
  | None => ((wopt w, []), {| wout := wout w; wopt := wopt w; wrecs := put n (wopt w, []) (wrecs w); woffs := woffs w; wlog := wlog w |})
  end.
Definition set_rec (n : str) (r : Z * list rblk) (w : wst) : wst :=
  {| wout := wout w; wopt := wopt w; wrecs := put n r (wrecs w); woffs := woffs w; wlog := wlog w |}.
Definition find_blk (n : str) (bs : list rblk) : option rblk := find (fun b => str_eqb n (bname b)) bs.
(* record.go:73-80 and block.go:44-57: the data of the block is replaced *)
Definition set_blk (n : str) (d : list Z) (bs : list rblk) : list rblk :=
  map (fun b => if str_eqb n (bname b) then {| blen := wrapU 32 (zlen d); bver := bver b; bname := bname b; bdata := d |} else b) bs.

Inductive op :=
| OSet (kind lvl : Z)                 (* SetCompressor *)
| OConnect (rn bn : str) (ver : Z)    (* Record(rn).Connect(bn, ptr) *)
| OBlock (rn bn : str) (d : list Z)   (* Record(rn).Block(bn).Write(v), d the encoding of v *)
| OWrite (rn : str).                  (* Record(rn).Write() *)
(* record.go:83-143 and writer.go:127-149; None is an error *)
Definition rec_write (c : codec) (n : str) (w : wst) : option wst :=
  let '((o, bs), w) := get_rec n w in
  let x := concat (map blk_marshal bs) in
  let z := if CompressorKind o =? 1 then Some x else if known c (CompressorKind o) then Some (deflate c o x) else None in
  match z with
  | None => None
  | Some z =>
      let r := {| rlen := wrapU 32 (zlen z); ropts := o; rclen := wrapU 32 (zlen z); rxlen := wrapU 32 (zlen x); rname := n |} in
      let bytes := rec_marshal r ++ z ++ repeat 0 (Z.to_nat (rioAlignU32 (rlen r) - rlen r)) in
      let beg := zlen (wout w) in
      Some {| wout := wout w ++ bytes; wopt := wopt w; wrecs := wrecs w;
              woffs := put n (match lookup n (woffs w) with Some l => l | None => [] end ++ [(beg, zlen bytes)]) (woffs w);
              wlog := wlog w ++ [{| epos := beg; ename := n; eopts := o; eblks := bs; ebytes := bytes |}] |}
  end.
(* record.go:49-69; None is an error *)
Definition connect (rn bn : str) (ver : Z) (w : wst) : option wst :=
  let '((o, bs), w) := get_rec rn w in
  match find_blk bn bs with
  | Some _ => None
  | None => Some (set_rec rn (o, bs ++ [{| blen := 0; bver := ver; bname := bn; bdata := [] |}]) w)
  end.
(* An operation that returns an error leaves the writer as it is, up to the creation of the record. *)
Definition wstep (c : codec) (p : op) (w : wst) : res wst :=
  match p with
  | OSet k l => Ok {| wout := wout w; wopt := NewOptions k l 0; wrecs := wrecs w; woffs := woffs w; wlog := wlog w |}
  | OConnect rn bn ver => Ok (match connect rn bn ver w with Some w' => w' | None => snd (get_rec rn w) end)
  | OBlock rn bn d =>
      let '((o, bs), w) := get_rec rn w in
      match find_blk bn bs with Some _ => Ok (set_rec rn (o, set_blk bn d bs) w) | None => Panic end
  | OWrite rn => Ok (match rec_write c rn w with Some w' => w' | None => snd (get_rec rn w) end)
  end.
Fixpoint wrun (c : codec) (ps : list op) (w : wst) : res wst :=
  match ps with [] => Ok w | p :: ps' => do w' <- wstep c p w; wrun c ps' w' end.
(* writer.go:85-124 Close: the metadata record, then the footer; the order of the records in the metadata is that of a Go
   map, here the order of creation.  None is an error. *)
Definition meta_of (w : wst) : meta :=
  {| mrecs := map (fun r => (fst r, map bname (snd (snd r)))) (wrecs w); moffs := woffs w |}.
Definition close (c : codec) (w : wst) : option wst :=
  match connect MetaRecord MetaRecord 0 w with
  | None => None
  | Some w1 =>
      let '((o, bs), w1) := get_rec MetaRecord w1 in
      match rec_write c MetaRecord (set_rec MetaRecord (o, set_blk MetaRecord (encMeta c (meta_of w)) bs) w1) with
      | None => None
      | Some w2 => Some {| wout := wout w2 ++ ftr_marshal 16 (zlen (wout w)); wopt := wopt w2; wrecs := wrecs w2;
                           woffs := woffs w2; wlog := wlog w2 |}
      end
  end.

(* ---- reading ---- *)
(* record.go:217-222: a block of the same name is replaced *)
Fixpoint put_blk (b : rblk) (bs : list rblk) : list rblk :=
  match bs with [] => [b] | b' :: bs' => if str_eqb (bname b) (bname b') then b :: bs' else b' :: put_blk b bs' end.
(* record.go:206-223: the loop, on the bytes of the limited reader *)
Fixpoint blks_loop (fuel : nat) (l : list Z) (bs : list rblk) : option (list rblk) :=
  match fuel with
  | O => None
  | S fuel' =>
      match l with
      | [] => Some bs
      | _ => match blk_parse l with Some (b, l') => blks_loop fuel' l' (put_blk b bs) | None => None end
      end
  end.
(* record.go:172-229 readBlocks; [xr] is the kind of the decompressor made for an earlier record, if any *)
Definition read_blocks (c : codec) (xr : option Z) (r : rrec) (bs : list rblk) (l : list Z) : option (list rblk * Z * list Z) :=
  let lim := firstn (Z.to_nat (rioAlignU32 (rclen r))) l in
  let k := match xr with Some k => k | None => CompressorKind (ropts r) end in
  if (k =? 1) || known c k then
    let want := Z.to_nat (rxlen r) in
    let '(x, n) := if k =? 1 then (firstn want lim, length (firstn want lim)) else inflate c k lim want in
    if (length x <? want)%nat then None
    else match blks_loop (S want) (firstn want x) bs with Some bs' => Some (bs', k, skipn n l) | None => None end
  else None.
(* record.go:151-169 on a new record that is unpacked *)
Definition read_record (c : codec) (l : list Z) : option (rrec * list rblk) :=
  match rec_parse l with
  | None => None
  | Some (r, l') => match read_blocks c None r [] l' with Some (bs, _, _) => Some (r, bs) | None => None end
  end.
(* file.go:20-79; a missing metadata block is a nil dereference *)
Definition open (c : codec) (f : list Z) : res (option meta) :=
  if negb (str_eqb (firstn 4 f) rioMagic) then Ok None
  else if (length f <? 16)%nat then Ok None
  else match ftr_parse (skipn (length f - 16) f) with
       | None => Ok None
       | Some (pos, _) =>
           if pos <? 0 then Ok None
           else match read_record c (skipn (Z.to_nat pos) f) with
                | None => Ok None
                | Some (_, bs) => match find_blk MetaRecord bs with None => Panic | Some b => Ok (decMeta c (bdata b)) end
                end
       end.
(* file.go:90-120 Get: the bytes given to the decoder of the value *)
Definition get (c : codec) (f : list Z) (m : meta) (n : str) : res (option (list Z)) :=
  match lookup n (moffs m) with
  | None => Ok None
  | Some [] => Panic
  | Some ((pos, _) :: _ :: _) => Ok None
  | Some [(pos, _)] =>
      if pos <? 0 then Ok None
      else match read_record c (skipn (Z.to_nat pos) f) with
           | None => Ok None
           | Some (_, bs) => match find_blk n bs with None => Panic | Some b => Ok (Some (bdata b)) end
           end
  end.

(* scanner.go:49-119: what is left of the stream, the blocks and the decompressor of the record of the scanner *)
Record scan_st := { srest : list Z; sblks : list rblk; sxr : option Z }.
Inductive scan_res := SRec (r : rrec) (unpacked : bool) (s : scan_st) | SEnd | SErr.
(* [filter] maps a name to Unpack; the empty filter selects everything *)
Fixpoint scan (c : codec) (fuel : nat) (filter : list (str * bool)) (s : scan_st) : res scan_res :=
  match fuel with
  | O => Ok SErr
  | S fuel' =>
      match srest s with
      | [] => Ok SEnd
      | _ =>
          match hdr_parse (srest s) with
          | None => Ok SErr
          | Some ((n, f), l) =>
              if str_eqb f ftrFrame then
                match ple 8 l with
                | None => Ok SErr
                | Some (_, l') => scan c fuel' filter {| srest := l'; sblks := sblks s; sxr := sxr s |}
                end
              else if str_eqb f recFrame then
                match rec_data n l with
                | None => Ok SErr
                | Some (r, l') =>
                    let clen := Z.to_nat (rioAlignU32 (rclen r)) in
                    let skip := if (length l' <? clen)%nat then None else Some (skipn clen l') in
                    let sel := lookup (rname r) filter in
                    if (match filter with [] => false | _ => true end) && (match sel with None => true | _ => false end) then
                      match skip with
                      | None => Ok SErr
                      | Some l'' => scan c fuel' filter {| srest := l''; sblks := sblks s; sxr := sxr s |}
                      end
                    else if match sel with Some u => u | None => false end then
                      match read_blocks c (sxr s) r (sblks s) l' with
                      | None => Ok SErr
                      | Some (bs, k, l'') => Ok (SRec r true {| srest := l''; sblks := bs; sxr := Some k |})
                      end
                    else match skip with
                         | None => Ok SErr
                         | Some l'' => Ok (SRec r false {| srest := l''; sblks := sblks s; sxr := sxr s |})
                         end
                end
              else Panic
          end
      end
  end.
