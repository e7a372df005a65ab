(* Model of a ROOT file as a whole: groot/riofs/file.go (Create, Close, Open), dir.go (Put, Mkdir, Get, save) and
   key.go (placement and writing of the keys), on the bytes of the disk file.  The records themselves (keys, directory
   headers, free segments) are those of KeyModel and FreelistModel, the compression that of CompressModel and the
   search among the keys that of DirModel.
   Simplifications: the operating system neither fails nor writes or reads less than asked (a ReadAt that crosses the
   end of the file fails); an object to be put is the function from the position of its payload to its bytes, with the
   generation of its streamer included in whether it succeeds; the list of streamers written by Close is an arbitrary
   payload, and its decoding by Open is not modelled; what a class does with its payload when it is read is not
   modelled either, an object read is its class, its payload and the offset given to its UnmarshalROOT; objects are
   not cached in the keys of a file that is read (key.go:392-394 and 439).  UUIDs are zero, as in the code.  The clock is an argument
   of each operation. *)
From Coq Require Import ZArith List Lia Bool.
From Verif Require Import Bytes GoLib RbytesModel RdMonad GoStrings FreelistModel KeyModel DirModel CompressModel.
Import ListNotations.
Local Open Scope Z_scope.

(* groot/riofs/consts.go:8 kBEGIN, 15 rootMagic; groot/rvers/versions_gen.go:10 ROOT *)
Definition kBEGIN : Z := 100.
Definition rootMagic : str := [114; 111; 111; 116].
Definition rootVersion : Z := 63602.
Definition sTFile : str := [84; 70; 105; 108; 101].
Definition sTList : str := [84; 76; 105; 115; 116].
Definition sStreamerInfo : str := [83; 116; 114; 101; 97; 109; 101; 114; 73; 110; 102; 111].
(* groot/rcont/list.go:54-56: "Doubly linked list" *)
Definition sListTitle : str := [68; 111; 117; 98; 108; 121; 32; 108; 105; 110; 107; 101; 100; 32; 108; 105; 115; 116].

(* ---- the disk file ---- *)
(* os.File.WriteAt: a hole left by writing beyond the end reads as zeros *)
Definition writeAt (d : list Z) (pos : Z) (bs : list Z) : list Z :=
  match bs with
  | [] => d
  | _ =>
      let p := Z.to_nat pos in
      let d := d ++ repeat 0 (p + length bs - length d) in
      firstn p d ++ bs ++ skipn (p + length bs) d
  end.
(* os.File.ReadAt into a buffer of n bytes; None is an error (io.EOF when fewer bytes are left) *)
Definition readAt (d : list Z) (pos n : Z) : option (list Z) :=
  if (pos <? 0) || (zlen d <? pos + n) then None else Some (firstn (Z.to_nat n) (skipn (Z.to_nat pos) d)).

(* ---- a file being written ---- *)
(* what the obj field of a key holds: a value given to Put, or a directory (its index in the list of directories) *)
Inductive content := CObj (mar : Z -> option (list Z)) | CDir (j : nat).
Record fkey := mkFKey { fKey : key; fObj : content }.
(* dir.go:24-29 tdirectory and 80-96 tdirectoryFile *)
Record wdir := mkWDir { wHdr : dirhdr; wName : str; wTitle : str; wKeys : list fkey; wSubs : list nat }.
(* file.go:94-122 File; version is rootVersion, begin is kBEGIN, end and spans are in wSpace; directory 0 is f.dir *)
Record wfile := mkWF {
  wDisk : list Z; wSpace : fspace; wSeekfree : Z; wNbytesfree : Z; wNbytesname : Z; wUnits : Z; wCompr : Z;
  wSeekinfo : Z; wNbytesinfo : Z; wId : str; wDirs : list wdir }.
Definition s_disk f d := mkWF d (wSpace f) (wSeekfree f) (wNbytesfree f) (wNbytesname f) (wUnits f) (wCompr f)
  (wSeekinfo f) (wNbytesinfo f) (wId f) (wDirs f).
Definition s_space f s := mkWF (wDisk f) s (wSeekfree f) (wNbytesfree f) (wNbytesname f) (wUnits f) (wCompr f)
  (wSeekinfo f) (wNbytesinfo f) (wId f) (wDirs f).
Definition s_free f s n := mkWF (wDisk f) (wSpace f) s n (wNbytesname f) (wUnits f) (wCompr f)
  (wSeekinfo f) (wNbytesinfo f) (wId f) (wDirs f).
Definition s_nbytesname f n := mkWF (wDisk f) (wSpace f) (wSeekfree f) (wNbytesfree f) n (wUnits f) (wCompr f)
  (wSeekinfo f) (wNbytesinfo f) (wId f) (wDirs f).
Definition s_units f u := mkWF (wDisk f) (wSpace f) (wSeekfree f) (wNbytesfree f) (wNbytesname f) u (wCompr f)
  (wSeekinfo f) (wNbytesinfo f) (wId f) (wDirs f).
Definition s_info f s n := mkWF (wDisk f) (wSpace f) (wSeekfree f) (wNbytesfree f) (wNbytesname f) (wUnits f) (wCompr f)
  s n (wId f) (wDirs f).
Definition s_dirs f ds := mkWF (wDisk f) (wSpace f) (wSeekfree f) (wNbytesfree f) (wNbytesname f) (wUnits f) (wCompr f)
  (wSeekinfo f) (wNbytesinfo f) (wId f) ds.
Definition wEnd (f : wfile) : Z := fend (wSpace f).

Definition uuid0 : list Z := repeat 0 16.
Definition hdr0 := mkDir 0 date0 date0 0 0 0 0 0 uuid0.
Definition wdir0 := mkWDir hdr0 [] [] [] [].
Definition dir_at (f : wfile) (i : nat) : wdir := nth i (wDirs f) wdir0.
Definition set_dir (f : wfile) (i : nat) (d : wdir) : wfile := s_dirs f (set_nth (wDirs f) i d).
Definition s_hdr d h := mkWDir h (wName d) (wTitle d) (wKeys d) (wSubs d).
Definition s_keys d ks := mkWDir (wHdr d) (wName d) (wTitle d) ks (wSubs d).
Definition s_subs d ss := mkWDir (wHdr d) (wName d) (wTitle d) (wKeys d) ss.
Definition h_rvers h v := mkDir v (dCtime h) (dMtime h) (dNbyteskeys h) (dNbytesname h) (dSeekdir h) (dSeekparent h)
  (dSeekkeys h) (dUuid h).
Definition h_mtime h t := mkDir (dRvers h) (dCtime h) t (dNbyteskeys h) (dNbytesname h) (dSeekdir h) (dSeekparent h)
  (dSeekkeys h) (dUuid h).
Definition h_keys h n s := mkDir (dRvers h) (dCtime h) (dMtime h) n (dNbytesname h) (dSeekdir h) (dSeekparent h)
  s (dUuid h).
Definition h_place h n s := mkDir (dRvers h) (dCtime h) (dMtime h) (dNbyteskeys h) n s (dSeekparent h)
  (dSeekkeys h) (dUuid h).

(* file.go:967-969 IsBigFile; dir.go:146-148 isBigFile *)
Definition fBig (f : wfile) : bool := kStartBigFile <? wEnd f.
Definition dBig (d : wdir) : bool := 1000 <? dRvers (wHdr d).

(* rbytes.NewWBuffer(make([]byte, n), nil, 0, f) *)
Definition wzero (n : Z) : wbuf := {| wp := repeat 0 (Z.to_nat n); wc := 0; werr := false; woff := 0 |}.
(* ... f(buf); buf.Bytes(); a negative length panics in make *)
Definition fill (n : Z) (op : wr) : res (list Z) :=
  if n <? 0 then Panic else do w <- op (wzero n); Ok (wBytes w).

(* dir.go:151-171 recordSize *)
Definition recordSize (version : Z) : Z := 18 + (if 40000 <=? version then 24 else 12) + 18.

(* the keys of a directory as DirModel sees them, numbered by their position *)
Definition label (i : nat) (k : key) : dkey nat := mkDKey (kName k) (kTitle k) (kClass k) (kCycle k) (mkObj [] None i).
Fixpoint labels (i : nat) (ks : list key) : list (dkey nat) :=
  match ks with [] => [] | k :: ks' => label i k :: labels (S i) ks' end.
(* dir.go:362-390: the position of the key that Get selects *)
Definition pick (srt : list (dkey nat) -> list (dkey nat)) (namecycle : str) (ks : list key) : res (option nat) :=
  do r <- get srt namecycle (labels 0 ks); Ok (option_map oData r).

Section File.
  Variable junk : nat -> Z.                                 (* bytes of a slice that has been made longer *)
  Variable cdc : codec.                                     (* the compression libraries *)
  Variable srt : list (dkey nat) -> list (dkey nat).        (* sort.Slice on keys *)

  (* key.go:105-141 newKey *)
  Definition newKey (seekpdir : Z) (name title class : str) (objlen : Z) (now : civil) (f : wfile) : res (key * wfile) :=
    let eof := wEnd f in
    let keylen := keylenFor name title class (dBig (dir_at f 0)) eof in
    let nbytes := wrapS 32 (objlen + keylen) in
    let rvers := if kStartBigFile <? eof then 1004 else 4 in
    if 0 <? objlen then
      let (s, err) := setEnd (eof + nbytes) (wSpace f) in
      if err then Panic
      else Ok (mkKey nbytes rvers objlen now keylen 1 eof seekpdir class name title, s_space f s)
    else Ok (mkKey nbytes rvers objlen now keylen 1 0 seekpdir class name title, f).

  (* key.go:222-274 newKeyFromBuf, and 181-219 of newKeyFrom which is the same code: the key and what goes to the
     file; None is an error *)
  Definition newKeyBuf (d : wdir) (name title class : str) (cycle : Z) (buf : list Z) (now : civil) (f : wfile)
      : res (option (key * list Z) * wfile) :=
    do o <- Compress cdc buf (wCompr f);
    match o with
    | None => Ok (None, f)
    | Some out =>
        let k := newKeyFromBuf name title class cycle (wrapS 32 (zlen buf)) (wrapS 32 (zlen out)) (dBig d)
                   (dSeekdir (wHdr d)) (wEnd f) now in
        let (s, err) := setEnd (wEnd f + kNbytes k) (wSpace f) in
        Ok (if err then None else Some (k, out), s_space f s)
    end.

  (* key.go:616-641 writeFile *)
  Definition writeFile (k : key) (buf : list Z) (f : wfile) : res wfile :=
    do h <- fill (kNbytes k) (marshalKey junk k);
    Ok (s_disk f (writeAt (writeAt (wDisk f) (kSeekkey k) h) (kSeekkey k + kKeylen k) buf)).

  (* file.go:370-432 writeHeader; groot/rbase/uuid.go:32-42 *)
  Definition writeHeader (f : wfile) : res wfile :=
    let big := fBig f || (kStartBigFile <? wSeekfree f) || (kStartBigFile <? wSeekinfo f) in
    let version := if big then rootVersion + 1000000 else rootVersion in
    let f := if big then s_units f 8 else f in
    let w := if version <? 1000000 then 4%nat else 8%nat in
    do h <- fill kBEGIN (
      write junk rootMagic >>
      WriteInt junk 4 version >> WriteInt junk 4 (wrapS 32 kBEGIN) >>
      WriteInt junk w (wEnd f) >> WriteInt junk w (wSeekfree f) >>
      WriteInt junk 4 (wNbytesfree f) >> WriteInt junk 4 (wrapS 32 (zlen (spans (wSpace f)))) >>
      WriteInt junk 4 (wNbytesname f) >>
      WriteInt junk 1 (wUnits f) >> WriteInt junk 4 (wCompr f) >>
      WriteInt junk w (wSeekinfo f) >> WriteInt junk 4 (wNbytesinfo f) >>
      WriteInt junk 2 1 >> write junk uuid0);
    Ok (s_disk f (writeAt (writeAt (wDisk f) 0 (repeat 0 (Z.to_nat kBEGIN))) 0 h)).

  (* file.go:166-235 Create (the file is new; [compr] is the compression set by the options, 187-200) *)
  Definition Create (name : str) (compr : Z) (now : civil) : res wfile :=
    let d := mkWDir (mkDir 5 now now 0 0 0 0 0 uuid0) name [] [] [] in
    let f := mkWF [] (fs_create kBEGIN) 0 0 0 4 compr 0 0 name [d] in
    let namelen := tstringSizeof name + tstringSizeof [] in
    let objlen := namelen + recordSize rootVersion in
    do kf <- newKey 0 name [] sTFile objlen now f;
    let (k, f) := kf in
    let nbn := kKeylen k + namelen in
    let f := set_dir (s_nbytesname f nbn) 0 (s_hdr d (h_place (wHdr d) nbn (kSeekkey k))) in
    do f <- writeHeader f;
    do buf <- fill objlen (WriteString junk (wId f) >> WriteString junk (wTitle (dir_at f 0)) >>
                           marshalDir junk (wHdr (dir_at f 0)));
    writeFile k buf f.

  (* dir.go:98-144 newDirectoryFile with a parent: the new directory is added to the list of directories *)
  Definition newDirectoryFile (p : nat) (name : str) (now : civil) (f : wfile) : res wfile :=
    let pd := dir_at f p in
    let objlen := recordSize rootVersion in
    do kf <- newKey (dSeekdir (wHdr pd)) name name sTDirectory objlen now f;
    let (k, f) := kf in
    let h := mkDir 5 now now 0 (kKeylen k) (kSeekkey k) (dSeekdir (wHdr pd)) 0 uuid0 in
    do buf <- fill objlen (WriteString junk (wId f) >> WriteString junk (wTitle (dir_at f 0)) >> marshalDir junk h);
    let j := length (wDirs f) in
    let f := s_dirs f (set_nth (wDirs f) p (s_keys pd (wKeys pd ++ [mkFKey k (CDir j)])) ++
                       [mkWDir h name name [] []]) in
    writeFile k buf f.

  (* dir.go:488-501 Mkdir; the boolean is true when no error is returned *)
  Definition Mkdir (i : nat) (name : str) (now : civil) (f : wfile) : res (wfile * bool) :=
    do g <- pick srt name (map fKey (wKeys (dir_at f i)));
    match g with
    | Some _ => Ok (f, false)
    | None =>
        if has_byte slash name then Ok (f, false)
        else
          let j := length (wDirs f) in
          do f <- newDirectoryFile i name now f;
          Ok (set_dir f i (s_subs (dir_at f i) (wSubs (dir_at f i) ++ [j])), true)
    end.

  (* dir.go:410-480 Put *)
  Definition Put (i : nat) (name : str) (o : object (Z -> option (list Z))) (now : civil) (f : wfile) : res (wfile * bool) :=
    let d := dir_at f i in
    if has_byte slash name then Ok (f, false)
    else
      let '(name, title) :=
        match oNamed o with
        | Some (n, t) => ((match name with [] => n | _ => name end), t)
        | None => (name, [])
        end in
      match name with
      | [] => Ok (f, false)
      | _ =>
          match scan name (oClass o) 0 (labels 0 (map fKey (wKeys d))) with
          | None => Ok (f, false)
          | Some cycle =>
              let class := GoName2Cxx (oClass o) in
              match oData o (keylenFor name title class (dBig d) (wEnd f)) with
              | None => Ok (f, false)
              | Some buf =>
                  do kf <- newKeyBuf d name title class (wrapS 16 (cycle + 1)) buf now f;
                  match kf with
                  | (None, f) => Ok (f, false)
                  | (Some (k, out), f) =>
                      do f <- writeFile k out f;
                      Ok (set_dir f i (s_keys d (wKeys d ++ [mkFKey k (CObj (oData o))])), true)
                  end
              end
          end
      end.

  Inductive op :=
  | OPut (i : nat) (name : str) (o : object (Z -> option (list Z))) (now : civil)
  | OMkdir (i : nat) (name : str) (now : civil).
  (* calls on a directory that does not exist do nothing: the caller has no handle for it *)
  Definition step (o : op) (f : wfile) : res (wfile * bool) :=
    match o with
    | OPut i name ob now => if (i <? length (wDirs f))%nat then Put i name ob now f else Ok (f, false)
    | OMkdir i name now => if (i <? length (wDirs f))%nat then Mkdir i name now f else Ok (f, false)
    end.
  Fixpoint run (ops : list op) (f : wfile) : res (wfile * list bool) :=
    match ops with
    | [] => Ok (f, [])
    | o :: ops' =>
        do fb <- step o f;
        do r <- run ops' (fst fb);
        Ok (fst r, snd fb :: snd r)
    end.

  (* dir.go:608-642 writeKeys *)
  Definition dirWriteKeys (i : nat) (now : civil) (f : wfile) : res wfile :=
    let d := dir_at f i in
    let nbytes := wrapS 32 (4 + (if fBig f then 8 else 0) +
                            fold_right Z.add 0 (map (fun k => kKeylen (fKey k)) (wKeys d))) in
    do kf <- newKey (dSeekdir (wHdr d)) (wName d) (wTitle d) sTDirectory nbytes now f;
    let (k, f) := kf in
    do buf <- fill nbytes (writeKeys junk (map fKey (wKeys d)));
    let f := set_dir f i (s_hdr d (h_keys (wHdr d) (kNbytes k) (kSeekkey k))) in
    writeFile k buf f.
  (* dir.go:331-350 writeHeader *)
  Definition dirWriteHeader (i : nat) (now : civil) (f : wfile) : res wfile :=
    let d := dir_at f i in
    let h := h_mtime (wHdr d) now in
    do buf <- fill (recordSize rootVersion) (marshalDir junk h);
    Ok (s_disk (set_dir f i (s_hdr d h)) (writeAt (wDisk f) (dSeekdir h + dNbytesname h) buf)).
  (* dir.go:316-328 saveSelf *)
  Definition saveSelf (clk : nat -> civil) (i : nat) (f : wfile) : res wfile :=
    do f <- dirWriteKeys i (clk i) f; dirWriteHeader i (clk i) f.
  (* dir.go:300-314 save; the depth of the tree of directories is at most their number *)
  Fixpoint save (fuel : nat) (clk : nat -> civil) (i : nat) (f : wfile) : res wfile :=
    match fuel with
    | O => Panic
    | S fuel' =>
        do f <- saveSelf clk i f;
        (fix subs (l : list nat) (f : wfile) : res wfile :=
           match l with
           | [] => Ok f
           | j :: l' => do f <- save fuel' clk j f; subs l' f
           end) (wSubs (dir_at f i)) f
    end.
  (* dir.go:276-298 close *)
  Definition dirClose (clk : nat -> civil) (f : wfile) : res wfile :=
    let d := dir_at f 0 in
    let f := if fBig f && (dRvers (wHdr d) <? 1000) then set_dir f 0 (s_hdr d (h_rvers (wHdr d) (dRvers (wHdr d) + 1000)))
             else f in
    save (length (wDirs f)) clk 0 f.

  (* file.go:645-664 markFree *)
  Definition fMarkFree (beg end_ : Z) (f : wfile) : wfile :=
    match markFree beg end_ (wSpace f) with
    | (s, None) => s_space f s
    | (s, Some (pos, v)) => s_disk (s_space f s) (writeAt (wDisk f) pos (be 4 v))
    end.
  (* file.go:539-591 writeStreamerInfo; [si] is the marshalled list of streamers for the position of the payload;
     None is an error *)
  Definition writeStreamerInfo (si : Z -> list Z) (now : civil) (f : wfile) : res (option wfile) :=
    let f := if negb (wSeekinfo f =? 0) then fMarkFree (wSeekinfo f) (wSeekinfo f + wNbytesinfo f - 1) f else f in
    do kf <- newKey (dSeekdir (wHdr (dir_at f 0))) sStreamerInfo sListTitle sTList 0 now f;
    let (k, f) := kf in
    do kf <- newKeyBuf (dir_at f 0) sStreamerInfo sListTitle sTList 1 (si (kKeylen k)) now f;
    match kf with
    | (None, _) => Ok None
    | (Some (k, out), f) => do f <- writeFile k out (s_info f (kSeekkey k) (kNbytes k)); Ok (Some f)
    end.
  (* file.go:743-748 *)
  Fixpoint marshalSegs (l : list seg) : wr :=
    match l with [] => w_nop | s :: l' => marshalSeg junk s >> marshalSegs l' end.
  (* file.go:705-769 writeFreeSegments *)
  Definition writeFreeSegments (now : civil) (f : wfile) : res wfile :=
    let f := if negb (wSeekfree f =? 0) then fMarkFree (wSeekfree f) (wSeekfree f + wNbytesfree f - 1) f else f in
    let nbytes := fold_right Z.add 0 (map seg_sizeof (spans (wSpace f))) in
    if nbytes =? 0 then Ok f
    else
      do kf <- newKey (dSeekdir (wHdr (dir_at f 0))) (wName (dir_at f 0)) (wTitle (dir_at f 0)) sTFile nbytes now f;
      let (k, f) := kf in
      if kSeekkey k =? 0 then Ok f
      else if negb (fBig f) && (kStartBigFile <? wEnd f) then Panic
      else
        do buf <- fill nbytes (marshalSegs (spans (wSpace f)));
        (* 749-759: fewer bytes than planned are left alone (the copy is into an empty slice), more is a panic *)
        if nbytes <? zlen buf then Panic
        else writeFile k buf (s_free f (kSeekkey k) (kNbytes k)).

  (* file.go:436-475 Close; None is an error *)
  Definition Close (si : Z -> list Z) (clk : nat -> civil) (t1 t2 : civil) (f : wfile) : res (option wfile) :=
    do f <- dirClose clk f;
    do o <- writeStreamerInfo si t1 f;
    match o with
    | None => Ok None
    | Some f => do f <- writeFreeSegments t2 f; do f <- writeHeader f; Ok (Some f)
    end.

  (* ---- a file being read ---- *)
  Record rdir := mkRDir { rHdr : dirhdr; rName : str; rTitle : str; rKeys : list key }.
  Inductive robj := RLeaf (class : str) (payload : list Z) (offset : Z) | RDir (d : rdir).
  Record fhdr := mkFH {
    hVersion : Z; hBegin : Z; hEnd : Z; hSeekfree : Z; hNbytesfree : Z; hNfree : Z; hNbytesname : Z; hUnits : Z;
    hCompr : Z; hSeekinfo : Z; hNbytesinfo : Z; hUuid : list Z }.
  Record rfile := mkRF { rfHdr : fhdr; rfSpans : list seg; rfInfo : option (list Z); rfRoot : rdir }.

  (* rbytes.NewRBuffer(p, nil, 0, nil) *)
  Definition rb (p : list Z) : rbuf := {| rp := p; rc := 0; rerr := false; roff := 0 |}.

  (* file.go:297-339 of readHeader; None is an error *)
  Definition parseHeader : rd (option fhdr) :=
    magic <~ read_into (repeat 0 4) ;;
    if negb (str_eqb magic rootMagic) then rd_ret None
    else
      version <~ ReadSint 4 ;;
      begin <~ ReadSint 4 ;;
      let w := if version <? 1000000 then 4%nat else 8%nat in
      end_ <~ ReadSint w ;;
      seekfree <~ ReadSint w ;;
      nbytesfree <~ ReadSint 4 ;;
      nfree <~ ReadSint 4 ;;
      nbytesname <~ ReadSint 4 ;;
      units <~ ReadUint 1 ;;
      compr <~ ReadSint 4 ;;
      seekinfo <~ ReadSint w ;;
      nbytesinfo <~ ReadSint 4 ;;
      uuid <~ read_into (repeat 0 16) ;;
      rd_ret (Some (mkFH (Z.rem version 1000000) begin end_ seekfree nbytesfree nfree nbytesname units compr
                         seekinfo nbytesinfo uuid)).

  (* dir.go:173-228 readDirInfo: the directory header, its name and its title *)
  Definition readDirInfo (d : list Z) (h : fhdr) : res (option (dirhdr * str * str)) :=
    let nbytes := hNbytesname h + recordSize (hVersion h) in
    if hEnd h <? nbytes + hBegin h then Ok None
    else if nbytes <? 0 then Panic
    else
      match readAt d (hBegin h) nbytes with
      | None => Ok None
      | Some data =>
          if (hNbytesname h <? 0) || (nbytes <? hNbytesname h) then Panic
          else
            do dr <- unmarshalDir (rb (skipn (Z.to_nat (hNbytesname h)) data));
            if rerr (snd dr) then Ok None
            else if zlen data <? 4 then Panic
            else
              do kv <- ReadSint 2 (rb (skipn 4 data));
              if rerr (snd kv) then Ok None
              else
                let nk := if 1000 <? fst kv then 34 else 26 in
                if zlen data <? nk then Panic
                else
                  do s <- (_c <~ ReadString ;; n <~ ReadString ;; t <~ ReadString ;; rd_ret (n, t))
                            (rb (skipn (Z.to_nat nk) data));
                  if (dNbytesname (fst dr) <? 10) || (1000 <? dNbytesname (fst dr)) then Ok None
                  else if rerr (snd s) then Ok None
                  else Ok (Some (fst dr, fst (fst s), snd (fst s)))
      end.

  (* key.go:456-478 load and 507-509 isCompressed, of a key read from the file *)
  Definition loadKey (d : list Z) (k : key) : res (option (list Z)) :=
    let start := kSeekkey k + kKeylen k in
    if start <? 0 then Ok None
    else load cdc (kObjlen k) (kNbytes k - kKeylen k) (skipn (Z.to_nat start) d).

  (* a record: ReadAt of its bytes and UnmarshalROOT of its key (dir.go:236-246, file.go:668-684 and 506-519) *)
  Definition readRecord (d : list Z) (pos nbytes : Z) : res (option key) :=
    if nbytes <? 0 then Panic
    else
      match readAt d pos nbytes with
      | None => Ok None
      | Some buf => do kr <- unmarshalKey key0 (rb buf); Ok (if rerr (snd kr) then None else Some (fst kr))
      end.

  (* file.go:689-702: the segments up to the end of the buffer; [n] bounds the number of segments *)
  Fixpoint readSegs (n : nat) (r : rbuf) : res (option (list seg)) :=
    match n with
    | O => Ok (Some [])
    | S n' =>
        if rLen r <=? 0 then Ok (Some [])
        else
          do sr <- unmarshalSeg r;
          if rerr (snd sr) then Ok None
          else do l <- readSegs n' (snd sr); Ok (option_map (cons (fst sr)) l)
    end.
  (* file.go:666-703 readFreeSegments *)
  Definition readFreeSegments (d : list Z) (h : fhdr) : res (option (list seg)) :=
    do k <- readRecord d (hSeekfree h) (hNbytesfree h);
    match k with
    | None => Ok None
    | Some k =>
        do b <- loadKey d k;
        match b with
        | None => Ok None
        | Some buf => readSegs (length buf) (rb buf)
        end
    end.

  (* file.go:501-532 readStreamerInfo, up to the payload of the list; a failure to load it panics (key.go:382-388) *)
  Definition readStreamerInfo (d : list Z) (h : fhdr) : res (option (list Z)) :=
    if (hSeekinfo h <=? 0) || (hEnd h <=? hSeekinfo h) then Ok None
    else
      do k <- readRecord d (hSeekinfo h) (hNbytesinfo h);
      match k with
      | None => Ok None
      | Some k => do b <- loadKey d k; match b with None => Panic | Some p => Ok (Some p) end
      end.

  (* dir.go:230-274 readKeys *)
  Definition dirReadKeys (d : list Z) (h : dirhdr) : res (option (list key)) :=
    if dSeekkeys h <=? 0 then Ok (Some [])
    else
      do k <- readRecord d (dSeekkeys h) (dNbyteskeys h);
      match k with
      | None => Ok None
      | Some k =>
          if kObjlen k <? 0 then Panic
          else
            match readAt d (dSeekkeys h + kKeylen k) (kObjlen k) with
            | None => Ok None
            | Some buf => do kr <- readKeys (rb buf); Ok (if rerr (snd kr) then None else Some (fst kr))
            end
      end.

  (* file.go:127-146 Open and 290-368 readHeader *)
  Definition Open (d : list Z) : res (option rfile) :=
    match readAt d 0 76 with
    | None => Ok None
    | Some buf =>
        do hr <- parseHeader (rb buf);
        match fst hr with
        | None => Ok None
        | Some h =>
            if rerr (snd hr) then Ok None
            else
              do di <- readDirInfo d h;
              match di with
              | None => Ok None
              | Some (dh, name, title) =>
                  do fs <- (if 0 <? hSeekfree h then readFreeSegments d h else Ok (Some []));
                  match fs with
                  | None => Ok None
                  | Some sp =>
                      do si <- (if 0 <? hSeekinfo h then do o <- readStreamerInfo d h; Ok (option_map Some o) else Ok (Some None));
                      match si with
                      | None => Ok None
                      | Some info =>
                          do ks <- dirReadKeys d dh;
                          match ks with
                          | None => Ok None
                          | Some ks => Ok (Some (mkRF h sp info (mkRDir dh name title ks)))
                          end
                      end
                  end
              end
        end
    end.

  (* key.go:391-441 Object *)
  Definition Object (d : list Z) (k : key) : res (option robj) :=
    do b <- loadKey d k;
    match b with
    | None => Ok None
    | Some p =>
        if str_eqb (kClass k) sTDirectoryFile then
          do dr <- unmarshalDir (rb p);
          if rerr (snd dr) then Ok None
          else
            do ks <- dirReadKeys d (fst dr);
            Ok (match ks with None => None | Some ks => Some (RDir (mkRDir (fst dr) (kName k) (kName k) ks)) end)
        else Ok (Some (RLeaf (kClass k) p (wrapU 32 (kKeylen k))))
    end.
  (* dir.go:362-408 Get on a directory that was read *)
  Definition rGet (d : list Z) (dir : rdir) (namecycle : str) : res (option robj) :=
    do p <- pick srt namecycle (rKeys dir);
    match p with
    | None => Ok None
    | Some i => match nth_error (rKeys dir) i with None => Ok None | Some k => Object d k end
    end.
  (* Get after Get, down the directories: None when a name is not found or is not a directory *)
  Fixpoint walk (d : list Z) (o : robj) (path : list str) : res (option robj) :=
    match path with
    | [] => Ok (Some o)
    | nc :: path' =>
        match o with
        | RLeaf _ _ _ => Ok None
        | RDir dir =>
            do r <- rGet d dir nc;
            match r with None => Ok None | Some o' => walk d o' path' end
        end
    end.
End File.
