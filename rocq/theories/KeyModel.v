(* Model of ROOT keys, packed dates, name;cycle strings and directories:
   groot/riofs/key.go, utils.go, sizeof.go, dir.go. *)
From Coq Require Import ZArith List Lia Bool.
From Verif Require Import Bytes GoLib RbytesModel RdMonad GoStrings FreelistModel.
Import ListNotations.
Local Open Scope Z_scope.

(* ---- dates ---- *)
(* A time.Time in UTC is represented by its civil fields, to the second. *)
Record civil := mkCivil { cYear : Z; cMonth : Z; cDay : Z; cHour : Z; cMin : Z; cSec : Z }.
Definition leap (y : Z) : bool := (y mod 4 =? 0) && (negb (y mod 100 =? 0) || (y mod 400 =? 0)).
Definition days_in (y m : Z) : Z :=
  if m =? 2 then (if leap y then 29 else 28)
  else if (m =? 4) || (m =? 6) || (m =? 9) || (m =? 11) then 30 else 31.
Definition civil_ok (t : civil) : bool :=
  (1 <=? cMonth t) && (cMonth t <=? 12) && (1 <=? cDay t) && (cDay t <=? days_in (cYear t) (cMonth t)) &&
  (0 <=? cHour t) && (cHour t <=? 23) && (0 <=? cMin t) && (cMin t <=? 59) && (0 <=? cSec t) && (cSec t <=? 59).
(* time.Date(y, mo, d, h, mi, s, 0, time.UTC): on fields in their usual ranges the result has these
   fields (Go documentation).  The normalisation of out-of-range fields is not modelled (None). *)
Definition go_Date (y mo d h mi s : Z) : option civil :=
  let t := mkCivil y mo d h mi s in if civil_ok t then Some t else None.

(* groot/riofs/utils.go:41-53 datime2time (uint32 shifts; same code in groot/rbase/datime.go) *)
Definition shl32 (d k : Z) : Z := wrapU 32 (Z.shiftl d k).
Definition datime2time (d : Z) : option civil :=
  go_Date (wrapU 32 (Z.shiftr d 26 + 1995)) (Z.shiftr (shl32 d 6) 28) (Z.shiftr (shl32 d 10) 27)
          (Z.shiftr (shl32 d 15) 27) (Z.shiftr (shl32 d 20) 26) (Z.shiftr (shl32 d 26) 26).

(* groot/riofs/utils.go:56-71 time2datime *)
Definition time2datime (t : civil) : res Z :=
  let year := wrapU 32 (cYear t) in
  if year <? 1995 then Panic
  else Ok (Z.lor (Z.lor (Z.lor (Z.lor (Z.lor (shl32 (wrapU 32 (year - 1995)) 26) (shl32 (cMonth t) 22))
             (shl32 (cDay t) 17)) (shl32 (cHour t) 12)) (shl32 (cMin t) 6)) (cSec t)).

(* ---- name;cycle ---- *)
Definition semicolon : Z := 59.
(* groot/riofs/utils.go:15-38 decodeNameCycle *)
Definition decodeNameCycle (namecycle : str) : res (str * Z) :=
  match split semicolon namecycle with
  | [name] => Ok (name, 9999)
  | [name; c] =>
      match atoi c with
      | None => Ok (name, 9999)
      | Some i => Ok (name, wrapS 16 i)
      end
  | _ => Panic
  end.

(* ---- keys ---- *)
(* groot/riofs/key.go:75-103: the persistent fields of Key *)
Record key := mkKey {
  kNbytes : Z; kRvers : Z; kObjlen : Z; kDate : civil; kKeylen : Z; kCycle : Z;
  kSeekkey : Z; kSeekpdir : Z; kClass : str; kName : str; kTitle : str }.
Definition k_set_rvers k v := mkKey (kNbytes k) v (kObjlen k) (kDate k) (kKeylen k) (kCycle k)
  (kSeekkey k) (kSeekpdir k) (kClass k) (kName k) (kTitle k).
Definition k_set_class k c := mkKey (kNbytes k) (kRvers k) (kObjlen k) (kDate k) (kKeylen k) (kCycle k)
  (kSeekkey k) (kSeekpdir k) c (kName k) (kTitle k).

(* groot/riofs/sizeof.go:8-14 tstringSizeof *)
Definition tstringSizeof (v : str) : Z := let n := zlen v in if 254 <? n then n + 1 + 4 else n + 1.

Definition sTBasket : str := [84; 66; 97; 115; 107; 101; 116].  (* "TBasket" *)
(* groot/riofs/key.go:520-538 keylenFor (int32 arithmetic, wrap not modelled: names below 2 GB) *)
Definition keylenFor (name title class : str) (dirBig : bool) (eof : Z) : Z :=
  22 + (if dirBig || (kStartBigFile <? eof) then 8 else 0) + 4 +
  tstringSizeof class + tstringSizeof name + tstringSizeof title +
  (if str_eqb class sTBasket then 2 + 4 + 4 + 4 + 4 + 1 else 0).

(* groot/riofs/key.go:511-513 isBigFile *)
Definition keyBig (k : key) : bool := 1000 <? kRvers k.
(* groot/riofs/key.go:553-557: the version is bumped when the key lies beyond the 2 GB mark *)
Definition bump (k : key) : key :=
  if kStartBigFile <? kSeekkey k then
    if kRvers k <? 1000 then k_set_rvers k (wrapS 16 (kRvers k + 1000)) else k
  else k.

(* groot/riofs/key.go:541-578 MarshalROOT (the receiver's version may change: [bump k]) *)
Definition marshalKey (junk : nat -> Z) (k : key) : wr := w_guard (
  WriteInt junk 4 (kNbytes k) >>
  if kNbytes k <? 0 then w_nop else
  let k := bump k in
  WriteInt junk 2 (kRvers k) >>
  WriteInt junk 4 (kObjlen k) >>
  (fun w => do d <- time2datime (kDate k); WriteInt junk 4 d w) >>
  WriteInt junk 2 (wrapS 16 (kKeylen k)) >>
  WriteInt junk 2 (kCycle k) >>
  (if keyBig k then WriteInt junk 8 (kSeekkey k) >> WriteInt junk 8 (kSeekpdir k)
   else WriteInt junk 4 (kSeekkey k) >> WriteInt junk 4 (kSeekpdir k)) >>
  WriteString junk (kClass k) >> WriteString junk (kName k) >> WriteString junk (kTitle k)).

Definition sGAP : str := [91; 71; 65; 80; 93].  (* "[GAP]" *)
Definition date0 := mkCivil 0 0 0 0 0 0.
(* dates outside the calendar are normalised by time.Date; not modelled, here date0 *)
Definition date_of (d : Z) : civil := match datime2time d with Some t => t | None => date0 end.

(* groot/riofs/key.go:581-613 UnmarshalROOT (the fields not read keep the values of k0) *)
Definition unmarshalKey (k0 : key) : rd key := rd_guard k0 (
  nbytes <~ ReadSint 4 ;;
  if nbytes <? 0 then
    rd_ret (mkKey nbytes (kRvers k0) (kObjlen k0) (kDate k0) (kKeylen k0) (kCycle k0)
                  (kSeekkey k0) (kSeekpdir k0) sGAP (kName k0) (kTitle k0))
  else
  rvers <~ ReadSint 2 ;;
  objlen <~ ReadSint 4 ;;
  date <~ ReadUint 4 ;;
  keylen <~ ReadSint 2 ;;
  cycle <~ ReadSint 2 ;;
  seeks <~ (if 1000 <? rvers then a <~ ReadSint 8 ;; b <~ ReadSint 8 ;; rd_ret (a, b)
            else a <~ ReadSint 4 ;; b <~ ReadSint 4 ;; rd_ret (a, b)) ;;
  class <~ ReadString ;;
  name <~ ReadString ;;
  title <~ ReadString ;;
  rd_ret (mkKey nbytes rvers objlen (date_of date) keylen cycle (fst seeks) (snd seeks) class name title)).

(* groot/riofs/key.go:146-220 newKeyFrom and 222-275 newKeyFromBuf: the header of a new key for a payload
   of [objlen] bytes that occupies [csize] bytes once compressed, put at the end [eof] of the file
   (rvers.Key = 4, groot/rvers/versions_gen.go; int32 arithmetic on the sizes). *)
Definition newKeyFromBuf (name title class : str) (cycle objlen csize : Z) (dirBig : bool) (seekdir eof : Z)
    (now : civil) : key :=
  let keylen := keylenFor name title class dirBig eof in
  mkKey (wrapS 32 (keylen + csize)) (if kStartBigFile <? eof then 4 + 1000 else 4) objlen now keylen cycle
        eof seekdir class name title.

(* ---- list of keys of a directory on file ---- *)
Fixpoint marshalKeys (junk : nat -> Z) (l : list key) : wr :=
  match l with [] => w_nop | k :: l' => marshalKey junk k >> marshalKeys junk l' end.
(* groot/riofs/dir.go:624-632 (writeKeys): the payload of the record *)
Definition writeKeys (junk : nat -> Z) (l : list key) : wr :=
  WriteInt junk 4 (wrapS 32 (zlen l)) >> marshalKeys junk l.
Definition sTDirectory : str := [84; 68; 105; 114; 101; 99; 116; 111; 114; 121].
Definition sTDirectoryFile : str := sTDirectory ++ [70; 105; 108; 101].
Definition key0 := mkKey 0 0 0 date0 0 0 0 0 [] [] [].
(* groot/riofs/dir.go:268-271 *)
Definition oldDir (k : key) : key := if str_eqb (kClass k) sTDirectory then k_set_class k sTDirectoryFile else k.
(* groot/riofs/dir.go:254-273 (readKeys), a negative number of keys panics (make) *)
Definition readKeys : rd (list key) :=
  nkeys <~ ReadSint 4 ;;
  fun r => if rerr r then Ok ([], r)
           else if nkeys <? 0 then Panic
           else (ks <~ read_n (unmarshalKey key0) (Z.to_nat nkeys) ;; rd_ret (map oldDir ks)) r.

(* ---- directory header record ---- *)
Record dirhdr := mkDir {
  dRvers : Z; dCtime : civil; dMtime : civil; dNbyteskeys : Z; dNbytesname : Z;
  dSeekdir : Z; dSeekparent : Z; dSeekkeys : Z; dUuid : list Z }.
(* groot/riofs/dir.go:526-556 MarshalROOT; groot/rbase/uuid.go:32-42 (version rvers.UUID = 1, 16 bytes) *)
Definition marshalDir (junk : nat -> Z) (d : dirhdr) : wr := w_guard (
  WriteInt junk 2 (dRvers d) >>
  (fun w => do c <- time2datime (dCtime d); WriteInt junk 4 c w) >>
  (fun w => do c <- time2datime (dMtime d); WriteInt junk 4 c w) >>
  WriteInt junk 4 (dNbyteskeys d) >>
  WriteInt junk 4 (dNbytesname d) >>
  (if 1000 <? dRvers d
   then WriteInt junk 8 (dSeekdir d) >> WriteInt junk 8 (dSeekparent d) >> WriteInt junk 8 (dSeekkeys d)
   else WriteInt junk 4 (dSeekdir d) >> WriteInt junk 4 (dSeekparent d) >> WriteInt junk 4 (dSeekkeys d)) >>
  WriteInt junk 2 1 >> write junk (dUuid d)).
(* groot/riofs/dir.go:558-591 UnmarshalROOT; uuid.go:44-63 *)
Definition unmarshalDir : rd dirhdr :=
  version <~ ReadSint 2 ;;
  ctime <~ ReadUint 4 ;;
  mtime <~ ReadUint 4 ;;
  nbk <~ ReadSint 4 ;;
  nbn <~ ReadSint 4 ;;
  seeks <~ (if 1000 <? version
            then a <~ ReadSint 8 ;; b <~ ReadSint 8 ;; c <~ ReadSint 8 ;; rd_ret (a, b, c)
            else a <~ ReadSint 4 ;; b <~ ReadSint 4 ;; c <~ ReadSint 4 ;; rd_ret (a, b, c)) ;;
  uuid <~ (let v := Z.rem version 1000 in
           if v =? 2 then rd_guard (repeat 0 16) (read_into (repeat 0 16))
           else if 2 <? v then rd_guard (repeat 0 16) (_v <~ ReadUint 2 ;; read_into (repeat 0 16))
           else rd_ret (repeat 0 16)) ;;
  rd_ret (mkDir version (date_of ctime) (date_of mtime) nbk nbn (fst (fst seeks)) (snd (fst seeks)) (snd seeks) uuid).
