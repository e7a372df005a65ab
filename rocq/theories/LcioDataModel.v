(* Model of the data model of lcio: the MarshalSio and UnmarshalSio methods of the collections (calohit.go, cluster.go,
   collections.go, mc.go, rawcalohit.go, recparticle.go, simcalohit.go, simtrackerhit.go, track.go, trackerdata.go,
   trackerhit.go, trackerhitplane.go, trackerhitzcylinder.go, trackerpulse.go, trackerrawdata.go, vertex.go), the headers and
   the parameters (event.go), the names of the types (types.go), and the writing and reading of the record of an event
   (record.go of sio, with the codecs of the blocks as they are instead of the types handled by reflection).
   An object is the list of its fields, in the order of the struct; its identity (the key given to Tag) is the field "&".  The
   body of the loop over the elements of a collection is a list of operations, one for each statement, as a function of the
   flags of the collection and of the version of the block.  Floats are their bits; the conversions between float64 and
   float32 are parameters.  nil slices are empty slices.  The String methods are not modelled. *)
From Coq Require Import ZArith List Lia Bool String.
From Verif Require Import Bytes GoLib GoStrings Parse RioModel SioModel.
Import ListNotations.
Local Open Scope Z_scope.

(* ---- objects ---- *)
Definition obj (T P : Type) := list (string * val T P).
Definition sch := list (string * ty).
Fixpoint fget {T P} (f : string) (x : obj T P) : val T P :=
  match x with [] => VInt 0 | (g, v) :: x' => if (f =? g)%string then v else fget f x' end.
Fixpoint fset {T P} (f : string) (v : val T P) (x : obj T P) : obj T P :=
  match x with [] => [] | (g, w) :: x' => if (f =? g)%string then (g, v) :: x' else (g, w) :: fset f v x' end.
(* the zero value of a type; a nil pointer is the id 0, an object without tag has no identity *)
Fixpoint zero (t : ty) : val nat Z :=
  match t with
  | TU _ | TS _ | TBool | TTag => VInt 0
  | TStr => VStr [] | TSlice _ => VList [] | TMap _ _ => VMap []
  | TStruct ts => VStruct (map zero ts)
  | TPtr => VPtr 0
  end.
Definition fresh (s : sch) : obj nat Z := map (fun ft => (fst ft, zero (snd ft))) s.
Definition vals {T P} (x : obj T P) : val T P := VStruct (map snd x).
Definition names {T P} (s : sch) (v : val T P) : obj T P := match v with VStruct vs => combine (map fst s) vs | _ => [] end.
Definition int_of {T P} (v : val T P) : Z := match v with VInt z => z | _ => 0 end.
Definition list_of {T P} (v : val T P) : list (val T P) := match v with VList l => l | _ => [] end.

(* bits.go:84-86 *)
Definition test (flags bit : Z) : bool := negb (Z.land flags bit =? 0).

(* ---- operations ---- *)
(* how many: an int32 (a negative one makes make panic), an int32 that counts when it is positive, the uint32 of a slice, or
   a number that is not in the data *)
Inductive cnt := CInt | CPos | CUint | CFix (n : nat).
Inductive op :=
| Fd (f : string) (t : ty)                         (* Encode(&x.f), Pointer(&x.f), Tag(x) *)
| Ls (f : string) (c : cnt) (t : ty)               (* the length of x.f and a loop over its elements *)
| Nr (f : string) (t : ty)                         (* float64s that are written as float32s *)
| Pr (f g : string)                                (* the length of x.f, then x.f[i] and x.g[i] *)
| Ad (f : string)                                  (* the ADCs, padded to an even number *)
| Bt (f : string) (b : Z) (l : list op)            (* if x.f&b != 0 *)
| Vc (f : string) (c : cnt) (s : sch) (l : list op) (* the length of x.f and the loop over its structs *)
| Sk (t : ty).                                     (* read and dropped *)

Section Conv.
Variable narrow widen : Z -> Z.                     (* float32(x) of a float64, float64(x) of a float32 *)
Fixpoint on_ints {T P} (f : Z -> Z) (v : val T P) : val T P :=
  match v with VInt z => VInt (f z) | VStruct vs => VStruct (map (on_ints f) vs) | _ => v end.
(* the type of the float32s *)
Fixpoint ty32 (t : ty) : ty := match t with TU _ => TU 4 | TStruct ts => TStruct (map ty32 ts) | _ => t end.

Definition wseq (f g : wids -> res (option (list Z * wids))) (s : wids) : res (option (list Z * wids)) :=
  wbind (f s) (fun r => wbind (g (snd r)) (fun r' => wret (fst r ++ fst r', snd r'))).
Definition wbytes (b : list Z) (s : wids) : res (option (list Z * wids)) := wret (b, s).
Definition wcount (c : cnt) (n : Z) : list Z := match c with CFix _ => [] | _ => u32b n end.
(* one operation of MarshalSio on the object x *)
Fixpoint wop (o : op) (x : obj Z Z) (s : wids) {struct o} : res (option (list Z * wids)) :=
  match o with
  | Fd f t => enc true t (fget f x) s
  | Ls f c t => wseq (wbytes (wcount c (zlen (list_of (fget f x))))) (enc_all (enc true t) (list_of (fget f x))) s
  | Nr f t => enc true (ty32 t) (on_ints narrow (fget f x)) s
  | Pr f g =>
      (* cluster.go:131-137: Weights[i] is out of range when there are less weights than hits *)
      let hs := list_of (fget f x) in
      let ws := list_of (fget g x) in
      if zlen ws <? zlen hs then Panic
      else wseq (wbytes (u32b (zlen hs))) (enc_all (fun p => wseq (enc true TPtr (fst p)) (enc true (TU 4) (snd p))) (combine hs ws)) s
  | Ad f =>
      (* trackerrawdata.go:73-81 *)
      let l := list_of (fget f x) in
      wseq (wbytes (u32b (zlen l))) (wseq (enc_all (enc true (TU 2)) l) (wbytes (if zlen l mod 2 =? 1 then be 2 0 else []))) s
  | Bt f b l =>
      if test (int_of (fget f x)) b then
        (fix go (l : list op) (s : wids) {struct l} := match l with [] => wret ([], s) | o :: l' => wseq (wop o x) (go l') s end) l s
      else wret ([], s)
  | Vc f c sc l =>
      wseq (wbytes (wcount c (zlen (list_of (fget f x)))))
           (enc_all (fun e => (fix go (l : list op) (s : wids) {struct l} := match l with [] => wret ([], s) | o :: l' => wseq (wop o (names sc e)) (go l') s end) l)
                    (list_of (fget f x))) s
  | Sk t => wret ([], s)
  end.
Fixpoint wops (l : list op) (x : obj Z Z) (s : wids) : res (option (list Z * wids)) :=
  match l with [] => wret ([], s) | o :: l' => wseq (wop o x) (wops l' x) s end.

Definition dfail {A} : rd A := fun _ => None.
Definition rcount (c : cnt) : rd nat :=
  match c with
  | CFix n => dret n
  | CUint => dbind (rlift (pbe 4)) (fun n => dret (Z.to_nat n))
  | CPos => dbind (rlift (pbe 4)) (fun n => dret (Z.to_nat (wrapS 32 n)))
  | CInt => dbind (rlift (pbe 4)) (fun n => if wrapS 32 n <? 0 then dfail else dret (Z.to_nat (wrapS 32 n)))
  end.
(* one operation of UnmarshalSio; an error is kept by the decoder and makes the whole fail *)
Fixpoint rop (o : op) (x : obj nat Z) {struct o} : rd (obj nat Z) :=
  match o with
  | Fd f t => dbind (dec t) (fun v => dret (fset f v x))
  | Ls f c t => dbind (rcount c) (fun n => dbind (drep n (dec t)) (fun vs => dret (fset f (VList vs) x)))
  | Nr f t => dbind (dec (ty32 t)) (fun v => dret (fset f (on_ints widen v) x))
  | Pr f g =>
      (* cluster.go:202-209 *)
      dbind (rcount CInt) (fun n => dbind (drep n (dbind (dec TPtr) (fun h => dbind (dec (TU 4)) (fun w => dret (h, w)))))
        (fun ps => dret (fset g (VList (map snd ps)) (fset f (VList (map fst ps)) x))))
  | Ad f =>
      (* trackerrawdata.go:101-110 *)
      dbind (rcount CInt) (fun n => dbind (drep n (dec (TU 2))) (fun vs =>
        dbind (if Z.of_nat n mod 2 =? 1 then dec (TU 2) else dret (VInt 0)) (fun _ => dret (fset f (VList vs) x))))
  | Bt f b l =>
      if test (int_of (fget f x)) b then
        (fix go (l : list op) (x : obj nat Z) {struct l} : rd (obj nat Z) := match l with [] => dret x | o :: l' => dbind (rop o x) (go l') end) l x
      else dret x
  | Vc f c sc l =>
      dbind (rcount c) (fun n => dbind (drep n
        ((fix go (l : list op) (x : obj nat Z) {struct l} : rd (obj nat Z) := match l with [] => dret x | o :: l' => dbind (rop o x) (go l') end) l (fresh sc)))
        (fun es => dret (fset f (VList (map vals es)) x)))
  | Sk t => dbind (dec t) (fun _ => dret x)
  end.
Fixpoint rops (l : list op) (x : obj nat Z) : rd (obj nat Z) :=
  match l with [] => dret x | o :: l' => dbind (rop o x) (rops l') end.

(* ---- parameters ---- *)
(* lcio/event.go:134-138 *)
Definition tparams : ty := TStruct [TMap TStr (TSlice (TS 4)); TMap TStr (TSlice (TU 4)); TMap TStr (TSlice TStr)].
(* the order of strings, and sort.Strings on the keys *)
Fixpoint str_leb (a b : str) : bool :=
  match a, b with [], _ => true | _ :: _, [] => false | x :: a', y :: b' => (x <? y) || ((x =? y) && str_leb a' b') end.
Definition key_leb {T P} (a b : val T P) : bool := match a, b with VStr x, VStr y => str_leb x y | _, _ => true end.
Fixpoint insert {T P} (kv : val T P * val T P) (l : list (val T P * val T P)) : list (val T P * val T P) :=
  match l with [] => [kv] | kv' :: l' => if key_leb (fst kv) (fst kv') then kv :: l else kv' :: insert kv l' end.
Definition sort_keys {T P} (l : list (val T P * val T P)) : list (val T P * val T P) := fold_right insert [] l.
Definition sort_maps {T P} (v : val T P) : val T P :=
  match v with VStruct vs => VStruct (map (fun m => match m with VMap kvs => VMap (sort_keys kvs) | _ => m end) vs) | _ => v end.
(* lcio/event.go:203-254; a map given as the list of its entries in any order *)
Definition wparams (p : val Z Z) : wids -> res (option (list Z * wids)) := enc true tparams (sort_maps p).
(* lcio/event.go:256-262 *)
Definition rparams : rd (val nat Z) := dec tparams.

(* ---- collections ---- *)
Record coll := { csch : sch; cwr : Z -> list op; ccnt : cnt; crd : Z -> Z -> list op }.
(* the flags, the parameters and the elements *)
Record data (T P : Type) := { dflags : Z; dparams : val T P; delems : list (obj T P) }.
Arguments dflags {T P}. Arguments dparams {T P}. Arguments delems {T P}.
Definition marshal (c : coll) (d : data Z Z) : wids -> res (option (list Z * wids)) :=
  wseq (enc true (TU 4) (VInt (dflags d))) (wseq (wparams (dparams d))
    (wseq (wbytes (wcount (ccnt c) (zlen (delems d)))) (enc_all (wops (cwr c (dflags d))) (delems d)))).
Definition unmarshal (c : coll) (ver : Z) : rd (data nat Z) :=
  dbind (dec (TU 4)) (fun fl => dbind rparams (fun p => dbind (rcount (ccnt c)) (fun n =>
    dbind (drep n (rops (crd c (int_of fl) ver) (fresh (csch c)))) (fun es => dret {| dflags := int_of fl; dparams := p; delems := es |})))).

Definition i32 := TS 4. Definition f32 := TU 4. Definition f64 := TU 8.
Definition arr (n : nat) (t : ty) : ty := TStruct (repeat t n).
Definition tag := Fd "&" TTag.
Definition when (b : bool) (l : list op) : list op := if b then l else [].

(* bits.go:11-81 *)
Definition bit31 := 2 ^ 31. Definition bit30 := 2 ^ 30. Definition bit29 := 2 ^ 29. Definition bit28 := 2 ^ 28. Definition bit27 := 2 ^ 27. Definition bit26 := 2 ^ 26.
Definition BitsChLong := bit31. Definition BitsChID1 := bit29. Definition BitsChStep := bit28.
Definition BitsRChLong := bit31. Definition BitsRChID1 := bit29. Definition BitsRChNoPtr := bit28.
Definition BitsRChTime := bit27. Definition BitsRChEnergyError := bit26.
Definition BitsTRawID1 := bit31. Definition BitsTRawCM := bit30.
Definition BitsThMomentum := bit30. Definition BitsThID1 := bit29.
Definition BitsTrHits := bit31. Definition BitsClHits := bit31. Definition BitsRelWeighted := bit31. Definition BitsGOFixed := bit31.

(* calohit.go:136-145, 65-93 and 95-134 *)
Definition caloHits : coll := {|
  csch := [("CellID0", i32); ("CellID1", i32); ("Energy", f32); ("EnergyErr", f32); ("Time", f32); ("Pos", arr 3 f32); ("Type", i32); ("Raw", TPtr); ("&", TTag)]%string;
  ccnt := CInt;
  cwr := fun fl => [Fd "CellID0" i32] ++ when (test fl BitsRChID1) [Fd "CellID1" i32] ++ [Fd "Energy" f32] ++
    when (test fl BitsRChEnergyError) [Fd "EnergyErr" f32] ++ when (test fl BitsRChTime) [Fd "Time" f32] ++
    when (test fl BitsRChLong) [Fd "Pos" (arr 3 f32)] ++ [Fd "Type" i32; Fd "Raw" TPtr] ++ when (negb (test fl BitsRChNoPtr)) [tag];
  crd := fun fl v => [Fd "CellID0" i32] ++ when ((v =? 8) || test fl BitsRChID1) [Fd "CellID1" i32] ++ [Fd "Energy" f32] ++
    when ((1009 <? v) && test fl BitsRChEnergyError) [Fd "EnergyErr" f32] ++ when ((1002 <? v) && test fl BitsRChTime) [Fd "Time" f32] ++
    when (test fl BitsRChLong) [Fd "Pos" (arr 3 f32)] ++ when (1002 <? v) [Fd "Type" i32; Fd "Raw" TPtr] ++
    (if 1002 <? v then when (negb (test fl BitsRChNoPtr)) [tag] else when (test fl BitsRChNoPtr) [tag]) |}.
(* rawcalohit.go:101-106, 55-75 and 77-99 *)
Definition rawCaloHits : coll := {|
  csch := [("CellID0", i32); ("CellID1", i32); ("Amplitude", i32); ("TimeStamp", i32); ("&", TTag)]%string;
  ccnt := CInt;
  cwr := fun fl => [Fd "CellID0" i32] ++ when (test fl BitsRChID1) [Fd "CellID1" i32] ++ [Fd "Amplitude" i32] ++
    when (test fl BitsRChTime) [Fd "TimeStamp" i32] ++ when (negb (test fl BitsRChNoPtr)) [tag];
  crd := fun fl v => [Fd "CellID0" i32] ++ when ((v =? 8) || test fl BitsRChID1) [Fd "CellID1" i32] ++ [Fd "Amplitude" i32] ++
    when (test fl BitsRChTime) [Fd "TimeStamp" i32] ++ when (negb (test fl BitsRChNoPtr)) [tag] |}.
(* simcalohit.go:157-163 and 145-152, 75-104 and 106-143 *)
Definition contrib : sch := [("Mc", TPtr); ("Energy", f32); ("Time", f32); ("PDG", i32); ("StepPos", arr 3 f32)]%string.
Definition simCaloHits : coll := {|
  csch := [("Params", tparams); ("CellID0", i32); ("CellID1", i32); ("Energy", f32); ("Pos", arr 3 f32);
           ("Contributions", TSlice (TStruct (map snd contrib))); ("&", TTag)]%string;
  ccnt := CInt;
  cwr := fun fl => [Fd "CellID0" i32] ++ when (test fl BitsChID1) [Fd "CellID1" i32] ++ [Fd "Energy" f32] ++
    when (test fl BitsChLong) [Fd "Pos" (arr 3 f32)] ++
    [Vc "Contributions" CInt contrib ([Fd "Mc" TPtr; Fd "Energy" f32; Fd "Time" f32] ++
       when (test fl BitsChStep) [Fd "PDG" i32; Fd "StepPos" (arr 3 f32)])] ++ [tag];
  crd := fun fl v => [Fd "CellID0" i32] ++ when ((v <? 9) || test fl BitsChID1) [Fd "CellID1" i32] ++ [Fd "Energy" f32] ++
    when (test fl BitsChLong) [Fd "Pos" (arr 3 f32)] ++
    [Vc "Contributions" CInt contrib ([Fd "Mc" TPtr; Fd "Energy" f32; Fd "Time" f32] ++
       when (test fl BitsChStep) ([Fd "PDG" i32] ++ when (1051 <? v) [Fd "StepPos" (arr 3 f32)]))] ++ when (1000 <? v) [tag] |}.
(* simtrackerhit.go:21-31, 83-106 and 108-139 *)
Definition simTrackerHits : coll := {|
  csch := [("CellID0", i32); ("CellID1", i32); ("Pos", arr 3 f64); ("EDep", f32); ("Time", f32); ("Mc", TPtr); ("Momentum", arr 3 f32);
           ("PathLength", f32); ("Quality", i32); ("&", TTag)]%string;
  ccnt := CInt;
  cwr := fun fl => [Fd "CellID0" i32] ++ when (test fl BitsThID1) [Fd "CellID1" i32] ++
    [Fd "Pos" (arr 3 f64); Fd "EDep" f32; Fd "Time" f32; Fd "Mc" TPtr] ++
    when (test fl BitsThMomentum) [Fd "Momentum" (arr 3 f32); Fd "PathLength" f32] ++ [Fd "Quality" i32; tag];
  crd := fun fl v => [Fd "CellID0" i32] ++ when ((1051 <? v) && test fl BitsThID1) [Fd "CellID1" i32] ++
    [Fd "Pos" (arr 3 f64); Fd "EDep" f32; Fd "Time" f32; Fd "Mc" TPtr] ++
    when (test fl BitsThMomentum) ([Fd "Momentum" (arr 3 f32)] ++ when (1006 <? v) [Fd "PathLength" f32]) ++
    when (2007 <? v) [Fd "Quality" i32] ++ when (1000 <? v) [tag] |}.
(* trackerdata.go:20-25, 61-77 and 79-97 *)
Definition trackerData : coll := {|
  csch := [("CellID0", i32); ("CellID1", i32); ("Time", f32); ("Charges", TSlice f32); ("&", TTag)]%string;
  ccnt := CInt;
  cwr := fun fl => [Fd "CellID0" i32] ++ when (test fl BitsTRawID1) [Fd "CellID1" i32] ++ [Fd "Time" f32; Fd "Charges" (TSlice f32); tag];
  crd := fun fl v => [Fd "CellID0" i32] ++ when (test fl BitsTRawID1) [Fd "CellID1" i32] ++ [Fd "Time" f32; Fd "Charges" (TSlice f32); tag] |}.
(* trackerhit.go:21-32, 77-110 and 112-161 *)
Definition trackerHits : coll := {|
  csch := [("CellID0", i32); ("CellID1", i32); ("Type", i32); ("Pos", arr 3 f64); ("Cov", arr 6 f64); ("EDep", f32); ("EDepErr", f32);
           ("Time", f32); ("Quality", i32); ("RawHits", TSlice TPtr); ("&", TTag)]%string;
  ccnt := CInt;
  cwr := fun fl => [Fd "CellID0" i32] ++ when (test fl BitsThID1) [Fd "CellID1" i32] ++
    [Fd "Type" i32; Fd "Pos" (arr 3 f64); Nr "Cov" (arr 6 f64); Fd "EDep" f32; Fd "EDepErr" f32; Fd "Time" f32; Fd "Quality" i32; Ls "RawHits" CInt TPtr; tag];
  crd := fun fl v => when (1051 <? v) ([Fd "CellID0" i32] ++ when (test fl BitsThID1) [Fd "CellID1" i32]) ++
    when (1002 <? v) [Fd "Type" i32] ++ [Fd "Pos" (arr 3 f64); Nr "Cov" (arr 6 f64); Fd "EDep" f32] ++ when (1012 <? v) [Fd "EDepErr" f32] ++
    [Fd "Time" f32] ++ when (1011 <? v) [Fd "Quality" i32] ++ [Ls "RawHits" (if 1002 <? v then CInt else CFix 1) TPtr; tag] |}.
(* trackerhitplane.go:21-35, 82-111 and 113-155 *)
Definition trackerHitPlanes : coll := {|
  csch := [("CellID0", i32); ("CellID1", i32); ("Type", i32); ("Pos", arr 3 f64); ("U", arr 2 f32); ("V", arr 2 f32); ("DU", f32); ("DV", f32);
           ("EDep", f32); ("EDepErr", f32); ("Time", f32); ("Quality", i32); ("RawHits", TSlice TPtr); ("&", TTag)]%string;
  ccnt := CInt;
  cwr := fun fl => [Fd "CellID0" i32] ++ when (test fl BitsThID1) [Fd "CellID1" i32] ++
    [Fd "Type" i32; Fd "Pos" (arr 3 f64); Fd "U" (arr 2 f32); Fd "V" (arr 2 f32); Fd "DU" f32; Fd "DV" f32; Fd "EDep" f32; Fd "EDepErr" f32;
     Fd "Time" f32; Fd "Quality" i32; Ls "RawHits" CInt TPtr; tag];
  crd := fun fl v => when (1051 <? v) ([Fd "CellID0" i32] ++ when (test fl BitsThID1) [Fd "CellID1" i32]) ++ when (1002 <? v) [Fd "Type" i32] ++
    [Fd "Pos" (arr 3 f64); Fd "U" (arr 2 f32); Fd "V" (arr 2 f32); Fd "DU" f32; Fd "DV" f32; Fd "EDep" f32; Fd "EDepErr" f32; Fd "Time" f32] ++
    when (1011 <? v) [Fd "Quality" i32] ++ [Ls "RawHits" (if 1002 <? v then CInt else CFix 1) TPtr; tag] |}.
(* trackerhitzcylinder.go:21-34, 80-108 and 110-151 *)
Definition trackerHitZCylinders : coll := {|
  csch := [("CellID0", i32); ("CellID1", i32); ("Type", i32); ("Pos", arr 3 f64); ("Center", arr 2 f32); ("DRPhi", f32); ("DZ", f32);
           ("EDep", f32); ("EDepErr", f32); ("Time", f32); ("Quality", i32); ("RawHits", TSlice TPtr); ("&", TTag)]%string;
  ccnt := CInt;
  cwr := fun fl => [Fd "CellID0" i32] ++ when (test fl BitsThID1) [Fd "CellID1" i32] ++
    [Fd "Type" i32; Fd "Pos" (arr 3 f64); Fd "Center" (arr 2 f32); Fd "DRPhi" f32; Fd "DZ" f32; Fd "EDep" f32; Fd "EDepErr" f32;
     Fd "Time" f32; Fd "Quality" i32; Ls "RawHits" CInt TPtr; tag];
  crd := fun fl v => when (1051 <? v) ([Fd "CellID0" i32] ++ when (test fl BitsThID1) [Fd "CellID1" i32]) ++ when (1002 <? v) [Fd "Type" i32] ++
    [Fd "Pos" (arr 3 f64); Fd "Center" (arr 2 f32); Fd "DRPhi" f32; Fd "DZ" f32; Fd "EDep" f32; Fd "EDepErr" f32; Fd "Time" f32] ++
    when (1011 <? v) [Fd "Quality" i32] ++ [Ls "RawHits" (if 1002 <? v then CInt else CFix 1) TPtr; tag] |}.
(* trackerpulse.go:20-28, 67-88 and 90-113 *)
Definition trackerPulses : coll := {|
  csch := [("CellID0", i32); ("CellID1", i32); ("Time", f32); ("Charge", f32); ("Cov", arr 3 f32); ("Quality", i32); ("TPC", TPtr); ("&", TTag)]%string;
  ccnt := CInt;
  cwr := fun fl => [Fd "CellID0" i32] ++ when (test fl BitsTRawID1) [Fd "CellID1" i32] ++ [Fd "Time" f32; Fd "Charge" f32] ++
    when (test fl BitsTRawCM) [Fd "Cov" (arr 3 f32)] ++ [Fd "Quality" i32; Fd "TPC" TPtr; tag];
  crd := fun fl v => [Fd "CellID0" i32] ++ when (test fl BitsTRawID1) [Fd "CellID1" i32] ++ [Fd "Time" f32; Fd "Charge" f32] ++
    when ((1012 <? v) && test fl BitsTRawCM) [Fd "Cov" (arr 3 f32)] ++ [Fd "Quality" i32; Fd "TPC" TPtr; tag] |}.
(* trackerrawdata.go:20-25, 61-85 and 87-114 *)
Definition trackerRawData : coll := {|
  csch := [("CellID0", i32); ("CellID1", i32); ("Time", i32); ("ADCs", TSlice (TU 2)); ("&", TTag)]%string;
  ccnt := CInt;
  cwr := fun fl => [Fd "CellID0" i32] ++ when (test fl BitsTRawID1) [Fd "CellID1" i32] ++ [Fd "Time" i32; Ad "ADCs"; tag];
  crd := fun fl v => [Fd "CellID0" i32] ++ when (test fl BitsTRawID1) [Fd "CellID1" i32] ++ [Fd "Time" i32; Ad "ADCs"; tag] |}.
(* track.go:69-78 and 21-32, 116-157 and 159-210 *)
Definition trackState : sch :=
  [("Loc", i32); ("D0", f32); ("Phi", f32); ("Omega", f32); ("Z0", f32); ("TanL", f32); ("Cov", arr 15 f32); ("Ref", arr 3 f32)]%string.
Definition tracks : coll := {|
  csch := [("Type", i32); ("States", TSlice (TStruct (map snd trackState))); ("Chi2", f32); ("NdF", i32); ("DEdx", f32); ("DEdxErr", f32); ("Radius", f32);
           ("SubDetHits", TSlice i32); ("Tracks", TSlice TPtr); ("Hits", TSlice TPtr); ("&", TTag)]%string;
  ccnt := CInt;
  cwr := fun fl => [Fd "Type" i32] ++
    [Vc "States" CInt trackState [Fd "Loc" i32; Fd "D0" f32; Fd "Phi" f32; Fd "Omega" f32; Fd "Z0" f32; Fd "TanL" f32; Fd "Cov" (arr 15 f32); Fd "Ref" (arr 3 f32)]] ++
    [Fd "Chi2" f32; Fd "NdF" i32; Fd "DEdx" f32; Fd "DEdxErr" f32; Fd "Radius" f32; Fd "SubDetHits" (TSlice i32); Ls "Tracks" CInt TPtr] ++
    when (test fl BitsTrHits) [Ls "Hits" CInt TPtr] ++ [tag];
  crd := fun fl v => [Fd "Type" i32] ++
    [Vc "States" (if 2000 <=? v then CInt else CFix 1) trackState (when (2000 <=? v) [Fd "Loc" i32] ++
       [Fd "D0" f32; Fd "Phi" f32; Fd "Omega" f32; Fd "Z0" f32; Fd "TanL" f32; Fd "Cov" (arr 15 f32); Fd "Ref" (arr 3 f32)])] ++
    [Fd "Chi2" f32; Fd "NdF" i32; Fd "DEdx" f32; Fd "DEdxErr" f32; Fd "Radius" f32; Fd "SubDetHits" (TSlice i32); Ls "Tracks" CInt TPtr] ++
    when (test fl BitsTrHits) [Ls "Hits" CInt TPtr] ++ [tag] |}.
(* recparticle.go:38-44; the identity of a particle id is used by recparticle.go only *)
Definition pid : sch := [("Likelihood", f32); ("Type", i32); ("PDG", i32); ("AlgType", i32); ("Params", TSlice f32); ("&", TTag)]%string.
Definition pid_ops : list op := [Fd "Likelihood" f32; Fd "Type" i32; Fd "PDG" i32; Fd "AlgType" i32; Fd "Params" (TSlice f32)].
(* cluster.go:21-39, 100-144 and 146-215 *)
Definition clusters : coll := {|
  csch := [("Type", i32); ("Energy", f32); ("EnergyErr", f32); ("Pos", arr 3 f32); ("PosErr", arr 6 f32); ("Theta", f32); ("Phi", f32); ("DirErr", arr 3 f32);
           ("Shape", TSlice f32); ("PIDs", TSlice (TStruct (map snd pid))); ("Clusters", TSlice TPtr); ("Hits", TSlice TPtr); ("Weights", TSlice f32);
           ("SubDetEnes", TSlice f32); ("&", TTag)]%string;
  ccnt := CInt;
  cwr := fun fl => [Fd "Type" i32; Fd "Energy" f32; Fd "EnergyErr" f32; Fd "Pos" (arr 3 f32); Fd "PosErr" (arr 6 f32); Fd "Theta" f32; Fd "Phi" f32; Fd "DirErr" (arr 3 f32);
    Fd "Shape" (TSlice f32); Vc "PIDs" CInt pid pid_ops; Ls "Clusters" CInt TPtr] ++
    when (test fl BitsClHits) [Pr "Hits" "Weights"] ++ [Fd "SubDetEnes" (TSlice f32); tag];
  crd := fun fl v => [Fd "Type" i32; Fd "Energy" f32] ++ when (1051 <? v) [Fd "EnergyErr" f32] ++
    [Fd "Pos" (arr 3 f32); Fd "PosErr" (arr 6 f32); Fd "Theta" f32; Fd "Phi" f32; Fd "DirErr" (arr 3 f32)] ++
    [Ls "Shape" (if 1002 <? v then CInt else CFix 6) f32] ++
    (if 1002 <? v then [Vc "PIDs" CInt pid pid_ops] else [Sk (arr 3 f32)]) ++ [Ls "Clusters" CInt TPtr] ++
    when (test fl BitsClHits) [Pr "Hits" "Weights"] ++ [Fd "SubDetEnes" (TSlice f32); tag] |}.
(* vertex.go:21-30, 68-86 and 88-108 *)
Definition vertices : coll := {|
  csch := [("Primary", i32); ("AlgType", i32); ("Chi2", f32); ("Prob", f32); ("Pos", arr 3 f32); ("Cov", arr 6 f32); ("Params", TSlice f32); ("RecPart", TPtr); ("&", TTag)]%string;
  ccnt := CInt;
  cwr := fun fl => [Fd "Primary" i32; Fd "AlgType" i32; Fd "Chi2" f32; Fd "Prob" f32; Fd "Pos" (arr 3 f32); Fd "Cov" (arr 6 f32); Fd "Params" (TSlice f32); Fd "RecPart" TPtr; tag];
  crd := fun fl v => [Fd "Primary" i32; Fd "AlgType" i32; Fd "Chi2" f32; Fd "Prob" f32; Fd "Pos" (arr 3 f32); Fd "Cov" (arr 6 f32); Fd "Params" (TSlice f32); Fd "RecPart" TPtr; tag] |}.
(* recparticle.go:21-36, 82-130 and 132-194; versions up to 1002 are refused there *)
Definition recParticles : coll := {|
  csch := [("Type", i32); ("P", arr 3 f32); ("Energy", f32); ("Cov", arr 10 f32); ("Mass", f32); ("Charge", f32); ("Ref", arr 3 f32);
           ("PIDs", TSlice (TStruct (map snd pid))); ("PIDUsed", TPtr); ("GoodnessOfPID", f32); ("Recs", TSlice TPtr); ("Tracks", TSlice TPtr);
           ("Clusters", TSlice TPtr); ("StartVtx", TPtr); ("&", TTag)]%string;
  ccnt := CInt;
  cwr := fun fl => [Fd "Type" i32; Fd "P" (arr 3 f32); Fd "Energy" f32; Fd "Cov" (arr 10 f32); Fd "Mass" f32; Fd "Charge" f32; Fd "Ref" (arr 3 f32);
    Vc "PIDs" CInt pid (pid_ops ++ [tag]); Fd "PIDUsed" TPtr; Fd "GoodnessOfPID" f32; Ls "Recs" CInt TPtr; Ls "Tracks" CInt TPtr; Ls "Clusters" CInt TPtr;
    Fd "StartVtx" TPtr; tag];
  crd := fun fl v => [Fd "Type" i32; Fd "P" (arr 3 f32); Fd "Energy" f32; Fd "Cov" (arr 10 f32); Fd "Mass" f32; Fd "Charge" f32; Fd "Ref" (arr 3 f32);
    Vc "PIDs" CInt pid (pid_ops ++ [tag]); Fd "PIDUsed" TPtr; Fd "GoodnessOfPID" f32; Ls "Recs" CInt TPtr; Ls "Tracks" CInt TPtr; Ls "Clusters" CInt TPtr] ++
    when (1007 <? v) [Fd "StartVtx" TPtr] ++ [tag] |}.
(* mc.go:152-167, 108-122, 260-285 and 287-336; the elements are written by Encode of the slice, each with its methods *)
Definition mcParticles : coll := {|
  csch := [("Parents", TSlice TPtr); ("Children", TSlice TPtr); ("PDG", i32); ("GenStatus", i32); ("SimStatus", TU 4); ("Vertex", arr 3 f64); ("Time", f32);
           ("P", arr 3 f64); ("Mass", f64); ("Charge", f32); ("endPoint", arr 3 f64); ("PEndPoint", arr 3 f64); ("Spin", arr 3 f32); ("ColorFlow", arr 2 i32); ("&", TTag)]%string;
  ccnt := CUint;
  cwr := fun fl => [tag; Ls "Parents" CPos TPtr; Fd "PDG" i32; Fd "GenStatus" i32; Fd "SimStatus" (TU 4); Fd "Vertex" (arr 3 f64); Fd "Time" f32;
    Nr "P" (arr 3 f64); Nr "Mass" f64; Fd "Charge" f32; Bt "SimStatus" bit31 [Fd "endPoint" (arr 3 f64); Nr "PEndPoint" (arr 3 f64)];
    Fd "Spin" (arr 3 f32); Fd "ColorFlow" (arr 2 i32)];
  crd := fun fl v => [tag; Ls "Parents" CPos TPtr; Fd "PDG" i32; Fd "GenStatus" i32; Fd "SimStatus" (TU 4); Fd "Vertex" (arr 3 f64)] ++ when (1002 <? v) [Fd "Time" f32] ++
    [Nr "P" (arr 3 f64); Nr "Mass" f64; Fd "Charge" f32; Bt "SimStatus" bit31 ([Fd "endPoint" (arr 3 f64)] ++ when (2006 <? v) [Nr "PEndPoint" (arr 3 f64)])] ++
    when (1051 <? v) [Fd "Spin" (arr 3 f32); Fd "ColorFlow" (arr 2 i32)] |}.
(* collections.go:422-426, 455-469 and 471-487 *)
Definition relations : coll := {|
  csch := [("From", TPtr); ("To", TPtr); ("Weight", f32)]%string;
  ccnt := CInt;
  cwr := fun fl => [Fd "From" TPtr; Fd "To" TPtr] ++ when (test fl BitsRelWeighted) [Fd "Weight" f32];
  crd := fun fl v => [Fd "From" TPtr; Fd "To" TPtr] ++ when (test fl BitsRelWeighted) [Fd "Weight" f32] |}.
(* collections.go:489-493, 499-509 and 511-523 *)
Definition references : coll := {|
  csch := [("Ref", TPtr)]%string; ccnt := CInt; cwr := fun fl => [Fd "Ref" TPtr]; crd := fun fl v => [Fd "Ref" TPtr] |}.

(* ---- generic objects ---- *)
Definition genericObjects : sch := [("I32s", TSlice i32); ("F32s", TSlice f32); ("F64s", TSlice f64); ("&", TTag)]%string.
Definition counts3 (x : obj Z Z) : list Z :=
  u32b (zlen (list_of (fget "I32s" x))) ++ u32b (zlen (list_of (fget "F32s" x))) ++ u32b (zlen (list_of (fget "F64s" x))).
(* collections.go:326-369 *)
Definition marshalGeneric (d : data Z Z) : wids -> res (option (list Z * wids)) :=
  let fixed := test (dflags d) BitsGOFixed in
  wseq (enc true (TU 4) (VInt (dflags d))) (wseq (wparams (dparams d)) (wseq
    (wbytes (if fixed then counts3 (match delems d with x :: _ => x | [] => [] end) else []))
    (wseq (wbytes (u32b (zlen (delems d)))) (enc_all (fun x =>
       wseq (wbytes (if fixed then [] else counts3 x))
         (wseq (enc_all (enc true i32) (list_of (fget "I32s" x))) (wseq (enc_all (enc true f32) (list_of (fget "F32s" x)))
           (wseq (enc_all (enc true f64) (list_of (fget "F64s" x))) (enc true TTag (fget "&" x)))))) (delems d))))).
Definition rcounts3 : rd (nat * nat * nat) :=
  dbind (rcount CInt) (fun a => dbind (rcount CInt) (fun b => dbind (rcount CInt) (fun c => dret (a, b, c)))).
(* collections.go:371-414; negative sizes fail even when there are no objects (a simplification) *)
Definition unmarshalGeneric : rd (data nat Z) :=
  dbind (dec (TU 4)) (fun fl => dbind rparams (fun p =>
    let fixed := test (int_of fl) BitsGOFixed in
    dbind (if fixed then rcounts3 else dret (O, O, O)) (fun sz =>
    dbind (rcount CInt) (fun n => dbind (drep n
      (dbind (if fixed then dret sz else rcounts3) (fun s => let '(a, b, c) := s in
        dbind (drep a (dec i32)) (fun x => dbind (drep b (dec f32)) (fun y => dbind (drep c (dec f64)) (fun z => dbind (dec TTag) (fun k =>
          dret [("I32s", VList x); ("F32s", VList y); ("F64s", VList z); ("&", k)]%string)))))))
      (fun es => dret {| dflags := int_of fl; dparams := p; delems := es |}))))).

(* ---- vectors of vectors: LCFloatVec, LCIntVec and LCStrVec with elements of type t ---- *)
Definition vecs (t : ty) : sch := [("Elements", TSlice t); ("&", TTag)]%string.
(* collections.go:66-82, 146-162 and 226-242; Encode(vec.Elements) is line 70; the version of the writer is that of the block *)
Definition marshalVec (t : ty) (d : data Z Z) : wids -> res (option (list Z * wids)) :=
  wseq (enc true (TU 4) (VInt (dflags d))) (wseq (wparams (dparams d)) (wseq
    (enc true (TSlice (TSlice t)) (VList (map (fget "Elements") (delems d))))
    (wseq (wbytes (u32b (zlen (delems d)))) (enc_all (fun x =>
       wseq (wbytes (u32b (zlen (list_of (fget "Elements" x))))) (wseq (enc_all (enc true t) (list_of (fget "Elements" x))) (enc true TTag (fget "&" x)))) (delems d))))).
(* collections.go:84-103, 164-183 and 244-263 *)
Definition unmarshalVec (t : ty) (v : Z) : rd (data nat Z) :=
  dbind (dec (TU 4)) (fun fl => dbind rparams (fun p => dbind (rcount CInt) (fun n => dbind (drep n
    (dbind (rcount CInt) (fun k => dbind (drep k (dec t)) (fun x => dbind (if 1002 <? v then dec TTag else dret (VInt 0)) (fun g =>
      dret [("Elements", VList x); ("&", g)]%string)))))
    (fun es => dret {| dflags := int_of fl; dparams := p; delems := es |})))).

(* ---- headers ---- *)
(* lcio/event.go:43-61 and 97-117: the parameters are sorted *)
Definition trunhdr : ty := TStruct [i32; TStr; TStr; TSlice TStr; tparams].
Definition tevthdr : ty := TStruct [i32; i32; TS 8; TStr; TSlice (TStruct [TStr; TStr]); tparams].

(* ---- names of types ---- *)
Inductive ctype := CMcParticle | CSimTrackerHit | CSimCalorimeterHit | CFloatVec | CIntVec | CStrVec | CRawCalorimeterHit | CCalorimeterHit | CTrackerData
| CTrackerHit | CTrackerHitPlane | CTrackerHitZCylinder | CTrackerPulse | CTrackerRawData | CTrack | CCluster | CVertex | CRecParticle | CGenericObject | CRelation | CReferences.
Definition has_suffix (s suf : string) : bool := (suf =? substring (length s - length suf) (length suf) s)%string && (length suf <=? length s)%nat.
(* types.go:12-60 *)
Definition typeFrom (n : string) : res ctype :=
  (if n =? "MCParticle" then Ok CMcParticle else if n =? "SimTrackerHit" then Ok CSimTrackerHit
  else if n =? "SimCalorimeterHit" then Ok CSimCalorimeterHit else if n =? "LCFloatVec" then Ok CFloatVec
  else if n =? "LCIntVec" then Ok CIntVec else if n =? "LCStrVec" then Ok CStrVec
  else if n =? "RawCalorimeterHit" then Ok CRawCalorimeterHit else if n =? "CalorimeterHit" then Ok CCalorimeterHit
  else if n =? "TrackerData" then Ok CTrackerData else if n =? "TrackerHit" then Ok CTrackerHit
  else if n =? "TrackerHitPlane" then Ok CTrackerHitPlane else if n =? "TrackerHitZCylinder" then Ok CTrackerHitZCylinder
  else if n =? "TrackerPulse" then Ok CTrackerPulse else if n =? "TrackerRawData" then Ok CTrackerRawData
  else if n =? "Track" then Ok CTrack else if n =? "Cluster" then Ok CCluster else if n =? "Vertex" then Ok CVertex
  else if n =? "ReconstructedParticle" then Ok CRecParticle else if n =? "LCGenericObject" then Ok CGenericObject
  else if n =? "LCRelation" then Ok CRelation else if has_suffix n "_References" then Ok CReferences else Panic)%string.
(* types.go:62-107 *)
Definition typeName (c : ctype) : res string :=
  match c with
  | CMcParticle => Ok "MCParticle" | CSimTrackerHit => Ok "SimTrackerHit" | CSimCalorimeterHit => Ok "SimCalorimeterHit"
  | CFloatVec => Ok "LCFloatVec" | CIntVec => Ok "LCIntVec" | CStrVec => Ok "LCStrVec" | CRawCalorimeterHit => Ok "RawCalorimeterHit"
  | CCalorimeterHit => Ok "CalorimeterHit" | CTrackerData => Ok "TrackerData" | CTrackerHit => Ok "TrackerHit" | CTrackerHitPlane => Ok "TrackerHitPlane"
  | CTrackerHitZCylinder => Ok "TrackerHitZCylinder" | CTrackerPulse => Ok "TrackerPulse" | CTrackerRawData => Ok "TrackerRawData"
  | CTrack => Ok "Track" | CCluster => Ok "Cluster" | CVertex => Ok "Vertex" | CRecParticle => Ok "ReconstructedParticle"
  | CGenericObject => Ok "LCGenericObject" | CRelation => Ok "LCRelation"
  | CReferences => Panic
  end%string.

(* the methods of the containers and of their elements *)
Definition coll_of (c : ctype) : option coll :=
  match c with
  | CMcParticle => Some mcParticles | CSimTrackerHit => Some simTrackerHits | CSimCalorimeterHit => Some simCaloHits
  | CRawCalorimeterHit => Some rawCaloHits | CCalorimeterHit => Some caloHits | CTrackerData => Some trackerData
  | CTrackerHit => Some trackerHits | CTrackerHitPlane => Some trackerHitPlanes | CTrackerHitZCylinder => Some trackerHitZCylinders
  | CTrackerPulse => Some trackerPulses | CTrackerRawData => Some trackerRawData | CTrack => Some tracks | CCluster => Some clusters
  | CVertex => Some vertices | CRecParticle => Some recParticles | CRelation => Some relations | CReferences => Some references
  | CFloatVec | CIntVec | CStrVec | CGenericObject => None
  end.
Definition sch_of (c : ctype) : sch :=
  match c with
  | CFloatVec => vecs f32 | CIntVec => vecs i32 | CStrVec => vecs TStr | CGenericObject => genericObjects
  | _ => match coll_of c with Some k => csch k | None => [] end
  end.
Definition marshal_of (c : ctype) (d : data Z Z) : wids -> res (option (list Z * wids)) :=
  match c with
  | CFloatVec => marshalVec f32 d | CIntVec => marshalVec i32 d | CStrVec => marshalVec TStr d | CGenericObject => marshalGeneric d
  | _ => match coll_of c with Some k => marshal k d | None => fun s => wret ([], s) end
  end.
Definition unmarshal_of (c : ctype) (v : Z) : rd (data nat Z) :=
  match c with
  | CFloatVec => unmarshalVec f32 v | CIntVec => unmarshalVec i32 v | CStrVec => unmarshalVec TStr v | CGenericObject => unmarshalGeneric
  | _ => match coll_of c with Some k => unmarshal k v | None => dfail end
  end.

(* ---- the index of a file ---- *)
Record offset := { orun : Z; oevt : Z; oloc : Z }.
(* meta.go:72-102; a uint32 & 2 is never 1, nor is & 4, so that the parameters of an entry (left out
   of [offset]) are never read *)
Definition roffset (cw : Z) : rd offset :=
  dbind (if Z.land cw 1 =? 0 then dec i32 else dret (VInt 0)) (fun r => dbind (dec i32) (fun e =>
  dbind (if Z.land cw 2 =? 1 then dec (TS 8) else dec i32) (fun l =>
  dbind (if Z.land cw 4 =? 1 then dec (TStruct [TSlice i32; TSlice f32; TSlice TStr]) else dret (VInt 0)) (fun _ =>
    dret {| orun := int_of r; oevt := int_of e; oloc := int_of l |})))).
Definition rindex : rd (Z * Z * Z * list offset) :=
  dbind (dec (TU 4)) (fun cw => dbind (dec i32) (fun rmin => dbind (dec (TS 8)) (fun base => dbind (rcount CInt) (fun n =>
  dbind (drep n (roffset (int_of cw))) (fun os => dret (int_of cw, int_of rmin, int_of base, os)))))).

(* ---- the record of an event ---- *)
(* meta.go:12-14; all containers return it as their version *)
Definition Version : Z := 2 * 2 ^ 16 + 8.
(* a block: its name, its version and what MarshalSio writes *)
Record gblk := { gname : str; gver : Z; gwrite : wids -> res (option (list Z * wids)) }.
(* sio/record.go:225-286 *)
Definition grec_write (bs : list gblk) : res (option (list Z * wids)) :=
  enc_all (fun b s => wbind (gwrite b s) (fun r => wret (blk_bytes (gname b) (gver b) (fst r), snd r))) bs (0, []).
(* sio/sio.go:99-103 *)
Definition versionSio (v : Z) : Z := Z.shiftr v 16 * 1000 + Z.land v 0xffff.
(* sio/record.go:128-223 *)
Fixpoint grec_loop {B} (fuel : nat) (conn : list (str * (Z -> rd B))) (acc : list (str * (Z * B))) (s : rst) : res (option (list (str * (Z * B)) * rst)) :=
  match fuel with
  | O => Ok None
  | S fuel' =>
      match rl s with
      | [] => wret (acc, s)
      | _ =>
        match (h <~~ pbe 4 ;; m <~~ pbe 4 ;; _ <~~ pguard (m =? blkMarker) ;; v <~~ pbe 4 ;; k <~~ pbe 4 ;;
               b <~~ take (Z.to_nat (align4U32 k)) ;; _ <~~ pguard (k <=? align4U32 k) ;; pret (h, v, firstn (Z.to_nat k) b)) (rl s) with
        | None => Ok None
        | Some ((h, v, n), l) =>
            let s1 := {| rl := l; rn := rn s; rtags := rtags s |} in
            let r := match lookup n conn with
                     | None => Some (acc, s1)
                     | Some d => match d (versionSio v) s1 with
                                 | None => None
                                 | Some (x, s2) => if zlen (rl s) - zlen (rl s2) =? h then Some (acc ++ [(n, (v, x))], s2) else None
                                 end
                     end in
            match r with
            | None => Ok None
            | Some (acc', s2) =>
                let go l' := grec_loop fuel' conn acc' {| rl := l'; rn := rn s2; rtags := rtags s2 |} in
                match rl s2 with
                | [] => go []
                | _ => match mark_index (rl s2) with
                       | None | Some O => go []
                       | Some next => if (next <? 4)%nat then Panic else go (skipn (next - 4) (rl s2))
                       end
                end
            end
        end
      end
  end.
(* the pointers of what was read are relocated once all blocks are there; [rel] does so for a block *)
Definition dmap {T P T' P'} (f : T -> T') (g : P -> P') (d : data T P) : data T' P' :=
  {| dflags := dflags d; dparams := vmap f g (dparams d); delems := map (map (fun fv => (fst fv, vmap f g (snd fv)))) (delems d) |}.
Definition grec_read {B B'} (rel : (Z -> option nat) -> B -> B') (perm : list (nat * Z) -> list (nat * Z)) (conn : list (str * (Z -> rd B))) (buf : list Z) :
  res (option (list (str * (Z * B')))) :=
  wbind (grec_loop (S (List.length buf)) conn [] {| rl := buf; rn := O; rtags := [] |}) (fun r =>
    wret (map (fun b => (fst b, (fst (snd b), rel (relocate (perm (rtags (snd r)))) (snd (snd b))))) (fst r))).

(* mc.go:124-150 LinkSio for a version above 8: every particle is added to the children of its parents; the objects
   of a record are numbered, [ch] holds their children, [ps] the particles of the collection with their parents *)
Definition add_child (c : nat) (m : nat) (ch : list (list nat)) : list (list nat) :=
  match nth_error ch m with Some l => firstn m ch ++ (l ++ [c]) :: skipn (S m) ch | None => ch end.
Definition link (ps : list (nat * list (option nat))) (ch : list (list nat)) : list (list nat) :=
  fold_left (fun ch ip => fold_left (fun ch p => match p with Some m => add_child (fst ip) m ch | None => ch end) (snd ip) ch) ps ch.
(* a collection of an event: its name, its type and its data *)
Definition named := (str * (ctype * data Z Z))%type.
(* lcio/writer.go:167-177: the blocks connected to the record of an event *)
Definition evt_blk (b : named) : gblk := {| gname := fst b; gver := Version; gwrite := marshal_of (fst (snd b)) (snd (snd b)) |}.
End Conv.
Arguments dflags {T P}. Arguments dparams {T P}. Arguments delems {T P}.
