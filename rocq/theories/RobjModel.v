(* Model of the object graph part of groot: pointers to objects written to and read from a
   buffer with WriteObjectAny / ReadObjectAny, and the classes whose contents are such
   pointers (TList, THashList, TObjArray, TMap) or plain values (TNamed, TObjString,
   TRefArray).

   A pointer is an index in a heap (nil is None): two pointers are the same pointer when the
   indices are equal.  The buffers are those of RbytesModel.  Running out of fuel stands for
   the unbounded recursion of the code (a fatal stack overflow in Go) and gives Panic. *)
From Coq Require Import ZArith List Bool Arith.
From Verif Require Import GoLib Bytes GoStrings RbytesModel.
Import ListNotations.
Local Open Scope Z_scope.

Definition ptr := option nat.

(* groot/rbase/object.go:16-19 Object *)
Record tobj := { tID : Z; tBits : Z }.

(* groot/rbase/named.go:21-25 Named, groot/rbase/objstring.go:16-19 ObjString,
   groot/rcont/list.go:18-23 List (objs and opts have the same length: list.go:25-33 and
   70-73, so they are one list of pairs), 142-144 HashList, groot/rcont/objarray.go:17-23
   ObjArray (last is computed from objs), groot/rcont/map.go:19-23 Map (the table as the
   list of its entries in the order in which range visits them),
   groot/rcont/refarray.go:18-25 RefArray (last is computed from refs) *)
Inductive robj :=
| ONamed (o : tobj) (name title : list Z)
| OObjString (o : tobj) (str : list Z)
| OList (hash : bool) (o : tobj) (name : list Z) (els : list (ptr * list Z))
| OArr (o : tobj) (name : list Z) (low : Z) (els : list ptr)
| OMap (o : tobj) (name : list Z) (tbl : list (ptr * ptr))
| ORefArr (o : tobj) (name : list Z) (lower : Z) (refs : list Z).

Definition sTNamed : list Z := [84;78;97;109;101;100].
Definition sTObjString : list Z := [84;79;98;106;83;116;114;105;110;103].
Definition sTList : list Z := [84;76;105;115;116].
Definition sTHashList : list Z := [84;72;97;115;104;76;105;115;116].
Definition sTObjArray : list Z := [84;79;98;106;65;114;114;97;121].
Definition sTMap : list Z := [84;77;97;112].
Definition sTRefArray : list Z := [84;82;101;102;65;114;114;97;121].

(* the Class methods: named.go:52-54, objstring.go:33-35, list.go:39-41 and 150-152,
   objarray.go:36-38, map.go:34, refarray.go:38-40 *)
Definition class_of (o : robj) : list Z :=
  match o with
  | ONamed _ _ _ => sTNamed
  | OObjString _ _ => sTObjString
  | OList false _ _ _ => sTList
  | OList true _ _ _ => sTHashList
  | OArr _ _ _ _ => sTObjArray
  | OMap _ _ _ => sTMap
  | ORefArr _ _ _ _ => sTRefArray
  end.

(* groot/rbase/consts.go:8,10 *)
Definition kIsOnHeap : Z := 2 ^ 24.
Definition kIsReferenced : Z := 2 ^ 4.
(* groot/rbytes/consts.go:13 *)
Definition kByteCountVMask : Z := 2 ^ 14.

(* groot/rvers/versions_gen.go:21-23,42,45-47 *)
Definition vNamed : Z := 1.
Definition vObject : Z := 1.
Definition vObjString : Z := 1.
Definition vList : Z := 5.
Definition vMap : Z := 3.
Definition vObjArray : Z := 3.
Definition vRefArray : Z := 1.

Fixpoint lookup {K V} (eqb : K -> K -> bool) (k : K) (l : list (K * V)) : option V :=
  match l with
  | [] => None
  | (k', v) :: t => if eqb k k' then Some v else lookup eqb k t
  end.

(* ------------------------------------------------------------------ writing *)
(* groot/rbytes/wbuffer.go:63-69 WBuffer: the buffer, and the references (a map whose keys
   are objects, by address, and class names): the last assignment is the first entry *)
Record wst := { wb : wbuf; wro : list (nat * Z); wrc : list (list Z * Z) }.
Definition on_wb (f : wbuf -> res wbuf) (s : wst) : res wst :=
  do w <- f (wb s); Ok {| wb := w; wro := wro s; wrc := wrc s |}.
Definition set_ro (i : nat) (p : Z) (s : wst) : wst := {| wb := wb s; wro := (i, p) :: wro s; wrc := wrc s |}.
Definition set_rc (c : list Z) (p : Z) (s : wst) : wst := {| wb := wb s; wro := wro s; wrc := (c, p) :: wrc s |}.

Section Writer.
Variable junk : nat -> Z.
Variable heap : list robj.

(* groot/rbase/object.go:54-70 MarshalROOT of an Object (embedded, not through a pointer) *)
Definition mar_obj (o : tobj) (w : wbuf) : res wbuf :=
  do w <- WriteInt junk 2 vObject w;
  if negb (Z.land (tBits o) kIsReferenced =? 0) then
    do w <- WriteInt junk 4 (Z.land (tID o) (2 ^ 24 - 1)) w;
    do w <- WriteInt junk 4 (tBits o) w;
    WriteInt junk 2 0 w
  else
    do w <- WriteInt junk 4 (tID o) w;
    WriteInt junk 4 (tBits o) w.

Section Marshal.
(* how a pointer is written *)
Variable any : ptr -> wst -> res wst.

(* the loops of list.go:84-87, objarray.go:95-97, map.go:57-60 *)
Fixpoint mar_els (els : list (ptr * list Z)) (s : wst) : res wst :=
  match els with
  | [] => Ok s
  | (p, opt) :: t => do s <- any p s; do s <- on_wb (WriteString junk opt) s; mar_els t s
  end.
Fixpoint mar_ptrs (els : list ptr) (s : wst) : res wst :=
  match els with [] => Ok s | p :: t => do s <- any p s; mar_ptrs t s end.
Fixpoint mar_tbl (tbl : list (ptr * ptr)) (s : wst) : res wst :=
  match tbl with [] => Ok s | (k, v) :: t => do s <- any k s; do s <- any v s; mar_tbl t s end.

(* hdr := w.WriteHeader(class, version); body; return w.SetHeader(hdr) *)
Definition with_header (name : list Z) (vers : Z) (body : wst -> res wst) (s : wst) : res wst :=
  if werr (wb s) then Ok s
  else
    do hw <- WriteHeader junk name vers (wb s);
    do s <- body {| wb := snd hw; wro := wro s; wrc := wrc s |};
    do nw <- SetHeader junk (fst hw) (wb s);
    Ok {| wb := snd nw; wro := wro s; wrc := wrc s |}.

Definition marshal (o : robj) : wst -> res wst :=
  match o with
  (* named.go:89-99 *)
  | ONamed o name title => with_header sTNamed vNamed (fun s =>
      do s <- on_wb (mar_obj o) s;
      do s <- on_wb (WriteString junk name) s;
      on_wb (WriteString junk title) s)
  (* objstring.go:64-73 *)
  | OObjString o str => with_header sTObjString vObjString (fun s =>
      do s <- on_wb (mar_obj o) s;
      on_wb (WriteString junk str) s)
  (* list.go:75-90, and 154-156 of HashList: the header of a THashList is that of a TList *)
  | OList _ o name els => with_header sTList vList (fun s =>
      do s <- on_wb (mar_obj o) s;
      do s <- on_wb (WriteString junk name) s;
      do s <- on_wb (WriteInt junk 4 (Z.of_nat (length els))) s;
      mar_els els s)
  (* objarray.go:83-100 *)
  | OArr o name low els => with_header sTObjArray vObjArray (fun s =>
      do s <- on_wb (mar_obj o) s;
      do s <- on_wb (WriteString junk name) s;
      do s <- on_wb (WriteInt junk 4 (Z.of_nat (length els))) s;
      do s <- on_wb (WriteInt junk 4 low) s;
      mar_ptrs els s)
  (* map.go:46-63 *)
  | OMap o name tbl => with_header sTMap vMap (fun s =>
      do s <- on_wb (mar_obj o) s;
      do s <- on_wb (WriteString junk name) s;
      do s <- on_wb (WriteInt junk 4 (Z.of_nat (length tbl))) s;
      mar_tbl tbl s)
  (* refarray.go:73-88 *)
  | ORefArr o name lower refs => with_header sTRefArray vRefArray (fun s =>
      do s <- on_wb (mar_obj o) s;
      do s <- on_wb (WriteString junk name) s;
      do s <- on_wb (WriteInt junk 4 (Z.of_nat (length refs))) s;
      do s <- on_wb (WriteInt junk 4 lower) s;
      do s <- on_wb (WriteInt junk 2 0) s;
      on_wb (WriteArrayInt junk 4 refs) s)
  end.

(* wbuffer.go:199-241 WriteClass: what goes after the byte count, and the byte count *)
Definition WriteClass (beg : Z) (i : nat) (s : wst) : res (Z * wst) :=
  if werr (wb s) then Ok (0, s)
  else
    let start := wPos (wb s) in
    let bcnt (s : wst) := wrapU 32 (Z.lor (wPos (wb s) - start) kByteCountMask) in
    match lookup Nat.eqb i (wro s) with
    | Some ref =>
        do s <- on_wb (WriteInt junk 4 (wrapU 32 ref)) s;
        Ok (bcnt s, s)
    | None =>
        match nth_error heap i with
        | None => Panic
        | Some o =>
            let class := class_of o in
            match lookup str_eqb class (wrc s) with
            | None =>
                do s <- on_wb (WriteInt junk 4 kNewClassTag) s;
                do s <- on_wb (WriteCString junk class) s;
                let s := set_rc class (Z.lor (start + kMapOffset) kClassMask) s in
                let s := set_ro i (beg + kMapOffset) s in
                do s <- marshal o s;
                if werr (wb s) then Ok (0, s) else Ok (bcnt s, s)
            | Some ref =>
                do s <- on_wb (WriteInt junk 4 (Z.lor (wrapU 32 ref) kClassMask)) s;
                do s <- marshal o s;
                if werr (wb s) then Ok (0, s)
                else
                  let s := set_ro i (beg + kMapOffset) s in
                  Ok (bcnt s, s)
            end
        end
    end.
End Marshal.

(* wbuffer.go:176-197 WriteObjectAny *)
Fixpoint WriteObjectAny (fuel : nat) (p : ptr) (s : wst) : res wst :=
  match fuel with
  | O => Panic
  | S fuel' =>
      if werr (wb s) then Ok s
      else
        match p with
        | None => on_wb (WriteInt junk 4 0) s
        | Some i =>
            let pos := wPos (wb s) in
            do s <- on_wb (WriteInt junk 4 0) s;
            do bs <- WriteClass (WriteObjectAny fuel') pos i s;
            let s := snd bs in
            if werr (wb s) then Ok s
            else
              let end_ := wPos (wb s) in
              (* writeU32 does not grow the buffer: the four bytes are there *)
              do w <- put_bytes (be 4 (fst bs)) (wsetPos pos (wb s));
              Ok {| wb := wsetPos end_ w; wro := wro s; wrc := wrc s |}
        end
  end.
End Writer.

(* ------------------------------------------------------------------ reading *)
(* what RBuffer.refs holds: an object or a factory (of a class) *)
Inductive rref := RObj (k : nat) | RCls (class : list Z).

(* rbuffer.go:59-65 RBuffer: the buffer and the references (last assignment first); rh are
   the objects made by the factories, None while their contents are not read yet *)
Record rst := { rb : rbuf; rr : list (Z * rref); rh : list (option robj) }.
Definition rm (A : Type) : Type := rst -> res (A * rst).
Definition lift {A} (f : rd A) : rm A := fun s =>
  do ar <- f (rb s); Ok (fst ar, {| rb := snd ar; rr := rr s; rh := rh s |}).
Definition rret {A} (a : A) : rm A := fun s => Ok (a, s).
Definition rseq {A B} (f : rm A) (g : A -> rm B) : rm B := fun s =>
  do ar <- f s; g (fst ar) (snd ar).
Definition set_rb (r : rbuf) (s : rst) : rst := {| rb := r; rr := rr s; rh := rh s |}.
Definition fail (s : rst) : rst := set_rb (r_set_err (rb s) true) s.
Definition set_rr (k : Z) (v : rref) (s : rst) : rst := {| rb := rb s; rr := (k, v) :: rr s; rh := rh s |}.
Definition set_rh (h : list (option robj)) (s : rst) : rst := {| rb := rb s; rr := rr s; rh := h |}.
Fixpoint upd {A} (l : list A) (i : nat) (v : A) : list A :=
  match l, i with
  | [], _ => []
  | _ :: t, O => v :: t
  | x :: t, S j => x :: upd t j v
  end.

Definition null_obj : tobj := {| tID := 0; tBits := 0 |}.

(* rbuffer.go:517-532 SkipVersion(""): the byte count is skipped when there is one *)
Definition SkipVersion : rd unit := fun r =>
  if rerr r then Ok (tt, r)
  else
    do vr <- ReadSint 2 r;
    if negb (Z.land (fst vr) kByteCountVMask =? 0) then
      do ar <- ReadSint 2 (snd vr); do br <- ReadSint 2 (snd ar); Ok (tt, snd br)
    else Ok (tt, snd vr).

(* object.go:43-52 UnmarshalROOT of an Object; rbuffer.go:601-607 ReadObject does not call it
   after an error *)
Definition unm_obj : rd tobj := fun r =>
  if rerr r then Ok (null_obj, r)
  else
    do x <- SkipVersion r;
    do ir <- ReadUint 4 (snd x);
    do br <- ReadUint 4 (snd ir);
    let bits := Z.lor (fst br) kIsOnHeap in
    do r <- (if negb (Z.land bits kIsReferenced =? 0)
             then do pr <- ReadUint 2 (snd br); Ok (snd pr) else Ok (snd br));
    Ok ({| tID := fst ir; tBits := bits |}, r).

Section Reader.
Variable sictx : option (list Z -> option (Z * Z)).

Section Unmarshal.
(* how a pointer is read *)
Variable any : rm ptr.

(* list.go:109-118: a nil element (or an error) is a panic *)
Fixpoint unm_els (n : nat) : rm (list (ptr * list Z)) :=
  match n with
  | O => rret []
  | S n' => rseq any (fun p =>
      match p with
      | None => fun _ => Panic
      | Some _ =>
          rseq (lift ReadString) (fun opt =>
          rseq (unm_els n') (fun t => rret ((p, opt) :: t)))
      end)
  end.
(* objarray.go:123-132: on an error the rest is not read (the elements stay nil) *)
Fixpoint unm_ptrs (n : nat) : rm (list ptr) :=
  match n with
  | O => rret []
  | S n' => rseq any (fun p s =>
      if rerr (rb s) then Ok (repeat None (S n'), s)
      else rseq (unm_ptrs n') (fun t => rret (p :: t)) s)
  end.
(* m[k] = v for keys that are pointers *)
Fixpoint map_set (k v : ptr) (l : list (ptr * ptr)) : list (ptr * ptr) :=
  match l with
  | [] => [(k, v)]
  | (k', v') :: t =>
      match k, k' with
      | Some a, Some b => if Nat.eqb a b then (k', v) :: t else (k', v') :: map_set k v t
      | _, _ => (k', v') :: map_set k v t
      end
  end.
(* map.go:82-94 *)
Fixpoint unm_tbl (n : nat) (m : list (ptr * ptr)) : rm (list (ptr * ptr)) :=
  match n with
  | O => rret m
  | S n' => rseq any (fun k s =>
      if rerr (rb s) then Ok (m, s)
      else rseq any (fun v s =>
        if rerr (rb s) then Ok (m, s)
        else unm_tbl n' (match k with Some _ => map_set k v m | None => m end) s) s)
  end.

Definition check (h : Header) : rm unit := fun s => Ok (tt, set_rb (CheckHeader h (rb s)) s).
(* make([]T, n) panics when n is negative *)
Definition read_size : rm nat := rseq (lift (ReadSint 4)) (fun n s =>
  if n <? 0 then Panic else Ok (Z.to_nat n, s)).

(* named.go:73-87 *)
Definition unm_named : rm robj :=
  rseq (lift (ReadHeader sictx sTNamed vNamed)) (fun h =>
  rseq (lift unm_obj) (fun o =>
  rseq (lift ReadString) (fun name =>
  rseq (lift ReadString) (fun title =>
  rseq (check h) (fun _ => rret (ONamed o name title)))))).
(* objstring.go:55-62 *)
Definition unm_objstring : rm robj :=
  rseq (lift (ReadHeader sictx sTObjString vObjString)) (fun h =>
  rseq (lift unm_obj) (fun o =>
  rseq (lift ReadString) (fun str =>
  rseq (check h) (fun _ => rret (OObjString o str))))).
(* list.go:92-122, and 158-160 of HashList *)
Definition unm_list (hash : bool) : rm robj :=
  rseq (lift (ReadHeader sictx sTList vList)) (fun h =>
  if hVers h <=? 3 then fun s => Ok (OList hash null_obj [] [], fail s) else
  rseq (lift unm_obj) (fun o =>
  rseq (lift ReadString) (fun name =>
  rseq read_size (fun n =>
  rseq (unm_els n) (fun els =>
  rseq (check h) (fun _ => rret (OList hash o name els))))))).
(* objarray.go:104-136: the checks of the header are skipped after an error, as CheckHeader
   does itself *)
Definition unm_arr : rm robj :=
  rseq (lift (ReadHeader sictx sTObjArray vObjArray)) (fun h =>
  rseq (if 2 <? hVers h then lift unm_obj else rret null_obj) (fun o =>
  rseq (if 1 <? hVers h then lift ReadString else rret []) (fun name =>
  rseq (lift (ReadSint 4)) (fun n =>
  rseq (lift (ReadSint 4)) (fun low =>
  if n <? 0 then fun _ => Panic else
  rseq (unm_ptrs (Z.to_nat n)) (fun els =>
  rseq (check h) (fun _ => rret (OArr o name low els)))))))).
(* map.go:67-98: a negative number of entries makes an empty table *)
Definition unm_map : rm robj :=
  rseq (lift (ReadHeader sictx sTMap vMap)) (fun h =>
  rseq (if 2 <? hVers h then lift unm_obj else rret null_obj) (fun o =>
  rseq (if 1 <? hVers h then lift ReadString else rret []) (fun name =>
  rseq (lift (ReadSint 4)) (fun n =>
  rseq (unm_tbl (Z.to_nat n) []) (fun tbl =>
  rseq (check h) (fun _ => rret (OMap o name tbl))))))).
(* refarray.go:90-117 *)
Definition unm_refarr : rm robj :=
  rseq (lift (ReadHeader sictx sTRefArray vRefArray)) (fun h =>
  if hVers h <? 1 then fun s => Ok (ORefArr null_obj [] 0 [], fail s) else
  rseq (lift unm_obj) (fun o =>
  rseq (lift ReadString) (fun name =>
  rseq (lift (ReadSint 4)) (fun n =>
  rseq (lift (ReadSint 4)) (fun lower =>
  rseq (lift (ReadUint 2)) (fun _ =>
  if n <? 0 then fun _ => Panic else
  rseq (lift (read_n (ReadUint 4) (Z.to_nat n))) (fun refs =>
  rseq (check h) (fun _ => rret (ORefArr o name lower refs))))))))).

(* the UnmarshalROOT of what the factory of a class makes; the classes of go-hep that are
   not in this model, and the classes it does not know (for which Factory.Get,
   groot/rtypes/factory.go:49-83, gives an rdict.Object), are a Panic here *)
Definition unmarshal (class : list Z) : rm robj :=
  if str_eqb class sTNamed then unm_named
  else if str_eqb class sTObjString then unm_objstring
  else if str_eqb class sTList then unm_list false
  else if str_eqb class sTHashList then unm_list true
  else if str_eqb class sTObjArray then unm_arr
  else if str_eqb class sTMap then unm_map
  else if str_eqb class sTRefArray then unm_refarr
  else fun _ => Panic.

(* obj = fct(); r.ReadObject(obj): the new object is number [length (rh s)] *)
Definition alloc (s : rst) : nat * rst := (length (rh s), set_rh (rh s ++ [None]) s).
Definition fill (class : list Z) (k : nat) (s : rst) : res rst :=
  if rerr (rb s) then Ok s
  else do os <- unmarshal class s; Ok (set_rh (upd (rh (snd os)) k (Some (fst os))) (snd os)).

(* rbuffer.go:609-706 ReadObjectAny *)
Definition ReadAny : rm ptr := fun s =>
  if rerr (rb s) then Ok (None, s)
  else
    let beg := rPos (rb s) in
    do br <- lift (ReadUint 4) s;
    let bcnt := fst br in
    let s := snd br in
    let nobc := (Z.land bcnt kByteCountMask =? 0) || (bcnt =? kNewClassTag) in
    let start := if nobc then 0 else rPos (rb s) in
    do tr <- (if nobc then Ok (bcnt, s) else lift (ReadUint 4) s);
    let bcnt := if nobc then 0 else bcnt in
    let tag := fst tr in
    let s := snd tr in
    let newref (key : Z) (v : rref) (s : rst) : rst :=
      set_rr (if nobc then Z.of_nat (length (nodup Z.eq_dec (map fst (rr s)))) + 1 else key) v s in
    if Z.land tag kClassMask =? 0 then
      if tag =? 0 then Ok (None, s)
      else if tag =? 1 then Ok (None, fail s)
      else
        match lookup Z.eqb tag (rr s) with
        | None => Ok (None, set_rb (rsetPos (beg + bcnt + 4) (rb s)) s)
        | Some (RObj k) => Ok (Some k, s)
        | Some (RCls _) => Ok (None, fail s)
        end
    else if tag =? kNewClassTag then
      do cr <- lift (ReadCString 80) s;
      let class := fst cr in
      let s := newref (start + kMapOffset) (RCls class) (snd cr) in
      let (k, s) := alloc s in
      do s <- fill class k s;
      if rerr (rb s) then Ok (None, s)
      else Ok (Some k, newref (beg + kMapOffset) (RObj k) s)
    else
      match lookup Z.eqb (Z.ldiff tag kClassMask) (rr s) with
      | None => Ok (None, fail s)
      | Some (RObj _) => Ok (None, fail s)
      | Some (RCls class) =>
          let (k, s) := alloc s in
          let s := newref (beg + kMapOffset) (RObj k) s in
          do s <- fill class k s;
          if rerr (rb s) then Ok (None, s) else Ok (Some k, s)
      end.
End Unmarshal.

Fixpoint ReadObjectAny (fuel : nat) : rm ptr :=
  match fuel with
  | O => fun _ => Panic
  | S fuel' => ReadAny (ReadObjectAny fuel')
  end.
End Reader.
