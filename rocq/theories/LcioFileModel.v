(* Model of the files of lcio: Writer (writer.go), Reader (reader.go) and the stream of records below them (sio/stream.go), with
   the data model of LcioDataModel.v.  The operating system is not modelled: a file is the list of its bytes, Close and Sync do
   nothing.  The compression is a parameter, as in SioModel.v. *)
From Coq Require Import ZArith List Bool String Ascii.
From Verif Require Import Bytes GoLib GoStrings Parse RioModel SioModel LcioDataModel.
Import ListNotations.
Local Open Scope Z_scope.

(* ---- strings ---- *)
Definition bytes_of (s : string) : str := map (fun a => Z.of_nat (nat_of_ascii a)) (list_ascii_of_string s).
Definition string_of (b : str) : string := string_of_list_ascii (map (fun z => ascii_of_nat (Z.to_nat z)) b).
(* lcio/meta.go:17-29 and 31-41 *)
Definition recIndex := bytes_of "LCIOIndex". Definition recRandomAccess := bytes_of "LCIORandomAccess". Definition recRunHeader := bytes_of "LCRunHeader".
Definition recEventHeader := bytes_of "LCEventHeader". Definition recEvent := bytes_of "LCEvent".
Definition blkIndex := bytes_of "LCIOndex". Definition blkRandomAccess := bytes_of "LCIORandomAccess".
Definition blkRunHeader := bytes_of "RunHeader". Definition blkEventHeader := bytes_of "EventHeader".

(* ---- events ---- *)
(* lcio/event.go:266-274; the collections in the order of names *)
Record levent := { erun : Z; enum : Z; estamp : Z; edet : str; eparams : val Z Z; ecolls : list named }.
(* the types of the collections; a type without name panics *)
Fixpoint type_names (l : list named) : res (list (str * str)) :=
  match l with
  | [] => Ok []
  | b :: l' => match typeName (fst (snd b)) with
               | Ok n => match type_names l' with Ok r => Ok ((fst b, bytes_of n) :: r) | Panic => Panic end
               | Panic => Panic
               end
  end.
(* lcio/writer.go:152-160 *)
Definition event_header (e : levent) (ts : list (str * str)) : val Z Z :=
  VStruct [VInt (erun e); VInt (enum e); VInt (estamp e); VStr (edet e); VList (map (fun nt => VStruct [VStr (fst nt); VStr (snd nt)]) ts); eparams e].
(* lcio/event.go:43-51 and 97-106: the parameters, the last field, are sorted *)
Definition sorted_last (v : val Z Z) : val Z Z :=
  match v with
  | VStruct [a; b; c; d; p] => VStruct [a; b; c; d; sort_maps p]
  | VStruct [a; b; c; d; e; p] => VStruct [a; b; c; d; e; sort_maps p]
  | _ => v
  end.
Definition hdr_blk (n : str) (t : ty) (v : val Z Z) : gblk := {| gname := n; gver := Version; gwrite := enc true t (sorted_last v) |}.

(* lcio/event.go:296-308 Add, of a pointer: the names in order and the map of the collections *)
Definition evt_add {A} (n : str) (x : A) (e : list str * list (str * A)) : res (list str * list (str * A)) :=
  match lookup n (snd e) with Some _ => Panic | None => Ok (fst e ++ [n], put n x (snd e)) end.
Fixpoint evt_adds {A} (l : list (str * A)) (e : list str * list (str * A)) : res (list str * list (str * A)) :=
  match l with [] => Ok e | (n, x) :: l' => match evt_add n x e with Ok e' => evt_adds l' e' | Panic => Panic end end.
(* lcio/event.go:119-124 and 328-333 Weight: None for 1.0, otherwise the float32 *)
Definition weight {T P} (p : val T P) : res (option Z) :=
  match p with
  | VStruct [_; VMap fs; _] => match find (fun kv => match fst kv with VStr k => str_eqb k (bytes_of "_weight") | _ => false end) fs with
                               | None => Ok None
                               | Some (_, VList (VInt w :: _)) => Ok (Some w)
                               | Some _ => Panic
                               end
  | _ => Ok None
  end.

Section File.
Variable narrow widen : Z -> Z.
Variable z : zlib.
Variable perm : list (nat * Z) -> list (nat * Z).

(* ---- writer ---- *)
(* sio/stream.go:305-391 *)
Definition write_grec (n : str) (o : Z) (bs : list gblk) (out : list Z) : res (option (list Z)) :=
  wbind (grec_write bs) (fun e =>
    let buf := fst e in
    let d := if compressed o then
               let c := deflate z buf in c ++ repeat 0 (Z.to_nat (wrapU 32 (align4U32 (wrapU 32 (zlen c)) - zlen c)))
             else buf in
    let k := wrapU 32 (zlen n) in
    wret (out ++ be 4 (wrapU 32 (24 + align4U32 k)) ++ be 4 recMarker ++ be 4 o ++ be 4 (wrapU 32 (zlen d)) ++
          be 4 (wrapU 32 (zlen buf)) ++ be 4 k ++ n ++ repeat 0 (Z.to_nat (wrapU 32 (align4U32 k - k))) ++ d)).
(* the calls of a user, and the file after them; [o] the options of the records (lcio/writer.go:118-134): 1 or 0 *)
Inductive wcall := WRun (v : val Z Z) | WEvt (e : levent).
(* lcio/writer.go:136-146 and 148-183 *)
Definition write_call (o : Z) (c : wcall) (out : list Z) : res (option (list Z)) :=
  match c with
  | WRun v => write_grec recRunHeader o [hdr_blk blkRunHeader trunhdr v] out
  | WEvt e => match type_names (ecolls e) with
              | Panic => Panic
              | Ok ts => wbind (write_grec recEventHeader o [hdr_blk blkEventHeader tevthdr (event_header e ts)] out)
                               (write_grec recEvent o (map (evt_blk narrow) (ecolls e)))
              end
  end.
Fixpoint write_calls (o : Z) (cs : list wcall) (out : list Z) : res (option (list Z)) :=
  match cs with [] => wret out | c :: cs' => wbind (write_call o c out) (write_calls o cs') end.

(* ---- reader ---- *)
(* sio/stream.go:250-295: the data of a record and what follows it *)
Definition payload (o d u : Z) (l : list Z) : option (list Z * list Z) :=
  match take (Z.to_nat d) l with
  | None => None
  | Some (c, l2) => if compressed o then
                      match inflate z c (Z.to_nat u) with
                      | Some buf => Some (buf, skipn (Z.to_nat (wrapU 32 (align4U32 d - d))) l2)
                      | None => None
                      end
                    else Some (c, l2)
  end.
Definition hval := val nat (option nat).
(* lcio/reader.go:28-36: what is left of the file, the headers, and the blocks connected to the record of events *)
Record reader := { rest : list Z; rrun : hval; revt : hval; rconn : list (str * ctype) }.
Fixpoint hzero (t : ty) : hval :=
  match t with
  | TU _ | TS _ | TBool | TTag => VInt 0
  | TStr => VStr [] | TSlice _ => VList [] | TMap _ _ => VMap []
  | TStruct ts => VStruct (map hzero ts)
  | TPtr => VPtr None
  end.
(* lcio/reader.go:13-26 and 42-90 *)
Definition open (l : list Z) : reader := {| rest := l; rrun := hzero trunhdr; revt := hzero tevthdr; rconn := [] |}.
(* a record with one block connected: what the variable holds after it *)
Definition read_one (n : str) (g : rd (val nat Z)) (old : hval) (buf : list Z) : res (option hval) :=
  wbind (grec_read (fun r => vmap (fun k => k) r) perm [(n, fun _ => g)] buf) (fun bs => wret (fold_left (fun _ b => snd (snd b)) bs old)).
Definition blocks (h : hval) : list (str * str) :=
  match h with
  | VStruct [_; _; _; _; VList l; _] => flat_map (fun b => match b with VStruct [VStr n; VStr t] => [(n, t)] | _ => [] end) l
  | _ => []
  end.
(* lcio/reader.go:144-172 *)
Fixpoint remap (bs : list (str * str)) (conn : list (str * ctype)) : res (list (str * ctype)) :=
  match bs with
  | [] => Ok conn
  | (n, t) :: bs' => match typeFrom (string_of t) with Ok c => remap bs' (put n c conn) | Panic => Panic end
  end.
(* the container that typeFrom makes *)
Definition no_data : data nat (option nat) := {| dflags := 0; dparams := hzero tparams; delems := [] |}.
(* what the user gets: the run header, the event header and the collections *)
Definition event := (hval * hval * list (str * data nat (option nat)))%type.
(* the struct of the RandomAccess block, lcio/meta.go:43-56 *)
Definition trnd : ty := TStruct [TS 4; TS 4; TS 4; TS 4; TS 4; TS 4; TS 4; TS 8; TS 8; TS 8; TS 8; TS 4].
(* lcio/reader.go:92-142 Next and sio/stream.go:185-303 ReadRecord: Ok None when there is no event left; the boolean tells
   whether the file ended there (io.EOF) *)
Fixpoint next (fuel : nat) (r : reader) : res (event * reader + bool) :=
  match fuel with
  | O => Ok (inr false)
  | S fuel' =>
      match rest r with
      | [] => Ok (inr true)
      | _ =>
      match rhead (rest r) with
      | None => Ok (inr false)
      | Some ((h, o, d, u, n), l1) =>
          let known := existsb (str_eqb n) [recIndex; recRandomAccess; recRunHeader; recEventHeader; recEvent] in
          if negb known then
            let d' := align4U32 d in
            if zlen (rest r) - zlen l1 + d' =? wrapU 32 (d' + h) then next fuel' {| rest := skipn (Z.to_nat d') l1; rrun := rrun r; revt := revt r; rconn := rconn r |} else Ok (inr false)
          else match payload o d u l1 with
               | None => Ok (inr false)
               | Some (buf, l2) =>
                   if str_eqb n recEvent then
                     match grec_read (fun f => dmap (fun k => k) f) perm (map (fun nc => (fst nc, unmarshal_of widen (snd nc))) (rconn r)) buf with
                     | Panic => Panic
                     | Ok None => Ok (inr false)
                     | Ok (Some bs) =>
                         let colls := map (fun nt => (fst nt, fold_left (fun x b => if str_eqb (fst b) (fst nt) then snd (snd b) else x) bs no_data)) (blocks (revt r)) in
                         Ok (inl ((rrun r, revt r, colls), {| rest := l2; rrun := rrun r; revt := revt r; rconn := rconn r |}))
                     end
                   else if str_eqb n recRunHeader then
                     match read_one blkRunHeader (dec trunhdr) (rrun r) buf with
                     | Panic => Panic
                     | Ok None => Ok (inr false)
                     | Ok (Some v) => next fuel' {| rest := l2; rrun := v; revt := revt r; rconn := rconn r |}
                     end
                   else if str_eqb n recEventHeader then
                     match read_one blkEventHeader (dec tevthdr) (revt r) buf with
                     | Panic => Panic
                     | Ok None => Ok (inr false)
                     | Ok (Some v) => match remap (blocks v) (rconn r) with
                                      | Panic => Panic
                                      | Ok conn => next fuel' {| rest := l2; rrun := rrun r; revt := v; rconn := conn |}
                                      end
                     end
                   else
                     match read_one (if str_eqb n recIndex then blkIndex else blkRandomAccess)
                                    (if str_eqb n recIndex then dbind rindex (fun _ => dret (VInt 0)) else dec trnd) (VInt 0) buf with
                     | Panic => Panic
                     | Ok None => Ok (inr false)
                     | Ok (Some _) => next fuel' {| rest := l2; rrun := rrun r; revt := revt r; rconn := rconn r |}
                     end
               end
      end
      end
  end.
(* for r.Next() { r.RunHeader(); r.EventHeader(); r.Event() }, n events at most *)
Fixpoint events (n fuel : nat) (r : reader) : res (list event * bool) :=
  match n with
  | O => Ok ([], false)
  | S n' => match next fuel r with
            | Panic => Panic
            | Ok (inr e) => Ok ([], e)
            | Ok (inl (v, r')) => match events n' fuel r' with Ok (vs, e) => Ok (v :: vs, e) | Panic => Panic end
            end
  end.
Definition read_file (l : list Z) : res (list event * bool) := events (S (List.length l)) (S (List.length l)) (open l).
End File.
