(* Model of sio: encoder.go and decoder.go (values of the types handled by reflection), sio.go (Tag, Pointer, relocate),
   record.go (read, write) and stream.go (ReadRecord, WriteRecord).
   A user codec is taken as the sequence of the fields it encodes, tags and pointers among them.  Objects of the writer are
   keys (nil pointers are keys that are never tagged); objects of the reader are numbered in the order in which they are
   tagged.  Floats are their bits.  A stream is a list of bytes; readers and zlib are as in the standard library. *)
From Coq Require Import ZArith List Lia Bool.
From Verif Require Import Bytes GoLib GoStrings Parse RioModel.
Import ListNotations.
Local Open Scope Z_scope.

(* sio/defs.go:14-22 *)
Definition recMarker : Z := 0xabadcafe.
Definition blkMarker : Z := 0xdeadbeef.
Definition ptagMarker : Z := 0xffffffff.
Definition blkMarkerBeg : list Z := [222; 173; 190; 239].
(* sio/defs.go:29-31, on a uint32 *)
Definition align4U32 (sz : Z) : Z := wrapU 32 (sz + Z.land (4 - Z.land sz 3) 3).

(* ---- types and values ---- *)
Inductive ty :=
| TU (n : nat) | TS (n : nat)            (* fixed-size integers of n bytes *)
| TBool | TStr | TSlice (t : ty) | TMap (k v : ty) | TStruct (ts : list ty)
| TTag | TPtr.                           (* a call of Tag or of Pointer *)
Inductive val (T P : Type) :=
| VInt (z : Z) | VStr (s : list Z) | VList (vs : list (val T P)) | VMap (kvs : list (val T P * val T P)) | VStruct (vs : list (val T P))
| VTag (t : T) | VPtr (p : P).
Arguments VInt {T P}. Arguments VStr {T P}. Arguments VList {T P}. Arguments VMap {T P}. Arguments VStruct {T P}.
Arguments VTag {T P}. Arguments VPtr {T P}.

(* ---- writing values ---- *)
(* sio.go:151-157: the last id given and the ids of the objects *)
Definition wids := (Z * list (Z * Z))%type.
Fixpoint assoc {A} (k : Z) (m : list (Z * A)) : option A :=
  match m with [] => None | (k', v) :: m' => if k =? k' then Some v else assoc k m' end.
(* sio.go:195-236 Tag and Pointer, 230-236 genID; None is errPointerIDOverflow *)
Definition obj_id (a : Z) (s : wids) : option (Z * wids) :=
  match assoc a (snd s) with
  | Some id => Some (id, s)
  | None => if fst s + 1 =? 2 ^ 32 - 1 then None else Some (fst s + 1, (fst s + 1, (a, fst s + 1) :: snd s))
  end.
Definition wret {A} (x : A) : res (option A) := Ok (Some x).
Definition wbind {A B} (r : res (option A)) (f : A -> res (option B)) : res (option B) :=
  match r with Ok (Some x) => f x | Ok None => Ok None | Panic => Panic end.
(* one after the other *)
Fixpoint enc_all {A} (f : A -> wids -> res (option (list Z * wids))) (l : list A) (s : wids) : res (option (list Z * wids)) :=
  match l with
  | [] => wret ([], s)
  | x :: l' => wbind (f x s) (fun r => wbind (enc_all f l' (snd r)) (fun r' => wret (fst r ++ fst r', snd r')))
  end.
(* encoder.go:57-147 marshal and bwrite.  [addr]: the value is addressable (not so for keys and elements of a map, on which
   Field(i).Addr() panics).  The order of a map is that of MapKeys. *)
Definition u32b (n : Z) : list Z := be 4 (wrapU 32 n).
Fixpoint enc (addr : bool) (t : ty) (v : val Z Z) (s : wids) {struct t} : res (option (list Z * wids)) :=
  match t, v with
  | TU n, VInt z => wret (be n z, s)
  | TS n, VInt z => wret (be n z, s)
  | TBool, VInt z => wret (be 1 z, s)
  | TStr, VStr b =>
      let sz := wrapU 32 (zlen b) in
      wret (be 4 sz ++ b ++ repeat 0 (Z.to_nat (wrapU 32 (align4U32 sz - sz))), s)
  | TSlice t', VList vs =>
      wbind (enc_all (enc true t') vs s) (fun r => wret (u32b (zlen vs) ++ fst r, snd r))
  | TMap k w, VMap kvs =>
      wbind (enc_all (fun kv s => wbind (enc false k (fst kv) s) (fun r => wbind (enc false w (snd kv) (snd r)) (fun r' => wret (fst r ++ fst r', snd r')))) kvs s)
            (fun r => wret (u32b (zlen kvs) ++ fst r, snd r))
  | TStruct ts, VStruct vs =>
      (fix go (ts : list ty) (vs : list (val Z Z)) (s : wids) {struct ts} : res (option (list Z * wids)) :=
         match ts, vs with
         | [], [] => wret ([], s)
         | t' :: ts', v' :: vs' =>
             if addr then wbind (enc true t' v' s) (fun r => wbind (go ts' vs' (snd r)) (fun r' => wret (fst r ++ fst r', snd r')))
             else Panic
         | _, _ => Ok None
         end) ts vs s
  | TTag, VTag a | TPtr, VPtr a => Ok (match obj_id a s with Some (id, s') => Some (be 4 id, s') | None => None end)
  | _, _ => Ok None
  end.

(* ---- reading values ---- *)
(* sio.go:68-73: what is left, the number of objects seen and their ids.  Pointers carry their id until relocation. *)
Record rst := { rl : list Z; rn : nat; rtags : list (nat * Z) }.
Definition rd (A : Type) := rst -> option (A * rst).
Definition rlift {A} (p : parser A) : rd A :=
  fun s => match p (rl s) with Some (x, l) => Some (x, {| rl := l; rn := rn s; rtags := rtags s |}) | None => None end.
Definition dret {A} (x : A) : rd A := fun s => Some (x, s).
Definition dbind {A B} (f : rd A) (g : A -> rd B) : rd B := fun s => match f s with Some (x, s') => g x s' | None => None end.
Fixpoint drep {A} (n : nat) (f : rd A) : rd (list A) :=
  match n with O => dret [] | S n' => dbind f (fun x => dbind (drep n' f) (fun xs => dret (x :: xs))) end.
(* reflect SetMapIndex, for keys that are integers or strings *)
Definition key_eqb {T P} (a b : val T P) : bool :=
  match a, b with VInt x, VInt y => x =? y | VStr x, VStr y => str_eqb x y | _, _ => false end.
Fixpoint set_map {T P} (k v : val T P) (m : list (val T P * val T P)) : list (val T P * val T P) :=
  match m with [] => [(k, v)] | (k', v') :: m' => if key_eqb k k' then (k, v) :: m' else (k', v') :: set_map k v m' end.
(* decoder.go:57-160 unmarshal and bread, sio.go:105-135 Tag and Pointer; None is an error or a panic *)
Fixpoint dec (t : ty) : rd (val nat Z) :=
  match t with
  | TU n => rlift (z <~~ pbe n ;; pret (VInt z))
  | TS n => rlift (z <~~ pbe n ;; pret (VInt (wrapS (8 * Z.of_nat n) z)))
  | TBool => rlift (z <~~ pbe 1 ;; pret (VInt (if z =? 0 then 0 else 1)))
  | TStr => rlift (sz <~~ pbe 4 ;; b <~~ read_some (Z.to_nat (align4U32 sz)) ;;
                   _ <~~ pguard (sz <=? align4U32 sz) ;; pret (VStr (firstn (Z.to_nat sz) b)))
  | TSlice t' => dbind (rlift (pbe 4)) (fun n => dbind (drep (Z.to_nat n) (dec t')) (fun vs => dret (VList vs)))
  | TMap k w => dbind (rlift (pbe 4)) (fun n => dbind (drep (Z.to_nat n) (dbind (dec k) (fun a => dbind (dec w) (fun b => dret (a, b)))))
                  (fun kvs => dret (VMap (fold_left (fun m kv => set_map (fst kv) (snd kv) m) kvs []))))
  | TStruct ts => dbind ((fix go (ts : list ty) : rd (list (val nat Z)) :=
                            match ts with [] => dret [] | t' :: ts' => dbind (dec t') (fun v => dbind (go ts') (fun vs => dret (v :: vs))) end) ts)
                        (fun vs => dret (VStruct vs))
  | TTag => fun s => match pbe 4 (rl s) with
                     | Some (pid, l) => Some (VTag (rn s), {| rl := l; rn := S (rn s);
                         rtags := if pid =? ptagMarker then rtags s else rtags s ++ [(rn s, pid)] |})
                     | None => None
                     end
  | TPtr => rlift (z <~~ pbe 4 ;; pret (VPtr z))
  end.
Fixpoint vmap {T P T' P'} (f : T -> T') (g : P -> P') (v : val T P) : val T' P' :=
  match v with
  | VInt z => VInt z | VStr s => VStr s
  | VList vs => VList (map (vmap f g) vs)
  | VMap kvs => VMap (map (fun kv => (vmap f g (fst kv), vmap f g (snd kv))) kvs)
  | VStruct vs => VStruct (map (vmap f g) vs)
  | VTag t => VTag (f t) | VPtr p => VPtr (g p)
  end.
(* sio.go:137-149 relocate: the tags are met in the order of a Go map; None leaves the pointer as it was *)
Definition relocate (tags : list (nat * Z)) (pid : Z) : option nat :=
  if pid =? 0 then None else match find (fun t => snd t =? pid) tags with Some (k, _) => Some k | None => None end.

(* ---- records ---- *)
Record wblk := { wname : str; wver : Z; wty : ty; wval : val Z Z }.
(* record.go:225-286 *)
Definition blk_bytes (n : str) (ver : Z) (d : list Z) : list Z :=
  be 4 (wrapU 32 (16 + align4U32 (zlen n) + zlen d)) ++ be 4 blkMarker ++ be 4 ver ++ be 4 (zlen n) ++
  n ++ repeat 0 (Z.to_nat (wrapU 32 (align4U32 (zlen n) - zlen n))) ++ d.
Definition rec_write (bs : list wblk) : res (option (list Z * wids)) :=
  enc_all (fun b s => wbind (enc true (wty b) (wval b) s) (fun r => wret (blk_bytes (wname b) (wver b) (fst r), snd r))) bs (0, []).
(* bytes.Index(l, blkMarkerBeg) *)
Fixpoint mark_index (l : list Z) : option nat :=
  if str_eqb (firstn 4 l) blkMarkerBeg then Some O
  else match l with [] => None | _ :: l' => option_map S (mark_index l') end.
Definition rblk := (str * (Z * val nat Z))%type.
(* record.go:128-223, without the LinkSio calls; [conn] the connected blocks and their types.  Next of a negative number panics. *)
Fixpoint rec_loop (fuel : nat) (conn : list (str * ty)) (acc : list rblk) (s : rst) : res (option (list rblk * rst)) :=
  match fuel with
  | O => Ok None
  | S fuel' =>
      match rl s with
      | [] => wret (acc, s)
      | _ =>
        match (h <~~ pbe 4 ;; m <~~ pbe 4 ;; _ <~~ pguard (m =? blkMarker) ;; v <~~ pbe 4 ;; k <~~ pbe 4 ;;
               b <~~ take (Z.to_nat (align4U32 k)) ;; _ <~~ pguard (k <=? align4U32 k) ;; pret (h, v, firstn (Z.to_nat k) b)) (rl s) with
        | None => Ok None
        | Some ((h, v, n), l) =>
            let s1 := {| rl := l; rn := rn s; rtags := rtags s |} in
            let r := match lookup n conn with
                     | None => Some (acc, s1)
                     | Some t => match dec t s1 with
                                 | None => None
                                 | Some (x, s2) => if zlen (rl s) - zlen (rl s2) =? h then Some (acc ++ [(n, (v, x))], s2) else None
                                 end
                     end in
            match r with
            | None => Ok None
            | Some (acc', s2) =>
                let go l' := rec_loop fuel' conn acc' {| rl := l'; rn := rn s2; rtags := rtags s2 |} in
                match rl s2 with
                | [] => go []
                | _ => match mark_index (rl s2) with
                       | None | Some O => go []
                       | Some next => if (next <? 4)%nat then Panic else go (skipn (next - 4) (rl s2))
                       end
                end
            end
        end
      end
  end.
(* [perm]: the order in which Go runs over the map of tags *)
Definition rec_read (perm : list (nat * Z) -> list (nat * Z)) (conn : list (str * ty)) (buf : list Z) :
  res (option (list (str * (Z * val nat (option nat))))) :=
  wbind (rec_loop (S (length buf)) conn [] {| rl := buf; rn := O; rtags := [] |}) (fun r =>
    wret (map (fun b => (fst b, (fst (snd b), vmap (fun k => k) (relocate (perm (rtags (snd r)))) (snd (snd b))))) (fst r))).

(* ---- streams ---- *)
Record zlib := { deflate : list Z -> list Z; inflate : list Z -> nat -> option (list Z) }.
(* record.go:54-56 *)
Definition compressed (o : Z) : bool := negb (Z.land o 1 =? 0).
Record wrec := { wrname : str; wropt : Z; wrblks : list wblk }.
(* stream.go:305-391; a failing record leaves the stream as it is *)
Definition write_record (z : zlib) (r : wrec) (out : list Z) : res (option (list Z)) :=
  wbind (rec_write (wrblks r)) (fun e =>
    let buf := fst e in
    let d := if compressed (wropt r) then
               let c := deflate z buf in c ++ repeat 0 (Z.to_nat (wrapU 32 (align4U32 (wrapU 32 (zlen c)) - zlen c)))
             else buf in
    let k := wrapU 32 (zlen (wrname r)) in
    wret (out ++ be 4 (wrapU 32 (24 + align4U32 k)) ++ be 4 recMarker ++ be 4 (wropt r) ++ be 4 (wrapU 32 (zlen d)) ++
          be 4 (wrapU 32 (zlen buf)) ++ be 4 k ++ wrname r ++ repeat 0 (Z.to_nat (wrapU 32 (align4U32 k - k))) ++ d)).
Fixpoint write_records (z : zlib) (rs : list wrec) (out : list Z) : res (option (list Z)) :=
  match rs with [] => wret out | r :: rs' => wbind (write_record z r out) (write_records z rs') end.

Definition rconf := list (str * (bool * list (str * ty))).
Definition rhdr := (Z * Z * Z * Z * str)%type.
(* stream.go:199-227: header length, options, data lengths and name *)
Definition rhead : parser rhdr :=
  h <~~ pbe 4 ;; m <~~ pbe 4 ;; _ <~~ pguard (m =? recMarker) ;;
  o <~~ pbe 4 ;; d <~~ pbe 4 ;; u <~~ pbe 4 ;; k <~~ pbe 4 ;; b <~~ take (Z.to_nat (align4U32 k)) ;;
  _ <~~ pguard (k <=? align4U32 k) ;; pret (h, o, d, u, firstn (Z.to_nat k) b).
(* stream.go:185-303: the record returned with what was read of its blocks, and what is left of the stream; Ok None is an
   error, the end of the stream among them *)
Fixpoint read_record (fuel : nat) (perm : list (nat * Z) -> list (nat * Z)) (z : zlib) (cf : rconf) (l : list Z) :
  res (option (str * Z * list (str * (Z * val nat (option nat))) * list Z)) :=
  match fuel with
  | O => Ok None
  | S fuel' =>
      match rhead l with
      | None => Ok None
      | Some ((h, o, d, u, n), l1) =>
          let '(unpack, conn) := match lookup n cf with Some c => c | None => (false, []) end in
          if negb unpack then
            let d' := align4U32 d in
            (* the position after the seek, relative to the start of the record *)
            if zlen l - zlen l1 + d' =? wrapU 32 (d' + h) then read_record fuel' perm z cf (skipn (Z.to_nat d') l1) else Ok None
          else match take (Z.to_nat d) l1 with
               | None => Ok None
               | Some (c, l2) =>
                   let r := if compressed o then
                              match inflate z c (Z.to_nat u) with
                              | Some buf => Some (buf, skipn (Z.to_nat (wrapU 32 (align4U32 d - d))) l2)
                              | None => None
                              end
                            else Some (c, l2) in
                   match r with
                   | None => Ok None
                   | Some (buf, l3) => wbind (rec_read perm conn buf) (fun bs => wret (n, o, bs, l3))
                   end
               end
      end
  end.
