(* Model of xrootd/internal/xrdenc, xrootd/xrdproto (headers, framing and the messages of its sub-packages)
   and the codecs of xrootd/xrdfs.  A message is a value of [msg]; its fields are the exported fields of the Go struct,
   arrays and slices are byte lists.  A buffer has no room beyond its length (cap = len).
   A Skip past the end leaves nothing: the next read of a byte or more panics, as in Go, and no message reads less after a Skip. *)
From Coq Require Import ZArith List Lia Bool.
From Verif Require Import Bytes GoLib GoStrings.
Import ListNotations.
Local Open Scope Z_scope.

(* a reading: panic, error, or a value and the bytes left *)
Definition rd (A : Type) := list Z -> res (option (A * list Z)).
Definition ret {A} (a : A) : rd A := fun l => Ok (Some (a, l)).
Definition fail {A} : rd A := fun _ => Ok None.
Definition bind {A B} (f : rd A) (g : A -> rd B) : rd B :=
  fun l => match f l with Ok (Some (a, l')) => g a l' | Ok None => Ok None | Panic => Panic end.
Notation "x <- f ;; g" := (bind f (fun x => g)) (at level 61, f at next level, right associativity).

(* ---- xrdenc.go ---- *)
(* xrdenc.go:116-122; a negative length (make or slice) panics *)
Definition rbytes (n : Z) : rd (list Z) :=
  fun l => if (n <? 0) || (zlen l <? n) then Panic else Ok (Some (firstn (Z.to_nat n) l, skipn (Z.to_nat n) l)).
(* xrdenc.go:73-77 *)
Definition ru8 : rd Z := b <- rbytes 1;; ret (unbe b).
(* xrdenc.go:83-89, 91-97, 99-105 *)
Definition ru16 : rd Z := b <- rbytes 2;; ret (unbe b).
Definition ri32 : rd Z := b <- rbytes 4;; ret (wrapS 32 (unbe b)).
Definition ri64 : rd Z := b <- rbytes 8;; ret (wrapS 64 (unbe b)).
(* xrdenc.go:107-110: the position moves first *)
Definition rbool : rd bool := fun l => match l with _ :: (c :: _) as l' => Ok (Some (negb (c =? 0), l')) | _ => Panic end.
(* xrdenc.go:112-114, 124-130, and make([]byte, r.ReadLen()) followed by ReadBytes *)
Definition rstr : rd (list Z) := n <- ri32;; rbytes n.
(* xrdenc.go:132-134 *)
Definition skip (n : Z) : rd unit := fun l => Ok (Some (tt, skipn (Z.to_nat n) l)).
(* xrdenc.go:79-81 *)
Definition rlen : rd Z := fun l => Ok (Some (zlen l, l)).
(* xrdenc.go:136-138, the bytes left, all of them taken by the caller *)
Definition rall : rd (list Z) := fun l => Ok (Some (l, [])).
(* xrdenc.go:16-62 *)
Definition wu8 (v : Z) : list Z := be 1 v.
Definition wu16 (v : Z) : list Z := be 2 v.
Definition wi32 (v : Z) : list Z := be 4 v.
Definition wi64 (v : Z) : list Z := be 8 v.
Definition wbool (b : bool) : list Z := [if b then 1 else 0].
Definition wlen (n : Z) : list Z := wi32 (wrapS 32 n).
Definition wstr (s : list Z) : list Z := wlen (zlen s) ++ s.
Definition next (n : nat) : list Z := repeat 0 n.

(* ---- parts of messages ---- *)
(* xrdproto.go:295-298 *)
Record sover := { ov_index : Z; ov_level : Z }.
(* read.go:105-109 *)
Record rahead := { ra_handle : list Z; ra_len : Z; ra_off : Z }.
(* xrdfs/file.go:66-70 *)
Record fcomp := { fc_page : Z; fc_type : list Z }.
(* xrdfs/stat.go:42-49 *)
Record estat := { es_name : list Z; es_has : bool; es_id : Z; es_size : Z; es_flags : Z; es_mtime : Z }.
Definition es0 : estat := {| es_name := []; es_has := false; es_id := 0; es_size := 0; es_flags := 0; es_mtime := 0 |}.

(* xrdproto.go:301-312 *)
Definition w_sover (o : sover) : list Z := wu8 (ov_index o) ++ wu8 (ov_level o).
Definition r_sover : rd sover := i <- ru8;; l <- ru8;; ret {| ov_index := i; ov_level := l |}.
(* read.go:112-125 *)
Definition w_rahead (o : rahead) : list Z := ra_handle o ++ wi32 (ra_len o) ++ wi64 (ra_off o).
Definition r_rahead : rd rahead := h <- rbytes 4;; n <- ri32;; o <- ri64;; ret {| ra_handle := h; ra_len := n; ra_off := o |}.
(* xrdfs/file.go:73-84 *)
Definition w_fcomp (o : fcomp) : list Z := wi32 (fc_page o) ++ fc_type o.
Definition r_fcomp : rd fcomp := p <- ri32;; t <- rbytes 4;; ret {| fc_page := p; fc_type := t |}.
(* xrdfs/stat.go:144-156 *)
Definition w_estat (o : estat) : list Z :=
  if es_has o then itoa (es_id o) ++ 32 :: itoa (es_size o) ++ 32 :: itoa (es_flags o) ++ 32 :: itoa (es_mtime o) else [].
(* xrdfs/stat.go:160-167: up to a zero or a new line, which is consumed *)
Fixpoint word (l : list Z) : list Z * list Z :=
  match l with
  | [] => ([], [])
  | b :: l' => if (b =? 0) || (b =? 10) then ([], l') else let r := word l' in (b :: fst r, snd r)
  end.
Definition rword : rd (list Z) := fun l => Ok (Some (word l)).
(* strconv.Atoi, an error otherwise *)
Definition ratoi (s : list Z) : rd Z := match atoi s with Some n => ret n | None => fail end.
(* xrdfs/stat.go:159-198 on top of the value the fields are read into *)
Definition r_estat (o : estat) : rd estat :=
  buf <- rword;;
  match split 32 buf with
  | a :: b :: c :: d :: _ =>
      id <- ratoi a;; size <- ratoi b;; flags <- ratoi c;; mtime <- ratoi d;;
      ret {| es_name := es_name o; es_has := true; es_id := id; es_size := size; es_flags := wrapS 32 flags; es_mtime := mtime |}
  | _ => fail
  end.
(* n in a row: for i := range o.X { o.X[i].UnmarshalXrd } *)
Fixpoint rmany {A} (n : nat) (f : rd A) : rd (list A) :=
  match n with O => ret [] | S k => x <- f;; xs <- rmany k f;; ret (x :: xs) end.
(* bytes.TrimRight(data, "\x00") *)
Fixpoint trim0 (l : list Z) : list Z :=
  match l with [] => [] | b :: l' => let r := trim0 l' in match r with [] => if b =? 0 then [] else [b] | _ => b :: r end end.

(* ---- messages ---- *)
Inductive msg :=
| Mping                                                   (* ping/ping.go:18-21 *)
| Mauth (type cred : list Z)                              (* auth/auth.go:17-21 *)
| Mbind (session : list Z)                                (* bind/bind.go:18-21 *)
| MbindR (path : Z)                                       (* bind/bind.go:44-46 *)
| Mchmod (mode : Z) (path : list Z)                       (* chmod/chmod.go:20-24 *)
| Mdecrypt                                                (* decrypt/decrypt.go:18-21 *)
| Mendsess (session : list Z)                             (* endsess/endsess.go:18-21 *)
| Msync (handle : list Z)                                 (* sync/sync.go:19-23 *)
| Mclose (handle : list Z) (size : Z)                     (* xrdclose/xrdclose.go:23-28 *)
| Mrm (path : list Z)                                     (* rm/rm.go:19-22 *)
| Mrmdir (path : list Z)                                  (* rmdir/rmdir.go:19-22 *)
| Mtruncate (handle : list Z) (size : Z) (path : list Z)  (* truncate/truncate.go:21-26 *)
| Mmkdir (options mode : Z) (path : list Z)               (* mkdir/mkdir.go:29-34 *)
| Mmv (old new : list Z)                                  (* mv/mv.go:23-27 *)
| Mlocate (options : Z) (path : list Z)                   (* locate/locate.go:26-30 *)
| MlocateR (data : list Z)                                (* locate/locate.go:55-57 *)
| Mstatx (paths : list Z)                                 (* statx/statx.go:48-51 *)
| MstatxR (flags : list Z)                                (* statx/statx.go:23-25 *)
| Mverifyw (handle : list Z) (off path verif : Z) (data : list Z) (* verifyw/verifyw.go:30-37 *)
| Mwrite (handle : list Z) (off path : Z) (data : list Z) (* write/write.go:20-26 *)
| Madmin (req : list Z)                                   (* admin/admin.go:18-21 *)
| MadminR (data : list Z)                                 (* admin/admin.go:44-46 *)
| Mhandshake (a b c d e : Z)                              (* handshake/handshake.go:39 *)
| MhandshakeR (version type : Z)                          (* handshake/handshake.go:16-19 *)
| Mstat (options : Z) (handle path : list Z)              (* stat/stat.go:51-56 *)
| MstatR (st : estat)                                     (* stat/stat.go:21-23, xrdfs/stat.go:42-49 *)
| MvfsR (nrw frw urw nstg fstg ustg : Z)                  (* stat/stat.go:33-35, xrdfs/stat.go:201-208 *)
| Msigver (id version flags seq crypto : Z) (sig : list Z) (* sigver/sigver.go:29-37 *)
| Mquery (query : Z) (handle args : list Z)               (* query/query.go:34-40 *)
| MqueryR (data : list Z)                                 (* query/query.go:74-76 *)
| Mprepare (options prio port : Z) (paths : list (list Z)) (* prepare/prepare.go:31-37 *)
| MprepareR (data : list Z)                               (* prepare/prepare.go:88-90 *)
| Mlogin (pid : Z) (user : list Z) (ability cap role : Z) (token : list Z) (* login/login.go:52-60 *)
| MloginR (session info : list Z)                         (* login/login.go:29-32 *)
| Mopen (mode options : Z) (path : list Z)                (* open/open.go:71-76 *)
| MopenR (handle : list Z) (comp : option fcomp) (st : option estat) (* open/open.go:22-26 *)
| Mdirlist (options : Z) (path : list Z)                  (* dirlist/dirlist.go:141-145 *)
| MdirlistR (entries : list estat) (withstat : bool)      (* dirlist/dirlist.go:26-29 *)
| Mprotocol (version options : Z)                         (* protocol/protocol.go:62-67 *)
| MprotocolR (version flags : Z) (sec : option (Z * Z * Z * list sover)) (* protocol/protocol.go:98-108 *)
| Mread (handle : list Z) (off len : Z) (opt : option (Z * list rahead)) (* read/read.go:48-63 *)
| MreadR (data : list Z)                                  (* read/read.go:22-24 *)
| Mreqhdr (stream : list Z) (id : Z)                      (* xrdproto.go:186-189 *)
| Mresphdr (stream : list Z) (status len : Z)             (* xrdproto.go:140-144 *)
| Mwait (seconds : Z)                                     (* xrdproto.go:78-80; whole seconds only *)
| Merror (code : Z) (message : list Z).                   (* xrdproto.go:95-98 *)
Inductive kind := Kping | Kauth | Kbind | KbindR | Kchmod | Kdecrypt | Kendsess | Ksync | Kclose | Krm | Krmdir | Ktruncate | Kmkdir | Kmv | Klocate | KlocateR
| Kstatx | KstatxR | Kverifyw | Kwrite | Kadmin | KadminR | Khandshake | KhandshakeR | Kstat | KstatR | KvfsR | Ksigver | Kquery | KqueryR | Kprepare | KprepareR
| Klogin | KloginR | Kopen | KopenR | Kdirlist | KdirlistR | Kprotocol | KprotocolR | Kread | KreadR | Kreqhdr | Kresphdr | Kwait | Kerror.
Definition kind_of (m : msg) : kind :=
  match m with
  | Mping => Kping | Mauth _ _ => Kauth | Mbind _ => Kbind | MbindR _ => KbindR | Mchmod _ _ => Kchmod | Mdecrypt => Kdecrypt | Mendsess _ => Kendsess
  | Msync _ => Ksync | Mclose _ _ => Kclose | Mrm _ => Krm | Mrmdir _ => Krmdir | Mtruncate _ _ _ => Ktruncate | Mmkdir _ _ _ => Kmkdir | Mmv _ _ => Kmv
  | Mlocate _ _ => Klocate | MlocateR _ => KlocateR | Mstatx _ => Kstatx | MstatxR _ => KstatxR | Mverifyw _ _ _ _ _ => Kverifyw | Mwrite _ _ _ _ => Kwrite
  | Madmin _ => Kadmin | MadminR _ => KadminR | Mhandshake _ _ _ _ _ => Khandshake | MhandshakeR _ _ => KhandshakeR | Mstat _ _ _ => Kstat | MstatR _ => KstatR
  | MvfsR _ _ _ _ _ _ => KvfsR | Msigver _ _ _ _ _ _ => Ksigver | Mquery _ _ _ => Kquery | MqueryR _ => KqueryR | Mprepare _ _ _ _ => Kprepare
  | MprepareR _ => KprepareR | Mlogin _ _ _ _ _ _ => Klogin | MloginR _ _ => KloginR | Mopen _ _ _ => Kopen | MopenR _ _ _ => KopenR
  | Mdirlist _ _ => Kdirlist | MdirlistR _ _ => KdirlistR | Mprotocol _ _ => Kprotocol | MprotocolR _ _ _ => KprotocolR | Mread _ _ _ _ => Kread
  | MreadR _ => KreadR | Mreqhdr _ _ => Kreqhdr | Mresphdr _ _ _ => Kresphdr | Mwait _ => Kwait | Merror _ _ => Kerror
  end.

(* dirlist.go:56-77, entries already with the leading dot *)
Fixpoint w_entries (ws : bool) (l : list estat) : list Z :=
  match l with
  | [] => []
  | e :: l' =>
      let sep := match l' with [] => 0 | _ => 10 end in
      (if ws then es_name e ++ 10 :: w_estat e ++ [sep] else es_name e ++ [sep]) ++ w_entries ws l'
  end.
Definition dot : estat := {| es_name := [46]; es_has := true; es_id := 0; es_size := 0; es_flags := 0; es_mtime := 0 |}.
(* dirlist.go:35-80 *)
Definition w_dirlist (es : list estat) (ws : bool) : option (list Z) :=
  let es' := if ws then dot :: es else es in
  if forallb (fun e => Bool.eqb (es_has e) ws) es' then Some (w_entries ws es') else None.

(* MarshalXrd of each message (files as in msg); None is an error *)
Definition encode (m : msg) : option (list Z) :=
  match m with
  | Mping => Some (next 20)
  | Mauth t c => Some (next 12 ++ t ++ wstr c)
  | Mbind s => Some (s ++ next 4)
  | MbindR p => Some (wu8 p)
  | Mchmod m p => Some (next 14 ++ wu16 m ++ wstr p)
  | Mdecrypt => Some (next 16 ++ wi32 0)
  | Mendsess s => Some (s ++ wi32 0)
  | Msync h => Some (h ++ next 16)
  | Mclose h n => Some (h ++ wi64 n ++ next 8)
  | Mrm p => Some (next 16 ++ wstr p)
  | Mrmdir p => Some (next 16 ++ wstr p)
  | Mtruncate h n p => Some (h ++ wi64 n ++ next 4 ++ wstr p)
  | Mmkdir o m p => Some (wu8 o ++ next 13 ++ wu16 m ++ wstr p)
  | Mmv a b => Some (next 14 ++ wu16 (zlen a) ++ wlen (zlen a + zlen b + 1) ++ a ++ [32] ++ b)
  | Mlocate o p => Some (wu16 o ++ next 14 ++ wstr p)
  | MlocateR d | MadminR d | MqueryR d | MprepareR d | MreadR d => Some d
  | Mstatx p => Some (next 16 ++ wstr p)
  | MstatxR fs => Some (concat (map wu8 fs))
  | Mverifyw h o p v d => Some (h ++ wi64 o ++ wu8 p ++ wu8 v ++ next 2 ++ wlen (zlen d) ++ d)
  | Mwrite h o p d => Some (h ++ wi64 o ++ wu8 p ++ next 3 ++ wlen (zlen d) ++ (if p =? 0 then d else []))
  | Madmin r => Some (next 16 ++ wstr r)
  | Mhandshake a b c d e => Some (wi32 a ++ wi32 b ++ wi32 c ++ wi32 d ++ wi32 e)
  | MhandshakeR v t => Some (wi32 v ++ wi32 t)
  | Mstat o h p => Some (wu8 o ++ next 11 ++ h ++ wstr p)
  | MstatR s => Some (w_estat s)
  | MvfsR a b c d e f => Some (itoa a ++ 32 :: itoa b ++ 32 :: itoa c ++ 32 :: itoa d ++ 32 :: itoa e ++ 32 :: itoa f)
  | Msigver i v f s c g => Some (wu16 i ++ wu8 v ++ wu8 f ++ wi64 s ++ wu8 c ++ next 3 ++ wlen (zlen g) ++ g)
  | Mquery q h a => Some (wu16 q ++ next 2 ++ h ++ next 8 ++ wi32 (wrapS 32 (zlen a)) ++ a)
  | Mprepare o pr po ps => Some (wu8 o ++ wu8 pr ++ wu16 po ++ next 12 ++ wi32 (wrapS 32 (zlen (join 10 ps))) ++ join 10 ps)
  | Mlogin p u a c r t => Some (wi32 p ++ u ++ next 1 ++ wu8 a ++ wu8 c ++ wu8 r ++ wlen (zlen t) ++ t)
  | MloginR s i => Some (s ++ i)
  | Mopen m o p => Some (wu16 m ++ wu16 o ++ next 12 ++ wstr p)
  | MopenR h c s => Some (h ++ match c with None => [] | Some c => w_fcomp c ++ match s with None => [] | Some s => w_estat s end end)
  | Mdirlist o p => Some (next 15 ++ wu8 o ++ wstr p)
  | MdirlistR es ws => w_dirlist es ws
  | Mprotocol v o => Some (wi32 v ++ wu8 o ++ next 15)
  | MprotocolR v f s =>
      Some (wi32 v ++ wi32 f ++ match s with
        | None => []
        | Some (sv, so, sl, ovs) => wu8 83 ++ next 1 ++ wu8 sv ++ wu8 so ++ wu8 sl ++ wu8 (zlen ovs) ++ concat (map w_sover ovs)
        end)
  | Mread h o n opt =>
      Some (h ++ wi64 o ++ wi32 n ++ match opt with
        | None => wlen 0
        | Some (p, ras) => wlen (zlen ras * 16 + 8) ++ wu8 p ++ next 7 ++ concat (map w_rahead ras)
        end)
  | Mreqhdr s i => Some (s ++ wu16 i)
  | Mresphdr s st n => Some (s ++ wu16 st ++ wi32 n)
  | Mwait s => Some (wi32 (wrapS 32 s))
  | Merror c m => Some (wi32 c ++ m ++ [0])
  end.

(* mv.go:41-57 *)
Definition index_byte (c : Z) (s : list Z) : Z :=
  (fix go i s := match s with [] => -1 | b :: s' => if b =? c then i else go (i + 1) s' end) 0 s.
Definition d_mv : rd msg :=
  _ <- skip 14;; n <- ru16;; ps <- rstr;;
  if zlen ps <=? n then fail
  else
    let n := if n =? 0 then index_byte 32 ps else n in
    if n =? -1 then fail else ret (Mmv (firstn (Z.to_nat n) ps) (skipn (Z.to_nat n + 1) ps)).
(* dirlist.go:128-135 *)
Fixpoint d_pairs (ls : list (list Z)) : res (option (list estat)) :=
  match ls with
  | n :: s :: ls' =>
      match r_estat es0 s with
      | Panic => Panic
      | Ok None => Ok None
      | Ok (Some (e, _)) =>
          match d_pairs ls' with
          | Ok (Some es) => Ok (Some ({| es_name := n; es_has := es_has e; es_id := es_id e; es_size := es_size e; es_flags := es_flags e; es_mtime := es_mtime e |} :: es))
          | r => r
          end
      end
  | _ => Ok (Some [])
  end.
Definition dotline : list Z := [46; 10; 48; 32; 48; 32; 48; 32; 48].
Definition has_prefix (p l : list Z) : bool := str_eqb (firstn (length p) l) p.
(* dirlist.go:99-138; with no bytes the fields keep their zero values *)
Definition d_dirlist : rd msg := fun l =>
  match l with
  | [] => Ok (Some (MdirlistR [] false, []))
  | _ =>
      let data := trim0 l in
      let lines := split 10 data in
      if negb (has_prefix (dotline ++ [10]) data || str_eqb data dotline)
      then Ok (Some (MdirlistR (map (fun v => {| es_name := v; es_has := false; es_id := 0; es_size := 0; es_flags := 0; es_mtime := 0 |}) lines) false, []))
      else if Nat.odd (length lines) then Ok None
      else match d_pairs (skipn 2 lines) with
           | Panic => Panic | Ok None => Ok None
           | Ok (Some es) => Ok (Some (MdirlistR es true, []))
           end
  end.
(* protocol.go:164-184 *)
Definition d_protocolR : rd msg :=
  v <- ri32;; f <- ri32;; n <- rlen;;
  if n =? 0 then ret (MprotocolR v f None)
  else _ <- skip 1;; _ <- skip 1;; sv <- ru8;; so <- ru8;; sl <- ru8;; k <- ru8;; ovs <- rmany (Z.to_nat k) r_sover;; ret (MprotocolR v f (Some (sv, so, sl, ovs))).
(* read.go:81-100, 146-159 *)
Definition d_read : rd msg :=
  h <- rbytes 4;; o <- ri64;; n <- ri32;; k <- rlen;;
  if 4 <? k then
    alen <- ri32;; p <- ru8;; _ <- skip 7;;
    if (alen <? 8) || negb ((alen - 8) mod 16 =? 0) then fail
    else if alen <=? 8 then ret (Mread h o n (Some (p, [])))
    else ras <- rmany (Z.to_nat ((alen - 8) / 16)) r_rahead;; ret (Mread h o n (Some (p, ras)))
  else alen <- ri32;; if alen =? 0 then ret (Mread h o n None) else fail.
(* open.go:48-65 *)
Definition d_openR : rd msg :=
  h <- rbytes 4;; n <- rlen;;
  if n =? 0 then ret (MopenR h None None)
  else c <- r_fcomp;; n <- rlen;; if n =? 0 then ret (MopenR h (Some c) None) else s <- r_estat es0;; ret (MopenR h (Some c) (Some s)).
(* xrdproto.go:123-131 *)
Definition d_error : rd msg :=
  c <- ri32;; d <- rall;; match d with [] => fail | _ => ret (Merror c (removelast d)) end.
(* UnmarshalXrd into a zero value *)
Definition decode (k : kind) : rd msg :=
  match k with
  | Kping => _ <- skip 20;; ret Mping
  | Kauth => _ <- skip 12;; t <- rbytes 4;; c <- rstr;; ret (Mauth t c)
  | Kbind => s <- rbytes 16;; _ <- skip 4;; ret (Mbind s)
  | KbindR => p <- ru8;; ret (MbindR p)
  | Kchmod => _ <- skip 14;; m <- ru16;; p <- rstr;; ret (Mchmod m p)
  | Kdecrypt => _ <- skip 16;; _ <- ri32;; ret Mdecrypt
  | Kendsess => s <- rbytes 16;; _ <- ri32;; ret (Mendsess s)
  | Ksync => h <- rbytes 4;; _ <- skip 16;; ret (Msync h)
  | Kclose => h <- rbytes 4;; n <- ri64;; _ <- skip 8;; ret (Mclose h n)
  | Krm => _ <- skip 16;; p <- rstr;; ret (Mrm p)
  | Krmdir => _ <- skip 16;; p <- rstr;; ret (Mrmdir p)
  | Ktruncate => h <- rbytes 4;; n <- ri64;; _ <- skip 4;; p <- rstr;; ret (Mtruncate h n p)
  | Kmkdir => o <- ru8;; _ <- skip 13;; m <- ru16;; p <- rstr;; ret (Mmkdir o m p)
  | Kmv => d_mv
  | Klocate => o <- ru16;; _ <- skip 14;; p <- rstr;; ret (Mlocate o p)
  | KlocateR => d <- rall;; ret (MlocateR d)
  | Kstatx => _ <- skip 16;; p <- rstr;; ret (Mstatx p)
  | KstatxR => n <- rlen;; fs <- rmany (Z.to_nat n) ru8;; ret (MstatxR fs)
  | Kverifyw => h <- rbytes 4;; o <- ri64;; p <- ru8;; v <- ru8;; _ <- skip 2;; d <- rstr;; ret (Mverifyw h o p v d)
  | Kwrite => h <- rbytes 4;; o <- ri64;; p <- ru8;; _ <- skip 3;; d <- rstr;; ret (Mwrite h o p d)
  | Kadmin => _ <- skip 16;; r <- rstr;; ret (Madmin r)
  | KadminR => d <- rall;; ret (MadminR d)
  | Khandshake => a <- ri32;; b <- ri32;; c <- ri32;; d <- ri32;; e <- ri32;; ret (Mhandshake a b c d e)
  | KhandshakeR => v <- ri32;; t <- ri32;; ret (MhandshakeR v t)
  | Kstat => o <- ru8;; _ <- skip 11;; h <- rbytes 4;; p <- rstr;; ret (Mstat o h p)
  | KstatR => s <- r_estat es0;; ret (MstatR s)
  | KvfsR =>
      buf <- rword;;
      match split 32 buf with
      | a :: b :: c :: d :: e :: f :: _ => a <- ratoi a;; b <- ratoi b;; c <- ratoi c;; d <- ratoi d;; e <- ratoi e;; f <- ratoi f;; ret (MvfsR a b c d e f)
      | _ => fail
      end
  | Ksigver => i <- ru16;; v <- ru8;; f <- ru8;; s <- ri64;; c <- ru8;; _ <- skip 3;; g <- rstr;; ret (Msigver i v f s c g)
  | Kquery => q <- ru16;; _ <- skip 2;; h <- rbytes 4;; _ <- skip 8;; n <- ri32;; a <- (if 0 <? n then rbytes n else ret []);; ret (Mquery q h a)
  | KqueryR => d <- rall;; ret (MqueryR d)
  | Kprepare => o <- ru8;; pr <- ru8;; po <- ru16;; _ <- skip 12;; n <- ri32;; raw <- rbytes n;; ret (Mprepare o pr po (if n =? 0 then [] else split 10 raw))
  | KprepareR => d <- rall;; ret (MprepareR d)
  | Klogin => p <- ri32;; u <- rbytes 8;; _ <- skip 1;; a <- ru8;; c <- ru8;; r <- ru8;; t <- rstr;; ret (Mlogin p u a c r t)
  | KloginR => s <- rbytes 16;; i <- rall;; ret (MloginR s i)
  | Kopen => m <- ru16;; o <- ru16;; _ <- skip 12;; p <- rstr;; ret (Mopen m o p)
  | KopenR => d_openR
  | Kdirlist => _ <- skip 15;; o <- ru8;; p <- rstr;; ret (Mdirlist o p)
  | KdirlistR => d_dirlist
  | Kprotocol => v <- ri32;; o <- ru8;; _ <- skip 15;; ret (Mprotocol v o)
  | KprotocolR => d_protocolR
  | Kread => d_read
  | KreadR => d <- rall;; ret (MreadR d)
  | Kreqhdr => s <- rbytes 2;; i <- ru16;; ret (Mreqhdr s i)
  | Kresphdr => s <- rbytes 2;; st <- ru16;; n <- ri32;; ret (Mresphdr s st n)
  | Kwait => s <- ri32;; ret (Mwait s)
  | Kerror => d_error
  end.

(* ---- framing ---- *)
(* a transport: the pieces its successive reads find available; none left is io.EOF *)
Definition conn := list (list Z).
(* io.ReadFull (Go standard library): reads until n bytes are there; None for EOF or unexpected EOF.
   One turn is one Read, which gives at most the piece at hand; the empty piece is a read of no bytes. *)
Fixpoint readFull (c : conn) (n : nat) : option (list Z * conn) :=
  match n with
  | O => Some ([], c)
  | _ =>
      match c with
      | [] => None
      | p :: c' =>
          if (n <? length p)%nat then Some (firstn n p, skipn n p :: c')
          else match readFull c' (n - length p) with Some (b, c'') => Some (p ++ b, c'') | None => None end
      end
  end.
(* xrdproto.go:332-351 *)
Definition readRequest (c : conn) : option (list Z * conn) :=
  match readFull c 24 with
  | None => None
  | Some (h, c1) =>
      let n := unbe (skipn 20 h) in
      if n =? 0 then Some (h, c1)
      else match readFull c1 (Z.to_nat n) with Some (d, c2) => Some (h ++ d, c2) | None => None end
  end.
(* xrdproto.go:358-382; resp is the marshalled response *)
Definition writeResponse (stream : list Z) (status : Z) (resp : list Z) : list Z := stream ++ wu16 status ++ wi32 (wrapS 32 (zlen resp)) ++ resp.
(* xrdproto.go:387-413; make with a negative length panics *)
Definition readResponse (c : conn) : res (option (list Z * Z * list Z * conn)) :=
  match readFull c 8 with
  | None => Ok None
  | Some (h, c1) =>
      let n := wrapS 32 (unbe (skipn 4 h)) in
      let s := firstn 2 h in let st := unbe (firstn 2 (skipn 2 h)) in
      if n =? 0 then Ok (Some (s, st, [], c1))
      else if n <? 0 then Panic
      else match readFull c1 (Z.to_nat n) with Some (d, c2) => Ok (Some (s, st, d, c2)) | None => Ok None end
  end.
(* what the client sends for a request, session.go:350-388: header and message *)
Definition request_bytes (stream : list Z) (id : Z) (m : msg) : option (list Z) :=
  match encode (Mreqhdr stream id), encode m with Some a, Some b => Some (a ++ b) | _, _ => None end.
