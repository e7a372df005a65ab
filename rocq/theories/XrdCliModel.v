(* Model of the client side of xrootd above the codecs: opaque data of paths (xrdproto.go and the SetOpaque of each request),
   request signing (xrdproto/signing, xrdproto/sigver, session.go), redirections (internal/mux/mux.go, client.go) and files
   (file.go, xrdio/xrdio.go) over a server that answers as fshandler.go. *)
From Coq Require Import ZArith List Lia Bool.
From Verif Require Import Bytes GoLib GoStrings XrdModel.
Import ListNotations.
Local Open Scope Z_scope.

(* ---- opaque data ---- *)
(* strings.LastIndex(s, c) for one byte; None is -1 *)
Fixpoint last_index (c : Z) (s : list Z) : option nat :=
  match s with
  | [] => None
  | b :: s' => match last_index c s' with Some i => Some (S i) | None => if b =? c then Some O else None end
  end.
(* xrdproto.go:315-321; 63 is '?' *)
Definition setOpaque (path opaque : list Z) : list Z :=
  (match last_index 63 path with Some i => firstn i path | None => path end) ++ [63] ++ opaque.
(* xrdproto.go:324-327 *)
Definition opaque (path : list Z) : list Z :=
  match last_index 63 path with Some i => skipn (i + 1) path | None => path end.
(* the requests with a path: chmod.go:49-56, dirlist.go:183-190, mkdir.go:61-68, mv.go:66-73, rm.go:45-52, rmdir.go:45-52,
   stat.go:83-90, open.go:79-86, truncate.go:53-64.  None: the request is not a FilepathRequest *)
Definition req_opaque (m : msg) : option (list Z) :=
  match m with
  | Mchmod _ p | Mdirlist _ p | Mmkdir _ _ p | Mmv _ p | Mrm p | Mrmdir p | Mstat _ _ p | Mopen _ _ p | Mtruncate _ _ p => Some (opaque p)
  | _ => None
  end.
Definition req_setOpaque (m : msg) (o : list Z) : msg :=
  match m with
  | Mchmod x p => Mchmod x (setOpaque p o)
  | Mdirlist x p => Mdirlist x (setOpaque p o)
  | Mmkdir x y p => Mmkdir x y (setOpaque p o)
  | Mmv a b => Mmv a (setOpaque b o)
  | Mrm p => Mrm (setOpaque p o)
  | Mrmdir p => Mrmdir (setOpaque p o)
  | Mstat x h p => Mstat x h (setOpaque p o)
  | Mopen x y p => Mopen x y (setOpaque p o)
  | Mtruncate h n p => match p with [] => m | _ => Mtruncate h n (setOpaque p o) end
  | _ => m
  end.

(* ---- which requests are signed ---- *)
(* RequestID of each package; None for what is not a request *)
Definition req_id (m : msg) : option Z :=
  match m with
  | Mauth _ _ => Some 3000 | Mquery _ _ _ => Some 3001 | Mchmod _ _ => Some 3002 | Mclose _ _ => Some 3003 | Mdirlist _ _ => Some 3004
  | Mprotocol _ _ => Some 3006 | Mlogin _ _ _ _ _ _ => Some 3007 | Mmkdir _ _ _ => Some 3008 | Mmv _ _ => Some 3009 | Mopen _ _ _ => Some 3010
  | Mping => Some 3011 | Mread _ _ _ _ => Some 3013 | Mrm _ => Some 3014 | Mrmdir _ => Some 3015 | Msync _ => Some 3016 | Mstat _ _ _ => Some 3017
  | Mwrite _ _ _ _ => Some 3019 | Madmin _ => Some 3020 | Mprepare _ _ _ _ => Some 3021 | Mstatx _ => Some 3022 | Mendsess _ => Some 3023
  | Mbind _ => Some 3024 | Mverifyw _ _ _ _ _ => Some 3026 | Mlocate _ _ => Some 3027 | Mtruncate _ _ _ => Some 3028
  | Msigver _ _ _ _ _ _ => Some 3029 | Mdecrypt => Some 3030
  | _ => None
  end.
(* ShouldSign: open.go:115-123, false in every other package; options 2, 8, 32, 256, 512 of xrdfs/fs.go:84-117 *)
Definition shouldSign (m : msg) : bool :=
  match m with
  | Mopen _ o _ => negb (Z.land o 2 =? 0) || negb (Z.land o 8 =? 0) || negb (Z.land o 32 =? 0) || negb (Z.land o 256 =? 0) || negb (Z.land o 512 =? 0)
  | _ => false
  end.
(* map[uint16]RequestLevel, latest assignment first *)
Definition reqs := list (Z * Z).
Fixpoint lookup (k : Z) (l : reqs) : option Z :=
  match l with [] => None | (k', v) :: l' => if k =? k' then Some v else lookup k l' end.
Definition put_all (ks : list (Z * Z)) (l : reqs) : reqs := rev ks ++ l.
(* signing.go:54-92; levels 0 none, 1 likely, 2 needed (xrdproto.go:261-265) *)
Definition newReqs (level : Z) (ovs : list sover) : reqs :=
  let l := if 1 <=? level then put_all [(3002, 2); (3009, 2); (3010, 1); (3014, 2); (3015, 2); (3028, 2)] [] else [] in
  let l := if 2 <=? level then put_all [(3008, 2); (3010, 2)] l else l in
  let l := if 3 <=? level then put_all [(3003, 2); (3026, 2); (3019, 2)] l else l in
  let l := if 4 <=? level then put_all [(3004, 2); (3013, 2); (3017, 2); (3022, 2); (3016, 2)] l else l in
  put_all (map (fun o => (wrapU 16 (3000 + ov_index o), ov_level o)) ovs) l.
(* signing.go:37-46 *)
Definition needed (l : reqs) (id : Z) (should : bool) : bool :=
  match lookup id l with
  | None => false
  | Some v => if v =? 0 then false else if (v =? 1) && negb should then false else true
  end.
(* sigver.go:71-91 and session.go:430-446.  sha is crypto/sha256, any function here; data is a request with its header.
   data[:24] panics when it is shorter *)
Definition to_hash (id seq : Z) (data : list Z) : res (list Z) :=
  if (id =? 3019) || (id =? 3026) then (if zlen data <? 24 then Panic else Ok (be 8 seq ++ firstn 24 data)) else Ok (be 8 seq ++ data).
Definition sig_request (sha : list Z -> list Z) (id seq : Z) (data : list Z) : res msg :=
  do h <- to_hash id seq data; Ok (Msigver id 0 (if id =? 3019 then 1 else 0) seq 1 (sha h)).
(* the new value of the counter and the bytes sent *)
Definition sign (sha : list Z -> list Z) (seq : Z) (stream : list Z) (id : Z) (data : list Z) : res (Z * list Z) :=
  let seq := wrapS 64 (seq + 1) in
  do m <- sig_request sha id seq data;
  match request_bytes stream 3029 m with Some b => Ok (seq, b ++ data) | None => Panic end.
(* session.go:344-389, what is written on the connection for a request: the counter, the bytes *)
Definition session_out (sha : list Z -> list Z) (rq : reqs) (seq : Z) (stream : list Z) (m : msg) : res (Z * option (list Z)) :=
  match req_id m with
  | None => Ok (seq, None)
  | Some id =>
      match request_bytes stream id m with
      | None => Ok (seq, None)
      | Some d => if needed rq id (shouldSign m) then (do r <- sign sha seq stream id d; Ok (fst r, Some (snd r))) else Ok (seq, Some d)
      end
  end.

(* ---- redirections ---- *)
(* mux.go:66-77 *)
Record redir := { rd_addr : list Z; rd_opaque : list Z; rd_token : list Z }.
(* mux.go:81-97; binary.BigEndian.Uint32 panics on less than four bytes; 58 is ':' *)
Definition parseRedirection (raw : list Z) : res redir :=
  if zlen raw <? 4 then Panic
  else match split 63 (skipn 4 raw) with
       | [] => Panic
       | h :: ps => Ok {| rd_addr := h ++ 58 :: itoa (unbe (firstn 4 raw)); rd_opaque := nth 0 ps []; rd_token := nth 1 ps [] |}
       end.
(* What a server does with one request sent to it: an answer, an error, or a redirection (session.go:344-389). *)
Inductive reply := RAns (data : list Z) | RErr | RRedir (r : redir).
(* The events of a call: connections opened (with the outcome), requests sent (with the reply). *)
Inductive event := EConn (addr token : list Z) (ok : bool) | ESend (addr : list Z) (req : msg) (r : reply).
(* The world: whether a connection succeeds and what is replied, which may depend on all that happened before. *)
Record world := { w_conn : list event -> list Z -> list Z -> bool; w_reply : list event -> list Z -> msg -> reply }.
Inductive outcome := OAns (data : list Z) | OErr | OConnErr | OTooMany | ONoSession.
(* client.go:139-142 and 144-165, the loop; cnt is the number of redirections left; known are the sessions of the client,
   events are the latest first *)
Fixpoint follow (w : world) (cnt : nat) (known : list (list Z)) (addr : list Z) (req : msg) (r : reply) (h : list event)
  : outcome * list Z * list (list Z) * list event :=
  match r with
  | RErr => (OErr, addr, known, h)
  | RAns d => (OAns d, addr, known, h)
  | RRedir rd =>
      match cnt with
      | O => (OTooMany, addr, known, h)
      | S k =>
          let a := rd_addr rd in
          (* client.go:167-189 *)
          let '(known', h', ok) :=
            if existsb (str_eqb a) known then (known, h, true)
            else let ok := w_conn w h a (rd_token rd) in (if ok then a :: known else known, EConn a (rd_token rd) ok :: h, ok) in
          if ok then
            let req' := match req_opaque req with Some _ => req_setOpaque req (rd_opaque rd) | None => req end in
            let r' := w_reply w h' a req' in
            follow w k known' a req' r' (ESend a req' r' :: h')
          else (OConnErr, a, known', h')
      end
  end.
(* client.go:131-165; maxRedirections is 10 (client.go:73) *)
Definition sendSession (w : world) (known : list (list Z)) (addr : list Z) (req : msg) : outcome * list Z * list (list Z) * list event :=
  if existsb (str_eqb addr) known then
    let r := w_reply w [] addr req in follow w 10 known addr req r [ESend addr req r]
  else (ONoSession, [], known, []).

(* ---- files ---- *)
(* os.File.ReadAt over the bytes of a file, as used by fshandler.go:212-231: what is there, at most n bytes; a negative
   length panics in make, a negative offset is an error *)
Definition srv_read (content : list Z) (n off : Z) : res (option (list Z)) :=
  if n <? 0 then Panic
  else if off <? 0 then Ok None
  else Ok (Some (firstn (Z.to_nat n) (skipn (Z.to_nat off) content))).
(* file.go:71-86: the bytes received, and their number as n; n is len(p) *)
Definition file_readAt (content : list Z) (n off : Z) : res (option (list Z)) := srv_read content (wrapS 32 n) off.
(* xrdio.go:27-35 *)
Record xfile := { xf_pos : Z; xf_size : Z }.
(* xrdio.go:43-92 *)
Definition xopen (content : list Z) : xfile := {| xf_pos := 0; xf_size := zlen content |}.
Inductive rerr := RNil | REOF | RFail.
(* xrdio.go:123-133 *)
Definition xread (content : list Z) (f : xfile) (n : Z) : res (xfile * list Z * rerr) :=
  do r <- file_readAt content n (xf_pos f);
  match r with
  | None => Ok (f, [], RFail)
  | Some d =>
      let f' := {| xf_pos := wrapS 64 (xf_pos f + zlen d); xf_size := xf_size f |} in
      Ok (f', d, if xf_pos f' =? xf_size f' then REOF else RNil)
  end.
(* xrdio.go:136-138 *)
Definition xreadAt (content : list Z) (n off : Z) : res (list Z * rerr) :=
  do r <- file_readAt content n off; Ok (match r with None => ([], RFail) | Some d => (d, RNil) end).
(* xrdio.go:153-168; whence 0 start, 1 current, 2 end *)
Definition xseek (content : list Z) (f : xfile) (off whence : Z) : xfile * Z :=
  let p := if whence =? 0 then off else if whence =? 2 then wrapS 64 (zlen content - off) else if whence =? 1 then wrapS 64 (xf_pos f + off) else xf_pos f in
  ({| xf_pos := p; xf_size := xf_size f |}, p).

(* ---- addresses of files ---- *)
(* strings.Index(s, "://") *)
Fixpoint find_scheme (s : list Z) : option nat :=
  match s with
  | [] => None
  | b :: s' => if str_eqb (firstn 3 s) [58; 47; 47] then Some O else match find_scheme s' with Some i => Some (S i) | None => None end
  end.
(* strings.SplitN(s, c, 2): what is before the first c, and after it if there is one *)
Fixpoint cut (c : Z) (s : list Z) : list Z * option (list Z) :=
  match s with
  | [] => ([], None)
  | b :: s' => if b =? c then ([], Some s') else let r := cut c s' in (b :: fst r, snd r)
  end.
Record url := { u_addr : list Z; u_user : list Z; u_path : list Z }.
(* xrdio/parse.go:50-84; hostport says whether net.SplitHostPort accepts an address; 64 is '@', 91 and 93 brackets *)
Definition parseUA (hostport : list Z -> bool) (s : list Z) : option (list Z * list Z) :=
  let '(user, addr) := match cut 64 s with (a, Some b) => (fst (cut 58 a), b) | (_, None) => ([], s) end in
  let check :=
    match addr with
    | 91 :: _ => let rest := match last_index 93 addr with Some i => skipn (i + 1) addr | None => addr end in
                 if existsb (Z.eqb 58) rest then hostport addr else true
    | _ => if existsb (Z.eqb 58) addr then hostport addr else true
    end in
  if check then Some (user, addr) else None.
(* xrdio/parse.go:21-48; tok[1] panics when there is no '/' after the address *)
Definition parseURL (hostport : list Z -> bool) (name : list Z) : res (option url) :=
  let strip p := match p with 47 :: (47 :: _) as q => q | _ => p end in
  match find_scheme name with
  | None => Ok (Some {| u_addr := []; u_user := []; u_path := strip name |})
  | Some i =>
      let '(ua, rest) := cut 47 (skipn (i + 3) name) in
      match parseUA hostport ua with
      | None => Ok None
      | Some (user, addr) =>
          match rest with
          | None => Panic
          | Some p => Ok (Some {| u_addr := addr; u_user := user; u_path := strip (47 :: p) |})
          end
      end
  end.
