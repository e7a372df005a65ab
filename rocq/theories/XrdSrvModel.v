(* Model of the server of xrootd: server.go (handleConnection, handleRequest), default_handler.go and fshandler.go, one request at a
   time, over a file system of plain files.  What Go's os package does on the backing file system is modelled as far as the
   theorems need it: names, contents, open files; permissions, symbolic links, times and full disks are left out, every
   directory exists, and no path of a request on a file names a directory.  The requests on directories are a parameter.  Concurrent requests are in XrdHandleModel.v. *)
From Coq Require Import ZArith List Lia Bool.
From Verif Require Import Bytes GoLib GoStrings XrdModel XrdCliModel.
Import ListNotations.
Local Open Scope Z_scope.

(* ---- paths ---- *)
(* path.Clean (Go standard library, path/path.go) over the elements between slashes; the stack has its top first; 46 is '.', 47 '/' *)
Definition dotdot : list Z := [46; 46].
Definition clean_step (rooted : bool) (stack : list (list Z)) (e : list Z) : list (list Z) :=
  if str_eqb e [] || str_eqb e [46] then stack
  else if str_eqb e dotdot then
    match stack with
    | [] => if rooted then [] else [dotdot]
    | t :: stack' => if str_eqb t dotdot then dotdot :: stack else stack'
    end
  else e :: stack.
Definition clean (p : list Z) : list Z :=
  match p with
  | [] => [46]
  | c :: _ =>
      let rooted := c =? 47 in
      let out := join 47 (rev (fold_left (clean_step rooted) (split 47 p) [])) in
      if rooted then 47 :: out else match out with [] => [46] | _ => out end
  end.
(* path.Join of two elements *)
Definition pjoin (a b : list Z) : list Z :=
  match a, b with
  | [], [] => []
  | [], _ => clean b
  | _, _ => clean (a ++ 47 :: b)
  end.

(* ---- the backing file system and the open files ---- *)
(* an *os.File: the file, whether it may be written, whether it is in append mode, whether it is still open *)
Record fd := { fd_ino : nat; fd_rw : bool; fd_app : bool; fd_open : bool }.
Record srv := {
  o_names : list (list Z * nat);                    (* names of the file system *)
  o_inodes : list (list Z);                         (* contents *)
  o_fds : list fd;                                  (* every *os.File made so far *)
  o_sess : list (Z * list (list Z * nat)) }.        (* fshandler.go:39, 42-45: the handles of each session *)
Fixpoint nget {A} (m : list (list Z * A)) (k : list Z) : option A := match m with [] => None | (j, a) :: m' => if str_eqb j k then Some a else nget m' k end.
Fixpoint sget {A} (m : list (Z * A)) (k : Z) : option A := match m with [] => None | (j, a) :: m' => if j =? k then Some a else sget m' k end.
Definition ndel {A} (m : list (list Z * A)) (k : list Z) : list (list Z * A) := filter (fun x => negb (str_eqb (fst x) k)) m.
Definition sdel {A} (m : list (Z * A)) (k : Z) : list (Z * A) := filter (fun x => negb (fst x =? k)) m.
Fixpoint seti {A} (l : list A) (i : nat) (x : A) : list A := match l, i with [], _ => [] | _ :: l', O => x :: l' | a :: l', S j => a :: seti l' j x end.
(* bits of the options of open, xrdfs/fs.go:84-117 *)
Definition bit (o b : Z) : bool := negb (Z.land o b =? 0).
(* os.OpenFile with the flags of fshandler.go:89-106, 118; MkPath (109-116) has nothing to do since every directory exists *)
Definition os_open (s : srv) (path : list Z) (opts : Z) : option (srv * nat) :=
  let create := bit opts 8 || bit opts 2 in
  let trunc := bit opts 2 in
  let excl := bit opts 8 && negb (bit opts 2) in
  let mk i := {| fd_ino := i; fd_rw := bit opts 32; fd_app := bit opts 512; fd_open := true |} in
  match nget (o_names s) path with
  | Some i =>
      if excl then None
      else Some ({| o_names := o_names s; o_inodes := if trunc then seti (o_inodes s) i [] else o_inodes s; o_fds := o_fds s ++ [mk i]; o_sess := o_sess s |}, length (o_fds s))
  | None =>
      if create then Some ({| o_names := (path, length (o_inodes s)) :: o_names s; o_inodes := o_inodes s ++ [[]]; o_fds := o_fds s ++ [mk (length (o_inodes s))]; o_sess := o_sess s |}, length (o_fds s))
      else None
  end.
Definition setIno (s : srv) (i : nat) (c : list Z) : srv := {| o_names := o_names s; o_inodes := seti (o_inodes s) i c; o_fds := o_fds s; o_sess := o_sess s |}.
Definition content (s : srv) (i : nat) : list Z := nth i (o_inodes s) [].
(* File.WriteAt *)
Definition write_at (c : list Z) (off : Z) (d : list Z) : list Z :=
  firstn (Z.to_nat off) c ++ repeat 0 (Z.to_nat off - length c) ++ d ++ skipn (Z.to_nat off + length d) c.
Definition os_write (s : srv) (f : fd) (off : Z) (d : list Z) : option srv :=
  if fd_app f || (off <? 0) then None
  else match d with
       | [] => Some s
       | _ => if fd_rw f && fd_open f && (off + zlen d <? 2 ^ 63) then Some (setIno s (fd_ino f) (write_at (content s (fd_ino f)) off d)) else None
       end.
(* File.Truncate and os.Truncate *)
Definition resize (c : list Z) (n : Z) : list Z := firstn (Z.to_nat n) c ++ repeat 0 (Z.to_nat n - length c).
Definition os_truncate (s : srv) (i : nat) (ok : bool) (n : Z) : option srv := if ok && (0 <=? n) then Some (setIno s i (resize (content s i) n)) else None.

(* ---- the handler ---- *)
(* a response: status (xrdproto.go:61-74: 0 ok, 4003 error) and message, none for nil *)
Definition reply := (Z * option msg)%type.
(* errors: 3006 invalid request, 3007 IO error (xrdproto.go:103-108); the texts are left out *)
Definition invalid : reply := (4003, Some (Merror 3006 [])).
Definition ioerror : reply := (4003, Some (Merror 3007 [])).
Definition done : reply := (0, None).
Section Server.
Variable base : list Z.                      (* basePath *)
Variable attr : nat -> Z * Z.                (* flags and modification time of a file, as reported by stat *)
Variable dirs : srv -> msg -> reply.         (* what Dirlist, Mkdir and RemoveDir answer *)
Definition handles (s : srv) (sid : Z) : list (list Z * nat) := match sget (o_sess s) sid with Some l => l | None => [] end.
Definition setHandles (s : srv) (sid : Z) (l : list (list Z * nat)) : srv :=
  {| o_names := o_names s; o_inodes := o_inodes s; o_fds := o_fds s; o_sess := (sid, l) :: sdel (o_sess s) sid |}.
(* fshandler.go:254-268 *)
Definition getFile (s : srv) (sid : Z) (h : list Z) : option nat := nget (handles s sid) h.
Definition fd_of (s : srv) (j : nat) : fd := nth j (o_fds s) {| fd_ino := 0; fd_rw := false; fd_app := false; fd_open := false |}.
Definition closeFd (s : srv) (j : nat) : srv :=
  let f := fd_of s j in {| o_names := o_names s; o_inodes := o_inodes s; o_fds := seti (o_fds s) j {| fd_ino := fd_ino f; fd_rw := fd_rw f; fd_app := fd_app f; fd_open := false |}; o_sess := o_sess s |}.
(* xrdfs/stat.go:52-69; the name is left out, neither response sends it *)
Definition entryStat (s : srv) (i : nat) : estat := {| es_name := []; es_has := true; es_id := 0; es_size := zlen (content s i); es_flags := fst (attr i); es_mtime := snd (attr i) |}.
(* fshandler.go:142-171: the first of the handles tried that is free; the session is there when this runs *)
Fixpoint pick (tries : list (list Z)) (used : list (list Z * nat)) : option (list Z) :=
  match tries with [] => None | h :: t => match nget used h with None => Some h | Some _ => pick t used end end.
(* fshandler.go:88-177, where file.Stat does not fail; tries are the random handles *)
Definition doOpen (s : srv) (sid : Z) (tries : list (list Z)) (opts : Z) (p : list Z) : srv * reply :=
  match os_open s (pjoin base p) opts with
  | None => (s, ioerror)
  | Some (s1, j) =>
      let used := handles s1 sid in
      let s2 := setHandles s1 sid used in
      match pick tries used with
      | None => (s2, invalid)
      | Some h =>
          let st := if bit opts 1024 then Some (entryStat s2 (fd_ino (fd_of s2 j))) else None in
          let comp := if bit opts 1024 && negb (bit opts 1) then Some {| fc_page := 0; fc_type := [0; 0; 0; 0] |} else None in
          (setHandles s2 sid ((h, j) :: used), (0, Some (MopenR h comp st)))
      end
  end.
(* fshandler.go:180-209 *)
Definition doClose (s : srv) (sid : Z) (h : list Z) : srv * reply :=
  match getFile s sid h with
  | None => (s, invalid)
  | Some j => (closeFd (setHandles s sid (ndel (handles s sid) h)) j, if fd_open (fd_of s j) then done else ioerror)
  end.
(* fshandler.go:212-231; make panics on a negative length *)
Definition doRead (s : srv) (sid : Z) (h : list Z) (off n : Z) : res reply :=
  match getFile s sid h with
  | None => Ok invalid
  | Some j =>
      let f := fd_of s j in
      do r <- srv_read (content s (fd_ino f)) n off;
      Ok (match r with Some d => if fd_open f || (n =? 0) then (0, Some (MreadR d)) else ioerror | None => ioerror end)
  end.
(* fshandler.go:234-252 *)
Definition doWrite (s : srv) (sid : Z) (h : list Z) (off : Z) (d : list Z) : srv * reply :=
  match getFile s sid h with
  | None => (s, invalid)
  | Some j => match os_write s (fd_of s j) off d with Some s' => (s', done) | None => (s, ioerror) end
  end.
(* fshandler.go:271-303 *)
Definition doStat (s : srv) (sid : Z) (opts : Z) (h p : list Z) : reply :=
  if bit opts 1 then invalid
  else match p with
       | [] => match getFile s sid h with None => invalid | Some j => let f := fd_of s j in if fd_open f then (0, Some (MstatR (entryStat s (fd_ino f)))) else ioerror end
       | _ => match nget (o_names s) (pjoin base p) with None => ioerror | Some i => (0, Some (MstatR (entryStat s i))) end
       end.
(* fshandler.go:306-329 *)
Definition doTruncate (s : srv) (sid : Z) (h : list Z) (n : Z) (p : list Z) : srv * reply :=
  match p with
  | [] =>
      match getFile s sid h with
      | None => (s, invalid)
      | Some j => let f := fd_of s j in match os_truncate s (fd_ino f) (fd_rw f && fd_open f) n with Some s' => (s', done) | None => (s, ioerror) end
      end
  | _ => match nget (o_names s) (pjoin base p) with
         | None => (s, ioerror)
         | Some i => match os_truncate s i true n with Some s' => (s', done) | None => (s, ioerror) end
         end
  end.
(* fshandler.go:332-349 *)
Definition doSync (s : srv) (sid : Z) (h : list Z) : reply :=
  match getFile s sid h with None => invalid | Some j => if fd_open (fd_of s j) then done else ioerror end.
(* fshandler.go:352-361: os.Rename replaces what is there *)
Definition doRename (s : srv) (a b : list Z) : srv * reply :=
  match nget (o_names s) (pjoin base a) with
  | None => (s, ioerror)
  | Some i => ({| o_names := (pjoin base b, i) :: ndel (ndel (o_names s) (pjoin base a)) (pjoin base b); o_inodes := o_inodes s; o_fds := o_fds s; o_sess := o_sess s |}, done)
  end.
(* fshandler.go:380-388 *)
Definition doRemove (s : srv) (p : list Z) : srv * reply :=
  match nget (o_names s) (pjoin base p) with
  | None => (s, ioerror)
  | Some _ => ({| o_names := ndel (o_names s) (pjoin base p); o_inodes := o_inodes s; o_fds := o_fds s; o_sess := o_sess s |}, done)
  end.
(* fshandler.go:402-422 *)
Definition closeSession (s : srv) (sid : Z) : srv :=
  let s' := fold_left (fun s x => closeFd s (snd x)) (handles s sid) s in
  {| o_names := o_names s'; o_inodes := o_inodes s'; o_fds := o_fds s'; o_sess := sdel (o_sess s') sid |}.
(* xrootd/server.go:242-356 after the decoding, default_handler.go:39-52; sid is written as the 16 bytes of the session *)
Definition handle (sidb : list Z) (s : srv) (sid : Z) (tries : list (list Z)) (m : msg) : res (srv * reply) :=
  match m with
  | Mlogin _ _ _ _ _ _ => Ok (s, (0, Some (MloginR sidb [])))
  | Mprotocol _ _ => Ok (s, (0, Some (MprotocolR 784 1 None)))
  | Mping => Ok (s, done)
  | Mopen _ o p => Ok (doOpen s sid tries o p)
  | Mclose h _ => Ok (doClose s sid h)
  | Mread h o n _ => do r <- doRead s sid h o n; Ok (s, r)
  | Mwrite h o _ d => Ok (doWrite s sid h o d)
  | Mstat o h p => Ok (s, doStat s sid o h p)
  | Msync h => Ok (s, doSync s sid h)
  | Mtruncate h n p => Ok (doTruncate s sid h n p)
  | Mmv a b => Ok (doRename s a b)
  | Mrm p => Ok (doRemove s p)
  | Mdirlist _ _ | Mmkdir _ _ _ | Mrmdir _ => Ok (s, dirs s m)
  | _ => Ok (s, invalid)
  end.
(* xrootd/server.go:243-355: which request an id stands for; None is an unknown id *)
Definition kind_of_id (id : Z) : option kind :=
  if id =? 3007 then Some Klogin else if id =? 3006 then Some Kprotocol else if id =? 3004 then Some Kdirlist else if id =? 3010 then Some Kopen
  else if id =? 3003 then Some Kclose else if id =? 3013 then Some Kread else if id =? 3019 then Some Kwrite else if id =? 3017 then Some Kstat
  else if id =? 3016 then Some Ksync else if id =? 3028 then Some Ktruncate else if id =? 3009 then Some Kmv else if id =? 3008 then Some Kmkdir
  else if id =? 3011 then Some Kping else if id =? 3014 then Some Krm else if id =? 3015 then Some Krmdir else None.
(* xrootd/server.go:190-197: the stream of the response, and the response *)
Definition handleFrame (sidb : list Z) (s : srv) (sid : Z) (tries : list (list Z)) (req : list Z) : res (srv * (list Z * reply)) :=
  do h <- decode Kreqhdr req;
  match h with
  | Some (Mreqhdr stream id, body) =>
      match kind_of_id id with
      | None => Ok (s, (stream, invalid))
      | Some k =>
          do d <- decode k body;
          match d with
          | None => Ok (s, (stream, invalid))
          | Some (m, _) => do r <- handle sidb s sid tries m; Ok (fst r, (stream, snd r))
          end
      end
  | _ => Ok (s, ([0; 0], invalid))
  end.
(* xrdproto.go:358-382; nothing is sent when the response cannot be written as bytes *)
Definition replyBytes (stream : list Z) (r : reply) : list Z :=
  match snd r with
  | None => writeResponse stream (fst r) []
  | Some m => match encode m with Some b => writeResponse stream (fst r) b | None => [] end
  end.
(* xrootd/server.go:158-209 for a client that waits for each response before it sends the next request: n requests read from the
   connection, the bytes sent back; tries gives the random handles of each *)
Fixpoint serve (sidb : list Z) (n : nat) (s : srv) (sid : Z) (tries : nat -> list (list Z)) (c : conn) : res (srv * list Z) :=
  match n with
  | O => Ok (s, [])
  | S k =>
      match readRequest c with
      | None => Ok (s, [])
      | Some (req, c') =>
          do r <- handleFrame sidb s sid (tries n) req;
          let '(s', (stream, rep)) := r in
          do q <- serve sidb k s' sid tries c';
          Ok (fst q, replyBytes stream rep ++ snd q)
      end
  end.
(* a history: requests of any sessions, and ends of sessions (xrootd/server.go:146-150); the responses *)
Inductive event := Req (sid : Z) (tries : list (list Z)) (m : msg) | End (sid : Z).
Fixpoint run (sidb : Z -> list Z) (s : srv) (es : list event) : res (srv * list reply) :=
  match es with
  | [] => Ok (s, [])
  | Req sid tries m :: es' =>
      do r <- handle (sidb sid) s sid tries m;
      do q <- run sidb (fst r) es';
      Ok (fst q, snd r :: snd q)
  | End sid :: es' => run sidb (closeSession s sid) es'
  end.
End Server.
