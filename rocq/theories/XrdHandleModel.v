(* Model of the sessions and file handles of an xrootd server (xrootd/fshandler.go) when requests run concurrently: every request of
   a connection runs in a goroutine of its own (xrootd/server.go:183-208), and the end of the connection ends the session (xrootd/server.go:146-150).
   A step of a thread is what it does under one lock, or between two of them.  The maps live in shared objects, so a thread keeps
   hold of a session object that has left the map of sessions.  Only handles and open files are in the state. *)
From Coq Require Import ZArith List Lia Bool.
From Verif Require Import Bytes GoLib GoStrings XrdSrvModel.
Import ListNotations.
Local Open Scope Z_scope.

Inductive pc :=
(* Open: tries are the random handles, ok whether os.OpenFile gives a file *)
| POpen (tries : list (list Z)) (ok : bool)
| POpened (tries : list (list Z)) (f : nat)             (* before fshandler.go:126 *)
| PMiss (tries : list (list Z)) (f : nat)               (* before fshandler.go:130 *)
| PHave (tries : list (list Z)) (f : nat) (o : nat)     (* before fshandler.go:140 *)
| RHandle (h : list Z) (f : nat) | RNone (f : nat) | RFail
(* Read, Write, Stat, Truncate and Sync on a handle *)
| PUse (h : list Z) | PUseSess (h : list Z) (o : nat) | PUseFile (h : list Z) (f : nat) | RUsed (h : list Z) (f : nat) (ok : bool)
(* Close *)
| PClose (h : list Z) | PCloseSess (h : list Z) (o : nat) | RClosed (h : list Z) (f : nat) (ok : bool)
| RInvalid
(* CloseSession *)
| PEnd | PEndSess (o : nat) | REnded.
Record hst := {
  t_sess : list (Z * nat);                       (* fshandler.go:39: the object of a session *)
  t_objs : list (list (list Z * nat));           (* fshandler.go:42-45: the handles of each session object made so far *)
  t_fds : list (Z * bool);                       (* every file opened so far: for which session, and whether it is open *)
  t_ended : list Z;                              (* sessions whose connection is closed *)
  t_thr : list (Z * pc) }.                       (* every request so far, with its session *)
Definition tab (st : hst) (o : nat) : list (list Z * nat) := nth o (t_objs st) [].
Definition is_open (st : hst) (f : nat) : bool := snd (nth f (t_fds st) (0, false)).
Definition owner (st : hst) (f : nat) : Z := fst (nth f (t_fds st) (0, false)).
Definition close1 (fds : list (Z * bool)) (f : nat) : list (Z * bool) := seti fds f (fst (nth f fds (0, false)), false).
Definition with_obj (st : hst) (o : nat) (l : list (list Z * nat)) : hst := {| t_sess := t_sess st; t_objs := seti (t_objs st) o l; t_fds := t_fds st; t_ended := t_ended st; t_thr := t_thr st |}.
Definition with_fds (st : hst) (l : list (Z * bool)) : hst := {| t_sess := t_sess st; t_objs := t_objs st; t_fds := l; t_ended := t_ended st; t_thr := t_thr st |}.
(* one step of a thread; None when it has returned *)
Definition act (st : hst) (sid : Z) (p : pc) : option (hst * pc) :=
  match p with
  (* fshandler.go:118-124 *)
  | POpen tries ok => if ok then Some (with_fds st (t_fds st ++ [(sid, true)]), POpened tries (length (t_fds st))) else Some (st, RFail)
  (* fshandler.go:126-129 *)
  | POpened tries f => match sget (t_sess st) sid with Some o => Some (st, PHave tries f o) | None => Some (st, PMiss tries f) end
  (* fshandler.go:130-137 *)
  | PMiss tries f =>
      match sget (t_sess st) sid with
      | Some o => Some (st, PHave tries f o)
      | None => Some ({| t_sess := (sid, length (t_objs st)) :: t_sess st; t_objs := t_objs st ++ [[]]; t_fds := t_fds st; t_ended := t_ended st; t_thr := t_thr st |}, PHave tries f (length (t_objs st)))
      end
  (* fshandler.go:140-176 *)
  | PHave tries f o => match pick tries (tab st o) with Some h => Some (with_obj st o ((h, f) :: tab st o), RHandle h f) | None => Some (st, RNone f) end
  (* fshandler.go:255-260 *)
  | PUse h => match sget (t_sess st) sid with Some o => Some (st, PUseSess h o) | None => Some (st, RInvalid) end
  (* fshandler.go:261-267 *)
  | PUseSess h o => match nget (tab st o) h with Some f => Some (st, PUseFile h f) | None => Some (st, RInvalid) end
  (* fshandler.go:222, 243: os.File refuses when it is closed *)
  | PUseFile h f => Some (st, RUsed h f (is_open st f))
  (* fshandler.go:181-190 *)
  | PClose h => match sget (t_sess st) sid with Some o => Some (st, PCloseSess h o) | None => Some (st, RInvalid) end
  (* fshandler.go:191-208 *)
  | PCloseSess h o =>
      match nget (tab st o) h with
      | Some f => Some (with_fds (with_obj st o (ndel (tab st o) h)) (close1 (t_fds st) f), RClosed h f (is_open st f))
      | None => Some (st, RInvalid)
      end
  (* fshandler.go:403-411 *)
  | PEnd =>
      match sget (t_sess st) sid with
      | Some o => Some ({| t_sess := sdel (t_sess st) sid; t_objs := t_objs st; t_fds := t_fds st; t_ended := t_ended st; t_thr := t_thr st |}, PEndSess o)
      | None => Some (st, REnded)
      end
  (* fshandler.go:412-421 *)
  | PEndSess o => Some (with_fds st (fold_left (fun fds x => close1 fds (snd x)) (tab st o) (t_fds st)), REnded)
  | RHandle _ _ | RNone _ | RFail | RUsed _ _ _ | RClosed _ _ _ | RInvalid | REnded => None
  end.
Definition start (p : pc) : bool := match p with POpen _ _ | PUse _ | PClose _ => true | _ => false end.
Definition with_thr (st : hst) (l : list (Z * pc)) : hst := {| t_sess := t_sess st; t_objs := t_objs st; t_fds := t_fds st; t_ended := t_ended st; t_thr := l |}.
Inductive step : hst -> hst -> Prop :=
(* a request arrives: not after the connection is closed *)
| s_req st sid p : ~ In sid (t_ended st) -> start p = true -> step st (with_thr st (t_thr st ++ [(sid, p)]))
(* the connection is closed *)
| s_end st sid : ~ In sid (t_ended st) ->
    step st {| t_sess := t_sess st; t_objs := t_objs st; t_fds := t_fds st; t_ended := sid :: t_ended st; t_thr := t_thr st ++ [(sid, PEnd)] |}
| s_act st i sid p st' p' : nth_error (t_thr st) i = Some (sid, p) -> act st sid p = Some (st', p') -> step st (with_thr st' (seti (t_thr st) i (sid, p'))).
Inductive steps : hst -> hst -> Prop :=
| steps_refl st : steps st st
| steps_more st1 st2 st3 : steps st1 st2 -> step st2 st3 -> steps st1 st3.
Definition init : hst := {| t_sess := []; t_objs := []; t_fds := []; t_ended := []; t_thr := [] |}.
Definition reach (st : hst) : Prop := steps init st.
