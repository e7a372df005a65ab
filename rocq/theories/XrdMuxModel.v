(* Model of xrootd/internal/mux/mux.go and of the reading side of xrootd/session.go (consume, send).
   Mux: a transition system; every step is what one goroutine does between two points where another may run.  A mutex held over
   a blocking channel send is the field mlock.  Channels are numbers; channel buffers are as in the code (freeIDs 32, responses 0).
   Close sets the flag in one step; its loop over the map, which takes no lock, is a sequence of SendData and Unclaim of its ids. *)
From Coq Require Import ZArith List Lia Bool.
From Verif Require Import Bytes GoLib.
Import ListNotations.
Local Open Scope Z_scope.

Definition pool : Z := 255 * 255. (* mux.go:102-103 *)
(* mux.go:165-166: the two bytes of the stream id *)
Definition stream_of (id : Z) : list Z := [Z.shiftr id 8 mod 256; id mod 256].

(* mux.go:108-114, and the goroutines inside Claim: the channel each has made and the id it has taken, if any *)
Record mux := {
  mw : list (Z * nat);              (* dataWaiters *)
  mnext : nat;                      (* channels made so far *)
  mgen : Z;                         (* i of the generator, mux.go:127 *)
  mbuf : list Z;                    (* freeIDs *)
  mclaims : list (nat * option Z);
  mlock : option (nat * Z);         (* SendData waiting for the receiver of a channel *)
  mclosed : bool;
  mquit : bool }.                   (* freeIDs closed *)
Definition mux0 : mux := {| mw := []; mnext := 0; mgen := 0; mbuf := []; mclaims := []; mlock := None; mclosed := false; mquit := false |}.

Fixpoint waiter (id : Z) (l : list (Z * nat)) : option nat :=
  match l with [] => None | (i, c) :: l' => if i =? id then Some c else waiter id l' end.
Definition unwait (id : Z) (l : list (Z * nat)) : list (Z * nat) := filter (fun x => negb (fst x =? id)) l.
Definition drop (ch : nat) (l : list (nat * option Z)) : list (nat * option Z) := filter (fun x => negb (Nat.eqb (fst x) ch)) l.

(* what can be observed: claims that succeed, ends of claims, data given to SendData, data received from a channel *)
Inductive lab :=
| LTau                       (* nothing *)
| LStart (ch : nat)          (* a Claim begins *)
| LClaim (id : Z) (ch : nat) (* Claim or ClaimWithID returns *)
| LFail                      (* one of them fails *)
| LUnclaim (id : Z)
| LSend (id : Z) (d : Z)     (* SendData has found the channel *)
| LLost (id : Z) (d : Z)     (* SendData has found none *)
| LRecv (ch : nat) (d : Z)   (* the receiver takes the data and SendData returns *)
| LClose.

Inductive step (s : mux) : lab -> mux -> Prop :=
(* mux.go:129-131 *)
| s_gen : (length (mbuf s) < 32)%nat -> mquit s = false ->
    step s LTau {| mw := mw s; mnext := mnext s; mgen := (mgen s + 1) mod pool; mbuf := mbuf s ++ [mgen s]; mclaims := mclaims s; mlock := mlock s; mclosed := mclosed s; mquit := false |}
(* mux.go:132-134 *)
| s_quit : mclosed s = true ->
    step s LTau {| mw := mw s; mnext := mnext s; mgen := mgen s; mbuf := mbuf s; mclaims := mclaims s; mlock := mlock s; mclosed := true; mquit := true |}
(* mux.go:161-162 *)
| s_start :
    step s (LStart (mnext s)) {| mw := mw s; mnext := S (mnext s); mgen := mgen s; mbuf := mbuf s; mclaims := (mnext s, None) :: mclaims s; mlock := mlock s; mclosed := mclosed s; mquit := mquit s |}
(* mux.go:165; a closed and empty channel gives zero *)
| s_take ch id rest : In (ch, None) (mclaims s) -> mbuf s = id :: rest ->
    step s LTau {| mw := mw s; mnext := mnext s; mgen := mgen s; mbuf := rest; mclaims := (ch, Some id) :: drop ch (mclaims s); mlock := mlock s; mclosed := mclosed s; mquit := mquit s |}
| s_take0 ch : In (ch, None) (mclaims s) -> mbuf s = [] -> mquit s = true ->
    step s LTau {| mw := mw s; mnext := mnext s; mgen := mgen s; mbuf := []; mclaims := (ch, Some 0) :: drop ch (mclaims s); mlock := mlock s; mclosed := mclosed s; mquit := mquit s |}
(* mux.go:168-180 *)
| s_closed ch id : In (ch, Some id) (mclaims s) -> mlock s = None -> mclosed s = true ->
    step s LFail {| mw := mw s; mnext := mnext s; mgen := mgen s; mbuf := mbuf s; mclaims := drop ch (mclaims s); mlock := None; mclosed := true; mquit := mquit s |}
| s_again ch id c : In (ch, Some id) (mclaims s) -> mlock s = None -> mclosed s = false -> waiter id (mw s) = Some c ->
    step s LTau {| mw := mw s; mnext := mnext s; mgen := mgen s; mbuf := mbuf s; mclaims := (ch, None) :: drop ch (mclaims s); mlock := None; mclosed := false; mquit := mquit s |}
| s_claim ch id : In (ch, Some id) (mclaims s) -> mlock s = None -> mclosed s = false -> waiter id (mw s) = None ->
    step s (LClaim id ch) {| mw := (id, ch) :: mw s; mnext := mnext s; mgen := mgen s; mbuf := mbuf s; mclaims := drop ch (mclaims s); mlock := None; mclosed := false; mquit := mquit s |}
(* mux.go:185-200 *)
| s_with id : mlock s = None -> mclosed s = false -> waiter id (mw s) = None ->
    step s (LClaim id (mnext s)) {| mw := (id, mnext s) :: mw s; mnext := S (mnext s); mgen := mgen s; mbuf := mbuf s; mclaims := mclaims s; mlock := None; mclosed := false; mquit := mquit s |}
| s_with_fail id : mlock s = None -> mclosed s = true \/ waiter id (mw s) <> None -> step s LFail s
(* mux.go:203-211 *)
| s_unclaim id : mlock s = None ->
    step s (LUnclaim id) {| mw := unwait id (mw s); mnext := mnext s; mgen := mgen s; mbuf := mbuf s; mclaims := mclaims s; mlock := None; mclosed := mclosed s; mquit := mquit s |}
(* mux.go:214-225 *)
| s_send id d ch : mlock s = None -> waiter id (mw s) = Some ch ->
    step s (LSend id d) {| mw := mw s; mnext := mnext s; mgen := mgen s; mbuf := mbuf s; mclaims := mclaims s; mlock := Some (ch, d); mclosed := mclosed s; mquit := mquit s |}
| s_lost id d : mlock s = None -> waiter id (mw s) = None -> step s (LLost id d) s
| s_recv ch d : mlock s = Some (ch, d) ->
    step s (LRecv ch d) {| mw := mw s; mnext := mnext s; mgen := mgen s; mbuf := mbuf s; mclaims := mclaims s; mlock := None; mclosed := mclosed s; mquit := mquit s |}
(* mux.go:143-151 *)
| s_close : mlock s = None ->
    step s LClose {| mw := mw s; mnext := mnext s; mgen := mgen s; mbuf := mbuf s; mclaims := mclaims s; mlock := None; mclosed := true; mquit := mquit s |}.

(* a history from a new Mux: the labels, the latest first *)
Inductive run : list lab -> mux -> Prop :=
| run_new : run [] mux0
| run_step tr s l s' : run tr s -> step s l s' -> run (l :: tr) s'.
Inductive steps : mux -> list lab -> mux -> Prop :=
| steps_nil s : steps s [] s
| steps_cons s l s' tr s'' : step s l s' -> steps s' tr s'' -> steps s (l :: tr) s''.

(* ---- session.go: the answers to requests ---- *)
(* a response as read from the connection: stream, status, data (session.go:233-256) *)
Record resp := { rs_stream : Z; rs_status : Z; rs_data : list Z }.
(* what goes over the channel of a stream: data, an error, a redirection (mux.go:55-59) *)
Inductive item := IData (d : list Z) | IErr | IRedir (raw : list Z).
(* session.go:242-257; statuses of xrdproto.go:61-74: 4003 error, 4005 wait, 4004 redirect; None: wait, nothing is delivered.
   The data of errors and waits is taken to be well formed. *)
Definition item_of (r : resp) : option item :=
  if rs_status r =? 4003 then Some IErr
  else if rs_status r =? 4005 then None
  else if rs_status r =? 4004 then Some (IRedir (rs_data r))
  else Some (IData (rs_data r)).
(* session.go:221-272: the streams still claimed, and what each channel is given, latest last; true when it is closed.
   A response on a stream that is not claimed panics; a wait for it is an error that is then sent to it, so panics as well. *)
Definition chans := list (Z * (list item * bool)).
Fixpoint deliver (id : Z) (it : item) (fin : bool) (l : chans) : option chans :=
  match l with
  | [] => None
  | (i, (its, closed)) :: l' =>
      if i =? id then (if closed then None else Some ((i, (its ++ [it], fin)) :: l'))
      else match deliver id it fin l' with Some r => Some ((i, (its, closed)) :: r) | None => None end
  end.
Fixpoint is_open (id : Z) (l : chans) : bool :=
  match l with [] => false | (i, (_, closed)) :: l' => if i =? id then negb closed else is_open id l' end.
Fixpoint consume (l : chans) (rs : list resp) : res chans :=
  match rs with
  | [] => Ok l
  | r :: rs' =>
      match item_of r with
      | None => if is_open (rs_stream r) l then consume l rs' else Panic
      | Some it => match deliver (rs_stream r) it (negb (rs_status r =? 4000)) l with Some l' => consume l' rs' | None => Panic end
      end
  end.
(* session.go:319-341: the loop of send over what comes from its channel, until it is closed *)
Inductive answer := AData (d : list Z) | AErr | ARedir (raw : list Z) | AWaiting.
Fixpoint collect (acc : list Z) (its : list item) (closed : bool) : answer :=
  match its with
  | [] => if closed then AData acc else AWaiting
  | IErr :: _ => AErr
  | IRedir r :: _ => ARedir r
  | IData d :: its' => collect (acc ++ d) its' closed
  end.
Definition answer_of (id : Z) (l : chans) : option answer :=
  match find (fun x => fst x =? id) l with Some (_, (its, closed)) => Some (collect [] its closed) | None => None end.
