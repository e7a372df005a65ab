(* Model of fwk/store.go (datastore) and of one event of fwk/app.go:runSequential and fwk/worker.go:runTask: tasks that run
   concurrently, one goroutine each, and exchange values through the store of the event.
   A task is what its Process does on the store: a program of Get, Put and a result; what it computes is in the continuations.
   Values are integers.  A transition is what one goroutine does between two points where another may run; a select with several
   ready cases takes any of them.  Deleter payloads of reset are not modelled. *)
From Coq Require Import ZArith List Lia Bool.
Import ListNotations.
Local Open Scope Z_scope.

(* what Process does: Get gives the continuation the value or, on error, None; Put tells whether it succeeded; Ret false is an error *)
Inductive prog :=
| Ret (ok : bool)
| Get (k : Z) (f : option Z -> prog)
| Put (k v : Z) (f : bool -> prog).
(* a goroutine: about to run a program, or between the two channel operations of Get (store.go:31-36), holding the value *)
Inductive proc := Run (p : prog) | Hold (k v : Z) (f : option Z -> prog).
(* store.go:15-19: channels have room for one value; None is a key that is not in the store *)
Record sys := { chans : Z -> option (option Z); quit : bool; procs : list proc }.
Inductive lab :=
| LTake (i : nat) (k v : Z)    (* the value leaves the channel *)
| LGot (i : nat) (k v : Z)     (* Get returns v *)
| LPut (i : nat) (k v : Z)     (* Put returns nil *)
| LErr (i : nat) (k : Z)       (* Get or Put returns an error *)
| LClose.                      (* datastore.close *)
Definition upd (c : Z -> option (option Z)) (k : Z) (x : option Z) : Z -> option (option Z) := fun j => if j =? k then Some x else c j.
Fixpoint setp (l : list proc) (i : nat) (p : proc) : list proc :=
  match l, i with [], _ => [] | _ :: l', O => p :: l' | q :: l', S j => q :: setp l' j p end.
Inductive step : sys -> lab -> sys -> Prop :=
(* store.go:26-29 *)
| s_nokey s i k f : nth_error (procs s) i = Some (Run (Get k f)) -> chans s k = None ->
    step s (LErr i k) {| chans := chans s; quit := quit s; procs := setp (procs s) i (Run (f None)) |}
(* store.go:31 *)
| s_take s i k f v : nth_error (procs s) i = Some (Run (Get k f)) -> chans s k = Some (Some v) ->
    step s (LTake i k v) {| chans := upd (chans s) k None; quit := quit s; procs := setp (procs s) i (Hold k v f) |}
(* store.go:35-36: outside of the select *)
| s_got s i k f v : nth_error (procs s) i = Some (Hold k v f) -> chans s k = Some None ->
    step s (LGot i k v) {| chans := upd (chans s) k (Some v); quit := quit s; procs := setp (procs s) i (Run (f (Some v))) |}
(* store.go:37-38 *)
| s_getquit s i k f : nth_error (procs s) i = Some (Run (Get k f)) -> chans s k <> None -> quit s = true ->
    step s (LErr i k) {| chans := chans s; quit := quit s; procs := setp (procs s) i (Run (f None)) |}
(* store.go:44-45; the channel of a key that is not there is nil and never ready *)
| s_put s i k v f : nth_error (procs s) i = Some (Run (Put k v f)) -> chans s k = Some None ->
    step s (LPut i k v) {| chans := upd (chans s) k (Some v); quit := quit s; procs := setp (procs s) i (Run (f true)) |}
(* store.go:46-47 *)
| s_putquit s i k v f : nth_error (procs s) i = Some (Run (Put k v f)) -> quit s = true ->
    step s (LErr i k) {| chans := chans s; quit := quit s; procs := setp (procs s) i (Run (f false)) |}
(* store.go:90-92, called by the control loop: app.go:592-597, 603, worker.go:104-116, 121 *)
| s_close s : quit s = false -> step s LClose {| chans := chans s; quit := true; procs := procs s |}.
(* store.go:67-87: every key gets a new channel *)
Definition reset (keys : list Z) (c : Z -> option (option Z)) : Z -> option (option Z) := fun j => if existsb (Z.eqb j) keys then Some None else c j.
(* the start of an event: reset of the store, whatever it holds, and a goroutine for each task *)
Definition event (keys : list Z) (c : Z -> option (option Z)) (tasks : list prog) : sys := {| chans := reset keys c; quit := false; procs := map Run tasks |}.
(* runs, their labels the latest first *)
Inductive run (s0 : sys) : list lab -> sys -> Prop :=
| run_nil : run s0 [] s0
| run_step tr s l s' : run s0 tr s -> step s l s' -> run s0 (l :: tr) s'.
