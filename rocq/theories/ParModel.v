(* Model of fwk/utils/parallel/parallel.go: NewRun, Do, Wait and the goroutines they start, as a transition system.
   A task is a number; res gives what the function of a task returns: None is nil, Some e an error.  Functions that panic or never
   return are not modelled.  Do may be called from any number of goroutines, each with its list of tasks.
   A transition is what one goroutine does between two points where another may run. *)
From Coq Require Import ZArith List Lia Bool.
Import ListNotations.

(* a goroutine that calls Do: its remaining tasks; CMid is in Do between lines 71 and 72 *)
Inductive caller := CIdle (ts : list nat) | CMid (t : nat) (ts : list nat).
(* a goroutine started by Do (parallel.go:73-81) *)
Inductive phase :=
| PNew             (* not begun *)
| PRun             (* f is running *)
| PErr (e : Z)     (* sending e on done, line 79 *)
| PFin             (* before wg.Done, line 75 *)
| PRel.            (* before <-limiter, line 76 *)
(* the goroutine started by NewRun, 52-63: receiving, sending the result, ended *)
Inductive coll := Collecting | Sending | Ended.
(* Wait, 87-91: not called, in wg.Wait, after close, returned *)
Inductive wait := WNot | WWg | WClosed | WRet (errs : list Z).
Record st := { lim : nat; wg : nat; isopen : bool; callers : list caller; gos : list (nat * phase); errs : list Z; col : coll; wst : wait; panicked : bool }.
Inductive lab := LAcq (t : nat) | LStart (t : nat) | LTau | LWait | LRet (errs : list Z) | LPanic.
Fixpoint seti {A} (l : list A) (i : nat) (x : A) : list A := match l, i with [], _ => [] | _ :: l', O => x :: l' | a :: l', S j => a :: seti l' j x end.
Fixpoint deli {A} (l : list A) (i : nat) : list A := match l, i with [], _ => [] | _ :: l', O => l' | a :: l', S j => a :: deli l' j end.
(* parallel.go:46-65; a negative maxPar panics in make and is left out *)
Definition newRun (cs : list (list nat)) : st :=
  {| lim := 0; wg := 0; isopen := true; callers := map CIdle cs; gos := []; errs := []; col := Collecting; wst := WNot; panicked := false |}.
Section Par.
Variable maxPar : nat.
Variable res : nat -> option Z.
(* strict: Wait is called when every call of Do has returned *)
Variable strict : bool.
Inductive step : st -> lab -> st -> Prop :=
(* line 71: the limiter has room *)
| s_acq s i t ts : panicked s = false -> nth_error (callers s) i = Some (CIdle (t :: ts)) -> (lim s < maxPar)%nat ->
    step s (LAcq t) {| lim := S (lim s); wg := wg s; isopen := isopen s; callers := seti (callers s) i (CMid t ts); gos := gos s; errs := errs s; col := col s; wst := wst s; panicked := false |}
(* lines 72-73 *)
| s_go s i t ts : panicked s = false -> nth_error (callers s) i = Some (CMid t ts) ->
    step s LTau {| lim := lim s; wg := S (wg s); isopen := isopen s; callers := seti (callers s) i (CIdle ts); gos := gos s ++ [(t, PNew)]; errs := errs s; col := col s; wst := wst s; panicked := false |}
(* line 78: f is called, and returns *)
| s_start s i t : panicked s = false -> nth_error (gos s) i = Some (t, PNew) ->
    step s (LStart t) {| lim := lim s; wg := wg s; isopen := isopen s; callers := callers s; gos := seti (gos s) i (t, PRun); errs := errs s; col := col s; wst := wst s; panicked := false |}
| s_return s i t : panicked s = false -> nth_error (gos s) i = Some (t, PRun) ->
    step s LTau {| lim := lim s; wg := wg s; isopen := isopen s; callers := callers s; gos := seti (gos s) i (t, match res t with Some e => PErr e | None => PFin end);
                   errs := errs s; col := col s; wst := wst s; panicked := false |}
(* line 79 with line 54: done has no room, sender and receiver meet *)
| s_done s i t e : panicked s = false -> nth_error (gos s) i = Some (t, PErr e) -> isopen s = true -> col s = Collecting ->
    step s LTau {| lim := lim s; wg := wg s; isopen := isopen s; callers := callers s; gos := seti (gos s) i (t, PFin); errs := errs s ++ [e]; col := col s; wst := wst s; panicked := false |}
(* line 79: a send on a closed channel *)
| s_closed s i t e : panicked s = false -> nth_error (gos s) i = Some (t, PErr e) -> isopen s = false ->
    step s LPanic {| lim := lim s; wg := wg s; isopen := isopen s; callers := callers s; gos := gos s; errs := errs s; col := col s; wst := wst s; panicked := true |}
(* line 75, line 76 *)
| s_wgdone s i t : panicked s = false -> nth_error (gos s) i = Some (t, PFin) ->
    step s LTau {| lim := lim s; wg := pred (wg s); isopen := isopen s; callers := callers s; gos := seti (gos s) i (t, PRel); errs := errs s; col := col s; wst := wst s; panicked := false |}
| s_rel s i t : panicked s = false -> nth_error (gos s) i = Some (t, PRel) ->
    step s LTau {| lim := pred (lim s); wg := wg s; isopen := isopen s; callers := callers s; gos := deli (gos s) i; errs := errs s; col := col s; wst := wst s; panicked := false |}
(* Wait is called; line 88 *)
| s_wait s : panicked s = false -> wst s = WNot -> (strict = true -> forall c, In c (callers s) -> c = CIdle []) ->
    step s LWait {| lim := lim s; wg := wg s; isopen := isopen s; callers := callers s; gos := gos s; errs := errs s; col := col s; wst := WWg; panicked := false |}
(* line 88 returns and line 89: the count is zero *)
| s_close s : panicked s = false -> wst s = WWg -> wg s = O ->
    step s LTau {| lim := lim s; wg := wg s; isopen := false; callers := callers s; gos := gos s; errs := errs s; col := col s; wst := WClosed; panicked := false |}
(* line 54: the channel is closed *)
| s_collected s : panicked s = false -> col s = Collecting -> isopen s = false ->
    step s LTau {| lim := lim s; wg := wg s; isopen := isopen s; callers := callers s; gos := gos s; errs := errs s; col := Sending; wst := wst s; panicked := false |}
(* lines 58-62 with line 90 *)
| s_ret s : panicked s = false -> col s = Sending -> wst s = WClosed ->
    step s (LRet (errs s)) {| lim := lim s; wg := wg s; isopen := isopen s; callers := callers s; gos := gos s; errs := errs s; col := Ended; wst := WRet (errs s); panicked := false |}.
(* runs, their labels the latest first *)
Inductive run (s0 : st) : list lab -> st -> Prop :=
| run_nil : run s0 [] s0
| run_step tr s l s' : run s0 tr s -> step s l s' -> run s0 (l :: tr) s'.
End Par.
