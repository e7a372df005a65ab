(* Model of hepmc/hepmc.go: the graph of an event, Event.AddVertex, Vertex.AddParticleIn and AddParticleOut, Delete, and Weights.
   Pointers are numbers; a heap gives every particle, vertex and event.  Of the fields only those of the graph are kept: momenta,
   flows, polarizations, signal vertex and beams are left out.  Barcode counters do not overflow.  Maps are association lists. *)
From Coq Require Import ZArith List Lia Bool.
From Verif Require Import GoLib DflowModel.
Import ListNotations.
Local Open Scope Z_scope.

(* hepmc.go:288-298, 357-365, 58-83; None is nil *)
Record part := { p_bc : Z; p_prod : option nat; p_end : option nat }.
Record vert := { v_bc : Z; v_in : list nat; v_out : list nat; v_ev : option nat }.
(* e_nil: the maps are nil *)
Record evt := { e_verts : amap nat; e_parts : amap nat; e_bcp : Z; e_bcv : Z; e_nil : bool }.
Record heap := { parts : nat -> part; verts : nat -> vert; evts : nat -> evt }.
Definition upd {A} (f : nat -> A) (i : nat) (x : A) : nat -> A := fun j => if Nat.eqb i j then x else f j.
Definition setPart (h : heap) (p : nat) (x : part) : heap := {| parts := upd (parts h) p x; verts := verts h; evts := evts h |}.
Definition setVert (h : heap) (v : nat) (x : vert) : heap := {| parts := parts h; verts := upd (verts h) v x; evts := evts h |}.
Definition setEvt (h : heap) (e : nat) (x : evt) : heap := {| parts := parts h; verts := verts h; evts := upd (evts h) e x |}.
Fixpoint del {A} (m : amap A) (k : Z) : amap A := match m with [] => [] | (j, a) :: m' => if j =? k then del m' k else (j, a) :: del m' k end.
(* evt.Particles[bc] = p: panics on a nil map *)
Definition putPart (h : heap) (e : nat) (bc : Z) (p : nat) : res heap :=
  let x := evts h e in
  if e_nil x then Panic else Ok (setEvt h e {| e_verts := e_verts x; e_parts := set (e_parts x) bc p; e_bcp := e_bcp x; e_bcv := e_bcv x; e_nil := false |}).
Definition putVert (h : heap) (e : nat) (bc : Z) (v : nat) : res heap :=
  let x := evts h e in
  if e_nil x then Panic else Ok (setEvt h e {| e_verts := set (e_verts x) bc v; e_parts := e_parts x; e_bcp := e_bcp x; e_bcv := e_bcv x; e_nil := false |}).
(* 263-271 *)
Definition removeVertex (h : heap) (e : nat) (bc : Z) : heap :=
  let x := evts h e in setEvt h e {| e_verts := del (e_verts x) bc; e_parts := e_parts x; e_bcp := e_bcp x; e_bcv := e_bcv x; e_nil := e_nil x |}.
Definition removeParticle (h : heap) (e : nat) (bc : Z) : heap :=
  let x := evts h e in setEvt h e {| e_verts := e_verts x; e_parts := del (e_parts x) bc; e_bcp := e_bcp x; e_bcv := e_bcv x; e_nil := e_nil x |}.
(* 273-283 *)
Definition vBarcode (h : heap) (e : nat) : heap * Z :=
  let x := evts h e in (setEvt h e {| e_verts := e_verts x; e_parts := e_parts x; e_bcp := e_bcp x; e_bcv := e_bcv x + 1; e_nil := e_nil x |}, - (e_bcv x + 1)).
Definition pBarcode (h : heap) (e : nat) : heap * Z :=
  let x := evts h e in (setEvt h e {| e_verts := e_verts x; e_parts := e_parts x; e_bcp := e_bcp x + 1; e_bcv := e_bcv x; e_nil := e_nil x |}, e_bcp x + 1).
(* 384-403: the particles of a vertex move with it *)
Definition moved (orig : option nat) (e : nat) : option nat := match orig with Some o => if Nat.eqb o e then None else Some o | None => None end.
Fixpoint moveParts (h : heap) (orig : option nat) (e : nat) (onlyTop : bool) (ps : list nat) : res heap :=
  match ps with
  | [] => Ok h
  | p :: ps' =>
    if onlyTop && (match p_prod (parts h p) with None => false | Some _ => true end) then moveParts h orig e onlyTop ps'
    else do h1 <- putPart h e (p_bc (parts h p)) p;
         let h2 := match moved orig e with Some o => removeParticle h1 o (p_bc (parts h p)) | None => h1 end in
         moveParts h2 orig e onlyTop ps'
  end.
(* 367-405; AddVertex 91-99 gives an event that is not nil *)
Definition addVertex (h : heap) (e v : nat) : res heap :=
  let orig := v_ev (verts h v) in
  let x := verts h v in
  let '(h1, bc) := if v_bc x =? 0 then vBarcode h e else (h, v_bc x) in
  let h2 := setVert h1 v {| v_bc := bc; v_in := v_in x; v_out := v_out x; v_ev := Some e |} in
  do h3 <- putVert h2 e bc v;
  let h4 := match moved orig e with Some o => removeVertex h3 o bc | None => h3 end in
  do h5 <- moveParts h4 orig e true (v_in x);
  moveParts h5 orig e false (v_out x).
(* 461-506: the first occurrence is removed *)
Fixpoint remove1 (p : nat) (l : list nat) : list nat := match l with [] => [] | q :: l' => if Nat.eqb q p then l' else q :: remove1 p l' end.
Definition removeParticleIn (h : heap) (v p : nat) : heap :=
  let x := verts h v in setVert h v {| v_bc := v_bc x; v_in := remove1 p (v_in x); v_out := v_out x; v_ev := v_ev x |}.
Definition removeParticleOut (h : heap) (v p : nat) : heap :=
  let x := verts h v in setVert h v {| v_bc := v_bc x; v_in := v_in x; v_out := remove1 p (v_out x); v_ev := v_ev x |}.
(* the barcode of a particle: lines 425-427, 452-454 *)
Definition codeOf (h : heap) (e p : nat) : heap * Z := if p_bc (parts h p) =? 0 then pBarcode h e else (h, p_bc (parts h p)).
(* 408-432; without an event the code dereferences nil *)
Definition addParticleIn (h : heap) (v p : nat) : res heap :=
  let h1 := match p_end (parts h p) with Some w => removeParticleIn h w p | None => h end in
  let h2 := removeParticleIn h1 v p in
  match v_ev (verts h2 v) with
  | None => Panic
  | Some e =>
    let '(h3, bc) := codeOf h2 e p in
    let h4 := setPart h3 p {| p_bc := bc; p_prod := p_prod (parts h3 p); p_end := Some v |} in
    let x := verts h4 v in
    let h5 := setVert h4 v {| v_bc := v_bc x; v_in := v_in x ++ [p]; v_out := v_out x; v_ev := v_ev x |} in
    putPart h5 e bc p
  end.
(* 435-459 *)
Definition addParticleOut (h : heap) (v p : nat) : res heap :=
  let h1 := match p_prod (parts h p) with Some w => removeParticleOut h w p | None => h end in
  let h2 := removeParticleOut h1 v p in
  match v_ev (verts h2 v) with
  | None => Panic
  | Some e =>
    let '(h3, bc) := codeOf h2 e p in
    let h4 := setPart h3 p {| p_bc := bc; p_prod := Some v; p_end := p_end (parts h3 p) |} in
    let x := verts h4 v in
    let h5 := setVert h4 v {| v_bc := v_bc x; v_in := v_in x; v_out := v_out x ++ [p]; v_ev := v_ev x |} in
    putPart h5 e bc p
  end.
(* 22-51 *)
Definition delete (h : heap) (e : nat) : heap :=
  let x := evts h e in
  let ps := map snd (e_parts x) in let vs := map snd (e_verts x) in
  {| parts := fun p => if existsb (Nat.eqb p) ps then {| p_bc := p_bc (parts h p); p_prod := None; p_end := None |} else parts h p;
     verts := fun v => if existsb (Nat.eqb v) vs then {| v_bc := v_bc (verts h v); v_in := []; v_out := []; v_ev := None |} else verts h v;
     evts := upd (evts h) e {| e_verts := []; e_parts := []; e_bcp := e_bcp x; e_bcv := e_bcv x; e_nil := true |} |}.
Inductive op := OVertex (e v : nat) | OIn (v p : nat) | OOut (v p : nat) | ODelete (e : nat).
Definition exec (h : heap) (o : op) : res heap :=
  match o with OVertex e v => addVertex h e v | OIn v p => addParticleIn h v p | OOut v p => addParticleOut h v p | ODelete e => Ok (delete h e) end.
Fixpoint execs (h : heap) (os : list op) : res heap := match os with [] => Ok h | o :: os' => do h1 <- exec h o; execs h1 os' end.

(* Weights, 720-753: names and values *)
Section Weights.
Variable V : Type.
Record weights := { w_slice : list V; w_map : list (list Z * nat) }.
Fixpoint wfind (m : list (list Z * nat)) (n : list Z) : option nat :=
  match m with [] => None | (k, i) :: m' => if list_eq_dec Z.eq_dec k n then Some i else wfind m' n end.
(* 748-753 *)
Definition newWeights : weights := {| w_slice := []; w_map := [] |}.
(* 727-736: false is an error *)
Definition add (w : weights) (n : list Z) (v : V) : bool * weights :=
  match wfind (w_map w) n with
  | Some _ => (false, w)
  | None => (true, {| w_slice := w_slice w ++ [v]; w_map := (n, length (w_slice w)) :: w_map w |})
  end.
(* 739-745 *)
Definition at_ (w : weights) (n : list Z) : res V :=
  match wfind (w_map w) n with Some i => match nth_error (w_slice w) i with Some v => Ok v | None => Panic end | None => Panic end.
End Weights.
