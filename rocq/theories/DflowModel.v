(* Model of fwk/dflow.go: declaration of ports and the checks at start.  Names of tasks and ports and types are integers: only their
   equality is used (sort.Strings only makes the order of the messages reproducible).  Maps are lists of their entries, in the
   order of a range over them, which the theorems do not fix.  Messages of errors are not modelled. *)
From Coq Require Import ZArith List Lia Bool.
From Verif Require Import GoLib TarjanModel.
Import ListNotations.
Local Open Scope Z_scope.

(* a Go map with integer keys *)
Definition amap (A : Type) := list (Z * A).
Fixpoint get {A} (m : amap A) (k : Z) : option A := match m with [] => None | (j, a) :: m' => if j =? k then Some a else get m' k end.
Fixpoint set {A} (m : amap A) (k : Z) (a : A) : amap A :=
  match m with [] => [(k, a)] | (j, b) :: m' => if j =? k then (j, a) :: m' else (j, b) :: set m' k a end.
Definition keys {A} (m : amap A) : list Z := map fst m.

(* dflow.go:20-23 *)
Record node := { n_in : amap Z; n_out : amap Z }.
Definition newNode : node := {| n_in := []; n_out := [] |}.
(* dflow.go:34-40 *)
Record flow := { f_nodes : amap node; f_edges : amap Z }.
Definition newFlow : flow := {| f_nodes := []; f_edges := [] |}.
Definition node_of (f : flow) (tsk : Z) : node := match get (f_nodes f) tsk with Some n => n | None => newNode end.
(* dflow.go:150-219; false is an error *)
Definition addInNode (f : flow) (tsk name t : Z) : bool * flow :=
  let n := node_of f tsk in
  match get (n_in n) name with
  | Some _ => (false, {| f_nodes := set (f_nodes f) tsk n; f_edges := f_edges f |})
  | None =>
      let nodes := set (f_nodes f) tsk {| n_in := set (n_in n) name t; n_out := n_out n |} in
      match get (f_edges f) name with
      | Some edgetyp => if edgetyp =? t then (true, {| f_nodes := nodes; f_edges := set (f_edges f) name t |}) else (false, {| f_nodes := nodes; f_edges := f_edges f |})
      | None => (true, {| f_nodes := nodes; f_edges := set (f_edges f) name t |})
      end
  end.
(* dflow.go:221-271 *)
Definition addOutNode (f : flow) (tsk name t : Z) : bool * flow :=
  let n := node_of f tsk in
  match get (n_out n) name with
  | Some _ => (false, {| f_nodes := set (f_nodes f) tsk n; f_edges := f_edges f |})
  | None =>
      let nodes := set (f_nodes f) tsk {| n_in := n_in n; n_out := set (n_out n) name t |} in
      let ok := {| f_nodes := nodes; f_edges := set (f_edges f) name t |} in
      match get (f_edges f) name with
      | Some _ =>
          if existsb (fun x => negb (fst x =? tsk) && existsb (Z.eqb name) (keys (n_out (snd x)))) nodes
          then (false, {| f_nodes := nodes; f_edges := f_edges f |}) else (true, ok)
      | None => (true, ok)
      end
  end.

(* dflow.go:59-72: None if a port is the output of two components *)
Fixpoint producers (nodes : amap node) (out : amap Z) : option (amap Z) :=
  match nodes with
  | [] => Some out
  | (tsk, n) :: nodes' =>
      (fix ports (ks : list Z) (out : amap Z) : option (amap Z) :=
         match ks with
         | [] => producers nodes' out
         | k :: ks' => match get out k with Some _ => None | None => ports ks' (set out k tsk) end
         end) (keys (n_out n)) out
  end.
(* dflow.go:74-84 *)
Definition missing (nodes : amap node) (out : amap Z) : bool :=
  existsb (fun x => existsb (fun k => match get out k with None => true | Some _ => false end) (keys (n_in (snd x)))) nodes.
(* dflow.go:87-109 *)
Definition graph_of (nodes : amap node) : graph :=
  map (fun x => (fst x,
    concat (map (fun i => map fst (filter (fun o => negb (fst o =? fst x) && existsb (Z.eqb i) (keys (n_out (snd o)))) nodes)) (keys (n_in (snd x)))))) nodes.
(* dflow.go:45-138, up to the writing of the dot file; Ok false is an error *)
Definition startSvc (f : flow) : res bool :=
  match producers (f_nodes f) [] with
  | None => Ok false
  | Some out =>
      if missing (f_nodes f) out then Ok false
      else do cycles <- connections (graph_of (f_nodes f));
           Ok (negb (existsb (fun c => (1 <? length c)%nat) cycles))
  end.

(* a declaration of a port by a component, fwk/task.go DeclInPort, DeclOutPort *)
Inductive decl := DIn (tsk name t : Z) | DOut (tsk name t : Z).
Definition declare (f : flow) (d : decl) : bool * flow := match d with DIn k n t => addInNode f k n t | DOut k n t => addOutNode f k n t end.
(* all of them, stopping at the first that is refused *)
Fixpoint declares (f : flow) (ds : list decl) : option flow :=
  match ds with [] => Some f | d :: ds' => let '(ok, f') := declare f d in if ok then declares f' ds' else None end.
