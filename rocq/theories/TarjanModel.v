(* Model of fwk/utils/tarjan/tarjan.go.  Vertices are integers (any comparable Go value).  A graph is the list of its entries, in the
   order in which the range over the map gives them; a vertex that is not a key has no edges.
   The pointer of strongConnect into the slice of nodes goes stale when append moves the slice (graphs with edges to vertices
   that are not keys).  Only lowlink is read or written through it, and only by the call that made it and its caller, so lowlink is a
   local value here; the flags are always reached through the slice. *)
From Coq Require Import ZArith List Lia Bool.
From Verif Require Import GoLib.
Import ListNotations.

Definition graph := list (Z * list Z).
(* data.graph[v] *)
Fixpoint edges_of (g : graph) (v : Z) : list Z :=
  match g with [] => [] | (u, ws) :: g' => if Z.eqb u v then ws else edges_of g' v end.
(* tarjan.go:55-61, 64-67: index is a map, the stack has its top first, nodes holds the flags stacked *)
Record st := { t_index : list (Z * nat); t_stack : list Z; t_nodes : list bool; t_out : list (list Z) }.
(* data.index[v] *)
Fixpoint index_of (l : list (Z * nat)) (v : Z) : option nat :=
  match l with [] => None | (u, i) :: l' => if Z.eqb u v then Some i else index_of l' v end.
Fixpoint unset (l : list bool) (i : nat) : list bool :=
  match l, i with [], _ => [] | _ :: l', O => false :: l' | b :: l', S k => b :: unset l' k end.
(* tarjan.go:93-105: the vertices from the top of the stack down to the one with this index *)
Fixpoint pop (index : nat) (idx : list (Z * nat)) (stack : list Z) (nodes : list bool) (vertices : list Z) : res (list Z * list Z * list bool) :=
  match stack with
  | [] => Panic
  | w :: t =>
      let i := match index_of idx w with Some i => i | None => O end in
      if (length nodes <=? i)%nat then Panic
      else if Nat.eqb i index then Ok (vertices ++ [w], t, unset nodes i) else pop index idx t (unset nodes i) (vertices ++ [w])
  end.
(* tarjan.go:78-90: the loop over the edges, with the recursive call *)
Fixpoint visit (rec : Z -> st -> res (nat * st)) (ws : list Z) (low : nat) (s : st) : res (nat * st) :=
  match ws with
  | [] => Ok (low, s)
  | w :: ws' =>
      match index_of (t_index s) w with
      | None => do r <- rec w s; let '(n, s') := r in visit rec ws' (if (n <? low)%nat then n else low) s'
      | Some i =>
          match nth_error (t_nodes s) i with
          | None => Panic
          | Some stacked => visit rec ws' (if stacked then if (i <? low)%nat then i else low else low) s
          end
      end
  end.
(* tarjan.go:71-110; the result is the lowlink of the node returned.  The depth of the recursion is bounded by fuel *)
Fixpoint strongConnect (g : graph) (fuel : nat) (v : Z) (s : st) : res (nat * st) :=
  match fuel with
  | O => Panic
  | S fuel =>
      let index := length (t_nodes s) in
      let s1 := {| t_index := (v, index) :: t_index s; t_stack := v :: t_stack s; t_nodes := t_nodes s ++ [true]; t_out := t_out s |} in
      do r <- visit (strongConnect g fuel) (edges_of g v) index s1;
      let '(low, s2) := r in
      if Nat.eqb low index then
        do p <- pop index (t_index s2) (t_stack s2) (t_nodes s2) [];
        let '(vertices, stack, nodes) := p in
        Ok (low, {| t_index := t_index s2; t_stack := stack; t_nodes := nodes; t_out := t_out s2 ++ [vertices] |})
      else Ok (low, s2)
  end.
(* all vertices there can be *)
Definition vertices (g : graph) : list Z := map fst g ++ concat (map snd g).
(* tarjan.go:46-50 *)
Fixpoint roots (g : graph) (vs : list Z) (s : st) : res st :=
  match vs with
  | [] => Ok s
  | v :: vs' =>
      match index_of (t_index s) v with
      | Some _ => roots g vs' s
      | None => do r <- strongConnect g (S (length (vertices g))) v s; roots g vs' (snd r)
      end
  end.
(* tarjan.go:40-52 *)
Definition connections (g : graph) : res (list (list Z)) :=
  do s <- roots g (map fst g) {| t_index := []; t_stack := []; t_nodes := []; t_out := [] |}; Ok (t_out s).
