(* C41: strongly connected components. *)
From Coq Require Import ZArith List Lia Bool.
From Verif Require Import GoLib TarjanModel TarjanProofs.
Import ListNotations.
Local Open Scope Z_scope.

(* For every graph, whatever the order in which the map is ranged over: the result has every vertex exactly once (the keys and the ends
   of their edges), each group is the strongly connected component of its vertices, and edges that leave a group lead to earlier ones. *)
Theorem C41_components : forall g, NoDup (map fst g) ->
  exists out, connections g = Ok out /\ NoDup (concat out) /\
  (forall v, In v (concat out) <-> In v (map fst g) \/ exists u ws, In (u, ws) g /\ In v ws) /\
  (forall C, In C out -> scc g C) /\
  (forall l1 C l2 x y, out = l1 ++ C :: l2 -> In x C -> edge g x y -> In y C \/ In y (concat l1)).
Proof.
  intros g ND. unfold connections. destruct (roots_ok g (map fst g) {| t_index := []; t_stack := []; t_nodes := []; t_out := [] |}) as (s & E & I & _ & A).
  { intros v H. unfold vertices. apply in_or_app. auto. }
  { apply inv_nil. }
  rewrite E. cbn [rbind]. exists (t_out s). split; [reflexivity|]. pose proof (inv_stack g s I) as ST. destruct (v_good _ _ _ I) as [G1 G2]. split; [exact G1|].
  assert (KEY : forall v, In v (map fst g) -> In v (concat (t_out s))).
  { intros v H. destruct (A v H) as [i J]. destruct (v_all _ _ _ I v i J) as [B|B]; [rewrite ST in B; destruct B|exact B]. }
  split; [|split].
  - intros v. split.
    + intros H. destruct (v_outix _ _ _ I v H) as [i J]. apply (v_vert _ _ _ I) in J. unfold vertices in J. apply in_app_or in J. destruct J as [J|J]; [left; exact J|right].
      apply in_concat in J. destruct J as (ws & W & J). apply in_map_iff in W. destruct W as ([u w] & <- & W). eauto.
    + intros [H|(u & ws & H & J)]; [apply KEY, H|]. assert (U : In u (map fst g)) by (apply in_map_iff; exists (u, ws); auto).
      apply (out_closed g _ (conj G1 G2) u v); [apply KEY, U|]. apply reach_edge. unfold edge. replace (edges_of g u) with ws; [exact J|].
      clear - ND H. induction g as [|[a b] l IH]; [contradiction|]. cbn [map fst edges_of] in *. inversion ND as [|? ? N N']; subst. destruct H as [H|H].
      * injection H as -> ->. rewrite Z.eqb_refl. reflexivity.
      * destruct (Z.eqb_spec a u) as [->|]; [exfalso; apply N; apply in_map_iff; exists (u, ws); auto|]. apply IH; assumption.
  - intros C H. apply in_split in H. destruct H as (l1 & l2 & H). exact (proj1 (G2 l1 C l2 H)).
  - intros l1 C l2 x y H. exact (proj2 (G2 l1 C l2 H) x y).
Qed.
(* A group of two or more is a cycle, and all cycles through different vertices are found. *)
Theorem C41_cycles : forall g out, NoDup (map fst g) -> connections g = Ok out ->
  ((exists C, In C out /\ (1 < length C)%nat) <-> exists x y, x <> y /\ In x (map fst g) /\ reach g x y /\ reach g y x).
Proof.
  intros g out ND E. destruct (C41_components g ND) as (out' & E' & N & V & S & _). rewrite E in E'. injection E' as <-. split.
  - intros (C & I & L). destruct C as [|x [|y C]]; cbn in L; try lia. destruct (S _ I) as [_ H].
    assert (NE : x <> y).
    { intros ->. apply in_split in I. destruct I as (l1 & l2 & ->). rewrite concat_app in N. cbn [concat] in N. clear - N.
      induction (concat l1) as [|a l IH]; [cbn in N; inversion N as [|? ? A B]; apply A; left; reflexivity|]. apply IH. cbn in N. inversion N. assumption. }
    assert (R : reach g x y /\ reach g y x) by (apply (H x (or_introl eq_refl) y); right; left; reflexivity).
    exists x, y. split; [exact NE|]. split; [|exact R]. destruct R as [R _]. inversion R as [|a b c EX _]; subst; [contradiction|].
    clear - EX. unfold edge in EX. induction g as [|[u ws] l IH]; [contradiction|]. cbn [edges_of map fst] in *. destruct (Z.eqb_spec u x); [left; assumption|right; apply IH, EX].
  - intros (x & y & NE & K & R1 & R2). assert (I : In x (concat out)) by (apply V; left; exact K). apply in_concat in I. destruct I as (C & IC & I). exists C. split; [exact IC|].
    destruct (S C IC) as [_ H]. assert (J : In y C) by (apply (H x I); auto). destruct C as [|a [|b C]]; [destruct I| |cbn; lia]. destruct I as [<-|[]], J as [<-|[]]. contradiction.
Qed.
(* the graph of the documentation: two cycles that share an edge, a pair, and a loop *)
Example C41_example : connections [(1, [2]); (2, [3; 5; 6]); (3, [4; 7]); (4, [3; 8]); (5, [1; 6]); (6, [7]); (7, [6; 8]); (8, [8])] = Ok [[8]; [6; 7]; [4; 3]; [5; 2; 1]].
Proof. vm_compute. reflexivity. Qed.
Example C41_example_nokey : connections [(1, [9; 2]); (2, [1; 7])] = Ok [[9]; [7]; [2; 1]].
Proof. vm_compute. reflexivity. Qed.
Print Assumptions C41_components.
Print Assumptions C41_cycles.
