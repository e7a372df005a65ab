(** C81, put together: from the text of a query and its arguments to its rows. *)
From Coq Require Import ZArith List Bool Lia.
From Verif Require Import SqlModel SqlProofs SqlProps SqlArgsModel SqlArgsProps.
Import ListNotations.
Open Scope Z_scope.

(** What a query for the columns [cs] is to answer, read off the text of its condition. *)
Inductive told (args : list arg) (t : tree) (cs : list bytes) : list row -> list (list value) -> Prop :=
| q_nil : told args t cs [] []
| q_keep w ws vs out : says args w t (SB true) -> Forall2 (fun c v => w c = Some v) cs vs ->
    told args t cs ws out -> told args t cs (w :: ws) (vs :: out)
| q_drop w ws out : says args w t (SB false) -> told args t cs ws out -> told args t cs (w :: ws) out.

Lemma told_answer args t f cs ws out : parsed t -> newExprFrom t args = Built f ->
  (told args t cs ws out <-> answer f cs ws out).
Proof.
  intros P E. split.
  - induction 1 as [|w ws vs out S V _ IH|w ws out S _ IH]; [constructor| |].
    + apply a_keep; [apply (C81_tree _ _ _ _ _ P E), S|exact V|exact IH].
    + apply a_drop; [apply (C81_tree _ _ _ _ _ P E), S|exact IH].
  - induction 1 as [|w ws vs out S V _ IH|w ws out S _ IH]; [constructor| |].
    + apply q_keep; [apply (C81_tree _ _ _ _ _ P E), S|exact V|exact IH].
    + apply q_drop; [apply (C81_tree _ _ _ _ _ P E), S|exact IH].
Qed.

(** The rows of a query are those of which the text of its condition is true, with the
    arguments in their places: all of them, in the order of the entries, and no others. *)
Theorem C81_query G args t f cs ws :
  parsed t -> newExprFrom t args = Built f -> cond G f ->
  (forall w, In w ws -> okrow w /\ fits G w /\ no_overflow f w /\ forall c, In c cs -> w c <> None) ->
  exists out, query (map Col cs) (Some f) ws = (out, EOF) /\
              forall out', told args t cs ws out' <-> out' = out.
Proof.
  intros P E C H. destruct (C81_rows G f cs ws C H) as (out & Q & U).
  exists out. split; [exact Q|]. intros out'. rewrite (told_answer _ _ _ _ _ _ P E). apply U.
Qed.

(** The same rows are given for the query with the arguments written into it. *)
Theorem C81_written args t u f sel ws : inlined args t u -> newExprFrom t args = Built f ->
  exists g, newExprFrom u [] = Built g /\ query sel (Some g) ws = query sel (Some f) ws.
Proof. intros I E. exists f. rewrite <- (C81_arguments _ _ _ I []). auto. Qed.

(** [(x / ? + 1 > 3) AND y <> 'no'] with 2 as its argument. *)
Definition t1 : tree :=
  And (Paren (Cmp (Some GT) (Sum (Some Add) (Sum (Some Div) (Name x_) (Arg (Some 1))) (Int 1)) (Int 3)))
      (Cmp (Some Ne) (Name y_) (Str [110; 111])).
Example C81_query_ex :
  newExprFrom t1 [AI 2] = Built f1 /\
  told [AI 2] t1 [y_] [w1 2 [97]; w1 8 [97; 98]; w1 9 [110; 111]; w1 100 []] [[VS [97; 98]]; [VS []]].
Proof.
  split; [reflexivity|].
  apply (told_answer [AI 2] t1 f1); [cbn; tauto|reflexivity|apply C81_rows_ex].
Qed.
