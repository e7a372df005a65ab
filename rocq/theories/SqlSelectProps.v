(** C81, continued: the columns of a query. *)
From Coq Require Import ZArith List Bool Lia.
From Verif Require Import SqlModel SqlProofs SqlArgsModel SqlArgsProps SqlSelectModel.
Import ListNotations.
Open Scope Z_scope.

(** [uses e c]: the value of [e] depends on the column [c]. *)
Fixpoint uses (e : expr) (c : bytes) : Prop :=
  match e with Col d => d = c | Lit _ => False | Bin _ l r => uses l c \/ uses r c end.

Lemma uses_names args t e c : newExprFrom t args = Built e -> uses e c -> In c (names t).
Proof.
  revert e. induction t as [o l IHl r IHr|t IH|l IHl r IHr|l IHl r IHr|d|z|s|b|i|o l IHl r IHr|];
    cbn [newExprFrom names]; intros e E U; try discriminate.
  - destruct o; [|discriminate].
    destruct (newExprFrom l args); try discriminate. destruct (newExprFrom r args); try discriminate.
    inversion E; subst. apply in_or_app. destruct U; eauto.
  - eauto.
  - destruct (newExprFrom l args); try discriminate. destruct (newExprFrom r args); try discriminate.
    inversion E; subst. apply in_or_app. destruct U; eauto.
  - destruct (newExprFrom l args); try discriminate. destruct (newExprFrom r args); try discriminate.
    inversion E; subst. apply in_or_app. destruct U; eauto.
  - inversion E; subst. left. exact U.
  - unfold newInt in E. destruct (_ && _); [|discriminate]. inversion E; subst. destruct U.
  - inversion E; subst. destruct U.
  - inversion E; subst. destruct U.
  - unfold newArg in E. destruct i as [i|]; [|discriminate]. destruct (_ <? _); [discriminate|].
    destruct (nth_error args _) as [[]|]; inversion E; subst; destruct U.
  - destruct (newExprFrom l args); try discriminate. destruct (newExprFrom r args); try discriminate.
    destruct o; [|discriminate]. inversion E; subst. apply in_or_app. destruct U; eauto.
Qed.

Lemma mark_in cols c d : In d (mark cols c) <-> In d cols \/ (d = c /\ c <> []).
Proof.
  unfold mark. destruct c as [|x c]; [intuition congruence|].
  destruct (existsb (seqb (x :: c)) cols) eqn:E.
  - apply existsb_exists in E as (y & Iy & Q). apply seqb_eq in Q. subst.
    split; [auto|]. intros [H|[-> _]]; assumption.
  - rewrite in_app_iff. cbn. intuition congruence.
Qed.
Lemma NoDup_snoc {A} (l : list A) a : NoDup l -> ~ In a l -> NoDup (l ++ [a]).
Proof.
  intros N H. induction N as [|b l I N IH]; cbn; [constructor; [auto|constructor]|].
  constructor.
  - rewrite in_app_iff. cbn. intros [J|[J|[]]]; [auto|subst; apply H; left; reflexivity].
  - apply IH. intros J; apply H; right; exact J.
Qed.
Lemma mark_nodup cols c : NoDup cols -> NoDup (mark cols c).
Proof.
  intros N. unfold mark. destruct c as [|x c]; [exact N|].
  destruct (existsb (seqb (x :: c)) cols) eqn:E; [exact N|].
  assert (H : ~ In (x :: c) cols).
  { intros H. assert (existsb (seqb (x :: c)) cols = true) as Q; [|congruence].
    apply existsb_exists. exists (x :: c). split; [exact H|]. apply seqb_eq; reflexivity. }
  apply NoDup_snoc; assumption.
Qed.
Lemma marks_in l : forall cols d, In d (fold_left mark l cols) <-> In d cols \/ (In d l /\ d <> []).
Proof.
  induction l as [|c l IH]; intros cols d; cbn; [intuition|].
  rewrite IH, mark_in. intuition (subst; auto).
Qed.
Lemma marks_nodup l : forall cols, NoDup cols -> NoDup (fold_left mark l cols).
Proof. induction l as [|c l IH]; intros cols N; cbn; [exact N|]. apply IH, mark_nodup, N. Qed.

(** Every column that the answer or the condition needs is read, and read once; nothing
    else is. *)
Theorem C81_deps sels whr args : NoDup (deps sels whr) /\
  (forall c, In c (deps sels whr) <->
     c <> [] /\ exists t, (In t (flat_map trees sels) \/ whr = Some t) /\ In c (names t)) /\
  (forall t e c, (In t (flat_map trees sels) \/ whr = Some t) -> newExprFrom t args = Built e ->
     uses e c -> c <> [] -> In c (deps sels whr)).
Proof.
  assert (A : forall c, In c (deps sels whr) <->
     c <> [] /\ exists t, (In t (flat_map trees sels) \/ whr = Some t) /\ In c (names t)).
  { intros c. unfold deps. rewrite marks_in, in_app_iff, (in_flat_map names). cbn. split.
    - intros [[]|[[(t & I & J)|I] N]]; (split; [exact N|]).
      + exists t; auto.
      + destruct whr as [t|]; [|destruct I]. exists t; auto.
    - intros [N (t & [I|I] & J)]; right; (split; [|exact N]).
      + left; exists t; auto.
      + right. rewrite I. exact J. }
  split; [apply marks_nodup; constructor|]. split; [exact A|].
  intros t e c I E U N. apply A. split; [exact N|]. exists t. split; [exact I|].
  exact (uses_names _ _ _ _ E U).
Qed.

(** An expression whose columns were read is never stopped by an unknown column: it has the
    value it has in every row that agrees on them. *)
Theorem C81_agree e w w' : (forall c, uses e c -> w c = w' c) -> eval e w = eval e w'.
Proof.
  induction e as [c|v|o l IHl r IHr]; intros H; cbn [uses] in H.
  - cbn. rewrite (H c eq_refl). reflexivity.
  - reflexivity.
  - specialize (IHl (fun c U => H c (or_introl U))). specialize (IHr (fun c U => H c (or_intror U))).
    destruct o; cbn; rewrite IHl, IHr; reflexivity.
Qed.

(** Columns, numbers, strings, arguments and sums may be selected. *)
Fixpoint simple (t : tree) : Prop :=
  match t with
  | Name _ | Sum _ _ _ | Int _ | Str _ | Arg _ => True
  | Paren e => simple e
  | _ => False
  end.
Lemma collect_one t : simple t -> exists c, collect t = [c].
Proof. induction t; cbn; intros S; try contradiction; eauto. Qed.
Lemma cols_length ts : Forall simple ts -> length (flat_map collect ts) = length ts.
Proof.
  induction 1 as [|t ts S _ IH]; [reflexivity|]. cbn. destruct (collect_one t S) as [c ->].
  cbn. rewrite IH. reflexivity.
Qed.

(** The answer has as many columns as were selected, a column that is selected by its name
    has that name, and in every row the value of a column is what its expression says. *)
Theorem C81_select s sels args w es vs :
  Forall simple (trees s) -> exprs (trees s) args = Some es -> evals es w = Some vs ->
  length (cols (s :: sels)) = length (trees s) /\
  (forall i c, nth_error (trees s) i = Some (Name c) -> nth_error (cols (s :: sels)) i = Some c) /\
  next (s :: sels) args w = Row vs /\
  Forall2 (fun t v => exists e, newExprFrom t args = Built e /\ eval e w = Val v) (trees s) vs.
Proof.
  intros S E V. cbn [cols].
  assert (L : length (flat_map collect (trees s)) = length (trees s)) by (apply cols_length, S).
  assert (F : Forall2 (fun t v => exists e, newExprFrom t args = Built e /\ eval e w = Val v)
                (trees s) vs).
  { clear S L. revert es vs E V. induction (trees s) as [|t ts IH]; intros es vs E V; cbn in E.
    - inversion E; subst. inversion V; constructor.
    - destruct (newExprFrom t args) as [e| |] eqn:B; try discriminate.
      destruct (exprs ts args) as [es'|]; [|discriminate]. inversion E; subst. cbn in V.
      destruct (eval e w) as [v|] eqn:Q; [|discriminate].
      destruct (evals es' w) as [vs'|] eqn:Q'; [|discriminate]. inversion V; subst.
      constructor; [eauto|]. eapply IH; eauto. }
  split; [exact L|]. split; [|split; [|exact F]].
  - clear -S. revert S. induction (trees s) as [|t ts IH]; intros S i c H; [destruct i; discriminate|].
    inversion S; subst. destruct (collect_one t H2) as [d D]. cbn [flat_map]. rewrite D.
    destruct i as [|i]; cbn in H |- *.
    + inversion H; subst. cbn in D. congruence.
    + apply IH; assumption.
  - cbn [next cols]. rewrite E, V.
    assert (length vs = length (trees s)) as Q by (clear -F; induction F; cbn; congruence).
    rewrite Q, L, Nat.leb_refl. reflexivity.
Qed.

(** Of [SELECT x, y] only [x] is answered; [y] is read and dropped, without an error. *)
Theorem C81_second_refuted : exists sels w,
  length sels = 2%nat /\ length (cols sels) = 1%nat /\ next sels [] w = Row [VI I32 1] /\
  deps sels None = [[120]; [121]] /\ w [121] = Some (VI I32 2).
Proof.
  exists [One (Name [120]); One (Name [121])],
    (fun c => if seqb c [120] then Some (VI I32 1) else Some (VI I32 2)).
  repeat split; reflexivity.
Qed.

(** A comparison cannot be selected: the row has no place for it, and the program stops. *)
Theorem C81_selected_refuted : exists s w es vs,
  exprs (trees s) [] = Some es /\ evals es w = Some vs /\ next [s] [] w = NextPanic.
Proof.
  exists (Tuple [Name [120]; Cmp (Some Eq) (Name [120]) (Int 1)]), (fun _ => Some (VI I32 1)).
  do 2 eexists. repeat split; reflexivity.
Qed.

(** [SELECT (y, x + ?, x) ... WHERE x > 0 AND z = 'a'] *)
Example C81_select_ex :
  let s := Tuple [Name [121]; Sum (Some Add) (Name [120]) (Arg (Some 1)); Paren (Name [120])] in
  let whr := And (Cmp (Some GT) (Name [120]) (Int 0)) (Cmp (Some Eq) (Name [122]) (Str [97])) in
  let w : row := fun c => if seqb c [120] then Some (VI I32 5) else Some (VS [98]) in
  deps [s] (Some whr) = [[121]; [120]; [122]] /\ cols [s] = [[121]; []; [120]] /\
  Forall simple (trees s) /\ next [s] [AI 3] w = Row [VS [98]; VI I32 8; VI I32 5].
Proof. cbn zeta. repeat split; repeat constructor. Qed.
