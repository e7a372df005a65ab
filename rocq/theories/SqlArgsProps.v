(** C81, continued: the arguments of a query. *)
From Coq Require Import ZArith List Bool Lia.
From Verif Require Import SqlModel SqlProofs SqlArgsModel.
Import ListNotations.
Open Scope Z_scope.

(** [inlined args t u]: [u] is [t], with literals in the place of the arguments and without
    parentheses. *)
Inductive inlined (args : list arg) : tree -> tree -> Prop :=
| i_cmp o l r l' r' : inlined args l l' -> inlined args r r' -> inlined args (Cmp o l r) (Cmp o l' r')
| i_sum o l r l' r' : inlined args l l' -> inlined args r r' -> inlined args (Sum o l r) (Sum o l' r')
| i_and l r l' r' : inlined args l l' -> inlined args r r' -> inlined args (And l r) (And l' r')
| i_or l r l' r' : inlined args l l' -> inlined args r r' -> inlined args (Or l r) (Or l' r')
| i_paren t u : inlined args t u -> inlined args (Paren t) u
| i_name c : inlined args (Name c) (Name c)
| i_num z : inlined args (Int z) (Int z)
| i_str s : inlined args (Str s) (Str s)
| i_bool b : inlined args (Bool b) (Bool b)
| i_argi i z : nth_error args i = Some (AI z) -> inrange IInt z ->
    inlined args (Arg (Some (Z.of_nat i + 1))) (Int z)
| i_args i s : nth_error args i = Some (AS s) -> inlined args (Arg (Some (Z.of_nat i + 1))) (Str s).

Lemma newArg_nth args i a : nth_error args i = Some a ->
  newArg (Some (Z.of_nat i + 1)) args = idealValArgFrom a.
Proof.
  intros E. unfold newArg. replace (Z.of_nat i + 1 - 1) with (Z.of_nat i) by lia.
  destruct (Z.of_nat i <? 0) eqn:N; [apply Z.ltb_lt in N; lia|].
  rewrite Nat2Z.id, E. reflexivity.
Qed.
Lemma newInt_in z : inrange IInt z -> newInt z = Built (Lit (VI IInt z)).
Proof.
  intros [A B]. unfold newInt. rewrite (proj2 (Z.leb_le _ _) A), (proj2 (Z.leb_le _ _) B). reflexivity.
Qed.

(** Signed integers and strings that are given as arguments are as if they had been written
    in the query: the same expression is made, so the same rows are given, whatever the
    other arguments are. *)
Theorem C81_arguments args t u : inlined args t u ->
  forall args', newExprFrom t args = newExprFrom u args'.
Proof.
  intros H args'. induction H; cbn [newExprFrom]; auto.
  - rewrite IHinlined1, IHinlined2. reflexivity.
  - rewrite IHinlined1, IHinlined2. reflexivity.
  - rewrite IHinlined1, IHinlined2. reflexivity.
  - rewrite IHinlined1, IHinlined2. reflexivity.
  - rewrite (newArg_nth _ _ _ H). symmetry. apply newInt_in, H0.
  - rewrite (newArg_nth _ _ _ H). reflexivity.
Qed.

(** No query stops the program whose arguments are there and are integers or strings. *)
Fixpoint places (t : tree) : list Z :=
  match t with
  | Cmp _ l r | Sum _ l r | And l r | Or l r => places l ++ places r
  | Paren e => places e
  | Arg (Some i) => [i]
  | _ => []
  end.
Theorem C81_no_panic args t :
  (forall i, In i (places t) -> 1 <= i <= Z.of_nat (length args)) -> ~ In AX args ->
  newExprFrom t args <> Panic.
Proof.
  intros P X. induction t as [o l IHl r IHr|e IH|l IHl r IHr|l IHl r IHr|c|z|s|b|[i|]|o l IHl r IHr|];
    cbn [newExprFrom places] in *; try discriminate; auto.
  - destruct o; [|discriminate].
    specialize (IHl (fun i H => P i (in_or_app _ _ _ (or_introl H)))).
    specialize (IHr (fun i H => P i (in_or_app _ _ _ (or_intror H)))).
    destruct (newExprFrom l args); try discriminate; [|contradiction].
    destruct (newExprFrom r args); try discriminate; contradiction.
  - specialize (IHl (fun i H => P i (in_or_app _ _ _ (or_introl H)))).
    specialize (IHr (fun i H => P i (in_or_app _ _ _ (or_intror H)))).
    destruct (newExprFrom l args); try discriminate; [|contradiction].
    destruct (newExprFrom r args); try discriminate; contradiction.
  - specialize (IHl (fun i H => P i (in_or_app _ _ _ (or_introl H)))).
    specialize (IHr (fun i H => P i (in_or_app _ _ _ (or_intror H)))).
    destruct (newExprFrom l args); try discriminate; [|contradiction].
    destruct (newExprFrom r args); try discriminate; contradiction.
  - unfold newInt. destruct (_ && _); discriminate.
  - specialize (P i (or_introl eq_refl)).
    replace i with (Z.of_nat (Z.to_nat (i - 1)) + 1) by lia.
    destruct (nth_error args (Z.to_nat (i - 1))) as [a|] eqn:E.
    + rewrite (newArg_nth _ _ _ E). destruct a; try discriminate.
      exfalso; apply X. eapply nth_error_In; exact E.
    + apply nth_error_None in E. lia.
  - specialize (IHl (fun i H => P i (in_or_app _ _ _ (or_introl H)))).
    specialize (IHr (fun i H => P i (in_or_app _ _ _ (or_intror H)))).
    destruct (newExprFrom l args); try discriminate; [|contradiction].
    destruct (newExprFrom r args); try discriminate; [|contradiction].
    destruct o; discriminate.
Qed.

(** Literals come out as they are, or there is an error: what is built has no literal
    outside its type. *)
Theorem C81_literals args t e : newExprFrom t args = Built e ->
  (forall z, In (AI z) args -> inrange IInt z) -> (forall z, In (AU z) args -> inrange IUint z) ->
  oklits e.
Proof.
  intros E SI SU. revert e E.
  induction t as [o l IHl r IHr|t IH|l IHl r IHr|l IHl r IHr|c|z|s|b|i|o l IHl r IHr|];
    cbn [newExprFrom]; intros e E; try discriminate; auto;
    try (inversion E; subst; exact I).
  - destruct o; [|discriminate].
    destruct (newExprFrom l args); try discriminate. destruct (newExprFrom r args); try discriminate.
    inversion E; subst. cbn; auto.
  - destruct (newExprFrom l args); try discriminate. destruct (newExprFrom r args); try discriminate.
    inversion E; subst. cbn; auto.
  - destruct (newExprFrom l args); try discriminate. destruct (newExprFrom r args); try discriminate.
    inversion E; subst. cbn; auto.
  - unfold newInt in E. destruct (_ && _) eqn:B; [|discriminate]. inversion E; subst.
    apply andb_true_iff in B as [B1 B2]. apply Z.leb_le in B1, B2. split; assumption.
  - unfold newArg in E. destruct i as [i|]; [|discriminate].
    destruct (i - 1 <? 0); [discriminate|].
    destruct (nth_error args _) as [a|] eqn:N; [|discriminate]. apply nth_error_In in N.
    destruct a; cbn in E; inversion E; subst; cbn; auto.
  - destruct (newExprFrom l args); try discriminate. destruct (newExprFrom r args); try discriminate.
    destruct o; [|discriminate]. inversion E; subst. cbn; auto.
Qed.

(** What a condition says in a row, read off its text. *)
Inductive says (args : list arg) (w : row) : tree -> sval -> Prop :=
| s_col c v : w c = Some v -> says args w (Name c) (abs v)
| s_int z : says args w (Int z) (SZ z)
| s_str s : says args w (Str s) (SS s)
| s_bool b : says args w (Bool b) (SB b)
| s_argi i z : nth_error args i = Some (AI z) -> says args w (Arg (Some (Z.of_nat i + 1))) (SZ z)
| s_argu i z : nth_error args i = Some (AU z) -> says args w (Arg (Some (Z.of_nat i + 1))) (SZ z)
| s_args i s : nth_error args i = Some (AS s) -> says args w (Arg (Some (Z.of_nat i + 1))) (SS s)
| s_paren t m : says args w t m -> says args w (Paren t) m
| s_and1 l r : says args w l (SB false) -> says args w (And l r) (SB false)
| s_and2 l r b : says args w l (SB true) -> says args w r (SB b) -> says args w (And l r) (SB b)
| s_or1 l r : says args w l (SB true) -> says args w (Or l r) (SB true)
| s_or2 l r b : says args w l (SB false) -> says args w r (SB b) -> says args w (Or l r) (SB b)
| s_cmp o l r x y b : says args w l x -> says args w r y -> cmp o x y b ->
    says args w (Cmp (Some o) l r) (SB b)
| s_sum o l r x y z : says args w l x -> says args w r y -> comp o x y z ->
    says args w (Sum (Some o) l r) z.

(** The parser puts comparisons and sums in their own trees. *)
Fixpoint parsed (t : tree) : Prop :=
  match t with
  | Cmp o l r => match o with Some o => In o [LT; LE; GT; GE; Eq; Ne] | None => True end /\
                 parsed l /\ parsed r
  | Sum o l r => match o with Some o => In o [Add; Sub; Mul; Div; Bits] | None => True end /\
                 parsed l /\ parsed r
  | And l r | Or l r => parsed l /\ parsed r
  | Paren e => parsed e
  | _ => True
  end.

Lemma cmp_op o x y b : cmp o x y b -> In o [LT; LE; GT; GE; Eq; Ne].
Proof. intros H; destruct H; cbn; auto 10. Qed.
Lemma comp_op o x y z : comp o x y z -> In o [Add; Sub; Mul; Div].
Proof. intros H; destruct H; cbn; auto 10. Qed.

(** What is built means what the condition says, neither more nor less. *)
Theorem C81_tree args t e w m : parsed t -> newExprFrom t args = Built e ->
  (means e w m <-> says args w t m).
Proof.
  revert e m.
  induction t as [o l IHl r IHr|t IH|l IHl r IHr|l IHl r IHr|c|z|s|b|i|o l IHl r IHr|];
    cbn [newExprFrom parsed]; intros e m P E; try discriminate.
  - destruct o as [o|]; [|discriminate]. destruct P as (Po & Pl & Pr).
    destruct (newExprFrom l args) as [a| |]; try discriminate.
    destruct (newExprFrom r args) as [b| |]; try discriminate. inversion E; subst.
    specialize (fun m => IHl _ m Pl eq_refl). specialize (fun m => IHr _ m Pr eq_refl). split.
    + intros M; inversion M; subst; try (cbn in Po; intuition discriminate).
      * eapply s_cmp; [apply IHl; eassumption|apply IHr; eassumption|assumption].
      * match goal with H : comp _ _ _ _ |- _ => apply comp_op in H; cbn in H, Po end.
        exfalso; intuition (subst; discriminate).
    + intros S; inversion S; subst.
      eapply m_cmp; [apply IHl; eassumption|apply IHr; eassumption|assumption].
  - rewrite (IH _ m P E). split; [apply s_paren|intros S; inversion S; assumption].
  - destruct P as (Pl & Pr).
    destruct (newExprFrom l args) as [a| |]; try discriminate.
    destruct (newExprFrom r args) as [b| |]; try discriminate. inversion E; subst.
    specialize (fun m => IHl _ m Pl eq_refl). specialize (fun m => IHr _ m Pr eq_refl). split.
    + intros M; inversion M; subst;
        try (match goal with H : cmp _ _ _ _ |- _ => inversion H | H : comp _ _ _ _ |- _ => inversion H end).
      * apply s_and1, IHl; assumption.
      * apply s_and2; [apply IHl|apply IHr]; assumption.
    + intros S; inversion S; subst.
      * apply m_andf, IHl; assumption.
      * apply m_andt; [apply IHl|apply IHr]; assumption.
  - destruct P as (Pl & Pr).
    destruct (newExprFrom l args) as [a| |]; try discriminate.
    destruct (newExprFrom r args) as [b| |]; try discriminate. inversion E; subst.
    specialize (fun m => IHl _ m Pl eq_refl). specialize (fun m => IHr _ m Pr eq_refl). split.
    + intros M; inversion M; subst;
        try (match goal with H : cmp _ _ _ _ |- _ => inversion H | H : comp _ _ _ _ |- _ => inversion H end).
      * apply s_or1, IHl; assumption.
      * apply s_or2; [apply IHl|apply IHr]; assumption.
    + intros S; inversion S; subst.
      * apply m_ort, IHl; assumption.
      * apply m_orf; [apply IHl|apply IHr]; assumption.
  - inversion E; subst. split.
    + intros M; inversion M; subst. apply s_col; assumption.
    + intros S; inversion S; subst. apply m_col; assumption.
  - unfold newInt in E. destruct (_ && _); [|discriminate]. inversion E; subst. split.
    + intros M; inversion M; subst. apply s_int.
    + intros S; inversion S; subst. exact (m_lit (VI IInt z) w).
  - inversion E; subst. split.
    + intros M; inversion M; subst. apply s_str.
    + intros S; inversion S; subst. exact (m_lit (VS s) w).
  - inversion E; subst. split.
    + intros M; inversion M; subst. apply s_bool.
    + intros S; inversion S; subst. exact (m_lit (VB b) w).
  - split.
    + intros M. unfold newArg in E. destruct i as [i|]; [|discriminate].
      destruct (i - 1 <? 0) eqn:I0; [discriminate|]. apply Z.ltb_ge in I0.
      destruct (nth_error args _) as [a|] eqn:N; [|discriminate].
      replace i with (Z.of_nat (Z.to_nat (i - 1)) + 1) by lia.
      destruct a; cbn in E; inversion E; subst; inversion M; subst; cbn [abs].
      * apply s_argi, N.
      * apply s_argu, N.
      * apply s_args, N.
    + intros S; inversion S as [| | | |j z N|j z N|j s N| | | | | | |]; subst;
        rewrite (newArg_nth _ _ _ N) in E; inversion E; subst.
      * exact (m_lit (VI IInt z) w).
      * exact (m_lit (VI IUint z) w).
      * exact (m_lit (VS s) w).
  - destruct P as (Po & Pl & Pr).
    destruct (newExprFrom l args) as [a| |]; try discriminate.
    destruct (newExprFrom r args) as [b| |]; try discriminate.
    destruct o as [o|]; [|discriminate]. inversion E; subst.
    specialize (fun m => IHl _ m Pl eq_refl). specialize (fun m => IHr _ m Pr eq_refl). split.
    + intros M; inversion M; subst; try (cbn in Po; intuition discriminate).
      * match goal with H : cmp _ _ _ _ |- _ => apply cmp_op in H; cbn in H, Po end.
        exfalso; intuition (subst; discriminate).
      * eapply s_sum; [apply IHl; eassumption|apply IHr; eassumption|assumption].
    + intros S; inversion S; subst.
      eapply m_comp; [apply IHl; eassumption|apply IHr; eassumption|assumption].
Qed.

(** With fewer arguments than places the call of the user panics. *)
Theorem C81_missing_refuted : exists t, newExprFrom t [] = Panic /\
  exists e, newExprFrom t [AI 3] = Built e.
Proof. exists (Cmp (Some LT) (Name [120]) (Arg (Some 1))). split; [|eexists]; reflexivity. Qed.

(** ... and so it does with an argument that is a boolean, though columns may be. *)
Theorem C81_boolean_refuted : exists t u e,
  newExprFrom t [AX] = Panic /\ places t = [1] /\ newExprFrom u [] = Built e /\
  t = Cmp (Some Eq) (Name [120]) (Arg (Some 1)) /\ u = Cmp (Some Eq) (Name [120]) (Bool true).
Proof.
  exists (Cmp (Some Eq) (Name [120]) (Arg (Some 1))), (Cmp (Some Eq) (Name [120]) (Bool true)).
  eexists. repeat split; reflexivity.
Qed.

Example C81_arguments_ex :
  (** [(x + ? < 7) AND y = ?] *)
  let t := And (Paren (Cmp (Some LT) (Sum (Some Add) (Name [120]) (Arg (Some 1))) (Int 7)))
               (Cmp (Some Eq) (Name [121]) (Arg (Some 2))) in
  let u := And (Cmp (Some LT) (Sum (Some Add) (Name [120]) (Int 3)) (Int 7))
               (Cmp (Some Eq) (Name [121]) (Str [97])) in
  inlined [AI 3; AS [97]] t u /\ newExprFrom t [AI 3; AS [97]] = newExprFrom u [] /\
  newExprFrom u [] <> Failed.
Proof.
  cbn zeta. split; [|split; [reflexivity|discriminate]].
  constructor; [do 2 constructor|constructor]; try constructor; try constructor.
  - exact (i_argi [AI 3; AS [97]] 0 3 eq_refl ltac:(unfold inrange; cbn; lia)).
  - exact (i_args [AI 3; AS [97]] 1 [97] eq_refl).
Qed.
(** [x + ? < 7 OR x = 0], with 3 as its argument, in a row of which [x] is 2. *)
Example C81_tree_ex :
  let t := Or (Cmp (Some LT) (Sum (Some Add) (Name [120]) (Arg (Some 1))) (Int 7))
              (Cmp (Some Eq) (Name [120]) (Int 0)) in
  let w : row := fun c => if seqb c [120] then Some (VI I32 2) else None in
  parsed t /\ says [AI 3] w t (SB true) /\
  exists e, newExprFrom t [AI 3] = Built e /\ means e w (SB true) /\ eval e w = Val (VB true).
Proof.
  cbn zeta. set (t := Or _ _). set (w := fun c : bytes => _).
  assert (P : parsed t) by (cbn; tauto).
  assert (S : says [AI 3] w t (SB true)).
  { apply s_or1. apply (s_cmp _ _ LT _ _ (SZ (2 + 3)) (SZ 7)).
    - apply (s_sum _ _ Add _ _ (SZ 2) (SZ 3)).
      + exact (s_col [AI 3] w [120] (VI I32 2) eq_refl).
      + exact (s_argi [AI 3] w 0 3 eq_refl).
      + constructor.
    - apply s_int.
    - constructor. split; [lia|reflexivity]. }
  split; [exact P|]. split; [exact S|]. eexists. split; [reflexivity|].
  split; [|reflexivity]. exact (proj2 (C81_tree [AI 3] t _ w (SB true) P eq_refl) S).
Qed.
