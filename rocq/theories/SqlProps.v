(** C81: the rows of a SQL query are those for which its condition holds. *)
From Coq Require Import ZArith List Bool Lia.
From Verif Require Import SqlModel SqlProofs.
Import ListNotations.
Open Scope Z_scope.

Lemma num_lits G k e : num G k e -> oklits e.
Proof. induction 1; cbn; auto. Qed.
Lemma txt_lits G e : txt G e -> oklits e.
Proof. induction 1; cbn; auto. Qed.
Lemma cond_lits G e : cond G e -> oklits e.
Proof.
  induction 1; cbn; auto;
    repeat match goal with
    | H : num _ _ _ |- _ => apply num_lits in H
    | H : txt _ _ |- _ => apply txt_lits in H
    end; auto.
Qed.

(** A value that an expression gives is its meaning over the unbounded integers, as long
    as no intermediate result leaves its type; the meaning is the only one. *)
Theorem C81_value e w v : okrow w -> oklits e -> no_overflow e w -> eval e w = Val v ->
  forall m, means e w m <-> m = abs v.
Proof.
  intros W L N E m. destruct (eval_sound e w v W L N E) as [M _]. split.
  - intros M'. exact (means_fun _ _ _ _ M' M).
  - intros ->. exact M.
Qed.

(** Comparisons need no such condition: columns and literals are never cut. *)
Theorem C81_compare o a b w v : okrow w ->
  (match a with Bin _ _ _ => False | _ => oklits a end) ->
  (match b with Bin _ _ _ => False | _ => oklits b end) ->
  In o [LT; LE; GT; GE; Eq; Ne] -> eval (Bin o a b) w = Val v ->
  exists q, v = VB q /\ means (Bin o a b) w (SB q).
Proof.
  intros W A B O E.
  assert (Q : exists q, v = VB q).
  { destruct (eval_bin _ _ _ _ _ E) as [[-> _]|[[-> _]|(x & y & x' & y' & _ & _ & _ & D)]];
      try (cbn in O; intuition discriminate).
    cbn in O. destruct O as [<-|[<-|[<-|[<-|[<-|[<-|[]]]]]]], x', y'; cbn in D; try discriminate;
      try (destruct (kind_eqb k k0); [|discriminate]); inversion D; eauto. }
  destruct Q as [q ->]. exists q; split; [reflexivity|].
  assert (LA : oklits a) by (destruct a; [exact A|exact A|contradiction]).
  assert (LB : oklits b) by (destruct b; [exact B|exact B|contradiction]).
  assert (leaf : forall e, (match e with Bin _ _ _ => False | _ => oklits e end) ->
            forall s k z n, sub s e -> eval s w = Val (VI k z) -> means s w (SZ n) -> inrange k n).
  { intros e He s k z n S Es M. destruct e as [c|u|]; [| |contradiction].
    - destruct S as [->|[]]. cbn in Es. destruct (w c) eqn:C; [|discriminate]. inversion Es; subst.
      pose proof (means_fun _ _ _ _ M (m_col _ _ _ C)) as Q. inversion Q; subst. exact (W _ _ C).
    - destruct S as [->|[]]. cbn in Es; inversion Es; subst.
      pose proof (means_fun _ _ _ _ M (m_lit _ _)) as Q. inversion Q; subst. exact He. }
  refine (proj1 (eval_sound (Bin o a b) w (VB q) W _ _ E)).
  - split; assumption.
  - intros s k z n S Es M. destruct S as [->|[S|S]].
    + rewrite E in Es; discriminate.
    + exact (leaf a A s k z n S Es M).
    + exact (leaf b B s k z n S Es M).
Qed.

(** A literal and an unsigned argument of the query can be compared, unless the one is
    negative and the other 2^63 or more. *)
Theorem C81_argument o x y w : inrange IInt x -> inrange IUint y ->
  In o [LT; LE; GT; GE; Eq; Ne] ->
  (x < 0 /\ 2 ^ 63 <= y <->
     eval (Bin o (Lit (VI IInt x)) (Lit (VI IUint y))) w = Err) /\
  (x < 0 /\ 2 ^ 63 <= y <->
     eval (Bin o (Lit (VI IUint y)) (Lit (VI IInt x))) w = Err).
Proof.
  intros X Y O. destruct (cmp_not _ O) as [N1 N2].
  assert (D : forall k z u, arith o (VI k z) (VI k u) <> Err).
  { intros k z u H. destruct (cmp_num o k z u O) as [b E]. congruence. }
  assert (D' : forall k k' z u, kind_eqb k k' = false -> arith o (VI k z) (VI k' u) = Err).
  { intros k k' z u H. cbn in O. destruct O as [<-|[<-|[<-|[<-|[<-|[<-|[]]]]]]]; cbn [arith]; rewrite H; reflexivity. }
  pose proof (fitsInt_in IUint x X) as FX. pose proof (fitsUint_in IInt y Y) as FY.
  unfold inrange in X, Y, FX, FY. cbn [lo hi] in X, Y, FX, FY.
  rewrite (eval_other o (Lit (VI IInt x)) (Lit (VI IUint y)) w (VI IInt x) (VI IUint y) _ _ N1 N2
             eq_refl eq_refl (surjective_pairing _)).
  rewrite (eval_other o (Lit (VI IUint y)) (Lit (VI IInt x)) w (VI IUint y) (VI IInt x) _ _ N1 N2
             eq_refl eq_refl (surjective_pairing _)).
  unfold coerce. cbn [sameType kind_eqb ideal coerce1].
  destruct (fitsInt IUint x) eqn:EX, (fitsUint IInt y) eqn:EY; cbn [sameType kind_eqb fst snd];
    split; (split; [intros H|intros H]);
    try (exfalso; exact (D _ _ _ H)); try (apply D'; reflexivity).
  all: try (match type of H with _ /\ _ => destruct H end;
    try (assert (0 <= x <= 2 ^ 64 - 1) by (apply FX; reflexivity); lia);
    try (assert (- 2 ^ 63 <= y <= 2 ^ 63 - 1) by (apply FY; reflexivity); lia)).
  all: (split;
    [destruct (Z.lt_ge_cases x 0) as [|Q]; [assumption|];
     assert (false = true) by (apply FX; lia); discriminate
    |destruct (Z.lt_ge_cases y (2 ^ 63)) as [Q|]; [|assumption];
     assert (false = true) by (apply FY; lia); discriminate]).
Qed.

(** Conditions made of columns of one type each, and of literals that fit, never fail. *)
Theorem C81_total G e w : fits G w -> cond G e -> exists b, eval e w = Val (VB b).
Proof. apply cond_val. Qed.

(** What a query is to answer: the rows of which the condition holds, in their order. *)
Inductive answer (f : expr) (cs : list bytes) : list row -> list (list value) -> Prop :=
| a_nil : answer f cs [] []
| a_keep w ws vs out : means f w (SB true) -> Forall2 (fun c v => w c = Some v) cs vs ->
    answer f cs ws out -> answer f cs (w :: ws) (vs :: out)
| a_drop w ws out : means f w (SB false) -> answer f cs ws out -> answer f cs (w :: ws) out.

Lemma evals_cols cs w vs : evals (map Col cs) w = Some vs <-> Forall2 (fun c v => w c = Some v) cs vs.
Proof.
  revert vs; induction cs as [|c cs IH]; intros vs; cbn.
  - split; [intros E; inversion E; constructor|intros H; inversion H; reflexivity].
  - split.
    + destruct (w c) eqn:C; [|discriminate].
      destruct (evals (map Col cs) w) eqn:D; [|discriminate].
      intros E; inversion E; subst. constructor; [exact C|]. apply IH; reflexivity.
    + intros H; inversion H; subst. rewrite H2. rewrite (proj2 (IH _) H4). reflexivity.
Qed.

Theorem C81_rows G f cs ws :
  cond G f ->
  (forall w, In w ws -> okrow w /\ fits G w /\ no_overflow f w /\ forall c, In c cs -> w c <> None) ->
  exists out, query (map Col cs) (Some f) ws = (out, EOF) /\
              forall out', answer f cs ws out' <-> out' = out.
Proof.
  intros C. induction ws as [|w ws IH]; intros H.
  - exists []. split; [reflexivity|]. intros out'; split.
    + intros A; inversion A; reflexivity.
    + intros ->; constructor.
  - destruct IH as (out & E & U); [intros; apply H; right; assumption|].
    destruct (H w (or_introl eq_refl)) as (W & F & N & P).
    destruct (C81_total G f w F C) as [b Eb].
    pose proof (C81_value f w (VB b) W (cond_lits _ _ C) N Eb) as M.
    assert (Ev : exists vs, evals (map Col cs) w = Some vs).
    { clear -P. induction cs as [|c cs IH]; cbn; [eauto|].
      destruct (w c) eqn:D; [|exfalso; apply (P c); [left; reflexivity|exact D]].
      destruct IH as [vs ->]; [intros; apply P; right; assumption|]. eauto. }
    destruct Ev as [vs Ev]. cbn [query]. rewrite Eb, Ev, E. destruct b.
    + exists (vs :: out). split; [reflexivity|]. intros out'; split.
      * intros A; inversion A as [|? ? vs' o' Mt Fv An|? ? o' Mf An]; subst.
        -- apply evals_cols in Fv. apply U in An. congruence.
        -- apply M in Mf. discriminate.
      * intros ->. apply a_keep; [apply M; reflexivity|apply evals_cols, Ev|apply U; reflexivity].
    + exists out. split; [reflexivity|]. intros out'; split.
      * intros A; inversion A as [|? ? vs' o' Mt Fv An|? ? o' Mf An]; subst.
        -- apply M in Mt. discriminate.
        -- apply U, An.
      * intros ->. apply a_drop; [apply M; reflexivity|apply U; reflexivity].
Qed.

(** Without a condition there is one row for each entry. *)
Theorem C81_all cs ws : (forall w, In w ws -> forall c, In c cs -> w c <> None) ->
  exists out, query (map Col cs) None ws = (out, EOF) /\
              Forall2 (fun w vs => Forall2 (fun c v => w c = Some v) cs vs) ws out.
Proof.
  induction ws as [|w ws IH]; intros H; [exists []; split; [reflexivity|constructor]|].
  destruct IH as (out & E & U); [intros w' I; apply H; right; exact I|].
  assert (Ev : exists vs, evals (map Col cs) w = Some vs).
  { specialize (H w (or_introl eq_refl)). clear -H. induction cs as [|c cs IH]; cbn; [eauto|].
    destruct (w c) eqn:D; [|exfalso; apply (H c); [left; reflexivity|exact D]].
    destruct IH as [vs ->]; [intros; apply H; right; assumption|]. eauto. }
  destruct Ev as [vs Ev]. exists (vs :: out). cbn [query]. rewrite Ev, E. split; [reflexivity|].
  constructor; [apply evals_cols, Ev|exact U].
Qed.

(** The first row of which the condition cannot be evaluated ends the rows with an error,
    after the rows before it; what follows is not read. *)
Theorem C81_error sel f ws w ws' out : query sel (Some f) ws = (out, EOF) -> eval f w = Err ->
  query sel (Some f) (ws ++ w :: ws') = (out, Error).
Proof.
  revert out; induction ws as [|u ws IH]; intros out E W; cbn [app query] in *.
  - inversion E; subst. rewrite W. reflexivity.
  - destruct (eval f u) as [[| |[|]]|]; try discriminate.
    + destruct (evals sel u); [|discriminate].
      destruct (query sel (Some f) ws) as [o e] eqn:Q. inversion E; subst.
      rewrite (IH o eq_refl W). reflexivity.
    + apply IH; assumption.
Qed.

(** The right operand is evaluated only if it is needed: a test can guard a division. *)
Theorem C81_guard l r w :
  (eval l w = Val (VB false) -> eval (Bin AndAnd l r) w = Val (VB false)) /\
  (eval l w = Val (VB true) -> eval (Bin OrOr l r) w = Val (VB true)).
Proof. split; cbn; intros ->; reflexivity. Qed.

(** Division by zero is an error, never a crash or a value. *)
Theorem C81_zero l r w k k' x : eval l w = Val (VI k x) -> eval r w = Val (VI k' 0) ->
  inrange k x -> eval (Bin Div l r) w = Err.
Proof.
  intros A B V. cbn. rewrite A, B.
  destruct (coerce (VI k x) (VI k' 0)) as [a b] eqn:C.
  assert (V0 : valid (VI k' 0)) by (unfold valid, inrange; destruct k'; cbn; lia).
  destruct (coerce_ok (VI k x) (VI k' 0) a b V V0 C) as (_ & Y & _ & _).
  destruct a, b; cbn in Y |- *; try discriminate; try reflexivity.
  inversion Y; subst. destruct (kind_eqb _ _); reflexivity.
Qed.

(** ** Not so *)
Definition x_ : bytes := [120].
Definition y_ : bytes := [121].
Definition row1 (v : value) : row := fun c => if seqb c x_ then Some v else None.
Definition row2 (v u : value) : row :=
  fun c => if seqb c x_ then Some v else if seqb c y_ then Some u else None.

Lemma row2_ok v u : valid v -> valid u -> okrow (row2 v u).
Proof.
  intros A B c t. unfold row2. destruct (seqb c x_); [congruence|].
  destruct (seqb c y_); congruence.
Qed.

(** A literal that the type of the column cannot hold is an error, though the comparison
    holds: [WHERE x < 1000] for a column of bytes gives no rows. *)
Theorem C81_literal_refuted : exists f w,
  okrow w /\ oklits f /\ means f w (SB true) /\ query [Col x_] (Some f) [w] = ([], Error).
Proof.
  exists (Bin LT (Col x_) (Lit (VI IInt 1000))), (row2 (VI I8 5) (VB true)).
  split; [apply row2_ok; unfold valid, inrange; cbn; auto; lia|].
  split; [cbn; unfold inrange; cbn; lia|]. split; [|reflexivity].
  eapply (m_cmp LT _ _ _ (SZ 5) (SZ 1000)).
  - exact (m_col x_ _ (VI I8 5) eq_refl).
  - exact (m_lit (VI IInt 1000) _).
  - constructor. split; [lia|reflexivity].
Qed.

(** Columns of different integer types cannot be compared. *)
Theorem C81_columns_refuted : exists f w,
  okrow w /\ oklits f /\ means f w (SB true) /\ query [Col x_] (Some f) [w] = ([], Error).
Proof.
  exists (Bin LT (Col x_) (Col y_)), (row2 (VI I32 1) (VI I64 2)).
  split; [apply row2_ok; unfold valid, inrange; cbn; lia|].
  split; [cbn; auto|]. split; [|reflexivity].
  eapply (m_cmp LT _ _ _ (SZ 1) (SZ 2)).
  - exact (m_col x_ _ (VI I32 1) eq_refl).
  - exact (m_col y_ _ (VI I64 2) eq_refl).
  - constructor. split; [lia|reflexivity].
Qed.

(** Sums wrap around: [WHERE x + 100 > x] loses the row of which [x] is 200. *)
Theorem C81_overflow_refuted : exists f w,
  okrow w /\ oklits f /\ means f w (SB true) /\ query [Col x_] (Some f) [w] = ([], EOF).
Proof.
  exists (Bin GT (Bin Add (Col x_) (Lit (VI IInt 100))) (Col x_)), (row2 (VI U8 200) (VB true)).
  split; [apply row2_ok; unfold valid, inrange; cbn; auto; lia|].
  split; [cbn; unfold inrange; cbn; lia|]. split; [|reflexivity].
  eapply (m_cmp GT _ _ _ (SZ (200 + 100)) (SZ 200)).
  - eapply m_comp; [exact (m_col x_ _ (VI U8 200) eq_refl)|exact (m_lit (VI IInt 100) _)|constructor].
  - exact (m_col x_ _ (VI U8 200) eq_refl).
  - constructor. split; [lia|reflexivity].
Qed.

(** A condition that is a number stops the program of the user. *)
Theorem C81_number_refuted : exists f w, okrow w /\ oklits f /\
  query [Col x_] (Some f) [w] = ([], Crash).
Proof.
  exists (Bin Sub (Col x_) (Lit (VI IInt 1))), (row2 (VI I32 1) (VB true)).
  split; [apply row2_ok; unfold valid, inrange; cbn; auto; lia|].
  split; [cbn; unfold inrange; cbn; lia|]. reflexivity.
Qed.

(** The operators on bits are accepted and fail for every row. *)
Theorem C81_bits l r w : eval (Bin Bits l r) w = Err.
Proof.
  cbn. destruct (eval l w); [|reflexivity]. destruct (eval r w); [|reflexivity].
  destruct (coerce v v0); reflexivity.
Qed.

(** ** Examples *)
Definition G1 (c : bytes) : option colty :=
  if seqb c x_ then Some (TI I32) else if seqb c y_ then Some TS else None.
(** [x / 2 + 1 > 3 AND y <> 'no'] *)
Definition f1 : expr :=
  Bin AndAnd
    (Bin GT (Bin Add (Bin Div (Col x_) (Lit (VI IInt 2))) (Lit (VI IInt 1))) (Lit (VI IInt 3)))
    (Bin Ne (Col y_) (Lit (VS [110; 111]))).
Definition w1 (x : Z) (s : bytes) : row := row2 (VI I32 x) (VS s).

Lemma f1_cond : cond G1 f1.
Proof.
  apply d_and.
  - apply (d_numl _ _ I32); try (unfold inrange; cbn; lia); [cbn; auto|].
    apply n_lit; try (unfold inrange; cbn; lia); [cbn; auto|].
    apply n_div; try (unfold inrange; cbn; lia); try lia. apply n_col; reflexivity.
  - apply d_txt; [cbn; tauto|apply t_col; reflexivity|apply t_lit].
Qed.
Lemma w1_fits x s : fits G1 (w1 x s).
Proof.
  intros c t. unfold G1, w1, row2. destruct (seqb c x_).
  - intros E; inversion E; subst. eexists; repeat split; discriminate.
  - destruct (seqb c y_); [|discriminate]. intros E; inversion E; subst.
    eexists; repeat split.
Qed.
Lemma f1_exact x s : 0 <= x <= 1000 -> no_overflow f1 (w1 x s).
Proof.
  intros R t k z n S E M.
  assert (M1 : means (Col x_) (w1 x s) (SZ x)) by exact (m_col x_ (w1 x s) (VI I32 x) eq_refl).
  assert (M2 : means (Bin Div (Col x_) (Lit (VI IInt 2))) (w1 x s) (SZ (Z.quot x 2))).
  { eapply m_comp; [exact M1|exact (m_lit (VI IInt 2) _)|constructor; lia]. }
  assert (M3 : means (Bin Add (Bin Div (Col x_) (Lit (VI IInt 2))) (Lit (VI IInt 1))) (w1 x s)
                 (SZ (Z.quot x 2 + 1))).
  { eapply m_comp; [exact M2|exact (m_lit (VI IInt 1) _)|constructor]. }
  assert (Q : 0 <= Z.quot x 2 <= 1000).
  { pose proof (Z.quot_pos x 2). pose proof (Z.quot_le_upper_bound x 2 1000). lia. }
  assert (E1 : eval (Col x_) (w1 x s) = Val (VI I32 x)) by reflexivity.
  assert (E2 : exists z2, eval (Bin Div (Col x_) (Lit (VI IInt 2))) (w1 x s) = Val (VI I32 z2))
    by (eexists; reflexivity).
  assert (E3 : exists z3, eval (Bin Add (Bin Div (Col x_) (Lit (VI IInt 2))) (Lit (VI IInt 1))) (w1 x s)
                = Val (VI I32 z3)) by (eexists; reflexivity).
  destruct E2 as [z2 E2], E3 as [z3 E3].
  destruct (C81_total G1 f1 (w1 x s) (w1_fits x s) f1_cond) as [q E0].
  assert (D1 : exists q, eval (Bin GT (Bin Add (Bin Div (Col x_) (Lit (VI IInt 2))) (Lit (VI IInt 1)))
                 (Lit (VI IInt 3))) (w1 x s) = Val (VB q)) by (eexists; reflexivity).
  assert (D2 : exists q, eval (Bin Ne (Col y_) (Lit (VS [110; 111]))) (w1 x s) = Val (VB q))
    by (eexists; reflexivity).
  destruct D1 as [q1 D1], D2 as [q2 D2].
  assert (K : forall j, means t (w1 x s) (SZ j) -> inrange k j -> inrange k n).
  { intros j Mj R'. pose proof (means_fun _ _ _ _ M Mj) as EQ. inversion EQ; subst. exact R'. }
  destruct S as [->|[[->|[[->|[[->|[[->|[]]|[->|[]]]]|[->|[]]]]|[->|[]]]]|[->|[[->|[]]|[->|[]]]]]].
  - pose proof (eq_trans (eq_sym E) E0) as X; discriminate X.
  - rewrite D1 in E; discriminate.
  - rewrite E3 in E; inversion E; subst. apply (K _ M3). unfold inrange; cbn; lia.
  - rewrite E2 in E; inversion E; subst. apply (K _ M2). unfold inrange; cbn; lia.
  - rewrite E1 in E; inversion E; subst. apply (K _ M1). unfold inrange; cbn; lia.
  - inversion E; subst. apply (K _ (m_lit _ _)). unfold inrange; cbn; lia.
  - inversion E; subst. apply (K _ (m_lit _ _)). unfold inrange; cbn; lia.
  - inversion E; subst. apply (K _ (m_lit _ _)). unfold inrange; cbn; lia.
  - rewrite D2 in E; discriminate.
  - discriminate E.
  - discriminate E.
Qed.

Example C81_rows_ex :
  query [Col y_] (Some f1) [w1 2 [97]; w1 8 [97; 98]; w1 9 [110; 111]; w1 100 []]
  = ([[VS [97; 98]]; [VS []]], EOF)
  /\ answer f1 [y_] [w1 2 [97]; w1 8 [97; 98]; w1 9 [110; 111]; w1 100 []] [[VS [97; 98]]; [VS []]].
Proof.
  destruct (C81_rows G1 f1 [y_] [w1 2 [97]; w1 8 [97; 98]; w1 9 [110; 111]; w1 100 []] f1_cond)
    as (out & E & U).
  - intros w H. cbn in H.
    repeat match goal with H : _ \/ _ |- _ => destruct H end; subst; try contradiction;
    (split; [apply row2_ok; unfold valid, inrange; cbn; auto; lia|
     split; [apply w1_fits|split; [apply f1_exact; lia|
     intros c [<-|[]]; discriminate]]]).
  - split; [reflexivity|]. apply U. vm_compute in E. congruence.
Qed.
Example C81_all_ex :
  query [Col x_; Col y_] None [w1 2 [97]; w1 8 []] = ([[VI I32 2; VS [97]]; [VI I32 8; VS []]], EOF).
Proof. reflexivity. Qed.
Example C81_error_ex :
  query [Col x_] (Some (Bin GT (Bin Div (Lit (VI IInt 6)) (Col x_)) (Lit (VI IInt 0))))
    [w1 2 []; w1 7 []; w1 0 []; w1 1 []] = ([[VI I32 2]], Error).
Proof. reflexivity. Qed.
(** [x <> 0 AND 6 / x > 0] *)
Example C81_guard_ex :
  query [Col x_] (Some (Bin AndAnd (Bin Ne (Col x_) (Lit (VI IInt 0)))
                     (Bin GT (Bin Div (Lit (VI IInt 6)) (Col x_)) (Lit (VI IInt 0)))))
    [w1 2 []; w1 7 []; w1 0 []; w1 1 []] = ([[VI I32 2]; [VI I32 1]], EOF).
Proof. reflexivity. Qed.
Example C81_compare_ex :
  eval (Bin GE (Lit (VI IInt (-3))) (Col x_)) (w1 (-3) []) = Val (VB true) /\
  eval (Bin LT (Lit (VI IInt (-3))) (Lit (VI IUint 7))) (w1 0 []) = Val (VB true) /\
  eval (Bin LT (Lit (VI IUint (2 ^ 64 - 1))) (Lit (VI IInt 7))) (w1 0 []) = Val (VB false) /\
  eval (Bin LT (Col y_) (Lit (VS [97; 98]))) (w1 0 [97]) = Val (VB true).
Proof. repeat split; reflexivity. Qed.
