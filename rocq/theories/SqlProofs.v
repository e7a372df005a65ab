(** Proofs about [SqlModel]. *)
From Coq Require Import ZArith List Bool Lia.
From Verif Require Import SqlModel.
Import ListNotations.
Open Scope Z_scope.

(** ** The meaning of an expression, over unbounded integers *)
Inductive sval := SZ (z : Z) | SS (s : bytes) | SB (b : bool).
Definition abs (v : value) : sval :=
  match v with VI _ z => SZ z | VS s => SS s | VB b => SB b end.

(** Strings are ordered as words in a dictionary. *)
Inductive sless : bytes -> bytes -> Prop :=
| sl_nil y b : sless [] (y :: b)
| sl_lt x a y b : x < y -> sless (x :: a) (y :: b)
| sl_eq x a b : sless a b -> sless (x :: a) (x :: b).

(** [means e w m]: the condition or sum [e] stands for [m] in row [w]. *)
Inductive cmp : op -> sval -> sval -> bool -> Prop :=
| c_lt x y b : (b = true <-> x < y) -> cmp LT (SZ x) (SZ y) b
| c_le x y b : (b = true <-> x <= y) -> cmp LE (SZ x) (SZ y) b
| c_gt x y b : (b = true <-> y < x) -> cmp GT (SZ x) (SZ y) b
| c_ge x y b : (b = true <-> y <= x) -> cmp GE (SZ x) (SZ y) b
| c_slt x y b : (b = true <-> sless x y) -> cmp LT (SS x) (SS y) b
| c_sle x y b : (b = true <-> sless x y \/ x = y) -> cmp LE (SS x) (SS y) b
| c_sgt x y b : (b = true <-> sless y x) -> cmp GT (SS x) (SS y) b
| c_sge x y b : (b = true <-> sless y x \/ x = y) -> cmp GE (SS x) (SS y) b
| c_eq (x y : sval) b : (b = true <-> x = y) -> cmp Eq x y b
| c_ne (x y : sval) b : (b = true <-> x <> y) -> cmp Ne x y b.
Inductive comp : op -> sval -> sval -> sval -> Prop :=
| p_add x y : comp Add (SZ x) (SZ y) (SZ (x + y))
| p_sub x y : comp Sub (SZ x) (SZ y) (SZ (x - y))
| p_mul x y : comp Mul (SZ x) (SZ y) (SZ (x * y))
| p_div x y : y <> 0 -> comp Div (SZ x) (SZ y) (SZ (Z.quot x y))
| p_cat x y : comp Add (SS x) (SS y) (SS (x ++ y)).
Inductive means : expr -> row -> sval -> Prop :=
| m_col c w v : w c = Some v -> means (Col c) w (abs v)
| m_lit v w : means (Lit v) w (abs v)
| m_andf l r w : means l w (SB false) -> means (Bin AndAnd l r) w (SB false)
| m_andt l r w b : means l w (SB true) -> means r w (SB b) -> means (Bin AndAnd l r) w (SB b)
| m_ort l r w : means l w (SB true) -> means (Bin OrOr l r) w (SB true)
| m_orf l r w b : means l w (SB false) -> means r w (SB b) -> means (Bin OrOr l r) w (SB b)
| m_cmp o l r w x y b : means l w x -> means r w y -> cmp o x y b -> means (Bin o l r) w (SB b)
| m_comp o l r w x y z : means l w x -> means r w y -> comp o x y z -> means (Bin o l r) w z.

Definition inrange (k : kind) (z : Z) : Prop := lo k <= z <= hi k.
Definition valid (v : value) : Prop := match v with VI k z => inrange k z | _ => True end.
Definition okrow (w : row) : Prop := forall c v, w c = Some v -> valid v.

(** The literals of an expression are values of their type. *)
Fixpoint oklits (e : expr) : Prop :=
  match e with Col _ => True | Lit v => valid v | Bin _ l r => oklits l /\ oklits r end.

Fixpoint sub (s e : expr) : Prop :=
  s = e \/ match e with Bin _ l r => sub s l \/ sub s r | _ => False end.

(** No sum, difference, product or quotient of [e] leaves the type it is computed in. *)
Definition no_overflow (e : expr) (w : row) : Prop :=
  forall s k z n, sub s e -> eval s w = Val (VI k z) -> means s w (SZ n) -> inrange k n.

Lemma wrap_id k z : inrange k z -> wrap k z = z.
Proof.
  unfold wrap, inrange; intros H.
  rewrite Z.mod_small; [ring|]. lia.
Qed.
Lemma wrap_range k z : inrange k (wrap k z).
Proof.
  unfold wrap, inrange.
  assert (0 < hi k - lo k + 1) by (destruct k; cbn; lia).
  pose proof (Z.mod_pos_bound (z - lo k) (hi k - lo k + 1) H). lia.
Qed.
Lemma kind_eqb_eq a b : kind_eqb a b = true -> a = b.
Proof. destruct a, b; cbn; congruence. Qed.
Lemma kind_eqb_refl a : kind_eqb a a = true.
Proof. destruct a; reflexivity. Qed.

Lemma fitsInt_in k x : inrange IInt x -> (fitsInt k x = true <-> inrange k x).
Proof.
  unfold inrange; intros H; destruct k; cbn [lo hi fitsInt] in *;
    rewrite ?andb_true_iff, ?Z.leb_le; try lia; (split; [intros; lia|intros; reflexivity]).
Qed.
Lemma fitsUint_in k x : inrange IUint x -> (fitsUint k x = true <-> inrange k x).
Proof.
  unfold inrange; intros H; destruct k; cbn [lo hi fitsUint] in *;
    rewrite ?andb_true_iff, ?Z.leb_le; try lia; (split; [intros; lia|intros; reflexivity]).
Qed.

Lemma coerce1_ok a b : valid a -> abs (coerce1 a b) = abs a /\ valid (coerce1 a b).
Proof.
  intros V. destruct a as [k x| |]; cbn in *; try (destruct k; cbn; auto; fail); auto.
  destruct k; cbn; auto; destruct b as [k' y| |]; cbn; auto.
  - destruct (fitsInt k' x) eqn:E; cbn; auto.
    apply fitsInt_in in E; [|exact V]. rewrite wrap_id by exact E. auto.
  - destruct (fitsUint k' x) eqn:E; cbn; auto.
    apply fitsUint_in in E; [|exact V]. rewrite wrap_id by exact E. auto.
Qed.
Lemma coerce_ok a b x y : valid a -> valid b -> coerce a b = (x, y) ->
  abs x = abs a /\ abs y = abs b /\ valid x /\ valid y.
Proof.
  intros Va Vb. unfold coerce.
  pose proof (coerce1_ok a b Va) as [A1 A2]. pose proof (coerce1_ok b a Vb) as [B1 B2].
  destruct (sameType a b); [intros E; inversion E; subst; auto|].
  destruct (ideal a), (ideal b); try (intros E; inversion E; subst; auto; fail).
  destruct (sameType _ b); intros E; inversion E; subst; auto.
Qed.

Lemma seqb_eq a b : seqb a b = true <-> a = b.
Proof.
  revert b; induction a as [|x a IH]; intros [|y b]; cbn; split; try congruence.
  - rewrite andb_true_iff, Z.eqb_eq. intros [-> H]. apply IH in H. congruence.
  - intros E; inversion E; subst. rewrite Z.eqb_refl. cbn. apply IH; reflexivity.
Qed.
Lemma sltb_spec a b : sltb a b = true <-> sless a b.
Proof.
  revert b; induction a as [|x a IH]; intros [|y b]; cbn; split; try congruence;
    try (intros H; inversion H; fail); try (intros; constructor; fail); try reflexivity.
  - destruct (x =? y) eqn:E.
    + apply Z.eqb_eq in E as ->. intros H. apply sl_eq, IH, H.
    + intros H. apply sl_lt, Z.ltb_lt, H.
  - intros H; inversion H; subst.
    + destruct (x =? y) eqn:E; [apply Z.eqb_eq in E; lia|apply Z.ltb_lt; lia].
    + rewrite Z.eqb_refl. apply IH; assumption.
Qed.
Lemma sltb_total a b : negb (sltb b a) = true <-> sless a b \/ a = b.
Proof.
  rewrite negb_true_iff, <- sltb_spec.
  revert b; induction a as [|x a IH]; intros [|y b]; cbn; try (intuition congruence).
  rewrite (Z.eqb_sym y x). destruct (x =? y) eqn:E.
  - apply Z.eqb_eq in E as ->. rewrite IH. intuition congruence.
  - apply Z.eqb_neq in E. rewrite Z.ltb_lt, Z.ltb_ge. split; [intros; left; lia|].
    intros [H|H]; [lia|congruence].
Qed.

(** One operator: the value is that of the operands, or its remainder. *)
Lemma arith_cmp o x y v b : arith o x y = Val v -> v = VB b -> cmp o (abs x) (abs y) b.
Proof.
  intros E ->. destruct o, x as [k x|x|x], y as [k' y|y|y]; cbn in E |- *; try discriminate;
    try (destruct (kind_eqb k k'); [|discriminate]); try (destruct (y =? 0); discriminate);
    inversion E; subst; constructor;
    rewrite ?Z.gtb_ltb, ?Z.geb_leb, ?negb_true_iff, ?Z.ltb_lt, ?Z.leb_le, ?Z.eqb_eq, ?Z.eqb_neq;
    rewrite ?sltb_spec, ?seqb_eq; try reflexivity; try (split; congruence).
  - rewrite <- negb_true_iff. apply sltb_total.
  - rewrite <- negb_true_iff, sltb_total. intuition congruence.
  - rewrite <- negb_true_iff. split; [|].
    + intros H E1. inversion E1; subst. rewrite (proj2 (seqb_eq y y) eq_refl) in H. discriminate.
    + intros H. destruct (seqb x y) eqn:Q; [|reflexivity]. apply seqb_eq in Q. congruence.
  - destruct x, y; cbn; intuition congruence.
  - destruct x, y; cbn; intuition congruence.
Qed.
Lemma arith_num o x y k z : arith o x y = Val (VI k z) ->
  exists n, comp o (abs x) (abs y) (SZ n) /\ z = wrap k n.
Proof.
  intros E. destruct o, x as [k1 x|x|x], y as [k' y|y|y]; cbn in E |- *; try discriminate;
    try (destruct (kind_eqb k1 k'); [|discriminate]); try discriminate;
    try (destruct (y =? 0) eqn:Y; [discriminate|apply Z.eqb_neq in Y]);
    inversion E; subst; (eexists; split; [constructor; assumption|reflexivity])
    || (eexists; split; [constructor|reflexivity]).
Qed.
Lemma arith_str o x y s : arith o x y = Val (VS s) -> comp o (abs x) (abs y) (SS s).
Proof.
  intros E. destruct o, x as [k1 x|x|x], y as [k' y|y|y]; cbn in E |- *; try discriminate;
    try (destruct (kind_eqb k1 k'); [|discriminate]); try discriminate;
    try (destruct (y =? 0); discriminate); inversion E; subst; constructor.
Qed.

Lemma sub_refl e : sub e e.
Proof. destruct e; left; reflexivity. Qed.
Lemma no_overflow_l o l r w : no_overflow (Bin o l r) w -> no_overflow l w.
Proof. intros H s k z n S; apply H. right; left; exact S. Qed.
Lemma no_overflow_r o l r w : no_overflow (Bin o l r) w -> no_overflow r w.
Proof. intros H s k z n S; apply H. right; right; exact S. Qed.

Lemma eval_bin o l r w v : eval (Bin o l r) w = Val v ->
  (o = AndAnd /\ ((eval l w = Val (VB false) /\ v = VB false) \/
                  (eval l w = Val (VB true) /\ exists b, eval r w = Val (VB b) /\ v = VB b))) \/
  (o = OrOr /\ ((eval l w = Val (VB true) /\ v = VB true) \/
                  (eval l w = Val (VB false) /\ exists b, eval r w = Val (VB b) /\ v = VB b))) \/
  (exists a b x y, eval l w = Val a /\ eval r w = Val b /\ coerce a b = (x, y) /\
                   arith o x y = Val v).
Proof.
  intros E.
  assert (G : forall o, match eval l w with
      | Val a => match eval r w with
                 | Val b => let (x, y) := coerce a b in arith o x y | Err => Err end
      | Err => Err end = Val v ->
      exists a b x y, eval l w = Val a /\ eval r w = Val b /\ coerce a b = (x, y) /\
                   arith o x y = Val v).
  { intros o'. destruct (eval l w) as [a|]; [|discriminate].
    destruct (eval r w) as [b|]; [|discriminate].
    destruct (coerce a b) as [x y] eqn:C. intros. exists a, b, x, y. auto. }
  destruct o; try (right; right; apply G, E).
  - left; split; [reflexivity|]. cbn in E.
    destruct (eval l w) as [[| |[|]]|]; try discriminate.
    + right; split; [reflexivity|]. destruct (eval r w) as [[| |b]|]; try discriminate.
      exists b. split; congruence.
    + left; split; congruence.
  - right; left; split; [reflexivity|]. cbn in E.
    destruct (eval l w) as [[| |[|]]|]; try discriminate.
    + left; split; congruence.
    + right; split; [reflexivity|]. destruct (eval r w) as [[| |b]|]; try discriminate.
      exists b. split; congruence.
Qed.

Theorem eval_sound e w v : okrow w -> oklits e -> no_overflow e w -> eval e w = Val v ->
  means e w (abs v) /\ valid v.
Proof.
  intros W. revert v. induction e as [c|u|o l IHl r IHr]; intros v L N E.
  - cbn in E. destruct (w c) eqn:C; [|discriminate]. inversion E; subst.
    split; [constructor; exact C|exact (W _ _ C)].
  - inversion E; subst. split; [constructor|exact L].
  - destruct L as [Ll Lr].
    pose proof (fun u => IHl u Ll (no_overflow_l _ _ _ _ N)) as Hl.
    pose proof (fun u => IHr u Lr (no_overflow_r _ _ _ _ N)) as Hr.
    pose proof (eval_bin _ _ _ _ _ E) as [[-> [[A ->]|(A & b & B & ->)]]|[[-> [[A ->]|(A & b & B & ->)]]|H]].
    + split; [|exact I]. apply m_andf, (proj1 (Hl _ A)).
    + split; [|exact I]. apply m_andt; [apply (proj1 (Hl _ A))|apply (proj1 (Hr _ B))].
    + split; [|exact I]. apply m_ort, (proj1 (Hl _ A)).
    + split; [|exact I]. apply m_orf; [apply (proj1 (Hl _ A))|apply (proj1 (Hr _ B))].
    + destruct H as (a & b & x & y & A & B & C & D).
      destruct (Hl _ A) as [Ma Va], (Hr _ B) as [Mb Vb].
      destruct (coerce_ok _ _ _ _ Va Vb C) as (X & Y & _ & _).
      rewrite <- X in Ma. rewrite <- Y in Mb.
      destruct v as [k z|s|q].
      * destruct (arith_num _ _ _ _ _ D) as (n & P & ->).
        pose proof (m_comp _ _ _ _ _ _ _ Ma Mb P) as M.
        pose proof (N _ _ _ _ (sub_refl _) E M) as R.
        cbn. rewrite wrap_id by exact R. auto.
      * split; [|exact I]. exact (m_comp _ _ _ _ _ _ _ Ma Mb (arith_str _ _ _ _ D)).
      * split; [|exact I]. exact (m_cmp _ _ _ _ _ _ _ Ma Mb (arith_cmp _ _ _ _ _ D eq_refl)).
Qed.

(** ** A meaning is unique *)
Lemma cmp_fun o x y b b' : cmp o x y b -> cmp o x y b' -> b = b'.
Proof.
  intros H H'. inversion H; subst; inversion H'; subst; destruct b, b'; intuition congruence.
Qed.
Lemma comp_fun o x y z z' : comp o x y z -> comp o x y z' -> z = z'.
Proof. intros H H'. inversion H; subst; inversion H'; subst; reflexivity. Qed.
Lemma means_fun e w : forall m m', means e w m -> means e w m' -> m = m'.
Proof.
  induction e as [c|v|o l IHl r IHr]; intros m m' H H'.
  - inversion H; subst; inversion H'; subst. congruence.
  - inversion H; subst; inversion H'; subst. reflexivity.
  - inversion H; subst; inversion H'; subst;
      repeat match goal with
      | A : means l w ?x, B : means l w ?y |- _ => pose proof (IHl _ _ A B); clear A
      | A : means r w ?x, B : means r w ?y |- _ => pose proof (IHr _ _ A B); clear A
      | A : cmp AndAnd _ _ _ |- _ => inversion A
      | A : cmp OrOr _ _ _ |- _ => inversion A
      | A : comp AndAnd _ _ _ |- _ => inversion A
      | A : comp OrOr _ _ _ |- _ => inversion A
      end; subst; try congruence.
    + f_equal. eapply cmp_fun; eauto.
    + match goal with A : cmp _ _ _ _, B : comp _ _ _ _ |- _ => inversion A; subst; inversion B end.
    + match goal with A : cmp _ _ _ _, B : comp _ _ _ _ |- _ => inversion A; subst; inversion B end.
    + eapply comp_fun; eauto.
Qed.

(** ** Conditions that fit the columns never fail *)
Inductive colty := TI (k : kind) | TS | TB.
Definition plain (k : kind) : Prop := k <> IInt /\ k <> IUint.
Definition hasty (v : value) (t : colty) : Prop :=
  match v, t with VI k _, TI k' => k = k' | VS _, TS => True | VB _, TB => True | _, _ => False end.
Definition fits (G : bytes -> option colty) (w : row) : Prop :=
  forall c t, G c = Some t ->
    exists v, w c = Some v /\ hasty v t /\ match t with TI k => plain k | _ => True end.

(** Whole numbers of the type of a column ... *)
Inductive num (G : bytes -> option colty) (k : kind) : expr -> Prop :=
| n_col c : G c = Some (TI k) -> num G k (Col c)
| n_bin o l r : In o [Add; Sub; Mul] -> num G k l -> num G k r -> num G k (Bin o l r)
| n_lit o l n : In o [Add; Sub; Mul] -> num G k l -> inrange k n -> inrange IInt n ->
    num G k (Bin o l (Lit (VI IInt n)))
| n_til o r n : In o [Add; Sub; Mul] -> num G k r -> inrange k n -> inrange IInt n ->
    num G k (Bin o (Lit (VI IInt n)) r)
| n_div l n : num G k l -> inrange k n -> inrange IInt n -> n <> 0 ->
    num G k (Bin Div l (Lit (VI IInt n))).
Inductive txt (G : bytes -> option colty) : expr -> Prop :=
| t_col c : G c = Some TS -> txt G (Col c)
| t_lit s : txt G (Lit (VS s))
| t_cat l r : txt G l -> txt G r -> txt G (Bin Add l r).
(** ... and conditions on them. *)
Inductive cond (G : bytes -> option colty) : expr -> Prop :=
| d_col c : G c = Some TB -> cond G (Col c)
| d_lit b : cond G (Lit (VB b))
| d_and l r : cond G l -> cond G r -> cond G (Bin AndAnd l r)
| d_or l r : cond G l -> cond G r -> cond G (Bin OrOr l r)
| d_beq o l r : In o [Eq; Ne] -> cond G l -> cond G r -> cond G (Bin o l r)
| d_num o k l r : In o [LT; LE; GT; GE; Eq; Ne] -> num G k l -> num G k r -> cond G (Bin o l r)
| d_numl o k l n : In o [LT; LE; GT; GE; Eq; Ne] -> num G k l -> inrange k n -> inrange IInt n ->
    cond G (Bin o l (Lit (VI IInt n)))
| d_lnum o k r n : In o [LT; LE; GT; GE; Eq; Ne] -> num G k r -> inrange k n -> inrange IInt n ->
    cond G (Bin o (Lit (VI IInt n)) r)
| d_txt o l r : In o [LT; LE; GT; GE; Eq; Ne] -> txt G l -> txt G r -> cond G (Bin o l r).

Lemma coerce_lit k x n : plain k -> inrange k n -> inrange IInt n ->
  coerce (VI k x) (VI IInt n) = (VI k x, VI k n).
Proof.
  intros [P1 P2] R RI. unfold coerce; cbn [sameType].
  pose proof (proj2 (fitsInt_in k n RI) R) as F. pose proof (wrap_id k n R) as Q.
  destruct k; try congruence; cbn [kind_eqb ideal coerce1]; rewrite F, Q; reflexivity.
Qed.
Lemma coerce_til k x n : plain k -> inrange k n -> inrange IInt n ->
  coerce (VI IInt n) (VI k x) = (VI k n, VI k x).
Proof.
  intros [P1 P2] R RI. unfold coerce; cbn [sameType].
  pose proof (proj2 (fitsInt_in k n RI) R) as F. pose proof (wrap_id k n R) as Q.
  destruct k; try congruence; cbn [kind_eqb ideal coerce1]; rewrite F, Q; reflexivity.
Qed.
Lemma coerce_same a b : sameType a b = true -> coerce a b = (a, b).
Proof. unfold coerce. intros ->. reflexivity. Qed.

Lemma eval_other o l r w a b x y : o <> AndAnd -> o <> OrOr -> eval l w = Val a -> eval r w = Val b ->
  coerce a b = (x, y) -> eval (Bin o l r) w = arith o x y.
Proof. intros A B El Er C. destruct o; try congruence; cbn; rewrite El, Er, C; reflexivity. Qed.

Lemma num_not o : In o [Add; Sub; Mul] -> o <> AndAnd /\ o <> OrOr.
Proof. intros H. cbn in H. destruct H as [<-|[<-|[<-|[]]]]; split; discriminate. Qed.
Lemma sum_num o k x y : In o [Add; Sub; Mul] -> exists z, arith o (VI k x) (VI k y) = Val (VI k z).
Proof.
  intros H. cbn in H. destruct H as [<-|[<-|[<-|[]]]]; cbn [arith]; rewrite kind_eqb_refl; eauto.
Qed.

Lemma num_val G k e w : fits G w -> num G k e -> exists z, eval e w = Val (VI k z) /\ plain k.
Proof.
  intros F H. induction H as [c Hc|o l r Ho _ [x [IHl P]] _ [y [IHr _]]|o l n Ho _ [x [IHl P]] R RI
                             |o r n Ho _ [x [IHr P]] R RI|l n _ [x [IHl P]] R RI Nz].
  - destruct (F _ _ Hc) as (v & E & T & P). destruct v; try contradiction. cbn in T; subst.
    exists z. cbn. rewrite E. auto.
  - destruct (num_not _ Ho) as [N1 N2], (sum_num o k x y Ho) as [z Ez]. exists z. split; [|exact P].
    erewrite eval_other; eauto. apply coerce_same, kind_eqb_refl.
  - destruct (num_not _ Ho) as [N1 N2], (sum_num o k x n Ho) as [z Ez]. exists z. split; [|exact P].
    erewrite eval_other; eauto; [reflexivity|]. apply coerce_lit; assumption.
  - destruct (num_not _ Ho) as [N1 N2], (sum_num o k n x Ho) as [z Ez]. exists z. split; [|exact P].
    erewrite eval_other; eauto; [reflexivity|]. apply coerce_til; assumption.
  - exists (wrap k (Z.quot x n)). split; [|exact P].
    erewrite (eval_other Div); [| discriminate | discriminate | exact IHl | reflexivity
                               | apply coerce_lit; assumption].
    cbn [arith]; rewrite kind_eqb_refl. destruct (n =? 0) eqn:Z0; [apply Z.eqb_eq in Z0; lia|]. reflexivity.
Qed.
Lemma txt_val G e w : fits G w -> txt G e -> exists s, eval e w = Val (VS s).
Proof.
  intros F H. induction H as [c Hc|s|l r _ [x IHl] _ [y IHr]].
  - destruct (F _ _ Hc) as (v & E & T & _). destruct v; try contradiction. exists s. cbn. rewrite E. auto.
  - exists s; reflexivity.
  - exists (x ++ y). cbn. rewrite IHl, IHr. reflexivity.
Qed.
Lemma cmp_num o k x y : In o [LT; LE; GT; GE; Eq; Ne] -> exists b, arith o (VI k x) (VI k y) = Val (VB b).
Proof.
  intros H. cbn in H. destruct H as [<-|[<-|[<-|[<-|[<-|[<-|[]]]]]]]; cbn [arith];
    rewrite kind_eqb_refl; eauto.
Qed.
Lemma cmp_txt o x y : In o [LT; LE; GT; GE; Eq; Ne] -> exists b, arith o (VS x) (VS y) = Val (VB b).
Proof. intros H. cbn in H. destruct H as [<-|[<-|[<-|[<-|[<-|[<-|[]]]]]]]; cbn [arith]; eauto. Qed.
Lemma cmp_not o : In o [LT; LE; GT; GE; Eq; Ne] -> o <> AndAnd /\ o <> OrOr.
Proof. intros H. cbn in H. destruct H as [<-|[<-|[<-|[<-|[<-|[<-|[]]]]]]]; split; discriminate. Qed.

Theorem cond_val G e w : fits G w -> cond G e -> exists b, eval e w = Val (VB b).
Proof.
  intros F H. induction H as [c Hc|b|l r _ [x IHl] _ [y IHr]|l r _ [x IHl] _ [y IHr]
    |o l r Ho _ [x IHl] _ [y IHr]|o k l r Ho Hl Hr|o k l n Ho Hl R RI|o k r n Ho Hr R RI|o l r Ho Hl Hr].
  - destruct (F _ _ Hc) as (v & E & T & _). destruct v; try contradiction. exists b. cbn. rewrite E. auto.
  - exists b; reflexivity.
  - cbn. rewrite IHl, IHr. destruct x; eauto.
  - cbn. rewrite IHl, IHr. destruct x; eauto.
  - destruct Ho as [<-|[<-|[]]]; cbn; rewrite IHl, IHr; cbn; eauto.
  - destruct (num_val _ _ _ _ F Hl) as (x & El & P), (num_val _ _ _ _ F Hr) as (y & Er & _).
    destruct (cmp_not _ Ho).
    erewrite eval_other; eauto. 2: apply coerce_same, kind_eqb_refl. apply cmp_num, Ho.
  - destruct (num_val _ _ _ _ F Hl) as (x & El & P). destruct (cmp_not _ Ho).
    erewrite eval_other; eauto. 2: reflexivity. 2: apply coerce_lit; assumption. apply cmp_num, Ho.
  - destruct (num_val _ _ _ _ F Hr) as (x & Er & P). destruct (cmp_not _ Ho).
    erewrite eval_other; eauto. 2: reflexivity. 2: apply coerce_til; assumption. apply cmp_num, Ho.
  - destruct (txt_val _ _ _ F Hl) as (x & El), (txt_val _ _ _ F Hr) as (y & Er).
    destruct (cmp_not _ Ho).
    erewrite eval_other; eauto. 2: apply coerce_same; reflexivity. apply cmp_txt, Ho.
Qed.
