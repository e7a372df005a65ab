(* IEEE-754 binary64 comparisons (Go float64 <, <=, ==, >, >=), all NaN, infinities and
   signed zeros included, and an order embedding of the non-NaN values into Z.
   No axioms: only the comparison of Flocq's binary_float is used. *)
From Coq Require Import ZArith Lia Bool SpecFloat.
From Flocq Require Import IEEE754.BinarySingleNaN.
Local Open Scope Z_scope.

(* Go: float64 *)
Definition f64 : Set := binary_float 53 1024.

Definition flt (x y : f64) : bool := Bltb x y.       (* x < y  *)
Definition fle (x y : f64) : bool := Bleb x y.       (* x <= y *)
Definition feq (x y : f64) : bool := Beqb x y.       (* x == y *)
Definition fgt (x y : f64) : bool := Bltb y x.       (* x > y  *)
Definition fge (x y : f64) : bool := Bleb y x.       (* x >= y *)

(* value of a float scaled by 2^1074 (an exact integer); None for NaN *)
Definition fkey (x : f64) : option Z :=
  match x with
  | B754_nan => None
  | B754_zero _ => Some 0
  | B754_infinity s => Some (if s then - 2 ^ 2100 else 2 ^ 2100)
  | B754_finite s m e _ => Some (let v := Zpos m * 2 ^ (e + 1074) in if s then - v else v)
  end.

Lemma digits2_pos_bound m :
  2 ^ (Zpos (digits2_pos m) - 1) <= Zpos m < 2 ^ (Zpos (digits2_pos m)).
Proof.
  induction m; cbn [digits2_pos].
  - rewrite Pos2Z.inj_succ.
    replace (Z.succ (Z.pos (digits2_pos m)) - 1) with (Z.succ (Z.pos (digits2_pos m) - 1)) by lia.
    rewrite !Z.pow_succ_r by lia. lia.
  - rewrite Pos2Z.inj_succ.
    replace (Z.succ (Z.pos (digits2_pos m)) - 1) with (Z.succ (Z.pos (digits2_pos m) - 1)) by lia.
    rewrite !Z.pow_succ_r by lia. lia.
  - simpl. lia.
Qed.

Lemma bounded_facts m e :
  bounded 53 1024 m e = true ->
  -1074 <= e <= 971 /\ Zpos m < 2 ^ 53 /\ (-1074 < e -> 2 ^ 52 <= Zpos m).
Proof.
  unfold bounded, canonical_mantissa, fexp, SpecFloat.emin.
  intros H; apply andb_true_iff in H; destruct H as [H1 H2].
  apply Zeq_bool_eq in H1. apply Z.leb_le in H2.
  pose proof (digits2_pos_bound m) as [B1 B2].
  assert (Zpos (digits2_pos m) <= 53) by lia.
  assert (Zpos m < 2 ^ 53).
  { eapply Z.lt_le_trans; [exact B2|]. apply Z.pow_le_mono_r; lia. }
  repeat split; try lia.
  intros He. assert (Zpos (digits2_pos m) = 53) as E by lia.
  rewrite E in B1. exact B1.
Qed.

Lemma key_fin_mono m1 e1 m2 e2 :
  bounded 53 1024 m1 e1 = true -> bounded 53 1024 m2 e2 = true -> e1 < e2 ->
  Zpos m1 * 2 ^ (e1 + 1074) < Zpos m2 * 2 ^ (e2 + 1074).
Proof.
  intros H1 H2 He. apply bounded_facts in H1, H2.
  destruct H1 as (A1 & A2 & A3), H2 as (B1 & B2 & B3).
  assert (P1 : 0 < 2 ^ (e1 + 1074)) by (apply Z.pow_pos_nonneg; lia).
  assert (L : 2 * 2 ^ (e1 + 1074) <= 2 ^ (e2 + 1074)).
  { rewrite <- Z.pow_succ_r by lia. apply Z.pow_le_mono_r; lia. }
  assert (E53 : 2 ^ 53 = 2 * 2 ^ 52) by reflexivity.
  specialize (B3 ltac:(lia)). nia.
Qed.

Lemma key_fin_bound m e :
  bounded 53 1024 m e = true -> 0 < Zpos m * 2 ^ (e + 1074) < 2 ^ 2100.
Proof.
  intros H. apply bounded_facts in H. destruct H as (A1 & A2 & A3).
  assert (P1 : 0 < 2 ^ (e + 1074)) by (apply Z.pow_pos_nonneg; lia).
  assert (L : 2 ^ (e + 1074) <= 2 ^ 2045) by (apply Z.pow_le_mono_r; lia).
  assert (E : 2 ^ 2100 = 2 ^ 55 * 2 ^ 2045) by (rewrite <- Z.pow_add_r by lia; reflexivity).
  assert (0 < 2 ^ 2045) by (apply Z.pow_pos_nonneg; lia).
  assert (2 ^ 53 < 2 ^ 55) by reflexivity.
  rewrite E. split; nia.
Qed.

Lemma fcompare_key (x y : f64) :
  Bcompare x y =
  match fkey x, fkey y with
  | Some a, Some b => Some (a ?= b)
  | _, _ => None
  end.
Proof.
  assert (PI : 0 < 2 ^ 2100) by reflexivity.
  unfold Bcompare.
  destruct x as [sx|sx| |sx mx ex Hx], y as [sy|sy| |sy my ey Hy];
    cbn [fkey B2SF SFcompare]; try reflexivity.
  - f_equal; destruct sy; symmetry; [apply Z.compare_gt_iff | apply Z.compare_lt_iff]; lia.
  - pose proof (key_fin_bound _ _ Hy).
    f_equal; destruct sy; symmetry; [apply Z.compare_gt_iff | apply Z.compare_lt_iff]; lia.
  - f_equal; destruct sx; symmetry; [apply Z.compare_lt_iff | apply Z.compare_gt_iff]; lia.
  - f_equal; destruct sx, sy; symmetry;
      first [apply Z.compare_refl | apply Z.compare_lt_iff; lia | apply Z.compare_gt_iff; lia].
  - pose proof (key_fin_bound _ _ Hy).
    f_equal; destruct sx, sy; symmetry;
      first [apply Z.compare_lt_iff; lia | apply Z.compare_gt_iff; lia].
  - pose proof (key_fin_bound _ _ Hx).
    f_equal; destruct sx; symmetry;
      first [apply Z.compare_lt_iff; lia | apply Z.compare_gt_iff; lia].
  - pose proof (key_fin_bound _ _ Hx).
    f_equal; destruct sx, sy; symmetry;
      first [apply Z.compare_lt_iff; lia | apply Z.compare_gt_iff; lia].
  - pose proof (key_fin_bound _ _ Hx). pose proof (key_fin_bound _ _ Hy).
    f_equal.
    assert (C : (Z.pos mx * 2 ^ (ex + 1074) ?= Z.pos my * 2 ^ (ey + 1074)) =
                match (ex ?= ey) with
                | Eq => Pos.compare_cont Eq mx my | Lt => Lt | Gt => Gt end).
    { destruct (Z.compare_spec ex ey) as [E|E|E].
      - subst ey. change (Pos.compare_cont Eq mx my) with (Z.pos mx ?= Z.pos my).
        pose proof (bounded_facts _ _ Hx) as (A & _).
        assert (P : 0 < 2 ^ (ex + 1074)) by (apply Z.pow_pos_nonneg; lia).
        symmetry. rewrite !(Z.mul_comm _ (2 ^ (ex + 1074))).
        apply Zmult_compare_compat_l. lia.
      - apply Z.compare_lt_iff. apply key_fin_mono; auto.
      - apply Z.compare_gt_iff. apply key_fin_mono; auto. }
    destruct sx, sy; cbn zeta.
    + rewrite Z.compare_opp, (Z.compare_antisym (Z.pos mx * 2 ^ (ex + 1074))), C.
      destruct (ex ?= ey); reflexivity.
    + symmetry. apply Z.compare_lt_iff; lia.
    + symmetry. apply Z.compare_gt_iff; lia.
    + symmetry. rewrite C. reflexivity.
Qed.

Definition opt2 {A B} (f : A -> A -> B) (d : B) (x y : option A) : B :=
  match x, y with Some a, Some b => f a b | _, _ => d end.

Lemma flt_key x y : flt x y = opt2 Z.ltb false (fkey x) (fkey y).
Proof.
  unfold flt, Bltb, SFltb. change (SFcompare (B2SF x) (B2SF y)) with (Bcompare x y).
  rewrite fcompare_key. destruct (fkey x), (fkey y); simpl; auto.
Qed.
Lemma fle_key x y : fle x y = opt2 Z.leb false (fkey x) (fkey y).
Proof.
  unfold fle, Bleb, SFleb. change (SFcompare (B2SF x) (B2SF y)) with (Bcompare x y).
  rewrite fcompare_key. destruct (fkey x), (fkey y); simpl; auto.
Qed.
Lemma feq_key x y : feq x y = opt2 Z.eqb false (fkey x) (fkey y).
Proof.
  unfold feq, Beqb, SFeqb. change (SFcompare (B2SF x) (B2SF y)) with (Bcompare x y).
  rewrite fcompare_key. destruct (fkey x), (fkey y); simpl; auto.
  rewrite Z.eqb_compare. destruct (z ?= z0); auto.
Qed.

Definition is_nanb (x : f64) : bool := match fkey x with None => true | _ => false end.

(* rewriting database turning float comparisons into comparisons of keys *)
Lemma flt_true x y : flt x y = true <-> exists a b, fkey x = Some a /\ fkey y = Some b /\ a < b.
Proof.
  rewrite flt_key. destruct (fkey x), (fkey y); simpl; split; intros H;
    try discriminate; try (destruct H as (a & b & H1 & H2 & H3); congruence).
  - exists z, z0. apply Z.ltb_lt in H. auto.
  - destruct H as (a & b & H1 & H2 & H3). apply Z.ltb_lt. congruence.
Qed.
Lemma fle_true x y : fle x y = true <-> exists a b, fkey x = Some a /\ fkey y = Some b /\ a <= b.
Proof.
  rewrite fle_key. destruct (fkey x), (fkey y); simpl; split; intros H;
    try discriminate; try (destruct H as (a & b & H1 & H2 & H3); congruence).
  - exists z, z0. apply Z.leb_le in H. auto.
  - destruct H as (a & b & H1 & H2 & H3). apply Z.leb_le. congruence.
Qed.
Lemma feq_true x y : feq x y = true <-> exists a, fkey x = Some a /\ fkey y = Some a.
Proof.
  rewrite feq_key. destruct (fkey x), (fkey y); simpl; split; intros H;
    try discriminate; try (destruct H as (a & H1 & H2); congruence).
  - exists z. apply Z.eqb_eq in H. subst; auto.
  - destruct H as (a & H1 & H2). apply Z.eqb_eq. congruence.
Qed.

Lemma flt_trans x y z : flt x y = true -> flt y z = true -> flt x z = true.
Proof. rewrite !flt_true. intros (a & b & ? & ? & ?) (c & d & ? & ? & ?). exists a, d. repeat split; auto. assert (b = c) by congruence. lia. Qed.
Lemma fle_trans x y z : fle x y = true -> fle y z = true -> fle x z = true.
Proof. rewrite !fle_true. intros (a & b & ? & ? & ?) (c & d & ? & ? & ?). exists a, d. repeat split; auto. assert (b = c) by congruence. lia. Qed.
Lemma flt_le_trans x y z : flt x y = true -> fle y z = true -> flt x z = true.
Proof. rewrite fle_true, !flt_true. intros (a & b & ? & ? & ?) (c & d & ? & ? & ?). exists a, d. repeat split; auto. assert (b = c) by congruence. lia. Qed.
Lemma fle_lt_trans x y z : fle x y = true -> flt y z = true -> flt x z = true.
Proof. rewrite fle_true, !flt_true. intros (a & b & ? & ? & ?) (c & d & ? & ? & ?). exists a, d. repeat split; auto. assert (b = c) by congruence. lia. Qed.
Lemma flt_le x y : flt x y = true -> fle x y = true.
Proof. rewrite fle_true, flt_true. intros (a & b & ? & ? & ?). exists a, b. repeat split; auto; lia. Qed.
Lemma flt_irrefl x : flt x x = false.
Proof. rewrite flt_key. destruct (fkey x); simpl; auto. apply Z.ltb_irrefl. Qed.
Lemma fle_not_lt x y : fle x y = true -> flt y x = false.
Proof. rewrite fle_true, flt_key. intros (a & b & -> & -> & ?). simpl. apply Z.ltb_ge; lia. Qed.
Lemma flt_not_le x y : flt x y = true -> fle y x = false.
Proof. rewrite flt_true, fle_key. intros (a & b & -> & -> & ?). simpl. apply Z.leb_gt; lia. Qed.
Lemma flt_total x y : is_nanb x = false -> is_nanb y = false -> flt x y = false -> fle y x = true.
Proof.
  unfold is_nanb. rewrite flt_key, fle_key.
  destruct (fkey x), (fkey y); simpl; try discriminate. intros _ _ H.
  apply Z.leb_le. apply Z.ltb_ge in H. lia.
Qed.

(* concrete floats used in examples: exact small integers *)
Definition f_of_pos (m : positive) (e : Z) (H : bounded 53 1024 m e = true) : f64 :=
  B754_finite false m e H.
Definition fzero : f64 := B754_zero false.
Definition finf : f64 := B754_infinity false.
Definition fninf : f64 := B754_infinity true.
Definition fnan : f64 := B754_nan.
(* 1.0, 2.0, 3.0, 4.0, -1.0 *)
Definition f1 : f64 := @B754_finite 53 1024 false (2 ^ 52)%positive (-52) eq_refl.
Definition f2 : f64 := @B754_finite 53 1024 false (2 ^ 52)%positive (-51) eq_refl.
Definition f3 : f64 := @B754_finite 53 1024 false (3 * 2 ^ 51)%positive (-51) eq_refl.
Definition f4 : f64 := @B754_finite 53 1024 false (2 ^ 52)%positive (-50) eq_refl.
Definition fm1 : f64 := @B754_finite 53 1024 true (2 ^ 52)%positive (-52) eq_refl.
Definition f1_5 : f64 := @B754_finite 53 1024 false (3 * 2 ^ 51)%positive (-52) eq_refl.
Definition f2_5 : f64 := @B754_finite 53 1024 false (5 * 2 ^ 50)%positive (-51) eq_refl.
