(* IEEE-754 binary64 arithmetic of Go (+, -, *, / on float64, float64(i) of an integer, int(x)): rounding to nearest, ties
   to even, with overflow to an infinity.  The operations are those of Flocq; here are the facts about them that are used.
   Fused multiply-add, which the Go compiler may use on some machines (not on amd64), is not considered. *)
From Coq Require Import ZArith Reals Lra Lia Bool SpecFloat.
From Flocq Require Import Core IEEE754.BinarySingleNaN Relative Plus_error.
From Verif Require Import F64.
Local Open Scope R_scope.

#[global] Instance p53 : Prec_gt_0 53 := eq_refl.
#[global] Instance p53_1024 : Prec_lt_emax 53 1024 := eq_refl.
Definition fadd (x y : f64) : f64 := Bplus mode_NE x y.
Definition fsub (x y : f64) : f64 := Bminus mode_NE x y.
Definition fmul (x y : f64) : f64 := Bmult mode_NE x y.
Definition fdiv (x y : f64) : f64 := Bdiv mode_NE x y.
(* float64(n) *)
Definition fofZ (n : Z) : f64 := binary_normalize 53 1024 p53 p53_1024 mode_NE n 0 false.
(* the integer part, towards zero; what int(x) gives for a number that is in the range of int *)
Definition ftrunc (x : f64) : Z := Btrunc x.

Definition rnd (x : R) : R := round radix2 (FLT_exp (-1074) 53) ZnearestE x.
Definition big : R := bpow radix2 1024.
(* the value, infinities standing at +-2^1024 *)
Definition vr (x : f64) : R := match x with B754_infinity s => if s then - big else big | _ => B2R x end.
(* rounding with overflow *)
Definition cl (x : R) : R := if Rlt_bool (Rabs (rnd x)) big then rnd x else if Rlt_bool x 0 then - big else big.

Lemma big_pos : 0 < big. Proof. apply bpow_gt_0. Qed.
Lemma vr_finite (x : f64) : is_finite x = true -> vr x = B2R x.
Proof. destruct x; cbn; congruence. Qed.
Lemma vr_lt_big (x : f64) : is_finite x = true -> Rabs (vr x) < big.
Proof. intros H. rewrite vr_finite by auto. apply abs_B2R_lt_emax. Qed.
Lemma vr_le_big (x : f64) : Rabs (vr x) <= big.
Proof.
  pose proof big_pos. destruct (is_finite x) eqn:E; [left; apply vr_lt_big; auto|].
  destruct x as [s|s| |]; try discriminate; cbn [vr]; [destruct s; rewrite ?Rabs_Ropp; rewrite Rabs_pos_eq; lra|].
  cbn. rewrite Rabs_R0. lra.
Qed.
Lemma B2SF_inf (x : f64) s : B2SF x = S754_infinity s -> x = B754_infinity s.
Proof. destruct x; cbn; intros H; inversion H; auto. Qed.
Lemma rnd_le x y : x <= y -> rnd x <= rnd y.
Proof. intros H. apply round_le; auto. apply FLT_exp_valid. reflexivity. apply valid_rnd_N. Qed.
Lemma rnd_0 : rnd 0 = 0. Proof. unfold rnd. apply round_0. apply valid_rnd_N. Qed.
Lemma rnd_nonneg x : 0 <= x -> 0 <= rnd x.
Proof. intros H. rewrite <- rnd_0. apply rnd_le. auto. Qed.
Lemma rnd_nonpos x : x <= 0 -> rnd x <= 0.
Proof. intros H. rewrite <- rnd_0. apply rnd_le. auto. Qed.
Lemma rnd_B2R (x : f64) : rnd (B2R x) = B2R x.
Proof. apply round_generic; [apply valid_rnd_N|]. apply (generic_format_B2R 53 1024 x). Qed.
Lemma cl_mono x y : x <= y -> cl x <= cl y.
Proof.
  intros H. pose proof (rnd_le x y H) as M. pose proof big_pos as B. unfold cl.
  destruct (Rlt_bool_spec (Rabs (rnd x)) big) as [A|A]; destruct (Rlt_bool_spec (Rabs (rnd y)) big) as [C|C]; auto.
  - destruct (Rlt_bool_spec y 0) as [D|D].
    + exfalso. pose proof (rnd_nonpos y ltac:(lra)). rewrite Rabs_left1 in C by lra. apply Rabs_lt_inv in A. lra.
    + apply Rabs_lt_inv in A. lra.
  - destruct (Rlt_bool_spec x 0) as [D|D].
    + apply Rabs_lt_inv in C. lra.
    + exfalso. pose proof (rnd_nonneg x ltac:(lra)). rewrite Rabs_pos_eq in A by lra. apply Rabs_lt_inv in C. lra.
  - destruct (Rlt_bool_spec x 0), (Rlt_bool_spec y 0); lra.
Qed.
Lemma cl_small x : Rabs (rnd x) < big -> cl x = rnd x.
Proof. intros H. unfold cl. rewrite Rlt_bool_true; auto. Qed.
Lemma cl_B2R (x : f64) : cl (B2R x) = B2R x.
Proof. rewrite cl_small; rewrite rnd_B2R; auto. apply abs_B2R_lt_emax. Qed.

(* ---- comparisons ---- *)
Local Ltac fin := split; intros Q; first [reflexivity | lra | discriminate Q | exfalso; lra].
Lemma fle_vr (x y : f64) : is_nan x = false -> is_nan y = false -> (fle x y = true <-> vr x <= vr y).
Proof.
  intros Nx Ny. pose proof big_pos as B. unfold fle.
  destruct (is_finite x) eqn:Fx, (is_finite y) eqn:Fy.
  - rewrite Bleb_correct, !vr_finite by auto. destruct (Rle_bool_spec (B2R x) (B2R y)); fin.
  - pose proof (vr_lt_big x Fx) as L. apply Rabs_lt_inv in L. destruct y as [s|s| |]; try discriminate.
    destruct x as [sx|sx| |sx mx ex Hx]; try discriminate; destruct s; cbn -[B2R big] in *; fin.
  - pose proof (vr_lt_big y Fy) as L. apply Rabs_lt_inv in L. destruct x as [s|s| |]; try discriminate.
    destruct y as [sx|sx| |sx mx ex Hx]; try discriminate; destruct s; cbn -[B2R big] in *; fin.
  - destruct x as [s|s| |]; try discriminate; destruct y as [t|t| |]; try discriminate.
    destruct s, t; cbn -[big]; fin.
Qed.
Lemma flt_vr (x y : f64) : is_nan x = false -> is_nan y = false -> (flt x y = true <-> vr x < vr y).
Proof.
  intros Nx Ny. pose proof big_pos as B. unfold flt.
  destruct (is_finite x) eqn:Fx, (is_finite y) eqn:Fy.
  - rewrite Bltb_correct, !vr_finite by auto. destruct (Rlt_bool_spec (B2R x) (B2R y)); fin.
  - pose proof (vr_lt_big x Fx) as L. apply Rabs_lt_inv in L. destruct y as [s|s| |]; try discriminate.
    destruct x as [sx|sx| |sx mx ex Hx]; try discriminate; destruct s; cbn -[B2R big] in *; fin.
  - pose proof (vr_lt_big y Fy) as L. apply Rabs_lt_inv in L. destruct x as [s|s| |]; try discriminate.
    destruct y as [sx|sx| |sx mx ex Hx]; try discriminate; destruct s; cbn -[B2R big] in *; fin.
  - destruct x as [s|s| |]; try discriminate; destruct y as [t|t| |]; try discriminate.
    destruct s, t; cbn -[big]; fin.
Qed.
Lemma feq_fle (x y : f64) : feq x y = true <-> fle x y = true /\ fle y x = true.
Proof.
  rewrite feq_true, !fle_true. split.
  - intros (a & A & B). split; exists a, a; repeat split; auto; lia.
  - intros ((a & b & A & B & L) & (c & d & C & D & M)). rewrite A in D. rewrite B in C. injection D as ->. injection C as ->.
    exists d. replace c with d in B by lia. auto.
Qed.
Lemma feq_vr (x y : f64) : is_nan x = false -> is_nan y = false -> (feq x y = true <-> vr x = vr y).
Proof. intros Nx Ny. rewrite feq_fle, !fle_vr by auto. split; intros; [|split]; lra. Qed.
Lemma vr_gt_0_finite (x : f64) : is_finite x = true -> flt fzero x = true -> 0 < B2R x.
Proof. intros F H. apply flt_vr in H; [|reflexivity|destruct x; auto; discriminate]. rewrite (vr_finite x) in H by auto. exact H. Qed.

(* ---- the operations ---- *)
Lemma sgn_le0 (x : f64) : Bsign x = true -> B2R x <= 0.
Proof.
  destruct x as [s|s| |s m e H]; cbn; intros E; try lra. subst s. apply F2R_le_0. cbn. lia.
Qed.
Lemma sgn_ge0 (x : f64) : Bsign x = false -> 0 <= B2R x.
Proof.
  destruct x as [s|s| |s m e H]; cbn; intros E; try lra. subst s. apply F2R_ge_0. cbn. lia.
Qed.
Lemma over_nz x : ~ Rabs (rnd x) < big -> x <> 0.
Proof. intros H ->. apply H. rewrite rnd_0, Rabs_R0. apply big_pos. Qed.
Lemma fin_nan (x : f64) : is_finite x = true -> is_nan x = false.
Proof. destruct x; cbn; congruence. Qed.
Lemma vr_inf s : vr (B754_infinity s) = if s then - big else big. Proof. reflexivity. Qed.
Lemma fadd_vr (x y : f64) : is_finite x = true -> is_finite y = true -> is_nan (fadd x y) = false /\ vr (fadd x y) = cl (B2R x + B2R y).
Proof.
  intros Fx Fy. pose proof (Bplus_correct 53 1024 p53 p53_1024 mode_NE x y Fx Fy) as H.
  change (round radix2 (SpecFloat.fexp 53 1024) (round_mode mode_NE)) with rnd in H. unfold cl. fold big in H. fold (fadd x y) in H.
  destruct (Rlt_bool_spec (Rabs (rnd (B2R x + B2R y))) big) as [A|A].
  - destruct H as (H1 & H2 & _). split; [apply fin_nan; auto|]. rewrite vr_finite; auto.
  - destruct H as (H1 & H2). apply B2SF_inf in H1. rewrite H1. split; auto. rewrite vr_inf.
    pose proof (over_nz _ (Rle_not_lt _ _ A)) as NZ. destruct (Bsign x) eqn:S1.
    + rewrite Rlt_bool_true; auto. pose proof (sgn_le0 x S1). pose proof (sgn_le0 y (eq_sym H2)). lra.
    + rewrite Rlt_bool_false; auto. pose proof (sgn_ge0 x S1). pose proof (sgn_ge0 y (eq_sym H2)). lra.
Qed.
Lemma fsub_vr (x y : f64) : is_finite x = true -> is_finite y = true -> is_nan (fsub x y) = false /\ vr (fsub x y) = cl (B2R x - B2R y).
Proof.
  intros Fx Fy. pose proof (Bminus_correct 53 1024 p53 p53_1024 mode_NE x y Fx Fy) as H.
  change (round radix2 (SpecFloat.fexp 53 1024) (round_mode mode_NE)) with rnd in H. unfold cl. fold big in H. fold (fsub x y) in H.
  destruct (Rlt_bool_spec (Rabs (rnd (B2R x - B2R y))) big) as [A|A].
  - destruct H as (H1 & H2 & _). split; [apply fin_nan; auto|]. rewrite vr_finite; auto.
  - destruct H as (H1 & H2). apply B2SF_inf in H1. rewrite H1. split; auto. rewrite vr_inf.
    pose proof (over_nz _ (Rle_not_lt _ _ A)) as NZ. destruct (Bsign x) eqn:S1.
    + rewrite Rlt_bool_true; auto. pose proof (sgn_le0 x S1). destruct (Bsign y) eqn:S2; [discriminate|]. pose proof (sgn_ge0 y S2). lra.
    + rewrite Rlt_bool_false; auto. pose proof (sgn_ge0 x S1). destruct (Bsign y) eqn:S2; [|discriminate]. pose proof (sgn_le0 y S2). lra.
Qed.
Lemma prod_sign (x y : f64) a b : B2R x = a -> B2R y = b -> a * b <> 0 ->
  (if xorb (Bsign x) (Bsign y) then - big else big) = if Rlt_bool (a * b) 0 then - big else big.
Proof.
  intros <- <- NZ. destruct (Bsign x) eqn:S1, (Bsign y) eqn:S2; cbn [xorb];
    [pose proof (sgn_le0 x S1); pose proof (sgn_le0 y S2)|pose proof (sgn_le0 x S1); pose proof (sgn_ge0 y S2)
    |pose proof (sgn_ge0 x S1); pose proof (sgn_le0 y S2)|pose proof (sgn_ge0 x S1); pose proof (sgn_ge0 y S2)].
  - rewrite Rlt_bool_false; auto. nra.
  - rewrite Rlt_bool_true; auto. nra.
  - rewrite Rlt_bool_true; auto. nra.
  - rewrite Rlt_bool_false; auto. nra.
Qed.
Lemma fmul_vr (x y : f64) : is_finite x = true -> is_finite y = true -> is_nan (fmul x y) = false /\ vr (fmul x y) = cl (B2R x * B2R y).
Proof.
  intros Fx Fy. pose proof (Bmult_correct 53 1024 p53 p53_1024 mode_NE x y) as H. rewrite Fx, Fy in H.
  change (round radix2 (SpecFloat.fexp 53 1024) (round_mode mode_NE)) with rnd in H. unfold cl. fold big in H. fold (fmul x y) in H.
  destruct (Rlt_bool_spec (Rabs (rnd (B2R x * B2R y))) big) as [A|A].
  - destruct H as (H1 & H2 & _). split; [apply fin_nan; auto|]. rewrite vr_finite; auto.
  - apply B2SF_inf in H. rewrite H. split; auto. rewrite vr_inf.
    apply prod_sign; auto. apply over_nz. apply Rle_not_lt. auto.
Qed.
Lemma fdiv_vr (x y : f64) : is_finite x = true -> is_finite y = true -> B2R y <> 0 -> is_nan (fdiv x y) = false /\ vr (fdiv x y) = cl (B2R x / B2R y).
Proof.
  intros Fx Fy NZ. pose proof (Bdiv_correct 53 1024 p53 p53_1024 mode_NE x y NZ) as H. rewrite Fx in H.
  change (round radix2 (SpecFloat.fexp 53 1024) (round_mode mode_NE)) with rnd in H. unfold cl. fold big in H. fold (fdiv x y) in H.
  destruct (Rlt_bool_spec (Rabs (rnd (B2R x / B2R y))) big) as [A|A].
  - destruct H as (H1 & H2 & _). split; [apply fin_nan; auto|]. rewrite vr_finite; auto.
  - apply B2SF_inf in H. rewrite H. split; auto. rewrite vr_inf.
    pose proof (over_nz _ (Rle_not_lt _ _ A)) as QZ. unfold Rdiv in *.
    assert (S : forall r, 0 < r -> 0 < / r) by (intros; apply Rinv_0_lt_compat; auto).
    assert (S' : forall r, r < 0 -> / r < 0) by (intros; apply Rinv_lt_0_compat; auto).
    destruct (Bsign x) eqn:S1, (Bsign y) eqn:S2; cbn [xorb];
    [pose proof (sgn_le0 x S1); pose proof (sgn_le0 y S2)|pose proof (sgn_le0 x S1); pose proof (sgn_ge0 y S2)
    |pose proof (sgn_ge0 x S1); pose proof (sgn_le0 y S2)|pose proof (sgn_ge0 x S1); pose proof (sgn_ge0 y S2)].
    + rewrite Rlt_bool_false; auto. pose proof (S' (B2R y) ltac:(lra)). nra.
    + rewrite Rlt_bool_true; auto. pose proof (S (B2R y) ltac:(lra)). nra.
    + rewrite Rlt_bool_true; auto. pose proof (S' (B2R y) ltac:(lra)). nra.
    + rewrite Rlt_bool_false; auto. pose proof (S (B2R y) ltac:(lra)). nra.
Qed.
Lemma fofZ_vr n : is_nan (fofZ n) = false /\ vr (fofZ n) = cl (IZR n).
Proof.
  pose proof (binary_normalize_correct 53 1024 p53 p53_1024 mode_NE n 0 false) as H. cbn zeta in H.
  change (round radix2 (SpecFloat.fexp 53 1024) (round_mode mode_NE)) with rnd in H. unfold cl. fold big in H. fold (fofZ n) in H.
  assert (E : F2R (Float radix2 n 0) = IZR n) by (unfold F2R; cbn; lra). rewrite E in H.
  destruct (Rlt_bool_spec (Rabs (rnd (IZR n))) big) as [A|A].
  - destruct H as (H1 & H2 & _). split; [apply fin_nan; auto|]. rewrite vr_finite; auto.
  - apply B2SF_inf in H. rewrite H. split; auto.
Qed.
Lemma vr_cl_finite (z : f64) a : is_nan z = false -> vr z = cl a -> Rabs (rnd a) < big -> is_finite z = true /\ B2R z = rnd a.
Proof.
  intros Nz E L. rewrite cl_small in E by auto. destruct z as [s|s| |s m e H]; try discriminate; cbn in *; auto.
  exfalso. pose proof big_pos. destruct s; rewrite <- E in L; rewrite ?Rabs_Ropp, Rabs_pos_eq in L; lra.
Qed.
Lemma fofZ_exact n : (Z.abs n <= 2 ^ 53)%Z -> is_finite (fofZ n) = true /\ B2R (fofZ n) = IZR n.
Proof.
  intros H. destruct (fofZ_vr n) as [A B].
  assert (G : rnd (IZR n) = IZR n).
  { apply round_generic; [apply valid_rnd_N|]. destruct (Z.eq_dec (Z.abs n) (2 ^ 53)) as [E|E].
    - assert (G2 : generic_format radix2 (FLT_exp (-1074) 53) (IZR (2 ^ 53))).
      { change (2 ^ 53)%Z with (Zpower radix2 53). rewrite IZR_Zpower by lia. apply generic_format_bpow. unfold FLT_exp. lia. }
      destruct (Z.abs_spec n) as [[P Q]|[P Q]].
      + replace n with (2 ^ 53)%Z by lia. auto.
      + replace n with (- 2 ^ 53)%Z by lia. rewrite opp_IZR. apply generic_format_opp. auto.
    - apply generic_format_FLT. exists (Float radix2 n 0); cbn; [unfold F2R; cbn; lra|lia|lia]. }
  assert (L : Rabs (rnd (IZR n)) < big).
  { rewrite G. rewrite <- abs_IZR. apply Rle_lt_trans with (bpow radix2 53); [|apply bpow_lt; lia].
    rewrite <- IZR_Zpower by lia. apply IZR_le. exact H. }
  destruct (vr_cl_finite _ _ A B L) as [C D]. rewrite D, G. auto.
Qed.
(* ---- monotony ---- *)
Lemma fadd_mono (c a b : f64) : is_finite c = true -> fle a b = true ->
  is_nan (fadd c a) = false /\ is_nan (fadd c b) = false /\ fle (fadd c a) (fadd c b) = true.
Proof.
  intros Fc L.
  assert (Na : is_nan a = false) by (destruct a; auto; destruct b; discriminate).
  assert (Nb : is_nan b = false) by (destruct b; auto; destruct a as [|[]| |[]]; discriminate).
  assert (P : forall z : f64, is_nan z = false -> is_nan (fadd c z) = false /\ (is_finite z = false -> fadd c z = z)).
  { intros z Nz. destruct (is_finite z) eqn:Fz; [split; [apply fadd_vr; auto|discriminate]|].
    destruct z as [s|s| |]; try discriminate. destruct c; try discriminate; auto. }
  destruct (P a Na) as [Pa Ia], (P b Nb) as [Pb Ib]. split; auto. split; auto.
  apply fle_vr; auto. apply fle_vr in L; auto.
  destruct (is_finite a) eqn:Fa, (is_finite b) eqn:Fb.
  - rewrite (proj2 (fadd_vr c a Fc Fa)), (proj2 (fadd_vr c b Fc Fb)). apply cl_mono. rewrite !vr_finite in L by auto. lra.
  - rewrite Ib by auto. pose proof (vr_le_big (fadd c a)) as Q. apply Rabs_le_inv in Q. pose proof big_pos.
    pose proof (vr_lt_big a Fa) as Q2. apply Rabs_lt_inv in Q2.
    destruct b as [s|s| |]; try discriminate. destruct s; cbn [vr] in *; lra.
  - rewrite Ia by auto. pose proof (vr_le_big (fadd c b)) as Q. apply Rabs_le_inv in Q. pose proof big_pos.
    pose proof (vr_lt_big b Fb) as Q2. apply Rabs_lt_inv in Q2.
    destruct a as [s|s| |]; try discriminate. destruct s; cbn [vr] in *; lra.
  - rewrite Ia, Ib by auto. auto.
Qed.
Lemma fmul_mono (a b c : f64) : is_finite a = true -> is_finite b = true -> is_finite c = true -> 0 <= B2R c -> B2R a <= B2R b ->
  fle (fmul a c) (fmul b c) = true.
Proof.
  intros Fa Fb Fc P L. destruct (fmul_vr a c Fa Fc) as [A1 A2], (fmul_vr b c Fb Fc) as [B1 B2].
  apply fle_vr; auto. rewrite A2, B2. apply cl_mono. nra.
Qed.
