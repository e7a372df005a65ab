(* Numbers of float64 that are near a real number: how far a few operations, one after the other, are from the exact result. *)
From Coq Require Import ZArith List Bool Lia Reals Lra.
From Flocq Require Import Core IEEE754.BinarySingleNaN Relative.
From Verif Require Import F64 F64Arith HistErr HopsModel.
Local Open Scope R_scope.

Local Notation b2 := (bpow radix2).
(* z is v up to k roundings, and v is between 2^-e and 2^e *)
Definition near (k : R) (e : Z) (z : f64) (v : R) : Prop :=
  is_finite z = true /\ (exists d, Rabs d <= k * u /\ B2R z = v * (1 + d)) /\ b2 (- e) <= Rabs v <= b2 e.

Lemma near_abs k e z v : near k e z v -> Rabs (B2R z - v) <= k * u * Rabs v.
Proof.
  intros (_ & (d & D & ->) & _). replace (v * (1 + d) - v) with (v * d) by ring. rewrite Rabs_mult.
  rewrite (Rmult_comm (k * u)). apply Rmult_le_compat_l; auto. apply Rabs_pos.
Qed.
Lemma near_nz k e z v : near k e z v -> v <> 0.
Proof. intros (_ & _ & H & _) ->. rewrite Rabs_R0 in H. pose proof (bpow_gt_0 radix2 (- e)). lra. Qed.
Lemma near_exact e z : is_finite z = true -> b2 (- e) <= Rabs (B2R z) <= b2 e -> near 0 e z (B2R z).
Proof. intros Fz H. split; [auto|]. split; [exists 0|auto]. rewrite Rabs_R0. split; [|ring]. pose proof u_small. lra. Qed.
Lemma near_pos k e z v : 0 <= k <= 100 -> near k e z v -> 0 < v -> 0 < B2R z.
Proof.
  intros K (_ & (d & D & ->) & _) P. apply ab in D. pose proof u_small. apply Rmult_lt_0_compat; [auto|]. nra.
Qed.
Lemma near_nonzero k e z v : 0 <= k <= 100 -> near k e z v -> B2R z <> 0.
Proof.
  intros K N. pose proof (near_nz _ _ _ _ N) as NZ. destruct N as (_ & (d & D & ->) & _). apply ab in D. pose proof u_small.
  intros E. apply Rmult_integral in E. destruct E as [E|E]; [auto|nra].
Qed.
Lemma near_weaken k k' e z v : k <= k' -> near k e z v -> near k' e z v.
Proof. intros L (A & (d & D & E) & B). split; [auto|]. split; [exists d; split; [|auto]|auto]. pose proof u_small. nra. Qed.

Lemma rnd_rel a : b2 (-1022) <= Rabs a -> exists d, Rabs d <= u /\ rnd a = a * (1 + d).
Proof.
  intros H. destruct (relative_error_N_FLT_ex radix2 (-1074) 53 ltac:(lia) (fun t => negb (Z.even t)) a) as (d & D & E).
  { eapply Rle_trans; [|exact H]. apply bpow_le. lia. }
  exists d. split; [|exact E]. rewrite half_u in D. exact D.
Qed.
Lemma prod_small d1 d2 k1 k2 : 0 <= k1 -> 0 <= k2 -> k1 + k2 <= 100 -> Rabs d1 <= k1 * u -> Rabs d2 <= k2 * u -> - (u / 2) <= d1 * d2 <= u / 2.
Proof.
  intros K1 K2 K D1 D2. apply ab. rewrite Rabs_mult. pose proof u_small as U.
  eapply Rle_trans; [apply Rmult_le_compat; [apply Rabs_pos|apply Rabs_pos|exact D1|exact D2]|].
  assert (k1 * k2 <= 10000) by nra. replace (k1 * u * (k2 * u)) with ((k1 * k2) * u * u) by ring.
  assert ((k1 * k2) * u <= / 2) by nra. nra.
Qed.
(* one rounding more *)
Lemma near_rnd k e (z : f64) v a d : 0 <= k <= 98 -> (0 <= e <= 1000)%Z -> Rabs d <= k * u -> a = v * (1 + d) -> b2 (- e) <= Rabs v <= b2 e ->
  is_nan z = false -> vr z = cl a -> near (k + 2) e z v.
Proof.
  intros K Ee D -> V Nz Vz. pose proof u_small as U. apply ab in D.
  assert (Ra : / 2 * Rabs v <= Rabs (v * (1 + d)) <= 2 * Rabs v).
  { assert (d1 : - / 2 <= d) by nra. assert (d2 : d <= 1) by nra. rewrite Rabs_mult, (Rabs_pos_eq (1 + d)) by lra.
    pose proof (Rabs_pos v). split; nra. }
  assert (B1 : b2 (-1022) <= Rabs (v * (1 + d))).
  { eapply Rle_trans; [|apply Ra]. eapply Rle_trans with (/ 2 * b2 (-1001)).
    - change (/ 2) with (b2 (-1)). rewrite <- bpow_plus. apply bpow_le. lia.
    - apply Rmult_le_compat_l; [lra|]. eapply Rle_trans; [|apply V]. apply bpow_le. lia. }
  destruct (rnd_rel _ B1) as (d' & D' & E). apply ab in D'.
  assert (L : Rabs (rnd (v * (1 + d))) < big).
  { rewrite E, Rabs_mult, (Rabs_pos_eq (1 + d')) by lra. apply Rle_lt_trans with (2 * b2 1001 * 2).
    - apply Rmult_le_compat; [apply Rabs_pos|lra| |lra]. eapply Rle_trans; [apply Ra|]. apply Rmult_le_compat_l; [lra|].
      eapply Rle_trans; [apply V|]. apply bpow_le. lia.
    - change 2 with (b2 1) at 1 2. rewrite <- !bpow_plus. apply bpow_lt. lia. }
  destruct (vr_cl_finite _ _ Nz Vz L) as [Fz Bz]. split; auto. split; auto.
  exists (d + d' + d * d'). split; [|rewrite Bz, E; ring]. apply ab. nra.
Qed.
Lemma near_mul k1 e1 x v1 k2 e2 y v2 : 0 <= k1 -> 0 <= k2 -> k1 + k2 <= 90 -> (0 <= e1)%Z -> (0 <= e2)%Z -> (e1 + e2 <= 1000)%Z ->
  near k1 e1 x v1 -> near k2 e2 y v2 -> near (k1 + k2 + 3) (e1 + e2) (fmul x y) (v1 * v2).
Proof.
  intros K1 K2 K E1 E2 E (Fx & (d1 & D1 & X) & V1) (Fy & (d2 & D2 & Y) & V2). destruct (fmul_vr x y Fx Fy) as [N V].
  pose proof u_small as U.
  replace (k1 + k2 + 3) with ((k1 + k2 + 1) + 2) by ring. apply near_rnd with (a := B2R x * B2R y) (d := d1 + d2 + d1 * d2); auto.
  - lra.
  - lia.
  - pose proof (prod_small d1 d2 k1 k2 K1 K2 ltac:(lra) D1 D2) as Q. apply ab. apply ab in D1. apply ab in D2. lra.
  - rewrite X, Y. ring.
  - rewrite Rabs_mult, Z.opp_add_distr, !bpow_plus. pose proof (bpow_gt_0 radix2 (- e1)). pose proof (bpow_gt_0 radix2 (- e2)).
    split; apply Rmult_le_compat; try lra; try apply Rabs_pos; intuition.
Qed.
Lemma near_inv e v : b2 (- e) <= Rabs v <= b2 e -> b2 (- e) <= Rabs (/ v) <= b2 e.
Proof.
  intros [H1 H2]. pose proof (bpow_gt_0 radix2 (- e)). pose proof (bpow_gt_0 radix2 e). rewrite Rabs_inv.
  split.
  - rewrite bpow_opp. apply Rinv_le; lra.
  - replace (b2 e) with (/ b2 (- e)) by (rewrite bpow_opp, Rinv_inv; auto). apply Rinv_le; lra.
Qed.
Lemma near_div k1 e1 x v1 k2 e2 y v2 : 0 <= k1 -> 0 <= k2 -> k1 + k2 <= 90 -> (0 <= e1)%Z -> (0 <= e2)%Z -> (e1 + e2 <= 1000)%Z ->
  near k1 e1 x v1 -> near k2 e2 y v2 -> near (k1 + k2 + 3) (e1 + e2) (fdiv x y) (v1 / v2).
Proof.
  intros K1 K2 K E1 E2 E (Fx & (d1 & D1 & X) & V1) Ny. pose proof (near_nonzero k2 e2 y v2 ltac:(lra) Ny) as NZ. pose proof (near_nz _ _ _ _ Ny) as NZ2.
  destruct Ny as (Fy & (d2 & D2 & Y) & V2).
  destruct (fdiv_vr x y Fx Fy NZ) as [N V]. pose proof u_small as U.
  assert (Dk : Rabs d2 * ((k1 + k2 + 1) * u) <= u).
  { eapply Rle_trans; [apply Rmult_le_compat_r; [nra|exact D2]|]. assert (k2 * (k1 + k2 + 1) <= 90 * 91) by (apply Rmult_le_compat; lra).
    replace (k2 * u * ((k1 + k2 + 1) * u)) with (k2 * (k1 + k2 + 1) * u * u) by ring. assert (k2 * (k1 + k2 + 1) * u <= 1) by nra. nra. }
  assert (Dk2 : - u <= d2 * ((k1 + k2 + 1) * u)).
  { pose proof (Rle_abs (- d2)) as Q. rewrite Rabs_Ropp in Q. assert (0 <= (k1 + k2 + 1) * u) by nra. nra. }
  apply ab in D1. apply ab in D2.
  assert (P2 : 0 < 1 + d2) by nra.
  replace (k1 + k2 + 3) with ((k1 + k2 + 1) + 2) by ring. apply near_rnd with (a := B2R x / B2R y) (d := (d1 - d2) / (1 + d2)); auto.
  - lra.
  - lia.
  - unfold Rdiv. rewrite Rabs_mult, (Rabs_pos_eq (/ (1 + d2))) by (apply Rlt_le, Rinv_0_lt_compat; auto).
    apply Rmult_le_reg_r with (1 + d2); auto. rewrite Rmult_assoc, Rinv_l, Rmult_1_r by lra. apply ab. lra.
  - rewrite X, Y. field. lra.
  - unfold Rdiv. apply near_inv in V2. rewrite Rabs_mult, Z.opp_add_distr, !bpow_plus.
    pose proof (bpow_gt_0 radix2 (- e1)). pose proof (bpow_gt_0 radix2 (- e2)).
    split; apply Rmult_le_compat; try lra; try apply Rabs_pos; intuition.
Qed.
Lemma near_sub e x y : is_finite x = true -> is_finite y = true -> (0 <= e <= 1000)%Z -> b2 (- e) <= Rabs (B2R x - B2R y) <= b2 e ->
  near 1 e (fsub x y) (B2R x - B2R y).
Proof.
  intros Fx Fy Ee V. destruct (fsub_vr x y Fx Fy) as [N Vz].
  assert (P : near (0 + 2) e (fsub x y) (B2R x - B2R y)).
  { apply near_rnd with (a := B2R x - B2R y) (d := 0); auto; try lra. rewrite Rabs_R0. lra. }
  destruct P as (P1 & P2 & P3). split; auto. split; auto.
  destruct P2 as (d & _ & _).
  assert (B1 : b2 (-1022) <= Rabs (B2R x - B2R y)) by (eapply Rle_trans; [|apply V]; apply bpow_le; lia).
  destruct (rnd_rel _ B1) as (d' & D' & E). exists d'. split; [lra|].
  rewrite <- E. destruct (Rlt_le_dec (Rabs (rnd (B2R x - B2R y))) big) as [L|L].
  - apply (vr_cl_finite _ _ N Vz L).
  - exfalso. rewrite E, Rabs_mult in L. apply ab in D'. pose proof u_small. rewrite (Rabs_pos_eq (1 + d')) in L by lra.
    assert (Rabs (B2R x - B2R y) * (1 + d') <= b2 1000 * 2).
    { apply Rmult_le_compat; try lra; try apply Rabs_pos. eapply Rle_trans; [apply V|]. apply bpow_le. lia. }
    change 2 with (b2 1) in H0. rewrite <- bpow_plus in H0. assert (b2 (1000 + 1) < big) by (apply bpow_lt; lia). lra.
Qed.
Lemma near_sqrt k e e' x v : 0 <= k <= 90 -> (0 <= e' <= 1000)%Z -> (e <= 2 * e')%Z -> 0 < v -> near k e x v -> near (k + 2) e' (fsqrt x) (sqrt v).
Proof.
  intros K Ee E2 P N. pose proof (near_pos k e x v ltac:(lra) N P) as Px. destruct N as (Fx & (d & D & X) & V).
  destruct (Bsqrt_correct 53 1024 p53 p53_1024 mode_NE x) as (B & Fs & _).
  change (round radix2 (SpecFloat.fexp 53 1024) (round_mode mode_NE)) with rnd in B. fold (fsqrt x) in B, Fs.
  assert (Fz : is_finite (fsqrt x) = true).
  { assert (Sx : Bsign x = false) by (destruct (Bsign x) eqn:S; auto; pose proof (sgn_le0 x S); lra).
    rewrite Fs. clear - Fx Sx. destruct x as [| | |s m e0 H]; try discriminate; auto. cbn in Sx. subst s. auto. }
  pose proof u_small as U. apply ab in D. assert (ku : k * u <= 90 * u) by (apply Rmult_le_compat_r; lra). assert (P1 : 0 < 1 + d) by lra.
  assert (Sv : 0 < sqrt v) by (apply sqrt_lt_R0; auto). assert (S1 : 0 < sqrt (1 + d)) by (apply sqrt_lt_R0; auto).
  assert (Q : sqrt (1 + d) * sqrt (1 + d) = 1 + d) by (apply sqrt_sqrt; lra).
  rewrite (Rabs_pos_eq v) in V by lra.
  assert (R : b2 (- e') <= Rabs (sqrt v) <= b2 e').
  { rewrite Rabs_pos_eq by lra.
    assert (G1 : b2 e <= b2 e' * b2 e') by (rewrite <- bpow_plus; apply bpow_le; lia).
    assert (G2 : b2 (- e') * b2 (- e') <= b2 (- e)) by (rewrite <- bpow_plus; apply bpow_le; lia).
    pose proof (bpow_gt_0 radix2 (- e')). pose proof (bpow_gt_0 radix2 e'). pose proof (sqrt_sqrt v ltac:(lra)) as SS. split.
    - destruct (Rle_or_lt (b2 (- e')) (sqrt v)); auto. exfalso. nra.
    - destruct (Rle_or_lt (sqrt v) (b2 e')); auto. exfalso. nra. }
  apply near_rnd with (a := sqrt (B2R x)) (d := sqrt (1 + d) - 1); auto; try lra.
  - apply ab. split; nra.
  - rewrite X, sqrt_mult by lra. ring.
  - apply fin_nan; auto.
  - rewrite vr_finite, B by auto. symmetry. apply cl_small. rewrite <- B. rewrite <- vr_finite by auto. apply vr_lt_big. auto.
Qed.
Lemma near_add k e1 x v1 e2 y v2 e : 0 <= k <= 90 -> (0 <= e1)%Z -> (0 <= e2)%Z -> (Z.max e1 e2 < e <= 1000)%Z -> 0 < v1 -> 0 < v2 ->
  near k e1 x v1 -> near k e2 y v2 -> near (k + 2) e (fadd x y) (v1 + v2).
Proof.
  intros K E1 E2 E P1 P2 (Fx & (d1 & D1 & X) & V1) (Fy & (d2 & D2 & Y) & V2). destruct (fadd_vr x y Fx Fy) as [N V].
  pose proof u_small as U. apply ab in D1. apply ab in D2. rewrite Rabs_pos_eq in V1, V2 by lra.
  apply near_rnd with (a := B2R x + B2R y) (d := (v1 * d1 + v2 * d2) / (v1 + v2)); auto; try lia.
  - lra.
  - unfold Rdiv. rewrite Rabs_mult, (Rabs_pos_eq (/ (v1 + v2))) by (apply Rlt_le, Rinv_0_lt_compat; lra).
    apply Rmult_le_reg_r with (v1 + v2); [lra|]. rewrite Rmult_assoc, Rinv_l, Rmult_1_r by lra. apply ab. nra.
  - rewrite X, Y. field. lra.
  - rewrite Rabs_pos_eq by lra.
    assert (b2 (- e) <= b2 (- e1)) by (apply bpow_le; lia).
    assert (b2 e1 <= b2 (e - 1)) by (apply bpow_le; lia). assert (b2 e2 <= b2 (e - 1)) by (apply bpow_le; lia).
    assert (b2 (e - 1) + b2 (e - 1) = b2 e). { replace e with ((e - 1) + 1)%Z at 3 by ring. rewrite bpow_plus. change (b2 1) with 2. ring. }
    lra.
Qed.
Lemma near_eq k e z v v' : v = v' -> near k e z v -> near k e z v'.
Proof. intros ->. auto. Qed.
