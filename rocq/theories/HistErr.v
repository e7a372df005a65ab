(* How far the edges of bins of equal width are from the exact ones, and the bin that P1D chooses. *)
From Coq Require Import ZArith List Bool Lia Reals Lra.
From Flocq Require Import Core IEEE754.BinarySingleNaN Relative Plus_error.
From Verif Require Import GoLib F64 F64Arith HbookModel HbookSpec HbookProofs HbookProofs2 HbookProofs3 HistModel HistProofs.
Import ListNotations.
Local Open Scope R_scope.

Notation u := (bpow radix2 (-53)).
Notation eta := (bpow radix2 (-1075)).
Lemma u_small : 0 < u < / 1000000.
Proof. split; [apply bpow_gt_0|]. apply Rlt_trans with (bpow radix2 (-20)); [apply bpow_lt; lia|]. change (bpow radix2 (-20)) with (/ 1048576). lra. Qed.
Lemma eta_pos : 0 < eta. Proof. apply bpow_gt_0. Qed.
Lemma half_u : / 2 * bpow radix2 (- (53) + 1) = u.
Proof. change (-53)%Z with (-1 + (- (53) + 1))%Z. rewrite (bpow_plus radix2 (-1)). reflexivity. Qed.
Lemma rnd_err x : Rabs (rnd x - x) <= u * Rabs x + eta.
Proof.
  destruct (Rle_or_lt (bpow radix2 (-1074 + 53 - 1)) (Rabs x)) as [H|H].
  - pose proof (relative_error_N_FLT radix2 (-1074) 53 ltac:(lia) (fun t => negb (Z.even t)) x H) as E. fold (rnd x) in E.
    rewrite half_u in E.
    pose proof eta_pos. change (round radix2 (FLT_exp (-1074) 53) ZnearestE x) with (rnd x) in E. lra.
  - pose proof (error_le_half_ulp radix2 (FLT_exp (-1074) 53) (fun t => negb (Z.even t)) x) as E.
    change (round radix2 (FLT_exp (-1074) 53) ZnearestE x) with (rnd x) in E.
    rewrite (ulp_FLT_small radix2 (-1074) 53 x) in E by (eapply Rlt_le_trans; [exact H|]; apply bpow_le; lia).
    replace (/ 2 * bpow radix2 (-1074)) with eta in E by (change (-1075)%Z with (-1 + -1074)%Z; rewrite bpow_plus; reflexivity).
    pose proof (Rabs_pos x). pose proof u_small. nra.
Qed.
Lemma rnd_plus_err (x y : f64) : Rabs (rnd (B2R x + B2R y) - (B2R x + B2R y)) <= u * Rabs (B2R x + B2R y).
Proof.
  destruct (FLT_plus_error_N_ex radix2 (-1074) 53 (fun t => negb (Z.even t)) (B2R x) (B2R y)) as (e & E1 & E2).
  { apply (generic_format_B2R 53 1024). } { apply (generic_format_B2R 53 1024). }
  change (round radix2 (FLT_exp (-1074) 53) (Znearest _) (B2R x + B2R y)) with (rnd (B2R x + B2R y)) in E2. rewrite E2.
  replace ((B2R x + B2R y) * (1 + e) - (B2R x + B2R y)) with (e * (B2R x + B2R y)) by ring. rewrite Rabs_mult.
  apply Rmult_le_compat_r; [apply Rabs_pos|]. eapply Rle_trans; [exact E1|]. unfold u_ro.
  rewrite half_u.
  pose proof u_small. apply Rmult_le_reg_r with (1 + u); [lra|]. unfold Rdiv. rewrite Rmult_assoc, Rinv_l by lra. nra.
Qed.
Lemma rnd_minus_err (x y : f64) : Rabs (rnd (B2R x - B2R y) - (B2R x - B2R y)) <= u * Rabs (B2R x - B2R y).
Proof.
  pose proof (rnd_plus_err x (Bopp y)) as H. rewrite B2R_Bopp in H. exact H.
Qed.
Lemma ab x e : Rabs x <= e <-> - e <= x <= e.
Proof. split; [apply Rabs_le_inv|apply Rabs_le]. Qed.

Section E.
Variables (n : Z) (xmin xmax : f64).
Hypothesis A : axis_ok n xmin xmax.
Let W := B2R xmax - B2R xmin.
Let w := rnd W.
Let st := B2R (step n xmin xmax).
Lemma W_pos : 0 < W. Proof. unfold W. pose proof (ax_le _ _ _ A). lra. Qed.
Lemma w_err : Rabs (w - W) <= u * W.
Proof. pose proof (rnd_minus_err xmax xmin) as H. fold W in H. fold w in H. rewrite (Rabs_pos_eq W) in H by (pose proof W_pos; lra). auto. Qed.
Lemma st_err : Rabs (st - w / IZR n) <= u * (w / IZR n) + eta.
Proof.
  unfold st. destruct (step_R _ _ _ A) as (_ & -> & _). fold W. fold w.
  pose proof (rnd_err (w / IZR n)) as H. rewrite (Rabs_pos_eq (w / IZR n)) in H; auto.
  pose proof w_err as E. apply ab in E. pose proof W_pos. pose proof u_small. destruct (n_R _ _ _ A) as (_ & _ & N).
  apply Rmult_le_pos; [nra|]. apply Rlt_le, Rinv_0_lt_compat. lra.
Qed.
Lemma edge_err i : (i <= Z.to_nat n)%nat -> is_finite (edge n xmin xmax i) = true ->
  let X := B2R xmin + INR i * W / IZR n in
  Rabs (B2R (edge n xmin xmax i) - X) <= u * Rabs X + 4 * u * (INR i * W / IZR n) + (INR i + 1) * (2 * eta).
Proof.
  intros Hi Fe X. destruct (idx_R _ _ _ A i Hi) as [I1 I2], (step_R _ _ _ A) as (S1 & _ & S3), (n_R _ _ _ A) as (_ & _ & N). fold st in S3.
  set (m := fmul (fofZ (Z.of_nat i)) (step n xmin xmax)).
  assert (Fm : is_finite m = true).
  { unfold edge in Fe. fold m in Fe. destruct m; auto; pose proof (ax_fmin _ _ _ A) as Q; destruct xmin as [s'|s'| |s']; try discriminate; destruct s'; discriminate. }
  destruct (fmul_vr _ _ I1 S1) as [M1 M2]. fold m in M1, M2. rewrite I2 in M2. fold st in M2.
  assert (M : B2R m = rnd (INR i * st)).
  { rewrite vr_finite in M2 by auto. unfold cl in M2. destruct (Rlt_bool _ _); auto. exfalso.
    pose proof (vr_lt_big _ Fm) as Q. rewrite vr_finite, M2 in Q by auto. pose proof big_pos. destruct (Rlt_bool _ _); rewrite ?Rabs_Ropp, Rabs_pos_eq in Q; lra. }
  destruct (fadd_vr xmin m (ax_fmin _ _ _ A) Fm) as [E1 E2].
  assert (E : B2R (edge n xmin xmax i) = rnd (B2R xmin + B2R m)).
  { change (fadd xmin m) with (edge n xmin xmax i) in E2. rewrite vr_finite in E2 by auto. unfold cl in E2. destruct (Rlt_bool _ _); auto. exfalso.
    pose proof (vr_lt_big _ Fe) as Q. rewrite vr_finite, E2 in Q by auto. pose proof big_pos. destruct (Rlt_bool _ _); rewrite ?Rabs_Ropp, Rabs_pos_eq in Q; lra. }
  rewrite E. pose proof (rnd_plus_err xmin m) as P4. pose proof (rnd_err (INR i * st)) as P3. rewrite <- M in P3.
  pose proof st_err as P2. pose proof w_err as P1. pose proof W_pos as WP. pose proof u_small as U. pose proof eta_pos as EP.
  pose proof (pos_INR i) as IP.
  set (t := INR i * W / IZR n) in *. set (mm := B2R m) in *.
  rewrite (Rabs_pos_eq (INR i * st)) in P3 by nra.
  set (q := / IZR n) in *. assert (QP : 0 < q) by (apply Rinv_0_lt_compat; lra).
  assert (T : t = INR i * W * q) by reflexivity. unfold Rdiv in P2. fold q in P2.
  assert (TP : 0 <= t) by (rewrite T; apply Rmult_le_pos; [nra|lra]).
  assert (A1 : Rabs (INR i * w * q - t) <= u * t).
  { rewrite T. replace (INR i * w * q - INR i * W * q) with ((INR i * q) * (w - W)) by ring. rewrite Rabs_mult, (Rabs_pos_eq (INR i * q)) by nra.
    replace (u * (INR i * W * q)) with ((INR i * q) * (u * W)) by ring. apply Rmult_le_compat_l; [nra|auto]. }
  assert (A2 : Rabs (INR i * st - INR i * w * q) <= u * (INR i * w * q) + INR i * eta).
  { replace (INR i * st - INR i * w * q) with (INR i * (st - w * q)) by ring. rewrite Rabs_mult, (Rabs_pos_eq (INR i)) by auto.
    replace (u * (INR i * w * q) + INR i * eta) with (INR i * (u * (w * q) + eta)) by ring. apply Rmult_le_compat_l; auto. }
  set (a := INR i * w * q) in *. set (b := INR i * st) in *. set (ie := INR i * eta) in *.
  assert (IE : 0 <= ie) by (unfold ie; nra).
  apply ab in A1, A2, P3. 
  assert (D : Rabs (mm - t) <= (3 * u + 4 * u * u) * t + (1 + u) * ie + eta).
  { apply ab. assert (0 <= u * t) by nra. assert (0 <= u * u) by nra. assert (0 <= u * u * t) by nra. assert (0 <= u * ie) by nra. assert (u * u * t <= u * t) by nra.
    assert (AU : a <= (1 + u) * t) by lra. assert (u * a <= u * t + u * u * t) by nra.
    assert (BU : b <= (1 + u) * a + ie) by lra. assert (b <= t + 2 * (u * t) + u * u * t + ie) by lra.
    assert (u * b <= u * t + 2 * (u * u * t) + u * (u * u * t) + u * ie) by nra.
    assert (u * (u * u * t) <= u * u * t) by nra. split; lra. }
  assert (R1 : Rabs (B2R xmin + mm) <= Rabs X + Rabs (mm - t)).
  { replace (B2R xmin + mm) with (X + (mm - t)) by (unfold X; fold t; ring). apply Rabs_triang. }
  eapply Rle_trans; [|apply Rle_trans with (Rabs (rnd (B2R xmin + mm) - (B2R xmin + mm)) + Rabs (mm - t))].
  - apply Req_le. reflexivity.
  - replace (rnd (B2R xmin + mm) - X) with ((rnd (B2R xmin + mm) - (B2R xmin + mm)) + (mm - t)) by (unfold X; fold t; ring). apply Rabs_triang.
  - apply Rle_trans with (u * Rabs X + (1 + u) * Rabs (mm - t)); [nra|].
    assert ((1 + u) * Rabs (mm - t) <= (1 + u) * ((3 * u + 4 * u * u) * t + (1 + u) * ie + eta)) by (apply Rmult_le_compat_l; [lra|auto]).
    replace ((INR i + 1) * (2 * eta)) with (2 * ie + 2 * eta) by (unfold ie; ring).
    assert (0 <= u * t) by nra. assert (0 <= u * u * t) by nra. assert (u * u * t <= / 1000000 * (u * t)) by nra. assert (u * (u * u * t) <= u * u * t) by nra.
    assert (0 <= u * ie) by nra. assert (u * ie <= / 1000000 * ie) by nra. assert (u * (u * ie) <= u * ie) by nra. assert (u * eta <= / 1000000 * eta) by nra. nra.
Qed.
(* ---- the index that P1D computes ---- *)
Definition ps : f64 := fdiv (fofZ n) (width (rng xmin xmax)).
Hypothesis N50 : (n <= 2 ^ 50)%Z.
Hypothesis FS : is_finite ps = true.
Definition pos (x : f64) : f64 := fmul (fsub x xmin) ps.
Lemma ps_R : B2R ps = rnd (IZR n / w) /\ 0 < w /\ 0 <= B2R ps.
Proof.
  destruct (width_R _ _ _ A) as (W1 & W2 & W3), (n_R _ _ _ A) as (N1 & N2 & N3). fold W in W2, W3. fold w in W2, W3.
  pose proof w_err as E. apply ab in E. pose proof u_small. pose proof W_pos. assert (WP : 0 < w) by nra.
  destruct (fdiv_vr (fofZ n) (width (rng xmin xmax)) N1 W1 ltac:(rewrite W2; lra)) as [D1 D2]. fold ps in D1, D2. rewrite W2, N2 in D2.
  assert (Q : B2R ps = rnd (IZR n / w)).
  { rewrite vr_finite in D2 by auto. unfold cl in D2. destruct (Rlt_bool _ _); auto. exfalso.
    pose proof (vr_lt_big _ FS) as Q. rewrite vr_finite, D2 in Q by auto. pose proof big_pos. destruct (Rlt_bool _ _); rewrite ?Rabs_Ropp, Rabs_pos_eq in Q; lra. }
  split; auto. split; auto. rewrite Q. apply rnd_nonneg. apply Rmult_le_pos; [lra|]. apply Rlt_le, Rinv_0_lt_compat. auto.
Qed.
Lemma pos_err x : is_finite x = true -> fle xmin x = true -> flt x xmax = true ->
  let T := (B2R x - B2R xmin) * IZR n / W in
  is_finite (pos x) = true /\ 0 <= B2R (pos x) /\ Rabs (B2R (pos x) - T) <= 5 * u * T + (W + 1) * (2 * eta).
Proof.
  intros Fx Lx Ux T. destruct ps_R as (P1 & P2 & P3), (n_R _ _ _ A) as (_ & _ & N3).
  pose proof W_pos as WP. pose proof u_small as U. pose proof eta_pos as EP.
  apply fle_vr in Lx; [|apply fin_nan; auto; apply A..]. apply flt_vr in Ux; [|apply fin_nan; auto; apply A..].
  rewrite !vr_finite in Lx, Ux by (auto; apply A).
  set (D := B2R x - B2R xmin) in *. assert (DP : 0 <= D <= W) by (unfold D, W; lra).
  pose proof (rnd_minus_err x xmin) as E1. fold D in E1. rewrite (Rabs_pos_eq D) in E1 by lra.
  assert (M1 : 0 <= rnd D) by (apply rnd_nonneg; lra).
  assert (M2 : rnd D <= w) by (apply rnd_le; lra).
  destruct (fsub_vr x xmin Fx (ax_fmin _ _ _ A)) as [S1 S2]. fold D in S2.
  assert (WB : w < big).
  { destruct (width_R _ _ _ A) as (W1 & W2 & W3). pose proof (vr_lt_big _ W1) as B. rewrite vr_finite, W2 in B by auto. fold W in B. fold w in B. rewrite Rabs_pos_eq in B by lra. auto. }
  destruct (vr_cl_finite _ _ S1 S2 ltac:(rewrite Rabs_pos_eq; lra)) as [S3 S4].
  pose proof w_err as EW. apply ab in EW.
  set (q := / w). assert (QP : 0 < q) by (apply Rinv_0_lt_compat; auto). assert (QW : w * q = 1) by (apply Rinv_r; lra).
  pose proof (rnd_err (IZR n / w)) as E2. rewrite <- P1 in E2. unfold Rdiv in E2. fold q in E2.
  assert (NQ : 0 <= IZR n * q) by nra. rewrite (Rabs_pos_eq _ NQ) in E2.
  set (d := rnd D) in *. set (s := B2R ps) in *.
  pose proof (rnd_err (d * s)) as E3. assert (DS : 0 <= d * s) by nra. rewrite (Rabs_pos_eq _ DS) in E3.
  apply ab in E1, E2, E3.
  (* the exact value *)
  set (T1 := d * (IZR n * q)). assert (T1P : 0 <= T1) by (apply Rmult_le_pos; lra).
  assert (TP : 0 <= T). { unfold T, Rdiv. apply Rmult_le_pos; [nra|]. apply Rlt_le, Rinv_0_lt_compat; auto. }
  assert (IW : 0 < / W) by (apply Rinv_0_lt_compat; auto). assert (IWW : W * / W = 1) by (apply Rinv_r; lra).
  assert (B1 : (1 - u) * (/ W) <= (1 + u * u) * (/ W)) by nra.
  assert (Q1 : q * (1 - u) <= / W). { apply Rmult_le_reg_r with (W * w); [nra|]. replace (q * (1 - u) * (W * w)) with ((w * q) * ((1 - u) * W)) by ring. replace (/ W * (W * w)) with ((W * / W) * w) by ring. rewrite QW, IWW. lra. }
  assert (Q2 : / W <= q * (1 + u)). { apply Rmult_le_reg_r with (W * w); [nra|]. replace (q * (1 + u) * (W * w)) with ((w * q) * ((1 + u) * W)) by ring. replace (/ W * (W * w)) with ((W * / W) * w) by ring. rewrite QW, IWW. lra. }
  assert (QT : T = D * IZR n * / W) by reflexivity.
  assert (DN : 0 <= D * IZR n) by nra.
  assert (H1 : T1 * (1 - u) <= (1 + u) * T).
  { unfold T1. replace (d * (IZR n * q) * (1 - u)) with ((d * IZR n) * (q * (1 - u))) by ring. apply Rle_trans with ((d * IZR n) * / W); [apply Rmult_le_compat_l; nra|].
    rewrite QT. replace ((1 + u) * (D * IZR n * / W)) with (((1 + u) * D) * (IZR n * / W)) by ring. rewrite (Rmult_assoc d (IZR n) (/ W)). apply Rmult_le_compat_r; nra. }
  assert (H2 : (1 - u) * T <= T1 * (1 + u)).
  { unfold T1. replace (d * (IZR n * q) * (1 + u)) with ((d * IZR n) * (q * (1 + u))) by ring. apply Rle_trans with ((d * IZR n) * / W); [|apply Rmult_le_compat_l; nra].
    rewrite QT. replace ((1 - u) * (D * IZR n * / W)) with (((1 - u) * D) * (IZR n * / W)) by ring. rewrite (Rmult_assoc d (IZR n) (/ W)). apply Rmult_le_compat_r; nra. }
  assert (H3 : Rabs (d * s - T1) <= u * T1 + d * eta).
  { unfold T1. replace (d * s - d * (IZR n * q)) with (d * (s - IZR n * q)) by ring. rewrite Rabs_mult, (Rabs_pos_eq d) by auto.
    replace (u * (d * (IZR n * q)) + d * eta) with (d * (u * (IZR n * q) + eta)) by ring. apply Rmult_le_compat_l; auto. apply ab. auto. }
  apply ab in H3.
  assert (DW : d * eta <= (1 + u) * (W * eta)) by nra. assert (WE : 0 < W * eta) by nra. assert (DE : 0 <= d * eta) by nra.
  set (p := d * s) in *. set (we := W * eta) in *.
  assert (UT : 0 <= u * T) by nra.
  assert (H4 : T1 <= (1 + 3 * u) * T) by nra.
  assert (H5 : (1 - 2 * u) * T <= T1) by nra.
  assert (FIN : Rabs (rnd p - T) <= 5 * u * T + (W + 1) * (2 * eta)).
  { replace ((W + 1) * (2 * eta)) with (2 * we + 2 * eta) by (unfold we; ring).
    assert (u * T1 <= u * T + 3 * (u * (u * T))) by nra. assert (u * (u * T) <= / 1000000 * (u * T)) by (apply Rmult_le_compat_r; lra).
    assert (PU : p <= (1 + u) * T1 + d * eta) by lra. assert (u * p <= u * T1 + u * (u * T1) + u * (d * eta)) by nra.
    assert (UT1 : 0 <= u * T1) by (apply Rmult_le_pos; lra).
    assert (u * (u * T1) <= / 1000000 * (u * T1)) by (apply Rmult_le_compat_r; lra). assert (u * (d * eta) <= / 1000000 * (d * eta)) by (apply Rmult_le_compat_r; lra).
    assert (u * we <= / 1000000 * we) by (apply Rmult_le_compat_r; lra).
    apply ab. split; lra. }
  assert (TN : T <= IZR n). { rewrite QT. replace (IZR n) with (W * IZR n * / W) at 2 by (rewrite (Rmult_comm W), Rmult_assoc, IWW; ring). apply Rmult_le_compat_r; nra. }
  assert (NB : IZR n <= bpow radix2 50) by (rewrite <- (IZR_Zpower radix2) by lia; apply IZR_le; exact N50).
  assert (RP : 0 <= rnd p) by (apply rnd_nonneg; auto).
  assert (SM : Rabs (rnd p) < big).
  { rewrite Rabs_pos_eq by auto. apply ab in FIN. assert (WB2 : W <= 2 * big) by (assert (u * W <= / 1000000 * W) by (apply Rmult_le_compat_r; lra); lra).
    assert (eta * big = bpow radix2 (-51)) by (unfold big; rewrite <- bpow_plus; reflexivity).
    assert (bpow radix2 (-51) < 1) by (apply (bpow_lt radix2 (-51) 0); lia). assert (eta < 1) by (apply (bpow_lt radix2 (-1075) 0); lia).
    assert (bpow radix2 60 < big) by (apply bpow_lt; lia). assert (bpow radix2 60 = 1024 * bpow radix2 50) by exact (bpow_plus radix2 10 50).
    assert (1 < bpow radix2 50) by (apply (bpow_lt radix2 0 50); lia).
    assert (WEB : W * eta <= 2 * big * eta) by (apply Rmult_le_compat_r; lra). assert (UT2 : 5 * u * T <= 1 * T) by (apply Rmult_le_compat_r; lra).
    replace ((W + 1) * (2 * eta)) with (2 * (W * eta) + 2 * eta) in FIN by ring. replace (2 * big * eta) with (2 * (eta * big)) in WEB by ring. lra. }
  destruct (fmul_vr _ _ S3 FS) as [X1 X2]. rewrite S4 in X2. fold (pos x) in X1, X2. fold s in X2. fold p in X2.
  destruct (vr_cl_finite _ _ X1 X2 SM) as [X3 X4]. rewrite X4. auto.
Qed.

End E.
