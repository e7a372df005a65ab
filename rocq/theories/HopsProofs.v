(* Proofs about DivideH1D and the scatters. *)
From Coq Require Import ZArith List Bool Lia Reals Lra.
From Flocq Require Import Core IEEE754.BinarySingleNaN.
From Verif Require Import GoLib F64 F64Arith HbookModel HistModel HistErr HopsModel F64Near.
Import ListNotations.
Local Open Scope R_scope.
Local Notation b2 := (bpow radix2).

(* ---- constants ---- *)
Lemma f1_R : is_finite f1 = true /\ B2R f1 = 1.
Proof. split; [reflexivity|]. unfold f1, B2R. unfold F2R. cbn [Fnum Fexp cond_Zopp]. replace (IZR (Z.pos (2 ^ 52))) with (b2 52) by reflexivity. rewrite <- bpow_plus. reflexivity. Qed.
Lemma f2_R : is_finite f2 = true /\ B2R f2 = 2.
Proof. split; [reflexivity|]. unfold f2, B2R. unfold F2R. cbn [Fnum Fexp cond_Zopp]. replace (IZR (Z.pos (2 ^ 52))) with (b2 52) by reflexivity. rewrite <- bpow_plus. reflexivity. Qed.
Lemma half_R : is_finite half = true /\ B2R half = / 2.
Proof.
  unfold half. destruct f1_R as [F1 R1], f2_R as [F2 R2]. destruct (fdiv_vr f1 f2 F1 F2) as [A B]; [lra|].
  assert (E : rnd (B2R f1 / B2R f2) = / 2).
  { rewrite R1, R2. replace (1 / 2) with (b2 (-1)) by (cbn; lra). replace (/ 2) with (b2 (-1)) by (cbn; lra).
    apply round_generic; [apply valid_rnd_N|]. apply generic_format_bpow. unfold FLT_exp. lia. }
  destruct (vr_cl_finite _ _ A B) as [C D]; [|split; auto; congruence]. rewrite E, Rabs_pos_eq by lra.
  apply Rlt_trans with (b2 1); [cbn; lra|apply bpow_lt; lia].
Qed.
Lemma inv_R n : (2 <= n <= 2 ^ 53)%Z -> near 2 53 (fdiv f1 (fofZ n)) (/ IZR n).
Proof.
  intros H. destruct f1_R as [F1 R1]. destruct (fofZ_exact n ltac:(lia)) as [Fn Rn].
  assert (N1 : 2 <= IZR n) by (apply IZR_le; lia). assert (N2 : IZR n <= b2 53) by (rewrite <- IZR_Zpower by lia; apply IZR_le; apply H).
  destruct (fdiv_vr f1 (fofZ n) F1 Fn) as [A B]; [lra|].
  apply (near_eq _ _ _ (/ IZR n)); auto. replace 2 with (0 + 2) at 1 by ring.
  apply near_rnd with (a := B2R f1 / B2R (fofZ n)) (d := 0); auto; try lra; try lia.
  - rewrite Rabs_R0. lra.
  - rewrite R1, Rn. field. lra.
  - apply near_inv. rewrite Rabs_pos_eq by lra. split; [|auto]. apply Rle_trans with (b2 0); [apply bpow_le; lia|cbn; lra].
Qed.
Lemma tol_near : near 2 53 tol (/ 100000). Proof. apply (inv_R 100000). lia. Qed.
Lemma small_near : near 2 53 small (/ 100000000). Proof. apply (inv_R 100000000). lia. Qed.
Lemma fabs_R (x : f64) : is_finite x = true -> is_finite (fabs x) = true /\ B2R (fabs x) = Rabs (B2R x).
Proof. intros H. unfold fabs. rewrite is_finite_Babs, B2R_Babs. auto. Qed.
Lemma fne0_R (x : f64) : is_finite x = true -> (fne0 x = true <-> B2R x <> 0).
Proof.
  intros H. unfold fne0. rewrite negb_true_iff. pose proof (feq_vr x fzero (fin_nan _ H) eq_refl) as E. rewrite (vr_finite x H) in E. change (vr fzero) with 0 in E.
  destruct (feq x fzero); split; intros; try congruence; try tauto. intros Q. destruct E as [_ E]. specialize (E Q). discriminate.
Qed.
Lemma feq0_R (x : f64) : is_finite x = true -> (feq x fzero = true <-> B2R x = 0).
Proof. intros H. pose proof (feq_vr x fzero (fin_nan _ H) eq_refl) as E. rewrite (vr_finite x H) in E. exact E. Qed.
Lemma flt_R (x y : f64) : is_finite x = true -> is_finite y = true -> (flt x y = true <-> B2R x < B2R y).
Proof. intros A B. rewrite flt_vr, !vr_finite by (auto using fin_nan). tauto. Qed.
Lemma fle_R (x y : f64) : is_finite x = true -> is_finite y = true -> (fle x y = true <-> B2R x <= B2R y).
Proof. intros A B. rewrite fle_vr, !vr_finite by (auto using fin_nan). tauto. Qed.

(* ---- fuzzyEq ---- *)
Lemma cl_nonneg x : 0 <= x -> 0 <= cl x.
Proof. intros H. apply cl_mono in H. replace (cl 0) with 0 in H; auto. rewrite cl_small; [rewrite rnd_0; auto|]. rewrite rnd_0, Rabs_R0. apply big_pos. Qed.
Lemma pos_mul_inf (c : f64) : is_finite c = true -> 0 < B2R c -> fmul c (B754_infinity false) = B754_infinity false.
Proof.
  intros Fc Pc. destruct c as [s|s| |s m e H]; try discriminate; cbn [B2R] in Pc; try lra.
  destruct s; auto. exfalso. pose proof (sgn_le0 (B754_finite true m e H) eq_refl) as Q. cbn [B2R] in Q. lra.
Qed.
Lemma inf_pos (z : f64) : is_finite z = false -> is_nan z = false -> 0 <= vr z -> z = B754_infinity false.
Proof. destruct z as [|[]| |]; try discriminate; auto. intros _ _ P. cbn [vr] in P. pose proof big_pos. lra. Qed.
Lemma pos_nan (z : f64) : flt fzero z = true -> is_nan z = false.
Proof. destruct z; auto; discriminate. Qed.
Lemma fuzzyEq_refl a : is_finite a = true -> fuzzyEq a a = true.
Proof.
  intros Fa. unfold fuzzyEq. destruct (fabs_R a Fa) as [Faa Raa]. destruct small_near as (Fs & (ds & Ds & Rs) & _).
  destruct (flt (fabs a) small) eqn:L; auto. cbn [andb orb].
  assert (L' : B2R small <= Rabs (B2R a)).
  { destruct (Rle_or_lt (B2R small) (Rabs (B2R a))) as [|Q]; auto. rewrite <- Raa in Q. apply flt_R in Q; auto. congruence. }
  pose proof u_small as U. apply ab in Ds.
  assert (S0 : / 200000000 <= B2R small) by (rewrite Rs; nra).
  destruct (fsub_vr a a Fa Fa) as [N0 V0]. rewrite Rminus_eq_0 in V0.
  destruct (vr_cl_finite _ _ N0 V0) as [F0 R0]; [rewrite rnd_0, Rabs_R0; apply big_pos|]. rewrite rnd_0 in R0.
  destruct (fabs_R _ F0) as [F0' R0']. rewrite R0, Rabs_R0 in R0'.
  destruct tol_near as (Ft & (dt & Dt & Rt) & _). apply ab in Dt. assert (T0 : / 200000 <= B2R tol) by (rewrite Rt; nra).
  destruct half_R as [Fh Rh].
  assert (D : flt fzero (fmul tol (fmul half (fadd (fabs a) (fabs a)))) = true).
  { destruct (fadd_vr (fabs a) (fabs a) Faa Faa) as [N1 V1].
    destruct (is_finite (fadd (fabs a) (fabs a))) eqn:F1.
    - rewrite vr_finite in V1 by auto.
      assert (Q1 : / 200000000 <= B2R (fadd (fabs a) (fabs a))).
      { rewrite V1. apply Rle_trans with (cl (B2R small)); [rewrite cl_B2R; auto|]. apply cl_mono. lra. }
      destruct (fmul_vr half _ Fh F1) as [N2 V2].
      assert (Q2 : is_finite (fmul half (fadd (fabs a) (fabs a))) = true /\ / 800000000 <= B2R (fmul half (fadd (fabs a) (fabs a)))).
      { assert (M : 0 <= B2R half * B2R (fadd (fabs a) (fabs a)) <= B2R (fadd (fabs a) (fabs a))) by (rewrite Rh; lra).
        assert (L2 : Rabs (rnd (B2R half * B2R (fadd (fabs a) (fabs a)))) < big).
        { rewrite Rabs_pos_eq by (apply rnd_nonneg; lra). eapply Rle_lt_trans; [apply rnd_le, M|]. rewrite rnd_B2R.
          pose proof (vr_lt_big _ F1) as Q. rewrite vr_finite in Q by auto. apply Rabs_lt_inv in Q. lra. }
        destruct (vr_cl_finite _ _ N2 V2 L2) as [F2 R2]. split; auto. rewrite R2.
        destruct (rnd_rel (B2R half * B2R (fadd (fabs a) (fabs a)))) as (d & Dd & ->).
        - rewrite Rabs_pos_eq by lra. apply Rle_trans with (b2 (-30)); [apply bpow_le; lia|]. rewrite Rh. cbn. lra.
        - apply ab in Dd. rewrite Rh in *. nra. }
      destruct Q2 as [F2 Q2]. destruct (fmul_vr tol _ Ft F2) as [N3 V3].
      apply flt_vr; auto. change (vr fzero) with 0. rewrite V3.
      assert (M : / 200000 * / 800000000 <= B2R tol * B2R (fmul half (fadd (fabs a) (fabs a)))) by (apply Rmult_le_compat; lra).
      eapply Rlt_le_trans; [|apply cl_mono, M].
      destruct (rnd_rel (/ 200000 * / 800000000)) as (d & Dd & E).
      { rewrite Rabs_pos_eq by lra. apply Rle_trans with (b2 (-60)); [apply bpow_le; lia|]. cbn. lra. }
      apply ab in Dd. rewrite cl_small; rewrite E; [nra|]. rewrite Rabs_pos_eq by nra. apply Rlt_trans with (b2 1); [cbn; nra|apply bpow_lt; lia].
    - assert (I : fadd (fabs a) (fabs a) = B754_infinity false).
      { apply inf_pos; auto. rewrite V1. apply cl_nonneg. rewrite Raa. pose proof (Rabs_pos (B2R a)). lra. }
      rewrite I, (pos_mul_inf half), (pos_mul_inf tol) by (auto; lra). reflexivity. }
  pose proof (pos_nan _ D) as ND. apply flt_vr in D; auto. change (vr fzero) with 0 in D.
  apply flt_vr; auto; [apply fin_nan; auto|].
  rewrite (vr_finite (fabs (fsub a a))) by auto. lra.
Qed.
(* edges that differ by more than 1.1e-5 of the larger one *)
Definition apart (a b : f64) : Prop :=
  let m := Rmax (Rabs (B2R a)) (Rabs (B2R b)) in 11 / 1000000000 <= m <= b2 1000 /\ 11 / 1000000 * m <= Rabs (B2R a - B2R b).
Lemma fuzzyEq_apart a b : is_finite a = true -> is_finite b = true -> apart a b -> fuzzyEq a b = false.
Proof.
  intros Fa Fb [[M1 M2] M3]. set (m := Rmax (Rabs (B2R a)) (Rabs (B2R b))) in *. unfold fuzzyEq.
  destruct (fabs_R a Fa) as [Faa Raa], (fabs_R b Fb) as [Fbb Rbb]. pose proof u_small as U.
  pose proof (Rmax_l (Rabs (B2R a)) (Rabs (B2R b))) as La. pose proof (Rmax_r (Rabs (B2R a)) (Rabs (B2R b))) as Lb. fold m in La, Lb.
  pose proof (Rabs_pos (B2R a)) as Pa. pose proof (Rabs_pos (B2R b)) as Pb.
  apply orb_false_iff. split.
  - destruct small_near as (Fs & (ds & Ds & Rs) & _). apply ab in Ds.
    apply not_true_is_false. intros H. apply andb_true_iff in H. destruct H as [H1 H2].
    apply flt_R in H1; auto. apply flt_R in H2; auto. rewrite Raa in H1. rewrite Rbb in H2.
    assert (m < 11 / 1000000000). { unfold m. apply Rmax_lub_lt; eapply Rlt_trans; eauto; rewrite Rs; nra. } lra.
  - assert (Bg : 4 * b2 1000 < big). { change 4 with (b2 2). rewrite <- bpow_plus. apply bpow_lt. lia. }
    assert (Rn : forall r, Rabs r <= 3 * b2 1000 -> Rabs (rnd r) < big).
    { intros r Hr. pose proof (rnd_err r) as E. pose proof eta_pos. assert (eta < b2 0) by (apply bpow_lt; lia). assert (b2 0 < b2 1000) by (apply bpow_lt; lia).
      replace (rnd r) with (r + (rnd r - r)) by ring. eapply Rle_lt_trans; [apply Rabs_triang|].
      assert (u * Rabs r <= / 1000 * (3 * b2 1000)) by (apply Rmult_le_compat; [lra|apply Rabs_pos|lra|auto]).
      change (b2 0) with 1 in *. assert (b2 2 <= b2 1000) by (apply bpow_le; lia). change (b2 2) with 4 in *. lra. }
    (* the difference *)
    destruct (fsub_vr a b Fa Fb) as [N0 V0].
    assert (Q0 : Rabs (B2R a - B2R b) <= 2 * b2 1000). { eapply Rle_trans; [apply Rabs_triang|]. rewrite Rabs_Ropp. lra. }
    destruct (vr_cl_finite _ _ N0 V0) as [F0 R0]; [apply Rn; pose proof (bpow_gt_0 radix2 1000); lra|].
    destruct (fabs_R _ F0) as [F0' R0']. pose proof (rnd_minus_err a b) as E0. rewrite <- R0 in E0.
    assert (D0 : (1 - u) * Rabs (B2R a - B2R b) <= B2R (fabs (fsub a b))).
    { rewrite R0'. pose proof (Rabs_triang_inv (B2R a - B2R b) (B2R (fsub a b))) as T. rewrite <- Rabs_Ropp, Ropp_minus_distr in E0. lra. }
    (* the average *)
    destruct (fadd_vr _ _ Faa Fbb) as [N1 V1]. rewrite Raa, Rbb in V1.
    destruct (vr_cl_finite _ _ N1 V1) as [F1 R1]; [apply Rn; rewrite Rabs_pos_eq; pose proof (bpow_gt_0 radix2 1000); lra|].
    assert (A1 : 0 <= B2R (fadd (fabs a) (fabs b)) <= 2 * m * (1 + u)).
    { pose proof (rnd_plus_err (fabs a) (fabs b)) as E. rewrite Raa, Rbb, <- R1, (Rabs_pos_eq (Rabs (B2R a) + Rabs (B2R b))) in E by lra. apply ab in E.
      split; [rewrite R1; apply rnd_nonneg; lra|]. nra. }
    destruct half_R as [Fh Rh]. destruct (fmul_vr half _ Fh F1) as [N2 V2]. rewrite Rh in V2.
    assert (Y : forall r, 0 <= r -> rnd r <= r * (1 + u) + eta) by (intros r Hr; pose proof (rnd_err r) as E; apply ab in E; rewrite (Rabs_pos_eq r Hr) in E; lra).
    assert (BG : forall r : R, Rabs (rnd (/ 2 * B2R (fadd (fabs a) (fabs b)))) < big).
    { intros _. apply Rn. rewrite Rabs_pos_eq by lra. nra. }
    destruct (vr_cl_finite _ _ N2 V2 (BG 0)) as [F2 R2].
    assert (A2 : 0 <= B2R (fmul half (fadd (fabs a) (fabs b))) <= m * (1 + u) * (1 + u) + eta).
    { rewrite R2. split; [apply rnd_nonneg; lra|]. eapply Rle_trans; [apply Y; lra|]. nra. }
    set (av := fmul half (fadd (fabs a) (fabs b))) in *.
    assert (ET : eta <= u * m). { apply Rle_trans with (b2 (-53) * b2 (-40)); [rewrite <- bpow_plus; apply bpow_le; lia|]. apply Rmult_le_compat_l; [lra|]. eapply Rle_trans; [|exact M1]. cbn. lra. }
    assert (A3 : B2R av <= m * (1 + 4 * u)).
    { eapply Rle_trans; [apply A2|]. assert ((1 + u) * (1 + u) <= 1 + 3 * u) by nra.
      assert (m * (1 + u) * (1 + u) <= m * (1 + 3 * u)) by (rewrite Rmult_assoc; apply Rmult_le_compat_l; lra). lra. }
    destruct tol_near as (Ft & (dt & Dt & Rt) & _). apply ab in Dt. destruct (fmul_vr tol av Ft F2) as [N3 V3].
    assert (T3 : 0 <= B2R tol * B2R av <= m * / 100000 * (1 + 7 * u)).
    { assert (T0 : 0 <= B2R tol <= / 100000 * (1 + 2 * u)) by (rewrite Rt; nra). split; [apply Rmult_le_pos; lra|].
      eapply Rle_trans; [apply Rmult_le_compat; [apply T0|apply A2|apply T0|exact A3]|].
      assert ((1 + 2 * u) * (1 + 4 * u) <= 1 + 7 * u) by nra. replace (/ 100000 * (1 + 2 * u) * (m * (1 + 4 * u))) with (m * / 100000 * ((1 + 2 * u) * (1 + 4 * u))) by ring.
      apply Rmult_le_compat_l; [lra|auto]. }
    destruct (vr_cl_finite _ _ N3 V3) as [F3 R3]; [apply Rn; rewrite Rabs_pos_eq by lra; nra|].
    apply not_true_is_false. intros H. apply flt_R in H; auto. rewrite R3 in H.
    assert (rnd (B2R tol * B2R av) <= m * / 100000 * (1 + 7 * u) * (1 + u) + eta) by (eapply Rle_trans; [apply Y; lra|]; apply Rplus_le_compat_r, Rmult_le_compat_r; lra).
    assert ((1 + 7 * u) * (1 + u) <= 1 + 9 * u) by nra.
    assert (m * / 100000 * (1 + 7 * u) * (1 + u) <= m * / 100000 * (1 + 9 * u)) by (rewrite Rmult_assoc; apply Rmult_le_compat_l; lra).
    assert (U9 : u <= / 1000000000) by (apply Rle_trans with (b2 (-30)); [apply bpow_le; lia|change (b2 (-30)) with (/ 1073741824); lra]).
    assert (um : u * m <= / 1000000000 * m) by (apply Rmult_le_compat_r; lra).
    assert (ud : u * Rabs (B2R a - B2R b) <= / 1000000000 * Rabs (B2R a - B2R b)) by (apply Rmult_le_compat_r; [apply Rabs_pos|lra]).
    lra.
Qed.
