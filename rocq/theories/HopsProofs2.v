(* Proofs about the points of DivideH1D and NewS2DFromH1D and about the order of points. *)
From Coq Require Import ZArith List Bool Lia Reals Lra Permutation Sorted.
From Flocq Require Import Core IEEE754.BinarySingleNaN Plus_error Mult_error.
From Verif Require Import GoLib F64 F64Arith HbookModel HistModel HistErr HopsModel F64Near HopsProofs.
Import ListNotations.
Local Open Scope R_scope.
Local Notation b2 := (bpow radix2).

Definition within (r : R) : Prop := b2 (-150) <= Rabs r <= b2 150.
(* a bin with finite edges *)
Definition edges_ok (b : Bin) : Prop :=
  is_finite (xMin b) = true /\ is_finite (xMax b) = true /\ B2R (xMin b) < B2R (xMax b) /\ Rabs (B2R (xMin b)) <= b2 1000 /\ Rabs (B2R (xMax b)) <= b2 1000.
(* a bin with numbers that are not extreme *)
Definition tame (b : Bin) : Prop :=
  edges_ok b /\ within (B2R (xMax b) - B2R (xMin b)) /\ is_finite (sumW b) = true /\ within (B2R (sumW b)) /\
  is_finite (sumW2 b) = true /\ within (B2R (sumW2 b)) /\ 0 < B2R (sumW2 b).
Definition height (b : Bin) : R := B2R (sumW b) / (B2R (xMax b) - B2R (xMin b)).
Definition relvar (b : Bin) : R := B2R (sumW2 b) / (B2R (sumW b) * B2R (sumW b)).
Definition midR (b : Bin) : R := (B2R (xMin b) + B2R (xMax b)) / 2.
(* p is in the middle of b, and its errors in x reach the edges of b *)
Definition centred (b : Bin) (p : Point2D) : Prop :=
  is_finite (PX p) = true /\ Rabs (B2R (PX p) - midR b) <= b2 (-52) * Rabs (midR b) + b2 (-1074) /\
  B2R (xMin b) <= B2R (PX p) <= B2R (xMax b) /\
  (forall e r, e = rmin (ErrX p) /\ r = B2R (PX p) - B2R (xMin b) \/ e = rmax (ErrX p) /\ r = B2R (xMax b) - B2R (PX p) ->
     is_finite e = true /\ 0 <= B2R e /\ Rabs (B2R e - r) <= b2 (-53) * r).

Lemma rnd_small r : Rabs r <= 3 * b2 1000 -> Rabs (rnd r) < big.
Proof.
  intros Hr. pose proof (rnd_err r) as E. pose proof eta_pos. assert (eta < b2 0) by (apply bpow_lt; lia). pose proof u_small as U.
  assert (Bg : 4 * b2 1000 < big). { change 4 with (b2 2). rewrite <- bpow_plus. apply bpow_lt. lia. }
  replace (rnd r) with (r + (rnd r - r)) by ring. eapply Rle_lt_trans; [apply Rabs_triang|].
  assert (u * Rabs r <= / 1000 * (3 * b2 1000)) by (apply Rmult_le_compat; [lra|apply Rabs_pos|lra|auto]).
  change (b2 0) with 1 in *. assert (b2 2 <= b2 1000) by (apply bpow_le; lia). change (b2 2) with 4 in *. lra.
Qed.
Lemma fsub_small x y : is_finite x = true -> is_finite y = true -> Rabs (B2R x - B2R y) <= 3 * b2 1000 ->
  is_finite (fsub x y) = true /\ B2R (fsub x y) = rnd (B2R x - B2R y).
Proof. intros Fx Fy H. destruct (fsub_vr x y Fx Fy) as [A B]. apply vr_cl_finite; auto. apply rnd_small; auto. Qed.
Lemma fadd_small x y : is_finite x = true -> is_finite y = true -> Rabs (B2R x + B2R y) <= 3 * b2 1000 ->
  is_finite (fadd x y) = true /\ B2R (fadd x y) = rnd (B2R x + B2R y).
Proof. intros Fx Fy H. destruct (fadd_vr x y Fx Fy) as [A B]. apply vr_cl_finite; auto. apply rnd_small; auto. Qed.
Lemma fmul_small x y : is_finite x = true -> is_finite y = true -> Rabs (B2R x * B2R y) <= 3 * b2 1000 ->
  is_finite (fmul x y) = true /\ B2R (fmul x y) = rnd (B2R x * B2R y).
Proof. intros Fx Fy H. destruct (fmul_vr x y Fx Fy) as [A B]. apply vr_cl_finite; auto. apply rnd_small; auto. Qed.
Lemma fmt_double (x : f64) : Rabs (B2R x) <= b2 1000 -> rnd (B2R x + B2R x) = B2R x + B2R x.
Proof.
  intros L. apply round_generic; [apply valid_rnd_N|].
  replace (B2R x + B2R x) with (B2R x * b2 1) by (change (b2 1) with 2; ring).
  apply generic_format_FLT. pose proof (generic_format_B2R 53 1024 x) as G. apply FLT_format_generic in G; [|reflexivity].
  destruct G as [f E P Q]. exists (Float radix2 (Fnum f) (Fexp f + 1)); cbn; auto.
  - rewrite E. unfold F2R. cbn [Fnum Fexp]. rewrite bpow_plus, Rmult_assoc. reflexivity.
  - unfold SpecFloat.emin in Q. lia.
Qed.
Lemma mid_centred b y ey : edges_ok b ->
  centred b {| PX := xMid b; PY := y; ErrX := rng (fsub (xMid b) (xMin b)) (fsub (xMax b) (xMid b)); ErrY := ey |}.
Proof.
  intros (F1 & F2 & L & A1 & A2). unfold centred. cbn [PX ErrX]. unfold rng. cbn [rmin rmax]. pose proof (bpow_gt_0 radix2 1000) as B0.
  destruct (fadd_small (xMin b) (xMax b) F1 F2) as [F3 R3]. { eapply Rle_trans; [apply Rabs_triang|]. lra. }
  destruct half_R as [Fh Rh]. pose proof u_small as U.
  assert (S : 2 * B2R (xMin b) <= B2R (fadd (xMin b) (xMax b)) <= 2 * B2R (xMax b)).
  { rewrite R3. split.
    - replace (2 * B2R (xMin b)) with (B2R (xMin b) + B2R (xMin b)) by ring. rewrite <- (fmt_double (xMin b)) by auto. apply rnd_le. lra.
    - replace (2 * B2R (xMax b)) with (B2R (xMax b) + B2R (xMax b)) by ring. rewrite <- (fmt_double (xMax b)) by auto. apply rnd_le. lra. }
  apply Rabs_le_inv in A1. apply Rabs_le_inv in A2.
  destruct (fmul_small half _ Fh F3) as [F4 R4]. { rewrite Rh. apply Rabs_le. lra. }
  fold (xMid b) in F4, R4. rewrite Rh in R4.
  assert (X : B2R (xMin b) <= B2R (xMid b) <= B2R (xMax b)).
  { rewrite R4. rewrite <- (rnd_B2R (xMin b)), <- (rnd_B2R (xMax b)) at 1. split; apply rnd_le; lra. }
  split; [auto|]. split; [|split; [auto|]].
  - (* u |s| / 2 + u |rnd s| / 2 + eta *)
    pose proof (rnd_plus_err (xMin b) (xMax b)) as E1. rewrite <- R3 in E1. unfold midR.
    set (s := B2R (xMin b) + B2R (xMax b)) in *. set (t := B2R (fadd (xMin b) (xMax b))) in *.
    destruct (Rle_or_lt (b2 (-1021)) (Rabs t)) as [Q|Q].
    + (* the half is exact *)
      assert (H : rnd (/ 2 * t) = / 2 * t).
      { apply round_generic; [apply valid_rnd_N|]. 
        pose proof (generic_format_B2R 53 1024 (fadd (xMin b) (xMax b))) as G. fold t in G.
        destruct (Req_dec t 0) as [Z|Z]. { exfalso. rewrite Z, Rabs_R0 in Q. pose proof (bpow_gt_0 radix2 (-1021)). lra. }
        replace (/ 2 * t) with (t * b2 (-1)) by (change (b2 (-1)) with (/ 2); ring).
        apply mult_bpow_exact_FLT; auto. apply (mag_ge_bpow radix2 t (-1020)) in Q. lia. }
      rewrite R4, H. replace (/ 2 * t - s / 2) with (/ 2 * (t - s)) by field. rewrite Rabs_mult, (Rabs_pos_eq (/ 2)) by lra.
      replace (s / 2) with (/ 2 * s) by field. rewrite Rabs_mult, (Rabs_pos_eq (/ 2)) by lra.
      assert (u <= b2 (-52)) by (apply bpow_le; lia). pose proof (bpow_gt_0 radix2 (-1074)). pose proof (Rabs_pos s). nra.
    + (* t is small, so it is exact *)
      assert (T : t = s).
      { rewrite R3. apply round_generic; [apply valid_rnd_N|].
        apply FLT_format_plus_small; [reflexivity|apply (generic_format_B2R 53 1024)|apply (generic_format_B2R 53 1024)|]. fold s. change (53 + -1074)%Z with (-1021)%Z.
        destruct (Rle_or_lt (Rabs s) (b2 (-1021))) as [W|W]; auto. exfalso.
        assert (b2 (-1021) <= Rabs (rnd s)).
        { apply abs_round_ge_generic; try apply FLT_exp_valid; try apply valid_rnd_N; [reflexivity| |lra]. apply generic_format_bpow. unfold FLT_exp. lia. }
        rewrite <- R3 in H. lra. }
      rewrite R4, T. pose proof (error_le_half_ulp radix2 (FLT_exp (-1074) 53) (fun t => negb (Z.even t)) (/ 2 * s)) as E.
      change (round radix2 (FLT_exp (-1074) 53) (Znearest _) (/ 2 * s)) with (rnd (/ 2 * s)) in E.
      rewrite (ulp_FLT_small radix2 (-1074) 53) in E.
      * replace (s / 2) with (/ 2 * s) by field. pose proof (bpow_gt_0 radix2 (-1074)). pose proof (bpow_gt_0 radix2 (-52)). pose proof (Rabs_pos (/ 2 * s)). nra.
      * rewrite Rabs_mult, (Rabs_pos_eq (/ 2)), <- T by lra. assert (b2 (-1021) = b2 (-1074 + 53)) by reflexivity. pose proof (Rabs_pos t). lra.
  - intros e r H.
    assert (G : exists p q : f64, e = fsub p q /\ r = B2R p - B2R q /\ is_finite p = true /\ is_finite q = true /\ 0 <= r /\ Rabs r <= 3 * b2 1000).
    { destruct H as [[-> ->]|[-> ->]].
      - exists (xMid b), (xMin b). repeat split; auto; [lra|]. apply Rabs_le. lra.
      - exists (xMax b), (xMid b). repeat split; auto; [lra|]. apply Rabs_le. lra. }
    destruct G as (p & q & -> & -> & Fp & Fq & P & Q). destruct (fsub_small p q Fp Fq Q) as [F5 R5]. split; [auto|].
    rewrite R5. split; [apply rnd_nonneg; auto|]. pose proof (rnd_minus_err p q) as E. rewrite (Rabs_pos_eq (B2R p - B2R q) P) in E. auto.
Qed.

(* ---- the points of a division ---- *)
Definition yspec (y : f64) (r : R) : Prop := is_finite y = true /\ Rabs (B2R y - r) <= b2 (-49) * Rabs r.
Definition espec (y : f64) (r : R) : Prop := is_finite y = true /\ Rabs (B2R y - r) <= b2 (-48) * Rabs r.
Lemma within_near z : is_finite z = true -> within (B2R z) -> near 0 150 z (B2R z).
Proof. intros Fz W. apply near_exact; auto. Qed.
Lemma width_near b : tame b -> near 1 150 (xWidth b) (B2R (xMax b) - B2R (xMin b)).
Proof. intros ((F1 & F2 & _) & W & _). apply near_sub; auto. lia. Qed.
Lemma height_near b : tame b -> near 4 300 (fdiv (sumW b) (xWidth b)) (height b).
Proof.
  intros T. pose proof (width_near b T) as N. destruct T as (_ & _ & F & W & _).
  replace 4 with (0 + 1 + 3) by ring. change 300%Z with (150 + 150)%Z. apply near_div; auto; try lra; try lia. apply within_near; auto.
Qed.
Lemma sq_near b : tame b -> near 2 150 (fsqrt (sumW2 b)) (sqrt (B2R (sumW2 b))).
Proof. intros (_ & _ & _ & _ & F & W & P). replace 2 with (0 + 2) by ring. apply (near_sqrt 0 150); auto; try lra; try lia. apply within_near; auto. Qed.
Lemma herr_near b : tame b -> near 6 300 (fdiv (fsqrt (sumW2 b)) (xWidth b)) (sqrt (B2R (sumW2 b)) / (B2R (xMax b) - B2R (xMin b))).
Proof.
  intros T. replace 6 with (2 + 1 + 3) by ring. change 300%Z with (150 + 150)%Z.
  apply near_div; try lra; try lia; [apply sq_near; auto|apply width_near; auto].
Qed.
Lemma relerr_near b : tame b -> near 5 300 (fdiv (fsqrt (sumW2 b)) (sumW b)) (sqrt (B2R (sumW2 b)) / B2R (sumW b)).
Proof.
  intros T. replace 5 with (2 + 0 + 3) by ring. change 300%Z with (150 + 150)%Z.
  apply near_div; try lra; try lia; [apply sq_near; auto|]. destruct T as (_ & _ & F & W & _). apply within_near; auto.
Qed.
Lemma relvar_pos b : tame b -> 0 < relvar b.
Proof.
  intros T. pose proof (relerr_near b T) as N. apply near_nz in N. destruct T as (_ & _ & _ & _ & _ & _ & P). unfold relvar.
  assert (B2R (sumW b) <> 0). { intros E. rewrite E in N. unfold Rdiv in N. rewrite Rinv_0, Rmult_0_r in N. auto. }
  apply Rdiv_lt_0_compat; auto. nra.
Qed.
Lemma relvar_near b : tame b -> near 13 600 (fmul (fdiv (fsqrt (sumW2 b)) (sumW b)) (fdiv (fsqrt (sumW2 b)) (sumW b))) (relvar b).
Proof.
  intros T. pose proof (relerr_near b T) as N.
  assert (NZ : B2R (sumW b) <> 0). { apply near_nz in N. intros E. rewrite E in N. unfold Rdiv in N. rewrite Rinv_0, Rmult_0_r in N. auto. }
  apply near_eq with (v := sqrt (B2R (sumW2 b)) / B2R (sumW b) * (sqrt (B2R (sumW2 b)) / B2R (sumW b))).
  - destruct T as (_ & _ & _ & _ & _ & _ & P). unfold relvar. rewrite <- (sqrt_sqrt (B2R (sumW2 b))) at 3 by lra. field. auto.
  - replace 13 with (5 + 5 + 3) by ring. change 600%Z with (300 + 300)%Z. apply near_mul; auto; try lra; lia.
Qed.
Lemma near_feq0 k e z v : 0 <= k <= 100 -> near k e z v -> feq z fzero = false.
Proof. intros K N. pose proof (near_nonzero k e z v K N) as NZ. apply not_true_is_false. intros E. apply feq0_R in E; [auto|apply N]. Qed.
Lemma near_fne0 k e z v : 0 <= k <= 100 -> near k e z v -> fne0 z = true.
Proof. intros K N. unfold fne0. rewrite (near_feq0 k e z v K N). reflexivity. Qed.
Lemma near_yspec k e z v : k <= 16 -> near k e z v -> yspec z v.
Proof.
  intros K N. split; [apply N|]. eapply Rle_trans; [apply (near_abs k e); eauto|]. apply Rmult_le_compat_r; [apply Rabs_pos|].
  change (-49)%Z with (4 + -53)%Z. rewrite bpow_plus. change (b2 4) with 16. pose proof u_small. apply Rmult_le_compat_r; lra.
Qed.
Lemma near_espec k e z v : k <= 32 -> near k e z v -> espec z v.
Proof.
  intros K N. split; [apply N|]. eapply Rle_trans; [apply (near_abs k e); eauto|]. apply Rmult_le_compat_r; [apply Rabs_pos|].
  change (-48)%Z with (5 + -53)%Z. rewrite bpow_plus. change (b2 5) with 32. pose proof u_small. apply Rmult_le_compat_r; lra.
Qed.
Lemma divPoint_tame c bn bd : tame bn -> tame bd -> exists p, divPoint c bn bd = Some p /\ centred bn p /\
  yspec (PY p) (height bn / height bd) /\ rmin (ErrY p) = rmax (ErrY p) /\
  espec (rmin (ErrY p)) (height bn / height bd * sqrt (relvar bn + relvar bd)).
Proof.
  intros T1 T2. unfold divPoint.
  rewrite (near_feq0 4 300 _ _ ltac:(lra) (height_near bd T2)), (near_feq0 4 300 _ _ ltac:(lra) (height_near bn T1)).
  rewrite (near_fne0 6 300 _ _ ltac:(lra) (herr_near bn T1)), (near_fne0 6 300 _ _ ltac:(lra) (herr_near bd T2)). cbn [orb andb].
  eexists. split; [reflexivity|]. split; [apply mid_centred; apply T1|]. cbn [PY ErrY]. unfold rng. cbn [rmin rmax].
  assert (Y : near 11 600 (fdiv (fdiv (sumW bn) (xWidth bn)) (fdiv (sumW bd) (xWidth bd))) (height bn / height bd)).
  { replace 11 with (4 + 4 + 3) by ring. change 600%Z with (300 + 300)%Z. apply near_div; try lra; try lia; apply height_near; auto. }
  split; [apply (near_yspec 11 600); auto; lra|]. split; [reflexivity|].
  apply (near_espec 31 950); [lra|]. replace 31 with (11 + 17 + 3) by ring. 
  pose proof (relvar_pos bn T1) as P1. pose proof (relvar_pos bd T2) as P2.
  change 950%Z with (600 + 350)%Z. apply near_mul; try lra; try lia; auto.
  replace 17 with (15 + 2) by ring. apply (near_sqrt 15 700); try lra; try lia.
  replace 15 with (13 + 2) by ring. apply near_add with (e1 := 600%Z) (e2 := 600%Z); try lra; try lia; apply relvar_near; auto.
Qed.

(* ---- bins without entries ---- *)
Definition tame0 (b : Bin) : Prop := edges_ok b /\ within (B2R (xMax b) - B2R (xMin b)).
Definition zero (z : f64) : Prop := is_finite z = true /\ B2R z = 0.
Lemma zero_feq z : zero z -> feq z fzero = true. Proof. intros [A B]. apply feq0_R; auto. Qed.
Lemma zero_nan z : zero z -> fne0 z = false. Proof. intros H. unfold fne0. rewrite (zero_feq z H). reflexivity. Qed.
Lemma width0_near b : tame0 b -> near 1 150 (xWidth b) (B2R (xMax b) - B2R (xMin b)).
Proof. intros ((F1 & F2 & _) & W). apply near_sub; auto. lia. Qed.
Lemma rnd_zero_vr z : is_nan z = false -> vr z = cl 0 -> zero z.
Proof. intros N V. destruct (vr_cl_finite z 0 N V) as [A B]; [rewrite rnd_0, Rabs_R0; apply big_pos|]. rewrite rnd_0 in B. split; auto. Qed.
Lemma zero_div z w : zero z -> is_finite w = true -> B2R w <> 0 -> zero (fdiv z w).
Proof.
  intros [Fz Rz] Fw NZ. destruct (fdiv_vr z w Fz Fw NZ) as [N V]. apply rnd_zero_vr; auto. rewrite V, Rz. f_equal. unfold Rdiv. ring.
Qed.
Lemma zero_mul_l z w : zero z -> is_finite w = true -> zero (fmul z w).
Proof. intros [Fz Rz] Fw. destruct (fmul_vr z w Fz Fw) as [N V]. apply rnd_zero_vr; auto. rewrite V, Rz. f_equal. ring. Qed.
Lemma zero_sqrt z : zero z -> zero (fsqrt z).
Proof.
  intros [Fz Rz]. destruct z as [s| | |s m e H]; try discriminate.
  - split; reflexivity.
  - exfalso. cbn [B2R] in Rz. apply eq_0_F2R in Rz. destruct s; discriminate.
Qed.
Lemma width_nz b : tame0 b -> is_finite (xWidth b) = true /\ B2R (xWidth b) <> 0.
Proof. intros T. pose proof (width0_near b T) as N. split; [apply N|]. apply (near_nonzero 1 150 _ _ ltac:(lra) N). Qed.
Lemma divPoint_empty_den c bn bd : tame0 bd -> zero (sumW bd) -> edges_ok bn ->
  exists p, divPoint c bn bd = (if ignoreNaN c then None else Some p) /\ centred bn p /\ PY p = replaceNaN c /\ ErrY p = rng fzero fzero.
Proof.
  intros T Z E. destruct (width_nz bd T) as [Fw NZ]. unfold divPoint. rewrite (zero_feq _ (zero_div _ _ Z Fw NZ)). cbn [orb].
  eexists. split; [destruct (ignoreNaN c); reflexivity|]. split; [apply mid_centred; auto|]. split; reflexivity.
Qed.
Lemma divPoint_empty_num c bn bd : tame0 bn -> zero (sumW bn) -> zero (sumW2 bn) -> tame bd ->
  exists p, divPoint c bn bd = Some p /\ centred bn p /\ zero (PY p) /\ rmin (ErrY p) = rmax (ErrY p) /\ zero (rmin (ErrY p)).
Proof.
  intros T Z1 Z2 Td. destruct (width_nz bn T) as [Fw NZ]. unfold divPoint.
  rewrite (near_feq0 4 300 _ _ ltac:(lra) (height_near bd Td)), (near_fne0 6 300 _ _ ltac:(lra) (herr_near bd Td)).
  rewrite (zero_nan _ (zero_div _ _ (zero_sqrt _ Z2) Fw NZ)), andb_false_r. cbn [orb].
  eexists. split; [reflexivity|]. split; [apply mid_centred, T|]. cbn [PY ErrY]. unfold rng. cbn [rmin rmax].
  assert (Y : zero (fdiv (fdiv (sumW bn) (xWidth bn)) (fdiv (sumW bd) (xWidth bd)))).
  { apply zero_div; [apply zero_div; auto|apply (height_near bd Td)|]. apply (near_nonzero 4 300 _ (height bd)); [lra|apply height_near; auto]. }
  split; [exact Y|]. split; [reflexivity|]. apply zero_mul_l; auto.
  (* the square root is finite *)
  pose proof (relvar_near bd Td) as N. pose proof (relvar_pos bd Td) as P. set (q := fmul (fdiv (fsqrt (sumW2 bd)) (sumW bd)) _) in *.
  assert (A : near 15 700 (fadd (fmul fzero fzero) q) (relvar bd)).
  { assert (Fq : is_finite q = true) by apply N. destruct (fadd_vr (fmul fzero fzero) q eq_refl Fq) as [Nq Vq].
    replace (B2R (fmul fzero fzero)) with 0 in Vq by reflexivity. rewrite Rplus_0_l in Vq.
    destruct N as (_ & (d & D & E) & R). replace 15 with (13 + 2) by ring.
    apply near_rnd with (a := B2R q) (d := d); auto; try lra; try lia.
    assert (b2 (-700) <= b2 (-600)) by (apply bpow_le; lia). assert (b2 600 <= b2 700) by (apply bpow_le; lia).
    change (b2 (- (700))) with (b2 (-700)). change (b2 (- (600))) with (b2 (-600)) in R. lra. }
  apply (near_sqrt 15 700 350) in A; try lra; try lia. apply A.
Qed.
Lemma divPoint_self c b : edges_ok b -> is_finite (fdiv (sumW b) (xWidth b)) = true -> B2R (fdiv (sumW b) (xWidth b)) <> 0 ->
  exists p, divPoint c b b = Some p /\ centred b p /\ feq (PY p) f1 = true.
Proof.
  intros E F NZ. unfold divPoint. assert (Q : feq (fdiv (sumW b) (xWidth b)) fzero = false).
  { apply not_true_is_false. intros H. apply feq0_R in H; auto. }
  rewrite Q. cbn [orb andb]. eexists. split; [reflexivity|]. split; [apply mid_centred; auto|]. cbn [PY].
  destruct (fdiv_vr _ _ F F NZ) as [N V]. replace (B2R (fdiv (sumW b) (xWidth b)) / B2R (fdiv (sumW b) (xWidth b))) with 1 in V by (field; auto).
  destruct f1_R as [F1 R1]. apply feq_vr; auto. rewrite V, (vr_finite f1 F1), R1, <- R1. apply cl_B2R.
Qed.

(* ---- the loop over the bins ---- *)
Definition opt2list {A} (o : option A) : list A := match o with Some a => [a] | None => [] end.
Definition eqv_edges (b b' : Bin) : bool := fuzzyEq (xMin b) (xMin b') && fuzzyEq (xMax b) (xMax b').
Lemma divLoop_ok c bs1 bs2 : (length bs1 <= length bs2)%nat ->
  (forall i p q, nth_error bs1 i = Some p -> nth_error bs2 i = Some q -> eqv_edges p q = true) ->
  divLoop c bs1 bs2 = Ok (Some (concat (map (fun p => opt2list (divPoint c (fst p) (snd p))) (combine bs1 bs2)))).
Proof.
  revert bs2. induction bs1 as [|p bs1 IH]; intros [|q bs2] L H; cbn [divLoop combine map concat length] in *; auto; try lia.
  pose proof (H 0%nat p q eq_refl eq_refl) as E. apply andb_true_iff in E. destruct E as [-> ->]. cbn [negb orb].
  rewrite IH; [|lia|intros i; apply (H (S i))]. cbn [rbind fst snd]. destruct (divPoint c p q); reflexivity.
Qed.
Lemma divLoop_err c bs1 bs2 i p q : nth_error bs1 i = Some p -> nth_error bs2 i = Some q -> eqv_edges p q = false -> divLoop c bs1 bs2 = Ok None.
Proof.
  revert bs1 bs2. induction i as [|i IH]; intros [|p' bs1] [|q' bs2] H1 H2 E; try discriminate; cbn [divLoop].
  - cbn in H1, H2. inversion H1; inversion H2; subst. unfold eqv_edges in E.
    destruct (fuzzyEq (xMin p) (xMin q)); cbn [andb negb orb] in *; auto. rewrite E. reflexivity.
  - rewrite (IH bs1 bs2) by auto. cbn [rbind]. destruct (_ || _); reflexivity.
Qed.
Lemma divLoop_panic c bs1 bs2 : (length bs2 < length bs1)%nat ->
  (forall i p q, nth_error bs1 i = Some p -> nth_error bs2 i = Some q -> eqv_edges p q = true) -> divLoop c bs1 bs2 = Panic.
Proof.
  revert bs2. induction bs1 as [|p bs1 IH]; intros [|q bs2] L H; cbn [divLoop length] in *; auto; try lia.
  pose proof (H 0%nat p q eq_refl eq_refl) as E. apply andb_true_iff in E. destruct E as [-> ->]. cbn [negb orb].
  rewrite IH; auto; [lia|intros i; apply (H (S i))].
Qed.

(* ---- the points of a histogram ---- *)
Lemma binPoint_mid b : edges_ok b -> centred b (binPoint false b).
Proof.
  intros E. unfold binPoint. destruct (if fne0 (xWidth b) then _ else _) as [y ey]. apply mid_centred. auto.
Qed.
Lemma binPoint_y focus b : tame b -> yspec (PY (binPoint focus b)) (height b) /\ rmin (ErrY (binPoint focus b)) = rmax (ErrY (binPoint focus b)) /\
  yspec (rmin (ErrY (binPoint focus b))) (sqrt (B2R (sumW2 b)) / (B2R (xMax b) - B2R (xMin b))).
Proof.
  intros T. unfold binPoint. pose proof (width_near b T) as N. rewrite (near_fne0 1 150 _ _ ltac:(lra) N). cbn [PY ErrY]. unfold rng. cbn [rmin rmax].
  assert (N1 : near 0 1 f1 1).
  { destruct f1_R as [F1 R1]. rewrite <- R1. apply near_exact; auto. rewrite R1, Rabs_R1. cbn. lra. }
  assert (NI : near 4 151 (fdiv f1 (xWidth b)) (1 / (B2R (xMax b) - B2R (xMin b)))).
  { replace 4 with (0 + 1 + 3) by ring. change 151%Z with (1 + 150)%Z. apply near_div; auto; try lra; lia. }
  destruct T as (T1 & T2 & F & W & F2 & W2 & P). split; [|split; [reflexivity|]].
  - apply (near_yspec 7 301); [lra|]. apply near_eq with (v := B2R (sumW b) * (1 / (B2R (xMax b) - B2R (xMin b)))); [unfold height, Rdiv; ring|].
    replace 7 with (0 + 4 + 3) by ring. change 301%Z with (150 + 151)%Z. apply near_mul; auto; try lra; try lia. apply within_near; auto.
  - apply (near_yspec 9 301); [lra|]. apply near_eq with (v := sqrt (B2R (sumW2 b)) * (1 / (B2R (xMax b) - B2R (xMin b)))); [unfold Rdiv; ring|].
    replace 9 with (2 + 4 + 3) by ring. change 301%Z with (150 + 151)%Z. apply near_mul; auto; try lra; try lia.
    apply sq_near. repeat split; auto; try apply T1; try apply T2; try apply W; apply W2.
Qed.

(* ---- the order of points ---- *)
Definition pkeys (p : Point2D) : list (option Z) :=
  map fkey [PX p; rmin (ErrX p); rmax (ErrX p); PY p; rmin (ErrY p); rmax (ErrY p)].
Definition no_nan (p : Point2D) : Prop := ~ In None (pkeys p).
Fixpoint zkeys (l : list (option Z)) : list Z := match l with [] => [] | Some z :: tl => z :: zkeys tl | None :: tl => 0%Z :: zkeys tl end.
Definition keys (p : Point2D) : list Z := zkeys (pkeys p).
Fixpoint lex (a b : list Z) : bool :=
  match a, b with x :: a', y :: b' => (x <? y)%Z || ((x =? y)%Z && lex a' b') | _, _ => false end.
Lemma less_lex p q : no_nan p -> no_nan q -> less p q = lex (keys p) (keys q).
Proof.
  intros Np Nq. unfold no_nan, keys, pkeys, less in *. rewrite !flt_key, !feq_key.
  cbn [map] in *.
  repeat match goal with N : ~ In None (?k :: _) |- _ => apply not_in_cons in N; let E := fresh "E" in destruct N as [E N]; destruct k; [clear E|congruence] end.
  cbn [zkeys lex opt2].
  repeat match goal with |- context [(?a =? ?b)%Z] => destruct (Z.eqb_spec a b); [subst|]; cbn [negb andb]; rewrite ?Z.ltb_irrefl, ?orb_false_r; cbn [orb]; auto end.
Qed.
Lemma lex_irrefl a : lex a a = false.
Proof. induction a; cbn; auto. rewrite Z.ltb_irrefl, Z.eqb_refl. auto. Qed.
Lemma lex_trans a b c : lex a b = true -> lex b c = true -> lex a c = true.
Proof.
  revert b c. induction a as [|x a IH]; intros [|y b] [|z c]; cbn; try discriminate. rewrite !orb_true_iff, !andb_true_iff.
  intros [H|[H H']] [K|[K K']]; try lia. right. split; [lia|eauto].
Qed.
Lemma lex_total a b : length a = length b -> lex a b = false -> lex b a = false -> a = b.
Proof.
  revert b. induction a as [|x a IH]; intros [|y b]; cbn; try discriminate; auto. intros L. rewrite !orb_false_iff.
  intros [H1 H2] [H3 H4]. assert (x = y) by lia. subst. rewrite Z.eqb_refl in *. cbn in *. f_equal. apply IH; auto.
Qed.
Lemma keys_length p : length (keys p) = 6%nat.
Proof. unfold keys, pkeys. cbn [map]. destruct (fkey (PX p)), (fkey (rmin (ErrX p))), (fkey (rmax (ErrX p))), (fkey (PY p)), (fkey (rmin (ErrY p))), (fkey (rmax (ErrY p))); reflexivity. Qed.
Lemma sorted_unique l l' : Forall (fun k => length k = 6%nat) l -> Permutation l l' ->
  StronglySorted (fun a b => lex b a = false) l -> StronglySorted (fun a b => lex b a = false) l' -> l = l'.
Proof.
  intros F P S. revert l' F P. induction S as [|a l S IH A]; intros l' F P S'.
  - apply Permutation_nil in P. auto.
  - destruct l' as [|b l']; [apply Permutation_sym, Permutation_nil in P; discriminate|].
    inversion S'; subst. inversion F; subst.
    assert (a = b).
    { assert (Ia : In a (b :: l')) by (eapply Permutation_in; [exact P|now left]).
      assert (Ib : In b (a :: l)) by (eapply Permutation_in; [apply Permutation_sym; exact P|now left]).
      destruct Ia as [->|Ia]; auto. destruct Ib as [->|Ib]; auto.
      rewrite Forall_forall in *. apply lex_total; auto. rewrite H3; symmetry; auto. }
    subst b. f_equal. apply IH; auto. eapply Permutation_cons_inv; eauto.
Qed.
