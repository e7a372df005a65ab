(* Proofs for PredModel: the bound that goes with a number is really a bound, as long as no product is too small. *)
From Coq Require Import ZArith QArith List Bool Lia Reals Lra.
From Flocq Require Import Core IEEE754.BinarySingleNaN Relative Plus_error Mult_error.
From Verif Require Import F64 F64Arith HistErr F64Near PredModel.
Import ListNotations.
Local Close Scope Q_scope.
Local Open Scope R_scope.

Local Notation b2 := (bpow radix2).
Local Notation fin := (@is_finite 53 1024).

(* ---- a finite result comes from finite arguments ---- *)
Lemma cl_fin (z : f64) a : fin z = true -> is_nan z = false -> vr z = cl a -> B2R z = rnd a.
Proof.
  intros Fz Nz E. pose proof (vr_lt_big z Fz) as L. rewrite E in L. rewrite <- (vr_finite z Fz), E.
  unfold cl in *. destruct (Rlt_bool_spec (Rabs (rnd a)) big) as [H|H]; auto.
  exfalso. pose proof big_pos. destruct (Rlt_bool a 0); rewrite ?Rabs_Ropp, Rabs_pos_eq in L; lra.
Qed.
Lemma fadd_fin (x y : f64) : fin (fadd x y) = true -> fin x = true /\ fin y = true /\ B2R (fadd x y) = rnd (B2R x + B2R y).
Proof.
  intros H. assert (A : fin x = true /\ fin y = true).
  { destruct x as [sx|sx| |sx mx ex hx], y as [sy|sy| |sy my ey hy]; auto; try discriminate; destruct sx; try discriminate; destruct sy; discriminate. }
  destruct A as [A B]. split; auto. split; auto. destruct (fadd_vr x y A B) as [N V]. eapply cl_fin; eauto.
Qed.
Lemma fsub_fin (x y : f64) : fin (fsub x y) = true -> fin x = true /\ fin y = true /\ B2R (fsub x y) = rnd (B2R x - B2R y).
Proof.
  intros H. assert (A : fin x = true /\ fin y = true).
  { destruct x as [sx|sx| |sx mx ex hx], y as [sy|sy| |sy my ey hy]; auto; try discriminate; destruct sx; try discriminate; destruct sy; discriminate. }
  destruct A as [A B]. split; auto. split; auto. destruct (fsub_vr x y A B) as [N V]. eapply cl_fin; eauto.
Qed.
Lemma fmul_fin (x y : f64) : fin (fmul x y) = true -> fin x = true /\ fin y = true /\ B2R (fmul x y) = rnd (B2R x * B2R y).
Proof.
  intros H. assert (A : fin x = true /\ fin y = true).
  { destruct x as [sx|sx| |sx mx ex hx], y as [sy|sy| |sy my ey hy]; auto; discriminate. }
  destruct A as [A B]. split; auto. split; auto. destruct (fmul_vr x y A B) as [N V]. eapply cl_fin; eauto.
Qed.
Lemma fdiv_fin (x y : f64) : fin y = true -> B2R y <> 0 -> fin (fdiv x y) = true -> fin x = true /\ B2R (fdiv x y) = rnd (B2R x / B2R y).
Proof.
  intros Fy NZ H. assert (A : fin x = true).
  { destruct x as [sx|sx| |sx mx ex hx], y as [sy|sy| |sy my ey hy]; auto; discriminate. }
  split; auto. destruct (fdiv_vr x y A Fy NZ) as [N V]. eapply cl_fin; eauto.
Qed.

Lemma Bm : B2R macheps = 2 * u.
Proof. change 2 with (b2 1). rewrite <- bpow_plus. unfold macheps, B2R, F2R. cbn [Fnum Fexp cond_Zopp]. change (Z.pos (2 ^ 52)) with (Zpower radix2 52). rewrite IZR_Zpower by lia. rewrite <- bpow_plus. reflexivity. Qed.
Lemma Bo : B2R one_macheps = 1 - 2 * u.
Proof.
  unfold one_macheps, B2R, F2R. cbn [Fnum Fexp cond_Zopp]. change (Z.pos (2 ^ 53 - 2)) with (Zpower radix2 53 - 2)%Z.
  rewrite minus_IZR, IZR_Zpower by lia. rewrite Rmult_minus_distr_r, <- bpow_plus. reflexivity.
Qed.
Lemma Bs : B2R smallest = b2 (-1074).
Proof. unfold smallest, B2R, F2R. cbn [Fnum Fexp cond_Zopp]. lra. Qed.
Lemma rnd_B2R (x : f64) : rnd (B2R x) = B2R x.
Proof. apply round_generic; [apply valid_rnd_N|]. apply (generic_format_B2R 53 1024). Qed.
Lemma feq0 (n : f64) : fin n = true -> feq n fzero = true <-> B2R n = 0.
Proof. intros F. rewrite feq_vr; [|apply fin_nan; auto|reflexivity]. rewrite (vr_finite n F). reflexivity. Qed.

(* ---- the term of an operation ---- *)
Lemma term_fin (n : f64) : fin (term n) = true -> fin n = true.
Proof.
  unfold term. destruct (feq n fzero) eqn:E; [intros _|intros H].
  - destruct n as [s|[]| |]; auto; discriminate.
  - apply fdiv_fin in H; [|reflexivity|rewrite Bo; pose proof u_small; lra]. destruct H as [H _].
    apply fmul_fin in H. destruct H as (_ & H & _). unfold fabs in H. rewrite is_finite_Babs in H. auto.
Qed.
Lemma term_spec (n : f64) : fin (term n) = true -> 0 <= B2R (term n) /\ (b2 (-1021) <= Rabs (B2R n) -> 3 / 2 * u * Rabs (B2R n) <= B2R (term n))
  /\ (b2 (-900) <= Rabs (B2R n) -> 2 * u * Rabs (B2R n) <= B2R (term n)).
Proof.
  intros H. pose proof (term_fin n H) as Fn. pose proof u_small as U. unfold term in *. destruct (feq n fzero) eqn:E.
  - apply (feq0 n Fn) in E. rewrite E, Rabs_R0, Bs. pose proof (bpow_gt_0 radix2 (-1074)). repeat split; [lra|intros L|intros L].
    + pose proof (bpow_gt_0 radix2 (-1021)). lra.
    + pose proof (bpow_gt_0 radix2 (-900)). lra.
  - destruct (fdiv_fin (fmul macheps (fabs n)) one_macheps eq_refl ltac:(rewrite Bo; lra) H) as [H1 ->]. destruct (fmul_fin _ _ H1) as (_ & _ & M).
    set (m := fmul macheps (fabs n)) in *. unfold fabs in M. rewrite B2R_Babs, Bm in M. rewrite Bo.
    assert (P : 0 <= B2R m). { rewrite M, <- rnd_0. apply rnd_le. pose proof (Rabs_pos (B2R n)). nra. }
    assert (Q : B2R m <= B2R m / (1 - 2 * u)).
    { apply Rmult_le_reg_r with (1 - 2 * u); [lra|]. unfold Rdiv. rewrite Rmult_assoc, Rinv_l by lra. nra. }
    assert (G : B2R m <= rnd (B2R m / (1 - 2 * u))). { rewrite <- (rnd_B2R m) at 1. apply rnd_le. auto. }
    split; [eapply Rle_trans; [exact P|exact G]|]. split; intros L.
    + eapply Rle_trans; [|exact G]. rewrite M.
      assert (K : 4 * eta <= 2 * u * Rabs (B2R n)).
      { apply Rle_trans with (2 * u * b2 (-1021)); [|apply Rmult_le_compat_l; [lra|exact L]].
        change 4 with (b2 2). change 2 with (b2 1). rewrite <- !bpow_plus. apply bpow_le. lia. }
      destruct (Rle_or_lt (b2 (-1022)) (Rabs (2 * u * Rabs (B2R n)))) as [C|C].
      * destruct (rnd_rel _ C) as (d & D & ->). apply ab in D. pose proof (Rabs_pos (B2R n)) as RP. clear - U D RP. assert (0 <= u * Rabs (B2R n)) by nra. nra.
      * pose proof (rnd_err (2 * u * Rabs (B2R n))) as D. apply ab in D.
        rewrite (Rabs_pos_eq (2 * u * Rabs (B2R n))) in D by (pose proof (Rabs_pos (B2R n)); nra).
        assert (C2 : 2 * u * Rabs (B2R n) < b2 (-1022)) by (rewrite Rabs_pos_eq in C; auto; pose proof (Rabs_pos (B2R n)); nra).
        (* below 2^-1022 the error is at most eta *)
        pose proof (error_le_half_ulp radix2 (FLT_exp (-1074) 53) (fun t => negb (Z.even t)) (2 * u * Rabs (B2R n))) as E2.
        change (round radix2 (FLT_exp (-1074) 53) ZnearestE (2 * u * Rabs (B2R n))) with (rnd (2 * u * Rabs (B2R n))) in E2.
        rewrite (ulp_FLT_small radix2 (-1074) 53) in E2 by (eapply Rlt_le_trans; [exact C|]; apply bpow_le; lia).
        replace (/ 2 * bpow radix2 (-1074)) with eta in E2 by (change (-1075)%Z with (-1 + -1074)%Z; rewrite bpow_plus; reflexivity).
        apply ab in E2. lra.
    + eapply Rle_trans; [|exact G]. rewrite M. right. symmetry.
      (* the product with 2^-52 is exact *)
      replace (2 * u) with (b2 (-52)) by (change 2 with (b2 1); rewrite <- bpow_plus; reflexivity).
      apply round_generic; [apply valid_rnd_N|].
      rewrite Rmult_comm. apply mult_bpow_exact_FLT.
      * apply generic_format_abs. apply (generic_format_B2R 53 1024).
      * assert (W : (mag radix2 (b2 (-900)) <= mag radix2 (Rabs (B2R n)))%Z) by (apply mag_le; [apply bpow_gt_0|auto]).
        rewrite mag_bpow in W. lia.
Qed.

(* ---- the bound ---- *)
Definition okp (c : R) (p : pred) (v : R) : Prop :=
  fin (pn p) = true -> fin (pe p) = true -> 0 <= B2R (pe p) /\ Rabs (B2R (pn p) - v) <= c * B2R (pe p).
Lemma okp_weaken c c' p v : c <= c' -> okp c p v -> okp c' p v.
Proof. intros L H F1 F2. destruct (H F1 F2) as [A B]. split; auto. nra. Qed.
Lemma bound_fin (e t f : f64) : fin (fadd e (fadd t f)) = true -> fin e = true /\ fin t = true /\ fin f = true
  /\ (0 <= B2R e -> 0 <= B2R t -> 0 <= B2R f -> (1 - 2 * u) * (B2R e + B2R t + B2R f) <= B2R (fadd e (fadd t f))).
Proof.
  intros H. destruct (fadd_fin _ _ H) as (A & B & E). destruct (fadd_fin _ _ B) as (C & D & G). split; [|split; [|split]]; auto.
  intros P1 P2 P3. pose proof u_small as U. rewrite E.
  pose proof (rnd_plus_err t f) as E1. rewrite <- G in E1. apply ab in E1.
  pose proof (rnd_plus_err e (fadd t f)) as E2. apply ab in E2.
  rewrite (Rabs_pos_eq (B2R t + B2R f)) in E1 by lra.
  assert (P4 : 0 <= B2R (fadd t f)) by nra. rewrite Rabs_pos_eq in E2 by lra. nra.
Qed.
Lemma sum_err (x y : R) (n t : f64) : B2R n = rnd (x + y) -> (Rabs (B2R n) < b2 (-1021) -> rnd (x + y) = x + y) ->
  Rabs (rnd (x + y) - (x + y)) <= u * Rabs (x + y) -> t = term n -> fin t = true -> Rabs (B2R n - (x + y)) <= 7 / 10 * B2R t.
Proof.
  intros N S E -> Ft. pose proof u_small as U. destruct (term_spec n Ft) as (T0 & T1 & _).
  destruct (Rlt_or_le (Rabs (B2R n)) (b2 (-1021))) as [L|L].
  - rewrite N, (S L). rewrite Rminus_diag_eq, Rabs_R0 by auto. lra.
  - specialize (T1 L). rewrite <- N in E. eapply Rle_trans; [exact E|].
    assert (T : Rabs (x + y) <= Rabs (B2R n) + u * Rabs (x + y)).
    { replace (x + y) with (B2R n + - (B2R n - (x + y))) at 1 by ring. eapply Rle_trans; [apply Rabs_triang|]. rewrite Rabs_Ropp. lra. }
    assert (T2 : Rabs (x + y) <= 101 / 100 * Rabs (B2R n)) by (pose proof (Rabs_pos (B2R n)); pose proof (Rabs_pos (x + y)); nra).
    nra.
Qed.
Lemma small_exact (x y : f64) : Rabs (rnd (B2R x + B2R y)) < b2 (-1021) -> rnd (B2R x + B2R y) = B2R x + B2R y.
Proof.
  intros L. apply round_generic; [apply valid_rnd_N|]. apply FLT_format_plus_small; [red; lia| | |].
  - apply (generic_format_B2R 53 1024).
  - apply (generic_format_B2R 53 1024).
  - apply Rnot_lt_le. intros C. apply Rlt_not_le in L. apply L. apply abs_round_ge_generic; [apply FLT_exp_valid; red; lia|apply valid_rnd_N| |].
    + apply generic_format_bpow. unfold FLT_exp. lia.
    + left. exact C.
Qed.
Lemma addP_ok c a b va vb : 7 / 10 <= c <= 99 / 100 -> okp c a va -> okp c b vb -> okp (c + 4 * u) (addP a b) (va + vb).
Proof.
  intros C A B F1 F2. cbn [addP pn pe] in *. destruct (fadd_fin _ _ F1) as (Fa & Fb & N).
  destruct (bound_fin _ _ _ F2) as (Ea & Et & Eb & L). destruct (A Fa Ea) as [Pa Ha]. destruct (B Fb Eb) as [Pb Hb].
  destruct (term_spec _ Et) as (T0 & _). specialize (L Pa T0 Pb).
  pose proof (sum_err (B2R (pn a)) (B2R (pn b)) _ _ N (fun l => small_exact _ _ ltac:(rewrite <- N; exact l)) (rnd_plus_err _ _) eq_refl Et) as S.
  set (t := B2R (term (fadd (pn a) (pn b)))) in *. set (e := B2R (fadd (pe a) (fadd (term (fadd (pn a) (pn b))) (pe b)))) in *.
  pose proof u_small as U. assert (0 <= e) by nra. split; auto.
  replace (B2R (fadd (pn a) (pn b)) - (va + vb)) with ((B2R (fadd (pn a) (pn b)) - (B2R (pn a) + B2R (pn b))) + (B2R (pn a) - va) + (B2R (pn b) - vb)) by ring.
  eapply Rle_trans; [apply Rabs_triang|]. eapply Rle_trans; [apply Rplus_le_compat_r; apply Rabs_triang|].
  set (w := B2R (pe a) + t + B2R (pe b)) in *.
  assert (W : Rabs (B2R (fadd (pn a) (pn b)) - (B2R (pn a) + B2R (pn b))) + Rabs (B2R (pn a) - va) + Rabs (B2R (pn b) - vb) <= c * w) by (unfold w; nra).
  assert (0 <= w) by (unfold w; lra). eapply Rle_trans; [exact W|].
  apply Rle_trans with ((c + 4 * u) * ((1 - 2 * u) * w)); [|apply Rmult_le_compat_l; lra].
  replace ((c + 4 * u) * ((1 - 2 * u) * w)) with (((c + 4 * u) * (1 - 2 * u)) * w) by ring. apply Rmult_le_compat_r; [auto|]. nra.
Qed.
Lemma subP_ok c a b va vb : 7 / 10 <= c <= 99 / 100 -> okp c a va -> okp c b vb -> okp (c + 4 * u) (subP a b) (va - vb).
Proof.
  intros C A B F1 F2. cbn [subP pn pe] in *. destruct (fsub_fin _ _ F1) as (Fa & Fb & N).
  destruct (bound_fin _ _ _ F2) as (Ea & Et & Eb & L). destruct (A Fa Ea) as [Pa Ha]. destruct (B Fb Eb) as [Pb Hb].
  destruct (term_spec _ Et) as (T0 & _). specialize (L Pa T0 Pb).
  assert (N' : B2R (fsub (pn a) (pn b)) = rnd (B2R (pn a) + B2R (Bopp (pn b)))) by (rewrite B2R_Bopp; exact N).
  pose proof (sum_err (B2R (pn a)) (B2R (Bopp (pn b))) _ _ N' (fun l => small_exact _ _ ltac:(rewrite <- N'; exact l)) (rnd_plus_err _ _) eq_refl Et) as S.
  rewrite B2R_Bopp in S.
  set (t := B2R (term (fsub (pn a) (pn b)))) in *. set (e := B2R (fadd (pe a) (fadd (term (fsub (pn a) (pn b))) (pe b)))) in *.
  pose proof u_small as U. assert (0 <= e) by nra. split; auto.
  replace (B2R (fsub (pn a) (pn b)) - (va - vb)) with ((B2R (fsub (pn a) (pn b)) - (B2R (pn a) + - B2R (pn b))) + (B2R (pn a) - va) + - (B2R (pn b) - vb)) by ring.
  eapply Rle_trans; [apply Rabs_triang|]. eapply Rle_trans; [apply Rplus_le_compat_r; apply Rabs_triang|]. rewrite Rabs_Ropp.
  set (w := B2R (pe a) + t + B2R (pe b)) in *.
  assert (W : Rabs (B2R (fsub (pn a) (pn b)) - (B2R (pn a) + - B2R (pn b))) + Rabs (B2R (pn a) - va) + Rabs (B2R (pn b) - vb) <= c * w) by (unfold w; nra).
  assert (0 <= w) by (unfold w; lra). eapply Rle_trans; [exact W|].
  apply Rle_trans with ((c + 4 * u) * ((1 - 2 * u) * w)); [|apply Rmult_le_compat_l; lra].
  replace ((c + 4 * u) * ((1 - 2 * u) * w)) with (((c + 4 * u) * (1 - 2 * u)) * w) by ring. apply Rmult_le_compat_r; [auto|]. nra.
Qed.

(* ---- products ---- *)
Definition rel (k : R) (z v : R) : Prop := exists d, Rabs d <= k * u /\ z = v * (1 + d).
Lemma rel_refl v : rel 0 v v. Proof. exists 0. rewrite Rabs_R0. split; [lra|ring]. Qed.
Lemma rel_weaken k k' z v : k <= k' -> rel k z v -> rel k' z v.
Proof. intros L (d & D & E). exists d. split; auto. pose proof u_small. nra. Qed.
Lemma comb d1 d2 k1 k2 : 0 <= k1 <= 10 -> 0 <= k2 <= 10 -> Rabs d1 <= k1 * u -> Rabs d2 <= k2 * u -> Rabs (d1 + d2 + d1 * d2) <= (k1 + k2 + 1 / 100) * u.
Proof.
  intros K1 K2 D1 D2. pose proof u_small as U. eapply Rle_trans; [apply Rabs_triang|]. eapply Rle_trans; [apply Rplus_le_compat_r; apply Rabs_triang|].
  rewrite Rabs_mult. assert (Rabs d1 * Rabs d2 <= (k1 * u) * (k2 * u)) by (apply Rmult_le_compat; auto; apply Rabs_pos).
  assert (k1 * k2 <= 100) by nra. assert (0 <= k1 * k2) by nra. assert (X : (k1 * k2) * u <= 1 / 100) by (apply Rle_trans with (100 * u); [apply Rmult_le_compat_r; lra|lra]).
  replace ((k1 * u) * (k2 * u)) with (((k1 * k2) * u) * u) in H by ring. assert (((k1 * k2) * u) * u <= 1 / 100 * u) by (apply Rmult_le_compat_r; lra). lra.
Qed.
Lemma rel_mul k1 k2 z1 z2 v1 v2 : 0 <= k1 <= 10 -> 0 <= k2 <= 10 -> rel k1 z1 v1 -> rel k2 z2 v2 -> rel (k1 + k2 + 1 / 100) (z1 * z2) (v1 * v2).
Proof. intros K1 K2 (d & D & ->) (d' & D' & ->). exists (d + d' + d * d'). split; [apply comb; auto|ring]. Qed.
Lemma rel_rnd k z v : 0 <= k <= 10 -> rel k z v -> b2 (-1022) <= Rabs z -> rel (k + 1 + 1 / 100) (rnd z) v.
Proof.
  intros K (d & D & E) L. destruct (rnd_rel _ L) as (d' & D' & ->). exists (d + d' + d * d'). split; [apply comb; auto; lra|]. rewrite E. ring.
Qed.
Lemma rel_err k z v : 0 <= k <= 10 -> rel k z v -> Rabs (z - v) <= (k + 1 / 100) * u * Rabs z.
Proof.
  intros K (d & D & ->). pose proof u_small as U. replace (v * (1 + d) - v) with (v * d) by ring. rewrite !Rabs_mult.
  apply ab in D. assert (D2 : Rabs d <= k * u) by (apply ab; auto). rewrite (Rabs_pos_eq (1 + d)) by nra.
  pose proof (Rabs_pos v). replace ((k + 1 / 100) * u * (Rabs v * (1 + d))) with (Rabs v * (((k + 1 / 100) * u) * (1 + d))) by ring.
  apply Rmult_le_compat_l; auto. eapply Rle_trans; [exact D2|]. assert (k * u <= 1 / 100000) by nra.
  assert (Y : k <= (k + 1 / 100) * (1 + d)) by nra. replace ((k + 1 / 100) * u * (1 + d)) with (((k + 1 / 100) * (1 + d)) * u) by ring.
  apply Rmult_le_compat_r; lra.
Qed.
Lemma rel_0 k z v : 0 <= k <= 10 -> rel k z v -> v = 0 <-> z = 0.
Proof.
  intros K (d & D & ->). apply ab in D. pose proof u_small. split; [intros ->; ring|]. intros E. apply Rmult_integral in E. destruct E; auto. nra.
Qed.

Lemma mulP_fin p f : fin (pn (mulP p f)) = true -> fin (pe (mulP p f)) = true ->
  fin (pn p) = true /\ fin (pe p) = true /\ fin f = true /\ fin (term (pn (mulP p f))) = true /\ B2R (pn (mulP p f)) = rnd (B2R (pn p) * B2R f) /\
  (0 <= B2R (pe p) -> (1 - 2 * u) * (B2R (pe p) + B2R (term (pn (mulP p f))) + rnd (B2R (pe p) * Rabs (B2R f))) <= B2R (pe (mulP p f))).
Proof.
  intros F1 F2. cbn [mulP pn pe] in *. destruct (fmul_fin _ _ F1) as (A & B & N). destruct (bound_fin _ _ _ F2) as (C & D & E & L).
  destruct (fmul_fin _ _ E) as (_ & _ & M). unfold fabs in M. rewrite B2R_Babs in M.
  repeat (split; [assumption|]). intros P. unfold fabs in L. rewrite M in L. apply L; auto.
  - apply term_spec. auto.
  - rewrite <- rnd_0. apply rnd_le. pose proof (Rabs_pos (B2R f)). nra.
Qed.
(* one product more: at least 2u more of the bound *)
Lemma mulP_lower k p f : 0 <= k <= 10 -> fin (pn (mulP p f)) = true -> fin (pe (mulP p f)) = true -> 0 <= B2R (pe p) ->
  k * u * Rabs (B2R (pn p)) <= B2R (pe p) -> b2 (-899) <= Rabs (B2R (pn p) * B2R f) ->
  (2 + k - 1 / 1000) * u * Rabs (B2R (pn (mulP p f))) <= B2R (pe (mulP p f)).
Proof.
  intros K F1 F2 P H L. destruct (mulP_fin p f F1 F2) as (_ & _ & _ & Ft & N & E). specialize (E P). pose proof u_small as U.
  assert (L2 : b2 (-1022) <= Rabs (B2R (pn p) * B2R f)) by (eapply Rle_trans; [|exact L]; apply bpow_le; lia).
  destruct (rnd_rel _ L2) as (d & D & R). rewrite R in N. apply ab in D.
  destruct (term_spec _ Ft) as (T0 & _ & T). set (M := Rabs (B2R (pn (mulP p f)))) in *.
  assert (NM : M = Rabs (B2R (pn p) * B2R f) * (1 + d)) by (unfold M; rewrite N, Rabs_mult, (Rabs_pos_eq (1 + d)); [reflexivity|lra]).
  set (W := Rabs (B2R (pn p) * B2R f)) in *.
  assert (LM : b2 (-900) <= M).
  { apply Rle_trans with (W * / 2); [|rewrite NM; apply Rmult_le_compat_l; [apply Rabs_pos|lra]].
    change (/ 2) with (b2 (-1)). apply Rle_trans with (b2 (-899) * b2 (-1)); [rewrite <- bpow_plus; apply bpow_le; lia|].
    apply Rmult_le_compat_r; [apply bpow_ge_0|exact L]. }
  specialize (T LM). assert (M0 : 0 < M) by (eapply Rlt_le_trans; [apply bpow_gt_0|exact LM]).
  pose proof (rnd_err (B2R (pe p) * Rabs (B2R f))) as Q. apply ab in Q. pose proof (Rabs_pos (B2R f)) as F0.
  rewrite (Rabs_pos_eq (B2R (pe p) * Rabs (B2R f))) in Q by nra.
  assert (eta <= u * u * M).
  { apply Rle_trans with (u * u * b2 (-900)); [rewrite <- !bpow_plus; apply bpow_le; lia|]. apply Rmult_le_compat_l; [nra|exact LM]. }
  assert (X : k * u * W <= B2R (pe p) * Rabs (B2R f)) by (unfold W; rewrite Rabs_mult, <- Rmult_assoc; apply Rmult_le_compat_r; [exact F0|exact H]).
  assert (W1 : M * (1 - u) <= W).
  { rewrite NM. assert (W0 : 0 <= W) by (unfold W; apply Rabs_pos). clear - U D W0. assert ((1 + d) * (1 - u) <= 1) by nra.
    replace (W * (1 + d) * (1 - u)) with (W * ((1 + d) * (1 - u))) by ring. rewrite <- (Rmult_1_r W) at 2. apply Rmult_le_compat_l; lra. }
  set (q := rnd (B2R (pe p) * Rabs (B2R f))) in *. set (x := B2R (pe p) * Rabs (B2R f)) in *. set (e := B2R (pe (mulP p f))) in *.
  set (t := B2R (term (pn (mulP p f)))) in *. set (p0 := B2R (pe p)) in *.
  assert (A1 : k * u * (M * (1 - u)) <= x).
  { eapply Rle_trans; [|exact X]. apply Rmult_le_compat_l; [nra|auto]. }
  assert (UM : 0 <= u * M) by nra.
  assert (A2 : (k - 1 / 5000) * (u * M) <= q).
  { assert (G1 : q >= x * (1 - u) - u * (u * M)) by lra. assert (G2 : x * (1 - u) >= k * (u * M) * ((1 - u) * (1 - u))).
    { replace (k * (u * M) * ((1 - u) * (1 - u))) with ((k * u * (M * (1 - u))) * (1 - u)) by ring. apply Rle_ge. apply Rmult_le_compat_r; lra. }
    assert (G3 : k * (u * M) * ((1 - u) * (1 - u)) >= k * (u * M) * (1 - 2 * u)) by (assert (0 <= k * (u * M)) by nra; nra).
    assert (G4 : k * (u * M) * (2 * u) <= 20 * u * (u * M)) by (assert (0 <= u * (u * M)) by nra; nra). nra. }
  assert (A3 : (2 + k - 1 / 5000) * (u * M) <= p0 + t + q) by lra.
  eapply Rle_trans; [|exact E]. apply Rle_trans with ((1 - 2 * u) * ((2 + k - 1 / 5000) * (u * M))); [|apply Rmult_le_compat_l; lra].
  replace ((2 + k - 1 / 1000) * u * M) with ((2 + k - 1 / 1000) * (u * M)) by ring.
  replace ((1 - 2 * u) * ((2 + k - 1 / 5000) * (u * M))) with (((1 - 2 * u) * (2 + k - 1 / 5000)) * (u * M)) by ring.
  apply Rmult_le_compat_r; [auto|]. nra.
Qed.
Lemma mulP_pos p f : fin (pn (mulP p f)) = true -> fin (pe (mulP p f)) = true -> 0 <= B2R (pe p) -> 0 <= B2R (pe (mulP p f)).
Proof.
  intros F1 F2 P. destruct (mulP_fin p f F1 F2) as (_ & _ & _ & Ft & _ & E). specialize (E P). destruct (term_spec _ Ft) as (T & _).
  assert (0 <= rnd (B2R (pe p) * Rabs (B2R f))) by (rewrite <- rnd_0; apply rnd_le; pose proof (Rabs_pos (B2R f)); nra).
  pose proof u_small. eapply Rle_trans; [|exact E]. apply Rmult_le_pos; lra.
Qed.
(* two factors *)
Lemma prod2_ok (x y : f64) : (B2R x * B2R y = 0 \/ b2 (-1020) <= Rabs (B2R x * B2R y)) -> okp (7 / 10) (mulP (newPred x) y) (B2R x * B2R y).
Proof.
  intros H F1 F2. pose proof (mulP_pos _ _ F1 F2 ltac:(cbn; lra)) as P. split; auto.
  destruct (mulP_fin _ _ F1 F2) as (_ & _ & _ & Ft & N & E). specialize (E ltac:(cbn; lra)).
  cbn [newPred pn pe] in N, E. change (B2R fzero) with 0 in E. rewrite Rmult_0_l, rnd_0 in E. pose proof u_small as U.
  destruct (term_spec _ Ft) as (T0 & T & _).
  destruct H as [H|H].
  - rewrite N, H, rnd_0, Rminus_diag_eq, Rabs_R0 by auto. clear - P. lra.
  - assert (L2 : b2 (-1022) <= Rabs (B2R x * B2R y)) by (eapply Rle_trans; [|exact H]; apply bpow_le; lia).
    pose proof (rel_rnd 0 _ _ ltac:(lra) (rel_refl (B2R x * B2R y)) L2) as R. rewrite <- N in R.
    pose proof (rel_err (0 + 1 + 1 / 100) _ _ ltac:(lra) R) as Er.
    assert (LM : b2 (-1021) <= Rabs (B2R (pn (mulP (newPred x) y)))).
    { destruct R as (d & D & ->). apply ab in D. rewrite Rabs_mult, (Rabs_pos_eq (1 + d)) by lra.
      apply Rle_trans with (b2 (-1020) * / 2).
      - change (/ 2) with (b2 (-1)). rewrite <- bpow_plus. apply bpow_le. lia.
      - apply Rmult_le_compat; [apply bpow_ge_0|lra|exact H|lra]. }
    specialize (T LM). eapply Rle_trans; [exact Er|].
    set (M := Rabs (B2R (pn (mulP (newPred x) y)))) in *. set (t := B2R (term (pn (mulP (newPred x) y)))) in *.
    clear - T T0 E U. nra.
Qed.

(* ---- bounds are never negative; a definite answer comes from finite numbers ---- *)
Definition nonneg (e : f64) : Prop := is_nan e = false -> 0 <= vr e.
Lemma nonneg_cases e : nonneg e -> is_nan e = true \/ e = finf \/ (fin e = true /\ 0 <= B2R e).
Proof.
  intros H. destruct (fin e) eqn:F; [right; right; split; auto; rewrite <- (vr_finite e F); apply H; apply fin_nan; auto|].
  destruct e as [s|s| |s m x h]; try discriminate; auto.
  specialize (H eq_refl). pose proof big_pos. destruct s; cbn [vr] in H; [lra|auto].
Qed.
Lemma nonneg_fin e : fin e = true -> 0 <= B2R e -> nonneg e.
Proof. intros F P _. rewrite vr_finite; auto. Qed.
Lemma cl_nonneg a : 0 <= a -> 0 <= cl a.
Proof. intros H. replace 0 with (cl 0); [apply cl_mono; auto|]. rewrite cl_small; rewrite rnd_0; auto. rewrite Rabs_R0. apply big_pos. Qed.
Lemma nonneg_inf : nonneg finf. Proof. intros _. unfold finf. cbn [vr]. pose proof big_pos. lra. Qed.
Lemma nonneg_nan e : is_nan e = true -> nonneg e. Proof. intros H G. congruence. Qed.
Lemma fadd_nonneg a b : nonneg a -> nonneg b -> nonneg (fadd a b).
Proof.
  intros A B. destruct (nonneg_cases a A) as [Na|[->|[Fa Pa]]].
  - apply nonneg_nan. destruct a; try discriminate. destruct b; reflexivity.
  - destruct (nonneg_cases b B) as [Nb|[->|[Fb Pb]]]; [apply nonneg_nan; destruct b; try discriminate; reflexivity|apply nonneg_inf|].
    destruct b; try discriminate; apply nonneg_inf.
  - destruct (nonneg_cases b B) as [Nb|[->|[Fb Pb]]].
    + apply nonneg_nan. destruct b; try discriminate. destruct a; reflexivity.
    + destruct a; try discriminate; apply nonneg_inf.
    + intros _. rewrite (proj2 (fadd_vr a b Fa Fb)). apply cl_nonneg. lra.
Qed.
Lemma fabs_nonneg n : nonneg (fabs n).
Proof. destruct n as [s|s| |s m e h]; try (apply nonneg_nan; reflexivity); try apply nonneg_inf; intros _; unfold fabs; rewrite vr_finite by reflexivity; rewrite B2R_Babs; apply Rabs_pos. Qed.
Lemma fmul_nonneg a b : nonneg a -> nonneg b -> nonneg (fmul a b).
Proof.
  intros A B. destruct (nonneg_cases a A) as [Na|[->|[Fa Pa]]].
  - apply nonneg_nan. destruct a; try discriminate. destruct b; reflexivity.
  - destruct (nonneg_cases b B) as [Nb|[->|[Fb Pb]]]; [apply nonneg_nan; destruct b; try discriminate; reflexivity|apply nonneg_inf|].
    destruct b as [s|s| |s m e h]; try discriminate. destruct s; [|apply nonneg_inf].
    exfalso. pose proof (sgn_le0 _ (eq_refl : Bsign (B754_finite true m e h : f64) = true)) as G.
    assert (Z0 : B2R (B754_finite true m e h : f64) = 0) by lra. cbn in Z0. apply eq_0_F2R in Z0. discriminate.
  - destruct (nonneg_cases b B) as [Nb|[->|[Fb Pb]]].
    + apply nonneg_nan. destruct b; try discriminate. destruct a; reflexivity.
    + destruct a as [s|s| |s m e h]; try discriminate. destruct s; [|apply nonneg_inf].
      exfalso. pose proof (sgn_le0 _ (eq_refl : Bsign (B754_finite true m e h : f64) = true)) as G.
      assert (Z0 : B2R (B754_finite true m e h : f64) = 0) by lra. cbn in Z0. apply eq_0_F2R in Z0. discriminate.
    + intros _. rewrite (proj2 (fmul_vr a b Fa Fb)). apply cl_nonneg. nra.
Qed.
Lemma term_nonneg n : nonneg (term n).
Proof.
  unfold term. destruct (feq n fzero).
  - apply nonneg_fin; [reflexivity|]. rewrite Bs. apply bpow_ge_0.
  - assert (M : nonneg (fmul macheps (fabs n))).
    { apply fmul_nonneg; [apply nonneg_fin; [reflexivity|rewrite Bm; pose proof u_small; lra]|apply fabs_nonneg]. }
    destruct (nonneg_cases _ M) as [N|[->|[F P]]].
    + apply nonneg_nan. destruct (fmul macheps (fabs n)); try discriminate. reflexivity.
    + apply nonneg_inf.
    + intros _. rewrite (proj2 (fdiv_vr (fmul macheps (fabs n)) one_macheps F eq_refl ltac:(rewrite Bo; pose proof u_small; lra))).
      apply cl_nonneg. rewrite Bo. pose proof u_small. unfold Rdiv. apply Rmult_le_pos; [auto|]. left. apply Rinv_0_lt_compat. lra.
Qed.
Definition npred (p : pred) : Prop := nonneg (pe p).
Lemma new_n x : npred (newPred x). Proof. apply nonneg_fin; [reflexivity|]. cbn. lra. Qed.
Lemma addP_n a b : npred a -> npred b -> npred (addP a b).
Proof. intros A B. apply fadd_nonneg; auto. apply fadd_nonneg; auto. apply term_nonneg. Qed.
Lemma subP_n a b : npred a -> npred b -> npred (subP a b).
Proof. intros A B. apply fadd_nonneg; auto. apply fadd_nonneg; auto. apply term_nonneg. Qed.
Lemma mulP_n p f : npred p -> npred (mulP p f).
Proof. intros A. apply fadd_nonneg; auto. apply fadd_nonneg; [apply term_nonneg|]. apply fmul_nonneg; auto. apply fabs_nonneg. Qed.
Lemma definite_fin p : npred p -> (fin (pe p) = true -> fin (pn p) = true) ->
  (fgt (pn p) (pe p) = true -> fin (pn p) = true /\ fin (pe p) = true /\ B2R (pe p) < B2R (pn p)) /\
  (flt (pn p) (Bopp (pe p)) = true -> fin (pn p) = true /\ fin (pe p) = true /\ B2R (pn p) < - B2R (pe p)).
Proof.
  intros P F. unfold fgt, flt. split; intros H.
  - destruct (nonneg_cases _ P) as [N|[E|[Fe _]]].
    + destruct (pe p); discriminate.
    + rewrite E in H. destruct (pn p) as [|[]| |[]]; discriminate.
    + specialize (F Fe). split; [auto|]. split; [auto|].
      change (flt (pe p) (pn p) = true) in H. apply flt_vr in H; [|apply fin_nan; auto|apply fin_nan; auto]. rewrite !vr_finite in H; auto.
  - destruct (nonneg_cases _ P) as [N|[E|[Fe _]]].
    + destruct (pe p); try discriminate. destruct (pn p) as [|[]| |[]]; discriminate.
    + rewrite E in H. destruct (pn p) as [|[]| |[]]; discriminate.
    + specialize (F Fe). split; [auto|]. split; [auto|].
      assert (Fo : fin (Bopp (pe p)) = true) by (rewrite is_finite_Bopp; auto).
      change (flt (pn p) (Bopp (pe p)) = true) in H. apply flt_vr in H; [|apply fin_nan; auto|apply fin_nan; auto].
      rewrite !vr_finite, B2R_Bopp in H; auto.
Qed.
Lemma addP_fin a b : fin (pe (addP a b)) = true -> fin (pn (addP a b)) = true.
Proof. intros H. destruct (bound_fin _ _ _ H) as (_ & T & _). apply term_fin in T. exact T. Qed.
Lemma subP_fin a b : fin (pe (subP a b)) = true -> fin (pn (subP a b)) = true.
Proof. intros H. destruct (bound_fin _ _ _ H) as (_ & T & _). apply term_fin in T. exact T. Qed.
Lemma definite_ok c p v : c <= 1 -> okp c p v -> npred p -> (fin (pe p) = true -> fin (pn p) = true) ->
  (fgt (pn p) (pe p) = true -> 0 < v) /\ (flt (pn p) (Bopp (pe p)) = true -> v < 0).
Proof.
  intros C O P F. destruct (definite_fin p P F) as [A B]. split; intros H.
  - destruct (A H) as (F1 & F2 & L). destruct (O F1 F2) as [Q E]. apply ab in E. nra.
  - destruct (B H) as (F1 & F2 & L). destruct (O F1 F2) as [Q E]. apply ab in E. nra.
Qed.

(* ---- four factors ---- *)
Definition ent (k : R) (g : Z) (m : f64) (w : R) : Prop := fin m = true -> (B2R m = 0 /\ w = 0) \/ (rel k (B2R m) w /\ b2 (- g) <= Rabs (B2R m)).
Lemma low_mul a b x y : b2 (- a) <= Rabs x -> b2 (- b) <= Rabs y -> b2 (- (a + b)) <= Rabs (x * y).
Proof. intros A B. rewrite Rabs_mult. replace (- (a + b))%Z with (- a + - b)%Z by lia. rewrite bpow_plus. apply Rmult_le_compat; auto; apply bpow_ge_0. Qed.
Lemma low_rnd a z : (a <= 1074)%Z -> b2 (- a) <= Rabs z -> b2 (- a) <= Rabs (rnd z).
Proof.
  intros A H. apply abs_round_ge_generic; [apply FLT_exp_valid; red; lia|apply valid_rnd_N| |auto]. apply generic_format_bpow. unfold FLT_exp. lia.
Qed.
Lemma prod4_ok m0 m1 m2 m3 w0 w1 w2 w3 k0 k1 k2 k3 g0 g1 g2 g3 :
  ent k0 g0 m0 w0 -> ent k1 g1 m1 w1 -> ent k2 g2 m2 w2 -> ent k3 g3 m3 w3 ->
  0 <= k0 -> 0 <= k1 -> 0 <= k2 -> 0 <= k3 -> k0 + k1 + k2 + k3 <= 21 / 10 ->
  (0 <= g0)%Z -> (0 <= g1)%Z -> (0 <= g2)%Z -> (0 <= g3)%Z -> (g0 + g1 + g2 + g3 <= 899)%Z ->
  okp (9 / 10) (mulP (mulP (mulP (newPred m0) m1) m2) m3) (w0 * w1 * w2 * w3).
Proof.
  intros E0 E1 E2 E3 K0 K1 K2 K3 K G0 G1 G2 G3 G F1 F2.
  set (p1 := mulP (newPred m0) m1) in *. set (p2 := mulP p1 m2) in *. set (p3 := mulP p2 m3) in *.
  destruct (mulP_fin p2 m3 F1 F2) as (N2 & B2' & M3 & _ & R3 & _).
  destruct (mulP_fin p1 m2 N2 B2') as (N1 & B1 & M2 & _ & R2 & _).
  destruct (mulP_fin (newPred m0) m1 N1 B1) as (M0 & B0 & M1 & _ & R1 & _).
  fold p1 in R1. fold p2 in R2. fold p3 in R3. cbn [newPred pn] in R1, M0. specialize (E0 M0). specialize (E1 M1). specialize (E2 M2). specialize (E3 M3).
  pose proof (mulP_pos (newPred m0) m1 N1 B1 ltac:(cbn; lra)) as P1. pose proof (mulP_pos p1 m2 N2 B2' P1) as P2.
  pose proof (mulP_pos p2 m3 F1 F2 P2) as P3. fold p3 in P3. split; auto.
  assert (ZC : B2R (pn p3) = 0 -> w0 * w1 * w2 * w3 = 0 -> Rabs (B2R (pn p3) - w0 * w1 * w2 * w3) <= 9 / 10 * B2R (pe p3)).
  { intros -> ->. rewrite Rminus_diag_eq, Rabs_R0 by auto. lra. }
  destruct E0 as [[Z0 ->]|[S0 L0]].
  { apply ZC; [|ring]. rewrite R3, R2, R1, Z0, Rmult_0_l, rnd_0, Rmult_0_l, rnd_0, Rmult_0_l, rnd_0. auto. }
  destruct E1 as [[Z1 ->]|[S1 L1]].
  { apply ZC; [|ring]. rewrite R3, R2, R1, Z1, Rmult_0_r, rnd_0, Rmult_0_l, rnd_0, Rmult_0_l, rnd_0. auto. }
  destruct E2 as [[Z2 ->]|[S2 L2]].
  { apply ZC; [|ring]. rewrite R3, R2, Z2, Rmult_0_r, rnd_0, Rmult_0_l, rnd_0. auto. }
  destruct E3 as [[Z3 ->]|[S3 L3]].
  { apply ZC; [|ring]. rewrite R3, Z3, Rmult_0_r, rnd_0. auto. }
  clear ZC. pose proof (low_mul _ _ _ _ L0 L1) as Q1. pose proof (low_rnd (g0 + g1) _ ltac:(lia) Q1) as Q1'. rewrite <- R1 in Q1'.
  pose proof (low_mul _ _ _ _ Q1' L2) as Q2. pose proof (low_rnd (g0 + g1 + g2) _ ltac:(lia) Q2) as Q2'. rewrite <- R2 in Q2'.
  pose proof (low_mul _ _ _ _ Q2' L3) as Q3.
  assert (lo : forall z g, (g <= 899)%Z -> b2 (- g) <= z -> b2 (-899) <= z) by (intros z g Hg Hz; eapply Rle_trans; [|exact Hz]; apply bpow_le; lia).
  assert (lo' : forall z g, (g <= 899)%Z -> b2 (- g) <= z -> b2 (-1022) <= z) by (intros z g Hg Hz; eapply Rle_trans; [|exact Hz]; apply bpow_le; lia).
  pose proof (rel_mul k0 k1 _ _ _ _ ltac:(lra) ltac:(lra) S0 S1) as T1.
  apply rel_rnd in T1; [|lra|eapply lo'; [|exact Q1]; lia]. rewrite <- R1 in T1.
  pose proof (rel_mul (k0 + k1 + 1 / 100 + 1 + 1 / 100) k2 _ _ _ _ ltac:(lra) ltac:(lra) T1 S2) as T2.
  apply rel_rnd in T2; [|lra|eapply lo'; [|exact Q2]; lia]. rewrite <- R2 in T2.
  pose proof (rel_mul (k0 + k1 + 1 / 100 + 1 + 1 / 100 + k2 + 1 / 100 + 1 + 1 / 100) k3 _ _ _ _ ltac:(lra) ltac:(lra) T2 S3) as T3.
  apply rel_rnd in T3; [|lra|eapply lo'; [|exact Q3]; lia]. rewrite <- R3 in T3.
  eapply rel_err in T3; [|lra]. eapply Rle_trans; [exact T3|].
  pose proof (mulP_lower 0 (newPred m0) m1 ltac:(lra) N1 B1 ltac:(cbn; lra) ltac:(cbn [newPred pn pe]; change (B2R fzero) with 0; lra) (lo _ (g0 + g1)%Z ltac:(lia) Q1)) as X1.
  fold p1 in X1.
  pose proof (mulP_lower (2 + 0 - 1 / 1000) p1 m2 ltac:(lra) N2 B2' P1 X1 (lo _ (g0 + g1 + g2)%Z ltac:(lia) Q2)) as X2. fold p2 in X2.
  pose proof (mulP_lower (2 + (2 + 0 - 1 / 1000) - 1 / 1000) p2 m3 ltac:(lra) F1 F2 P2 X2 (lo _ (g0 + g1 + g2 + g3)%Z ltac:(lia) Q3)) as X3. fold p3 in X3.
  pose proof (Rabs_pos (B2R (pn p3))) as AP. pose proof u_small as U. set (M := Rabs (B2R (pn p3))) in *.
  assert (UM : 0 <= u * M) by nra.
  apply Rle_trans with (53 / 10 * (u * M)); [rewrite Rmult_assoc; apply Rmult_le_compat_r; lra|].
  apply Rle_trans with (9 / 10 * (599 / 100 * (u * M))); [lra|]. apply Rmult_le_compat_l; [lra|].
  eapply Rle_trans; [|exact X3]. rewrite Rmult_assoc. apply Rmult_le_compat_r; lra.
Qed.
Lemma rel_of_err k z v : v <> 0 -> Rabs (z - v) <= k * u * Rabs v -> rel k z v.
Proof.
  intros V H. exists ((z - v) / v). split; [|field; auto]. unfold Rdiv. rewrite Rabs_mult, Rabs_inv.
  apply Rmult_le_reg_r with (Rabs v); [apply Rabs_pos_lt; auto|]. rewrite Rmult_assoc, Rinv_l, Rmult_1_r; auto. apply Rabs_no_R0. auto.
Qed.
(* the sum of the squares *)
Lemma sq_ent (x y : f64) : (B2R x = 0 \/ b2 (-200) <= Rabs (B2R x)) -> (B2R y = 0 \/ b2 (-200) <= Rabs (B2R y)) ->
  ent (201 / 100) 400 (fadd (fmul x x) (fmul y y)) (B2R x * B2R x + B2R y * B2R y).
Proof.
  intros X Y F. destruct (fadd_fin _ _ F) as (Fx & Fy & E). destruct (fmul_fin _ _ Fx) as (_ & _ & Ex). destruct (fmul_fin _ _ Fy) as (_ & _ & Ey).
  assert (SQ : forall z : f64, (B2R z = 0 \/ b2 (-200) <= Rabs (B2R z)) -> fin (fmul z z) = true ->
    (B2R z = 0 /\ rnd (B2R z * B2R z) = 0) \/ (b2 (-400) <= rnd (B2R z * B2R z) /\ b2 (-400) <= B2R z * B2R z /\ Rabs (rnd (B2R z * B2R z) - B2R z * B2R z) <= u * (B2R z * B2R z))).
  { intros z H Fz. destruct H as [H|H]; [left; rewrite H, Rmult_0_l, rnd_0; auto|right].
    pose proof (low_mul 200 200 _ _ H H) as L. change (- (200 + 200))%Z with (-400)%Z in L.
    assert (Z2 : 0 <= B2R z * B2R z) by nra. rewrite Rabs_pos_eq in L by auto. split; [|split; auto].
    - assert (Q : b2 (- (400)) <= Rabs (rnd (B2R z * B2R z))) by (apply low_rnd; [lia|rewrite Rabs_pos_eq; auto]).
      rewrite Rabs_pos_eq in Q; [exact Q|]. rewrite <- rnd_0. apply rnd_le. auto.
    - destruct (rnd_rel (B2R z * B2R z)) as (d & D & ->); [rewrite Rabs_pos_eq by auto; eapply Rle_trans; [|exact L]; apply bpow_le; lia|].
      replace (B2R z * B2R z * (1 + d) - B2R z * B2R z) with ((B2R z * B2R z) * d) by ring. rewrite Rabs_mult, Rabs_pos_eq by auto. nra. }
  pose proof (bpow_gt_0 radix2 (-400)) as BP. pose proof u_small as U.
  assert (Dn : forall a b : R, b2 (-400) <= a + b -> rel 1 (a + b) (B2R x * B2R x + B2R y * B2R y) -> B2R (fmul x x) = a -> B2R (fmul y y) = b ->
    rel (201 / 100) (B2R (fadd (fmul x x) (fmul y y))) (B2R x * B2R x + B2R y * B2R y) /\ b2 (- (400)) <= Rabs (B2R (fadd (fmul x x) (fmul y y)))).
  { intros a b L R Ea Eb. rewrite E, Ea, Eb. split.
    - eapply rel_weaken; [|apply (rel_rnd 1); [lra|exact R|]]; [lra|]. rewrite Rabs_pos_eq by lra. eapply Rle_trans; [|exact L]. apply bpow_le. lia.
    - apply low_rnd; [lia|]. rewrite Rabs_pos_eq by lra. exact L. }
  destruct (SQ x X Fx) as [[X0 X1]|(X1 & X2 & X3)], (SQ y Y Fy) as [[Y0 Y1]|(Y1 & Y2 & Y3)].
  - left. rewrite E, Ex, Ey, X1, Y1, X0, Y0. rewrite Rplus_0_l, rnd_0. split; [auto|ring].
  - right. apply (Dn 0 (rnd (B2R y * B2R y))); [rewrite Rplus_0_l; lra| |rewrite Ex, X1; auto|auto].
    rewrite X0, Rmult_0_l, !Rplus_0_l. apply rel_of_err; [lra|]. rewrite (Rabs_pos_eq (B2R y * B2R y)) by lra. lra.
  - right. apply (Dn (rnd (B2R x * B2R x)) 0); [rewrite Rplus_0_r; lra| |auto|rewrite Ey, Y1; auto].
    rewrite Y0, Rmult_0_l, !Rplus_0_r. apply rel_of_err; [lra|]. rewrite (Rabs_pos_eq (B2R x * B2R x)) by lra. lra.
  - right. apply (Dn (rnd (B2R x * B2R x)) (rnd (B2R y * B2R y))); [lra| |auto|auto].
    apply rel_of_err; [lra|]. rewrite (Rabs_pos_eq (B2R x * B2R x + B2R y * B2R y)) by lra.
    apply ab in X3. apply ab in Y3. apply ab. lra.
Qed.
Lemma co_ent (x : f64) : (B2R x = 0 \/ b2 (-200) <= Rabs (B2R x)) -> ent 0 200 x (B2R x).
Proof. intros [H|H] _; [left; auto|right; split; [apply rel_refl|exact H]]. Qed.
Lemma one_ent : ent 0 0 f1 1.
Proof. intros _. right. split; [exists 0; rewrite Rabs_R0; split; [lra|]|]; replace (B2R f1) with 1 by (cbn; unfold F2R; cbn; lra); [ring|]. rewrite Rabs_R1. cbn. lra. Qed.

(* ---- the determinants ---- *)
Lemma det_circle x1 y1 x2 y2 x3 y3 x y s1 s2 s3 cx cy k : s1 = 2 * cx * x1 + 2 * cy * y1 + k -> s2 = 2 * cx * x2 + 2 * cy * y2 + k ->
  s3 = 2 * cx * x3 + 2 * cy * y3 + k ->
  (1 * s2 * y3 * x - s1 * 1 * y3 * x) + (y1 * 1 * s3 * x - 1 * y2 * s3 * x) + (s1 * y2 * 1 * x - y1 * s2 * 1 * x)
  + (s1 * 1 * x3 * y - 1 * s2 * x3 * y) + (1 * x2 * s3 * y - x1 * 1 * s3 * y) + (x1 * s2 * 1 * y - s1 * x2 * 1 * y)
  + (1 * y2 * x3 * (x * x + y * y) - y1 * 1 * x3 * (x * x + y * y)) + (x1 * 1 * y3 * (x * x + y * y) - 1 * x2 * y3 * (x * x + y * y))
  + (y1 * x2 * 1 * (x * x + y * y) - x1 * y2 * 1 * (x * x + y * y))
  + (y1 * s2 * x3 * 1 - s1 * y2 * x3 * 1) + (s1 * x2 * y3 * 1 - x1 * s2 * y3 * 1) + (x1 * y2 * s3 * 1 - y1 * x2 * s3 * 1)
  = ((x2 - x1) * (y3 - y1) - (y2 - y1) * (x3 - x1)) * (k + 2 * cx * x + 2 * cy * y - (x * x + y * y)).
Proof. intros -> -> ->. ring. Qed.

(* ---- how large the bound gets: a filter that always hesitates would be useless ---- *)
Definition upp (A E : R) (p : pred) : Prop :=
  fin (pn p) = true /\ fin (pe p) = true /\ Rabs (B2R (pn p)) <= A /\ 0 <= B2R (pe p) <= E.
Lemma fin_rnd (z : f64) a : is_nan z = false -> vr z = cl a -> Rabs a <= b2 1000 -> fin z = true /\ B2R z = rnd a.
Proof.
  intros N V L. apply vr_cl_finite; auto. apply Rle_lt_trans with (b2 1000); [|apply bpow_lt; lia].
  apply abs_round_le_generic; [apply FLT_exp_valid; red; lia|apply valid_rnd_N| |auto]. apply generic_format_bpow. unfold FLT_exp. lia.
Qed.
Lemma b2_big : 1000000 * b2 800 <= b2 900 /\ 1000000 * b2 900 <= b2 1000.
Proof.
  assert (H : 1000000 <= b2 20) by (change (b2 20) with 1048576; lra). split.
  - apply Rle_trans with (b2 20 * b2 800); [apply Rmult_le_compat_r; [apply bpow_ge_0|auto]|]. rewrite <- bpow_plus. apply bpow_le. lia.
  - apply Rle_trans with (b2 20 * b2 900); [apply Rmult_le_compat_r; [apply bpow_ge_0|auto]|]. rewrite <- bpow_plus. apply bpow_le. lia.
Qed.
Lemma eta_le1 : eta <= 1. Proof. change 1 with (b2 0). apply bpow_le. lia. Qed.
Lemma b900_ge1 : 1 <= b2 900. Proof. change 1 with (b2 0). apply bpow_le. lia. Qed.
Lemma term_upp (n : f64) A : fin n = true -> Rabs (B2R n) <= A -> A <= b2 900 -> fin (term n) = true /\ 0 <= B2R (term n) <= 5 / 2 * u * A + 4 * eta.
Proof.
  intros Fn NA AB. pose proof u_small as U. pose proof eta_pos as EP. pose proof b2_big as [_ BB]. pose proof eta_le1 as E1. pose proof b900_ge1 as B1.
  pose proof (Rabs_pos (B2R n)) as RP. assert (A0 : 0 <= A) by lra. assert (UA : 0 <= u * A <= A) by nra.
  assert (Ft : fin (term n) = true /\ B2R (term n) <= 5 / 2 * u * A + 4 * eta).
  { unfold term. destruct (feq n fzero).
    - split; [reflexivity|]. rewrite Bs. replace (b2 (-1074)) with (2 * eta) by (change 2 with (b2 1); rewrite <- bpow_plus; reflexivity). lra.
    - destruct (fmul_vr macheps (fabs n) eq_refl ltac:(unfold fabs; rewrite is_finite_Babs; auto)) as [N1 V1].
      unfold fabs in V1. rewrite B2R_Babs, Bm in V1. assert (UN : 0 <= u * Rabs (B2R n) <= u * A) by (split; [nra|apply Rmult_le_compat_l; lra]).
      destruct (fin_rnd _ _ N1 V1) as [F1 R1]; [rewrite Rabs_pos_eq by lra; lra|].
      set (m := fmul macheps (fabs n)) in *. change (fmul macheps (Babs n)) with m in R1.
      pose proof (rnd_err (2 * u * Rabs (B2R n))) as X1. apply ab in X1. rewrite (Rabs_pos_eq (2 * u * Rabs (B2R n))) in X1 by lra. rewrite <- R1 in X1.
      assert (M0 : 0 <= B2R m) by (rewrite R1, <- rnd_0; apply rnd_le; lra).
      assert (M1 : B2R m <= 21 / 10 * (u * A) + eta). { assert (u * (2 * u * Rabs (B2R n)) <= 1 / 10 * (u * A)) by nra. lra. }
      destruct (fdiv_vr m one_macheps F1 eq_refl ltac:(rewrite Bo; lra)) as [N2 V2]. rewrite Bo in V2.
      assert (Q : 0 <= B2R m / (1 - 2 * u) <= 101 / 100 * B2R m).
      { split; [apply Rmult_le_pos; [auto|left; apply Rinv_0_lt_compat; lra]|]. apply Rmult_le_reg_r with (1 - 2 * u); [lra|].
        unfold Rdiv. rewrite Rmult_assoc, Rinv_l by lra. nra. }
      destruct (fin_rnd _ _ N2 V2) as [F2 R2]; [rewrite Rabs_pos_eq by lra; lra|]. split; auto. rewrite R2.
      pose proof (rnd_err (B2R m / (1 - 2 * u))) as X2. apply ab in X2. rewrite (Rabs_pos_eq (B2R m / (1 - 2 * u))) in X2 by lra.
      assert (u * (B2R m / (1 - 2 * u)) <= 1 / 100 * (B2R m)) by nra. lra. }
  destruct Ft as [F T]. split; auto. split; auto. apply term_spec. auto.
Qed.
Lemma sum_upp (x y : f64) A : fin x = true -> fin y = true -> Rabs (B2R x) + Rabs (B2R y) <= A -> A <= b2 900 ->
  fin (fadd x y) = true /\ Rabs (B2R (fadd x y)) <= 1001 / 1000 * A /\ B2R (fadd x y) = rnd (B2R x + B2R y).
Proof.
  intros Fx Fy H L. destruct (fadd_vr x y Fx Fy) as [N V]. pose proof (Rabs_triang (B2R x) (B2R y)) as T. pose proof b2_big as [_ BB]. pose proof b900_ge1.
  destruct (fin_rnd _ _ N V) as [F R]; [lra|]. split; auto. split; auto. rewrite R. pose proof (rnd_plus_err x y) as E. pose proof u_small.
  assert (G : Rabs (rnd (B2R x + B2R y)) <= Rabs (rnd (B2R x + B2R y) - (B2R x + B2R y)) + Rabs (B2R x + B2R y)).
  { replace (rnd (B2R x + B2R y)) with ((rnd (B2R x + B2R y) - (B2R x + B2R y)) + (B2R x + B2R y)) at 1 by ring. apply Rabs_triang. }
  pose proof (Rabs_pos (B2R x + B2R y)). assert (u * Rabs (B2R x + B2R y) <= 1 / 1000 * A) by nra. lra.
Qed.
Lemma bound_upp (e t f : f64) E T F : fin e = true -> fin t = true -> fin f = true -> 0 <= B2R e <= E -> 0 <= B2R t <= T -> 0 <= B2R f <= F ->
  E + T + F <= / 2 * b2 900 -> fin (fadd e (fadd t f)) = true /\ 0 <= B2R (fadd e (fadd t f)) <= 1003 / 1000 * (E + T + F).
Proof.
  intros Fe Ft Ff He Ht Hf L. pose proof b900_ge1. destruct (sum_upp t f (T + F) Ft Ff) as (F1 & B1 & R1); [rewrite !Rabs_pos_eq by lra; lra|lra|].
  assert (P1 : 0 <= B2R (fadd t f)) by (rewrite R1, <- rnd_0; apply rnd_le; lra). rewrite Rabs_pos_eq in B1 by lra.
  destruct (sum_upp e (fadd t f) (E + 1001 / 1000 * (T + F)) Fe F1) as (F2 & B2' & R2); [rewrite !Rabs_pos_eq by lra; lra|lra|].
  assert (P2 : 0 <= B2R (fadd e (fadd t f))) by (rewrite R2, <- rnd_0; apply rnd_le; lra). rewrite Rabs_pos_eq in B2' by lra.
  split; auto. split; auto. lra.
Qed.
Definition A' (A : R) : R := 1001 / 1000 * A.
Definition E' (A E : R) : R := 1003 / 1000 * (E + (5 / 2 * u * (1001 / 1000 * A) + 4 * eta)).
Lemma addP_upp A1 E1 A2 E2 a b : upp A1 E1 a -> upp A2 E2 b -> A1 + A2 <= / 8 * b2 900 -> E1 + E2 <= / 8 * b2 900 ->
  upp (A' (A1 + A2)) (E' (A1 + A2) (E1 + E2)) (addP a b).
Proof.
  intros (F1 & G1 & H1 & I1) (F2 & G2 & H2 & I2) LA LE. pose proof b900_ge1. pose proof eta_le1. pose proof eta_pos. pose proof u_small.
  pose proof (Rabs_pos (B2R (pn a))). pose proof (Rabs_pos (B2R (pn b))).
  destruct (sum_upp (pn a) (pn b) (A1 + A2) F1 F2) as (F3 & B3 & _); [lra|lra|].
  assert (LA2 : 1001 / 1000 * (A1 + A2) <= b2 900) by lra.
  destruct (term_upp _ _ F3 B3 LA2) as [F4 B4].
  assert (8 <= b2 900) by (apply Rle_trans with (b2 3); [change (b2 3) with 8; lra|apply bpow_le; lia]).
  assert (u * (A1 + A2) <= / 1000000 * (A1 + A2)) by (apply Rmult_le_compat_r; lra).
  assert (big800 : 800 <= b2 900) by (apply Rle_trans with (b2 10); [change (b2 10) with 1024; lra|apply bpow_le; lia]).
  destruct (bound_upp (pe a) (term (fadd (pn a) (pn b))) (pe b) E1 _ E2 G1 F4 G2 I1 B4 I2) as [F5 B5]; [lra|].
  split; [exact F3|]. split; [exact F5|]. split; [exact B3|]. cbn [addP pe]. unfold E'. lra.
Qed.
Lemma subP_upp A1 E1 A2 E2 a b : upp A1 E1 a -> upp A2 E2 b -> A1 + A2 <= / 8 * b2 900 -> E1 + E2 <= / 8 * b2 900 ->
  upp (A' (A1 + A2)) (E' (A1 + A2) (E1 + E2)) (subP a b).
Proof.
  intros (F1 & G1 & H1 & I1) (F2 & G2 & H2 & I2) LA LE. pose proof b900_ge1. pose proof eta_le1. pose proof eta_pos. pose proof u_small. pose proof b2_big as [_ BB].
  pose proof (Rabs_pos (B2R (pn a))). pose proof (Rabs_pos (B2R (pn b))).
  assert (F3B3 : fin (fsub (pn a) (pn b)) = true /\ Rabs (B2R (fsub (pn a) (pn b))) <= 1001 / 1000 * (A1 + A2)).
  { destruct (fsub_vr (pn a) (pn b) F1 F2) as [N V]. assert (T : Rabs (B2R (pn a) - B2R (pn b)) <= A1 + A2).
    { unfold Rminus. eapply Rle_trans; [apply Rabs_triang|]. rewrite Rabs_Ropp. lra. }
    destruct (fin_rnd _ _ N V) as [F R]; [lra|]. split; auto. rewrite R. pose proof (rnd_minus_err (pn a) (pn b)) as E.
    assert (G : Rabs (rnd (B2R (pn a) - B2R (pn b))) <= Rabs (rnd (B2R (pn a) - B2R (pn b)) - (B2R (pn a) - B2R (pn b))) + Rabs (B2R (pn a) - B2R (pn b))).
    { replace (rnd (B2R (pn a) - B2R (pn b))) with ((rnd (B2R (pn a) - B2R (pn b)) - (B2R (pn a) - B2R (pn b))) + (B2R (pn a) - B2R (pn b))) at 1 by ring. apply Rabs_triang. }
    pose proof (Rabs_pos (B2R (pn a) - B2R (pn b))). assert (u * Rabs (B2R (pn a) - B2R (pn b)) <= 1 / 1000 * (A1 + A2)) by nra. lra. }
  destruct F3B3 as [F3 B3]. assert (LA2 : 1001 / 1000 * (A1 + A2) <= b2 900) by lra.
  destruct (term_upp _ _ F3 B3 LA2) as [F4 B4].
  assert (u * (A1 + A2) <= / 1000000 * (A1 + A2)) by (apply Rmult_le_compat_r; lra).
  assert (big800 : 800 <= b2 900) by (apply Rle_trans with (b2 10); [change (b2 10) with 1024; lra|apply bpow_le; lia]).
  destruct (bound_upp (pe a) (term (fsub (pn a) (pn b))) (pe b) E1 _ E2 G1 F4 G2 I1 B4 I2) as [F5 B5]; [lra|].
  split; [exact F3|]. split; [exact F5|]. split; [exact B3|]. cbn [subP pe]. unfold E'. lra.
Qed.
Lemma prod_upp (x y : f64) P : fin x = true -> fin y = true -> Rabs (B2R x * B2R y) <= P -> P <= b2 800 ->
  upp (1001 / 1000 * P + eta) (3 * u * P + 6 * eta) (mulP (newPred x) y).
Proof.
  intros Fx Fy H L. pose proof b900_ge1 as B1. pose proof eta_le1 as E1. pose proof eta_pos as EP. pose proof u_small as U. pose proof b2_big as [BB BB2].
  pose proof (Rabs_pos (B2R x * B2R y)) as RP. destruct (fmul_vr x y Fx Fy) as [N V]. destruct (fin_rnd _ _ N V) as [F R]; [lra|].
  assert (M : Rabs (B2R (fmul x y)) <= 1001 / 1000 * P + eta).
  { rewrite R. pose proof (rnd_err (B2R x * B2R y)) as E.
    assert (G : Rabs (rnd (B2R x * B2R y)) <= Rabs (rnd (B2R x * B2R y) - B2R x * B2R y) + Rabs (B2R x * B2R y)).
    { replace (rnd (B2R x * B2R y)) with ((rnd (B2R x * B2R y) - B2R x * B2R y) + B2R x * B2R y) at 1 by ring. apply Rabs_triang. }
    assert (u * Rabs (B2R x * B2R y) <= 1 / 1000 * P) by nra. lra. }
  assert (big8 : 800 <= b2 900) by (apply Rle_trans with (b2 10); [change (b2 10) with 1024; lra|apply bpow_le; lia]).
  assert (LA : 1001 / 1000 * P + eta <= b2 900) by lra.
  destruct (term_upp _ _ F M LA) as [F4 B4].
  assert (Z1 : fin (fmul fzero (fabs y)) = true /\ B2R (fmul fzero (fabs y)) = 0).
  { assert (Fa : fin (fabs y) = true) by (unfold fabs; rewrite is_finite_Babs; auto). destruct (fmul_vr fzero (fabs y) eq_refl Fa) as [N2 V2].
    change (B2R fzero) with 0 in V2. rewrite Rmult_0_l in V2. destruct (fin_rnd _ _ N2 V2) as [F2 R2]; [rewrite Rabs_R0; lra|]. rewrite R2, rnd_0. auto. }
  destruct Z1 as [Z1 Z2]. assert (UP : 0 <= u * P <= / 1000000 * P) by (split; [nra|apply Rmult_le_compat_r; lra]).
  assert (UE : u * eta <= / 1000000 * eta) by (apply Rmult_le_compat_r; lra).
  destruct (bound_upp fzero (term (fmul x y)) (fmul fzero (fabs y)) 0 _ 0 eq_refl F4 Z1 ltac:(change (B2R fzero) with 0; lra) B4 ltac:(lra)) as [F5 B5]; [lra|].
  split; [exact F|]. split; [exact F5|]. split; [exact M|]. cbn [mulP newPred pe pn]. lra.
Qed.
