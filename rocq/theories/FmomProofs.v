(* Proofs about FmomModel: what the accessors of the five types give, on the physical vectors they stand for. *)
From Coq Require Import Reals ZArith Bool Lra Psatz.
From Flocq Require Import Core.Raux Core.Generic_fmt Core.Round_NE.
From Verif Require Import GoLib FmomModel.
Local Open Scope R_scope.

(* ---- numbers ---- *)
Lemma req_true : forall a b, a = b -> req a b = true.
Proof. intros; unfold req; destruct (Req_EM_T a b); congruence. Qed.
Lemma req_false : forall a b, a <> b -> req a b = false.
Proof. intros; unfold req; destruct (Req_EM_T a b); congruence. Qed.
Lemma rlt_true : forall a b, a < b -> rlt a b = true.
Proof. intros; unfold rlt; destruct (Rlt_dec a b); congruence. Qed.
Lemma rlt_false : forall a b, b <= a -> rlt a b = false.
Proof. intros; unfold rlt; destruct (Rlt_dec a b); [lra | reflexivity]. Qed.
Lemma ndiv_fin : forall x y, y <> 0 -> ndiv (Fin x) (Fin y) = Fin (x / y).
Proof. intros; cbn; rewrite req_false; auto. Qed.
Lemma nsqrt_fin : forall x, 0 <= x -> nsqrt (Fin x) = Fin (sqrt x).
Proof. intros; cbn; rewrite rlt_false; auto. Qed.
Lemma nln_fin : forall x, 0 < x -> nln (Fin x) = Fin (ln x).
Proof. intros; cbn; rewrite rlt_true; auto. Qed.
Lemma nadd_fin : forall x y, nadd (Fin x) (Fin y) = Fin (x + y). Proof. reflexivity. Qed.
Lemma nsub_fin : forall x y, nsub (Fin x) (Fin y) = Fin (x - y). Proof. reflexivity. Qed.
Lemma nmul_fin : forall x y, nmul (Fin x) (Fin y) = Fin (x * y). Proof. reflexivity. Qed.
Lemma nneg_fin : forall x, nneg (Fin x) = Fin (- x). Proof. reflexivity. Qed.
Lemma nabs_fin : forall x, nabs (Fin x) = Fin (Rabs x). Proof. reflexivity. Qed.
Definition sg (e : R) : R := if Rlt_dec e 0 then -1 else 1.
Lemma sign_fin : forall e, sign (Fin e) = Fin (sg e).
Proof. intros; unfold sign, sg; cbn; unfold rlt; destruct (Rlt_dec e 0); reflexivity. Qed.
Lemma neq_fin_true : forall x y, x = y -> neq (Fin x) (Fin y) = true. Proof. intros; apply req_true; auto. Qed.
Lemma neq_fin_false : forall x y, x <> y -> neq (Fin x) (Fin y) = false. Proof. intros; apply req_false; auto. Qed.
Lemma nlt_fin_true : forall x y, x < y -> nlt (Fin x) (Fin y) = true. Proof. intros; apply rlt_true; auto. Qed.
Lemma nlt_fin_false : forall x y, y <= x -> nlt (Fin x) (Fin y) = false. Proof. intros; apply rlt_false; auto. Qed.
Lemma nmin_fin : forall x y, x <= y -> nmin (Fin x) (Fin y) = Fin x.
Proof. intros; unfold nmin; rewrite nlt_fin_false; auto. Qed.
Lemma nmin_fin_gt : forall x y, y < x -> nmin (Fin x) (Fin y) = Fin y.
Proof. intros; unfold nmin; rewrite nlt_fin_true; auto. Qed.

(* ---- hyperbolic functions ---- *)
Lemma cosh_sq : forall t, cosh t * cosh t = 1 + sinh t * sinh t.
Proof.
  intros; unfold cosh, sinh. assert (exp t * exp (- t) = 1) by (rewrite <- exp_plus, Rplus_opp_r; apply exp_0). nra.
Qed.
Lemma cosh_pos : forall t, 0 < cosh t.
Proof. intros; unfold cosh; pose proof (exp_pos t); pose proof (exp_pos (- t)); lra. Qed.
Lemma cosh_ge1 : forall t, 1 <= cosh t.
Proof. intros; pose proof (cosh_sq t); pose proof (cosh_pos t); nra. Qed.
Lemma cosh_abs : forall t, cosh (Rabs t) = cosh t.
Proof.
  intros; unfold Rabs; destruct (Rcase_abs t); [|reflexivity].
  unfold cosh; rewrite Ropp_involutive; lra.
Qed.
Lemma cosh_sqrt : forall t, cosh t = sqrt (1 + sinh t * sinh t).
Proof.
  intros; rewrite <- cosh_sq. rewrite sqrt_square; [reflexivity | left; apply cosh_pos].
Qed.
Lemma half_ln_sq : forall a, 0 < a -> 1 / 2 * ln (a * a) = ln a.
Proof. intros; rewrite ln_mult; auto; lra. Qed.
Lemma sinh_ln : forall a, 0 < a -> sinh (ln a) = (a - / a) / 2.
Proof. intros; unfold sinh; rewrite exp_Ropp, exp_ln; auto. Qed.
Lemma sinh_neg : forall t, sinh (- t) = - sinh t.
Proof. intros; unfold sinh; rewrite Ropp_involutive; lra. Qed.
Lemma sinh_inj : forall a b, sinh a = sinh b -> a = b.
Proof. intros a b H; rewrite <- (arcsinh_sinh a), <- (arcsinh_sinh b), H; reflexivity. Qed.

(* ---- physical vectors ---- *)
Record pv := PV { px : R; py : R; pz : R; en : R }.
Definition trans (v : pv) : R := sqrt (px v * px v + py v * py v).
Definition mag (v : pv) : R := sqrt (px v * px v + py v * py v + pz v * pz v).
(* negative energies: the convention of the package is that the momentum then counts negative *)
Definition pt (v : pv) : R := sg (en v) * trans v.
Definition pp (v : pv) : R := sg (en v) * mag v.
Definition m2 (v : pv) : R := en v * en v - (px v * px v + py v * py v + pz v * pz v).
Definition mass (v : pv) : R := sqrt (m2 v).
Definition eta (v : pv) : R := arcsinh (pz v / pt v).

(* not along the z axis, not spacelike, pseudo-rapidity up to 710 *)
Record good (v : pv) : Prop := Good {
  g_pt : 0 < px v * px v + py v * py v;
  g_m2 : 0 <= m2 v;
  g_eta : Rabs (eta v) <= 710 }.

(* p stands for v: all that can be asked *)
Record faithful (p : p4) (v : pv) : Prop := Faithful {
  f_Px : Px p = Fin (px v); f_Py : Py p = Fin (py v); f_Pz : Pz p = Fin (pz v); f_E : E p = Fin (en v);
  f_M : M p = Fin (mass v); f_M2 : M2 p = Fin (m2 v);
  f_P : P p = Fin (pp v); f_P2 : P2 p = Fin (px v * px v + py v * py v + pz v * pz v);
  f_Eta : Eta p = Fin (eta v);
  f_Rap : Rapidity p = Fin (1 / 2 * ln ((en v + pz v) / (en v - pz v)));
  f_Phi : exists phi, Phi p = Fin phi /\ px v = pt v * cos phi /\ py v = pt v * sin phi;
  f_Et : Et p = Fin (en v * (trans v / mag v));
  f_Pt : Pt p = Fin (pt v); f_IPt : IPt p = Fin (1 / pt v);
  f_CosPhi : CosPhi p = Fin (px v / pt v); f_SinPhi : SinPhi p = Fin (py v / pt v);
  f_CosTh : CosTh p = Fin (pz v / pp v); f_SinTh : SinTh p = Fin (pt v / pp v);
  f_CotTh : CotTh p = Fin (pz v / pt v);
  f_TanTh : pz v <> 0 -> TanTh p = Fin (pt v / pz v) }.

Lemma sg_sq : forall e, sg e * sg e = 1.
Proof. intros; unfold sg; destruct (Rlt_dec e 0); lra. Qed.
Lemma sg_abs : forall e, sg e * Rabs e = e.
Proof.
  intros; unfold sg, Rabs; destruct (Rlt_dec e 0), (Rcase_abs e); lra.
Qed.
Lemma sg_nz : forall e, sg e <> 0.
Proof. intros; unfold sg; destruct (Rlt_dec e 0); lra. Qed.

Section V.
  Variable v : pv.
  Hypothesis G : good v.
  Let x := px v. Let y := py v. Let z := pz v. Let e := en v.
  Let s := sg e. Let q := trans v. Let w := mag v.
  Let Q2 : 0 < x * x + y * y := g_pt v G.
  Lemma q_pos : 0 < q. Proof. apply sqrt_lt_R0; exact Q2. Qed.
  Lemma q_sq : q * q = x * x + y * y. Proof. apply sqrt_def; apply Rlt_le; exact Q2. Qed.
  Lemma w2_pos : 0 < x * x + y * y + z * z. Proof. pose proof Q2; nra. Qed.
  Lemma w_pos : 0 < w. Proof. apply sqrt_lt_R0; apply w2_pos. Qed.
  Lemma w_sq : w * w = x * x + y * y + z * z. Proof. apply sqrt_def; left; apply w2_pos. Qed.
  Lemma e2_ge : w * w <= e * e.
  Proof. pose proof (g_m2 v G) as H; unfold m2 in H; rewrite w_sq; fold x y z e in H; lra. Qed.
  Lemma e_nz : e <> 0. Proof. pose proof e2_ge; pose proof w_pos; nra. Qed.
  Lemma z_lt_w : - w < z < w.
  Proof. pose proof w_sq; pose proof w_pos; pose proof Q2; nra. Qed.
  Lemma abs_e_ge : w <= Rabs e.
  Proof. apply Rsqr_incr_0_var; [|apply Rabs_pos]. rewrite <- Rsqr_abs; unfold Rsqr; apply e2_ge. Qed.
  Lemma pt_nz : pt v <> 0.
  Proof. unfold pt; fold e q; pose proof (sg_nz e); pose proof q_pos; intros K; apply Rmult_integral in K; destruct K; [tauto | lra]. Qed.
  Lemma pp_nz : pp v <> 0.
  Proof. unfold pp; fold e w; pose proof (sg_nz e); pose proof w_pos; intros K; apply Rmult_integral in K; destruct K; [tauto | lra]. Qed.
  Lemma pt_sq : pt v * pt v = x * x + y * y.
  Proof. unfold pt; fold e q; pose proof (sg_sq e); rewrite <- q_sq; nra. Qed.
  Lemma pp_sq : pp v * pp v = x * x + y * y + z * z.
  Proof. unfold pp; fold e w; pose proof (sg_sq e); rewrite <- w_sq; nra. Qed.
  Lemma pt_pp : pt v / pp v = q / w.
  Proof. unfold pt, pp; fold e q w; pose proof (sg_nz e); pose proof w_pos; field; lra. Qed.
  Lemma sinh_eta : sinh (eta v) = z / pt v.
  Proof. apply sinh_arcsinh. Qed.
  Lemma cosh_eta : cosh (eta v) = w / q.
  Proof.
    rewrite cosh_sqrt, sinh_eta. pose proof q_pos; pose proof w_pos.
    replace (1 + z / pt v * (z / pt v)) with ((w / q) * (w / q)).
    - apply sqrt_square. apply Rlt_le, Rdiv_lt_0_compat; assumption.
    - assert (A : z / pt v * (z / pt v) = (z * z) / (pt v * pt v)) by (field; apply pt_nz).
      rewrite A, pt_sq, <- q_sq. replace (w / q * (w / q)) with ((w * w) / (q * q)) by (field; lra).
      rewrite w_sq, <- q_sq. field; lra.
  Qed.
  Lemma tanh_eta : tanh (eta v) = z / pp v.
  Proof.
    unfold tanh; rewrite sinh_eta, cosh_eta; unfold pt, pp; fold e q w.
    pose proof (sg_nz e); pose proof q_pos; pose proof w_pos; field; repeat split; lra.
  Qed.
  Lemma m_sq : mass v * mass v = m2 v. Proof. apply sqrt_def, (g_m2 v G). Qed.
  Lemma m2_eq : m2 v = e * e - w * w. Proof. rewrite w_sq; reflexivity. Qed.
  Lemma p_of_e : mass v <> 0 -> nmul (sign (Fin e)) (nsqrt (Fin (e * e - mass v * mass v))) = Fin (pp v).
  Proof.
    intros _. rewrite m_sq, m2_eq. replace (e * e - (e * e - w * w)) with (w * w) by ring.
    pose proof w_pos. rewrite nsqrt_fin by nra. rewrite sqrt_square by lra. rewrite sign_fin, nmul_fin. reflexivity.
  Qed.
  Lemma p_of_e0 : mass v = 0 -> e = pp v.
  Proof.
    intros H. pose proof m_sq as Hm. rewrite H, m2_eq in Hm.
    unfold pp; fold e w. rewrite <- (sg_abs e) at 1. f_equal.
    pose proof w_pos. apply Rsqr_inj; [apply Rabs_pos | lra |]. rewrite <- Rsqr_abs; unfold Rsqr; lra.
  Qed.
  Lemma rap_arg : 0 < (e + z) / (e - z).
  Proof.
    pose proof z_lt_w; pose proof abs_e_ge. unfold Rabs in *; destruct (Rcase_abs e).
    - replace ((e + z) / (e - z)) with ((- e - z) / (- e + z)) by (field; lra). apply Rdiv_lt_0_compat; lra.
    - apply Rdiv_lt_0_compat; lra.
  Qed.
  Lemma e_z : e - z <> 0. Proof. pose proof z_lt_w; pose proof abs_e_ge; unfold Rabs in *; destruct (Rcase_abs e); lra. Qed.
  Lemma e_z' : e + z <> 0. Proof. pose proof z_lt_w; pose proof abs_e_ge; unfold Rabs in *; destruct (Rcase_abs e); lra. Qed.
  Lemma rap_ok : nmul (Fin (1 / 2)) (nln (ndiv (nadd (Fin e) (Fin z)) (nsub (Fin e) (Fin z)))) = Fin (1 / 2 * ln ((e + z) / (e - z))).
  Proof.
    rewrite nadd_fin, nsub_fin, ndiv_fin by apply e_z. rewrite nln_fin by apply rap_arg. reflexivity.
  Qed.
  Lemma sinth_ok : ndiv (Fin 1) (ncosh (nmin (nabs (Fin (eta v))) (Fin 710))) = Fin (pt v / pp v).
  Proof.
    rewrite nabs_fin, nmin_fin by apply (g_eta v G). cbn [ncosh]. rewrite cosh_abs, cosh_eta, pt_pp.
    pose proof q_pos; pose proof w_pos. rewrite ndiv_fin by (apply Rgt_not_eq, Rdiv_lt_0_compat; lra).
    f_equal; field; lra.
  Qed.
  Lemma tanth_ok : z <> 0 ->
    (let eta := if nlt (Fin 710) (nabs (Fin (eta v))) then (if nlt (Fin 0) (Fin (eta v)) then Fin 710 else Fin (- 710)) else Fin (eta v) in
     ndiv (Fin 1) (nsinh eta)) = Fin (pt v / z).
  Proof.
    intros Hz. rewrite nabs_fin, nlt_fin_false by apply (g_eta v G). cbn [nsinh]. rewrite sinh_eta. pose proof pt_nz.
    rewrite ndiv_fin by (intros A; apply Rmult_integral in A; destruct A as [A|A]; [tauto | apply Rinv_neq_0_compat in H; tauto]).
    f_equal; field; auto.
  Qed.
  Lemma z_pt : pt v * (z / pt v) = z. Proof. field; apply pt_nz. Qed.
  Lemma sqrt_pp : sqrt (pt v * pt v + z * z) = w.
  Proof. rewrite pt_sq. reflexivity. Qed.
  Lemma sg_pt : sg (pt v) = s.
  Proof.
    unfold pt; fold e q s. pose proof q_pos. unfold s, sg at 2 3; destruct (Rlt_dec e 0); unfold sg; destruct (Rlt_dec _ 0); nra.
  Qed.
  Lemma e_sqrt : s * sqrt (pt v * pt v + z * z + mass v * mass v) = e.
  Proof.
    rewrite m_sq, m2_eq, pt_sq, w_sq. replace (x * x + y * y + z * z + (e * e - (x * x + y * y + z * z))) with (Rsqr e) by (unfold Rsqr; ring).
    rewrite sqrt_Rsqr_abs. apply sg_abs.
  Qed.
  Lemma cos_of : forall phi, x = pt v * cos phi -> cos phi = x / pt v.
  Proof. intros phi H; rewrite H. field; apply pt_nz. Qed.
  Lemma sin_of : forall phi, y = pt v * sin phi -> sin phi = y / pt v.
  Proof. intros phi H; rewrite H. field; apply pt_nz. Qed.
  Lemma et_e : e * (q / w) / (pt v / pp v) = e.
  Proof. rewrite pt_pp; pose proof q_pos; pose proof w_pos; field; lra. Qed.
  Lemma x_cos : pt v * (x / pt v) = x. Proof. field; apply pt_nz. Qed.
  Lemma y_sin : pt v * (y / pt v) = y. Proof. field; apply pt_nz. Qed.
  Lemma z_costh : pp v * (z / pp v) = z. Proof. field; apply pp_nz. Qed.
  Lemma pt_sinth : pp v * (pt v / pp v) = pt v. Proof. field; apply pp_nz. Qed.
End V.

(* ---- atan2 ---- *)
Lemma atan2_ok : forall y x, 0 < x * x + y * y ->
  x = sqrt (x * x + y * y) * cos (atan2 y x) /\ y = sqrt (x * x + y * y) * sin (atan2 y x) /\ - PI < atan2 y x <= PI.
Proof.
  intros y x H. pose proof PI_RGT_0 as HP.
  assert (Q : forall c, c <> 0 -> c = x -> sqrt (x * x + y * y) = Rabs c * sqrt (1 + (y / x) * (y / x))).
  { intros c Hc ->. rewrite <- (sqrt_Rsqr_abs x), <- sqrt_mult; [|apply Rle_0_sqr|nra]. f_equal. unfold Rsqr; field; auto. }
  unfold atan2. destruct (Rlt_le_dec 0 x) as [Hx|Hx].
  - rewrite rlt_true by auto. rewrite (Q x) by lra. rewrite Rabs_pos_eq by lra. rewrite cos_atan, sin_atan.
    pose proof (atan_bound (y / x)). unfold Rsqr. assert (0 < sqrt (1 + y / x * (y / x))) by (apply sqrt_lt_R0; nra).
    repeat split; try lra; field; lra.
  - rewrite rlt_false by lra. destruct (Rlt_le_dec x 0) as [Hx'|Hx'].
    + rewrite rlt_true by auto. rewrite (Q x) by lra. rewrite Rabs_left by lra.
      pose proof (atan_bound (y / x)). assert (A : 0 < sqrt (1 + y / x * (y / x))) by (apply sqrt_lt_R0; nra).
      destruct (Rlt_le_dec y 0) as [Hy|Hy].
      * rewrite rlt_true by auto.
        replace (atan (y / x) - PI) with (- (PI - atan (y / x))) by ring. rewrite cos_neg, sin_neg, Rtrigo_facts.cos_pi_minus, Rtrigo_facts.sin_pi_minus.
        rewrite cos_atan, sin_atan; unfold Rsqr.
        assert (0 < y / x) by (replace (y / x) with ((- y) / (- x)) by (field; lra); apply Rdiv_lt_0_compat; lra).
        assert (0 < atan (y / x)) by (rewrite <- atan_0; apply atan_increasing; lra).
        repeat split; try lra; field; lra.
      * rewrite rlt_false by lra.
        replace (atan (y / x) + PI) with (PI - (- atan (y / x))) by ring. rewrite Rtrigo_facts.cos_pi_minus, Rtrigo_facts.sin_pi_minus, cos_neg, sin_neg.
        rewrite cos_atan, sin_atan; unfold Rsqr.
        assert (y / x <= 0).
        { replace (y / x) with (- (y / (- x))) by (field; lra). assert (0 <= y / - x) by (apply Rle_mult_inv_pos; lra). lra. }
        assert (atan (y / x) <= 0).
        { destruct (Req_dec (y / x) 0) as [->|]; [rewrite atan_0; lra|]. left. rewrite <- atan_0. apply atan_increasing; lra. }
        repeat split; try lra; field; lra.
    + assert (x = 0) by lra; subst x. rewrite rlt_false by lra.
      replace (0 * 0 + y * y) with (Rsqr y) by (unfold Rsqr; ring). rewrite sqrt_Rsqr_abs.
      destruct (Rlt_le_dec 0 y) as [Hy|Hy].
      * rewrite rlt_true by auto. rewrite cos_PI2, sin_PI2, Rabs_pos_eq; repeat split; lra.
      * rewrite rlt_false by lra. destruct (Rlt_le_dec y 0).
        -- rewrite rlt_true by auto. rewrite cos_neg, sin_neg, cos_PI2, sin_PI2, Rabs_left; repeat split; lra.
        -- assert (y = 0) by lra; subst y. lra.
Qed.

Section K.
  Variable v : pv.
  Hypothesis G : good v.

  Ltac fin := rewrite ?sign_fin, ?nmul_fin, ?nadd_fin, ?nsub_fin, ?nneg_fin, ?nmul_fin.

  Lemma cart_faithful : faithful (New PxPyPzE (Fin (px v)) (Fin (py v)) (Fin (pz v)) (Fin (en v))) v.
  Proof.
    set (p := V4 (Fin (px v)) (Fin (py v)) (Fin (pz v)) (Fin (en v))).
    pose proof (q_pos v G) as Hq. pose proof (w_pos v G) as Hw. pose proof (pt_nz v G) as Hpt. pose proof (pp_nz v G) as Hpp.
    pose proof (w2_pos v G) as Hw2. pose proof (g_pt v G) as Hq2.
    assert (HPx : c_Px p = Fin (px v)) by reflexivity. assert (HPy : c_Py p = Fin (py v)) by reflexivity.
    assert (HPz : c_Pz p = Fin (pz v)) by reflexivity. assert (HE : c_E p = Fin (en v)) by reflexivity.
    assert (HM2 : c_M2 p = Fin (m2 v)) by reflexivity.
    assert (HM : c_M p = Fin (mass v)).
    { unfold c_M; rewrite HM2; cbv zeta. rewrite nlt_fin_false by apply (g_m2 v G). apply nsqrt_fin, (g_m2 v G). }
    assert (HP2 : c_P2 p = Fin (px v * px v + py v * py v + pz v * pz v)) by reflexivity.
    assert (HP : c_P p = Fin (pp v)).
    { unfold c_P; rewrite HE, HP2, sign_fin, nsqrt_fin by lra. reflexivity. }
    assert (HPt : c_Pt p = Fin (pt v)).
    { unfold c_Pt; rewrite HE, HPx, HPy, sign_fin; fin. rewrite nsqrt_fin by lra. reflexivity. }
    assert (HIPt : c_IPt p = Fin (1 / pt v)).
    { unfold c_IPt; rewrite HPt. apply ndiv_fin; auto. }
    assert (HSinTh : c_SinTh p = Fin (pt v / pp v)).
    { unfold c_SinTh; rewrite HPt, HP. apply ndiv_fin; auto. }
    constructor; cbn [Px Py Pz E M M2 P P2 Eta Rapidity Phi Et Pt IPt CosPhi SinPhi CosTh SinTh CotTh TanTh kd val New]; fold p;
      try assumption.
    - unfold c_Eta. rewrite HPx, HPy, HPz, HE; fin. rewrite nsqrt_fin by lra. fold (mag v). cbv zeta.
      pose proof (z_lt_w v G) as Hz.
      rewrite !neq_fin_false by lra. rewrite nadd_fin, nsub_fin, ndiv_fin by lra. rewrite nln_fin by (apply Rdiv_lt_0_compat; lra).
      fin. f_equal. apply sinh_inj. rewrite (sinh_eta v).
      assert (A : (mag v + pz v) / (mag v - pz v) = (mag v + pz v) / trans v * ((mag v + pz v) / trans v)).
      { pose proof (w_sq v G) as A. pose proof (q_sq v G) as B.
        assert (K : (mag v + pz v) * (mag v - pz v) = trans v * trans v) by (rewrite B; rewrite <- (Rplus_0_r (px v * px v + py v * py v)); nra).
        transitivity ((mag v + pz v) * (mag v + pz v) / ((mag v + pz v) * (mag v - pz v))); [field; lra|].
        rewrite K. field; lra. }
      rewrite A. replace (sg (en v) * (1 / 2) * ln ((mag v + pz v) / trans v * ((mag v + pz v) / trans v)))
        with (sg (en v) * ln ((mag v + pz v) / trans v)).
      2: { assert (B : 0 < (mag v + pz v) / trans v) by (apply Rdiv_lt_0_compat; lra). rewrite <- (half_ln_sq _ B). ring. }
      assert (S1 : sinh (ln ((mag v + pz v) / trans v)) = pz v / trans v).
      { rewrite sinh_ln by (apply Rdiv_lt_0_compat; lra).
        pose proof (w_sq v G) as C1. pose proof (q_sq v G) as C2.
        assert (K : trans v * trans v = (mag v + pz v) * (mag v - pz v)) by (rewrite C2; nra).
        replace (/ ((mag v + pz v) / trans v)) with (trans v * trans v / ((mag v + pz v) * trans v)) by (field; lra).
        rewrite K. field; lra. }
      unfold pt. destruct (Rlt_dec (en v) 0) as [L|L].
      + unfold sg; destruct (Rlt_dec (en v) 0); [|tauto]. replace (-1 * ln ((mag v + pz v) / trans v)) with (- ln ((mag v + pz v) / trans v)) by ring.
        rewrite sinh_neg, S1. field; lra.
      + unfold sg; destruct (Rlt_dec (en v) 0); [tauto|]. rewrite Rmult_1_l, S1. field; lra.
    - unfold c_Rapidity. rewrite HE, HPz, nneg_fin.
      pose proof (e_nz v G) as A. pose proof (e_z v G) as B. pose proof (e_z' v G) as D. cbv zeta in A, B, D.
      rewrite !neq_fin_false by lra. apply (rap_ok v G).
    - unfold c_Phi. rewrite HE, HPx, HPy; fin. cbv zeta.
      assert (K : 0 < sg (en v) * px v * (sg (en v) * px v) + sg (en v) * py v * (sg (en v) * py v)).
      { pose proof (sg_sq (en v)). replace (sg (en v) * px v * (sg (en v) * px v) + sg (en v) * py v * (sg (en v) * py v))
          with ((sg (en v) * sg (en v)) * (px v * px v + py v * py v)) by ring. rewrite H. lra. }
      assert (Hb : neq (Fin (sg (en v) * px v)) (Fin 0) && neq (Fin (sg (en v) * py v)) (Fin 0) = false).
      { cbn. unfold req. destruct (Req_EM_T (sg (en v) * px v) 0) as [A|A]; [|reflexivity].
        destruct (Req_EM_T (sg (en v) * py v) 0) as [B|B]; [|reflexivity]. rewrite A, B in K. lra. }
      rewrite Hb. eexists; split; [reflexivity|]. destruct (atan2_ok _ _ K) as (A & B & _).
      replace (sqrt _) with (trans v) in A by (unfold trans; f_equal; pose proof (sg_sq (en v)); nra).
      replace (sqrt _) with (trans v) in B by (unfold trans; f_equal; pose proof (sg_sq (en v)); nra).
      unfold pt. pose proof (sg_sq (en v)) as S2.
      split; [transitivity (sg (en v) * (sg (en v) * px v)) | transitivity (sg (en v) * (sg (en v) * py v))];
        try (rewrite <- Rmult_assoc, S2; ring); [rewrite A at 1 | rewrite B at 1]; ring.
    - unfold c_Et. rewrite HE, HSinTh, nmul_fin. rewrite (pt_pp v G). reflexivity.
    - unfold c_CosPhi. rewrite HPx, HIPt, nmul_fin. f_equal; field; auto.
    - unfold c_SinPhi. rewrite HPy, HIPt, nmul_fin. f_equal; field; auto.
    - unfold c_CosTh. rewrite HPz, HP. apply ndiv_fin; auto.
    - unfold c_CotTh. rewrite HPz, HPt. apply ndiv_fin; auto.
    - intros Hz. unfold c_TanTh. rewrite HPz, HPt. apply ndiv_fin; auto.
  Qed.

  Section Polar.
  Variable phi : R.
  Hypothesis Hc : px v = pt v * cos phi.
  Hypothesis Hs : py v = pt v * sin phi.

  Lemma ee_faithful : faithful (New EEtaPhiM (Fin (en v)) (Fin (eta v)) (Fin phi) (Fin (mass v))) v.
  Proof.
    set (p := V4 (Fin (en v)) (Fin (eta v)) (Fin phi) (Fin (mass v))).
    pose proof (q_pos v G) as Hq. pose proof (w_pos v G) as Hw. pose proof (pt_nz v G) as Hpt. pose proof (pp_nz v G) as Hpp.
    assert (HE : ee_E p = Fin (en v)) by reflexivity. assert (HEta : ee_Eta p = Fin (eta v)) by reflexivity.
    assert (HPhi : ee_Phi p = Fin phi) by reflexivity. assert (HM : ee_M p = Fin (mass v)) by reflexivity.
    assert (HM2 : ee_M2 p = Fin (m2 v)).
    { unfold ee_M2; rewrite HM; fin. f_equal; apply (m_sq v G). }
    assert (HP : ee_P p = Fin (pp v)).
    { unfold ee_P; rewrite HE, HM. destruct (Req_dec (mass v) 0) as [Z0|Z0].
      - rewrite neq_fin_true by auto. f_equal. apply (p_of_e0 v G); auto.
      - rewrite neq_fin_false by auto. rewrite !nmul_fin, nsub_fin. apply (p_of_e v G); auto. }
    assert (HSinTh : ee_SinTh p = Fin (pt v / pp v)) by apply (sinth_ok v G).
    assert (HPt : ee_Pt p = Fin (pt v)).
    { unfold ee_Pt; rewrite HP, HSinTh; fin. f_equal; apply (pt_sinth v G). }
    assert (HCosTh : ee_CosTh p = Fin (pz v / pp v)).
    { unfold ee_CosTh; rewrite HEta; cbn [ntanh]. f_equal; apply (tanh_eta v G). }
    assert (HPz : ee_Pz p = Fin (pz v)).
    { unfold ee_Pz; rewrite HP, HCosTh; fin. f_equal; apply (z_costh v G). }
    assert (HCosPhi : ee_CosPhi p = Fin (px v / pt v)).
    { unfold ee_CosPhi; rewrite HPhi; cbn [ncos]. f_equal; apply (cos_of v G); auto. }
    assert (HSinPhi : ee_SinPhi p = Fin (py v / pt v)).
    { unfold ee_SinPhi; rewrite HPhi; cbn [nsin]. f_equal; apply (sin_of v G); auto. }
    constructor; cbn [Px Py Pz E M M2 P P2 Eta Rapidity Phi Et Pt IPt CosPhi SinPhi CosTh SinTh CotTh TanTh kd val New]; fold p;
      try assumption.
    - unfold ee_Px; rewrite HPt, HCosPhi; fin. f_equal; apply (x_cos v G).
    - unfold ee_Py; rewrite HPt, HSinPhi; fin. f_equal; apply (y_sin v G).
    - unfold ee_P2; rewrite HE, HM; fin. f_equal. rewrite (m_sq v G). unfold m2; ring.
    - unfold ee_Rapidity; rewrite HE, HPz. apply (rap_ok v G).
    - exists phi; auto.
    - unfold ee_Et; rewrite HE, HSinTh, nmul_fin, (pt_pp v G); reflexivity.
    - unfold ee_IPt; rewrite HPt. apply ndiv_fin; auto.
    - unfold ee_CotTh; rewrite HEta; cbn [nsinh]. f_equal; apply (sinh_eta v).
    - apply (tanth_ok v G).
  Qed.

  Lemma et_faithful : faithful (New EtEtaPhiM (Fin (en v * (trans v / mag v))) (Fin (eta v)) (Fin phi) (Fin (mass v))) v.
  Proof.
    set (p := V4 (Fin (en v * (trans v / mag v))) (Fin (eta v)) (Fin phi) (Fin (mass v))).
    pose proof (q_pos v G) as Hq. pose proof (w_pos v G) as Hw. pose proof (pt_nz v G) as Hpt. pose proof (pp_nz v G) as Hpp.
    assert (HEt : et_Et p = Fin (en v * (trans v / mag v))) by reflexivity. assert (HEta : et_Eta p = Fin (eta v)) by reflexivity.
    assert (HPhi : et_Phi p = Fin phi) by reflexivity. assert (HM : et_M p = Fin (mass v)) by reflexivity.
    assert (HM2 : et_M2 p = Fin (m2 v)).
    { unfold et_M2; rewrite HM; fin. f_equal; apply (m_sq v G). }
    assert (HSinTh : et_SinTh p = Fin (pt v / pp v)) by apply (sinth_ok v G).
    assert (HE : et_E p = Fin (en v)).
    { unfold et_E; rewrite HEt, HSinTh. rewrite ndiv_fin.
      - f_equal; apply (et_e v G).
      - intros A; apply Rmult_integral in A; destruct A as [A|A]; [tauto | apply Rinv_neq_0_compat in Hpp; tauto]. }
    assert (HP : et_P p = Fin (pp v)).
    { unfold et_P; rewrite HE, HM. destruct (Req_dec (mass v) 0) as [Z0|Z0].
      - rewrite neq_fin_true by auto. f_equal. apply (p_of_e0 v G); auto.
      - rewrite neq_fin_false by auto. rewrite !nmul_fin, nsub_fin. apply (p_of_e v G); auto. }
    assert (HPt : et_Pt p = Fin (pt v)).
    { unfold et_Pt; rewrite HP, HSinTh; fin. f_equal; apply (pt_sinth v G). }
    assert (HCosTh : et_CosTh p = Fin (pz v / pp v)).
    { unfold et_CosTh; rewrite HEta; cbn [ntanh]. f_equal; apply (tanh_eta v G). }
    assert (HPz : et_Pz p = Fin (pz v)).
    { unfold et_Pz; rewrite HP, HCosTh; fin. f_equal; apply (z_costh v G). }
    assert (HCosPhi : et_CosPhi p = Fin (px v / pt v)).
    { unfold et_CosPhi; rewrite HPhi; cbn [ncos]. f_equal; apply (cos_of v G); auto. }
    assert (HSinPhi : et_SinPhi p = Fin (py v / pt v)).
    { unfold et_SinPhi; rewrite HPhi; cbn [nsin]. f_equal; apply (sin_of v G); auto. }
    constructor; cbn [Px Py Pz E M M2 P P2 Eta Rapidity Phi Et Pt IPt CosPhi SinPhi CosTh SinTh CotTh TanTh kd val New]; fold p;
      try assumption.
    - unfold et_Px; rewrite HPt, HCosPhi; fin. f_equal; apply (x_cos v G).
    - unfold et_Py; rewrite HPt, HSinPhi; fin. f_equal; apply (y_sin v G).
    - unfold et_P2; rewrite HE, HM; fin. f_equal. rewrite (m_sq v G). unfold m2; ring.
    - unfold et_Rapidity; rewrite HE, HPz. apply (rap_ok v G).
    - exists phi; auto.
    - unfold et_IPt; rewrite HPt. apply ndiv_fin; auto.
    - unfold et_CotTh; rewrite HEta; cbn [nsinh]. f_equal; apply (sinh_eta v).
    - apply (tanth_ok v G).
  Qed.

  Lemma pt_faithful : faithful (New PtEtaPhiM (Fin (pt v)) (Fin (eta v)) (Fin phi) (Fin (mass v))) v.
  Proof.
    set (p := V4 (Fin (pt v)) (Fin (eta v)) (Fin phi) (Fin (mass v))).
    pose proof (q_pos v G) as Hq. pose proof (w_pos v G) as Hw. pose proof (pt_nz v G) as Hpt. pose proof (pp_nz v G) as Hpp.
    assert (HPt : pt_Pt p = Fin (pt v)) by reflexivity. assert (HEta : pt_Eta p = Fin (eta v)) by reflexivity.
    assert (HPhi : pt_Phi p = Fin phi) by reflexivity. assert (HM : pt_M p = Fin (mass v)) by reflexivity.
    assert (HM2 : pt_M2 p = Fin (m2 v)).
    { unfold pt_M2; rewrite HM; fin. f_equal; apply (m_sq v G). }
    assert (HSinTh : pt_SinTh p = Fin (pt v / pp v)) by apply (sinth_ok v G).
    assert (HCotTh : pt_CotTh p = Fin (pz v / pt v)).
    { unfold pt_CotTh; rewrite HEta; cbn [nsinh]. f_equal; apply (sinh_eta v). }
    assert (HPz : pt_Pz p = Fin (pz v)).
    { unfold pt_Pz; rewrite HPt, HCotTh; fin. f_equal; apply (z_pt v G). }
    assert (HE : pt_E p = Fin (en v)).
    { unfold pt_E; rewrite HPt, HPz, HM; fin. rewrite nsqrt_fin by nra. fin. rewrite (sg_pt v G). f_equal. apply (e_sqrt v G). }
    assert (HP : pt_P p = Fin (pp v)).
    { unfold pt_P; rewrite HPt, HPz; fin. rewrite nsqrt_fin by nra. fin. rewrite (sg_pt v G), (sqrt_pp v G). reflexivity. }
    assert (HCosPhi : pt_CosPhi p = Fin (px v / pt v)).
    { unfold pt_CosPhi; rewrite HPhi; cbn [ncos]. f_equal; apply (cos_of v G); auto. }
    assert (HSinPhi : pt_SinPhi p = Fin (py v / pt v)).
    { unfold pt_SinPhi; rewrite HPhi; cbn [nsin]. f_equal; apply (sin_of v G); auto. }
    constructor; cbn [Px Py Pz E M M2 P P2 Eta Rapidity Phi Et Pt IPt CosPhi SinPhi CosTh SinTh CotTh TanTh kd val New]; fold p;
      try assumption.
    - unfold pt_Px; rewrite HPt, HCosPhi; fin. f_equal; apply (x_cos v G).
    - unfold pt_Py; rewrite HPt, HSinPhi; fin. f_equal; apply (y_sin v G).
    - unfold pt_P2; rewrite HPt, HPz; fin. f_equal. rewrite (pt_sq v G). reflexivity.
    - unfold pt_Rapidity; rewrite HE, HPz. apply (rap_ok v G).
    - exists phi; auto.
    - unfold pt_Et; rewrite HE, HSinTh, nmul_fin, (pt_pp v G); reflexivity.
    - unfold pt_IPt; rewrite HPt. apply ndiv_fin; auto.
    - unfold pt_CosTh; rewrite HEta; cbn [ntanh]. f_equal; apply (tanh_eta v G).
    - apply (tanth_ok v G).
  Qed.

  Lemma ip_faithful : 0 < en v \/ mass v = 0 ->
    faithful (New IPtCotThPhiM (Fin (1 / pt v)) (Fin (pz v / pt v)) (Fin phi) (Fin (mass v))) v.
  Proof.
    intros Pos. set (p := V4 (Fin (1 / pt v)) (Fin (pz v / pt v)) (Fin phi) (Fin (mass v))).
    pose proof (q_pos v G) as Hq. pose proof (w_pos v G) as Hw. pose proof (pt_nz v G) as Hpt. pose proof (pp_nz v G) as Hpp.
    assert (Hi : 1 / pt v <> 0) by (unfold Rdiv; rewrite Rmult_1_l; apply Rinv_neq_0_compat; auto).
    assert (HI : ip_IPt p = Fin (1 / pt v)) by reflexivity. assert (HC : ip_CotTh p = Fin (pz v / pt v)) by reflexivity.
    assert (HPhi : ip_Phi p = Fin phi) by reflexivity. assert (HM : ip_M p = Fin (mass v)) by reflexivity.
    assert (HM2 : ip_M2 p = Fin (m2 v)).
    { unfold ip_M2; rewrite HM; fin. f_equal; apply (m_sq v G). }
    assert (A1 : sqrt (1 + pz v / pt v * (pz v / pt v)) = mag v / trans v).
    { rewrite <- (cosh_eta v G), cosh_sqrt, (sinh_eta v). reflexivity. }
    assert (HA : nsqrt (nadd (Fin 1) (nmul (ip_CotTh p) (ip_CotTh p))) = Fin (mag v / trans v)).
    { rewrite HC; fin. rewrite nsqrt_fin by nra. f_equal; exact A1. }
    assert (Inv : ndiv (Fin 1) (Fin (1 / pt v)) = Fin (pt v)).
    { rewrite ndiv_fin by auto. f_equal; field; auto. }
    assert (HPt : ip_Pt p = Fin (pt v)) by (unfold ip_Pt; rewrite HI; exact Inv).
    assert (HP : ip_P p = Fin (pp v)).
    { unfold ip_P; rewrite HA, HI. rewrite ndiv_fin by auto. f_equal. unfold pp, pt. pose proof (sg_nz (en v)). field. split; lra. }
    assert (HE : ip_E p = Fin (en v)).
    { unfold ip_E; rewrite HP, HM. destruct (Req_dec (mass v) 0) as [Z0|Z0].
      - rewrite neq_fin_true by auto. f_equal. symmetry; apply (p_of_e0 v G); auto.
      - rewrite neq_fin_false by auto. fin. rewrite nsqrt_fin by nra. f_equal. destruct Pos as [Pos|]; [|tauto].
        rewrite (pp_sq v G), (m_sq v G). unfold m2.
        replace (px v * px v + py v * py v + pz v * pz v + (en v * en v - (px v * px v + py v * py v + pz v * pz v))) with (en v * en v) by ring.
        apply sqrt_square; lra. }
    assert (HPz : ip_Pz p = Fin (pz v)).
    { unfold ip_Pz; rewrite HI, HC, Inv; fin. f_equal; apply (z_pt v G). }
    assert (HCosPhi : ip_CosPhi p = Fin (px v / pt v)).
    { unfold ip_CosPhi; rewrite HPhi; cbn [ncos]. f_equal; apply (cos_of v G); auto. }
    assert (HSinPhi : ip_SinPhi p = Fin (py v / pt v)).
    { unfold ip_SinPhi; rewrite HPhi; cbn [nsin]. f_equal; apply (sin_of v G); auto. }
    assert (Hwq : mag v / trans v <> 0) by (apply Rgt_not_eq, Rdiv_lt_0_compat; lra).
    constructor; cbn [Px Py Pz E M M2 P P2 Eta Rapidity Phi Et Pt IPt CosPhi SinPhi CosTh SinTh CotTh TanTh kd val New]; fold p;
      try assumption.
    - unfold ip_Px; rewrite HI, HCosPhi, Inv; fin. f_equal; apply (x_cos v G).
    - unfold ip_Py; rewrite HI, HSinPhi, Inv; fin. f_equal; apply (y_sin v G).
    - unfold ip_P2; rewrite HI, HC; fin. rewrite ndiv_fin by (intros K; apply Rmult_integral in K; tauto).
      f_equal. transitivity (pt v * pt v + pz v * pz v); [field; auto | rewrite (pt_sq v G); reflexivity].
    - unfold ip_Eta; rewrite HA, HC; fin. cbv zeta.
      assert (B : mag v / trans v * (mag v / trans v) = 1 + pz v / pt v * (pz v / pt v)).
      { rewrite <- A1. apply sqrt_def; nra. }
      set (a := mag v / trans v) in *. set (c := pz v / pt v) in *.
      assert (Ha : 0 < a) by (apply Rdiv_lt_0_compat; lra).
      assert (D1 : 0 < a - c) by nra. assert (D2 : 0 < a + c) by nra.
      rewrite ndiv_fin by lra. rewrite nln_fin by (apply Rdiv_lt_0_compat; lra). fin. f_equal.
      apply sinh_inj. rewrite (sinh_eta v). fold c.
      replace ((a - c) / (a + c)) with ((a - c) * (a - c)).
      2: { replace (a - c) with (/ (a + c)) at 1; [field; lra|]. apply (Rmult_eq_reg_l (a + c)); [|lra]. rewrite Rinv_r by lra. nra. }
      replace (- (1 / 2) * ln ((a - c) * (a - c))) with (- ln (a - c)) by (rewrite <- (half_ln_sq (a - c)) by lra; ring).
      rewrite sinh_neg, sinh_ln by lra. replace (/ (a - c)) with (a + c).
      2: { apply (Rmult_eq_reg_l (a - c)); [|lra]. rewrite Rinv_r by lra. nra. }
      lra.
    - unfold ip_Rapidity; rewrite HE, HPz. apply (rap_ok v G).
    - exists phi; auto.
    - unfold ip_Et; rewrite HE, HA, ndiv_fin by auto. f_equal; field; split; lra.
    - unfold ip_CosTh; rewrite HC; fin. cbv zeta.
      rewrite ndiv_fin by nra. rewrite nsqrt_fin by (apply Rle_mult_inv_pos; nra). fin. f_equal.
      assert (B : mag v / trans v * (mag v / trans v) = 1 + pz v / pt v * (pz v / pt v)).
      { rewrite <- A1. apply sqrt_def; nra. }
      assert (C1 : pz v / pt v * (pz v / pt v) / (1 + pz v / pt v * (pz v / pt v)) = Rsqr (pz v / pp v)).
      { rewrite <- B. unfold Rsqr, pp, pt. pose proof (sg_nz (en v)). field; repeat split; lra. }
      rewrite C1, sqrt_Rsqr_abs.
      assert (C2 : sg (pz v / pt v) = sg (pz v / pp v)).
      { replace (pz v / pt v) with (pz v / pp v * (mag v / trans v)).
        - assert (0 < mag v / trans v) by (apply Rdiv_lt_0_compat; lra). set (t := pz v / pp v). set (u := mag v / trans v) in *.
          unfold sg. destruct (Rlt_dec (t * u) 0), (Rlt_dec t 0); try reflexivity; nra.
        - unfold pp, pt. pose proof (sg_nz (en v)). field; repeat split; lra. }
      rewrite C2. apply sg_abs.
    - unfold ip_SinTh; rewrite HA, ndiv_fin by auto. rewrite (pt_pp v G). f_equal; field; split; lra.
    - intros Hz. unfold ip_TanTh; rewrite HC. rewrite ndiv_fin.
      + f_equal; field; auto.
      + intros K; apply Rmult_integral in K; destruct K as [K|K]; [tauto | apply Rinv_neq_0_compat in Hpt; tauto].
  Qed.
  End Polar.
End K.

(* conversions *)
Lemma set_faithful : forall p v k, good v -> faithful p v -> (k = IPtCotThPhiM -> 0 < en v \/ mass v = 0) -> faithful (Set4 k p) v.
Proof.
  intros p v k G F Hk. destruct (f_Phi p v F) as (phi & E1 & E2 & E3).
  destruct k; cbn [Set4].
  - rewrite (f_Px p v F), (f_Py p v F), (f_Pz p v F), (f_E p v F). apply (cart_faithful v G).
  - rewrite (f_E p v F), (f_Eta p v F), E1, (f_M p v F). apply (ee_faithful v G phi E2 E3).
  - rewrite (f_Et p v F), (f_Eta p v F), E1, (f_M p v F). apply (et_faithful v G phi E2 E3).
  - rewrite (f_Pt p v F), (f_Eta p v F), E1, (f_M p v F). apply (pt_faithful v G phi E2 E3).
  - rewrite (f_IPt p v F), (f_CotTh p v F), E1, (f_M p v F). apply (ip_faithful v G phi E2 E3); auto.
Qed.
