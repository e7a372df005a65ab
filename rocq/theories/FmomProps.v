(* C61: the five representations of a four-momentum stand for the same vector; sums and multiples. *)
From Coq Require Import Reals ZArith Bool Lra Psatz List.
From Flocq Require Import Core.Raux Core.Generic_fmt Core.Round_NE.
From Verif Require Import GoLib FmomModel FmomProofs.
Import ListNotations.
Local Open Scope R_scope.

(* what the constructors stand for; the energy (or pt) may be negative *)
Theorem C61_new_cart : forall x y z e, good (PV x y z e) ->
  faithful (New PxPyPzE (Fin x) (Fin y) (Fin z) (Fin e)) (PV x y z e).
Proof. intros x y z e G. exact (cart_faithful _ G). Qed.

Definition sgn (a : R) : R := if Rlt_dec a 0 then -1 else 1.
Lemma trig1 : forall t, cos t * cos t + sin t * sin t = 1.
Proof. intros; pose proof (sin2_cos2 t) as H; unfold Rsqr in H; lra. Qed.

(* the vector of transverse momentum a (with the sign of the energy), pseudo-rapidity h, angle f and mass m *)
Definition polar (a h f m : R) : pv :=
  PV (a * cos f) (a * sin f) (a * sinh h) (sgn a * sqrt (a * cosh h * (a * cosh h) + m * m)).
Lemma polar_facts : forall a h f m, a <> 0 -> 0 <= m -> Rabs h <= 710 ->
  good (polar a h f m) /\ pt (polar a h f m) = a /\ eta (polar a h f m) = h /\ mass (polar a h f m) = m /\
  sg (en (polar a h f m)) = sgn a /\ mag (polar a h f m) = Rabs a * cosh h /\ trans (polar a h f m) = Rabs a.
Proof.
  intros a h f m Ha Hm Hh. pose proof (cosh_pos h) as Hc. pose proof (cosh_sq h) as Hcs. pose proof (trig1 f) as Ht.
  assert (HA : 0 < a * a) by nra.
  assert (X0 : a * cosh h * (a * cosh h) > 0).
  { replace (a * cosh h * (a * cosh h)) with (a * a * (cosh h * cosh h)) by ring. apply Rmult_lt_0_compat; nra. }
  assert (HE : 0 < sqrt (a * cosh h * (a * cosh h) + m * m)) by (apply sqrt_lt_R0; nra).
  assert (Sg : sg (en (polar a h f m)) = sgn a).
  { cbn. unfold sg, sgn. destruct (Rlt_dec a 0), (Rlt_dec _ 0); try reflexivity; nra. }
  assert (Sa : sgn a * sgn a = 1) by (unfold sgn; destruct (Rlt_dec a 0); lra).
  assert (Ab : sgn a * Rabs a = a) by (unfold sgn, Rabs; destruct (Rlt_dec a 0), (Rcase_abs a); lra).
  assert (T : trans (polar a h f m) = Rabs a).
  { unfold trans; cbn. rewrite <- sqrt_Rsqr_abs. f_equal. unfold Rsqr. transitivity (a * a * (cos f * cos f + sin f * sin f)); [ring | rewrite Ht; ring]. }
  assert (Hpt : pt (polar a h f m) = a) by (unfold pt; rewrite Sg, T; exact Ab).
  assert (Heta : eta (polar a h f m) = h).
  { unfold eta; rewrite Hpt; cbn. replace (a * sinh h / a) with (sinh h) by (field; auto). apply arcsinh_sinh. }
  assert (W2 : a * cos f * (a * cos f) + a * sin f * (a * sin f) + a * sinh h * (a * sinh h) = a * cosh h * (a * cosh h)).
  { transitivity (a * a * ((cos f * cos f + sin f * sin f) + sinh h * sinh h)); [ring|]. rewrite Ht, <- Hcs. ring. }
  assert (Hm2 : m2 (polar a h f m) = m * m).
  { unfold m2; cbn. rewrite W2.
    replace (sgn a * sqrt (a * cosh h * (a * cosh h) + m * m) * (sgn a * sqrt (a * cosh h * (a * cosh h) + m * m)))
      with (sgn a * sgn a * (sqrt (a * cosh h * (a * cosh h) + m * m) * sqrt (a * cosh h * (a * cosh h) + m * m))) by ring.
    rewrite Sa, sqrt_def by nra. ring. }
  repeat match goal with |- _ /\ _ => split end; auto.
  - split.
    + cbn. replace (a * cos f * (a * cos f) + a * sin f * (a * sin f)) with (a * a * (cos f * cos f + sin f * sin f)) by ring. rewrite Ht; lra.
    + rewrite Hm2; nra.
    + rewrite Heta; exact Hh.
  - unfold mass; rewrite Hm2. apply sqrt_square; auto.
  - unfold mag; cbn. rewrite W2. transitivity (sqrt (Rsqr (a * cosh h))); [reflexivity|]. rewrite sqrt_Rsqr_abs, Rabs_mult, (Rabs_pos_eq (cosh h)) by lra. reflexivity.
Qed.

Theorem C61_new_pt : forall a h f m, a <> 0 -> 0 <= m -> Rabs h <= 710 ->
  faithful (New PtEtaPhiM (Fin a) (Fin h) (Fin f) (Fin m)) (polar a h f m).
Proof.
  intros a h f m Ha Hm Hh. destruct (polar_facts a h f m Ha Hm Hh) as (G & A & B & D & _).
  pose proof (pt_faithful _ G f) as K. rewrite A, B, D in K. apply K; reflexivity.
Qed.
(* energy e above the mass: the transverse momentum is sqrt(e^2-m^2)/cosh(eta) *)
Theorem C61_new_e : forall e h f m, 0 <= m -> m < Rabs e -> Rabs h <= 710 ->
  let v := polar (sgn e * sqrt (e * e - m * m) / cosh h) h f m in
  en v = e /\ faithful (New EEtaPhiM (Fin e) (Fin h) (Fin f) (Fin m)) v.
Proof.
  intros e h f m Hm He Hh v. pose proof (cosh_pos h) as Hc.
  assert (H2 : 0 < e * e - m * m).
  { assert (Rabs e * Rabs e = e * e) by (rewrite <- Rabs_mult; apply Rabs_pos_eq; nra). nra. }
  assert (Hs : 0 < sqrt (e * e - m * m)) by (apply sqrt_lt_R0; lra).
  set (a := sgn e * sqrt (e * e - m * m) / cosh h) in *.
  assert (Se : sgn e * sgn e = 1) by (unfold sgn; destruct (Rlt_dec e 0); lra).
  assert (Ea : a * cosh h = sgn e * sqrt (e * e - m * m)) by (unfold a; field; lra).
  assert (Ha : a <> 0).
  { intros K. rewrite K in Ea. assert (sgn e <> 0) by (unfold sgn; destruct (Rlt_dec e 0); lra).
    assert (sgn e * sqrt (e * e - m * m) <> 0) by (apply Rmult_integral_contrapositive; split; lra). lra. }
  assert (Sa : sgn a = sgn e).
  { unfold sgn in *. destruct (Rlt_dec a 0), (Rlt_dec e 0); try reflexivity; nra. }
  assert (En : en v = e).
  { unfold v; cbn [en polar]. rewrite Sa, Ea.
    replace (sgn e * sqrt (e * e - m * m) * (sgn e * sqrt (e * e - m * m))) with ((sgn e * sgn e) * (sqrt (e * e - m * m) * sqrt (e * e - m * m))) by ring.
    rewrite Se, sqrt_def by lra. replace (1 * (e * e - m * m) + m * m) with (Rsqr e) by (unfold Rsqr; ring).
    rewrite sqrt_Rsqr_abs. apply sg_abs. }
  split; [exact En|].
  destruct (polar_facts a h f m Ha Hm Hh) as (G & A & B & D & _). fold v in G, A, B, D.
  pose proof (ee_faithful v G f) as K. rewrite A, B, D, En in K. apply K; reflexivity.
Qed.
(* transverse energy t, so energy t cosh(eta) *)
Theorem C61_new_et : forall t h f m, 0 <= m -> m < Rabs (t * cosh h) -> Rabs h <= 710 ->
  let e := t * cosh h in
  let v := polar (sgn e * sqrt (e * e - m * m) / cosh h) h f m in
  en v = e /\ faithful (New EtEtaPhiM (Fin t) (Fin h) (Fin f) (Fin m)) v.
Proof.
  intros t h f m Hm He Hh e v. destruct (C61_new_e e h f m Hm He Hh) as (En & F). fold v in En, F. split; [exact En|].
  assert (Ha : sgn e * sqrt (e * e - m * m) / cosh h <> 0).
  { intros K. pose proof (f_Pt _ _ F) as A. pose proof (f_IPt _ _ F) as B.
    assert (H2 : 0 < e * e - m * m).
    { assert (Rabs e * Rabs e = e * e) by (rewrite <- Rabs_mult; apply Rabs_pos_eq; nra). fold e in He. nra. }
    assert (Hs : 0 < sqrt (e * e - m * m)) by (apply sqrt_lt_R0; lra). pose proof (cosh_pos h).
    apply Rmult_integral in K; destruct K as [K|K]; [|apply Rinv_neq_0_compat in K; [tauto|lra]].
    apply Rmult_integral in K; destruct K as [K|K]; [|lra]. unfold sgn in K; destruct (Rlt_dec e 0); lra. }
  destruct (polar_facts _ h f m Ha Hm Hh) as (G & A & B & D & S1 & W & T). fold v in G, A, B, D, S1, W, T.
  pose proof (et_faithful v G f) as K.
  assert (Et1 : en v * (trans v / mag v) = t).
  { rewrite En, W, T. unfold e. pose proof (cosh_pos h). field. split; [lra|]. apply Rabs_no_R0; exact Ha. }
  rewrite A, B, D, Et1 in K. apply K; reflexivity.
Qed.
(* 1/pt and cot(theta) *)
Theorem C61_new_ipt : forall i c f m, i <> 0 -> 0 <= m -> Rabs (arcsinh c) <= 710 -> 0 < i \/ m = 0 ->
  faithful (New IPtCotThPhiM (Fin i) (Fin c) (Fin f) (Fin m)) (polar (1 / i) (arcsinh c) f m).
Proof.
  intros i c f m Hi Hm Hh Pos.
  assert (Ha : 1 / i <> 0) by (unfold Rdiv; rewrite Rmult_1_l; apply Rinv_neq_0_compat; auto).
  destruct (polar_facts (1 / i) (arcsinh c) f m Ha Hm Hh) as (G & A & B & D & S1 & _).
  set (v := polar (1 / i) (arcsinh c) f m) in *.
  pose proof (ip_faithful v G f) as K.
  assert (Ez : pz v / pt v = c) by (rewrite A; unfold v; cbn [pz polar]; rewrite sinh_arcsinh; field; auto).
  rewrite Ez, A, D in K. replace (1 / (1 / i)) with i in K by (field; auto). apply K; [reflexivity | reflexivity |].
  destruct Pos as [Pos|]; [left | right; auto].
  pose proof (e_nz v G) as Hn. cbv zeta in Hn.
  assert (sgn (1 / i) = 1).
  { unfold sgn. destruct (Rlt_dec (1 / i) 0) as [L|]; [|reflexivity]. assert (0 < 1 / i) by (apply Rdiv_lt_0_compat; lra). lra. }
  rewrite H in S1. unfold sg in S1. destruct (Rlt_dec (en v) 0); lra.
Qed.

(* conversions: everything that can be asked of the result is what could be asked of the original *)
Theorem C61_convert : forall p v k, good v -> faithful p v -> (k = IPtCotThPhiM -> 0 < en v \/ mass v = 0) -> faithful (Set4 k p) v.
Proof. exact set_faithful. Qed.
(* any number of them *)
Theorem C61_convert_all : forall ks p v, good v -> faithful p v -> 0 < en v -> faithful (fold_left (fun p k => Set4 k p) ks p) v.
Proof.
  induction ks as [|k ks IH]; intros p v G F Pos; [exact F|]. cbn [fold_left]. apply IH; auto. apply set_faithful; auto.
Qed.

Definition vadd (v w : pv) : pv := PV (px v + px w) (py v + py w) (pz v + pz w) (en v + en w).
Definition vscale (a : R) (v : pv) : pv := PV (a * px v) (a * py v) (a * pz v) (a * en v).
(* the four components; nothing is asked of the vector *)
Definition carries (p : p4) (v : pv) : Prop := Px p = Fin (px v) /\ Py p = Fin (py v) /\ Pz p = Fin (pz v) /\ E p = Fin (en v).
Lemma faithful_carries : forall p v, faithful p v -> carries p v.
Proof. intros p v F; repeat split; apply F. Qed.
Definition rcart (v : pv) : p4 := New PxPyPzE (Fin (px v)) (Fin (py v)) (Fin (pz v)) (Fin (en v)).
Lemma rcart_carries : forall v, carries (rcart v) v. Proof. repeat split; reflexivity. Qed.
Lemma carries_cart : forall p v, kd p = PxPyPzE -> carries p v -> p = rcart v.
Proof.
  intros [k [a b c d]] v Hk (A & B & C1 & D). cbn in Hk; subst k. cbn in A, B, C1, D. subst. reflexivity.
Qed.
Lemma set_rcart : forall p k v, carries p v -> k = PxPyPzE -> Set4 k p = rcart v.
Proof. intros p k v (A & B & C1 & D) ->. cbn. rewrite A, B, C1, D. reflexivity. Qed.
Lemma set_good : forall k v, good v -> (k = IPtCotThPhiM -> 0 < en v \/ mass v = 0) -> faithful (Set4 k (rcart v)) v.
Proof. intros k v G Hk. apply set_faithful; auto. exact (cart_faithful v G). Qed.

Lemma add_rcart : forall p q v w, carries p v -> carries q w -> Add p q = match kd p with PxPyPzE => rcart (vadd v w) | k => Set4 k (rcart (vadd v w)) end.
Proof.
  intros p q v w (A & B & C1 & D) (A' & B' & C1' & D'). unfold Add. rewrite A, B, C1, D, A', B', C1', D'. reflexivity.
Qed.
(* the sum; Cartesian vectors are added whatever they are *)
Theorem C61_add_cart : forall p q v w, kd p = PxPyPzE -> carries p v -> carries q w -> carries (Add p q) (vadd v w).
Proof. intros p q v w Hk A B. rewrite (add_rcart p q v w A B), Hk. apply rcart_carries. Qed.
Theorem C61_add : forall p q v w, carries p v -> carries q w -> good (vadd v w) ->
  (kd p = IPtCotThPhiM -> 0 < en (vadd v w) \/ mass (vadd v w) = 0) ->
  kd (Add p q) = kd p /\ faithful (Add p q) (vadd v w).
Proof.
  intros p q v w A B G Hk. rewrite (add_rcart p q v w A B). pose proof (set_good (kd p) _ G Hk) as K.
  destruct (kd p); split; auto.
Qed.
Theorem C61_iadd : forall p q v w, carries p v -> carries q w -> IAdd p q = Add p q.
Proof.
  intros p q v w A B. rewrite (add_rcart p q v w A B). unfold IAdd.
  destruct (kd p) eqn:Hk.
  - rewrite (carries_cart p v Hk A). destruct B as (B1 & B2 & B3 & B4). rewrite B1, B2, B3, B4. reflexivity.
  - destruct A as (A1 & A2 & A3 & A4), B as (B1 & B2 & B3 & B4). rewrite A1, A2, A3, A4, B1, B2, B3, B4. reflexivity.
  - destruct A as (A1 & A2 & A3 & A4), B as (B1 & B2 & B3 & B4). rewrite A1, A2, A3, A4, B1, B2, B3, B4. reflexivity.
  - destruct A as (A1 & A2 & A3 & A4), B as (B1 & B2 & B3 & B4). rewrite A1, A2, A3, A4, B1, B2, B3, B4. reflexivity.
  - destruct A as (A1 & A2 & A3 & A4), B as (B1 & B2 & B3 & B4). rewrite A1, A2, A3, A4, B1, B2, B3, B4. reflexivity.
Qed.
Lemma scale_good : forall a v, a <> 0 -> good v -> good (vscale a v).
Proof.
  intros a v Ha G. assert (0 < a * a) by nra. destruct G as [G1 G2 G3]. 
  assert (T : trans (vscale a v) = Rabs a * trans v).
  { unfold trans; cbn. rewrite <- sqrt_Rsqr_abs, <- sqrt_mult; [|apply Rle_0_sqr|lra]. f_equal. unfold Rsqr; ring. }
  assert (Eq : eta (vscale a v) = eta v).
  { unfold eta. f_equal. unfold pt. rewrite T. cbn.
    assert (Hq : 0 < trans v) by (apply sqrt_lt_R0; exact G1).
    assert (He : en v <> 0) by (unfold m2 in G2; intros K; rewrite K in G2; nra).
    unfold sg, Rabs. destruct (Rcase_abs a), (Rlt_dec (a * en v) 0), (Rlt_dec (en v) 0); try (exfalso; nra); field; repeat split; lra. }
  split.
  - cbn. replace (a * px v * (a * px v) + a * py v * (a * py v)) with (a * a * (px v * px v + py v * py v)) by ring. apply Rmult_lt_0_compat; auto.
  - unfold m2 in *; cbn. replace (a * en v * (a * en v) - (a * px v * (a * px v) + a * py v * (a * py v) + a * pz v * (a * pz v)))
      with (a * a * (en v * en v - (px v * px v + py v * py v + pz v * pz v))) by ring. apply Rmult_le_pos; lra.
  - rewrite Eq; exact G3.
Qed.
Theorem C61_scale : forall a p v, a <> 0 -> good v -> faithful p v ->
  (kd p = IPtCotThPhiM -> 0 < a * en v \/ mass v = 0) -> kd (Scale (Fin a) p) = kd p /\ faithful (Scale (Fin a) p) (vscale a v).
Proof.
  intros a p v Ha G F Hk. pose proof (scale_good a v Ha G) as G'. unfold Scale.
  rewrite (f_Px p v F), (f_Py p v F), (f_Pz p v F), (f_E p v F).
  change (cart (nmul (Fin a) (Fin (px v))) (nmul (Fin a) (Fin (py v))) (nmul (Fin a) (Fin (pz v))) (nmul (Fin a) (Fin (en v)))) with (rcart (vscale a v)).
  split; [destruct (kd p); reflexivity|]. apply set_good; auto. intros K. destruct (Hk K) as [A|A]; [left; exact A | right].
  unfold mass. replace (m2 (vscale a v)) with (a * a * m2 v) by (unfold m2; cbn; ring).
  rewrite sqrt_mult; [|nra|apply (g_m2 v G)]. unfold mass in A; rewrite A. ring.
Qed.

(* SetPtEtaPhiM: a vector of that transverse momentum, pseudo-rapidity, angle and mass; a negative mass is that of a spacelike vector *)
Theorem C61_set_ptetaphim : forall a h f m, (0 <= m \/ m * m <= a * cosh h * (a * cosh h)) ->
  exists e, 0 <= e /\ carries (SetPtEtaPhiM (Fin a) (Fin h) (Fin f) (Fin m)) (PV (Rabs a * cos f) (Rabs a * sin f) (Rabs a * sinh h) e) /\
    M (SetPtEtaPhiM (Fin a) (Fin h) (Fin f) (Fin m)) = Fin m.
Proof.
  intros a h f m Hm. pose proof (cosh_sq h) as Hc. pose proof (trig1 f) as Ht.
  set (x := Rabs a * cos f). set (y := Rabs a * sin f). set (z := Rabs a * sinh h).
  assert (Aa : Rabs a * Rabs a = a * a) by (rewrite <- Rabs_mult; apply Rabs_pos_eq; nra).
  assert (W : x * x + y * y + z * z = a * cosh h * (a * cosh h)).
  { unfold x, y, z. transitivity (Rabs a * Rabs a * ((cos f * cos f + sin f * sin f) + sinh h * sinh h)); [ring|]. rewrite Ht, <- Hc, Aa. ring. }
  assert (W0 : 0 <= x * x + y * y + z * z) by (rewrite W; apply (Rle_0_sqr (a * cosh h))).
  assert (KM : forall e, M (cart (Fin x) (Fin y) (Fin z) (Fin e)) =
    (if nlt (Fin (m2 (PV x y z e))) (Fin 0) then nneg (nsqrt (nneg (Fin (m2 (PV x y z e))))) else nsqrt (Fin (m2 (PV x y z e))))) by reflexivity.
  unfold SetPtEtaPhiM. cbn [nabs nmul ncos nsin nsinh]. fold x y z. cbv zeta. rewrite !nadd_fin.
  destruct (Rle_lt_dec 0 m) as [L|L].
  - assert (Eb : nlt (Fin 0) (Fin m) || neq (Fin m) (Fin 0) = true).
    { destruct L as [L|L]; [rewrite nlt_fin_true by auto; reflexivity | rewrite (neq_fin_true m 0) by auto; apply orb_true_r]. }
    rewrite Eb, nsqrt_fin by nra. exists (sqrt (x * x + y * y + z * z + m * m)). split; [apply sqrt_pos|]. split; [repeat split|].
    rewrite KM. assert (E2 : m2 (PV x y z (sqrt (x * x + y * y + z * z + m * m))) = m * m) by (unfold m2; cbn; rewrite sqrt_def by nra; ring).
    rewrite E2, nlt_fin_false by nra. rewrite nsqrt_fin by nra. rewrite sqrt_square by auto. reflexivity.
  - destruct Hm as [Hm|Hm]; [lra|]. rewrite nlt_fin_false, neq_fin_false by lra. cbn [orb]. rewrite nsub_fin.
    assert (D : 0 <= x * x + y * y + z * z - m * m) by (rewrite W; lra).
    assert (Em : nsqrt (nmax (Fin 0) (Fin (x * x + y * y + z * z - m * m))) = Fin (sqrt (x * x + y * y + z * z - m * m))).
    { unfold nmax. destruct D as [D|D].
      - rewrite nlt_fin_true by auto. apply nsqrt_fin; lra.
      - rewrite <- D. rewrite nlt_fin_false by lra. apply nsqrt_fin; lra. }
    rewrite Em. exists (sqrt (x * x + y * y + z * z - m * m)). split; [apply sqrt_pos|]. split; [repeat split|].
    rewrite KM. assert (E2 : m2 (PV x y z (sqrt (x * x + y * y + z * z - m * m))) = - (m * m)) by (unfold m2; cbn; rewrite sqrt_def by auto; ring).
    rewrite E2, nlt_fin_true by nra. rewrite nneg_fin, nsqrt_fin by nra. rewrite Ropp_involutive.
    replace (m * m) with ((- m) * (- m)) by ring. rewrite sqrt_square by lra. rewrite nneg_fin. f_equal; ring.
Qed.
Theorem C61_set_ptetaphie : forall a h f e,
  carries (SetPtEtaPhiE (Fin a) (Fin h) (Fin f) (Fin e)) (PV (Rabs a * cos f) (Rabs a * sin f) (Rabs a * sinh h) e).
Proof. repeat split. Qed.
(* Equal: all four components closer than 1e-14 *)
Theorem C61_equal : forall p q v w, carries p v -> carries q w ->
  (Equal p q = true <-> Rabs (px v - px w) < 1 / 10 ^ 14 /\ Rabs (py v - py w) < 1 / 10 ^ 14 /\
     Rabs (pz v - pz w) < 1 / 10 ^ 14 /\ Rabs (en v - en w) < 1 / 10 ^ 14).
Proof.
  intros p q v w (A & B & C1 & D) (A' & B' & C1' & D').
  assert (K : forall x y, cmpeq (Fin x) (Fin y) (Fin (1 / 10 ^ 14)) = true <-> Rabs (x - y) < 1 / 10 ^ 14).
  { intros x y. unfold cmpeq. rewrite nsub_fin, nabs_fin. cbn [neq nlt]. unfold req, rlt.
    assert (0 < 1 / 10 ^ 14) by (apply Rdiv_lt_0_compat; [lra | apply pow_lt; lra]).
    destruct (Req_EM_T x y) as [Ee|N], (Rlt_dec (Rabs (x - y)) (1 / 10 ^ 14)) as [L|L]; cbn [orb]; split; intros; auto; try discriminate.
    - rewrite Ee. replace (y - y) with 0 by ring. rewrite Rabs_R0; auto. }
  unfold Equal, p4equal. rewrite A, B, C1, D, A', B', C1', D'. rewrite !andb_true_iff, !K. tauto.
Qed.
(* it is not an equivalence: near vectors of near vectors *)
Theorem C61_equal_transitive_refuted : exists p q r, Equal p q = true /\ Equal q r = true /\ Equal p r = false.
Proof.
  set (d := 1 / 10 ^ 14). assert (0 < d) by (apply Rdiv_lt_0_compat; [lra | apply pow_lt; lra]).
  assert (K : forall x y, Equal (rcart (PV x 0 0 5)) (rcart (PV y 0 0 5)) = true <-> Rabs (x - y) < d).
  { intros x y. rewrite (C61_equal _ _ _ _ (rcart_carries _) (rcart_carries _)). cbn [px py pz en]. fold d.
    replace (0 - 0) with 0 by ring. replace (5 - 5) with 0 by ring. rewrite Rabs_R0. tauto. }
  exists (rcart (PV 0 0 0 5)), (rcart (PV (d * / 2) 0 0 5)), (rcart (PV d 0 0 5)).
  rewrite !K. split; [apply Rabs_def1; lra|]. split; [apply Rabs_def1; lra|].
  destruct (Equal (rcart (PV 0 0 0 5)) (rcart (PV d 0 0 5))) eqn:Q; [|reflexivity]. apply K in Q. apply Rabs_def2 in Q. lra.
Qed.

(* ---- what does not hold ---- *)
(* along the z axis: the conversion to (pt, eta, phi, m) gives a vector without momentum along z *)
Theorem C61_beam_refuted : exists v, 0 < en v /\ 0 < m2 v /\ carries (rcart v) v /\ Pz (Set4 PtEtaPhiM (rcart v)) = NaN.
Proof.
  exists (PV 0 0 3 5). split; [cbn; lra|]. split; [unfold m2; cbn; lra|]. split; [apply rcart_carries|].
  cbn. unfold c_Eta; cbn. rewrite rlt_false by lra. replace (0 * 0 + 0 * 0 + 3 * 3) with (3 * 3) by ring. rewrite sqrt_square by lra.
  unfold neq. rewrite req_false by lra. rewrite req_true by lra. unfold pt_Pz, pt_CotTh, c_Pt; cbn.
  rewrite rlt_false by lra. rewrite sign_fin; cbn. replace (0 * 0 + 0 * 0) with 0 by ring. rewrite sqrt_0, Rmult_0_r. rewrite req_true by reflexivity. reflexivity.
Qed.
(* at rest: the conversion to (Et, eta, phi, m) gives no energy *)
Theorem C61_rest_refuted : exists v, 0 < en v /\ 0 < m2 v /\ carries (rcart v) v /\ E (Set4 EtEtaPhiM (rcart v)) = NaN.
Proof.
  exists (PV 0 0 0 5). split; [cbn; lra|]. split; [unfold m2; cbn; lra|]. split; [apply rcart_carries|].
  cbn. unfold et_E, c_Et, c_SinTh, c_Pt, c_P; cbn. rewrite sign_fin. rewrite !rlt_false by lra. cbn.
  replace (0 * 0 + 0 * 0) with 0 by ring. replace (0 + 0 * 0) with 0 by ring. rewrite sqrt_0, Rmult_0_r.
  rewrite !req_true by reflexivity. reflexivity.
Qed.
(* so that the sum of two back-to-back particles given as (Et, eta, phi, m) has no energy and no mass *)
Theorem C61_add_rest_refuted : exists p q v w, good v /\ good w /\ faithful p v /\ faithful q w /\ kd p = EtEtaPhiM /\ 0 < en v /\ 0 < en w /\ E (Add p q) = NaN.
Proof.
  assert (As : forall x, Rabs (arcsinh (0 / x)) <= 710).
  { intros x. replace (0 / x) with 0 by (unfold Rdiv; ring). replace 0 with (sinh 0) at 1 by (unfold sinh; rewrite Ropp_0; lra).
    rewrite arcsinh_sinh, Rabs_R0. lra. }
  assert (G : forall x, x = 3 \/ x = -3 -> good (PV x 0 0 5)).
  { intros x Hx. split; [cbn; nra | unfold m2; cbn; nra |]. unfold eta; cbn. apply As. }
  exists (Set4 EtEtaPhiM (rcart (PV 3 0 0 5))), (rcart (PV (-3) 0 0 5)), (PV 3 0 0 5), (PV (-3) 0 0 5).
  pose proof (G 3 ltac:(auto)) as G1. pose proof (G (-3) ltac:(auto)) as G2.
  assert (F1 : faithful (Set4 EtEtaPhiM (rcart (PV 3 0 0 5))) (PV 3 0 0 5)) by (apply set_good; [exact G1 | discriminate]).
  assert (F2 : faithful (rcart (PV (-3) 0 0 5)) (PV (-3) 0 0 5)) by exact (cart_faithful _ G2).
  split; [exact G1|]. split; [exact G2|]. split; [exact F1|]. split; [exact F2|]. split; [reflexivity|]. split; [cbn; lra|]. split; [cbn; lra|].
  rewrite (add_rcart _ _ _ _ (faithful_carries _ _ F1) (faithful_carries _ _ F2)).
  change (kd (Set4 EtEtaPhiM (rcart (PV 3 0 0 5)))) with EtEtaPhiM.
  replace (vadd (PV 3 0 0 5) (PV (-3) 0 0 5)) with (PV 0 0 0 10) by (unfold vadd; cbn; f_equal; ring).
  cbn. unfold et_E, c_Et, c_SinTh, c_Pt, c_P; cbn. rewrite sign_fin. rewrite !rlt_false by lra. cbn.
  replace (0 * 0 + 0 * 0) with 0 by ring. replace (0 + 0 * 0) with 0 by ring. rewrite sqrt_0, Rmult_0_r.
  rewrite !req_true by reflexivity. reflexivity.
Qed.
(* negative energies: the sign is lost in (1/pt, cot, phi, m), which the other types keep *)
Theorem C61_negative_refuted : exists v, good v /\ faithful (rcart v) v /\ exists e, E (Set4 IPtCotThPhiM (rcart v)) = Fin e /\ e <> en v.
Proof.
  assert (G : good (PV 3 0 0 (-5))).
  { split; [cbn; lra | unfold m2; cbn; lra |]. unfold eta; cbn. replace (0 / pt (PV 3 0 0 (-5))) with 0 by (unfold Rdiv; ring).
    replace 0 with (sinh 0) at 1 by (unfold sinh; rewrite Ropp_0; lra). rewrite arcsinh_sinh, Rabs_R0. lra. }
  exists (PV 3 0 0 (-5)). split; [exact G|]. assert (F : faithful (rcart (PV 3 0 0 (-5))) (PV 3 0 0 (-5))) by exact (cart_faithful _ G). split; [exact F|].
  cbn [Set4].
  rewrite (f_IPt _ _ F), (f_CotTh _ _ F), (f_M _ _ F). cbn [E kd val]. unfold ip_E, ip_P, ip_M; cbn [vT vX vY ip_CotTh ip_IPt].
  assert (Hm : mass (PV 3 0 0 (-5)) = 4) by (unfold mass, m2; cbn; replace (-5 * -5 - (3 * 3 + 0 * 0 + 0 * 0)) with (4 * 4) by ring; apply sqrt_square; lra).
  assert (Hp : pt (PV 3 0 0 (-5)) = -3).
  { unfold pt, trans; cbn. replace (3 * 3 + 0 * 0) with (3 * 3) by ring. rewrite sqrt_square by lra. unfold sg; destruct (Rlt_dec (-5) 0); lra. }
  rewrite Hm, Hp. cbn [pz]. replace (0 / -3) with 0 by (unfold Rdiv; ring). rewrite neq_fin_false by lra.
  rewrite !nmul_fin, nadd_fin, nsqrt_fin by lra. rewrite ndiv_fin by lra.
  replace (1 + 0 * 0) with 1 by ring. rewrite sqrt_1. rewrite !nmul_fin, nadd_fin. replace (1 / (1 / -3) * (1 / (1 / -3)) + 4 * 4) with (5 * 5) by field.
  rewrite nsqrt_fin by lra. rewrite sqrt_square by lra. exists 5. split; [reflexivity | cbn; lra].
Qed.
(* spacelike vectors are changed: (pt, eta, phi, m) keeps the momentum and turns the energy 0 into sqrt 2 *)
Theorem C61_spacelike_refuted : exists v, carries (rcart v) v /\ exists e, E (Set4 PtEtaPhiM (rcart v)) = Fin e /\ e <> en v.
Proof.
  exists (PV 1 0 0 0). split; [apply rcart_carries|]. exists (sqrt 2).
  split; [| cbn; intros K; assert (0 < sqrt 2) by (apply sqrt_lt_R0; lra); lra].
  cbn. unfold c_M, c_M2, c_Pt, c_Eta; cbn. rewrite sign_fin.
  replace (0 * 0 + - (1 * 1 + 0 * 0 + 0 * 0)) with (-1) by ring. replace (1 * 1 + 0 * 0 + 0 * 0) with 1 by ring. replace (1 * 1 + 0 * 0) with 1 by ring.
  rewrite (rlt_true (-1) 0) by lra. rewrite ?(rlt_false 1 0), ?(rlt_false (- -1) 0) by lra. cbn. rewrite sqrt_1. rewrite !req_false by lra.
  unfold ndiv. replace (1 + - 0) with 1 by ring. replace ((1 + 0) / 1) with 1 by field.
  unfold nln. rewrite rlt_true by lra. rewrite ln_1. cbn. replace (- (-1)) with 1 by ring. rewrite sqrt_1. assert (S0 : sg 0 = 1) by (unfold sg; destruct (Rlt_dec 0 0); lra). rewrite S0.
  unfold pt_E, pt_Pz, pt_CotTh; cbn.
  rewrite Rmult_0_r. replace (sinh 0) with 0 by (unfold sinh; rewrite Ropp_0; lra).
  replace (1 * 1 * (1 * 1) + 1 * 1 * 0 * (1 * 1 * 0) + - (1) * - (1)) with 2 by ring.
  rewrite rlt_false by lra. unfold sign; cbn. rewrite rlt_false by lra. cbn. rewrite Rmult_1_l. reflexivity.
Qed.

(* the hypotheses are met *)
Lemma good_345 : good (PV 3 0 4 13).
Proof.
  split; [cbn; lra | unfold m2; cbn; lra |]. unfold eta, pt, trans; cbn.
  replace (3 * 3 + 0 * 0) with (3 * 3) by ring. rewrite sqrt_square by lra. unfold sg; destruct (Rlt_dec 13 0); [lra|].
  rewrite Rmult_1_l.
  assert (0 <= arcsinh (4 / 3)) by (rewrite <- arcsinh_0; left; apply arcsinh_lt; lra).
  rewrite Rabs_pos_eq by auto.
  assert (S1 : arcsinh (4 / 3) < arcsinh (sinh 2)).
  { apply arcsinh_lt. unfold sinh. pose proof (exp_ineq1 1 ltac:(lra)). pose proof (exp_pos (-2)).
    assert (A : exp 2 = exp 1 * exp 1) by (rewrite <- exp_plus; f_equal; lra).
    assert (B : exp (- (2)) * exp 2 = 1) by (rewrite <- exp_plus; replace (- (2) + 2) with 0 by ring; apply exp_0).
    assert (4 < exp 2) by nra. assert (exp (-(2)) < / 4). { apply (Rmult_lt_reg_r (exp 2)); [lra|]. rewrite B. lra. } lra. }
  rewrite arcsinh_sinh in S1. lra.
Qed.
Example C61_example : faithful (fold_left (fun p k => Set4 k p) [EEtaPhiM; PtEtaPhiM; IPtCotThPhiM; EtEtaPhiM] (rcart (PV 3 0 4 13))) (PV 3 0 4 13)
  /\ P (Set4 PtEtaPhiM (rcart (PV 3 0 4 13))) = Fin 5 /\ M (Set4 PtEtaPhiM (rcart (PV 3 0 4 13))) = Fin 12.
Proof.
  pose proof good_345 as G. split; [apply C61_convert_all; [exact G | exact (cart_faithful _ G) | cbn; lra]|].
  assert (F : faithful (Set4 PtEtaPhiM (rcart (PV 3 0 4 13))) (PV 3 0 4 13)) by (apply set_good; [exact G | discriminate]).
  split.
  - rewrite (f_P _ _ F). unfold pp, mag; cbn. replace (3 * 3 + 0 * 0 + 4 * 4) with (5 * 5) by ring. rewrite sqrt_square by lra.
    unfold sg; destruct (Rlt_dec 13 0); [lra|]. f_equal; ring.
  - rewrite (f_M _ _ F). unfold mass, m2; cbn. replace (13 * 13 - (3 * 3 + 0 * 0 + 4 * 4)) with (12 * 12) by ring. rewrite sqrt_square by lra. reflexivity.
Qed.

Print Assumptions C61_new_cart.
Print Assumptions C61_new_pt.
Print Assumptions C61_new_e.
Print Assumptions C61_new_et.
Print Assumptions C61_new_ipt.
Print Assumptions C61_convert.
Print Assumptions C61_convert_all.
Print Assumptions C61_add_cart.
Print Assumptions C61_add.
Print Assumptions C61_iadd.
Print Assumptions C61_scale.
Print Assumptions C61_set_ptetaphim.
Print Assumptions C61_set_ptetaphie.
Print Assumptions C61_equal.
Print Assumptions C61_equal_transitive_refuted.
Print Assumptions C61_beam_refuted.
Print Assumptions C61_rest_refuted.
Print Assumptions C61_add_rest_refuted.
Print Assumptions C61_negative_refuted.
Print Assumptions C61_spacelike_refuted.
Print Assumptions C61_example.
