(* C62: boosts, invariant masses and angles of four-momenta. *)
From Coq Require Import Reals ZArith Bool Lra Psatz List.
From Flocq Require Import Core.Raux Core.Generic_fmt Core.Round_NE.
From Verif Require Import GoLib FmomModel FmomProofs FmomProps.
Import ListNotations.
Local Open Scope R_scope.

Record bv := BV { bx : R; by_ : R; bz : R }.
Definition vec (b : bv) : vec3 := V3 (Fin (bx b)) (Fin (by_ b)) (Fin (bz b)).
Definition b2 (b : bv) : R := bx b * bx b + by_ b * by_ b + bz b * bz b.
Definition bneg (b : bv) : bv := BV (- bx b) (- by_ b) (- bz b).
Definition bscale (a : R) (b : bv) : bv := BV (a * bx b) (a * by_ b) (a * bz b).
Definition bdot (b : bv) (v : pv) : R := bx b * px v + by_ b * py v + bz b * pz v.
Definition gam (b : bv) : R := 1 / sqrt (1 - b2 b).
Definition lor (b : bv) (v : pv) : pv :=
  if Req_EM_T (b2 b) 0 then v
  else let g := gam b in let al := (g - 1) / b2 b * bdot b v + g * en v in
       PV (px v + al * bx b) (py v + al * by_ b) (pz v + al * bz b) (g * (en v + bdot b v)).

Lemma b2_nonneg : forall b, 0 <= b2 b.
Proof. intros b; unfold b2; nra. Qed.
Lemma b2_zero : forall b, b2 b = 0 -> bx b = 0 /\ by_ b = 0 /\ bz b = 0.
Proof. intros b H; unfold b2 in H. repeat split; nra. Qed.

Lemma boost_lor : forall p v b, carries p v -> b2 b < 1 ->
  Boost p (vec b) = if Req_EM_T (b2 b) 0 then p else Set4 (kd p) (rcart (lor b v)).
Proof.
  intros p v b (A & B & C1 & D) Hb. unfold Boost, lor. cbn [vec wX wY wZ].
  destruct (Req_EM_T (b2 b) 0) as [Z0|Z0].
  - destruct (b2_zero b Z0) as (-> & -> & ->). rewrite !neq_fin_true by reflexivity. reflexivity.
  - assert (N : neq (Fin (bx b)) (Fin 0) && neq (Fin (by_ b)) (Fin 0) && neq (Fin (bz b)) (Fin 0) = false).
    { cbn. unfold req. destruct (Req_EM_T (bx b) 0) as [K1|]; [|reflexivity]. destruct (Req_EM_T (by_ b) 0) as [K2|]; [|reflexivity].
      destruct (Req_EM_T (bz b) 0) as [K3|]; [|reflexivity]. exfalso; apply Z0; unfold b2; rewrite K1, K2, K3; ring. }
    rewrite N. unfold VecOf. rewrite A, B, C1, D. cbv zeta.
    assert (S1 : 0 < sqrt (1 - b2 b)) by (apply sqrt_lt_R0; lra).
    change (dot3 (vec b) (vec b)) with (Fin (b2 b)).
    change (dot3 (vec b) (V3 (Fin (px v)) (Fin (py v)) (Fin (pz v)))) with (Fin (bdot b v)).
    rewrite nsub_fin, nsqrt_fin by lra. rewrite ndiv_fin by lra. fold (gam b). rewrite nsub_fin, ndiv_fin by auto. reflexivity.
Qed.
Lemma set_cart_cart : forall v, Set4 PxPyPzE (rcart v) = rcart v. Proof. reflexivity. Qed.
Lemma boost_cart : forall v b, b2 b < 1 -> Boost (rcart v) (vec b) = rcart (lor b v).
Proof.
  intros v b Hb. rewrite (boost_lor _ v b (rcart_carries v) Hb). unfold lor. destruct (Req_EM_T (b2 b) 0); reflexivity.
Qed.

(* the relations between gamma and k = (gamma-1)/b^2 *)
Lemma gam_rel : forall b, b2 b < 1 -> b2 b <> 0 ->
  let g := gam b in let k := (g - 1) / b2 b in
  0 < g /\ g * g * b2 b = g * g - 1 /\ k * b2 b = g - 1 /\ g * k = g * g - k.
Proof.
  intros b Hb Hn g k.
  assert (S1 : 0 < sqrt (1 - b2 b)) by (apply sqrt_lt_R0; lra).
  assert (S2 : sqrt (1 - b2 b) * sqrt (1 - b2 b) = 1 - b2 b) by (apply sqrt_def; lra).
  assert (Hg : 0 < g) by (apply Rdiv_lt_0_compat; lra).
  assert (G2 : g * g * (1 - b2 b) = 1) by (rewrite <- S2; unfold g, gam; field; lra).
  assert (K1 : k * b2 b = g - 1) by (unfold k; field; auto).
  assert (G3 : g * g * b2 b = g * g - 1) by lra.
  split; [exact Hg|]. split; [exact G3|]. split; [exact K1|].
  apply (Rmult_eq_reg_r (b2 b)); [|auto]. replace ((g * g - k) * b2 b) with (g * g * b2 b - k * b2 b) by ring. rewrite G3, K1.
  replace (g * k * b2 b) with (g * (k * b2 b)) by ring. rewrite K1. ring.
Qed.

Definition mdot (v w : pv) : R := en v * en w - px v * px w - py v * py w - pz v * pz w.
Lemma lor_dot : forall b v w, b2 b < 1 -> mdot (lor b v) (lor b w) = mdot v w.
Proof.
  intros b v w Hb. unfold lor. destruct (Req_EM_T (b2 b) 0) as [|Hn]; [reflexivity|].
  destruct (gam_rel b Hb Hn) as (_ & R1 & R2 & R3). cbv zeta in *.
  set (g := gam b) in *. set (k := (g - 1) / b2 b) in *. unfold mdot; cbn.
  set (B := bdot b v). set (D := bdot b w). set (e := en v). set (f := en w).
  set (av := k * B + g * e). set (aw := k * D + g * f).
  transitivity (g * (e + B) * (g * (f + D)) - (px v * px w + py v * py w + pz v * pz w) - (aw * B + av * D + av * aw * b2 b)).
  { unfold B, D, b2, bdot. ring. }
  assert (X : av * aw * b2 b = (g - 1) * (k * B * D + g * (B * f + D * e)) + (g * g - 1) * e * f).
  { transitivity ((k * b2 b) * (k * B * D + g * (B * f + D * e)) + (g * g * b2 b) * e * f); [unfold av, aw; ring|]. rewrite R1, R2. reflexivity. }
  rewrite X. unfold av, aw.
  transitivity (e * f - (px v * px w + py v * py w + pz v * pz w) + (g * g - k - g * k) * (B * D)); [ring|]. rewrite R3. ring.
Qed.
Lemma b2_neg : forall b, b2 (bneg b) = b2 b. Proof. intros b; unfold b2; cbn; ring. Qed.
Lemma pv_eq : forall v w, px v = px w -> py v = py w -> pz v = pz w -> en v = en w -> v = w.
Proof. intros [a b c d] [a' b' c' d']; cbn; intros -> -> -> ->; reflexivity. Qed.
Lemma lor_inverse : forall b v, b2 b < 1 -> lor (bneg b) (lor b v) = v.
Proof.
  intros b v Hb. unfold lor. rewrite b2_neg. destruct (Req_EM_T (b2 b) 0) as [|Hn]; [reflexivity|].
  destruct (gam_rel b Hb Hn) as (_ & R1 & R2 & R3). cbv zeta in *.
  assert (Eg : gam (bneg b) = gam b) by (unfold gam; rewrite b2_neg; reflexivity). rewrite Eg.
  set (g := gam b) in *. set (k := (g - 1) / b2 b) in *.
  set (B := bdot b v). set (e := en v). set (al := k * B + g * e).
  set (v' := PV (px v + al * bx b) (py v + al * by_ b) (pz v + al * bz b) (g * (e + B))).
  assert (B' : bdot (bneg b) v' = - (B + al * b2 b)) by (unfold bdot, v', B, b2, bdot; cbn; ring).
  assert (X : al * b2 b = (g - 1) * B + g * b2 b * e).
  { transitivity ((k * b2 b) * B + g * b2 b * e); [unfold al; ring | rewrite R2; ring]. }
  assert (Y : k * bdot (bneg b) v' + g * en v' = al).
  { rewrite B'. unfold v'; cbn [en].
    transitivity (- k * B - (k * b2 b) * (k * B + g * e) + g * g * (e + B)); [unfold al; ring|]. rewrite R2.
    transitivity (g * e + B * (g * g - g * k)); [ring|]. rewrite R3. unfold al; ring. }
  apply pv_eq.
  - change (px v + al * bx b + (k * bdot (bneg b) v' + g * en v') * - bx b = px v). rewrite Y; ring.
  - change (py v + al * by_ b + (k * bdot (bneg b) v' + g * en v') * - by_ b = py v). rewrite Y; ring.
  - change (pz v + al * bz b + (k * bdot (bneg b) v' + g * en v') * - bz b = pz v). rewrite Y; ring.
  - change (g * (g * (e + B) + bdot (bneg b) v') = e). rewrite B', X. transitivity (g * g * e - g * g * b2 b * e); [ring|]. rewrite R1. ring.
Qed.

(* the scalar product of any two vectors, and with it every mass, is that before the boost *)
Theorem C62_invariant : forall p q v w b, kd p = PxPyPzE -> kd q = PxPyPzE -> carries p v -> carries q w -> b2 b < 1 ->
  Dot (Boost p (vec b)) (Boost q (vec b)) = Dot p q /\ M2 (Boost p (vec b)) = M2 p /\ M (Boost p (vec b)) = M p /\
  InvMass (Boost p (vec b)) (Boost q (vec b)) = InvMass p q.
Proof.
  intros p q v w b Kp Kq Cp Cq Hb. rewrite (carries_cart p v Kp Cp), (carries_cart q w Kq Cq). rewrite !boost_cart by auto.
  assert (DD : forall v w, Dot (rcart v) (rcart w) = Fin (mdot v w)) by (intros; reflexivity).
  assert (MM : forall v, M2 (rcart v) = Fin (mdot v v)).
  { intros u. cbn. unfold c_M2; cbn. f_equal. unfold mdot; ring. }
  assert (M1 : forall u u', mdot u u = mdot u' u' -> M (rcart u) = M (rcart u')).
  { intros u u' K.
    assert (Mr : forall u, M (rcart u) = (let m2 := M2 (rcart u) in if nlt m2 (Fin 0) then nneg (nsqrt (nneg m2)) else nsqrt m2)) by reflexivity.
    rewrite !Mr, !MM, K. reflexivity. }
  split; [rewrite !DD, lor_dot by auto; reflexivity|]. split; [rewrite !MM, lor_dot by auto; reflexivity|].
  split; [apply M1, lor_dot; auto|].
  unfold InvMass. rewrite !(add_rcart _ _ _ _ (rcart_carries _) (rcart_carries _)). cbn [rcart New kd]. apply M1.
  assert (Q : forall a c, mdot (vadd a c) (vadd a c) = mdot a a + mdot c c + 2 * mdot a c) by (intros; unfold mdot; cbn; ring).
  rewrite !Q, !lor_dot by auto. reflexivity.
Qed.
(* a boost and the opposite one *)
Theorem C62_inverse : forall p v b, kd p = PxPyPzE -> carries p v -> b2 b < 1 -> Boost (Boost p (vec b)) (vec (bneg b)) = p.
Proof.
  intros p v b Kp Cp Hb. rewrite (carries_cart p v Kp Cp). rewrite !boost_cart, lor_inverse; auto. rewrite b2_neg; auto.
Qed.

(* the boost of a vector *)
Definition beta_of (v : pv) : bv := BV (1 / en v * px v) (1 / en v * py v) (1 / en v * pz v).
Lemma beta_lt1 : forall v, 0 < m2 v -> en v <> 0 -> b2 (beta_of v) < 1.
Proof.
  intros v Hm He. unfold b2; cbn. unfold m2 in Hm. assert (0 < en v * en v) by nra.
  replace (1 / en v * px v * (1 / en v * px v) + 1 / en v * py v * (1 / en v * py v) + 1 / en v * pz v * (1 / en v * pz v))
    with ((px v * px v + py v * py v + pz v * pz v) / (en v * en v)) by (field; auto).
  apply (Rmult_lt_reg_r (en v * en v)); [auto|]. replace ((px v * px v + py v * py v + pz v * pz v) / (en v * en v) * (en v * en v)) with (px v * px v + py v * py v + pz v * pz v) by (field; auto). lra.
Qed.
Theorem C62_boostof : forall p v, kd p = PxPyPzE -> carries p v ->
  match BoostOf p with
  | Ok b => (m2 v > 0 /\ en v <> 0 /\ b = vec (beta_of v)) \/ (v = PV 0 0 0 0 /\ b = vec (BV 0 0 0))
  | Panic => m2 v <= 0 /\ v <> PV 0 0 0 0
  end.
Proof.
  intros p v Kp Cp. rewrite (carries_cart p v Kp Cp). unfold BoostOf. cbn [E rcart New kd val c_E vT].
  assert (P2e : P2 (rcart v) = Fin (px v * px v + py v * py v + pz v * pz v)) by reflexivity.
  assert (M2e : M2 (rcart v) = Fin (m2 v)) by reflexivity.
  change (P2 (New PxPyPzE (Fin (px v)) (Fin (py v)) (Fin (pz v)) (Fin (en v)))) with (P2 (rcart v)).
  change (M2 (New PxPyPzE (Fin (px v)) (Fin (py v)) (Fin (pz v)) (Fin (en v)))) with (M2 (rcart v)).
  rewrite P2e, M2e. destruct (Req_dec (en v) 0) as [He|He].
  - rewrite neq_fin_true by auto. destruct (Req_dec (px v * px v + py v * py v + pz v * pz v) 0) as [K|K].
    + rewrite neq_fin_true by auto. right. split; [|reflexivity]. apply pv_eq; cbn; nra.
    + rewrite neq_fin_false by auto. split; [unfold m2; rewrite He; nra|]. intros ->; cbn in K; lra.
  - rewrite neq_fin_false by auto. destruct (Rle_lt_dec (m2 v) 0) as [L|L].
    + assert (Eb : nlt (Fin (m2 v)) (Fin 0) || neq (Fin (m2 v)) (Fin 0) = true).
      { destruct L as [L|L]; [rewrite nlt_fin_true by auto; reflexivity | rewrite (neq_fin_true _ _ L); apply orb_true_r]. }
      rewrite Eb. split; [auto|]. intros ->; cbn in He; lra.
    + rewrite nlt_fin_false, neq_fin_false by lra. cbn [orb]. rewrite ndiv_fin by auto. left. repeat split; auto; lra.
Qed.
(* its speed is below that of light *)
Theorem C62_speed : forall p v b, kd p = PxPyPzE -> carries p v -> BoostOf p = Ok (vec b) -> b2 b < 1.
Proof.
  intros p v b Kp Cp H. pose proof (C62_boostof p v Kp Cp) as K. rewrite H in K.
  destruct K as [(A & B & K)|(A & K)]; unfold vec in K.
  - assert (b = beta_of v) as ->. { destruct b as [c d e]; cbn in K. injection K; intros; subst; reflexivity. } apply beta_lt1; auto.
  - assert (b = BV 0 0 0) as ->. { destruct b as [c d e]; cbn in K. injection K; intros; subst; reflexivity. } unfold b2; cbn; lra.
Qed.
Lemma gam_beta : forall v, 0 < m2 v -> 0 < en v -> gam (beta_of v) = en v / mass v.
Proof.
  intros v Hm He. unfold gam. assert (Hs : 0 < mass v) by (apply sqrt_lt_R0; auto).
  replace (1 - b2 (beta_of v)) with ((mass v / en v) * (mass v / en v)).
  - rewrite sqrt_square by (apply Rlt_le, Rdiv_lt_0_compat; auto). field; lra.
  - replace (mass v / en v * (mass v / en v)) with ((mass v * mass v) / (en v * en v)) by (field; lra).
    unfold mass. rewrite sqrt_def by lra. unfold b2, m2; cbn. field; lra.
Qed.
Lemma lor_from_rest : forall v, 0 < m2 v -> 0 < en v -> lor (beta_of v) (PV 0 0 0 (mass v)) = v.
Proof.
  intros v Hm He. assert (Hs : 0 < mass v) by (apply sqrt_lt_R0; auto). assert (Ms : mass v * mass v = m2 v) by (apply sqrt_def; lra).
  unfold lor. destruct (Req_EM_T (b2 (beta_of v)) 0) as [Z0|Z0].
  - destruct (b2_zero _ Z0) as (A & B & D). cbn in A, B, D.
    assert (I : 1 / en v <> 0) by (apply Rgt_not_eq, Rdiv_lt_0_compat; lra).
    apply Rmult_integral in A, B, D. assert (px v = 0) by tauto. assert (py v = 0) by tauto. assert (pz v = 0) by tauto.
    apply pv_eq; cbn; auto. unfold m2 in Ms. rewrite H, H0, H1 in Ms. apply Rsqr_inj; [lra | lra | unfold Rsqr; lra].
  - rewrite gam_beta by auto. unfold bdot; cbn. apply pv_eq; cbn; field; lra.
Qed.
(* a massive vector is at rest in its own frame, and comes from there *)
Theorem C62_rest : forall p v, kd p = PxPyPzE -> carries p v -> 0 < m2 v -> 0 < en v ->
  exists b, BoostOf p = Ok (vec b) /\ carries (Boost p (vec (bneg b))) (PV 0 0 0 (mass v)) /\
    Boost (rcart (PV 0 0 0 (mass v))) (vec b) = p.
Proof.
  intros p v Kp Cp Hm He. exists (beta_of v). pose proof (C62_boostof p v Kp Cp) as K.
  assert (Hb : b2 (beta_of v) < 1) by (apply beta_lt1; lra).
  assert (Ob : BoostOf p = Ok (vec (beta_of v))).
  { destruct (BoostOf p) as [b|]; [|lra]. destruct K as [(_ & _ & ->)|(-> & _)]; [reflexivity | cbn in He; lra]. }
  split; [exact Ob|]. rewrite (carries_cart p v Kp Cp).
  assert (R0 : Boost (rcart (PV 0 0 0 (mass v))) (vec (beta_of v)) = rcart v) by (rewrite boost_cart, lor_from_rest; auto).
  split; [|exact R0]. rewrite <- R0.
  rewrite (C62_inverse _ (PV 0 0 0 (mass v)) (beta_of v)); [apply rcart_carries | reflexivity | apply rcart_carries | exact Hb].
Qed.

(* boosts along one direction n: velocities add as (b+c)/(1+bc) *)
Lemma gam_dir : forall n b, b2 n = 1 -> b2 (bscale b n) = b * b.
Proof. intros n b H. unfold b2 in *; cbn. transitivity (b * b * (bx n * bx n + by_ n * by_ n + bz n * bz n)); [ring | rewrite H; ring]. Qed.
Lemma lor_dir : forall n b v, b2 n = 1 -> -1 < b < 1 ->
  let g := 1 / sqrt (1 - b * b) in let s := bdot n v in
  lor (bscale b n) v = PV (px v + ((g - 1) * s + g * b * en v) * bx n) (py v + ((g - 1) * s + g * b * en v) * by_ n)
    (pz v + ((g - 1) * s + g * b * en v) * bz n) (g * (en v + b * s)).
Proof.
  intros n b v Hn Hb g s. unfold lor. rewrite gam_dir by auto. unfold gam. rewrite gam_dir by auto. fold g.
  assert (Eb : bdot (bscale b n) v = b * s) by (unfold s, bdot; cbn; ring).
  destruct (Req_EM_T (b * b) 0) as [Z0|Z0].
  - assert (b = 0) by nra. subst b. assert (g = 1) by (unfold g; replace (1 - 0 * 0) with 1 by ring; rewrite sqrt_1; lra).
    rewrite H. apply pv_eq; cbn; ring.
  - rewrite Eb. assert (b <> 0) by nra. cbv zeta. apply pv_eq; cbn; field; auto.
Qed.
Theorem C62_compose : forall p v n b c, kd p = PxPyPzE -> carries p v -> b2 n = 1 -> -1 < b < 1 -> -1 < c < 1 ->
  Boost (Boost p (vec (bscale b n))) (vec (bscale c n)) = Boost p (vec (bscale ((b + c) / (1 + b * c)) n)).
Proof.
  intros p v n b c Kp Cp Hn Hb Hc. rewrite (carries_cart p v Kp Cp).
  set (d := (b + c) / (1 + b * c)). assert (H1 : 0 < 1 + b * c) by nra.
  assert (Hd : -1 < d < 1).
  { unfold d; split; apply (Rmult_lt_reg_r (1 + b * c)); auto; unfold Rdiv; rewrite Rmult_assoc, Rinv_l by lra; nra. }
  rewrite !boost_cart by (rewrite gam_dir by auto; nra). f_equal.
  rewrite (lor_dir n b) by auto. cbv zeta. set (v' := PV _ _ _ _). rewrite (lor_dir n c), (lor_dir n d) by auto. cbv zeta.
  assert (Sb : 0 < sqrt (1 - b * b)) by (apply sqrt_lt_R0; nra). assert (Sc : 0 < sqrt (1 - c * c)) by (apply sqrt_lt_R0; nra).
  assert (Sb2 : sqrt (1 - b * b) * sqrt (1 - b * b) = 1 - b * b) by (apply sqrt_def; nra).
  assert (Sc2 : sqrt (1 - c * c) * sqrt (1 - c * c) = 1 - c * c) by (apply sqrt_def; nra).
  assert (Sd : sqrt (1 - d * d) = sqrt (1 - b * b) * sqrt (1 - c * c) / (1 + b * c)).
  { apply Rsqr_inj; [apply sqrt_pos | apply Rlt_le, Rdiv_lt_0_compat; [apply Rmult_lt_0_compat|]; auto |]. unfold Rsqr. rewrite sqrt_def by nra.
    transitivity ((sqrt (1 - b * b) * sqrt (1 - b * b)) * (sqrt (1 - c * c) * sqrt (1 - c * c)) / ((1 + b * c) * (1 + b * c))); [|field; lra].
    rewrite Sb2, Sc2. unfold d; field; lra. }
  set (gb := 1 / sqrt (1 - b * b)) in *. set (gc := 1 / sqrt (1 - c * c)) in *.
  assert (Gd : 1 / sqrt (1 - d * d) = gb * gc * (1 + b * c)) by (rewrite Sd; unfold gb, gc; field; lra).
  rewrite Gd. set (s := bdot n v) in *.
  assert (S' : bdot n v' = s + ((gb - 1) * s + gb * b * en v)).
  { unfold v', bdot; cbn. transitivity (bdot n v + ((gb - 1) * s + gb * b * en v) * b2 n); [unfold bdot, b2; ring | rewrite Hn; fold s; ring]. }
  rewrite S'. unfold v'; cbn [px py pz en].
  assert (Ga : gb * gc * (1 + b * c) * d = gb * gc * (b + c)) by (unfold d; field; lra).
  apply pv_eq; cbn [px py pz en].
  - transitivity (px v + ((gb * gc * (1 + b * c) - 1) * s + gb * gc * (1 + b * c) * d * en v) * bx n); [rewrite Ga; ring | ring].
  - transitivity (py v + ((gb * gc * (1 + b * c) - 1) * s + gb * gc * (1 + b * c) * d * en v) * by_ n); [rewrite Ga; ring | ring].
  - transitivity (pz v + ((gb * gc * (1 + b * c) - 1) * s + gb * gc * (1 + b * c) * d * en v) * bz n); [rewrite Ga; ring | ring].
  - transitivity (gb * gc * (1 + b * c) * en v + gb * gc * (1 + b * c) * d * s); [rewrite Ga; ring | ring].
Qed.
(* along the beam: the transverse momentum is kept and the rapidity is shifted by the same amount for all *)
Theorem C62_rapidity : forall p v b, kd p = PxPyPzE -> carries p v -> Rabs (pz v) < en v -> -1 < b < 1 ->
  let q := Boost p (vec (BV 0 0 b)) in
  Px q = Px p /\ Py q = Py p /\ exists y, Rapidity p = Fin y /\ Rapidity q = Fin (y + 1 / 2 * ln ((1 + b) / (1 - b))).
Proof.
  intros p v b Kp Cp Hz Hb q.
  assert (Hab : - en v < pz v < en v) by (apply Rabs_def2 in Hz; lra).
  assert (Qe : q = rcart (lor (bscale b (BV 0 0 1)) v)).
  { unfold q. replace (BV 0 0 b) with (bscale b (BV 0 0 1)) by (unfold bscale; cbn; f_equal; ring).
    rewrite (carries_cart p v Kp Cp). apply boost_cart. rewrite gam_dir; [nra | unfold b2; cbn; ring]. }
  rewrite (lor_dir (BV 0 0 1) b v) in Qe; [|unfold b2; cbn; ring | auto]. cbv zeta in Qe.
  rewrite (carries_cart p v Kp Cp). rewrite Qe. cbn [bx by_ bz].
  split; [cbn; f_equal; ring|]. split; [cbn; f_equal; ring|].
  set (g := 1 / sqrt (1 - b * b)). assert (S0 : 0 < sqrt (1 - b * b)) by (apply sqrt_lt_R0; nra). assert (Hg : 0 < g) by (apply Rdiv_lt_0_compat; lra).
  assert (RR : forall u, 0 < en u + pz u -> 0 < en u - pz u -> Rapidity (rcart u) = Fin (1 / 2 * ln ((en u + pz u) / (en u - pz u)))).
  { intros u A B. cbn. unfold c_Rapidity; cbn. rewrite !req_false by lra. unfold Rminus in *.
    unfold nln. rewrite rlt_true by (apply Rdiv_lt_0_compat; lra). reflexivity. }
  exists (1 / 2 * ln ((en v + pz v) / (en v - pz v))). split; [apply RR; lra|].
  assert (Sn : bdot (BV 0 0 1) v = pz v) by (unfold bdot; cbn; ring). rewrite Sn.
  set (u := PV _ _ _ _).
  assert (U1 : en u + pz u = g * (1 + b) * (en v + pz v)) by (unfold u; cbn; ring).
  assert (U2 : en u - pz u = g * (1 - b) * (en v - pz v)) by (unfold u; cbn; ring).
  clearbody g.
  assert (V1 : 0 < en u + pz u) by (rewrite U1; apply Rmult_lt_0_compat; [apply Rmult_lt_0_compat|]; lra).
  assert (V2 : 0 < en u - pz u) by (rewrite U2; apply Rmult_lt_0_compat; [apply Rmult_lt_0_compat|]; lra).
  rewrite (RR u V1 V2), U1, U2.
  f_equal. rewrite <- Rmult_plus_distr_l. f_equal.
  rewrite <- ln_mult; [|apply Rdiv_lt_0_compat; lra | apply Rdiv_lt_0_compat; lra]. f_equal. field; repeat split; lra.
Qed.
(* the other types: when the boosted vector can be held by them *)
Theorem C62_kinds : forall p v b, faithful p v -> b2 b < 1 -> good (lor b v) -> (kd p = IPtCotThPhiM -> 0 < en (lor b v) \/ mass (lor b v) = 0) ->
  kd (Boost p (vec b)) = kd p /\ faithful (Boost p (vec b)) (lor b v).
Proof.
  intros p v b F Hb G Hk. rewrite (boost_lor p v b (faithful_carries p v F) Hb).
  destruct (Req_EM_T (b2 b) 0) as [Z0|Z0].
  - split; [reflexivity|]. unfold lor. destruct (Req_EM_T (b2 b) 0); [exact F | tauto].
  - split; [destruct (kd p); reflexivity | apply set_good; auto].
Qed.

Lemma sq_nonneg : forall a, 0 <= a * a. Proof. intros a; apply (Rle_0_sqr a). Qed.
Lemma cauchy : forall a b c x y z, (a * x + b * y + c * z) * (a * x + b * y + c * z) <= (a * a + b * b + c * c) * (x * x + y * y + z * z).
Proof.
  intros. pose proof (sq_nonneg (a * y - b * x)). pose proof (sq_nonneg (a * z - c * x)). pose proof (sq_nonneg (b * z - c * y)). lra.
Qed.
(* ---- invariant masses: at least the sum of the masses ---- *)
Lemma mdot_ge : forall v w, 0 <= m2 v -> 0 <= m2 w -> 0 <= en v -> 0 <= en w -> mass v * mass w <= mdot v w.
Proof.
  intros v w Hv Hw Ev Ew.
  assert (A : mass v * mass v = m2 v) by (apply sqrt_def; auto). assert (B : mass w * mass w = m2 w) by (apply sqrt_def; auto).
  assert (A0 : 0 <= mass v) by apply sqrt_pos. assert (B0 : 0 <= mass w) by apply sqrt_pos.
  set (a := mass v) in *. set (b := mass w) in *. unfold m2 in *.
  set (s := px v * px w + py v * py w + pz v * pz w).
  assert (CS : s * s <= (px v * px v + py v * py v + pz v * pz v) * (px w * px w + py w * py w + pz w * pz w)).
  { unfold s. apply cauchy. }
  assert (X1 : a <= en v).
  { apply Rsqr_incr_0_var; [|auto]. unfold Rsqr. pose proof (sq_nonneg (px v)). pose proof (sq_nonneg (py v)). pose proof (sq_nonneg (pz v)). lra. }
  assert (X2 : b <= en w).
  { apply Rsqr_incr_0_var; [|auto]. unfold Rsqr. pose proof (sq_nonneg (px w)). pose proof (sq_nonneg (py w)). pose proof (sq_nonneg (pz w)). lra. }
  assert (P1 : px v * px v + py v * py v + pz v * pz v = en v * en v - a * a) by lra.
  assert (P2 : px w * px w + py w * py w + pz w * pz w = en w * en w - b * b) by lra.
  rewrite P1, P2 in CS.
  assert (Y : s * s <= (en v * en w - a * b) * (en v * en w - a * b)).
  { pose proof (sq_nonneg (en v * b - a * en w)). lra. }
  assert (Z1 : 0 <= en v * en w - a * b) by nra.
  assert (s <= en v * en w - a * b) by (apply Rsqr_incr_0_var; unfold Rsqr; auto).
  unfold mdot, s in *. lra.
Qed.
Theorem C62_invmass : forall p q v w, kd p = PxPyPzE -> carries p v -> carries q w -> 0 <= m2 v -> 0 <= m2 w -> 0 <= en v -> 0 <= en w ->
  exists m, InvMass p q = Fin m /\ mass v + mass w <= m /\ m * m = m2 v + m2 w + 2 * mdot v w.
Proof.
  intros p q v w Kp Cp Cq Hv Hw Ev Ew. pose proof (mdot_ge v w Hv Hw Ev Ew) as K.
  assert (A0 : 0 <= mass v) by apply sqrt_pos. assert (B0 : 0 <= mass w) by apply sqrt_pos.
  assert (A : mass v * mass v = m2 v) by (apply sqrt_def; auto). assert (B : mass w * mass w = m2 w) by (apply sqrt_def; auto).
  assert (E1 : m2 (vadd v w) = m2 v + m2 w + 2 * mdot v w) by (unfold m2, mdot; cbn; ring).
  exists (mass (vadd v w)). unfold InvMass. rewrite (add_rcart p q v w Cp Cq), Kp.
  split.
  - cbn. unfold c_M, c_M2; cbn.
    change (en v + en w) with (en (vadd v w)). change (px v + px w) with (px (vadd v w)). change (py v + py w) with (py (vadd v w)). change (pz v + pz w) with (pz (vadd v w)).
    fold (Rminus (en (vadd v w) * en (vadd v w)) (px (vadd v w) * px (vadd v w) + py (vadd v w) * py (vadd v w) + pz (vadd v w) * pz (vadd v w))).
    fold (m2 (vadd v w)). rewrite rlt_false by (rewrite E1; nra). reflexivity.
  - split; [|unfold mass at 1 2; rewrite sqrt_def; [exact E1 | rewrite E1; nra]].
    apply Rsqr_incr_0_var; [|apply sqrt_pos]. unfold Rsqr. unfold mass at 5 6. rewrite sqrt_def by (rewrite E1; nra). rewrite E1. nra.
Qed.
Theorem C62_invmass_sym : forall p q v w, kd p = PxPyPzE -> kd q = PxPyPzE -> carries p v -> carries q w -> InvMass p q = InvMass q p.
Proof.
  intros p q v w Kp Kq Cp Cq. unfold InvMass. rewrite (add_rcart p q v w Cp Cq), (add_rcart q p w v Cq Cp), Kp, Kq.
  replace (vadd w v) with (vadd v w); [reflexivity|]. apply pv_eq; cbn; ring.
Qed.

(* ---- angles ---- *)
Theorem C62_costheta : forall p q v w, faithful p v -> faithful q w -> good v -> good w ->
  exists c, CosTheta p q = Fin c /\ -1 <= c <= 1 /\ px v * px w + py v * py w + pz v * pz w = c * (mag v * mag w).
Proof.
  intros p q v w F1 F2 G1 G2. unfold CosTheta, VecOf.
  rewrite (f_Px _ _ F1), (f_Py _ _ F1), (f_Pz _ _ F1), (f_P2 _ _ F1), (f_Px _ _ F2), (f_Py _ _ F2), (f_Pz _ _ F2), (f_P2 _ _ F2).
  pose proof (w2_pos v G1) as W1. pose proof (w2_pos w G2) as W2. cbv zeta in W1, W2. pose proof (w_pos v G1) as Q1. pose proof (w_pos w G2) as Q2. cbv zeta in Q1, Q2.
  assert (Pp : 0 < (px v * px v + py v * py v + pz v * pz v) * (px w * px w + py w * py w + pz w * pz w)) by (apply Rmult_lt_0_compat; auto).
  rewrite nmul_fin, nsqrt_fin by lra. rewrite sqrt_mult by lra. fold (mag v) (mag w).
  set (s := px v * px w + py v * py w + pz v * pz w).
  assert (Qp : 0 < mag v * mag w) by (apply Rmult_lt_0_compat; auto).
  change (dot3 _ _) with (Fin s). rewrite ndiv_fin by lra. eexists; split; [reflexivity|].
  assert (CS : s * s <= (mag v * mag w) * (mag v * mag w)).
  { replace ((mag v * mag w) * (mag v * mag w)) with ((mag v * mag v) * (mag w * mag w)) by ring.
    rewrite (w_sq v G1), (w_sq w G2). unfold s. apply cauchy. }
  split; [|field; lra].
  assert (B : - (mag v * mag w) <= s <= mag v * mag w) by nra.
  split; apply (Rmult_le_reg_r (mag v * mag w)); auto; unfold Rdiv; rewrite Rmult_assoc, Rinv_l by lra; lra.
Qed.

Definition rem (x y : R) : R := x - IZR (ZnearestE (x / y)) * y.
Lemma rem_bound : forall x y, 0 < y -> - (y / 2) <= rem x y <= y / 2.
Proof.
  intros x y Hy. unfold rem. pose proof (Znearest_half (fun t => negb (Z.even t)) (x / y)) as H. apply Rabs_le_inv in H.
  assert (x = x / y * y) by (field; lra). set (n := IZR (ZnearestE (x / y))) in *. nra.
Qed.
Lemma rem_min : forall x y n, 0 < y -> Rabs (rem x y) <= Rabs (x - IZR n * y).
Proof.
  intros x y n Hy. pose proof (rem_bound x y Hy) as B. unfold rem in *. set (N := ZnearestE (x / y)) in *.
  destruct (Z.eq_dec n N) as [->|D]; [lra|].
  assert (Rabs (x - IZR N * y) <= y / 2) by (apply Rabs_le; lra).
  assert (1 <= Rabs (IZR (n - N))).
  { rewrite <- abs_IZR. apply (IZR_le 1). lia. }
  assert (Rabs (IZR (n - N) * y) <= Rabs (x - IZR N * y) + Rabs (x - IZR n * y)).
  { replace (IZR (n - N) * y) with ((x - IZR N * y) - (x - IZR n * y)) by (rewrite minus_IZR; ring).
    eapply Rle_trans; [apply Rabs_triang|]. rewrite Rabs_Ropp. lra. }
  rewrite Rabs_mult, (Rabs_pos_eq y) in H1 by lra. nra.
Qed.
Lemma dphi_eq : forall p q a b, Phi p = Fin a -> Phi q = Fin b -> DeltaPhi p q = Fin (- rem (a - b) (2 * PI)).
Proof.
  intros p q a b Ha Hb. pose proof PI_RGT_0. unfold DeltaPhi. rewrite Ha, Hb, nsub_fin. unfold nremainder.
  rewrite req_false by lra. reflexivity.
Qed.
(* the difference of the angles, up to whole turns, between -pi and pi *)
Theorem C62_deltaphi : forall p q a b, Phi p = Fin a -> Phi q = Fin b ->
  exists d, DeltaPhi p q = Fin d /\ - PI <= d <= PI /\ exists n : Z, d = b - a + IZR n * (2 * PI).
Proof.
  intros p q a b Ha Hb. pose proof PI_RGT_0. exists (- rem (a - b) (2 * PI)). split; [apply dphi_eq; auto|].
  pose proof (rem_bound (a - b) (2 * PI) ltac:(lra)). split; [lra|]. exists (ZnearestE ((a - b) / (2 * PI))). unfold rem. ring.
Qed.
(* a distance *)
Lemma minkowski : forall a b c d e f, Rabs a <= Rabs b + Rabs c -> Rabs d <= Rabs e + Rabs f ->
  sqrt (a * a + d * d) <= sqrt (b * b + e * e) + sqrt (c * c + f * f).
Proof.
  intros a b c d e f H1 H2.
  assert (SQ : forall t, t * t = Rabs t * Rabs t) by (intros; rewrite <- Rabs_mult; symmetry; apply Rabs_pos_eq; nra).
  rewrite (SQ a), (SQ b), (SQ c), (SQ d), (SQ e), (SQ f).
  pose proof (Rabs_pos a); pose proof (Rabs_pos b); pose proof (Rabs_pos c); pose proof (Rabs_pos d); pose proof (Rabs_pos e); pose proof (Rabs_pos f).
  set (a' := Rabs a) in *. set (b' := Rabs b) in *. set (c' := Rabs c) in *. set (d' := Rabs d) in *. set (e' := Rabs e) in *. set (f' := Rabs f) in *.
  set (X := sqrt (b' * b' + e' * e')). set (Y := sqrt (c' * c' + f' * f')).
  assert (0 <= X) by apply sqrt_pos. assert (0 <= Y) by apply sqrt_pos.
  assert (X * X = b' * b' + e' * e') by (apply sqrt_def; nra). assert (Y * Y = c' * c' + f' * f') by (apply sqrt_def; nra).
  assert (XY : b' * c' + e' * f' <= X * Y).
  { apply Rsqr_incr_0_var; [|nra]. unfold Rsqr. replace (X * Y * (X * Y)) with ((X * X) * (Y * Y)) by ring. rewrite H9, H10.
    pose proof (sq_nonneg (b' * f' - e' * c')). lra. }
  apply Rsqr_incr_0_var; [|lra]. unfold Rsqr. rewrite sqrt_def by nra.
  assert (a' * a' <= (b' + c') * (b' + c')) by nra. assert (d' * d' <= (e' + f') * (e' + f')) by nra. nra.
Qed.
Theorem C62_deltar : forall p q r a b c h i j,
  Phi p = Fin a -> Phi q = Fin b -> Phi r = Fin c -> Eta p = Fin h -> Eta q = Fin i -> Eta r = Fin j ->
  DeltaR p q = DeltaR q p /\ DeltaR p p = Fin 0 /\
  exists x y z, DeltaR p r = Fin x /\ DeltaR p q = Fin y /\ DeltaR q r = Fin z /\ 0 <= x <= y + z.
Proof.
  intros p q r a b c h i j A B D H I J. pose proof PI_RGT_0 as HP.
  assert (DR : forall p q a b h i, Phi p = Fin a -> Phi q = Fin b -> Eta p = Fin h -> Eta q = Fin i ->
    DeltaR p q = Fin (sqrt ((h - i) * (h - i) + rem (a - b) (2 * PI) * rem (a - b) (2 * PI)))).
  { clear. intros p q a b h i A B H I. unfold DeltaR, DeltaEta. rewrite (dphi_eq p q a b A B), H, I, nsub_fin, !nmul_fin, nadd_fin.
    rewrite nsqrt_fin by (pose proof (sq_nonneg (h - i)); pose proof (sq_nonneg (- rem (a - b) (2 * PI))); lra). f_equal. f_equal. ring. }
  rewrite (DR p q a b h i), (DR q p b a i h), (DR p p a a h h), (DR p r a c h j), (DR q r b c i j) by auto.
  assert (AB : forall x y, Rabs (rem (x - y) (2 * PI)) = Rabs (rem (y - x) (2 * PI))).
  { assert (L : forall x y, Rabs (rem (x - y) (2 * PI)) <= Rabs (rem (y - x) (2 * PI))).
    { intros x y. eapply Rle_trans; [apply (rem_min (x - y) (2 * PI) (- ZnearestE ((y - x) / (2 * PI)))); lra|].
      unfold rem. rewrite opp_IZR. rewrite <- Rabs_Ropp. right; f_equal; ring. }
    intros x y; apply Rle_antisym; apply L. }
  assert (SQ : forall t, t * t = Rabs t * Rabs t) by (intros; rewrite <- Rabs_mult; symmetry; apply Rabs_pos_eq; nra).
  split.
  - f_equal. f_equal. rewrite (SQ (rem (a - b) (2 * PI))), (SQ (rem (b - a) (2 * PI))), (AB a b). ring.
  - split.
    + f_equal. assert (Z0 : rem (a - a) (2 * PI) = 0).
      { pose proof (rem_min (a - a) (2 * PI) 0 ltac:(lra)) as K. replace (a - a - 0 * (2 * PI)) with 0 in K by ring. rewrite Rabs_R0 in K.
        destruct (Req_dec (rem (a - a) (2 * PI)) 0) as [|N]; [auto | apply Rabs_pos_lt in N; lra]. }
      rewrite Z0. replace ((h - h) * (h - h) + 0 * 0) with 0 by ring. apply sqrt_0.
    + eexists _, _, _. split; [reflexivity|]. split; [reflexivity|]. split; [reflexivity|]. split; [apply sqrt_pos|].
      apply minkowski.
      * replace (h - j) with ((h - i) + (i - j)) by ring. apply Rabs_triang.
      * eapply Rle_trans; [apply (rem_min (a - c) (2 * PI) (ZnearestE ((a - b) / (2 * PI)) + ZnearestE ((b - c) / (2 * PI)))); lra|].
        rewrite plus_IZR. replace (a - c - (IZR (ZnearestE ((a - b) / (2 * PI))) + IZR (ZnearestE ((b - c) / (2 * PI)))) * (2 * PI))
          with (rem (a - b) (2 * PI) + rem (b - c) (2 * PI)) by (unfold rem; ring). apply Rabs_triang.
Qed.
(* the documentation gives the range [-pi,pi[; pi is reached, by the angles 0 and pi *)
Theorem C62_deltaphi_range_refuted : exists p q, Phi p = Fin 0 /\ Phi q = Fin PI /\ DeltaPhi p q = Fin PI.
Proof.
  pose proof PI_RGT_0. exists (New EEtaPhiM (Fin 5) (Fin 0) (Fin 0) (Fin 0)), (New EEtaPhiM (Fin 5) (Fin 0) (Fin PI) (Fin 0)).
  split; [reflexivity|]. split; [reflexivity|]. rewrite (dphi_eq _ _ 0 PI) by reflexivity. f_equal. unfold rem.
  replace ((0 - PI) / (2 * PI)) with (- / 2) by (field; lra).
  assert (Z0 : ZnearestE (- / 2) = 0%Z).
  { unfold Znearest. assert (F : Zfloor (- / 2) = (-1)%Z) by (apply Zfloor_imp; cbn; lra). rewrite F.
    replace (- / 2 - IZR (-1)) with (/ 2) by (cbn; lra). rewrite Rcompare_Eq by reflexivity. cbn.
    apply Zceil_imp; cbn; lra. }
  rewrite Z0. lra.
Qed.

(* the hypotheses are met: a particle of mass 12 with momentum (3,0,4) *)
Example C62_example : exists b, BoostOf (rcart (PV 3 0 4 13)) = Ok (vec b) /\ b2 b < 1 /\ bx b = 3 / 13 /\
  carries (Boost (rcart (PV 3 0 4 13)) (vec (bneg b))) (PV 0 0 0 12) /\
  Dot (Boost (rcart (PV 3 0 4 13)) (vec (BV 0 (1 / 2) 0))) (Boost (rcart (PV 1 2 2 5)) (vec (BV 0 (1 / 2) 0))) = Fin 54.
Proof.
  assert (Hm : mass (PV 3 0 4 13) = 12) by (unfold mass, m2; cbn; replace (13 * 13 - (3 * 3 + 0 * 0 + 4 * 4)) with (12 * 12) by ring; apply sqrt_square; lra).
  destruct (C62_rest (rcart (PV 3 0 4 13)) (PV 3 0 4 13) eq_refl (rcart_carries _)) as (b & A & B & _); [unfold m2; cbn; lra | cbn; lra |].
  exists b. split; [exact A|]. split; [exact (C62_speed (rcart (PV 3 0 4 13)) _ b eq_refl (rcart_carries _) A)|].
  split.
  { pose proof (C62_boostof (rcart (PV 3 0 4 13)) _ eq_refl (rcart_carries _)) as K. rewrite A in K. destruct K as [(_ & _ & K)|(K & _)].
    - unfold vec in K. injection K as K1 K2 K3. rewrite K1. cbn. lra.
    - exfalso. assert (K' : px (PV 3 0 4 13) = px (PV 0 0 0 0)) by (rewrite K; reflexivity). cbn in K'. lra. }
  rewrite Hm in B. split; [exact B|].
  destruct (C62_invariant (rcart (PV 3 0 4 13)) (rcart (PV 1 2 2 5)) _ _ (BV 0 (1 / 2) 0) eq_refl eq_refl (rcart_carries _) (rcart_carries _)) as (-> & _).
  - unfold b2; cbn; lra.
  - cbn. unfold Dot; cbn. f_equal; ring.
Qed.

Print Assumptions C62_invariant.
Print Assumptions C62_inverse.
Print Assumptions C62_boostof.
Print Assumptions C62_speed.
Print Assumptions C62_rest.
Print Assumptions C62_compose.
Print Assumptions C62_rapidity.
Print Assumptions C62_kinds.
Print Assumptions C62_invmass.
Print Assumptions C62_invmass_sym.
Print Assumptions C62_costheta.
Print Assumptions C62_deltaphi.
Print Assumptions C62_deltar.
Print Assumptions C62_deltaphi_range_refuted.
Print Assumptions C62_example.
