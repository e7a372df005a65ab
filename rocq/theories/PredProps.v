(* C72: the float64 filters of the geometric predicates never give a definite answer that is wrong. *)
From Coq Require Import ZArith QArith Qreals List Bool Lia Reals Lra.
From Flocq Require Import Core IEEE754.BinarySingleNaN.
From Verif Require Import F64 F64Arith HistErr F64Near PredModel PredProofs.
Import ListNotations.
Local Close Scope Q_scope.
Local Open Scope R_scope.

Local Notation b2 := (bpow radix2).
Local Notation fin := (@is_finite 53 1024).

(* ---- what the answers mean ---- *)
(* twice the area of the triangle, with a sign: positive when the points turn to the left *)
Definition cross (x1 y1 x2 y2 x y : R) : R := (x2 - x1) * (y - y1) - (y2 - y1) * (x - x1).
Definition right_orientation (o : orientation) (c : R) : Prop :=
  match o with CCW => 0 < c | CW => c < 0 | Colinear => c = 0 | IndeterminateOrientation => True end.
Definition dist2 (x y a b : R) : R := (x - a) * (x - a) + (y - b) * (y - b).
(* a point at the square distance d of the centre of a circle with the square radius r *)
Definition right_position (p : position) (d r : R) : Prop :=
  match p with Inside => d < r | On => d = r | Outside => r < d | IndeterminatePosition => True end.
(* a coordinate that is finite, and 0 or not below 2^-e *)
Definition sized (e : Z) (x : f64) : Prop := fin x = true /\ (B2R x = 0 \/ b2 (- e) <= Rabs (B2R x)).

Lemma prod_sized x y : sized 510 x -> sized 510 y -> okp (7 / 10) (mulP (newPred x) y) (B2R x * B2R y).
Proof.
  intros [_ X] [_ Y]. apply prod2_ok. destruct X as [X|X]; [left; rewrite X; ring|]. destruct Y as [Y|Y]; [left; rewrite Y; ring|].
  right. apply (low_mul 510 510); auto.
Qed.
Definition orient_pred (x1 y1 x2 y2 x y : f64) : pred :=
  subP (subP (subP (addP (addP (mulP (newPred x1) y2) (mulP (newPred x2) y)) (mulP (newPred x) y1)) (mulP (newPred x1) y)) (mulP (newPred x2) y1)) (mulP (newPred x) y2).
Lemma orient_ok x1 y1 x2 y2 x y : Forall (sized 510) [x1; y1; x2; y2; x; y] ->
  okp (8 / 10) (orient_pred x1 y1 x2 y2 x y) (cross (B2R x1) (B2R y1) (B2R x2) (B2R y2) (B2R x) (B2R y)).
Proof.
  intros H. repeat (apply Forall_cons_iff in H; let G := fresh "G" in destruct H as [G H]). pose proof u_small as U.
  replace (cross (B2R x1) (B2R y1) (B2R x2) (B2R y2) (B2R x) (B2R y)) with
    (B2R x1 * B2R y2 + B2R x2 * B2R y + B2R x * B2R y1 - B2R x1 * B2R y - B2R x2 * B2R y1 - B2R x * B2R y2) by (unfold cross; ring).
  apply (okp_weaken (7 / 10 + 4 * u + 4 * u + 4 * u + 4 * u + 4 * u)); [lra|]. unfold orient_pred.
  repeat first [apply subP_ok; [lra| |] | apply addP_ok; [lra| |] | solve [eapply okp_weaken; [|apply prod_sized; assumption]; lra]].
Qed.
Ltac npred_tac := repeat match goal with |- npred (subP _ _) => apply subP_n | |- npred (addP _ _) => apply addP_n | |- npred (mulP _ _) => apply mulP_n | |- npred (newPred _) => apply new_n end.
Lemma orient_n x1 y1 x2 y2 x y : npred (orient_pred x1 y1 x2 y2 x y).
Proof. unfold orient_pred. npred_tac. Qed.

(* for points with coordinates that are 0 or at least 2^-510: the orientation is right, or the filter says that it does not know *)
Theorem C72_orientation x1 y1 x2 y2 x y : Forall (sized 510) [x1; y1; x2; y2; x; y] ->
  right_orientation (simpleOrientation x1 y1 x2 y2 x y) (cross (B2R x1) (B2R y1) (B2R x2) (B2R y2) (B2R x) (B2R y)).
Proof.
  intros H. pose proof (orient_ok _ _ _ _ _ _ H) as O. pose proof (orient_n x1 y1 x2 y2 x y) as Nn.
  destruct (definite_ok (8 / 10) _ _ ltac:(lra) O Nn (subP_fin _ _)) as [A B].
  repeat (apply Forall_cons_iff in H; let G := fresh "G" in destruct H as [[G _] H]).
  assert (Q : forall a b : f64, fin a = true -> fin b = true -> feq a b = true -> B2R a = B2R b).
  { intros a b Fa Fb E. apply feq_vr in E; [|apply fin_nan; auto|apply fin_nan; auto]. rewrite !vr_finite in E; auto. }
  unfold simpleOrientation. fold (orient_pred x1 y1 x2 y2 x y). cbv zeta.
  destruct ((feq x1 x2 && feq x2 x) || (feq y1 y2 && feq y2 y)) eqn:E.
  - apply orb_true_iff in E. cbn [right_orientation]. unfold cross. destruct E as [E|E]; apply andb_true_iff in E; destruct E as [E1 E2]; apply Q in E1; auto; apply Q in E2; auto;
      rewrite <- E2, <- E1; ring.
  - destruct (fgt _ _); [apply A; auto|]. destruct (flt _ _); [apply B; auto|]. exact I.
Qed.
Lemma sub_pn a b : pn (subP a b) = fsub (pn a) (pn b). Proof. reflexivity. Qed.
Lemma mul_pn x f : pn (mulP (newPred x) f) = fmul x f. Proof. reflexivity. Qed.
Lemma orient_fin x1 y1 x2 y2 x y : fin (pn (orient_pred x1 y1 x2 y2 x y)) = true -> Forall (fun a => fin a = true) [x1; y1; x2; y2; x; y].
Proof.
  intros F. unfold orient_pred in F. rewrite !sub_pn, !mul_pn in F.
  destruct (fsub_fin _ _ F) as (F' & F1 & _). destruct (fsub_fin _ _ F') as (F'' & F2 & _). destruct (fsub_fin _ _ F'') as (_ & F3 & _).
  destruct (fmul_fin _ _ F1) as (A1 & A2 & _). destruct (fmul_fin _ _ F2) as (A3 & A4 & _). destruct (fmul_fin _ _ F3) as (A5 & A6 & _).
  clear F F' F'' F1 F2 F3. repeat (constructor; [assumption|]). constructor.
Qed.
(* CCW and CW are never said of points that are not finite, however large or small the coordinates *)
Theorem C72_orientation_finite x1 y1 x2 y2 x y : simpleOrientation x1 y1 x2 y2 x y = CCW \/ simpleOrientation x1 y1 x2 y2 x y = CW ->
  Forall (fun a => fin a = true) [x1; y1; x2; y2; x; y].
Proof.
  intros H. pose proof (orient_n x1 y1 x2 y2 x y) as Nn.
  destruct (definite_fin _ Nn (subP_fin _ _)) as [A B].
  assert (F : fin (pn (orient_pred x1 y1 x2 y2 x y)) = true /\ fin (pe (orient_pred x1 y1 x2 y2 x y)) = true).
  { unfold simpleOrientation in H. fold (orient_pred x1 y1 x2 y2 x y) in H. cbv zeta in H.
    destruct ((feq x1 x2 && feq x2 x) || (feq y1 y2 && feq y2 y)); [destruct H; discriminate|].
    destruct (fgt _ _); [split; apply A; auto|]. destruct (flt _ _); [split; apply B; auto|]. destruct H; discriminate. }
  apply orient_fin. apply F.
Qed.
(* the function that is called: it is right wherever the fallback is *)
Theorem C72_orientation_call mat x1 y1 x2 y2 x y : Forall (sized 510) [x1; y1; x2; y2; x; y] ->
  let c := cross (B2R x1) (B2R y1) (B2R x2) (B2R y2) (B2R x) (B2R y) in
  right_orientation (mat x1 y1 x2 y2 x y) c -> right_orientation (Orientation mat x1 y1 x2 y2 x y) c.
Proof.
  intros H c M. pose proof (C72_orientation _ _ _ _ _ _ H) as R. fold c in R. unfold Orientation. destruct (simpleOrientation x1 y1 x2 y2 x y); auto.
Qed.
(* exchanging two points never gives the same turn twice *)
Theorem C72_orientation_swap x1 y1 x2 y2 x y : Forall (sized 510) [x1; y1; x2; y2; x; y] ->
  simpleOrientation x1 y1 x2 y2 x y = CCW -> simpleOrientation x2 y2 x1 y1 x y = CW \/ simpleOrientation x2 y2 x1 y1 x y = IndeterminateOrientation.
Proof.
  intros H E. pose proof (C72_orientation _ _ _ _ _ _ H) as R. rewrite E in R. cbn [right_orientation] in R.
  assert (H' : Forall (sized 510) [x2; y2; x1; y1; x; y]).
  { rewrite !Forall_cons_iff in *. tauto. }
  pose proof (C72_orientation _ _ _ _ _ _ H') as R'. unfold cross in *.
  destruct (simpleOrientation x2 y2 x1 y1 x y); auto; cbn [right_orientation] in R'; exfalso; lra.
Qed.

(* ---- the circle ---- *)
Definition incircle_pred (m : list f64) : pred :=
  let row a b c d plus := rowFloat a b c d plus m in
  (addP (addP (addP (addP (addP (addP (addP (addP (addP (addP (addP (row 3 2 1 0 false) (row 3 1 2 0 true))
        (row 2 1 3 0 false)) (row 3 2 0 1 true)) (row 3 0 2 1 false)) (row 2 0 3 1 true)) (row 3 1 0 2 false)) (row 3 0 1 2 true))
        (row 1 0 3 2 false)) (row 2 1 0 3 true)) (row 2 0 1 3 false)) (row 1 0 2 3 true))%nat.
Ltac ent_tac := first [apply one_ent | apply sq_ent; assumption | apply co_ent; assumption].
Lemma incircle_ok x1 y1 x2 y2 x3 y3 x y cx cy r : Forall (sized 200) [x1; y1; x2; y2; x3; y3; x; y] ->
  dist2 (B2R x1) (B2R y1) cx cy = r -> dist2 (B2R x2) (B2R y2) cx cy = r -> dist2 (B2R x3) (B2R y3) cx cy = r ->
  okp (95 / 100) (incircle_pred (matrix x1 y1 x2 y2 x3 y3 x y))
    (cross (B2R x1) (B2R y1) (B2R x2) (B2R y2) (B2R x3) (B2R y3) * (r - dist2 (B2R x) (B2R y) cx cy)).
Proof.
  intros H D1 D2 D3. repeat (apply Forall_cons_iff in H; let G := fresh "G" in destruct H as [[_ G] H]). pose proof u_small as U.
  unfold dist2, cross in *.
  set (X1 := B2R x1) in *. set (Y1 := B2R y1) in *. set (X2 := B2R x2) in *. set (Y2 := B2R y2) in *. set (X3 := B2R x3) in *. set (Y3 := B2R y3) in *.
  set (X := B2R x) in *. set (Y := B2R y) in *. set (k := r - cx * cx - cy * cy).
  replace (((X2 - X1) * (Y3 - Y1) - (Y2 - Y1) * (X3 - X1)) * (r - ((X - cx) * (X - cx) + (Y - cy) * (Y - cy)))) with
    (((X2 - X1) * (Y3 - Y1) - (Y2 - Y1) * (X3 - X1)) * (k + 2 * cx * X + 2 * cy * Y - (X * X + Y * Y))) by (unfold k; ring).
  rewrite <- (det_circle X1 Y1 X2 Y2 X3 Y3 X Y (X1 * X1 + Y1 * Y1) (X2 * X2 + Y2 * Y2) (X3 * X3 + Y3 * Y3) cx cy k) by (unfold k; lra).
  apply (okp_weaken (9 / 10 + 4 * u + 4 * u + 4 * u + 4 * u + 4 * u + 4 * u + 4 * u + 4 * u + 4 * u + 4 * u + 4 * u + 4 * u)); [lra|].
  unfold incircle_pred, rowFloat, matrix. cbn [nth Nat.add].
  repeat (apply addP_ok; [lra| |]);
  (eapply (okp_weaken (9 / 10 + 4 * u)); [lra|]; apply subP_ok; [lra| |]);
  (eapply prod4_ok; [ent_tac|ent_tac|ent_tac|ent_tac| | | | | | | | | |]; (lra || lia)).
Qed.
Lemma incircle_n m : npred (incircle_pred m).
Proof. unfold incircle_pred, rowFloat. cbv zeta. npred_tac. Qed.
Lemma incircle_definite x1 y1 x2 y2 x3 y3 x y cx cy r : Forall (sized 200) [x1; y1; x2; y2; x3; y3; x; y] ->
  dist2 (B2R x1) (B2R y1) cx cy = r -> dist2 (B2R x2) (B2R y2) cx cy = r -> dist2 (B2R x3) (B2R y3) cx cy = r ->
  let v := cross (B2R x1) (B2R y1) (B2R x2) (B2R y2) (B2R x3) (B2R y3) * (r - dist2 (B2R x) (B2R y) cx cy) in
  match simpleIncircle x1 y1 x2 y2 x3 y3 x y with Inside => 0 < v | Outside => v < 0 | On => False | IndeterminatePosition => True end.
Proof.
  intros H D1 D2 D3 v. pose proof (incircle_ok _ _ _ _ _ _ _ _ _ _ _ H D1 D2 D3) as O. fold v in O.
  destruct (definite_ok (95 / 100) _ _ ltac:(lra) O (incircle_n _) (addP_fin _ _)) as [A B].
  unfold simpleIncircle. cbv zeta. fold (incircle_pred (matrix x1 y1 x2 y2 x3 y3 x y)).
  destruct (flt _ _); [apply B; auto|]. destruct (fgt _ _); [apply A; auto|]. exact I.
Qed.
(* three points that turn to the left, on a circle; coordinates 0 or at least 2^-200: the position of the fourth point is right, or the
   filter says that it does not know *)
Theorem C72_incircle x1 y1 x2 y2 x3 y3 x y cx cy r : Forall (sized 200) [x1; y1; x2; y2; x3; y3; x; y] ->
  dist2 (B2R x1) (B2R y1) cx cy = r -> dist2 (B2R x2) (B2R y2) cx cy = r -> dist2 (B2R x3) (B2R y3) cx cy = r ->
  0 < cross (B2R x1) (B2R y1) (B2R x2) (B2R y2) (B2R x3) (B2R y3) ->
  right_position (simpleIncircle x1 y1 x2 y2 x3 y3 x y) (dist2 (B2R x) (B2R y) cx cy) r.
Proof.
  intros H D1 D2 D3 P. pose proof (incircle_definite _ _ _ _ _ _ _ _ _ _ _ H D1 D2 D3) as V. cbv zeta in V.
  destruct (simpleIncircle x1 y1 x2 y2 x3 y3 x y); cbn [right_position]; try tauto; nra.
Qed.
(* points that turn to the right: inside and outside are exchanged *)
Theorem C72_incircle_cw x1 y1 x2 y2 x3 y3 x y cx cy r : Forall (sized 200) [x1; y1; x2; y2; x3; y3; x; y] ->
  dist2 (B2R x1) (B2R y1) cx cy = r -> dist2 (B2R x2) (B2R y2) cx cy = r -> dist2 (B2R x3) (B2R y3) cx cy = r ->
  cross (B2R x1) (B2R y1) (B2R x2) (B2R y2) (B2R x3) (B2R y3) < 0 ->
  (simpleIncircle x1 y1 x2 y2 x3 y3 x y = Inside -> r < dist2 (B2R x) (B2R y) cx cy) /\
  (simpleIncircle x1 y1 x2 y2 x3 y3 x y = Outside -> dist2 (B2R x) (B2R y) cx cy < r) /\
  simpleIncircle x1 y1 x2 y2 x3 y3 x y <> On.
Proof.
  intros H D1 D2 D3 P. pose proof (incircle_definite _ _ _ _ _ _ _ _ _ _ _ H D1 D2 D3) as V. cbv zeta in V.
  split; [|split]; [intros E; rewrite E in V|intros E; rewrite E in V|intros E; rewrite E in V; auto]; nra.
Qed.
(* the circle is there as soon as the points are not on a line *)
Theorem C72_circle x1 y1 x2 y2 x3 y3 : cross x1 y1 x2 y2 x3 y3 <> 0 ->
  exists cx cy r, dist2 x1 y1 cx cy = r /\ dist2 x2 y2 cx cy = r /\ dist2 x3 y3 cx cy = r /\
  (forall cx' cy' r', dist2 x1 y1 cx' cy' = r' -> dist2 x2 y2 cx' cy' = r' -> dist2 x3 y3 cx' cy' = r' -> cx' = cx /\ cy' = cy /\ r' = r).
Proof.
  intros H. set (D := 2 * cross x1 y1 x2 y2 x3 y3). assert (D0 : D <> 0) by (unfold D; lra).
  set (bx := x2 - x1). set (by_ := y2 - y1). set (ex := x3 - x1). set (ey := y3 - y1).
  set (ux := (ey * (bx * bx + by_ * by_) - by_ * (ex * ex + ey * ey)) / D). set (uy := (bx * (ex * ex + ey * ey) - ex * (bx * bx + by_ * by_)) / D).
  assert (DE : D = 2 * (bx * ey - by_ * ex)) by reflexivity.
  assert (E1 : 2 * (bx * ux + by_ * uy) = bx * bx + by_ * by_) by (unfold ux, uy; rewrite DE in *; field; lra).
  assert (E2 : 2 * (ex * ux + ey * uy) = ex * ex + ey * ey) by (unfold ux, uy; rewrite DE in *; field; lra).
  exists (x1 + ux), (y1 + uy), (ux * ux + uy * uy).
  split; [unfold dist2; ring|]. split; [|split].
  - replace (dist2 x2 y2 (x1 + ux) (y1 + uy)) with (bx * bx + by_ * by_ - 2 * (bx * ux + by_ * uy) + (ux * ux + uy * uy)) by (unfold dist2, bx, by_; ring). lra.
  - replace (dist2 x3 y3 (x1 + ux) (y1 + uy)) with (ex * ex + ey * ey - 2 * (ex * ux + ey * uy) + (ux * ux + uy * uy)) by (unfold dist2, ex, ey; ring). lra.
  - intros cx' cy' r' A B C. set (vx := cx' - x1). set (vy := cy' - y1).
    assert (A1 : 2 * (bx * vx + by_ * vy) = bx * bx + by_ * by_) by (unfold dist2 in *; unfold bx, by_, vx, vy; lra).
    assert (A2 : 2 * (ex * vx + ey * vy) = ex * ex + ey * ey) by (unfold dist2 in *; unfold ex, ey, vx, vy; lra).
    assert (X : D * (vx - ux) = 0) by (rewrite DE; replace (2 * (bx * ey - by_ * ex) * (vx - ux)) with (ey * (2 * (bx * vx + by_ * vy) - 2 * (bx * ux + by_ * uy)) - by_ * (2 * (ex * vx + ey * vy) - 2 * (ex * ux + ey * uy))) by ring; rewrite E1, E2, A1, A2; ring).
    assert (Y : D * (vy - uy) = 0) by (rewrite DE; replace (2 * (bx * ey - by_ * ex) * (vy - uy)) with (bx * (2 * (ex * vx + ey * vy) - 2 * (ex * ux + ey * uy)) - ex * (2 * (bx * vx + by_ * vy) - 2 * (bx * ux + by_ * uy))) by ring; rewrite E1, E2, A1, A2; ring).
    apply Rmult_integral in X. apply Rmult_integral in Y. destruct X as [X|X]; [contradiction|]. destruct Y as [Y|Y]; [contradiction|].
    assert (VX : vx = ux) by lra. assert (VY : vy = uy) by lra. split; [unfold vx in VX; lra|]. split; [unfold vy in VY; lra|].
    rewrite <- A. unfold dist2. rewrite <- VX, <- VY. unfold vx, vy. ring.
Qed.
(* the function that is called *)
Theorem C72_incircle_call mat x1 y1 x2 y2 x3 y3 x y cx cy r : Forall (sized 200) [x1; y1; x2; y2; x3; y3; x; y] ->
  dist2 (B2R x1) (B2R y1) cx cy = r -> dist2 (B2R x2) (B2R y2) cx cy = r -> dist2 (B2R x3) (B2R y3) cx cy = r ->
  0 < cross (B2R x1) (B2R y1) (B2R x2) (B2R y2) (B2R x3) (B2R y3) ->
  right_position (mat x1 y1 x2 y2 x3 y3 x y) (dist2 (B2R x) (B2R y) cx cy) r ->
  right_position (Incircle mat x1 y1 x2 y2 x3 y3 x y) (dist2 (B2R x) (B2R y) cx cy) r.
Proof.
  intros H D1 D2 D3 P M. pose proof (C72_incircle _ _ _ _ _ _ _ _ _ _ _ H D1 D2 D3 P) as R. unfold Incircle.
  destruct (simpleIncircle x1 y1 x2 y2 x3 y3 x y); auto.
Qed.

(* ---- exact rationals ---- *)
Theorem C72_robust_orientation x1 y1 x2 y2 x y :
  robustOrientation x1 y1 x2 y2 x y <> IndeterminateOrientation /\
  right_orientation (robustOrientation x1 y1 x2 y2 x y) (cross (Q2R x1) (Q2R y1) (Q2R x2) (Q2R y2) (Q2R x) (Q2R y)).
Proof.
  unfold robustOrientation. set (d := (_ - _)%Q).
  assert (E : Q2R d = cross (Q2R x1) (Q2R y1) (Q2R x2) (Q2R y2) (Q2R x) (Q2R y)).
  { unfold d, cross. rewrite Q2R_minus, !Q2R_plus, !Q2R_mult. ring. }
  rewrite <- E. assert (Z0 : Q2R 0 = 0) by (unfold Q2R; cbn; lra).
  destruct (Qcompare d 0) eqn:C; (split; [discriminate|]); cbn [right_orientation].
  - apply Qeq_alt, Qeq_eqR in C. lra.
  - apply Qlt_alt, Qlt_Rlt in C. lra.
  - apply Qgt_alt, Qlt_Rlt in C. lra.
Qed.
Theorem C72_robust_incircle x1 y1 x2 y2 x3 y3 x y cx cy r :
  dist2 (Q2R x1) (Q2R y1) cx cy = r -> dist2 (Q2R x2) (Q2R y2) cx cy = r -> dist2 (Q2R x3) (Q2R y3) cx cy = r ->
  0 < cross (Q2R x1) (Q2R y1) (Q2R x2) (Q2R y2) (Q2R x3) (Q2R y3) ->
  robustIncircle x1 y1 x2 y2 x3 y3 x y <> IndeterminatePosition /\
  right_position (robustIncircle x1 y1 x2 y2 x3 y3 x y) (dist2 (Q2R x) (Q2R y) cx cy) r.
Proof.
  intros D1 D2 D3 P. unfold robustIncircle. cbv zeta. set (d := (_ + _)%Q).
  assert (E : Q2R d = cross (Q2R x1) (Q2R y1) (Q2R x2) (Q2R y2) (Q2R x3) (Q2R y3) * (r - dist2 (Q2R x) (Q2R y) cx cy)).
  { unfold d, rowBig. cbn [nth Nat.add]. rewrite ?Q2R_plus, ?Q2R_minus, ?Q2R_mult, ?Q2R_plus, ?Q2R_mult.
    replace (Q2R 1) with 1 by (unfold Q2R; cbn; lra). clear d P. unfold dist2, cross in *.
    set (X1 := Q2R x1) in *. set (Y1 := Q2R y1) in *. set (X2 := Q2R x2) in *. set (Y2 := Q2R y2) in *. set (X3 := Q2R x3) in *. set (Y3 := Q2R y3) in *.
    set (X := Q2R x) in *. set (Y := Q2R y) in *. set (k := r - cx * cx - cy * cy).
    replace (((X2 - X1) * (Y3 - Y1) - (Y2 - Y1) * (X3 - X1)) * (r - ((X - cx) * (X - cx) + (Y - cy) * (Y - cy)))) with
      (((X2 - X1) * (Y3 - Y1) - (Y2 - Y1) * (X3 - X1)) * (k + 2 * cx * X + 2 * cy * Y - (X * X + Y * Y))) by (unfold k; ring).
    rewrite <- (det_circle X1 Y1 X2 Y2 X3 Y3 X Y (X1 * X1 + Y1 * Y1) (X2 * X2 + Y2 * Y2) (X3 * X3 + Y3 * Y3) cx cy k) by (unfold k; lra). ring. }
  assert (Z0 : Q2R 0 = 0) by (unfold Q2R; cbn; lra).
  destruct (Qcompare d 0) eqn:C; (split; [discriminate|]); cbn [right_position].
  - apply Qeq_alt, Qeq_eqR in C. rewrite E, Z0 in C. apply Rmult_integral in C. destruct C; lra.
  - apply Qlt_alt, Qlt_Rlt in C. rewrite E, Z0 in C. nra.
  - apply Qgt_alt, Qlt_Rlt in C. rewrite E, Z0 in C. nra.
Qed.

(* ---- the filter decides, unless the determinant is tiny compared with its terms ---- *)
Definition mid (x : f64) : Prop := sized 400 x /\ Rabs (B2R x) <= b2 400.
Lemma mid_prod x y : mid x -> mid y -> fin x = true /\ fin y = true /\ Rabs (B2R x * B2R y) <= b2 800 /\ (B2R x * B2R y = 0 \/ b2 (-800) <= Rabs (B2R x * B2R y)).
Proof.
  intros [[F1 S1] L1] [[F2 S2] L2]. split; auto. split; auto. split.
  - rewrite Rabs_mult. change 800%Z with (400 + 400)%Z. rewrite bpow_plus. apply Rmult_le_compat; auto; apply Rabs_pos.
  - destruct S1 as [S1|S1]; [left; rewrite S1; ring|]. destruct S2 as [S2|S2]; [left; rewrite S2; ring|]. right. apply (low_mul 400 400); auto.
Qed.
Lemma fgt_flt (a b : f64) : fgt a b = flt b a. Proof. reflexivity. Qed.
Lemma u47 : b2 (-47) = 64 * u. Proof. change 64 with (b2 6). rewrite <- bpow_plus. reflexivity. Qed.
Theorem C72_orientation_decides x1 y1 x2 y2 x y : Forall mid [x1; y1; x2; y2; x; y] ->
  let c := cross (B2R x1) (B2R y1) (B2R x2) (B2R y2) (B2R x) (B2R y) in
  let s := Rabs (B2R x1 * B2R y2) + Rabs (B2R x2 * B2R y) + Rabs (B2R x * B2R y1) + Rabs (B2R x1 * B2R y) + Rabs (B2R x2 * B2R y1) + Rabs (B2R x * B2R y2) in
  (b2 (-47) * s < c -> simpleOrientation x1 y1 x2 y2 x y = CCW) /\ (c < - (b2 (-47) * s) -> simpleOrientation x1 y1 x2 y2 x y = CW).
Proof.
  intros H c s. assert (H5 : Forall (sized 510) [x1; y1; x2; y2; x; y]).
  { eapply Forall_impl; [|exact H]. intros a [[F [Z0|L]] _]; (split; [auto|]); [left; auto|right]. eapply Rle_trans; [|exact L]. apply bpow_le. lia. }
  pose proof (C72_orientation _ _ _ _ _ _ H5) as R. pose proof (orient_ok _ _ _ _ _ _ H5) as O. fold c in R, O.
  repeat (apply Forall_cons_iff in H; let G := fresh "G" in destruct H as [G H]). clear H5.
  destruct (mid_prod x1 y2) as (f1 & g1 & P1 & L1); auto. destruct (mid_prod x2 y) as (f2 & g2 & P2 & L2); auto.
  destruct (mid_prod x y1) as (f3 & g3 & P3 & L3); auto. destruct (mid_prod x1 y) as (f4 & g4 & P4 & L4); auto.
  destruct (mid_prod x2 y1) as (f5 & g5 & P5 & L5); auto. destruct (mid_prod x y2) as (f6 & g6 & P6 & L6); auto.
  set (p1 := Rabs (B2R x1 * B2R y2)) in *. set (p2 := Rabs (B2R x2 * B2R y)) in *. set (p3 := Rabs (B2R x * B2R y1)) in *.
  set (p4 := Rabs (B2R x1 * B2R y)) in *. set (p5 := Rabs (B2R x2 * B2R y1)) in *. set (p6 := Rabs (B2R x * B2R y2)) in *.
  pose proof (prod_upp x1 y2 p1 f1 g1 (Rle_refl _) P1) as U1. pose proof (prod_upp x2 y p2 f2 g2 (Rle_refl _) P2) as U2.
  pose proof (prod_upp x y1 p3 f3 g3 (Rle_refl _) P3) as U3. pose proof (prod_upp x1 y p4 f4 g4 (Rle_refl _) P4) as U4.
  pose proof (prod_upp x2 y1 p5 f5 g5 (Rle_refl _) P5) as U5. pose proof (prod_upp x y2 p6 f6 g6 (Rle_refl _) P6) as U6.
  assert (Q1 : 0 <= p1) by apply Rabs_pos. assert (Q2 : 0 <= p2) by apply Rabs_pos. assert (Q3 : 0 <= p3) by apply Rabs_pos.
  assert (Q4 : 0 <= p4) by apply Rabs_pos. assert (Q5 : 0 <= p5) by apply Rabs_pos. assert (Q6 : 0 <= p6) by apply Rabs_pos.
  pose proof u_small as U. pose proof eta_pos as EP. pose proof eta_le1 as E1. pose proof b2_big as [BB _].
  assert (big8 : 1000 <= b2 800) by (apply Rle_trans with (b2 10); [change (b2 10) with 1024; lra|apply bpow_le; lia]).
  assert (um : forall p, 0 <= p -> 0 <= u * p <= / 1000000 * p) by (intros p Hp; split; [apply Rmult_le_pos; lra|apply Rmult_le_compat_r; lra]).
  pose proof (um _ Q1) as M1. pose proof (um _ Q2) as M2. pose proof (um _ Q3) as M3. pose proof (um _ Q4) as M4. pose proof (um _ Q5) as M5. pose proof (um _ Q6) as M6.
  assert (ue : 0 <= u * eta <= / 1000000 * eta) by (apply um; lra). clear um.
  assert (UP : exists A, upp A (30 * (u * s) + 200 * eta) (orient_pred x1 y1 x2 y2 x y)).
  { clear R O L1 L2 L3 L4 L5 L6 c.
    eapply addP_upp in U2; [|exact U1|lra|lra]. eapply addP_upp in U3; [|exact U2|unfold A'; lra|unfold E'; lra].
    eapply subP_upp in U4; [|exact U3|unfold A'; lra|unfold E', A'; lra]. eapply subP_upp in U5; [|exact U4|unfold A'; lra|unfold E', A'; lra].
    eapply subP_upp in U6; [|exact U5|unfold A'; lra|unfold E', A'; lra]. fold (orient_pred x1 y1 x2 y2 x y) in U6.
    eexists. destruct U6 as (X1 & X2 & X3 & X4 & X5). split; [exact X1|]. split; [exact X2|]. split; [exact X3|]. split; [exact X4|].
    eapply Rle_trans; [exact X5|]. unfold E', A', s. lra. }
  destruct UP as (A & X1 & X2 & _ & X4 & X5). destruct (O X1 X2) as [_ Er]. apply ab in Er.
  assert (S0 : 0 <= s) by (unfold s; lra). rewrite u47.
  (* the terms are not all 0 *)
  assert (SL : c <> 0 -> 200 * eta <= / 10 * (u * s)).
  { intros C0. assert (SS : b2 (-800) <= s).
    { assert (CE : c = B2R x1 * B2R y2 + B2R x2 * B2R y + B2R x * B2R y1 - B2R x1 * B2R y - B2R x2 * B2R y1 - B2R x * B2R y2) by (unfold c, cross; ring).
      destruct L1 as [L1|L1]; [|unfold s; lra]. destruct L2 as [L2|L2]; [|unfold s; lra]. destruct L3 as [L3|L3]; [|unfold s; lra].
      destruct L4 as [L4|L4]; [|unfold s; lra]. destruct L5 as [L5|L5]; [|unfold s; lra]. destruct L6 as [L6|L6]; [|unfold s; lra].
      exfalso. apply C0. rewrite CE, L1, L2, L3, L4, L5, L6. ring. }
    apply Rle_trans with (/ 10 * (u * b2 (-800))); [|apply Rmult_le_compat_l; [lra|]; apply Rmult_le_compat_l; lra].
    assert (eta * 2048 <= u * b2 (-800)); [|lra]. change 2048 with (b2 11). rewrite <- !bpow_plus. apply bpow_le. lia. }
  assert (US : 0 <= u * s) by (apply Rmult_le_pos; lra).
  assert (FN : is_nan (pn (orient_pred x1 y1 x2 y2 x y)) = false) by (apply fin_nan; auto).
  assert (FE : is_nan (pe (orient_pred x1 y1 x2 y2 x y)) = false) by (apply fin_nan; auto).
  assert (FO : fin (Bopp (pe (orient_pred x1 y1 x2 y2 x y))) = true) by (rewrite is_finite_Bopp; auto).
  unfold simpleOrientation in *. fold (orient_pred x1 y1 x2 y2 x y) in *. cbv zeta in *.
  destruct ((feq x1 x2 && feq x2 x) || (feq y1 y2 && feq y2 y)); [cbn [right_orientation] in R; split; intros HC; exfalso; lra|].
  split; intros HC; specialize (SL ltac:(lra)).
  - replace (fgt (pn (orient_pred x1 y1 x2 y2 x y)) (pe (orient_pred x1 y1 x2 y2 x y))) with true; [reflexivity|]. symmetry.
    rewrite fgt_flt. apply flt_vr; auto. rewrite !vr_finite by auto. lra.
  - destruct (fgt (pn (orient_pred x1 y1 x2 y2 x y)) (pe (orient_pred x1 y1 x2 y2 x y))) eqn:Gt.
    { cbn [right_orientation] in R. exfalso. lra. }
    replace (flt (pn (orient_pred x1 y1 x2 y2 x y)) (Bopp (pe (orient_pred x1 y1 x2 y2 x y)))) with true; [reflexivity|]. symmetry.
    apply flt_vr; auto. { apply fin_nan; auto. } rewrite !vr_finite, B2R_Bopp by auto. lra.
Qed.

(* ---- what is not so ---- *)
(* n * 2^e as a float64 *)
Definition fz (n e : Z) : f64 := binary_normalize 53 1024 p53 p53_1024 mode_NE n e false.
(* with products below 2^-1022 the bound is 0 but the sum is not exact: three points that turn to the left are said to turn to the right *)
Arguments fz (n e)%Z.
Theorem C72_orientation_small_refuted :
  let q n := fz n (-539) in
  simpleOrientation (q 21%Z) (q 28%Z) (q 20%Z) (q 14%Z) (q 20%Z) (q 5%Z) = CW /\
  Forall (fun a => fin a = true) [q 21%Z; q 28%Z; q 20%Z; q 14%Z; q 20%Z; q 5%Z] /\
  0 < cross (B2R (q 21%Z)) (B2R (q 28%Z)) (B2R (q 20%Z)) (B2R (q 14%Z)) (B2R (q 20%Z)) (B2R (q 5%Z)).
Proof.
  cbv zeta. split; [vm_compute; reflexivity|]. split; [repeat constructor|].
  assert (E : forall n, (0 < n < 2 ^ 53)%Z -> B2R (fz n (-539)) = IZR n * b2 (-539)).
  { intros n Hn. pose proof (binary_normalize_correct 53 1024 p53 p53_1024 mode_NE n (-539) false) as H. cbn zeta in H. fold (fz n (-539)) in H.
    change (round radix2 (SpecFloat.fexp 53 1024) (round_mode mode_NE)) with rnd in H.
    assert (G : rnd (F2R (Float radix2 n (-539))) = F2R (Float radix2 n (-539))).
    { apply round_generic; [apply valid_rnd_N|]. apply generic_format_FLT. exists (Float radix2 n (-539)); cbn; [reflexivity|lia|lia]. }
    rewrite G in H. rewrite Rlt_bool_true in H; [apply H|]. unfold F2R. cbn [Fnum Fexp].
    rewrite Rabs_pos_eq by (apply Rmult_le_pos; [apply IZR_le; lia|apply bpow_ge_0]).
    apply Rlt_trans with (b2 53 * b2 (-539)); [apply Rmult_lt_compat_r; [apply bpow_gt_0|]; change (b2 53) with (IZR (2 ^ 53)); apply IZR_lt; lia|].
    rewrite <- bpow_plus. apply bpow_lt. lia. }
  rewrite !E by lia. unfold cross. set (b := b2 (-539)). assert (B : 0 < b) by apply bpow_gt_0. assert (0 < b * b) by nra. nra.
Qed.
(* the bound of a product keeps the bound of its first factors without the last one (p.e += ... + p.e*|f|): for small points the bound of
   Incircle is far too large, and a point near the centre of a circle of radius 2^-18 is not known to be inside *)
Theorem C72_incircle_scale_refuted :
  let c (k : Z) := simpleIncircle (fz 1 k) fzero fzero (fz 1 k) (fz (-1) k) fzero (fz 1 (k - 2)%Z) (fz 1 (k - 3)%Z) in
  c 0%Z = Inside /\ c (-16)%Z = Inside /\ c (-18)%Z = IndeterminatePosition.
Proof. cbv zeta. repeat split; vm_compute; reflexivity. Qed.

(* ---- examples ---- *)
Example C72_orientation_ex : simpleOrientation f1 f1 f3 f2 f2 f4 = CCW /\ simpleOrientation f3 f2 f1 f1 f2 f4 = CW /\
  simpleOrientation f1 f1 f2 f2 f3 f3 = IndeterminateOrientation /\ simpleOrientation f1 f1 f1 f2 f1 f4 = Colinear /\
  simpleOrientation f1 f1 finf f2 f2 f4 = IndeterminateOrientation.
Proof. repeat split; vm_compute; reflexivity. Qed.
Lemma B2R_f k m (s : bool) H : B2R (@B754_finite 53 1024 s m k H) = F2R (Float radix2 (cond_Zopp s (Zpos m)) k). Proof. reflexivity. Qed.
Lemma B1 : B2R f1 = 1. Proof. unfold f1. rewrite B2R_f. unfold F2R. cbn. lra. Qed.
Lemma B2 : B2R f2 = 2. Proof. unfold f2. rewrite B2R_f. unfold F2R. cbn. lra. Qed.
Lemma B3 : B2R f3 = 3. Proof. unfold f3. rewrite B2R_f. unfold F2R. cbn. lra. Qed.
Lemma B4 : B2R f4 = 4. Proof. unfold f4. rewrite B2R_f. unfold F2R. cbn. lra. Qed.
Lemma Bm1 : B2R fm1 = -1. Proof. unfold fm1. rewrite B2R_f. unfold F2R. cbn. lra. Qed.
Lemma ge_sized e x r : (0 <= e)%Z -> fin x = true -> B2R x = r -> 1 <= Rabs r -> sized e x.
Proof. intros E F <- L. split; auto. right. eapply Rle_trans; [|exact L]. change 1 with (b2 0). apply bpow_le. lia. Qed.
Lemma le_mid x r : fin x = true -> B2R x = r -> 1 <= Rabs r <= 4 -> mid x.
Proof.
  intros F E [L U]. split; [eapply ge_sized; eauto; lia|]. rewrite E. eapply Rle_trans; [exact U|]. change 4 with (b2 2). apply bpow_le. lia.
Qed.
Example C72_orientation_hyp_ex : Forall (sized 510) [f1; f1; f3; f2; f2; f4] /\ Forall mid [f1; f1; f3; f2; f2; f4] /\
  cross 1 1 3 2 2 4 = 5 /\ b2 (-47) * (1 * 2 + 3 * 4 + 2 * 1 + 1 * 4 + 3 * 1 + 2 * 2) < cross 1 1 3 2 2 4.
Proof.
  split; [|split; [|split]].
  - repeat (constructor; [first [apply (ge_sized 510 f1 1 ltac:(lia) eq_refl B1)|apply (ge_sized 510 f2 2 ltac:(lia) eq_refl B2)|apply (ge_sized 510 f3 3 ltac:(lia) eq_refl B3)|apply (ge_sized 510 f4 4 ltac:(lia) eq_refl B4)]; rewrite Rabs_pos_eq; lra|]). constructor.
  - repeat (constructor; [first [apply (le_mid f1 1 eq_refl B1)|apply (le_mid f2 2 eq_refl B2)|apply (le_mid f3 3 eq_refl B3)|apply (le_mid f4 4 eq_refl B4)]; rewrite Rabs_pos_eq; lra|]). constructor.
  - unfold cross. ring.
  - rewrite u47. pose proof u_small. unfold cross. lra.
Qed.
(* the unit circle: a point inside, one outside and one on it *)
Example C72_incircle_ex :
  simpleIncircle f1 fzero fzero f1 fm1 fzero (fz 1 (-2)) (fz (-1) (-1)) = Inside /\
  simpleIncircle f1 fzero fzero f1 fm1 fzero f1 f2 = Outside /\
  simpleIncircle fm1 fzero fzero f1 f1 fzero f1 f2 = Inside /\
  simpleIncircle f1 fzero fzero f1 fm1 fzero fzero fm1 = IndeterminatePosition.
Proof. repeat split; vm_compute; reflexivity. Qed.
Example C72_incircle_hyp_ex : Forall (sized 200) [f1; fzero; fzero; f1; fm1; fzero; f1; f2] /\
  dist2 (B2R f1) (B2R fzero) 0 0 = 1 /\ dist2 (B2R fzero) (B2R f1) 0 0 = 1 /\ dist2 (B2R fm1) (B2R fzero) 0 0 = 1 /\
  0 < cross (B2R f1) (B2R fzero) (B2R fzero) (B2R f1) (B2R fm1) (B2R fzero) /\ 1 < dist2 (B2R f1) (B2R f2) 0 0.
Proof.
  assert (Z0 : B2R fzero = 0) by reflexivity. rewrite Bm1, B1, B2, Z0. split; [|unfold dist2, cross; repeat split; lra].
  repeat (constructor; [first [solve [split; [reflexivity|left; reflexivity]]|apply (ge_sized 200 f1 1 ltac:(lia) eq_refl B1); rewrite Rabs_pos_eq; lra
    |apply (ge_sized 200 f2 2 ltac:(lia) eq_refl B2); rewrite Rabs_pos_eq; lra|apply (ge_sized 200 fm1 (-1) ltac:(lia) eq_refl Bm1); rewrite Rabs_left; lra]|]). constructor.
Qed.
Example C72_robust_ex : (robustOrientation 1 1 2 2 3 3)%Q = Colinear /\ (robustOrientation 1 1 3 2 2 4)%Q = CCW /\
  (robustIncircle 1 0 0 1 (-1) 0 0 (-1))%Q = On /\ (robustIncircle 1 0 0 1 (-1) 0 (1 # 2) (1 # 3))%Q = Inside.
Proof. repeat split. Qed.

Print Assumptions C72_orientation.
Print Assumptions C72_orientation_finite.
Print Assumptions C72_orientation_call.
Print Assumptions C72_orientation_swap.
Print Assumptions C72_orientation_decides.
Print Assumptions C72_incircle.
Print Assumptions C72_incircle_cw.
Print Assumptions C72_incircle_call.
Print Assumptions C72_circle.
Print Assumptions C72_robust_orientation.
Print Assumptions C72_robust_incircle.
Print Assumptions C72_orientation_small_refuted.
Print Assumptions C72_incircle_scale_refuted.
