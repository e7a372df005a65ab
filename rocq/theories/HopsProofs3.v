(* Proofs about Rand1D. *)
From Coq Require Import ZArith List Bool Lia Reals Lra.
From Flocq Require Import Core IEEE754.BinarySingleNaN.
From Verif Require Import GoLib F64 F64Arith HbookModel HistModel HistErr HopsModel F64Near HopsProofs HopsProofs2.
Import ListNotations.
Local Open Scope R_scope.
Local Notation b2 := (bpow radix2).

(* the sum of the weights of bins, as it is computed *)
Definition total (bs : list Bin) : f64 := fold_left (fun s b => fadd s (sumW b)) bs fzero.
Definition wok (b : Bin) : Prop := is_finite (sumW b) = true /\ 0 <= B2R (sumW b).

Lemma sums_length s bs : length (sums s bs) = length bs.
Proof. revert s. induction bs; intros; cbn; auto. Qed.
Lemma sums_nth bs : forall s k, (k <= length bs)%nat -> nth k (s :: sums s bs) fzero = fold_left (fun s b => fadd s (sumW b)) (firstn k bs) s.
Proof.
  induction bs as [|b bs IH]; intros s k L.
  - cbn in L. assert (k = 0)%nat by lia. subst. reflexivity.
  - destruct k as [|k]; [reflexivity|]. cbn [sums firstn fold_left length] in *. change (nth (S k) (s :: fadd s (sumW b) :: sums (fadd s (sumW b)) bs) fzero)
      with (nth k (fadd s (sumW b) :: sums (fadd s (sumW b)) bs) fzero). apply IH. lia.
Qed.
Lemma fin_fadd_l (s w : f64) : is_finite (fadd s w) = true -> is_finite s = true.
Proof. destruct s as [|[]| |]; auto; destruct w as [|[]| |[]]; cbn; auto. Qed.
Lemma fold_fin bs s : is_finite (fold_left (fun s b => fadd s (sumW b)) bs s) = true -> is_finite s = true.
Proof. revert s. induction bs as [|b bs IH]; intros s H; cbn in *; auto. apply IH in H. eapply fin_fadd_l; eauto. Qed.
Lemma fadd_ge s w : is_finite s = true -> is_finite w = true -> is_finite (fadd s w) = true -> 0 <= B2R w -> B2R s <= B2R (fadd s w).
Proof.
  intros Fs Fw F P. destruct (fadd_vr s w Fs Fw) as [N V]. rewrite vr_finite in V by auto. rewrite V. apply Rle_trans with (cl (B2R s)); [rewrite cl_B2R; lra|apply cl_mono; lra].
Qed.
Lemma fadd_zero s w : is_finite s = true -> is_finite w = true -> is_finite (fadd s w) = true -> B2R w = 0 -> B2R (fadd s w) = B2R s.
Proof. intros Fs Fw F Z. destruct (fadd_vr s w Fs Fw) as [N V]. rewrite vr_finite in V by auto. rewrite V, Z, Rplus_0_r. apply cl_B2R. Qed.
Lemma below_one (y : f64) : B2R y < 1 -> B2R y <= 1 - u.
Proof.
  intros H. pose proof (generic_format_B2R 53 1024 y) as G.
  assert (G1 : generic_format radix2 (FLT_exp (-1074) 53) (b2 0)) by (apply generic_format_bpow; unfold FLT_exp; lia).
  pose proof (pred_ge_gt radix2 (FLT_exp (-1074) 53) _ _ G G1 H) as P. rewrite pred_bpow in P. exact P.
Qed.

Lemma firstn_S_nth_error {A} (l : list A) : forall k b, nth_error l k = Some b -> firstn (S k) l = firstn k l ++ [b].
Proof. induction l as [|a l IH]; intros [|k] b H; cbn in *; try discriminate; [congruence|]. f_equal. apply IH. auto. Qed.

Lemma last_nth {A} (l : list A) d : last l d = nth (length l - 1) l d.
Proof.
  induction l as [|a l IH]; auto. destruct l as [|b l]; auto. change (last (a :: b :: l) d) with (last (b :: l) d). rewrite IH. cbn [length].
  rewrite !Nat.sub_succ, !Nat.sub_0_r. reflexivity.
Qed.

Section R.
Variable bs : list Bin.
Let n := length bs.
Let tot k := total (firstn k bs).
Let S0 := total bs.
Hypothesis W : forall b, In b bs -> wok b.
Hypothesis FS : is_finite S0 = true.
Hypothesis RS : b2 (-1000) <= B2R S0 <= b2 1000.

Lemma tot_n : tot n = S0. Proof. unfold tot, n. rewrite firstn_all. reflexivity. Qed.
Lemma tot_step k b : nth_error bs k = Some b -> tot (S k) = fadd (tot k) (sumW b).
Proof.
  intros H. unfold tot, total. rewrite (firstn_S_nth_error bs k b H). rewrite fold_left_app. reflexivity.
Qed.
Lemma tot_fin k : (k <= n)%nat -> is_finite (tot k) = true.
Proof.
  intros L. unfold tot, total. apply fold_fin with (bs := skipn k bs). rewrite <- fold_left_app, firstn_skipn. exact FS.
Qed.
Lemma tot_mono1 k b : nth_error bs k = Some b -> B2R (tot k) <= B2R (tot (S k)).
Proof.
  intros H. assert (L : (k < n)%nat) by (apply nth_error_Some; congruence). pose proof (tot_fin (S k) L) as F1. rewrite (tot_step k b H) in *.
  destruct (W b (nth_error_In _ _ H)) as [Fw P]. apply fadd_ge; auto. apply tot_fin. lia.
Qed.
Lemma tot_mono j k : (j <= k <= n)%nat -> B2R (tot j) <= B2R (tot k).
Proof.
  intros [H K]. induction H as [|k H IH]; [lra|]. destruct (nth_error bs k) as [b|] eqn:E; [|apply nth_error_None in E; unfold n in K; lia].
  eapply Rle_trans; [apply IH; lia|]. apply (tot_mono1 k b E).
Qed.
Lemma tot_0 : B2R (tot 0) = 0. Proof. reflexivity. Qed.
Lemma tot_range k : (k <= n)%nat -> 0 <= B2R (tot k) <= B2R S0.
Proof. intros L. rewrite <- tot_0, <- tot_n. split; apply tot_mono; lia. Qed.

Let norm := fdiv f1 S0.
Lemma S_pos : 0 < B2R S0. Proof. pose proof (bpow_gt_0 radix2 (-1000)). lra. Qed.
Lemma norm_R : is_finite norm = true /\ exists d, Rabs d <= u /\ B2R norm = / B2R S0 * (1 + d).
Proof.
  destruct f1_R as [F1 R1]. pose proof S_pos as P. destruct (fdiv_vr f1 S0 F1 FS) as [N V]; [lra|]. rewrite R1 in V.
  assert (I : b2 (-1000) <= Rabs (/ B2R S0) <= b2 1000) by (apply (near_inv 1000); rewrite Rabs_pos_eq by lra; auto).
  replace (1 / B2R S0) with (/ B2R S0) in V by (field; lra).
  assert (NR : near (0 + 2) 1000 norm (/ B2R S0)).
  { apply near_rnd with (a := / B2R S0) (d := 0); auto; try lra; try lia. rewrite Rabs_R0. lra. }
  split; [apply NR|]. destruct (rnd_rel (/ B2R S0)) as (d & D & E). { eapply Rle_trans; [|apply I]. apply bpow_le. lia. }
  exists d. split; auto. rewrite <- E. rewrite vr_finite in V by apply NR. etransitivity; [exact V|]. apply cl_small.
  apply rnd_small. pose proof (bpow_gt_0 radix2 1000). lra.
Qed.
Lemma norm_pos : 0 < B2R norm.
Proof. destruct norm_R as (_ & d & D & ->). apply ab in D. pose proof u_small. pose proof S_pos. apply Rmult_lt_0_compat; [apply Rinv_0_lt_compat; auto|lra]. Qed.

Let c k := fmul (tot k) norm.
Lemma tn_R k : (k <= n)%nat -> exists d, Rabs d <= u /\ B2R (tot k) * B2R norm = B2R (tot k) / B2R S0 * (1 + d) /\ 0 <= B2R (tot k) / B2R S0 <= 1.
Proof.
  intros L. destruct norm_R as (_ & d & D & E). exists d. split; auto. pose proof (tot_range k L). pose proof S_pos. split; [rewrite E; field; lra|].
  split; [apply Rmult_le_pos; [lra|apply Rlt_le, Rinv_0_lt_compat; auto]|]. apply Rmult_le_reg_r with (B2R S0); auto. unfold Rdiv. rewrite Rmult_assoc, Rinv_l by lra. lra.
Qed.
Lemma c_R k : (k <= n)%nat -> is_finite (c k) = true /\ B2R (c k) = rnd (B2R (tot k) * B2R norm).
Proof.
  intros L. destruct norm_R as (Fn & _). apply fmul_small; auto; [apply tot_fin; auto|].
  destruct (tn_R k L) as (d & D & -> & Q). apply ab in D. pose proof u_small.
  rewrite Rabs_pos_eq by (apply Rmult_le_pos; lra). apply Rle_trans with (1 * 2); [apply Rmult_le_compat; lra|].
  assert (b2 0 <= b2 1000) by (apply bpow_le; lia). change (b2 0) with 1 in *. lra.
Qed.
Lemma c_mono j k : (j <= k <= n)%nat -> B2R (c j) <= B2R (c k).
Proof.
  intros H. rewrite (proj2 (c_R j ltac:(lia))), (proj2 (c_R k ltac:(lia))). apply rnd_le. pose proof (tot_mono j k H). pose proof norm_pos. nra.
Qed.
Lemma c_0 : B2R (c 0) = 0.
Proof. rewrite (proj2 (c_R 0 ltac:(lia))), tot_0, Rmult_0_l. apply rnd_0. Qed.
Lemma c_err k : (k <= n)%nat -> Rabs (B2R (c k) - B2R (tot k) / B2R S0) <= b2 (-51).
Proof.
  intros L. rewrite (proj2 (c_R k L)). destruct (tn_R k L) as (d & D & E & Q). pose proof (rnd_err (B2R (tot k) * B2R norm)) as R. rewrite E in *.
  apply ab in D. pose proof u_small as U. set (q := B2R (tot k) / B2R S0) in *.
  assert (Rabs (q * (1 + d)) <= 2) by (rewrite Rabs_pos_eq by (apply Rmult_le_pos; lra); nra).
  assert (ETA : eta <= u * / 2). { change (/ 2) with (b2 (-1)). rewrite <- bpow_plus. apply bpow_le. lia. }
  apply ab in R. assert (b2 (-51) = 4 * u). { change (-51)%Z with (2 + -53)%Z. rewrite bpow_plus. reflexivity. }
  apply Rabs_le. assert (- u <= q * d <= u) by nra. assert (u * Rabs (q * (1 + d)) <= u * 2) by (apply Rmult_le_compat_l; lra). lra.
Qed.
Lemma c_n : 1 - u <= B2R (c n).
Proof.
  rewrite (proj2 (c_R n ltac:(lia))). destruct (tn_R n ltac:(lia)) as (d & D & E & _). rewrite E, tot_n. pose proof S_pos.
  replace (B2R S0 / B2R S0) with 1 by (field; lra). apply ab in D.
  assert (G : rnd (1 - u) = 1 - u).
  { apply round_generic; [apply valid_rnd_N|]. change (1 - u) with (b2 0 - b2 (FLT_exp (-1074) 53 0)). rewrite <- (pred_bpow radix2 (FLT_exp (-1074) 53) 0).
    apply generic_format_pred; [apply FLT_exp_valid; reflexivity|]. apply generic_format_bpow. unfold FLT_exp. lia. }
  rewrite <- G. apply rnd_le. lra.
Qed.
Lemma c_weight k b : nth_error bs k = Some b -> B2R (c k) < B2R (c (S k)) -> 0 < B2R (sumW b).
Proof.
  intros H L. assert (K : (k < n)%nat) by (apply nth_error_Some; congruence). destruct (W b (nth_error_In _ _ H)) as [Fw P].
  destruct P as [P|P]; auto. exfalso. pose proof (tot_fin (S k) K) as F1. pose proof (tot_step k b H) as T. rewrite T in F1.
  pose proof (fadd_zero (tot k) (sumW b) (tot_fin k ltac:(lia)) Fw F1 (eq_sym P)) as Z. rewrite <- T in Z.
  rewrite (proj2 (c_R k ltac:(lia))), (proj2 (c_R (S k) K)), Z in L. lra.
Qed.
(* the cdf of the model *)
Lemma cdf_is d : NewRand1D bs = Ok d -> length (cdf d) = S n /\ (forall k, (k <= n)%nat -> nth_error (cdf d) k = Some (c k)) /\ length (rbins d) = S n /\
  (forall k b, nth_error bs k = Some b -> nth_error (rbins d) k = Some (brange b)) /\
  exists l, nth_error bs (n - 1) = Some l /\ nth_error (rbins d) n = Some (rng (xMax l) (fadd (xMax l) (width (brange l)))).
Proof.
  intros H. unfold NewRand1D in H. destruct (rev bs) as [|l t] eqn:E; [discriminate|].
  assert (B : bs = rev t ++ [l]) by (rewrite <- (rev_involutive bs), E; reflexivity).
  assert (LS : last (fzero :: sums fzero bs) fzero = S0).
  { rewrite (last_nth (fzero :: sums fzero bs)). cbn [length]. rewrite sums_length. rewrite Nat.sub_succ, Nat.sub_0_r.
    rewrite sums_nth by lia. rewrite firstn_all. reflexivity. }
  rewrite LS in H. apply (f_equal (fun r => match r with Ok a => a | Panic => d end)) in H. cbv beta iota in H. subst d. unfold cdf, rbins. rewrite !app_length, !map_length. cbn [length]. rewrite sums_length.
  split; [reflexivity|]. split; [|split; [apply Nat.add_1_r|split]].
  - intros k K. rewrite nth_error_map, nth_error_nth' with (d := fzero) by (cbn [length]; rewrite sums_length; unfold n in K; lia).
    rewrite sums_nth by exact K. reflexivity.
  - intros k b Hb. assert (KL : (k < n)%nat) by (apply nth_error_Some; congruence). rewrite nth_error_app1 by (rewrite map_length; exact KL). apply map_nth_error. exact Hb.
  - exists l. split.
    + unfold n. rewrite B. rewrite app_length. cbn [length]. rewrite nth_error_app2 by lia. replace (length (rev t) + 1 - 1 - length (rev t))%nat with 0%nat by lia. reflexivity.
    + rewrite nth_error_app2 by (rewrite map_length; apply le_n). rewrite map_length. unfold n, Bin. rewrite Nat.sub_diag. reflexivity.
Qed.
Lemma NewRand1D_ok : bs <> [] -> exists d, NewRand1D bs = Ok d.
Proof.
  intros H. unfold NewRand1D. destruct (rev bs) as [|l t] eqn:E; [|eauto]. exfalso. apply H. rewrite <- (rev_involutive bs), E. reflexivity.
Qed.
Lemma search_is d y : NewRand1D bs = Ok d -> is_finite y = true -> 0 <= B2R y ->
  (search d y <= n)%nat /\ B2R (c (search d y)) <= B2R y /\ ((search d y < n)%nat -> B2R y < B2R (c (S (search d y)))).
Proof.
  intros H Fy P. destruct (cdf_is d H) as (L & C & _). unfold search. rewrite L, Nat.sub_succ, Nat.sub_0_r.
  assert (N : forall k, (k < n)%nat -> nth (S k) (cdf d) fzero = c (S k)).
  { intros k K. specialize (C (S k) K). apply nth_error_nth with (d := fzero) in C. exact C. }
  assert (T : forall k, (k < n)%nat -> (flt y (nth (S k) (cdf d) fzero) = true <-> B2R y < B2R (c (S k)))).
  { intros k K. rewrite N by auto. apply flt_R; auto. apply c_R. lia. }
  destruct (go_search_mono n (fun i => flt y (nth (S i) (cdf d) fzero))) as (A & B & D).
  { intros i j I J. rewrite !T by lia. intros Q. pose proof (c_mono (S i) (S j) ltac:(lia)). lra. }
  set (i := go_search n (fun i => flt y (nth (S i) (cdf d) fzero))) in *. split; [auto|]. split.
  - destruct i as [|i]; [rewrite c_0; auto|]. specialize (B i ltac:(lia)). apply Rnot_lt_le. intros Q. apply T in Q; [congruence|lia].
  - intros K. apply T; auto.
Qed.
End R.

(* ---- the interpolation ---- *)
Lemma interpR W a b w e f p q d1 d2 d3 : 0 <= W -> 0 < a <= b -> b2 (-107) <= f -> Rabs d1 <= u -> Rabs d2 <= u -> Rabs d3 <= u ->
  e = a * (1 + d1) -> f = b * (1 + d2) -> w = W * (1 + d3) ->
  Rabs (p - w * e) <= u * Rabs (w * e) + eta -> Rabs (q - p / f) <= u * Rabs (p / f) + eta ->
  Rabs (q - W * (a / b)) <= 6 * u * (W * (a / b)) + b2 (-960).
Proof.
  intros HW [Ha Hb] Hf D1 D2 D3 Ee Ef Ew Hp Hq. pose proof u_small as U. apply ab in D1. apply ab in D2. apply ab in D3.
  assert (F0 : 0 < f) by (pose proof (bpow_gt_0 radix2 (-107)); lra). assert (B0 : 0 < b) by lra.
  set (X := W * (a / b)). assert (X0 : 0 <= X). { unfold X. apply Rmult_le_pos; auto. apply Rlt_le, Rdiv_lt_0_compat; lra. }
  assert (A : w * e / f = X * ((1 + d1) * (1 + d3) / (1 + d2))). { unfold X. rewrite Ee, Ef, Ew. field. lra. }
  set (g := (1 + d1) * (1 + d3) / (1 + d2)) in *.
  assert (G : Rabs (g - 1) <= 7 / 2 * u).
  { replace (g - 1) with ((d1 + d3 - d2 + d1 * d3) / (1 + d2)) by (unfold g; field; lra).
    assert (- u * u <= d1 * d3 <= u * u) by nra. unfold Rdiv. rewrite Rabs_mult.
    assert (Rabs (d1 + d3 - d2 + d1 * d3) <= 3 * u + u * u) by (apply Rabs_le; lra).
    assert (I : 0 < / (1 + d2) <= 101 / 100). { split; [apply Rinv_0_lt_compat; lra|]. apply Rmult_le_reg_r with (1 + d2); [lra|]. rewrite Rinv_l by lra. lra. }
    rewrite (Rabs_pos_eq (/ (1 + d2))) by lra. apply Rle_trans with ((3 * u + u * u) * (101 / 100)); [apply Rmult_le_compat; try lra; apply Rabs_pos|]. nra. }
  apply ab in G. set (A0 := w * e / f) in *. assert (GX : - (7 / 2 * u * X) <= A0 - X <= 7 / 2 * u * X). { rewrite A. nra. }
  assert (WE : w * e = A0 * f) by (unfold A0; field; lra). rewrite WE in Hp.
  assert (A00 : 0 <= A0) by (rewrite A; apply Rmult_le_pos; [auto|nra]).
  rewrite (Rabs_pos_eq (A0 * f)) in Hp by nra. apply ab in Hp. set (P := p / f) in *. assert (PE : p = P * f) by (unfold P; field; lra).
  set (h := eta / f). assert (HE : eta = h * f) by (unfold h; field; lra).
  assert (Hh : 0 <= h <= b2 (-968)).
  { pose proof eta_pos. split; [apply Rlt_le, Rdiv_lt_0_compat; lra|]. apply Rmult_le_reg_r with f; auto. rewrite <- HE.
    apply Rle_trans with (b2 (-968) * b2 (-107)); [rewrite <- bpow_plus; apply bpow_le; lia|]. apply Rmult_le_compat_l; [apply bpow_ge_0|auto]. }
  assert (HP : - (u * A0 + h) <= P - A0 <= u * A0 + h).
  { rewrite PE, HE in Hp. split; apply Rmult_le_reg_r with f; auto; nra. }
  assert (E968 : eta <= b2 (-968)) by (apply bpow_le; lia). assert (E960 : 256 * b2 (-968) = b2 (-960)). { change 256 with (b2 8). rewrite <- bpow_plus. reflexivity. }
  apply ab in Hq. assert (HA : A0 <= 2 * X) by nra. assert (UA : u * A0 <= u * X + 7 / 2 * u * (u * X)) by nra.
  assert (UUX : u * (u * X) <= / 1000 * (u * X)) by (apply Rmult_le_compat_r; [nra|lra]).
  assert (PB : Rabs P <= A0 + u * A0 + h) by (apply Rabs_le; nra).
  assert (UP : u * Rabs P <= u * A0 + u * (u * A0) + h).
  { apply Rle_trans with (u * (A0 + u * A0 + h)); [apply Rmult_le_compat_l; lra|]. nra. }
  assert (UUA : u * (u * A0) <= / 500 * (u * X)). { apply Rle_trans with (/ 1000 * (u * A0)); [apply Rmult_le_compat_r; [nra|lra]|]. nra. }
  apply Rabs_le. assert (0 <= u * X) by nra. lra.
Qed.
Lemma gap_107 (a b : f64) : B2R a < B2R b -> b2 (-53) <= B2R b -> b2 (-107) <= B2R b - B2R a.
Proof.
  intros L H. pose proof (generic_format_B2R 53 1024 a) as Ga. pose proof (generic_format_B2R 53 1024 b) as Gb.
  pose proof (pred_ge_gt radix2 (FLT_exp (-1074) 53) _ _ Ga Gb L) as P. pose proof (pred_plus_ulp radix2 (FLT_exp (-1074) 53)) as Q.
  assert (B0 : 0 < B2R b) by (pose proof (bpow_gt_0 radix2 (-53)); lra). specialize (Q _ B0 Gb).
  set (p := pred radix2 (FLT_exp (-1074) 53) (B2R b)) in *.
  apply Rle_trans with (ulp radix2 (FLT_exp (-1074) 53) p); [|lra].
  assert (H2 : b2 (-53) = 2 * b2 (-54)) by (change (-53)%Z with (1 + -54)%Z; rewrite bpow_plus; reflexivity).
  assert (H3 : b2 (-107) <= b2 (-54)) by (apply bpow_le; lia).
  destruct (Rle_or_lt (b2 (-54)) p) as [K|K].
  - pose proof (ulp_FLT_gt radix2 (-1074) 53 p) as G. assert (P0 : 0 <= p) by (pose proof (bpow_gt_0 radix2 (-54)); lra). rewrite Rabs_pos_eq in G by auto.
    apply Rlt_le. eapply Rle_lt_trans; [|exact G]. change (-107)%Z with (-54 + -53)%Z. rewrite bpow_plus. change (- (53))%Z with (-53)%Z.
    apply Rmult_le_compat_r; [apply bpow_ge_0|auto].
  - lra.
Qed.
Lemma rnd_sub_rel (x y : f64) : exists d, Rabs d <= u /\ rnd (B2R x - B2R y) = (B2R x - B2R y) * (1 + d).
Proof.
  pose proof (rnd_minus_err x y) as E. destruct (Req_dec (B2R x - B2R y) 0) as [Z|Z].
  - rewrite Z in *. rewrite rnd_0. exists 0. rewrite Rabs_R0. pose proof u_small. split; [lra|ring].
  - exists ((rnd (B2R x - B2R y) - (B2R x - B2R y)) / (B2R x - B2R y)). split; [|field; auto].
    unfold Rdiv. rewrite Rabs_mult, Rabs_inv. apply Rmult_le_reg_r with (Rabs (B2R x - B2R y)); [apply Rabs_pos_lt; auto|].
    rewrite Rmult_assoc, Rinv_l by (apply Rabs_no_R0; auto). lra.
Qed.

Definition interp (x lo hi y c c1 : f64) : f64 := fadd x (fdiv (fmul (fsub hi lo) (fsub y c)) (fsub c1 c)).
Lemma interp_ok (x lo hi y c c1 : f64) : is_finite x = true -> is_finite lo = true -> is_finite hi = true -> is_finite y = true ->
  is_finite c = true -> is_finite c1 = true -> Rabs (B2R x) <= b2 900 -> 0 <= B2R hi - B2R lo <= b2 905 ->
  0 <= B2R c -> B2R c1 <= 1 -> B2R c < B2R y -> B2R y < B2R c1 -> b2 (-53) <= B2R y ->
  let W := B2R hi - B2R lo in let t := (B2R y - B2R c) / (B2R c1 - B2R c) in
  is_finite (interp x lo hi y c c1) = true /\ B2R x <= B2R (interp x lo hi y c c1) /\
  Rabs (B2R (interp x lo hi y c c1) - (B2R x + W * t)) <= b2 (-50) * (Rabs (B2R x) + W) + b2 (-900).
Proof.
  intros Fx Fl Fh Fy Fc Fc1 Bx BW C0 C1 Cy Yc Y W t. pose proof u_small as U.
  assert (B9 : b2 905 <= b2 1000) by (apply bpow_le; lia). assert (B90 : b2 900 <= b2 905) by (apply bpow_le; lia).
  assert (B1 : 1 <= b2 900) by (change 1 with (b2 0); apply bpow_le; lia). fold W in BW.
  destruct (fsub_small hi lo Fh Fl) as [FW RW]; [fold W; rewrite Rabs_pos_eq by lra; lra|].
  destruct (fsub_small y c Fy Fc) as [Fe Re]; [rewrite Rabs_pos_eq by lra; lra|].
  destruct (fsub_small c1 c Fc1 Fc) as [Ff Rf]; [rewrite Rabs_pos_eq by lra; lra|].
  destruct (rnd_sub_rel hi lo) as (d3 & D3 & E3). destruct (rnd_sub_rel y c) as (d1 & D1 & E1). destruct (rnd_sub_rel c1 c) as (d2 & D2 & E2).
  rewrite E3 in RW. rewrite E1 in Re. rewrite E2 in Rf. fold W in RW, E3.
  set (a := B2R y - B2R c) in *. set (b := B2R c1 - B2R c) in *.
  assert (Hab : 0 < a <= b) by (unfold a, b; lra).
  assert (Hf : b2 (-107) <= b * (1 + d2)).
  { rewrite <- E2. assert (G : rnd (b2 (-107)) = b2 (-107)). { apply round_generic; [apply valid_rnd_N|]. apply generic_format_bpow. unfold FLT_exp. lia. }
    rewrite <- G. apply rnd_le. apply gap_107; lra. }
  pose proof (bpow_gt_0 radix2 (-107)) as P107.
  pose proof D1 as D1'. pose proof D2 as D2'. pose proof D3 as D3'. apply ab in D1'. apply ab in D2'. apply ab in D3'.
  assert (Hw : 0 <= B2R (fsub hi lo) <= 2 * b2 905). { rewrite RW. split; [apply Rmult_le_pos; lra|]. nra. }
  assert (He : 0 < B2R (fsub y c) <= 2). { rewrite Re. split; [apply Rmult_lt_0_compat; lra|]. unfold b in *. nra. }
  assert (B907 : 4 * b2 905 = b2 907). { change 4 with (b2 2). rewrite <- bpow_plus. reflexivity. }
  assert (HB907 : b2 907 <= b2 1000) by (apply bpow_le; lia).
  assert (We : 0 <= B2R (fsub hi lo) * B2R (fsub y c) <= 4 * b2 905). { split; [apply Rmult_le_pos; lra|]. nra. }
  destruct (fmul_small (fsub hi lo) (fsub y c) FW Fe) as [Fp Rp]; [rewrite Rabs_pos_eq by lra; lra|].
  set (p := fmul (fsub hi lo) (fsub y c)) in *. pose proof (rnd_err (B2R (fsub hi lo) * B2R (fsub y c))) as Ep. rewrite <- Rp in Ep.
  assert (P0 : 0 <= B2R p) by (rewrite Rp; apply rnd_nonneg; lra).
  assert (Fnz : B2R (fsub c1 c) <> 0) by (rewrite Rf; lra).
  destruct (fdiv_vr p (fsub c1 c) Fp Ff Fnz) as [Nq Vq].
  assert (Pb : B2R p <= 8 * b2 905).
  { apply ab in Ep. rewrite (Rabs_pos_eq (_ * _)) in Ep by lra. assert (eta <= 1) by (change 1 with (b2 0); apply bpow_le; lia). nra. }
  assert (Qpos : 0 <= B2R p / B2R (fsub c1 c)). { apply Rmult_le_pos; auto. apply Rlt_le, Rinv_0_lt_compat. rewrite Rf. lra. }
  assert (Qb : Rabs (rnd (B2R p / B2R (fsub c1 c))) < big).
  { apply rnd_small. rewrite Rabs_pos_eq by auto. (* at most twice the width, and a little *)
    assert (F0 : 0 < B2R (fsub c1 c)) by (rewrite Rf; lra).
    assert (R1 : B2R (fsub y c) <= B2R (fsub c1 c)). { rewrite Re, Rf, <- E1, <- E2. apply rnd_le. lra. }
    apply ab in Ep. rewrite (Rabs_pos_eq (_ * _)) in Ep by lra.
    apply Rmult_le_reg_r with (B2R (fsub c1 c)); auto. unfold Rdiv. rewrite Rmult_assoc, Rinv_l by lra. rewrite Rmult_1_r.
    assert (T1 : B2R (fsub hi lo) * B2R (fsub y c) <= 2 * b2 905 * B2R (fsub c1 c)) by (apply Rmult_le_compat; lra).
    assert (T2 : eta <= b2 900 * B2R (fsub c1 c)). { apply Rle_trans with (b2 900 * b2 (-107)); [rewrite <- bpow_plus; apply bpow_le; lia|]. apply Rmult_le_compat_l; [lra|]. rewrite Rf. lra. }
    assert (T3 : 0 <= u * (B2R (fsub hi lo) * B2R (fsub y c)) <= B2R (fsub hi lo) * B2R (fsub y c)) by (clear - We U; set (m := B2R (fsub hi lo) * B2R (fsub y c)) in *; nra).
    assert (T4 : 5 * b2 905 * B2R (fsub c1 c) <= 8 * b2 905 * B2R (fsub c1 c)) by nra.
    assert (T5 : 8 * b2 905 <= b2 1000). { change 8 with (b2 3). rewrite <- bpow_plus. apply bpow_le. lia. }
    assert (T6 : 8 * b2 905 * B2R (fsub c1 c) <= 3 * b2 1000 * B2R (fsub c1 c)) by (apply Rmult_le_compat_r; lra).
    assert (T7 : b2 900 * B2R (fsub c1 c) <= b2 905 * B2R (fsub c1 c)) by (apply Rmult_le_compat_r; lra). lra. }
  destruct (vr_cl_finite _ _ Nq Vq Qb) as [Fq Rq]. set (q := fdiv p (fsub c1 c)) in *.
  pose proof (rnd_err (B2R p / B2R (fsub c1 c))) as Eq. rewrite <- Rq in Eq. assert (Q0 : 0 <= B2R q) by (rewrite Rq; apply rnd_nonneg; auto).
  rewrite Rf in Eq. rewrite <- Rf in Hf.
  pose proof (interpR W a b (B2R (fsub hi lo)) (B2R (fsub y c)) (B2R (fsub c1 c)) (B2R p) (B2R q) d1 d2 d3 ltac:(lra) Hab Hf D1 D2 D3 Re Rf RW Ep ltac:(rewrite Rf; exact Eq)) as I.
  fold t in I. apply ab in I.
  assert (T : 0 <= t <= 1). { unfold t. fold a. fold b. split; [apply Rlt_le, Rdiv_lt_0_compat; lra|]. apply Rmult_le_reg_r with b; [lra|]. unfold Rdiv. rewrite Rmult_assoc, Rinv_l by lra. lra. }
  assert (WT : 0 <= W * t <= W) by (clear - T BW; nra). assert (S960 : b2 (-960) <= 1) by (change 1 with (b2 0); apply bpow_le; lia).
  assert (Qw : B2R q <= 2 * b2 905 + 1).
  { assert (6 * u * (W * t) <= W * t). { rewrite <- (Rmult_1_l (W * t)) at 2. apply Rmult_le_compat_r; lra. } lra. } apply ab in Bx.
  destruct (fadd_small x q Fx Fq) as [Fr Rr]; [apply Rabs_le; lra|]. change (interp x lo hi y c c1) with (fadd x q). rewrite Rr. split; [auto|]. split.
  - apply Rle_trans with (rnd (B2R x)); [rewrite rnd_B2R; lra|]. apply rnd_le. lra.
  - pose proof (rnd_plus_err x q) as Ex. assert (Rabs (B2R x + B2R q) <= Rabs (B2R x) + B2R q). { eapply Rle_trans; [apply Rabs_triang|]. rewrite (Rabs_pos_eq (B2R q)) by auto. lra. }
    assert (M : u * Rabs (B2R x + B2R q) <= u * (Rabs (B2R x) + B2R q)) by (apply Rmult_le_compat_l; lra).
    assert (B50 : b2 (-50) = 8 * u). { change (-50)%Z with (3 + -53)%Z. rewrite bpow_plus. reflexivity. }
    assert (B900 : 4 * b2 (-960) <= b2 (-900)). { change 4 with (b2 2). rewrite <- bpow_plus. apply bpow_le. lia. }
    assert (P9 : 0 < b2 (-960)) by apply bpow_gt_0.
    assert (Qu : u * B2R q <= u * (W * t) + / 100 * (u * (W * t)) + b2 (-960)).
    { apply Rle_trans with (u * (W * t + 6 * u * (W * t) + b2 (-960))); [apply Rmult_le_compat_l; lra|].
      assert (u * (6 * u * (W * t)) <= / 100 * (u * (W * t))). { replace (u * (6 * u * (W * t))) with ((6 * u) * (u * (W * t))) by ring. apply Rmult_le_compat_r; [apply Rmult_le_pos; lra|lra]. }
      assert (u * b2 (-960) <= 1 * b2 (-960)) by (apply Rmult_le_compat_r; lra). lra. }
    assert (u * (W * t) <= u * W) by (apply Rmult_le_compat_l; lra). pose proof (Rabs_pos (B2R x)). assert (0 <= u * Rabs (B2R x)) by (apply Rmult_le_pos; lra). apply ab in Ex. apply Rabs_le. rewrite B50. assert (0 <= u * (W * t)) by (apply Rmult_le_pos; lra). lra.
Qed.
