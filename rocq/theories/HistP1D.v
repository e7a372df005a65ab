(* P1D: where an entry goes and what is accumulated. *)
From Coq Require Import ZArith List Bool Lia Reals Lra.
From Flocq Require Import Core IEEE754.BinarySingleNaN.
From Verif Require Import GoLib F64 F64Arith HbookModel HbookSpec HbookProofs HbookProofs2 HbookProofs3 HistModel HistProofs HistErr.
Import ListNotations.

Lemma upd_nth_cases A (l : list A) i f : (i < length l)%nat -> exists l', upd_nth l i f = Ok l' /\ length l' = length l /\
  (forall j a, nth_error l j = Some a -> nth_error l' j = Some (if (j =? i)%nat then f a else a)).
Proof.
  revert i. induction l as [|x l IH]; intros i H; [cbn in H; lia|]. destruct i; cbn [upd_nth].
  - eexists. split; [reflexivity|]. split; [reflexivity|]. intros [|j] a E; cbn in *; congruence.
  - cbn in H. destruct (IH i ltac:(lia)) as (l' & E & L & N). rewrite E. cbn [rbind]. eexists. split; [reflexivity|]. cbn. split; [lia|].
    intros [|j] a E2; cbn in *; auto.
Qed.
Lemma upd_nth_panic A (l : list A) i f : (length l <= i)%nat -> upd_nth l i f = Panic.
Proof. revert i. induction l as [|x l IH]; intros i H; [destruct i; reflexivity|]. destruct i; cbn in *; [lia|]. rewrite IH by lia. reflexivity. Qed.

Section P.
Variable bad : f64 -> Z.
Local Open Scope Z_scope.
Definition pok (b : BinningP1D) (i : Z) : Prop := i = -1 \/ i = -2 \/ 0 <= i < Z.of_nat (length (pbins b)).
Definition hx (h : F * F * F) : f64 := fst (fst h).
Definition sameP (a b : BinningP1D) : Prop := pxrange a = pxrange b /\ pxstep a = pxstep b /\ length (pbins a) = length (pbins b).
Lemma sameP_index a b x : sameP a b -> coordToIndexP bad a x = coordToIndexP bad b x.
Proof. intros (E1 & E2 & _). unfold coordToIndexP. rewrite E1, E2. reflexivity. Qed.
Lemma fillP_spec b x y w : pok b (coordToIndexP bad b x) -> exists b', fillP bad b x y w = Ok b' /\ sameP b' b /\
  ptot b' = Dist2D_fill (N := F) (ptot b) x y w /\
  punder b' = (if coordToIndexP bad b x =? -1 then Dist2D_fill (N := F) (punder b) x y w else punder b) /\
  pover b' = (if coordToIndexP bad b x =? -2 then Dist2D_fill (N := F) (pover b) x y w else pover b) /\
  (forall i bn, nth_error (pbins b) i = Some bn ->
     nth_error (pbins b') i = Some {| pxr := pxr bn; pdist := if coordToIndexP bad b x =? Z.of_nat i then Dist2D_fill (N := F) (pdist bn) x y w else pdist bn |}).
Proof.
  intros K. unfold fillP. set (i := coordToIndexP bad b x) in *. clearbody i. destruct K as [->|[->|K]].
  - eexists. split; [reflexivity|]. split; [split; [reflexivity|split; reflexivity]|]. split; [reflexivity|]. split; [reflexivity|]. split; [reflexivity|]. cbn [pbins]. intros j bn E. rewrite E. destruct bn. do 2 f_equal. destruct (Z.eqb_spec (-1) (Z.of_nat j)); [lia|auto].
  - eexists. split; [reflexivity|]. split; [split; [reflexivity|split; reflexivity]|]. split; [reflexivity|]. split; [reflexivity|]. split; [reflexivity|]. cbn [pbins]. intros j bn E. rewrite E. destruct bn. do 2 f_equal. destruct (Z.eqb_spec (-2) (Z.of_nat j)); [lia|auto].
  - destruct (Z.ltb_spec i 0); [lia|].
    destruct (upd_nth_cases _ (pbins b) (Z.to_nat i) (fun bn => {| pxr := pxr bn; pdist := Dist2D_fill (N := F) (pdist bn) x y w |})) as (l & E & L & N); [lia|].
    rewrite E. cbn [rbind]. eexists. split; [reflexivity|]. cbn [pbins ptot punder pover].
    split; [split; [reflexivity|split; [reflexivity|exact L]]|]. split; [reflexivity|].
    split; [destruct (Z.eqb_spec i (-1)); [lia|reflexivity]|]. split; [destruct (Z.eqb_spec i (-2)); [lia|reflexivity]|].
    intros j bn Hj. rewrite (N j bn Hj). destruct (Nat.eqb_spec j (Z.to_nat i)) as [->|NE]; destruct (Z.eqb_spec i (Z.of_nat j)) || destruct (Z.eqb_spec i (Z.of_nat (Z.to_nat i))); try lia; auto. destruct bn; auto.
Qed.
Lemma fillP_panic b x y w : ~ pok b (coordToIndexP bad b x) -> fillP bad b x y w = Panic.
Proof.
  unfold pok, fillP. set (i := coordToIndexP bad b x). clearbody i. intros K. destruct (Z.ltb_spec i 0).
  - destruct (- i - 1) as [|[| |]|] eqn:E; auto; exfalso; lia.
  - rewrite upd_nth_panic by lia. reflexivity.
Qed.
Lemma fillP_all_spec b hs : (forall h, In h hs -> pok b (coordToIndexP bad b (hx h))) -> exists b', fillP_all bad b hs = Ok b' /\ sameP b' b /\
  ptot b' = feed2 (ptot b) hs /\
  punder b' = feed2 (punder b) (filter (fun h : F * F * F => coordToIndexP bad b (hx h) =? -1) hs) /\
  pover b' = feed2 (pover b) (filter (fun h : F * F * F => coordToIndexP bad b (hx h) =? -2) hs) /\
  (forall i bn, nth_error (pbins b) i = Some bn ->
     nth_error (pbins b') i = Some {| pxr := pxr bn; pdist := feed2 (pdist bn) (filter (fun h : F * F * F => coordToIndexP bad b (hx h) =? Z.of_nat i) hs) |}).
Proof.
  revert b. induction hs as [|[[x y] w] hs IH]; intros b K.
  - exists b. do 2 (split; [reflexivity || (split; [reflexivity|split; reflexivity])|]). do 3 (split; [reflexivity|]). intros i [] E; auto.
  - cbn [fillP_all]. destruct (fillP_spec b x y w (K _ (or_introl eq_refl))) as (b1 & E1 & S1 & T1 & U1 & O1 & B1). rewrite E1. cbn [rbind].
    assert (SI := fun z => sameP_index b1 b z S1).
    destruct (IH b1) as (b2 & E2 & S2 & T2 & U2 & O2 & B2).
    { intros h J. unfold pok. rewrite SI. destruct S1 as (_ & _ & ->). apply K. right. exact J. }
    exists b2. split; [exact E2|]. split; [unfold sameP in *; intuition congruence|].
    assert (FE : forall i, filter (fun h : F * F * F => coordToIndexP bad b1 (hx h) =? i) hs = filter (fun h : F * F * F => coordToIndexP bad b (hx h) =? i) hs)
      by (intros i; apply filter_ext; intros h; rewrite SI; reflexivity).
    rewrite !FE in *. split; [rewrite T2, T1; reflexivity|].
    cbn [filter hx fst snd]. split; [rewrite U2, U1; destruct (_ =? -1); reflexivity|]. split; [rewrite O2, O1; destruct (_ =? -2); reflexivity|].
    intros i bn Hi. rewrite (B2 _ _ (B1 _ _ Hi)). cbn [pxr pdist]. rewrite FE. destruct (_ =? Z.of_nat i); reflexivity.
Qed.
Lemma fillP_all_panic b hs h : In h hs -> ~ pok b (coordToIndexP bad b (hx h)) -> fillP_all bad b hs = Panic.
Proof.
  revert b. induction hs as [|[[x y] w] hs IH]; intros b J K; [destruct J|]. cbn [fillP_all].
  assert (D : pok b (coordToIndexP bad b x) \/ ~ pok b (coordToIndexP bad b x)) by (unfold pok; lia).
  destruct D as [D|D]; [|rewrite fillP_panic by exact D; reflexivity].
  destruct (fillP_spec b x y w D) as (b1 & E1 & S1 & _). rewrite E1. cbn [rbind]. destruct J as [<-|J]; [exfalso; apply K; exact D|].
  apply IH; [exact J|]. rewrite (sameP_index b1 b _ S1). unfold pok. destruct S1 as (_ & _ & ->). exact K.
Qed.

(* the index: bins of equal width *)
Variables (n : Z) (xmin xmax : f64).
Hypothesis A : axis_ok n xmin xmax.
Hypothesis N50 : n <= 2 ^ 50.
Hypothesis FS : is_finite (ps n xmin xmax) = true.
Local Open Scope R_scope.
Definition place (x : f64) : Z := Zfloor (B2R (pos n xmin xmax x)).
Lemma W_big : B2R xmax - B2R xmin <= 2 * big.
Proof. pose proof (abs_B2R_lt_emax 53 1024 xmax) as H1. pose proof (abs_B2R_lt_emax 53 1024 xmin) as H2. fold big in H1, H2. apply Rabs_def2 in H1, H2. lra. Qed.
Lemma place_spec x : is_finite x = true -> fle xmin x = true -> flt x xmax = true ->
  let W := B2R xmax - B2R xmin in
  let T := (B2R x - B2R xmin) * IZR n / W in let e := 5 * bpow radix2 (-53) * T + (W + 1) * bpow radix2 (-1074) in
  (0 <= place x <= n)%Z /\ IZR (place x) - e <= T < IZR (place x) + 1 + e /\ toint bad (pos n xmin xmax x) = place x.
Proof.
  intros Fx Lx Ux W T e. destruct (pos_err n xmin xmax A N50 FS x Fx Lx Ux) as (P1 & P2 & P3). fold W in P3. fold T in P3.
  assert (ET : 2 * bpow radix2 (-1075) = bpow radix2 (-1074)) by (change (-1074)%Z with (1 + -1075)%Z; rewrite bpow_plus; reflexivity).
  rewrite ET in P3. fold e in P3. apply ab in P3. unfold place. set (p := B2R (pos n xmin xmax x)) in *.
  pose proof (Zfloor_lb p) as F1. pose proof (Zfloor_ub p) as F2.
  assert (F0 : (0 <= Zfloor p)%Z) by (apply Zfloor_lub; exact P2).
  assert (TN : 0 <= T < IZR n).
  { apply fle_vr in Lx; [|apply fin_nan; auto; apply A..]. apply flt_vr in Ux; [|apply fin_nan; auto; apply A..]. rewrite !vr_finite in Lx, Ux by (auto; apply A).
    destruct (n_R _ _ _ A) as (_ & _ & N3). assert (WP : 0 < W) by (unfold W; lra). assert (IW : 0 < / W) by (apply Rinv_0_lt_compat; auto).
    unfold T, Rdiv. split; [apply Rmult_le_pos; [apply Rmult_le_pos; lra|lra]|].
    apply Rmult_lt_reg_r with W; [auto|]. rewrite Rmult_assoc, Rinv_l, Rmult_1_r by lra. rewrite Rmult_comm. apply Rmult_lt_compat_l; [lra|unfold W; lra]. }
  assert (E1 : 0 <= e < 1).
  { pose proof u_small as U. pose proof (bpow_gt_0 radix2 (-1074)) as B. assert (WP : 0 < W) by exact (W_pos _ _ _ A). pose proof W_big as WB. fold W in WB.
    assert (NB : IZR n <= bpow radix2 50) by (rewrite <- (IZR_Zpower radix2) by lia; apply IZR_le; exact N50).
    assert (Q1 : bpow radix2 (-53) * bpow radix2 50 = / 8) by (rewrite <- bpow_plus; reflexivity).
    assert (Q2 : big * bpow radix2 (-1074) = bpow radix2 (-50)) by (unfold big; rewrite <- bpow_plus; reflexivity).
    assert (Q3 : bpow radix2 (-50) <= bpow radix2 (-10)) by (apply bpow_le; lia). assert (Q4 : bpow radix2 (-1074) <= bpow radix2 (-10)) by (apply bpow_le; lia).
    change (bpow radix2 (-10)) with (/ 1024) in *.
    assert (Q5 : bpow radix2 (-53) * T <= bpow radix2 (-53) * bpow radix2 50) by (apply Rmult_le_compat_l; lra).
    assert (Q6 : W * bpow radix2 (-1074) <= 2 * big * bpow radix2 (-1074)) by (apply Rmult_le_compat_r; lra).
    assert (0 <= bpow radix2 (-53) * T) by (apply Rmult_le_pos; lra). assert (0 <= W * bpow radix2 (-1074)) by (apply Rmult_le_pos; lra).
    unfold e. split; lra. }
  assert (FN : (Zfloor p <= n)%Z). { assert (H : IZR (Zfloor p) < IZR (n + 1)) by (rewrite plus_IZR; lra). apply lt_IZR in H. lia. }
  split; [split; assumption|]. split; [lra|].
  unfold toint. assert (TR : ftrunc (pos n xmin xmax x) = Zfloor p).
  { unfold ftrunc. apply eq_IZR. rewrite (Btrunc_correct 53 1024 eq_refl). fold p. rewrite round_FIX_IZR. f_equal. apply Ztrunc_floor. exact P2. }
  rewrite TR, P1. destruct (Z.leb_spec (- 2 ^ 63) (Zfloor p)); [|lia]. destruct (Z.ltb_spec (Zfloor p) (2 ^ 63)); [reflexivity|lia].
Qed.
End P.
