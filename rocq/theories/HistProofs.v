(* The edges of bins of equal width: order, coverage, and how far they are from the exact ones. *)
From Coq Require Import ZArith List Bool Lia Reals Lra.
From Flocq Require Import Core IEEE754.BinarySingleNaN Relative Plus_error.
From Verif Require Import GoLib F64 F64Arith HbookModel HbookSpec HbookProofs HbookProofs2 HbookProofs3 HistModel.
Import ListNotations.
Local Open Scope R_scope.

Definition ordF : OrdLaws F := f64_ord fadd fmul.

Record axis_ok (n : Z) (xmin xmax : f64) : Prop := {
  ax_n : (1 <= n <= 2 ^ 53)%Z;
  ax_fmin : is_finite xmin = true; ax_fmax : is_finite xmax = true;
  ax_lt : flt xmin xmax = true;
  ax_w : is_finite (fsub xmax xmin) = true }.

Section U.
Variables (n : Z) (xmin xmax : f64).
Hypothesis A : axis_ok n xmin xmax.
Let Hn := ax_n _ _ _ A.
Lemma ax_le : B2R xmin < B2R xmax.
Proof.
  pose proof (ax_lt _ _ _ A) as L. apply flt_vr in L; [|apply fin_nan; apply A..].
  rewrite !vr_finite in L by apply A. auto.
Qed.
Lemma width_R : is_finite (width (rng xmin xmax)) = true /\ B2R (width (rng xmin xmax)) = rnd (B2R xmax - B2R xmin) /\ 0 <= rnd (B2R xmax - B2R xmin).
Proof.
  pose proof ax_le as L. pose proof (fsub_vr xmax xmin (ax_fmax _ _ _ A) (ax_fmin _ _ _ A)) as [N1 V].
  assert (P : 0 <= rnd (B2R xmax - B2R xmin)) by (apply rnd_nonneg; lra).
  assert (E : B2R (fsub xmax xmin) = rnd (B2R xmax - B2R xmin)).
  { rewrite vr_finite in V by apply A. unfold cl in V. destruct (Rlt_bool _ _); auto. exfalso.
    pose proof (vr_lt_big _ (ax_w _ _ _ A)) as Q. rewrite vr_finite in Q by apply A. rewrite V in Q. pose proof big_pos.
    destruct (Rlt_bool _ _); rewrite ?Rabs_Ropp, Rabs_pos_eq in Q; lra. }
  unfold width. cbn [rmin rmax rng]. rewrite is_finite_Babs, B2R_Babs, E. rewrite Rabs_pos_eq by auto.
  split; [apply A|]. auto.
Qed.
Lemma n_R : is_finite (fofZ n) = true /\ B2R (fofZ n) = IZR n /\ 1 <= IZR n.
Proof.
  destruct (fofZ_exact n) as [P Q]; [lia|]. split; auto. split; auto. apply IZR_le. lia.
Qed.
Lemma step_R : is_finite (step n xmin xmax) = true /\ B2R (step n xmin xmax) = rnd (rnd (B2R xmax - B2R xmin) / IZR n) /\ 0 <= B2R (step n xmin xmax).
Proof.
  destruct width_R as (W1 & W2 & W3), n_R as (N1 & N2 & N3).
  destruct (fdiv_vr (width (rng xmin xmax)) (fofZ n) W1 N1 ltac:(lra)) as [D1 D2]. fold (step n xmin xmax) in D1, D2. rewrite W2, N2 in D2.
  set (W := rnd (B2R xmax - B2R xmin)) in *.
  assert (I : 0 < / IZR n <= 1). { split; [apply Rinv_0_lt_compat; lra|]. rewrite <- Rinv_1. apply Rinv_le; lra. }
  assert (P : 0 <= W / IZR n) by (unfold Rdiv; nra).
  assert (L : rnd (W / IZR n) <= W).
  { rewrite <- W2 at 2. rewrite <- rnd_B2R, W2. apply rnd_le. unfold Rdiv. nra. }
  pose proof (rnd_nonneg _ P) as P2. pose proof (vr_lt_big _ W1) as B. rewrite vr_finite, W2, Rabs_pos_eq in B by auto.
  destruct (vr_cl_finite _ _ D1 D2 ltac:(rewrite Rabs_pos_eq; lra)) as [S1 S2]. rewrite S2. auto.
Qed.
Lemma idx_R i : (i <= Z.to_nat n)%nat -> is_finite (fofZ (Z.of_nat i)) = true /\ B2R (fofZ (Z.of_nat i)) = INR i.
Proof. intros H. destruct (fofZ_exact (Z.of_nat i)) as [P Q]; [lia|]. rewrite Q. rewrite <- INR_IZR_INZ. auto. Qed.
Lemma edge_mono i j : (i <= j <= Z.to_nat n)%nat -> is_nan (edge n xmin xmax i) = false /\ fle (edge n xmin xmax i) (edge n xmin xmax j) = true.
Proof.
  intros H. destruct (idx_R i ltac:(lia)) as [I1 I2], (idx_R j ltac:(lia)) as [J1 J2], step_R as (S1 & S2 & S3).
  pose proof (fmul_mono (fofZ (Z.of_nat i)) (fofZ (Z.of_nat j)) (step n xmin xmax) I1 J1 S1 S3) as M.
  rewrite I2, J2 in M. specialize (M ltac:(apply le_INR; lia)).
  destruct (fadd_mono xmin _ _ (ax_fmin _ _ _ A) M) as (Q1 & Q2 & Q3). unfold edge. auto.
Qed.
Lemma edge_0 : fle (edge n xmin xmax 0) xmin = true /\ fle xmin (edge n xmin xmax 0) = true.
Proof.
  destruct (idx_R 0 ltac:(lia)) as [I1 I2], step_R as (S1 & S2 & S3). cbn [INR] in I2.
  destruct (fmul_vr _ _ I1 S1) as [M1 M2]. rewrite I2, Rmult_0_l in M2.
  assert (Z0 : Rabs (rnd 0) < big) by (rewrite rnd_0, Rabs_R0; apply big_pos).
  destruct (vr_cl_finite _ _ M1 M2 Z0) as [M3 M4]. rewrite rnd_0 in M4.
  destruct (fadd_vr xmin _ (ax_fmin _ _ _ A) M3) as [E1 E2]. rewrite M4, Rplus_0_r, cl_B2R in E2.
  fold (edge n xmin xmax 0) in E1, E2.
  assert (V : vr xmin = B2R xmin) by (apply vr_finite; apply A).
  split; apply fle_vr; auto; try (apply fin_nan; apply A); lra.
Qed.
Lemma uranges_length : length (uranges n xmin xmax) = Z.to_nat n.
Proof. unfold uranges. rewrite map_length, seq_length. auto. Qed.
Lemma uranges_nth i r : nth_error (uranges n xmin xmax) i = Some r <-> (i < Z.to_nat n)%nat /\ r = rng (edge n xmin xmax i) (edge n xmin xmax (S i)).
Proof.
  unfold uranges. rewrite nth_error_map. destruct (Nat.ltb_spec i (Z.to_nat n)) as [H|H].
  - rewrite nth_error_nth' with (d := 0%nat) by (rewrite seq_length; auto). rewrite seq_nth by auto. cbn. intuition congruence.
  - replace (nth_error (seq 0 (Z.to_nat n)) i) with (@None nat) by (symmetry; apply nth_error_None; rewrite seq_length; auto).
    cbn. split; [discriminate|]. intros [Q _]. lia.
Qed.
Definition uhull : Range F := rng (edge n xmin xmax 0) (edge n xmin xmax (Z.to_nat n)).
Lemma uranges_wf : wf_bins (uranges n xmin xmax) /\ hull (uranges n xmin xmax) uhull /\ contiguous (uranges n xmin xmax).
Proof.
  assert (N0 : (0 < Z.to_nat n)%nat) by lia.
  split; [|split].
  - split; [intros Q; pose proof uranges_length as L; rewrite Q in L; cbn in L; lia|]. split.
    + intros r Hr. apply In_nth_error in Hr. destruct Hr as [i Hr]. apply uranges_nth in Hr. destruct Hr as [Hi ->].
      apply (edge_mono i (S i)). lia.
    + intros i r1 r2 H1 H2. apply uranges_nth in H1, H2. destruct H1 as [H1 ->], H2 as [H2 ->]. cbn [rmin rmax rng].
      apply (edge_mono (S i) (S i)). lia.
  - exists (rng (edge n xmin xmax 0) (edge n xmin xmax 1)), (rng (edge n xmin xmax (Z.to_nat n - 1)) (edge n xmin xmax (Z.to_nat n))).
    rewrite uranges_length. split; [apply uranges_nth; auto|]. split; [apply uranges_nth; split; [lia|]; do 3 f_equal; lia|]. auto.
  - intros i r1 r2 H1 H2. apply uranges_nth in H1, H2. destruct H1 as [_ ->], H2 as [_ ->]. reflexivity.
Qed.
(* where a value goes *)
Definition ulast : f64 := edge n xmin xmax (Z.to_nat n).
Definition uunder (x : f64) : bool := flt x xmin.
Definition uover (x : f64) : bool := is_nanb x || fle xmax x || fle ulast x.
Definition uin (r : Range F) (x : f64) : bool := containsb r x && flt x xmax.
Lemma nan_le_l (x y : f64) : is_nanb x = true -> fle y x = false /\ fle x y = false /\ flt x y = false /\ flt y x = false.
Proof. destruct x; try discriminate. intros _. destruct y as [|[]| |[]]; auto. Qed.
Lemma xmin_ulast : fle xmin ulast = true.
Proof. eapply fle_trans; [apply edge_0|]. apply edge_mono. lia. Qed.
Lemma uindex (b : Binning1D F) x : map brange (bins b) = uranges n xmin xmax -> xrange b = rng xmin xmax ->
  (coordToIndex b x =? -1)%Z = uunder x /\ (coordToIndex b x =? -2)%Z = uover x /\
  (forall i r, nth_error (uranges n xmin xmax) i = Some r -> (coordToIndex b x =? Z.of_nat i)%Z = uin r x) /\
  (coordToIndex b x = -1 \/ coordToIndex b x = -2 \/ 0 <= coordToIndex b x < Z.of_nat (length (bins b)))%Z.
Proof.
  intros Eb Ex. destruct uranges_wf as (W & H & C). pose proof edge_0 as [E1 E2]. pose proof xmin_ulast as UL.
  assert (LB : length (bins b) = Z.to_nat n) by (rewrite <- uranges_length, <- Eb, map_length; auto).
  assert (UB : forall i r q, nth_error (uranges n xmin xmax) i = Some r -> contains r x -> belongs (uranges n xmin xmax) uhull x q -> q = PBin i).
  { intros i r q Hr Hc Hq. eapply (belongs_unique ordF _ _ _ q (PBin i) W H); eauto. exists r. auto. }
  unfold coordToIndex, UnderflowBin1D, OverflowBin1D. rewrite Eb, Ex. cbn [rmin rmax rng]. change (nlt (n := F) x xmin) with (flt x xmin). change (nle (n := F) xmax x) with (fle xmax x).
  unfold uunder, uover. destruct (flt x xmin) eqn:XL.
  - assert (NN : is_nanb x = false) by (destruct (is_nanb x) eqn:Q; auto; apply nan_le_l with (y := xmin) in Q; destruct Q as (_ & _ & Q & _); congruence).
    rewrite NN. split; auto. rewrite (flt_not_le x xmax) by (eapply flt_le_trans; [exact XL|]; apply flt_le; apply A).
    rewrite (flt_not_le x ulast) by (eapply flt_le_trans; eauto). split; auto. split; [|auto].
    intros i r Hr. unfold uin, containsb. apply uranges_nth in Hr. destruct Hr as [Hi ->]. cbn [rmin rng].
    change (nle (n := F) (edge n xmin xmax i) x) with (fle (edge n xmin xmax i) x). rewrite (flt_not_le x (edge n xmin xmax i)).
    + cbn [andb]. apply Z.eqb_neq. lia.
    + eapply flt_le_trans; [exact XL|]. eapply fle_trans; [exact E2|]. apply edge_mono. lia.
  - destruct (fle xmax x) eqn:XH.
    + rewrite orb_true_r. cbn [orb]. split; auto. split; auto. split; [|auto]. intros i r Hr. unfold uin. rewrite (fle_not_lt xmax x) by auto. rewrite andb_false_r.
      apply Z.eqb_neq. lia.
    + rewrite orb_false_r.
      destruct (axis_index ordF _ _ x W H C) as [[S I]|[[S I]|[S (i & r & Hi & Hc & I)]]]; rewrite I; unfold axis_side in S; cbn [rmin rmax uhull rng] in S.
      * exfalso. change (nlt (n := F) x (edge n xmin xmax 0)) with (flt x (edge n xmin xmax 0)) in S.
        destruct (flt x (edge n xmin xmax 0)) eqn:Q; [|destruct (_ || _); discriminate].
        assert (flt x xmin = true) by (eapply flt_le_trans; eauto). congruence.
      * change (nisnan (n := F) x) with (is_nanb x) in S. change (nle (n := F) (edge n xmin xmax (Z.to_nat n)) x) with (fle ulast x) in S.
        destruct (nlt (n := F) x _); [discriminate|]. destruct (is_nanb x || fle ulast x) eqn:Q; [|discriminate].
        split; auto. split; auto. split; [|auto]. intros j r Hr. unfold uin.
        destruct (containsb r x) eqn:Q2; [|apply Z.eqb_neq; lia]. exfalso. apply containsb_iff in Q2.
        assert (POver = PBin j); [|discriminate]. eapply UB; eauto. cbn. apply orb_true_iff in Q. auto.
      * change (nisnan (n := F) x) with (is_nanb x) in S. change (nle (n := F) (edge n xmin xmax (Z.to_nat n)) x) with (fle ulast x) in S.
        destruct (nlt (n := F) x _); [discriminate|]. destruct (is_nanb x || fle ulast x) eqn:Q; [discriminate|].
        split; [apply Z.eqb_neq; lia|]. split; [apply Z.eqb_neq; lia|].
        assert (NX : flt x xmax = true).
        { destruct (flt x xmax) eqn:Q1; auto. assert (fle xmax x = true); [|congruence].
          apply flt_total; auto; [apply orb_false_iff in Q; tauto|]. pose proof (ax_fmax _ _ _ A) as FX. destruct xmax; auto; discriminate. }
        split; [|right; right; apply uranges_nth in Hi; lia].
        intros j s Hs. unfold uin. rewrite NX, andb_true_r. destruct (containsb s x) eqn:Q2.
        -- apply containsb_iff in Q2. assert (Qq : PBin i = PBin j) by (eapply UB; eauto; exists r; auto). injection Qq as ->. apply Z.eqb_refl.
        -- apply Z.eqb_neq. intros Q3. apply Nat2Z.inj in Q3. subst j. assert (s = r) by congruence. subst s. apply containsb_iff in Hc. congruence.
Qed.
(* all that is filled *)
Lemma ufill (hs : list (F * F)) : exists b, fill_all (empty_binning (uranges n xmin xmax) (rng xmin xmax)) hs = Ok b /\
    map brange (bins b) = uranges n xmin xmax /\ xrange b = rng xmin xmax /\ bdist_tot b = stats1 (N := F) hs /\
    under b = stats1 (N := F) (filter (fun h : F * F => uunder (fst h)) hs) /\ over b = stats1 (N := F) (filter (fun h : F * F => uover (fst h)) hs) /\
    (forall i r, nth_error (uranges n xmin xmax) i = Some r -> exists bn, nth_error (bins b) i = Some bn /\ bdist bn = stats1 (N := F) (filter (fun h : F * F => uin r (fst h)) hs)) /\
    total_entries b = Z.of_nat (length hs) /\ total_entries b = (bins_entries b + under_entries b + over_entries b)%Z.
Proof.
  set (rs := uranges n xmin xmax). set (e := empty_binning rs (rng xmin xmax)).
  destruct (fill_all_spec e hs) as (b & E & [S1 S2] & T & U & O & B).
  assert (Er : map brange (bins e) = rs) by (unfold e; cbn; rewrite map_map; apply map_id).
  assert (UI := fun x => uindex e x Er eq_refl).
  assert (Lr : length rs = Z.to_nat n) by apply uranges_length.
  exists b. rewrite Er in S1. split; auto. split; auto. split; auto.
  assert (HB : forall i r, nth_error rs i = Some r -> exists bn, nth_error (bins b) i = Some bn /\ bdist bn = stats1 (N := F) (filter (fun h : F * F => uin r (fst h)) hs)).
  { intros i r Hr. specialize (B i (Bin1D_new r)). eexists. split.
    - apply B. unfold e. cbn. rewrite nth_error_map, Hr. reflexivity.
    - cbn [bdist]. rewrite <- feed_stats. f_equal. apply filter_ext. intros h. destruct (UI (fst h)) as (_ & _ & Q & _). apply Q; auto. }
  split; [rewrite T; apply feed_stats|].
  split; [rewrite U, <- feed_stats; change (under e) with (@Dist1D_zero F); f_equal; apply filter_ext; intros; apply UI|].
  split; [rewrite O, <- feed_stats; change (over e) with (@Dist1D_zero F); f_equal; apply filter_ext; intros; apply UI|].
  split; [exact HB|].
  assert (HT : total_entries b = Z.of_nat (length hs)) by (unfold total_entries; rewrite T, feed_N; cbn; lia).
  split; auto. rewrite HT.
  rewrite (count_partition (fun h : F * F => coordToIndex e (fst h)) (length rs) hs) at 1.
  2:{ intros h. pose proof (coordToIndex_range e (fst h)) as R. unfold e in R. cbn [bins empty_binning] in R. rewrite map_length in R. exact R. }
  unfold bins_entries, under_entries, over_entries. rewrite U, O, !feed_N.
  change (under e) with (@Dist1D_zero F). change (over e) with (@Dist1D_zero F). cbn [d0 Dist1D_zero Dist0D_zero dN].
  replace (filter (fun h : F * F => (coordToIndex e (fst h) =? Z.of_nat (length rs))%Z) hs) with (@nil (F * F)).
  2:{ symmetry. rewrite <- (filter_false hs). apply filter_ext. intros h. apply Z.eqb_neq.
      destruct (UI (fst h)) as (_ & _ & _ & R). assert (length (bins e) = length rs) by (unfold e; cbn; apply map_length). lia. }
  assert (AA : map (fun bn => dN (d0 (bdist bn))) (bins b) =
     map (fun i => Z.of_nat (length (filter (fun h : F * F => (coordToIndex e (fst h) =? Z.of_nat i)%Z) hs))) (seq 0 (length rs))).
  { apply list_eq_nth. intros i. rewrite !nth_error_map.
    destruct (nth_error rs i) as [r|] eqn:Hr.
    - destruct (HB i r Hr) as (bn & Hbn & Hd). rewrite Hbn. cbn [option_map]. rewrite Hd.
      assert (i < length rs)%nat by (apply nth_error_Some; congruence).
      assert (Hs : nth_error (seq 0 (length rs)) i = Some i).
      { rewrite nth_error_nth' with (d := 0%nat) by (rewrite seq_length; auto). rewrite seq_nth; auto. }
      rewrite Hs. cbn [option_map]. rewrite <- feed_stats, feed_N. cbn.
      do 2 f_equal. f_equal. apply filter_ext. intros h. symmetry. destruct (UI (fst h)) as (_ & _ & Q & _). apply Q; auto.
    - apply nth_error_None in Hr.
      assert (length (bins b) = length rs) by (rewrite <- S1, map_length; auto).
      replace (nth_error (bins b) i) with (@None (Bin1D F)) by (symmetry; apply nth_error_None; lia).
      replace (nth_error (seq 0 (length rs)) i) with (@None nat); auto.
      symmetry. apply nth_error_None. rewrite seq_length. lia. }
  rewrite AA. cbn [length]. lia.
Qed.
End U.

(* two axes *)
Section U2.
Variables (nX : Z) (xlow xhigh : f64) (nY : Z) (ylow yhigh : f64).
Hypothesis AX : axis_ok nX xlow xhigh.
Hypothesis AY : axis_ok nY ylow yhigh.
Let xs := uranges nX xlow xhigh.
Let ys := uranges nY ylow yhigh.
Let xr := uhull nX xlow xhigh.
Let yr := uhull nY ylow yhigh.
Lemma ufill2 (b : Binning2D F) (hs : list (F * F * F)) : newBinning2D nX xlow xhigh nY ylow yhigh = Ok b ->
  exists b', fill2_all b hs = Ok b' /\ dist2 b' = stats2 hs /\
    (forall k, (1 <= k <= 8)%nat -> nth_error (outflows b') (k - 1) = Some (stats2 (filter (fun h : F * F * F => in_region xr yr k (fst (fst h)) (snd (fst h))) hs))) /\
    (forall ix iy rx ry, nth_error xs ix = Some rx -> nth_error ys iy = Some ry ->
       nth_error (bins2 b') (iy * Z.to_nat nX + ix) =
         Some {| b2x := rx; b2y := ry; b2dist := stats2 (filter (fun h : F * F * F => containsb rx (fst (fst h)) && containsb ry (snd (fst h))) hs) |}) /\
    length (bins2 b') = (Z.to_nat nX * Z.to_nat nY)%nat /\
    (forall x y : F, (exists ix iy rx ry, nth_error xs ix = Some rx /\ nth_error ys iy = Some ry /\ contains rx x /\ contains ry y /\
         forall k, (1 <= k <= 8)%nat -> in_region xr yr k x y = false) \/
       (exists k, (1 <= k <= 8)%nat /\ in_region xr yr k x y = true /\ (forall k', (1 <= k' <= 8)%nat -> in_region xr yr k' x y = true -> k' = k) /\
         forall ix iy rx ry, nth_error xs ix = Some rx -> nth_error ys iy = Some ry -> ~ (contains rx x /\ contains ry y))).
Proof.
  unfold newBinning2D. intros Hb.
  destruct (fle xhigh xlow); [discriminate|]. destruct (fle yhigh ylow); [discriminate|].
  destruct (nX <=? 0)%Z; [discriminate|]. destruct (nY <=? 0)%Z; [discriminate|].
  fold xs ys in Hb.
  destruct (uranges_wf _ _ _ AX) as (WX & HX & CX), (uranges_wf _ _ _ AY) as (WY & HY & CY).
  fold xs in WX, HX, CX. fold ys in WY, HY, CY. fold xr in HX. fold yr in HY.
  assert (LX : length xs = Z.to_nat nX) by apply uranges_length. assert (LY : length ys = Z.to_nat nY) by apply uranges_length.
  assert (Eb := f_equal (fun r => match r with Ok v => v | Panic => b end) Hb). cbn beta iota in Eb. clear Hb. symmetry in Eb.
  set (fcell := fun (xr0 yr0 : Range F) => {| b2x := xr0; b2y := yr0; b2dist := Dist2D_zero |}) in *.
  assert (SH : shape2 b).
  { subst b. constructor; cbn [HbookModel.nx HbookModel.ny xedges yedges bins2 outflows]; auto.
    etransitivity; [apply (flat_rows_length fcell)|]. rewrite LX, LY. reflexivity. }
  assert (IC := fun x y => index2_cases ordF xs ys xr yr b x y WX HX CX WY HY CY
     ltac:(subst b; reflexivity) ltac:(subst b; reflexivity) SH).
  destruct (fill2_all_spec b hs SH (fun x y => proj1 (IC x y))) as (b' & Ef & SM & T & O & B).
  exists b'. split; [exact Ef|].
  split; [rewrite T; subst b; cbn [dist2]; apply feed2_stats|].
  assert (K8 : forall k, (1 <= k <= 8)%nat -> (k = 1 \/ k = 2 \/ k = 3 \/ k = 4 \/ k = 5 \/ k = 6 \/ k = 7 \/ k = 8)%nat) by (intros; lia).
  split; [|split; [|split]].
  - intros k Hk. rewrite (O (k - 1)%nat Dist2D_zero).
    + rewrite feed2_stats. do 2 f_equal. apply filter_ext. intros h. replace (S (k - 1)) with k by lia. apply IC; auto.
    + subst b. cbn [outflows]. destruct (K8 k Hk) as [->|[->|[->|[->|[->|[->|[->| ->]]]]]]]; reflexivity.
  - intros ix iy rx ry Q1 Q2. rewrite (B _ (fcell rx ry)).
    + cbn [b2x b2y b2dist fcell]. rewrite feed2_stats. do 3 f_equal. apply filter_ext. intros h.
      rewrite <- LX. apply IC; auto.
    + subst b. cbn [bins2]. rewrite <- LX. apply (flat_rows_nth fcell xs ys); auto.
  - destruct SM as (_ & _ & _ & _ & -> & _). rewrite (s_bins _ SH). subst b. reflexivity.
  - intros x y. unfold in_region.
    assert (NC : forall rs r0 z i r, wf_bins rs -> hull rs r0 -> axis_side (N := F) r0 z <> Mid -> nth_error rs i = Some r -> ~ contains r z).
    { intros rs r0 z i r W HH HM Hr Q. assert (BB : belongs rs r0 z (PBin i)) by (exists r; auto).
      apply HM. unfold axis_side. destruct (nlt z (rmin r0)) eqn:Q1.
      - assert (PBin i = PUnder) by (eapply (belongs_unique ordF); eauto). discriminate.
      - destruct (nisnan z || nle (rmax r0) z) eqn:Q2; auto. apply orb_true_iff in Q2.
        assert (PBin i = POver) by (eapply (belongs_unique ordF); eauto). discriminate. }
    destruct (axis_index ordF xs xr x WX HX CX) as [[A1 _]|[[A1 _]|[A1 (i & r & A2 & A3 & _)]]];
    destruct (axis_index ordF ys yr y WY HY CY) as [[B1 _]|[[B1 _]|[B1 (j & s & B2 & B3 & _)]]];
    rewrite A1, B1.
    9:{ left. exists i, j, r, s. do 4 (split; auto).
        intros k Hk. destruct (K8 k Hk) as [->|[->|[->|[->|[->|[->|[->| ->]]]]]]]; reflexivity. }
    all: right; [> exists 7%nat | exists 1%nat | exists 8%nat | exists 5%nat | exists 3%nat | exists 4%nat | exists 6%nat | exists 2%nat ].
    all: split; [lia|]; split; [reflexivity|]; split;
      [intros k Hk; destruct (K8 k Hk) as [->|[->|[->|[->|[->|[->|[->| ->]]]]]]]; cbn; congruence|].
    all: intros ix iy rx ry Q1 Q2 [Q3 Q4].
    all: first [eapply (NC xs xr x); eauto; congruence | eapply (NC ys yr y); eauto; congruence].
Qed.
End U2.
