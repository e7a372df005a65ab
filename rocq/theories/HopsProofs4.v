(* Rand and CDF of Rand1D. *)
From Coq Require Import ZArith List Bool Lia Reals Lra.
From Flocq Require Import Core IEEE754.BinarySingleNaN.
From Verif Require Import GoLib F64 F64Arith HbookModel HbookSpec HbookProofs HistModel HistErr HopsModel F64Near HopsProofs HopsProofs2 HopsProofs3.
Import ListNotations.
Local Open Scope R_scope.
Local Notation b2 := (bpow radix2).

(* finite edges, in order *)
Definition eok (b : Bin) : Prop :=
  is_finite (xMin b) = true /\ is_finite (xMax b) = true /\ B2R (xMin b) < B2R (xMax b) /\ Rabs (B2R (xMin b)) <= b2 900 /\ Rabs (B2R (xMax b)) <= b2 900.
Definition wid (b : Bin) : R := B2R (xMax b) - B2R (xMin b).
(* the last range: as wide as the last bin *)
Lemma phantom_ok b : eok b -> let m := fadd (xMax b) (width (brange b)) in
  is_finite m = true /\ 0 <= B2R m - B2R (xMax b) <= b2 905 /\ Rabs ((B2R m - B2R (xMax b)) - wid b) <= b2 (-50) * (Rabs (B2R (xMin b)) + Rabs (B2R (xMax b))).
Proof.
  intros (Fm & FM & L & A & B) m. pose proof u_small as U. apply ab in A. apply ab in B.
  assert (B900 : b2 905 = 32 * b2 900). { change 32 with (b2 5). rewrite <- bpow_plus. reflexivity. }
  assert (B905 : b2 905 <= b2 1000) by (apply bpow_le; lia). assert (P9 : 0 < b2 900) by apply bpow_gt_0.
  destruct (fsub_small (xMax b) (xMin b) FM Fm) as [Fw Rw]; [apply Rabs_le; lra|].
  destruct (rnd_sub_rel (xMax b) (xMin b)) as (d & D & E). rewrite E in Rw. fold (wid b) in Rw, E.
  set (wf := width (brange b)) in *. assert (Fwf : is_finite wf = true) by (unfold wf, width; rewrite is_finite_Babs; exact Fw).
  assert (Rwf : B2R wf = Rabs (B2R (fsub (xMax b) (xMin b)))) by (unfold wf, width; rewrite B2R_Babs; reflexivity). assert (W0 : 0 < wid b <= 2 * b2 900) by (unfold wid; lra).
  apply ab in D. assert (Hd : - (u * wid b) <= wid b * d <= u * wid b) by (clear - W0 D; nra).
  assert (Hu : u * wid b <= wid b) by (clear - W0 U; nra).
  assert (Hw : 0 <= B2R (fsub (xMax b) (xMin b)) <= 4 * b2 900) by (rewrite Rw; split; [apply Rmult_le_pos; lra|lra]). rewrite Rabs_pos_eq in Rwf by lra. rewrite <- Rwf in Hw, Rw.
  destruct (fadd_small (xMax b) wf FM Fwf) as [Fs Rs]; [apply Rabs_le; lra|]. fold m in Fs, Rs. split; [auto|].
  pose proof (rnd_plus_err (xMax b) wf) as R. rewrite <- Rs in R. set (w := B2R wf) in *.
  assert (T : Rabs (B2R (xMax b) + w) <= Rabs (B2R (xMax b)) + w). { eapply Rle_trans; [apply Rabs_triang|]. rewrite (Rabs_pos_eq w) by lra. lra. }
  assert (T2 : u * Rabs (B2R (xMax b) + w) <= u * (Rabs (B2R (xMax b)) + w)) by (apply Rmult_le_compat_l; lra).
  assert (Wa : wid b <= Rabs (B2R (xMin b)) + Rabs (B2R (xMax b))). { unfold wid. pose proof (Rle_abs (B2R (xMax b))). pose proof (Rle_abs (- B2R (xMin b))). rewrite Rabs_Ropp in *. lra. }
  apply ab in R. assert (Wb : w <= 2 * wid b) by lra. assert (A0 : 0 <= Rabs (B2R (xMin b))) by apply Rabs_pos. assert (A1 : 0 <= Rabs (B2R (xMax b))) by apply Rabs_pos.
  assert (AM : Rabs (B2R (xMax b)) <= b2 900) by (apply Rabs_le; lra).
  set (aM := Rabs (B2R (xMax b))) in *. set (am := Rabs (B2R (xMin b))) in *.
  assert (M1 : u * (aM + w) <= u * (3 * (am + aM))) by (apply Rmult_le_compat_l; lra).
  assert (M2 : u * wid b <= u * (am + aM)) by (apply Rmult_le_compat_l; lra).
  assert (M3 : u * (aM + w) <= 1 * (aM + w)) by (apply Rmult_le_compat_r; lra).
  split; [split|].
  - rewrite Rs. assert (rnd (B2R (xMax b)) <= rnd (B2R (xMax b) + w)) by (apply rnd_le; lra). rewrite rnd_B2R in H. lra.
  - lra.
  - assert (b2 (-50) = 8 * u). { change (-50)%Z with (3 + -53)%Z. rewrite bpow_plus. reflexivity. } rewrite H.
    assert (0 <= u * (am + aM)) by (apply Rmult_le_pos; lra). apply Rabs_le. lra.
Qed.

(* a histogram to draw from *)
Definition source (bs : list Bin) : Prop :=
  bs <> [] /\ (forall b, In b bs -> wok b /\ eok b) /\ is_finite (total bs) = true /\ b2 (-1000) <= B2R (total bs) <= b2 1000.
Definition share (bs : list Bin) (i : nat) : R := B2R (total (firstn i bs)) / B2R (total bs).
(* the width used for bin i: that of the next bin, and that of the last bin for the last bin *)
Definition stride (bs : list Bin) (i : nat) (W : R) : Prop :=
  (exists b', nth_error bs (S i) = Some b' /\ W = wid b') \/
  (S i = length bs /\ forall b, nth_error bs i = Some b -> Rabs (W - wid b) <= b2 (-50) * (Rabs (B2R (xMin b)) + Rabs (B2R (xMax b)))).

Section S.
Variable bs : list Bin.
Hypothesis OK : source bs.
Let n := length bs.
Lemma W1 : forall b, In b bs -> wok b. Proof. intros b H. apply OK. auto. Qed.
Lemma E1 : forall b, In b bs -> eok b. Proof. intros b H. apply OK. auto. Qed.
Lemma FS1 : is_finite (total bs) = true. Proof. apply OK. Qed.
Lemma RS1 : b2 (-1000) <= B2R (total bs) <= b2 1000. Proof. apply OK. Qed.
Let c k := fmul (total (firstn k bs)) (fdiv f1 (total bs)).
Lemma c_le1 k : (k <= n)%nat -> 0 <= B2R (c k) <= 1.
Proof.
  intros K. split; [rewrite <- (c_0 bs W1 FS1 RS1); apply (c_mono bs W1 FS1 RS1); unfold n in *; lia|].
  apply Rle_trans with (B2R (c n)); [apply (c_mono bs W1 FS1 RS1); unfold n in *; lia|].
  unfold c. rewrite (proj2 (c_R bs W1 FS1 RS1 n (le_n _))). destruct (tn_R bs W1 FS1 RS1 n (le_n _)) as (d & D & E & _). rewrite E. unfold n. rewrite firstn_all.
  pose proof (S_pos bs RS1). replace (B2R (total bs) / B2R (total bs)) with 1 by (field; lra). apply ab in D.
  set (uf := fdiv f1 (fofZ (2 ^ 53))).
  assert (G : rnd (1 + u) = 1).
  { assert (V : B2R (fadd f1 uf) = B2R f1) by (rewrite <- !SF2R_B2SF; f_equal; vm_compute; reflexivity). assert (Fu : is_finite uf = true) by (vm_compute; reflexivity). destruct f1_R as [F1 R1].
    assert (Ru : B2R uf = u). { rewrite <- SF2R_B2SF. replace (B2SF uf) with (SpecFloat.S754_finite false (2 ^ 52) (-105)) by (vm_compute; reflexivity). unfold SF2R, F2R, u. cbn [Fnum Fexp cond_Zopp].
      transitivity (b2 52 * b2 (-105)); [reflexivity|rewrite <- bpow_plus; reflexivity]. }
    destruct (fadd_small f1 uf F1 Fu) as [_ Q]. { rewrite R1, Ru. pose proof u_small. assert (1 <= b2 1000) by (change 1 with (b2 0); apply bpow_le; lia). rewrite Rabs_pos_eq by lra. lra. }
    rewrite V, R1, Ru in Q. auto. }
  apply Rle_trans with (rnd (1 + u)); [apply rnd_le; change (u) with (b2 (-53)); lra|rewrite G; lra].
Qed.

Lemma Rand_bin d y : NewRand1D bs = Ok d -> is_finite y = true -> 0 <= B2R y < 1 -> B2R y = 0 \/ b2 (-53) <= B2R y -> (search d y < n)%nat ->
  exists b c0 c1 W x, Rand d y = Ok x /\ nth_error bs (search d y) = Some b /\ stride bs (search d y) W /\ 0 < B2R (sumW b) /\
    nth_error (cdf d) (search d y) = Some c0 /\ nth_error (cdf d) (S (search d y)) = Some c1 /\ B2R c0 <= B2R y < B2R c1 /\
    is_finite x = true /\ B2R (xMin b) <= B2R x /\
    Rabs (B2R x - (B2R (xMin b) + W * ((B2R y - B2R c0) / (B2R c1 - B2R c0)))) <= b2 (-50) * (Rabs (B2R (xMin b)) + W) + b2 (-900).
Proof.
  intros ND Fy Yr Y2 K. destruct (cdf_is bs d ND) as (LC & C & LB & RB & l & Hl & HL). fold n in LC, C, LB, RB, Hl, HL.
  destruct (search_is bs W1 FS1 RS1 d y ND Fy ltac:(lra)) as (_ & S1 & S2). set (i := search d y) in *. specialize (S2 K).
  destruct (nth_error bs i) as [b|] eqn:Eb; [|apply nth_error_None in Eb; unfold n in K; lia].
  pose proof (c_le1 i ltac:(lia)) as B0. pose proof (c_le1 (S i) ltac:(lia)) as B1.
  pose proof (c_R bs W1 FS1 RS1 i ltac:(unfold n in K; lia)) as [F0 _]. pose proof (c_R bs W1 FS1 RS1 (S i) K) as [Fc1 _].
  fold (c i) in *. fold (c (S i)) in *.
  assert (N : exists r, nth_error (rbins d) (S i) = Some r /\ is_finite (rmin r) = true /\ is_finite (rmax r) = true /\ 0 <= B2R (rmax r) - B2R (rmin r) <= b2 905 /\ stride bs i (B2R (rmax r) - B2R (rmin r))).
  { destruct (Nat.eq_dec (S i) n) as [Q|Q].
    - rewrite <- Q in HL. eexists. split; [exact HL|]. cbn [rmin rmax rng]. replace (n - 1)%nat with i in Hl by lia.
      assert (l = b) by congruence. subst l. destruct (E1 b (nth_error_In _ _ Eb)) as (e1 & e2 & e3 & e4 & e5).
      destruct (phantom_ok b) as (p1 & p2 & p3); [repeat split; auto|]. change (rmax (brange b)) with (xMax b). split; auto. split; auto. split; auto. right. split; [exact Q|].
      intros b' Eb'. assert (b' = b) by congruence. subst. exact p3.
    - destruct (nth_error bs (S i)) as [b'|] eqn:Eb'; [|apply nth_error_None in Eb'; unfold n in *; lia].
      exists (brange b'). split; [apply RB; auto|]. destruct (E1 b' (nth_error_In _ _ Eb')) as (e1 & e2 & e3 & e4 & e5).
      change (rmin (brange b')) with (xMin b'). change (rmax (brange b')) with (xMax b'). split; auto. split; auto. split.
      + apply ab in e4. apply ab in e5. assert (b2 905 = 32 * b2 900). { change 32 with (b2 5). rewrite <- bpow_plus. reflexivity. } lra.
      + left. exists b'. split; auto. }
  destruct N as (r & Nr & Fr1 & Fr2 & Wr & St). destruct (E1 b (nth_error_In _ _ Eb)) as (e1 & e2 & e3 & e4 & e5).
  exists b, (c i), (c (S i)), (B2R (rmax r) - B2R (rmin r)).
  assert (HRand : Rand d y = if flt (c i) y then Ok (interp (xMin b) (rmin r) (rmax r) y (c i) (c (S i))) else Ok (xMin b)).
  { unfold Rand. fold i. unfold at_. rewrite (RB i b Eb), (C i ltac:(lia)). cbn [rbind]. fold (c i). change (rmin (brange b)) with (xMin b).
    destruct (flt (c i) y); [|reflexivity]. rewrite Nr, (C (S i) K). reflexivity. }
  rewrite HRand. pose proof (c_weight bs W1 FS1 RS1 i b Eb (Rle_lt_trans _ _ _ S1 S2)) as HWt.
  destruct (flt (c i) y) eqn:Ef.
  - apply flt_R in Ef; auto. assert (Y3 : b2 (-53) <= B2R y) by (destruct Y2; [lra|auto]).
    destruct (interp_ok (xMin b) (rmin r) (rmax r) y (c i) (c (S i))) as (I1 & I2 & I3); auto; try lra.
    eexists. split; [reflexivity|]. split; [reflexivity|]. split; [exact St|]. split; [exact HWt|]. split; [apply C; lia|]. split; [apply C; lia|].
    split; [lra|]. split; [exact I1|]. split; [exact I2|]. exact I3.
  - assert (Q : B2R (c i) = B2R y). { destruct S1 as [S1|S1]; auto. apply flt_R in S1; auto. fold (c i) in S1. congruence. }
    exists (xMin b). split; [reflexivity|]. split; [reflexivity|]. split; [exact St|]. split; [exact HWt|]. split; [apply C; lia|]. split; [apply C; lia|].
    split; [lra|]. split; [exact e1|]. split; [lra|]. rewrite Q. replace (B2R (xMin b) - (B2R (xMin b) + (B2R (rmax r) - B2R (rmin r)) * ((B2R y - B2R y) / (B2R (c (S i)) - B2R y)))) with 0 by (field; lra).
    rewrite Rabs_R0. apply Rplus_le_le_0_compat; [apply Rmult_le_pos; [apply bpow_ge_0|pose proof (Rabs_pos (B2R (xMin b))); lra]|apply bpow_ge_0].
Qed.
Lemma Rand_last d y : NewRand1D bs = Ok d -> is_finite y = true -> 0 <= B2R y < 1 -> search d y = n ->
  B2R y = 1 - u /\ exists b, nth_error bs (n - 1) = Some b /\ Rand d y = Ok (xMax b).
Proof.
  intros ND Fy Yr K. destruct (cdf_is bs d ND) as (LC & C & LB & RB & l & Hl & HL). fold n in LC, C, LB, RB, Hl, HL.
  destruct (search_is bs W1 FS1 RS1 d y ND Fy ltac:(lra)) as (_ & S1 & _). rewrite K in S1. pose proof (c_n bs W1 FS1 RS1) as S2.
  pose proof (below_one y ltac:(lra)) as S3. fold n in S2. split; [lra|]. exists l. split; auto. unfold Rand. rewrite K. unfold at_. rewrite HL, (C n ltac:(lia)). cbn [rbind].
  fold (c n) in *. destruct (flt (c n) y) eqn:Ef; [|reflexivity]. apply flt_R in Ef; auto; [exfalso; exact (Rlt_irrefl _ (Rlt_le_trans _ _ _ Ef (Rle_trans _ _ _ S3 S2)))|]. apply (c_R bs W1 FS1 RS1 n (le_n _)).
Qed.
Lemma cdf_share d i ci : NewRand1D bs = Ok d -> nth_error (cdf d) i = Some ci ->
  (i <= n)%nat /\ is_finite ci = true /\ 0 <= B2R ci <= 1 /\ Rabs (B2R ci - share bs i) <= b2 (-51).
Proof.
  intros ND H. destruct (cdf_is bs d ND) as (LC & C & _). assert (K : (i < length (cdf d))%nat) by (apply nth_error_Some; congruence).
  rewrite LC in K. fold n in LC, C, K. assert (K' : (i <= n)%nat) by lia. rewrite (C i K') in H. inversion H; subst. split; auto.
  split; [apply (c_R bs W1 FS1 RS1 i K')|]. split; [apply c_le1; auto|]. apply (c_err bs W1 FS1 RS1 i K').
Qed.
Lemma cdf_mono d i j ci cj : NewRand1D bs = Ok d -> (i <= j)%nat -> nth_error (cdf d) i = Some ci -> nth_error (cdf d) j = Some cj -> B2R ci <= B2R cj.
Proof.
  intros ND H Hi Hj. destruct (cdf_is bs d ND) as (LC & C & _). destruct (cdf_share d j cj ND Hj) as [K _].
  fold n in LC, C. rewrite (C i ltac:(lia)) in Hi. rewrite (C j K) in Hj. inversion Hi. inversion Hj. apply (c_mono bs W1 FS1 RS1). unfold n in K. lia.
Qed.

(* ---- CDF ---- *)
Lemma code_bin m i : (i < m)%nat -> code m (PBin i) = Z.of_nat i. Proof. reflexivity. Qed.
Lemma CDF_ok d x : NewRand1D bs = Ok d -> wf_bins (N := F) (map brange bs) ->
  (forall i b, nth_error bs i = Some b -> fle (xMin b) x = true -> flt x (xMax b) = true -> exists ci, CDF d x = Ok ci /\ nth_error (cdf d) i = Some ci) /\
  (forall b, nth_error bs 0 = Some b -> flt x (xMin b) = true -> CDF d x = Ok fzero) /\
  (forall b, nth_error bs (n - 1) = Some b -> fle (xMax b) x = true -> exists v, CDF d x = Ok v /\ (v = f1 \/ nth_error (cdf d) n = Some v)) /\
  (is_nan x = true -> CDF d x = Ok f1) /\
  ((forall b, nth_error bs 0 = Some b -> fle (xMin b) x = true) -> (forall b, nth_error bs (n - 1) = Some b -> flt x (xMax b) = true) ->
   (forall b, In b bs -> fle (xMin b) x = true -> flt x (xMax b) = true -> False) -> CDF d x = Panic).
Proof.
  intros ND WF. destruct (cdf_is bs d ND) as (LC & C & LB & RB & l & Hl & HL). fold n in LC, C, LB, RB, Hl, HL.
  assert (El : In l bs) by (eapply nth_error_In; eauto). destruct (phantom_ok l (E1 l El)) as (p1 & p2 & _). destruct (E1 l El) as (e1 & e2 & e3 & _).
  assert (n0 : (0 < n)%nat) by (unfold n; destruct bs; [destruct OK as [[] _]; auto|cbn; lia]).
  assert (RBinv : forall i r, (i < n)%nat -> nth_error (rbins d) i = Some r -> exists b, nth_error bs i = Some b /\ r = brange b).
  { intros i r K H. destruct (nth_error bs i) as [b|] eqn:E; [|apply nth_error_None in E; unfold n in K; lia]. exists b. split; auto. rewrite (RB i b E) in H. congruence. }
  set (ph := rng (xMax l) (fadd (xMax l) (width (brange l)))) in *.
  assert (WR : wf_bins (N := F) (rbins d)).
  { destruct WF as (_ & w2 & w3). split; [intros Q; rewrite Q in LB; discriminate|]. split.
    - intros r Hr. apply In_nth_error in Hr. destruct Hr as (i & Hi). assert (K : (i < S n)%nat) by (rewrite <- LB; apply nth_error_Some; congruence).
      destruct (Nat.eq_dec i n) as [->|Q].
      + rewrite HL in Hi. inversion Hi; subst r. apply (fle_R (xMax l) (fadd (xMax l) (width (brange l)))); auto. lra.
      + destruct (RBinv i r ltac:(lia) Hi) as (b & Hb & ->). apply w2. apply in_map. eapply nth_error_In; eauto.
    - intros i r1 r2 H1 H2. assert (K : (S i < S n)%nat) by (rewrite <- LB; apply nth_error_Some; congruence).
      destruct (RBinv i r1 ltac:(lia) H1) as (b & Hb & ->). destruct (Nat.eq_dec (S i) n) as [Q|Q].
      + rewrite Q, HL in H2. inversion H2; subst r2. replace (n - 1)%nat with i in Hl by lia. assert (l = b) by congruence. subst.
        apply (fle_R (xMax b) (xMax b)); auto. lra.
      + destruct (RBinv (S i) r2 ltac:(lia) H2) as (b' & Hb' & ->). apply (w3 i); apply map_nth_error; assumption. }
  destruct (nth_error bs 0) as [f|] eqn:Ef; [|apply nth_error_None in Ef; unfold n in *; lia].
  set (xr := rng (xMin f) (rmax ph)).
  assert (HH : hull (N := F) (rbins d) xr).
  { exists (brange f), ph. split; [apply RB; auto|]. split; [rewrite LB, Nat.sub_succ, Nat.sub_0_r; exact HL|]. split; reflexivity. }
  destruct (IndexOf_belongs (f64_ord fadd fmul) (rbins d) xr x WR HH) as (p & Hp & Hi).
  assert (UN : forall q, belongs (N := F) (rbins d) xr x q -> CDF d x = match q with PBin i => at_ (cdf d) i | PUnder => Ok fzero | POver => Ok f1 | PGap => Panic end).
  { intros q Hq. pose proof (belongs_unique (f64_ord fadd fmul) (rbins d) xr x p q WR HH Hp Hq) as E. subst q.
    assert (K : forall i, p = PBin i -> (i < S n)%nat). { intros i ->. destruct Hp as (r & Hr & _). rewrite <- LB. apply nth_error_Some. intros Q. pose proof (eq_trans (eq_sym Hr) Q) as Q2. discriminate Q2. }
    unfold CDF. change (@IndexOf F (rbins d) x) with (@IndexOf (f64num fadd fmul) (rbins d) x). rewrite Hi. change (f64num fadd fmul) with F. unfold code, UnderflowBin1D, OverflowBin1D. destruct p as [i| | |].
    - destruct (Z.eqb_spec (Z.of_nat i) (-1)); [lia|]. destruct (Z.eqb_spec (Z.of_nat i) (-2)); [lia|]. rewrite Nat2Z.id. reflexivity.
    - reflexivity.
    - reflexivity.
    - destruct (Z.eqb_spec (Z.of_nat (length (rbins d))) (-1)); [lia|]. destruct (Z.eqb_spec (Z.of_nat (length (rbins d))) (-2)); [lia|]. rewrite Nat2Z.id, LB.
      unfold at_. destruct (nth_error (cdf d) (S n)) eqn:Q; auto. assert (S n < length (cdf d))%nat by (apply nth_error_Some; congruence). lia. }
  split; [|split; [|split; [|split]]].
  - intros i b Hb A B. rewrite (UN (PBin i)) by (exists (brange b); split; [apply RB; auto|split; auto]). assert (K : (i < n)%nat) by (apply nth_error_Some; congruence).
    unfold at_. rewrite (C i ltac:(lia)). eauto.
  - intros b Hb A. inversion Hb; subst b. apply (UN PUnder). exact A.
  - intros b Hb A. assert (b = l) by congruence. subst b. destruct (flt x (rmax ph)) eqn:B.
    + rewrite (UN (PBin n)) by (exists ph; split; [exact HL|split; auto]). unfold at_. rewrite (C n (le_n _)). eauto.
    + exists f1. split; auto. apply (UN POver). right. pose proof (o_total _ (f64_ord fadd fmul) x (rmax ph)) as T. apply T; auto.
      * apply (o_le_nan _ (f64_ord fadd fmul)) in A. apply A.
      * cbn. unfold is_nanb, ph. cbn [rmax rng]. clear - p1. revert p1. generalize (fadd (xMax l) (width (brange l))). intros z Hz. destruct z; auto; discriminate.
  - intros A. apply (UN POver). left. cbn. unfold is_nanb. destruct x; auto; discriminate.
  - intros A B G. apply (UN PGap). split; [apply (A f); auto|]. split.
    + eapply (o_lt_le_trans _ (f64_ord fadd fmul)); [apply (B l); auto|]. apply (fle_R (xMax l) (fadd (xMax l) (width (brange l)))); auto. lra.
    + intros i r Hr [Q1 Q2]. assert (K : (i < S n)%nat) by (rewrite <- LB; apply nth_error_Some; congruence). destruct (Nat.eq_dec i n) as [->|Q].
      * rewrite HL in Hr. inversion Hr; subst r. pose proof (o_le_not_lt _ (f64_ord fadd fmul) _ _ Q1) as T. cbn in T. cbn in B. rewrite (B l Hl) in T. discriminate.
      * destruct (RBinv i r ltac:(lia) Hr) as (b & Hb & ->). apply (G b); auto. eapply nth_error_In; eauto.
Qed.
End S.
