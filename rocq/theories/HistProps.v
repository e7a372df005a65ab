(* C65: histograms with bins of equal width (NewH1D, NewH2D, NewP1D). *)
From Coq Require Import ZArith List Bool Lia Reals Lra.
From Flocq Require Import Core IEEE754.BinarySingleNaN.
From Verif Require Import GoLib F64 F64Arith HbookModel HbookSpec HbookProofs HbookProofs2 HbookProofs3 HistModel HistProofs HistErr HistP1D.
Import ListNotations.

(* the bins are those between consecutive edges *)
Definition between (es : list f64) (rs : list (Range F)) : Prop :=
  length es = S (length rs) /\ forall i lo hi, nth_error es i = Some lo -> nth_error es (S i) = Some hi -> nth_error rs i = Some (rng lo hi).
(* the n+1 edges: the first is xmin, they do not decrease, and each is close to the exact one *)
Definition good_edges (n : Z) (xmin xmax : f64) (es : list f64) : Prop :=
  length es = S (Z.to_nat n) /\
  (forall e, nth_error es 0 = Some e -> fle e xmin = true /\ fle xmin e = true) /\
  (forall i j a b, nth_error es i = Some a -> nth_error es j = Some b -> (i <= j)%nat -> fle a b = true) /\
  (forall i e, nth_error es i = Some e -> is_finite e = true ->
     let W := (B2R xmax - B2R xmin)%R in let X := (B2R xmin + INR i * W / IZR n)%R in
     (Rabs (B2R e - X) <= bpow radix2 (-53) * Rabs X + bpow radix2 (-51) * (INR i * W / IZR n) + (INR i + 1) * bpow radix2 (-1074))%R).
Definition edges (n : Z) (xmin xmax : f64) : list f64 := map (edge n xmin xmax) (seq 0 (S (Z.to_nat n))).
Lemma edges_nth n xmin xmax i e : nth_error (edges n xmin xmax) i = Some e <-> (i <= Z.to_nat n)%nat /\ e = edge n xmin xmax i.
Proof.
  unfold edges. rewrite nth_error_map. destruct (Nat.leb_spec i (Z.to_nat n)) as [H|H].
  - rewrite nth_error_nth' with (d := 0%nat) by (rewrite seq_length; lia). rewrite seq_nth by lia. cbn. intuition congruence.
  - replace (nth_error (seq 0 (S (Z.to_nat n))) i) with (@None nat) by (symmetry; apply nth_error_None; rewrite seq_length; lia).
    cbn. split; [discriminate|]. intros [Q _]. lia.
Qed.
Lemma edges_good n xmin xmax : axis_ok n xmin xmax -> good_edges n xmin xmax (edges n xmin xmax) /\ between (edges n xmin xmax) (uranges n xmin xmax).
Proof.
  intros A. assert (L : length (edges n xmin xmax) = S (Z.to_nat n)) by (unfold edges; rewrite map_length, seq_length; reflexivity).
  split; [split; [exact L|]; split; [|split]|split; [rewrite (uranges_length n xmin xmax); exact L|]].
  - intros e H. apply edges_nth in H. destruct H as [_ ->]. apply edge_0, A.
  - intros i j a b Ha Hb Hij. apply edges_nth in Ha, Hb. destruct Ha as [Ha ->], Hb as [Hb ->]. apply (edge_mono n xmin xmax A i j). lia.
  - intros i e H Fe W X. apply edges_nth in H. destruct H as [Hi ->]. pose proof (edge_err n xmin xmax A i Hi Fe) as E. cbv zeta in E. fold W in E. fold X in E.
    replace (bpow radix2 (-51)) with (4 * bpow radix2 (-53))%R by (change (-51)%Z with (2 + -53)%Z; rewrite bpow_plus; reflexivity).
    replace (bpow radix2 (-1074)) with (2 * bpow radix2 (-1075))%R by (change (-1074)%Z with (1 + -1075)%Z; rewrite bpow_plus; reflexivity). exact E.
  - intros i lo hi Hl Hh. apply edges_nth in Hl, Hh. destruct Hl as [Hl ->], Hh as [Hh ->]. apply (proj2 (uranges_nth n xmin xmax A i _)). split; [exact Hh|reflexivity].
Qed.

Theorem C65_H1D_equal_bins (n : Z) (xmin xmax : f64) : axis_ok n xmin xmax ->
  exists b es last, newBinning1D n xmin xmax = Ok b /\ good_edges n xmin xmax es /\ nth_error es (Z.to_nat n) = Some last /\ between es (map brange (bins b)) /\
  forall hs : list (F * F), exists b', fill_all b hs = Ok b' /\ map brange (bins b') = map brange (bins b) /\
    bdist_tot b' = stats1 (N := F) hs /\
    under b' = stats1 (N := F) (filter (fun h : F * F => flt (fst h) xmin) hs) /\
    over b' = stats1 (N := F) (filter (fun h : F * F => is_nanb (fst h) || fle xmax (fst h) || fle last (fst h)) hs) /\
    (forall i lo hi, nth_error es i = Some lo -> nth_error es (S i) = Some hi ->
       exists bn, nth_error (bins b') i = Some bn /\ bdist bn = stats1 (N := F) (filter (fun h : F * F => fle lo (fst h) && flt (fst h) hi && flt (fst h) xmax) hs)) /\
    total_entries b' = Z.of_nat (length hs) /\ total_entries b' = (bins_entries b' + under_entries b' + over_entries b')%Z.
Proof.
  intros A. destruct (edges_good n xmin xmax A) as [G B].
  exists (empty_binning (uranges n xmin xmax) (rng xmin xmax)), (edges n xmin xmax), (edge n xmin xmax (Z.to_nat n)).
  assert (M : map brange (bins (empty_binning (uranges n xmin xmax) (rng xmin xmax))) = uranges n xmin xmax) by (cbn; rewrite map_map; apply map_id).
  split. { unfold newBinning1D. rewrite (flt_not_le xmin xmax) by apply A. destruct (Z.leb_spec n 0); [destruct (ax_n _ _ _ A); lia|reflexivity]. }
  split; [exact G|]. split; [apply edges_nth; auto|]. rewrite M. split; [exact B|].
  intros hs. destruct (ufill n xmin xmax A hs) as (b' & E & S1 & S2 & T & U & O & BB & C1 & C2).
  exists b'. split; [exact E|]. split; [exact S1|]. split; [exact T|]. split; [exact U|]. split; [exact O|]. split; [|auto].
  intros i lo hi Hl Hh. exact (BB i (rng lo hi) (proj2 B i lo hi Hl Hh)).
Qed.

Theorem C65_H2D_equal_bins (nX : Z) (xlow xhigh : f64) (nY : Z) (ylow yhigh : f64) : axis_ok nX xlow xhigh -> axis_ok nY ylow yhigh ->
  exists b xe ye x0 x1 y0 y1, newBinning2D nX xlow xhigh nY ylow yhigh = Ok b /\ good_edges nX xlow xhigh xe /\ good_edges nY ylow yhigh ye /\
  nth_error xe 0 = Some x0 /\ nth_error xe (Z.to_nat nX) = Some x1 /\ nth_error ye 0 = Some y0 /\ nth_error ye (Z.to_nat nY) = Some y1 /\
  let inreg k (h : F * F * F) := in_region (N := F) (rng x0 x1) (rng y0 y1) k (fst (fst h)) (snd (fst h)) in
  (forall hs : list (F * F * F), exists b', fill2_all b hs = Ok b' /\ dist2 b' = stats2 hs /\
    (forall k, (1 <= k <= 8)%nat -> nth_error (outflows b') (k - 1) = Some (stats2 (filter (inreg k) hs))) /\
    (forall ix iy xlo xhi ylo yhi, nth_error xe ix = Some xlo -> nth_error xe (S ix) = Some xhi -> nth_error ye iy = Some ylo -> nth_error ye (S iy) = Some yhi ->
       nth_error (bins2 b') (iy * Z.to_nat nX + ix) = Some {| b2x := rng xlo xhi; b2y := rng ylo yhi;
         b2dist := stats2 (filter (fun h : F * F * F => (fle xlo (fst (fst h)) && flt (fst (fst h)) xhi) && (fle ylo (snd (fst h)) && flt (snd (fst h)) yhi)) hs) |}) /\
    length (bins2 b') = (Z.to_nat nX * Z.to_nat nY)%nat) /\
  (* every entry is in exactly one place *)
  (forall x y : F, (exists ix iy xlo xhi ylo yhi, nth_error xe ix = Some xlo /\ nth_error xe (S ix) = Some xhi /\ nth_error ye iy = Some ylo /\ nth_error ye (S iy) = Some yhi /\
       fle xlo x = true /\ flt x xhi = true /\ fle ylo y = true /\ flt y yhi = true /\ forall k, (1 <= k <= 8)%nat -> in_region (N := F) (rng x0 x1) (rng y0 y1) k x y = false) \/
     (exists k, (1 <= k <= 8)%nat /\ in_region (N := F) (rng x0 x1) (rng y0 y1) k x y = true /\
       (forall k', (1 <= k' <= 8)%nat -> in_region (N := F) (rng x0 x1) (rng y0 y1) k' x y = true -> k' = k) /\
       forall ix iy xlo xhi ylo yhi, nth_error xe ix = Some xlo -> nth_error xe (S ix) = Some xhi -> nth_error ye iy = Some ylo -> nth_error ye (S iy) = Some yhi ->
         (fle xlo x && flt x xhi) && (fle ylo y && flt y yhi) = false)).
Proof.
  intros AX AY. destruct (edges_good _ _ _ AX) as [GX BX], (edges_good _ _ _ AY) as [GY BY].
  destruct (newBinning2D nX xlow xhigh nY ylow yhigh) as [b|] eqn:Eb.
  2:{ exfalso. unfold newBinning2D in Eb. rewrite (flt_not_le xlow xhigh), (flt_not_le ylow yhigh) in Eb by (apply AX || apply AY).
      destruct (Z.leb_spec nX 0); [destruct (ax_n _ _ _ AX); lia|]. destruct (Z.leb_spec nY 0); [destruct (ax_n _ _ _ AY); lia|]. discriminate. }
  exists b, (edges nX xlow xhigh), (edges nY ylow yhigh), (edge nX xlow xhigh 0), (edge nX xlow xhigh (Z.to_nat nX)), (edge nY ylow yhigh 0), (edge nY ylow yhigh (Z.to_nat nY)).
  split; [reflexivity|]. split; [exact GX|]. split; [exact GY|]. do 4 (split; [apply edges_nth; auto with arith|]). cbv zeta.
  split.
  - intros hs. destruct (ufill2 nX xlow xhigh nY ylow yhigh AX AY b hs Eb) as (b' & E & T & O & B & L & _).
    exists b'. split; [exact E|]. split; [exact T|]. split; [exact O|]. split; [|exact L].
    intros ix iy xlo xhi ylo yhi H1 H2 H3 H4. exact (B ix iy _ _ (proj2 BX ix _ _ H1 H2) (proj2 BY iy _ _ H3 H4)).
  - intros x y. destruct (ufill2 nX xlow xhigh nY ylow yhigh AX AY b [] Eb) as (_ & _ & _ & _ & _ & _ & Q). specialize (Q x y).
    destruct Q as [(ix & iy & rx & ry & Q1 & Q2 & Q3 & Q4 & Q5)|(k & K & Q1 & Q2 & Q3)]; [left|right].
    + apply (uranges_nth _ _ _ AX) in Q1. apply (uranges_nth _ _ _ AY) in Q2. destruct Q1 as [Q1 ->], Q2 as [Q2 ->]. exists ix, iy. do 4 eexists.
      do 4 (split; [apply edges_nth; split; [lia|reflexivity]|]). destruct Q3, Q4. repeat (split; [assumption|]). exact Q5.
    + exists k. split; [exact K|]. split; [exact Q1|]. split; [exact Q2|]. intros ix iy xlo xhi ylo yhi H1 H2 H3 H4.
      apply not_true_is_false. intros C. apply andb_true_iff in C. destruct C as [C1 C2].
      apply (Q3 ix iy _ _ (proj2 BX ix _ _ H1 H2) (proj2 BY iy _ _ H3 H4)). split; apply containsb_iff; assumption.
Qed.

(* P1D: the bin is computed from (x-xmin)*(n/(xmax-xmin)); bad is what the machine gives for int() of a NaN or a number out of range *)
Theorem C65_P1D_fill (n : Z) (xmin xmax : f64) : axis_ok n xmin xmax -> (n <= 2 ^ 50)%Z -> is_finite (fdiv (fofZ n) (width (rng xmin xmax))) = true ->
  exists b es (place : f64 -> Z), newBinningP1D n xmin xmax = Ok b /\ good_edges n xmin xmax es /\ between es (map pxr (pbins b)) /\
  (* the chosen bin is the exact one up to rounding *)
  (forall x, is_finite x = true -> fle xmin x = true -> flt x xmax = true ->
     (0 <= place x <= n)%Z /\
     let W := (B2R xmax - B2R xmin)%R in let T := ((B2R x - B2R xmin) * IZR n / W)%R in
     let e := (5 * bpow radix2 (-53) * T + (W + 1) * bpow radix2 (-1074))%R in
     (IZR (place x) - e <= T < IZR (place x) + 1 + e)%R) /\
  forall (bad : f64 -> Z) (hs : list (F * F * F)), (forall h, In h hs -> is_nanb (fst (fst h)) = false) ->
    let inside (h : F * F * F) := fle xmin (fst (fst h)) && flt (fst (fst h)) xmax in
    ((forall h, In h hs -> inside h = true -> (place (fst (fst h)) < n)%Z) ->
      exists b', fillP_all bad b hs = Ok b' /\ map pxr (pbins b') = map pxr (pbins b) /\ ptot b' = stats2 hs /\
        punder b' = stats2 (filter (fun h : F * F * F => flt (fst (fst h)) xmin) hs) /\
        pover b' = stats2 (filter (fun h : F * F * F => fle xmax (fst (fst h))) hs) /\
        (forall i, (i < Z.to_nat n)%nat -> exists bn, nth_error (pbins b') i = Some bn /\
           pdist bn = stats2 (filter (fun h : F * F * F => inside h && (place (fst (fst h)) =? Z.of_nat i)%Z) hs))) /\
    ((exists h, In h hs /\ inside h = true /\ place (fst (fst h)) = n) -> fillP_all bad b hs = Panic).
Proof.
  intros A N50 FS. destruct (edges_good n xmin xmax A) as [G B]. fold (ps n xmin xmax) in FS.
  set (b := {| pbins := map (fun r => {| pxr := r; pdist := Dist2D_zero |}) (uranges n xmin xmax); ptot := Dist2D_zero; punder := Dist2D_zero; pover := Dist2D_zero;
        pxrange := rng xmin xmax; pxstep := fdiv (fofZ n) (width (rng xmin xmax)) |}).
  exists b, (edges n xmin xmax), (place n xmin xmax).
  assert (M : map pxr (pbins b) = uranges n xmin xmax) by (unfold b; cbn; rewrite map_map; apply map_id).
  assert (LB : length (pbins b) = Z.to_nat n) by (rewrite <- (map_length pxr), M; apply (uranges_length n xmin xmax)).
  assert (N1 := ax_n _ _ _ A).
  split. { unfold newBinningP1D. rewrite (flt_not_le xmin xmax) by apply A. destruct (Z.leb_spec n 0); [lia|reflexivity]. }
  split; [exact G|]. rewrite M. split; [exact B|].
  split. { intros x Fx Lx Ux. destruct (place_spec (fun _ => 0%Z) n xmin xmax A N50 FS x Fx Lx Ux) as (P1 & P2 & _). split; assumption. }
  intros bad hs NN inside.
  assert (IDX : forall x, is_nanb x = false -> coordToIndexP bad b x = if flt x xmin then (-1)%Z else if fle xmax x then (-2)%Z else place n xmin xmax x).
  { intros x Nx. unfold coordToIndexP, b. cbn [pxrange rmin rmax rng pxstep]. destruct (flt x xmin) eqn:E1; [reflexivity|]. destruct (fle xmax x) eqn:E2; [reflexivity|].
    assert (Lx : fle xmin x = true) by (apply flt_total; auto; pose proof (ax_fmin _ _ _ A); destruct xmin; auto; discriminate).
    assert (Ux : flt x xmax = true).
    { destruct (flt x xmax) eqn:Q1; auto. assert (fle xmax x = true); [|congruence]. apply flt_total; auto. pose proof (ax_fmax _ _ _ A); destruct xmax; auto; discriminate. }
    assert (Fx : is_finite x = true).
    { pose proof (ax_fmin _ _ _ A) as F1. pose proof (ax_fmax _ _ _ A) as F2. destruct x as [|[]| |]; auto; try discriminate; destruct xmin as [|[]| |[]]; destruct xmax as [|[]| |[]]; discriminate. }
    exact (proj2 (proj2 (place_spec bad n xmin xmax A N50 FS x Fx Lx Ux))). }
  assert (INS : forall x, is_nanb x = false -> flt x xmin = false -> fle xmax x = false -> fle xmin x && flt x xmax = true /\ is_finite x = true).
  { intros x Nx E1 E2.
    assert (Lx : fle xmin x = true) by (apply flt_total; auto; pose proof (ax_fmin _ _ _ A); destruct xmin; auto; discriminate).
    assert (Ux : flt x xmax = true).
    { destruct (flt x xmax) eqn:Q1; auto. assert (fle xmax x = true); [|congruence]. apply flt_total; auto. pose proof (ax_fmax _ _ _ A); destruct xmax; auto; discriminate. }
    rewrite Lx, Ux. split; [reflexivity|].
    pose proof (ax_fmin _ _ _ A) as F1. pose proof (ax_fmax _ _ _ A) as F2. destruct x as [|[]| |]; auto; try discriminate; destruct xmin as [|[]| |[]]; destruct xmax as [|[]| |[]]; discriminate. }
  assert (PR : forall x, is_finite x = true -> fle xmin x && flt x xmax = true -> (0 <= place n xmin xmax x <= n)%Z).
  { intros x Fx I. apply andb_true_iff in I. destruct I. apply (place_spec bad n xmin xmax A N50 FS x); assumption. }
  assert (MAX : forall x, flt x xmin = true -> fle xmax x = false) by (intros x Q; apply flt_not_le; eapply flt_le_trans; [exact Q|]; apply flt_le, A).
  assert (OUT : forall x, fle xmin x && flt x xmax = true -> flt x xmin = false /\ fle xmax x = false)
    by (intros x Q; apply andb_true_iff in Q; destruct Q as [Q1 Q2]; split; [apply fle_not_lt, Q1|apply flt_not_le, Q2]).
  split.
  - intros LT. destruct (fillP_all_spec bad b hs) as (b' & E & (S1 & S2 & S3) & T & U & O & BB).
    { intros h J. unfold hx. rewrite (IDX _ (NN h J)). unfold pok. rewrite LB. destruct (flt _ _) eqn:E1; [auto|]. destruct (fle xmax _) eqn:E2; [auto|].
      destruct (INS _ (NN h J) E1 E2) as [I Fx]. pose proof (LT h J I). pose proof (PR _ Fx I). lia. }
    exists b'. split; [exact E|].
    assert (FX : forall p q : F * F * F -> bool, (forall h, In h hs -> p h = q h) -> filter p hs = filter q hs).
    { intros p q H. clear - H. induction hs as [|h l IH]; [reflexivity|]. cbn [filter]. rewrite (H h) by (left; reflexivity). rewrite IH by (intros; apply H; right; assumption). reflexivity. }
    split. { rewrite <- M. apply list_eq_nth. intros i. rewrite !nth_error_map. destruct (nth_error (pbins b) i) as [bn|] eqn:Q; [rewrite (BB i bn Q); reflexivity|].
      apply nth_error_None in Q. replace (nth_error (pbins b') i) with (@None BinP1D); [reflexivity|]. symmetry. apply nth_error_None. lia. }
    split; [rewrite T; apply feed2_stats|].
    split. { rewrite U, <- feed2_stats. change (punder b) with (@Dist2D_zero F). f_equal. apply FX. intros h J. unfold hx. rewrite (IDX _ (NN h J)).
      destruct (flt _ _) eqn:E1; [reflexivity|]. destruct (fle xmax _) eqn:E2; [reflexivity|]. destruct (INS _ (NN h J) E1 E2) as [I Fx]. pose proof (PR _ Fx I). apply Z.eqb_neq. lia. }
    split. { rewrite O, <- feed2_stats. change (pover b) with (@Dist2D_zero F). f_equal. apply FX. intros h J. unfold hx. rewrite (IDX _ (NN h J)).
      destruct (flt _ _) eqn:E1; [rewrite MAX by exact E1; reflexivity|]. destruct (fle xmax _) eqn:E2; [reflexivity|]. destruct (INS _ (NN h J) E1 E2) as [I Fx]. pose proof (PR _ Fx I). apply Z.eqb_neq. lia. }
    intros i Hi. destruct (nth_error (pbins b) i) as [bn|] eqn:Q; [|apply nth_error_None in Q; lia]. eexists. split; [exact (BB i bn Q)|]. cbn [pdist].
    assert (Z0 : pdist bn = Dist2D_zero). { unfold b in Q. cbn [pbins] in Q. rewrite nth_error_map in Q. destruct (nth_error (uranges n xmin xmax) i); inversion Q. reflexivity. }
    rewrite Z0, <- feed2_stats. f_equal. apply FX. intros h J. unfold hx. rewrite (IDX _ (NN h J)). unfold inside. destruct (fle xmin _ && flt _ xmax) eqn:I.
    + destruct (OUT _ I) as [-> ->]. reflexivity.
    + cbn [andb]. destruct (flt _ xmin) eqn:E1; [apply Z.eqb_neq; lia|]. destruct (fle xmax _) eqn:E2; [apply Z.eqb_neq; lia|]. destruct (INS _ (NN h J) E1 E2) as [I2 _]. congruence.
  - intros (h & J & I & E). apply (fillP_all_panic bad b hs h J). unfold hx. rewrite (IDX _ (NN h J)). destruct (OUT _ I) as [-> ->]. rewrite E. unfold pok. rewrite LB. lia.
Qed.

(* ---- examples and what does not hold ---- *)
Local Notation pos_f m e := (@B754_finite 53 1024 false m e eq_refl).
Local Notation neg_f m e := (@B754_finite 53 1024 true m e eq_refl).
Definition one : f64 := pos_f 4503599627370496 (-52).
Definition mone : f64 := neg_f 4503599627370496 (-52).
Definition below1 : f64 := pos_f 9007199254740991 (-53).      (* 0.9999999999999999 *)
Definition p03 : f64 := pos_f 5404319552844595 (-54).         (* 0.3 *)
Definition e308 : f64 := pos_f 5010420900022432 971.          (* 1e308 *)
Definition me308 : f64 := neg_f 5010420900022432 971.
Definition amd64 (_ : f64) : Z := (- 2 ^ 63)%Z.               (* int() of a NaN on amd64 *)
Example C65_example : axis_ok 10 fzero one /\ (10 <= 2 ^ 50)%Z /\ is_finite (fdiv (fofZ 10) (width (rng fzero one))) = true /\ is_finite (edge 10 fzero one 10) = true /\
  fle fzero p03 = true /\ flt p03 one = true /\ (place 10 fzero one p03 < 10)%Z.
Proof.
  assert (A : axis_ok 10 fzero one) by (constructor; [lia|reflexivity..]).
  assert (FS : is_finite (fdiv (fofZ 10) (width (rng fzero one))) = true) by (vm_compute; reflexivity).
  split; [exact A|]. split; [lia|]. split; [exact FS|]. split; [vm_compute; reflexivity|]. split; [reflexivity|]. split; [reflexivity|].
  destruct (place_spec (fun _ => 0%Z) 10 fzero one A ltac:(lia) FS p03 eq_refl eq_refl eq_refl) as (_ & _ & <-). vm_compute. reflexivity.
Qed.

Definition okb {A} (r : res A) (p : A -> bool) : bool := match r with Ok a => p a | Panic => false end.
Lemma okb_true A (r : res A) p : okb r p = true -> exists a, r = Ok a /\ p a = true.
Proof. destruct r; [eauto|discriminate]. Qed.
Definition panics {A} (r : res A) : bool := match r with Ok _ => false | Panic => true end.
Lemma panics_true A (r : res A) : panics r = true -> r = Panic.
Proof. destruct r; [discriminate|reflexivity]. Qed.
Definition nthb {A} (l : list A) i (p : A -> bool) : bool := match nth_error l i with Some a => p a | None => false end.
Lemma nthb_true A (l : list A) i p : nthb l i p = true -> exists a, nth_error l i = Some a /\ p a = true.
Proof. unfold nthb. destruct (nth_error l i); [eauto|discriminate]. Qed.
Ltac ob K x E := apply okb_true in K; destruct K as (x & E & K).
(* a value below xmax, in a histogram of 49 bins from 0 to 1, is counted as overflow *)
Theorem C65_H1D_top_refuted : exists n xmin xmax x w b b', axis_ok n xmin xmax /\ newBinning1D n xmin xmax = Ok b /\
  fle xmin x = true /\ flt x xmax = true /\ fill_all b [(x, w)] = Ok b' /\ bins_entries b' = 0%Z /\ over_entries b' = 1%Z.
Proof.
  assert (K : okb (newBinning1D 49 fzero one) (fun b => okb (fill_all b [(below1, one)]) (fun b' => (bins_entries b' =? 0)%Z && (over_entries b' =? 1)%Z)) = true) by (vm_compute; reflexivity).
  ob K b E. ob K b' E'. apply andb_true_iff in K. destruct K as [K1 K2].
  exists 49%Z, fzero, one, below1, one, b, b'. split; [constructor; [lia|reflexivity..]|]. split; [exact E|]. split; [reflexivity|]. split; [reflexivity|].
  split; [exact E'|]. split; apply Z.eqb_eq; assumption.
Qed.
(* 10 bins from -1e308 to 1e308 (the width is infinite): an entry of 0.3 is in no bin and in no outflow *)
Theorem C65_H1D_infinite_width_refuted : exists n xmin xmax x w b b', is_finite xmin = true /\ is_finite xmax = true /\ newBinning1D n xmin xmax = Ok b /\
  fle xmin x = true /\ flt x xmax = true /\ fill_all b [(x, w)] = Ok b' /\ total_entries b' = 1%Z /\ (bins_entries b' + under_entries b' + over_entries b' = 0)%Z.
Proof.
  assert (K : okb (newBinning1D 10 me308 e308) (fun b => okb (fill_all b [(p03, one)]) (fun b' => (total_entries b' =? 1)%Z && (bins_entries b' + under_entries b' + over_entries b' =? 0)%Z)) = true) by (vm_compute; reflexivity).
  ob K b E. ob K b' E'. apply andb_true_iff in K. destruct K as [K1 K2].
  exists 10%Z, me308, e308, p03, one, b, b'. split; [reflexivity|]. split; [reflexivity|]. split; [exact E|]. split; [reflexivity|]. split; [reflexivity|].
  split; [exact E'|]. split; apply Z.eqb_eq; assumption.
Qed.
(* a profile of two bins from -1 to 1: an entry at 0.9999999999999999 panics *)
Theorem C65_P1D_no_panic_refuted : exists n xmin xmax x y w b, axis_ok n xmin xmax /\ newBinningP1D n xmin xmax = Ok b /\
  fle xmin x = true /\ flt x xmax = true /\ forall bad, fillP_all bad b [(x, y, w)] = Panic.
Proof.
  assert (K : forall bad, okb (newBinningP1D 2 mone one) (fun b => panics (fillP_all bad b [(below1, one, one)])) = true) by (intros bad; vm_compute; reflexivity).
  destruct (newBinningP1D 2 mone one) as [b|] eqn:E; [|discriminate (K amd64)]. cbn [okb] in K.
  exists 2%Z, mone, one, below1, one, one, b. split; [constructor; [lia|reflexivity..]|]. split; [exact E|]. split; [reflexivity|]. split; [reflexivity|].
  intros bad. apply panics_true, K.
Qed.
(* 10 bins from 0 to 1: the entry 0.3 goes to a bin that starts above 0.3, while NewH1D puts it into the one before *)
Theorem C65_P1D_bin_refuted : exists n xmin xmax x y w b b' i bn, axis_ok n xmin xmax /\ newBinningP1D n xmin xmax = Ok b /\ fillP_all amd64 b [(x, y, w)] = Ok b' /\
  nth_error (pbins b') i = Some bn /\ dN (d0 (dX (pdist bn))) = 1%Z /\ flt x (rmin (pxr bn)) = true /\
  exists h h' j hb, newBinning1D n xmin xmax = Ok h /\ fill_all h [(x, w)] = Ok h' /\ nth_error (bins h') j = Some hb /\ dN (d0 (bdist hb)) = 1%Z /\ j <> i.
Proof.
  assert (K : okb (newBinningP1D 10 fzero one) (fun b => okb (fillP_all amd64 b [(p03, one, one)]) (fun b' => nthb (pbins b') 3 (fun bn => (dN (d0 (dX (pdist bn))) =? 1)%Z && flt p03 (rmin (pxr bn))))) = true) by (vm_compute; reflexivity).
  ob K b E. ob K b' E'. apply nthb_true in K. destruct K as (bn & E2 & K). apply andb_true_iff in K. destruct K as [K1 K2].
  assert (Q : okb (newBinning1D 10 fzero one) (fun h => okb (fill_all h [(p03, one)]) (fun h' => nthb (bins h') 2 (fun hb => (dN (d0 (bdist hb)) =? 1)%Z))) = true) by (vm_compute; reflexivity).
  ob Q h H. ob Q h' H'. apply nthb_true in Q. destruct Q as (hb & H2 & Q).
  exists 10%Z, fzero, one, p03, one, one, b, b', 3%nat, bn. split; [constructor; [lia|reflexivity..]|]. split; [exact E|]. split; [exact E'|]. split; [exact E2|].
  split; [apply Z.eqb_eq, K1|]. split; [exact K2|]. exists h, h', 2%nat, hb. split; [exact H|]. split; [exact H'|]. split; [exact H2|]. split; [apply Z.eqb_eq, Q|discriminate].
Qed.
(* a NaN: overflow for H1D, a panic for P1D (with the int() of amd64) *)
Theorem C65_P1D_nan_refuted : exists n xmin xmax y w b, axis_ok n xmin xmax /\ newBinningP1D n xmin xmax = Ok b /\ fillP_all amd64 b [(B754_nan, y, w)] = Panic.
Proof.
  assert (K : okb (newBinningP1D 10 fzero one) (fun b => panics (fillP_all amd64 b [(B754_nan, one, one)])) = true) by (vm_compute; reflexivity).
  ob K b E. exists 10%Z, fzero, one, one, one, b. split; [constructor; [lia|reflexivity..]|]. split; [exact E|]. apply panics_true, K.
Qed.

Print Assumptions C65_H1D_equal_bins.
Print Assumptions C65_H2D_equal_bins.
Print Assumptions C65_P1D_fill.
Print Assumptions C65_example.
Print Assumptions C65_H1D_top_refuted.
Print Assumptions C65_H1D_infinite_width_refuted.
Print Assumptions C65_P1D_no_panic_refuted.
Print Assumptions C65_P1D_bin_refuted.
Print Assumptions C65_P1D_nan_refuted.
