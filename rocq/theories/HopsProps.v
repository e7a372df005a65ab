(* C68: the ratio of two histograms and the scatter of a histogram. C69: random numbers drawn from a histogram. *)
From Coq Require Import ZArith List Bool Lia Reals Lra Sorting.Permutation Sorting.Sorted.
From Flocq Require Import Core IEEE754.BinarySingleNaN.
From Verif Require Import GoLib F64 F64Arith HbookModel HbookSpec HistModel HistErr HopsModel F64Near HopsProofs HopsProofs2 HopsProofs3 HopsProofs4.
Import ListNotations.
Local Open Scope R_scope.
Local Notation b2 := (bpow radix2).

(* ==== C68: DivideH1D ==== *)
(* the options a caller can pass *)
Inductive dopt := OIgnore | OReplace (v : f64).
Definition dfun (o : dopt) : cfg -> cfg := match o with OIgnore => DivIgnoreNaNs | OReplace v => DivReplaceNaNs v end.
Definition ignores (os : list dopt) : Prop := In OIgnore os.
(* the value of the last DivReplaceNaNs, NaN without one *)
Definition replacement (os : list dopt) : f64 := last (flat_map (fun o => match o with OReplace v => [v] | OIgnore => [] end) os) fnan.
Lemma nth_combine {A B} (l : list A) (l' : list B) : forall i a b, nth_error l i = Some a -> nth_error l' i = Some b -> nth_error (combine l l') i = Some (a, b).
Proof. revert l'. induction l as [|x l IH]; intros [|y l'] [|i] a b H1 H2; try discriminate; cbn in *; [congruence|auto]. Qed.
Lemma last_cons {A} (a d : A) l : last (a :: l) d = last l a.
Proof. revert a d. induction l as [|b l IH]; intros; auto. change (last (a :: b :: l) d) with (last (b :: l) d). rewrite !IH. auto. Qed.
Lemma opts_fold os : forall c, let c' := fold_left (fun c o => o c) (map dfun os) c in
  (ignoreNaN c' = true <-> ignoreNaN c = true \/ ignores os) /\
  replaceNaN c' = last (flat_map (fun o => match o with OReplace v => [v] | OIgnore => [] end) os) (replaceNaN c).
Proof.
  unfold ignores. induction os as [|o os IH]; intros c; cbn [map fold_left flat_map In]; [tauto|].
  destruct (IH (dfun o c)) as [A B]. cbn zeta. rewrite A, B. destruct o; cbn [dfun DivIgnoreNaNs DivReplaceNaNs ignoreNaN replaceNaN app].
  - split; [|reflexivity]. tauto.
  - split; [split; [intros [?|?]; auto|intros [?|[?|?]]; auto; discriminate]|]. rewrite last_cons. reflexivity.
Qed.
Lemma opts_ok os : let c := fold_left (fun c o => o c) (map dfun os) cfg0 in (ignoreNaN c = true <-> ignores os) /\ replaceNaN c = replacement os.
Proof. destruct (opts_fold os cfg0) as [A B]. cbn [ignoreNaN cfg0] in A. split; [rewrite A; intuition discriminate|exact B]. Qed.

(* histograms with the same bins: there is a point for each bin, in order. For bins with entries it is the ratio of the heights with
   the relative errors added in quadrature; where the denominator is empty the options decide; where only the numerator is empty it is 0 *)
Theorem C68_divide {V} (num den : @H1D V) os :
  (length (bins (hbng num)) <= length (bins (hbng den)))%nat ->
  (forall i p q, nth_error (bins (hbng num)) i = Some p -> nth_error (bins (hbng den)) i = Some q -> brange p = brange q /\ edges_ok p) ->
  exists s ops, DivideH1D num den (map dfun os) = Ok (Some s) /\ pts s = concat (map opt2list ops) /\ length ops = length (bins (hbng num)) /\
    forall i p q o, nth_error (bins (hbng num)) i = Some p -> nth_error (bins (hbng den)) i = Some q -> nth_error ops i = Some o ->
      (tame p -> tame q -> exists pt, o = Some pt /\ centred p pt /\ yspec (PY pt) (height p / height q) /\
         rmin (ErrY pt) = rmax (ErrY pt) /\ espec (rmin (ErrY pt)) (height p / height q * sqrt (relvar p + relvar q))) /\
      (tame0 q -> zero (sumW q) -> (ignores os -> o = None) /\
         (~ ignores os -> exists pt, o = Some pt /\ centred p pt /\ PY pt = replacement os /\ ErrY pt = rng fzero fzero)) /\
      (tame0 p -> zero (sumW p) -> zero (sumW2 p) -> tame q -> exists pt, o = Some pt /\ centred p pt /\ zero (PY pt) /\
         rmin (ErrY pt) = rmax (ErrY pt) /\ zero (rmin (ErrY pt))).
Proof.
  intros L E. destruct (opts_ok os) as [O1 O2]. unfold DivideH1D. set (c := fold_left (fun c o => o c) (map dfun os) cfg0) in *. cbn zeta in O1, O2.
  set (bs1 := bins (hbng num)) in *. set (bs2 := bins (hbng den)) in *.
  rewrite divLoop_ok; [|exact L|].
  2:{ intros i p q H1 H2. destruct (E i p q H1 H2) as [R (F1 & F2 & _)]. unfold eqv_edges, xMin, xMax in *. rewrite <- R. rewrite !fuzzyEq_refl by auto. reflexivity. }
  cbn [rbind]. eexists. exists (map (fun p => divPoint c (fst p) (snd p)) (combine bs1 bs2)). split; [reflexivity|]. cbn [pts]. split; [rewrite map_map; reflexivity|].
  split; [rewrite map_length, combine_length; unfold F in *; lia|].
  intros i p q o H1 H2 H3. assert (H4 : nth_error (combine bs1 bs2) i = Some (p, q)).
  { apply nth_combine; auto. }
  rewrite (map_nth_error _ _ _ H4) in H3. cbn [fst snd] in H3. inversion H3; subst o. destruct (E i p q H1 H2) as [R Ep]. split; [|split].
  - intros T1 T2. apply divPoint_tame; auto.
  - intros T Z. destruct (divPoint_empty_den c p q T Z Ep) as (pt & D1 & D2 & D3 & D4). rewrite D1. split.
    + intros I. apply O1 in I. rewrite I. reflexivity.
    + intros I. destruct (ignoreNaN c) eqn:Ic; [exfalso; apply I, O1; auto|]. exists pt. split; auto. split; auto. split; [congruence|auto].
  - intros T Z1 Z2 Tq. apply divPoint_empty_num; auto.
Qed.
(* bins that differ: an error *)
Theorem C68_different_bins {V} (num den : @H1D V) os i p q :
  nth_error (bins (hbng num)) i = Some p -> nth_error (bins (hbng den)) i = Some q ->
  is_finite (xMin p) = true -> is_finite (xMin q) = true -> is_finite (xMax p) = true -> is_finite (xMax q) = true ->
  apart (xMin p) (xMin q) \/ apart (xMax p) (xMax q) -> DivideH1D num den (map dfun os) = Ok None.
Proof.
  intros H1 H2 A B C D E. unfold DivideH1D. rewrite (divLoop_err _ _ _ i p q H1 H2); [reflexivity|]. unfold eqv_edges.
  destruct E as [E|E]; [rewrite (fuzzyEq_apart (xMin p) (xMin q)) by auto; reflexivity|rewrite (fuzzyEq_apart (xMax p) (xMax q)) by auto; apply andb_false_r].
Qed.
(* a histogram divided by itself: 1 in every bin whose height is a number other than 0 *)
Theorem C68_self {V} (h : @H1D V) os : (forall b, In b (bins (hbng h)) -> edges_ok b) ->
  exists s ops, DivideH1D h h (map dfun os) = Ok (Some s) /\ pts s = concat (map opt2list ops) /\ length ops = length (bins (hbng h)) /\
    forall i b o, nth_error (bins (hbng h)) i = Some b -> nth_error ops i = Some o ->
      is_finite (fdiv (sumW b) (xWidth b)) = true -> B2R (fdiv (sumW b) (xWidth b)) <> 0 -> exists pt, o = Some pt /\ centred b pt /\ feq (PY pt) f1 = true.
Proof.
  intros E. set (bs := bins (hbng h)) in *. unfold DivideH1D. fold bs. set (c := fold_left (fun c o => o c) (map dfun os) cfg0).
  rewrite divLoop_ok; [|lia|]. 2:{ intros i p q H1 H2. assert (p = q) by congruence. subst q. destruct (E p (nth_error_In _ _ H1)) as (F1 & F2 & _). unfold eqv_edges. rewrite !fuzzyEq_refl by auto. reflexivity. }
  cbn [rbind]. eexists. exists (map (fun p => divPoint c (fst p) (snd p)) (combine bs bs)). split; [reflexivity|]. cbn [pts]. split; [rewrite map_map; reflexivity|].
  split; [rewrite map_length, combine_length; unfold F in *; lia|].
  intros i b o H1 H3 Fh NZ. assert (H4 : nth_error (combine bs bs) i = Some (b, b)).
  { apply nth_combine; auto. }
  rewrite (map_nth_error _ _ _ H4) in H3. cbn [fst snd] in H3. inversion H3; subst o. apply divPoint_self; auto. apply E. eapply nth_error_In; eauto.
Qed.

(* ==== C68: the scatter of a histogram ==== *)
Theorem C68_scatter {V} (str : list Z -> V) focus (h : @H1D V) : exists s, NewS2DFromH1D str focus h = Ok s /\
  length (pts s) = length (bins (hbng h)) /\
  (forall k, k <> keyType -> annGet (sann s) k = annGet (hann h) k) /\
  (annGet (sann s) keyType = match annGet (hann h) keyType with Some _ => Some (str scatter2D) | None => None end) /\
  (forall k v, exists a, annSet (sann s) k v = Ok a) /\
  forall i b p, nth_error (bins (hbng h)) i = Some b -> nth_error (pts s) i = Some p ->
    (edges_ok b -> focus = false -> centred b p) /\
    (tame b -> yspec (PY p) (height b) /\ rmin (ErrY p) = rmax (ErrY p) /\ yspec (rmin (ErrY p)) (sqrt (B2R (sumW2 b)) / (B2R (xMax b) - B2R (xMin b)))).
Proof.
  unfold NewS2DFromH1D. cbn [annGet annSet]. destruct (annGet (hann h) keyType) as [v|] eqn:K; cbn [rbind]; eexists; (split; [reflexivity|]); cbn [pts sann].
  1,2: split; [apply map_length|]; split; [intros k Hk; cbn [annGet]; try (destruct (list_eq_dec Z.eq_dec k keyType); [contradiction|]); reflexivity|];
    split; [cbn [annGet]; try (destruct (list_eq_dec Z.eq_dec keyType keyType); [|contradiction]); auto|];
    split; [intros k w; cbn [annSet]; eexists; reflexivity|]; intros i b p H1 H2; pose proof (map_nth_error (binPoint focus) _ _ H1) as H3;
    pose proof (eq_trans (eq_sym H2) H3) as H4; inversion H4; subst p; split; [intros E ->; apply binPoint_mid; auto|intros T; apply binPoint_y; auto].
Qed.
(* sorting points without NaN: the order of Less is strict, it tells points apart unless all their numbers are equal, and the sorted
   list does not depend on the order the points had, nor on the algorithm *)
Definition sorted_pts (l : list Point2D) : Prop := StronglySorted (fun a b => less b a = false) l.
Theorem C68_sort l ps ps' : Forall no_nan l -> Permutation l ps -> Permutation l ps' -> sorted_pts ps -> sorted_pts ps' -> map keys ps = map keys ps'.
Proof.
  intros F P P' S S'. assert (T : forall q, Permutation l q -> sorted_pts q -> StronglySorted (fun a b => lex b a = false) (map keys q)).
  { intros q Pq Sq. assert (Fq : Forall no_nan q) by (eapply Permutation_Forall; eauto). clear - Sq Fq. unfold sorted_pts in Sq. induction Sq as [|a q Sq IH A]; cbn [map]; constructor.
    - apply IH. inversion Fq; auto.
    - inversion Fq; subst. rewrite Forall_forall in *. intros k Hk. apply in_map_iff in Hk. destruct Hk as (b & <- & Hb). cbv beta. rewrite <- less_lex by (auto; apply H2; auto). apply A; auto. }
  apply sorted_unique; auto.
  - rewrite Forall_forall. intros k Hk. apply in_map_iff in Hk. destruct Hk as (b & <- & _). apply keys_length.
  - apply Permutation_map. eapply Permutation_trans; [apply Permutation_sym; exact P|exact P'].
Qed.
Theorem C68_less p q r : no_nan p -> no_nan q -> no_nan r ->
  less p p = false /\ (less p q = true -> less q p = false) /\ (less p q = true -> less q r = true -> less p r = true) /\
  (less p q = false -> less q p = false -> keys p = keys q).
Proof.
  intros Np Nq Nr. rewrite !less_lex by auto. split; [apply lex_irrefl|]. split; [|split].
  - intros H. destruct (lex (keys q) (keys p)) eqn:E; auto. pose proof (lex_trans _ _ _ H E) as X. rewrite lex_irrefl in X. discriminate.
  - apply lex_trans.
  - apply lex_total. rewrite !keys_length. reflexivity.
Qed.

(* ---- examples and what fails ---- *)
Definition dist (w w2 wx wx2 : f64) : Dist1D F := @Build_Dist1D F (@Build_Dist0D F 1%Z w w2) wx wx2.
Definition bin (a b w w2 : f64) : Bin := @Build_Bin1D F (rng a b) (dist w w2 fzero fzero).
Definition hist (bs : list Bin) : @H1D unit :=
  {| hbng := @Build_Binning1D F bs Dist1D_zero Dist1D_zero Dist1D_zero (rng fzero fzero); hann := Some (fun _ => None) |}.
Definition f10 := fofZ 10.
Lemma R_f1 : B2R f1 = 1. Proof. apply f1_R. Qed.
Lemma R_f2 : B2R f2 = 2. Proof. apply f2_R. Qed.
Lemma R_f4 : B2R f4 = 4.
Proof. rewrite <- SF2R_B2SF. replace (B2SF f4) with (SpecFloat.S754_finite false (2 ^ 52) (-50)) by (vm_compute; reflexivity). transitivity (b2 52 * b2 (-50)); [reflexivity|rewrite <- bpow_plus; cbn; lra]. Qed.
Lemma small_in r : 1 <= r <= 4 -> within r.
Proof.
  intros H. unfold within. rewrite Rabs_pos_eq by lra. assert (b2 (-150) <= b2 0) by (apply bpow_le; lia). assert (b2 2 <= b2 150) by (apply bpow_le; lia).
  change (b2 0) with 1 in *. change (b2 2) with 4 in *. lra.
Qed.
Lemma edges_12 w w2 : edges_ok (bin f1 f2 w w2).
Proof.
  repeat split; try reflexivity; cbn -[B2R bpow f1 f2]; unfold xMin, xMax; cbn -[B2R bpow f1 f2]; rewrite ?R_f1, ?R_f2; try lra;
    rewrite Rabs_pos_eq by lra; assert (H : b2 1 <= b2 1000) by (apply bpow_le; lia); change (b2 1) with 2 in H; lra.
Qed.
Lemma tame_12 w w2 : is_finite w = true -> is_finite w2 = true -> 1 <= B2R w <= 4 -> 1 <= B2R w2 <= 4 -> tame (bin f1 f2 w w2).
Proof.
  intros A B C D. split; [apply edges_12|]. unfold xMin, xMax, sumW, sumW2. cbn -[B2R bpow f1 f2 within]. rewrite R_f1, R_f2.
  split; [apply small_in; lra|]. split; auto. split; [apply small_in; auto|]. split; auto. split; [apply small_in; auto|lra].
Qed.
Example C68_example : tame (bin f1 f2 f4 f4) /\ tame (bin f1 f2 f2 f2) /\ height (bin f1 f2 f4 f4) / height (bin f1 f2 f2 f2) = 2 /\
  match DivideH1D (hist [bin f1 f2 f4 f4]) (hist [bin f1 f2 f2 f2]) (map dfun [OReplace f1]) with Ok (Some s) => map (fun p => fkey (PY p)) (pts s) = [fkey f2] | _ => False end.
Proof.
  split; [apply tame_12; try reflexivity; rewrite ?R_f4, ?R_f2; lra|]. split; [apply tame_12; try reflexivity; rewrite ?R_f4, ?R_f2; lra|].
  split; [unfold height, xMin, xMax, sumW; cbn -[B2R f1 f2 f4]; rewrite R_f1, R_f2, R_f4; field|]. vm_compute. reflexivity.
Qed.
Example C68_different_example : apart f1 f2.
Proof.
  unfold apart. rewrite R_f1, R_f2. rewrite !(Rabs_pos_eq _) by lra. rewrite Rmax_right by lra. replace (Rabs (1 - 2)) with 1 by (rewrite Rabs_left; lra).
  assert (H : b2 1 <= b2 1000) by (apply bpow_le; lia). change (b2 1) with 2 in H. lra.
Qed.
Example C68_self_example : is_finite (fdiv (sumW (bin f1 f2 f4 f4)) (xWidth (bin f1 f2 f4 f4))) = true /\ B2R (fdiv (sumW (bin f1 f2 f4 f4)) (xWidth (bin f1 f2 f4 f4))) <> 0.
Proof.
  assert (E : B2R (fdiv (sumW (bin f1 f2 f4 f4)) (xWidth (bin f1 f2 f4 f4))) = 4).
  { rewrite <- R_f4, <- !SF2R_B2SF. apply (f_equal (SF2R radix2)). vm_compute. reflexivity. }
  split; [vm_compute; reflexivity|]. rewrite E. lra.
Qed.
Definition pt0 (x y : f64) : Point2D := {| PX := x; PY := y; ErrX := rng fzero fzero; ErrY := rng fzero fzero |}.
Example C68_sort_example : Forall no_nan [pt0 f2 f1; pt0 f1 f2] /\ sorted_pts [pt0 f1 f2; pt0 f2 f1].
Proof.
  split; [repeat constructor; intros H; vm_compute in H; intuition discriminate|]. repeat constructor.
Qed.

Definition okd (r : res (option (@S2D unit))) (f : list Point2D -> bool) : bool := match r with Ok (Some s) => f (pts s) | _ => false end.
Lemma okd_true r f : okd r f = true -> exists s, r = Ok (Some s) /\ f (pts s) = true.
Proof. destruct r as [[s|]|]; cbn; intros H; try discriminate. eauto. Qed.
Definition one_pt (f : Point2D -> bool) (l : list Point2D) : bool := match l with [p] => f p | _ => false end.
Lemma one_pt_true f l : one_pt f l = true -> exists p, l = [p] /\ f p = true.
Proof. destruct l as [|p [|]]; cbn; intros H; try discriminate. eauto. Qed.
Ltac odiv n d o f := let K := fresh "K" in assert (K : okd (DivideH1D n d o) f = true) by (vm_compute; reflexivity); apply okd_true in K; let s := fresh "s" in let E := fresh "E" in destruct K as (s & E & K).
(* the histogram of the denominator has fewer bins: a panic, not an error *)
Theorem C68_fewer_bins_refuted : exists num den, edges_ok (bin f1 f2 f4 f4) /\ bins (hbng num) = [bin f1 f2 f4 f4; bin f2 f4 f4 f4] /\ bins (hbng den) = [bin f1 f2 f4 f4] /\
  DivideH1D (V := unit) num den [] = Panic.
Proof. exists (hist [bin f1 f2 f4 f4; bin f2 f4 f4 f4]), (hist [bin f1 f2 f4 f4]). split; [apply edges_12|]. split; [reflexivity|]. split; [reflexivity|]. vm_compute. reflexivity. Qed.
(* it has more bins: they are dropped without an error *)
Theorem C68_more_bins_refuted : exists num den s, bins (hbng num) = [bin f1 f2 f4 f4] /\ bins (hbng den) = [bin f1 f2 f4 f4; bin f2 f4 f4 f4] /\
  DivideH1D (V := unit) num den [] = Ok (Some s) /\ length (pts s) = 1%nat.
Proof.
  odiv (hist [bin f1 f2 f4 f4]) (hist [bin f1 f2 f4 f4; bin f2 f4 f4 f4]) (@nil (cfg -> cfg)) (one_pt (fun _ => true)). apply one_pt_true in K. destruct K as (p & L & _). exists (hist [bin f1 f2 f4 f4]), (hist [bin f1 f2 f4 f4; bin f2 f4 f4 f4]), s. split; [reflexivity|]. split; [reflexivity|]. split; [exact E|]. rewrite L. reflexivity.
Qed.
(* edges below 1e-8 are all the same: [0, 1e-9) and [0, 5e-9) are taken for the same bin *)
Definition nano : f64 := fdiv f1 (fofZ 1000000000).
Definition nano5 : f64 := fdiv (fofZ 5) (fofZ 1000000000).
Theorem C68_small_edges_refuted : exists num den s, bins (hbng num) = [bin fzero nano f1 f1] /\ bins (hbng den) = [bin fzero nano5 f1 f1] /\ flt nano nano5 = true /\
  DivideH1D (V := unit) num den [] = Ok (Some s) /\ length (pts s) = 1%nat.
Proof.
  odiv (hist [bin fzero nano f1 f1]) (hist [bin fzero nano5 f1 f1]) (@nil (cfg -> cfg)) (one_pt (fun _ => true)). apply one_pt_true in K. destruct K as (p & L & _). exists (hist [bin fzero nano f1 f1]), (hist [bin fzero nano5 f1 f1]), s. split; [reflexivity|]. split; [reflexivity|]. split; [vm_compute; reflexivity|]. split; [exact E|]. rewrite L. reflexivity.
Qed.
(* DivIgnoreNaNs leaves a NaN in: a bin whose sum of weights is NaN *)
Theorem C68_ignore_nan_refuted : exists num den s p, DivideH1D (V := unit) num den (map dfun [OIgnore]) = Ok (Some s) /\ nth_error (pts s) 0 = Some p /\ is_nan (PY p) = true.
Proof.
  odiv (hist [bin f1 f2 fnan f1]) (hist [bin f1 f2 f1 f1]) (map dfun [OIgnore]) (one_pt (fun p => is_nan (PY p))). apply one_pt_true in K. destruct K as (p & L & K). exists (hist [bin f1 f2 fnan f1]), (hist [bin f1 f2 f1 f1]), s, p. split; [exact E|]. rewrite L. auto.
Qed.
(* and drops a ratio that is a number: 0, for weights +1 and -1 *)
Theorem C68_ignore_drops_refuted : exists num den s, bins (hbng num) = [bin f1 f2 fzero f2] /\ bins (hbng den) = [bin f1 f2 f1 f1] /\
  DivideH1D (V := unit) num den (map dfun [OIgnore]) = Ok (Some s) /\ pts s = [].
Proof.
  odiv (hist [bin f1 f2 fzero f2]) (hist [bin f1 f2 f1 f1]) (map dfun [OIgnore]) (fun l : list Point2D => match l with [] => true | _ => false end). exists (hist [bin f1 f2 fzero f2]), (hist [bin f1 f2 f1 f1]), s. split; [reflexivity|]. split; [reflexivity|]. split; [exact E|]. destruct (pts s); [reflexivity|discriminate].
Qed.
(* a negative ratio has a negative error, and YMin is above YMax *)
Theorem C68_negative_error_refuted : exists num den s p, DivideH1D (V := unit) num den [] = Ok (Some s) /\ nth_error (pts s) 0 = Some p /\
  flt (rmin (ErrY p)) fzero = true /\ flt (ptYMax p) (ptYMin p) = true.
Proof.
  odiv (hist [bin f1 f2 fm1 f1]) (hist [bin f1 f2 f1 f1]) (@nil (cfg -> cfg)) (one_pt (fun p => flt (rmin (ErrY p)) fzero && flt (ptYMax p) (ptYMin p))). apply one_pt_true in K. destruct K as (p & L & K). apply andb_true_iff in K. exists (hist [bin f1 f2 fm1 f1]), (hist [bin f1 f2 f1 f1]), s, p. split; [exact E|]. rewrite L. split; [reflexivity|]. exact K.
Qed.
(* the result has no map of annotations: giving it a name panics *)
Theorem C68_result_annotation_refuted : forall num den opts s k v, DivideH1D (V := unit) num den opts = Ok (Some s) -> annSet (sann s) k v = Panic.
Proof.
  intros num den opts s k v H. unfold DivideH1D in H. destruct (divLoop _ _ _) as [[ps|]|]; cbn in H; try discriminate. inversion H; subst s. reflexivity.
Qed.
(* with the mean as the position (weights of both signs), the point is outside of its bin, with a negative error *)
Theorem C68_focus_refuted : exists b, flt (PX (binPoint true b)) (xMin b) = true /\ flt (rmin (ErrX (binPoint true b))) fzero = true.
Proof.
  exists (@Build_Bin1D F (rng f1 f2) (dist f1 f4 fm1 f1)). split; vm_compute; reflexivity.
Qed.
(* points with NaN: Less calls every pair with a NaN in x equal, so a sorted list is any list *)
Theorem C68_sort_nan_refuted : exists p q r, sorted_pts [p; q] /\ sorted_pts [q; r] /\ less r p = true.
Proof. exists (pt0 f2 f1), (pt0 fnan f1), (pt0 f1 f1). repeat split; repeat constructor. Qed.

(* ==== C69: Rand1D ==== *)
(* y is the number gonum draws: k/2^53 with 0 <= k < 2^53. With the weights of the bins (numbers >= 0) the sample is in a bin with weight > 0:
   the shares of the bins before it and up to it enclose y, and the position in it is found by interpolation, from the lower edge on,
   over the width of the bin that follows (over its own for the last one) *)
Theorem C69_sample bs y : source bs -> is_finite y = true -> 0 <= B2R y < 1 -> B2R y = 0 \/ b2 (-53) <= B2R y ->
  exists d x, NewRand1D bs = Ok d /\ Rand d y = Ok x /\
  ((exists i b c0 c1 W, nth_error bs i = Some b /\ 0 < B2R (sumW b) /\ stride bs i W /\
      Rabs (B2R c0 - share bs i) <= b2 (-51) /\ Rabs (B2R c1 - share bs (S i)) <= b2 (-51) /\ B2R c0 <= B2R y < B2R c1 /\
      nth_error (cdf d) i = Some c0 /\ nth_error (cdf d) (S i) = Some c1 /\
      is_finite x = true /\ B2R (xMin b) <= B2R x /\
      Rabs (B2R x - (B2R (xMin b) + W * ((B2R y - B2R c0) / (B2R c1 - B2R c0)))) <= b2 (-50) * (Rabs (B2R (xMin b)) + W) + b2 (-900)) \/
   (B2R y = 1 - b2 (-53) /\ exists b, nth_error bs (length bs - 1) = Some b /\ x = xMax b)).
Proof.
  intros OK Fy Y1 Y2. destruct (NewRand1D_ok bs (proj1 OK)) as [d D]. exists d.
  destruct (search_is bs (W1 bs OK) (FS1 bs OK) (RS1 bs OK) d y D Fy ltac:(lra)) as (S1 & _). destruct (Nat.eq_dec (search d y) (length bs)) as [E|E].
  - destruct (Rand_last bs OK d y D Fy Y1 E) as (A & b & B & C). exists (xMax b). split; auto. split; auto. right. split; [exact A|]. exists b. split; auto.
  - destruct (Rand_bin bs OK d y D Fy Y1 Y2 ltac:(lia)) as (b & c0 & c1 & W & x & R1 & R2 & R3 & R4 & R5 & R6 & R7 & R8 & R9 & R10). exists x. split; auto. split; auto. left.
    exists (search d y), b, c0, c1, W. destruct (cdf_share bs OK d _ _ D R5) as (_ & _ & _ & Q1). destruct (cdf_share bs OK d _ _ D R6) as (_ & _ & _ & Q2).
    repeat (split; auto).
Qed.
(* with bins of one width, the sample is in its bin (up to rounding at the upper edge) *)
Theorem C69_sample_in_bin bs y : source bs -> is_finite y = true -> 0 <= B2R y < 1 -> B2R y = 0 \/ b2 (-53) <= B2R y ->
  (forall i b b', nth_error bs i = Some b -> nth_error bs (S i) = Some b' -> wid b' <= wid b) ->
  exists d x, NewRand1D bs = Ok d /\ Rand d y = Ok x /\ exists i b, nth_error bs i = Some b /\
    B2R (xMin b) <= B2R x <= B2R (xMax b) + b2 (-48) * (Rabs (B2R (xMin b)) + Rabs (B2R (xMax b))) + b2 (-900) /\
    share bs i - b2 (-51) <= B2R y <= share bs (S i) + b2 (-51).
Proof.
  intros OK Fy Y1 Y2 EQ. destruct (C69_sample bs y OK Fy Y1 Y2) as (d & x & D & R & H). exists d, x. split; auto. split; auto. pose proof u_small as U.
  assert (B48 : b2 (-48) = 32 * u). { change (-48)%Z with (5 + -53)%Z. rewrite bpow_plus. reflexivity. }
  assert (B50 : b2 (-50) = 8 * u). { change (-50)%Z with (3 + -53)%Z. rewrite bpow_plus. reflexivity. }
  assert (B51 : b2 (-51) = 4 * u). { change (-51)%Z with (2 + -53)%Z. rewrite bpow_plus. reflexivity. }
  pose proof (bpow_gt_0 radix2 (-900)) as P9.
  destruct H as [(i & b & c0 & c1 & W & H1 & H2 & H3 & H4 & H5 & H6 & _ & _ & H7 & H8 & H9)|(Ye & b & H1 & ->)].
  - exists i, b. split; auto. destruct (E1 bs OK b (nth_error_In _ _ H1)) as (e1 & e2 & e3 & _). apply ab in H4. apply ab in H5. split; [|lra]. split; auto.
    assert (A0 : 0 <= Rabs (B2R (xMin b))) by apply Rabs_pos. assert (A1 : 0 <= Rabs (B2R (xMax b))) by apply Rabs_pos.
    assert (Wa : wid b <= Rabs (B2R (xMin b)) + Rabs (B2R (xMax b))). { unfold wid. pose proof (Rle_abs (B2R (xMax b))). pose proof (Rle_abs (- B2R (xMin b))). rewrite Rabs_Ropp in *. lra. }
    set (am := Rabs (B2R (xMin b))) in *. set (aM := Rabs (B2R (xMax b))) in *.
    assert (HW : W <= wid b + b2 (-50) * (am + aM)).
    { assert (0 <= b2 (-50) * (am + aM)) by (apply Rmult_le_pos; [apply bpow_ge_0|lra]). destruct H3 as [(b' & N & ->)|(_ & N)]; [pose proof (EQ i b b' H1 N); lra|].
      specialize (N b H1). apply ab in N. fold am aM in N. lra. }
    set (t := (B2R y - B2R c0) / (B2R c1 - B2R c0)) in *.
    assert (T : 0 <= t <= 1). { unfold t. split; [apply Rmult_le_pos; [lra|apply Rlt_le, Rinv_0_lt_compat; lra]|]. apply Rmult_le_reg_r with (B2R c1 - B2R c0); [lra|]. unfold Rdiv. rewrite Rmult_assoc, Rinv_l by lra. lra. }
    assert (X0 : 0 < wid b) by (unfold wid; lra). set (v := wid b + b2 (-50) * (am + aM)) in *.
    assert (V0 : 0 <= v) by (unfold v; assert (0 <= b2 (-50) * (am + aM)) by (apply Rmult_le_pos; [apply bpow_ge_0|lra]); lra).
    assert (WT : W * t <= v). { destruct (Rle_or_lt 0 W) as [P|P]; [clear - P T HW; nra|clear - P T V0; nra]. }
    assert (UW : u * W <= u * v) by (apply Rmult_le_compat_l; lra). assert (UV : u * v <= u * (2 * (am + aM))).
    { apply Rmult_le_compat_l; [lra|]. unfold v. rewrite B50. assert (8 * u * (am + aM) <= 1 * (am + aM)) by (apply Rmult_le_compat_r; lra). lra. }
    apply ab in H9. rewrite B50 in H9. rewrite B48. unfold v, wid in WT. rewrite B50 in WT. assert (0 <= u * aM) by (apply Rmult_le_pos; lra). assert (0 <= u * am) by (apply Rmult_le_pos; lra). lra.
  - exists (length bs - 1)%nat, b. split; auto. destruct (E1 bs OK b (nth_error_In _ _ H1)) as (e1 & e2 & e3 & _). split.
    + split; [lra|]. assert (0 <= b2 (-48) * (Rabs (B2R (xMin b)) + Rabs (B2R (xMax b)))). { apply Rmult_le_pos; [apply bpow_ge_0|]. pose proof (Rabs_pos (B2R (xMin b))). pose proof (Rabs_pos (B2R (xMax b))). lra. } lra.
    + assert (L : (0 < length bs)%nat) by (destruct bs; [destruct OK as [[] _]; auto|cbn; lia]). change (b2 (-53)) with u in Ye. rewrite Ye, B51. split.
      * destruct (cdf_is bs d D) as (LC & C & _). assert (Q : nth_error (cdf d) (length bs - 1) <> None) by (apply nth_error_Some; rewrite LC; lia).
        destruct (nth_error (cdf d) (length bs - 1)) as [ci|] eqn:Ec; [|congruence].
        pose proof (tn_R bs (W1 bs OK) (FS1 bs OK) (RS1 bs OK) (length bs - 1) ltac:(lia)) as (_ & _ & _ & Q1). fold (share bs (length bs - 1)) in Q1. lra.
      * replace (S (length bs - 1)) with (length bs) by lia. unfold share. rewrite firstn_all. pose proof (S_pos bs (RS1 bs OK)). replace (B2R (total bs) / B2R (total bs)) with 1 by (field; lra). lra.
Qed.
(* CDF: in a bin, the share of the bins before it; 0 below the bins; 1 (up to rounding) from the last edge on, and for NaN *)
Theorem C69_cdf bs x : source bs -> wf_bins (N := F) (map brange bs) -> exists d, NewRand1D bs = Ok d /\
  (forall i b, nth_error bs i = Some b -> fle (xMin b) x = true -> flt x (xMax b) = true ->
     exists c, CDF d x = Ok c /\ nth_error (cdf d) i = Some c /\ is_finite c = true /\ 0 <= B2R c <= 1 /\ Rabs (B2R c - share bs i) <= b2 (-51)) /\
  (forall b, nth_error bs 0 = Some b -> flt x (xMin b) = true -> CDF d x = Ok fzero) /\
  (forall b, nth_error bs (length bs - 1) = Some b -> fle (xMax b) x = true -> exists c, CDF d x = Ok c /\ is_finite c = true /\ 1 - b2 (-51) <= B2R c <= 1) /\
  (is_nan x = true -> CDF d x = Ok f1).
Proof.
  intros OK WF. destruct (NewRand1D_ok bs (proj1 OK)) as [d D]. exists d. split; auto. destruct (CDF_ok bs OK d x D WF) as (A & B & C & E & _).
  split; [|split; [|split]]; auto.
  - intros i b H1 H2 H3. destruct (A i b H1 H2 H3) as (c & Hc & Hn). exists c. split; auto. split; auto. destruct (cdf_share bs OK d i c D Hn) as (_ & Q1 & Q2 & Q3). auto.
  - intros b H1 H2. destruct (C b H1 H2) as (c & Hc & [->|Hn]); [exists f1|exists c]; (split; [auto|]).
    + split; [reflexivity|]. rewrite R_f1. pose proof (bpow_gt_0 radix2 (-51)). lra.
    + destruct (cdf_share bs OK d _ c D Hn) as (_ & Q1 & Q2 & Q3). split; auto. split; [|lra]. unfold share in Q3. rewrite firstn_all in Q3. pose proof (S_pos bs (RS1 bs OK)).
      replace (B2R (total bs) / B2R (total bs)) with 1 in Q3 by (field; lra). apply ab in Q3. lra.
Qed.
(* it does not decrease from one bin to a later one *)
Theorem C69_cdf_mono bs d i j p q x x' v v' : source bs -> wf_bins (N := F) (map brange bs) -> NewRand1D bs = Ok d -> (i <= j)%nat ->
  nth_error bs i = Some p -> nth_error bs j = Some q -> fle (xMin p) x = true -> flt x (xMax p) = true -> fle (xMin q) x' = true -> flt x' (xMax q) = true ->
  CDF d x = Ok v -> CDF d x' = Ok v' -> B2R v <= B2R v'.
Proof.
  intros OK WF D H P Q X1 X2 X3 X4 V V'. destruct (CDF_ok bs OK d x D WF) as (A & _). destruct (CDF_ok bs OK d x' D WF) as (A' & _).
  destruct (A i p P X1 X2) as (c & Hc & Hn). destruct (A' j q Q X3 X4) as (c' & Hc' & Hn'). assert (c = v) by congruence. assert (c' = v') by congruence. subst.
  eapply cdf_mono; eauto.
Qed.

(* ---- an example ---- *)
Definition two : list Bin := [bin f1 f2 f1 f1; bin f2 f4 f1 f1].
Lemma tot_two : B2R (total two) = 2.
Proof. rewrite <- R_f2, <- !SF2R_B2SF. apply (f_equal (SF2R radix2)). vm_compute. reflexivity. Qed.
Lemma big900 : 4 <= b2 900. Proof. change 4 with (b2 2). apply bpow_le. lia. Qed.
Example C69_example : source two /\ wf_bins (N := F) (map brange two) /\ wid (bin f1 f2 f1 f1) = 1 /\ share two 1 = / 2.
Proof.
  split; [|split; [|split]].
  - split; [discriminate|]. split; [|split].
    + pose proof big900. intros b [<-|[<-|[]]]; split; [|split| |split]; unfold wok, xMin, xMax, sumW; cbn -[B2R bpow f1 f2 f4]; rewrite ?R_f1, ?R_f2, ?R_f4; repeat split; try reflexivity; rewrite ?Rabs_pos_eq; lra.
    + vm_compute. reflexivity.
    + rewrite tot_two. assert (b2 (-1000) <= b2 0) by (apply bpow_le; lia). assert (b2 1 <= b2 1000) by (apply bpow_le; lia). change (b2 0) with 1 in *. change (b2 1) with 2 in *. lra.
  - split; [discriminate|]. split.
    + intros r [<-|[<-|[]]]; vm_compute; reflexivity.
    + intros [|[|[|i]]] r1 r2 H1 H2; cbn in H1, H2; try discriminate. inversion H1; inversion H2; subst. vm_compute. reflexivity.
  - unfold wid, xMin, xMax. cbn -[B2R f1 f2]. rewrite R_f1, R_f2. lra.
  - unfold share. rewrite tot_two. replace (B2R (total (firstn 1 two))) with 1; [lra|]. rewrite <- R_f1, <- !SF2R_B2SF. apply (f_equal (SF2R radix2)). vm_compute. reflexivity.
Qed.

(* ---- what fails ---- *)
Definition p04 : f64 := fdiv f2 (fofZ 5).
Definition uneven : list Bin := [bin fzero f1 f1 f1; bin f1 f10 f1 f1].
Definition okb {A} (r : res A) (f : A -> bool) : bool := match r with Ok a => f a | Panic => false end.
(* bins of several widths: y = 0.4 is in the first half, that is in the bin [0, 1), and the sample is beyond 7 *)
Theorem C69_width_refuted : exists bs y d x b, nth_error bs 0 = Some b /\ flt y (fdiv (sumW b) (total bs)) = true /\ NewRand1D bs = Ok d /\ Rand d y = Ok x /\
  fle (fofZ 7) x = true /\ flt (xMax b) x = true.
Proof.
  assert (K : okb (NewRand1D uneven) (fun d => okb (Rand d p04) (fun x => fle (fofZ 7) x && flt f1 x)) = true) by (vm_compute; reflexivity).
  destruct (NewRand1D uneven) as [d|] eqn:D; [|discriminate]. cbn [okb] in K. destruct (Rand d p04) as [x|] eqn:X; [|discriminate]. cbn [okb] in K. apply andb_true_iff in K.
  exists uneven, p04, d, x, (bin fzero f1 f1 f1). split; [reflexivity|]. split; [vm_compute; reflexivity|]. split; [exact D|]. split; [exact X|]. exact K.
Qed.
(* even into a bin without entries *)
Definition uneven0 : list Bin := [bin fzero f1 f1 f1; bin f1 f10 fzero fzero].
Theorem C69_empty_bin_refuted : exists bs y d x b, nth_error bs 1 = Some b /\ feq (sumW b) fzero = true /\ NewRand1D bs = Ok d /\ Rand d y = Ok x /\
  fle (xMin b) x = true /\ flt x (xMax b) = true.
Proof.
  assert (K : okb (NewRand1D uneven0) (fun d => okb (Rand d p04) (fun x => fle f1 x && flt x f10)) = true) by (vm_compute; reflexivity).
  destruct (NewRand1D uneven0) as [d|] eqn:D; [|discriminate]. cbn [okb] in K. destruct (Rand d p04) as [x|] eqn:X; [|discriminate]. cbn [okb] in K. apply andb_true_iff in K.
  exists uneven0, p04, d, x, (bin f1 f10 fzero fzero). split; [reflexivity|]. split; [vm_compute; reflexivity|]. split; [exact D|]. split; [exact X|]. exact K.
Qed.
(* CDF panics for every x in a gap between the bins *)
Theorem C69_gap_panics bs x : source bs -> wf_bins (N := F) (map brange bs) ->
  (forall b, nth_error bs 0 = Some b -> fle (xMin b) x = true) -> (forall b, nth_error bs (length bs - 1) = Some b -> flt x (xMax b) = true) ->
  (forall b, In b bs -> fle (xMin b) x = true -> flt x (xMax b) = true -> False) -> exists d, NewRand1D bs = Ok d /\ CDF d x = Panic.
Proof. intros OK WF A B G. destruct (NewRand1D_ok bs (proj1 OK)) as [d D]. exists d. split; auto. apply (CDF_ok bs OK d x D WF); auto. Qed.
Definition gapped : list Bin := [bin f1 f2 f1 f1; bin f4 f10 f1 f1].
Theorem C69_gap_refuted : exists bs x d, bs = gapped /\ wf_bins (N := F) (map brange bs) /\ flt f2 x = true /\ flt x f4 = true /\ NewRand1D bs = Ok d /\ CDF d x = Panic.
Proof.
  assert (K : okb (NewRand1D gapped) (fun d => match CDF d f3 with Panic => true | _ => false end) = true) by (vm_compute; reflexivity).
  destruct (NewRand1D gapped) as [d|] eqn:D; [|discriminate]. cbn [okb] in K. exists gapped, f3, d. split; [reflexivity|]. split.
  - split; [discriminate|]. split.
    + intros r [<-|[<-|[]]]; vm_compute; reflexivity.
    + intros [|[|[|i]]] r1 r2 H1 H2; cbn in H1, H2; try discriminate. inversion H1; inversion H2; subst. vm_compute. reflexivity.
  - split; [vm_compute; reflexivity|]. split; [vm_compute; reflexivity|]. split; [exact D|]. destruct (CDF d f3); [discriminate|reflexivity].
Qed.
(* it is constant over a bin: with one bin, half of the samples are below the middle, where CDF is 0 *)
Theorem C69_cdf_flat_refuted : exists bs x d, NewRand1D bs = Ok d /\ bs = [bin f1 f2 f1 f1] /\ feq x f1_5 = true /\ CDF d x = Ok fzero /\
  exists v, Rand d half = Ok v /\ feq v f1_5 = true.
Proof.
  set (bs := [bin f1 f2 f1 f1]). assert (K : okb (NewRand1D bs) (fun d => okb (CDF d f1_5) (fun c => match c with B754_zero false => true | _ => false end) && okb (Rand d half) (fun v => feq v f1_5)) = true) by (vm_compute; reflexivity).
  destruct (NewRand1D bs) as [d|] eqn:D; [|discriminate]. cbn [okb] in K. apply andb_true_iff in K. destruct K as [K1 K2]. exists bs, f1_5, d. split; auto. split; auto. split; [vm_compute; reflexivity|].
  destruct (CDF d f1_5) as [c|]; [|discriminate]. cbn [okb] in K1. split; [destruct c as [[]| | |]; try discriminate; reflexivity|].
  destruct (Rand d half) as [v|]; [|discriminate]. eauto.
Qed.
(* a histogram without entries: every sample is the last edge *)
Theorem C69_empty_refuted : exists bs y d x, NewRand1D bs = Ok d /\ bs = [bin f1 f2 fzero fzero] /\ feq y fzero = true /\ Rand d y = Ok x /\ feq x f2 = true.
Proof.
  set (bs := [bin f1 f2 fzero fzero]). assert (K : okb (NewRand1D bs) (fun d => okb (Rand d fzero) (fun v => feq v f2)) = true) by (vm_compute; reflexivity).
  destruct (NewRand1D bs) as [d|] eqn:D; [|discriminate]. cbn [okb] in K. destruct (Rand d fzero) as [x|] eqn:X; [|discriminate]. exists bs, fzero, d, x. repeat split; auto.
Qed.
(* without bins: a panic *)
Theorem C69_no_bins_refuted : NewRand1D [] = Panic. Proof. reflexivity. Qed.

Print Assumptions C68_divide.
Print Assumptions C68_different_bins.
Print Assumptions C68_self.
Print Assumptions C68_scatter.
Print Assumptions C68_sort.
Print Assumptions C68_less.
Print Assumptions C69_sample.
Print Assumptions C69_sample_in_bin.
Print Assumptions C69_cdf.
Print Assumptions C69_cdf_mono.
Print Assumptions C69_gap_panics.
