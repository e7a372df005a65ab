(* C01-C06: histogram properties. Comparisons are IEEE binary64; the additions and
   multiplications of C01-C03 and C06 are arbitrary functions, so the statements hold
   bit for bit whatever the rounding. C04 and C05 are about exact arithmetic. *)
From Coq Require Import ZArith List Bool Arith Lia Ring_theory Permutation.
From Verif Require Import GoLib F64 HbookModel HbookSpec HbookProofs HbookProofs2 HbookProofs3.
Import ListNotations.

Section Float.
Variables add mul : f64 -> f64 -> f64.
Local Notation F := (f64num add mul).

(* ---------------------------------------------------------------- C01 *)
(* every value (NaN and infinities included) belongs to exactly one place *)
Theorem C01_exactly_one_place (rs : list (Range F)) xr (x : F) :
  wf_bins rs -> hull rs xr -> exists p, belongs rs xr x p /\ forall q, belongs rs xr x q -> q = p.
Proof.
  intros W H. destruct (IndexOf_belongs (f64_ord add mul) rs xr x W H) as (p & Hp & _).
  exists p. split; auto. intros q Hq. eapply (belongs_unique (f64_ord add mul)); eauto.
Qed.

(* Fill never panics, counts the entry in the total and in the place it belongs to, and
   changes nothing else *)
Theorem C01_fill (b : Binning1D F) (x w : F) p :
  wf_bins (map brange (bins b)) -> hull (map brange (bins b)) (xrange b) ->
  belongs (map brange (bins b)) (xrange b) x p ->
  exists b', fill b x w = Ok b' /\
    map brange (bins b') = map brange (bins b) /\ xrange b' = xrange b /\
    bdist_tot b' = Dist1D_fill (bdist_tot b) x w /\
    (p = PUnder -> under b' = Dist1D_fill (under b) x w) /\ (p <> PUnder -> under b' = under b) /\
    (p = POver -> over b' = Dist1D_fill (over b) x w) /\ (p <> POver -> over b' = over b) /\
    (forall i bn, nth_error (bins b) i = Some bn -> exists bn', nth_error (bins b') i = Some bn' /\
        (p = PBin i -> bdist bn' = Dist1D_fill (bdist bn) x w) /\
        (p <> PBin i -> bdist bn' = bdist bn)).
Proof.
  intros W H Hp. pose proof (fill_spec b x w) as FS. cbn zeta in FS.
  destruct FS as (b' & E & [S1 S2] & T & U & O & B).
  exists b'. split; auto. split; auto. split; auto. split; auto.
  assert (Hlt : forall i, p = PBin i -> i < length (map brange (bins b))).
  { intros i ->. destruct Hp as (r & Hr & _). apply nth_error_Some. congruence. }
  assert (I := proj2 (coordToIndex_iff (f64_ord add mul) b x p W H Hlt) Hp).
  rewrite I in U, O, B.
  assert (Hc : forall q, (forall i, q = PBin i -> i < length (map brange (bins b))) ->
     (code (length (map brange (bins b))) p =? code (length (map brange (bins b))) q)%Z = true <-> p = q).
  { intros q Hq. rewrite Z.eqb_eq. split; [apply code_inj; auto|congruence]. }
  assert (HU := Hc PUnder ltac:(discriminate)). assert (HO := Hc POver ltac:(discriminate)).
  cbn [code] in HU, HO.
  split; [intros Q; apply HU in Q; rewrite Q in U; auto|].
  split; [intros Q; destruct (_ =? -1)%Z eqn:E1 in U; auto; rewrite <- HU in Q; congruence|].
  split; [intros Q; apply HO in Q; rewrite Q in O; auto|].
  split; [intros Q; destruct (_ =? -2)%Z eqn:E1 in O; auto; rewrite <- HO in Q; congruence|].
  intros i bn Hi. specialize (B i). rewrite Hi in B. cbn [option_map] in B.
  assert (Hil : i < length (bins b)) by (apply nth_error_Some; congruence).
  assert (HB := Hc (PBin i) ltac:(intros j Ej; injection Ej as <-; rewrite map_length; auto)).
  cbn [code] in HB.
  destruct (_ =? Z.of_nat i)%Z eqn:E1 in B.
  - eexists. split; [exact B|]. split; auto. intros Q. elim Q. apply HB. auto.
  - eexists. split; [exact B|]. split; auto. intros Q. apply HB in Q. congruence.
Qed.

(* Bin(x) returns the bin containing x, nil when x is in an outflow *)
Theorem C01_Bin (b : Binning1D F) (x : F) p :
  wf_bins (map brange (bins b)) -> hull (map brange (bins b)) (xrange b) ->
  belongs (map brange (bins b)) (xrange b) x p ->
  match p with
  | PBin i => h1d_Bin b x = Ok (Some i)
  | PUnder | POver => h1d_Bin b x = Ok None
  | PGap => h1d_Bin b x = Panic
  end.
Proof.
  intros W H Hp.
  assert (Hlt : forall i, p = PBin i -> i < length (map brange (bins b))).
  { intros i ->. destruct Hp as (r & Hr & _). apply nth_error_Some. congruence. }
  assert (I := proj2 (coordToIndex_iff (f64_ord add mul) b x p W H Hlt) Hp).
  unfold h1d_Bin. rewrite I. rewrite map_length in *. destruct p; cbn [code]; auto.
  - destruct (Z.ltb_spec (Z.of_nat i) 0); [lia|]. rewrite Nat2Z.id.
    destruct (Nat.ltb_spec i (length (bins b))); auto. specialize (Hlt i eq_refl). lia.
  - destruct (Z.ltb_spec (Z.of_nat (length (bins b))) 0); [lia|]. rewrite Nat2Z.id.
    rewrite Nat.ltb_irrefl. auto.
Qed.

(* ---------------------------------------------------------------- C02 *)
Definition underb (xr : Range F) (x : F) : bool := flt x (rmin xr).
Definition overb (xr : Range F) (x : F) : bool := is_nanb x || fle (rmax xr) x.
Definition gapb (rs : list (Range F)) (xr : Range F) (x : F) : bool :=
  negb (underb xr x) && negb (overb xr x) && negb (existsb (fun r => containsb r x) rs).

Theorem C02_fill_history (rs : list (Range F)) xr (hs : list (F * F)) :
  wf_bins rs -> hull rs xr ->
  exists b, fill_all (empty_binning rs xr) hs = Ok b /\
    map brange (bins b) = rs /\ xrange b = xr /\
    bdist_tot b = stats1 hs /\
    under b = stats1 (filter (fun h => underb xr (fst h)) hs) /\
    over b = stats1 (filter (fun h => overb xr (fst h)) hs) /\
    (forall i r, nth_error rs i = Some r -> exists bn, nth_error (bins b) i = Some bn /\
        bdist bn = stats1 (filter (fun h => containsb r (fst h)) hs)) /\
    total_entries b = Z.of_nat (length hs) /\
    total_entries b = (bins_entries b + under_entries b + over_entries b
                       + Z.of_nat (length (filter (fun h => gapb rs xr (fst h)) hs)))%Z.
Proof.
  intros W H. set (e := empty_binning rs xr).
  destruct (fill_all_spec e hs) as (b & E & [S1 S2] & T & U & O & B).
  assert (Er : map brange (bins e) = rs).
  { unfold e. cbn. rewrite map_map. apply map_id. }
  assert (Ex : xrange e = xr) by reflexivity.
  pose proof (coordToIndex_iff (f64_ord add mul) e) as IFF. cbn zeta in IFF.
  rewrite Er, Ex in IFF.
  assert (FU : forall h : F * F, (coordToIndex e (fst h) =? -1)%Z = underb xr (fst h)).
  { intros h. apply eq_true_iff_eq. rewrite Z.eqb_eq.
    apply (IFF (fst h) PUnder W H). discriminate. }
  assert (FO : forall h : F * F, (coordToIndex e (fst h) =? -2)%Z = overb xr (fst h)).
  { intros h. apply eq_true_iff_eq. rewrite Z.eqb_eq. unfold overb. rewrite orb_true_iff.
    apply (IFF (fst h) POver W H). discriminate. }
  assert (FB : forall i r, nth_error rs i = Some r -> forall h : F * F,
     (coordToIndex e (fst h) =? Z.of_nat i)%Z = containsb r (fst h)).
  { intros i r Hr h. apply eq_true_iff_eq. rewrite Z.eqb_eq, containsb_iff.
    assert (i < length rs) by (apply nth_error_Some; congruence).
    rewrite (IFF (fst h) (PBin i) W H) by (intros j Ej; injection Ej as <-; auto).
    cbn. split.
    - intros (r' & Hr' & C). congruence.
    - intros C. exists r. auto. }
  assert (FG : forall h : F * F, (coordToIndex e (fst h) =? Z.of_nat (length rs))%Z = gapb rs xr (fst h)).
  { intros h. unfold gapb. rewrite <- FU, <- FO.
    destruct (coordToIndex_belongs (f64_ord add mul) e (fst h)) as (p & Hp & Ep);
      rewrite ?Er, ?Ex; auto. rewrite Er, Ex in Hp. rewrite Er in Ep. rewrite Ep.
    destruct p; cbn [code].
    - destruct Hp as (r & Hr & C).
      assert (i < length rs) by (apply nth_error_Some; congruence).
      replace (existsb (fun r0 => containsb r0 (fst h)) rs) with true.
      + rewrite andb_false_r. apply Z.eqb_neq. lia.
      + symmetry. apply existsb_exists. exists r. split; [eapply nth_error_In; eauto|]. apply containsb_iff; auto.
    - destruct (length rs); reflexivity.
    - destruct (length rs); reflexivity.
    - rewrite Z.eqb_refl. destruct Hp as (_ & _ & G).
      replace (existsb (fun r0 => containsb r0 (fst h)) rs) with false.
      + destruct (length rs); reflexivity.
      + symmetry. apply not_true_is_false. intros Q. apply existsb_exists in Q. destruct Q as (r & Hr & C).
        apply In_nth_error in Hr. destruct Hr as [i Hr]. apply containsb_iff in C. eapply G; eauto. }
  exists b. rewrite Er in S1. split; auto. split; auto. split; auto.
  assert (HB : forall i r, nth_error rs i = Some r -> exists bn, nth_error (bins b) i = Some bn /\
        bdist bn = stats1 (filter (fun h => containsb r (fst h)) hs)).
  { intros i r Hr. specialize (B i (Bin1D_new r)). eexists. split.
    - apply B. unfold e. cbn. rewrite nth_error_map, Hr. reflexivity.
    - cbn [bdist]. rewrite <- feed_stats. f_equal. apply filter_ext. intros h. apply FB; auto. }
  split; [rewrite T; apply feed_stats|].
  split; [rewrite U, <- feed_stats; change (under e) with (@Dist1D_zero F); f_equal; apply filter_ext; auto|].
  split; [rewrite O, <- feed_stats; change (over e) with (@Dist1D_zero F); f_equal; apply filter_ext; auto|].
  split; [exact HB|].
  assert (HT : total_entries b = Z.of_nat (length hs)).
  { unfold total_entries. rewrite T, feed_N. cbn. lia. }
  split; auto. rewrite HT.
  rewrite (count_partition (fun h => coordToIndex e (fst h)) (length rs) hs) at 1.
  2:{ intros h. pose proof (coordToIndex_range e (fst h)) as R.
      unfold e in R. cbn [bins empty_binning] in R. rewrite map_length in R. exact R. }
  unfold bins_entries, under_entries, over_entries. rewrite U, O, !feed_N.
  change (under e) with (@Dist1D_zero F). change (over e) with (@Dist1D_zero F).
  cbn [d0 Dist1D_zero Dist0D_zero dN].
  assert (A : map (fun bn => dN (d0 (bdist bn))) (bins b) =
     map (fun i => Z.of_nat (length (filter (fun h => (coordToIndex e (fst h) =? Z.of_nat i)%Z) hs))) (seq 0 (length rs))).
  { apply list_eq_nth. intros i. rewrite !nth_error_map.
    destruct (nth_error rs i) as [r|] eqn:Hr.
    - destruct (HB i r Hr) as (bn & Hbn & Hd). rewrite Hbn. cbn [option_map]. rewrite Hd.
      assert (i < length rs) by (apply nth_error_Some; congruence).
      assert (Hs : nth_error (seq 0 (length rs)) i = Some i).
      { rewrite nth_error_nth' with (d := 0) by (rewrite seq_length; auto). rewrite seq_nth; auto. }
      rewrite Hs. cbn [option_map]. rewrite <- feed_stats, feed_N. cbn.
      do 2 f_equal. f_equal. apply filter_ext. intros. symmetry. apply FB; auto.
    - apply nth_error_None in Hr.
      assert (length (bins b) = length rs) by (rewrite <- S1, map_length; auto).
      replace (nth_error (bins b) i) with (@None (Bin1D F)) by (symmetry; apply nth_error_None; lia).
      replace (nth_error (seq 0 (length rs)) i) with (@None nat); auto.
      symmetry. apply nth_error_None. rewrite seq_length. lia. }
  rewrite A, (filter_ext _ _ FG). lia.
Qed.

(* ---------------------------------------------------------------- C03 *)
(* FromEdges: exact panic condition, for all inputs, NaN included. [f64slice_less b a] is the
   order used by sort.Float64Slice: b < a, or b is NaN and a is not. *)
Theorem C03_FromEdges_panics (edges : list F) :
  newBinning1DFromEdges edges = Panic <->
  length edges < 2 \/
  (exists i a b, nth_error edges i = Some a /\ nth_error edges (S i) = Some b /\
     (flt b a = true \/ (is_nanb b = true /\ is_nanb a = false) \/ feq a b = true)).
Proof.
  unfold newBinning1DFromEdges. destruct (Nat.leb_spec (length edges) 1).
  - split; auto. left. lia.
  - destruct (is_sorted edges) eqn:E; cbn [negb].
    + destruct (existsb _ _) eqn:E2.
      * split; auto. intros _. right. apply existsb_pairs in E2.
        destruct E2 as (i & a & b & Ha & Hb & Q). exists i, a, b. repeat split; auto.
      * split; [discriminate|]. intros [Q|(i & a & b & Ha & Hb & Q)]; [lia|]. exfalso.
        rewrite is_sorted_nth in E. specialize (E i a b Ha Hb). unfold f64slice_less in E.
        apply orb_false_iff in E. destruct E as [E1 E3]. cbn in E1, E3.
        destruct Q as [Q|[[Q1 Q2]|Q]].
        -- congruence.
        -- rewrite Q1, Q2 in E3. discriminate.
        -- enough (existsb (fun p : F * F => neq (fst p) (snd p)) (pairs edges) = true) by congruence.
           apply existsb_pairs. exists i, a, b. auto.
    + split; auto. intros _. right.
      assert (X : ~ forall i a b, nth_error edges i = Some a -> nth_error edges (S i) = Some b -> f64slice_less b a = false).
      { rewrite <- is_sorted_nth. congruence. }
      clear - X. induction edges as [|x [|y l] IH].
      * elim X. intros i a b Ha. destruct i; discriminate.
      * elim X. intros i a b Ha Hb. destruct i; discriminate.
      * destruct (f64slice_less y x) eqn:Q.
        -- exists 0, x, y. repeat split; auto. unfold f64slice_less in Q. cbn in Q.
           apply orb_true_iff in Q. destruct Q as [Q|Q]; auto. apply andb_true_iff in Q.
           destruct Q as [Q1 Q2]. apply negb_true_iff in Q2. auto.
        -- destruct IH as (i & a & b & Ha & Hb & Q2).
           { intros Y. apply X. intros [|i] a b Ha Hb; [cbn in *; congruence|]. apply (Y i); auto. }
           exists (S i), a, b. auto.
Qed.

(* FromEdges on edges without NaN: accepted exactly when there are at least two, strictly
   increasing; then bin i is [edge i, edge i+1), everything is empty, and the histogram is
   well formed in the sense of C01. *)
Theorem C03_FromEdges (edges : list F) :
  (forall e, In e edges -> is_nanb e = false) ->
  ((exists b, newBinning1DFromEdges edges = Ok b) <->
     2 <= length edges /\
     forall i a b, nth_error edges i = Some a -> nth_error edges (S i) = Some b -> flt a b = true) /\
  (forall b, newBinning1DFromEdges edges = Ok b ->
     length (bins b) = length edges - 1 /\
     (forall i lo hi, nth_error edges i = Some lo -> nth_error edges (S i) = Some hi ->
        nth_error (bins b) i = Some {| brange := {| rmin := lo; rmax := hi |}; bdist := Dist1D_zero |}) /\
     bdist_tot b = Dist1D_zero /\ under b = Dist1D_zero /\ over b = Dist1D_zero /\
     wf_bins (map brange (bins b)) /\ hull (map brange (bins b)) (xrange b)).
Proof.
  intros Hn. pose proof (edges_check (f64_ord add mul) edges Hn) as EC.
  unfold newBinning1DFromEdges. destruct (Nat.leb_spec (length edges) 1).
  { split; [split; [intros [b Hb]; discriminate|intros [? _]; lia]|discriminate]. }
  destruct (is_sorted edges) eqn:E1; cbn [negb].
  2:{ split; [|discriminate]. split; [intros [b Hb]; discriminate|]. intros [_ S]. apply EC in S.
      destruct S; congruence. }
  destruct (existsb _ _) eqn:E2.
  { split; [|discriminate]. split; [intros [b Hb]; discriminate|]. intros [_ S]. apply EC in S.
      destruct S; congruence. }
  assert (S : strictly_increasing edges) by (apply EC; auto).
  split.
  - split; [|intros _; eexists; reflexivity]. intros _. split; [lia|]. exact S.
  - intros b Hb. inversion Hb; subst b; clear Hb. cbn [bins empty_binning bdist_tot under over xrange].
    rewrite !map_length, pairs_length. split; auto.
    split.
    { intros i lo hi H1 H2. rewrite !nth_error_map.
      assert (Q : nth_error (pairs edges) i = Some (lo, hi)) by (apply pairs_nth; auto).
      apply (f_equal (fun o => option_map Bin1D_new (option_map (mk_range (N := F)) o))) in Q. exact Q. }
    split; [reflexivity|]. split; [reflexivity|]. split; [reflexivity|].
    destruct (edge_ranges_wf (f64_ord add mul) edges fzero H S) as (W & HH & _).
    match goal with |- wf_bins ?l /\ _ =>
      assert (El : l = edge_ranges (N := F) edges) by (rewrite map_map; apply map_id) end.
    rewrite El. split; [exact W|exact HH].
Qed.

(* FromBins, for any implementation of sort.Sort; every range is a proper interval *)
Theorem C03_FromBins sorter (xbins : list (Range F)) :
  is_sorter sorter ->
  (forall r, In r xbins -> flt (rmin r) (rmax r) = true) ->
  ((exists b, newBinning1DFromBins sorter xbins = Ok b) <-> xbins <> [] /\ pairwise_disjoint xbins) /\
  (forall b, newBinning1DFromBins sorter xbins = Ok b ->
     Permutation (map brange (bins b)) xbins /\
     (forall bn, In bn (bins b) -> bdist bn = Dist1D_zero) /\
     bdist_tot b = Dist1D_zero /\ under b = Dist1D_zero /\ over b = Dist1D_zero /\
     wf_bins (map brange (bins b)) /\ hull (map brange (bins b)) (xrange b)).
Proof.
  intros HS V. destruct (HS xbins) as [P S]. set (bs := sorter xbins) in *.
  assert (V' : forall r, In r bs -> nlt (n := F) (rmin r) (rmax r) = true).
  { intros r Hr. apply V. eapply Permutation_in; eauto. }
  assert (S' : forall i a b, nth_error bs i = Some a -> nth_error bs (Datatypes.S i) = Some b ->
      nlt (n := F) (rmin b) (rmin a) = false).
  { apply S. intros r Hr. apply V in Hr. apply (o_lt_le _ (f64_ord add mul)) in Hr.
    apply (o_le_nan _ (f64_ord add mul)) in Hr. tauto. }
  pose proof (frombins_sorted_disjoint (f64_ord add mul) bs V' S') as D.
  assert (DP : pairwise_disjoint bs <-> pairwise_disjoint xbins).
  { split; apply pairwise_disjoint_perm; auto. apply Permutation_sym; auto. }
  assert (Hlen : length bs = length xbins) by (apply Permutation_length; auto).
  unfold newBinning1DFromBins. fold bs. destruct (Nat.ltb_spec (length xbins) 1).
  { split; [|discriminate]. split; [intros [b Hb]; discriminate|]. intros [Q _].
    destruct xbins; [congruence|cbn in *; lia]. }
  destruct (existsb _ _) eqn:E.
  { split; [|discriminate]. split; [intros [b Hb]; discriminate|]. intros [_ Q].
    apply DP, D in Q. congruence. }
  split.
  - split; [|intros _; eexists; reflexivity]. intros _. split; [intros ->; cbn in *; lia|].
    apply DP, D. reflexivity.
  - intros b Hb. inversion Hb; subst b; clear Hb. cbn [bins empty_binning bdist_tot under over xrange].
    assert (M : map brange (map Bin1D_new bs) = bs) by (rewrite map_map; apply map_id).
    rewrite M. split; auto. split.
    { intros bn Hbn. apply in_map_iff in Hbn. destruct Hbn as (r & <- & _). reflexivity. }
    split; auto. split; auto. split; auto.
    split.
    + split; [intros Q; rewrite Q in Hlen; cbn in Hlen; lia|]. split.
      * intros r Hr. apply (o_lt_le _ (f64_ord add mul)). auto.
      * intros i r1 r2 H1 H2. destruct (nlt (n := F) (rmin r2) (rmax r1)) eqn:Q.
        -- enough (existsb (fun p : Range F * Range F => nlt (rmin (snd p)) (rmax (fst p))) (pairs bs) = true) by congruence.
           apply existsb_pairs. exists i, r1, r2. auto.
        -- assert (A1 := V' r1 (nth_error_In _ _ H1)). assert (A2 := V' r2 (nth_error_In _ _ H2)).
           apply (o_lt_le _ (f64_ord add mul)) in A1, A2.
           apply (o_le_nan _ (f64_ord add mul)) in A1, A2.
           apply (o_total _ (f64_ord add mul)); tauto.
    + destruct (nth_error bs 0) as [f|] eqn:Ef; [|apply nth_error_None in Ef; lia].
      destruct (nth_error bs (length bs - 1)) as [l|] eqn:El; [|apply nth_error_None in El; lia].
      exists f, l. cbn. rewrite (nth_error_nth _ _ _ Ef). rewrite <- Hlen, (nth_error_nth _ _ _ El). auto.
Qed.

(* ---------------------------------------------------------------- C06 *)
Theorem C06_H2D_history (xe ye : list F) (b : Binning2D F) (hs : list (F * F * F)) :
  (forall e, In e xe -> is_nanb e = false) -> (forall e, In e ye -> is_nanb e = false) ->
  newBinning2DFromEdges xe ye = Ok b ->
  let xr := {| rmin := nth 0 xe fzero; rmax := nth (length xe - 1) xe fzero |} in
  let yr := {| rmin := nth 0 ye fzero; rmax := nth (length ye - 1) ye fzero |} in
  let inreg k (h : F * F * F) := in_region (N := F) xr yr k (fst (fst h)) (snd (fst h)) in
  exists b', fill2_all b hs = Ok b' /\
    dist2 b' = stats2 hs /\
    (forall k, 1 <= k <= 8 ->
       nth_error (outflows b') (k - 1) = Some (stats2 (filter (inreg k) hs))) /\
    (forall ix iy x0 x1 y0 y1,
       nth_error xe ix = Some x0 -> nth_error xe (S ix) = Some x1 ->
       nth_error ye iy = Some y0 -> nth_error ye (S iy) = Some y1 ->
       let rx := {| rmin := x0; rmax := x1 |} in let ry := {| rmin := y0; rmax := y1 |} in
       nth_error (bins2 b') (iy * (length xe - 1) + ix) =
         Some {| b2x := rx; b2y := ry;
                 b2dist := stats2 (filter (fun h => containsb rx (fst (fst h)) && containsb ry (snd (fst h))) hs) |}) /\
    (* every entry is in exactly one place *)
    (forall x y, (exists ix iy x0 x1 y0 y1,
         nth_error xe ix = Some x0 /\ nth_error xe (S ix) = Some x1 /\
         nth_error ye iy = Some y0 /\ nth_error ye (S iy) = Some y1 /\
         contains (N := F) {| rmin := x0; rmax := x1 |} x /\ contains (N := F) {| rmin := y0; rmax := y1 |} y /\
         forall k, 1 <= k <= 8 -> in_region (N := F) xr yr k x y = false) \/
       (exists k, 1 <= k <= 8 /\ in_region (N := F) xr yr k x y = true /\
         (forall k', 1 <= k' <= 8 -> in_region (N := F) xr yr k' x y = true -> k' = k) /\
         forall ix iy x0 x1 y0 y1,
         nth_error xe ix = Some x0 -> nth_error xe (S ix) = Some x1 ->
         nth_error ye iy = Some y0 -> nth_error ye (S iy) = Some y1 ->
         ~ (contains (N := F) {| rmin := x0; rmax := x1 |} x /\ contains (N := F) {| rmin := y0; rmax := y1 |} y))).
Proof.
  intros Nx Ny Hb xr yr inreg.
  pose proof (f64_ord add mul) as L.
  pose proof (edges_check L xe Nx) as EX. pose proof (edges_check L ye Ny) as EY.
  unfold newBinning2DFromEdges in Hb.
  destruct (Nat.leb_spec (length xe) 1); [discriminate|].
  destruct (is_sorted xe) eqn:E1; cbn [negb] in Hb; [|discriminate].
  destruct (Nat.leb_spec (length ye) 1); [discriminate|].
  destruct (is_sorted ye) eqn:E2; cbn [negb] in Hb; [|discriminate].
  destruct (existsb _ (pairs xe)) eqn:E3; [discriminate|].
  destruct (existsb _ (pairs ye)) eqn:E4; [discriminate|].
  assert (SX : strictly_increasing xe) by (apply EX; auto).
  assert (SY : strictly_increasing ye) by (apply EY; auto).
  destruct (edge_ranges_wf L xe fzero H SX) as (WX & HX & CX).
  destruct (edge_ranges_wf L ye fzero H0 SY) as (WY & HY & CY).
  fold xr in HX. fold yr in HY. unfold edge_ranges in *.
  set (xs := map mk_range (pairs xe)) in *. set (ys := map mk_range (pairs ye)) in *.
  assert (LX : length xs = length xe - 1) by (unfold xs; rewrite map_length; apply pairs_length).
  assert (LY : length ys = length ye - 1) by (unfold ys; rewrite map_length; apply pairs_length).
  assert (Eb := f_equal (fun r => match r with Ok v => v | Panic => b end) Hb). cbn beta iota in Eb. clear Hb. symmetry in Eb.
  set (fcell := fun (xr0 yr0 : Range F) => {| b2x := xr0; b2y := yr0; b2dist := Dist2D_zero |}) in *.
  assert (SH : shape2 b).
  { subst b. constructor; cbn [nx ny xedges yedges bins2 outflows]; auto.
    etransitivity; [apply (flat_rows_length fcell)|]. rewrite LX, LY. reflexivity. }
  assert (IC := fun x y => index2_cases L xs ys xr yr b x y WX HX CX WY HY CY
     ltac:(subst b; reflexivity) ltac:(subst b; reflexivity) SH).
  destruct (fill2_all_spec b hs SH (fun x y => proj1 (IC x y))) as (b' & Ef & _ & T & O & B).
  exists b'. split; [exact Ef|].
  assert (HR : forall i lo hi (es : list F), nth_error es i = Some lo -> nth_error es (S i) = Some hi ->
     nth_error (map (mk_range (N := F)) (pairs es)) i = Some {| rmin := lo; rmax := hi |}).
  { intros i lo hi es A1 A2. rewrite nth_error_map.
    replace (nth_error (pairs es) i) with (Some (lo, hi)); [reflexivity|].
    symmetry. apply pairs_nth. auto. }
  split; [rewrite T; subst b; apply feed2_stats|]. split; [|split].
  - intros k Hk. rewrite (O (k - 1) Dist2D_zero).
    + rewrite feed2_stats. do 2 f_equal. apply filter_ext. intros h.
      replace (S (k - 1)) with k by lia. apply IC; auto.
    + subst b. cbn [outflows]. assert (K : k = 1 \/ k = 2 \/ k = 3 \/ k = 4 \/ k = 5 \/ k = 6 \/ k = 7 \/ k = 8) by lia.
      destruct K as [->|[->|[->|[->|[->|[->|[->| ->]]]]]]]; reflexivity.
  - cbn zeta. intros ix iy x0 x1 y0 y1 A1 A2 A3 A4.
    set (rx := @Build_Range F x0 x1). set (ry := @Build_Range F y0 y1).
    assert (Q1 := HR ix x0 x1 xe A1 A2). assert (Q2 := HR iy y0 y1 ye A3 A4).
    fold xs in Q1. fold ys in Q2.
    rewrite (B _ (fcell rx ry)).
    + cbn [b2x b2y b2dist fcell]. rewrite feed2_stats. do 3 f_equal. apply filter_ext. intros h.
      rewrite <- LX. apply IC; auto.
    + subst b. cbn [bins2]. rewrite <- LX. apply (flat_rows_nth fcell xs ys); auto.
  - intros x y. unfold in_region.
    assert (NC : forall rs r0 z i r, wf_bins rs -> hull rs r0 -> axis_side (N := F) r0 z <> Mid ->
     nth_error rs i = Some r -> ~ contains r z).
    { intros rs r0 z i r W HH HM Hr Q. assert (BB : belongs rs r0 z (PBin i)) by (exists r; auto).
      apply HM. unfold axis_side. destruct (nlt z (rmin r0)) eqn:Q1.
      - assert (PBin i = PUnder) by (eapply (belongs_unique L); eauto). discriminate.
      - destruct (nisnan z || nle (rmax r0) z) eqn:Q2; auto. apply orb_true_iff in Q2.
        assert (PBin i = POver) by (eapply (belongs_unique L); eauto). discriminate. }
    assert (RE : forall (i : nat) (r : Range F) (es : list F), nth_error (map (mk_range (N := F)) (pairs es)) i = Some r ->
        nth_error es i = Some (rmin r) /\ nth_error es (S i) = Some (rmax r)).
    { intros i r es Q. rewrite nth_error_map in Q. destruct (nth_error (pairs es) i) as [p|] eqn:Q2; [|discriminate].
      inversion Q; subst. apply pairs_nth in Q2. auto. }
    destruct (axis_index L xs xr x WX HX CX) as [[A1 _]|[[A1 _]|[A1 (i & r & A2 & A3 & _)]]];
    destruct (axis_index L ys yr y WY HY CY) as [[B1 _]|[[B1 _]|[B1 (j & s & B2 & B3 & _)]]];
    rewrite A1, B1.
    9:{ left. apply RE in A2, B2. exists i, j, (rmin r), (rmax r), (rmin s), (rmax s).
        destruct r, s. repeat split; try tauto; try apply A3; try apply B3.
        intros k Hk. assert (K : k = 1 \/ k = 2 \/ k = 3 \/ k = 4 \/ k = 5 \/ k = 6 \/ k = 7 \/ k = 8) by lia.
        destruct K as [->|[->|[->|[->|[->|[->|[->| ->]]]]]]]; reflexivity. }
    all: right; [> exists 7 | exists 1 | exists 8 | exists 5 | exists 3 | exists 4 | exists 6 | exists 2 ];
      (split; [lia|]); (split; [reflexivity|]); (split;
      [intros k Hk; assert (K : k = 1 \/ k = 2 \/ k = 3 \/ k = 4 \/ k = 5 \/ k = 6 \/ k = 7 \/ k = 8) by lia;
       destruct K as [->|[->|[->|[->|[->|[->|[->| ->]]]]]]]; cbn; congruence|]);
      intros ix iy x0 x1 y0 y1 C1 C2 C3 C4 [D1 D2];
      (assert (Q1 := HR ix x0 x1 xe C1 C2)); (assert (Q2 := HR iy y0 y1 ye C3 C4));
      first [ apply (NC xs xr x ix _ WX HX ltac:(rewrite A1; discriminate) Q1 D1)
            | apply (NC ys yr y iy _ WY HY ltac:(rewrite B1; discriminate) Q2 D2) ].
Qed.

(* the constructor accepts exactly two strictly increasing lists of at least two edges *)
Theorem C06_H2D_accepts (xe ye : list F) :
  (forall e, In e xe -> is_nanb e = false) -> (forall e, In e ye -> is_nanb e = false) ->
  ((exists b, newBinning2DFromEdges xe ye = Ok b) <->
   2 <= length xe /\ 2 <= length ye /\
   (forall i a b, nth_error xe i = Some a -> nth_error xe (S i) = Some b -> flt a b = true) /\
   (forall i a b, nth_error ye i = Some a -> nth_error ye (S i) = Some b -> flt a b = true)).
Proof.
  intros Nx Ny. pose proof (f64_ord add mul) as L.
  pose proof (edges_check L xe Nx) as EX. pose proof (edges_check L ye Ny) as EY.
  unfold newBinning2DFromEdges. split.
  - intros [b Hb].
    destruct (Nat.leb_spec (length xe) 1); [discriminate|].
    destruct (is_sorted xe) eqn:E1; cbn [negb] in Hb; [|discriminate].
    destruct (Nat.leb_spec (length ye) 1); [discriminate|].
    destruct (is_sorted ye) eqn:E2; cbn [negb] in Hb; [|discriminate].
    destruct (existsb _ (pairs xe)) eqn:E3; [discriminate|].
    destruct (existsb _ (pairs ye)) eqn:E4; [discriminate|].
    split; [lia|]. split; [lia|]. split; [apply EX|apply EY]; auto.
  - intros (H1 & H2 & S1 & S2). apply EX in S1. apply EY in S2.
    destruct S1 as [A1 A2], S2 as [B1 B2]. rewrite A1, A2, B1, B2.
    destruct (Nat.leb_spec (length xe) 1); [lia|]. destruct (Nat.leb_spec (length ye) 1); [lia|].
    cbn [negb]. eexists; reflexivity.
Qed.

End Float.

(* ---------------------------------------------------------------- findings about C01/C03 *)
Definition Fx : Num := f64num (fun a _ => a) (fun a _ => a).
Definition rg (a b : f64) : Range Fx := @Build_Range Fx a b.

(* NewH1DFromEdges accepts a NaN first edge although the edges are then not ordered *)
Theorem C03_FromEdges_accepts_NaN_refuted :
  exists edges : list Fx, In fnan edges /\ exists b, newBinning1DFromEdges edges = Ok b.
Proof.
  exists [fnan; f1; f2]. split; [left; reflexivity|]. eexists. vm_compute. reflexivity.
Qed.

(* Bin(x) panics for a value in a gap between two bins *)
Theorem C01_Bin_gap_panics_refuted :
  exists (b : Binning1D Fx) (x : f64),
    wf_bins (map brange (bins b)) /\ hull (map brange (bins b)) (xrange b) /\ h1d_Bin b x = Panic.
Proof.
  exists (empty_binning [rg fzero f1; rg f2 f3] (rg fzero f3)), f1_5.
  split; [|split].
  - split; [discriminate|]. split.
    + intros r [<-|[<-|[]]]; reflexivity.
    + intros [|[|i]] r1 r2 H1 H2; cbn in H1, H2; try discriminate.
      inversion H1; inversion H2; subst; reflexivity.
  - exists (rg fzero f1), (rg f2 f3). repeat split.
  - vm_compute. reflexivity.
Qed.

(* a histogram with a gap, a zero-width bin, and each of the four places reached *)
Definition ex_bins : list (Range Fx) := [rg fzero f1; rg f1 f1; rg f2 f3].
Definition ex_range : Range Fx := rg fzero f3.
Example ex_wf : wf_bins ex_bins /\ hull ex_bins ex_range.
Proof.
  split.
  - split; [discriminate|]. split.
    + intros r [<-|[<-|[<-|[]]]]; reflexivity.
    + intros [|[|[|i]]] r1 r2 H1 H2; cbn in *; try discriminate;
      try (inversion H1; inversion H2; subst; reflexivity).
  - exists (rg fzero f1), (rg f2 f3). repeat split.
Qed.
Example ex_places :
  map (fun x => coordToIndex (empty_binning ex_bins ex_range) x) [fzero; f1; f1_5; f2; f2_5; f3; fm1; fnan; finf; fninf]
  = [0; 3; 3; 2; 2; -2; -1; -2; -2; -1]%Z.
Proof. vm_compute. reflexivity. Qed.
Example ex_edges_ok : exists b, newBinning1DFromEdges (N := Fx) [fm1; fzero; f1_5; finf] = Ok b.
Proof. eexists. vm_compute. reflexivity. Qed.
Example ex_edges2_ok : exists b, newBinning2DFromEdges (N := Fx) [fm1; fzero; f1_5; finf] [f1; f2] = Ok b.
Proof. eexists. vm_compute. reflexivity. Qed.
(* a sorter exists *)
Fixpoint ins (r : Range Fx) (l : list (Range Fx)) : list (Range Fx) :=
  match l with [] => [r] | a :: t => if nlt (rmin a) (rmin r) then a :: ins r t else r :: l end.
Definition isort (l : list (Range Fx)) := fold_right ins [] l.
Example isort_is_sorter : is_sorter isort.
Proof.
  intros l. split.
  - induction l; cbn; auto.
    assert (P : forall r t, Permutation (ins r t) (r :: t)).
    { induction t; cbn; auto. destruct (flt (rmin a0) (rmin r)); auto.
      etransitivity; [apply perm_skip; exact IHt|apply perm_swap]. }
    rewrite P. auto.
  - intros Hn.
    assert (Hs : forall t : list (Range Fx), (forall r : Range Fx, In r t -> is_nanb (rmin (N := Fx) r) = false) -> isort t = isort t /\
      forall i a b, nth_error (isort t) i = Some a -> nth_error (isort t) (S i) = Some b -> nlt (rmin b) (rmin a) = false).
    { intros t Ht. split; auto. induction t as [|r t IH]; [intros i a b Ha; destruct i; discriminate|].
      cbn [isort fold_right]. fold (isort t).
      assert (IH' := IH (fun r0 H => Ht r0 (or_intror H))). clear IH.
      assert (Hr := Ht r (or_introl eq_refl)). clear Ht Hn.
      revert IH'. generalize (isort t). clear t.
      induction l0 as [|c l0 IHl]; intros H i a b Ha Hb.
      - cbn in *. destruct i; [discriminate|destruct i; discriminate].
      - cbn [ins] in *. destruct (nlt (rmin c) (rmin r)) eqn:E.
        + destruct i.
          * cbn in Ha, Hb. inversion Ha; subst a. destruct l0 as [|c' l0].
            -- cbn in Hb. inversion Hb; subst. apply (o_le_not_lt _ (f64_ord _ _)). apply (o_lt_le _ (f64_ord _ _)). auto.
            -- cbn in Hb. destruct (flt (rmin c') (rmin r)).
               ++ inversion Hb; subst. apply (H 0 c b); auto.
               ++ inversion Hb; subst. apply (o_le_not_lt _ (f64_ord _ _)). apply (o_lt_le _ (f64_ord _ _)). auto.
          * apply (IHl (fun i a b Ha Hb => H (S i) a b Ha Hb) i a b Ha Hb).
        + destruct i.
          * cbn in Ha, Hb. inversion Ha; inversion Hb; subst. exact E.
          * apply (H i a b Ha Hb). }
    apply Hs. auto.
Qed.

(* ---------------------------------------------------------------- C04, C05: exact arithmetic *)
Section ExactProps.
Variable N : Num.
Variable nsub : N -> N -> N.
Variable nopp : N -> N.
Hypothesis RT : ring_theory (@nzero N) none nadd nmul nsub nopp eq.
Hypothesis minus_one : @nmone N = nopp none.

Theorem C04_add_scaled rs (xr : Range N) (A B : list (N * N)) alpha ha hb :
  neq (rmin xr) (rmin xr) = true -> neq (rmax xr) (rmax xr) = true ->
  fill_all (empty_binning rs xr) A = Ok ha ->
  fill_all (empty_binning rs xr) B = Ok hb ->
  exists h, AddScaledH1D ha alpha hb = Ok h /\
    fill_all (empty_binning rs xr) (A ++ map (fun e => (fst e, nmul alpha (snd e))) B) = Ok h.
Proof.
  intros E1 E2 HA HB. rewrite fill_all_hist_of in HA, HB. inversion HA; inversion HB; subst.
  eexists. split; [apply (addScaled_hist_of nsub nopp RT); auto|]. apply fill_all_hist_of.
Qed.

Theorem C04_add rs (xr : Range N) (A B : list (N * N)) ha hb :
  neq (rmin xr) (rmin xr) = true -> neq (rmax xr) (rmax xr) = true ->
  fill_all (empty_binning rs xr) A = Ok ha ->
  fill_all (empty_binning rs xr) B = Ok hb ->
  exists h, AddH1D ha hb = Ok h /\ fill_all (empty_binning rs xr) (A ++ B) = Ok h.
Proof.
  intros E1 E2 HA HB. destruct (C04_add_scaled rs xr A B none ha hb E1 E2 HA HB) as (h & H1 & H2).
  exists h. split; auto. rewrite <- H2. do 2 f_equal.
  rewrite <- (map_id B) at 1. apply map_ext. intros [x w]. cbn. f_equal. symmetry. apply (Rmul_1_l RT).
Qed.

Theorem C04_sub rs (xr : Range N) (A B : list (N * N)) ha hb :
  neq (rmin xr) (rmin xr) = true -> neq (rmax xr) (rmax xr) = true ->
  fill_all (empty_binning rs xr) A = Ok ha ->
  fill_all (empty_binning rs xr) B = Ok hb ->
  exists h, SubH1D ha hb = Ok h /\
    fill_all (empty_binning rs xr) (A ++ map (fun e => (fst e, nmul (nopp none) (snd e))) B) = Ok h.
Proof.
  intros E1 E2 HA HB. unfold SubH1D. rewrite minus_one. apply C04_add_scaled; auto.
Qed.

Theorem C05_scale rs (xr : Range N) (A : list (N * N)) f ha :
  fill_all (empty_binning rs xr) A = Ok ha ->
  fill_all (empty_binning rs xr) (map (fun e => (fst e, nmul f (snd e))) A) = Ok (scaleW ha f) /\
  total_entries (scaleW ha f) = Z.of_nat (length A).
Proof.
  intros HA. rewrite fill_all_hist_of in HA. inversion HA; subst.
  rewrite (scaleW_hist_of nsub nopp RT). split; [apply fill_all_hist_of|].
  unfold total_entries, hist_of. cbn. unfold scale_hist. rewrite !map_length. reflexivity.
Qed.

(* Integral() is the sum of all weights; Integral(min,max) is the sum of the weights of the
   fills in the bins whose lower edge is in [min,max), plus underflow when min = -Inf and
   overflow when max = +Inf *)
Theorem C05_integral0 rs (xr : Range N) (A : list (N * N)) ha :
  fill_all (empty_binning rs xr) A = Ok ha -> Integral0 ha = nsum (map snd A).
Proof. intros HA. rewrite fill_all_hist_of in HA. inversion HA; subst. reflexivity. Qed.

(* entries selected by an interval, in terms of places *)
Definition in_interval (rs : list (Range N)) (xr : Range N) (mn mx : N) (x : N) : Prop :=
  (exists i r, belongs rs xr x (PBin i) /\ nth_error rs i = Some r /\
               nle mn (rmin r) = true /\ nlt (rmin r) mx = true) \/
  (belongs rs xr x PUnder /\ nisninf mn = true) \/
  (belongs rs xr x POver /\ nisinf mx = true).

Theorem C05_integral2 (L : OrdLaws N) rs (xr : Range N) (A : list (N * N)) ha mn mx (sel : N -> bool) :
  wf_bins rs -> hull rs xr -> nlt mx mn = false ->
  (forall x, sel x = true <-> in_interval rs xr mn mx x) ->
  fill_all (empty_binning rs xr) A = Ok ha ->
  Integral2 ha mn mx = Ok (nsum (map snd (filter (fun e => sel (fst e)) A))).
Proof.
  intros W H Hm Hsel HA. rewrite fill_all_hist_of in HA. inversion HA; subst.
  rewrite (Integral2_hist_of nsub nopp RT) by auto. unfold wsum. do 3 f_equal.
  apply filter_ext. intros h. apply eq_true_iff_eq. rewrite Hsel.
  set (e := empty_binning rs xr).
  assert (Er : map brange (bins e) = rs) by (unfold e; cbn; rewrite map_map; apply map_id).
  pose proof (coordToIndex_iff L e) as IFF. cbn zeta in IFF. rewrite Er in IFF.
  change (xrange e) with xr in IFF.
  unfold selected. fold e. rewrite !orb_true_iff, !andb_true_iff, !Z.eqb_eq, existsb_exists.
  rewrite (IFF (fst h) PUnder W H) by discriminate. rewrite (IFF (fst h) POver W H) by discriminate.
  unfold in_interval. split.
  - intros [[(p & Hp & Q)|Q]|Q]; try tauto. left. apply In_nth_error in Hp. destruct Hp as [i Hi].
    rewrite combine_seq_nth in Hi. destruct (nth_error rs i) as [r|] eqn:Hr; [|discriminate].
    cbn in Hi. inversion Hi; subst p. cbn [fst snd] in Q. rewrite !andb_true_iff, Z.eqb_eq in Q.
    assert (i < length rs) by (apply nth_error_Some; congruence).
    exists i, r. destruct Q as [[Q1 Q2] Q3]. repeat split; auto.
    apply (IFF (fst h) (PBin i) W H); auto. intros j Ej; injection Ej as <-; auto.
  - intros [(i & r & Hb & Hr & Q1 & Q2)|[Q|Q]]; try tauto. left; left.
    assert (i < length rs) by (apply nth_error_Some; congruence).
    exists (i, r). split.
    + apply nth_error_In with i. rewrite combine_seq_nth, Hr. reflexivity.
    + cbn [fst snd]. rewrite Q1, Q2. cbn. apply Z.eqb_eq.
      apply (IFF (fst h) (PBin i) W H); auto. intros j Ej; injection Ej as <-; auto.
Qed.

(* the full range: everything but the gaps *)
Theorem C05_integral_full (L : OrdLaws N) rs (xr : Range N) (A : list (N * N)) ha mn mx :
  wf_bins rs -> hull rs xr -> nlt mx mn = false ->
  nisninf mn = true -> nisinf mx = true ->
  (forall r, In r rs -> nle mn (rmin r) = true /\ nlt (rmin r) mx = true) ->
  (forall x w, In (x, w) A -> ~ belongs rs xr x PGap) ->
  fill_all (empty_binning rs xr) A = Ok ha ->
  Integral2 ha mn mx = Ok (Integral0 ha).
Proof.
  intros W H Hm I1 I2 HR HG HA. rewrite (C05_integral0 rs xr A ha HA).
  set (e := empty_binning rs xr).
  set (sel := fun x => negb (coordToIndex e x =? Z.of_nat (length rs))%Z).
  assert (Er : map brange (bins e) = rs) by (unfold e; cbn; rewrite map_map; apply map_id).
  pose proof (coordToIndex_iff L e) as IFF. cbn zeta in IFF. rewrite Er in IFF.
  change (xrange e) with xr in IFF.
  assert (SEL : forall x, sel x = true <-> in_interval rs xr mn mx x).
  { intros x. unfold sel. rewrite negb_true_iff, Z.eqb_neq.
    change (Z.of_nat (length rs)) with (code (length rs) PGap).
    rewrite (IFF x PGap W H) by discriminate. unfold in_interval. split.
    - intros Hn. destruct (coordToIndex_belongs L e x) as (p & Hp & _); [rewrite Er; auto..|].
      rewrite Er in Hp. change (xrange e) with xr in Hp.
      destruct p; auto; [left|tauto]. destruct Hp as (r & Hr & C). exists i, r.
      split; [exists r; auto|]. split; auto. apply HR. eapply nth_error_In; eauto.
    - intros Q G. destruct Q as [(i & r & Q & _)|[[Q _]|[Q _]]];
      pose proof (belongs_unique L rs xr x _ _ W H Q G); discriminate. }
  rewrite (C05_integral2 L rs xr A ha mn mx sel W H Hm SEL HA). do 3 f_equal.
  assert (FA : forall l, (forall x, In x l -> sel (fst x) = true) -> filter (fun e0 : N * N => sel (fst e0)) l = l).
  { induction l; intros Q; cbn; auto. rewrite (Q a) by (left; auto). rewrite IHl; auto. intros; apply Q; right; auto. }
  apply FA. intros [x w] Hin. cbn. unfold sel. apply negb_true_iff, Z.eqb_neq.
  change (Z.of_nat (length rs)) with (code (length rs) PGap).
  rewrite (IFF x PGap W H) by discriminate. eapply HG; eauto.
Qed.
End ExactProps.

(* an instance: exact integers, with -100 and 100 playing the infinities *)
Definition Znum : Num := {|
  num := Z; nlt := Z.ltb; nle := Z.leb; neq := Z.eqb; nisnan := fun _ => false;
  nadd := Z.add; nmul := Z.mul; nzero := 0%Z; none := 1%Z; nmone := (-1)%Z;
  nisinf := fun x => (x =? 100)%Z; nisninf := fun x => (x =? -100)%Z |}.
Definition zrg (a b : Z) : Range Znum := @Build_Range Znum a b.
Example Znum_ring : ring_theory (@nzero Znum) none nadd nmul Z.sub Z.opp eq.
Proof. exact Zth. Qed.
Example Znum_ord : OrdLaws Znum.
Proof.
  constructor; cbn; intros; rewrite ?Z.ltb_lt, ?Z.leb_le, ?Z.ltb_ge, ?Z.eqb_eq in *; try lia; auto; try discriminate.
Qed.
Example ex_integral :
  exists h, fill_all (empty_binning [zrg 0 2; zrg 2 5] (zrg 0 5)) [(1, 10); (4, 20); (7, 30); (-3, 40)]%Z = Ok h
   /\ Integral2 h (-100)%Z 100%Z = Ok 100%Z /\ Integral2 h 0%Z 2%Z = Ok 10%Z.
Proof. eexists. vm_compute. repeat split. Qed.

(* AddH1D only compares the number of bins and the range: two histograms with different inner
   edges are added without complaint, although the result then disagrees with filling *)
Theorem C04_add_checks_binning_refuted :
  exists rs1 rs2 xr A B ha hb h,
    wf_bins (N := Znum) rs1 /\ wf_bins (N := Znum) rs2 /\ hull rs1 xr /\ hull rs2 xr /\ rs1 <> rs2 /\
    fill_all (empty_binning rs1 xr) A = Ok ha /\ fill_all (empty_binning rs2 xr) B = Ok hb /\
    AddH1D ha hb = Ok h /\ fill_all (empty_binning rs1 xr) (A ++ B) <> Ok h.
Proof.
  assert (W : forall c, (0 <= c <= 5)%Z -> wf_bins (N := Znum) [zrg 0 c; zrg c 5]).
  { intros c Hc. split; [discriminate|]. split.
    - intros r [<-|[<-|[]]]; cbn; apply Z.leb_le; lia.
    - intros [|[|i]] r1 r2 H1 H2; cbn in H1, H2; try discriminate.
      inversion H1; inversion H2; subst; cbn. apply Z.leb_refl. }
  assert (HH : forall c, hull (N := Znum) [zrg 0 c; zrg c 5] (zrg 0 5)).
  { intros c. exists (zrg 0 c), (zrg c 5). repeat split. }
  exists [zrg 0 2; zrg 2 5], [zrg 0 4; zrg 4 5], (zrg 0 5), [], [(3, 1)]%Z.
  do 3 eexists. split; [apply W; lia|]. split; [apply W; lia|]. split; auto. split; auto.
  split; [discriminate|]. split; [reflexivity|]. split; [vm_compute; reflexivity|].
  split; [vm_compute; reflexivity|]. vm_compute. discriminate.
Qed.

Print Assumptions C01_exactly_one_place.
Print Assumptions C01_fill.
Print Assumptions C01_Bin.
Print Assumptions C02_fill_history.
Print Assumptions C03_FromEdges_panics.
Print Assumptions C03_FromEdges.
Print Assumptions C03_FromBins.
Print Assumptions C04_add_scaled.
Print Assumptions C04_add.
Print Assumptions C04_sub.
Print Assumptions C05_scale.
Print Assumptions C05_integral2.
Print Assumptions C05_integral_full.
Print Assumptions C06_H2D_history.
Print Assumptions C06_H2D_accepts.
