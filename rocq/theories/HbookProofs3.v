(* Proofs: 2-dim histograms, FromBins. *)
From Coq Require Import ZArith List Bool Arith Lia Permutation.
From Verif Require Import GoLib F64 HbookModel HbookSpec HbookProofs HbookProofs2.
Import ListNotations.

Section D2.
Context {N : Num}.

Definition feed2 (d : Dist2D N) (hs : list (N * N * N)) : Dist2D N :=
  fold_left (fun d h => Dist2D_fill d (fst (fst h)) (snd (fst h)) (snd h)) hs d.

Lemma feed2_stats hs : feed2 Dist2D_zero hs = stats2 hs.
Proof.
  induction hs as [|h hs IH] using rev_ind; [reflexivity|].
  unfold feed2 in *. rewrite fold_left_app. cbn. rewrite IH.
  unfold stats2. rewrite !map_app. cbn [map].
  rewrite <- !feed_stats. unfold feed at 3 4. rewrite !fold_left_app. cbn.
  unfold nsum. rewrite fold_left_app. reflexivity.
Qed.

(* shape invariant of a 2-dim binning *)
Record shape2 (b : Binning2D N) : Prop := {
  s_nx : nx b = length (xedges b);
  s_ny : ny b = length (yedges b);
  s_bins : length (bins2 b) = nx b * ny b;
  s_out : length (outflows b) = 8
}.
Definition same2 (a b : Binning2D N) : Prop :=
  nx a = nx b /\ ny a = ny b /\ xedges a = xedges b /\ yedges a = yedges b /\
  length (bins2 a) = length (bins2 b) /\
  (forall i, option_map b2x (nth_error (bins2 a) i) = option_map b2x (nth_error (bins2 b) i)) /\
  (forall i, option_map b2y (nth_error (bins2 a) i) = option_map b2y (nth_error (bins2 b) i)) /\
  length (outflows a) = length (outflows b).
Lemma same2_refl a : same2 a a. Proof. repeat split. Qed.
Lemma same2_trans a b c : same2 a b -> same2 b c -> same2 a c.
Proof.
  intros (A1 & A2 & A3 & A4 & A5 & A6 & A7 & A8) (B1 & B2 & B3 & B4 & B5 & B6 & B7 & B8).
  split; [congruence|]. split; [congruence|]. split; [congruence|]. split; [congruence|].
  split; [congruence|]. split; [intros; rewrite A6; auto|]. split; [intros; rewrite A7; auto|]. congruence.
Qed.
Lemma same2_shape a b : same2 a b -> shape2 b -> shape2 a.
Proof.
  intros (A1 & A2 & A3 & A4 & A5 & A6 & A7 & A8) [S1 S2 S3 S4]. constructor; congruence.
Qed.
Lemma same2_index a b x y : same2 a b -> coordToIndex2 a x y = coordToIndex2 b x y.
Proof.
  intros (A1 & A2 & A3 & A4 & A5 & _). unfold coordToIndex2. rewrite A1, A2, A3, A4, A5. reflexivity.
Qed.

(* the index is either a valid cell or a valid outflow, when neither axis has gaps *)
Definition ok_index (b : Binning2D N) (z : Z) : Prop :=
  (-8 <= z < Z.of_nat (length (bins2 b)))%Z.

Lemma fill2_spec b x y w :
  shape2 b -> ok_index b (coordToIndex2 b x y) ->
  let idx := coordToIndex2 b x y in
  exists b', fill2 b x y w = Ok b' /\ same2 b' b /\
    dist2 b' = Dist2D_fill (dist2 b) x y w /\
    (forall i, nth_error (outflows b') i =
       option_map (fun d => if (idx =? - Z.of_nat (S i))%Z then Dist2D_fill d x y w else d) (nth_error (outflows b) i)) /\
    (forall i, nth_error (bins2 b') i =
       option_map (fun bn => if (idx =? Z.of_nat i)%Z then Bin2D_fill x y w bn else bn) (nth_error (bins2 b) i)).
Proof.
  intros S H idx. unfold ok_index in H. fold idx in H. unfold fill2. fold idx.
  destruct (Z.eqb_spec idx (Z.of_nat (length (bins2 b)))); [lia|].
  destruct (Z.ltb_spec idx 0).
  - assert (Hlt : Z.to_nat (- idx - 1) < length (outflows b)) by (rewrite (s_out _ S); lia).
    destruct (upd_nth_ok (outflows b) _ (fun d => Dist2D_fill d x y w) Hlt) as (l' & El & Ll).
    rewrite El. cbn [rbind]. apply upd_nth_nth in El. destruct El as [_ El].
    eexists. split; [reflexivity|]. split; [repeat split; auto|]. cbn [dist2 outflows bins2].
    split; auto. split.
    + intros i. rewrite El. destruct (Nat.eqb_spec i (Z.to_nat (- idx - 1))).
      * subst i. replace (idx =? - Z.of_nat (Datatypes.S (Z.to_nat (- idx - 1))))%Z with true; auto.
        symmetry. apply Z.eqb_eq. lia.
      * destruct (Z.eqb_spec idx (- Z.of_nat (Datatypes.S i))); [lia|]. destruct (nth_error _ i); auto.
    + intros i. destruct (nth_error (bins2 b) i); cbn [option_map]; auto.
      destruct (Z.eqb_spec idx (Z.of_nat i)); auto. lia.
  - assert (Hlt : Z.to_nat idx < length (bins2 b)) by lia.
    destruct (upd_nth_ok (bins2 b) _ (Bin2D_fill x y w) Hlt) as (l' & El & Ll).
    rewrite El. cbn [rbind]. apply upd_nth_nth in El. destruct El as [_ El].
    eexists. split; [reflexivity|].
    assert (Hn : forall i, nth_error l' i =
       option_map (fun bn => if (idx =? Z.of_nat i)%Z then Bin2D_fill x y w bn else bn) (nth_error (bins2 b) i)).
    { intros i. rewrite El. destruct (Nat.eqb_spec i (Z.to_nat idx)).
      - subst i. rewrite Z2Nat.id by lia. rewrite Z.eqb_refl. reflexivity.
      - destruct (Z.eqb_spec idx (Z.of_nat i)); [lia|]. destruct (nth_error _ i); auto. }
    split; [|cbn [dist2 outflows bins2]].
    + split; auto. split; auto. split; auto. split; auto. split; [exact Ll|].
      cbn [bins2 outflows]. repeat split; auto; intros i; rewrite Hn; destruct (nth_error (bins2 b) i); cbn; auto;
      destruct (_ =? _)%Z; auto.
    + split; auto. split; auto. intros i. destruct (nth_error (outflows b) i); cbn [option_map]; auto.
      destruct (Z.eqb_spec idx (- Z.of_nat (Datatypes.S i))); auto. lia.
Qed.

Lemma fill2_all_spec b hs :
  shape2 b -> (forall x y, ok_index b (coordToIndex2 b x y)) ->
  exists b', fill2_all b hs = Ok b' /\ same2 b' b /\
    dist2 b' = feed2 (dist2 b) hs /\
    (forall i d, nth_error (outflows b) i = Some d ->
       nth_error (outflows b') i = Some (feed2 d (filter (fun h => coordToIndex2 b (fst (fst h)) (snd (fst h)) =? - Z.of_nat (S i))%Z hs))) /\
    (forall i bn, nth_error (bins2 b) i = Some bn ->
       nth_error (bins2 b') i = Some {| b2x := b2x bn; b2y := b2y bn;
          b2dist := feed2 (b2dist bn) (filter (fun h => coordToIndex2 b (fst (fst h)) (snd (fst h)) =? Z.of_nat i)%Z hs) |}).
Proof.
  revert b; induction hs as [|[[x y] w] hs IH]; intros b S OKI.
  - exists b. cbn. split; auto. split; [apply same2_refl|]. split; auto. split; auto.
    intros i bn ->. destruct bn; auto.
  - cbn [fill2_all]. destruct (fill2_spec b x y w S (OKI x y)) as (b1 & E1 & S1 & T1 & O1 & B1).
    rewrite E1. cbn [rbind].
    assert (OKI1 : forall x y, ok_index b1 (coordToIndex2 b1 x y)).
    { intros x' y'. rewrite (same2_index b1 b); auto. unfold ok_index.
      destruct S1 as (_ & _ & _ & _ & -> & _). apply OKI. }
    destruct (IH b1 (same2_shape _ _ S1 S) OKI1) as (b2 & E2 & S2 & T2 & O2 & B2).
    exists b2. split; auto. split; [eapply same2_trans; eauto|].
    assert (F : forall z, filter (fun h => coordToIndex2 b1 (fst (fst h)) (snd (fst h)) =? z)%Z hs
                        = filter (fun h => coordToIndex2 b (fst (fst h)) (snd (fst h)) =? z)%Z hs).
    { intros z. apply filter_ext. intros h. rewrite (same2_index b1 b); auto. }
    split; [rewrite T2, T1; reflexivity|]. split.
    + intros i d Hd. specialize (O1 i). rewrite Hd in O1. cbn [option_map] in O1. apply O2 in O1. rewrite O1, F.
      cbn [filter fst snd]. destruct (_ =? _)%Z; reflexivity.
    + intros i bn Hb. specialize (B1 i). rewrite Hb in B1. cbn [option_map] in B1. apply B2 in B1. rewrite B1, F.
      cbn [filter fst snd]. destruct (_ =? _)%Z; reflexivity.
Qed.

(* ------------------------------------------------ from edges *)
Section Order.
Hypothesis L : OrdLaws N.

Lemma flat_rows_length {A B C} (f : A -> B -> C) (xs : list A) (ys : list B) :
  length (flat_map (fun y => map (fun x => f x y) xs) ys) = length xs * length ys.
Proof. induction ys; cbn; [lia|]. rewrite app_length, map_length, IHys. lia. Qed.
Lemma flat_rows_nth {A B C} (f : A -> B -> C) (xs : list A) (ys : list B) ix iy x y :
  nth_error xs ix = Some x -> nth_error ys iy = Some y ->
  nth_error (flat_map (fun y => map (fun x => f x y) xs) ys) (iy * length xs + ix) = Some (f x y).
Proof.
  revert iy; induction ys as [|y0 ys IH]; intros iy Hx Hy; [destruct iy; discriminate|].
  assert (Hl : ix < length xs) by (apply nth_error_Some; congruence).
  cbn [flat_map]. destruct iy.
  - cbn in Hy. inversion Hy; subst. cbn. rewrite nth_error_app1 by (rewrite map_length; auto).
    rewrite nth_error_map, Hx. reflexivity.
  - cbn [nth_error] in Hy. rewrite nth_error_app2 by (rewrite map_length; cbn; lia).
    rewrite map_length. replace (S iy * length xs + ix - length xs) with (iy * length xs + ix) by (cbn; lia).
    apply IH; auto.
Qed.

(* position of a coordinate with respect to one axis *)
Inductive side := Lo | Mid | Hi.
Definition axis_side (xr : Range N) (x : N) : side :=
  if nlt x (rmin xr) then Lo else if nisnan x || nle (rmax xr) x then Hi else Mid.

(* the compass regions, numbered as in the API: 1=NW 2=N 3=NE 4=E 5=SE 6=S 7=SW 8=W *)
Definition region (k : nat) : side * side :=
  match k with
  | 1 => (Lo, Hi) | 2 => (Mid, Hi) | 3 => (Hi, Hi) | 4 => (Hi, Mid)
  | 5 => (Hi, Lo) | 6 => (Mid, Lo) | 7 => (Lo, Lo) | _ => (Lo, Mid)
  end.
Definition side_eqb (a b : side) : bool :=
  match a, b with Lo, Lo | Mid, Mid | Hi, Hi => true | _, _ => false end.
Definition in_region (xr yr : Range N) (k : nat) (x y : N) : bool :=
  side_eqb (axis_side xr x) (fst (region k)) && side_eqb (axis_side yr y) (snd (region k)).

(* one axis: where IndexOf sends x, for contiguous bins *)
Lemma axis_index (rs : list (Range N)) xr x :
  wf_bins rs -> hull rs xr -> contiguous rs ->
  (axis_side xr x = Lo /\ IndexOf rs x = (-1)%Z) \/
  (axis_side xr x = Hi /\ IndexOf rs x = (-2)%Z) \/
  (axis_side xr x = Mid /\ exists i r, nth_error rs i = Some r /\ contains r x /\ IndexOf rs x = Z.of_nat i).
Proof.
  intros W H C. pose proof (wf_hull_le L _ _ W H) as HL.
  destruct (IndexOf_belongs L rs xr x W H) as (p & Hp & E). unfold axis_side.
  assert (U : forall q, belongs rs xr x q -> q = p) by (intros; eapply belongs_unique; eauto).
  destruct p.
  - right; right. destruct Hp as (r & Hr & Hc). split; [|exists i, r; auto].
    destruct (nlt x (rmin xr)) eqn:E1; [specialize (U PUnder E1); discriminate|].
    destruct (nisnan x || nle (rmax xr) x) eqn:E2; auto.
    apply orb_true_iff in E2. specialize (U POver E2). discriminate.
  - left. cbn in Hp. rewrite Hp. auto.
  - right; left. split; auto. destruct (nlt x (rmin xr)) eqn:E1; [specialize (U PUnder E1); discriminate|].
    cbn in Hp. apply orb_true_iff in Hp. rewrite Hp. auto.
  - exfalso. eapply contiguous_no_gap; eauto.
Qed.

Lemma contains_unique (rs : list (Range N)) x i j r s :
  wf_bins rs -> nth_error rs i = Some r -> nth_error rs j = Some s ->
  contains r x -> contains s x -> i = j.
Proof.
  intros W Hr Hs Cr Cs.
  assert (Hn : 0 < length rs) by (assert (i < length rs) by (apply nth_error_Some; congruence); lia).
  destruct (nth_error rs 0) as [f|] eqn:E0; [|apply nth_error_None in E0; lia].
  destruct (nth_error rs (length rs - 1)) as [l|] eqn:E1; [|apply nth_error_None in E1; lia].
  assert (H : hull rs {| rmin := rmin f; rmax := rmax l |}) by (exists f, l; auto).
  assert (Q : PBin i = PBin j).
  { apply (belongs_unique L rs _ x (PBin i) (PBin j) W H); [exists r|exists s]; auto. }
  congruence.
Qed.

Lemma containsb_iff (r : Range N) x : containsb r x = true <-> contains r x.
Proof. unfold containsb, contains. rewrite andb_true_iff. tauto. Qed.

Lemma index2_cases xs ys xr yr b x y :
  wf_bins xs -> hull xs xr -> contiguous xs ->
  wf_bins ys -> hull ys yr -> contiguous ys ->
  xedges b = xs -> yedges b = ys -> shape2 b ->
  ok_index b (coordToIndex2 b x y) /\
  (forall k, 1 <= k <= 8 -> (coordToIndex2 b x y =? - Z.of_nat k)%Z = in_region xr yr k x y) /\
  (forall ix iy rx ry, nth_error xs ix = Some rx -> nth_error ys iy = Some ry ->
     (coordToIndex2 b x y =? Z.of_nat (iy * length xs + ix))%Z = containsb rx x && containsb ry y).
Proof.
  intros W1 H1 C1 W2 H2 C2 Ex Ey S.
  assert (Sx := s_nx _ S). assert (Sy := s_ny _ S). assert (Sb := s_bins _ S).
  rewrite Ex in Sx. rewrite Ey in Sy.
  unfold ok_index, coordToIndex2. rewrite Ex, Ey.
  assert (NC : forall rs xr z i r, wf_bins rs -> hull rs xr -> axis_side xr z <> Mid ->
     nth_error rs i = Some r -> containsb r z = false).
  { intros rs xr0 z i r W H HM Hr. apply not_true_is_false. intros Q. apply containsb_iff in Q.
    assert (B : belongs rs xr0 z (PBin i)) by (exists r; auto).
    apply HM. unfold axis_side. destruct (nlt z (rmin xr0)) eqn:E1.
    - assert (PBin i = PUnder) by (eapply belongs_unique; eauto). discriminate.
    - destruct (nisnan z || nle (rmax xr0) z) eqn:E2; auto. apply orb_true_iff in E2.
      assert (PBin i = POver) by (eapply belongs_unique; eauto). discriminate. }
  assert (Hb : forall i, i < length xs -> forall j, j < length ys -> i + j * length xs < length xs * length ys) by (intros; nia).
  unfold in_region, region.
  destruct (axis_index xs xr x W1 H1 C1) as [[A1 A2]|[[A1 A2]|[A1 (i & r & A2 & A3 & A4)]]];
  destruct (axis_index ys yr y W2 H2 C2) as [[B1 B2]|[[B1 B2]|[B1 (j & s & B2 & B3 & B4)]]];
  rewrite A1, B1;
  (assert (K : forall k, 1 <= k <= 8 -> k = 1 \/ k = 2 \/ k = 3 \/ k = 4 \/ k = 5 \/ k = 6 \/ k = 7 \/ k = 8) by lia);
  try (rewrite A2; rewrite B2; unfold OverflowBin1D, UnderflowBin1D;
       replace (-1 =? Z.of_nat (nx b))%Z with false by (symmetry; apply Z.eqb_neq; lia);
       replace (-2 =? Z.of_nat (nx b))%Z with false by (symmetry; apply Z.eqb_neq; lia);
       cbn -[Z.of_nat Nat.mul Nat.add];
       split; [unfold BngNE, BngSE, BngSW, BngNW; lia|split;
         [intros k Hk; destruct (K k Hk) as [->|[->|[->|[->|[->|[->|[->| ->]]]]]]]; reflexivity
         |intros ix iy rx ry Hx Hy; rewrite (NC xs xr x ix rx) by (auto; congruence); cbn;
          generalize (iy * length xs + ix); intros [|?]; reflexivity]]).
  - (* Lo, Mid *)
    assert (j < length ys) by (apply nth_error_Some; congruence).
    rewrite A2, B4. unfold OverflowBin1D, UnderflowBin1D.
    replace (-1 =? Z.of_nat (nx b))%Z with false by (symmetry; apply Z.eqb_neq; lia).
    replace (Z.of_nat j =? -1)%Z with false by (symmetry; apply Z.eqb_neq; lia).
    replace (Z.of_nat j =? -2)%Z with false by (symmetry; apply Z.eqb_neq; lia).
    cbn -[Z.of_nat Nat.mul Nat.add]. split; [unfold BngW; lia|]. split.
    + intros k Hk; destruct (K k Hk) as [->|[->|[->|[->|[->|[->|[->| ->]]]]]]]; reflexivity.
    + intros ix iy rx ry Hx Hy; rewrite (NC xs xr x ix rx) by (auto; congruence); cbn.
      generalize (iy * length xs + ix); intros [|?]; reflexivity.
  - (* Hi, Mid *)
    assert (j < length ys) by (apply nth_error_Some; congruence).
    rewrite A2, B4. unfold OverflowBin1D, UnderflowBin1D.
    replace (-2 =? Z.of_nat (nx b))%Z with false by (symmetry; apply Z.eqb_neq; lia).
    replace (Z.of_nat j =? -1)%Z with false by (symmetry; apply Z.eqb_neq; lia).
    replace (Z.of_nat j =? -2)%Z with false by (symmetry; apply Z.eqb_neq; lia).
    cbn -[Z.of_nat Nat.mul Nat.add]. split; [unfold BngE; lia|]. split.
    + intros k Hk; destruct (K k Hk) as [->|[->|[->|[->|[->|[->|[->| ->]]]]]]]; reflexivity.
    + intros ix iy rx ry Hx Hy; rewrite (NC xs xr x ix rx) by (auto; congruence); cbn.
      generalize (iy * length xs + ix); intros [|?]; reflexivity.
  - (* Mid, Lo *)
    assert (i < length xs) by (apply nth_error_Some; congruence).
    rewrite A4, B2. unfold OverflowBin1D, UnderflowBin1D.
    replace (-1 =? Z.of_nat (ny b))%Z with false by (symmetry; apply Z.eqb_neq; lia).
    replace (Z.of_nat i =? -1)%Z with false by (symmetry; apply Z.eqb_neq; lia).
    replace (Z.of_nat i =? -2)%Z with false by (symmetry; apply Z.eqb_neq; lia).
    rewrite andb_false_r.
    cbn -[Z.of_nat Nat.mul Nat.add]. split; [unfold BngS; lia|]. split.
    + intros k Hk; destruct (K k Hk) as [->|[->|[->|[->|[->|[->|[->| ->]]]]]]]; reflexivity.
    + intros ix iy rx ry Hx Hy; rewrite (NC ys yr y iy ry) by (auto; congruence); rewrite andb_false_r.
      generalize (iy * length xs + ix); intros [|?]; reflexivity.
  - (* Mid, Hi *)
    assert (i < length xs) by (apply nth_error_Some; congruence).
    rewrite A4, B2. unfold OverflowBin1D, UnderflowBin1D.
    replace (-2 =? Z.of_nat (ny b))%Z with false by (symmetry; apply Z.eqb_neq; lia).
    replace (Z.of_nat i =? -1)%Z with false by (symmetry; apply Z.eqb_neq; lia).
    replace (Z.of_nat i =? -2)%Z with false by (symmetry; apply Z.eqb_neq; lia).
    rewrite andb_false_r.
    cbn -[Z.of_nat Nat.mul Nat.add]. split; [unfold BngN; lia|]. split.
    + intros k Hk; destruct (K k Hk) as [->|[->|[->|[->|[->|[->|[->| ->]]]]]]]; reflexivity.
    + intros ix iy rx ry Hx Hy; rewrite (NC ys yr y iy ry) by (auto; congruence); rewrite andb_false_r.
      generalize (iy * length xs + ix); intros [|?]; reflexivity.
  - (* Mid, Mid *)
    assert (Hi1 : i < length xs) by (apply nth_error_Some; congruence).
    assert (Hj1 : j < length ys) by (apply nth_error_Some; congruence).
    rewrite A4, B4. unfold OverflowBin1D, UnderflowBin1D.
    replace (Z.of_nat i =? Z.of_nat (nx b))%Z with false by (symmetry; apply Z.eqb_neq; lia).
    replace (Z.of_nat i =? -1)%Z with false by (symmetry; apply Z.eqb_neq; lia).
    replace (Z.of_nat i =? -2)%Z with false by (symmetry; apply Z.eqb_neq; lia).
    replace (Z.of_nat j =? -1)%Z with false by (symmetry; apply Z.eqb_neq; lia).
    replace (Z.of_nat j =? -2)%Z with false by (symmetry; apply Z.eqb_neq; lia).
    cbn -[Z.of_nat Nat.mul Nat.add Z.mul Z.add Z.eqb].
    split; [rewrite Sb, Sx, Sy; specialize (Hb i Hi1 j Hj1); nia|]. split.
    + intros k Hk. rewrite Sx. transitivity false; [apply Z.eqb_neq; lia|].
      destruct (K k Hk) as [->|[->|[->|[->|[->|[->|[->| ->]]]]]]]; reflexivity.
    + intros ix iy rx ry Hx Hy. rewrite Sx.
      assert (Hix : ix < length xs) by (apply nth_error_Some; congruence).
      destruct (containsb rx x && containsb ry y) eqn:Q.
      * apply andb_true_iff in Q. rewrite !containsb_iff in Q. destruct Q as [Q1 Q2].
        assert (i = ix) by (eapply contains_unique; [exact W1|..]; eauto).
        assert (j = iy) by (eapply contains_unique; [exact W2|..]; eauto).
        subst. apply Z.eqb_eq. lia.
      * apply Z.eqb_neq. intros E.
        assert (E' : j * length xs + i = iy * length xs + ix) by lia.
        assert (i = ix /\ j = iy) as [-> ->].
        { assert (j = iy) by nia. subst; split; lia. }
        assert (rx = r) by congruence. assert (ry = s) by congruence. subst.
        apply containsb_iff in A3, B3. rewrite A3, B3 in Q. discriminate.
Qed.
End Order.
End D2.

(* ------------------------------------------------ FromBins *)
Section FromBins.
Context {N : Num}.
Hypothesis L : OrdLaws N.

Lemma frombins_sorted_disjoint (l : list (Range N)) :
  (forall r, In r l -> nlt (rmin r) (rmax r) = true) ->
  (forall i a b, nth_error l i = Some a -> nth_error l (S i) = Some b -> nlt (rmin b) (rmin a) = false) ->
  (existsb (fun p => nlt (rmin (snd p)) (rmax (fst p))) (pairs l) = false <-> pairwise_disjoint l).
Proof.
  intros V S.
  assert (Nn : forall r, In r l -> nisnan (rmin r) = false /\ nisnan (rmax r) = false).
  { intros r Hr. apply V in Hr. apply (o_lt_le _ L) in Hr. apply (o_le_nan _ L) in Hr. auto. }
  split.
  - intros E.
    assert (W : l <> [] -> wf_bins l).
    { intros Hne. split; auto. split; [intros; apply (o_lt_le _ L); auto|].
      intros i r1 r2 H1 H2. destruct (nlt (rmin r2) (rmax r1)) eqn:Q.
      - enough (existsb (fun p => nlt (rmin (snd p)) (rmax (fst p))) (pairs l) = true) by congruence.
        apply existsb_pairs. exists i, r1, r2. auto.
      - apply (o_total _ L); auto; [apply (Nn r2)|apply (Nn r1)]; eapply nth_error_In; eauto. }
    intros i j a b Hij Ha Hb.
    assert (l <> []) by (intros ->; destruct i; discriminate). specialize (W H).
    assert (i < length l) by (apply nth_error_Some; congruence).
    assert (j < length l) by (apply nth_error_Some; congruence).
    destruct (Nat.lt_trichotomy i j) as [Q|[Q|Q]]; [left|congruence|right].
    + pose proof (wf_min_mono L l a W i j Q H1) as M.
      rewrite (nth_error_nth _ _ _ Ha), (nth_error_nth _ _ _ Hb) in M. auto.
    + pose proof (wf_min_mono L l a W j i Q H0) as M.
      rewrite (nth_error_nth _ _ _ Ha), (nth_error_nth _ _ _ Hb) in M. auto.
  - intros P. destruct (existsb _ _) eqn:E; auto. apply existsb_pairs in E.
    destruct E as (i & a & b & Ha & Hb & Q). cbn in Q.
    destruct (P i (Datatypes.S i) a b) as [D|D]; auto.
    + rewrite (o_le_not_lt _ L _ _ D) in Q. discriminate.
    + assert (nle (rmin a) (rmin b) = true).
      { apply (o_total _ L); [apply Nn; eapply nth_error_In; eauto|apply Nn; eapply nth_error_In; eauto|]. eapply S; eauto. }
      assert (X := V b (nth_error_In _ _ Hb)).
      rewrite (o_le_not_lt _ L (rmax b) (rmin b)) in X; [discriminate|].
      eapply (o_le_trans _ L); eauto.
Qed.
End FromBins.
