(* Proofs: constructors, 2-dim histograms, exact arithmetic. *)
From Coq Require Import ZArith List Bool Arith Lia Ring_theory Ring Permutation Sorted.
From Verif Require Import GoLib F64 HbookModel HbookSpec HbookProofs.
Import ListNotations.

Section Generic.
Context {N : Num}.

Lemma list_eq_nth {A} (l l' : list A) :
  (forall i, nth_error l i = nth_error l' i) -> l = l'.
Proof.
  revert l'; induction l as [|a l IH]; intros [|a' l'] H; auto.
  - specialize (H 0); discriminate.
  - specialize (H 0); discriminate.
  - f_equal; [specialize (H 0); cbn in H; congruence|]. apply IH. intros i. apply (H (S i)).
Qed.

(* consecutive pairs *)
Lemma pairs_length {A} (l : list A) : length (pairs l) = length l - 1.
Proof.
  induction l as [|a [|b l] IH]; auto. cbn [pairs length] in *. rewrite IH. cbn [length]. lia.
Qed.
Lemma pairs_nth {A} (l : list A) i p :
  nth_error (pairs l) i = Some p <-> nth_error l i = Some (fst p) /\ nth_error l (S i) = Some (snd p).
Proof.
  revert i; induction l as [|a [|b l] IH]; intros i.
  - cbn. destruct i; split; [discriminate|intros [? ?]; discriminate|discriminate|intros [? ?]; discriminate].
  - cbn. destruct i; split; try discriminate.
    + intros [_ H]; discriminate.
    + cbn. intros [H _]. destruct i; discriminate.
  - destruct i.
    + cbn. split.
      * intros H; inversion H; auto.
      * intros [H1 H2]. destruct p; cbn in *; congruence.
    + change (pairs (a :: b :: l)) with ((a, b) :: pairs (b :: l)).
      cbn [nth_error]. rewrite IH. reflexivity.
Qed.
Lemma existsb_pairs {A} (f : A * A -> bool) (l : list A) :
  existsb f (pairs l) = true <->
  exists i a b, nth_error l i = Some a /\ nth_error l (S i) = Some b /\ f (a, b) = true.
Proof.
  rewrite existsb_exists. split.
  - intros ([a b] & Hin & Hf). apply In_nth_error in Hin. destruct Hin as [i Hi].
    apply pairs_nth in Hi. exists i, a, b. tauto.
  - intros (i & a & b & Ha & Hb & Hf). exists (a, b). split; auto.
    apply nth_error_In with i. apply pairs_nth. auto.
Qed.

Lemma is_sorted_nth (l : list N) :
  is_sorted l = true <->
  forall i a b, nth_error l i = Some a -> nth_error l (S i) = Some b -> f64slice_less b a = false.
Proof.
  induction l as [|x [|y l] IH].
  - cbn. split; auto. intros _ i a b H; destruct i; discriminate.
  - cbn. split; auto. intros _ i a b _ H. destruct i; discriminate.
  - change (is_sorted (x :: y :: l)) with (negb (f64slice_less y x) && is_sorted (y :: l)).
    rewrite andb_true_iff, IH, negb_true_iff. split.
    + intros [H1 H2] [|i] a b Ha Hb; [cbn in *; congruence|]. apply (H2 i); auto.
    + intros H. split; [apply (H 0); auto|]. intros i a b Ha Hb. apply (H (S i)); auto.
Qed.

Section Order.
Hypothesis L : OrdLaws N.

Lemma nle_refl (x : N) : nisnan x = false -> nle x x = true.
Proof.
  intros Hx. destruct (nlt x x) eqn:E; [apply (o_lt_le _ L); auto|apply (o_total _ L); auto].
Qed.

Definition contiguous (rs : list (Range N)) : Prop :=
  forall i r1 r2, nth_error rs i = Some r1 -> nth_error rs (S i) = Some r2 -> rmax r1 = rmin r2.

Lemma contiguous_no_gap (rs : list (Range N)) xr x :
  wf_bins rs -> hull rs xr -> contiguous rs -> ~ belongs rs xr x PGap.
Proof.
  intros (_ & W1 & _) (f & l & Hf & Hl & Em & EM) C (G1 & G2 & G3).
  rewrite Em in G1. rewrite EM in G2.
  assert (A : forall i r, nth_error rs i = Some r -> nle (rmin r) x = true).
  { induction i; intros r Hr; [congruence|].
    assert (Hi : S i < length rs) by (apply nth_error_Some; congruence).
    destruct (nth_error rs i) as [r0|] eqn:E0; [|apply nth_error_None in E0; lia].
    rewrite <- (C i r0 r E0 Hr). apply (o_total _ L).
    - apply (o_le_nan _ L) in G1. tauto.
    - apply nth_error_In in E0. apply W1 in E0. apply (o_le_nan _ L) in E0. tauto.
    - destruct (nlt x (rmax r0)) eqn:E; auto. exfalso. apply (G3 i r0 E0). split; auto. }
  apply (G3 _ _ Hl). split; auto. eapply A; eauto.
Qed.

(* FromEdges, edges without NaN *)
Definition edge_ranges (edges : list N) : list (Range N) := map mk_range (pairs edges).

Definition strictly_increasing (edges : list N) : Prop :=
  forall i a b, nth_error edges i = Some a -> nth_error edges (S i) = Some b -> nlt a b = true.

Lemma edges_check (edges : list N) :
  (forall e, In e edges -> nisnan e = false) ->
  (is_sorted edges = true /\ existsb (fun p => neq (fst p) (snd p)) (pairs edges) = false)
  <-> strictly_increasing edges.
Proof.
  intros Hn. split.
  - intros [H1 H2] i a b Ha Hb. rewrite is_sorted_nth in H1.
    specialize (H1 i a b Ha Hb). unfold f64slice_less in H1. apply orb_false_iff in H1.
    assert (Na := Hn a (nth_error_In _ _ Ha)). assert (Nb := Hn b (nth_error_In _ _ Hb)).
    destruct (nlt a b) eqn:E; auto. exfalso.
    enough (existsb (fun p => neq (fst p) (snd p)) (pairs edges) = true) by congruence.
    apply existsb_pairs. exists i, a, b. repeat split; auto. cbn. apply (o_eq _ L).
    split; apply (o_total _ L); tauto.
  - intros S. split.
    + apply is_sorted_nth. intros i a b Ha Hb. unfold f64slice_less.
      rewrite (Hn b (nth_error_In _ _ Hb)). rewrite andb_false_l, orb_false_r.
      apply (o_le_not_lt _ L). apply (o_lt_le _ L). eapply S; eauto.
    + destruct (existsb _ _) eqn:E; auto. apply existsb_pairs in E.
      destruct E as (i & a & b & Ha & Hb & E). cbn in E. apply (o_eq _ L) in E.
      assert (Q := S i a b Ha Hb). rewrite (o_le_not_lt _ L b a) in Q; [discriminate|tauto].
Qed.

Lemma strictly_increasing_no_nan (edges : list N) :
  1 < length edges -> strictly_increasing edges -> forall e, In e edges -> nisnan e = false.
Proof.
  intros H S e He. apply In_nth_error in He. destruct He as [i Hi].
  assert (i < length edges) by (apply nth_error_Some; congruence).
  destruct i as [|i].
  - destruct (nth_error edges 1) as [b|] eqn:E; [|apply nth_error_None in E; lia].
    assert (Q := S 0 e b Hi E). apply (o_lt_le _ L) in Q. apply (o_le_nan _ L) in Q. tauto.
  - destruct (nth_error edges i) as [b|] eqn:E; [|apply nth_error_None in E; lia].
    assert (Q := S i b e E Hi). apply (o_lt_le _ L) in Q. apply (o_le_nan _ L) in Q. tauto.
Qed.

Lemma edge_ranges_wf (edges : list N) d :
  1 < length edges -> strictly_increasing edges ->
  let rs := edge_ranges edges in
  wf_bins rs /\ hull rs {| rmin := nth 0 edges d; rmax := nth (length edges - 1) edges d |} /\ contiguous rs.
Proof.
  intros H S rs.
  assert (Hr : forall i r, nth_error rs i = Some r <->
     nth_error edges i = Some (rmin r) /\ nth_error edges (Datatypes.S i) = Some (rmax r)).
  { intros i r. unfold rs, edge_ranges. rewrite nth_error_map. split.
    - destruct (nth_error (pairs edges) i) as [p|] eqn:E; [|discriminate]. cbn.
      intros Q; inversion Q; subst. apply pairs_nth in E. auto.
    - intros [A B]. assert (nth_error (pairs edges) i = Some (rmin r, rmax r)) by (apply pairs_nth; auto).
      rewrite H0. cbn. destruct r; auto. }
  assert (Hl : length rs = length edges - 1) by (unfold rs, edge_ranges; rewrite map_length; apply pairs_length).
  split; [|split].
  - split; [intros E; rewrite E in Hl; cbn in Hl; lia|]. split.
    + intros r Hin. apply In_nth_error in Hin. destruct Hin as [i Hi]. apply Hr in Hi.
      apply (o_lt_le _ L). eapply S; apply Hi.
    + intros i r1 r2 H1 H2. apply Hr in H1, H2. destruct H1 as [_ H1], H2 as [H2 _].
      rewrite H1 in H2. assert (E : rmin r2 = rmax r1) by congruence. rewrite E. apply nle_refl.
      apply (strictly_increasing_no_nan edges H S). eapply nth_error_In; eauto.
  - destruct (nth_error rs 0) as [f|] eqn:Ef; [|apply nth_error_None in Ef; lia].
    destruct (nth_error rs (length rs - 1)) as [l|] eqn:El; [|apply nth_error_None in El; lia].
    exists f, l. split; [exact Ef|]. split; [exact El|]. apply Hr in Ef, El. destruct Ef as [Ef _], El as [_ El].
    cbn. rewrite (nth_error_nth _ _ _ Ef). split; auto.
    replace (length edges - 1) with (Datatypes.S (length rs - 1)) by lia.
    rewrite (nth_error_nth _ _ _ El). auto.
  - intros i r1 r2 H1 H2. apply Hr in H1, H2. destruct H1 as [_ H1], H2 as [H2 _]. congruence.
Qed.

(* ----------------------------------------------------------- FromBins *)
Definition is_sorter (sorter : list (Range N) -> list (Range N)) : Prop :=
  forall l, Permutation (sorter l) l /\
    ((forall r, In r l -> nisnan (rmin r) = false) ->
     forall i a b, nth_error (sorter l) i = Some a -> nth_error (sorter l) (S i) = Some b ->
     nlt (rmin b) (rmin a) = false).

Definition disjoint (a b : Range N) : Prop :=
  nle (rmax a) (rmin b) = true \/ nle (rmax b) (rmin a) = true.
Definition pairwise_disjoint (l : list (Range N)) : Prop :=
  forall i j a b, i <> j -> nth_error l i = Some a -> nth_error l j = Some b -> disjoint a b.

Lemma pairwise_disjoint_perm l l' : Permutation l l' -> pairwise_disjoint l -> pairwise_disjoint l'.
Proof.
  intros P. rewrite Permutation_nth_error in P. destruct P as (Len & f & Inj & E).
  intros H i j a b Hij Ha Hb. rewrite E in Ha, Hb. eapply (H (f i) (f j)); eauto.
Qed.

End Order.
End Generic.

(* ----------------------------------------------------------- exact arithmetic *)
Section Exact.
Context {N : Num}.
Variable nsub : N -> N -> N.
Variable nopp : N -> N.
Hypothesis RT : ring_theory (@nzero N) none nadd nmul nsub nopp eq.
Add Ring NR : RT.

Definition dadd (a b : Dist1D N) : Dist1D N := Dist1D_addScaled a none (nmul none none) b.

Lemma nsum_shift (l : list N) a : fold_left nadd l a = nadd a (nsum l).
Proof.
  unfold nsum. revert a; induction l as [|x l IH]; intros a; cbn; [ring|].
  rewrite IH, (IH (nadd nzero x)). ring.
Qed.
Lemma nsum_cons x (l : list N) : nsum (x :: l) = nadd x (nsum l).
Proof. unfold nsum at 1. cbn. rewrite nsum_shift. ring. Qed.
Lemma nsum_app (a b : list N) : nsum (a ++ b) = nadd (nsum a) (nsum b).
Proof. unfold nsum at 1. rewrite fold_left_app, nsum_shift. reflexivity. Qed.
Lemma nsum_scale (f : N) l : nsum (map (nmul f) l) = nmul f (nsum l).
Proof. induction l; [cbn; ring|]. cbn [map]. rewrite !nsum_cons, IHl. ring. Qed.

(* entries with their weight multiplied *)
Definition scale_hist (alpha : N) (hs : list (N * N)) := map (fun h => (fst h, nmul alpha (snd h))) hs.

Lemma stats_app_scaled A B alpha :
  Dist1D_addScaled (stats1 A) alpha (nmul alpha alpha) (stats1 B) = stats1 (A ++ scale_hist alpha B).
Proof.
  unfold stats1, stats0, scale_hist, Dist1D_addScaled, Dist0D_addScaled. cbn.
  rewrite !map_app, !map_map, !nsum_app, !app_length, !map_length. cbn [fst snd].
  assert (E : forall g h : N * N -> N, forall k, (forall x, h x = nmul k (g x)) ->
     nsum (map h B) = nmul k (nsum (map g B))).
  { intros g h k Hk. rewrite <- nsum_scale, map_map. f_equal. apply map_ext; auto. }
  rewrite Nat2Z.inj_add. f_equal; [f_equal|..].
  - f_equal. symmetry. rewrite <- nsum_scale, map_map. reflexivity.
  - f_equal. symmetry. apply E. intros; cbn; ring.
  - f_equal. symmetry. apply E. intros; cbn; ring.
  - f_equal. symmetry. apply E. intros; cbn; ring.
Qed.

Lemma stats_scaled A f : Dist1D_scaleW (stats1 A) f = stats1 (scale_hist f A).
Proof.
  unfold stats1, stats0, scale_hist, Dist1D_scaleW, Dist0D_scaleW. cbn.
  rewrite !map_map, !map_length. cbn [fst snd].
  assert (E : forall g h : N * N -> N, forall k, (forall x, h x = nmul k (g x)) ->
     nsum (map h A) = nmul k (nsum (map g A))).
  { intros g h k Hk. rewrite <- nsum_scale, map_map. f_equal. apply map_ext; auto. }
  f_equal; [f_equal|..].
  - rewrite (E snd (fun x => nmul f (snd x)) f); auto. ring.
  - rewrite (E (fun x => nmul (snd x) (snd x)) (fun x => nmul (nmul f (snd x)) (nmul f (snd x))) (nmul f f)); [|intros; ring]. ring.
  - rewrite (E (fun x => nmul (snd x) (fst x)) (fun x => nmul (nmul f (snd x)) (fst x)) f); [|intros; ring]. ring.
  - rewrite (E (fun x => nmul (nmul (snd x) (fst x)) (fst x)) (fun x => nmul (nmul (nmul f (snd x)) (fst x)) (fst x)) f); [|intros; ring]. ring.
Qed.

(* the histogram obtained by filling from empty, as a value *)
Definition hist_of (rs : list (Range N)) (xr : Range N) (hs : list (N * N)) : Binning1D N :=
  let e := empty_binning rs xr in
  let sel z := stats1 (filter (fun h => coordToIndex e (fst h) =? z)%Z hs) in
  {| bins := map (fun p => {| brange := snd p; bdist := sel (Z.of_nat (fst p)) |})
                 (combine (seq 0 (length rs)) rs);
     bdist_tot := stats1 hs; under := sel (-1)%Z; over := sel (-2)%Z; xrange := xr |}.

Lemma combine_seq_nth {A} (l : list A) n i :
  nth_error (combine (seq n (length l)) l) i = option_map (fun a => (n + i, a)) (nth_error l i).
Proof.
  revert n i; induction l; intros n i; cbn; [destruct i; reflexivity|].
  destruct i; cbn; [f_equal; f_equal; lia|]. rewrite IHl. destruct (nth_error l i); cbn; auto.
  f_equal; f_equal; lia.
Qed.

Lemma fill_all_hist_of rs xr hs : fill_all (empty_binning rs xr) hs = Ok (hist_of rs xr hs).
Proof.
  destruct (fill_all_spec (empty_binning rs xr) hs) as (b & E & [S1 S2] & T & U & O & B).
  rewrite E. f_equal. unfold hist_of. destruct b as [bb tt uu oo xx]; cbn in *.
  rewrite <- !feed_stats. f_equal; auto.
  apply list_eq_nth. intros i. rewrite nth_error_map, combine_seq_nth.
  destruct (nth_error rs i) as [r|] eqn:En; cbn.
  - rewrite (B i (Bin1D_new r)); [|rewrite nth_error_map, En; reflexivity].
    cbn. rewrite feed_stats. reflexivity.
  - apply nth_error_None. apply nth_error_None in En.
    assert (length (map brange bb) = length (map brange (map Bin1D_new rs))) by congruence.
    rewrite !map_length in H. lia.
Qed.

Lemma filter_scale (p : N -> bool) alpha hs :
  filter (fun h => p (fst h)) (scale_hist alpha hs) = scale_hist alpha (filter (fun h => p (fst h)) hs).
Proof.
  unfold scale_hist. induction hs as [|h hs IH]; cbn; auto. destruct (p (fst h)); cbn; rewrite IH; auto.
Qed.

Lemma addScaled_hist_of rs xr A B alpha :
  neq (rmin xr) (rmin xr) = true -> neq (rmax xr) (rmax xr) = true ->
  AddScaledH1D (hist_of rs xr A) alpha (hist_of rs xr B) = Ok (hist_of rs xr (A ++ scale_hist alpha B)).
Proof.
  intros E1 E2. unfold AddScaledH1D.
  assert (Hl : forall X, length (bins (hist_of rs xr X)) = length rs).
  { intros. cbn. rewrite map_length, combine_length, seq_length. lia. }
  rewrite !Hl, Nat.eqb_refl. cbn [negb xrange hist_of rmin rmax]. rewrite E1, E2. cbn [negb orb].
  f_equal. unfold hist_of. cbn.
  set (ci := coordToIndex (empty_binning rs xr)).
  assert (F : forall z, Dist1D_addScaled
     (stats1 (filter (fun h => ci (fst h) =? z)%Z A)) alpha (nmul alpha alpha)
     (stats1 (filter (fun h => ci (fst h) =? z)%Z B))
     = stats1 (filter (fun h => ci (fst h) =? z)%Z (A ++ scale_hist alpha B))).
  { intros z. rewrite stats_app_scaled, filter_app.
    rewrite (filter_scale (fun x => ci x =? z)%Z). reflexivity. }
  clearbody ci. rewrite !F, stats_app_scaled. f_equal.
  generalize (combine (seq 0 (length rs)) rs). clear - F.
  induction l as [|p l IH]; cbn; auto. rewrite IH, F. reflexivity.
Qed.

Lemma scaleW_hist_of rs xr A f : scaleW (hist_of rs xr A) f = hist_of rs xr (scale_hist f A).
Proof.
  unfold scaleW, hist_of. cbn. set (ci := coordToIndex (empty_binning rs xr)).
  assert (F : forall z, Dist1D_scaleW (stats1 (filter (fun h => ci (fst h) =? z)%Z A)) f
     = stats1 (filter (fun h => ci (fst h) =? z)%Z (scale_hist f A))).
  { intros z. rewrite stats_scaled. rewrite (filter_scale (fun x => ci x =? z)%Z). reflexivity. }
  rewrite !F, stats_scaled. f_equal. rewrite map_map. cbn. apply map_ext. intros; rewrite F; auto.
Qed.

(* Integral: the sum of the weights of the selected fills *)
Definition wsum (hs : list (N * N)) : N := nsum (map snd hs).

Lemma wsum_filter_orb (p q : N * N -> bool) hs :
  (forall h, p h = true -> q h = false) ->
  nadd (wsum (filter p hs)) (wsum (filter q hs)) = wsum (filter (fun h => p h || q h) hs).
Proof.
  intros D. unfold wsum. induction hs as [|h hs IH]; [cbn; ring|].
  cbn [filter]. destruct (p h) eqn:P.
  - rewrite (D h P). cbn [orb map]. rewrite !nsum_cons, <- IH. ring.
  - destruct (q h); cbn [orb map]; rewrite ?nsum_cons, <- IH; ring.
Qed.

Lemma integral_bins (ci : N -> Z) (sel : Range N -> bool) (hs : list (N * N)) (l : list (nat * Range N)) :
  NoDup (map fst l) ->
  forall acc,
  fold_left (fun acc bn => if sel (brange bn) then nadd acc (dSumW (d0 (bdist bn))) else acc)
    (map (fun p => {| brange := snd p; bdist := stats1 (filter (fun h => ci (fst h) =? Z.of_nat (fst p))%Z hs) |}) l) acc
  = nadd acc (wsum (filter (fun h => existsb (fun p => sel (snd p) && (ci (fst h) =? Z.of_nat (fst p))%Z) l) hs)).
Proof.
  induction l as [|p l IH]; intros ND acc.
  - cbn. replace (filter _ hs) with (@nil (N * N)); [cbn; ring|].
    clear. induction hs; auto.
  - inversion ND as [|? ? Hnin ND']; subst. cbn [map fold_left brange bdist]. rewrite IH; auto.
    destruct (sel (snd p)) eqn:E.
    + set (q := fun h : N * N => existsb (fun p => sel (snd p) && (ci (fst h) =? Z.of_nat (fst p))%Z) l).
      transitivity (nadd acc (wsum (filter (fun h => (ci (fst h) =? Z.of_nat (fst p))%Z || q h) hs))).
      * rewrite <- (wsum_filter_orb (fun h => (ci (fst h) =? Z.of_nat (fst p))%Z) q).
        { cbn. unfold wsum. ring. }
        intros h Hh. apply not_true_is_false. intros Q. apply existsb_exists in Q.
        destruct Q as (r & Hr & Q). apply andb_true_iff in Q. apply Hnin.
        replace (fst p) with (fst r) by lia. apply in_map; auto.
      * f_equal. f_equal. apply filter_ext. intros h. cbn [existsb]. rewrite E. reflexivity.
    + f_equal. f_equal. apply filter_ext. intros h. cbn [existsb]. rewrite E. reflexivity.
Qed.

Lemma seq_combine_fst {A} n (l : list A) : map fst (combine (seq n (length l)) l) = seq n (length l).
Proof. revert n; induction l; intros; cbn; auto. rewrite IHl; auto. Qed.

(* which entries an interval selects *)
Definition selected (rs : list (Range N)) (xr : Range N) (mn mx : N) (h : N * N) : bool :=
  let c := coordToIndex (empty_binning rs xr) (fst h) in
  existsb (fun p => nle mn (rmin (snd p)) && nlt (rmin (snd p)) mx && (c =? Z.of_nat (fst p))%Z)
          (combine (seq 0 (length rs)) rs)
  || (nisninf mn && (c =? -1)%Z) || (nisinf mx && (c =? -2)%Z).

Lemma filter_false {A} (l : list A) : filter (fun _ => false) l = [].
Proof. induction l; auto. Qed.

Lemma Integral2_hist_of rs xr hs mn mx :
  nlt mx mn = false ->
  Integral2 (hist_of rs xr hs) mn mx = Ok (wsum (filter (selected rs xr mn mx) hs)).
Proof.
  intros H. unfold Integral2. rewrite H. f_equal. unfold hist_of. cbn [bins under over].
  set (ci := coordToIndex (empty_binning rs xr)).
  rewrite (integral_bins ci (fun r => nle mn (rmin r) && nlt (rmin r) mx)).
  2:{ rewrite seq_combine_fst. apply seq_NoDup. }
  unfold selected. fold ci.
  set (q := fun h : N * N => existsb _ (combine (seq 0 (length rs)) rs)).
  assert (Dq : forall h, q h = true -> (0 <= ci (fst h))%Z).
  { intros h Q. apply existsb_exists in Q. destruct Q as (p & _ & Q).
    apply andb_true_iff in Q. destruct Q as [_ Q]. apply Z.eqb_eq in Q. lia. }
  transitivity (nadd (nadd (wsum (filter q hs)) (wsum (filter (fun h => nisninf mn && (ci (fst h) =? -1)%Z) hs)))
                     (wsum (filter (fun h => nisinf mx && (ci (fst h) =? -2)%Z) hs))).
  - destruct (nisninf mn), (nisinf mx); cbn [andb]; rewrite ?filter_false; unfold wsum; cbn; ring.
  - rewrite !wsum_filter_orb; auto.
    + intros h Q. destruct (q h) eqn:Eq; cbn in Q.
      * apply Dq in Eq. destruct (nisinf mx); cbn; auto. apply Z.eqb_neq. lia.
      * apply andb_true_iff in Q. destruct (nisinf mx); cbn; auto. apply Z.eqb_neq. lia.
    + intros h Q. apply Dq in Q. destruct (nisninf mn); cbn; auto. apply Z.eqb_neq. lia.
Qed.
End Exact.
