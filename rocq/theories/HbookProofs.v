(* Proofs about the histogram model. *)
From Coq Require Import ZArith List Bool Arith Lia Ring_theory Ring.
From Verif Require Import GoLib F64 HbookModel HbookSpec.
Import ListNotations.

Lemma f64_ord add mul : OrdLaws (f64num add mul).
Proof.
  constructor; cbn.
  - apply flt_le.
  - apply flt_le_trans.
  - apply fle_lt_trans.
  - apply fle_trans.
  - apply fle_not_lt.
  - apply flt_total.
  - intros x y H. apply fle_true in H. destruct H as (a & b & H1 & H2 & _).
    unfold is_nanb. rewrite H1, H2. auto.
  - intros x y H. unfold is_nanb in H. rewrite !flt_key. destruct (fkey x); [discriminate|].
    simpl. split; auto. destruct (fkey y); auto.
  - intros x y. rewrite feq_true, !fle_true. split.
    + intros (a & H1 & H2). split; exists a, a; repeat split; auto; lia.
    + intros ((a & b & H1 & H2 & L) & (c & d & H3 & H4 & L2)).
      rewrite H1 in H4; rewrite H2 in H3. inversion H3; inversion H4; subst.
      exists d. split; auto. rewrite H2. f_equal. lia.
Qed.

Section Generic.
Context {N : Num}.

(* ------------------------------------------------------------ index bounds, any numbers *)
Lemma IndexOf_range (p : list (Range N)) v :
  IndexOf p v = (-1)%Z \/ IndexOf p v = (-2)%Z \/ (0 <= IndexOf p v <= Z.of_nat (length p))%Z.
Proof.
  unfold IndexOf, OverflowBin1D, UnderflowBin1D.
  set (i := go_search _ _).
  pose proof (go_search_spec (length p)
     (fun i => nlt v (rmax (nth i p {| rmin := nzero; rmax := nzero |})))) as G.
  cbn zeta in G. destruct G as (G & _). fold i in G.
  destruct (Nat.eqb_spec i (length p)); auto.
  destruct (_ && _); auto. destruct (_ && _); right; right; lia.
Qed.

Lemma coordToIndex_range (b : Binning1D N) x :
  coordToIndex b x = (-1)%Z \/ coordToIndex b x = (-2)%Z \/
  (0 <= coordToIndex b x <= Z.of_nat (length (bins b)))%Z.
Proof.
  unfold coordToIndex. destruct (nlt _ _); auto. destruct (nle _ _); auto.
  pose proof (IndexOf_range (map brange (bins b)) x). rewrite map_length in H. apply H.
Qed.

(* same bins and range: same index *)
Definition same_shape (a b : Binning1D N) : Prop :=
  map brange (bins a) = map brange (bins b) /\ xrange a = xrange b.
Lemma same_shape_index a b x : same_shape a b -> coordToIndex a x = coordToIndex b x.
Proof. intros [H1 H2]. unfold coordToIndex. rewrite H1, H2. reflexivity. Qed.
Lemma same_shape_len a b : same_shape a b -> length (bins a) = length (bins b).
Proof. intros [H _]. rewrite <- (map_length brange (bins a)), H, map_length; auto. Qed.
Lemma same_shape_trans a b c : same_shape a b -> same_shape b c -> same_shape a c.
Proof. intros [A1 A2] [B1 B2]. split; congruence. Qed.

(* effect of one fill *)
Lemma fill_spec (b : Binning1D N) x w :
  let idx := coordToIndex b x in
  exists b', fill b x w = Ok b' /\ same_shape b' b /\
    bdist_tot b' = Dist1D_fill (bdist_tot b) x w /\
    under b' = (if (idx =? -1)%Z then Dist1D_fill (under b) x w else under b) /\
    over b' = (if (idx =? -2)%Z then Dist1D_fill (over b) x w else over b) /\
    (forall i, nth_error (bins b') i =
       option_map (fun bn => if (idx =? Z.of_nat i)%Z then Bin1D_fill x w bn else bn)
                  (nth_error (bins b) i)).
Proof.
  intros idx. unfold fill. fold idx.
  destruct (coordToIndex_range b x) as [E|[E|E]]; fold idx in E.
  - rewrite E. cbn [Z.ltb Z.opp Z.sub Z.add Z.compare Z.pos_sub]. eexists. split; [reflexivity|].
    split; [split; reflexivity|]. cbn [bdist_tot under over bins]. repeat split; auto.
    intros i. destruct (nth_error (bins b) i); cbn [option_map]; auto.
    destruct (Z.eqb_spec (-1) (Z.of_nat i)); auto; lia.
  - rewrite E. cbn [Z.ltb Z.opp Z.sub Z.add Z.compare Z.pos_sub Pos.add Pos.pred_double]. eexists. split; [reflexivity|].
    split; [split; reflexivity|]. cbn [bdist_tot under over bins]. repeat split; auto.
    intros i. destruct (nth_error (bins b) i); cbn [option_map]; auto.
    destruct (Z.eqb_spec (-2) (Z.of_nat i)); auto; lia.
  - destruct (Z.ltb_spec idx 0); [lia|].
    destruct (Z.eqb_spec idx (-1)); [lia|]. destruct (Z.eqb_spec idx (-2)); [lia|].
    destruct (Z.eqb_spec idx (Z.of_nat (length (bins b)))).
    + eexists. split; [reflexivity|]. split; [split; reflexivity|]. cbn. repeat split; auto.
      intros i. destruct (nth_error (bins b) i) eqn:En; cbn; auto.
      assert (i < length (bins b)) by (apply nth_error_Some; congruence).
      destruct (Z.eqb_spec idx (Z.of_nat i)); auto; lia.
    + assert (Hlt : Z.to_nat idx < length (bins b)) by lia.
      destruct (upd_nth_ok (bins b) (Z.to_nat idx) (Bin1D_fill x w) Hlt) as (l' & El & Ll).
      rewrite El. cbn [rbind]. apply upd_nth_nth in El. destruct El as [_ El].
      eexists. split; [reflexivity|].
      assert (Hn : forall i, nth_error l' i =
         option_map (fun bn => if (idx =? Z.of_nat i)%Z then Bin1D_fill x w bn else bn)
                  (nth_error (bins b) i)).
      { intros i. rewrite El. destruct (Nat.eqb_spec i (Z.to_nat idx)).
        - subst i. rewrite Z2Nat.id by lia. rewrite Z.eqb_refl. reflexivity.
        - destruct (Z.eqb_spec idx (Z.of_nat i)); [lia|]. destruct (nth_error (bins b) i); auto. }
      split; [|cbn; repeat split; auto].
      split; [|reflexivity]. cbn. clear - Hn Ll.
      assert (H : forall i, nth_error (map brange l') i = nth_error (map brange (bins b)) i).
      { intros i. rewrite !nth_error_map, Hn. destruct (nth_error (bins b) i); cbn; auto.
        destruct (_ =? _)%Z; auto. }
      clear Hn. revert l' Ll H. induction (bins b) as [|a l IH]; intros [|a' l'] L H; cbn in *; try lia; auto.
      f_equal; [specialize (H 0); cbn in H; congruence|]. apply IH; [lia|]. intros i. apply (H (S i)).
Qed.

(* feeding a list of entries to a distribution *)
Definition feed (d : Dist1D N) (hs : list (N * N)) : Dist1D N :=
  fold_left (fun d h => Dist1D_fill d (fst h) (snd h)) hs d.

Lemma fill_all_spec (b : Binning1D N) hs :
  exists b', fill_all b hs = Ok b' /\ same_shape b' b /\
    bdist_tot b' = feed (bdist_tot b) hs /\
    under b' = feed (under b) (filter (fun h => coordToIndex b (fst h) =? -1)%Z hs) /\
    over b' = feed (over b) (filter (fun h => coordToIndex b (fst h) =? -2)%Z hs) /\
    (forall i bn, nth_error (bins b) i = Some bn ->
       nth_error (bins b') i = Some {| brange := brange bn;
         bdist := feed (bdist bn) (filter (fun h => coordToIndex b (fst h) =? Z.of_nat i)%Z hs) |}).
Proof.
  revert b; induction hs as [|[x w] hs IH]; intros b.
  - exists b. cbn. repeat split; auto. intros i bn ->. destruct bn; auto.
  - cbn [fill_all]. destruct (fill_spec b x w) as (b1 & E1 & S1 & T1 & U1 & O1 & B1).
    rewrite E1. cbn [rbind]. destruct (IH b1) as (b2 & E2 & S2 & T2 & U2 & O2 & B2).
    exists b2. split; auto. split; [eapply same_shape_trans; eauto|].
    assert (F : forall z, filter (fun h => coordToIndex b1 (fst h) =? z)%Z hs
                        = filter (fun h => coordToIndex b (fst h) =? z)%Z hs).
    { intros z. apply filter_ext. intros h. rewrite (same_shape_index b1 b); auto. }
    rewrite F in U2. rewrite F in O2.
    split; [rewrite T2, T1; reflexivity|].
    split; [rewrite U2, U1; cbn [filter fst]; destruct (_ =? -1)%Z; reflexivity|].
    split; [rewrite O2, O1; cbn [filter fst]; destruct (_ =? -2)%Z; reflexivity|].
    intros i bn Hi. specialize (B1 i). rewrite Hi in B1. cbn in B1.
    apply B2 in B1. rewrite B1, F. cbn [filter fst].
    destruct (coordToIndex b x =? Z.of_nat i)%Z; reflexivity.
Qed.

(* feeding from zero = the statistics *)
Lemma feed_stats hs : feed Dist1D_zero hs = stats1 hs.
Proof.
  induction hs as [|h hs IH] using rev_ind; [reflexivity|].
  unfold feed in *. rewrite fold_left_app. cbn. rewrite IH.
  unfold stats1, stats0, Dist1D_fill, Dist0D_fill, nsum. cbn.
  rewrite !map_app. cbn. rewrite ?map_app, !fold_left_app. cbn.
  rewrite !app_length, !map_length. cbn. rewrite Nat2Z.inj_add. reflexivity.
Qed.

(* ------------------------------------------------------------ where a value goes *)
Section Order.
Hypothesis L : OrdLaws N.

Lemma wf_max_mono (rs : list (Range N)) d :
  wf_bins rs -> forall i j, i <= j -> j < length rs ->
  nle (rmax (nth i rs d)) (rmax (nth j rs d)) = true.
Proof.
  intros (_ & W1 & W2) i j Hij Hj.
  assert (R : forall k, k < length rs -> nle (rmin (nth k rs d)) (rmax (nth k rs d)) = true).
  { intros. apply W1. apply nth_In; auto. }
  assert (Hrefl : forall k, k < length rs -> nle (rmax (nth k rs d)) (rmax (nth k rs d)) = true).
  { intros k Hk. specialize (R k Hk). apply (o_le_nan _ L) in R. destruct R as [_ R].
    destruct (nlt (rmax (nth k rs d)) (rmax (nth k rs d))) eqn:E.
    - apply (o_lt_le _ L); auto.
    - apply (o_total _ L); auto. }
  induction j as [|j IH]; [replace i with 0 by lia; auto|].
  destruct (Nat.eq_dec i (S j)) as [->|Hne]; auto.
  assert (H : nle (rmax (nth i rs d)) (rmax (nth j rs d)) = true) by (apply IH; lia).
  eapply (o_le_trans _ L); [exact H|].
  eapply (o_le_trans _ L); [|apply R; auto].
  apply (W2 j); rewrite <- nth_error_nth' with (d := d) by lia; reflexivity.
Qed.

Lemma wf_min_mono (rs : list (Range N)) d :
  wf_bins rs -> forall i j, i < j -> j < length rs ->
  nle (rmax (nth i rs d)) (rmin (nth j rs d)) = true.
Proof.
  intros W i j Hij Hj. pose proof W as (_ & W1 & W2).
  destruct j as [|j]; [lia|].
  eapply (o_le_trans _ L); [apply (wf_max_mono rs d W i j); lia|].
  apply (W2 j); rewrite <- nth_error_nth' with (d := d) by lia; reflexivity.
Qed.

Definition code (n : nat) (p : place) : Z :=
  match p with
  | PBin i => Z.of_nat i
  | PUnder => -1
  | POver => -2
  | PGap => Z.of_nat n
  end.

Lemma wf_hull_le (rs : list (Range N)) xr : wf_bins rs -> hull rs xr -> nle (rmin xr) (rmax xr) = true.
Proof.
  intros W (f & l & Hf & Hl & -> & ->). pose proof W as (_ & W1 & W2).
  eapply (o_le_trans _ L); [apply W1; eapply nth_error_In; exact Hf|].
  assert (0 < length rs) by (apply nth_error_Some; congruence).
  pose proof (wf_max_mono rs f W 0 (length rs - 1)).
  rewrite (nth_error_nth _ _ _ Hf), (nth_error_nth _ _ _ Hl) in H0. apply H0; lia.
Qed.

Lemma belongs_unique (rs : list (Range N)) xr x p q :
  wf_bins rs -> hull rs xr -> belongs rs xr x p -> belongs rs xr x q -> p = q.
Proof.
  intros W H. pose proof (wf_hull_le _ _ W H) as HL.
  pose proof W as (_ & W1 & W2). destruct H as (f & l & Hf & Hl & Em & EM).
  assert (Hlen : 0 < length rs) by (apply nth_error_Some; congruence).
  assert (BU : forall i, belongs rs xr x (PBin i) -> nle (rmin xr) x = true /\ nlt x (rmax xr) = true).
  { intros i (r & Hr & C1 & C2). assert (i < length rs) by (apply nth_error_Some; congruence).
    rewrite Em, EM. split.
    - destruct i; [congruence|]. eapply (o_le_trans _ L); [|exact C1].
      eapply (o_le_trans _ L); [apply W1; eapply nth_error_In; exact Hf|].
      pose proof (wf_min_mono rs f W 0 (S i)) as M.
      rewrite (nth_error_nth _ _ _ Hf), (nth_error_nth _ _ _ Hr) in M. apply M; lia.
    - eapply (o_lt_le_trans _ L); [exact C2|].
      pose proof (wf_max_mono rs f W i (length rs - 1)) as M.
      rewrite (nth_error_nth _ _ _ Hr), (nth_error_nth _ _ _ Hl) in M. apply M; lia. }
  assert (BB : forall i j, i < j -> belongs rs xr x (PBin i) -> belongs rs xr x (PBin j) -> False).
  { intros i j Hij (r & Hr & C1 & C2) (s & Hs & D1 & D2).
    assert (j < length rs) by (apply nth_error_Some; congruence).
    pose proof (wf_min_mono rs f W i j Hij H) as M.
    rewrite (nth_error_nth _ _ _ Hr), (nth_error_nth _ _ _ Hs) in M.
    pose proof (o_lt_le_trans _ L _ _ _ C2 (o_le_trans _ L _ _ _ M D1)) as X.
    rewrite (o_le_not_lt _ L) in X; [discriminate|].
    apply (o_lt_le _ L) in X. auto. }
  assert (Contra : forall a b : N, nle a b = true -> nlt b a = true -> False).
  { intros a b A B. rewrite (o_le_not_lt _ L _ _ A) in B. discriminate. }
  assert (NanL : forall a : N, nisnan x = true -> nle a x = true -> False).
  { intros a A B. apply (o_le_nan _ L) in B. destruct B; congruence. }
  assert (UO : nlt x (rmin xr) = true -> belongs rs xr x POver -> False).
  { intros A [B|B].
    - rewrite (proj1 (o_nan_lt _ L x (rmin xr) B)) in A; discriminate.
    - eapply Contra; [|exact A]. eapply (o_le_trans _ L); eauto. }
  intros A B. destruct p, q; auto; [|exfalso..].
  - f_equal. destruct (Nat.lt_trichotomy i i0) as [?|[?|?]]; auto; exfalso; eauto.
  - destruct (BU _ A). cbn in B. eauto.
  - destruct (BU _ A). destruct B; eauto.
  - destruct A as (r & Hr & C). destruct B as (_ & _ & B). eapply B; eauto.
  - destruct (BU _ B). cbn in A. eauto.
  - eauto.
  - destruct B as (B & _). cbn in A. eauto.
  - destruct (BU _ B). destruct A; eauto.
  - eauto.
  - destruct B as (B & C & _). destruct A; eauto.
  - destruct B as (r & Hr & C). destruct A as (_ & _ & A). eapply A; eauto.
  - destruct A as (A & _). cbn in B. eauto.
  - destruct A as (A & C & _). destruct B; eauto.
Qed.

(* IndexOf for a value within the hull or not: where it belongs *)
Lemma IndexOf_belongs (rs : list (Range N)) xr x :
  wf_bins rs -> hull rs xr ->
  exists p, belongs rs xr x p /\ IndexOf rs x = code (length rs) p.
Proof.
  intros W H. pose proof W as (_ & W1 & W2). pose proof H as (f & l & Hf & Hl & Em & EM).
  assert (Hlen : 0 < length rs) by (apply nth_error_Some; congruence).
  unfold IndexOf. set (d := {| rmin := nzero; rmax := nzero |}).
  set (g := fun i => nlt x (rmax (nth i rs d))).
  destruct (go_search_mono (length rs) g) as (G1 & G2 & G3).
  { intros i j Hij Hj Hi. unfold g in *. eapply (o_lt_le_trans _ L); [exact Hi|].
    apply wf_max_mono; auto. }
  cbn zeta in *. set (i := go_search (length rs) g) in *.
  destruct (Nat.eqb_spec i (length rs)) as [E|E].
  - exists POver. split; auto. cbn.
    destruct (nisnan x) eqn:Hnan; auto. right.
    specialize (G2 (length rs - 1)). unfold g in G2. rewrite (nth_error_nth _ _ _ Hl) in G2.
    rewrite EM. apply (o_total _ L); auto.
    + assert (Q := W1 l (nth_error_In _ _ Hl)). apply (o_le_nan _ L) in Q. tauto.
    + apply G2. lia.
  - assert (Hi : i < length rs) by lia.
    assert (Gi : nlt x (rmax (nth i rs d)) = true) by (apply (G3 i); auto).
    assert (Hnan : nisnan x = false).
    { destruct (nisnan x) eqn:Q; auto. rewrite (proj1 (o_nan_lt _ L x (rmax (nth i rs d)) Q)) in Gi. discriminate. }
    assert (Hri : nth_error rs i = Some (nth i rs d)) by (apply nth_error_nth'; auto).
    destruct (Nat.eqb_spec i 0) as [E0|E0]; cbn [andb].
    + rewrite E0 in *. destruct (nlt x (rmin (nth 0 rs d))) eqn:B.
      * exists PUnder. split; auto. cbn. rewrite Em.
        rewrite (nth_error_nth _ _ _ Hf) in B. auto.
      * assert (C : nle (rmin (nth 0 rs d)) x = true).
        { apply (o_total _ L); auto.
          rewrite (nth_error_nth _ _ _ Hf).
          pose proof (W1 f (nth_error_In _ _ Hf)) as Q. apply (o_le_nan _ L) in Q. tauto. }
        rewrite C, Gi. cbn. exists (PBin 0). split; auto.
        exists (nth 0 rs d). repeat split; auto.
    + destruct (nle (rmin (nth i rs d)) x && nlt x (rmax (nth i rs d))) eqn:C.
      * apply andb_true_iff in C. exists (PBin i). split; auto.
        exists (nth i rs d). split; auto.
      * rewrite Gi, andb_true_r in C. exists PGap. split; auto.
        assert (Hprev : nle (rmax (nth (i - 1) rs d)) x = true).
        { assert (Q := G2 (i - 1)). unfold g in Q.
          assert (R : nlt x (rmax (nth (i-1) rs d)) = false) by (apply Q; lia).
          apply (o_total _ L); auto.
          assert (In (nth (i-1) rs d) rs) by (apply nth_In; lia).
          apply W1 in H0. apply (o_le_nan _ L) in H0. tauto. }
        cbn. rewrite Em, EM. split; [|split].
        -- eapply (o_le_trans _ L); [apply W1; eapply nth_error_In; exact Hf|].
           eapply (o_le_trans _ L); [|exact Hprev].
           pose proof (wf_max_mono rs d W 0 (i - 1)) as M.
           rewrite (nth_error_nth _ _ _ Hf) in M. apply M; lia.
        -- eapply (o_lt_le_trans _ L); [exact Gi|].
           pose proof (wf_max_mono rs d W i (length rs - 1)) as M.
           rewrite (nth_error_nth _ _ _ Hl) in M. apply M; lia.
        -- intros j r Hj (C1 & C2). assert (Hjl : j < length rs) by (apply nth_error_Some; congruence).
           rewrite <- (nth_error_nth _ _ d Hj) in *.
           destruct (Nat.lt_trichotomy j i) as [Q|[Q|Q]].
           ++ assert (Z := G2 j Q). unfold g in Z. congruence.
           ++ subst j. congruence.
           ++ assert (Z := wf_min_mono rs d W i j Q Hjl).
              assert (Y := o_lt_le_trans _ L _ _ _ Gi (o_le_trans _ L _ _ _ Z C1)).
              assert (X := o_lt_le _ L _ _ Y). rewrite (o_le_not_lt _ L _ _ X) in Y. discriminate.
Qed.

Lemma coordToIndex_belongs (b : Binning1D N) x :
  let rs := map brange (bins b) in
  wf_bins rs -> hull rs (xrange b) ->
  exists p, belongs rs (xrange b) x p /\ coordToIndex b x = code (length rs) p.
Proof.
  cbn zeta. intros W H. unfold coordToIndex.
  destruct (nlt x (rmin (xrange b))) eqn:E1; [exists PUnder; split; auto|].
  destruct (nle (rmax (xrange b)) x) eqn:E2; [exists POver; split; cbn; auto|].
  apply IndexOf_belongs; auto.
Qed.

Lemma code_inj n p q :
  (forall i, p = PBin i -> i < n) -> (forall i, q = PBin i -> i < n) -> code n p = code n q -> p = q.
Proof.
  intros A B. destruct p, q; cbn; intros; auto; try lia.
  - f_equal; lia.
  - specialize (A i eq_refl). lia.
  - specialize (B i eq_refl). lia.
Qed.

Lemma coordToIndex_iff (b : Binning1D N) x p :
  let rs := map brange (bins b) in
  wf_bins rs -> hull rs (xrange b) -> (forall i, p = PBin i -> i < length rs) ->
  (coordToIndex b x = code (length rs) p <-> belongs rs (xrange b) x p).
Proof.
  cbn zeta. intros W H Hp. destruct (coordToIndex_belongs b x W H) as (q & Hq & E). split.
  - intros E2. rewrite E in E2. apply code_inj in E2; [subst; auto| |auto].
    intros i ->. destruct Hq as (r & Hr & _). apply nth_error_Some. congruence.
  - intros Hb. rewrite E. f_equal. eapply belongs_unique; eauto.
Qed.
End Order.

(* ------------------------------------------------------------ counting *)
Lemma feed_N d hs : dN (d0 (feed d hs)) = (dN (d0 d) + Z.of_nat (length hs))%Z.
Proof.
  revert d; induction hs; intros d; cbn [feed fold_left length]; [cbn; lia|].
  unfold feed in IHhs. rewrite IHhs. cbn. lia.
Qed.

Lemma sum_upto (f : nat -> Z) (g : nat -> Z) n :
  (forall i, i < n -> f i = g i) ->
  fold_right Z.add 0%Z (map f (seq 0 n)) = fold_right Z.add 0%Z (map g (seq 0 n)).
Proof.
  intros. f_equal. apply map_ext_in. intros a Ha. apply in_seq in Ha. apply H. lia.
Qed.

Lemma count_partition {A} (cls : A -> Z) n (hs : list A) :
  (forall h, cls h = (-1) \/ cls h = (-2) \/ 0 <= cls h <= Z.of_nat n)%Z ->
  Z.of_nat (length hs) =
    (fold_right Z.add 0 (map (fun i => Z.of_nat (length (filter (fun h => cls h =? Z.of_nat i) hs))) (seq 0 n))
    + Z.of_nat (length (filter (fun h => cls h =? -1) hs))
    + Z.of_nat (length (filter (fun h => cls h =? -2) hs))
    + Z.of_nat (length (filter (fun h => cls h =? Z.of_nat n) hs)))%Z.
Proof.
  intros C. induction hs as [|h hs IH].
  - cbn. assert (E : forall l, fold_right Z.add 0%Z (map (fun _ : nat => 0%Z) l) = 0%Z) by (induction l; cbn; lia).
    rewrite E. reflexivity.
  - cbn [length]. rewrite Nat2Z.inj_succ, IH. clear IH. specialize (C h).
    assert (S : forall m, fold_right Z.add 0%Z (map (fun i => Z.of_nat (length (filter (fun h => cls h =? Z.of_nat i)%Z (h :: hs)))) (seq 0 m))
      = (fold_right Z.add 0%Z (map (fun i => Z.of_nat (length (filter (fun h => cls h =? Z.of_nat i)%Z hs))) (seq 0 m))
        + (if (0 <=? cls h) && (cls h <? Z.of_nat m) then 1 else 0))%Z).
    { induction m.
      - cbn. destruct (Z.leb_spec 0 (cls h)); destruct (Z.ltb_spec (cls h) 0); cbn; lia.
      - rewrite seq_S, !map_app, !fold_right_app. cbn [map fold_right plus].
        assert (FA : forall l z, fold_right Z.add z l = (fold_right Z.add 0 l + z)%Z).
        { induction l; intros; cbn; [lia|]. rewrite IHl. lia. }
        rewrite (FA _ (_ + 0)%Z), IHm. rewrite (FA (map _ (seq 0 m)) (_ + 0)%Z).
        cbn [filter].
        destruct (Z.eqb_spec (cls h) (Z.of_nat m)); cbn [length];
        destruct (Z.leb_spec 0 (cls h)); destruct (Z.ltb_spec (cls h) (Z.of_nat m));
        destruct (Z.ltb_spec (cls h) (Z.of_nat (S m))); cbn [andb]; lia. }
    rewrite S. clear S. cbn [filter].
    destruct (Z.leb_spec 0 (cls h)); destruct (Z.ltb_spec (cls h) (Z.of_nat n));
    destruct (Z.eqb_spec (cls h) (-1)); destruct (Z.eqb_spec (cls h) (-2));
    destruct (Z.eqb_spec (cls h) (Z.of_nat n)); cbn [andb length]; lia.
Qed.

End Generic.
