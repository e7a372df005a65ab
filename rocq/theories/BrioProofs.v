(* Proofs about the binary form of histograms. *)
From Coq Require Import ZArith List Bool Lia.
From Verif Require Import GoLib Bytes BrioModel.
Import ListNotations.
Open Scope Z_scope.

(* ---- reading what was written ---- *)
Definition reads {A} (f : sl -> res (A * sl)) (m : list Z) (x : A) : Prop :=
  forall t n, zlen m <= n -> f {| sb := m ++ t; sn := n |} = Ok (x, {| sb := t; sn := n - zlen m |}).
Lemma zskip {A} (a b : list A) k : k = zlen a -> skipn (Z.to_nat k) (a ++ b) = b.
Proof. intros ->. apply skipn_app_exact. unfold zlen. lia. Qed.
Lemma zfirst {A} (a b : list A) k : k = zlen a -> firstn (Z.to_nat k) (a ++ b) = a.
Proof. intros ->. apply firstn_app_exact. unfold zlen. lia. Qed.
Lemma put8_len v : zlen (put8 v) = 8.
Proof. apply (zlen_le 8). Qed.
Lemma frame_len m : zlen (frame m) = 8 + zlen m.
Proof. unfold frame. rewrite zlen_app, put8_len. reflexivity. Qed.
Lemma upto_ok n b k : 0 <= n <= zlen b -> upto n {| sb := b; sn := k |} = Ok {| sb := b; sn := n |}.
Proof. intros H. unfold upto. cbn [sb]. replace (_ && _) with true; auto. symmetry. apply andb_true_iff. lia. Qed.
Lemma from_ok n a b k : n = zlen a -> n <= k -> from n {| sb := a ++ b; sn := k |} = Ok {| sb := b; sn := k - n |}.
Proof.
  intros H K. pose proof (zlen_nonneg a). unfold from. cbn [sb sn]. replace (_ && _) with true by (symmetry; apply andb_true_iff; lia).
  rewrite zskip; auto.
Qed.
Lemma get8_mod v : forall t n, 8 <= n -> get8 {| sb := put8 v ++ t; sn := n |} = Ok (v mod 2 ^ 64, {| sb := t; sn := n - 8 |}).
Proof.
  intros t n H. unfold get8. rewrite upto_ok by (rewrite zlen_app, put8_len; pose proof (zlen_nonneg t); lia).
  cbn [rbind]. rewrite from_ok by (rewrite ?put8_len; lia). cbn [rbind]. unfold bytes. cbn [sb sn].
  rewrite (zfirst (put8 v) t 8) by (rewrite put8_len; auto). unfold put8. rewrite unle_le. reflexivity.
Qed.
Lemma get8_reads v : inU 64 v -> reads get8 (put8 v) v.
Proof. intros H t n L. rewrite put8_len in *. rewrite get8_mod by lia. rewrite Z.mod_small; auto. Qed.
Lemma get8i_reads v : inS 64 v -> reads get8i (put8 v) v.
Proof.
  intros H t n L. rewrite put8_len in *. unfold get8i. rewrite get8_mod by lia. cbn [rbind fst snd].
  rewrite wrapS_mod, wrapS_id; auto; lia.
Qed.
Lemma inS64 v : 0 <= v < 2 ^ 63 -> inS 64 v.
Proof. unfold inS. change (2 ^ (64 - 1)) with (2 ^ 63). lia. Qed.
Lemma unframe_reads {A} (f : sl -> res A) m x :
  (forall t n, zlen m <= n -> f {| sb := m ++ t; sn := n |} = Ok x) -> zlen m < 2 ^ 63 -> reads (unframe f) (frame m) x.
Proof.
  intros H L t n K. rewrite frame_len in *. pose proof (zlen_nonneg m). unfold frame, unframe. rewrite <- app_assoc.
  rewrite (get8i_reads (zlen m)); [|apply inS64; lia|rewrite put8_len; lia]. cbn [rbind fst snd].
  rewrite upto_ok by (rewrite zlen_app; pose proof (zlen_nonneg t); lia). cbn [rbind]. rewrite H by lia. cbn [rbind].
  rewrite put8_len. rewrite from_ok; auto; [|lia]. cbn [rbind]. do 3 f_equal; lia.
Qed.
Lemma reads_bind {A B} (f : sl -> res (A * sl)) (k : A * sl -> res (B * sl)) m m' x y :
  reads f m x -> reads (fun d => k (x, d)) m' y -> reads (fun d => rbind (f d) k) (m ++ m') y.
Proof.
  intros H K t n L. rewrite zlen_app in *. rewrite <- app_assoc. pose proof (zlen_nonneg m). pose proof (zlen_nonneg m').
  rewrite H by lia. cbn [rbind]. rewrite K by lia. do 3 f_equal. lia.
Qed.
Lemma reads_last {A B} (f : sl -> res (A * sl)) (k : A * sl -> res (B * sl)) m x y :
  reads f m x -> (forall d, k (x, d) = Ok (y, d)) -> reads (fun d => rbind (f d) k) m y.
Proof. intros H K t n L. rewrite H by lia. cbn [rbind]. apply K. Qed.
Lemma drop_reads {A} (f : A -> sl -> res (A * sl)) o m x : reads (f o) m x -> forall t n, zlen m <= n -> drop f o {| sb := m ++ t; sn := n |} = Ok x.
Proof. intros H t n L. unfold drop. rewrite H by lia. reflexivity. Qed.
Lemma loop_reads {A} (f : A -> sl -> res A) (m : A -> list Z) os xs :
  length os = length xs -> (forall x, In x xs -> forall o, reads (unframe (f o)) (frame (m x)) x) -> reads (loop f os) (mlist m xs) xs.
Proof.
  revert os. induction xs as [|x xs IH]; intros [|o os] L H; try discriminate.
  - intros t n K. cbn. rewrite Z.sub_0_r. reflexivity.
  - cbn [mlist flat_map loop]. apply reads_bind with (x := x). { apply H. now left. }
    cbn [fst snd]. eapply reads_last. { apply IH; [cbn in L; lia|]. intros y I. apply H. now right. }
    reflexivity.
Qed.
Lemma slice_reads {A} size zero (f : A -> sl -> res A) (m : A -> list Z) xs :
  0 <= size -> size * zlen xs <= 2 ^ 48 -> zlen xs < 2 ^ 63 -> (forall x, In x xs -> forall o, reads (unframe (f o)) (frame (m x)) x) ->
  reads (slice size zero f) (mslice m xs) xs.
Proof.
  intros S L K H. unfold slice, mslice. apply reads_bind with (x := zlen xs). { apply get8i_reads. pose proof (zlen_nonneg xs). apply inS64; lia. }
  cbn [fst snd]. intros t n J. unfold mk. replace (_ && _) with true by (pose proof (zlen_nonneg xs); symmetry; apply andb_true_iff; lia). cbn [rbind].
  apply loop_reads; auto. rewrite repeat_length. unfold zlen. lia.
Qed.
Ltac rd := repeat (cbn [fst snd]; first [eapply reads_bind | eapply reads_last; [|reflexivity]]).

(* ---- well-formed values: every field fits in its Go type ---- *)
Definition wfRange (o : Range) := inU 64 (Min o) /\ inU 64 (Max o).
Definition wfDist0D (o : Dist0D) := inS 64 (N o) /\ inU 64 (SumW o) /\ inU 64 (SumW2 o).
Definition wfDist1D (o : Dist1D) := wfDist0D (Dist o) /\ inU 64 (SumWX o) /\ inU 64 (SumWX2 o).
Definition wfDist2D (o : Dist2D) := wfDist1D (DX o) /\ wfDist1D (DY o) /\ inU 64 (SumWXY o).
Definition wfBin1D (o : Bin1D) := wfRange (b1range o) /\ wfDist1D (b1dist o).
Definition wfBinP1D (o : BinP1D) := wfRange (bpxrange o) /\ wfDist2D (bpdist o).
Definition wfBin2D (o : Bin2D) := wfRange (b2xrange o) /\ wfRange (b2yrange o) /\ wfDist2D (b2dist o).
Definition wfBinning1D (o : Binning1D) :=
  Forall wfBin1D (n1bins o) /\ wfDist1D (n1dist o) /\ Forall wfDist1D (n1out o) /\ length (n1out o) = 2%nat /\ wfRange (n1xrange o).
Definition wfBinningP1D (o : BinningP1D) :=
  Forall wfBinP1D (npbins o) /\ wfDist2D (npdist o) /\ Forall wfDist2D (npout o) /\ length (npout o) = 2%nat /\ wfRange (npxrange o) /\ inU 64 (npxstep o).
Definition wfBinning2D (o : Binning2D) :=
  Forall wfBin2D (n2bins o) /\ wfDist2D (n2dist o) /\ Forall wfDist2D (n2out o) /\ length (n2out o) = 8%nat /\ wfRange (n2xrange o) /\ wfRange (n2yrange o) /\
  inS 64 (Nx o) /\ inS 64 (Ny o) /\ Forall wfBin1D (XEdges o) /\ Forall wfBin1D (YEdges o).
Definition wfPoint2D (o : Point2D) := inU 64 (PX o) /\ inU 64 (PY o) /\ wfRange (ErrX o) /\ wfRange (ErrY o).

Ltac len := repeat rewrite ?zlen_app, ?put8_len, ?frame_len.
Lemma mRange_len o : zlen (mRange o) = 16. Proof. unfold mRange. len. lia. Qed.
Lemma mDist0D_len o : zlen (mDist0D o) = 24. Proof. unfold mDist0D. len. lia. Qed.
Lemma mDist1D_len o : zlen (mDist1D o) = 48. Proof. unfold mDist1D. len. rewrite mDist0D_len. lia. Qed.
Lemma mDist2D_len o : zlen (mDist2D o) = 120. Proof. unfold mDist2D. len. rewrite !mDist1D_len. lia. Qed.
Lemma mBin1D_len o : zlen (mBin1D o) = 80. Proof. unfold mBin1D. len. rewrite mRange_len, mDist1D_len. lia. Qed.
Lemma mBinP1D_len o : zlen (mBinP1D o) = 152. Proof. unfold mBinP1D. len. rewrite mRange_len, mDist2D_len. lia. Qed.
Lemma mBin2D_len o : zlen (mBin2D o) = 176. Proof. unfold mBin2D. len. rewrite !mRange_len, mDist2D_len. lia. Qed.
Lemma mPoint2D_len o : zlen (mPoint2D o) = 64. Proof. unfold mPoint2D. len. rewrite !mRange_len. lia. Qed.
Lemma mlist_len {A} (m : A -> list Z) k os : (forall o, zlen (m o) = k) -> zlen (mlist m os) = (8 + k) * zlen os.
Proof.
  intros H. induction os as [|o os IH]; unfold mlist; cbn [flat_map]. { rewrite zlen_nil. change (zlen (@nil A)) with 0. lia. }
  rewrite zlen_app, zlen_cons, frame_len, H. unfold mlist in IH. rewrite IH. lia.
Qed.
Lemma mslice_len {A} (m : A -> list Z) k os : (forall o, zlen (m o) = k) -> zlen (mslice m os) = 8 + (8 + k) * zlen os.
Proof. intros H. unfold mslice. rewrite zlen_app, put8_len, (mlist_len _ k); auto. Qed.
Lemma mBinning1D_len o : length (n1out o) = 2%nat -> zlen (mBinning1D o) = 200 + 88 * zlen (n1bins o).
Proof.
  intros H. unfold mBinning1D. len. rewrite (mslice_len _ 80), (mlist_len _ 48), mDist1D_len, mRange_len by auto using mBin1D_len, mDist1D_len.
  replace (zlen (n1out o)) with 2 by (unfold zlen; rewrite H; reflexivity). lia.
Qed.
Lemma mBinningP1D_len o : length (npout o) = 2%nat -> zlen (mBinningP1D o) = 424 + 160 * zlen (npbins o).
Proof.
  intros H. unfold mBinningP1D. len. rewrite (mslice_len _ 152), (mlist_len _ 120), mDist2D_len, mRange_len by auto using mBinP1D_len, mDist2D_len.
  replace (zlen (npout o)) with 2 by (unfold zlen; rewrite H; reflexivity). lia.
Qed.
Lemma mBinning2D_len o : length (n2out o) = 8%nat ->
  zlen (mBinning2D o) = 1240 + 184 * zlen (n2bins o) + 88 * zlen (XEdges o) + 88 * zlen (YEdges o).
Proof.
  intros H. unfold mBinning2D. len. rewrite !(mslice_len mBin1D 80), (mslice_len _ 176), (mlist_len _ 120), mDist2D_len, !mRange_len by auto using mBin1D_len, mBin2D_len, mDist2D_len.
  replace (zlen (n2out o)) with 8 by (unfold zlen; rewrite H; reflexivity). lia.
Qed.

Opaque get8 get8i unframe loop slice frame put8 mlist mslice.
Lemma Range_reads x o : wfRange x -> reads (rRange o) (mRange x) x.
Proof. intros [A B]. destruct x. unfold mRange, rRange. rd; apply get8_reads; auto. Qed.
Lemma Dist0D_reads x o : wfDist0D x -> reads (rDist0D o) (mDist0D x) x.
Proof. intros (A & B & C). destruct x. unfold mDist0D, rDist0D. rd; first [apply get8i_reads; now auto|lazymatch goal with |- reads get8 _ _ => apply get8_reads; now auto end]. Qed.
Ltac uf r L R := lazymatch goal with |- reads (unframe (drop r _)) _ _ => apply unframe_reads; [apply drop_reads; apply R; now auto|rewrite L; reflexivity] end.
Lemma Dist1D_reads x o : wfDist1D x -> reads (rDist1D o) (mDist1D x) x.
Proof. intros (A & B & C). destruct x. unfold mDist1D, rDist1D. rd; first [uf rDist0D mDist0D_len Dist0D_reads|lazymatch goal with |- reads get8 _ _ => apply get8_reads; now auto end]. Qed.
Lemma Dist2D_reads x o : wfDist2D x -> reads (rDist2D o) (mDist2D x) x.
Proof. intros (A & B & C). destruct x. unfold mDist2D, rDist2D. rd; first [uf rDist1D mDist1D_len Dist1D_reads|lazymatch goal with |- reads get8 _ _ => apply get8_reads; now auto end]. Qed.
Lemma Bin1D_reads x o : wfBin1D x -> reads (rBin1D o) (mBin1D x) x.
Proof. intros (A & B). destruct x. unfold mBin1D, rBin1D. rd; first [uf rDist1D mDist1D_len Dist1D_reads|uf rRange mRange_len Range_reads]. Qed.
Lemma BinP1D_reads x o : wfBinP1D x -> reads (rBinP1D o) (mBinP1D x) x.
Proof. intros (A & B). destruct x. unfold mBinP1D, rBinP1D. rd; first [uf rDist2D mDist2D_len Dist2D_reads|uf rRange mRange_len Range_reads]. Qed.
Lemma Bin2D_reads x o : wfBin2D x -> reads (rBin2D o) (mBin2D x) x.
Proof. intros (A & B & C). destruct x. unfold mBin2D, rBin2D. rd; first [uf rDist2D mDist2D_len Dist2D_reads|uf rRange mRange_len Range_reads]. Qed.
Lemma Point2D_reads x o : wfPoint2D x -> reads (rPoint2D o) (mPoint2D x) x.
Proof. intros (A & B & C & D). destruct x. unfold mPoint2D, rPoint2D. rd; first [uf rRange mRange_len Range_reads|lazymatch goal with |- reads get8 _ _ => apply get8_reads; now auto end]. Qed.
Lemma Binning1D_reads x o : wfBinning1D x -> length (n1out o) = 2%nat -> 56 * zlen (n1bins x) <= 2 ^ 48 -> reads (rBinning1D o) (mBinning1D x) x.
Proof.
  intros (A & B & C & D & E) O L. destruct x as [x1 x2 x3 x4]; cbn [n1bins n1dist n1out n1xrange] in *. unfold mBinning1D, rBinning1D; cbn [n1bins n1dist n1out n1xrange].
  rd; first [uf rDist1D mDist1D_len Dist1D_reads|uf rRange mRange_len Range_reads
    |lazymatch goal with |- reads (loop _ _) _ _ => idtac end; apply loop_reads; [congruence|intros x I o'; rewrite Forall_forall in C; uf rDist1D mDist1D_len Dist1D_reads]
    |lazymatch goal with |- reads (slice _ _ _) _ _ => idtac end; apply slice_reads; [lia|auto|lia|intros x I o'; rewrite Forall_forall in A; uf rBin1D mBin1D_len Bin1D_reads]].
Qed.
Lemma BinningP1D_reads x o : wfBinningP1D x -> length (npout o) = 2%nat -> 104 * zlen (npbins x) <= 2 ^ 48 -> reads (rBinningP1D o) (mBinningP1D x) x.
Proof.
  intros (A & B & C & D & E & G) O L. destruct x as [x1 x2 x3 x4 x5]; cbn [npbins npdist npout npxrange npxstep] in *. unfold mBinningP1D, rBinningP1D; cbn [npbins npdist npout npxrange npxstep].
  rd; first [uf rDist2D mDist2D_len Dist2D_reads|uf rRange mRange_len Range_reads|lazymatch goal with |- reads get8 _ _ => apply get8_reads; now auto end
    |lazymatch goal with |- reads (loop _ _) _ _ => idtac end; apply loop_reads; [congruence|intros x I o'; rewrite Forall_forall in C; uf rDist2D mDist2D_len Dist2D_reads]
    |lazymatch goal with |- reads (slice _ _ _) _ _ => idtac end; apply slice_reads; [lia|auto|lia|intros x I o'; rewrite Forall_forall in A; uf rBinP1D mBinP1D_len BinP1D_reads]].
Qed.
Lemma Binning2D_reads x o : wfBinning2D x -> length (n2out o) = 8%nat -> 120 * zlen (n2bins x) <= 2 ^ 48 -> 56 * zlen (XEdges x) <= 2 ^ 48 -> 56 * zlen (YEdges x) <= 2 ^ 48 ->
  reads (rBinning2D o) (mBinning2D x) x.
Proof.
  intros (A & B & C & D & E & G & H & I & J & K) O L1 L2 L3. destruct x as [x1 x2 x3 x4 x5 x6 x7 x8 x9]; cbn [n2bins n2dist n2out n2xrange n2yrange Nx Ny XEdges YEdges] in *. unfold mBinning2D, rBinning2D; cbn [n2bins n2dist n2out n2xrange n2yrange Nx Ny XEdges YEdges].
  rd; first [uf rDist2D mDist2D_len Dist2D_reads|uf rRange mRange_len Range_reads|lazymatch goal with |- reads get8i _ _ => apply get8i_reads; now auto end
    |lazymatch goal with |- reads (loop _ _) _ _ => idtac end; apply loop_reads; [congruence|intros x' I' o'; rewrite Forall_forall in C; uf rDist2D mDist2D_len Dist2D_reads]
    |lazymatch goal with |- reads (slice _ _ _) _ _ => idtac end; apply slice_reads; [lia|auto|lia|intros x' I' o'; rewrite Forall_forall in A; uf rBin2D mBin2D_len Bin2D_reads]
    |lazymatch goal with |- reads (slice _ _ _) _ _ => idtac end; apply slice_reads; [lia|auto|lia|intros x' I' o'; rewrite Forall_forall in J; uf rBin1D mBin1D_len Bin1D_reads]
    |lazymatch goal with |- reads (slice _ _ _) _ _ => idtac end; apply slice_reads; [lia|auto|lia|intros x' I' o'; rewrite Forall_forall in K; uf rBin1D mBin1D_len Bin1D_reads]].
Qed.
