(* C79: the YODA text of two-dimensional histograms *)
From Coq Require Import ZArith List Lia Bool String.
From Flocq Require Import IEEE754.BinarySingleNaN.
From Verif Require Import Bytes GoLib GoStrings F64 F64Arith FloatText FloatDigits ScanfModel YodaModel YodaProofs YodaCnvModel YodaProps YodaH2Model YodaH2Proofs.
Import ListNotations.
Local Open Scope Z_scope.

(* nx columns and ny lines of bins, whose rows can be written *)
Definition writable2 (t : table2) : Prop := (0 < u_nx t)%nat /\ (0 < u_ny t)%nat /\ List.length (u_bins t) = (u_nx t * u_ny t)%nat /\ writable 7 (u_total t) /\ Forall (writable 11) (u_bins t).
(* the number in place k of a row: the edges in x are in places 0 and 1, those in y in places 2 and 3 *)
Definition place (k : nat) (r : row) : f64 := nth k (sums r) z.
(* bins of a column have the same low edge in x, and bins of a line the same low edge in y *)
Definition gridded (t : table2) (X Y : nat -> f64) : Prop := forall ix iy, (ix < u_nx t)%nat -> (iy < u_ny t)%nat ->
  place 0 (nth (iy * u_nx t + ix) (u_bins t) zbin) = X ix /\ place 2 (nth (iy * u_nx t + ix) (u_bins t) zbin) = Y iy.
(* edges are different, and so are their texts *)
Definition toldApart (n : nat) (X : nat -> f64) : Prop := forall i j, (i < n)%nat -> (j < n)%nat -> feq (X i) (X j) = Nat.eqb i j /\ (i <> j -> fmt_e 7 (X i) <> fmt_e 7 (X j)).
(* with 7 digits, the range from low edges in place k to high edges in place k' is not empty *)
Definition wide (k k' : nat) (t : table2) : Prop := exists b c x y, In b (u_bins t) /\ In c (u_bins t) /\ parse_float (fmt_e 7 (place k b)) = Some x /\ parse_float (fmt_e 7 (place k' c)) = Some y /\ flt x y = true.
Lemma wide_rd k k' t : (k < 11)%nat -> (k' < 11)%nat -> Forall (writable 11) (u_bins t) -> wide k k' t -> exists b c, In b (u_bins t) /\ In c (u_bins t) /\ flt (rd (cell k b)) (rd (cell k' c)) = true.
Proof.
  intros K K' F (b & c & x & y & IB & IC & EX & EY & H). exists b, c. split; [exact IB|]. split; [exact IC|]. rewrite Forall_forall in F. destruct (rd_ok _ (cell_mid k b 11 (F b IB) K)) as (E1 & _). destruct (rd_ok _ (cell_mid k' c 11 (F c IC) K')) as (E2 & _).
  change (cell k b) with (place k b) in *. change (cell k' c) with (place k' c) in *. rewrite E1 in EX. rewrite E2 in EY. injection EX as ->. injection EY as ->. exact H.
Qed.
Lemma noMark_nil_tail {A} (unyaml : str -> option A) a path yaml mx my vol t : ~ In 10 path -> noMark yaml -> unyaml (yaml ++ ys "---" ++ [10]) = Some a -> writable2 t ->
  unmarshal2 unyaml (marshal2 path yaml mx my vol t) = match made (rdRow (u_total t)) (map rdRow (written t)) with Ok h => Ok (Some (a, h)) | Panic => Panic end.
Proof. intros NP NM UY (_ & _ & L & T & B). apply (unmarshal2_raw unyaml a path yaml mx my vol t [[]]); try assumption. constructor; [apply plain_chars; intros ? []|constructor]. Qed.

(* a histogram, written and read: as many columns and lines, each bin in its place with its numbers to 7 digits, edges that were shared still are, and the text is the same *)
Theorem C79_roundtrip : forall (A : Type) (unyaml : str -> option A) a path yaml mx my vol t X Y,
  ~ In 10 path -> (forall u v, yaml <> u ++ 10 :: 35 :: v) -> unyaml (yaml ++ ys "---" ++ [10]) = Some a ->
  writable2 t -> gridded t X Y -> toldApart (u_nx t) X -> toldApart (u_ny t) Y -> wide 0 1 t -> wide 2 3 t ->
  exists h, unmarshal2 unyaml (marshal2 path yaml mx my vol t) = Ok (Some (a, h)) /\
    u_nx (h_tab h) = u_nx t /\ u_ny (h_tab h) = u_ny t /\ readRow (u_total t) (u_total (h_tab h)) /\ Forall2 readRow (u_bins t) (u_bins (h_tab h)) /\
    List.length (h_xedges h) = u_nx t /\ List.length (h_yedges h) = u_ny t /\
    (forall i j k k', (i < u_nx t * u_ny t)%nat -> (j < u_nx t * u_ny t)%nat -> (k < 11)%nat -> (k' < 11)%nat ->
       place k (nth i (u_bins t) zbin) = place k' (nth j (u_bins t) zbin) -> place k (nth i (u_bins (h_tab h)) zbin) = place k' (nth j (u_bins (h_tab h)) zbin)) /\
    forall path' yaml' mx' my' vol', marshal2 path' yaml' mx' my' vol' (h_tab h) = marshal2 path' yaml' mx' my' vol' t.
Proof.
  intros A unyaml a path yaml mx my vol t X Y NP NM UY W OG AX AY RX RY. pose proof (noMark_nil_tail unyaml a path yaml mx my vol t NP NM UY W) as E. destruct W as (NX & NY & L & T & B).
  rewrite (made_grid t X Y NX NY L B OG AX AY (wide_rd 0 1 t ltac:(lia) ltac:(lia) B RX) (wide_rd 2 3 t ltac:(lia) ltac:(lia) B RY)) in E. eexists. split; [exact E|]. cbn [h_tab h_xedges h_yedges rdTable2 u_nx u_ny u_total u_bins].
  split; [reflexivity|]. split; [reflexivity|]. split; [exact (rdRow_read _ _ T)|]. split.
  { clear -B. induction B as [|b bs H B IH]; [constructor|]. cbn [map]. constructor; [exact (rdRow_read _ _ H)|exact IH]. }
  split; [unfold edges; rewrite map_length, seq_length; reflexivity|]. split; [unfold edges; rewrite map_length, seq_length; reflexivity|]. split.
  - intros i j k k' HI HJ HK HK' EQ. assert (G : forall i k, (i < u_nx t * u_ny t)%nat -> (k < 11)%nat -> place k (nth i (map rdRow (u_bins t)) zbin) = rd (place k (nth i (u_bins t) zbin))).
    { intros i0 k0 H0 H1. rewrite (nth_indep _ zbin (rdRow zbin)) by (rewrite map_length; lia). rewrite map_nth. rewrite Forall_forall in B. apply (cell_rd k0 _ 11); [|exact H1]. apply B. apply nth_In. lia. }
    rewrite !G by assumption. f_equal. exact EQ.
  - intros. apply marshal2_rd; assumption.
Qed.
(* two columns and two lines, of unequal widths *)
Definition exBin (a b c d : Z) (n : Z) : row := mkrow (map ofInt [a; b; c; d; n; n; 0; 0; 0; 0; 0]) n.
Definition exH2 : table2 := mktab2 (mkrow [z; z; z; z; z; z; z] 6) 2 2 [exBin 0 1 0 2 0; exBin 1 4 0 2 1; exBin 0 1 2 3 2; exBin 1 4 2 3 3].
Ltac ints := split; [reflexivity|split; [unfold exBin; cbn [sums map]; repeat (apply Forall_cons; [apply ofInt_mid; lia|]); apply Forall_nil|unfold exBin; cbn [entries]; lia]].
Lemma exH2_ok : writable2 exH2.
Proof. split; [cbn; lia|]. split; [cbn; lia|]. split; [reflexivity|]. split; [change (writable 7 (mkrow [z; z; z; z; z; z; z] 6)); wr|]. unfold exH2. cbn [u_bins]. repeat (apply Forall_cons; [ints|]). apply Forall_nil. Qed.
Lemma small_rd n : 0 <= n < 10 ^ 7 -> rd (ofInt n) = ofInt n.
Proof. intros H. destruct (rdCount n ltac:(lia)) as (W & _ & E & _ & S & _). rewrite E, (S ltac:(lia)). reflexivity. Qed.
Lemma small_apart f n : (forall i, (i < n)%nat -> 0 <= f i < 10 ^ 7) -> (forall i j, (i < n)%nat -> (j < n)%nat -> feq (ofInt (f i)) (ofInt (f j)) = Nat.eqb i j) -> toldApart n (fun i => ofInt (f i)).
Proof.
  intros S H i j I J. split; [apply H; assumption|]. intros D E. pose proof (small_rd _ (S i I)) as EI. pose proof (small_rd _ (S j J)) as EJ. unfold rd in EI, EJ. rewrite E in EI.
  destruct (rd_ok (ofInt (f j)) (ofInt_mid (f j) ltac:(specialize (S j J); lia))) as (P & _). rewrite P in EI, EJ. pose proof (H i j I J) as Q. rewrite <- EI, EJ in Q. pose proof (H j j J J) as Q'. rewrite Q', Nat.eqb_refl in Q. symmetry in Q. apply Nat.eqb_eq in Q. contradiction.
Qed.
Definition exX (i : nat) : Z := match i with O => 0 | _ => 1 end.
Definition exY (i : nat) : Z := match i with O => 0 | _ => 2 end.
Lemma exH2_grid : gridded exH2 (fun i => ofInt (exX i)) (fun i => ofInt (exY i)).
Proof. intros ix iy I J. change (ix < 2)%nat in I. change (iy < 2)%nat in J. destruct ix as [|[|ix]]; [| |lia]; (destruct iy as [|[|iy]]; [| |lia]); split; reflexivity. Qed.
Lemma exX_apart : toldApart 2 (fun i => ofInt (exX i)).
Proof. apply (small_apart exX 2); [intros i _; destruct i; unfold exX; lia|]. intros i j I J. destruct i as [|[|i]]; [| |lia]; (destruct j as [|[|j]]; [| |lia]); vm_compute; reflexivity. Qed.
Lemma exY_apart : toldApart 2 (fun i => ofInt (exY i)).
Proof. apply (small_apart exY 2); [intros i _; destruct i; unfold exY; lia|]. intros i j I J. destruct i as [|[|i]]; [| |lia]; (destruct j as [|[|j]]; [| |lia]); vm_compute; reflexivity. Qed.
Lemma small_read n : 0 <= n < 10 ^ 7 -> parse_float (fmt_e 7 (ofInt n)) = Some (ofInt n).
Proof. intros H. destruct (rd_ok (ofInt n) (ofInt_mid n ltac:(lia))) as (P & _). rewrite P, small_rd by exact H. reflexivity. Qed.
Lemma exH2_wide : wide 0 1 exH2 /\ wide 2 3 exH2.
Proof.
  split; exists (exBin 0 1 0 2 0), (exBin 0 1 0 2 0); [exists (ofInt 0), (ofInt 1)|exists (ofInt 0), (ofInt 2)]; (split; [left; reflexivity|]; split; [left; reflexivity|]; split; [apply small_read; lia|]; split; [apply small_read; lia|]; vm_compute; reflexivity).
Qed.
Example C79_roundtrip_ex : exists h, unmarshal2 (fun s => Some (List.length s)) (marshal2 (ys "/h") (ys "Path: /h" ++ [10]) z z z exH2) = Ok (Some (13%nat, h)) /\ u_nx (h_tab h) = 2%nat /\ Forall2 readRow (u_bins exH2) (u_bins (h_tab h)).
Proof.
  destruct (C79_roundtrip nat (fun s => Some (List.length s)) 13%nat (ys "/h") (ys "Path: /h" ++ [10]) z z z exH2 (fun i => ofInt (exX i)) (fun i => ofInt (exY i))) as (h & E & NX & _ & _ & F & _); [intros H; cbn in H; intuition lia|exact yaml_ok|reflexivity|exact exH2_ok|exact exH2_grid|exact exX_apart|exact exY_apart|exact (proj1 exH2_wide)|exact (proj2 exH2_wide)|]. exists h. auto.
Qed.
(* the text itself: bins are written column by column *)
Example C79_text_ex : marshal2 (ys "/h") (ys "Title: t" ++ [10]) z z z (mktab2 (mkrow (repeat z 7) 0) 2 1 [mkrow (repeat z 11) 0; mkrow (B754_nan :: repeat z 10) 0]) =
  let num := ys "0.000000e+00" in let seven := num ++ 9 :: num ++ 9 :: num ++ 9 :: num ++ 9 :: num ++ 9 :: num ++ 9 :: num in
  ys "BEGIN YODA_HISTO2D_V2 /h" ++ 10 :: ys "Title: t" ++ 10 :: ys "---" ++ 10 :: ys "# Mean: (" ++ num ++ ys ", " ++ num ++ ys ")" ++ 10 :: ys "# Volume: " ++ num ++ 10 ::
  ys "# ID" ++ 9 :: ys " ID" ++ 9 :: ys " sumw" ++ 9 :: ys " sumw2" ++ 9 :: ys " sumwx" ++ 9 :: ys " sumwx2" ++ 9 :: ys " sumwy" ++ 9 :: ys " sumwy2" ++ 9 :: ys " sumwxy" ++ 9 :: ys " numEntries" ++ 10 ::
  ys "Total   " ++ 9 :: ys "Total   " ++ 9 :: seven ++ 9 :: num ++ 10 :: ys "# 2D outflow persistency not currently supported until API is stable" ++ 10 ::
  ys "# xlow" ++ 9 :: ys " xhigh" ++ 9 :: ys " ylow" ++ 9 :: ys " yhigh" ++ 9 :: ys " sumw" ++ 9 :: ys " sumw2" ++ 9 :: ys " sumwx" ++ 9 :: ys " sumwx2" ++ 9 :: ys " sumwy" ++ 9 :: ys " sumwy2" ++ 9 :: ys " sumwxy" ++ 9 :: ys " numEntries" ++ 10 ::
  num ++ 9 :: num ++ 9 :: num ++ 9 :: num ++ 9 :: seven ++ 9 :: num ++ 10 :: ys "NaN" ++ 9 :: num ++ 9 :: num ++ 9 :: num ++ 9 :: seven ++ 9 :: num ++ 10 ::
  ys "END YODA_HISTO2D_V2" ++ [10; 10].
Proof. vm_compute. reflexivity. Qed.
Lemma nl_path : ~ In 10 (ys "/h"). Proof. intros H. cbn in H. intuition lia. Qed.
Lemma nl_yaml : forall u v, @nil Z <> u ++ 10 :: 35 :: v. Proof. intros [|? u] v; discriminate. Qed.

(* ---- unequal widths ---- *)
(* a number of the second column is found in the first one: the histogram that is read has bins of unequal widths, and finds them as if they were of the same width *)
Theorem C79_fill_refuted : exists t h v, writable2 t /\ unmarshal2 (fun s => Some s) (marshal2 (ys "/h") [] z z z t) = Ok (Some (ys "---" ++ [10], h)) /\
  u_bins (h_tab h) = u_bins t /\ (forall iy, (iy < u_ny t)%nat -> let b := nth (iy * u_nx t + 1) (u_bins (h_tab h)) zbin in fle (place 0 b) v = true /\ flt v (place 1 b) = true) /\ column (h_xedges h) v = Some 0%nat.
Proof.
  pose proof (noMark_nil_tail (fun s => Some s) (ys "---" ++ [10]) (ys "/h") [] z z z exH2 nl_path nl_yaml eq_refl exH2_ok) as E. destruct exH2_ok as (NX & NY & L & T & B).
  rewrite (made_grid exH2 _ _ NX NY L B exH2_grid exX_apart exY_apart (wide_rd 0 1 _ ltac:(lia) ltac:(lia) B (proj1 exH2_wide)) (wide_rd 2 3 _ ltac:(lia) ltac:(lia) B (proj2 exH2_wide))) in E.
  assert (EB : forall a b c d n, 0 <= a < 10 -> 0 <= b < 10 -> 0 <= c < 10 -> 0 <= d < 10 -> 0 <= n < 10 -> rdRow (exBin a b c d n) = exBin a b c d n).
  { intros a b c d n HA HB HC HD HN. unfold rdRow, exBin. cbn [sums map entries]. rewrite !small_rd by lia. rewrite toInt_whole by lia. reflexivity. }
  assert (ER : map rdRow (u_bins exH2) = u_bins exH2) by (unfold exH2; cbn [u_bins map]; rewrite !EB by lia; reflexivity).
  assert (EW : map rdRow (written exH2) = written exH2).
  { change (written exH2) with [exBin 0 1 0 2 0; exBin 0 1 2 3 2; exBin 1 4 0 2 1; exBin 1 4 2 3 3]. cbn [map]. rewrite !EB by lia. reflexivity. }
  rewrite EW in E. exists exH2. eexists. exists (ofInt 1). split; [exact exH2_ok|]. split; [exact E|]. cbn [h_tab rdTable2 u_bins h_xedges]. split; [exact ER|]. split.
  - intros iy H. rewrite ER. cbn in H. destruct iy as [|[|iy]]; [| |lia]; split; vm_compute; reflexivity.
  - vm_compute. reflexivity.
Qed.
(* ---- edges that are the same to 7 digits ---- *)
Lemma big_rd n : 10000000 < n < 10000005 -> rd (ofInt n) = ofInt 10000000.
Proof.
  intros H. destruct (rdCount n ltac:(lia)) as (V & _ & E & _ & _ & D & C). specialize (D ltac:(lia)). assert (V = 10000000) by (apply Z.mod_divide in D as [q ->]; lia). subst V. exact E.
Qed.
Definition exNear : table2 := mktab2 (mkrow [z; z; z; z; z; z; z] 6) 2 1 [exBin 10000001 10000002 0 2 4; exBin 10000002 10000100 0 2 2].
Definition exThin : table2 := mktab2 (mkrow [z; z; z; z; z; z; z] 6) 1 1 [exBin 10000001 10000002 0 2 6].
Lemma exNear_ok : writable2 exNear.
Proof. split; [cbn; lia|]. split; [cbn; lia|]. split; [reflexivity|]. split; [change (writable 7 (mkrow [z; z; z; z; z; z; z] 6)); wr|]. unfold exNear. cbn [u_bins]. repeat (apply Forall_cons; [ints|]). apply Forall_nil. Qed.
Lemma exThin_ok : writable2 exThin.
Proof. split; [cbn; lia|]. split; [cbn; lia|]. split; [reflexivity|]. split; [change (writable 7 (mkrow [z; z; z; z; z; z; z] 6)); wr|]. unfold exThin. cbn [u_bins]. repeat (apply Forall_cons; [ints|]). apply Forall_nil. Qed.
Lemma rd_100 : rd (ofInt 10000100) = ofInt 10000100.
Proof.
  destruct (rdCount 10000100 ltac:(lia)) as (V & _ & E & _ & _ & D & C). specialize (D ltac:(lia)). assert (V = 10000100) by (apply Z.mod_divide in D as [q ->]; lia). subst V. exact E.
Qed.
(* two columns are read as one, and the bins of the second are lost, without an error *)
Theorem C79_columns_refuted : exists t h, writable2 t /\ feq (place 0 (nth 0 (u_bins t) zbin)) (place 0 (nth 1 (u_bins t) zbin)) = false /\ map entries (u_bins t) = [4; 2] /\
  unmarshal2 (fun s => Some s) (marshal2 (ys "/h") [] z z z t) = Ok (Some (ys "---" ++ [10], h)) /\ map entries (u_bins (h_tab h)) = [4].
Proof.
  pose proof (noMark_nil_tail (fun s => Some s) (ys "---" ++ [10]) (ys "/h") [] z z z exNear nl_path nl_yaml eq_refl exNear_ok) as E.
  assert (EW : map rdRow (written exNear) = [exBin 10000000 10000000 0 2 4; exBin 10000000 10000100 0 2 2]).
  { change (written exNear) with [exBin 10000001 10000002 0 2 4; exBin 10000002 10000100 0 2 2]. cbn [map]. unfold rdRow, exBin. cbn [sums map entries]. rewrite rd_100, !big_rd by lia. rewrite !small_rd by lia. rewrite !toInt_whole by lia. reflexivity. }
  rewrite EW in E. set (h := made _ _) in E. assert (H : exists b, h = Ok b /\ map entries (u_bins (h_tab b)) = [4]) by (unfold h, made; match goal with |- context [if ?c then Panic else _] => assert (C : c = false) by (vm_compute; reflexivity); rewrite C end; match goal with |- context [if ?c then Panic else _] => assert (C' : c = false) by (vm_compute; reflexivity); rewrite C' end; eexists; split; [reflexivity|cbn [h_tab u_bins]; vm_compute; reflexivity]).
  destruct H as (b & EH & M). rewrite EH in E. exists exNear, b. split; [exact exNear_ok|]. split; [vm_compute; reflexivity|]. split; [reflexivity|]. split; [exact E|exact M].
Qed.
(* what was written cannot be read: the range is empty *)
Theorem C79_range_refuted : exists t, writable2 t /\ (exists b, u_bins t = [b] /\ flt (place 0 b) (place 1 b) = true /\ flt (place 2 b) (place 3 b) = true) /\ unmarshal2 (fun s => Some s) (marshal2 (ys "/h") [] z z z t) = Panic.
Proof.
  pose proof (noMark_nil_tail (fun s => Some s) (ys "---" ++ [10]) (ys "/h") [] z z z exThin nl_path nl_yaml eq_refl exThin_ok) as E.
  assert (EW : map rdRow (written exThin) = [exBin 10000000 10000000 0 2 6]).
  { change (written exThin) with [exBin 10000001 10000002 0 2 6]. cbn [map]. unfold rdRow, exBin. cbn [sums map entries]. rewrite !big_rd by lia. rewrite !small_rd by lia. rewrite !toInt_whole by lia. reflexivity. }
  rewrite EW in E. exists exThin. split; [exact exThin_ok|]. split; [eexists; split; [reflexivity|]; split; vm_compute; reflexivity|]. rewrite E. unfold made. match goal with |- context [if ?c then Panic else _] => assert (C : c = true) by (vm_compute; reflexivity); rewrite C end. reflexivity.
Qed.
(* a histogram of nothing: a text without bins *)
Theorem C79_empty_refuted : exists text, unmarshal2 (fun s => Some s) text = Panic /\ text = ys "BEGIN YODA_HISTO2D_V2 /h" ++ 10 :: ys "---" ++ 10 :: ys "# Mean: (0, 0)" ++ 10 :: ys "END YODA_HISTO2D_V2" ++ [10].
Proof. eexists. split; [|reflexivity]. vm_compute. reflexivity. Qed.

Print Assumptions C79_roundtrip.
Print Assumptions C79_fill_refuted.
Print Assumptions C79_columns_refuted.
Print Assumptions C79_range_refuted.
Print Assumptions C79_empty_refuted.
