(* C77: the YODA text of one-dimensional histograms and profiles: what is written comes back to 7 digits *)
From Coq Require Import ZArith List Lia Bool String.
From Flocq Require Import IEEE754.BinarySingleNaN.
From Verif Require Import Bytes GoLib GoStrings F64 FloatText FloatDigits ScanfModel YodaModel YodaProofs.
Import ListNotations.
Local Open Scope Z_scope.

(* a row that can be written: n numbers, each zero, NaN, infinite or normal and at most 10^308, and a number of entries *)
Definition writable (n : nat) (r : row) : Prop := List.length (sums r) = n /\ Forall mid (sums r) /\ 0 <= entries r < 10 ^ 14.
Definition writableTable (n : nat) (t : table) : Prop := writable n (t_total t) /\ writable n (t_under t) /\ writable n (t_over t) /\ Forall (writable (2 + n)) (t_bins t).
(* the same row, with numbers to 7 digits; the number of entries is exact below 10^7 *)
Definition readRow (r r' : row) : Prop := Forall2 (near 7) (sums r) (sums r') /\ (entries r < 10 ^ 7 -> entries r' = entries r) /\ 2 * 10 ^ 6 * Z.abs (entries r - entries r') <= entries r.
Definition readTable (t t' : table) : Prop := readRow (t_total t) (t_total t') /\ readRow (t_under t) (t_under t') /\ readRow (t_over t) (t_over t') /\ Forall2 readRow (t_bins t) (t_bins t').

Lemma rdRow_read n r : writable n r -> readRow r (rdRow r).
Proof.
  intros (L & F & B). split; [|].
  - unfold rdRow. cbn [sums]. clear L. induction F as [|x l M F IH]; [constructor|]. cbn [map]. constructor; [exact (proj2 (proj2 (rd_ok x M)))|exact IH].
  - unfold rdRow. cbn [entries]. destruct (rdCount _ B) as (W & _ & _ & -> & A & _ & C). auto.
Qed.
Lemma rdTable_read n t : writableTable n t -> readTable t (rdTable t).
Proof.
  intros (T & U & O & B). unfold readTable, rdTable. cbn [t_total t_under t_over t_bins]. split; [exact (rdRow_read _ _ T)|]. split; [exact (rdRow_read _ _ U)|]. split; [exact (rdRow_read _ _ O)|].
  induction B as [|b bs H B IH]; [constructor|]. cbn [map]. constructor; [exact (rdRow_read _ _ H)|exact IH].
Qed.
Lemma roundtrip {A} (unyaml : str -> option A) a k path yaml mean area t : kindOk k -> ~ In 10 path -> (forall u v, yaml <> u ++ 10 :: 35 :: v) -> unyaml (yaml ++ ys "---" ++ [10]) = Some a -> writableTable (k_sums k) t ->
  exists t', unmarshal unyaml k (marshal k path yaml mean area t) = Some (a, t') /\ readTable t t' /\
    (forall i, nth 1 (sums (nth i (t_bins t) (zrow k))) B754_nan = nth 0 (sums (nth (S i) (t_bins t) (zrow k))) B754_nan -> (S i < List.length (t_bins t))%nat ->
       nth 1 (sums (nth i (t_bins t') (zrow k))) B754_nan = nth 0 (sums (nth (S i) (t_bins t') (zrow k))) B754_nan) /\
    forall path' yaml' mean' area', marshal k path' yaml' mean' area' t' = marshal k path' yaml' mean' area' t.
Proof.
  intros KO NP NM UY W. exists (rdTable t). split; [exact (unmarshal_marshal unyaml a k path yaml mean area t KO NP NM UY W)|]. split; [exact (rdTable_read _ t W)|]. split; [|intros; apply marshal_rd; exact W].
  intros i E L. cbn [rdTable t_bins]. destruct W as (_ & _ & _ & B).
  assert (G : forall j m, (j < List.length (t_bins t))%nat -> (m < 2)%nat -> nth m (sums (nth j (map rdRow (t_bins t)) (zrow k))) B754_nan = rd (nth m (sums (nth j (t_bins t) (zrow k))) B754_nan)).
  { intros j m Hj Hm. rewrite (nth_indep _ (zrow k) (rdRow (zrow k))) by (rewrite map_length; exact Hj). rewrite map_nth. unfold rdRow. cbn [sums]. rewrite Forall_forall in B. destruct (B _ (nth_In (t_bins t) (zrow k) Hj)) as (LN & _).
    rewrite (nth_indep _ B754_nan (rd B754_nan)) by (rewrite map_length, LN; lia). apply map_nth. }
  rewrite !G by lia. f_equal. exact E.
Qed.

(* a histogram, written and read: the annotations, the same bins with the same shared edges, every number to 7 digits, and what is read is written as the same text *)
Theorem C77_histo_roundtrip : forall (A : Type) (unyaml : str -> option A) a path yaml mean area t,
  ~ In 10 path -> (forall u v, yaml <> u ++ 10 :: 35 :: v) -> unyaml (yaml ++ ys "---" ++ [10]) = Some a -> writableTable 4 t ->
  exists t', unmarshal unyaml histo (marshal histo path yaml mean area t) = Some (a, t') /\ readTable t t' /\
    (forall i, nth 1 (sums (nth i (t_bins t) (zrow histo))) B754_nan = nth 0 (sums (nth (S i) (t_bins t) (zrow histo))) B754_nan -> (S i < List.length (t_bins t))%nat ->
       nth 1 (sums (nth i (t_bins t') (zrow histo))) B754_nan = nth 0 (sums (nth (S i) (t_bins t') (zrow histo))) B754_nan) /\
    forall path' yaml' mean' area', marshal histo path' yaml' mean' area' t' = marshal histo path' yaml' mean' area' t.
Proof. intros. apply roundtrip; try assumption. exact histo_ok. Qed.
(* a profile, the same *)
Theorem C77_profile_roundtrip : forall (A : Type) (unyaml : str -> option A) a path yaml mean area t,
  ~ In 10 path -> (forall u v, yaml <> u ++ 10 :: 35 :: v) -> unyaml (yaml ++ ys "---" ++ [10]) = Some a -> writableTable 6 t ->
  exists t', unmarshal unyaml profile (marshal profile path yaml mean area t) = Some (a, t') /\ readTable t t' /\
    (forall i, nth 1 (sums (nth i (t_bins t) (zrow profile))) B754_nan = nth 0 (sums (nth (S i) (t_bins t) (zrow profile))) B754_nan -> (S i < List.length (t_bins t))%nat ->
       nth 1 (sums (nth i (t_bins t') (zrow profile))) B754_nan = nth 0 (sums (nth (S i) (t_bins t') (zrow profile))) B754_nan) /\
    forall path' yaml' mean' area', marshal profile path' yaml' mean' area' t' = marshal profile path' yaml' mean' area' t.
Proof. intros. apply roundtrip; try assumption. exact profile_ok. Qed.

Definition z : f64 := B754_zero false.
Definition exH : table := mktab (mkrow [z; z; z; z] 3) (mkrow [z; z; z; B754_nan] 0) (mkrow [B754_infinity true; z; z; z] 0) [mkrow [B754_infinity true; z; z; z; z; z] 3; mkrow [z; B754_infinity false; z; z; z; z] 9999999].
Definition exP : table := mktab (mkrow [z; z; z; z; z; z] 3) (mkrow [z; z; z; B754_nan; z; z] 0) (mkrow [B754_infinity true; z; z; z; z; z] 0) [mkrow [B754_infinity true; z; z; z; z; z; z; z] 3; mkrow [z; B754_infinity false; z; z; z; z; z; z] 9999999].
Ltac wr := split; [reflexivity|split; [match goal with |- Forall mid ?l => let v := eval cbv in l in change l with v end; repeat (apply Forall_cons; [exact I|]); apply Forall_nil|match goal with |- 0 <= ?e < _ => let v := eval cbv in e in change e with v end; lia]].
Definition exH0 : table := mktab (zrow histo) (zrow histo) (zrow histo) [].
Lemma exH0_ok : writableTable 4 exH0.
Proof. split; [wr|split; [wr|split; [wr|constructor]]]. Qed.
Lemma exH_ok : writableTable 4 exH.
Proof. split; [wr|split; [wr|split; [wr|]]]. constructor; [wr|constructor; [wr|constructor]]. Qed.
Lemma exP_ok : writableTable 6 exP.
Proof. split; [wr|split; [wr|split; [wr|]]]. constructor; [wr|constructor; [wr|constructor]]. Qed.
Lemma yaml_ok : forall u v, ys "Path: /h" ++ [10] <> u ++ 10 :: 35 :: v.
Proof. intros u v E. do 10 (destruct u as [|? u]; [discriminate|]; cbn in E; try (injection E as _ E)). all: destruct u; discriminate. Qed.
Example C77_histo_ex : exists t', unmarshal (fun s => Some (List.length s)) histo (marshal histo (ys "/h") (ys "Path: /h" ++ [10]) z z exH) = Some (13%nat, t') /\ readTable exH t'.
Proof. destruct (C77_histo_roundtrip nat (fun s => Some (List.length s)) 13%nat (ys "/h") (ys "Path: /h" ++ [10]) z z exH) as (t' & A & B & _); [intros H; cbn in H; intuition lia|exact yaml_ok|reflexivity|exact exH_ok|]. exists t'. auto. Qed.
Example C77_profile_ex : exists t', unmarshal (fun s => Some (List.length s)) profile (marshal profile (ys "/h") (ys "Path: /h" ++ [10]) z z exP) = Some (13%nat, t') /\ readTable exP t'.
Proof. destruct (C77_profile_roundtrip nat (fun s => Some (List.length s)) 13%nat (ys "/h") (ys "Path: /h" ++ [10]) z z exP) as (t' & A & B & _); [intros H; cbn in H; intuition lia|exact yaml_ok|reflexivity|exact exP_ok|]. exists t'. auto. Qed.

(* the text itself, for a histogram of nothing *)
Example C77_text_ex : marshal histo (ys "/h") (ys "Title: t" ++ [10]) z z (mktab (zrow histo) (zrow histo) (zrow histo) []) =
  let num := ys "0.000000e+00" in let five := num ++ 9 :: num ++ 9 :: num ++ 9 :: num ++ 9 :: num in
  ys "BEGIN YODA_HISTO1D_V2 /h" ++ 10 :: ys "Title: t" ++ 10 :: ys "---" ++ 10 :: ys "# Mean: " ++ num ++ 10 :: ys "# Area: " ++ num ++ 10 ::
  ys "# ID" ++ 9 :: ys " ID" ++ 9 :: ys " sumw" ++ 9 :: ys " sumw2" ++ 9 :: ys " sumwx" ++ 9 :: ys " sumwx2" ++ 9 :: ys " numEntries" ++ 10 ::
  ys "Total   " ++ 9 :: ys "Total   " ++ 9 :: five ++ 10 :: ys "Underflow" ++ 9 :: ys "Underflow" ++ 9 :: five ++ 10 :: ys "Overflow" ++ 9 :: ys "Overflow" ++ 9 :: five ++ 10 ::
  ys "# xlow" ++ 9 :: ys " xhigh" ++ 9 :: ys " sumw" ++ 9 :: ys " sumw2" ++ 9 :: ys " sumwx" ++ 9 :: ys " sumwx2" ++ 9 :: ys " numEntries" ++ 10 ::
  ys "END YODA_HISTO1D_V2" ++ [10; 10].
Proof. vm_compute. reflexivity. Qed.

(* ---- counts of 10^7 and more ---- *)
(* a count of 10^7 or more is read back only if it is a multiple of ten *)
Theorem C77_counts_lost : forall (A : Type) (unyaml : str -> option A) a k path yaml mean area t t', k = histo \/ k = profile ->
  ~ In 10 path -> (forall u v, yaml <> u ++ 10 :: 35 :: v) -> unyaml (yaml ++ ys "---" ++ [10]) = Some a -> writableTable (k_sums k) t ->
  10 ^ 7 <= entries (t_total t) -> entries (t_total t) mod 10 <> 0 ->
  unmarshal unyaml k (marshal k path yaml mean area t) = Some (a, t') -> entries (t_total t') <> entries (t_total t).
Proof.
  intros A unyaml a k path yaml mean area t t' K NP NM UY W G M E. assert (KO : kindOk k) by (destruct K as [->| ->]; [exact histo_ok|exact profile_ok]). rewrite (unmarshal_marshal unyaml a k path yaml mean area t KO NP NM UY W) in E. injection E as <-.
  destruct W as ((_ & _ & B) & _). unfold rdTable, rdRow. cbn [t_total entries]. destruct (rdCount _ B) as (V & _ & _ & -> & _ & D & _). intros ->. apply M. apply D. exact G.
Qed.
Definition exBig : table := mktab (mkrow [z; z; z; z] 12345678) (zrow histo) (zrow histo) [].
Lemma exBig_ok : writableTable 4 exBig.
Proof. split; [wr|split; [wr|split; [wr|constructor]]]. Qed.
Theorem C77_count_refuted : exists t t', writableTable 4 t /\ unmarshal (fun s => Some s) histo (marshal histo (ys "/h") [] z z t) = Some (ys "---" ++ [10], t') /\ entries (t_total t') <> entries (t_total t).
Proof.
  assert (NP : ~ In 10 (ys "/h")) by (intros H; cbn in H; intuition lia). assert (NY : forall u v, @nil Z <> u ++ 10 :: 35 :: v) by (intros [|? u] v; discriminate).
  pose proof (unmarshal_marshal (fun s => Some s) (ys "---" ++ [10]) histo (ys "/h") [] z z exBig histo_ok NP NY eq_refl exBig_ok) as E.
  exists exBig, (rdTable exBig). split; [exact exBig_ok|]. split; [exact E|]. refine (C77_counts_lost str (fun s => Some s) (ys "---" ++ [10]) histo (ys "/h") [] z z exBig _ (or_introl eq_refl) NP NY eq_refl exBig_ok _ _ E); [cbn; lia|cbn; lia].
Qed.

(* ---- bins narrower than 7 digits ---- *)
(* the two edges of a bin are read as the same number: the bin is empty, though it was not when written *)
Theorem C77_edges_refuted : exists lo hi t t', flt lo hi = true /\ writableTable 4 t /\ map sums (t_bins t) = [[lo; hi; z; z; z; z]] /\
  unmarshal (fun s => Some s) histo (marshal histo (ys "/h") [] z z t) = Some (ys "---" ++ [10], t') /\ exists x, map sums (t_bins t') = [[x; x; z; z; z; z]].
Proof.
  assert (NP : ~ In 10 (ys "/h")) by (intros H; cbn in H; intuition lia). assert (NY : forall u v, @nil Z <> u ++ 10 :: 35 :: v) by (intros [|? u] v; discriminate).
  set (t := mktab (zrow histo) (zrow histo) (zrow histo) [mkrow [ofInt 10000001; ofInt 10000002; z; z; z; z] 0]).
  assert (W : writableTable 4 t).
  { split; [wr|split; [wr|split; [wr|]]]. constructor; [|constructor]. split; [reflexivity|]. split; [|cbn; lia]. constructor; [apply ofInt_mid; lia|]. constructor; [apply ofInt_mid; lia|]. repeat (constructor; [exact I|]). constructor. }
  exists (ofInt 10000001), (ofInt 10000002), t, (rdTable t). split; [vm_compute; reflexivity|]. split; [exact W|]. split; [reflexivity|].
  split; [exact (unmarshal_marshal (fun s => Some s) (ys "---" ++ [10]) histo (ys "/h") [] z z t histo_ok NP NY eq_refl W)|].
  destruct (rdCount 10000001 ltac:(lia)) as (V1 & _ & E1 & _ & _ & D1 & C1). destruct (rdCount 10000002 ltac:(lia)) as (V2 & _ & E2 & _ & _ & D2 & C2). specialize (D1 ltac:(lia)). specialize (D2 ltac:(lia)).
  assert (V1 = 10000000) by (apply Z.mod_divide in D1 as [q ->]; lia). assert (V2 = 10000000) by (apply Z.mod_divide in D2 as [q ->]; lia). subst V1 V2.
  assert (EZ : rd z = z) by (unfold rd, z; rewrite (parse_zero 7 false) by lia; reflexivity).
  exists (ofInt 10000000). unfold rdTable, rdRow, t. cbn [t_bins map sums]. rewrite E1, E2, EZ. reflexivity.
Qed.

(* ---- names with a newline ---- *)
(* the header is cut at the newline in the name, and the rest of the name is taken for annotations: what reads back only the text that was written reads nothing *)
Theorem C77_name_refuted : exists path yaml t, writableTable 4 t /\ (forall u v, yaml <> u ++ 10 :: 35 :: v) /\
  let unyaml := fun s => if str_eqb s (yaml ++ ys "---" ++ [10]) then Some tt else None in
  unmarshal unyaml histo (marshal histo path yaml z z t) = None.
Proof. exists (ys "/a" ++ 10 :: ys "b"), (ys "Path: /h" ++ [10]), exH0. split; [exact exH0_ok|]. split; [exact yaml_ok|]. vm_compute. reflexivity. Qed.

(* ---- annotations ---- *)
(* the name and the title, an empty one when there was none, and all other entries come back *)
Theorem C77_annotations : forall ty a, a (ys "Type") = None -> a (ys "Path") = None -> a (ys "Title") = None ->
  exists b, fromYODA (toYODA ty a) = Some b /\ annName b = annName a /\
    b (ys "title") = Some (match a (ys "title") with Some v => v | None => AStr [] end) /\
    (forall k, k <> ys "name" -> k <> ys "title" -> b k = a k) /\
    (forall s, a (ys "name") = Some (AStr s) -> b (ys "name") = Some (AStr s)).
Proof.
  intros ty a T P TI. assert (EP : toYODA ty a (ys "Path") = Some (AStr (47 :: annName a))) by (unfold toYODA; rewrite P; reflexivity).
  assert (ET : toYODA ty a (ys "Title") = Some (match a (ys "title") with Some v => v | None => AStr [] end)) by (unfold toYODA; cbn [is]; rewrite TI; destruct (a (ys "title")); reflexivity).
  unfold fromYODA. rewrite EP. eexists. split; [reflexivity|]. split; [reflexivity|]. split; [cbv beta; change (is (ys "title") (ys "Type") || is (ys "title") (ys "Path") || is (ys "title") (ys "Title")) with false; change (is (ys "title") (ys "name")) with false; change (is (ys "title") (ys "title")) with true; cbv iota; rewrite ET; reflexivity|].
  split.
  - intros k N1 N2. cbv beta. unfold is. destruct (str_eqb_spec k (ys "Type")) as [->|A1]; [symmetry; exact T|]. destruct (str_eqb_spec k (ys "Path")) as [->|A2]; [symmetry; exact P|]. destruct (str_eqb_spec k (ys "Title")) as [->|A3]; [symmetry; exact TI|].
    cbn [orb]. destruct (str_eqb_spec k (ys "name")); [contradiction|]. destruct (str_eqb_spec k (ys "title")); [contradiction|]. unfold toYODA, is.
    destruct (str_eqb_spec k (ys "name")); [contradiction|]. destruct (str_eqb_spec k (ys "title")); [contradiction|]. destruct (str_eqb_spec k (ys "Title")); [contradiction|]. destruct (str_eqb_spec k (ys "Type")); [contradiction|]. destruct (str_eqb_spec k (ys "Path")); [contradiction|]. cbn [orb]. destruct (a k); reflexivity.
  - intros s E. cbv beta. change (is (ys "name") (ys "Type") || is (ys "name") (ys "Path") || is (ys "name") (ys "Title")) with false. change (is (ys "name") (ys "name")) with true. cbv iota. unfold annName. rewrite E. reflexivity.
Qed.
Definition exAnn : ann := fun k => if is k (ys "name") then Some (AStr (ys "/a/b")) else if is k (ys "n") then Some (AOther 3) else None.
Example C77_annotations_ex : exists b, fromYODA (toYODA (ys "Histo1D") exAnn) = Some b /\ annName b = ys "/a/b" /\ b (ys "n") = Some (AOther 3).
Proof. destruct (C77_annotations (ys "Histo1D") exAnn eq_refl eq_refl eq_refl) as (b & A & B & _ & D & _). exists b. split; [exact A|]. split; [exact B|]. rewrite D by discriminate. reflexivity. Qed.
(* an annotation Path of the histogram's own takes the place of its name *)
Theorem C77_path_refuted : exists a b, a (ys "Type") = None /\ a (ys "Title") = None /\ annName a = ys "h" /\ fromYODA (toYODA (ys "Histo1D") a) = Some b /\ annName b = ys "other".
Proof.
  exists (fun k => if is k (ys "name") then Some (AStr (ys "h")) else if is k (ys "Path") then Some (AStr (ys "/other")) else None). eexists. split; [reflexivity|]. split; [reflexivity|]. split; [reflexivity|]. split; reflexivity.
Qed.

Print Assumptions C77_histo_roundtrip.
Print Assumptions C77_profile_roundtrip.
Print Assumptions C77_counts_lost.
Print Assumptions C77_count_refuted.
Print Assumptions C77_edges_refuted.
Print Assumptions C77_name_refuted.
Print Assumptions C77_annotations.
Print Assumptions C77_path_refuted.
