(* Proofs about the YODA text of two-dimensional histograms *)
From Coq Require Import ZArith List Lia Bool String Permutation.
From Flocq Require Import IEEE754.BinarySingleNaN.
From Verif Require Import Bytes GoLib GoStrings F64 F64Arith FloatText FloatDigits ScanfModel ScanfProofs YodaModel YodaProofs YodaCnvModel YodaCnvProofs YodaH2Model.
Import ListNotations.
Local Open Scope Z_scope.

(* ---- the order of the bins ---- *)
Definition grid {A} (g : nat -> nat -> A) (a nx ny : nat) : list A := flat_map (fun i => map (g i) (seq 0 ny)) (seq a nx).
Lemma grid_len {A} (g : nat -> nat -> A) nx ny : forall a, List.length (grid g a nx ny) = (nx * ny)%nat.
Proof. unfold grid. induction nx as [|n IH]; intros a; [reflexivity|]. cbn [seq flat_map]. rewrite app_length, map_length, seq_length, IH. reflexivity. Qed.
Lemma grid_nth {A} (g : nat -> nat -> A) d nx ny : forall a ix iy, (ix < nx)%nat -> (iy < ny)%nat -> nth (ix * ny + iy) (grid g a nx ny) d = g (a + ix)%nat iy.
Proof.
  unfold grid. induction nx as [|n IH]; intros a ix iy HX HY; [lia|]. cbn [seq flat_map]. destruct ix as [|ix].
  - rewrite app_nth1 by (rewrite map_length, seq_length; lia). cbn [Nat.mul Nat.add]. rewrite (nth_indep _ d (g a O)) by (rewrite map_length, seq_length; lia). rewrite map_nth, seq_nth by lia. rewrite Nat.add_0_r. reflexivity.
  - rewrite app_nth2 by (rewrite map_length, seq_length; lia). rewrite map_length, seq_length. replace (S ix * ny + iy - ny)%nat with (ix * ny + iy)%nat by lia. rewrite (IH (S a) ix iy) by lia. f_equal. lia.
Qed.
Lemma grid_map {A B} (f : A -> B) (g : nat -> nat -> A) a nx ny : map f (grid g a nx ny) = grid (fun i j => f (g i j)) a nx ny.
Proof. unfold grid. revert a. induction nx as [|n IH]; intros a; [reflexivity|]. cbn [seq flat_map]. rewrite map_app, map_map, IH. reflexivity. Qed.
Lemma grid_ext {A} (g h : nat -> nat -> A) nx ny : forall a, (forall i j, (a <= i < a + nx)%nat -> (j < ny)%nat -> g i j = h i j) -> grid g a nx ny = grid h a nx ny.
Proof.
  unfold grid. induction nx as [|n IH]; intros a H; [reflexivity|]. cbn [seq flat_map]. f_equal; [|apply IH; intros; apply H; lia]. apply map_ext_in. intros j J. apply in_seq in J. apply H; lia.
Qed.
Lemma grid_in {A} (g : nat -> nat -> A) x nx ny a : In x (grid g a nx ny) <-> exists i j, (a <= i < a + nx)%nat /\ (j < ny)%nat /\ x = g i j.
Proof.
  unfold grid. rewrite in_flat_map. split.
  - intros (i & I & J). apply in_seq in I. apply in_map_iff in J as (j & <- & J). apply in_seq in J. exists i, j. repeat split; lia.
  - intros (i & j & I & J & ->). exists i. split; [apply in_seq; lia|]. apply in_map. apply in_seq. lia.
Qed.
(* ---- how many different numbers there are ---- *)
Definition ndist (l : list nat) : list nat := fold_left (fun acc x => if existsb (Nat.eqb x) acc then acc else x :: acc) l [].
Lemma distinct_idx (f : nat -> f64) n l : (forall i j, (i < n)%nat -> (j < n)%nat -> feq (f i) (f j) = Nat.eqb i j) -> (forall i, In i l -> (i < n)%nat) -> distinct (map f l) = map f (ndist l).
Proof.
  intros H. unfold distinct, ndist. change (@nil f64) with (map f []). assert (G : forall i, In i [] -> (i < n)%nat) by (intros ? []). revert G. generalize (@nil nat). induction l as [|x l IH]; intros acc G L; [reflexivity|]. cbn [map fold_left].
  assert (E : existsb (feq (f x)) (map f acc) = existsb (Nat.eqb x) acc).
  { clear IH. assert (X : (x < n)%nat) by (apply L; left; reflexivity). induction acc as [|y acc IA]; [reflexivity|]. cbn [map existsb]. rewrite IA by (intros i I; apply G; right; exact I). rewrite H; [reflexivity|exact X|apply G; left; reflexivity]. }
  rewrite E. destruct (existsb (Nat.eqb x) acc).
  - apply IH; [exact G|]. intros i I. apply L. right. exact I.
  - change (f x :: map f acc) with (map f (x :: acc)). apply IH; [|intros i I; apply L; right; exact I]. intros i [<-|I]; [apply L; left; reflexivity|apply G; exact I].
Qed.
Lemma ndist_spec l : NoDup (ndist l) /\ forall i, In i (ndist l) <-> In i l.
Proof.
  unfold ndist. assert (G : forall acc, NoDup acc -> let r := fold_left (fun acc x => if existsb (Nat.eqb x) acc then acc else x :: acc) l acc in NoDup r /\ forall i, In i r <-> In i acc \/ In i l).
  { induction l as [|x l IH]; intros acc ND; cbn [fold_left]; cbv zeta.
    - split; [exact ND|]. intros i. cbn. tauto.
    - destruct (existsb (Nat.eqb x) acc) eqn:E.
      + destruct (IH acc ND) as [A B]. split; [exact A|]. intros i. rewrite B. cbn. apply existsb_exists in E as (y & Y & EY). apply Nat.eqb_eq in EY. subst y. split; [tauto|]. intros [?|[<-|?]]; tauto.
      + assert (NI : ~ In x acc). { intros I. assert (T : existsb (Nat.eqb x) acc = true) by (apply existsb_exists; exists x; split; [exact I|apply Nat.eqb_refl]). rewrite T in E. discriminate. }
        destruct (IH (x :: acc) (NoDup_cons _ NI ND)) as [A B]. split; [exact A|]. intros i. rewrite B. cbn. tauto. }
  destruct (G [] (NoDup_nil _)) as [A B]. split; [exact A|]. intros i. rewrite B. cbn. tauto.
Qed.
Lemma distinct_count (f : nat -> f64) n l : (forall i j, (i < n)%nat -> (j < n)%nat -> feq (f i) (f j) = Nat.eqb i j) -> (forall i, In i l <-> (i < n)%nat) -> List.length (distinct (map f l)) = n.
Proof.
  intros H L. rewrite (distinct_idx f n l H) by (intros i I; apply L; exact I). rewrite map_length. destruct (ndist_spec l) as [ND S].
  rewrite <- (seq_length n 0). apply Permutation_length. apply NoDup_Permutation; [exact ND|apply seq_NoDup|]. intros i. rewrite S, L, in_seq. lia.
Qed.
(* ---- numbers that are equal ---- *)
Lemma feq_same x y : feq x y = true -> x = y \/ exists s s', x = B754_zero s /\ y = B754_zero s'.
Proof.
  unfold feq, Beqb. destruct x as [s|s| |s m e H], y as [s'|s'| |s' m' e' H']; cbn; intros E; try discriminate; try (destruct s; discriminate); try (destruct s'; discriminate); try (right; eexists; eexists; split; reflexivity).
  - destruct s, s'; try discriminate; left; reflexivity.
  - left. apply B2SF_inj. cbn. unfold SpecFloat.SFeqb in E. cbn in E. destruct s, s'; try discriminate; destruct (Z.compare_spec e e') as [->|?|?]; try discriminate; change (Pos.compare_cont Eq m m') with (Pos.compare m m') in E; destruct (Pos.compare_spec m m') as [->|?|?]; try discriminate; reflexivity.
Qed.
Lemma near_zero x s : near 7 x (B754_zero s) -> x = B754_zero s.
Proof. destruct x; cbn; intros H; exact H. Qed.
Lemma feq_rd x y : mid x -> mid y -> feq x y = false -> fmt_e 7 x <> fmt_e 7 y -> feq (rd x) (rd y) = false.
Proof.
  intros MX MY N T. destruct (feq (rd x) (rd y)) eqn:E; [|reflexivity]. exfalso. destruct (rd_ok x MX) as (_ & TX & NX). destruct (rd_ok y MY) as (_ & TY & NY). apply feq_same in E as [E|(s & s' & E1 & E2)].
  - apply T. rewrite <- TX, <- TY, E. reflexivity.
  - rewrite E1 in NX. rewrite E2 in NY. apply near_zero in NX, NY. rewrite NX, NY in N. discriminate.
Qed.
Lemma feq_refl x : feq x x = negb (is_nanb x).
Proof. destruct (feq x x) eqn:E; destruct x as [s|s| |s m e H]; try reflexivity; try discriminate; exfalso; rewrite feq_key in E; cbn in E; try (destruct s; discriminate); rewrite Z.eqb_refl in E; discriminate. Qed.
Lemma rd_nan x : mid x -> is_nanb (rd x) = is_nanb x.
Proof. intros M. destruct (rd_ok x M) as (_ & _ & N). destruct x as [s|s| |s m e H], (rd _) as [s'|s'| |s' m' e' H']; cbn in N; try discriminate; reflexivity. Qed.
Definition apart (n : nat) (X : nat -> f64) : Prop := forall i j, (i < n)%nat -> (j < n)%nat -> feq (X i) (X j) = Nat.eqb i j /\ (i <> j -> fmt_e 7 (X i) <> fmt_e 7 (X j)).
Lemma apart_rd n X : (forall i, (i < n)%nat -> mid (X i)) -> apart n X -> forall i j, (i < n)%nat -> (j < n)%nat -> feq (rd (X i)) (rd (X j)) = Nat.eqb i j.
Proof.
  intros M A i j I J. destruct (A i j I J) as [E T]. destruct (Nat.eqb_spec i j) as [->|D].
  - rewrite feq_refl in E |- *. rewrite rd_nan by (apply M; exact J). exact E.
  - apply feq_rd; auto.
Qed.
(* ---- ranges ---- *)
Lemma lowest_below k l b : In b l -> is_nanb (cell k b) = false -> below (lowest k l) (cell k b).
Proof.
  intros I N. unfold lowest. generalize (B754_infinity false : f64). induction l as [|c l IH]; [contradiction|]. intros m. cbn [fold_left]. destruct I as [->|I]; [|apply IH; exact I].
  assert (K : below (goMin m (cell k b)) (cell k b)) by (apply min_new; exact N). clear IH. revert K. generalize (goMin m (cell k b)). induction l as [|d l IH]; intros m' K; [exact K|]. cbn [fold_left]. apply IH. apply min_keep; assumption.
Qed.
Lemma highest_above k l b : In b l -> is_nanb (cell k b) = false -> above (highest k l) (cell k b).
Proof.
  intros I N. unfold highest. generalize (B754_infinity true : f64). induction l as [|c l IH]; [contradiction|]. intros m. cbn [fold_left]. destruct I as [->|I]; [|apply IH; exact I].
  assert (K : above (goMax m (cell k b)) (cell k b)) by (apply max_new; exact N). clear IH. revert K. generalize (goMax m (cell k b)). induction l as [|d l IH]; intros m' K; [exact K|]. cbn [fold_left]. apply IH. apply max_keep; assumption.
Qed.
Lemma range2_ok k k' l b c : In b l -> In c l -> flt (cell k b) (cell k' c) = true -> fge (lowest k l) (highest k' l) = false.
Proof.
  intros IB IC H. assert (NN : is_nanb (cell k b) = false /\ is_nanb (cell k' c) = false) by (apply nonan_le; apply flt_le; exact H). destruct NN as [N1 N2]. pose proof (lowest_below k l b IB N1) as B. pose proof (highest_above k' l c IC N2) as A.
  destruct (fge (lowest k l) (highest k' l)) eqn:E; [|reflexivity]. exfalso. unfold fge in E. change (Bleb (highest k' l) (lowest k l)) with (fle (highest k' l) (lowest k l)) in E. destruct (nonan_le _ _ E) as [E1 E2].
  destruct B as [B|B]; [rewrite B in E2; discriminate|]. destruct A as [A|A]; [rewrite A in E1; discriminate|]. pose proof (fle_trans _ _ _ A (fle_trans _ _ _ E B)) as L. pose proof (flt_not_le _ _ H) as G. rewrite G in L. discriminate.
Qed.
(* ---- the loop ---- *)
Lemma loop2_comment l ls tot : comment l -> loop2 (l :: ls) tot = loop2 ls tot.
Proof. intros [_ [r ->]]. reflexivity. Qed.
Lemma loop2_bins bs e ls t : Forall (rowOk 11) bs -> (exists v, e = k_end histo2 ++ v) -> loop2 (map rowText bs ++ e :: ls) (Some t) = Some (Some t, map rdRow bs).
Proof.
  intros F [v ->]. induction F as [|b bs H F IH].
  - cbn [map app]. pose proof (prefixb_app (k_end histo2) v) as PE. remember (k_end histo2 ++ v) as w eqn:EW. destruct w as [|c w]; [discriminate|]. cbn [loop2]. rewrite PE. injection EW as -> _. reflexivity.
  - cbn [map app]. destruct (rowText_head b) as (c & r & E & C). pose proof (scanRow_bin _ b H) as SB. cbn [loop2]. rewrite E in SB |- *. destruct (Z.eqb_spec c 35); [lia|]. change (k_end histo2) with (69 :: ys "ND YODA_HISTO2D_V2") at 1. rewrite prefixb_cons. destruct (Z.eqb_spec c 69); [lia|]. cbn [andb]. rewrite SB, IH. reflexivity.
Qed.
Definition bodyLines (mx my vol : f64) (tot : row) (bs : list row) : list str :=
  [ys "# Mean: (" ++ fmt_e 7 mx ++ ys ", " ++ fmt_e 7 my ++ ys ")"; ys "# Volume: " ++ fmt_e 7 vol;
   join 9 (map ys ["# ID"; " ID"; " sumw"; " sumw2"; " sumwx"; " sumwx2"; " sumwy"; " sumwy2"; " sumwxy"; " numEntries"]%string);
   named total gap3 tot; ys "# 2D outflow persistency not currently supported until API is stable"; k_cols histo2] ++ map rowText bs.
Lemma fmt_noten x c : In c (fmt_e 7 x) -> c <> 10 /\ c <> 13.
Proof. intros I. pose proof (fmte_plain 7 x c ltac:(lia) I). lia. Qed.
Lemma comments2 mx my vol : comment (ys "# Mean: (" ++ fmt_e 7 mx ++ ys ", " ++ fmt_e 7 my ++ ys ")") /\ comment (ys "# Volume: " ++ fmt_e 7 vol) /\
  comment (join 9 (map ys ["# ID"; " ID"; " sumw"; " sumw2"; " sumwx"; " sumwx2"; " sumwy"; " sumwy2"; " sumwxy"; " numEntries"]%string)) /\
  comment (ys "# 2D outflow persistency not currently supported until API is stable") /\ comment (k_cols histo2).
Proof.
  assert (C : forall l r, l = 35 :: r -> (forall c, In c l -> c <> 10 /\ c <> 13) -> comment l) by (intros l r E H; split; [apply plain_chars; exact H|exists r; exact E]).
  split; [|split; [|split; [|split]]]; (eapply C; [reflexivity|]).
  - intros c I. apply in_app_or in I as [I|I]; [revert c I; apply noten; reflexivity|]. apply in_app_or in I as [I|I]; [exact (fmt_noten _ _ I)|]. apply in_app_or in I as [I|I]; [revert c I; apply noten; reflexivity|]. apply in_app_or in I as [I|I]; [exact (fmt_noten _ _ I)|]. revert c I. apply noten. reflexivity.
  - intros c I. apply in_app_or in I as [I|I]; [revert c I; apply noten; reflexivity|]. exact (fmt_noten _ _ I).
  - apply noten. reflexivity.
  - apply noten. reflexivity.
  - apply noten. reflexivity.
Qed.
Lemma body_plain mx my vol tot bs : Forall plain (bodyLines mx my vol tot bs).
Proof.
  destruct (comments2 mx my vol) as ([A _] & [B _] & [C _] & [D _] & [E _]). unfold bodyLines. cbn [app]. repeat (constructor; [assumption|]). constructor; [apply named_plain; apply noten; reflexivity|]. repeat (constructor; [assumption|]). apply Forall_forall. intros l I. apply in_map_iff in I as (r & <- & _). apply rowText_plain.
Qed.
Lemma loop2_body mx my vol tot bs e ls : rowOk 7 tot -> Forall (rowOk 11) bs -> (exists v, e = k_end histo2 ++ v) -> loop2 (bodyLines mx my vol tot bs ++ e :: ls) None = Some (Some (rdRow tot), map rdRow bs).
Proof.
  intros T B E. destruct (comments2 mx my vol) as (C1 & C2 & C3 & C4 & C5). unfold bodyLines. cbn [app]. rewrite (loop2_comment _ _ _ C1), (loop2_comment _ _ _ C2), (loop2_comment _ _ _ C3).
  assert (NS : nosp total) by (eexists; eexists; split; reflexivity). pose proof (scanRow_named total gap3 _ _ NS gapOk3 T) as ST. assert (PT : prefixb (total ++ gap3) (named total gap3 tot) = true) by (unfold named; rewrite app_assoc; apply prefixb_app).
  remember (named total gap3 tot) as lt eqn:ET. assert (HT : exists r, lt = 84 :: r) by (rewrite ET; eexists; reflexivity). clear ET. destruct HT as [r HT]. cbn [loop2]. rewrite HT in PT, ST |- *. change (84 =? 35) with false. cbv iota. change (k_end histo2) with (69 :: ys "ND YODA_HISTO2D_V2") at 1. rewrite (prefixb_cons 69). change (84 =? 69) with false. cbn [andb]. rewrite PT, ST.
  change (loop2 ((ys "# 2D outflow persistency not currently supported until API is stable") :: k_cols histo2 :: map rowText bs ++ e :: ls) (Some (rdRow tot)) = Some (Some (rdRow tot), map rdRow bs)).
  rewrite (loop2_comment _ _ _ C4), (loop2_comment _ _ _ C5). apply loop2_bins; assumption.
Qed.
(* ---- what is read ---- *)
Definition rdTable2 (t : table2) : table2 := mktab2 (rdRow (u_total t)) (u_nx t) (u_ny t) (map rdRow (u_bins t)).
Definition onGrid (t : table2) (X Y : nat -> f64) : Prop := forall ix iy, (ix < u_nx t)%nat -> (iy < u_ny t)%nat -> cell 0 (binAt t ix iy) = X ix /\ cell 2 (binAt t ix iy) = Y iy.
Lemma cell_rd k r n : rowOk n r -> (k < n)%nat -> cell k (rdRow r) = rd (cell k r).
Proof. intros (L & _) K. unfold cell, rdRow. cbn [sums]. rewrite (nth_indep _ (B754_zero false) (rd (B754_zero false))) by (rewrite map_length; lia). apply map_nth. Qed.
Lemma cell_mid k r n : rowOk n r -> (k < n)%nat -> mid (cell k r).
Proof. intros (L & F & _) K. unfold cell. rewrite Forall_forall in F. apply F. apply nth_In. lia. Qed.
Lemma binAt_ok t ix iy : List.length (u_bins t) = (u_nx t * u_ny t)%nat -> Forall (rowOk 11) (u_bins t) -> (ix < u_nx t)%nat -> (iy < u_ny t)%nat -> In (binAt t ix iy) (u_bins t) /\ rowOk 11 (binAt t ix iy).
Proof. intros L F X Y. assert (I : In (binAt t ix iy) (u_bins t)) by (unfold binAt; apply nth_In; nia). split; [exact I|]. rewrite Forall_forall in F. exact (F _ I). Qed.
Lemma binAt_of t b : List.length (u_bins t) = (u_nx t * u_ny t)%nat -> In b (u_bins t) -> exists ix iy, (ix < u_nx t)%nat /\ (iy < u_ny t)%nat /\ b = binAt t ix iy.
Proof.
  intros L I. apply (In_nth _ _ zbin) in I as (j & J & <-). destruct (u_nx t) as [|n] eqn:E; [lia|]. rewrite <- E in *. assert (N : u_nx t <> O) by lia. exists (j mod u_nx t)%nat, (j / u_nx t)%nat.
  split; [apply Nat.mod_upper_bound; exact N|]. split; [apply Nat.div_lt_upper_bound; lia|]. unfold binAt. f_equal. rewrite Nat.mul_comm. apply Nat.div_mod. exact N.
Qed.
Lemma written_grid t : written t = grid (binAt t) 0 (u_nx t) (u_ny t). Proof. reflexivity. Qed.
Lemma transposed t : List.length (u_bins t) = (u_nx t * u_ny t)%nat ->
  map (fun j => nth ((j mod u_nx t) * u_ny t + j / u_nx t) (map rdRow (written t)) zbin) (seq 0 (u_nx t * u_ny t)) = map rdRow (u_bins t).
Proof.
  intros L. apply (nth_ext _ _ (rdRow zbin) (rdRow zbin)); [rewrite !map_length, seq_length; lia|]. intros j J. rewrite map_length, seq_length in J. assert (N : u_nx t <> O) by (intros E; rewrite E in J; lia).
  set (F := fun j => nth ((j mod u_nx t) * u_ny t + j / u_nx t) (map rdRow (written t)) zbin). rewrite (nth_indep _ _ (F O)) by (rewrite map_length, seq_length; exact J). rewrite (map_nth F), seq_nth by exact J. cbn [Nat.add]. rewrite map_nth. unfold F.
  assert (JX : (j mod u_nx t < u_nx t)%nat) by (apply Nat.mod_upper_bound; exact N). assert (JY : (j / u_nx t < u_ny t)%nat) by (apply Nat.div_lt_upper_bound; lia).
  rewrite written_grid, grid_map, grid_nth by assumption. cbn [Nat.add]. unfold binAt. f_equal. f_equal. rewrite Nat.mul_comm. symmetry. apply Nat.div_mod. exact N.
Qed.
Lemma written_same t : List.length (u_bins t) = (u_nx t * u_ny t)%nat -> written (rdTable2 t) = map rdRow (written t).
Proof.
  intros L. rewrite !written_grid, grid_map. apply grid_ext. intros i j I J. unfold binAt, rdTable2. cbn [u_nx u_bins]. rewrite (nth_indep _ zbin (rdRow zbin)) by (rewrite map_length; cbn in I, J; nia). apply map_nth.
Qed.
(* what is made of the rows that are read *)
Definition made (tot : row) (R : list row) : res binned2 :=
  let nx := List.length (distinct (map (cell 0) R)) in
  let ny := List.length (distinct (map (cell 2) R)) in
  if fge (lowest 0 R) (highest 1 R) || fge (lowest 2 R) (highest 3 R) then Panic
  else if Nat.ltb (List.length R) (nx * ny) then Panic
  else Ok (mkb2 (mktab2 tot nx ny (map (fun j => nth ((j mod nx) * ny + j / nx) R zbin) (seq 0 (nx * ny)))) (edges nx (lowest 0 R) (highest 1 R)) (edges ny (lowest 2 R) (highest 3 R))).
Theorem unmarshal2_raw {A} (unyaml : str -> option A) a path yaml mx my vol t ls : ~ In 10 path -> noMark yaml -> unyaml (yaml ++ ys "---" ++ [10]) = Some a -> Forall plain ls ->
  List.length (u_bins t) = (u_nx t * u_ny t)%nat -> rowOk 7 (u_total t) -> Forall (rowOk 11) (u_bins t) ->
  unmarshal2 unyaml (nl (ys "BEGIN YODA_" ++ k_name histo2 ++ ys "_V2 " ++ path) ++ yaml ++ ys "---" ++ [10] ++ flat_map nl (lines2 mx my vol t) ++ nl (ys "END YODA_" ++ k_name histo2 ++ ys "_V2") ++ flat_map nl ls) =
  match made (rdRow (u_total t)) (map rdRow (written t)) with Ok h => Ok (Some (a, h)) | Panic => Panic end.
Proof.
  intros NP NM UY PL LB TO BO. unfold unmarshal2. rewrite header_ok by (try assumption; intros I; cbn in I; intuition lia).
  set (u := yaml ++ ys "---"). set (tail := flat_map nl (lines2 mx my vol t) ++ nl (ys "END YODA_" ++ k_name histo2 ++ ys "_V2") ++ flat_map nl ls). set (rest := yaml ++ ys "---" ++ [10] ++ tail).
  assert (ER : rest = u ++ 10 :: tail) by (unfold rest, u; rewrite <- !app_assoc; reflexivity).
  assert (EV : exists v, tail = 35 :: ys " Mean:" ++ v). { unfold tail, lines2. cbn [flat_map app]. unfold nl at 1. rewrite <- !app_assoc. match goal with |- exists v, ys "# Mean: (" ++ ?r = _ => exists (ys " (" ++ r); generalize r; intros r0 end. reflexivity. }
  destruct EV as [v EV]. assert (IX : index (k_mark histo2) rest = Some (List.length u)).
  { rewrite ER, EV. change (k_mark histo2) with (10 :: 35 :: ys " Mean:"). apply index_mark. apply noMark_ends. assumption. }
  rewrite IX, ER. destruct (cut_at u tail) as [-> ->]. unfold u. rewrite <- app_assoc, UY.
  assert (SK : 10 :: tail = flat_map nl ([] :: lines2 mx my vol t ++ (ys "END YODA_" ++ k_name histo2 ++ ys "_V2") :: ls)).
  { cbn [flat_map]. change (nl []) with [10]. cbn [app]. f_equal. unfold tail. rewrite flat_map_app. reflexivity. }
  change (lines2 mx my vol t) with (bodyLines mx my vol (u_total t) (written t)) in SK. rewrite SK, lines_nl.
  2:{ constructor; [apply plain_chars; intros ? []|]. apply Forall_app. split; [apply body_plain|]. constructor; [apply plain_chars; apply noten; reflexivity|exact PL]. }
  assert (WO : Forall (rowOk 11) (written t)). { apply Forall_forall. intros b I. rewrite written_grid, grid_in in I. destruct I as (i & j & I & J & ->). apply binAt_ok; try assumption; lia. }
  cbn [loop2]. rewrite loop2_body by (try assumption; exists []; reflexivity). unfold made. cbv zeta. destruct (fge _ _ || fge _ _); [reflexivity|]. destruct (Nat.ltb _ _); reflexivity.
Qed.
Theorem made_grid t X Y : (0 < u_nx t)%nat -> (0 < u_ny t)%nat -> List.length (u_bins t) = (u_nx t * u_ny t)%nat -> Forall (rowOk 11) (u_bins t) ->
  onGrid t X Y -> apart (u_nx t) X -> apart (u_ny t) Y ->
  (exists b c, In b (u_bins t) /\ In c (u_bins t) /\ flt (rd (cell 0 b)) (rd (cell 1 c)) = true) -> (exists b c, In b (u_bins t) /\ In c (u_bins t) /\ flt (rd (cell 2 b)) (rd (cell 3 c)) = true) ->
  made (rdRow (u_total t)) (map rdRow (written t)) =
  Ok (mkb2 (rdTable2 t) (edges (u_nx t) (lowest 0 (map rdRow (written t))) (highest 1 (map rdRow (written t)))) (edges (u_ny t) (lowest 2 (map rdRow (written t))) (highest 3 (map rdRow (written t))))).
Proof.
  intros NX NY LB BO OG AX AY RX RY. unfold made. cbv zeta. set (R := map rdRow (written t)).
  assert (ON : forall b, In b (u_bins t) -> In (rdRow b) R). { intros b I. apply in_map. rewrite written_grid, grid_in. destruct (binAt_of t b LB I) as (i & j & HI & HJ & ->). exists i, j. repeat split; lia. }
  assert (DX : List.length (distinct (map (cell 0) R)) = u_nx t).
  { assert (E : map (cell 0) R = map (fun i => rd (X i)) (grid (fun i _ => i) 0 (u_nx t) (u_ny t))).
    { unfold R. rewrite written_grid, !grid_map. apply grid_ext. intros i j I J. destruct (binAt_ok t i j LB BO ltac:(lia) J) as [_ O]. rewrite (cell_rd 0 _ 11 O) by lia. destruct (OG i j ltac:(lia) J) as [-> _]. reflexivity. }
    rewrite E. apply distinct_count.
    - apply apart_rd; [|exact AX]. intros i I. destruct (OG i O I NY) as [<- _]. destruct (binAt_ok t i O LB BO I NY) as [_ O']. apply (cell_mid 0 _ 11 O'). lia.
    - intros i. rewrite grid_in. split; [intros (? & ? & ? & ? & ->); lia|]. intros I. exists i, O. repeat split; lia. }
  assert (DY : List.length (distinct (map (cell 2) R)) = u_ny t).
  { assert (E : map (cell 2) R = map (fun i => rd (Y i)) (grid (fun _ j => j) 0 (u_nx t) (u_ny t))).
    { unfold R. rewrite written_grid, !grid_map. apply grid_ext. intros i j I J. destruct (binAt_ok t i j LB BO ltac:(lia) J) as [_ O]. rewrite (cell_rd 2 _ 11 O) by lia. destruct (OG i j ltac:(lia) J) as [_ ->]. reflexivity. }
    rewrite E. apply distinct_count.
    - apply apart_rd; [|exact AY]. intros j J. destruct (OG O j NX J) as [_ <-]. destruct (binAt_ok t O j LB BO NX J) as [_ O']. apply (cell_mid 2 _ 11 O'). lia.
    - intros j. rewrite grid_in. split; [intros (? & ? & ? & ? & ->); lia|]. intros J. exists O, j. repeat split; lia. }
  rewrite DX, DY. rewrite Forall_forall in BO.
  assert (GX : fge (lowest 0 R) (highest 1 R) = false). { destruct RX as (b & c & IB & IC & H). apply (range2_ok 0 1 R (rdRow b) (rdRow c)); auto. rewrite (cell_rd 0 b 11 (BO b IB)), (cell_rd 1 c 11 (BO c IC)) by lia. exact H. }
  assert (GY : fge (lowest 2 R) (highest 3 R) = false). { destruct RY as (b & c & IB & IC & H). apply (range2_ok 2 3 R (rdRow b) (rdRow c)); auto. rewrite (cell_rd 2 b 11 (BO b IB)), (cell_rd 3 c 11 (BO c IC)) by lia. exact H. }
  rewrite GX, GY. cbn [orb]. assert (LR : List.length R = (u_nx t * u_ny t)%nat) by (unfold R; rewrite map_length, written_grid; apply grid_len). rewrite LR, Nat.ltb_irrefl. unfold R at 1. rewrite transposed by exact LB. reflexivity.
Qed.
Lemma marshal2_rd path yaml mx my vol t : List.length (u_bins t) = (u_nx t * u_ny t)%nat -> rowOk 7 (u_total t) -> Forall (rowOk 11) (u_bins t) -> marshal2 path yaml mx my vol (rdTable2 t) = marshal2 path yaml mx my vol t.
Proof.
  intros L T B. unfold marshal2, lines2. rewrite written_same by exact L. unfold named. cbn [rdTable2 u_total]. rewrite (rowText_rd _ _ T).
  assert (E : map rowText (map rdRow (written t)) = map rowText (written t)).
  { rewrite map_map. apply map_ext_in. intros r I. rewrite written_grid, grid_in in I. destruct I as (i & j & I & J & ->). apply (rowText_rd 11). apply binAt_ok; try assumption; lia. }
  rewrite E. reflexivity.
Qed.
