(* Proofs about YodaCnvModel.v *)
From Coq Require Import ZArith List Lia Bool String Permutation.
From Flocq Require Import IEEE754.BinarySingleNaN.
From Verif Require Import Bytes GoLib GoStrings F64 FloatText FloatDigits ScanfModel ScanfProofs YodaModel YodaProofs YodaCnvModel.
Import ListNotations.
Local Open Scope Z_scope.

(* ---- archives ---- *)
(* a block: its first line, the lines in it, and its last line *)
Record blk := mkblk { b_first : str; b_body : list str; b_last : str }.
Definition blkText (b : blk) : str := flat_map nl (b_first b :: b_body b ++ [b_last b]).
Definition inner (l : str) : Prop := plain l /\ prefixb begYoda l = false /\ prefixb endYoda l = false.
Definition blkOk (b : blk) : Prop := plain (b_first b) /\ prefixb begYoda (b_first b) = true /\ Forall inner (b_body b) /\ plain (b_last b) /\ prefixb endYoda (b_last b) = true.
Lemma not_beg l : prefixb endYoda l = true -> prefixb begYoda l = false.
Proof. destruct l as [|c l]; [reflexivity|]. unfold endYoda, begYoda. change (ys "END YODA_") with (69 :: ys "ND YODA_"). change (ys "BEGIN YODA_") with (66 :: ys "EGIN YODA_"). rewrite !prefixb_cons. intros H. apply andb_true_iff in H as [H _]. apply Z.eqb_eq in H. subst. reflexivity. Qed.
Lemma read_body {O} (un : otype -> str -> res (option O)) body ls block rt ig : Forall inner body ->
  readLoop un (body ++ ls) block rt ig = readLoop un ls (block ++ flat_map nl body) rt ig.
Proof.
  intros F. revert block. induction F as [|l body (_ & B & E) F IH]; intros block; [cbn [app flat_map]; rewrite app_nil_r; reflexivity|]. cbn [app readLoop flat_map]. rewrite B, E, IH, app_assoc. reflexivity.
Qed.
(* what a block is read as *)
Definition blkRead {O} (un : otype -> str -> res (option O)) (b : blk) (o : option O) : Prop :=
  match splitHeader (b_first b), o with
  | HType t, Some x => un t (blkText b) = Ok (Some x)
  | HIgnore, None => True
  | _, _ => False
  end.
Definition somes {O} (l : list (option O)) : list O := flat_map (fun o => match o with Some x => [x] | None => [] end) l.
Lemma read_blk {O} (un : otype -> str -> res (option O)) b o ls block rt : blkOk b -> blkRead un b o ->
  exists block' rt', readLoop un (b_first b :: b_body b ++ [b_last b; []] ++ ls) block rt false =
    match readLoop un ls block' rt' false with Ok (Some os) => Ok (Some (somes [o] ++ os)) | e => e end.
Proof.
  intros (P1 & B1 & FB & P2 & E2) R. pose proof (not_beg _ E2) as B2. unfold blkRead in R. cbn [readLoop]. rewrite B1.
  assert (EN : prefixb begYoda [] = false) by reflexivity. assert (EE : prefixb endYoda [] = false) by reflexivity.
  destruct (splitHeader (b_first b)) as [t| |]; [| |contradiction].
  - destruct o as [x|]; [|contradiction]. rewrite read_body by assumption. cbn [app readLoop]. rewrite B2, E2. cbv zeta iota.
    assert (ET : (nl (b_first b) ++ flat_map nl (b_body b)) ++ nl (b_last b) = blkText b) by (unfold blkText; cbn [flat_map]; rewrite flat_map_app; cbn [flat_map]; rewrite app_nil_r, app_assoc; reflexivity).
    rewrite ET, R. exists (blkText b ++ nl []), (Some t). rewrite EN, EE. reflexivity.
  - destruct o as [x|]; [contradiction|]. rewrite read_body by assumption. cbn [app readLoop]. rewrite B2, E2. cbv zeta iota. rewrite EN, EE. eexists. exists None. cbn [somes flat_map app].
    match goal with |- readLoop un ls ?b0 None false = _ => instantiate (1 := b0) end. destruct (readLoop un ls _ None false) as [[os|]|]; reflexivity.
Qed.
Lemma text_lines bs : Forall blkOk bs -> lines (write (map (fun b => blkText b ++ [10]) bs)) = flat_map (fun b => b_first b :: b_body b ++ [b_last b; []]) bs.
Proof.
  intros F. assert (E : write (map (fun b => blkText b ++ [10]) bs) = flat_map nl (flat_map (fun b => b_first b :: b_body b ++ [b_last b; []]) bs)).
  { clear F. unfold write. induction bs as [|b bs IH]; [reflexivity|]. cbn [map List.concat flat_map]. rewrite IH, flat_map_app. f_equal. unfold blkText. cbn [flat_map]. rewrite !flat_map_app. cbn [flat_map]. rewrite !app_nil_r, <- !app_assoc. reflexivity. }
  rewrite E. apply lines_nl. clear E. apply Forall_forall. intros l I. apply in_flat_map in I as (b & IB & I). rewrite Forall_forall in F. destruct (F b IB) as (P1 & _ & FB & P2 & _). destruct I as [<-|I]; [assumption|]. apply in_app_or in I as [I|[<-|[<-|[]]]]; [rewrite Forall_forall in FB; exact (proj1 (FB l I))|assumption|apply plain_chars; intros ? []].
Qed.
Theorem read_write {O} (un : otype -> str -> res (option O)) bs os : Forall blkOk bs -> Forall2 (blkRead un) bs os ->
  read un (write (map (fun b => blkText b ++ [10]) bs)) = Ok (Some (somes os)).
Proof.
  intros F R. unfold read. rewrite text_lines by assumption. cut (forall block rt, readLoop un (flat_map (fun b => b_first b :: b_body b ++ [b_last b; []]) bs) block rt false = Ok (Some (somes os))); [intros K; apply K|]. revert F. induction R as [|b o bs os H R IH]; intros F block rt; [reflexivity|].
  inversion F as [|? ? FB F2]; subst. cbn [flat_map]. rewrite <- app_comm_cons, <- app_assoc. cbn [app]. destruct (read_blk un b o (flat_map (fun b0 => b_first b0 :: b_body b0 ++ [b_last b0; []]) bs) block rt FB H) as (block' & rt' & E). cbn [app] in E. etransitivity; [exact E|]. rewrite (IH F2). cbn [somes flat_map]. rewrite app_nil_r. reflexivity.
Qed.

(* ---- scatters ---- *)
Lemma scanp_more l : Forall readsBack l -> fscanp (more (List.length l)) (tabs l) = map rd l.
Proof.
  intros F. induction F as [|x l H F IH]; [reflexivity|]. cbn [List.length more fscanp map]. unfold tabs. cbn [flat_map]. fold (tabs l).
  pose proof (blank_gap [9] (fmt_e 7 x) (tabs l) ltac:(discriminate) ltac:(repeat constructor) (fmte_nosp 7 x ltac:(lia))) as B. cbn [app] in B |- *. rewrite B.
  rewrite (scanFloat_e x (tabs l)); [|assumption|destruct l; [exact I|reflexivity]]. rewrite IH. reflexivity.
Qed.
Lemma scanPoint_ok p : List.length p = 6%nat -> Forall mid p -> scanPoint (pointText p) = map rd p.
Proof.
  intros L F. unfold scanPoint, pointText. destruct p as [|x l]; [discriminate|]. inversion F as [|? ? M F2]; subst. assert (FR : Forall readsBack l) by (eapply Forall_impl; [|exact F2]; intros y My; exact (proj1 (rd_ok y My))).
  assert (E : fscanp (floats 6) (join 9 (map (fmt_e 7) (x :: l))) = map rd (x :: l)).
  { rewrite join_tabs. cbn [List.length] in L. injection L as L. cbn [floats]. rewrite <- L. cbn [fscanp map]. rewrite (scanFloat_e x (tabs l)); [|exact (proj1 (rd_ok x M))|destruct l; [exact I|reflexivity]]. rewrite scanp_more by assumption. reflexivity. }
  rewrite E. rewrite firstn_app, firstn_all2 by (rewrite map_length, L; lia). replace (6 - List.length (map rd (x :: l)))%nat with 0%nat by (rewrite map_length, L; lia). rewrite firstn_O, app_nil_r. reflexivity.
Qed.
Definition pointOk (p : point) : Prop := List.length p = 6%nat /\ Forall mid p.
Lemma pointText_head p : pointOk p -> exists c t, pointText p = c :: t /\ (c = 43 \/ c = 45 \/ c = 78 \/ 48 <= c <= 57).
Proof. intros [L _]. unfold pointText. destruct p as [|x l]; [discriminate|]. rewrite join_tabs. destruct (fmte_head x) as (c & t & -> & H). exists c, (t ++ tabs l). auto. Qed.
Lemma pointText_plain p : plain (pointText p).
Proof. apply plain_chars. intros c I. apply join_chars in I. lia. Qed.
Lemma loopS_points pts e ls : Forall pointOk pts -> (exists v, e = k_end scatter ++ v) -> loopS (map pointText pts ++ e :: ls) = map (map rd) pts.
Proof.
  intros F [v ->]. induction F as [|p pts H F IH].
  - cbn [map app]. pose proof (prefixb_app (k_end scatter) v) as PE. remember (k_end scatter ++ v) as w eqn:EW. destruct w as [|c w]; [discriminate|]. cbn [loopS]. rewrite PE. injection EW as -> _. reflexivity.
  - cbn [map app]. destruct (pointText_head p H) as (c & t & E & C). destruct H as [L M]. pose proof (scanPoint_ok p L M) as S. cbn [loopS]. rewrite E in S |- *. destruct (Z.eqb_spec c 35); [lia|]. change (k_end scatter) with (69 :: ys "ND YODA_SCATTER2D_V2") at 1. rewrite prefixb_cons. destruct (Z.eqb_spec c 69); [lia|]. cbn [andb]. rewrite S, IH. reflexivity.
Qed.
Definition scatterBody (sort : list point -> list point) (pts : list point) : list str := k_cols scatter :: map pointText (sort pts).
Theorem unmarshalS_lines {A} sort (unyaml : str -> option A) a path yaml pts ls : ~ In 10 path -> noMark yaml -> unyaml (yaml ++ ys "---" ++ [10]) = Some a -> Forall pointOk (sort pts) -> Forall plain ls ->
  unmarshalS sort unyaml (nl (ys "BEGIN YODA_" ++ k_name scatter ++ ys "_V2 " ++ path) ++ yaml ++ ys "---" ++ [10] ++ flat_map nl (scatterBody sort pts) ++ nl (ys "END YODA_" ++ k_name scatter ++ ys "_V2") ++ flat_map nl ls) = Some (a, sort (map (map rd) (sort pts))).
Proof.
  intros NP NM UY TO PL. unfold unmarshalS. rewrite header_ok by (assumption || (intros I; apply (noten (ys "SCATTER2D") eq_refl) in I; lia)).
  set (u := yaml ++ ys "---"). set (tail := flat_map nl (scatterBody sort pts) ++ nl (ys "END YODA_" ++ k_name scatter ++ ys "_V2") ++ flat_map nl ls). set (rest := yaml ++ ys "---" ++ [10] ++ tail).
  assert (ER : rest = u ++ 10 :: tail) by (unfold rest, u; rewrite <- !app_assoc; reflexivity).
  assert (EV : exists v, tail = 35 :: (ys " xval" ++ 9 :: ys " xerr-" ++ [9]) ++ v) by (unfold tail, scatterBody; cbn [flat_map]; unfold nl at 1; eexists; cbn [scatter k_cols]; reflexivity).
  destruct EV as [v EV]. assert (IX : index (k_mark scatter) rest = Some (List.length u)).
  { rewrite ER, EV. change (k_mark scatter) with (10 :: 35 :: (ys " xval" ++ 9 :: ys " xerr-" ++ [9])). apply index_mark. apply noMark_ends. assumption. }
  rewrite IX, ER. destruct (cut_at u tail) as [-> ->]. unfold u. rewrite <- app_assoc, UY. do 2 f_equal. f_equal.
  assert (SK : 10 :: tail = flat_map nl ([] :: scatterBody sort pts ++ (ys "END YODA_" ++ k_name scatter ++ ys "_V2") :: ls)).
  { cbn [flat_map]. change (nl []) with [10]. cbn [app]. f_equal. unfold tail. rewrite flat_map_app. reflexivity. }
  rewrite SK, lines_nl.
  - unfold scatterBody. cbn [app loopS]. change (k_cols scatter) with (35 :: tl (k_cols scatter)). cbn [loopS]. change (35 =? 35) with true. cbv iota. apply loopS_points; [assumption|]. exists []. reflexivity.
  - constructor; [apply plain_chars; intros ? []|]. apply Forall_app. split.
    + constructor; [apply plain_chars; apply noten; reflexivity|]. apply Forall_forall. intros l I. apply in_map_iff in I as (p & <- & _). apply pointText_plain.
    + constructor; [apply plain_chars; apply noten; reflexivity|exact PL].
Qed.

(* ---- the range of a profile ---- *)
Definition below (m x : f64) : Prop := m = B754_nan \/ fle m x = true.
Definition above (m x : f64) : Prop := m = B754_nan \/ fle x m = true.
Lemma nonan_le x y : fle x y = true -> is_nanb x = false /\ is_nanb y = false.
Proof. intros H. apply fle_true in H as (a & b & A & B & _). split; [destruct x|destruct y]; try reflexivity; discriminate. Qed.
Lemma le_refl x : is_nanb x = false -> fle x x = true.
Proof. intros N. destruct (fle x x) eqn:E; [reflexivity|]. rewrite (flt_total x x N N (flt_irrefl x)) in E. discriminate. Qed.
Lemma min_cases a b : is_nanb a = false -> is_nanb b = false -> below (goMin a b) a /\ below (goMin a b) b.
Proof.
  intros NA NB. assert (K : below (if flt a b then a else b) a /\ below (if flt a b then a else b) b).
  { destruct (flt a b) eqn:E; [split; right; [|apply flt_le; exact E]|split; right; [apply flt_total; assumption|]]; apply le_refl; assumption. }
  destruct a as [s|s| |s m e H]; try discriminate; destruct b as [s'|s'| |s' m' e' H']; try discriminate; try destruct s; try destruct s'; cbn [goMin] in *; try exact K; split; right; try reflexivity.
Qed.
Lemma max_cases a b : is_nanb a = false -> is_nanb b = false -> above (goMax a b) a /\ above (goMax a b) b.
Proof.
  intros NA NB. assert (K : above (if fgt a b then a else b) a /\ above (if fgt a b then a else b) b).
  { destruct (fgt a b) eqn:E; unfold fgt in E; change (Bltb b a) with (flt b a) in E; [split; right; [|apply flt_le; exact E]|split; right; [apply flt_total; assumption|]]; apply le_refl; assumption. }
  destruct a as [s|s| |s m e H]; try discriminate; destruct b as [s'|s'| |s' m' e' H']; try discriminate; try destruct s; try destruct s'; cbn [goMax] in *; try exact K; split; right; try reflexivity.
Qed.
Lemma min_keep a b x : is_nanb x = false -> below a x -> below (goMin a b) x.
Proof.
  intros N [->|H].
  - destruct b as [s|[]| |s m e H]; try (left; reflexivity). right. destruct x; try discriminate; try destruct s; reflexivity.
  - destruct (nonan_le _ _ H) as [NA _]. destruct (is_nanb b) eqn:NB; [destruct b; try discriminate; destruct a as [s|[]| |s m e Hb]; try discriminate; try (left; reflexivity); right; destruct x; try discriminate; try destruct s; reflexivity|].
    destruct (proj1 (min_cases a b NA NB)) as [E|E]; [left; exact E|right; exact (fle_trans _ _ _ E H)].
Qed.
Lemma min_new a x : is_nanb x = false -> below (goMin a x) x.
Proof.
  intros N. destruct (is_nanb a) eqn:NA; [|exact (proj2 (min_cases a x NA N))]. destruct a; try discriminate. destruct x as [s|[]| |s m e H]; try discriminate; try (left; reflexivity). right. reflexivity.
Qed.
Lemma max_keep a b x : is_nanb x = false -> above a x -> above (goMax a b) x.
Proof.
  intros N [->|H].
  - destruct b as [s|[]| |s m e H]; try (left; reflexivity). right. destruct x; try discriminate; try destruct s; reflexivity.
  - destruct (nonan_le _ _ H) as [_ NA]. destruct (is_nanb b) eqn:NB; [destruct b; try discriminate; destruct a as [s|[]| |s m e Hb]; try discriminate; try (left; reflexivity); right; destruct x; try discriminate; try destruct s; reflexivity|].
    destruct (proj1 (max_cases a b NA NB)) as [E|E]; [left; exact E|right; exact (fle_trans _ _ _ H E)].
Qed.
Lemma max_new a x : is_nanb x = false -> above (goMax a x) x.
Proof.
  intros N. destruct (is_nanb a) eqn:NA; [|exact (proj2 (max_cases a x NA N))]. destruct a; try discriminate. destruct x as [s|[]| |s m e H]; try discriminate; try (left; reflexivity). right. reflexivity.
Qed.
Lemma xmin_below t b : In b (t_bins t) -> is_nanb (low b) = false -> below (xmin t) (low b).
Proof.
  intros I N. unfold xmin. generalize (B754_infinity false : f64). induction (t_bins t) as [|c l IH]; [contradiction|]. intros m. cbn [fold_left]. destruct I as [->|I]; [|apply IH; exact I].
  assert (K : below (goMin m (low b)) (low b)) by (apply min_new; exact N). clear IH. revert K. generalize (goMin m (low b)). induction l as [|d l IH]; intros m' K; [exact K|]. cbn [fold_left]. apply IH. apply min_keep; assumption.
Qed.
Lemma xmax_above t b : In b (t_bins t) -> is_nanb (high b) = false -> above (xmax t) (high b).
Proof.
  intros I N. unfold xmax. generalize (B754_infinity true : f64). induction (t_bins t) as [|c l IH]; [contradiction|]. intros m. cbn [fold_left]. destruct I as [->|I]; [|apply IH; exact I].
  assert (K : above (goMax m (high b)) (high b)) by (apply max_new; exact N). clear IH. revert K. generalize (goMax m (high b)). induction l as [|d l IH]; intros m' K; [exact K|]. cbn [fold_left]. apply IH. apply max_keep; assumption.
Qed.
Lemma range_ok t b c : In b (t_bins t) -> In c (t_bins t) -> flt (low b) (high c) = true -> fge (xmin t) (xmax t) = false.
Proof.
  intros IB IC H. assert (NN : is_nanb (low b) = false /\ is_nanb (high c) = false) by (apply nonan_le; apply flt_le; exact H). destruct NN as [N1 N2]. pose proof (xmin_below t b IB N1) as B. pose proof (xmax_above t c IC N2) as A.
  destruct (fge (xmin t) (xmax t)) eqn:E; [|reflexivity]. exfalso. unfold fge in E. change (Bleb (xmax t) (xmin t)) with (fle (xmax t) (xmin t)) in E. destruct (nonan_le _ _ E) as [E1 E2].
  destruct B as [B|B]; [rewrite B in E2; discriminate|]. destruct A as [A|A]; [rewrite A in E1; discriminate|]. pose proof (fle_trans _ _ _ A (fle_trans _ _ _ E B)) as L. pose proof (flt_not_le _ _ H) as G. rewrite G in L. discriminate.
Qed.
