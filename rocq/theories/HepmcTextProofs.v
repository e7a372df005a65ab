(* Proofs about the text form of HepMC events, first part: what one line gives when it is read back *)
From Coq Require Import ZArith List Lia Bool Permutation.
From Flocq Require Import IEEE754.BinarySingleNaN.
From Verif Require Import Bytes GoLib GoStrings GoQuote F64 FloatText DflowModel DflowProps HepmcModel HepmcTextModel.
Import ListNotations.
Local Open Scope Z_scope.
Arguments Val {A} a. Arguments Eof {A}. Arguments Err {A}. Arguments Crash {A}. Arguments Hang {A}.

Definition int_ok (z : Z) : Prop := - 2 ^ 63 <= z < 2 ^ 63.
Definition size_ok {A} (l : list A) : Prop := zlen l < 2 ^ 63.
Lemma size_int {A} (l : list A) : size_ok l -> int_ok (zlen l).
Proof. unfold size_ok, int_ok, zlen. lia. Qed.

(* ---- sorting ---- *)
Section Sort.
Context {A : Type}.
Variable key : A -> Z.
Fixpoint sorted (l : list A) : Prop := match l with [] => True | x :: l' => (forall y, In y l' -> key x <= key y) /\ sorted l' end.
Lemma insert_perm x l : Permutation (x :: l) (insertBy key x l).
Proof. induction l as [|y l IH]; cbn [insertBy]; [reflexivity|]. destruct (key x <=? key y); [reflexivity|]. rewrite perm_swap. apply perm_skip, IH. Qed.
Lemma sort_perm l : Permutation l (sortBy key l).
Proof. unfold sortBy. induction l as [|x l IH]; cbn [fold_right]; [reflexivity|]. rewrite <- insert_perm. apply perm_skip, IH. Qed.
Lemma insert_sorted x l : sorted l -> sorted (insertBy key x l).
Proof.
  induction l as [|y l IH]; cbn [insertBy]; intros H; [split; [intros y []|exact I]|]. destruct (Z.leb_spec (key x) (key y)) as [L|L].
  - split; [|exact H]. intros z [<-|J]; [exact L|]. destruct H as [H _]. specialize (H z J). lia.
  - destruct H as [H1 H2]. split; [|apply IH, H2]. intros z J. apply (Permutation_in _ (Permutation_sym (insert_perm x l))) in J. destruct J as [<-|J]; [lia|apply H1, J].
Qed.
Lemma sort_sorted l : sorted (sortBy key l).
Proof. unfold sortBy. induction l as [|x l IH]; cbn [fold_right]; [exact I|]. apply insert_sorted, IH. Qed.
Lemma sort_In l x : In x (sortBy key l) <-> In x l.
Proof. split; apply Permutation_in; [symmetry|]; apply sort_perm. Qed.
Lemma sort_nodup l : NoDup l -> NoDup (sortBy key l).
Proof. apply Permutation_NoDup, sort_perm. Qed.
Lemma sort_length l : length (sortBy key l) = length l.
Proof. symmetry. apply Permutation_length, sort_perm. Qed.
End Sort.
Lemma insert_map {A B} (f : A -> B) ka kb x l : (forall y, In y (x :: l) -> kb (f y) = ka y) -> insertBy kb (f x) (map f l) = map f (insertBy ka x l).
Proof.
  induction l as [|y l IH]; cbn [insertBy map]; intros H; [reflexivity|]. rewrite (H x), (H y) by (cbn [In]; auto). destruct (ka x <=? ka y); [reflexivity|].
  cbn [map]. f_equal. apply IH. intros z [<-|J]; apply H; cbn [In]; auto.
Qed.
Lemma sort_map {A B} (f : A -> B) ka kb l : (forall y, In y l -> kb (f y) = ka y) -> sortBy kb (map f l) = map f (sortBy ka l).
Proof.
  unfold sortBy. induction l as [|x l IH]; cbn [fold_right map]; intros H; [reflexivity|]. rewrite IH by (intros y J; apply H; right; exact J).
  apply insert_map. intros y [<-|J]; [apply H; left; reflexivity|]. apply H. right. apply (sort_In ka l). exact J.
Qed.

Section Read.
Variable visit : forall A : Type, list A -> list A.
Variable isPrint : Z -> bool.
Variable f32 : f64 -> f64.
Hypothesis visit_perm : forall A (l : list A), Permutation l (visit A l).

(* ---- pieces ---- *)
Lemma tint_itoa z t : int_ok z -> tint (itoa z :: t) = Val (z, t).
Proof. intros H. unfold tint. cbn [next]. rewrite atoi_itoa by exact H. reflexivity. Qed.
Lemma tflt_ftext x t : tflt (ftext x :: t) = Val (x, t).
Proof. unfold tflt, ftext. cbn [next]. rewrite parse_fmt17. reflexivity. Qed.
Lemma tflt32_ftext x t : f32 x = x -> tflt32 f32 (ftext x :: t) = Val (x, t).
Proof. intros H. unfold tflt32, ftext. cbn [next]. rewrite parse_fmt17, H. reflexivity. Qed.
Lemma trep_map {A} (f : toks -> out (A * toks)) (g : A -> str) l t : (forall x t', In x l -> f (g x :: t') = Val (x, t')) -> trep f (length l) (map g l ++ t) = Val (l, t).
Proof.
  induction l as [|x l IH]; intros H; cbn [trep length map app]; [reflexivity|]. rewrite H by (left; reflexivity). cbn [obind]. rewrite IH by (intros y t' J; apply H; right; exact J). reflexivity.
Qed.
Lemma tmake_map {A} (f : toks -> out (A * toks)) (g : A -> str) l t : (forall x t', In x l -> f (g x :: t') = Val (x, t')) -> tmake f (zlen l) (map g l ++ t) = Val (l, t).
Proof. intros H. unfold tmake, zlen. destruct (Z.ltb_spec (Z.of_nat (length l)) 0) as [L|L]; [lia|]. rewrite Nat2Z.id. apply trep_map, H. Qed.

(* ---- lines before the vertices ---- *)
Lemma peek_cons c s t : peek ((c :: s) :: t) = Val (c, t). Proof. reflexivity. Qed.
Record evt_ints (m : mem) (e : nat) : Prop := {
  ei_num : int_ok (evnum (ed m e)); ei_mpi : int_ok (mpi (ed m e)); ei_sid : int_ok (sigid (ed m e));
  ei_sig : int_ok (obc (vbc m) (signal (ed m e))); ei_nv : size_ok (e_verts (evts (gr m) e)); ei_b1 : int_ok (obc (pbc m) (beam1 (ed m e))); ei_b2 : int_ok (obc (pbc m) (beam2 (ed m e)));
  ei_rs : Forall int_ok (rndm (ed m e)); ei_nr : size_ok (rndm (ed m e)); ei_nw : size_ok (weightsOf (ed m e)) }.
Definition hdrOf (m : mem) (e : nat) : hdr :=
  {| nvtx := zlen (e_verts (evts (gr m) e)); sigbc := obc (vbc m) (signal (ed m e)); bp1 := obc (pbc m) (beam1 (ed m e)); bp2 := obc (pbc m) (beam2 (ed m e)) |}.
Lemma decodeE m e m' e' : evt_ints m e ->
  decodeEvent m' e' (lineE m e) = let d := ed m e in Val (hdrOf m e, fillEvt m' e' (evnum d) (mpi d) (scale d) (aqcd d) (aqed d) (sigid d) (rndm d) (weightsOf d)).
Proof.
  intros [H1 H2 H3 H4 H5 H6 H7 H8 H9 H10]. unfold decodeEvent, lineE, sE. cbv zeta. cbn [app]. rewrite peek_cons. cbn [obind]. unfold guard. rewrite Z.eqb_refl. cbn [obind].
  rewrite tint_itoa by exact H1. cbn [obind]. rewrite tint_itoa by exact H2. cbn [obind]. do 3 (rewrite tflt_ftext; cbn [obind]). rewrite tint_itoa by exact H3. cbn [obind].
  rewrite tint_itoa by exact H4. cbn [obind]. rewrite tint_itoa by (apply size_int; exact H5). cbn [obind]. rewrite tint_itoa by exact H6. cbn [obind].
  rewrite tint_itoa by exact H7. cbn [obind]. rewrite tint_itoa by (apply size_int; exact H9). cbn [obind].
  rewrite (tmake_map tint itoa) by (intros x t' J; apply tint_itoa; rewrite Forall_forall in H8; apply H8; exact J). cbn [obind app].
  rewrite tint_itoa by (apply size_int; exact H10). cbn [obind]. rewrite <- (app_nil_r (map ftext (weightsOf (ed m e)))).
  rewrite (tmake_map tflt ftext) by (intros x t' _; apply tflt_ftext). reflexivity.
Qed.
Lemma munit_rt u : munit_of (munit_str u) = Some u. Proof. destruct u; reflexivity. Qed.
Lemma lunit_rt u : lunit_of (lunit_str u) = Some u. Proof. destruct u; reflexivity. Qed.
Lemma decodeU m e d : decodeUnits m e (lineU d) = Val (let d0 := ed m e in setEd m e (EData (sigid d0) (evnum d0) (mpi d0) (scale d0) (aqcd d0) (aqed d0) (signal d0) (beam1 d0) (beam2 d0) (wslice d0) (wmap d0) (rndm d0) (xsec d0) (hion d0) (pdfi d0) (mu d) (lu d))).
Proof. unfold decodeUnits, lineU, sU. rewrite peek_cons. cbn [obind]. unfold guard. rewrite Z.eqb_refl. cbn [obind next]. rewrite munit_rt, lunit_rt. reflexivity. Qed.
Lemma decodeC m e v r : decodeCrossSection m e [sC; ftext v; ftext r] =
  Val (let d0 := ed m e in setEd m e (EData (sigid d0) (evnum d0) (mpi d0) (scale d0) (aqcd d0) (aqed d0) (signal d0) (beam1 d0) (beam2 d0) (wslice d0) (wmap d0) (rndm d0) (Some (v, r)) (hion d0) (pdfi d0) (mu d0) (lu d0))).
Proof. unfold decodeCrossSection, sC. rewrite peek_cons. cbn [obind]. unfold guard. rewrite Z.eqb_refl. cbn [obind]. do 2 (rewrite tflt_ftext; cbn [obind]). reflexivity. Qed.
Definition hi_ok (h : heavyion) : Prop := length (hi_n h) = 9%nat /\ Forall int_ok (hi_n h) /\ length (hi_f h) = 4%nat /\ Forall (fun x => f32 x = x) (hi_f h).
Lemma decodeH m e h : hi_ok h -> decodeHeavyIon f32 m e (sH :: map itoa (hi_n h) ++ map ftext (hi_f h)) =
  Val (let d0 := ed m e in setEd m e (EData (sigid d0) (evnum d0) (mpi d0) (scale d0) (aqcd d0) (aqed d0) (signal d0) (beam1 d0) (beam2 d0) (wslice d0) (wmap d0) (rndm d0) (xsec d0) (Some h) (pdfi d0) (mu d0) (lu d0))).
Proof.
  intros (L1 & I1 & L2 & I2). rewrite Forall_forall in I1, I2. unfold decodeHeavyIon, sH. rewrite peek_cons. cbn [obind]. unfold guard. rewrite Z.eqb_refl. cbn [obind]. rewrite <- L1.
  rewrite (trep_map tint itoa) by (intros x t' J; apply tint_itoa, I1, J). cbn [obind]. rewrite <- L2. rewrite <- (app_nil_r (map ftext (hi_f h))).
  rewrite (trep_map (tflt32 f32) ftext) by (intros x t' J; apply tflt32_ftext, I2, J). cbn [obind]. destruct h as [ns fs]. reflexivity.
Qed.
Definition pdf_ok (f : pdfinfo) : Prop := int_ok (id1 f) /\ int_ok (id2 f) /\ int_ok (lha1 f) /\ int_ok (lha2 f).
Definition pdfOf (d : edata) : pdfinfo := match pdfi d with Some f => f | None => zeropdf end.
Lemma decodeF m e d : pdf_ok (pdfOf d) -> decodePdfInfo m e (lineF d) =
  Val (let d0 := ed m e in setEd m e (EData (sigid d0) (evnum d0) (mpi d0) (scale d0) (aqcd d0) (aqed d0) (signal d0) (beam1 d0) (beam2 d0) (wslice d0) (wmap d0) (rndm d0) (xsec d0) (hion d0) (Some (pdfOf d)) (mu d0) (lu d0))).
Proof.
  unfold lineF. fold (pdfOf d). generalize (pdfOf d). intros f (H1 & H2 & H3 & H4). cbv zeta. unfold decodePdfInfo, sF. rewrite peek_cons. cbn [obind]. unfold guard. rewrite Z.eqb_refl. cbn [obind].
  do 2 (rewrite tint_itoa by assumption; cbn [obind]). do 5 (rewrite tflt_ftext; cbn [obind]). do 2 (rewrite tint_itoa by assumption; cbn [obind]). destruct f. reflexivity.
Qed.

(* ---- names of weights ---- *)
Definition wnames_ok (d : edata) : Prop := NoDup (map fst (wmap d)) /\ Forall (fun x => bytes_ok (fst x) /\ ~ In 32 (fst x)) (wmap d) /\
  (forall i, 0 <= i < zlen (weightsOf d) <-> In i (map snd (wmap d))) /\ NoDup (map snd (wmap d)).
Lemma sget_sset w n i k : sget (sset w n i) k = if str_eqb n k then Some i else sget w k.
Proof.
  induction w as [|[a j] w IH]; cbn [sset sget]; [reflexivity|]. destruct (str_eqb_spec a n) as [->|N]; cbn [sget].
  - destruct (str_eqb n k); reflexivity.
  - rewrite IH. destruct (str_eqb_spec a k) as [->|N2]; [|reflexivity]. destruct (str_eqb_spec n k) as [->|N3]; [congruence|reflexivity].
Qed.
Lemma sget_In w n i : NoDup (map fst w) -> (sget w n = Some i <-> In (n, i) w).
Proof.
  induction w as [|[a j] w IH]; cbn [sget map fst]; intros N; [split; [discriminate|intros []]|]. inversion N as [|? ? N1 N2]; subst. destruct (str_eqb_spec a n) as [->|X].
  - split; [intros E; injection E as ->; left; reflexivity|]. intros [E|J]; [congruence|]. exfalso. apply N1. apply (in_map fst) in J. exact J.
  - rewrite (IH N2). split; [intros J; right; exact J|]. intros [E|J]; [congruence|exact J].
Qed.
Lemma namesOf_get w i n : NoDup (map snd w) -> In (n, i) w -> get (namesOf visit w) i = Some n.
Proof.
  intros N J. assert (P := visit_perm _ w). unfold namesOf. revert P. generalize (visit (str * Z) w). intros l P.
  assert (NL : NoDup (map snd l)) by (eapply Permutation_NoDup; [apply Permutation_map, P|exact N]). assert (JL : In (n, i) l) by (eapply Permutation_in; [exact P|exact J]). clear - NL JL.
  assert (G : forall l ns, NoDup (map snd l) -> (In (n, i) l \/ (~ In i (map snd l) /\ get ns i = Some n)) -> get (fold_left (fun ns x => set ns (snd x) (fst x)) l ns) i = Some n).
  { clear. intros l. induction l as [|[a k] l IH]; intros ns N H; cbn [fold_left fst snd map] in *; [destruct H as [[]|[_ H]]; exact H|]. inversion N as [|? ? N1 N2]; subst. apply IH; [exact N2|].
    destruct H as [[E|J]|[H1 H2]].
    - injection E as -> ->. right. split; [exact N1|]. rewrite get_set, Z.eqb_refl. reflexivity.
    - left. exact J.
    - right. cbn [In] in H1. split; [intros J; apply H1; right; exact J|]. rewrite get_set. destruct (Z.eqb_spec k i) as [->|X]; [exfalso; apply H1; left; reflexivity|exact H2]. }
  apply G; [exact NL|left; exact JL].
Qed.
Definition qname (d : edata) (i : Z) : str := nameAt (namesOf visit (wmap d)) i.
Lemma qname_spec d i : wnames_ok d -> 0 <= i < zlen (weightsOf d) -> In (qname d i, i) (wmap d).
Proof.
  intros (N1 & _ & C & N2) H. apply C in H. apply in_map_iff in H. destruct H as ([n j] & E & J). cbn [snd] in E. subst j. unfold qname, nameAt. rewrite (namesOf_get _ i n N2 J). exact J.
Qed.
Lemma sset_keys w n i k : In k (map fst (sset w n i)) <-> k = n \/ In k (map fst w).
Proof.
  induction w as [|[a j] w IH]; cbn [sset map fst In]; [intuition|]. destruct (str_eqb_spec a n) as [->|N]; cbn [map fst In]; [intuition|]. rewrite IH. intuition.
Qed.
Lemma sset_nodup w n i : NoDup (map fst w) -> NoDup (map fst (sset w n i)).
Proof.
  induction w as [|[a j] w IH]; cbn [sset map fst]; intros N; [constructor; [intros []|constructor]|]. inversion N as [|? ? N1 N2]; subst. destruct (str_eqb_spec a n) as [->|X]; cbn [map fst]; [exact N|].
  constructor; [rewrite sset_keys; intros [Y|Y]; [congruence|contradiction]|apply IH, N2].
Qed.
Lemma names_read d k t : wnames_ok d -> forall i w, NoDup (map fst w) -> 0 <= i -> i + Z.of_nat k <= zlen (weightsOf d) ->
  exists w', names k i w (map (fun j => quote isPrint (qname d j)) (map (fun x => i + Z.of_nat x) (seq 0 k)) ++ t) = Val w' /\ NoDup (map fst w') /\
  forall n, sget w' n = match sget (wmap d) n with Some j => if (i <=? j) && (j <? i + Z.of_nat k) then Some j else sget w n | None => sget w n end.
Proof.
  intros W. induction k as [|k IH]; intros i w NW I L.
  - exists w. split; [reflexivity|]. split; [exact NW|]. intros n. destruct (sget (wmap d) n) as [j|]; [|reflexivity]. destruct (Z.leb_spec i j), (Z.ltb_spec j (i + Z.of_nat 0)); try reflexivity. lia.
  - assert (Q : In (qname d i, i) (wmap d)) by (apply qname_spec; [exact W|lia]).
    assert (B : bytes_ok (qname d i)). { destruct W as (_ & F & _). rewrite Forall_forall in F. exact (proj1 (F _ Q)). }
    destruct (IH (i + 1) (sset w (qname d i) i)) as (w' & E & NW' & G); [apply sset_nodup, NW|lia|lia|]. exists w'. split; [|split; [exact NW'|]].
    + cbn [names seq map app next]. rewrite Z.add_0_r. rewrite (unquote_quote isPrint _ B). rewrite <- E. f_equal. f_equal. f_equal. rewrite <- seq_shift, map_map. apply map_ext. intros x. lia.
    + intros n. rewrite G. rewrite sget_sset. destruct W as (N1 & _ & _ & N2). destruct (sget (wmap d) n) as [j|] eqn:SG.
      * apply (sget_In _ _ _ N1) in SG. destruct (str_eqb_spec (qname d i) n) as [<-|X].
        -- assert (j = i). { apply (proj2 (sget_In _ _ _ N1)) in SG. apply (proj2 (sget_In _ _ _ N1)) in Q. congruence. } subst j.
           destruct (Z.leb_spec (i + 1) i), (Z.leb_spec i i), (Z.ltb_spec i (i + 1 + Z.of_nat k)), (Z.ltb_spec i (i + Z.of_nat (S k))); try reflexivity; lia.
        -- assert (j <> i). { intros ->. apply X. clear - N2 SG Q. induction (wmap d) as [|[a b] l IHl]; [destruct SG|]. cbn [map snd] in N2. inversion N2 as [|? ? A B]; subst.
             destruct SG as [SG|SG], Q as [Q|Q]; [congruence| | |apply IHl; assumption]; [injection SG as -> ->; exfalso; apply A; apply (in_map snd) in Q; exact Q|injection Q as <- <-; exfalso; apply A; apply (in_map snd) in SG; exact SG]. }
           destruct (Z.leb_spec (i + 1) j), (Z.leb_spec i j), (Z.ltb_spec j (i + 1 + Z.of_nat k)), (Z.ltb_spec j (i + Z.of_nat (S k))); try reflexivity; lia.
      * destruct (str_eqb_spec (qname d i) n) as [<-|X]; [|reflexivity]. apply (proj2 (sget_In _ _ _ N1)) in Q. congruence.
Qed.

(* ---- all lines before the vertices ---- *)
Definition onlyEd (m1 m2 : mem) (e : nat) (D : edata) : Prop :=
  gr m2 = gr m1 /\ pd m2 = pd m1 /\ vd m2 = vd m1 /\ np m2 = np m1 /\ nv m2 = nv m1 /\ ed m2 e = D /\ forall a, a <> e -> ed m2 a = ed m1 a.
Lemma onlyEd_set m1 m2 e D D' : onlyEd m1 m2 e D -> onlyEd m1 (setEd m2 e D') e D'.
Proof.
  intros (A & B & C & F & G & H & K). unfold setEd, onlyEd. cbn [gr pd vd np nv ed]. repeat split; auto.
  - unfold upd. rewrite Nat.eqb_refl. reflexivity.
  - intros a N. unfold upd. destruct (Nat.eqb_spec e a) as [->|_]; [congruence|apply K, N].
Qed.
Lemma onlyEd_refl m e : onlyEd m m e (ed m e).
Proof. repeat split; auto. Qed.
Lemma head_cons f e t t' ls fn h m h' m' : headLine f32 f e t h m = Val (Some (h', m')) -> head f32 f e t (t' :: ls) fn h m = head f32 f e t' ls fn h' m'.
Proof. intros H. cbn [head]. rewrite H. reflexivity. Qed.
Lemma indices_shift n : indices n = map (fun x => 0 + Z.of_nat x) (seq 0 n).
Proof. unfold indices. apply map_ext. reflexivity. Qed.
(* the data of the event after the lines before the vertices, for an event that had d0 *)
Definition headed (d0 d : edata) (w : list (str * Z)) : edata :=
  EData (sigid d) (evnum d) (mpi d) (scale d) (aqcd d) (aqed d) (signal d0) (beam1 d0) (beam2 d0) (Some (weightsOf d)) w (rndm d)
    (match xsec d with Some x => Some x | None => xsec d0 end) (match hion d with Some x => Some x | None => hion d0 end) (Some (pdfOf d)) (mu d) (lu d).
Definition named (d0 d : edata) (w : list (str * Z)) : Prop :=
  (weightsOf d = [] /\ w = match wslice d0 with None => [] | Some _ => wmap d0 end) \/ (weightsOf d <> [] /\ NoDup (map fst w) /\ forall n, sget w n = sget (wmap d) n).
Definition data_ok (d : edata) : Prop := wnames_ok d /\ pdf_ok (pdfOf d) /\ match hion d with Some h => hi_ok h | None => True end.
Lemma decodeNames m e d : wnames_ok d -> size_ok (weightsOf d) -> weightsOf d <> [] -> exists t w, linesN visit isPrint d = [sN :: t] /\ NoDup (map fst w) /\ (forall n, sget w n = sget (wmap d) n) /\
  decodeN m e (sN :: t) = Val (let d0 := ed m e in setEd m e (EData (sigid d0) (evnum d0) (mpi d0) (scale d0) (aqcd d0) (aqed d0) (signal d0) (beam1 d0) (beam2 d0) (wslice d0) w (rndm d0) (xsec d0) (hion d0) (pdfi d0) (mu d0) (lu d0))).
Proof.
  intros W SZ NE. destruct (names_read d (length (weightsOf d)) [[]] W 0 []) as (w & E & NW & G); [constructor|lia|unfold zlen; lia|]. rewrite <- indices_shift in E.
  exists (itoa (zlen (weightsOf d)) :: map (fun i => quote isPrint (qname d i)) (indices (length (weightsOf d))) ++ [[]]), w. split; [|split; [exact NW|split]].
  - unfold linesN. destruct (weightsOf d) as [|x l] eqn:X; [congruence|]. reflexivity.
  - intros n. rewrite G. destruct W as (N1 & _ & C & _). destruct (sget (wmap d) n) as [j|] eqn:SG; [|reflexivity]. apply (sget_In _ _ _ N1) in SG. apply (in_map snd) in SG. apply C in SG.
    unfold zlen in SG. cbn [snd] in SG. destruct (Z.leb_spec 0 j), (Z.ltb_spec j (0 + Z.of_nat (length (weightsOf d)))); try reflexivity; lia.
  - unfold decodeN. cbn [next]. rewrite tint_itoa by (apply size_int; exact SZ). cbn [obind]. unfold zlen. rewrite Nat2Z.id. rewrite E. reflexivity.
Qed.
Lemma head_read m e m' e' c s t rest fn : evt_ints m e -> data_ok (ed m e) -> c = 86 \/ c = 80 ->
  let d := ed m e in
  exists m2 w, head f32 FGenEvent e' (lineE m e) (linesN visit isPrint d ++ [lineU d] ++ linesC d ++ linesH d ++ [lineF d] ++ ((c :: s) :: t) :: rest) fn hdr0 m' =
    (Val ((c :: s) :: t, hdrOf m e, m2), {| sl := rest; fin := fn |}) /\ named (ed m' e') d w /\
    onlyEd (setEvtMap m' e' {| e_verts := []; e_parts := []; e_bcp := e_bcp (evts (gr m') e'); e_bcv := e_bcv (evts (gr m') e'); e_nil := false |}) m2 e' (headed (ed m' e') d w).
Proof.
  intros EI (WN & PO & HO) C d. fold d in WN, PO, HO.
  set (M0 := setEvtMap m' e' {| e_verts := []; e_parts := []; e_bcp := e_bcp (evts (gr m') e'); e_bcv := e_bcv (evts (gr m') e'); e_nil := false |}).
  set (w0 := match wslice (ed m' e') with None => [] | Some _ => wmap (ed m' e') end).
  set (d1 w x h p u l := EData (sigid d) (evnum d) (mpi d) (scale d) (aqcd d) (aqed d) (signal (ed m' e')) (beam1 (ed m' e')) (beam2 (ed m' e')) (Some (weightsOf d)) w (rndm d) x h p u l).
  set (x0 := xsec (ed m' e')). set (h0 := hion (ed m' e')). set (p0 := pdfi (ed m' e')).
  assert (P1 : exists m1, headLine f32 FGenEvent e' (lineE m e) hdr0 m' = Val (Some (hdrOf m e, m1)) /\ onlyEd M0 m1 e' (d1 w0 x0 h0 p0 (mu (ed m' e')) (lu (ed m' e')))).
  { unfold headLine. change (peek (lineE m e)) with (Val (A := Z * toks) (69, tl (lineE m e))). cbn [obind]. rewrite Z.eqb_refl. rewrite decodeE by exact EI. cbn [obind].
    eexists. split; [reflexivity|]. unfold fillEvt. cbv zeta. unfold onlyEd, setEvtMap, setEd, M0, upd. cbn [gr pd vd np nv ed]. fold d. rewrite Nat.eqb_refl.
    repeat split; auto. intros a N. destruct (Nat.eqb_spec e' a); [congruence|reflexivity]. }
  destruct P1 as (m1 & E1 & O1).
  (* names *)
  assert (P2 : exists m2 w, named (ed m' e') d w /\ onlyEd M0 m2 e' (d1 w x0 h0 p0 (mu (ed m' e')) (lu (ed m' e'))) /\
    forall t' ls, head f32 FGenEvent e' (lineE m e) (linesN visit isPrint d ++ t' :: ls) fn hdr0 m' = head f32 FGenEvent e' t' ls fn (hdrOf m e) m2).
  { destruct (weightsOf d) as [|x l] eqn:X.
    - exists m1, w0. split; [left; split; [exact X|reflexivity]|]. split; [exact O1|]. intros t' ls. unfold linesN. rewrite X. cbn [app]. apply head_cons. exact E1.
    - assert (NE : weightsOf d <> []) by (rewrite X; discriminate). destruct (decodeNames m1 e' d WN (ei_nw m e EI) NE) as (tn & w & EL & NW & G & ED). eexists _, w.
      split; [right; split; [exact NE|split; [exact NW|exact G]]|]. split; [|].
      2:{ intros t' ls. rewrite EL. cbn [app]. rewrite (head_cons _ _ _ _ _ _ _ _ _ _ E1). apply head_cons. unfold headLine, sN. rewrite peek_cons. cbn [obind].
          change (78 =? 69) with false. change (78 =? 78) with true. cbn match. unfold withH. change [78] with sN. rewrite ED. cbn [obind]. reflexivity. }
      cbv zeta. pose proof O1 as (_ & _ & _ & _ & _ & OE & _). rewrite OE. unfold d1. cbn [sigid evnum mpi scale aqcd aqed signal beam1 beam2 wslice wmap rndm xsec hion pdfi mu lu]. eapply onlyEd_set. exact O1. }
  destruct P2 as (m2 & w & NA & O2 & E2). exists (let m3 := setEd m2 e' (d1 w x0 h0 p0 (mu d) (lu d)) in
     let m4 := match xsec d with Some x => setEd m3 e' (d1 w (Some x) h0 p0 (mu d) (lu d)) | None => m3 end in
     let m5 := match hion d with Some h => setEd m4 e' (d1 w (match xsec d with Some x => Some x | None => x0 end) (Some h) p0 (mu d) (lu d)) | None => m4 end in
     setEd m5 e' (d1 w (match xsec d with Some x => Some x | None => x0 end) (match hion d with Some x => Some x | None => h0 end) (Some (pdfOf d)) (mu d) (lu d))), w.
  cbv zeta. set (m3 := setEd m2 e' (d1 w x0 h0 p0 (mu d) (lu d))). assert (O3 : onlyEd M0 m3 e' (d1 w x0 h0 p0 (mu d) (lu d))) by (eapply onlyEd_set; exact O2).
  set (x4 := match xsec d with Some x => Some x | None => x0 end). set (m4 := match xsec d with Some x => setEd m3 e' (d1 w (Some x) h0 p0 (mu d) (lu d)) | None => m3 end).
  assert (O4 : onlyEd M0 m4 e' (d1 w x4 h0 p0 (mu d) (lu d))) by (unfold m4, x4; destruct (xsec d); [eapply onlyEd_set; exact O3|exact O3]).
  set (h5 := match hion d with Some x => Some x | None => h0 end). set (m5 := match hion d with Some h => setEd m4 e' (d1 w x4 (Some h) p0 (mu d) (lu d)) | None => m4 end).
  assert (O5 : onlyEd M0 m5 e' (d1 w x4 h5 p0 (mu d) (lu d))) by (unfold m5, h5; destruct (hion d); [eapply onlyEd_set; exact O4|exact O4]).
  set (m6 := setEd m5 e' (d1 w x4 h5 (Some (pdfOf d)) (mu d) (lu d))).
  split; [|split; [exact NA|eapply onlyEd_set; exact O5]].
  change ([lineU d] ++ linesC d ++ linesH d ++ [lineF d] ++ ((c :: s) :: t) :: rest) with (lineU d :: (linesC d ++ linesH d ++ [lineF d] ++ ((c :: s) :: t) :: rest)). rewrite E2.
  (* units *)
  assert (U : headLine f32 FGenEvent e' (lineU d) (hdrOf m e) m2 = Val (Some (hdrOf m e, m3))).
  { unfold headLine. change (peek (lineU d)) with (Val (A := Z * toks) (85, tl (lineU d))). cbn [obind]. change (85 =? 69) with false. change (85 =? 78) with false. change (85 =? 85) with true. cbn match.
    unfold withH. rewrite decodeU. cbn [obind]. cbv zeta. destruct O2 as (_ & _ & _ & _ & _ & -> & _). reflexivity. }
  (* cross section *)
  assert (XC : forall t' ls, head f32 FGenEvent e' (lineU d) (linesC d ++ t' :: ls) fn (hdrOf m e) m2 = head f32 FGenEvent e' t' ls fn (hdrOf m e) m4).
  { intros t' ls. unfold linesC, m4. destruct (xsec d) as [[v r]|]; cbn [app]; [|apply head_cons; exact U]. rewrite (head_cons _ _ _ _ _ _ _ _ _ _ U). apply head_cons.
    unfold headLine. change (peek [sC; ftext v; ftext r]) with (Val (A := Z * toks) (67, [ftext v; ftext r])). cbn [obind]. change (67 =? 69) with false. change (67 =? 78) with false. change (67 =? 85) with false. change (67 =? 67) with true. cbn match.
    unfold withH. rewrite decodeC. cbn [obind]. cbv zeta. destruct O3 as (_ & _ & _ & _ & _ & -> & _). reflexivity. }
  (* heavy ion *)
  assert (XH : forall t' ls, head f32 FGenEvent e' (lineU d) (linesC d ++ linesH d ++ t' :: ls) fn (hdrOf m e) m2 = head f32 FGenEvent e' t' ls fn (hdrOf m e) m5).
  { intros t' ls. unfold linesH, m5. destruct (hion d) as [hi|]; cbn [app]; [|apply XC]. rewrite XC. apply head_cons.
    unfold headLine. change (peek (sH :: map itoa (hi_n hi) ++ map ftext (hi_f hi))) with (Val (A := Z * toks) (72, map itoa (hi_n hi) ++ map ftext (hi_f hi))). cbn [obind].
    change (72 =? 69) with false. change (72 =? 78) with false. change (72 =? 85) with false. change (72 =? 67) with false. change (72 =? 72) with true. cbn match.
    unfold withH. rewrite decodeH by exact HO. cbn [obind]. cbv zeta. destruct O4 as (_ & _ & _ & _ & _ & -> & _). reflexivity. }
  change ([lineF d] ++ ((c :: s) :: t) :: rest) with (lineF d :: ((c :: s) :: t) :: rest). rewrite XH.
  eapply eq_trans; [apply (head_cons FGenEvent e' (lineF d) ((c :: s) :: t) rest fn (hdrOf m e) m5 (hdrOf m e) m6)|].
  { unfold headLine. change (peek (lineF d)) with (Val (A := Z * toks) (70, tl (lineF d))). cbn [obind].
      change (70 =? 69) with false. change (70 =? 78) with false. change (70 =? 85) with false. change (70 =? 67) with false. change (70 =? 72) with false. change (70 =? 70) with true. cbn match.
      unfold withH. rewrite decodeF by exact PO. cbn [obind]. cbv zeta. destruct O5 as (_ & _ & _ & _ & _ & -> & _). reflexivity. }
  destruct rest as [|r0 rest]; cbn [head]; unfold headLine; rewrite peek_cons; cbn [obind]; destruct C as [-> | ->]; reflexivity.
Qed.
End Read.
