(* C78: YODA archives: the histograms, profiles and scatters that are written are read back, in their order; blocks of other types are skipped *)
From Coq Require Import ZArith List Lia Bool String Permutation.
From Flocq Require Import IEEE754.BinarySingleNaN.
From Verif Require Import Bytes GoLib GoStrings F64 FloatText FloatDigits ScanfModel ScanfProofs YodaModel YodaProofs YodaProps YodaCnvModel YodaCnvProofs.
Import ListNotations.
Local Open Scope Z_scope.

(* ---- what is written ---- *)
(* the annotations are given by the lines of their text and by what the text is read as *)
Inductive item (A : Type) :=
  | IHisto (path : str) (yaml : list str) (a : A) (mean area : f64) (t : table)
  | IProfile (path : str) (yaml : list str) (a : A) (t : table)
  | IScatter (path : str) (yaml : list str) (a : A) (pts : list point)
  | ISkip (name path : str) (body : list str).
Arguments IHisto {A}. Arguments IProfile {A}. Arguments IScatter {A}. Arguments ISkip {A}.
Definition skipped : list str := map ys ["PROFILE2D"; "PROFILE2D_V2"; "SCATTER1D"; "SCATTER1D_V2"; "SCATTER3D"; "SCATTER3D_V2"; "COUNTER"; "COUNTER_V2"]%string.
Definition z0 : f64 := B754_zero false.
Definition itemText {A} (sort : list point -> list point) (i : item A) : str :=
  match i with
  | IHisto path yaml _ mean area t => marshal histo path (flat_map nl yaml) mean area t
  | IProfile path yaml _ t => marshal profile path (flat_map nl yaml) z0 z0 t
  | IScatter path yaml _ pts => marshalS sort path (flat_map nl yaml) pts
  | ISkip name path body => nl (ys "BEGIN YODA_" ++ name ++ [32] ++ path) ++ flat_map nl body ++ nl (ys "END YODA_" ++ name) ++ [10]
  end.
(* a line of a block: no newline, no carriage return at its end, and not the first or last line of a block *)
Definition lineOk (l : str) : Prop := ~ In 10 l /\ last l 0 <> 13 /\ (forall r, l <> ys "BEGIN YODA_" ++ r) /\ (forall r, l <> ys "END YODA_" ++ r).
Definition pathOk (p : str) : Prop := ~ In 10 p /\ last p 0 <> 13.
Definition yamlOk {A} (unyaml : str -> option A) (yaml : list str) (a : A) : Prop := Forall lineOk yaml /\ Forall (fun l => forall r, l <> 35 :: r) yaml /\ unyaml (flat_map nl yaml ++ ys "---" ++ [10]) = Some a.
Definition itemOk {A} (unyaml : str -> option A) (i : item A) : Prop :=
  match i with
  | IHisto path yaml a _ _ t => pathOk path /\ yamlOk unyaml yaml a /\ writableTable 4 t
  | IProfile path yaml a t => pathOk path /\ yamlOk unyaml yaml a /\ writableTable 6 t /\
      (* with 7 digits, the range is not empty *)
      exists b c x y, In b (t_bins t) /\ In c (t_bins t) /\ parse_float (fmt_e 7 (low b)) = Some x /\ parse_float (fmt_e 7 (high c)) = Some y /\ flt x y = true
  | IScatter path yaml a pts => pathOk path /\ yamlOk unyaml yaml a /\ Forall (fun p => List.length p = 6%nat /\ Forall mid p) pts
  | ISkip name path body => In name skipped /\ pathOk path /\ Forall lineOk body
  end.
(* ---- what is read ---- *)
Definition itemRead {A} (i : item A) (o : obj A) : Prop :=
  match i, o with
  | IHisto _ _ a _ _ t, ObjH a' t' => a' = a /\ readTable t t'
  | IProfile _ _ a t, ObjP a' t' => a' = a /\ readTable t t'
  | IScatter _ _ a pts, ObjS a' l => a' = a /\ exists q, Permutation pts q /\ Forall2 (Forall2 (near 7)) q l
  | _, _ => False
  end.
Definition isSkip {A} (i : item A) : bool := match i with ISkip _ _ _ => true | _ => false end.

(* ---- blocks ---- *)
Lemma lineOk_inner l : lineOk l -> inner l.
Proof.
  intros (N & L & B & E). split; [split; assumption|]. assert (K : forall p, (forall r, l <> p ++ r) -> prefixb p l = false).
  { intros p H. unfold prefixb. destruct (str_eqb_spec (firstn (List.length p) l) p) as [EQ|]; [|reflexivity]. exfalso. apply (H (skipn (List.length p) l)). rewrite <- EQ at 1. symmetry. apply firstn_skipn. }
  split; apply K; assumption.
Qed.
Lemma split_app_sep a b : split 10 (a ++ 10 :: b) = split 10 a ++ split 10 b.
Proof.
  induction a as [|c a IH]; [reflexivity|]. cbn [app split]. destruct (c =? 10); [rewrite IH; reflexivity|]. rewrite IH. pose proof (split_nonempty 10 a) as NE. destruct (split 10 a); [contradiction|]. reflexivity.
Qed.
Lemma yaml_noMark yaml : Forall lineOk yaml -> Forall (fun l => forall r, l <> 35 :: r) yaml -> noMark (flat_map nl yaml).
Proof.
  intros F H a b E. assert (S : split 10 (flat_map nl yaml) = yaml ++ [[]]) by (apply split_nl; eapply Forall_impl; [|exact F]; intros l (N & _); exact N). rewrite E, split_app_sep in S. cbn [split] in S. change (35 =? 10) with false in S. cbv iota in S.
  destruct (split 10 b) as [|h t] eqn:EB; [exact (split_nonempty 10 b EB)|]. assert (I : In (35 :: h) (yaml ++ [[]])) by (rewrite <- S; apply in_or_app; right; left; reflexivity). apply in_app_or in I as [I|[I|[]]]; [|discriminate]. rewrite Forall_forall in H. exact (H _ I h eq_refl).
Qed.
Lemma last_app_ne (a b : str) : b <> [] -> last (a ++ b) 0 = last b 0.
Proof. intros NE. destruct (exists_last NE) as (l & x & ->). rewrite app_assoc, !last_last. reflexivity. Qed.
Lemma first_plain w path : (forall c, In c w -> c <> 10 /\ c <> 13) -> w <> [] -> pathOk path -> plain (w ++ path).
Proof.
  intros H NE [P1 P2]. split; [rewrite in_app_iff; intros [I|I]; [apply H in I; lia|exact (P1 I)]|]. destruct path as [|c p]; [rewrite app_nil_r; exact (proj2 (plain_chars w H))|]. rewrite last_app_ne by discriminate. exact P2.
Qed.
Lemma head_inner c l : plain (c :: l) -> c <> 66 -> c <> 69 -> inner (c :: l).
Proof.
  intros P B E. split; [exact P|]. unfold begYoda, endYoda. change (ys "BEGIN YODA_") with (66 :: ys "EGIN YODA_"). change (ys "END YODA_") with (69 :: ys "ND YODA_"). rewrite !prefixb_cons. destruct (Z.eqb_spec c 66); [contradiction|]. destruct (Z.eqb_spec c 69); [contradiction|]. auto.
Qed.
Lemma dashes_inner : inner (ys "---").
Proof. split; [apply plain_chars; apply noten; reflexivity|split; reflexivity]. Qed.
Lemma comment_inner l : comment l -> inner l.
Proof. intros [P [r ->]]. apply head_inner; [exact P|lia|lia]. Qed.
Lemma table_inner k mean area t : kindOk k -> Forall inner (tableLines k mean area t).
Proof.
  intros KO. pose proof (tableLines_plain k mean area t KO) as P. unfold tableLines in *. apply Forall_app in P as [_ P]. apply Forall_app. split; [eapply Forall_impl; [|exact (ko_pre k KO mean area)]; exact comment_inner|].
  cbn [app] in P |- *. inversion P as [|? ? P1 Q1]; subst. inversion Q1 as [|? ? P2 Q2]; subst. inversion Q2 as [|? ? P3 Q3]; subst.
  constructor; [exact (head_inner 84 _ P1 ltac:(lia) ltac:(lia))|]. constructor; [exact (head_inner 85 _ P2 ltac:(lia) ltac:(lia))|]. constructor; [exact (head_inner 79 _ P3 ltac:(lia) ltac:(lia))|]. constructor; [exact (comment_inner _ (ko_cols k KO))|].
  apply Forall_forall. intros l I. apply in_map_iff in I as (r & <- & _). pose proof (rowText_plain r) as PR. destruct (rowText_head r) as (c & u & E & C). rewrite E in *. apply head_inner; [exact PR|lia|lia].
Qed.
Definition objBlk (k : kind) (path : str) (yaml tab : list str) : blk := mkblk (ys "BEGIN YODA_" ++ k_name k ++ ys "_V2 " ++ path) (yaml ++ [ys "---"] ++ tab) (ys "END YODA_" ++ k_name k ++ ys "_V2").
Lemma objBlk_ok k path yaml tab : forallb (fun c => negb (c =? 10) && negb (c =? 13)) (k_name k) = true -> pathOk path -> Forall lineOk yaml -> Forall inner tab -> blkOk (objBlk k path yaml tab).
Proof.
  intros NK PO FY FT. assert (W : forall w, forallb (fun c => negb (c =? 10) && negb (c =? 13)) w = true -> forall c, In c (ys "BEGIN YODA_" ++ k_name k ++ w) \/ In c (ys "END YODA_" ++ k_name k ++ w) -> c <> 10 /\ c <> 13).
  { intros w HW c H. rewrite !in_app_iff in H. destruct H as [[H|[H|H]]|[H|[H|H]]]; first [exact (noten _ NK c H)|exact (noten _ HW c H)|exact (noten (ys "BEGIN YODA_") eq_refl c H)|exact (noten (ys "END YODA_") eq_refl c H)]. }
  split; [|split; [|split; [|split]]]; cbn [objBlk b_first b_body b_last].
  - rewrite (app_assoc (k_name k)), app_assoc. apply first_plain; [intros c I; apply (W (ys "_V2 ") eq_refl); left; rewrite <- ?app_assoc in I; exact I|discriminate|exact PO].
  - exact (prefixb_app begYoda _).
  - apply Forall_app. split; [eapply Forall_impl; [|exact FY]; exact lineOk_inner|]. constructor; [exact dashes_inner|exact FT].
  - apply plain_chars. intros c I. apply (W (ys "_V2") eq_refl). right. exact I.
  - exact (prefixb_app endYoda _).
Qed.
Lemma objBlk_text k path yaml tab : blkText (objBlk k path yaml tab) = nl (ys "BEGIN YODA_" ++ k_name k ++ ys "_V2 " ++ path) ++ flat_map nl yaml ++ ys "---" ++ [10] ++ flat_map nl tab ++ nl (ys "END YODA_" ++ k_name k ++ ys "_V2") ++ flat_map nl [].
Proof. unfold blkText, objBlk. cbn [b_first b_body b_last flat_map]. rewrite !flat_map_app. cbn [flat_map]. unfold nl at 3. rewrite ?app_nil_r, <- ?app_assoc. reflexivity. Qed.

Definition itemBlk {A} (sort : list point -> list point) (i : item A) : blk :=
  match i with
  | IHisto path yaml _ mean area t => objBlk histo path yaml (tableLines histo mean area t)
  | IProfile path yaml _ t => objBlk profile path yaml (tableLines profile z0 z0 t)
  | IScatter path yaml _ pts => objBlk scatter path yaml (scatterBody sort pts)
  | ISkip name path body => mkblk (ys "BEGIN YODA_" ++ name ++ [32] ++ path) body (ys "END YODA_" ++ name)
  end.
Lemma itemBlk_text {A} sort (i : item A) : itemText sort i = blkText (itemBlk sort i) ++ [10].
Proof.
  destruct i as [path yaml a mean area t|path yaml a t|path yaml a pts|name path body]; cbn [itemText itemBlk].
  - rewrite objBlk_text. unfold marshal. cbn [flat_map]. rewrite app_nil_r, <- !app_assoc. reflexivity.
  - rewrite objBlk_text. unfold marshal. cbn [flat_map]. rewrite app_nil_r, <- !app_assoc. reflexivity.
  - rewrite objBlk_text. unfold marshalS, scatterBody. cbn [flat_map]. rewrite app_nil_r, <- !app_assoc. reflexivity.
  - unfold blkText. cbn [b_first b_body b_last flat_map]. rewrite flat_map_app. cbn [flat_map]. rewrite app_nil_r, <- !app_assoc. reflexivity.
Qed.
Lemma scatter_inner sort pts : Forall pointOk (sort pts) -> Forall inner (scatterBody sort pts).
Proof.
  intros F. constructor; [apply comment_inner; split; [apply plain_chars; apply noten; reflexivity|eexists; reflexivity]|]. apply Forall_forall. intros l I. apply in_map_iff in I as (p & <- & IP). rewrite Forall_forall in F. pose proof (pointText_plain p) as PP. destruct (pointText_head p (F p IP)) as (c & u & E & C). rewrite E in *. apply head_inner; [exact PP|lia|lia].
Qed.
Lemma skip_names name : In name skipped -> (forall c, In c name -> c <> 10 /\ c <> 13) /\ forall path, splitHeader (ys "BEGIN YODA_" ++ name ++ [32] ++ path) = HIgnore.
Proof. intros I. repeat (destruct I as [<-|I]; [split; [apply noten; reflexivity|intros; reflexivity]|]). contradiction. Qed.

Section Archive.
Context {A : Type} (sort : list point -> list point) (unyaml : str -> option A) (h2 : str -> res (option A)) (PS : forall l, Permutation l (sort l)).
Lemma sorted_ok pts : Forall (fun p => List.length p = 6%nat /\ Forall mid p) pts -> Forall pointOk (sort pts).
Proof. intros F. exact (Permutation_Forall (PS pts) F). Qed.
Lemma item_blk (i : item A) : itemOk unyaml i -> blkOk (itemBlk sort i).
Proof.
  destruct i as [path yaml a mean area t|path yaml a t|path yaml a pts|name path body]; cbn [itemOk itemBlk].
  - intros (P & (FY & _ & _) & _). apply objBlk_ok; [reflexivity|assumption|assumption|apply table_inner; exact histo_ok].
  - intros (P & (FY & _ & _) & _). apply objBlk_ok; [reflexivity|assumption|assumption|apply table_inner; exact profile_ok].
  - intros (P & (FY & _ & _) & FP). apply objBlk_ok; [reflexivity|assumption|assumption|]. apply scatter_inner. exact (sorted_ok pts FP).
  - intros (NI & P & FB). destruct (skip_names name NI) as [NC _]. split; [|split; [|split; [|split]]]; cbn [b_first b_body b_last].
    + rewrite (app_assoc name), app_assoc. apply first_plain; [|discriminate|exact P]. intros c I. rewrite !in_app_iff in I. destruct I as [I|[I|I]]; [exact (noten (ys "BEGIN YODA_") eq_refl c I)|exact (NC c I)|destruct I as [<-|[]]; lia].
    + exact (prefixb_app begYoda _).
    + eapply Forall_impl; [|exact FB]. exact lineOk_inner.
    + apply plain_chars. intros c I. apply in_app_or in I as [I|I]; [exact (noten (ys "END YODA_") eq_refl c I)|exact (NC c I)].
    + exact (prefixb_app endYoda _).
Qed.
Lemma item_read (i : item A) : itemOk unyaml i -> exists o, blkRead (decode sort unyaml h2) (itemBlk sort i) o /\
  match o with Some x => isSkip i = false /\ itemRead i x | None => isSkip i = true end.
Proof.
  destruct i as [path yaml a mean area t|path yaml a t|path yaml a pts|name path body]; cbn [itemOk].
  - intros ((P & _) & (FY & FH & U) & W). exists (Some (ObjH a (rdTable t))). split; [|split; [reflexivity|split; [reflexivity|exact (rdTable_read 4 t W)]]].
    unfold blkRead. cbn [itemBlk]. change (splitHeader (b_first (objBlk histo path yaml (tableLines histo mean area t)))) with (HType OH1). cbv iota. cbn [decode]. rewrite objBlk_text. rewrite (unmarshal_lines unyaml a histo path _ mean area t [] histo_ok P (yaml_noMark yaml FY FH) U W ltac:(constructor)). reflexivity.
  - intros ((P & _) & (FY & FH & U) & W & b & c & x & y & IB & IC & EX & EY & L). exists (Some (ObjP a (rdTable t))). split; [|split; [reflexivity|split; [reflexivity|exact (rdTable_read 6 t W)]]].
    unfold blkRead. cbn [itemBlk]. change (splitHeader (b_first (objBlk profile path yaml (tableLines profile z0 z0 t)))) with (HType OP1). cbv iota. cbn [decode]. rewrite objBlk_text. unfold unmarshalP. rewrite (unmarshal_lines unyaml a profile path _ z0 z0 t [] profile_ok P (yaml_noMark yaml FY FH) U W ltac:(constructor)).
    assert (K : forall r m, In r (t_bins t) -> (m < 2)%nat -> nth m (sums (rdRow r)) (B754_zero false) = rd (nth m (sums r) (B754_zero false))).
    { intros r m IR HM. destruct W as (_ & _ & _ & WB). rewrite Forall_forall in WB. destruct (WB r IR) as (LN & _). unfold rdRow. cbn [sums]. rewrite (nth_indep _ (B754_zero false) (rd (B754_zero false))) by (rewrite map_length, LN; lia). apply map_nth. }
    rewrite (range_ok (rdTable t) (rdRow b) (rdRow c)); [reflexivity|apply in_map; exact IB|apply in_map; exact IC|]. unfold low, high. rewrite !K by (assumption || lia). unfold rd. fold (low b). fold (high c). rewrite EX, EY. exact L.
  - intros ((P & _) & (FY & FH & U) & FP). pose proof (sorted_ok pts FP) as FS. exists (Some (ObjS a (sort (map (map rd) (sort pts))))). split.
    + unfold blkRead. cbn [itemBlk]. change (splitHeader (b_first (objBlk scatter path yaml (scatterBody sort pts)))) with (HType OS2). cbv iota. cbn [decode]. rewrite objBlk_text. rewrite (unmarshalS_lines sort unyaml a path _ pts [] P (yaml_noMark yaml FY FH) U FS ltac:(constructor)). reflexivity.
    + split; [reflexivity|]. split; [reflexivity|]. destruct (Permutation_map_inv _ _ (Permutation_sym (PS (map (map rd) (sort pts))))) as (q & E & Q). exists q. split; [apply Permutation_trans with (sort pts); [apply PS|exact Q]|]. rewrite E.
      pose proof (Permutation_Forall Q FS) as FQ. clear - FQ. induction FQ as [|p q [_ M] FQ IH]; [constructor|]. cbn [map]. constructor; [|exact IH]. clear - M. induction M as [|x l Mx M IH]; [constructor|]. cbn [map]. constructor; [exact (proj2 (proj2 (rd_ok x Mx)))|exact IH].
  - intros (NI & _ & _). exists None. split; [|reflexivity]. unfold blkRead. cbn [itemBlk b_first]. rewrite (proj2 (skip_names name NI) path). exact I.
Qed.
End Archive.

(* an archive, written and read: the objects, in their order, each as it was written to 7 digits; blocks of types that are not known are passed over *)
Theorem C78_archive : forall (A : Type) sort (unyaml : str -> option A) h2 items, (forall l, Permutation l (sort l)) -> Forall (itemOk unyaml) items ->
  exists os, read (decode sort unyaml h2) (write (map (itemText sort) items)) = Ok (Some os) /\ Forall2 itemRead (filter (fun i => negb (isSkip i)) items) os.
Proof.
  intros A sort unyaml h2 items PS F.
  assert (G : exists os, Forall2 (blkRead (decode sort unyaml h2)) (map (itemBlk sort) items) os /\ Forall2 itemRead (filter (fun i => negb (isSkip i)) items) (somes os)).
  { induction F as [|i items H F (os & R & Q)]; [exists []; split; constructor|]. destruct (item_read sort unyaml h2 PS i H) as (o & B & C). exists (o :: os). cbn [map]. split; [constructor; assumption|]. cbn [filter somes flat_map]. fold (somes os). destruct o as [x|]; [destruct C as [-> C]; cbn [negb app]; constructor; assumption|rewrite C; exact Q]. }
  destruct G as (os & R & Q). exists (somes os). split; [|exact Q].
  assert (E : map (itemText sort) items = map (fun b => blkText b ++ [10]) (map (itemBlk sort) items)) by (rewrite map_map; apply map_ext; intros i; apply itemBlk_text). rewrite E. apply read_write; [|exact R].
  apply Forall_forall. intros b I. apply in_map_iff in I as (i & <- & IN). rewrite Forall_forall in F. exact (item_blk sort unyaml PS i (F i IN)).
Qed.
Definition exItems : list (item str) :=
  [IHisto (ys "/h") [ys "Path: /h"] (ys "Path: /h" ++ [10] ++ ys "---" ++ [10]) z0 z0 exH;
   ISkip (ys "COUNTER_V2") (ys "/c") [ys "Path: /c"; ys "---"; ys "# sumW"];
   IProfile (ys "/p") [] (ys "---" ++ [10]) exP;
   IScatter (ys "/s") [] (ys "---" ++ [10]) [[B754_infinity false; z0; z0; z0; z0; z0]; [z0; z0; z0; B754_nan; z0; z0]]].
Lemma exItems_ok : Forall (itemOk (fun s => Some s)) exItems.
Proof.
  assert (LO : forall l, forallb (fun c => negb (c =? 10) && negb (c =? 13)) l = true -> hd 0 l <> 66 -> hd 0 l <> 69 -> lineOk l).
  { intros l H B E. destruct (plain_chars l (noten l H)) as [P1 P2]. split; [exact P1|]. split; [exact P2|]. split; intros r EQ; rewrite EQ in *; [apply B|apply E]; reflexivity. }
  assert (PO : forall l, forallb (fun c => negb (c =? 10) && negb (c =? 13)) l = true -> pathOk l) by (intros l H; exact (plain_chars l (noten l H))).
  constructor; [|constructor; [|constructor; [|constructor; [|constructor]]]].
  - split; [apply PO; reflexivity|]. split; [split; [constructor; [apply LO; [reflexivity|discriminate|discriminate]|constructor]|split; [constructor; [intros r; discriminate|constructor]|reflexivity]]|exact exH_ok].
  - split; [repeat (try (left; reflexivity); right)|]. split; [apply PO; reflexivity|]. constructor; [apply LO; [reflexivity|discriminate|discriminate]|]. constructor; [apply LO; [reflexivity|discriminate|discriminate]|]. constructor; [apply LO; [reflexivity|discriminate|discriminate]|constructor].
  - split; [apply PO; reflexivity|]. split; [split; [constructor|split; [constructor|reflexivity]]|]. split; [exact exP_ok|]. eexists. eexists. exists (B754_infinity true), (B754_infinity false). split; [left; reflexivity|]. split; [right; left; reflexivity|]. repeat (split; [vm_compute; reflexivity|]). reflexivity.
  - split; [apply PO; reflexivity|]. split; [split; [constructor|split; [constructor|reflexivity]]|]. constructor; [|constructor; [|constructor]]; (split; [reflexivity|repeat (apply Forall_cons; [exact I|]); apply Forall_nil]).
Qed.
Example C78_archive_ex : exists os, read (decode (fun l => l) (fun s => Some s) (fun _ => Ok None)) (write (map (itemText (fun l => l)) exItems)) = Ok (Some os) /\ List.length os = 3%nat.
Proof.
  destruct (C78_archive str (fun l => l) (fun s => Some s) (fun _ => Ok None) exItems (fun l => Permutation_refl l) exItems_ok) as (os & R & F). exists os. split; [exact R|].
  inversion F as [|? ? ? ? _ F1]; subst. inversion F1 as [|? ? ? ? _ F2]; subst. inversion F2 as [|? ? ? ? _ F3]; subst. inversion F3. reflexivity.
Qed.
(* the order of an archive is that of the calls: what is written in two parts is read as one *)
Theorem C78_parts : forall (A : Type) sort (unyaml : str -> option A) h2 xs ys os os', (forall l, Permutation l (sort l)) -> Forall (itemOk unyaml) xs -> Forall (itemOk unyaml) ys ->
  read (decode sort unyaml h2) (write (map (itemText sort) xs)) = Ok (Some os) -> read (decode sort unyaml h2) (write (map (itemText sort) ys)) = Ok (Some os') ->
  read (decode sort unyaml h2) (write (map (itemText sort) xs) ++ write (map (itemText sort) ys)) = Ok (Some (os ++ os')).
Proof.
  intros A sort unyaml h2 xs ys os os' PS FX FY EX EY.
  assert (B : forall l, Forall (itemOk unyaml) l -> exists os, Forall blkOk (map (itemBlk sort) l) /\ Forall2 (blkRead (decode sort unyaml h2)) (map (itemBlk sort) l) os).
  { induction 1 as [|i l H F (os0 & B0 & R0)]; [exists []; split; constructor|]. destruct (item_read sort unyaml h2 PS i H) as (o & B & _). exists (o :: os0). split; constructor; try assumption. exact (item_blk sort unyaml PS i H). }
  assert (E : forall l : list (item A), map (itemText sort) l = map (fun b => blkText b ++ [10]) (map (itemBlk sort) l)) by (intros l; rewrite map_map; apply map_ext; intros i; apply itemBlk_text).
  destruct (B xs FX) as (o1 & B1 & R1), (B ys FY) as (o2 & B2 & R2). rewrite E in EX, EY. rewrite (read_write _ _ _ B1 R1) in EX. rewrite (read_write _ _ _ B2 R2) in EY. injection EX as <-. injection EY as <-.
  unfold write at 1 2. rewrite <- concat_app. fold (write (map (itemText sort) xs ++ map (itemText sort) ys)). rewrite !E, <- map_app. rewrite (read_write _ _ (o1 ++ o2)); [|apply Forall_app; auto|apply Forall2_app; assumption]. unfold somes. rewrite flat_map_app. reflexivity.
Qed.

(* ---- what is not so ---- *)
(* the end of a block that was never begun is a panic *)
Theorem C78_end_refuted : exists s, forall (O : Type) (un : otype -> str -> res (option O)), read un s = Panic.
Proof. exists (ys "END YODA_HISTO1D_V2" ++ [10]). intros O un. reflexivity. Qed.
(* after a block of a type that is not known, and without an end, the next object is passed over *)
Theorem C78_unclosed_refuted : exists s, read (decode (fun l => l) (fun s => Some s) (fun _ => Ok None)) (s ++ itemText (fun l => l) (IScatter (A := str) (ys "/s") [] [] [])) = Ok (Some []) /\
  exists o, read (decode (fun l => l) (fun s => Some s) (fun _ => Ok None)) (itemText (fun l => l) (IScatter (A := str) (ys "/s") [] [] [])) = Ok (Some [o]).
Proof. exists (ys "BEGIN YODA_COUNTER_V2 /c" ++ [10]). split; [vm_compute; reflexivity|]. eexists. vm_compute. reflexivity. Qed.
(* a line of a scatter that is not a point is read as the point (0, 0), without an error *)
Theorem C78_garbage_refuted : exists text : str, unmarshalS (fun l => l) (fun s => Some s)
  (ys "BEGIN YODA_SCATTER2D_V2 /s" ++ 10 :: ys "---" ++ 10 :: k_cols scatter ++ 10 :: text ++ 10 :: ys "END YODA_SCATTER2D_V2" ++ [10]) = Some (ys "---" ++ [10], [repeat z0 6]) /\ text = ys "not a point".
Proof. eexists. split; [|reflexivity]. vm_compute. reflexivity. Qed.
(* a profile whose range is narrower than 7 digits: reading what was written is a panic *)
Theorem C78_range_refuted : exists t, writableTable 6 t /\ (exists b, t_bins t = [b] /\ flt (low b) (high b) = true) /\
  unmarshalP (fun s => Some s) (marshal profile (ys "/p") [] z0 z0 t) = Panic.
Proof.
  assert (NP : ~ In 10 (ys "/p")) by (intros H; cbn in H; intuition lia). assert (NY : noMark []) by (intros [|? u] v; discriminate).
  set (b := mkrow [ofInt 10000001; ofInt 10000002; z0; z0; z0; z0; z0; z0] 0). set (t := mktab (zrow profile) (zrow profile) (zrow profile) [b]).
  assert (W : writableTable 6 t).
  { split; [wr|split; [wr|split; [wr|]]]. constructor; [|constructor]. split; [reflexivity|]. split; [|cbn; lia]. constructor; [apply ofInt_mid; lia|]. constructor; [apply ofInt_mid; lia|]. repeat (apply Forall_cons; [exact I|]). apply Forall_nil. }
  exists t. split; [exact W|]. split; [exists b; split; [reflexivity|vm_compute; reflexivity]|]. unfold unmarshalP. rewrite (unmarshal_marshal (fun s => Some s) (ys "---" ++ [10]) profile (ys "/p") [] z0 z0 t profile_ok NP NY eq_refl W).
  destruct (rdCount 10000001 ltac:(lia)) as (V1 & _ & E1 & _ & _ & D1 & C1). destruct (rdCount 10000002 ltac:(lia)) as (V2 & _ & E2 & _ & _ & D2 & C2). specialize (D1 ltac:(lia)). specialize (D2 ltac:(lia)).
  assert (V1 = 10000000) by (apply Z.mod_divide in D1 as [q ->]; lia). assert (V2 = 10000000) by (apply Z.mod_divide in D2 as [q ->]; lia). subst V1 V2.
  assert (XR : forall r, fge (xmin r) (xmax r) = true -> (if fge (xmin r) (xmax r) then Panic else Ok (Some (ys "---" ++ [10], r))) = Panic) by (intros r ->; reflexivity). apply XR.
  unfold xmin, xmax, low, high, rdTable, rdRow, t, b. cbn [t_bins map sums fold_left nth]. rewrite E1, E2. vm_compute. reflexivity.
Qed.

Print Assumptions C78_archive.
Print Assumptions C78_parts.
Print Assumptions C78_end_refuted.
Print Assumptions C78_unclosed_refuted.
Print Assumptions C78_garbage_refuted.
Print Assumptions C78_range_refuted.
