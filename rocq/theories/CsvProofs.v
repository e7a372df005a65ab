(* Proofs about CsvModel.v *)
From Coq Require Import ZArith List Lia Bool String.
From Flocq Require Import IEEE754.BinarySingleNaN.
From Verif Require Import Bytes GoLib GoStrings F64 FloatText ScanfModel CsvModel.
Import ListNotations.
Local Open Scope Z_scope.

(* no carriage return is followed by a newline *)
Fixpoint nocrlf (s : str) : Prop := match s with [] => True | c :: r => (c = 13 -> match r with d :: _ => d <> 10 | [] => True end) /\ nocrlf r end.
Lemma line1_cons c T : c <> 10 -> line1 (c :: T) = (c :: fst (line1 T), snd (line1 T)).
Proof. intros H. cbn [line1]. destruct (Z.eqb_spec c 10); [contradiction|]. destruct (line1 T); reflexivity. Qed.
Lemma norm_cons c l : c <> 13 -> norm (c :: l) = c :: norm l.
Proof. intros H. cbn [norm]. destruct (Z.eqb_spec c 13); [contradiction|]. reflexivity. Qed.
Lemma norm_13 d l : d <> 10 -> norm (13 :: d :: l) = 13 :: norm (d :: l).
Proof.
  intros H. cbn [norm]. change (13 =? 13) with true. cbn [andb]. destruct (match d :: l with [] => true | [10] => true | _ => false end) eqn:E; [|reflexivity].
  exfalso. destruct l as [|x l].
  - destruct d as [|p|p]; try discriminate. do 4 (destruct p as [p|p|]; try discriminate; try (apply H; reflexivity)).
  - destruct d as [|p|p]; try discriminate. do 4 (destruct p as [p|p|]; try discriminate).
Qed.
Definition L (T : str) : str := norm (fst (line1 T)).
Definition R (T : str) : str := snd (line1 T).
Lemma L_cons c T : c <> 10 -> c <> 13 -> L (c :: T) = c :: L T.
Proof. intros H1 H2. unfold L. rewrite line1_cons by exact H1. cbn [fst]. apply norm_cons. exact H2. Qed.
Lemma R_cons c T : c <> 10 -> R (c :: T) = R T.
Proof. intros H. unfold R. rewrite line1_cons by exact H. reflexivity. Qed.
Lemma L_13 d T : d <> 10 -> L (13 :: d :: T) = 13 :: L (d :: T).
Proof. intros H. unfold L. rewrite line1_cons by lia. cbn [fst]. rewrite line1_cons by exact H. cbn [fst]. apply norm_13. exact H. Qed.
Lemma L_nl T : L (10 :: T) = [10].
Proof. reflexivity. Qed.
Lemma R_nl T : R (10 :: T) = T.
Proof. reflexivity. Qed.
Lemma readLine_LR T : T <> [] -> readLine T = Some (L T, R T).
Proof. intros H. unfold readLine, L, R. destruct T; [congruence|]. destruct (line1 (z :: T)); reflexivity. Qed.
Lemma len_line1 T : (List.length T = List.length (fst (line1 T)) + List.length (snd (line1 T)))%nat.
Proof. induction T as [|c T IH]; [reflexivity|]. cbn [line1]. destruct (c =? 10); [reflexivity|]. destruct (line1 T) as [a b]. cbn [fst snd List.length] in *. lia. Qed.
Lemma len_norm l : (List.length (norm l) <= List.length l <= S (List.length (norm l)))%nat.
Proof. induction l as [|c l IH]; [cbn; lia|]. cbn [norm]. destruct ((c =? 13) && _); cbn [List.length]; lia. Qed.
Lemma len_LR T : (List.length (L T) + List.length (R T) <= List.length T <= S (List.length (L T) + List.length (R T)))%nat.
Proof. unfold L, R. pose proof (len_line1 T). pose proof (len_norm (fst (line1 T))). lia. Qed.

(* a quoted field *)
Lemma esc_cons c f : esc (c :: f) = (if c =? 34 then [34; 34] else [c]) ++ esc f.
Proof. reflexivity. Qed.
Lemma qfield_body comma : comma <> 10 -> comma <> 13 -> comma <> 34 -> forall body, nocrlf body -> forall more acc k,
  (2 * List.length (esc body) + 2 <= k)%nat ->
  (forall m, more = comma :: m -> qfield k comma (L (esc body ++ 34 :: more)) (R (esc body ++ 34 :: more)) acc = QNext (acc ++ body) (L m) (R m)) /\
  (forall m, more = 10 :: m -> qfield k comma (L (esc body ++ 34 :: more)) (R (esc body ++ 34 :: more)) acc = QEnd (acc ++ body) m).
Proof.
  intros C1 C2 C3. induction body as [|c body IH]; intros NC more acc k HK.
  - cbn [esc flat_map app] in *. destruct k as [|k]; [lia|]. rewrite L_cons, R_cons, app_nil_r by lia. split; intros m ->.
    + rewrite L_cons, R_cons by assumption. cbn [qfield]. change (34 =? 34) with true. cbv iota. destruct (Z.eqb_spec comma 34); [contradiction|]. rewrite Z.eqb_refl. reflexivity.
    + rewrite L_nl, R_nl. cbn [qfield]. change (34 =? 34) with true. change (10 =? 34) with false. cbv iota. destruct (Z.eqb_spec 10 comma); [congruence|]. reflexivity.
  - destruct NC as [NC1 NC2]. specialize (IH NC2). rewrite esc_cons in *. destruct (Z.eqb_spec c 34) as [->|N34].
    + cbn [app List.length] in *. destruct k as [|k]; [lia|]. rewrite L_cons, R_cons, L_cons, R_cons by lia. cbn [qfield]. change (34 =? 34) with true. cbv iota.
      destruct (IH more (acc ++ [34]) k ltac:(lia)) as [I1 I2]. split; intros m E; [rewrite (I1 m E)|rewrite (I2 m E)]; rewrite <- app_assoc; reflexivity.
    + cbn [app List.length] in *. destruct k as [|k]; [lia|]. destruct (Z.eq_dec c 10) as [->|N10].
      * destruct k as [|k]; [lia|]. rewrite L_nl, R_nl. cbn [qfield]. change (10 =? 34) with false. cbv iota. destruct (IH more (acc ++ [10]) k ltac:(lia)) as [I1 I2].
        rewrite readLine_LR by (destruct (esc body); discriminate). split; intros m E; [rewrite (I1 m E)|rewrite (I2 m E)]; rewrite <- app_assoc; reflexivity.
      * assert (LE : L (c :: esc body ++ 34 :: more) = c :: L (esc body ++ 34 :: more)).
        { destruct (Z.eq_dec c 13) as [->|N13]; [|apply L_cons; assumption]. specialize (NC1 eq_refl). destruct body as [|d body]; [apply L_13; lia|]. rewrite esc_cons. destruct (d =? 34); [apply L_13; lia|apply L_13; exact NC1]. }
        rewrite LE, R_cons by exact N10. cbn [qfield]. destruct (Z.eqb_spec c 34); [contradiction|]. destruct (IH more (acc ++ [c]) k ltac:(lia)) as [I1 I2].
        split; intros m E; [rewrite (I1 m E)|rewrite (I2 m E)]; rewrite <- app_assoc; reflexivity.
Qed.
(* a field without quotes *)
Definition bare (comma : Z) (f : str) : Prop := Forall (fun c => c <> 10 /\ c <> 13 /\ c <> 34 /\ c <> comma) f.
Lemma bare_LR comma f T : bare comma f -> L (f ++ T) = f ++ L T /\ R (f ++ T) = R T.
Proof. intros F. induction F as [|c f (H1 & H2 & _) F [I1 I2]]; [auto|]. cbn [app]. rewrite L_cons, R_cons by assumption. rewrite I1, I2. auto. Qed.
Lemma ufield_next comma f l : bare comma f -> ufield comma (f ++ comma :: l) = (f, Some l).
Proof. intros F. induction F as [|c f (_ & _ & _ & H) F IH]; cbn [app ufield]; [rewrite Z.eqb_refl; reflexivity|]. destruct (Z.eqb_spec c comma); [contradiction|]. destruct (f ++ comma :: l) eqn:E; [destruct f; discriminate|]. rewrite IH. reflexivity. Qed.
Lemma ufield_end comma f : comma <> 10 -> bare comma f -> ufield comma (f ++ [10]) = (f, None).
Proof. intros C F. induction F as [|c f (_ & _ & _ & H) F IH]; cbn [app ufield]; [destruct (Z.eqb_spec 10 comma); [congruence|]; reflexivity|]. destruct (Z.eqb_spec c comma); [contradiction|]. destruct (f ++ [10]) eqn:E; [destruct f; discriminate|]. rewrite IH. reflexivity. Qed.
Lemma bare_noquote comma f : bare comma f -> existsb (Z.eqb 34) f = false.
Proof. intros F. induction F as [|c f (_ & _ & H & _) F IH]; [reflexivity|]. cbn [existsb]. rewrite IH. destruct (Z.eqb_spec 34 c); [congruence|reflexivity]. Qed.
Lemma noQuotes_bare comma us f : needsQuotes comma us f = false -> bare comma f.
Proof.
  destruct f as [|c f]; [constructor|]. unfold needsQuotes. intros H. apply orb_false_iff in H as [H _]. apply orb_false_iff in H as [H _]. apply orb_false_iff in H as [_ H].
  apply Forall_forall. intros x I. assert (E : (x =? 10) || (x =? 13) || (x =? 34) || (x =? comma) = false).
  { destruct ((x =? 10) || (x =? 13) || (x =? 34) || (x =? comma)) eqn:E; [|reflexivity]. assert (X : existsb (fun c => (c =? 10) || (c =? 13) || (c =? 34) || (c =? comma)) (c :: f) = true) by (apply existsb_exists; eauto). congruence. }
  apply orb_false_iff in E as [E E4]. apply orb_false_iff in E as [E E3]. apply orb_false_iff in E as [E1 E2]. apply Z.eqb_neq in E1, E2, E3, E4. auto.
Qed.
(* the fields of a record *)
Lemma recText_cons comma us f g rec : recText comma us (f :: g :: rec) = fieldText comma us f ++ comma :: recText comma us (g :: rec).
Proof. reflexivity. Qed.
Lemma fieldsOf_rec comma us : comma <> 10 -> comma <> 13 -> comma <> 34 -> forall rec tail k, rec <> [] -> Forall nocrlf rec -> (List.length rec <= k)%nat ->
  fieldsOf k comma (L (recText comma us rec ++ tail)) (R (recText comma us rec ++ tail)) = (Some rec, tail).
Proof.
  intros C1 C2 C3. induction rec as [|f rec IH]; intros tail k NE F HK; [congruence|]. inversion F as [|? ? NF F2]; subst. destruct k as [|k]; [cbn [List.length] in HK; lia|]. cbn [List.length] in HK.
  assert (SH : exists more, recText comma us (f :: rec) ++ tail = fieldText comma us f ++ more /\
    ((rec = [] /\ more = 10 :: tail) \/ (rec <> [] /\ more = comma :: recText comma us rec ++ tail))).
  { destruct rec as [|g rec]; [exists (10 :: tail)|exists (comma :: recText comma us (g :: rec) ++ tail)].
    - split; [cbn [recText]; rewrite <- app_assoc; reflexivity|auto].
    - split; [rewrite recText_cons, <- app_assoc; reflexivity|right; split; [discriminate|reflexivity]]. }
  destruct SH as (more & -> & CASE). unfold fieldText. destruct (needsQuotes comma us f) eqn:NQ.
  - cbn [app]. rewrite <- app_assoc. cbn [app]. rewrite L_cons, R_cons by lia. cbn [fieldsOf]. change (34 =? 34) with true. cbv iota. cbn [tl].
    set (T := esc f ++ 34 :: more). pose proof (len_LR T) as LT. assert (LE : (List.length T = List.length (esc f) + S (List.length more))%nat) by (unfold T; rewrite app_length; reflexivity).
    destruct (qfield_body comma C1 C2 C3 f NF more [] (2 * (List.length (L T) + List.length (R T)) + 2) ltac:(destruct CASE as [[_ ->]|[_ ->]]; cbn [List.length] in LE; lia)) as [Q1 Q2]. fold T in Q1, Q2.
    destruct CASE as [[-> E]|[N E]]; [rewrite (Q2 _ E); reflexivity|]. rewrite (Q1 _ E). rewrite (IH tail k N F2) by lia. reflexivity.
  - pose proof (noQuotes_bare _ _ _ NQ) as B. destruct (bare_LR comma f more B) as [-> ->]. cbn [fieldsOf].
    assert (NQ2 : (match f ++ L more with c :: _ => c =? 34 | [] => false end) = false).
    { destruct f as [|c f]; cbn [app]; [|inversion B as [|? ? (_ & _ & X & _) _]; subst; apply Z.eqb_neq; exact X]. destruct CASE as [[_ ->]|[_ ->]]; [reflexivity|rewrite L_cons by assumption; apply Z.eqb_neq; exact C3]. }
    rewrite NQ2. destruct CASE as [[-> ->]|[N ->]].
    + rewrite L_nl, R_nl, ufield_end by assumption. rewrite (bare_noquote comma f B). reflexivity.
    + rewrite L_cons, R_cons by assumption. rewrite ufield_next, (bare_noquote comma f B) by exact B. rewrite (IH tail k N F2) by lia. reflexivity.
Qed.
Lemma recText_len comma us rec : rec <> [] -> (List.length rec <= List.length (recText comma us rec))%nat.
Proof.
  induction rec as [|f rec IH]; [congruence|]. intros _. destruct rec as [|g rec]; [cbn [recText]; rewrite app_length; cbn [List.length]; lia|]. rewrite recText_cons, app_length. cbn [List.length] in *. specialize (IH ltac:(discriminate)). lia.
Qed.
(* records one after the other *)
Definition startOk (comment : option Z) (rec : list str) : Prop := match comment, rec with Some c, (d :: _) :: _ => d <> c | _, _ => True end.
Definition recOk (comment : option Z) (rec : list str) : Prop := rec <> [] /\ rec <> [[]] /\ Forall nocrlf rec /\ startOk comment rec.
Definition delims (comma : Z) (comment : option Z) : Prop := comma <> 10 /\ comma <> 13 /\ comma <> 34 /\ match comment with Some c => c <> comma /\ c <> 34 /\ c <> 10 /\ c <> 13 | None => True end.
Lemma recText_head comma us f rec : exists more, recText comma us (f :: rec) = fieldText comma us f ++ more.
Proof. destruct rec; eexists; reflexivity. Qed.
Lemma skip_rec comma comment us rec tail : delims comma comment -> recOk comment rec -> skipLine comment (L (recText comma us rec ++ tail)) = false.
Proof.
  intros (C1 & C2 & C3 & CC) (NE & NE1 & _ & ST). destruct rec as [|f rec]; [congruence|].
  assert (H : exists d T, recText comma us (f :: rec) ++ tail = d :: T /\ d <> 10 /\ d <> 13 /\ (match comment with Some c => d <> c | None => True end)).
  { destruct f as [|d f].
    - destruct rec as [|g rec]; [exfalso; apply NE1; reflexivity|]. exists comma. eexists. split; [reflexivity|]. split; [assumption|]. split; [assumption|]. destruct comment; [intuition congruence|exact I].
    - destruct (recText_head comma us (d :: f) rec) as (more & HM). destruct (needsQuotes comma us (d :: f)) eqn:NQ.
      + exists 34. eexists. split; [rewrite HM; unfold fieldText; rewrite NQ; cbn [app]; reflexivity|]. split; [lia|]. split; [lia|]. destruct comment; [intuition congruence|exact I].
      + pose proof (noQuotes_bare _ _ _ NQ) as B. inversion B as [|? ? (X1 & X2 & _) _]; subst. exists d. eexists. split; [rewrite HM; unfold fieldText; rewrite NQ; cbn [app]; reflexivity|]. split; [assumption|]. split; [assumption|]. destruct comment; [exact ST|exact I]. }
  destruct H as (d & T & -> & D1 & D2 & D3). rewrite L_cons by assumption. unfold skipLine.
  assert (X : (match comment with Some c => d =? c | None => false end) = false) by (destruct comment; [apply Z.eqb_neq; exact D3|reflexivity]).
  destruct comment; rewrite ?X; cbn [orb str_eqb]; destruct (Z.eqb_spec d 10); try contradiction; reflexivity.
Qed.
Lemma readRec_row comma comment us rec tail nf k : delims comma comment -> recOk comment rec -> nf = 0 \/ nf = zlen rec ->
  readRec (S k) comma comment (mkr (recText comma us rec ++ tail) nf) = (inl rec, mkr tail (zlen rec)).
Proof.
  intros D RK NF. cbn [readRec r_rest r_nf]. pose proof (skip_rec comma comment us rec tail D RK) as SK. destruct D as (C1 & C2 & C3 & CC). destruct RK as (NE & _ & F & _).
  set (T := recText comma us rec ++ tail) in *. pose proof (recText_len comma us rec NE) as RL. pose proof (len_LR T) as LT.
  assert (LE : (List.length rec <= List.length T)%nat) by (unfold T; rewrite app_length; lia).
  rewrite readLine_LR by (intros E; rewrite E in LE; destruct rec; [congruence|cbn in LE; lia]). rewrite SK.
  pose proof (fieldsOf_rec comma us C1 C2 C3 rec tail (S (List.length (L T) + List.length (R T))) NE F ltac:(lia)) as FE. fold T in FE. rewrite FE.
  destruct NF as [->| ->]; [reflexivity|]. destruct (Z.eqb_spec (zlen rec) 0) as [E|E]; [reflexivity|]. rewrite Z.eqb_refl. reflexivity.
Qed.
(* a comment line before *)
Definition commentLine (comment : option Z) (p : str) : Prop := p = [] \/ exists c q, comment = Some c /\ p = c :: q ++ [10] /\ ~ In 10 q.
Lemma line1_nonl q T : ~ In 10 q -> line1 (q ++ 10 :: T) = (q ++ [10], T).
Proof. intros N. induction q as [|c q IH]; [reflexivity|]. cbn [app]. rewrite line1_cons by (intros ->; apply N; left; reflexivity). rewrite IH by (intros I; apply N; right; exact I). reflexivity. Qed.
Lemma readRec_pre comma comment p T nf k : delims comma comment -> commentLine comment p -> p <> [] -> readRec (S k) comma comment (mkr (p ++ T) nf) = readRec k comma comment (mkr T nf).
Proof.
  intros (_ & _ & _ & CC) [->|(c & q & -> & -> & NI)] NP; [congruence|]. destruct CC as (_ & _ & C10 & C13). cbn [readRec r_rest r_nf]. rewrite readLine_LR by discriminate.
  assert (E : (c :: q ++ [10]) ++ T = (c :: q) ++ 10 :: T) by (cbn [app]; rewrite <- app_assoc; reflexivity). rewrite E.
  cbn [app]. rewrite L_cons, R_cons by assumption. unfold R. rewrite line1_nonl by exact NI. cbn [snd]. unfold skipLine. rewrite Z.eqb_refl. reflexivity.
Qed.
Inductive chain (comma : Z) (comment : option Z) : reader -> list (list str) -> reader -> Prop :=
| chain_nil rd : chain comma comment rd [] rd
| chain_cons rd rec rd1 recs rd2 : read comma comment rd = (inl rec, rd1) -> chain comma comment rd1 recs rd2 -> chain comma comment rd (rec :: recs) rd2.
Definition tableText (comma : Z) (us : str -> bool) (recs : list (list str)) : str := List.concat (map (recText comma us) recs).
Lemma chain_table comma comment us n : delims comma comment -> forall recs nf, Forall (fun rec => recOk comment rec /\ zlen rec = n) recs -> nf = 0 \/ nf = n -> forall tail, exists nf', chain comma comment (mkr (tableText comma us recs ++ tail) nf) recs (mkr tail nf').
Proof.
  intros D recs. induction recs as [|rec recs IH]; intros nf F NF tail; [exists nf; constructor|]. inversion F as [|? ? [RK Z0] F2]; subst. destruct (IH (zlen rec) F2 (or_intror eq_refl) tail) as (nf' & C). exists nf'.
  eapply chain_cons; [|exact C]. unfold tableText. cbn [map List.concat]. rewrite <- app_assoc. unfold read. apply readRec_row; assumption.
Qed.
Lemma chain_pre comma comment us n p recs tail : delims comma comment -> commentLine comment p -> recs <> [] -> Forall (fun rec => recOk comment rec /\ zlen rec = n) recs ->
  exists nf', chain comma comment (mkr (p ++ tableText comma us recs ++ tail) 0) recs (mkr tail nf').
Proof.
  intros D P NE F. destruct p as [|c q]; [cbn [app]; eapply chain_table; eauto|]. destruct recs as [|rec recs]; [congruence|]. inversion F as [|? ? [RK Z0] F2]; subst.
  destruct (chain_table comma comment us (zlen rec) D recs (zlen rec) F2 (or_intror eq_refl) tail) as (nf' & C). exists nf'. eapply chain_cons; [|exact C]. unfold read. cbn [r_rest].
  rewrite readRec_pre by (assumption || discriminate). unfold tableText. cbn [map List.concat]. rewrite <- app_assoc. cbn [List.length app]. apply readRec_row; auto.
Qed.
Lemma chain_split comma comment rd a b rd' : chain comma comment rd (a ++ b) rd' -> exists rd1, chain comma comment rd a rd1 /\ chain comma comment rd1 b rd'.
Proof.
  revert rd. induction a as [|x a IH]; intros rd C; [exists rd; split; [constructor|exact C]|]. cbn [app] in C. inversion C as [|? ? ? ? ? E C2]; subst. destruct (IH _ C2) as (rdx & A & B). exists rdx. split; [econstructor; eauto|exact B].
Qed.
Lemma skip_chain comma comment rd recs rd' : chain comma comment rd recs rd' -> skip comma comment (List.length recs) rd = Some rd'.
Proof. intros C. induction C as [|rd rec rd1 recs rd2 E C IH]; [reflexivity|]. cbn [List.length skip]. rewrite E. exact IH. Qed.
(* the loop over the rows *)
Definition scans (dst : list value) (rec : list str) (row : list value) : Prop := scanAll rec dst = Some row.
Lemma readAll_n comma comment rd recs rd' : chain comma comment rd recs rd' -> forall dst rows i n cur last fuel, dst <> [] -> Forall2 (scans dst) recs rows -> n - i = zlen recs -> (List.length recs < fuel)%nat ->
  exists o, readAll fuel comma comment (mkrows rd i n cur last false ENil) dst = (rows, o) /\ o_err o = ENil /\ o_closed o = true /\ o_rd o = rd'.
Proof.
  intros C. induction C as [rd|rd rec rd1 recs rd2 E C IH]; intros dst rows i n cur last fuel ND F2 HN HF; (destruct fuel as [|fuel]; [cbn [List.length] in HF; lia|]); inversion F2 as [|? row ? rows' S F3]; subst; cbn [readAll]; unfold next; cbn [o_closed o_err o_i o_n o_rd o_cur o_rec].
  - change (zlen (@nil (list str))) with 0 in HN. destruct (Z.ltb_spec i n); [lia|]. eexists. split; [reflexivity|]. auto.
  - rewrite zlen_cons in HN. pose proof (zlen_nonneg recs). destruct (Z.ltb_spec i n); [|lia]. rewrite E. cbv iota beta. unfold scan. cbn [o_closed o_err o_i o_n o_rd o_cur o_rec]. destruct dst as [|d dst]; [congruence|]. rewrite S.
    cbn [List.length] in HF. destruct (IH (d :: dst) rows' (i + 1) n (cur + 1) rec fuel ND F3 ltac:(lia) ltac:(lia)) as (o & -> & H1 & H2 & H3). eexists. split; [reflexivity|]. auto.
Qed.
Lemma readAll_eof comma comment rd recs rd' : chain comma comment rd recs rd' -> (exists q, read comma comment rd' = (inr EEOF, q)) -> forall dst rows i n cur last fuel, dst <> [] -> Forall2 (scans dst) recs rows -> zlen recs < n - i -> (List.length recs < fuel)%nat ->
  exists o, readAll fuel comma comment (mkrows rd i n cur last false ENil) dst = (rows, o) /\ o_err o = EEOF.
Proof.
  intros C. induction C as [rd|rd rec rd1 recs rd2 E C IH]; intros Q dst rows i n cur last fuel ND F2 HN HF; (destruct fuel as [|fuel]; [cbn [List.length] in HF; lia|]); inversion F2 as [|? row ? rows' S F3]; subst; cbn [readAll]; unfold next; cbn [o_closed o_err o_i o_n o_rd o_cur o_rec].
  - change (zlen (@nil (list str))) with 0 in HN. destruct (Z.ltb_spec i n); [|lia]. destruct Q as (q & ->). eexists. split; [reflexivity|]. reflexivity.
  - rewrite zlen_cons in HN. pose proof (zlen_nonneg recs). destruct (Z.ltb_spec i n); [|lia]. rewrite E. cbv iota beta. unfold scan. cbn [o_closed o_err o_i o_n o_rd o_cur o_rec]. destruct dst as [|d dst]; [congruence|]. rewrite S.
    cbn [List.length] in HF. destruct (IH Q (d :: dst) rows' (i + 1) n (cur + 1) rec fuel ND F3 ltac:(lia) ltac:(lia)) as (o & -> & H1). eexists. split; [reflexivity|]. auto.
Qed.

(* values *)
(* a destination of the same kind *)
Definition kind (v d : value) : Prop :=
  match v, d with
  | VBool _, VBool _ | VFloat _, VFloat _ | VStr _, VStr _ => True
  | VInt b _, VInt b' _ | VUint b _, VUint b' _ => b = b'
  | _, _ => False
  end.
(* a value a column can hold: integers in the range of their type, text in which no carriage return is followed by a newline *)
Definition holds (v : value) : Prop :=
  match v with
  | VBool _ | VFloat _ => True
  | VInt b n => 1 <= b <= 64 /\ - 2 ^ (b - 1) <= n < 2 ^ (b - 1)
  | VUint b n => 1 <= b <= 64 /\ 0 <= n < 2 ^ b
  | VStr s => nocrlf s
  | VSlice _ => False
  end.
(* the text of a floating point number reads back as that number, and is on one line *)
Definition exactText (fmtG : f64 -> str) : Prop := forall x, parse_float (fmtG x) = Some x /\ nocrlf (fmtG x).
Lemma nocrlf_no13 s : ~ In 13 s -> nocrlf s.
Proof. induction s as [|c s IH]; [intros; exact I|]. intros H. split; [intros ->; exfalso; apply H; left; reflexivity|apply IH; intros X; apply H; right; exact X]. Qed.
Lemma udec_nocr n : 0 <= n -> ~ In 13 (udec n).
Proof. intros H X. apply udec_digits in X; lia. Qed.
Lemma itoa_nocr n : ~ In 13 (itoa n).
Proof. unfold itoa. destruct (Z.ltb_spec n 0); intros X; [destruct X as [X|X]; [lia|]|]; revert X; apply udec_nocr; lia. Qed.
Lemma format_nocrlf fmtG v : exactText fmtG -> holds v -> nocrlf (formatValue fmtG false v).
Proof.
  intros G H. destruct v as [b|b n|b n|x|s|l]; cbn [formatValue holds] in *.
  - destruct b; apply nocrlf_no13; cbn; intuition discriminate.
  - apply nocrlf_no13, itoa_nocr.
  - apply nocrlf_no13, udec_nocr; lia.
  - apply G.
  - exact H.
  - contradiction.
Qed.
Lemma scan1_format fmtG v d : exactText fmtG -> holds v -> kind v d -> scan1 (formatValue fmtG false v) d = Some v.
Proof.
  intros G H K. destruct v as [b|b n|b n|x|s|l], d as [b'|b' n'|b' n'|x'|s'|l']; cbn [kind] in K; try contradiction; cbn [formatValue scan1 holds] in *.
  - destruct b; reflexivity.
  - subst b'. unfold parseInt. assert (2 ^ (b - 1) <= 2 ^ 63) by (apply Z.pow_le_mono_r; lia). rewrite atoi_itoa by lia.
    destruct (Z.leb_spec (- 2 ^ (b - 1)) n); [|lia]. destruct (Z.ltb_spec n (2 ^ (b - 1))); [reflexivity|lia].
  - subst b'. unfold parseUint. rewrite udec_parse by lia. destruct (Z.ltb_spec n (2 ^ b)); [reflexivity|lia].
  - rewrite (proj1 (G x)). reflexivity.
  - reflexivity.
Qed.
Lemma scanAll_format fmtG row dst : exactText fmtG -> Forall holds row -> Forall2 kind row dst -> scanAll (map (formatValue fmtG false) row) dst = Some row.
Proof.
  intros G H F. induction F as [|v d row dst K F IH]; [reflexivity|]. inversion H; subst. cbn [map scanAll]. rewrite scan1_format, IH by assumption. reflexivity.
Qed.
(* writing *)
Lemma written_rows fmtG comma us cut rows w : Forall (fun r => r <> []) rows ->
  let w' := fold_left (wstep fmtG comma us cut) (map Row rows) w in
  w_file w' ++ w_buf w' = w_file w ++ w_buf w ++ tableText comma us (map (map (formatValue fmtG false)) rows).
Proof.
  intros F. revert w. induction F as [|r rows NE F IH]; intros w; [cbn; rewrite app_nil_r; reflexivity|]. cbn [map fold_left]. cbv zeta in IH |- *. rewrite IH. destruct r as [|v r]; [congruence|].
  cbn [wstep w_file w_buf]. unfold tableText. cbn [map List.concat]. unfold rowText. cbn [map]. set (t := recText _ _ _). set (x := w_buf w ++ t). rewrite <- app_assoc. rewrite (app_assoc (firstn _ x)), firstn_skipn. unfold x. rewrite <- app_assoc. reflexivity.
Qed.
(* the header: none, or one line that begins with the comment character *)
Definition headerOk (comment : option Z) (hdr : list wop) : Prop :=
  hdr = [] \/ exists c q, comment = Some c /\ ~ In 10 q /\ (hdr = [Header (c :: q)] \/ hdr = [Header (c :: q ++ [10])]).
Lemma last_snoc (q : str) d : last (q ++ [d]) 0 = d.
Proof. apply last_last. Qed.
Lemma last_in (c : Z) q : last (c :: q) 0 = c \/ In (last (c :: q) 0) q.
Proof. revert c. induction q as [|d q IH]; intros c; [left; reflexivity|]. right. change (last (c :: d :: q) 0) with (last (d :: q) 0). destruct (IH d) as [E|E]; [rewrite E; left; reflexivity|right; exact E]. Qed.
Lemma header_line comma comment hdr : delims comma comment -> headerOk comment hdr -> exists p, commentLine comment p /\ forall fmtG us cut, fold_left (wstep fmtG comma us cut) hdr (mkw [] []) = mkw p [].
Proof.
  intros (_ & _ & _ & CC) [->|(c & q & -> & NI & H)]; [exists []; split; [left; reflexivity|reflexivity]|]. destruct CC as (_ & _ & C10 & _).
  exists (c :: q ++ [10]). split; [right; exists c, q; auto|]. intros fmtG us cut. destruct H as [->| ->]; cbn [fold_left wstep w_file w_buf app]; unfold headerLine.
  - destruct (Z.eqb_spec (last (c :: q) 0) 10) as [E|E]; [|reflexivity]. exfalso. destruct (last_in c q) as [X|X]; [congruence|]. rewrite E in X. contradiction.
  - rewrite (app_comm_cons q [10] c), last_snoc. reflexivity.
Qed.
Definition rowFits (fmtG : f64 -> str) (comment : option Z) (dst row : list value) : Prop :=
  Forall holds row /\ Forall2 kind row dst /\ row <> [VStr []] /\
  match comment, row with Some c, v :: _ => hd_error (formatValue fmtG false v) <> Some c | _, _ => True end.
Lemma format_ne fmtG v : exactText fmtG -> holds v -> formatValue fmtG false v = [] -> v = VStr [].
Proof.
  intros G H E. destruct v as [b|b n|b n|x|s|l]; cbn [formatValue holds] in *; try contradiction.
  - destruct b; discriminate.
  - unfold itoa in E. destruct (n <? 0); [discriminate|]. apply udec_nonempty in E. contradiction.
  - apply udec_nonempty in E. contradiction.
  - exfalso. destruct (G x) as [P _]. rewrite E in P. discriminate.
  - subst. reflexivity.
Qed.
Lemma fits_rec fmtG comment dst row : exactText fmtG -> dst <> [] -> rowFits fmtG comment dst row -> recOk comment (map (formatValue fmtG false) row) /\ zlen (map (formatValue fmtG false) row) = zlen dst.
Proof.
  intros G ND (H & K & N1 & ST). split; [|unfold zlen; rewrite map_length; f_equal; clear - K; induction K; cbn [List.length]; [reflexivity|lia]].
  destruct row as [|v row]; [inversion K; subst; congruence|]. inversion H as [|? ? Hv Hr]; subst. cbn [map]. split; [discriminate|]. split; [|split].
  - intros E. injection E as E1 E2. destruct row; [|discriminate]. apply N1. f_equal. eapply format_ne; eauto.
  - change (formatValue fmtG false v :: map (formatValue fmtG false) row) with (map (formatValue fmtG false) (v :: row)). apply Forall_map. eapply Forall_impl; [|exact H]. intros a Ha. apply format_nocrlf; assumption.
  - unfold startOk. destruct comment as [c|]; [|exact I]. destruct (formatValue fmtG false v); [exact I|]. cbn [hd_error] in ST. congruence.
Qed.
Lemma read_eof comma comment p nf : delims comma comment -> commentLine comment p -> exists q, read comma comment (mkr p nf) = (inr EEOF, q).
Proof.
  intros D P. destruct p as [|c p]; [eexists; reflexivity|]. unfold read. cbn [r_rest]. pose proof (readRec_pre comma comment (c :: p) [] nf (List.length (c :: p)) D P ltac:(discriminate)) as E. rewrite app_nil_r in E. rewrite E. cbn [List.length readRec r_rest readLine]. eexists. reflexivity.
Qed.
Lemma table_chain fmtG comma comment us cut hdr rows dst : exactText fmtG -> delims comma comment -> headerOk comment hdr -> dst <> [] -> Forall (rowFits fmtG comment dst) rows ->
  exists rd, chain comma comment (mkr (written fmtG comma us cut (hdr ++ map Row rows)) 0) (map (map (formatValue fmtG false)) rows) rd /\ (exists q, read comma comment rd = (inr EEOF, q)) /\
    Forall2 (scans dst) (map (map (formatValue fmtG false)) rows) rows.
Proof.
  intros G D HO ND F. destruct (header_line comma comment hdr D HO) as (p & P & HF). unfold written. rewrite fold_left_app, HF.
  assert (NE : Forall (fun r : list value => r <> []) rows). { eapply Forall_impl; [|exact F]. intros r (_ & K & _). intros ->. inversion K. congruence. }
  pose proof (written_rows fmtG comma us cut rows (mkw p []) NE) as W. cbv zeta in W |- *. rewrite W. cbn [w_file w_buf app].
  assert (FO : Forall (fun rec => recOk comment rec /\ zlen rec = zlen dst) (map (map (formatValue fmtG false)) rows)). { apply Forall_map. eapply Forall_impl; [|exact F]. intros r Hr. apply fits_rec; assumption. }
  assert (SC : Forall2 (scans dst) (map (map (formatValue fmtG false)) rows) rows). { clear - G F. induction F as [|r rows (H & K & _) F IH]; [constructor|]. cbn [map]. constructor; [apply scanAll_format; assumption|exact IH]. }
  destruct rows as [|r rows].
  - cbn [map]. unfold tableText. cbn [map List.concat]. rewrite app_nil_r. eexists. split; [constructor|]. split; [apply read_eof; assumption|exact SC].
  - destruct (chain_pre comma comment us (zlen dst) p (map (map (formatValue fmtG false)) (r :: rows)) [] D P ltac:(discriminate) FO) as (nf' & C). rewrite app_nil_r in C.
    eexists. split; [exact C|]. split; [apply read_eof; [exact D|left; reflexivity]|exact SC].
Qed.
