(* Proofs about LhefModel.v *)
From Coq Require Import ZArith List Lia Bool String.
From Flocq Require Import IEEE754.BinarySingleNaN.
From Verif Require Import Bytes GoLib GoStrings F64 FloatText FloatDigits ScanfModel ScanfProofs LhefModel LhefFloat.
Import ListNotations.
Local Open Scope Z_scope.

(* ---- characters ---- *)
Definition okc (c : Z) : Prop := plain c = true /\ c <> 60.
Lemma okc_dig c : dig c -> okc c.
Proof. unfold dig, okc, plain. intros H. split; [|lia]. destruct (Z.leb_spec 32 c); [|lia]. destruct (Z.leb_spec c 126); [|lia]. destruct (Z.eqb_spec c 38); [lia|]. destruct (Z.eqb_spec c 93); [lia|]. reflexivity. Qed.
Lemma okc_digs l : Forall dig l -> Forall okc l.
Proof. apply Forall_impl. exact okc_dig. Qed.
Ltac okl := repeat (first [apply Forall_nil | apply Forall_cons; [split; [reflexivity|discriminate]|]]).
Lemma okc_numeral t : numeral t -> Forall okc t.
Proof.
  intros N. destruct N as [sg ds fr ex SG NE FD FR EX]. apply Forall_app. split; [destruct SG as [->|[->| ->]]; okl|]. apply Forall_app. split; [apply okc_digs; exact FD|]. apply Forall_app. split.
  - destruct FR as [->|(fs & -> & F)]; [constructor|]. constructor; [split; [reflexivity|discriminate]|apply okc_digs; exact F].
  - destruct EX as [->|(e & s & es & -> & HE & HS & F)]; [constructor|]. constructor; [destruct HE as [->| ->]; split; [reflexivity|discriminate|reflexivity|discriminate]|]. constructor; [destruct HS as [->| ->]; split; [reflexivity|discriminate|reflexivity|discriminate]|apply okc_digs; exact F].
Qed.
Lemma okc_E D x : 1 <= D -> Forall okc (fmt_E D x).
Proof.
  intros HD. pose proof (numeral_fin D x HD) as N. destruct x as [s|s| |s m e H]; try (apply okc_numeral; exact N); [destruct s|]; vm_compute; okl.
Qed.
Lemma okc_itoa n : Forall okc (itoa n).
Proof. destruct (itoa_shape n) as (sg & ds & -> & SG & _ & F). apply Forall_app. split; [destruct SG as [->| ->]; okl|apply okc_digs; exact F]. Qed.
Lemma okc_pad w t : Forall okc t -> Forall okc (32 :: padl w t).
Proof. intros F. constructor; [split; [reflexivity|discriminate]|]. apply Forall_app. split; [|exact F]. apply Forall_forall. intros c I. apply repeat_spec in I. subst. split; [reflexivity|discriminate]. Qed.
Lemma okc_fD w n : Forall okc (fD w n).
Proof. apply okc_pad, okc_itoa. Qed.
Lemma okc_fE6 x : Forall okc (fE6 x).
Proof. apply okc_pad, okc_E. lia. Qed.
Lemma okc_fE10 x : Forall okc (fE10 x).
Proof. apply okc_pad, okc_E. lia. Qed.
Lemma okc_fF x : small x -> Forall okc (fF x).
Proof. intros S. constructor; [split; [reflexivity|discriminate]|]. apply okc_numeral, f0_numeral, S. Qed.

(* ---- tokens ---- *)
Lemma tok_text t r st : t <> [] -> Forall okc t -> xtoken st (t ++ 60 :: r) = XTok (TChar t) st (60 :: r).
Proof.
  intros NE F. assert (A : accepts (fun c => plain c && negb (c =? 60)) (t ++ 60 :: r) = (t, 60 :: r)).
  { apply accepts_app; [|reflexivity]. eapply Forall_impl; [|exact F]. intros c [H1 H2]. rewrite H1. destruct (Z.eqb_spec c 60); [contradiction|reflexivity]. }
  destruct t as [|c t]; [congruence|]. inversion F as [|? ? [H1 H2] _]; subst. unfold xtoken. cbn [app] in *. destruct (Z.eqb_spec c 60); [contradiction|]. rewrite A. reflexivity.
Qed.
Lemma tok_end t st : t <> [] -> Forall okc t -> xtoken st t = XTok (TChar t) st [].
Proof.
  intros NE F. assert (A : accepts (fun c => plain c && negb (c =? 60)) (t ++ []) = (t, [])).
  { apply accepts_app; [|exact I]. eapply Forall_impl; [|exact F]. intros c [H1 H2]. rewrite H1. destruct (Z.eqb_spec c 60); [contradiction|reflexivity]. }
  rewrite app_nil_r in A. destruct t as [|c t]; [congruence|]. inversion F as [|? ? [H1 H2] _]; subst. unfold xtoken. destruct (Z.eqb_spec c 60); [contradiction|]. rewrite A. reflexivity.
Qed.
(* a walk over tokens that are not wanted *)
Inductive walk (start : bool) (name : str) : dst -> dst -> Prop :=
| walk_here d : walk start name d d
| walk_step st s t st' r d : xtoken st s = XTok t st' r -> wanted start name t = false -> (List.length r < List.length s)%nat -> walk start name (mkdst st' r) d -> walk start name (mkdst st s) d.
Lemma seek_walk start name d d' : walk start name d d' -> forall k, (List.length (d_rest d) < k)%nat -> exists k', (List.length (d_rest d') < k')%nat /\ seekTok k start name d = seekTok k' start name d'.
Proof.
  intros W. induction W as [d|st s t st' r d T N L W IH]; intros k H; [exists k; auto|]. destruct k as [|k]; [lia|]. cbn [seekTok d_stack d_rest] in *. rewrite T, N. apply IH. cbn [d_rest]. lia.
Qed.
Lemma seek_got start name d st s t st' r : walk start name d (mkdst st s) -> xtoken st s = XTok t st' r -> wanted start name t = true -> seek start name d = Got tt (mkdst st' r).
Proof.
  intros W T N. destruct (seek_walk _ _ _ _ W (S (List.length (d_rest d))) ltac:(lia)) as (k & L & E). unfold seek. rewrite E. destruct k as [|k]; [cbn in L; lia|]. cbn [seekTok d_stack d_rest]. rewrite T, N. reflexivity.
Qed.
Lemma seek_eof start name d st s : walk start name d (mkdst st s) -> xtoken st s = XEOF -> seek start name d = EndOfFile.
Proof.
  intros W T. destruct (seek_walk _ _ _ _ W (S (List.length (d_rest d))) ltac:(lia)) as (k & L & E). unfold seek. rewrite E. destruct k as [|k]; [cbn in L; lia|]. cbn [seekTok d_stack d_rest]. rewrite T. reflexivity.
Qed.
Lemma seek_err start name d st s : walk start name d (mkdst st s) -> xtoken st s = XErr -> seek start name d = Failed.
Proof.
  intros W T. destruct (seek_walk _ _ _ _ W (S (List.length (d_rest d))) ltac:(lia)) as (k & L & E). unfold seek. rewrite E. destruct k as [|k]; [cbn in L; lia|]. cbn [seekTok d_stack d_rest]. rewrite T. reflexivity.
Qed.
(* the tags of the files *)
Definition LHE : str := bs "LesHouchesEvents".
Lemma tok_root r : xtoken [] (bs "<LesHouchesEvents version=" ++ quote ++ bs "1.0" ++ quote ++ bs ">" ++ r) = XTok (TStart LHE [(bs "version", bs "1.0")]) [LHE] r.
Proof. reflexivity. Qed.
Lemma tok_init st r : xtoken st (bs "<init>" ++ r) = XTok (TStart (bs "init") []) (bs "init" :: st) r.
Proof. reflexivity. Qed.
Lemma tok_init_end st r : xtoken (bs "init" :: st) (bs "</init>" ++ r) = XTok (TEnd (bs "init")) st r.
Proof. reflexivity. Qed.
Lemma tok_header st r : xtoken st (bs "<header>" ++ r) = XTok (TStart (bs "header") []) (bs "header" :: st) r.
Proof. reflexivity. Qed.
Lemma tok_header_end st r : xtoken (bs "header" :: st) (bs "</header>" ++ r) = XTok (TEnd (bs "header")) st r.
Proof. reflexivity. Qed.
Lemma tok_event st r : xtoken st (bs "<event>" ++ r) = XTok (TStart (bs "event") []) (bs "event" :: st) r.
Proof. reflexivity. Qed.
Lemma tok_event_end st r : xtoken (bs "event" :: st) (bs "</event>" ++ r) = XTok (TEnd (bs "event")) st r.
Proof. reflexivity. Qed.
Lemma tok_root_end r : xtoken [LHE] (bs "</LesHouchesEvents>" ++ r) = XTok (TEnd LHE) [] r.
Proof. reflexivity. Qed.
(* ---- fields ---- *)
Definition fields (l : list fld) : str := ftexts l ++ [10].
Lemma fscanf_line f l r : Forall fld_ok (f :: l) -> fscanf (map fverb (f :: l)) (fields (f :: l) ++ r) = Some (map fval (f :: l), r).
Proof.
  intros F. destruct f as [[[v n] t] x]. assert (F2 : Forall fld_ok ((v, S n, t, x) :: l)) by (inversion F; subst; constructor; auto).
  pose proof (fscanf_fields (v, S n, t, x) l r F2) as E. cbn [map fverb fval] in *. rewrite <- E. unfold fields, ftexts. cbn [map List.concat ftext]. cbn [sps repeat app]. rewrite <- !app_assoc. reflexivity.
Qed.
Definition FD (bits : Z) (w : nat) (n : Z) : fld := (PD bits, (w - List.length (itoa n))%nat, itoa n, SI n).
Definition FE (D : Z) (w : nat) (x : f64) : fld := (PF, (w - List.length (fmt_E D x))%nat, fmt_E D x, SF (rdE D x)).
Definition FF (x : f64) : fld := (PF, O, fmt_f0 x ++ [46], SF (rd0 x)).
Lemma FD_ok bits w n : bits <= 64 -> inb bits n -> fld_ok (FD bits w n).
Proof. intros A B. apply int_readable; assumption. Qed.
Lemma FE_ok D w x : 1 <= D <= 15 -> mid x -> fld_ok (FE D w x).
Proof. intros A B. apply float_readable; assumption. Qed.
Lemma FF_ok x : small x -> fld_ok (FF x).
Proof. apply f0_readable. Qed.

(* ---- the run ---- *)
Record proc := mkproc { c_xs : f64; c_err : f64; c_max : f64; c_id : Z }.
Definition runOf (b : Z * Z) (e : f64 * f64) (g s : Z * Z) (w : Z) (l : list proc) (nv : Z) : run :=
  mkrun b e g s w (zlen l) (map c_xs l) (map c_err l) (map c_max l) (map c_id l) nv.
Definition procText (p : proc) : str := fE6 (c_xs p) ++ fE6 (c_err p) ++ fE6 (c_max p) ++ fD 5 (c_id p) ++ [10].
Definition proc_ok (p : proc) : Prop := mid (c_xs p) /\ mid (c_err p) /\ mid (c_max p) /\ inb 32 (c_id p).
Definition r7 (x : f64) : f64 := rdE 7 x.
Definition r11 (x : f64) : f64 := rdE 11 x.
Definition rdProc (p : proc) : proc := mkproc (r7 (c_xs p)) (r7 (c_err p)) (r7 (c_max p)) (c_id p).
Lemma procLines_at b e g s w nv pre l : procLines (runOf b e g s w (pre ++ l) nv) (List.length pre) (List.length l) = Ok (List.concat (map procText l)).
Proof.
  revert pre. induction l as [|p l IH]; intros pre; [reflexivity|]. cbn [List.length procLines runOf xsecup xerrup xmaxup lprup].
  assert (NT : forall {B} (f : proc -> B), nth_error (map f (pre ++ p :: l)) (List.length pre) = Some (f p)).
  { intros B f. rewrite map_app, nth_error_app2 by (rewrite map_length; lia). rewrite map_length, Nat.sub_diag. reflexivity. }
  rewrite !NT. specialize (IH (pre ++ [p])). rewrite app_length in IH. cbn [List.length] in IH. rewrite Nat.add_1_r, <- app_assoc in IH. cbn [app] in IH. rewrite IH. cbn [map List.concat]. unfold procText. rewrite <- !app_assoc. reflexivity.
Qed.
Definition procFields (p : proc) : list fld := [FE 7 13 (c_xs p); FE 7 13 (c_err p); FE 7 13 (c_max p); FD 32 5 (c_id p)].
Lemma procText_fields p : procText p = fields (procFields p).
Proof. unfold procText, fields, ftexts, procFields. cbn [map List.concat ftext FE FD]. rewrite <- ?app_assoc. reflexivity. Qed.
Lemma scanProcs_at l r : Forall proc_ok l -> scanProcs (List.length l) (List.concat (map procText l) ++ r) = Some (map (fun p => (r7 (c_xs p), r7 (c_err p), r7 (c_max p), c_id p)) l).
Proof.
  intros F. induction F as [|p l H F IH]; [reflexivity|]. cbn [List.length scanProcs map List.concat]. rewrite <- app_assoc, procText_fields. destruct H as (H1 & H2 & H3 & H4).
  change procFmt with (map fverb (procFields p)). unfold procFields. rewrite fscanf_line.
  - cbn [map fval FE FD]. rewrite IH. reflexivity.
  - repeat (constructor; [first [apply FE_ok; [lia|assumption]|apply FD_ok; [lia|assumption]]|]). constructor.
Qed.
Lemma okc_proc p : Forall okc (procText p).
Proof. unfold procText. repeat (apply Forall_app; split; [first [apply okc_fE6|apply okc_fD]|]). okl. Qed.
Lemma okc_concat {A} (f : A -> str) l : (forall x, In x l -> Forall okc (f x)) -> Forall okc (List.concat (map f l)).
Proof. intros H. induction l as [|x l IH]; [constructor|]. cbn [map List.concat]. apply Forall_app. split; [apply H; left; reflexivity|apply IH; intros; apply H; right; assumption]. Qed.
Lemma okc_initLine r : Forall okc (initLine r).
Proof. unfold initLine. repeat (apply Forall_app; split; [first [apply okc_fE6|apply okc_fD]|]). okl. Qed.
Definition run_ok (b : Z * Z) (e : f64 * f64) (g s : Z * Z) (w : Z) (l : list proc) : Prop :=
  inb 64 (fst b) /\ inb 64 (snd b) /\ mid (fst e) /\ mid (snd e) /\ inb 32 (fst g) /\ inb 32 (snd g) /\ inb 32 (fst s) /\ inb 32 (snd s) /\ inb 32 w /\ zlen l < 2 ^ 31 /\ Forall proc_ok l.
Lemma scanRun_ok b e g s w l nv r : run_ok b e g s w l -> scanRun ([10] ++ initLine (runOf b e g s w l nv) ++ List.concat (map procText l) ++ r) =
  Some (runOf b (r7 (fst e), r7 (snd e)) g s w (map rdProc l) 0).
Proof.
  intros (H1 & H2 & H3 & H4 & H5 & H6 & H7 & H8 & H9 & H10 & F). destruct b as [b0 b1], e as [e0 e1], g as [g0 g1], s as [s0 s1]. cbn [fst snd] in *.
  unfold scanRun. change (newline ([10] ++ ?x)) with (Some x).
  set (fl := [FD 64 7 b0; FD 64 7 b1; FE 7 13 e0; FE 7 13 e1; FD 32 5 g0; FD 32 5 g1; FD 32 5 s0; FD 32 5 s1; FD 32 5 w; FD 32 5 (zlen l)]).
  assert (E : initLine (runOf (b0, b1) (e0, e1) (g0, g1) (s0, s1) w l nv) = fields fl).
  { unfold initLine, fields, ftexts, fl. cbn [map List.concat ftext FE FD runOf idbmup ebmup pdfgup pdfsup idwtup nprup fst snd]. rewrite <- ?app_assoc. reflexivity. }
  pose proof (zlen_nonneg l) as NN. rewrite E. change initFmt with (map fverb fl). unfold fl. rewrite fscanf_line.
  - cbn [map fval FE FD]. destruct (Z.ltb_spec (zlen l) 0); [lia|]. replace (Z.to_nat (zlen l)) with (List.length l) by (unfold zlen; rewrite Nat2Z.id; reflexivity). rewrite scanProcs_at by exact F.
    unfold runOf. rewrite !map_map. replace (zlen (map rdProc l)) with (zlen l) by (unfold zlen; rewrite map_length; reflexivity). reflexivity.
  - assert (inb 32 (zlen l)) by (unfold inb; cbn; lia). repeat (constructor; [first [apply FE_ok; [lia|assumption]|apply FD_ok; [lia|assumption]]|]). constructor.
Qed.
(* ---- events ---- *)
Definition evtOf (id : Z) (a b c d : f64) (l : list part) : evt :=
  mkevt (zlen l) id a b c d (map g_id l) (map g_st l) (map g_mo l) (map g_co l) (map g_p l) (map g_vt l) (map g_sp l) 0 0 0.
Definition partText (p : part) : str := partLine (g_id p) (g_st p) (g_mo p) (g_co p) (g_p p) (g_vt p) (g_sp p).
Definition mid5 (p : p5) : Prop := let '(a, b, c, d, e) := p in mid a /\ mid b /\ mid c /\ mid d /\ mid e.
Definition rd5 (p : p5) : p5 := let '(a, b, c, d, e) := p in (r11 a, r11 b, r11 c, r11 d, r11 e).
Definition rdPart (p : part) : part := mkpt (g_id p) (g_st p) (g_mo p) (g_co p) (rd5 (g_p p)) (rd0 (g_vt p)) (rd0 (g_sp p)).
Definition part_ok (p : part) : Prop := inb 64 (g_id p) /\ inb 32 (g_st p) /\ inb 32 (fst (g_mo p)) /\ inb 32 (snd (g_mo p)) /\ inb 32 (fst (g_co p)) /\ inb 32 (snd (g_co p)) /\ mid5 (g_p p) /\ small (g_vt p) /\ small (g_sp p).
Lemma partLines_at id a b c d pre l : partLines (evtOf id a b c d (pre ++ l)) (List.length pre) (List.length l) = Ok (List.concat (map partText l)).
Proof.
  revert pre. induction l as [|p l IH]; intros pre; [reflexivity|]. cbn [List.length partLines evtOf idup istup mothup icolup pup vtimup spinup].
  assert (NT : forall {B} (f : part -> B), nth_error (map f (pre ++ p :: l)) (List.length pre) = Some (f p)).
  { intros B f. rewrite map_app, nth_error_app2 by (rewrite map_length; lia). rewrite map_length, Nat.sub_diag. reflexivity. }
  rewrite !NT. specialize (IH (pre ++ [p])). rewrite app_length in IH. cbn [List.length] in IH. rewrite Nat.add_1_r, <- app_assoc in IH. cbn [app] in IH. rewrite IH. reflexivity.
Qed.
Lemma okc_part p : part_ok p -> Forall okc (partText p).
Proof.
  intros (_ & _ & _ & _ & _ & _ & _ & S1 & S2). unfold partText, partLine. destruct (g_p p) as [[[[p0 p1] p2] p3] p4]. repeat (apply Forall_app; split; [first [apply okc_fE10|apply okc_fD|apply okc_fF; assumption]|]). okl.
Qed.
Lemma scan_part p r : part_ok p -> exists m0 m1 c0 c1 p0 p1 p2 p3 p4, g_mo p = (m0, m1) /\ g_co p = (c0, c1) /\ rd5 (g_p p) = (p0, p1, p2, p3, p4) /\
  fscanf partFmt (partText p ++ r) = Some ([SI (g_id p); SI (g_st p); SI m0; SI m1; SI c0; SI c1; SF p0; SF p1; SF p2; SF p3; SF p4; SF (rd0 (g_vt p)); SF (rd0 (g_sp p))], r).
Proof.
  intros (H1 & H2 & H3 & H4 & H5 & H6 & H7 & H8 & H9). destruct p as [id ist [m0 m1] [c0 c1] [[[[p0 p1] p2] p3] p4] vt sp]. cbn [g_id g_st g_mo g_co g_p g_vt g_sp fst snd mid5 rd5] in *. destruct H7 as (? & ? & ? & ? & ?).
  do 9 eexists. split; [reflexivity|]. split; [reflexivity|]. split; [reflexivity|].
  set (fl := [FD 64 7 id; FD 32 4 ist; FD 32 4 m0; FD 32 4 m1; FD 32 4 c0; FD 32 4 c1; FE 11 17 p0; FE 11 17 p1; FE 11 17 p2; FE 11 17 p3; FE 11 17 p4; FF vt; FF sp]).
  assert (E : partText (mkpt id ist (m0, m1) (c0, c1) (p0, p1, p2, p3, p4) vt sp) = fields fl).
  { unfold partText, partLine, fields, ftexts, fl. cbn [map List.concat ftext FE FD FF g_id g_st g_mo g_co g_p g_vt g_sp fst snd]. rewrite <- ?app_assoc. reflexivity. }
  rewrite E. change partFmt with (map fverb fl). unfold fl. rewrite fscanf_line; [reflexivity|].
  repeat (constructor; [first [apply FE_ok; [lia|assumption]|apply FD_ok; [lia|assumption]|apply FF_ok; assumption]|]). constructor.
Qed.
Lemma scanParts_at l r : Forall part_ok l -> scanParts (List.length l) (List.concat (map partText l) ++ r) = Some (map rdPart l).
Proof.
  intros F. induction F as [|p l H F IH]; [reflexivity|]. cbn [List.length scanParts map List.concat]. rewrite <- app_assoc.
  destruct (scan_part p (List.concat (map partText l) ++ r) H) as (m0 & m1 & c0 & c1 & p0 & p1 & p2 & p3 & p4 & E1 & E2 & E3 & S). rewrite S, IH, <- E1, <- E2, <- E3. reflexivity.
Qed.
Definition evt_ok (id : Z) (a b c d : f64) (l : list part) : Prop := inb 32 id /\ mid a /\ mid b /\ mid c /\ mid d /\ zlen l < 2 ^ 31 /\ Forall part_ok l.
Lemma scanEvt_ok id a b c d l r : evt_ok id a b c d l -> scanEvt ([10] ++ evtLine (evtOf id a b c d l) ++ List.concat (map partText l) ++ r) = Ok (Some (evtOf id (r7 a) (r7 b) (r7 c) (r7 d) (map rdPart l))).
Proof.
  intros (H1 & H2 & H3 & H4 & H5 & H6 & F). unfold scanEvt. change (newline ([10] ++ ?x)) with (Some x).
  set (fl := [FD 32 5 (zlen l); FD 32 5 id; FE 7 13 a; FE 7 13 b; FE 7 13 c; FE 7 13 d]).
  assert (E : evtLine (evtOf id a b c d l) = fields fl).
  { unfold evtLine, nl, fields, ftexts, fl. cbn [map List.concat ftext FE FD evtOf nup idprup xwgtup scalup aqedup aqcdup]. rewrite <- ?app_assoc. reflexivity. }
  pose proof (zlen_nonneg l) as NN. rewrite E. change evtFmt with (map fverb fl). unfold fl. rewrite fscanf_line.
  - cbn [map fval FE FD]. destruct (Z.ltb_spec (zlen l) 0); [lia|]. replace (Z.to_nat (zlen l)) with (List.length l) by (unfold zlen; rewrite Nat2Z.id; reflexivity). rewrite scanParts_at by exact F.
    unfold evtOf. rewrite !map_map. replace (zlen (map rdPart l)) with (zlen l) by (unfold zlen; rewrite map_length; reflexivity). reflexivity.
  - assert (inb 32 (zlen l)) by (unfold inb; cbn; lia). repeat (constructor; [first [apply FE_ok; [lia|assumption]|apply FD_ok; [lia|assumption]]|]). constructor.
Qed.
