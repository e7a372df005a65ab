(* C75: Les Houches Event Files, version 1.0 *)
From Coq Require Import ZArith List Lia Bool String.
From Flocq Require Import IEEE754.BinarySingleNaN.
From Verif Require Import Bytes GoLib GoStrings F64 FloatText FloatDigits ScanfModel ScanfProofs LhefModel LhefFloat LhefProofs.
Import ListNotations.
Local Open Scope Z_scope.

(* the data of a run and of an event, with slices that have the length the data say they have *)
Record runData := mkrd { k_beam : Z * Z; k_energy : f64 * f64; k_group : Z * Z; k_set : Z * Z; k_switch : Z; k_procs : list proc }.
Record evtData := mked { v_id : Z; v_weight : f64; v_scale : f64; v_qed : f64; v_qcd : f64; v_parts : list part }.
Definition toRun (k : runData) : run := runOf (k_beam k) (k_energy k) (k_group k) (k_set k) (k_switch k) (k_procs k) 0.
Definition toEvt (v : evtData) : evt := evtOf (v_id v) (v_weight v) (v_scale v) (v_qed v) (v_qcd v) (v_parts v).
(* integers that fit, numbers that are 0, NaN, infinite or neither tiny nor above 10^308; lifetimes and spins are finite and at most 2^53 *)
Definition runFits (k : runData) : Prop := run_ok (k_beam k) (k_energy k) (k_group k) (k_set k) (k_switch k) (k_procs k).
Definition evtFits (v : evtData) : Prop := evt_ok (v_id v) (v_weight v) (v_scale v) (v_qed v) (v_qcd v) (v_parts v).
(* text without the characters that mean something to XML *)
Definition plainText (h : str) : Prop := Forall (fun c => (32 <= c <= 126 \/ c = 9 \/ c = 10) /\ c <> 38 /\ c <> 93 /\ c <> 60) h.
(* the same up to the digits that are written: 7 digits, 11 digits, the nearest whole number *)
Definition wholeNear (x y : f64) : Prop := signOf y = signOf x /\ whole y /\ 2 * Z.abs (val y - val x) <= 2 ^ 1074.
Definition near5 (p q : p5) : Prop :=
  let '(a, b, c, d, e) := p in let '(a', b', c', d', e') := q in near 11 a a' /\ near 11 b b' /\ near 11 c c' /\ near 11 d d' /\ near 11 e e'.
Definition procNear (p q : proc) : Prop := near 7 (c_xs p) (c_xs q) /\ near 7 (c_err p) (c_err q) /\ near 7 (c_max p) (c_max q) /\ c_id q = c_id p.
Definition runNear (k j : runData) : Prop :=
  k_beam j = k_beam k /\ near 7 (fst (k_energy k)) (fst (k_energy j)) /\ near 7 (snd (k_energy k)) (snd (k_energy j)) /\ k_group j = k_group k /\ k_set j = k_set k /\ k_switch j = k_switch k /\
  Forall2 procNear (k_procs k) (k_procs j).
Definition partNear (p q : part) : Prop :=
  g_id q = g_id p /\ g_st q = g_st p /\ g_mo q = g_mo p /\ g_co q = g_co p /\ near5 (g_p p) (g_p q) /\ wholeNear (g_vt p) (g_vt q) /\ wholeNear (g_sp p) (g_sp q).
Definition evtNear (v u : evtData) : Prop :=
  v_id u = v_id v /\ near 7 (v_weight v) (v_weight u) /\ near 7 (v_scale v) (v_scale u) /\ near 7 (v_qed v) (v_qed u) /\ near 7 (v_qcd v) (v_qcd u) /\ Forall2 partNear (v_parts v) (v_parts u).

Definition rdRun (k : runData) : runData := mkrd (k_beam k) (r7 (fst (k_energy k)), r7 (snd (k_energy k))) (k_group k) (k_set k) (k_switch k) (map rdProc (k_procs k)).
Definition rdEvt (v : evtData) : evtData := mked (v_id v) (r7 (v_weight v)) (r7 (v_scale v)) (r7 (v_qed v)) (r7 (v_qcd v)) (map rdPart (v_parts v)).
Lemma r7_ok x : mid x -> fE6 (r7 x) = fE6 x /\ near 7 x (r7 x).
Proof. intros M. destruct (rdE_ok 7 x ltac:(lia) M) as (_ & A & B). split; [unfold fE6, r7; rewrite A; reflexivity|exact B]. Qed.
Lemma r11_ok x : mid x -> fE10 (r11 x) = fE10 x /\ near 11 x (r11 x).
Proof. intros M. destruct (rdE_ok 11 x ltac:(lia) M) as (_ & A & B). split; [unfold fE10, r11; rewrite A; reflexivity|exact B]. Qed.
Lemma r0_ok x : small x -> fF (rd0 x) = fF x /\ wholeNear x (rd0 x).
Proof. intros M. destruct (rd0_ok x M) as (_ & A & B & C & D). split; [unfold fF; rewrite A; reflexivity|]. repeat split; assumption. Qed.
Lemma proc_rd p : proc_ok p -> procText (rdProc p) = procText p /\ procNear p (rdProc p).
Proof.
  intros (H1 & H2 & H3 & H4). apply r7_ok in H1 as [A1 B1]. apply r7_ok in H2 as [A2 B2]. apply r7_ok in H3 as [A3 B3]. split; [unfold procText, rdProc; cbn [c_xs c_err c_max c_id]; rewrite A1, A2, A3; reflexivity|].
  repeat split; assumption.
Qed.
Lemma part_rd p : part_ok p -> partText (rdPart p) = partText p /\ partNear p (rdPart p).
Proof.
  intros (_ & _ & _ & _ & _ & _ & H & S1 & S2). destruct p as [id ist mo co [[[[p0 p1] p2] p3] p4] vt sp]. cbn [g_id g_st g_mo g_co g_p g_vt g_sp mid5] in *. destruct H as (H1 & H2 & H3 & H4 & H5).
  apply r11_ok in H1 as [A1 B1]. apply r11_ok in H2 as [A2 B2]. apply r11_ok in H3 as [A3 B3]. apply r11_ok in H4 as [A4 B4]. apply r11_ok in H5 as [A5 B5]. apply r0_ok in S1 as [A6 B6]. apply r0_ok in S2 as [A7 B7].
  split; [unfold partText, rdPart, partLine; cbn [g_id g_st g_mo g_co g_p g_vt g_sp rd5]; rewrite A1, A2, A3, A4, A5, A6, A7; reflexivity|].
  unfold partNear, rdPart. cbn [g_id g_st g_mo g_co g_p g_vt g_sp rd5 near5]. repeat (split; [first [reflexivity|assumption|repeat split; assumption]|]). assumption.
Qed.
Lemma concat_rd {A} (f : A -> str) (h : A -> A) (P : A -> Prop) l : (forall x, P x -> f (h x) = f x) -> Forall P l -> List.concat (map f (map h l)) = List.concat (map f l).
Proof. intros H F. induction F as [|x l Hx F IH]; [reflexivity|]. cbn [map List.concat]. rewrite IH, H by exact Hx. reflexivity. Qed.
Lemma Forall2_map {A} (R : A -> A -> Prop) (h : A -> A) (P : A -> Prop) l : (forall x, P x -> R x (h x)) -> Forall P l -> Forall2 R l (map h l).
Proof. intros H F. induction F as [|x l Hx F IH]; constructor; auto. Qed.
Lemma zlen_map {A B} (f : A -> B) l : zlen (map f l) = zlen l.
Proof. unfold zlen. rewrite map_length. reflexivity. Qed.

(* the text of an event, of the start of a file *)
Definition evtText (v : evtData) : str := bs "<event>" ++ nl ++ evtLine (toEvt v) ++ List.concat (map partText (v_parts v)) ++ bs "#" ++ nl ++ bs "</event>" ++ nl.
Lemma encEvt_text v : encEvt (toEvt v) = Ok (evtText v).
Proof.
  unfold encEvt. unfold toEvt at 2. cbn [evtOf nup]. replace (Z.to_nat (zlen (v_parts v))) with (List.length (v_parts v)) by (unfold zlen; rewrite Nat2Z.id; reflexivity).
  pose proof (partLines_at (v_id v) (v_weight v) (v_scale v) (v_qed v) (v_qcd v) [] (v_parts v)) as P. cbn [app List.length] in P. unfold toEvt at 1. rewrite P. reflexivity.
Qed.
Lemma encEvts_text vs : encEvts (map toEvt vs) = Ok (List.concat (map evtText vs)).
Proof. induction vs as [|v vs IH]; [reflexivity|]. cbn [map encEvts]. rewrite encEvt_text, IH. reflexivity. Qed.
Definition headText (k : runData) (h : str) : str :=
  bs "<LesHouchesEvents version=" ++ quote ++ bs "1.0" ++ quote ++ bs ">" ++ nl ++ headerText h ++
  bs "<init>" ++ nl ++ initLine (toRun k) ++ List.concat (map procText (k_procs k)) ++ bs "#" ++ nl ++ bs "</init>" ++ nl.
Lemma encInit_text k h : encInit (toRun k) h = Ok (headText k h).
Proof.
  unfold encInit. change (0 <? neve (toRun k)) with false. cbv iota. unfold toRun at 2. cbn [runOf nprup]. replace (Z.to_nat (zlen (k_procs k))) with (List.length (k_procs k)) by (unfold zlen; rewrite Nat2Z.id; reflexivity).
  pose proof (procLines_at (k_beam k) (k_energy k) (k_group k) (k_set k) (k_switch k) 0 [] (k_procs k)) as P. cbn [app List.length] in P. unfold toRun at 1. rewrite P. reflexivity.
Qed.
Definition fileText (k : runData) (h : str) (vs : list evtData) : str := headText k h ++ List.concat (map evtText vs) ++ closeText.
Lemma encFile_text k h vs : vs <> [] -> encFile (toRun k) h (map toEvt vs) = Ok (fileText k h vs).
Proof. intros N. unfold encFile. destruct vs as [|v vs]; [congruence|]. rewrite encInit_text. pose proof (encEvts_text (v :: vs)) as E. cbn [map] in *. rewrite E. reflexivity. Qed.

(* reading *)
Lemma okc_evtLine e : Forall okc (evtLine e).
Proof. unfold evtLine. repeat (apply Forall_app; split; [first [apply okc_fE6|apply okc_fD]|]). okl. Qed.
Ltac okapp := repeat (apply Forall_app; split).
Definition txt (t : str) : Prop := t <> [] /\ Forall okc t.
Lemma walk_text start name st t r d : txt t -> walk start name (mkdst st (60 :: r)) d -> walk start name (mkdst st (t ++ 60 :: r)) d.
Proof. intros [N F] W. eapply walk_step; [apply tok_text; assumption|reflexivity| |exact W]. destruct t; [congruence|]. cbn [app List.length]. rewrite app_length. cbn [List.length]. lia. Qed.
Lemma len_lt {A} (a r : list A) : a <> [] -> (List.length r < List.length (a ++ r))%nat.
Proof. intros N. rewrite app_length. destruct a; [congruence|]. cbn [List.length]. lia. Qed.
Lemma txt_nl : txt nl.
Proof. split; [discriminate|okl]. Qed.
Theorem decode_text v r : evtFits v -> decode (mkdst [LHE] (nl ++ evtText v ++ r)) = Got (toEvt (rdEvt v)) (mkdst [LHE] (nl ++ r)).
Proof.
  intros H. unfold decode. set (body := nl ++ evtLine (toEvt v) ++ List.concat (map partText (v_parts v)) ++ bs "#" ++ nl).
  assert (E : nl ++ evtText v ++ r = nl ++ bs "<event>" ++ body ++ bs "</event>" ++ nl ++ r) by (unfold evtText, body; rewrite <- !app_assoc; reflexivity). rewrite E.
  assert (S1 : seek true (bs "event") (mkdst [LHE] (nl ++ bs "<event>" ++ body ++ bs "</event>" ++ nl ++ r)) = Got tt (mkdst [bs "event"; LHE] (body ++ bs "</event>" ++ nl ++ r))).
  { eapply seek_got; [apply walk_text; [exact txt_nl|apply walk_here]|apply tok_event|reflexivity]. }
  rewrite S1. cbn [d_stack d_rest].
  assert (T : txt body).
  { destruct H as (_ & _ & _ & _ & _ & _ & F). split; [discriminate|]. unfold body. apply Forall_app; split; [okl|]. apply Forall_app; split; [apply okc_evtLine|]. apply Forall_app; split; [|okl]. apply okc_concat. intros x I. apply okc_part. eapply Forall_forall; eassumption. }
  destruct T as [TN TF]. rewrite (tok_text body (bs "/event>" ++ nl ++ r) _ TN TF : xtoken _ (body ++ bs "</event>" ++ nl ++ r) = _).
  unfold body. change nl with [10] at 1. rewrite (scanEvt_ok _ _ _ _ _ _ (bs "#" ++ nl) H : scanEvt ([10] ++ evtLine (toEvt v) ++ _) = _).
  rewrite (seek_got false (bs "event") _ [bs "event"; LHE] (bs "</event>" ++ nl ++ r) (TEnd (bs "event")) [LHE] (nl ++ r)); [reflexivity|apply walk_here|apply tok_event_end|reflexivity].
Qed.
Theorem decode_close : decode (mkdst [LHE] (nl ++ closeText)) = EndOfFile.
Proof. vm_compute. reflexivity. Qed.
Lemma decodeAll_text vs : Forall evtFits vs -> forall k, (List.length vs < k)%nat -> decodeAll k (mkdst [LHE] (nl ++ List.concat (map evtText vs) ++ closeText)) = (map (fun v => toEvt (rdEvt v)) vs, EndOfFile).
Proof.
  intros F. induction F as [|v vs H F IH]; intros k L; (destruct k as [|k]; [cbn [List.length] in L; lia|]).
  - cbn [decodeAll map List.concat app]. rewrite decode_close. reflexivity.
  - cbn [decodeAll map List.concat]. rewrite <- app_assoc, decode_text by exact H. cbn [List.length] in L. rewrite IH by lia. reflexivity.
Qed.
Lemma plain_okc h : plainText h -> Forall okc h.
Proof.
  apply Forall_impl. intros c ([H|H] & N1 & N2 & N3); split; try exact N3; unfold plain; [|destruct H as [->| ->]; reflexivity].
  destruct (Z.leb_spec 32 c); [|lia]. destruct (Z.leb_spec c 126); [|lia]. destruct (Z.eqb_spec c 38); [lia|]. destruct (Z.eqb_spec c 93); [lia|]. reflexivity.
Qed.
Lemma removelast_okc h : Forall okc h -> Forall okc (removelast h).
Proof. intros F. induction F as [|c h H F IH]; [constructor|]. cbn [removelast]. destruct h; [constructor|constructor; assumption]. Qed.
Lemma seek_init h r : plainText h -> seek true (bs "init") (mkdst [LHE] (nl ++ headerText h ++ bs "<init>" ++ r)) = Got tt (mkdst [bs "init"; LHE] r).
Proof.
  intros P. eapply seek_got; [|apply tok_init|reflexivity]. unfold headerText. destruct h as [|c h].
  - cbn [app]. apply (walk_text true (bs "init") [LHE] nl (bs "init>" ++ r)); [exact txt_nl|apply walk_here].
  - set (h' := if last (c :: h) 0 =? 10 then removelast (c :: h) else c :: h). assert (F : Forall okc h') by (unfold h'; pose proof (plain_okc _ P); destruct (last (c :: h) 0 =? 10); [apply removelast_okc; assumption|assumption]). clearbody h'.
    replace (nl ++ (bs "<header>" ++ nl ++ h' ++ nl ++ bs "</header>" ++ nl) ++ bs "<init>" ++ r) with (nl ++ bs "<header>" ++ (nl ++ h' ++ nl) ++ bs "</header>" ++ nl ++ bs "<init>" ++ r) by (rewrite <- !app_assoc; reflexivity).
    apply (walk_text true (bs "init") [LHE] nl (bs "header>" ++ (nl ++ h' ++ nl) ++ bs "</header>" ++ nl ++ bs "<init>" ++ r)); [exact txt_nl|].
    eapply walk_step; [apply (tok_header [LHE])|reflexivity|apply (len_lt (bs "<header>")); discriminate|].
    apply (walk_text true (bs "init") _ (nl ++ h' ++ nl) (bs "/header>" ++ nl ++ bs "<init>" ++ r)); [split; [discriminate|]; okapp; [okl|exact F|okl]|].
    eapply walk_step; [apply (tok_header_end [LHE])|reflexivity|apply (len_lt (bs "</header>")); discriminate|].
    apply (walk_text true (bs "init") [LHE] nl (bs "init>" ++ r)); [exact txt_nl|apply walk_here].
Qed.
Theorem newDecoder_text k h r : runFits k -> plainText h -> newDecoder (headText k h ++ r) = Got (1, toRun (rdRun k)) (mkdst [LHE] (nl ++ r)).
Proof.
  intros H P. set (body := nl ++ initLine (toRun k) ++ List.concat (map procText (k_procs k)) ++ bs "#" ++ nl).
  assert (E : headText k h ++ r = bs "<LesHouchesEvents version=" ++ quote ++ bs "1.0" ++ quote ++ bs ">" ++ nl ++ headerText h ++ bs "<init>" ++ body ++ bs "</init>" ++ nl ++ r) by (unfold headText, body; rewrite <- !app_assoc; reflexivity).
  rewrite E. unfold newDecoder. rewrite tok_root. change (str_eqb LHE (bs "LesHouchesEvents")) with true. change (str_eqb (bs "1.0") (bs "1.0")) with true. cbv iota. cbv zeta.
  rewrite seek_init by exact P. cbn [d_stack d_rest].
  assert (T : txt body).
  { split; [discriminate|]. unfold body. apply Forall_app; split; [okl|]. apply Forall_app; split; [apply okc_initLine|]. apply Forall_app; split; [|okl]. apply okc_concat. intros x _. apply okc_proc. }
  destruct T as [TN TF]. rewrite (tok_text body (bs "/init>" ++ nl ++ r) _ TN TF : xtoken _ (body ++ bs "</init>" ++ nl ++ r) = _).
  unfold body. change nl with [10] at 1. rewrite (scanRun_ok _ _ _ _ _ _ 0 (bs "#" ++ nl) H : scanRun ([10] ++ initLine (toRun k) ++ _) = _).
  rewrite (seek_got false (bs "init") _ [bs "init"; LHE] (bs "</init>" ++ nl ++ r) (TEnd (bs "init")) [LHE] (nl ++ r)); [reflexivity|apply walk_here|apply tok_init_end|reflexivity].
Qed.
Lemma evtText_rd v : evtFits v -> evtText (rdEvt v) = evtText v.
Proof.
  intros (_ & H2 & H3 & H4 & H5 & _ & F). unfold evtText. apply r7_ok in H2 as [A2 _]. apply r7_ok in H3 as [A3 _]. apply r7_ok in H4 as [A4 _]. apply r7_ok in H5 as [A5 _].
  assert (E : evtLine (toEvt (rdEvt v)) = evtLine (toEvt v)) by (unfold evtLine, toEvt, rdEvt; cbn [v_id v_weight v_scale v_qed v_qcd v_parts evtOf nup idprup xwgtup scalup aqedup aqcdup]; rewrite zlen_map, A2, A3, A4, A5; reflexivity).
  rewrite E. cbn [rdEvt v_parts]. rewrite (concat_rd partText rdPart part_ok) by (exact F || intros x Hx; apply (part_rd x Hx)). reflexivity.
Qed.
Lemma headText_rd k h : runFits k -> headText (rdRun k) h = headText k h.
Proof.
  intros (_ & _ & H3 & H4 & _ & _ & _ & _ & _ & _ & F). unfold headText. apply r7_ok in H3 as [A3 _]. apply r7_ok in H4 as [A4 _].
  assert (E : initLine (toRun (rdRun k)) = initLine (toRun k)) by (unfold initLine, toRun, rdRun; cbn [k_beam k_energy k_group k_set k_switch k_procs runOf idbmup ebmup pdfgup pdfsup idwtup nprup fst snd]; rewrite zlen_map, A3, A4; reflexivity).
  rewrite E. cbn [rdRun k_procs]. rewrite (concat_rd procText rdProc proc_ok) by (exact F || intros x Hx; apply (proc_rd x Hx)). reflexivity.
Qed.
Lemma runNear_rd k : runFits k -> runNear k (rdRun k).
Proof.
  intros (_ & _ & H3 & H4 & _ & _ & _ & _ & _ & _ & F). apply r7_ok in H3 as [_ A3]. apply r7_ok in H4 as [_ A4]. unfold runNear, rdRun. cbn [k_beam k_energy k_group k_set k_switch k_procs fst snd]. repeat (split; [first [reflexivity|assumption]|]).
  apply (Forall2_map procNear rdProc proc_ok); [intros x Hx; apply (proc_rd x Hx)|exact F].
Qed.
Lemma evtNear_rd v : evtFits v -> evtNear v (rdEvt v).
Proof.
  intros (_ & H2 & H3 & H4 & H5 & _ & F). apply r7_ok in H2 as [_ A2]. apply r7_ok in H3 as [_ A3]. apply r7_ok in H4 as [_ A4]. apply r7_ok in H5 as [_ A5]. unfold evtNear, rdEvt. cbn [v_id v_weight v_scale v_qed v_qcd v_parts]. repeat (split; [first [reflexivity|assumption]|]).
  apply (Forall2_map partNear rdPart part_ok); [intros x Hx; apply (part_rd x Hx)|exact F].
Qed.

(* ---- the properties ---- *)
(* A file that is written is read: the version, the run, all events in their order, then io.EOF.  Integers are the same, numbers
   are the same up to the digits written, and writing again what was read gives the same file. *)
Theorem C75_roundtrip : forall k h vs, runFits k -> plainText h -> vs <> [] -> Forall evtFits vs -> exists s d k' vs',
  encFile (toRun k) h (map toEvt vs) = Ok s /\ newDecoder s = Got (1, toRun k') d /\
  (forall fuel, (List.length vs < fuel)%nat -> decodeAll fuel d = (map toEvt vs', EndOfFile)) /\
  runNear k k' /\ Forall2 evtNear vs vs' /\ encFile (toRun k') h (map toEvt vs') = Ok s.
Proof.
  intros k h vs HK HH NE HV. exists (fileText k h vs), (mkdst [LHE] (nl ++ List.concat (map evtText vs) ++ closeText)), (rdRun k), (map rdEvt vs).
  split; [apply encFile_text; exact NE|]. split; [apply newDecoder_text; assumption|]. split; [intros fuel L; rewrite map_map; apply decodeAll_text; assumption|]. split; [apply runNear_rd; exact HK|].
  split; [apply (Forall2_map evtNear rdEvt evtFits); [exact evtNear_rd|exact HV]|]. rewrite encFile_text by (destruct vs; [congruence|discriminate]). unfold fileText. rewrite headText_rd by exact HK.
  rewrite (concat_rd evtText rdEvt evtFits) by (exact evtText_rd || exact HV). reflexivity.
Qed.
Lemma b_one : SpecFloat.bounded 53 1024 4503599627370496 (-52) = true.
Proof. reflexivity. Qed.
Definition one : f64 := B754_finite false 4503599627370496 (-52) b_one.
Definition zf : f64 := B754_zero false.
Definition exRun : runData := mkrd (2212, 2212) (zf, one) (0, 0) (10042, 10042) 3 [mkproc zf one zf 1].
Definition exPart (x sp : f64) : part := mkpt 11 1 (1, 2) (0, 0) (x, zf, zf, zf, B754_infinity true) zf sp.
Definition exEvt (x sp : f64) : evtData := mked 4 x zf zf B754_nan [exPart x sp].
Lemma mid_one : mid one.
Proof. unfold mid, one. split; apply Z.leb_le; vm_compute; reflexivity. Qed.
Lemma inb_ok bits n : (- 2 ^ (bits - 1) <=? n) && (n <? 2 ^ (bits - 1)) = true -> inb bits n.
Proof. intros H. apply andb_true_iff in H as [A B]. apply Z.leb_le in A. apply Z.ltb_lt in B. split; assumption. Qed.
Lemma small_one : small one.
Proof. apply Z.leb_le. vm_compute. reflexivity. Qed.
Ltac fit1 := first [exact I|exact mid_one|exact small_one|apply inb_ok; reflexivity|reflexivity|apply Z.leb_le; vm_compute; reflexivity].
Ltac part1 := unfold part_ok; cbn [exPart g_id g_st g_mo g_co g_p g_vt g_sp mid5 fst snd]; repeat (split; [first [fit1|repeat (split; [fit1|]); fit1]|]); fit1.
Ltac evt1 := unfold evtFits, evt_ok; cbn [v_id v_weight v_scale v_qed v_qcd v_parts exEvt]; repeat (split; [fit1|]); repeat (apply Forall_cons; [part1|]); apply Forall_nil.
Ltac run1 := unfold runFits, run_ok; cbn [k_beam k_energy k_group k_set k_switch k_procs fst snd]; repeat (split; [fit1|]); repeat (apply Forall_cons; [unfold proc_ok; cbn [c_xs c_err c_max c_id]; repeat (split; [fit1|]); fit1|]); apply Forall_nil.
Example C75_roundtrip_ex : runFits exRun /\ plainText (bs "made by hand") /\ Forall evtFits [exEvt one one; exEvt zf zf; mked 5 one one zf zf []].
Proof.
  split; [unfold exRun; run1|]. split; [|repeat (apply Forall_cons; [evt1|]); apply Forall_nil].
  apply Forall_forall. intros c H. cbn in H. repeat (destruct H as [<-|H]; [lia|]). contradiction.
Qed.
(* lifetimes and spins that are whole numbers come back with their value *)
Theorem C75_whole : forall x y, small x -> whole x -> wholeNear x y -> val y = val x.
Proof.
  intros x y S (N & W) (_ & (M & V) & R). rewrite V, W in *. assert (P : 0 < 2 ^ 1074) by (apply Z.pow_pos_nonneg; lia). set (u := 2 ^ 1074) in *. clearbody u.
  rewrite <- Z.mul_sub_distr_r, Z.abs_mul, (Z.abs_eq u) in R by lia. assert (Z.abs (M - N) < 1) by nia. replace M with N by lia. reflexivity.
Qed.
Example C75_whole_ex : small one /\ whole one /\ val one = 2 ^ 1074.
Proof. split; [exact small_one|]. split; [exists 1|]; vm_compute; reflexivity. Qed.
(* reading an event leaves the decoder where the next one starts, whatever comes after *)
Theorem C75_stream : forall v r, evtFits v -> exists t v', encEvt (toEvt v) = Ok t /\ decode (mkdst [bs "LesHouchesEvents"] (nl ++ t ++ r)) = Got (toEvt v') (mkdst [bs "LesHouchesEvents"] (nl ++ r)) /\ evtNear v v'.
Proof. intros v r H. exists (evtText v), (rdEvt v). split; [apply encEvt_text|]. split; [apply decode_text; exact H|apply evtNear_rd; exact H]. Qed.
(* Encode panics exactly when NUP is larger than the length of one of the slices *)
Definition shortest (e : evt) : nat :=
  Nat.min (List.length (idup e)) (Nat.min (List.length (istup e)) (Nat.min (List.length (mothup e)) (Nat.min (List.length (icolup e)) (Nat.min (List.length (pup e)) (Nat.min (List.length (vtimup e)) (List.length (spinup e))))))).
Lemma nth_some {A} (l : list A) i : (i < List.length l)%nat -> exists x, nth_error l i = Some x.
Proof. intros H. destruct (nth_error l i) eqn:E; [eauto|]. apply nth_error_None in E. lia. Qed.
Lemma partLines_panic e n : forall i, partLines e i n = Panic <-> (n <> O /\ shortest e < i + n)%nat.
Proof.
  induction n as [|n IH]; intros i; cbn [partLines]; [split; [discriminate|intros [H _]; congruence]|]. specialize (IH (S i)).
  destruct (Nat.le_gt_cases (S i) (shortest e)) as [L|L].
  - unfold shortest in L. destruct (nth_some (idup e) i ltac:(lia)) as (? & ->). destruct (nth_some (istup e) i ltac:(lia)) as (? & ->). destruct (nth_some (mothup e) i ltac:(lia)) as (? & ->). destruct (nth_some (icolup e) i ltac:(lia)) as (? & ->).
    destruct (nth_some (pup e) i ltac:(lia)) as (? & ->). destruct (nth_some (vtimup e) i ltac:(lia)) as (? & ->). destruct (nth_some (spinup e) i ltac:(lia)) as (? & ->). fold (shortest e) in L. destruct (partLines e (S i) n) eqn:E; split; try discriminate; try reflexivity.
    + intros [_ H]. assert (X : Ok a = Panic) by (apply IH; split; lia). discriminate.
    + intros _. destruct IH as [IH _]. specialize (IH eq_refl). split; lia.
  - split; [intros _; split; lia|]. intros _. destruct (nth_error (idup e) i) eqn:E1; [|reflexivity]. destruct (nth_error (istup e) i) eqn:E2; [|reflexivity]. destruct (nth_error (mothup e) i) eqn:E3; [|reflexivity]. destruct (nth_error (icolup e) i) eqn:E4; [|reflexivity].
    destruct (nth_error (pup e) i) eqn:E5; [|reflexivity]. destruct (nth_error (vtimup e) i) eqn:E6; [|reflexivity]. destruct (nth_error (spinup e) i) eqn:E7; [|reflexivity]. exfalso.
    assert (NS : forall {A} (l : list A) x, nth_error l i = Some x -> (i < List.length l)%nat) by (intros A l x E; apply nth_error_Some; congruence).
    apply NS in E1. apply NS in E2. apply NS in E3. apply NS in E4. apply NS in E5. apply NS in E6. apply NS in E7. unfold shortest in L. lia.
Qed.
Theorem C75_encode_panic : forall e, encEvt e = Panic <-> Z.of_nat (shortest e) < nup e.
Proof.
  intros e. unfold encEvt. pose proof (partLines_panic e (Z.to_nat (nup e)) 0) as P. destruct (partLines e 0 (Z.to_nat (nup e))).
  - split; [discriminate|]. intros H. assert (X : Ok a = Panic) by (apply P; lia). discriminate.
  - split; [|reflexivity]. intros _. destruct P as [P _]. specialize (P eq_refl). lia.
Qed.
Example C75_encode_panic_ex : encEvt (mkevt 2 4 zf zf zf zf [11] [1] [(0, 0)] [(0, 0)] [(zf, zf, zf, zf, zf)] [zf] [zf] 0 0 0) = Panic /\
  exists t, encEvt (mkevt 1 4 zf zf zf zf [11; 12] [1] [(0, 0)] [(0, 0)] [(zf, zf, zf, zf, zf)] [zf] [zf] 0 0 0) = Ok t.
Proof. split; [reflexivity|eexists; reflexivity]. Qed.
(* ---- what does not hold ---- *)
(* spins are cosines: 0.5 is written as 0 *)
Lemma b_half : SpecFloat.bounded 53 1024 4503599627370496 (-53) = true.
Proof. reflexivity. Qed.
Definition half : f64 := B754_finite false 4503599627370496 (-53) b_half.
Theorem C75_spin_refuted : exists v v', evtFits v /\ (exists t, encEvt (toEvt v) = Ok t /\ decode (mkdst [bs "LesHouchesEvents"] (nl ++ t)) = Got (toEvt v') (mkdst [bs "LesHouchesEvents"] nl)) /\
  map g_sp (v_parts v) = [half] /\ map g_sp (v_parts v') = [zf].
Proof.
  exists (exEvt zf half), (exEvt zf zf). split; [evt1|]. split; [|split; reflexivity]. exists (evtText (exEvt zf half)). split; [apply encEvt_text|]. vm_compute. reflexivity.
Qed.
(* a lifetime that is NaN makes the event unreadable *)
Theorem C75_nan_refuted : exists v t, encEvt (toEvt v) = Ok t /\ map g_sp (v_parts v) = [B754_nan] /\ forall r, decode (mkdst [bs "LesHouchesEvents"] (nl ++ t ++ r)) = Failed.
Proof. exists (exEvt zf B754_nan), (evtText (exEvt zf B754_nan)). split; [apply encEvt_text|]. split; [reflexivity|]. intros r. reflexivity. Qed.
(* the element written for an event with sub-events is not XML: the event cannot be read *)
Lemma accepts_val n r : accepts (fun c => plain c && negb (c =? 34) && negb (c =? 60)) (itoa n ++ 34 :: r) = (itoa n, 34 :: r).
Proof.
  apply accepts_app; [|reflexivity]. destruct (itoa_shape n) as (sg & ds & -> & SG & _ & F). apply Forall_app. split; [destruct SG as [->| ->]; [constructor|constructor; [reflexivity|constructor]]|].
  eapply Forall_impl; [|exact F]. intros c D. destruct (okc_dig c D) as [H1 H2]. rewrite H1. unfold dig in D. destruct (Z.eqb_spec c 34); [lia|]. destruct (Z.eqb_spec c 60); [lia|]. reflexivity.
Qed.
Definition noAttrs (r : str) : Prop := forall k, xattrs k r = None.
Lemma noAttrs_attr name n r : name = bs "nreal" \/ name = bs "ncounter" -> noAttrs r -> noAttrs (32 :: name ++ 61 :: 34 :: itoa n ++ 34 :: r).
Proof.
  intros N H k. destruct k as [|k]; [reflexivity|].
  assert (E : xattrs (S k) (32 :: name ++ 61 :: 34 :: itoa n ++ 34 :: r) =
    let '(v, r4) := accepts (fun c => plain c && negb (c =? 34) && negb (c =? 60)) (itoa n ++ 34 :: r) in
    match r4 with q' :: r5 => if q' =? 34 then match xattrs k r5 with Some (l, r6) => Some ((name, v) :: l, r6) | None => None end else None | [] => None end).
  { destruct N as [->| ->]; reflexivity. }
  rewrite E, accepts_val. change (34 =? 34) with true. cbv iota. rewrite H. reflexivity.
Qed.
Lemma noAttrs_tl r : noAttrs (bs "</eventgroup>" ++ r).
Proof. intros [|k]; reflexivity. Qed.
Lemma group_tok st r : noAttrs r -> (match r with c :: _ => c = 32 \/ c = 60 | [] => False end) -> xtoken st (bs "<eventgroup" ++ r) = XErr.
Proof.
  intros N H. destruct r as [|c r]; [contradiction|]. 
  assert (E : xtoken st (bs "<eventgroup" ++ c :: r) = match xattrs (List.length (c :: r)) (c :: r) with Some (l, r2) => XTok (TStart (bs "eventgroup") l) (bs "eventgroup" :: st) r2 | None => XErr end) by (destruct H as [->| ->]; reflexivity).
  rewrite E, N. reflexivity.
Qed.
Theorem C75_subevents_refuted : forall e t r, 0 < nsub e -> encEvt e = Ok t -> decode (mkdst [bs "LesHouchesEvents"] (nl ++ t ++ r)) = Failed.
Proof.
  intros e t r H E.
  assert (X : exists q, t ++ r = bs "<eventgroup" ++ q /\ xtoken [LHE] (bs "<eventgroup" ++ q) = XErr).
  { unfold encEvt in E. destruct (partLines e 0 (Z.to_nat (nup e))) as [l|]; [|discriminate].
    set (tl := bs "<event>" ++ nl ++ evtLine e ++ l ++ bs "#" ++ nl ++ bs "</event>" ++ nl) in E. assert (ET : t = groupText e ++ tl) by congruence. clearbody tl. clear E. subst t.
    unfold groupText. destruct (Z.ltb_spec 0 (nsub e)); [|lia].
    set (A := if 0 <? nreal e then bs " nreal=" ++ quote ++ itoa (nreal e) ++ quote else []). set (B := if 0 <? ncount e then bs " ncounter=" ++ quote ++ itoa (ncount e) ++ quote else []).
    exists (A ++ B ++ bs "</eventgroup>" ++ nl ++ tl ++ r). split; [rewrite <- !app_assoc; reflexivity|].
    assert (NB : noAttrs (B ++ bs "</eventgroup>" ++ nl ++ tl ++ r)).
    { unfold B. destruct (0 <? ncount e); [|apply noAttrs_tl]. rewrite <- !app_assoc. apply (noAttrs_attr (bs "ncounter") (ncount e)); [auto|apply noAttrs_tl]. }
    apply group_tok.
    - unfold A. destruct (0 <? nreal e); [|exact NB]. rewrite <- !app_assoc. apply (noAttrs_attr (bs "nreal") (nreal e)); [auto|exact NB].
    - unfold A, B. destruct (0 <? nreal e), (0 <? ncount e); cbn; auto. }
  destruct X as (q & X1 & X2). rewrite X1. unfold decode. rewrite (seek_err true (bs "event") _ [LHE] (bs "<eventgroup" ++ q)); [reflexivity| |exact X2]. apply (walk_text true (bs "event") [LHE] nl (bs "eventgroup" ++ q)); [exact txt_nl|apply walk_here].
Qed.
(* NUP below 0 is written, and makes Decode panic *)
Theorem C75_negative_refuted : exists e t, nup e = -1 /\ encEvt e = Ok t /\ forall r, decode (mkdst [bs "LesHouchesEvents"] (nl ++ t ++ r)) = Crash.
Proof. eexists (mkevt (-1) 4 zf zf zf zf [] [] [] [] [] [] [] 0 0 0). eexists. split; [reflexivity|]. split; [reflexivity|]. intros r. reflexivity. Qed.
(* a root element without attributes makes NewDecoder panic *)
Theorem C75_attribute_refuted : forall r, newDecoder (bs "<LesHouchesEvents>" ++ r) = Crash.
Proof. intros r. reflexivity. Qed.
(* without events, what is written is an end tag alone: the run is lost and the file cannot be read *)
Theorem C75_noevents_refuted : forall k h, exists s, encFile k h [] = Ok s /\ newDecoder s = Failed.
Proof. intros k h. exists closeText. split; [reflexivity|vm_compute; reflexivity]. Qed.
(* cross section information makes Encode panic *)
Theorem C75_neve_refuted : forall k h e es, 0 < neve k -> encFile k h (e :: es) = Panic.
Proof. intros k h e es H. unfold encFile, encInit. destruct (Z.ltb_spec 0 (neve k)); [reflexivity|lia]. Qed.
(* the header is written as it is: one with a less-than sign makes a file that cannot be read *)
Definition exRun0 : runData := mkrd (2212, 2212) (zf, zf) (0, 0) (10042, 10042) 3 [mkproc zf zf zf 1].
Theorem C75_header_refuted : exists k h v s, runFits k /\ evtFits v /\ h = bs "a < b" /\ encFile (toRun k) h [toEvt v] = Ok s /\ newDecoder s = Failed.
Proof.
  exists exRun0, (bs "a < b"), (mked 4 zf zf zf zf []). eexists. split; [unfold exRun0; run1|split; [evt1|split; [reflexivity|split; [apply (encFile_text exRun0 (bs "a < b") [mked 4 zf zf zf zf []]); discriminate|vm_compute; reflexivity]]]].
Qed.
Print Assumptions C75_roundtrip.
Print Assumptions C75_whole.
Print Assumptions C75_stream.
Print Assumptions C75_encode_panic.
Print Assumptions C75_spin_refuted.
Print Assumptions C75_nan_refuted.
Print Assumptions C75_subevents_refuted.
Print Assumptions C75_negative_refuted.
Print Assumptions C75_attribute_refuted.
Print Assumptions C75_noevents_refuted.
Print Assumptions C75_neve_refuted.
Print Assumptions C75_header_refuted.
