(* C63, C64: HepMC events written as text are read back, through Encoder, Decoder and Copy *)
From Coq Require Import ZArith List Lia Bool Permutation Sorted.
From Flocq Require Import IEEE754.BinarySingleNaN.
From Verif Require Import Bytes GoLib GoStrings GoQuote F64 FloatText DflowModel DflowProps HepmcModel HepmcProps HepmcTextModel HepmcTextProofs HepmcTextProofs2 HepmcTextSpec HepmcTextProofs3 HepmcTextProofs4 HepmcTextProofs5 HepmcTextProofs6.
Import ListNotations.
Local Open Scope Z_scope.

(* one Decode after the other, each into its own Event *)
Fixpoint decodes visit f32 (d : decoder) (m : mem) (es : list nat) : out mem * decoder :=
  match es with
  | [] => (Val m, d)
  | e :: es' => match decode visit f32 d m e with (Val m1, d1) => decodes visit f32 d1 m1 es' | (o, d1) => (o, d1) end
  end.
(* maps are visited in some order *)
Definition order (visit : forall A : Type, list A -> list A) : Prop := forall A (l : list A), Permutation l (visit A l).
(* what an event was before stays: events other than es, and the vertices and particles of events *)
Definition keeps (m0 M : mem) (es : list nat) : Prop :=
  forall m a a', ~ In a' es -> closed m0 a' -> same_event m a m0 a' -> same_event m a M a' /\ closed M a'.

Section Props.
Variable visit : forall A : Type, list A -> list A.
Hypothesis visit_perm : order visit.
Variable isPrint : Z -> bool.
Variable f32 : f64 -> f64.
Lemma decodes_all m es : forall es' m0 ls fn, Forall (wf f32 m) es -> length es' = length es -> NoDup es' -> (forall e', In e' es' -> blank (ed m0 e')) ->
  exists M, decodes visit f32 (seenDec (concat (map (linesEvt visit isPrint m) es) ++ ls) fn) m0 es' = (Val M, seenDec ls fn) /\
    Forall2 (fun e e' => same_event m e M e' /\ closed M e') es es' /\ keeps m0 M es'.
Proof.
  induction es as [|e es IH]; intros [|e' es'] m0 ls fn F L ND BL; try discriminate.
  - exists m0. split; [reflexivity|]. split; [constructor|]. intros m1 a a' _ C SM. split; assumption.
  - inversion F as [|? ? W F2]; subst. inversion ND as [|? ? N1 N2]; subst. cbn [map concat decodes]. rewrite <- app_assoc.
    destruct (decode_event visit isPrint f32 visit_perm m e m0 e' (concat (map (linesEvt visit isPrint m) es) ++ ls) fn W) as (M1 & E & OV & FR & CL). rewrite E.
    assert (SM : same_event m e M1 e') by (eapply over_blank; [exact W|apply BL; left; reflexivity|exact OV]).
    destruct (IH es' M1 ls fn F2) as (M & E2 & S2 & K2); [cbn [length] in L; lia|exact N2| |].
    { intros a J. destruct FR as (_ & _ & _ & _ & FR). rewrite (proj2 (FR a ltac:(intros ->; contradiction))). apply BL. right. exact J. }
    exists M. split; [exact E2|]. split.
    + constructor; [apply (K2 m e e' N1 CL SM)|exact S2].
    + intros m1 a a' NI C SA. assert (NE : a' <> e') by (intros ->; apply NI; left; reflexivity). apply K2; [intros J; apply NI; right; exact J|eapply keep_closed; eassumption|eapply keep_same; eassumption].
Qed.
Lemma decodes_first m es es' ls fn m0 : es <> [] -> length es' = length es ->
  decodes visit f32 {| ds := {| sl := headLines ++ concat (map (linesEvt visit isPrint m) es) ++ ls; fin := fn |}; seenHdr := false; ft := FNone |} m0 es' =
  decodes visit f32 (seenDec (concat (map (linesEvt visit isPrint m) es) ++ ls) fn) m0 es'.
Proof. intros N L. destruct es as [|e es]; [congruence|]. destruct es' as [|e' es']; [discriminate|]. cbn [decodes]. rewrite decode_first. reflexivity. Qed.

(* Events written by an Encoder that is then closed, and read by a Decoder into Events of their own, are the same events: numbers, names,
   vertices, particles, flows, weights and pointers; after them Decode returns io.EOF.  What other Events hold is left alone. *)
Theorem C63_roundtrip : forall m es m0 es', es <> [] -> Forall (wf f32 m) es -> short (write visit isPrint m es) ->
  length es' = length es -> NoDup es' -> (forall e', In e' es' -> blank (ed m0 e')) ->
  exists M d', decodes visit f32 (newDecoder (write visit isPrint m es)) m0 es' = (Val M, d') /\
    Forall2 (fun e e' => same_event m e M e') es es' /\ keeps m0 M es' /\ forall e2, fst (decode visit f32 d' M e2) = Eof.
Proof.
  intros m es m0 es' N F SH L ND BL. rewrite (newDecoder_text visit isPrint f32 visit_perm m es F N SH). unfold bodyLines. rewrite decodes_first by assumption.
  destruct (decodes_all m es es' m0 [[endGenEvent]] (Some EndEOF) F L ND BL) as (M & E & SM & K). exists M, (seenDec [[endGenEvent]] (Some EndEOF)).
  split; [exact E|]. split; [|split; [exact K|intros e2; reflexivity]]. clear - SM. induction SM as [|? ? ? ? [A _] _ IH]; constructor; assumption.
Qed.
(* What was read can be written, and then the same text is made again if the particles at the vertices were in the order of their barcodes;
   after having been read once they are. *)
Theorem C63_again : forall m es m0 es', es <> [] -> Forall (wf f32 m) es -> short (write visit isPrint m es) ->
  length es' = length es -> NoDup es' -> (forall e', In e' es' -> blank (ed m0 e')) ->
  exists M d', decodes visit f32 (newDecoder (write visit isPrint m es)) m0 es' = (Val M, d') /\ Forall (fun e' => wf f32 M e' /\ ordered M e') es' /\
    (Forall (ordered m) es -> write visit isPrint M es' = write visit isPrint m es).
Proof.
  intros m es m0 es' N F SH L ND BL. rewrite (newDecoder_text visit isPrint f32 visit_perm m es F N SH). unfold bodyLines. rewrite decodes_first by assumption.
  destruct (decodes_all m es es' m0 [[endGenEvent]] (Some EndEOF) F L ND BL) as (M & E & SM & _). exists M, (seenDec [[endGenEvent]] (Some EndEOF)). split; [exact E|]. split.
  - clear - F SM. induction SM as [|e e' es es' [A C] _ IH]; [constructor|]. inversion F as [|? ? W F2]; subst. constructor; [split; [eapply wf_read; eassumption|eapply read_ordered; eassumption]|apply IH, F2].
  - intros O. rewrite !write_lines; [|exact N|intros ->; destruct es; [congruence|discriminate]]. do 2 f_equal. unfold bodyLines. do 2 f_equal.
    clear - F SM O visit_perm. induction SM as [|e e' es es' [A C] _ IH]; [reflexivity|]. inversion F as [|? ? W F2]; subst. inversion O as [|? ? O1 O2]; subst. cbn [map]. rewrite (IH F2 O2). f_equal.
    eapply linesEvt_same; eassumption.
Qed.
(* Events made with AddVertex, AddParticleIn and AddParticleOut on one event can be written: C63_roundtrip applies to them. *)
Theorem C63_built : forall m e h0 os, fresh h0 -> single e os -> execs h0 os = Ok (gr m) ->
  (forall p q, attached (gr m) p -> attached (gr m) q -> pbc m p = pbc m q -> p = q) -> (forall v w, owned e (gr m) v -> owned e (gr m) w -> vbc m v = vbc m w -> v = w) ->
  (exists v, In (OVertex e v) os) ->
  (forall p, attached (gr m) p -> part_ok m p) -> (forall v, owned e (gr m) v -> vert_ok m v) ->
  (forall v, signal (ed m e) = Some v -> In (OVertex e v) os) ->
  (forall p, beam1 (ed m e) = Some p \/ beam2 (ed m e) = Some p -> p_end (parts (gr m) p) <> None) ->
  int_ok (evnum (ed m e)) /\ int_ok (mpi (ed m e)) /\ int_ok (sigid (ed m e)) /\ Forall int_ok (rndm (ed m e)) ->
  size_ok (e_verts (evts (gr m) e)) /\ size_ok (rndm (ed m e)) /\ size_ok (weightsOf (ed m e)) -> data_ok f32 (ed m e) ->
  short (write visit isPrint m [e]) -> forall m0 e', blank (ed m0 e') ->
  exists M d', decode visit f32 (newDecoder (write visit isPrint m [e])) m0 e' = (Val M, d') /\ same_event m e M e'.
Proof.
  intros m e h0 os F SG E DP DV EX PO VO SI BE IN SZ DA SH m0 e' BL. assert (W := wf_built f32 m e h0 os F SG E DP DV EX PO VO SI BE IN SZ DA).
  destruct (C63_roundtrip m [e] m0 [e']) as (M & d' & E2 & SM & _); [discriminate|constructor; [exact W|constructor]|exact SH|reflexivity|constructor; [intros []|constructor]|intros a [<-|[]]; exact BL|].
  cbn [decodes] in E2. destruct (decode visit f32 (newDecoder (write visit isPrint m [e])) m0 e') as [[m1| | | |] d1]; try discriminate. injection E2 as -> ->. exists M, d'. split; [reflexivity|]. inversion SM; subst. assumption.
Qed.

(* ---- C64: streams ---- *)
(* An Event that is used again: what the text of the new event does not mention is what was there before. *)
Theorem C64_reuse : forall m e ls fn m0 e', wf f32 m e -> exists M, decode visit f32 (seenDec (linesEvt visit isPrint m e ++ ls) fn) m0 e' = (Val M, seenDec ls fn) /\
  over_event m e (ed m0 e') M e' /\ (blank (ed m0 e') -> same_event m e M e').
Proof.
  intros m e ls fn m0 e' W. destruct (decode_event visit isPrint f32 visit_perm m e m0 e' ls fn W) as (M & E & OV & _). exists M. split; [exact E|]. split; [exact OV|]. intros B. eapply over_blank; eassumption.
Qed.
Lemma decode_cut m e m0 e' k : wf f32 m e -> (k < length (linesEvt visit isPrint m e))%nat -> fst (decode visit f32 (seenDec (firstn k (linesEvt visit isPrint m e)) (Some EndEOF)) m0 e') = Eof.
Proof.
  intros W K. destruct (evt_read visit isPrint f32 visit_perm m e W m0 e' [] None) as (M & E & _). rewrite app_nil_r in E. rewrite decode_seen.
  destruct (cut_body visit f32 FGenEvent m0 e' (firstn k (linesEvt visit isPrint m e)) (skipn k (linesEvt visit isPrint m e)) None) as [(o & a' & E1 & E2)|E2].
  - exfalso. rewrite firstn_skipn in E1. assert (Q := eq_trans (eq_sym E) E1). injection Q as _ Q. assert (LQ := f_equal (@length _) Q). rewrite app_length, skipn_length in LQ. cbn [length] in LQ. lia.
  - destruct (decodeBody visit f32 FGenEvent m0 e' {| sl := firstn k (linesEvt visit isPrint m e); fin := Some EndEOF |}) as [o s]. cbn [fst] in *. exact E2.
Qed.
(* lines of a text cut after a newline *)
Lemma text_cut LS : forall text more, linesText LS = (text ++ [10]) ++ more -> Forall line_ok LS -> exists k, (k <= length LS)%nat /\ text ++ [10] = linesText (firstn k LS).
Proof.
  induction LS as [|l LS IH]; intros text more E F; [destruct text; discriminate|]. inversion F as [|? ? [F0 F1] F2]; subst.
  unfold linesText in E. cbn [map concat] in E. fold (linesText LS) in E. unfold lineText at 1 in E.
  assert (NC : ~ In 10 (join 32 l)) by (intros J; apply join_chars in J; [lia|exact F1]).
  assert (ONE : lineText l = linesText (firstn 1 (l :: LS))) by (unfold linesText; cbn [firstn map concat]; rewrite app_nil_r; reflexivity).
  destruct (app_eq_app _ _ _ _ E) as (x & [[E1 E2]|[E1 E2]]).
  - destruct x as [|c x] using rev_ind; [rewrite app_nil_r in E1; exists 1%nat; split; [cbn [length]; lia|rewrite <- ONE; symmetry; exact E1]|].
    rewrite app_assoc in E1. apply app_inj_tail in E1. destruct E1 as [E1 _]. exfalso. apply NC. rewrite E1. apply in_or_app. left. apply in_or_app. right. left. reflexivity.
  - destruct x as [|c x] using rev_ind; [rewrite app_nil_r in E1; exists 1%nat; split; [cbn [length]; lia|rewrite <- ONE; exact E1]|]. clear IHx.
    assert (E3 := E1). rewrite app_assoc in E3. apply app_inj_tail in E3. destruct E3 as [_ <-]. destruct (IH x more E2 F2) as (k & LK & EK). exists (S k). split; [cbn [length]; lia|].
    rewrite E1, EK. reflexivity.
Qed.
Lemma nd_firstn {A} (l : list A) n : NoDup l -> NoDup (firstn n l).
Proof. revert n. induction l as [|x l IH]; intros [|n] N; try (constructor; fail). cbn [firstn]. inversion N as [|? ? N1 N2]; subst. constructor; [|apply IH, N2]. intros J. apply N1. rewrite <- (firstn_skipn n l). apply in_or_app. left. exact J. Qed.
Lemma firstn_concat {A B} (f : A -> list B) (es : list A) k : (k <= length (concat (map f es)))%nat ->
  (exists n e j, nth_error es n = Some e /\ (j < length (f e))%nat /\ firstn k (concat (map f es)) = concat (map f (firstn n es)) ++ firstn j (f e)) \/ k = length (concat (map f es)).
Proof.
  revert k. induction es as [|e es IH]; intros k; cbn [map concat length]; [intros K; right; lia|]. rewrite app_length. intros K.
  destruct (Nat.lt_ge_cases k (length (f e))) as [L|L].
  - left. exists 0%nat, e, k. split; [reflexivity|]. split; [exact L|]. cbn [firstn map concat app]. rewrite firstn_app. replace (k - length (f e))%nat with 0%nat by lia. cbn [firstn]. apply app_nil_r.
  - destruct (IH (k - length (f e))%nat) as [(n & e1 & j & E1 & E2 & E3)|E]; [lia| |right; lia]. left. exists (S n), e1, j. split; [exact E1|]. split; [exact E2|].
    cbn [firstn map concat]. rewrite firstn_app, E3, <- app_assoc. f_equal. apply firstn_all2. exact L.
Qed.
Lemma in_linesText l LS c : In l LS -> In c (join 32 l) -> In c (linesText LS).
Proof. intros J K. unfold linesText. apply in_concat. exists (lineText l). split; [apply in_map, J|apply in_or_app; left; exact K]. Qed.
Lemma short_firstn LS k : Forall line_ok LS -> short (linesText LS) -> short (linesText (firstn k LS)).
Proof.
  intros F SH l J. assert (FK : Forall line_ok (firstn k LS)) by (rewrite <- (firstn_skipn k LS) in F; apply Forall_app in F; apply F). rewrite split_lines in J by exact FK.
  apply SH. rewrite split_lines by exact F. apply in_app_or in J. apply in_or_app. destruct J as [J|J]; [left|right; exact J]. apply in_map_iff in J. destruct J as (x & <- & J). apply in_map.
  rewrite <- (firstn_skipn k LS). apply in_or_app. left. exact J.
Qed.
(* what Encode of es has written, before Close *)
Definition written (m : mem) (es : list nat) : str := headerText ++ concat (map (encode visit isPrint true m) es).
Lemma written_lines m es : written m es = linesText (headLines ++ concat (map (linesEvt visit isPrint m) es)).
Proof.
  unfold written. rewrite headerText_lines, linesText_app. f_equal. induction es as [|e es IH]; [reflexivity|]. cbn [map concat]. rewrite linesText_app, IH. reflexivity.
Qed.
Lemma linesText_pos a : a <> [] -> (0 < length (linesText a))%nat.
Proof. destruct a as [|l a]; [congruence|]. intros _. unfold linesText. cbn [map concat]. unfold lineText. rewrite !app_length. cbn [length]. lia. Qed.
Lemma linesText_len LS j k : (j < k)%nat -> (k <= length LS)%nat -> (length (linesText (firstn j LS)) < length (linesText (firstn k LS)))%nat.
Proof.
  intros JK KL. replace (firstn k LS) with (firstn j LS ++ skipn j (firstn k LS)).
  - rewrite linesText_app, app_length. assert (0 < length (linesText (skipn j (firstn k LS))))%nat; [|lia]. apply linesText_pos. intros E. assert (Q := f_equal (@length _) E). rewrite skipn_length, firstn_length in Q. cbn [length] in Q. lia.
  - rewrite <- (firstn_skipn j (firstn k LS)) at 2. f_equal. rewrite firstn_firstn. f_equal. lia.
Qed.
(* the lines of a file that is cut after a newline *)
Lemma cut_form m es text more : es <> [] -> Forall (wf f32 m) es -> write visit isPrint m es = text ++ more -> (exists t, text = t ++ [10]) -> (length headerText <= length text)%nat ->
  exists n ls, (n <= length es)%nat /\ text = linesText (headLines ++ concat (map (linesEvt visit isPrint m) (firstn n es)) ++ ls) /\
   ((n = length es /\ (ls = [] \/ ls = [[endGenEvent]])) \/ exists e j, nth_error es n = Some e /\ (j < length (linesEvt visit isPrint m e))%nat /\ ls = firstn j (linesEvt visit isPrint m e)) /\
   exists k, headLines ++ concat (map (linesEvt visit isPrint m) (firstn n es)) ++ ls = firstn k (headLines ++ bodyLines visit isPrint m es).
Proof.
  intros N F E [t ->] HL. assert (FL := body_ok visit isPrint f32 visit_perm m es F). rewrite write_lines in E by exact N. destruct (text_cut _ _ _ E FL) as (k & LK & EK). rewrite EK in *.
  assert (K3 : (3 <= k)%nat).
  { destruct (Nat.lt_ge_cases k 3) as [K|K]; [|exact K]. exfalso. assert (Q := linesText_len (headLines ++ bodyLines visit isPrint m es) k 3 K ltac:(rewrite app_length; cbn [length headLines]; lia)). rewrite headerText_lines in HL.
    replace (firstn 3 (headLines ++ bodyLines visit isPrint m es)) with headLines in Q by reflexivity. lia. }
  set (K := (k - 3)%nat). assert (EF : firstn k (headLines ++ bodyLines visit isPrint m es) = headLines ++ firstn K (bodyLines visit isPrint m es)).
  { replace k with (3 + K)%nat by (unfold K; lia). reflexivity. }
  assert (LB : (K <= length (bodyLines visit isPrint m es))%nat) by (rewrite app_length in LK; cbn [length headLines] in LK; unfold K; lia). unfold bodyLines in LB. rewrite app_length in LB. cbn [length] in LB.
  destruct (Nat.eq_dec K (S (length (concat (map (linesEvt visit isPrint m) es))))) as [EKK|NK].
  - exists (length es), [[endGenEvent]]. rewrite firstn_all. split; [lia|]. assert (Q : headLines ++ concat (map (linesEvt visit isPrint m) es) ++ [[endGenEvent]] = firstn k (headLines ++ bodyLines visit isPrint m es)).
    { rewrite EF. f_equal. unfold bodyLines. symmetry. apply firstn_all2. rewrite app_length. cbn [length]. lia. }
    rewrite Q. split; [reflexivity|]. split; [left; auto|exists k; reflexivity].
  - assert (EB : firstn K (bodyLines visit isPrint m es) = firstn K (concat (map (linesEvt visit isPrint m) es))).
    { unfold bodyLines. rewrite firstn_app. replace (K - _)%nat with 0%nat by lia. cbn [firstn]. apply app_nil_r. }
    rewrite EB in EF. destruct (firstn_concat (linesEvt visit isPrint m) es K) as [(n & e & j & E1 & E2 & E3)|EA]; [lia| |].
    + exists n, (firstn j (linesEvt visit isPrint m e)). assert (n < length es)%nat by (apply nth_error_Some; congruence). split; [lia|]. rewrite E3 in EF. rewrite <- EF. split; [reflexivity|]. split; [right; eauto|eauto].
    + exists (length es), []. rewrite firstn_all. split; [lia|]. rewrite EA, firstn_all in EF. rewrite app_nil_r, <- EF. split; [reflexivity|]. split; [left; auto|eauto].
Qed.

(* A file that was cut after any whole line: the events that are complete are read, then Decode returns io.EOF, as at the end of a complete file. *)
Theorem C64_truncated : forall m es text more m0 es', es <> [] -> Forall (wf f32 m) es -> short (write visit isPrint m es) ->
  write visit isPrint m es = text ++ more -> (exists t, text = t ++ [10]) -> (length headerText <= length text)%nat ->
  length es' = length es -> NoDup es' -> (forall e', In e' es' -> blank (ed m0 e')) ->
  exists n M d', (n <= length es)%nat /\ decodes visit f32 (newDecoder text) m0 (firstn n es') = (Val M, d') /\
    Forall2 (fun e e' => same_event m e M e') (firstn n es) (firstn n es') /\ (forall e2, fst (decode visit f32 d' M e2) = Eof) /\
    (length (written m (firstn n es)) <= length text)%nat /\ (n = length es \/ (length text < length (written m (firstn (S n) es)))%nat).
Proof.
  intros m es text more m0 es' N F SH E TN HL L ND BL. destruct (cut_form m es text more N F E TN HL) as (n & ls & NL & ET & SHAPE & (k & EK)).
  assert (FL := body_ok visit isPrint f32 visit_perm m es F).
  assert (FN : Forall (wf f32 m) (firstn n es)) by (rewrite <- (firstn_skipn n es) in F; apply Forall_app in F; apply F).
  assert (L' : length (firstn n es') = length (firstn n es)) by (rewrite !firstn_length; lia).
  assert (ND' : NoDup (firstn n es')) by (apply nd_firstn, ND).
  assert (BL' : forall e', In e' (firstn n es') -> blank (ed m0 e')) by (intros e' J; apply BL; rewrite <- (firstn_skipn n es'); apply in_or_app; left; exact J).
  assert (EOFd : forall m2 e2, fst (decode visit f32 (seenDec ls (Some EndEOF)) m2 e2) = Eof).
  { intros m2 e2. destruct SHAPE as [(_ & [->| ->])|(e & j & E1 & E2 & ->)]; [reflexivity|reflexivity|]. apply decode_cut; [|exact E2]. rewrite Forall_forall in F. apply F. eapply nth_error_In, E1. }
  assert (ND0 : newDecoder text = {| ds := {| sl := headLines ++ concat (map (linesEvt visit isPrint m) (firstn n es)) ++ ls; fin := Some EndEOF |}; seenHdr := false; ft := FNone |}).
  { unfold newDecoder. f_equal. rewrite ET. rewrite EK. apply readlines_text; [rewrite <- (firstn_skipn k) in FL; apply Forall_app in FL; apply FL|]. apply short_firstn; [exact FL|]. rewrite <- write_lines by exact N. exact SH. }
  assert (SZ : (length (written m (firstn n es)) <= length text)%nat /\ (n = length es \/ (length text < length (written m (firstn (S n) es)))%nat)).
  { rewrite !written_lines, ET, app_assoc, (linesText_app (_ ++ _) ls), app_length. split; [lia|]. destruct SHAPE as [(-> & _)|(e & j & E1 & E2 & ->)]; [left; reflexivity|right].
    assert (EX : firstn (S n) es = firstn n es ++ [e]) by (clear - E1; revert n E1; induction es as [|a es IH]; intros [|n] E1; try discriminate; [injection E1 as ->; reflexivity|]; cbn [firstn app]; f_equal; apply IH, E1).
    rewrite EX, map_app, concat_app, app_assoc, (linesText_app (_ ++ _) (concat _)), app_length. cbn [map concat]. rewrite app_nil_r. assert (Q := linesText_len (linesEvt visit isPrint m e) j _ E2 (le_n _)). rewrite firstn_all in Q. lia. }
  destruct (firstn n es) as [|e1 es1] eqn:EN.
  - exists n, m0, (newDecoder text). split; [exact NL|]. destruct (firstn n es') as [|a l]; [|discriminate]. split; [reflexivity|]. rewrite EN. split; [constructor|]. split; [|exact SZ]. intros e2. rewrite ND0. cbn [map concat app]. rewrite decode_first. apply EOFd.
  - rewrite <- EN in *. destruct (decodes_all m (firstn n es) (firstn n es') m0 ls (Some EndEOF) FN L' ND' BL') as (M & ED & SM & _). exists n, M, (seenDec ls (Some EndEOF)). split; [exact NL|].
    rewrite ND0, decodes_first; [|rewrite EN; discriminate|exact L']. split; [exact ED|]. split; [clear - SM; induction SM as [|? ? ? ? [A _] _ IH]; constructor; assumption|]. split; [apply EOFd|exact SZ].
Qed.

(* what d has not, d0 has not *)
Definition fits (d0 d : edata) : Prop :=
  (signal d = None -> signal d0 = None) /\ (beam1 d = None -> beam1 d0 = None) /\ (beam2 d = None -> beam2 d0 = None) /\ (xsec d = None -> xsec d0 = None) /\ (hion d = None -> hion d0 = None) /\
  (weightsOf d = [] -> wmap d0 = []).
Lemma over_fits m e d0 M e' : wf f32 m e -> fits d0 (ed m e) -> over_event m e d0 M e' -> same_event m e M e'.
Proof.
  intros W (B1 & B2 & B3 & B4 & B5 & B6) (G & N & WM & X & H & SG & P1 & P2). split; [exact G|]. split; [exact N|].
  assert (EW : weightsOf (ed m e) = [] -> wmap (ed M e') = [] /\ wmap (ed m e) = []).
  { intros E. rewrite E in WM. rewrite (B6 E) in WM. split; [rewrite WM; destruct (wslice d0); reflexivity|]. destruct (w_data _ _ _ W) as ((_ & _ & RG & _) & _). rewrite E in RG.
    destruct (wmap (ed m e)) as [|x l]; [reflexivity|]. specialize (RG (snd x)). cbn [map In] in RG. assert (Q : 0 <= snd x < zlen (@nil f64)) by (apply RG; left; reflexivity). cbn in Q. lia. }
  split; [|split; [|split; [|split; [|split; [|split]]]]].
  - destruct (weightsOf (ed m e)) as [|x l]; [rewrite (proj1 (EW eq_refl)); constructor|apply WM].
  - intros n. destruct (weightsOf (ed m e)) as [|x l]; [|apply WM]. destruct (EW eq_refl) as [-> ->]. reflexivity.
  - destruct (xsec (ed m e)); [exact X|]. rewrite X. apply B4. reflexivity.
  - destruct (hion (ed m e)); [exact H|]. rewrite H. apply B5. reflexivity.
  - destruct (signal (ed m e)); [exact SG|]. rewrite SG, (B1 eq_refl). exact I.
  - destruct (beam1 (ed m e)); [exact P1|]. rewrite P1, (B2 eq_refl). exact I.
  - destruct (beam2 (ed m e)); [exact P2|]. rewrite P2, (B3 eq_refl). exact I.
Qed.
(* two events have the same optional parts *)
Definition alike (d d2 : edata) : Prop :=
  (signal d = None <-> signal d2 = None) /\ (beam1 d = None <-> beam1 d2 = None) /\ (beam2 d = None <-> beam2 d2 = None) /\ (xsec d = None <-> xsec d2 = None) /\ (hion d = None <-> hion d2 = None) /\
  (weightsOf d = [] <-> weightsOf d2 = []).
Lemma same_fits m e M e' d2 : wf f32 m e -> same_event m e M e' -> alike (ed m e) d2 -> fits (ed M e') d2.
Proof.
  intros W (_ & _ & NW & WM & X & H & SG & P1 & P2) (A1 & A2 & A3 & A4 & A5 & A6). unfold fits. repeat split.
  - intros E. apply A1 in E. rewrite E in SG. destruct (signal (ed M e')); [destruct SG|reflexivity].
  - intros E. apply A2 in E. rewrite E in P1. destruct (beam1 (ed M e')); [destruct P1|reflexivity].
  - intros E. apply A3 in E. rewrite E in P2. destruct (beam2 (ed M e')); [destruct P2|reflexivity].
  - intros E. apply A4 in E. congruence.
  - intros E. apply A5 in E. congruence.
  - intros E. apply A6 in E. destruct (wmap (ed M e')) as [|[n i] l]; [reflexivity|]. specialize (WM n). cbn [sget] in WM. rewrite str_eqb_refl in WM. symmetry in WM.
    destruct (w_data _ _ _ W) as ((N1 & _ & RG & _) & _). apply sget_In in WM; [|exact N1]. rewrite E in RG. assert (Q : 0 <= i < zlen (@nil f64)) by (apply RG; apply in_map_iff; exists (n, i); split; [reflexivity|exact WM]). cbn in Q. lia.
Qed.
Lemma copy_all m es : forall k m0 e0 n text ls fn, Forall (wf f32 m) es -> (length es < k)%nat -> 0 <= n -> (forall m2 e2, fst (decode visit f32 (seenDec ls fn) m2 e2) = Eof) ->
  exists t, copy_loop visit isPrint f32 k (seenDec (concat (map (linesEvt visit isPrint m) es) ++ ls) fn) m0 e0 n text = Copied (n + zlen es) false (text ++ t) /\
    (Forall (ordered m) es -> (forall e1 e2, In e1 es -> In e2 es -> alike (ed m e1) (ed m e2)) -> (forall e, In e es -> fits (ed m0 e0) (ed m e)) ->
     t = match es with [] => [] | _ => (if n =? 0 then headerText else []) ++ linesText (concat (map (linesEvt visit isPrint m) es)) end).
Proof.
  induction es as [|e es IH]; intros k m0 e0 n text ls fn F LK NN EO; (destruct k as [|k]; [cbn [length] in LK; lia|]); cbn [copy_loop map concat].
  - cbn [app]. specialize (EO m0 e0). destruct (decode visit f32 (seenDec ls fn) m0 e0) as [o d1]. cbn [fst] in EO. subst o. exists []. rewrite app_nil_r. split; [f_equal; cbn; lia|reflexivity].
  - inversion F as [|? ? W F2]; subst. rewrite <- app_assoc. destruct (decode_event visit isPrint f32 visit_perm m e m0 e0 (concat (map (linesEvt visit isPrint m) es) ++ ls) fn W) as (M & E & OV & _ & CL). rewrite E.
    destruct (IH k M e0 (n + 1) (text ++ encode visit isPrint (negb (n =? 0)) M e0) ls fn F2) as (t & E2 & T2); [cbn [length] in LK; lia|lia|exact EO|]. rewrite E2. eexists. rewrite <- app_assoc. split.
    + f_equal. unfold zlen. cbn [length]. lia.
    + intros O AL FI. inversion O as [|? ? O1 O2]; subst. assert (SM : same_event m e M e0) by (eapply over_fits; [exact W|apply FI; left; reflexivity|exact OV]).
      assert (T3 := T2 O2 (fun a b J K => AL a b (or_intror J) (or_intror K)) (fun a J => same_fits m e M e0 (ed m a) W SM (AL e a (or_introl eq_refl) (or_intror J)))). rewrite T3.
      unfold encode. rewrite (linesEvt_same visit visit_perm isPrint f32 m M e e0 W SM CL O1). rewrite linesText_app. rewrite <- app_assoc. replace (n + 1 =? 0) with false by lia. f_equal; [destruct (n =? 0); reflexivity|]. f_equal.
      destruct es; reflexivity.
Qed.
Lemma write_length m es : es <> [] -> (length es <= length (write visit isPrint m es))%nat.
Proof.
  intros N. rewrite write_lines by exact N. unfold bodyLines. rewrite !linesText_app, !app_length. assert (Q : (length es <= length (linesText (concat (map (linesEvt visit isPrint m) es))))%nat); [|lia]. clear N.
  induction es as [|e es IH]; [cbn; lia|]. cbn [map concat length]. rewrite linesText_app, app_length. assert (0 < length (linesText (linesEvt visit isPrint m e)))%nat by (apply linesText_pos; discriminate). lia.
Qed.
(* Copy copies all the events of a file and counts them.  If all of them have the same optional parts (cross section, heavy ion data, signal
   vertex, beams, weights) and particles at vertices are in the order of barcodes, the copy is the file, but for the last line, which Close writes. *)
Theorem C64_copy : forall m es m0 e0, es <> [] -> Forall (wf f32 m) es -> short (write visit isPrint m es) ->
  exists t, copy visit isPrint f32 (write visit isPrint m es) m0 e0 = Copied (zlen es) false t /\
  (blank (ed m0 e0) -> Forall (ordered m) es -> (forall e1 e2, In e1 es -> In e2 es -> alike (ed m e1) (ed m e2)) -> t ++ close true = write visit isPrint m es).
Proof.
  intros m es m0 e0 N F SH. assert (LW := write_length m es N). unfold copy. rewrite (newDecoder_text visit isPrint f32 visit_perm m es F N SH). set (fuel := length (write visit isPrint m es)) in *. clearbody fuel. unfold bodyLines.
  destruct (copy_all m es (S fuel) m0 e0 0 [] [[endGenEvent]] (Some EndEOF) F ltac:(lia) ltac:(lia)) as (t & E & T); [reflexivity|].
  exists t. split.
  - cbn [app] in E. rewrite Z.add_0_l in E. rewrite <- E. cbn [copy_loop]. rewrite decode_first. reflexivity.
  - intros BL O AL. rewrite T; [|exact O|exact AL|].
    + destruct es as [|e es]; [congruence|]. rewrite write_lines by discriminate. unfold bodyLines. rewrite !linesText_app, <- app_assoc. cbn [Z.eqb]. f_equal.
    + intros e J. destruct BL as (B1 & B2 & B3 & B4 & B5 & B6). unfold fits. auto 10.
Qed.
(* Of a file that was cut after a whole line the complete events are copied, and no error is returned. *)
Theorem C64_copy_truncated : forall m es text more m0 e0, es <> [] -> Forall (wf f32 m) es -> short (write visit isPrint m es) ->
  write visit isPrint m es = text ++ more -> (exists t, text = t ++ [10]) -> (length headerText <= length text)%nat ->
  exists n t, (n <= length es)%nat /\ copy visit isPrint f32 text m0 e0 = Copied (Z.of_nat n) false t /\
    (length (written m (firstn n es)) <= length text)%nat /\ (n = length es \/ (length text < length (written m (firstn (S n) es)))%nat).
Proof.
  intros m es text more m0 e0 N F SH E TN HL. destruct (cut_form m es text more N F E TN HL) as (n & ls & NL & ET & SHAPE & (k & EK)).
  assert (FL := body_ok visit isPrint f32 visit_perm m es F).
  assert (FN : Forall (wf f32 m) (firstn n es)) by (rewrite <- (firstn_skipn n es) in F; apply Forall_app in F; apply F).
  assert (EOFd : forall m2 e2, fst (decode visit f32 (seenDec ls (Some EndEOF)) m2 e2) = Eof).
  { intros m2 e2. destruct SHAPE as [(_ & [->| ->])|(e & j & E1 & E2 & ->)]; [reflexivity|reflexivity|]. apply decode_cut; [|exact E2]. rewrite Forall_forall in F. apply F. eapply nth_error_In, E1. }
  assert (ND0 : newDecoder text = {| ds := {| sl := headLines ++ concat (map (linesEvt visit isPrint m) (firstn n es)) ++ ls; fin := Some EndEOF |}; seenHdr := false; ft := FNone |}).
  { unfold newDecoder. f_equal. rewrite ET. rewrite EK. apply readlines_text; [rewrite <- (firstn_skipn k) in FL; apply Forall_app in FL; apply FL|]. apply short_firstn; [exact FL|]. rewrite <- write_lines by exact N. exact SH. }
  assert (SZ : (length (written m (firstn n es)) <= length text)%nat /\ (n = length es \/ (length text < length (written m (firstn (S n) es)))%nat)).
  { rewrite !written_lines, ET, app_assoc, (linesText_app (_ ++ _) ls), app_length. split; [lia|]. destruct SHAPE as [(-> & _)|(e & j & E1 & E2 & ->)]; [left; reflexivity|right].
    assert (EX : firstn (S n) es = firstn n es ++ [e]) by (clear - E1; revert n E1; induction es as [|a es IH]; intros [|n] E1; try discriminate; [injection E1 as ->; reflexivity|]; cbn [firstn app]; f_equal; apply IH, E1).
    rewrite EX, map_app, concat_app, app_assoc, (linesText_app (_ ++ _) (concat _)), app_length. cbn [map concat]. rewrite app_nil_r. assert (Q := linesText_len (linesEvt visit isPrint m e) j _ E2 (le_n _)). rewrite firstn_all in Q. lia. }
  assert (LW : (length (firstn n es) < S (length text))%nat).
  { assert (Q : forall l, (length l <= length (written m l))%nat).
    { intros l. rewrite written_lines, linesText_app, app_length. assert (R : (length l <= length (linesText (concat (map (linesEvt visit isPrint m) l))))%nat); [|lia].
      induction l as [|e l IH]; [cbn; lia|]. cbn [map concat length]. rewrite linesText_app, app_length. assert (0 < length (linesText (linesEvt visit isPrint m e)))%nat by (apply linesText_pos; discriminate). lia. }
    specialize (Q (firstn n es)). lia. }
  destruct (copy_all m (firstn n es) (S (length text)) m0 e0 0 [] ls (Some EndEOF) FN LW ltac:(lia) EOFd) as (t & EC & _). exists n, t. split; [exact NL|]. split; [|exact SZ].
  unfold copy. rewrite ND0. cbn [copy_loop] in EC |- *. rewrite decode_first. etransitivity; [exact EC|]. rewrite Z.add_0_l. cbn [app]. f_equal. unfold zlen. rewrite firstn_length. lia.
Qed.
(* The end of a stream: io.EOF twice, for the last line of the file and for the end of the data; one Decode more waits for ever. *)
Theorem C64_end : forall m es m0 es', es <> [] -> Forall (wf f32 m) es -> short (write visit isPrint m es) ->
  length es' = length es -> NoDup es' -> (forall e', In e' es' -> blank (ed m0 e')) ->
  exists M d1 d2 d3, decodes visit f32 (newDecoder (write visit isPrint m es)) m0 es' = (Val M, d1) /\
    forall e2, decode visit f32 d1 M e2 = (Eof, d2) /\ decode visit f32 d2 M e2 = (Eof, d3) /\ decode visit f32 d3 M e2 = (Hang, d3).
Proof.
  intros m es m0 es' N F SH L ND BL. rewrite (newDecoder_text visit isPrint f32 visit_perm m es F N SH). unfold bodyLines. rewrite decodes_first by assumption.
  destruct (decodes_all m es es' m0 [[endGenEvent]] (Some EndEOF) F L ND BL) as (M & E & SM & K). exists M, (seenDec [[endGenEvent]] (Some EndEOF)), (seenDec [] (Some EndEOF)), (seenDec [] None).
  split; [exact E|]. intros e2. repeat split.
Qed.
End Props.


















(* ---- examples ---- *)
Definition ident : forall A : Type, list A -> list A := fun A l => l.
Lemma ident_order : order ident. Proof. intros A l. apply Permutation_refl. Qed.
Definition prn (c : Z) : bool := true.
Definition flt (x : f64) : f64 := x.
Definition num (s : str) : f64 := match parse_float s with Some v => v | None => fzero end.
Definition shortb (text : str) : bool := forallb (fun l => zlen l <? 65536) (split 10 text).
Lemma shortb_ok text : shortb text = true -> short text.
Proof. intros H l J. unfold shortb in H. rewrite forallb_forall in H. specialize (H l J). lia. Qed.
(* the graph of another event *)
Lemma wf_ext f32 m m' e e' : wf f32 m e -> parts (gr m') = parts (gr m) -> verts (gr m') = verts (gr m) -> evts (gr m') e' = evts (gr m) e -> pd m' = pd m -> vd m' = vd m ->
  (forall v, signal (ed m' e') = Some v -> inV m e v) -> (forall p, beam1 (ed m' e') = Some p -> inP m e p /\ p_end (parts (gr m) p) <> None) -> (forall p, beam2 (ed m' e') = Some p -> inP m e p /\ p_end (parts (gr m) p) <> None) ->
  int_ok (evnum (ed m' e')) /\ int_ok (mpi (ed m' e')) /\ int_ok (sigid (ed m' e')) /\ Forall int_ok (rndm (ed m' e')) -> size_ok (rndm (ed m' e')) /\ size_ok (weightsOf (ed m' e')) -> data_ok f32 (ed m' e') -> wf f32 m' e'.
Proof.
  intros W E1 E2 E3 E4 E5 SG B1 B2 IN SZ DA. assert (PB : forall p, pbc m' p = pbc m p) by (intros p; unfold pbc; rewrite E1; reflexivity). assert (VB : forall v, vbc m' v = vbc m v) by (intros v; unfold vbc; rewrite E2; reflexivity).
  assert (IV : forall v, inV m' e' v <-> inV m e v) by (intros v; unfold inV; rewrite VB, E3; reflexivity). assert (IP : forall p, inP m' e' p <-> inP m e p) by (intros p; unfold inP; rewrite PB, E3; reflexivity).
  assert (OB : forall o, obc (vbc m') o = obc (vbc m) o) by (intros [v|]; [apply VB|reflexivity]).
  destruct W. constructor; unfold vert_ok, part_ok in *; rewrite ?E1, ?E2, ?E3, ?E4, ?E5; try assumption.
  - intros bc v G. rewrite VB. apply w_v, G.
  - intros bc p G. rewrite PB, OB. apply w_p, G.
  - intros v p J. apply IV in J. rewrite IP. apply w_in, J.
  - intros v p J. apply IV in J. rewrite IP. apply w_out, J.
  - intros p v J. apply IP in J. rewrite IV. apply w_end, J.
  - intros p v J. apply IP in J. rewrite IV. apply w_prod, J.
  - intros v J. apply IV in J. apply w_nd, J.
  - intros v J. apply IV, SG, J.
  - intros v J. rewrite IP. apply B1, J.
  - intros v J. rewrite IP. apply B2, J.
  - split; [apply w_sz|exact SZ].
Qed.
Lemma ordered_ext m m' e e' : ordered m e -> parts (gr m') = parts (gr m) -> verts (gr m') = verts (gr m) -> evts (gr m') e' = evts (gr m) e -> ordered m' e'.
Proof. intros O E1 E2 E3 v J. unfold inV, vbc, pbc in *. rewrite E2, E3 in J. rewrite E1, E2. apply O, J. Qed.
(* two incoming particles, a decay: vertices -1 and -2, particles 1 to 5 *)
Definition os1 : list op := [OVertex 0 0; OVertex 0 1; OIn 0 0; OIn 0 1; OOut 0 2; OIn 1 2; OOut 1 3; OOut 0 4].
Definition h1 : heap := match execs (heap0 (fun _ => 0)) os1 with Ok h => h | Panic => heap0 (fun _ => 0) end.
Definition nzero : f64 := B754_zero true.
Definition pdat : pdata := PData fzero fzero nzero fzero fzero fzero fzero 11 1 [(2, 701); (1, 501)].
Definition vdat : vdata := VData fzero fzero fzero fzero 3 [fzero] [].
Definition edat : edata := EData 20 1 (-1) fzero fzero fzero (Some 1%nat) (Some 0%nat) (Some 1%nat) (Some [fzero; fzero]) [([119; 49], 1); ([48], 0)] [5; 6] (Some (fzero, fzero)) None None GEV MM.
Definition m1 : mem := {| gr := h1; pd := fun p => match p with 3%nat => pdat | _ => PData fzero fzero fzero fzero fzero fzero fzero (-11) 2 [(3, 5)] end; vd := fun _ => vdat; ed := fun _ => edat; np := 5; nv := 2 |}.
Definition none : edata := EData 0 0 0 fzero fzero fzero None None None None [] [] None None None MEV MM.
Definition m0 : mem := {| gr := heap0 (fun _ => 0); pd := fun _ => PData fzero fzero fzero fzero fzero fzero fzero 0 0 []; vd := fun _ => VData fzero fzero fzero fzero 0 [] []; ed := fun _ => none; np := 0; nv := 0 |}.
Ltac sz := unfold size_ok, zlen; cbn [length]; reflexivity.
Ltac io := unfold int_ok; split; [vm_compute; discriminate|vm_compute; reflexivity].
Example C63_built_example : fresh (heap0 (fun _ => 0)) /\ single 0 os1 /\ execs (heap0 (fun _ => 0)) os1 = Ok (gr m1) /\
  (forall p q, attached (gr m1) p -> attached (gr m1) q -> pbc m1 p = pbc m1 q -> p = q) /\ (forall v w, owned 0 (gr m1) v -> owned 0 (gr m1) w -> vbc m1 v = vbc m1 w -> v = w) /\
  (exists v, In (OVertex 0 v) os1) /\ (forall p, attached (gr m1) p -> part_ok m1 p) /\ (forall v, owned 0 (gr m1) v -> vert_ok m1 v) /\
  (forall v, signal (ed m1 0%nat) = Some v -> In (OVertex 0 v) os1) /\ (forall p, beam1 (ed m1 0%nat) = Some p \/ beam2 (ed m1 0%nat) = Some p -> p_end (parts (gr m1) p) <> None) /\
  (int_ok (evnum (ed m1 0%nat)) /\ int_ok (mpi (ed m1 0%nat)) /\ int_ok (sigid (ed m1 0%nat)) /\ Forall int_ok (rndm (ed m1 0%nat))) /\
  (size_ok (e_verts (evts (gr m1) 0%nat)) /\ size_ok (rndm (ed m1 0%nat)) /\ size_ok (weightsOf (ed m1 0%nat))) /\ data_ok flt (ed m1 0%nat) /\ short (write ident prn m1 [0%nat]).
Proof.
  assert (AT : forall p, attached (gr m1) p -> (p < 5)%nat).
  { intros p [H|H]; (do 5 (destruct p as [|p]; [lia|])); exfalso; apply H; reflexivity. }
  assert (OW : forall v, owned 0 (gr m1) v -> (v < 2)%nat) by (intros v H; do 2 (destruct v as [|v]; [clear H; lia|]); exfalso; vm_compute in H; discriminate H).
  split; [repeat split|]. split; [split; [intros e J; cbn in J; intuition discriminate|intros e v J; cbn in J; intuition congruence]|].
  split. { unfold m1, h1. cbn [gr]. destruct (execs (heap0 (fun _ => 0)) os1) as [h|] eqn:E; [reflexivity|vm_compute in E; discriminate E]. }
  split. { intros p q A B. apply AT in A. apply AT in B. do 5 (destruct p as [|p]; [do 5 (destruct q as [|q]; [vm_compute; intros X; (reflexivity || discriminate X)|]); lia|]). lia. }
  split. { intros p q A B. apply OW in A. apply OW in B. do 2 (destruct p as [|p]; [do 2 (destruct q as [|q]; [vm_compute; intros X; (reflexivity || discriminate X)|]); lia|]). lia. }
  split; [exists 0%nat; left; reflexivity|].
  split.
  { intros p A. apply AT in A. unfold part_ok.
    assert (FO : flow_ok (flow (pd m1 p))).
    { unfold flow_ok. destruct (Nat.eq_dec p 3) as [->|NE].
      - split; [cbn; repeat constructor; cbn; intuition discriminate|]. split; [|sz]. intros k v G. apply get_In in G. cbn in G. destruct G as [E|[E|[]]]; injection E as <- <-; split; io.
      - replace (flow (pd m1 p)) with [(3, 5)] by (do 4 (destruct p as [|p]; [reflexivity || (exfalso; apply NE; reflexivity)|]); reflexivity).
        split; [cbn; repeat constructor; cbn; intuition discriminate|]. split; [|sz]. intros k v G. apply get_In in G. cbn in G. destruct G as [E|[]]; injection E as <- <-; split; io. }
    do 5 (destruct p as [|p]; [split; [io|]; split; [io|]; split; [io|]; split; [io|exact FO]|]). lia. }
  split. { intros v A. apply OW in A. unfold vert_ok. do 2 (destruct v as [|v]; [split; [io|]; split; [io|]; split; [sz|]; split; vm_compute; reflexivity|]). lia. }
  split; [intros v E; injection E as <-; right; left; reflexivity|].
  split; [intros p [E|E]; injection E as <-; vm_compute; discriminate|].
  split; [split; [io|]; split; [io|]; split; [io|]; constructor; [io|constructor; [io|constructor]]|].
  split; [split; [vm_compute; reflexivity|split; sz]|].
  split. { split; [|split; [|exact I]].
    - split; [cbn; repeat constructor; cbn; intuition discriminate|]. split; [repeat constructor; cbn; try lia; intuition discriminate|]. split; [|cbn; repeat constructor; cbn; intuition discriminate].
      intros i. unfold zlen. cbn. lia.
    - repeat split; vm_compute; discriminate. }
  apply shortb_ok. vm_compute. reflexivity.
Qed.
Lemma wf_m1 : wf flt m1 0.
Proof. destruct C63_built_example as (A1 & A2 & A3 & A4 & A5 & A6 & A7 & A8 & A9 & A10 & A11 & A12 & A13 & _). eapply wf_built; eassumption. Qed.
Lemma ordered_m1 : ordered m1 0.
Proof.
  intros v G. unfold inV in G. apply get_In in G. assert (EV : e_verts (evts (gr m1) 0%nat) = [(-1, 0%nat); (-2, 1%nat)]) by (vm_compute; reflexivity). rewrite EV in G.
  destruct G as [E|[E|[]]]; apply (f_equal snd) in E; cbn [snd] in E; subst v; (split; vm_compute; repeat constructor).
Qed.
(* the event written twice, read into the events 0 and 1 *)
Example C63_roundtrip_example : [0%nat; 0%nat] <> [] /\ Forall (wf flt m1) [0%nat; 0%nat] /\ Forall (ordered m1) [0%nat; 0%nat] /\ short (write ident prn m1 [0%nat; 0%nat]) /\
  NoDup [0%nat; 1%nat] /\ (forall e', In e' [0%nat; 1%nat] -> blank (ed m0 e')) /\ (forall e1 e2, In e1 [0%nat; 0%nat] -> In e2 [0%nat; 0%nat] -> alike (ed m1 e1) (ed m1 e2)).
Proof.
  split; [discriminate|]. split; [constructor; [apply wf_m1|constructor; [apply wf_m1|constructor]]|]. split; [constructor; [apply ordered_m1|constructor; [apply ordered_m1|constructor]]|]. split; [apply shortb_ok; vm_compute; reflexivity|].
  split; [repeat constructor; cbn; intuition discriminate|]. split; [intros e' _; repeat split|]. intros e1 e2 _ _. unfold alike. tauto.
Qed.
(* a file cut in the second event *)
Example C64_truncated_example : exists text more, write ident prn m1 [0%nat; 0%nat] = text ++ more /\ (exists t, text = t ++ [10]) /\ (length headerText <= length text)%nat /\
  (length (written ident prn m1 [0%nat]) < length text)%nat /\ more <> [].
Proof.
  exists (written ident prn m1 [0%nat] ++ lineText (lineE m1 0)), (linesText (tl (linesEvt ident prn m1 0)) ++ close true). split; [vm_compute; reflexivity|].
  split. { exists (written ident prn m1 [0%nat] ++ join 32 (lineE m1 0)). unfold lineText. rewrite app_assoc. reflexivity. }
  split; [unfold written; rewrite !app_length; lia|]. split; [rewrite app_length; unfold lineText; rewrite app_length; cbn [length]; lia|]. intros E. apply app_eq_nil in E. destruct E as [_ E]. discriminate.
Qed.

(* ---- what is not true ---- *)
Definition withEd (m : mem) (e : nat) (d : edata) : mem := {| gr := gr m; pd := pd m; vd := vd m; ed := upd (ed m) e d; np := np m; nv := nv m |}.
(* A name of a weight that has a blank: the text cannot be read. *)
Definition edBlank : edata := EData 20 1 (-1) fzero fzero fzero None None None (Some [fzero]) [([97; 32; 98], 0)] [] None None None GEV MM.
Theorem C63_blank_name_refuted : exists m, (forall d, wmap d = [] -> wslice d = None -> rndm d = [] -> pdfi d = None -> hion d = None -> signal d = None -> beam1 d = None -> beam2 d = None -> sigid d = 20 -> evnum d = 1 -> mpi d = -1 -> wf flt (withEd m 0 d) 0) /\
  wmap (ed m 0%nat) = [([97; 32; 98], 0)] /\ weightsOf (ed m 0%nat) = [fzero] /\ fst (decode ident flt (newDecoder (write ident prn m [0%nat])) m0 0) = Err.
Proof.
  exists (withEd m1 0 edBlank). split; [|split; [reflexivity|split; [reflexivity|vm_compute; reflexivity]]].
  intros d D1 D2 D3 D4 D5 D6 D7 D8 D9 D10 D11. eapply (wf_ext flt m1); [exact wf_m1|reflexivity|reflexivity|reflexivity|reflexivity|reflexivity| | | | | |]; cbn [withEd ed upd Nat.eqb].
  - intros v E. congruence.
  - intros v E. congruence.
  - intros v E. congruence.
  - rewrite D3, D9, D10, D11. split; [io|]. split; [io|]. split; [io|constructor].
  - unfold weightsOf. rewrite D2, D3. split; sz.
  - unfold data_ok, wnames_ok, pdfOf, weightsOf. rewrite D1, D2, D4, D5. cbn [map]. split; [|split; [repeat split; vm_compute; discriminate|exact I]].
    split; [constructor|]. split; [constructor|]. split; [|constructor]. intros i. unfold zlen. cbn. lia.
Qed.
(* An event without vertices: alone it cannot be read, before another one it is lost, without an error. *)
Definition noVerts : mem := {| gr := setEvt h1 1 empty_evt; pd := pd m1; vd := vd m1; ed := fun e => match e with 1%nat => EData 20 77 (-1) fzero fzero fzero None None None None [] [] None None None GEV MM | _ => edat end; np := 5; nv := 2 |}.
Theorem C63_no_vertex_refuted : exists m e1 e2, e_verts (evts (gr m) e1) = [] /\ evnum (ed m e1) = 77 /\ evnum (ed m e2) = 1 /\
  fst (decode ident flt (newDecoder (write ident prn m [e1])) m0 0) = Err /\
  exists M d, decode ident flt (newDecoder (write ident prn m [e1; e2])) m0 0 = (Val M, d) /\ evnum (ed M 0%nat) = 1 /\ fst (decode ident flt d M 1) = Eof.
Proof.
  exists noVerts, 1%nat, 0%nat. split; [reflexivity|]. split; [reflexivity|]. split; [reflexivity|]. split; [vm_compute; reflexivity|].
  remember (decode ident flt (newDecoder (write ident prn noVerts [1%nat; 0%nat])) m0 0) as r eqn:R0.
  assert (C : match r with (Val M, d) => (evnum (ed M 0%nat), fst (decode ident flt d M 1)) | _ => (0, Err) end = (1, Eof)) by (rewrite R0; vm_compute; reflexivity).
  destruct r as [[M| | | |] d]; try discriminate C. exists M, d. split; [reflexivity|]. injection C as C1 C2. split; assumption.
Qed.
(* PdfInfo that is nil comes back with zeros. *)
Theorem C63_pdf_refuted : forall visit isPrint f32 m e ls fn m0 e', order visit -> wf f32 m e -> pdfi (ed m e) = None ->
  exists M, decode visit f32 (seenDec (linesEvt visit isPrint m e ++ ls) fn) m0 e' = (Val M, seenDec ls fn) /\ pdfi (ed M e') = Some zeropdf.
Proof.
  intros visit isPrint f32 m e ls fn m2 e' V W P. destruct (C64_reuse visit V isPrint f32 m e ls fn m2 e' W) as (M & E & OV & _). exists M. split; [exact E|]. destruct OV as (_ & (_ & _ & _ & _ & _ & _ & _ & _ & Q & _) & _). rewrite P in Q. exact Q.
Qed.
Example C63_pdf_refuted_example : wf flt m1 0 /\ pdfi (ed m1 0%nat) = None. Proof. split; [apply wf_m1|reflexivity]. Qed.
(* A beam that does not decay is lost; the names of the weights of a vertex are lost. *)
Definition edBeam : edata := EData 20 1 (-1) fzero fzero fzero None (Some 3%nat) None None [] [] None None None GEV MM.
Definition mBeam : mem := {| gr := h1; pd := pd m1; vd := fun _ => VData fzero fzero fzero fzero 3 [fzero] [([119], 0)]; ed := fun _ => edBeam; np := 5; nv := 2 |}.
Theorem C63_lost_refuted : exists m M d, beam1 (ed m 0%nat) = Some 3%nat /\ inP m 0 3 /\ decode ident flt (newDecoder (write ident prn m [0%nat])) m0 0 = (Val M, d) /\ beam1 (ed M 0%nat) = None /\
  exists v v', inV m 0 v /\ inV M 0 v' /\ vbc m v = vbc M v' /\ vwm (vd m v) = [([119], 0)] /\ vwm (vd M v') = [].
Proof.
  remember (decode ident flt (newDecoder (write ident prn mBeam [0%nat])) m0 0) as r eqn:R0.
  assert (C : match r with (Val M, d) => (beam1 (ed M 0%nat), get (e_verts (evts (gr M) 0%nat)) (-1), vbc M 0, vwm (vd M 0%nat)) | _ => (Some 7%nat, None, 0, []) end = (None, Some 0%nat, -1, [])) by (rewrite R0; vm_compute; reflexivity).
  exists mBeam. destruct r as [[M| | | |] d]; try discriminate C. exists M, d. injection C as C1 C2 C3 C4. split; [reflexivity|]. split; [reflexivity|]. split; [symmetry; exact R0|]. split; [exact C1|].
  exists 0%nat, 0%nat. split; [reflexivity|]. unfold inV. rewrite C3. split; [exact C2|]. split; [reflexivity|]. split; [reflexivity|exact C4].
Qed.
(* The counters of barcodes of an event that was read start at 0: a vertex added to it takes the place of vertex -1. *)
Theorem C63_counter_refuted : exists M d h, decode ident flt (newDecoder (write ident prn m1 [0%nat])) m0 0 = (Val M, d) /\ inV M 0 0 /\ vbc M 0 = -1 /\
  v_bc (verts (gr M) 2%nat) = 0 /\ addVertex (gr M) 0 2 = Ok h /\ get (e_verts (evts h 0%nat)) (-1) = Some 2%nat /\ v_ev (verts h 0%nat) = Some 0%nat.
Proof.
  remember (decode ident flt (newDecoder (write ident prn m1 [0%nat])) m0 0) as r eqn:R0.
  assert (C : match r with (Val M, d) => match addVertex (gr M) 0 2 with Ok h => (get (e_verts (evts (gr M) 0%nat)) (-1), vbc M 0, v_bc (verts (gr M) 2%nat), get (e_verts (evts h 0%nat)) (-1), v_ev (verts h 0%nat)) | Panic => (None, 0, 0, None, None) end | _ => (None, 0, 0, None, None) end
     = (Some 0%nat, -1, 0, Some 2%nat, Some 0%nat)) by (rewrite R0; vm_compute; reflexivity).
  destruct r as [[M| | | |] d]; try discriminate C. destruct (addVertex (gr M) 0 2) as [h|] eqn:A; [|discriminate C]. exists M, d, h. injection C as C1 C2 C3 C4 C5. split; [reflexivity|]. unfold inV. rewrite C2. repeat split; assumption.
Qed.
(* Copy uses one Event for all: the cross section of the first event is also in the copy of the second, which has none. *)
Definition edNone : edata := EData 20 2 (-1) fzero fzero fzero None None None None [] [] None None None GEV MM.
Definition m2ev : mem := withEd {| gr := setEvt h1 1 (evts h1 0%nat); pd := pd m1; vd := vd m1; ed := fun _ => edat; np := 5; nv := 2 |} 1 edNone.
Ltac ex := unfold m2ev, m1, withEd, setEvt, upd; cbn [gr parts verts evts pd vd Nat.eqb]; reflexivity.
Lemma wf_m2ev : Forall (wf flt m2ev) [0%nat; 1%nat] /\ Forall (ordered m2ev) [0%nat; 1%nat].
Proof.
  assert (W := wf_m1). assert (D0 : ed m2ev 0%nat = ed m1 0%nat) by (unfold m2ev, m1, withEd, upd; cbn [ed Nat.eqb]; reflexivity). assert (D1 : ed m2ev 1%nat = edNone) by (unfold m2ev, m1, withEd, upd; cbn [ed Nat.eqb]; reflexivity). split.
  - constructor; [|constructor; [|constructor]].
    + eapply (wf_ext flt m1 m2ev 0 0); [exact W|ex|ex|ex|ex|ex| | | | | |]; rewrite D0; [exact (w_sig _ _ _ W)|exact (w_b1 _ _ _ W)|exact (w_b2 _ _ _ W)|exact (w_int _ _ _ W)|exact (proj2 (w_sz _ _ _ W))|exact (w_data _ _ _ W)].
    + eapply (wf_ext flt m1 m2ev 0 1); [exact W|ex|ex|ex|ex|ex| | | | | |]; rewrite D1; [intros v E; discriminate E|intros v E; discriminate E|intros v E; discriminate E| | |].
      * split; [io|]. split; [io|]. split; [io|constructor].
      * split; sz.
      * split; [|split; [repeat split; vm_compute; discriminate|exact I]]. split; [constructor|]. split; [constructor|]. split; [|constructor]. intros i. unfold zlen. cbn. lia.
  - constructor; [refine (ordered_ext m1 m2ev 0 0 ordered_m1 _ _ _); ex|constructor; [refine (ordered_ext m1 m2ev 0 1 ordered_m1 _ _ _); ex|constructor]].
Qed.
Definition leakText : str := match copy ident prn flt (write ident prn m2ev [0%nat; 1%nat]) m0 0 with Copied _ _ t => t | _ => [] end.
Lemma leak_check : (let r := decodes ident flt (newDecoder (leakText ++ close true)) m0 [0%nat; 1%nat] in
  match r with (Val M, d) => (evnum (ed M 1%nat), match xsec (ed M 1%nat) with Some _ => true | None => false end, match signal (ed M 1%nat) with Some _ => true | None => false end) | _ => (0, false, false) end) = (2, true, true) /\
  str_eqb (leakText ++ close true) (write ident prn m2ev [0%nat; 1%nat]) = false.
Proof. split; vm_compute; reflexivity. Qed.
Theorem C64_copy_leak_refuted : exists m es t, Forall (wf flt m) es /\ Forall (ordered m) es /\ short (write ident prn m es) /\ blank (ed m0 0%nat) /\
  copy ident prn flt (write ident prn m es) m0 0 = Copied (zlen es) false t /\ t ++ close true <> write ident prn m es /\
  exists e M d, In e es /\ xsec (ed m e) = None /\ decodes ident flt (newDecoder (t ++ close true)) m0 [0%nat; 1%nat] = (Val M, d) /\ evnum (ed M 1%nat) = evnum (ed m e) /\ xsec (ed M 1%nat) <> None /\ signal (ed M 1%nat) <> None.
Proof.
  assert (SH : short (write ident prn m2ev [0%nat; 1%nat])) by (apply shortb_ok; vm_compute; reflexivity).
  destruct (C64_copy ident ident_order prn flt m2ev [0%nat; 1%nat] m0 0) as (t & E & _); [discriminate|apply wf_m2ev|exact SH|].
  assert (ET : t = leakText) by (unfold leakText; rewrite E; reflexivity). rewrite ET in E. destruct leak_check as [L1 L2].
  exists m2ev, [0%nat; 1%nat], leakText. split; [apply wf_m2ev|]. split; [apply wf_m2ev|]. split; [exact SH|]. split; [repeat split|]. split; [exact E|].
  split; [intros Q; rewrite Q, str_eqb_refl in L2; discriminate L2|]. exists 1%nat.
  destruct (decodes ident flt (newDecoder (leakText ++ close true)) m0 [0%nat; 1%nat]) as [[M| | | |] d]; try discriminate L1. exists M, d. cbv zeta iota in L1. injection L1 as L1 L3 L4.
  split; [right; left; reflexivity|]. split; [reflexivity|]. split; [reflexivity|]. split; [exact L1|]. split; intros Q; [rewrite Q in L3; discriminate L3|rewrite Q in L4; discriminate L4].
Qed.
(* IO_Ascii files cannot be read: the E of the line of an event is taken for its number. *)
Theorem C64_ascii_refuted : forall visit f32 rest ls fn m e, fst (decode visit f32 {| ds := {| sl := (sE :: rest) :: ls; fin := fn |}; seenHdr := true; ft := FASCII |} m e) = Err.
Proof. intros. destruct ls; reflexivity. Qed.
(* A blank line between events: panic. *)
Theorem C64_blank_line_refuted : forall visit f32 rest ls fn m e f, fst (decode visit f32 {| ds := {| sl := ([] :: rest) :: ls; fin := fn |}; seenHdr := true; ft := f |} m e) = Crash.
Proof. reflexivity. Qed.
(* Nothing was written: not io.EOF but another error, also from Copy. *)
Theorem C64_empty_refuted : forall visit isPrint f32 m m2 e, write visit isPrint m [] = [] /\ fst (decode visit f32 (newDecoder []) m2 e) = Err /\ copy visit isPrint f32 [] m2 e = Copied 0 true [].
Proof. intros. repeat split. Qed.
(* A file that ends in the middle of a number can be read, with another number. *)
Theorem C64_cut_number_refuted : exists text more M d, write ident prn m1 [0%nat] = text ++ more /\ wf flt m1 0 /\ decode ident flt (newDecoder text) m0 0 = (Val M, d) /\
  exists p p', inP m1 0 p /\ inP M 0 p' /\ pbc m1 p = pbc M p' /\ get (flow (pd m1 p)) 2 = Some 701 /\ get (flow (pd M p')) 2 = Some 70.
Proof.
  set (t := written ident prn m1 [0%nat]). assert (E : write ident prn m1 [0%nat] = t ++ close true) by (vm_compute; reflexivity).
  exists (firstn (length t - 2) t), (skipn (length t - 2) t ++ close true).
  remember (decode ident flt (newDecoder (firstn (length t - 2) t)) m0 0) as r eqn:R0.
  assert (C : match r with (Val M, d) => (get (flow (pd M 4%nat)) 2, pbc M 4, get (e_parts (evts (gr M) 0%nat)) 4) | _ => (None, 0, None) end = (Some 70, 4, Some 4%nat)) by (rewrite R0; vm_compute; reflexivity).
  destruct r as [[M| | | |] d]; try discriminate C. exists M, d. injection C as C1 C2 C3.
  split; [rewrite app_assoc, firstn_skipn; exact E|]. split; [apply wf_m1|]. split; [reflexivity|]. exists 3%nat, 4%nat. unfold inP. rewrite C2. split; [vm_compute; reflexivity|]. split; [exact C3|]. split; [vm_compute; reflexivity|]. split; [vm_compute; reflexivity|exact C1].
Qed.
(* A particle whose end vertex is not in the file: panic. *)
Definition mDangling : mem := {| gr := setPart h1 3 {| p_bc := 4; p_prod := Some 1%nat; p_end := Some 9%nat |}; pd := pd m1; vd := vd m1; ed := ed m1; np := 5; nv := 2 |}.
Definition mDang2 : mem := {| gr := setVert (gr mDangling) 9 {| v_bc := -9; v_in := [3%nat]; v_out := []; v_ev := None |}; pd := pd m1; vd := vd m1; ed := ed m1; np := 5; nv := 2 |}.
Theorem C64_dangling_refuted : exists m, p_end (parts (gr m) 3%nat) = Some 9%nat /\ get (e_verts (evts (gr m) 0%nat)) (vbc m 9) = None /\ fst (decode ident flt (newDecoder (write ident prn m [0%nat])) m0 0) = Crash.
Proof. exists mDang2. split; [reflexivity|]. split; vm_compute; reflexivity. Qed.

Print Assumptions C63_roundtrip.
Print Assumptions C63_again.
Print Assumptions C63_built.
Print Assumptions C64_reuse.
Print Assumptions C64_truncated.
Print Assumptions C64_copy.
Print Assumptions C64_copy_truncated.
Print Assumptions C64_end.
Print Assumptions C63_blank_name_refuted.
Print Assumptions C63_no_vertex_refuted.
Print Assumptions C63_pdf_refuted.
Print Assumptions C63_lost_refuted.
Print Assumptions C63_counter_refuted.
Print Assumptions C64_copy_leak_refuted.
Print Assumptions C64_ascii_refuted.
Print Assumptions C64_blank_line_refuted.
Print Assumptions C64_empty_refuted.
Print Assumptions C64_cut_number_refuted.
Print Assumptions C64_dangling_refuted.
