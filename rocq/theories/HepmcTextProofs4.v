(* Proofs about the text form of HepMC events, fourth part: from text to lines, several events, and text that is cut off *)
From Coq Require Import ZArith List Lia Bool Permutation Sorted.
From Flocq Require Import IEEE754.BinarySingleNaN.
From Verif Require Import Bytes GoLib GoStrings GoQuote F64 FloatText DflowModel DflowProps HepmcModel HepmcTextModel HepmcTextProofs HepmcTextProofs2 HepmcTextSpec HepmcTextProofs3.
Import ListNotations.
Local Open Scope Z_scope.

(* ---- lines and pieces ---- *)
Definition tok_ok (s : str) : Prop := forall c, In c s -> 33 <= c.
Definition line_ok (l : list str) : Prop := l <> [] /\ Forall tok_ok l.
Lemma join_chars l c : Forall tok_ok l -> In c (join 32 l) -> 32 <= c.
Proof.
  induction l as [|a l IH]; intros F J; [destruct J|]. inversion F as [|? ? F1 F2]; subst. destruct l as [|b l]; [cbn [join] in J; apply F1 in J; lia|].
  rewrite join_cons in J by discriminate. apply in_app_or in J. destruct J as [J|[<-|J]]; [apply F1 in J; lia|lia|apply IH; assumption].
Qed.
Lemma dropCR_id l : (forall c, In c l -> 32 <= c) -> dropCR l = l.
Proof.
  intros H. unfold dropCR. destruct (rev l) as [|c r] eqn:R; [reflexivity|]. assert (32 <= c) by (apply H; apply in_rev; rewrite R; left; reflexivity).
  destruct c as [|p|p]; try reflexivity. do 4 (destruct p as [p|p|]; try reflexivity). lia.
Qed.
Lemma split_lines LS : Forall line_ok LS -> split 10 (linesText LS) = map (join 32) LS ++ [[]].
Proof.
  unfold linesText. induction LS as [|l LS IH]; intros F; [reflexivity|]. inversion F as [|? ? [F0 F1] F2]; subst. cbn [map concat]. unfold lineText at 1. rewrite <- app_assoc. cbn [app].
  rewrite split_cons by (intros J; apply join_chars in J; [lia|exact F1]). rewrite (IH F2). reflexivity.
Qed.
Lemma rawlines_snoc L : rawlines (L ++ [[]]) = L.
Proof. induction L as [|l L IH]; [reflexivity|]. cbn [app]. destruct L as [|l2 L]; [destruct l; reflexivity|]. cbn [app] in *. cbn [rawlines] in *. destruct l; rewrite IH; reflexivity. Qed.
Lemma scan_short L : (forall l, In l L -> zlen l < 65536) -> (forall l c, In l L -> In c l -> 32 <= c) -> scan L = (L, true).
Proof.
  induction L as [|l L IH]; intros H C; [reflexivity|]. cbn [scan]. destruct (Z.ltb_spec (zlen l) 65536) as [_|X]; [|specialize (H l (or_introl eq_refl)); lia].
  rewrite IH; [|intros x J; apply H; right; exact J|intros x c J; apply C; right; exact J]. rewrite dropCR_id; [reflexivity|]. intros c J. apply (C l c); [left; reflexivity|exact J].
Qed.
(* every line can be read: bufio.Scanner gives up at 64 kB *)
Definition short (text : str) : Prop := forall l, In l (split 10 text) -> zlen l < 65536.
Lemma readlines_text LS : Forall line_ok LS -> short (linesText LS) -> readlines (linesText LS) = {| sl := LS; fin := Some EndEOF |}.
Proof.
  intros F S. unfold short in S. unfold readlines. rewrite split_lines in * by exact F. rewrite rawlines_snoc. rewrite scan_short.
  - f_equal. rewrite map_map. rewrite <- (map_id LS) at 2. apply map_ext_in. intros l J. rewrite Forall_forall in F. destruct (F l J) as [N T]. apply split_join; [exact N|].
    rewrite Forall_forall in *. intros s K B. specialize (T s K 32 B). lia.
  - intros l J. apply S. apply in_or_app. left. exact J.
  - intros l c J K. apply in_map_iff in J. destruct J as (t & <- & J). rewrite Forall_forall in F. destruct (F t J) as [_ T]. eapply join_chars; [exact T|exact K].
Qed.
Lemma itoa_tok n : tok_ok (itoa n).
Proof. intros c J. apply itoa_chars in J. lia. Qed.
Lemma ftext_tok x : tok_ok (ftext x).
Proof. intros c J. unfold ftext in J. apply fmt_chars in J; [|lia]. unfold numchar in J. lia. Qed.
Lemma Forall_map_tok {A} (f : A -> str) l : (forall x, In x l -> tok_ok (f x)) -> Forall tok_ok (map f l).
Proof. intros H. apply Forall_forall. intros s J. apply in_map_iff in J. destruct J as (x & <- & J). apply H, J. Qed.
Lemma tok_list s : Forall (fun c => 33 <= c) s -> tok_ok s.
Proof. intros F c J. rewrite Forall_forall in F. apply F, J. Qed.
Ltac tok := first [apply itoa_tok | apply ftext_tok | apply tok_list; repeat constructor; lia].

Section Lines.
Variable visit : forall A : Type, list A -> list A.
Variable isPrint : Z -> bool.
Variable f32 : f64 -> f64.
Hypothesis visit_perm : forall A (l : list A), Permutation l (visit A l).
Lemma lineP_ok m p : line_ok (lineP visit m p).
Proof.
  split; [discriminate|]. unfold lineP. cbv zeta. apply Forall_app. split; [repeat (constructor; [tok|]); constructor|]. unfold flowText. constructor; [tok|].
  apply Forall_forall. intros s J. apply in_concat in J. destruct J as (l & J & K). apply in_map_iff in J. destruct J as (k & <- & J). destruct K as [<-|[<-|[]]]; tok.
Qed.
Lemma linesV_ok m v : Forall line_ok (linesV visit m v).
Proof.
  constructor; [|apply Forall_forall; intros l J; apply in_map_iff in J; destruct J as (p & <- & _); apply lineP_ok]. split; [discriminate|]. unfold lineV. cbv zeta. apply Forall_app.
  split; [repeat (constructor; [tok|]); constructor|]. apply Forall_map_tok. intros x _. tok.
Qed.
Lemma linesEvt_ok m e : wf f32 m e -> Forall line_ok (linesEvt visit isPrint m e).
Proof.
  intros W. destruct (w_data _ _ _ W) as (WN & _ & _). unfold linesEvt. cbv zeta. repeat (apply Forall_app; split).
  - constructor; [|constructor]. split; [discriminate|]. unfold lineE. cbv zeta. apply Forall_app. split; [repeat (constructor; [tok|]); constructor|]. apply Forall_app. split; [apply Forall_map_tok; intros; tok|].
    apply Forall_app. split; [constructor; [tok|constructor]|apply Forall_map_tok; intros; tok].
  - unfold linesN. destruct (weightsOf (ed m e)) as [|x ws] eqn:X; [constructor|]. rewrite <- X in *. constructor; [|constructor]. split; [discriminate|]. apply Forall_app. split; [repeat (constructor; [tok|]); constructor|].
    apply Forall_app. split; [|constructor; [intros c []|constructor]]. apply Forall_map_tok. intros i J c K. unfold indices in J. apply in_map_iff in J. destruct J as (k & <- & J). apply in_seq in J.
    assert (Q := qname_spec visit visit_perm (ed m e) (Z.of_nat k) WN ltac:(unfold zlen; lia)). destruct WN as (_ & FN & _). rewrite Forall_forall in FN. destruct (FN _ Q) as [B NB]. cbn [fst] in B, NB.
    change (nameAt (namesOf visit (wmap (ed m e))) (Z.of_nat k)) with (qname visit (ed m e) (Z.of_nat k)) in K. destruct (quote_chars isPrint _ c B K) as [C1 C2]. assert (c <> 32) by (intros ->; apply NB, C2; reflexivity). lia.
  - constructor; [|constructor]. split; [discriminate|]. unfold lineU. constructor; [tok|]. constructor; [destruct (mu (ed m e)); tok|]. constructor; [destruct (lu (ed m e)); tok|constructor].
  - unfold linesC. destruct (xsec (ed m e)) as [[v r]|]; [|constructor]. constructor; [|constructor]. split; [discriminate|]. repeat (constructor; [tok|]). constructor.
  - unfold linesH. destruct (hion (ed m e)) as [h|]; [|constructor]. constructor; [|constructor]. split; [discriminate|]. constructor; [tok|]. apply Forall_app. split; apply Forall_map_tok; intros; tok.
  - constructor; [|constructor]. split; [discriminate|]. unfold lineF. cbv zeta. repeat (constructor; [tok|]). constructor.
  - apply Forall_forall. intros l J. apply in_concat in J. destruct J as (ll & J & K). apply in_map_iff in J. destruct J as (v & <- & J). assert (F := linesV_ok m v). rewrite Forall_forall in F. apply F, K.
Qed.

(* ---- a file ---- *)
Definition headLines : list (list str) := [[[]]; [sVersion; sVersionName]; [startGenEvent]].
Definition bodyLines (m : mem) (es : list nat) : list (list str) := concat (map (linesEvt visit isPrint m) es) ++ [[endGenEvent]].
Lemma linesText_app a b : linesText (a ++ b) = linesText a ++ linesText b.
Proof. unfold linesText. rewrite map_app, concat_app. reflexivity. Qed.
Lemma headerText_lines : headerText = linesText headLines.
Proof. reflexivity. Qed.
Lemma write_lines m es : es <> [] -> write visit isPrint m es = linesText (headLines ++ bodyLines m es).
Proof.
  intros N. destruct es as [|e es]; [congruence|]. unfold write, encode, bodyLines. rewrite headerText_lines. cbn [map concat]. rewrite !linesText_app. rewrite <- !app_assoc. do 2 f_equal.
  assert (X : linesText (concat (map (linesEvt visit isPrint m) es)) = concat (map (fun e => [] ++ linesText (linesEvt visit isPrint m e)) es)).
  { clear. induction es as [|a es IH]; [reflexivity|]. cbn [map concat]. rewrite linesText_app, IH. reflexivity. }
  rewrite X. f_equal.
Qed.
Definition seenDec (ls : list (list str)) (fn : option ending) : decoder := {| ds := {| sl := ls; fin := fn |}; seenHdr := true; ft := FGenEvent |}.
Lemma decode_first ls fn m e : decode visit f32 {| ds := {| sl := headLines ++ ls; fin := fn |}; seenHdr := false; ft := FNone |} m e = decode visit f32 (seenDec ls fn) m e.
Proof.
  unfold decode. cbn [seenHdr]. unfold findFileType. cbn [ds sl fin].
  replace (findType (headLines ++ ls)) with (Some (FGenEvent, ls)); [reflexivity|]. unfold headLines. cbn [app findType next fst].
  change (str_eqb [] startGenEvent) with false. change (str_eqb [] startASCII) with false. change (str_eqb [] startExtendedASCII) with false. change (str_eqb [] startPdt) with false. change (str_eqb [] startExtendedASCIIPdt) with false.
  change (str_eqb sVersion startGenEvent) with false. change (str_eqb sVersion startASCII) with false. change (str_eqb sVersion startExtendedASCII) with false. change (str_eqb sVersion startPdt) with false. change (str_eqb sVersion startExtendedASCIIPdt) with false.
  rewrite str_eqb_refl. reflexivity.
Qed.
Lemma decode_seen ls fn m e : decode visit f32 (seenDec ls fn) m e =
  let '(r, s) := decodeBody visit f32 FGenEvent m e {| sl := ls; fin := fn |} in (r, {| ds := s; seenHdr := true; ft := FGenEvent |}).
Proof. reflexivity. Qed.
Lemma decode_event m e m0 e' ls fn : wf f32 m e -> exists M, decode visit f32 (seenDec (linesEvt visit isPrint m e ++ ls) fn) m0 e' = (Val M, seenDec ls fn) /\
  over_event m e (ed m0 e') M e' /\ frame m0 M e' /\ closed M e'.
Proof. intros W. destruct (evt_read visit isPrint f32 visit_perm m e W m0 e' ls fn) as (M & E & R). exists M. split; [|exact R]. rewrite decode_seen, E. reflexivity. Qed.
Lemma decode_end ls fn m e : decode visit f32 (seenDec ([endGenEvent] :: ls) fn) m e = (Eof, seenDec ls fn).
Proof. reflexivity. Qed.
Lemma body_ok m es : Forall (wf f32 m) es -> Forall line_ok (headLines ++ bodyLines m es).
Proof.
  intros F. apply Forall_app. split.
  - unfold headLines. constructor; [split; [discriminate|constructor; [intros c []|constructor]]|]. constructor; [split; [discriminate|repeat (constructor; [tok|]); constructor]|]. constructor; [split; [discriminate|repeat (constructor; [tok|]); constructor]|constructor].
  - unfold bodyLines. apply Forall_app. split; [|constructor; [split; [discriminate|repeat (constructor; [tok|]); constructor]|constructor]]. apply Forall_forall. intros l J. apply in_concat in J. destruct J as (ll & J & K).
    apply in_map_iff in J. destruct J as (e & <- & J). rewrite Forall_forall in F. assert (G := linesEvt_ok m e (F e J)). rewrite Forall_forall in G. apply G, K.
Qed.
Lemma newDecoder_text m es : Forall (wf f32 m) es -> es <> [] -> short (write visit isPrint m es) ->
  newDecoder (write visit isPrint m es) = {| ds := {| sl := headLines ++ bodyLines m es; fin := Some EndEOF |}; seenHdr := false; ft := FNone |}.
Proof. intros F N S. unfold newDecoder. f_equal. rewrite write_lines in * by exact N. apply readlines_text; [apply body_ok, F|exact S]. Qed.

(* ---- a blank event ---- *)
Lemma over_blank m e d0 M e' : wf f32 m e -> blank d0 -> over_event m e d0 M e' -> same_event m e M e'.
Proof.
  intros W (B1 & B2 & B3 & B4 & B5 & B6) (G & N & WM & X & H & S & P1 & P2). split; [exact G|]. split; [exact N|]. rewrite B4 in X. rewrite B5 in H. rewrite B6 in WM. rewrite B1 in S. rewrite B2 in P1. rewrite B3 in P2.
  split; [|split; [|split; [|split; [|split; [|split]]]]].
  - destruct (weightsOf (ed m e)) as [|x l]; [|apply WM]. rewrite WM. destruct (wslice d0); constructor.
  - intros n. destruct (weightsOf (ed m e)) as [|x l] eqn:E; [|apply WM]. destruct (w_data _ _ _ W) as ((_ & _ & C & _) & _). rewrite E in C.
    assert (Z0 : wmap (ed m e) = []). { destruct (wmap (ed m e)) as [|[a i] r]; [reflexivity|]. assert (K : 0 <= i < zlen (@nil f64)) by (apply C; left; reflexivity). change (zlen (@nil f64)) with 0 in K. lia. }
    rewrite Z0, WM. destruct (wslice d0); reflexivity.
  - rewrite X. destruct (xsec (ed m e)); reflexivity.
  - rewrite H. destruct (hion (ed m e)); reflexivity.
  - destruct (signal (ed m e)); [exact S|rewrite S; exact I].
  - destruct (beam1 (ed m e)); [exact P1|rewrite P1; exact I].
  - destruct (beam2 (ed m e)); [exact P2|rewrite P2; exact I].
Qed.
(* ---- later events leave it alone ---- *)
Lemma frame_refl m e : frame m m e. Proof. repeat split; auto. Qed.
Section Keep.
Variables (m M M2 : mem) (e e' e2 : nat).
Hypothesis CL : closed M e'.
Hypothesis FR : frame M M2 e2.
Hypothesis NE : e' <> e2.
Hypothesis SM : same_event m e M e'.
Lemma keep_evt : evts (gr M2) e' = evts (gr M) e' /\ ed M2 e' = ed M e'.
Proof. destruct FR as (_ & _ & _ & _ & F). apply F, NE. Qed.
Lemma keep_v bc v : get (e_verts (evts (gr M) e')) bc = Some v -> verts (gr M2) v = verts (gr M) v /\ vd M2 v = vd M v.
Proof. intros G. destruct CL as (_ & C & _). destruct FR as (_ & _ & _ & F & _). apply F. apply (C bc v G). Qed.
Lemma keep_p bc p : get (e_parts (evts (gr M) e')) bc = Some p -> parts (gr M2) p = parts (gr M) p /\ pd M2 p = pd M p.
Proof. intros G. destruct CL as (_ & _ & C). destruct FR as (_ & _ & F & _). apply F. apply (C bc p G). Qed.
Lemma keep_vlink o o' : vlink m M e' o o' -> vlink m M2 e' o o'.
Proof. destruct keep_evt as [E _]. destruct o as [v|], o' as [v'|]; cbn [vlink]; auto. rewrite E. intros [A B]. split; [|exact B]. unfold vbc at 1. rewrite (proj1 (keep_v _ _ B)). exact A. Qed.
Lemma keep_plink o o' : plink m M e' o o' -> plink m M2 e' o o'.
Proof. destruct keep_evt as [E _]. destruct o as [v|], o' as [v'|]; cbn [plink]; auto. rewrite E. intros [A B]. split; [|exact B]. unfold pbc at 1. rewrite (proj1 (keep_p _ _ B)). exact A. Qed.
Lemma keep_plist l l' : plist m M e' l l' -> plist m M2 e' l l'.
Proof.
  intros (A & B & C). assert (E : forall p, In p l' -> pbc M2 p = pbc M p) by (intros p J; unfold pbc; rewrite (proj1 (keep_p _ _ (C p J))); reflexivity).
  unfold plist. rewrite (map_ext_in _ _ _ E). split; [exact A|]. split; [exact B|]. intros p J. rewrite (E p J), (proj1 keep_evt). apply C, J.
Qed.
Lemma keep_same : same_event m e M2 e'.
Proof.
  destruct SM as ([GV GP] & N & NW & WM & X & H & S & P1 & P2). destruct keep_evt as [EE ED]. unfold same_event, same_graph. rewrite EE, ED.
  split; [split|repeat (split; [assumption|]); split; [apply keep_vlink, S|split; apply keep_plink; assumption]].
  - intros bc. specialize (GV bc). destruct (get (e_verts (evts (gr m) e)) bc) as [v|], (get (e_verts (evts (gr M) e')) bc) as [v'|] eqn:G; auto. destruct (keep_v _ _ G) as [K1 K2].
    destruct GV as (A1 & A2 & A3 & A4 & A5 & A6 & A7 & A8 & A9 & A10). unfold same_vert. unfold vbc at 1. rewrite K1, K2. repeat (split; [assumption|]). split; apply keep_plist; assumption.
  - intros bc. specialize (GP bc). destruct (get (e_parts (evts (gr m) e)) bc) as [p|], (get (e_parts (evts (gr M) e')) bc) as [p'|] eqn:G; auto. destruct (keep_p _ _ G) as [K1 K2].
    destruct GP as (A1 & A2 & A3 & A4). unfold same_part. unfold pbc at 1. rewrite K1, K2. repeat (split; [assumption|]). split; apply keep_vlink; assumption.
Qed.
Lemma keep_closed : closed M2 e'.
Proof.
  destruct keep_evt as [EE _]. destruct FR as (L1 & L2 & _). destruct CL as (C0 & C1 & C2). unfold closed. rewrite EE. split; [exact C0|]. split.
  - intros bc v G. destruct (C1 bc v G) as [A B]. rewrite (proj1 (keep_v _ _ G)). split; [lia|]. intros p J. specialize (B p J). lia.
  - intros bc p G. specialize (C2 bc p G). lia.
Qed.
End Keep.
End Lines.
