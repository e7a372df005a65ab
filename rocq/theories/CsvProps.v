(* C76: tables written by csvutil can be read back *)
From Coq Require Import ZArith List Lia Bool String.
From Flocq Require Import IEEE754.BinarySingleNaN.
From Verif Require Import Bytes GoLib GoStrings F64 FloatText ScanfModel CsvModel CsvProofs.
Import ListNotations.
Local Open Scope Z_scope.

(* All the rows of a table come back, in order and with the values that were written, and then the loop ends with io.EOF:
   for all separators, comment characters and buffer sizes, with or without a header, whatever the strings contain except \r\n. *)
Theorem C76_roundtrip fmtG comma comment uspace cut hdr rows dst fuel :
  exactText fmtG -> delims comma comment -> headerOk comment hdr -> dst <> [] ->
  Forall (rowFits fmtG comment dst) rows -> zlen rows < 2 ^ 63 - 1 -> (List.length rows < fuel)%nat ->
  exists o0 o, readRows comma comment (mkr (written fmtG comma uspace cut (hdr ++ map Row rows)) 0) 0 (-1) = Some o0 /\
    readAll fuel comma comment o0 dst = (rows, o) /\ o_err o = EEOF.
Proof.
  intros G D HO ND F HN HF. destruct (table_chain fmtG comma comment uspace cut hdr rows dst G D HO ND F) as (rd & C & E & S).
  eexists. destruct (readAll_eof comma comment _ _ rd C E dst rows 0 (2 ^ 63 - 1) (0 - 1 + Z.max 0 0) [] fuel ND S) as (o & R & Q).
  - unfold zlen in *. rewrite map_length. rewrite Z.sub_0_r. exact HN.
  - rewrite map_length. exact HF.
  - exists o. split; [|split; [exact R|exact Q]]. reflexivity.
Qed.
(* ReadRows(beg, end) yields the rows from beg up to end and the loop ends without an error. *)
Theorem C76_range fmtG comma comment uspace cut hdr rows dst beg fin fuel :
  exactText fmtG -> delims comma comment -> headerOk comment hdr -> dst <> [] ->
  Forall (rowFits fmtG comment dst) rows -> 0 <= beg <= fin -> fin <= zlen rows -> (List.length rows < fuel)%nat ->
  exists o0 o, readRows comma comment (mkr (written fmtG comma uspace cut (hdr ++ map Row rows)) 0) beg fin = Some o0 /\
    readAll fuel comma comment o0 dst = (firstn (Z.to_nat (fin - beg)) (skipn (Z.to_nat beg) rows), o) /\ o_err o = ENil /\ o_closed o = true.
Proof.
  intros G D HO ND F HB HE HF. destruct (table_chain fmtG comma comment uspace cut hdr rows dst G D HO ND F) as (rd & C & E & S).
  set (f := map (formatValue fmtG false)) in *. set (a := Z.to_nat beg). set (n := Z.to_nat (fin - beg)). assert (LR : Z.of_nat (List.length rows) = zlen rows) by reflexivity.
  assert (EA : map f rows = firstn a (map f rows) ++ firstn n (skipn a (map f rows)) ++ skipn n (skipn a (map f rows))) by (rewrite !firstn_skipn; reflexivity).
  rewrite EA in C. apply chain_split in C as (rd1 & C1 & C2). apply chain_split in C2 as (rd2 & C2 & _).
  assert (S2 : Forall2 (scans dst) (firstn n (skipn a (map f rows))) (firstn n (skipn a rows))).
  { rewrite skipn_map, firstn_map. assert (A : Forall (fun r => scans dst (f r) r) rows). { clear - S. induction rows as [|r rows IH]; [constructor|]. cbn [map] in S. inversion S; subst. constructor; auto. }
    assert (A2 : Forall (fun r => scans dst (f r) r) (firstn n (skipn a rows))). { apply Forall_forall. intros r I. rewrite Forall_forall in A. apply A. rewrite <- (firstn_skipn a rows). apply in_or_app. right. rewrite <- (firstn_skipn n (skipn a rows)). apply in_or_app. left. exact I. }
    clear - A2. induction A2; constructor; auto. }
  pose proof (skip_chain _ _ _ _ _ C1) as SK. rewrite firstn_length, map_length, Nat.min_l in SK by lia.
  eexists. destruct (readAll_n comma comment rd1 _ rd2 C2 dst _ 0 (fin - beg) (beg - 1 + Z.max 0 beg) [] fuel ND S2) as (o & R & Q1 & Q2 & _).
  - unfold zlen. rewrite firstn_length, skipn_length, map_length. lia.
  - rewrite firstn_length, skipn_length, map_length. lia.
  - exists o. split; [|split; [exact R|split; [exact Q1|exact Q2]]]. unfold readRows. fold a. rewrite SK. destruct (Z.eqb_spec fin (-1)); [lia|reflexivity].
Qed.
(* The text of a table does not depend on when the buffer was sent to the file, as long as the header comes first. *)
Theorem C76_buffer fmtG comma uspace cut cut' hdr rows : (hdr = [] \/ exists h, hdr = [Header h]) -> Forall (fun r => r <> []) rows ->
  written fmtG comma uspace cut (hdr ++ map Row rows) = written fmtG comma uspace cut' (hdr ++ map Row rows).
Proof.
  intros H F. unfold written. rewrite !fold_left_app.
  assert (E : fold_left (wstep fmtG comma uspace cut) hdr (mkw [] []) = fold_left (wstep fmtG comma uspace cut') hdr (mkw [] [])) by (destruct H as [->|(h & ->)]; reflexivity).
  rewrite E. set (w := fold_left _ hdr _). pose proof (written_rows fmtG comma uspace cut rows w F) as A. pose proof (written_rows fmtG comma uspace cut' rows w F) as B. cbv zeta in A, B |- *. rewrite A, B. reflexivity.
Qed.
(* Rows appended to a table come after the rows it had. *)
Theorem C76_append fmtG comma comment uspace cut cut' hdr rows rows' dst fuel :
  exactText fmtG -> delims comma comment -> headerOk comment hdr -> dst <> [] ->
  Forall (rowFits fmtG comment dst) (rows ++ rows') -> zlen (rows ++ rows') < 2 ^ 63 - 1 -> (List.length (rows ++ rows') < fuel)%nat ->
  exists o0 o, readRows comma comment (mkr (appended fmtG comma uspace cut' (written fmtG comma uspace cut (hdr ++ map Row rows)) (map Row rows')) 0) 0 (-1) = Some o0 /\
    readAll fuel comma comment o0 dst = (rows ++ rows', o) /\ o_err o = EEOF.
Proof.
  intros G D HO ND F HN HF.
  assert (NE : forall r, In r (rows ++ rows') -> r <> []). { rewrite Forall_forall in F. intros r I. destruct (F r I) as (_ & K & _). intros ->. inversion K. congruence. }
  assert (E : appended fmtG comma uspace cut' (written fmtG comma uspace cut (hdr ++ map Row rows)) (map Row rows') = written fmtG comma uspace cut (hdr ++ map Row (rows ++ rows'))).
  { destruct (header_line comma comment hdr D HO) as (p & _ & HH). unfold appended, written. rewrite !fold_left_app, !HH.
    pose proof (written_rows fmtG comma uspace cut rows (mkw p []) ltac:(apply Forall_forall; intros r I; apply NE, in_or_app; auto)) as W1. cbv zeta in W1. rewrite W1.
    pose proof (written_rows fmtG comma uspace cut (rows ++ rows') (mkw p []) ltac:(apply Forall_forall; intros r I; apply NE; exact I)) as W2. cbv zeta in W2. rewrite W2.
    set (old := w_file (mkw p []) ++ _ ++ _). pose proof (written_rows fmtG comma uspace cut' rows' (mkw old []) ltac:(apply Forall_forall; intros r I; apply NE, in_or_app; auto)) as W3. cbv zeta in W3. rewrite W3.
    unfold old. cbn [w_file w_buf app]. unfold tableText. rewrite !map_app, concat_app, app_assoc. reflexivity. }
  rewrite E. apply C76_roundtrip; assumption.
Qed.

(* concrete cases *)
Lemma fmt17_exact : exactText (fmt_e 17).
Proof. intros x. split; [apply parse_fmt17|]. apply nocrlf_no13. intros I. apply fmt_chars in I; [|lia]. revert I. unfold numchar. lia. Qed.
Definition nospace (_ : str) : bool := false.
Definition row1 : list value := [VInt 8 (-5); VStr (bs "a,b"); VBool true; VUint 16 65535; VFloat B754_nan].
Definition row2 : list value := [VInt 8 127; VStr [34; 13; 34; 10; 32]; VBool false; VUint 16 0; VFloat (B754_infinity true)].
Definition dst0 : list value := [VInt 8 0; VStr []; VBool false; VUint 16 0; VFloat (B754_zero false)].
Ltac crlf := cbn; repeat match goal with |- _ /\ _ => split | |- True => exact I | |- _ -> _ => intros ? end; try lia.
Ltac fits := unfold rowFits, row1, row2, dst0; split; [repeat constructor; cbn [holds]; try lia; crlf|]; split; [repeat constructor|]; split; [discriminate|]; vm_compute; discriminate.
Example C76_roundtrip_ex cut :
  exists o0 o, readRows 59 (Some 35) (mkr (written (fmt_e 17) 59 nospace cut ([Header (bs "# id;text;flag;n;x")] ++ map Row [row1; row2])) 0) 0 (-1) = Some o0 /\
    readAll 5 59 (Some 35) o0 dst0 = ([row1; row2], o) /\ o_err o = EEOF.
Proof.
  apply C76_roundtrip.
  - exact fmt17_exact.
  - unfold delims. lia.
  - right. exists 35, (bs " id;text;flag;n;x"). split; [reflexivity|]. split; [cbn; lia|left; reflexivity].
  - discriminate.
  - constructor; [fits|]. constructor; [fits|constructor].
  - reflexivity.
  - cbn. lia.
Qed.
Example C76_range_ex cut :
  exists o0 o, readRows 44 None (mkr (written (fmt_e 17) 44 nospace cut ([] ++ map Row [row1; row2; row1])) 0) 1 2 = Some o0 /\
    readAll 5 44 None o0 dst0 = ([row2], o) /\ o_err o = ENil /\ o_closed o = true.
Proof.
  change [row2] with (firstn (Z.to_nat (2 - 1)) (skipn (Z.to_nat 1) [row1; row2; row1])). 
  assert (FT : forall r, r = row1 \/ r = row2 -> rowFits (fmt_e 17) None dst0 r).
  { intros r H. unfold rowFits. destruct H as [->| ->]; unfold row1, row2, dst0; (split; [repeat constructor; cbn [holds]; try lia; crlf|]); (split; [repeat constructor|]); (split; [discriminate|exact I]). }
  apply C76_range.
  - exact fmt17_exact.
  - unfold delims. lia.
  - left. reflexivity.
  - discriminate.
  - repeat (constructor; [apply FT; auto|]). constructor.
  - lia.
  - cbn. lia.
  - cbn. lia.
Qed.
Example C76_append_ex cut :
  exists o0 o, readRows 44 None (mkr (appended (fmt_e 17) 44 nospace cut (written (fmt_e 17) 44 nospace cut ([] ++ map Row [row1])) (map Row [row2])) 0) 0 (-1) = Some o0 /\
    readAll 5 44 None o0 dst0 = ([row1] ++ [row2], o) /\ o_err o = EEOF.
Proof.
  apply C76_append.
  - exact fmt17_exact.
  - unfold delims. lia.
  - left. reflexivity.
  - discriminate.
  - constructor; [|constructor; [|constructor]]; unfold rowFits, row1, row2, dst0; (split; [repeat constructor; cbn [holds]; try lia; crlf|]); (split; [repeat constructor|]); (split; [discriminate|exact I]).
  - reflexivity.
  - cbn. lia.
Qed.
Example C76_buffer_ex : written (fmt_e 17) 44 nospace (fun _ => 0%nat) ([Header (bs "# a")] ++ map Row [row1; row2]) = written (fmt_e 17) 44 nospace (fun s => Z.to_nat (zlen s / 2)) ([Header (bs "# a")] ++ map Row [row1; row2]).
Proof. apply C76_buffer; [right; eexists; reflexivity|]. repeat constructor; discriminate. Qed.

(* what is lost *)
Definition back (comma : Z) (comment : option Z) (ops : list wop) (dst : list value) : option (list (list value) * rerr) :=
  match readRows comma comment (mkr (written (fmt_e 17) comma nospace (fun _ => 0%nat) ops) 0) 0 (-1) with
  | Some o => let '(l, o') := readAll 10 comma comment o dst in Some (l, o_err o')
  | None => None
  end.
(* a carriage return before a newline disappears *)
Theorem C76_crlf_refuted : exists s s', s <> s' /\ back 44 None [Row [VStr s; VInt 64 1]] [VStr []; VInt 64 0] = Some ([[VStr s'; VInt 64 1]], EEOF).
Proof. exists [97; 13; 10; 98], [97; 10; 98]. split; [discriminate|]. vm_compute. reflexivity. Qed.
(* a row that is one empty string disappears *)
Theorem C76_empty_refuted : exists s, back 44 None [Row [VStr (bs "x")]; Row [VStr s]; Row [VStr (bs "y")]] [VStr []] = Some ([[VStr (bs "x")]; [VStr (bs "y")]], EEOF).
Proof. exists []. vm_compute. reflexivity. Qed.
(* a row that begins with the comment character disappears: WriteRow does not quote it *)
Theorem C76_comment_refuted : exists s, back 44 (Some 35) [Row [VStr s; VInt 64 1]; Row [VStr (bs "x"); VInt 64 2]] [VStr []; VInt 64 0] = Some ([[VStr (bs "x"); VInt 64 2]], EEOF).
Proof. exists (bs "#1"). vm_compute. reflexivity. Qed.
(* a slice is written and cannot be scanned *)
Theorem C76_slice_refuted : exists l, back 59 None [Row [VInt 64 1; VSlice l]] [VInt 64 0; VSlice []] = Some ([], EOther) /\
  written (fmt_e 17) 59 nospace (fun _ => 0%nat) [Row [VInt 64 1; VSlice l]] = bs "1;[1, 'a']" ++ [10].
Proof. exists [VInt 64 1; VStr (bs "a")]. split; vm_compute; reflexivity. Qed.
(* a header written after a row is before it in the file *)
Theorem C76_header_order_refuted : exists h r cut, written (fmt_e 17) 44 nospace cut [Row r; Header h] = written (fmt_e 17) 44 nospace cut [Header h; Row r] /\
  written (fmt_e 17) 44 nospace cut [Header h; Row r] = bs "# h" ++ [10] ++ bs "1" ++ [10].
Proof. exists (bs "# h"), [VInt 64 1], (fun _ => 0%nat). split; vm_compute; reflexivity. Qed.
(* a header without the comment character is a row: the rows that follow are refused when they have another number of fields *)
Theorem C76_header_refuted : exists h, back 44 (Some 35) [Header h; Row [VStr (bs "x"); VInt 64 2]] [VStr []; VInt 64 0] = Some ([[VStr h; VInt 64 0]], EOther).
Proof. exists (bs "names"). vm_compute. reflexivity. Qed.
(* a negative first row: more rows than asked for *)
Theorem C76_negative_refuted : exists beg fin o0, readRows 44 None (mkr (written (fmt_e 17) 44 nospace (fun _ => 0%nat) [Row [VInt 64 1]; Row [VInt 64 2]]) 0) beg fin = Some o0 /\
  fin = 1 /\ fst (readAll 10 44 None o0 [VInt 64 0]) = [[VInt 64 1]; [VInt 64 2]].
Proof. exists (-1), 1. eexists. split; [vm_compute; reflexivity|]. split; [reflexivity|]. vm_compute. reflexivity. Qed.

Print Assumptions C76_roundtrip.
Print Assumptions C76_range.
Print Assumptions C76_append.
Print Assumptions C76_buffer.
Print Assumptions C76_roundtrip_ex.
Print Assumptions C76_range_ex.
Print Assumptions C76_crlf_refuted.
Print Assumptions C76_empty_refuted.
Print Assumptions C76_comment_refuted.
Print Assumptions C76_slice_refuted.
Print Assumptions C76_header_order_refuted.
Print Assumptions C76_header_refuted.
Print Assumptions C76_negative_refuted.
