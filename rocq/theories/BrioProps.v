(* C66: the binary form of histograms, profiles and scatters. *)
From Coq Require Import ZArith List Bool Lia.
From Verif Require Import GoLib Bytes BrioModel BrioProofs BrioProofs2.
Import ListNotations.
Open Scope Z_scope.

Section C66.
Context {Ann : Type}.
Variable gobenc : Ann -> option (list Z).
Variable gobdec : list Z -> option Ann.
Local Notation obj := (@BrioModel.obj Ann).
Local Notation out := (@BrioModel.out Ann).
(* encoding/gob gives back the annotations a *)
Definition gob_ok (a : Ann) : Prop := forall s, gobenc a = Some s -> gobdec s = Some a.
(* the outcome of UnmarshalBinary u into any receiver o, from the bytes data of x: x itself; and from data without its end: a panic *)
Definition back {B} (u : obj B -> list Z -> res (out B)) (o x : obj B) (data : list Z) : Prop :=
  u o data = Ok (x, false) /\ forall p t, data = p ++ t -> t <> [] -> u o p = Panic.

Lemma back_gen {B} (f : obj B -> sl -> res (out B * sl)) o x m s :
  ext (f o) -> reads (f o) (m ++ frame s) (x, false) -> back (fun o d => uAnn (f o (full d))) o x (m ++ frame s).
Proof.
  intros E R. split.
  - unfold uAnn. rewrite (reads_full _ _ _ R). reflexivity.
  - intros p t P T. unfold uAnn. rewrite P in R. rewrite (cut_panics _ _ _ _ E R T). reflexivity.
Qed.
Lemma mAnn_inv {B} (x : obj B) b data : mAnn gobenc x b = Some data -> exists s, gobenc (ann x) = Some s /\ data = b ++ frame s.
Proof. unfold mAnn. destruct (gobenc (ann x)) as [s|]; [|discriminate]. intros H. inversion H. eauto. Qed.

Theorem C66_H1D (o x : obj Binning1D) data :
  wfBinning1D (bng x) -> gob_ok (ann x) -> length (n1out (bng o)) = 2%nat -> mH1D gobenc x = Some data -> zlen data <= 2 ^ 48 ->
  back (uH1D gobdec) o x data.
Proof.
  intros W G O M L. apply mAnn_inv in M as (s & E & ->). rewrite zlen_app, !frame_len in L. pose proof (zlen_nonneg s).
  pose proof W as (_ & _ & _ & K & _). pose proof (mBinning1D_len _ K) as Z. pose proof (zlen_nonneg (n1bins (bng x))).
  apply (back_gen (rH1D gobdec)).
  - apply obj_ext. apply unframe_ext, drop_cap, rBinning1D_ext.
  - apply obj_reads; [|apply G; auto|lia]. apply unframe_reads; [|lia]. apply drop_reads. apply Binning1D_reads; auto. lia.
Qed.
Theorem C66_P1D (o x : obj BinningP1D) data :
  wfBinningP1D (bng x) -> gob_ok (ann x) -> length (npout (bng o)) = 2%nat -> mP1D gobenc x = Some data -> zlen data <= 2 ^ 48 ->
  back (uP1D gobdec) o x data.
Proof.
  intros W G O M L. apply mAnn_inv in M as (s & E & ->). rewrite zlen_app, !frame_len in L. pose proof (zlen_nonneg s).
  pose proof W as (_ & _ & _ & K & _). pose proof (mBinningP1D_len _ K) as Z. pose proof (zlen_nonneg (npbins (bng x))).
  apply (back_gen (rP1D gobdec)).
  - apply obj_ext. apply unframe_ext, drop_cap, rBinningP1D_ext.
  - apply obj_reads; [|apply G; auto|lia]. apply unframe_reads; [|lia]. apply drop_reads. apply BinningP1D_reads; auto. lia.
Qed.
Theorem C66_H2D (o x : obj Binning2D) data :
  wfBinning2D (bng x) -> gob_ok (ann x) -> length (n2out (bng o)) = 8%nat -> mH2D gobenc x = Some data -> zlen data <= 2 ^ 48 ->
  back (uH2D gobdec) o x data.
Proof.
  intros W G O M L. apply mAnn_inv in M as (s & E & ->). rewrite zlen_app, !frame_len in L. pose proof (zlen_nonneg s).
  pose proof W as (_ & _ & _ & K & _). pose proof (mBinning2D_len _ K) as Z.
  pose proof (zlen_nonneg (n2bins (bng x))). pose proof (zlen_nonneg (XEdges (bng x))). pose proof (zlen_nonneg (YEdges (bng x))).
  apply (back_gen (rH2D gobdec)).
  - apply obj_ext. apply unframe_ext, drop_cap, rBinning2D_ext.
  - apply obj_reads; [|apply G; auto|lia]. apply unframe_reads; [|lia]. apply drop_reads. apply Binning2D_reads; auto; lia.
Qed.
Theorem C66_S2D (o x : obj (list Point2D)) data :
  Forall wfPoint2D (bng x) -> gob_ok (ann x) -> mS2D gobenc x = Some data -> zlen data <= 2 ^ 48 -> back (uS2D gobdec) o x data.
Proof.
  intros W G M L. apply mAnn_inv in M as (s & E & ->). rewrite zlen_app, frame_len in L. pose proof (zlen_nonneg s).
  pose proof (mslice_len mPoint2D 64 (bng x) mPoint2D_len) as Z. pose proof (zlen_nonneg (bng x)).
  apply (back_gen (rS2D gobdec)).
  - apply obj_ext. apply slice_ext. intros. apply drop_cap, rPoint2D_ext.
  - apply obj_reads; [|apply G; auto|lia]. apply slice_reads; try lia. intros y I o'. rewrite Forall_forall in W.
    apply unframe_reads; [apply drop_reads, Point2D_reads; auto|rewrite mPoint2D_len; reflexivity].
Qed.

(* ---- the size of the bytes ---- *)
Theorem C66_size_H1D (x : obj Binning1D) data s : length (n1out (bng x)) = 2%nat -> mH1D gobenc x = Some data -> gobenc (ann x) = Some s ->
  zlen data = 216 + 88 * zlen (n1bins (bng x)) + zlen s.
Proof.
  intros K M G. apply mAnn_inv in M as (s' & E & ->). rewrite zlen_app, !frame_len, (mBinning1D_len _ K). rewrite G in E. inversion E. lia.
Qed.

(* ---- RioMarshal and RioUnmarshal of H1D ---- *)
Lemma readFull_app a t : readFull (zlen a) (a ++ t) = (inl a, t).
Proof.
  unfold readFull. pose proof (zlen_nonneg a). pose proof (zlen_nonneg t). destruct (zlen a =? 0) eqn:E.
  - apply Z.eqb_eq in E. apply zlen_0_nil in E. subst. reflexivity.
  - rewrite zlen_app. replace (_ <=? _) with true by lia. rewrite zfirst, zskip; auto.
Qed.
Lemma readFull8 v t : readFull 8 (put8 v ++ t) = (inl (put8 v), t).
Proof. rewrite <- (readFull_app (put8 v) t). rewrite put8_len. reflexivity. Qed.
Lemma readFull_short n s : zlen s < n -> readFull n s = (inr (match s with [] => EOF | _ => UnexpectedEOF end), []).
Proof. intros H. pose proof (zlen_nonneg s). unfold readFull. replace (n =? 0) with false by lia. replace (_ <=? _) with false by lia. reflexivity. Qed.
Lemma len_back (d : list Z) : zlen d <= 2 ^ 48 -> mk 1 (wrapS 64 (unle (put8 (zlen d)))) = Ok (length d).
Proof.
  intros H. pose proof (zlen_nonneg d). unfold put8. rewrite unle_le. change (256 ^ Z.of_nat 8) with (2 ^ 64).
  rewrite wrapS_mod, wrapS_id; try (apply inS64; lia); try lia.
  unfold mk. replace (_ && _) with true by (symmetry; apply andb_true_iff; lia). f_equal. unfold zlen. lia.
Qed.
(* what is written is read back, with what follows left in the stream; a stream that was cut gives an error, no panic, and leaves
   the histogram as it was *)
Theorem C66_rio (o x : obj Binning1D) st :
  wfBinning1D (bng x) -> gob_ok (ann x) -> length (n1out (bng o)) = 2%nat -> rioMarshal gobenc x = Some st -> zlen st <= 2 ^ 48 ->
  (forall rest, rioUnmarshal gobdec o (st ++ rest) = Ok (x, None, rest)) /\
  (forall p t, st = p ++ t -> t <> [] -> exists e, rioUnmarshal gobdec o p = Ok (o, Some e, []) /\ e <> BadData /\ (e = EOF <-> zlen p = 0 \/ zlen p = 8)).
Proof.
  intros W G O M L. unfold rioMarshal in M. destruct (mH1D gobenc x) as [d|] eqn:D; [|discriminate]. assert (st = put8 (zlen d) ++ d) as -> by congruence. clear M.
  rewrite zlen_app, put8_len in L. split.
  - intros rest. unfold rioUnmarshal. rewrite <- app_assoc. rewrite readFull8.
    rewrite len_back by lia. cbn [rbind]. change (Z.of_nat (length d)) with (zlen d). rewrite readFull_app.
    destruct (C66_H1D o x d W G O D ltac:(lia)) as [-> _]. reflexivity.
  - intros p t P T. destruct (Z.lt_ge_cases (zlen p) 8) as [S|S].
    + unfold rioUnmarshal. rewrite readFull_short by lia. destruct p as [|b p].
      * exists EOF. cbn. split; [reflexivity|]. split; [discriminate|]. split; auto.
      * exists UnexpectedEOF. split; [reflexivity|]. split; [discriminate|]. split; [discriminate|]. intros [Q|Q]; [|lia]. apply zlen_0_nil in Q. discriminate.
    + assert (exists q, p = put8 (zlen d) ++ q /\ d = q ++ t) as (q & -> & Q).
      { exists (skipn 8 p). rewrite <- (firstn_skipn 8 p) in P at 1. rewrite <- app_assoc in P.
        assert (length (firstn 8 p) = 8%nat) by (rewrite firstn_length; unfold zlen in S; lia).
        assert (length (put8 (zlen d)) = 8%nat) by apply le_length.
        assert (firstn 8 (put8 (zlen d) ++ d) = firstn 8 (firstn 8 p ++ skipn 8 p ++ t)) by (now rewrite P).
        rewrite !firstn_app_exact in H1 by lia. rewrite <- H1 in P. apply app_inv_head in P. rewrite H1, firstn_skipn. auto. }
      assert (zlen q < zlen d). { rewrite Q, zlen_app. pose proof (zlen_nonneg t). destruct (Z.eq_dec (zlen t) 0) as [Y|]; [apply zlen_0_nil in Y; contradiction|lia]. }
      unfold rioUnmarshal. rewrite readFull8. rewrite len_back by lia. cbn [rbind].
      change (Z.of_nat (length d)) with (zlen d). rewrite readFull_short by auto. rewrite zlen_app, put8_len. destruct q as [|b q].
      * exists EOF. split; [reflexivity|]. split; [discriminate|]. split; auto.
      * exists UnexpectedEOF. split; [reflexivity|]. split; [discriminate|]. split; [discriminate|]. pose proof (zlen_nonneg q). rewrite zlen_cons. lia.
Qed.
(* bytes whose annotations encoding/gob refuses: UnmarshalBinary and RioUnmarshal return an error, the bins are those of the bytes and
   the annotations those of the receiver *)
Theorem C66_bad_annotations (o : obj Binning1D) b s rest : wfBinning1D b -> gobdec s = None -> length (n1out (bng o)) = 2%nat ->
  let d := frame (mBinning1D b) ++ frame s in zlen d <= 2 ^ 48 ->
  uH1D gobdec o d = Ok ({| bng := b; ann := ann o |}, true) /\
  rioUnmarshal gobdec o (put8 (zlen d) ++ d ++ rest) = Ok ({| bng := b; ann := ann o |}, Some BadData, rest).
Proof.
  intros W G O d L.
  assert (U : uH1D gobdec o d = Ok ({| bng := b; ann := ann o |}, true)).
  { unfold d in *. rewrite zlen_app, !frame_len in L. pose proof (zlen_nonneg s).
    pose proof W as (_ & _ & _ & K & _). pose proof (mBinning1D_len _ K) as Zl. pose proof (zlen_nonneg (n1bins b)).
    unfold uH1D, uAnn, rH1D.
    assert (R : reads (unframe (drop rBinning1D (bng o))) (frame (mBinning1D b)) b).
    { apply unframe_reads; [|lia]. apply drop_reads. apply Binning1D_reads; auto. lia. }
    unfold full. rewrite R by (rewrite zlen_app, frame_len; pose proof (zlen_nonneg (frame s)); lia). cbn [rbind fst snd].
    rewrite zlen_app. replace (zlen (frame (mBinning1D b)) + zlen (frame s) - zlen (frame (mBinning1D b))) with (zlen (frame s)) by lia.
    rewrite frame_len. unfold rAnn. rewrite <- (app_nil_r (frame s)). unfold frame. rewrite <- app_assoc.
    rewrite (get8i_reads (zlen s)); [|apply inS64; lia|rewrite put8_len; lia]. cbn [rbind fst snd]. rewrite put8_len.
    rewrite upto_ok by (rewrite zlen_app; change (zlen (@nil Z)) with 0; lia). cbn [rbind]. unfold bytes. cbn [sb sn].
    rewrite (zfirst s [] (zlen s)) by auto. rewrite G. reflexivity. }
  split; [exact U|].
  unfold rioUnmarshal. rewrite readFull8, len_back by auto. cbn [rbind]. change (Z.of_nat (length d)) with (zlen d). rewrite readFull_app.
  rewrite U. reflexivity.
Qed.
End C66.

(* ---- examples: NaN with a payload, -0, infinity, a negative number of entries ---- *)
Definition ex_d0 : Dist0D := {| N := -3; SumW := 0x7FF8000000000123; SumW2 := 2 ^ 63 |}.
Definition ex_d1 : Dist1D := {| Dist := ex_d0; SumWX := 0x7FF0000000000000; SumWX2 := 1 |}.
Definition ex_d2 : Dist2D := {| DX := ex_d1; DY := Dist1; SumWXY := 7 |}.
Definition ex_r : Range := {| Min := 5; Max := 2 ^ 64 - 1 |}.
Definition ex_h1 : obj (Ann := list Z) Binning1D :=
  {| bng := {| n1bins := [{| b1range := ex_r; b1dist := ex_d1 |}; {| b1range := Range0; b1dist := Dist1 |}]; n1dist := ex_d1; n1out := [Dist1; ex_d1]; n1xrange := ex_r |};
     ann := [1; 2; 3] |}.
Definition ex_h2 : obj (Ann := list Z) Binning2D :=
  {| bng := {| n2bins := [{| b2xrange := ex_r; b2yrange := Range0; b2dist := ex_d2 |}]; n2dist := ex_d2; n2out := repeat ex_d2 8; n2xrange := ex_r; n2yrange := Range0;
               Nx := 1; Ny := -1; XEdges := [{| b1range := ex_r; b1dist := Dist1 |}]; YEdges := [] |};
     ann := [] |}.
Definition ex_p1 : obj (Ann := list Z) BinningP1D :=
  {| bng := {| npbins := [{| bpxrange := ex_r; bpdist := ex_d2 |}]; npdist := ex_d2; npout := [ex_d2; Dist2]; npxrange := ex_r; npxstep := 9 |}; ann := [7] |}.
Definition ex_s2 : obj (Ann := list Z) (list Point2D) := {| bng := [{| PX := 1; PY := 2; ErrX := ex_r; ErrY := Range0 |}; Point2D0]; ann := [8] |}.
Definition zero1 : obj (Ann := list Z) Binning1D := {| bng := {| n1bins := []; n1dist := Dist1; n1out := [Dist1; Dist1]; n1xrange := Range0 |}; ann := [] |}.
Ltac wf := repeat match goal with |- _ /\ _ => split | |- Forall _ _ => constructor | |- inU _ _ => split; [discriminate|reflexivity]
  | |- inS _ _ => split; [discriminate|reflexivity] | |- _ = _ => reflexivity | |- _ => progress hnf end.
Example C66_example :
  (wfBinning1D (bng ex_h1) /\ gob_ok Some Some (ann ex_h1) /\ (exists d, mH1D Some ex_h1 = Some d /\ zlen d = 395 /\ uH1D Some zero1 d = Ok (ex_h1, false))) /\
  (wfBinning2D (bng ex_h2) /\ exists d, mH2D Some ex_h2 = Some d /\ uH2D Some ex_h2 d = Ok (ex_h2, false)) /\
  (wfBinningP1D (bng ex_p1) /\ exists d, mP1D Some ex_p1 = Some d /\ uP1D Some ex_p1 d = Ok (ex_p1, false)) /\
  (Forall wfPoint2D (bng ex_s2) /\ exists d, mS2D Some ex_s2 = Some d /\ uS2D Some ex_s2 d = Ok (ex_s2, false)).
Proof.
  split; [split; [wf|]; split; [intros s H; symmetry; exact H|]; eexists; split; [reflexivity|]; split; vm_compute; reflexivity|].
  split; [split; [wf|]; eexists; split; [reflexivity|]; vm_compute; reflexivity|].
  split; split; try solve [wf]; eexists; split; [reflexivity| |reflexivity|]; vm_compute; reflexivity.
Qed.
(* findings: bytes that are not what MarshalBinary wrote are not refused with an error, they panic; so does RioUnmarshal of a stream
   whose first 8 bytes are the length -1; and a stream cut right behind the length looks like one that is at its end *)
Theorem C66_error_refuted : uH1D Some zero1 [1; 2; 3] = Panic /\ rioUnmarshal Some zero1 (repeat 255 8) = Panic.
Proof. split; vm_compute; reflexivity. Qed.
Theorem C66_eof_refuted : exists p t, rioMarshal Some ex_h1 = Some (p ++ t) /\ p <> [] /\ t <> [] /\ rioUnmarshal Some zero1 p = Ok (zero1, Some EOF, []).
Proof.
  destruct (rioMarshal Some ex_h1) as [st|] eqn:E; [|discriminate].
  exists (firstn 8 st), (skipn 8 st). rewrite firstn_skipn. vm_compute in E. inversion E; subst; clear E. repeat split; try discriminate.
Qed.
Print Assumptions C66_H1D. Print Assumptions C66_P1D. Print Assumptions C66_H2D. Print Assumptions C66_S2D. Print Assumptions C66_size_H1D. Print Assumptions C66_rio.
Print Assumptions C66_bad_annotations.
Print Assumptions C66_example. Print Assumptions C66_error_refuted. Print Assumptions C66_eof_refuted.
