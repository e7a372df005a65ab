(* Theorems about HEPEVT files: C74 *)
From Coq Require Import ZArith List Lia Bool String Ascii.
From Flocq Require Import IEEE754.BinarySingleNaN.
From Verif Require Import Bytes GoLib GoStrings F64 FloatText FloatDigits ScanfModel ScanfProofs HepevtModel HepevtProofs.
Import ListNotations.
Local Open Scope Z_scope.

(* the slices have Nhep elements, the numbers are int and float64; the floating point numbers are neither subnormal nor larger than 10^308 *)
Definition evt_ok (e : event) : Prop :=
  i64 (nevhep e) /\ nhep e < 2 ^ 63 /\
  zlen (isthep e) = nhep e /\ zlen (idhep e) = nhep e /\ zlen (jmohep e) = nhep e /\ zlen (jdahep e) = nhep e /\ zlen (phep e) = nhep e /\ zlen (vhep e) = nhep e /\
  Forall i64 (isthep e) /\ Forall i64 (idhep e) /\ Forall (fun m => i64 (fst m) /\ i64 (snd m)) (jmohep e) /\ Forall (fun m => i64 (fst m) /\ i64 (snd m)) (jdahep e) /\
  Forall mid5 (phep e) /\ Forall mid4 (vhep e).
(* an event to decode into: slices of one length *)
Definition slices (e : event) : Prop :=
  zlen (idhep e) = zlen (isthep e) /\ zlen (jmohep e) = zlen (isthep e) /\ zlen (jdahep e) = zlen (isthep e) /\ zlen (phep e) = zlen (isthep e) /\ zlen (vhep e) = zlen (isthep e).
Definition near5 (p q : p5) : Prop := let '(a, b, c, d, e) := p in let '(a', b', c', d', e') := q in near 7 a a' /\ near 7 b b' /\ near 7 c c' /\ near 7 d d' /\ near 7 e e'.
Definition near4 (p q : v4) : Prop := let '(a, b, c, d) := p in let '(a', b', c', d') := q in near 7 a a' /\ near 7 b b' /\ near 7 c c' /\ near 7 d d'.
Definition sameEvt (e f : event) : Prop :=
  nevhep f = nevhep e /\ nhep f = nhep e /\ isthep f = isthep e /\ idhep f = idhep e /\ jmohep f = jmohep e /\ jdahep f = jdahep e /\
  Forall2 near5 (phep e) (phep f) /\ Forall2 near4 (vhep e) (vhep f).

Lemma zip_parts (a b : list Z) : forall (c d : list (Z * Z)) (p : list p5) (v : list v4), zlen b = zlen a -> zlen c = zlen a -> zlen d = zlen a -> zlen p = zlen a -> zlen v = zlen a ->
  exists q, a = map g_st q /\ b = map g_id q /\ c = map g_mo q /\ d = map g_da q /\ p = map g_p q /\ v = map g_v q.
Proof.
  revert b. induction a as [|x a IH]; intros b c d p v HB HC HD HP HV.
  - assert (N : forall {A} (l : list A), zlen l = zlen (@nil Z) -> l = []) by (intros A [|? ?]; [auto|]; rewrite zlen_cons, zlen_nil; pose proof (zlen_nonneg l); lia).
    apply N in HB, HC, HD, HP, HV. subst. exists []. repeat split.
  - destruct b as [|b0 b], c as [|c0 c], d as [|d0 d], p as [|p0 p], v as [|v0 v]; rewrite ?zlen_cons, ?zlen_nil in *; try (pose proof (zlen_nonneg a); lia).
    destruct (IH b c d p v) as (q & -> & -> & -> & -> & -> & ->); try lia. exists (mkpt x b0 c0 d0 p0 v0 :: q). repeat split.
Qed.
Lemma slices_parts e : slices e -> partsOf e.
Proof.
  destruct e as [nev n a b c d p v]. intros (H1 & H2 & H3 & H4 & H5). cbn [isthep idhep jmohep jdahep phep vhep] in *.
  destruct (zip_parts a b c d p v H1 H2 H3 H4 H5) as (q & -> & -> & -> & -> & -> & ->). exists nev, n, q. reflexivity.
Qed.
Lemma ok_parts e : evt_ok e -> exists l, e = evtOf (nevhep e) l /\ i64 (nevhep e) /\ zlen l < 2 ^ 63 /\ Forall pt_ok l.
Proof.
  destruct e as [nev n a b c d p v]. intros (HN & HL & H0 & H1 & H2 & H3 & H4 & H5 & F). cbn [nevhep nhep isthep idhep jmohep jdahep phep vhep] in *.
  destruct (zip_parts a b c d p v) as (q & -> & -> & -> & -> & -> & ->); try lia. 
  assert (ZQ : zlen q = n) by (rewrite <- H0; unfold zlen; rewrite map_length; reflexivity). exists q. unfold evtOf. rewrite ZQ. split; [reflexivity|]. split; [exact HN|]. split; [exact HL|].
  destruct F as (F1 & F2 & F3 & F4 & F5 & F6). rewrite Forall_forall in *. intros g I. unfold pt_ok.
  pose proof (F1 _ (in_map g_st _ _ I)). pose proof (F2 _ (in_map g_id _ _ I)). pose proof (F3 _ (in_map g_mo _ _ I)) as [? ?]. pose proof (F4 _ (in_map g_da _ _ I)) as [? ?]. pose proof (F5 _ (in_map g_p _ _ I)). pose proof (F6 _ (in_map g_v _ _ I)). tauto.
Qed.
Lemma same_rd nev l : Forall pt_ok l -> sameEvt (evtOf nev l) (evtOf nev (map rdPt l)).
Proof.
  intros F. unfold sameEvt. cbn [evtOf nevhep nhep isthep idhep jmohep jdahep phep vhep]. rewrite !map_map. cbn [rdPt g_st g_id g_mo g_da g_p g_v].
  split; [reflexivity|]. split; [unfold zlen; rewrite map_length; reflexivity|]. do 4 (split; [reflexivity|]).
  assert (R : forall u, mid u -> near 7 u (rd u)) by (intros u M; apply (rdE_ok 7 u ltac:(lia) M)).
  split; induction F as [|g l H F IH]; cbn [map]; constructor; auto; destruct H as (_ & _ & _ & _ & _ & _ & M5 & M4).
  - destruct (g_p g) as [[[[? ?] ?] ?] ?]. cbn [mid5 rd5 near5] in *. destruct M5 as (? & ? & ? & ? & ?). auto 10.
  - destruct (g_v g) as [[[? ?] ?] ?]. cbn [mid4 rd4 near4] in *. destruct M4 as (? & ? & ? & ?). auto 10.
Qed.
(* what Encode writes is read by Decode, whatever follows it, into any event; written again it is the same text *)
Theorem C74_roundtrip : forall old e r, slices old -> evt_ok e ->
  exists t f, encode e = Ok t /\ decode old (t ++ r) = Ok (Some (f, r)) /\ sameEvt e f /\ slices f /\ encode f = Ok t.
Proof.
  intros old e r SO OK. destruct (ok_parts e OK) as (l & E & HN & HL & F). rewrite E. set (nev := nevhep e) in *. clearbody nev. clear E OK e.
  exists (sep [itoa nev; itoa (zlen l)] ++ [10] ++ List.concat (map lineOf l)), (evtOf nev (map rdPt l)). split; [apply encode_evt|]. split.
  { rewrite <- !app_assoc. apply decode_encode; auto. apply slices_parts. exact SO. }
  split; [apply same_rd; exact F|]. split.
  { unfold slices. cbn [evtOf isthep idhep jmohep jdahep phep vhep]. unfold zlen. rewrite !map_length. auto. }
  rewrite encode_evt. f_equal. rewrite map_map. replace (zlen (map rdPt l)) with (zlen l) by (unfold zlen; rewrite map_length; reflexivity). f_equal. f_equal. f_equal.
  clear - F. induction F as [|g l H F IH]; [reflexivity|]. cbn [map]. rewrite IH, lineOf_rd by exact H. reflexivity.
Qed.
(* a file of events, read one after the other into the same event *)
Fixpoint encodeAll (es : list event) : res str :=
  match es with [] => Ok [] | e :: es' => bindr (encode e) (fun t => bindr (encodeAll es') (fun u => Ok (t ++ u))) end.
Fixpoint decodeN (n : nat) (old : event) (s : str) : res (option (list event * str)) :=
  match n with
  | O => Ok (Some ([], s))
  | S n' => match decode old s with
            | Ok (Some (e, r)) => match decodeN n' e r with Ok (Some (es, r')) => Ok (Some (e :: es, r')) | Ok None => Ok None | Panic => Panic end
            | Ok None => Ok None
            | Panic => Panic
            end
  end.
Theorem C74_stream : forall es old r, slices old -> Forall evt_ok es ->
  exists t fs, encodeAll es = Ok t /\ decodeN (List.length es) old (t ++ r) = Ok (Some (fs, r)) /\ Forall2 sameEvt es fs.
Proof.
  intros es old r SO F. revert old SO. induction F as [|e es H F IH]; intros old SO.
  - exists [], []. repeat split. constructor.
  - assert (G : exists u, encodeAll es = Ok u) by (destruct (IH old SO) as (u & _ & E & _); eauto). destruct G as (u & EU).
    destruct (C74_roundtrip old e (u ++ r) SO H) as (t & f & E1 & D1 & S1 & SF1 & _). destruct (IH f SF1) as (u' & fs & EU' & D2 & S2). rewrite EU in EU'. injection EU' as <-.
    exists (t ++ u), (f :: fs). cbn [encodeAll List.length decodeN]. rewrite E1, EU. cbn [bindr]. split; [reflexivity|]. rewrite <- app_assoc, D1, D2. split; [reflexivity|constructor; auto].
Qed.
(* at the end of the file Decode gives an error *)
Theorem C74_end : forall old, decode old [] = Ok None.
Proof. reflexivity. Qed.

(* Encode panics when a slice is shorter than Nhep, and only then *)
Lemma encLines_panic e n : forall i, encLines e i n = Panic <->
  exists k, (i <= k < i + n)%nat /\ (nth_error (isthep e) k = None \/ nth_error (idhep e) k = None \/ nth_error (jmohep e) k = None \/ nth_error (jdahep e) k = None \/ nth_error (phep e) k = None \/ nth_error (vhep e) k = None).
Proof.
  induction n as [|n IH]; intros i; cbn [encLines].
  - split; [discriminate|]. intros (k & H & _). lia.
  - destruct (nth_error (isthep e) i) eqn:E1; [|split; [intros _; exists i; split; [lia|auto]|reflexivity]].
    destruct (nth_error (idhep e) i) eqn:E2; [|split; [intros _; exists i; split; [lia|auto]|reflexivity]].
    destruct (nth_error (jmohep e) i) eqn:E3; [|split; [intros _; exists i; split; [lia|auto]|reflexivity]].
    destruct (nth_error (jdahep e) i) eqn:E4; [|split; [intros _; exists i; split; [lia|auto 10]|reflexivity]].
    destruct (nth_error (phep e) i) eqn:E5; [|split; [intros _; exists i; split; [lia|auto 10]|reflexivity]].
    destruct (nth_error (vhep e) i) eqn:E6; [|split; [intros _; exists i; split; [lia|auto 10]|reflexivity]].
    specialize (IH (S i)). destruct (encLines e (S i) n) as [t|]; split.
    + discriminate.
    + intros (k & H & N). assert (k <> i) by (intros ->; intuition congruence). destruct IH as [_ IH]. assert (X : Ok t = Panic) by (apply IH; exists k; split; [lia|exact N]). discriminate.
    + intros _. destruct IH as [IH _]. destruct (IH eq_refl) as (k & H & N). exists k. split; [lia|exact N].
    + reflexivity.
Qed.
Theorem C74_encode_panic : forall e, encode e = Panic <->
  zlen (isthep e) < nhep e \/ zlen (idhep e) < nhep e \/ zlen (jmohep e) < nhep e \/ zlen (jdahep e) < nhep e \/ zlen (phep e) < nhep e \/ zlen (vhep e) < nhep e.
Proof.
  intros e. assert (K : encode e = Panic <-> encLines e 0 (Z.to_nat (nhep e)) = Panic) by (unfold encode; destruct (encLines e 0 (Z.to_nat (nhep e))); split; congruence). rewrite K, encLines_panic. split.
  - intros (k & H & N). rewrite !nth_error_None in N. unfold zlen. lia.
  - intros H. exists (Z.to_nat (nhep e) - 1)%nat. rewrite !nth_error_None. unfold zlen in H. split; lia.
Qed.
(* Decode panics when the number of particles is negative, and only then *)
Lemma upd_has {A} (l : list A) : forall i a, has l i = true -> exists l', upd l i a = Ok l' /\ List.length l' = List.length l.
Proof.
  induction l as [|x l IH]; intros i a H; [apply Nat.ltb_lt in H; cbn in H; lia|]. destruct i as [|i]; [eexists; split; reflexivity|].
  assert (H2 : has l i = true) by (apply Nat.ltb_lt; apply Nat.ltb_lt in H; cbn in H; lia). destruct (IH i a H2) as (l' & E & L). exists (x :: l'). cbn [upd]. rewrite E. cbn [bindr List.length]. auto.
Qed.
Definition lens (k : nat) (e : event) : Prop := List.length (isthep e) = k /\ List.length (idhep e) = k /\ List.length (jmohep e) = k /\ List.length (jdahep e) = k /\ List.length (phep e) = k /\ List.length (vhep e) = k.
Lemma decLines_nopanic n k : forall i e s, lens k e -> (i + n <= k)%nat -> decLines e i n s <> Panic.
Proof.
  induction n as [|n IH]; intros i e s L K; [discriminate|]. cbn [decLines]. destruct L as (L1 & L2 & L3 & L4 & L5 & L6).
  assert (H : forall {A} (l : list A), List.length l = k -> has l i = true) by (intros A l E; apply Nat.ltb_lt; lia). rewrite !H by assumption. cbn [andb].
  destruct (fscanf lineFmt s) as [[vs r]|]; [|discriminate].
  do 15 (destruct vs as [|[?|?] vs]; try discriminate). destruct vs; [|discriminate].
  repeat match goal with |- context [bindr (upd ?l i ?a) _] => destruct (upd_has l i a (H _ l ltac:(assumption))) as (? & ?EU & ?); rewrite EU; cbn [bindr]; clear EU end.
  apply IH; [|lia]. unfold lens. cbn [isthep idhep jmohep jdahep phep vhep]. repeat split; congruence.
Qed.
Theorem C74_decode_panic : forall old s, slices old ->
  (decode old s = Panic <-> exists nev n r, fscanf [PD 64; PD 64] s = Some ([SI nev; SI n], r) /\ n < 0).
Proof.
  intros old s SO. split.
  - intros D. unfold decode in D. destruct (fscanf [PD 64; PD 64] s) as [[vs r]|]; [|discriminate]. destruct vs as [|[nev|?] vs]; try discriminate. destruct vs as [|[n|?] vs]; try discriminate. destruct vs; [|discriminate].
    exists nev, n, r. split; [reflexivity|]. destruct (Z_lt_le_dec n 0) as [|NN]; [assumption|exfalso]. revert D.
    apply slices_parts in SO as (nev0 & n0 & q & ->). destruct (resize_map g_st q n NN) as (q' & LQ & RS). unfold resizeAll. cbn [isthep idhep jmohep jdahep phep vhep].
    rewrite (RS _ g_st : resize 0 _ _ _ = _). cbn [bindr]. rewrite (RS _ g_id : resize 0 _ _ _ = _). cbn [bindr]. rewrite (RS _ g_mo : resize (0, 0) _ _ _ = _). cbn [bindr]. rewrite (RS _ g_da : resize (0, 0) _ _ _ = _). cbn [bindr].
    rewrite (RS _ g_p : resize (zf, zf, zf, zf, zf) _ _ _ = _). cbn [bindr]. rewrite (RS _ g_v : resize (zf, zf, zf, zf) _ _ _ = _). cbn [bindr].
    apply (decLines_nopanic _ (Z.to_nat n)); [|lia]. unfold lens. cbn [isthep idhep jmohep jdahep phep vhep]. rewrite !map_length. auto 10.
  - intros (nev & n & r & E & N). unfold decode. rewrite E. unfold resizeAll, resize. pose proof (zlen_nonneg (isthep old)). destruct (Z.gtb_spec (zlen (isthep old)) n); [|lia]. destruct (Z.ltb_spec n 0); [|lia]. reflexivity.
Qed.

(* ---- examples ---- *)
Definition bs (s : string) : str := map (fun a => Z.of_nat (nat_of_ascii a)) (list_ascii_of_string s).
Definition z5 : p5 := (zf, B754_infinity false, B754_nan, B754_zero true, zf).
Definition z4 : v4 := (zf, zf, B754_infinity true, zf).
Definition exe : event := mkevt 7 2 [1; -1] [11; -11] [(-1, 0); (2 ^ 63 - 1, 5)] [(0, 1); (-1, -1)] [z5; z5] [z4; z4].
Definition empty : event := mkevt 0 0 [] [] [] [] [] [].
Example C74_roundtrip_ex : slices empty /\ slices exe /\ evt_ok exe.
Proof.
  split; [repeat split|]. split; [repeat split|]. unfold evt_ok, i64. cbn [exe nevhep nhep isthep idhep jmohep jdahep phep vhep].
  repeat split; try (cbn; lia); repeat constructor; cbn [fst snd]; try lia.
Qed.
Example C74_text_ex : encode (mkevt 7 1 [1] [11] [(-1, 0)] [(0, 1)] [z5] [z4]) =
  Ok (bs "7 1" ++ [10] ++ bs "1 11 0 1 1 2 0.000000E+00 +Inf NaN -0.000000E+00 0.000000E+00 0.000000E+00 0.000000E+00 -Inf 0.000000E+00" ++ [10]).
Proof. reflexivity. Qed.
Example C74_decode_panic_ex : decode empty (bs "7 -1" ++ [10]) = Panic.
Proof. reflexivity. Qed.
Example C74_encode_panic_ex : encode (mkevt 7 1 [] [] [] [] [] []) = Panic.
Proof. reflexivity. Qed.
(* Encode writes events that make Decode panic *)
Theorem C74_negative_refuted : exists e t, encode e = Ok t /\ decode empty t = Panic.
Proof. exists (mkevt 7 (-1) [] [] [] [] [] []). eexists. split; reflexivity. Qed.
(* an event with particles beyond Nhep loses them *)
Theorem C74_longer_refuted : exists e t f, encode e = Ok t /\ decode empty t = Ok (Some (f, [])) /\ zlen (isthep e) = 2 /\ zlen (isthep f) = 1.
Proof. exists (mkevt 7 1 [1; 2] [3; 4] [(0, 0); (0, 0)] [(0, 0); (0, 0)] [z5; z5] [z4; z4]). eexists. eexists. split; [reflexivity|]. split; [vm_compute; reflexivity|]. split; reflexivity. Qed.

Print Assumptions C74_roundtrip.
Print Assumptions C74_stream.
Print Assumptions C74_end.
Print Assumptions C74_encode_panic.
Print Assumptions C74_decode_panic.
Print Assumptions C74_negative_refuted.
Print Assumptions C74_longer_refuted.
