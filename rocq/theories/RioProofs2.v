(* The writer, the file and the scanner of rio. *)
From Coq Require Import ZArith List Lia Bool.
From Verif Require Import Bytes GoLib GoStrings Parse RioModel RioProofs.
Import ListNotations.
Local Open Scope Z_scope.
Local Arguments le : simpl never.
Local Arguments Z.pow : simpl never.

Lemma lookup_put {A} k k' (v : A) m : lookup k (put k' v m) = if str_eqb k k' then Some v else lookup k m.
Proof.
  induction m as [|(a, b) m IH]; cbn [put lookup]; [reflexivity|].
  destruct (str_eqb_spec k' a) as [<-|N]; cbn [lookup]; [destruct (str_eqb k k'); reflexivity|].
  rewrite IH. destruct (str_eqb_spec k a) as [->|]; auto. destruct (str_eqb_spec a k') as [->|]; [congruence|reflexivity].
Qed.

(* the records connected to the writer *)
Definition rec_ok (r : Z * list rblk) : Prop := inU 32 (fst r) /\ Forall blk_ok (snd r) /\ NoDup (map bname (snd r)).
Definition span_of (e : entry) : Z * Z := (epos e, zlen (ebytes e)).
Definition spans_of (n : str) (l : list entry) : option (list (Z * Z)) :=
  match map span_of (filter (fun e => str_eqb n (ename e)) l) with [] => None | s => Some s end.
Definition winv (c : codec) (w : wst) : Prop :=
  inU 32 (wopt w) /\ (forall n r, lookup n (wrecs w) = Some r -> rec_ok r) /\
  Forall (entry_ok c) (wlog w) /\ wout w = rioMagic ++ concat (map ebytes (wlog w)) /\
  (forall a e b, wlog w = a ++ e :: b -> epos e = 4 + zlen (concat (map ebytes a))) /\
  (forall n, lookup n (woffs w) = spans_of n (wlog w)).
Definition op_ok (p : op) : Prop :=
  match p with OSet k _ => inU 16 k | OConnect _ _ v => inU 32 v | _ => True end.

Lemma winv0 c : winv c writer0.
Proof.
  unfold winv, writer0. cbn [wopt wrecs wlog wout woffs]. split; [apply NewOptions_in; unfold inU; lia|].
  split; [discriminate|]. split; [constructor|]. split; [reflexivity|]. split; [intros [|? ?]; discriminate|]. reflexivity.
Qed.
Lemma get_rec_inv c n w : winv c w -> let '(r, w') := get_rec n w in
  winv c w' /\ rec_ok r /\ lookup n (wrecs w') = Some r /\ wout w' = wout w /\ wlog w' = wlog w /\ woffs w' = woffs w /\ wopt w' = wopt w /\
  (lookup n (wrecs w) = None -> r = (wopt w, [])).
Proof.
  intros (I1 & I2 & I3 & I4 & I5 & I6). unfold get_rec. destruct (lookup n (wrecs w)) as [r|] eqn:E.
  - cbv iota. split; [exact (conj I1 (conj I2 (conj I3 (conj I4 (conj I5 I6)))))|]. split; [eauto|]. repeat split; auto; discriminate.
  - cbv iota. assert (R : rec_ok (wopt w, [])) by (split; [auto|split; constructor]).
    split.
    + unfold winv. cbn [wopt wrecs wlog wout woffs]. split; auto. split; auto. intros m r. rewrite lookup_put. destruct (str_eqb m n); [intros X; injection X as <-; auto|eauto].
    + cbn [wopt wrecs wlog wout woffs]. split; auto. split; [rewrite lookup_put, str_eqb_refl; auto|]. auto.
Qed.
Lemma set_rec_inv c n r w : winv c w -> rec_ok r -> winv c (set_rec n r w).
Proof.
  intros (I1 & I2 & I3 & I4 & I5 & I6) R. unfold winv, set_rec. cbn [wopt wrecs wlog wout woffs]. split; auto. split; auto.
  intros m r'. rewrite lookup_put. destruct (str_eqb m n); [intros X; injection X as <-; auto|eauto].
Qed.
Lemma rec_write_inv c n w w' : winv c w -> rec_write c n w = Some w' ->
  winv c w' /\ exists e, wlog w' = wlog w ++ [e] /\ ename e = n /\ wout w' = wout w ++ ebytes e /\ epos e = zlen (wout w) /\
    (eopts e, eblks e) = fst (get_rec n w).
Proof.
  intros I H. unfold rec_write in H. pose proof (get_rec_inv c n w I) as G. destruct (get_rec n w) as ((o, bs), w1) eqn:Eg.
  destruct G as ((I1 & I2 & I3 & I4 & I5 & I6) & (R1 & R2 & R3) & L & E1 & E2 & E3 & E4 & _). cbn [fst snd] in *.
  set (x := concat (map blk_marshal bs)) in *.
  assert (Hz : exists z, (if CompressorKind o =? 1 then Some x else if known c (CompressorKind o) then Some (deflate c o x) else None) = Some z /\
     z = payload c o x /\ kind_ok c o).
  { unfold payload, kind_ok. destruct (Z.eqb_spec (CompressorKind o) 1); [eauto|]. destruct (known c (CompressorKind o)) eqn:K; [eauto|].
    cbv zeta in H. discriminate. }
  destruct Hz as (z & Ez & Pz & K). cbv zeta in H. rewrite Ez in H.
  set (bytes := rec_marshal {| rlen := wrapU 32 (zlen z); ropts := o; rclen := wrapU 32 (zlen z); rxlen := wrapU 32 (zlen x); rname := n |} ++
    z ++ repeat 0 (Z.to_nat (rioAlignU32 (wrapU 32 (zlen z)) - wrapU 32 (zlen z)))).
  assert (H' : w' = {| wout := wout w1 ++ bytes; wopt := wopt w1; wrecs := wrecs w1;
     woffs := put n (match lookup n (woffs w1) with Some l => l | None => [] end ++ [(zlen (wout w1), zlen bytes)]) (woffs w1);
     wlog := wlog w1 ++ [{| epos := zlen (wout w1); ename := n; eopts := o; eblks := bs; ebytes := bytes |}] |}) by (cbn [rlen] in H; unfold bytes; congruence).
  clear H. set (e := {| epos := zlen (wout w1); ename := n; eopts := o; eblks := bs; ebytes := bytes |}) in *. subst w'.
  assert (Ee : entry_ok c e).
  { unfold entry_ok, e. cbn [eopts eblks ebytes]. do 4 (split; auto). unfold raw_of. cbn [eopts eblks ename rlen]. fold x. rewrite <- Pz. reflexivity. }
  assert (Q1 : epos e = zlen (wout w1)) by reflexivity. assert (Q2 : ename e = n) by reflexivity. assert (Q3 : eopts e = o) by reflexivity.
  assert (Q4 : eblks e = bs) by reflexivity. assert (Q5 : ebytes e = bytes) by reflexivity. clearbody e. rewrite <- Q5 in *. clear Q5 bytes.
  split.
  - unfold winv. cbn [wopt wrecs wlog wout woffs]. split; auto. split; auto. split; [apply Forall_app; auto|].
    split. { rewrite I4, map_app, concat_app, <- app_assoc. cbn. now rewrite app_nil_r. }
    split.
    + intros a e' b El. destruct (exists_last (l := e' :: b) ltac:(discriminate)) as (b' & y & Eb). rewrite Eb in El.
      rewrite app_assoc in El. apply app_inj_tail in El. destruct El as (El & Ey). subst y.
      destruct b' as [|y' b'].
      * cbn in Eb. injection Eb as E' _. rewrite app_nil_r in El. subst a e'. rewrite Q1, I4. rewrite zlen_app. reflexivity.
      * cbn in Eb. injection Eb as -> Eb. apply (I5 a y' b'). auto.
    + intros m. rewrite lookup_put. unfold spans_of. rewrite filter_app. cbn [filter]. rewrite Q2, map_app.
      rewrite (I6 n). destruct (str_eqb_spec m n) as [->|N].
      * unfold spans_of. cbn [map]. replace (span_of e) with (zlen (wout w1), zlen (ebytes e)) by (unfold span_of; rewrite Q1; reflexivity). destruct (map span_of (filter _ (wlog w1))) as [|s l]; reflexivity.
      * cbn [map]. rewrite app_nil_r. rewrite I6. reflexivity.
  - exists e. cbn [wlog wout fst]. rewrite <- E1, <- E2, Q1, Q3, Q4. auto.
Qed.
Lemma find_blk_None n bs : find_blk n bs = None -> ~ In n (map bname bs).
Proof.
  unfold find_blk. intros H I. apply in_map_iff in I. destruct I as (b & E & I). apply (find_none _ _ H) in I. rewrite E, str_eqb_refl in I. discriminate.
Qed.
Lemma connect_inv c rn bn v w w' : winv c w -> inU 32 v -> connect rn bn v w = Some w' ->
  winv c w' /\ wout w' = wout w /\ wlog w' = wlog w /\ woffs w' = woffs w.
Proof.
  intros I V H. unfold connect in H. pose proof (get_rec_inv c rn w I) as G. destruct (get_rec rn w) as ((o, bs), w1).
  destruct G as (I' & (R1 & R2 & R3) & L & E1 & E2 & E3 & E4 & _). cbn [fst snd] in *. destruct (find_blk bn bs) eqn:F; [discriminate|].
  injection H as <-. split; [|auto]. apply set_rec_inv; auto. split; [auto|]. cbn [snd]. split.
  - apply Forall_app. split; auto. constructor; auto. split; auto.
  - rewrite map_app. cbn [map bname]. apply find_blk_None in F. clear -R3 F. revert R3 F. generalize (map bname bs). induction l as [|a l IH]; intros N H; cbn; [constructor; auto|].
    inversion N; subst. constructor; [|apply IH; cbn in *; tauto]. rewrite in_app_iff. cbn in *. intuition congruence.
Qed.
Lemma set_blk_ok n d bs : Forall blk_ok bs -> Forall blk_ok (set_blk n d bs).
Proof.
  intros F. unfold set_blk. apply Forall_forall. intros b I. apply in_map_iff in I. destruct I as (b0 & <- & I).
  rewrite Forall_forall in F. destruct (F b0 I) as (F1 & F2). destruct (str_eqb n (bname b0)); split; auto.
Qed.
Lemma set_blk_names n d bs : map bname (set_blk n d bs) = map bname bs.
Proof. unfold set_blk. rewrite map_map. apply map_ext. intros b. destruct (str_eqb n (bname b)); reflexivity. Qed.
Lemma find_set_blk n d bs b : find_blk n bs = Some b -> exists b', find_blk n (set_blk n d bs) = Some b' /\ bdata b' = d.
Proof.
  unfold find_blk, set_blk. induction bs as [|x bs IH]; [discriminate|]. cbn [find map]. destruct (str_eqb n (bname x)) eqn:E.
  - intros _. cbn [bname]. rewrite E. eauto.
  - rewrite E. auto.
Qed.
Lemma wstep_inv c p w w' : winv c w -> op_ok p -> wstep c p w = Ok w' -> winv c w'.
Proof.
  intros I P H. destruct p as [k l|rn bn v|rn bn d|rn]; cbn [wstep] in H.
  - injection H as <-. destruct I as (I1 & I2 & I3 & I4 & I5 & I6). unfold winv. cbn [wopt wrecs wlog wout woffs]. split; [apply NewOptions_in; auto|]. auto.
  - injection H as <-. destruct (connect rn bn v w) as [w1|] eqn:E; [eapply connect_inv; eauto|].
    pose proof (get_rec_inv c rn w I) as G. destruct (get_rec rn w). apply G.
  - pose proof (get_rec_inv c rn w I) as G. destruct (get_rec rn w) as ((o, bs), w1). destruct G as (I' & (R1 & R2 & R3) & _).
    cbn [fst snd] in *. destruct (find_blk bn bs); [|discriminate]. injection H as <-. apply set_rec_inv; auto. split; [auto|]. cbn [snd].
    split; [apply set_blk_ok; auto|]. rewrite set_blk_names. auto.
  - injection H as <-. destruct (rec_write c rn w) as [w1|] eqn:E; [eapply rec_write_inv; eauto|].
    pose proof (get_rec_inv c rn w I) as G. destruct (get_rec rn w). apply G.
Qed.
Lemma wrun_inv c : forall ps w w', winv c w -> Forall op_ok ps -> wrun c ps w = Ok w' -> winv c w'.
Proof.
  induction ps as [|p ps IH]; intros w w' I F H; cbn [wrun] in H; [injection H as <-; auto|].
  inversion F; subst. destruct (wstep c p w) as [w1|] eqn:E; [|discriminate]. cbn [rbind] in H. eapply IH; [|eauto|exact H]. eapply wstep_inv; eauto.
Qed.

(* the stream after Close *)
Definition closed (c : codec) (w : wst) (l : list entry) (f : list Z) (m : meta) : Prop :=
  exists l0 e, l = l0 ++ [e] /\ Forall (entry_ok c) l /\
    (forall a e' b, l = a ++ e' :: b -> epos e' = 4 + zlen (concat (map ebytes a))) /\
    f = rioMagic ++ concat (map ebytes l) ++ ftr_marshal 16 (epos e) /\
    (exists b, find_blk MetaRecord (eblks e) = Some b /\ bdata b = encMeta c m) /\
    (forall n, lookup n (moffs m) = spans_of n l0).
Lemma close_ok c w w' : winv c w -> close c w = Some w' -> closed c w' (wlog w') (wout w') (meta_of w).
Proof.
  intros I H. unfold close in H. destruct (connect MetaRecord MetaRecord 0 w) as [w1|] eqn:E1; [|discriminate].
  destruct (connect_inv c MetaRecord MetaRecord 0 w w1 I ltac:(unfold inU; lia) E1) as (I1 & O1 & L1 & F1).
  pose proof (get_rec_inv c MetaRecord w1 I1) as G. destruct (get_rec MetaRecord w1) as ((o, bs), w2) eqn:Eg.
  destruct G as (I2 & (R1 & R2 & R3) & Lk & O2 & L2 & F2 & _ & _). cbn [fst snd] in *.
  set (w3 := set_rec MetaRecord (o, set_blk MetaRecord (encMeta c (meta_of w)) bs) w2) in *.
  assert (I3 : winv c w3). { apply set_rec_inv; auto. split; [auto|]. cbn [snd]. split; [apply set_blk_ok; auto|]. rewrite set_blk_names; auto. }
  destruct (rec_write c MetaRecord w3) as [w4|] eqn:E4; [|discriminate]. injection H as <-. cbn [wlog wout].
  destruct (rec_write_inv c _ _ _ I3 E4) as (I4 & e & L4 & N4 & O4 & P4 & B4).
  assert (Ow : wout w3 = wout w) by (unfold w3; cbn [set_rec wout]; congruence).
  assert (Lw : wlog w3 = wlog w) by (unfold w3; cbn [set_rec wlog]; congruence).
  destruct I4 as (J1 & J2 & J3 & J4 & J5 & J6).
  exists (wlog w), e. rewrite Lw in L4. split; auto. split; auto. split; auto.
  split. { rewrite J4, P4, Ow, <- app_assoc. reflexivity. }
  split.
  - assert (Eb : eblks e = set_blk MetaRecord (encMeta c (meta_of w)) bs).
    { unfold get_rec, w3 in B4. cbn [set_rec wrecs] in B4. rewrite lookup_put, str_eqb_refl in B4. cbn [fst] in B4. congruence. }
    rewrite Eb. clear -E1 Eg. unfold connect in E1. destruct (get_rec MetaRecord w) as ((o', bs'), w0).
    destruct (find_blk MetaRecord bs'); [discriminate|]. injection E1 as <-. unfold get_rec in Eg. cbn [set_rec wrecs] in Eg.
    rewrite lookup_put, str_eqb_refl in Eg. injection Eg as _ <- _.
    assert (X : exists b, find_blk MetaRecord (bs' ++ [{| blen := 0; bver := 0; bname := MetaRecord; bdata := [] |}]) = Some b).
    { clear. unfold find_blk. induction bs' as [|x bs IH]; [cbn [app find bname]; rewrite str_eqb_refl; eauto|]. cbn [app find]. destruct (str_eqb MetaRecord (bname x)); eauto. }
    destruct X as (b & X). apply find_set_blk with (d := encMeta c (meta_of w)) in X. destruct X as (b' & X & D). eauto.
  - intros n. cbn [meta_of moffs]. apply I.
Qed.
Lemma zlen_ftr n m : zlen (ftr_marshal n m) = 16.
Proof. unfold ftr_marshal, hdr_marshal. rewrite !zlen_app, !zlen_le. reflexivity. Qed.
Lemma open_ok c w l f m : codec_ok c -> closed c w l f m -> Forall (fits c) l -> zlen f < 2 ^ 63 -> open c f = Ok (Some m).
Proof.
  intros Cok (l0 & e & El & Eok & Ps & Ef & (b & Fb & Db) & _) Fit Sz.
  assert (Pe : epos e = 4 + zlen (concat (map ebytes l0))) by (apply (Ps l0 e []); auto).
  assert (Lf : zlen f = 4 + zlen (concat (map ebytes l)) + 16).
  { rewrite Ef, !zlen_app, zlen_ftr. change (zlen rioMagic) with 4. lia. }
  pose proof (zlen_nonneg (concat (map ebytes l))). pose proof (zlen_nonneg (concat (map ebytes l0))) as Z0.
  assert (Ll : concat (map ebytes l) = concat (map ebytes l0) ++ ebytes e) by (rewrite El, map_app, concat_app; cbn; now rewrite app_nil_r).
  pose proof (zlen_nonneg (ebytes e)) as Ze. rewrite Ll, zlen_app in Lf.
  unfold open. rewrite Ef at 1. change (firstn 4 (rioMagic ++ concat (map ebytes l) ++ ftr_marshal 16 (epos e))) with rioMagic.
  rewrite str_eqb_refl. cbn [negb]. destruct (Nat.ltb_spec (length f) 16); [unfold zlen in *; lia|].
  assert (Tl : skipn (length f - 16) f = ftr_marshal 16 (epos e)).
  { rewrite Ef at 2. rewrite app_assoc. apply skipn_app_exact. pose proof (zlen_ftr 16 (epos e)) as X.
    rewrite Ef. rewrite app_assoc, app_length. unfold zlen in X. lia. }
  rewrite Tl. assert (P : parses ftr_parse (ftr_marshal 16 (epos e)) (epos e)) by (apply ftr_parses; [unfold inU; lia|unfold inS; lia]).
  specialize (P []). rewrite app_nil_r in P. rewrite P. destruct (Z.ltb_spec (epos e) 0); [lia|].
  assert (Mt : skipn (Z.to_nat (epos e)) f = ebytes e ++ ftr_marshal 16 (epos e)).
  { rewrite Ef, Ll, <- !app_assoc, app_assoc. apply skipn_app_exact. rewrite app_length. cbn [length rioMagic]. unfold zlen in Pe. lia. }
  rewrite Mt. rewrite read_entry_ok; auto.
  - rewrite Fb, Db. f_equal. apply Cok.
  - rewrite Forall_forall in Eok. apply Eok. rewrite El. apply in_or_app. cbn; auto.
  - rewrite Forall_forall in Fit. apply Fit. rewrite El. apply in_or_app. cbn; auto.
Qed.
Lemma closed_at c w l f m e : closed c w l f m -> In e l ->
  exists rest, skipn (Z.to_nat (epos e)) f = ebytes e ++ rest /\ 4 <= epos e.
Proof.
  intros (l0 & e0 & El & Eok & Ps & Ef & _) Ie. apply in_split in Ie. destruct Ie as (a & b & Es).
  pose proof (Ps a e b Es) as Pe. exists (concat (map ebytes b) ++ ftr_marshal 16 (epos e0)). pose proof (zlen_nonneg (concat (map ebytes a))).
  split; [|lia]. rewrite Ef, Es, map_app, concat_app. cbn [map concat]. rewrite <- !app_assoc, app_assoc. apply skipn_app_exact.
  rewrite app_length. cbn [length rioMagic]. unfold zlen in Pe. lia.
Qed.

(* ---- scanning ---- *)
Definition selected (filter : list (str * bool)) (n : str) : bool :=
  match filter with [] => true | _ => match lookup n filter with Some _ => true | None => false end end.
Definition unpacks (filter : list (str * bool)) (n : str) : bool :=
  match lookup n filter with Some u => u | None => false end.
Fixpoint scan_all (c : codec) (k : nat) (filter : list (str * bool)) (s : scan_st) : res (list (rrec * bool * list rblk) * bool) :=
  match k with
  | O => Ok ([], false)
  | S k' =>
      do r <- scan c (S (length (srest s))) filter s;
      match r with
      | SEnd => Ok ([], true)
      | SErr => Ok ([], false)
      | SRec r u s' => do q <- scan_all c k' filter s'; Ok ((r, u, sblks s') :: fst q, snd q)
      end
  end.
Fixpoint expected (c : codec) (filter : list (str * bool)) (acc : list rblk) (es : list entry) : list (rrec * bool * list rblk) :=
  match es with
  | [] => []
  | e :: es' =>
      if selected filter (ename e)
      then if unpacks filter (ename e)
           then (raw_of c e, true, put_all (eblks e) acc) :: expected c filter (put_all (eblks e) acc) es'
           else (raw_of c e, false, acc) :: expected c filter acc es'
      else expected c filter acc es'
  end.
Lemma scan_fuel c filter : forall f1 f2 s, (length (srest s) < f1)%nat -> (length (srest s) < f2)%nat -> scan c f1 filter s = scan c f2 filter s.
Proof.
  assert (T : forall n l x r, take n l = Some (x, r) -> (length r + n = length l)%nat).
  { intros n l x r H. unfold take in H. destruct (Nat.leb_spec n (length l)); [|discriminate]. injection H as _ <-. rewrite skipn_length. lia. }
  assert (P : forall n l x r, ple n l = Some (x, r) -> (length r + n = length l)%nat).
  { intros n l x r H. unfold ple, pbind in H. destruct (take n l) as [(y, r')|] eqn:E; [|discriminate]. injection H as _ <-. eapply T; eauto. }
  assert (Q : forall n l x r, read_some n l = Some (x, r) -> (length r <= length l)%nat).
  { intros n l x r H. unfold read_some in H. assert (r = skipn n l) as -> by (destruct n, l; congruence). rewrite skipn_length. lia. }
  assert (Hd : forall l x r, hdr_parse l = Some (x, r) -> (length r + 8 = length l)%nat).
  { intros l x r H. unfold hdr_parse, pbind in H. destruct (ple 4 l) as [(y, r1)|] eqn:E1; [|discriminate].
    destruct (take 4 r1) as [(z, r2)|] eqn:E2; [|discriminate]. injection H as _ <-. apply P in E1. apply T in E2. lia. }
  assert (Rd : forall n l x r, rec_data n l = Some (x, r) -> (length r <= length l)%nat).
  { intros n l x r H. unfold rec_data, pbind in H.
    destruct (ple 4 l) as [(y1, r1)|] eqn:E1; [|discriminate]. destruct (ple 4 r1) as [(y2, r2)|] eqn:E2; [|discriminate].
    destruct (ple 4 r2) as [(y3, r3)|] eqn:E3; [|discriminate]. destruct (ple 4 r3) as [(y4, r4)|] eqn:E4; [|discriminate].
    destruct (read_some _ r4) as [(y5, r5)|] eqn:E5; [|discriminate]. injection H as _ <-.
    apply P in E1, E2, E3, E4. apply Q in E5. lia. }
  induction f1 as [|f1 IH]; intros f2 s L1 L2; [lia|]. destruct f2 as [|f2]; [lia|]. cbn [scan].
  destruct (srest s) as [|z0 l0] eqn:Es; auto. rewrite <- Es in *.
  destruct (hdr_parse (srest s)) as [((n, fr), l)|] eqn:E1; auto. apply Hd in E1.
  destruct (str_eqb fr ftrFrame).
  { destruct (ple 8 l) as [(y, r)|] eqn:E2; auto. apply P in E2. apply IH; cbn [srest]; lia. }
  destruct (str_eqb fr recFrame); auto. destruct (rec_data n l) as [(r, l')|] eqn:E2; auto. apply Rd in E2.
  cbv zeta. destruct (_ && _).
  - destruct (Nat.ltb_spec (length l') (Z.to_nat (rioAlignU32 (rclen r)))); auto. apply IH; cbn [srest]; rewrite skipn_length; lia.
  - reflexivity.
Qed.
Lemma recdata_of c e rest : entry_ok c e -> fits c e -> exists n,
  hdr_parse (ebytes e ++ rest) = Some ((n, recFrame),
    (le 4 (ropts (raw_of c e)) ++ le 4 (rclen (raw_of c e)) ++ le 4 (rxlen (raw_of c e)) ++ le 4 (zlen (rname (raw_of c e))) ++ pad4 (rname (raw_of c e))) ++
    payload c (eopts e) (concat (map blk_marshal (eblks e))) ++ repeat 0 (Z.to_nat (rioAlignU32 (rlen (raw_of c e)) - rlen (raw_of c e))) ++ rest) /\
  rec_data n ((le 4 (ropts (raw_of c e)) ++ le 4 (rclen (raw_of c e)) ++ le 4 (rxlen (raw_of c e)) ++ le 4 (zlen (rname (raw_of c e))) ++ pad4 (rname (raw_of c e))) ++
    payload c (eopts e) (concat (map blk_marshal (eblks e))) ++ repeat 0 (Z.to_nat (rioAlignU32 (rlen (raw_of c e)) - rlen (raw_of c e))) ++ rest) =
  Some (raw_of c e, payload c (eopts e) (concat (map blk_marshal (eblks e))) ++ repeat 0 (Z.to_nat (rioAlignU32 (rlen (raw_of c e)) - rlen (raw_of c e))) ++ rest).
Proof.
  intros Eok F. destruct (raw_fits c e Eok F) as (_ & R1 & R2 & R3). destruct Eok as (O1 & O2 & O3 & O4 & O5). destruct F as (F1 & F2 & F3).
  pose proof (zlen_nonneg (concat (map blk_marshal (eblks e)))). pose proof (zlen_nonneg (payload c (eopts e) (concat (map blk_marshal (eblks e))))).
  assert (J1 : inU 32 (rlen (raw_of c e))) by (unfold inU; rewrite R1; lia).
  exists (rlen (raw_of c e)). split.
  - rewrite O5. unfold rec_marshal. rewrite <- !app_assoc. rewrite hdr_parses by (auto; reflexivity). reflexivity.
  - apply rec_data_parses; auto; unfold inU; rewrite ?R2, ?R1, ?R3; try lia; auto.
Qed.
Lemma scan_skip_len c e rest : entry_ok c e -> fits c e ->
  let l' := payload c (eopts e) (concat (map blk_marshal (eblks e))) ++ repeat 0 (Z.to_nat (rioAlignU32 (rlen (raw_of c e)) - rlen (raw_of c e))) ++ rest in
  let k := Z.to_nat (rioAlignU32 (rclen (raw_of c e))) in
  k = Z.to_nat (rioAlign (rlen (raw_of c e))) /\ (length l' <? k)%nat = false /\ skipn k l' = rest.
Proof.
  intros Eok F. cbv zeta. destruct (raw_fits c e Eok F) as (_ & R1 & R2 & R3). destruct F as (F1 & F2 & F3).
  rewrite R2, R1. set (z := payload c (eopts e) (concat (map blk_marshal (eblks e)))) in *. pose proof (zlen_nonneg z).
  rewrite rioAlignU32_id by lia. destruct (rioAlign_spec (zlen z)) as (A & B). split; auto.
  assert (L : Z.to_nat (rioAlign (zlen z)) = length (z ++ repeat 0 (Z.to_nat (rioAlign (zlen z) - zlen z)))) by (rewrite app_length, repeat_length; unfold zlen in *; lia).
  rewrite app_assoc. split.
  - rewrite app_length. apply Nat.ltb_ge. lia.
  - apply skipn_app_exact. auto.
Qed.
Lemma scan_step c filter e rest acc xr : codec_ok c -> entry_ok c e -> fits c e ->
  let s := {| srest := ebytes e ++ rest; sblks := acc; sxr := xr |} in
  (selected filter (ename e) = false -> forall f2, (length rest < f2)%nat -> scan c (S (length (srest s))) filter s = scan c f2 filter {| srest := rest; sblks := acc; sxr := xr |}) /\
  (selected filter (ename e) = true -> unpacks filter (ename e) = false ->
     scan c (S (length (srest s))) filter s = Ok (SRec (raw_of c e) false {| srest := rest; sblks := acc; sxr := xr |})) /\
  (selected filter (ename e) = true -> unpacks filter (ename e) = true -> (xr = None \/ xr = Some (CompressorKind (eopts e))) ->
     CompressorKind (eopts e) = 1 \/ eager c ->
     scan c (S (length (srest s))) filter s = Ok (SRec (raw_of c e) true {| srest := rest; sblks := put_all (eblks e) acc; sxr := Some (CompressorKind (eopts e)) |})).
Proof.
  intros Cok Eok F. cbv zeta. destruct (recdata_of c e rest Eok F) as (n & H1 & H2). destruct (scan_skip_len c e rest Eok F) as (K1 & K2 & K3).
  cbn [srest].
  assert (Ne : ebytes e ++ rest <> []). { intros E. rewrite E in H1. discriminate. }
  destruct (ebytes e ++ rest) as [|z0 l0] eqn:Eb; [congruence|]. 
  assert (Len : (length rest < length (z0 :: l0))%nat).
  { rewrite <- Eb, app_length. destruct Eok as (_ & _ & _ & _ & O5). rewrite O5. unfold rec_marshal, hdr_marshal. rewrite !app_length, !le_length. cbn. lia. }
  cbn [scan srest]. rewrite H1. change (str_eqb recFrame ftrFrame) with false. change (str_eqb recFrame recFrame) with true. cbv iota. rewrite H2. cbv zeta.
  rewrite K2. cbn [sblks sxr]. unfold selected, unpacks. change (rname (raw_of c e)) with (ename e).
  split; [|split].
  - intros Se f2 L2. destruct filter as [|f0 fs]; [discriminate|]. destruct (lookup (ename e) (f0 :: fs)); [discriminate|]. cbn [andb]. rewrite K3.
    apply scan_fuel; cbn [srest]; lia.
  - intros Se Un. rewrite K3. destruct filter as [|f0 fs]; cbn [andb]; [reflexivity|]. destruct (lookup (ename e) (f0 :: fs)); [|discriminate].
    rewrite Un. reflexivity.
  - intros Se Un Xr Ea. destruct filter as [|f0 fs]; [discriminate|]. destruct (lookup (ename e) (f0 :: fs)) as [u|]; [|discriminate]. rewrite Un. cbn [andb].
    destruct (read_blocks_ok c e xr acc rest Cok Eok F Xr) as (k & E & Hk). rewrite E. rewrite (Hk Ea), <- K1, K3. reflexivity.
Qed.
Lemma scan_all_ok c filter k0 n m : codec_ok c -> (k0 = 1 \/ eager c) -> inU 32 n ->
  forall es k acc xr, (length es < k)%nat -> (xr = None \/ xr = Some k0) ->
  Forall (entry_ok c) es -> Forall (fits c) es ->
  Forall (fun e => unpacks filter (ename e) = true -> CompressorKind (eopts e) = k0) es ->
  scan_all c k filter {| srest := concat (map ebytes es) ++ ftr_marshal n m; sblks := acc; sxr := xr |} = Ok (expected c filter acc es, true).
Proof.
  intros Cok Ea In'. induction es as [|e es IH]; intros k acc xr L Xr Eok Fit Kd.
  - destruct k as [|k]; [lia|]. cbn [scan_all map concat app expected]. cbn [srest].
    assert (E : scan c (S (length (ftr_marshal n m))) filter {| srest := ftr_marshal n m; sblks := acc; sxr := xr |} = Ok SEnd).
    { unfold ftr_marshal. cbn [scan srest]. destruct (hdr_marshal n ftrFrame ++ le 8 m) as [|z0 l0] eqn:E0; [reflexivity|]. rewrite <- E0.
      rewrite hdr_parses by (auto; reflexivity). change (str_eqb ftrFrame ftrFrame) with true. cbv iota.
      rewrite <- (app_nil_r (le 8 m)). rewrite parses_ple_mod. rewrite app_nil_r.
      assert (Ln : (1 < S (length (hdr_marshal n ftrFrame ++ le 8 m)))%nat) by (unfold hdr_marshal; rewrite !app_length, !le_length; lia).
      rewrite (scan_fuel c filter _ 1) by (cbn [srest length sblks sxr]; lia). reflexivity. }
    rewrite E. reflexivity.
  - inversion Eok as [|? ? Ee Eok']; subst. inversion Fit as [|? ? Fe Fit']; subst. inversion Kd as [|? ? Ke Kd']; subst.
    cbn [length] in L. destruct k as [|k]; [lia|]. cbn [map concat]. rewrite <- app_assoc. cbn [expected].
    destruct (scan_step c filter e (concat (map ebytes es) ++ ftr_marshal n m) acc xr Cok Ee Fe) as (S1 & S2 & S3).
    destruct (selected filter (ename e)) eqn:Se.
    + destruct (unpacks filter (ename e)) eqn:Un.
      * cbn [scan_all]. rewrite S3; auto.
        -- cbn [rbind]. rewrite IH; [reflexivity|lia|right; rewrite Ke; auto|auto|auto|auto].
        -- rewrite Ke; auto.
        -- rewrite Ke; auto.
      * cbn [scan_all]. rewrite S2; auto. cbn [rbind]. rewrite IH; [reflexivity|lia|auto|auto|auto|auto].
    + specialize (S1 eq_refl _ (Nat.lt_succ_diag_r _)). cbn [scan_all]. rewrite S1.
      specialize (IH (S k) acc xr ltac:(lia) Xr Eok' Fit' Kd'). cbn [scan_all srest] in IH. exact IH.
Qed.
