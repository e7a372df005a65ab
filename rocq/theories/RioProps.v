(* C25, C26: rio streams. *)
From Coq Require Import ZArith List Lia Bool.
From Verif Require Import Bytes GoLib GoStrings Parse RioModel RioProofs RioProofs2.
Import ListNotations.
Local Open Scope Z_scope.
Local Arguments le : simpl never.
Local Arguments Z.pow : simpl never.

(* ---- C26 ---- *)
Theorem C26_options : forall kind lvl codec, 0 <= kind < 2 ^ 16 -> kind <> 0 -> -1 <= lvl <= 14 -> 0 <= codec < 2 ^ 12 ->
  let o := NewOptions kind lvl codec in
  CompressorKind o = kind /\ CompressorLevel o = lvl /\ CompressorCodec o = codec /\ 0 <= o < 2 ^ 32.
Proof.
  intros k l d Hk Hk0 Hl Hd. cbv zeta. pose proof (NewOptions_in k l d Hk) as I. destruct (NewOptions_spec k l d Hk) as (E & K & L).
  destruct (Z.eqb_spec k 0) as [?|_]; [lia|].
  rewrite CompressorKind_eq, CompressorLevel_eq, CompressorCodec_eq by auto. rewrite E. rewrite (Z.mod_small d) by lia.
  assert (Hl' : forall l', l' = (if (l <=? -1) || (15 <=? l) then 15 else l) -> 0 <= l' < 16 ->
    (k * 2 ^ 16 + l' * 2 ^ 12 + d) / 2 ^ 16 = k /\ (k * 2 ^ 16 + l' * 2 ^ 12 + d) / 2 ^ 12 mod 16 = l' /\ (k * 2 ^ 16 + l' * 2 ^ 12 + d) mod 2 ^ 12 = d).
  { intros l' _ B. repeat split; Z.div_mod_to_equations; lia. }
  destruct (Hl' _ eq_refl L) as (A1 & A2 & A3). split; auto. split; [|split; [auto|rewrite <- (Z.mod_small d (2 ^ 12)) by lia; rewrite <- E; exact I]].
  cbv zeta. rewrite A2. clear -Hl. destruct (Z.leb_spec l (-1)); cbn [orb]; [cbn; lia|]. destruct (Z.leb_spec 15 l); [lia|].
  destruct (Z.eqb_spec l 15); lia.
Qed.
(* the default kind is stored as zlib; levels outside -1..14 as the default level; high bits of the codec are dropped *)
Theorem C26_defaults : forall kind lvl codec, 0 <= kind < 2 ^ 16 ->
  CompressorKind (NewOptions 0 lvl codec) = 3 /\
  ((lvl < -1 \/ 14 < lvl) -> CompressorLevel (NewOptions kind lvl codec) = -1) /\
  CompressorCodec (NewOptions kind lvl codec) = codec mod 2 ^ 12.
Proof.
  intros k l d Hk. pose proof (NewOptions_in k l d Hk) as I. destruct (NewOptions_spec k l d Hk) as (E & K & L).
  pose proof (Z.mod_pos_bound d (2 ^ 12) ltac:(lia)).
  split; [|split].
  - assert (H0 : inU 16 0) by (unfold inU; lia). rewrite CompressorKind_eq by (apply NewOptions_in; auto).
    destruct (NewOptions_spec 0 l d H0) as (E0 & _ & L0). rewrite E0. cbn [Z.eqb]. Z.div_mod_to_equations. lia.
  - intros Hl. rewrite CompressorLevel_eq, E. cbv zeta.
    replace (if (l <=? -1) || (15 <=? l) then 15 else l) with 15 by (destruct (Z.leb_spec l (-1)), (Z.leb_spec 15 l); cbn [orb]; lia).
    match goal with |- (if ?x =? 15 then _ else _) = _ => assert (X : x = 15) by (Z.div_mod_to_equations; lia); rewrite X end. reflexivity.
  - rewrite CompressorCodec_eq, E. Z.div_mod_to_equations. lia.
Qed.
Example C26_example : let o := NewOptions 4 9 0xabc in
  o = 0x49abc /\ CompressorKind o = 4 /\ CompressorLevel o = 9 /\ CompressorCodec o = 0xabc.
Proof. vm_compute. auto. Qed.

(* ---- C25: the structures ---- *)
Theorem C25_structures :
  (forall r rest, inU 32 (rlen r) -> inU 32 (ropts r) -> inU 32 (rclen r) -> inU 32 (rxlen r) -> zlen (rname r) < 2 ^ 32 ->
     rec_parse (rec_marshal r ++ rest) = Some (r, rest) /\ zlen (rec_marshal r) mod 4 = 0) /\
  (forall b rest, blen b = zlen (bdata b) -> zlen (bdata b) < 2 ^ 32 -> inU 32 (bver b) -> zlen (bname b) < 2 ^ 32 ->
     blk_parse (blk_marshal b ++ rest) = Some (b, rest) /\ zlen (blk_marshal b) mod 4 = 0) /\
  (forall n m rest, inU 32 n -> inS 64 m -> ftr_parse (ftr_marshal n m ++ rest) = Some (m, rest) /\ zlen (ftr_marshal n m) = 16).
Proof.
  split; [|split].
  - intros r rest I1 I2 I3 I4 I5. split; [apply rec_parses; auto|apply rec_len4].
  - intros b rest I1 I2 I3 I4. split; [apply blk_parses; auto|apply blk_len4].
  - intros n m rest I1 I2. split; [apply ftr_parses; auto|apply zlen_ftr].
Qed.

(* ---- C25: a whole stream ---- *)
(* After any history of connections, block writes, record writes and compressor settings, Close and Open: the offsets of the
   metadata are those of the records of that name; at each of them there is a record with the name, options and blocks it had
   when it was written; the records follow each other from byte 4 at multiples of 4. *)
Theorem C25_file : forall c ops w w', codec_ok c -> Forall op_ok ops ->
  wrun c ops writer0 = Ok w -> close c w = Some w' -> Forall (fits c) (wlog w') -> zlen (wout w') < 2 ^ 63 ->
  exists m, open c (wout w') = Ok (Some m) /\
    (forall n pos len, (exists l, lookup n (moffs m) = Some l /\ In (pos, len) l) <->
       exists e, In e (wlog w) /\ ename e = n /\ epos e = pos /\ zlen (ebytes e) = len) /\
    (forall e, In e (wlog w') -> epos e mod 4 = 0 /\ zlen (ebytes e) mod 4 = 0 /\
       exists r, read_record c (skipn (Z.to_nat (epos e)) (wout w')) = Some (r, eblks e) /\ rname r = ename e /\ ropts r = eopts e) /\
    (forall a e b, wlog w' = a ++ e :: b -> epos e = 4 + fold_right (fun e n => zlen (ebytes e) + n) 0 a).
Proof.
  intros c ops w w' Cok Ok0 R Cl Fit Sz. pose proof (wrun_inv c ops _ _ (winv0 c) Ok0 R) as I.
  pose proof (close_ok c w w' I Cl) as K. exists (meta_of w). split; [eapply open_ok; eauto|].
  assert (Ps : forall a e b, wlog w' = a ++ e :: b -> epos e = 4 + fold_right (fun e n => zlen (ebytes e) + n) 0 a).
  { intros a e b El. destruct K as (l0 & e0 & _ & _ & Ps & _). rewrite (Ps a e b El). f_equal. clear.
    induction a as [|x a IH]; [reflexivity|]. cbn [map concat fold_right]. rewrite zlen_app, IH. reflexivity. }
  assert (Eok : Forall (entry_ok c) (wlog w')) by (destruct K as (l0 & e0 & _ & Eok & _); exact Eok).
  split; [|split; [|exact Ps]].
  - intros n pos len. destruct I as (_ & _ & _ & _ & _ & I6). cbn [meta_of moffs]. rewrite I6. unfold RioProofs2.spans_of.
    assert (X : In (pos, len) (map span_of (filter (fun e => str_eqb n (ename e)) (wlog w))) <->
      exists e, In e (wlog w) /\ ename e = n /\ epos e = pos /\ zlen (ebytes e) = len).
    { rewrite in_map_iff. split.
      - intros (e & Es & Ie). apply filter_In in Ie. destruct Ie as (Ie & En). exists e. unfold span_of in Es.
        destruct (str_eqb_spec n (ename e)); [|discriminate]. injection Es as <- <-. auto.
      - intros (e & Ie & <- & <- & <-). exists e. split; auto. apply filter_In. rewrite str_eqb_refl. auto. }
    rewrite <- X. destruct (map span_of _) as [|s l]; split.
    + intros (l & E & _). discriminate.
    + intros [].
    + intros (l' & E & J). injection E as <-. auto.
    + intros J. eauto.
  - intros e Ie. rewrite Forall_forall in Eok, Fit. pose proof (Eok e Ie) as Ee. pose proof (Fit e Ie) as Fe.
    split. { apply in_split in Ie. destruct Ie as (a & b & El). rewrite (Ps a e b El).
             assert (A4 : fold_right (fun e n => zlen (ebytes e) + n) 0 a mod 4 = 0).
             { assert (Ea : forall x, In x a -> entry_ok c x /\ fits c x) by (intros; split; [apply Eok|apply Fit]; rewrite El; apply in_or_app; auto).
               clear -Ea. induction a as [|x a IH]; [reflexivity|]. cbn [fold_right]. pose proof (entry_len4 c x ltac:(apply Ea; cbn; auto) ltac:(apply Ea; cbn; auto)).
               specialize (IH ltac:(intros; apply Ea; cbn; auto)). Z.div_mod_to_equations. lia. }
             Z.div_mod_to_equations. lia. }
    split; [eapply entry_len4; eauto|].
    destruct (closed_at c w' _ _ _ e K Ie) as (rest & Es & _). rewrite Es. exists (raw_of c e).
    split; [apply read_entry_ok; auto|]. auto.
Qed.

(* Values written with WriteValue and read with Get *)
Definition write_value (nd : str * list Z) : list op :=
  [OConnect (fst nd) (fst nd) 0; OBlock (fst nd) (fst nd) (snd nd); OWrite (fst nd)].
Definition val_entry (o : Z) (nd : str * list Z) (e : entry) : Prop :=
  ename e = fst nd /\ eopts e = o /\ eblks e = [{| blen := wrapU 32 (zlen (snd nd)); bver := 0; bname := fst nd; bdata := snd nd |}].
Lemma wrun_app c : forall a b w, wrun c (a ++ b) w = (do w' <- wrun c a w; wrun c b w').
Proof.
  induction a as [|p a IH]; intros b w; [reflexivity|]. cbn [app wrun]. destruct (wstep c p w); cbn [rbind]; auto.
Qed.
Lemma get_rec_set n r w : get_rec n (set_rec n r w) = (r, set_rec n r w).
Proof. unfold get_rec, set_rec at 1. cbn [wrecs]. rewrite lookup_put, str_eqb_refl. reflexivity. Qed.
Definition blk0 (n : str) (ver : Z) : rblk := {| blen := 0; bver := ver; bname := n; bdata := [] |}.
Lemma connect_new n w : lookup n (wrecs w) = None -> connect n n 0 w = Some (set_rec n (wopt w, [blk0 n 0]) (snd (get_rec n w))).
Proof. intros L. unfold connect, get_rec. rewrite L. cbn [find_blk find app snd]. reflexivity. Qed.
Lemma snd_get_rec n w : wopt (snd (get_rec n w)) = wopt w /\ wout (snd (get_rec n w)) = wout w /\ wlog (snd (get_rec n w)) = wlog w /\
  forall m, m <> n -> lookup m (wrecs (snd (get_rec n w))) = lookup m (wrecs w).
Proof.
  unfold get_rec. destruct (lookup n (wrecs w)); cbn [snd wopt wout wlog wrecs]; auto. repeat (split; auto).
  intros m Nm. rewrite lookup_put. destruct (str_eqb_spec m n); [congruence|reflexivity].
Qed.
Definition blk1 (n : str) (d : list Z) : rblk := {| blen := wrapU 32 (zlen d); bver := 0; bname := n; bdata := d |}.
Lemma set_blk_one n d : set_blk n d [blk0 n 0] = [blk1 n d].
Proof. unfold set_blk. cbn [map blk0 bname bver]. rewrite str_eqb_refl. reflexivity. Qed.
Lemma rec_write_set c n o bs w : kind_ok c o -> exists w' e, rec_write c n (set_rec n (o, bs) w) = Some w' /\
  wlog w' = wlog w ++ [e] /\ ename e = n /\ eopts e = o /\ eblks e = bs /\ wopt w' = wopt w /\
  (forall m, m <> n -> lookup m (wrecs w') = lookup m (wrecs w)).
Proof.
  intros K. unfold rec_write. rewrite get_rec_set. cbv zeta.
  assert (Hz : (if CompressorKind o =? 1 then Some (concat (map blk_marshal bs))
      else if known c (CompressorKind o) then Some (deflate c o (concat (map blk_marshal bs))) else None)
    = Some (payload c o (concat (map blk_marshal bs)))).
  { unfold payload. destruct (Z.eqb_spec (CompressorKind o) 1); auto. destruct K as [?|K]; [lia|]. now rewrite K. }
  rewrite Hz. eexists _, _. split; [reflexivity|]. cbn [wlog wopt wrecs set_rec ename eopts eblks].
  repeat (split; [reflexivity|]). intros m Nm. rewrite lookup_put. destruct (str_eqb_spec m n); [congruence|reflexivity].
Qed.
Lemma write_value_ok c nd w : winv c w -> lookup (fst nd) (wrecs w) = None -> kind_ok c (wopt w) ->
  exists w' e, wrun c (write_value nd) w = Ok w' /\ wlog w' = wlog w ++ [e] /\ val_entry (wopt w) nd e /\ wopt w' = wopt w /\
    (forall m, m <> fst nd -> lookup m (wrecs w') = lookup m (wrecs w)).
Proof.
  destruct nd as (n, d). cbn [fst snd]. intros I L K. unfold write_value. cbn [fst snd wrun wstep]. rewrite (connect_new n w L). cbn [rbind].
  rewrite get_rec_set. cbn [find_blk find blk0 bname]. rewrite str_eqb_refl. cbn [rbind]. fold (blk0 n 0). rewrite set_blk_one.
  destruct (rec_write_set c n (wopt w) [blk1 n d] (set_rec n (wopt w, [blk0 n 0]) (snd (get_rec n w))) K) as (w' & e & R & L' & N' & O' & B' & Wo & Fr).
  rewrite R. cbn [rbind]. exists w', e. destruct (snd_get_rec n w) as (G1 & _ & G2 & G3). split; auto.
  split; [rewrite L'; cbn [wlog set_rec]; rewrite G2; auto|]. split; [unfold val_entry; auto|].
  split; [rewrite Wo; cbn [wopt set_rec]; auto|]. intros m Nm. rewrite (Fr m Nm). cbn [wrecs set_rec]. rewrite lookup_put.
  destruct (str_eqb_spec m n); [congruence|]. auto.
Qed.
Lemma write_values_ok c : forall vals w, winv c w -> NoDup (map fst vals) -> (forall nd, In nd vals -> lookup (fst nd) (wrecs w) = None) -> kind_ok c (wopt w) ->
  exists w' es, wrun c (concat (map write_value vals)) w = Ok w' /\ wlog w' = wlog w ++ es /\ Forall2 (val_entry (wopt w)) vals es /\
    (forall m, ~ In m (map fst vals) -> lookup m (wrecs w') = lookup m (wrecs w)) /\ wopt w' = wopt w.
Proof.
  induction vals as [|nd vals IH]; intros w I N Fr K.
  - exists w, []. cbn. rewrite app_nil_r. auto.
  - cbn [map] in N. inversion N as [|? ? N1 N2]; subst.
    destruct (write_value_ok c nd w I (Fr nd (or_introl eq_refl)) K) as (w1 & e & R1 & L1 & V1 & O1 & Fr1).
    assert (I1 : winv c w1). { eapply wrun_inv; [exact I| |exact R1]. unfold write_value. repeat constructor. unfold inU. lia. }
    destruct (IH w1 I1 N2) as (w2 & es & R2 & L2 & V2 & Fr2 & O2).
    + intros x Ix. rewrite Fr1; [apply Fr; cbn; auto|]. intros E. apply N1. rewrite <- E. apply in_map. auto.
    + rewrite O1. auto.
    + exists w2, (e :: es). cbn [map concat]. rewrite wrun_app, R1. cbn [rbind]. rewrite R2. split; auto.
      split; [rewrite L2, L1, <- app_assoc; reflexivity|]. split; [constructor; [auto|rewrite <- O1; auto]|].
      split; [|congruence]. intros m Nm. rewrite Fr2, Fr1; auto; cbn in Nm; intuition.
Qed.
(* Any values, under distinct names other than that of the metadata record, are read back by name. *)
Theorem C25_values : forall c (vals : list (str * list Z)), codec_ok c -> known c 3 = true ->
  NoDup (map fst vals) -> ~ In MetaRecord (map fst vals) ->
  exists w w', wrun c (concat (map write_value vals)) writer0 = Ok w /\ close c w = Some w' /\
    (* sizes of less than 2^31 for a value with its name, of 2^32 for the stream *)
    ((forall n d, In (n, d) vals -> zlen n + zlen d < 2 ^ 31) -> zlen (encMeta c (meta_of w)) < 2 ^ 31 -> zlen (wout w') < 2 ^ 32 - 3 ->
     exists m, open c (wout w') = Ok (Some m) /\
       (forall n d, In (n, d) vals -> get c (wout w') m n = Ok (Some d)) /\
       (forall n, ~ In n (map fst vals) -> get c (wout w') m n = Ok None)).
Proof.
  intros c vals Cok K3 N Nm.
  assert (O0 : CompressorKind (wopt writer0) = 3) by reflexivity.
  destruct (write_values_ok c vals writer0 (winv0 c) N ltac:(intros; reflexivity) ltac:(right; rewrite O0; auto)) as (w & es & R & L & V & Fr & O1).
  cbn [wlog writer0 app] in L. subst es. exists w.
  assert (Oo : Forall op_ok (concat (map write_value vals))).
  { clear. induction vals as [|nd vals IH]; [constructor|]. cbn [map concat]. apply Forall_app. split; auto. unfold write_value. repeat constructor. unfold inU. lia. }
  pose proof (wrun_inv c _ _ _ (winv0 c) Oo R) as I.
  assert (Cl : exists w', close c w = Some w' /\ exists e, wlog w' = wlog w ++ [e] /\ ename e = MetaRecord /\
     eblks e = [{| blen := wrapU 32 (zlen (encMeta c (meta_of w))); bver := 0; bname := MetaRecord; bdata := encMeta c (meta_of w) |}]).
  { unfold close. assert (Lw : lookup MetaRecord (wrecs w) = None) by (rewrite (Fr MetaRecord Nm); reflexivity).
    rewrite (connect_new _ _ Lw), get_rec_set, set_blk_one.
    destruct (rec_write_set c MetaRecord (wopt w) [blk1 MetaRecord (encMeta c (meta_of w))] (set_rec MetaRecord (wopt w, [blk0 MetaRecord 0]) (snd (get_rec MetaRecord w))))
      as (w' & e & Rw & L' & N' & _ & B' & _); [rewrite O1; right; rewrite O0; auto|].
    rewrite Rw. eexists. split; [reflexivity|]. cbn [wlog]. exists e. destruct (snd_get_rec MetaRecord w) as (_ & _ & G2 & _).
    split; [rewrite L'; cbn [wlog set_rec]; rewrite G2; auto|]. auto. }
  destruct Cl as (w' & Cl & em & Lm & Nme & Bm). exists w'. split; auto. split; auto. intros Sv Sm Sw.
  pose proof (close_ok c w w' I Cl) as Kc.
  assert (Fit : Forall (fits c) (wlog w')).
  { assert (Bd : forall e, In e (wlog w') -> zlen (ebytes e) <= zlen (wout w')).
    { intros e Ie. destruct Kc as (l0 & e0 & _ & _ & _ & Ef & _). rewrite Ef. apply in_split in Ie. destruct Ie as (a & b & ->).
      rewrite map_app, concat_app. cbn [map concat]. rewrite !zlen_app. pose proof (zlen_nonneg (concat (map ebytes a))). pose proof (zlen_nonneg (concat (map ebytes b))).
      pose proof (zlen_nonneg (ftr_marshal 16 (epos e0))). pose proof (zlen_nonneg rioMagic). lia. }
    assert (Eok : Forall (entry_ok c) (wlog w')) by (destruct Kc as (l0 & e0 & _ & Eok & _); exact Eok).
    rewrite Forall_forall in *. intros e Ie. specialize (Bd e Ie). destruct (Eok e Ie) as (_ & _ & _ & _ & Eb).
    rewrite Eb, !zlen_app in Bd. unfold rec_marshal in Bd. rewrite !zlen_app, pad4_len in Bd.
    destruct (rioAlign_spec (zlen (rname (raw_of c e)))) as (An & _). cbn [rname raw_of] in *.
    unfold fits. repeat match type of Bd with context [zlen ?x] => lazymatch goal with H : 0 <= zlen x |- _ => fail | _ => pose proof (zlen_nonneg x) end end.
    pose proof (zlen_nonneg (ename e)).
    split; [|split]; try lia.
    assert (Bx : exists n d, eblks e = [{| blen := wrapU 32 (zlen d); bver := 0; bname := n; bdata := d |}] /\ zlen n + zlen d < 2 ^ 31 + 16).
    { rewrite Lm in Ie. apply in_app_or in Ie. destruct Ie as [Ie|[<-|[]]].
      - assert (X : exists nd, In nd vals /\ val_entry (wopt writer0) nd e).
        { clear -V Ie. induction V as [|x y l l' H V IH]; [destruct Ie|]. destruct Ie as [<-|Ie]; [exists x; cbn; auto|]. destruct (IH Ie) as (nd & J & Hn). exists nd; cbn; auto. }
        destruct X as ((n, d) & J & (_ & _ & E)). exists n, d. cbn [fst snd] in E. split; auto. specialize (Sv n d J). lia.
      - rewrite Bm. eexists MetaRecord, _. split; [reflexivity|]. change (zlen MetaRecord) with 9. lia. }
    destruct Bx as (n & d & -> & Bx). cbn [map concat]. rewrite app_nil_r. unfold blk_marshal, hdr_marshal. rewrite !zlen_app, !zlen_le, !pad4_len. cbn [bname bdata].
    destruct (rioAlign_spec (zlen n)). destruct (rioAlign_spec (zlen d)). change (zlen blkFrame) with 4. lia. }
  exists (meta_of w). split; [eapply open_ok; eauto; lia|].
  assert (Eok : Forall (entry_ok c) (wlog w')) by (destruct Kc as (l0 & e0 & _ & Eok & _); exact Eok).
  destruct I as (_ & _ & _ & _ & _ & I6).
  assert (Sp : forall n, spans_of n (wlog w) = None <-> ~ In n (map fst vals)).
  { intros n. unfold spans_of. clear -V. induction V as [|x y l l' H V IH]; cbn [filter map]; [tauto|].
    destruct H as (H & _). rewrite H. cbn [map In]. destruct (str_eqb_spec n (fst x)) as [->|Ne].
    - cbn [map]. split; [discriminate|]. intros X. exfalso. auto.
    - rewrite IH. intuition. }
  split.
  - intros n d J. unfold get. cbn [meta_of moffs]. rewrite I6.
    assert (X : exists e, In e (wlog w) /\ val_entry (wopt writer0) (n, d) e /\ spans_of n (wlog w) = Some [span_of e]).
    { clear -V J N. unfold spans_of. induction V as [|x y l l' H V IH]; [destruct J|]. cbn [map] in N. inversion N as [|? ? N1 N2]; subst.
      cbn [filter]. pose proof H as (Hn & _). rewrite Hn. destruct J as [->|J].
      - exists y. cbn [fst]. rewrite str_eqb_refl. cbn [map]. split; [cbn; auto|]. split; auto.
        assert (Z0 : filter (fun e => str_eqb n (ename e)) l' = []).
        { cbn [fst] in N1. clear -V N1. induction V as [|x z l l' H V IH]; [reflexivity|]. cbn [map In] in N1. destruct H as (Hn & _). cbn [filter]. rewrite Hn.
          destruct (str_eqb_spec n (fst x)); [exfalso; auto|]. apply IH. auto. }
        rewrite Z0. reflexivity.
      - destruct (str_eqb_spec n (fst x)) as [E|Ne].
        + exfalso. apply N1. rewrite <- E. change n with (fst (n, d)). apply in_map. auto.
        + destruct (IH N2 J) as (e & Ie & Ve & Se). exists e. cbn; auto. }
    destruct X as (e & Ie & (V1 & V2 & V3) & Se). rewrite Se. unfold span_of.
    assert (Ie' : In e (wlog w')) by (rewrite Lm; apply in_or_app; auto).
    destruct (closed_at c w' _ _ _ e Kc Ie') as (rest & Es & P4). destruct (Z.ltb_spec (epos e) 0); [lia|]. rewrite Es.
    rewrite Forall_forall in *. rewrite read_entry_ok; auto. rewrite V3. cbn [find_blk find bname fst]. rewrite str_eqb_refl. reflexivity.
  - intros n Nn. unfold get. cbn [meta_of moffs]. rewrite I6. apply Sp in Nn. rewrite Nn. reflexivity.
Qed.

(* Scanning a stream from its start, with any selection: the selected records come in order, with their header fields; those
   to be unpacked have their blocks in the record of the scanner; the end is reached without error.  Needs the unpacked
   records to be of one kind, and that kind to be uncompressed or its decompressor to take all of its source. *)
Theorem C25_scan_partial : forall c ops w w' filter kind, codec_ok c -> Forall op_ok ops ->
  wrun c ops writer0 = Ok w -> close c w = Some w' -> Forall (fits c) (wlog w') ->
  (kind = 1 \/ eager c) -> (forall e, In e (wlog w') -> unpacks filter (ename e) = true -> CompressorKind (eopts e) = kind) ->
  exists out, scan_all c (S (length (wlog w'))) filter {| srest := skipn 4 (wout w'); sblks := []; sxr := None |} = Ok (out, true) /\
    Forall2 (fun e o => rname (fst (fst o)) = ename e /\ ropts (fst (fst o)) = eopts e /\ snd (fst o) = unpacks filter (ename e) /\
       (snd (fst o) = true -> forall b, In b (eblks e) -> find_blk (bname b) (snd o) = Some b))
      (List.filter (fun e => selected filter (ename e)) (wlog w')) out.
Proof.
  intros c ops w w' filter kind Cok Oo R Cl Fit Ea Kd. pose proof (wrun_inv c ops _ _ (winv0 c) Oo R) as I.
  destruct (close_ok c w w' I Cl) as (l0 & e0 & _ & Eok & _ & Ef & _).
  exists (expected c filter [] (wlog w')). split.
  - rewrite Ef. change (skipn 4 (rioMagic ++ concat (map ebytes (wlog w')) ++ ftr_marshal 16 (epos e0))) with (concat (map ebytes (wlog w')) ++ ftr_marshal 16 (epos e0)).
    apply (scan_all_ok c filter kind); auto; [unfold inU; lia|]. apply Forall_forall. auto.
  - clear -Eok. generalize (@nil rblk) at 1. induction Eok as [|e es Ee Eok IH]; intros acc; cbn [List.filter expected]; [constructor|].
    destruct (selected filter (ename e)); [|apply IH]. destruct (unpacks filter (ename e)) eqn:U; (constructor; [|apply IH]); cbn [fst snd].
    + split; auto. split; auto. split; auto. intros _ b Ib. destruct Ee as (_ & _ & _ & Nd & _).
      assert (X : forall bs acc, NoDup (map bname bs) -> In b bs -> find_blk (bname b) (put_all bs acc) = Some b).
      { clear. assert (Pn : forall x acc n, find_blk n (put_blk x acc) = if str_eqb n (bname x) then Some x else find_blk n acc).
        { clear. intros x acc n. unfold find_blk. induction acc as [|y acc IH]; cbn [put_blk find]; [reflexivity|].
          destruct (str_eqb_spec (bname x) (bname y)) as [E|E]; cbn [find].
          - rewrite <- E. destruct (str_eqb n (bname x)); reflexivity.
          - rewrite IH. destruct (str_eqb_spec n (bname y)) as [->|]; auto. destruct (str_eqb_spec (bname y) (bname x)); [congruence|reflexivity]. }
        assert (Po : forall bs acc n, ~ In n (map bname bs) -> find_blk n (put_all bs acc) = find_blk n acc).
        { induction bs as [|x bs IH]; intros acc n H; [reflexivity|]. cbn [put_all fold_left]. cbn [map In] in H.
          change (find_blk n (put_all bs (put_blk x acc)) = find_blk n acc). rewrite IH by auto. rewrite Pn. destruct (str_eqb_spec n (bname x)); [exfalso; auto|reflexivity]. }
        induction bs as [|x bs IH]; intros acc N Ib; [destruct Ib|]. cbn [map] in N. inversion N; subst.
        change (find_blk (bname b) (put_all bs (put_blk x acc)) = Some b). destruct Ib as [->|Ib]; [|apply IH; auto].
        rewrite Po by auto. rewrite Pn, str_eqb_refl. reflexivity. }
      apply X; auto.
    + split; auto. split; auto. split; auto. discriminate.
Qed.

(* ---- examples and limits ---- *)
(* A compressor in the manner of zlib.Writer.Flush: the data and the mark of a flush; the decompressor reads its source in
   blocks of 4096 bytes (bufio) and stops when it has what is wanted. *)
Definition p1 : parser Z := fun l => match l with x :: r => Some (x, r) | [] => None end.
Definition enc_list {A} (f : A -> list Z) (l : list A) : list Z := zlen l :: concat (map f l).
Definition dec_list {A} (f : parser A) : parser (list A) := n <~~ p1 ;; prep (Z.to_nat n) f.
Lemma dec_enc_list {A} (f : parser A) (e : A -> list Z) l : (forall x, parses f (e x) x) -> parses (dec_list f) (enc_list e l) l.
Proof.
  intros H rest. unfold dec_list, enc_list, pbind. cbn [app p1]. unfold zlen. rewrite Nat2Z.id. apply parses_prep. auto.
Qed.
Definition enc_str : str -> list Z := enc_list (fun z => [z]).
Definition dec_str : parser str := dec_list p1.
Lemma dec_enc_str s : parses dec_str (enc_str s) s.
Proof. apply dec_enc_list. intros x rest. reflexivity. Qed.
Definition enc_meta (m : meta) : list Z :=
  enc_list (fun r => enc_str (fst r) ++ enc_list enc_str (snd r)) (mrecs m) ++
  enc_list (fun r => enc_str (fst r) ++ enc_list (fun p => [fst p; snd p]) (snd r)) (moffs m).
Definition dec_meta : parser meta :=
  a <~~ dec_list (n <~~ dec_str ;; l <~~ dec_list dec_str ;; pret (n, l)) ;;
  b <~~ dec_list (n <~~ dec_str ;; l <~~ dec_list (x <~~ p1 ;; y <~~ p1 ;; pret (x, y)) ;; pret (n, l)) ;;
  pret {| mrecs := a; moffs := b |}.
Lemma dec_enc_meta m : parses dec_meta (enc_meta m) m.
Proof.
  unfold dec_meta, enc_meta. eapply parses_bind.
  { apply dec_enc_list. intros (n, l). cbn [fst snd]. eapply parses_bind; [apply dec_enc_str|]. apply parses_map. apply dec_enc_list, dec_enc_str. }
  rewrite <- (app_nil_r (enc_list _ (moffs m))). eapply parses_bind.
  { apply dec_enc_list. intros (n, l). cbn [fst snd]. eapply parses_bind; [apply dec_enc_str|]. apply (parses_map _ (fun l => (n, l))). apply dec_enc_list.
    intros (x, y) rest. reflexivity. }
  destruct m. apply parses_ret.
Qed.
Definition flip (x : list Z) : list Z := map (fun z => 255 - z) x.
Definition zc : codec := {| known := fun k => (k =? 2) || (k =? 3); deflate := fun o x => flip x ++ [0; 0; 255; 255];
  inflate := fun k l want => (flip (firstn want l), Nat.min (length l) (4096 * ((want + 4095) / 4096)));
  encMeta := enc_meta; decMeta := fun l => match dec_meta l with Some (m, _) => Some m | None => None end |}.
Lemma zc_ok : codec_ok zc.
Proof.
  split.
  - intros o x p _ _ _. eexists. cbn [inflate deflate zc]. rewrite <- app_assoc.
    rewrite firstn_app_exact by (unfold flip; now rewrite map_length). unfold flip. rewrite map_map.
    f_equal. rewrite <- (map_id x) at 2. apply map_ext. intros; lia.
  - intros m. cbn [decMeta encMeta zc]. pose proof (dec_enc_meta m []) as H. rewrite app_nil_r in H. rewrite H. reflexivity.
Qed.
Example C25_values_example : exists w w' m,
  wrun zc (concat (map write_value [([97], [1; 2; 3; 4; 5]); ([98; 99], [])])) writer0 = Ok w /\ close zc w = Some w' /\
  open zc (wout w') = Ok (Some m) /\ moffs m = [([97], [(4, 60)]); ([98; 99], [(64, 52)])] /\
  get zc (wout w') m [97] = Ok (Some [1; 2; 3; 4; 5]) /\ get zc (wout w') m [98; 99] = Ok (Some []) /\ get zc (wout w') m [98] = Ok None.
Proof. eexists _, _, _. split; [vm_compute; reflexivity|]. split; [vm_compute; reflexivity|]. split; [vm_compute; reflexivity|]. vm_compute. repeat split. Qed.
(* two records of one name, uncompressed, with two blocks *)
Definition ex_ops : list op :=
  [OSet 1 0; OConnect [97] [120] 7; OConnect [97] [121] 0; OBlock [97] [120] [1; 2; 3]; OBlock [97] [121] [4]; OWrite [97]; OBlock [97] [121] [5; 6]; OWrite [97]].
Example C25_file_example : exists w w', wrun zc ex_ops writer0 = Ok w /\ close zc w = Some w' /\ Forall op_ok ex_ops /\ Forall (fits zc) (wlog w') /\
  exists out, scan_all zc (S (length (wlog w'))) [([97], true)] {| srest := skipn 4 (wout w'); sblks := []; sxr := None |} = Ok (out, true) /\
    map (fun o => map bdata (snd o)) out = [[[1; 2; 3]; [4]]; [[1; 2; 3]; [5; 6]]].
Proof.
  eexists _, _. split; [vm_compute; reflexivity|]. split; [vm_compute; reflexivity|].
  split. { repeat (constructor; [cbn; unfold inU; lia || exact I|]). constructor. }
  split. { cbn [wlog]. repeat (constructor; [vm_compute; repeat split; congruence|]). constructor. }
  eexists. split; [vm_compute; reflexivity|]. vm_compute. reflexivity.
Qed.
(* Full statement: for every stream.  A compressed record whose last bytes are not needed to obtain its content leaves them in
   the stream, and the scanner then panics on the next record. *)
Definition lazy_ops : list op :=
  [OConnect [97] [97] 0; OBlock [97] [97] (repeat 1 4076); OWrite [97]; OConnect [98] [98] 0; OBlock [98] [98] [2]; OWrite [98]].
Theorem C25_scan_refuted : exists c ops w w', codec_ok c /\ Forall op_ok ops /\ wrun c ops writer0 = Ok w /\ close c w = Some w' /\
  scan_all c 4 [([97], true); ([98], true)] {| srest := skipn 4 (wout w'); sblks := []; sxr := None |} = Panic.
Proof.
  exists zc, lazy_ops. eexists _, _. split; [exact zc_ok|]. split. { repeat (constructor; [cbn; unfold inU; lia || exact I|]). constructor. }
  split; [vm_compute; reflexivity|]. split; [vm_compute; reflexivity|]. vm_compute. reflexivity.
Qed.
(* The scanner keeps the decompressor of the first record it unpacks: a record of another kind is not read. *)
Definition mixed_ops : list op :=
  [OSet 1 0; OConnect [97] [97] 0; OBlock [97] [97] [1]; OWrite [97]; OSet 3 9; OConnect [98] [98] 0; OBlock [98] [98] [2]; OWrite [98]].
Theorem C25_mixed_refuted : exists c ops w w' r b, codec_ok c /\ Forall op_ok ops /\ wrun c ops writer0 = Ok w /\ close c w = Some w' /\
  open c (wout w') = Ok (Some (meta_of w)) /\ get c (wout w') (meta_of w) [98] = Ok (Some [2]) /\
  scan_all c 4 [([97], true); ([98], true)] {| srest := skipn 4 (wout w'); sblks := []; sxr := None |} = Ok ([(r, b)], false).
Proof.
  exists zc, mixed_ops. eexists _, _, _, _. split; [exact zc_ok|]. split. { repeat (constructor; [cbn; unfold inU; lia || exact I|]). constructor. }
  split; [vm_compute; reflexivity|]. split; [vm_compute; reflexivity|]. split; [vm_compute; reflexivity|]. split; [vm_compute; reflexivity|].
  vm_compute. reflexivity.
Qed.
(* Get of a record without a block of its own name panics. *)
Theorem C25_get_refuted : exists c ops w w', codec_ok c /\ wrun c ops writer0 = Ok w /\ close c w = Some w' /\
  get c (wout w') (meta_of w) [97] = Panic.
Proof.
  exists zc, [OConnect [97] [120] 0; OBlock [97] [120] [1]; OWrite [97]]. eexists _, _. split; [exact zc_ok|].
  split; [vm_compute; reflexivity|]. split; [vm_compute; reflexivity|]. vm_compute. reflexivity.
Qed.

(* A record cut anywhere before its end is refused, whatever is cut: header, name or content. *)
Definition rec_fields : parser (Z * Z * Z * Z * Z) :=
  h <~~ hdr_parse ;; _ <~~ pguard (str_eqb (snd h) recFrame) ;;
  o <~~ ple 4 ;; c <~~ ple 4 ;; x <~~ ple 4 ;; k <~~ ple 4 ;; pret (fst h, o, c, x, k).
Lemma rec_parse_fields l : rec_parse l = match rec_fields l with
  | Some ((n, o, c, x, k), l1) => match read_some (Z.to_nat (rioAlign k)) l1 with
      | Some (b, l2) => Some ({| rlen := n; ropts := o; rclen := c; rxlen := x; rname := firstn (Z.to_nat k) b |}, l2)
      | None => None end
  | None => None end.
Proof.
  unfold rec_parse, rec_fields, rec_data, pbind, pret. destruct (hdr_parse l) as [[h l1]|]; auto.
  unfold pguard. destruct (str_eqb _ _); [|reflexivity]. unfold pret. destruct (ple 4 l1) as [[o l2]|]; auto. destruct (ple 4 l2) as [[c l3]|]; auto.
  destruct (ple 4 l3) as [[x l4]|]; auto. destruct (ple 4 l4) as [[k l5]|]; auto.
Qed.
Definition extends {A} (f : parser A) : Prop := forall l v r s, f l = Some (v, r) -> f (l ++ s) = Some (v, r ++ s).
Lemma ext_take n : extends (take n).
Proof.
  intros l v r s. unfold take. destruct (Nat.leb_spec n (length l)); [|discriminate]. intros E. injection E as <- <-.
  rewrite app_length. destruct (Nat.leb_spec n (length l + length s)); [|lia].
  rewrite firstn_app, skipn_app. replace (n - length l)%nat with 0%nat by lia. cbn [firstn skipn]. now rewrite app_nil_r.
Qed.
Lemma ext_ret {A} (v : A) : extends (pret v).
Proof. intros l w r s E. injection E as <- <-. reflexivity. Qed.
Lemma ext_bind {A B} (f : parser A) (g : A -> parser B) : extends f -> (forall v, extends (g v)) -> extends (pbind f g).
Proof.
  intros F G l v r s. unfold pbind. destruct (f l) as [[a l1]|] eqn:E; [|discriminate]. rewrite (F _ _ _ s E). apply G.
Qed.
Lemma ext_ple n : extends (ple n).
Proof. apply ext_bind; [apply ext_take|]. intros. apply ext_ret. Qed.
Lemma ext_guard b : extends (pguard b).
Proof. unfold pguard. destruct b; [apply ext_ret|]. intros l v r s E. discriminate. Qed.
Lemma ext_fields : extends rec_fields.
Proof.
  unfold rec_fields, hdr_parse.
  repeat (apply ext_bind; [first [apply ext_ple|apply ext_take|apply ext_guard|apply ext_bind; [apply ext_ple|intros; apply ext_bind; [apply ext_take|intros; apply ext_ret]]]|intros]).
  apply ext_ret.
Qed.
Lemma read_some_len n l b l2 : read_some n l = Some (b, l2) -> (length l2 = length l - n)%nat.
Proof. unfold read_some. destruct n, l; intros E; try discriminate; injection E as _ <-; cbn [length skipn]; rewrite ?skipn_length; lia. Qed.

Theorem C25_truncated : forall c e n, entry_ok c e -> fits c e -> CompressorKind (eopts e) = 1 -> eblks e <> [] ->
  (n < length (ebytes e))%nat -> read_record c (firstn n (ebytes e)) = None.
Proof.
  intros c e n Eok F K Nb Ln. destruct (raw_fits c e Eok F) as (P & R1 & R2 & R3). pose proof Eok as (_ & _ & Bk & _ & Eb).
  set (x := concat (map blk_marshal (eblks e))) in *.
  assert (Px : payload c (eopts e) x = x) by (unfold payload; rewrite K; reflexivity).
  assert (X4 : zlen x mod 4 = 0).
  { unfold x. clear. induction (eblks e) as [|b l IH]; [reflexivity|]. cbn [map concat]. rewrite zlen_app. pose proof (blk_len4 b). Z.div_mod_to_equations. lia. }
  assert (X0 : 0 < zlen x).
  { unfold x. destruct (eblks e) as [|b l]; [contradiction|]. cbn [map concat]. unfold blk_marshal, hdr_marshal. rewrite !zlen_app, !zlen_le.
    repeat match goal with |- context [zlen ?y] => lazymatch goal with H : 0 <= zlen y |- _ => fail | _ => pose proof (zlen_nonneg y) end end. lia. }
  assert (Al : rioAlignU32 (rlen (raw_of c e)) - rlen (raw_of c e) = 0).
  { rewrite R1, Px. destruct F as (_ & F2 & _). unfold rioAlignU32. change 3 with (Z.ones 2). rewrite !Z.land_ones by lia. change (2 ^ 2) with 4.
    rewrite X4. change ((4 - 0) mod 4) with 0. pose proof (zlen_nonneg x). rewrite Z.add_0_r, wrapU_id; [lia|]. unfold inU. fold x in F2. lia. }
  rewrite Al, Px in Eb. cbn [Z.to_nat repeat] in Eb. rewrite app_nil_r in Eb.
  unfold read_record. rewrite rec_parse_fields.
  destruct (rec_fields (firstn n (ebytes e))) as [[[[[[n0 o] cl] xl] k] l1]|] eqn:Ef; auto.
  destruct (read_some (Z.to_nat (rioAlign k)) l1) as [[b l2]|] eqn:Er; auto.
  pose proof (ext_fields _ _ _ (skipn n (ebytes e)) Ef) as Ew. rewrite firstn_skipn in Ew.
  pose proof (P x) as Pw. rewrite <- Eb in Pw. rewrite rec_parse_fields, Ew in Pw.
  destruct (read_some (Z.to_nat (rioAlign k)) (l1 ++ skipn n (ebytes e))) as [[b' l2']|] eqn:Er'; [|discriminate].
  pose proof (f_equal (fun q => match q with Some (r, _) => rxlen r | None => 0 end) Pw) as Xl. cbn beta iota in Xl. rewrite R3 in Xl. cbn [rxlen] in Xl.
  pose proof (f_equal (fun q => match q with Some (r, _) => ropts r | None => 0 end) Pw) as Oo. cbn beta iota delta [ropts raw_of] in Oo.
  pose proof (f_equal (fun q => match q with Some (_, l) => l | None => [] end) Pw) as Pl. cbn beta iota in Pl.
  apply read_some_len in Er, Er'. subst l2' xl o. rewrite app_length, skipn_length in Er'.
  unfold read_blocks. cbn [ropts rxlen rclen]. change (ropts (raw_of c e)) with (eopts e). rewrite K. change (1 =? 1) with true. cbn [orb].
  rewrite (proj2 (Nat.ltb_lt _ _)); auto. rewrite firstn_length, firstn_length. unfold zlen in *. lia.
Qed.
Example C25_truncated_example : exists e, In e (match wrun zc ex_ops writer0 with Ok w => wlog w | Panic => [] end) /\
  entry_ok zc e /\ fits zc e /\ CompressorKind (eopts e) = 1 /\ length (eblks e) = 2%nat /\ length (ebytes e) = 76%nat.
Proof.
  eexists. split; [left; reflexivity|]. split; [|vm_compute; repeat split; congruence].
  split; [vm_compute; split; congruence|]. split; [left; reflexivity|]. split.
  { repeat (constructor; [vm_compute; repeat split; congruence|]). constructor. }
  split; [|vm_compute; reflexivity]. constructor; [cbn; intuition discriminate|]. constructor; [cbn; tauto|constructor].
Qed.

(* A name under which two or more records were written is refused by Get, whatever else is in the file; one that was never
   written, too. *)
Theorem C25_ambiguous : forall c ops w w' n, codec_ok c -> Forall op_ok ops ->
  wrun c ops writer0 = Ok w -> close c w = Some w' -> Forall (fits c) (wlog w') -> zlen (wout w') < 2 ^ 63 ->
  exists m, open c (wout w') = Ok (Some m) /\
    ((forall e, In e (wlog w) -> ename e <> n) \/ (exists a e1 b e2 d, wlog w = a ++ e1 :: b ++ e2 :: d /\ ename e1 = n /\ ename e2 = n) ->
     get c (wout w') m n = Ok None).
Proof.
  intros c ops w w' n Cok Ok0 R Cl Fit Sz. pose proof (wrun_inv c ops _ _ (winv0 c) Ok0 R) as I.
  pose proof (close_ok c w w' I Cl) as K. exists (meta_of w). split; [eapply open_ok; eauto|].
  destruct I as (_ & _ & _ & _ & _ & I6). unfold get. cbn [meta_of moffs]. rewrite I6. unfold RioProofs2.spans_of.
  intros [H|(a & e1 & b & e2 & d & -> & N1 & N2)].
  - assert (Z0 : filter (fun e => str_eqb n (ename e)) (wlog w) = []).
    { clear -H. induction (wlog w) as [|e l IH]; [reflexivity|]. cbn [filter]. destruct (str_eqb_spec n (ename e)) as [E|E].
      - exfalso. apply (H e); [cbn; auto|auto].
      - apply IH. intros e' J. apply H. cbn; auto. }
    rewrite Z0. reflexivity.
  - rewrite filter_app. cbn [filter]. rewrite N1, str_eqb_refl, filter_app. cbn [filter]. rewrite N2, str_eqb_refl, map_app. cbn [map]. rewrite map_app. cbn [map].
    destruct (map span_of (filter _ a)) as [|[p l] [|]]; destruct (map span_of (filter _ b)); reflexivity.
Qed.
Example C25_ambiguous_example : exists w w' m e1 e2, wrun zc ex_ops writer0 = Ok w /\ close zc w = Some w' /\ open zc (wout w') = Ok (Some m) /\
  wlog w = [e1; e2] /\ ename e1 = [97] /\ ename e2 = [97] /\ get zc (wout w') m [97] = Ok None.
Proof.
  eexists _, _, _, _, _. split; [vm_compute; reflexivity|]. split; [vm_compute; reflexivity|]. split; [vm_compute; reflexivity|].
  split; [reflexivity|]. vm_compute. repeat split.
Qed.

Print Assumptions C25_truncated.
Print Assumptions C25_ambiguous.
Print Assumptions C25_structures.
Print Assumptions C25_file.
Print Assumptions C25_values.
Print Assumptions C25_scan_partial.
Print Assumptions C25_scan_refuted.
Print Assumptions C25_mixed_refuted.
Print Assumptions C25_get_refuted.
Print Assumptions C26_options.
Print Assumptions C26_defaults.
