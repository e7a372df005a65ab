(* No call on a ROOT file being written panics, and which calls are accepted, in terms of what was accepted before. *)
From Coq Require Import ZArith List Lia Bool Sorting.Permutation Sorting.Sorted.
From Verif Require Import Bytes GoLib RbytesModel RbytesProofs RdMonad GoStrings FreelistModel FreelistProps KeyModel KeyProofs KeyProps
  DirModel DirProps CompressModel RfileModel RfileSpec RfileProofs RfileInv RfileClose.
Import ListNotations.
Local Open Scope Z_scope.

(* ---- which calls are accepted ---- *)
(* Put: a name without slash that is not empty (the object's own when none is given), the class of the entries already
   there under that name, an object that can be marshalled and a payload that can be compressed; Mkdir: a name without
   slash that is not taken *)
Definition accepts (cdc : codec) (compr : Z) (o : op) (st : store) : bool :=
  match o with
  | OPut i name ob _ =>
      let n := put_as name ob in
      (i <? length st)%nat && negb (has_byte slash name) && negb (str_eqb n []) &&
      forallb (fun e => str_eqb (eClass e) (oClass ob)) (named n (nth i st [])) &&
      match oData ob (enc_len n (put_title ob) (GoName2Cxx (oClass ob))) with
      | Some p => match Compress cdc p compr with Ok (Some _) => true | _ => false end
      | None => false
      end
  | OMkdir i name _ =>
      (i <? length st)%nat && match named name (nth i st []) with [] => true | _ => false end && negb (has_byte slash name)
  end.
Fixpoint verdicts (cdc : codec) (compr : Z) (ops : list op) (st : store) : list bool :=
  match ops with
  | [] => []
  | o :: ops' => let b := accepts cdc compr o st in b :: verdicts cdc compr ops' (apply o b st)
  end.

(* the room that an accepted call takes in the file *)
Definition cost (cdc : codec) (compr : Z) (o : op) : Z :=
  match o with
  | OPut _ name ob _ =>
      let l := enc_len (put_as name ob) (put_title ob) (GoName2Cxx (oClass ob)) in
      l + match oData ob l with
          | Some p => match Compress cdc p compr with Ok (Some out) => zlen out | _ => 0 end
          | None => 0
          end
  | OMkdir _ name _ => 60 + enc_len name name sTDirectory
  end.
Fixpoint room (cdc : codec) (compr : Z) (ops : list op) (st : store) : Z :=
  match ops with
  | [] => 0
  | o :: ops' => let b := accepts cdc compr o st in (if b then cost cdc compr o else 0) + room cdc compr ops' (apply o b st)
  end.

Lemma scan_some name class c ks b :
  (match scan (data := nat) name class c (labels b ks) with Some _ => true | None => false end) =
  forallb (fun k => str_eqb (kClass k) class) (filter (has_name name) ks).
Proof.
  revert b c; induction ks as [|k ks IH]; intros b c; [reflexivity|]. cbn [labels scan label dkName dkClass filter].
  change (has_name name k) with (str_eqb (kName k) name).
  destruct (str_eqb (kName k) name); cbn [negb forallb]; [|apply IH].
  destruct (str_eqb (kClass k) class); cbn [negb andb]; [apply IH|reflexivity].
Qed.
Lemma forallb_named name class ks :
  forallb (fun k => str_eqb (kClass k) class) (filter (has_name name) (map fKey ks)) =
  forallb (fun e => str_eqb (eClass e) class) (named name (map ent ks)).
Proof.
  induction ks as [|k ks IH]; [reflexivity|]. cbn [map filter named ent eName].
  change (has_name name (fKey k)) with (str_eqb (kName (fKey k)) name).
  destruct (str_eqb (kName (fKey k)) name); cbn [forallb]; [now rewrite IH|exact IH].
Qed.
Lemma pick_total srt name ks : ~ In semicolon name -> exists r, pick srt name ks = Ok r.
Proof.
  intros N. unfold pick, get. rewrite C14_plain by auto. cbn [rbind negb Z.eqb Pos.eqb].
  destruct (filter _ _) as [|a [|b l]]; cbn [rbind]; eauto.
Qed.

Section Live.
  Variable junk : nat -> Z.
  Variable cdc : codec.
  Variable srt : list (dkey nat) -> list (dkey nat).
  Variable fname : str.
  Variable compr : Z.

  (* ---- nothing panics ---- *)
  Lemma writeFile_total k buf f : 0 <= kNbytes k -> date_ok (kDate k) -> exists d', writeFile junk k buf f = Ok (s_disk f d').
  Proof.
    intros N D. unfold writeFile. rewrite (fill_emits _ _ _ N (marshalKey_emits junk k N D)). cbn [rbind]. eauto.
  Qed.
  Lemma newKey_total seekpdir name title class objlen now f : one_span f -> class <> sTBasket ->
    enc_len name title class < maxkey -> 0 <= objlen < 2 ^ 31 - 2 ^ 15 ->
    exists k f', newKey seekpdir name title class objlen now f = Ok (k, f') /\ 0 <= kNbytes k /\ kDate k = now /\
      kKeylen k = keylenFor name title class (dBig (dir_at f 0)) (wEnd f) /\
      (0 < objlen -> kSeekkey k = wEnd f /\ f' = longer f (kNbytes k)) /\ (objlen = 0 -> f' = f).
  Proof.
    intros SP NB L Sz. unfold newKey. cbv zeta. rewrite keylenFor_len by auto. pose proof (enc_len_pos name title class). unfold maxkey in L.
    destruct (Z.ltb_spec 0 objlen).
    - rewrite setEnd_single by exact SP. do 2 eexists. split; [reflexivity|]. cbn [kNbytes kDate kKeylen kSeekkey].
      split; [rewrite wrapS_id; [destruct (_ || _); lia|lia|apply inS32; destruct (_ || _); lia]|]. repeat split; auto. lia.
    - do 2 eexists. split; [reflexivity|]. cbn [kNbytes kDate kKeylen kSeekkey].
      split; [rewrite wrapS_id; [destruct (_ || _); lia|lia|apply inS32; destruct (_ || _); lia]|]. repeat split; auto; lia.
  Qed.
  Definition op_live (o : op) : Prop :=
    match o with OPut _ _ ob _ => forall off p, oData ob off = Some p -> Compress cdc p compr <> Panic | OMkdir _ _ _ => True end.
  Lemma key_nbytes name title class cycle (p out : list Z) big pdir eof now : class <> sTBasket -> enc_len name title class < maxkey ->
    zlen out < 2 ^ 31 - 2 ^ 15 ->
    0 <= kNbytes (newKeyFromBuf name title class cycle (wrapS 32 (zlen p)) (wrapS 32 (zlen out)) big pdir eof now).
  Proof.
    intros NB L Lo. pose proof (zlen_nonneg out). unfold newKeyFromBuf. cbn [kNbytes]. rewrite keylenFor_len by auto.
    pose proof (enc_len_pos name title class). unfold maxkey in L. rewrite (wrapS_id 32 (zlen out)) by (try apply inS32; lia).
    rewrite wrapS_id; [|lia|apply inS32; destruct (_ || _); lia]. destruct (_ || _); lia.
  Qed.
  Lemma put_total f i name o now : one_span f -> wCompr f = compr -> op_ok cdc compr (OPut i name o now) ->
    op_live (OPut i name o now) -> exists r, Put junk cdc i name o now f = Ok r.
  Proof.
    intros SP CP (Dt & Sn & St & Sc & Ln & NS & C1 & C2 & NB & Pl) LV. unfold Put. cbv zeta.
    destruct (has_byte slash name); [eauto|].
    assert (E : (match oNamed o with Some (n, t) => (match name with [] => n | _ => name end, t) | None => (name, []) end)
                = (put_as name o, put_title o)).
    { unfold put_as, put_title. destruct (oNamed o) as [[n t]|]; destruct name; reflexivity. }
    rewrite E. set (nm := put_as name o) in *. clearbody nm. clear E. destruct nm as [|n0 nm0] eqn:En; [eauto|]. rewrite <- En in *. clear En n0 nm0.
    destruct (scan _ _ _ _) as [cyc|]; [|eauto]. destruct (oData o _) as [p|] eqn:Dp; [|eauto].
    unfold newKeyBuf. rewrite CP. specialize (LV _ _ Dp). destruct (Pl _ _ Dp) as (_ & P2).
    destruct (Compress cdc p compr) as [[out|]|]; [|cbn [rbind]; eauto|contradiction].
    cbn [rbind]. cbv zeta. rewrite setEnd_single by exact SP. cbn [rbind].
    destruct (P2 _ eq_refl) as (Lo & _).
    match goal with |- context [writeFile junk ?k out ?g] => destruct (writeFile_total k out g) as (d' & W) end.
    { apply key_nbytes; auto. }
    { exact Dt. }
    rewrite W. cbn [rbind]. eauto.
  Qed.
  Lemma mkdir_total f i name now : one_span f -> op_ok cdc compr (OMkdir i name now) -> exists r, Mkdir junk srt i name now f = Ok r.
  Proof.
    intros SP (Dt & Sn & NS & Ln). unfold Mkdir. destruct (pick_total srt name (map fKey (wKeys (dir_at f i))) NS) as (g & ->).
    cbn [rbind]. destruct g; [eauto|]. destruct (has_byte slash name); [eauto|]. cbv zeta. unfold newDirectoryFile. cbv zeta.
    destruct (newKey_total (dSeekdir (wHdr (dir_at f i))) name name sTDirectory (recordSize rootVersion) now f SP) as (k & f1 & E & Nk & Dk & _);
      [discriminate|exact Ln|split; [discriminate|reflexivity]|]. rewrite E. cbn [rbind].
    erewrite fill_emits; [|discriminate|].
    2:{ apply w_seq_emits; [apply WriteString_emits|]. apply w_seq_emits; [apply WriteString_emits|].
        apply marshalDir_emits; auto. discriminate. }
    cbn [rbind]. match goal with |- context [writeFile junk k ?b ?g] => destruct (writeFile_total k b g) as (d' & W) end; auto.
    { now rewrite Dk. }
    rewrite W. cbn [rbind]. eauto.
  Qed.
  Lemma run_total ops : forall f, one_span f -> wCompr f = compr -> Forall (op_ok cdc compr) ops -> Forall op_live ops ->
    exists r, run junk cdc srt ops f = Ok r.
  Proof.
    induction ops as [|o ops IH]; intros f SP CP OK LV; cbn [run]; [eauto|].
    inversion_clear OK as [|? ? Oo Os]. inversion_clear LV as [|? ? Lo Ls].
    assert (E : exists r, step junk cdc srt o f = Ok r).
    { destruct o as [i name ob now|i name now]; cbn [step]; (destruct (_ <? _)%nat; [|eauto]); [now apply put_total|now apply mkdir_total]. }
    destruct E as ([f1 b] & E). rewrite E. cbn [rbind fst snd].
    destruct (step_mono junk cdc srt compr o f f1 b SP CP Oo E) as (_ & S1 & C1).
    destruct (IH f1 S1 C1 Os Ls) as ((f2 & oks) & ->). cbn [rbind fst snd]. eauto.
  Qed.

  (* ---- closing ---- *)
  Definition fine (f : wfile) : Prop :=
    tame compr f /\
    (forall j d, nth_error (wDirs f) j = Some d -> date_ok (dCtime (wHdr d)) /\ dUuid (wHdr d) <> [] /\
      Forall (fun k => 0 <= kNbytes k /\ date_ok (kDate k)) (map fKey (wKeys d)) /\
      forall m, In m (wSubs d) -> (j < m < length (wDirs f))%nat).
  Lemma same_back f f' j d' : same_tree f f' -> nth_error (wDirs f') j = Some d' ->
    exists d, nth_error (wDirs f) j = Some d /\ wKeys d' = wKeys d /\ wSubs d' = wSubs d /\ same_hdr (wHdr d) (wHdr d').
  Proof.
    intros (L & T) N. destruct (nth_error (wDirs f) j) as [d|] eqn:E.
    - destruct (T _ _ E) as (d2 & N2 & _ & _ & K & Su & H). assert (d2 = d') by congruence. subst. eauto.
    - apply nth_error_None in E. assert (j < length (wDirs f'))%nat by (apply nth_error_Some; congruence). lia.
  Qed.
  Lemma fine_same f f' : same_tree f f' -> tame compr f' -> fine f -> fine f'.
  Proof.
    intros ST T (_ & F). split; auto. intros j d' N. destruct (same_back _ _ _ _ ST N) as (d & N0 & K & Su & (H1 & H2 & H3 & H4 & H5 & H6)).
    destruct (F _ _ N0) as (A & B & C & D). rewrite H2, H6, K, Su, (proj1 ST). auto.
  Qed.
  Lemma good_fine f : good cdc fname compr f -> wEnd f <= kStartBigFile -> fine f.
  Proof.
    intros G L. split; [eapply good_tame; eauto|]. intros j d N. pose proof (g_dirs _ _ _ _ G _ _ N) as W.
    split; [apply (dw_dates _ _ W)|]. split; [rewrite (dw_uuid _ _ W); discriminate|]. split.
    - apply Forall_forall. intros k I. apply in_map_iff in I as (fk & <- & I). pose proof (g_keys _ _ _ _ G _ _ _ N I) as KW.
      split; [|apply (kw_date _ _ KW)]. pose proof (kw_nb _ _ KW). pose proof (kw_len _ _ KW).
      pose proof (enc_len_pos (kName (fKey fk)) (kTitle (fKey fk)) (kClass (fKey fk))). lia.
    - intros m I. eapply g_subs; eauto.
  Qed.
  Lemma saveSelf_total clk i f : (forall j, date_ok (clk j)) -> fine f -> (i < length (wDirs f))%nat ->
    exists f', saveSelf junk clk i f = Ok f'.
  Proof.
    intros Dc F Li. pose proof F as (T & Fd). pose proof T as ((SP & _) & _). destruct (tame_at compr f i T) as (Ks & El).
    destruct (nth_error (wDirs f) i) as [d|] eqn:N; [|apply nth_error_None in N; lia].
    destruct (Fd _ _ N) as (Dt & Uu & Kf & _).
    unfold saveSelf, dirWriteKeys. cbv zeta. rewrite (dir_at_nth _ _ _ N) in *. fold (key_sum (wKeys d)).
    set (nb := wrapS 32 _). assert (NB : 0 <= nb < 2 ^ 31 - 2 ^ 15).
    { unfold nb, kStartBigFile in *. rewrite wrapS_id; [|lia|apply inS32; destruct (fBig f); lia]. destruct (fBig f); lia. }
    destruct (newKey_total (dSeekdir (wHdr d)) (wName d) (wTitle d) sTDirectory nb (clk i) f SP) as (k & f1 & E & Nk & Dk & _ & F1 & F2);
      [discriminate|exact El|exact NB|]. rewrite E. cbn [rbind].
    assert (D1 : wDirs f1 = wDirs f).
    { destruct (Z.eq_dec nb 0) as [e|e]; [now rewrite (F2 e)|]. destruct (F1 ltac:(lia)) as (_ & ->). reflexivity. }
    erewrite fill_emits; [|apply NB|].
    2:{ unfold writeKeys. apply w_seq_emits; [apply WriteInt_emits|]. now apply marshalKeys_emits. }
    cbn [rbind]. match goal with |- context [writeFile junk k ?b ?g] => destruct (writeFile_total k b g) as (d' & W) end; auto.
    { rewrite Dk. apply Dc. }
    rewrite W. cbn [rbind]. unfold dirWriteHeader. cbv zeta.
    set (g := s_disk _ d'). set (d2 := s_hdr d _) in *.
    assert (N2 : dir_at g i = d2).
    { apply dir_at_nth. change (wDirs g) with (set_nth (wDirs f1) i d2). rewrite D1, set_nth_nth, Nat.eqb_refl.
      destruct (Nat.ltb_spec i (length (wDirs f))); [reflexivity|lia]. }
    rewrite N2. erewrite fill_emits; [|discriminate|].
    2:{ apply marshalDir_emits; [exact Dt|apply Dc|exact Uu]. }
    cbn [rbind]. eauto.
  Qed.
  Lemma save_total clk : (forall j, date_ok (clk j)) -> forall fuel i f, fine f -> (i < length (wDirs f))%nat ->
    (length (wDirs f) <= fuel + i)%nat -> exists f', save junk fuel clk i f = Ok f'.
  Proof.
    intros Dc fuel. induction fuel as [|fuel IH]; intros i f F Li Lf; [lia|]. rewrite save_S.
    destruct (saveSelf_total clk i f Dc F Li) as (f1 & E1). rewrite E1. cbn [rbind].
    destruct (saveSelf_mono junk compr clk i f f1 (proj1 F) E1) as (_ & T1 & ST). pose proof (fine_same _ _ ST T1 F) as F1.
    assert (L1 : length (wDirs f1) = length (wDirs f)) by apply ST. rewrite <- L1 in Li, Lf.
    destruct (nth_error (wDirs f1) i) as [d|] eqn:N; [|apply nth_error_None in N; lia]. rewrite (dir_at_nth _ _ _ N).
    assert (SB : forall m, In m (wSubs d) -> (i < m < length (wDirs f1))%nat) by apply (proj2 F1 _ _ N).
    assert (Lf' : (length (wDirs f1) <= S (fuel + i))%nat) by lia. revert F1 Lf' SB. clear -IH. revert f1.
    generalize (wSubs d). induction l as [|m l IHl]; intros f1 F1 Lf SB; cbn [save_subs]; [eauto|].
    destruct (IH m f1 F1) as (f2 & E2); [apply (SB m); now left|specialize (SB m (or_introl eq_refl)); lia|].
    rewrite E2. cbn [rbind]. destruct (save_mono junk compr clk fuel m f1 f2 (proj1 F1) E2) as (_ & T2 & ST2).
    pose proof (fine_same _ _ ST2 T2 F1) as F2. assert (L2 : length (wDirs f2) = length (wDirs f1)) by apply ST2.
    apply IHl; auto; [lia|]. intros m' I. rewrite L2. apply SB. now right.
  Qed.
  Lemma writeHeader_total f : exists f', writeHeader junk f = Ok f'.
  Proof.
    unfold writeHeader. cbv zeta. erewrite fill_emits; [cbn [rbind]; eauto|discriminate|].
    repeat (apply w_seq_emits; [first [apply WriteInt_emits|apply write_emits; discriminate]|]). apply write_emits. discriminate.
  Qed.
  Lemma close_total si clk t1 t2 f : good cdc fname compr f -> wEnd f <= kStartBigFile -> (forall j, date_ok (clk j)) ->
    date_ok t1 -> date_ok t2 -> (forall off, payload_ok cdc compr (si off)) ->
    (forall off, exists out, Compress cdc (si off) compr = Ok (Some out)) ->
    exists f', Close junk cdc si clk t1 t2 f = Ok (Some f').
  Proof.
    intros G L Dc D1 D2 PO CO. unfold Close.
    assert (E1 : exists f1, dirClose junk clk f = Ok f1).
    { unfold dirClose. cbv zeta. unfold fBig. destruct (Z.ltb_spec kStartBigFile (wEnd f)); [lia|]. cbn [andb].
      destruct (g_root _ _ _ _ G) as (d & N & _). assert (0 < length (wDirs f))%nat by (apply nth_error_Some; congruence).
      apply save_total; auto; [now apply good_fine|lia]. }
    destruct E1 as (f1 & E1). rewrite E1. cbn [rbind].
    destruct (dirClose_mono junk cdc fname compr clk f f1 G L E1) as (_ & T1 & ST). pose proof T1 as ((SP & I0 & F0 & CP) & _).
    assert (E2 : exists f2, writeStreamerInfo junk cdc si t1 f1 = Ok (Some f2)).
    { unfold writeStreamerInfo. cbv zeta. rewrite I0. cbn [Z.eqb negb].
      destruct (newKey_total (dSeekdir (wHdr (dir_at f1 0))) sStreamerInfo sListTitle sTList 0 t1 f1 SP) as (k & f2 & E & Nk & Dk & Kl & _ & F2);
        [discriminate|reflexivity|lia|]. rewrite E. cbn [rbind]. rewrite F2 by reflexivity.
      unfold newKeyBuf. rewrite CP. destruct (CO (kKeylen k)) as (out & Eo). rewrite Eo. cbn [rbind]. cbv zeta.
      rewrite setEnd_single by exact SP. cbn [rbind]. destruct (PO (kKeylen k)) as (_ & P2). destruct (P2 _ Eo) as (Lo & _).
      match goal with |- context [writeFile junk ?k2 out ?g] => destruct (writeFile_total k2 out g) as (d' & W) end.
      { apply key_nbytes; auto; [discriminate|reflexivity]. }
      { exact D1. }
      rewrite W. cbn [rbind]. eauto. }
    destruct E2 as (f2 & E2). rewrite E2. cbn [rbind].
    destruct (writeStreamerInfo_mono junk cdc compr si t1 f1 f2 T1 PO E2) as (M2 & SP2 & SF2 & DD2).
    assert (E3 : exists f3, writeFreeSegments junk t2 f2 = Ok f3).
    { unfold writeFreeSegments. cbv zeta. rewrite SF2. cbn [Z.eqb negb]. rewrite SP2. cbn [map fold_right].
      assert (SZ : seg_sizeof (mkSeg (wEnd f2) kStartBigFile) + 0 = 10) by reflexivity. rewrite SZ. cbn [Z.eqb].
      destruct (newKey_total (dSeekdir (wHdr (dir_at f2 0))) (wName (dir_at f2 0)) (wTitle (dir_at f2 0)) sTFile 10 t2 f2 SP2) as (k & f3 & E & Nk & Dk & Kl & F1 & _).
      - discriminate.
      - destruct (tame_at compr f1 0 T1) as (_ & X). unfold dir_at in *. rewrite DD2. unfold enc_len in *.
        change (tstringSizeof sTDirectory) with 11 in X. change (tstringSizeof sTFile) with 6. lia.
      - lia.
      - rewrite E. cbn [rbind]. destruct (F1 ltac:(lia)) as (Sk & ->). destruct (_ =? 0); [eauto|].
        assert (NP : forall g, negb (fBig g) && (kStartBigFile <? wEnd g) = false) by (intros g; unfold fBig; now destruct (kStartBigFile <? _)).
        rewrite NP. set (g := longer f2 (kNbytes k)). change (spans (wSpace g)) with [mkSeg (wEnd g) kStartBigFile].
        rewrite (fill_emits 10 _ (free_record g)); [|discriminate|cbn [marshalSegs]; rewrite <- (app_nil_r (free_record g)); apply w_seq_emits; [apply marshalSeg_emits|apply w_nop_emits]].
        cbn [rbind]. rewrite zlen_free_record. change (10 <? 10) with false. cbv iota.
        match goal with |- context [writeFile junk k ?b ?h] => destruct (writeFile_total k b h) as (d' & W) end; auto.
        { rewrite Dk. exact D2. }
        rewrite W. eauto. }
    destruct E3 as (f3 & E3). rewrite E3. cbn [rbind]. destruct (writeHeader_total f3) as (f4 & E4). rewrite E4. cbn [rbind]. eauto.
  Qed.

  (* ---- what is accepted ---- *)
  Lemma named_nil name ks : (match named name (map ent ks) with [] => true | _ => false end) =
    match positions 0 name (map kName (map fKey ks)) with [] => true | _ => false end.
  Proof.
    pose proof (named_ent name ks) as E. rewrite <- (positions_length 0) in E.
    destruct (named name (map ent ks)), (positions 0 name _); auto; discriminate E.
  Qed.
  Lemma step_accepts o f f' b : sorts srt -> good cdc fname compr f -> op_ok cdc compr o -> op_live o ->
    step junk cdc srt o f = Ok (f', b) -> wEnd f <= kStartBigFile -> b = accepts cdc compr o (view f).
  Proof.
    intros ST G OK LV H L. assert (LN : length (view f) = length (wDirs f)) by (unfold view; now rewrite map_length).
    destruct o as [i name ob now|i name now]; cbn [step accepts] in *; rewrite LN; (destruct (Nat.ltb_spec i (length (wDirs f))) as [Li|Li]; cbn [andb];
      [|congruence]); (destruct (nth_error (wDirs f) i) as [d|] eqn:N; [|apply nth_error_None in N; lia]).
    all: assert (NV : nth i (view f) [] = map ent (wKeys d)) by (apply nth_error_nth; unfold view; now rewrite nth_error_map, N).
    all: rewrite NV; pose proof (g_dirs _ _ _ _ G _ _ N) as DW.
    - destruct OK as (Dt & Sn & St & Sc & Ln & NS & C1 & C2 & NB & Pl). cbn [op_live] in LV.
      unfold Put in H. cbv zeta in H. rewrite (dir_at_nth _ _ _ N) in H.
      destruct (has_byte slash name); cbn [negb andb]; [congruence|].
      assert (E : (match oNamed ob with Some (n, t) => (match name with [] => n | _ => name end, t) | None => (name, []) end)
                  = (put_as name ob, put_title ob)).
      { unfold put_as, put_title. destruct (oNamed ob) as [[n t]|]; destruct name; reflexivity. }
      rewrite E in H. clear E. set (nm := put_as name ob) in *. clearbody nm.
      destruct nm as [|n0 nm0] eqn:En; [cbn [str_eqb negb andb]; congruence|]. rewrite <- En in *.
      assert (NE : str_eqb nm [] = false) by (rewrite En; reflexivity). rewrite NE. clear En NE n0 nm0. cbn [negb andb].
      rewrite <- forallb_named, <- (scan_some nm (oClass ob) 0 _ 0).
      destruct (scan nm (oClass ob) 0 _) as [cyc|]; cbn [andb]; [|congruence].
      rewrite keylenFor_len in H by auto. unfold dBig in H at 1. rewrite (dw_rvers _ _ DW) in H.
      destruct (Z.ltb_spec kStartBigFile (wEnd f)) in H; [lia|]. change (1000 <? 5) with false in H. cbn [orb] in H. rewrite Z.add_0_r in H.
      destruct (oData ob _) as [p|] eqn:Dp; [|congruence]. specialize (LV _ _ Dp).
      unfold newKeyBuf in H. rewrite (proj1 (g_misc _ _ _ _ G)) in H.
      destruct (Compress cdc p compr) as [[out|]|]; [| |contradiction]; cbn [rbind] in H; [|congruence].
      cbv zeta in H. rewrite setEnd_single in H by exact (g_spans _ _ _ _ G). cbn [rbind] in H.
      destruct (writeFile _ _ _ _) in H; cbn [rbind] in H; [congruence|discriminate H].
    - destruct OK as (Dt & Sn & NS & Ln). unfold Mkdir in H. rewrite (dir_at_nth _ _ _ N) in H.
      rewrite (pick_latest srt name _ ST NS (dw_cyc _ _ DW)) in H. cbn [rbind] in H. rewrite named_nil.
      destruct (positions 0 name _) as [|x l] eqn:E.
      + cbn [map List.last] in H. cbn [andb]. destruct (has_byte slash name); cbn [negb]; [congruence|]. cbv zeta in H.
        destruct (newDirectoryFile _ _ _ _ _) in H; cbn [rbind] in H; [congruence|discriminate H].
      + cbn [andb]. destruct (List.last (map Some (x :: l)) None) as [y|] eqn:El; [congruence|]. apply last_none in El. discriminate El.
  Qed.
  Lemma step_size o f f' b : good cdc fname compr f -> op_ok cdc compr o ->
    step junk cdc srt o f = Ok (f', b) -> wEnd f <= kStartBigFile -> wEnd f' = wEnd f + if b then cost cdc compr o else 0.
  Proof.
    intros G OK H L.
    destruct o as [i name ob now|i name now]; cbn [step cost] in *; (destruct (Nat.ltb_spec i (length (wDirs f))) as [Li|Li];
      [|assert (E : f' = f) by congruence; assert (b = false) by congruence; subst b; rewrite E; lia]);
      (destruct (nth_error (wDirs f) i) as [d|] eqn:N; [|apply nth_error_None in N; lia]).
    all: pose proof (g_dirs _ _ _ _ G _ _ N) as DW; pose proof (dw_rvers _ _ DW) as RV.
    - destruct OK as (Dt & Sn & St & Sc & Ln & NS & C1 & C2 & NB & Pl).
      apply (put_cases junk cdc f i d name ob now f' b (g_spans _ _ _ _ G) N) in H as [(-> & ->)|(-> & cyc & p & out & k & f1 & Sca & Dp & Cm & Ek & W & ->)]; [lia|].
      assert (BF : dBig d || (kStartBigFile <? wEnd f) = false).
      { unfold dBig. rewrite RV. destruct (Z.ltb_spec kStartBigFile (wEnd f)); [lia|reflexivity]. }
      rewrite keylenFor_len, BF, Z.add_0_r in Dp by auto. cbv zeta. rewrite Dp.
      rewrite (proj1 (g_misc _ _ _ _ G)) in Cm. rewrite Cm. destruct (Pl _ _ Dp) as (_ & P2). destruct (P2 _ Cm) as (Lo & _).
      destruct (writeFile_fields _ _ _ _ _ W) as (d' & ->). change (wEnd (set_dir _ _ _)) with (wEnd f + kNbytes k). f_equal.
      rewrite Ek. unfold newKeyFromBuf. cbn [kNbytes]. rewrite keylenFor_len, BF, Z.add_0_r by auto.
      pose proof (enc_len_pos (put_as name ob) (put_title ob) (GoName2Cxx (oClass ob))). unfold maxkey in Ln. pose proof (zlen_nonneg out).
      rewrite (wrapS_id 32 (zlen out)) by (try apply inS32; lia). rewrite wrapS_id; [reflexivity|lia|apply inS32; lia].
    - destruct OK as (Dt & Sn & NS & Ln). unfold Mkdir in H.
      destruct (pick srt name _) as [g|]; cbn [rbind] in H; [|discriminate H].
      destruct g; [assert (E : f' = f) by congruence; assert (b = false) by congruence; subst b; rewrite E; lia|].
      destruct (has_byte slash name); [assert (E : f' = f) by congruence; assert (b = false) by congruence; subst b; rewrite E; lia|].
      cbv zeta in H. unfold newDirectoryFile in H. cbv zeta in H. change (recordSize rootVersion) with 60 in H.
      destruct (g_root _ _ _ _ G) as (d0 & N0 & _). pose proof (enc_len_pos name name sTDirectory). unfold maxkey in Ln.
      rewrite newKey_spec in H; [|exact (g_spans _ _ _ _ G)|rewrite (dir_at_nth _ _ _ N0); exact (dw_rvers _ _ (g_dirs _ _ _ _ G _ _ N0))|lia|discriminate|lia|lia].
      cbn [rbind] in H. destruct (fill _ _) as [buf|] in H; cbn [rbind] in H; [|discriminate H].
      destruct (writeFile _ _ _ _) as [f2|] eqn:W in H; cbn [rbind] in H; [|discriminate H].
      destruct (writeFile_fields _ _ _ _ _ W) as (d' & ->).
      match type of H with Ok (?x, _) = _ => assert (X : f' = x) by congruence end. assert (b = true) by congruence. subst b. rewrite X.
      match goal with |- wEnd ?g = _ => change (wEnd g) with (wEnd f + (60 + enc_len name name sTDirectory)) end. reflexivity.
  Qed.
  Lemma cost_nonneg o : 0 <= cost cdc compr o.
  Proof.
    destruct o as [i name ob now|i name now]; cbn [cost].
    - cbv zeta. pose proof (enc_len_pos (put_as name ob) (put_title ob) (GoName2Cxx (oClass ob))).
      destruct (oData ob _) as [p|]; [|lia]. destruct (Compress cdc p compr) as [[out|]|]; try lia. pose proof (zlen_nonneg out). lia.
    - pose proof (enc_len_pos name name sTDirectory). lia.
  Qed.
  Lemma room_nonneg ops st : 0 <= room cdc compr ops st.
  Proof.
    revert st; induction ops as [|o ops IH]; intros st; cbn [room]; [lia|]. cbv zeta. specialize (IH (apply o (accepts cdc compr o st) st)).
    pose proof (cost_nonneg o). destruct (accepts cdc compr o st); lia.
  Qed.
  Lemma run_room ops : forall f, sorts srt -> good cdc fname compr f -> Forall (op_ok cdc compr) ops -> Forall op_live ops ->
    wEnd f + room cdc compr ops (view f) <= kStartBigFile ->
    (forall i nm, zlen (named nm (nth i (applies ops (verdicts cdc compr ops (view f)) (view f)) [])) <= 32767) ->
    exists f', run junk cdc srt ops f = Ok (f', verdicts cdc compr ops (view f)) /\ good cdc fname compr f' /\
      view f' = applies ops (verdicts cdc compr ops (view f)) (view f) /\ wEnd f' = wEnd f + room cdc compr ops (view f).
  Proof.
    induction ops as [|o ops IH]; intros f ST G OK LV L Cn; cbn [run verdicts room applies] in *.
    { exists f. repeat (split; auto). lia. }
    cbv zeta in *. inversion_clear OK as [|? ? Oo Os]. inversion_clear LV as [|? ? Lo Ls].
    set (b := accepts cdc compr o (view f)) in *. pose proof (cost_nonneg o) as CN. pose proof (room_nonneg ops (apply o b (view f))) as RN.
    assert (Lf : wEnd f <= kStartBigFile) by (destruct b; lia).
    assert (E : exists f1, step junk cdc srt o f = Ok (f1, b)).
    { destruct (run_total [o] f (g_spans _ _ _ _ G) (proj1 (g_misc _ _ _ _ G))) as (r & E); [constructor; auto|constructor; auto|].
      cbn [run] in E. destruct (step junk cdc srt o f) as [[f1 b1]|] eqn:S1; [|discriminate E]. exists f1.
      rewrite (step_accepts o f f1 b1 ST G Oo Lo S1 Lf). reflexivity. }
    destruct E as (f1 & S1). rewrite S1. cbn [rbind fst snd].
    pose proof (step_size o f f1 b G Oo S1 Lf) as SZ.
    destruct (step_good junk cdc srt fname compr o f f1 b ST G Oo S1) as (G1 & V1); [destruct b; lia| |].
    { intros i nm. pose proof (applies_le ops (verdicts cdc compr ops (apply o b (view f))) (apply o b (view f)) i nm). specialize (Cn i nm). lia. }
    destruct (IH f1 ST G1 Os Ls) as (f' & R & G' & V' & W').
    { rewrite V1. destruct b; lia. }
    { rewrite V1. exact Cn. }
    rewrite V1 in R, V', W'. exists f'. rewrite R. cbn [rbind fst snd]. split; [reflexivity|]. split; auto. split; auto. destruct b; lia.
  Qed.
  Lemma run_accepts ops : forall f f' oks, sorts srt -> good cdc fname compr f -> Forall (op_ok cdc compr) ops -> Forall op_live ops ->
    run junk cdc srt ops f = Ok (f', oks) -> wEnd f' <= kStartBigFile ->
    (forall i nm, zlen (named nm (nth i (applies ops oks (view f)) [])) <= 32767) -> oks = verdicts cdc compr ops (view f).
  Proof.
    induction ops as [|o ops IH]; intros f f' oks ST G OK LV H L Cn; cbn [run] in H; [cbn [verdicts]; congruence|].
    destruct (step junk cdc srt o f) as [[f1 b]|] eqn:S1; cbn [rbind fst snd] in H; [|discriminate H].
    destruct (run junk cdc srt ops f1) as [[f2 oks']|] eqn:R; cbn [rbind fst snd] in H; [|discriminate H].
    assert (f2 = f') by congruence. assert (oks = b :: oks') by congruence. subst f2 oks. clear H.
    inversion_clear OK as [|? ? Oo Os]. inversion_clear LV as [|? ? Lo Ls].
    destruct (step_mono junk cdc srt compr o f f1 b (g_spans _ _ _ _ G) (proj1 (g_misc _ _ _ _ G)) Oo S1) as (A & B & C).
    destruct (run_mono junk cdc srt compr ops f1 f' oks' B C Os R) as (D & _). cbn [applies] in Cn.
    destruct (step_good junk cdc srt fname compr o f f1 b ST G Oo S1 ltac:(lia)) as (G1 & V1).
    { intros i nm. pose proof (applies_le ops oks' (apply o b (view f)) i nm). specialize (Cn i nm). lia. }
    pose proof (step_accepts o f f1 b ST G Oo Lo S1 ltac:(lia)) as Eb. cbn [verdicts]. cbv zeta. rewrite <- Eb. f_equal.
    rewrite <- V1. eapply IH; eauto. rewrite V1. exact Cn.
  Qed.
End Live.
