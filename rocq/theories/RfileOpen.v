(* Opening a ROOT file that was closed: the header, the free segments, the streamers and the keys are read back, and
   every path leads to what was put there. *)
From Coq Require Import ZArith List Lia Bool Sorting.Permutation Sorting.Sorted.
From Verif Require Import Bytes GoLib RbytesModel RbytesProofs RdMonad GoStrings FreelistModel FreelistProps KeyModel KeyProofs KeyProps
  DirModel DirProps CompressModel RfileModel RfileSpec RfileProofs RfileInv RfileClose.
Import ListNotations.
Local Open Scope Z_scope.

Lemma at_rb x rest : at_ (rb (x ++ rest)) x.
Proof. split; [reflexivity|]. split; [cbn; lia|]. exists rest. reflexivity. Qed.
Lemma reads_rb {A} (f : rd A) x rest v : reads f x v -> f (rb (x ++ rest)) = Ok (v, adv (rb (x ++ rest)) (length x)).
Proof. intros R. apply R, at_rb. Qed.
Lemma readAt_at d p n data q x : readAt d p n = Some data -> 0 <= q -> q + zlen x <= n -> at_disk d (p + q) x -> at_disk data q x.
Proof.
  unfold readAt. destruct (Z.ltb_spec p 0); [discriminate|]. destruct (Z.ltb_spec (zlen d) (p + n)); [discriminate|]. cbn [orb].
  intros H1 Q L A. injection H1 as <-. intros i v N.
  assert (i < length x)%nat by (apply nth_error_Some; congruence). unfold zlen in *.
  rewrite nth_error_firstn'. destruct (Nat.ltb_spec (Z.to_nat q + i) (Z.to_nat n)); [|lia].
  rewrite nth_error_skipn'. specialize (A _ _ N). rewrite <- A. f_equal. lia.
Qed.
Lemma readAt_some d p n : 0 <= p -> 0 <= n -> p + n <= zlen d -> exists data, readAt d p n = Some data /\ zlen data = n.
Proof.
  intros P N L. destruct (readAt_prefix d p n []) as (rest & E & Z1); auto; try apply at_disk_nil. simpl in *. eauto.
Qed.

Section Open.
  Variable cdc : codec.
  Variable srt : list (dkey nat) -> list (dkey nat).
  Variable D : list Z.

  Lemma readRecord_ok pos n k : 0 <= pos -> zlen (enc_key k) <= n -> pos + n <= zlen D -> key_ok k -> at_disk D pos (enc_key k) ->
    readRecord D pos n = Ok (Some k).
  Proof.
    intros P L LD K A. unfold readRecord. pose proof (zlen_nonneg (enc_key k)). destruct (Z.ltb_spec n 0); [lia|].
    destruct (readAt_prefix D pos n (enc_key k)) as (rest & -> & _); auto; try lia.
    rewrite (reads_rb _ _ _ _ (unmarshalKey_reads key0 k K)). cbn [rbind snd fst]. reflexivity.
  Qed.
  Lemma loadKey_ok k p out : 0 <= kSeekkey k + kKeylen k -> kSeekkey k + kKeylen k + zlen out <= zlen D ->
    at_disk D (kSeekkey k + kKeylen k) out -> kObjlen k = zlen p -> kNbytes k = kKeylen k + zlen out -> loads cdc p out ->
    loadKey cdc D k = Ok (Some p).
  Proof.
    intros P L A O N LD. unfold loadKey. cbv zeta. destruct (Z.ltb_spec (kSeekkey k + kKeylen k) 0); [lia|].
    destruct (at_disk_skipn D (kSeekkey k + kKeylen k) out P ltac:(lia) A) as (rest & ->). rewrite O.
    replace (kNbytes k - kKeylen k) with (zlen out) by lia. apply LD.
  Qed.
  Lemma loads_self p : loads cdc p p.
  Proof.
    intros rest. unfold load. pose proof (zlen_nonneg p). destruct (Z.ltb_spec (zlen p) 0); [lia|].
    rewrite Z.eqb_refl. cbn [negb]. rewrite zlen_app. pose proof (zlen_nonneg rest). destruct (Z.ltb_spec (zlen p + zlen rest) (zlen p)); [lia|].
    unfold zlen. rewrite Nat2Z.id, firstn_app, Nat.sub_diag, firstn_all. simpl. now rewrite app_nil_r.
  Qed.
  (* a payload stored as it is, of which only the beginning is known *)
  Lemma loadKey_raw k x n : 0 <= kSeekkey k + kKeylen k -> kSeekkey k + kKeylen k + n <= zlen D -> zlen x <= n ->
    at_disk D (kSeekkey k + kKeylen k) x -> kObjlen k = n -> kNbytes k = kKeylen k + n ->
    exists rest, loadKey cdc D k = Ok (Some (x ++ rest)).
  Proof.
    intros P L X A O N. destruct (readAt_prefix D _ n x P X L A) as (rest & E & Z1).
    assert (A2 : at_disk D (kSeekkey k + kKeylen k) (x ++ rest)).
    { unfold readAt in E. destruct (_ || _); [discriminate E|]. assert (E' : firstn (Z.to_nat n) (skipn (Z.to_nat (kSeekkey k + kKeylen k)) D) = x ++ rest) by congruence.
      rewrite <- E'. intros i v H. rewrite nth_error_firstn' in H. destruct (Nat.ltb_spec i (Z.to_nat n)); [|discriminate H].
      rewrite nth_error_skipn' in H. exact H. }
    exists rest. apply (loadKey_ok k (x ++ rest) (x ++ rest)); auto; try lia. apply loads_self.
  Qed.
  Lemma dirReadKeys_ok h kk ks : 0 < dSeekkeys h -> zlen (enc_key kk) = kKeylen kk ->
    dNbyteskeys h = kKeylen kk + kObjlen kk -> kObjlen kk = zlen (enc_keys ks) -> dSeekkeys h + dNbyteskeys h <= zlen D ->
    key_ok kk -> at_disk D (dSeekkeys h) (enc_key kk) -> at_disk D (dSeekkeys h + kKeylen kk) (enc_keys ks) ->
    (forall k, In k ks -> key_ok (fKey k)) -> zlen ks < 2 ^ 31 ->
    dirReadKeys D h = Ok (Some (map oldDir (map fKey ks))).
  Proof.
    intros P Z1 N O L K A1 A2 KO LK. unfold dirReadKeys. destruct (Z.leb_spec (dSeekkeys h) 0); [lia|].
    pose proof (zlen_nonneg (enc_keys ks)). pose proof (zlen_nonneg (enc_key kk)).
    rewrite (readRecord_ok _ _ kk) by (auto; lia). cbn [rbind]. destruct (Z.ltb_spec (kObjlen kk) 0); [lia|].
    destruct (readAt_prefix D (dSeekkeys h + kKeylen kk) (kObjlen kk) (enc_keys ks)) as (rest & -> & _); auto; try lia.
    assert (R : reads readKeys (enc_keys ks) (map oldDir (map fKey ks))).
    { unfold enc_keys. replace (zlen ks) with (zlen (map fKey ks)) by (unfold zlen; now rewrite map_length).
      apply readKeys_reads; [|unfold zlen in *; now rewrite map_length].
      apply Forall_forall. intros k I. apply in_map_iff in I as (k0 & <- & I). auto. }
    rewrite (reads_rb _ _ _ _ R). cbn [rbind snd fst]. reflexivity.
  Qed.
  Lemma unmarshalDir_rb h rest : dir_ok h -> exists r, unmarshalDir (rb (enc_dir h ++ rest)) = Ok (h, r) /\ rerr r = false.
  Proof. intros O. rewrite (reads_rb _ _ _ _ (unmarshalDir_reads h O)). eexists; split; reflexivity. Qed.

  (* ---- the header of the file ---- *)
  Definition header_of (f : wfile) : fhdr :=
    mkFH rootVersion kBEGIN (wEnd f) (wSeekfree f) (wNbytesfree f) 1 (wNbytesname f) 4 (wCompr f) (wSeekinfo f) (wNbytesinfo f)
      (0 :: 1 :: repeat 0 14).
  Definition fhdr_prefix (f : wfile) : list Z :=
    rootMagic ++ be 4 rootVersion ++ be 4 kBEGIN ++ be 4 (wEnd f) ++ be 4 (wSeekfree f) ++ be 4 (wNbytesfree f) ++
    be 4 1 ++ be 4 (wNbytesname f) ++ be 1 4 ++ be 4 (wCompr f) ++
    be 4 (wSeekinfo f) ++ be 4 (wNbytesinfo f) ++ (0 :: 1 :: repeat 0 14).
  Lemma fhdr_split f : zlen (spans (wSpace f)) = 1 -> wUnits f = 4 -> enc_fhdr f = fhdr_prefix f ++ [0; 0].
  Proof.
    intros S U. unfold enc_fhdr, fhdr_prefix. rewrite S, U. rewrite <- !app_assoc.
    replace (wrapS 32 1) with 1 by reflexivity. do 12 f_equal.
  Qed.
  Lemma parseHeader_reads f : inS 32 (wEnd f) -> inS 32 (wSeekfree f) -> inS 32 (wNbytesfree f) -> inS 32 (wNbytesname f) ->
    inS 32 (wCompr f) -> inS 32 (wSeekinfo f) -> inS 32 (wNbytesinfo f) ->
    reads parseHeader (fhdr_prefix f) (Some (header_of f)).
  Proof.
    intros A1 A2 A3 A4 A5 A6 A7. unfold parseHeader, fhdr_prefix.
    eapply rd_bind_reads; [apply read_into_reads; reflexivity|]. cbn beta.
    replace (negb (str_eqb rootMagic rootMagic)) with false by reflexivity.
    eapply rd_bind_reads; [apply ReadSint_reads; [lia|vm_compute; split; [discriminate|reflexivity]]|]. cbn beta.
    eapply rd_bind_reads; [apply ReadSint_reads; [lia|vm_compute; split; [discriminate|reflexivity]]|]. cbn beta.
    replace (rootVersion <? 1000000) with true by reflexivity. cbv zeta.
    eapply rd_bind_reads; [apply ReadSint_reads; [lia|exact A1]|]. cbn beta.
    eapply rd_bind_reads; [apply ReadSint_reads; [lia|exact A2]|]. cbn beta.
    eapply rd_bind_reads; [apply ReadSint_reads; [lia|exact A3]|]. cbn beta.
    eapply rd_bind_reads; [apply ReadSint_reads; [lia|vm_compute; split; [discriminate|reflexivity]]|]. cbn beta.
    eapply rd_bind_reads; [apply ReadSint_reads; [lia|exact A4]|]. cbn beta.
    eapply rd_bind_reads; [apply ReadUint_reads; vm_compute; split; [discriminate|reflexivity]|]. cbn beta.
    eapply rd_bind_reads; [apply ReadSint_reads; [lia|exact A5]|]. cbn beta.
    eapply rd_bind_reads; [apply ReadSint_reads; [lia|exact A6]|]. cbn beta.
    eapply rd_bind_reads; [apply ReadSint_reads; [lia|exact A7]|]. cbn beta.
    eapply rd_last_reads; [apply read_into_reads; reflexivity|]. reflexivity.
  Qed.

  (* ---- the root directory ---- *)
  Lemma readDirInfo_ok h dh rk : hVersion h = rootVersion -> hBegin h = 100 -> 10 <= hNbytesname h <= 1000 ->
    100 + hNbytesname h + hsize <= hEnd h -> hEnd h <= zlen D -> dir_ok dh -> zlen (enc_dir dh) <= hsize -> dNbytesname dh = hNbytesname h ->
    at_disk D (100 + hNbytesname h) (enc_dir dh) -> at_disk D 100 (enc_key rk) -> zlen (enc_key rk) <= hNbytesname h ->
    key_ok rk -> kRvers rk = 4 ->
    readDirInfo D h = Ok (Some (dh, kName rk, kTitle rk)).
  Proof.
    intros V B N E L DO ZD ND A1 A2 ZK KO KV. unfold readDirInfo. cbv zeta. rewrite V, B.
    replace (recordSize rootVersion) with hsize by reflexivity. unfold hsize in *.
    destruct (Z.ltb_spec (hEnd h) (hNbytesname h + 60 + 100)); [lia|].
    destruct (Z.ltb_spec (hNbytesname h + 60) 0); [lia|].
    destruct (readAt_some D 100 (hNbytesname h + 60)) as (data & RA & ZA); try lia. rewrite RA.
    destruct (Z.ltb_spec (hNbytesname h) 0); [lia|].
    destruct (Z.ltb_spec (hNbytesname h + 60) (hNbytesname h)); [lia|]. cbn [orb].
    assert (D1 : at_disk data (hNbytesname h) (enc_dir dh)) by (apply (readAt_at _ _ _ _ _ _ RA); auto; lia).
    destruct (at_disk_skipn data (hNbytesname h) (enc_dir dh)) as (r1 & ->); auto; try lia.
    destruct (unmarshalDir_rb dh r1 DO) as (r & -> & Er). cbn [rbind snd fst]. rewrite Er.
    destruct (Z.ltb_spec (zlen data) 4); [lia|].
    assert (D2 : at_disk data 0 (enc_key rk)) by (apply (readAt_at _ _ _ _ _ _ RA); auto; lia).
    pose proof (enc_key_size rk) as SZ. rewrite KV in SZ. cbn [Z.ltb Z.compare Pos.compare Pos.compare_cont] in SZ.
    pose proof (tstringSizeof_pos (kClass rk)). pose proof (tstringSizeof_pos (kName rk)). pose proof (tstringSizeof_pos (kTitle rk)).
    unfold enc_key in D2. rewrite KV in D2. cbn [Z.ltb Z.compare Pos.compare Pos.compare_cont] in D2.
    apply at_disk_app_r in D2; [|lia]. rewrite zlen_be in D2. change (0 + Z.of_nat 4) with 4 in D2.
    assert (D3 : at_disk data 4 (be 2 4)) by (eapply at_disk_app_l; eauto).
    destruct (at_disk_skipn data 4 (be 2 4)) as (r2 & E2); [lia|rewrite zlen_be; lia|auto|].
    change (Z.to_nat 4) with 4%nat in E2. rewrite E2.
    rewrite (reads_rb (ReadSint 2) (be 2 4) r2 4) by (apply ReadSint_reads; [lia|vm_compute; split; [discriminate|reflexivity]]).
    cbn [rbind snd fst adv r_set_c rerr rb]. destruct (Z.ltb_spec 1000 4); [lia|].
    destruct (Z.ltb_spec (zlen data) 26); [lia|].
    apply at_disk_app_r in D2; [|lia]. rewrite zlen_be in D2. change (4 + Z.of_nat 2) with 6 in D2.
    apply at_disk_app_r in D2; [|lia]. rewrite zlen_be in D2. change (6 + Z.of_nat 4) with 10 in D2.
    apply at_disk_app_r in D2; [|lia]. rewrite zlen_be in D2. change (10 + Z.of_nat 4) with 14 in D2.
    apply at_disk_app_r in D2; [|lia]. rewrite zlen_be in D2. change (14 + Z.of_nat 2) with 16 in D2.
    apply at_disk_app_r in D2; [|lia]. rewrite zlen_be in D2. change (16 + Z.of_nat 2) with 18 in D2.
    apply at_disk_app_r in D2; [|lia]. rewrite zlen_app, !zlen_be in D2. change (18 + (Z.of_nat 4 + Z.of_nat 4)) with 26 in D2.
    destruct (at_disk_skipn data 26 (enc_string (kClass rk) ++ enc_string (kName rk) ++ enc_string (kTitle rk))) as (r3 & E3);
      [lia|rewrite !zlen_app, !enc_string_size; lia|auto|].
    rewrite E3. destruct (ko_strs _ KO) as (S1 & S2 & S3).
    rewrite (reads_rb _ _ _ (kName rk, kTitle rk)).
    2:{ eapply rd_bind_reads; [apply ReadString_reads; exact S1|]. cbn beta.
        eapply rd_bind_reads; [apply ReadString_reads; exact S2|]. cbn beta.
        eapply (rd_last_reads _ (fun t => (kName rk, t))); [apply ReadString_reads; exact S3|]. reflexivity. }
    cbn [rbind snd fst adv r_set_c rerr rb]. rewrite ND.
    destruct (Z.ltb_spec (hNbytesname h) 10); [lia|]. destruct (Z.ltb_spec 1000 (hNbytesname h)); [lia|]. reflexivity.
  Qed.

  Lemma readFree_ok h k s : 0 <= hSeekfree h -> hNbytesfree h = kNbytes k -> kNbytes k = kKeylen k + 10 -> kObjlen k = 10 ->
    kSeekkey k = hSeekfree h -> zlen (enc_key k) = kKeylen k -> hSeekfree h + hNbytesfree h <= zlen D -> key_ok k ->
    zlen (seg_record s) = 10 -> seg_storable s ->
    at_disk D (hSeekfree h) (enc_key k) -> at_disk D (hSeekfree h + kKeylen k) (seg_record s) ->
    readFreeSegments cdc D h = Ok (Some [s]).
  Proof.
    intros P N1 N2 O SK Z1 L KO ZS SS A1 A2. unfold readFreeSegments. pose proof (zlen_nonneg (enc_key k)).
    rewrite (readRecord_ok _ _ k) by (auto; lia). cbn [rbind].
    rewrite (loadKey_ok k (seg_record s) (seg_record s)); try lia; [|rewrite SK; auto|apply loads_self]. cbn [rbind].
    assert (Lr : length (seg_record s) = 10%nat) by (unfold zlen in ZS; lia). rewrite Lr.
    generalize 8%nat. intros m. cbn [readSegs].
    assert (R1 : rLen (rb (seg_record s)) = 10) by (unfold rLen; cbn [rb rp rc]; lia). rewrite R1. cbn [Z.leb Z.compare].
    rewrite <- (app_nil_r (seg_record s)) at 1.
    rewrite (reads_rb _ _ _ _ (unmarshalSeg_reads s SS)). cbn [rbind snd fst]. rewrite app_nil_r.
    assert (R2 : rLen (adv (rb (seg_record s)) (length (seg_record s))) = 0) by (unfold rLen; cbn [adv r_set_c rb rp rc]; lia).
    rewrite R2. cbn [Z.leb Z.compare adv r_set_c rb rerr rbind option_map]. reflexivity.
  Qed.
  Lemma readInfo_ok h k p out : 0 < hSeekinfo h -> hSeekinfo h < hEnd h -> hNbytesinfo h = kNbytes k -> kNbytes k = kKeylen k + zlen out ->
    kObjlen k = zlen p -> kSeekkey k = hSeekinfo h -> zlen (enc_key k) = kKeylen k -> hSeekinfo h + hNbytesinfo h <= zlen D -> key_ok k ->
    loads cdc p out -> at_disk D (hSeekinfo h) (enc_key k) -> at_disk D (hSeekinfo h + kKeylen k) out ->
    readStreamerInfo cdc D h = Ok (Some p).
  Proof.
    intros P PE N1 N2 O SK Z1 L KO LD A1 A2. unfold readStreamerInfo. pose proof (zlen_nonneg (enc_key k)). pose proof (zlen_nonneg out).
    destruct (Z.leb_spec (hSeekinfo h) 0); [lia|]. destruct (Z.leb_spec (hEnd h) (hSeekinfo h)); [lia|]. cbn [orb].
    rewrite (readRecord_ok _ _ k) by (auto; lia). cbn [rbind].
    rewrite (loadKey_ok k p out); try lia; [reflexivity|rewrite SK; auto|auto].
  Qed.

  (* ---- objects and paths ---- *)
  Lemma oldDir_name k : kName (oldDir k) = kName k.
  Proof. unfold oldDir. destruct (str_eqb _ _); reflexivity. Qed.
  Lemma oldDir_title k : kTitle (oldDir k) = kTitle k.
  Proof. unfold oldDir. destruct (str_eqb _ _); reflexivity. Qed.
  Lemma oldDir_cycle k : kCycle (oldDir k) = kCycle k.
  Proof. unfold oldDir. destruct (str_eqb _ _); reflexivity. Qed.
  Lemma oldDir_leaf k : kClass k <> sTDirectory -> oldDir k = k.
  Proof. unfold oldDir. destruct (str_eqb_spec (kClass k) sTDirectory); congruence. Qed.
  Lemma cyc_ok_oldDir ks : cyc_ok ks -> cyc_ok (map oldDir ks).
  Proof.
    intros C name. specialize (C name). assert (E : filter (has_name name) (map oldDir ks) = map oldDir (filter (has_name name) ks)).
    { clear C. induction ks as [|k ks IH]; [reflexivity|]. cbn [map filter].
      assert (X : has_name name (oldDir k) = has_name name k) by (unfold has_name; now rewrite oldDir_name). rewrite X.
      destruct (has_name name k); cbn [map]; now rewrite IH. }
    rewrite E, map_length, map_map, <- C. apply map_ext. intros. apply oldDir_cycle.
  Qed.
  Lemma cycles_ok pre ks : cyc_ok (map fKey (pre ++ ks)) -> map kCycle (map fKey ks) = cycles (map ent pre) (map ent ks).
  Proof.
    revert pre; induction ks as [|k ks IH]; intros pre C; [reflexivity|]. cbn [map cycles]. f_equal.
    - specialize (C (kName (fKey k))). rewrite map_app, filter_app, map_app, app_length in C. cbn [map filter] in C.
      assert (HN : has_name (kName (fKey k)) (fKey k) = true).
      { unfold has_name. destruct (str_eqb_spec (kName (fKey k)) (kName (fKey k))); congruence. }
      rewrite HN in C.
      assert (X : nth_error (zseq 1 (length (filter (has_name (kName (fKey k))) (map fKey pre)) +
                    length (fKey k :: filter (has_name (kName (fKey k))) (map fKey ks))))
                  (length (filter (has_name (kName (fKey k))) (map fKey pre))) = Some (kCycle (fKey k))).
      { rewrite <- C. rewrite nth_error_app2 by (rewrite map_length; lia). rewrite map_length, Nat.sub_diag. reflexivity. }
      rewrite zseq_nth in X by (cbn [length]; lia). match type of X with Some ?a = Some ?b => assert (X' : a = b) by congruence end. cbn [ent eName].
      pose proof (named_ent (kName (fKey k)) pre) as NE. unfold zlen. rewrite NE. lia.
    - change [ent k] with (map ent [k]). rewrite <- map_app. apply IH. now rewrite <- app_assoc.
  Qed.

  Variable fname : str.
  Variable compr : Z.
  Variable f : wfile.
  Hypothesis G : good cdc fname compr f.
  Hypothesis EF : wEnd f <= kStartBigFile.
  Hypothesis SV : forall j, (j < length (wDirs f))%nat -> saved f j.
  Hypothesis KP : forall q x, 100 <= q -> q + zlen x <= wEnd f -> at_disk (wDisk f) q x -> at_disk D q x.
  Hypothesis LD : wEnd f <= zlen D.

  Definition matches (rdr : rdir) (j : nat) : Prop :=
    exists d, nth_error (wDirs f) j = Some d /\ rKeys rdr = map oldDir (map fKey (wKeys d)).
  Definition rep (e : entry) (o : robj) : Prop :=
    match eBody e, o with
    | CObj mar, RLeaf class p off => class = eClass e /\ mar off = Some p
    | CDir j, RDir d => matches d j
    | _, _ => False
    end.
  Lemma dir_keys_ok j d : nth_error (wDirs f) j = Some d -> dirReadKeys D (wHdr d) = Ok (Some (map oldDir (map fKey (wKeys d)))).
  Proof.
    intros N. assert (L : (j < length (wDirs f))%nat) by (apply nth_error_Some; congruence).
    destruct (SV j L) as (d1 & kk & N1 & A1 & A2 & A3 & A4 & A5 & A6 & A7 & A8 & A9 & A10 & A11).
    assert (d1 = d) by congruence. subst d1.
    assert (KW : forall k, In k (wKeys d) -> key_wf (wEnd f) (fKey k)) by (intros k I; eapply g_keys; eauto).
    pose proof (zlen_nonneg (enc_key kk)). pose proof (zlen_nonneg (enc_keys (wKeys d))).
    apply (dirReadKeys_ok _ kk); auto; try lia.
    - apply KP; auto; lia.
    - apply KP; auto; lia.
    - intros k I. apply (key_wf_ok (wEnd f)); auto.
    - pose proof (key_sum_len _ _ KW). pose proof (dw_sum _ _ (g_dirs _ _ _ _ G _ _ N)) as X. fold (key_sum (wKeys d)) in X.
      unfold kStartBigFile in EF. lia.
  Qed.
  Lemma dir_hdr_ok j d : nth_error (wDirs f) j = Some d -> dir_ok (wHdr d) /\ at_disk D (area (wHdr d)) (enc_dir (wHdr d)) /\
    zlen (enc_dir (wHdr d)) = 48 /\ 100 <= area (wHdr d) /\ area (wHdr d) + hsize <= wEnd f.
  Proof.
    intros N. assert (L : (j < length (wDirs f))%nat) by (apply nth_error_Some; congruence).
    destruct (SV j L) as (d1 & kk & N1 & A1 & A2 & A3 & A4 & A5 & A6 & A7 & A8 & A9 & A10 & A11).
    assert (d1 = d) by congruence. subst d1. pose proof (g_dirs _ _ _ _ G _ _ N) as W. destruct W. unfold kStartBigFile in *.
    assert (Z1 : zlen (enc_dir (wHdr d)) = 48) by (apply zlen_enc_dir; auto).
    pose proof (zlen_nonneg (enc_key kk)). pose proof (zlen_nonneg (enc_keys (wKeys d))). unfold area, hsize in *.
    split; [|split; [apply KP; auto; lia|split; [auto|lia]]].
    constructor; rewrite ?dw_rvers, ?dw_uuid; auto.
    - apply inS16. lia.
    - reflexivity.
    - split; apply inS32; lia.
    - repeat split; apply inS64; lia.
    - intros _. repeat split; apply inS32; lia.
  Qed.
  Lemma object_ok i d k : nth_error (wDirs f) i = Some d -> In k (wKeys d) ->
    exists o, Object cdc D (oldDir (fKey k)) = Ok (Some o) /\ rep (ent k) o.
  Proof.
    intros N I. pose proof (g_keys _ _ _ _ G _ _ _ N I) as W. destruct (fObj k) as [mar|j] eqn:O.
    - destruct (g_leaf _ _ _ _ G _ _ _ _ N I O) as (p & out & X1 & X2 & X3 & X4 & X5 & X6 & X7).
      rewrite oldDir_leaf by auto. unfold Object. destruct W. pose proof (enc_len_pos (kName (fKey k)) (kTitle (fKey k)) (kClass (fKey k))).
      pose proof (zlen_nonneg out).
      rewrite (loadKey_ok (fKey k) p out); auto; try lia.
      2:{ apply KP; auto; lia. }
      cbn [rbind]. destruct (str_eqb_spec (kClass (fKey k)) sTDirectoryFile); [contradiction|].
      eexists; split; [reflexivity|]. unfold rep, ent. cbn [eBody eClass]. rewrite O. split; auto.
      unfold maxkey in *. rewrite wrapU_id; auto. split; [lia|]. change (2 ^ 32) with 4294967296. lia.
    - destruct (g_dirkey _ _ _ _ G _ _ _ _ N I O) as (dj & Nj & Y1 & Y2 & Y3 & Y4 & Y5).
      destruct (dir_hdr_ok _ _ Nj) as (DO & A & Z1 & AR & AE). unfold area in *.
      assert (OD : oldDir (fKey k) = k_set_class (fKey k) sTDirectoryFile).
      { unfold oldDir. destruct (str_eqb_spec (kClass (fKey k)) sTDirectory); [reflexivity|contradiction]. }
      unfold Object. assert (E : exists rest, loadKey cdc D (k_set_class (fKey k) sTDirectoryFile) = Ok (Some (enc_dir (wHdr dj) ++ rest))).
      { apply (loadKey_raw _ _ hsize); cbn [k_set_class kSeekkey kKeylen kObjlen kNbytes]; rewrite ?Y1, ?Y2; unfold hsize in *; auto; lia. }
      destruct E as (rest & E). rewrite OD. rewrite E. cbn [rbind]. change (kClass (k_set_class (fKey k) sTDirectoryFile)) with sTDirectoryFile.
      replace (str_eqb sTDirectoryFile sTDirectoryFile) with true by reflexivity.
      destruct (unmarshalDir_rb (wHdr dj) rest DO) as (r & -> & Er). cbn [rbind snd fst]. rewrite Er.
      rewrite (dir_keys_ok _ _ Nj). cbn [rbind]. eexists; split; [reflexivity|].
      unfold rep, ent. cbn [eBody]. rewrite O. exists dj. auto.
  Qed.
  Lemma nth_view i d : nth_error (wDirs f) i = Some d -> nth i (view f) [] = map ent (wKeys d).
  Proof. intros N. apply nth_error_nth. unfold view. now rewrite nth_error_map, N. Qed.
  Lemma walk_ok path : sorts srt -> Forall nc_ok path -> forall e o, rep e o ->
    exists r, walk cdc srt D o (map nc_string path) = Ok r /\
      match locate (view f) e path with None => r = None | Some e' => exists o', r = Some o' /\ rep e' o' end.
  Proof.
    intros ST. induction path as [|nc path IH]; intros F e o R.
    - cbn [map walk locate]. eauto.
    - inversion_clear F as [|? ? Fn Fp]. cbn [map walk locate]. unfold rep in R.
      destruct (eBody e) as [mar|j] eqn:B, o as [class p off|rdr]; try contradiction; [eauto|].
      destruct R as (d & N & E). unfold rGet. rewrite (nth_view _ _ N).
      destruct (pick_lookup srt nc (rKeys rdr) (map ent (wKeys d)) ST Fn) as (q & -> & Q).
      { rewrite E. apply cyc_ok_oldDir. apply (dw_cyc _ _ (g_dirs _ _ _ _ G _ _ N)). }
      { rewrite E, !map_map. apply map_ext. intros k. rewrite oldDir_name. reflexivity. }
      cbn [rbind]. destruct q as [i|]; [|rewrite Q; cbn [rbind]; eauto].
      destruct Q as (e' & Ne & ->). rewrite nth_error_map in Ne.
      destruct (nth_error (wKeys d) i) as [k|] eqn:Nk; [|discriminate Ne]. cbn [option_map] in Ne.
      assert (Ee : ent k = e') by congruence. subst e'.
      rewrite E. rewrite !nth_error_map, Nk. cbn [option_map].
      destruct (object_ok _ _ k N) as (o' & -> & R'). { eapply nth_error_In; eauto. }
      cbn [rbind]. apply IH; auto.
  Qed.
  Lemma rep_shows e o : rep e o -> shows (view f) e o.
  Proof.
    unfold rep, shows. destruct (eBody e) as [mar|j], o as [class p off|rdr]; auto.
    intros (d & N & E). rewrite (nth_view _ _ N), E, !map_map.
    split; [apply map_ext; intros k; rewrite oldDir_name; reflexivity|].
    split; [apply map_ext; intros k; rewrite oldDir_title; reflexivity|]. split.
    - apply map_ext_in. intros k I. unfold shown_class, ent. cbn [eBody eClass]. destruct (fObj k) as [mar|j2] eqn:O.
      + destruct (g_leaf _ _ _ _ G _ _ _ _ N I O) as (p & out & _ & _ & _ & _ & _ & X6 & X7). now rewrite oldDir_leaf.
      + destruct (g_dirkey _ _ _ _ G _ _ _ _ N I O) as (dj & Nj & _ & _ & _ & _ & Y5).
        unfold oldDir. destruct (str_eqb_spec (kClass (fKey k)) sTDirectory); [reflexivity|contradiction].
    - pose proof (cycles_ok [] (wKeys d) (dw_cyc _ _ (g_dirs _ _ _ _ G _ _ N))) as X. cbn [map] in X. rewrite <- X.
      rewrite map_map. apply map_ext. intros k. apply oldDir_cycle.
  Qed.
End Open.
