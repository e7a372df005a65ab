(* Closing a ROOT file: each directory is saved with its list of keys, then the streamers, the free segments and the
   header of the file are written, and nothing that was written before is lost. *)
From Coq Require Import ZArith List Lia Bool.
From Verif Require Import Bytes GoLib RbytesModel RbytesProofs RdMonad GoStrings FreelistModel FreelistProps KeyModel KeyProofs KeyProps DirModel
  CompressModel RfileModel RfileSpec RfileProofs RfileInv.
Import ListNotations.
Local Open Scope Z_scope.

Lemma inS32 v : -2147483648 <= v < 2147483648 -> inS 32 v.
Proof. intros H. exact H. Qed.
Lemma inS16 v : -32768 <= v < 32768 -> inS 16 v.
Proof. intros H. exact H. Qed.
Lemma inS64 v : -2147483648 <= v < 2147483648 -> inS 64 v.
Proof. intros H. unfold inS. change (2 ^ (64 - 1)) with 9223372036854775808. lia. Qed.

Definition same_hdr (h h' : dirhdr) : Prop :=
  dRvers h' = dRvers h /\ dCtime h' = dCtime h /\ dSeekdir h' = dSeekdir h /\ dNbytesname h' = dNbytesname h /\
  dSeekparent h' = dSeekparent h /\ dUuid h' = dUuid h.
Definition same_tree (f f' : wfile) : Prop :=
  length (wDirs f') = length (wDirs f) /\
  forall j d, nth_error (wDirs f) j = Some d -> exists d', nth_error (wDirs f') j = Some d' /\
    wName d' = wName d /\ wTitle d' = wTitle d /\ wKeys d' = wKeys d /\ wSubs d' = wSubs d /\ same_hdr (wHdr d) (wHdr d').

Lemma same_hdr_refl h : same_hdr h h.
Proof. repeat split. Qed.
Lemma same_hdr_trans a b c : same_hdr a b -> same_hdr b c -> same_hdr a c.
Proof. unfold same_hdr. intuition congruence. Qed.
Lemma same_tree_refl f : same_tree f f.
Proof. split; auto. intros j d N. exists d. repeat (split; auto). Qed.
Lemma same_tree_trans a b c : same_tree a b -> same_tree b c -> same_tree a c.
Proof.
  intros (L1 & T1) (L2 & T2). split; [congruence|]. intros j d N. destruct (T1 j d N) as (d1 & N1 & A & B & C & D & E).
  destruct (T2 j d1 N1) as (d2 & N2 & A' & B' & C' & D' & E'). exists d2.
  repeat (split; [congruence|]). eapply same_hdr_trans; eauto.
Qed.
Lemma same_tree_back f f' j d' : same_tree f f' -> nth_error (wDirs f') j = Some d' -> exists d, nth_error (wDirs f) j = Some d /\
    wName d' = wName d /\ wTitle d' = wTitle d /\ wKeys d' = wKeys d /\ wSubs d' = wSubs d /\ same_hdr (wHdr d) (wHdr d').
Proof.
  intros (L & T) N. assert (j < length (wDirs f))%nat by (rewrite <- L; apply nth_error_Some; congruence).
  destruct (nth_error (wDirs f) j) as [d|] eqn:E; [|apply nth_error_None in E; lia].
  destruct (T j d E) as (d2 & N2 & X). assert (d2 = d') by congruence. subst d2. eauto.
Qed.
Lemma same_view f f' : same_tree f f' -> view f' = view f.
Proof.
  intros ST. apply nth_ext_error. intros j. unfold view. rewrite !nth_error_map.
  destruct (nth_error (wDirs f') j) as [d'|] eqn:E.
  - destruct (same_tree_back _ _ _ _ ST E) as (d & -> & _ & _ & K & _). simpl. now rewrite K.
  - destruct ST as (L & _). apply nth_error_None in E. rewrite (proj2 (nth_error_None _ _)); [reflexivity|lia].
Qed.
Lemma area_same h h' : same_hdr h h' -> area h' = area h.
Proof. intros (_ & _ & A & B & _). unfold area. now rewrite A, B. Qed.

Section Close.
  Variable junk : nat -> Z.
  Variable cdc : codec.
  Variable fname : str.
  Variable compr : Z.
  Local Notation good := (good cdc fname compr).

  (* ---- a directory header changes ---- *)
  Lemma header_good f i d h' n disk' : good f -> nth_error (wDirs f) i = Some d -> 0 <= n ->
    same_hdr (wHdr d) h' -> date_ok (dMtime h') ->
    (forall p x, 0 <= p -> p + zlen x <= wEnd f -> apart (area (wHdr d)) hsize p (zlen x) -> at_disk (wDisk f) p x -> at_disk disk' p x) ->
    let f' := s_dirs (s_disk (longer f n) disk') (set_nth (wDirs f) i (s_hdr d h')) in good f' /\ same_tree f f'.
  Proof.
    intros G N Pn SH Dm Ke f'.
    assert (ST : same_tree f f').
    { split; [apply set_nth_length|]. intros j d0 N0. cbn [f' s_dirs wDirs]. rewrite set_nth_nth.
      destruct (Nat.eqb_spec j i) as [->|NE].
      - assert (i < length (wDirs f))%nat by (apply nth_error_Some; congruence).
        destruct (Nat.ltb_spec i (length (wDirs f))); [|lia]. cbn [andb]. assert (d0 = d) by congruence. subst d0.
        eexists; split; [reflexivity|]. repeat (split; auto).
      - exists d0. repeat (split; auto). }
    split; auto.
    pose proof G as [E SP M NB Rt Rk Dw Kw Lf Dk S1 S2 S3 Sb Sbs].
    assert (EE : wEnd f' = wEnd f + n) by reflexivity.
    assert (NN : wNbytesname f' = wNbytesname f) by reflexivity.
    assert (DD : wDisk f' = disk') by reflexivity.
    pose proof (dw_end _ _ (Dw _ _ N)) as AD. pose proof (S3 _ _ N) as AS.
    constructor; rewrite ?EE, ?NN, ?DD; auto; try lia.
    - destruct Rt as (d0 & N0 & A & B & C & D). destruct (proj2 ST _ _ N0) as (d1 & N1 & A1 & A2 & A3 & A4 & A5). exists d1.
      destruct A5 as (_ & _ & X & Y & _). rewrite A1, A2, X, Y. auto.
    - destruct Rk as (rk & A & B & C). exists rk. split; auto. apply Ke; auto; [lia| |].
      + unfold hsize in *. lia.
      + right. unfold hsize in *. lia.
    - intros j d0 H. assert (NE : j = i \/ j <> i) by lia.
      assert (DM : date_ok (dMtime (wHdr d0))).
      { cbn [f' s_dirs wDirs] in H. rewrite set_nth_nth in H. destruct (Nat.eqb_spec j i) as [->|NE'].
        - destruct (i <? length (wDirs f))%nat; cbn [andb] in H; [injection H as <-; exact Dm|].
          apply (dw_dates _ _ (Dw _ _ H)).
        - apply (dw_dates _ _ (Dw _ _ H)). }
      destruct (same_tree_back _ _ _ _ ST H) as (d1 & N1 & A1 & A2 & A3 & A4 & A5).
      pose proof (area_same _ _ A5) as AA. destruct A5 as (B1 & B2 & B3 & B4 & B5 & B6). specialize (Dw _ _ N1). destruct Dw.
      constructor; rewrite ?A1, ?A2, ?A3, ?A4, ?AA, ?B1, ?B2, ?B3, ?B4, ?B5, ?B6; auto; try lia.
      split; auto. apply dw_dates.
    - intros j d0 k H I. destruct (same_tree_back _ _ _ _ ST H) as (d1 & N1 & A1 & A2 & A3 & A4 & A5).
      rewrite A3 in I. eapply key_wf_mono; [|eapply Kw; eauto]. lia.
    - intros j d0 k m H I O. destruct (same_tree_back _ _ _ _ ST H) as (d1 & N1 & A1 & A2 & A3 & A4 & A5).
      rewrite A3 in I. destruct (Lf _ _ _ _ N1 I O) as (p & out & X1 & X2 & X3 & X4 & X5 & X6).
      exists p, out. repeat (split; auto). pose proof (Kw _ _ _ N1 I) as W. destruct W.
      pose proof (enc_len_pos (kName (fKey k)) (kTitle (fKey k)) (kClass (fKey k))).
      pose proof (S2 _ _ _ _ _ _ N N1 I O) as SS. apply Ke; auto; [lia|lia|].
      unfold apart in *. lia.
    - intros j d0 k j2 H I O. destruct (same_tree_back _ _ _ _ ST H) as (d1 & N1 & A1 & A2 & A3 & A4 & A5).
      rewrite A3 in I. destruct (Dk _ _ _ _ N1 I O) as (dj & Nj & X1 & X2 & X3).
      destruct (proj2 ST _ _ Nj) as (dj' & Nj' & _ & _ & _ & _ & Y). exists dj'. split; auto.
      destruct Y as (_ & _ & Y1 & Y2 & _). split; [congruence|]. split; [congruence|]. auto.
    - intros a b da db NE Ha Hb. destruct (same_tree_back _ _ _ _ ST Ha) as (a1 & Na & _ & _ & _ & _ & A5).
      destruct (same_tree_back _ _ _ _ ST Hb) as (b1 & Nb & _ & _ & _ & _ & B5).
      rewrite (area_same _ _ A5), (area_same _ _ B5). eauto.
    - intros a b da db k m Ha Hb I O. destruct (same_tree_back _ _ _ _ ST Ha) as (a1 & Na & _ & _ & _ & _ & A5).
      destruct (same_tree_back _ _ _ _ ST Hb) as (b1 & Nb & _ & _ & B3 & _ & B5).
      rewrite (area_same _ _ A5). rewrite B3 in I. eauto.
    - intros j d0 H. destruct (same_tree_back _ _ _ _ ST H) as (d1 & N1 & _ & _ & _ & _ & A5).
      rewrite (area_same _ _ A5). eauto.
    - intros j L. rewrite (proj1 ST) in L. destruct (Sb j L) as (i0 & d0 & L0 & N0 & I0).
      destruct (proj2 ST _ _ N0) as (d1 & N1 & _ & _ & _ & A4 & _). exists i0, d1. rewrite A4. auto.
    - intros j d0 j2 H I. destruct (same_tree_back _ _ _ _ ST H) as (d1 & N1 & _ & _ & _ & A4 & _).
      rewrite A4 in I. rewrite (proj1 ST). eauto.
  Qed.

  (* ---- a directory is saved ---- *)
  Definition key_sum (ks : list fkey) : Z := fold_right Z.add 0 (map (fun k => kKeylen (fKey k)) ks).
  Definition enc_keys (ks : list fkey) : list Z := be 4 (zlen ks) ++ concat (map enc_key (map fKey ks)).
  Definition saved (f : wfile) (j : nat) : Prop :=
    exists d kk, nth_error (wDirs f) j = Some d /\
      at_disk (wDisk f) (area (wHdr d)) (enc_dir (wHdr d)) /\
      at_disk (wDisk f) (dSeekkeys (wHdr d)) (enc_key kk) /\
      at_disk (wDisk f) (dSeekkeys (wHdr d) + kKeylen kk) (enc_keys (wKeys d)) /\
      key_ok kk /\ kRvers kk = 4 /\ zlen (enc_key kk) = kKeylen kk /\ kObjlen kk = zlen (enc_keys (wKeys d)) /\
      dNbyteskeys (wHdr d) = kKeylen kk + kObjlen kk /\
      100 <= dSeekkeys (wHdr d) /\ dSeekkeys (wHdr d) + dNbyteskeys (wHdr d) <= wEnd f /\
      forall m dm, nth_error (wDirs f) m = Some dm -> apart (area (wHdr dm)) hsize (dSeekkeys (wHdr d)) (dNbyteskeys (wHdr d)).

  Lemma zlen_enc_dir h : dRvers h = 5 -> dUuid h = uuid0 -> zlen (enc_dir h) = 48.
  Proof.
    intros V U. unfold enc_dir. rewrite V, U. cbn [Z.ltb Z.compare Pos.compare Pos.compare_cont].
    rewrite !zlen_app, !zlen_be. unfold zlen, uuid0. rewrite repeat_length. lia.
  Qed.
  Lemma zlen_enc_key_wf e k : key_wf e k -> zlen (enc_key k) = kKeylen k.
  Proof.
    intros W. destruct W. rewrite enc_key_size, kw_rvers, kw_len. unfold enc_len.
    cbn [Z.ltb Z.compare Pos.compare Pos.compare_cont]. lia.
  Qed.
  Lemma key_wf_ok e k : e <= kStartBigFile -> key_wf e k -> key_ok k.
  Proof.
    intros L W. destruct W. pose proof (enc_len_pos (kName k) (kTitle k) (kClass k)). unfold maxkey, kStartBigFile in *.
    constructor; auto; unfold inS; simpl; try lia.
  Qed.
  Lemma zlen_enc_keys e ks : (forall k, In k ks -> key_wf e (fKey k)) -> zlen (enc_keys ks) = 4 + key_sum ks.
  Proof.
    intros W. unfold enc_keys, key_sum. rewrite zlen_app, zlen_be.
    assert (E : zlen (concat (map enc_key (map fKey ks))) = fold_right Z.add 0 (map (fun k => kKeylen (fKey k)) ks)).
    { induction ks as [|k ks IH]; [reflexivity|]. cbn [map concat fold_right]. rewrite zlen_app, IH by (intros; apply W; right; auto).
      now rewrite (zlen_enc_key_wf e) by (apply W; left; auto). }
    rewrite E. lia.
  Qed.
  Lemma key_sum_len e ks : (forall k, In k ks -> key_wf e (fKey k)) -> zlen ks <= key_sum ks.
  Proof.
    intros W. unfold key_sum. induction ks as [|k ks IH]; [reflexivity|]. cbn [map fold_right].
    rewrite zlen_cons. specialize (IH (fun k0 I => W k0 (or_intror I))).
    pose proof (W k (or_introl eq_refl)) as X. destruct X. pose proof (enc_len_pos (kName (fKey k)) (kTitle (fKey k)) (kClass (fKey k))). lia.
  Qed.

  Lemma saveSelf_spec clk f i d f' : good f -> nth_error (wDirs f) i = Some d -> (forall j, date_ok (clk j)) ->
    wEnd f <= kStartBigFile -> key_sum (wKeys d) <= kStartBigFile ->
    saveSelf junk clk i f = Ok f' -> wEnd f' <= kStartBigFile ->
    good f' /\ same_tree f f' /\ saved f' i /\ (forall j, saved f j -> saved f' j) /\ wEnd f <= wEnd f'.
  Proof.
    intros G N Dc Le Ks H Le'. unfold saveSelf, dirWriteKeys in H. cbv zeta in H. rewrite (dir_at_nth _ _ _ N) in H.
    pose proof (g_dirs _ _ _ _ G _ _ N) as Dw.
    assert (KW : forall k, In k (wKeys d) -> key_wf (wEnd f) (fKey k)) by (intros k I; eapply g_keys; eauto).
    pose proof (zlen_enc_keys _ _ KW) as ZK. pose proof (key_sum_len _ _ KW) as KL. pose proof (zlen_nonneg (wKeys d)) as KN.
    unfold fBig in H. destruct (Z.ltb_spec kStartBigFile (wEnd f)); [lia|].
    fold (key_sum (wKeys d)) in H. cbn iota in H. rewrite Z.add_0_r in H.
    pose proof (enc_len_pos (wName d) (wTitle d) sTDirectory) as EP. pose proof (dw_len _ _ Dw) as DL. unfold maxkey, kStartBigFile in *.
    rewrite (wrapS_id 32 (4 + _)) in H by (try apply inS32; lia).
    destruct (g_root _ _ _ _ G) as (d0 & N0 & _).
    rewrite newKey_spec in H;
      [|exact (g_spans _ _ _ _ G)|rewrite (dir_at_nth _ _ _ N0); exact (dw_rvers _ _ (g_dirs _ _ _ _ G _ _ N0))|unfold kStartBigFile; lia|discriminate|lia|lia].
    cbn [rbind] in H. set (l := enc_len (wName d) (wTitle d) sTDirectory) in *. set (s := 4 + key_sum (wKeys d)) in *.
    set (kk := mkKey _ _ _ _ _ _ _ _ _ _ _) in H.
    rewrite (fill_emits s _ (enc_keys (wKeys d))) in H.
    2: unfold s; lia.
    2:{ unfold writeKeys, enc_keys. apply w_seq_emits.
        - replace (wrapS 32 (zlen (map fKey (wKeys d)))) with (zlen (wKeys d)); [apply WriteInt_emits|].
          unfold zlen in *. rewrite map_length, wrapS_id; [reflexivity|lia|apply inS32; lia].
        - assert (X : map enc_key (map fKey (wKeys d)) = map (fun k => enc_key (wire k)) (map fKey (wKeys d))).
          { rewrite !map_map. apply map_ext_in. intros k I. f_equal. symmetry. specialize (KW k I). destruct KW.
            pose proof (enc_len_pos (kName (fKey k)) (kTitle (fKey k)) (kClass (fKey k))). unfold maxkey in *.
            apply wire_small; [unfold kStartBigFile|]; lia. }
          rewrite X. apply marshalKeys_emits. apply Forall_forall. intros k I. apply in_map_iff in I as (k1 & <- & I).
          specialize (KW k1 I). destruct KW. pose proof (enc_len_pos (kName (fKey k1)) (kTitle (fKey k1)) (kClass (fKey k1))). split; auto; lia. }
    cbn [rbind] in H.
    assert (K1 : kSeekkey kk = wEnd f) by reflexivity. assert (K2 : kKeylen kk = l) by reflexivity.
    assert (K3 : kNbytes kk = s + l) by reflexivity.
    rewrite K1, K3 in H.
    set (h1 := h_keys (wHdr d) (s + l) (wEnd f)) in H.
    rewrite writeFile_spec in H; [|rewrite K3; unfold s; lia|apply Dc|rewrite K1; unfold kStartBigFile; lia|rewrite K2; lia].
    cbn [rbind] in H. rewrite K1, K2 in H.
    set (f1 := set_dir (longer f (s + l)) i (s_hdr d h1)) in H.
    assert (W1 : wDisk f1 = wDisk f) by reflexivity. rewrite W1 in H.
    set (dk1 := writeAt (writeAt (wDisk f) (wEnd f) (enc_key kk)) (wEnd f + l) (enc_keys (wKeys d))) in H.
    unfold dirWriteHeader in H. cbv zeta in H.
    assert (D1 : dir_at (s_disk f1 dk1) i = s_hdr d h1).
    { apply dir_at_nth. cbn [f1 s_disk set_dir s_dirs wDirs longer s_space]. rewrite set_nth_nth, Nat.eqb_refl.
      assert (i < length (wDirs f))%nat by (apply nth_error_Some; congruence).
      destruct (Nat.ltb_spec i (length (wDirs f))); [reflexivity|lia]. }
    rewrite D1 in H. cbn [s_hdr wHdr] in H. set (h2 := h_mtime h1 (clk i)) in H.
    rewrite (fill_emits _ _ (enc_dir h2)) in H.
    2: discriminate.
    2:{ apply marshalDir_emits; [apply (dw_dates _ _ Dw)|apply Dc|].
        change (dUuid h2) with (dUuid (wHdr d)). rewrite (dw_uuid _ _ Dw). discriminate. }
    cbn [rbind] in H.
    replace (dSeekdir h2 + dNbytesname h2) with (area (wHdr d)) in H by reflexivity.
    replace (wDisk (s_disk f1 dk1)) with dk1 in H by reflexivity.
    set (dk2 := writeAt dk1 (area (wHdr d)) (enc_dir h2)) in H.
    assert (FE : f' = s_dirs (s_disk (longer f (s + l)) dk2) (set_nth (wDirs f) i (s_hdr d h2))).
    { match type of H with Ok ?x = Ok _ => assert (X : f' = x) by congruence end. rewrite X. unfold f1, set_dir.
      cbn [s_disk s_dirs wDirs longer s_space wDisk wSpace wSeekfree wNbytesfree wNbytesname wUnits wCompr wSeekinfo wNbytesinfo wId].
      rewrite set_nth_twice. reflexivity. }
    clear H.
    assert (SH : same_hdr (wHdr d) h2) by (repeat split).
    assert (Z2 : zlen (enc_dir h2) = 48) by (apply zlen_enc_dir; [exact (dw_rvers _ _ Dw)|exact (dw_uuid _ _ Dw)]).
    assert (ZE : zlen (enc_key kk) = l).
    { rewrite enc_key_size. unfold l, enc_len. cbn [kk kRvers kClass kName kTitle]. destruct (Z.ltb_spec 1000 4); lia. }
    pose proof (dw_end _ _ Dw) as AD. pose proof (g_end _ _ _ _ G) as GE.
    assert (AR : 100 <= area (wHdr d)) by (destruct Dw; unfold area; lia). unfold hsize in *.
    (* what is kept *)
    assert (K0 : forall p x, 0 <= p -> p + zlen x <= wEnd f -> at_disk (wDisk f) p x -> at_disk dk1 p x).
    { intros p x P X A. unfold dk1. apply writeAt_other; [lia|lia|lia|]. apply writeAt_other; auto; lia. }
    assert (KP : forall p x, 0 <= p -> p + zlen x <= wEnd f -> apart (area (wHdr d)) 60 p (zlen x) -> at_disk (wDisk f) p x -> at_disk dk2 p x).
    { intros p x P X A B. unfold dk2. unfold apart in A. pose proof (zlen_nonneg x). apply writeAt_other; [lia|lia|lia|]. apply K0; auto. }
    assert (P1 : 0 <= s + l) by (unfold s; lia).
    destruct (header_good f i d h2 (s + l) dk2 G N P1 SH (Dc i) KP) as (G' & ST'). cbv zeta in G', ST'. rewrite <- FE in *.
    assert (Ni : nth_error (wDirs f') i = Some (s_hdr d h2)).
    { rewrite FE. cbn [s_dirs wDirs]. rewrite set_nth_nth, Nat.eqb_refl.
      assert (i < length (wDirs f))%nat by (apply nth_error_Some; congruence).
      destruct (Nat.ltb_spec i (length (wDirs f))); [reflexivity|lia]. }
    assert (WE : wEnd f' = wEnd f + (s + l)) by (rewrite FE; reflexivity).
    assert (WD : wDisk f' = dk2) by (rewrite FE; reflexivity).
    assert (SV : saved f' i).
    { exists (s_hdr d h2), kk. split; auto. cbn [s_hdr wHdr wKeys].
      rewrite WD, (area_same _ _ SH), WE.
      replace (dSeekkeys h2) with (wEnd f) by reflexivity. replace (dNbyteskeys h2) with (s + l) by reflexivity.
      split; [apply writeAt_at|]. split.
      { unfold dk2. apply writeAt_other; [lia|lia|lia|]. unfold dk1. apply writeAt_other; [lia|lia|lia|]. apply writeAt_at. }
      split; [rewrite K2; unfold dk2; apply writeAt_other; [lia|lia|right; lia|]; apply writeAt_at|].
      split.
      { constructor; rewrite ?K1, ?K2, ?K3; cbn [kk kRvers kObjlen kDate kCycle kSeekpdir kClass kName kTitle];
          try (first [apply inS32|apply inS16]; unfold s; lia); try lia; auto.
        - split; [apply inS64; lia|]. destruct Dw. unfold area in *. apply inS64; lia.
        - intros _. split; [apply inS32; lia|]. destruct Dw. unfold area in *. apply inS32; lia.
        - destruct (dw_name _ _ Dw). split; [|split; auto]. split; [|split; [vm_compute; reflexivity|discriminate]].
          repeat (constructor; [unfold byte_ok; lia|]). constructor. }
      split; [reflexivity|]. split; [rewrite K2; exact ZE|]. split; [rewrite ZK; reflexivity|]. split.
      { rewrite K2. cbn [kk kObjlen]. lia. }
      split; [lia|]. split; [lia|].
      intros m dm Nm. destruct (same_tree_back _ _ _ _ ST' Nm) as (dm0 & Nm0 & _ & _ & _ & _ & A5).
      rewrite (area_same _ _ A5). left. pose proof (dw_end _ _ (g_dirs _ _ _ _ G _ _ Nm0)). unfold hsize in *. lia. }
    split; auto. split; auto. split; auto. split; [|lia].
    intros j S. destruct (Nat.eq_dec j i) as [->|NE]; [exact SV|].
      destruct S as (dj & kj & Nj & A1 & A2 & A3 & A4 & A5 & A6 & A7 & A8 & A9 & A10 & A11).
        assert (Nj' : nth_error (wDirs f') j = Some dj).
        { rewrite FE. cbn [s_dirs wDirs]. rewrite set_nth_nth. destruct (Nat.eqb_spec j i); [congruence|auto]. }
        pose proof (g_dirs _ _ _ _ G _ _ Nj) as Dj.
        pose proof (A11 _ _ N) as SP. pose proof (g_sep1 _ _ _ _ G i j d dj ltac:(congruence) N Nj) as S1.
        pose proof (zlen_enc_dir (wHdr dj) (dw_rvers _ _ Dj) (dw_uuid _ _ Dj)) as ZD.
        pose proof (dw_end _ _ Dj) as DE. unfold hsize, apart in *.
        pose proof (zlen_nonneg (enc_key kj)). pose proof (zlen_nonneg (enc_keys (wKeys dj))).
        exists dj, kj. split; auto. rewrite WD, WE.
        split. { apply KP; auto; [destruct Dj; unfold area; lia|lia|]. lia. }
        split. { apply KP; auto; [lia|lia|]. lia. }
        split. { apply KP; auto; [lia|lia|]. lia. }
        repeat (split; auto); try lia.
        intros m dm Nm. destruct (same_tree_back _ _ _ _ ST' Nm) as (dm0 & Nm0 & _ & _ & _ & _ & X5).
        rewrite (area_same _ _ X5). exact (A11 _ _ Nm0).
  Qed.

  (* ---- the end of the file never moves back ---- *)
  Definition tame (f : wfile) : Prop :=
    (one_span f /\ wSeekinfo f = 0 /\ wSeekfree f = 0 /\ wCompr f = compr) /\ forall j d, nth_error (wDirs f) j = Some d ->
      0 <= key_sum (wKeys d) <= kStartBigFile /\ enc_len (wName d) (wTitle d) sTDirectory < maxkey.
  Lemma tame_same f f' : one_span f' -> wSeekinfo f' = wSeekinfo f -> wSeekfree f' = wSeekfree f -> wCompr f' = wCompr f ->
    same_tree f f' -> tame f -> tame f'.
  Proof.
    intros SP X1 X2 X3 ST ((_ & Y1 & Y2 & Y3) & T). split; [repeat (split; [congruence|]); congruence|]. intros j d' N. destruct (same_tree_back _ _ _ _ ST N) as (d & Nd & A & B & C & _).
    rewrite A, B, C. eauto.
  Qed.
  Lemma tame_at f i : tame f -> 0 <= key_sum (wKeys (dir_at f i)) <= kStartBigFile /\
    enc_len (wName (dir_at f i)) (wTitle (dir_at f i)) sTDirectory < maxkey.
  Proof.
    intros (_ & T). unfold dir_at. destruct (nth_error (wDirs f) i) as [d|] eqn:E.
    - rewrite (nth_error_nth _ _ _ E). eauto.
    - rewrite nth_overflow by (apply nth_error_None; auto). split; [vm_compute; split; discriminate|reflexivity].
  Qed.
  Lemma set_dir_same f i h : same_hdr (wHdr (dir_at f i)) h -> same_tree f (set_dir f i (s_hdr (dir_at f i) h)).
  Proof.
    intros SH. split; [apply set_nth_length|]. intros j d N. cbn [set_dir s_dirs wDirs]. rewrite set_nth_nth.
    destruct (Nat.eqb_spec j i) as [->|NE]; cbn [andb].
    - rewrite (dir_at_nth _ _ _ N) in *. assert (i < length (wDirs f))%nat by (apply nth_error_Some; congruence).
      destruct (Nat.ltb_spec i (length (wDirs f))); [|lia]. eexists; split; [reflexivity|]. repeat (split; auto).
    - exists d. repeat (split; auto).
  Qed.
  Lemma saveSelf_mono clk i f f' : tame f -> saveSelf junk clk i f = Ok f' -> wEnd f <= wEnd f' /\ tame f' /\ same_tree f f'.
  Proof.
    intros T H. pose proof T as ((SP & _) & _). destruct (tame_at f i T) as (Ks & El). unfold saveSelf, dirWriteKeys in H. cbv zeta in H.
    fold (key_sum (wKeys (dir_at f i))) in H.
    destruct (newKey _ _ _ sTDirectory _ _ f) as [[k f1]|] eqn:Nk; cbn [rbind] in H; [|discriminate H].
    apply newKey_mono in Nk; auto; [|discriminate|].
    2:{ unfold kStartBigFile in *. rewrite wrapS_id; [|lia|apply inS32; destruct (fBig f); lia]. destruct (fBig f); lia. }
    destruct Nk as (n & Pn & F1).
    assert (X : wEnd f <= wEnd f1 /\ one_span f1 /\ wDirs f1 = wDirs f /\ wSeekinfo f1 = wSeekinfo f /\
              wSeekfree f1 = wSeekfree f /\ wCompr f1 = wCompr f).
    { destruct F1 as [->|(-> & ->)]; [|split; [lia|auto]]. split; [change (wEnd f <= wEnd f + n); lia|]. repeat split. }
    destruct X as (E1 & S1 & D1 & I1 & I2 & I3).
    destruct (fill _ _) as [buf|] in H; cbn [rbind] in H; [|discriminate H].
    assert (DA : dir_at f i = dir_at f1 i) by (unfold dir_at; now rewrite D1). rewrite DA in H.
    set (h1 := h_keys _ _ _) in H.
    assert (ST1 : same_tree f (set_dir f1 i (s_hdr (dir_at f1 i) h1))).
    { assert (Y : same_tree f1 (set_dir f1 i (s_hdr (dir_at f1 i) h1))) by (apply set_dir_same; repeat split).
      destruct Y as (Y1 & Y2). split; rewrite <- D1; auto. }
    destruct (writeFile _ _ _ _) as [f2|] eqn:W; cbn [rbind] in H; [|discriminate H].
    destruct (writeFile_fields _ _ _ _ _ W) as (dk & ->). unfold dirWriteHeader in H. cbv zeta in H.
    set (f2 := s_disk _ dk) in H. destruct (fill _ _) as [b2|] in H; cbn [rbind] in H; [|discriminate H].
    match type of H with Ok ?x = Ok _ => assert (X : f' = x) by congruence end. clear H.
    set (h2 := h_mtime _ _) in X.
    assert (ST2 : same_tree f2 (set_dir f2 i (s_hdr (dir_at f2 i) h2))) by (apply set_dir_same; repeat split).
    assert (E2 : wEnd f' = wEnd f1) by (rewrite X; reflexivity).
    assert (S2 : one_span f') by (rewrite X; exact S1).
    assert (ST : same_tree f f') by (rewrite X; exact (same_tree_trans _ f2 _ ST1 ST2)).
    split; [lia|]. split; auto. apply (tame_same f); auto; rewrite X; [exact I1|exact I2|exact I3].
  Qed.
  Definition save_subs (fuel : nat) (clk : nat -> civil) : list nat -> wfile -> res wfile :=
    fix subs (l : list nat) (f : wfile) : res wfile :=
      match l with [] => Ok f | j :: l' => do f <- save junk fuel clk j f; subs l' f end.
  Lemma save_S fuel clk i f :
    save junk (S fuel) clk i f = (do f <- saveSelf junk clk i f; save_subs fuel clk (wSubs (dir_at f i)) f).
  Proof. reflexivity. Qed.
  Lemma save_mono clk fuel : forall i f f', tame f -> save junk fuel clk i f = Ok f' -> wEnd f <= wEnd f' /\ tame f' /\ same_tree f f'.
  Proof.
    induction fuel as [|fuel IH]; intros i f f' T H; [discriminate H|]. rewrite save_S in H.
    destruct (saveSelf junk clk i f) as [f1|] eqn:S1; cbn [rbind] in H; [|discriminate H].
    destruct (saveSelf_mono _ _ _ _ T S1) as (A1 & A2 & A3). revert H. generalize (wSubs (dir_at f1 i)). intros l.
    clear S1. revert f f1 A1 A2 A3 T. induction l as [|j l IHl]; intros f f1 A1 A2 A3 T H; cbn [save_subs] in H.
    - injection H as <-. auto.
    - destruct (save junk fuel clk j f1) as [f2|] eqn:S2; cbn [rbind] in H; [|discriminate H].
      destruct (IH _ _ _ A2 S2) as (B1 & B2 & B3).
      apply (IHl f f2); auto; [lia|]. eapply same_tree_trans; eauto.
  Qed.
  Lemma save_subs_mono clk fuel l : forall f f', tame f -> save_subs fuel clk l f = Ok f' -> wEnd f <= wEnd f' /\ tame f' /\ same_tree f f'.
  Proof.
    induction l as [|j l IH]; intros f f' T H; cbn [save_subs] in H.
    - injection H as <-. split; [lia|]. split; auto. apply same_tree_refl.
    - destruct (save junk fuel clk j f) as [f2|] eqn:S2; cbn [rbind] in H; [|discriminate H].
      destruct (save_mono _ _ _ _ _ T S2) as (B1 & B2 & B3). destruct (IH _ _ B2 H) as (C1 & C2 & C3).
      split; [lia|]. split; auto. eapply same_tree_trans; eauto.
  Qed.

  (* ---- the whole tree is saved ---- *)
  Inductive reach (f : wfile) : nat -> nat -> Prop :=
  | reach_refl i : reach f i i
  | reach_sub i d k j : nth_error (wDirs f) i = Some d -> In k (wSubs d) -> reach f k j -> reach f i j.
  Lemma reach_same f f' i j : same_tree f f' -> reach f i j -> reach f' i j.
  Proof.
    intros ST R. induction R as [|i d k j N I R IH]; [constructor|].
    destruct (proj2 ST _ _ N) as (d' & N' & _ & _ & _ & A & _). econstructor; eauto. now rewrite A.
  Qed.
  Lemma reach_snoc f i k d j : reach f i k -> nth_error (wDirs f) k = Some d -> In j (wSubs d) -> reach f i j.
  Proof. intros R N I. induction R; [econstructor; eauto; constructor|econstructor; eauto]. Qed.
  Lemma reach_all f j : good f -> (j < length (wDirs f))%nat -> reach f 0 j.
  Proof.
    intros G. induction j as [j IH] using (well_founded_induction Wf_nat.lt_wf). intros L.
    destruct j as [|j']; [constructor|]. destruct (g_sub _ _ _ _ G (S j') ltac:(lia)) as (i & d & Li & N & I).
    eapply reach_snoc; eauto. apply IH; lia.
  Qed.

  Lemma save_spec clk : (forall j, date_ok (clk j)) -> forall fuel i f f', good f -> (i < length (wDirs f))%nat -> tame f ->
    save junk fuel clk i f = Ok f' -> wEnd f' <= kStartBigFile ->
    good f' /\ (forall j, saved f j -> saved f' j) /\ forall j, reach f i j -> saved f' j.
  Proof.
    intros Dc fuel. induction fuel as [|fuel IH]; intros i f f' G Li T H Le; [discriminate H|]. rewrite save_S in H.
    destruct (saveSelf junk clk i f) as [f1|] eqn:S1; cbn [rbind] in H; [|discriminate H].
    destruct (saveSelf_mono _ _ _ _ T S1) as (A1 & A2 & A3).
    destruct (save_subs_mono _ _ _ _ _ A2 H) as (B1 & B2 & B3).
    destruct (nth_error (wDirs f) i) as [d|] eqn:N; [|apply nth_error_None in N; lia].
    destruct (saveSelf_spec clk f i d f1 G N Dc ltac:(lia)) as (G1 & _ & Sv & Sm & _); auto; try lia.
    { apply (proj2 T _ _ N). }
    destruct (proj2 A3 _ _ N) as (d1 & N1 & _ & _ & _ & Su & _). rewrite (dir_at_nth _ _ _ N1), Su in H.
    assert (SL : forall k, In k (wSubs d) -> (k < length (wDirs f1))%nat).
    { intros k I. rewrite (proj1 A3). apply (g_subs _ _ _ _ G i d k N I). }
    assert (X : forall l f1 f', good f1 -> tame f1 -> (forall k, In k l -> (k < length (wDirs f1))%nat) ->
                save_subs fuel clk l f1 = Ok f' -> wEnd f' <= kStartBigFile ->
                good f' /\ (forall j, saved f1 j -> saved f' j) /\ forall k j, In k l -> reach f1 k j -> saved f' j).
    { clear -IH. induction l as [|k l IHl]; intros f1 f' G1 T1 L1 H Le; cbn [save_subs] in H.
      - injection H as <-. split; auto. split; auto. intros k j [].
      - destruct (save junk fuel clk k f1) as [f2|] eqn:S2; cbn [rbind] in H; [|discriminate H].
        destruct (save_mono _ _ _ _ _ T1 S2) as (B1 & B2 & B3). destruct (save_subs_mono _ _ _ _ _ B2 H) as (C1 & C2 & C3).
        destruct (IH _ _ _ G1 (L1 k (or_introl eq_refl)) T1 S2 ltac:(lia)) as (G2 & M2 & R2).
        destruct (IHl f2 f' G2 B2) as (G3 & M3 & R3); auto.
        { intros k0 I. rewrite (proj1 B3). apply L1. now right. }
        split; auto. split; [auto|]. intros k0 j [->|I] R; [auto|]. eapply R3; eauto. eapply reach_same; eauto. }
    destruct (X _ _ _ G1 A2 SL H Le) as (G2 & M2 & R2). split; auto. split; [auto|].
    intros j R. inversion R as [|i' d' k j' N' I R']; subst; [auto|]. assert (d' = d) by congruence. subst d'.
    eapply R2; eauto. eapply reach_same; eauto.
  Qed.
  Lemma good_tame f : good f -> wEnd f <= kStartBigFile -> tame f.
  Proof.
    intros G L. destruct (g_misc _ _ _ _ G) as (M1 & _ & _ & M2 & M3).
    split; [exact (conj (g_spans _ _ _ _ G) (conj M2 (conj M3 M1)))|]. intros j d N. pose proof (g_dirs _ _ _ _ G _ _ N) as W.
    pose proof (dw_sum _ _ W). pose proof (dw_len _ _ W). fold (key_sum (wKeys d)) in *.
    assert (KW : forall k, In k (wKeys d) -> key_wf (wEnd f) (fKey k)) by (intros k I; eapply g_keys; eauto).
    pose proof (key_sum_len _ _ KW). pose proof (zlen_nonneg (wKeys d)). split; auto. lia.
  Qed.
  Lemma dirClose_mono clk f f' : good f -> wEnd f <= kStartBigFile -> dirClose junk clk f = Ok f' ->
    wEnd f <= wEnd f' /\ tame f' /\ same_tree f f'.
  Proof.
    intros G L H. unfold dirClose in H. cbv zeta in H. unfold fBig in H.
    destruct (Z.ltb_spec kStartBigFile (wEnd f)); [lia|]. cbn [andb] in H. eapply save_mono; eauto. now apply good_tame.
  Qed.
  Lemma dirClose_spec clk f f' : good f -> wEnd f <= kStartBigFile -> (forall j, date_ok (clk j)) ->
    dirClose junk clk f = Ok f' -> wEnd f' <= kStartBigFile ->
    good f' /\ same_tree f f' /\ forall j, (j < length (wDirs f'))%nat -> saved f' j.
  Proof.
    intros G L Dc H Le. destruct (dirClose_mono _ _ _ G L H) as (_ & _ & ST). unfold dirClose in H. cbv zeta in H. unfold fBig in H.
    destruct (Z.ltb_spec kStartBigFile (wEnd f)); [lia|]. cbn [andb] in H.
    destruct (g_root _ _ _ _ G) as (d0 & N0 & _).
    destruct (save_spec clk Dc (length (wDirs f)) 0%nat f f' G) as (G' & _ & R); auto.
    { apply nth_error_Some. congruence. }
    { now apply good_tame. }
    split; auto. split; auto. intros j Lj. apply R, reach_all; auto. rewrite <- (proj1 ST). auto.
  Qed.

  (* ---- streamers, free segments, header ---- *)
  Definition si_len : Z := enc_len sStreamerInfo sListTitle sTList.
  Lemma writeStreamerInfo_eq si now f : spans (wSpace f) = [mkSeg (wEnd f) kStartBigFile] -> wSeekinfo f = 0 ->
    dRvers (wHdr (dir_at f 0)) = 5 -> wEnd f <= kStartBigFile -> date_ok now -> wCompr f = compr ->
    payload_ok cdc compr (si si_len) ->
    forall r, writeStreamerInfo junk cdc si now f = Ok (Some r) ->
    exists out k, Compress cdc (si si_len) compr = Ok (Some out) /\
      k = mkKey (si_len + zlen out) 4 (zlen (si si_len)) now si_len 1 (wEnd f) (dSeekdir (wHdr (dir_at f 0))) sTList sStreamerInfo sListTitle /\
      r = s_disk (s_info (longer f (si_len + zlen out)) (wEnd f) (si_len + zlen out))
            (writeAt (writeAt (wDisk f) (wEnd f) (enc_key k)) (wEnd f + si_len) out).
  Proof.
    intros SP S0 RV L Dn CP (P1 & P2) r H. unfold writeStreamerInfo in H. cbv zeta in H. rewrite S0 in H.
    cbn [Z.eqb negb] in H. unfold newKey in H. cbv zeta in H. cbn [Z.ltb Z.compare] in H. cbn [rbind kKeylen] in H.
    assert (KL : keylenFor sStreamerInfo sListTitle sTList (dBig (dir_at f 0)) (wEnd f) = si_len).
    { rewrite keylenFor_len by discriminate. unfold dBig. rewrite RV. destruct (Z.ltb_spec kStartBigFile (wEnd f)); [lia|].
      cbn [Z.ltb Z.compare Pos.compare Pos.compare_cont orb]. unfold si_len. lia. }
    rewrite KL in H. unfold newKeyBuf in H. rewrite CP in H.
    destruct (Compress cdc (si si_len) compr) as [[out|]|] eqn:Cm; cbn [rbind] in H; [| |discriminate H].
    2:{ cbn in H. discriminate H. }
    destruct (P2 _ eq_refl) as (Lo & LD). cbv zeta in H. rewrite setEnd_single in H by exact SP.
    cbn [rbind] in H.
    assert (SV : si_len = 26 + 6 + 13 + 19) by reflexivity. pose proof (zlen_nonneg (si si_len)). pose proof (zlen_nonneg out).
    set (k := mkKey (si_len + zlen out) 4 (zlen (si si_len)) now si_len 1 (wEnd f) (dSeekdir (wHdr (dir_at f 0))) sTList sStreamerInfo sListTitle).
    assert (EK : newKeyFromBuf sStreamerInfo sListTitle sTList 1 (wrapS 32 (zlen (si si_len))) (wrapS 32 (zlen out))
                   (dBig (dir_at f 0)) (dSeekdir (wHdr (dir_at f 0))) (wEnd f) now = k).
    { unfold newKeyFromBuf. rewrite KL. destruct (Z.ltb_spec kStartBigFile (wEnd f)); [lia|].
      rewrite (wrapS_id 32 (zlen (si si_len))) by (try apply inS32; lia).
      rewrite (wrapS_id 32 (zlen out)) by (try apply inS32; lia).
      rewrite (wrapS_id 32 (si_len + zlen out)) by (try apply inS32; lia). reflexivity. }
    rewrite EK in H. assert (K1 : kNbytes k = si_len + zlen out) by reflexivity.
    assert (K2 : kSeekkey k = wEnd f) by reflexivity. assert (K3 : kKeylen k = si_len) by reflexivity.
    rewrite writeFile_spec in H; [|rewrite K1; lia|exact Dn|rewrite K2; auto|rewrite K3; lia].
    cbn [rbind] in H. rewrite K1, K2, K3 in H. exists out, k. split; auto. split; auto.
    match type of H with Ok (Some ?x) = _ => assert (X : r = x) by congruence end. rewrite X. reflexivity.
  Qed.

  Definition free_record (f : wfile) : list Z := seg_record (mkSeg (wEnd f) kStartBigFile).
  Lemma zlen_free_record f : zlen (free_record f) = 10.
  Proof.
    unfold free_record, seg_record. cbn [last first]. destruct (Z.ltb_spec kStartBigFile kStartBigFile); [lia|].
    rewrite !zlen_app, !zlen_be. lia.
  Qed.
  Lemma writeFreeSegments_eq now f d : spans (wSpace f) = [mkSeg (wEnd f) kStartBigFile] -> wSeekfree f = 0 ->
    nth_error (wDirs f) 0 = Some d -> dRvers (wHdr d) = 5 -> 0 < wEnd f <= kStartBigFile -> date_ok now ->
    enc_len (wName d) (wTitle d) sTFile < maxkey ->
    forall r, writeFreeSegments junk now f = Ok r -> wEnd r <= kStartBigFile ->
    exists k, k = mkKey (10 + enc_len (wName d) (wTitle d) sTFile) 4 10 now (enc_len (wName d) (wTitle d) sTFile) 1 (wEnd f)
                    (dSeekdir (wHdr d)) sTFile (wName d) (wTitle d) /\
      r = s_disk (s_free (longer f (10 + enc_len (wName d) (wTitle d) sTFile)) (wEnd f) (10 + enc_len (wName d) (wTitle d) sTFile))
            (writeAt (writeAt (wDisk f) (wEnd f) (enc_key k)) (wEnd f + enc_len (wName d) (wTitle d) sTFile)
               (free_record (longer f (10 + enc_len (wName d) (wTitle d) sTFile)))).
  Proof.
    intros SP S0 N RV L Dn El r H Lr. unfold writeFreeSegments in H. cbv zeta in H. rewrite S0 in H. cbn [Z.eqb negb] in H.
    rewrite SP in H. cbn [map fold_right] in H. 
    assert (SZ : seg_sizeof (mkSeg (wEnd f) kStartBigFile) + 0 = 10) by reflexivity. rewrite SZ in H. cbn [Z.eqb] in H.
    rewrite (dir_at_nth _ _ _ N) in H. pose proof (enc_len_pos (wName d) (wTitle d) sTFile). unfold maxkey in El.
    rewrite newKey_spec in H; [|exact SP|rewrite (dir_at_nth _ _ _ N); exact RV|lia|discriminate|lia|lia].
    cbn [rbind] in H. set (l := enc_len (wName d) (wTitle d) sTFile) in *. set (k := mkKey _ _ _ _ _ _ _ _ _ _ _) in H.
    assert (K1 : kNbytes k = 10 + l) by reflexivity.
    assert (K2 : kSeekkey k = wEnd f) by reflexivity. assert (K3 : kKeylen k = l) by reflexivity.
    rewrite K1, K2 in H. destruct (Z.eqb_spec (wEnd f) 0) as [E0|_]; [lia|].
    set (g := longer f (10 + l)) in *. assert (EG : wEnd g = wEnd f + (10 + l)) by reflexivity.
    assert (SG : spans (wSpace g) = [mkSeg (wEnd g) kStartBigFile]) by reflexivity. rewrite SG in H.
    destruct (negb (fBig g) && (kStartBigFile <? wEnd g)); [discriminate H|].
    assert (NE : match fill 10 (marshalSegs junk [mkSeg (wEnd g) kStartBigFile]) with Ok b => b = free_record g | Panic => False end).
    { rewrite (fill_emits 10 _ (free_record g)); [reflexivity|discriminate|]. cbn [marshalSegs].
      rewrite <- (app_nil_r (free_record g)). apply w_seq_emits; [apply marshalSeg_emits|apply w_nop_emits]. }
    destruct (fill 10 _) as [b|]; [|destruct NE]. subst b. cbn [rbind] in H. rewrite zlen_free_record in H.
    destruct (Z.ltb_spec 10 10) in H; [lia|].
    rewrite writeFile_spec in H; [|rewrite K1; lia|exact Dn|rewrite K2; lia|rewrite K3; lia].
    exists k. split; auto. rewrite K2, K3 in H.
    match type of H with Ok ?x = _ => assert (X : r = x) by congruence end. rewrite X. reflexivity.
  Qed.

  Lemma writeStreamerInfo_mono si now f r : tame f -> (forall off, payload_ok cdc compr (si off)) ->
    writeStreamerInfo junk cdc si now f = Ok (Some r) ->
    wEnd f <= wEnd r /\ one_span r /\ wSeekfree r = 0 /\ wDirs r = wDirs f.
  Proof.
    intros ((SP & S0 & F0 & CP) & T) PO H. unfold writeStreamerInfo in H. cbv zeta in H. rewrite S0 in H.
    cbn [Z.eqb negb] in H. unfold newKey in H. cbv zeta in H. cbn [Z.ltb Z.compare] in H. cbn [rbind kKeylen] in H.
    set (p := si _) in H. destruct (PO (keylenFor sStreamerInfo sListTitle sTList (dBig (dir_at f 0)) (wEnd f))) as (P1 & P2).
    fold p in P1, P2. unfold newKeyBuf in H. rewrite CP in H.
    destruct (Compress cdc p compr) as [[out|]|] eqn:Cm; cbn [rbind] in H; [| |discriminate H].
    2:{ cbn in H. discriminate H. }
    destruct (P2 _ eq_refl) as (Lo & LD). cbv zeta in H. rewrite setEnd_single in H by exact SP.
    set (k := newKeyFromBuf _ _ _ _ _ _ _ _ _ _) in H. cbn [rbind] in H.
    destruct (writeFile _ _ _ _) as [f1|] eqn:W; cbn [rbind] in H; [|discriminate H].
    destruct (writeFile_fields _ _ _ _ _ W) as (dk & ->).
    match type of H with Ok (Some ?x) = _ => assert (X : r = x) by congruence end. rewrite X.
    split; [|split; [reflexivity|split; [exact F0|reflexivity]]].
    match goal with |- _ <= wEnd ?g => assert (E : wEnd g = wEnd f + kNbytes k) by reflexivity; rewrite E end.
    assert (SV : si_len = 26 + 6 + 13 + 19) by reflexivity. pose proof (zlen_nonneg out).
    unfold k, newKeyFromBuf. cbn [kNbytes]. rewrite keylenFor_len by discriminate. fold si_len.
    rewrite (wrapS_id 32 (zlen out)) by (try apply inS32; lia).
    rewrite wrapS_id; [|lia|apply inS32; destruct (_ || _); lia]. destruct (_ || _); lia.
  Qed.
  Lemma writeFreeSegments_mono now f r : one_span f -> wSeekfree f = 0 ->
    enc_len (wName (dir_at f 0)) (wTitle (dir_at f 0)) sTDirectory < maxkey ->
    writeFreeSegments junk now f = Ok r -> wEnd f <= wEnd r.
  Proof.
    intros SP S0 El H. unfold writeFreeSegments in H. cbv zeta in H. rewrite S0 in H. cbn [Z.eqb negb] in H.
    rewrite SP in H. cbn [map fold_right] in H.
    assert (SZ : seg_sizeof (mkSeg (wEnd f) kStartBigFile) + 0 = 10) by reflexivity. rewrite SZ in H. cbn [Z.eqb] in H.
    destruct (newKey _ _ _ sTFile _ _ f) as [[k f1]|] eqn:Nk; cbn [rbind] in H; [|discriminate H].
    apply newKey_mono in Nk; auto; [|discriminate| |vm_compute; reflexivity].
    2:{ unfold enc_len in *. change (tstringSizeof sTDirectory) with 11 in El. change (tstringSizeof sTFile) with 6. lia. }
    destruct Nk as (n & Pn & F1).
    assert (X : wEnd f <= wEnd f1).
    { destruct F1 as [->|(-> & ->)]; [|lia]. change (wEnd f <= wEnd f + n); lia. }
    destruct (kSeekkey k =? 0); [injection H as <-; lia|].
    destruct (negb (fBig f1) && _); [discriminate H|].
    destruct (fill 10 _) as [b|]; cbn [rbind] in H; [|discriminate H].
    destruct (10 <? zlen b); [discriminate H|].
    destruct (writeFile_fields _ _ _ _ _ H) as (dk & ->). exact X.
  Qed.
  Lemma writeHeader_end f r : writeHeader junk f = Ok r -> wEnd r = wEnd f.
  Proof.
    intros H. unfold writeHeader in H. cbv zeta in H. destruct (fill _ _) as [h|]; cbn [rbind] in H; [|discriminate H].
    match type of H with Ok ?x = _ => assert (X : r = x) by congruence end. rewrite X. clear. destruct (fBig f || _ || _); reflexivity.
  Qed.

  Record final (f1 f' : wfile) (p : list Z) : Prop := {
    fi_dirs : wDirs f' = wDirs f1;
    fi_kept : forall q x, 100 <= q -> q + zlen x <= wEnd f1 -> at_disk (wDisk f1) q x -> at_disk (wDisk f') q x;
    fi_end : wEnd f1 <= wEnd f' <= kStartBigFile;
    fi_len : wEnd f' <= zlen (wDisk f');
    fi_hdr : at_disk (wDisk f') 0 (enc_fhdr f');
    fi_misc : wNbytesname f' = wNbytesname f1 /\ wUnits f' = 4 /\ wCompr f' = compr;
    fi_spans : spans (wSpace f') = [mkSeg (wEnd f') kStartBigFile];
    fi_info : exists out k, loads cdc p out /\ at_disk (wDisk f') (wSeekinfo f') (enc_key k) /\
      at_disk (wDisk f') (wSeekinfo f' + kKeylen k) out /\ key_ok k /\ zlen (enc_key k) = kKeylen k /\
      kNbytes k = wNbytesinfo f' /\ kNbytes k = kKeylen k + zlen out /\ kObjlen k = zlen p /\ kSeekkey k = wSeekinfo f' /\
      wEnd f1 <= wSeekinfo f' /\ wSeekinfo f' + wNbytesinfo f' < wEnd f';
    fi_free : exists k, at_disk (wDisk f') (wSeekfree f') (enc_key k) /\
      at_disk (wDisk f') (wSeekfree f' + kKeylen k) (free_record f') /\ key_ok k /\ zlen (enc_key k) = kKeylen k /\
      kNbytes k = wNbytesfree f' /\ kNbytes k = kKeylen k + 10 /\ kObjlen k = 10 /\ kSeekkey k = wSeekfree f' /\
      wEnd f1 <= wSeekfree f' /\ wSeekfree f' + wNbytesfree f' <= wEnd f' }.
  Lemma writeAt_end d pos bs : 0 <= pos -> bs <> [] -> pos + zlen bs <= zlen (writeAt d pos bs).
  Proof. intros P N. unfold zlen. rewrite writeAt_length by auto. lia. Qed.
  Lemma zlen_enc_fhdr f : zlen (enc_fhdr f) = 63.
  Proof.
    unfold enc_fhdr. rewrite !zlen_app, !zlen_be. unfold zlen, uuid0. rewrite repeat_length. cbn [rootMagic length]. lia.
  Qed.

  Lemma close_spec si clk t1 t2 f f' : good f -> (forall off, payload_ok cdc compr (si off)) ->
    (forall j, date_ok (clk j)) -> date_ok t1 -> date_ok t2 ->
    Close junk cdc si clk t1 t2 f = Ok (Some f') -> wEnd f <= kStartBigFile -> wEnd f' <= kStartBigFile ->
    exists f1, good f1 /\ same_tree f f1 /\ (forall j, (j < length (wDirs f1))%nat -> saved f1 j) /\ final f1 f' (si si_len).
  Proof.
    intros G PO Dc D1 D2 H L L'. unfold Close in H.
    destruct (dirClose junk clk f) as [f1|] eqn:C1; cbn [rbind] in H; [|discriminate H].
    destruct (writeStreamerInfo junk cdc si t1 f1) as [[f2|]|] eqn:C2; cbn [rbind] in H; [| |discriminate H].
    2:{ discriminate H. }
    destruct (writeFreeSegments junk t2 f2) as [f3|] eqn:C3; cbn [rbind] in H; [|discriminate H].
    destruct (writeHeader junk f3) as [f4|] eqn:C4; cbn [rbind] in H; [|discriminate H].
    assert (f4 = f') by congruence. subst f4. clear H.
    destruct (dirClose_mono _ _ _ G L C1) as (M1 & T1 & _).
    destruct (writeStreamerInfo_mono _ _ _ _ T1 PO C2) as (M2 & SP2 & SF2 & DD2).
    assert (M3 : wEnd f2 <= wEnd f3).
    { eapply writeFreeSegments_mono; eauto. destruct (tame_at f1 0 T1) as (_ & X). unfold dir_at in *. now rewrite DD2. }
    pose proof (writeHeader_end _ _ C4) as M4.
    destruct (dirClose_spec clk f f1 G L Dc C1 ltac:(lia)) as (G1 & ST & SV).
    exists f1. split; auto. split; auto. split; auto.
    destruct (g_root _ _ _ _ G1) as (d0 & N0 & Nm & Tt & Sk & Nn). pose proof (g_dirs _ _ _ _ G1 _ _ N0) as W0.
    destruct (g_misc _ _ _ _ G1) as (CP & _ & Un & I0 & F0). pose proof (g_end _ _ _ _ G1) as GE.
    destruct (writeStreamerInfo_eq si t1 f1 (g_spans _ _ _ _ G1) I0) with (r := f2) as (out & k2 & Cm & K2 & E2); auto.
    { rewrite (dir_at_nth _ _ _ N0). apply W0. }
    { lia. }
    destruct (PO si_len) as (P1 & P2). destruct (P2 _ Cm) as (Lo & LD).
    assert (SL : si_len = 26 + 6 + 13 + 19) by reflexivity. pose proof (zlen_nonneg out) as ZO. pose proof (zlen_nonneg (si si_len)) as ZP.
    assert (ND2 : nth_error (wDirs f2) 0 = Some d0) by now rewrite DD2.
    assert (EL0 : enc_len (wName d0) (wTitle d0) sTFile < maxkey).
    { pose proof (dw_len _ _ W0) as X. unfold enc_len in *. change (tstringSizeof sTDirectory) with 11 in X. change (tstringSizeof sTFile) with 6. lia. }
    assert (WE2 : wEnd f2 = wEnd f1 + (si_len + zlen out)) by (rewrite E2; reflexivity).
    destruct (writeFreeSegments_eq t2 f2 d0 SP2 SF2 ND2) with (r := f3) as (k3 & K3 & E3); auto; try lia.
    { apply W0. }
    set (l := enc_len (wName d0) (wTitle d0) sTFile) in *.
    assert (LP : 29 <= l) by apply enc_len_pos. unfold maxkey in EL0.
    assert (WE3 : wEnd f3 = wEnd f2 + (10 + l)) by (rewrite E3; reflexivity).
    assert (ZK2 : zlen (enc_key k2) = si_len).
    { rewrite enc_key_size, K2. cbn [kRvers kClass kName kTitle]. destruct (Z.ltb_spec 1000 4); unfold si_len, enc_len; lia. }
    assert (ZK3 : zlen (enc_key k3) = l).
    { rewrite enc_key_size, K3. cbn [kRvers kClass kName kTitle]. destruct (Z.ltb_spec 1000 4); unfold l, enc_len; lia. }
    assert (I3 : wSeekinfo f3 = wEnd f1) by (rewrite E3, E2; reflexivity).
    assert (NI3 : wNbytesinfo f3 = si_len + zlen out) by (rewrite E3, E2; reflexivity).
    assert (F3 : wSeekfree f3 = wEnd f2) by (rewrite E3; reflexivity).
    assert (NF3 : wNbytesfree f3 = 10 + l) by (rewrite E3; reflexivity).
    rewrite writeHeader_spec in C4; [|lia|lia|lia].
    match type of C4 with Ok ?x = _ => assert (E4 : f' = x) by congruence end. clear C4.
    set (dk4 := writeAt _ 0 (enc_fhdr f3)) in E4.
    assert (D2' : wDisk f2 = writeAt (writeAt (wDisk f1) (wEnd f1) (enc_key k2)) (wEnd f1 + si_len) out) by (rewrite E2; reflexivity).
    assert (D3 : wDisk f3 = writeAt (writeAt (wDisk f2) (wEnd f2) (enc_key k3)) (wEnd f2 + l) (free_record f3)).
    { rewrite E3. reflexivity. }
    assert (KH : forall q x, 100 <= q -> at_disk (wDisk f3) q x -> at_disk dk4 q x).
    { intros q x Q A. pose proof (zlen_enc_fhdr f3). unfold dk4. apply writeAt_other; [lia|lia|lia|]. apply writeAt_other; auto; try lia. }
    pose proof (zlen_free_record f3) as ZF.
    assert (KF : forall q x, 100 <= q -> q + zlen x <= wEnd f2 -> at_disk (wDisk f2) q x -> at_disk dk4 q x).
    { intros q x Q X A. apply KH; auto. rewrite D3. apply writeAt_other; [lia|lia|lia|]. apply writeAt_other; auto; lia. }
    assert (KS : forall q x, 100 <= q -> q + zlen x <= wEnd f1 -> at_disk (wDisk f1) q x -> at_disk dk4 q x).
    { intros q x Q X A. apply KF; auto; [lia|]. rewrite D2'. apply writeAt_other; [lia|lia|lia|]. apply writeAt_other; auto; lia. }
    assert (DF : wDisk f' = dk4) by (rewrite E4; reflexivity).
    assert (X1 : wSeekinfo f' = wEnd f1) by (rewrite E4; exact I3).
    assert (X2 : wNbytesinfo f' = si_len + zlen out) by (rewrite E4; exact NI3).
    assert (X3 : wSeekfree f' = wEnd f2) by (rewrite E4; exact F3).
    assert (X4 : wNbytesfree f' = 10 + l) by (rewrite E4; exact NF3).
    unfold kStartBigFile in *.
    assert (KS2 : kSeekkey k2 = wEnd f1 /\ kKeylen k2 = si_len /\ kNbytes k2 = si_len + zlen out /\ kObjlen k2 = zlen (si si_len)) by (rewrite K2; repeat split).
    assert (KS3 : kSeekkey k3 = wEnd f2 /\ kKeylen k3 = l /\ kNbytes k3 = 10 + l /\ kObjlen k3 = 10) by (rewrite K3; repeat split).
    destruct KS2 as (KA & KB & KC & KD). destruct KS3 as (KA3 & KB3 & KC3 & KD3).
    assert (STR : str_ok (wName d0) /\ str_ok (wTitle d0)) by apply W0. destruct STR as (STR1 & STR2).
    assert (SDK : 100 <= dSeekdir (wHdr d0) <= wEnd f1).
    { destruct W0. unfold area, hsize in *. lia. }
    constructor.
    - rewrite E4. cbn [s_disk wDirs]. rewrite E3. cbn [s_disk wDirs s_free longer s_space]. exact DD2.
    - intros q x Q X A. rewrite DF. auto.
    - unfold kStartBigFile. lia.
    - rewrite M4, WE3, DF. assert (Y : zlen (wDisk f3) <= zlen dk4).
      { unfold dk4, zlen. pose proof (writeAt_grows (wDisk f3) 0 (repeat 0 (Z.to_nat kBEGIN))).
        pose proof (writeAt_grows (writeAt (wDisk f3) 0 (repeat 0 (Z.to_nat kBEGIN))) 0 (enc_fhdr f3)). lia. }
      assert (Y2 : wEnd f2 + l + zlen (free_record f3) <= zlen (wDisk f3)).
      { rewrite D3 at 1. apply writeAt_end; [lia|]. intros E. rewrite E in ZF. discriminate ZF. }
      lia.
    - rewrite DF. replace (enc_fhdr f') with (enc_fhdr f3) by (rewrite E4; reflexivity). apply writeAt_at.
    - rewrite E4. cbn [s_disk wNbytesname wUnits wCompr]. rewrite E3. cbn [s_disk s_free longer s_space wNbytesname wUnits wCompr].
      rewrite E2. cbn [s_disk s_info longer s_space wNbytesname wUnits wCompr]. auto.
    - rewrite E4. cbn [s_disk wSpace]. rewrite E3. reflexivity.
    - exists out, k2. rewrite DF, X1, X2, KA, KB, KC, KD. split; auto. split.
      { apply KF; [lia|lia|]. rewrite D2'. apply writeAt_other; [lia|lia|lia|]. apply writeAt_at. }
      split. { apply KF; [lia|lia|]. rewrite D2'. apply writeAt_at. }
      split; [|repeat (split; [lia|]); lia].
      constructor; rewrite ?KA, ?KB, ?KC, ?KD, ?K2; cbn [kRvers kDate kCycle kSeekpdir kClass kName kTitle]; auto;
        try (first [apply inS32|apply inS16]; lia); try lia.
      + rewrite (dir_at_nth _ _ _ N0). split; apply inS64; lia.
      + intros _. rewrite (dir_at_nth _ _ _ N0). split; apply inS32; lia.
      + split; [|split]; (split; [|split; [vm_compute; reflexivity|discriminate]]);
          repeat (constructor; [unfold byte_ok; lia|]); constructor.
    - exists k3. rewrite DF, X3, X4, KA3, KB3, KC3, KD3.
      replace (free_record f') with (free_record f3) by (unfold free_record; now rewrite M4).
      split. { apply KH; [lia|]. rewrite D3. apply writeAt_other; [lia|lia|lia|]. apply writeAt_at. }
      split. { apply KH; [lia|]. rewrite D3 at 1. apply writeAt_at. }
      split; [|repeat (split; [lia|]); lia].
      constructor; rewrite ?KA3, ?KB3, ?KC3, ?KD3, ?K3; cbn [kRvers kDate kCycle kSeekpdir kClass kName kTitle]; auto;
        try (first [apply inS32|apply inS16]; lia); try lia.
      + split; apply inS64; lia.
      + intros _. split; apply inS32; lia.
      + split; [|split; auto]. split; [|split; [vm_compute; reflexivity|discriminate]].
        repeat (constructor; [unfold byte_ok; lia|]); constructor.
  Qed.
End Close.
