(* Files of 2^31 bytes and more: only the root directory is given the version number of large files (dir.go:281-285),
   the headers of all the other directories keep 32 bits for the place of their list of keys. *)
From Coq Require Import ZArith List Lia Bool Sorting.Permutation Sorting.Sorted.
From Verif Require Import Bytes GoLib RbytesModel RbytesProofs RdMonad GoStrings FreelistModel FreelistProps KeyModel KeyProofs KeyProps
  DirModel DirProps CompressModel CompressProps RfileModel RfileSpec RfileProofs RfileInv RfileClose RfileOpen RfileLive RfileProps.
Import ListNotations.
Local Open Scope Z_scope.

Lemma be4_mod v : be 4 (v mod 4294967296) = be 4 v.
Proof.
  pose proof (be_unbe (be 4 v) (be_ok 4 v)) as E. rewrite be_length, unbe_be in E. exact E.
Qed.
Lemma be4_sub v : be 4 (v - 4294967296) = be 4 v.
Proof. rewrite <- (be4_mod v), <- (be4_mod (v - _)). f_equal. rewrite Zminus_mod, Z.mod_same, Z.sub_0_r, Z.mod_mod by lia. reflexivity. Qed.

Definition low_hdr (h : dirhdr) : Prop :=
  dRvers h = 5 /\ date_ok (dCtime h) /\ 0 <= dSeekdir h < 2147483648 /\ 0 <= dNbytesname h < 32768 /\
  0 <= dSeekparent h < 2147483648 /\ dUuid h = uuid0.
Lemma large_saved junk compr clk i f f' d : fine compr f -> (forall j, date_ok (clk j)) ->
  nth_error (wDirs f) i = Some d -> low_hdr (wHdr d) -> 2 ^ 31 <= wEnd f < 2 ^ 32 ->
  saveSelf junk clk i f = Ok f' ->
  exists d' h, nth_error (wDirs f') i = Some d' /\ wKeys d' = wKeys d /\ dSeekkeys (wHdr d') = wEnd f /\
    at_disk (wDisk f') (area (wHdr d')) (enc_dir h) /\
    (forall rest, exists r, unmarshalDir (rb (enc_dir h ++ rest)) = Ok (h, r) /\ rerr r = false) /\
    forall D, dirReadKeys D h = Ok (Some []).
Proof.
  intros F Dc N (RV & DC & Z1 & Z2 & Z3 & U) L H. pose proof F as (T & Fd). pose proof T as ((SP & _) & _). destruct (tame_at compr f i T) as (Ks & El).
  destruct (Fd _ _ N) as (Dt & Uu & Kf & _). assert (Li : (i < length (wDirs f))%nat) by (apply nth_error_Some; congruence).
  unfold saveSelf, dirWriteKeys in H. cbv zeta in H. rewrite (dir_at_nth _ _ _ N) in *. fold (key_sum (wKeys d)) in H.
  set (nb := wrapS 32 _) in H. assert (NB : 0 < nb < 2 ^ 31 - 2 ^ 15).
  { unfold nb, kStartBigFile in *. rewrite wrapS_id; [|lia|apply inS32; destruct (fBig f); lia]. destruct (fBig f); lia. }
  destruct (newKey_total (dSeekdir (wHdr d)) (wName d) (wTitle d) sTDirectory nb (clk i) f SP) as (k & f1 & E & Nk & Dk & _ & F1 & _);
    [discriminate|exact El|lia|]. rewrite E in H. cbn [rbind] in H. destruct (F1 ltac:(lia)) as (Sk & ->).
  assert (NK : inS 32 (kNbytes k)).
  { unfold newKey in E. cbv zeta in E. destruct (0 <? nb); [|].
    - destruct (setEnd _ _) as [s0 err0]. destruct err0; [discriminate E|].
      match type of E with Ok (?a, _) = _ => assert (X : k = a) by congruence end. rewrite X. cbn [kNbytes]. apply wrapS_inS. lia.
    - match type of E with Ok (?a, _) = _ => assert (X : k = a) by congruence end. rewrite X. cbn [kNbytes]. apply wrapS_inS. lia. }
  destruct (fill nb _) as [b1|] in H; cbn [rbind] in H; [|discriminate H].
  destruct (writeFile junk k b1 _) as [f2|] eqn:W; cbn [rbind] in H; [|discriminate H].
  destruct (writeFile_fields _ _ _ _ _ W) as (dk & ->). rewrite Sk in H.
  set (d1 := s_hdr d _) in H. unfold dirWriteHeader in H. cbv zeta in H. set (g := s_disk _ dk) in H.
  assert (N2 : dir_at g i = d1).
  { apply dir_at_nth. change (wDirs g) with (set_nth (wDirs f) i d1). rewrite set_nth_nth, Nat.eqb_refl.
    destruct (Nat.ltb_spec i (length (wDirs f))); [reflexivity|lia]. }
  rewrite N2 in H. set (h2 := h_mtime _ _) in H.
  rewrite (fill_emits _ _ (enc_dir h2)) in H; [|discriminate|apply marshalDir_emits; [exact Dt|apply Dc|exact Uu]].
  cbn [rbind] in H. match type of H with Ok ?x = _ => assert (X : f' = x) by congruence end. clear H.
  set (h := mkDir (dRvers h2) (dCtime h2) (dMtime h2) (dNbyteskeys h2) (dNbytesname h2) (dSeekdir h2) (dSeekparent h2)
              (wEnd f - 4294967296) (dUuid h2)).
  assert (EH : enc_dir h = enc_dir h2).
  { unfold enc_dir. change (dRvers h) with (dRvers (wHdr d)). change (dRvers h2) with (dRvers (wHdr d)). rewrite RV.
    change (1000 <? 5) with false. cbv iota. unfold h. cbn [dCtime dMtime dNbyteskeys dNbytesname dSeekdir dSeekparent dSeekkeys dUuid].
    change (dSeekkeys h2) with (wEnd f). now rewrite be4_sub. }
  assert (OKh : dir_ok h).
  { change (2 ^ 31) with 2147483648 in L. change (2 ^ 32) with 4294967296 in L.
    constructor; cbn [h dRvers dCtime dMtime dNbyteskeys dNbytesname dSeekdir dSeekparent dSeekkeys dUuid h2 h_mtime d1 s_hdr wHdr h_keys].
    - rewrite RV. apply inS16. lia.
    - now rewrite RV.
    - split; [exact DC|apply Dc].
    - split; [exact NK|apply inS32; lia].
    - split; [apply inS64; lia|]. split; apply inS64; lia.
    - intros _. split; [apply inS32; lia|]. split; apply inS32; lia.
    - now rewrite U. }
  exists (s_hdr d1 h2), h. rewrite X.
  split. { cbn [s_disk wDirs set_dir s_dirs]. change (wDirs g) with (set_nth (wDirs f) i d1). rewrite set_nth_nth, Nat.eqb_refl, set_nth_length.
           destruct (Nat.ltb_spec i (length (wDirs f))); [reflexivity|lia]. }
  split; [reflexivity|]. split; [reflexivity|]. split.
  { rewrite EH. cbn [s_disk wDisk]. apply writeAt_at. }
  split. { intros rest. now apply unmarshalDir_rb. }
  intros D. unfold dirReadKeys. change (dSeekkeys h) with (wEnd f - 4294967296).
  change (2 ^ 32) with 4294967296 in L. destruct (Z.leb_spec (wEnd f - 4294967296) 0); [reflexivity|lia].
Qed.

Lemma key_sum_snoc ks k : key_sum (ks ++ [k]) = key_sum ks + kKeylen (fKey k).
Proof. unfold key_sum. induction ks as [|x ks IH]; cbn [app map fold_right]; lia. Qed.
(* Once a Put has brought the file to 2^31 bytes, the header of any other directory, as Close writes it, stands for a
   directory without keys, whatever was put there. *)
Theorem C58_large_lost junk cdc fname compr clk f j name ob now f1 i d :
  good cdc fname compr f -> wEnd f + 2 ^ 15 <= kStartBigFile -> op_ok cdc compr (OPut j name ob now) -> (j < length (wDirs f))%nat ->
  Put junk cdc j name ob now f = Ok (f1, true) -> 2 ^ 31 <= wEnd f1 < 2 ^ 32 ->
  nth_error (wDirs f) i = Some d -> i <> j -> (forall m, date_ok (clk m)) ->
  exists f' d' h, nth_error (wDirs f1) i = Some d /\ saveSelf junk clk i f1 = Ok f' /\ nth_error (wDirs f') i = Some d' /\ wKeys d' = wKeys d /\ dSeekkeys (wHdr d') = wEnd f1 /\
    at_disk (wDisk f') (area (wHdr d')) (enc_dir h) /\
    (forall rest, exists r, unmarshalDir (rb (enc_dir h ++ rest)) = Ok (h, r) /\ rerr r = false) /\
    forall D, dirReadKeys D h = Ok (Some []).
Proof.
  intros G Lf OK Lj P L1 N NE Dc. change (2 ^ 15) with 32768 in Lf. pose proof (good_fine cdc fname compr f G ltac:(lia)) as (((SP & X1 & X2 & X3) & Tk) & Fd).
  destruct OK as (Dt & Sn & St & Sc & Ln & NS & C1 & C2 & NB & Pl).
  destruct (nth_error (wDirs f) j) as [dj|] eqn:Nj; [|apply nth_error_None in Nj; lia].
  pose proof (g_dirs _ _ _ _ G _ _ Nj) as DWj.
  apply (put_cases junk cdc f j dj name ob now f1 true SP Nj) in P as [(X & _)|(_ & cyc & p & out & k & f2 & Sca & Dp & Cm & Ek & W & E1)]; [discriminate X|].
  destruct (writeFile_fields _ _ _ _ _ W) as (dk & ->). rewrite X3 in Cm. destruct (Pl _ _ Dp) as (_ & P2). destruct (P2 _ Cm) as (Lo & _).
  assert (NK : 0 <= kNbytes k) by (rewrite Ek; apply key_nbytes; auto).
  assert (KD : kDate k = now) by (rewrite Ek; reflexivity).
  assert (KL : 0 <= kKeylen k <= 32768).
  { rewrite Ek. unfold newKeyFromBuf. cbn [kKeylen]. rewrite keylenFor_len by auto.
    pose proof (enc_len_pos (put_as name ob) (put_title ob) (GoName2Cxx (oClass ob))). unfold maxkey in Ln. destruct (_ || _); lia. }
  assert (DJ : wDirs f1 = set_nth (wDirs f) j (s_keys dj (wKeys dj ++ [mkFKey k (CObj (oData ob))]))) by now rewrite E1.
  assert (BK : forall m x, nth_error (wDirs f1) m = Some x -> exists y, nth_error (wDirs f) m = Some y /\ wHdr x = wHdr y /\ wName x = wName y /\
             wTitle x = wTitle y /\ wSubs x = wSubs y /\ (wKeys x = wKeys y \/ m = j /\ wKeys x = wKeys y ++ [mkFKey k (CObj (oData ob))])).
  { intros m x H. rewrite DJ, set_nth_nth in H. destruct (Nat.eqb_spec m j) as [->|].
    - destruct (Nat.ltb_spec j (length (wDirs f))); [|lia]. injection H as <-. exists dj. repeat (split; auto).
    - exists x. repeat (split; auto). }
  assert (F1 : fine compr f1).
  { split; [split|].
    - rewrite E1. repeat (split; [first [reflexivity|exact X1|exact X2|exact X3]|]). exact X3.
    - intros m x H. destruct (BK m x H) as (y & Ny & _ & -> & -> & _ & K). destruct (Tk _ _ Ny) as (A & B). split; auto.
      destruct K as [->|(-> & ->)]; [exact A|]. rewrite key_sum_snoc. cbn [fKey].
      assert (y = dj) by congruence. subst y. pose proof (dw_sum _ _ DWj) as S1. fold (key_sum (wKeys dj)) in S1. lia.
    - intros m x H. destruct (BK m x H) as (y & Ny & -> & _ & _ & -> & K). destruct (Fd _ _ Ny) as (A & B & C & D).
      split; auto. split; auto. split; [|rewrite DJ, set_nth_length; exact D].
      destruct K as [->|(_ & ->)]; auto. rewrite map_app. apply Forall_app. split; auto. constructor; [|constructor]. cbn [fKey]. rewrite KD. auto. }
  pose proof (g_dirs _ _ _ _ G _ _ N) as DW.
  assert (N1 : nth_error (wDirs f1) i = Some d).
  { rewrite DJ, set_nth_nth. destruct (Nat.eqb_spec i j); [contradiction|exact N]. }
  assert (LH : low_hdr (wHdr d)).
  { destruct DW. unfold kStartBigFile, area, hsize in *. change (2 ^ 15) with 32768 in *. unfold low_hdr. repeat (split; try tauto; try lia). }
  assert (Li : (i < length (wDirs f1))%nat) by (apply nth_error_Some; congruence).
  destruct (saveSelf_total junk compr clk i f1 Dc F1 Li) as (f' & HS).
  destruct (large_saved junk compr clk i f1 f' d F1 Dc N1 LH L1 HS) as (d' & h & R). exists f', d', h. split; auto.
Qed.
(* Such a file is obtained by putting an object in directory d and two objects of 1.1 GB beside it. *)
Definition lg_obj (p : list Z) : object (Z -> option (list Z)) := mkObj [84; 72] None (fun _ => Some p).
Definition lg_ops (p : list Z) : list op := [OMkdir 0 [100] ex_now; OPut 1 [104] (lg_obj [1; 2; 3]) ex_now; OPut 0 [120] (lg_obj p) ex_now].
Definition lg_last (p : list Z) : op := OPut 0 [121] (lg_obj p) ex_now.

Lemma lg_put_ok p i n : zlen p < 2 ^ 31 - 2 ^ 15 -> In n [104; 120; 121] -> op_ok ex_cdc 0 (OPut i [n] (lg_obj p) ex_now) /\ op_live ex_cdc 0 (OPut i [n] (lg_obj p) ex_now).
Proof.
  intros L I. destruct (C58_stored ex_cdc 0 p (or_introl eq_refl) L) as (A & B). split.
  - cbn [op_ok]. cbv zeta. change (put_as [n] (lg_obj p)) with [n]. change (put_title (lg_obj p)) with (@nil Z).
    change (GoName2Cxx (oClass (lg_obj p))) with (GoName2Cxx [84; 72]).
    split; [split; [reflexivity|cbn; lia]|]. split; [cbn in I; decompose [or] I; subst; try tauto; str_tac|]. split; [str_tac|]. split; [str_tac|].
    split; [reflexivity|]. split; [cbn in I |- *; unfold semicolon; lia|]. do 3 (split; [discriminate|]).
    intros off q E. cbn in E. assert (q = p) by congruence. now subst.
  - intros off q E. cbn in E. assert (X : q = p) by congruence. rewrite X, B. discriminate.
Qed.

Theorem C58_large_refuted : exists ops f0 f f1 d f' d' h,
  Forall (op_ok ex_cdc 0) ops /\ Create ex_junk ex_name 0 ex_now = Ok f0 /\ run ex_junk ex_cdc isort ops f0 = Ok (f, [true; true; true]) /\
  (exists p, Put ex_junk ex_cdc 0 [121] (lg_obj p) ex_now f = Ok (f1, true)) /\ wEnd f1 < 2 ^ 32 /\
  nth_error (wDirs f1) 1 = Some d /\ length (wKeys d) = 1%nat /\
  saveSelf ex_junk (fun _ => ex_now) 1 f1 = Ok f' /\ nth_error (wDirs f') 1 = Some d' /\ wKeys d' = wKeys d /\
  at_disk (wDisk f') (area (wHdr d')) (enc_dir h) /\
  (forall rest, exists r, unmarshalDir (rb (enc_dir h ++ rest)) = Ok (h, r) /\ rerr r = false) /\
  forall D, dirReadKeys D h = Ok (Some []).
Proof.
  assert (P : exists p : list Z, zlen p = 1100000000).
  { exists (repeat 0 (Z.to_nat 1100000000)). unfold zlen. rewrite repeat_length. apply Z2Nat.id. discriminate. }
  destruct P as (p & Lp).
  assert (Dn : date_ok ex_now) by (split; [reflexivity|cbn; lia]). assert (SF : str_ok ex_name) by str_tac.
  assert (LF : zlen ex_name <= 478) by discriminate.
  assert (Lp' : zlen p < 2 ^ 31 - 2 ^ 15) by (rewrite Lp; reflexivity).
  pose proof (lg_put_ok [1; 2; 3] 1%nat 104 eq_refl (or_introl eq_refl)) as (O1 & V1).
  pose proof (lg_put_ok p 0%nat 120 Lp' (or_intror (or_introl eq_refl))) as (O2 & V2).
  pose proof (lg_put_ok p 0%nat 121 Lp' (or_intror (or_intror (or_introl eq_refl)))) as (O3 & V3).
  assert (OM : op_ok ex_cdc 0 (OMkdir 0 [100] ex_now)).
  { split; auto. split; [str_tac|]. split; [cbn; unfold semicolon; lia|reflexivity]. }
  assert (OPS : Forall (op_ok ex_cdc 0) (lg_ops p)) by (repeat (constructor; [assumption|]); constructor).
  assert (LV : Forall (op_live ex_cdc 0) (lg_ops p)) by (constructor; [exact I|]; repeat (constructor; [assumption|]); constructor).
  destruct (create_eq ex_junk ex_name 0 ex_now SF LF Dn) as (dk & k & HC & _).
  destruct (create_good ex_junk ex_cdc ex_name 0 ex_now _ SF LF Dn HC) as (G0 & V0).
  destruct (C58_stored ex_cdc 0 p (or_introl eq_refl) Lp') as (_ & CP).
  set (f0 := fresh ex_name 0 dk _ _ _) in *.
  assert (W0 : wEnd f0 = 208) by reflexivity.
  assert (ACC : verdicts ex_cdc 0 (lg_ops p) [[]] = [true; true; true]).
  { unfold lg_ops. cbn [verdicts]. cbv zeta. cbn [accepts]. cbv zeta. cbn [oData lg_obj]. rewrite CP. reflexivity. }
  assert (RM : room ex_cdc 0 (lg_ops p) [[]] = 168 + zlen p).
  { assert (C1 : cost ex_cdc 0 (OMkdir 0 [100] ex_now) = 101) by reflexivity.
    assert (C2 : cost ex_cdc 0 (OPut 1 [104] (lg_obj [1; 2; 3]) ex_now) = 35) by reflexivity.
    assert (C3 : cost ex_cdc 0 (OPut 0 [120] (lg_obj p) ex_now) = 32 + zlen p).
    { cbn [cost]. cbv zeta. cbn [oData lg_obj]. rewrite CP. reflexivity. }
    unfold lg_ops in *. cbn [verdicts room] in *. cbv zeta in *. rewrite C1, C2, C3.
    match type of ACC with [?x; ?y; ?z] = _ => assert (A1 : x = true) by congruence; assert (A2 : y = true) by congruence; assert (A3 : z = true) by congruence end.
    rewrite A3, A2, A1. lia. }
  assert (AP : applies (lg_ops p) [true; true; true] [[]] =
    [[mkEntry [100] [100] sTDirectory (CDir 1); mkEntry [120] [] [84; 72] (CObj (fun _ => Some p))];
     [mkEntry [104] [] [84; 72] (CObj (fun _ => Some [1; 2; 3]))]]) by reflexivity.
  destruct (run_room ex_junk ex_cdc isort ex_name 0 (lg_ops p) f0 isort_sorts G0 OPS LV) as (f & R & G & V & W).
  { rewrite V0, W0, RM, Lp. discriminate. }
  { rewrite V0, ACC, AP. intros i nm. pose proof (zlen_nonneg (named nm (nth i [[mkEntry [100] [100] sTDirectory (CDir 1); mkEntry [120] [] [84; 72] (CObj (fun _ => Some p))];
     [mkEntry [104] [] [84; 72] (CObj (fun _ => Some [1; 2; 3]))]] []))).
    destruct i as [|[|i]]; cbn [nth]; unfold named; cbn [filter]; repeat destruct (str_eqb _ nm); unfold zlen; cbn [length]; try lia. destruct i; cbn; lia. }
  rewrite V0, ACC in *. rewrite W0, RM, Lp in W. rewrite AP in V.
  assert (D2 : exists da db, wDirs f = [da; db] /\ length (wKeys db) = 1%nat).
  { unfold view in V. destruct (wDirs f) as [|da [|db [|dc l]]]; try discriminate V. exists da, db. split; auto.
    cbn [map] in V. assert (E : map ent (wKeys db) = [mkEntry [104] [] [84; 72] (CObj (fun _ => Some [1; 2; 3]))]) by congruence.
    apply (f_equal (@length _)) in E. rewrite map_length in E. exact E. }
  destruct D2 as (da & db & ED & LK). assert (LD : (0 < length (wDirs f))%nat) by (rewrite ED; cbn; lia).
  assert (Lf : wEnd f = 1100000376) by lia. assert (KS : wEnd f <= kStartBigFile) by (rewrite Lf; discriminate).
  destruct (put_total ex_junk ex_cdc 0 f 0 [121] (lg_obj p) ex_now (g_spans _ _ _ _ G) (proj1 (g_misc _ _ _ _ G)) O3 V3) as ((f1 & b) & HP).
  assert (HS : step ex_junk ex_cdc isort (lg_last p) f = Ok (f1, b)).
  { cbn [lg_last step]. destruct (Nat.ltb_spec 0 (length (wDirs f))); [exact HP|lia]. }
  pose proof (step_accepts ex_junk ex_cdc isort ex_name 0 (lg_last p) f f1 b isort_sorts G O3 V3 HS KS) as EB.
  assert (EB' : b = true).
  { rewrite EB, V. unfold lg_last. cbn [accepts]. cbv zeta. cbn [oData lg_obj]. rewrite CP. reflexivity. }
  rewrite EB' in HS, HP. clear EB EB'. pose proof (step_size ex_junk ex_cdc isort ex_name 0 (lg_last p) f f1 true G O3 HS KS) as SZ.
  assert (CO : cost ex_cdc 0 (lg_last p) = 32 + zlen p).
  { unfold lg_last. cbn [cost]. cbv zeta. cbn [oData lg_obj]. rewrite CP. reflexivity. }
  rewrite CO, Lp, Lf in SZ. assert (W1 : wEnd f1 = 2200000408) by lia.
  assert (N1 : nth_error (wDirs f) 1 = Some db) by now rewrite ED.
  destruct (C58_large_lost ex_junk ex_cdc ex_name 0 (fun _ => ex_now) f 0 [121] (lg_obj p) ex_now f1 1 db G) as (f' & d' & h & R0 & R1 & R2 & R3 & R4 & R5 & R6 & R7); auto.
  { rewrite Lf. discriminate. }
  { rewrite W1. split; [discriminate|reflexivity]. }
  exists (lg_ops p), f0, f, f1, db, f', d', h. split; [exact OPS|]. split; [exact HC|]. split; [exact R|].
  split; [exists p; exact HP|]. split; [now rewrite W1|].
  split; [exact R0|].
  split; [exact LK|]. split; [exact R1|]. split; [exact R2|]. split; [exact R3|]. auto.
Qed.

Print Assumptions C58_large_lost.
Print Assumptions C58_large_refuted.
