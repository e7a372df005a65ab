(* C58: what is put in a ROOT file is found again when the file is closed and opened. *)
From Coq Require Import ZArith List Lia Bool Sorting.Permutation Sorting.Sorted.
From Verif Require Import Bytes GoLib RbytesModel RbytesProofs RdMonad GoStrings FreelistModel FreelistProps KeyModel KeyProofs KeyProps
  DirModel DirProps CompressModel CompressProps RfileModel RfileSpec RfileProofs RfileInv RfileClose RfileOpen RfileLive.
Import ListNotations.
Local Open Scope Z_scope.

(* from the invariant of the files being written *)
Lemma reopen_view junk cdc srt fname compr si clk t1 t2 f f' :
  sorts srt -> inS 32 compr -> (forall j, date_ok (clk j)) -> date_ok t1 -> date_ok t2 ->
  (forall off, payload_ok cdc compr (si off)) -> good cdc fname compr f ->
  Close junk cdc si clk t1 t2 f = Ok (Some f') -> wEnd f <= kStartBigFile -> wEnd f' <= kStartBigFile ->
  exists R, Open cdc (wDisk f') = Ok (Some R) /\
    rName (rfRoot R) = fname /\ rTitle (rfRoot R) = [] /\ rfInfo R = Some (si 64) /\
    rfSpans R = [mkSeg (wEnd f') kStartBigFile] /\ shows (view f) (root_entry fname) (RDir (rfRoot R)) /\
    forall path, Forall nc_ok path ->
      exists r, walk cdc srt (wDisk f') (RDir (rfRoot R)) (map nc_string path) = Ok r /\
        match locate (view f) (root_entry fname) path with
        | None => r = None
        | Some e => exists o, r = Some o /\ shows (view f) e o
        end.
Proof.
  intros ST IC Dc D1 D2 PO G HX L L'.
  destruct (close_spec junk cdc fname compr si clk t1 t2 f f' G PO Dc D1 D2 HX L L') as (f1 & G1 & SM & SV & FI).
  apply same_view in SM. rewrite <- SM. clear SM.
  destruct FI as [FD FK FE FL FH (FN & FU & FC) FS FInf FFree].
  assert (E1 : wEnd f1 <= kStartBigFile) by lia. assert (L1 : wEnd f1 <= zlen (wDisk f')) by lia.
  set (D := wDisk f') in *. assert (KP : forall q x, 100 <= q -> q + zlen x <= wEnd f1 -> at_disk (wDisk f1) q x -> at_disk D q x) by exact FK.
  destruct (g_root _ _ _ _ G1) as (d0 & N0 & Nm & Tt & Sk & Nn). pose proof (g_nbn _ _ _ _ G1) as NB.
  destruct (dir_hdr_ok cdc D fname compr f1 G1 E1 SV KP 0 d0 N0) as (DO & DA & DZ & DL & DE).
  pose proof (dir_keys_ok cdc D fname compr f1 G1 E1 SV KP ltac:(lia) 0 d0 N0) as DK.
  destruct (g_rootkey _ _ _ _ G1) as (rk & RA & RZ & RO & RV & RN & RT).
  destruct FInf as (out & k2 & LD & A1 & A2 & KO2 & Z2 & N2 & N2' & O2 & S2 & B2 & B2').
  destruct FFree as (k3 & A3 & A4 & KO3 & Z3 & N3 & N3' & O3 & S3 & B3 & B3').
  pose proof (g_end _ _ _ _ G1) as GE. pose proof (zlen_nonneg (enc_key k2)). pose proof (zlen_nonneg (enc_key k3)).
  pose proof (zlen_nonneg out). unfold area, hsize in *. unfold kStartBigFile in E1. unfold kStartBigFile in FE.
  assert (PRE : exists rest, readAt D 0 76 = Some (fhdr_prefix f' ++ rest)).
  { rewrite fhdr_split in FH by (rewrite ?FS; auto). apply at_disk_app_l in FH.
    destruct (readAt_prefix D 0 76 (fhdr_prefix f')) as (rest & E & _); eauto; try lia. }
  destruct PRE as (rest & RB). set (buf := fhdr_prefix f' ++ rest) in *.
  assert (PH : parseHeader (rb buf) = Ok (Some (header_of f'), adv (rb (fhdr_prefix f' ++ rest)) (length (fhdr_prefix f')))).
  { apply reads_rb, parseHeader_reads; try (apply inS32; lia). now rewrite FC. }
  assert (RD : readDirInfo D (header_of f') = Ok (Some (wHdr d0, kName rk, kTitle rk))).
  { apply readDirInfo_ok; cbn [header_of hVersion hBegin hNbytesname hEnd]; rewrite ?FN; unfold hsize; auto; try lia.
    - rewrite <- Nn, <- Sk. exact DA.
    - apply KP; auto; lia. }
  assert (RF : readFreeSegments cdc D (header_of f') = Ok (Some [mkSeg (wEnd f') kStartBigFile])).
  { eapply (readFree_ok cdc D (header_of f') k3 (mkSeg (wEnd f') kStartBigFile)); cbn [header_of hSeekfree hNbytesfree]; auto; try lia.
    - unfold seg_storable. cbn [first last]. unfold kStartBigFile.
      split; [apply inS64; lia|]. split; [apply inS64; lia|]. intros _. split; apply inS32; lia. }
  assert (RI : readStreamerInfo cdc D (header_of f') = Ok (Some (si si_len))).
  { eapply (readInfo_ok cdc D (header_of f') k2 (si si_len) out); cbn [header_of hSeekinfo hNbytesinfo hEnd]; auto; lia. }
  exists (mkRF (header_of f') [mkSeg (wEnd f') kStartBigFile] (Some (si si_len))
    (mkRDir (wHdr d0) (kName rk) (kTitle rk) (map oldDir (map fKey (wKeys d0))))).
  assert (RP : rep f1 (root_entry fname) (RDir (mkRDir (wHdr d0) (kName rk) (kTitle rk) (map oldDir (map fKey (wKeys d0)))))).
  { exists d0. split; auto. }
  split.
  { unfold Open. rewrite RB, PH. cbn [rbind fst snd]. change (rerr (adv _ _)) with false. cbv iota. rewrite RD. cbn [rbind].
    change (hSeekfree (header_of f')) with (wSeekfree f'). destruct (Z.ltb_spec 0 (wSeekfree f')); [|lia]. rewrite RF. cbn [rbind].
    change (hSeekinfo (header_of f')) with (wSeekinfo f'). destruct (Z.ltb_spec 0 (wSeekinfo f')); [|lia]. rewrite RI. cbn [rbind option_map].
    rewrite DK. reflexivity. }
  cbn [rfRoot rName rTitle rfInfo rfSpans]. rewrite RN in RP |- *. rewrite RT in RP |- *. repeat (split; [reflexivity|]).
  split. { eapply rep_shows; eauto. }
  intros path OKP. destruct (walk_ok cdc srt D fname compr f1 G1 E1 SV KP ltac:(lia) path ST OKP _ _ RP) as (r & W & M).
  exists r. split; auto. destruct (locate (view f1) (root_entry fname) path); auto.
  destruct M as (o & E & RO'). exists o. split; auto. eapply rep_shows; eauto.
Qed.

Theorem C58_reopen junk cdc srt fname compr now ops si clk t1 t2 f0 f oks f' :
  sorts srt -> str_ok fname -> zlen fname <= 478 -> inS 32 compr ->
  date_ok now -> (forall j, date_ok (clk j)) -> date_ok t1 -> date_ok t2 ->
  Forall (op_ok cdc compr) ops -> (forall off, payload_ok cdc compr (si off)) ->
  Create junk fname compr now = Ok f0 -> run junk cdc srt ops f0 = Ok (f, oks) ->
  Close junk cdc si clk t1 t2 f = Ok (Some f') ->
  wEnd f <= kStartBigFile -> wEnd f' <= kStartBigFile ->
  (forall i name, zlen (named name (nth i (applies ops oks [[]]) [])) <= 32767) ->
  exists R, Open cdc (wDisk f') = Ok (Some R) /\
    rName (rfRoot R) = fname /\ rTitle (rfRoot R) = [] /\ rfInfo R = Some (si 64) /\
    rfSpans R = [mkSeg (wEnd f') kStartBigFile] /\ shows (applies ops oks [[]]) (root_entry fname) (RDir (rfRoot R)) /\
    forall path, Forall nc_ok path ->
      exists r, walk cdc srt (wDisk f') (RDir (rfRoot R)) (map nc_string path) = Ok r /\
        match locate (applies ops oks [[]]) (root_entry fname) path with
        | None => r = None
        | Some e => exists o, r = Some o /\ shows (applies ops oks [[]]) e o
        end.
Proof.
  intros ST SF LF IC Dn Dc D1 D2 OPS PO HC HR HX L L' Cnt.
  destruct (create_good junk cdc fname compr now f0 SF LF Dn HC) as (G0 & V0).
  destruct (run_good junk cdc srt fname compr ops f0 f oks ST G0 OPS HR L) as (G & V).
  { rewrite V0. exact Cnt. }
  rewrite V0 in V. rewrite <- V. exact (reopen_view junk cdc srt fname compr si clk t1 t2 f f' ST IC Dc D1 D2 PO G HX L L').
Qed.

(* ---- no call panics, and the calls that fail are those that should ---- *)
(* Writing a file never panics, whatever its size; while the file is below 2 GB the calls that succeed are exactly
   those that the entries accepted before allow, and Close succeeds. *)
Theorem C58_total junk cdc srt fname compr now ops si clk t1 t2 :
  sorts srt -> str_ok fname -> zlen fname <= 478 -> date_ok now -> (forall j, date_ok (clk j)) -> date_ok t1 -> date_ok t2 ->
  Forall (op_ok cdc compr) ops -> Forall (op_live cdc compr) ops ->
  (forall off, payload_ok cdc compr (si off)) -> (forall off, exists out, Compress cdc (si off) compr = Ok (Some out)) ->
  exists f0 f oks, Create junk fname compr now = Ok f0 /\ run junk cdc srt ops f0 = Ok (f, oks) /\
    (wEnd f <= kStartBigFile ->
     (forall i name, zlen (named name (nth i (applies ops oks [[]]) [])) <= 32767) ->
     oks = verdicts cdc compr ops [[]] /\ exists f', Close junk cdc si clk t1 t2 f = Ok (Some f')).
Proof.
  intros ST SF LF Dn Dc D1 D2 OPS LV PO CO.
  destruct (create_eq junk fname compr now SF LF Dn) as (dk & k & HC & _).
  destruct (create_good junk cdc fname compr now _ SF LF Dn HC) as (G0 & V0).
  destruct (run_total junk cdc srt compr ops _ (g_spans _ _ _ _ G0) (proj1 (g_misc _ _ _ _ G0)) OPS LV) as ((f & oks) & HR).
  eexists _, f, oks. split; [exact HC|]. split; [exact HR|]. intros L Cn. split.
  - rewrite <- V0. eapply run_accepts; eauto.
  - destruct (run_good junk cdc srt fname compr ops _ f oks ST G0 OPS HR L) as (G & _); [rewrite V0; exact Cn|].
    eapply close_total; eauto.
Qed.

(* While the entries accepted fit below 2 GB, the size of the file before Close is that of its header, of the record of
   the root directory and of one record per accepted call. *)
Theorem C58_size junk cdc srt fname compr now ops :
  sorts srt -> str_ok fname -> zlen fname <= 478 -> date_ok now ->
  Forall (op_ok cdc compr) ops -> Forall (op_live cdc compr) ops ->
  let start := 194 + 2 * tstringSizeof fname in
  start + room cdc compr ops [[]] <= kStartBigFile ->
  (forall i name, zlen (named name (nth i (applies ops (verdicts cdc compr ops [[]]) [[]]) [])) <= 32767) ->
  exists f0 f, Create junk fname compr now = Ok f0 /\ run junk cdc srt ops f0 = Ok (f, verdicts cdc compr ops [[]]) /\
    wEnd f = start + room cdc compr ops [[]].
Proof.
  intros ST SF LF Dn OPS LV start L Cn.
  destruct (create_eq junk fname compr now SF LF Dn) as (dk & k & HC & _).
  destruct (create_good junk cdc fname compr now _ SF LF Dn HC) as (G0 & V0).
  assert (E0 : wEnd (fresh fname compr dk (100 + (tstringSizeof fname + 1 + hsize + enc_len fname [] sTFile))
                      (enc_len fname [] sTFile + (tstringSizeof fname + 1)) now) = start).
  { unfold fresh, wEnd. cbn [wSpace fend]. unfold enc_len, hsize, start. change (tstringSizeof sTFile) with 6. change (tstringSizeof []) with 1. lia. }
  destruct (run_room junk cdc srt fname compr ops _ ST G0 OPS LV) as (f & R & _ & _ & W).
  { now rewrite V0, E0. }
  { now rewrite V0. }
  rewrite V0 in R, W. eexists _, f. split; [exact HC|]. split; [exact R|]. now rewrite W, E0.
Qed.

(* ---- payloads ---- *)
(* without compression, and below 512 bytes with it, every payload may be put *)
Theorem C58_stored cdc compr p : Z.quot compr 100 = 0 \/ Z.rem compr 100 = 0 \/ zlen p < 512 -> zlen p < 2 ^ 31 - 2 ^ 15 ->
  payload_ok cdc compr p /\ Compress cdc p compr = Ok (Some p).
Proof.
  intros H L. pose proof (C16_stored cdc p compr H) as E. split; auto. split; [lia|]. intros out E'. rewrite E in E'.
  assert (out = p) by congruence. subst out. split; auto. apply loads_self.
Qed.
(* with compression, the conditions are those of C16 *)
Theorem C58_compressed cdc compr p : codec_ok cdc -> zlen p < 2 ^ 31 ->
  (In (Z.quot compr 100) [ZLIB; LZMA; ZSTD] ->
     safe max_block cdc (Z.quot compr 100) (Z.rem compr 100) p \/ shrinks max_block cdc (Z.quot compr 100) (Z.rem compr 100) p) ->
  (forall out, Compress cdc p compr = Ok (Some out) -> zlen out < 2 ^ 31 - 2 ^ 15 /\ (zlen out = zlen p -> out = p)) ->
  payload_ok cdc compr p.
Proof.
  intros K L SS H. split; [exact L|]. intros out E. destruct (H out E) as (A & B). split; auto.
  intros rest. eapply C16_load_partial; eauto.
Qed.

(* ---- an example ---- *)
Definition ex_name : str := [97; 46; 114; 111; 111; 116].
Definition ex_now := mkCivil 2024 2 29 12 30 15.
Definition ex_small : object (Z -> option (list Z)) := mkObj [84; 72] (Some ([104], [116])) (fun off => Some [1; 2; 3; off mod 256]).
Definition ex_other : object (Z -> option (list Z)) := mkObj [84; 76] None (fun _ => Some [5; 5; 5; 5; 5; 5]).
Definition ex_bad : object (Z -> option (list Z)) := mkObj [84; 72] None (fun _ => None).
(* two objects h in the file, one in directory d under its own name, another one in d/e; refused: a directory d again,
   a name with a slash, another class under the name h, an object that cannot be marshalled, an empty name *)
Definition ex_ops : list op :=
  [OPut 0 [104] ex_small ex_now; OMkdir 0 [100] ex_now; OPut 1 [] ex_small ex_now; OPut 0 [104] ex_small ex_now;
   OMkdir 1 [101] ex_now; OMkdir 0 [100] ex_now; OPut 2 [120] ex_other ex_now; OPut 0 [97; 47] ex_small ex_now;
   OPut 0 [104] ex_other ex_now; OPut 2 [121] ex_bad ex_now; OPut 2 [] ex_other ex_now].
Definition ex_oks := [true; true; true; true; true; false; true; false; false; false; false].
Definition ex_si (_ : Z) : list Z := [9; 9; 9].
Definition ex_junk (_ : nat) : Z := 7.
Definition ex_cdc := toy 0.
Definition ex_run (compr : Z) (name : str) : res (option (list bool * list Z * Z)) :=
  do f <- Create ex_junk name compr ex_now;
  do r <- run ex_junk ex_cdc isort ex_ops f;
  do c <- Close ex_junk ex_cdc ex_si (fun _ => ex_now) ex_now ex_now (fst r);
  Ok (option_map (fun f => (snd r, wDisk f, wEnd f)) c).
Definition ex_get (d : list Z) (path : list str) : res (option robj) :=
  do R <- Open ex_cdc d;
  match R with None => Ok None | Some R => walk ex_cdc isort d (RDir (rfRoot R)) path end.

Lemma small_ok p : zlen p < 512 -> payload_ok ex_cdc 106 p /\ Compress ex_cdc p 106 = Ok (Some p).
Proof. intros L. apply C58_stored; [auto|lia]. Qed.
Ltac str_tac := split; [repeat (constructor; [unfold byte_ok; lia|]); constructor|split; [vm_compute; reflexivity|discriminate]].
Ltac op_tac := repeat split; try (vm_compute; (reflexivity || discriminate)); try (now str_tac); try lia; try discriminate.
Lemma ex_ops_ok : Forall (op_ok ex_cdc 106) ex_ops /\ Forall (op_live ex_cdc 106) ex_ops.
Proof.
  assert (D : date_ok ex_now) by (split; [reflexivity|cbn; lia]).
  assert (SM : forall off p, oData ex_small off = Some p -> payload_ok ex_cdc 106 p /\ Compress ex_cdc p 106 = Ok (Some p)).
  { intros off p E. cbn in E. assert (X : p = [1; 2; 3; off mod 256]) by congruence. rewrite X. now apply small_ok. }
  assert (LG : forall off p, oData ex_other off = Some p -> payload_ok ex_cdc 106 p /\ Compress ex_cdc p 106 <> Panic).
  { intros off p E. cbn in E. assert (X : p = [5; 5; 5; 5; 5; 5]) by congruence. rewrite X.
    destruct (small_ok [5; 5; 5; 5; 5; 5]) as (A & B); [reflexivity|]. split; auto. rewrite B. discriminate. }
  assert (PS : forall i name, str_ok (put_as name ex_small) -> zlen name < 100 -> ~ In semicolon (put_as name ex_small) ->
     op_ok ex_cdc 106 (OPut i name ex_small ex_now) /\ op_live ex_cdc 106 (OPut i name ex_small ex_now)).
  { intros i name SN L NS. split.
    - cbn [op_ok]. cbv zeta. split; auto. split; auto. split; [str_tac|]. split; [str_tac|]. split; [|split; [auto|]].
      + unfold enc_len, maxkey. change (tstringSizeof (put_title ex_small)) with 2. change (tstringSizeof (GoName2Cxx (oClass ex_small))) with 3.
        assert (zlen (put_as name ex_small) < 100) by (destruct name; [vm_compute; reflexivity|exact L]).
        unfold tstringSizeof. destruct (_ <? _); lia.
      + do 3 (split; [vm_compute; discriminate|]). intros off p E. apply (SM off p E).
    - intros off p E. destruct (SM off p E) as (_ & ->). discriminate. }
  assert (PL : forall i name, str_ok name -> zlen name < 100 -> ~ In semicolon name ->
     op_ok ex_cdc 106 (OPut i name ex_other ex_now) /\ op_live ex_cdc 106 (OPut i name ex_other ex_now)).
  { intros i name SN L NS. assert (E : put_as name ex_other = name) by (destruct name; reflexivity). split.
    - cbn [op_ok]. cbv zeta. rewrite E. split; auto. split; auto. split; [str_tac|]. split; [str_tac|]. split; [|split; [auto|]].
      + unfold enc_len, maxkey. change (tstringSizeof (put_title ex_other)) with 1. change (tstringSizeof (GoName2Cxx (oClass ex_other))) with 3.
        unfold tstringSizeof. destruct (_ <? _); lia.
      + do 3 (split; [vm_compute; discriminate|]). intros off p X. apply (LG off p X).
    - intros off p X. apply (LG off p X). }
  assert (PM : forall i name, str_ok name -> zlen name < 100 -> ~ In semicolon name ->
     op_ok ex_cdc 106 (OMkdir i name ex_now) /\ op_live ex_cdc 106 (OMkdir i name ex_now)).
  { intros i name SN L NS. split; [|exact I]. split; auto. split; auto. split; auto.
    unfold enc_len, maxkey. change (tstringSizeof sTDirectory) with 11. unfold tstringSizeof. destruct (_ <? _); lia. }
  assert (PB : op_ok ex_cdc 106 (OPut 2 [121] ex_bad ex_now) /\ op_live ex_cdc 106 (OPut 2 [121] ex_bad ex_now)).
  { split; [|intros off p E; discriminate E]. cbn [op_ok]. cbv zeta. split; auto. do 3 (split; [str_tac|]).
    split; [reflexivity|]. split; [cbn; intuition discriminate|]. do 3 (split; [vm_compute; discriminate|]). intros off p E. discriminate E. }
  assert (F : Forall (fun o => op_ok ex_cdc 106 o /\ op_live ex_cdc 106 o) ex_ops).
  { unfold ex_ops. repeat (apply Forall_cons; [first [apply PS|apply PL|apply PM|exact PB]; first [str_tac|reflexivity|cbn; intuition discriminate]|]).
    apply Forall_nil. }
  split; (eapply Forall_impl; [|exact F]; intros o [A B]; auto).
Qed.

(* the hypotheses of C58_reopen and C58_total hold for this history, and this is what happens *)
Example C58_example :
  sorts (@isort nat) /\ str_ok ex_name /\ zlen ex_name <= 478 /\ inS 32 106 /\ date_ok ex_now /\
  Forall (op_ok ex_cdc 106) ex_ops /\ Forall (op_live ex_cdc 106) ex_ops /\ (forall off, payload_ok ex_cdc 106 (ex_si off)) /\
  verdicts ex_cdc 106 ex_ops [[]] = ex_oks /\ room ex_cdc 106 ex_ops [[]] = 351 /\
  exists d e, ex_run 106 ex_name = Ok (Some (ex_oks, d, e)) /\ e <= kStartBigFile /\ zlen d = e /\
    ex_get d [[104]] = Ok (Some (RLeaf [84; 72] [1; 2; 3; 33] 33)) /\
    ex_get d [[100]; [104; 59; 49]] = Ok (Some (RLeaf [84; 72] [1; 2; 3; 33] 33)) /\
    ex_get d [[100]; [101]; [120]] = Ok (Some (RLeaf [84; 76] [5; 5; 5; 5; 5; 5] 32)) /\
    ex_get d [[100]; [101]; [121]] = Ok None /\
    locate (applies ex_ops ex_oks [[]]) (root_entry ex_name) [([100], None); ([101], None); ([120], Some 1)] =
      Some (mkEntry [120] [] [84; 76] (CObj (oData ex_other))).
Proof.
  split; [apply isort_sorts|]. split; [str_tac|]. split; [discriminate|]. split; [apply inS32; lia|].
  split; [split; [reflexivity|cbn; lia]|]. destruct ex_ops_ok as (A & B). split; [exact A|]. split; [exact B|].
  split; [intros off; now apply small_ok|]. split; [vm_compute; reflexivity|]. split; [vm_compute; reflexivity|].
  eexists _, _. split; [vm_compute; reflexivity|]. split; [discriminate|]. repeat (split; [vm_compute; reflexivity|]). vm_compute; reflexivity.
Qed.

(* ---- what is false ---- *)
(* A file whose name has 479 bytes is created, filled and closed without error, and cannot be opened again: the name
   and title make the header of the root directory longer than the 1000 bytes that readDirInfo allows. *)
Theorem C58_long_name_refuted : exists name d e, zlen name = 479 /\ ex_run 0 name = Ok (Some (ex_oks, d, e)) /\
  e <= kStartBigFile /\ Open ex_cdc d = Ok None.
Proof.
  exists (repeat 97 479). eexists _, _. split; [reflexivity|]. split; [vm_compute; reflexivity|]. split; [discriminate|]. vm_compute. reflexivity.
Qed.
(* The UUID of the file is not read back: its version is written before it and not read. *)
Theorem C58_uuid_refuted : exists d e R, ex_run 106 ex_name = Ok (Some (ex_oks, d, e)) /\ Open ex_cdc d = Ok (Some R) /\
  hUuid (rfHdr R) <> uuid0.
Proof.
  eexists _, _, _. split; [vm_compute; reflexivity|]. split; [vm_compute; reflexivity|]. vm_compute. discriminate.
Qed.

Print Assumptions C58_reopen.
Print Assumptions C58_total.
Print Assumptions C58_size.
Print Assumptions C58_stored.
Print Assumptions C58_compressed.
Print Assumptions C58_long_name_refuted.
Print Assumptions C58_uuid_refuted.
