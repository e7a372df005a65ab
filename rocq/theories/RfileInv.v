(* The invariant of a ROOT file being written: Create establishes it, Put and Mkdir keep it. *)
From Coq Require Import ZArith List Lia Bool Sorting.Permutation Sorting.Sorted.
From Verif Require Import Bytes GoLib RbytesModel RbytesProofs RdMonad GoStrings FreelistModel FreelistProps KeyModel KeyProofs KeyProps
  DirModel DirProps CompressModel RfileModel RfileSpec RfileProofs.
Import ListNotations.
Local Open Scope Z_scope.

Lemma set_nth_nth {A} (l : list A) i v j :
  nth_error (set_nth l i v) j = if (j =? i)%nat && (i <? length l)%nat then Some v else nth_error l j.
Proof.
  revert i j; induction l as [|x l IH]; intros i j.
  - simpl. rewrite andb_false_r. reflexivity.
  - destruct i as [|i]; cbn [set_nth length].
    + destruct j; reflexivity.
    + destruct j as [|j]; cbn [nth_error]; [reflexivity|]. rewrite IH.
      change (S j =? S i)%nat with (j =? i)%nat. change (S i <? S (length l))%nat with (i <? length l)%nat. reflexivity.
Qed.
Lemma set_nth_length {A} (l : list A) i v : length (set_nth l i v) = length l.
Proof. revert i; induction l as [|x l IH]; intros [|i]; simpl; auto. Qed.
Lemma set_nth_map {A B} (f : A -> B) l i v : map f (set_nth l i v) = set_nth (map f l) i (f v).
Proof. revert i; induction l as [|x l IH]; intros [|i]; simpl; auto. now rewrite IH. Qed.
Lemma set_nth_id {A} (l : list A) i v : nth_error l i = Some v -> set_nth l i v = l.
Proof. revert i; induction l as [|x l IH]; intros [|i] H; simpl in *; try congruence. f_equal; auto. Qed.
Lemma dir_at_nth f i d : nth_error (wDirs f) i = Some d -> dir_at f i = d.
Proof. intros H. unfold dir_at. now apply nth_error_nth. Qed.

Lemma tstringSizeof_pos v : 1 <= tstringSizeof v.
Proof. unfold tstringSizeof. pose proof (zlen_nonneg v). destruct (_ <? _); lia. Qed.
Lemma enc_len_pos a b c : 29 <= enc_len a b c.
Proof.
  unfold enc_len. pose proof (tstringSizeof_pos a). pose proof (tstringSizeof_pos b). pose proof (tstringSizeof_pos c). lia.
Qed.
Lemma keylenFor_len name title class b eof : class <> sTBasket ->
  keylenFor name title class b eof = enc_len name title class + (if b || (kStartBigFile <? eof) then 8 else 0).
Proof.
  intros N. unfold keylenFor, enc_len. destruct (str_eqb_spec class sTBasket); [contradiction|].
  destruct (b || _); lia.
Qed.

Definition ent (k : fkey) : entry := mkEntry (kName (fKey k)) (kTitle (fKey k)) (kClass (fKey k)) (fObj k).
Definition view (f : wfile) : store := map (fun d => map ent (wKeys d)) (wDirs f).
Definition area (h : dirhdr) : Z := dSeekdir h + dNbytesname h.
Definition apart (a la b lb : Z) : Prop := a + la <= b \/ b + lb <= a.
Definition hsize : Z := 60.

Section Inv.
  Variable junk : nat -> Z.
  Variable cdc : codec.
  Variable srt : list (dkey nat) -> list (dkey nat).
  Variable fname : str.
  Variable compr : Z.

  Record key_wf (e : Z) (k : key) : Prop := {
    kw_rvers : kRvers k = 4;
    kw_date : date_ok (kDate k);
    kw_len : kKeylen k = enc_len (kName k) (kTitle k) (kClass k);
    kw_short : kKeylen k < maxkey;
    kw_cyc : 1 <= kCycle k <= 32767;
    kw_seek : 100 <= kSeekkey k;
    kw_end : kSeekkey k + kNbytes k <= e;
    kw_nb : kKeylen k <= kNbytes k;
    kw_obj : 0 <= kObjlen k < 2 ^ 31;
    kw_pdir : 0 <= kSeekpdir k <= e;
    kw_strs : str_ok (kClass k) /\ str_ok (kName k) /\ str_ok (kTitle k) }.
  Definition leaf_wf (d : list Z) (k : key) (mar : Z -> option (list Z)) : Prop :=
    exists p out, mar (kKeylen k) = Some p /\ loads cdc p out /\ kObjlen k = zlen p /\ kNbytes k = kKeylen k + zlen out /\
      at_disk d (kSeekkey k + kKeylen k) out /\ kClass k <> sTDirectory /\ kClass k <> sTDirectoryFile.
  Definition dirkey_wf (k : key) (h : dirhdr) : Prop :=
    kSeekkey k = dSeekdir h /\ kKeylen k = dNbytesname h /\ kObjlen k = hsize /\ kNbytes k = kKeylen k + hsize /\
    kClass k = sTDirectory.
  Record dir_wf (e : Z) (d : wdir) : Prop := {
    dw_rvers : dRvers (wHdr d) = 5;
    dw_dates : date_ok (dCtime (wHdr d)) /\ date_ok (dMtime (wHdr d));
    dw_seek : 100 <= dSeekdir (wHdr d);
    dw_nbn : 0 <= dNbytesname (wHdr d) < 2 ^ 15;
    dw_end : area (wHdr d) + hsize <= e;
    dw_par : 0 <= dSeekparent (wHdr d) <= e;
    dw_uuid : dUuid (wHdr d) = uuid0;
    dw_name : str_ok (wName d) /\ str_ok (wTitle d);
    dw_len : enc_len (wName d) (wTitle d) sTDirectory < maxkey;
    dw_cyc : cyc_ok (map fKey (wKeys d));
    dw_sum : fold_right Z.add 0 (map (fun k => kKeylen (fKey k)) (wKeys d)) <= e }.
  Record good (f : wfile) : Prop := {
    g_end : 100 <= wEnd f;
    g_spans : spans (wSpace f) = [mkSeg (wEnd f) kStartBigFile];
    g_misc : wCompr f = compr /\ wId f = fname /\ wUnits f = 4 /\ wSeekinfo f = 0 /\ wSeekfree f = 0;
    g_nbn : 10 <= wNbytesname f <= 1000;
    g_root : exists d, nth_error (wDirs f) 0 = Some d /\ wName d = fname /\ wTitle d = [] /\ dSeekdir (wHdr d) = 100 /\
      dNbytesname (wHdr d) = wNbytesname f;
    g_rootkey : exists k, at_disk (wDisk f) 100 (enc_key k) /\ zlen (enc_key k) <= wNbytesname f /\
      key_ok k /\ kRvers k = 4 /\ kName k = fname /\ kTitle k = [];
    g_dirs : forall i d, nth_error (wDirs f) i = Some d -> dir_wf (wEnd f) d;
    g_keys : forall i d k, nth_error (wDirs f) i = Some d -> In k (wKeys d) -> key_wf (wEnd f) (fKey k);
    g_leaf : forall i d k mar, nth_error (wDirs f) i = Some d -> In k (wKeys d) -> fObj k = CObj mar ->
      leaf_wf (wDisk f) (fKey k) mar;
    g_dirkey : forall i d k j, nth_error (wDirs f) i = Some d -> In k (wKeys d) -> fObj k = CDir j ->
      exists dj, nth_error (wDirs f) j = Some dj /\ dirkey_wf (fKey k) (wHdr dj);
    g_sep1 : forall i j di dj, i <> j -> nth_error (wDirs f) i = Some di -> nth_error (wDirs f) j = Some dj ->
      apart (area (wHdr di)) hsize (area (wHdr dj)) hsize;
    g_sep2 : forall i j di dj k mar, nth_error (wDirs f) i = Some di -> nth_error (wDirs f) j = Some dj ->
      In k (wKeys dj) -> fObj k = CObj mar -> apart (area (wHdr di)) hsize (kSeekkey (fKey k)) (kNbytes (fKey k));
    g_sep3 : forall i d, nth_error (wDirs f) i = Some d -> 100 + wNbytesname f <= area (wHdr d);
    g_sub : forall j, (0 < j < length (wDirs f))%nat ->
      exists i d, (i < j)%nat /\ nth_error (wDirs f) i = Some d /\ In j (wSubs d);
    g_subs : forall i d j, nth_error (wDirs f) i = Some d -> In j (wSubs d) -> (i < j < length (wDirs f))%nat }.

  (* ---- placing and writing a key ---- *)
  Definition longer (f : wfile) (n : Z) : wfile := s_space f (mkFs (wEnd f + n) [mkSeg (wEnd f + n) kStartBigFile]).
  Lemma setEnd_single f pos : spans (wSpace f) = [mkSeg (wEnd f) kStartBigFile] ->
    setEnd pos (wSpace f) = (mkFs pos [mkSeg pos kStartBigFile], false).
  Proof. intros E. unfold setEnd. rewrite E. reflexivity. Qed.
  Lemma newKey_spec seekpdir name title class objlen now f : spans (wSpace f) = [mkSeg (wEnd f) kStartBigFile] ->
    dRvers (wHdr (dir_at f 0)) = 5 -> wEnd f <= kStartBigFile -> class <> sTBasket -> 0 < objlen ->
    objlen + enc_len name title class < 2 ^ 31 ->
    newKey seekpdir name title class objlen now f =
    Ok (mkKey (objlen + enc_len name title class) 4 objlen now (enc_len name title class) 1 (wEnd f) seekpdir class name title,
        longer f (objlen + enc_len name title class)).
  Proof.
    intros SP V L NB P Sz. unfold newKey. cbv zeta. rewrite keylenFor_len by auto. unfold dBig. rewrite V.
    destruct (Z.ltb_spec kStartBigFile (wEnd f)); [lia|]. cbn [Z.ltb Z.compare Pos.compare Pos.compare_cont orb].
    rewrite Z.add_0_r. pose proof (enc_len_pos name title class). rewrite wrapS_id by (unfold inS; simpl; lia).
    destruct (Z.ltb_spec 0 objlen); [|lia]. rewrite setEnd_single by auto. reflexivity.
  Qed.
  Lemma wire_small k : kSeekkey k <= kStartBigFile -> 0 <= kKeylen k < 2 ^ 15 -> wire k = k.
  Proof.
    intros A B. unfold wire, bump. destruct (Z.ltb_spec kStartBigFile (kSeekkey k)); [lia|].
    rewrite wrapS_id by (unfold inS; simpl; lia). now destruct k.
  Qed.
  Lemma writeFile_spec k buf f : 0 <= kNbytes k -> date_ok (kDate k) -> kSeekkey k <= kStartBigFile ->
    0 <= kKeylen k < 2 ^ 15 ->
    writeFile junk k buf f =
    Ok (s_disk f (writeAt (writeAt (wDisk f) (kSeekkey k) (enc_key k)) (kSeekkey k + kKeylen k) buf)).
  Proof.
    intros N D A B. unfold writeFile. rewrite (fill_emits _ _ (enc_key k)); auto.
    pose proof (marshalKey_emits junk k N D) as E. rewrite wire_small in E by auto. exact E.
  Qed.

  (* ---- adding a key for an object ---- *)
  Definition kept (e : Z) (d d' : list Z) : Prop :=
    forall p x, 0 <= p -> p + zlen x <= e -> at_disk d p x -> at_disk d' p x.
  Lemma kept_writeAt e d pos bs : 0 <= e -> e <= pos -> kept e d (writeAt d pos bs).
  Proof. intros E L p x P X A. apply writeAt_other; auto; lia. Qed.
  Lemma kept_trans e a b c : kept e a b -> kept e b c -> kept e a c.
  Proof. intros A B p x P X H. apply B, A; auto. Qed.

  Lemma key_wf_mono e e' k : e <= e' -> key_wf e k -> key_wf e' k.
  Proof. intros L [A B C D E F G H I J K]. constructor; auto; lia. Qed.
  Lemma leaf_kept e d d' k mar : kept e d d' -> key_wf e k -> leaf_wf d k mar -> leaf_wf d' k mar.
  Proof.
    intros K W (p & out & A & B & C & D & E & F & G). exists p, out. repeat (split; auto).
    pose proof (enc_len_pos (kName k) (kTitle k) (kClass k)). destruct W.
    apply K; auto; lia.
  Qed.
  Lemma fold_snoc (g : fkey -> Z) l k :
    fold_right Z.add 0 (map g (l ++ [k])) = fold_right Z.add 0 (map g l) + g k.
  Proof. induction l as [|x l IH]; simpl; [lia|]. rewrite IH. lia. Qed.

  Lemma good_disk f d' : good f -> kept (wEnd f) (wDisk f) d' -> good (s_disk f d').
  Proof.
    intros [E SP M NB Rt Rk Dw Kw Lf Dk S1 S2 S3 Sb Sbs] K. constructor; auto.
    - destruct Rk as (k & A & B & C). exists k. split; auto. apply K; auto; [lia|].
      destruct Rt as (d & Nd & _ & _ & Sk & Nn). pose proof (Dw 0%nat d Nd). destruct H. unfold area, hsize in *.
      change (wNbytesname (s_disk f d')) with (wNbytesname f) in B. lia.
    - intros i d k mar N I O. eapply leaf_kept; [exact K|eauto|eauto].
  Qed.
  Lemma good_longer f n : good f -> 0 <= n -> good (longer f n).
  Proof.
    intros [E SP M NB Rt Rk Dw Kw Lf Dk S1 S2 S3 Sb Sbs] P.
    assert (EE : wEnd (longer f n) = wEnd f + n) by reflexivity.
    constructor; auto; try (rewrite EE; lia); try reflexivity.
    - intros i d N. specialize (Dw i d N). destruct Dw. rewrite EE. constructor; auto; lia.
    - intros i d k N I. rewrite EE. eapply key_wf_mono; [|eapply Kw; eauto]. lia.
  Qed.

  Lemma add_leaf_dirs (ds : list wdir) i d k j d2 : nth_error ds i = Some d ->
    nth_error (set_nth ds i (s_keys d (wKeys d ++ [k]))) j = Some d2 ->
    exists d0, nth_error ds j = Some d0 /\ wHdr d2 = wHdr d0 /\ wName d2 = wName d0 /\ wTitle d2 = wTitle d0 /\
      wSubs d2 = wSubs d0 /\ (j <> i /\ wKeys d2 = wKeys d0 \/ j = i /\ d0 = d /\ wKeys d2 = wKeys d ++ [k]).
  Proof.
    intros N H. rewrite set_nth_nth in H. destruct (Nat.eqb_spec j i) as [->|NE].
    - assert (i < length ds)%nat by (apply nth_error_Some; congruence). destruct (Nat.ltb_spec i (length ds)); [|lia].
      cbn [andb] in H. injection H as <-. exists d. repeat (split; auto).
    - cbn [andb] in H. exists d2. repeat (split; auto).
  Qed.
  Lemma add_leaf_dirs' (ds : list wdir) i d k j d0 : nth_error ds i = Some d -> nth_error ds j = Some d0 ->
    exists d2, nth_error (set_nth ds i (s_keys d (wKeys d ++ [k]))) j = Some d2 /\ wHdr d2 = wHdr d0 /\
      wName d2 = wName d0 /\ wTitle d2 = wTitle d0 /\ wSubs d2 = wSubs d0.
  Proof.
    intros N H. rewrite set_nth_nth. destruct (Nat.eqb_spec j i) as [->|NE].
    - assert (i < length ds)%nat by (apply nth_error_Some; congruence). destruct (Nat.ltb_spec i (length ds)); [|lia].
      cbn [andb]. assert (d0 = d) by congruence. subst d0. eexists; split; [reflexivity|]. repeat split.
    - cbn [andb]. eauto 10.
  Qed.

  Lemma add_leaf_good f i d k mar d' : good f -> nth_error (wDirs f) i = Some d -> 0 <= kNbytes k ->
    key_wf (wEnd f + kNbytes k) k -> kSeekkey k = wEnd f -> cyc_ok (map fKey (wKeys d) ++ [k]) ->
    kept (wEnd f) (wDisk f) d' -> leaf_wf d' k mar ->
    good (set_dir (s_disk (longer f (kNbytes k)) d') i (s_keys d (wKeys d ++ [mkFKey k (CObj mar)]))).
  Proof.
    intros G N Pn Kk Sk Cy Ke Lk.
    pose proof G as [E SP M NB Rt Rk Dw Kw Lf Dk S1 S2 S3 Sb Sbs].
    assert (EE : forall x, wEnd (set_dir (s_disk (longer f (kNbytes k)) d') i x) = wEnd f + kNbytes k) by reflexivity.
    assert (DD : forall x, wDirs (set_dir (s_disk (longer f (kNbytes k)) d') i x) = set_nth (wDirs f) i x) by reflexivity.
    set (k' := mkFKey k (CObj mar)).
    assert (IN : forall j d2 k0, nth_error (set_nth (wDirs f) i (s_keys d (wKeys d ++ [k']))) j = Some d2 -> In k0 (wKeys d2) ->
      k0 = k' \/ exists d0, nth_error (wDirs f) j = Some d0 /\ In k0 (wKeys d0)).
    { intros j d2 k0 H I. destruct (add_leaf_dirs _ _ _ _ _ _ N H) as (d0 & N0 & _ & _ & _ & _ & [(_ & K0)|(-> & -> & K0)]).
      - right. exists d0. rewrite <- K0. auto.
      - rewrite K0 in I. apply in_app_or in I as [I|[<-|[]]]; [right; eauto|left; reflexivity]. }
    constructor; rewrite ?EE, ?DD; auto; try lia.
    - destruct Rt as (d0 & N0 & A & B & C & D).
      destruct (add_leaf_dirs' _ _ _ k' _ _ N N0) as (d2 & N2 & H1 & H2 & H3 & H4). exists d2.
      rewrite H1, H2, H3. auto.
    - destruct Rk as (rk & A & B & C). exists rk. split; auto. apply Ke; auto; [lia|].
      destruct Rt as (d0 & N0 & _ & _ & Sk0 & Nn). pose proof (Dw 0%nat d0 N0) as W. destruct W. unfold area, hsize in *.
      change (wNbytesname (set_dir (s_disk (longer f (kNbytes k)) d') i (s_keys d (wKeys d ++ [k'])))) with (wNbytesname f) in B. lia.
    - intros j d2 H. destruct (add_leaf_dirs _ _ _ _ _ _ N H) as (d0 & N0 & H1 & H2 & H3 & H4 & H5).
      specialize (Dw j d0 N0). destruct Dw. constructor; rewrite ?H1, ?H2, ?H3; auto; try lia.
      + destruct H5 as [(_ & ->)|(-> & -> & ->)]; auto. now rewrite map_app.
      + destruct H5 as [(_ & ->)|(-> & -> & ->)]; [lia|]. rewrite fold_snoc. cbn [fKey k']. destruct Kk. lia.
    - intros j d2 k0 H I. destruct (IN _ _ _ H I) as [->|(d0 & N0 & I0)]; [exact Kk|].
      eapply key_wf_mono; [|eapply Kw; eauto]. lia.
    - intros j d2 k0 m H I O. destruct (IN _ _ _ H I) as [->|(d0 & N0 & I0)].
      + injection O as <-. exact Lk.
      + eapply leaf_kept; [exact Ke|eapply Kw; eauto|eapply Lf; eauto].
    - intros j d2 k0 j2 H I O. destruct (IN _ _ _ H I) as [->|(d0 & N0 & I0)]; [discriminate O|].
      destruct (Dk _ _ _ _ N0 I0 O) as (dj & Nj & W).
      destruct (add_leaf_dirs' _ _ _ k' _ _ N Nj) as (d3 & N3 & H1 & _). exists d3. split; auto. now rewrite H1.
    - intros a b da db NE Ha Hb.
      destruct (add_leaf_dirs _ _ _ _ _ _ N Ha) as (da0 & Na & Ha1 & _).
      destruct (add_leaf_dirs _ _ _ _ _ _ N Hb) as (db0 & Nb & Hb1 & _). rewrite Ha1, Hb1. eauto.
    - intros a b da db k0 m Ha Hb I O.
      destruct (add_leaf_dirs _ _ _ _ _ _ N Ha) as (da0 & Na & Ha1 & _). rewrite Ha1.
      destruct (IN _ _ _ Hb I) as [->|(d0 & N0 & I0)]; [|eauto].
      cbn [fKey k']. left. rewrite Sk. apply (dw_end _ _ (Dw _ _ Na)).
    - intros j d2 H. destruct (add_leaf_dirs _ _ _ _ _ _ N H) as (d0 & N0 & H1 & _). rewrite H1.
      exact (S3 _ _ N0).
    - intros j. rewrite set_nth_length. intros L. destruct (Sb j L) as (i0 & d0 & L0 & N0 & I0).
      destruct (add_leaf_dirs' _ _ _ k' _ _ N N0) as (d2 & N2 & _ & _ & _ & H4). exists i0, d2. rewrite H4. auto.
    - intros j d2 j2 H I. rewrite set_nth_length. destruct (add_leaf_dirs _ _ _ _ _ _ N H) as (d0 & N0 & _ & _ & _ & H4 & _).
      rewrite H4 in I. eauto.
  Qed.

  (* ---- Put ---- *)
  Definition one_span (f : wfile) : Prop := spans (wSpace f) = [mkSeg (wEnd f) kStartBigFile].
  Lemma put_cases f i d name o now f' b : one_span f -> nth_error (wDirs f) i = Some d ->
    Put junk cdc i name o now f = Ok (f', b) ->
    (b = false /\ f' = f) \/
    (b = true /\ exists cyc p out k f1,
       scan (put_as name o) (oClass o) 0 (labels 0 (map fKey (wKeys d))) = Some cyc /\
       oData o (keylenFor (put_as name o) (put_title o) (GoName2Cxx (oClass o)) (dBig d) (wEnd f)) = Some p /\
       Compress cdc p (wCompr f) = Ok (Some out) /\
       k = newKeyFromBuf (put_as name o) (put_title o) (GoName2Cxx (oClass o)) (wrapS 16 (cyc + 1)) (wrapS 32 (zlen p))
             (wrapS 32 (zlen out)) (dBig d) (dSeekdir (wHdr d)) (wEnd f) now /\
       writeFile junk k out (longer f (kNbytes k)) = Ok f1 /\
       f' = set_dir f1 i (s_keys d (wKeys d ++ [mkFKey k (CObj (oData o))]))).
  Proof.
    intros SP N H. unfold Put in H. rewrite (dir_at_nth _ _ _ N) in H.
    destruct (has_byte slash name); [injection H as <- <-; auto|].
    assert (E : (match oNamed o with Some (n, t) => (match name with [] => n | _ => name end, t) | None => (name, []) end)
                = (put_as name o, put_title o)).
    { unfold put_as, put_title. destruct (oNamed o) as [[n t]|]; destruct name; reflexivity. }
    rewrite E in H. clear E. set (nm := put_as name o) in *. destruct nm as [|n0 nm0] eqn:En; [injection H as <- <-; auto|].
    rewrite <- En in *. clear En n0 nm0.
    destruct (scan nm (oClass o) 0 _) as [cyc|] eqn:Sc; [|injection H as <- <-; auto].
    destruct (oData o _) as [p|] eqn:Dp; [|injection H as <- <-; auto].
    unfold newKeyBuf in H. destruct (Compress cdc p (wCompr f)) as [[out|]|] eqn:Cm; cbn [rbind] in H; [| |discriminate H].
    2:{ injection H as <- <-; auto. }
    rewrite setEnd_single in H by exact SP. cbn [rbind] in H.
    set (k := newKeyFromBuf _ _ _ _ _ _ _ _ _ _) in *.
    change (s_space f (mkFs (wEnd f + kNbytes k) [mkSeg (wEnd f + kNbytes k) kStartBigFile])) with (longer f (kNbytes k)) in H.
    destruct (writeFile junk k out (longer f (kNbytes k))) as [f1|] eqn:W; cbn [rbind] in H; [|discriminate H].
    injection H as <- <-. right. split; auto. exists cyc, p, out, k, f1. repeat (split; auto).
  Qed.
  Lemma writeFile_fields k buf f f1 : writeFile junk k buf f = Ok f1 -> exists d', f1 = s_disk f d'.
  Proof.
    unfold writeFile. destruct (fill _ _); cbn [rbind]; [|discriminate]. intros H. injection H as <-. eauto.
  Qed.
  Lemma put_mono f i d name o now f' b : one_span f -> wCompr f = compr -> nth_error (wDirs f) i = Some d ->
    op_ok cdc compr (OPut i name o now) -> Put junk cdc i name o now f = Ok (f', b) -> wEnd f <= wEnd f' /\ one_span f'.
  Proof.
    intros SP CP N (_ & _ & _ & _ & Le & _ & _ & _ & NB & Pl) H.
    apply (put_cases _ _ _ _ _ _ _ _ SP N) in H as [(-> & ->)|(-> & cyc & p & out & k & f1 & Sc & Dp & Cm & Ek & W & ->)]; [split; auto; lia|].
    destruct (writeFile_fields _ _ _ _ W) as (d' & ->). split; [|reflexivity].
    change (wEnd (set_dir _ _ _)) with (wEnd f + kNbytes k). rewrite CP in Cm.
    destruct (Pl _ _ Dp) as (_ & Pl2). destruct (Pl2 _ Cm) as (Lo & _).
    subst k. unfold newKeyFromBuf. cbn [kNbytes]. rewrite keylenFor_len by auto. pose proof (zlen_nonneg out).
    pose proof (enc_len_pos (put_as name o) (put_title o) (GoName2Cxx (oClass o))). unfold maxkey in *.
    rewrite (wrapS_id 32 (zlen out)) by (unfold inS; simpl; lia).
    rewrite wrapS_id; [|lia|unfold inS; simpl; destruct (_ || _); lia]. destruct (_ || _); lia.
  Qed.
  Lemma cyc_ok_snoc ks k : cyc_ok ks -> kCycle k = zlen (filter (has_name (kName k)) ks) + 1 -> cyc_ok (ks ++ [k]).
  Proof.
    intros C E name. rewrite filter_app, map_app, app_length, C. cbn [filter].
    change (has_name name k) with (str_eqb (kName k) name).
    destruct (str_eqb_spec (kName k) name) as [<-|]; cbn [map length].
    - rewrite E, Nat.add_1_r, zseq_snoc. unfold zlen. do 2 f_equal. lia.
    - now rewrite app_nil_r, Nat.add_0_r.
  Qed.
  Lemma named_ent name ks : length (named name (map ent ks)) = length (filter (has_name name) (map fKey ks)).
  Proof.
    induction ks as [|k ks IH]; [reflexivity|]. cbn [map named filter]. unfold has_name at 1. cbn [ent eName].
    destruct (str_eqb (kName (fKey k)) name); cbn [length]; auto.
  Qed.
  Lemma scan_cyc name class ks c : cyc_ok ks -> scan name class 0 (labels 0 ks) = Some c ->
    c = zlen (filter (has_name name) ks).
  Proof.
    intros C H. apply (scan_max _ _ _ _ _ (labels_inv name ks C)) in H. rewrite H. unfold zlen.
    now rewrite map_length, positions_length.
  Qed.
  Lemma view_add f i d k : nth_error (wDirs f) i = Some d ->
    map (fun d => map ent (wKeys d)) (set_nth (wDirs f) i (s_keys d (wKeys d ++ [k]))) = add_entry i (ent k) (view f).
  Proof.
    intros N. unfold add_entry, view. rewrite set_nth_map. f_equal. cbn [s_keys wKeys]. rewrite map_app. f_equal.
    symmetry. apply nth_error_nth. now rewrite nth_error_map, N.
  Qed.
  Lemma put_good f i d name o now f' b : good f -> nth_error (wDirs f) i = Some d -> op_ok cdc compr (OPut i name o now) ->
    Put junk cdc i name o now f = Ok (f', b) -> wEnd f' <= kStartBigFile ->
    (forall nm, zlen (named nm (nth i (apply (OPut i name o now) b (view f)) [])) <= 32767) ->
    good f' /\ view f' = apply (OPut i name o now) b (view f).
  Proof.
    intros G N OK H Le Cnt. pose proof OK as (Dt & Sn & St & Sc & Ln & NS & C1 & C2 & NB & Pl).
    destruct (g_misc _ G) as (CP & _ & _).
    pose proof (put_mono _ _ _ _ _ _ _ _ (g_spans _ G) CP N OK H) as (Mo & _).
    apply (put_cases _ _ _ _ _ _ _ _ (g_spans _ G) N) in H as [(-> & ->)|(-> & cyc & p & out & k & f1 & Sca & Dp & Cm & Ek & W & ->)]; [split; auto|].
    assert (Dw : dir_wf (wEnd f) d) by (eapply g_dirs; eauto).
    rewrite CP in Cm. pose proof (g_end _ G) as Ge.
    destruct (Pl _ _ Dp) as (Lp & Pl2). destruct (Pl2 _ Cm) as (Lo & LD). pose proof (zlen_nonneg p). pose proof (zlen_nonneg out).
    pose proof (enc_len_pos (put_as name o) (put_title o) (GoName2Cxx (oClass o))) as EP. unfold maxkey in *.
    assert (BF : dBig d || (kStartBigFile <? wEnd f) = false).
    { unfold dBig. rewrite (dw_rvers _ _ Dw). destruct (Z.ltb_spec kStartBigFile (wEnd f)); [lia|reflexivity]. }
    rewrite keylenFor_len in Dp by auto. rewrite BF, Z.add_0_r in Dp.
    unfold newKeyFromBuf in Ek. rewrite keylenFor_len in Ek by auto. rewrite BF, Z.add_0_r in Ek.
    rewrite (wrapS_id 32 (zlen out)) in Ek by (unfold inS; simpl; lia).
    rewrite (wrapS_id 32 (zlen p)) in Ek by (unfold inS; simpl; lia).
    rewrite (wrapS_id 32 (_ + _)) in Ek by (unfold inS; simpl; lia).
    destruct (Z.ltb_spec kStartBigFile (wEnd f)) as [X|_] in Ek; [lia|].
    assert (CY : cyc = zlen (filter (has_name (put_as name o)) (map fKey (wKeys d)))) by (eapply scan_cyc; [apply Dw|eauto]).
    assert (VE : forall k0, kName k0 = put_as name o -> kTitle k0 = put_title o -> kClass k0 = GoName2Cxx (oClass o) ->
              add_entry i (ent (mkFKey k0 (CObj (oData o)))) (view f) = apply (OPut i name o now) true (view f)).
    { intros k0 E1 E2 E3. cbn [apply negb]. unfold ent. cbn [fKey fObj]. now rewrite E1, E2, E3. }
    assert (CB : 0 <= cyc <= 32766).
    { specialize (Cnt (put_as name o)). rewrite <- (VE k) in Cnt by (rewrite Ek; reflexivity).
      unfold add_entry in Cnt. erewrite nth_error_nth in Cnt.
      2:{ rewrite set_nth_nth. rewrite Nat.eqb_refl. unfold view. rewrite map_length.
          assert (i < length (wDirs f))%nat by (apply nth_error_Some; congruence).
          destruct (Nat.ltb_spec i (length (wDirs f))); [reflexivity|lia]. }
      unfold named in Cnt. rewrite filter_app in Cnt. cbn [filter ent fKey eName] in Cnt.
      replace (kName k) with (put_as name o) in Cnt by (rewrite Ek; reflexivity).
      destruct (str_eqb_spec (put_as name o) (put_as name o)); [|congruence].
      erewrite nth_error_nth in Cnt by (unfold view; rewrite nth_error_map, N; reflexivity).
      pose proof (named_ent (put_as name o) (wKeys d)) as NE. unfold named in NE.
      rewrite zlen_app in Cnt. unfold zlen in *. cbn [length] in Cnt. lia. }
    rewrite wrapS_id in Ek by (unfold inS; simpl; lia).
    rewrite writeFile_spec in W by (rewrite Ek; cbn [kNbytes kDate kSeekkey kKeylen]; auto; lia).
    injection W as <-.
    change (wDisk (longer f (kNbytes k))) with (wDisk f) in *.
    set (d' := writeAt _ _ out) in *.
    change (wEnd (set_dir _ _ _)) with (wEnd f + kNbytes k) in Le.
    assert (EKS : zlen (enc_key k) = kKeylen k) by (rewrite enc_key_size, Ek; unfold enc_len; simpl; lia).
    assert (KP : kept (wEnd f) (wDisk f) d').
    { unfold d'. apply (kept_trans _ _ (writeAt (wDisk f) (kSeekkey k) (enc_key k))).
      - apply kept_writeAt; [lia|]. rewrite Ek; cbn [kSeekkey]; lia.
      - apply kept_writeAt; [lia|]. rewrite Ek; cbn [kSeekkey kKeylen]; lia. }
    split.
    - apply (add_leaf_good f i d k (oData o) d' G N); auto.
      + rewrite Ek; cbn [kNbytes]; lia.
      + rewrite Ek. cbn [kNbytes]. constructor; cbn [kRvers kDate kKeylen kName kTitle kClass kCycle kSeekkey kNbytes kObjlen kSeekpdir]; auto; try lia.
        destruct Dw. unfold area, hsize in *. lia.
      + rewrite Ek; reflexivity.
      + apply cyc_ok_snoc; [apply Dw|]. rewrite Ek. cbn [kCycle kName]. lia.
      + exists p, out. replace (kKeylen k) with (enc_len (put_as name o) (put_title o) (GoName2Cxx (oClass o))) by (rewrite Ek; reflexivity).
        repeat (split; auto); try (rewrite Ek; cbn [kObjlen kNbytes kClass]; auto; lia).
        unfold d'. replace (kKeylen k) with (enc_len (put_as name o) (put_title o) (GoName2Cxx (oClass o))) by (rewrite Ek; reflexivity).
        apply writeAt_at.
    - etransitivity; [apply (view_add f i d _ N)|]. apply VE; rewrite Ek; reflexivity.
  Qed.

  (* ---- Mkdir ---- *)
  Lemma newKey_mono seekpdir name title class objlen now f k f' : one_span f -> class <> sTBasket ->
    enc_len name title class < maxkey -> objlen < 2 ^ 31 - 2 ^ 15 ->
    newKey seekpdir name title class objlen now f = Ok (k, f') ->
    exists n, 0 <= n /\ (f' = longer f n \/ f' = f /\ n = 0).
  Proof.
    intros SP NB L Sz H. unfold newKey in H. cbv zeta in H. destruct (Z.ltb_spec 0 objlen).
    - rewrite setEnd_single in H by exact SP. injection H as _ <-.
      rewrite keylenFor_len by auto. pose proof (enc_len_pos name title class). unfold maxkey in L.
      eexists; split; [|left; reflexivity].
      rewrite wrapS_id; [|lia|unfold inS; simpl; destruct (_ || _); lia]. destruct (_ || _); lia.
    - injection H as _ <-. exists 0. split; [lia|auto].
  Qed.
  Lemma one_span_longer f n : one_span (longer f n).
  Proof. reflexivity. Qed.
  Lemma mkdir_mono f i d name now f' b : one_span f -> nth_error (wDirs f) i = Some d ->
    op_ok cdc compr (OMkdir i name now) -> Mkdir junk srt i name now f = Ok (f', b) -> wEnd f <= wEnd f' /\ one_span f'.
  Proof.
    intros SP N (_ & _ & _ & Le) H. unfold Mkdir in H.
    destruct (pick srt name _) as [g|]; cbn [rbind] in H; [|discriminate H].
    destruct g; [injection H as <- <-; split; auto; lia|].
    destruct (has_byte slash name); [injection H as <- <-; split; auto; lia|].
    destruct (newDirectoryFile junk i name now f) as [f1|] eqn:Nd; cbn [rbind] in H; [|discriminate H].
    injection H as <- <-.
    unfold newDirectoryFile in Nd.
    destruct (newKey _ name name sTDirectory _ now f) as [[k f2]|] eqn:Nk; cbn [rbind] in Nd; [|discriminate Nd].
    apply newKey_mono in Nk as (n & Pn & Ef); auto; [|discriminate|vm_compute; reflexivity].
    destruct (fill _ _) as [buf|]; cbn [rbind] in Nd; [|discriminate Nd].
    destruct (writeFile_fields _ _ _ _ Nd) as (d' & ->).
    destruct Ef as [->|(-> & ->)]; (split; [|try reflexivity; exact SP]).
    - change (wEnd (set_dir _ _ _)) with (wEnd f + n). lia.
    - change (wEnd (set_dir _ _ _)) with (wEnd f). lia.
  Qed.

  Lemma add_dir_dirs (ds : list wdir) i d x nd j d2 : nth_error ds i = Some d ->
    nth_error (set_nth ds i x ++ [nd]) j = Some d2 ->
    (j = length ds /\ d2 = nd) \/ ((j < length ds)%nat /\ ((j = i /\ d2 = x) \/ (j <> i /\ nth_error ds j = Some d2))).
  Proof.
    intros N H. assert (i < length ds)%nat by (apply nth_error_Some; congruence).
    rewrite nth_error_app_if, set_nth_length in H. destruct (Nat.ltb_spec j (length ds)).
    - right. split; auto. rewrite set_nth_nth in H. destruct (Nat.eqb_spec j i) as [->|NE]; [|right; auto].
      left. destruct (Nat.ltb_spec i (length ds)); [|lia]. cbn [andb] in H. split; congruence.
    - left. destruct (j - length ds)%nat as [|m] eqn:E; [|destruct m; discriminate H]. injection H as <-. split; auto. lia.
  Qed.
  Lemma add_dir_dirs' (ds : list wdir) i d x nd j d0 : nth_error ds i = Some d -> nth_error ds j = Some d0 ->
    nth_error (set_nth ds i x ++ [nd]) j = Some (if (j =? i)%nat then x else d0).
  Proof.
    intros N H. assert (j < length ds)%nat by (apply nth_error_Some; congruence).
    rewrite nth_error_app_if, set_nth_length. destruct (Nat.ltb_spec j (length ds)); [|lia].
    rewrite set_nth_nth. destruct (Nat.eqb_spec j i) as [->|NE]; [|auto].
    destruct (Nat.ltb_spec i (length ds)); [reflexivity|lia].
  Qed.
  Lemma set_nth_twice {A} (l : list A) i a b : set_nth (set_nth l i a) i b = set_nth l i b.
  Proof. revert i; induction l as [|x l IH]; intros [|i]; simpl; auto. now rewrite IH. Qed.
  Lemma set_nth_app {A} (l m : list A) i a : (i < length l)%nat -> set_nth (l ++ m) i a = set_nth l i a ++ m.
  Proof. revert i; induction l as [|x l IH]; intros [|i] L; simpl in *; try lia; auto. rewrite IH by lia. reflexivity. Qed.

  Lemma add_dir_good f i d k nd d' : good f -> nth_error (wDirs f) i = Some d -> 0 <= kNbytes k ->
    key_wf (wEnd f + kNbytes k) k -> cyc_ok (map fKey (wKeys d) ++ [k]) ->
    kept (wEnd f) (wDisk f) d' -> dir_wf (wEnd f + kNbytes k) nd -> wKeys nd = [] -> wSubs nd = [] ->
    kSeekkey k = wEnd f -> dirkey_wf k (wHdr nd) ->
    good (s_dirs (s_disk (longer f (kNbytes k)) d')
            (set_nth (wDirs f) i (s_subs (s_keys d (wKeys d ++ [mkFKey k (CDir (length (wDirs f)))]))
                                         (wSubs d ++ [length (wDirs f)])) ++ [nd])).
  Proof.
    intros G N Pn Kk Cy Ke Dn Kn Sn Sk Dkk.
    pose proof G as [E SP M NB Rt Rk Dw Kw Lf Dk S1 S2 S3 Sb Sbs].
    set (k' := mkFKey k (CDir (length (wDirs f)))).
    set (x := s_subs (s_keys d (wKeys d ++ [k'])) (wSubs d ++ [length (wDirs f)])).
    assert (EE : forall x, wEnd (s_dirs (s_disk (longer f (kNbytes k)) d') x) = wEnd f + kNbytes k) by reflexivity.
    assert (DD : forall x, wDirs (s_dirs (s_disk (longer f (kNbytes k)) d') x) = x) by reflexivity.
    assert (Li : (i < length (wDirs f))%nat) by (apply nth_error_Some; congruence).
    assert (AR : wEnd f <= area (wHdr nd)).
    { destruct Dkk as (A & B & _). unfold area. rewrite <- A, <- B, Sk. destruct Kk.
      pose proof (enc_len_pos (kName k) (kTitle k) (kClass k)). lia. }
    (* an old directory, seen in the new list *)
    assert (OLD : forall j d2, nth_error (set_nth (wDirs f) i x ++ [nd]) j = Some d2 ->
      (j = length (wDirs f) /\ d2 = nd) \/
      exists d0, nth_error (wDirs f) j = Some d0 /\ wHdr d2 = wHdr d0 /\ wName d2 = wName d0 /\ wTitle d2 = wTitle d0 /\
        ((j <> i /\ wKeys d2 = wKeys d0 /\ wSubs d2 = wSubs d0) \/
         (j = i /\ d0 = d /\ wKeys d2 = wKeys d ++ [k'] /\ wSubs d2 = wSubs d ++ [length (wDirs f)]))).
    { intros j d2 H. destruct (add_dir_dirs _ _ _ _ _ _ _ N H) as [L|(L & [(-> & ->)|(NE & H0)])]; [auto| |]; right.
      - exists d. repeat (split; auto).
      - exists d2. repeat (split; auto). }
    assert (NEW : forall j d0, nth_error (wDirs f) j = Some d0 -> exists d2,
      nth_error (set_nth (wDirs f) i x ++ [nd]) j = Some d2 /\ wHdr d2 = wHdr d0 /\ wName d2 = wName d0 /\ wTitle d2 = wTitle d0 /\
      incl (wSubs d0) (wSubs d2)).
    { intros j d0 H. eexists; split; [apply (add_dir_dirs' _ _ _ _ _ _ _ N H)|]. destruct (Nat.eqb_spec j i) as [->|NE].
      - assert (d0 = d) by congruence. subst d0. repeat (split; auto). cbn [x s_subs wSubs]. apply incl_appl, incl_refl.
      - repeat (split; auto). apply incl_refl. }
    assert (IN : forall j d2 k0, nth_error (set_nth (wDirs f) i x ++ [nd]) j = Some d2 -> In k0 (wKeys d2) ->
      k0 = k' \/ exists d0, nth_error (wDirs f) j = Some d0 /\ In k0 (wKeys d0)).
    { intros j d2 k0 H I. destruct (OLD _ _ H) as [(-> & ->)|(d0 & N0 & _ & _ & _ & [(_ & K0 & _)|(-> & -> & K0 & _)])].
      - rewrite Kn in I. destruct I.
      - right. exists d0. rewrite <- K0. auto.
      - rewrite K0 in I. apply in_app_or in I as [I|[<-|[]]]; [right; eauto|left; reflexivity]. }
    assert (LEN : length (set_nth (wDirs f) i x ++ [nd]) = S (length (wDirs f))) by (rewrite app_length, set_nth_length; simpl; lia).
    assert (NDN : nth_error (set_nth (wDirs f) i x ++ [nd]) (length (wDirs f)) = Some nd).
    { rewrite nth_error_app2 by (rewrite set_nth_length; lia). rewrite set_nth_length, Nat.sub_diag. reflexivity. }
    constructor; rewrite ?EE, ?DD; auto; try lia.
    - destruct Rt as (d0 & N0 & A & B & C & D).
      destruct (NEW _ _ N0) as (d2 & N2 & H1 & H2 & H3 & H4). exists d2.
      rewrite H1, H2, H3. auto.
    - destruct Rk as (rk & A & B & C). exists rk. split; auto. apply Ke; auto; [lia|].
      destruct Rt as (d0 & N0 & _ & _ & Sk0 & Nn). pose proof (Dw 0%nat d0 N0) as W. destruct W. unfold area, hsize in *.
      change (wNbytesname (s_dirs (s_disk (longer f (kNbytes k)) d') (set_nth (wDirs f) i x ++ [nd]))) with (wNbytesname f) in B. lia.
    - intros j d2 H. destruct (OLD _ _ H) as [(-> & ->)|(d0 & N0 & H1 & H2 & H3 & H5)]; [exact Dn|].
      specialize (Dw j d0 N0). destruct Dw. constructor; rewrite ?H1, ?H2, ?H3; auto; try lia.
      + destruct H5 as [(_ & -> & _)|(-> & -> & -> & _)]; auto. now rewrite map_app.
      + destruct H5 as [(_ & -> & _)|(-> & -> & -> & _)]; [lia|]. rewrite fold_snoc. cbn [fKey k']. destruct Kk. lia.
    - intros j d2 k0 H I. destruct (IN _ _ _ H I) as [->|(d0 & N0 & I0)]; [exact Kk|].
      eapply key_wf_mono; [|eapply Kw; eauto]. lia.
    - intros j d2 k0 m H I O. destruct (IN _ _ _ H I) as [->|(d0 & N0 & I0)]; [discriminate O|].
      eapply leaf_kept; [exact Ke|eapply Kw; eauto|eapply Lf; eauto].
    - intros j d2 k0 j2 H I O. destruct (IN _ _ _ H I) as [->|(d0 & N0 & I0)].
      + injection O as <-. exists nd. split; auto.
      + destruct (Dk _ _ _ _ N0 I0 O) as (dj & Nj & W).
        destruct (NEW _ _ Nj) as (d3 & N3 & H1 & _). exists d3. split; auto. now rewrite H1.
    - intros a b da db NE Ha Hb.
      destruct (OLD _ _ Ha) as [(-> & ->)|(da0 & Na & Ha1 & _)]; destruct (OLD _ _ Hb) as [(-> & ->)|(db0 & Nb & Hb1 & _)].
      + congruence.
      + rewrite Hb1. right. pose proof (dw_end _ _ (Dw _ _ Nb)). lia.
      + rewrite Ha1. left. pose proof (dw_end _ _ (Dw _ _ Na)). lia.
      + rewrite Ha1, Hb1. eauto.
    - intros a b da db k0 m Ha Hb I O.
      destruct (IN _ _ _ Hb I) as [->|(d0 & N0 & I0)]; [discriminate O|].
      destruct (OLD _ _ Ha) as [(-> & ->)|(da0 & Na & Ha1 & _)].
      + right. pose proof (kw_end _ _ (Kw _ _ _ N0 I0)). lia.
      + rewrite Ha1. eauto.
    - intros j d2 H. destruct (OLD _ _ H) as [(-> & ->)|(d0 & N0 & H1 & _)].
      + destruct Rt as (d0 & N0 & _ & _ & Sk0 & Nn). pose proof (dw_end _ _ (Dw 0%nat d0 N0)) as W. unfold area, hsize in W.
        change (wNbytesname (s_dirs (s_disk (longer f (kNbytes k)) d') (set_nth (wDirs f) i x ++ [nd]))) with (wNbytesname f). lia.
      + rewrite H1. exact (S3 _ _ N0).
    - intros j. rewrite LEN. intros L.
      destruct (Nat.eq_dec j (length (wDirs f))) as [->|NE].
      + exists i, x. split; auto. split; [|cbn [x s_subs wSubs]; apply in_or_app; right; simpl; auto].
        rewrite nth_error_app1 by (rewrite set_nth_length; lia). rewrite set_nth_nth, Nat.eqb_refl.
        destruct (Nat.ltb_spec i (length (wDirs f))); [reflexivity|lia].
      + destruct (Sb j ltac:(lia)) as (i0 & d0 & L0 & N0 & I0).
        destruct (NEW _ _ N0) as (d2 & N2 & _ & _ & _ & H4). exists i0, d2. auto.
    - intros j d2 j2 H I. rewrite LEN. destruct (OLD _ _ H) as [(-> & ->)|(d0 & N0 & _ & _ & _ & [(_ & _ & S0)|(-> & -> & _ & S0)])].
      + rewrite Sn in I. destruct I.
      + rewrite S0 in I. pose proof (Sbs _ _ _ N0 I). lia.
      + rewrite S0 in I. apply in_app_or in I as [I|[<-|[]]]; [pose proof (Sbs _ _ _ N0 I); lia|lia].
  Qed.

  Lemma last_none {A} (l : list A) : List.last (map Some l) None = None -> l = [].
  Proof. induction l as [|x [|y l] IH]; simpl in *; auto; [discriminate|]. intros H. specialize (IH H). discriminate IH. Qed.
  Lemma mkdir_good f i d name now f' b : sorts srt -> good f -> nth_error (wDirs f) i = Some d -> op_ok cdc compr (OMkdir i name now) ->
    Mkdir junk srt i name now f = Ok (f', b) -> wEnd f' <= kStartBigFile ->
    good f' /\ view f' = apply (OMkdir i name now) b (view f).
  Proof.
    intros ST G N OK H Le. pose proof OK as (Dt & Sn & NS & Ln).
    pose proof (mkdir_mono _ _ _ _ _ _ _ (g_spans _ G) N OK H) as (Mo & _).
    unfold Mkdir in H. rewrite (dir_at_nth _ _ _ N) in H.
    assert (Dw : dir_wf (wEnd f) d) by (eapply g_dirs; eauto).
    rewrite (pick_latest srt name _ ST NS (dw_cyc _ _ Dw)) in H. cbn [rbind] in H.
    destruct (List.last (map Some (positions 0 name _)) None) eqn:Pk; [injection H as <- <-; auto|].
    destruct (has_byte slash name); [injection H as <- <-; auto|].
    unfold newDirectoryFile in H. cbv zeta in H. rewrite (dir_at_nth _ _ _ N) in H.
    change (recordSize rootVersion) with hsize in H.
    destruct (g_root _ G) as (d0 & N0 & Nm0 & Tt0 & Sk0 & Nn0).
    pose proof (enc_len_pos name name sTDirectory) as EP. unfold maxkey in Ln.
    rewrite newKey_spec in H; [|exact (g_spans _ G)|rewrite (dir_at_nth _ _ _ N0); exact (dw_rvers _ _ (g_dirs _ G _ _ N0))|lia|discriminate|reflexivity|unfold hsize; lia].
    cbn [rbind] in H.
    set (k := mkKey _ 4 _ _ _ _ _ _ _ _ _) in H.
    change (kKeylen k) with (enc_len name name sTDirectory) in H.
    change (kSeekkey k) with (wEnd f) in H.
    set (h := mkDir 5 now now 0 _ _ _ 0 uuid0) in H.
    rewrite (fill_emits hsize _ (enc_string (wId (longer f (hsize + enc_len name name sTDirectory))) ++
               enc_string (wTitle (dir_at (longer f (hsize + enc_len name name sTDirectory)) 0)) ++ enc_dir h)) in H.
    2: discriminate.
    2:{ apply w_seq_emits; [apply WriteString_emits|]. apply w_seq_emits; [apply WriteString_emits|].
        apply marshalDir_emits; auto. discriminate. }
    cbn [rbind] in H. rewrite writeFile_spec in H.
    2:{ change (kNbytes k) with (hsize + enc_len name name sTDirectory). unfold hsize; lia. }
    2: exact Dt.
    2:{ change (kSeekkey k) with (wEnd f). lia. }
    2:{ change (kKeylen k) with (enc_len name name sTDirectory). lia. }
    cbn [rbind] in H.
    set (buf := enc_string _ ++ _) in H.
    set (g := longer f (hsize + enc_len name name sTDirectory)) in *.
    change (wDirs g) with (wDirs f) in H. change (kSeekkey k) with (wEnd f) in H.
    change (kKeylen k) with (enc_len name name sTDirectory) in H.
    set (nd := mkWDir h name name [] []) in H.
    set (k' := mkFKey k (CDir (length (wDirs f)))) in H.
    change (wDisk (s_dirs g (set_nth (wDirs f) i (s_keys d (wKeys d ++ [k'])) ++ [nd]))) with (wDisk f) in H.
    set (dk := writeAt _ _ buf) in H.
    assert (Li : (i < length (wDirs f))%nat) by (apply nth_error_Some; congruence).
    set (f2 := s_disk _ dk) in H.
    assert (D2 : dir_at f2 i = s_keys d (wKeys d ++ [k'])).
    { apply dir_at_nth. change (wDirs f2) with (set_nth (wDirs f) i (s_keys d (wKeys d ++ [k'])) ++ [nd]).
      rewrite (add_dir_dirs' _ _ _ _ _ _ _ N N), Nat.eqb_refl. reflexivity. }
    rewrite D2 in H. injection H as <- <-.
    match goal with |- good ?X /\ _ => assert (FE : X = s_dirs (s_disk (longer f (kNbytes k)) dk)
      (set_nth (wDirs f) i (s_subs (s_keys d (wKeys d ++ [k'])) (wSubs d ++ [length (wDirs f)])) ++ [nd])) end.
    { unfold set_dir. change (wDirs f2) with (set_nth (wDirs f) i (s_keys d (wKeys d ++ [k'])) ++ [nd]).
      rewrite set_nth_app by (rewrite set_nth_length; auto). rewrite set_nth_twice. reflexivity. }
    rewrite FE. clear FE.
    assert (Pos : positions 0 name (map kName (map fKey (wKeys d))) = []) by (apply last_none; exact Pk).
    assert (Flt : filter (has_name name) (map fKey (wKeys d)) = []).
    { apply length_zero_iff_nil. rewrite <- (positions_length 0), Pos. reflexivity. }
    pose proof (g_end _ G).
    split.
    - apply add_dir_good; auto.
      + change (kNbytes k) with (hsize + enc_len name name sTDirectory). unfold hsize; lia.
      + change (kNbytes k) with (hsize + enc_len name name sTDirectory).
        unfold k. constructor; cbn [kRvers kDate kKeylen kName kTitle kClass kCycle kSeekkey kNbytes kObjlen kSeekpdir]; unfold hsize, maxkey; auto; try lia.
        * destruct Dw. unfold area, hsize in *. lia.
        * split; [|split; exact Sn]. split; [|split; [vm_compute; reflexivity|discriminate]].
          repeat (constructor; [unfold byte_ok; lia|]). constructor.
      + apply cyc_ok_snoc; [apply Dw|]. change (kName k) with name. rewrite Flt. reflexivity.
      + unfold dk. apply (kept_trans _ _ (writeAt (wDisk f) (wEnd f) (enc_key k))); apply kept_writeAt; lia.
      + change (kNbytes k) with (hsize + enc_len name name sTDirectory). destruct Dw.
        unfold nd, h. constructor; cbn [wHdr wName wTitle wKeys dRvers dCtime dMtime dSeekdir dNbytesname dSeekparent dUuid]; auto; try lia.
        * unfold area, hsize. cbn [dSeekdir dNbytesname]. lia.
        * unfold area, hsize in *. lia.
        * intros nm. reflexivity.
        * cbn [map fold_right]. unfold hsize. lia.
      + repeat split. change (kNbytes k) with (hsize + enc_len name name sTDirectory).
        change (kKeylen k) with (enc_len name name sTDirectory). lia.
    - unfold view. cbn [s_dirs wDirs]. rewrite map_app. cbn [map wKeys nd]. cbn [apply negb].
      rewrite set_nth_map. cbn [s_subs s_keys wKeys]. f_equal.
      unfold add_entry. rewrite map_length. f_equal. rewrite map_app. f_equal. symmetry. apply nth_error_nth.
      now rewrite nth_error_map, N.
  Qed.

  (* ---- a sequence of operations ---- *)
  Lemma put_compr f i d name o now f' b : one_span f -> nth_error (wDirs f) i = Some d ->
    Put junk cdc i name o now f = Ok (f', b) -> wCompr f' = wCompr f.
  Proof.
    intros SP N H.
    apply (put_cases _ _ _ _ _ _ _ _ SP N) in H as [(-> & ->)|(-> & cyc & p & out & k & f1 & Sc & Dp & Cm & Ek & W & ->)]; auto.
    destruct (writeFile_fields _ _ _ _ W) as (d' & ->). reflexivity.
  Qed.
  Lemma newKey_compr seekpdir name title class objlen now f k f' :
    newKey seekpdir name title class objlen now f = Ok (k, f') -> wCompr f' = wCompr f.
  Proof.
    unfold newKey. cbv zeta. destruct (0 <? objlen); [|intros H; injection H as _ <-; reflexivity].
    destruct (setEnd _ _) as [s [|]]; [discriminate|]. intros H. injection H as _ <-. reflexivity.
  Qed.
  Lemma mkdir_compr f i name now f' b : Mkdir junk srt i name now f = Ok (f', b) -> wCompr f' = wCompr f.
  Proof.
    intros H. unfold Mkdir in H. destruct (pick srt name _) as [g|]; cbn [rbind] in H; [|discriminate H].
    destruct g; [injection H as <- <-; auto|].
    destruct (has_byte slash name); [injection H as <- <-; auto|].
    destruct (newDirectoryFile junk i name now f) as [f1|] eqn:Nd; cbn [rbind] in H; [|discriminate H].
    injection H as <- <-.
    unfold newDirectoryFile in Nd.
    destruct (newKey _ name name sTDirectory _ now f) as [[k f2]|] eqn:Nk; cbn [rbind] in Nd; [|discriminate Nd].
    apply newKey_compr in Nk.
    destruct (fill _ _) as [buf|]; cbn [rbind] in Nd; [|discriminate Nd].
    destruct (writeFile_fields _ _ _ _ Nd) as (d' & ->). exact Nk.
  Qed.
  Lemma lt_nth {A} (l : list A) i : (i < length l)%nat -> exists d, nth_error l i = Some d.
  Proof. intros L. destruct (nth_error l i) eqn:E; eauto. apply nth_error_None in E. lia. Qed.

  Lemma step_mono o f f' b : one_span f -> wCompr f = compr -> op_ok cdc compr o -> step junk cdc srt o f = Ok (f', b) ->
    wEnd f <= wEnd f' /\ one_span f' /\ wCompr f' = compr.
  Proof.
    intros SP CP OK H. destruct o as [i name ob now|i name now]; cbn [step] in H;
      (destruct (Nat.ltb_spec i (length (wDirs f))) as [L|L]; [|injection H as <- <-; split; [lia|auto]]);
      destruct (lt_nth _ _ L) as (d & N).
    - destruct (put_mono _ _ _ _ _ _ _ _ SP CP N OK H). rewrite (put_compr _ _ _ _ _ _ _ _ SP N H). auto.
    - destruct (mkdir_mono _ _ _ _ _ _ _ SP N OK H). rewrite (mkdir_compr _ _ _ _ _ _ H). auto.
  Qed.
  Lemma run_mono ops f f' oks : one_span f -> wCompr f = compr -> Forall (op_ok cdc compr) ops ->
    run junk cdc srt ops f = Ok (f', oks) -> wEnd f <= wEnd f' /\ length oks = length ops.
  Proof.
    revert f oks; induction ops as [|o ops IH]; intros f oks SP CP OK H; cbn [run] in H.
    - injection H as <- <-. split; [lia|auto].
    - destruct (step junk cdc srt o f) as [[f1 b]|] eqn:St; cbn [rbind fst snd] in H; [|discriminate H].
      destruct (run junk cdc srt ops f1) as [[f2 oks']|] eqn:R; cbn [rbind fst snd] in H; [|discriminate H].
      injection H as <- <-. inversion_clear OK as [|? ? Oo Os].
      destruct (step_mono _ _ _ _ SP CP Oo St) as (A & B & C).
      destruct (IH _ _ B C Os R). cbn [length]. split; lia.
  Qed.
  (* a store that grows keeps its entries *)
  Definition store_le (a b : store) : Prop := forall i nm, zlen (named nm (nth i a [])) <= zlen (named nm (nth i b [])).
  Lemma nth_app_if {A} (l m : list A) i d : nth i (l ++ m) d = if (i <? length l)%nat then nth i l d else nth (i - length l) m d.
  Proof. destruct (Nat.ltb_spec i (length l)); [now apply app_nth1|now apply app_nth2]. Qed.
  Lemma add_entry_le i e st : store_le st (add_entry i e st).
  Proof.
    intros j nm. unfold add_entry. destruct (Nat.ltb_spec i (length st)) as [L|L].
    - destruct (nth_error st j) as [es|] eqn:E.
      + rewrite (nth_error_nth _ _ _ E).
        assert (Ns : nth_error (set_nth st i (nth i st [] ++ [e])) j = Some (if (j =? i)%nat then nth i st [] ++ [e] else es)).
        { rewrite set_nth_nth, E. destruct (Nat.eqb_spec j i) as [->|]; [|reflexivity]. destruct (Nat.ltb_spec i (length st)); [reflexivity|lia]. }
        rewrite (nth_error_nth _ _ _ Ns). destruct (Nat.eqb_spec j i) as [->|]; [|lia].
        rewrite (nth_error_nth _ _ _ E). unfold named, zlen. rewrite filter_app, app_length. lia.
      + apply nth_error_None in E. rewrite !nth_overflow; [lia| |]; rewrite ?set_nth_length; lia.
    - assert (E : set_nth st i (nth i st [] ++ [e]) = st).
      { clear -L. revert i L; induction st as [|x st IH]; intros [|i] L; simpl in *; auto; try lia. f_equal. apply IH. lia. }
      rewrite E. lia.
  Qed.
  Lemma apply_le o b st : store_le st (apply o b st).
  Proof.
    unfold apply. destruct b; cbn [negb]; [|intros i nm; lia]. destruct o as [i name ob now|i name now].
    - apply add_entry_le.
    - intros j nm. rewrite nth_app_if. destruct (Nat.ltb_spec j (length (add_entry i (mkEntry name name sTDirectory (CDir (length st))) st))) as [L|L].
      + apply add_entry_le.
      + unfold add_entry in L. rewrite set_nth_length in L. rewrite (nth_overflow st) by lia. apply zlen_nonneg.
  Qed.
  Lemma applies_le ops oks st : store_le st (applies ops oks st).
  Proof.
    revert oks st; induction ops as [|o ops IH]; intros [|b oks] st; cbn [applies]; try (intros i nm; lia).
    intros i nm. pose proof (apply_le o b st i nm). pose proof (IH oks (apply o b st) i nm). lia.
  Qed.
  Lemma step_good o f f' b : sorts srt -> good f -> op_ok cdc compr o -> step junk cdc srt o f = Ok (f', b) -> wEnd f' <= kStartBigFile ->
    (forall i nm, zlen (named nm (nth i (apply o b (view f)) [])) <= 32767) ->
    good f' /\ view f' = apply o b (view f).
  Proof.
    intros ST G OK H L Cn. destruct o as [i name ob now|i name now]; cbn [step] in H;
      (destruct (Nat.ltb_spec i (length (wDirs f))) as [Li|Li]; [|injection H as <- <-; split; [auto|reflexivity]]);
      destruct (lt_nth _ _ Li) as (d & N).
    - eapply put_good; eauto.
    - eapply mkdir_good; eauto.
  Qed.
  Lemma run_good ops f f' oks : sorts srt -> good f -> Forall (op_ok cdc compr) ops -> run junk cdc srt ops f = Ok (f', oks) ->
    wEnd f' <= kStartBigFile -> (forall i nm, zlen (named nm (nth i (applies ops oks (view f)) [])) <= 32767) ->
    good f' /\ view f' = applies ops oks (view f).
  Proof.
    intros ST. revert f oks; induction ops as [|o ops IH]; intros f oks G OK H L Cn; cbn [run] in H.
    - injection H as <- <-. auto.
    - destruct (step junk cdc srt o f) as [[f1 b]|] eqn:St; cbn [rbind fst snd] in H; [|discriminate H].
      destruct (run junk cdc srt ops f1) as [[f2 oks']|] eqn:R; cbn [rbind fst snd] in H; [|discriminate H].
      injection H as <- <-. inversion_clear OK as [|? ? Oo Os].
      destruct (g_misc _ G) as (CP & _).
      destruct (step_mono _ _ _ _ (g_spans _ G) CP Oo St) as (A & B & C).
      destruct (run_mono _ _ _ _ B C Os R) as (D & _). cbn [applies] in *.
      destruct (step_good _ _ _ _ ST G Oo St ltac:(lia)) as (G1 & V1).
      { intros i nm. pose proof (applies_le ops oks' (apply o b (view f)) i nm). specialize (Cn i nm). lia. }
      rewrite <- V1. apply IH; auto. intros i nm. rewrite V1. apply Cn.
  Qed.

  (* ---- Create ---- *)
  Definition enc_fhdr (f : wfile) : list Z :=
    rootMagic ++ be 4 rootVersion ++ be 4 kBEGIN ++ be 4 (wEnd f) ++ be 4 (wSeekfree f) ++ be 4 (wNbytesfree f) ++
    be 4 (wrapS 32 (zlen (spans (wSpace f)))) ++ be 4 (wNbytesname f) ++ be 1 (wUnits f) ++ be 4 (wCompr f) ++
    be 4 (wSeekinfo f) ++ be 4 (wNbytesinfo f) ++ be 2 1 ++ uuid0.
  Lemma writeHeader_spec f : wEnd f <= kStartBigFile -> wSeekfree f <= kStartBigFile -> wSeekinfo f <= kStartBigFile ->
    writeHeader junk f = Ok (s_disk f (writeAt (writeAt (wDisk f) 0 (repeat 0 (Z.to_nat kBEGIN))) 0 (enc_fhdr f))).
  Proof.
    intros A B C. unfold writeHeader, fBig.
    destruct (Z.ltb_spec kStartBigFile (wEnd f)); [lia|].
    destruct (Z.ltb_spec kStartBigFile (wSeekfree f)); [lia|].
    destruct (Z.ltb_spec kStartBigFile (wSeekinfo f)); [lia|]. cbn [orb]. cbv zeta.
    replace (if rootVersion <? 1000000 then 4%nat else 8%nat) with 4%nat by reflexivity.
    rewrite (fill_emits kBEGIN _ (enc_fhdr f)); [reflexivity|discriminate|]. unfold enc_fhdr.
    replace (wrapS 32 kBEGIN) with kBEGIN by reflexivity.
    repeat (apply w_seq_emits; [first [apply WriteInt_emits|apply write_emits; discriminate]|]). apply write_emits. discriminate.
  Qed.
  Definition fresh (d : list Z) (e nbn : Z) (now : civil) : wfile :=
    mkWF d (mkFs e [mkSeg e kStartBigFile]) 0 0 nbn 4 compr 0 0 fname
      [mkWDir (mkDir 5 now now 0 nbn 100 0 0 uuid0) fname [] [] []].
  Lemma fresh_good d e nbn now k : str_ok fname -> zlen fname <= 478 -> date_ok now ->
    10 <= nbn <= 1000 -> 100 + nbn + hsize <= e ->
    at_disk d 100 (enc_key k) -> zlen (enc_key k) <= nbn -> key_ok k -> kRvers k = 4 -> kName k = fname -> kTitle k = [] ->
    good (fresh d e nbn now).
  Proof.
    intros Sn Ln Dn NB E A B C K1 K2 K3.
    assert (T : 1 <= tstringSizeof fname <= 483).
    { split; [apply tstringSizeof_pos|]. unfold tstringSizeof. destruct (_ <? _); lia. }
    set (d0 := mkWDir (mkDir 5 now now 0 nbn 100 0 0 uuid0) fname [] [] []).
    assert (ND : forall i x, nth_error [d0] i = Some x -> i = 0%nat /\ x = d0).
    { intros [|[|i]] x X; [injection X as <-; auto|discriminate X|discriminate X]. }
    unfold hsize in E. unfold fresh. fold d0.
    constructor; unfold wEnd; cbn [wSpace fend wNbytesname wDirs wDisk].
    - lia.
    - reflexivity.
    - repeat split.
    - lia.
    - exists d0. repeat split.
    - exists k. auto 10.
    - intros i x X. apply ND in X as (-> & ->).
      constructor; unfold area; cbn [d0 wHdr wName wTitle wKeys dRvers dCtime dMtime dSeekdir dNbytesname dSeekparent dUuid]; auto; unfold hsize; try lia.
      + split; [exact Sn|]. split; [constructor|split; [vm_compute; reflexivity|discriminate]].
      + unfold enc_len, maxkey. change (tstringSizeof sTDirectory) with 11. change (tstringSizeof []) with 1. lia.
      + intros nm. reflexivity.
      + cbn [map fold_right]. lia.
    - intros i x k0 X I. apply ND in X as (-> & ->). destruct I.
    - intros i x k0 mar X I. apply ND in X as (-> & ->). destruct I.
    - intros i x k0 j X I. apply ND in X as (-> & ->). destruct I.
    - intros i j di dj NE X Y. apply ND in X as (-> & _). apply ND in Y as (-> & _). congruence.
    - intros i j di dj k0 m X Y I. apply ND in Y as (-> & ->). destruct I.
    - intros i x X. apply ND in X as (-> & ->). unfold area. cbn [d0 wHdr dSeekdir dNbytesname]. lia.
    - intros j L. cbn [length] in L. lia.
    - intros i x j X I. apply ND in X as (-> & ->). destruct I.
  Qed.
  Lemma create_eq now : str_ok fname -> zlen fname <= 478 -> date_ok now ->
    exists d k, Create junk fname compr now =
      Ok (fresh d (100 + (tstringSizeof fname + 1 + hsize + enc_len fname [] sTFile))
            (enc_len fname [] sTFile + (tstringSizeof fname + 1)) now) /\
      k = mkKey (tstringSizeof fname + 1 + hsize + enc_len fname [] sTFile) 4 (tstringSizeof fname + 1 + hsize) now
            (enc_len fname [] sTFile) 1 100 0 sTFile fname [] /\
      at_disk d 100 (enc_key k).
  Proof.
    intros Sn Ln Dn.
    assert (T : 1 <= tstringSizeof fname <= 483).
    { split; [apply tstringSizeof_pos|]. unfold tstringSizeof. destruct (_ <? _); lia. }
    assert (EL : enc_len fname [] sTFile = 33 + tstringSizeof fname).
    { unfold enc_len. change (tstringSizeof sTFile) with 6. change (tstringSizeof []) with 1. lia. }
    unfold Create. cbv zeta.
    replace (recordSize rootVersion) with hsize by reflexivity. replace (tstringSizeof []) with 1 by reflexivity.
    set (n := tstringSizeof fname + 1 + hsize). set (l := enc_len fname [] sTFile) in *.
    rewrite newKey_spec; [|reflexivity|reflexivity|discriminate|discriminate|unfold n, hsize; lia|fold l; unfold n, hsize; lia].
    fold l. cbn [rbind kKeylen kSeekkey].
    match goal with |- context [wEnd ?g] => replace (wEnd g) with 100 by reflexivity end.
    match goal with |- context [writeHeader junk ?g] => replace g with (fresh [] (100 + (n + l)) (l + (tstringSizeof fname + 1)) now) by reflexivity end.
    rewrite writeHeader_spec; [|unfold fresh, wEnd; cbn [wSpace fend]; unfold kStartBigFile, n, hsize; lia|discriminate|discriminate].
    set (f1 := fresh _ _ _ _). set (d1 := writeAt _ _ _). cbn [rbind].
    set (h := mkDir 5 now now 0 (l + (tstringSizeof fname + 1)) 100 0 0 uuid0).
    replace (wHdr (dir_at (s_disk f1 d1) 0)) with h by reflexivity.
    replace (wId (s_disk f1 d1)) with fname by reflexivity. replace (wTitle (dir_at (s_disk f1 d1) 0)) with (@nil Z) by reflexivity.
    rewrite (fill_emits n _ (enc_string fname ++ enc_string [] ++ enc_dir h)).
    2: unfold n, hsize; lia.
    2:{ apply w_seq_emits; [apply WriteString_emits|]. apply w_seq_emits; [apply WriteString_emits|].
        apply marshalDir_emits; auto. discriminate. }
    cbn [rbind]. set (buf := enc_string fname ++ _). set (k := mkKey _ _ _ _ _ _ _ _ _ _ _).
    assert (K1 : kSeekkey k = 100) by reflexivity. assert (K2 : kKeylen k = l) by reflexivity.
    assert (K3 : kNbytes k = n + l) by reflexivity.
    assert (Ed : zlen (enc_key k) = l).
    { rewrite enc_key_size. unfold l, enc_len. cbn [k kRvers kClass kName kTitle]. destruct (Z.ltb_spec 1000 4); lia. }
    rewrite writeFile_spec; [|rewrite K3; unfold n, hsize; lia|exact Dn|rewrite K1; discriminate|rewrite K2; lia].
    rewrite K1, K2. change (wDisk (s_disk f1 d1)) with d1. eexists. exists k. split; [reflexivity|]. split; [reflexivity|].
    apply writeAt_other; [lia|lia|lia|]. apply writeAt_at.
  Qed.
  Lemma create_good now f : str_ok fname -> zlen fname <= 478 -> date_ok now ->
    Create junk fname compr now = Ok f -> good f /\ view f = [[]].
  Proof.
    intros Sn Ln Dn H. destruct (create_eq now Sn Ln Dn) as (d & k & E & Ek & A). rewrite E in H. clear E.
    match type of H with Ok ?a = Ok _ => assert (EF : f = a) by congruence end. clear H. subst f. split; [|reflexivity].
    assert (T : 1 <= tstringSizeof fname <= 483).
    { split; [apply tstringSizeof_pos|]. unfold tstringSizeof. destruct (_ <? _); lia. }
    assert (EL : enc_len fname [] sTFile = 33 + tstringSizeof fname).
    { unfold enc_len. change (tstringSizeof sTFile) with 6. change (tstringSizeof []) with 1. lia. }
    assert (Ed : zlen (enc_key k) = enc_len fname [] sTFile).
    { rewrite enc_key_size, Ek. unfold enc_len. cbn [kRvers kClass kName kTitle]. destruct (Z.ltb_spec 1000 4); lia. }
    apply (fresh_good _ _ _ _ k); auto; try (subst k; reflexivity); try (unfold hsize; lia).
    subst k. unfold hsize. constructor; cbn [kNbytes kRvers kObjlen kDate kKeylen kCycle kSeekkey kSeekpdir kClass kName kTitle];
      auto; try (unfold inS; simpl; lia).
    split; [|split; [exact Sn|]].
    - split; [|split; [vm_compute; reflexivity|discriminate]].
      repeat (constructor; [unfold byte_ok; lia|]). constructor.
    - split; [constructor|split; [vm_compute; reflexivity|discriminate]].
  Qed.
End Inv.
