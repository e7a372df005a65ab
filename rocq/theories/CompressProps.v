(* C16: framing of compressed payloads; C17: compression settings. *)
From Coq Require Import ZArith List Lia Bool.
From Verif Require Import Bytes GoLib CompressModel.
Import ListNotations.
Local Open Scope Z_scope.

(* ---- what is asked of the libraries ---- *)
Definition chunks (c : codec) (alg lvl : Z) (src : list Z) : list (list Z) := cWrite c alg lvl src ++ cClose c alg lvl src.
Record codec_ok (c : codec) : Prop := {
  (* the decompressor reads back the source from the compressed stream and consumes the stream
     (xz may leave some bytes) *)
  ok_stream : forall k lvl src, In k [ZLIB; LZMA; ZSTD] -> src <> [] ->
    exists used, cDec c k (length src) (concat (chunks c k lvl src)) = Some (src, used) /\
      (used <= length (concat (chunks c k lvl src)))%nat /\
      (k <> LZMA -> used = length (concat (chunks c k lvl src)));
  ok_lz4 : forall lvl src, src <> [] -> lz4Enc c lvl src <> [] -> lz4Dec c (length src) (lz4Enc c lvl src) = Some src;
  ok_sum : forall e, length (lz4Sum c e) = 8%nat }.
(* the library never loses the end of its output in a short write without noticing *)
Definition no_silent_truncation (c : codec) (alg lvl : Z) (src : list Z) : Prop :=
  forall room out, write_all room [] (chunks c alg lvl src) = Some out ->
    (length (concat (chunks c alg lvl src)) <= room)%nat.

Lemma write_all_app room ps qs : forall acc, write_all room acc (ps ++ qs) =
  match write_all room acc ps with None => None | Some a => write_all room a qs end.
Proof. induction ps as [|p ps IH]; intros acc; simpl; auto. destruct (wbuff_write _ _ _); auto. Qed.
Lemma write_all_full room ps : forall acc out, write_all room acc ps = Some out ->
  (length acc + length (concat ps) <= room)%nat -> out = acc ++ concat ps.
Proof.
  induction ps as [|p ps IH]; intros acc out H L; simpl in *.
  - injection H as <-. now rewrite app_nil_r.
  - unfold wbuff_write in H. rewrite app_length in L. destruct (Nat.leb_spec room (length acc)); [discriminate|].
    rewrite firstn_all2 in H by lia. apply IH in H; [|rewrite app_length; lia]. subst. now rewrite app_assoc.
Qed.
Lemma write_all_room room ps : forall acc out, write_all room acc ps = Some out ->
  (length acc <= room -> length out <= room)%nat.
Proof.
  induction ps as [|p ps IH]; intros acc out H L; simpl in *.
  - now injection H as <-.
  - unfold wbuff_write in H. destruct (Nat.leb_spec room (length acc)); [discriminate|].
    apply IH in H; auto. rewrite app_length, firstn_length. lia.
Qed.

Lemma header_fields a b c d s rest : 0 <= d < 2 ^ 24 -> 0 <= s < 2 ^ 24 ->
  let h := blockHeader a b c d s in
  firstn 9 (h ++ rest) = h /\ skipn 9 (h ++ rest) = rest /\ unle (firstn 3 (skipn 3 h)) = d /\ unle (skipn 6 h) = s /\
  length h = 9%nat.
Proof.
  intros D S h. subst h. unfold blockHeader.
  assert (L : length ([a; b; c] ++ le 3 d ++ le 3 s) = 9%nat) by (rewrite !app_length, !le_length; reflexivity).
  split; [now apply firstn_app_exact|]. split; [now apply skipn_app_exact|].
  split; [|split; auto].
  - rewrite skipn_app_exact by reflexivity. rewrite firstn_app_exact by now rewrite le_length.
    apply unle_le_U. exact D.
  - rewrite app_assoc. rewrite skipn_app_exact by (now rewrite app_length, le_length). apply unle_le_U. exact S.
Qed.
Lemma kindOf_header a b c d s rest :
  kindOf (blockHeader a b c d s ++ rest) = kindOf [a; b].
Proof. reflexivity. Qed.

Lemma finish_inv a b c p src d bs n : finish a b c p src d = BOk bs n ->
  d <= 16777215 /\ bs = blockHeader a b c d (zlen src) ++ p /\ n = 9 + d.
Proof.
  unfold finish, kMaxCompressedBlockSize, HeaderSize. destruct (Z.ltb_spec 16777215 d); [discriminate|].
  intros H0. assert (E : forall x m y k, BOk x m = BOk y k -> x = y /\ m = k) by (intros; split; congruence).
  apply E in H0. destruct H0. split; [lia|]. auto.
Qed.

(* one block: what compressBlock makes is what Decompress undoes *)
Lemma block_decodes c alg lvl room src bs n : codec_ok c -> src <> [] -> zlen src < 2 ^ 24 ->
  (In alg [ZLIB; LZMA; ZSTD] -> forall out, write_all room [] (chunks c alg lvl src) = Some out ->
     (length (concat (chunks c alg lvl src)) <= room)%nat) ->
  compressBlock c alg lvl room src = BOk bs n -> n <= Z.of_nat room + 9 ->
  zlen bs = n /\ 9 <= n /\
  forall fuel buflen out rest, (length out < buflen)%nat -> (length out + length src <= buflen)%nat ->
    decomp_loop c (S fuel) buflen out (bs ++ rest) = decomp_loop c fuel buflen (out ++ src) rest.
Proof.
  intros K NE L24 NT H Ln. pose proof (zlen_nonneg src) as Lp.
  assert (Stream : forall h2 (b0 b1 : Z) (x : bool), In alg [ZLIB; LZMA; ZSTD] -> kindOf [b0; b1] = alg ->
    match write_all room [] (cWrite c alg lvl src) with
    | None => BErr
    | Some acc => match write_all room acc (cClose c alg lvl src) with
        | None => BNo
        | Some out => if x && (zlen src <=? zlen out) then BNo else finish b0 b1 h2 out src (zlen out) end
    end = BOk bs n ->
    zlen bs = n /\ 9 <= n /\
    forall fuel buflen out rest, (length out < buflen)%nat -> (length out + length src <= buflen)%nat ->
      decomp_loop c (S fuel) buflen out (bs ++ rest) = decomp_loop c fuel buflen (out ++ src) rest).
  { intros h2 b0 b1 x Ia Ka H'.
    destruct (write_all room [] (cWrite c alg lvl src)) as [acc|] eqn:W1; [|discriminate].
    destruct (write_all room acc (cClose c alg lvl src)) as [out|] eqn:W2; [|discriminate].
    destruct (x && (zlen src <=? zlen out)); [discriminate|].
    assert (W : write_all room [] (chunks c alg lvl src) = Some out) by (unfold chunks; now rewrite write_all_app, W1).
    pose proof (NT Ia out W) as Fit. pose proof (write_all_full _ _ _ _ W Fit) as E. simpl in E. subst out.
    set (e := concat (chunks c alg lvl src)) in *.
    apply finish_inv in H'. destruct H' as (Lm & -> & ->). pose proof (zlen_nonneg e).
    destruct (header_fields b0 b1 h2 (zlen e) (zlen src) []) as (_ & _ & F3 & F4 & F5); [simpl; lia|lia|].
    set (h := blockHeader b0 b1 h2 (zlen e) (zlen src)) in *.
    split; [rewrite zlen_app; unfold zlen at 1; rewrite F5; reflexivity|]. split; [lia|].
    intros fuel buflen out rest Lt Lb. cbn [decomp_loop].
    destruct (Nat.leb_spec buflen (length out)); [lia|].
    destruct (Nat.ltb_spec (length ((h ++ e) ++ rest)) 9); [rewrite !app_length in *; lia|].
    rewrite <- app_assoc. rewrite firstn_app_exact, skipn_app_exact by auto. cbv zeta. rewrite F3, F4.
    replace (Z.to_nat (zlen src)) with (length src) by (unfold zlen; lia).
    replace (Z.to_nat (zlen e)) with (length e) by (unfold zlen; lia).
    destruct (Nat.ltb_spec buflen (length out + length src)); [lia|].
    rewrite firstn_app_exact by auto.
    assert (Kh : kindOf h = alg) by (rewrite <- Ka; reflexivity). rewrite Kh.
    destruct (ok_stream c K alg lvl src Ia NE) as (used & D & U1 & U2). fold e in D, U1, U2.
    simpl in Ia. destruct Ia as [<-|[<-|[<-|[]]]].
    - change (ZLIB =? ZLIB) with true. cbv match. rewrite D. rewrite (U2 ltac:(discriminate)).
      now rewrite skipn_app_exact.
    - change (LZMA =? ZLIB) with false. change (LZMA =? LZ4) with false. change (LZMA =? LZMA) with true. cbv match.
      rewrite D. now rewrite skipn_app_exact.
    - change (ZSTD =? ZLIB) with false. change (ZSTD =? LZ4) with false. change (ZSTD =? LZMA) with false.
      change (ZSTD =? ZSTD) with true. cbv match. rewrite D. rewrite (U2 ltac:(discriminate)).
      destruct (Z.ltb_spec (Z.of_nat (length e)) (zlen e)); [unfold zlen in *; lia|]. now rewrite skipn_app_exact. }
  unfold compressBlock in H.
  destruct (Z.eqb_spec alg ZLIB) as [->|N1]; [apply (Stream 8 90 76 false); simpl; auto|].
  destruct (Z.eqb_spec alg LZMA) as [->|N2]; [apply (Stream 0 88 90 false); simpl; auto|].
  destruct (Z.eqb_spec alg LZ4) as [->|N3].
  2:{ destruct (Z.eqb_spec alg ZSTD) as [->|N4]; [|discriminate]. apply (Stream 1 90 83 true); simpl; auto. }
  pose proof (ok_lz4 c K lvl src NE) as LZ. set (e := lz4Enc c lvl src) in *.
  assert (E0 : e <> []) by (destruct e; [discriminate|discriminate]). specialize (LZ E0).
  assert (H2 : finish 76 52 1 (firstn room (lz4Sum c e ++ e)) src (zlen (lz4Sum c e ++ e)) = BOk bs n)
    by (destruct e; [congruence|exact H]). clear H.
  set (wrk := lz4Sum c e ++ e) in *. apply finish_inv in H2. destruct H2 as (Lm & -> & ->). pose proof (zlen_nonneg wrk).
  rewrite firstn_all2 by (unfold zlen in Ln; lia).
  destruct (header_fields 76 52 1 (zlen wrk) (zlen src) []) as (_ & _ & F3 & F4 & F5); [simpl; lia|lia|].
  set (h := blockHeader 76 52 1 (zlen wrk) (zlen src)) in *.
  split; [rewrite zlen_app; unfold zlen at 1; rewrite F5; reflexivity|]. split; [lia|].
  intros fuel buflen out rest Lt Lb. cbn [decomp_loop].
  destruct (Nat.leb_spec buflen (length out)); [lia|].
  destruct (Nat.ltb_spec (length ((h ++ wrk) ++ rest)) 9); [rewrite !app_length in *; lia|].
  rewrite <- app_assoc. rewrite firstn_app_exact, skipn_app_exact by auto. cbv zeta. rewrite F3, F4.
  replace (Z.to_nat (zlen src)) with (length src) by (unfold zlen; lia).
  replace (Z.to_nat (zlen wrk)) with (length wrk) by (unfold zlen; lia).
  destruct (Nat.ltb_spec buflen (length out + length src)); [lia|].
  rewrite firstn_app_exact by auto.
  change (kindOf h) with LZ4. change (LZ4 =? ZLIB) with false. change (LZ4 =? LZ4) with true. cbv match.
  destruct (Nat.ltb_spec (length (wrk ++ rest)) (length wrk)); [rewrite app_length in *; lia|].
  assert (L8 : 8 <= zlen wrk) by (unfold wrk; rewrite zlen_app; unfold zlen at 1; rewrite (ok_sum c K); pose proof (zlen_nonneg e); lia).
  destruct (Z.ltb_spec (zlen wrk) 8); [lia|].
  unfold wrk at 1. rewrite skipn_app_exact by (now rewrite (ok_sum c K)). rewrite LZ. now rewrite skipn_app_exact.
Qed.

Section Blk.
  Variable blksz : nat.
  Hypothesis blk_pos : (0 < blksz)%nat.
  Hypothesis blk_max : Z.of_nat blksz < 2 ^ 24.

  (* the blocks of a payload *)
  Definition block_of (src b : list Z) : Prop := exists i, b = firstn blksz (skipn (i * blksz) src) /\ b <> [].

  (* the size of what [chunks] (or lz4) makes of a block, with its checksum *)
  Definition packed (c : codec) (alg lvl : Z) (b : list Z) : Z :=
    if alg =? LZ4 then zlen (lz4Enc c lvl b) + 8 else zlen (concat (chunks c alg lvl b)).
  (* every block gets smaller *)
  Definition shrinks (c : codec) (alg lvl : Z) (src : list Z) : Prop :=
    forall b, block_of src b -> packed c alg lvl b < zlen b.
  Definition safe (c : codec) (alg lvl : Z) (src : list Z) : Prop :=
    forall b, block_of src b -> no_silent_truncation c alg lvl b.

  Lemma block_first src : src <> [] -> block_of src (firstn blksz src).
  Proof. intros NE. exists 0%nat. split; auto. destruct src, blksz; simpl; try congruence; lia. Qed.
  Lemma block_next src b : block_of (skipn blksz src) b -> block_of src b.
  Proof. intros (i & -> & N). exists (S i). rewrite skipn_skipn in *. split; auto. Qed.
  Lemma nblocks_next (l : nat) : Z.of_nat (l - blksz) / Z.of_nat blksz + (if (blksz <=? l)%nat then 1 else 0) <= Z.of_nat l / Z.of_nat blksz.
  Proof.
    destruct (Nat.leb_spec blksz l).
    - replace (Z.of_nat l) with (Z.of_nat (l - blksz) + 1 * Z.of_nat blksz) by lia. rewrite Z.div_add by lia. lia.
    - replace (l - blksz)%nat with 0%nat by lia. cbn [Z.of_nat]. rewrite Zdiv_0_l. apply Z.div_pos; lia.
  Qed.

  Definition budget (src : list Z) : Z := zlen src + (zlen src / Z.of_nat blksz + 1) * 9.

  Lemma comp_loop_decodes c alg lvl : codec_ok c -> forall fuel room src out,
    (length src <= fuel)%nat ->
    (In alg [ZLIB; LZMA; ZSTD] -> safe c alg lvl src \/ (src <> [] -> budget src <= room) /\ shrinks c alg lvl src) ->
    comp_loop blksz c fuel alg lvl room src = Ok (COk out) ->
    zlen out <= Z.max 0 room /\
    forall fuel2 acc rest, (S (length out) <= fuel2)%nat ->
      decomp_loop c fuel2 (length acc + length src) acc (out ++ rest) = Ok (Some (acc ++ src)).
  Proof.
    intros K. induction fuel as [|fuel IH]; intros room src out Lf NT H.
    - destruct src; [|simpl in Lf; lia]. simpl in H. injection H as <-. split; [rewrite zlen_nil; lia|].
      intros fuel2 acc rest L2. destruct fuel2; [lia|]. cbn [decomp_loop].
      destruct (Nat.leb_spec (length acc + length (@nil Z)) (length acc)) as [_|X]; [|cbn [length] in X; lia].
      now rewrite app_nil_r.
    - destruct (list_eq_dec Z.eq_dec src []) as [->|NE].
      + simpl in H. injection H as <-. split; [rewrite zlen_nil; lia|].
        intros fuel2 acc rest L2. destruct fuel2; [lia|]. cbn [decomp_loop].
        destruct (Nat.leb_spec (length acc + length (@nil Z)) (length acc)) as [_|X]; [|cbn [length] in X; lia].
        now rewrite app_nil_r.
      + assert (Hu : (if room <? HeaderSize then Panic else
          match compressBlock c alg lvl (Z.to_nat (room - HeaderSize)) (firstn blksz src) with
          | BNo => Ok CNo
          | BErr => Ok CErr
          | BOk bs n => if room <? n then Panic else
                do r <- comp_loop blksz c fuel alg lvl (room - n) (skipn blksz src);
                Ok (match r with COk rest => COk (bs ++ rest) | _ => r end) end) = Ok (COk out))
          by (destruct src; [congruence|exact H]). clear H.
        destruct (Z.ltb_spec room HeaderSize); [discriminate|].
        destruct (compressBlock _ _ _ _ _) as [bs n| |] eqn:B; try discriminate.
        destruct (Z.ltb_spec room n); [discriminate|].
        destruct (comp_loop blksz c fuel alg lvl (room - n) (skipn blksz src)) as [[o| |]|] eqn:R; try discriminate.
        cbn [rbind] in Hu. injection Hu as <-.
        pose proof (block_first src NE) as BF.
        set (b := firstn blksz src) in *.
        assert (Lsrc : (0 < length src)%nat) by (destruct src; [congruence|cbn [length]; lia]).
        assert (Lb : (length b = Nat.min blksz (length src))%nat) by (unfold b; apply firstn_length).
        assert (Nb : b <> []) by (intros X; rewrite X in Lb; cbn [length] in Lb; lia).
        destruct (block_decodes c alg lvl (Z.to_nat (room - HeaderSize)) b bs n K Nb) as (Z1 & Z2 & Dec); auto.
        { unfold zlen. lia. }
        { intros Ia w W. destruct (NT Ia) as [Sf|[Bu Sh]].
          - apply (Sf b BF _ _ W).
          - specialize (Sh b BF). specialize (Bu NE). unfold packed in Sh.
            destruct (Z.eqb_spec alg LZ4) as [->|_]; [simpl in Ia; unfold ZLIB, LZMA, ZSTD, LZ4 in Ia; lia|].
            unfold budget, HeaderSize in *. pose proof (Z.div_pos (zlen src) (Z.of_nat blksz) ltac:(apply zlen_nonneg) ltac:(lia)).
            unfold zlen in *. lia. }
        { unfold HeaderSize in *. lia. }
        destruct (IH (room - n) (skipn blksz src) o) as (Zo & Ho); auto.
        { rewrite skipn_length. lia. }
        { intros Ia. destruct (NT Ia) as [Sf|[Bu Sh]]; [left; intros x Hx; apply Sf, block_next, Hx|].
          right. split; [|intros x Hx; apply Sh, block_next, Hx]. intros NS. specialize (Bu NE).
          assert (blksz < length src)%nat.
          { destruct (Nat.ltb_spec blksz (length src)); auto. exfalso. apply NS. apply skipn_all2. lia. }
          specialize (Sh b BF). pose proof (nblocks_next (length src)) as NN.
          destruct (Nat.leb_spec blksz (length src)); [|lia].
          assert (n <= 9 + zlen b).
          { clear - Ia B Sh K Nb. unfold packed in Sh.
            destruct (Z.eqb_spec alg LZ4) as [->|_]; [simpl in Ia; unfold ZLIB, LZMA, ZSTD, LZ4 in Ia; lia|].
            assert (Wl : forall r ps acc w, write_all r acc ps = Some w -> (length w <= length acc + length (concat ps))%nat).
            { intros r ps. induction ps as [|p ps IHp]; intros acc w Hw; simpl in Hw.
              - injection Hw as <-. lia.
              - unfold wbuff_write in Hw. destruct (Nat.leb_spec r (length acc)); [discriminate|].
                apply IHp in Hw. simpl. rewrite app_length in *. rewrite firstn_length in Hw. lia. }
            assert (Fin : forall x h0 h1 h2, match write_all (Z.to_nat (room - HeaderSize)) [] (cWrite c alg lvl b) with
              | None => BErr
              | Some acc => match write_all (Z.to_nat (room - HeaderSize)) acc (cClose c alg lvl b) with
                 | None => BNo
                 | Some out => if x && (zlen b <=? zlen out) then BNo else finish h0 h1 h2 out b (zlen out) end end = BOk bs n ->
                 n <= 9 + zlen b).
            { intros x h0 h1 h2 HB. destruct (write_all _ [] _) as [acc|] eqn:W1; [|discriminate].
              destruct (write_all _ acc _) as [w|] eqn:W2; [|discriminate]. destruct (x && _); [discriminate|].
              apply finish_inv in HB. destruct HB as (_ & _ & ->).
              assert (W : write_all (Z.to_nat (room - HeaderSize)) [] (chunks c alg lvl b) = Some w) by (unfold chunks; now rewrite write_all_app, W1).
              apply Wl in W. cbn [length] in W. unfold zlen in *. lia. }
            unfold compressBlock in B. simpl in Ia. destruct Ia as [<-|[<-|[<-|[]]]].
            - apply (Fin false 90 76 8 B).
            - apply (Fin false 88 90 0 B).
            - apply (Fin true 90 83 1 B). }
          unfold budget, zlen in *. rewrite skipn_length.
          replace (Z.of_nat (length src - blksz)) with (Z.of_nat (length src) - Z.of_nat blksz) in * by lia. lia. }
        split; [rewrite zlen_app; lia|].
        intros fuel2 acc rest L2. rewrite app_length in L2. destruct fuel2 as [|fuel2]; [lia|].
        rewrite <- app_assoc. rewrite Dec by lia.
        replace (length acc + length src)%nat with (length (acc ++ b) + length (skipn blksz src))%nat.
        2:{ rewrite app_length, skipn_length. lia. }
        rewrite Ho by (unfold zlen in *; lia). rewrite <- app_assoc. unfold b. now rewrite firstn_skipn.
  Qed.

  Lemma compress_blk_spec c src compr out : codec_ok c ->
    (In (Z.quot compr 100) [ZLIB; LZMA; ZSTD] ->
       safe c (Z.quot compr 100) (Z.rem compr 100) src \/ shrinks c (Z.quot compr 100) (Z.rem compr 100) src) ->
    compress_blk blksz c src compr = Ok (Some out) ->
    out = src \/
    (zlen out <= zlen src + (zlen src / Z.of_nat blksz + 1) * 9 /\
     forall rest, Decompress c (length src) (out ++ rest) = Ok (Some src)).
  Proof.
    intros K NT H. unfold compress_blk in H.
    destruct (_ || _); [injection H as <-; auto|].
    set (size := zlen src + (zlen src / Z.of_nat blksz + 1) * HeaderSize) in *.
    destruct (comp_loop blksz c (length src) (Z.quot compr 100) (Z.rem compr 100) size src) as [[o| |]|] eqn:E; try discriminate;
      cbn [rbind] in H; injection H as <-; auto.
    destruct (comp_loop_decodes c (Z.quot compr 100) (Z.rem compr 100) K (length src) size src o (le_n _)) as (Z1 & D); [|exact E|].
    { intros Ia. destruct (NT Ia); auto. right. split; auto. unfold budget, size, HeaderSize. lia. }
    right. split.
    - pose proof (zlen_nonneg src). pose proof (Z.div_pos (zlen src) (Z.of_nat blksz) ltac:(lia) ltac:(lia)).
      unfold size, HeaderSize in Z1. lia.
    - intros rest. unfold Decompress. apply (D _ [] rest). rewrite app_length. lia.
  Qed.

  (* a payload whose blocks all get smaller is compressed *)
  Lemma write_all_total r ps : forall acc, (length acc + length (concat ps) < r)%nat ->
    write_all r acc ps = Some (acc ++ concat ps).
  Proof.
    induction ps as [|p ps IH]; intros acc L; simpl in *; [now rewrite app_nil_r|].
    rewrite app_length in L. unfold wbuff_write. destruct (Nat.leb_spec r (length acc)); [lia|].
    rewrite firstn_all2 by lia. rewrite IH by (rewrite app_length; lia). now rewrite app_assoc.
  Qed.
  Lemma block_total c alg lvl room b : codec_ok c -> In alg [ZLIB; LZMA; LZ4; ZSTD] -> (length b <= blksz)%nat ->
    (alg = LZ4 -> lz4Enc c lvl b <> []) ->
    packed c alg lvl b < zlen b -> zlen b <= Z.of_nat room ->
    exists bs, compressBlock c alg lvl room b = BOk bs (9 + packed c alg lvl b).
  Proof.
    intros K Ia Lb E4 P R. 
    assert (Fin : forall h0 h1 h2 p, packed c alg lvl b = zlen p ->
       exists bs, finish h0 h1 h2 p b (zlen p) = BOk bs (9 + packed c alg lvl b)).
    { intros h0 h1 h2 p Ep. unfold finish, kMaxCompressedBlockSize. rewrite Ep in *.
      destruct (Z.ltb_spec 16777215 (zlen p)) as [X|X]; [|eauto]. exfalso. unfold zlen in *. lia. }
    assert (St : alg <> LZ4 -> exists acc, write_all room [] (cWrite c alg lvl b) = Some acc /\
        write_all room acc (cClose c alg lvl b) = Some (concat (chunks c alg lvl b)) /\ packed c alg lvl b = zlen (concat (chunks c alg lvl b))).
    { intros N. unfold packed in *. destruct (Z.eqb_spec alg LZ4); [contradiction|].
      pose proof (write_all_total room (chunks c alg lvl b) [] ltac:(unfold zlen in *; cbn [length]; lia)) as W.
      unfold chunks at 1 in W. rewrite write_all_app in W. destruct (write_all room [] _) as [acc|]; [|discriminate].
      exists acc. auto. }
    unfold compressBlock. simpl in Ia. destruct Ia as [<-|[<-|[<-|[<-|[]]]]].
    - destruct (St ltac:(discriminate)) as (acc & W1 & W2 & Pk). change (ZLIB =? ZLIB) with true. cbv match.
      rewrite W1, W2. apply Fin. auto.
    - destruct (St ltac:(discriminate)) as (acc & W1 & W2 & Pk). change (LZMA =? ZLIB) with false. change (LZMA =? LZMA) with true. cbv match.
      rewrite W1, W2. apply Fin. auto.
    - change (LZ4 =? ZLIB) with false. change (LZ4 =? LZMA) with false. change (LZ4 =? LZ4) with true. cbv match.
      assert (Pk : packed c LZ4 lvl b = zlen (lz4Sum c (lz4Enc c lvl b) ++ lz4Enc c lvl b)).
      { rewrite zlen_app. unfold zlen at 1. rewrite (ok_sum c K). unfold packed. change (LZ4 =? LZ4) with true. cbv match. lia. }
      specialize (E4 eq_refl). destruct (Fin 76 52 1 _ Pk) as (bs & F).
      set (e := lz4Enc c lvl b) in *.
      assert (F2 : exists bs0, (let wrk := lz4Sum c e ++ e in finish 76 52 1 (firstn room wrk) b (zlen wrk)) = BOk bs0 (9 + packed c LZ4 lvl b)).
      { cbv zeta. rewrite firstn_all2 by (unfold zlen in *; lia). eauto. }
      destruct e; [congruence|exact F2].
    - destruct (St ltac:(discriminate)) as (acc & W1 & W2 & Pk). change (ZSTD =? ZLIB) with false.
      change (ZSTD =? LZMA) with false. change (ZSTD =? LZ4) with false. change (ZSTD =? ZSTD) with true. cbv match.
      rewrite W1, W2. destruct (Z.leb_spec (zlen b) (zlen (concat (chunks c ZSTD lvl b)))); [lia|]. apply Fin. auto.
  Qed.
  Lemma comp_loop_total c alg lvl : codec_ok c -> In alg [ZLIB; LZMA; LZ4; ZSTD] -> forall fuel room src,
    (forall b, block_of src b -> alg = LZ4 -> lz4Enc c lvl b <> []) ->
    (src <> [] -> budget src <= room) -> shrinks c alg lvl src ->
    exists out, comp_loop blksz c fuel alg lvl room src = Ok (COk out).
  Proof.
    intros K Ia. induction fuel as [|fuel IH]; intros room src E4 Bu Sh.
    - destruct src; simpl; eauto.
    - destruct (list_eq_dec Z.eq_dec src []) as [->|NE]; [simpl; eauto|]. specialize (Bu NE).
      pose proof (block_first src NE) as BF. pose proof (Sh _ BF) as Sb.
      assert (Lb : (length (firstn blksz src) = Nat.min blksz (length src))%nat) by apply firstn_length.
      pose proof (nblocks_next (length src)) as NN.
      pose proof (Z.div_pos (zlen src) (Z.of_nat blksz) ltac:(apply zlen_nonneg) ltac:(lia)) as DP.
      destruct (block_total c alg lvl (Z.to_nat (room - HeaderSize)) (firstn blksz src) K Ia) as (bs & B); auto.
      { lia. } { unfold budget, zlen, HeaderSize in *. lia. }
      assert (G : exists out, (if room <? HeaderSize then Panic else
          match compressBlock c alg lvl (Z.to_nat (room - HeaderSize)) (firstn blksz src) with
          | BNo => Ok CNo
          | BErr => Ok CErr
          | BOk bs n => if room <? n then Panic else
                do r <- comp_loop blksz c fuel alg lvl (room - n) (skipn blksz src);
                Ok (match r with COk rest => COk (bs ++ rest) | _ => r end) end) = Ok (COk out)).
      2:{ destruct src; [congruence|exact G]. }
      rewrite B. unfold budget, HeaderSize in *. set (pk := packed c alg lvl (firstn blksz src)) in *.
      assert (pk < Z.of_nat (length src)) by (unfold zlen in *; lia).
      destruct (Z.ltb_spec room 9); [unfold zlen in *; lia|].
      destruct (Z.ltb_spec room (9 + pk)); [unfold zlen in *; lia|].
      destruct (IH (room - (9 + pk)) (skipn blksz src)) as (o & Ho).
      { intros b Hb. apply E4, block_next, Hb. }
      { intros NS. assert (blksz < length src)%nat.
        { destruct (Nat.ltb_spec blksz (length src)); auto. exfalso. apply NS. apply skipn_all2. lia. }
        destruct (Nat.leb_spec blksz (length src)); [|lia]. unfold zlen in *. rewrite skipn_length.
        replace (Z.of_nat (length src - blksz)) with (Z.of_nat (length src) - Z.of_nat blksz) in * by lia. lia. }
      { intros b Hb. apply Sh, block_next, Hb. }
      rewrite Ho. cbn [rbind]. eauto.
  Qed.
End Blk.

Definition max_block : nat := Z.to_nat 16777215.
Lemma max_block_pos : (0 < max_block)%nat.
Proof. unfold max_block. lia. Qed.
Lemma max_block_24 : Z.of_nat max_block < 2 ^ 24.
Proof. unfold max_block. rewrite Z2Nat.id by lia. reflexivity. Qed.

(* What Compress returns is either the input itself, or a framed sequence of blocks that Decompress turns back
   into the input, whatever follows it; the frame adds at most 9 bytes per block.  For the three streaming
   libraries this asks that no block loses its end unnoticed, or that every block gets smaller. *)
Theorem C16_round_trip c src compr out : codec_ok c ->
  (In (Z.quot compr 100) [ZLIB; LZMA; ZSTD] ->
     safe max_block c (Z.quot compr 100) (Z.rem compr 100) src \/ shrinks max_block c (Z.quot compr 100) (Z.rem compr 100) src) ->
  Compress c src compr = Ok (Some out) ->
  out = src \/
  (zlen out <= zlen src + (zlen src / 16777215 + 1) * 9 /\
   forall rest, Decompress c (length src) (out ++ rest) = Ok (Some src)).
Proof.
  intros K NT H. pose proof (compress_blk_spec max_block max_block_pos max_block_24 c src compr out K NT H) as S.
  unfold max_block in S at 1. rewrite Z2Nat.id in S by lia. exact S.
Qed.

(* A payload whose blocks all get smaller is never refused. *)
Theorem C16_total c src compr : codec_ok c -> In (Z.quot compr 100) [ZLIB; LZMA; LZ4; ZSTD] ->
  (forall b, block_of max_block src b -> Z.quot compr 100 = LZ4 -> lz4Enc c (Z.rem compr 100) b <> []) ->
  shrinks max_block c (Z.quot compr 100) (Z.rem compr 100) src ->
  exists out, Compress c src compr = Ok (Some out) /\
    (out = src \/ forall rest, Decompress c (length src) (out ++ rest) = Ok (Some src)).
Proof.
  intros K Ia E4 Sh.
  assert (E : exists out, Compress c src compr = Ok (Some out)).
  { unfold Compress, compress_blk. destruct (_ || _); [eauto|].
    destruct (comp_loop_total max_block max_block_pos max_block_24 c _ _ K Ia (length src)
       (zlen src + (zlen src / Z.of_nat max_block + 1) * HeaderSize) src E4) as (o & Ho); auto.
    { intros _. unfold budget, HeaderSize. lia. }
    unfold max_block in Ho at 1 2. unfold kMaxCompressedBlockSize. rewrite Ho. cbn [rbind]. eauto. }
  destruct E as (out & E). exists out. split; auto.
  destruct (C16_round_trip c src compr out K) as [|[_ ?]]; auto.
Qed.

(* No algorithm, level zero, or a short payload: stored unchanged. *)
Theorem C16_stored c src compr : Z.quot compr 100 = 0 \/ Z.rem compr 100 = 0 \/ zlen src < 512 ->
  Compress c src compr = Ok (Some src).
Proof.
  intros H. unfold Compress, compress_blk.
  destruct (Z.eqb_spec (Z.quot compr 100) 0); auto. destruct (Z.eqb_spec (Z.rem compr 100) 0); auto.
  destruct (Z.ltb_spec (zlen src) 512); auto. lia.
Qed.

(* A key payload is loaded back, when the compressed size is not by accident the original size. *)
Theorem C16_load_partial c src compr out rest : codec_ok c ->
  (In (Z.quot compr 100) [ZLIB; LZMA; ZSTD] ->
     safe max_block c (Z.quot compr 100) (Z.rem compr 100) src \/ shrinks max_block c (Z.quot compr 100) (Z.rem compr 100) src) ->
  Compress c src compr = Ok (Some out) -> (zlen out = zlen src -> out = src) ->
  load c (zlen src) (zlen out) (out ++ rest) = Ok (Some src).
Proof.
  intros K NT H Sz. pose proof (C16_round_trip c src compr out K NT H) as S. unfold load.
  pose proof (zlen_nonneg src). destruct (Z.ltb_spec (zlen src) 0); [lia|].
  destruct (Z.eqb_spec (zlen src) (zlen out)) as [E|E]; cbn [negb].
  - rewrite (Sz (eq_sym E)) in *. rewrite zlen_app. pose proof (zlen_nonneg rest).
    destruct (Z.ltb_spec (zlen src + zlen rest) (zlen src)); [lia|].
    rewrite firstn_app_exact by (unfold zlen; lia). reflexivity.
  - destruct S as [->|[_ S]]; [congruence|].
    rewrite firstn_app_exact by (unfold zlen; lia). replace (Z.to_nat (zlen src)) with (length src) by (unfold zlen; lia).
    rewrite <- (app_nil_r out). apply S.
Qed.

(* ---- witnesses ---- *)
(* a toy codec: constant payloads become [0; x], others 1 :: payload, in one write followed by an empty one;
   [tail] more bytes are written when closing *)
Definition is_const (l : list Z) : bool := match l with [] => false | x :: l' => forallb (Z.eqb x) l' end.
Definition toy (tail : nat) : codec := {|
  cWrite := fun _ _ src => if is_const src then [[0; hd 0 src]; []] else [1 :: src; []];
  cClose := fun _ _ src => match tail with O => [] | _ => [repeat 7 tail] end;
  cDec := fun _ n s => match s with
    | 0 :: x :: t => if (length t =? tail)%nat then Some (repeat x n, length s) else None
    | 1 :: t => if (length t =? n + tail)%nat then Some (firstn n t, length s) else None
    | _ => None end;
  lz4Enc := fun _ src => if is_const src then [0; hd 0 src] else 1 :: src;
  lz4Dec := fun n s => match s with
    | [0; x] => Some (repeat x n)
    | 1 :: t => if (length t =? n)%nat then Some t else None
    | _ => None end;
  lz4Sum := fun _ => repeat 0 8 |}.
Lemma is_const_repeat l : is_const l = true -> l = repeat (hd 0 l) (length l).
Proof.
  destruct l as [|x l]; [discriminate|]. simpl. intros H. f_equal.
  rewrite forallb_forall in H. induction l as [|y l IH]; simpl; auto.
  rewrite <- (proj1 (Z.eqb_eq x y)) by (apply H; simpl; auto). f_equal. apply IH. intros; apply H; simpl; auto.
Qed.
Lemma toy_ok tail : codec_ok (toy tail).
Proof.
  split.
  - intros k lvl src _ NE. unfold chunks. cbn [cWrite cClose cDec toy].
    assert (T : concat (match tail with O => [] | _ => [repeat 7 tail] end) = repeat 7 tail)
      by (destruct tail; simpl; auto; now rewrite app_nil_r).
    rewrite concat_app, T.
    destruct (is_const src) eqn:C; cbn [concat app].
    + rewrite repeat_length, Nat.eqb_refl. rewrite <- is_const_repeat by auto. eexists. split; [reflexivity|]. split; [lia|auto].
    + rewrite app_nil_r, app_length, repeat_length, Nat.eqb_refl. rewrite firstn_app_exact by auto.
      eexists. split; [reflexivity|]. split; [lia|auto].
  - intros lvl src NE _. cbn [lz4Enc lz4Dec toy]. destruct (is_const src) eqn:C.
    + now rewrite <- is_const_repeat.
    + now rewrite Nat.eqb_refl.
  - intros. apply repeat_length.
Qed.
(* a library that ends with one more write notices that the buffer is full *)
Lemma toy_safe src : safe max_block (toy 0) ZLIB 6 src.
Proof.
  intros b _ room out. unfold chunks. cbn [cWrite cClose toy]. rewrite app_nil_r.
  assert (G : forall e, write_all room [] [e; []] = Some out -> (length (concat [e; []]) <= room)%nat).
  { intros e. cbn [write_all concat app]. unfold wbuff_write. rewrite app_nil_r.
    destruct (Nat.leb_spec room (length (@nil Z))); [discriminate|]. cbn [length app]. rewrite firstn_length.
    destruct (Nat.leb_spec room (Nat.min (room - 0) (length e))); [discriminate|]. lia. }
  destruct (is_const b); apply G.
Qed.
(* a payload of one block can be computed with any larger block size *)
Lemma one_block src b : zlen src <= 16777215 -> block_of max_block src b -> b = src.
Proof.
  intros L (i & -> & N). unfold zlen, max_block in *. destruct i as [|i].
  - rewrite Nat.mul_0_l in *. simpl skipn in *. apply firstn_all2. lia.
  - exfalso. apply N. rewrite skipn_all2 by lia. apply firstn_nil.
Qed.
Lemma small_compress c src compr k : (length src < k)%nat -> zlen src < 16777215 ->
  Compress c src compr = compress_blk k c src compr.
Proof.
  intros Lk L. unfold Compress, compress_blk, kMaxCompressedBlockSize. destruct (_ || _) eqn:E; auto.
  pose proof (zlen_nonneg src). rewrite Z2Nat.id by lia. rewrite Z.div_small by lia.
  rewrite (Z.div_small (zlen src) (Z.of_nat k)) by (unfold zlen in *; lia).
  assert (G : forall a l room fuel, comp_loop (Z.to_nat 16777215) c fuel a l room src = comp_loop k c fuel a l room src).
  { intros. destruct fuel; [reflexivity|]. destruct src as [|x src]; [reflexivity|]. cbn [comp_loop].
    rewrite !firstn_all2 by (unfold zlen in *; lia). rewrite !skipn_all2 by (unfold zlen in *; lia).
    destruct (room <? HeaderSize); auto. destruct (compressBlock _ _ _ _ _) as [bytes n| |]; auto. destruct (room <? n); auto.
    destruct fuel; reflexivity. }
  now rewrite G.
Qed.
Definition txt := repeat 5 600.

(* 600 equal bytes are framed in 11 bytes; every hypothesis of the theorems above holds *)
Example C16_example : codec_ok (toy 0) /\ safe max_block (toy 0) ZLIB 6 txt /\ shrinks max_block (toy 0) ZLIB 6 txt /\
  shrinks max_block (toy 0) LZ4 6 txt /\
  Compress (toy 0) txt 106 = Ok (Some [90; 76; 8; 2; 0; 0; 88; 2; 0; 0; 5]).
Proof.
  assert (Z : zlen txt <= 16777215) by (vm_compute; discriminate).
  split; [apply toy_ok|]. split; [apply toy_safe|].
  split; [intros b B; rewrite (one_block _ _ Z B); vm_compute; reflexivity|].
  split; [intros b B; rewrite (one_block _ _ Z B); vm_compute; reflexivity|].
  rewrite (small_compress _ _ _ 601) by (vm_compute; auto; lia). vm_compute. reflexivity.
Qed.

(* A payload whose framed form happens to have the original size is taken for an uncompressed one. *)
Theorem C16_load_refuted : exists c src compr out, codec_ok c /\
  shrinks max_block c (Z.quot compr 100) (Z.rem compr 100) src /\ In (Z.quot compr 100) [ZLIB; LZMA; LZ4; ZSTD] /\
  Compress c src compr = Ok (Some out) /\ out <> src /\
  load c (zlen src) (zlen out) out = Ok (Some out).
Proof.
  exists (toy 589), txt, 106. eexists. split; [apply toy_ok|].
  assert (Z : zlen txt <= 16777215) by (vm_compute; discriminate).
  split; [intros b B; rewrite (one_block _ _ Z B); vm_compute; reflexivity|]. split; [vm_compute; auto|].
  split. { rewrite (small_compress _ _ _ 601) by (vm_compute; auto; lia). vm_compute. reflexivity. }
  split; [vm_compute; discriminate|]. vm_compute. reflexivity.
Qed.
(* A last write that only partly fits is accepted: the payload is damaged without an error. *)
Theorem C16_truncation_refuted : exists c src compr out, codec_ok c /\
  Compress c src compr = Ok (Some out) /\ out <> src /\ Decompress c (length src) out = Ok None.
Proof.
  exists (toy 607), txt, 106. eexists. split; [apply toy_ok|].
  split. { rewrite (small_compress _ _ _ 601) by (vm_compute; auto; lia). vm_compute. reflexivity. }
  split; [vm_compute; discriminate|]. vm_compute. reflexivity.
Qed.
(* A payload that does not compress is an error, not stored as it is, when the library notices while writing. *)
Theorem C16_incompressible_refuted : exists c src compr, codec_ok c /\ Compress c src compr = Ok None.
Proof.
  exists (toy 0), (1 :: txt), 106. split; [apply toy_ok|].
  rewrite (small_compress _ _ _ 700) by (vm_compute; auto; lia). vm_compute. reflexivity.
Qed.
(* With LZ4 such a payload overruns the buffer. *)
Theorem C16_lz4_refuted : exists c src compr, codec_ok c /\ Compress c src compr = Panic.
Proof.
  exists (toy 0), (1 :: txt), 406. split; [apply toy_ok|].
  rewrite (small_compress _ _ _ 700) by (vm_compute; auto; lia). vm_compute. reflexivity.
Qed.

(* ---- C17 ---- *)
(* A known algorithm and a level 0..99 survive the packing, but for zstd's best compression. *)
Theorem C17_round_trip alg lvl : 0 <= alg <= 6 -> 0 <= lvl <= 99 -> (alg = ZSTD -> lvl <> 9) ->
  exists v, Compression alg lvl = Ok v /\ v = alg * 100 + lvl /\ SettingsFrom v = (alg, lvl).
Proof.
  intros A L N. exists (alg * 100 + lvl). split; [|split; [reflexivity|]].
  - unfold Compression. destruct (Z.eqb_spec lvl (-1)); [lia|].
    assert (W : forall x, 0 <= x <= 700 -> wrapS 32 x = x) by (intros; apply wrapS_id; [lia|unfold inS; lia]).
    destruct (Z.eqb_spec lvl 1) as [->|].
    + destruct (alg =? ZSTD); cbn [rbind]; rewrite (W (alg * 100)), (W 1), W by lia; reflexivity.
    + destruct (Z.eqb_spec lvl 9) as [->|].
      * destruct (Z.eqb_spec alg ZSTD) as [->|]; [now destruct N|]. cbn [rbind].
        rewrite (W (alg * 100)), (W 9), W by lia. reflexivity.
      * destruct (Z.ltb_spec 99 lvl); [lia|]. cbn [rbind]. rewrite (W (alg * 100)), (W lvl), W by lia. reflexivity.
  - unfold SettingsFrom. f_equal.
    + rewrite Z.quot_div_nonneg by lia. rewrite Z.div_add_l by lia. rewrite (Z.div_small lvl) by lia. lia.
    + rewrite Z.rem_mod_nonneg by lia. rewrite Z.add_comm, Z.mod_add by lia. apply Z.mod_small. lia.
Qed.
(* The packed form is recovered from the settings it is unpacked into: reading a file and writing it again keeps
   its settings word. *)
Theorem C17_repack v : 0 <= v < 700 -> v <> 509 ->
  Compression (fst (SettingsFrom v)) (snd (SettingsFrom v)) = Ok v.
Proof.
  intros V N. unfold SettingsFrom. cbn [fst snd]. rewrite Z.quot_div_nonneg, Z.rem_mod_nonneg by lia.
  pose proof (Z.div_mod v 100 ltac:(lia)) as E. pose proof (Z.mod_pos_bound v 100 ltac:(lia)).
  destruct (C17_round_trip (v / 100) (v mod 100)) as (w & C & -> & _); [lia|lia|unfold ZSTD; lia|].
  rewrite C. f_equal. lia.
Qed.
(* The default level picks a level of the algorithm; levels above 99 are capped, zstd's best level is 4. *)
Theorem C17_normal alg lvl : In alg [ZLIB; LZMA; LZ4; ZSTD] -> -1 <= lvl ->
  exists v l, Compression alg lvl = Ok v /\ SettingsFrom v = (alg, l) /\ 0 <= l <= 99 /\
    (lvl = -1 -> 1 <= l <= 6) /\ (99 < lvl -> l = 99) /\
    (0 <= lvl <= 99 -> l = lvl \/ alg = ZSTD /\ lvl = 9 /\ l = 4).
Proof.
  intros A L.
  assert (Al : 0 <= alg <= 6) by (simpl in A; unfold ZLIB, LZMA, LZ4, ZSTD in A; lia).
  destruct (Z.leb_spec 100 lvl) as [H|H].
  - destruct (C17_round_trip alg 99) as (v & C & _ & S); [auto|lia|lia|].
    exists v, 99. assert (E : Compression alg lvl = Compression alg 99).
    { unfold Compression. destruct (Z.eqb_spec lvl (-1)); [lia|]. destruct (Z.eqb_spec lvl 1); [lia|].
      destruct (Z.eqb_spec lvl 9); [lia|]. destruct (Z.ltb_spec 99 lvl); [reflexivity|lia]. }
    rewrite E. repeat split; auto; lia.
  - destruct (Z.eqb_spec lvl (-1)) as [->|N].
    + simpl in A. destruct A as [<-|[<-|[<-|[<-|[]]]]]; vm_compute Compression;
        do 2 eexists; (split; [reflexivity|]); (split; [vm_compute; reflexivity|]); lia.
    + destruct (Z.eq_dec alg ZSTD) as [->|Na].
      * destruct (Z.eq_dec lvl 9) as [->|N9].
        -- exists 504, 4. split; [reflexivity|]. split; [reflexivity|]. lia.
        -- destruct (C17_round_trip ZSTD lvl) as (v & C & _ & S); [auto|lia|auto|]. exists v, lvl. repeat split; auto; lia.
      * destruct (C17_round_trip alg lvl) as (v & C & _ & S); [auto|lia|tauto|]. exists v, lvl. repeat split; auto; lia.
Qed.
Example C17_example : Compression ZLIB 6 = Ok 106 /\ SettingsFrom 106 = (ZLIB, 6) /\ Compression ZSTD (-1) = Ok 501.
Proof. repeat split. Qed.
(* zstd at its best level is not the level asked for; compress/flate's HuffmanOnly level (-2), accepted by the
   option that selects zlib, turns into another algorithm (here none: the data is stored as it is). *)
Theorem C17_refuted : SettingsFrom 509 = (ZSTD, 9) /\ Compression ZSTD 9 = Ok 504 /\
  Compression ZLIB (-2) = Ok 98 /\ SettingsFrom 98 = (UseGlobal, 98).
Proof. repeat split. Qed.

Print Assumptions C16_round_trip.
Print Assumptions C16_total.
Print Assumptions C16_stored.
Print Assumptions C16_load_partial.
Print Assumptions C16_load_refuted.
Print Assumptions C16_truncation_refuted.
Print Assumptions C16_incompressible_refuted.
Print Assumptions C16_lz4_refuted.
Print Assumptions C17_round_trip.
Print Assumptions C17_repack.
Print Assumptions C17_normal.
Print Assumptions C17_refuted.
