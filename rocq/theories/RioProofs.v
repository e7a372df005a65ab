(* Proofs about rio streams. *)
From Coq Require Import ZArith List Lia Bool.
From Verif Require Import Bytes GoLib GoStrings Bits Parse RioModel.
Import ListNotations.
Local Open Scope Z_scope.
Local Arguments le : simpl never.
Local Arguments Z.pow : simpl never.

Lemma land3 n : Z.land n 3 = n mod 4.
Proof. change 3 with (Z.ones 2). rewrite Z.land_ones by lia. reflexivity. Qed.
Lemma rioAlign_spec n : n <= rioAlign n < n + 4 /\ rioAlign n mod 4 = 0.
Proof. unfold rioAlign. rewrite !land3. pose proof (Z.mod_pos_bound n 4). split; Z.div_mod_to_equations; lia. Qed.
Lemma rioAlign_id n : n mod 4 = 0 -> rioAlign n = n.
Proof. intros H. destruct (rioAlign_spec n) as (B & M). Z.div_mod_to_equations. lia. Qed.
Lemma rioAlignU32_id n : 0 <= n < 2 ^ 32 - 3 -> rioAlignU32 n = rioAlign n.
Proof. intros H. destruct (rioAlign_spec n). unfold rioAlignU32. change (n + Z.land (4 - Z.land n 3) 3) with (rioAlign n). apply wrapU_id. unfold inU. lia. Qed.
Lemma pad4_len bs : zlen (pad4 bs) = rioAlign (zlen bs).
Proof. unfold pad4. rewrite zlen_app, zlen_repeat. destruct (rioAlign_spec (zlen bs)). lia. Qed.
Lemma pad4_length bs : length (pad4 bs) = Z.to_nat (rioAlign (zlen bs)).
Proof. rewrite <- pad4_len. unfold zlen. lia. Qed.
Lemma pad4_take bs : firstn (Z.to_nat (zlen bs)) (pad4 bs) = bs.
Proof. unfold pad4. apply firstn_app_exact. unfold zlen. lia. Qed.

Lemma parses_read_some n bs : length bs = n -> parses (read_some n) bs bs.
Proof.
  intros <- rest.
  assert (E : firstn (length bs) (bs ++ rest) ++ repeat 0 (length bs - length (bs ++ rest)) = bs).
  { rewrite (firstn_app_exact _ _ _ eq_refl), app_length. replace (length bs - (length bs + length rest))%nat with 0%nat by lia. apply app_nil_r. }
  assert (E2 : skipn (length bs) (bs ++ rest) = rest) by apply (skipn_app_exact _ _ _ eq_refl).
  unfold read_some. rewrite E, E2. destruct bs as [|b bs]; [destruct rest; reflexivity|]. reflexivity.
Qed.
Lemma hdr_parses n f : inU 32 n -> length f = 4%nat -> parses hdr_parse (hdr_marshal n f) (n, f).
Proof.
  intros I L. unfold hdr_parse, hdr_marshal. eapply parses_bind; [apply parses_ple; exact I|].
  rewrite <- (app_nil_r f) at 1. eapply parses_bind; [apply parses_take, L|]. apply parses_ret.
Qed.
Lemma rec_data_parses r : inU 32 (ropts r) -> inU 32 (rclen r) -> inU 32 (rxlen r) -> zlen (rname r) < 2 ^ 32 ->
  parses (rec_data (rlen r)) (le 4 (ropts r) ++ le 4 (rclen r) ++ le 4 (rxlen r) ++ le 4 (zlen (rname r)) ++ pad4 (rname r)) r.
Proof.
  intros I1 I2 I3 I4. unfold rec_data. pose proof (zlen_nonneg (rname r)).
  eapply parses_bind; [apply parses_ple; exact I1|]. eapply parses_bind; [apply parses_ple; exact I2|].
  eapply parses_bind; [apply parses_ple; exact I3|]. eapply parses_bind; [apply parses_ple; split; [lia|exact I4]|].
  rewrite <- (app_nil_r (pad4 (rname r))). eapply parses_bind; [apply parses_read_some, pad4_length|].
  rewrite pad4_take. destruct r. apply parses_ret.
Qed.
Lemma rec_parses r : inU 32 (rlen r) -> inU 32 (ropts r) -> inU 32 (rclen r) -> inU 32 (rxlen r) -> zlen (rname r) < 2 ^ 32 ->
  parses rec_parse (rec_marshal r) r.
Proof.
  intros I0 I1 I2 I3 I4. unfold rec_parse, rec_marshal. eapply parses_bind; [apply hdr_parses; [exact I0|reflexivity]|].
  apply parses_guard; [reflexivity|]. apply rec_data_parses; auto.
Qed.
Lemma blk_parses b : blen b = zlen (bdata b) -> zlen (bdata b) < 2 ^ 32 -> inU 32 (bver b) -> zlen (bname b) < 2 ^ 32 ->
  parses blk_parse (blk_marshal b) b.
Proof.
  intros E I0 I1 I2. unfold blk_parse, blk_marshal. pose proof (zlen_nonneg (bdata b)). pose proof (zlen_nonneg (bname b)).
  eapply parses_bind; [apply hdr_parses; [unfold inU; lia|reflexivity]|].
  apply parses_guard; [reflexivity|]. cbn [fst]. eapply parses_bind; [apply parses_ple; exact I1|].
  eapply parses_bind; [apply parses_ple; split; [lia|exact I2]|]. eapply parses_bind; [apply parses_take, pad4_length|].
  rewrite <- (app_nil_r (pad4 (bdata b))). rewrite E. eapply parses_bind; [apply parses_take, pad4_length|].
  rewrite !pad4_take. rewrite <- E. destruct b. apply parses_ret.
Qed.
Lemma ftr_parses n m : inU 32 n -> inS 64 m -> parses ftr_parse (ftr_marshal n m) m.
Proof.
  intros I0 I1. unfold ftr_parse, ftr_marshal. eapply parses_bind; [apply hdr_parses; [exact I0|reflexivity]|].
  apply parses_guard; [reflexivity|]. rewrite <- (app_nil_r (le 8 m)). eapply parses_bind; [apply parses_ple_mod|].
  change (256 ^ Z.of_nat 8) with (2 ^ 64). rewrite wrapS_mod by lia. rewrite wrapS_id by (auto; lia). apply parses_ret.
Qed.

(* sizes: multiples of 4 *)
Lemma rec_len4 r : zlen (rec_marshal r) mod 4 = 0.
Proof.
  unfold rec_marshal, hdr_marshal. rewrite !zlen_app, !zlen_le, pad4_len. change (zlen recFrame) with 4.
  destruct (rioAlign_spec (zlen (rname r))) as (_ & M). Z.div_mod_to_equations. lia.
Qed.
Lemma blk_len4 b : zlen (blk_marshal b) mod 4 = 0.
Proof.
  unfold blk_marshal, hdr_marshal. rewrite !zlen_app, !zlen_le, !pad4_len. change (zlen blkFrame) with 4.
  destruct (rioAlign_spec (zlen (bname b))) as (_ & M). destruct (rioAlign_spec (zlen (bdata b))) as (_ & M'). Z.div_mod_to_equations. lia.
Qed.
Lemma blks_len4 bs : zlen (concat (map blk_marshal bs)) mod 4 = 0.
Proof.
  induction bs as [|b bs IH]; cbn [map concat]; [reflexivity|]. rewrite zlen_app. pose proof (blk_len4 b). Z.div_mod_to_equations. lia.
Qed.
Lemma blk_pos b : (16 <= length (blk_marshal b))%nat.
Proof. unfold blk_marshal, hdr_marshal. rewrite !app_length, !le_length. cbn [length blkFrame]. lia. Qed.

(* the blocks of a record *)
Definition blk_ok (b : rblk) : Prop := blen b = wrapU 32 (zlen (bdata b)) /\ inU 32 (bver b).
Lemma put_blk_new b bs : ~ In (bname b) (map bname bs) -> put_blk b bs = bs ++ [b].
Proof.
  induction bs as [|x bs IH]; intros H; cbn in *; [reflexivity|]. destruct (str_eqb_spec (bname b) (bname x)) as [E|E]; [exfalso; auto|].
  rewrite IH; auto.
Qed.
Definition put_all (bs acc : list rblk) : list rblk := fold_left (fun a b => put_blk b a) bs acc.
Lemma blks_loop_ok : forall bs fuel acc, (length (concat (map blk_marshal bs)) < fuel)%nat ->
  Forall blk_ok bs -> zlen (concat (map blk_marshal bs)) < 2 ^ 32 ->
  blks_loop fuel (concat (map blk_marshal bs)) acc = Some (put_all bs acc).
Proof.
  induction bs as [|b bs IH]; intros fuel acc L F Zl.
  - destruct fuel; [cbn in L; lia|]. reflexivity.
  - inversion F as [|? ? Fb F']; subst. cbn [map concat] in *. rewrite app_length in L. rewrite zlen_app in Zl.
    pose proof (blk_pos b) as Lb. pose proof (zlen_nonneg (concat (map blk_marshal bs))) as Zn. destruct fuel as [|fuel]; [lia|].
    cbn [blks_loop]. destruct (blk_marshal b ++ concat (map blk_marshal bs)) as [|z0 zs] eqn:E.
    { exfalso. assert (X : length (blk_marshal b ++ concat (map blk_marshal bs)) = 0%nat) by (rewrite E; auto). rewrite app_length in X. lia. }
    rewrite <- E.
    assert (Sz : zlen (bdata b) < 2 ^ 32 /\ zlen (bname b) < 2 ^ 32).
    { assert (Zb : zlen (blk_marshal b) < 2 ^ 32) by lia. unfold blk_marshal, hdr_marshal in Zb. rewrite !zlen_app, !zlen_le, !pad4_len in Zb.
      destruct (rioAlign_spec (zlen (bname b))) as (? & _). destruct (rioAlign_spec (zlen (bdata b))) as (? & _).
      pose proof (zlen_nonneg (bname b)). pose proof (zlen_nonneg (bdata b)). change (zlen blkFrame) with 4 in Zb. lia. }
    destruct Fb as (Fb1 & Fb2). rewrite blk_parses; auto; try tauto.
    + pose proof (zlen_nonneg (blk_marshal b)). rewrite IH; auto; lia.
    + rewrite Fb1. apply wrapU_id. pose proof (zlen_nonneg (bdata b)). unfold inU. lia.
Qed.
Lemma put_all_new : forall bs acc, NoDup (map bname (acc ++ bs)) -> put_all bs acc = acc ++ bs.
Proof.
  induction bs as [|b bs IH]; intros acc N; cbn [put_all fold_left]; [now rewrite app_nil_r|].
  rewrite put_blk_new.
  - change (put_all bs (acc ++ [b]) = acc ++ b :: bs). rewrite IH; rewrite <- app_assoc; auto.
  - rewrite map_app in N. cbn [map] in N. apply NoDup_remove_2 in N. rewrite in_app_iff in N. tauto.
Qed.

(* ---- the contract of the compressors ---- *)
Definition codec_ok (c : codec) : Prop :=
  (forall o x p, (p < 4)%nat -> CompressorKind o <> 1 -> known c (CompressorKind o) = true ->
     exists n, inflate c (CompressorKind o) (deflate c o x ++ repeat 0 p) (length x) = (x, n)) /\
  (forall m, decMeta c (encMeta c m) = Some m).
(* all of the source is taken *)
Definition eager (c : codec) : Prop :=
  forall o x p, (p < 4)%nat -> CompressorKind o <> 1 -> known c (CompressorKind o) = true ->
     snd (inflate c (CompressorKind o) (deflate c o x ++ repeat 0 p) (length x)) = length (deflate c o x ++ repeat 0 p).

Definition payload (c : codec) (o : Z) (x : list Z) : list Z := if CompressorKind o =? 1 then x else deflate c o x.
Definition raw_of (c : codec) (e : entry) : rrec :=
  let x := concat (map blk_marshal (eblks e)) in
  {| rlen := wrapU 32 (zlen (payload c (eopts e) x)); ropts := eopts e; rclen := wrapU 32 (zlen (payload c (eopts e) x));
     rxlen := wrapU 32 (zlen x); rname := ename e |}.
Definition kind_ok (c : codec) (o : Z) : Prop := CompressorKind o = 1 \/ known c (CompressorKind o) = true.
Definition entry_ok (c : codec) (e : entry) : Prop :=
  inU 32 (eopts e) /\ kind_ok c (eopts e) /\ Forall blk_ok (eblks e) /\ NoDup (map bname (eblks e)) /\
  ebytes e = rec_marshal (raw_of c e) ++ payload c (eopts e) (concat (map blk_marshal (eblks e))) ++
             repeat 0 (Z.to_nat (rioAlignU32 (rlen (raw_of c e)) - rlen (raw_of c e))).
Definition fits (c : codec) (e : entry) : Prop :=
  zlen (ename e) < 2 ^ 32 /\ zlen (concat (map blk_marshal (eblks e))) < 2 ^ 32 /\
  zlen (payload c (eopts e) (concat (map blk_marshal (eblks e)))) < 2 ^ 32 - 3.

Lemma raw_fits c e : entry_ok c e -> fits c e ->
  parses rec_parse (rec_marshal (raw_of c e)) (raw_of c e) /\ rlen (raw_of c e) = zlen (payload c (eopts e) (concat (map blk_marshal (eblks e)))) /\
  rclen (raw_of c e) = rlen (raw_of c e) /\ rxlen (raw_of c e) = zlen (concat (map blk_marshal (eblks e))).
Proof.
  intros (O1 & _ & _ & _ & _) (F1 & F2 & F3). cbn [rlen rclen rxlen raw_of].
  pose proof (zlen_nonneg (concat (map blk_marshal (eblks e)))). pose proof (zlen_nonneg (payload c (eopts e) (concat (map blk_marshal (eblks e))))).
  rewrite !wrapU_id by (unfold inU; lia). split; auto.
  apply rec_parses; cbn [rlen ropts rclen rxlen rname raw_of]; auto; rewrite ?wrapU_id; unfold inU; lia.
Qed.
(* what is read where an entry is *)
Lemma read_blocks_ok c e xr acc rest : codec_ok c -> entry_ok c e -> fits c e -> (xr = None \/ xr = Some (CompressorKind (eopts e))) ->
  exists n, read_blocks c xr (raw_of c e) acc
    (payload c (eopts e) (concat (map blk_marshal (eblks e))) ++ repeat 0 (Z.to_nat (rioAlignU32 (rlen (raw_of c e)) - rlen (raw_of c e))) ++ rest)
  = Some (put_all (eblks e) acc, CompressorKind (eopts e), skipn n
    (payload c (eopts e) (concat (map blk_marshal (eblks e))) ++ repeat 0 (Z.to_nat (rioAlignU32 (rlen (raw_of c e)) - rlen (raw_of c e))) ++ rest)) /\
    (CompressorKind (eopts e) = 1 \/ eager c -> n = Z.to_nat (rioAlign (rlen (raw_of c e)))).
Proof.
  intros (Cok & _) Eok F Xr. destruct (raw_fits c e Eok F) as (_ & R1 & R2 & R3). destruct Eok as (O1 & O2 & O3 & O4 & O5). destruct F as (F1 & F2 & F3).
  set (x := concat (map blk_marshal (eblks e))) in *. set (z := payload c (eopts e) x) in *.
  unfold read_blocks.
  replace (match xr with Some k => k | None => CompressorKind (ropts (raw_of c e)) end) with (CompressorKind (eopts e))
    by (destruct Xr as [->| ->]; reflexivity).
  replace ((CompressorKind (eopts e) =? 1) || known c (CompressorKind (eopts e))) with true.
  2:{ destruct O2 as [->|O2]; [reflexivity|]. rewrite O2. now rewrite orb_true_r. }
  rewrite R2, R1, R3. pose proof (zlen_nonneg x) as Zx. pose proof (zlen_nonneg z) as Zz.
  rewrite rioAlignU32_id by lia. destruct (rioAlign_spec (zlen z)) as (A1 & A2).
  set (p := Z.to_nat (rioAlign (zlen z) - zlen z)).
  assert (Lim : firstn (Z.to_nat (rioAlign (zlen z))) (z ++ repeat 0 p ++ rest) = z ++ repeat 0 p).
  { rewrite app_assoc. apply firstn_app_exact. rewrite app_length, repeat_length. unfold p, zlen in *. lia. }
  rewrite Lim.
  assert (Lx : Z.to_nat (zlen x) = length x) by (unfold zlen; lia). rewrite Lx.
  destruct (Z.eqb_spec (CompressorKind (eopts e)) 1) as [K|K].
  - assert (Ez : z = x) by (unfold z, payload; rewrite K; reflexivity).
    assert (X : firstn (length x) (z ++ repeat 0 p) = x) by (rewrite Ez; apply firstn_app_exact; auto).
    rewrite X. destruct (Nat.ltb_spec (length x) (length x)); [lia|]. rewrite firstn_all.
    unfold x. rewrite blks_loop_ok; auto. fold x. exists (length x). split; auto.
    intros _. pose proof (blks_len4 (eblks e)) as M4. fold x in M4. rewrite <- Ez in M4. rewrite rioAlign_id by auto. rewrite Ez. unfold zlen. lia.
  - assert (Ez : z = deflate c (eopts e) x) by (unfold z, payload; destruct (Z.eqb_spec (CompressorKind (eopts e)) 1); [lia|reflexivity]).
    assert (Kn : known c (CompressorKind (eopts e)) = true) by (destruct O2; auto; lia).
    destruct (Cok (eopts e) x p ltac:(unfold p; lia) K Kn) as (n & En). rewrite <- Ez in En. rewrite En.
    destruct (Nat.ltb_spec (length x) (length x)); [lia|]. rewrite firstn_all.
    unfold x at 1 2. rewrite blks_loop_ok; auto. exists n. split; auto.
    intros [?|Ea]; [lia|]. specialize (Ea (eopts e) x p ltac:(unfold p; lia) K Kn). rewrite <- Ez in Ea. rewrite En in Ea. cbn [snd] in Ea.
    rewrite Ea, app_length, repeat_length. unfold p, zlen in *. lia.
Qed.
Lemma read_entry_ok c e rest : codec_ok c -> entry_ok c e -> fits c e ->
  read_record c (ebytes e ++ rest) = Some (raw_of c e, eblks e).
Proof.
  intros Cok Eok F. destruct (raw_fits c e Eok F) as (P & _). destruct (read_blocks_ok c e None [] rest Cok Eok F (or_introl eq_refl)) as (n & E & _).
  destruct Eok as (O1 & O2 & O3 & O4 & O5). unfold read_record. rewrite O5, <- !app_assoc, P, E. f_equal. f_equal. apply put_all_new. exact O4.
Qed.
Lemma entry_len4 c e : entry_ok c e -> fits c e -> zlen (ebytes e) mod 4 = 0.
Proof.
  intros Eok F. destruct (raw_fits c e Eok F) as (_ & R1 & R2 & R3). destruct Eok as (O1 & O2 & O3 & O4 & O5). destruct F as (F1 & F2 & F3).
  rewrite O5, !zlen_app, zlen_repeat, R1.
  pose proof (zlen_nonneg (payload c (eopts e) (concat (map blk_marshal (eblks e))))).
  rewrite rioAlignU32_id by lia. destruct (rioAlign_spec (zlen (payload c (eopts e) (concat (map blk_marshal (eblks e)))))) as (A & B).
  pose proof (rec_len4 (raw_of c e)). rewrite Z2Nat.id by lia. Z.div_mod_to_equations. lia.
Qed.

(* ---- options ---- *)
Lemma NewOptions_spec k l d : inU 16 k ->
  let k' := if k =? 0 then 3 else k in
  let l' := if (l <=? -1) || (15 <=? l) then 15 else l in
  NewOptions k l d = k' * 2 ^ 16 + l' * 2 ^ 12 + d mod 2 ^ 12 /\ 0 < k' < 2 ^ 16 /\ 0 <= l' < 16.
Proof.
  intros Hk. cbv zeta.
  assert (K : 0 < (if k =? 0 then 3 else k) < 2 ^ 16) by (unfold inU in Hk; destruct (Z.eqb_spec k 0); lia).
  assert (L : 0 <= (if (l <=? -1) || (15 <=? l) then 15 else l) < 16).
  { destruct (Z.leb_spec l (-1)); cbn [orb]; [lia|]. destruct (Z.leb_spec 15 l); lia. }
  split; auto. unfold NewOptions. set (k' := if k =? 0 then 3 else k) in *. change 0xf with 15. set (l' := if (l <=? -1) || (15 <=? l) then 15 else l) in *.
  unfold maskCodec. change 0xfff with (Z.ones 12). rewrite Z.land_ones by lia.
  rewrite (wrapU_id 32 k') by (unfold inU; lia). rewrite (wrapU_id 32 l') by (unfold inU; lia). rewrite !Z.shiftl_mul_pow2 by lia.
  rewrite !wrapU_id by (unfold inU; lia).
  assert (D : wrapU 32 d mod 2 ^ 12 = d mod 2 ^ 12).
  { unfold wrapU. change (2 ^ 32) with (2 ^ 12 * 2 ^ 20).     rewrite Z.rem_mul_r by lia. rewrite Z.mul_comm, Z_mod_plus_full. apply Z.mod_mod. lia. }
  rewrite D. set (e := d mod 2 ^ 12). assert (E : 0 <= e < 2 ^ 12) by (apply Z.mod_pos_bound; lia).
  assert (A : forall a b n, 0 <= n -> 0 <= b < 2 ^ n -> Z.lor (a * 2 ^ n) b = a * 2 ^ n + b).
  { clear. intros a b n Hn Hb. rewrite lor_high_low by auto. lia. }
  rewrite (A k' (l' * 2 ^ 12) 16) by lia. replace (k' * 2 ^ 16 + l' * 2 ^ 12) with ((k' * 16 + l') * 2 ^ 12) by lia.
  rewrite A by lia. lia.
Qed.
Lemma CompressorKind_eq o : inU 32 o -> CompressorKind o = o / 2 ^ 16.
Proof.
  intros H. unfold CompressorKind, maskCompr. change 0xffff0000 with (Z.shiftl (Z.ones 16) 16).
  rewrite Z.shiftr_land, Z.shiftr_shiftl_l by lia. rewrite Z.shiftl_0_r. rewrite Z.land_ones by lia. rewrite Z.shiftr_div_pow2 by lia.
  unfold wrapU. rewrite Z.mod_mod by lia. apply Z.mod_small. unfold inU in H. Z.div_mod_to_equations. lia.
Qed.
Lemma CompressorLevel_eq o : CompressorLevel o = let l := o / 2 ^ 12 mod 16 in if l =? 15 then -1 else l.
Proof.
  unfold CompressorLevel, maskLevel. change 0xf000 with (Z.shiftl (Z.ones 4) 12).
  rewrite Z.shiftr_land, Z.shiftr_shiftl_l by lia. rewrite Z.shiftl_0_r. rewrite Z.land_ones by lia. rewrite Z.shiftr_div_pow2 by lia. reflexivity.
Qed.
Lemma CompressorCodec_eq o : CompressorCodec o = o mod 2 ^ 12.
Proof. unfold CompressorCodec, maskCodec. change 0xfff with (Z.ones 12). now rewrite Z.land_ones. Qed.
Lemma NewOptions_in k l d : inU 16 k -> inU 32 (NewOptions k l d).
Proof.
  intros H. destruct (NewOptions_spec k l d H) as (E & K & L). rewrite E. pose proof (Z.mod_pos_bound d (2 ^ 12)). unfold inU. lia.
Qed.
