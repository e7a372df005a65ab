(* C29: cell ids. *)
From Coq Require Import ZArith List Lia Bool.
From Verif Require Import Bytes GoLib GoStrings Bits LcioModel.
Import ListNotations.
Local Open Scope Z_scope.
Local Arguments Z.pow : simpl never.
Local Arguments Z.mul : simpl never.

(* ---- arithmetic ---- *)
Lemma wrapS_congr x y : x mod 2 ^ 64 = y mod 2 ^ 64 -> wrapS 64 x = wrapS 64 y.
Proof. intros H. rewrite <- (wrapS_mod 64 x), <- (wrapS_mod 64 y) by lia. now rewrite H. Qed.
Lemma wrapS_res x : wrapS 64 x mod 2 ^ 64 = x mod 2 ^ 64.
Proof. apply (wrapU_wrapS 64 x). lia. Qed.
Lemma shl64_eq a n : 0 <= n < 64 -> shl64 a n = wrapS 64 (a * 2 ^ n).
Proof. intros H. unfold shl64. rewrite wrapU_id by (unfold inU; lia). destruct (Z.ltb_spec n 64); [|lia]. rewrite Z.shiftl_mul_pow2 by lia. reflexivity. Qed.
Lemma mask_eq off w : 0 <= off < 64 -> 0 <= w <= 64 -> shl64 (wrapS 64 (shl64 1 w - 1)) off = wrapS 64 ((2 ^ w - 1) * 2 ^ off).
Proof.
  intros Ho Hw. rewrite shl64_eq by lia. apply wrapS_congr. rewrite Z.mul_mod, wrapS_res, <- Z.mul_mod by lia.
  rewrite Z.mul_mod, (Z.mul_mod (2 ^ w - 1)) by lia. do 2 f_equal.
  assert (E : (shl64 1 w) mod 2 ^ 64 = 2 ^ w mod 2 ^ 64).
  { destruct (Z.eq_dec w 64) as [->|]; [reflexivity|]. rewrite shl64_eq by lia. rewrite wrapS_res. f_equal. lia. }
  rewrite Zminus_mod, E, <- Zminus_mod. reflexivity.
Qed.
Lemma land_res64 v m : 0 <= v < 2 ^ 64 -> Z.land v m = Z.land v (m mod 2 ^ 64).
Proof.
  intros H. rewrite <- (Z.land_ones m) by lia. rewrite (Z.land_comm m), Z.land_assoc, Z.land_ones by lia. now rewrite Z.mod_small.
Qed.
(* what a mask and a shift extract *)
Lemma extract v off w : 0 <= off -> 0 <= w -> Z.shiftr (Z.land v ((2 ^ w - 1) * 2 ^ off)) off = (v / 2 ^ off) mod 2 ^ w.
Proof.
  intros Ho Hw. rewrite <- Z.shiftl_mul_pow2 by lia. rewrite Z.shiftr_land, Z.shiftr_shiftl_l by lia. rewrite Z.sub_diag, Z.shiftl_0_r.
  rewrite land_mask by lia. now rewrite Z.shiftr_div_pow2.
Qed.

(* the 64 bits of an id, as an unsigned number *)
Definition word (id0 id1 : Z) : Z := id0 mod 2 ^ 32 + 2 ^ 32 * (id1 mod 2 ^ 32).
Lemma word_range a b : 0 <= word a b < 2 ^ 64.
Proof. unfold word. pose proof (Z.mod_pos_bound a (2 ^ 32)). pose proof (Z.mod_pos_bound b (2 ^ 32)). lia. Qed.
Lemma id_value_eq a b : inS 32 b -> id_value a b = wrapS 64 (word a b) /\ id_value a b mod 2 ^ 64 = word a b.
Proof.
  intros Hb. unfold inS in Hb. assert (E : id_value a b = a mod 2 ^ 32 + b * 2 ^ 32).
  { unfold id_value. change 0xffffffff with (2 ^ 32 - 1). rewrite land_mask by lia. rewrite shl64_eq by lia. rewrite wrapS_id by (unfold inS; lia).
    rewrite lor_low_high; [reflexivity|lia|]. apply Z.mod_pos_bound. lia. }
  assert (M : id_value a b mod 2 ^ 64 = word a b).
  { rewrite E. symmetry. apply (Z.mod_unique _ _ (b / 2 ^ 32)); [left; apply word_range|]. unfold word.
    pose proof (Z.div_mod b (2 ^ 32)). change (2 ^ 64) with (2 ^ 32 * 2 ^ 32). lia. }
  split; auto. rewrite <- M. rewrite wrapS_mod by lia. symmetry. apply wrapS_id; [lia|]. rewrite E. pose proof (Z.mod_pos_bound a (2 ^ 32)). unfold inS. lia.
Qed.
(* the value the property asks for *)
Definition wanted (s : bool) (w off : Z) (V : Z) : Z := if s then wrapS w (V / 2 ^ off) else (V / 2 ^ off) mod 2 ^ w.
Definition in_reach (off w V : Z) : Prop := 0 <= off /\ 0 < w /\ (off + w <= 63 \/ (off + w <= 64 /\ V < 2 ^ 63)).
Lemma masked off w a b : inS 32 b -> in_reach off w (word a b) ->
  Z.shiftr (Z.land (id_value a b) (wrapS 64 ((2 ^ w - 1) * 2 ^ off))) off = (word a b / 2 ^ off) mod 2 ^ w.
Proof.
  intros Hb (Ho & Hw & R). destruct (id_value_eq a b Hb) as (E & M). pose proof (word_range a b) as Wr.
  destruct R as [R|(R & V)].
  - assert (B : 0 <= (2 ^ w - 1) * 2 ^ off < 2 ^ 63).
    { pose proof (pow2_pos w ltac:(lia)). pose proof (pow2_pos off ltac:(lia)). split; [nia|].
      assert (2 ^ (off + w) <= 2 ^ 63) by (apply Z.pow_le_mono_r; lia). rewrite Z.pow_add_r in H1 by lia. nia. }
    rewrite (wrapS_id 64 ((2 ^ w - 1) * 2 ^ off)) by (unfold inS; lia).
    rewrite Z.land_comm, land_res64, M, Z.land_comm by lia. apply extract; lia.
  - rewrite E. rewrite (wrapS_id 64 (word a b)) by (unfold inS; lia). rewrite land_res64, wrapS_res, <- land_res64 by lia. apply extract; lia.
Qed.
Lemma field_value_ok n off wd a b : inS 32 b -> -64 <= wd <= 64 -> in_reach off (Z.abs wd) (word a b) ->
  field_value (id_value a b) (mk_field n off wd) = wanted (wd <? 0) (Z.abs wd) off (word a b).
Proof.
  intros Hb Hwd R. pose proof R as (Ho & Hw & R').
  assert (Ea : iabs wd = Z.abs wd). { unfold iabs. destruct (Z.ltb_spec wd 0); [rewrite wrapS_id by (unfold inS; lia); lia|lia]. }
  set (w := Z.abs wd) in *. assert (Ho2 : 0 <= off < 64) by lia. assert (Hw2 : 0 < w <= 64) by lia.
  unfold field_value, mk_field. cbn [fmask foff fsigned fwidth]. rewrite Ea. rewrite mask_eq by lia.
  unfold shr64. rewrite (wrapU_id 64 off) by (unfold inU; lia). rewrite masked by auto. unfold wanted.
  set (q := word a b / 2 ^ off) in *. pose proof (pow2_pos w ltac:(lia)) as Pw. pose proof (Z.mod_pos_bound q (2 ^ w) Pw) as Bq.
  destruct (wd <? 0); [cbn [andb]|reflexivity].
  assert (P64 : 2 ^ w <= 2 ^ 64) by (apply Z.pow_le_mono_r; lia).
  rewrite shl64_eq by lia. rewrite Z.mul_1_l. rewrite land_res64, wrapS_res, <- land_res64 by lia. rewrite land_pow2_nz, negb_involutive by lia.
  assert (S2 : 2 ^ w = 2 * 2 ^ (w - 1)). { rewrite <- Z.pow_succ_r by lia. f_equal. lia. } pose proof (pow2_pos (w - 1) ltac:(lia)) as Pw1.
  assert (Ws : forall x, x mod 2 ^ w = q mod 2 ^ w -> inS w x -> wrapS w q = x).
  { intros x Ex Ix. rewrite <- (wrapS_mod w q), <- Ex, wrapS_mod by lia. apply wrapS_id; auto; lia. }
  assert (Tb : Z.testbit (q mod 2 ^ w) (w - 1) = (2 ^ (w - 1) <=? q mod 2 ^ w)).
  { destruct (Z.leb_spec (2 ^ (w - 1)) (q mod 2 ^ w)).
    - replace (q mod 2 ^ w) with ((q mod 2 ^ w - 2 ^ (w - 1)) + 2 ^ (w - 1)) by lia. apply testbit_add_pow2; lia.
    - apply testbit_small with (w - 1); lia. }
  rewrite Tb. destruct (Z.leb_spec (2 ^ (w - 1)) (q mod 2 ^ w)).
  - assert (Hw63 : w <= 63).
    { destruct (Z.eq_dec w 64) as [E|]; [|lia]. exfalso. assert (off = 0 /\ word a b < 2 ^ 63) as (-> & V) by lia. unfold q in *.
      rewrite E, Z.pow_0_r, Z.div_1_r, Z.mod_small in H by (pose proof (word_range a b); lia). change (2 ^ (64 - 1)) with (2 ^ 63) in H. lia. }
    assert (P63 : 2 ^ w <= 2 ^ 63) by (apply Z.pow_le_mono_r; lia).
    assert (Es : wrapS 64 (q mod 2 ^ w - shl64 1 w) = q mod 2 ^ w - 2 ^ w).
    { rewrite (wrapS_congr _ (q mod 2 ^ w - 2 ^ w)); [apply wrapS_id; [lia|unfold inS; lia]|].
      rewrite Zminus_mod, shl64_eq, wrapS_res, Z.mul_1_l, <- Zminus_mod by lia. reflexivity. }
    rewrite Es. symmetry. apply Ws; [|unfold inS; lia]. rewrite Zminus_mod, Z.mod_mod, Z_mod_same_full, Z.sub_0_r, Z.mod_mod by lia. reflexivity.
  - symmetry. apply Ws; [apply Z.mod_mod; lia|unfold inS; lia].
Qed.

(* ---- layouts ---- *)
(* a field: name, offset if it is written out, width, negative for signed fields *)
Definition item := (str * option Z * Z)%type.
Definition item_text (i : item) : str :=
  let '(n, o, w) := i in match o with None => join 58 [n; itoa w] | Some o => join 58 [n; itoa o; itoa w] end.
Definition codec_of (l : list item) : str := join 44 (map item_text l).
(* the fields with their offsets: after the previous one unless written out *)
Fixpoint place (cur : Z) (l : list item) : list (str * Z * Z) :=
  match l with
  | [] => []
  | (n, o, w) :: l' => let off := match o with Some o => o | None => cur end in (n, off, w) :: place (off + Z.abs w) l'
  end.
Definition name_ok (n : str) : Prop := ~ In 44 n /\ ~ In 58 n.

Lemma itoa_nosep w c : c = 44 \/ c = 58 -> ~ In c (itoa w).
Proof. intros H I. apply itoa_chars in I. lia. Qed.
Lemma join3 a b c : join 58 [a; b; c] = a ++ 58 :: b ++ 58 :: c.
Proof. reflexivity. Qed.
Lemma item_nocomma i : name_ok (fst (fst i)) -> ~ In 44 (item_text i).
Proof.
  destruct i as ((n, o), w). cbn [fst]. intros (N1 & _) I. unfold item_text in I. assert (N44 : 44 <> 58) by lia.
  destruct o; cbn [join] in I; repeat first [apply in_app_or in I | destruct I as [I|I]]; try contradiction; try lia; try (eapply itoa_nosep; [|exact I]; auto).
Qed.
Lemma parse_item cur n o w : name_ok n -> -2 ^ 63 < w < 2 ^ 63 -> (match o with Some o => -2 ^ 63 <= o < 2 ^ 63 | None => True end) ->
  parse_field cur (item_text (n, o, w)) = Ok (mk_field n (match o with Some o => o | None => cur end) w, wrapS 64 (match o with Some o => o | None => cur end + iabs w)).
Proof.
  intros (_ & N2) Hw Ho. unfold parse_field, item_text. assert (Ni : forall w, ~ In 58 (itoa w)) by (intros; apply itoa_nosep; auto).
  destruct o as [o|].
  - rewrite split_join; [|discriminate|repeat constructor; auto]. rewrite !atoi_itoa by lia. reflexivity.
  - rewrite split_join; [|discriminate|repeat constructor; auto]. rewrite atoi_itoa by lia. reflexivity.
Qed.
Definition small (l : list (str * Z * Z)) : Prop := Forall (fun p => 0 <= snd (fst p) < 2 ^ 32 /\ - 2 ^ 32 < snd p < 2 ^ 32) l.
Lemma parse_layout : forall l cur, 0 <= cur < 2 ^ 40 -> Forall (fun i => name_ok (fst (fst i))) l -> small (place cur l) ->
  parse_fields cur (map item_text l) = Ok (map (fun p => mk_field (fst (fst p)) (snd (fst p)) (snd p)) (place cur l)).
Proof.
  induction l as [|((n, o), w) l IH]; intros cur Hc N S; [reflexivity|]. inversion N as [|? ? N1 N2]; subst. cbn [place] in S. inversion S as [|? ? S1 S2]; subst. cbn [fst snd] in *.
  cbn [map parse_fields place fst snd]. rewrite parse_item; [|exact N1|lia|destruct o; [lia|exact I]]. cbn [rbind fst snd].
  assert (Ei : iabs w = Z.abs w). { unfold iabs. destruct (Z.ltb_spec w 0); [rewrite wrapS_id by (unfold inS; lia); lia|lia]. }
  rewrite Ei, wrapS_id by (unfold inS; lia). rewrite IH; [reflexivity|lia|exact N2|exact S2].
Qed.
Lemma index_from_spec fs : forall i n acc, NoDup (map fname fs) ->
  (forall k f, nth_error fs k = Some f -> fname f = n -> index_from i n fs acc = (i + k)%nat) /\ (~ In n (map fname fs) -> index_from i n fs acc = acc).
Proof.
  induction fs as [|f fs IH]; intros i n acc N. { split; [intros []; discriminate|reflexivity]. }
  cbn [map] in N. inversion N as [|? ? N1 N2]; subst. cbn [index_from]. split.
  - intros [|k] g E En; cbn [nth_error] in E.
    + injection E as <-. subst n. rewrite str_eqb_refl. destruct (IH (S i) (fname f) i N2) as (_ & H). rewrite H by auto. lia.
    + destruct (str_eqb_spec n (fname f)) as [->|Ne].
      * exfalso. apply N1. rewrite <- En. apply in_map. eapply nth_error_In; eauto.
      * destruct (IH (S i) n acc N2) as (H & _). rewrite (H k g E En). lia.
  - intros Ni. cbn [map In] in Ni. destruct (str_eqb_spec n (fname f)) as [->|Ne]; [exfalso; auto|]. apply IH; auto.
Qed.

(* C29.  Any layout within the 64 bits: every field has the value its bits have, read as unsigned or as two's complement.
   Needs the field not to reach the last bit, unless this bit is not set in the id. *)
Theorem C29_decode_partial : forall l, l <> [] -> Forall (fun i => name_ok (fst (fst i))) l -> NoDup (map (fun i => fst (fst i)) l) ->
  Forall (fun p => 0 <= snd (fst p) /\ snd p <> 0 /\ snd (fst p) + Z.abs (snd p) <= 64) (place 0 l) ->
  exists fs, newBitField64 (codec_of l) = Ok fs /\
    forall id0 id1 n off w, inS 32 id0 -> inS 32 id1 -> In (n, off, w) (place 0 l) -> off + Z.abs w <= 63 \/ word id0 id1 < 2 ^ 63 ->
      get fs id0 id1 n = Ok (wanted (w <? 0) (Z.abs w) off (word id0 id1)).
Proof.
  intros l Nl No Nd F. unfold newBitField64, codec_of. rewrite split_join.
  - assert (Sm : small (place 0 l)) by (eapply Forall_impl; [|exact F]; intros ((n, o), w); cbn; lia).
    rewrite parse_layout by (auto; lia). eexists. split; [reflexivity|]. intros id0 id1 n off w H0 H1 J R.
    assert (Nm : map fname (map (fun p => mk_field (fst (fst p)) (snd (fst p)) (snd p)) (place 0 l)) = map (fun i => fst (fst i)) l).
    { rewrite map_map. cbn [fname mk_field]. generalize 0. clear. induction l as [|((n, o), w) l IH]; intros c; [reflexivity|]. cbn [place map fst snd]. now rewrite IH. }
    apply In_nth_error in J. destruct J as (k & Ek). unfold get, index.
    destruct (index_from_spec (map (fun p => mk_field (fst (fst p)) (snd (fst p)) (snd p)) (place 0 l)) 0 n 0 ltac:(rewrite Nm; exact Nd)) as (H & _).
    assert (Ef : nth_error (map (fun p => mk_field (fst (fst p)) (snd (fst p)) (snd p)) (place 0 l)) k = Some (mk_field n off w)) by (rewrite nth_error_map, Ek; reflexivity).
    rewrite (H k _ Ef eq_refl). rewrite Nat.add_0_l, Ef. f_equal.
    rewrite Forall_forall in F. specialize (F _ (nth_error_In _ _ Ek)). cbn [fst snd] in F. apply field_value_ok; auto; [lia|]. unfold in_reach. lia.
  - destruct l; [congruence|discriminate].
  - rewrite Forall_map. eapply Forall_impl; [|exact No]. intros i. apply item_nocomma.
Qed.

(* ---- encoding ---- *)
(* values at their fields *)
Fixpoint pack (l : list (str * Z * Z)) (vs : list Z) : Z :=
  match l, vs with (_, off, w) :: l', v :: vs' => (v mod 2 ^ Z.abs w) * 2 ^ off + pack l' vs' | _, _ => 0 end.
(* fields one after the other, gaps allowed *)
Fixpoint ordered (cur : Z) (l : list (str * Z * Z)) : Prop :=
  match l with [] => True | (_, off, w) :: l' => cur <= off /\ ordered (off + Z.abs w) l' end.
Lemma pack_div : forall l vs cur, 0 <= cur -> ordered cur l -> length vs = length l -> exists q, 0 <= q /\ pack l vs = q * 2 ^ cur.
Proof.
  induction l as [|((n, off), w) l IH]; intros vs cur Hc Ho Hl; [exists 0; cbn; lia|]. destruct vs as [|v vs]; [discriminate|]. cbn [pack ordered length] in *.
  destruct Ho as (H1 & H2). destruct (IH vs (off + Z.abs w)) as (q & Hq & ->); [lia|auto|lia|].
  pose proof (pow2_pos (Z.abs w) ltac:(lia)). pose proof (Z.mod_pos_bound v (2 ^ Z.abs w) ltac:(lia)).
  exists ((v mod 2 ^ Z.abs w) * 2 ^ (off - cur) + q * 2 ^ (off + Z.abs w - cur)).
  assert (P1 : 2 ^ off = 2 ^ (off - cur) * 2 ^ cur) by (rewrite <- Z.pow_add_r by lia; f_equal; lia).
  assert (P2 : 2 ^ (off + Z.abs w) = 2 ^ (off + Z.abs w - cur) * 2 ^ cur) by (rewrite <- Z.pow_add_r by lia; f_equal; lia).
  pose proof (pow2_pos (off - cur) ltac:(lia)). pose proof (pow2_pos (off + Z.abs w - cur) ltac:(lia)). split; [nia|]. rewrite P1, P2. ring.
Qed.
Lemma pack_get : forall l vs cur k n off w v, 0 <= cur -> ordered cur l -> length vs = length l -> nth_error l k = Some (n, off, w) -> nth_error vs k = Some v ->
  (pack l vs / 2 ^ off) mod 2 ^ Z.abs w = v mod 2 ^ Z.abs w /\ cur <= off.
Proof.
  induction l as [|((n1, o1), w1) l IH]; intros vs cur k n off w v Hc Ho Hl E1 E2; [destruct k; discriminate|]. destruct vs as [|v1 vs]; [discriminate|].
  cbn [pack ordered length] in *. destruct Ho as (H1 & H2). destruct (pack_div l vs (o1 + Z.abs w1)) as (q & Hq & Eq); [lia|auto|lia|].
  pose proof (pow2_pos o1 ltac:(lia)). pose proof (pow2_pos (Z.abs w1) ltac:(lia)). destruct k as [|k]; cbn [nth_error] in *.
  - injection E1 as -> -> ->. injection E2 as ->. split; [|lia]. rewrite Eq, Z.pow_add_r by lia.
    replace (v mod 2 ^ Z.abs w * 2 ^ off + q * (2 ^ off * 2 ^ Z.abs w)) with ((v mod 2 ^ Z.abs w + q * 2 ^ Z.abs w) * 2 ^ off) by ring.
    rewrite Z.div_mul by lia. rewrite Z_mod_plus_full, Z.mod_mod by lia. reflexivity.
  - destruct (IH vs (o1 + Z.abs w1) k n off w v) as (E & L); auto; [lia|]. split; [|lia]. rewrite <- E. f_equal.
    pose proof (Z.mod_pos_bound v1 (2 ^ Z.abs w1) ltac:(lia)) as B.
    assert (P2 : 2 ^ off = 2 ^ (o1 + Z.abs w1) * 2 ^ (off - (o1 + Z.abs w1))) by (rewrite <- Z.pow_add_r by lia; f_equal; lia).
    pose proof (pow2_pos (off - (o1 + Z.abs w1)) ltac:(lia)). pose proof (pow2_pos (o1 + Z.abs w1) ltac:(lia)) as Pc.
    rewrite P2, <- !Z.div_div by lia. f_equal. rewrite Eq. rewrite Z.div_add, Z.div_mul by lia.
    rewrite Z.div_small; [lia|]. rewrite Z.pow_add_r by lia. nia.
Qed.
Lemma pack_bound : forall l vs cur, 0 <= cur -> ordered cur l -> length vs = length l -> forall m, cur <= m -> Forall (fun p => snd (fst p) + Z.abs (snd p) <= m) l -> 0 <= pack l vs < 2 ^ m.
Proof.
  induction l as [|((n, off), w) l IH]; intros vs cur Hc Ho Hl m Hm F; [cbn [pack]; pose proof (pow2_pos m ltac:(lia)); lia|]. destruct vs as [|v vs]; [discriminate|].
  cbn [pack ordered length] in *. destruct Ho as (H1 & H2). inversion F as [|? ? F1 F2]; subst. cbn [fst snd] in F1.
  destruct (pack_div l vs (off + Z.abs w)) as (q & Hq & Eq); [lia|auto|lia|]. specialize (IH vs (off + Z.abs w) ltac:(lia) H2 ltac:(lia) m ltac:(lia) F2). rewrite Eq in *.
  pose proof (pow2_pos off ltac:(lia)). pose proof (pow2_pos (Z.abs w) ltac:(lia)). pose proof (Z.mod_pos_bound v (2 ^ Z.abs w) ltac:(lia)).
  assert (P2 : 2 ^ m = 2 ^ (off + Z.abs w) * 2 ^ (m - (off + Z.abs w))) by (rewrite <- Z.pow_add_r by lia; f_equal; lia).
  pose proof (pow2_pos (m - (off + Z.abs w)) ltac:(lia)). pose proof (pow2_pos (off + Z.abs w) ltac:(lia)). rewrite P2 in *.
  assert (q < 2 ^ (m - (off + Z.abs w))) by nia. rewrite Z.pow_add_r in * by lia. nia.
Qed.
Theorem C29_round_trip_partial : forall l vs, l <> [] -> Forall (fun i => name_ok (fst (fst i))) l -> NoDup (map (fun i => fst (fst i)) l) ->
  ordered 0 (place 0 l) -> Forall (fun p => snd p <> 0 /\ snd (fst p) + Z.abs (snd p) <= 63) (place 0 l) -> length vs = length l ->
  exists fs id0 id1, newBitField64 (codec_of l) = Ok fs /\ inS 32 id0 /\ inS 32 id1 /\ word id0 id1 = pack (place 0 l) vs /\
    forall k n off w v, nth_error (place 0 l) k = Some (n, off, w) -> nth_error vs k = Some v ->
      (if w <? 0 then inS (Z.abs w) v else inU (Z.abs w) v) -> get fs id0 id1 n = Ok v.
Proof.
  intros l vs Nl No Nd Or F Lv. set (P := pack (place 0 l) vs).
  assert (Lp : length (place 0 l) = length l). { generalize 0. clear. induction l as [|((n, o), w) l IH]; intros c; [reflexivity|]. cbn [place length]. now rewrite IH. }
  assert (F0 : Forall (fun p => 0 <= snd (fst p)) (place 0 l)).
  { revert Or. generalize (place 0 l). clear. assert (forall l c, 0 <= c -> ordered c l -> Forall (fun p => 0 <= snd (fst p)) l); [|intros; eapply H; eauto; lia].
    induction l as [|((n, o), w) l IH]; intros c Hc Ho; [constructor|]. cbn [ordered] in Ho. constructor; [cbn; lia|]. eapply IH; [|apply Ho]. lia. }
  destruct (C29_decode_partial l Nl No Nd) as (fs & E & D).
  { rewrite Forall_forall in *. intros p J. specialize (F p J). specialize (F0 p J). lia. }
  assert (B : 0 <= P < 2 ^ 63).
  { apply (pack_bound _ _ 0); auto; try lia. eapply Forall_impl; [|exact F]. cbn. tauto. }
  exists fs, (wrapS 32 P), (wrapS 32 (P / 2 ^ 32)). split; auto. split; [apply wrapS_inS; lia|]. split; [apply wrapS_inS; lia|].
  assert (W : word (wrapS 32 P) (wrapS 32 (P / 2 ^ 32)) = P).
  { unfold word. pose proof (wrapU_wrapS 32 P ltac:(lia)) as E1. pose proof (wrapU_wrapS 32 (P / 2 ^ 32) ltac:(lia)) as E2. unfold wrapU in E1, E2. rewrite E1, E2.
    assert (P / 2 ^ 32 < 2 ^ 32) by (apply Z.div_lt_upper_bound; lia). rewrite (Z.mod_small (P / 2 ^ 32)) by (split; [apply Z.div_pos; lia|lia]).
    pose proof (Z.div_mod P (2 ^ 32)). lia. }
  split; auto. intros k n off w v E1 E2 Rv.
  assert (J : In (n, off, w) (place 0 l)) by (eapply nth_error_In; eauto).
  rewrite (D _ _ n off w); auto; [|apply wrapS_inS; lia|apply wrapS_inS; lia|left; rewrite Forall_forall in F; specialize (F _ J); cbn in F; lia].
  rewrite W. f_equal. destruct (pack_get (place 0 l) vs 0 k n off w v ltac:(lia) Or ltac:(lia) E1 E2) as (Eg & _).
  assert (Hw : 0 < Z.abs w) by (rewrite Forall_forall in F; specialize (F _ J); cbn in F; lia).
  unfold wanted, P. destruct (w <? 0).
  - rewrite <- wrapS_mod, Eg, wrapS_mod by lia. apply wrapS_id; auto.
  - rewrite Eg. apply Z.mod_small. exact Rv.
Qed.
(* The description of a layout is a layout with the same fields. *)
Theorem C29_description : forall l, l <> [] -> Forall (fun i => name_ok (fst (fst i))) l -> small (place 0 l) ->
  exists fs, newBitField64 (codec_of l) = Ok fs /\ newBitField64 (describe fs) = Ok fs.
Proof.
  intros l Nl No Sm. assert (E : newBitField64 (codec_of l) = Ok (map (fun p => mk_field (fst (fst p)) (snd (fst p)) (snd p)) (place 0 l))).
  { unfold newBitField64, codec_of. rewrite split_join; [apply parse_layout; auto; lia|destruct l; [congruence|discriminate]|rewrite Forall_map; eapply Forall_impl; [|exact No]; intros i; apply item_nocomma]. }
  eexists. split; [exact E|]. set (l2 := map (fun p => (fst (fst p), Some (snd (fst p)), snd p)) (place 0 l) : list item).
  assert (Ed : describe (map (fun p => mk_field (fst (fst p)) (snd (fst p)) (snd p)) (place 0 l)) = codec_of l2).
  { unfold describe, codec_of, l2. f_equal. rewrite !map_map. apply map_ext_in. intros ((n, o), w) J. cbn [fst snd fname foff fsigned fwidth mk_field item_text].
    unfold small in Sm. rewrite Forall_forall in Sm. specialize (Sm _ J). cbn [fst snd] in Sm. assert (E1 : iabs w = Z.abs w) by (unfold iabs; destruct (Z.ltb_spec w 0); [rewrite wrapS_id by (unfold inS; lia); lia|lia]). rewrite E1.
    replace (if w <? 0 then - Z.abs w else Z.abs w) with w by (destruct (Z.ltb_spec w 0); lia). reflexivity. }
  assert (Ep : forall c, place c l2 = place 0 l).
  { unfold l2. generalize (place 0 l). clear. induction l as [|((n, o), w) l IH]; intros c; [reflexivity|]. cbn [map place fst snd]. now rewrite IH. }
  assert (Nn : Forall (fun i => name_ok (fst (fst i))) l2).
  { unfold l2. rewrite Forall_map. cbn [fst]. clear -No. revert No. generalize 0. induction l as [|((n, o), w) l IH]; intros c No; [constructor|]. inversion No; subst. cbn [place]. constructor; [assumption|auto]. }
  rewrite Ed. unfold newBitField64, codec_of. rewrite split_join.
  - rewrite parse_layout; [rewrite Ep; reflexivity|lia|exact Nn|rewrite Ep; exact Sm].
  - unfold l2. destruct l as [|((n, o), w) l]; [congruence|discriminate].
  - rewrite Forall_map. eapply Forall_impl; [|exact Nn]. intros i. apply item_nocomma.
Qed.

(* ---- examples and limits ---- *)
(* "M:3,S-1:3,I:9,J:-9,x:32:-16" *)
Definition ex_layout : list item := [([77], None, 3); ([83; 45; 49], None, 3); ([73], None, 9); ([74], None, -9); ([120], Some 32, -16)].
Example C29_example : exists fs id0 id1, newBitField64 (codec_of ex_layout) = Ok fs /\ inS 32 id0 /\ inS 32 id1 /\
  get fs id0 id1 [77] = Ok 5 /\ get fs id0 id1 [83; 45; 49] = Ok 7 /\ get fs id0 id1 [73] = Ok 300 /\ get fs id0 id1 [74] = Ok (-200) /\ get fs id0 id1 [120] = Ok (-3).
Proof.
  destruct (C29_round_trip_partial ex_layout [5; 7; 300; -200; -3]) as (fs & id0 & id1 & E & I0 & I1 & _ & G).
  - discriminate.
  - repeat constructor; cbn; intuition discriminate.
  - repeat constructor; cbn; intuition discriminate.
  - cbn. lia.
  - repeat constructor; cbn; lia.
  - reflexivity.
  - exists fs, id0, id1. split; auto. split; auto. split; auto.
    repeat split; [eapply (G 0%nat)|eapply (G 1%nat)|eapply (G 2%nat)|eapply (G 3%nat)|eapply (G 4%nat)]; try reflexivity; cbn; unfold inU, inS; cbn; lia.
Qed.
(* A field that reaches the last bit of the id: signed or not, the value is wrong. *)
Theorem C29_last_bit_refuted : exists l fs id0 id1, newBitField64 (codec_of l) = Ok fs /\ inS 32 id0 /\ inS 32 id1 /\
  Forall (fun p => 0 <= snd (fst p) /\ 0 < Z.abs (snd p) /\ snd (fst p) + Z.abs (snd p) <= 64) (place 0 l) /\
  (exists n off w v, In (n, off, w) (place 0 l) /\ 0 < w /\ get fs id0 id1 n = Ok v /\ v <> wanted false w off (word id0 id1) /\ v < 0) /\
  (exists n off w v, In (n, off, w) (place 0 l) /\ w < 0 /\ get fs id0 id1 n = Ok v /\ v <> wanted true (- w) off (word id0 id1)).
Proof.
  exists [([97], Some 60, 4); ([98], Some 60, -4)]. eexists _, 0, (-1). split; [vm_compute; reflexivity|]. split; [unfold inS; lia|]. split; [unfold inS; lia|].
  split; [repeat constructor; cbn; lia|]. split.
  - exists [97], 60, 4, (-1). split; [cbn; auto|]. split; [lia|]. split; [vm_compute; reflexivity|]. split; [vm_compute; discriminate|lia].
  - exists [98], 60, (-4), (-17). split; [cbn; auto|]. split; [lia|]. split; [vm_compute; reflexivity|]. vm_compute. discriminate.
Qed.
(* A name that is not in the layout gives the first field. *)
Theorem C29_unknown_refuted : exists l fs n, newBitField64 (codec_of l) = Ok fs /\ ~ In n (map fname fs) /\ forall a b, get fs a b n = get fs a b (match l with (n0, _, _) :: _ => n0 | [] => [] end).
Proof. exists ex_layout. eexists _, [122]. split; [vm_compute; reflexivity|]. split; [cbn; intuition discriminate|]. intros a b. reflexivity. Qed.

Print Assumptions C29_decode_partial.
Print Assumptions C29_round_trip_partial.
Print Assumptions C29_description.
Print Assumptions C29_last_bit_refuted.
Print Assumptions C29_unknown_refuted.
