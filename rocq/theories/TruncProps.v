(* C10: truncated floats. *)
From Coq Require Import ZArith List Bool Lia QArith Qround Lqa.
From Verif Require Import Bytes Bits TruncModel.
Local Open Scope Z_scope.

(* a float32 pattern from its fields *)
Definition f32 (s : bool) (e m : Z) : Z := (if s then 2 ^ 31 else 0) + e * 2 ^ 23 + m.
(* normal and subnormal non-zero numbers *)
Definition fields_ok (e m : Z) : Prop := 0 <= e < 255 /\ 0 <= m < 2 ^ 23 /\ 0 < e * 2 ^ 23 + m.

(* the mantissa rounded (half up) to nbits bits *)
Definition rounded (nbits m : Z) : Z := (m + 2 ^ (22 - nbits)) / 2 ^ (23 - nbits).

Lemma f32_neg_sign s e m : fields_ok e m -> f32_neg (f32 s e m) = s.
Proof.
  intros (H1 & H2 & H3). unfold f32_neg, f32. destruct s.
  - apply andb_true_iff. split; [apply Z.ltb_lt|apply Z.leb_le]; lia.
  - apply andb_false_iff. left. apply Z.ltb_ge. lia.
Qed.

Lemma exp_field s e m : 0 <= e < 256 -> 0 <= m < 2 ^ 23 ->
  Z.land 255 (shr (shl 32 (f32 s e m) 1) 24) = e.
Proof.
  intros He Hm. unfold shr, shl, wrapU, f32. rewrite Z.shiftl_mul_pow2, Z.shiftr_div_pow2 by lia.
  change 255 with (2 ^ 8 - 1). rewrite Z.land_comm, land_mask by lia.
  assert (E : (((if s then 2 ^ 31 else 0) + e * 2 ^ 23 + m) * 2 ^ 1) mod 2 ^ 32 = e * 2 ^ 24 + m * 2).
  { destruct s.
    - replace ((2 ^ 31 + e * 2 ^ 23 + m) * 2 ^ 1) with (e * 2 ^ 24 + m * 2 + 1 * 2 ^ 32) by lia.
      rewrite Z_mod_plus_full, Z.mod_small; lia.
    - rewrite Z.mod_small; lia. }
  rewrite E. replace (e * 2 ^ 24 + m * 2) with (m * 2 + e * 2 ^ 24) by lia.
  rewrite Z.div_add by lia. rewrite (Z.div_small (m * 2)) by lia. rewrite Z.mod_small; lia.
Qed.

(* the value written before the "overflow" test *)
Lemma man_field s e m n : 1 <= n <= 14 -> 0 <= e < 256 -> 0 <= m < 2 ^ 23 ->
  shr (wrapU 16 (wrapU 16 (Z.land (wrapU 32 (shl 32 1 (n + 1) - 1)) (shr (f32 s e m) (23 - n - 1))) + 1)) 1
  = rounded n m /\ 0 <= rounded n m <= 2 ^ n.
Proof.
  intros Hn He Hm.
  assert (P0 : 2 ^ (n + 1) = 2 * 2 ^ n) by (rewrite Z.pow_add_r by lia; lia).
  assert (P1 : 0 < 2 ^ n) by (apply pow2_pos; lia).
  assert (P2 : 2 ^ n <= 2 ^ 14) by (apply Z.pow_le_mono_r; lia).
  assert (Q0 : 0 < 2 ^ (22 - n)) by (apply pow2_pos; lia).
  assert (Q1 : 2 ^ (23 - n) = 2 * 2 ^ (22 - n)) by (replace (23 - n) with (1 + (22 - n)) by lia; rewrite Z.pow_add_r by lia; lia).
  assert (Q2 : 2 ^ 23 = 2 ^ (n + 1) * 2 ^ (22 - n)) by (rewrite <- Z.pow_add_r by lia; f_equal; lia).
  assert (M1 : wrapU 32 (shl 32 1 (n + 1) - 1) = 2 ^ (n + 1) - 1).
  { unfold shl, wrapU. rewrite Z.shiftl_mul_pow2, Z.mul_1_l by lia. rewrite !Z.mod_small; try lia.
    rewrite Z.mod_small; lia. }
  rewrite M1. rewrite Z.land_comm, land_mask by lia. unfold shr. rewrite !Z.shiftr_div_pow2 by lia.
  replace (23 - n - 1) with (22 - n) by lia.
  set (q := m / 2 ^ (22 - n)).
  assert (Hq : 0 <= q < 2 ^ (n + 1)).
  { unfold q. split; [apply Z.div_pos; lia|]. apply Z.div_lt_upper_bound; lia. }
  assert (E : (f32 s e m / 2 ^ (22 - n)) mod 2 ^ (n + 1) = q).
  { unfold f32. replace ((if s then 2 ^ 31 else 0) + e * 2 ^ 23 + m)
      with (m + ((if s then 2 ^ 8 else 0) + e) * 2 ^ (n + 1) * 2 ^ (22 - n)).
    - rewrite Z.div_add by lia. rewrite Z_mod_plus_full. fold q. apply Z.mod_small; auto.
    - rewrite <- Z.mul_assoc, <- Q2. destruct s; lia. }
  rewrite E. unfold wrapU. rewrite (Z.mod_small q) by lia. rewrite (Z.mod_small (q + 1)) by lia.
  change (2 ^ 1) with 2.
  assert (R : (q + 1) / 2 = rounded n m).
  { unfold rounded. rewrite Q1, Z.mul_comm, <- Z.div_div by lia. f_equal.
    unfold q. rewrite <- (Z.div_add m 1) by lia. f_equal. lia. }
  split; auto. rewrite <- R. split; [apply Z.div_pos; lia|]. apply Z.div_le_upper_bound; lia.
Qed.

Lemma shl_id w v n : 0 <= n -> 0 <= v * 2 ^ n < 2 ^ w -> shl w v n = v * 2 ^ n.
Proof. intros. unfold shl, wrapU. rewrite Z.shiftl_mul_pow2 by auto. apply Z.mod_small; auto. Qed.

(* what is decoded for each value: the sign and exponent are kept unless the mantissa field
   reaches 2^n; the mantissa field is the rounded one when even, all ones when odd *)
Definition mantissa_field (n m : Z) : Z := if Z.odd (rounded n m) then 2 ^ n - 1 else rounded n m.

Theorem C10_nbits_behaviour n s e m : 1 <= n <= 14 -> fields_ok e m ->
  decode_nbits n (encode_nbits n (f32 s e m)) =
  (if s then 2 ^ 31 else 0) + Z.lor (e * 2 ^ 23) (mantissa_field n m * 2 ^ (23 - n)).
Proof.
  intros Hn HF. pose proof HF as (He & Hm & _). unfold encode_nbits.
  rewrite exp_field, f32_neg_sign by (auto; lia). destruct (man_field s e m n Hn) as [-> HR]; try lia.
  assert (P0 : 2 ^ (n + 1) = 2 * 2 ^ n) by (rewrite Z.pow_add_r by lia; lia).
  assert (P1 : 2 <= 2 ^ n) by (change 2 with (2 ^ 1) at 1; apply Z.pow_le_mono_r; lia).
  assert (P2 : 2 ^ n <= 2 ^ 14) by (apply Z.pow_le_mono_r; lia).
  assert (Q2 : 2 ^ 23 = 2 ^ n * 2 ^ (23 - n)) by (rewrite <- Z.pow_add_r by lia; f_equal; lia).
  assert (Q0 : 0 < 2 ^ (23 - n)) by (apply pow2_pos; lia).
  assert (MF : (if negb (shl 16 (Z.land (rounded n m) 1) n =? 0) then wrapU 16 (shl 16 1 n - 1) else rounded n m) = mantissa_field n m).
  { unfold mantissa_field. change 1 with (2 ^ 1 - 1) at 1. rewrite land_mask by lia. change (2 ^ 1) with 2.
    rewrite Zmod_odd. destruct (Z.odd (rounded n m)).
    - rewrite !shl_id by lia. destruct (Z.eqb_spec (1 * 2 ^ n) 0); [lia|]. cbn [negb].
      unfold wrapU. rewrite Z.mod_small; lia.
    - rewrite shl_id by lia. reflexivity. }
  rewrite MF. set (k := mantissa_field n m).
  assert (Hk : 0 <= k <= 2 ^ n) by (unfold k, mantissa_field; destruct (Z.odd _); lia).
  unfold decode_nbits. rewrite !(shl_id 16 1), !(shl_id 32 1) by lia. rewrite !Z.mul_1_l.
  rewrite (shl_id 32 e 23) by lia.
  assert (W : wrapU 32 (2 ^ (n + 1) - 1) = 2 ^ (n + 1) - 1) by (unfold wrapU; apply Z.mod_small; lia).
  rewrite W. rewrite land_mask by lia.
  assert (Hfin : forall x, 0 <= x < 2 ^ 31 -> Z.lxor x (2 ^ 31) = 2 ^ 31 + x).
  { intros x Hx. rewrite Z.add_comm. symmetry. apply Z.add_nocarry_lxor.
    rewrite <- (Z.mul_1_l (2 ^ 31)). apply land_low_high; lia. }
  assert (HL : 0 <= Z.lor (e * 2 ^ 23) (k * 2 ^ (23 - n)) < 2 ^ 31).
  { assert (0 <= k * 2 ^ (23 - n) <= 2 ^ 23) by nia.
    split; [apply Z.lor_nonneg; nia|].
    destruct (Z.eq_dec (Z.lor (e * 2 ^ 23) (k * 2 ^ (23 - n))) 0) as [->|Hne]; [lia|].
    assert (0 <= Z.lor (e * 2 ^ 23) (k * 2 ^ (23 - n))) by (apply Z.lor_nonneg; nia).
    apply Z.log2_lt_pow2; [lia|]. rewrite Z.log2_lor by nia. apply Z.max_lub_lt.
    - destruct (Z.eq_dec e 0) as [->|]; [cbn; lia|]. apply Z.log2_lt_pow2; nia.
    - destruct (Z.eq_dec (k * 2 ^ (23 - n)) 0) as [->|]; [cbn; lia|]. apply Z.log2_lt_pow2; lia. }
  destruct s.
  - rewrite lor_pow2 by lia. rewrite Z.land_comm, land_pow2_nz by lia.
    rewrite testbit_add_pow2 by lia. cbn [negb].
    replace ((k + 2 ^ (n + 1)) mod 2 ^ (n + 1)) with k.
    + rewrite shl_id by nia. rewrite Hfin by auto. lia.
    + rewrite <- (Z.mul_1_l (2 ^ (n + 1))) at 1. rewrite Z_mod_plus_full, Z.mod_small; lia.
  - rewrite Z.land_comm, land_pow2_nz by lia. rewrite (testbit_small k (n + 1)) by lia. cbn [negb].
    rewrite Z.mod_small by lia. rewrite shl_id by nia. lia.
Qed.

(* values whose rounded mantissa is even and did not overflow: same sign and exponent, and
   the mantissa is off by at most half a unit of the last kept bit *)
Theorem C10_nbits_close_partial n s e m : 1 <= n <= 14 -> fields_ok e m ->
  Z.even (rounded n m) = true -> rounded n m < 2 ^ n ->
  exists m', decode_nbits n (encode_nbits n (f32 s e m)) = f32 s e m' /\ 0 <= m' < 2 ^ 23 /\
    (2 ^ (23 - n) | m') /\ Z.abs (m' - m) <= 2 ^ (22 - n).
Proof.
  intros Hn HF HE HO. rewrite C10_nbits_behaviour by auto. pose proof HF as (He & Hm & _).
  unfold mantissa_field. rewrite <- Z.negb_even, HE. cbn [negb].
  assert (Q1 : 2 ^ (23 - n) = 2 * 2 ^ (22 - n)) by (replace (23 - n) with (1 + (22 - n)) by lia; rewrite Z.pow_add_r by lia; lia).
  assert (Q2 : 2 ^ 23 = 2 ^ n * 2 ^ (23 - n)) by (rewrite <- Z.pow_add_r by lia; f_equal; lia).
  assert (Q0 : 0 < 2 ^ (22 - n)) by (apply pow2_pos; lia).
  destruct (man_field s e m n Hn) as [_ HR]; try lia.
  exists (rounded n m * 2 ^ (23 - n)). split; [|split; [nia|split; [exists (rounded n m); auto|]]].
  - unfold f32. rewrite lor_high_low by nia. lia.
  - unfold rounded. pose proof (Z.div_mod (m + 2 ^ (22 - n)) (2 ^ (23 - n)) ltac:(lia)).
    pose proof (Z.mod_pos_bound (m + 2 ^ (22 - n)) (2 ^ (23 - n)) ltac:(lia)). nia.
Qed.

(* every value whose rounded mantissa is odd decodes to the top of its binade: the claimed
   precision is lost for half of all values, whatever the number of bits *)
Theorem C10_nbits_refuted n s e m : 1 <= n <= 14 -> fields_ok e m -> Z.odd (rounded n m) = true ->
  decode_nbits n (encode_nbits n (f32 s e m)) = f32 s e (2 ^ 23 - 2 ^ (23 - n)).
Proof.
  intros Hn HF HO. rewrite C10_nbits_behaviour by auto. pose proof HF as (He & Hm & _).
  unfold mantissa_field. rewrite HO.
  assert (Q2 : 2 ^ 23 = 2 ^ n * 2 ^ (23 - n)) by (rewrite <- Z.pow_add_r by lia; f_equal; lia).
  assert (Q0 : 0 < 2 ^ (23 - n)) by (apply pow2_pos; lia).
  assert (P1 : 0 < 2 ^ n) by (apply pow2_pos; lia).
  rewrite lor_high_low by nia. unfold f32. nia.
Qed.

(* 1 + 2^-12, exactly representable with the default 12 bits, is read back as 1.99975... *)
Example C10_witness : fields_ok 127 (2 ^ 11) /\
  decode_nbits 12 (encode_nbits 12 (f32 false 127 (2 ^ 11))) = f32 false 127 (2 ^ 23 - 2 ^ 11).
Proof. split; [unfold fields_ok; lia|reflexivity]. Qed.
(* 1.99999 (mantissa all ones) is read back as 1 *)
Example C10_witness_overflow : decode_nbits 12 (encode_nbits 12 (f32 false 127 (2 ^ 23 - 1))) = f32 false 127 0.
Proof. reflexivity. Qed.
Example C10_even_example : fields_ok 127 (2 ^ 22) /\ Z.even (rounded 12 (2 ^ 22)) = true /\ rounded 12 (2 ^ 22) < 2 ^ 12.
Proof. split; [unfold fields_ok; lia|]. split; [reflexivity|]. cbn; lia. Qed.

(* range encoding, exact arithmetic: within half a step of the clamped value *)
Definition clamp (lo hi x : Q) : Q :=
  if Qlt_le_dec x lo then lo else if Qlt_le_dec hi x then hi else x.
Theorem C10_range_partial (f lo hi x : Q) : (0 < f)%Q -> (lo <= hi)%Q ->
  let y := decode_range f lo (encode_range f lo hi x) in
  (y - clamp lo hi x <= / (2 * f))%Q /\ (clamp lo hi x - y < / (2 * f))%Q /\
  0 <= encode_range f lo hi x.
Proof.
  intros Hf Hlh y. unfold y, decode_range, encode_range.
  set (c := clamp lo hi x).
  assert (Hc : (if Qlt_le_dec hi (if Qlt_le_dec x lo then lo else x) then hi
              else if Qlt_le_dec x lo then lo else x) = c).
  { unfold c, clamp. destruct (Qlt_le_dec x lo); destruct (Qlt_le_dec hi _); auto; lra. }
  rewrite Hc.
  assert (Hlo : (lo <= c)%Q) by (unfold c, clamp; destruct (Qlt_le_dec x lo); [lra|]; destruct (Qlt_le_dec hi x); lra).
  set (t := ((1 # 2) + f * (c - lo))%Q).
  pose proof (Qfloor_le t) as F1. pose proof (Qlt_floor t) as F2.
  set (k := inject_Z (Qfloor t)) in *.
  assert (F2' : (t < k + 1)%Q).
  { unfold k. rewrite inject_Z_plus in F2. exact F2. }
  assert (Hk : (k / f + lo - c == (k - f * (c - lo)) / f)%Q) by (field; lra).
  assert (H2f : (/ (2 * f) == (1 # 2) / f)%Q) by (field; lra).
  assert (Hif : (0 < / f)%Q) by (apply Qinv_lt_0_compat; auto).
  assert (U1 : (k - f * (c - lo) <= 1 # 2)%Q) by (unfold t in *; lra).
  assert (U2 : (- (1 # 2) < k - f * (c - lo))%Q) by (unfold t in *; lra).
  split; [|split].
  - rewrite Hk, H2f. unfold Qdiv. apply Qmult_le_compat_r; lra.
  - setoid_replace (c - (k / f + lo))%Q with (- ((k - f * (c - lo)) / f))%Q by (field; lra).
    rewrite H2f. setoid_replace (- ((k - f * (c - lo)) / f))%Q with ((f * (c - lo) - k) / f)%Q by (field; lra).
    unfold Qdiv. apply Qmult_lt_compat_r; [exact Hif|lra].
  - assert (0 <= f * (c - lo))%Q by (apply Qmult_le_0_compat; lra).
    assert (X : (inject_Z 0 <= t)%Q) by (change (inject_Z 0) with 0%Q; unfold t; lra).
    apply Qfloor_resp_le in X. rewrite Qfloor_Z in X. exact X.
Qed.

Print Assumptions C10_nbits_behaviour.
Print Assumptions C10_nbits_close_partial.
Print Assumptions C10_nbits_refuted.
Print Assumptions C10_range_partial.
