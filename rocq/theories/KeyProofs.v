(* Lemmas on packed dates and key codecs. *)
From Coq Require Import ZArith List Lia Bool.
From Verif Require Import Bytes Bits GoLib RbytesModel RbytesProofs RdMonad GoStrings FreelistModel KeyModel.
Import ListNotations.
Local Open Scope Z_scope.
Local Arguments be : simpl never.

Definition date_ok (t : civil) : Prop := civil_ok t = true /\ 1995 <= cYear t <= 2058.
Definition pack (t : civil) : Z :=
  ((((((cYear t - 1995) * 2 ^ 4 + cMonth t) * 2 ^ 5 + cDay t) * 2 ^ 5 + cHour t) * 2 ^ 6 + cMin t) * 2 ^ 6 + cSec t).

Lemma days_in_le y m : days_in y m <= 31.
Proof. unfold days_in. repeat destruct (_ : bool); simpl; destruct (m =? 2); try lia; destruct (leap y); try lia; repeat destruct (_ || _); lia. Qed.
Lemma civil_ok_ranges t : civil_ok t = true ->
  1 <= cMonth t <= 12 /\ 1 <= cDay t <= 31 /\ 0 <= cHour t <= 23 /\ 0 <= cMin t <= 59 /\ 0 <= cSec t <= 59.
Proof.
  unfold civil_ok. rewrite !andb_true_iff, !Z.leb_le. intros H.
  pose proof (days_in_le (cYear t) (cMonth t)). lia.
Qed.

Lemma shl32_small v k : 0 <= k -> 0 <= v -> v * 2 ^ k < 2 ^ 32 -> shl32 v k = v * 2 ^ k.
Proof.
  intros. unfold shl32. rewrite Z.shiftl_mul_pow2 by auto. apply wrapU_id. split; auto.
  apply Z.mul_nonneg_nonneg; auto. apply Z.pow_nonneg; lia.
Qed.

Lemma time2datime_pack t : date_ok t -> time2datime t = Ok (pack t) /\ 0 <= pack t < 2 ^ 32.
Proof.
  intros [C Y]. apply civil_ok_ranges in C. unfold time2datime, pack.
  rewrite (wrapU_id 32 (cYear t)) by (unfold inU; lia).
  destruct (Z.ltb_spec (cYear t) 1995); [lia|].
  rewrite (wrapU_id 32 (cYear t - 1995)) by (unfold inU; lia).
  split; [|lia]. f_equal.
  rewrite !shl32_small by lia.
  rewrite (lor_high_low (cMonth t * 2 ^ 22) (cYear t - 1995) 26) by lia.
  replace (cMonth t * 2 ^ 22 + (cYear t - 1995) * 2 ^ 26)
    with (((cYear t - 1995) * 2 ^ 4 + cMonth t) * 2 ^ 22) by lia.
  rewrite lor_high_low by lia.
  replace (cDay t * 2 ^ 17 + ((cYear t - 1995) * 2 ^ 4 + cMonth t) * 2 ^ 22)
    with ((((cYear t - 1995) * 2 ^ 4 + cMonth t) * 2 ^ 5 + cDay t) * 2 ^ 17) by lia.
  rewrite lor_high_low by lia.
  replace (cHour t * 2 ^ 12 + (((cYear t - 1995) * 2 ^ 4 + cMonth t) * 2 ^ 5 + cDay t) * 2 ^ 17)
    with (((((cYear t - 1995) * 2 ^ 4 + cMonth t) * 2 ^ 5 + cDay t) * 2 ^ 5 + cHour t) * 2 ^ 12) by lia.
  rewrite lor_high_low by lia.
  replace (cMin t * 2 ^ 6 + ((((cYear t - 1995) * 2 ^ 4 + cMonth t) * 2 ^ 5 + cDay t) * 2 ^ 5 + cHour t) * 2 ^ 12)
    with ((((((cYear t - 1995) * 2 ^ 4 + cMonth t) * 2 ^ 5 + cDay t) * 2 ^ 5 + cHour t) * 2 ^ 6 + cMin t) * 2 ^ 6) by lia.
  rewrite lor_high_low by lia. lia.
Qed.

Lemma extract d a b : 0 <= a -> a <= b -> b <= 32 ->
  Z.shiftr (shl32 d a) b = (d / 2 ^ (b - a)) mod 2 ^ (32 - b).
Proof.
  intros. unfold shl32, wrapU. rewrite Z.shiftl_mul_pow2, Z.shiftr_div_pow2 by lia.
  replace (2 ^ 32) with (2 ^ (32 - a) * 2 ^ a) by (rewrite <- Z.pow_add_r by lia; f_equal; lia).
  rewrite Z.mul_mod_distr_r by (apply Z.pow_nonzero; lia).
  replace (2 ^ b) with (2 ^ (b - a) * 2 ^ a) by (rewrite <- Z.pow_add_r by lia; f_equal; lia).
  rewrite Z.div_mul_cancel_r by (apply Z.pow_nonzero; lia).
  replace (2 ^ (32 - a)) with (2 ^ (b - a) * 2 ^ (32 - b)) by (rewrite <- Z.pow_add_r by lia; f_equal; lia).
  rewrite Z.rem_mul_r by (try apply Z.pow_nonzero; try apply Z.pow_pos_nonneg; lia).
  rewrite (Z.add_comm (d mod _)), Z.mul_comm, Z.div_add_l by (apply Z.pow_nonzero; lia).
  rewrite (Z.div_small (d mod _)); [lia|]. apply Z.mod_pos_bound, Z.pow_pos_nonneg; lia.
Qed.
Lemma div_lo a n lo : 0 < n -> 0 <= lo < n -> (a * n + lo) / n = a.
Proof. intros. rewrite Z.div_add_l by lia. rewrite Z.div_small; lia. Qed.
Lemma mod_lo a n lo : 0 < n -> 0 <= lo < n -> (a * n + lo) mod n = lo.
Proof. intros. rewrite Z.add_comm, Z_mod_plus_full. apply Z.mod_small; lia. Qed.

Lemma datime2time_pack t : date_ok t -> datime2time (pack t) = Some t.
Proof.
  intros D. pose proof (time2datime_pack t D) as [_ R]. destruct D as [C Y].
  pose proof (civil_ok_ranges t C) as Rg.
  unfold datime2time. rewrite !extract by lia. rewrite Z.shiftr_div_pow2 by lia.
  set (a1 := (cYear t - 1995) * 2 ^ 4 + cMonth t).
  set (a2 := a1 * 2 ^ 5 + cDay t). set (a3 := a2 * 2 ^ 5 + cHour t). set (a4 := a3 * 2 ^ 6 + cMin t).
  assert (E0 : pack t = a4 * 2 ^ 6 + cSec t) by reflexivity.
  assert (E4 : pack t / 2 ^ 6 = a4) by (rewrite E0; apply div_lo; lia).
  assert (E3 : pack t / 2 ^ 12 = a3).
  { change (2 ^ 12) with (2 ^ 6 * 2 ^ 6). rewrite <- Z.div_div, E4 by lia. apply div_lo; lia. }
  assert (E2 : pack t / 2 ^ 17 = a2).
  { change (2 ^ 17) with (2 ^ 12 * 2 ^ 5). rewrite <- Z.div_div, E3 by lia. apply div_lo; lia. }
  assert (E1 : pack t / 2 ^ 22 = a1).
  { change (2 ^ 22) with (2 ^ 17 * 2 ^ 5). rewrite <- Z.div_div, E2 by lia. apply div_lo; lia. }
  assert (E : pack t / 2 ^ 26 = cYear t - 1995).
  { change (2 ^ 26) with (2 ^ 22 * 2 ^ 4). rewrite <- Z.div_div, E1 by lia. apply div_lo; lia. }
  change (28 - 6) with 22. change (27 - 10) with 17. change (27 - 15) with 12. change (26 - 20) with 6. change (26 - 26) with 0.
  change (32 - 28) with 4. change (32 - 27) with 5. change (32 - 26) with 6.
  rewrite E, E1, E2, E3, E4. change (2 ^ 0) with 1. rewrite Z.div_1_r.
  rewrite wrapU_id by (unfold inU; lia).
  replace (a1 mod 2 ^ 4) with (cMonth t) by (symmetry; apply mod_lo; lia).
  replace (a2 mod 2 ^ 5) with (cDay t) by (symmetry; apply mod_lo; lia).
  replace (a3 mod 2 ^ 5) with (cHour t) by (symmetry; apply mod_lo; lia).
  replace (a4 mod 2 ^ 6) with (cMin t) by (symmetry; apply mod_lo; lia).
  replace (pack t mod 2 ^ 6) with (cSec t) by (rewrite E0; symmetry; apply mod_lo; lia).
  replace (cYear t - 1995 + 1995) with (cYear t) by lia.
  unfold go_Date. replace (mkCivil _ _ _ _ _ _) with t by (now destruct t). now rewrite C.
Qed.
Lemma date_of_pack t : date_ok t -> date_of (pack t) = t.
Proof. intros D. unfold date_of. now rewrite datime2time_pack. Qed.

(* ---- keys ---- *)
Definition enc_key (k : key) : list Z :=
  be 4 (kNbytes k) ++ be 2 (kRvers k) ++ be 4 (kObjlen k) ++ be 4 (pack (kDate k)) ++
  be 2 (kKeylen k) ++ be 2 (kCycle k) ++
  (if 1000 <? kRvers k then be 8 (kSeekkey k) ++ be 8 (kSeekpdir k) else be 4 (kSeekkey k) ++ be 4 (kSeekpdir k)) ++
  enc_string (kClass k) ++ enc_string (kName k) ++ enc_string (kTitle k).

Lemma write_date_emits junk t : date_ok t ->
  emits (fun w => do d <- time2datime t; WriteInt junk 4 d w) (be 4 (pack t)).
Proof.
  intros D. destruct (time2datime_pack t D) as [E _].
  eapply emits_ext; [|apply (WriteInt_emits junk 4 (pack t))]. intros w _. rewrite E. reflexivity.
Qed.

Record key_ok (k : key) : Prop := {
  ko_nbytes : 0 <= kNbytes k < 2 ^ 31;
  ko_rvers : inS 16 (kRvers k);
  ko_objlen : inS 32 (kObjlen k);
  ko_date : date_ok (kDate k);
  ko_keylen : inS 16 (kKeylen k);
  ko_cycle : inS 16 (kCycle k);
  ko_seeks : inS 64 (kSeekkey k) /\ inS 64 (kSeekpdir k);
  ko_small : kRvers k <= 1000 -> inS 32 (kSeekkey k) /\ inS 32 (kSeekpdir k);
  ko_strs : str_ok (kClass k) /\ str_ok (kName k) /\ str_ok (kTitle k) }.

(* the key that the written bytes denote *)
Definition wire (k : key) : key :=
  let k := bump k in
  mkKey (kNbytes k) (kRvers k) (kObjlen k) (kDate k) (wrapS 16 (kKeylen k)) (kCycle k)
        (kSeekkey k) (kSeekpdir k) (kClass k) (kName k) (kTitle k).
Lemma bump_fields k : kNbytes (bump k) = kNbytes k /\ kObjlen (bump k) = kObjlen k /\ kDate (bump k) = kDate k /\
  kKeylen (bump k) = kKeylen k /\ kCycle (bump k) = kCycle k /\ kSeekkey (bump k) = kSeekkey k /\
  kSeekpdir (bump k) = kSeekpdir k /\ kClass (bump k) = kClass k /\ kName (bump k) = kName k /\ kTitle (bump k) = kTitle k.
Proof. unfold bump. destruct (_ <? _); [destruct (_ <? _)|]; repeat split. Qed.

Lemma marshalKey_emits junk k : 0 <= kNbytes k -> date_ok (kDate k) -> emits (marshalKey junk k) (enc_key (wire k)).
Proof.
  intros N D. unfold marshalKey, enc_key. apply w_guard_emits.
  destruct (bump_fields k) as (B1 & B2 & B3 & B4 & B5 & B6 & B7 & B8 & B9 & B10).
  unfold wire; cbn [kNbytes kRvers kObjlen kDate kKeylen kCycle kSeekkey kSeekpdir kClass kName kTitle].
  rewrite B1. destruct (Z.ltb_spec (kNbytes k) 0); [lia|]. cbv zeta.
  apply w_seq_emits; [apply WriteInt_emits|].
  apply w_seq_emits; [apply WriteInt_emits|].
  apply w_seq_emits; [apply WriteInt_emits|].
  apply w_seq_emits; [apply write_date_emits; now rewrite B3|].
  apply w_seq_emits; [apply WriteInt_emits|].
  apply w_seq_emits; [apply WriteInt_emits|].
  apply w_seq_emits.
  { unfold keyBig. destruct (1000 <? kRvers (bump k)); apply w_seq_emits; apply WriteInt_emits. }
  repeat apply w_seq_emits; apply WriteString_emits.
Qed.

Lemma unmarshalKey_reads k0 k : key_ok k -> reads (unmarshalKey k0) (enc_key k) k.
Proof.
  intros [K1 K2 K3 K4 K5 K6 [K7 K7'] K8 [K9 [K10 K11]]]. unfold unmarshalKey, enc_key. apply rd_guard_reads.
  eapply rd_bind_reads; [apply ReadSint_reads; [lia|unfold inS; simpl; lia]|]. cbn beta.
  destruct (Z.ltb_spec (kNbytes k) 0); [lia|].
  eapply rd_bind_reads; [apply ReadSint_reads; [lia|exact K2]|]. cbn beta.
  eapply rd_bind_reads; [apply ReadSint_reads; [lia|exact K3]|]. cbn beta.
  eapply rd_bind_reads; [apply ReadUint_reads; apply (time2datime_pack _ K4)|]. cbn beta.
  eapply rd_bind_reads; [apply ReadSint_reads; [lia|exact K5]|]. cbn beta.
  eapply rd_bind_reads; [apply ReadSint_reads; [lia|exact K6]|]. cbn beta.
  eapply (rd_bind_reads _ _ _ _ (kSeekkey k, kSeekpdir k)).
  { destruct (Z.ltb_spec 1000 (kRvers k)).
    - eapply rd_bind_reads; [apply ReadSint_reads; [lia|exact K7]|]. cbn beta.
      eapply rd_last_reads; [apply ReadSint_reads; [lia|exact K7']|]. reflexivity.
    - destruct (K8 H0) as [K8a K8b].
      eapply rd_bind_reads; [apply ReadSint_reads; [lia|exact K8a]|]. cbn beta.
      eapply rd_last_reads; [apply ReadSint_reads; [lia|exact K8b]|]. reflexivity. }
  cbn beta.
  eapply rd_bind_reads; [apply ReadString_reads, K9|]. cbn beta.
  eapply rd_bind_reads; [apply ReadString_reads, K10|]. cbn beta.
  eapply rd_last_reads; [apply ReadString_reads, K11|].
  rewrite date_of_pack by auto. now destruct k.
Qed.

Lemma enc_string_size v : zlen (enc_string v) = tstringSizeof v.
Proof.
  unfold zlen. rewrite strlen_enc. unfold strlen, tstringSizeof, zlen.
  destruct (Nat.ltb_spec (length v) 255), (Z.ltb_spec 254 (Z.of_nat (length v))); lia.
Qed.
Lemma enc_key_size k : zlen (enc_key k) =
  26 + (if 1000 <? kRvers k then 8 else 0) + tstringSizeof (kClass k) + tstringSizeof (kName k) + tstringSizeof (kTitle k).
Proof.
  unfold enc_key. rewrite !zlen_app, !enc_string_size, !zlen_be.
  destruct (1000 <? kRvers k); rewrite zlen_app, !zlen_be; lia.
Qed.

Lemma marshalKeys_emits junk l : Forall (fun k => 0 <= kNbytes k /\ date_ok (kDate k)) l ->
  emits (marshalKeys junk l) (concat (map (fun k => enc_key (wire k)) l)).
Proof.
  induction 1 as [|k l [N D] F IH]; cbn [marshalKeys map concat]; [apply w_nop_emits|].
  apply w_seq_emits; auto. now apply marshalKey_emits.
Qed.
Lemma readKeys_reads l : Forall key_ok l -> zlen l < 2 ^ 31 ->
  reads readKeys (be 4 (zlen l) ++ concat (map enc_key l)) (map oldDir l).
Proof.
  intros F L. unfold readKeys. pose proof (zlen_nonneg l).
  eapply rd_bind_reads; [apply ReadSint_reads; [lia|unfold inS; simpl; lia]|]. cbn beta.
  intros r A. destruct A as (E & A). rewrite E.
  destruct (Z.ltb_spec (zlen l) 0); [lia|].
  unfold zlen. rewrite Nat2Z.id.
  refine (rd_last_reads (read_n (unmarshalKey key0) (length l)) (map oldDir) _ l _ _ eq_refl r (conj E A)).
  apply read_n_reads. intros v I. apply unmarshalKey_reads. rewrite Forall_forall in F; auto.
Qed.

(* ---- directory header ---- *)
Definition enc_dir (d : dirhdr) : list Z :=
  be 2 (dRvers d) ++ be 4 (pack (dCtime d)) ++ be 4 (pack (dMtime d)) ++ be 4 (dNbyteskeys d) ++ be 4 (dNbytesname d) ++
  (if 1000 <? dRvers d then be 8 (dSeekdir d) ++ be 8 (dSeekparent d) ++ be 8 (dSeekkeys d)
   else be 4 (dSeekdir d) ++ be 4 (dSeekparent d) ++ be 4 (dSeekkeys d)) ++ be 2 1 ++ dUuid d.
Lemma write_emits junk v : v <> [] -> emits (write junk v) v.
Proof.
  intros V w W. destruct (write_step junk v w W) as (w' & E & S & K); [destruct v; [congruence|cbn [length]; lia]|].
  exists w'. split; auto. split; auto. lia.
Qed.
Lemma marshalDir_emits junk d : date_ok (dCtime d) -> date_ok (dMtime d) -> dUuid d <> [] ->
  emits (marshalDir junk d) (enc_dir d).
Proof.
  intros C M U. unfold marshalDir, enc_dir. apply w_guard_emits.
  apply w_seq_emits; [apply WriteInt_emits|].
  apply w_seq_emits; [now apply write_date_emits|].
  apply w_seq_emits; [now apply write_date_emits|].
  apply w_seq_emits; [apply WriteInt_emits|].
  apply w_seq_emits; [apply WriteInt_emits|].
  apply w_seq_emits.
  { destruct (1000 <? dRvers d); repeat apply w_seq_emits; apply WriteInt_emits. }
  apply w_seq_emits; [apply WriteInt_emits|]. now apply write_emits.
Qed.

Record dir_ok (d : dirhdr) : Prop := {
  do_rvers : inS 16 (dRvers d);
  do_new : 2 < Z.rem (dRvers d) 1000;
  do_dates : date_ok (dCtime d) /\ date_ok (dMtime d);
  do_sizes : inS 32 (dNbyteskeys d) /\ inS 32 (dNbytesname d);
  do_seeks : inS 64 (dSeekdir d) /\ inS 64 (dSeekparent d) /\ inS 64 (dSeekkeys d);
  do_small : dRvers d <= 1000 -> inS 32 (dSeekdir d) /\ inS 32 (dSeekparent d) /\ inS 32 (dSeekkeys d);
  do_uuid : length (dUuid d) = 16%nat }.
Lemma unmarshalDir_reads d : dir_ok d -> reads unmarshalDir (enc_dir d) d.
Proof.
  intros [V N [C M] [Sk Sn] [S1 [S2 S3]] Sm U]. unfold unmarshalDir, enc_dir.
  eapply rd_bind_reads; [apply ReadSint_reads; [lia|exact V]|]. cbn beta.
  eapply rd_bind_reads; [apply ReadUint_reads; apply (time2datime_pack _ C)|]. cbn beta.
  eapply rd_bind_reads; [apply ReadUint_reads; apply (time2datime_pack _ M)|]. cbn beta.
  eapply rd_bind_reads; [apply ReadSint_reads; [lia|exact Sk]|]. cbn beta.
  eapply rd_bind_reads; [apply ReadSint_reads; [lia|exact Sn]|]. cbn beta.
  eapply (rd_bind_reads _ _ _ _ (dSeekdir d, dSeekparent d, dSeekkeys d)).
  { destruct (Z.ltb_spec 1000 (dRvers d)).
    - eapply rd_bind_reads; [apply ReadSint_reads; [lia|exact S1]|]. cbn beta.
      eapply rd_bind_reads; [apply ReadSint_reads; [lia|exact S2]|]. cbn beta.
      eapply rd_last_reads; [apply ReadSint_reads; [lia|exact S3]|]. reflexivity.
    - destruct (Sm H) as (T1 & T2 & T3).
      eapply rd_bind_reads; [apply ReadSint_reads; [lia|exact T1]|]. cbn beta.
      eapply rd_bind_reads; [apply ReadSint_reads; [lia|exact T2]|]. cbn beta.
      eapply rd_last_reads; [apply ReadSint_reads; [lia|exact T3]|]. reflexivity. }
  cbn beta. eapply rd_last_reads.
  - cbv zeta. destruct (Z.eqb_spec (Z.rem (dRvers d) 1000) 2); [lia|].
    destruct (Z.ltb_spec 2 (Z.rem (dRvers d) 1000)); [|lia].
    apply rd_guard_reads. eapply rd_bind_reads; [apply ReadUint_reads; unfold inU; simpl; lia|]. cbn beta.
    apply read_into_reads. now rewrite repeat_length, U.
  - cbn [fst snd]. rewrite !date_of_pack by auto. now destruct d.
Qed.
