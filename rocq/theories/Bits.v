(* Bit-level facts on Z used by the packed formats. *)
From Coq Require Import ZArith Lia Bool.
Local Open Scope Z_scope.

Lemma pow2_pos n : 0 <= n -> 0 < 2 ^ n.
Proof. intros; apply Z.pow_pos_nonneg; lia. Qed.

Lemma testbit_small a n i : 0 <= a < 2 ^ n -> n <= i -> Z.testbit a i = false.
Proof.
  intros [H1 H2] Hi. destruct (Z.ltb_spec n 0).
  { rewrite Z.pow_neg_r in H2 by auto. lia. }
  destruct (Z.eq_dec a 0) as [->|Ha]; [apply Z.bits_0|].
  apply Z.bits_above_log2; auto.
  assert (Z.log2 a < n); [|lia]. apply Z.log2_lt_pow2; lia.
Qed.

(* a low part and a shifted high part do not interfere *)
Lemma land_low_high a b n : 0 <= n -> 0 <= a < 2 ^ n -> Z.land a (b * 2 ^ n) = 0.
Proof.
  intros Hn Ha. apply Z.bits_inj'. intros i Hi. rewrite Z.land_spec, Z.bits_0.
  destruct (Z.ltb_spec i n).
  - rewrite <- Z.shiftl_mul_pow2 by auto. rewrite Z.shiftl_spec_low by auto. apply andb_false_r.
  - rewrite (testbit_small a n) by auto. reflexivity.
Qed.
Lemma lor_low_high a b n : 0 <= n -> 0 <= a < 2 ^ n -> Z.lor a (b * 2 ^ n) = a + b * 2 ^ n.
Proof.
  intros Hn Ha. pose proof (land_low_high a b n Hn Ha) as E.
  rewrite <- Z.lxor_lor by auto. symmetry. apply Z.add_nocarry_lxor. auto.
Qed.
Lemma lor_high_low a b n : 0 <= n -> 0 <= a < 2 ^ n -> Z.lor (b * 2 ^ n) a = a + b * 2 ^ n.
Proof. intros. rewrite Z.lor_comm. apply lor_low_high; auto. Qed.

Lemma lor_pow2 a n : 0 <= n -> 0 <= a < 2 ^ n -> Z.lor a (2 ^ n) = a + 2 ^ n.
Proof. intros. rewrite <- (Z.mul_1_l (2 ^ n)) at 1. rewrite lor_low_high; auto. lia. Qed.

(* masks *)
Lemma land_mask a n : 0 <= n -> Z.land a (2 ^ n - 1) = a mod 2 ^ n.
Proof. intros. replace (2 ^ n - 1) with (Z.ones n) by (rewrite Z.ones_equiv; lia). apply Z.land_ones; auto. Qed.
Lemma land_pow2 a n : 0 <= n -> Z.land a (2 ^ n) = if Z.testbit a n then 2 ^ n else 0.
Proof.
  intros. apply Z.bits_inj'. intros i Hi. rewrite Z.land_spec, Z.pow2_bits_eqb by auto.
  destruct (Z.eqb_spec n i) as [->|Hn].
  - rewrite andb_true_r. destruct (Z.testbit a i) eqn:E; [|rewrite Z.bits_0; auto].
    rewrite Z.pow2_bits_eqb, Z.eqb_refl; auto.
  - rewrite andb_false_r. destruct (Z.testbit a n); [|rewrite Z.bits_0; auto].
    rewrite Z.pow2_bits_eqb by auto. symmetry. apply Z.eqb_neq; auto.
Qed.
Lemma land_pow2_nz a n : 0 <= n -> (Z.land a (2 ^ n) =? 0) = negb (Z.testbit a n).
Proof.
  intros. rewrite land_pow2 by auto. destruct (Z.testbit a n); cbn; auto.
  apply Z.eqb_neq. pose proof (pow2_pos n). lia.
Qed.
Lemma testbit_add_pow2 a n : 0 <= n -> 0 <= a < 2 ^ n -> Z.testbit (a + 2 ^ n) n = true.
Proof.
  intros. rewrite <- lor_pow2 by auto. rewrite Z.lor_spec, Z.pow2_bits_true by auto. apply orb_true_r.
Qed.
(* clearing the bits of a mask *)
Lemma ldiff_pow2_add a n : 0 <= n -> 0 <= a < 2 ^ n -> Z.ldiff (a + 2 ^ n) (2 ^ n) = a.
Proof.
  intros. rewrite <- lor_pow2 by auto. apply Z.bits_inj'. intros i Hi.
  rewrite Z.ldiff_spec, Z.lor_spec, Z.pow2_bits_eqb by auto.
  destruct (Z.eqb_spec n i) as [->|Hn]; cbn.
  - rewrite andb_false_r. symmetry. apply testbit_small with i; lia.
  - rewrite orb_false_r, andb_true_r. auto.
Qed.
