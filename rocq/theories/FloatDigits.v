(* A number printed with at most 15 digits, read and printed again gives the same text, and the number that is read is
   within one unit of the last digit of the number that was printed.  Companion of FloatText.v (the text model of fmt and
   strconv); no code of /repo is modelled here. *)
From Coq Require Import ZArith List Lia Bool SpecFloat.
From Flocq Require Import Core.Zaux Core.Digits IEEE754.BinarySingleNaN.
From Verif Require Import Bytes GoStrings F64 FloatText.
Import ListNotations.
Local Open Scope Z_scope.

Lemma ilog10_unique n L : 0 <= L -> 10 ^ L <= n < 10 ^ (L + 1) -> ilog10 n = L.
Proof.
  intros HL [A B]. assert (P : 0 < 10 ^ L) by (apply Z.pow_pos_nonneg; lia). destruct (ilog10_spec n ltac:(lia)) as (H0 & H1 & H2).
  set (M := ilog10 n) in *. clearbody M.
  destruct (Z.lt_trichotomy M L) as [C|[C|C]]; auto; exfalso.
  - assert (10 ^ (M + 1) <= 10 ^ L) by (apply Z.pow_le_mono_r; lia). lia.
  - assert (10 ^ (L + 1) <= 10 ^ M) by (apply Z.pow_le_mono_r; lia). lia.
Qed.

(* the number with D digits is found again from any number close to it *)
Lemma todec_unique_gen P Q k u A N X D : 0 < P -> 0 < Q -> P <= Q -> 1 <= D -> k = 10 ^ (D - 1) -> k <= 10 ^ 14 -> 1 <= A -> 0 <= X + 400 -> u = 10 ^ (X + 400) ->
  k <= N < 10 * k -> 2 ^ 52 * Z.abs (P * (N * u) - A * (k * Q)) <= P * (N * u) ->
  (let X' := ilog10 (A * Q / P) - 400 in
   let N' := rne (A * (k * Q)) (P * 10 ^ (X' + 400)) in
   if N' =? 10 * k then (k, X' + 1) else (N', X')) = (N, X).
Proof.
  intros HP HQ PQ HD Ek K15 HA HX Eu HN C.
  assert (PK : 0 < k) by (rewrite Ek; apply Z.pow_pos_nonneg; lia).
  assert (PU : 0 < u) by (rewrite Eu; apply Z.pow_pos_nonneg; lia).
  change (2 ^ 52) with 4503599627370496 in C. change (10 ^ 14) with 100000000000000 in K15.
  set (T := A * (k * Q)) in *.
  assert (PPu : 0 < P * u) by (apply Z.mul_pos_pos; auto).
  destruct (Z.le_gt_cases (P * u) (A * Q)) as [G|G].
  - assert (UB : A * Q < 10 * (P * u)).
    { assert (k * (A * Q) < k * (10 * (P * u))); [|nia]. replace (k * (A * Q)) with T by (unfold T; ring).
      replace (P * (N * u)) with (N * (P * u)) in C by ring. assert (N * (P * u) <= (10 * k - 1) * (P * u)) by (apply Z.mul_le_mono_nonneg_r; lia).
      assert (4503599627370496 * T <= 4503599627370497 * (N * (P * u))) by lia. 
      assert (4503599627370497 * ((10 * k - 1) * (P * u)) < 4503599627370496 * (k * (10 * (P * u)))); [|lia].
      assert (4503599627370497 * (10 * k - 1) < 4503599627370496 * (k * 10)) by lia. 
      replace (4503599627370497 * ((10 * k - 1) * (P * u))) with (4503599627370497 * (10 * k - 1) * (P * u)) by ring.
      replace (4503599627370496 * (k * (10 * (P * u)))) with (4503599627370496 * (k * 10) * (P * u)) by ring.
      apply Z.mul_lt_mono_pos_r; auto. }
    assert (EL : ilog10 (A * Q / P) = X + 400).
    { apply ilog10_unique; [lia|]. rewrite (Z.pow_add_r 10 (X + 400) 1), <- Eu by lia. change (10 ^ 1) with 10. split.
      - apply Z.div_le_lower_bound; lia.
      - apply Z.div_lt_upper_bound; lia. }
    cbv zeta. rewrite EL. replace (X + 400 - 400) with X by lia. rewrite <- Eu.
    rewrite (rne_unique T (P * u) N).
    + destruct (Z.eqb_spec N (10 * k)); [lia|reflexivity].
    + exact PPu.
    + replace (P * (N * u)) with (P * u * N) in C by ring.
      assert (P * u * N <= P * u * 1000000000000000) by (apply Z.mul_le_mono_nonneg_l; lia). lia.
  - assert (EN : N = k).
    { destruct (Z.eq_dec N k) as [|NE]; auto. exfalso.
      assert (TL : T < k * (P * u)) by (unfold T; replace (A * (k * Q)) with (k * (A * Q)) by ring; apply Z.mul_lt_mono_pos_l; auto).
      replace (P * (N * u)) with (N * (P * u)) in C by ring.
      assert (N * (P * u) <= 1000000000000000 * (P * u)) by (apply Z.mul_le_mono_nonneg_r; lia).
      assert (k * (P * u) + P * u <= N * (P * u)) by (replace (k * (P * u) + P * u) with ((k + 1) * (P * u)) by ring; apply Z.mul_le_mono_nonneg_r; lia).
      lia. }
    subst N. assert (X1 : 1 <= X + 400).
    { destruct (Z.eq_dec (X + 400) 0) as [E0|]; [|lia]. exfalso. rewrite E0 in Eu. change (10 ^ 0) with 1 in Eu. subst u. nia. }
    assert (Eu1 : u = 10 * 10 ^ (X + 399)) by (rewrite Eu, <- Z.pow_succ_r by lia; f_equal; lia).
    assert (PU1 : 0 < 10 ^ (X + 399)) by (apply Z.pow_pos_nonneg; lia). set (u1 := 10 ^ (X + 399)) in *.
    assert (PPu1 : 0 < P * u1) by (apply Z.mul_pos_pos; auto).
    assert (LB : P * u1 <= A * Q).
    { destruct (Z.le_gt_cases (P * u1) (A * Q)); auto. exfalso.
      assert (TL : T < k * (P * u1)) by (unfold T; replace (A * (k * Q)) with (k * (A * Q)) by ring; apply Z.mul_lt_mono_pos_l; auto).
      replace (P * (k * u)) with (10 * (k * (P * u1))) in C by (rewrite Eu1; ring). 
      assert (0 < k * (P * u1)) by (apply Z.mul_pos_pos; auto). lia. }
    assert (EL : ilog10 (A * Q / P) = X + 399).
    { apply ilog10_unique; [lia|]. rewrite (Z.pow_add_r 10 (X + 399) 1) by lia. fold u1. change (10 ^ 1) with 10. split.
      - apply Z.div_le_lower_bound; lia.
      - apply Z.div_lt_upper_bound; [lia|]. rewrite Eu1 in G. lia. }
    cbv zeta. rewrite EL. replace (X + 399 - 400 + 400) with (X + 399) by lia. fold u1.
    rewrite (rne_unique T (P * u1) (10 * k)).
    + rewrite Z.eqb_refl. f_equal. lia.
    + exact PPu1.
    + replace (P * (k * u)) with (P * u1 * (10 * k)) in C by (rewrite Eu1; ring).
      assert (P * u1 * (10 * k) <= P * u1 * 1000000000000000) by (apply Z.mul_le_mono_nonneg_l; lia). lia.
Qed.

(* reading: the binary number is within half a unit *)
Lemma tobin_spec a b : 0 < a -> 0 < b -> let '(m, e) := tobin a b in
  0 <= m < 2 ^ 53 /\ -1074 <= e /\ (-1074 < e -> 2 ^ 52 <= m) /\
  exists g, 0 <= g /\ (e + 1074 = g \/ e + 1074 = g + 1 /\ m = 2 ^ 52) /\ 2 * Z.abs (a * 2 ^ 1074 - b * (m * 2 ^ (e + 1074))) <= b * 2 ^ g /\
    (g = 0 \/ b * (2 ^ 52 * 2 ^ g) <= a * 2 ^ 1074).
Proof.
  intros Ha Hb. unfold tobin. cbv zeta. assert (PA : 0 < a * 2 ^ 1074) by (apply Z.mul_pos_pos; [auto|apply Z.pow_pos_nonneg; lia]).
  set (A := a * 2 ^ 1074) in *. clearbody A. set (w := A / b). pose proof (Z.log2_nonneg w) as L0. set (l := Z.log2 w) in *. set (g := Z.max 0 (l - 52)).
  assert (W : b * w <= A < b * (w + 1)) by (pose proof (Z.div_mod A b ltac:(lia)); pose proof (Z.mod_pos_bound A b Hb); unfold w; nia).
  assert (PG : 0 < 2 ^ g) by (apply Z.pow_pos_nonneg; lia).
  assert (PB : 0 < b * 2 ^ g) by (apply Z.mul_pos_pos; auto).
  assert (W0 : 0 <= w) by (apply Z.div_pos; lia).
  assert (LW : w < 2 ^ (l + 1)).
  { destruct (Z.eq_dec w 0) as [->|]; [apply Z.pow_pos_nonneg; lia|]. pose proof (Z.log2_spec w ltac:(lia)). fold l in H. rewrite <- Z.add_1_r in H. lia. }
  assert (UB : A < b * 2 ^ g * 2 ^ 53).
  { assert (2 ^ (l + 1) <= 2 ^ g * 2 ^ 53) by (rewrite <- Z.pow_add_r by lia; apply Z.pow_le_mono_r; lia). nia. }
  assert (LB : g = 0 \/ b * (2 ^ 52 * 2 ^ g) <= A).
  { destruct (Z.eq_dec g 0); [auto|right]. assert (EG : 52 + g = l) by lia. rewrite <- Z.pow_add_r, EG by lia.
    assert (w <> 0) by (intros E0; unfold l in EG; rewrite E0 in EG; change (Z.log2 0) with 0 in EG; lia).
    pose proof (Z.log2_spec w ltac:(lia)). fold l in H0. nia. }
  pose proof (rne_spec A (b * 2 ^ g) PB) as S. set (n := rne A (b * 2 ^ g)) in *. clearbody n. 
  assert (N0 : 0 <= n) by (destruct (Z.lt_ge_cases n 0); [exfalso; assert (b * 2 ^ g * n <= b * 2 ^ g * -1) by (apply Z.mul_le_mono_nonneg_l; lia); lia|auto]).
  assert (N1 : n <= 2 ^ 53).
  { destruct (Z.le_gt_cases n (2 ^ 53)); auto. exfalso. assert (b * 2 ^ g * (2 ^ 53 + 1) <= b * 2 ^ g * n) by (apply Z.mul_le_mono_nonneg_l; lia). lia. }
  assert (N2 : g <> 0 -> 2 ^ 52 <= n).
  { intros G0. destruct LB as [|LB]; [lia|]. destruct (Z.le_gt_cases (2 ^ 52) n); auto. exfalso.
    assert (b * 2 ^ g * n <= b * 2 ^ g * (2 ^ 52 - 1)) by (apply Z.mul_le_mono_nonneg_l; lia).
    replace (b * (2 ^ 52 * 2 ^ g)) with (b * 2 ^ g * 2 ^ 52) in LB by ring. lia. }
  assert (G0 : 0 <= g) by lia. clearbody g. clear w l W L0 W0 LW UB.
  destruct (Z.eqb_spec n (2 ^ 53)) as [E|E].
  - repeat split; try lia. exists g. split; [lia|]. split; [right; split; [lia|reflexivity]|]. split; [|exact LB].
    replace (g + 1 - 1074 + 1074) with (g + 1) by lia. rewrite Z.pow_add_r by lia. change (2 ^ 1) with 2.
    replace (b * (2 ^ 52 * (2 ^ g * 2))) with (b * 2 ^ g * n) by (rewrite E; change (2 ^ 53) with (2 ^ 52 * 2); ring). exact S.
  - repeat split; try lia. exists g. split; [lia|]. split; [left; lia|]. split; [|exact LB].
    replace (g - 1074 + 1074) with g by lia. replace (b * (n * 2 ^ g)) with (b * 2 ^ g * n) by ring. exact S.
Qed.

Lemma bounded_intro m e : -1074 <= e <= 971 -> Zpos m < 2 ^ 53 -> (-1074 < e -> 2 ^ 52 <= Zpos m) -> bounded 53 1024 m e = true.
Proof.
  intros He Hm Hn. unfold bounded. apply andb_true_intro. split.
  - unfold canonical_mantissa. apply Zeq_bool_true. unfold SpecFloat.fexp, SpecFloat.emin.
    rewrite Digits.Zpos_digits2_pos. 
    assert (D : 0 < Digits.Zdigits radix2 (Zpos m)) by (apply Digits.Zdigits_gt_0; lia).
    assert (D53 : Digits.Zdigits radix2 (Zpos m) <= 53) by (apply Digits.Zdigits_le_Zpower; exact Hm).
    destruct (Z.eq_dec e (-1074)) as [->|].
    + lia.
    + assert (D52 : 52 < Digits.Zdigits radix2 (Zpos m)).
      { apply Digits.Zdigits_gt_Zpower. change (Z.abs (Zpos m)) with (Zpos m). change (Zpower radix2 52) with (2 ^ 52). apply Hn. lia. }
      lia.
  - apply Z.leb_le. lia.
Qed.

Definition P308 : Z := 10 ^ 308.
Lemma K308 : P308 * 8 <= 5 * 2 ^ 1024. Proof. apply Z.leb_le. reflexivity. Qed.

(* the decimal number of a number that is at most a power of ten is at most that power *)
Lemma dec_le P Q h B k A N x x0 : 0 < P -> 0 < Q -> 0 < k -> h * Q = 10 ^ B -> 0 <= B -> A <= h * P -> 0 <= x0 <= x -> x <= x0 + 1 -> k <= N < 10 * k -> (x = x0 + 1 -> N = k) ->
  P * 10 ^ x0 <= A * Q -> 2 * Z.abs (A * (k * Q) - P * (N * 10 ^ x)) <= P * 10 ^ x0 -> P * (N * 10 ^ x) <= h * P * (k * Q).
Proof.
  intros HP HQ PK EB HB UA H0 H1 RN X3 R C.
  assert (LE : P * 10 ^ x0 <= P * 10 ^ B) by (rewrite <- EB; nia).
  assert (XB : x0 <= B).
  { destruct (Z.le_gt_cases x0 B); auto. exfalso. assert (10 ^ B < 10 ^ x0) by (apply Z.pow_lt_mono_r; lia). nia. }
  replace (h * P * (k * Q)) with (P * (k * 10 ^ B)) by (rewrite <- EB; ring).
  apply Z.mul_le_mono_nonneg_l; [lia|].
  assert (PX : 0 < 10 ^ x) by (apply Z.pow_pos_nonneg; lia). assert (PV : 0 < 10 ^ B) by (apply Z.pow_pos_nonneg; lia).
  assert (UA2 : A * Q <= P * 10 ^ B) by (rewrite <- EB; nia).
  destruct (Z.eq_dec x0 B) as [->|NE].
  - assert (EA : A * Q = P * 10 ^ B) by lia.
    replace (A * (k * Q)) with (P * (k * 10 ^ B)) in C by (transitivity (k * (A * Q)); [rewrite EA|]; ring).
    set (v := 10 ^ B) in *. assert (PPV : 0 < P * v) by (apply Z.mul_pos_pos; lia).
    destruct (Z.eq_dec x B) as [->|].
    + fold v in C |- *. replace (P * (k * v) - P * (N * v)) with (P * v * (k - N)) in C by ring. rewrite Z.abs_mul in C.
      rewrite (Z.abs_eq (P * v)) in C by lia. assert (Z.abs (k - N) < 1) by nia. replace N with k by lia. lia.
    + exfalso. assert (EX : x = B + 1) by lia. rewrite (X3 EX), EX in C. replace (10 ^ (B + 1)) with (10 * v) in C by (unfold v; rewrite <- Z.pow_succ_r by lia; f_equal; lia).
      replace (P * (k * v) - P * (k * (10 * v))) with (- (9 * k * (P * v))) in C by ring. assert (P * v <= k * (P * v)) by (clear - PK PPV; nia). rewrite Z.abs_opp, Z.abs_eq in C by lia. lia.
  - destruct (Z.eq_dec x B) as [->|].
    + rewrite X3 by lia. lia.
    + assert (EB1 : 10 ^ B = 10 * 10 ^ (B - 1)) by (rewrite <- Z.pow_succ_r by lia; f_equal; lia).
      assert (10 ^ x <= 10 ^ (B - 1)) by (apply Z.pow_le_mono_r; lia). rewrite EB1. nia.
Qed.

Lemma E708 : P308 * P400 = 10 ^ 708. Proof. unfold P308, P400. rewrite <- Z.pow_add_r; [reflexivity|discriminate|discriminate]. Qed.
Lemma B708 : 0 <= 708. Proof. lia. Qed.
Lemma scale Q d nP k b A A' G : 0 < Q -> 0 < k -> 0 < b -> 0 < G -> nP * (k * Q) = b * d -> 2 * Z.abs (nP - b * A') <= b * G ->
  (G = 1 \/ b * (2 ^ 52 * G) <= nP) -> 2 ^ 52 <= A -> 2 * Z.abs (A * (k * Q) - d) <= A * Q -> 2 ^ 52 * Z.abs (d - A' * (k * Q)) <= d.
Proof.
  intros HQ HK Hb HG E2 T GB PA C. assert (PKQ : 0 < k * Q) by (apply Z.mul_pos_pos; auto). 
  assert (T2 : 2 * Z.abs (d - A' * (k * Q)) <= G * (k * Q)).
  { apply (Z.mul_le_mono_pos_l _ _ b Hb).
    assert (EE : b * Z.abs (d - A' * (k * Q)) = Z.abs (nP - b * A') * (k * Q)).
    { rewrite <- (Z.abs_eq b) at 1 by lia. rewrite <- (Z.abs_eq (k * Q)) at 2 by lia. rewrite <- !Z.abs_mul. f_equal. rewrite Z.mul_sub_distr_r, E2. ring. }
    assert (2 * Z.abs (nP - b * A') * (k * Q) <= b * G * (k * Q)) by (apply Z.mul_le_mono_nonneg_r; lia). lia. }
  assert (GL : 2 ^ 51 * (G * (k * Q)) <= d).
  { change (2 ^ 52) with (2 * 2 ^ 51) in *. destruct GB as [->|GB].
    - assert (A * Q <= A * (k * Q)) by (apply Z.mul_le_mono_nonneg_l; [lia|]; clear - HQ HK; nia).
      assert (2 * 2 ^ 51 * (k * Q) <= A * (k * Q)) by (apply Z.mul_le_mono_nonneg_r; lia). lia.
    - apply (Z.mul_le_mono_pos_l _ _ b Hb). assert (b * (2 * 2 ^ 51 * G) * (k * Q) <= nP * (k * Q)) by (apply Z.mul_le_mono_nonneg_r; lia). rewrite E2 in H.
      assert (0 < b * (G * (k * Q))) by (apply Z.mul_pos_pos; [|apply Z.mul_pos_pos]; lia).
      replace (b * (2 * 2 ^ 51 * G) * (k * Q)) with (2 * 2 ^ 51 * (b * (G * (k * Q)))) in H by ring.
      replace (b * (2 ^ 51 * (G * (k * Q)))) with (2 ^ 51 * (b * (G * (k * Q)))) by ring. lia. }
  change (2 ^ 52) with (2 * 2 ^ 51). lia.
Qed.
Lemma pos_of d A' w : 0 < w -> 0 < d -> 2 ^ 52 * Z.abs (d - A' * w) <= d -> 1 <= A'.
Proof.
  intros HW HD T. change (2 ^ 52) with 4503599627370496 in T. destruct (Z.le_gt_cases 1 A'); auto. exfalso. assert (A' * w <= 0) by (clear - HW H; nia). lia.
Qed.
Lemma too_large P a h A' w d : 0 < P -> 0 < w -> 0 < d -> h * 8 <= 5 * a -> d <= h * P * w -> a * P <= A' -> 2 ^ 52 * Z.abs (d - A' * w) <= d -> False.
Proof.
  intros HP HW HD K U L T. change (2 ^ 52) with 4503599627370496 in T.
  assert (a * P * w <= A' * w) by (apply Z.mul_le_mono_nonneg_r; lia).
  assert (PW : 0 < P * w) by (apply Z.mul_pos_pos; auto).
  assert (h * 8 * (P * w) <= 5 * a * (P * w)) by (apply Z.mul_le_mono_nonneg_r; lia). lia.
Qed.
Lemma acc Q d k A A' : 0 < Q -> 0 < k -> k <= 10 ^ 14 -> 0 < A -> 2 * Z.abs (A * (k * Q) - d) <= A * Q -> 2 ^ 52 * Z.abs (d - A' * (k * Q)) <= d -> k * Z.abs (A' - A) <= A.
Proof.
  intros HQ HK K14 HA C T. change (2 ^ 52) with 4503599627370496 in T. change (10 ^ 14) with 100000000000000 in K14. assert (PKQ : 0 < k * Q) by (apply Z.mul_pos_pos; auto).
  set (w := k * Q) in *. set (z := Z.abs (A' - A)).
  assert (Z1 : Z.abs (A' * w - A * w) = w * z) by (unfold z; rewrite <- Z.mul_sub_distr_r, Z.abs_mul, (Z.abs_eq w) by lia; ring).
  assert (PAw : 0 < A * w) by (apply Z.mul_pos_pos; lia).
  assert (B4 : k * (A * Q) = A * w) by (unfold w; ring). assert (B4' : A * Q <= A * w) by (rewrite <- B4; clear - HK HA HQ; assert (0 < A * Q) by (apply Z.mul_pos_pos; auto); nia).
  assert (B5 : 4503599627370496 * (2 * Z.abs (d - A' * w)) <= 3 * (A * w)) by lia.
  assert (B6 : 2 * (w * z) <= 2 * Z.abs (d - A' * w) + A * Q) by lia.
  assert (B7 : k * (2 * (w * z)) <= k * (2 * Z.abs (d - A' * w)) + A * w) by (rewrite <- B4, <- Z.mul_add_distr_l; apply Z.mul_le_mono_nonneg_l; lia).
  assert (B8 : k * (2 * Z.abs (d - A' * w)) <= A * w).
  { assert (k * (2 * Z.abs (d - A' * w)) <= 100000000000000 * (2 * Z.abs (d - A' * w))) by (apply Z.mul_le_mono_nonneg_r; lia). lia. }
  apply (Z.mul_le_mono_pos_l _ _ w PKQ). lia.
Qed.
Definition size (m e : Z) : Z := m * 2 ^ (e + 1074).
Theorem digits_stable D s m e (H : bounded 53 1024 m e = true) : 1 <= D <= 15 -> 2 ^ 52 <= Zpos m -> size (Zpos m) e <= P308 * P1074 ->
  let '(N, X) := todec D (Zpos m) e in
  exists m' e' H', fromdec s N (X - (D - 1)) = Some (B754_finite s m' e' H') /\ todec D (Zpos m') e' = (N, X) /\
    10 ^ (D - 1) * Z.abs (size (Zpos m') e' - size (Zpos m) e) <= size (Zpos m) e.
Proof.
  intros HD NM UP. pose proof (bounded_facts _ _ H) as (He & Hm & _).
  pose proof (todec_spec D (Zpos m) e (proj1 HD) ltac:(lia) He) as S. destruct (todec D (Z.pos m) e) as [N X]. cbv zeta in S. fold (size (Zpos m) e) in S.
  destruct S as (RN & RX & X0 & X1 & X2 & X3 & [R _] & C). set (A := size (Zpos m) e) in *.
  assert (PA : 2 ^ 52 <= A). { unfold A, size. assert (0 < 2 ^ (e + 1074)) by (apply Z.pow_pos_nonneg; lia). nia. } clearbody A. clear NM Hm He H m e.
  assert (ED : 10 ^ D = 10 * 10 ^ (D - 1)) by (rewrite <- Z.pow_succ_r by lia; f_equal; lia). rewrite ED in RN.
  assert (K14 : 10 ^ (D - 1) <= 10 ^ 14) by (apply Z.pow_le_mono_r; lia).
  assert (PK : 0 < 10 ^ (D - 1)) by (apply Z.pow_pos_nonneg; lia).
  pose proof P1074_pos as PP. pose proof P400_pos as PQ.
  (* the size of the decimal number *)
  assert (U308 : P1074 * (N * 10 ^ (X + 400)) <= P308 * P1074 * (10 ^ (D - 1) * P400)).
  { exact (dec_le P1074 P400 (P308) 708 (10 ^ (D - 1)) A N (X + 400) (X0 + 400) PP PQ PK E708 B708 UP ltac:(clear - X1; lia) ltac:(clear - X2; lia) RN (fun EX => X3 ltac:(clear - EX; lia)) R C). }
  assert (R0 : 2 * Z.abs (A * (10 ^ (D - 1) * P400) - P1074 * (N * 10 ^ (X + 400))) <= A * P400) by (clear - R C; lia). clear C R. rename R0 into C.
  assert (PA0 : 0 < A) by (clear - PA; change (2 ^ 52) with 4503599627370496 in PA; lia).
  unfold fromdec. set (k := 10 ^ (D - 1)) in *.
  set (b := 10 ^ Z.max 0 (- (X - (D - 1)))). set (c := 10 ^ Z.max 0 (X - (D - 1))).
  assert (Pb : 0 < b) by (apply Z.pow_pos_nonneg; lia). assert (Pc : 0 < c) by (apply Z.pow_pos_nonneg; lia).
  assert (E1 : c * (k * P400) = b * 10 ^ (X + 400)).
  { unfold c, k, b, P400. rewrite <- !Z.pow_add_r by lia. f_equal. lia. }
  set (u := 10 ^ (X + 400)) in *. assert (Pu : 0 < u) by (apply Z.pow_pos_nonneg; lia).
  assert (PNc : 0 < N * c) by (apply Z.mul_pos_pos; [clear - RN PK; lia|exact Pc]). pose proof (tobin_spec (N * c) b PNc Pb) as T. destruct (tobin (N * c) b) as [m' e']. fold P1074 in T. fold (size m' e') in T.
  destruct T as (M & E & NM & g & G0 & GE & T & GB). set (A' := size m' e') in *.
  assert (PG : 0 < 2 ^ g) by (apply Z.pow_pos_nonneg; lia).
  assert (PKQ : 0 < k * P400) by (apply Z.mul_pos_pos; auto).
  assert (E2 : N * c * P1074 * (k * P400) = b * (P1074 * (N * u))) by (transitivity (N * P1074 * (c * (k * P400))); [ring|rewrite E1; ring]).
  assert (PPNu : 0 < P1074 * (N * u)) by (apply Z.mul_pos_pos; [exact PP|apply Z.mul_pos_pos; [clear - RN PK; lia|exact Pu]]).
  assert (T3 : 2 ^ 52 * Z.abs (P1074 * (N * u) - A' * (k * P400)) <= P1074 * (N * u)).
  { refine (scale P400 (P1074 * (N * u)) (N * c * P1074) k b A A' (2 ^ g) PQ PK Pb PG E2 T _ PA _).
    - destruct GB as [->|GB]; [left; reflexivity|right; exact GB].
    - exact C. }
  assert (PA' : 1 <= A') by exact (pos_of _ _ _ PKQ PPNu T3).
  assert (PM : 1 <= m').
  { destruct (Z.le_gt_cases 1 m'); auto. exfalso. assert (m' = 0) by lia. unfold A', size in PA'. subst m'. lia. }
  assert (U971 : e' <= 971).
  { destruct (Z.le_gt_cases e' 971); auto. exfalso. assert (2 ^ 52 <= m') by (apply NM; lia).
    assert (2 ^ 52 * 2 ^ 2046 <= A') by (unfold A', size; apply Z.mul_le_mono_nonneg; [lia|lia|apply Z.pow_nonneg; lia|apply Z.pow_le_mono_r; lia]).
    assert (E98 : 2 ^ 52 * 2 ^ 2046 = 2 ^ 1024 * P1074) by (unfold P1074; rewrite <- !Z.pow_add_r by lia; f_equal; lia). rewrite E98 in H1.
    pose proof K308 as K. 
    exact (too_large _ _ _ _ _ _ PP PKQ PPNu K U308 H1 T3). }
  destruct m' as [|p|p]; [lia| |lia].
  assert (HB : bounded 53 1024 p e' = true) by (apply bounded_intro; [lia|lia|exact NM]).
  exists p, e', HB. split; [|split].
  - unfold mkf.
    assert (GG : forall q (Q : bounded 53 1024 p e' = q), q = true -> (match q as b return bounded 53 1024 p e' = b -> option f64 with true => fun H => Some (B754_finite s p e' H) | false => fun _ => None end) Q = Some (B754_finite s p e' HB)).
    { intros q Q ->. f_equal. f_equal. apply Eqdep_dec.UIP_dec. apply bool_dec. }
    exact (GG _ eq_refl HB).
  - unfold todec. cbv zeta. rewrite (pow_split D (proj1 HD)). fold k. rewrite ED. fold (size (Zpos p) e').
    exact (todec_unique_gen P1074 P400 k u A' N X D PP PQ P_le (proj1 HD) eq_refl K14 PA' ltac:(lia) eq_refl RN T3).
  - fold A'. 
    exact (acc P400 (P1074 * (N * u)) k A A' PQ PK K14 PA0 C T3).
Qed.

(* zero, infinite, NaN, or normal and at most 10^308 *)
Definition mid (x : f64) : Prop :=
  match x with B754_finite _ m e _ => 2 ^ 52 <= Zpos m * 2 ^ (e + 1074) <= 10 ^ 308 * 2 ^ 1074 | _ => True end.
(* the same, up to one unit of the last of D digits *)
Definition near (D : Z) (x y : f64) : Prop :=
  match x, y with
  | B754_finite s m e _, B754_finite s' m' e' _ => s = s' /\ 10 ^ (D - 1) * Z.abs (Zpos m' * 2 ^ (e' + 1074) - Zpos m * 2 ^ (e + 1074)) <= Zpos m * 2 ^ (e + 1074)
  | _, _ => x = y
  end.
Theorem fmt_stable D x : 1 <= D <= 15 -> mid x -> exists y, parse_float (fmt_e D x) = Some y /\ fmt_e D y = fmt_e D x /\ near D x y.
Proof.
  intros HD M. destruct x as [s|s| |s m e H].
  - exists (B754_zero s). split; [apply parse_zero; lia|]. split; reflexivity.
  - exists (B754_infinity s). split; [destruct s; reflexivity|]. split; reflexivity.
  - exists B754_nan. split; [reflexivity|]. split; reflexivity.
  - destruct M as [M1 M2]. pose proof (bounded_facts _ _ H) as (He & Hm & Hn).
    assert (NM : 2 ^ 52 <= Zpos m).
    { destruct (Z.eq_dec e (-1074)) as [E|]; [|apply Hn; lia]. rewrite E in M1. change (2 ^ (-1074 + 1074)) with 1 in M1. lia. }
    pose proof (digits_stable D s m e H HD NM M2) as S.
    pose proof (todec_spec D (Zpos m) e (proj1 HD) ltac:(lia) He) as S2. unfold fmt_e at 1 3. destruct (todec D (Z.pos m) e) as [N X]. cbv zeta in S2.
    destruct S2 as (RN & _). destruct S as (m' & e' & H' & E1 & E2 & E3). exists (B754_finite s m' e' H'). split; [|split].
    + destruct (scitext_head N X) as (c & r & ES & Hc); [assert (0 < 10 ^ (D - 1)) by (apply Z.pow_pos_nonneg; lia); lia|].
      rewrite ES, parse_digit_body by auto. rewrite <- ES, (scitext_parse s D N X) by (auto; lia). exact E1.
    + unfold fmt_e. rewrite E2. reflexivity.
    + split; [reflexivity|exact E3].
Qed.

(* %E: the letter of the exponent is a capital *)
Definition upE (c : Z) : Z := if c =? 101 then 69 else c.
Definition fmt_E (D : Z) (x : f64) : str := map upE (fmt_e D x).
Lemma lower_upE c : lower (upE c) = lower c.
Proof. unfold upE. destruct (Z.eqb_spec c 101) as [->|]; reflexivity. Qed.
Lemma digit_upE c : is_digit (upE c) = is_digit c.
Proof. unfold upE. destruct (Z.eqb_spec c 101) as [->|]; reflexivity. Qed.
Lemma upE_digit c : is_digit c = true -> upE c = c.
Proof. unfold upE. destruct (Z.eqb_spec c 101) as [->|]; [discriminate|reflexivity]. Qed.
Lemma digits_upE s : forall a n, digits (map upE s) a n = let '(x, y, r) := digits s a n in (x, y, map upE r).
Proof.
  induction s as [|c s IH]; intros a n; [reflexivity|]. cbn [map digits]. rewrite digit_upE. destruct (is_digit c) eqn:E; [|reflexivity].
  rewrite (upE_digit c E). apply IH.
Qed.
Lemma udec_upE s : parse_udec (map upE s) = parse_udec s.
Proof.
  assert (F : forall s a, fold_left dec_step (map upE s) a = fold_left dec_step s a).
  { clear. induction s as [|c s IH]; intros a; [reflexivity|]. cbn [map fold_left]. rewrite <- IH. f_equal. destruct a; [|reflexivity]. cbn [dec_step].
    rewrite digit_upE. destruct (is_digit c) eqn:E; [rewrite (upE_digit c E)|]; reflexivity. }
  unfold parse_udec. destruct s; [reflexivity|]. cbn [map]. change (upE z :: map upE s) with (map upE (z :: s)). rewrite F. reflexivity.
Qed.
Lemma upE_eq c k : k <> 101 -> k <> 69 -> (upE c =? k) = (c =? k).
Proof. intros A B. unfold upE. destruct (Z.eqb_spec c 101) as [->|]; [|reflexivity]. destruct (Z.eqb_spec 69 k), (Z.eqb_spec 101 k); congruence. Qed.
(* the patterns of the reader as tests *)
Lemma not46 (A : Type) (c : Z) (f d : A) : c <> 46 -> match c with 46 => f | _ => d end = d.
Proof. intros N. destruct c as [|p|p]; try reflexivity. do 6 (destruct p as [p|p|]; try reflexivity; try congruence). Qed.
Lemma not4345 (A : Type) (c : Z) (f g d : A) : c <> 43 -> c <> 45 -> match c with 43 => f | 45 => g | _ => d end = d.
Proof. intros N N2. destruct c as [|p|p]; try reflexivity. do 6 (destruct p as [p|p|]; try reflexivity; try congruence). Qed.
Lemma upE_neq c k : k <> 101 -> k <> 69 -> c <> k -> upE c <> k.
Proof. intros A B C. unfold upE. destruct (Z.eqb_spec c 101); congruence. Qed.
Lemma udecimal_upE neg s : parse_udecimal neg (map upE s) = parse_udecimal neg s.
Proof.
  unfold parse_udecimal. rewrite digits_upE. destruct (digits s 0 0) as [[a n] s1]. cbv beta iota.
  set (tail := fun (a n nf : Z) (s2 : str) => if n =? 0 then None else
    match s2 with
    | [] => fromdec neg a (- nf)
    | c :: s3 =>
      if lower c =? 101 then
        let '(sg, s4) := match s3 with 43 :: r => (1, r) | 45 :: r => (-1, r) | _ => (1, s3) end in
        match parse_udec s4 with Some x => fromdec neg a (sg * x - nf) | None => None end
      else None
    end).
  assert (TL : forall a n nf s2, tail a n nf (map upE s2) = tail a n nf s2).
  { clear. intros a n nf s2. unfold tail. destruct (n =? 0); [reflexivity|]. destruct s2 as [|c s3]; [reflexivity|]. cbn [map]. rewrite lower_upE. destruct (lower c =? 101); [|reflexivity].
    destruct s3 as [|c1 r]; [reflexivity|]. cbn [map]. cbv iota.
    destruct (Z.eq_dec c1 43) as [->|N1]; [change (upE 43) with 43; cbv iota; rewrite udec_upE; reflexivity|].
    destruct (Z.eq_dec c1 45) as [->|N2]; [change (upE 45) with 45; cbv iota; rewrite udec_upE; reflexivity|].
    rewrite !not4345 by (auto; apply upE_neq; auto; lia).
    change (upE c1 :: map upE r) with (map upE (c1 :: r)). rewrite udec_upE. reflexivity. }
  destruct s1 as [|c r]; [reflexivity|]. cbn [map]. cbv iota.
  destruct (Z.eq_dec c 46) as [->|N].
  - change (upE 46) with 46. cbv iota. rewrite digits_upE. destruct (digits r a n) as [[x y] z]. exact (TL x y (y - n) z).
  - rewrite !not46 by (auto; apply upE_neq; auto; lia). exact (TL a n 0 (c :: r)).
Qed.
Theorem parse_upE s : parse_float (map upE s) = parse_float s.
Proof.
  set (body := fun neg sgn r => let l := map lower r in
    if str_eqb l [105; 110; 102] || str_eqb l [105; 110; 102; 105; 110; 105; 116; 121] then Some (B754_infinity neg)
    else if negb sgn && str_eqb l [110; 97; 110] then Some B754_nan else parse_udecimal neg r).
  assert (B : forall neg sgn r, body neg sgn (map upE r) = body neg sgn r).
  { intros. unfold body. cbv zeta. rewrite udecimal_upE. rewrite map_map. rewrite (map_ext _ lower lower_upE). reflexivity. }
  destruct s as [|c r]; [reflexivity|]. cbn [map].
  destruct (Z.eq_dec c 43) as [->|N1]; [exact (B false true r)|]. destruct (Z.eq_dec c 45) as [->|N2]; [exact (B true true r)|].
  assert (P : forall c r, c <> 43 -> c <> 45 -> parse_float (c :: r) = body false false (c :: r)).
  { clear. intros c r N1 N2. unfold parse_float. destruct c as [|p|p]; try reflexivity. do 6 (destruct p as [p|p|]; try reflexivity; try congruence). }
  rewrite !P by (auto; apply upE_neq; auto; lia). exact (B false false (c :: r)).
Qed.
Corollary fmt_E_stable D x : 1 <= D <= 15 -> mid x -> exists y, parse_float (fmt_E D x) = Some y /\ fmt_E D y = fmt_E D x /\ near D x y.
Proof.
  intros HD M. destruct (fmt_stable D x HD M) as (y & A & B & C). exists y. unfold fmt_E. rewrite parse_upE, B. auto.
Qed.
