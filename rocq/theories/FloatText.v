(* Floating-point numbers as text: fmt's verb %e and strconv.ParseFloat(s, 64), and the proof that 17 significant digits
   are enough to get every number back.
   Part of the Go standard library, modelled from its documentation: %.pe prints the decimal number with p+1 significant
   digits nearest to the value (a tie goes to the even last digit), an exponent with a sign and at least two digits;
   ParseFloat gives the binary64 nearest to the decimal number (a tie goes to the even mantissa) and an error when that
   would be too large.  Infinities are printed +Inf and -Inf, a NaN NaN, and read back from these (and "Inf", "Infinity"
   in any case of the letters).  Hexadecimal notation and the digit separator _ are not modelled: here they give an error. *)
From Coq Require Import ZArith List Lia Bool SpecFloat.
From Flocq Require Import IEEE754.BinarySingleNaN.
From Verif Require Import Bytes GoStrings F64.
Import ListNotations.
Local Open Scope Z_scope.

(* the integer nearest to a/b, ties to even *)
Definition rne (a b : Z) : Z :=
  let q := a / b in let r := a mod b in
  if 2 * r <? b then q else if b <? 2 * r then q + 1 else if Z.even q then q else q + 1.

(* floor(log10 n) *)
Fixpoint ilog10_fuel (k : nat) (n : Z) : Z :=
  match k with O => 0 | S k' => if n <? 10 then 0 else 1 + ilog10_fuel k' (n / 10) end.
(* the same, dividing by 10^512, ..., 10^2 first *)
Fixpoint ilog10_by (ks : list Z) (n : Z) : Z :=
  match ks with
  | [] => ilog10_fuel (Z.to_nat (Z.log2 n)) n
  | k :: ks' => if n <? 10 ^ k then ilog10_by ks' n else k + ilog10_by ks' (n / 10 ^ k)
  end.
Definition ilog10 (n : Z) : Z := ilog10_by [512; 256; 128; 64; 32; 16; 8; 4; 2] n.

(* the decimal number N*10^(X+1-D) with D digits nearest to m*2^e; e is at least -1074 *)
Definition todec (D m e : Z) : Z * Z :=
  let a := m * 2 ^ (e + 1074) in
  let X := ilog10 (a * 10 ^ 400 / 2 ^ 1074) - 400 in
  let N := rne (a * 10 ^ (D - 1 + 400)) (2 ^ 1074 * 10 ^ (X + 400)) in
  if N =? 10 ^ D then (10 ^ (D - 1), X + 1) else (N, X).

(* exponent: sign and at least two digits *)
Definition exptext (X : Z) : str :=
  (if X <? 0 then 45 else 43) :: (let d := udec (Z.abs X) in if Z.abs X <? 10 then 48 :: d else d).
(* N has D digits *)
Definition scitext (N X : Z) : str :=
  match udec N with
  | [] => []
  | [d] => d :: 101 :: exptext X
  | d :: ds => d :: 46 :: ds ++ 101 :: exptext X
  end.
Definition inftext : str := [73; 110; 102].       (* Inf *)
Definition nantext : str := [78; 97; 78].         (* NaN *)
Definition signtext (s : bool) : str := if s then [45] else [].
(* fmt.Sprintf("%.{D-1}e", x) *)
Definition fmt_e (D : Z) (x : f64) : str :=
  match x with
  | B754_nan => nantext
  | B754_infinity s => (if s then 45 else 43) :: inftext
  | B754_zero s => signtext s ++ (if D =? 1 then [48] else 48 :: 46 :: repeat 48 (Z.to_nat (D - 1))) ++ 101 :: exptext 0
  | B754_finite s m e _ => signtext s ++ (let '(N, X) := todec D (Zpos m) e in scitext N X)
  end.

(* the binary64 nearest to a/b, up to the sign: mantissa and exponent (0 for zero) *)
Definition tobin (a b : Z) : Z * Z :=
  let e' := Z.max 0 (Z.log2 (a * 2 ^ 1074 / b) - 52) in
  let m := rne (a * 2 ^ 1074) (b * 2 ^ e') in
  if m =? 2 ^ 53 then (2 ^ 52, e' + 1 - 1074) else (m, e' - 1074).
Definition mkf (s : bool) (m e : Z) : option f64 :=
  match m with
  | Zpos p => match bounded 53 1024 p e as b return bounded 53 1024 p e = b -> option f64 with
              | true => fun H => Some (B754_finite s p e H)
              | false => fun _ => None
              end eq_refl
  | _ => Some (B754_zero s)
  end.
(* None: out of range *)
Definition fromdec (s : bool) (N k : Z) : option f64 :=
  let '(m, e) := tobin (N * 10 ^ Z.max 0 k) (10 ^ Z.max 0 (- k)) in mkf s m e.

Definition lower (c : Z) : Z := if (65 <=? c) && (c <=? 90) then c + 32 else c.
(* leading digits: value of the digits after acc, their number, and what is left *)
Fixpoint digits (s : str) (acc n : Z) : Z * Z * str :=
  match s with
  | c :: s' => if is_digit c then digits s' (10 * acc + (c - 48)) (n + 1) else (acc, n, s)
  | [] => (acc, n, [])
  end.
(* the part after the sign of a decimal number *)
Definition parse_udecimal (neg : bool) (s : str) : option f64 :=
  let '(a, n, s1) := digits s 0 0 in
  let '(a, n, nf, s2) := match s1 with
    | 46 :: s' => let '(a', n', r) := digits s' a n in (a', n', n' - n, r)
    | _ => (a, n, 0, s1) end in
  if n =? 0 then None else
  match s2 with
  | [] => fromdec neg a (- nf)
  | c :: s3 =>
    if lower c =? 101 then
      let '(sg, s4) := match s3 with 43 :: r => (1, r) | 45 :: r => (-1, r) | _ => (1, s3) end in
      match parse_udec s4 with Some x => fromdec neg a (sg * x - nf) | None => None end
    else None
  end.
(* strconv.ParseFloat(s, 64): None is an error *)
Definition parse_float (s : str) : option f64 :=
  let body (neg : bool) (sgn : bool) (r : str) :=
    let l := map lower r in
    if str_eqb l [105; 110; 102] || str_eqb l [105; 110; 102; 105; 110; 105; 116; 121] then Some (B754_infinity neg)
    else if negb sgn && str_eqb l [110; 97; 110] then Some B754_nan
    else parse_udecimal neg r in
  match s with
  | 45 :: r => body true true r
  | 43 :: r => body false true r
  | _ => body false false s
  end.

(* ---- rounding ---- *)
Lemma rne_spec a b : 0 < b -> 2 * Z.abs (a - b * rne a b) <= b.
Proof.
  intros H. unfold rne. pose proof (Z.div_mod a b ltac:(lia)) as D. pose proof (Z.mod_pos_bound a b H) as M.
  set (q := a / b) in *. set (r := a mod b) in *.
  destruct (Z.ltb_spec (2 * r) b); [replace (a - b * q) with r by lia; lia|].
  destruct (Z.ltb_spec b (2 * r)); [replace (a - b * (q + 1)) with (r - b) by lia; lia|].
  destruct (Z.even q); [replace (a - b * q) with r by lia|replace (a - b * (q + 1)) with (r - b) by lia]; lia.
Qed.
Lemma rne_unique a b m : 0 < b -> 2 * Z.abs (a - b * m) < b -> rne a b = m.
Proof.
  intros H L. pose proof (rne_spec a b H) as S. set (n := rne a b) in *. clearbody n.
  assert (b * Z.abs (m - n) < b).
  { replace (b * Z.abs (m - n)) with (Z.abs (b * (m - n))) by (rewrite Z.abs_mul; f_equal; lia).
    replace (b * (m - n)) with (a - b * n - (a - b * m)) by ring. lia. }
  assert (Z.abs (m - n) < 1) by nia. lia.
Qed.
(* ---- decimal logarithm ---- *)
Lemma ilog10_fuel_spec k : forall n, 1 <= n < 10 * 2 ^ Z.of_nat k -> 0 <= ilog10_fuel k n /\ 10 ^ ilog10_fuel k n <= n < 10 ^ (ilog10_fuel k n + 1).
Proof.
  induction k as [|k IH]; intros n H; [cbn in *; lia|]. cbn [ilog10_fuel]. destruct (Z.ltb_spec n 10); [cbn; lia|].
  assert (P : 1 <= n / 10 < 10 * 2 ^ Z.of_nat k).
  { split; [apply Z.div_le_lower_bound; lia|]. rewrite Nat2Z.inj_succ, Z.pow_succ_r in H by lia. apply Z.div_lt_upper_bound; lia. }
  destruct (IH _ P) as (A & B & C). set (l := ilog10_fuel k (n / 10)) in *. clearbody l.
  replace (1 + l) with (l + 1) by lia. rewrite !Z.pow_add_r in * by lia. change (10 ^ 1) with 10 in *.
  pose proof (Z.div_mod n 10). pose proof (Z.mod_pos_bound n 10). split; [lia|]. nia.
Qed.
Lemma ilog10_spec n : 1 <= n -> 0 <= ilog10 n /\ 10 ^ ilog10 n <= n < 10 ^ (ilog10 n + 1).
Proof.
  intros H. unfold ilog10. assert (K : Forall (fun k => 0 <= k) [512; 256; 128; 64; 32; 16; 8; 4; 2]) by (repeat constructor; lia).
  revert n H. induction K as [|k ks Hk _ IH]; intros n H; cbn [ilog10_by].
  - apply ilog10_fuel_spec. split; [lia|]. rewrite Z2Nat.id by apply Z.log2_nonneg.
    pose proof (Z.log2_spec n). rewrite Z.pow_succ_r in H0 by apply Z.log2_nonneg. lia.
  - destruct (Z.ltb_spec n (10 ^ k)) as [L|L]; [apply IH; exact H|].
    assert (P : 0 < 10 ^ k) by (apply Z.pow_pos_nonneg; lia).
    assert (D : 1 <= n / 10 ^ k) by (apply Z.div_le_lower_bound; lia).
    destruct (IH _ D) as (A & B & C). set (l := ilog10_by ks (n / 10 ^ k)) in *. clearbody l.
    replace (k + l + 1) with (k + (l + 1)) by lia. rewrite !(Z.pow_add_r 10 k) by lia. set (x := 10 ^ k) in *. clearbody x.
    pose proof (Z.div_mod n x ltac:(lia)). pose proof (Z.mod_pos_bound n x P). set (y := 10 ^ l) in *. set (z := 10 ^ (l + 1)) in *. clearbody y z. split; [lia|]. nia.
Qed.

(* the decimal is within half a unit of its last digit *)
Lemma todec_gen P Q D a : 0 < P -> 0 < Q -> P <= Q -> 1 <= D -> 1 <= a -> forall L N,
  0 <= L -> 10 ^ L <= a * Q / P < 10 ^ (L + 1) -> N = rne (a * (10 ^ (D - 1) * Q)) (P * 10 ^ L) ->
  10 ^ (D - 1) <= N <= 10 ^ D /\ P * 10 ^ L <= a * Q < P * 10 ^ (L + 1) /\
  2 * Z.abs (a * (10 ^ (D - 1) * Q) - P * (N * 10 ^ L)) <= P * 10 ^ L.
Proof.
  intros P2 P10 PQ HD A1 L N L0 [L1 L2] EN.
  set (w := a * Q / P) in *.
  assert (WD : P * w <= a * Q < P * (w + 1)).
  { pose proof (Z.div_mod (a * Q) P ltac:(lia)). pose proof (Z.mod_pos_bound (a * Q) P P2). unfold w. lia. }
  clearbody w.
  assert (PL : 0 < 10 ^ L) by (apply Z.pow_pos_nonneg; lia).
  assert (B : 0 < P * 10 ^ L) by (apply Z.mul_pos_pos; lia).
  pose proof (rne_spec (a * (10 ^ (D - 1) * Q)) (P * 10 ^ L) B) as R. rewrite <- EN in R. clear EN.
  assert (PD : 0 < 10 ^ (D - 1)) by (apply Z.pow_pos_nonneg; lia).
  assert (ED : 10 ^ D = 10 * 10 ^ (D - 1)) by (rewrite <- Z.pow_succ_r by lia; f_equal; lia).
  assert (EL : 10 ^ (L + 1) = 10 * 10 ^ L) by (rewrite Z.pow_add_r by lia; lia).
  rewrite ED, EL in *. set (pd := 10 ^ (D - 1)) in *. set (l := 10 ^ L) in *. clearbody pd l. clear ED EL.
  assert (RNG : P * l <= a * Q < P * (10 * l)).
  { assert (P * l <= P * w) by (apply Z.mul_le_mono_nonneg_l; lia).
    assert (P * (w + 1) <= P * (10 * l)) by (apply Z.mul_le_mono_nonneg_l; lia). lia. }
  replace (a * (pd * Q)) with (a * Q * pd) in * by ring.
  set (V := a * Q) in *. clearbody V. replace (P * (N * l)) with (P * l * N) by ring.
  replace (P * (10 * l)) with (10 * (P * l)) in * by ring. set (T := P * l) in *. clearbody T.
  split; [|split; assumption]. clear - R RNG PD B.
  assert (T * pd <= V * pd < 10 * T * pd) by nia.
  split.
  - destruct (Z.le_gt_cases pd N); auto. assert (T * N <= T * pd - T) by nia. lia.
  - destruct (Z.le_gt_cases N (10 * pd)); auto. assert (10 * T * pd + T <= T * N) by nia. lia.
Qed.
Definition P1074 : Z := 2 ^ 1074.
Definition P400 : Z := 10 ^ 400.
Lemma P1074_pos : 0 < P1074. Proof. reflexivity. Qed.
Lemma P400_pos : 0 < P400. Proof. reflexivity. Qed.
Lemma P_le : P1074 <= P400. Proof. apply Z.leb_le. reflexivity. Qed.
Lemma P_big : 2 ^ 2098 * P400 < P1074 * 10 ^ 710.
Proof.
  unfold P400, P1074. replace (2 ^ 2098) with (2 ^ 1074 * (2 * (2 ^ 93) ^ 11)).
  2:{ rewrite <- Z.pow_mul_r, <- Z.pow_succ_r, <- Z.pow_add_r by lia. f_equal. }
  replace (10 ^ 710) with ((10 ^ 28) ^ 11 * 10 ^ 2 * 10 ^ 400).
  2:{ rewrite <- Z.pow_mul_r by lia. rewrite <- !Z.pow_add_r by lia. f_equal. }
  assert (A : (2 ^ 93) ^ 11 <= (10 ^ 28) ^ 11) by (apply Z.pow_le_mono_l; split; [lia|apply Z.leb_le; reflexivity]).
  assert (B : 0 < 2 ^ 1074) by (apply Z.pow_pos_nonneg; lia). assert (C : 0 < 10 ^ 400) by (apply Z.pow_pos_nonneg; lia).
  assert (D : 0 < (2 ^ 93) ^ 11) by (apply Z.pow_pos_nonneg; [apply Z.pow_pos_nonneg|]; lia).
  change (10 ^ 2) with 100. set (p := 2 ^ 1074) in *. set (q := 10 ^ 400) in *. set (x := (2 ^ 93) ^ 11) in *. set (y := (10 ^ 28) ^ 11) in *. clearbody p q x y.
  replace (p * (2 * x) * q) with (p * q * (x * 2)) by ring. replace (p * (y * 100 * q)) with (p * q * (y * 100)) by ring.
  apply Z.mul_lt_mono_pos_l; [apply Z.mul_pos_pos; assumption|lia].
Qed.
Lemma scaled_range_gen m x y g : 1 <= m < 2 ^ 53 -> 1 <= g <= x -> y = 2 ^ 53 * x -> 1 <= m * g < y.
Proof. intros Hm Hg ->. nia. Qed.
Lemma pow_ge1 a b : 1 <= a -> 0 <= b -> 1 <= a ^ b.
Proof. intros A B. change 1 with (a ^ 0). apply Z.pow_le_mono_r; lia. Qed.
Lemma scaled_range m e : 1 <= m < 2 ^ 53 -> -1074 <= e <= 971 -> 1 <= m * 2 ^ (e + 1074) < 2 ^ 2098.
Proof.
  intros Hm He. apply (scaled_range_gen m (2 ^ 2045)); [exact Hm| |].
  - split; [apply pow_ge1; lia|apply Z.pow_le_mono_r; lia].
  - rewrite <- Z.pow_add_r by lia. f_equal.
Qed.
Lemma log_bound P Q x y a L : 0 < P -> 0 < Q -> a < y -> y * Q < P * x -> P * 10 ^ L <= a * Q -> (710 <= L -> x <= 10 ^ L) -> L <= 709.
Proof. intros HP HQ A B C D. destruct (Z.le_gt_cases L 709); auto. specialize (D ltac:(lia)). set (z := 10 ^ L) in *. clearbody z. nia. Qed.
Lemma todec_spec_gen P Q x y D a : 0 < P -> 0 < Q -> P <= Q -> y * Q < P * x -> (forall L, 710 <= L -> x <= 10 ^ L) -> 1 <= D -> 1 <= a < y ->
  let X := ilog10 (a * Q / P) - 400 in
  let N := rne (a * (10 ^ (D - 1) * Q)) (P * 10 ^ (X + 400)) in
  let '(N, X) := if N =? 10 ^ D then (10 ^ (D - 1), X + 1) else (N, X) in
  10 ^ (D - 1) <= N < 10 ^ D /\ -400 <= X <= 310 /\
  exists X0, -400 <= X0 <= X /\ X <= X0 + 1 /\ (X = X0 + 1 -> N = 10 ^ (D - 1)) /\
    P * 10 ^ (X0 + 400) <= a * Q < P * 10 ^ (X0 + 401) /\
    2 * Z.abs (a * (10 ^ (D - 1) * Q) - P * (N * 10 ^ (X + 400))) <= P * 10 ^ (X0 + 400).
Proof.
  intros P2 P10 PQ PB HX HD A1. cbv zeta.
  assert (W : 1 <= a * Q / P) by (apply Z.div_le_lower_bound; nia).
  destruct (ilog10_spec _ W) as (L0 & L1 & L2). set (L := ilog10 (a * Q / P)) in *. clearbody L.
  replace (L - 400 + 400) with L by lia.
  destruct (todec_gen P Q D a P2 P10 PQ HD (proj1 A1) L _ L0 (conj L1 L2) eq_refl) as (N1 & R & C).
  set (N := rne (a * (10 ^ (D - 1) * Q)) (P * 10 ^ L)) in *. clearbody N.
  assert (LL : L <= 709) by exact (log_bound P Q _ _ a L P2 P10 (proj2 A1) PB (proj1 R) (HX L)).
  assert (ED : 10 ^ D = 10 * 10 ^ (D - 1)) by (rewrite <- Z.pow_succ_r by lia; f_equal; lia).
  assert (EL : 10 ^ (L + 1) = 10 * 10 ^ L) by (rewrite Z.pow_add_r by lia; lia).
  assert (PD : 0 < 10 ^ (D - 1)) by (apply Z.pow_pos_nonneg; lia).
  clear PB A1 HX W P2 P10 PQ L1 L2. destruct (Z.eqb_spec N (10 ^ D)) as [EN|EN].
  - split; [lia|]. split; [lia|]. exists (L - 400). split; [lia|]. split; [lia|]. split; [auto|].
    replace (L - 400 + 400) with L by lia. replace (L - 400 + 401) with (L + 1) by lia.
    replace (L - 400 + 1 + 400) with (L + 1) by lia. split; [exact R|].
    replace (10 ^ (D - 1) * 10 ^ (L + 1)) with (N * 10 ^ L); [exact C|]. rewrite EN, ED, EL. ring.
  - split; [lia|]. split; [lia|]. exists (L - 400). split; [lia|]. split; [lia|]. split; [lia|].
    replace (L - 400 + 400) with L by lia. replace (L - 400 + 401) with (L + 1) by lia. split; [exact R|exact C].
Qed.
Lemma pow10_710 L : 710 <= L -> 10 ^ 710 <= 10 ^ L.
Proof. intros H. apply Z.pow_le_mono_r; [reflexivity|exact H]. Qed.
Lemma pow_split D : 1 <= D -> 10 ^ (D - 1 + 400) = 10 ^ (D - 1) * 10 ^ 400.
Proof. intros H. apply Z.pow_add_r; lia. Qed.
Lemma todec_spec D m e : 1 <= D -> 1 <= m < 2 ^ 53 -> -1074 <= e <= 971 ->
  let '(N, X) := todec D m e in
  let a := m * 2 ^ (e + 1074) in
  10 ^ (D - 1) <= N < 10 ^ D /\ -400 <= X <= 310 /\
  exists X0, -400 <= X0 <= X /\ X <= X0 + 1 /\ (X = X0 + 1 -> N = 10 ^ (D - 1)) /\
    P1074 * 10 ^ (X0 + 400) <= a * P400 < P1074 * 10 ^ (X0 + 401) /\
    2 * Z.abs (a * (10 ^ (D - 1) * P400) - P1074 * (N * 10 ^ (X + 400))) <= P1074 * 10 ^ (X0 + 400).
Proof.
  intros HD Hm He. unfold todec. cbv zeta. rewrite (pow_split D HD).
  exact (todec_spec_gen P1074 P400 (10 ^ 710) (2 ^ 2098) D (m * 2 ^ (e + 1074)) P1074_pos P400_pos P_le P_big pow10_710 HD (scaled_range m e Hm He)).
Qed.

(* a number closer to m*2^e than the relative distance 2^-54 is read as m*2^e *)
Lemma tobin_close a b m e : 0 < a -> 0 < b -> -1074 <= e -> 1 <= m < 2 ^ 53 -> (-1074 < e -> 2 ^ 52 <= m) ->
  2 ^ 54 * Z.abs (a * 2 ^ 1074 - b * (m * 2 ^ (e + 1074))) < b * (m * 2 ^ (e + 1074)) ->
  tobin a b = (m, e).
Proof.
  intros Ha Hb He Hm Hn C. unfold tobin. cbv zeta.
  set (A := a * 2 ^ 1074) in *. set (g := e + 1074) in *.
  assert (G : 0 <= g) by lia. assert (Pg : 0 < 2 ^ g) by (apply Z.pow_pos_nonneg; lia).
  assert (CC : 2 * Z.abs (A - b * (m * 2 ^ g)) < b * 2 ^ g).
  { change (2 ^ 53) with 9007199254740992 in *. change (2 ^ 54) with 18014398509481984 in *. nia. }
  assert (E52 : 2 ^ 53 = 2 * 2 ^ 52) by reflexivity.
  destruct (Z.le_gt_cases (b * (2 ^ 52 * 2 ^ g)) A) as [LO|LO]; [|destruct (Z.eq_dec g 0) as [G0|G0]].
  - (* at least 2^(52+g) *)
    assert (EL : Z.log2 (A / b) = 52 + g).
    { apply Z.log2_unique; [lia|]. rewrite Z.pow_succ_r, Z.pow_add_r by lia. split.
      - apply Z.div_le_lower_bound; lia.
      - apply Z.div_lt_upper_bound; [lia|]. nia. }
    rewrite EL. replace (Z.max 0 (52 + g - 52)) with g by lia.
    rewrite (rne_unique A (b * 2 ^ g) m); [|apply Z.mul_pos_pos; lia|].
    + destruct (Z.eqb_spec m (2 ^ 53)); [lia|]. f_equal. unfold g. lia.
    + replace (b * 2 ^ g * m) with (b * (m * 2 ^ g)) by ring. exact CC.
  - (* subnormal *)
    rewrite G0 in *. change (2 ^ 0) with 1 in *.
    assert (EL : Z.log2 (A / b) <= 52).
    { destruct (Z.le_gt_cases (A / b) 0); [rewrite Z.log2_nonpos by lia; lia|].
      assert (Z.log2 (A / b) < 53); [|lia]. apply Z.log2_lt_pow2; [lia|]. apply Z.div_lt_upper_bound; lia. }
    replace (Z.max 0 (Z.log2 (A / b) - 52)) with 0 by lia. change (2 ^ 0) with 1.
    rewrite (rne_unique A (b * 1) m); [|lia|].
    + destruct (Z.eqb_spec m (2 ^ 53)); [lia|]. f_equal. lia.
    + replace (b * 1 * m) with (b * (m * 1)) by ring. lia.
  - (* just below a power of two *)
    assert (M52 : m = 2 ^ 52).
    { specialize (Hn ltac:(lia)). destruct (Z.eq_dec m (2 ^ 52)); auto. exfalso. nia. }
    assert (E2 : 2 ^ g = 2 * 2 ^ (g - 1)) by (rewrite <- Z.pow_succ_r by lia; f_equal; lia).
    assert (Pg1 : 0 < 2 ^ (g - 1)) by (apply Z.pow_pos_nonneg; lia).
    assert (CL : 4 * Z.abs (A - b * (m * 2 ^ g)) < b * 2 ^ g).
    { rewrite M52 in *. change (2 ^ 54) with (4 * 2 ^ 52) in C. nia. }
    assert (EL : Z.log2 (A / b) = 52 + (g - 1)).
    { apply Z.log2_unique; [lia|]. rewrite Z.pow_succ_r, Z.pow_add_r by lia. split.
      - apply Z.div_le_lower_bound; [lia|]. rewrite M52, E2 in *. change (2 ^ 52) with 4503599627370496 in *. nia.
      - apply Z.div_lt_upper_bound; [lia|]. rewrite E2 in LO. lia. }
    rewrite EL. replace (Z.max 0 (52 + (g - 1) - 52)) with (g - 1) by lia.
    rewrite (rne_unique A (b * 2 ^ (g - 1)) (2 ^ 53)); [|apply Z.mul_pos_pos; lia|].
    + rewrite Z.eqb_refl. f_equal; [auto|]. unfold g. lia.
    + rewrite M52, E2 in CL. replace (b * 2 ^ (g - 1) * 2 ^ 53) with (b * (2 ^ 52 * (2 * 2 ^ (g - 1)))) by (rewrite E52; ring). lia.
Qed.

(* seventeen digits are enough *)
Lemma dec17 s m e H : let '(N, X) := todec 17 (Zpos m) e in fromdec s N (X - 16) = Some (B754_finite s m e H).
Proof.
  pose proof (bounded_facts _ _ H) as (He & Hm & Hn).
  pose proof (todec_spec 17 (Zpos m) e ltac:(lia) ltac:(lia) He) as S. destruct (todec 17 (Z.pos m) e) as [N X]. cbv zeta in S.
  destruct S as (RN & RX & X0 & X1 & X2 & _ & [R _] & C). unfold fromdec.
  assert (E : tobin (N * 10 ^ Z.max 0 (X - 16)) (10 ^ Z.max 0 (- (X - 16))) = (Zpos m, e)).
  { assert (Pb : 0 < 10 ^ Z.max 0 (- (X - 16))) by (apply Z.pow_pos_nonneg; lia).
    assert (Pa : 0 < 10 ^ Z.max 0 (X - 16)) by (apply Z.pow_pos_nonneg; lia).
    assert (E1 : 10 ^ Z.max 0 (X - 16) * (10 ^ (17 - 1) * P400) = 10 ^ Z.max 0 (- (X - 16)) * 10 ^ (X + 400)).
    { unfold P400. rewrite <- !Z.pow_add_r by lia. f_equal. lia. }
    assert (PN : 0 < N) by (change (10 ^ (17 - 1)) with 10000000000000000 in RN; lia).
    apply tobin_close; auto; [apply Z.mul_pos_pos; auto| lia | lia |].
    fold P1074. pose proof P1074_pos as PP. pose proof P400_pos as PQ.
    assert (XX : P1074 * 10 ^ (X0 + 400) <= Z.pos m * 2 ^ (e + 1074) * P400) by exact R. clear R RN RX X1 X2.
    assert (PA : 0 < Z.pos m * 2 ^ (e + 1074)) by (apply Z.mul_pos_pos; [lia|apply Z.pow_pos_nonneg; lia]).
    set (A := Z.pos m * 2 ^ (e + 1074)) in *. set (b := 10 ^ Z.max 0 (- (X - 16))) in *. set (c := 10 ^ Z.max 0 (X - 16)) in *.
    set (y := 10 ^ (X + 400)) in *. set (x0 := P1074 * 10 ^ (X0 + 400)) in *. set (P := P1074) in *. set (Q := P400) in *.
    clearbody A b c y x0 P Q. change (10 ^ (17 - 1)) with 10000000000000000 in *.
    assert (K : 2 * (Z.abs (N * c * P - b * A) * (10000000000000000 * Q)) <= b * (A * Q)).
    { replace (Z.abs (N * c * P - b * A) * (10000000000000000 * Q)) with (b * Z.abs (A * (10000000000000000 * Q) - P * (N * y))).
      - nia.
      - assert (EE : (N * c * P - b * A) * (10000000000000000 * Q) = - (b * (A * (10000000000000000 * Q) - P * (N * y)))).
        { transitivity (N * P * (b * y) - b * A * (10000000000000000 * Q)); [rewrite <- E1; ring|ring]. }
        apply (f_equal Z.abs) in EE. rewrite Z.abs_opp, !Z.abs_mul, (Z.abs_eq b), (Z.abs_eq 10000000000000000), (Z.abs_eq Q) in EE by lia. lia. }
    assert (K2 : 20000000000000000 * Z.abs (N * c * P - b * A) <= b * A) by nia.
    change (2 ^ 54) with 18014398509481984. assert (0 < b * A) by (apply Z.mul_pos_pos; auto). lia. }
  rewrite E. unfold mkf.
  assert (G : forall q (Q : bounded 53 1024 m e = q), q = true -> (match q as b return bounded 53 1024 m e = b -> option f64 with true => fun H => Some (B754_finite s m e H) | false => fun _ => None end) Q = Some (B754_finite s m e H)).
  { intros q Q ->. f_equal. f_equal. apply Eqdep_dec.UIP_dec. apply bool_dec. }
  exact (G _ eq_refl H).
Qed.

(* ---- the text ---- *)
Lemma udec_fuel_length k : forall n D, 0 <= n < 2 ^ Z.of_nat k -> 1 <= D -> (D = 1 \/ 10 ^ (D - 1) <= n) -> n < 10 ^ D -> zlen (udec_fuel k n) = if Nat.eqb k 0 then 0 else D.
Proof.
  induction k as [|k IH]; intros n D H HD L U; [reflexivity|]. cbn [udec_fuel Nat.eqb]. destruct (Z.ltb_spec n 10).
  - assert (D = 1); [|subst; reflexivity]. destruct L as [L|L]; auto. destruct (Z.eq_dec D 1); auto. exfalso.
    assert (10 ^ 1 <= 10 ^ (D - 1)) by (apply Z.pow_le_mono_r; lia). lia.
  - assert (D <> 1) by (intros ->; change (10 ^ 1) with 10 in U; lia).
    assert (E1 : 10 ^ D = 10 * 10 ^ (D - 1)) by (rewrite <- Z.pow_succ_r by lia; f_equal; lia).
    assert (E2 : 10 ^ (D - 1) = 10 * 10 ^ (D - 1 - 1)) by (rewrite <- Z.pow_succ_r by lia; f_equal; lia).
    rewrite Nat2Z.inj_succ, Z.pow_succ_r in H by lia.
    rewrite zlen_app, (IH (n / 10) (D - 1)); [| |lia| |].
    + change (zlen [48 + n mod 10]) with 1. destruct k; [|cbn [Nat.eqb]; lia]. change (2 ^ Z.of_nat 0) with 1 in H. lia.
    + split; [apply Z.div_pos; lia|]. apply Z.div_lt_upper_bound; lia.
    + right. apply Z.div_le_lower_bound; lia.
    + apply Z.div_lt_upper_bound; lia.
Qed.
Lemma udec_length n D : 1 <= D -> 10 ^ (D - 1) <= n < 10 ^ D -> zlen (udec n) = D.
Proof.
  intros HD [L U]. assert (0 < n) by (assert (0 < 10 ^ (D - 1)) by (apply Z.pow_pos_nonneg; lia); lia).
  unfold udec. rewrite (udec_fuel_length _ _ D); auto. split; [lia|].
  rewrite Nat2Z.inj_succ, Z2Nat.id by apply Z.log2_nonneg. apply Z.log2_spec. lia.
Qed.
Lemma digits_app ds : forall rest acc v n, fold_left dec_step ds (Some acc) = Some v -> digits (ds ++ rest) acc n = digits rest v (n + zlen ds).
Proof.
  induction ds as [|c ds IH]; intros rest acc v n F.
  - cbn in F. injection F as <-. cbn [app]. rewrite zlen_nil, Z.add_0_r. reflexivity.
  - cbn [fold_left dec_step] in F. cbn [app digits]. destruct (is_digit c) eqn:E.
    + rewrite (IH _ _ v) by exact F. f_equal. rewrite zlen_cons. lia.
    + exfalso. clear - F. induction ds; [discriminate|]. apply IHds. exact F.
Qed.
Lemma exptext_parse X : exists c r, exptext X = c :: r /\ (c = 43 \/ c = 45) /\
  parse_udec r = Some (Z.abs X) /\ (if c =? 45 then - Z.abs X else Z.abs X) = X /\ (forall d, In d r -> 48 <= d <= 57).
Proof.
  unfold exptext. eexists _, _. split; [reflexivity|].
  assert (P : parse_udec (if Z.abs X <? 10 then 48 :: udec (Z.abs X) else udec (Z.abs X)) = Some (Z.abs X)).
  { pose proof (udec_parse (Z.abs X) ltac:(lia)) as P. destruct (Z.abs X <? 10); [|exact P].
    unfold parse_udec in *. cbn [fold_left dec_step is_digit]. pose proof (udec_nonempty (Z.abs X)). destruct (udec (Z.abs X)); [congruence|exact P]. }
  assert (I : forall d, In d (if Z.abs X <? 10 then 48 :: udec (Z.abs X) else udec (Z.abs X)) -> 48 <= d <= 57).
  { intros d. destruct (Z.abs X <? 10); intros I; [destruct I as [<-|I]; [lia|]|]; apply (udec_digits (Z.abs X)); auto; lia. }
  destruct (Z.ltb_spec X 0); repeat split; auto; cbn [Z.eqb Pos.eqb]; try lia; apply I; auto.
Qed.
(* the number is read back as N*10^(X+1-D) *)
Lemma scitext_parse neg D N X : 1 <= D -> 10 ^ (D - 1) <= N < 10 ^ D -> parse_udecimal neg (scitext N X) = fromdec neg N (X - (D - 1)).
Proof.
  intros HD R. pose proof (udec_length N D HD R) as L. assert (P0 : 0 < 10 ^ (D - 1)) by (apply Z.pow_pos_nonneg; lia).
  pose proof (udec_parse N ltac:(lia)) as P. pose proof (udec_digits N) as DG.
  destruct (exptext_parse X) as (c & r & EX & Hc & PX & SX & _).
  unfold scitext. unfold parse_udec in P. destruct (udec N) as [|d ds] eqn:EU; [discriminate|].
  assert (KE : (let '(sg, s4) := match c :: r with 43 :: r0 => (1, r0) | 45 :: r0 => (-1, r0) | _ => (1, c :: r) end in
      match parse_udec s4 with Some x => fromdec neg N (sg * x - (D - 1)) | None => None end) = fromdec neg N (X - (D - 1))).
  { destruct Hc as [-> | ->]; rewrite PX; cbn [Z.eqb Pos.eqb] in SX; f_equal; lia. }
  destruct ds as [|d2 ds].
  - unfold parse_udecimal. change (d :: 101 :: exptext X) with ([d] ++ (101 :: exptext X)).
    rewrite (digits_app [d] _ 0 N) by exact P. cbn [digits is_digit Z.leb Z.compare Pos.compare Pos.compare_cont andb].
    change (zlen [d]) with 1 in *. subst D. cbn [Z.add Z.eqb Pos.eqb lower Z.leb Z.compare Pos.compare Pos.compare_cont andb].
    rewrite EX. exact KE.
  - unfold parse_udecimal. change (d :: 46 :: (d2 :: ds) ++ 101 :: exptext X) with ([d] ++ (46 :: (d2 :: ds) ++ 101 :: exptext X)).
    cbn [fold_left] in P. destruct (dec_step (Some 0) d) as [a1|] eqn:E1.
    2: { exfalso. clear - P. cbn in P. induction ds; [discriminate|]. apply IHds. exact P. }
    rewrite (digits_app [d] _ 0 a1) by exact E1.
    cbn [digits is_digit Z.leb Z.compare Pos.compare Pos.compare_cont andb].
    rewrite (digits_app (d2 :: ds) _ a1 N) by exact P. cbn [digits is_digit Z.leb Z.compare Pos.compare Pos.compare_cont andb].
    change (zlen [d]) with (1 + 0). rewrite !zlen_cons in *. pose proof (zlen_nonneg ds).
    destruct (Z.eqb_spec (0 + (1 + 0) + (1 + zlen ds)) 0); [lia|]. cbn [lower Z.leb Z.compare Pos.compare Pos.compare_cont andb Z.eqb Pos.eqb].
    rewrite EX. replace (0 + (1 + 0) + (1 + zlen ds) - (0 + (1 + 0))) with (D - 1) by lia. exact KE.
Qed.
Lemma parse_digit_body s c r : 48 <= c <= 57 -> parse_float (signtext s ++ c :: r) = parse_udecimal s (c :: r).
Proof.
  intros H. assert (L : lower c = c) by (unfold lower; destruct (Z.leb_spec 65 c); [lia|reflexivity]).
  assert (N : forall x l, x <> c -> str_eqb (map lower (c :: r)) (x :: l) = false).
  { intros x l D. cbn [map str_eqb]. rewrite L. destruct (Z.eqb_spec c x); [congruence|reflexivity]. }
  destruct s; cbn [signtext app]; unfold parse_float; cbv beta iota zeta.
  - rewrite !N by lia. reflexivity.
  - assert (M : forall (X : Type) (f g h : X), match c with 45 => f | 43 => g | _ => h end = h).
    { intros X f g h. destruct c as [|p|p]; auto. repeat (destruct p as [p|p|]; auto; try lia). }
    rewrite M, !N by lia. reflexivity.
Qed.
Lemma scitext_head N X : 0 < N -> exists c r, scitext N X = c :: r /\ 48 <= c <= 57.
Proof.
  intros H. unfold scitext. pose proof (udec_digits N) as D. pose proof (udec_nonempty N). destruct (udec N) as [|d ds]; [congruence|].
  specialize (D d ltac:(lia) (or_introl eq_refl)). destruct ds; eexists _, _; split; eauto.
Qed.
Lemma fromdec_zero s k : fromdec s 0 k = Some (B754_zero s).
Proof.
  unfold fromdec. rewrite Z.mul_0_l. unfold tobin. cbv zeta. rewrite Z.mul_0_l, Z.div_0_l by (apply Z.pow_nonzero; lia).
  replace (Z.max 0 (Z.log2 0 - 52)) with 0 by reflexivity.
  replace (rne 0 (10 ^ Z.max 0 (- k) * 2 ^ 0)) with 0; [reflexivity|]. symmetry. apply rne_unique; [|rewrite Z.mul_0_r; cbn [Z.sub Z.opp Z.add Z.abs Z.mul]];
  apply Z.mul_pos_pos; [apply Z.pow_pos_nonneg; lia|lia|apply Z.pow_pos_nonneg; lia|lia].
Qed.
Lemma digits_zeros n : forall rest k, digits (repeat 48 n ++ rest) 0 k = digits rest 0 (k + Z.of_nat n).
Proof.
  induction n as [|n IH]; intros rest k; [cbn [repeat app]; f_equal; lia|]. cbn [repeat app digits is_digit Z.leb Z.compare Pos.compare Pos.compare_cont andb].
  change (10 * 0 + (48 - 48)) with 0. rewrite IH. f_equal. lia.
Qed.
Lemma parse_zero D s : 1 <= D -> parse_float (fmt_e D (B754_zero s)) = Some (B754_zero s).
Proof.
  intros HD. unfold fmt_e. destruct (Z.eqb_spec D 1) as [->|].
  - change ([48] ++ 101 :: exptext 0) with (48 :: 101 :: exptext 0). rewrite parse_digit_body by lia. destruct s; vm_compute; reflexivity.
  - cbn [app]. rewrite parse_digit_body by lia. unfold parse_udecimal.
    cbn [digits is_digit Z.leb Z.compare Pos.compare Pos.compare_cont andb]. change (10 * 0 + (48 - 48)) with 0. rewrite digits_zeros.
    cbn [digits is_digit Z.leb Z.compare Pos.compare Pos.compare_cont andb].
    destruct (Z.eqb_spec (0 + 1 + Z.of_nat (Z.to_nat (D - 1))) 0); [lia|]. change (lower 101 =? 101) with true. cbv beta iota.
    change (exptext 0) with [43; 48; 48]. cbv beta iota. change (parse_udec [48; 48]) with (Some 0). apply fromdec_zero.
Qed.
(* ParseFloat gives back what %1.16e printed, for every float64 *)
Theorem parse_fmt17 x : parse_float (fmt_e 17 x) = Some x.
Proof.
  destruct x as [s|s| |s m e H].
  - apply parse_zero. lia.
  - destruct s; reflexivity.
  - reflexivity.
  - unfold fmt_e. pose proof (dec17 s m e H) as E. pose proof (bounded_facts _ _ H) as (He & Hm & _).
    pose proof (todec_spec 17 (Zpos m) e ltac:(lia) ltac:(lia) He) as S. destruct (todec 17 (Z.pos m) e) as [N X]. cbv zeta in S.
    destruct S as (RN & _). destruct (scitext_head N X) as (c & r & ES & Hc); [change (10 ^ (17 - 1)) with 10000000000000000 in RN; lia|].
    rewrite ES, parse_digit_body by auto. rewrite <- ES, (scitext_parse s 17 N X) by (auto; lia). exact E.
Qed.
(* the characters of a printed number: no blank, no control character *)
Definition numchar (c : Z) : Prop := 43 <= c <= 122.
Lemma exptext_chars X c : In c (exptext X) -> numchar c.
Proof.
  destruct (exptext_parse X) as (d & r & -> & [-> | ->] & _ & _ & D); intros [<-|I]; unfold numchar; try lia; apply D in I; lia.
Qed.
Lemma fmt_chars D x c : 1 <= D -> In c (fmt_e D x) -> numchar c.
Proof.
  intros HD.
  assert (S : forall s, In c (signtext s) -> numchar c) by (intros [|]; cbn; intros I; [destruct I as [<-|[]]; unfold numchar; lia|destruct I]).
  destruct x as [s|s| |s m e H]; unfold fmt_e; intros I.
  - apply in_app_or in I as [I|I]; [eauto|]. apply in_app_or in I as [I|[<-|I]]; [|unfold numchar; lia|eapply exptext_chars; eauto].
    destruct (D =? 1); [destruct I as [<-|[]]; unfold numchar; lia|]. destruct I as [<-|[<-|I]]; [unfold numchar; lia..|]. apply repeat_spec in I as ->. unfold numchar; lia.
  - destruct s; cbn in I; unfold numchar; intuition lia.
  - cbn in I; unfold numchar; intuition lia.
  - apply in_app_or in I as [I|I]; [eauto|]. pose proof (bounded_facts _ _ H) as (He & Hm & _).
    pose proof (todec_spec D (Zpos m) e HD ltac:(lia) He) as T. destruct (todec D (Z.pos m) e) as [N X]. cbv zeta in T. destruct T as (RN & _).
    assert (G : 0 <= N) by (assert (0 < 10 ^ (D - 1)) by (apply Z.pow_pos_nonneg; lia); lia). unfold scitext in I.
    pose proof (udec_digits N) as DG. destruct (udec N) as [|d ds]; [destruct I|].
    assert (DN : forall y, In y (d :: ds) -> numchar y) by (intros y Y; specialize (DG y G Y); unfold numchar; lia).
    destruct ds as [|d2 ds].
    + destruct I as [<-|[<-|I]]; [apply DN; cbn; auto|unfold numchar; lia|eapply exptext_chars; eauto].
    + destruct I as [<-|[<-|I]]; [apply DN; cbn; auto|unfold numchar; lia|].
      apply in_app_or in I as [I|[<-|I]]; [apply DN; right; auto|unfold numchar; lia|eapply exptext_chars; eauto].
Qed.
Lemma fmt_nonempty D x : fmt_e D x <> [].
Proof.
  destruct x as [s|s| |s m e H]; unfold fmt_e; try discriminate.
  - destruct s; try discriminate. destruct (D =? 1); discriminate.
  - destruct s; try discriminate. destruct (todec D (Z.pos m) e) as [N X]. unfold signtext, app, scitext. pose proof (udec_nonempty N).
    destruct (udec N) as [|d [|d2 ds]]; [congruence|discriminate..].
Qed.
(* examples: 0.1, -2^-1074 *)
Example fmt_e_tenth : fmt_e 17 (@B754_finite 53 1024 false 7205759403792794 (-56) eq_refl) = (* 1.0000000000000001e-01 *)
  [49; 46; 48; 48; 48; 48; 48; 48; 48; 48; 48; 48; 48; 48; 48; 48; 48; 49; 101; 45; 48; 49].
Proof. vm_compute. reflexivity. Qed.
Example fmt_e_tiny : fmt_e 7 (@B754_finite 53 1024 true 1 (-1074) eq_refl) = (* -4.940656e-324 *)
  [45; 52; 46; 57; 52; 48; 54; 53; 54; 101; 45; 51; 50; 52].
Proof. vm_compute. reflexivity. Qed.
Example parse_tenth : option_map fkey (parse_float [48; 46; 49]) = Some (Some (7205759403792794 * 2 ^ 1018)).
Proof. vm_compute. reflexivity. Qed.
Example parse_too_large : parse_float [49; 101; 51; 48; 57] = None /\ parse_float [46] = None /\ parse_float [49; 101] = None /\ parse_float [] = None.
Proof. vm_compute. auto. Qed.
