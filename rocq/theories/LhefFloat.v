(* Numbers that are written with %1.f and read back: the nearest whole number *)
From Coq Require Import ZArith List Lia Bool.
From Flocq Require Import IEEE754.BinarySingleNaN.
From Verif Require Import Bytes GoLib GoStrings F64 FloatText FloatDigits ScanfModel ScanfProofs LhefModel.
Import ListNotations.
Local Open Scope Z_scope.

Lemma rne_exact a b : 0 < b -> rne (b * a) b = a.
Proof. intros H. apply rne_unique; [exact H|]. replace (b * a - b * a) with 0 by ring. cbn. exact H. Qed.
Lemma tobin_whole N : 0 < N <= 2 ^ 53 -> exists M e, tobin (N * 1) 1 = (M, e) /\ 2 ^ 52 <= M < 2 ^ 53 /\ -52 <= e <= 1 /\
  (e <= 0 -> M = N * 2 ^ (- e)) /\ (0 < e -> N = M * 2 ^ e).
Proof.
  intros H. set (L := Z.log2 N). assert (L0 : 0 <= L) by apply Z.log2_nonneg. pose proof (Z.log2_spec N ltac:(lia)) as [S1 S2]. fold L in S1, S2.
  assert (L53 : L <= 53) by (apply Z.log2_lt_pow2 in S2; [|lia]; assert (L < 54); [|lia]; unfold L; apply Z.log2_lt_pow2; lia).
  set (M := if L <=? 52 then N * 2 ^ (52 - L) else 2 ^ 52). exists M, (L - 52).
  assert (EQ : N * 2 ^ 1074 = 2 ^ (L + 1022) * M).
  { unfold M. destruct (Z.leb_spec L 52).
    - rewrite (Z.mul_comm N), (Z.mul_comm N), Z.mul_assoc, <- Z.pow_add_r by lia. f_equal. f_equal. lia.
    - assert (E53 : L = 53) by lia. assert (N53 : N = 2 ^ 53) by (rewrite E53 in S1; lia). rewrite N53, E53. rewrite <- !Z.pow_add_r by lia. reflexivity. }
  assert (MR : 2 ^ 52 <= M < 2 ^ 53).
  { unfold M. destruct (Z.leb_spec L 52); [|lia]. assert (P : 0 < 2 ^ (52 - L)) by (apply Z.pow_pos_nonneg; lia).
    assert (E1 : 2 ^ L * 2 ^ (52 - L) = 2 ^ 52) by (rewrite <- Z.pow_add_r by lia; f_equal; lia).
    assert (E2 : 2 ^ Z.succ L * 2 ^ (52 - L) = 2 ^ 53) by (rewrite <- Z.pow_add_r by lia; f_equal; lia).
    set (a := 2 ^ L) in *. set (b := 2 ^ Z.succ L) in *. set (c := 2 ^ (52 - L)) in *. clearbody a b c. nia. }
  split; [|split; [exact MR|split; [lia|split]]].
  - unfold tobin. rewrite Z.mul_1_r, Z.div_1_r, Z.log2_mul_pow2 by lia. fold L. replace (Z.max 0 (1074 + L - 52)) with (L + 1022) by lia. cbv zeta. rewrite EQ, Z.mul_1_l, rne_exact by (apply Z.pow_pos_nonneg; lia).
    destruct (Z.eqb_spec M (2 ^ 53)); [lia|]. f_equal. lia.
  - intros E. unfold M. destruct (Z.leb_spec L 52); [f_equal; f_equal; lia|lia].
  - intros E. assert (L = 53) by lia. unfold M. destruct (Z.leb_spec L 52); [lia|]. assert (N = 2 ^ 53) by (rewrite H0 in S1; lia). rewrite H2, H0. reflexivity.
Qed.
(* the value of a number, in units of 2^-1074 *)
Definition val (x : f64) : Z := match x with B754_finite s m e _ => (if s then -1 else 1) * (Zpos m * 2 ^ (e + 1074)) | _ => 0 end.
Definition signOf (x : f64) : bool := match x with B754_finite s _ _ _ | B754_zero s | B754_infinity s => s | B754_nan => false end.
Lemma mkf_pos s p e : -1074 <= e <= 971 -> Zpos p < 2 ^ 53 -> (-1074 < e -> 2 ^ 52 <= Zpos p) -> exists H, mkf s (Zpos p) e = Some (B754_finite s p e H).
Proof.
  intros A B C. pose proof (bounded_intro p e A B C) as BB. unfold mkf.
  set (b := SpecFloat.bounded 53 1024 p e) in *. generalize (eq_refl b).
  assert (X : forall c (E : b = c), c = true -> exists H, (match c as b0 return b = b0 -> option f64 with true => fun H0 => Some (B754_finite s p e H0) | false => fun _ => None end) E = Some (B754_finite s p e H)) by (intros [] E F; [exists E; reflexivity|discriminate]).
  intros E. apply X. exact BB.
Qed.
(* a whole number up to 2^53, written and read back *)
Definition wtext (s : bool) (N : Z) : str := signtext s ++ udec N.
Lemma fromdec_whole s N : 0 <= N <= 2 ^ 53 -> exists y, fromdec s N 0 = Some y /\ fmt_f0 y = wtext s N /\ signOf y = s /\ val y = (if s then -1 else 1) * (N * 2 ^ 1074) /\ (match y with B754_finite _ m e _ => inear (Zpos m) e = N | B754_zero _ => N = 0 | _ => False end).
Proof.
  intros H. destruct (Z.eq_dec N 0) as [->|NZ].
  - exists (B754_zero s). assert (E : tobin (0 * 1) 1 = (0, -1074)) by (vm_compute; reflexivity). split; [unfold fromdec; change (0 * 10 ^ Z.max 0 0) with (0 * 1); change (10 ^ Z.max 0 (- 0)) with 1; rewrite E; reflexivity|].
    split; [reflexivity|]. split; [reflexivity|]. split; [destruct s; reflexivity|reflexivity].
  - destruct (tobin_whole N ltac:(lia)) as (M & e & T & MR & ER & E1 & E2). unfold fromdec. change (10 ^ Z.max 0 0) with 1. change (10 ^ Z.max 0 (- 0)) with 1. rewrite T.
    destruct M as [|p|p]; try lia. destruct (mkf_pos s p e ltac:(lia) ltac:(lia) ltac:(lia)) as (B & MK). rewrite MK. eexists. split; [reflexivity|].
    assert (IN : inear (Zpos p) e = N).
    { unfold inear. destruct (Z.leb_spec 0 e).
      - destruct (Z.eq_dec e 0) as [->|]; [rewrite E1 by lia; cbn; lia|]. symmetry. apply E2. lia.
      - rewrite E1 by lia. rewrite (Z.mul_comm N). apply rne_exact. apply Z.pow_pos_nonneg; lia. }
    split; [cbn [fmt_f0]; rewrite IN; reflexivity|]. split; [reflexivity|]. split; [|exact IN]. cbn [val]. f_equal.
    destruct (Z_le_gt_dec e 0).
    + rewrite E1 by lia. rewrite <- Z.mul_assoc, <- Z.pow_add_r by lia. f_equal. f_equal. lia.
    + rewrite E2 by lia. rewrite <- Z.mul_assoc, <- Z.pow_add_r by lia. reflexivity.
Qed.
Lemma parse_whole s N : 0 <= N <= 2 ^ 53 -> parse_float (wtext s N ++ [46]) = fromdec s N 0.
Proof.
  intros H. pose proof (digits_dig N ltac:(lia)) as F. pose proof (udec_nonempty N) as NE. pose proof (udec_parse N ltac:(lia)) as P.
  assert (U : forall neg, parse_udecimal neg (udec N ++ [46]) = fromdec neg N 0).
  { intros neg. unfold parse_udecimal. assert (P' : fold_left dec_step (udec N) (Some 0) = Some N) by (destruct (udec N); [congruence|exact P]).
    rewrite (digits_app (udec N) [46] 0 N 0 P'). change (digits [46] N (0 + zlen (udec N))) with (N, 0 + zlen (udec N), [46]). cbv iota beta. cbn [digits].
    destruct (Z.eqb_spec (0 + zlen (udec N)) 0) as [Z0|_]; [destruct (udec N); [congruence|unfold zlen in Z0; cbn [List.length] in Z0; lia]|]. cbv iota. rewrite Z.sub_diag. reflexivity. }
  unfold wtext. rewrite <- app_assoc. destruct (udec N) as [|c r] eqn:E; [congruence|]. inversion F as [|? ? D _]; subst. destruct s; cbn [signtext app]; [pose proof (parse_digit_body true c (r ++ [46]) D) as X|pose proof (parse_digit_body false c (r ++ [46]) D) as X]; cbn [signtext app] in X; rewrite X; exact (U _).
Qed.
Definition small (x : f64) : Prop := match x with B754_zero _ => True | B754_finite _ m e _ => Zpos m * 2 ^ (e + 1074) <= 2 ^ 53 * 2 ^ 1074 | _ => False end.
Lemma inear_near m e : SpecFloat.bounded 53 1024 m e = true -> 2 * Z.abs (inear (Zpos m) e * 2 ^ 1074 - Zpos m * 2 ^ (e + 1074)) <= 2 ^ 1074.
Proof.
  intros B. pose proof (bounded_facts m e B) as BF; assert (E1 : -1074 <= e) by lia. unfold inear. destruct (Z.leb_spec 0 e).
  - rewrite <- Z.mul_assoc, <- Z.pow_add_r, Z.sub_diag by lia. apply Z.pow_nonneg. lia.
  - assert (P : 0 < 2 ^ (- e)) by (apply Z.pow_pos_nonneg; lia). pose proof (rne_spec (Zpos m) (2 ^ (- e)) P) as S. set (N := rne (Zpos m) (2 ^ (- e))) in *.
    assert (Q : 2 ^ 1074 = 2 ^ (- e) * 2 ^ (e + 1074)) by (rewrite <- Z.pow_add_r by lia; f_equal; lia). rewrite Q.
    assert (P2 : 0 < 2 ^ (e + 1074)) by (apply Z.pow_pos_nonneg; lia). set (u := 2 ^ (e + 1074)) in *. set (k := 2 ^ (- e)) in *. clear Q. clearbody u k N.
    replace (N * (k * u) - Zpos m * u) with (- (Zpos m - k * N) * u) by ring. rewrite Z.abs_mul, Z.abs_opp, (Z.abs_eq u) by lia. rewrite Z.mul_assoc. apply Z.mul_le_mono_nonneg_r; lia.
Qed.
Lemma inear_small m e : SpecFloat.bounded 53 1024 m e = true -> Zpos m * 2 ^ (e + 1074) <= 2 ^ 53 * 2 ^ 1074 -> 0 <= inear (Zpos m) e <= 2 ^ 53.
Proof.
  intros B S. pose proof (bounded_facts m e B) as BF; assert (M : Zpos m < 2 ^ 53) by lia; assert (E1 : -1074 <= e) by lia; clear BF. unfold inear. destruct (Z.leb_spec 0 e).
  - assert (P : 0 < 2 ^ e) by (apply Z.pow_pos_nonneg; lia). split; [nia|]. rewrite Z.pow_add_r, Z.mul_assoc in S by lia. apply Z.mul_le_mono_pos_r in S; [exact S|apply Z.pow_pos_nonneg; lia].
  - assert (P : 2 <= 2 ^ (- e)) by (change 2 with (2 ^ 1) at 1; apply Z.pow_le_mono_r; lia). pose proof (rne_spec (Zpos m) (2 ^ (- e)) ltac:(lia)) as R. set (N := rne (Zpos m) (2 ^ (- e))) in *. set (k := 2 ^ (- e)) in *. clear S. clearbody N k. split; nia.
Qed.
(* what a number is after it has been written with %1.f and a dot and read back *)
Definition rd0 (x : f64) : f64 := match parse_float (fmt_f0 x ++ [46]) with Some y => y | None => x end.
Definition whole (x : f64) : Prop := exists N, val x = N * 2 ^ 1074.
Lemma rd0_ok x : small x -> parse_float (fmt_f0 x ++ [46]) = Some (rd0 x) /\ fmt_f0 (rd0 x) = fmt_f0 x /\ signOf (rd0 x) = signOf x /\
  2 * Z.abs (val (rd0 x) - val x) <= 2 ^ 1074 /\ whole (rd0 x).
Proof.
  intros S. destruct x as [s|s| |s m e B]; try contradiction; cbn [small] in S.
  - assert (E : parse_float (fmt_f0 (B754_zero s) ++ [46]) = Some (B754_zero s)).
    { change (fmt_f0 (B754_zero s)) with (wtext s 0). rewrite parse_whole by lia. destruct (fromdec_whole s 0 ltac:(lia)) as (y & E & _ & SG & _ & C). rewrite E. destruct y as [t| | |t m e B]; try contradiction; [cbn in SG; subst; reflexivity|].
      exfalso. unfold fromdec in E. change (tobin (0 * 10 ^ Z.max 0 0) (10 ^ Z.max 0 (- 0))) with (tobin (0 * 1) 1) in E. assert (E2 : tobin (0 * 1) 1 = (0, -1074)) by (vm_compute; reflexivity). rewrite E2 in E. discriminate. }
    unfold rd0. rewrite E. split; [reflexivity|]. split; [reflexivity|]. split; [reflexivity|]. split; [|exists 0; reflexivity]. cbn [val]. rewrite Z.sub_diag. apply Z.pow_nonneg. lia.
  - pose proof (inear_small m e B S) as R. pose proof (inear_near m e B) as NR. destruct (fromdec_whole s (inear (Zpos m) e) R) as (y & E & F & SG & V & _).
    assert (P : parse_float (fmt_f0 (B754_finite s m e B) ++ [46]) = Some y) by (change (fmt_f0 (B754_finite s m e B)) with (wtext s (inear (Zpos m) e)); rewrite parse_whole by exact R; exact E).
    unfold rd0. rewrite P. split; [reflexivity|]. split; [exact F|]. split; [exact SG|]. rewrite V. split.
    + cbn [val]. rewrite <- Z.mul_sub_distr_l, Z.abs_mul. replace (Z.abs (if s then -1 else 1)) with 1 by (destruct s; reflexivity). rewrite Z.mul_1_l. exact NR.
    + exists ((if s then -1 else 1) * inear (Zpos m) e). rewrite V. apply Z.mul_assoc.
Qed.
(* a whole number comes back as it was *)
Lemma rd0_whole x : small x -> whole x -> val (rd0 x) = val x.
Proof.
  intros S (N & W). destruct (rd0_ok x S) as (_ & _ & _ & R & (M & V)). rewrite V, W in *. assert (P : 0 < 2 ^ 1074) by (apply Z.pow_pos_nonneg; lia). set (u := 2 ^ 1074) in *. clearbody u.
  rewrite <- Z.mul_sub_distr_r, Z.abs_mul, (Z.abs_eq u) in R by lia. assert (Z.abs (M - N) < 1) by nia. replace M with N by lia. reflexivity.
Qed.
Lemma f0_shape x : small x -> exists sg ds, fmt_f0 x = sg ++ ds /\ (sg = [] \/ sg = [45]) /\ ds <> [] /\ Forall dig ds.
Proof.
  intros S. destruct x as [s|s| |s m e B]; try contradiction; exists (signtext s).
  - exists [48]. split; [reflexivity|]. split; [destruct s; auto|]. split; [discriminate|]. constructor; [unfold dig; lia|constructor].
  - exists (udec (inear (Zpos m) e)). split; [reflexivity|]. split; [destruct s; auto|]. split; [apply udec_nonempty|]. apply digits_dig. apply (inear_small m e B S).
Qed.
Lemma f0_numeral x : small x -> numeral (fmt_f0 x ++ [46]).
Proof.
  intros S. destruct (f0_shape x S) as (sg & ds & E & SG & NE & F). rewrite E, <- app_assoc. replace (ds ++ [46]) with (ds ++ [46] ++ []) by reflexivity.
  constructor; [tauto|exact NE|exact F| |left; reflexivity]. right. exists []. split; [reflexivity|constructor].
Qed.
Lemma f0_readable x : small x -> readable PF (fmt_f0 x ++ [46]) (SF (rd0 x)).
Proof.
  intros S. pose proof (f0_numeral x S) as N. assert (NS : nosp (fmt_f0 x ++ [46])) by (inversion N as [sg ds fr ex SG NE F _ _]; apply num_nosp; assumption). split; [exact NS|]. intros c r ST. cbn [scanOne]. unfold scanFloat. rewrite skip_nosp by exact NS.
  rewrite floatToken_num by assumption. destruct (rd0_ok x S) as (E & _). rewrite E. reflexivity.
Qed.
