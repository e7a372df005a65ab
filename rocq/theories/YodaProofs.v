(* Proofs about YodaModel.v *)
From Coq Require Import ZArith List Lia Bool String.
From Flocq Require Import IEEE754.BinarySingleNaN.
From Verif Require Import Bytes GoLib GoStrings F64 FloatText FloatDigits ScanfModel ScanfProofs LhefModel LhefFloat YodaModel.
Import ListNotations.
Local Open Scope Z_scope.

(* ---- a number in a line ---- *)
Definition ends (r : str) : Prop := match r with c :: _ => is_sp c = true | [] => True end.
Lemma sp_cases c : is_sp c = true -> 9 <= c <= 13 \/ c = 32.
Proof. unfold is_sp. intros H. apply orb_true_iff in H as [H|H]; [apply andb_true_iff in H as [A B]; apply Z.leb_le in A, B; lia|apply Z.eqb_eq in H; lia]. Qed.
Lemma floatToken_ends t r : numeral t -> ends r -> floatToken (t ++ r) = (t, r).
Proof.
  intros N ST. destruct N as [sg ds fr ex SG NE FD FR EX]. destruct ds as [|d ds]; [congruence|]. inversion FD as [|x y HD FD2]; subst. unfold dig in HD.
  set (tail := ds ++ fr ++ ex ++ r).
  assert (ES : (sg ++ (d :: ds) ++ fr ++ ex) ++ r = sg ++ d :: tail) by (unfold tail; rewrite <- !app_assoc; reflexivity). rewrite ES.
  assert (W1 : word3 [110; 78] [97; 65] [110; 78] (sg ++ d :: tail) = ([], false, sg ++ d :: tail)) by (destruct SG as [->|[->| ->]]; cbn [app]; apply word3_no; cbn; lia).
  unfold floatToken. rewrite W1. cbv beta iota.
  assert (A1 : accept is_sign (sg ++ d :: tail) = (sg, d :: tail)).
  { destruct SG as [->|[->| ->]]; cbn [app accept]; try reflexivity. unfold is_sign. destruct (Z.eqb_spec d 43); [lia|]. destruct (Z.eqb_spec d 45); [lia|]. reflexivity. }
  rewrite A1. cbv beta iota. rewrite word3_no by (cbn; lia). cbv beta iota.
  assert (NC : match r with q :: _ => is_digit q = false /\ q <> 46 /\ anyof [101; 69] q = false | [] => True end).
  { destruct r as [|q r]; [exact I|]. cbn in ST. apply sp_cases in ST. split; [apply is_digit_false; lia|]. split; [lia|]. apply anyof_false. cbn. lia. }
  assert (HX : match fr ++ ex ++ r with q :: _ => is_digit q = false | [] => True end).
  { destruct FR as [->|(fs & -> & _)]; cbn [app]; [|reflexivity]. destruct EX as [->|(e & s & es & -> & [->| ->] & _)]; cbn [app]; auto. destruct r; [exact I|apply NC]. }
  assert (A2 : accepts is_digit (d :: tail) = (d :: ds, fr ++ ex ++ r)) by (unfold tail; apply (accepts_dig (d :: ds)); auto).
  rewrite A2. cbv beta iota.
  assert (HE : match ex ++ r with q :: _ => is_digit q = false /\ q <> 46 | [] => True end).
  { destruct EX as [->|(e & s & es & -> & E & _)]; cbn [app]; [destruct r; [exact I|tauto]|]. destruct E as [->| ->]; split; try reflexivity; lia. }
  assert (FIN : forall t5, (let '(t6, s6) := accept (anyof [101; 69]) (ex ++ r) in
    let '(t7, s7) := match t6 with [] => ([], s6) | _ => accept is_sign s6 end in
    let '(t8, s8) := match t6 with [] => ([], s7) | _ => accepts is_digit s7 end in (t5 ++ t6 ++ t7 ++ t8, s8)) = (t5 ++ ex, r)).
  { intros t5. destruct EX as [->|(e & s & es & -> & E & S & FE)].
    - cbn [app]. destruct r as [|q r]; [reflexivity|]. cbn [accept]. rewrite (proj2 (proj2 NC)). reflexivity.
    - cbn [app accept]. assert (E1 : anyof [101; 69] e = true) by (destruct E as [->| ->]; reflexivity). rewrite E1. cbv beta iota.
      assert (S1 : is_sign s = true) by (destruct S as [->| ->]; reflexivity). cbn [accept]. rewrite S1. cbv beta iota. rewrite (accepts_dig es r); [reflexivity|exact FE|destruct r; [exact I|apply NC]]. }
  destruct FR as [->|(fs & -> & FF)].
  - cbn [app]. assert (A3 : accept (Z.eqb 46) (ex ++ r) = ([], ex ++ r)).
    { destruct (ex ++ r) as [|q qs]; [reflexivity|]. destruct HE as [H1 H2]. cbn [accept]. destruct (Z.eqb_spec 46 q); [congruence|reflexivity]. }
    rewrite A3. cbv beta iota. specialize (FIN (sg ++ d :: ds)).
    destruct (accept (anyof [101; 69]) (ex ++ r)) as [t6 s6]. cbn [app].
    destruct t6 as [|c6 t6]; [|destruct (accept is_sign s6) as [t7 s7]; destruct (accepts is_digit s7) as [t8 s8]]; cbn [app] in *; injection FIN as E1 E2; rewrite <- E2; f_equal;
      rewrite <- !app_assoc in E1; cbn [app] in E1; exact E1.
  - change ((46 :: fs) ++ ex ++ r) with (46 :: fs ++ ex ++ r). cbn [accept]. change (46 =? 46) with true. cbv beta iota.
    rewrite (accepts_dig fs (ex ++ r)); [|exact FF|destruct (ex ++ r); [exact I|apply HE]]. cbv beta iota. specialize (FIN (sg ++ (d :: ds) ++ 46 :: fs)).
    destruct (accept (anyof [101; 69]) (ex ++ r)) as [t6 s6].
    destruct t6 as [|c6 t6]; [|destruct (accept is_sign s6) as [t7 s7]; destruct (accepts is_digit s7) as [t8 s8]]; cbn [app] in *; injection FIN as E1 E2; rewrite <- E2; f_equal;
      rewrite <- !app_assoc in E1; cbn [app] in E1; rewrite <- ?app_assoc in E1; cbn [app] in E1; exact E1.
Qed.
Lemma numeral_e D x : 1 <= D -> match x with B754_nan | B754_infinity _ => True | _ => numeral (fmt_e D x) end.
Proof.
  intros HD. destruct x as [s|s| |s m e H]; try exact I; unfold fmt_e.
  - destruct (exptext_shape 0) as (q & es & E & Q & F). rewrite E.
    assert (SG : signtext s = [] \/ signtext s = [43] \/ signtext s = [45]) by (destruct s; auto).
    destruct (D =? 1).
    + change ([48] ++ 101 :: q :: es) with ([48] ++ [] ++ 101 :: q :: es). constructor; auto; try discriminate; try (repeat constructor; unfold dig; lia); right; exists 101, q, es; auto.
    + set (z := repeat 48 (Z.to_nat (D - 1))). assert (FZ : Forall dig z) by (apply Forall_forall; intros c I; apply repeat_spec in I; unfold dig; lia).
      change (48 :: 46 :: z) with ([48] ++ 46 :: z). rewrite <- app_assoc. constructor; auto; try discriminate; try (repeat constructor; unfold dig; lia); right; [eexists; split; [reflexivity|assumption]|exists 101, q, es; auto].
  - destruct (todec D (Zpos m) e) as [N X] eqn:ET.
    assert (SG : signtext s = [] \/ signtext s = [43] \/ signtext s = [45]) by (destruct s; auto).
    destruct (exptext_shape X) as (q & es & E & Q & F). unfold scitext.
    assert (NN : 0 <= N).
    { pose proof (bounded_facts _ _ H) as (He & Hm & _). pose proof (todec_spec D (Zpos m) e HD ltac:(lia) ltac:(lia)) as T. rewrite ET in T. cbv zeta in T. destruct T as ([T _] & _).
      assert (0 <= 10 ^ (D - 1)) by (apply Z.pow_nonneg; lia). lia. }
    pose proof (digits_dig N NN) as FU. pose proof (udec_nonempty N) as NU. destruct (udec N) as [|d ds]; [congruence|]. inversion FU as [|? ? HD1 FU2]; subst. rewrite E.
    destruct ds as [|d2 ds].
    + change (d :: 101 :: q :: es) with ([d] ++ [] ++ 101 :: q :: es). constructor; auto; try discriminate; right; exists 101, q, es; auto.
    + change (d :: 46 :: (d2 :: ds) ++ 101 :: q :: es) with ([d] ++ (46 :: d2 :: ds) ++ 101 :: q :: es). constructor; auto; try discriminate; right; [eexists; split; [reflexivity|assumption]|exists 101, q, es; auto].
Qed.
Lemma floatToken_e D x r : 1 <= D -> ends r -> floatToken (fmt_e D x ++ r) = (fmt_e D x, r).
Proof.
  intros HD ST. pose proof (numeral_e D x HD) as N. destruct x as [s|s| |s m e H]; try (apply floatToken_ends; assumption); [|reflexivity]. destruct s; reflexivity.
Qed.
Lemma fmte_nosp D x : 1 <= D -> nosp (fmt_e D x).
Proof.
  intros HD. pose proof (numeral_e D x HD) as N. assert (K : forall t, numeral t -> nosp t) by (intros t [sg ds fr ex S NE F _ _]; apply num_nosp; assumption).
  destruct x as [s|s| |s m e H]; try (apply K; exact N).
  - destruct s; eexists; eexists; split; reflexivity.
  - eexists. eexists. split; reflexivity.
Qed.
(* what is read back *)
Definition rd (x : f64) : f64 := match parse_float (fmt_e 7 x) with Some y => y | None => x end.
Lemma rd_ok x : mid x -> parse_float (fmt_e 7 x) = Some (rd x) /\ fmt_e 7 (rd x) = fmt_e 7 x /\ near 7 x (rd x).
Proof. intros M. destruct (fmt_stable 7 x ltac:(lia) M) as (y & A & B & C). unfold rd. rewrite A. auto. Qed.
Lemma scanFloat_e x r : parse_float (fmt_e 7 x) = Some (rd x) -> ends r -> scanFloat (fmt_e 7 x ++ r) = Some (rd x, r).
Proof. intros P E. unfold scanFloat. rewrite skip_nosp by (apply fmte_nosp; lia). rewrite floatToken_e by (assumption || lia). rewrite P. reflexivity. Qed.
Lemma blank_gap g t r : g <> [] -> Forall (fun c => c = 9 \/ c = 32) g -> nosp t -> blank (g ++ t ++ r) = Some (t ++ r).
Proof.
  intros NE F NS. destruct g as [|c g]; [congruence|]. inversion F as [|? ? C F2]; subst. cbn [app blank].
  assert (E : accepts (fun c => is_sp c && negb (c =? 10)) (g ++ t ++ r) = (g, t ++ r)).
  { apply accepts_app; [eapply Forall_impl; [|exact F2]; intros a [->| ->]; reflexivity|]. destruct NS as (d & q & -> & D). cbn [app]. rewrite D. reflexivity. }
  destruct C as [->| ->]; cbn [Z.eqb is_sp]; change (is_sp 9) with true; change (is_sp 32) with true; cbv iota; rewrite E; reflexivity.
Qed.
Definition readsBack (x : f64) : Prop := parse_float (fmt_e 7 x) = Some (rd x).
Definition tabs (l : list f64) : str := flat_map (fun x => 9 :: fmt_e 7 x) l.
Lemma join_tabs x l : join 9 (map (fmt_e 7) (x :: l)) = fmt_e 7 x ++ tabs l.
Proof. revert x. induction l as [|y l IH]; intros x; [cbn [map join tabs flat_map]; rewrite app_nil_r; reflexivity|]. cbn [map]. change (join 9 (fmt_e 7 x :: fmt_e 7 y :: map (fmt_e 7) l)) with (fmt_e 7 x ++ 9 :: join 9 (map (fmt_e 7) (y :: l))). rewrite IH. reflexivity. Qed.
Lemma scan_more l : Forall readsBack l -> fscand (more (List.length l)) (tabs l) = Some (map rd l).
Proof.
  intros F. induction F as [|x l H F IH]; [reflexivity|]. cbn [List.length more fscand map]. unfold tabs. cbn [flat_map]. fold (tabs l).
  pose proof (blank_gap [9] (fmt_e 7 x) (tabs l) ltac:(discriminate) ltac:(repeat constructor) (fmte_nosp 7 x ltac:(lia))) as B. cbn [app] in B |- *. rewrite B.
  rewrite (scanFloat_e x (tabs l) H) by (destruct l; [exact I|reflexivity]). rewrite IH. reflexivity.
Qed.
Lemma scan_floats l : l <> [] -> Forall readsBack l -> fscand (floats (List.length l)) (join 9 (map (fmt_e 7) l)) = Some (map rd l).
Proof.
  intros NE F. destruct l as [|x l]; [congruence|]. inversion F; subst. rewrite join_tabs. cbn [List.length floats fscand map]. rewrite (scanFloat_e x (tabs l)); [|assumption|destruct l; [exact I|reflexivity]]. rewrite scan_more by assumption. reflexivity.
Qed.
Lemma scan_lit w ds r : fscand (map DL w ++ ds) (w ++ r) = fscand ds r.
Proof. induction w as [|c w IH]; [reflexivity|]. cbn [map app fscand]. rewrite Z.eqb_refl. exact IH. Qed.
Lemma join_nosp l : l <> [] -> exists t r, join 9 (map (fmt_e 7) l) = t ++ r /\ nosp t.
Proof. intros NE. destruct l as [|x l]; [congruence|]. rewrite join_tabs. eexists. eexists. split; [reflexivity|apply fmte_nosp; lia]. Qed.
Definition gapOk (g : str) : Prop := g <> [] /\ Forall (fun c => c = 9 \/ c = 32) g.
Lemma scan_named w g l : nosp w -> gapOk g -> l <> [] -> Forall readsBack l -> fscand (namedFmt w (List.length l)) (w ++ g ++ w ++ g ++ join 9 (map (fmt_e 7) l)) = Some (map rd l).
Proof.
  intros NW [G1 G2] NE F. unfold namedFmt. rewrite scan_lit. cbn [app fscand]. rewrite (blank_gap g w _ G1 G2 NW), scan_lit. cbn [fscand]. destruct (join_nosp l NE) as (t & r & E & NT).
  pose proof (scan_floats l NE F) as S. rewrite E in S |- *. rewrite (blank_gap g t r G1 G2 NT). exact S.
Qed.

(* ---- the number of entries ---- *)
Lemma rne_scale c a b : 0 < c -> 0 < b -> rne (c * a) (c * b) = rne a b.
Proof.
  intros C B. unfold rne. rewrite Z.div_mul_cancel_l, Z.mul_mod_distr_l by lia.
  destruct (Z.ltb_spec (2 * (c * (a mod b))) (c * b)), (Z.ltb_spec (2 * (a mod b)) b); try reflexivity; try nia.
  destruct (Z.ltb_spec (c * b) (2 * (c * (a mod b)))), (Z.ltb_spec b (2 * (a mod b))); try reflexivity; nia.
Qed.
Lemma tobin_scale W b : 0 < b -> 0 < W -> tobin (W * b) b = tobin (W * 1) 1.
Proof.
  intros B W0. unfold tobin. set (P := 2 ^ 1074). assert (PP : 0 < P) by (apply Z.pow_pos_nonneg; lia). clearbody P.
  assert (E : W * b * P / b = W * P) by (replace (W * b * P) with (W * P * b) by ring; apply Z.div_mul; lia). rewrite E, !Z.mul_1_r, Z.div_1_r. cbv zeta.
  set (e' := Z.max 0 _). assert (PE : 0 < 2 ^ e') by (apply Z.pow_pos_nonneg; lia). replace (W * b * P) with (b * (W * P)) by ring. rewrite (rne_scale b (W * P) (2 ^ e') B PE), Z.mul_1_l. reflexivity.
Qed.
Lemma fromdec_scale s N X W : 0 < N -> 0 < W -> N * 10 ^ Z.max 0 X = W * 10 ^ Z.max 0 (- X) -> fromdec s N X = fromdec s W 0.
Proof.
  intros N0 W0 E. unfold fromdec. rewrite E. change (10 ^ Z.max 0 0) with 1. change (10 ^ Z.max 0 (- 0)) with 1. rewrite tobin_scale; [reflexivity| |exact W0]. apply Z.pow_pos_nonneg; lia.
Qed.
Lemma pow10_le_inv a b : 0 <= a -> 10 ^ a <= 10 ^ b -> a <= b.
Proof. intros A H. destruct (Z_le_gt_dec a b) as [|G]; [assumption|]. exfalso. assert (10 ^ b < 10 ^ a) by (apply Z.pow_lt_mono_r; lia). lia. Qed.
Lemma pow10_lt_inv a b : 0 <= b -> 10 ^ a < 10 ^ b -> a < b.
Proof. intros A H. destruct (Z_lt_le_dec a b) as [|G]; [assumption|]. exfalso. assert (10 ^ b <= 10 ^ a) by (apply Z.pow_le_mono_r; lia). lia. Qed.
Lemma cancel_scale P Q N n k x x0 y0 : 0 < P -> 0 < Q -> P * (x0 * Q) <= N * P * Q < P * (y0 * Q) -> 2 * Z.abs (N * P * (k * Q) - P * (n * (x * Q))) <= P * (x0 * Q) ->
  x0 <= N < y0 /\ 2 * Z.abs (N * k - n * x) <= x0.
Proof.
  intros HP HQ [H1 H2] H3. replace (N * P * (k * Q) - P * (n * (x * Q))) with (P * Q * (N * k - n * x)) in H3 by ring. rewrite Z.abs_mul, (Z.abs_eq (P * Q)) in H3 by nia.
  assert (PQ : 0 < P * Q) by nia. set (z := P * Q) in *. replace (P * (x0 * Q)) with (z * x0) in * by (unfold z; ring). replace (P * (y0 * Q)) with (z * y0) in H2 by (unfold z; ring). replace (N * P * Q) with (z * N) in * by (unfold z; ring). clearbody z. set (d := Z.abs (N * k - n * x)) in *. clearbody d.
  split; [split; nia|nia].
Qed.
Lemma todec_whole m e N : SpecFloat.bounded 53 1024 m e = true -> Zpos m * 2 ^ (e + 1074) = N * 2 ^ 1074 -> 0 < N < 10 ^ 14 ->
  exists n X X0, todec 7 (Zpos m) e = (n, X) /\ 0 <= X0 <= X /\ X <= X0 + 1 /\ X0 <= 13 /\ 10 ^ 6 <= n < 10 ^ 7 /\ 10 ^ X0 <= N < 10 ^ (X0 + 1) /\ 2 * Z.abs (N * 10 ^ 6 - n * 10 ^ X) <= 10 ^ X0.
Proof.
  intros B E HN. pose proof (bounded_facts _ _ B) as (He & Hm & _). pose proof (todec_spec 7 (Zpos m) e ltac:(lia) ltac:(lia) He) as T. destruct (todec 7 (Zpos m) e) as [n X]. cbv zeta in T.
  change (2 ^ 1074) with P1074 in E. rewrite E in T. destruct T as (RN & RX & X0 & X1 & X2 & _ & T1 & T2). change (7 - 1) with 6 in *.
  pose proof P1074_pos as PP. pose proof P400_pos as QP. set (P := P1074) in *. clearbody P.
  assert (NL : N * P * P400 = P * (N * P400)) by ring.
  assert (A0 : -1 < X0).
  { assert (A : P400 < 10 ^ (X0 + 401)) by (destruct T1 as [_ T1]; rewrite NL in T1; apply Z.mul_lt_mono_pos_l in T1; [|exact PP]; clear - T1 HN QP; set (q := P400) in *; clearbody q; nia).
    unfold P400 in A. apply pow10_lt_inv in A; lia. }
  assert (SP : forall a, 0 <= a -> 10 ^ (a + 400) = 10 ^ a * P400) by (intros a Ha; unfold P400; apply Z.pow_add_r; lia).
  rewrite (SP X0), (SP X) in T2 by lia. rewrite (SP X0) in T1 by lia. replace (X0 + 401) with (X0 + 1 + 400) in T1 by lia. rewrite (SP (X0 + 1)) in T1 by lia.
  destruct (cancel_scale P P400 N n (10 ^ 6) (10 ^ X) (10 ^ X0) (10 ^ (X0 + 1)) PP QP T1 T2) as [C1 C2].
  exists n, X, X0. split; [reflexivity|]. split; [lia|]. split; [lia|]. split; [|auto].
  assert (10 ^ X0 < 10 ^ 14) by lia. apply pow10_lt_inv in H; lia.
Qed.
Lemma round_same N n X X0 : 0 <= X0 <= 6 -> X0 <= X -> 2 * Z.abs (N * 10 ^ 6 - n * 10 ^ X) <= 10 ^ X0 -> N * 10 ^ 6 = n * 10 ^ X.
Proof.
  intros H1 H2 H. replace (10 ^ 6) with (10 ^ (6 - X0) * 10 ^ X0) in * by (rewrite <- Z.pow_add_r by lia; f_equal; lia). replace (10 ^ X) with (10 ^ (X - X0) * 10 ^ X0) in * by (rewrite <- Z.pow_add_r by lia; f_equal; lia).
  assert (PZ : 0 < 10 ^ X0) by (apply Z.pow_pos_nonneg; lia). set (z := 10 ^ X0) in *. set (a := 10 ^ (6 - X0)) in *. set (b := 10 ^ (X - X0)) in *. clearbody z a b.
  replace (N * (a * z) - n * (b * z)) with ((N * a - n * b) * z) in H by ring. rewrite Z.abs_mul, (Z.abs_eq z) in H by lia. assert (N * a - n * b = 0); [|nia]. set (d := N * a - n * b) in *. clearbody d. nia.
Qed.
Lemma ofInt_whole N : 0 <= N <= 2 ^ 53 -> exists y, fromdec false N 0 = Some y /\ ofInt N = y /\ val y = N * 2 ^ 1074 /\ match y with B754_finite s _ _ _ => s = false | B754_zero s => s = false /\ N = 0 | _ => False end.
Proof.
  intros H. destruct (fromdec_whole false N H) as (y & E & _ & S & V & C). exists y. split; [exact E|]. split; [unfold ofInt; destruct (Z.ltb_spec N 0); [lia|]; rewrite Z.abs_eq by lia; rewrite E; reflexivity|].
  split; [rewrite V; ring|]. destruct y; cbn in S; subst; auto.
Qed.
Lemma toInt_whole N : 0 <= N <= 2 ^ 53 -> toInt (ofInt N) = N.
Proof.
  intros H. destruct (ofInt_whole N H) as (y & _ & -> & V & C). destruct y as [s|s| |s m e B]; try contradiction; [destruct C as [_ ->]; reflexivity|]. subst s. cbn [toInt val] in *. rewrite Z.mul_1_l in V. pose proof (bounded_facts _ _ B) as (He & Hm & _).
  assert (T : (if 0 <=? e then Zpos m * 2 ^ e else Zpos m / 2 ^ (- e)) = N).
  { destruct (Z.leb_spec 0 e).
    - rewrite Z.pow_add_r in V by lia. rewrite Z.mul_assoc in V. apply Z.mul_reg_r in V; [exact V|]. apply Z.pow_nonzero; lia.
    - assert (E : 2 ^ 1074 = 2 ^ (- e) * 2 ^ (e + 1074)) by (rewrite <- Z.pow_add_r by lia; f_equal; lia). rewrite E, Z.mul_assoc in V. apply Z.mul_reg_r in V; [|apply Z.pow_nonzero; lia]. rewrite V. apply Z.div_mul. apply Z.pow_nonzero; lia. }
  rewrite T. destruct (Z.leb_spec (- 2 ^ 63) N); [|lia]. destruct (Z.ltb_spec N (2 ^ 63)); [reflexivity|lia].
Qed.
(* a number of entries, written with 7 digits and read back *)
Theorem count_read N : 0 <= N < 10 ^ 14 -> exists W, 0 <= W <= 2 ^ 53 /\ parse_float (fmt_e 7 (ofInt N)) = Some (ofInt W) /\ (N < 10 ^ 7 -> W = N) /\ (10 ^ 7 <= N -> W mod 10 = 0) /\ 2 * 10 ^ 6 * Z.abs (N - W) <= N.
Proof.
  intros H. destruct (Z.eq_dec N 0) as [->|NZ].
  - exists 0. split; [lia|]. split; [|split; [reflexivity|split; lia]]. change (ofInt 0) with (B754_zero false : f64). apply parse_zero. lia.
  - destruct (ofInt_whole N ltac:(lia)) as (y & _ & -> & V & C). destruct y as [s|s| |s m e B]; try contradiction; [destruct C; contradiction|]. subst s. cbn [val] in V. rewrite Z.mul_1_l in V.
    destruct (todec_whole m e N B V ltac:(lia)) as (n & X & X0 & TD & HX0 & HX & H13 & HN & R0 & ER).
    assert (PR : parse_float (fmt_e 7 (B754_finite false m e B)) = fromdec false n (X - 6)).
    { unfold fmt_e. rewrite TD. destruct (scitext_head n X ltac:(lia)) as (c & r & ES & Hc). cbn [signtext app]. pose proof (parse_digit_body false c r Hc) as PB. cbn [signtext app] in PB. rewrite ES, PB, <- ES. apply (scitext_parse false 7 n X); [lia|exact HN]. }
    assert (G : exists W, 0 < W <= 2 ^ 53 /\ n * 10 ^ Z.max 0 (X - 6) = W * 10 ^ Z.max 0 (- (X - 6)) /\ (N < 10 ^ 7 -> W = N) /\ (10 ^ 7 <= N -> W mod 10 = 0) /\ 2 * 10 ^ 6 * Z.abs (N - W) <= N).
    { destruct (Z_lt_le_dec N (10 ^ 7)) as [LT|GE].
      - assert (X6 : X0 <= 6) by (assert (A : 10 ^ X0 < 10 ^ 7) by lia; apply pow10_lt_inv in A; lia). pose proof (round_same N n X X0 ltac:(lia) ltac:(lia) ER) as EQ. exists N. split; [lia|]. split; [|split; [reflexivity|split; [lia|rewrite Z.sub_diag; cbn; lia]]].
        destruct (Z_le_gt_dec X 6).
        + rewrite Z.max_l by lia. rewrite Z.max_r by lia. change (10 ^ 0) with 1. replace (- (X - 6)) with (6 - X) by lia. replace (10 ^ 6) with (10 ^ (6 - X) * 10 ^ X) in EQ by (rewrite <- Z.pow_add_r by lia; f_equal; lia).
          rewrite Z.mul_assoc in EQ. apply Z.mul_reg_r in EQ; [lia|apply Z.pow_nonzero; lia].
        + assert (X = 7) by lia. subst X. change (10 ^ Z.max 0 (7 - 6)) with 10. change (10 ^ Z.max 0 (- (7 - 6))) with 1. lia.
      - assert (X7 : 7 <= X0). { destruct (Z_le_gt_dec 7 X0) as [|L6]; [assumption|]. exfalso. assert (A : 10 ^ (X0 + 1) <= 10 ^ 7) by (apply Z.pow_le_mono_r; lia). lia. }
        exists (n * 10 ^ (X - 6)). rewrite Z.max_r by lia. rewrite Z.max_l by lia. assert (P8 : 10 ^ (X - 6) <= 10 ^ 8) by (apply Z.pow_le_mono_r; lia). assert (P0 : 0 < 10 ^ (X - 6)) by (apply Z.pow_pos_nonneg; lia).
        split; [split; [apply Z.mul_pos_pos; lia|]|split; [change (10 ^ 0) with 1; lia|split; [lia|split]]].
        + apply Z.le_trans with (10 ^ 7 * 10 ^ 8); [apply Z.mul_le_mono_nonneg; lia|lia].
        + intros _. replace (X - 6) with (X - 7 + 1) by lia. rewrite Z.pow_add_r by lia. change (10 ^ 1) with 10. rewrite Z.mul_assoc. apply Z.mod_mul. lia.
        + assert (EX : 10 ^ X = 10 ^ (X - 6) * 10 ^ 6) by (rewrite <- Z.pow_add_r by lia; f_equal; lia). rewrite EX in ER. replace (N * 10 ^ 6 - n * (10 ^ (X - 6) * 10 ^ 6)) with ((N - n * 10 ^ (X - 6)) * 10 ^ 6) in ER by ring. rewrite Z.abs_mul in ER. change (Z.abs (10 ^ 6)) with (10 ^ 6) in ER. set (d := Z.abs (N - n * 10 ^ (X - 6))) in *. clearbody d. lia. }
    destruct G as (W & HW & EW & W1 & W2 & W3). exists W. split; [lia|]. split; [|auto]. rewrite PR, (fromdec_scale false n (X - 6) W) by (assumption || lia).
    destruct (ofInt_whole W ltac:(lia)) as (y & E & -> & _). exact E.
Qed.
Lemma ofInt_mid N : 0 <= N < 10 ^ 14 -> mid (ofInt N).
Proof.
  intros H. destruct (ofInt_whole N ltac:(lia)) as (y & _ & -> & V & C). destruct y as [s|s| |s m e B]; try exact I. subst s. cbn [val] in V. rewrite Z.mul_1_l in V. cbn [mid]. rewrite V.
  assert (N1 : 1 <= N). { destruct (Z.eq_dec N 0) as [->|]; [|lia]. assert (0 < 2 ^ (e + 1074)) by (apply Z.pow_pos_nonneg; [lia|pose proof (bounded_facts _ _ B); lia]). nia. }
  assert (A : 2 ^ 52 <= 2 ^ 1074) by (apply Z.pow_le_mono_r; lia). assert (D : 10 ^ 14 <= 10 ^ 308) by (apply Z.pow_le_mono_r; lia). clear V.
  assert (P : 0 < 2 ^ 1074) by (apply Z.pow_pos_nonneg; lia). set (p := 2 ^ 1074) in *. set (q := 10 ^ 308) in *. clearbody p q. split; [|apply Z.mul_le_mono_nonneg_r; lia].
  apply Z.le_trans with p; [exact A|]. rewrite <- (Z.mul_1_l p) at 1. apply Z.mul_le_mono_nonneg_r; lia.
Qed.
(* ---- rows ---- *)
Definition rowOk (n : nat) (r : row) : Prop := List.length (sums r) = n /\ Forall mid (sums r) /\ 0 <= entries r < 10 ^ 14.
Definition rdRow (r : row) : row := mkrow (map rd (sums r)) (toInt (rd (ofInt (entries r)))).
Lemma rdCount N : 0 <= N < 10 ^ 14 -> exists W, 0 <= W <= 2 ^ 53 /\ rd (ofInt N) = ofInt W /\ toInt (rd (ofInt N)) = W /\ (N < 10 ^ 7 -> W = N) /\ (10 ^ 7 <= N -> W mod 10 = 0) /\ 2 * 10 ^ 6 * Z.abs (N - W) <= N.
Proof. intros H. destruct (count_read N H) as (W & HW & P & A & B & C). exists W. assert (E : rd (ofInt N) = ofInt W) by (unfold rd; rewrite P; reflexivity). rewrite E. split; [assumption|]. split; [reflexivity|]. split; [apply toInt_whole; assumption|auto]. Qed.
Definition cells (r : row) : list f64 := sums r ++ [ofInt (entries r)].
Lemma cells_ok n r : rowOk n r -> Forall readsBack (cells r) /\ List.length (cells r) = S n /\ cells r <> [].
Proof.
  intros (L & F & B). unfold cells. split; [|split; [rewrite app_length, L; cbn; lia|destruct (sums r); discriminate]]. apply Forall_app. split; [eapply Forall_impl; [|exact F]; intros x M; exact (proj1 (rd_ok x M))|]. constructor; [|constructor]. exact (proj1 (rd_ok _ (ofInt_mid _ B))).
Qed.
Lemma scanRow_of ds l r : fscand ds l = Some (map rd (cells r)) -> scanRow ds l = Some (rdRow r).
Proof. intros E. unfold scanRow. rewrite E. unfold cells. rewrite map_app. cbn [map]. rewrite removelast_last, last_last. reflexivity. Qed.
Lemma scanRow_named w g n r : nosp w -> gapOk g -> rowOk n r -> scanRow (namedFmt w (S n)) (named w g r) = Some (rdRow r).
Proof. intros NW G O. destruct (cells_ok n r O) as (F & L & NE). apply scanRow_of. rewrite <- L. apply scan_named; assumption. Qed.
Lemma scanRow_bin n r : rowOk n r -> scanRow (floats (S n)) (rowText r) = Some (rdRow r).
Proof. intros O. destruct (cells_ok n r O) as (F & L & NE). apply scanRow_of. rewrite <- L. apply scan_floats; assumption. Qed.
Lemma rowText_rd n r : rowOk n r -> rowText (rdRow r) = rowText r.
Proof.
  intros (L & F & B). unfold rowText, rdRow. cbn [sums entries]. f_equal. rewrite !map_app. f_equal.
  - rewrite map_map. apply map_ext_in. intros x I. rewrite Forall_forall in F. exact (proj1 (proj2 (rd_ok x (F x I)))).
  - cbn [map]. f_equal. destruct (rdCount _ B) as (W & _ & E & EI & _). rewrite EI, <- E. exact (proj1 (proj2 (rd_ok _ (ofInt_mid _ B)))).
Qed.
Lemma fmte_head x : exists c r, fmt_e 7 x = c :: r /\ (c = 43 \/ c = 45 \/ c = 78 \/ 48 <= c <= 57).
Proof.
  pose proof (numeral_e 7 x ltac:(lia)) as N.
  assert (K : forall t, numeral t -> exists c r, t = c :: r /\ (c = 43 \/ c = 45 \/ c = 78 \/ 48 <= c <= 57)).
  { intros t [sg ds fr ex S NE F _ _]. destruct ds as [|d ds]; [exfalso; apply NE; reflexivity|]. inversion F; subst. unfold dig in *. destruct S as [->|[->| ->]]; eexists; eexists; (split; [reflexivity|lia]). }
  destruct x as [s|s| |s m e H]; try (apply K; exact N).
  - destruct s; eexists; eexists; (split; [reflexivity|lia]).
  - eexists; eexists; (split; [reflexivity|lia]).
Qed.
Lemma rowText_head r : exists c t, rowText r = c :: t /\ (c = 43 \/ c = 45 \/ c = 78 \/ 48 <= c <= 57).
Proof.
  unfold rowText. destruct (sums r ++ [ofInt (entries r)]) as [|x l] eqn:E; [destruct (sums r); discriminate|]. rewrite join_tabs. destruct (fmte_head x) as (c & t & -> & H). exists c, (t ++ tabs l). auto.
Qed.
Definition plain (l : str) : Prop := ~ In 10 l /\ last l 0 <> 13.
Lemma fmte_plain D x c : 1 <= D -> In c (fmt_e D x) -> 43 <= c.
Proof. intros HD I. pose proof (fmt_chars D x c HD I) as K. unfold numchar in K. lia. Qed.
Lemma join_chars l c : In c (join 9 (map (fmt_e 7) l)) -> c = 9 \/ 43 <= c.
Proof.
  destruct l as [|x l]; [intros []|]. rewrite join_tabs. intros I. apply in_app_or in I as [I|I]; [right; exact (fmte_plain 7 x c ltac:(lia) I)|].
  unfold tabs in I. apply in_flat_map in I as (y & _ & [E|I]); [lia|right; exact (fmte_plain 7 y c ltac:(lia) I)].
Qed.
Lemma last_in (l : str) : l <> [] -> In (last l 0) l.
Proof. intros NE. destruct (exists_last NE) as (a & x & ->). rewrite last_last. apply in_or_app. right. left. reflexivity. Qed.
Lemma plain_chars l : (forall c, In c l -> c <> 10 /\ c <> 13) -> plain l.
Proof. intros H. split; [intros I; destruct (H _ I); congruence|]. destruct l as [|x l]; [cbn; lia|]. destruct (H _ (last_in (x :: l) ltac:(discriminate))). assumption. Qed.
Lemma rowText_plain r : plain (rowText r).
Proof. apply plain_chars. intros c I. apply join_chars in I. lia. Qed.
Lemma named_plain w g r : (forall c, In c (w ++ g) -> c <> 10 /\ c <> 13) -> plain (named w g r).
Proof.
  intros H. apply plain_chars. intros c I. unfold named in I. rewrite !in_app_iff in I. assert (K : In c (rowText r) -> c <> 10 /\ c <> 13) by (intros I2; apply join_chars in I2; lia).
  destruct I as [I|[I|[I|[I|I]]]]; try (apply H; apply in_or_app; solve [auto]); auto.
Qed.
(* ---- lines ---- *)
Lemma rawlines_app ls : rawlines (ls ++ [[]]) = ls.
Proof. induction ls as [|l ls IH]; [reflexivity|]. cbn [app]. destruct (ls ++ [[]]) as [|x xs] eqn:E; [destruct ls; discriminate|]. change (rawlines (l :: x :: xs)) with (match l with [] => l :: rawlines (x :: xs) | _ => l :: rawlines (x :: xs) end). rewrite IH. destruct l; reflexivity. Qed.
Lemma split_nl ls : Forall (fun l => ~ In 10 l) ls -> split 10 (flat_map nl ls) = ls ++ [[]].
Proof. induction 1 as [|l ls H F IH]; [reflexivity|]. cbn [flat_map app]. unfold nl at 1. rewrite <- app_assoc. cbn [app]. rewrite split_cons by assumption. rewrite IH. reflexivity. Qed.
Lemma lines_nl ls : Forall plain ls -> lines (flat_map nl ls) = ls.
Proof.
  intros F. unfold lines. rewrite split_nl by (eapply Forall_impl; [|exact F]; intros l [A _]; exact A). rewrite rawlines_app. rewrite <- (map_id ls) at 2. apply map_ext_in. intros l I. rewrite Forall_forall in F. destruct (F l I) as [_ L]. unfold dropCR. destruct (Z.eqb_spec (last l 0) 13); [contradiction|reflexivity].
Qed.
(* ---- positions ---- *)
Lemma prefixb_app p s : prefixb p (p ++ s) = true.
Proof. unfold prefixb. rewrite firstn_app, Nat.sub_diag, firstn_all, firstn_O, app_nil_r. apply str_eqb_refl. Qed.
Lemma prefixb_cons a p b s : prefixb (a :: p) (b :: s) = (b =? a) && prefixb p s.
Proof. reflexivity. Qed.
Lemma index_nl u r : ~ In 10 u -> index [10] (u ++ 10 :: r) = Some (List.length u).
Proof.
  induction u as [|c u IH]; intros H; [reflexivity|]. cbn [app index List.length]. rewrite prefixb_cons. destruct (Z.eqb_spec c 10) as [->|]; [exfalso; apply H; left; reflexivity|]. cbn [andb]. rewrite IH by (intros I; apply H; right; exact I). reflexivity.
Qed.
Definition noMark (u : str) : Prop := forall a b, u <> a ++ 10 :: 35 :: b.
Lemma noMark_cons c u : noMark (c :: u) -> noMark u /\ (c = 10 -> match u with 35 :: _ => False | _ => True end).
Proof.
  intros H. split; [intros a b E; apply (H (c :: a) b); rewrite E; reflexivity|]. intros ->. destruct u as [|d u]; [exact I|]. destruct (Z.eq_dec d 35) as [->|N]; [exfalso; apply (H [] u); reflexivity|].
  destruct d as [|p|p]; try exact I. repeat (destruct p as [p|p|]; try exact I). exfalso. apply N. reflexivity.
Qed.
Lemma noMark_ends u : noMark u -> noMark (u ++ ys "---").
Proof.
  intros H. induction u as [|c u IH]; intros a b E.
  - destruct a as [|? [|? [|? [|? a]]]]; discriminate.
  - destruct (noMark_cons c u H) as [H1 H2]. destruct a as [|x a].
    + cbn [app] in E. injection E as E1 E2. specialize (H2 E1). destruct u as [|d u]; [discriminate|]. cbn [app] in E2. injection E2 as E2 _. subst d. exact H2.
    + cbn [app] in E. injection E as _ E2. exact (IH H1 a b E2).
Qed.
Lemma index_mark p u r : noMark u -> index (10 :: 35 :: p) (u ++ 10 :: 35 :: p ++ r) = Some (List.length u).
Proof.
  induction u as [|c u IH]; intros H.
  - cbn [app List.length index]. pose proof (prefixb_app (10 :: 35 :: p) r) as P. cbn [app] in P |- *. rewrite P. reflexivity.
  - destruct (noMark_cons c u H) as [H1 H2]. cbn [app index List.length]. rewrite prefixb_cons.
    assert (F : (c =? 10) && prefixb (35 :: p) (u ++ 10 :: 35 :: p ++ r) = false).
    { destruct (Z.eqb_spec c 10) as [->|]; [|reflexivity]. specialize (H2 eq_refl). destruct u as [|d u]; [reflexivity|]. cbn [app]. rewrite prefixb_cons. destruct (Z.eqb_spec d 35) as [->|]; [contradiction|reflexivity]. }
    rewrite F, IH by assumption. reflexivity.
Qed.
(* ---- the two kinds ---- *)
Definition comment (l : str) : Prop := plain l /\ exists r, l = 35 :: r.
Record kindOk (k : kind) : Prop := {
  ko_name : ~ In 10 (k_name k);
  ko_mark : forall mean area t, exists p v, k_mark k = 10 :: 35 :: p /\ flat_map nl (tableLines k mean area t) = 35 :: p ++ v;
  ko_pre : forall mean area, Forall comment (k_pre k mean area);
  ko_cols : comment (k_cols k);
  ko_end : exists e, k_end k = 69 :: e;
  ko_tail : plain (ys "END YODA_" ++ k_name k ++ ys "_V2") /\ exists v, ys "END YODA_" ++ k_name k ++ ys "_V2" = k_end k ++ v }.
Ltac chars := let c := fresh in let I := fresh in intros c I; cbn in I; repeat (destruct I as [<-|I]; [lia|]); contradiction.
Lemma plain_fmt p x : (forall c, In c p -> c <> 10 /\ c <> 13) -> plain (p ++ fmt_e 7 x).
Proof. intros H. apply plain_chars. intros c I. apply in_app_or in I as [I|I]; [auto|]. apply fmte_plain in I; lia. Qed.
Lemma noten l : forallb (fun c => negb (c =? 10) && negb (c =? 13)) l = true -> forall c, In c l -> c <> 10 /\ c <> 13.
Proof. intros H c I. rewrite forallb_forall in H. specialize (H c I). apply andb_true_iff in H as [A B]. apply negb_true_iff in A, B. apply Z.eqb_neq in A, B. auto. Qed.
Lemma histo_ok : kindOk histo.
Proof.
  split.
  - intros I. apply (noten (ys "HISTO1D") eq_refl) in I. lia.
  - intros mean area t. exists (ys " Mean:"), (32 :: fmt_e 7 mean ++ [10] ++ flat_map nl (tl (tableLines histo mean area t))). split; [reflexivity|]. unfold tableLines. cbn [histo k_pre app flat_map tl]. unfold nl at 1. rewrite <- !app_assoc. reflexivity.
  - intros mean area. constructor; [|constructor; [|constructor; [|constructor]]]; (split; [|eexists; reflexivity]); [apply plain_fmt; apply noten; reflexivity|apply plain_fmt; apply noten; reflexivity|apply plain_chars; apply noten; reflexivity].
  - split; [apply plain_chars; apply noten; reflexivity|eexists; reflexivity].
  - eexists. reflexivity.
  - split; [apply plain_chars; apply noten; reflexivity|exists (ys "_V2"); reflexivity].
Qed.
Lemma profile_ok : kindOk profile.
Proof.
  split.
  - intros I. apply (noten (ys "PROFILE1D") eq_refl) in I. lia.
  - intros mean area t. exists (ys " ID" ++ 9 :: ys " ID" ++ [9]). eexists. split; [reflexivity|]. unfold tableLines. cbn [profile k_pre app flat_map]. reflexivity.
  - intros mean area. constructor; [|constructor]; (split; [|eexists; reflexivity]); apply plain_chars; apply noten; reflexivity.
  - split; [apply plain_chars; apply noten; reflexivity|eexists; reflexivity].
  - eexists. reflexivity.
  - split; [apply plain_chars; apply noten; reflexivity|exists []; reflexivity].
Qed.
(* ---- the loop ---- *)
Lemma loop_comments k cs ls st : Forall comment cs -> loop k (cs ++ ls) st = loop k ls st.
Proof. induction 1 as [|l cs [_ [r ->]] F IH]; [reflexivity|]. cbn [app loop]. exact IH. Qed.
Lemma loop_bins k bs ls st t u o : kindOk k -> s_total st = Some t -> s_under st = Some u -> s_over st = Some o -> Forall (rowOk (2 + k_sums k)) bs ->
  loop k (map rowText bs ++ ls) st = loop k ls (mkst (Some t) (Some u) (Some o) (s_bins st ++ map rdRow bs)).
Proof.
  intros KO T U O F. revert st T U O. induction F as [|b bs H F IH]; intros st T U O; [cbn [map app]; rewrite app_nil_r; destruct st; cbn in *; subst; reflexivity|].
  cbn [map app]. destruct (rowText_head b) as (c & r & E & C). destruct (ko_end k KO) as (e & EE). pose proof (scanRow_bin _ b H) as SB. change (S (2 + k_sums k)) with (3 + k_sums k)%nat in SB. cbn [loop]. rewrite E. destruct (Z.eqb_spec c 35); [lia|]. rewrite EE, prefixb_cons. destruct (Z.eqb_spec c 69); [lia|]. cbn [andb]. rewrite T, U, O. rewrite <- E, SB.
  rewrite IH; try reflexivity. cbn [s_bins]. rewrite <- app_assoc. reflexivity.
Qed.
Definition rdTable (t : table) : table := mktab (rdRow (t_total t)) (rdRow (t_under t)) (rdRow (t_over t)) (map rdRow (t_bins t)).
Definition tableOk (k : kind) (t : table) : Prop := rowOk (k_sums k) (t_total t) /\ rowOk (k_sums k) (t_under t) /\ rowOk (k_sums k) (t_over t) /\ Forall (rowOk (2 + k_sums k)) (t_bins t).
Lemma gapOk3 : gapOk gap3. Proof. split; [discriminate|]. apply Forall_forall. intros c I. cbn in I. intuition lia. Qed.
Lemma gapOk1 : gapOk gap1. Proof. split; [discriminate|]. apply Forall_forall. intros c I. cbn in I. intuition lia. Qed.
(* what the loop does with a line that is not empty, not a comment and not the end *)
Definition named_step (k : kind) (l : str) (ls' : list str) (st : state) : option state :=
  match s_total st, prefixb (total ++ gap3) l with
  | None, true => match scanRow (namedFmt total (S (k_sums k))) l with Some r => loop k ls' (mkst (Some r) (s_under st) (s_over st) (s_bins st)) | None => None end
  | _, _ =>
    match s_under st, prefixb (under ++ gap1) l with
    | None, true => match scanRow (namedFmt under (S (k_sums k))) l with Some r => loop k ls' (mkst (s_total st) (Some r) (s_over st) (s_bins st)) | None => None end
    | _, _ =>
      match s_over st, prefixb (over ++ gap1) l with
      | None, true => match scanRow (namedFmt over (S (k_sums k))) l with Some r => loop k ls' (mkst (s_total st) (s_under st) (Some r) (s_bins st)) | None => None end
      | None, false => None
      | Some _, _ => match scanRow (floats (3 + k_sums k)) l with Some r => loop k ls' (mkst (s_total st) (s_under st) (s_over st) (s_bins st ++ [r])) | None => None end
      end
    end
  end.
Lemma loop_table k mean area t e ls : kindOk k -> tableOk k t -> (exists v, e = k_end k ++ v) ->
  loop k (tableLines k mean area t ++ e :: ls) (mkst None None None []) = Some (mkst (Some (rdRow (t_total t))) (Some (rdRow (t_under t))) (Some (rdRow (t_over t))) (map rdRow (t_bins t))).
Proof.
  intros KO (T & U & O & B) [v ->]. unfold tableLines. rewrite <- !app_assoc. rewrite loop_comments by (apply ko_pre; assumption). destruct (ko_end k KO) as (e & EE).
  assert (N3 : forall w, w = total \/ w = under \/ w = over -> nosp w) by (intros w [->|[->| ->]]; eexists; eexists; (split; [reflexivity|reflexivity])).
  pose proof (scanRow_named total gap3 _ _ (N3 _ (or_introl eq_refl)) gapOk3 T) as ST. pose proof (scanRow_named under gap1 _ _ (N3 _ (or_intror (or_introl eq_refl))) gapOk1 U) as SU. pose proof (scanRow_named over gap1 _ _ (N3 _ (or_intror (or_intror eq_refl))) gapOk1 O) as SO.
  assert (PT : prefixb (total ++ gap3) (named total gap3 (t_total t)) = true) by (unfold named; rewrite app_assoc; apply prefixb_app).
  assert (PU : prefixb (under ++ gap1) (named under gap1 (t_under t)) = true) by (unfold named; rewrite app_assoc; apply prefixb_app).
  assert (PO : prefixb (over ++ gap1) (named over gap1 (t_over t)) = true) by (unfold named; rewrite app_assoc; apply prefixb_app).
  cbn [app]. remember (named total gap3 (t_total t)) as lt eqn:ET. remember (named under gap1 (t_under t)) as lu eqn:EU. remember (named over gap1 (t_over t)) as lo eqn:EO.
  assert (HT : exists r, lt = 84 :: r) by (rewrite ET; eexists; reflexivity). assert (HU : exists r, lu = 85 :: r) by (rewrite EU; eexists; reflexivity). assert (HO : exists r, lo = 79 :: r) by (rewrite EO; eexists; reflexivity). clear ET EU EO.
  destruct HT as [rt HT], HU as [ru HU], HO as [ro HO].
  assert (GO : forall c r l (ls' : list str) st, l = c :: r -> c <> 35 -> c <> 69 -> loop k (l :: ls') st = named_step k l ls' st).
  { intros c r l ls' st -> C1 C2. cbn [loop]. unfold named_step. destruct (Z.eqb_spec c 35); [contradiction|]. rewrite EE, (prefixb_cons 69 e c r). destruct (Z.eqb_spec c 69); [contradiction|]. reflexivity. }
  rewrite (GO _ _ lt _ _ HT) by lia. unfold named_step at 1. cbn [s_total s_under s_over s_bins]. rewrite PT, ST.
  rewrite (GO _ _ lu _ _ HU) by lia. unfold named_step at 1. cbn [s_total s_under s_over s_bins]. rewrite PU, SU.
  rewrite (GO _ _ lo _ _ HO) by lia. unfold named_step at 1. cbn [s_total s_under s_over s_bins]. rewrite PO, SO. clear GO.
  pose proof (loop_comments k [k_cols k]) as LC. cbn [app] in LC. rewrite LC by (constructor; [apply ko_cols; assumption|constructor]).
  rewrite (fun ls0 => loop_bins k (t_bins t) ls0 (mkst (Some (rdRow (t_total t))) (Some (rdRow (t_under t))) (Some (rdRow (t_over t))) []) _ _ _ KO eq_refl eq_refl eq_refl B). cbn [s_bins app]. pose proof (prefixb_app (k_end k) v) as PE. cbn [loop]. destruct (k_end k ++ v) as [|c r] eqn:EC; [rewrite EE in EC; discriminate|]. rewrite PE. rewrite EE in EC. cbn [app] in EC. injection EC as <- _. reflexivity.
Qed.
Lemma tableLines_plain k mean area t : kindOk k -> Forall plain (tableLines k mean area t).
Proof.
  intros KO. unfold tableLines. apply Forall_app. split; [eapply Forall_impl; [|apply (ko_pre k KO)]; intros l [A _]; exact A|]. constructor; [apply named_plain; apply noten; reflexivity|]. constructor; [apply named_plain; apply noten; reflexivity|]. constructor; [apply named_plain; apply noten; reflexivity|]. constructor; [exact (proj1 (ko_cols k KO))|].
  apply Forall_forall. intros l I. apply in_map_iff in I as (r & <- & _). apply rowText_plain.
Qed.
Lemma header_ok k path rest : ~ In 10 (k_name k) -> ~ In 10 path -> header k (nl (ys "BEGIN YODA_" ++ k_name k ++ ys "_V2 " ++ path) ++ rest) = Some rest.
Proof.
  intros NK NP. set (hd := ys "BEGIN YODA_" ++ k_name k ++ ys "_V2 " ++ path).
  assert (NH : ~ In 10 hd). { unfold hd. rewrite !in_app_iff. intros [I|[I|[I|I]]]; [apply (noten (ys "BEGIN YODA_") eq_refl) in I; lia|exact (NK I)|apply (noten (ys "_V2 ") eq_refl) in I; lia|exact (NP I)]. }
  unfold nl at 1. rewrite <- app_assoc. cbn [app]. unfold header. rewrite index_nl by assumption.
  replace (hd ++ 10 :: rest) with ((hd ++ [10]) ++ rest) by (rewrite <- app_assoc; reflexivity). replace (S (List.length hd)) with (List.length (hd ++ [10])) by (rewrite app_length; cbn; lia).
  rewrite firstn_app, Nat.sub_diag, firstn_all, firstn_O, app_nil_r. rewrite skipn_app, Nat.sub_diag, skipn_all, skipn_O. unfold hd. replace ((ys "BEGIN YODA_" ++ k_name k ++ ys "_V2 " ++ path) ++ [10]) with ((ys "BEGIN YODA_" ++ k_name k ++ ys "_V2 ") ++ path ++ [10]) by (rewrite <- !app_assoc; reflexivity). rewrite prefixb_app. reflexivity.
Qed.
Lemma cut_at (u tail : str) : firstn (S (List.length u)) (u ++ 10 :: tail) = u ++ [10] /\ skipn (List.length u) (u ++ 10 :: tail) = 10 :: tail.
Proof.
  split; [|rewrite skipn_app, Nat.sub_diag, skipn_all, skipn_O; reflexivity].
  replace (u ++ 10 :: tail) with ((u ++ [10]) ++ tail) by (rewrite <- app_assoc; reflexivity). replace (S (List.length u)) with (List.length (u ++ [10])) by (rewrite app_length; cbn; lia). rewrite firstn_app, Nat.sub_diag, firstn_all, firstn_O, app_nil_r. reflexivity.
Qed.
(* whatever lines follow the end *)
Theorem unmarshal_lines {A} (unyaml : str -> option A) a k path yaml mean area t ls : kindOk k -> ~ In 10 path -> noMark yaml -> unyaml (yaml ++ ys "---" ++ [10]) = Some a -> tableOk k t -> Forall plain ls ->
  unmarshal unyaml k (nl (ys "BEGIN YODA_" ++ k_name k ++ ys "_V2 " ++ path) ++ yaml ++ ys "---" ++ [10] ++ flat_map nl (tableLines k mean area t) ++ nl (ys "END YODA_" ++ k_name k ++ ys "_V2") ++ flat_map nl ls) = Some (a, rdTable t).
Proof.
  intros KO NP NM UY TO PL. unfold unmarshal. rewrite header_ok by (assumption || exact (ko_name k KO)).
  destruct (ko_mark k KO mean area t) as (p & v & EM & EV). set (u := yaml ++ ys "---").
  set (tail := flat_map nl (tableLines k mean area t) ++ nl (ys "END YODA_" ++ k_name k ++ ys "_V2") ++ flat_map nl ls).
  set (rest := yaml ++ ys "---" ++ [10] ++ tail).
  assert (ER : rest = u ++ 10 :: tail) by (unfold rest, u; rewrite <- !app_assoc; reflexivity).
  assert (IX : index (k_mark k) rest = Some (List.length u)).
  { rewrite ER, EM. unfold tail. rewrite EV. cbn [app]. rewrite <- !app_assoc. apply index_mark. apply noMark_ends. assumption. }
  rewrite IX, ER. destruct (cut_at u tail) as [-> ->]. unfold u. rewrite <- app_assoc, UY.
  assert (SK : 10 :: tail = flat_map nl ([] :: tableLines k mean area t ++ (ys "END YODA_" ++ k_name k ++ ys "_V2") :: ls)).
  { cbn [flat_map]. change (nl []) with [10]. cbn [app]. f_equal. unfold tail. rewrite flat_map_app. reflexivity. }
  rewrite SK, lines_nl.
  - cbn [loop]. rewrite loop_table by (assumption || exact (proj2 (ko_tail k KO))). reflexivity.
  - constructor; [apply plain_chars; intros ? []|]. apply Forall_app. split; [apply tableLines_plain; assumption|]. constructor; [exact (proj1 (ko_tail k KO))|exact PL].
Qed.
Theorem unmarshal_marshal {A} (unyaml : str -> option A) a k path yaml mean area t : kindOk k -> ~ In 10 path -> noMark yaml -> unyaml (yaml ++ ys "---" ++ [10]) = Some a -> tableOk k t ->
  unmarshal unyaml k (marshal k path yaml mean area t) = Some (a, rdTable t).
Proof. intros KO NP NM UY TO. apply (unmarshal_lines unyaml a k path yaml mean area t [[]]); try assumption. constructor; [apply plain_chars; intros ? []|constructor]. Qed.
Lemma marshal_rd k path yaml mean area t : tableOk k t -> marshal k path yaml mean area (rdTable t) = marshal k path yaml mean area t.
Proof.
  intros (T & U & O & B). unfold marshal, tableLines, rdTable, named. cbn [t_total t_under t_over t_bins]. rewrite (rowText_rd _ _ T), (rowText_rd _ _ U), (rowText_rd _ _ O).
  assert (E : map rowText (map rdRow (t_bins t)) = map rowText (t_bins t)) by (rewrite map_map; apply map_ext_in; intros r I; rewrite Forall_forall in B; exact (rowText_rd _ r (B r I))). rewrite E. reflexivity.
Qed.
