(* Proofs about ScanfModel.v: a line of numbers is read back *)
From Coq Require Import ZArith List Lia Bool.
From Flocq Require Import IEEE754.BinarySingleNaN.
From Verif Require Import Bytes GoLib GoStrings F64 FloatText FloatDigits ScanfModel.
Import ListNotations.
Local Open Scope Z_scope.

Definition dig (c : Z) : Prop := 48 <= c <= 57.
Lemma is_digit_true c : dig c -> is_digit c = true.
Proof. unfold dig, is_digit. intros H. apply andb_true_iff. split; apply Z.leb_le; lia. Qed.
Lemma is_digit_false c : c < 48 \/ 57 < c -> is_digit c = false.
Proof. unfold is_digit. intros H. destruct (Z.leb_spec 48 c), (Z.leb_spec c 57); try lia; reflexivity. Qed.
Definition stop (c : Z) : Prop := c = 32 \/ c = 10.
Lemma accepts_app p a b : Forall (fun c => p c = true) a -> (match b with c :: _ => p c = false | [] => True end) -> accepts p (a ++ b) = (a, b).
Proof.
  intros F H. induction F as [|c a E F IH]; cbn [app accepts].
  - destruct b as [|c b]; [reflexivity|]. cbn [accepts]. rewrite H. reflexivity.
  - rewrite E, IH. reflexivity.
Qed.
Lemma accepts_dig a b : Forall dig a -> (match b with c :: _ => is_digit c = false | [] => True end) -> accepts is_digit (a ++ b) = (a, b).
Proof. intros F H. apply accepts_app; [|exact H]. eapply Forall_impl; [|exact F]. apply is_digit_true. Qed.

(* the shape of a decimal number *)
Inductive numeral : str -> Prop :=
| num : forall sg ds fr ex, (sg = [] \/ sg = [43] \/ sg = [45]) -> ds <> [] -> Forall dig ds ->
    (fr = [] \/ exists fs, fr = 46 :: fs /\ Forall dig fs) ->
    (ex = [] \/ exists e s es, ex = e :: s :: es /\ (e = 101 \/ e = 69) /\ (s = 43 \/ s = 45) /\ Forall dig es) -> numeral (sg ++ ds ++ fr ++ ex).
Lemma anyof_false l c : ~ In c l -> anyof l c = false.
Proof.
  intros N. unfold anyof. destruct (existsb (Z.eqb c) l) eqn:E; [|reflexivity]. apply existsb_exists in E as (x & I & E). apply Z.eqb_eq in E. subst. contradiction.
Qed.
Lemma word3_no a b c d r : ~ In d a -> word3 a b c (d :: r) = ([], false, d :: r).
Proof. intros N. unfold word3. cbn [accept]. rewrite anyof_false by exact N. reflexivity. Qed.
Lemma floatToken_num t c r : numeral t -> stop c -> floatToken (t ++ c :: r) = (t, c :: r).
Proof.
  intros N ST. destruct N as [sg ds fr ex SG NE FD FR EX]. destruct ds as [|d ds]; [congruence|]. inversion FD as [|x y HD FD2]; subst. unfold dig in HD.
  set (tail := ds ++ fr ++ ex ++ c :: r).
  assert (ES : (sg ++ (d :: ds) ++ fr ++ ex) ++ c :: r = sg ++ d :: tail) by (unfold tail; rewrite <- !app_assoc; reflexivity). rewrite ES.
  assert (W1 : word3 [110; 78] [97; 65] [110; 78] (sg ++ d :: tail) = ([], false, sg ++ d :: tail)) by (destruct SG as [->|[->| ->]]; cbn [app]; apply word3_no; cbn; lia).
  unfold floatToken. rewrite W1. cbv beta iota.
  assert (A1 : accept is_sign (sg ++ d :: tail) = (sg, d :: tail)).
  { destruct SG as [->|[->| ->]]; cbn [app accept]; try reflexivity. unfold is_sign. destruct (Z.eqb_spec d 43); [lia|]. destruct (Z.eqb_spec d 45); [lia|]. reflexivity. }
  rewrite A1. cbv beta iota. rewrite word3_no by (cbn; lia). cbv beta iota.
  assert (NC : is_digit c = false) by (apply is_digit_false; destruct ST; lia).
  assert (HX : match fr ++ ex ++ c :: r with q :: _ => is_digit q = false | [] => True end).
  { destruct FR as [->|(fs & -> & _)]; cbn [app]; [|reflexivity]. destruct EX as [->|(e & s & es & -> & [->| ->] & _)]; cbn [app]; auto. }
  assert (A2 : accepts is_digit (d :: tail) = (d :: ds, fr ++ ex ++ c :: r)) by (unfold tail; apply (accepts_dig (d :: ds)); auto).
  rewrite A2. cbv beta iota.
  assert (HE : match ex ++ c :: r with q :: _ => is_digit q = false /\ q <> 46 | [] => True end).
  { destruct EX as [->|(e & s & es & -> & E & _)]; cbn [app]; [split; [exact NC|destruct ST; lia]|]. destruct E as [->| ->]; split; try reflexivity; lia. }
  assert (FIN : forall t5, (let '(t6, s6) := accept (anyof [101; 69]) (ex ++ c :: r) in
    let '(t7, s7) := match t6 with [] => ([], s6) | _ => accept is_sign s6 end in
    let '(t8, s8) := match t6 with [] => ([], s7) | _ => accepts is_digit s7 end in (t5 ++ t6 ++ t7 ++ t8, s8)) = (t5 ++ ex, c :: r)).
  { intros t5. destruct EX as [->|(e & s & es & -> & E & S & FE)].
    - cbn [app accept]. rewrite anyof_false by (cbn; destruct ST; lia). reflexivity.
    - cbn [app accept]. assert (E1 : anyof [101; 69] e = true) by (destruct E as [->| ->]; reflexivity). rewrite E1. cbv beta iota.
      assert (S1 : is_sign s = true) by (destruct S as [->| ->]; reflexivity). cbn [accept]. rewrite S1. cbv beta iota. rewrite (accepts_dig es (c :: r)) by auto. reflexivity. }
  destruct FR as [->|(fs & -> & FF)].
  - cbn [app]. assert (A3 : accept (Z.eqb 46) (ex ++ c :: r) = ([], ex ++ c :: r)).
    { destruct (ex ++ c :: r) as [|q qs]; [reflexivity|]. destruct HE as [H1 H2]. cbn [accept]. destruct (Z.eqb_spec 46 q); [congruence|reflexivity]. }
    rewrite A3. cbv beta iota. specialize (FIN (sg ++ d :: ds)). 
    destruct (accept (anyof [101; 69]) (ex ++ c :: r)) as [t6 s6]. cbn [app].
    destruct t6 as [|c6 t6]; [|destruct (accept is_sign s6) as [t7 s7]; destruct (accepts is_digit s7) as [t8 s8]]; cbn [app] in *; injection FIN as E1 E2; rewrite <- E2; f_equal; 
      rewrite <- !app_assoc in E1; cbn [app] in E1; exact E1.
  - change ((46 :: fs) ++ ex ++ c :: r) with (46 :: fs ++ ex ++ c :: r). cbn [accept]. change (46 =? 46) with true. cbv beta iota.
    rewrite (accepts_dig fs (ex ++ c :: r)); [|exact FF|destruct (ex ++ c :: r); [exact I|apply HE]]. cbv beta iota. specialize (FIN (sg ++ (d :: ds) ++ 46 :: fs)).
    destruct (accept (anyof [101; 69]) (ex ++ c :: r)) as [t6 s6].
    destruct t6 as [|c6 t6]; [|destruct (accept is_sign s6) as [t7 s7]; destruct (accepts is_digit s7) as [t8 s8]]; cbn [app] in *; injection FIN as E1 E2; rewrite <- E2; f_equal; 
      rewrite <- !app_assoc in E1; cbn [app] in E1; rewrite <- ?app_assoc in E1; cbn [app] in E1; exact E1.
Qed.
Lemma digits_dig n : 0 <= n -> Forall dig (udec n).
Proof. intros H. apply Forall_forall. intros c I. apply udec_digits in I; auto. Qed.
Lemma exptext_shape X : exists s es, exptext X = s :: es /\ (s = 43 \/ s = 45) /\ Forall dig es.
Proof.
  unfold exptext. eexists. eexists. split; [reflexivity|]. split; [destruct (X <? 0); auto|]. pose proof (digits_dig (Z.abs X) ltac:(lia)). destruct (Z.abs X <? 10); [constructor; [unfold dig; lia|]|]; assumption.
Qed.
Lemma upE_dig l : Forall dig l -> map upE l = l.
Proof. intros F. induction F as [|c l H F IH]; [reflexivity|]. cbn [map]. rewrite IH. unfold upE. unfold dig in H. destruct (Z.eqb_spec c 101); [lia|reflexivity]. Qed.
Lemma up_exp X : exists s es, map upE (exptext X) = s :: es /\ (s = 43 \/ s = 45) /\ Forall dig es.
Proof.
  destruct (exptext_shape X) as (s & es & -> & S & F). exists s, es. split; [|auto]. cbn [map]. rewrite upE_dig by exact F. f_equal. destruct S as [->| ->]; reflexivity.
Qed.
Lemma numeral_fin D x : 1 <= D -> match x with B754_nan | B754_infinity _ => True | _ => numeral (fmt_E D x) end.
Proof.
  intros HD. destruct x as [s|s| |s m e H]; try exact I; unfold fmt_E, fmt_e.
  - destruct (up_exp 0) as (q & es & E & Q & F). rewrite !map_app. cbn [map]. rewrite E. change (upE 101) with 69.
    assert (SG : map upE (signtext s) = [] \/ map upE (signtext s) = [43] \/ map upE (signtext s) = [45]) by (destruct s; auto).
    destruct (D =? 1).
    + change (map upE [48] ++ 69 :: q :: es) with ([48] ++ [] ++ 69 :: q :: es). constructor; auto; try discriminate; try (repeat constructor; unfold dig; lia); right; first [eexists; split; [reflexivity|assumption]|exists 69, q, es; auto].
    + set (z := repeat 48 (Z.to_nat (D - 1))). assert (FZ : Forall dig z) by (apply Forall_forall; intros c I; apply repeat_spec in I; unfold dig; lia).
      change (map upE (48 :: 46 :: z)) with ([48] ++ 46 :: map upE z). rewrite (upE_dig z FZ). rewrite <- app_assoc. constructor; auto; try discriminate; try (repeat constructor; unfold dig; lia); right; first [eexists; split; [reflexivity|assumption]|exists 69, q, es; auto].
  - destruct (todec D (Zpos m) e) as [N X] eqn:ET. rewrite map_app.
    assert (SG : map upE (signtext s) = [] \/ map upE (signtext s) = [43] \/ map upE (signtext s) = [45]) by (destruct s; auto).
    destruct (up_exp X) as (q & es & E & Q & F). unfold scitext.
    assert (NN : 0 <= N).
    { pose proof (bounded_facts _ _ H) as (He & Hm & _). pose proof (todec_spec D (Zpos m) e HD ltac:(lia) ltac:(lia)) as T. rewrite ET in T. cbv zeta in T. destruct T as ([T _] & _).
      assert (0 <= 10 ^ (D - 1)) by (apply Z.pow_nonneg; lia). lia. }
    pose proof (digits_dig N NN) as FU. pose proof (udec_nonempty N) as NU. destruct (udec N) as [|d ds]; [congruence|]. inversion FU as [|? ? HD1 FU2]; subst.
    assert (UD : upE d = d) by (unfold upE; unfold dig in HD1; destruct (Z.eqb_spec d 101); [lia|reflexivity]).
    destruct ds as [|d2 ds].
    + cbn [map]. rewrite UD, E. change (upE 101) with 69. change (d :: 69 :: q :: es) with ([d] ++ [] ++ 69 :: q :: es). constructor; auto; try discriminate; try (repeat constructor; unfold dig; lia); right; first [eexists; split; [reflexivity|assumption]|exists 69, q, es; auto].
    + change (map upE (d :: 46 :: (d2 :: ds) ++ 101 :: exptext X)) with (upE d :: 46 :: map upE ((d2 :: ds) ++ 101 :: exptext X)). rewrite map_app. cbn [map]. rewrite UD, E. change (upE 101) with 69. change (upE d2 :: map upE ds) with (map upE (d2 :: ds)). rewrite (upE_dig (d2 :: ds) FU2).
      change (d :: 46 :: (d2 :: ds) ++ 69 :: q :: es) with ([d] ++ (46 :: d2 :: ds) ++ 69 :: q :: es). constructor; auto; try discriminate; try (repeat constructor; unfold dig; lia); right; first [eexists; split; [reflexivity|assumption]|exists 69, q, es; auto].
Qed.
Lemma floatToken_E D x c r : 1 <= D -> stop c -> floatToken (fmt_E D x ++ c :: r) = (fmt_E D x, c :: r).
Proof.
  intros HD ST. pose proof (numeral_fin D x HD) as N. destruct x as [s|s| |s m e H]; try (apply floatToken_num; assumption); [|reflexivity].
  destruct s; reflexivity.
Qed.

(* ---- fields ---- *)
Definition nosp (t : str) : Prop := exists c r, t = c :: r /\ is_sp c = false.
Definition readable (v : verb) (t : str) (x : sval) : Prop := nosp t /\ forall c r, stop c -> scanOne v (t ++ c :: r) = Some (x, c :: r).
Definition sps (n : nat) : str := repeat 32 n.
Lemma skip_sps n s : skipSpace (sps n ++ s) = skipSpace s.
Proof. induction n as [|n IH]; [reflexivity|]. cbn [sps repeat app skipSpace]. exact IH. Qed.
Lemma skip_nosp t r : nosp t -> skipSpace (t ++ r) = Some (t ++ r).
Proof. intros (c & q & -> & H). cbn [app skipSpace]. rewrite H. destruct (Z.eqb_spec c 10) as [->|]; [discriminate|reflexivity]. Qed.
Lemma scanOne_sps v n s : scanOne v (sps n ++ s) = scanOne v s.
Proof. destruct v; cbn [scanOne]; unfold scanInt, scanFloat; rewrite skip_sps; reflexivity. Qed.
Lemma accepts_sps n t r : nosp t -> accepts (fun c => is_sp c && negb (c =? 10)) (sps n ++ t ++ r) = (sps n, t ++ r).
Proof.
  intros (c & q & -> & H). apply accepts_app; [apply Forall_forall; intros x I; apply repeat_spec in I; subst; reflexivity|]. cbn [app]. rewrite H. reflexivity.
Qed.
Definition fld := (verb * nat * str * sval)%type.
Definition fld_ok (f : fld) : Prop := let '(v, _, t, x) := f in readable v t x.
Definition fverb (f : fld) : verb := let '(v, _, _, _) := f in v.
Definition fval (f : fld) : sval := let '(_, _, _, x) := f in x.
Definition ftext (f : fld) : str := let '(_, n, t, _) := f in sps n ++ t.
Definition ftexts (l : list fld) : str := List.concat (map (fun f => 32 :: ftext f) l).
Lemma ftexts_head l r : match ftexts l ++ 10 :: r with c :: _ => stop c | [] => False end.
Proof. destruct l; cbn; unfold stop; auto. Qed.
Lemma scanMore_fields l : Forall fld_ok l -> forall r, scanMore (map fverb l) (ftexts l ++ 10 :: r) = Some (map fval l, r).
Proof.
  intros F. induction F as [|[[[v n] t] x] l H F IH]; intros r; [reflexivity|]. cbn [map scanMore fverb fval ftexts List.concat]. rewrite <- app_assoc. cbn [app blank ftext].
  change (32 =? 10) with false. change (is_sp 32) with true. cbv iota. destruct H as [NS R]. rewrite <- app_assoc, (accepts_sps n t _ NS). cbn [snd].
  change (List.concat (map (fun f => 32 :: ftext f) l)) with (ftexts l). pose proof (ftexts_head l r) as HH. destruct (ftexts l ++ 10 :: r) as [|c q] eqn:E; [contradiction|].
  rewrite (R c q HH), <- E, IH. reflexivity.
Qed.
Lemma fscanf_fields f l r : Forall fld_ok (f :: l) -> fscanf (map fverb (f :: l)) (ftext f ++ ftexts l ++ 10 :: r) = Some (map fval (f :: l), r).
Proof.
  intros F. inversion F as [|a b H F2]; subst. destruct f as [[[v n] t] x]. destruct H as [NS R]. cbn [map fscanf fverb ftext fval]. rewrite <- app_assoc, scanOne_sps.
  pose proof (ftexts_head l r) as HH. destruct (ftexts l ++ 10 :: r) as [|c q] eqn:E; [contradiction|]. rewrite (R c q HH), <- E, (scanMore_fields l F2). reflexivity.
Qed.
(* integers *)
Definition inb (bits n : Z) : Prop := - 2 ^ (bits - 1) <= n < 2 ^ (bits - 1).
Lemma itoa_shape n : exists sg ds, itoa n = sg ++ ds /\ (sg = [] \/ sg = [45]) /\ ds <> [] /\ Forall dig ds.
Proof.
  unfold itoa. destruct (Z.ltb_spec n 0).
  - exists [45], (udec (- n)). split; [reflexivity|]. split; [auto|]. split; [apply udec_nonempty|apply digits_dig; lia].
  - exists [], (udec n). split; [reflexivity|]. split; [auto|]. split; [apply udec_nonempty|apply digits_dig; lia].
Qed.
Lemma dig_nosp c : dig c -> is_sp c = false.
Proof. unfold dig, is_sp. intros H. destruct (Z.leb_spec c 13); [lia|]. rewrite andb_false_r. destruct (Z.eqb_spec c 32); [lia|reflexivity]. Qed.
Lemma num_nosp sg ds r : (sg = [] \/ sg = [43] \/ sg = [45]) -> ds <> [] -> Forall dig ds -> nosp (sg ++ ds ++ r).
Proof.
  intros S N F. destruct ds as [|d ds]; [congruence|]. inversion F; subst. destruct S as [->|[->| ->]]; cbn [app]; eexists; eexists; (split; [reflexivity|]); try reflexivity. apply dig_nosp. assumption.
Qed.
Lemma int_readable bits n : bits <= 64 -> inb bits n -> readable (PD bits) (itoa n) (SI n).
Proof.
  intros HB HN. destruct (itoa_shape n) as (sg & ds & E & SG & NE & F). 
  assert (NS : nosp (itoa n)) by (rewrite E, <- (app_nil_r ds); apply num_nosp; tauto). split; [exact NS|]. intros c r ST. cbn [scanOne]. unfold scanInt. rewrite skip_nosp by exact NS.
  assert (A1 : accept is_sign (itoa n ++ c :: r) = (sg, ds ++ c :: r)).
  { rewrite E, <- app_assoc. destruct SG as [->| ->]; [|reflexivity]. destruct ds as [|d ds]; [congruence|]. inversion F as [|? ? HD _]; subst. cbn [app accept]. unfold is_sign. unfold dig in HD. destruct (Z.eqb_spec d 43); [lia|]. destruct (Z.eqb_spec d 45); [lia|]. reflexivity. }
  rewrite A1. cbv beta iota. rewrite accepts_dig; [|exact F|apply is_digit_false; destruct ST; lia]. cbv beta iota. destruct ds as [|d ds]; [congruence|]. rewrite <- E, atoi_itoa.
  - destruct HN as [H1 H2]. apply Z.leb_le in H1. apply Z.ltb_lt in H2. rewrite H1, H2. reflexivity.
  - unfold inb in HN. assert (2 ^ (bits - 1) <= 2 ^ 63) by (apply Z.pow_le_mono_r; lia). lia.
Qed.
(* floating point numbers written with %.{D-1}E *)
Definition rdE (D : Z) (x : f64) : f64 := match parse_float (fmt_E D x) with Some y => y | None => x end.
Lemma rdE_ok D x : 1 <= D <= 15 -> mid x -> parse_float (fmt_E D x) = Some (rdE D x) /\ fmt_E D (rdE D x) = fmt_E D x /\ near D x (rdE D x).
Proof. intros HD M. destruct (fmt_E_stable D x HD M) as (y & A & B & C). unfold rdE. rewrite A. auto. Qed.
Lemma fmtE_nosp D x : 1 <= D -> nosp (fmt_E D x).
Proof.
  intros HD. pose proof (numeral_fin D x HD) as N. destruct x as [s|s| |s m e H]; try (inversion N as [sg ds fr ex S NE F _ _]; apply num_nosp; assumption).
  - destruct s; eexists; eexists; split; reflexivity.
  - eexists. eexists. split; reflexivity.
Qed.
Lemma float_readable D x : 1 <= D <= 15 -> mid x -> readable PF (fmt_E D x) (SF (rdE D x)).
Proof.
  intros HD M. split; [apply fmtE_nosp; lia|]. intros c r ST. cbn [scanOne]. unfold scanFloat. rewrite skip_nosp by (apply fmtE_nosp; lia). rewrite floatToken_E by (auto; lia).
  destruct (rdE_ok D x HD M) as (E & _). rewrite E. reflexivity.
Qed.
