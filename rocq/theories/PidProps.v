(* C44: particle ids (heppdt/pid.go). *)
From Coq Require Import ZArith List Lia Bool.
From Verif Require Import GoLib Bytes PidModel.
Import ListNotations.
Local Open Scope Z_scope.

(* every id but the least integer, whose opposite is not representable *)
Definition pid_ok (p : Z) : Prop := - 2 ^ 63 < p < 2 ^ 63.
Lemma abs_ok p : pid_ok p -> absPID p = Z.abs p.
Proof.
  unfold pid_ok, absPID, wrapS. change (64 - 1) with 63. intros I.
  assert (E : 2 ^ 64 = 2 * 2 ^ 63) by reflexivity. rewrite E. set (M := 2 ^ 63) in *.
  destruct (p >=? 0) eqn:G; [lia|]. rewrite Z.mod_small by lia. destruct (- p <? M) eqn:L; lia.
Qed.
Lemma ok_opp p : pid_ok p -> pid_ok (- p).
Proof. unfold pid_ok; lia. Qed.
Lemma digit_val p loc : pid_ok p -> 1 <= loc -> digit p loc = (Z.abs p / 10 ^ (loc - 1)) mod 10.
Proof.
  intros I L. unfold digit. rewrite abs_ok by exact I. assert (0 < 10 ^ (loc - 1)) by (apply Z.pow_pos_nonneg; lia).
  rewrite Z.quot_div_nonneg by lia. rewrite Z.rem_mod_nonneg; [reflexivity| |lia]. apply Z.div_pos; lia.
Qed.
Lemma extra_val p : pid_ok p -> extraBits p = Z.abs p / 10000000.
Proof. intros I. unfold extraBits. rewrite abs_ok by exact I. apply Z.quot_div_nonneg; lia. Qed.

Lemma mod_add_l a b c : b <> 0 -> (a * b + c) mod b = c mod b.
Proof. intros. rewrite Z.add_comm. apply Z.mod_add. assumption. Qed.

(* the number written with the decimal digits ds, least significant first *)
Definition dec (ds : list Z) : Z := fold_right (fun d a => d + 10 * a) 0 ds.
Lemma dec_pos ds : Forall (fun d => 0 <= d < 10) ds -> 0 <= dec ds.
Proof. induction 1; [cbn; lia|]. change (dec (x :: l)) with (x + 10 * dec l). lia. Qed.
Lemma dec_nth ds : Forall (fun d => 0 <= d < 10) ds -> forall n, (dec ds / 10 ^ Z.of_nat n) mod 10 = nth n ds 0.
Proof.
  induction 1 as [|d ds D F IH]; intros n.
  - cbn [dec fold_right]. rewrite Z.div_0_l by (apply Z.pow_nonzero; lia). destruct n; reflexivity.
  - change (dec (d :: ds)) with (d + 10 * dec ds). destruct n as [|n].
    + change (10 ^ Z.of_nat 0) with 1. rewrite Z.div_1_r. cbn [nth]. rewrite Z.add_comm, Z.mul_comm, mod_add_l by lia. apply Z.mod_small. lia.
    + rewrite Nat2Z.inj_succ, Z.pow_succ_r by lia. cbn [nth]. rewrite <- IH. rewrite <- Z.div_div by (try lia; apply Z.pow_pos_nonneg; lia).
      f_equal. f_equal. rewrite Z.add_comm, Z.mul_comm, Z.div_add_l by lia. rewrite Z.div_small by lia. lia.
Qed.
Theorem C44_digit : forall ds p loc, Forall (fun d => 0 <= d < 10) ds -> p = dec ds \/ p = - dec ds -> pid_ok p -> 1 <= loc <= 10 ->
  digit p loc = nth (Z.to_nat loc - 1) ds 0.
Proof.
  intros ds p loc F E I L. rewrite digit_val by (try exact I; lia).
  pose proof (dec_pos ds F). replace (Z.abs p) with (dec ds) by lia. replace (loc - 1) with (Z.of_nat (Z.to_nat loc - 1)) by lia. apply dec_nth, F.
Qed.
Example C44_digit_example : digit (-9221132) Nr = 2 /\ dec [2; 3; 1; 1; 2; 2; 9] = 9221132 /\ digit (-9221132) N8 = 0.
Proof. repeat split; vm_compute; reflexivity. Qed.
(* the least integer has negative digits *)
Theorem C44_least_refuted : digit (- 2 ^ 63) Nj = -8 /\ threeCharge (- 2 ^ 63) = Panic.
Proof. split; vm_compute; reflexivity. Qed.

(* ------------------------------------------------------------------ the opposite id *)
Lemma abs_opp p : pid_ok p -> absPID (- p) = absPID p.
Proof. intros I. rewrite !abs_ok by (try exact I; apply ok_opp, I). lia. Qed.
Lemma digit_opp p loc : pid_ok p -> digit (- p) loc = digit p loc.
Proof. intros I. unfold digit. rewrite abs_opp by exact I. reflexivity. Qed.
Lemma extra_opp p : pid_ok p -> extraBits (- p) = extraBits p.
Proof. intros I. unfold extraBits. rewrite abs_opp by exact I. reflexivity. Qed.
Lemma fid_opp p : pid_ok p -> fundamentalID (- p) = fundamentalID p.
Proof. intros I. unfold fundamentalID. rewrite !digit_opp, abs_opp by exact I. reflexivity. Qed.
Ltac opp I := rewrite ?digit_opp, ?extra_opp, ?fid_opp, ?abs_opp by exact I.
Lemma susy_opp p : pid_ok p -> isSUSY (- p) = isSUSY p.
Proof. intros I. unfold isSUSY. opp I. reflexivity. Qed.
Lemma dyon_opp p : pid_ok p -> isDyon (- p) = isDyon p.
Proof. intros I. unfold isDyon. opp I. reflexivity. Qed.
Lemma rhadron_opp p : pid_ok p -> isRhadron (- p) = isRhadron p.
Proof. intros I. unfold isRhadron. rewrite susy_opp by exact I. opp I. reflexivity. Qed.
Lemma baryon_opp p : pid_ok p -> isBaryon (- p) = isBaryon p.
Proof. intros I. unfold isBaryon. opp I. reflexivity. Qed.
Lemma penta_opp p : pid_ok p -> isPentaquark (- p) = isPentaquark p.
Proof. intros I. unfold isPentaquark. opp I. reflexivity. Qed.
Lemma nucleus_opp p : pid_ok p -> isNucleus (- p) = isNucleus p.
Proof. intros I. unfold isNucleus, A, Zn. opp I. reflexivity. Qed.
Lemma qball_opp p : pid_ok p -> isQBall (- p) = isQBall p.
Proof. exact (susy_opp p). Qed.
Lemma findR_opp p q is : pid_ok p -> forall iz, findR (- p) q iz is = findR p q iz is.
Proof. intros I. induction is as [|i is IH]; intros iz; cbn [findR]; [reflexivity|]. rewrite digit_opp by exact I. rewrite !IH. reflexivity. Qed.
Lemma has_opp p q : pid_ok p -> has q (- p) = has q p.
Proof. intros I. unfold has, findQ. rewrite dyon_opp, rhadron_opp, penta_opp by exact I. rewrite findR_opp by exact I. opp I. reflexivity. Qed.
(* All classifications but those that involve mesons are the same for p and -p. *)
Theorem C44_sign : forall p, pid_ok p ->
  (forall loc, digit (- p) loc = digit p loc) /\ extraBits (- p) = extraBits p /\ fundamentalID (- p) = fundamentalID p /\ quarks (- p) = quarks p /\
  isBaryon (- p) = isBaryon p /\ isDiQuark (- p) = isDiQuark p /\ isLepton (- p) = isLepton p /\ isNucleus (- p) = isNucleus p /\
  isPentaquark (- p) = isPentaquark p /\ isSUSY (- p) = isSUSY p /\ isRhadron (- p) = isRhadron p /\ isDyon (- p) = isDyon p /\ isQBall (- p) = isQBall p /\
  (forall q, has q (- p) = has q p) /\ A (- p) = A p /\ Zn (- p) = Zn p /\ lambda (- p) = lambda p /\ jSpin (- p) = jSpin p.
Proof.
  intros p I. split; [intros; apply digit_opp, I|]. split; [apply extra_opp, I|]. split; [apply fid_opp, I|]. split; [unfold quarks; opp I; reflexivity|].
  split; [apply baryon_opp, I|]. split; [unfold isDiQuark; opp I; reflexivity|]. split; [unfold isLepton; opp I; reflexivity|]. split; [apply nucleus_opp, I|].
  split; [apply penta_opp, I|]. split; [apply susy_opp, I|]. split; [apply rhadron_opp, I|]. split; [apply dyon_opp, I|]. split; [apply qball_opp, I|].
  split; [intros; apply has_opp, I|]. split; [unfold A; opp I; reflexivity|]. split; [unfold Zn; opp I; reflexivity|].
  split; [unfold lambda; rewrite nucleus_opp by exact I; opp I; reflexivity|]. unfold jSpin. opp I. reflexivity.
Qed.
Lemma meson_class p : pid_ok p -> 0 < p -> (p = 130 \/ p = 310 \/ p = 210 \/ p = 150 \/ p = 350 \/ p = 510 \/ p = 530 -> digit p Nq3 <> digit p Nq2).
Proof. intros _ _ H. intuition subst; vm_compute; discriminate. Qed.
(* An antimeson is legal exactly when the meson is and its two quarks differ. *)
Theorem C44_meson_anti : forall p, pid_ok p -> 0 < p -> isMeson (- p) = true <-> isMeson p = true /\ digit p Nq3 <> digit p Nq2.
Proof.
  intros p I P. pose proof (meson_class p I P) as K. unfold isMeson. opp I. rewrite abs_ok by exact I. rewrite (Z.abs_eq p) by lia.
  destruct (extraBits p >? 0); [intuition discriminate|]. destruct (p <=? 100); [intuition discriminate|].
  destruct ((fundamentalID p <=? 100) && (fundamentalID p >? 0)); [intuition discriminate|]. cbv zeta.
  destruct ((p =? 130) || (p =? 310) || (p =? 210)) eqn:E1. { assert (digit p Nq3 <> digit p Nq2) by (apply K; lia). intuition. }
  destruct ((p =? 150) || (p =? 350) || (p =? 510) || (p =? 530)) eqn:E2. { assert (digit p Nq3 <> digit p Nq2) by (apply K; lia). intuition. }
  replace ((- p =? 110) || (- p =? 990) || (- p =? 9990)) with false by lia.
  replace (p <? 0) with false by lia. replace (- p <? 0) with true by lia. rewrite andb_false_r, andb_true_r. cbn [negb].
  destruct ((p =? 110) || (p =? 990) || (p =? 9990)) eqn:E3.
  - assert (H : digit p Nq3 = digit p Nq2 /\ digit p Nj = 0). { assert (J : p = 110 \/ p = 990 \/ p = 9990) by lia. destruct J as [J|[J|J]]; subst p; vm_compute; split; reflexivity. }
    destruct H as [H1 H2]. rewrite H2. cbn. intuition congruence.
  - destruct ((digit p Nj >? 0) && (digit p Nq3 >? 0) && (digit p Nq2 >? 0) && (digit p Nq1 =? 0)); [|intuition discriminate].
    destruct (Z.eqb_spec (digit p Nq3) (digit p Nq2)); cbn [negb]; intuition congruence.
Qed.
Theorem C44_hadron_anti : forall p, pid_ok p -> 0 < p -> isHadron (- p) = true -> isHadron p = true.
Proof.
  intros p I P. unfold isHadron. rewrite baryon_opp, penta_opp by exact I. opp I. pose proof (C44_meson_anti p I P) as K.
  destruct (extraBits p >? 0); [auto|]. destruct (isMeson (- p)); [|destruct (isMeson p); auto]. destruct (proj1 K eq_refl) as [-> _]. reflexivity.
Qed.
(* The id of an antiparticle is valid when that of the particle is, except for a meson made of a quark and its antiquark. *)
Theorem C44_valid_anti : forall p, pid_ok p -> 0 < p ->
  (isValid (- p) = true -> isValid p = true) /\ (isValid p = true -> isValid (- p) = false -> isMeson p = true /\ digit p Nq3 = digit p Nq2).
Proof.
  intros p I P. unfold isValid. assert (QB : forall x, isQBall x = isSUSY x) by reflexivity. rewrite !QB. rewrite !susy_opp, rhadron_opp, dyon_opp, baryon_opp, penta_opp, nucleus_opp by exact I.
  replace (isDiQuark (- p)) with (isDiQuark p) by (unfold isDiQuark; opp I; reflexivity). opp I. pose proof (C44_meson_anti p I P) as K.
  destruct (extraBits p >? 0); [split; [auto|intros; congruence]|].
  destruct (isSUSY p), (isRhadron p), (isDyon p); cbn [orb]; try (split; intros; congruence).
  destruct (isBaryon p), (isDiQuark p), (fundamentalID p >? 0), (isPentaquark p); rewrite ?orb_true_r, ?orb_false_r; try (split; intros; congruence).
  split; [intros H; apply K, H|]. intros H1 H2. split; [exact H1|]. destruct (Z.eq_dec (digit p Nq3) (digit p Nq2)) as [E|E]; [exact E|].
  rewrite (proj2 K (conj H1 E)) in H2. discriminate.
Qed.
Example C44_sign_example : isMeson 211 = true /\ isMeson (-211) = true /\ isMeson 111 = true /\ isMeson (-111) = false /\ isValid 443 = true /\ isValid (-443) = false /\ isBaryon (-2112) = true.
Proof. repeat split; vm_compute; reflexivity. Qed.

(* ------------------------------------------------------------------ charge *)
Definition rneg (r : res Z) : res Z := match r with Ok c => Ok (- c) | Panic => Panic end.
Lemma signed_opp p c : p <> 0 -> signed (- p) c = - signed p c.
Proof. intros H. unfold signed. destruct (c =? 0) eqn:E; [lia|]. destruct (p <? 0) eqn:L; replace (- p <? 0) with (negb (p <? 0)) by lia; rewrite L; cbn [negb]; lia. Qed.
(* The charge of the antiparticle is the opposite one, for all ids within the numbering scheme (at most 7 digits). *)
Theorem C44_charge : forall p, pid_ok p -> Z.abs p < 10000000 -> threeCharge (- p) = rneg (threeCharge p) /\
  charge (- p) = match charge p with Ok (c, d) => Ok (- c, d) | Panic => Panic end.
Proof.
  intros p I L. assert (K : threeCharge (- p) = rneg (threeCharge p)).
  { unfold threeCharge. cbv zeta. rewrite dyon_opp, rhadron_opp, baryon_opp by exact I. opp I.
    destruct (Z.eqb_spec (absPID p) 0) as [Z0|Z0]; [reflexivity|]. rewrite abs_ok in Z0 by exact I.
    rewrite extra_val by exact I. rewrite Z.div_small by lia. cbn [Z.gtb Z.compare].
    destruct (isDyon p); [cbn [rneg]; rewrite signed_opp by lia; reflexivity|].
    destruct ((fundamentalID p >? 0) && (fundamentalID p <=? 100)). { destruct (ch (fundamentalID p - 1)) as [c|]; cbn [rbind rneg]; [|reflexivity]. rewrite signed_opp by lia. reflexivity. }
    destruct (digit p Nj =? 0); [reflexivity|].
    destruct ((digit p Nq1 =? 0) || (isRhadron p && (digit p Nq1 =? 9))).
    { destruct ((digit p Nq2 =? 3) || (digit p Nq2 =? 5)); destruct (ch (digit p Nq3 - 1)), (ch (digit p Nq2 - 1)); cbn [rbind rneg]; try reflexivity; rewrite signed_opp by lia; reflexivity. }
    destruct (digit p Nq3 =? 0). { destruct (ch (digit p Nq2 - 1)), (ch (digit p Nq1 - 1)); cbn [rbind rneg]; try reflexivity; rewrite signed_opp by lia; reflexivity. }
    destruct (isBaryon p || (isRhadron p && (digit p Nl =? 9))); [|reflexivity].
    destruct (ch (digit p Nq3 - 1)), (ch (digit p Nq2 - 1)), (ch (digit p Nq1 - 1)); cbn [rbind rneg]; try reflexivity; rewrite signed_opp by lia; reflexivity. }
  split; [exact K|]. unfold charge. rewrite K, qball_opp by exact I. destruct (threeCharge p); reflexivity.
Qed.
(* An antinucleus is given the charge of the nucleus. *)
Theorem C44_antinucleus_refuted : forall p, pid_ok p -> 10000000 <= Z.abs p -> threeCharge (- p) = threeCharge p.
Proof.
  intros p I L. unfold threeCharge. cbv zeta. rewrite nucleus_opp, qball_opp by exact I. opp I. rewrite abs_ok by exact I.
  replace (Z.abs p =? 0) with false by lia. assert (E : extraBits p >? 0 = true). { rewrite extra_val by exact I. assert (1 <= Z.abs p / 10000000) by (apply Z.div_le_lower_bound; lia). lia. }
  rewrite E. unfold Zn. opp I. destruct (isNucleus p); [reflexivity|]. unfold isQBall. rewrite E. reflexivity.
Qed.
Example C44_charge_example : threeCharge 211 = Ok 3 /\ threeCharge (-211) = Ok (-3) /\ threeCharge 321 = Ok 3 /\ threeCharge 2224 = Ok 6 /\ threeCharge (-11) = Ok 3 /\ threeCharge 1000010020 = Ok 3 /\ threeCharge (-1000010020) = Ok 3.
Proof. repeat split; vm_compute; reflexivity. Qed.

(* Three times the charge of the quark with number q. *)
Definition qc (q : Z) : Z := if Z.even q then 2 else -1.
Lemma ch_qc q : 1 <= q <= 8 -> ch (q - 1) = Ok (qc q).
Proof. intros H. assert (C : q = 1 \/ q = 2 \/ q = 3 \/ q = 4 \/ q = 5 \/ q = 6 \/ q = 7 \/ q = 8) by lia. intuition subst; reflexivity. Qed.
Lemma digit_range p loc : pid_ok p -> 1 <= loc -> 0 <= digit p loc < 10.
Proof. intros I L. rewrite digit_val by assumption. apply Z.mod_pos_bound. lia. Qed.
Lemma signed_pos p c : 0 < p -> signed p c = c.
Proof. intros H. unfold signed. destruct (c =? 0) eqn:E; [lia|]. replace (p <? 0) with false by lia. reflexivity. Qed.
Lemma fid_big p : pid_ok p -> 100 < Z.abs p -> fundamentalID p <= 0 \/ 100 < fundamentalID p.
Proof.
  intros I H. unfold fundamentalID. destruct ((digit p N10 =? 1) && (digit p N9 =? 0)); [lia|]. rewrite !digit_val, abs_ok by (try exact I; unfold Nq2, Nq1; lia).
  unfold Nq2, Nq1. change (10 ^ (3 - 1)) with 100. change (10 ^ (4 - 1)) with 1000. rewrite Z.rem_mod_nonneg by lia.
  destruct (((Z.abs p / 100) mod 10 =? 2) && ((Z.abs p / 1000) mod 10 =? 0)) eqn:E; [|destruct (Z.abs p <=? 102) eqn:F; lia].
  right. apply andb_true_iff in E. destruct E as [E1 E2]. apply Z.eqb_eq in E1, E2. pose proof (Z.div_mod (Z.abs p) 10000). pose proof (Z.mod_pos_bound (Z.abs p) 10000).
  assert ((Z.abs p mod 10000) / 100 mod 10 = 2). { rewrite <- E1. rewrite (Z.div_mod (Z.abs p) 10000) at 2 by lia. replace (10000 * (Z.abs p / 10000) + Z.abs p mod 10000) with ((100 * (Z.abs p / 10000)) * 100 + Z.abs p mod 10000) by lia.
    rewrite Z.div_add_l by lia. replace (100 * (Z.abs p / 10000)) with (10 * (Z.abs p / 10000) * 10) by lia. rewrite mod_add_l by lia. reflexivity. }
  destruct (Z_lt_dec (Z.abs p mod 10000) 200) as [C|C]; [|lia]. exfalso.
  assert (D : Z.abs p mod 10000 / 100 < 2) by (apply Z.div_lt_upper_bound; lia). assert (0 <= Z.abs p mod 10000 / 100) by (apply Z.div_pos; lia). rewrite Z.mod_small in H2 by lia. lia.
Qed.
Lemma table_big p : pid_ok p -> 100 < Z.abs p -> (fundamentalID p >? 0) && (fundamentalID p <=? 100) = false.
Proof. intros I H. pose proof (fid_big p I H). lia. Qed.
Ltac b2p := repeat match goal with H : _ && _ = true |- _ => apply andb_true_iff in H; destruct H end.
Lemma meson_parts p : pid_ok p -> isMeson p = true -> digit p Nj <> 0 -> extraBits p >? 0 = false /\ 100 < Z.abs p /\ 0 < digit p Nj /\ 0 < digit p Nq3 /\ 0 < digit p Nq2 /\ digit p Nq1 = 0.
Proof.
  intros I. unfold isMeson. rewrite abs_ok by exact I. cbv zeta. destruct (extraBits p >? 0); [discriminate|]. destruct (Z.abs p <=? 100) eqn:L; [discriminate|].
  destruct ((fundamentalID p <=? 100) && (fundamentalID p >? 0)); [discriminate|].
  destruct ((Z.abs p =? 130) || (Z.abs p =? 310) || (Z.abs p =? 210)) eqn:E1. { intros _ N. exfalso. apply N. rewrite digit_val by (try exact I; unfold Nj; lia). assert (J : Z.abs p = 130 \/ Z.abs p = 310 \/ Z.abs p = 210) by lia. destruct J as [J|[J|J]]; rewrite J; reflexivity. }
  destruct ((Z.abs p =? 150) || (Z.abs p =? 350) || (Z.abs p =? 510) || (Z.abs p =? 530)) eqn:E2. { intros _ N. exfalso. apply N. rewrite digit_val by (try exact I; unfold Nj; lia). assert (J : Z.abs p = 150 \/ Z.abs p = 350 \/ Z.abs p = 510 \/ Z.abs p = 530) by lia. destruct J as [J|[J|[J|J]]]; rewrite J; reflexivity. }
  destruct ((p =? 110) || (p =? 990) || (p =? 9990)) eqn:E3. { intros _ N. exfalso. apply N. assert (J : p = 110 \/ p = 990 \/ p = 9990) by lia. destruct J as [J|[J|J]]; rewrite J; reflexivity. }
  destruct ((digit p Nj >? 0) && (digit p Nq3 >? 0) && (digit p Nq2 >? 0) && (digit p Nq1 =? 0)) eqn:E4; [|discriminate]. intros _ _. b2p. repeat split; lia.
Qed.
Lemma not_dyon p : digit p Nj <> 0 -> isDyon p = false.
Proof. intros H. unfold isDyon. replace (digit p Nj =? 0) with false by lia. cbn [negb]. repeat match goal with |- context [if ?b then _ else _] => destruct b; [reflexivity|] end. reflexivity. Qed.
(* A meson q2 anti-q3 with q2 of the up type has charge c(q2) - c(q3), one with q2 of the down type c(q3) - c(q2). *)
Theorem C44_meson_charge : forall p, pid_ok p -> 0 < p -> isMeson p = true -> digit p Nj <> 0 -> digit p Nq3 <= digit p Nq2 <= 6 ->
  threeCharge p = Ok (if Z.even (digit p Nq2) then qc (digit p Nq2) - qc (digit p Nq3) else qc (digit p Nq3) - qc (digit p Nq2)).
Proof.
  intros p I P M J Q. destruct (meson_parts p I M J) as (E & L & A1 & A2 & A3 & A4). unfold threeCharge. cbv zeta. rewrite abs_ok by exact I.
  replace (Z.abs p =? 0) with false by lia. rewrite E, not_dyon by exact J. rewrite table_big by assumption. replace (digit p Nj =? 0) with false by lia. rewrite A4. cbn [Z.eqb orb].
  rewrite !ch_qc by lia. cbn [rbind]. rewrite !signed_pos by exact P.
  assert (C : digit p Nq2 = 1 \/ digit p Nq2 = 2 \/ digit p Nq2 = 3 \/ digit p Nq2 = 4 \/ digit p Nq2 = 5 \/ digit p Nq2 = 6) by lia.
  destruct C as [C|[C|[C|[C|[C|C]]]]]; rewrite ?C; try reflexivity. assert (D : digit p Nq3 = 1) by lia. rewrite D. reflexivity.
Qed.
(* so a meson of quarks 1 to 6 has an integer charge in -1, 0, 1 *)
Theorem C44_meson_integral : forall p, pid_ok p -> isMeson p = true -> digit p Nq3 <= digit p Nq2 <= 6 -> threeCharge p = Ok (-3) \/ threeCharge p = Ok 0 \/ threeCharge p = Ok 3.
Proof.
  assert (K : forall p, pid_ok p -> 0 < p -> isMeson p = true -> digit p Nq3 <= digit p Nq2 <= 6 -> threeCharge p = Ok (-3) \/ threeCharge p = Ok 0 \/ threeCharge p = Ok 3).
  { intros p I P M Q. destruct (Z.eq_dec (digit p Nj) 0) as [J|J].
    - right; left. assert (C : p = 130 \/ p = 310 \/ p = 210 \/ p = 150 \/ p = 350 \/ p = 510 \/ p = 530 \/ p = 110 \/ p = 990 \/ p = 9990).
      { revert M. unfold isMeson. rewrite abs_ok by exact I. rewrite J. cbv zeta. cbn [Z.gtb Z.compare andb]. rewrite (Z.abs_eq p) by lia.
        repeat match goal with |- context [if ?b then _ else _] => destruct b eqn:?; try discriminate end; intros _; lia. }
      repeat (destruct C as [C|C]; [subst p; vm_compute; reflexivity|]). subst p; vm_compute; reflexivity.
    - rewrite (C44_meson_charge p I P M J Q). unfold qc. destruct (Z.even (digit p Nq2)), (Z.even (digit p Nq3)); cbn; auto. }
  intros p I M Q. destruct (Z_lt_dec 0 p) as [P|P]; [apply K; assumption|]. assert (N0 : p <> 0) by (intros ->; vm_compute in M; discriminate).
  assert (I' := ok_opp p I). assert (M' : isMeson (- p) = true). { apply (C44_meson_anti (- p) I'); [lia|]. rewrite Z.opp_involutive. exact M. }
  destruct (K (- p) I' ltac:(lia) M') as [H|[H|H]]; [rewrite !digit_opp by exact I; exact Q| | |];
  (assert (X : Z.abs p < 10000000); [|destruct (C44_charge (- p) I' ltac:(lia)) as [Y _]; rewrite Z.opp_involutive, H in Y; cbn [rneg Z.opp] in Y; rewrite Y; auto]);
  (revert M; unfold isMeson; rewrite extra_val by exact I; destruct (Z.abs p / 10000000 >? 0) eqn:G; [discriminate|]; intros _; destruct (Z_lt_dec (Z.abs p) 10000000) as [W|W]; [exact W|];
   assert (1 <= Z.abs p / 10000000) by (apply Z.div_le_lower_bound; lia); lia).
Qed.
Lemma baryon_parts p : pid_ok p -> isBaryon p = true -> digit p Nj <> 0 -> extraBits p >? 0 = false /\ 100 < Z.abs p /\ 0 < digit p Nj /\ 0 < digit p Nq3 /\ 0 < digit p Nq2 /\ 0 < digit p Nq1.
Proof.
  intros I. unfold isBaryon. rewrite abs_ok by exact I. destruct (extraBits p >? 0); [discriminate|]. destruct (Z.abs p <=? 100) eqn:L; [discriminate|].
  destruct ((fundamentalID p <=? 100) && (fundamentalID p >? 0)); [discriminate|].
  destruct ((Z.abs p =? 2110) || (Z.abs p =? 2210)) eqn:E1. { intros _ N. exfalso. apply N. rewrite digit_val by (try exact I; unfold Nj; lia). assert (J : Z.abs p = 2110 \/ Z.abs p = 2210) by lia. destruct J as [J|J]; rewrite J; reflexivity. }
  intros H _. b2p. repeat split; lia.
Qed.
(* The charge of a baryon is the sum of the charges of its quarks. *)
Theorem C44_baryon_charge : forall p, pid_ok p -> 0 < p -> isBaryon p = true -> digit p Nj <> 0 -> digit p Nq1 <= 8 -> digit p Nq2 <= 8 -> digit p Nq3 <= 8 ->
  threeCharge p = Ok (qc (digit p Nq1) + qc (digit p Nq2) + qc (digit p Nq3)).
Proof.
  intros p I P M J Q1 Q2 Q3. destruct (baryon_parts p I M J) as (E & L & A1 & A2 & A3 & A4). unfold threeCharge. cbv zeta. rewrite abs_ok by exact I.
  replace (Z.abs p =? 0) with false by lia. rewrite E, not_dyon by exact J. rewrite table_big by assumption. replace (digit p Nj =? 0) with false by lia.
  replace (digit p Nq1 =? 0) with false by lia. replace (digit p Nq1 =? 9) with false by lia. rewrite andb_false_r. cbn [orb]. replace (digit p Nq3 =? 0) with false by lia. rewrite M. cbn [orb].
  rewrite !ch_qc by lia. cbn [rbind]. rewrite signed_pos by exact P. f_equal. lia.
Qed.
Theorem C44_diquark_charge : forall p, pid_ok p -> 0 < p -> isDiQuark p = true -> digit p Nq1 <= 8 -> digit p Nq2 <= 8 -> threeCharge p = Ok (qc (digit p Nq1) + qc (digit p Nq2)).
Proof.
  intros p I P. unfold isDiQuark. rewrite abs_ok by exact I. destruct (extraBits p >? 0) eqn:E; [discriminate|]. destruct (Z.abs p <=? 100) eqn:L; [discriminate|].
  destruct ((fundamentalID p <=? 100) && (fundamentalID p >? 0)); [discriminate|]. intros H Q1 Q2. b2p. unfold threeCharge. cbv zeta. rewrite abs_ok by exact I.
  replace (Z.abs p =? 0) with false by lia. rewrite E, not_dyon by lia. rewrite table_big by (try exact I; lia). replace (digit p Nj =? 0) with false by lia.
  replace (digit p Nq1 =? 0) with false by lia. replace (digit p Nq1 =? 9) with false by lia. rewrite andb_false_r. cbn [orb]. replace (digit p Nq3 =? 0) with true by lia.
  rewrite !ch_qc by lia. cbn [rbind]. rewrite signed_pos by exact P. f_equal. lia.
Qed.
Example C44_hadron_example : isBaryon 3334 = true /\ threeCharge 3334 = Ok (-3) /\ isMeson 521 = true /\ threeCharge 521 = Ok 3 /\ isMeson 20413 = true /\ threeCharge 20413 = Ok 3 /\ isDiQuark 2203 = true /\ threeCharge 2203 = Ok 4.
Proof. repeat split; vm_compute; reflexivity. Qed.

(* ------------------------------------------------------------------ the codes of nuclei and dyons *)
Lemma enc_digit p loc n : pid_ok p -> 1 <= loc -> (Z.abs p / 10 ^ (loc - 1)) mod 10 = n -> digit p loc = n.
Proof. intros. rewrite digit_val by assumption. assumption. Qed.
(* 10LZZZAAAI *)
Theorem C44_nucleus : forall s l z a i, s = 1 \/ s = -1 -> 0 <= l <= 9 -> 0 <= z <= 999 -> 0 <= a <= 999 -> 0 <= i <= 9 ->
  let p := s * (1000000000 + l * 10000000 + z * 10000 + a * 10 + i) in
  A p = a /\ Zn p = z /\ (isNucleus p = true <-> z <= a) /\ isValid p = isNucleus p /\ (z <= a -> lambda p = l /\ threeCharge p = Ok (3 * z)).
Proof.
  intros s l z a i S L Zr Ar Ir p. set (n := 1000000000 + l * 10000000 + z * 10000 + a * 10 + i) in *.
  assert (B : 1000000000 <= n <= 1099999999) by (unfold n; lia).
  assert (I : pid_ok p) by (unfold pid_ok, p; change (2 ^ 63) with 9223372036854775808; destruct S; subst s; lia).
  assert (E : absPID p = n) by (rewrite abs_ok by exact I; unfold p; destruct S; subst s; lia). assert (E' : Z.abs p = n) by (rewrite <- abs_ok; assumption).
  assert (D10 : digit p N10 = 1). { apply enc_digit; [exact I|unfold N10; lia|]. rewrite E'. unfold N10. change (10 ^ (10 - 1)) with 1000000000. replace (n / 1000000000) with 1; [reflexivity|]. apply Z.div_unique with (n - 1000000000); lia. }
  assert (D9 : digit p N9 = 0). { apply enc_digit; [exact I|unfold N9; lia|]. rewrite E'. unfold N9. change (10 ^ (9 - 1)) with 100000000. replace (n / 100000000) with 10; [reflexivity|]. apply Z.div_unique with (n - 1000000000); lia. }
  assert (D8 : digit p N8 = l). { apply enc_digit; [exact I|unfold N8; lia|]. rewrite E'. unfold N8. change (10 ^ (8 - 1)) with 10000000. replace (n / 10000000) with (10 * 10 + l). { rewrite mod_add_l by lia. apply Z.mod_small. lia. } apply Z.div_unique with (z * 10000 + a * 10 + i); unfold n; lia. }
  assert (EA : A p = a). { unfold A. rewrite E, D10, D9. replace (n =? 2212) with false by lia. cbn. rewrite Z.quot_div_nonneg, Z.rem_mod_nonneg by (try lia; apply Z.div_pos; lia).
    replace (n / 10) with ((100000 + l * 1000 + z) * 1000 + a). { rewrite mod_add_l by lia. apply Z.mod_small; lia. } apply Z.div_unique with i; unfold n; lia. }
  assert (EZ : Zn p = z). { unfold Zn. rewrite E, D10, D9. replace (n =? 2212) with false by lia. cbn. rewrite Z.quot_div_nonneg, Z.rem_mod_nonneg by (try lia; apply Z.div_pos; lia).
    replace (n / 10000) with ((100 + l) * 1000 + z). { rewrite mod_add_l by lia. apply Z.mod_small; lia. } apply Z.div_unique with (a * 10 + i); unfold n; lia. }
  assert (EN : isNucleus p = (a >=? z)). { unfold isNucleus. rewrite E, D10, D9, EA, EZ. replace (n =? 2212) with false by lia. reflexivity. }
  assert (EX : extraBits p >? 0 = true). { rewrite extra_val, E' by exact I. assert (1 <= n / 10000000) by (apply Z.div_le_lower_bound; lia). lia. }
  split; [exact EA|]. split; [exact EZ|]. split; [rewrite EN; lia|]. split. { unfold isValid, isQBall. rewrite EX. apply orb_false_r. }
  intros H. split. { unfold lambda. rewrite E. replace (n =? 2212) with false by lia. rewrite EN. replace (a >=? z) with true by lia. exact D8. }
  unfold threeCharge. cbv zeta. rewrite E. replace (n =? 0) with false by lia. rewrite EX, EN. replace (a >=? z) with true by lia. rewrite EZ. reflexivity.
Qed.
Example C44_nucleus_example : A 1000922380 = 238 /\ Zn 1000922380 = 92 /\ isNucleus 1000922380 = true /\ lambda (-1020020040) = 2.
Proof. repeat split; vm_compute; reflexivity. Qed.
(* 411xyz0 and 412xyz0: a monopole of electric charge xyz, when xyz is no multiple of ten. *)
Theorem C44_dyon : forall t xyz, t = 1 \/ t = 2 -> 0 <= xyz <= 999 -> let p := 4100000 + t * 10000 + xyz * 10 in
  (xyz mod 10 <> 0 -> isDyon p = true /\ isValid p = true /\ threeCharge p = Ok (if t =? 1 then 3 * xyz else - (3 * xyz))) /\
  (xyz mod 10 = 0 -> isDyon p = false /\ threeCharge p = Ok 0).
Proof.
  intros t x T X p. assert (B : 4110000 <= p <= 4129990) by (unfold p; lia). assert (I : pid_ok p) by (unfold pid_ok; change (2 ^ 63) with 9223372036854775808; lia).
  assert (E : absPID p = p) by (rewrite abs_ok by exact I; lia). assert (E' : Z.abs p = p) by lia.
  assert (DN : digit p N = 4). { apply enc_digit; [exact I|unfold N; lia|]. rewrite E'. unfold N. change (10 ^ (7 - 1)) with 1000000. replace (p / 1000000) with 4; [reflexivity|]. apply Z.div_unique with (p - 4000000); lia. }
  assert (DR : digit p Nr = 1). { apply enc_digit; [exact I|unfold Nr; lia|]. rewrite E'. unfold Nr. change (10 ^ (6 - 1)) with 100000. replace (p / 100000) with 41; [reflexivity|]. apply Z.div_unique with (p - 4100000); lia. }
  assert (DL : digit p Nl = t). { apply enc_digit; [exact I|unfold Nl; lia|]. rewrite E'. unfold Nl. change (10 ^ (5 - 1)) with 10000. replace (p / 10000) with (41 * 10 + t). { rewrite mod_add_l by lia. apply Z.mod_small; lia. } apply Z.div_unique with (x * 10); unfold p; lia. }
  assert (DJ : digit p Nj = 0). { apply enc_digit; [exact I|unfold Nj; lia|]. rewrite E'. unfold Nj. change (10 ^ (1 - 1)) with 1. rewrite Z.div_1_r. unfold p. replace (4100000 + t * 10000 + x * 10) with ((410000 + t * 1000 + x) * 10) by lia. apply Z.mod_mul. lia. }
  assert (D3 : digit p Nq3 = x mod 10). { apply enc_digit; [exact I|unfold Nq3; lia|]. rewrite E'. unfold Nq3. change (10 ^ (2 - 1)) with 10. unfold p. replace (4100000 + t * 10000 + x * 10) with ((410000 + t * 1000 + x) * 10) by lia. rewrite Z.div_mul by lia.
    replace (410000 + t * 1000 + x) with ((41000 + t * 100) * 10 + x) by lia. apply mod_add_l. lia. }
  assert (EX : extraBits p >? 0 = false). { rewrite extra_val, E' by exact I. rewrite Z.div_small by lia. reflexivity. }
  assert (DY : isDyon p = negb (x mod 10 =? 0)). { unfold isDyon. rewrite EX, DN, DR, DL, DJ, D3. destruct T; subst t; cbn; destruct (x mod 10 =? 0); reflexivity. }
  split; intros M.
  - assert (Y : isDyon p = true) by (rewrite DY; lia). split; [exact Y|]. split. { unfold isValid. rewrite EX, Y. rewrite !orb_true_r. reflexivity. }
    unfold threeCharge. cbv zeta. rewrite E, EX, Y, DL. replace (p =? 0) with false by lia. rewrite signed_pos by lia. rewrite Z.quot_div_nonneg, Z.rem_mod_nonneg by (try lia; apply Z.div_pos; lia).
    assert (V : (p / 10) mod 1000 = x). { replace (p / 10) with ((410 + t) * 1000 + x). { rewrite mod_add_l by lia. apply Z.mod_small; lia. } apply Z.div_unique with 0; unfold p; lia. }
    rewrite V. destruct T; subst t; reflexivity.
  - assert (Y : isDyon p = false) by (rewrite DY; lia). split; [exact Y|]. unfold threeCharge. cbv zeta. rewrite E, EX, Y, DJ. replace (p =? 0) with false by lia. rewrite table_big by (try exact I; lia). reflexivity.
Qed.
Example C44_dyon_refuted : isDyon 4110100 = false /\ threeCharge 4110100 = Ok 0 /\ threeCharge 4110110 = Ok 33.
Proof. repeat split; vm_compute; reflexivity. Qed.
(* The codes 100xxxx0 of Q-balls are never recognised. *)
Theorem C44_qball_refuted : forall x, 0 <= x <= 9999 -> let p := 10000000 + x * 10 in isQBall p = false /\ isValid p = false /\ threeCharge p = Ok 0.
Proof.
  intros x X p. assert (B : 10000000 <= p <= 10099990) by (unfold p; lia). assert (I : pid_ok p) by (unfold pid_ok; change (2 ^ 63) with 9223372036854775808; lia).
  assert (E : absPID p = p) by (rewrite abs_ok by exact I; lia). assert (E' : Z.abs p = p) by lia.
  assert (EX : extraBits p >? 0 = true). { rewrite extra_val, E' by exact I. assert (1 <= p / 10000000) by (apply Z.div_le_lower_bound; lia). lia. }
  assert (D10 : digit p N10 = 0). { apply enc_digit; [exact I|unfold N10; lia|]. rewrite E'. unfold N10. rewrite Z.div_small; [reflexivity|]. change (10 ^ (10 - 1)) with 1000000000. lia. }
  assert (Q : isQBall p = false) by (unfold isQBall; rewrite EX; reflexivity). assert (NU : isNucleus p = false) by (unfold isNucleus; rewrite E, D10; replace (p =? 2212) with false by lia; reflexivity).
  split; [exact Q|]. split; [unfold isValid; rewrite EX, NU, Q; reflexivity|]. unfold threeCharge. cbv zeta. rewrite E, EX, NU, Q. replace (p =? 0) with false by lia. reflexivity.
Qed.

(* ------------------------------------------------------------------ when the charge panics *)
Lemma ch_ok d : 0 <= d <= 9 -> (d = 0 -> ch (d - 1) = Panic) /\ (d <> 0 -> exists c, ch (d - 1) = Ok c).
Proof. intros H. split; intros; [subst; reflexivity|]. unfold ch. replace ((d - 1 <? 0) || (100 <=? d - 1)) with false by lia. eauto. Qed.
Lemma rhadron_nz p : isRhadron p = true -> digit p Nq2 <> 0 /\ digit p Nq3 <> 0 /\ digit p Nj <> 0.
Proof. unfold isRhadron. repeat match goal with |- context [if ?b then _ else _] => destruct b eqn:?; try discriminate end. lia. Qed.
Theorem C44_panic : forall p, pid_ok p -> threeCharge p = Panic <->
  100 < Z.abs p < 10000000 /\ digit p Nj <> 0 /\ (digit p Nq1 = 0 /\ (digit p Nq2 = 0 \/ digit p Nq3 = 0) \/ digit p Nq1 <> 0 /\ digit p Nq2 = 0 /\ digit p Nq3 = 0).
Proof.
  intros p I. unfold threeCharge. cbv zeta. rewrite abs_ok by exact I. pose proof (digit_range p Nq1 I) as R1. pose proof (digit_range p Nq2 I) as R2. pose proof (digit_range p Nq3 I) as R3.
  specialize (R1 ltac:(unfold Nq1; lia)). specialize (R2 ltac:(unfold Nq2; lia)). specialize (R3 ltac:(unfold Nq3; lia)).
  destruct (ch_ok (digit p Nq1) ltac:(lia)) as [P1 O1]. destruct (ch_ok (digit p Nq2) ltac:(lia)) as [P2 O2]. destruct (ch_ok (digit p Nq3) ltac:(lia)) as [P3 O3].
  destruct (Z.eqb_spec (Z.abs p) 0) as [Z0|Z0]. { split; [discriminate|lia]. }
  destruct (extraBits p >? 0) eqn:EX.
  { rewrite extra_val in EX by exact I. split. { destruct (isNucleus p); [discriminate|]. destruct (isQBall p); discriminate. } intros (H & _). rewrite Z.div_small in EX by lia. discriminate. }
  assert (L : Z.abs p < 10000000). { destruct (Z_lt_dec (Z.abs p) 10000000) as [W|W]; [exact W|]. rewrite extra_val in EX by exact I. assert (1 <= Z.abs p / 10000000) by (apply Z.div_le_lower_bound; lia). lia. }
  destruct (isDyon p) eqn:DY. { split; [discriminate|]. intros (_ & H & _). rewrite not_dyon in DY by exact H. discriminate. }
  destruct ((fundamentalID p >? 0) && (fundamentalID p <=? 100)) eqn:F.
  { split. { unfold ch. replace ((fundamentalID p - 1 <? 0) || (100 <=? fundamentalID p - 1)) with false by lia. discriminate. } intros (H & _). rewrite table_big in F by (try exact I; lia). discriminate. }
  assert (L2 : 100 < Z.abs p). { destruct (Z_lt_dec 100 (Z.abs p)) as [W|W]; [exact W|]. exfalso. revert F. unfold fundamentalID. rewrite !digit_val, abs_ok by (try exact I; unfold N10, Nq2, N9, Nq1; lia).
    unfold N10, Nq2, Nq1. change (10 ^ (10 - 1)) with 1000000000. change (10 ^ (4 - 1)) with 1000. change (10 ^ (3 - 1)) with 100. rewrite (Z.div_small (Z.abs p) 1000000000) by lia. change (0 mod 10 =? 1) with false. cbn [andb].
    replace ((Z.abs p / 100) mod 10 =? 2) with false. { cbn [andb]. replace (Z.abs p <=? 102) with true by lia. lia. }
    assert (Z.abs p / 100 < 2) by (apply Z.div_lt_upper_bound; lia). assert (0 <= Z.abs p / 100) by (apply Z.div_pos; lia). rewrite Z.mod_small by lia. lia. }
  destruct (Z.eqb_spec (digit p Nj) 0) as [J|J]. { split; [discriminate|]. intros (_ & H & _). contradiction. }
  destruct ((digit p Nq1 =? 0) || (isRhadron p && (digit p Nq1 =? 9))) eqn:M.
  { assert (W : (do a <- ch (digit p Nq3 - 1); do b <- ch (digit p Nq2 - 1); Ok (signed p (a - b))) = Panic <-> digit p Nq2 = 0 \/ digit p Nq3 = 0).
    { destruct (Z.eq_dec (digit p Nq3) 0) as [Y3|Y3]; [rewrite P3 by exact Y3; cbn; clear -Y3; tauto|]. destruct (O3 Y3) as [c3 ->]. cbn [rbind].
      destruct (Z.eq_dec (digit p Nq2) 0) as [Y2|Y2]; [rewrite P2 by exact Y2; cbn; clear -Y2; tauto|]. destruct (O2 Y2) as [c2 ->]. cbn [rbind]. split; [discriminate|clear -Y2 Y3; tauto]. }
    assert (W' : (do a <- ch (digit p Nq2 - 1); do b <- ch (digit p Nq3 - 1); Ok (signed p (a - b))) = Panic <-> digit p Nq2 = 0 \/ digit p Nq3 = 0).
    { destruct (Z.eq_dec (digit p Nq3) 0) as [Y3|Y3]; [rewrite P3 by exact Y3; destruct (ch (digit p Nq2 - 1)); cbn; clear -Y3; tauto|]. destruct (O3 Y3) as [c3 ->]. cbn [rbind].
      destruct (Z.eq_dec (digit p Nq2) 0) as [Y2|Y2]; [rewrite P2 by exact Y2; cbn; clear -Y2; tauto|]. destruct (O2 Y2) as [c2 ->]. cbn [rbind]. split; [discriminate|clear -Y2 Y3; tauto]. }
    assert (V : digit p Nq1 = 0 \/ digit p Nq2 <> 0 /\ digit p Nq3 <> 0 /\ digit p Nq1 <> 0). { destruct (Z.eqb_spec (digit p Nq1) 0); [auto|]. right. cbn [orb] in M. b2p. destruct (rhadron_nz p); [assumption|]. intuition. }
    assert (U : digit p Nq2 = 0 \/ digit p Nq3 = 0 <-> 100 < Z.abs p < 10000000 /\ digit p Nj <> 0 /\ (digit p Nq1 = 0 /\ (digit p Nq2 = 0 \/ digit p Nq3 = 0) \/ digit p Nq1 <> 0 /\ digit p Nq2 = 0 /\ digit p Nq3 = 0)) by (clear -V J L L2; tauto).
    destruct ((digit p Nq2 =? 3) || (digit p Nq2 =? 5)); [rewrite W|rewrite W']; exact U. }
  assert (N1 : digit p Nq1 <> 0) by lia. destruct (Z.eqb_spec (digit p Nq3) 0) as [Y3|Y3].
  { destruct (O1 N1) as [c1 ->]. destruct (Z.eq_dec (digit p Nq2) 0) as [Y2|Y2]; [rewrite P2 by exact Y2; cbn [rbind]; intuition lia|]. destruct (O2 Y2) as [c2 ->]. cbn [rbind]. split; [discriminate|]. intuition lia. }
  split; [|intuition lia]. destruct (isBaryon p || (isRhadron p && (digit p Nl =? 9))) eqn:BB; [|discriminate].
  destruct (O1 N1) as [c1 ->]. destruct (O3 Y3) as [c3 ->]. cbn [rbind]. destruct (Z.eq_dec (digit p Nq2) 0) as [Y2|Y2]; [|destruct (O2 Y2) as [c2 ->]; discriminate].
  exfalso. apply orb_true_iff in BB. destruct BB as [BB|BB]; [destruct (baryon_parts p I BB J); lia|]. b2p. destruct (rhadron_nz p); [assumption|]. lia.
Qed.
(* The charge of the geantinos and of the supersymmetric particles is never given: the table is indexed with -1. *)
Theorem C44_panic_refuted : (forall p, p = 101 \/ p = 102 -> isValid p = true /\ threeCharge p = Panic) /\
  (forall n f, n = 1 \/ n = 2 -> 0 < f < 100 -> f mod 10 <> 0 -> let p := n * 1000000 + f in isSUSY p = false /\ isValid p = false /\ threeCharge p = Panic).
Proof.
  split. { intros p [->| ->]; split; vm_compute; reflexivity. }
  intros n f H F M p. assert (B : p = 1000000 + f \/ p = 2000000 + f) by (unfold p; destruct H; subst; lia).
  assert (I : pid_ok p) by (unfold pid_ok; change (2 ^ 63) with 9223372036854775808; lia). assert (E' : Z.abs p = p) by lia.
  assert (D1 : digit p Nq1 = 0). { apply enc_digit; [exact I|unfold Nq1; lia|]. rewrite E'. unfold Nq1. change (10 ^ (4 - 1)) with 1000. replace (p / 1000) with (n * 100 * 10). { apply Z.mod_mul. lia. } apply Z.div_unique with f; unfold p; lia. }
  assert (D2 : digit p Nq2 = 0). { apply enc_digit; [exact I|unfold Nq2; lia|]. rewrite E'. unfold Nq2. change (10 ^ (3 - 1)) with 100. replace (p / 100) with (n * 1000 * 10). { apply Z.mod_mul. lia. } apply Z.div_unique with f; unfold p; lia. }
  assert (DJ : digit p Nj = f mod 10). { apply enc_digit; [exact I|unfold Nj; lia|]. rewrite E'. unfold Nj. change (10 ^ (1 - 1)) with 1. rewrite Z.div_1_r. unfold p. replace (n * 1000000 + f) with ((n * 100000) * 10 + f) by lia. apply mod_add_l. lia. }
  assert (FI : fundamentalID p = 0). { unfold fundamentalID. rewrite D2, D1, abs_ok, E' by exact I. cbn [Z.eqb andb]. replace (p <=? 102) with false by lia. destruct (_ && _); reflexivity. }
  assert (SU : isSUSY p = false). { unfold isSUSY. rewrite FI. repeat match goal with |- context [if ?b then _ else _] => destruct b end; reflexivity. }
  assert (EX : extraBits p >? 0 = false). { rewrite extra_val, E' by exact I. rewrite Z.div_small by lia. reflexivity. }
  assert (DN : digit p N = n). { apply enc_digit; [exact I|unfold N; lia|]. rewrite E'. unfold N. change (10 ^ (7 - 1)) with 1000000. replace (p / 1000000) with n. { apply Z.mod_small. lia. } apply Z.div_unique with f; unfold p; lia. }
  split; [exact SU|]. split.
  - unfold isValid. rewrite EX, SU, FI. unfold isRhadron, isMeson, isBaryon, isDiQuark, isPentaquark. rewrite not_dyon by lia. rewrite EX, D2, D1, DN, SU. rewrite abs_ok, E' by exact I.
    replace (negb (n =? 9)) with true by lia. rewrite !andb_false_r.
    replace (p =? 130) with false by lia. replace (p =? 310) with false by lia. replace (p =? 210) with false by lia. replace (p =? 150) with false by lia. replace (p =? 350) with false by lia. replace (p =? 510) with false by lia. replace (p =? 530) with false by lia.
    replace (p =? 110) with false by lia. replace (p =? 990) with false by lia. replace (p =? 9990) with false by lia. replace (p =? 2110) with false by lia. replace (p =? 2210) with false by lia. cbn.
    repeat match goal with |- context [if ?b then _ else _] => destruct b end; reflexivity.
  - apply C44_panic; [exact I|]. split; [lia|]. split; [lia|]. left. auto.
Qed.

(* ------------------------------------------------------------------ quark contents *)
(* The flavours of a baryon are its quark digits (for a pentaquark, also the two digits before). *)
Theorem C44_has : forall p q, pid_ok p -> isBaryon p = true -> isRhadron p = false -> 0 < q ->
  has q p = true <-> digit p Nq1 = q \/ digit p Nq2 = q \/ digit p Nq3 = q \/ isPentaquark p = true /\ (digit p Nl = q \/ digit p Nr = q).
Proof.
  intros p q I M R Q. assert (EX : extraBits p >? 0 = false) by (revert M; unfold isBaryon; destruct (extraBits p >? 0); [discriminate|reflexivity]).
  assert (K : fundamentalID p >? 0 = false /\ isDyon p = false).
  { destruct (Z.eq_dec (digit p Nj) 0) as [J|J].
    - assert (C : Z.abs p = 2110 \/ Z.abs p = 2210). { revert M. unfold isBaryon. rewrite EX, J, abs_ok by exact I. cbn [Z.gtb Z.compare andb]. repeat match goal with |- context [if ?b then _ else _] => destruct b eqn:?; try discriminate end. lia. }
      assert (C' : p = 2110 \/ p = -2110 \/ p = 2210 \/ p = -2210) by lia. destruct C' as [C'|[C'|[C'|C']]]; subst p; vm_compute; auto.
    - destruct (baryon_parts p I M J) as (_ & L & _ & _ & _ & N1). split; [|apply not_dyon, J]. unfold fundamentalID. replace (digit p Nq1 =? 0) with false by lia. rewrite andb_false_r.
      destruct (_ && _); [reflexivity|]. rewrite abs_ok by exact I. destruct (Z.abs p <=? 102) eqn:S; [|reflexivity]. exfalso.
      rewrite digit_val in N1 by (try exact I; unfold Nq1; lia). unfold Nq1 in N1. change (10 ^ (4 - 1)) with 1000 in N1. rewrite Z.div_small in N1 by lia. cbn in N1. lia. }
  destruct K as [K1 K2]. unfold has, findQ. rewrite EX, K1, K2, R.
  destruct (Z.eqb_spec (digit p Nq3) q), (Z.eqb_spec (digit p Nq2) q), (Z.eqb_spec (digit p Nq1) q); cbn [orb]; try (split; [auto|reflexivity]).
  destruct (isPentaquark p); cbn [andb]; [|intuition discriminate]. destruct (Z.eqb_spec (digit p Nl) q), (Z.eqb_spec (digit p Nr) q); cbn [orb]; intuition congruence.
Qed.
(* A meson whose digit Nq2 is 2, such as the pions and the rho, contains no quark at all. *)
Theorem C44_pion_refuted : forall p q, pid_ok p -> digit p Nq2 = 2 -> digit p Nq1 = 0 -> Z.abs p < 10000000 -> has q p = false.
Proof.
  intros p q I D2 D1 L. unfold has. destruct (extraBits p >? 0); [reflexivity|]. assert (F : fundamentalID p >? 0 = true); [|rewrite F; reflexivity].
  unfold fundamentalID. rewrite D2, D1. assert (D10 : digit p N10 = 0). { rewrite digit_val by (try exact I; unfold N10; lia). unfold N10. change (10 ^ (10 - 1)) with 1000000000. rewrite Z.div_small by lia. reflexivity. }
  rewrite D10. change (0 =? 1) with false. change (2 =? 2) with true. change (0 =? 0) with true. cbn [andb]. rewrite abs_ok, Z.rem_mod_nonneg by (try exact I; lia). pose proof (Z.mod_pos_bound (Z.abs p) 10000 ltac:(lia)).
  destruct (Z.eq_dec (Z.abs p mod 10000) 0) as [E|E]; [|lia]. exfalso. rewrite digit_val in D2 by (try exact I; unfold Nq2; lia). unfold Nq2 in D2. change (10 ^ (3 - 1)) with 100 in D2.
  rewrite (Z.div_mod (Z.abs p) 10000), E, Z.add_0_r in D2 by lia. replace (10000 * (Z.abs p / 10000)) with (10 * (Z.abs p / 10000) * 10 * 100) in D2 by lia. rewrite Z.div_mul, Z.mod_mul in D2 by lia. discriminate.
Qed.
Example C44_has_example : has 2 2212 = true /\ has 1 2212 = true /\ has 3 2212 = false /\ has 5 521 = true /\ has 2 211 = false /\ has 1 211 = false /\ isMeson 211 = true.
Proof. repeat split; vm_compute; reflexivity. Qed.
(* No id is of two of the kinds meson, baryon, diquark. *)
Theorem C44_exclusive : forall p, pid_ok p -> (isMeson p && isBaryon p = false) /\ (isMeson p && isDiQuark p = false) /\ (isBaryon p && isDiQuark p = false).
Proof.
  intros p I. destruct (Z.eq_dec (digit p Nj) 0) as [J|J].
  - assert (DQ : isDiQuark p = false) by (unfold isDiQuark; rewrite J; cbn [Z.gtb Z.compare andb]; repeat match goal with |- context [if ?b then _ else _] => destruct b end; reflexivity).
    rewrite DQ, !andb_false_r. split; [|auto]. destruct (isBaryon p) eqn:B; [|apply andb_false_r].
    assert (C : Z.abs p = 2110 \/ Z.abs p = 2210). { revert B. unfold isBaryon. rewrite J, abs_ok by exact I. cbn [Z.gtb Z.compare andb]. repeat match goal with |- context [if ?b then _ else _] => destruct b eqn:?; try discriminate end. lia. }
    assert (C' : p = 2110 \/ p = -2110 \/ p = 2210 \/ p = -2210) by lia. destruct C' as [C'|[C'|[C'|C']]]; subst p; vm_compute; auto.
  - assert (D : isDiQuark p = true -> digit p Nq3 = 0 /\ 0 < digit p Nq1). { unfold isDiQuark. repeat match goal with |- context [if ?b then _ else _] => destruct b eqn:?; try discriminate end. lia. }
    destruct (isMeson p) eqn:M; [destruct (meson_parts p I M J) as (_ & _ & _ & M3 & _ & M1)|]; (destruct (isBaryon p) eqn:B; [destruct (baryon_parts p I B J) as (_ & _ & _ & B3 & _ & B1)|]); (destruct (isDiQuark p); [destruct (D eq_refl)|]); cbn; repeat split; lia.
Qed.

(* ------------------------------------------------------------------ elementary particles, spins, pentaquarks *)
(* Three times the charge of the particles 1 to 18, 21 to 25 and 37 of the numbering scheme: quarks, leptons (odd: charged), gluon,
   photon, Z, W+, Higgs, charged Higgs. *)
Definition elementary (n : Z) : Z :=
  if n <=? 8 then qc n else if n <=? 18 then (if Z.even n then 0 else -3) else if (n =? 24) || (n =? 37) then 3 else 0.
Definition listed (n : Z) : Prop := 1 <= n <= 8 \/ 11 <= n <= 18 \/ 21 <= n <= 25 \/ n = 37.
Lemma small_cases (P : Z -> Prop) : (forall k, (k < 100)%nat -> P (Z.of_nat k + 1)) -> forall n, 1 <= n <= 100 -> P n.
Proof. intros H n N. specialize (H (Z.to_nat (n - 1)) ltac:(lia)). replace (Z.of_nat (Z.to_nat (n - 1)) + 1) with n in H by lia. exact H. Qed.
Theorem C44_elementary : forall n, listed n -> threeCharge n = Ok (elementary n) /\ threeCharge (- n) = Ok (- elementary n) /\
  isLepton n = ((11 <=? n) && (n <=? 18)) /\ isLepton (- n) = isLepton n /\ isMeson n = false /\ isBaryon n = false.
Proof.
  intros n L. assert (C : In n ([1;2;3;4;5;6;7;8] ++ [11;12;13;14;15;16;17;18] ++ [21;22;23;24;25;37])) by (unfold listed in L; cbn [In app]; lia).
  clear L. revert n C. apply Forall_forall. repeat (apply Forall_cons; [vm_compute; repeat split; reflexivity|]). apply Forall_nil.
Qed.
Example C44_elementary_example : threeCharge 13 = Ok (-3) /\ threeCharge (-13) = Ok 3 /\ isLepton 14 = true /\ isLepton 22 = false.
Proof. repeat split; vm_compute; reflexivity. Qed.
(* no other id up to 100 is a lepton *)
Theorem C44_lepton : forall p, 1 <= Z.abs p <= 100 -> (isLepton p = true <-> 11 <= Z.abs p <= 18).
Proof.
  assert (A : forall n, 1 <= n <= 100 -> isLepton n = ((11 <=? n) && (n <=? 18)) /\ isLepton (- n) = ((11 <=? n) && (n <=? 18))).
  { apply small_cases. intros k K. do 100 (destruct k as [|k]; [vm_compute; split; reflexivity|]). lia. }
  intros p B. destruct (A (Z.abs p) B) as [A1 A2]. assert (C : isLepton p = ((11 <=? Z.abs p) && (Z.abs p <=? 18))).
  { destruct (Z_le_dec 0 p); [rewrite <- A1|rewrite <- A2]; f_equal; lia. }
  rewrite C. lia.
Qed.
Example C44_lepton_example : isLepton 18 = true /\ isLepton 19 = false /\ isLepton (-11) = true /\ isLepton 10 = false.
Proof. repeat split; vm_compute; reflexivity. Qed.
(* The last digit of a hadron is 2J+1; quarks and leptons of three families have 2, gauge bosons 3. *)
Theorem C44_spin : (forall p, pid_ok p -> 100 < Z.abs p < 10000000 -> jSpin p = Z.abs p mod 10) /\
  (forall n, 1 <= n <= 6 \/ 11 <= n <= 16 -> jSpin n = 2 /\ jSpin (- n) = 2) /\ (forall n, 21 <= n <= 24 -> jSpin n = 3 /\ jSpin (- n) = 3).
Proof.
  split; [|split].
  - intros p I B. unfold jSpin. cbv zeta. rewrite (table_big p I) by lia. rewrite extra_val, abs_ok by exact I. rewrite Z.div_small by lia. cbn [Z.gtb Z.compare]. apply Z.rem_mod_nonneg; lia.
  - intros n C. assert (D : In n [1;2;3;4;5;6;11;12;13;14;15;16]) by (cbn [In]; lia). clear C. revert n D. apply Forall_forall. repeat (apply Forall_cons; [vm_compute; split; reflexivity|]). apply Forall_nil.
  - intros n C. assert (D : In n [21;22;23;24]) by (cbn [In]; lia). clear C. revert n D. apply Forall_forall. repeat (apply Forall_cons; [vm_compute; split; reflexivity|]). apply Forall_nil.
Qed.
Example C44_spin_example : jSpin 213 = 3 /\ jSpin (-2224) = 4 /\ jSpin 11 = 2 /\ jSpin 22 = 3.
Proof. repeat split; vm_compute; reflexivity. Qed.
(* quarks and leptons of a fourth family are given no spin *)
Theorem C44_fourth_refuted : forall n, n = 7 \/ n = 8 \/ n = 17 \/ n = 18 -> isValid n = true /\ jSpin n = 0.
Proof. intros n [E|[E|[E|E]]]; subst n; vm_compute; auto. Qed.
(* L and S of a meson of spin J (last digit 2J+1), from the fifth digit t: 0 is L = J-1, S = 1; 1 is L = J, S = 0; 2 is L = J, S = 1; 3 is
   L = J+1, S = 1.  With J = 0: 0 is L = 0, S = 0 and 1 is L = 1, S = 1. *)
Definition LS (t J : Z) : Z * Z :=
  if J =? 0 then (if t =? 0 then (0, 0) else (1, 1))
  else if t =? 0 then (J - 1, 1) else if t =? 1 then (J, 0) else if t =? 2 then (J, 1) else (J + 1, 1).
Theorem C44_LS : forall p t J, pid_ok p -> isMeson p = true -> (Z.abs p / 1000000) mod 10 <> 9 -> (Z.abs p / 10000) mod 10 = t -> Z.abs p mod 10 = 2 * J + 1 ->
  0 <= J <= 4 -> 0 <= t <= 3 -> (J = 0 -> t <= 1) ->
  (lSpin p, sSpin p) = LS t J /\ Z.abs (lSpin p - sSpin p) <= J <= lSpin p + sSpin p.
Proof.
  intros p t J I M T9 ET EJ BJ BT B0. unfold lSpin, sSpin. rewrite M, abs_ok by exact I. cbn [negb]. cbv zeta.
  rewrite !Z.quot_div_nonneg by lia. rewrite !Z.rem_mod_nonneg by (try lia; apply Z.div_pos; lia).
  replace ((Z.abs p / 1000000) mod 10 =? 9) with false by lia. rewrite ET, EJ.
  assert (CJ : J = 0 \/ J = 1 \/ J = 2 \/ J = 3 \/ J = 4) by lia. assert (CT : t = 0 \/ t = 1 \/ t = 2 \/ t = 3) by lia.
  clear ET EJ T9. destruct CJ as [CJ|[CJ|[CJ|[CJ|CJ]]]]; destruct CT as [CT|[CT|[CT|CT]]]; subst J t; try (exfalso; lia); split; first [reflexivity | vm_compute; split; discriminate].
Qed.
Example C44_LS_example : isMeson 30113 = true /\ (lSpin 30113, sSpin 30113) = (2, 1) /\ (lSpin 10113, sSpin 10113) = (1, 0) /\ isMeson 10111 = true /\ (lSpin 10111, sSpin 10111) = (1, 1) /\ (lSpin (-315), sSpin (-315)) = (1, 1).
Proof. repeat split; vm_compute; reflexivity. Qed.
(* An id of seven digits 9 r l a b c j is a pentaquark exactly when its quarks r >= l >= a >= b and c are there, r is not 9, and j is neither 0 nor 9. *)
Theorem C44_pentaquark : forall p r l a b c j, Forall (fun d => 0 <= d < 10) [r; l; a; b; c; j] -> p = dec [j; c; b; a; l; r; 9] \/ p = - dec [j; c; b; a; l; r; 9] ->
  (isPentaquark p = true <-> 1 <= b <= a /\ a <= l <= r /\ r <= 8 /\ 1 <= c /\ 1 <= j <= 8).
Proof.
  intros p r l a b c j F E. assert (F' : Forall (fun d => 0 <= d < 10) [j; c; b; a; l; r; 9]).
  { repeat match goal with H : Forall _ (_ :: _) |- _ => apply Forall_cons_iff in H; destruct H end. repeat (apply Forall_cons; [lia|]). apply Forall_nil. }
  repeat match goal with H : Forall _ (_ :: _) |- _ => lazymatch type of H with Forall _ [r; l; a; b; c; j] => apply Forall_cons_iff in H; destruct H as [? H] | Forall _ [l; a; b; c; j] => apply Forall_cons_iff in H; destruct H as [? H] | Forall _ [a; b; c; j] => apply Forall_cons_iff in H; destruct H as [? H] | Forall _ [b; c; j] => apply Forall_cons_iff in H; destruct H as [? H] | Forall _ [c; j] => apply Forall_cons_iff in H; destruct H as [? H] | Forall _ [j] => apply Forall_cons_iff in H; destruct H as [? H] end end.
  assert (V : dec [j; c; b; a; l; r; 9] = j + 10 * c + 100 * b + 1000 * a + 10000 * l + 100000 * r + 9000000) by (cbn [dec fold_right]; lia).
  assert (I : pid_ok p) by (unfold pid_ok; change (2 ^ 63) with 9223372036854775808; lia).
  assert (X : extraBits p >? 0 = false) by (rewrite extra_val by exact I; rewrite Z.div_small by lia; reflexivity).
  pose proof (fun n => C44_digit _ p n F' E I) as D. unfold isPentaquark. rewrite X. unfold Nj, Nq3, Nq2, Nq1, Nl, Nr, N.
  rewrite (D 1), (D 2), (D 3), (D 4), (D 5), (D 6), (D 7) by lia. clear D.
  change (Z.to_nat 1 - 1)%nat with 0%nat. change (Z.to_nat 2 - 1)%nat with 1%nat. change (Z.to_nat 3 - 1)%nat with 2%nat. change (Z.to_nat 4 - 1)%nat with 3%nat.
  change (Z.to_nat 5 - 1)%nat with 4%nat. change (Z.to_nat 6 - 1)%nat with 5%nat. change (Z.to_nat 7 - 1)%nat with 6%nat. cbn [nth]. change (9 =? 9) with true. cbn [negb].
  repeat match goal with |- context [if ?b then _ else _] => destruct b eqn:?; [split; [discriminate|lia]|] end. split; [lia|reflexivity].
Qed.
Example C44_pentaquark_example : isPentaquark 9221132 = true /\ isPentaquark 9441224 = false /\ isPentaquark (-9442214) = true /\ dec [2; 3; 1; 1; 2; 2; 9] = 9221132.
Proof. repeat split; vm_compute; reflexivity. Qed.
Print Assumptions C44_digit.
Print Assumptions C44_least_refuted.
Print Assumptions C44_sign.
Print Assumptions C44_meson_anti.
Print Assumptions C44_hadron_anti.
Print Assumptions C44_valid_anti.
Print Assumptions C44_charge.
Print Assumptions C44_antinucleus_refuted.
Print Assumptions C44_meson_charge.
Print Assumptions C44_meson_integral.
Print Assumptions C44_baryon_charge.
Print Assumptions C44_diquark_charge.
Print Assumptions C44_nucleus.
Print Assumptions C44_dyon.
Print Assumptions C44_qball_refuted.
Print Assumptions C44_panic.
Print Assumptions C44_panic_refuted.
Print Assumptions C44_has.
Print Assumptions C44_pion_refuted.
Print Assumptions C44_exclusive.
Print Assumptions C44_elementary.
Print Assumptions C44_lepton.
Print Assumptions C44_spin.
Print Assumptions C44_fourth_refuted.
Print Assumptions C44_LS.
Print Assumptions C44_pentaquark.
