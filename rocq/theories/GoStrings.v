(* Strings (byte lists) and the pieces of Go's strings/strconv packages used by several models. *)
From Coq Require Import ZArith List Lia Bool.
From Verif Require Import Bytes.
Import ListNotations.
Local Open Scope Z_scope.

Definition str := list Z.
Fixpoint str_eqb (a b : str) : bool :=
  match a, b with
  | [], [] => true
  | x :: a', y :: b' => (x =? y) && str_eqb a' b'
  | _, _ => false
  end.
Lemma str_eqb_spec a b : reflect (a = b) (str_eqb a b).
Proof.
  apply iff_reflect. revert b; induction a as [|x a IH]; intros [|y b]; simpl; split; intros H; try discriminate; auto.
  - injection H as -> ->. rewrite Z.eqb_refl. apply IH; auto.
  - apply andb_true_iff in H as [E H]. apply Z.eqb_eq in E. f_equal; auto. now apply IH.
Qed.
Lemma str_eqb_refl a : str_eqb a a = true.
Proof. destruct (str_eqb_spec a a); auto. Qed.
Lemma str_eqb_sym a b : str_eqb a b = str_eqb b a.
Proof. destruct (str_eqb_spec a b), (str_eqb_spec b a); congruence. Qed.
Definition str_dec (a b : str) : {a = b} + {a <> b} := list_eq_dec Z.eq_dec a b.

Definition has_byte (c : Z) (s : str) : bool := existsb (Z.eqb c) s.
Lemma has_byte_spec c s : has_byte c s = true <-> In c s.
Proof.
  unfold has_byte. rewrite existsb_exists. split.
  - intros (x & I & E). apply Z.eqb_eq in E. now subst.
  - intros I. exists c. split; auto. apply Z.eqb_refl.
Qed.

(* strings.Split(s, sep) for a one-byte separator *)
Fixpoint split (sep : Z) (s : str) : list str :=
  match s with
  | [] => [[]]
  | c :: s' =>
      if c =? sep then [] :: split sep s'
      else match split sep s' with
           | h :: t => (c :: h) :: t
           | [] => [[c]]
           end
  end.
Lemma split_nonempty sep s : split sep s <> [].
Proof. destruct s; simpl; [discriminate|]. destruct (_ =? _); [discriminate|]. destruct (split sep s); discriminate. Qed.
Lemma split_nosep sep s : ~ In sep s -> split sep s = [s].
Proof.
  induction s as [|c s IH]; simpl; intros H; auto.
  destruct (Z.eqb_spec c sep); [tauto|]. rewrite IH by tauto. auto.
Qed.
Lemma split_cons sep a b : ~ In sep a -> split sep (a ++ sep :: b) = a :: split sep b.
Proof.
  induction a as [|c a IH]; simpl; intros H.
  - now rewrite Z.eqb_refl.
  - destruct (Z.eqb_spec c sep); [tauto|]. rewrite IH by tauto. auto.
Qed.
(* strings.Join *)
Fixpoint join (sep : Z) (l : list str) : str :=
  match l with
  | [] => []
  | [a] => a
  | a :: l' => a ++ sep :: join sep l'
  end.
Lemma join_cons sep a l : l <> [] -> join sep (a :: l) = a ++ sep :: join sep l.
Proof. destruct l; [congruence|reflexivity]. Qed.
Lemma split_join sep l : l <> [] -> Forall (fun s => ~ In sep s) l -> split sep (join sep l) = l.
Proof.
  induction l as [|a l IH]; intros N F; [congruence|]. inversion F; subst.
  destruct l as [|b l].
  - simpl. now apply split_nosep.
  - rewrite join_cons by discriminate. rewrite split_cons, IH by (auto; discriminate). auto.
Qed.
Lemma join_split sep s : join sep (split sep s) = s.
Proof.
  induction s as [|c s IH]; simpl; auto. pose proof (split_nonempty sep s) as N.
  destruct (Z.eqb_spec c sep) as [->|].
  - rewrite join_cons by auto. now rewrite IH.
  - destruct (split sep s) as [|h t]; [congruence|]. destruct t; simpl in *; congruence.
Qed.

(* ---- decimal integers ---- *)
Definition is_digit (c : Z) : bool := (48 <=? c) && (c <=? 57).
Fixpoint udec_fuel (fuel : nat) (n : Z) : str :=
  match fuel with
  | O => []
  | S k => if n <? 10 then [48 + n] else udec_fuel k (n / 10) ++ [48 + n mod 10]
  end.
(* decimal digits of a non-negative integer *)
Definition udec (n : Z) : str := udec_fuel (S (Z.to_nat (Z.log2 n))) n.
(* strconv.Itoa / fmt %d *)
Definition itoa (n : Z) : str := if n <? 0 then 45 :: udec (- n) else udec n.

Definition dec_step (acc : option Z) (c : Z) : option Z :=
  match acc with Some v => if is_digit c then Some (10 * v + (c - 48)) else None | None => None end.
(* one or more digits *)
Definition parse_udec (s : str) : option Z :=
  match s with [] => None | _ => fold_left dec_step s (Some 0) end.
(* strconv.ParseInt(s, 10, 64), also strconv.Atoi: optional sign, digits, in range *)
Definition atoi (s : str) : option Z :=
  let r :=
    match s with
    | 45 :: s' => option_map Z.opp (parse_udec s')
    | 43 :: s' => parse_udec s'
    | _ => parse_udec s
    end in
  match r with
  | Some v => if (- 2 ^ 63 <=? v) && (v <? 2 ^ 63) then Some v else None
  | None => None
  end.

Lemma dec_step_snoc l c : fold_left dec_step (l ++ [c]) (Some 0) = dec_step (fold_left dec_step l (Some 0)) c.
Proof. now rewrite fold_left_app. Qed.
Lemma is_digit_48 d : 0 <= d < 10 -> is_digit (48 + d) = true.
Proof. intros; unfold is_digit. apply andb_true_iff; split; apply Z.leb_le; lia. Qed.
Lemma udec_fuel_parse fuel : forall n, 0 <= n < 2 ^ Z.of_nat fuel ->
  fold_left dec_step (udec_fuel fuel n) (Some 0) = Some n.
Proof.
  induction fuel as [|k IH]; intros n H; [simpl in H; assert (n = 0) by lia; subst; reflexivity|]. cbn [udec_fuel].
  destruct (Z.ltb_spec n 10).
  - cbn [fold_left dec_step]. rewrite is_digit_48 by lia. f_equal; lia.
  - rewrite dec_step_snoc, IH.
    + cbn [dec_step]. pose proof (Z.mod_pos_bound n 10). rewrite is_digit_48 by lia. f_equal.
      pose proof (Z.div_mod n 10). lia.
    + split; [apply Z.div_pos; lia|]. rewrite Nat2Z.inj_succ, Z.pow_succ_r in H by lia.
      apply Z.div_lt_upper_bound; lia.
Qed.
Lemma udec_fuel_nonempty k n : udec_fuel (S k) n <> [].
Proof. cbn [udec_fuel]. destruct (_ <? _); [discriminate|]. destruct (udec_fuel k (n / 10)); discriminate. Qed.
Lemma udec_nonempty n : udec n <> [].
Proof. apply udec_fuel_nonempty. Qed.
Lemma udec_parse n : 0 <= n -> parse_udec (udec n) = Some n.
Proof.
  intros H. unfold parse_udec. pose proof (udec_nonempty n) as N.
  destruct (udec n) eqn:E; [congruence|]. rewrite <- E. apply udec_fuel_parse.
  split; auto. rewrite Nat2Z.inj_succ, Z2Nat.id by apply Z.log2_nonneg.
  destruct (Z.eq_dec n 0) as [->|]; [reflexivity|]. apply Z.log2_spec; lia.
Qed.
Lemma udec_fuel_digits k : forall n c, 0 <= n -> In c (udec_fuel k n) -> 48 <= c <= 57.
Proof.
  induction k as [|k IH]; intros n c H I; [destruct I|]. cbn [udec_fuel] in I.
  destruct (Z.ltb_spec n 10).
  - destruct I as [<-|[]]; lia.
  - apply in_app_or in I as [I|[<-|[]]].
    + eapply IH; [|exact I]. apply Z.div_pos; lia.
    + pose proof (Z.mod_pos_bound n 10). lia.
Qed.
Lemma udec_digits n c : 0 <= n -> In c (udec n) -> 48 <= c <= 57.
Proof. apply udec_fuel_digits. Qed.
Lemma atoi_digits s v : (forall c, In c s -> 48 <= c <= 57) -> parse_udec s = Some v -> - 2 ^ 63 <= v < 2 ^ 63 -> atoi s = Some v.
Proof.
  intros D P R. unfold atoi. 
  assert (E : match s with | 45 :: s' => option_map Z.opp (parse_udec s') | 43 :: s' => parse_udec s' | _ => parse_udec s end = Some v).
  { destruct s as [|c s]; auto. specialize (D c (or_introl eq_refl)).
    destruct c as [|p|p]; auto.
    repeat (destruct p as [p|p|]; auto; try lia). }
  rewrite E. replace ((- 2 ^ 63 <=? v) && (v <? 2 ^ 63)) with true; auto. symmetry.
  apply andb_true_iff; split; [apply Z.leb_le|apply Z.ltb_lt]; lia.
Qed.
Lemma atoi_itoa n : - 2 ^ 63 <= n < 2 ^ 63 -> atoi (itoa n) = Some n.
Proof.
  intros H. unfold itoa. destruct (Z.ltb_spec n 0).
  - unfold atoi. rewrite udec_parse by lia. cbn [option_map]. rewrite Z.opp_involutive.
    replace ((- 2 ^ 63 <=? n) && (n <? 2 ^ 63)) with true; auto. symmetry.
    apply andb_true_iff; split; [apply Z.leb_le|apply Z.ltb_lt]; lia.
  - apply atoi_digits; auto.
    + intros c. apply udec_digits. lia.
    + apply udec_parse. lia.
Qed.
Lemma itoa_chars n c : In c (itoa n) -> c = 45 \/ 48 <= c <= 57.
Proof.
  unfold itoa. destruct (Z.ltb_spec n 0); intros I.
  - destruct I as [<-|I]; auto. right. eapply udec_digits; [|exact I]. lia.
  - right. eapply udec_digits; [|exact I]. lia.
Qed.
