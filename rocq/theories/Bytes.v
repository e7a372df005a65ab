(* Byte strings, machine-integer wrapping and big/little-endian encodings shared by
   the codec models.  Bytes are integers in [0,256). *)
From Coq Require Import ZArith List Lia Bool.
Import ListNotations.
Local Open Scope Z_scope.

Definition byte_ok (b : Z) : Prop := 0 <= b < 256.
Definition bytes_ok (l : list Z) : Prop := Forall byte_ok l.
Definition zlen {A} (l : list A) : Z := Z.of_nat (length l).

(* Go integer conversions: uintW(v) and intW(v) *)
Definition wrapU (w v : Z) : Z := v mod 2 ^ w.
Definition wrapS (w v : Z) : Z :=
  let u := v mod 2 ^ w in if u <? 2 ^ (w - 1) then u else u - 2 ^ w.

Definition inU (w v : Z) : Prop := 0 <= v < 2 ^ w.
Definition inS (w v : Z) : Prop := - 2 ^ (w - 1) <= v < 2 ^ (w - 1).

Fixpoint le (n : nat) (v : Z) : list Z :=
  match n with
  | O => []
  | S n' => (v mod 256) :: le n' (v / 256)
  end.

Fixpoint unle (l : list Z) : Z :=
  match l with
  | [] => 0
  | b :: l' => b + 256 * unle l'
  end.

Definition be (n : nat) (v : Z) : list Z := rev (le n v).
Definition unbe (l : list Z) : Z := unle (rev l).

Lemma zlen_nonneg {A} (l : list A) : 0 <= zlen l.
Proof. unfold zlen; lia. Qed.
Lemma zlen_app {A} (a b : list A) : zlen (a ++ b) = zlen a + zlen b.
Proof. unfold zlen; rewrite app_length; lia. Qed.
Lemma zlen_cons {A} (a : A) l : zlen (a :: l) = 1 + zlen l.
Proof. unfold zlen; cbn [length]; lia. Qed.
Lemma zlen_nil {A} : zlen (@nil A) = 0.
Proof. reflexivity. Qed.
Lemma zlen_repeat {A} (a : A) n : zlen (repeat a n) = Z.of_nat n.
Proof. unfold zlen; now rewrite repeat_length. Qed.
Lemma zlen_0_nil {A} (l : list A) : zlen l = 0 -> l = [].
Proof. destruct l; unfold zlen; cbn [length]; intros; [auto|lia]. Qed.

Lemma bytes_ok_app a b : bytes_ok (a ++ b) <-> bytes_ok a /\ bytes_ok b.
Proof. apply Forall_app. Qed.
Lemma bytes_ok_nil : bytes_ok [].
Proof. constructor. Qed.
Lemma bytes_ok_cons b l : byte_ok b -> bytes_ok l -> bytes_ok (b :: l).
Proof. now constructor. Qed.
Lemma bytes_ok_repeat b n : byte_ok b -> bytes_ok (repeat b n).
Proof. intros H; induction n; simpl; constructor; auto. Qed.
Lemma bytes_ok_rev l : bytes_ok l -> bytes_ok (rev l).
Proof. apply Forall_rev. Qed.
Lemma bytes_ok_firstn n l : bytes_ok l -> bytes_ok (firstn n l).
Proof. revert n; induction l; destruct n; simpl; intros; try constructor; inversion H; subst; auto; now apply IHl. Qed.
Lemma bytes_ok_skipn n l : bytes_ok l -> bytes_ok (skipn n l).
Proof. revert n; induction l; destruct n; simpl; intros; auto; inversion H; subst; auto; now apply IHl. Qed.

Lemma le_length n v : length (le n v) = n.
Proof. revert v; induction n; simpl; intros; auto. Qed.
Lemma be_length n v : length (be n v) = n.
Proof. unfold be; rewrite rev_length; apply le_length. Qed.
Lemma le_ok n v : bytes_ok (le n v).
Proof.
  revert v; induction n; simpl; intros; constructor.
  - apply Z.mod_pos_bound; lia.
  - apply IHn.
Qed.
Lemma be_ok n v : bytes_ok (be n v).
Proof. apply bytes_ok_rev, le_ok. Qed.

Lemma pow256_S n : 256 ^ Z.of_nat (S n) = 256 * 256 ^ Z.of_nat n.
Proof. rewrite Nat2Z.inj_succ, Z.pow_succ_r; lia. Qed.
Lemma pow256_pos n : 0 < 256 ^ Z.of_nat n.
Proof. apply Z.pow_pos_nonneg; lia. Qed.
Lemma pow256_2 n : 256 ^ Z.of_nat n = 2 ^ (8 * Z.of_nat n).
Proof. rewrite Z.pow_mul_r by lia. reflexivity. Qed.

Lemma unle_le n v : unle (le n v) = v mod 256 ^ Z.of_nat n.
Proof.
  revert v; induction n; intros.
  - simpl. now rewrite Z.mod_1_r.
  - cbn [le unle]. rewrite IHn, pow256_S.
    pose proof (pow256_pos n).
    rewrite Z.rem_mul_r by lia. reflexivity.
Qed.

Lemma unle_bound l : bytes_ok l -> 0 <= unle l < 256 ^ Z.of_nat (length l).
Proof.
  induction 1.
  - simpl; lia.
  - cbn [unle length]. rewrite pow256_S. unfold byte_ok in H. nia.
Qed.

Lemma le_unle l : bytes_ok l -> le (length l) (unle l) = l.
Proof.
  induction 1; [reflexivity|].
  cbn [length le unle]. unfold byte_ok in H.
  replace (x + 256 * unle l) with (x + unle l * 256) by lia.
  rewrite Z_mod_plus_full, Z.mod_small by lia.
  rewrite Z.div_add by lia. rewrite Z.div_small by lia.
  simpl. now rewrite IHForall.
Qed.

Lemma le_mod n v : le n (v mod 256 ^ Z.of_nat n) = le n v.
Proof.
  rewrite <- unle_le. rewrite <- (le_length n v) at 1. apply le_unle, le_ok.
Qed.

Lemma unbe_be n v : unbe (be n v) = v mod 256 ^ Z.of_nat n.
Proof. unfold unbe, be; rewrite rev_involutive; apply unle_le. Qed.
Lemma be_unbe l : bytes_ok l -> be (length l) (unbe l) = l.
Proof.
  intros H; unfold unbe, be. rewrite <- (rev_length l).
  rewrite le_unle by now apply bytes_ok_rev. apply rev_involutive.
Qed.
Lemma unbe_bound l : bytes_ok l -> 0 <= unbe l < 256 ^ Z.of_nat (length l).
Proof.
  intros; unfold unbe. rewrite <- (rev_length l). apply unle_bound, bytes_ok_rev; auto.
Qed.

(* round trips at a given width in bits *)
Lemma unbe_be_U n v : inU (8 * Z.of_nat n) v -> unbe (be n v) = v.
Proof. intros H; rewrite unbe_be, pow256_2. apply Z.mod_small, H. Qed.
Lemma unle_le_U n v : inU (8 * Z.of_nat n) v -> unle (le n v) = v.
Proof. intros H; rewrite unle_le, pow256_2. apply Z.mod_small, H. Qed.

Lemma wrapS_inS w v : 0 < w -> inS w (wrapS w v).
Proof.
  intros Hw. unfold inS, wrapS.
  assert (E : 2 ^ w = 2 * 2 ^ (w - 1)).
  { replace w with (Z.succ (w - 1)) at 1 by lia. rewrite Z.pow_succ_r; lia. }
  assert (0 < 2 ^ (w - 1)) by (apply Z.pow_pos_nonneg; lia).
  pose proof (Z.mod_pos_bound v (2 ^ w)).
  destruct (Z.ltb_spec (v mod 2 ^ w) (2 ^ (w - 1))); lia.
Qed.
Lemma wrapS_id w v : 0 < w -> inS w v -> wrapS w v = v.
Proof.
  intros Hw [Hl Hh]. unfold wrapS.
  assert (E : 2 ^ w = 2 * 2 ^ (w - 1)).
  { replace w with (Z.succ (w - 1)) at 1 by lia. rewrite Z.pow_succ_r; lia. }
  assert (0 < 2 ^ (w - 1)) by (apply Z.pow_pos_nonneg; lia).
  destruct (Z.leb_spec 0 v).
  - rewrite Z.mod_small by lia. destruct (Z.ltb_spec v (2 ^ (w - 1))); lia.
  - replace (v mod 2 ^ w) with (v + 2 ^ w).
    + destruct (Z.ltb_spec (v + 2 ^ w) (2 ^ (w - 1))); lia.
    + symmetry. rewrite <- (Z_mod_plus_full v 1 (2 ^ w)).
      rewrite Z.mul_1_l. apply Z.mod_small; lia.
Qed.
Lemma wrapU_id w v : inU w v -> wrapU w v = v.
Proof. intros; apply Z.mod_small, H. Qed.
Lemma wrapU_inU w v : 0 <= w -> inU w (wrapU w v).
Proof. intros; apply Z.mod_pos_bound. apply Z.pow_pos_nonneg; lia. Qed.
Lemma wrapS_wrapU w v : 0 < w -> wrapS w (wrapU w v) = wrapS w v.
Proof.
  intros; unfold wrapS, wrapU. rewrite Z.mod_mod; auto.
  apply Z.pow_nonzero; lia.
Qed.
Lemma wrapS_mod w v : 0 < w -> wrapS w (v mod 2 ^ w) = wrapS w v.
Proof. apply wrapS_wrapU. Qed.
Lemma wrapU_wrapS w v : 0 < w -> wrapU w (wrapS w v) = wrapU w v.
Proof.
  intros; unfold wrapS, wrapU.
  assert (2 ^ w <> 0) by (apply Z.pow_nonzero; lia).
  destruct (_ <? _).
  - rewrite Z.mod_mod; auto.
  - replace (v mod 2 ^ w - 2 ^ w) with (v mod 2 ^ w + (-1) * 2 ^ w) by lia.
    rewrite Z_mod_plus_full, Z.mod_mod; auto.
Qed.

Lemma wrapS_unbe_be_S n v :
  (0 < n)%nat -> inS (8 * Z.of_nat n) v -> wrapS (8 * Z.of_nat n) (unbe (be n v)) = v.
Proof.
  intros. rewrite unbe_be, pow256_2, wrapS_mod by lia. apply wrapS_id; auto; lia.
Qed.
Lemma wrapS_unle_le_S n v :
  (0 < n)%nat -> inS (8 * Z.of_nat n) v -> wrapS (8 * Z.of_nat n) (unle (le n v)) = v.
Proof.
  intros. rewrite unle_le, pow256_2, wrapS_mod by lia. apply wrapS_id; auto; lia.
Qed.

(* firstn/skipn on appended prefixes *)
Lemma firstn_app_exact {A} (a b : list A) n : n = length a -> firstn n (a ++ b) = a.
Proof. intros ->. rewrite firstn_app, Nat.sub_diag, firstn_all; simpl. apply app_nil_r. Qed.
Lemma skipn_app_exact {A} (a b : list A) n : n = length a -> skipn n (a ++ b) = b.
Proof. intros ->. rewrite skipn_app, Nat.sub_diag, skipn_all; reflexivity. Qed.
Lemma skipn_skipn {A} (l : list A) m n : skipn m (skipn n l) = skipn (n + m) l.
Proof. revert l; induction n; intros; simpl; auto. destruct l; [now rewrite !skipn_nil|auto]. Qed.
Lemma nth_error_firstn {A} (l : list A) n i : (i < n)%nat -> nth_error (firstn n l) i = nth_error l i.
Proof. revert n i; induction l; destruct n, i; simpl; intros; auto; try lia. apply IHl; lia. Qed.
Lemma nth_error_skipn {A} (l : list A) n i : nth_error (skipn n l) i = nth_error l (n + i).
Proof. revert l; induction n; simpl; intros; auto. destruct l; auto. now destruct i. Qed.
Lemma zlen_le n v : zlen (le n v) = Z.of_nat n.
Proof. unfold zlen; now rewrite le_length. Qed.
Lemma zlen_be n v : zlen (be n v) = Z.of_nat n.
Proof. unfold zlen; now rewrite be_length. Qed.
