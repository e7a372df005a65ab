(* Parsers over byte lists: an error or a value and what is left. *)
From Coq Require Import ZArith List Lia Bool.
From Verif Require Import Bytes.
Import ListNotations.
Local Open Scope Z_scope.

Definition parser (A : Type) := list Z -> option (A * list Z).
Definition pret {A} (v : A) : parser A := fun l => Some (v, l).
Definition pfail {A} : parser A := fun _ => None.
Definition pbind {A B} (f : parser A) (g : A -> parser B) : parser B :=
  fun l => match f l with Some (v, l') => g v l' | None => None end.
Notation "x <~~ f ;; g" := (pbind f (fun x => g)) (at level 70, f at next level, right associativity).
(* io.ReadFull of n bytes *)
Definition take (n : nat) : parser (list Z) :=
  fun l => if (n <=? length l)%nat then Some (firstn n l, skipn n l) else None.
Definition ple (n : nat) : parser Z := pbind (take n) (fun b => pret (unle b)).
Definition pbe (n : nat) : parser Z := pbind (take n) (fun b => pret (unbe b)).
Definition pguard (b : bool) : parser unit := if b then pret tt else pfail.

Definition parses {A} (f : parser A) (bs : list Z) (v : A) : Prop := forall rest, f (bs ++ rest) = Some (v, rest).
Lemma parses_ret {A} (v : A) : parses (pret v) [] v.
Proof. intros rest. reflexivity. Qed.
Lemma parses_bind {A B} (f : parser A) (g : A -> parser B) a b v w :
  parses f a v -> parses (g v) b w -> parses (pbind f g) (a ++ b) w.
Proof. intros F G rest. unfold pbind. rewrite <- app_assoc, F. apply G. Qed.
Lemma parses_take n bs : length bs = n -> parses (take n) bs bs.
Proof.
  intros <- rest. unfold take. rewrite app_length. destruct (Nat.leb_spec (length bs) (length bs + length rest)); [|lia].
  rewrite (firstn_app_exact _ _ _ eq_refl), (skipn_app_exact _ _ _ eq_refl). reflexivity.
Qed.
Lemma parses_ple n v : inU (8 * Z.of_nat n) v -> parses (ple n) (le n v) v.
Proof.
  intros I rest. unfold ple, pbind. rewrite (parses_take n (le n v) (le_length n v)). unfold pret. now rewrite unle_le_U.
Qed.
Lemma parses_pbe n v : inU (8 * Z.of_nat n) v -> parses (pbe n) (be n v) v.
Proof.
  intros I rest. unfold pbe, pbind. rewrite (parses_take n (be n v) (be_length n v)). unfold pret. now rewrite unbe_be_U.
Qed.
Lemma parses_ple_mod n v : parses (ple n) (le n v) (v mod 256 ^ Z.of_nat n).
Proof.
  intros rest. unfold ple, pbind. rewrite (parses_take n (le n v) (le_length n v)). unfold pret. now rewrite unle_le.
Qed.
Lemma parses_pbe_mod n v : parses (pbe n) (be n v) (v mod 256 ^ Z.of_nat n).
Proof.
  intros rest. unfold pbe, pbind. rewrite (parses_take n (be n v) (be_length n v)). unfold pret. now rewrite unbe_be.
Qed.
Lemma parses_map {A B} (f : parser A) (h : A -> B) bs v : parses f bs v -> parses (pbind f (fun x => pret (h x))) bs (h v).
Proof. intros F rest. unfold pbind. rewrite F. reflexivity. Qed.
Lemma parses_guard {A} (b : bool) (g : unit -> parser A) bs v : b = true -> parses (g tt) bs v -> parses (pbind (pguard b) g) bs v.
Proof. intros -> G rest. unfold pbind, pguard, pret. apply G. Qed.
Lemma parses_ext {A} (f : parser A) bs bs' v : bs = bs' -> parses f bs v -> parses f bs' v.
Proof. intros ->. auto. Qed.
(* n times *)
Fixpoint prep {A} (n : nat) (f : parser A) : parser (list A) :=
  match n with O => pret [] | S n' => pbind f (fun x => pbind (prep n' f) (fun xs => pret (x :: xs))) end.
Lemma parses_prep {A} (f : parser A) (enc : A -> list Z) : forall xs, (forall x, In x xs -> parses f (enc x) x) ->
  parses (prep (length xs) f) (concat (map enc xs)) xs.
Proof.
  induction xs as [|x xs IH]; intros H; cbn [length prep concat map]; [apply parses_ret|].
  eapply parses_bind; [apply H; cbn; auto|]. rewrite <- (app_nil_r (concat (map enc xs))).
  eapply parses_bind; [apply IH; intros; apply H; cbn; auto|]. apply parses_ret.
Qed.
