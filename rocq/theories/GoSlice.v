(* A small model of Go slices: backing arrays in a heap, slice headers, aliasing, append. *)
From Coq Require Import List Arith Lia Bool.
From Verif Require Import GoLib.
Import ListNotations.

Section Slices.
Context {A : Type}.

Definition heap := list (list A).          (* backing arrays, by allocation number *)
Record slice := { arr : nat; off : nat; len : nat; cap : nat }.

Definition cell (h : heap) (a i : nat) : option A :=
  match nth_error h a with Some l => nth_error l i | None => None end.

(* a slice header that denotes existing memory *)
Definition valid (h : heap) (s : slice) : Prop :=
  len s <= cap s /\ exists l, nth_error h (arr s) = Some l /\ off s + cap s <= length l.

Definition contents (h : heap) (s : slice) : list A :=
  match nth_error h (arr s) with
  | Some l => firstn (len s) (skipn (off s) l)
  | None => []
  end.

Fixpoint set_nth {B} (l : list B) (i : nat) (v : B) : list B :=
  match l, i with
  | [], _ => []
  | _ :: t, O => v :: t
  | b :: t, S i' => b :: set_nth t i' v
  end.

Lemma set_nth_length {B} (l : list B) i v : length (set_nth l i v) = length l.
Proof. revert i; induction l; intros [|i]; cbn; auto. Qed.
Lemma set_nth_nth {B} (l : list B) i v j :
  nth_error (set_nth l i v) j = if (j =? i) && (i <? length l) then Some v else nth_error l j.
Proof.
  revert i j; induction l as [|b l IH]; intros [|i] [|j]; cbn [set_nth nth_error length]; auto.
  - rewrite andb_false_r. auto.
  - rewrite IH. replace (S i <? S (length l)) with (i <? length l); auto.
Qed.

(* a[i] = v in array a *)
Definition store (h : heap) (a i : nat) (v : A) : heap :=
  match nth_error h a with
  | Some l => set_nth h a (set_nth l i v)
  | None => h
  end.

(* s[i] *)
Definition load (h : heap) (s : slice) (i : nat) : res A :=
  if i <? len s then match cell h (arr s) (off s + i) with Some v => Ok v | None => Panic end
  else Panic.
(* s[i] = v *)
Definition put (h : heap) (s : slice) (i : nat) (v : A) : res heap :=
  if i <? len s then Ok (store h (arr s) (off s + i) v) else Panic.

(* make([]A, n, c) with the zero value z *)
Definition make (z : A) (h : heap) (n c : nat) : heap * slice :=
  (h ++ [repeat z c], {| arr := length h; off := 0; len := n; cap := c |}).

(* append(s, v): in place when there is room, else into a fresh array whose capacity is
   chosen by the runtime ([grow], any function with grow n >= n) *)
Definition append1 (z : A) (grow : nat -> nat) (h : heap) (s : slice) (v : A) : heap * slice :=
  if len s <? cap s then
    (store h (arr s) (off s + len s) v,
     {| arr := arr s; off := off s; len := S (len s); cap := cap s |})
  else
    let c := grow (S (len s)) in
    (h ++ [contents h s ++ [v] ++ repeat z (c - S (len s))],
     {| arr := length h; off := 0; len := S (len s); cap := c |}).

Lemma store_cell h a i v b j :
  cell (store h a i v) b j =
  if (b =? a) && (j =? i) then match cell h a i with Some _ => Some v | None => None end else cell h b j.
Proof.
  unfold cell, store. destruct (nth_error h a) as [l|] eqn:E.
  - rewrite set_nth_nth. assert (a < length h) by (apply nth_error_Some; congruence).
    replace (a <? length h) with true by (symmetry; apply Nat.ltb_lt; auto). rewrite andb_true_r.
    destruct (Nat.eqb_spec b a).
    + subst. cbn [andb]. rewrite set_nth_nth. rewrite E. destruct (Nat.eqb_spec j i); cbn [andb]; auto.
      subst. destruct (Nat.ltb_spec i (length l)).
      * destruct (nth_error l i) eqn:F; auto. apply nth_error_None in F. lia.
      * destruct (nth_error l i) eqn:F; auto. assert (i < length l) by (apply nth_error_Some; congruence). lia.
    + cbn. auto.
  - destruct (Nat.eqb_spec b a); cbn [andb]; auto. subst. rewrite E. destruct (_ =? _); auto.
Qed.

Lemma store_length h a i v : length (store h a i v) = length h.
Proof. unfold store. destruct (nth_error h a); auto. apply set_nth_length. Qed.
Lemma store_arr_length h a i v b l :
  nth_error h b = Some l -> exists l', nth_error (store h a i v) b = Some l' /\ length l' = length l.
Proof.
  intros H. unfold store. destruct (nth_error h a) as [l0|] eqn:E; [|eauto].
  rewrite set_nth_nth. destruct ((b =? a) && (a <? length h)) eqn:Q; eauto.
  apply andb_true_iff in Q. destruct Q as [Q _]. apply Nat.eqb_eq in Q. subst.
  rewrite E in H. inversion H; subst. eexists; split; [reflexivity|]. apply set_nth_length.
Qed.
Lemma store_valid h a i v s : valid h s -> valid (store h a i v) s.
Proof.
  intros (H & l & E & L). split; auto. destruct (store_arr_length h a i v (arr s) l E) as (l' & E' & L').
  exists l'. split; auto. lia.
Qed.

(* contents, pointwise *)
Lemma nth_error_firstn' {B} (l : list B) n i :
  nth_error (firstn n l) i = if i <? n then nth_error l i else None.
Proof.
  revert n i; induction l; intros [|n] [|i]; cbn [firstn nth_error]; auto.
  - destruct (S i <? S n); auto.
  - rewrite IHl. replace (S i <? S n) with (i <? n); auto.
Qed.
Lemma nth_error_skipn' {B} (l : list B) n i : nth_error (skipn n l) i = nth_error l (n + i).
Proof. revert l; induction n; intros [|b l]; cbn; auto. destruct i; auto. Qed.
Lemma contents_nth h s i :
  nth_error (contents h s) i = if i <? len s then cell h (arr s) (off s + i) else None.
Proof.
  unfold contents, cell. destruct (nth_error h (arr s)) as [l|].
  - rewrite nth_error_firstn', nth_error_skipn'. reflexivity.
  - destruct i; destruct (_ <? _); auto.
Qed.
Lemma contents_length h s : valid h s -> length (contents h s) = len s.
Proof.
  intros (H & l & E & L). unfold contents. rewrite E, firstn_length, skipn_length. lia.
Qed.
Lemma list_ext {B} (l l' : list B) : (forall i, nth_error l i = nth_error l' i) -> l = l'.
Proof.
  revert l'; induction l as [|a l IH]; intros [|a' l'] H; auto.
  - specialize (H 0); discriminate.
  - specialize (H 0); discriminate.
  - f_equal; [specialize (H 0); cbn in H; congruence|]. apply IH. intros i. apply (H (S i)).
Qed.
Lemma valid_cell h s i : valid h s -> i < cap s -> exists v, cell h (arr s) (off s + i) = Some v.
Proof.
  intros (H & l & E & L) Hi. unfold cell. rewrite E.
  destruct (nth_error l (off s + i)) eqn:F; eauto. apply nth_error_None in F. lia.
Qed.
Lemma load_ok h s i v : valid h s -> nth_error (contents h s) i = Some v -> load h s i = Ok v.
Proof.
  intros V H. rewrite contents_nth in H. unfold load. destruct (i <? len s); [|discriminate].
  rewrite H. auto.
Qed.
Lemma make_valid z h n c : n <= c -> valid (fst (make z h n c)) (snd (make z h n c)).
Proof.
  intros. split; cbn; auto. exists (repeat z c). rewrite nth_error_app2 by lia.
  rewrite Nat.sub_diag, repeat_length. auto.
Qed.
Lemma cell_app h t a i : a < length h -> cell (h ++ t) a i = cell h a i.
Proof. intros. unfold cell. rewrite nth_error_app1; auto. Qed.
Lemma valid_app h t s : valid h s -> valid (h ++ t) s.
Proof.
  intros (H & l & E & L). split; auto. exists l. split; auto.
  rewrite nth_error_app1; auto. apply nth_error_Some. congruence.
Qed.
Lemma valid_arr h s : valid h s -> arr s < length h.
Proof. intros (_ & l & E & _). apply nth_error_Some. congruence. Qed.
Lemma contents_app h t s : valid h s -> contents (h ++ t) s = contents h s.
Proof.
  intros V. unfold contents. rewrite nth_error_app1; auto. apply valid_arr; auto.
Qed.

(* append: the contents get the new element at the end, whatever the growth policy *)
Lemma append1_spec z grow h s v h' s' :
  (forall n, n <= grow n) -> valid h s -> append1 z grow h s v = (h', s') ->
  valid h' s' /\ contents h' s' = contents h s ++ [v] /\ len s' = S (len s) /\
  ((arr s' = arr s /\ off s' = off s /\ len s < cap s /\ h' = store h (arr s) (off s + len s) v)
   \/ (arr s' = length h /\ off s' = 0 /\ exists t, h' = h ++ [t])).
Proof.
  intros G V H. unfold append1 in H. destruct (Nat.ltb_spec (len s) (cap s)).
  - inversion H; subst; clear H. cbn.
    assert (V' := store_valid h (arr s) (off s + len s) v s V).
    split; [|split; [|split; auto]].
    + destruct V' as (V1 & V2). split; cbn; auto.
    + apply list_ext. intros i. rewrite contents_nth. cbn [len arr off]. rewrite store_cell, Nat.eqb_refl. cbn [andb].
      destruct (Nat.eqb_spec (off s + i) (off s + len s)).
      * assert (i = len s) by lia. subst. replace (len s <? S (len s)) with true by (symmetry; apply Nat.ltb_lt; lia).
        destruct (valid_cell h s (len s) V H0) as [u ->].
        rewrite nth_error_app2; rewrite contents_length; auto. rewrite Nat.sub_diag. auto.
      * destruct (Nat.ltb_spec i (S (len s))).
        -- rewrite nth_error_app1 by (rewrite contents_length; auto; lia). rewrite contents_nth.
           destruct (Nat.ltb_spec i (len s)); auto. lia.
        -- symmetry. apply nth_error_None. rewrite app_length, contents_length; auto. cbn. lia.
  - inversion H; subst; clear H. cbn. specialize (G (S (len s))).
    assert (LC : length (contents h s) = len s) by (apply contents_length; auto).
    split; [|split; [|split; eauto]].
    + split; cbn; auto. eexists. rewrite nth_error_app2, Nat.sub_diag by lia. cbn. split; [reflexivity|].
      rewrite app_length. cbn. rewrite repeat_length. lia.
    + unfold contents at 1. cbn [arr off len]. rewrite nth_error_app2, Nat.sub_diag by lia. cbn [nth_error skipn].
      match goal with |- context [contents h s ++ v :: ?r] =>
        replace (contents h s ++ v :: r) with ((contents h s ++ [v]) ++ r) by (rewrite <- app_assoc; reflexivity) end.
      rewrite firstn_app.
      replace (S (len s) - length (contents h s ++ [v])) with 0 by (rewrite app_length; cbn [length]; lia).
      rewrite firstn_O, app_nil_r. apply firstn_all2. rewrite app_length; cbn [length]; lia.
Qed.

End Slices.
Arguments heap : clear implicits.
