(* Small pieces of the Go language and standard library used by several models. *)
From Coq Require Import ZArith List Lia Bool Arith.
Import ListNotations.

(* Outcome of a Go function that may panic. *)
Inductive res (A : Type) : Type :=
| Ok (a : A)
| Panic.
Arguments Ok {A} a.
Arguments Panic {A}.

Definition rbind {A B} (r : res A) (f : A -> res B) : res B :=
  match r with Ok a => f a | Panic => Panic end.
Notation "'do' x <- r ; k" := (rbind r (fun x => k)) (at level 200, x name, r at level 100, k at level 200).

(* l[i] = f(l[i]); Panic when i is out of range *)
Fixpoint upd_nth {A} (l : list A) (i : nat) (f : A -> A) : res (list A) :=
  match l, i with
  | [], _ => Panic
  | a :: l', O => Ok (f a :: l')
  | a :: l', S i' => match upd_nth l' i' f with Ok l'' => Ok (a :: l'') | Panic => Panic end
  end.

Lemma upd_nth_ok {A} (l : list A) i f :
  i < length l -> exists l', upd_nth l i f = Ok l' /\ length l' = length l.
Proof.
  revert i; induction l; intros i H; simpl in *; [lia|].
  destruct i; [eexists; split; [reflexivity|reflexivity]|].
  destruct (IHl i) as (l' & E & L); [lia|]. rewrite E. eexists; split; [reflexivity|simpl; lia].
Qed.
Lemma upd_nth_nth {A} (l l' : list A) i f :
  upd_nth l i f = Ok l' ->
  length l' = length l /\
  forall j, nth_error l' j = if Nat.eqb j i then option_map f (nth_error l j) else nth_error l j.
Proof.
  revert i l'; induction l; intros i l' H; simpl in *; [discriminate|].
  destruct i.
  - inversion H; subst. split; [reflexivity|]. intros [|j]; reflexivity.
  - destruct (upd_nth l i f) eqn:E; [|discriminate]. inversion H; subst.
    apply IHl in E. destruct E as [E1 E2]. split; [simpl; lia|].
    intros [|j]; simpl; auto.
Qed.

(* sort.Search (Go standard library, sort/search.go): binary search for the first index in
   [0,n) where f holds, n if none:
     i, j := 0, n
     for i < j { h := int(uint(i+j) >> 1); if !f(h) { i = h+1 } else { j = h } }
     return i
   Fuel: the loop runs at most n times because j-i decreases (lemma search_fuel). *)
Fixpoint search_loop (fuel : nat) (f : nat -> bool) (i j : nat) : nat :=
  match fuel with
  | O => i
  | S k =>
      if i <? j then
        let h := Nat.div2 (i + j) in
        if f h then search_loop k f i h else search_loop k f (S h) j
      else i
  end.
Definition go_search (n : nat) (f : nat -> bool) : nat := search_loop n f 0 n.

Lemma div2_between i j : i < j -> i <= Nat.div2 (i + j) < j.
Proof.
  intros. pose proof (Nat.div2_odd (i + j)). destruct (Nat.odd (i + j)); simpl Nat.b2n in *; lia.
Qed.

Lemma search_loop_spec fuel f i j :
  j - i <= fuel -> i <= j ->
  let r := search_loop fuel f i j in
  i <= r <= j /\ (r = i \/ f (r - 1) = false) /\ (r = j \/ f r = true).
Proof.
  revert i j; induction fuel; intros i j Hf Hij; cbn zeta.
  - simpl. split; [lia|]. split; [auto|]. left; lia.
  - cbn [search_loop]. destruct (Nat.ltb_spec i j).
    + pose proof (div2_between i j H) as Hh. set (h := Nat.div2 (i + j)) in *.
      destruct (f h) eqn:E.
      * destruct (IHfuel i h) as (A & B & C); try lia; auto.
        split; [lia|]. split; auto. destruct C as [C|C]; auto. right. rewrite C; auto.
      * destruct (IHfuel (S h) j) as (A & B & C); try lia; auto.
        split; [lia|]. split; auto. destruct B as [B|B]; auto. right.
        rewrite B. replace (S h - 1) with h by lia. auto.
    + split; [lia|]. split; auto. left; lia.
Qed.

(* what the search returns, for any predicate *)
Lemma go_search_spec n f :
  let r := go_search n f in
  r <= n /\ (r = 0 \/ f (r - 1) = false) /\ (r = n \/ f r = true).
Proof.
  unfold go_search.
  destruct (search_loop_spec n f 0 n) as (A & B & C); try lia; auto.
  cbn zeta. split; [lia|auto].
Qed.

(* for a monotone predicate: the least index satisfying it *)
Lemma go_search_mono n f :
  (forall i j, i <= j -> j < n -> f i = true -> f j = true) ->
  let r := go_search n f in
  r <= n /\ (forall i, i < r -> f i = false) /\ (forall i, r <= i -> i < n -> f i = true).
Proof.
  intros M. destruct (go_search_spec n f) as (A & B & C). cbn zeta in *.
  set (r := go_search n f) in *. split; auto. split.
  - intros i Hi. destruct B as [B|B]; [lia|].
    destruct (f i) eqn:E; auto. rewrite (M i (r - 1)) in B; auto; lia.
  - intros i H1 H2. destruct C as [C|C]; [lia|]. apply (M r i); auto.
Qed.

(* filter over fold helpers *)
Lemma fold_left_filter {A B} (f : A -> B -> A) (p : B -> bool) l a :
  fold_left (fun a b => if p b then f a b else a) l a = fold_left f (filter p l) a.
Proof. revert a; induction l; simpl; intros; auto. destruct (p a); simpl; auto. Qed.
