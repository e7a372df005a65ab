(* Model of fastjet/internal/heap/heap.go. Indices are nat; they are never negative in the code. *)
From Coq Require Import ZArith List Lia Bool Arith.
From Verif Require Import GoLib F64.
Import ListNotations.

(* heap.go:8-14 *)
Record pair := { jeti : Z; jetj : Z; dij : f64 }.
(* heap.go:17-20 *)
Record heap := { hn : nat; items : list pair }.
(* heap.go:23-27: one zero element, never used *)
Definition new : heap := {| hn := 0; items := [{| jeti := 0; jetj := 0; dij := fzero |}] |}.
(* an indexed read, Panic out of range *)
Definition at_ {A} (l : list A) (i : nat) : res A := match nth_error l i with Some x => Ok x | None => Panic end.
(* heap.go:111-113 *)
Definition less (l : list pair) (i j : nat) : res bool := do a <- at_ l i; do b <- at_ l j; Ok (flt (dij a) (dij b)).
(* heap.go:116-118 *)
Definition swap (l : list pair) (i j : nat) : res (list pair) :=
  do a <- at_ l i; do b <- at_ l j; do l1 <- upd_nth l i (fun _ => b); upd_nth l1 j (fun _ => a).
(* heap.go:65-78; the index at least halves at each turn *)
Fixpoint moveUp (fuel : nat) (l : list pair) (i : nat) : res (list pair) :=
  match fuel with
  | O => Ok l
  | S k =>
      let parent := i / 2 in
      if parent =? 0 then Ok l
      else do b <- less l i parent; if b then do l' <- swap l i parent; moveUp k l' parent else Ok l
  end.
(* heap.go:84-107; the index at least doubles at each turn *)
Fixpoint moveDown (fuel : nat) (n : nat) (l : list pair) (i : nat) : res (list pair) :=
  match fuel with
  | O => Ok l
  | S k =>
      let left := 2 * i in
      if n <? left then Ok l
      else
        let right := 2 * i + 1 in
        do sc <- (if left =? n then Ok left else do b <- less l left right; Ok (if b then left else right));
        do b <- less l sc i;
        if b then do l' <- swap l i sc; moveDown k n l' sc else Ok l
  end.
(* heap.go:30-39 *)
Definition push (h : heap) (i j : Z) (d : f64) : res heap :=
  let item := {| jeti := i; jetj := j; dij := d |} in
  let n := S (hn h) in
  do l <- (if length (items h) <=? n then Ok (items h ++ [item]) else upd_nth (items h) n (fun _ => item));
  do l' <- moveUp n l n; Ok {| hn := n; items := l' |}.
(* heap.go:43-55 *)
Definition pop (h : heap) : res (heap * (Z * Z * f64)) :=
  match hn h with
  | O => Ok (h, ((-1)%Z, (-1)%Z, fzero))
  | S n =>
      do it <- at_ (items h) 1;
      let r := (jeti it, jetj it, dij it) in
      if n =? 0 then Ok ({| hn := n; items := items h |}, r)
      else do l <- swap (items h) 1 (S n); do l' <- moveDown n n l 1; Ok ({| hn := n; items := l' |}, r)
  end.
(* heap.go:58-60 *)
Definition isEmpty (h : heap) : bool := hn h =? 0.
