(* Model of sliceop/sliceop.go over the slice model of GoSlice. *)
From Coq Require Import List Arith ZArith Lia Bool.
From Verif Require Import GoLib GoSlice.
Import ListNotations.

Section Sliceop.
Context {A : Type}.
Variable z : A.                      (* the zero value of the element type *)
Variable grow : nat -> nat.          (* growth policy of append *)

(* sliceop/sliceop.go:29-33 loop of Filter: [i] iterations done, [k] left; the range
   expression src is evaluated once, its elements are read from memory one by one *)
Fixpoint Filter_loop (f : A -> bool) (src : slice) (k i : nat) (h : heap A) (dst : slice)
  : res (heap A * slice) :=
  match k with
  | O => Ok (h, dst)
  | S k' =>
      do x <- load h src i;
      if f x then let '(h', dst') := append1 z grow h dst x in Filter_loop f src k' (S i) h' dst'
      else Filter_loop f src k' (S i) h dst
  end.
(* sliceop/sliceop.go:22-36 Filter; dst = None is the nil slice *)
Definition Filter (h : heap A) (dst : option slice) (src : slice) (f : A -> bool)
  : res (heap A * slice) :=
  let '(h, d) := match dst with None => make z h 0 (len src) | Some d => (h, d) end in
  let d := {| arr := arr d; off := off d; len := 0; cap := cap d |} in
  Filter_loop f src (len src) 0 h d.

(* sliceop/sliceop.go:83-122 Take. Indices are Go ints (Z); they live in their own memory
   (the case where []int indices share memory with dst is not modelled). *)
Definition loadZ (h : heap A) (s : slice) (i : Z) : res A :=
  if (i <? 0)%Z then Panic else load h s (Z.to_nat i).
(* sliceop/sliceop.go:102-118: loop over i >= 1 with v0 the pending index *)
Fixpoint Take_loop (src dst : slice) (i : nat) (v0 : Z) (rest : list Z) (h : heap A) : res (heap A) :=
  match rest with
  | [] => do x <- loadZ h src v0; put h dst (i - 1) x
  | v1 :: rest' =>
      if (v0 <? v1)%Z then
        do x <- loadZ h src v0;
        do h' <- put h dst (i - 1) x;
        Take_loop src dst (S i) v1 rest' h'
      else Panic
  end.
Definition Take (h : heap A) (dst : option slice) (src : slice) (indices : list Z)
  : res (heap A * slice) :=
  if (len src <? length indices) then Panic
  else
    let '(h, d) := match dst with None => make z h (length indices) (length indices) | Some d => (h, d) end in
    if negb (len d =? length indices) then Panic
    else match indices with
         | [] => Ok (h, d)
         | v0 :: rest =>
             do x <- loadZ h src v0;
             do h1 <- put h d 0 x;
             do h2 <- Take_loop src d 1 v0 rest h1;
             Ok (h2, d)
         end.

(* sliceop/sliceop.go:126-133 Resize; n is a Go int, slicing with a negative bound panics *)
Definition Resize (h : heap A) (s : slice) (n : Z) : res (heap A * slice) :=
  if (n <? 0)%Z then Panic
  else
    let n := Z.to_nat n in
    if cap s <? n then
      (* sli[:m] then append of n-m zero values: always reallocates *)
      let full := {| arr := arr s; off := off s; len := cap s; cap := cap s |} in
      let c := grow n in
      Ok (h ++ [contents h full ++ repeat z (n - cap s) ++ repeat z (c - n)],
          {| arr := length h; off := 0; len := n; cap := c |})
    else Ok (h, {| arr := arr s; off := off s; len := n; cap := cap s |}).
End Sliceop.

(* Find: indices found go to a []int in its own memory *)
Section Find.
Context {A : Type}.
Variable grow : nat -> nat.
(* sliceop/sliceop.go:68-72 *)
Fixpoint Find_loop (f : A -> bool) (hs : heap A) (src : slice) (k i : nat) (h : heap Z) (dst : slice)
  : res (heap Z * slice) :=
  match k with
  | O => Ok (h, dst)
  | S k' =>
      do x <- load hs src i;
      if f x then let '(h', dst') := append1 0%Z grow h dst (Z.of_nat i) in Find_loop f hs src k' (S i) h' dst'
      else Find_loop f hs src k' (S i) h dst
  end.
(* sliceop/sliceop.go:61-75 Find *)
Definition Find (hs : heap A) (h : heap Z) (dst : option slice) (src : slice) (f : A -> bool)
  : res (heap Z * slice) :=
  let '(h, d) := match dst with None => make 0%Z h 0 (len src) | Some d => (h, d) end in
  Find_loop f hs src (len src) 0 h {| arr := arr d; off := off d; len := 0; cap := cap d |}.
End Find.

(* Map between two memories; [MapInPlace] is the case T = U with dst and src in one memory *)
Section Map.
Context {A : Type}.
Variable z : A.
(* sliceop/sliceop.go:52-54 *)
Fixpoint Map_loop (f : A -> A) (src dst : slice) (k i : nat) (h : heap A) : res (heap A) :=
  match k with
  | O => Ok h
  | S k' => do x <- load h src i; do h' <- put h dst i (f x); Map_loop f src dst k' (S i) h'
  end.
(* sliceop/sliceop.go:42-56 Map with T = U *)
Definition Map (h : heap A) (dst : option slice) (src : slice) (f : A -> A) : res (heap A * slice) :=
  let '(h, d) := match dst with None => make z h (len src) (len src) | Some d => (h, d) end in
  if negb (len src =? len d) then Panic
  else do h' <- Map_loop f src d (len src) 0 h; Ok (h', d).
End Map.
