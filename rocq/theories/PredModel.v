(* Model of fastjet/internal/predicates: the orientation of three points and the position of a point relative to a circle,
   computed with float64 numbers that carry a bound of their rounding error (float64Pred), and with exact rationals (big.Rat, here
   Q).  When the float64 computation cannot decide, the code asks the LU factorisation of gonum, which is not modelled: it is a
   parameter. *)
From Coq Require Import ZArith QArith List Bool SpecFloat.
From Flocq Require Import Core IEEE754.BinarySingleNaN.
From Verif Require Import F64 F64Arith.
Import ListNotations.
Local Close Scope Q_scope.
Local Open Scope nat_scope.

Definition fabs (x : f64) : f64 := Babs x.
(* float64Pred.go:11-20: 1/(1<<52), and 1-macheps, which is a constant *)
Definition macheps : f64 := @B754_finite 53 1024 false (2 ^ 52)%positive (-104)%Z eq_refl.
Definition one_macheps : f64 := @B754_finite 53 1024 false (2 ^ 53 - 2)%positive (-53)%Z eq_refl.
(* math.SmallestNonzeroFloat64 *)
Definition smallest : f64 := @B754_finite 53 1024 false 1%positive (-1074)%Z eq_refl.
(* float64Pred.go:36-41 *)
Record pred := { pn : f64; pe : f64 }.
(* float64Pred.go:44-49 *)
Definition newPred (n : f64) : pred := {| pn := n; pe := fzero |}.
(* what an operation adds to the bound: macheps*math.Abs(n)/(1-macheps), or the smallest float64 when n is 0; float64Pred.go:65-69, 87-91, 105-109 *)
Definition term (n : f64) : f64 := if feq n fzero then smallest else fdiv (fmul macheps (fabs n)) one_macheps.
(* float64Pred.go:63-71 *)
Definition addP (a b : pred) : pred := let n := fadd (pn a) (pn b) in {| pn := n; pe := fadd (pe a) (fadd (term n) (pe b)) |}.
(* float64Pred.go:85-93 *)
Definition subP (a b : pred) : pred := let n := fsub (pn a) (pn b) in {| pn := n; pe := fadd (pe a) (fadd (term n) (pe b)) |}.
(* float64Pred.go:103-111 *)
Definition mulP (p : pred) (f : f64) : pred := let n := fmul (pn p) f in {| pn := n; pe := fadd (pe p) (fadd (term n) (fmul (pe p) (fabs f))) |}.

(* ---- orientation.go ---- *)
(* orientation.go:14-24 *)
Inductive orientation := CCW | CW | Colinear | IndeterminateOrientation.
(* orientation.go:64-84 *)
Definition simpleOrientation (x1 y1 x2 y2 x y : f64) : orientation :=
  if (feq x1 x2 && feq x2 x) || (feq y1 y2 && feq y2 y) then Colinear
  else
    let p := subP (subP (subP (addP (addP (mulP (newPred x1) y2) (mulP (newPred x2) y)) (mulP (newPred x) y1))
                              (mulP (newPred x1) y)) (mulP (newPred x2) y1)) (mulP (newPred x) y2) in
    if fgt (pn p) (pe p) then CCW
    else if flt (pn p) (Bopp (pe p)) then CW
    else IndeterminateOrientation.
(* orientation.go:43-51; [mat] is matOrientation *)
Definition Orientation (mat : f64 -> f64 -> f64 -> f64 -> f64 -> f64 -> orientation) (x1 y1 x2 y2 x y : f64) : orientation :=
  match simpleOrientation x1 y1 x2 y2 x y with IndeterminateOrientation => mat x1 y1 x2 y2 x y | o => o end.
(* orientation.go:94-111 *)
Definition robustOrientation (x1 y1 x2 y2 x y : Q) : orientation :=
  let det := ((x1 * y2 + x2 * y + x * y1) - (x1 * y + x2 * y1 + x * y2))%Q in
  match Qcompare det 0 with Gt => CCW | Lt => CW | Eq => Colinear end.

(* ---- incircle.go ---- *)
(* incircle.go:14-25 *)
Inductive position := Inside | On | Outside | IndeterminatePosition.
(* the matrix, row by row: incircle.go:65-70 *)
Definition matrix (x1 y1 x2 y2 x3 y3 x y : f64) : list f64 :=
  let sq a b := fadd (fmul a a) (fmul b b) in
  [x1; y1; sq x1 y1; f1; x2; y2; sq x2 y2; f1; x3; y3; sq x3 y3; f1; x; y; sq x y; f1].
(* incircle.go:105-112 *)
Definition rowFloat (a b c d : nat) (plus : bool) (m : list f64) : pred :=
  let at_ k := nth k m fzero in
  let prod a b := mulP (mulP (mulP (newPred (at_ a)) (at_ (b + 4)%nat)) (at_ (c + 8)%nat)) (at_ (d + 12)%nat) in
  if plus then subP (prod b a) (prod a b) else subP (prod a b) (prod b a).
(* incircle.go:64-99 *)
Definition simpleIncircle (x1 y1 x2 y2 x3 y3 x y : f64) : position :=
  let m := matrix x1 y1 x2 y2 x3 y3 x y in
  let row a b c d plus := rowFloat a b c d plus m in
  let p := addP (addP (addP (addP (addP (addP (addP (addP (addP (addP (addP (row 3 2 1 0 false) (row 3 1 2 0 true))
        (row 2 1 3 0 false)) (row 3 2 0 1 true)) (row 3 0 2 1 false)) (row 2 0 3 1 true)) (row 3 1 0 2 false)) (row 3 0 1 2 true))
        (row 1 0 3 2 false)) (row 2 1 0 3 true)) (row 2 0 1 3 false)) (row 1 0 2 3 true) in
  if flt (pn p) (Bopp (pe p)) then Outside
  else if fgt (pn p) (pe p) then Inside
  else IndeterminatePosition.
(* incircle.go:45-51; [mat] is matIncircle *)
Definition Incircle (mat : f64 -> f64 -> f64 -> f64 -> f64 -> f64 -> f64 -> f64 -> position) (x1 y1 x2 y2 x3 y3 x y : f64) : position :=
  match simpleIncircle x1 y1 x2 y2 x3 y3 x y with IndeterminatePosition => mat x1 y1 x2 y2 x3 y3 x y | p => p end.
(* incircle.go:179-190 *)
Definition rowBig (a b c d : nat) (plus : bool) (m : list Q) : Q :=
  let at_ k := nth k m 0%Q in
  let prod a b := ((at_ a * at_ (b + 4)%nat) * (at_ (c + 8)%nat * at_ (d + 12)%nat))%Q in
  if plus then (prod b a - prod a b)%Q else (prod a b - prod b a)%Q.
(* incircle.go:122-173 *)
Definition robustIncircle (x1 y1 x2 y2 x3 y3 x y : Q) : position :=
  let m := [x1; y1; x1 * x1 + y1 * y1; 1; x2; y2; x2 * x2 + y2 * y2; 1; x3; y3; x3 * x3 + y3 * y3; 1; x; y; x * x + y * y; 1]%Q in
  let row a b c d plus := rowBig a b c d plus m in
  let det := ((((row 3%nat 2%nat 1%nat 0%nat false + row 3%nat 1%nat 2%nat 0%nat true) + row 2%nat 1%nat 3%nat 0%nat false) + ((row 3%nat 2%nat 0%nat 1%nat true + row 3%nat 0%nat 2%nat 1%nat false) + row 2%nat 0%nat 3%nat 1%nat true))
    + (((row 3%nat 1%nat 0%nat 2%nat false + row 3%nat 0%nat 1%nat 2%nat true) + row 1%nat 0%nat 3%nat 2%nat false) + ((row 2%nat 1%nat 0%nat 3%nat true + row 2%nat 0%nat 1%nat 3%nat false) + row 1%nat 0%nat 2%nat 3%nat true)))%Q in
  match Qcompare det 0 with Gt => Inside | Lt => Outside | Eq => On end.
