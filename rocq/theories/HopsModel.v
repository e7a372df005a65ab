(* Model of DivideH1D (hbook/ops.go), of the scatters S2D and their points (hbook/s2d.go, hbook/points.go), and of the random
   numbers drawn from a histogram, Rand1D (hbook/rand_h1d.go), with the arithmetic of float64.
   Parameters: the values of the annotations; the number in [0, 1) that gonum draws is an argument of Rand.
   Simplified: the message of an error is left out; sort.Sort is any function that sorts (see HopsProps). *)
From Coq Require Import ZArith List Bool.
From Flocq Require Import IEEE754.BinarySingleNaN.
From Verif Require Import GoLib F64 F64Arith HbookModel HistModel.
Import ListNotations.

(* math.Sqrt, math.Abs *)
Definition fsqrt (x : f64) : f64 := Bsqrt mode_NE x.
Definition fabs (x : f64) : f64 := Babs x.
Definition fne0 (x : f64) : bool := negb (feq x fzero).
(* the constants 0.5, 1e-5 and 1e-8 *)
Definition half : f64 := fdiv f1 f2.
Definition tol : f64 := fdiv f1 (fofZ 100000).
Definition small : f64 := fdiv f1 (fofZ 100000000).

(* ---- bins ---- *)
Definition Bin := @Bin1D F.
Definition xMin (b : Bin) : f64 := rmin (brange b).
Definition xMax (b : Bin) : f64 := rmax (brange b).
Definition sumW (b : Bin) : f64 := dSumW (d0 (bdist b)).
Definition sumW2 (b : Bin) : f64 := dSumW2 (d0 (bdist b)).
(* hbook/bin1d.go:79-81 XMid *)
Definition xMid (b : Bin) : f64 := fmul half (fadd (xMin b) (xMax b)).
(* hbook/bin1d.go:84-86 XWidth *)
Definition xWidth (b : Bin) : f64 := fsub (xMax b) (xMin b).
(* hbook/dist.go:130-133 mean, hbook/bin1d.go:98-100 XMean *)
Definition xMean (b : Bin) : f64 := fdiv (dSumWX (bdist b)) (sumW b).
(* hbook/bin1d.go:90-95 XFocus *)
Definition xFocus (b : Bin) : f64 := if feq (sumW b) fzero then xMid b else xMean b.

(* ---- points ---- *)
(* hbook/points.go:8-13 *)
Record Point2D := { PX : f64; PY : f64; ErrX : Range F; ErrY : Range F }.
(* hbook/points.go:16-18 XMin, 21-23 XMax, 26-28 YMin, 31-33 YMax *)
Definition ptXMin (p : Point2D) : f64 := fsub (PX p) (rmin (ErrX p)).
Definition ptXMax (p : Point2D) : f64 := fadd (PX p) (rmax (ErrX p)).
Definition ptYMin (p : Point2D) : f64 := fsub (PY p) (rmin (ErrY p)).
Definition ptYMax (p : Point2D) : f64 := fadd (PY p) (rmax (ErrY p)).
(* hbook/points.go:36-40 ScaleX, 43-47 ScaleY *)
Definition ptScaleX (f : f64) (p : Point2D) : Point2D :=
  {| PX := fmul (PX p) f; PY := PY p; ErrX := rng (fmul (rmin (ErrX p)) f) (fmul (rmax (ErrX p)) f); ErrY := ErrY p |}.
Definition ptScaleY (f : f64) (p : Point2D) : Point2D :=
  {| PX := PX p; PY := fmul (PY p) f; ErrX := ErrX p; ErrY := rng (fmul (rmin (ErrY p)) f) (fmul (rmax (ErrY p)) f) |}.
(* hbook/points.go:59-81 Less *)
Definition less (p q : Point2D) : bool :=
  if negb (feq (PX p) (PX q)) then flt (PX p) (PX q)
  else if negb (feq (rmin (ErrX p)) (rmin (ErrX q))) then flt (rmin (ErrX p)) (rmin (ErrX q))
  else if negb (feq (rmax (ErrX p)) (rmax (ErrX q))) then flt (rmax (ErrX p)) (rmax (ErrX q))
  else if negb (feq (PY p) (PY q)) then flt (PY p) (PY q)
  else if negb (feq (rmin (ErrY p)) (rmin (ErrY q))) then flt (rmin (ErrY p)) (rmin (ErrY q))
  else if negb (feq (rmax (ErrY p)) (rmax (ErrY q))) then flt (rmax (ErrY p)) (rmax (ErrY q))
  else false.

(* ---- scatters ---- *)
Section Ann.
Context {V : Type}.
Variable str : list Z -> V.   (* a string as the value of an annotation *)
(* an annotation is a map, or nil *)
Definition Ann : Type := option (list Z -> option V).
Definition annGet (a : Ann) (k : list Z) : option V := match a with None => None | Some m => m k end.
Definition annSet (a : Ann) (k : list Z) (v : V) : res Ann :=
  match a with None => Panic | Some m => Ok (Some (fun k' => if list_eq_dec Z.eq_dec k' k then Some v else m k')) end.
(* hbook/s2d.go:19-22 *)
Record S2D := { pts : list Point2D; sann : Ann }.
(* hbook/h1d.go:21-24 *)
Record H1D := { hbng : Binning1D F; hann : Ann }.
Definition keyType : list Z := [84; 121; 112; 101]%Z.                           (* Type *)
Definition scatter2D : list Z := [83; 99; 97; 116; 116; 101; 114; 50; 68]%Z.   (* Scatter2D *)
(* hbook/s2d.go:77-96 the point of a bin *)
Definition binPoint (focus : bool) (b : Bin) : Point2D :=
  let x := if focus then xFocus b else xMid b in
  let exm := fsub x (xMin b) in
  let exp := fsub (xMax b) x in
  let w := xWidth b in
  let '(y, ey) := if fne0 w then let ww := fdiv f1 w in (fmul (sumW b) ww, fmul (fsqrt (sumW2 b)) ww) else (fnan, fnan) in
  {| PX := x; PY := y; ErrX := rng exm exp; ErrY := rng ey ey |}.
(* hbook/s2d.go:66-98 NewS2DFromH1D; NewS2D makes a map and maps.Copy fills it *)
Definition NewS2DFromH1D (focus : bool) (h : H1D) : res S2D :=
  let a : Ann := Some (fun k => annGet (hann h) k) in
  do a' <- match annGet a keyType with Some _ => annSet a keyType (str scatter2D) | None => Ok a end;
  Ok {| pts := map (binPoint focus) (bins (hbng h)); sann := a' |}.

(* ---- hbook/ops.go ---- *)
(* hbook/ops.go:113-120 fuzzyEq *)
Definition fuzzyEq (a b : f64) : bool :=
  let aa := fabs a in let bb := fabs b in
  let absavg := fmul half (fadd aa bb) in
  let absdiff := fabs (fsub a b) in
  (flt aa small && flt bb small) || flt absdiff (fmul tol absavg).
(* hbook/ops.go:85-88 *)
Record cfg := { ignoreNaN : bool; replaceNaN : f64 }.
(* hbook/ops.go:92-94 *)
Definition cfg0 : cfg := {| ignoreNaN := false; replaceNaN := fnan |}.
(* hbook/ops.go:35-75: the point of a pair of bins, None when it is left out *)
Definition divPoint (c : cfg) (b1 b2 : Bin) : option Point2D :=
  let x := xMid b1 in
  let exm := fsub x (xMin b1) in
  let exp := fsub (xMax b1) x in
  let b2h := fdiv (sumW b2) (xWidth b2) in
  let b1h := fdiv (sumW b1) (xWidth b1) in
  let b2herr := fdiv (fsqrt (sumW2 b2)) (xWidth b2) in
  let b1herr := fdiv (fsqrt (sumW2 b1)) (xWidth b1) in
  let pt y ey := {| PX := x; PY := y; ErrX := rng exm exp; ErrY := rng ey ey |} in
  if feq b2h fzero || (feq b1h fzero && fne0 b1herr) then
    if ignoreNaN c then None else Some (pt (replaceNaN c) fzero)
  else
    let y := fdiv b1h b2h in
    let relerr1 := if fne0 b1herr then fdiv (fsqrt (sumW2 b1)) (sumW b1) else fzero in
    let relerr2 := if fne0 b2herr then fdiv (fsqrt (sumW2 b2)) (sumW b2) else fzero in
    Some (pt y (fmul y (fsqrt (fadd (fmul relerr1 relerr1) (fmul relerr2 relerr2))))).
(* hbook/ops.go:27-77: None is the error; bins2[i] panics when there is no such bin *)
Fixpoint divLoop (c : cfg) (bs1 bs2 : list Bin) : res (option (list Point2D)) :=
  match bs1 with
  | [] => Ok (Some [])
  | b1 :: tl1 =>
    match bs2 with
    | [] => Panic
    | b2 :: tl2 =>
      if negb (fuzzyEq (xMin b1) (xMin b2)) || negb (fuzzyEq (xMax b1) (xMax b2)) then Ok None
      else
        do r <- divLoop c tl1 tl2;
        Ok (match r with None => None | Some ps => Some (match divPoint c b1 b2 with None => ps | Some p => p :: ps end) end)
    end
  end.
(* hbook/ops.go:15-78 DivideH1D; the options set fields of the configuration, one after the other (hbook/ops.go:98-110); the
   annotations of the result are nil *)
Definition DivideH1D (num den : H1D) (opts : list (cfg -> cfg)) : res (option S2D) :=
  let c := fold_left (fun c o => o c) opts cfg0 in
  do r <- divLoop c (bins (hbng num)) (bins (hbng den));
  Ok (match r with None => None | Some ps => Some {| pts := ps; sann := None |} end).
Definition DivIgnoreNaNs : cfg -> cfg := fun c => {| ignoreNaN := true; replaceNaN := replaceNaN c |}.
Definition DivReplaceNaNs (v : f64) : cfg -> cfg := fun c => {| ignoreNaN := ignoreNaN c; replaceNaN := v |}.
End Ann.

(* ---- hbook/rand_h1d.go ---- *)
(* hbook/rand_h1d.go:15-19 *)
Record Rand1D := { rbins : list (Range F); cdf : list f64 }.
(* hbook/rand_h1d.go:32-35: the sums *)
Fixpoint sums (s : f64) (bs : list Bin) : list f64 :=
  match bs with [] => [] | b :: tl => let s' := fadd s (sumW b) in s' :: sums s' tl end.
(* hbook/rand_h1d.go:23-51 NewRand1D; bins[n-1] panics without bins, and cdf[len(cdf)-1] is the sum already *)
Definition NewRand1D (bs : list Bin) : res Rand1D :=
  let c := fzero :: sums fzero bs in
  let sum := last c fzero in
  let norm := fdiv f1 sum in
  match rev bs with
  | [] => Panic
  | b :: _ =>
    let r := brange b in
    Ok {| rbins := map brange bs ++ [rng (rmax r) (fadd (rmax r) (width r))]; cdf := map (fun v => fmul v norm) c |}
  end.
(* hbook/rand_h1d.go:53-55 search *)
Definition search (d : Rand1D) (v : f64) : nat :=
  go_search (length (cdf d) - 1) (fun i => flt v (nth (S i) (cdf d) fzero)).
(* l[i] *)
Definition at_ {A} (l : list A) (i : nat) : res A := match nth_error l i with Some a => Ok a | None => Panic end.
(* hbook/rand_h1d.go:58-71 Rand, for the number y that was drawn *)
Definition Rand (d : Rand1D) (y : f64) : res f64 :=
  let i := search d y in
  do b <- at_ (rbins d) i;
  let x := rmin b in
  do c <- at_ (cdf d) i;
  if flt c y then
    do xbin <- at_ (rbins d) (S i);
    do cdf1 <- at_ (cdf d) (S i);
    Ok (fadd x (fdiv (fmul (fsub (rmax xbin) (rmin xbin)) (fsub y c)) (fsub cdf1 c)))
  else Ok x.
(* hbook/rand_h1d.go:74-84 CDF *)
Definition CDF (d : Rand1D) (x : f64) : res f64 :=
  let i := IndexOf (N := F) (rbins d) x in
  if (i =? UnderflowBin1D)%Z then Ok fzero
  else if (i =? OverflowBin1D)%Z then Ok f1
  else at_ (cdf d) (Z.to_nat i).
