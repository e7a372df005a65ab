(* Model of the histograms of hbook with bins of equal width, with the arithmetic of float64: NewH1D (hbook/binning1d.go),
   NewH2D (hbook/binning2d.go) and the profile histogram P1D (hbook/p1d.go).  Filling of H1D and H2D is that of HbookModel.
   Simplified: the annotations are left out; a slice too large for the memory is not considered; an int is any integer (the
   number of bins is limited in the theorems). *)
From Coq Require Import ZArith List Bool.
From Flocq Require Import IEEE754.BinarySingleNaN.
From Verif Require Import GoLib F64 F64Arith HbookModel.
Import ListNotations.

(* float64 with its arithmetic *)
Definition F : Num := f64num fadd fmul.
Definition rng (a b : f64) : Range F := @Build_Range F a b.

(* hbook/hbook.go:38-40 Width *)
Definition width (r : Range F) : f64 := Babs (fsub (rmax r) (rmin r)).
(* the i-th edge of n bins: hbook/binning1d.go:52-56, hbook/binning2d.go:55-66, hbook/p1d.go:581-585 *)
Definition step (n : Z) (xmin xmax : f64) : f64 := fdiv (width (rng xmin xmax)) (fofZ n).
Definition edge (n : Z) (xmin xmax : f64) (i : nat) : f64 := fadd xmin (fmul (fofZ (Z.of_nat i)) (step n xmin xmax)).
Definition uranges (n : Z) (xmin xmax : f64) : list (Range F) :=
  map (fun i => rng (edge n xmin xmax i) (edge n xmin xmax (S i))) (seq 0 (Z.to_nat n)).
(* hbook/binning1d.go:41-59 newBinning1D; (x >= y) is (y <= x) *)
Definition newBinning1D (n : Z) (xmin xmax : f64) : res (Binning1D F) :=
  if fle xmax xmin then Panic else if (n <=? 0)%Z then Panic else Ok (empty_binning (uranges n xmin xmax) (rng xmin xmax)).
(* hbook/binning2d.go:33-76 newBinning2D *)
Definition newBinning2D (nx : Z) (xlow xhigh : f64) (ny : Z) (ylow yhigh : f64) : res (Binning2D F) :=
  if fle xhigh xlow then Panic else if fle yhigh ylow then Panic else if (nx <=? 0)%Z then Panic else if (ny <=? 0)%Z then Panic else
  let xs := uranges nx xlow xhigh in let ys := uranges ny ylow yhigh in
  Ok {| bins2 := flat_map (fun yr => map (fun xr => @Build_Bin2D F xr yr Dist2D_zero) xs) ys; dist2 := Dist2D_zero;
        outflows := repeat Dist2D_zero 8; HbookModel.nx := Z.to_nat nx; HbookModel.ny := Z.to_nat ny; xedges := xs; yedges := ys |}.

(* ---- P1D ---- *)
(* hbook/p1d.go:648-651 BinP1D *)
Record BinP1D := { pxr : Range F; pdist : Dist2D F }.
(* hbook/p1d.go:561-567 binningP1D *)
Record BinningP1D := { pbins : list BinP1D; ptot : Dist2D F; punder : Dist2D F; pover : Dist2D F; pxrange : Range F; pxstep : f64 }.
(* hbook/p1d.go:569-589 newBinningP1D *)
Definition newBinningP1D (n : Z) (xmin xmax : f64) : res BinningP1D :=
  if fle xmax xmin then Panic else if (n <=? 0)%Z then Panic else
  Ok {| pbins := map (fun r => {| pxr := r; pdist := Dist2D_zero |}) (uranges n xmin xmax); ptot := Dist2D_zero; punder := Dist2D_zero; pover := Dist2D_zero;
        pxrange := rng xmin xmax; pxstep := fdiv (fofZ n) (width (rng xmin xmax)) |}.
(* int(x): what it gives for a NaN or a number out of range depends on the machine *)
Section P1D.
Variable bad : f64 -> Z.
Definition toint (x : f64) : Z :=
  let v := ftrunc x in if is_finite x && (- 2 ^ 63 <=? v)%Z && (v <? 2 ^ 63)%Z then v else bad x.
(* hbook/p1d.go:620-630 coordToIndex *)
Definition coordToIndexP (b : BinningP1D) (x : f64) : Z :=
  if flt x (rmin (pxrange b)) then UnderflowBin1D
  else if fle (rmax (pxrange b)) x then OverflowBin1D
  else toint (fmul (fsub x (rmin (pxrange b))) (pxstep b)).
(* hbook/p1d.go:609-617 fill *)
Definition fillP (b : BinningP1D) (x y w : f64) : res BinningP1D :=
  let idx := coordToIndexP b x in
  let tot := Dist2D_fill (N := F) (ptot b) x y w in
  if (idx <? 0)%Z then
    match (- idx - 1)%Z with
    | 0%Z => Ok {| pbins := pbins b; ptot := tot; punder := Dist2D_fill (punder b) x y w; pover := pover b; pxrange := pxrange b; pxstep := pxstep b |}
    | 1%Z => Ok {| pbins := pbins b; ptot := tot; punder := punder b; pover := Dist2D_fill (pover b) x y w; pxrange := pxrange b; pxstep := pxstep b |}
    | _ => Panic
    end
  else
    do bs <- upd_nth (pbins b) (Z.to_nat idx) (fun bn => {| pxr := pxr bn; pdist := Dist2D_fill (pdist bn) x y w |});
    Ok {| pbins := bs; ptot := tot; punder := punder b; pover := pover b; pxrange := pxrange b; pxstep := pxstep b |}.
(* hbook/p1d.go:130-132 Fill, one after the other *)
Fixpoint fillP_all (b : BinningP1D) (hs : list (f64 * f64 * f64)) : res BinningP1D :=
  match hs with [] => Ok b | (x, y, w) :: tl => do b' <- fillP b x y w; fillP_all b' tl end.
End P1D.
