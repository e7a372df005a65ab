(* Model of hbook 1-dim and 2-dim histograms: bins, distributions, binnings, constructors,
   filling, scaling, adding.
   Numbers (Go float64) are an arbitrary structure [Num] with comparisons and arithmetic, so
   that the same transcription can be instantiated with IEEE binary64 (f64num, comparisons as
   the hardware does, arithmetic left arbitrary) and with exact rings.
   Counters (int64 N) are unbounded integers: overflow after 2^63 fills is not modelled. *)
From Coq Require Import ZArith List Bool Arith.
From Verif Require Import GoLib F64.
Import ListNotations.

Record Num : Type := {
  num :> Type;
  nlt : num -> num -> bool;      (* x < y *)
  nle : num -> num -> bool;      (* x <= y *)
  neq : num -> num -> bool;      (* x == y *)
  nisnan : num -> bool;          (* x != x *)
  nadd : num -> num -> num;
  nmul : num -> num -> num;
  nzero : num;
  none : num;                    (* 1 *)
  nmone : num;                   (* -1 *)
  nisinf : num -> bool;          (* math.IsInf(x, +1) *)
  nisninf : num -> bool          (* math.IsInf(x, -1) *)
}.
Arguments nlt {n}. Arguments nle {n}. Arguments neq {n}. Arguments nisnan {n}.
Arguments nadd {n}. Arguments nmul {n}. Arguments nzero {n}. Arguments none {n}.
Arguments nmone {n}. Arguments nisinf {n}. Arguments nisninf {n}.

Section Hbook.
Context {N : Num}.

(* hbook/hbook.go:28-31 Range *)
Record Range := { rmin : N; rmax : N }.

(* hbook/dist.go:10-14 Dist0D *)
Record Dist0D := { dN : Z; dSumW : N; dSumW2 : N }.
(* hbook/dist.go:69-75 Dist1D *)
Record Dist1D := { d0 : Dist0D; dSumWX : N; dSumWX2 : N }.
(* hbook/dist.go:189-195 Dist2D *)
Record Dist2D := { dX : Dist1D; dY : Dist1D; dSumWXY : N }.

(* Go zero values *)
Definition Dist0D_zero : Dist0D := {| dN := 0; dSumW := nzero; dSumW2 := nzero |}.
Definition Dist1D_zero : Dist1D := {| d0 := Dist0D_zero; dSumWX := nzero; dSumWX2 := nzero |}.
Definition Dist2D_zero : Dist2D := {| dX := Dist1D_zero; dY := Dist1D_zero; dSumWXY := nzero |}.

(* hbook/dist.go:51-55 Dist0D.fill *)
Definition Dist0D_fill (d : Dist0D) (w : N) : Dist0D :=
  {| dN := dN d + 1; dSumW := nadd (dSumW d) w; dSumW2 := nadd (dSumW2 d) (nmul w w) |}.
(* hbook/dist.go:57-61 Dist0D.addScaled *)
Definition Dist0D_addScaled (d : Dist0D) (a a2 : N) (o : Dist0D) : Dist0D :=
  {| dN := dN d + dN o; dSumW := nadd (dSumW d) (nmul a (dSumW o));
     dSumW2 := nadd (dSumW2 d) (nmul a2 (dSumW2 o)) |}.
(* hbook/dist.go:63-66 Dist0D.scaleW *)
Definition Dist0D_scaleW (d : Dist0D) (f : N) : Dist0D :=
  {| dN := dN d; dSumW := nmul (dSumW d) f; dSumW2 := nmul (dSumW2 d) (nmul f f) |}.

(* hbook/dist.go:170-174 Dist1D.fill   (w*x*x parses as (w*x)*x) *)
Definition Dist1D_fill (d : Dist1D) (x w : N) : Dist1D :=
  {| d0 := Dist0D_fill (d0 d) w;
     dSumWX := nadd (dSumWX d) (nmul w x);
     dSumWX2 := nadd (dSumWX2 d) (nmul (nmul w x) x) |}.
(* hbook/dist.go:176-180 Dist1D.addScaled *)
Definition Dist1D_addScaled (d : Dist1D) (a a2 : N) (o : Dist1D) : Dist1D :=
  {| d0 := Dist0D_addScaled (d0 d) a a2 (d0 o);
     dSumWX := nadd (dSumWX d) (nmul a (dSumWX o));
     dSumWX2 := nadd (dSumWX2 d) (nmul a (dSumWX2 o)) |}.
(* hbook/dist.go:182-186 Dist1D.scaleW *)
Definition Dist1D_scaleW (d : Dist1D) (f : N) : Dist1D :=
  {| d0 := Dist0D_scaleW (d0 d) f;
     dSumWX := nmul (dSumWX d) f; dSumWX2 := nmul (dSumWX2 d) f |}.
(* hbook/dist.go:307-311 Dist2D.fill *)
Definition Dist2D_fill (d : Dist2D) (x y w : N) : Dist2D :=
  {| dX := Dist1D_fill (dX d) x w; dY := Dist1D_fill (dY d) y w;
     dSumWXY := nadd (dSumWXY d) (nmul (nmul w x) y) |}.

(* hbook/bin1d.go:10-13 Bin1D *)
Record Bin1D := { brange : Range; bdist : Dist1D }.
Definition Bin1D_new (r : Range) : Bin1D := {| brange := r; bdist := Dist1D_zero |}.
(* hbook/bin1d.go:33-35 Bin1D.fill *)
Definition Bin1D_fill (x w : N) (b : Bin1D) : Bin1D :=
  {| brange := brange b; bdist := Dist1D_fill (bdist b) x w |}.

(* hbook/binning1d.go:13-16 *)
Definition UnderflowBin1D : Z := -1.
Definition OverflowBin1D : Z := -2.

(* hbook/binning1d.go:34-39 Binning1D; Outflows[0] = under, Outflows[1] = over *)
Record Binning1D := {
  bins : list Bin1D; bdist_tot : Dist1D; under : Dist1D; over : Dist1D; xrange : Range
}.

(* hbook/bin1d.go:133-146 Bin1Ds.IndexOf, over the ranges of the bins *)
Definition IndexOf (p : list Range) (v : N) : Z :=
  let d := {| rmin := nzero; rmax := nzero |} in
  let i := go_search (length p) (fun i => nlt v (rmax (nth i p d))) in
  if i =? length p then OverflowBin1D
  else
    let rng := nth i p d in
    if (i =? 0) && nlt v (rmin rng) then UnderflowBin1D
    else if nle (rmin rng) v && nlt v (rmax rng) then Z.of_nat i
    else Z.of_nat (length p).

(* hbook/binning1d.go:161-169 coordToIndex; (x >= Max) is (Max <= x) *)
Definition coordToIndex (b : Binning1D) (x : N) : Z :=
  if nlt x (rmin (xrange b)) then UnderflowBin1D
  else if nle (rmax (xrange b)) x then OverflowBin1D
  else IndexOf (map brange (bins b)) x.

(* hbook/binning1d.go:146-158 fill *)
Definition fill (b : Binning1D) (x w : N) : res Binning1D :=
  let idx := coordToIndex b x in
  let tot := Dist1D_fill (bdist_tot b) x w in
  if (idx <? 0)%Z then
    (* Outflows[-idx-1].fill(x, w) : index 0 or 1, anything else is out of range *)
    match (- idx - 1)%Z with
    | 0%Z => Ok {| bins := bins b; bdist_tot := tot; under := Dist1D_fill (under b) x w;
                   over := over b; xrange := xrange b |}
    | 1%Z => Ok {| bins := bins b; bdist_tot := tot; under := under b;
                   over := Dist1D_fill (over b) x w; xrange := xrange b |}
    | _ => Panic
    end
  else if (idx =? Z.of_nat (length (bins b)))%Z then
    Ok {| bins := bins b; bdist_tot := tot; under := under b; over := over b; xrange := xrange b |}
  else
    do bs <- upd_nth (bins b) (Z.to_nat idx) (Bin1D_fill x w);
    Ok {| bins := bs; bdist_tot := tot; under := under b; over := over b; xrange := xrange b |}.

(* hbook/h1d.go:150-152 Fill, applied to a sequence of (x,w); FillN (h1d.go:157-171) is the
   same loop *)
Fixpoint fill_all (b : Binning1D) (hs : list (N * N)) : res Binning1D :=
  match hs with
  | [] => Ok b
  | (x, w) :: tl => do b' <- fill b x w; fill_all b' tl
  end.

(* hbook/h1d.go:157-171 FillN; ws = None models a nil slice *)
Definition fillN (b : Binning1D) (xs : list N) (ws : option (list N)) : res Binning1D :=
  match ws with
  | None => fill_all b (map (fun x => (x, none)) xs)
  | Some ws => if length xs =? length ws then fill_all b (combine xs ws) else Panic
  end.

(* hbook/h1d.go:175-181 Bin: None is the nil pointer; index out of range panics *)
Definition h1d_Bin (b : Binning1D) (x : N) : res (option nat) :=
  let idx := coordToIndex b x in
  if (idx <? 0)%Z then Ok None
  else if (Z.to_nat idx <? length (bins b)) then Ok (Some (Z.to_nat idx)) else Panic.

(* hbook/binning1d.go:171-179 scaleW *)
Definition scaleW (b : Binning1D) (f : N) : Binning1D :=
  {| bins := map (fun x => {| brange := brange x; bdist := Dist1D_scaleW (bdist x) f |}) (bins b);
     bdist_tot := Dist1D_scaleW (bdist_tot b) f;
     under := Dist1D_scaleW (under b) f;
     over := Dist1D_scaleW (over b) f;
     xrange := xrange b |}.

(* hbook/ops.go:124-147 AddScaledH1D (o is a deep copy of h1; h2.Bins[i] exists because the
   lengths are equal) *)
Definition AddScaledH1D (h1 : Binning1D) (alpha : N) (h2 : Binning1D) : res Binning1D :=
  if negb (length (bins h1) =? length (bins h2)) then Panic
  else if negb (neq (rmin (xrange h1)) (rmin (xrange h2)))
       || negb (neq (rmax (xrange h1)) (rmax (xrange h2))) then Panic
  else
    let a2 := nmul alpha alpha in
    Ok {| bins := map (fun p => {| brange := brange (fst p);
                                   bdist := Dist1D_addScaled (bdist (fst p)) alpha a2 (bdist (snd p)) |})
                      (combine (bins h1) (bins h2));
          bdist_tot := Dist1D_addScaled (bdist_tot h1) alpha a2 (bdist_tot h2);
          under := Dist1D_addScaled (under h1) alpha a2 (under h2);
          over := Dist1D_addScaled (over h1) alpha a2 (over h2);
          xrange := xrange h1 |}.
(* hbook/ops.go:151-153 and 157-159 *)
Definition AddH1D h1 h2 := AddScaledH1D h1 none h2.
Definition SubH1D h1 h2 := AddScaledH1D h1 nmone h2.

(* hbook/h1d.go:221-250 Integral, 0 arguments *)
Definition Integral0 (b : Binning1D) : N := dSumW (d0 (bdist_tot b)).
(* hbook/h1d.go:221-250 Integral, 2 arguments; (min > max) is (max < min) *)
Definition Integral2 (b : Binning1D) (mn mx : N) : res N :=
  if nlt mx mn then Panic
  else
    let s := fold_left (fun acc bn =>
               let v := rmin (brange bn) in
               if nle mn v && nlt v mx then nadd acc (dSumW (d0 (bdist bn))) else acc)
             (bins b) nzero in
    let s := if nisninf mn then nadd s (dSumW (d0 (under b))) else s in
    let s := if nisinf mx then nadd s (dSumW (d0 (over b))) else s in
    Ok s.

Definition empty_binning (rs : list Range) (xr : Range) : Binning1D :=
  {| bins := map Bin1D_new rs; bdist_tot := Dist1D_zero; under := Dist1D_zero;
     over := Dist1D_zero; xrange := xr |}.

(* Go standard library: sort.Float64Slice.Less *)
Definition f64slice_less (x y : N) : bool := nlt x y || (nisnan x && negb (nisnan y)).
(* Go standard library: sort.IsSorted: no i with Less(i, i-1) *)
Fixpoint is_sorted (l : list N) : bool :=
  match l with
  | a :: (b :: _) as tl => negb (f64slice_less b a) && is_sorted tl
  | _ => true
  end.

(* consecutive pairs of a list *)
Fixpoint pairs {A} (l : list A) : list (A * A) :=
  match l with
  | a :: (b :: _) as tl => (a, b) :: pairs tl
  | _ => []
  end.

(* hbook/binning1d.go:85-108 newBinning1DFromEdges *)
Definition newBinning1DFromEdges (edges : list N) : res Binning1D :=
  if length edges <=? 1 then Panic
  else if negb (is_sorted edges) then Panic
  else if existsb (fun p => neq (fst p) (snd p)) (pairs edges) then Panic
  else
    let n := length edges - 1 in
    Ok (empty_binning (map (fun p => {| rmin := fst p; rmax := snd p |}) (pairs edges))
                      {| rmin := nth 0 edges nzero; rmax := nth n edges nzero |}).

(* hbook/binning1d.go:61-83 newBinning1DFromBins; [sorter] is sort.Sort on Bin1Ds
   (ordered by Range.Min), any implementation *)
Definition newBinning1DFromBins (sorter : list Range -> list Range) (xbins : list Range)
  : res Binning1D :=
  if length xbins <? 1 then Panic
  else
    let bs := sorter xbins in
    let d := {| rmin := nzero; rmax := nzero |} in
    if existsb (fun p => nlt (rmin (snd p)) (rmax (fst p))) (pairs bs) then Panic
    else Ok (empty_binning bs {| rmin := rmin (nth 0 bs d);
                                 rmax := rmax (nth (length xbins - 1) bs d) |}).

(* ------------------------------------------------------------------ 2-dim *)
(* hbook/bin2d.go:8-12 Bin2D *)
Record Bin2D := { b2x : Range; b2y : Range; b2dist : Dist2D }.
Definition Bin2D_fill (x y w : N) (b : Bin2D) : Bin2D :=
  {| b2x := b2x b; b2y := b2y b; b2dist := Dist2D_fill (b2dist b) x y w |}.

(* hbook/binning2d.go:21-31 Binning2D (XRange and YRange are not used when filling) *)
Record Binning2D := {
  bins2 : list Bin2D; dist2 : Dist2D; outflows : list Dist2D;
  nx : nat; ny : nat; xedges : list Range; yedges : list Range
}.

(* hbook/binning2d.go:10-19 *)
Definition BngNW : Z := 1. Definition BngN : Z := 2. Definition BngNE : Z := 3.
Definition BngE : Z := 4.  Definition BngSE : Z := 5. Definition BngS : Z := 6.
Definition BngSW : Z := 7. Definition BngW : Z := 8.

(* hbook/binning2d.go:178-203 coordToIndex *)
Definition coordToIndex2 (b : Binning2D) (x y : N) : Z :=
  let ix := IndexOf (xedges b) x in
  let iy := IndexOf (yedges b) y in
  if (ix =? Z.of_nat (nx b))%Z && (iy =? Z.of_nat (ny b))%Z then Z.of_nat (length (bins2 b))
  else if (ix =? OverflowBin1D)%Z && (iy =? OverflowBin1D)%Z then - BngNE
  else if (ix =? OverflowBin1D)%Z && (iy =? UnderflowBin1D)%Z then - BngSE
  else if (ix =? UnderflowBin1D)%Z && (iy =? UnderflowBin1D)%Z then - BngSW
  else if (ix =? UnderflowBin1D)%Z && (iy =? OverflowBin1D)%Z then - BngNW
  else if (ix =? OverflowBin1D)%Z then - BngE
  else if (ix =? UnderflowBin1D)%Z then - BngW
  else if (iy =? OverflowBin1D)%Z then - BngN
  else if (iy =? UnderflowBin1D)%Z then - BngS
  else (iy * Z.of_nat (nx b) + ix)%Z.

(* hbook/binning2d.go:164-176 fill *)
Definition fill2 (b : Binning2D) (x y w : N) : res Binning2D :=
  let idx := coordToIndex2 b x y in
  let tot := Dist2D_fill (dist2 b) x y w in
  let mk bs os := {| bins2 := bs; dist2 := tot; outflows := os; nx := nx b; ny := ny b;
                     xedges := xedges b; yedges := yedges b |} in
  if (idx =? Z.of_nat (length (bins2 b)))%Z then Ok (mk (bins2 b) (outflows b))
  else if (idx <? 0)%Z then
    do os <- upd_nth (outflows b) (Z.to_nat (- idx - 1)) (fun d => Dist2D_fill d x y w);
    Ok (mk (bins2 b) os)
  else
    do bs <- upd_nth (bins2 b) (Z.to_nat idx) (Bin2D_fill x y w);
    Ok (mk bs (outflows b)).

Fixpoint fill2_all (b : Binning2D) (hs : list (N * N * N)) : res Binning2D :=
  match hs with
  | [] => Ok b
  | (x, y, w) :: tl => do b' <- fill2 b x y w; fill2_all b' tl
  end.

Definition mk_range (p : N * N) : Range := {| rmin := fst p; rmax := snd p |}.

(* hbook/binning2d.go:78-134 newBinning2DFromEdges: the bin at iy*nx+ix gets the ix-th x
   range and the iy-th y range, i.e. rows of x ranges for each y range.
   The duplicate-edge panics are raised while filling; the order of checks does not matter
   for the outcome. *)
Definition newBinning2DFromEdges (xe ye : list N) : res Binning2D :=
  if length xe <=? 1 then Panic
  else if negb (is_sorted xe) then Panic
  else if length ye <=? 1 then Panic
  else if negb (is_sorted ye) then Panic
  else if existsb (fun p => neq (fst p) (snd p)) (pairs xe) then Panic
  else if existsb (fun p => neq (fst p) (snd p)) (pairs ye) then Panic
  else
    let xs := map mk_range (pairs xe) in
    let ys := map mk_range (pairs ye) in
    Ok {| bins2 := flat_map (fun yr => map (fun xr => {| b2x := xr; b2y := yr; b2dist := Dist2D_zero |}) xs) ys;
          dist2 := Dist2D_zero; outflows := repeat Dist2D_zero 8;
          nx := length xe - 1; ny := length ye - 1; xedges := xs; yedges := ys |}.

End Hbook.
Arguments Range : clear implicits.
Arguments Binning1D : clear implicits.
Arguments Binning2D : clear implicits.
Arguments Dist0D : clear implicits.
Arguments Dist1D : clear implicits.
Arguments Dist2D : clear implicits.
Arguments Bin1D : clear implicits.
Arguments Bin2D : clear implicits.

(* float64: IEEE comparisons; the arithmetic is a parameter (any rounding) *)
Definition f64num (add mul : f64 -> f64 -> f64) : Num := {|
  num := f64; nlt := flt; nle := fle; neq := feq; nisnan := is_nanb;
  nadd := add; nmul := mul; nzero := fzero; none := f1; nmone := fm1;
  nisinf := fun x => feq x finf; nisninf := fun x => feq x fninf
|}.
