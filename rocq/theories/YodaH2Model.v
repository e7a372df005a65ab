(* Model of the YODA text of two-dimensional histograms, version 2, in package hbook: h2d.go, binning2d.go.
   The YAML text of annotations is a parameter, as in YodaModel.v, and so are the means and the volume, which are written in a comment.
   A bin is a row: the edges in x and y, the sums and the number of entries.  Outflows are not written, and are zero in what is read. *)
From Coq Require Import ZArith List Bool String.
From Flocq Require Import IEEE754.BinarySingleNaN.
From Verif Require Import Bytes GoLib GoStrings F64 F64Arith FloatText ScanfModel YodaModel YodaCnvModel.
Import ListNotations.
Local Open Scope Z_scope.

(* the bin of column ix and line iy is the one with index iy*nx+ix *)
Record table2 := mktab2 { u_total : row; u_nx : nat; u_ny : nat; u_bins : list row }.
Definition zbin : row := mkrow (repeat (B754_zero false) 11) 0.
Definition binAt (t : table2) (ix iy : nat) : row := nth (iy * u_nx t + ix) (u_bins t) zbin.
Definition histo2 : kind :=
  mkkind (ys "HISTO2D") (10 :: ys "# Mean:") (fun _ _ => []) (join 9 (map ys ["# xlow"; " xhigh"; " ylow"; " yhigh"; " sumw"; " sumw2"; " sumwx"; " sumwx2"; " sumwy"; " sumwy2"; " sumwxy"; " numEntries"]%string)) (ys "END YODA_HISTO2D_V2") 7.
Definition written (t : table2) : list row := flat_map (fun ix => map (fun iy => binAt t ix iy) (seq 0 (u_ny t))) (seq 0 (u_nx t)).
Definition lines2 (mx my vol : f64) (t : table2) : list str :=
  [ys "# Mean: (" ++ fmt_e 7 mx ++ ys ", " ++ fmt_e 7 my ++ ys ")"; ys "# Volume: " ++ fmt_e 7 vol;
   join 9 (map ys ["# ID"; " ID"; " sumw"; " sumw2"; " sumwx"; " sumwx2"; " sumwy"; " sumwy2"; " sumwxy"; " numEntries"]%string);
   named total gap3 (u_total t); ys "# 2D outflow persistency not currently supported until API is stable"; k_cols histo2] ++ map rowText (written t).
(* H2D.marshalYODAv2: hbook/h2d.go:368-409 *)
Definition marshal2 (path yaml : str) (mx my vol : f64) (t : table2) : str :=
  nl (ys "BEGIN YODA_" ++ k_name histo2 ++ ys "_V2 " ++ path) ++ yaml ++ ys "---" ++ [10] ++
  flat_map nl (lines2 mx my vol t) ++ nl (ys "END YODA_" ++ k_name histo2 ++ ys "_V2") ++ [10].

(* the loop over the lines: hbook/h2d.go:559-616 *)
Fixpoint loop2 (ls : list str) (tot : option row) : option (option row * list row) :=
  match ls with
  | [] => Some (tot, [])
  | l :: ls' =>
    match l with
    | [] => loop2 ls' tot
    | c :: _ =>
      if c =? 35 then loop2 ls' tot
      else if prefixb (k_end histo2) l then Some (tot, [])
      else match tot, prefixb (total ++ gap3) l with
           | None, true => match scanRow (namedFmt total 8) l with Some r => loop2 ls' (Some r) | None => None end
           | None, false => None
           | Some _, _ => match scanRow (floats 12) l with
                          | Some r => match loop2 ls' tot with Some (t, bs) => Some (t, r :: bs) | None => None end
                          | None => None
                          end
           end
    end
  end.
(* the number of keys of a map whose keys are floating point numbers *)
Definition distinct (l : list f64) : list f64 := fold_left (fun acc x => if existsb (feq x) acc then acc else x :: acc) l [].
Definition cell (i : nat) (r : row) : f64 := nth i (sums r) (B754_zero false).
Definition lowest (i : nat) (l : list row) : f64 := fold_left (fun m b => goMin m (cell i b)) l (B754_infinity false).
Definition highest (i : nat) (l : list row) : f64 := fold_left (fun m b => goMax m (cell i b)) l (B754_infinity true).
(* newBinning2D: hbook/binning2d.go:33-76; the edges along an axis, by which Fill finds a bin: all of the same width *)
Definition edges (n : nat) (lo hi : f64) : list (f64 * f64) :=
  let w := fdiv (fsub hi lo) (ofInt (Z.of_nat n)) in
  map (fun i => (fadd lo (fmul (ofInt (Z.of_nat i)) w), fadd lo (fmul (ofInt (Z.of_nat (S i))) w))) (seq 0 n).
Record binned2 := mkb2 { h_tab : table2; h_xedges : list (f64 * f64); h_yedges : list (f64 * f64) }.
(* H2D.unmarshalYODAv2: hbook/h2d.go:526-626; the two loops that transpose the bins set each bin once *)
Definition unmarshal2 {A : Type} (unyaml : str -> option A) (s : str) : res (option (A * binned2)) :=
  match header histo2 s with
  | None => Ok None
  | Some r =>
    match index (k_mark histo2) r with
    | None => Ok None
    | Some p =>
      match unyaml (firstn (S p) r) with
      | None => Ok None
      | Some a =>
        match loop2 (lines (skipn p r)) None with
        | None => Ok None
        | Some (tot, bs) =>
          let nx := List.length (distinct (map (cell 0) bs)) in
          let ny := List.length (distinct (map (cell 2) bs)) in
          if fge (lowest 0 bs) (highest 1 bs) || fge (lowest 2 bs) (highest 3 bs) then Panic
          else if Nat.ltb (List.length bs) (nx * ny) then Panic
          else Ok (Some (a, mkb2 (mktab2 (orow histo2 tot) nx ny (map (fun j => nth ((j mod nx) * ny + j / nx) bs zbin) (seq 0 (nx * ny))))
                                 (edges nx (lowest 0 bs) (highest 1 bs)) (edges ny (lowest 2 bs) (highest 3 bs))))
        end
      end
    end
  end.
(* the column or line of a number, when there is one, by which Fill finds a bin.  Bin1Ds.IndexOf: hbook/bin1d.go:133-146 *)
Definition column (es : list (f64 * f64)) (v : f64) : option nat :=
  let at_ i := nth i es (B754_zero false, B754_zero false) in
  let i := go_search (List.length es) (fun i => flt v (snd (at_ i))) in
  if Nat.eqb i (List.length es) then None else if fle (fst (at_ i)) v && flt v (snd (at_ i)) then Some i else None.
