(* Model of package hbook/yodacnv, archives of YODA objects, and of the YODA text of scatters and profiles in package hbook: s2d.go, p1d.go.
   The YAML text of annotations is a parameter, as in YodaModel.v; so is the sorting of points: any permutation.
   What UnmarshalYODA does with each type is a parameter of the archive.  Lines of 65536 bytes or more and errors of the stream are not modelled. *)
From Coq Require Import ZArith List Bool String.
From Flocq Require Import IEEE754.BinarySingleNaN.
From Verif Require Import Bytes GoLib GoStrings F64 FloatText ScanfModel YodaModel.
Import ListNotations.
Local Open Scope Z_scope.

(* ---- archives ---- *)
Definition begYoda : str := ys "BEGIN YODA_".
Definition endYoda : str := ys "END YODA_".
Inductive otype := OH1 | OH2 | OP1 | OS2.
Inductive hdr := HType (t : otype) | HIgnore | HErr.
(* splitHeader: hbook/yodacnv/yoda.go:101-132 *)
Definition splitHeader (raw : str) : hdr :=
  let raw := skipn (List.length begYoda) raw in
  match index [32] raw with
  | None => HErr
  | Some i =>
    let n := firstn i raw in
    let is w := str_eqb n (ys w) in
    if is "HISTO1D"%string || is "HISTO1D_V2"%string then HType OH1
    else if is "HISTO2D"%string || is "HISTO2D_V2"%string then HType OH2
    else if is "PROFILE1D"%string || is "PROFILE1D_V2"%string then HType OP1
    else if is "SCATTER2D"%string || is "SCATTER2D_V2"%string then HType OS2
    else if is "PROFILE2D"%string || is "PROFILE2D_V2"%string || is "SCATTER1D"%string || is "SCATTER1D_V2"%string
         || is "SCATTER3D"%string || is "SCATTER3D_V2"%string || is "COUNTER"%string || is "COUNTER_V2"%string then HIgnore
    else HErr
  end.
(* Read: hbook/yodacnv/yoda.go:30-81; un is UnmarshalYODA of each type, None is an error; reflect.New(nil) panics *)
Fixpoint readLoop {O : Type} (un : otype -> str -> res (option O)) (ls : list str) (block : str) (rt : option otype) (ignore : bool) : res (option (list O)) :=
  match ls with
  | [] => Ok (Some [])
  | raw :: ls' =>
    if prefixb begYoda raw then
      match splitHeader raw with
      | HErr => Ok None
      | HIgnore => readLoop un ls' (nl raw) None true
      | HType t => readLoop un ls' (nl raw) (Some t) ignore
      end
    else if prefixb endYoda raw then
      let block := block ++ nl raw in
      if ignore then readLoop un ls' block rt false
      else match rt with
           | None => Panic
           | Some t => match un t block with
                       | Panic => Panic
                       | Ok None => Ok None
                       | Ok (Some o) => match readLoop un ls' block rt false with
                                        | Ok (Some os) => Ok (Some (o :: os))
                                        | e => e
                                        end
                       end
           end
    else readLoop un ls' (block ++ nl raw) rt ignore
  end.
Definition read {O : Type} (un : otype -> str -> res (option O)) (s : str) : res (option (list O)) := readLoop un (lines s) [] None false.
(* Write: hbook/yodacnv/yoda.go:84-99 *)
Definition write (texts : list str) : str := List.concat texts.

(* ---- scatters ---- *)
(* a point: x, its two errors, y and its two errors *)
Definition point := list f64.
Definition scatter : kind :=
  mkkind (ys "SCATTER2D") ((10 :: ys "# xval") ++ 9 :: ys " xerr-" ++ [9]) (fun _ _ => []) (join 9 [ys "# xval"; ys " xerr-"; ys " xerr+"; ys " yval"; ys " yerr-"; ys " yerr+"; []]) (ys "END YODA_SCATTER2D_V2") 6.
Definition pointText (p : point) : str := join 9 (map (fmt_e 7) p).
(* S2D.marshalYODAv2: hbook/s2d.go:347-370 *)
Definition marshalS (sort : list point -> list point) (path yaml : str) (pts : list point) : str :=
  nl (ys "BEGIN YODA_" ++ k_name scatter ++ ys "_V2 " ++ path) ++ yaml ++ ys "---" ++ [10] ++
  flat_map nl (k_cols scatter :: map pointText (sort pts)) ++ nl (ys "END YODA_" ++ k_name scatter ++ ys "_V2") ++ [10].
(* fmt.Fscanf whose error is not looked at: the numbers read before it *)
Fixpoint fscanp (ds : list dir) (s : str) : list f64 :=
  match ds with
  | [] => []
  | DL c :: ds' => match s with d :: r => if d =? c then fscanp ds' r else [] | [] => [] end
  | DB :: ds' => match blank s with Some r => fscanp ds' r | None => [] end
  | DV :: ds' => match scanFloat s with Some (x, r) => x :: fscanp ds' r | None => [] end
  end.
Definition scanPoint (l : str) : point := firstn 6 (fscanp (floats 6) l ++ repeat (B754_zero false) 6).
(* the loop over the lines: hbook/s2d.go:452-474 *)
Fixpoint loopS (ls : list str) : list point :=
  match ls with
  | [] => []
  | l :: ls' =>
    match l with
    | [] => loopS ls'
    | c :: _ => if c =? 35 then loopS ls' else if prefixb (k_end scatter) l then [] else scanPoint l :: loopS ls'
    end
  end.
(* S2D.unmarshalYODAv2: hbook/s2d.go:436-481 *)
Definition unmarshalS {A : Type} (sort : list point -> list point) (unyaml : str -> option A) (s : str) : option (A * list point) :=
  match header scatter s with
  | None => None
  | Some r =>
    match index (k_mark scatter) r with
    | None => None
    | Some p => match unyaml (firstn (S p) r) with
                | None => None
                | Some a => Some (a, sort (loopS (lines (skipn p r))))
                end
    end
  end.

(* ---- profiles: the range of the binning ---- *)
(* math.Min and math.Max *)
Definition goMin (x y : f64) : f64 :=
  match x, y with
  | B754_infinity true, _ | _, B754_infinity true => B754_infinity true
  | B754_nan, _ | _, B754_nan => B754_nan
  | B754_zero s, B754_zero t => B754_zero (s || t)
  | _, _ => if flt x y then x else y
  end.
Definition goMax (x y : f64) : f64 :=
  match x, y with
  | B754_infinity false, _ | _, B754_infinity false => B754_infinity false
  | B754_nan, _ | _, B754_nan => B754_nan
  | B754_zero s, B754_zero t => B754_zero (s && t)
  | _, _ => if fgt x y then x else y
  end.
Definition low (b : row) : f64 := nth 0 (sums b) (B754_zero false).
Definition high (b : row) : f64 := nth 1 (sums b) (B754_zero false).
Definition xmin (t : table) : f64 := fold_left (fun m b => goMin m (low b)) (t_bins t) (B754_infinity false).
Definition xmax (t : table) : f64 := fold_left (fun m b => goMax m (high b)) (t_bins t) (B754_infinity true).
(* P1D.unmarshalYODAv2: hbook/p1d.go:431-558, with the panics of newBinningP1D: hbook/p1d.go:569-589; without bins the range is empty too *)
Definition unmarshalP {A : Type} (unyaml : str -> option A) (s : str) : res (option (A * table)) :=
  match unmarshal unyaml profile s with
  | None => Ok None
  | Some (a, t) => if fge (xmin t) (xmax t) then Panic else Ok (Some (a, t))
  end.
(* ---- the objects of an archive; what two-dimensional histograms are read as is a parameter ---- *)
Inductive obj (A : Type) := ObjH (a : A) (t : table) | ObjP (a : A) (t : table) | ObjS (a : A) (l : list point) | ObjH2 (a : A).
Arguments ObjH {A}. Arguments ObjP {A}. Arguments ObjS {A}. Arguments ObjH2 {A}.
Definition decode {A : Type} (sort : list point -> list point) (unyaml : str -> option A) (h2 : str -> res (option A)) (t : otype) (b : str) : res (option (obj A)) :=
  match t with
  | OH1 => Ok (match unmarshal unyaml histo b with Some (a, x) => Some (ObjH a x) | None => None end)
  | OP1 => match unmarshalP unyaml b with Ok (Some (a, x)) => Ok (Some (ObjP a x)) | Ok None => Ok None | Panic => Panic end
  | OS2 => Ok (match unmarshalS sort unyaml b with Some (a, x) => Some (ObjS a x) | None => None end)
  | OH2 => match h2 b with Ok (Some a) => Ok (Some (ObjH2 a)) | Ok None => Ok None | Panic => Panic end
  end.
