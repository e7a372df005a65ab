(* Model of the YODA text of one-dimensional histograms and profiles, version 2, in package hbook: h1d.go, p1d.go, yoda.go, io.go.
   The YAML text of annotations (gopkg.in/yaml.v3) is a parameter, in both directions; so are the mean and the area, which are written
   in comments.  A histogram or profile is here the rows of its table: the sums, and the number of entries.  The zero value is read into.
   Version 1 of the format, lines of 65536 bytes or more, and what is stored before an error are not modelled: version 1 is an error here. *)
From Coq Require Import ZArith List Bool String Ascii.
From Flocq Require Import IEEE754.BinarySingleNaN.
From Verif Require Import Bytes GoLib GoStrings F64 FloatText ScanfModel.
Import ListNotations.
Local Open Scope Z_scope.

Definition ys (s : string) : str := map (fun a => Z.of_nat (nat_of_ascii a)) (list_ascii_of_string s).
Definition prefixb (p s : str) : bool := str_eqb (firstn (List.length p) s) p.
(* bytes.Index *)
Fixpoint index (p s : str) : option nat :=
  if prefixb p s then Some O else match s with [] => None | _ :: r => option_map S (index p r) end.
(* bufio.Scanner with ScanLines *)
Definition dropCR (l : str) : str := if last l 0 =? 13 then removelast l else l.
Fixpoint rawlines (ls : list str) : list str := match ls with [] => [] | [[]] => [] | l :: ls' => l :: rawlines ls' end.
Definition lines (s : str) : list str := map dropCR (rawlines (split 10 s)).

(* float64(n) and int64(x) for 64-bit integers; what int64 does with NaN, Inf and numbers out of range is that of amd64 *)
Definition ofInt (n : Z) : f64 := match fromdec (n <? 0) (Z.abs n) 0 with Some x => x | None => B754_zero false end.
Definition toInt (x : f64) : Z :=
  match x with
  | B754_zero _ => 0
  | B754_finite s m e _ => let t := if 0 <=? e then Zpos m * 2 ^ e else Zpos m / 2 ^ (- e) in
                           let n := if s then - t else t in if (- 2 ^ 63 <=? n) && (n <? 2 ^ 63) then n else - 2 ^ 63
  | _ => - 2 ^ 63
  end.
(* ---- formats of Fscanf with text: a byte, a blank, a verb, and the newline at the end ---- *)
Inductive dir := DL (c : Z) | DB | DV.
Fixpoint fscand (ds : list dir) (s : str) : option (list f64) :=
  match ds with
  | [] => match newline s with Some _ => Some [] | None => None end
  | DL c :: ds' => match s with d :: r => if d =? c then fscand ds' r else None | [] => None end
  | DB :: ds' => match blank s with Some r => fscand ds' r | None => None end
  | DV :: ds' => match scanFloat s with Some (x, r) => match fscand ds' r with Some l => Some (x :: l) | None => None end | None => None end
  end.
Fixpoint more (n : nat) : list dir := match n with O => [] | S k => DB :: DV :: more k end.
Definition floats (n : nat) : list dir := match n with O => [] | S k => DV :: more k end.

(* ---- kinds: what the table is called, where it starts, the lines before it, how it ends and how many sums a row has ---- *)
Record kind := mkkind { k_name : str; k_mark : str; k_pre : f64 -> f64 -> list str; k_cols : str; k_end : str; k_sums : nat }.
Definition histo : kind :=
  mkkind (ys "HISTO1D") (10 :: ys "# Mean:")
    (fun mean area => [ys "# Mean: " ++ fmt_e 7 mean; ys "# Area: " ++ fmt_e 7 area; join 9 [ys "# ID"; ys " ID"; ys " sumw"; ys " sumw2"; ys " sumwx"; ys " sumwx2"; ys " numEntries"]])
    (join 9 [ys "# xlow"; ys " xhigh"; ys " sumw"; ys " sumw2"; ys " sumwx"; ys " sumwx2"; ys " numEntries"]) (ys "END YODA_HISTO1D") 4.
Definition profile : kind :=
  mkkind (ys "PROFILE1D") ((10 :: ys "# ID") ++ 9 :: ys " ID" ++ [9])
    (fun _ _ => [join 9 [ys "# ID"; ys " ID"; ys " sumw"; ys " sumw2"; ys " sumwx"; ys " sumwx2"; ys " sumwy"; ys " sumwy2"; ys " numEntries"]])
    (join 9 [ys "# xlow"; ys " xhigh"; ys " sumw"; ys " sumw2"; ys " sumwx"; ys " sumwx2"; ys " sumwy"; ys " sumwy2"; ys " numEntries"]) (ys "END YODA_PROFILE1D_V2") 6.
(* a row: the sums and the number of entries; the edges of a bin come first *)
Record row := mkrow { sums : list f64; entries : Z }.
Record table := mktab { t_total : row; t_under : row; t_over : row; t_bins : list row }.
Definition rowText (r : row) : str := join 9 (map (fmt_e 7) (sums r ++ [ofInt (entries r)])).
Definition named (w gap : str) (r : row) : str := w ++ gap ++ w ++ gap ++ rowText r.
Definition nl (l : str) : str := l ++ [10].
Definition total : str := ys "Total". Definition under : str := ys "Underflow". Definition over : str := ys "Overflow".
Definition gap3 : str := [32; 32; 32; 9]. Definition gap1 : str := [9].
(* H1D.marshalYODAv2: hbook/h1d.go:426-474; P1D.marshalYODAv2: hbook/p1d.go:245-291; path is the entry Path of the annotations and yaml their text *)
Definition tableLines (k : kind) (mean area : f64) (t : table) : list str :=
  k_pre k mean area ++ [named total gap3 (t_total t); named under gap1 (t_under t); named over gap1 (t_over t); k_cols k] ++ map rowText (t_bins t).
Definition marshal (k : kind) (path yaml : str) (mean area : f64) (t : table) : str :=
  nl (ys "BEGIN YODA_" ++ k_name k ++ ys "_V2 " ++ path) ++ yaml ++ ys "---" ++ [10] ++
  flat_map nl (tableLines k mean area t) ++ nl (ys "END YODA_" ++ k_name k ++ ys "_V2") ++ [10].

(* ---- reading ---- *)
(* the operands: the last one is the number of entries *)
Definition scanRow (ds : list dir) (l : str) : option row :=
  match fscand ds l with Some xs => Some (mkrow (removelast xs) (toInt (last xs (B754_zero false)))) | None => None end.
Definition namedFmt (w : str) (n : nat) : list dir := map DL w ++ [DB] ++ map DL w ++ [DB] ++ floats n.
Record state := mkst { s_total : option row; s_under : option row; s_over : option row; s_bins : list row }.
(* the loop over the lines: hbook/h1d.go:641-721, hbook/p1d.go:464-552 *)
Fixpoint loop (k : kind) (ls : list str) (st : state) : option state :=
  match ls with
  | [] => Some st
  | l :: ls' =>
    match l with
    | [] => loop k ls' st
    | c :: _ =>
      if c =? 35 then loop k ls' st
      else if prefixb (k_end k) l then Some st
      else match s_total st, prefixb (total ++ gap3) l with
      | None, true => match scanRow (namedFmt total (S (k_sums k))) l with Some r => loop k ls' (mkst (Some r) (s_under st) (s_over st) (s_bins st)) | None => None end
      | _, _ =>
        match s_under st, prefixb (under ++ gap1) l with
        | None, true => match scanRow (namedFmt under (S (k_sums k))) l with Some r => loop k ls' (mkst (s_total st) (Some r) (s_over st) (s_bins st)) | None => None end
        | _, _ =>
          match s_over st, prefixb (over ++ gap1) l with
          | None, true => match scanRow (namedFmt over (S (k_sums k))) l with Some r => loop k ls' (mkst (s_total st) (s_under st) (Some r) (s_bins st)) | None => None end
          | None, false => None
          | Some _, _ => match scanRow (floats (3 + k_sums k)) l with Some r => loop k ls' (mkst (s_total st) (s_under st) (s_over st) (s_bins st ++ [r])) | None => None end
          end
        end
      end
    end
  end.
Definition zrow (k : kind) : row := mkrow (repeat (B754_zero false) (k_sums k)) 0.
Definition orow (k : kind) (o : option row) : row := match o with Some r => r | None => zrow k end.
(* readYODAHeader: hbook/yoda.go:16-36 *)
Definition header (k : kind) (s : str) : option str :=
  match index [10] s with
  | None => None
  | Some p => if prefixb (ys "BEGIN YODA_" ++ k_name k ++ ys "_V2 ") (firstn (S p) s) then Some (skipn (S p) s) else None
  end.
(* H1D.unmarshalYODAv2: hbook/h1d.go:608-729; P1D.unmarshalYODAv2: hbook/p1d.go:431-558; the annotations and the table *)
Definition unmarshal {A : Type} (unyaml : str -> option A) (k : kind) (s : str) : option (A * table) :=
  match header k s with
  | None => None
  | Some r =>
    match index (k_mark k) r with
    | None => None
    | Some p =>
      match unyaml (firstn (S p) r) with
      | None => None
      | Some a => match loop k (lines (skipn p r)) (mkst None None None []) with
                  | None => None
                  | Some st => Some (a, mktab (orow k (s_total st)) (orow k (s_under st)) (orow k (s_over st)) (s_bins st))
                  end
      end
    end
  end.
(* ---- annotations: maps from keys to values, among them strings ---- *)
Inductive aval := AStr (s : str) | AOther (n : Z).
Definition ann := str -> option aval.
Definition is (k k' : str) : bool := str_eqb k k'.
(* H1D.Name: hbook/h1d.go:65-75 *)
Definition annName (a : ann) : str := match a (ys "name") with Some (AStr s) => s | _ => [] end.
(* H1D.annToYODA: hbook/h1d.go:333-349; P1D.annToYODA: hbook/p1d.go:154-170; an entry title goes before an entry Title, in Go either may *)
Definition toYODA (ty : str) (a : ann) : ann := fun k =>
  if is k (ys "name") || is k (ys "title") then None
  else if is k (ys "Title") then (match a (ys "title"), a (ys "Title") with Some v, _ => Some v | None, Some v => Some v | None, None => Some (AStr []) end)
  else match a k with
       | Some v => Some v
       | None => if is k (ys "Type") then Some (AStr ty) else if is k (ys "Path") then Some (AStr (47 :: annName a)) else None
       end.
(* H1D.annFromYODA: hbook/h1d.go:352-370; P1D.annFromYODA: hbook/p1d.go:173-191; None: the path is not a string, panic *)
Definition trim1 (s : str) : str := match s with c :: r => if c =? 47 then r else s | [] => [] end.
Definition fromYODA (y : ann) : option ann :=
  match y (ys "Path") with
  | Some (AOther _) => None
  | p => Some (fun k =>
      if is k (ys "Type") || is k (ys "Path") || is k (ys "Title") then None
      else if is k (ys "name") then (match p with Some (AStr s) => Some (AStr (trim1 s)) | _ => y k end)
      else if is k (ys "title") then (match y (ys "Title") with Some v => Some v | None => y k end)
      else y k)
  end.
