(* Model of package csvutil (csv.go) and of the parts of encoding/csv it uses, with LazyQuotes, TrimLeadingSpace and UseCRLF false.
   Strings are lists of bytes; the field separator and the comment character are ASCII bytes.  The text of floating point numbers
   (strconv.FormatFloat with the format g and the shortest precision) is a parameter fmtG of the model, and so is whether a string
   begins with a blank that is not ASCII (uspace), and how much of the buffered text a write sends to the file (cut).
   Separators that encoding/csv refuses are not refused here, and the state of a reader after an error is not modelled.
   32-bit floating point numbers, structs (rows of their fields), values of other kinds, errors of the file system and of writers,
   and what Scan has stored before an error are not modelled. *)
From Coq Require Import ZArith List Bool String Ascii.
From Flocq Require Import IEEE754.BinarySingleNaN.
From Verif Require Import Bytes GoLib GoStrings F64 FloatText ScanfModel.
Import ListNotations.
Local Open Scope Z_scope.

Definition bs (s : string) : str := map (fun a => Z.of_nat (nat_of_ascii a)) (list_ascii_of_string s).

(* ---- values ---- *)
Inductive value := VBool (b : bool) | VInt (bits n : Z) | VUint (bits n : Z) | VFloat (x : f64) | VStr (s : str) | VSlice (l : list value).
(* formatValue: csvutil/csv.go:31-65 *)
Fixpoint formatValue (fmtG : f64 -> str) (quotes : bool) (v : value) : str :=
  match v with
  | VBool b => if b then bs "true" else bs "false"
  | VInt _ n => itoa n
  | VUint _ n => udec n
  | VFloat x => fmtG x
  | VStr s => if quotes then [39] ++ s ++ [39] else s
  | VSlice l => [91] ++ (fix go (l : list value) : str := match l with [] => [] | [x] => formatValue fmtG true x | x :: l' => formatValue fmtG true x ++ [44; 32] ++ go l' end) l ++ [93]
  end.
(* ---- encoding/csv, Writer ---- *)
Definition needsQuotes (comma : Z) (uspace : str -> bool) (f : str) : bool :=
  match f with
  | [] => false
  | c :: _ => str_eqb f [92; 46] || existsb (fun c => (c =? 10) || (c =? 13) || (c =? 34) || (c =? comma)) f || is_sp c || uspace f
  end.
Definition esc (f : str) : str := flat_map (fun c => if c =? 34 then [34; 34] else [c]) f.
Definition fieldText (comma : Z) (uspace : str -> bool) (f : str) : str := if needsQuotes comma uspace f then [34] ++ esc f ++ [34] else f.
Fixpoint recText (comma : Z) (uspace : str -> bool) (rec : list str) : str :=
  match rec with
  | [] => [10]
  | [f] => fieldText comma uspace f ++ [10]
  | f :: rec' => fieldText comma uspace f ++ [comma] ++ recText comma uspace rec'
  end.
(* ---- Table in write mode: what is in the file and what is in the buffer ---- *)
Record wtab := mkw { w_file : str; w_buf : str }.
Inductive wop := Header (h : str) | Row (vs : list value).
(* Table.WriteHeader: csvutil/csv.go:171-177; it writes to the file, not to the buffer *)
Definition headerLine (h : str) : str := if last h 0 =? 10 then h else h ++ [10].
(* Table.WriteRow, Table.write: csvutil/csv.go:180-221 *)
Definition rowText (fmtG : f64 -> str) (comma : Z) (uspace : str -> bool) (vs : list value) : str := recText comma uspace (map (formatValue fmtG false) vs).
Definition wstep (fmtG : f64 -> str) (comma : Z) (uspace : str -> bool) (cut : str -> nat) (w : wtab) (o : wop) : wtab :=
  match o with
  | Header h => mkw (w_file w ++ headerLine h) (w_buf w)
  | Row [] => w
  | Row vs => let all := w_buf w ++ rowText fmtG comma uspace vs in let k := cut all in mkw (w_file w ++ firstn k all) (skipn k all)
  end.
(* Create, the operations, and Table.Close: csvutil/csv.go:81-91, 126-145 *)
Definition written (fmtG : f64 -> str) (comma : Z) (uspace : str -> bool) (cut : str -> nat) (ops : list wop) : str :=
  let w := fold_left (wstep fmtG comma uspace cut) ops (mkw [] []) in w_file w ++ w_buf w.

(* Append to a file, the operations, and Table.Close: csvutil/csv.go:96-112, 126-145 *)
Definition appended (fmtG : f64 -> str) (comma : Z) (uspace : str -> bool) (cut : str -> nat) (file : str) (ops : list wop) : str :=
  let w := fold_left (wstep fmtG comma uspace cut) ops (mkw file []) in w_file w ++ w_buf w.

(* ---- encoding/csv, Reader ---- *)
(* a line with its newline, and the rest *)
Fixpoint line1 (s : str) : str * str :=
  match s with
  | [] => ([], [])
  | c :: r => if c =? 10 then ([10], r) else let '(l, q) := line1 r in (c :: l, q)
  end.
(* \r\n becomes \n, and \r at the end of the file is dropped *)
Fixpoint norm (l : str) : str :=
  match l with
  | [] => []
  | c :: r => if (c =? 13) && (match r with [] => true | [10] => true | _ => false end) then r else c :: norm r
  end.
Definition readLine (s : str) : option (str * str) := match s with [] => None | _ => let '(l, r) := line1 s in Some (norm l, r) end.
Inductive qres := QNext (f line rest : str) | QEnd (f rest : str) | QErr (rest : str).
(* a quoted field, after its first quote; the code copies up to the next quote at once *)
Fixpoint qfield (fuel : nat) (comma : Z) (line rest acc : str) : qres :=
  match fuel with
  | O => QErr rest
  | S k =>
    match line with
    | [] => match readLine rest with None => QErr [] | Some (l, r) => qfield k comma l r acc end
    | c :: l1 =>
      if c =? 34 then
        match l1 with
        | [] => QEnd acc rest
        | d :: l2 => if d =? 34 then qfield k comma l2 rest (acc ++ [34])
                     else if d =? comma then QNext acc l2 rest
                     else if d =? 10 then (match l2 with [] => QEnd acc rest | _ => QErr rest end) else QErr rest
        end
      else qfield k comma l1 rest (acc ++ [c])
    end
  end.
(* a field without quotes: up to the separator or to the newline at the end *)
Fixpoint ufield (comma : Z) (line : str) : str * option str :=
  match line with
  | [] => ([], None)
  | c :: r => if c =? comma then ([], Some r)
              else match r with
                   | [] => if c =? 10 then ([], None) else ([c], None)
                   | _ => let '(f, q) := ufield comma r in (c :: f, q)
                   end
  end.
(* the fields of a record; None is an error *)
Fixpoint fieldsOf (fuel : nat) (comma : Z) (line rest : str) : option (list str) * str :=
  match fuel with
  | O => (None, rest)
  | S k =>
    if match line with c :: _ => c =? 34 | [] => false end then
      let l1 := tl line in
      match qfield (2 * (List.length l1 + List.length rest) + 2) comma l1 rest [] with
      | QNext f l2 r2 => let '(o, r) := fieldsOf k comma l2 r2 in (option_map (cons f) o, r)
      | QEnd f r2 => (Some [f], r2)
      | QErr r2 => (None, r2)
      end
    else
      let '(f, q) := ufield comma line in
      if existsb (Z.eqb 34) f then (None, rest) else
      match q with
      | Some l2 => let '(o, r) := fieldsOf k comma l2 rest in (option_map (cons f) o, r)
      | None => (Some [f], rest)
      end
  end.
(* the state of a reader: the rest of the file, and FieldsPerRecord (0 before the first record) *)
Record reader := mkr { r_rest : str; r_nf : Z }.
Inductive rerr := ENil | EEOF | EOther.
Definition skipLine (comment : option Z) (l : str) : bool :=
  (match comment, l with Some c, d :: _ => d =? c | _, _ => false end) || str_eqb l [10] || str_eqb l [].
(* Reader.Read: comments and empty lines are skipped *)
Fixpoint readRec (fuel : nat) (comma : Z) (comment : option Z) (rd : reader) : (list str + rerr) * reader :=
  match fuel with
  | O => (inr EOther, rd)
  | S k =>
    match readLine (r_rest rd) with
    | None => (inr EEOF, rd)
    | Some (l, r) =>
      if skipLine comment l then readRec k comma comment (mkr r (r_nf rd)) else
      let '(o, r2) := fieldsOf (S (List.length l + List.length r)) comma l r in
      match o with
      | None => (inr EOther, mkr r2 (r_nf rd))
      | Some fs => if r_nf rd =? 0 then (inl fs, mkr r2 (zlen fs)) else if r_nf rd =? zlen fs then (inl fs, mkr r2 (r_nf rd)) else (inr EOther, mkr r2 (r_nf rd))
      end
    end
  end.
Definition read (comma : Z) (comment : option Z) (rd : reader) : (list str + rerr) * reader := readRec (S (List.length (r_rest rd))) comma comment rd.

(* ---- Rows: csvutil/csv.go:234-243 ---- *)
Record rows := mkrows { o_rd : reader; o_i : Z; o_n : Z; o_cur : Z; o_rec : list str; o_closed : bool; o_err : rerr }.
(* Rows.skip: csvutil/csv.go:363-373 *)
Fixpoint skip (comma : Z) (comment : option Z) (n : nat) (rd : reader) : option reader :=
  match n with
  | O => Some rd
  | S k => match read comma comment rd with (inl _, rd') => skip comma comment k rd' | (inr _, _) => None end
  end.
(* Table.ReadRows: csvutil/csv.go:149-168; None is an error *)
Definition readRows (comma : Z) (comment : option Z) (rd : reader) (beg fin : Z) : option rows :=
  match skip comma comment (Z.to_nat beg) rd with
  | None => None
  | Some rd' => Some (mkrows rd' 0 (if fin =? -1 then 2 ^ 63 - 1 else fin - beg) (beg - 1 + Z.max 0 beg) [] false ENil)
  end.
(* Rows.Next: csvutil/csv.go:378-401 *)
Definition next (comma : Z) (comment : option Z) (o : rows) : bool * rows :=
  if o_closed o then (false, o) else
  match o_err o with
  | ENil =>
    if o_i o <? o_n o then
      match read comma comment (o_rd o) with
      | (inl rec, rd) => (true, mkrows rd (o_i o + 1) (o_n o) (o_cur o + 1) rec false ENil)
      | (inr e, rd) => (false, mkrows rd (o_i o + 1) (o_n o) (o_cur o + 1) (o_rec o) false e)
      end
    else (false, mkrows (o_rd o) (o_i o + 1) (o_n o) (o_cur o + 1) (o_rec o) true ENil)
  | _ => (false, o)
  end.
(* strconv.ParseBool, ParseInt and ParseUint with base 10 *)
Definition parseBool (s : str) : option bool :=
  if existsb (str_eqb s) [bs "1"; bs "t"; bs "T"; bs "true"; bs "TRUE"; bs "True"] then Some true
  else if existsb (str_eqb s) [bs "0"; bs "f"; bs "F"; bs "false"; bs "FALSE"; bs "False"] then Some false else None.
Definition parseInt (bits : Z) (s : str) : option Z :=
  match atoi s with Some n => if (- 2 ^ (bits - 1) <=? n) && (n <? 2 ^ (bits - 1)) then Some n else None | None => None end.
Definition parseUint (bits : Z) (s : str) : option Z := match parse_udec s with Some n => if n <? 2 ^ bits then Some n else None | None => None end.
(* one field into a destination, whose kind is that of the value it holds: csvutil/csv.go:311-348 *)
Definition scan1 (rec : str) (dst : value) : option value :=
  match dst with
  | VBool _ => option_map VBool (parseBool rec)
  | VInt bits _ => option_map (VInt bits) (parseInt bits rec)
  | VUint bits _ => option_map (VUint bits) (parseUint bits rec)
  | VFloat _ => option_map VFloat (parse_float rec)
  | VStr _ => Some (VStr rec)
  | VSlice _ => None
  end.
(* Rows.scan: csvutil/csv.go:307-352 *)
Fixpoint scanAll (rec : list str) (dst : list value) : option (list value) :=
  match rec, dst with
  | f :: rec', d :: dst' => match scan1 f d, scanAll rec' dst' with Some v, Some vs => Some (v :: vs) | _, _ => None end
  | _, _ => Some dst
  end.
(* Rows.Scan: csvutil/csv.go:281-305 *)
Definition scan (o : rows) (dst : list value) : option (list value) * rows :=
  let r := match dst with [] => None | _ => scanAll (o_rec o) dst end in
  (r, mkrows (o_rd o) (o_i o) (o_n o) (o_cur o) (o_rec o) (o_closed o) (match r with Some _ => ENil | None => EOther end)).
(* for rows.Next() { rows.Scan(dst...) }: the rows that were scanned, and rows at the end *)
Fixpoint readAll (fuel : nat) (comma : Z) (comment : option Z) (o : rows) (dst : list value) : list (list value) * rows :=
  match fuel with
  | O => ([], o)
  | S k =>
    let '(b, o1) := next comma comment o in
    if b then match scan o1 dst with
              | (Some vs, o2) => let '(l, o3) := readAll k comma comment o2 dst in (vs :: l, o3)
              | (None, o2) => ([], o2)
              end
    else ([], o1)
  end.
