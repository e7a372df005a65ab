(* Model of fmt.Fscanf for the formats of packages hepevt and lhef: verbs %d, %f and %E separated by one blank, and a newline at the end.
   The text that is read is a list of bytes; what is left of it is returned.  None is an error; what has been stored before the error
   is not modelled.  Blanks are those of ASCII.  Hexadecimal floating point numbers, the digit separator _ and the exponent p are
   not modelled: here they are errors. *)
From Coq Require Import ZArith List Bool.
From Flocq Require Import IEEE754.BinarySingleNaN.
From Verif Require Import Bytes GoLib GoStrings F64 FloatText FloatDigits.
Import ListNotations.
Local Open Scope Z_scope.

Definition is_sp (c : Z) : bool := ((9 <=? c) && (c <=? 13)) || (c =? 32).
(* ss.SkipSpace, when a newline is not a blank *)
Fixpoint skipSpace (s : str) : option str :=
  match s with
  | [] => Some []
  | c :: r => if c =? 10 then None else if is_sp c then skipSpace r else Some s
  end.
(* ss.accept for one byte, zero or more bytes *)
Definition accept (p : Z -> bool) (s : str) : str * str := match s with c :: r => if p c then ([c], r) else ([], s) | [] => ([], []) end.
Fixpoint accepts (p : Z -> bool) (s : str) : str * str :=
  match s with
  | c :: r => if p c then let '(a, b) := accepts p r in (c :: a, b) else ([], s)
  | [] => ([], [])
  end.
Definition is_sign (c : Z) : bool := (c =? 43) || (c =? 45).
(* ss.scanInt for the verb %d and an integer of so many bits *)
Definition scanInt (bits : Z) (s : str) : option (Z * str) :=
  match skipSpace s with
  | None => None
  | Some s1 =>
    let '(sg, s2) := accept is_sign s1 in
    let '(ds, s3) := accepts is_digit s2 in
    match ds with
    | [] => None
    | _ => match atoi (sg ++ ds) with
           | Some n => if (- 2 ^ (bits - 1) <=? n) && (n <? 2 ^ (bits - 1)) then Some (n, s3) else None
           | None => None
           end
    end
  end.
(* ss.floatToken *)
Definition anyof (l : list Z) (c : Z) : bool := existsb (Z.eqb c) l.
(* three letters, as long as they are accepted: the text, whether it is complete, and the rest *)
Definition word3 (a b c : list Z) (s : str) : str * bool * str :=
  let '(t1, s1) := accept (anyof a) s in
  match t1 with
  | [] => ([], false, s1)
  | _ => let '(t2, s2) := accept (anyof b) s1 in
         match t2 with
         | [] => (t1, false, s2)
         | _ => let '(t3, s3) := accept (anyof c) s2 in
                match t3 with [] => (t1 ++ t2, false, s3) | _ => (t1 ++ t2 ++ t3, true, s3) end
         end
  end.
Definition floatToken (s : str) : str * str :=
  let '(t0, ok0, s0) := word3 [110; 78] [97; 65] [110; 78] s in          (* NaN *)
  if ok0 then (t0, s0) else
  let '(t1, s1) := accept is_sign s0 in
  let '(t2, ok2, s2) := word3 [105; 73] [110; 78] [102; 70] s1 in        (* Inf *)
  if ok2 then (t0 ++ t1 ++ t2, s2) else
  let '(t3, s3) := accepts is_digit s2 in
  let '(t4, s4) := accept (Z.eqb 46) s3 in
  let '(t5, s5) := match t4 with [] => ([], s4) | _ => accepts is_digit s4 end in
  let '(t6, s6) := accept (anyof [101; 69]) s5 in
  let '(t7, s7) := match t6 with [] => ([], s6) | _ => accept is_sign s6 end in
  let '(t8, s8) := match t6 with [] => ([], s7) | _ => accepts is_digit s7 end in
  (t0 ++ t1 ++ t2 ++ t3 ++ t4 ++ t5 ++ t6 ++ t7 ++ t8, s8).
Definition scanFloat (s : str) : option (f64 * str) :=
  match skipSpace s with
  | None => None
  | Some s1 => let '(t, r) := floatToken s1 in match parse_float t with Some x => Some (x, r) | None => None end
  end.
(* the operands *)
Inductive verb := PD (bits : Z) | PF.
Inductive sval := SI (n : Z) | SF (x : f64).
Definition scanOne (v : verb) (s : str) : option (sval * str) :=
  match v with
  | PD bits => match scanInt bits s with Some (n, r) => Some (SI n, r) | None => None end
  | PF => match scanFloat s with Some (x, r) => Some (SF x, r) | None => None end
  end.
(* ss.advance: a blank of the format *)
Definition blank (s : str) : option str :=
  match s with
  | [] => Some []
  | c :: r => if c =? 10 then None else if is_sp c then Some (snd (accepts (fun c => is_sp c && negb (c =? 10)) r)) else None
  end.
(* ss.advance: a newline of the format *)
Fixpoint newline (s : str) : option str :=
  match s with
  | [] => Some []
  | c :: r => if c =? 10 then Some r else if is_sp c then newline r else None
  end.
(* Fscanf(r, "%d %f ...\n", ...) *)
Fixpoint scanMore (vs : list verb) (s : str) : option (list sval * str) :=
  match vs with
  | [] => match newline s with Some r => Some ([], r) | None => None end
  | v :: vs' => match blank s with
                | None => None
                | Some s1 => match scanOne v s1 with
                             | None => None
                             | Some (x, s2) => match scanMore vs' s2 with Some (xs, r) => Some (x :: xs, r) | None => None end
                             end
                end
  end.
Definition fscanf (vs : list verb) (s : str) : option (list sval * str) :=
  match vs with
  | [] => scanMore [] s
  | v :: vs' => match scanOne v s with
                | None => None
                | Some (x, s2) => match scanMore vs' s2 with Some (xs, r) => Some (x :: xs, r) | None => None end
                end
  end.
