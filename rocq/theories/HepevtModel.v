(* Model of package hepevt: events and their text (ascii_io.go).
   Errors of the reader and of the writer are not modelled; an error of Decode is Ok None, and what it has stored in the event
   before is not modelled.  A slice s[:n] with n above the length of s panics here; in Go it does above the capacity.  Decode reads
   from a text that is given at once, as a list of bytes, and gives what is left of it (fmt.Fscanf reads the newline of its format
   and nothing after it). *)
From Coq Require Import ZArith List Bool String.
From Flocq Require Import IEEE754.BinarySingleNaN.
From Verif Require Import Bytes GoLib GoStrings F64 FloatText FloatDigits ScanfModel.
Import ListNotations.
Local Open Scope Z_scope.

(* hepevt/hepevt.go:13-22; [2]int, [5]float64 and [4]float64 are tuples *)
Definition p5 := (f64 * f64 * f64 * f64 * f64)%type.
Definition v4 := (f64 * f64 * f64 * f64)%type.
Record event := mkevt { nevhep : Z; nhep : Z; isthep : list Z; idhep : list Z; jmohep : list (Z * Z); jdahep : list (Z * Z); phep : list p5; vhep : list v4 }.

(* int is 64 bits wide *)
Definition w64 (n : Z) : Z := (n + 2 ^ 63) mod 2 ^ 64 - 2 ^ 63.
Definition fE6 (x : f64) : str := fmt_E 7 x.      (* %E *)
Definition sep (l : list str) : str := join 32 l.
(* hepevt/ascii_io.go:30-42 *)
Definition encLine (ist id : Z) (m d : Z * Z) (p : p5) (v : v4) : str :=
  let '(p0, p1, p2, p3, p4) := p in let '(x, y, z, t) := v in
  sep [itoa ist; itoa id; itoa (w64 (fst m + 1)); itoa (w64 (snd m + 1)); itoa (w64 (fst d + 1)); itoa (w64 (snd d + 1));
       fE6 p0; fE6 p1; fE6 p2; fE6 p3; fE6 p4; fE6 x; fE6 y; fE6 z; fE6 t] ++ [10].
Fixpoint encLines (e : event) (i n : nat) : res str :=
  match n with
  | O => Ok []
  | S n' =>
    match nth_error (isthep e) i, nth_error (idhep e) i, nth_error (jmohep e) i, nth_error (jdahep e) i, nth_error (phep e) i, nth_error (vhep e) i with
    | Some ist, Some id, Some m, Some d, Some p, Some v =>
      match encLines e (S i) n' with Ok t => Ok (encLine ist id m d p v ++ t) | Panic => Panic end
    | _, _, _, _, _, _ => Panic
    end
  end.
(* Encoder.Encode: hepevt/ascii_io.go:23-48 *)
Definition encode (e : event) : res str :=
  match encLines e 0 (Z.to_nat (nhep e)) with
  | Ok t => Ok (sep [itoa (nevhep e); itoa (nhep e)] ++ [10] ++ t)
  | Panic => Panic
  end.

(* the resizing of one slice to n elements: hepevt/ascii_io.go:68-83, where l is the length of Isthep *)
Definition resize {A} (zero : A) (l n : Z) (s : list A) : res (list A) :=
  if l >? n then (if (n <? 0) || (zlen s <? n) then Panic else Ok (firstn (Z.to_nat n) s)) else Ok (s ++ repeat zero (Z.to_nat (n - l))).
Definition bindr {A B} (r : res A) (f : A -> res B) : res B := match r with Ok a => f a | Panic => Panic end.
Definition zf : f64 := B754_zero false.
Definition resizeAll (e : event) (nev n : Z) : res event :=
  let l := zlen (isthep e) in
  bindr (resize 0 l n (isthep e)) (fun a =>
  bindr (resize 0 l n (idhep e)) (fun b =>
  bindr (resize (0, 0) l n (jmohep e)) (fun c =>
  bindr (resize (0, 0) l n (jdahep e)) (fun d =>
  bindr (resize (zf, zf, zf, zf, zf) l n (phep e)) (fun p =>
  bindr (resize (zf, zf, zf, zf) l n (vhep e)) (fun v =>
  Ok (mkevt nev n a b c d p v))))))).
Fixpoint upd {A} (l : list A) (i : nat) (a : A) : res (list A) :=
  match l, i with
  | [], _ => Panic
  | _ :: l', O => Ok (a :: l')
  | x :: l', S j => bindr (upd l' j a) (fun r => Ok (x :: r))
  end.
Definition lineFmt : list verb := [PD 64; PD 64; PD 64; PD 64; PD 64; PD 64; PF; PF; PF; PF; PF; PF; PF; PF; PF].
(* hepevt/ascii_io.go:85-105 *)
Definition has {A} (l : list A) (i : nat) : bool := Nat.ltb i (List.length l).
Fixpoint decLines (e : event) (i n : nat) (s : str) : res (option (event * str)) :=
  match n with
  | O => Ok (Some (e, s))
  | S n' =>
    if has (isthep e) i && has (idhep e) i && has (jmohep e) i && has (jdahep e) i && has (phep e) i && has (vhep e) i then
      match fscanf lineFmt s with
      | Some ([SI ist; SI id; SI m0; SI m1; SI d0; SI d1; SF p0; SF p1; SF p2; SF p3; SF p4; SF x; SF y; SF z; SF t], r) =>
        bindr (upd (isthep e) i ist) (fun a =>
        bindr (upd (idhep e) i id) (fun b =>
        bindr (upd (jmohep e) i (w64 (m0 - 1), w64 (m1 - 1))) (fun c =>
        bindr (upd (jdahep e) i (w64 (d0 - 1), w64 (d1 - 1))) (fun d =>
        bindr (upd (phep e) i (p0, p1, p2, p3, p4)) (fun p =>
        bindr (upd (vhep e) i (x, y, z, t)) (fun v =>
        decLines (mkevt (nevhep e) (nhep e) a b c d p v) (S i) n' r))))))
      | _ => Ok None
      end
    else Panic
  end.
(* Decoder.Decode: hepevt/ascii_io.go:61-107 *)
Definition decode (e : event) (s : str) : res (option (event * str)) :=
  match fscanf [PD 64; PD 64] s with
  | Some ([SI nev; SI n], r) => bindr (resizeAll e nev n) (fun e' => decLines e' 0 (Z.to_nat n) r)
  | _ => Ok None
  end.
