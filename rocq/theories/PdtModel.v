(* Model of the particle data tables of package heppdt: parser.go, pdt.go, particle.go, resonance.go, utils.go.
   Maps are lists of pairs, the newest first.  Errors of the stream are not modelled. *)
From Coq Require Import ZArith List Bool.
From Flocq Require Import IEEE754.BinarySingleNaN.
From Verif Require Import Bytes GoLib GoStrings F64 F64Arith FloatText PidModel YodaModel.
Import ListNotations.
Local Open Scope Z_scope.

(* bytes.Trim(s, " \t\r\n") *)
Definition ws (c : Z) : bool := (c =? 32) || (c =? 9) || (c =? 13) || (c =? 10).
Fixpoint dropws (s : str) : str := match s with c :: r => if ws c then dropws r else s | [] => [] end.
Definition trim (s : str) : str := rev (dropws (rev (dropws s))).
Definition tokens (s : str) : list str := filter (fun t => match t with [] => false | _ => true end) (map trim (split 32 s)).
Definition const (m e : Z) : f64 := match fromdec false m e with Some x => x | None => B754_zero false end.
Definition zero : f64 := B754_zero false.
Definition minusOne : f64 := Bopp (const 1 0).
Definition hbar : f64 := const 658211889 (-33).
Definition epsilon : f64 := const 1 (-20).
(* calcWidthFromLifetime: heppdt/utils.go:7-15 *)
Definition calcWidth (lt : f64) : f64 := if flt lt epsilon then zero else fdiv hbar lt.
(* Particle: heppdt/particle.go:12-22; the width is that of its resonance, sigma is zero *)
Record particle := mkpart { p_id : Z; p_name : str; p_mass : f64; p_charge : f64; p_width : f64 }.
(* Resonance.Lifetime: heppdt/resonance.go:17-24, the value *)
Definition lifetime (p : particle) : f64 := fdiv hbar (p_width p).
(* Particle.IsStable: heppdt/particle.go:25-37 *)
Definition isStable (p : particle) : bool :=
  if feq (p_width p) minusOne then false
  else if fgt (p_width p) zero || fgt (lifetime p) zero then match lifetime p with B754_infinity false => true | _ => false end
  else true.
Record table := mktable { t_pdt : list (Z * particle); t_pid : list (str * Z) }.
(* one line: heppdt/parser.go:47-137; None is an error *)
Definition rowOf (ts : list str) : option particle :=
  match ts with
  | [a; b; c; d; e; f] =>
    match atoi a, atoi c, parse_float d, parse_float e, parse_float f with
    | Some i, Some q, Some m, Some w, Some l =>
      Some (mkpart i b m (fmul (ofInt q) (if isQBall i then const 1 (-2) else fdiv (const 1 0) (const 3 0)))
                   (if fgt w zero then w else if feq w minusOne then minusOne else if fgt l zero then calcWidth l else zero))
    | _, _, _, _, _ => None
    end
  | _ => None
  end.
Definition skipped (l : str) : bool := match l with [] => true | c :: r => (c =? 35) || ((c =? 47) && match r with d :: _ => d =? 47 | [] => false end) end.
(* the loop: heppdt/parser.go:20-139; the table and whether there is no error *)
Fixpoint parseLines (ls : list str) (t : table) : table * bool :=
  match ls with
  | [] => (t, true)
  | l :: ls' =>
    let l := trim l in
    if skipped l then parseLines ls' t
    else match rowOf (tokens l) with
         | None => (t, false)
         | Some p => parseLines ls' (mktable ((p_id p, p) :: t_pdt t) ((p_name p, p_id p) :: t_pid t))
         end
  end.
(* bufio.Scanner stops at a line that does not fit its buffer, with its newline; its error is not looked at: heppdt/parser.go:140-144 *)
Fixpoint scanned (ls : list str) : list str := match ls with l :: ls' => if Z.of_nat (List.length l) <? 65536 then l :: scanned ls' else [] | [] => [] end.
(* New: heppdt/pdt.go:22-30; parse: heppdt/parser.go:16-145 *)
Definition newTable (s : str) : table * bool := parseLines (map dropCR (scanned (rawlines (split 10 s)))) (mktable [] []).
(* Table.ParticleByID: heppdt/pdt.go:48-54 *)
Definition byID (t : table) (i : Z) : option particle := match find (fun x => fst x =? i) (t_pdt t) with Some x => Some (snd x) | None => None end.
(* Table.ParticleByName: heppdt/pdt.go:57-68 *)
Definition byName (t : table) (n : str) : option particle := match find (fun x => str_eqb (fst x) n) (t_pid t) with Some x => byID t (snd x) | None => None end.
(* Table.Len: heppdt/pdt.go:38-40 *)
Definition len (t : table) : nat := List.length (nodup Z.eq_dec (map fst (t_pdt t))).
