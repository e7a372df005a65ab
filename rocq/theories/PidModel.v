(* Model of heppdt/pid.go, all of it.  A particle id is a Go int of 64 bits.  Charge is modelled as the fraction it is computed from:
   the integer times 1/3 or 1/30; the rounding of the product is not. *)
From Coq Require Import ZArith List Lia Bool.
From Verif Require Import GoLib Bytes.
Import ListNotations.
Local Open Scope Z_scope.

(* pid.go:15-27 *)
Definition Nj := 1. Definition Nq3 := 2. Definition Nq2 := 3. Definition Nq1 := 4. Definition Nl := 5. Definition Nr := 6. Definition N := 7. Definition N8 := 8. Definition N9 := 9. Definition N10 := 10.
(* 111-117 *)
Definition absPID (pid : Z) : Z := if pid >=? 0 then pid else wrapS 64 (- pid).
(* 49-51 *)
Definition extraBits (pid : Z) : Z := Z.quot (absPID pid) 10000000.
(* 72-77: math.Pow is exact for these powers *)
Definition digit (pid loc : Z) : Z := Z.rem (Z.quot (absPID pid) (10 ^ (loc - 1))) 10.
(* 57-69 *)
Definition fundamentalID (pid : Z) : Z :=
  if (digit pid N10 =? 1) && (digit pid N9 =? 0) then 0
  else if (digit pid Nq2 =? 2) && (digit pid Nq1 =? 0) then Z.rem (absPID pid) 10000
  else if absPID pid <=? 102 then absPID pid else 0.
(* 155-187 *)
Definition isMeson (pid : Z) : bool :=
  if extraBits pid >? 0 then false
  else if absPID pid <=? 100 then false
  else if (fundamentalID pid <=? 100) && (fundamentalID pid >? 0) then false
  else let apid := absPID pid in
  if (apid =? 130) || (apid =? 310) || (apid =? 210) then true
  else if (apid =? 150) || (apid =? 350) || (apid =? 510) || (apid =? 530) then true
  else if (pid =? 110) || (pid =? 990) || (pid =? 9990) then true
  else if (digit pid Nj >? 0) && (digit pid Nq3 >? 0) && (digit pid Nq2 >? 0) && (digit pid Nq1 =? 0)
  then negb ((digit pid Nq3 =? digit pid Nq2) && (pid <? 0))
  else false.
(* 190-204 *)
Definition isBaryon (pid : Z) : bool :=
  if extraBits pid >? 0 then false
  else if absPID pid <=? 100 then false
  else if (fundamentalID pid <=? 100) && (fundamentalID pid >? 0) then false
  else if (absPID pid =? 2110) || (absPID pid =? 2210) then true
  else (digit pid Nj >? 0) && (digit pid Nq3 >? 0) && (digit pid Nq2 >? 0) && (digit pid Nq1 >? 0).
(* 207-225 *)
Definition isDiQuark (pid : Z) : bool :=
  if extraBits pid >? 0 then false
  else if absPID pid <=? 100 then false
  else if (fundamentalID pid <=? 100) && (fundamentalID pid >? 0) then false
  else (digit pid Nj >? 0) && (digit pid Nq3 =? 0) && (digit pid Nq2 >? 0) && (digit pid Nq1 >? 0).
(* 276-307 *)
Definition isPentaquark (pid : Z) : bool :=
  if extraBits pid >? 0 then false
  else if negb (digit pid N =? 9) then false
  else if (digit pid Nr =? 9) || (digit pid Nr =? 0) then false
  else if (digit pid Nj =? 9) || (digit pid Nl =? 0) then false
  else if digit pid Nq1 =? 0 then false
  else if digit pid Nq2 =? 0 then false
  else if digit pid Nq3 =? 0 then false
  else if digit pid Nj =? 0 then false
  else if digit pid Nq2 >? digit pid Nq1 then false
  else if digit pid Nq1 >? digit pid Nl then false
  else if digit pid Nl >? digit pid Nr then false
  else true.
(* 228-240 *)
Definition isHadron (pid : Z) : bool := if extraBits pid >? 0 then false else isMeson pid || isBaryon pid || isPentaquark pid.
(* 243-251 *)
Definition isLepton (pid : Z) : bool := if extraBits pid >? 0 then false else (11 <=? fundamentalID pid) && (fundamentalID pid <=? 18).
(* 468-489 *)
Definition A (pid : Z) : Z := if absPID pid =? 2212 then 1 else if negb (digit pid N10 =? 1) || negb (digit pid N9 =? 0) then 0 else Z.rem (Z.quot (absPID pid) 10) 1000.
Definition Zn (pid : Z) : Z := if absPID pid =? 2212 then 1 else if negb (digit pid N10 =? 1) || negb (digit pid N9 =? 0) then 0 else Z.rem (Z.quot (absPID pid) 10000) 1000.
(* 260-273 *)
Definition isNucleus (pid : Z) : bool := if absPID pid =? 2212 then true else (digit pid N10 =? 1) && (digit pid N9 =? 0) && (A pid >=? Zn pid).
(* 310-324; IsQBall, 385-399, has the same text *)
Definition isSUSY (pid : Z) : bool :=
  if extraBits pid >? 0 then false
  else if negb (digit pid N =? 1) && negb (digit pid N =? 2) then false
  else if negb (digit pid Nr =? 0) then false
  else negb (fundamentalID pid =? 0).
Definition isQBall (pid : Z) : bool :=
  if extraBits pid >? 0 then false
  else if negb (digit pid N =? 1) && negb (digit pid N =? 2) then false
  else if negb (digit pid Nr =? 0) then false
  else negb (fundamentalID pid =? 0).
(* 327-350 *)
Definition isRhadron (pid : Z) : bool :=
  if extraBits pid >? 0 then false
  else if negb (digit pid N =? 1) then false
  else if negb (digit pid Nr =? 0) then false
  else if isSUSY pid then false
  else if digit pid Nq2 =? 0 then false
  else if digit pid Nq3 =? 0 then false
  else if digit pid Nj =? 0 then false
  else true.
(* 353-379 *)
Definition isDyon (pid : Z) : bool :=
  if extraBits pid >? 0 then false
  else if negb (digit pid N =? 4) then false
  else if negb (digit pid Nr =? 1) then false
  else if negb (digit pid Nl =? 1) && negb (digit pid Nl =? 2) then false
  else if digit pid Nq3 =? 0 then false
  else if negb (digit pid Nj =? 0) then false
  else true.
(* 120-152 *)
Definition isValid (pid : Z) : bool :=
  if extraBits pid >? 0 then isNucleus pid || isQBall pid
  else isSUSY pid || isRhadron pid || isDyon pid || isMeson pid || isBaryon pid || isDiQuark pid || (fundamentalID pid >? 0) || isPentaquark pid.
(* 80-108: the loop over i = 6, ..., 2 *)
Fixpoint findR (pid q iz : Z) (is : list Z) : bool :=
  match is with
  | [] => false
  | i :: is' => if digit pid i =? 0 then findR pid q i is' else if i =? iz - 1 then findR pid q iz is' else if digit pid i =? q then true else findR pid q iz is'
  end.
Definition findQ (pid q : Z) : bool :=
  if isDyon pid then false
  else if isRhadron pid then findR pid q 7 [6; 5; 4; 3; 2]
  else if (digit pid Nq3 =? q) || (digit pid Nq2 =? q) || (digit pid Nq1 =? q) then true
  else isPentaquark pid && ((digit pid Nl =? q) || (digit pid Nr =? q)).
(* 402-465: q = 2 up, 1 down, 3 strange, 4 charm, 5 bottom, 6 top *)
Definition has (q pid : Z) : bool := if extraBits pid >? 0 then false else if fundamentalID pid >? 0 then false else findQ pid q.
(* 492-504 *)
Definition lambda (pid : Z) : Z := if absPID pid =? 2212 then 0 else if isNucleus pid then digit pid N8 else 0.
(* 507-528 *)
Definition jSpin (pid : Z) : Z :=
  let fid := fundamentalID pid in
  if (fid >? 0) && (fid <=? 100) then
    if (fid >? 0) && (fid <? 7) then 2 else if fid =? 9 then 3 else if (fid >? 10) && (fid <? 17) then 2 else if (fid >? 20) && (fid <? 25) then 3 else 0
  else if extraBits pid >? 0 then 0 else Z.rem (absPID pid) 10.
(* 532-584 *)
Definition lSpin (pid : Z) : Z :=
  if negb (isMeson pid) then 0
  else if Z.rem (Z.quot (absPID pid) 1000000) 10 =? 9 then 0
  else match Z.rem (Z.quot (absPID pid) 10000) 10, Z.rem (absPID pid) 10 with
  | 0, 3 => 0 | 0, 5 => 1 | 0, 7 => 2 | 0, 9 => 3 | 0, 1 => 0
  | 1, 3 => 1 | 1, 5 => 2 | 1, 7 => 3 | 1, 9 => 4
  | 2, 3 => 1 | 2, 5 => 2 | 2, 7 => 3 | 2, 9 => 4 | 1, 1 => 1
  | 3, 3 => 2 | 3, 5 => 3 | 3, 7 => 4 | 3, 9 => 5
  | _, _ => 0 end.
(* 587-615 *)
Definition sSpin (pid : Z) : Z :=
  if negb (isMeson pid) then 0
  else if Z.rem (Z.quot (absPID pid) 1000000) 10 =? 9 then 0
  else let nl := Z.rem (Z.quot (absPID pid) 10000) 10 in let js := Z.rem (absPID pid) 10 in
  if (nl =? 0) && (js >=? 3) then 1 else if (nl =? 0) && (js =? 1) then 0 else if (nl =? 1) && (js >=? 3) then 0 else if (nl =? 2) && (js >=? 3) then 1
  else if (nl =? 1) && (js =? 1) then 1 else if (nl =? 3) && (js >=? 3) then 1 else 0.
(* 617-628 *)
Definition ch100 : list Z :=
  [-1; 2; -1; 2; -1; 2; -1; 2; 0; 0; -3; 0; -3; 0; -3; 0; -3; 0; 0; 0; 0; 0; 0; 3; 0; 0; 0; 0; 0; 0; 0; 0; 0; 3; 0; 0; 3; 0; 0; 0; 0; -1; 0; 0; 0; 0; 0; 0; 0; 0; 0; 6; 3; 6; 0; 0; 0; 0; 0; 0]
  ++ repeat 0 40.
(* an index out of range panics *)
Definition ch (i : Z) : res Z := if (i <? 0) || (100 <=? i) then Panic else Ok (nth (Z.to_nat i) ch100 0).
(* 683-688 *)
Definition signed (pid charge : Z) : Z := if charge =? 0 then 0 else if pid <? 0 then - charge else charge.
(* 631-690 *)
Definition threeCharge (pid : Z) : res Z :=
  let q1 := digit pid Nq1 in let q2 := digit pid Nq2 in let q3 := digit pid Nq3 in let ida := absPID pid in let fid := fundamentalID pid in
  if ida =? 0 then Ok 0
  else if extraBits pid >? 0 then
    if isNucleus pid then Ok (3 * Zn pid) else if isQBall pid then Ok (signed pid (3 * Z.rem (Z.quot ida 10) 10000)) else Ok 0
  else if isDyon pid then Ok (signed pid (if digit pid Nl =? 2 then - (3 * Z.rem (Z.quot ida 10) 1000) else 3 * Z.rem (Z.quot ida 10) 1000))
  else if (fid >? 0) && (fid <=? 100) then
    do c <- ch (fid - 1);
    let c := if (ida =? 1000017) || (ida =? 1000018) then 0 else c in
    let c := if (ida =? 1000034) || (ida =? 1000052) then 0 else c in
    let c := if (ida =? 1000053) || (ida =? 1000054) then 0 else c in
    let c := if (ida =? 5100061) || (ida =? 5100062) then 6 else c in
    Ok (signed pid c)
  else if digit pid Nj =? 0 then Ok 0
  else if (q1 =? 0) || (isRhadron pid && (q1 =? 9)) then
    if (q2 =? 3) || (q2 =? 5) then do a <- ch (q3 - 1); do b <- ch (q2 - 1); Ok (signed pid (a - b))
    else do a <- ch (q2 - 1); do b <- ch (q3 - 1); Ok (signed pid (a - b))
  else if q3 =? 0 then do a <- ch (q2 - 1); do b <- ch (q1 - 1); Ok (signed pid (a + b))
  else if isBaryon pid || (isRhadron pid && (digit pid Nl =? 9)) then do a <- ch (q3 - 1); do b <- ch (q2 - 1); do c <- ch (q1 - 1); Ok (signed pid (a + b + c))
  else Ok 0.
(* 696-702: numerator and denominator *)
Definition charge (pid : Z) : res (Z * Z) := do c <- threeCharge pid; Ok (c, if isQBall pid then 30 else 3).
(* 705-711 *)
Definition quarks (pid : Z) : Z * Z * Z := (digit pid Nq1, digit pid Nq2, digit pid Nq3).
