(* Model of the truncated-mantissa encodings of groot/rbytes (Float16_t, Double32_t).
   A float32 is its 32-bit pattern; [neg] is the outcome of the test v < 0. *)
From Coq Require Import ZArith List Bool QArith Qround.
From Verif Require Import Bytes.
Local Open Scope Z_scope.

(* v < 0 for the float32 with bits u: sign bit set, not a zero, not a NaN *)
Definition f32_neg (u : Z) : bool :=
  (2 ^ 31 <? u) && (u <=? 2 ^ 31 + 255 * 2 ^ 23).

(* shifts by an amount computed in uint32: Go gives 0 for counts >= the width *)
Definition shl (w v n : Z) : Z := wrapU w (Z.shiftl v n).
Definition shr (v n : Z) : Z := Z.shiftr v n.

(* wbuffer.go:340-355 and 392-407: (exp byte, uint16 mantissa) from the float32 bits, for
   nbits <= 22; note that [man&1<<nbits] is [(man&1)<<nbits] in Go (same precedence) *)
Definition encode_nbits (nbits u : Z) : Z * Z :=
  let exp := Z.land 255 (shr (shl 32 u 1) 24) in
  let man := wrapU 16 (Z.land (wrapU 32 (shl 32 1 (nbits + 1) - 1)) (shr u (23 - nbits - 1))) in
  let man := wrapU 16 (man + 1) in
  let man := shr man 1 in
  let man := if negb (shl 16 (Z.land man 1) nbits =? 0) then wrapU 16 (shl 16 1 nbits - 1) else man in
  let man := if f32_neg u then Z.lor man (shl 16 1 (nbits + 1)) else man in
  (exp, man).

(* rbuffer.go:340-355 and 379-394: the float32 bits; f = -f flips the sign bit *)
Definition decode_nbits (nbits : Z) (em : Z * Z) : Z :=
  let '(exp, man) := em in
  let val := shl 32 exp 23 in
  let val := Z.lor val (shl 32 (Z.land man (wrapU 32 (shl 32 1 (nbits + 1) - 1))) (23 - nbits)) in
  if negb (Z.land (shl 32 1 (nbits + 1)) man =? 0) then Z.lxor val (2 ^ 31) else val.

(* wbuffer.go:314-331 / 364-380 and rbuffer.go:335-338 / 374-377, over exact rationals (the
   code uses float64): clamp, scale, round; then undo *)
Definition encode_range (factor xmin xmax x : Q) : Z :=
  let x := if Qlt_le_dec x xmin then xmin else x in
  let x := if Qlt_le_dec xmax x then xmax else x in
  Qfloor ((1 # 2) + factor * (x - xmin)).
Definition decode_range (factor xmin : Q) (u : Z) : Q := (inject_Z u / factor + xmin)%Q.
