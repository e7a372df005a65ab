(* Model of lcio/cellid.go: the decoder of cell ids.  Go's int is 64 bits. *)
From Coq Require Import ZArith List Lia Bool.
From Verif Require Import Bytes GoLib GoStrings.
Import ListNotations.
Local Open Scope Z_scope.

(* Go shifts of an int64 by a uint64 count made from an int *)
Definition shl64 (a n : Z) : Z := if wrapU 64 n <? 64 then wrapS 64 (Z.shiftl a (wrapU 64 n)) else 0.
Definition shr64 (a n : Z) : Z := Z.shiftr a (wrapU 64 n).
(* cellid.go:158-163 *)
Definition iabs (v : Z) : Z := if v <? 0 then wrapS 64 (- v) else v.

(* cellid.go:137-144 *)
Record bfield := { fname : str; foff : Z; fwidth : Z; fsigned : bool; fmask : Z }.
Definition mk_field (n : str) (off width : Z) : bfield :=
  {| fname := n; foff := off; fwidth := iabs width; fsigned := width <? 0;
     fmask := shl64 (wrapS 64 (shl64 1 (iabs width) - 1)) off |}.
(* cellid.go:67-99, one token; the field and the next offset *)
Definition parse_field (cur : Z) (tok : str) : res (bfield * Z) :=
  match split 58 tok with
  | [n; w] => match atoi w with Some w => Ok (mk_field n cur w, wrapS 64 (cur + iabs w)) | None => Panic end
  | [n; o; w] => match atoi o, atoi w with
                 | Some o, Some w => Ok (mk_field n o w, wrapS 64 (o + iabs w))
                 | _, _ => Panic
                 end
  | _ => Panic
  end.
Fixpoint parse_fields (cur : Z) (toks : list str) : res (list bfield) :=
  match toks with
  | [] => Ok []
  | t :: ts => do r <- parse_field cur t; do fs <- parse_fields (snd r) ts; Ok (fst r :: fs)
  end.
(* cellid.go:63-107 *)
Definition newBitField64 (codec : str) : res (list bfield) := parse_fields 0 (split 44 codec).
(* cellid.go:102-105 and 39: the index of a name, 0 when there is none *)
Fixpoint index_from (i : nat) (n : str) (fs : list bfield) (acc : nat) : nat :=
  match fs with [] => acc | f :: fs' => index_from (S i) n fs' (if str_eqb n (fname f) then i else acc) end.
Definition index (n : str) (fs : list bfield) : nat := index_from 0 n fs 0.
(* cellid.go:146-156 *)
Definition field_value (bits : Z) (f : bfield) : Z :=
  let v := shr64 (Z.land bits (fmask f)) (foff f) in
  if fsigned f && negb (Z.land v (shl64 1 (fwidth f - 1)) =? 0) then wrapS 64 (v - shl64 1 (fwidth f)) else v.
(* cellid.go:53-55; the ids are int32 *)
Definition id_value (id0 id1 : Z) : Z := Z.lor (Z.land id0 0xffffffff) (shl64 id1 32).
(* cellid.go:38-42 *)
Definition get (fs : list bfield) (id0 id1 : Z) (n : str) : res Z :=
  match nth_error fs (index n fs) with Some f => Ok (field_value (id_value id0 id1) f) | None => Panic end.
(* cellid.go:109-123 *)
Definition describe (fs : list bfield) : str :=
  join 44 (map (fun f => join 58 [fname f; itoa (foff f); itoa (if fsigned f then - fwidth f else fwidth f)]) fs).
