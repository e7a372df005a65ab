(** The types of the columns of a SQL query: groot/rsql/rsqldrv/types.go and
    groot/rsql/rsqldrv/driver.go. *)
From Coq Require Import ZArith List Bool.
Import ListNotations.
Open Scope Z_scope.

(** The element types of leaves; [Odd] is one that [colDescrFrom] does not support. *)
Inductive elem := EBool | EI8 | EI16 | EI32 | EI64 | EU8 | EU16 | EU32 | EU64 | EF32 | EF64 | EStr | Odd.
Inductive gotype := Scalar (e : elem) | Slice (e : elem) | Array (n : Z) (e : elem).

(** What a leaf says of itself: its element type, whether it is unsigned, whether it has a
    leaf that counts its elements, and its length. *)
Record leaf := mkleaf { l_type : elem; l_unsigned : bool; l_count : bool; l_len : Z }.

(** The switches on the element type (groot/rsql/rsqldrv/types.go:211-230). *)
Definition colElem (e : elem) (unsigned : bool) : elem :=
  match e with
  | EI8 => if unsigned then EU8 else e
  | EI16 => if unsigned then EU16 else e
  | EI32 => if unsigned then EU32 else e
  | EI64 => if unsigned then EU64 else e
  | _ => e
  end.
(** ... and (groot/rsql/rsqldrv/driver.go:432-449). *)
Definition readElem (e : elem) (unsigned : bool) : elem :=
  match e with
  | EI8 => if unsigned then EU8 else e
  | EI16 => if unsigned then EU16 else e
  | EI32 => if unsigned then EU32 else e
  | EI64 => if unsigned then EU64 else e
  | _ => e
  end.

(** The type of the variable a column is read into
    (groot/rsql/rsqldrv/driver.go:425-460). *)
Definition readType (l : leaf) : gotype :=
  let e := readElem (l_type l) (l_unsigned l) in
  if l_count l then Slice e
  else if (1 <? l_len l) && negb (match l_type l with EStr => true | _ => false end)
  then Array (l_len l) e
  else Scalar e.

(** What is told of a column: its type, its length, -1 for none, and whether it may be null. *)
Record descr := mkdescr { c_type : gotype; c_len : Z; c_null : bool }.

(** [colDescrFrom] (groot/rsql/rsqldrv/types.go:195-234); [None] is a panic. *)
Definition colDescrFrom (e : elem) (count : bool) (size : Z) (unsigned : bool) : option descr :=
  let '(len, null) :=
    if count then (2 ^ 63 - 1, true)
    else if (1 <? size) && negb (match e with EStr => true | _ => false end) then (size, false)
    else (-1, false) in
  match e with
  | Odd => None
  | _ => Some (mkdescr (Scalar (colElem e unsigned)) len null)
  end.

(** [colDescrFromLeaf] (groot/rsql/rsqldrv/types.go:180-193). *)
Definition colDescrFromLeaf (l : leaf) : option descr :=
  colDescrFrom (l_type l) (l_count l) (if l_count l then 1 else l_len l) (l_unsigned l).

(** [ColumnTypeLength] (groot/rsql/rsqldrv/driver.go:536-543). *)
Definition columnTypeLength (d : descr) : option Z := if c_len d =? -1 then None else Some (c_len d).
