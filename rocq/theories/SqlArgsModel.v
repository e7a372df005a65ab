(** How the tree of a SQL condition and the arguments of a query become an expression:
    groot/rsql/rsqldrv/driver.go and groot/rsql/rsqldrv/expr.go.

    A number is given as its value, not as its digits; hexadecimal and floating point
    literals and floating point arguments are left out. *)
From Coq Require Import ZArith List Bool.
From Verif Require Import SqlModel.
Import ListNotations.
Open Scope Z_scope.

(** The trees of the parser that [newExprFrom] knows, and the others. An operator is [None]
    when [operatorFrom] answers [opInvalid] (groot/rsql/rsqldrv/expr.go:1214-1250).
    [Arg None] is an argument with a name that is not :v and a number. *)
Inductive tree :=
| Cmp (o : option op) (l r : tree)
| Paren (e : tree)
| And (l r : tree)
| Or (l r : tree)
| Name (c : bytes)
| Int (z : Z)
| Str (s : bytes)
| Bool (b : bool)
| Arg (i : option Z)
| Sum (o : option op) (l r : tree)
| Other.

(** The arguments: signed, unsigned, strings, and what [idealValArgFrom] does not know. *)
Inductive arg := AI (z : Z) | AU (z : Z) | AS (s : bytes) | AX.

(** An expression, an error, or a panic in the call of the user. *)
Inductive built := Built (e : expr) | Failed | Panic.

(** [idealValArgFrom] (groot/rsql/rsqldrv/expr.go:1366-1381). *)
Definition idealValArgFrom (a : arg) : built :=
  match a with
  | AI z => Built (Lit (VI IInt z))
  | AU z => Built (Lit (VI IUint z))
  | AS s => Built (Lit (VS s))
  | AX => Panic
  end.

(** [newValueExpr] (groot/rsql/rsqldrv/expr.go:1313-1364). *)
Definition newInt (z : Z) : built :=
  if (lo IInt <=? z) && (z <=? hi IInt) then Built (Lit (VI IInt z)) else Failed.
Definition newArg (i : option Z) (args : list arg) : built :=
  match i with
  | None => Failed
  | Some i =>
      let i := i - 1 in
      if i <? 0 then Panic
      else match nth_error args (Z.to_nat i) with
           | Some a => idealValArgFrom a
           | None => Panic
           end
  end.

(** [newExprFrom] (groot/rsql/rsqldrv/driver.go:681-763). *)
Fixpoint newExprFrom (t : tree) (args : list arg) : built :=
  match t with
  | Cmp o l r =>
      match o with
      | None => Failed
      | Some o =>
          match newExprFrom l args with
          | Built a => match newExprFrom r args with Built b => Built (Bin o a b) | x => x end
          | x => x
          end
      end
  | Paren e => newExprFrom e args
  | And l r =>
      match newExprFrom l args with
      | Built a => match newExprFrom r args with Built b => Built (Bin AndAnd a b) | x => x end
      | x => x
      end
  | Or l r =>
      match newExprFrom l args with
      | Built a => match newExprFrom r args with Built b => Built (Bin OrOr a b) | x => x end
      | x => x
      end
  | Name c => Built (Col c)
  | Int z => newInt z
  | Str s => Built (Lit (VS s))
  | Bool b => Built (Lit (VB b))
  | Arg i => newArg i args
  | Sum o l r =>
      match newExprFrom l args with
      | Built a =>
          match newExprFrom r args with
          | Built b => match o with Some o => Built (Bin o a b) | None => Failed end
          | x => x
          end
      | x => x
      end
  | Other => Failed
  end.
