(** Conditions and rows of SQL queries over ROOT trees: groot/rsql/rsqldrv/expr.go,
    groot/rsql/rsqldrv/types.go and the row loop of groot/rsql/rsqldrv/driver.go.

    Left out: floating point columns and literals (their cases have the same shape as those
    of the integers), the SQL parser (github.com/xwb1989/sqlparser, an expression is given
    as its tree), the digits of literals, values that are arrays or slices, and the
    goroutine that hands over the rows (the rows come in the order of the entries). *)
From Coq Require Import ZArith List Bool Lia.
Import ListNotations.
Open Scope Z_scope.

Definition bytes := list Z.

(** The integer types a value of an expression can have
    (groot/rsql/rsqldrv/types.go:15-19; the cases of groot/rsql/rsqldrv/expr.go:122-225).
    [IInt] and [IUint] are the types of literals and of arguments, [idealInt] and
    [idealUint]. *)
Inductive kind := I8 | I16 | I32 | I64 | U8 | U16 | U32 | U64 | IInt | IUint.

Definition kind_eqb (a b : kind) : bool :=
  match a, b with
  | I8, I8 | I16, I16 | I32, I32 | I64, I64 | U8, U8 | U16, U16 | U32, U32 | U64, U64
  | IInt, IInt | IUint, IUint => true
  | _, _ => false
  end.

(** The smallest and the largest value of a Go integer type. *)
Definition lo (k : kind) : Z :=
  match k with
  | I8 => - 2 ^ 7 | I16 => - 2 ^ 15 | I32 => - 2 ^ 31 | I64 | IInt => - 2 ^ 63
  | U8 | U16 | U32 | U64 | IUint => 0
  end.
Definition hi (k : kind) : Z :=
  match k with
  | I8 => 2 ^ 7 - 1 | I16 => 2 ^ 15 - 1 | I32 => 2 ^ 31 - 1 | I64 | IInt => 2 ^ 63 - 1
  | U8 => 2 ^ 8 - 1 | U16 => 2 ^ 16 - 1 | U32 => 2 ^ 32 - 1 | U64 | IUint => 2 ^ 64 - 1
  end.

(** Arithmetic and conversions of Go integers wrap around. *)
Definition wrap (k : kind) (z : Z) : Z := (z - lo k) mod (hi k - lo k + 1) + lo k.

(** A value of an expression: the [any] of groot/rsql/rsqldrv/expr.go:17-22. *)
Inductive value := VI (k : kind) (z : Z) | VS (s : bytes) | VB (b : bool).

(** The tests under which [coerce1] converts an [idealInt]
    (groot/rsql/rsqldrv/types.go:80-127). *)
Definition fitsInt (k : kind) (x : Z) : bool :=
  match k with
  | I8 => (- 2 ^ 7 <=? x) && (x <=? 2 ^ 7 - 1)
  | I16 => (- 2 ^ 15 <=? x) && (x <=? 2 ^ 15 - 1)
  | I32 => (- 2 ^ 31 <=? x) && (x <=? 2 ^ 31 - 1)
  | I64 | IInt => true
  | U8 => (0 <=? x) && (x <=? 2 ^ 8 - 1)
  | U16 => (0 <=? x) && (x <=? 2 ^ 16 - 1)
  | U32 => (0 <=? x) && (x <=? 2 ^ 32 - 1)
  | U64 | IUint => 0 <=? x
  end.

(** ... and an [idealUint] (groot/rsql/rsqldrv/types.go:128-175). *)
Definition fitsUint (k : kind) (x : Z) : bool :=
  match k with
  | I8 => x <=? 2 ^ 7 - 1
  | I16 => x <=? 2 ^ 15 - 1
  | I32 => x <=? 2 ^ 31 - 1
  | I64 | IInt => x <=? 2 ^ 63 - 1
  | U8 => x <=? 2 ^ 8 - 1
  | U16 => x <=? 2 ^ 16 - 1
  | U32 => x <=? 2 ^ 32 - 1
  | U64 | IUint => true
  end.

(** [coerce1] (groot/rsql/rsqldrv/types.go:49-178). *)
Definition coerce1 (inVal otherVal : value) : value :=
  match inVal, otherVal with
  | VI IInt x, VI k _ => if fitsInt k x then VI k (wrap k x) else inVal
  | VI IUint x, VI k _ => if fitsUint k x then VI k (wrap k x) else inVal
  | _, _ => inVal
  end.

(** The comparison of [reflect.TypeOf] (groot/rsql/rsqldrv/types.go:22). *)
Definition sameType (a b : value) : bool :=
  match a, b with
  | VI k _, VI k' _ => kind_eqb k k'
  | VS _, VS _ => true
  | VB _, VB _ => true
  | _, _ => false
  end.

Definition ideal (v : value) : bool :=
  match v with VI IInt _ | VI IUint _ => true | _ => false end.

(** [coerce] (groot/rsql/rsqldrv/types.go:21-47). *)
Definition coerce (a b : value) : value * value :=
  if sameType a b then (a, b)
  else if ideal a then
    if ideal b then
      let x := coerce1 a b in
      if sameType x b then (x, b) else (a, coerce1 b a)
    else (coerce1 a b, b)
  else if ideal b then (a, coerce1 b a) else (a, b).

(** The operators (groot/rsql/rsqldrv/expr.go:1191-1212). [Bits] stands for the five
    operators on bits, which are accepted by [operatorFrom] and have no case in [eval]. *)
Inductive op := AndAnd | OrOr | LT | LE | GT | GE | Ne | Eq | Add | Sub | Mul | Div | Bits.

(** The result of an evaluation: a value, or an error
    (the panics are recovered, groot/rsql/rsqldrv/expr.go:54-63). *)
Inductive res := Val (v : value) | Err.

(** The order of Go strings: bytes, then length. *)
Fixpoint sltb (a b : bytes) : bool :=
  match a, b with
  | _, [] => false
  | [], _ :: _ => true
  | x :: a', y :: b' => if x =? y then sltb a' b' else x <? y
  end.
Fixpoint seqb (a b : bytes) : bool :=
  match a, b with
  | [], [] => true
  | x :: a', y :: b' => (x =? y) && seqb a' b'
  | _, _ => false
  end.

(** The switches on the types of the operands
    (groot/rsql/rsqldrv/expr.go:122-1165). *)
Definition arith (o : op) (l r : value) : res :=
  match o with
  | LT => match l, r with
          | VI k x, VI k' y => if kind_eqb k k' then Val (VB (x <? y)) else Err
          | VS x, VS y => Val (VB (sltb x y))
          | _, _ => Err end
  | LE => match l, r with
          | VI k x, VI k' y => if kind_eqb k k' then Val (VB (x <=? y)) else Err
          | VS x, VS y => Val (VB (negb (sltb y x)))
          | _, _ => Err end
  | GT => match l, r with
          | VI k x, VI k' y => if kind_eqb k k' then Val (VB (x >? y)) else Err
          | VS x, VS y => Val (VB (sltb y x))
          | _, _ => Err end
  | GE => match l, r with
          | VI k x, VI k' y => if kind_eqb k k' then Val (VB (x >=? y)) else Err
          | VS x, VS y => Val (VB (negb (sltb x y)))
          | _, _ => Err end
  | Ne => match l, r with
          | VI k x, VI k' y => if kind_eqb k k' then Val (VB (negb (x =? y))) else Err
          | VS x, VS y => Val (VB (negb (seqb x y)))
          | VB x, VB y => Val (VB (xorb x y))
          | _, _ => Err end
  | Eq => match l, r with
          | VI k x, VI k' y => if kind_eqb k k' then Val (VB (x =? y)) else Err
          | VS x, VS y => Val (VB (seqb x y))
          | VB x, VB y => Val (VB (eqb x y))
          | _, _ => Err end
  | Add => match l, r with
          | VI k x, VI k' y => if kind_eqb k k' then Val (VI k (wrap k (x + y))) else Err
          | VS x, VS y => Val (VS (x ++ y))
          | _, _ => Err end
  | Sub => match l, r with
          | VI k x, VI k' y => if kind_eqb k k' then Val (VI k (wrap k (x - y))) else Err
          | _, _ => Err end
  | Mul => match l, r with
          | VI k x, VI k' y => if kind_eqb k k' then Val (VI k (wrap k (x * y))) else Err
          | _, _ => Err end
  | Div => match l, r with
          | VI k x, VI k' y =>
              if kind_eqb k k' then
                if y =? 0 then Err else Val (VI k (wrap k (Z.quot x y)))
              else Err
          | _, _ => Err end
  | AndAnd | OrOr | Bits => Err
  end.

(** Expressions: [identExpr], [valueExpr] and [binExpr]
    (groot/rsql/rsqldrv/expr.go:33-39, 1292-1295, 1308-1311). *)
Inductive expr := Col (c : bytes) | Lit (v : value) | Bin (o : op) (l r : expr).

(** The values of the columns in a row, [vctx] (groot/rsql/rsqldrv/driver.go:569-572). *)
Definition row := bytes -> option value.

(** [eval] (groot/rsql/rsqldrv/expr.go:53-1168, 1300-1306, 1385-1387). *)
Fixpoint eval (e : expr) (w : row) : res :=
  match e with
  | Col c => match w c with Some v => Val v | None => Err end
  | Lit v => Val v
  | Bin AndAnd l r =>
      match eval l w with
      | Val (VB false) => Val (VB false)
      | Val (VB true) => match eval r w with Val (VB b) => Val (VB b) | _ => Err end
      | _ => Err
      end
  | Bin OrOr l r =>
      match eval l w with
      | Val (VB true) => Val (VB true)
      | Val (VB false) => match eval r w with Val (VB b) => Val (VB b) | _ => Err end
      | _ => Err
      end
  | Bin o l r =>
      match eval l w with
      | Val a => match eval r w with
                 | Val b => let (x, y) := coerce a b in arith o x y
                 | Err => Err
                 end
      | Err => Err
      end
  end.

(** [tupleExpr.eval] (groot/rsql/rsqldrv/expr.go:1403-1415): the columns of a SELECT. *)
Fixpoint evals (es : list expr) (w : row) : option (list value) :=
  match es with
  | [] => Some []
  | e :: es' =>
      match eval e w with
      | Val v => match evals es' w with Some vs => Some (v :: vs) | None => None end
      | Err => None
      end
  end.

(** How the rows end: after the last entry, with an error of [Next], or with a panic in
    the goroutine that reads the tree, which stops the program. *)
Inductive ending := EOF | Error | Crash.

(** The row loop (groot/rsql/rsqldrv/driver.go:562-611): the rows that [Next] gives, and
    how they end. *)
Fixpoint query (sel : list expr) (filter : option expr) (ws : list row)
  : list (list value) * ending :=
  match ws with
  | [] => ([], EOF)
  | w :: ws' =>
      let emit :=
        match evals sel w with
        | Some vs => let (o, e) := query sel filter ws' in (vs :: o, e)
        | None => ([], Error)
        end in
      match filter with
      | None => emit
      | Some f =>
          match eval f w with
          | Err => ([], Error)
          | Val (VB true) => emit
          | Val (VB false) => query sel filter ws'
          | Val _ => ([], Crash)
          end
      end
  end.
