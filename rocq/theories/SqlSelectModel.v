(** The columns of a SQL query over a ROOT tree, and those it has to read:
    groot/rsql/rsqldrv/driver.go.

    [SELECT *], names given with AS, and columns that are no integers, strings or booleans
    are left out. *)
From Coq Require Import ZArith List Bool.
From Verif Require Import SqlModel SqlArgsModel.
Import ListNotations.
Open Scope Z_scope.

(** What stands between SELECT and FROM, separated by commas: an expression, or several in
    one pair of parentheses. *)
Inductive item := One (t : tree) | Tuple (ts : list tree).
Definition trees (s : item) : list tree := match s with One t => [t] | Tuple ts => ts end.

(** The walk of [collectCols] (groot/rsql/rsqldrv/driver.go:387-409). *)
Fixpoint names (t : tree) : list bytes :=
  match t with
  | Cmp _ l r | Sum _ l r | And l r | Or l r => names l ++ names r
  | Paren e => names e
  | Name c => [c]
  | _ => []
  end.

(** [markBranch] (groot/rsql/rsqldrv/driver.go:378-385). *)
Definition mark (cols : list bytes) (c : bytes) : list bytes :=
  match c with
  | [] => cols
  | _ => if existsb (seqb c) cols then cols else cols ++ [c]
  end.

(** [extractDepsFromSelect], the names (groot/rsql/rsqldrv/driver.go:370-464). *)
Definition deps (sels : list item) (whr : option tree) : list bytes :=
  fold_left mark
    (flat_map names (flat_map trees sels) ++ match whr with Some t => names t | None => [] end) [].

(** The walk of [collect] (groot/rsql/rsqldrv/driver.go:469-496). *)
Fixpoint collect (t : tree) : list bytes :=
  match t with
  | Name c => [c]
  | Paren e => collect e
  | Sum _ _ _ => [[]]
  | Int _ | Str _ | Arg _ => [[]]
  | _ => []
  end.

(** [extractColsFromSelect] (groot/rsql/rsqldrv/driver.go:466-513): the columns of the
    answer. *)
Definition cols (sels : list item) : list bytes :=
  match sels with
  | s :: _ => flat_map collect (trees s)
  | [] => []
  end.

(** The expressions of the answer (groot/rsql/rsqldrv/driver.go:327-342). *)
Fixpoint exprs (ts : list tree) (args : list arg) : option (list expr) :=
  match ts with
  | [] => Some []
  | t :: ts' =>
      match newExprFrom t args with
      | Built e => match exprs ts' args with Some es => Some (e :: es) | None => None end
      | _ => None
      end
  end.

(** [Next] (groot/rsql/rsqldrv/driver.go:622-658): the values of one row are put in a slice
    with a place for each column. *)
Inductive nextres := Row (vs : list value) | NextErr | NextPanic.
Definition next (sels : list item) (args : list arg) (w : row) : nextres :=
  match sels with
  | s :: _ =>
      match exprs (trees s) args with
      | Some es =>
          match evals es w with
          | Some vs => if Nat.leb (length vs) (length (cols sels)) then Row vs else NextPanic
          | None => NextErr
          end
      | None => NextErr
      end
  | [] => NextErr
  end.
