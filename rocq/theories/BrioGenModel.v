(* Model of the code that brio-gen writes for a struct type (brio/cmd/brio-gen/internal/gen/gen.go): what the MarshalBinary and
   UnmarshalBinary that it prints do, by the types of the fields.
   Floats are their bits.  The types below are those for which the printed code is legal Go (see DESIGN.md for the others: what is
   printed for bool and [n]byte outside of a loop, for complex64, for slices and arrays of pointers, numbers and strings, and for
   pointers to pointers does not compile).
   Simplified: the old contents of the receiver are left out, because every field is assigned; a type that implements the
   interfaces of package encoding with code of its own is left out; make panics for a negative length only. *)
From Coq Require Import ZArith List Bool.
From Verif Require Import GoLib Bytes BrioModel.
Import ListNotations.
Open Scope Z_scope.

Inductive ty :=
| TInt (k : nat) (signed : bool)   (* an integer of k bytes; int and uint have 8 *)
| TFlt (k : nat)                   (* a float of k bytes *)
| TC128
| TString
| TBytes                           (* []byte *)
| TNamed (fs : list ty)            (* a named struct, for which the methods were printed as well *)
| TAnon (fs : list ty)             (* struct { ... } *)
| TSlice (e : ty)                  (* []struct *)
| TArr (n : nat) (e : ty)          (* [n]struct *)
| TPtr (e : ty).
Inductive val :=
| VInt (z : Z) | VCplx (re im : Z) | VStr (s : list Z) | VStruct (vs : list val) | VList (vs : list val) | VPtr (v : option val).

Section Marshal.
Variable marsh : ty -> val -> res (list Z).
(* the fields one after the other: brio/cmd/brio-gen/internal/gen/gen.go:86-90, 239-242 *)
Fixpoint fieldsM (fs : list ty) (vs : list val) : res (list Z) :=
  match fs, vs with
  | [], [] => Ok []
  | f :: fs', v :: vs' => do a <- marsh f v; do b <- fieldsM fs' vs'; Ok (a ++ b)
  | _, _ => Panic
  end.
(* for i := range x: brio/cmd/brio-gen/internal/gen/gen.go:249-256, 268-275 *)
Definition elemsM (m : val -> res (list Z)) : list val -> res (list Z) :=
  fix go vs := match vs with [] => Ok [] | v :: vs' => do a <- m v; do b <- go vs'; Ok (a ++ b) end.
End Marshal.
(* brio/cmd/brio-gen/internal/gen/gen.go:95-290 genMarshalType; a nil pointer panics, and so does what Go would not let pass *)
Fixpoint marsh (t : ty) (v : val) {struct t} : res (list Z) :=
  match t, v with
  | TInt k _, VInt z => Ok (le k z)
  | TFlt k, VInt z => Ok (le k z)
  | TC128, VCplx re im => Ok (le 8 re ++ le 8 im)
  | TString, VStr s => Ok (put8 (zlen s) ++ s)
  | TBytes, VStr s => Ok (put8 (zlen s) ++ s)
  | TNamed fs, VStruct vs => do b <- fieldsM marsh fs vs; Ok (frame b)
  | TAnon fs, VStruct vs => fieldsM marsh fs vs
  | TSlice e, VList vs => do b <- elemsM (marsh e) vs; Ok (put8 (zlen vs) ++ b)
  | TArr n e, VList vs => elemsM (marsh e) vs
  | TPtr e, VPtr (Some w) => marsh e w
  | _, _ => Panic
  end.
(* brio/cmd/brio-gen/internal/gen/gen.go:78-93 genMarshal *)
Definition marshal (fs : list ty) (vs : list val) : res (list Z) := fieldsM marsh fs vs.

(* x = binary.LittleEndian.UintN(data[..k]) and data = data[k:] *)
Definition getk (k : nat) (d : sl) : res (Z * sl) :=
  do s <- upto (Z.of_nat k) d; do d' <- from (Z.of_nat k) d; Ok (unle (bytes s), d').
(* x = data[0]; data = data[1:] *)
Definition get1 (d : sl) : res (Z * sl) := if sn d <=? 0 then Panic else do d' <- from 1 d; Ok (nth 0 (sb d) 0, d').
Definition getn (k : nat) (d : sl) : res (Z * sl) := if (k =? 1)%nat then get1 d else getk k d.
(* string(data[:n]) *)
Definition getstr (d : sl) : res (list Z * sl) :=
  do p <- get8i d; do s <- upto (fst p) (snd p); do d' <- from (fst p) (snd p); Ok (bytes s, d').
Section Unmarshal.
Variable unm : ty -> sl -> res (val * sl).
(* brio/cmd/brio-gen/internal/gen/gen.go:299-303, 416-419 *)
Fixpoint fieldsU (fs : list ty) (d : sl) : res (list val * sl) :=
  match fs with [] => Ok ([], d) | f :: fs' => do p <- unm f d; do q <- fieldsU fs' (snd p); Ok (fst p :: fst q, snd q) end.
(* brio/cmd/brio-gen/internal/gen/gen.go:427-441, 453-467 *)
Definition elemsU (u : sl -> res (val * sl)) : nat -> sl -> res (list val * sl) :=
  fix go n d := match n with O => Ok ([], d) | S n' => do p <- u d; do q <- go n' (snd p); Ok (fst p :: fst q, snd q) end.
End Unmarshal.
(* brio/cmd/brio-gen/internal/gen/gen.go:309-486 genUnmarshalType *)
Fixpoint unm (t : ty) (d : sl) {struct t} : res (val * sl) :=
  match t with
  | TInt k s => do p <- getn k d; Ok (VInt (if s then wrapS (8 * Z.of_nat k) (fst p) else fst p), snd p)
  | TFlt k => do p <- getk k d; Ok (VInt (fst p), snd p)
  | TC128 =>
    (* data[..8], then data[8:16], then data = data[16:] *)
    do s <- upto 8 d; do u <- upto 16 d; do d' <- from 16 d; Ok (VCplx (unle (bytes s)) (unle (skipn 8 (bytes u))), d')
  | TString => do p <- getstr d; Ok (VStr (fst p), snd p)
  | TBytes =>
    (* x = make([]byte, n); data = data[8:]; x = append(x, data[:n]...); data = data[n:] *)
    do p <- get8i d; do n <- mk 0 (fst p); do s <- upto (fst p) (snd p); do d' <- from (fst p) (snd p); Ok (VStr (repeat 0 n ++ bytes s), d')
  | TNamed fs => do p <- unframe (fun s => do q <- fieldsU unm fs s; Ok (fst q)) d; Ok (VStruct (fst p), snd p)
  | TAnon fs => do p <- fieldsU unm fs d; Ok (VStruct (fst p), snd p)
  | TSlice e => do p <- get8i d; do n <- mk 0 (fst p); do q <- elemsU (unm e) n (snd p); Ok (VList (fst q), snd q)
  | TArr n e => do q <- elemsU (unm e) n d; Ok (VList (fst q), snd q)
  | TPtr e => do p <- unm e d; Ok (VPtr (Some (fst p)), snd p)
  end.
(* brio/cmd/brio-gen/internal/gen/gen.go:292-307 genUnmarshal *)
Definition unmarshal (fs : list ty) (b : list Z) : res (list val) := do p <- fieldsU unm fs (full b); Ok (fst p).

(* ---- types that compile and are not read as they were written ---- *)
(* a field of type []struct{ b bool }: the index of the loop is the i of data[i]
   (brio/cmd/brio-gen/internal/gen/gen.go:327-330) *)
Definition marshBools (vs : list bool) : list Z := put8 (zlen vs) ++ map (fun b : bool => if b then 1 else 0) vs.
Fixpoint unmBools_loop (i n : nat) (d : sl) : res (list bool) :=
  match n with
  | O => Ok []
  | S n' =>
    if sn d <=? Z.of_nat i then Panic else
    do d' <- from 1 d; do tl <- unmBools_loop (S i) n' d'; Ok (negb (nth i (sb d) 0 =? 0) :: tl)
  end.
Definition unmBools (b : list Z) : res (list bool) := do p <- get8i (full b); do n <- mk 0 (fst p); unmBools_loop 0 n (snd p).
(* a field of type [n][m]S, for a struct S: the loops over i are nested and S is read to x[i][i] with the inner i
   (brio/cmd/brio-gen/internal/gen/gen.go:427-441); x holds the zero value of S at first *)
Definition marshGrid (m : val -> res (list Z)) (rows : list (list val)) : res (list Z) := elemsM (fun r => match r with VList l => elemsM m l | _ => Panic end) (map VList rows).
Definition set2 (x : list (list val)) (i j : nat) (v : val) : res (list (list val)) := upd_nth x i (fun r => firstn j r ++ v :: skipn (S j) r).
Fixpoint unmGrid_row (u : sl -> res (val * sl)) (x : list (list val)) (i m : nat) (d : sl) : res (list (list val) * sl) :=
  match m with O => Ok (x, d) | S m' => do p <- u d; do x' <- set2 x i i (fst p); unmGrid_row u x' (S i) m' (snd p) end.
Fixpoint unmGrid_loop (u : sl -> res (val * sl)) (x : list (list val)) (n m : nat) (d : sl) : res (list (list val) * sl) :=
  match n with O => Ok (x, d) | S n' => do p <- unmGrid_row u x 0 m d; unmGrid_loop u (fst p) n' m (snd p) end.
