(* Specification of the content of a ROOT file: the objects and directories accepted so far, directory by directory,
   in order, without bytes, positions or cycles. *)
From Coq Require Import ZArith List Lia Bool.
From Verif Require Import Bytes GoLib GoStrings RbytesProofs FreelistModel KeyModel KeyProofs KeyProps DirModel CompressModel RfileModel.
Import ListNotations.
Local Open Scope Z_scope.

(* what was accepted under a name: an object (the function that gives its bytes) or a directory (its number) *)
Record entry := mkEntry { eName : str; eTitle : str; eClass : str; eBody : content }.
Definition store := list (list entry).

(* the name an object goes under: the one given or, when it is empty, the object's own *)
Definition put_as (name : str) (o : object (Z -> option (list Z))) : str :=
  match name, oNamed o with [], Some (n, _) => n | _, _ => name end.
Definition put_title (o : object (Z -> option (list Z))) : str := match oNamed o with Some (_, t) => t | None => [] end.
Definition add_entry (i : nat) (e : entry) (st : store) : store := set_nth st i (nth i st [] ++ [e]).
(* an operation that succeeded adds one entry to its directory, Mkdir adds an empty directory as well *)
Definition apply (o : op) (ok : bool) (st : store) : store :=
  if negb ok then st
  else
    match o with
    | OPut i name ob _ => add_entry i (mkEntry (put_as name ob) (put_title ob) (GoName2Cxx (oClass ob)) (CObj (oData ob))) st
    | OMkdir i name _ => add_entry i (mkEntry name name sTDirectory (CDir (length st))) st ++ [[]]
    end.
Fixpoint applies (ops : list op) (oks : list bool) (st : store) : store :=
  match ops, oks with
  | o :: ops', b :: oks' => applies ops' oks' (apply o b st)
  | _, _ => st
  end.

Definition named (name : str) (es : list entry) : list entry := filter (fun e => str_eqb (eName e) name) es.
(* a name means the last entry of that name, name;c the c-th one *)
Definition lookup (nc : str * option Z) (es : list entry) : option entry :=
  match snd nc with
  | None => List.last (map Some (named (fst nc) es)) None
  | Some c => nth_error (named (fst nc) es) (Z.to_nat (c - 1))
  end.
Definition nc_string (nc : str * option Z) : str :=
  match snd nc with None => fst nc | Some c => namecycle (fst nc) c end.
Definition nc_ok (nc : str * option Z) : Prop :=
  ~ In semicolon (fst nc) /\ match snd nc with None => True | Some c => 1 <= c <= 32767 /\ c <> 9999 end.

Definition root_entry (name : str) : entry := mkEntry name [] sTFile (CDir 0).
Fixpoint locate (st : store) (e : entry) (path : list (str * option Z)) : option entry :=
  match path with
  | [] => Some e
  | nc :: path' =>
      match eBody e with
      | CObj _ => None
      | CDir j => match lookup nc (nth j st []) with None => None | Some e' => locate st e' path' end
      end
  end.

(* directories written under the class TDirectory are read under the class TDirectoryFile *)
Definition shown_class (e : entry) : str := match eBody e with CDir _ => sTDirectoryFile | CObj _ => eClass e end.
(* the cycle of each entry: its rank among the entries of its name *)
Fixpoint cycles (before es : list entry) : list Z :=
  match es with
  | [] => []
  | e :: es' => (zlen (named (eName e) before) + 1) :: cycles (before ++ [e]) es'
  end.
(* an object that was read is the one that was put: same class, and the bytes that it gives for the offset at which
   they are read; a directory has the same list of names, titles, classes and cycles *)
Definition shows (st : store) (e : entry) (o : robj) : Prop :=
  match eBody e, o with
  | CObj mar, RLeaf class p off => class = eClass e /\ mar off = Some p
  | CDir j, RDir d =>
      map kName (rKeys d) = map eName (nth j st []) /\ map kTitle (rKeys d) = map eTitle (nth j st []) /\
      map kClass (rKeys d) = map shown_class (nth j st []) /\ map kCycle (rKeys d) = cycles [] (nth j st [])
  | _, _ => False
  end.

(* ---- what may be put ---- *)
(* size of the header of a key of a small file *)
Definition enc_len (name title class : str) : Z := 26 + tstringSizeof class + tstringSizeof name + tstringSizeof title.
Definition maxkey : Z := 32760.    (* eight bytes below the limit of 16 bits *)
(* the compressed payload is loaded back (C16 says when) *)
Definition loads (cdc : codec) (p out : list Z) : Prop :=
  forall rest, load cdc (zlen p) (zlen out) (out ++ rest) = Ok (Some p).
Definition payload_ok (cdc : codec) (compr : Z) (p : list Z) : Prop :=
  zlen p < 2 ^ 31 /\ forall out, Compress cdc p compr = Ok (Some out) -> zlen out < 2 ^ 31 - 2 ^ 15 /\ loads cdc p out.
Definition op_ok (cdc : codec) (compr : Z) (o : op) : Prop :=
  match o with
  | OPut _ name ob now =>
      let n := put_as name ob in let t := put_title ob in let c := GoName2Cxx (oClass ob) in
      date_ok now /\ str_ok n /\ str_ok t /\ str_ok c /\ enc_len n t c < maxkey /\ ~ In semicolon n /\
      c <> sTDirectory /\ c <> sTDirectoryFile /\ c <> sTBasket /\
      forall off p, oData ob off = Some p -> payload_ok cdc compr p
  | OMkdir _ name now =>
      date_ok now /\ str_ok name /\ ~ In semicolon name /\ enc_len name name sTDirectory < maxkey
  end.
