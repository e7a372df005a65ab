(* What a user of lcio expects to find in a collection that was written and read back: which fields of an element are stored,
   depending on the flags of its collection.  Written from the documentation of the flags, not from the codecs. *)
From Coq Require Import ZArith List Bool String Permutation.
From Verif Require Import Bytes GoLib GoStrings SioModel SioProofs LcioDataModel.
Import ListNotations.
Local Open Scope Z_scope.

(* a field comes back as it was; as the zero value; as float32; cut to the length of another field; or with some fields of its
   elements as the zero value *)
Inductive fate := Kept | Lost | Rounded | CutTo (g : string) | Each (s : sch) (lost : list string).
Definition keep (b : bool) : fate := if b then Kept else Lost.
(* the fields that are not simply kept, for a collection with the flags [fl] and its element [x] *)
Definition fates (c : ctype) (fl : Z) (x : obj Z Z) : list (string * fate) :=
  let bit := Z.testbit fl in
  match c with
  | CMcParticle => (let ended := Z.testbit (int_of (fget "SimStatus" x)) 31 in
      [("Children", Lost); ("P", Rounded); ("Mass", Rounded); ("endPoint", keep ended); ("PEndPoint", if ended then Rounded else Lost)])%string
  | CSimTrackerHit => [("CellID1", keep (bit 29)); ("Momentum", keep (bit 30)); ("PathLength", keep (bit 30))]%string
  | CSimCalorimeterHit => [("Params", Lost); ("CellID1", keep (bit 29)); ("Pos", keep (bit 31));
      ("Contributions", Each contrib (if bit 28 then [] else ["PDG"; "StepPos"]))]%string
  | CRawCalorimeterHit => [("CellID1", keep (bit 29)); ("TimeStamp", keep (bit 27)); ("&", keep (negb (bit 28)))]%string
  | CCalorimeterHit => [("CellID1", keep (bit 29)); ("EnergyErr", keep (bit 26)); ("Time", keep (bit 27)); ("Pos", keep (bit 31)); ("&", keep (negb (bit 28)))]%string
  | CTrackerData | CTrackerRawData => [("CellID1", keep (bit 31))]%string
  | CTrackerHit => [("CellID1", keep (bit 29)); ("Cov", Rounded)]%string
  | CTrackerHitPlane | CTrackerHitZCylinder => [("CellID1", keep (bit 29))]%string
  | CTrackerPulse => [("CellID1", keep (bit 31)); ("Cov", keep (bit 30))]%string
  | CTrack => [("Hits", keep (bit 31))]%string
  | CCluster => [("PIDs", Each pid ["&"]); ("Hits", keep (bit 31)); ("Weights", if bit 31 then CutTo "Hits" else Lost)]%string
  | CRelation => [("Weight", keep (bit 31))]%string
  | _ => []
  end.
Definition fate_in (f : string) (l : list (string * fate)) : fate :=
  match find (fun p => (fst p =? f)%string) l with Some p => snd p | None => Kept end.
(* the zero value of a type *)
Fixpoint vzero {P} (nil : P) (t : ty) : val nat P :=
  match t with
  | TU _ | TS _ | TBool | TTag => VInt 0
  | TStr => VStr [] | TSlice _ => VList [] | TMap _ _ => VMap []
  | TStruct ts => VStruct (map (vzero nil) ts)
  | TPtr => VPtr nil
  end.
Section Back.
Variable narrow widen : Z -> Z.
Context {P : Type}.
Variable at_ : Z -> nat.                            (* the object read for an object written *)
Variable ptr : Z -> P.                              (* what a pointer to an object becomes *)
Variable nil : P.
Definition back_field (x : obj Z Z) (t : ty) (v : val Z Z) (a : fate) : val nat P :=
  match a with
  | Kept => vmap at_ ptr v
  | Lost => vzero nil t
  | Rounded => vmap at_ ptr (on_ints widen (on_ints narrow v))
  | CutTo g => VList (map (vmap at_ ptr) (firstn (List.length (list_of (fget g x))) (list_of v)))
  | Each s lost => VList (map (fun e => VStruct (map (fun fw => if existsb (String.eqb (fst (fst fw))) lost then vzero nil (snd (fst fw)) else vmap at_ ptr (snd fw))
                                                    (combine s (match e with VStruct vs => vs | _ => [] end)))) (list_of v))
  end.
Definition back (c : ctype) (fl : Z) (x : obj Z Z) : obj nat P :=
  map (fun ft => (fst ft, back_field x (snd ft) (fget (fst ft) x) (fate_in (fst ft) (fates c fl x)))) (sch_of c).
End Back.
(* the objects of an element that pointers can refer to *)
Definition ids (c : ctype) (fl : Z) (x : obj Z Z) : list Z :=
  match fate_in "&" (fates c fl x) with Kept => tags_of (fget "&" x) | _ => [] end ++
  match c with CRecParticle => tags_of (fget "PIDs" x) | _ => [] end.
(* elements as they can be made in Go; slices of up to 2^31-1 elements *)
Definition shaped (s : sch) (x : obj Z Z) : Prop :=
  Forall2 (fun ft fv => fst fv = fst ft /\ typed (snd ft) (snd fv) /\ zlen (list_of (snd fv)) < 2 ^ 31) s x.
Definition len_of (f : string) (x : obj Z Z) : Z := zlen (list_of (fget f x)).
(* collections that can be stored: clusters have a weight for each hit, generic objects of fixed size have the same size *)
Definition storable (c : ctype) (d : data Z Z) : Prop :=
  inU 32 (dflags d) /\ typed tparams (dparams d) /\ zlen (delems d) < 2 ^ 31 /\ Forall (shaped (sch_of c)) (delems d) /\
  match c with
  | CCluster => Z.testbit (dflags d) 31 = true -> forall x, In x (delems d) -> len_of "Hits" x <= len_of "Weights" x
  | CGenericObject => Z.testbit (dflags d) 31 = true -> forall x y, In x (delems d) -> In y (delems d) ->
      len_of "I32s" x = len_of "I32s" y /\ len_of "F32s" x = len_of "F32s" y /\ len_of "F64s" x = len_of "F64s" y
  | CFloatVec | CIntVec | CStrVec => False
  | _ => True
  end.
(* parameters: the same maps, whatever the order of their entries *)
Definition same_maps {T P} (p q : val T P) : Prop :=
  match p, q with
  | VStruct [VMap a; VMap b; VMap c], VStruct [VMap a'; VMap b'; VMap c'] => Permutation a a' /\ Permutation b b' /\ Permutation c c'
  | _, _ => False
  end.
