(* Model of riofs.Walk (groot/riofs/walk.go:21-89).  The directories behind are an interface: [dkeys] gives the names and
   cycles of the keys, [dget] is Get.  The function that is called has a state and returns nil, SkipDir or another error.
   The recursion has fuel; None when it is used up (the theorems say how much is enough). *)
From Coq Require Import ZArith List Lia Bool.
From Verif Require Import Bytes GoLib GoStrings KeyModel DirModel CompressModel RfileModel RecdirModel.
From Verif Require XrdSrvModel.
Import ListNotations.
Local Open Scope Z_scope.

(* path.Join of two elements *)
Definition pjoin : str -> str -> str := XrdSrvModel.pjoin.

Inductive wret (E : Type) : Type := WNil | WSkip | WErr (e : E).
Arguments WNil {E}. Arguments WSkip {E}. Arguments WErr {E} e.

(* walk.go:58-65: the largest cycle of each name *)
Definition latest_cycles (keys : list (str * Z)) : str -> option Z :=
  fold_left (fun s k =>
    let set := fun n => if str_eqb n (fst k) then Some (snd k) else s n in
    match s (fst k) with
    | Some c => if snd k <? c then s else set
    | None => set
    end) keys (fun _ => None).
(* a Go map gives 0 for a name that is not there *)
Definition cycle_of (s : str -> option Z) (n : str) : Z := match s n with Some c => c | None => 0 end.

Section Walk.
  Context {St D L V E : Type}.
  Variable dkeys : D -> St -> list (str * Z).
  Variable dget : D -> str -> St -> res (gres D L).
  (* None: the object could not be had *)
  Variable fn : V -> str -> option (D + L) -> V * wret E.

  (* walk.go:67-86: the loop over the keys *)
  Fixpoint walkloop (walk : str -> D + L -> V -> res (option (V * wret E))) (path : str) (d : D) (st : St) (set : str -> option Z)
      (keys : list (str * Z)) (v : V) : res (option (V * wret E)) :=
    match keys with
    | [] => Ok (Some (v, WNil))
    | k :: keys' =>
        if negb (snd k =? cycle_of set (fst k)) then walkloop walk path d st set keys' v
        else
          let dirname := pjoin path (fst k) in
          do g <- dget d (fst k) st;
          do r <- match g with
                  | GDir d' => walk dirname (inl d') v
                  | GObj l => walk dirname (inr l) v
                  | GNoKey | GErr => Ok (Some (fn v dirname None))
                  end;
          match r with
          | None => Ok None
          | Some (v', WErr e) => Ok (Some (v', WErr e))
          | Some (v', _) => walkloop walk path d st set keys' v'
          end
    end.
  (* walk.go:46-89 walk *)
  Fixpoint walk (fuel : nat) (path : str) (o : D + L) (v : V) (st : St) : res (option (V * wret E)) :=
    match o with
    | inr _ => Ok (Some (fn v path (Some o)))
    | inl d =>
        match fuel with
        | O => Ok None
        | S fuel' =>
            match fn v path (Some o) with
            | (v1, WNil) => walkloop (fun p o v => walk fuel' p o v st) path d st (latest_cycles (dkeys d st)) (dkeys d st) v1
            | r => Ok (Some r)
            end
        end
    end.
  (* walk.go:25-44 Walk; [name] is dir.Name() *)
  Definition Walk (fuel : nat) (name : str) (d : D) (v : V) (st : St) : res (option (V * wret E)) :=
    do r <- walk fuel (pjoin name [46]) (inl d) v st;
    Ok (option_map (fun r => match r with (v', WSkip) => (v', WNil) | _ => r end) r).
End Walk.

(* on a file that was opened: the keys of a directory and Get (dir.go:362-408) *)
Definition rdkeys (d : rdir) (_ : list Z) : list (str * Z) := map (fun k => (kName k, kCycle k)) (rKeys d).
Definition fileWalk {V E} (cdc : codec) (srt : list (dkey nat) -> list (dkey nat)) (fn : V -> str -> option (rdir + robj) -> V * wret E)
  (fuel : nat) (R : rfile) (v : V) (d : list Z) : res (option (V * wret E)) :=
  Walk rdkeys (rGet' cdc srt) fn fuel (rName (rfRoot R)) (rfRoot R) v d.
