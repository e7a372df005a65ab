(* Model of the nested paths of groot/riofs/walk.go: riofs.Dir (Get, Put, Mkdir on "a/b/c;1") and riofs.Walk.
   The directories behind are an interface with any state: [dget], [dmkdir] and [dput] are Get, Mkdir and Put of a
   single directory (their models are in RfileModel), [finder] the objects in which one can look further
   (root.ObjectFinder: histograms, graphs, pads).
   Simplified: an error is either noKeyError or another one, without its text. *)
From Coq Require Import ZArith List Lia Bool.
From Verif Require Import Bytes GoLib GoStrings KeyModel KeyProps DirModel CompressModel RfileModel.
Import ListNotations.
Local Open Scope Z_scope.

(* strings.TrimPrefix(s, "/") *)
Definition trimPrefix (s : str) : str := match s with c :: s' => if c =? slash then s' else s | [] => s end.
(* strings.TrimRight(s, "/") *)
Fixpoint trimLeft (s : str) : str := match s with c :: s' => if c =? slash then trimLeft s' else s | [] => [] end.
Definition trimRight (s : str) : str := rev (trimLeft (rev s)).
(* path.Split *)
Definition pathSplit (s : str) : str * str :=
  let n := Z.to_nat (lastIndex slash s + 1) in (firstn n s, skipn n s).

Inductive gres (D L : Type) : Type := GNoKey | GErr | GDir (d : D) | GObj (l : L).
Arguments GNoKey {D L}. Arguments GErr {D L}. Arguments GDir {D L} d. Arguments GObj {D L} l.

Section Rec.
  Context {St D L Ob : Type}.
  Notation gr := (gres D L).
  Variable finder : L -> option (str -> gr).
  Variable dget : D -> str -> St -> res gr.
  Variable dmkdir : D -> str -> St -> res (St * option D).
  Variable dput : D -> str -> Ob -> St -> res (St * bool).

  (* walk.go:222-238 walkobj *)
  Fixpoint walkobj (f : str -> gr) (path : list str) : res gr :=
    match path with
    | [] => Panic
    | [n] => Ok (f n)
    | n :: path' =>
        match f n with
        | GObj l => match finder l with Some f' => walkobj f' path' | None => Ok GErr end
        | GDir _ => Ok GErr
        | e => Ok e
        end
    end.
  (* walk.go:202-220 walkdir *)
  Fixpoint walkdir (d : D) (path : list str) (cycle : Z) (st : St) : res gr :=
    match path with
    | [] => Panic
    | [n] => dget d (n ++ semicolon :: itoa cycle) st
    | n :: path' =>
        do g <- dget d n st;
        match g with
        | GDir d' => walkdir d' path' cycle st
        | GObj l => match finder l with Some f => walkobj f path' | None => Ok GErr end
        | e => Ok e
        end
    end.
  (* walk.go:119-128 get *)
  Definition recGet (d : D) (namecycle : str) (st : St) : res gr :=
    if str_eqb namecycle [] || str_eqb namecycle [slash] then Ok (GDir d)
    else
      do nc <- decodeNameCycle namecycle;
      walkdir d (split slash (trimPrefix (fst nc))) (snd nc) st.

  (* walk.go:162-189: the loop of mkdir; [done] are the elements already handled *)
  Fixpoint mkloop (d : D) (done rest : list str) (st : St) : res (St * bool) :=
    match rest with
    | [] => Ok (st, true)
    | x :: rest' =>
        let p := join slash (done ++ [x]) in
        do g <- recGet d p st;
        match g with
        | GDir _ | GObj _ => mkloop d (done ++ [x]) rest' st
        | GErr => Ok (st, false)
        | GNoKey =>
            let pn := pathSplit p in
            do o <- recGet d (trimRight (fst pn)) st;
            match o with
            | GNoKey | GErr => Ok (st, false)
            | GObj _ => Panic                                   (* d.(Directory) *)
            | GDir pdir =>
                do r <- dmkdir pdir (snd pn) st;
                match snd r with
                | None => Ok (fst r, false)
                | Some _ =>
                    do g <- dget pdir (snd pn) (fst r);
                    match g with
                    | GNoKey | GErr => Ok (fst r, false)
                    | _ => mkloop d (done ++ [x]) rest' (fst r)
                    end
                end
            end
        end
    end.
  (* walk.go:145-200 mkdir; when the path is that of an object, d is nil and d.(root.Object) panics (line 155) *)
  Definition recMkdir (d : D) (path : str) (st : St) : res (St * option D) :=
    if str_eqb path [] || str_eqb path [slash] then Ok (st, None)
    else
      do g <- recGet d path st;
      match g with
      | GDir d' => Ok (st, Some d')
      | GObj _ => Panic
      | GNoKey | GErr =>
          let ps := split slash path in
          if (length ps =? 1)%nat then dmkdir d path st
          else
            do r <- mkloop d [] ps st;
            if negb (snd r) then Ok (fst r, None)
            else
              do g <- recGet d path (fst r);
              match g with
              | GDir d' => Ok (fst r, Some d')
              | _ => Ok (fst r, None)
              end
      end.
  (* walk.go:130-143 put *)
  Definition recPut (d : D) (name : str) (o : Ob) (st : St) : res (St * bool) :=
    let pn := pathSplit name in
    match trimRight (fst pn) with
    | [] => dput d name o st
    | pdir =>
        do r <- recMkdir d pdir st;
        match snd r with
        | None => Ok (fst r, false)
        | Some p => dput p (snd pn) o (fst r)
        end
    end.
End Rec.

(* ---- a file being written (dir.go:362-408 Get, whose objects are in memory) ---- *)
Section Written.
  Variable junk : nat -> Z.
  Variable cdc : codec.
  Variable srt : list (dkey nat) -> list (dkey nat).
  Variable fnd : fkey -> option (str -> gres nat fkey).

  Definition wGet (d : nat) (namecycle : str) (f : wfile) : res (gres nat fkey) :=
    do p <- pick srt namecycle (map fKey (wKeys (dir_at f d)));
    match p with
    | None => Ok GNoKey
    | Some i =>
        match nth_error (wKeys (dir_at f d)) i with
        | None => Ok GNoKey
        | Some k => Ok (match fObj k with CDir j => GDir j | CObj _ => GObj k end)
        end
    end.
  Definition wMkdir (now : civil) (d : nat) (name : str) (f : wfile) : res (wfile * option nat) :=
    do r <- Mkdir junk srt d name now f; Ok (fst r, if snd r then Some (length (wDirs f)) else None).
  Definition wPut (now : civil) (d : nat) (name : str) (o : object (Z -> option (list Z))) (f : wfile) : res (wfile * bool) :=
    Put junk cdc d name o now f.

  (* riofs.Dir(f).Get, Mkdir and Put *)
  Definition dirGet (name : str) (f : wfile) : res (gres nat fkey) := recGet fnd wGet 0%nat name f.
  Definition dirMkdir (name : str) (now : civil) (f : wfile) : res (wfile * option nat) :=
    recMkdir fnd wGet (wMkdir now) 0%nat name f.
  Definition dirPut (name : str) (o : object (Z -> option (list Z))) (now : civil) (f : wfile) : res (wfile * bool) :=
    recPut fnd wGet (wMkdir now) (wPut now) 0%nat name o f.
End Written.

(* ---- a file that was opened ---- *)
Section Read.
  Variable cdc : codec.
  Variable srt : list (dkey nat) -> list (dkey nat).
  Variable fnd : robj -> option (str -> gres rdir robj).

  (* no key of that name and a key that cannot be read are not told apart *)
  Definition rGet' (dir : rdir) (namecycle : str) (d : list Z) : res (gres rdir robj) :=
    do r <- rGet cdc srt d dir namecycle;
    Ok (match r with None => GNoKey | Some (RDir s) => GDir s | Some o => GObj o end).
  Definition fileGet (R : rfile) (name : str) (d : list Z) : res (gres rdir robj) := recGet fnd rGet' (rfRoot R) name d.
End Read.
