(* Model of ROOT directories: Put, Get and Mkdir of groot/riofs/dir.go (in-memory list of keys).
   The file behind the directory (streamers, marshalling, compression, writes) enters only through whether
   these steps succeed, a free boolean for each call; keys and their bytes are in KeyModel. *)
From Coq Require Import ZArith List Lia Bool.
From Verif Require Import Bytes GoLib GoStrings KeyModel.
Import ListNotations.
Local Open Scope Z_scope.

Definition slash : Z := 47.
Definition dot : Z := 46.

(* strings.LastIndex(s, c) for a one-byte string, -1 when absent *)
Fixpoint lastIndex (c : Z) (s : str) : Z :=
  match s with
  | [] => -1
  | x :: s' => let i := lastIndex c s' in if 0 <=? i then i + 1 else if x =? c then 0 else -1
  end.
(* groot/rdict/gen.go:65-76 GoName2Cxx *)
Definition GoName2Cxx (name : str) : str :=
  let i := lastIndex dot name in
  let name := if 0 <? i then firstn (Z.to_nat i) name ++ [58; 58] ++ skipn (Z.to_nat (i + 1)) name else name in
  flat_map (fun c => if c =? 45 then [95] else if c =? slash then [58; 58] else if c =? dot then [95] else [c]) name.

Section Dir.
  Context {data : Type}.
  (* a ROOT object: its class, its name and title when it has them, and its identity *)
  Record object := mkObj { oClass : str; oNamed : option (str * str); oData : data }.
  (* the part of a Key that Put and Get use (key.go:75-103) *)
  Record dkey := mkDKey { dkName : str; dkTitle : str; dkClass : str; dkCycle : Z; dkObj : object }.

  (* dir.go:434-445: scan of the existing keys; None when the class differs *)
  Fixpoint scan (name class : str) (cycle : Z) (keys : list dkey) : option Z :=
    match keys with
    | [] => Some cycle
    | k :: keys' =>
        if negb (str_eqb (dkName k) name) then scan name class cycle keys'
        else if negb (str_eqb (dkClass k) class) then None
        else scan name class (if cycle <? dkCycle k then dkCycle k else cycle) keys'
    end.
  (* dir.go:410-480 Put: the new list of keys and whether the call succeeded (nil error).
     [writable]: dir.file.w != nil; [ok]: streamer, marshalling, compression and file writes succeed. *)
  Definition put (writable ok : bool) (name : str) (obj : object) (keys : list dkey) : list dkey * bool :=
    if negb writable then (keys, false)
    else if has_byte slash name then (keys, false)
    else
      let '(name, title) :=
        match oNamed obj with
        | Some (n, t) => ((match name with [] => n | _ => name end), t)
        | None => (name, [])
        end in
      match name with
      | [] => (keys, false)
      | _ =>
          match scan name (oClass obj) 0 keys with
          | None => (keys, false)
          | Some cycle =>
              if negb ok then (keys, false)
              else (keys ++ [mkDKey name title (GoName2Cxx (oClass obj)) (wrapS 16 (cycle + 1)) obj], true)
          end
      end.

  (* dir.go:362-408 Get; [srt] is what sort.Slice does to the candidate keys (not a stable sort) *)
  Fixpoint find_cycle (name : str) (cycle : Z) (keys : list dkey) : option dkey :=
    match keys with
    | [] => None
    | k :: keys' => if str_eqb (dkName k) name && (dkCycle k =? cycle) then Some k else find_cycle name cycle keys'
    end.
  Definition get (srt : list dkey -> list dkey) (namecycle : str) (keys : list dkey) : res (option object) :=
    do nc <- decodeNameCycle namecycle;
    let '(name, cycle) := nc in
    if negb (cycle =? 9999) then Ok (option_map dkObj (find_cycle name cycle keys))
    else
      match filter (fun k => str_eqb (dkName k) name) keys with
      | [] => Ok None
      | [k] => Ok (Some (dkObj k))
      | ks => Ok (option_map dkObj (nth_error (srt ks) (length ks - 1)))
      end.

  (* dir.go:488-501 Mkdir and 98-144 newDirectoryFile: the new key holds the directory [sub]; a failure to
     write it panics *)
  Definition mkdir (srt : list dkey -> list dkey) (ok : bool) (name : str) (sub : object) (keys : list dkey)
      : res (list dkey * bool) :=
    do g <- get srt name keys;
    match g with
    | Some _ => Ok (keys, false)
    | None =>
        if has_byte slash name then Ok (keys, false)
        else if ok then Ok (keys ++ [mkDKey name name sTDirectory 1 sub], true)
        else Panic
    end.
End Dir.
Arguments object : clear implicits.
Arguments dkey : clear implicits.
