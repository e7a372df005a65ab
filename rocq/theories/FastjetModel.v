(* Model of fastjet/clustersequence.go.
   The clustering is a function of five things the code leaves to the jet definition or to
   floating point geometry, and which are parameters here:
     prep   Recombiner.Preprocess (None: an error)
     recomb Recombiner.Recombine  (None: an error)
     scale  jetScaleForAlgorithm (289-336)
     dist   the y of a pair of jets, jetscale included (443-463)
     ltb, geb, fmax, fzero: <, >=, math.Max and 0 on float64.
   Jet.structure (a back pointer), qtot and the array "indices" of runN3Dumb are never read and are left out. *)
From Coq Require Import ZArith List Lia Bool.
From Verif Require Import GoLib.
Import ListNotations.
Local Open Scope Z_scope.

Definition zat {A} (l : list A) (i : Z) : res A :=
  if i <? 0 then Panic else match nth_error l (Z.to_nat i) with Some x => Ok x | None => Panic end.
Definition zupd {A} (l : list A) (i : Z) (f : A -> A) : res (list A) := if i <? 0 then Panic else upd_nth l (Z.to_nat i) f.
Definition len {A} (l : list A) : Z := Z.of_nat (length l).
(* outcomes: Ok (Some _), an error Ok None, or a panic *)
Definition fbind {A B} (r : res (option A)) (f : A -> res (option B)) : res (option B) :=
  match r with Ok (Some a) => f a | Ok None => Ok None | Panic => Panic end.

(* clustersequence.go:25-29 *)
Definition invalidIndex : Z := -3.
Definition inexistentParent : Z := -2.
Definition beamJetIndex : Z := -1.

Section Fastjet.
Variables (J F : Type) (prep : J -> option J) (recomb : J -> J -> option J) (scale : J -> F) (dist : J -> J -> F)
  (ltb geb : F -> F -> bool) (fmax : F -> F -> F) (fzero : F).

(* jet.go:23-35: the momentum and the user information, and the history index *)
Record jet := { jv : J; hidx : Z }.
(* clustersequence.go:16-23 *)
Record hist := { parent1 : Z; parent2 : Z; child : Z; hjet : Z; hdij : F; maxdij : F }.
Record cseq := { initn : Z; jets : list jet; history : list hist }.
Definition set_child (c : Z) (h : hist) : hist :=
  {| parent1 := parent1 h; parent2 := parent2 h; child := c; hjet := hjet h; hdij := hdij h; maxdij := maxdij h |}.
Definition set_hidx (h : Z) (j : jet) : jet := {| jv := jv j; hidx := h |}.

(* clustersequence.go:186-219 *)
Fixpoint init_from (i : Z) (l : list J) : option (list jet * list hist) :=
  match l with
  | [] => Some ([], [])
  | j :: l' =>
      match prep j with
      | None => None
      | Some j' =>
          match init_from (i + 1) l' with
          | None => None
          | Some (js, hs) =>
              Some ({| jv := j'; hidx := i |} :: js,
                    {| parent1 := inexistentParent; parent2 := inexistentParent; child := invalidIndex; hjet := i; hdij := fzero; maxdij := fzero |} :: hs)
          end
      end
  end.

(* clustersequence.go:371-403 *)
Definition addStepToHistory (cs : cseq) (istep i1 i2 idx : Z) (d : F) : res (option cseq) :=
  do last <- zat (history cs) (len (history cs) - 1);
  let h := history cs ++ [{| parent1 := i1; parent2 := i2; child := invalidIndex; hjet := idx; hdij := d; maxdij := fmax d (maxdij last) |}] in
  let step := len h - 1 in
  if negb (step =? istep) then Panic
  else
    do h <- zupd h i1 (set_child step);
    do h <- (if 0 <=? i2 then zupd h i2 (set_child step) else Ok h);
    do js <- (if idx =? invalidIndex then Ok (jets cs) else zupd (jets cs) idx (set_hidx step));
    Ok (Some {| initn := initn cs; jets := js; history := h |}).
(* clustersequence.go:343-363 *)
Definition ijRecombinationStep (cs : cseq) (i j : Z) (d : F) : res (option (cseq * Z)) :=
  do ijet <- zat (jets cs) i; do jjet <- zat (jets cs) j;
  match recomb (jv ijet) (jv jjet) with
  | None => Ok None
  | Some kv =>
      let k := len (jets cs) in
      let khist := len (history cs) in
      let cs1 := {| initn := initn cs; jets := jets cs ++ [{| jv := kv; hidx := khist |}]; history := history cs |} in
      fbind (addStepToHistory cs1 khist (Z.min (hidx ijet) (hidx jjet)) (Z.max (hidx ijet) (hidx jjet)) k d) (fun cs2 => Ok (Some (cs2, k)))
  end.
(* clustersequence.go:365-369 *)
Definition ibRecombinationStep (cs : cseq) (i : Z) (d : F) : res (option cseq) :=
  do ijet <- zat (jets cs) i; addStepToHistory cs (len (history cs)) (hidx ijet) beamJetIndex invalidIndex d.

(* clustersequence.go:427-436: smallest beam distance, and its position *)
Fixpoint scan_beam (i : nat) (vs : list J) (st : F * nat) : F * nat :=
  match vs with
  | [] => st
  | v :: vs' => scan_beam (S i) vs' (if ltb (scale v) (fst st) then (scale v, i) else st)
  end.
(* clustersequence.go:439-470: smallest distance of a pair; None is the -2 of jj *)
Fixpoint scan_row (i : nat) (v : J) (j : nat) (ws : list J) (st : F * nat * option nat) : F * nat * option nat :=
  match ws with
  | [] => st
  | w :: ws' => scan_row i v (S j) ws' (if ltb (dist v w) (fst (fst st)) then (dist v w, i, Some j) else st)
  end.
Fixpoint scan_pairs (i : nat) (vs : list J) (st : F * nat * option nat) : F * nat * option nat :=
  match vs with [] => st | v :: vs' => scan_pairs (S i) vs' (scan_row i v (S i) vs' st) end.
Definition scan (v0 : J) (vs : list J) : F * nat * option nat :=
  let b := scan_beam 0 vs (scale v0, 0%nat) in scan_pairs 0 vs (fst b, snd b, None).

(* the jets of the working array; cs.jets has room for 2n jets from the start, so the pointers of the array stay valid *)
Fixpoint values (js : list jet) (act : list Z) : res (list J) :=
  match act with [] => Ok [] | i :: act' => do j <- zat js i; do vs <- values js act'; Ok (jv j :: vs) end.
(* clustersequence.go:424-500. act is the part of the working array in use, the first n elements. *)
Fixpoint loop (n : nat) (cs : cseq) (act : list Z) : res (option cseq) :=
  match n with
  | O => Ok (Some cs)
  | S m =>
      do vs <- values (jets cs) act;
      match vs with
      | [] => Panic
      | v0 :: _ =>
          match scan v0 vs with
          | (ymin, ii, Some jj) =>
              do a <- zat act (Z.of_nat ii); do b <- zat act (Z.of_nat jj);
              fbind (ijRecombinationStep cs a b ymin) (fun r =>
                do act1 <- upd_nth act ii (fun _ => snd r);
                do l <- zat act1 (Z.of_nat m);
                do act2 <- upd_nth act1 jj (fun _ => l);
                loop m (fst r) (firstn m act2))
          | (ymin, ii, None) =>
              do a <- zat act (Z.of_nat ii);
              fbind (ibRecombinationStep cs a ymin) (fun cs' =>
                do l <- zat act (Z.of_nat m);
                do act2 <- upd_nth act ii (fun _ => l);
                loop m cs' (firstn m act2))
          end
      end
  end.
(* clustersequence.go:406-422 and 221-242 *)
Definition runN3Dumb (cs : cseq) : res (option cseq) :=
  loop (length (jets cs)) cs (map Z.of_nat (seq 0 (length (jets cs)))).
(* clustersequence.go:46-72, strategy N3Dumb (NlnN is not implemented in the code) *)
Definition newClusterSequence (l : list J) : res (option cseq) :=
  match init_from 0 l with
  | None => Ok None
  | Some (js, hs) => runN3Dumb {| initn := len l; jets := js; history := hs |}
  end.

(* clustersequence.go:249-287; the fuel is the history length, the recursion goes to smaller indices *)
Fixpoint addConstituents (fuel : nat) (cs : cseq) (j : jet) : res (list jet) :=
  match fuel with
  | O => Panic
  | S k =>
      do hh <- zat (history cs) (hidx j);
      if parent1 hh =? inexistentParent then do x <- zat (jets cs) (hidx j); Ok [x]
      else
        do h1 <- zat (history cs) (parent1 hh); do j1 <- zat (jets cs) (hjet h1);
        do s1 <- addConstituents k cs j1;
        if parent2 hh =? beamJetIndex then Ok s1
        else
          do h2 <- zat (history cs) (parent2 hh); do j2 <- zat (jets cs) (hjet h2);
          do s2 <- addConstituents k cs j2; Ok (s1 ++ s2)
  end.
(* clustersequence.go:245-247 *)
Definition constituents (cs : cseq) (j : jet) : res (list jet) := addConstituents (length (history cs)) cs j.

(* the jet of the history entry a step refers to: cs.jets[cs.history[p].jet] *)
Definition jet_of (cs : cseq) (p : Z) : res jet := do h <- zat (history cs) p; zat (jets cs) (hjet h).
(* clustersequence.go:131-184; the three cases, each walking the history backwards. hs is the history reversed. *)
Fixpoint incl_kt (cs : cseq) (dcut : F) (hs : list hist) : res (list jet) :=
  match hs with
  | [] => Ok []
  | h :: hs' =>
      if ltb (maxdij h) dcut then Ok []
      else if (parent2 h =? beamJetIndex) && geb (hdij h) dcut then do j <- jet_of cs (parent1 h); do r <- incl_kt cs dcut hs'; Ok (j :: r)
      else incl_kt cs dcut hs'
  end.
(* pt is Pt2 *)
Fixpoint incl_ca (cs : cseq) (pt : J -> F) (dcut : F) (hs : list hist) : res (list jet) :=
  match hs with
  | [] => Ok []
  | h :: hs' =>
      if negb (parent2 h =? beamJetIndex) then Ok []
      else do j <- jet_of cs (parent1 h); do r <- incl_ca cs pt dcut hs'; Ok (if geb (pt (jv j)) dcut then j :: r else r)
  end.
Fixpoint incl_gen (cs : cseq) (pt : J -> F) (dcut : F) (hs : list hist) : res (list jet) :=
  match hs with
  | [] => Ok []
  | h :: hs' =>
      if negb (parent2 h =? beamJetIndex) then incl_gen cs pt dcut hs'
      else do j <- jet_of cs (parent1 h); do r <- incl_gen cs pt dcut hs'; Ok (if geb (pt (jv j)) dcut then j :: r else r)
  end.
Inductive alg := Kt | Cambridge | Generic.
Definition inclusiveJets (a : alg) (cs : cseq) (pt : J -> F) (dcut : F) : res (list jet) :=
  match a with
  | Kt => incl_kt cs dcut (rev (history cs))
  | Cambridge => incl_ca cs pt dcut (rev (history cs))
  | Generic => incl_gen cs pt dcut (rev (history cs))
  end.

(* clustersequence.go:118-127 *)
Fixpoint excl_from (cs : cseq) (stoppt : Z) (hs : list hist) : res (list jet) :=
  match hs with
  | [] => Ok []
  | h :: hs' =>
      do a <- (if parent1 h <? stoppt then do j <- jet_of cs (parent1 h); Ok [j] else Ok []);
      do b <- (if (0 <? parent2 h) && (parent2 h <? stoppt) then do j <- jet_of cs (parent2 h); Ok [j] else Ok []);
      do r <- excl_from cs stoppt hs'; Ok (a ++ b ++ r)
  end.
(* clustersequence.go:94-129; make with a negative capacity panics (117) *)
Definition exclusiveJetsUpTo (cs : cseq) (njets : Z) : res (option (list jet)) :=
  if initn cs <? njets then Ok None
  else
    let stoppt := Z.max (2 * initn cs - njets) (initn cs) in
    if negb (2 * initn cs =? len (history cs)) then Ok None
    else if njets <? 0 then Panic
    else do l <- excl_from cs stoppt (skipn (Z.to_nat stoppt) (history cs)); Ok (Some l).
(* clustersequence.go:76-87; leb is <=. hs is the history reversed, i the index of its head *)
Fixpoint stop_at (leb : F -> F -> bool) (dcut : F) (i : Z) (hs : list hist) : Z :=
  match hs with [] => i | h :: hs' => if leb (maxdij h) dcut then i else stop_at leb dcut (i - 1) hs' end.
Definition numExclusiveJets (leb : F -> F -> bool) (cs : cseq) (dcut : F) : Z :=
  2 * initn cs - (stop_at leb dcut (len (history cs) - 1) (rev (history cs)) + 1).
(* clustersequence.go:89-92 *)
Definition exclusiveJets (leb : F -> F -> bool) (cs : cseq) (dcut : F) : res (option (list jet)) :=
  exclusiveJetsUpTo cs (numExclusiveJets leb cs dcut).
End Fastjet.
