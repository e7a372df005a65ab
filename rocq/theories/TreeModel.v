(* Model of groot/rtree: branch.go (write, flush, basket tables, loadBasket), basket.go (update, writeFile),
   rbasket.go, bkreader.go, rbranch.go, reader.go (range checks, run), chain.go, rchain.go, join.go, rjoin.go.
   A branch without sub-branches; an entry is the list of bytes its leaves write.  The compression of a basket
   payload is left out (C16); a basket on file is a record of the fields of its header and its payload; the key
   header of a basket takes [kl] bytes, 8 more when the file is big. *)
From Coq Require Import ZArith List Lia Bool.
From Verif Require Import Bytes GoLib RbytesModel GoStrings.
Import ListNotations.
Local Open Scope Z_scope.

(* ---- writing ---- *)
(* basket.go:23-40 (the fields used); [bbig] is key.RVersion() > 1000 *)
Record wbk := { bkl : Z; bbig : bool; bnevsize : Z; bnev : nat; boffs : list Z; bdata : list Z }.
(* what is on file: key length, nevsize, nevbuf, last, payload *)
Record fbk := { fkl : Z; fnevsize : Z; fnev : Z; flast : Z; fpay : list Z }.

Definition keylen (kl : Z) (big : bool) : Z := kl + (if big then 8 else 0).
(* basket.go:42-61 newBasketFrom; riofs/key.go:280-316, 520-538 *)
Definition new_bk (kl eoff : Z) (big : bool) : wbk :=
  {| bkl := keylen kl big; bbig := big; bnevsize := eoff; bnev := 0; boffs := repeat 0 (Z.to_nat eoff); bdata := [] |}.

(* basket.go:277-292 update(offset), called with the length of the data *)
Definition update (b : wbk) : res wbk :=
  let offset := bkl b + zlen (bdata b) in
  match boffs b with
  | [] => Ok {| bkl := bkl b; bbig := bbig b; bnevsize := bnevsize b; bnev := S (bnev b); boffs := []; bdata := bdata b |}
  | _ =>
      let grows := bnevsize b <=? Z.of_nat (bnev b) + 1 in
      let nv := if grows then Z.max 10 (2 * bnevsize b) else bnevsize b in
      let offs := if grows then boffs b ++ repeat 0 (Z.to_nat (Z.abs (zlen (boffs b) - nv))) else boffs b in
      do offs' <- upd_nth offs (bnev b) (fun _ => wrapS 32 offset);
      Ok {| bkl := bkl b; bbig := bbig b; bnevsize := nv; bnev := S (bnev b); boffs := offs'; bdata := bdata b |}
  end.

(* basket.go:303-357 writeFile, [big] = f.IsBigFile() now *)
Definition writeFile (kl : Z) (big : bool) (b : wbk) : res fbk :=
  let adjust := negb (bbig b) && big in
  let offs := if adjust then map (fun v => wrapS 32 (v + 8)) (boffs b) else boffs b in
  do trailer <-
    match boffs b with
    | [] => Ok []
    | _ => if (bnev b <=? length offs)%nat
           then Ok (be 4 (Z.of_nat (bnev b) + 1) ++ concat (map (be 4) (firstn (bnev b) offs)) ++ be 4 0)
           else Panic
    end;
  Ok {| fkl := keylen kl big; fnevsize := wrapS 32 (bnevsize b); fnev := wrapS 32 (Z.of_nat (bnev b));
        flast := wrapS 32 (bkl b + zlen (bdata b) + (if adjust then 8 else 0)); fpay := bdata b ++ trailer |}.

(* branch.go:28-60 (the fields used): kl, entryOffsetLen, basketSize; entries (= entryNumber), basketEntry, the
   baskets on file (basketSeek and basketBytes say where they are), ctx.bk *)
Record wbr := { wkl : Z; weoff : Z; wbsz : Z; wentries : Z; wtable : list Z; wfile : list fbk; wcur : option wbk }.
(* branch.go:62-143 newBranchFromWVar: createNewBasket at the end *)
Definition new_branch (kl eoff bsz : Z) (big : bool) : wbr :=
  {| wkl := kl; weoff := eoff; wbsz := bsz; wentries := 0; wtable := [0]; wfile := []; wcur := Some (new_bk kl eoff big) |}.
(* branch.go:740-763 flush; a nil ctx.bk panics *)
Definition flush (big : bool) (b : wbr) : res wbr :=
  match wcur b with
  | None => Panic
  | Some bk =>
      do f <- writeFile (wkl b) big bk;
      Ok {| wkl := wkl b; weoff := weoff b; wbsz := wbsz b; wentries := wentries b;
            wtable := wtable b ++ [wentries b]; wfile := wfile b ++ [f]; wcur := None |}
  end.
(* branch.go:691-698 createNewBasket *)
Definition createNewBasket (big : bool) (b : wbr) : wbr :=
  {| wkl := wkl b; weoff := weoff b; wbsz := wbsz b; wentries := wentries b; wtable := wtable b; wfile := wfile b;
     wcur := Some (new_bk (wkl b) (weoff b) big) |}.
(* branch.go:700-726 write of the entry [e]; [big], [big']: f.IsBigFile() before and after the flush, if any *)
Definition write (e : list Z) (big big' : bool) (b : wbr) : res wbr :=
  match wcur b with
  | None => Panic
  | Some bk =>
      do bk1 <- update bk;
      let n := zlen e in
      let bk2 := {| bkl := bkl bk1; bbig := bbig bk1;
                    bnevsize := (if bnevsize bk1 <? n then n else bnevsize bk1);
                    bnev := bnev bk1; boffs := boffs bk1; bdata := bdata bk1 ++ e |} in
      let b1 := {| wkl := wkl b; weoff := weoff b; wbsz := wbsz b; wentries := wentries b + 1; wtable := wtable b;
                   wfile := wfile b; wcur := Some bk2 |} in
      if wbsz b <=? zlen (bdata bk2) + n
      then do b2 <- flush big b1; Ok (createNewBasket big' b2)
      else Ok b1
  end.

(* A history: entries written one after the other, each with the state of the file *)
Fixpoint writes (es : list (list Z * (bool * bool))) (b : wbr) : res wbr :=
  match es with
  | [] => Ok b
  | (e, (big, big')) :: es' => do b' <- write e big big' b; writes es' b'
  end.
(* writer.go:228-245 Close flushes *)
Definition write_all (kl eoff bsz : Z) (big0 : bool) (es : list (list Z * (bool * bool))) (bigz : bool) : res wbr :=
  do b <- writes es (new_branch kl eoff bsz big0); flush bigz b.

(* ---- reading a basket ---- *)
(* rbasket.go:14-19: key length, nevsize, offsets, the buffer *)
Record rbk := { rkl : Z; rnevsize : Z; roffs : list Z; rbf : rbuf }.
(* rbasket.go:37-105 inflate of a basket on file; None: an error.  make([]int32, n) of a negative n panics *)
Definition inflate (eoff : Z) (f : fbk) : res (option rbk) :=
  let r := {| rp := fpay f; rc := 0; rerr := false; roff := fkl f |} in
  if 0 <? eoff then
    do nr <- ReadSint 4 (rsetPos (flast f) r);
    if fst nr <? 0 then Panic
    else
      do ar <- ReadArray (ReadSint 4) (repeat 0 (Z.to_nat (fst nr))) (snd nr);
      Ok (if rerr (snd ar) then None else Some {| rkl := fkl f; rnevsize := fnevsize f; roffs := fst ar; rbf := snd ar |})
  else Ok (Some {| rkl := fkl f; rnevsize := fnevsize f; roffs := []; rbf := r |}).
(* rbasket.go:26-35 loadRLeaf, [leafoff] is leaf.Offset(), [f] its readFromBuffer *)
Definition loadRLeaf {A} (k : rbk) (entry leafoff : Z) (f : rd A) : res A :=
  do offset <-
    match roffs k with
    | [] => Ok (entry * rnevsize k + leafoff + rkl k)
    | _ => if entry <? 0 then Panic
           else match nth_error (roffs k) (Z.to_nat entry) with Some o => Ok (o + leafoff) | None => Panic end
    end;
  do vr <- f (rsetPos offset (rbf k)); Ok (fst vr).

(* ---- the read-ahead basket reader ---- *)
(* bkreader.go:205-214: first and last entry, and which basket on file *)
Record rspan := { sbeg : Z; send : Z; sid : nat }.
(* bkreader.go:83-91: a span per basket; basketEntry has one more element than basketSeek (as branches read back
   from file have: branch.go:432-445) *)
Fixpoint spans_from (k : nat) (table : list Z) : list rspan :=
  match table with
  | a :: ((b :: _) as t) => {| sbeg := a; send := b; sid := k |} :: spans_from (S k) t
  | _ => []
  end.
(* bkreader.go:97-104: the dummy span of an empty branch *)
Definition spans_of (table : list Z) : list rspan :=
  match spans_from 0 table with [] => [{| sbeg := 0; send := -1; sid := 0 |}] | l => l end.
(* bkreader.go:148-166 findBaskets *)
Fixpoint findBaskets_loop (i : Z) (l : list rspan) (beg end_ ibeg iend : Z) : Z * Z :=
  match l with
  | [] => (ibeg, iend)
  | v :: l' =>
      let ibeg' := if (ibeg <? 0) && ((sbeg v <=? beg) && (beg <? send v)) then i else ibeg in
      let iend' := if (iend <? 0) && (end_ <=? send v) then i + 1 else iend in
      findBaskets_loop (i + 1) l' beg end_ ibeg' iend'
  end.
Definition findBaskets (l : list rspan) (beg end_ : Z) : Z * Z :=
  let '(ibeg, iend) := findBaskets_loop 0 l beg end_ (-1) (-1) in
  (ibeg, if iend <? 0 then Z.of_nat (length l) else iend).
(* l[i:j] *)
Definition slice {A} (l : list A) (i j : Z) : res (list A) :=
  if (0 <=? i) && (i <=? j) && (j <=? Z.of_nat (length l))
  then Ok (firstn (Z.to_nat (j - i)) (skipn (Z.to_nat i) l)) else Panic.
(* bkreader.go:123-143: the spans the prefetching goroutine goes through; none when the range starts at the end *)
Definition feed (table : list Z) (beg end_ : Z) : res (list rspan) :=
  let l := spans_of table in
  if send (last l {| sbeg := 0; send := 0; sid := 0 |}) <=? beg then Ok []
  else
    let '(ibeg, iend) := findBaskets l beg end_ in
    if (ibeg <? 0) || (iend <? 0) then Panic else slice l ibeg iend.

(* The goroutine run (168-180) and read (182-195) communicate by two channels of capacity n.  Tokens are basket
   buffers 0..n-1; [bcont k] is the span last inflated in buffer k. *)
Record pipe := { pcap : nat; ptodo : list rspan; phand : option nat; preuse : list nat; pready : list nat;
                 pclosed : bool; pcur : option nat; pwait : bool; peof : bool; pgot : list rspan;
                 pcont : nat -> option rspan }.
Definition pipe0 (n : nat) (l : list rspan) : pipe :=
  {| pcap := n; ptodo := l; phand := None; preuse := seq 0 n; pready := []; pclosed := false; pcur := None;
     pwait := false; peof := false; pgot := []; pcont := fun _ => None |}.
Definition set_cont (f : nat -> option rspan) (k : nat) (s : rspan) : nat -> option rspan :=
  fun i => if Nat.eqb i k then Some s else f i.
Inductive pstep : pipe -> pipe -> Prop :=
| p_take p s l k r : ptodo p = s :: l -> phand p = None -> preuse p = k :: r ->      (* 173-174 *)
    pstep p {| pcap := pcap p; ptodo := l; phand := Some k; preuse := r; pready := pready p; pclosed := pclosed p;
               pcur := pcur p; pwait := pwait p; peof := peof p; pgot := pgot p; pcont := set_cont (pcont p) k s |}
| p_send p k : phand p = Some k -> (length (pready p) < pcap p)%nat ->               (* 175 *)
    pstep p {| pcap := pcap p; ptodo := ptodo p; phand := None; preuse := preuse p; pready := pready p ++ [k];
               pclosed := pclosed p; pcur := pcur p; pwait := pwait p; peof := peof p; pgot := pgot p; pcont := pcont p |}
| p_close p : ptodo p = [] -> phand p = None -> pclosed p = false ->                 (* 169-170 *)
    pstep p {| pcap := pcap p; ptodo := []; phand := None; preuse := preuse p; pready := pready p; pclosed := true;
               pcur := pcur p; pwait := pwait p; peof := peof p; pgot := pgot p; pcont := pcont p |}
| p_call p : pcur p = None -> pwait p = false -> peof p = false ->                   (* 183 *)
    pstep p {| pcap := pcap p; ptodo := ptodo p; phand := phand p; preuse := preuse p; pready := pready p;
               pclosed := pclosed p; pcur := None; pwait := true; peof := false; pgot := pgot p; pcont := pcont p |}
| p_back p k : pcur p = Some k -> pwait p = false -> (length (preuse p) < pcap p)%nat ->   (* 184-186 *)
    pstep p {| pcap := pcap p; ptodo := ptodo p; phand := phand p; preuse := preuse p ++ [k]; pready := pready p;
               pclosed := pclosed p; pcur := None; pwait := true; peof := peof p; pgot := pgot p; pcont := pcont p |}
| p_recv p k l s : pwait p = true -> pready p = k :: l -> pcont p k = Some s ->      (* 188-194 *)
    pstep p {| pcap := pcap p; ptodo := ptodo p; phand := phand p; preuse := preuse p; pready := l;
               pclosed := pclosed p; pcur := Some k; pwait := false; peof := false; pgot := pgot p ++ [s]; pcont := pcont p |}
| p_eof p : pwait p = true -> pready p = [] -> pclosed p = true ->                   (* 189-191 *)
    pstep p {| pcap := pcap p; ptodo := ptodo p; phand := phand p; preuse := preuse p; pready := [];
               pclosed := true; pcur := None; pwait := false; peof := true; pgot := pgot p; pcont := pcont p |}.
Inductive psteps : pipe -> pipe -> Prop :=
| ps_nil p : psteps p p
| ps_cons p q r : psteps p q -> pstep q r -> psteps p r.

(* ---- reading entries ---- *)
(* a branch as it is read: tables, entryOffsetLen, the baskets on file *)
Record rbr := { rtab : list Z; reoff : Z; rfile : list fbk }.
(* rbranch.go:9-12: the current basket and what is still to come *)
Definition rstate : Type := option rspan * list rspan.
(* bkreader.go:182-195 read: the next basket or EOF *)
Definition next (st : rstate) : option rstate :=
  match snd st with s :: l => Some (Some s, l) | [] => None end.
(* rbranch.go:42-69 read of entry i: the leaf read in the basket, or None for an error *)
Definition read_entry {A} (b : rbr) (leafoff : Z) (f : rd A) (i : Z) (st : rstate) : res (option (A * rstate)) :=
  match fst st with
  | None => Panic
  | Some cur =>
      let st' := if send cur <=? i then next st else Some st in
      match st' with
      | Some (Some s, l) =>
          match nth_error (rfile b) (sid s) with
          | None => Ok None
          | Some fb =>
              do k <- inflate (reoff b) fb;
              match k with
              | None => Ok None
              | Some k => do v <- loadRLeaf k (i - sbeg s) leafoff f; Ok (Some (v, (Some s, l)))
              end
          end
      | _ => Ok None
      end
  end.
(* reader.go:438-448, for one branch: entries i, i+1, ... *)
Fixpoint read_loop {A} (b : rbr) (leafoff : Z) (f : rd A) (n : nat) (i off : Z) (st : rstate) : res (option (list (Z * A))) :=
  match n with
  | O => Ok (Some [])
  | S n' =>
      do o <- read_entry b leafoff f i st;
      match o with
      | None => Ok None
      | Some (v, st') =>
          do l <- read_loop b leafoff f n' (i + 1) off st';
          Ok (match l with Some l => Some ((i + off, v) :: l) | None => None end)
      end
  end.
(* reader.go:424-451 run with rbranch.go:14-27 (start: EOF is not an error) *)
Definition run_tree {A} (b : rbr) (leafoff : Z) (f : rd A) (off beg end_ : Z) : res (option (list (Z * A))) :=
  do l <- feed (rtab b) beg end_;
  read_loop b leafoff f (Z.to_nat (end_ - beg)) beg off (match l with s :: l' => (Some s, l') | [] => (None, []) end).

(* reader.go:72-116 setup: the range asked for ([end_] < 0: to the last entry) *)
Definition setup (entries beg end_ : Z) : option (Z * Z) :=
  let end_ := if end_ <? 0 then entries else end_ in
  if (beg <? 0) || (end_ <? beg) || (entries <? beg) || (entries <? end_) then None else Some (beg, end_).

(* ---- chains ---- *)
Section Chain.
  Context {T A : Type}.
  Variable entries : T -> Z.
  (* runTree: the entries visited when reading [beg,end) of a tree, numbered from off *)
  Variable run1 : T -> Z -> Z -> Z -> res (option (list (Z * A))).
  (* chain.go:26-53: offs and tots *)
  Fixpoint chain_offs (off : Z) (ts : list T) : list Z :=
    match ts with [] => [] | t :: ts' => off :: chain_offs (off + entries t) ts' end.
  Fixpoint chain_tots (sum : Z) (ts : list T) : list Z :=
    match ts with [] => [] | t :: ts' => (sum + entries t) :: chain_tots (sum + entries t) ts' end.
  (* chain.go:143-149 *)
  Definition chain_entries (ts : list T) : Z := fold_left (fun v t => v + entries t) ts 0.
  (* rchain.go:97-119 *)
  Fixpoint findTrees_loop (i eoff : Z) (ts : list T) (beg end_ ibeg iend : Z) : Z * Z :=
    match ts with
    | [] => (ibeg, iend)
    | t :: ts' =>
        let n := entries t in
        let ibeg' := if (ibeg <? 0) && ((eoff <=? beg) && (beg <? eoff + n)) then i else ibeg in
        let iend' := if (iend <? 0) && (end_ <=? eoff + n) then i + 1 else iend in
        findTrees_loop (i + 1) (eoff + n) ts' beg end_ ibeg' iend'
    end.
  Definition findTrees (ts : list T) (beg end_ : Z) : Z * Z :=
    let '(ibeg, iend) := findTrees_loop 0 0 ts beg end_ (-1) (-1) in
    (ibeg, if iend <? 0 then Z.of_nat (length ts) else iend).
  (* rchain.go:81-92 *)
  Fixpoint chain_loop (l : list (T * (Z * Z))) (off beg end_ : Z) : res (option (list (Z * A))) :=
    match l with
    | [] => Ok (Some [])
    | (t, (eoff, tots)) :: l' =>
        do a <- run1 t (eoff + off) (Z.max (beg - eoff) 0) (Z.min (end_ - eoff) (tots - eoff));
        match a with
        | None => Ok None
        | Some a => do r <- chain_loop l' off beg end_; Ok (match r with Some r => Some (a ++ r) | None => None end)
        end
    end.
  (* rchain.go:27-49, 67-95: newRChain then run *)
  Definition chain_run (ts : list T) (off beg end_ : Z) : res (option (list (Z * A))) :=
    let '(ibeg, iend) := findTrees ts beg end_ in
    if (ibeg <? 0) || (iend <? 0) then Panic
    else
      do l <- slice (combine ts (combine (chain_offs 0 ts) (chain_tots 0 ts))) ibeg iend;
      chain_loop l off beg end_.
End Chain.

(* ---- joins ---- *)
(* a tree to be joined: its name, number of entries, branch names *)
Record jtree := { jname : str; jentries : Z; jbranches : list str }.
(* join.go:62-75: a branch name of one tree found in a later one *)
Fixpoint clash (ts : list jtree) : bool :=
  match ts with
  | [] => false
  | t :: ts' =>
      existsb (fun t' => existsb (fun n => existsb (str_eqb n) (jbranches t')) (jbranches t)) ts' || clash ts'
  end.
(* join.go:29-95; None is an error *)
Definition Join (ts : list jtree) : option (Z * list str) :=
  match ts with
  | [] => None
  | t :: ts' =>
      if existsb (fun t' => negb (jentries t' =? jentries t)) ts' then None
      else if clash ts then None
      else Some (jentries t, concat (map jbranches ts))
  end.
(* rjoin.go:90-100, 105-113 and reader.go:453-462: every branch is read at entry i before the callback *)
Fixpoint read_all {A} (brs : list (rbr * (Z * rd A))) (i : Z) (sts : list rstate) : res (option (list A * list rstate)) :=
  match brs, sts with
  | [], _ => Ok (Some ([], []))
  | (b, (lo, f)) :: brs', st :: sts' =>
      do o <- read_entry b lo f i st;
      match o with
      | None => Ok None
      | Some (v, st') =>
          do r <- read_all brs' i sts';
          Ok (match r with Some (vs, sts'') => Some (v :: vs, st' :: sts'') | None => None end)
      end
  | _, [] => Panic
  end.
Fixpoint join_loop {A} (brs : list (rbr * (Z * rd A))) (n : nat) (i off : Z) (sts : list rstate) : res (option (list (Z * list A))) :=
  match n with
  | O => Ok (Some [])
  | S n' =>
      do o <- read_all brs i sts;
      match o with
      | None => Ok None
      | Some (vs, sts') =>
          do l <- join_loop brs n' (i + 1) off sts';
          Ok (match l with Some l => Some ((i + off, vs) :: l) | None => None end)
      end
  end.
Fixpoint start_all (brs : list rbr) (beg end_ : Z) : res (list rstate) :=
  match brs with
  | [] => Ok []
  | b :: brs' =>
      do l <- feed (rtab b) beg end_;
      do ls <- start_all brs' beg end_;
      Ok ((match l with s :: l' => (Some s, l') | [] => (None, []) end) :: ls)
  end.
(* reader.go:424-451 for several branches; rjoin.go:77-103 for the branches of all the trees *)
Definition run_branches {A} (brs : list (rbr * (Z * rd A))) (off beg end_ : Z) : res (option (list (Z * list A))) :=
  do sts <- start_all (map fst brs) beg end_;
  join_loop brs (Z.to_nat (end_ - beg)) beg off sts.

(* ---- direct access ---- *)
(* branch.go:1160-1169 basketCtx and branch.baskets: the ids of the baskets held *)
Record dctx := { did : Z; dfirst : Z; dnext : Z; dheld : list Z }.
(* branch.go:628-656 findBasketIndex *)
Fixpoint find_loop (i : Z) (l : list Z) (entry : Z) : option Z :=
  match l with
  | [] => None
  | v :: l' => if (entry <? v) && (0 <? v) then Some (i - 1) else find_loop (i + 1) l' entry
  end.
Definition findBasketIndex (table : list Z) (c : dctx) (entry : Z) : Z :=
  if entry =? 0 then 0
  else if (dfirst c <=? entry) && (entry <? dnext c) then did c
  else match find_loop (did c) (skipn (Z.to_nat (did c)) table) entry with
       | Some i => i
       | None => if entry =? last table 0 then -2 else -1
       end.
(* branch.go:591-626 loadBasket; the result is the basket whose data is used for [entry] and the entry inside it
   (562-588); None is an error *)
Definition loadBasket (table : list Z) (c : dctx) (entry : Z) : res (option (Z * Z * dctx)) :=
  let ib := findBasketIndex table c entry in
  if ib <? 0 then Ok None
  else
    match nth_error table (Z.to_nat ib), nth_error table (S (Z.to_nat ib)) with
    | Some first, Some next =>
        let j := entry - first in
        match nth_error (dheld c) (Z.to_nat ib) with
        | Some h => Ok (Some (h, j, {| did := ib; dfirst := first; dnext := next; dheld := dheld c |}))
        | None => Ok (Some (ib, j, {| did := ib; dfirst := first; dnext := next; dheld := dheld c ++ [ib] |}))
        end
    | _, _ => Panic
    end.
