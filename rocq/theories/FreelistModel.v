(* Model of the free-segment list of a ROOT file, groot/riofs/blocks.go, and of the file-space
   bookkeeping that uses it, groot/riofs/file.go (setEnd, markFree) and key.go (placement of keys).
   Go int64 values are Z; the only arithmetic that can wrap, prev.last+1, wraps explicitly. *)
From Coq Require Import ZArith List Lia Bool.
From Verif Require Import Bytes GoLib RbytesModel RdMonad.
Import ListNotations.
Local Open Scope Z_scope.

(* groot/riofs/consts.go:12 *)
Definition kStartBigFile : Z := 2000000000.

(* groot/riofs/blocks.go:17-20 freeSegment *)
Record seg := mkSeg { first : Z; last : Z }.

(* groot/riofs/blocks.go:26-28 free *)
Definition seg_free (s : seg) : Z := wrapS 64 (last s - first s + 1).

(* groot/riofs/blocks.go:30-35 sizeof *)
Definition seg_sizeof (s : seg) : Z := if kStartBigFile <? last s then 18 else 10.

(* groot/riofs/blocks.go:112-122 Less *)
Definition less (a b : seg) : bool :=
  if first a <? first b then true
  else if first a =? first b then last a <? last b else false.

(* sort.Sort: Less is a strict total order under which incomparable segments are equal, so the
   sorted arrangement is unique and any sorting algorithm gives this list.  The list is sorted by
   inserting the elements one by one. *)
Fixpoint insert (x : seg) (l : list seg) : list seg :=
  match l with
  | [] => [x]
  | y :: l' => if less y x then y :: insert x l' else x :: l
  end.
Fixpoint go_sort (l : list seg) : list seg :=
  match l with
  | [] => []
  | x :: l' => insert x (go_sort l')
  end.

Definition seg0 := mkSeg 0 0.
(* l[i] = v *)
Fixpoint set_nth {A} (l : list A) (i : nat) (v : A) : list A :=
  match l, i with
  | [], _ => []
  | _ :: l', O => v :: l'
  | a :: l', S i' => a :: set_nth l' i' v
  end.
(* groot/riofs/blocks.go:161-164 remove: slices.Delete(list, i, i+1) *)
Definition remove {A} (l : list A) (i : nat) : list A := firstn i l ++ skipn (S i) l.

(* groot/riofs/blocks.go:147-159 consolidate; [consolidate_loop i l] is the loop entered with this i *)
Fixpoint consolidate_loop (i : nat) (l : list seg) : list seg :=
  match i with
  | O => l
  | S i' =>
      let cur := nth i l seg0 in
      let prev := nth i' l seg0 in
      if wrapS 64 (last prev + 1) <? first cur then consolidate_loop i' l
      else
        let l1 := if last prev <=? last cur then set_nth l i' (mkSeg (first prev) (last cur)) else l in
        consolidate_loop i' (remove l1 i)
  end.
Definition consolidate (l : list seg) : list seg := consolidate_loop (length l - 1) l.

(* groot/riofs/blocks.go:132-145 find (the pointer into the list is represented by its index) *)
Fixpoint find_loop (elmt : seg) (l : list seg) (i : nat) : option nat :=
  match l with
  | [] => None
  | cur :: l' =>
      if (last elmt <? first cur) || (last cur <? first elmt) then find_loop elmt l' (S i)
      else if (first cur <=? first elmt) && (first elmt <=? last cur) && (last elmt <=? last cur)
           then Some i
           else find_loop elmt l' (S i)
  end.
Definition find (elmt : seg) (l : list seg) : option nat := find_loop elmt l 0.

(* groot/riofs/blocks.go:124-130 add: the new list, and the segment returned *)
Definition add (f l : Z) (fl : list seg) : list seg * option nat :=
  let elmt := mkSeg f l in
  let fl' := consolidate (go_sort (fl ++ [elmt])) in
  (fl', find elmt fl').

(* groot/riofs/blocks.go:167-193 best: new list (the last segment may be enlarged) and index returned *)
Fixpoint best_loop (nbytes : Z) (l : list seg) (i : nat) (best : option nat) : option nat * bool :=
  match l with
  | [] => (best, false)
  | cur :: l' =>
      let nleft := seg_free cur in
      if nleft =? nbytes then (Some i, true)
      else if (wrapS 64 (nbytes + 4) <=? nleft) && (match best with None => true | _ => false end)
           then best_loop nbytes l' (S i) (Some i)
           else best_loop nbytes l' (S i) best
  end.
Definition best (nbytes : Z) (fl : list seg) : list seg * option nat :=
  match fl with
  | [] => (fl, None)
  | _ =>
      match fst (best_loop nbytes fl 0 None) with
      | Some i => (fl, Some i)
      | None =>
          let i := (length fl - 1)%nat in
          let s := nth i fl seg0 in
          (set_nth fl i (mkSeg (first s) (wrapS 64 (last s + 1000000000))), Some i)
      end
  end.

(* ---- groot/riofs/blocks.go:37-62 MarshalROOT, 64-80 UnmarshalROOT ---- *)
Definition marshalSeg (junk : nat -> Z) (s : seg) : wr := w_guard (fun w =>
  let w := grow junk (Z.to_nat (seg_sizeof s)) w in
  let vers := if kStartBigFile <? last s then 1001 else 1 in
  (WriteInt junk 2 vers >>
   if 1000 <? vers then WriteInt junk 8 (first s) >> WriteInt junk 8 (last s)
   else WriteInt junk 4 (first s) >> WriteInt junk 4 (last s)) w).
Definition unmarshalSeg : rd seg := rd_guard seg0 (
  vers <~ ReadSint 2 ;;
  if 1000 <? vers then f <~ ReadSint 8 ;; l <~ ReadSint 8 ;; rd_ret (mkSeg f l)
  else f <~ ReadSint 4 ;; l <~ ReadSint 4 ;; rd_ret (mkSeg f l)).

(* ---- file space ---- *)
(* groot/riofs/file.go: fields end and spans of File *)
Record fspace := mkFs { fend : Z; spans : list seg }.

(* groot/riofs/file.go:165-185 Create: end = begin, spans = {[begin, kStartBigFile]} *)
Definition fs_create (begin : Z) : fspace := mkFs begin (fst (add begin kStartBigFile [])).

(* groot/riofs/file.go:237-253 setEnd; the boolean is true when an error is returned (the end of the
   file has then been changed already) *)
Definition setEnd (pos : Z) (f : fspace) : fspace * bool :=
  match spans f with
  | [] => (mkFs pos (spans f), true)
  | _ =>
      let i := (length (spans f) - 1)%nat in
      let blk := nth i (spans f) seg0 in
      if last blk =? kStartBigFile
      then (mkFs pos (set_nth (spans f) i (mkSeg pos (last blk))), false)
      else (mkFs pos (spans f), true)
  end.

(* groot/riofs/key.go:123-130, 193+214, 249+268: a key of nbytes bytes is placed at the end of the
   file; result: its position *)
Definition fs_alloc (nbytes : Z) (f : fspace) : Z * fspace * bool :=
  let seek := fend f in
  let (f', err) := setEnd (seek + nbytes) f in (seek, f', err).

(* groot/riofs/file.go:645-664 markFree; the second component is the position at which the four bytes
   of the gap marker are written (None when nothing is written), the third the marker value *)
Definition markFree (beg end_ : Z) (f : fspace) : fspace * option (Z * Z) :=
  match spans f with
  | [] => (f, None)
  | _ =>
      let (sp, r) := add beg end_ (spans f) in
      match r with
      | None => (mkFs (fend f) sp, None)
      | Some i =>
          let span := nth i sp seg0 in
          let nbytes := Z.min (seg_free span) 2000000000 in
          let e := if end_ =? fend f - 1 then first span else fend f in
          (mkFs e sp, Some (first span, wrapS 32 (- wrapS 32 nbytes)))
      end
  end.
