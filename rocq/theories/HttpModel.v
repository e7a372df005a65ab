(* Model of groot/riofs/plugin/http/span.go, rcache.go, preader.go and of ReadAt in groot/internal/httpio/reader.go.
   Offsets are unbounded integers (int64 overflow needs files of 2^62 bytes).  The temporary file and the remote
   content are lists of bytes. *)
From Coq Require Import ZArith List Lia Bool.
From Verif Require Import Bytes GoLib.
Import ListNotations.
Local Open Scope Z_scope.

(* span.go:12-15 *)
Record span := { off : Z; len : Z }.
Definition fin (s : span) : Z := off s + len s.

(* span.go:24-75, the loop: sp and o are the variables of split; the break leaves a span of length 0, which is not
   appended at the end *)
Fixpoint split_loop (sp : span) (sps : list span) (o : list span) : list span :=
  match sps with
  | [] => if len sp =? 0 then o else o ++ [sp]
  | v :: sps' =>
      let b1 := off v in let e1 := fin v in let b2 := off sp in let e2 := fin sp in
      if e1 <=? b2 then split_loop sp sps' o
      else
        let '(sp', o') :=
          if e2 <=? b1 then ({| off := off sp; len := 0 |}, o ++ [sp])
          else if (b2 <? b1) && (e1 <=? e2) then
            ({| off := e1; len := len sp - (len v + (b1 - b2)) |}, o ++ [{| off := b2; len := b1 - b2 |}])
          else if (b2 <? b1) && (b1 <? e2) && (e2 <? e1) then
            ({| off := off sp; len := 0 |}, o ++ [{| off := b2; len := b1 - b2 |}])
          else if (b1 <=? b2) && (e2 <=? e1) then ({| off := off sp; len := 0 |}, o)
          else if (b1 <=? b2) && (e1 <? e2) then ({| off := e1; len := e2 - e1 |}, o)
          else (sp, o) in
        if len sp' =? 0 then o' else split_loop sp' sps' o'
  end.
(* span.go:17-77 *)
Definition split (sp : span) (sps : list span) : list span :=
  match sps with [] => [sp] | _ => split_loop sp sps [] end.

(* span.go:81-95: from the last index down; [consolidate_at l i] is the body at index i *)
Definition consolidate_at (l : list span) (i : nat) : list span :=
  match nth_error l (i - 1), nth_error l i with
  | Some jj, Some ii =>
      if fin jj <? off ii then l
      else
        let jj' := if fin jj <=? fin ii then {| off := off jj; len := len jj + (fin ii - fin jj) |} else jj in
        firstn (i - 1) l ++ jj' :: skipn (S i) l
  | _, _ => l
  end.
Fixpoint consolidate_from (l : list span) (i : nat) : list span :=
  match i with O => l | S i' => consolidate_from (consolidate_at l i) i' end.
Definition consolidate (l : list span) : list span := consolidate_from l (length l - 1).

(* span.go:104-114: sort.Slice by start and then by end; equal elements are identical, so the order is unique *)
Definition span_lt (a b : span) : bool :=
  if off a <? off b then true else if off a =? off b then off a + len a <? off b + len b else false.
Fixpoint insert (x : span) (l : list span) : list span :=
  match l with [] => [x] | y :: l' => if span_lt x y then x :: l else y :: insert x l' end.
Definition sort_spans (l : list span) : list span := fold_right insert [] l.
(* span.go:102-116 *)
Definition add (sp : span) (l : list span) : list span := consolidate (sort_spans (l ++ [sp])).

(* os.File.WriteAt, ReadAt of a file whose bytes are st *)
Definition writeAt (st p : list Z) (o : Z) : list Z :=
  match p with
  | [] => st
  | _ => firstn (Z.to_nat o) (st ++ repeat 0 (Z.to_nat o)) ++ p ++ skipn (Z.to_nat o + length p) st
  end.
Definition readAt (st : list Z) (o n : Z) : list Z := firstn (Z.to_nat n) (skipn (Z.to_nat o) st).

(* httpio/reader.go:114-149 on a server that honours ranges: the buffer after the call, n, and whether err is nil *)
Definition http_readAt (content p : list Z) (o : Z) : list Z * Z * bool :=
  match p with
  | [] => (p, 0, true)
  | _ =>
      if zlen content <=? o then (p, 0, false)
      else
        let got := readAt content o (zlen p) in
        (got ++ skipn (length got) p, zlen got, negb (zlen content <? zlen p))
  end.
(* preader.go:41-93: blocks of [blk] bytes, read by several goroutines in disjoint parts of p *)
Fixpoint pread_blocks (fuel : nat) (blk : Z) (content p : list Z) (o : Z) : list Z * Z * bool :=
  match fuel with
  | O => ([], 0, true)
  | S fuel' =>
      match p with
      | [] => ([], 0, true)
      | _ =>
          let '(q, n, ok) := http_readAt content (firstn (Z.to_nat blk) p) o in
          let '(q', n', ok') := pread_blocks fuel' blk content (skipn (Z.to_nat blk) p) (o + blk) in
          (q ++ q', n + n', ok && ok')
      end
  end.
(* preader.go:32-39 *)
Definition preader_readAt (blk : Z) (content p : list Z) (o : Z) : list Z * Z * bool :=
  if blk <? zlen p then pread_blocks (length p) blk content p o else http_readAt content p o.

(* ---- the cache, one call at a time ---- *)
(* rcache.go:31-37 *)
Record rc := { sto : list Z; sps : list span; log : list span }.
(* rcache.go:97-111 fetch into the part q of the caller's buffer; [log] records what is asked from the remote *)
Definition fetch (blk : Z) (content q : list Z) (sp : span) (c : rc) : list Z * bool * rc :=
  let '(q', n, ok) := preader_readAt blk content q (off sp) in
  if ok then (q', true, {| sto := writeAt (sto c) q' (off sp); sps := add sp (sps c); log := log c ++ [sp] |})
  else (q', false, {| sto := sto c; sps := sps c; log := log c ++ [sp] |}).
Fixpoint fetch_all (blk : Z) (content p : list Z) (oo : list span) (c : rc) : list Z * bool * rc :=
  match oo with
  | [] => (p, true, c)
  | sp :: oo' =>
      let '(q, ok, c1) := fetch blk content (firstn (Z.to_nat (len sp)) p) sp c in
      let '(p', ok', c2) := fetch_all blk content (skipn (Z.to_nat (len sp)) p) oo' c1 in
      (q ++ p', ok && ok', c2)
  end.
(* rcache.go:62-88; None: an error *)
Definition rc_readAt (blk : Z) (content p : list Z) (o : Z) (c : rc) : option (list Z) * rc :=
  let oo := split {| off := o; len := zlen p |} (sps c) in
  match oo with
  | [] => (Some (readAt (sto c) o (zlen p)), c)
  | _ =>
      let '(_, ok, c') := fetch_all blk content p oo c in
      if ok then (Some (readAt (sto c') o (zlen p)), c') else (None, c')
  end.

(* ---- the cache, concurrent calls ---- *)
(* a fetch of a call: still to read, written to the file, added to the spans, failed *)
Inductive phase := Pending | Written | Added | Failed.
Inductive call :=
| Asked (o n : Z)
| Fetching (o n : Z) (ts : list (phase * span))
| Returned (o n : Z) (r : option (list Z)).
Record sys := { csto : list Z; csps : list span; calls : list call }.
Definition upd {A} (l : list A) (i : nat) (x : A) : list A := firstn i l ++ x :: skipn (S i) l.
(* The remote content is [content]; a read of the remote may also fail at any time. *)
Inductive cstep (content : list Z) : sys -> sys -> Prop :=
| c_split s i o n : nth_error (calls s) i = Some (Asked o n) ->                       (* rcache.go:63-64 *)
    cstep content s {| csto := csto s; csps := csps s;
      calls := upd (calls s) i (Fetching o n (map (fun sp => (Pending, sp)) (split {| off := o; len := n |} (csps s)))) |}
| c_fetch s i o n ts j sp : nth_error (calls s) i = Some (Fetching o n ts) -> nth_error ts j = Some (Pending, sp) ->  (* 98-105 *)
    cstep content s {| csto := writeAt (csto s) (readAt content (off sp) (len sp)) (off sp); csps := csps s;
      calls := upd (calls s) i (Fetching o n (upd ts j (Written, sp))) |}
| c_fail s i o n ts j sp : nth_error (calls s) i = Some (Fetching o n ts) -> nth_error ts j = Some (Pending, sp) ->
    cstep content s {| csto := csto s; csps := csps s; calls := upd (calls s) i (Fetching o n (upd ts j (Failed, sp))) |}
| c_add s i o n ts j sp : nth_error (calls s) i = Some (Fetching o n ts) -> nth_error ts j = Some (Written, sp) ->     (* 106-110 *)
    cstep content s {| csto := csto s; csps := add sp (csps s); calls := upd (calls s) i (Fetching o n (upd ts j (Added, sp))) |}
| c_return s i o n ts : nth_error (calls s) i = Some (Fetching o n ts) ->              (* 65-67, 82-87 *)
    (forall t, In t ts -> fst t = Added \/ fst t = Failed) ->
    cstep content s {| csto := csto s; csps := csps s;
      calls := upd (calls s) i (Returned o n
        (if existsb (fun t => match fst t with Failed => true | _ => false end) ts then None else Some (readAt (csto s) o n))) |}.
Inductive csteps (content : list Z) : sys -> sys -> Prop :=
| cs_nil s : csteps content s s
| cs_cons s t u : csteps content s t -> cstep content t u -> csteps content s u.
