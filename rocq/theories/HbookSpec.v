(* Specification vocabulary for the histogram properties: what it means for a value to belong
   to a bin, and what contents a set of fills should produce. Nothing here refers to the
   index computation or the fill loops of the model. *)
From Coq Require Import ZArith List Bool Arith.
From Verif Require Import GoLib F64 HbookModel.
Import ListNotations.

(* The facts about float64 comparisons used by the proofs (proved for IEEE binary64 in
   HbookProofs.f64_ord). *)
Record OrdLaws (N : Num) : Prop := {
  o_lt_le : forall x y : N, nlt x y = true -> nle x y = true;
  o_lt_le_trans : forall x y z : N, nlt x y = true -> nle y z = true -> nlt x z = true;
  o_le_lt_trans : forall x y z : N, nle x y = true -> nlt y z = true -> nlt x z = true;
  o_le_trans : forall x y z : N, nle x y = true -> nle y z = true -> nle x z = true;
  o_le_not_lt : forall x y : N, nle x y = true -> nlt y x = false;
  o_total : forall x y : N, nisnan x = false -> nisnan y = false -> nlt x y = false -> nle y x = true;
  o_le_nan : forall x y : N, nle x y = true -> nisnan x = false /\ nisnan y = false;
  o_nan_lt : forall x y : N, nisnan x = true -> nlt x y = false /\ nlt y x = false;
  o_eq : forall x y : N, neq x y = true <-> nle x y = true /\ nle y x = true
}.

Section Spec.
Context {N : Num}.

(* x lies in the half-open interval [min,max) *)
Definition contains (r : Range N) (x : N) : Prop := nle (rmin r) x = true /\ nlt x (rmax r) = true.

(* a non-empty list of intervals, each with min <= max, in increasing order, not overlapping
   (gaps allowed) *)
Definition wf_bins (rs : list (Range N)) : Prop :=
  rs <> [] /\
  (forall r, In r rs -> nle (rmin r) (rmax r) = true) /\
  (forall i r1 r2, nth_error rs i = Some r1 -> nth_error rs (S i) = Some r2 ->
                   nle (rmax r1) (rmin r2) = true).

(* the range spanned by a list of bins *)
Definition hull (rs : list (Range N)) (xr : Range N) : Prop :=
  exists f l, nth_error rs 0 = Some f /\ nth_error rs (length rs - 1) = Some l /\
              rmin xr = rmin f /\ rmax xr = rmax l.

(* the possible places for an entry *)
Inductive place := PBin (i : nat) | PUnder | POver | PGap.

(* where x belongs in a list of bins: NaN counts as overflow (that is what the code does) *)
Definition belongs (rs : list (Range N)) (xr : Range N) (x : N) (p : place) : Prop :=
  match p with
  | PBin i => exists r, nth_error rs i = Some r /\ contains r x
  | PUnder => nlt x (rmin xr) = true
  | POver => nisnan x = true \/ nle (rmax xr) x = true
  | PGap => nle (rmin xr) x = true /\ nlt x (rmax xr) = true /\
            forall i r, nth_error rs i = Some r -> ~ contains r x
  end.

(* decision procedure used to select the fills belonging to a bin *)
Definition containsb (r : Range N) (x : N) : bool := nle (rmin r) x && nlt x (rmax r).

Definition nsum (l : list N) : N := fold_left nadd l nzero.

(* the statistics of a list of (x,w) entries: number of entries and left-to-right sums *)
Definition stats0 (ws : list N) : Dist0D N :=
  {| dN := Z.of_nat (length ws); dSumW := nsum ws; dSumW2 := nsum (map (fun w => nmul w w) ws) |}.
Definition stats1 (hs : list (N * N)) : Dist1D N :=
  {| d0 := stats0 (map snd hs);
     dSumWX := nsum (map (fun h => nmul (snd h) (fst h)) hs);
     dSumWX2 := nsum (map (fun h => nmul (nmul (snd h) (fst h)) (fst h)) hs) |}.
Definition stats2 (hs : list (N * N * N)) : Dist2D N :=
  {| dX := stats1 (map (fun h => (fst (fst h), snd h)) hs);
     dY := stats1 (map (fun h => (snd (fst h), snd h)) hs);
     dSumWXY := nsum (map (fun h => nmul (nmul (snd h) (fst (fst h))) (snd (fst h))) hs) |}.

(* a histogram whose bins are [rs], range [xr], holding exactly the entries [hs], each entry
   being sent by [at_bin]/[at_under]/[at_over] *)
Definition total_entries (b : Binning1D N) : Z := dN (d0 (bdist_tot b)).
Definition bins_entries (b : Binning1D N) : Z :=
  fold_right Z.add 0%Z (map (fun bn => dN (d0 (bdist bn))) (bins b)).
Definition under_entries (b : Binning1D N) : Z := dN (d0 (under b)).
Definition over_entries (b : Binning1D N) : Z := dN (d0 (over b)).

End Spec.
