(* What it means for a HepMC event to be well formed, and for two events to be the same, in terms of what a user of the package sees:
   barcodes, numbers, the maps of vertices and particles, and the pointers between them.  Vertices and particles are found through
   the maps of the event, so the same barcodes leading to the same data is all that can be told apart, except for the order of
   the particles at a vertex, which is increasing in barcodes after reading. *)
From Coq Require Import ZArith List Lia Bool Permutation Sorted.
From Flocq Require Import IEEE754.BinarySingleNaN.
From Verif Require Import Bytes GoLib GoStrings F64 DflowModel HepmcModel HepmcTextModel HepmcTextProofs HepmcTextProofs2.
Import ListNotations.
Local Open Scope Z_scope.

Definition inV (m : mem) (e v : nat) : Prop := get (e_verts (evts (gr m) e)) (vbc m v) = Some v.
Definition inP (m : mem) (e p : nat) : Prop := get (e_parts (evts (gr m) e)) (pbc m p) = Some p.

Section Spec.
Variable f32 : f64 -> f64.
(* an event that can be printed: the maps are keyed by barcodes that are not 0, pointers between vertices and particles go
   both ways and stay inside the event, beams decay, there is a vertex, names of weights have no blank, integers fit *)
Record wf (m : mem) (e : nat) : Prop := {
  w_kv : NoDup (keys (e_verts (evts (gr m) e)));
  w_v : forall bc v, get (e_verts (evts (gr m) e)) bc = Some v -> vbc m v = bc /\ bc <> 0 /\ vert_ok m v;
  w_p : forall bc p, get (e_parts (evts (gr m) e)) bc = Some p -> pbc m p = bc /\ bc <> 0 /\ part_ok m p /\ (p_prod (parts (gr m) p) <> None \/ p_end (parts (gr m) p) <> None);
  w_in : forall v p, inV m e v -> In p (v_in (verts (gr m) v)) -> p_end (parts (gr m) p) = Some v /\ inP m e p;
  w_out : forall v p, inV m e v -> In p (v_out (verts (gr m) v)) -> p_prod (parts (gr m) p) = Some v /\ inP m e p;
  w_end : forall p v, inP m e p -> p_end (parts (gr m) p) = Some v -> inV m e v /\ In p (v_in (verts (gr m) v));
  w_prod : forall p v, inP m e p -> p_prod (parts (gr m) p) = Some v -> inV m e v /\ In p (v_out (verts (gr m) v));
  w_nd : forall v, inV m e v -> NoDup (v_in (verts (gr m) v)) /\ NoDup (v_out (verts (gr m) v));
  w_sig : forall v, signal (ed m e) = Some v -> inV m e v;
  w_b1 : forall p, beam1 (ed m e) = Some p -> inP m e p /\ p_end (parts (gr m) p) <> None;
  w_b2 : forall p, beam2 (ed m e) = Some p -> inP m e p /\ p_end (parts (gr m) p) <> None;
  w_ne : e_verts (evts (gr m) e) <> [];
  w_int : int_ok (evnum (ed m e)) /\ int_ok (mpi (ed m e)) /\ int_ok (sigid (ed m e)) /\ Forall int_ok (rndm (ed m e));
  w_sz : size_ok (e_verts (evts (gr m) e)) /\ size_ok (rndm (ed m e)) /\ size_ok (weightsOf (ed m e));
  w_data : data_ok f32 (ed m e) }.

(* pointers from one event and from the other: both nil, or to the vertices of one barcode *)
Definition vlink (m M : mem) (e' : nat) (o o' : option nat) : Prop :=
  match o, o' with
  | None, None => True
  | Some v, Some v' => vbc M v' = vbc m v /\ get (e_verts (evts (gr M) e')) (vbc m v) = Some v'
  | _, _ => False
  end.
Definition plink (m M : mem) (e' : nat) (o o' : option nat) : Prop :=
  match o, o' with
  | None, None => True
  | Some p, Some p' => pbc M p' = pbc m p /\ get (e_parts (evts (gr M) e')) (pbc m p) = Some p'
  | _, _ => False
  end.
(* the particles of the second list are those of the first, by increasing barcode, and are the particles of the event *)
Definition plist (m M : mem) (e' : nat) (l l' : list nat) : Prop :=
  Permutation (map (pbc m) l) (map (pbc M) l') /\ StronglySorted Z.lt (map (pbc M) l') /\ forall p', In p' l' -> get (e_parts (evts (gr M) e')) (pbc M p') = Some p'.
Definition same_vert (m M : mem) (e' v v' : nat) : Prop :=
  vbc M v' = vbc m v /\ v_ev (verts (gr M) v') = Some e' /\
  vx (vd M v') = vx (vd m v) /\ vy (vd M v') = vy (vd m v) /\ vz (vd M v') = vz (vd m v) /\ vt (vd M v') = vt (vd m v) /\ vid (vd M v') = vid (vd m v) /\ vws (vd M v') = vws (vd m v) /\
  plist m M e' (v_in (verts (gr m) v)) (v_in (verts (gr M) v')) /\ plist m M e' (v_out (verts (gr m) v)) (v_out (verts (gr M) v')).
Definition same_part (m M : mem) (e' p p' : nat) : Prop :=
  pbc M p' = pbc m p /\ pd_same (pd m p) (pd M p') /\ vlink m M e' (p_prod (parts (gr m) p)) (p_prod (parts (gr M) p')) /\ vlink m M e' (p_end (parts (gr m) p)) (p_end (parts (gr M) p')).
(* the vertices and particles of e in m and of e' in M *)
Definition same_graph (m : mem) (e : nat) (M : mem) (e' : nat) : Prop :=
  (forall bc, match get (e_verts (evts (gr m) e)) bc, get (e_verts (evts (gr M) e')) bc with None, None => True | Some v, Some v' => same_vert m M e' v v' | _, _ => False end) /\
  (forall bc, match get (e_parts (evts (gr m) e)) bc, get (e_parts (evts (gr M) e')) bc with None, None => True | Some p, Some p' => same_part m M e' p p' | _, _ => False end).
(* numbers of the event; PdfInfo that was missing is there, with zeros *)
Definition same_numbers (d d' : edata) : Prop :=
  sigid d' = sigid d /\ evnum d' = evnum d /\ mpi d' = mpi d /\ scale d' = scale d /\ aqcd d' = aqcd d /\ aqed d' = aqed d /\ weightsOf d' = weightsOf d /\ rndm d' = rndm d /\
  pdfi d' = Some (match pdfi d with Some f => f | None => zeropdf end) /\ mu d' = mu d /\ lu d' = lu d.
Definition same_event (m : mem) (e : nat) (M : mem) (e' : nat) : Prop :=
  same_graph m e M e' /\ same_numbers (ed m e) (ed M e') /\ NoDup (map fst (wmap (ed M e'))) /\ (forall n, sget (wmap (ed M e')) n = sget (wmap (ed m e)) n) /\ xsec (ed M e') = xsec (ed m e) /\ hion (ed M e') = hion (ed m e) /\
  vlink m M e' (signal (ed m e)) (signal (ed M e')) /\ plink m M e' (beam1 (ed m e)) (beam1 (ed M e')) /\ plink m M e' (beam2 (ed m e)) (beam2 (ed M e')).
(* the same, for an event that had d0 before: what was not printed is what was there before *)
Definition over_event (m : mem) (e : nat) (d0 : edata) (M : mem) (e' : nat) : Prop :=
  same_graph m e M e' /\ same_numbers (ed m e) (ed M e') /\
  (if weightsOf (ed m e) then wmap (ed M e') = match wslice d0 with None => [] | Some _ => wmap d0 end else NoDup (map fst (wmap (ed M e'))) /\ forall n, sget (wmap (ed M e')) n = sget (wmap (ed m e)) n) /\
  xsec (ed M e') = match xsec (ed m e) with Some x => Some x | None => xsec d0 end /\ hion (ed M e') = match hion (ed m e) with Some x => Some x | None => hion d0 end /\
  (if signal (ed m e) then vlink m M e' (signal (ed m e)) (signal (ed M e')) else signal (ed M e') = signal d0) /\
  (if beam1 (ed m e) then plink m M e' (beam1 (ed m e)) (beam1 (ed M e')) else beam1 (ed M e') = beam1 d0) /\
  (if beam2 (ed m e) then plink m M e' (beam2 (ed m e)) (beam2 (ed M e')) else beam2 (ed M e') = beam2 d0).
(* an Event as declared by var evt hepmc.Event, or made by NewEvent and never used *)
Definition blank (d : edata) : Prop :=
  signal d = None /\ beam1 d = None /\ beam2 d = None /\ xsec d = None /\ hion d = None /\ wmap d = [].
(* nothing but the event e' changed among what existed *)
Definition frame (m M : mem) (e' : nat) : Prop :=
  (np m <= np M)%nat /\ (nv m <= nv M)%nat /\
  (forall a, (a < np m)%nat -> parts (gr M) a = parts (gr m) a /\ pd M a = pd m a) /\ (forall a, (a < nv m)%nat -> verts (gr M) a = verts (gr m) a /\ vd M a = vd m a) /\
  (forall a, a <> e' -> evts (gr M) a = evts (gr m) a /\ ed M a = ed m a).
(* the event refers only to what exists, and its maps have every key once *)
Definition closed (M : mem) (e' : nat) : Prop :=
  NoDup (keys (e_verts (evts (gr M) e'))) /\
  (forall bc v, get (e_verts (evts (gr M) e')) bc = Some v -> (v < nv M)%nat /\ (forall p, In p (v_in (verts (gr M) v)) \/ In p (v_out (verts (gr M) v)) -> (p < np M)%nat)) /\
  (forall bc p, get (e_parts (evts (gr M) e')) bc = Some p -> (p < np M)%nat).
End Spec.
