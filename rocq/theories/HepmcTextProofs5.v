(* Files that end after a whole line, and files made again from what was read *)
From Coq Require Import ZArith List Lia Bool Permutation Sorted.
From Flocq Require Import IEEE754.BinarySingleNaN.
From Verif Require Import Bytes GoLib GoStrings GoQuote F64 FloatText DflowModel DflowProps HepmcModel HepmcTextModel HepmcTextProofs HepmcTextProofs2 HepmcTextSpec HepmcTextProofs3 HepmcTextProofs4.
Import ListNotations.
Local Open Scope Z_scope.

(* a reader of lines that has lines a, then the end, or lines a, then b: the same if it does not need b, and else io.EOF *)
Definition cutAt {A} (full part : out A * strm) (b : list (list str)) (fn : option ending) : Prop :=
  (exists o a', full = (o, {| sl := a' ++ b; fin := fn |}) /\ part = (o, {| sl := a'; fin := Some EndEOF |})) \/ fst part = Eof.
Definition cut {A} (F : strm -> out A * strm) : Prop := forall a b fn, cutAt (F {| sl := a ++ b; fin := fn |}) (F {| sl := a; fin := Some EndEOF |}) b fn.
Lemma cut_ret {A} (o : out A) : cut (fun s => (o, s)).
Proof. intros a b fn. left. exists o, a. split; reflexivity. Qed.
Lemma cut_readline : cut readline.
Proof. intros [|l a] b fn; [right; reflexivity|]. left. exists (Val l), a. split; reflexivity. Qed.
Lemma cut_bind {A B} (F : strm -> out A * strm) (G : out A -> strm -> out B * strm) :
  cut F -> (forall o, cut (G o)) -> (forall s, fst (G Eof s) = Eof) -> cut (fun s => let '(o, s1) := F s in G o s1).
Proof.
  intros HF HG HE a b fn. destruct (HF a b fn) as [(o & a' & E1 & E2)|E].
  - rewrite E1, E2. apply HG.
  - right. destruct (F {| sl := a; fin := Some EndEOF |}) as [o s1]. cbn [fst] in E. subst o. apply HE.
Qed.

Section Cut.
Variable visit : forall A : Type, list A -> list A.
Variable f32 : f64 -> f64.
Lemma cut_parts f e prod n : forall pidx m, cut (decodeParts f e prod n pidx m).
Proof.
  induction n as [|n IH]; intros pidx m; [apply cut_ret|]. cbn [decodeParts].
  apply (cut_bind readline (fun o s1 => match obind o (decodeParticle f) with
    | Val (bc, eb, d) => let pidx1 := if eb =? 0 then pidx else set pidx bc eb in
      let '(o2, s2) := decodeParts f e prod n pidx1 (newPart m e prod bc d) s1 in (obind o2 (fun x => match x with (ps, pidx2, m2) => Val (np m :: ps, pidx2, m2) end), s2)
    | Eof => (Eof, s1) | Err => (Err, s1) | Crash => (Crash, s1) | Hang => (Hang, s1) end)); [apply cut_readline| |reflexivity].
  intros o. destruct (obind o (decodeParticle f)) as [[[bc eb] d]| | | |]; try apply cut_ret. cbv zeta.
  apply (cut_bind _ (fun o2 s2 => (obind o2 (fun x => match x with (ps, pidx2, m2) => Val (np m :: ps, pidx2, m2) end), s2))); [apply IH|intros; apply cut_ret|reflexivity].
Qed.
Lemma cut_vertex f e t pidx m : cut (decodeVertex f e t pidx m).
Proof.
  unfold decodeVertex. destruct (decodeVLine t) as [[[[bc no] nout] d]| | | |]; try apply cut_ret. cbv zeta.
  apply (cut_bind _ (fun o1 s1 => match o1 with
    | Val (_, pidx1, m1) => if nout <? 0 then (Crash, s1) else
      let '(o2, s2) := decodeParts f e (Some (nv m)) (Z.to_nat nout) pidx1 m1 s1 in (obind o2 (fun x => match x with (ps, pidx2, m2) => Val (pidx2, newVert m2 e (nv m) bc ps d) end), s2)
    | Eof => (Eof, s1) | Err => (Err, s1) | Crash => (Crash, s1) | Hang => (Hang, s1) end)); [apply cut_parts| |reflexivity].
  intros o1. destruct o1 as [[[x pidx1] m1]| | | |]; try apply cut_ret. destruct (nout <? 0); [apply cut_ret|].
  apply (cut_bind _ (fun o2 s2 => (obind o2 (fun x => match x with (ps, pidx2, m2) => Val (pidx2, newVert m2 e (nv m) bc ps d) end), s2))); [apply cut_parts|intros; apply cut_ret|reflexivity].
Qed.
Lemma cut_verts f e n : forall t pidx m, cut (decodeVerts f e t n pidx m).
Proof.
  induction n as [|n IH]; intros t pidx m; [apply cut_ret|]. cbn [decodeVerts].
  apply (cut_bind (fun s => match t with Some l => (Val l, s) | None => readline s end) (fun o s1 => match o with
    | Val l => let '(o2, s2) := decodeVertex f e l pidx m s1 in
      match o2 with Val (pidx2, m2) => decodeVerts f e None n pidx2 m2 s2 | Eof => (Eof, s2) | Err => (Err, s2) | Crash => (Crash, s2) | Hang => (Hang, s2) end
    | Eof => (Eof, s1) | Err => (Err, s1) | Crash => (Crash, s1) | Hang => (Hang, s1) end)).
  - destruct t; [apply cut_ret|apply cut_readline].
  - intros [l| | | |]; try apply cut_ret.
    apply (cut_bind _ (fun o2 s2 => match o2 with Val (pidx2, m2) => decodeVerts f e None n pidx2 m2 s2 | Eof => (Eof, s2) | Err => (Err, s2) | Crash => (Crash, s2) | Hang => (Hang, s2) end)); [apply cut_vertex| |reflexivity].
    intros [[pidx2 m2]| | | |]; try apply cut_ret. apply IH.
  - reflexivity.
Qed.
Lemma cut_head f e a : forall t b fn h m, cutAt (head f32 f e t (a ++ b) fn h m) (head f32 f e t a (Some EndEOF) h m) b fn.
Proof.
  induction a as [|t' a IH]; intros t b fn h m; cbn [app head].
  - destruct (headLine f32 f e t h m) as [[[h' m']|]| | | |] eqn:E; try (right; reflexivity); destruct b; cbn [head]; rewrite ?E; (left; eexists _, []; split; reflexivity).
  - destruct (headLine f32 f e t h m) as [[[h' m']|]| | | |]; try (left; eexists _, (t' :: a); split; reflexivity). apply IH.
Qed.
Lemma cut_body f m e : cut (decodeBody visit f32 f m e).
Proof.
  unfold decodeBody.
  apply (cut_bind readline (fun o s1 => match o with
  | Val t =>
    match peek t with
    | Val (c, _) =>
      if negb (c =? 69) then (obind (findEndKey f t) (fun _ => Err), s1)
      else
        let '(o2, s2) := head f32 f e t (sl s1) (fin s1) hdr0 m in
        match o2 with
        | Val (t2, h, m2) =>
          let '(o3, s3) := decodeVerts f e (Some t2) (Z.to_nat (nvtx h)) [] m2 s2 in
          (obind o3 (fun x => match x with (pidx, m3) => finish visit e h pidx m3 end), s3)
        | Eof => (Eof, s2) | Err => (Err, s2) | Crash => (Crash, s2) | Hang => (Hang, s2)
        end
    | _ => (Crash, s1)
    end
  | Eof => (Eof, s1) | Err => (Err, s1) | Crash => (Crash, s1) | Hang => (Hang, s1)
  end)); [apply cut_readline| |reflexivity].
  intros [t| | | |]; try apply cut_ret. destruct (peek t) as [[c t1]| | | |]; try apply cut_ret. destruct (negb (c =? 69)); [apply cut_ret|].
  apply (cut_bind (fun s1 => head f32 f e t (sl s1) (fin s1) hdr0 m) (fun o2 s2 => match o2 with
        | Val (t2, h, m2) =>
          let '(o3, s3) := decodeVerts f e (Some t2) (Z.to_nat (nvtx h)) [] m2 s2 in
          (obind o3 (fun x => match x with (pidx, m3) => finish visit e h pidx m3 end), s3)
        | Eof => (Eof, s2) | Err => (Err, s2) | Crash => (Crash, s2) | Hang => (Hang, s2)
        end)); [intros a b fn; apply cut_head| |reflexivity].
  intros [[[t2 h] m2]| | | |]; try apply cut_ret.
  apply (cut_bind _ (fun o3 s3 => (obind o3 (fun x => match x with (pidx, m3) => finish visit e h pidx m3 end), s3))); [apply cut_verts|intros; apply cut_ret|reflexivity].
Qed.
End Cut.

(* ---- the text of an event depends only on what same_event compares ---- *)
Lemma strict_unique a : forall b, StronglySorted Z.lt a -> StronglySorted Z.lt b -> (forall x, In x a <-> In x b) -> a = b.
Proof.
  induction a as [|x a IH]; intros b SA SB H.
  - destruct b as [|y b]; [reflexivity|]. destruct (proj2 (H y) (or_introl eq_refl)).
  - destruct b as [|y b]; [destruct (proj1 (H x) (or_introl eq_refl))|]. inversion SA as [|? ? SA1 SA2]; subst. inversion SB as [|? ? SB1 SB2]; subst. rewrite Forall_forall in SA2, SB2.
    assert (x = y) as ->.
    { destruct (proj1 (H x) (or_introl eq_refl)) as [E|J]; [congruence|]. destruct (proj2 (H y) (or_introl eq_refl)) as [E|K]; [congruence|]. specialize (SA2 _ K). specialize (SB2 _ J). lia. }
    f_equal. apply IH; [exact SA1|exact SB1|]. intros z. split; intros J.
    + destruct (proj1 (H z) (or_intror J)) as [<-|K]; [specialize (SA2 _ J); lia|exact K].
    + destruct (proj2 (H z) (or_intror J)) as [<-|K]; [specialize (SB2 _ J); lia|exact K].
Qed.
Lemma sorted_strict {A} (key : A -> Z) l : sorted key l -> NoDup (map key l) -> StronglySorted Z.lt (map key l).
Proof.
  induction l as [|x l IH]; intros SG N; [constructor|]. destruct SG as [S1 S2]. cbn [map] in *. inversion N as [|? ? N1 N2]; subst. constructor; [apply IH; assumption|].
  apply Forall_forall. intros z J. destruct (proj1 (in_map_iff _ _ _) J) as (y & <- & K). specialize (S1 y K). assert (key x <> key y) by (intros E; apply N1; rewrite E; exact J). lia.
Qed.
Lemma vertsOf_strict visit m e : (forall A (l : list A), Permutation l (visit A l)) -> NoDup (keys (e_verts (evts (gr m) e))) -> (forall bc v, get (e_verts (evts (gr m) e)) bc = Some v -> vbc m v = bc) ->
  StronglySorted Z.lt (map (fun v => - vbc m v) (vertsOf visit m e)) /\ forall v, In v (vertsOf visit m e) <-> inV m e v.
Proof.
  intros P N K. assert (J : forall v, In v (vertsOf visit m e) <-> inV m e v).
  { intros v. unfold vertsOf, rsortBy. rewrite sort_In. split.
    - intros J. apply in_map_iff in J. destruct J as ([bc v2] & E & J). cbn [snd] in E. subst v2. apply (Permutation_in _ (Permutation_sym (P _ _))) in J. apply In_get in J; [|exact N]. unfold inV. rewrite (K _ _ J). exact J.
    - intros J. apply in_map_iff. exists (vbc m v, v). split; [reflexivity|]. apply (Permutation_in _ (P _ _)), get_In, J. }
  split; [|exact J]. apply sorted_strict; [apply sort_sorted|].
  unfold vertsOf, rsortBy. eapply Permutation_NoDup; [apply Permutation_map, sort_perm|]. eapply Permutation_NoDup; [apply Permutation_map, Permutation_map, P|].
  rewrite map_map. assert (E : map (fun x => - vbc m (snd x)) (e_verts (evts (gr m) e)) = map Z.opp (keys (e_verts (evts (gr m) e)))).
  { unfold keys. rewrite map_map. apply map_ext_in. intros [bc v] I. cbn [fst snd]. rewrite (K bc v); [reflexivity|]. apply In_get; assumption. }
  rewrite E. apply FinFun.Injective_map_NoDup; [intros x y; lia|exact N].
Qed.

(* the particles of every vertex are listed by increasing barcode *)
Definition ordered (m : mem) (e : nat) : Prop :=
  forall v, inV m e v -> StronglySorted Z.lt (map (pbc m) (v_in (verts (gr m) v))) /\ StronglySorted Z.lt (map (pbc m) (v_out (verts (gr m) v))).
Section Again.
Variable visit : forall A : Type, list A -> list A.
Hypothesis visit_perm : forall A (l : list A), Permutation l (visit A l).
Variable isPrint : Z -> bool.
Variable f32 : f64 -> f64.
Lemma flowText_same a b : NoDup (keys a) -> NoDup (keys b) -> (forall k, get b k = get a k) -> flowText visit a = flowText visit b.
Proof.
  intros NA NB G. assert (KP : Permutation (keys a) (keys b)).
  { apply NoDup_Permutation; [exact NA|exact NB|]. intros k. rewrite !keys_get. split; intros [x E]; exists x; [rewrite G|rewrite <- G]; exact E. }
  unfold flowText. f_equal; [f_equal; unfold zlen; unfold keys in KP; apply Permutation_length in KP; rewrite !map_length in KP; congruence|].
  assert (ES : sortBy (fun k => k) (keys (visit _ a)) = sortBy (fun k => k) (keys (visit _ b))).
  { assert (KV : forall x : amap Z, Permutation (keys x) (keys (visit _ x))) by (intros x; unfold keys; apply Permutation_map, visit_perm).
    assert (SS : forall x : amap Z, NoDup (keys x) -> StronglySorted Z.lt (sortBy (fun k => k) (keys (visit _ x)))).
    { intros x N. rewrite <- (map_id (sortBy _ _)). apply (sorted_strict (fun k => k)); [apply sort_sorted|]. rewrite map_id. apply sort_nodup. eapply Permutation_NoDup; [apply KV|exact N]. }
    apply strict_unique; [apply SS, NA|apply SS, NB|]. intros k. rewrite !sort_In. split; intros J.
    - apply (Permutation_in _ (KV b)), (Permutation_in _ KP), (Permutation_in _ (Permutation_sym (KV a))), J.
    - apply (Permutation_in _ (KV a)), (Permutation_in _ (Permutation_sym KP)), (Permutation_in _ (Permutation_sym (KV b))), J. }
  rewrite ES. f_equal. apply map_ext. intros k. rewrite G. reflexivity.
Qed.
Lemma vlink_obc m M e' o o' : vlink m M e' o o' -> obc (vbc M) o' = obc (vbc m) o.
Proof. destruct o, o'; cbn [vlink obc]; try contradiction; [intros [E _]; exact E|reflexivity]. Qed.
Lemma plink_obc m M e' o o' : plink m M e' o o' -> obc (pbc M) o' = obc (pbc m) o.
Proof. destruct o, o'; cbn [plink obc]; try contradiction; [intros [E _]; exact E|reflexivity]. Qed.
Lemma lineP_same m M e' p p' : part_ok m p -> same_part m M e' p p' -> lineP visit M p' = lineP visit m p.
Proof.
  intros (_ & _ & _ & _ & NF & _) (B & (E1 & E2 & E3 & E4 & E5 & E6 & E7 & E8 & E9 & NF' & G) & _ & L). unfold lineP. cbv zeta.
  rewrite B, E1, E2, E3, E4, E5, E6, E7, E8, E9. rewrite (vlink_obc _ _ _ _ _ L). rewrite (flowText_same (flow (pd m p)) (flow (pd M p'))); [reflexivity|exact NF|exact NF'|exact G].
Qed.
Section Evt.
Variables (m M : mem) (e e' : nat).
Hypothesis W : wf f32 m e.
Hypothesis SM : same_event m e M e'.
Hypothesis CL : closed M e'.
Hypothesis OR : ordered m e.
Lemma list_same l l' : (forall p, In p l -> inP m e p) -> StronglySorted Z.lt (map (pbc m) l) -> plist m M e' l l' -> Forall2 (fun p p' => part_ok m p /\ same_part m M e' p p') l l'.
Proof.
  intros IP SG (P & S2 & I2). assert (E : map (pbc m) l = map (pbc M) l') by (apply strict_unique; [exact SG|exact S2|intros x; split; apply Permutation_in; [exact P|symmetry; exact P]]).
  clear SG P S2. destruct SM as ([_ GP] & _). revert l' E I2. induction l as [|p l IH]; intros [|p' l'] E I2; try discriminate; [constructor|]. cbn [map] in E. injection E as E1 E2. constructor.
  - assert (J := IP p (or_introl eq_refl)). split; [apply (w_p _ _ _ W _ _ J)|]. unfold inP in J. specialize (GP (pbc m p)). rewrite J in GP. specialize (I2 p' (or_introl eq_refl)). rewrite <- E1 in I2. rewrite I2 in GP. exact GP.
  - apply IH; [intros q J; apply IP; right; exact J|exact E2|intros q J; apply I2; right; exact J].
Qed.
Lemma lines_of l l' : Forall2 (fun p p' => part_ok m p /\ same_part m M e' p p') l l' -> map (lineP visit M) l' = map (lineP visit m) l.
Proof. induction 1 as [|p p' l l' [H1 H2] F IH]; [reflexivity|]. cbn [map]. rewrite IH, (lineP_same _ _ _ _ _ H1 H2). reflexivity. Qed.
Lemma orphans_of l l' : Forall2 (fun p p' => part_ok m p /\ same_part m M e' p p') l l' ->
  Forall2 (fun p p' => part_ok m p /\ same_part m M e' p p') (filter (orphan m) l) (filter (orphan M) l').
Proof.
  induction 1 as [|p p' l l' H F IH]; [constructor|]. cbn [filter]. assert (E : orphan M p' = orphan m p).
  { destruct H as (_ & _ & _ & L & _). unfold orphan. destruct (p_prod (parts (gr m) p)), (p_prod (parts (gr M) p')); cbn [vlink] in L; try contradiction; reflexivity. }
  rewrite E. destruct (orphan m p); [constructor; assumption|exact IH].
Qed.
Lemma F2_len {A B} (R : A -> B -> Prop) l l' : Forall2 R l l' -> zlen l' = zlen l.
Proof. unfold zlen. induction 1; [reflexivity|]. cbn [length]. lia. Qed.
Lemma linesV_same v v' : inV m e v -> same_vert m M e' v v' -> linesV visit M v' = linesV visit m v.
Proof.
  intros IV (B & _ & E1 & E2 & E3 & E4 & E5 & E6 & L1 & L2). destruct (OR v IV) as [O1 O2].
  apply list_same in L1; [|intros p J; apply (w_in _ _ _ W v p IV J)|exact O1]. apply list_same in L2; [|intros p J; apply (w_out _ _ _ W v p IV J)|exact O2]. apply orphans_of in L1.
  unfold linesV, lineV. cbv zeta. fold (orphans m v) in L1. fold (orphans M v') in L1. rewrite B, E1, E2, E3, E4, E5, E6, (F2_len _ _ _ L1), (F2_len _ _ _ L2). f_equal. rewrite !map_app, (lines_of _ _ L1), (lines_of _ _ L2). reflexivity.
Qed.
Lemma verts_same : concat (map (linesV visit M) (vertsOf visit M e')) = concat (map (linesV visit m) (vertsOf visit m e)) /\ zlen (e_verts (evts (gr M) e')) = zlen (e_verts (evts (gr m) e)).
Proof.
  destruct CL as (NK & _). destruct SM as ([GV _] & _).
  assert (K1 : forall bc v, get (e_verts (evts (gr m) e)) bc = Some v -> vbc m v = bc) by (intros bc v G; apply (w_v _ _ _ W _ _ G)).
  assert (K2 : forall bc v, get (e_verts (evts (gr M) e')) bc = Some v -> vbc M v = bc).
  { intros bc v G. specialize (GV bc). rewrite G in GV. destruct (get (e_verts (evts (gr m) e)) bc) as [v0|] eqn:G0; [|destruct GV]. destruct GV as [B _]. rewrite B. apply K1, G0. }
  destruct (vertsOf_strict visit m e visit_perm (w_kv _ _ _ W) K1) as [S1 I1]. destruct (vertsOf_strict visit M e' visit_perm NK K2) as [S2 I2]. split.
  - assert (E : map (fun v => - vbc m v) (vertsOf visit m e) = map (fun v => - vbc M v) (vertsOf visit M e')).
    { apply strict_unique; [exact S1|exact S2|]. intros x. split; intros J; apply in_map_iff in J; destruct J as (v & <- & J).
      - apply I1 in J. unfold inV in J. specialize (GV (vbc m v)). rewrite J in GV. destruct (get (e_verts (evts (gr M) e')) (vbc m v)) as [v'|] eqn:G; [|destruct GV]. apply in_map_iff. exists v'. rewrite (K2 _ _ G). split; [reflexivity|]. apply I2. unfold inV. rewrite (K2 _ _ G). exact G.
      - apply I2 in J. unfold inV in J. specialize (GV (vbc M v)). rewrite J in GV. destruct (get (e_verts (evts (gr m) e)) (vbc M v)) as [v'|] eqn:G; [|destruct GV]. apply in_map_iff. exists v'. rewrite (K1 _ _ G). split; [reflexivity|]. apply I1. unfold inV. rewrite (K1 _ _ G). exact G. }
    f_equal. assert (J1 : forall v, In v (vertsOf visit m e) -> inV m e v) by (intros v; apply I1). assert (J2 : forall v, In v (vertsOf visit M e') -> inV M e' v) by (intros v; apply I2). clear S1 I1 S2 I2.
    revert E J1 J2. generalize (vertsOf visit m e) (vertsOf visit M e'). intros l. induction l as [|v l IH]; intros [|v' l'] E J1 J2; try discriminate; [reflexivity|]. cbn [map] in *. injection E as E1 E2. f_equal.
    + apply linesV_same; [apply J1; left; reflexivity|]. specialize (J1 v (or_introl eq_refl)). specialize (J2 v' (or_introl eq_refl)). unfold inV in *. specialize (GV (vbc m v)). rewrite J1 in GV. replace (vbc M v') with (vbc m v) in J2 by lia. rewrite J2 in GV. exact GV.
    + apply IH; [exact E2|intros; apply J1; right; assumption|intros; apply J2; right; assumption].
  - assert (P : Permutation (keys (e_verts (evts (gr m) e))) (keys (e_verts (evts (gr M) e')))).
    { apply NoDup_Permutation; [apply (w_kv _ _ _ W)|exact NK|]. intros bc. rewrite !keys_get. specialize (GV bc). destruct (get (e_verts (evts (gr m) e)) bc), (get (e_verts (evts (gr M) e')) bc); try contradiction; split; intros [x E]; eauto; discriminate. }
    apply Permutation_length in P. unfold keys in P. rewrite !map_length in P. unfold zlen. congruence.
Qed.
Lemma sget_In w n i : NoDup (map fst w) -> (sget w n = Some i <-> In (n, i) w).
Proof.
  induction w as [|[k j] w IH]; cbn [sget map fst In]; intros N; [split; [discriminate|intros []]|]. inversion N as [|? ? N1 N2]; subst. destruct (str_eqb_spec k n) as [->|X].
  - split; [intros E; injection E as ->; left; reflexivity|]. intros [E|J]; [congruence|]. exfalso. apply N1. apply in_map_iff. exists (n, i). split; [reflexivity|exact J].
  - rewrite IH by exact N2. split; [auto|]. intros [E|J]; [congruence|exact J].
Qed.
Lemma linesN_same : linesN visit isPrint (ed M e') = linesN visit isPrint (ed m e).
Proof.
  destruct SM as (_ & (_ & _ & _ & _ & _ & _ & EW & _) & NW & WM & _). destruct (w_data _ _ _ W) as ((N1 & _ & RG & N2) & _). unfold linesN. rewrite EW. destruct (weightsOf (ed m e)) as [|x l] eqn:X; [reflexivity|].
  enough (EM : map (fun i => quote isPrint (nameAt (namesOf visit (wmap (ed M e'))) i)) (indices (length (x :: l))) = map (fun i => quote isPrint (nameAt (namesOf visit (wmap (ed m e))) i)) (indices (length (x :: l)))) by (rewrite EM; reflexivity).
  assert (ES : forall n i, In (n, i) (wmap (ed M e')) <-> In (n, i) (wmap (ed m e))) by (intros n i; rewrite <- !sget_In by assumption; rewrite WM; reflexivity).
  assert (N3 : NoDup (map snd (wmap (ed M e')))).
  { assert (NN : NoDup (wmap (ed M e'))) by (eapply NoDup_map_inv, NW). assert (PP : Permutation (wmap (ed m e)) (wmap (ed M e'))) by (apply NoDup_Permutation; [eapply NoDup_map_inv, N1|exact NN|intros [n i]; symmetry; apply ES]).
    eapply Permutation_NoDup; [apply Permutation_map, PP|exact N2]. }
  apply map_ext_in. intros i J. unfold indices in J. apply in_map_iff in J. destruct J as (j & <- & J). apply in_seq in J.
  assert (Q : In (Z.of_nat j) (map snd (wmap (ed m e)))) by (apply RG; unfold zlen; lia). apply in_map_iff in Q. destruct Q as ([n i] & Ei & Q). cbn [snd] in Ei. subst i.
  unfold nameAt. rewrite (namesOf_get visit visit_perm _ _ _ N2 Q), (namesOf_get visit visit_perm _ _ _ N3 (proj2 (ES _ _) Q)). reflexivity.
Qed.
Lemma linesEvt_same : linesEvt visit isPrint M e' = linesEvt visit isPrint m e.
Proof.
  destruct verts_same as [EV EL]. assert (EN := linesN_same). destruct SM as (_ & (A1 & A2 & A3 & A4 & A5 & A6 & A7 & A8 & A9 & A10 & A11) & _ & _ & X & H & S1 & B1 & B2).
  unfold linesEvt. cbv zeta. rewrite EV, EN. unfold lineE, lineU, linesC, linesH, lineF. cbv zeta.
  rewrite A1, A2, A3, A4, A5, A6, A7, A8, A9, A10, A11, X, H, EL, (vlink_obc _ _ _ _ _ S1), (plink_obc _ _ _ _ _ B1), (plink_obc _ _ _ _ _ B2). reflexivity.
Qed.
End Evt.
End Again.
