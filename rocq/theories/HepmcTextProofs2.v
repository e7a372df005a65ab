(* Proofs about the text form of HepMC events, second part: vertices and particles read back *)
From Coq Require Import ZArith List Lia Bool Permutation.
From Flocq Require Import IEEE754.BinarySingleNaN.
From Verif Require Import Bytes GoLib GoStrings GoQuote F64 FloatText DflowModel DflowProps HepmcModel HepmcTextModel HepmcTextProofs.
Import ListNotations.
Local Open Scope Z_scope.

(* the same particle: all numbers, and the flow as a map *)
Definition pd_same (d d' : pdata) : Prop :=
  px d' = px d /\ py d' = py d /\ pz d' = pz d /\ pe d' = pe d /\ mass d' = mass d /\ theta d' = theta d /\ phi d' = phi d /\ pdg d' = pdg d /\ status d' = status d /\
  NoDup (keys (flow d')) /\ forall k, get (flow d') k = get (flow d) k.
Definition flow_ok (fl : amap Z) : Prop := NoDup (keys fl) /\ (forall k v, get fl k = Some v -> int_ok k /\ int_ok v) /\ size_ok fl.
(* what is needed to print a particle or a vertex *)
Definition part_ok (m : mem) (p : nat) : Prop :=
  int_ok (pbc m p) /\ int_ok (pdg (pd m p)) /\ int_ok (status (pd m p)) /\ int_ok (obc (vbc m) (p_end (parts (gr m) p))) /\ flow_ok (flow (pd m p)).
Definition vert_ok (m : mem) (v : nat) : Prop :=
  int_ok (vbc m v) /\ int_ok (vid (vd m v)) /\ size_ok (vws (vd m v)) /\ size_ok (v_in (verts (gr m) v)) /\ size_ok (v_out (verts (gr m) v)).

(* position in a list *)
Fixpoint idx (x : nat) (l : list nat) : nat := match l with [] => O | y :: l' => if Nat.eqb y x then O else S (idx x l') end.
Lemma idx_app x l r : ~ In x l -> idx x (l ++ x :: r) = length l.
Proof. induction l as [|y l IH]; cbn [idx app length In]; intros H; [rewrite Nat.eqb_refl; reflexivity|]. destruct (Nat.eqb_spec y x) as [->|N]; [exfalso; auto|]. f_equal. apply IH. auto. Qed.
Lemma idx_inj x y l : In x l -> In y l -> idx x l = idx y l -> x = y.
Proof.
  induction l as [|z l IH]; cbn [idx In]; [intros []|]. intros Hx Hy. destruct (Nat.eqb_spec z x) as [N1|N1], (Nat.eqb_spec z y) as [N2|N2]; try congruence; try discriminate.
  intros E. injection E as E. destruct Hx as [Hx|Hx], Hy as [Hy|Hy]; try congruence. apply IH; assumption.
Qed.
Lemma idx_lt x l : In x l -> (idx x l < length l)%nat.
Proof. induction l as [|z l IH]; cbn [idx In length]; [intros []|]. intros [->|H]; [rewrite Nat.eqb_refl; lia|]. specialize (IH H). destruct (Nat.eqb z x); lia. Qed.
Lemma upd_same {A} (f : nat -> A) i x : upd f i x i = x. Proof. unfold upd. rewrite Nat.eqb_refl. reflexivity. Qed.
Lemma upd_other {A} (f : nat -> A) i x j : i <> j -> upd f i x j = f j. Proof. unfold upd. destruct (Nat.eqb_spec i j); [congruence|reflexivity]. Qed.

Section Read2.
Variable visit : forall A : Type, list A -> list A.
Hypothesis visit_perm : forall A (l : list A), Permutation l (visit A l).

(* ---- flow ---- *)
Lemma flow_read fl : forall ks acc, NoDup ks -> NoDup (keys acc) -> (forall k, In k ks -> exists v, get fl k = Some v /\ int_ok k /\ int_ok v) ->
  exists fl', decodeFlow (length ks) acc (concat (map (fun k => [itoa k; itoa (match get fl k with Some v => v | None => 0 end)]) ks)) = Val fl' /\ NoDup (keys fl') /\
  forall k, get fl' k = if in_dec Z.eq_dec k ks then get fl k else get acc k.
Proof.
  induction ks as [|k ks IH]; intros acc N NA H; [exists acc; split; [reflexivity|split; [exact NA|reflexivity]]|]. inversion N as [|? ? N1 N2]; subst. destruct (H k) as (v & G & I1 & I2); [left; reflexivity|].
  destruct (IH (set acc k v)) as (fl' & E & NF & F); [exact N2|apply set_nodup, NA|intros j J; apply H; right; exact J|]. exists fl'. split; [|split; [exact NF|]].
  - cbn [length decodeFlow map concat app]. rewrite tint_itoa by exact I1. cbn [obind]. rewrite G. rewrite tint_itoa by exact I2. cbn [obind]. exact E.
  - intros j. rewrite F. rewrite get_set. destruct (in_dec Z.eq_dec j ks) as [J|J], (in_dec Z.eq_dec j (k :: ks)) as [K|K]; try reflexivity.
    + exfalso. apply K. right. exact J.
    + destruct K as [->|K]; [|contradiction]. rewrite Z.eqb_refl, G. reflexivity.
    + destruct (Z.eqb_spec k j) as [->|X]; [exfalso; apply K; left; reflexivity|reflexivity].
Qed.
Lemma flow_line fl : flow_ok fl -> exists t fl', flowText visit fl = itoa (zlen fl) :: t /\ decodeFlow (Z.to_nat (zlen fl)) [] t = Val fl' /\ NoDup (keys fl') /\ forall k, get fl' k = get fl k.
Proof.
  intros (N & V & _). set (ks := sortBy (fun k => k) (keys (visit _ fl))).
  assert (P : Permutation (keys fl) ks). { unfold ks. eapply Permutation_trans; [|apply sort_perm]. apply Permutation_map, visit_perm. }
  destruct (flow_read fl ks []) as (fl' & E & NF & G).
  - eapply Permutation_NoDup; [exact P|exact N].
  - constructor.
  - intros k J. apply (Permutation_in _ (Permutation_sym P)) in J. apply keys_get in J. destruct J as [v J]. exists v. split; [exact J|]. apply V in J. tauto.
  - eexists _, fl'. split; [reflexivity|]. split; [|split; [exact NF|]].
    + replace (Z.to_nat (zlen fl)) with (length ks); [exact E|]. unfold zlen. rewrite Nat2Z.id. rewrite <- (Permutation_length P). unfold keys. apply map_length.
    + intros k. rewrite G. destruct (in_dec Z.eq_dec k ks) as [J|J]; [reflexivity|]. destruct (get fl k) as [v|] eqn:X; [|reflexivity]. exfalso. apply J. apply (Permutation_in _ P). apply keys_get. eauto.
Qed.
Lemma part_line m p : part_ok m p -> exists d, decodeParticle FGenEvent (lineP visit m p) = Val (pbc m p, obc (vbc m) (p_end (parts (gr m) p)), d) /\ pd_same (pd m p) d.
Proof.
  intros (I1 & I2 & I3 & I4 & F). destruct (flow_line _ F) as (t & fl' & E & D & NF & G). unfold decodeParticle, lineP, sP. cbv zeta. cbn [app]. rewrite peek_cons. cbn [obind]. unfold guard. rewrite Z.eqb_refl. cbn [obind].
  do 2 (rewrite tint_itoa by assumption; cbn [obind]). do 5 (rewrite tflt_ftext; cbn [obind]). rewrite tint_itoa by assumption. cbn [obind]. do 2 (rewrite tflt_ftext; cbn [obind]). rewrite tint_itoa by assumption. cbn [obind].
  rewrite E. rewrite tint_itoa by (apply size_int, F). cbn [obind]. rewrite D. cbn [obind]. eexists. split; [reflexivity|]. unfold pd_same. cbn. repeat split; auto.
Qed.
Definition vdOf (d : vdata) : vdata := VData (vx d) (vy d) (vz d) (vt d) (vid d) (vws d) [].
Lemma filter_len {A} (f : A -> bool) l : (length (filter f l) <= length l)%nat.
Proof. induction l as [|x l IH]; cbn [filter length]; [lia|]. destruct (f x); cbn [length]; lia. Qed.
Lemma vert_line m v : vert_ok m v -> decodeVLine (lineV m v) = Val (vbc m v, zlen (orphans m v), zlen (v_out (verts (gr m) v)), vdOf (vd m v)).
Proof.
  intros (I1 & I2 & I3 & I4 & I5). assert (I6 : size_ok (orphans m v)). { unfold size_ok, zlen, orphans in *. pose proof (filter_len (orphan m) (v_in (verts (gr m) v))). lia. }
  unfold decodeVLine, lineV, sV. cbv zeta. cbn [app]. rewrite peek_cons. cbn [obind]. unfold guard. rewrite Z.eqb_refl. cbn [obind]. do 2 (rewrite tint_itoa by assumption; cbn [obind]). do 4 (rewrite tflt_ftext; cbn [obind]).
  do 3 (rewrite tint_itoa by (apply size_int; assumption); cbn [obind]). rewrite <- (app_nil_r (map ftext _)). rewrite (tmake_map tflt ftext) by (intros; apply tflt_ftext). reflexivity.
Qed.

(* ---- the event being read (e', starting from m0) against the event that was printed (m) ---- *)
Variables (m m0 : mem) (e' : nat).
Variables Pall Vall : list nat.
Hypothesis NP : NoDup Pall.
Hypothesis NV : NoDup Vall.
Hypothesis IP : forall p q, In p Pall -> In q Pall -> pbc m p = pbc m q -> p = q.
Hypothesis IV : forall v w, In v Vall -> In w Vall -> vbc m v = vbc m w -> v = w.
Hypothesis PO : forall p, In p Pall -> part_ok m p.
Hypothesis VO : forall v, In v Vall -> vert_ok m v.
Hypothesis PE : forall p v, In p Pall -> p_end (parts (gr m) p) = Some v -> vbc m v <> 0.
Definition pa (p : nat) : nat := (np m0 + idx p Pall)%nat.
Definition va (v : nat) : nat := (nv m0 + idx v Vall)%nat.
Lemma pa_inj p q : In p Pall -> In q Pall -> pa p = pa q -> p = q.
Proof. unfold pa. intros A B H. eapply idx_inj; [exact A|exact B|lia]. Qed.
Lemma va_inj p q : In p Vall -> In q Vall -> va p = va q -> p = q.
Proof. unfold va. intros A B H. eapply idx_inj; [exact A|exact B|lia]. Qed.

Record inv (P V : list nat) (k : nat) (pidx : amap Z) (M : mem) : Prop := {
  i_np : np M = (np m0 + length P)%nat;
  i_nv : nv M = (nv m0 + k)%nat;
  i_p : forall p, In p P -> parts (gr M) (pa p) = {| p_bc := pbc m p; p_prod := option_map va (p_prod (parts (gr m) p)); p_end := None |} /\ pd_same (pd m p) (pd M (pa p));
  i_v : forall v, In v V -> verts (gr M) (va v) = {| v_bc := vbc m v; v_in := []; v_out := map pa (sortBy (pbc m) (v_out (verts (gr m) v))); v_ev := Some e' |} /\ vd M (va v) = vdOf (vd m v);
  i_ep : forall bc q, get (e_parts (evts (gr M) e')) bc = Some q <-> exists p, In p P /\ q = pa p /\ bc = pbc m p;
  i_ev : forall bc q, get (e_verts (evts (gr M) e')) bc = Some q <-> exists v, In v V /\ q = va v /\ bc = vbc m v;
  i_px : forall bc b, get pidx bc = Some b <-> exists p v, In p P /\ bc = pbc m p /\ p_end (parts (gr m) p) = Some v /\ b = vbc m v;
  i_pn : NoDup (keys pidx);
  i_kp : NoDup (keys (e_parts (evts (gr M) e')));
  i_kv : NoDup (keys (e_verts (evts (gr M) e')));
  i_ct : e_nil (evts (gr M) e') = false /\ e_bcp (evts (gr M) e') = e_bcp (evts (gr m0) e') /\ e_bcv (evts (gr M) e') = e_bcv (evts (gr m0) e');
  i_ed : ed M = ed m0;
  i_fr : (forall a, (a < np m0)%nat -> parts (gr M) a = parts (gr m0) a /\ pd M a = pd m0 a) /\
         (forall a, (a < nv m0)%nat -> verts (gr M) a = verts (gr m0) a /\ vd M a = vd m0 a) /\ (forall a, a <> e' -> evts (gr M) a = evts (gr m0) a) }.

Lemma pa_next P p R : Pall = P ++ p :: R -> pa p = (np m0 + length P)%nat.
Proof. intros E. unfold pa. f_equal. rewrite E in NP. rewrite E. apply idx_app. intros J. apply NoDup_remove_2 in NP. apply NP, in_or_app. left. exact J. Qed.
Lemma va_next P p R : Vall = P ++ p :: R -> va p = (nv m0 + length P)%nat.
Proof. intros E. unfold va. f_equal. rewrite E in NV. rewrite E. apply idx_app. intros J. apply NoDup_remove_2 in NV. apply NV, in_or_app. left. exact J. Qed.
Lemma notin_next P (p : nat) R L : NoDup L -> L = P ++ p :: R -> ~ In p P.
Proof. intros N E. subst L. intros J. apply NoDup_remove_2 in N. apply N, in_or_app. left. exact J. Qed.

Lemma newPart_inv P V k pidx M p R d : inv P V k pidx M -> Pall = P ++ p :: R -> pd_same (pd m p) d ->
  let b := obc (vbc m) (p_end (parts (gr m) p)) in
  inv (P ++ [p]) V k (if b =? 0 then pidx else set pidx (pbc m p) b) (newPart M e' (option_map va (p_prod (parts (gr m) p))) (pbc m p) d) /\ np M = pa p.
Proof.
  intros [A1 A2 A3 A4 A5 A6 A7 A8 A9 A10 A11 A12 A13] E D b. assert (EP := pa_next _ _ _ E). assert (NI := notin_next _ _ _ _ NP E).
  assert (SUB : forall q, In q P -> In q Pall) by (intros q J; rewrite E; apply in_or_app; left; exact J). assert (PIN : In p Pall) by (rewrite E; apply in_or_app; right; left; reflexivity).
  assert (PNE : forall q, In q P -> pa q <> np M). { intros q J X. apply NI. replace p with q; [exact J|]. apply pa_inj; [apply SUB, J|exact PIN|congruence]. }
  assert (BNE : forall q, In q P -> pbc m q <> pbc m p). { intros q J X. apply NI. replace p with q; [exact J|]. apply IP; [apply SUB, J|exact PIN|exact X]. }
  split; [|congruence]. constructor; unfold newPart; cbn [gr pd vd ed np nv parts verts evts setEvt setPart]; rewrite ?upd_same; cbn [e_parts e_verts e_bcp e_bcv e_nil].
  - rewrite app_length. cbn [length]. lia.
  - exact A2.
  - intros q J. apply in_app_or in J. destruct J as [J|[<-|[]]].
    + rewrite !upd_other by (apply not_eq_sym, PNE, J). apply A3, J.
    + replace (pa p) with (np M) by congruence. rewrite !upd_same. split; [reflexivity|exact D].
  - exact A4.
  - intros bc q. rewrite get_set. destruct (Z.eqb_spec (pbc m p) bc) as [<-|X].
    + split; [intros Q; injection Q as <-; exists p; split; [apply in_or_app; right; left; reflexivity|split; [congruence|reflexivity]]|].
      intros (q' & J & -> & Q). apply in_app_or in J. destruct J as [J|[<-|[]]]; [exfalso; apply (BNE q' J); congruence|]. congruence.
    + rewrite A5. split; intros (q' & J & Q1 & Q2); exists q'; (split; [|split; assumption]); [apply in_or_app; left; exact J|]. apply in_app_or in J. destruct J as [J|[<-|[]]]; [exact J|congruence].
  - exact A6.
  - intros bc c. unfold b. destruct (p_end (parts (gr m) p)) as [v|] eqn:EV; cbn [obc].
    + assert (Z0 := PE p v PIN EV). destruct (Z.eqb_spec (vbc m v) 0) as [Y|_]; [contradiction|]. rewrite get_set. destruct (Z.eqb_spec (pbc m p) bc) as [<-|X].
      * split; [intros Q; injection Q as <-; exists p, v; repeat split; auto; apply in_or_app; right; left; reflexivity|].
        intros (q' & v' & J & Q & Q2 & ->). apply in_app_or in J. destruct J as [J|[<-|[]]]; [exfalso; apply (BNE q' J); congruence|]. congruence.
      * rewrite A7. split; intros (q' & v' & J & Q1 & Q2); exists q', v'; (split; [|split; assumption]); [apply in_or_app; left; exact J|]. apply in_app_or in J. destruct J as [J|[<-|[]]]; [exact J|congruence].
    + cbn [Z.eqb]. rewrite A7. split; intros (q' & v' & J & Q1 & Q2); exists q', v'; (split; [|split; assumption]); [apply in_or_app; left; exact J|]. apply in_app_or in J. destruct J as [J|[<-|[]]]; [exact J|]. destruct Q2 as [Q2 _]. congruence.
  - destruct (b =? 0); [exact A8|apply set_nodup, A8].
  - apply set_nodup, A9.
  - exact A10.
  - exact A11.
  - exact A12.
  - destruct A13 as (F1 & F2 & F3). split; [|split].
    + intros a L. rewrite !upd_other by lia. apply F1, L.
    + exact F2.
    + intros a L. rewrite upd_other by auto. apply F3, L.
Qed.
Lemma parts_read : forall ps P V k pidx M R prod ls fn, inv P V k pidx M -> Pall = P ++ ps ++ R -> (forall p, In p ps -> option_map va (p_prod (parts (gr m) p)) = prod) ->
  exists pidx' M', decodeParts FGenEvent e' prod (length ps) pidx M {| sl := map (lineP visit m) ps ++ ls; fin := fn |} = (Val (map pa ps, pidx', M'), {| sl := ls; fin := fn |}) /\ inv (P ++ ps) V k pidx' M'.
Proof.
  induction ps as [|p ps IH]; intros P V k pidx M R prod ls fn I E H.
  - exists pidx, M. rewrite app_nil_r. split; [reflexivity|exact I].
  - cbn [app] in E. assert (PIN : In p Pall) by (rewrite E; apply in_or_app; right; left; reflexivity). destruct (part_line m p (PO p PIN)) as (d & ED & DS).
    destruct (newPart_inv P V k pidx M p (ps ++ R) d I E DS) as (I2 & NPE). cbv zeta in I2. rewrite (H p) in I2 by (left; reflexivity).
    destruct (IH _ _ _ _ _ R prod ls fn I2) as (pidx' & M' & E3 & I3); [rewrite E, <- app_assoc; reflexivity|intros q J; apply H; right; exact J|].
    exists pidx', M'. split; [|rewrite <- app_assoc in I3; exact I3]. cbn [length decodeParts map app]. unfold readline at 1. cbn [sl fin]. cbn [obind]. rewrite ED. cbv zeta iota beta. rewrite E3. cbn [obind]. rewrite NPE. reflexivity.
Qed.
Definition vparts (v : nat) : list nat := orphans m v ++ v_out (verts (gr m) v).
Hypothesis OUT : forall v p, In v Vall -> In p (v_out (verts (gr m) v)) -> p_prod (parts (gr m) p) = Some v /\ In p Pall.
Lemma vert_read v P V pidx M PR VR ls fn : inv P V (length V) pidx M -> Pall = P ++ vparts v ++ PR -> Vall = V ++ v :: VR ->
  exists pidx' M', decodeVertex FGenEvent e' (lineV m v) pidx M {| sl := map (lineP visit m) (vparts v) ++ ls; fin := fn |} = (Val (pidx', M'), {| sl := ls; fin := fn |}) /\
  inv (P ++ vparts v) (V ++ [v]) (length (V ++ [v])) pidx' M'.
Proof.
  intros I EP EV. assert (VIN : In v Vall) by (rewrite EV; apply in_or_app; right; left; reflexivity). assert (EA := va_next _ _ _ EV).
  unfold decodeVertex. rewrite (vert_line m v (VO v VIN)). unfold vparts. rewrite map_app, <- app_assoc. unfold zlen. rewrite !Nat2Z.id.
  set (M1 := {| gr := gr M; pd := pd M; vd := vd M; ed := ed M; np := np M; nv := S (nv M) |}).
  assert (I1 : inv P V (S (length V)) pidx M1). { destruct I. constructor; cbn [M1 gr pd vd ed np nv]; try assumption. lia. }
  destruct (parts_read (orphans m v) P V _ pidx M1 (v_out (verts (gr m) v) ++ PR) None (map (lineP visit m) (v_out (verts (gr m) v)) ++ ls) fn I1) as (pidx2 & M2 & E2 & I2).
  { rewrite EP. unfold vparts. rewrite <- app_assoc. reflexivity. }
  { intros p J. unfold orphans in J. apply filter_In in J. destruct J as [_ J]. unfold orphan in J. destruct (p_prod (parts (gr m) p)); [discriminate|reflexivity]. }
  rewrite E2. destruct (Z.ltb_spec (Z.of_nat (length (v_out (verts (gr m) v)))) 0) as [L|_]; [lia|].
  replace (nv M) with (va v) by (rewrite EA; symmetry; apply I).
  destruct (parts_read (v_out (verts (gr m) v)) (P ++ orphans m v) V _ pidx2 M2 PR (Some (va v)) ls fn I2) as (pidx3 & M3 & E3 & I3).
  { rewrite EP. unfold vparts. rewrite !app_assoc. reflexivity. }
  { intros p J. rewrite (proj1 (OUT v p VIN J)). reflexivity. }
  rewrite E3. cbn [obind]. exists pidx3. eexists. split; [reflexivity|]. rewrite <- app_assoc in I3. fold (vparts v) in I3.
  destruct I3 as [A1 A2 A3 A4 A5 A6 A7 A8 A9 A10 A11 A12 A13].
  assert (SUB : forall q, In q V -> In q Vall) by (intros q J; rewrite EV; apply in_or_app; left; exact J).
  assert (NI := notin_next _ _ _ _ NV EV).
  assert (PNE : forall q, In q V -> va q <> va v). { intros q J X. apply NI. replace v with q; [exact J|]. apply va_inj; [apply SUB, J|exact VIN|congruence]. }
  assert (BNE : forall q, In q V -> vbc m q <> vbc m v). { intros q J X. apply NI. replace v with q; [exact J|]. apply IV; [apply SUB, J|exact VIN|exact X]. }
  constructor; unfold newVert; cbn [gr pd vd ed np nv parts verts evts setEvt setVert]; rewrite ?upd_same; cbn [e_parts e_verts e_bcp e_bcv e_nil].
  - exact A1.
  - rewrite A2, app_length. cbn [length]. lia.
  - exact A3.
  - intros q J. apply in_app_or in J. destruct J as [J|[<-|[]]].
    + rewrite !upd_other by (apply not_eq_sym, PNE, J). apply A4, J.
    + rewrite !upd_same. split; [|reflexivity]. f_equal. apply sort_map. intros p J. assert (K : In p (P ++ vparts v)) by (apply in_or_app; right; apply in_or_app; right; exact J).
      unfold pbc at 1. rewrite (proj1 (A3 p K)). reflexivity.
  - exact A5.
  - intros bc q. rewrite get_set. destruct (Z.eqb_spec (vbc m v) bc) as [<-|X].
    + split; [intros Q; injection Q as <-; exists v; split; [apply in_or_app; right; left; reflexivity|split; reflexivity]|].
      intros (q' & J & -> & Q). apply in_app_or in J. destruct J as [J|[<-|[]]]; [exfalso; apply (BNE q' J); congruence|]. reflexivity.
    + rewrite A6. split; intros (q' & J & Q1 & Q2); exists q'; (split; [|split; assumption]); [apply in_or_app; left; exact J|]. apply in_app_or in J. destruct J as [J|[<-|[]]]; [exact J|congruence].
  - exact A7.
  - exact A8.
  - exact A9.
  - apply set_nodup, A10.
  - exact A11.
  - exact A12.
  - destruct A13 as (F1 & F2 & F3). split; [|split].
    + exact F1.
    + intros a L. rewrite !upd_other by lia. apply F2, L.
    + intros a L. rewrite upd_other by auto. apply F3, L.
Qed.
Lemma verts_read : forall vs V P pidx M ls fn t s1, inv P V (length V) pidx M -> Vall = V ++ vs -> Pall = P ++ concat (map vparts vs) ->
  match t with Some l => concat (map (linesV visit m) vs) ++ ls = l :: s1 | None => s1 = concat (map (linesV visit m) vs) ++ ls end -> (vs = [] -> t = None) ->
  exists pidx' M', decodeVerts FGenEvent e' t (length vs) pidx M {| sl := s1; fin := fn |} = (Val (pidx', M'), {| sl := ls; fin := fn |}) /\ inv Pall Vall (length Vall) pidx' M'.
Proof.
  induction vs as [|v vs IH]; intros V P pidx M ls fn t s1 I EV EP ET NE.
  - rewrite (NE eq_refl) in *. cbn [map concat app] in *. rewrite app_nil_r in EV, EP. subst s1. exists pidx, M. split; [reflexivity|]. rewrite EV, EP. exact I.
  - cbn [map concat] in EP, ET. destruct (vert_read v P V pidx M (concat (map vparts vs)) vs (concat (map (linesV visit m) vs) ++ ls) fn I EP EV) as (pidx2 & M2 & E2 & I2).
    destruct (IH (V ++ [v]) (P ++ vparts v) pidx2 M2 ls fn None (concat (map (linesV visit m) vs) ++ ls) I2) as (pidx3 & M3 & E3 & I3); [rewrite EV, <- app_assoc; reflexivity|rewrite EP, <- app_assoc; reflexivity|reflexivity|reflexivity|].
    exists pidx3, M3. split; [|exact I3]. cbn [length decodeVerts].
    assert (LV : linesV visit m v = lineV m v :: map (lineP visit m) (vparts v)) by reflexivity. rewrite LV in ET. rewrite <- app_assoc in ET. cbn [app] in ET.
    destruct t as [l|].
    + injection ET as E1 E4. subst l s1. rewrite E2. exact E3.
    + subst s1. unfold readline. cbn [sl fin]. rewrite E2. exact E3.
Qed.

(* ---- the signal vertex ---- *)
Hypothesis ENDV : forall p v, In p Pall -> p_end (parts (gr m) p) = Some v -> In v Vall.
Hypothesis PNZ : forall p, In p Pall -> pbc m p <> 0.
Definition withSig (d : edata) (s : option nat) : edata :=
  EData (sigid d) (evnum d) (mpi d) (scale d) (aqcd d) (aqed d) s (beam1 d) (beam2 d) (wslice d) (wmap d) (rndm d) (xsec d) (hion d) (pdfi d) (mu d) (lu d).
Definition withBeams (d : edata) (b1 b2 : option nat) : edata :=
  EData (sigid d) (evnum d) (mpi d) (scale d) (aqcd d) (aqed d) (signal d) b1 b2 (wslice d) (wmap d) (rndm d) (xsec d) (hion d) (pdfi d) (mu d) (lu d).
Definition over (s s0 : option nat) : option nat := match s with Some v => Some v | None => s0 end.
Lemma signal_read pidx M sg : inv Pall Vall (length Vall) pidx M -> (forall v, sg = Some v -> In v Vall /\ vbc m v <> 0) ->
  exists M1, setSignal visit M e' (obc (vbc m) sg) = Val M1 /\ onlyEd M M1 e' (withSig (ed M e') (over (option_map va sg) (signal (ed M e')))).
Proof.
  intros I H. unfold setSignal. destruct sg as [v|]; cbn [obc option_map over].
  - destruct (H v eq_refl) as [VIN Z0]. destruct (Z.eqb_spec (vbc m v) 0) as [Y|_]; [contradiction|].
    set (l := map snd (visit _ (e_verts (evts (gr M) e')))).
    assert (B : forall q, In q Vall -> vbc M (va q) = vbc m q) by (intros q J; unfold vbc at 1; rewrite (proj1 (i_v _ _ _ _ _ I q J)); reflexivity).
    assert (F : find (fun a => vbc M a =? vbc m v) l = Some (va v)).
    { destruct (find (fun a => vbc M a =? vbc m v) l) as [a|] eqn:FE.
      - apply find_some in FE. destruct FE as [J E]. apply Z.eqb_eq in E. unfold l in J. apply in_map_iff in J. destruct J as ([bc q] & Q & J). cbn [snd] in Q. subst q.
        apply (Permutation_in _ (Permutation_sym (visit_perm _ _))) in J. apply In_get in J; [|apply I]. apply (i_ev _ _ _ _ _ I) in J. destruct J as (w & WI & -> & _). rewrite B in E by exact WI.
        rewrite (IV w v WI VIN E). reflexivity.
      - exfalso. assert (X : vbc M (va v) =? vbc m v = false). { apply (find_none _ _ FE). unfold l. apply in_map_iff. exists (vbc m v, va v). split; [reflexivity|]. apply (Permutation_in _ (visit_perm _ _)). apply get_In. apply (i_ev _ _ _ _ _ I). exists v. auto. }
        rewrite B in X by exact VIN. rewrite Z.eqb_refl in X. discriminate. }
    rewrite F. eexists. split; [reflexivity|]. eapply onlyEd_set. apply onlyEd_refl.
  - cbn [Z.eqb]. eexists. split; [reflexivity|]. replace (withSig (ed M e') (signal (ed M e'))) with (ed M e') by (destruct (ed M e'); reflexivity). apply onlyEd_refl.
Qed.

(* ---- the end vertices ---- *)
Variable M1 : mem.
Variable h : hdr.
Record linv (D : list Z) (M : mem) : Prop := {
  l_p : forall p, In p Pall -> parts (gr M) (pa p) = {| p_bc := pbc m p; p_prod := option_map va (p_prod (parts (gr m) p));
                                                        p_end := if in_dec Z.eq_dec (pbc m p) D then option_map va (p_end (parts (gr m) p)) else None |};
  l_v : forall v, In v Vall -> exists L, verts (gr M) (va v) = {| v_bc := vbc m v; v_in := map pa L; v_out := map pa (sortBy (pbc m) (v_out (verts (gr m) v))); v_ev := Some e' |} /\
         sorted (pbc m) L /\ NoDup L /\ forall p, In p L <-> In p Pall /\ p_end (parts (gr m) p) = Some v /\ In (pbc m p) D;
  l_d : pd M = pd M1 /\ vd M = vd M1 /\ evts (gr M) = evts (gr M1) /\ np M = np M1 /\ nv M = nv M1;
  l_e : (forall a, a <> e' -> ed M a = ed M1 a) /\ ed M e' = withBeams (ed M1 e') (beam1 (ed M e')) (beam2 (ed M e'));
  l_b1 : (forall p, In p Pall -> pbc m p = bp1 h -> In (bp1 h) D -> beam1 (ed M e') = Some (pa p)) /\ (~ In (bp1 h) D -> beam1 (ed M e') = beam1 (ed M1 e'));
  l_b2 : (forall p, In p Pall -> pbc m p = bp2 h -> In (bp2 h) D -> beam2 (ed M e') = Some (pa p)) /\ (~ In (bp2 h) D -> beam2 (ed M e') = beam2 (ed M1 e'));
  l_fr : (forall a, (a < np m0)%nat -> parts (gr M) a = parts (gr M1) a) /\ (forall a, (a < nv m0)%nat -> verts (gr M) a = verts (gr M1) a) }.
Hypothesis EP1 : forall bc q, get (e_parts (evts (gr M1) e')) bc = Some q <-> exists p, In p Pall /\ q = pa p /\ bc = pbc m p.
Hypothesis EV1 : forall bc q, get (e_verts (evts (gr M1) e')) bc = Some q <-> exists v, In v Vall /\ q = va v /\ bc = vbc m v.
Lemma beam_step b D (M : mem) p (g g1 : option nat) : In p Pall -> ~ In (pbc m p) D ->
  ((forall q, In q Pall -> pbc m q = b -> In b D -> g = Some (pa q)) /\ (~ In b D -> g = g1)) ->
  let g' := if pbc m p =? b then Some (pa p) else g in
  (forall q, In q Pall -> pbc m q = b -> In b (D ++ [pbc m p]) -> g' = Some (pa q)) /\ (~ In b (D ++ [pbc m p]) -> g' = g1).
Proof.
  intros PIN ND [A B] g'. unfold g'. destruct (Z.eqb_spec (pbc m p) b) as [<-|N].
  - split; [intros q J Q _; rewrite (IP q p J PIN Q); reflexivity|]. intros X. exfalso. apply X. apply in_or_app. right. left. reflexivity.
  - split; [intros q J Q K; apply A; [exact J|exact Q|]; apply in_app_or in K; destruct K as [K|[K|[]]]; [exact K|congruence]|]. intros X. apply B. intros K. apply X, in_or_app. left. exact K.
Qed.
Lemma link_read D M p v : linv D M -> In p Pall -> p_end (parts (gr m) p) = Some v -> ~ In (pbc m p) D ->
  exists M', link e' h M (pbc m p) (vbc m v) = Val M' /\ linv (D ++ [pbc m p]) M'.
Proof.
  intros [A1 A2 A3 A4 A5 A6 A7] PIN PV ND. assert (VIN := ENDV p v PIN PV). destruct A3 as (A31 & A32 & A33 & A34 & A35).
  unfold link. rewrite A33. rewrite (proj2 (EP1 (pbc m p) (pa p))) by (exists p; auto). rewrite (proj2 (EV1 (vbc m v) (va v))) by (exists v; auto).
  destruct (A2 v VIN) as (L & EL & SL & NL & IL). cbv zeta. rewrite EL, (A1 p PIN). cbn [p_bc p_prod p_end v_bc v_in v_out v_ev].
  eexists. split; [reflexivity|].
  assert (PNE : forall q, In q Pall -> q <> p -> pa p <> pa q) by (intros q J N X; apply N; symmetry; apply pa_inj; assumption).
  assert (INP : forall q, In q Pall -> (In (pbc m q) (D ++ [pbc m p]) <-> In (pbc m q) D \/ q = p)).
  { intros q J. rewrite in_app_iff. cbn [In]. split; [intros [K|[K|[]]]; [left; exact K|right; apply IP; auto]|intros [K| ->]; auto]. }
  assert (PB : forall q, In q Pall -> pbc M (pa q) = pbc m q) by (intros q J; unfold pbc at 1; rewrite (A1 q J); reflexivity).
  assert (LP : forall q, In q (L ++ [p]) -> In q Pall). { intros q J. apply in_app_or in J. destruct J as [J|[<-|[]]]; [apply IL in J; tauto|exact PIN]. }
  constructor; cbn [gr pd vd ed np nv setPart setVert parts verts evts].
  - intros q J. destruct (Nat.eq_dec q p) as [->|N].
    + rewrite upd_same. destruct (in_dec Z.eq_dec (pbc m p) (D ++ [pbc m p])) as [_|X]; [rewrite PV; reflexivity|]. exfalso. apply X, in_or_app. right. left. reflexivity.
    + rewrite upd_other by (apply PNE; assumption). rewrite (A1 q J). f_equal.
      destruct (in_dec Z.eq_dec (pbc m q) D) as [K|K], (in_dec Z.eq_dec (pbc m q) (D ++ [pbc m p])) as [K2|K2]; try reflexivity.
      * exfalso. apply K2, in_or_app. left. exact K.
      * apply (INP q J) in K2. destruct K2 as [K2|K2]; contradiction.
  - intros w WI. destruct (Nat.eq_dec w v) as [->|N].
    + exists (sortBy (pbc m) (L ++ [p])). rewrite upd_same. split; [|split; [apply sort_sorted|split]].
      * f_equal. change (map pa L ++ [pa p]) with (map pa L ++ map pa [p]). rewrite <- map_app. apply sort_map. intros q J. apply PB, LP, J.
      * apply sort_nodup. apply NoDup_Add with (a := p) (l := L); [|split; [exact NL|intros J; apply IL in J; tauto]]. rewrite <- (app_nil_r L) at 1. apply Add_app.
      * intros q. rewrite sort_In, in_app_iff. cbn [In]. rewrite IL. split.
        -- intros [(J1 & J2 & J3)|[<-|[]]]; [split; [exact J1|split; [exact J2|apply in_or_app; left; exact J3]]|split; [exact PIN|split; [exact PV|apply in_or_app; right; left; reflexivity]]].
        -- intros (J1 & J2 & J3). apply (INP q J1) in J3. destruct J3 as [J3| ->]; auto.
    + destruct (A2 w WI) as (L2 & EL2 & SL2 & NL2 & IL2). exists L2. rewrite upd_other by (intros X; apply N; symmetry; apply va_inj; assumption). split; [exact EL2|split; [exact SL2|split; [exact NL2|]]].
      intros q. rewrite IL2. split; intros (J1 & J2 & J3); (split; [exact J1|split; [exact J2|]]); [apply in_or_app; left; exact J3|]. apply (INP q J1) in J3. destruct J3 as [J3| ->]; [exact J3|congruence].
  - auto.
  - rewrite upd_same. cbn [beam1 beam2]. split; [|destruct A4 as [_ ->]; reflexivity]. intros a N. rewrite upd_other by auto. apply A4, N.
  - rewrite upd_same. cbn [beam1 beam2]. apply (beam_step (bp1 h) D M p); assumption.
  - rewrite upd_same. cbn [beam1 beam2]. apply (beam_step (bp2 h) D M p); assumption.
  - destruct A7 as [F1 F2]. split; intros a LT; (rewrite upd_other; [auto|unfold pa, va; lia]).
Qed.
Lemma links_read : forall l D M, linv D M -> NoDup (map fst l) -> (forall i, In i (map fst l) -> ~ In i D) ->
  (forall i b, In (i, b) l -> exists p v, In p Pall /\ i = pbc m p /\ p_end (parts (gr m) p) = Some v /\ b = vbc m v) ->
  exists M', links e' h l M = Val M' /\ linv (D ++ map fst l) M'.
Proof.
  induction l as [|[i b] l IH]; intros D M I N ND H; cbn [map fst] in *; [exists M; rewrite app_nil_r; split; [reflexivity|exact I]|]. inversion N as [|? ? N1 N2]; subst.
  destruct (H i b) as (p & v & PIN & -> & PV & ->); [left; reflexivity|]. destruct (link_read D M p v I PIN PV) as (M2 & E2 & I2); [apply ND; left; reflexivity|].
  destruct (IH _ _ I2 N2) as (M3 & E3 & I3).
  - intros j J K. apply in_app_or in K. destruct K as [K|[K|[]]]; [apply (ND j); [right; exact J|exact K]|]. subst j. contradiction.
  - intros j c J. apply H. right. exact J.
  - exists M3. cbn [links]. rewrite E2. cbn [obind]. split; [exact E3|]. rewrite <- app_assoc in I3. exact I3.
Qed.
End Read2.
