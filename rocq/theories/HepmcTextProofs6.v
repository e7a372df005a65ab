(* What was read can be written again, and events built with the package can be written *)
From Coq Require Import ZArith List Lia Bool Permutation Sorted.
From Flocq Require Import IEEE754.BinarySingleNaN.
From Verif Require Import Bytes GoLib GoStrings GoQuote F64 FloatText DflowModel DflowProps HepmcModel HepmcProps HepmcTextModel HepmcTextProofs HepmcTextProofs2 HepmcTextSpec HepmcTextProofs3 HepmcTextProofs4 HepmcTextProofs5.
Import ListNotations.
Local Open Scope Z_scope.

Lemma strict_nodup l : StronglySorted Z.lt l -> NoDup l.
Proof. induction 1 as [|x l SG IH F]; [constructor|]. constructor; [|exact IH]. intros J. rewrite Forall_forall in F. specialize (F x J). lia. Qed.
Section Wf.
Variable f32 : f64 -> f64.
Variables (m M : mem) (e e' : nat).
Hypothesis W : wf f32 m e.
Hypothesis SM : same_event m e M e'.
Hypothesis CL : closed M e'.
Lemma back_v bc v' : get (e_verts (evts (gr M) e')) bc = Some v' -> exists v, get (e_verts (evts (gr m) e)) bc = Some v /\ same_vert m M e' v v' /\ vbc m v = bc /\ vbc M v' = bc.
Proof.
  intros G. destruct SM as ([GV _] & _). specialize (GV bc). rewrite G in GV. destruct (get (e_verts (evts (gr m) e)) bc) as [v|] eqn:G0; [|destruct GV]. exists v. destruct (w_v _ _ _ W _ _ G0) as [B _].
  split; [reflexivity|]. split; [exact GV|]. split; [exact B|]. destruct GV as [B2 _]. congruence.
Qed.
Lemma back_p bc p' : get (e_parts (evts (gr M) e')) bc = Some p' -> exists p, get (e_parts (evts (gr m) e)) bc = Some p /\ same_part m M e' p p' /\ pbc m p = bc /\ pbc M p' = bc.
Proof.
  intros G. destruct SM as ([_ GP] & _). specialize (GP bc). rewrite G in GP. destruct (get (e_parts (evts (gr m) e)) bc) as [p|] eqn:G0; [|destruct GP]. exists p. destruct (w_p _ _ _ W _ _ G0) as [B _].
  split; [reflexivity|]. split; [exact GP|]. split; [exact B|]. destruct GP as [B2 _]. congruence.
Qed.
Lemma plist_zlen l l' : plist m M e' l l' -> zlen l' = zlen l.
Proof. intros (P & _). apply Permutation_length in P. rewrite !map_length in P. unfold zlen. congruence. Qed.
(* a particle on the list of the new vertex *)
Lemma plist_in l l' p' : plist m M e' l l' -> (forall p, In p l -> inP m e p) -> In p' l' -> exists p, In p l /\ inP M e' p' /\ same_part m M e' p p'.
Proof.
  intros (P & _ & I2) IP J. assert (K : In (pbc M p') (map (pbc m) l)) by (apply (Permutation_in _ (Permutation_sym P)), in_map, J). apply in_map_iff in K. destruct K as (p & E & K). exists p. split; [exact K|].
  specialize (I2 p' J). split; [exact I2|]. destruct (back_p _ _ I2) as (q & G & SP & B & _). specialize (IP p K). unfold inP in IP. rewrite E in IP. replace p with q by congruence. exact SP.
Qed.
Lemma plist_back l l' p p' : plist m M e' l l' -> In p l -> same_part m M e' p p' -> get (e_parts (evts (gr M) e')) (pbc M p') = Some p' -> In p' l'.
Proof.
  intros (P & _ & I2) J SP IP. assert (K : In (pbc m p) (map (pbc M) l')) by (apply (Permutation_in _ P), in_map, J). apply in_map_iff in K. destruct K as (q & E & K). specialize (I2 q K).
  destruct SP as [B _]. replace p' with q; [exact K|]. rewrite E, <- B, IP in I2. congruence.
Qed.
Lemma wf_read : wf f32 M e'.
Proof.
  assert (SM2 := SM). destruct SM2 as ([GV GP] & (A1 & A2 & A3 & A4 & A5 & A6 & A7 & A8 & A9 & A10 & A11) & NW & WM & X & H & SGN & B1 & B2).
  constructor.
  - apply CL.
  - intros bc v' G. destruct (back_v _ _ G) as (v & G0 & (_ & _ & _ & _ & _ & _ & E5 & E6 & L1 & L2) & B & B').
    destruct (w_v _ _ _ W _ _ G0) as (_ & N0 & V1 & V2 & V3 & V4 & V5). split; [exact B'|]. split; [exact N0|]. unfold vert_ok. rewrite B', E5, E6. unfold size_ok in *. rewrite (plist_zlen _ _ L1), (plist_zlen _ _ L2).
    rewrite <- B. auto.
  - intros bc p' G. destruct (back_p _ _ G) as (p & G0 & (_ & (_ & _ & _ & _ & _ & _ & _ & E8 & E9 & NF' & GF) & L1 & L2) & B & B').
    destruct (w_p _ _ _ W _ _ G0) as (_ & N0 & (P1 & P2 & P3 & P4 & (NF & GF0 & SF)) & AT). split; [exact B'|]. split; [exact N0|]. split.
    + unfold part_ok. rewrite B', E8, E9, (vlink_obc _ _ _ _ _ L2). split; [rewrite <- B; exact P1|]. split; [exact P2|]. split; [exact P3|]. split; [exact P4|]. split; [exact NF'|]. split.
      * intros k v GK. rewrite GF in GK. apply GF0, GK.
      * assert (KP : Permutation (keys (flow (pd m p))) (keys (flow (pd M p')))).
        { apply NoDup_Permutation; [exact NF|exact NF'|]. intros k. rewrite !keys_get. split; intros [x E]; exists x; [rewrite GF|rewrite <- GF]; exact E. }
        unfold keys in KP. apply Permutation_length in KP. rewrite !map_length in KP. unfold size_ok, zlen in *. rewrite <- KP. exact SF.
    + destruct AT as [AT|AT]; [left|right]; intros E; apply AT; [rewrite E in L1; destruct (p_prod (parts (gr m) p)); [destruct L1|reflexivity]|rewrite E in L2; destruct (p_end (parts (gr m) p)); [destruct L2|reflexivity]].
  - intros v' p' IV J. destruct (back_v _ _ IV) as (v & G0 & (_ & _ & _ & _ & _ & _ & _ & _ & L1 & _) & B & B'). assert (IV0 : inV m e v) by (unfold inV; rewrite B; exact G0).
    destruct (plist_in _ _ p' L1 (fun p K => proj2 (w_in _ _ _ W v p IV0 K)) J) as (p & K & IP & SP). split; [|exact IP]. destruct (w_in _ _ _ W v p IV0 K) as [PE _]. destruct SP as (_ & _ & _ & L). rewrite PE in L.
    destruct (p_end (parts (gr M) p')) as [w|]; [|destruct L]. destruct L as [_ L]. rewrite B in L. unfold inV in IV. rewrite IV in L. congruence.
  - intros v' p' IV J. destruct (back_v _ _ IV) as (v & G0 & (_ & _ & _ & _ & _ & _ & _ & _ & _ & L1) & B & B'). assert (IV0 : inV m e v) by (unfold inV; rewrite B; exact G0).
    destruct (plist_in _ _ p' L1 (fun p K => proj2 (w_out _ _ _ W v p IV0 K)) J) as (p & K & IP & SP). split; [|exact IP]. destruct (w_out _ _ _ W v p IV0 K) as [PE _]. destruct SP as (_ & _ & L & _). rewrite PE in L.
    destruct (p_prod (parts (gr M) p')) as [w|]; [|destruct L]. destruct L as [_ L]. rewrite B in L. unfold inV in IV. rewrite IV in L. congruence.
  - intros p' v' IP E. destruct (back_p _ _ IP) as (p & G0 & SP & B & B'). assert (SP2 := SP). destruct SP2 as (_ & _ & _ & L). rewrite E in L. destruct (p_end (parts (gr m) p)) as [v|] eqn:PE; [|destruct L]. destruct L as [BV GV'].
    assert (IP0 : inP m e p) by (unfold inP; rewrite B; exact G0). destruct (w_end _ _ _ W p v IP0 PE) as [IV0 K]. split; [unfold inV; rewrite BV; exact GV'|].
    specialize (GV (vbc m v)). unfold inV in IV0. rewrite IV0, GV' in GV. destruct GV as (_ & _ & _ & _ & _ & _ & _ & _ & L1 & _). eapply plist_back; [exact L1|exact K|exact SP|exact IP].
  - intros p' v' IP E. destruct (back_p _ _ IP) as (p & G0 & SP & B & B'). assert (SP2 := SP). destruct SP2 as (_ & _ & L & _). rewrite E in L. destruct (p_prod (parts (gr m) p)) as [v|] eqn:PE; [|destruct L]. destruct L as [BV GV'].
    assert (IP0 : inP m e p) by (unfold inP; rewrite B; exact G0). destruct (w_prod _ _ _ W p v IP0 PE) as [IV0 K]. split; [unfold inV; rewrite BV; exact GV'|].
    specialize (GV (vbc m v)). unfold inV in IV0. rewrite IV0, GV' in GV. destruct GV as (_ & _ & _ & _ & _ & _ & _ & _ & _ & L1). eapply plist_back; [exact L1|exact K|exact SP|exact IP].
  - intros v' IV. destruct (back_v _ _ IV) as (v & _ & (_ & _ & _ & _ & _ & _ & _ & _ & (_ & S1 & _) & (_ & S2 & _)) & _). split; apply (NoDup_map_inv (pbc M)), strict_nodup; assumption.
  - intros v' E. rewrite E in SGN. destruct (signal (ed m e)) as [v|]; [|destruct SGN]. destruct SGN as [B G]. unfold inV. rewrite B. exact G.
  - intros p' E. rewrite E in B1. destruct (beam1 (ed m e)) as [p|] eqn:EB; [|destruct B1]. destruct B1 as [B G]. destruct (w_b1 _ _ _ W p EB) as [IP NE]. split; [unfold inP; rewrite B; exact G|].
    specialize (GP (pbc m p)). unfold inP in IP. rewrite IP, G in GP. destruct GP as (_ & _ & _ & L). intros K. rewrite K in L. destruct (p_end (parts (gr m) p)); [destruct L|congruence].
  - intros p' E. rewrite E in B2. destruct (beam2 (ed m e)) as [p|] eqn:EB; [|destruct B2]. destruct B2 as [B G]. destruct (w_b2 _ _ _ W p EB) as [IP NE]. split; [unfold inP; rewrite B; exact G|].
    specialize (GP (pbc m p)). unfold inP in IP. rewrite IP, G in GP. destruct GP as (_ & _ & _ & L). intros K. rewrite K in L. destruct (p_end (parts (gr m) p)); [destruct L|congruence].
  - intros E. assert (NE := w_ne _ _ _ W). destruct (e_verts (evts (gr m) e)) as [|[bc v] l] eqn:EV; [congruence|]. specialize (GV bc). cbn [get] in GV. rewrite Z.eqb_refl, E in GV. destruct GV.
  - rewrite A1, A2, A3, A8. apply (w_int _ _ _ W).
  - rewrite A7, A8. destruct (w_sz _ _ _ W) as [SZ R]. split; [|exact R].
    assert (P : Permutation (keys (e_verts (evts (gr m) e))) (keys (e_verts (evts (gr M) e')))).
    { apply NoDup_Permutation; [apply (w_kv _ _ _ W)|apply CL|]. intros bc. rewrite !keys_get. specialize (GV bc). destruct (get (e_verts (evts (gr m) e)) bc), (get (e_verts (evts (gr M) e')) bc); try contradiction; split; intros [x E]; eauto; discriminate. }
    apply Permutation_length in P. unfold keys in P. rewrite !map_length in P. unfold size_ok, zlen in *. rewrite <- P. exact SZ.
  - destruct (w_data _ _ _ W) as ((N1 & NC & RG & N2) & PF & HI). unfold data_ok. split; [|split].
    + assert (ES : forall n i, In (n, i) (wmap (ed M e')) <-> In (n, i) (wmap (ed m e))) by (intros n i; rewrite <- !sget_In by assumption; rewrite WM; reflexivity).
      assert (PP : Permutation (wmap (ed m e)) (wmap (ed M e'))) by (apply NoDup_Permutation; [eapply NoDup_map_inv, N1|eapply NoDup_map_inv, NW|intros [n i]; symmetry; apply ES]).
      split; [exact NW|]. split; [rewrite Forall_forall in *; intros [n i] J; apply NC, ES, J|]. rewrite A7. split; [|eapply Permutation_NoDup; [apply Permutation_map, PP|exact N2]].
      intros i. rewrite RG. split; apply Permutation_in; [|symmetry]; apply Permutation_map, PP.
    + unfold pdfOf in *. rewrite A9. exact PF.
    + rewrite H. exact HI.
Qed.
Lemma read_ordered : ordered M e'.
Proof. intros v' IV. destruct (back_v _ _ IV) as (v & _ & (_ & _ & _ & _ & _ & _ & _ & _ & (_ & S1 & _) & (_ & S2 & _)) & _). split; assumption. Qed.
End Wf.

(* ---- events built with AddVertex, AddParticleIn and AddParticleOut ---- *)
Definition nd_verts (h : heap) : Prop := forall e, NoDup (keys (e_verts (evts h e))).
Lemma del_keys {A} (x : amap A) k : NoDup (keys x) -> NoDup (keys (del x k)) /\ forall j, In j (keys (del x k)) -> In j (keys x).
Proof.
  unfold keys. induction x as [|[i a] x IH]; cbn [del map fst]; intros N; [split; [constructor|auto]|]. inversion N as [|? ? N1 N2]; subst. destruct (IH N2) as [I1 I2].
  destruct (Z.eqb_spec i k); [split; [exact I1|intros j J; right; apply I2, J]|]. cbn [map fst]. split; [constructor; [intros J; apply N1, I2, J|exact I1]|]. intros j [J|J]; [left; exact J|right; apply I2, J].
Qed.
Lemma nd_setEvt h e x : nd_verts h -> NoDup (keys (e_verts x)) -> nd_verts (setEvt h e x).
Proof. intros N H a. cbn [setEvt evts]. unfold upd. destruct (Nat.eqb e a); [exact H|apply N]. Qed.
Lemma nd_putPart h e bc p h' : nd_verts h -> putPart h e bc p = Ok h' -> nd_verts h'.
Proof. unfold putPart. intros N. destruct (e_nil (evts h e)); [discriminate|]. intros E. injection E as <-. apply nd_setEvt; [exact N|apply N]. Qed.
Lemma nd_moveParts orig e b ps : forall h h', nd_verts h -> moveParts h orig e b ps = Ok h' -> nd_verts h'.
Proof.
  induction ps as [|p ps IH]; intros h h' N E; cbn [moveParts] in E; [injection E as <-; exact N|]. destruct (b && _); [eapply IH; eassumption|].
  destruct (putPart h e (p_bc (parts h p)) p) as [h1|] eqn:P; [|discriminate]. cbn [rbind] in E. apply nd_putPart in P; [|exact N]. eapply IH; [|exact E].
  destruct (moved orig e); [|exact P]. apply nd_setEvt; [exact P|apply P].
Qed.
Lemma nd_exec h o h' : (forall e, o <> ODelete e) -> nd_verts h -> exec h o = Ok h' -> nd_verts h'.
Proof.
  intros ND N. assert (CO : forall h e p h1 bc, nd_verts h -> codeOf h e p = (h1, bc) -> nd_verts h1).
  { clear. intros h e p h1 bc N. unfold codeOf, pBarcode. destruct (_ =? 0); intros E; injection E as <- _; [apply nd_setEvt; [exact N|apply N]|exact N]. }
  destruct o as [e v|v p|v p|e]; cbn [exec].
  - unfold addVertex. destruct (if v_bc (verts h v) =? 0 then vBarcode h e else (h, v_bc (verts h v))) as [h1 bc] eqn:E1. assert (N1 : nd_verts h1).
    { destruct (_ =? 0); [unfold vBarcode in E1; injection E1 as <- _; apply nd_setEvt; [exact N|apply N]|injection E1 as <- _; exact N]. }
    cbv zeta. unfold putVert. cbn [setVert evts]. destruct (e_nil (evts h1 e)); [discriminate|]. cbn [rbind]. intros E.
    match type of E with rbind (moveParts ?a _ _ _ _) _ = _ => assert (N2 : nd_verts a) end.
    { destruct (moved (v_ev (verts h v)) e); [apply nd_setEvt; [apply nd_setEvt; [exact N1|apply set_nodup, N1]|]|apply nd_setEvt; [exact N1|apply set_nodup, N1]].
      cbn [e_verts]. apply del_keys. cbn [setEvt evts setVert]. unfold upd. destruct (Nat.eqb e n); [apply set_nodup, N1|apply N1]. }
    match type of E with rbind ?r _ = _ => destruct r as [h5|] eqn:M1; [|discriminate] end. cbn [rbind] in E. eapply nd_moveParts; [|exact E]. eapply nd_moveParts; [exact N2|exact M1].
  - unfold addParticleIn. destruct (match p_end (parts h p) with Some w => removeParticleIn h w p | None => h end) as [ps vs es] eqn:E1. assert (N1 : forall a, NoDup (keys (e_verts (es a)))).
    { destruct (p_end (parts h p)); [unfold removeParticleIn, setVert in E1|]; [injection E1 as _ _ <-; exact N|rewrite E1 in N; exact N]. }
    cbv zeta. unfold removeParticleIn, setVert. cbn [verts evts parts]. match goal with |- match ?x with _ => _ end = _ -> _ => destruct x as [e|]; [|discriminate] end.
    match goal with |- context [codeOf ?a e p] => destruct (codeOf a e p) as [h3 bc] eqn:E3; assert (N3 : nd_verts h3) by (eapply (CO a); [exact N1|exact E3]) end.
    intros E. eapply nd_putPart; [|exact E]. intros a. cbn [setPart evts]. apply N3.
  - unfold addParticleOut. destruct (match p_prod (parts h p) with Some w => removeParticleOut h w p | None => h end) as [ps vs es] eqn:E1. assert (N1 : forall a, NoDup (keys (e_verts (es a)))).
    { destruct (p_prod (parts h p)); [unfold removeParticleOut, setVert in E1|]; [injection E1 as _ _ <-; exact N|rewrite E1 in N; exact N]. }
    cbv zeta. unfold removeParticleOut, setVert. cbn [verts evts parts]. match goal with |- match ?x with _ => _ end = _ -> _ => destruct x as [e|]; [|discriminate] end.
    match goal with |- context [codeOf ?a e p] => destruct (codeOf a e p) as [h3 bc] eqn:E3; assert (N3 : nd_verts h3) by (eapply (CO a); [exact N1|exact E3]) end.
    intros E. eapply nd_putPart; [|exact E]. intros a. cbn [setPart evts]. apply N3.
  - destruct (ND e eq_refl).
Qed.
Lemma nd_execs os : forall h h', builds os -> nd_verts h -> execs h os = Ok h' -> nd_verts h'.
Proof.
  induction os as [|o os IH]; intros h h' B N E; cbn [execs] in E; [injection E as <-; exact N|]. destruct (exec h o) as [h1|] eqn:X; [|discriminate]. cbn [rbind] in E.
  eapply IH; [intros e J; apply (B e); right; exact J| |exact E]. eapply nd_exec; [|exact N|exact X]. intros e ->. apply (B e). left. reflexivity.
Qed.
Lemma wf_built f32 m e h0 os : fresh h0 -> single e os -> execs h0 os = Ok (gr m) ->
  (forall p q, attached (gr m) p -> attached (gr m) q -> pbc m p = pbc m q -> p = q) -> (forall v w, owned e (gr m) v -> owned e (gr m) w -> vbc m v = vbc m w -> v = w) ->
  (exists v, In (OVertex e v) os) ->
  (forall p, attached (gr m) p -> part_ok m p) -> (forall v, owned e (gr m) v -> vert_ok m v) ->
  (forall v, signal (ed m e) = Some v -> In (OVertex e v) os) ->
  (forall p, beam1 (ed m e) = Some p \/ beam2 (ed m e) = Some p -> p_end (parts (gr m) p) <> None) ->
  int_ok (evnum (ed m e)) /\ int_ok (mpi (ed m e)) /\ int_ok (sigid (ed m e)) /\ Forall int_ok (rndm (ed m e)) ->
  size_ok (e_verts (evts (gr m) e)) /\ size_ok (rndm (ed m e)) /\ size_ok (weightsOf (ed m e)) -> data_ok f32 (ed m e) -> wf f32 m e.
Proof.
  intros F SG E DP DV [v0 IV] PO VO SI BE IN SZ DA. destruct (C45_vertices e h0 os (gr m) F SG E DV) as [CV CO]. assert (CP := C45_particles e h0 os (gr m) F SG E DP). assert (CG := C45_graph h0 os (gr m) F (proj1 SG) E).
  destruct (fresh_event e h0 F) as [X C0]. destruct (event_execs e h0 os h0 (gr m) 0 SG (fresh_graph _ F) X C0 E) as (G & X' & _).
  assert (AI : forall p v, In p (v_in (verts (gr m) v)) -> inP m e p /\ inV m e v).
  { intros p v J. split; [apply CP; split; [right; rewrite (proj1 (proj1 (CG p v)) J); discriminate|reflexivity]|]. apply CV. split; [|reflexivity]. apply (x_own e _ X'). left. intros Q. rewrite Q in J. destruct J. }
  assert (AO : forall p v, In p (v_out (verts (gr m) v)) -> inP m e p /\ inV m e v).
  { intros p v J. split; [apply CP; split; [left; rewrite (proj1 (proj1 (proj2 (CG p v))) J); discriminate|reflexivity]|]. apply CV. split; [|reflexivity]. apply (x_own e _ X'). right. intros Q. rewrite Q in J. destruct J. }
  constructor.
  - apply (nd_execs os h0 (gr m) (proj1 SG)); [|exact E]. intros a. destruct F as (_ & _ & F). rewrite (proj1 (F a)). constructor.
  - intros bc v Q. apply CV in Q. destruct Q as [O Q]. split; [exact Q|]. split; [rewrite <- Q; apply (x_v2 e _ X' v O)|apply VO, O].
  - intros bc p Q. apply CP in Q. destruct Q as [O Q]. split; [exact Q|]. split; [rewrite <- Q; apply (x_p2 e _ X' p O)|]. split; [apply PO, O|exact O].
  - intros v p _ J. split; [apply (proj1 (proj1 (CG p v)) J)|apply (AI p v J)].
  - intros v p _ J. split; [apply (proj1 (proj1 (proj2 (CG p v))) J)|apply (AO p v J)].
  - intros p v _ Q. apply (proj1 (CG p v)) in Q. split; [apply (AI p v Q)|exact Q].
  - intros p v _ Q. apply (proj1 (proj2 (CG p v))) in Q. split; [apply (AO p v Q)|exact Q].
  - intros v _. destruct (CG 0%nat v) as (_ & _ & N1 & N2). split; assumption.
  - intros v Q. apply CV. split; [apply CO, SI, Q|reflexivity].
  - intros p Q. specialize (BE p (or_introl Q)). split; [apply CP; split; [right; exact BE|reflexivity]|exact BE].
  - intros p Q. specialize (BE p (or_intror Q)). split; [apply CP; split; [right; exact BE|reflexivity]|exact BE].
  - apply CO in IV. assert (K : get (e_verts (evts (gr m) e)) (vbc m v0) = Some v0) by (apply CV; split; [exact IV|reflexivity]). intros Q. rewrite Q in K. discriminate.
  - exact IN.
  - exact SZ.
  - exact DA.
Qed.
