(* Proofs about the text form of HepMC events, third part: one event read back *)
From Coq Require Import ZArith List Lia Bool Permutation Sorted.
From Flocq Require Import IEEE754.BinarySingleNaN.
From Verif Require Import Bytes GoLib GoStrings GoQuote F64 FloatText DflowModel DflowProps HepmcModel HepmcTextModel HepmcTextProofs HepmcTextProofs2 HepmcTextSpec.
Import ListNotations.
Local Open Scope Z_scope.

Lemma nodup_concat {A B} (f : A -> list B) l : NoDup l -> (forall x, In x l -> NoDup (f x)) -> (forall x y z, In x l -> In y l -> In z (f x) -> In z (f y) -> x = y) -> NoDup (concat (map f l)).
Proof.
  induction l as [|x l IH]; cbn [map concat]; intros N F D; [constructor|]. inversion N as [|? ? N1 N2]; subst.
  assert (G : NoDup (concat (map f l))) by (apply IH; [exact N2|intros y J; apply F; right; exact J|intros y z w J K; apply D; right; assumption]).
  assert (X : forall z, In z (f x) -> ~ In z (concat (map f l))).
  { intros z J K. apply in_concat in K. destruct K as (y' & K1 & K2). apply in_map_iff in K1. destruct K1 as (y & <- & K1). apply N1. rewrite (D x y z); [exact K1|left; reflexivity|right; exact K1|exact J|exact K2]. }
  assert (FX := F x (or_introl eq_refl)). revert FX X. generalize (f x). intros r. induction r as [|b r IHr]; cbn [app]; intros FX X; [exact G|]. inversion FX as [|? ? F1 F2]; subst.
  constructor; [|apply IHr; [exact F2|intros z J; apply X; right; exact J]]. intros J. apply in_app_or in J. destruct J as [J|J]; [contradiction|]. apply (X b); [left; reflexivity|exact J].
Qed.
Lemma nodup_inj {A B} (f : A -> B) l : NoDup l -> (forall x y, In x l -> In y l -> f x = f y -> x = y) -> NoDup (map f l).
Proof.
  induction l as [|x l IH]; cbn [map]; intros N F; [constructor|]. inversion N as [|? ? N1 N2]; subst. constructor; [|apply IH; [exact N2|intros a b J K; apply F; right; assumption]].
  intros J. apply in_map_iff in J. destruct J as (y & E & J). apply N1. rewrite <- (F y x); [exact J|right; exact J|left; reflexivity|exact E].
Qed.
Lemma sorted_lt (key : nat -> Z) l : NoDup l -> sorted key l -> (forall x y, In x l -> In y l -> key x = key y -> x = y) -> StronglySorted Z.lt (map key l).
Proof.
  induction l as [|x l IH]; cbn [map sorted]; intros N S I; [constructor|]. destruct S as [S1 S2]. inversion N as [|? ? N1 N2]; subst. constructor; [apply IH; [exact N2|exact S2|intros a b J K; apply I; right; assumption]|].
  rewrite Forall_forall. intros z J. apply in_map_iff in J. destruct J as (y & <- & J). specialize (S1 y J). assert (key x <> key y); [|lia]. intros E. apply N1. rewrite (I x y); [exact J|left; reflexivity|right; exact J|exact E].
Qed.

Section Event.
Variable visit : forall A : Type, list A -> list A.
Variable isPrint : Z -> bool.
Variable f32 : f64 -> f64.
Hypothesis visit_perm : forall A (l : list A), Permutation l (visit A l).
Variables (m : mem) (e : nat).
Hypothesis W : wf f32 m e.
Let Vall := vertsOf visit m e.
Let Pall := concat (map (vparts m) Vall).

Lemma Vall_In v : In v Vall <-> inV m e v.
Proof.
  unfold Vall, vertsOf, rsortBy. rewrite sort_In. rewrite in_map_iff. split.
  - intros ([bc q] & Q & J). cbn [snd] in Q. subst q. apply (Permutation_in _ (Permutation_sym (visit_perm _ _))) in J. apply In_get in J; [|apply W]. unfold inV. destruct (w_v _ _ _ W bc v J) as [-> _]. exact J.
  - intros J. exists (vbc m v, v). split; [reflexivity|]. apply (Permutation_in _ (visit_perm _ _)). apply get_In, J.
Qed.
Lemma Vall_nodup : NoDup Vall.
Proof.
  unfold Vall, vertsOf, rsortBy. apply sort_nodup. assert (N : NoDup (map snd (e_verts (evts (gr m) e)))).
  { assert (K := w_kv _ _ _ W). apply nodup_inj; [unfold keys in K; apply NoDup_map_inv in K; exact K|]. intros [b1 v1] [b2 v2] J1 J2 E. cbn [snd] in E. subst v2. f_equal.
    apply In_get in J1; [|exact K]. apply In_get in J2; [|exact K]. apply (w_v _ _ _ W) in J1, J2. destruct J1, J2. congruence. }
  eapply Permutation_NoDup; [|exact N]. apply Permutation_map, visit_perm.
Qed.
Lemma Vall_inj v w : In v Vall -> In w Vall -> vbc m v = vbc m w -> v = w.
Proof. rewrite !Vall_In. unfold inV. intros A B E. rewrite E in A. congruence. Qed.
Lemma vparts_In v p : inV m e v -> (In p (vparts m v) <-> inP m e p /\ (p_prod (parts (gr m) p) = Some v \/ p_prod (parts (gr m) p) = None /\ p_end (parts (gr m) p) = Some v)).
Proof.
  intros VI. unfold vparts, orphans. rewrite in_app_iff, filter_In. unfold orphan. split.
  - intros [[J O]|J].
    + destruct (w_in _ _ _ W v p VI J) as [A B]. destruct (p_prod (parts (gr m) p)); [discriminate|]. auto.
    + destruct (w_out _ _ _ W v p VI J) as [A B]. auto.
  - intros [PI [A|[A B]]]; [right; apply (w_prod _ _ _ W p v PI A)|left]. rewrite A. split; [apply (w_end _ _ _ W p v PI B)|reflexivity].
Qed.
Lemma Pall_In p : In p Pall <-> inP m e p.
Proof.
  unfold Pall. rewrite in_concat. split.
  - intros (l & J & K). apply in_map_iff in J. destruct J as (v & <- & J). apply Vall_In in J. apply (vparts_In v p J) in K. tauto.
  - intros J. destruct (w_p _ _ _ W _ p J) as (_ & _ & _ & A).
    assert (X : exists v, inV m e v /\ In p (vparts m v)).
    { destruct (p_prod (parts (gr m) p)) as [v|] eqn:E1.
      - exists v. destruct (w_prod _ _ _ W p v J E1) as [B _]. split; [exact B|]. apply vparts_In; auto.
      - destruct (p_end (parts (gr m) p)) as [v|] eqn:E2; [|destruct A; congruence]. exists v. destruct (w_end _ _ _ W p v J E2) as [B _]. split; [exact B|]. apply vparts_In; auto. }
    destruct X as (v & VI & K). exists (vparts m v). split; [apply in_map_iff; exists v; split; [reflexivity|apply Vall_In, VI]|exact K].
Qed.
Lemma Pall_nodup : NoDup Pall.
Proof.
  apply nodup_concat; [exact Vall_nodup| |].
  - intros v J. apply Vall_In in J. destruct (w_nd _ _ _ W v J) as [A B]. unfold vparts. assert (F : NoDup (orphans m v)) by (apply NoDup_filter, A).
    revert F. assert (X : forall p, In p (orphans m v) -> ~ In p (v_out (verts (gr m) v))).
    { intros p K L. unfold orphans in K. apply filter_In in K. destruct K as [_ K]. unfold orphan in K. destruct (w_out _ _ _ W v p J L) as [Q _]. rewrite Q in K. discriminate. }
    revert X. generalize (orphans m v). intros r. induction r as [|b r IHr]; cbn [app]; intros X F; [exact B|]. inversion F as [|? ? F1 F2]; subst.
    constructor; [|apply IHr; [intros z K; apply X; right; exact K|exact F2]]. intros K. apply in_app_or in K. destruct K as [K|K]; [contradiction|]. apply (X b); [left; reflexivity|exact K].
  - intros v w p J K A B. apply Vall_In in J, K. apply (vparts_In v p J) in A. apply (vparts_In w p K) in B. destruct A as [_ [A|[A1 A2]]], B as [_ [B|[B1 B2]]]; congruence.
Qed.
Lemma Pall_inj p q : In p Pall -> In q Pall -> pbc m p = pbc m q -> p = q.
Proof. rewrite !Pall_In. unfold inP. intros A B E. rewrite E in A. congruence. Qed.
Lemma Vall_len : length Vall = length (e_verts (evts (gr m) e)).
Proof. unfold Vall, vertsOf, rsortBy. rewrite sort_length, map_length. symmetry. apply Permutation_length, visit_perm. Qed.
Lemma evt_ints_wf : evt_ints m e.
Proof.
  destruct (w_int _ _ _ W) as (A & B & C & D). destruct (w_sz _ _ _ W) as (F & G & H). assert (Z0 : int_ok 0) by (unfold int_ok; lia). constructor; auto.
  - destruct (signal (ed m e)) as [v|] eqn:E; cbn [obc]; [|exact Z0]. assert (X := w_sig _ _ _ W v E). apply (w_v _ _ _ W) in X. destruct X as (_ & _ & X & _). exact X.
  - destruct (beam1 (ed m e)) as [v|] eqn:E; cbn [obc]; [|exact Z0]. destruct (w_b1 _ _ _ W v E) as [X _]. apply (w_p _ _ _ W) in X. destruct X as (_ & _ & X & _). apply X.
  - destruct (beam2 (ed m e)) as [v|] eqn:E; cbn [obc]; [|exact Z0]. destruct (w_b2 _ _ _ W v E) as [X _]. apply (w_p _ _ _ W) in X. destruct X as (_ & _ & X & _). apply X.
Qed.

Variables (m0 : mem) (e' : nat).
Lemma evt_read ls fn : exists M, decodeBody visit f32 FGenEvent m0 e' {| sl := linesEvt visit isPrint m e ++ ls; fin := fn |} = (Val M, {| sl := ls; fin := fn |}) /\
  over_event m e (ed m0 e') M e' /\ frame m0 M e' /\ closed M e'.
Proof.
  assert (NEV : Vall <> []). { intros X. assert (L := Vall_len). rewrite X in L. apply (w_ne _ _ _ W). destruct (e_verts (evts (gr m) e)); [reflexivity|discriminate]. }
  assert (EVA : exists v0 vs, Vall = v0 :: vs) by (destruct Vall as [|v0 vs]; [congruence|eauto]). clear NEV. destruct EVA as (v0 & vs & EVA).
  (* the header *)
  destruct (head_read visit isPrint f32 visit_perm m e m0 e' 86 [] (tl (lineV m v0)) (map (lineP visit m) (vparts m v0) ++ concat (map (linesV visit m) vs) ++ ls) fn evt_ints_wf (w_data _ _ _ W)) as (m2 & w & EH & NA & OE); [auto|].
  set (m1 := setEvtMap m0 e' {| e_verts := []; e_parts := []; e_bcp := e_bcp (evts (gr m0) e'); e_bcv := e_bcv (evts (gr m0) e'); e_nil := false |}) in *.
  assert (LE : linesEvt visit isPrint m e ++ ls = lineE m e :: (linesN visit isPrint (ed m e) ++ [lineU (ed m e)] ++ linesC (ed m e) ++ linesH (ed m e) ++ [lineF (ed m e)] ++ ([86] :: tl (lineV m v0)) :: map (lineP visit m) (vparts m v0) ++ concat (map (linesV visit m) vs) ++ ls)).
  { unfold linesEvt. fold Vall. rewrite EVA. cbn [map concat]. rewrite <- !app_assoc. reflexivity. }
  unfold decodeBody. rewrite LE. unfold readline at 1. cbn [sl fin]. change (peek (lineE m e)) with (Val (A := Z * toks) (69, tl (lineE m e))). cbn [Z.eqb negb Pos.eqb]. cbv iota.
  eassert (EH' : head f32 FGenEvent e' (lineE m e) (linesN visit isPrint (ed m e) ++ [lineU (ed m e)] ++ linesC (ed m e) ++ linesH (ed m e) ++ [lineF (ed m e)] ++ ([86] :: tl (lineV m v0)) :: map (lineP visit m) (vparts m v0) ++ concat (map (linesV visit m) vs) ++ ls) fn hdr0 m0 = _) by exact EH.
  rewrite EH'. clear EH EH'.
  assert (ELV : [86] :: tl (lineV m v0) = lineV m v0) by reflexivity. rewrite ELV.
  (* vertices and particles *)
  destruct OE as (O1 & O2 & O3 & O4 & O5 & O6 & O7).
  assert (I0 : inv m m2 e' Pall Vall [] [] 0 [] m2).
  { constructor.
    - cbn [length]. lia.
    - lia.
    - intros p [].
    - intros v [].
    - rewrite O1. unfold m1. cbn [gr setEvtMap setEvt evts]. rewrite upd_same. cbn [e_parts get]. intros bc q. split; [discriminate|intros (p & [] & _)].
    - rewrite O1. unfold m1. cbn [gr setEvtMap setEvt evts]. rewrite upd_same. cbn [e_verts get]. intros bc q. split; [discriminate|intros (p & [] & _)].
    - cbn [get]. intros bc b. split; [discriminate|intros (p & v & [] & _)].
    - constructor.
    - rewrite O1. unfold m1. cbn [gr setEvtMap setEvt evts]. rewrite upd_same. constructor.
    - rewrite O1. unfold m1. cbn [gr setEvtMap setEvt evts]. rewrite upd_same. constructor.
    - rewrite O1. unfold m1. cbn [gr setEvtMap setEvt evts]. rewrite upd_same. auto.
    - reflexivity.
    - auto. }
  assert (PO : forall p, In p Pall -> part_ok m p) by (intros p J; apply Pall_In in J; apply (w_p _ _ _ W) in J; tauto).
  assert (VO : forall v, In v Vall -> vert_ok m v) by (intros v J; apply Vall_In in J; apply (w_v _ _ _ W) in J; tauto).
  assert (ENDV : forall p v, In p Pall -> p_end (parts (gr m) p) = Some v -> In v Vall) by (intros p v J E; apply Pall_In in J; apply Vall_In; apply (w_end _ _ _ W p v J E)).
  assert (PE : forall p v, In p Pall -> p_end (parts (gr m) p) = Some v -> vbc m v <> 0) by (intros p v J E; assert (K := ENDV p v J E); apply Vall_In in K; apply (w_v _ _ _ W) in K; tauto).
  assert (OUT : forall v p, In v Vall -> In p (v_out (verts (gr m) v)) -> p_prod (parts (gr m) p) = Some v /\ In p Pall).
  { intros v p J K. apply Vall_In in J. destruct (w_out _ _ _ W v p J K) as [A B]. split; [exact A|]. apply Pall_In, B. }
  assert (PNZ : forall p, In p Pall -> pbc m p <> 0) by (intros p J; apply Pall_In in J; apply (w_p _ _ _ W) in J; tauto).
  destruct (verts_read visit visit_perm m m2 e' Pall Vall Pall_nodup Vall_nodup Pall_inj Vall_inj PO VO PE OUT Vall [] [] [] m2 ls fn (Some (lineV m v0)) (map (lineP visit m) (vparts m v0) ++ concat (map (linesV visit m) vs) ++ ls) I0) as (pidx & M3 & E3 & I3).
  { reflexivity. } { reflexivity. } { rewrite EVA. cbn [map concat]. rewrite <- app_assoc. reflexivity. } { rewrite EVA. discriminate. }
  assert (ELN : Z.to_nat (nvtx (hdrOf m e)) = length Vall) by (unfold hdrOf, zlen; cbn [nvtx]; rewrite Nat2Z.id; symmetry; apply Vall_len).
  rewrite ELN.
  match goal with |- context [decodeVerts FGenEvent e' ?t ?n ?px ?mm ?ss] => replace (decodeVerts FGenEvent e' t n px mm ss) with (Val (pidx, M3), {| sl := ls; fin := fn |}) by (symmetry; exact E3) end.
  cbn [obind]. unfold finish.
  (* signal vertex *)
  destruct (signal_read visit visit_perm m m2 e' Pall Vall Vall_inj pidx M3 (signal (ed m e)) I3) as (M4 & E4 & OE4).
  { intros v E. assert (K := w_sig _ _ _ W v E). split; [apply Vall_In, K|]. apply (w_v _ _ _ W) in K. tauto. }
  change (sigbc (hdrOf m e)) with (obc (vbc m) (signal (ed m e))). rewrite E4. cbn [obind].
  destruct OE4 as (Q1 & Q2 & Q3 & Q4 & Q5 & Q6 & Q7).
  set (PA := pa m2 Pall) in *. set (VA := va m2 Vall) in *.
  (* end vertices *)
  assert (L0 : linv m m2 e' Pall Vall M4 (hdrOf m e) [] M4).
  { constructor; auto.
    - intros p J. rewrite Q1. apply (i_p _ _ _ _ _ _ _ _ _ _ I3 p J).
    - intros v J. exists []. rewrite Q1. split; [apply (i_v _ _ _ _ _ _ _ _ _ _ I3 v J)|]. split; [exact I|]. split; [constructor|]. intros p. cbn [In]. tauto.
    - split; [auto|]. destruct (ed M4 e'); reflexivity.
    - split; [intros p _ _ []|auto].
    - split; [intros p _ _ []|auto]. }
  assert (EPM : forall bc q, get (e_parts (evts (gr M4) e')) bc = Some q <-> exists p, In p Pall /\ q = PA p /\ bc = pbc m p) by (rewrite Q1; apply I3).
  assert (EVM : forall bc q, get (e_verts (evts (gr M4) e')) bc = Some q <-> exists v, In v Vall /\ q = VA v /\ bc = vbc m v) by (rewrite Q1; apply I3).
  assert (PXP := visit_perm _ pidx).
  destruct (links_read m m2 e' Pall Vall Pall_inj ENDV M4 (hdrOf m e) EPM EVM (visit _ pidx) [] M4 L0) as (M5 & E5 & L5).
  { eapply Permutation_NoDup; [apply Permutation_map, PXP|apply I3]. } { intros i _ []. }
  { intros i b J. apply (Permutation_in _ (Permutation_sym PXP)) in J. apply In_get in J; [|apply I3]. apply (i_px _ _ _ _ _ _ _ _ _ _ I3) in J. exact J. }
  exists M5. rewrite E5. split; [reflexivity|]. cbn [app] in L5. set (D := map fst (visit _ pidx)) in *.
  assert (INVD : forall p, In p Pall -> (In (pbc m p) D <-> p_end (parts (gr m) p) <> None)).
  { intros p J. unfold D. split.
    - intros K. apply in_map_iff in K. destruct K as ([i b] & Q & K). cbn [fst] in Q. subst i. apply (Permutation_in _ (Permutation_sym PXP)) in K. apply In_get in K; [|apply I3].
      apply (i_px _ _ _ _ _ _ _ _ _ _ I3) in K. destruct K as (q & v & K1 & K2 & K3 & _). rewrite (Pall_inj p q J K1 K2). congruence.
    - intros K. destruct (p_end (parts (gr m) p)) as [v|] eqn:EE; [|congruence]. apply in_map_iff. exists (pbc m p, vbc m v). split; [reflexivity|]. apply (Permutation_in _ PXP). apply get_In.
      apply (i_px _ _ _ _ _ _ _ _ _ _ I3). exists p, v. auto. }
  assert (DNZ : ~ In 0 D).
  { unfold D. intros K. apply in_map_iff in K. destruct K as ([i b] & Q & K). cbn [fst] in Q. subst i. apply (Permutation_in _ (Permutation_sym PXP)) in K. apply In_get in K; [|apply I3].
    apply (i_px _ _ _ _ _ _ _ _ _ _ I3) in K. destruct K as (q & v & K1 & K2 & _). apply (PNZ q K1). auto. }
  (* the final state *)
  destruct L5 as [F1 F2 (F3a & F3b & F3c & F3d & F3e) [F4a F4b] F5 F6 [F7a F7b]]. change (pa m2 Pall) with PA in F1, F2, F5, F6. change (va m2 Vall) with VA in F1, F2.
  assert (I3v : forall v, In v Vall -> vd M3 (VA v) = vdOf (vd m v)) by (intros v J; apply (i_v _ _ _ _ _ _ _ _ _ _ I3 v J)).
  assert (FP : forall p, In p Pall -> parts (gr M5) (PA p) = {| p_bc := pbc m p; p_prod := option_map VA (p_prod (parts (gr m) p)); p_end := option_map VA (p_end (parts (gr m) p)) |}).
  { intros p J. rewrite (F1 p J). f_equal. destruct (in_dec Z.eq_dec (pbc m p) D) as [K|K]; [reflexivity|]. destruct (p_end (parts (gr m) p)) eqn:X; [|reflexivity]. exfalso. apply K. apply (INVD p J). congruence. }
  assert (EPM5 : forall bc q, get (e_parts (evts (gr M5) e')) bc = Some q <-> exists p, In p Pall /\ q = PA p /\ bc = pbc m p) by (rewrite F3c; exact EPM).
  assert (EVM5 : forall bc q, get (e_verts (evts (gr M5) e')) bc = Some q <-> exists v, In v Vall /\ q = VA v /\ bc = vbc m v) by (rewrite F3c; exact EVM).
  assert (PBC : forall p, In p Pall -> pbc M5 (PA p) = pbc m p) by (intros p J; unfold pbc at 1; rewrite (FP p J); reflexivity).
  assert (VBC : forall v, In v Vall -> vbc M5 (VA v) = vbc m v) by (intros v J; unfold vbc at 1; destruct (F2 v J) as (L & -> & _); reflexivity).
  assert (VL : forall o, (forall v, o = Some v -> In v Vall) -> vlink m M5 e' o (option_map VA o)).
  { intros [v|] H; cbn [option_map vlink]; [|exact I]. assert (J := H v eq_refl). split; [apply VBC, J|]. apply EVM5. exists v. auto. }
  assert (PLI : forall l L, Permutation l L -> (forall p, In p L -> In p Pall) -> NoDup L -> sorted (pbc m) L -> plist m M5 e' l (map PA L)).
  { intros l L PL SUB N SO. unfold plist. assert (EM : map (pbc M5) (map PA L) = map (pbc m) L) by (rewrite map_map; apply map_ext_in; intros p J; apply PBC, SUB, J). rewrite EM.
    split; [apply Permutation_map, PL|]. split; [apply sorted_lt; [exact N|exact SO|intros x y J K; apply Pall_inj; apply SUB; assumption]|].
    intros p' J. apply in_map_iff in J. destruct J as (p & <- & J). rewrite PBC by (apply SUB, J). apply EPM5. exists p. auto. }
  assert (ED5 : ed M5 e' = withBeams (withSig (headed (ed m0 e') (ed m e) w) (over (option_map VA (signal (ed m e))) (signal (ed m0 e')))) (beam1 (ed M5 e')) (beam2 (ed M5 e'))).
  { rewrite F4b at 1. rewrite Q6. rewrite (i_ed _ _ _ _ _ _ _ _ _ _ I3). rewrite O6. reflexivity. }
  assert (B1 : (beam1 (ed m e) = None -> beam1 (ed M5 e') = beam1 (ed m0 e')) /\ (forall p, beam1 (ed m e) = Some p -> In p Pall /\ beam1 (ed M5 e') = Some (PA p))).
  { destruct F5 as [F5a F5b]. unfold hdrOf in F5a, F5b. cbn [bp1] in F5a, F5b. split.
    - intros X. rewrite X in F5b. cbn [obc] in F5b. rewrite (F5b DNZ), Q6. cbn [withSig beam1]. rewrite (i_ed _ _ _ _ _ _ _ _ _ _ I3), O6. reflexivity.
    - intros p X. destruct (w_b1 _ _ _ W p X) as [PI PEN]. assert (J : In p Pall) by (apply Pall_In, PI). split; [exact J|]. rewrite X in F5a. cbn [obc] in F5a. apply F5a; [exact J|reflexivity|]. apply (INVD p J), PEN. }
  assert (B2 : (beam2 (ed m e) = None -> beam2 (ed M5 e') = beam2 (ed m0 e')) /\ (forall p, beam2 (ed m e) = Some p -> In p Pall /\ beam2 (ed M5 e') = Some (PA p))).
  { destruct F6 as [F5a F5b]. unfold hdrOf in F5a, F5b. cbn [bp2] in F5a, F5b. split.
    - intros X. rewrite X in F5b. cbn [obc] in F5b. rewrite (F5b DNZ), Q6. cbn [withSig beam2]. rewrite (i_ed _ _ _ _ _ _ _ _ _ _ I3), O6. reflexivity.
    - intros p X. destruct (w_b2 _ _ _ W p X) as [PI PEN]. assert (J : In p Pall) by (apply Pall_In, PI). split; [exact J|]. rewrite X in F5a. cbn [obc] in F5a. apply F5a; [exact J|reflexivity|]. apply (INVD p J), PEN. }
  assert (VIN : forall v L, In v Vall -> NoDup L -> (forall p, In p L <-> In p Pall /\ p_end (parts (gr m) p) = Some v /\ In (pbc m p) D) -> Permutation (v_in (verts (gr m) v)) L).
  { intros v L J N H. apply Vall_In in J. apply NoDup_Permutation; [apply (w_nd _ _ _ W v J)|exact N|]. intros p. rewrite H. split.
    - intros K. destruct (w_in _ _ _ W v p J K) as [A B]. assert (PI : In p Pall) by (apply Pall_In, B). split; [exact PI|]. split; [exact A|]. apply (INVD p PI). congruence.
    - intros (K1 & K2 & _). apply Pall_In in K1. apply (w_end _ _ _ W p v K1 K2). }
  split; [|split].
  - (* the event *)
    unfold over_event. split; [split|].
    + intros bc. destruct (get (e_verts (evts (gr m) e)) bc) as [v|] eqn:G.
      * destruct (w_v _ _ _ W bc v G) as (BC & _). assert (J : In v Vall) by (apply Vall_In; unfold inV; rewrite BC; exact G). rewrite (proj2 (EVM5 bc (VA v))) by (exists v; auto).
        destruct (F2 v J) as (L & EL & SO & N & HL). unfold same_vert. rewrite (VBC v J), EL, F3b, Q3, (I3v v J). cbn [v_ev v_in v_out vdOf vx vy vz vt vid vws].
        repeat (split; [reflexivity|]). split.
        -- apply PLI; [apply VIN; assumption|intros p K; apply HL in K; tauto|exact N|exact SO].
        -- apply PLI; [apply sort_perm|intros p K; apply sort_In in K; apply (OUT v p J K)|apply sort_nodup; apply Vall_In in J; apply (w_nd _ _ _ W v J)|apply sort_sorted].
      * destruct (get (e_verts (evts (gr M5) e')) bc) as [v'|] eqn:G'; [|exact I]. apply EVM5 in G'. destruct G' as (v & J & _ & ->). apply Vall_In in J. unfold inV in J. congruence.
    + intros bc. destruct (get (e_parts (evts (gr m) e)) bc) as [p|] eqn:G.
      * destruct (w_p _ _ _ W bc p G) as (BC & _). assert (J : In p Pall) by (apply Pall_In; unfold inP; rewrite BC; exact G). rewrite (proj2 (EPM5 bc (PA p))) by (exists p; auto).
        unfold same_part. rewrite (PBC p J), (FP p J). cbn [p_prod p_end]. split; [reflexivity|]. split; [rewrite F3a, Q2; apply (i_p _ _ _ _ _ _ _ _ _ _ I3 p J)|].
        split; apply VL; intros v E; [apply Vall_In; apply Pall_In in J; apply (w_prod _ _ _ W p v J E)|apply (ENDV p v J E)].
      * destruct (get (e_parts (evts (gr M5) e')) bc) as [v'|] eqn:G'; [|exact I]. apply EPM5 in G'. destruct G' as (v & J & _ & ->). apply Pall_In in J. unfold inP in J. congruence.
    + unfold same_numbers. split; [rewrite ED5; cbn; repeat split; auto|]. split; [|split; [|split; [|split; [|split]]]].
      * destruct NA as [[NA1 NA2]|[NA1 NA2]]; [rewrite NA1; rewrite ED5; cbn; exact NA2|]. destruct (weightsOf (ed m e)) as [|x l]; [congruence|]. rewrite ED5. cbn. exact NA2.
      * rewrite ED5. reflexivity.
      * rewrite ED5. reflexivity.
      * destruct (signal (ed m e)) as [v|] eqn:E; [|rewrite ED5; reflexivity]. rewrite ED5. cbn [withBeams withSig signal over option_map]. apply (VL (Some v)). intros v' Q. injection Q as <-. apply Vall_In. apply (w_sig _ _ _ W v E).
      * destruct B1 as [B1a B1b]. destruct (beam1 (ed m e)) as [p|] eqn:E; [|apply B1a; reflexivity]. destruct (B1b p eq_refl) as [J ->]. cbn [plink]. split; [apply PBC, J|]. apply EPM5. exists p. auto.
      * destruct B2 as [B1a B1b]. destruct (beam2 (ed m e)) as [p|] eqn:E; [|apply B1a; reflexivity]. destruct (B1b p eq_refl) as [J ->]. cbn [plink]. split; [apply PBC, J|]. apply EPM5. exists p. auto.
  - (* the rest *)
    assert (N1 := i_np _ _ _ _ _ _ _ _ _ _ I3). assert (N2 := i_nv _ _ _ _ _ _ _ _ _ _ I3). destruct (i_fr _ _ _ _ _ _ _ _ _ _ I3) as (R1 & R2 & R3).
    unfold frame. rewrite F3d, F3e, Q4, Q5, N1, N2. change (np m0) with (np m1). change (nv m0) with (nv m1). rewrite <- O4, <- O5. split; [lia|]. split; [lia|]. split; [|split].
    + intros a LT. destruct (R1 a LT) as [RA RB]. rewrite (F7a a LT), F3a, Q1, Q2, RA, RB, O1, O2. auto.
    + intros a LT. destruct (R2 a LT) as [RA RB]. rewrite (F7b a LT), F3b, Q1, Q3, RA, RB, O1, O3. auto.
    + intros a NE. rewrite F3c, Q1, (R3 a NE), O1. split; [unfold m1; cbn [setEvtMap gr setEvt evts]; rewrite upd_other by auto; reflexivity|].
      rewrite (F4a a NE), (Q7 a NE), (i_ed _ _ _ _ _ _ _ _ _ _ I3), (O7 a NE). reflexivity.
  - (* only what exists *)
    assert (N1 := i_np _ _ _ _ _ _ _ _ _ _ I3). assert (N2 := i_nv _ _ _ _ _ _ _ _ _ _ I3).
    assert (PLT : forall p, In p Pall -> (PA p < np M5)%nat) by (intros p J; rewrite F3d, Q4, N1; unfold PA, pa; apply idx_lt in J; lia).
    split; [rewrite F3c, Q1; apply (i_kv _ _ _ _ _ _ _ _ _ _ I3)|]. split.
    + intros bc v' G. apply EVM5 in G. destruct G as (v & J & -> & _). split; [rewrite F3e, Q5, N2; unfold VA, va; apply idx_lt in J; lia|].
      destruct (F2 v J) as (L & EL & _ & _ & HL). rewrite EL. cbn [v_in v_out]. intros p' [K|K]; apply in_map_iff in K; destruct K as (p & <- & K); apply PLT; [apply HL in K; tauto|]. apply sort_In in K. apply (OUT v p J K).
    + intros bc p' G. apply EPM5 in G. destruct G as (p & J & -> & _). apply PLT, J.
Qed.
End Event.
