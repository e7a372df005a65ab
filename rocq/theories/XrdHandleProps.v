(* C52: file handles of an xrootd server under concurrent requests. *)
From Coq Require Import ZArith List Lia Bool.
From Verif Require Import Bytes GoLib GoStrings XrdModel XrdCliModel XrdSrvModel XrdSrvProps XrdHandleModel.
Import ListNotations.
Local Open Scope Z_scope.

Definition thr (st : hst) (i : nat) : option (Z * pc) := nth_error (t_thr st) i.
(* the file an Open has made *)
Definition made (p : pc) : option nat := match p with POpened _ f | PMiss _ f | PHave _ f _ | RNone f | RHandle _ f => Some f | _ => None end.
Definition obj_of (p : pc) : option nat := match p with PHave _ _ o | PUseSess _ o | PCloseSess _ o | PEndSess o => Some o | _ => None end.
Definition file_of (p : pc) : option (list Z * nat) := match p with PUseFile h f | RUsed h f _ | RClosed h f _ => Some (h, f) | _ => None end.
Definition ending (p : pc) : bool := match p with PEnd | PEndSess _ | REnded => true | _ => false end.
Record inv (own : list Z) (st : hst) : Prop := {
  v_len : length own = length (t_objs st);
  v_sess : forall sid o, sget (t_sess st) sid = Some o -> (o < length (t_objs st))%nat /\ nth o own 0 = sid;
  v_obj : forall i sid p o, thr st i = Some (sid, p) -> obj_of p = Some o -> (o < length (t_objs st))%nat /\ nth o own 0 = sid;
  v_made : forall i sid p f, thr st i = Some (sid, p) -> made p = Some f -> (f < length (t_fds st))%nat /\ owner st f = sid;
  v_uniq : forall i j s1 s2 p1 p2 f, thr st i = Some (s1, p1) -> thr st j = Some (s2, p2) -> made p1 = Some f -> made p2 = Some f -> i = j;
  v_file : forall i sid p h f, thr st i = Some (sid, p) -> file_of p = Some (h, f) -> exists k, thr st k = Some (sid, RHandle h f);
  v_ent : forall o h f, In (h, f) (tab st o) -> exists k, thr st k = Some (nth o own 0, RHandle h f);
  v_open : forall k sid h f, thr st k = Some (sid, RHandle h f) -> is_open st f = true -> exists o, (o < length (t_objs st))%nat /\ nth o own 0 = sid /\ nget (tab st o) h = Some f;
  v_end : forall i sid p, thr st i = Some (sid, p) -> ending p = true -> In sid (t_ended st);
  v_end1 : forall i j sid p q, thr st i = Some (sid, p) -> thr st j = Some (sid, q) -> ending p = true -> ending q = true -> i = j;
  v_one : forall sid o, (o < length (t_objs st))%nat -> nth o own 0 = sid -> (~ In sid (t_ended st) \/ exists i, thr st i = Some (sid, PEnd)) -> sget (t_sess st) sid = Some o }.
Lemma ne_seti {A} (l : list A) i x j : (i < length l)%nat -> nth_error (seti l i x) j = if Nat.eqb i j then Some x else nth_error l j.
Proof. revert i j. induction l as [|a l IH]; intros [|i] [|j] H; cbn [seti nth_error length Nat.eqb] in *; try lia; auto. apply IH. lia. Qed.
Lemma ne_lt {A} (l : list A) i x : nth_error l i = Some x -> (i < length l)%nat.
Proof. intros E. apply nth_error_Some. congruence. Qed.
Lemma thr_set st i x j y : (i < length (t_thr st))%nat -> nth_error (seti (t_thr st) i x) j = Some y -> (j = i /\ y = x) \/ (j <> i /\ thr st j = Some y).
Proof. intros L. rewrite ne_seti by exact L. destruct (Nat.eqb_spec i j) as [->|N]; intros E; [left; split; congruence|right; split; [lia|exact E]]. Qed.
Definition running (p : pc) : Prop := match p with RHandle _ _ | RNone _ | RFail | RUsed _ _ _ | RClosed _ _ _ | RInvalid | REnded => False | _ => True end.
Lemma keep st i x k s h f sid p : thr st i = Some (sid, p) -> running p -> thr st k = Some (s, RHandle h f) -> nth_error (seti (t_thr st) i x) k = Some (s, RHandle h f).
Proof. intros E R H. rewrite ne_seti by (eapply ne_lt; exact E). destruct (Nat.eqb_spec i k) as [->|]; [|exact H]. rewrite E in H. injection H as -> ->. destruct R. Qed.
Lemma inv_local own st i sid p p' : inv own st -> thr st i = Some (sid, p) -> running p ->
  (forall f, made p' = Some f -> (f < length (t_fds st))%nat /\ owner st f = sid /\ forall j s q, thr st j = Some (s, q) -> made q = Some f -> j = i) ->
  (forall o, obj_of p' = Some o -> (o < length (t_objs st))%nat /\ nth o own 0 = sid) ->
  (forall h f, file_of p' = Some (h, f) -> exists k, thr st k = Some (sid, RHandle h f)) ->
  (ending p' = true -> ending p = true) -> (forall h f, p' <> RHandle h f) -> p' <> PEnd -> inv own (with_thr st (seti (t_thr st) i (sid, p'))).
Proof.
  intros V E R M O F En NR NE. pose proof (ne_lt _ _ _ E) as L. destruct V as [V1 V2 V3 V4 V5 V6 V7 V9 V10 V11 V12].
  constructor; unfold thr; cbn [with_thr t_sess t_objs t_fds t_ended t_thr] in *; auto.
  - intros j s q o X Y. apply thr_set in X; [|exact L]. destruct X as [(-> & X)|(N & X)]; [injection X as -> ->; auto|eauto].
  - intros j s q f X Y. apply thr_set in X; [|exact L]. destruct X as [(-> & X)|(N & X)]; [injection X as -> ->; destruct (M _ Y) as (A & B & _); auto|eauto].
  - intros j k s1 s2 q1 q2 f X1 X2 Y1 Y2. apply thr_set in X1; [|exact L]. apply thr_set in X2; [|exact L]. destruct X1 as [(-> & X1)|(N1 & X1)], X2 as [(-> & X2)|(N2 & X2)]; auto.
    + injection X1 as -> ->. destruct (M _ Y1) as (_ & _ & C). symmetry. eapply C; eauto.
    + injection X2 as -> ->. destruct (M _ Y2) as (_ & _ & C). eapply C; eauto.
    + eauto.
  - intros j s q h f X Y. apply thr_set in X; [|exact L]. assert (Z1 : exists k, thr st k = Some (s, RHandle h f)).
    { destruct X as [(-> & X)|(N & X)]; [injection X as -> ->; auto|eauto]. }
    destruct Z1 as (k & Z1). exists k. eapply keep; eauto.
  - intros o h f X. destruct (V7 _ _ _ X) as (k & Z1). exists k. eapply keep; eauto.
  - intros k s h f X Y. apply thr_set in X; [|exact L]. destruct X as [(-> & X)|(N & X)]; [injection X as Xs Xp; exfalso; eapply NR; symmetry; exact Xp|eauto].
  - intros j s q X Y. apply thr_set in X; [|exact L]. destruct X as [(-> & X)|(N & X)]; [injection X as -> ->; eapply V10; eauto|eauto].
  - intros j k s q1 q2 X1 X2 Y1 Y2. apply thr_set in X1; [|exact L]. apply thr_set in X2; [|exact L]. destruct X1 as [(-> & X1)|(N1 & X1)], X2 as [(-> & X2)|(N2 & X2)]; auto.
    + injection X1 as -> ->. eapply (V11 i k); eauto.
    + injection X2 as -> ->. eapply (V11 j i); eauto.
    + eauto.
  - intros s o X Y [Z1|(j & Z1)]; [eauto|]. apply thr_set in Z1; [|exact L]. destruct Z1 as [(-> & Z1)|(N & Z1)]; [congruence|eauto].
Qed.
(* files opened or closed: the files keep their owners, none is opened again *)
Lemma inv_fds own st l : inv own st -> (length (t_fds st) <= length l)%nat -> (forall f, (f < length (t_fds st))%nat -> fst (nth f l (0, false)) = owner st f /\ (snd (nth f l (0, false)) = true -> is_open st f = true)) -> inv own (with_fds st l).
Proof.
  intros [V1 V2 V3 V4 V5 V6 V7 V9 V10 V11 V12] L H. constructor; auto; unfold thr, owner, is_open, tab in *; cbn [with_fds t_sess t_objs t_fds t_ended t_thr] in *.
  - intros i sid p f X Y. destruct (V4 _ _ _ _ X Y) as (A & B). split; [lia|]. rewrite (proj1 (H f A)). exact B.
  - intros k sid h f X Y. eapply V9; [exact X|]. apply H; [|exact Y]. apply (V4 k sid (RHandle h f) f X eq_refl).
Qed.
Lemma close1_nth fds f g : fst (nth g (close1 fds f) (0, false)) = fst (nth g fds (0, false)) /\ snd (nth g (close1 fds f) (0, false)) = snd (nth g fds (0, false)) && negb (Nat.eqb f g).
Proof.
  unfold close1. destruct (Nat.lt_ge_cases f (length fds)) as [L|L].
  - rewrite nth_seti by exact L. destruct (Nat.eqb_spec f g) as [->|]; cbn [fst snd negb]; [rewrite andb_false_r|rewrite andb_true_r]; auto.
  - assert (Q : seti fds f (fst (nth f fds (0, false)), false) = fds). { generalize (fst (nth f fds (0, false)), false). revert f L. clear. induction fds as [|a l IH]; intros [|f] L x; cbn [seti length] in *; try lia; auto. rewrite IH by lia. reflexivity. }
    rewrite Q. split; [reflexivity|]. destruct (Nat.eqb_spec f g) as [->|]; [|now rewrite andb_true_r]. rewrite nth_overflow by exact L. reflexivity.
Qed.
Lemma close_many (l : list (list Z * nat)) : forall fds g, length (fold_left (fun fds x => close1 fds (snd x)) l fds) = length fds /\
  fst (nth g (fold_left (fun fds x => close1 fds (snd x)) l fds) (0, false)) = fst (nth g fds (0, false)) /\
  (snd (nth g (fold_left (fun fds x => close1 fds (snd x)) l fds) (0, false)) = true <-> snd (nth g fds (0, false)) = true /\ ~ In g (map snd l)).
Proof.
  induction l as [|[h f] l IH]; intros fds g; cbn [fold_left map snd]; [cbn [In]; tauto|]. destruct (IH (close1 fds f) g) as (A & B & C). destruct (close1_nth fds f g) as (D & E). rewrite A, B, D. unfold close1 at 1. rewrite length_seti.
  split; [reflexivity|split; [reflexivity|]]. rewrite C, E. cbn [In]. rewrite andb_true_iff, negb_true_iff, Nat.eqb_neq. intuition congruence.
Qed.
Lemma inv_new own st sid : inv own st -> sget (t_sess st) sid = None ->
  inv (own ++ [sid]) {| t_sess := (sid, length (t_objs st)) :: t_sess st; t_objs := t_objs st ++ [[]]; t_fds := t_fds st; t_ended := t_ended st; t_thr := t_thr st |}.
Proof.
  intros [V1 V2 V3 V4 V5 V6 V7 V9 V10 V11 V12] N. pose proof (app_length (t_objs st) [[]]) as L. cbn [length] in L.
  assert (T : forall o, nth o (t_objs st ++ [[]]) [] = tab st o).
  { intros o. unfold tab. destruct (Nat.lt_ge_cases o (length (t_objs st))); [apply app_nth1; assumption|]. rewrite app_nth2, (nth_overflow (t_objs st)) by lia. destruct (o - length (t_objs st))%nat as [|[|x]]; reflexivity. }
  assert (W : forall o, (o < length (t_objs st))%nat -> nth o (own ++ [sid]) 0 = nth o own 0) by (intros o X; apply app_nth1; lia).
  constructor; unfold thr, tab in *; cbn [t_sess t_objs t_fds t_ended t_thr] in *; auto.
  - rewrite !app_length. cbn [length]. lia.
  - intros s o. cbn [sget]. destruct (Z.eqb_spec sid s) as [->|]; intros E.
    + injection E as <-. split; [lia|]. rewrite app_nth2, V1, Nat.sub_diag by lia. reflexivity.
    + destruct (V2 _ _ E) as (A & B). rewrite W by exact A. split; [lia|exact B].
  - intros i s p o X Y. destruct (V3 _ _ _ _ X Y) as (A & B). rewrite W by exact A. split; [lia|exact B].
  - intros o h f. rewrite T. intros X. destruct (V7 _ _ _ X) as (k & Z1). exists k. rewrite W; [exact Z1|]. destruct (Nat.lt_ge_cases o (length (t_objs st))); [assumption|]. unfold tab in X. rewrite nth_overflow in X by assumption. destruct X.
  - intros k s h f X Y. destruct (V9 _ _ _ _ X Y) as (o & A & B & C). exists o. rewrite W, T by exact A. repeat split; [lia|exact B|exact C].
  - intros s o X Y H. cbn [sget]. destruct (Nat.eq_dec o (length (t_objs st))) as [->|No].
    + rewrite app_nth2, V1, Nat.sub_diag in Y by lia. cbn [nth] in Y. subst s. rewrite Z.eqb_refl. reflexivity.
    + rewrite W in Y by lia. specialize (V12 s o ltac:(lia) Y H). destruct (Z.eqb_spec sid s) as [->|]; [congruence|exact V12].
Qed.
Lemma tab_with st o l o' : (o < length (t_objs st))%nat -> tab (with_obj st o l) o' = if Nat.eqb o o' then l else tab st o'.
Proof. intros L. unfold tab, with_obj. cbn [t_objs]. apply nth_seti, L. Qed.
Lemma inv_del own st o h f : inv own st -> (o < length (t_objs st))%nat -> nget (tab st o) h = Some f -> inv own (with_fds (with_obj st o (ndel (tab st o) h)) (close1 (t_fds st) f)).
Proof.
  intros [V1 V2 V3 V4 V5 V6 V7 V9 V10 V11 V12] L E.
  assert (T : forall o' h' f', In (h', f') (tab (with_fds (with_obj st o (ndel (tab st o) h)) (close1 (t_fds st) f)) o') -> In (h', f') (tab st o')).
  { intros o' h' f'. change (tab (with_fds ?s _)) with (tab s). rewrite tab_with by exact L. destruct (Nat.eqb_spec o o') as [<-|]; [|auto]. unfold ndel. rewrite filter_In. tauto. }
  constructor; unfold thr in *; cbn [with_fds with_obj t_sess t_objs t_fds t_ended t_thr] in *; rewrite ?length_seti; auto.
  - intros i sid p g X Y. destruct (V4 _ _ _ _ X Y) as (A & B). split; [unfold close1; rewrite length_seti; exact A|]. unfold owner in *. cbn [with_fds t_fds]. rewrite (proj1 (close1_nth _ _ _)). exact B.
  - intros k sid h' g X Y. unfold is_open in Y. cbn [with_fds t_fds] in Y. rewrite (proj2 (close1_nth _ _ _)) in Y. apply andb_true_iff in Y. destruct Y as (Y & Nf). apply negb_true_iff, Nat.eqb_neq in Nf.
    destruct (V9 _ _ _ _ X Y) as (o' & A & B & C). exists o'. repeat split; auto. change (tab (with_fds ?s _)) with (tab s). rewrite tab_with by exact L. destruct (Nat.eqb_spec o o') as [<-|]; [|exact C].
    rewrite nget_ndel. destruct (str_eqb_spec h h') as [<-|]; [congruence|exact C].
Qed.
Lemma inv_detach own st sid : inv own st -> In sid (t_ended st) -> (forall i, thr st i <> Some (sid, PEnd)) ->
  inv own {| t_sess := sdel (t_sess st) sid; t_objs := t_objs st; t_fds := t_fds st; t_ended := t_ended st; t_thr := t_thr st |}.
Proof.
  intros [V1 V2 V3 V4 V5 V6 V7 V9 V10 V11 V12] I N. constructor; unfold thr, tab in *; cbn [t_sess t_objs t_fds t_ended t_thr] in *; auto.
  - intros s o. rewrite sget_sdel. destruct (sid =? s); [discriminate|]. apply V2.
  - intros s o X Y H. rewrite sget_sdel. destruct (Z.eqb_spec sid s) as [->|]; [|eauto]. destruct H as [H|(i & H)]; [contradiction|]. exfalso. eapply N; eauto.
Qed.
Lemma inv_insert own st i sid tries f o h : inv own st -> thr st i = Some (sid, PHave tries f o) -> nget (tab st o) h = None ->
  inv own (with_thr (with_obj st o ((h, f) :: tab st o)) (seti (t_thr st) i (sid, RHandle h f))).
Proof.
  intros V E N. pose proof (ne_lt _ _ _ E) as L. pose proof V as [V1 V2 V3 V4 V5 V6 V7 V9 V10 V11 V12]. destruct (V3 _ _ _ _ E eq_refl) as (Lo & Ow). destruct (V4 _ _ _ _ E eq_refl) as (Lf & Of).
  assert (T : forall o', tab (with_thr (with_obj st o ((h, f) :: tab st o)) (seti (t_thr st) i (sid, RHandle h f))) o' = if Nat.eqb o o' then (h, f) :: tab st o else tab st o').
  { intros o'. change (tab (with_thr ?s _)) with (tab s). apply tab_with, Lo. }
  assert (K : forall k s h' f', thr st k = Some (s, RHandle h' f') -> nth_error (seti (t_thr st) i (sid, RHandle h f)) k = Some (s, RHandle h' f')) by (intros; eapply keep; eauto; exact I).
  constructor; unfold thr in *; cbn [with_thr with_obj t_sess t_objs t_fds t_ended t_thr] in *; rewrite ?length_seti; auto.
  - intros j s q o' X Y. apply thr_set in X; [|exact L]. destruct X as [(-> & X)|(Nj & X)]; [injection X as -> ->; discriminate|eauto].
  - intros j s q g X Y. apply thr_set in X; [|exact L]. destruct X as [(-> & X)|(Nj & X)]; [injection X as -> ->; injection Y as <-; auto|eapply V4; eauto].
  - intros j k s1 s2 q1 q2 g X1 X2 Y1 Y2. apply thr_set in X1; [|exact L]. apply thr_set in X2; [|exact L]. destruct X1 as [(-> & X1)|(N1 & X1)], X2 as [(-> & X2)|(N2 & X2)]; auto.
    + injection X1 as -> ->. injection Y1 as <-. eapply (V5 i k); eauto; reflexivity.
    + injection X2 as -> ->. injection Y2 as <-. eapply (V5 j i); eauto; reflexivity.
    + eauto.
  - intros j s q h' f' X Y. apply thr_set in X; [|exact L]. destruct X as [(-> & X)|(Nj & X)]; [injection X as -> ->; discriminate|]. destruct (V6 _ _ _ _ _ X Y) as (k & Z1). exists k. auto.
  - intros o' h' f'. rewrite T. destruct (Nat.eqb_spec o o') as [<-|].
    + cbn [In]. intros [X|X].
      * injection X as <- <-. exists i. rewrite ne_seti, Nat.eqb_refl by exact L. now rewrite Ow.
      * destruct (V7 _ _ _ X) as (k & Z1). exists k. auto.
    + intros X. destruct (V7 _ _ _ X) as (k & Z1). exists k. auto.
  - intros k s h' g X Y. apply thr_set in X; [|exact L]. destruct X as [(-> & X)|(Nj & X)].
    + injection X as -> -> ->. exists o. rewrite T, Nat.eqb_refl. cbn [nget]. destruct (str_eqb_spec h h); [auto|congruence].
    + destruct (V9 _ _ _ _ X Y) as (o' & A & B & C). exists o'. repeat split; auto. rewrite T. destruct (Nat.eqb_spec o o') as [<-|]; [|exact C]. cbn [nget]. destruct (str_eqb_spec h h') as [<-|]; [congruence|exact C].
  - intros j s q X Y. apply thr_set in X; [|exact L]. destruct X as [(-> & X)|(Nj & X)]; [injection X as -> ->; discriminate|eauto].
  - intros j k s q1 q2 X1 X2 Y1 Y2. apply thr_set in X1; [|exact L]. apply thr_set in X2; [|exact L]. destruct X1 as [(-> & X1)|(N1 & X1)], X2 as [(-> & X2)|(N2 & X2)]; auto; try (injection X1 as -> ->; discriminate); try (injection X2 as -> ->; discriminate). eauto.
  - intros s o' X Y [Z1|(j & Z1)]; [eauto|]. apply thr_set in Z1; [|exact L]. destruct Z1 as [(-> & Z1)|(Nj & Z1)]; [discriminate|eauto].
Qed.
Lemma thr_app (l : list (Z * pc)) x i y : nth_error (l ++ [x]) i = Some y -> nth_error l i = Some y \/ (i = length l /\ y = x).
Proof.
  intros E. destruct (Nat.lt_ge_cases i (length l)); [left; rewrite nth_error_app1 in E; auto|]. rewrite nth_error_app2 in E by assumption. destruct (i - length l)%nat as [|n] eqn:D; cbn in E; [right; split; [lia|congruence]|destruct n; discriminate].
Qed.
Lemma app_keep (l : list (Z * pc)) x i y : nth_error l i = Some y -> nth_error (l ++ [x]) i = Some y.
Proof. intros E. rewrite nth_error_app1; [exact E|]. eapply ne_lt; eauto. Qed.
Lemma inv_spawn own st sid p : inv own st -> start p = true -> inv own (with_thr st (t_thr st ++ [(sid, p)])).
Proof.
  intros [V1 V2 V3 V4 V5 V6 V7 V9 V10 V11 V12] S1. assert (P : made p = None /\ obj_of p = None /\ file_of p = None /\ ending p = false /\ (forall h f, p <> RHandle h f) /\ p <> PEnd) by (destruct p; try discriminate; repeat split; discriminate).
  destruct P as (P1 & P2 & P3 & P4 & P5 & P6).
  constructor; unfold thr, tab in *; cbn [with_thr t_sess t_objs t_fds t_ended t_thr] in *; auto.
  - intros i s q o X Y. apply thr_app in X. destruct X as [X|(-> & X)]; [eauto|injection X as -> ->; congruence].
  - intros i s q f X Y. apply thr_app in X. destruct X as [X|(-> & X)]; [eauto|injection X as -> ->; congruence].
  - intros i j s1 s2 q1 q2 f X1 X2 Y1 Y2. apply thr_app in X1, X2. destruct X1 as [X1|(-> & X1)]; [|injection X1 as -> ->; congruence]. destruct X2 as [X2|(-> & X2)]; [eauto|injection X2 as -> ->; congruence].
  - intros i s q h f X Y. apply thr_app in X. destruct X as [X|(-> & X)]; [|injection X as -> ->; congruence]. destruct (V6 _ _ _ _ _ X Y) as (k & Z1). exists k. now apply app_keep.
  - intros o h f X. destruct (V7 _ _ _ X) as (k & Z1). exists k. now apply app_keep.
  - intros k s h f X Y. apply thr_app in X. destruct X as [X|(-> & X)]; [eauto|injection X as -> X; exfalso; eapply P5; symmetry; exact X].
  - intros i s q X Y. apply thr_app in X. destruct X as [X|(-> & X)]; [eauto|injection X as -> ->; congruence].
  - intros i j s q1 q2 X1 X2 Y1 Y2. apply thr_app in X1, X2. destruct X1 as [X1|(-> & X1)]; [|injection X1 as -> ->; congruence]. destruct X2 as [X2|(-> & X2)]; [eauto|injection X2 as -> ->; congruence].
  - intros s o X Y [Z1|(j & Z1)]; [eauto|]. apply thr_app in Z1. destruct Z1 as [Z1|(-> & Z1)]; [eauto|injection Z1 as -> Z1; congruence].
Qed.
Lemma inv_close own st sid : inv own st -> ~ In sid (t_ended st) ->
  inv own {| t_sess := t_sess st; t_objs := t_objs st; t_fds := t_fds st; t_ended := sid :: t_ended st; t_thr := t_thr st ++ [(sid, PEnd)] |}.
Proof.
  intros [V1 V2 V3 V4 V5 V6 V7 V9 V10 V11 V12] N.
  constructor; unfold thr, tab in *; cbn [t_sess t_objs t_fds t_ended t_thr] in *; auto.
  - intros i s q o X Y. apply thr_app in X. destruct X as [X|(-> & X)]; [eauto|injection X as -> ->; discriminate].
  - intros i s q f X Y. apply thr_app in X. destruct X as [X|(-> & X)]; [eapply V4; eauto|injection X as -> ->; discriminate].
  - intros i j s1 s2 q1 q2 f X1 X2 Y1 Y2. apply thr_app in X1, X2. destruct X1 as [X1|(-> & X1)]; [|injection X1 as -> ->; discriminate]. destruct X2 as [X2|(-> & X2)]; [eauto|injection X2 as -> ->; discriminate].
  - intros i s q h f X Y. apply thr_app in X. destruct X as [X|(-> & X)]; [|injection X as -> ->; discriminate]. destruct (V6 _ _ _ _ _ X Y) as (k & Z1). exists k. now apply app_keep.
  - intros o h f X. destruct (V7 _ _ _ X) as (k & Z1). exists k. now apply app_keep.
  - intros k s h f X Y. apply thr_app in X. destruct X as [X|(-> & X)]; [eauto|discriminate].
  - intros i s q X Y. apply thr_app in X. destruct X as [X|(-> & X)]; [right; eauto|injection X as -> ->; left; reflexivity].
  - intros i j s q1 q2 X1 X2 Y1 Y2. apply thr_app in X1, X2. destruct X1 as [X1|(-> & X1)], X2 as [X2|(-> & X2)]; auto; [eauto| |].
    + injection X2 as -> ->. exfalso. eauto.
    + injection X1 as -> ->. exfalso. eauto.
  - intros s o X Y H. destruct (Z.eq_dec s sid) as [->|Ns].
    + apply V12; auto.
    + apply V12; auto. destruct H as [H|(j & H)]; [left; intros I; apply H; now right|]. apply thr_app in H. destruct H as [H|(-> & H)]; [eauto|injection H as ->; congruence].
Qed.
Lemma pick_none tries u h : pick tries u = Some h -> nget u h = None.
Proof. induction tries as [|a l IH]; cbn [pick]; [discriminate|]. destruct (nget u a) eqn:E; [exact IH|]. intros X. injection X as <-. exact E. Qed.
Lemma inv_step own st st' : inv own st -> step st st' -> exists own', inv own' st'.
Proof.
  intros V S1. destruct S1 as [st sid p N P|st sid N|st i sid p st' p' E A].
  - exists own. now apply inv_spawn.
  - exists own. now apply inv_close.
  - pose proof V as [V1 V2 V3 V4 V5 V6 V7 V9 V10 V11 V12]. fold (thr st i) in E.
    assert (Same : forall f, made p = Some f -> (f < length (t_fds st))%nat /\ owner st f = sid /\ (forall j s q, thr st j = Some (s, q) -> made q = Some f -> j = i)).
    { intros f M. destruct (V4 _ _ _ _ E M). repeat split; auto. intros j s q X Y. eapply V5; eauto. }
    destruct p; cbn [act] in A; try discriminate.
    + destruct ok; injection A as <- <-.
      * exists own. set (st1 := with_fds st (t_fds st ++ [(sid, true)])). assert (W : inv own st1).
        { apply inv_fds; [exact V|rewrite app_length; lia|]. intros f L. rewrite app_nth1 by exact L. auto. }
        change (t_thr st) with (t_thr st1). eapply inv_local; eauto; try discriminate; try exact I; cbn [made obj_of file_of]; try discriminate.
        intros f X. injection X as <-. unfold st1, owner. cbn [with_fds t_fds]. rewrite app_length, app_nth2, Nat.sub_diag by lia. cbn [length]. split; [lia|]. split; [reflexivity|].
        intros j s q X Y. destruct (V4 _ _ _ _ X Y). lia.
      * exists own. eapply inv_local; eauto; try discriminate; exact I.
    + exists own. destruct (sget (t_sess st) sid) as [o|] eqn:G; injection A as <- <-; (eapply inv_local; [exact V|exact E|exact I|exact Same| | |discriminate|discriminate|discriminate]); cbn [obj_of file_of]; try discriminate.
      intros o' X. injection X as <-. eauto.
    + destruct (sget (t_sess st) sid) as [o|] eqn:G; injection A as <- <-.
      * exists own. (eapply inv_local; [exact V|exact E|exact I|exact Same| | |discriminate|discriminate|discriminate]); cbn [obj_of file_of]; try discriminate. intros o' X. injection X as <-. eauto.
      * exists (own ++ [sid]). pose proof (inv_new own st sid V G) as W. match type of W with inv _ ?s => set (st1 := s) in * end. change (t_thr st) with (t_thr st1).
        eapply inv_local; [exact W|exact E|exact I|exact Same| | |discriminate|discriminate|discriminate]; cbn [obj_of file_of]; try discriminate. intros o' X. injection X as <-.
        unfold st1. cbn [t_objs]. rewrite app_length, app_nth2, V1, Nat.sub_diag by lia. cbn [length nth]. split; [lia|reflexivity].
    + exists own. destruct (pick tries (tab st o)) as [h|] eqn:G; injection A as <- <-.
      * apply pick_none in G. exact (inv_insert own st i sid tries f o h V E G).
      * eapply inv_local; [exact V|exact E|exact I|exact Same| | |discriminate|discriminate|discriminate]; discriminate.
    + exists own. destruct (sget (t_sess st) sid) as [o|] eqn:G; injection A as <- <-; (eapply inv_local; [exact V|exact E|exact I| | | |discriminate|discriminate|discriminate]); cbn [made obj_of file_of]; try discriminate.
      intros o' X. injection X as <-. eauto.
    + exists own. destruct (nget (tab st o) h) as [f|] eqn:G; injection A as <- <-; (eapply inv_local; [exact V|exact E|exact I| | | |discriminate|discriminate|discriminate]); cbn [made obj_of file_of]; try discriminate.
      intros h' f' X. injection X as <- <-. destruct (V7 _ _ _ (nget_In _ _ _ G)) as (k & Z1). destruct (V3 _ _ _ _ E eq_refl) as (_ & Ow). rewrite Ow in Z1. eauto.
    + exists own. injection A as <- <-. (eapply inv_local; [exact V|exact E|exact I| | | |discriminate|discriminate|discriminate]); cbn [made obj_of file_of]; try discriminate. intros h' f' X. injection X as <- <-. eapply V6; eauto; reflexivity.
    + exists own. destruct (sget (t_sess st) sid) as [o|] eqn:G; injection A as <- <-; (eapply inv_local; [exact V|exact E|exact I| | | |discriminate|discriminate|discriminate]); cbn [made obj_of file_of]; try discriminate.
      intros o' X. injection X as <-. eauto.
    + exists own. destruct (V3 _ _ _ _ E eq_refl) as (Lo & Ow). destruct (nget (tab st o) h) as [f|] eqn:G; injection A as <- <-.
      * pose proof (inv_del own st o h f V Lo G) as W. match type of W with inv _ ?s => set (st1 := s) in * end. change (t_thr st) with (t_thr st1).
        eapply inv_local; [exact W|exact E|exact I| | | |discriminate|discriminate|discriminate]; cbn [made obj_of file_of]; try discriminate. intros h' f' X. injection X as <- <-.
        destruct (V7 _ _ _ (nget_In _ _ _ G)) as (k & Z1). rewrite Ow in Z1. exists k. exact Z1.
      * eapply inv_local; [exact V|exact E|exact I| | | |discriminate|discriminate|discriminate]; discriminate.
    + exists own. destruct (sget (t_sess st) sid) as [o|] eqn:G; injection A as <- <-.
      * assert (W : inv own (with_thr st (seti (t_thr st) i (sid, PEndSess o)))).
        { eapply inv_local; [exact V|exact E|exact I| | | |reflexivity|discriminate|discriminate]; cbn [made obj_of file_of]; try discriminate. intros o' X. injection X as <-. eauto. }
        apply (inv_detach own _ sid) in W; [exact W|eapply V10; eauto; reflexivity|]. intros j X. unfold thr in X. cbn [with_thr t_thr] in X. apply thr_set in X; [|eapply ne_lt; exact E].
        destruct X as [(-> & X)|(Nj & X)]; [discriminate|]. apply Nj. eapply V11; eauto; reflexivity.
      * eapply inv_local; [exact V|exact E|exact I| | | |reflexivity|discriminate|discriminate]; discriminate.
    + exists own. injection A as <- <-. set (st1 := with_fds st _). assert (W : inv own st1).
      { apply inv_fds; [exact V|rewrite (proj1 (close_many _ _ 0%nat)); lia|]. intros f L. destruct (close_many (tab st o) (t_fds st) f) as (_ & B & C). split; [exact B|]. intros X. apply C in X. tauto. }
      change (t_thr st) with (t_thr st1). eapply inv_local; [exact W|exact E|exact I| | | |reflexivity|discriminate|discriminate]; discriminate.
Qed.
Lemma inv_steps own st st' : inv own st -> steps st st' -> exists own', inv own' st'.
Proof. intros V S1. induction S1 as [|st1 st2 st3 S1 IH S2]; [eauto|]. destruct (IH V) as (o & W). eapply inv_step; eauto. Qed.
Lemma inv_init : inv [] init.
Proof.
  assert (N : forall i (x : Z * pc), nth_error [] i <> Some x) by (intros [|i] x; discriminate).
  constructor; unfold thr, init; cbn [t_sess t_objs t_fds t_ended t_thr length sget]; auto; intros; try discriminate; try lia; try (exfalso; eapply N; eassumption).
  unfold tab in H. cbn [t_objs] in H. rewrite nth_overflow in H by (cbn; lia). destruct H.
Qed.
Lemma inv_reach st : reach st -> exists own, inv own st.
Proof. intros R. eapply inv_steps; [exact inv_init|exact R]. Qed.

(* what closes files *)
Record inv2 (st : hst) : Prop := {
  w_file : forall f, (f < length (t_fds st))%nat -> exists k p, thr st k = Some (owner st f, p) /\ made p = Some f;
  w_shut : forall f, (f < length (t_fds st))%nat -> is_open st f = false -> (exists j h ok, thr st j = Some (owner st f, RClosed h f ok)) \/ (exists j, thr st j = Some (owner st f, REnded));
  w_closed : forall j sid h f ok, thr st j = Some (sid, RClosed h f ok) -> is_open st f = false;
  w_once : forall i j s1 s2 h1 h2 f, thr st i = Some (s1, RClosed h1 f true) -> thr st j = Some (s2, RClosed h2 f true) -> i = j }.
(* one step: what becomes of the files and of the other threads *)
Lemma act_fds st sid p st' p' : act st sid p = Some (st', p') -> t_thr st' = t_thr st /\ t_ended st' = t_ended st /\
  (length (t_fds st) <= length (t_fds st'))%nat /\ forall f, (f < length (t_fds st))%nat -> owner st' f = owner st f /\ (is_open st' f = true -> is_open st f = true).
Proof.
  destruct p; cbn [act]; try discriminate; intros A;
    repeat match type of A with context[match ?x with _ => _ end] => destruct x eqn:? end;
    injection A as <- <-; cbn [with_fds with_obj t_thr t_ended t_fds]; unfold owner, is_open; cbn [with_fds with_obj t_fds]; (split; [reflexivity|]); (split; [reflexivity|]); try (split; [lia|]; intros; split; auto; fail).
  - rewrite app_length. split; [lia|]. intros f0 L. rewrite app_nth1 by exact L. auto.
  - split; [unfold close1; rewrite length_seti; lia|]. intros g L. match goal with |- context[close1 _ ?f] => destruct (close1_nth (t_fds st) f g) as (A & B) end. rewrite A, B. split; [reflexivity|]. intros X. apply andb_true_iff in X. tauto.
  - split; [rewrite (proj1 (close_many _ _ 0%nat)); lia|]. intros g L. destruct (close_many (tab st o) (t_fds st) g) as (_ & A & B). split; [exact A|]. intros X. apply B in X. tauto.
Qed.
Definition settled (p : pc) : Prop := ~ running p.
Lemma settled_act st sid p x : act st sid p = Some x -> running p.
Proof. destruct p; cbn; intros; try exact I; discriminate. Qed.
Lemma step_thr st st' j x : step st st' -> thr st j = Some x -> settled (snd x) -> thr st' j = Some x.
Proof.
  intros S1 E N. destruct S1 as [st sid p ? ?|st sid ?|st i sid p st' p' E1 A]; unfold thr in *; cbn [with_thr t_thr].
  - now apply app_keep.
  - now apply app_keep.
  - rewrite ne_seti by (eapply ne_lt; exact E1). destruct (Nat.eqb_spec i j) as [->|]; [|exact E]. rewrite E1 in E. injection E as <-. destruct N. eapply settled_act; eauto.
Qed.
Lemma step_fds st st' f : step st st' -> (f < length (t_fds st))%nat -> (f < length (t_fds st'))%nat /\ owner st' f = owner st f /\ (is_open st' f = true -> is_open st f = true).
Proof.
  intros S1 L. destruct S1 as [st sid p ? ?|st sid ?|st i sid p st' p' E1 A]; [auto|auto|]. destruct (act_fds _ _ _ _ _ A) as (_ & _ & B & C). cbn [with_thr t_fds]. split; [lia|]. exact (C f L).
Qed.
Lemma made_act st sid p st' p' f : act st sid p = Some (st', p') -> made p = Some f -> made p' = Some f.
Proof.
  destruct p; cbn [act made]; try discriminate; intros A M; injection M as ->; repeat match type of A with context[match ?x with _ => _ end] => destruct x eqn:? end; injection A as <- <-; reflexivity.
Qed.
Lemma step_made st st' k s p f : step st st' -> thr st k = Some (s, p) -> made p = Some f -> exists p', thr st' k = Some (s, p') /\ made p' = Some f.
Proof.
  intros S1 E M. destruct S1 as [st sid q ? ?|st sid ?|st i sid q st' q' E1 A]; unfold thr in *; cbn [with_thr t_thr].
  - exists p. split; [now apply app_keep|exact M].
  - exists p. split; [now apply app_keep|exact M].
  - rewrite ne_seti by (eapply ne_lt; exact E1). destruct (Nat.eqb_spec i k) as [->|]; [|eauto]. rewrite E1 in E. injection E as -> ->. exists q'. split; [reflexivity|]. eapply made_act; eauto.
Qed.
Lemma inv2_step own st st' : inv own st -> inv2 st -> step st st' -> inv2 st'.
Proof.
  intros V W S1. pose proof S1 as S0. pose proof W as [W1 W2 W3 W4].
  assert (Fs : forall f, (f < length (t_fds st))%nat -> (f < length (t_fds st'))%nat /\ owner st' f = owner st f /\ (is_open st' f = true -> is_open st f = true)) by (intros f; now apply step_fds).
  assert (In_rc : forall j sid h f ok, thr st j = Some (sid, RClosed h f ok) -> (f < length (t_fds st))%nat).
  { intros j sid h f ok X. destruct (v_file _ _ V _ _ _ _ _ X eq_refl) as (k & Y). apply (v_made _ _ V _ _ _ _ Y eq_refl). }
  assert (Old : forall f, (f < length (t_fds st))%nat -> is_open st f = false -> (exists j h ok, thr st' j = Some (owner st' f, RClosed h f ok)) \/ (exists j, thr st' j = Some (owner st' f, REnded))).
  { intros f L X. destruct (Fs f L) as (_ & -> & _). destruct (W2 f L X) as [(j & h & ok & Y)|(j & Y)]; [left; exists j, h, ok|right; exists j]; (eapply step_thr; [exact S0|exact Y|intros []]). }
  destruct S1 as [st sid p ? P|st sid ?|st i sid p st' p' E A].
  - constructor.
    + intros f L. destruct (W1 f L) as (k & q & X & M). destruct (step_made _ _ _ _ _ _ S0 X M) as (q' & Y & M'). eauto.
    + intros f L X. apply Old; auto.
    + intros j s h f ok X. apply thr_app in X. destruct X as [X|(-> & X)]; [eapply W3; eauto|injection X as -> <-; discriminate].
    + intros j k s1 s2 h1 h2 f X Y. apply thr_app in X, Y. destruct X as [X|(-> & X)]; [|injection X as -> <-; discriminate]. destruct Y as [Y|(-> & Y)]; [eauto|injection Y as -> <-; discriminate].
  - constructor.
    + intros f L. destruct (W1 f L) as (k & q & X & M). destruct (step_made _ _ _ _ _ _ S0 X M) as (q' & Y & M'). eauto.
    + intros f L X. apply Old; auto.
    + intros j s h f ok X. apply thr_app in X. destruct X as [X|(-> & X)]; [eapply W3; eauto|discriminate].
    + intros j k s1 s2 h1 h2 f X Y. apply thr_app in X, Y. destruct X as [X|(-> & X)]; [|discriminate]. destruct Y as [Y|(-> & Y)]; [eauto|discriminate].
  - fold (thr st i) in E. pose proof (ne_lt _ _ _ E) as L. pose proof (act_fds _ _ _ _ _ A) as (T1 & _ & Le & _).
    assert (Me : forall j y, thr (with_thr st' (seti (t_thr st) i (sid, p'))) j = Some y -> (j = i /\ y = (sid, p')) \/ (j <> i /\ thr st j = Some y)) by (intros j y; apply thr_set, L).
    assert (Mine : thr (with_thr st' (seti (t_thr st) i (sid, p'))) i = Some (sid, p')) by (unfold thr; cbn [with_thr t_thr]; rewrite ne_seti, Nat.eqb_refl by exact L; reflexivity).
    (* the files that this step opens or closes *)
    assert (New : forall f, (length (t_fds st) <= f < length (t_fds st'))%nat -> owner st' f = sid /\ made p' = Some f /\ is_open st' f = true).
    { intros f Lf. destruct p; cbn [act] in A; try discriminate; repeat match type of A with context[match ?x with _ => _ end] => destruct x eqn:? end; injection A as <- <-; cbn [with_fds with_obj t_fds] in Lf; try lia.
      - rewrite app_length in Lf. cbn [length] in Lf. assert (f = length (t_fds st)) as -> by lia. unfold owner, is_open. cbn [with_fds t_fds made]. rewrite app_nth2, Nat.sub_diag by lia. auto.
      - unfold close1 in Lf. rewrite length_seti in Lf. lia.
      - rewrite (proj1 (close_many _ _ 0%nat)) in Lf. lia. }
    assert (Shut : forall f, (f < length (t_fds st))%nat -> is_open st f = true -> is_open st' f = false -> owner st f = sid /\ ((exists h ok, p' = RClosed h f ok) \/ p' = REnded)).
    { intros f Lf O1 O2. destruct p; cbn [act] in A; try discriminate; repeat match type of A with context[match ?x with _ => _ end] => destruct x eqn:G end; injection A as <- <-; unfold is_open in O1, O2; cbn [with_fds with_obj t_fds] in O2; try congruence.
      - rewrite app_nth1 in O2 by exact Lf. congruence.
      - rewrite (proj2 (close1_nth _ _ _)), O1 in O2. apply andb_false_iff in O2. destruct O2 as [O2|O2]; [discriminate|]. apply negb_false_iff, Nat.eqb_eq in O2. rewrite O2 in *. split; [|eauto].
        destruct (v_ent _ _ V _ _ _ (nget_In _ _ _ G)) as (k & X). destruct (v_obj _ _ V _ _ _ _ E eq_refl) as (_ & Ow). rewrite Ow in X. apply (v_made _ _ V _ _ _ _ X eq_refl).
      - destruct (close_many (tab st o) (t_fds st) f) as (_ & _ & B). assert (Mem : In f (map snd (tab st o))). { destruct (in_dec Nat.eq_dec f (map snd (tab st o))) as [|N]; [assumption|]. rewrite (proj2 B (conj O1 N)) in O2. discriminate. }
        split; [|auto]. destruct (v_obj _ _ V _ _ _ _ E eq_refl) as (_ & Ow). 
        apply in_map_iff in Mem. destruct Mem as ([h g] & <- & Mem). cbn [snd] in *. destruct (v_ent _ _ V _ _ _ Mem) as (k & X). rewrite Ow in X. apply (v_made _ _ V _ _ _ _ X eq_refl). }
    (* a Close that returns has found the file in its table *)
    assert (Rc : forall h f ok, p' = RClosed h f ok -> ok = is_open st f /\ is_open st' f = false).
    { intros h f ok ->. destruct p; cbn [act] in A; try discriminate; repeat match type of A with context[match ?x with _ => _ end] => destruct x eqn:G end; try discriminate. injection A as <- <- <- <-. split; [reflexivity|].
      unfold is_open. cbn [with_fds t_fds]. rewrite (proj2 (close1_nth _ _ _)), Nat.eqb_refl. apply andb_false_r. }
    constructor.
    + intros f Lf. cbn [with_thr t_fds] in Lf. destruct (Nat.lt_ge_cases f (length (t_fds st))) as [Lo|Lo].
      * destruct (Fs f Lo) as (_ & -> & _). destruct (W1 f Lo) as (k & q & X & M). destruct (step_made _ _ _ _ _ _ S0 X M) as (q' & Y & M'). eauto.
      * destruct (New f (conj Lo Lf)) as (Ow & M & _). exists i, p'. split; [|exact M]. change (owner (with_thr st' _) f) with (owner st' f). rewrite Ow. exact Mine.
    + intros f Lf Cl. cbn [with_thr t_fds] in Lf. change (is_open (with_thr st' _) f) with (is_open st' f) in Cl. destruct (Nat.lt_ge_cases f (length (t_fds st))) as [Lo|Lo].
      * destruct (is_open st f) eqn:Op; [|now apply Old]. destruct (Fs f Lo) as (_ & Ow & _). rewrite Ow. destruct (Shut f Lo Op Cl) as (-> & [(h & ok & X)|X]); (subst p'); [left; exists i, h, ok|right; exists i]; exact Mine.
      * destruct (New f (conj Lo Lf)) as (_ & _ & X). congruence.
    + intros j s h f ok X. change (is_open (with_thr st' _) f) with (is_open st' f). destruct (Me _ _ X) as [(-> & Y)|(_ & Y)].
      * injection Y as -> Y. symmetry in Y. apply (Rc _ _ _ Y).
      * destruct (is_open st' f) eqn:Op; [|reflexivity]. destruct (Fs f (In_rc _ _ _ _ _ Y)) as (_ & _ & Z1). rewrite <- (W3 _ _ _ _ _ Y). symmetry. apply Z1. exact Op.
    + intros j k s1 s2 h1 h2 f X Y. destruct (Me _ _ X) as [(-> & X1)|(N1 & X1)], (Me _ _ Y) as [(-> & Y1)|(N2 & Y1)]; auto.
      * injection X1 as -> X1. symmetry in X1. destruct (Rc _ _ _ X1) as (Z1 & _). rewrite (W3 _ _ _ _ _ Y1) in Z1. discriminate.
      * injection Y1 as -> Y1. symmetry in Y1. destruct (Rc _ _ _ Y1) as (Z1 & _). rewrite (W3 _ _ _ _ _ X1) in Z1. discriminate.
      * eauto.
Qed.
Lemma inv2_init : inv2 init.
Proof. constructor; unfold thr, init; cbn; intros; try lia; repeat match goal with H : nth_error [] ?i = _ |- _ => destruct i; discriminate end. Qed.
Lemma inv_both st : reach st -> exists own, inv own st /\ inv2 st.
Proof.
  intros R. unfold reach in R. remember init as z eqn:Q. induction R as [|st1 st2 st3 S1 IH S2]; [subst st; exists []; split; [exact inv_init|exact inv2_init]|]. destruct (IH Q) as (own & V & W). destruct (inv_step _ _ _ V S2) as (own' & V'). exists own'. split; [exact V'|]. exact (inv2_step _ _ _ V W S2).
Qed.
Lemma reach_more st st' : reach st -> steps st st' -> reach st'.
Proof. intros R S1. induction S1 as [|st1 st2 st3 S1 IH S2]; [exact R|]. eapply steps_more; [exact (IH R)|exact S2]. Qed.

(* ---- the theorems ---- *)
(* Whatever the schedule, a request on a handle acts on a file that the same session has opened under that handle. *)
Theorem C52_isolation st i sid p h f : reach st -> thr st i = Some (sid, p) -> ((exists ok, p = RUsed h f ok) \/ (exists ok, p = RClosed h f ok)) ->
  owner st f = sid /\ exists k, thr st k = Some (sid, RHandle h f).
Proof.
  intros R E H. destruct (inv_both st R) as (own & V & _). assert (F : file_of p = Some (h, f)) by (destruct H as [(ok & ->)|(ok & ->)]; reflexivity).
  destruct (v_file _ _ V _ _ _ _ _ E F) as (k & X). split; [apply (v_made _ _ V _ _ _ _ X eq_refl)|eauto].
Qed.
(* Two Opens never give the same file, and while a session lasts two Opens of it give the same handle only when one of the files has been closed. *)
Theorem C52_unique st i j s1 s2 h1 h2 f1 f2 : reach st -> thr st i = Some (s1, RHandle h1 f1) -> thr st j = Some (s2, RHandle h2 f2) -> i <> j ->
  f1 <> f2 /\ (s1 = s2 -> h1 = h2 -> ~ In s1 (t_ended st) -> is_open st f1 = true -> is_open st f2 = false).
Proof.
  intros R E1 E2 N. destruct (inv_both st R) as (own & V & _). assert (D : f1 <> f2). { intros ->. apply N. eapply (v_uniq _ _ V); eauto; reflexivity. } split; [exact D|].
  intros <- <- Ne O1. destruct (is_open st f2) eqn:O2; [|reflexivity]. exfalso. destruct (v_open _ _ V _ _ _ _ E1 O1) as (o1 & A1 & B1 & C1). destruct (v_open _ _ V _ _ _ _ E2 O2) as (o2 & A2 & B2 & C2).
  pose proof (v_one _ _ V _ _ A1 B1 (or_introl Ne)) as D1. pose proof (v_one _ _ V _ _ A2 B2 (or_introl Ne)) as D2. rewrite D1 in D2. injection D2 as <-. congruence.
Qed.
(* While the session lasts, its file is open until a Close of that session that names the handle; until then a request on the handle, run alone, reaches the file and succeeds. *)
Theorem C52_usable st k sid h f : reach st -> thr st k = Some (sid, RHandle h f) -> ~ In sid (t_ended st) -> (forall j ok, thr st j <> Some (sid, RClosed h f ok)) ->
  is_open st f = true /\ exists o, act st sid (PUse h) = Some (st, PUseSess h o) /\ act st sid (PUseSess h o) = Some (st, PUseFile h f) /\ act st sid (PUseFile h f) = Some (st, RUsed h f true).
Proof.
  intros R E Ne Nc. destruct (inv_both st R) as (own & V & W). destruct (v_made _ _ V _ _ _ _ E eq_refl) as (L & Ow). assert (O1 : is_open st f = true).
  { destruct (is_open st f) eqn:O1; [reflexivity|]. exfalso. destruct (w_shut _ W f L O1) as [(j & h' & ok & X)|(j & X)]; rewrite Ow in X.
    - destruct (v_file _ _ V _ _ _ _ _ X eq_refl) as (k' & Y). assert (k = k') by (eapply (v_uniq _ _ V); eauto; reflexivity). subst k'. rewrite E in Y. injection Y as <-. eapply Nc; eauto.
    - apply Ne. eapply (v_end _ _ V); eauto; reflexivity. }
  split; [exact O1|]. destruct (v_open _ _ V _ _ _ _ E O1) as (o & A & B & C). exists o. cbn [act]. rewrite (v_one _ _ V _ _ A B (or_introl Ne)), C, O1. auto.
Qed.
(* Once a Close has returned, no later step makes a request on that file succeed, and no other Close of it succeeds. *)
Lemma closed_steps st st' f : steps st st' -> (f < length (t_fds st))%nat -> is_open st f = false -> (f < length (t_fds st'))%nat /\ is_open st' f = false.
Proof.
  intros S1 L O1. induction S1 as [|st1 st2 st3 S1 IH S2]; [auto|]. destruct (IH L O1) as (A & B). destruct (step_fds _ _ f S2 A) as (C & _ & D). split; [exact C|]. destruct (is_open st3 f); [rewrite <- B; symmetry; auto|reflexivity].
Qed.
Theorem C52_closed st i sid h f ok : reach st -> thr st i = Some (sid, RClosed h f ok) -> forall st', steps st st' ->
  is_open st' f = false /\
  (forall j s h', thr st' j = Some (s, RUsed h' f true) -> thr st j = Some (s, RUsed h' f true)) /\
  (ok = true -> forall j s h', thr st' j = Some (s, RClosed h' f true) -> j = i).
Proof.
  intros R E st' S1. destruct (inv_both st R) as (own & V & W). assert (L : (f < length (t_fds st))%nat). { destruct (v_file _ _ V _ _ _ _ _ E eq_refl) as (k & X). apply (v_made _ _ V _ _ _ _ X eq_refl). }
  pose proof (w_closed _ W _ _ _ _ _ E) as O1. split; [eapply closed_steps; eauto|]. split.
  - induction S1 as [|st1 st2 st3 S1 IH S2]; [auto|]. specialize (IH R E V W L O1). intros j s h' X. apply IH. clear IH. destruct (closed_steps _ _ _ S1 L O1) as (_ & O2).
    destruct S2 as [st2 sid' p N P|st2 sid' N|st2 i' sid' p st3 p' E1 A].
    + apply thr_app in X. destruct X as [X|(-> & X)]; [exact X|injection X as -> <-; discriminate].
    + apply thr_app in X. destruct X as [X|(-> & X)]; [exact X|discriminate].
    + unfold thr in X. cbn [with_thr t_thr] in X. apply thr_set in X; [|eapply ne_lt; exact E1]. destruct X as [(-> & X)|(_ & X)]; [|exact X]. injection X as -> <-. exfalso.
      destruct p; cbn [act] in A; try discriminate; repeat match type of A with context[match ?x with _ => _ end] => destruct x eqn:? end; try discriminate. injection A as _ _ <- X. congruence.
  - intros -> j s h' X. assert (Y : thr st' i = Some (sid, RClosed h f true)). { clear -S1 E. induction S1 as [|st1 st2 st3 S1 IH S2]; [exact E|]. eapply step_thr; [exact S2|exact (IH E)|intros []]. }
    destruct (inv_both st' (reach_more _ _ R S1)) as (own' & _ & W'). eapply (w_once _ W'); eauto.
Qed.
(* A request never waits for another one: it can always take its next step, and returns after at most four. *)
Definition left_of (p : pc) : nat := match p with POpen _ _ => 4 | POpened _ _ => 3 | PMiss _ _ | PUse _ | PClose _ | PEnd => 2 + (match p with PUse _ => 1 | _ => 0 end) | PHave _ _ _ | PUseFile _ _ | PCloseSess _ _ | PEndSess _ => 1 | PUseSess _ _ => 2 | _ => 0 end.
Theorem C52_progress st sid p : running p -> exists st' p', act st sid p = Some (st', p') /\ (left_of p' < left_of p <= 4)%nat.
Proof.
  destruct p; intros []; cbn [act];
    repeat match goal with |- context[match ?x with _ => _ end] => match x with context[act] => fail 1 | _ => destruct x eqn:? end end; eexists _, _; (split; [reflexivity|]); cbn [left_of]; lia.
Qed.
(* When the connection ends while no Open of its session is under way, the end of the session closes every file of it, except those for which Open found no free handle. *)
Definition opening (p : pc) : bool := match p with POpen _ _ | POpened _ _ | PMiss _ _ | PHave _ _ _ => true | _ => false end.
Definition quiet (st : hst) (sid : Z) : Prop := In sid (t_ended st) /\ forall j p, thr st j = Some (sid, p) -> opening p = false.
Lemma quiet_step st st' sid : quiet st sid -> step st st' -> quiet st' sid.
Proof.
  intros (I1 & Q) S1. destruct S1 as [st s p N P|st s N|st i s p st' p' E A].
  - split; [exact I1|]. intros j q X. apply thr_app in X. destruct X as [X|(-> & X)]; [eauto|injection X as -> ->; contradiction].
  - split; [right; exact I1|]. intros j q X. apply thr_app in X. destruct X as [X|(-> & X)]; [eauto|injection X as -> ->; reflexivity].
  - destruct (act_fds _ _ _ _ _ A) as (_ & T & _). split; [cbn [with_thr t_ended]; rewrite T; exact I1|]. intros j q X. unfold thr in X. cbn [with_thr t_thr] in X. apply thr_set in X; [|eapply ne_lt; exact E]. destruct X as [(-> & X)|(_ & X)]; [|eauto].
    injection X as -> ->. specialize (Q _ _ E). destruct p; cbn [act] in A; try discriminate; repeat match type of A with context[match ?x with _ => _ end] => destruct x eqn:? end; injection A as <- <-; reflexivity.
Qed.
Definition phase (st : hst) (sid : Z) (i : nat) : Prop :=
  thr st i = Some (sid, PEnd) \/
  (exists o, thr st i = Some (sid, PEndSess o) /\ forall k h f, thr st k = Some (sid, RHandle h f) -> is_open st f = true -> nget (tab st o) h = Some f) \/
  (thr st i = Some (sid, REnded) /\ forall k h f, thr st k = Some (sid, RHandle h f) -> is_open st f = false).
Lemma quiet_handle st st' sid k h f : quiet st sid -> step st st' -> thr st' k = Some (sid, RHandle h f) -> thr st k = Some (sid, RHandle h f).
Proof.
  intros (_ & Q) S1 X. destruct S1 as [st s p N P|st s N|st i s p st' p' E A].
  - apply thr_app in X. destruct X as [X|(-> & X)]; [exact X|injection X as -> <-; discriminate].
  - apply thr_app in X. destruct X as [X|(-> & X)]; [exact X|discriminate].
  - unfold thr in X. cbn [with_thr t_thr] in X. apply thr_set in X; [|eapply ne_lt; exact E]. destruct X as [(-> & X)|(_ & X)]; [|exact X]. injection X as -> <-. specialize (Q _ _ E). exfalso.
    destruct p; cbn [act] in A; try discriminate; repeat match type of A with context[match ?x with _ => _ end] => destruct x eqn:? end; discriminate.
Qed.
Lemma handle_in own st k sid h f : inv own st -> thr st k = Some (sid, RHandle h f) -> (f < length (t_fds st))%nat.
Proof. intros V X. apply (v_made _ _ V _ _ _ _ X eq_refl). Qed.
Lemma phase_step own st st' sid i : inv own st -> quiet st sid -> phase st sid i -> step st st' -> phase st' sid i.
Proof.
  intros V Q P S1. pose proof S1 as S0.
  assert (Back : forall k h f, thr st' k = Some (sid, RHandle h f) -> thr st k = Some (sid, RHandle h f) /\ (is_open st' f = true -> is_open st f = true)).
  { intros k h f X. pose proof (quiet_handle _ _ _ _ _ _ Q S0 X) as Y. split; [exact Y|]. apply (step_fds _ _ f S0). eapply handle_in; eauto. }
  assert (Low : forall k h f, thr st' k = Some (sid, RHandle h f) -> is_open st f = false -> is_open st' f = false).
  { intros k h f X Y. destruct (is_open st' f) eqn:O1; [|reflexivity]. rewrite <- Y. symmetry. apply (Back _ _ _ X). exact O1. }
  destruct P as [P|[(o & P & H)|(P & H)]].
  - destruct S1 as [st s p N Sp|st s N|st j s p st' p' E A].
    + left. now apply app_keep.
    + left. now apply app_keep.
    + destruct (Nat.eq_dec j i) as [->|Nj].
      * unfold thr in P. rewrite E in P. injection P as -> ->. cbn [act] in A. assert (Mine : forall z, thr (with_thr st' (seti (t_thr st) i z)) i = Some z) by (intros z; unfold thr; cbn [with_thr t_thr]; rewrite ne_seti, Nat.eqb_refl by (eapply ne_lt; exact E); reflexivity).
        assert (Obj : forall k h f, thr st k = Some (sid, RHandle h f) -> is_open st f = true -> exists o, sget (t_sess st) sid = Some o /\ nget (tab st o) h = Some f).
        { intros k h f X Y. destruct (v_open _ _ V _ _ _ _ X Y) as (o & A1 & B & C). exists o. split; [|exact C]. apply (v_one _ _ V); auto. right. exists i. exact E. }
        destruct (sget (t_sess st) sid) as [o|] eqn:G; injection A as <- <-.
        -- right. left. exists o. split; [apply Mine|]. intros k h f X Y. destruct (Back _ _ _ X) as (X1 & Y1). destruct (Obj _ _ _ X1 (Y1 Y)) as (o' & O1 & O2). injection O1 as <-. exact O2.
        -- right. right. split; [apply Mine|]. intros k h f X. destruct (Back _ _ _ X) as (X1 & Y1). destruct (is_open st f) eqn:O1; [|eapply Low; eauto]. destruct (Obj _ _ _ X1 O1) as (o' & O2 & _). discriminate.
      * left. unfold thr. cbn [with_thr t_thr]. rewrite ne_seti by (eapply ne_lt; exact E). destruct (Nat.eqb_spec j i); [contradiction|exact P].
  - destruct S1 as [st s p N Sp|st s N|st j s p st' p' E A].
    + right. left. exists o. split; [now apply app_keep|]. intros k h f X Y. destruct (Back _ _ _ X) as (X1 & _). eapply H; eauto.
    + right. left. exists o. split; [now apply app_keep|]. intros k h f X Y. destruct (Back _ _ _ X) as (X1 & _). eapply H; eauto.
    + destruct (v_obj _ _ V _ _ _ _ P eq_refl) as (Lo & Oo). destruct (Nat.eq_dec j i) as [->|Nj].
      * unfold thr in P. rewrite E in P. injection P as -> ->. cbn [act] in A. injection A as <- <-. right. right. split; [unfold thr; cbn [with_thr t_thr]; rewrite ne_seti, Nat.eqb_refl by (eapply ne_lt; exact E); reflexivity|].
        intros k h f X. destruct (Back _ _ _ X) as (X1 & _). destruct (is_open st f) eqn:O1; [|eapply Low; eauto]. unfold is_open at 1. cbn [with_thr with_fds t_fds]. destruct (close_many (tab st o) (t_fds st) f) as (_ & _ & B).
        match goal with |- ?x = false => destruct x eqn:O2; [|reflexivity] end. pose proof (proj1 B eq_refl) as O3. exfalso. apply (proj2 O3). apply in_map_iff. exists (h, f). split; [reflexivity|]. apply nget_In. eapply H; eauto.
      * right. left. exists o. split; [unfold thr; cbn [with_thr t_thr]; rewrite ne_seti by (eapply ne_lt; exact E); destruct (Nat.eqb_spec j i); [contradiction|exact P]|].
        intros k h f X Y. destruct (Back _ _ _ X) as (X1 & Y1). pose proof (H _ _ _ X1 (Y1 Y)) as M. change (tab (with_thr st' _) o) with (tab st' o). change (is_open (with_thr st' _) f) with (is_open st' f) in Y.
        assert (Ox : is_open st f = true) by (apply Y1; exact Y).
        destruct p; cbn [act] in A; try discriminate; repeat match type of A with context[match ?x with _ => _ end] => destruct x eqn:G end; injection A as <- <-; try exact M.
        -- unfold tab. cbn [t_objs]. rewrite app_nth1 by exact Lo. exact M.
        -- rewrite tab_with by (apply (v_obj _ _ V _ _ _ _ E eq_refl)). match goal with |- context[Nat.eqb ?a ?b] => destruct (Nat.eqb_spec a b) as [->|] end; [|exact M]. apply pick_none in G. cbn [nget]. match goal with |- context[str_eqb ?a ?b] => destruct (str_eqb_spec a b) as [->|] end; [congruence|exact M].
        -- change (tab (with_fds ?s _)) with (tab s). rewrite tab_with by (apply (v_obj _ _ V _ _ _ _ E eq_refl)). match goal with |- context[Nat.eqb ?a ?b] => destruct (Nat.eqb_spec a b) as [->|] end; [|exact M].
           rewrite nget_ndel. match goal with |- context[str_eqb ?a ?b] => destruct (str_eqb_spec a b) as [->|] end; [|exact M]. exfalso. rewrite M in G. injection G as ->. unfold is_open in Y. cbn [with_fds t_fds] in Y. rewrite (proj2 (close1_nth _ _ _)), Nat.eqb_refl, andb_false_r in Y. discriminate.
  - right. right. split; [eapply step_thr; [exact S0|exact P|intros []]|]. intros k h f X. destruct (Back _ _ _ X) as (X1 & _). eapply Low; eauto.
Qed.
Theorem C52_end st1 st2 sid i : reach st1 -> thr st1 i = Some (sid, PEnd) -> (forall j p, thr st1 j = Some (sid, p) -> opening p = false) -> steps st1 st2 -> thr st2 i = Some (sid, REnded) ->
  forall f, (f < length (t_fds st2))%nat -> owner st2 f = sid -> is_open st2 f = true -> exists k, thr st2 k = Some (sid, RNone f).
Proof.
  intros R E Nq S1 Ed f L Ow O1. assert (PQ : quiet st2 sid /\ phase st2 sid i).
  { clear -R E Nq S1. assert (Q0 : quiet st1 sid). { split; [|exact Nq]. destruct (inv_both _ R) as (own & V & _). eapply (v_end _ _ V); eauto; reflexivity. }
    induction S1 as [|st1 st2 st3 S1 IH S2]; [split; [exact Q0|left; exact E]|]. destruct (IH R E Nq Q0) as (Q & P). destruct (inv_both _ (reach_more _ _ R S1)) as (own & V & _). split; [eapply quiet_step; eauto|eapply phase_step; eauto]. }
  destruct PQ as ((_ & Q) & P). destruct (inv_both _ (reach_more _ _ R S1)) as (own & V & W). destruct (w_file _ W f L) as (k & p & X & M). rewrite Ow in X. exists k.
  destruct P as [P|[(o & P & _)|(_ & H)]]; [rewrite P in Ed; discriminate|rewrite P in Ed; discriminate|]. specialize (Q _ _ X). destruct p; try discriminate; cbn [made] in M; injection M as ->; [|exact X]. rewrite (H _ _ _ X) in O1. discriminate.
Qed.
(* ---- schedules ---- *)
Inductive cmd := CReq (sid : Z) (p : pc) | CEnd (sid : Z) | CAct (i : nat).
Definition exec (st : hst) (c : cmd) : option hst :=
  match c with
  | CReq sid p => if existsb (Z.eqb sid) (t_ended st) || negb (start p) then None else Some (with_thr st (t_thr st ++ [(sid, p)]))
  | CEnd sid => if existsb (Z.eqb sid) (t_ended st) then None else Some {| t_sess := t_sess st; t_objs := t_objs st; t_fds := t_fds st; t_ended := sid :: t_ended st; t_thr := t_thr st ++ [(sid, PEnd)] |}
  | CAct i => match nth_error (t_thr st) i with None => None | Some (sid, p) => match act st sid p with None => None | Some (st', p') => Some (with_thr st' (seti (t_thr st) i (sid, p'))) end end
  end.
Fixpoint execs (st : hst) (l : list cmd) : option hst := match l with [] => Some st | c :: l => match exec st c with None => None | Some st' => execs st' l end end.
Lemma exec_step st c st' : exec st c = Some st' -> step st st'.
Proof.
  assert (N : forall sid, existsb (Z.eqb sid) (t_ended st) = false -> ~ In sid (t_ended st)). { intros sid E I1. rewrite <- not_true_iff_false in E. apply E. apply existsb_exists. exists sid. split; [exact I1|apply Z.eqb_refl]. }
  destruct c as [sid p|sid|i]; cbn [exec].
  - destruct (existsb _ _) eqn:E; [discriminate|]. cbn [orb]. destruct (start p) eqn:P; [|discriminate]. intros X. injection X as <-. apply s_req; auto.
  - destruct (existsb _ _) eqn:E; [discriminate|]. intros X. injection X as <-. apply s_end; auto.
  - destruct (nth_error (t_thr st) i) as [[sid p]|] eqn:E; [|discriminate]. destruct (act st sid p) as [[st1 p']|] eqn:A; [|discriminate]. intros X. injection X as <-. eapply s_act; eauto.
Qed.
Lemma execs_steps l : forall st0 st st', steps st0 st -> execs st l = Some st' -> steps st0 st'.
Proof.
  induction l as [|c l IH]; intros st0 st st' R; cbn [execs]; [intros X; injection X as <-; exact R|]. destruct (exec st c) as [st1|] eqn:E; [|discriminate]. apply IH. eapply steps_more; [exact R|]. eapply exec_step; eauto.
Qed.
Lemma execs_reach l st : execs init l = Some st -> reach st.
Proof. apply execs_steps, steps_refl. Qed.
(* An Open under way when the connection ends makes a session again after it: all requests have returned, and the file stays open for good. *)
Theorem C52_leak_refuted : exists st sid f k i h, reach st /\ (forall j s p, thr st j = Some (s, p) -> settled p) /\ thr st i = Some (sid, REnded) /\ thr st k = Some (sid, RHandle h f) /\ owner st f = sid /\ is_open st f = true /\ sget (t_sess st) sid <> None.
Proof.
  destruct (execs init [CReq 7 (POpen [[1; 2; 3; 4]] true); CAct 0; CEnd 7; CAct 1; CAct 0; CAct 0; CAct 0]) as [st|] eqn:E; [|discriminate].
  exists st, 7, 0%nat, 0%nat, 1%nat, [1; 2; 3; 4]. split; [eapply execs_reach; exact E|]. cbv in E. injection E as <-. split; [|repeat split; discriminate].
  intros [|[|j]] s p X; cbv in X; [injection X as <- <-; intros []|injection X as <- <-; intros []|destruct j; discriminate].
Qed.
(* two sessions, the same handle number: each session reaches its own file; a Close between the look-up and the use; the end of one session *)
Definition sched : list cmd :=
  [CReq 7 (POpen [[1; 2; 3; 4]] true); CReq 8 (POpen [[1; 2; 3; 4]] true); CReq 7 (POpen [[1; 2; 3; 4]; [5; 6; 7; 8]] true); CAct 0; CAct 1; CAct 2; CAct 0; CAct 2; CAct 1; CAct 0; CAct 2; CAct 1; CAct 1; CAct 0; CAct 2;
   CReq 7 (PUse [1; 2; 3; 4]); CReq 7 (PClose [1; 2; 3; 4]); CReq 8 (PUse [1; 2; 3; 4]); CAct 3; CAct 4; CAct 3; CAct 4; CAct 5; CAct 5; CAct 5; CAct 3].
Definition at_sched : hst := match execs init sched with Some st => st | None => init end.
Lemma sched_some : execs init sched <> None.
Proof. vm_compute. discriminate. Qed.
Lemma reach_sched : reach at_sched.
Proof. unfold at_sched. pose proof sched_some as N. destruct (execs init sched) as [st|] eqn:E; [eapply execs_reach; exact E|congruence]. Qed.
Example C52_at_sched : t_thr at_sched = [(7, RHandle [1; 2; 3; 4] 0%nat); (8, RHandle [1; 2; 3; 4] 1%nat); (7, RHandle [5; 6; 7; 8] 2%nat); (7, RUsed [1; 2; 3; 4] 0%nat false); (7, RClosed [1; 2; 3; 4] 0%nat true); (8, RUsed [1; 2; 3; 4] 1%nat true)]
  /\ t_fds at_sched = [(7, false); (8, true); (7, true)].
Proof. split; vm_compute; reflexivity. Qed.
Example C52_isolation_ex : exists k, thr at_sched k = Some (8, RHandle [1; 2; 3; 4] 1%nat).
Proof. apply (C52_isolation at_sched 5 8 (RUsed [1; 2; 3; 4] 1%nat true)); [exact reach_sched|vm_compute; reflexivity|left; eexists; reflexivity]. Qed.
Example C52_usable_ex : is_open at_sched 2 = true.
Proof.
  apply (C52_usable at_sched 2 7 [5; 6; 7; 8] 2); [exact reach_sched|vm_compute; reflexivity|vm_compute; intros []|]. intros j ok. unfold thr. rewrite (proj1 C52_at_sched). do 6 (destruct j; [discriminate|]). destruct j; discriminate.
Qed.
Example C52_closed_ex : forall st', steps at_sched st' -> is_open st' 0 = false.
Proof. intros st' S1. apply (C52_closed at_sched 4 7 [1; 2; 3; 4] 0 true reach_sched ltac:(vm_compute; reflexivity) st' S1). Qed.
Example C52_end_ex : exists st1 st2, reach st1 /\ thr st1 6 = Some (7, PEnd) /\ (forall j p, thr st1 j = Some (7, p) -> opening p = false) /\ steps st1 st2 /\ thr st2 6 = Some (7, REnded) /\ is_open st1 2 = true /\ is_open st2 2 = false /\ is_open st2 1 = true.
Proof.
  assert (N : match execs at_sched [CEnd 7] with None => False | Some st1 => match execs st1 [CAct 6; CAct 6] with None => False | Some st2 =>
    t_thr st1 = t_thr at_sched ++ [(7, PEnd)] /\ thr st2 6 = Some (7, REnded) /\ is_open st1 2 = true /\ is_open st2 2 = false /\ is_open st2 1 = true end end) by (vm_compute; auto).
  destruct (execs at_sched [CEnd 7]) as [st1|] eqn:E1; [|destruct N]. destruct (execs st1 [CAct 6; CAct 6]) as [st2|] eqn:E2; [|destruct N]. destruct N as (T & N).
  rewrite (proj1 C52_at_sched) in T. exists st1, st2. split; [eapply execs_steps; [exact reach_sched|exact E1]|]. unfold thr at 1 2. rewrite T. split; [reflexivity|]. split.
  { intros j p X. clear -X. do 7 (destruct j; [cbn in X; try discriminate X; injection X as <-; reflexivity|]). destruct j; discriminate X. }
  split; [eapply execs_steps; [apply steps_refl|exact E2]|]. exact N.
Qed.
Print Assumptions C52_isolation.
Print Assumptions C52_unique.
Print Assumptions C52_usable.
Print Assumptions C52_closed.
Print Assumptions C52_progress.
Print Assumptions C52_end.
Print Assumptions C52_leak_refuted.
