(* C45: the graph of a HepMC event.  C46: weights. *)
From Coq Require Import ZArith List Lia Bool.
From Verif Require Import GoLib DflowModel DflowProps HepmcModel.
Import ListNotations.
Local Open Scope Z_scope.

(* ---- C46 ---- *)
Section W.
Context {V : Type}.
(* a history of Add: what each call said, and the container *)
Fixpoint adds (w : weights V) (l : list (list Z * V)) : list bool * weights V :=
  match l with [] => ([], w) | (n, v) :: l' => let '(b, w1) := add V w n v in let '(bs, w2) := adds w1 l' in (b :: bs, w2) end.
(* the entries that count: the first of each name *)
Fixpoint firsts (seen : list (list Z)) (l : list (list Z * V)) : list (list Z * V) :=
  match l with [] => [] | (n, v) :: l' => if in_dec (list_eq_dec Z.eq_dec) n seen then firsts seen l' else (n, v) :: firsts (n :: seen) l' end.
Definition holdsw (w : weights V) (l : list (list Z * V)) : Prop :=
  w_slice V w = map snd l /\ forall n i, wfind (w_map V w) n = Some i <-> (exists v, nth_error l i = Some (n, v)).
Lemma add_spec w l n v : NoDup (map fst l) -> holdsw w l ->
  (In n (map fst l) -> add V w n v = (false, w)) /\ (~ In n (map fst l) -> exists w', add V w n v = (true, w') /\ holdsw w' (l ++ [(n, v)])).
Proof.
  intros ND [S F]. unfold add. split; intros H.
  - apply in_map_iff in H. destruct H as ([n' v'] & E & I). cbn in E. subst n'. apply In_nth_error in I. destruct I as [i I]. rewrite (proj2 (F n i)); [reflexivity|eauto].
  - destruct (wfind (w_map V w) n) as [i|] eqn:E.
    + exfalso. apply H. destruct (proj1 (F n i) E) as [v' N]. apply in_map_iff. exists (n, v'). split; [reflexivity|eapply nth_error_In, N].
    + eexists. split; [reflexivity|]. split; cbn [w_slice w_map]; [rewrite S, map_app; reflexivity|].
      intros m i. cbn [wfind]. rewrite S, map_length. destruct (list_eq_dec Z.eq_dec n m) as [<-|NE].
      * split.
        -- intros X. injection X as <-. exists v. rewrite nth_error_app2, Nat.sub_diag by lia. reflexivity.
        -- intros [v' N]. destruct (Nat.lt_ge_cases i (length l)) as [L|G].
           ++ rewrite nth_error_app1 in N by exact L. exfalso. apply H, in_map_iff. exists (n, v'). split; [reflexivity|eapply nth_error_In, N].
           ++ rewrite nth_error_app2 in N by exact G. destruct (i - length l)%nat as [|k] eqn:K; [f_equal; lia|destruct k; discriminate].
      * rewrite F. split; intros [v' N].
        -- exists v'. rewrite nth_error_app1; [exact N|]. apply nth_error_Some. congruence.
        -- exists v'. destruct (Nat.lt_ge_cases i (length l)) as [L|G]; [rewrite nth_error_app1 in N by exact L; exact N|].
           rewrite nth_error_app2 in N by exact G. destruct (i - length l)%nat as [|k]; [cbn in N; congruence|destruct k; discriminate].
Qed.
(* Every history of Add: the values are those of the first Add of each name, in order, a name that is there already is refused, and At gives the value of the name. *)
Theorem C46_weights : forall l, let '(bs, w) := adds (newWeights V) l in
  w_slice V w = map snd (firsts [] l) /\
  (forall i n v, nth_error l i = Some (n, v) -> nth_error bs i = Some (if in_dec (list_eq_dec Z.eq_dec) n (map fst (firstn i l)) then false else true)) /\
  (forall n v, In (n, v) (firsts [] l) -> at_ V w n = Ok v) /\
  (forall n, ~ In n (map fst l) -> at_ V w n = Panic).
Proof.
  assert (G : forall l done w seen, NoDup (map fst done) -> holdsw w done -> (forall n, In n seen <-> In n (map fst done)) ->
    let '(bs, w') := adds w l in
    NoDup (map fst (done ++ firsts seen l)) /\ holdsw w' (done ++ firsts seen l) /\
    (forall i n v, nth_error l i = Some (n, v) -> nth_error bs i = Some (if in_dec (list_eq_dec Z.eq_dec) n (seen ++ map fst (firstn i l)) then false else true))).
  { induction l as [|[n v] l IH]; intros done w seen ND H S; cbn [adds firsts].
    - rewrite app_nil_r. split; [exact ND|]. split; [exact H|]. intros [|i]; discriminate.
    - destruct (add_spec w done n v ND H) as [A B]. destruct (in_dec (list_eq_dec Z.eq_dec) n seen) as [I|N].
      + rewrite A by (apply S, I). specialize (IH done w seen ND H S). destruct (adds w l) as [bs w']. destruct IH as (X & Y & Z1). split; [exact X|]. split; [exact Y|].
        intros [|i] m u E; cbn [nth_error firstn map fst] in *.
        * injection E as <- <-. destruct (in_dec (list_eq_dec Z.eq_dec) n (seen ++ [])) as [|NI]; [reflexivity|]. exfalso. apply NI. rewrite app_nil_r. exact I.
        * rewrite (Z1 i m u E). destruct (in_dec _ m (seen ++ map fst (firstn i l))) as [J|J]; destruct (in_dec _ m (seen ++ n :: map fst (firstn i l))) as [K|K]; try reflexivity; exfalso.
          -- apply K. apply in_app_or in J. apply in_or_app. destruct J; [auto|right; right; assumption].
          -- apply J. apply in_app_or in K. apply in_or_app. destruct K as [K|[<-|K]]; auto.
      + destruct B as (w1 & -> & H1); [rewrite <- S; exact N|].
        assert (ND1 : NoDup (map fst (done ++ [(n, v)]))).
        { rewrite map_app. cbn [map fst]. clear - ND N S. rewrite S in N. clear S. induction (map fst done) as [|a d IHd]; cbn [app]; [constructor; [auto|constructor]|].
          inversion ND as [|? ? P Q]; subst. constructor; [|apply IHd; [exact Q|intros I; apply N; right; exact I]]. intros I. apply in_app_or in I. destruct I as [I|[->|[]]]; [contradiction|]. apply N. left. reflexivity. }
        assert (S1 : forall m, In m (n :: seen) <-> In m (map fst (done ++ [(n, v)]))).
        { intros m. rewrite map_app, in_app_iff. cbn. rewrite <- S. intuition. }
        specialize (IH (done ++ [(n, v)]) w1 (n :: seen) ND1 H1 S1). destruct (adds w1 l) as [bs w']. destruct IH as (X & Y & Z1). rewrite <- app_assoc in X, Y. split; [exact X|]. split; [exact Y|].
        intros [|i] m u E; cbn [nth_error firstn map fst] in *.
        * injection E as <- <-. destruct (in_dec (list_eq_dec Z.eq_dec) n (seen ++ [])) as [NI|]; [|reflexivity]. exfalso. rewrite app_nil_r in NI. contradiction.
        * rewrite (Z1 i m u E). destruct (in_dec _ m ((n :: seen) ++ map fst (firstn i l))) as [J|J]; destruct (in_dec _ m (seen ++ n :: map fst (firstn i l))) as [K|K]; try reflexivity; exfalso.
          -- apply K. destruct J as [<-|J]; [apply in_or_app; right; left; reflexivity|]. apply in_app_or in J. apply in_or_app. destruct J; [auto|right; right; assumption].
          -- apply J. apply in_app_or in K. destruct K as [K|[<-|K]]; [right; apply in_or_app; auto|left; reflexivity|right; apply in_or_app; auto]. }
  intros l. specialize (G l [] (newWeights V) [] (NoDup_nil _)). destruct (adds (newWeights V) l) as [bs w].
  destruct G as (ND & [S F] & B).
  { split; [reflexivity|]. intros n i. cbn. split; [discriminate|intros [v N]; destruct i; discriminate]. }
  { intros n. tauto. }
  cbn [app] in *. split; [exact S|]. split; [exact B|]. split.
  - intros n v I. apply In_nth_error in I. destruct I as [i I]. unfold at_. rewrite (proj2 (F n i)) by eauto. rewrite S. erewrite map_nth_error by exact I. reflexivity.
  - intros n N. unfold at_. destruct (wfind (w_map V w) n) as [i|] eqn:E; [|reflexivity]. exfalso. apply N. destruct (proj1 (F n i) E) as [v I]. apply nth_error_In in I.
    assert (SUB : forall l seen, In (n, v) (firsts seen l) -> In n (map fst l)).
    { clear. induction l as [|[m u] l IH]; intros seen I; [contradiction|]. cbn [firsts] in I. destruct (in_dec _ m seen); [right; eapply IH, I|]. destruct I as [E|I]; [injection E as -> ->; left; reflexivity|right; eapply IH, I]. }
    eapply SUB, I.
Qed.
End W.
Example C46_example : adds (newWeights Z) [([65], 10); ([66], 20); ([65], 30)] = ([true; true; false], {| w_slice := [10; 20]; w_map := [([66], 1%nat); ([65], 0%nat)] |}). Proof. reflexivity. Qed.

(* ---- C45 ---- *)
Lemma upd_eq {A} (f : nat -> A) i x j : upd f i x j = if Nat.eqb i j then x else f j. Proof. reflexivity. Qed.
Lemma remove1_In p l q : NoDup l -> (In q (remove1 p l) <-> q <> p /\ In q l).
Proof.
  induction l as [|a l IH]; intros N; cbn [remove1 In]; [tauto|]. inversion N as [|? ? A B]; subst. destruct (Nat.eqb_spec a p) as [->|NE].
  - split; [intros I; split; [intros ->; contradiction|auto]|intros [X [->|I]]; [contradiction|exact I]].
  - cbn [In]. rewrite (IH B). split; [intros [->|[X I]]; auto|intros [X [->|I]]; auto].
Qed.
Lemma remove1_nodup p l : NoDup l -> NoDup (remove1 p l).
Proof.
  induction l as [|a l IH]; intros N; cbn [remove1]; [constructor|]. inversion N as [|? ? A B]; subst. destruct (Nat.eqb_spec a p) as [->|NE]; [exact B|]. constructor; [|apply IH, B].
  rewrite (remove1_In p l a B). tauto.
Qed.
Lemma remove1_no p l : ~ In p l -> remove1 p l = l.
Proof. induction l as [|a l IH]; intros N; cbn [remove1]; [reflexivity|]. destruct (Nat.eqb_spec a p) as [->|NE]; [exfalso; apply N; left; reflexivity|]. rewrite IH; [reflexivity|]. intros I. apply N. right. exact I. Qed.
Lemma nodup_snoc {A} (l : list A) p : NoDup l -> ~ In p l -> NoDup (l ++ [p]).
Proof.
  intros N I. induction N as [|a l X N IH]; cbn [app]; [constructor; [auto|constructor]|]. constructor; [|apply IH; intros J; apply I; right; exact J].
  intros J. apply in_app_or in J. destruct J as [J|[<-|[]]]; [contradiction|]. apply I. left. reflexivity.
Qed.
(* a particle is in the lists of the vertices it names, once *)
Record graph_ok (h : heap) : Prop := {
  g_in : forall p v, In p (v_in (verts h v)) <-> p_end (parts h p) = Some v;
  g_out : forall p v, In p (v_out (verts h v)) <-> p_prod (parts h p) = Some v;
  g_nin : forall v, NoDup (v_in (verts h v));
  g_nout : forall v, NoDup (v_out (verts h v)) }.
Definition newcode (h : heap) (e p : nat) : Z := if p_bc (parts h p) =? 0 then e_bcp (evts h e) + 1 else p_bc (parts h p).
Definition evt_after (h : heap) (e p : nat) : evt :=
  {| e_verts := e_verts (evts h e); e_parts := set (e_parts (evts h e)) (newcode h e p) p;
     e_bcp := if p_bc (parts h p) =? 0 then e_bcp (evts h e) + 1 else e_bcp (evts h e); e_bcv := e_bcv (evts h e); e_nil := false |}.
Lemma in_spec h v p h' : graph_ok h -> addParticleIn h v p = Ok h' -> exists e, v_ev (verts h v) = Some e /\ e_nil (evts h e) = false /\
  (forall w, v_in (verts h' w) = remove1 p (v_in (verts h w)) ++ (if Nat.eqb v w then [p] else []) /\ v_out (verts h' w) = v_out (verts h w) /\ v_bc (verts h' w) = v_bc (verts h w) /\ v_ev (verts h' w) = v_ev (verts h w)) /\
  (forall q, p_prod (parts h' q) = p_prod (parts h q) /\ p_end (parts h' q) = (if Nat.eqb p q then Some v else p_end (parts h q)) /\ p_bc (parts h' q) = (if Nat.eqb p q then newcode h e p else p_bc (parts h q))) /\
  (forall e', evts h' e' = if Nat.eqb e e' then evt_after h e p else evts h e').
Proof.
  intros G. unfold addParticleIn.
  set (h1 := match p_end (parts h p) with Some w => removeParticleIn h w p | None => h end). set (h2 := removeParticleIn h1 v p).
  assert (P2 : parts h2 = parts h /\ evts h2 = evts h) by (unfold h2, h1; destruct (p_end (parts h p)); split; reflexivity). destruct P2 as [P2 E2].
  assert (V2 : forall w, verts h2 w = {| v_bc := v_bc (verts h w); v_in := remove1 p (v_in (verts h w)); v_out := v_out (verts h w); v_ev := v_ev (verts h w) |}).
  { intros w. assert (V1 : forall w, verts h1 w = {| v_bc := v_bc (verts h w); v_in := remove1 p (v_in (verts h w)); v_out := v_out (verts h w); v_ev := v_ev (verts h w) |}).
    { intros u. unfold h1. destruct (p_end (parts h p)) as [x|] eqn:PE; [cbn; unfold upd; destruct (Nat.eqb_spec x u) as [->|N]; [reflexivity|]|].
      - rewrite remove1_no; [destruct (verts h u); reflexivity|]. rewrite (g_in h G). congruence.
      - rewrite remove1_no; [destruct (verts h u); reflexivity|]. rewrite (g_in h G). congruence. }
    unfold h2. cbn. unfold upd. destruct (Nat.eqb_spec v w) as [->|N]; [|apply V1]. rewrite V1. cbn. f_equal. apply remove1_no. rewrite remove1_In by apply (g_nin h G). tauto. }
  clearbody h2. clear h1. rewrite V2. cbn [v_ev]. destruct (v_ev (verts h v)) as [e|] eqn:VE; [|discriminate]. intros H. exists e. split; [reflexivity|].
  unfold codeOf in H. rewrite P2 in H. destruct (p_bc (parts h p) =? 0) eqn:BC.
  - unfold pBarcode, putPart in H. cbn in H. unfold upd in H. rewrite Nat.eqb_refl in H. cbn in H. rewrite E2, P2 in H. destruct (e_nil (evts h e)) eqn:EN; [discriminate|]. split; [reflexivity|]. injection H as <-.
    unfold newcode, evt_after, newcode. rewrite BC. cbn. split; [|split].
    + intros w. unfold upd. destruct (Nat.eqb_spec v w) as [<-|N]; rewrite V2; cbn; rewrite ?app_nil_r; auto.
    + intros q. unfold upd. rewrite ?P2. destruct (Nat.eqb_spec p q) as [<-|N]; cbn; auto.
    + intros e'. unfold upd. rewrite ?E2. destruct (Nat.eqb_spec e e') as [<-|N]; cbn; reflexivity.
  - unfold putPart in H. cbn in H. rewrite E2, P2 in H. destruct (e_nil (evts h e)) eqn:EN; [discriminate|]. split; [reflexivity|]. injection H as <-.
    unfold newcode, evt_after, newcode. rewrite BC. cbn. split; [|split].
    + intros w. unfold upd. destruct (Nat.eqb_spec v w) as [<-|N]; rewrite V2; cbn; rewrite ?app_nil_r; auto.
    + intros q. unfold upd. rewrite ?P2. destruct (Nat.eqb_spec p q) as [<-|N]; cbn; auto.
    + intros e'. unfold upd. rewrite ?E2. destruct (Nat.eqb_spec e e') as [<-|N]; cbn; reflexivity.
Qed.
Lemma out_spec h v p h' : graph_ok h -> addParticleOut h v p = Ok h' -> exists e, v_ev (verts h v) = Some e /\ e_nil (evts h e) = false /\
  (forall w, v_out (verts h' w) = remove1 p (v_out (verts h w)) ++ (if Nat.eqb v w then [p] else []) /\ v_in (verts h' w) = v_in (verts h w) /\ v_bc (verts h' w) = v_bc (verts h w) /\ v_ev (verts h' w) = v_ev (verts h w)) /\
  (forall q, p_end (parts h' q) = p_end (parts h q) /\ p_prod (parts h' q) = (if Nat.eqb p q then Some v else p_prod (parts h q)) /\ p_bc (parts h' q) = (if Nat.eqb p q then newcode h e p else p_bc (parts h q))) /\
  (forall e', evts h' e' = if Nat.eqb e e' then evt_after h e p else evts h e').
Proof.
  intros G. unfold addParticleOut.
  set (h1 := match p_prod (parts h p) with Some w => removeParticleOut h w p | None => h end). set (h2 := removeParticleOut h1 v p).
  assert (P2 : parts h2 = parts h /\ evts h2 = evts h) by (unfold h2, h1; destruct (p_prod (parts h p)); split; reflexivity). destruct P2 as [P2 E2].
  assert (V2 : forall w, verts h2 w = {| v_bc := v_bc (verts h w); v_in := v_in (verts h w); v_out := remove1 p (v_out (verts h w)); v_ev := v_ev (verts h w) |}).
  { intros w. assert (V1 : forall w, verts h1 w = {| v_bc := v_bc (verts h w); v_in := v_in (verts h w); v_out := remove1 p (v_out (verts h w)); v_ev := v_ev (verts h w) |}).
    { intros u. unfold h1. destruct (p_prod (parts h p)) as [x|] eqn:PE; [cbn; unfold upd; destruct (Nat.eqb_spec x u) as [->|N]; [reflexivity|]|].
      - rewrite remove1_no; [destruct (verts h u); reflexivity|]. rewrite (g_out h G). congruence.
      - rewrite remove1_no; [destruct (verts h u); reflexivity|]. rewrite (g_out h G). congruence. }
    unfold h2. cbn. unfold upd. destruct (Nat.eqb_spec v w) as [->|N]; [|apply V1]. rewrite V1. cbn. f_equal. apply remove1_no. rewrite remove1_In by apply (g_nout h G). tauto. }
  clearbody h2. clear h1. rewrite V2. cbn [v_ev]. destruct (v_ev (verts h v)) as [e|] eqn:VE; [|discriminate]. intros H. exists e. split; [reflexivity|].
  unfold codeOf in H. rewrite P2 in H. destruct (p_bc (parts h p) =? 0) eqn:BC.
  - unfold pBarcode, putPart in H. cbn in H. unfold upd in H. rewrite Nat.eqb_refl in H. cbn in H. rewrite E2, P2 in H. destruct (e_nil (evts h e)) eqn:EN; [discriminate|]. split; [reflexivity|]. injection H as <-.
    unfold newcode, evt_after, newcode. rewrite BC. cbn. split; [|split].
    + intros w. unfold upd. destruct (Nat.eqb_spec v w) as [<-|N]; rewrite V2; cbn; rewrite ?app_nil_r; auto.
    + intros q. unfold upd. rewrite ?P2. destruct (Nat.eqb_spec p q) as [<-|N]; cbn; auto.
    + intros e'. unfold upd. rewrite ?E2. destruct (Nat.eqb_spec e e') as [<-|N]; cbn; reflexivity.
  - unfold putPart in H. cbn in H. rewrite E2, P2 in H. destruct (e_nil (evts h e)) eqn:EN; [discriminate|]. split; [reflexivity|]. injection H as <-.
    unfold newcode, evt_after, newcode. rewrite BC. cbn. split; [|split].
    + intros w. unfold upd. destruct (Nat.eqb_spec v w) as [<-|N]; rewrite V2; cbn; rewrite ?app_nil_r; auto.
    + intros q. unfold upd. rewrite ?P2. destruct (Nat.eqb_spec p q) as [<-|N]; cbn; auto.
    + intros e'. unfold upd. rewrite ?E2. destruct (Nat.eqb_spec e e') as [<-|N]; cbn; reflexivity.
Qed.
Lemma move_pv : forall ps h orig e b h', moveParts h orig e b ps = Ok h' -> parts h' = parts h /\ verts h' = verts h.
Proof.
  induction ps as [|p ps IH]; intros h orig e b h' H; cbn [moveParts] in H; [injection H as ->; auto|].
  destruct (b && _); [eapply IH; exact H|]. unfold putPart in H. destruct (e_nil (evts h e)); [discriminate|]. cbn [rbind] in H. apply IH in H. destruct H as [A B]. rewrite A, B.
  destruct (moved orig e); split; reflexivity.
Qed.
Lemma vertex_pv h e v h' : addVertex h e v = Ok h' -> parts h' = parts h /\
  exists bc, forall w, verts h' w = if Nat.eqb v w then {| v_bc := bc; v_in := v_in (verts h v); v_out := v_out (verts h v); v_ev := Some e |} else verts h w.
Proof.
  unfold addVertex. intros H. set (q := if v_bc (verts h v) =? 0 then vBarcode h e else (h, v_bc (verts h v))) in H. destruct q as [h1 bc] eqn:Q.
  assert (H1 : parts h1 = parts h /\ verts h1 = verts h).
  { unfold q in Q. destruct (v_bc (verts h v) =? 0); [unfold vBarcode in Q; injection Q as <- _; split; reflexivity|injection Q as <- _; auto]. }
  unfold putVert in H. cbn [rbind] in H. destruct (e_nil _); [discriminate|]. cbn [rbind] in H.
  match type of H with rbind ?m _ = _ => destruct m as [h5|] eqn:M1; [|discriminate] end. cbn [rbind] in H. apply move_pv in M1. apply move_pv in H. destruct M1 as [A1 A2]. destruct H as [B1 B2].
  rewrite B1, A1. destruct H1 as [C1 C2]. split; [destruct (moved _ _); exact C1|]. exists bc. intros w. rewrite B2, A2. destruct (moved _ _); cbn; unfold upd; rewrite C2; reflexivity.
Qed.
Lemma graph_step h o h' : graph_ok h -> (forall e, o <> ODelete e) -> exec h o = Ok h' -> graph_ok h'.
Proof.
  intros G ND H. destruct o as [e v|v p|v p|e]; cbn [exec] in H; [| | |exfalso; eapply ND; reflexivity].
  - apply vertex_pv in H. destruct H as (P & bc & V). destruct G as [A B C D]. constructor; intros; rewrite V, ?P; (destruct (Nat.eqb_spec v v0) as [<-|N]; cbn); auto.
  - apply (in_spec h v p h' G) in H. destruct H as (e & _ & _ & V & P & _). destruct G as [A B C D]. constructor.
    + intros q w. destruct (V w) as (-> & _). destruct (P q) as (_ & -> & _). rewrite in_app_iff, (remove1_In p _ q (C w)), A. destruct (Nat.eqb_spec v w) as [<-|N], (Nat.eqb_spec p q) as [<-|N']; cbn; split; intros X; auto.
      * destruct X as [[_ X]|[X|[]]]; [exact X|congruence].
      * destruct X as [[X _]|[]]. congruence.
      * congruence.
      * destruct X as [[_ X]|[]]. exact X.
    + intros q w. destruct (V w) as (_ & -> & _). destruct (P q) as (-> & _). apply B.
    + intros w. destruct (V w) as (-> & _). destruct (Nat.eqb v w); [|rewrite app_nil_r; apply remove1_nodup, C]. apply nodup_snoc; [apply remove1_nodup, C|]. rewrite remove1_In by apply C. tauto.
    + intros w. destruct (V w) as (_ & -> & _). apply D.
  - apply (out_spec h v p h' G) in H. destruct H as (e & _ & _ & V & P & _). destruct G as [A B C D]. constructor.
    + intros q w. destruct (V w) as (_ & -> & _). destruct (P q) as (-> & _). apply A.
    + intros q w. destruct (V w) as (-> & _). destruct (P q) as (_ & -> & _). rewrite in_app_iff, (remove1_In p _ q (D w)), B. destruct (Nat.eqb_spec v w) as [<-|N], (Nat.eqb_spec p q) as [<-|N']; cbn; split; intros X; auto.
      * destruct X as [[_ X]|[X|[]]]; [exact X|congruence].
      * destruct X as [[X _]|[]]. congruence.
      * congruence.
      * destruct X as [[_ X]|[]]. exact X.
    + intros w. destruct (V w) as (_ & -> & _). apply C.
    + intros w. destruct (V w) as (-> & _). destruct (Nat.eqb v w); [|rewrite app_nil_r; apply remove1_nodup, D]. apply nodup_snoc; [apply remove1_nodup, D|]. rewrite remove1_In by apply D. tauto.
Qed.
(* particles and vertices not yet used, events as new; barcodes may be given *)
Definition fresh (h : heap) : Prop :=
  (forall p, p_prod (parts h p) = None /\ p_end (parts h p) = None) /\ (forall v, v_in (verts h v) = [] /\ v_out (verts h v) = [] /\ v_ev (verts h v) = None) /\
  (forall e, e_verts (evts h e) = [] /\ e_parts (evts h e) = [] /\ e_bcp (evts h e) = 0 /\ e_bcv (evts h e) = 0 /\ e_nil (evts h e) = false).
Definition builds (os : list op) : Prop := forall e, ~ In (ODelete e) os.
Lemma fresh_graph h : fresh h -> graph_ok h.
Proof.
  intros (P & V & _). constructor.
  - intros p v. rewrite (proj1 (V v)), (proj2 (P p)). split; [intros []|discriminate].
  - intros p v. rewrite (proj1 (proj2 (V v))), (proj1 (P p)). split; [intros []|discriminate].
  - intros v. rewrite (proj1 (V v)). constructor.
  - intros v. rewrite (proj1 (proj2 (V v))). constructor.
Qed.
Lemma graph_execs : forall os h h', graph_ok h -> builds os -> execs h os = Ok h' -> graph_ok h'.
Proof.
  induction os as [|o os IH]; intros h h' G B H; cbn [execs] in H; [injection H as <-; exact G|]. destruct (exec h o) as [h1|] eqn:E; [|discriminate]. cbn [rbind] in H.
  apply (IH h1); [|intros e I; apply (B e); right; exact I|exact H]. eapply graph_step; [exact G| |exact E]. intros e ->. apply (B e). left. reflexivity.
Qed.
(* Any history of AddVertex, AddParticleIn and AddParticleOut, on any number of events. *)
Theorem C45_graph : forall h0 os h, fresh h0 -> builds os -> execs h0 os = Ok h -> forall p v,
  (In p (v_in (verts h v)) <-> p_end (parts h p) = Some v) /\ (In p (v_out (verts h v)) <-> p_prod (parts h p) = Some v) /\ NoDup (v_in (verts h v)) /\ NoDup (v_out (verts h v)).
Proof. intros h0 os h F B H p v. destruct (graph_execs os h0 h (fresh_graph _ F) B H) as [A1 A2 A3 A4]. auto. Qed.

(* histories on one event *)
Definition single (e : nat) (os : list op) : Prop := builds os /\ forall e' v, In (OVertex e' v) os -> e' = e.
Definition attached (h : heap) (p : nat) : Prop := p_prod (parts h p) <> None \/ p_end (parts h p) <> None.
Definition owned (e : nat) (h : heap) (v : nat) : Prop := v_ev (verts h v) = Some e.
Record ev_ok (e : nat) (h : heap) : Prop := {
  x_ev : forall v, v_ev (verts h v) = None \/ v_ev (verts h v) = Some e;
  x_own : forall v, v_in (verts h v) <> [] \/ v_out (verts h v) <> [] -> v_ev (verts h v) = Some e;
  x_nil : e_nil (evts h e) = false;
  x_cnt : 0 <= e_bcp (evts h e) /\ 0 <= e_bcv (evts h e);
  x_p1 : forall bc p, get (e_parts (evts h e)) bc = Some p -> p_bc (parts h p) = bc /\ attached h p;
  x_p2 : forall p, attached h p -> p_bc (parts h p) <> 0 /\ get (e_parts (evts h e)) (p_bc (parts h p)) <> None;
  x_v1 : forall bc v, get (e_verts (evts h e)) bc = Some v -> v_bc (verts h v) = bc /\ owned e h v;
  x_v2 : forall v, owned e h v -> v_bc (verts h v) <> 0 /\ get (e_verts (evts h e)) (v_bc (verts h v)) <> None }.
Lemma move_spec : forall ps h orig e b, moved orig e = None -> e_nil (evts h e) = false -> exists h', moveParts h orig e b ps = Ok h' /\
  e_nil (evts h' e) = false /\ e_verts (evts h' e) = e_verts (evts h e) /\ e_bcp (evts h' e) = e_bcp (evts h e) /\ e_bcv (evts h' e) = e_bcv (evts h e) /\
  (forall bc p, get (e_parts (evts h' e)) bc = Some p -> get (e_parts (evts h e)) bc = Some p \/ (In p ps /\ p_bc (parts h p) = bc)) /\
  (forall bc, get (e_parts (evts h e)) bc <> None -> get (e_parts (evts h' e)) bc <> None).
Proof.
  induction ps as [|p ps IH]; intros h orig e b M N; cbn [moveParts]; [exists h; intuition|]. destruct (b && _).
  - destruct (IH h orig e b M N) as (h' & H1 & H2 & H3 & H4 & H5 & H6 & H7). exists h'. repeat split; auto. intros bc q G. destruct (H6 bc q G) as [X|[X Y]]; [auto|right; split; [right; exact X|exact Y]].
  - unfold putPart. rewrite N. cbn [rbind]. rewrite M.
    match goal with |- exists h', moveParts ?h1 _ _ _ _ = _ /\ _ => destruct (IH h1 orig e b M) as (h' & H1 & H2 & H3 & H4 & H5 & H6 & H7); [cbn; unfold upd; rewrite Nat.eqb_refl; reflexivity|] end.
    exists h'. cbn in H3, H4, H5, H6, H7. unfold upd in H3, H4, H5, H6, H7. rewrite Nat.eqb_refl in *. cbn in *. repeat split; auto.
    + intros bc q G. destruct (H6 bc q G) as [X|[X Y]]; [|right; split; [right; exact X|exact Y]]. rewrite get_set in X. destruct (Z.eqb_spec (p_bc (parts h p)) bc) as [E|]; [|auto]. injection X as <-. right. split; [left; reflexivity|exact E].
    + intros bc G. apply H7. rewrite get_set. destruct (_ =? _); [discriminate|exact G].
Qed.
Definition vcode (h : heap) (e v : nat) : Z := if v_bc (verts h v) =? 0 then - (e_bcv (evts h e) + 1) else v_bc (verts h v).
Lemma vertex_spec h e v : ev_ok e h -> exists h', addVertex h e v = Ok h' /\ parts h' = parts h /\
  (forall w, verts h' w = if Nat.eqb v w then {| v_bc := vcode h e v; v_in := v_in (verts h v); v_out := v_out (verts h v); v_ev := Some e |} else verts h w) /\
  e_nil (evts h' e) = false /\ e_verts (evts h' e) = set (e_verts (evts h e)) (vcode h e v) v /\ e_bcp (evts h' e) = e_bcp (evts h e) /\
  e_bcv (evts h' e) = (if v_bc (verts h v) =? 0 then e_bcv (evts h e) + 1 else e_bcv (evts h e)) /\
  (forall bc p, get (e_parts (evts h' e)) bc = Some p -> get (e_parts (evts h e)) bc = Some p \/ ((In p (v_in (verts h v)) \/ In p (v_out (verts h v))) /\ p_bc (parts h p) = bc)) /\
  (forall bc, get (e_parts (evts h e)) bc <> None -> get (e_parts (evts h' e)) bc <> None).
Proof.
  intros X. assert (M : moved (v_ev (verts h v)) e = None) by (destruct (x_ev e h X v) as [->| ->]; cbn; [reflexivity|rewrite Nat.eqb_refl; reflexivity]).
  unfold addVertex. set (q := if v_bc (verts h v) =? 0 then vBarcode h e else (h, v_bc (verts h v))). destruct q as [h1 bc] eqn:Q.
  assert (H1 : parts h1 = parts h /\ verts h1 = verts h /\ bc = vcode h e v /\ e_nil (evts h1 e) = false /\ e_verts (evts h1 e) = e_verts (evts h e) /\ e_parts (evts h1 e) = e_parts (evts h e) /\
     e_bcp (evts h1 e) = e_bcp (evts h e) /\ e_bcv (evts h1 e) = (if v_bc (verts h v) =? 0 then e_bcv (evts h e) + 1 else e_bcv (evts h e))).
  { unfold q in Q. unfold vcode. destruct (v_bc (verts h v) =? 0).
    - unfold vBarcode in Q. injection Q as <- <-. cbn. unfold upd. rewrite Nat.eqb_refl. cbn. repeat split; auto. apply (x_nil e h X).
    - injection Q as <- <-. repeat split; auto. apply (x_nil e h X). }
  clearbody q. clear Q q. destruct H1 as (P1 & V1 & -> & N1 & EV & EP & B1 & B2).
  unfold putVert. cbn [setVert evts]. rewrite N1. cbn [rbind]. rewrite M.
  match goal with |- context [moveParts ?h4 _ _ true _] => set (h4' := h4) end.
  assert (S4 : evts h4' e = {| e_verts := set (e_verts (evts h e)) (vcode h e v) v; e_parts := e_parts (evts h e); e_bcp := e_bcp (evts h e); e_bcv := (if v_bc (verts h v) =? 0 then e_bcv (evts h e) + 1 else e_bcv (evts h e)); e_nil := false |}).
  { unfold h4'. cbn. unfold upd. rewrite Nat.eqb_refl, EV, EP, B1, B2. reflexivity. }
  assert (P4 : parts h4' = parts h) by (unfold h4'; cbn; exact P1).
  assert (V4 : forall w, verts h4' w = if Nat.eqb v w then {| v_bc := vcode h e v; v_in := v_in (verts h v); v_out := v_out (verts h v); v_ev := Some e |} else verts h w) by (intros w; unfold h4'; cbn; unfold upd; rewrite V1; reflexivity).
  clearbody h4'. destruct (move_spec (v_in (verts h v)) h4' (v_ev (verts h v)) e true M) as (h5 & M1 & N5 & V5 & C5 & D5 & G5 & K5); [rewrite S4; reflexivity|].
  rewrite M1. cbn [rbind]. destruct (move_spec (v_out (verts h v)) h5 (v_ev (verts h v)) e false M N5) as (h6 & M2 & N6 & V6 & C6 & D6 & G6 & K6). exists h6. split; [exact M2|].
  apply move_pv in M1. apply move_pv in M2. destruct M1 as [PA VA]. destruct M2 as [PB VB]. rewrite S4 in *. cbn in V5, C5, D5, G5, K5.
  split; [congruence|]. split; [intros w; rewrite VB, VA; apply V4|]. split; [exact N6|]. split; [congruence|]. split; [congruence|]. split; [congruence|]. split.
  - intros bc p G. destruct (G6 bc p G) as [G'|[I E]].
    + destruct (G5 bc p G') as [G''|[I E]]; [auto|]. right. rewrite P4 in E. auto.
    + right. rewrite PA, P4 in E. auto.
  - intros bc G. apply K6, K5, G.
Qed.
Lemma part_step e h h' v p : ev_ok e h -> v_ev (verts h v) = Some e ->
  (forall w, v_bc (verts h' w) = v_bc (verts h w) /\ v_ev (verts h' w) = v_ev (verts h w)) ->
  (forall w, v_in (verts h' w) <> [] \/ v_out (verts h' w) <> [] -> w = v \/ v_in (verts h w) <> [] \/ v_out (verts h w) <> []) ->
  (forall q, attached h' q <-> attached h q \/ q = p) -> (forall q, p_bc (parts h' q) = if Nat.eqb p q then newcode h e p else p_bc (parts h q)) -> evts h' e = evt_after h e p -> ev_ok e h'.
Proof.
  intros X VE V L A B E. assert (NC : newcode h e p <> 0).
  { unfold newcode. destruct (Z.eqb_spec (p_bc (parts h p)) 0) as [Z|Z]; [pose proof (x_cnt e h X); lia|exact Z]. }
  constructor.
  - intros w. rewrite (proj2 (V w)). apply (x_ev e h X).
  - intros w H. rewrite (proj2 (V w)). destruct (L w H) as [->|H']; [exact VE|apply (x_own e h X), H'].
  - rewrite E. reflexivity.
  - rewrite E. cbn. pose proof (x_cnt e h X). destruct (_ =? 0); lia.
  - intros bc q. rewrite E. cbn [evt_after e_parts]. rewrite get_set, A, B. destruct (Z.eqb_spec (newcode h e p) bc) as [<-|N].
    + intros G. injection G as <-. rewrite Nat.eqb_refl. auto.
    + intros G. destruct (x_p1 e h X bc q G) as [BC AT]. split; [|auto]. destruct (Nat.eqb_spec p q) as [<-|]; [|exact BC]. destruct (x_p2 e h X p AT) as [NZ _].
      unfold newcode in *. destruct (Z.eqb_spec (p_bc (parts h p)) 0); [contradiction|exact BC].
  - intros q. rewrite E. cbn [evt_after e_parts]. rewrite get_set, A, B. intros AT. destruct (Nat.eqb_spec p q) as [<-|NE].
    + split; [exact NC|]. rewrite Z.eqb_refl. discriminate.
    + destruct AT as [AT|AT]; [|congruence]. destruct (x_p2 e h X q AT) as [NZ G]. split; [exact NZ|]. destruct (_ =? _); [discriminate|exact G].
  - intros bc w. rewrite E. cbn [evt_after e_verts]. unfold owned. rewrite (proj1 (V w)), (proj2 (V w)). apply (x_v1 e h X).
  - intros w. rewrite E. cbn [evt_after e_verts]. unfold owned. rewrite (proj1 (V w)), (proj2 (V w)). apply (x_v2 e h X).
Qed.
Lemma nonnil_remove1 p l : remove1 p l <> [] -> l <> []. Proof. destruct l; [auto|discriminate]. Qed.
Lemma in_event e h v p h' : graph_ok h -> ev_ok e h -> addParticleIn h v p = Ok h' -> ev_ok e h' /\ (forall q, p_bc (parts h' q) = if Nat.eqb p q then newcode h e p else p_bc (parts h q)) /\
  (forall w, v_bc (verts h' w) = v_bc (verts h w)) /\ evts h' e = evt_after h e p.
Proof.
  intros G X H. destruct (in_spec h v p h' G H) as (e' & VE & _ & V & P & E). assert (e' = e) by (destruct (x_ev e h X v); congruence). subst e'. specialize (E e). rewrite Nat.eqb_refl in E.
  split; [|split; [intros q; apply P|split; [intros w; apply V|exact E]]]. apply (part_step e h h' v p X VE).
  - intros w. split; apply V.
  - intros w. destruct (V w) as (-> & -> & _). destruct (Nat.eqb_spec v w) as [->|N]; [auto|]. rewrite app_nil_r. intros [Q|Q]; [right; left; eapply nonnil_remove1, Q|auto].
  - intros q. unfold attached. destruct (P q) as (-> & -> & _). destruct (Nat.eqb_spec p q) as [<-|N]; [|intuition congruence]. split; [auto|right; discriminate].
  - intros q. apply P.
  - exact E.
Qed.
Lemma out_event e h v p h' : graph_ok h -> ev_ok e h -> addParticleOut h v p = Ok h' -> ev_ok e h' /\ (forall q, p_bc (parts h' q) = if Nat.eqb p q then newcode h e p else p_bc (parts h q)) /\
  (forall w, v_bc (verts h' w) = v_bc (verts h w)) /\ evts h' e = evt_after h e p.
Proof.
  intros G X H. destruct (out_spec h v p h' G H) as (e' & VE & _ & V & P & E). assert (e' = e) by (destruct (x_ev e h X v); congruence). subst e'. specialize (E e). rewrite Nat.eqb_refl in E.
  split; [|split; [intros q; apply P|split; [intros w; apply V|exact E]]]. apply (part_step e h h' v p X VE).
  - intros w. split; apply V.
  - intros w. destruct (V w) as (-> & -> & _). destruct (Nat.eqb_spec v w) as [->|N]; [auto|]. rewrite app_nil_r. intros [Q|Q]; [auto|right; right; eapply nonnil_remove1, Q].
  - intros q. unfold attached. destruct (P q) as (-> & -> & _). destruct (Nat.eqb_spec p q) as [<-|N]; [|intuition congruence]. split; [auto|left; discriminate].
  - intros q. apply P.
  - exact E.
Qed.
Lemma vertex_event e h v h' : graph_ok h -> ev_ok e h -> addVertex h e v = Ok h' -> ev_ok e h' /\ parts h' = parts h /\ (forall w, v_bc (verts h' w) = if Nat.eqb v w then vcode h e v else v_bc (verts h w)) /\
  e_bcp (evts h' e) = e_bcp (evts h e) /\ e_bcv (evts h' e) = (if v_bc (verts h v) =? 0 then e_bcv (evts h e) + 1 else e_bcv (evts h e)) /\ (forall w, owned e h' w <-> w = v \/ owned e h w).
Proof.
  intros G X H. destruct (vertex_spec h e v X) as (h2 & H2 & P & V & N & EV & C & D & G1 & G2). rewrite H in H2. injection H2 as <-.
  assert (OW : forall w, owned e h' w <-> w = v \/ owned e h w).
  { intros w. unfold owned. rewrite V. destruct (Nat.eqb_spec v w) as [<-|NE]; cbn; [tauto|]. intuition congruence. }
  assert (NC : vcode h e v <> 0).
  { unfold vcode. destruct (Z.eqb_spec (v_bc (verts h v)) 0) as [Z|Z]; [pose proof (x_cnt e h X); lia|exact Z]. }
  assert (AT : forall q, attached h' q <-> attached h q) by (intros q; unfold attached; rewrite P; tauto).
  split; [|split; [exact P|split; [intros w; rewrite V; destruct (Nat.eqb v w); reflexivity|auto]]].
  constructor.
  - intros w. rewrite V. destruct (Nat.eqb v w); cbn; [auto|apply (x_ev e h X)].
  - intros w. rewrite V. destruct (Nat.eqb v w); cbn; [auto|apply (x_own e h X)].
  - exact N.
  - rewrite C, D. pose proof (x_cnt e h X). destruct (_ =? 0); lia.
  - intros bc p GP. rewrite P, AT. destruct (G1 bc p GP) as [GP'|[I E]]; [apply (x_p1 e h X), GP'|]. split; [exact E|]. unfold attached. destruct I as [I|I]; [right; apply (g_in h G) in I|left; apply (g_out h G) in I]; congruence.
  - intros p A. rewrite AT in A. rewrite P. destruct (x_p2 e h X p A) as [NZ GP]. split; [exact NZ|apply G2, GP].
  - intros bc w. rewrite EV, get_set, OW, V. destruct (Z.eqb_spec (vcode h e v) bc) as [<-|NE].
    + intros Q. injection Q as <-. rewrite Nat.eqb_refl. auto.
    + intros Q. destruct (x_v1 e h X bc w Q) as [BC O]. split; [|auto]. destruct (Nat.eqb_spec v w) as [<-|]; [|exact BC]. cbn. destruct (x_v2 e h X v O) as [NZ _]. unfold vcode in *.
      destruct (Z.eqb_spec (v_bc (verts h v)) 0); [contradiction|exact BC].
  - intros w. rewrite OW, V, EV, get_set. intros O. destruct (Nat.eqb_spec v w) as [<-|NE]; cbn [v_bc].
    + split; [exact NC|]. rewrite Z.eqb_refl. discriminate.
    + destruct O as [->|O]; [congruence|]. destruct (x_v2 e h X w O) as [NZ GV]. split; [exact NZ|]. destruct (vcode h e v =? v_bc (verts h w)); [discriminate|exact GV].
Qed.
(* the barcodes after n operations *)
Record codes (e : nat) (h0 h : heap) (n : Z) : Prop := {
  c_p : forall p, p_bc (parts h p) = p_bc (parts h0 p) \/ (p_bc (parts h0 p) = 0 /\ 1 <= p_bc (parts h p) <= e_bcp (evts h e));
  c_pd : forall p q, p_bc (parts h0 p) = 0 -> p_bc (parts h0 q) = 0 -> p_bc (parts h p) <> 0 -> p_bc (parts h p) = p_bc (parts h q) -> p = q;
  c_v : forall v, v_bc (verts h v) = v_bc (verts h0 v) \/ (v_bc (verts h0 v) = 0 /\ - e_bcv (evts h e) <= v_bc (verts h v) <= -1);
  c_vd : forall v w, v_bc (verts h0 v) = 0 -> v_bc (verts h0 w) = 0 -> v_bc (verts h v) <> 0 -> v_bc (verts h v) = v_bc (verts h w) -> v = w;
  c_n : 0 <= e_bcp (evts h e) <= n /\ 0 <= e_bcv (evts h e) <= n }.
Lemma codes_part e h0 h h' n p : codes e h0 h n -> (forall q, p_bc (parts h' q) = if Nat.eqb p q then newcode h e p else p_bc (parts h q)) ->
  (forall w, v_bc (verts h' w) = v_bc (verts h w)) -> evts h' e = evt_after h e p -> codes e h0 h' (n + 1).
Proof.
  intros [A B C D N] P V E. assert (EB : e_bcv (evts h' e) = e_bcv (evts h e)) by (rewrite E; reflexivity).
  assert (EP : e_bcp (evts h' e) = if p_bc (parts h p) =? 0 then e_bcp (evts h e) + 1 else e_bcp (evts h e)) by (rewrite E; reflexivity).
  constructor.
  - intros q. rewrite P, EP. unfold newcode. destruct (Nat.eqb_spec p q) as [<-|NE].
    + destruct (Z.eqb_spec (p_bc (parts h p)) 0) as [Z|Z]; [|specialize (A p); lia]. right. specialize (A p). lia.
    + specialize (A q). destruct (_ =? 0); lia.
  - intros q r. rewrite !P. unfold newcode. intros Q R NZ EQ. destruct (Nat.eqb_spec p q) as [<-|NQ], (Nat.eqb_spec p r) as [<-|NR]; [reflexivity| | |apply B; assumption].
    + destruct (Z.eqb_spec (p_bc (parts h p)) 0) as [Z|Z]; [|apply B; assumption]. exfalso. specialize (A r). lia.
    + destruct (Z.eqb_spec (p_bc (parts h p)) 0) as [Z|Z]; [|apply B; assumption]. exfalso. specialize (A q). lia.
  - intros v. rewrite V, EB. apply C.
  - intros v w. rewrite !V. apply D.
  - rewrite EB, EP. destruct (_ =? 0); lia.
Qed.
Lemma codes_vertex e h0 h h' n v : codes e h0 h n -> parts h' = parts h -> (forall w, v_bc (verts h' w) = if Nat.eqb v w then vcode h e v else v_bc (verts h w)) ->
  e_bcp (evts h' e) = e_bcp (evts h e) -> e_bcv (evts h' e) = (if v_bc (verts h v) =? 0 then e_bcv (evts h e) + 1 else e_bcv (evts h e)) -> codes e h0 h' (n + 1).
Proof.
  intros [A B C D N] P V EP EB. constructor.
  - intros q. rewrite P, EP. apply A.
  - intros q r. rewrite P. apply B.
  - intros q. rewrite V, EB. unfold vcode. destruct (Nat.eqb_spec v q) as [<-|NE].
    + destruct (Z.eqb_spec (v_bc (verts h v)) 0) as [Z|Z]; [|specialize (C v); lia]. right. specialize (C v). lia.
    + specialize (C q). destruct (_ =? 0); lia.
  - intros q r. rewrite !V. unfold vcode. intros Q R NZ EQ. destruct (Nat.eqb_spec v q) as [<-|NQ], (Nat.eqb_spec v r) as [<-|NR]; [reflexivity| | |apply D; assumption].
    + destruct (Z.eqb_spec (v_bc (verts h v)) 0) as [Z|Z]; [|apply D; assumption]. exfalso. specialize (C r). lia.
    + destruct (Z.eqb_spec (v_bc (verts h v)) 0) as [Z|Z]; [|apply D; assumption]. exfalso. specialize (C q). lia.
  - rewrite EB, EP. destruct (_ =? 0); lia.
Qed.
Lemma single_tl e o os : single e (o :: os) -> single e os.
Proof. intros [B S]. split; [intros x I; apply (B x); right; exact I|intros x v I; apply (S x v); right; exact I]. Qed.
Lemma event_execs e h0 : forall os h h' n, single e os -> graph_ok h -> ev_ok e h -> codes e h0 h n -> execs h os = Ok h' -> graph_ok h' /\ ev_ok e h' /\ codes e h0 h' (n + Z.of_nat (length os)).
Proof.
  induction os as [|o os IH]; intros h h' n S G X C H; cbn [execs length] in *; [injection H as <-; rewrite Z.add_0_r; auto|].
  destruct (exec h o) as [h1|] eqn:E; [|discriminate]. cbn [rbind] in H. assert (ND : forall e', o <> ODelete e') by (intros e' ->; apply (proj1 S e'); left; reflexivity).
  pose proof (graph_step h o h1 G ND E) as G1.
  assert (X1 : ev_ok e h1 /\ codes e h0 h1 (n + 1)).
  { destruct o as [e' v|v p|v p|e']; cbn [exec] in E.
    - assert (e' = e) by (apply (proj2 S e' v); left; reflexivity). subst e'. destruct (vertex_event e h v h1 G X E) as (A1 & A2 & A3 & A4 & A5 & _). split; [exact A1|]. eapply codes_vertex; eassumption.
    - destruct (in_event e h v p h1 G X E) as (A1 & A2 & A3 & A4). split; [exact A1|]. eapply codes_part; eassumption.
    - destruct (out_event e h v p h1 G X E) as (A1 & A2 & A3 & A4). split; [exact A1|]. eapply codes_part; eassumption.
    - exfalso. eapply ND. reflexivity. }
  destruct X1 as [X1 C1]. replace (n + Z.of_nat (Datatypes.S (length os))) with (n + 1 + Z.of_nat (length os)) by lia. eapply IH; try eassumption. eapply single_tl, S.
Qed.
Lemma fresh_event e h : fresh h -> ev_ok e h /\ codes e h h 0.
Proof.
  intros (P & V & E). destruct (E e) as (E1 & E2 & E3 & E4 & E5). split; constructor; unfold owned, attached; rewrite ?E1, ?E2, ?E3, ?E4, ?E5; auto.
  - intros v. left. apply V.
  - intros v. destruct (V v) as (-> & -> & _). intuition.
  - lia.
  - intros bc p X. discriminate.
  - intros p X. destruct (P p) as [A B]. rewrite A, B in X. intuition.
  - intros bc v X. discriminate.
  - intros v X. destruct (V v) as (_ & _ & Y). congruence.
  - intros p q A B. congruence.
  - intros p q A B. congruence.
  - lia.
Qed.
(* One event: what hangs on its vertices is in its maps, under its barcode, and nothing else is; if no two have the same barcode. *)
Theorem C45_particles : forall e h0 os h, fresh h0 -> single e os -> execs h0 os = Ok h ->
  (forall p q, attached h p -> attached h q -> p_bc (parts h p) = p_bc (parts h q) -> p = q) ->
  forall bc p, get (e_parts (evts h e)) bc = Some p <-> attached h p /\ p_bc (parts h p) = bc.
Proof.
  intros e h0 os h F S H D bc p. destruct (fresh_event e h0 F) as [X C]. destruct (event_execs e h0 os h0 h 0 S (fresh_graph _ F) X C H) as (G & X' & _). split.
  - intros Q. destruct (x_p1 e h X' bc p Q). auto.
  - intros [A <-]. destruct (x_p2 e h X' p A) as [_ N]. destruct (get (e_parts (evts h e)) (p_bc (parts h p))) as [q|] eqn:Q; [|congruence]. destruct (x_p1 e h X' _ q Q) as [B AQ]. f_equal. symmetry. apply D; auto.
Qed.
Theorem C45_vertices : forall e h0 os h, fresh h0 -> single e os -> execs h0 os = Ok h ->
  (forall v w, owned e h v -> owned e h w -> v_bc (verts h v) = v_bc (verts h w) -> v = w) ->
  (forall bc v, get (e_verts (evts h e)) bc = Some v <-> owned e h v /\ v_bc (verts h v) = bc) /\ forall v, owned e h v <-> In (OVertex e v) os.
Proof.
  intros e h0 os h F S H D. destruct (fresh_event e h0 F) as [X C]. destruct (event_execs e h0 os h0 h 0 S (fresh_graph _ F) X C H) as (G & X' & _). split.
  - intros bc v. split.
    + intros Q. destruct (x_v1 e h X' bc v Q). auto.
    + intros [A <-]. destruct (x_v2 e h X' v A) as [_ N]. destruct (get (e_verts (evts h e)) (v_bc (verts h v))) as [q|] eqn:Q; [|congruence]. destruct (x_v1 e h X' _ q Q) as [B AQ]. f_equal. symmetry. apply D; auto.
  - intros v. assert (K : forall os h1, single e os -> graph_ok h1 -> ev_ok e h1 -> execs h1 os = Ok h -> (owned e h v <-> owned e h1 v \/ In (OVertex e v) os)).
    { clear. induction os as [|o os' IH]; intros h1 S1 G1 X1 H1; cbn [execs] in H1; [injection H1 as ->; cbn; tauto|]. destruct (exec h1 o) as [h2|] eqn:E; [|discriminate]. cbn [rbind] in H1.
      assert (ND : forall e', o <> ODelete e') by (intros e' ->; apply (proj1 S1 e'); left; reflexivity). pose proof (graph_step h1 o h2 G1 ND E) as G2.
      assert (X2 : ev_ok e h2 /\ (owned e h2 v <-> owned e h1 v \/ o = OVertex e v)).
      { destruct o as [e' u|u p|u p|e']; cbn [exec] in E.
        - assert (e' = e) by (apply (proj2 S1 e' u); left; reflexivity). subst e'. destruct (vertex_event e h1 u h2 G1 X1 E) as (A1 & _ & _ & _ & _ & A6). split; [exact A1|]. rewrite A6. split; [intros [->|O]; auto|intros [O|O]; [auto|injection O as ->; auto]].
        - destruct (in_event e h1 u p h2 G1 X1 E) as (A1 & _). split; [exact A1|]. destruct (in_spec h1 u p h2 G1 E) as (_ & _ & _ & V & _). unfold owned. destruct (V v) as (_ & _ & _ & ->). intuition discriminate.
        - destruct (out_event e h1 u p h2 G1 X1 E) as (A1 & _). split; [exact A1|]. destruct (out_spec h1 u p h2 G1 E) as (_ & _ & _ & V & _). unfold owned. destruct (V v) as (_ & _ & _ & ->). intuition discriminate.
        - exfalso. eapply ND. reflexivity. }
      destruct X2 as [X2 O2]. rewrite (IH h2 (single_tl _ _ _ S1) G2 X2 H1), O2. cbn [In]. intuition. }
    rewrite (K os h0 S (fresh_graph _ F) X H). unfold owned at 1. destruct F as (_ & V & _). destruct (V v) as (_ & _ & ->). intuition discriminate.
Qed.
(* Barcodes given by the user that are distinct and out of the way of the counters: all barcodes are distinct.  In particular if none is given. *)
Theorem C45_codes : forall e h0 os h, fresh h0 -> single e os -> execs h0 os = Ok h ->
  (forall p q, p_bc (parts h0 p) = p_bc (parts h0 q) -> p_bc (parts h0 p) <> 0 -> p = q) -> (forall p, p_bc (parts h0 p) <= 0 \/ Z.of_nat (length os) < p_bc (parts h0 p)) ->
  (forall v w, v_bc (verts h0 v) = v_bc (verts h0 w) -> v_bc (verts h0 v) <> 0 -> v = w) -> (forall v, 0 <= v_bc (verts h0 v) \/ v_bc (verts h0 v) < - Z.of_nat (length os)) ->
  (forall p q, attached h p -> attached h q -> p_bc (parts h p) = p_bc (parts h q) -> p = q) /\ (forall v w, owned e h v -> owned e h w -> v_bc (verts h v) = v_bc (verts h w) -> v = w) /\
  (forall p, attached h p -> p_bc (parts h p) <> 0) /\ (forall v, owned e h v -> v_bc (verts h v) <> 0).
Proof.
  intros e h0 os h F S H UP RP UV RV. destruct (fresh_event e h0 F) as [X C]. destruct (event_execs e h0 os h0 h 0 S (fresh_graph _ F) X C H) as (G & X' & [A B C' D N]).
  split; [|split; [|split; [intros p AP; apply (x_p2 e h X' p AP)|intros v OV; apply (x_v2 e h X' v OV)]]].
  - intros p q AP AQ E. destruct (x_p2 e h X' p AP) as [NP _]. pose proof (A p) as [Ap|Ap]; pose proof (A q) as [Aq|Aq].
    + apply UP; congruence.
    + specialize (RP p). lia.
    + specialize (RP q). lia.
    + apply B; try tauto.
  - intros p q AP AQ E. destruct (x_v2 e h X' p AP) as [NP _]. pose proof (C' p) as [Ap|Ap]; pose proof (C' q) as [Aq|Aq].
    + apply UV; congruence.
    + specialize (RV p). lia.
    + specialize (RV q). lia.
    + apply D; try tauto.
Qed.
(* No operation panics if vertices are added to the event before particles to the vertices ... *)
Theorem C45_total : forall e h0 os, fresh h0 -> single e os -> (forall pre o post v p, os = pre ++ o :: post -> o = OIn v p \/ o = OOut v p -> In (OVertex e v) pre) -> exists h, execs h0 os = Ok h.
Proof.
  intros e h0 os F S. destruct (fresh_event e h0 F) as [X _]. pose proof (fresh_graph _ F) as G. clear F.
  assert (K : forall os h (vs : list nat), single e os -> graph_ok h -> ev_ok e h -> (forall v, In v vs -> owned e h v) ->
     (forall pre o post v p, os = pre ++ o :: post -> o = OIn v p \/ o = OOut v p -> In v vs \/ In (OVertex e v) pre) -> exists h', execs h os = Ok h').
  { clear. induction os as [|o os IH]; intros h vs S G X O P; cbn [execs]; [eauto|].
    assert (ND : forall e', o <> ODelete e') by (intros e' ->; apply (proj1 S e'); left; reflexivity).
    assert (EX : exists h1, exec h o = Ok h1 /\ ev_ok e h1 /\ (forall v, owned e h v -> owned e h1 v) /\ forall v, o = OVertex e v -> owned e h1 v).
    { destruct o as [e' u|u p|u p|e']; cbn [exec].
      - assert (e' = e) by (apply (proj2 S e' u); left; reflexivity). subst e'. destruct (vertex_spec h e u X) as (h1 & E & _). exists h1. split; [exact E|]. destruct (vertex_event e h u h1 G X E) as (A1 & _ & _ & _ & _ & A6).
        split; [exact A1|]. split; [intros v V; apply A6; auto|intros v V; injection V as ->; apply A6; auto].
      - assert (OU : owned e h u) by (destruct (P [] (OIn u p) os u p eq_refl (or_introl eq_refl)) as [I|[]]; apply O, I).
        assert (E : exists h1, addParticleIn h u p = Ok h1).
        { unfold addParticleIn. match goal with |- context [removeParticleIn ?h1 u p] => set (h2 := h1) end.
          assert (E2 : v_ev (verts h2 u) = Some e /\ evts h2 = evts h) by (unfold h2; destruct (p_end (parts h p)) as [w|]; [cbn; unfold upd; split; [destruct (Nat.eqb_spec w u) as [->|]; exact OU|reflexivity]|split; [exact OU|reflexivity]]).
          destruct E2 as [E2 E3]. cbn. unfold upd at 1. rewrite Nat.eqb_refl. cbn. rewrite E2. unfold codeOf. destruct (_ =? 0); unfold pBarcode, putPart; cbn; unfold upd at 1; rewrite ?Nat.eqb_refl; cbn; rewrite E3, (x_nil e h X); eauto. }
        destruct E as [h1 E]. exists h1. split; [exact E|]. destruct (in_event e h u p h1 G X E) as (A1 & _). split; [exact A1|]. destruct (in_spec h u p h1 G E) as (_ & _ & _ & V & _). unfold owned.
        split; [intros v VO; destruct (V v) as (_ & _ & _ & ->); exact VO|discriminate].
      - assert (OU : owned e h u) by (destruct (P [] (OOut u p) os u p eq_refl (or_intror eq_refl)) as [I|[]]; apply O, I).
        assert (E : exists h1, addParticleOut h u p = Ok h1).
        { unfold addParticleOut. match goal with |- context [removeParticleOut ?h1 u p] => set (h2 := h1) end.
          assert (E2 : v_ev (verts h2 u) = Some e /\ evts h2 = evts h) by (unfold h2; destruct (p_prod (parts h p)) as [w|]; [cbn; unfold upd; split; [destruct (Nat.eqb_spec w u) as [->|]; exact OU|reflexivity]|split; [exact OU|reflexivity]]).
          destruct E2 as [E2 E3]. cbn. unfold upd at 1. rewrite Nat.eqb_refl. cbn. rewrite E2. unfold codeOf. destruct (_ =? 0); unfold pBarcode, putPart; cbn; unfold upd at 1; rewrite ?Nat.eqb_refl; cbn; rewrite E3, (x_nil e h X); eauto. }
        destruct E as [h1 E]. exists h1. split; [exact E|]. destruct (out_event e h u p h1 G X E) as (A1 & _). split; [exact A1|]. destruct (out_spec h u p h1 G E) as (_ & _ & _ & V & _). unfold owned.
        split; [intros v VO; destruct (V v) as (_ & _ & _ & ->); exact VO|discriminate].
      - exfalso. eapply ND. reflexivity. }
    destruct EX as (h1 & E & X1 & O1 & O2). rewrite E. cbn [rbind]. pose proof (graph_step h o h1 G ND E) as G1.
    apply (IH h1 (match o with OVertex _ v => v :: vs | _ => vs end)); [eapply single_tl, S|exact G1|exact X1| |].
    - intros v I. destruct o as [e' u|u p|u p|e']; auto. destruct I as [<-|I]; [|auto]. apply O2. f_equal. apply (proj2 S e' u). left. reflexivity.
    - intros pre o' post v p EQ Q. destruct (P (o :: pre) o' post v p) as [I|I]; [cbn; rewrite EQ; reflexivity|exact Q| |].
      + left. destruct o; [right|..]; exact I.
      + destruct I as [->|I]; [left; left; reflexivity|right; exact I]. }
  intros P. apply (K os h0 [] S G X); [intros v []|]. intros pre o post v p EQ Q. right. eapply P; eassumption.
Qed.
(* ... and adding a particle to a vertex without event panics *)
Theorem C45_orphan_refuted : forall h v p, v_ev (verts h v) = None -> addParticleIn h v p = Panic /\ addParticleOut h v p = Panic.
Proof.
  intros h v p E. unfold addParticleIn, addParticleOut. split.
  - destruct (p_end (parts h p)) as [w|]; cbn; unfold upd; rewrite Nat.eqb_refl; cbn; [destruct (Nat.eqb_spec w v) as [->|]; cbn|]; rewrite E; reflexivity.
  - destruct (p_prod (parts h p)) as [w|]; cbn; unfold upd; rewrite Nat.eqb_refl; cbn; [destruct (Nat.eqb_spec w v) as [->|]; cbn|]; rewrite E; reflexivity.
Qed.
(* Delete cuts every link. *)
Theorem C45_delete : forall e h0 os h, fresh h0 -> single e os -> execs h0 os = Ok h ->
  (forall p q, attached h p -> attached h q -> p_bc (parts h p) = p_bc (parts h q) -> p = q) -> (forall v w, owned e h v -> owned e h w -> v_bc (verts h v) = v_bc (verts h w) -> v = w) ->
  (forall p, ~ attached (delete h e) p) /\ forall v, v_in (verts (delete h e) v) = [] /\ v_out (verts (delete h e) v) = [] /\ v_ev (verts (delete h e) v) = None.
Proof.
  intros e h0 os h F S H DP DV. pose proof (C45_particles e h0 os h F S H DP) as CP. destruct (C45_vertices e h0 os h F S H DV) as [CV _].
  destruct (fresh_event e h0 F) as [X C]. destruct (event_execs e h0 os h0 h 0 S (fresh_graph _ F) X C H) as (G & X' & _). split.
  - intros p. unfold attached, delete. cbn [parts]. destruct (existsb (Nat.eqb p) (map snd (e_parts (evts h e)))) eqn:E; [cbn; intuition congruence|]. intros A.
    assert (I : In p (map snd (e_parts (evts h e)))) by (apply in_map_iff; exists (p_bc (parts h p), p); split; [reflexivity|apply get_In, CP; auto]).
    assert (existsb (Nat.eqb p) (map snd (e_parts (evts h e))) = true) by (apply existsb_exists; exists p; split; [exact I|apply Nat.eqb_refl]). congruence.
  - intros v. unfold delete. cbn [verts]. destruct (existsb (Nat.eqb v) (map snd (e_verts (evts h e)))) eqn:E; [cbn; auto|].
    assert (NO : ~ owned e h v).
    { intros O. assert (I : In v (map snd (e_verts (evts h e)))) by (apply in_map_iff; exists (v_bc (verts h v), v); split; [reflexivity|apply get_In, CV; auto]).
      assert (existsb (Nat.eqb v) (map snd (e_verts (evts h e))) = true) by (apply existsb_exists; exists v; split; [exact I|apply Nat.eqb_refl]). congruence. }
    assert (VE : v_ev (verts h v) = None) by (destruct (x_ev e h X' v) as [Q|Q]; [exact Q|contradiction]).
    split; [|split; [|exact VE]].
    + destruct (v_in (verts h v)) eqn:Q; [reflexivity|]. exfalso. apply NO. apply (x_own e h X'). left. rewrite Q. discriminate.
    + destruct (v_out (verts h v)) eqn:Q; [reflexivity|]. exfalso. apply NO. apply (x_own e h X'). right. rewrite Q. discriminate.
Qed.
Definition empty_evt : evt := {| e_verts := []; e_parts := []; e_bcp := 0; e_bcv := 0; e_nil := false |}.
Definition heap0 (bc : nat -> Z) : heap :=
  {| parts := fun p => {| p_bc := bc p; p_prod := None; p_end := None |}; verts := fun _ => {| v_bc := 0; v_in := []; v_out := []; v_ev := None |}; evts := fun _ => empty_evt |}.
(* A barcode given by the user and one made by the event can be the same: the particle is lost from the map. *)
Theorem C45_collision_refuted : exists h0 e os h p, fresh h0 /\ single e os /\ execs h0 os = Ok h /\ (forall p q, p_bc (parts h0 p) = p_bc (parts h0 q) -> p_bc (parts h0 p) <> 0 -> p = q) /\
  attached h p /\ get (e_parts (evts h e)) (p_bc (parts h p)) <> Some p.
Proof.
  exists (heap0 (fun p => match p with 5%nat => 1 | _ => 0 end)), 0%nat, [OVertex 0 0; OIn 0 5; OOut 0 6]. eexists. exists 5%nat. split; [|split; [|split; [vm_compute; reflexivity|split; [|split; [right; discriminate|discriminate]]]]].
  - repeat split.
  - split; [intros e I; cbn in I; intuition discriminate|]. intros e' v I. cbn in I. intuition congruence.
  - assert (K : forall x, match x with 5%nat => 1 | _ => 0 end <> 0 -> x = 5%nat) by (intros [|[|[|[|[|[|x]]]]]]; cbn; congruence).
    intros p q A B. cbn in A, B. rewrite (K p B). symmetry. apply K. congruence.
Qed.
(* A vertex moved to another event takes its outgoing particles along, also those another vertex of the first event has as incoming. *)
Theorem C45_move_refuted : exists h0 os h e v p, fresh h0 /\ builds os /\ execs h0 os = Ok h /\ owned e h v /\ In p (v_in (verts h v)) /\ get (e_parts (evts h e)) (p_bc (parts h p)) = None.
Proof.
  exists (heap0 (fun _ => 0)), [OVertex 0 0; OVertex 0 1; OOut 0 5; OIn 1 5; OVertex 1 0]. eexists. exists 0%nat, 1%nat, 5%nat.
  split; [repeat split|]. split; [intros e I; cbn in I; intuition discriminate|]. split; [vm_compute; reflexivity|]. split; [reflexivity|]. split; [left; reflexivity|reflexivity].
Qed.
Example C45_example : exists h, execs (heap0 (fun _ => 0)) [OVertex 0 0; OVertex 0 1; OIn 0 3; OOut 0 4; OOut 0 5; OIn 1 4; OOut 1 6; OOut 1 5] = Ok h /\
  v_out (verts h 0) = [4%nat] /\ v_out (verts h 1) = [6%nat; 5%nat] /\ p_prod (parts h 5) = Some 1%nat /\ get (e_parts (evts h 0)) 3 = Some 5%nat /\ get (e_verts (evts h 0)) (-2) = Some 1%nat.
Proof. eexists. split; [vm_compute; reflexivity|]. repeat split; reflexivity. Qed.
Print Assumptions C46_weights.
Print Assumptions C45_graph.
Print Assumptions C45_particles.
Print Assumptions C45_vertices.
Print Assumptions C45_codes.
Print Assumptions C45_total.
Print Assumptions C45_orphan_refuted.
Print Assumptions C45_delete.
Print Assumptions C45_collision_refuted.
Print Assumptions C45_move_refuted.
