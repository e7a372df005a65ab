(* C42: the event store.  C55: an accepted application processes an event to its end, whatever the schedule. *)
From Coq Require Import ZArith List Lia Bool.
From Verif Require Import GoLib TarjanModel TarjanProofs TarjanProps DflowModel DflowProps StoreModel.
Import ListNotations.
Local Open Scope Z_scope.

(* the values put under a key, the latest first *)
Fixpoint puts (tr : list lab) (k : Z) : list Z :=
  match tr with [] => [] | LPut _ j v :: tr' => if j =? k then v :: puts tr' k else puts tr' k | _ :: tr' => puts tr' k end.
Definition holds (k : Z) (p : proc) : bool := match p with Hold j _ _ => j =? k | _ => false end.
Definition tokens (s : sys) (k : Z) : nat := ((match chans s k with Some (Some _) => 1 | _ => 0 end) + length (filter (holds k) (procs s)))%nat.

Lemma setp_nth l i p j : (i < length l)%nat -> nth_error (setp l i p) j = if Nat.eqb i j then Some p else nth_error l j.
Proof. revert i j. induction l as [|q l IH]; intros i j H; [cbn in H; lia|]. destruct i as [|i], j as [|j]; cbn; try reflexivity. apply IH. cbn in H. lia. Qed.
Lemma setp_length l i p : length (setp l i p) = length l.
Proof. revert i. induction l as [|q l IH]; intros [|i]; cbn; auto. Qed.
Lemma setp_count l i p q k : nth_error l i = Some q ->
  (length (filter (holds k) (setp l i p)) + (if holds k q then 1 else 0) = length (filter (holds k) l) + (if holds k p then 1 else 0))%nat.
Proof.
  revert i. induction l as [|a l IH]; intros [|i] E; cbn in E; try discriminate.
  - injection E as ->. cbn. destruct (holds k p), (holds k q); cbn; lia.
  - cbn [setp filter]. specialize (IH i E). destruct (holds k a); cbn [length]; lia.
Qed.
Lemma nth_lt {A} (l : list A) i x : nth_error l i = Some x -> (i < length l)%nat.
Proof. intros E. apply nth_error_Some. congruence. Qed.
Lemma setp_In l i p q : In q (setp l i p) -> q = p \/ In q l.
Proof. revert i. induction l as [|a l IH]; intros [|i]; cbn; [tauto|tauto|intuition|]. intros [<-|H]; [auto|]. destruct (IH i H); auto. Qed.

(* every value there is was put *)
Definition backed (tr : list lab) (s : sys) : Prop :=
  forall k v, chans s k = Some (Some v) \/ (exists f, In (Hold k v f) (procs s)) -> In v (puts tr k).
Lemma step_backed tr s l s' : backed tr s -> step s l s' -> backed (l :: tr) s'.
Proof.
  intros B H k v. destruct H as [s i j f N C|s i j f w N C|s i j f w N C|s i j f N C Q|s i j w f N C|s i j w f N Q|s Q]; cbn [chans procs puts]; unfold upd.
  - intros [E|(g & I)]; apply B; [auto|]. apply setp_In in I. destruct I as [E|I]; [discriminate|eauto].
  - intros [E|(g & I)].
    + destruct (k =? j); [discriminate|]. apply B. auto.
    + apply setp_In in I. destruct I as [E|I]; [injection E as <- <- <-; apply B; auto|apply B; eauto].
  - intros [E|(g & I)].
    + destruct (Z.eqb_spec k j) as [->|]; [injection E as <-; apply B; right; exists f; eapply nth_error_In, N|apply B; auto].
    + apply setp_In in I. destruct I as [E|I]; [discriminate|apply B; eauto].
  - intros [E|(g & I)]; apply B; [auto|]. apply setp_In in I. destruct I as [E|I]; [discriminate|eauto].
  - intros H. destruct (Z.eqb_spec j k) as [->|NE].
    + destruct H as [E|(g & I)]; [rewrite Z.eqb_refl in E; injection E as <-; left; reflexivity|]. right. apply B. apply setp_In in I. destruct I as [E|I]; [discriminate|eauto].
    + apply B. destruct H as [E|(g & I)]; [replace (k =? j) with false in E by lia; auto|]. apply setp_In in I. destruct I as [E|I]; [discriminate|eauto].
  - intros [E|(g & I)]; apply B; [auto|]. apply setp_In in I. destruct I as [E|I]; [discriminate|eauto].
  - intros H. apply B, H.
Qed.
Lemma step_tokens s l s' k : step s l s' -> (tokens s' k = tokens s k + length (puts [l] k))%nat.
Proof.
  unfold tokens. intros H. destruct H as [s i j f N C|s i j f w N C|s i j f w N C|s i j f N C Q|s i j w f N C|s i j w f N Q|s Q]; cbn [chans procs puts]; unfold upd;
    try (match goal with |- context [setp (procs s) i ?p] => pose proof (setp_count _ _ p _ k N) as X; cbn [holds] in X end).
  - cbn [length]. lia.
  - rewrite (Z.eqb_sym k j). destruct (Z.eqb_spec j k) as [->|NE]; [rewrite C|]; cbn [length] in *; lia.
  - rewrite (Z.eqb_sym k j). destruct (Z.eqb_spec j k) as [->|NE]; [rewrite C|]; cbn [length] in *; lia.
  - cbn [length]. lia.
  - rewrite (Z.eqb_sym k j). destruct (Z.eqb_spec j k) as [->|NE]; [rewrite C|]; cbn [length] in *; lia.
  - cbn [length]. lia.
  - cbn [length]. lia.
Qed.
Lemma puts_cons l tr k : puts (l :: tr) k = puts [l] k ++ puts tr k.
Proof. destruct l; cbn; try reflexivity. destruct (k0 =? k); reflexivity. Qed.
Lemma event_start keys c tasks k : (forall j, ~ In j keys -> c j = None) -> tokens (event keys c tasks) k = 0%nat.
Proof.
  intros H. unfold tokens, event, reset. cbn [chans procs]. destruct (existsb (Z.eqb k) keys) eqn:E.
  - cbn. induction tasks; cbn; auto.
  - rewrite (H k); [|intros I; assert (existsb (Z.eqb k) keys = true); [apply existsb_exists; exists k; split; [exact I|apply Z.eqb_refl]|congruence]]. cbn. induction tasks; cbn; auto.
Qed.
(* the store between events: no key besides those of the data flow *)
Definition store_of (keys : list Z) (c : Z -> option (option Z)) : Prop := forall j, ~ In j keys -> c j = None.

(* ---- C42 ---- *)
(* In every run of an event, of any tasks, with any abort: Get gives only what was put under that key before, in this event. *)
Theorem C42_get : forall keys c tasks tr s i k v tr', store_of keys c -> run (event keys c tasks) tr s -> (exists post, tr = post ++ LGot i k v :: tr') -> In v (puts tr' k).
Proof.
  intros keys c tasks tr s i k v tr' K R [post E].
  assert (B : forall tr s, run (event keys c tasks) tr s -> backed tr s).
  { clear - K. intros tr s R. induction R as [|tr s l s' R IH ST].
    - intros k v [E|(f & I)]; cbn in *.
      + unfold reset in E. destruct (existsb (Z.eqb k) keys) eqn:X; [discriminate|]. rewrite (K k) in E; [discriminate|].
        intros I. assert (existsb (Z.eqb k) keys = true); [apply existsb_exists; exists k; split; [exact I|apply Z.eqb_refl]|congruence].
      + apply in_map_iff in I. destruct I as (p & E & _). discriminate.
    - eapply step_backed; eassumption. }
  revert post E. induction R as [|tr s l s' R IH ST]; intros post E; [destruct post; discriminate|]. destruct post as [|x post]; cbn [app] in E.
  - injection E as -> <-. inversion ST as [| |? ? ? f ? N C| | | |]; subst. apply (B tr s R). right. exists f. eapply nth_error_In, N.
  - injection E as -> ->. eapply IH. reflexivity.
Qed.
(* If at most one value is put under each key: once it is there, it stays: it is in the channel, or one Get holds it and can return at once. *)
Theorem C42_available : forall keys c tasks tr s k v, store_of keys c -> run (event keys c tasks) tr s -> puts tr k = [v] ->
  (chans s k = Some (Some v) /\ forall w f, ~ In (Hold k w f) (procs s)) \/
  (chans s k = Some None /\ exists i f s', nth_error (procs s) i = Some (Hold k v f) /\ step s (LGot i k v) s').
Proof.
  intros keys c tasks tr s k v K R P.
  assert (T : tokens s k = 1%nat /\ backed tr s /\ (forall j, chans s j = None <-> ~ In j keys)).
  { assert (G : tokens s k = length (puts tr k) /\ backed tr s /\ (forall j, chans s j = None <-> ~ In j keys)); [|rewrite P in G; exact G]. clear P.
    induction R as [|tr s l s' R IH ST].
    - split; [apply event_start, K|]. split.
      + intros k' v' [E|(f & I)]; cbn in *.
        * unfold reset in E. destruct (existsb (Z.eqb k') keys) eqn:X; [discriminate|]. rewrite (K k') in E; [discriminate|].
          intros I. assert (existsb (Z.eqb k') keys = true); [apply existsb_exists; exists k'; split; [exact I|apply Z.eqb_refl]|congruence].
        * apply in_map_iff in I. destruct I as (p & E & _). discriminate.
      + intros j. cbn [event chans]. unfold reset. destruct (existsb (Z.eqb j) keys) eqn:X.
        * split; [discriminate|]. intros N. exfalso. apply existsb_exists in X. destruct X as (x & I & E). apply Z.eqb_eq in E. subst. contradiction.
        * assert (~ In j keys). { intros I. assert (existsb (Z.eqb j) keys = true); [apply existsb_exists; exists j; split; [exact I|apply Z.eqb_refl]|congruence]. } split; auto.
    - destruct IH as (A & B & C). split; [rewrite (step_tokens _ _ _ k ST), (puts_cons l tr k), app_length; lia|]. split; [eapply step_backed; eassumption|].
      intros j. rewrite <- C. destruct ST; cbn [chans]; unfold upd; try reflexivity; (destruct (Z.eqb_spec j k0) as [->|]; [split; congruence|reflexivity]). }
  destruct T as (T & B & KS). unfold tokens in T. destruct (chans s k) as [[w|]|] eqn:C.
  - left. assert (In w (puts tr k)) by (apply B; auto). rewrite P in H. destruct H as [->|[]]. split; [reflexivity|]. intros w' f I.
    assert (In (Hold k w' f) (filter (holds k) (procs s))) by (apply filter_In; split; [exact I|apply Z.eqb_refl]). destruct (filter (holds k) (procs s)); [contradiction|cbn in T; lia].
  - right. split; [reflexivity|]. destruct (filter (holds k) (procs s)) as [|p l] eqn:F; [cbn in T; lia|]. assert (I : In p (filter (holds k) (procs s))) by (rewrite F; left; reflexivity).
    apply filter_In in I. destruct I as [I H]. destruct p as [|j w f]; [discriminate|]. cbn in H. apply Z.eqb_eq in H. subst j.
    assert (In w (puts tr k)) by (apply B; eauto). rewrite P in H. destruct H as [->|[]]. apply In_nth_error in I. destruct I as [i I]. exists i, f. eexists. split; [exact I|]. apply s_got; [exact I|exact C].
  - exfalso. assert (In v (puts tr k)) by (rewrite P; left; reflexivity). assert (~ In k keys) by (apply KS; exact C).
    cbn [plus] in T. destruct (filter (holds k) (procs s)) as [|p l] eqn:F; [cbn in T; lia|]. clear H.
    (* no channel: nothing was ever put *)
    assert (forall tr s, run (event keys c tasks) tr s -> puts tr k = []).
    { clear - H0 K. intros tr s R. induction R as [|tr s l s' R IH ST]; [reflexivity|]. rewrite (puts_cons l tr k), IH, app_nil_r.
      assert (NC : chans s k = None).
      { clear - R H0 K. induction R as [|tr s l s' R IH ST].
        - cbn. unfold reset. destruct (existsb (Z.eqb k) keys) eqn:X; [|apply K; assumption]. apply existsb_exists in X. destruct X as (x & I & E). apply Z.eqb_eq in E. subst. contradiction.
        - destruct ST; cbn [chans]; unfold upd; try assumption; (destruct (Z.eqb_spec k k0) as [->|]; [congruence|assumption]). }
      destruct ST; cbn; try reflexivity. destruct (Z.eqb_spec k0 k) as [->|]; [congruence|reflexivity]. }
    rewrite (H tr s R) in P. discriminate.
Qed.
(* After an abort no task is stuck: if at most one value is put under each key, every task that has not returned can go on. *)
Theorem C42_abort : forall keys c tasks tr s i p, store_of keys c -> run (event keys c tasks) tr s -> (forall k, (length (puts tr k) <= 1)%nat) ->
  quit s = true -> nth_error (procs s) i = Some p -> (forall b, p <> Run (Ret b)) -> exists l s', step s l s' /\ ((exists k, l = LErr i k) \/ exists k v, l = LGot i k v).
Proof.
  intros keys c tasks tr s i p K R P1 Q N D. destruct p as [[b|k f|k v f]|k v f].
  - exfalso. apply (D b). reflexivity.
  - destruct (chans s k) as [x|] eqn:C.
    + do 2 eexists. split; [eapply s_getquit; [exact N|congruence|exact Q]|left; eauto].
    + do 2 eexists. split; [eapply s_nokey; eassumption|left; eauto].
  - do 2 eexists. split; [eapply s_putquit; eassumption|left; eauto].
  - assert (T : tokens s k = length (puts tr k)).
    { clear - R K. induction R as [|tr s l s' R IH ST]; [apply event_start, K|]. rewrite (step_tokens _ _ _ k ST), (puts_cons l tr k), app_length. lia. }
    assert (NH : (1 <= length (filter (holds k) (procs s)))%nat).
    { assert (I : In (Hold k v f) (filter (holds k) (procs s))) by (apply filter_In; split; [eapply nth_error_In, N|apply Z.eqb_refl]). destruct (filter _ _); [contradiction|cbn; lia]. }
    assert (B : backed tr s).
    { clear - K R. induction R as [|tr s l s' R IH ST]; [|eapply step_backed; eassumption]. intros k' v' [E|(f & I)]; cbn in *.
      + unfold reset in E. destruct (existsb (Z.eqb k') keys) eqn:X; [discriminate|]. rewrite (K k') in E; [discriminate|].
        intros I. assert (existsb (Z.eqb k') keys = true); [apply existsb_exists; exists k'; split; [exact I|apply Z.eqb_refl]|congruence].
      + apply in_map_iff in I. destruct I as (p & E & _). discriminate. }
    specialize (P1 k). unfold tokens in T. assert (exists w, puts tr k = [w]) as [w PW] by (destruct (puts tr k) as [|w [|]]; cbn in *; [lia|eauto|lia]).
    destruct (C42_available keys c tasks tr s k w K R PW) as [[C X]|(C & _)].
    + exfalso. apply (X v f). eapply nth_error_In, N.
    + do 2 eexists. split; [eapply s_got; eassumption|right; eauto].
Qed.

(* So whatever was put once under a key is what every Get of it gives. *)
Theorem C42_single : forall keys c tasks tr s i j k v w, store_of keys c -> run (event keys c tasks) tr s -> (length (puts tr k) <= 1)%nat ->
  In (LGot i k v) tr -> In (LGot j k w) tr -> v = w.
Proof.
  intros keys c tasks tr s i j k v w K R L A B.
  assert (X : forall i v, In (LGot i k v) tr -> In v (puts tr k)).
  { intros i' v' I. apply in_split in I. destruct I as (post & tr' & ET). assert (P : In v' (puts tr' k)) by (eapply C42_get; [exact K|exact R|exists post; exact ET]).
    rewrite ET. clear - P. induction post as [|l post IH]; cbn [app]; rewrite (puts_cons _ _ k); apply in_or_app; auto. }
  apply X in A. apply X in B. destruct (puts tr k) as [|x [|y l]]; [contradiction| |cbn in L; lia]. destruct A as [<-|[]]. destruct B as [<-|[]]. reflexivity.
Qed.
(* A second Put under a key waits for a Get to take the value, and then the Get waits for ever to put it back, even after an abort. *)
Theorem C42_two_puts_refuted : exists keys c tasks tr s i k v f, store_of keys c /\ run (event keys c tasks) tr s /\ quit s = true /\
  nth_error (procs s) i = Some (Hold k v f) /\ forall l s', ~ step s l s'.
Proof.
  exists [7], (fun _ => None), [Put 7 1 (fun _ => Put 7 2 (fun b => Ret b)); Get 7 (fun _ => Ret true)]. exists [LClose; LPut 0 7 2; LTake 1 7 1; LPut 0 7 1].
  eexists. exists 1%nat, 7, 1. eexists. split; [intros j _; reflexivity|]. split.
  { eapply run_step. eapply run_step. eapply run_step. eapply run_step. apply run_nil.
    - eapply s_put; reflexivity.
    - eapply s_take; reflexivity.
    - eapply s_put; reflexivity.
    - apply s_close; reflexivity. }
  split; [reflexivity|]. split; [reflexivity|]. intros l s' H. inversion H; subst; cbn [procs quit chans setp event map] in *; try discriminate;
    (destruct i as [|[|[|i]]]; cbn in *; try discriminate; match goal with N : Some _ = Some _ |- _ => inversion N; subst end; vm_compute in *; congruence).
Qed.
Example C42_example : exists tr s, run (event [7] (fun _ => None) [Put 7 5 (fun b => Ret b); Get 7 (fun o => Ret true); Get 7 (fun o => Ret true)]) tr s /\
  puts tr 7 = [5] /\ In (LGot 1 7 5) tr /\ In (LGot 2 7 5) tr.
Proof.
  exists [LGot 1 7 5; LTake 1 7 5; LGot 2 7 5; LTake 2 7 5; LPut 0 7 5]. eexists. split; [|cbn; intuition].
  eapply run_step. eapply run_step. eapply run_step. eapply run_step. eapply run_step. apply run_nil.
  - eapply s_put; reflexivity.
  - eapply s_take; reflexivity.
  - eapply s_got; reflexivity.
  - eapply s_take; reflexivity.
  - eapply s_got; reflexivity.
Qed.

(* ---- C55 ---- *)
(* what a task declares it does: it gets only its inputs, and puts each of its outputs once before it returns without error *)
Inductive wb (ins : Z -> Prop) : list Z -> prog -> Prop :=
| wb_ret : wb ins [] (Ret true)
| wb_get outs k f : ins k -> (forall v, wb ins outs (f (Some v))) -> wb ins outs (Get k f)
| wb_put l1 k l2 v f : wb ins (l1 ++ l2) (f true) -> wb ins (l1 ++ k :: l2) (Put k v f).
Definition inputs (h : list decl) (t k : Z) : Prop := exists ty, In (DIn t k ty) h.
Definition outputs (h : list decl) (t k : Z) : Prop := exists ty, In (DOut t k ty) h.
Definition faithful (h : list decl) (tasks : list (Z * prog)) : Prop :=
  NoDup (map fst tasks) /\ (forall t k, outputs h t k -> In t (map fst tasks)) /\
  forall t p, In (t, p) tasks -> exists outs, NoDup outs /\ (forall k, In k outs <-> outputs h t k) /\ wb (inputs h t) outs p.

(* every run ends: whatever the tasks and the schedule *)
Inductive sub : proc -> proc -> Prop :=
| sub_hold k v f : sub (Hold k v f) (Run (Get k f))
| sub_got k v f x : sub (Run (f x)) (Hold k v f)
| sub_get k f x : sub (Run (f x)) (Run (Get k f))
| sub_put k v f b : sub (Run (f b)) (Run (Put k v f)).
Lemma sub_acc p : Acc sub p.
Proof.
  assert (R : forall p, Acc sub (Run p)).
  { induction p0 as [b|k f IH|k v f IH]; constructor; intros y H; inversion H; subst; try apply IH. constructor. intros z Hz. inversion Hz; subst. apply IH. }
  destruct p as [p|k v f]; [apply R|]. constructor. intros z Hz. inversion Hz; subst. apply R.
Qed.
Definition subl (l' l : list proc) : Prop := exists i p q, nth_error l i = Some p /\ sub q p /\ l' = setp l i q.
Lemma subl_acc l : Acc subl l.
Proof.
  induction l as [|x l IH]; [constructor; intros y (i & p & q & E & _); destruct i; discriminate|].
  pose proof (sub_acc x) as AX. revert l IH. induction AX as [x _ IHx]. intros l AL. pose proof AL as AL0. induction AL as [l H IHl].
  constructor. intros y (i & p & q & E & S & ->). destruct i as [|i]; cbn [nth_error setp] in *.
  - injection E as <-. apply IHx; [exact S|]. exact AL0.
  - assert (SL : subl (setp l i q) l) by (exists i, p, q; auto). apply IHl; [exact SL|]. apply H, SL.
Qed.
Theorem C55_ends : forall s, Acc (fun s' s => exists l, step s l s') s.
Proof.
  assert (A : forall ps, Acc subl ps -> forall s, procs s = ps -> quit s = true -> Acc (fun s' s => exists l, step s l s') s).
  { induction 1 as [ps _ IH]. intros s <- Q. constructor. intros y (l & ST). 
    destruct ST; try congruence; (eapply IH; [|cbn [procs]; reflexivity|cbn [quit]; assumption]); do 3 eexists; (split; [eassumption|]; split; [|reflexivity]); constructor. }
  intros s. pose proof (subl_acc (procs s)) as P. remember (procs s) as ps eqn:E. revert s E. induction P as [ps HP IH]. intros s ->. destruct (quit s) eqn:Q; [eapply A; [constructor; exact HP|reflexivity|exact Q]|].
  constructor. intros y (l & ST). pose proof ST as ST0. destruct ST; try congruence;
    try (eapply IH; [|cbn [procs]; reflexivity]; do 3 eexists; (split; [eassumption|]; split; [|reflexivity]); constructor).
  eapply A; [|cbn [procs]; reflexivity|reflexivity]. constructor. exact HP.
Qed.

(* the order of the tasks *)
Fixpoint rk (out : list (list Z)) (t : Z) : nat := match out with [] => O | C :: o => if in_dec Z.eq_dec t C then O else S (rk o t) end.
Lemma rk_split l1 C l2 x : In x C -> ~ In x (concat l1) -> rk (l1 ++ C :: l2) x = length l1.
Proof.
  intros I N. induction l1 as [|D l1 IH]; cbn [app rk concat length] in *.
  - destruct (in_dec Z.eq_dec x C); [reflexivity|contradiction].
  - destruct (in_dec Z.eq_dec x D) as [J|]; [exfalso; apply N, in_or_app; auto|]. rewrite IH; [reflexivity|]. intros J. apply N, in_or_app. auto.
Qed.
Lemma rk_lt l1 l2 y : In y (concat l1) -> (rk (l1 ++ l2) y < length l1)%nat.
Proof.
  induction l1 as [|D l1 IH]; cbn [app rk concat length]; [intros []|]. intros I. destruct (in_dec Z.eq_dec y D); [lia|]. apply in_app_or in I. destruct I as [I|I]; [contradiction|]. specialize (IH I). lia.
Qed.
Lemma ranked h f : declares newFlow h = Some f -> startSvc f = Ok true -> (forall t, ~ needs h t t) ->
  (forall k p t, In (DIn k p t) h -> exists k' t', In (DOut k' p t') h) /\ exists rank : Z -> nat, forall x y, needs h x y -> (rank y < rank x)%nat.
Proof.
  intros E S NS. destruct (C40_start h f E) as (b & EB & B). rewrite S in EB. injection EB as <-. destruct (proj1 B eq_refl) as [IN NC]. split; [exact IN|].
  pose proof (declares_ok h [] newFlow rel_new) as D. rewrite E in D. destruct D as [R _]. cbn [app] in R.
  assert (ND : NoDup (map fst (graph_of (f_nodes f)))) by (rewrite graph_keys; apply (r_keys _ _ R)).
  destruct (C41_components _ ND) as (out & EC & N & V & SC & T). exists (rk out). intros x y NX.
  assert (NE : x <> y) by (intros ->; eapply NS; eassumption).
  assert (ED : edge (graph_of (f_nodes f)) x y) by (apply (graph_edge h f x y R); auto).
  assert (IX : In x (concat out)).
  { apply V. left. apply (edges_In _ _ _ ND) in ED. destruct ED as (ws & W & _). apply in_map_iff. exists (x, ws). auto. }
  apply in_concat in IX. destruct IX as (C & IC & IX). destruct (SC C IC) as [_ HC]. apply in_split in IC. destruct IC as (l1 & l2 & ->).
  assert (NX1 : ~ In x (concat l1)).
  { intros I. rewrite concat_app in N. cbn [concat] in N. clear - N I IX. induction (concat l1) as [|a l IH]; [contradiction|]. cbn [app] in N. inversion N as [|? ? A B]; subst. destruct I as [->|I].
    - apply A, in_or_app. right. apply in_or_app. auto.
    - apply IH; assumption. }
  rewrite (rk_split l1 C l2 x IX NX1). destruct (T l1 C l2 x y eq_refl IX ED) as [J|J].
  - exfalso. apply NC. exists x, y. split; [exact NE|]. destruct (proj1 (HC x IX y) J) as [R1 R2]. split; apply (graph_reach h f _ _ R); assumption.
  - apply rk_lt, J.
Qed.

(* what a task has done, the earliest first *)
Inductive obs := OGot (k v : Z) | OPut (k v : Z).
Fixpoint hist (i : nat) (tr : list lab) : list obs :=
  match tr with
  | [] => []
  | LGot j k v :: tr' => hist i tr' ++ (if Nat.eqb i j then [OGot k v] else [])
  | LPut j k v :: tr' => hist i tr' ++ (if Nat.eqb i j then [OPut k v] else [])
  | _ :: tr' => hist i tr'
  end.
Fixpoint play (p : prog) (h : list obs) {struct h} : option prog :=
  match h with
  | [] => Some p
  | OGot k v :: h' => match p with Get k' f => if k =? k' then play (f (Some v)) h' else None | _ => None end
  | OPut k v :: h' => match p with Put k' v' f => if (k =? k') && (v =? v') then play (f true) h' else None | _ => None end
  end.
Definition cur (q : proc) : prog := match q with Run p => p | Hold k v f => Get k f end.
Lemma play_snoc h : forall p o, play p (h ++ [o]) = match play p h with Some q => play q [o] | None => None end.
Proof.
  induction h as [|a h IH]; intros p o; [cbn [app]; reflexivity|]. cbn [app play]. destruct a as [k v|k v]; destruct p as [b|k' f|k' v' f]; try reflexivity.
  - destruct (k =? k'); [apply IH|reflexivity].
  - destruct ((k =? k') && (v =? v')); [apply IH|reflexivity].
Qed.
Lemma hist_In i tr k v : (In (OPut k v) (hist i tr) <-> In (LPut i k v) tr) /\ (In (OGot k v) (hist i tr) <-> In (LGot i k v) tr).
Proof.
  induction tr as [|l tr [IH1 IH2]]; [cbn; tauto|]. destruct l as [j a b|j a b|j a b|j a|]; cbn [hist In].
  - rewrite IH1, IH2. split; (split; [auto|intros [E|H]; [discriminate|exact H]]).
  - rewrite !in_app_iff, IH1, IH2. destruct (Nat.eqb_spec i j) as [<-|N]; cbn [In]; split; split.
    + intros [H|[E|[]]]; [auto|discriminate].
    + intros [E|H]; [discriminate|auto].
    + intros [H|[E|[]]]; [auto|injection E as -> ->; auto].
    + intros [E|H]; [injection E as -> ->; auto|auto].
    + intros [H|[]]; auto.
    + intros [E|H]; [discriminate|auto].
    + intros [H|[]]; auto.
    + intros [E|H]; [injection E as E _ _; congruence|auto].
  - rewrite !in_app_iff, IH1, IH2. destruct (Nat.eqb_spec i j) as [<-|N]; cbn [In]; split; split.
    + intros [H|[E|[]]]; [auto|injection E as -> ->; auto].
    + intros [E|H]; [injection E as -> ->; auto|auto].
    + intros [H|[E|[]]]; [auto|discriminate].
    + intros [E|H]; [discriminate|auto].
    + intros [H|[]]; auto.
    + intros [E|H]; [injection E as E _ _; congruence|auto].
    + intros [H|[]]; auto.
    + intros [E|H]; [discriminate|auto].
  - rewrite IH1, IH2. split; (split; [auto|intros [E|H]; [discriminate|exact H]]).
  - rewrite IH1, IH2. split; (split; [auto|intros [E|H]; [discriminate|exact H]]).
Qed.
Lemma puts_In tr k v : In v (puts tr k) <-> exists i, In (LPut i k v) tr.
Proof.
  induction tr as [|l tr IH]; [cbn; split; [intros []|intros (i & [])]|]. destruct l as [j a b|j a b|j a b|j a|]; cbn [puts In];
    try (rewrite IH; split; intros (i & H); [eauto|destruct H as [H|H]; [discriminate|eauto]]).
  destruct (Z.eqb_spec a k) as [->|N]; cbn [In]; rewrite IH.
  - split; [intros [->|(i & H)]; eauto|]. intros (i & [H|H]); [injection H as _ ->; auto|eauto].
  - split; intros (i & H); [eauto|]. destruct H as [H|H]; [injection H as _ E _; contradiction|eauto].
Qed.
Lemma play_wb ins : forall h outs p q, wb ins outs p -> play p h = Some q -> (forall k v, In (OPut k v) h -> In k outs) /\ (forall k v, In (OGot k v) h -> ins k).
Proof.
  induction h as [|o h IH]; intros outs p q W P; [split; intros ? ? []|]. destruct W as [|outs k f IK W|l1 k l2 v f W]; cbn [play] in P; destruct o as [a b|a b]; try discriminate.
  - destruct (Z.eqb_spec a k) as [->|]; [|discriminate]. destruct (IH outs (f (Some b)) q (W b) P) as [A B]. split; intros k' v' [E|I]; try discriminate; eauto. injection E as <- <-. exact IK.
  - destruct (Z.eqb_spec a k) as [->|]; [|discriminate]. destruct (Z.eqb_spec b v) as [->|]; [|discriminate]. cbn [andb] in P. destruct (IH _ _ q W P) as [A B].
    split; intros k' v' [E|I]; try discriminate; eauto.
    + injection E as <- <-. apply in_or_app. right. left. reflexivity.
    + apply A in I. apply in_app_or in I. apply in_or_app. destruct I; [auto|right; right; assumption].
Qed.

Definition wbp (ins : Z -> Prop) (outs : list Z) (q : proc) : Prop :=
  match q with Run p => wb ins outs p | Hold k v f => ins k /\ forall v, wb ins outs (f (Some v)) end.
Record good (h : list decl) (tasks : list (Z * prog)) (keys : list Z) (tr : list lab) (s : sys) : Prop := {
  g_len : length (procs s) = length tasks;
  g_quit : quit s = false;
  g_keys : forall k, chans s k = None <-> ~ In k keys;
  g_one : forall k, (length (puts tr k) <= 1)%nat;
  g_who : forall i k v, In (LPut i k v) tr -> (i < length tasks)%nat;
  g_task : forall i t p0, nth_error tasks i = Some (t, p0) -> exists r q, nth_error (procs s) i = Some q /\ NoDup r /\
           (forall k, In k r <-> outputs h t k /\ puts tr k = []) /\ wbp (inputs h t) r q /\ play p0 (hist i tr) = Some (cur q) }.
Lemma good_run h tasks keys c : (forall t k t', outputs h t k -> outputs h t' k -> t = t') -> (forall t k, inputs h t k \/ outputs h t k -> In k keys) -> store_of keys c -> faithful h tasks ->
  forall tr s, run (event keys c (map snd tasks)) tr s -> ~ In LClose tr -> good h tasks keys tr s.
Proof.
  intros ONE KEYS ST (ND & PR & TK) tr s R. induction R as [|tr s l s' R IH STEP]; intros NC.
  - constructor.
    + cbn. rewrite !map_length. reflexivity.
    + reflexivity.
    + intros k. cbn. unfold reset. destruct (existsb (Z.eqb k) keys) eqn:X.
      * split; [discriminate|]. intros N. exfalso. apply N. apply existsb_exists in X. destruct X as (x & I & E). apply Z.eqb_eq in E. subst. exact I.
      * assert (~ In k keys). { intros I. assert (existsb (Z.eqb k) keys = true); [apply existsb_exists; exists k; split; [exact I|apply Z.eqb_refl]|congruence]. } split; auto.
    + cbn. lia.
    + intros i k v [].
    + intros i t p0 N. destruct (TK t p0 (nth_error_In _ _ N)) as (outs & A & B & C). exists outs, (Run p0). cbn [event procs]. split; [erewrite map_nth_error; [reflexivity|]; erewrite map_nth_error; [|exact N]; reflexivity|].
      split; [exact A|]. split; [intros k; rewrite B; cbn; tauto|]. split; [exact C|]. reflexivity.
  - specialize (IH (fun H => NC (or_intror H))). destruct IH as [G1 G2 G3 G4 GW G5].
    assert (TI : forall i q, nth_error (procs s) i = Some q -> exists t p0, nth_error tasks i = Some (t, p0)).
    { intros i q N. apply nth_lt in N. rewrite G1 in N. apply nth_error_Some in N. destruct (nth_error tasks i) as [[t p0]|]; [eauto|contradiction]. }
    destruct STEP as [s i j f N C|s i j f w N C|s i j f w N C|s i j f N C Q|s i j w f N C|s i j w f N Q|s Q].
    + exfalso. destruct (TI _ _ N) as (t & p0 & T). destruct (G5 _ _ _ T) as (r & q & NQ & _ & _ & W & _). rewrite N in NQ. injection NQ as <-. cbn in W. inversion W; subst.
      apply (proj1 (G3 j) C). eapply KEYS. left. eassumption.
    + constructor; cbn [procs quit chans].
      * rewrite setp_length. exact G1.
      * exact G2.
      * intros k. unfold upd. destruct (Z.eqb_spec k j) as [->|]; [|apply G3]. rewrite <- G3. split; congruence.
      * exact G4.
      * intros i' k' v' [E'|I']; [discriminate|eapply GW; exact I'].
      * intros i' t p0 T. destruct (G5 i' t p0 T) as (r & q & NQ & ND' & RK & W & PL). rewrite setp_nth by (eapply nth_lt; exact N). destruct (Nat.eqb_spec i i') as [<-|NE]; [|exists r, q; auto].
        rewrite N in NQ. injection NQ as <-. exists r, (Hold j w f). split; [reflexivity|]. split; [exact ND'|]. split; [exact RK|]. split; [|exact PL]. cbn in W |- *. inversion W; subst. auto.
    + constructor; cbn [procs quit chans].
      * rewrite setp_length. exact G1.
      * exact G2.
      * intros k. unfold upd. destruct (Z.eqb_spec k j) as [->|]; [|apply G3]. rewrite <- G3. split; congruence.
      * exact G4.
      * intros i' k' v' [E'|I']; [discriminate|eapply GW; exact I'].
      * intros i' t p0 T. destruct (G5 i' t p0 T) as (r & q & NQ & ND' & RK & W & PL). rewrite setp_nth by (eapply nth_lt; exact N). cbn [hist]. destruct (Nat.eqb_spec i i') as [<-|NE].
        -- rewrite Nat.eqb_refl. rewrite N in NQ. injection NQ as <-. exists r, (Run (f (Some w))). split; [reflexivity|]. split; [exact ND'|]. split; [exact RK|]. split; [apply W|].
           rewrite play_snoc, PL. cbn. rewrite Z.eqb_refl. reflexivity.
        -- destruct (Nat.eqb_spec i' i) as [|_]; [congruence|]. rewrite app_nil_r. exists r, q. auto.
    + congruence.
    + destruct (TI _ _ N) as (t1 & p1 & T1). destruct (G5 _ _ _ T1) as (r1 & q1 & NQ1 & ND1 & RK1 & W1 & PL1). rewrite N in NQ1. injection NQ1 as <-. cbn in W1.
      inversion W1 as [| |l1 k' l2 v' f' W2]; subst. assert (JO : outputs h t1 j /\ puts tr j = []) by (apply RK1, in_or_app; right; left; reflexivity). destruct JO as [JO JP].
      constructor; cbn [procs quit chans].
      * rewrite setp_length. exact G1.
      * exact G2.
      * intros k. unfold upd. destruct (Z.eqb_spec k j) as [->|]; [|apply G3]. rewrite <- G3. split; congruence.
      * intros k. cbn [puts]. destruct (Z.eqb_spec j k) as [<-|]; [rewrite JP; cbn; lia|apply G4].
      * intros i' k' v' [E'|I']; [injection E' as -> -> ->; rewrite <- G1; eapply nth_lt; exact N|eapply GW; exact I'].
      * intros i' t p0 T. destruct (G5 i' t p0 T) as (r & q & NQ & ND' & RK & W & PL). rewrite setp_nth by (eapply nth_lt; exact N). cbn [hist puts]. destruct (Nat.eqb_spec i i') as [<-|NE].
        -- rewrite Nat.eqb_refl. rewrite T1 in T. injection T as <- <-. exists (l1 ++ l2), (Run (f true)). split; [reflexivity|]. split; [eapply NoDup_remove_1; exact ND1|]. split; [|split; [exact W2|]].
           ++ intros k. split.
              ** intros I. assert (I' : In k (l1 ++ j :: l2)) by (apply in_app_or in I; apply in_or_app; destruct I; [auto|right; right; assumption]). apply RK1 in I'.
                 destruct (Z.eqb_spec j k) as [<-|]; [|exact I']. exfalso. apply (NoDup_remove_2 _ _ _ ND1). exact I.
              ** intros [O P]. destruct (Z.eqb_spec j k) as [<-|NJ]; [discriminate|]. assert (I : In k (l1 ++ j :: l2)) by (apply RK1; auto). apply in_app_or in I. apply in_or_app.
                 destruct I as [I|[E|I]]; [auto|congruence|auto].
           ++ rewrite play_snoc, PL1. cbn. rewrite !Z.eqb_refl. reflexivity.
        -- destruct (Nat.eqb_spec i' i) as [|_]; [congruence|]. rewrite app_nil_r. exists r, q. split; [exact NQ|]. split; [exact ND'|]. split; [|auto].
           intros k. rewrite RK. destruct (Z.eqb_spec j k) as [<-|]; [|tauto]. split; [|intros [_ H]; discriminate]. intros [O _]. exfalso. assert (t = t1) by (eapply ONE; eassumption). subst t.
           apply NE. apply (proj1 (NoDup_nth_error (map fst tasks)) ND).
           ++ rewrite map_length. eapply nth_lt. exact T1.
           ++ erewrite (map_nth_error fst); [|exact T1]. erewrite (map_nth_error fst); [|exact T]. reflexivity.
    + congruence.
    + exfalso. apply NC. left. reflexivity.
Qed.

Lemma last_type_some h d : In d h -> last_type h (port d) <> None.
Proof. intros I E. eapply (last_type_none h (port d) E d I). reflexivity. Qed.
Lemma app_facts h f : declares newFlow h = Some f ->
  (forall t k t', outputs h t k -> outputs h t' k -> t = t') /\ (forall t k, inputs h t k \/ outputs h t k -> In k (keys (f_edges f))).
Proof.
  intros E. pose proof (declares_ok h [] newFlow rel_new) as D. rewrite E in D. destruct D as [R _]. cbn [app] in R. split.
  - intros t k t' [a A] [b B]. eapply r_one; eassumption.
  - intros t k H. apply keys_get. rewrite (r_edge _ _ R). assert (N : last_type h k <> None) by (destruct H as [[a A]|[a A]]; apply last_type_some in A; exact A).
    destruct (last_type h k) as [x|]; [eauto|congruence].
Qed.
(* An accepted application whose tasks do what they declare: an event that is not aborted never gets stuck before all tasks have returned. *)
Theorem C55_progress : forall h f tasks c tr s, declares newFlow h = Some f -> startSvc f = Ok true -> (forall t, ~ needs h t t) -> faithful h tasks -> store_of (keys (f_edges f)) c ->
  run (event (keys (f_edges f)) c (map snd tasks)) tr s -> ~ In LClose tr ->
  (exists l s', step s l s' /\ l <> LClose) \/ forall p, In p (procs s) -> p = Run (Ret true).
Proof.
  intros h f tasks c tr s E S NS FA ST R NC. destruct (ranked h f E S NS) as [IN (rank & RK)]. destruct (app_facts h f E) as [ONE KEYS].
  pose proof (good_run h tasks _ c ONE KEYS ST FA tr s R NC) as G. destruct G as [G1 G2 G3 G4 _ G5]. destruct FA as (ND & PR & TK).
  assert (TO : forall k, tokens s k = length (puts tr k)).
  { intros k. clear - R ST. induction R as [|tr s l s' R IH STEP]; [apply event_start, ST|]. rewrite (step_tokens _ _ _ k STEP), (puts_cons l tr k), app_length. lia. }
  assert (TASK : forall n i t p0 q, nth_error tasks i = Some (t, p0) -> (rank t < n)%nat -> nth_error (procs s) i = Some q -> q <> Run (Ret true) -> exists l s', step s l s' /\ l <> LClose).
  { induction n as [|n IH]; intros i t p0 q T L Q NR; [lia|]. destruct (G5 i t p0 T) as (r & q' & NQ & NDr & RKr & W & _). rewrite Q in NQ. injection NQ as <-.
    destruct q as [p|k v g]; cbn in W.
    - destruct W as [|outs k g IK W|l1 k l2 v g W].
      + contradiction.
      + destruct IK as [ty IK]. destruct (IN _ _ _ IK) as (t' & ty' & OUT). assert (NX : needs h t t') by (exists k, ty, ty'; auto).
        assert (IT : In t' (map fst tasks)) by (apply PR with k; exists ty'; exact OUT). apply in_map_iff in IT. destruct IT as ([t2 p2] & E2 & IT). cbn in E2. subst t2.
        apply In_nth_error in IT. destruct IT as [j IT]. destruct (G5 j t' p2 IT) as (r2 & q2 & Q2 & _ & RK2 & W2 & _).
        assert (CASE : (forall b, q2 <> Run (Ret b)) \/ exists b, q2 = Run (Ret b)) by (destruct q2 as [[b|?k ?f|?k ?v ?f]|?k ?v ?f]; [right; eauto|left; discriminate|left; discriminate|left; discriminate]).
        destruct CASE as [NR2|[b ->]]; [apply (IH j t' p2 q2 IT); [specialize (RK _ _ NX); lia|exact Q2|apply NR2]|].
        cbn in W2. inversion W2; subst. assert (PK : puts tr k <> []) by (intros P; assert (In k []) by (apply RK2; split; [exists ty'; exact OUT|exact P]); contradiction).
        specialize (G4 k). destruct (puts tr k) as [|v [|]] eqn:PV; [congruence| |cbn in G4; lia].
        destruct (C42_available _ c (map snd tasks) tr s k v ST R PV) as [[C _]|(_ & i' & f' & s' & _ & STEP)].
        * do 2 eexists. split; [eapply s_take; eassumption|discriminate].
        * do 2 eexists. split; [exact STEP|discriminate].
      + assert (KO : outputs h t k /\ puts tr k = []) by (apply RKr, in_or_app; right; left; reflexivity). destruct KO as [KO KP]. specialize (TO k). rewrite KP in TO. unfold tokens in TO.
        destruct (chans s k) as [[x|]|] eqn:C; [cbn in TO; lia| |exfalso; apply (proj1 (G3 k) C), (KEYS t); auto].
        do 2 eexists. split; [eapply s_put; eassumption|discriminate].
    - specialize (TO k). specialize (G4 k). assert (NH : (1 <= length (filter (holds k) (procs s)))%nat).
      { assert (I : In (Hold k v g) (filter (holds k) (procs s))) by (apply filter_In; split; [eapply nth_error_In, Q|apply Z.eqb_refl]). destruct (filter _ _); [contradiction|cbn; lia]. }
      unfold tokens in TO. destruct (chans s k) as [[x|]|] eqn:C; [lia| |exfalso; apply (proj1 (G3 k) C), (KEYS t); left; apply W].
      do 2 eexists. split; [eapply s_got; eassumption|discriminate]. }
  destruct (forallb (fun p => match p with Run (Ret true) => true | _ => false end) (procs s)) eqn:X.
  - right. rewrite forallb_forall in X. intros p I. specialize (X p I). destruct p as [[[|]|?k ?g|?k ?v ?g]|?k ?v ?g]; try discriminate. reflexivity.
  - left. assert (EX : exists p, In p (procs s) /\ p <> Run (Ret true)).
    { clear - X. induction (procs s) as [|p l IH]; [discriminate|]. cbn [forallb] in X. destruct p as [[[|]|?k ?g|?k ?v ?g]|?k ?v ?g]; try (eexists; split; [left; reflexivity|discriminate]).
      cbn in X. destruct (IH X) as (p & I & N). exists p. split; [right; exact I|exact N]. }
    destruct EX as (p & I & N). apply In_nth_error in I. destruct I as [i I]. pose proof (nth_lt _ _ _ I) as LT. rewrite G1 in LT. apply nth_error_Some in LT.
    destruct (nth_error tasks i) as [[t p0]|] eqn:T; [|contradiction]. eapply (TASK (Datatypes.S (rank t)) i t p0 p T); [lia|exact I|exact N].
Qed.
Lemma puts_mono post tr k v : In v (puts tr k) -> In v (puts (post ++ tr) k).
Proof. rewrite !puts_In. intros (i & I). exists i. apply in_or_app. auto. Qed.
Definition prefix (a b : list obs) : Prop := exists c, b = a ++ c.
Lemma play_compare : forall h1 h2 p q1 q2, play p h1 = Some q1 -> play p h2 = Some q2 -> (forall k v w, In (OGot k v) h1 -> In (OGot k w) h2 -> v = w) -> prefix h1 h2 \/ prefix h2 h1.
Proof.
  induction h1 as [|o1 h1 IH]; intros h2 p q1 q2 P1 P2 A; [left; exists h2; reflexivity|]. destruct h2 as [|o2 h2]; [right; exists (o1 :: h1); reflexivity|].
  assert (AA : forall k v w, In (OGot k v) h1 -> In (OGot k w) h2 -> v = w) by (intros k v w I J; apply (A k v w); right; assumption).
  destruct o1 as [k1 v1|k1 v1]; cbn [play] in P1; destruct p as [b|k f|k v f]; try discriminate.
  - destruct o2 as [k2 v2|k2 v2]; cbn [play] in P2; [|discriminate]. destruct (Z.eqb_spec k1 k) as [->|]; [|discriminate]. destruct (Z.eqb_spec k2 k) as [->|]; [|discriminate].
    assert (v1 = v2) by (apply (A k); left; reflexivity). subst v2. destruct (IH h2 _ _ _ P1 P2 AA) as [(c & ->)|(c & ->)]; [left|right]; exists c; reflexivity.
  - destruct o2 as [k2 v2|k2 v2]; cbn [play] in P2; [discriminate|]. destruct (Z.eqb_spec k1 k) as [->|]; [|discriminate]. destruct (Z.eqb_spec k2 k) as [->|]; [|discriminate].
    destruct (Z.eqb_spec v1 v) as [->|]; [|discriminate]. destruct (Z.eqb_spec v2 v) as [->|]; [|discriminate]. cbn [andb] in *.
    destruct (IH h2 _ _ _ P1 P2 AA) as [(c & ->)|(c & ->)]; [left|right]; exists c; reflexivity.
Qed.
(* ... and what is put and what is got under a key does not depend on the schedule. *)
Theorem C55_deterministic : forall h f tasks c1 c2 tr1 s1 tr2 s2, declares newFlow h = Some f -> startSvc f = Ok true -> (forall t, ~ needs h t t) -> faithful h tasks ->
  store_of (keys (f_edges f)) c1 -> store_of (keys (f_edges f)) c2 ->
  run (event (keys (f_edges f)) c1 (map snd tasks)) tr1 s1 -> ~ In LClose tr1 -> run (event (keys (f_edges f)) c2 (map snd tasks)) tr2 s2 -> ~ In LClose tr2 ->
  forall i j k v w, (In (LPut i k v) tr1 \/ In (LGot i k v) tr1) -> (In (LPut j k w) tr2 \/ In (LGot j k w) tr2) -> v = w.
Proof.
  intros h f tasks c1 c2 tr1 s1 tr2 s2 E S NS FA ST1 ST2 R1 NC1 R2 NC2. destruct (ranked h f E S NS) as [_ (rank & RK)]. destruct (app_facts h f E) as [ONE KEYS].
  pose proof (good_run h tasks _ c1 ONE KEYS ST1 FA tr1 s1 R1 NC1) as GA. pose proof (good_run h tasks _ c2 ONE KEYS ST2 FA tr2 s2 R2 NC2) as GB. destruct FA as (ND & PR & TK).
  assert (GOT : forall c tr s i k v, store_of (keys (f_edges f)) c -> run (event (keys (f_edges f)) c (map snd tasks)) tr s -> In (LGot i k v) tr -> exists i', In (LPut i' k v) tr).
  { intros c tr s i k v ST R I. apply in_split in I. destruct I as (post & tr' & ET). apply puts_In. rewrite ET.
    assert (In v (puts tr' k)) by (eapply C42_get; [exact ST|exact R|exists post; exact ET]).
    change (LGot i k v :: tr') with ([LGot i k v] ++ tr'). rewrite app_assoc. apply puts_mono. assumption. }
  (* who puts *)
  assert (WHO : forall tr s i k v, good h tasks (keys (f_edges f)) tr s -> In (LPut i k v) tr -> exists t p0, nth_error tasks i = Some (t, p0) /\ outputs h t k).
  { intros tr s i k v G I. pose proof (g_who _ _ _ _ _ G i k v I) as LI.
    apply nth_error_Some in LI. destruct (nth_error tasks i) as [[t p0]|] eqn:T; [|contradiction]. exists t, p0. split; [reflexivity|].
    destruct (TK t p0 (nth_error_In _ _ T)) as (outs & _ & OK & W). destruct (g_task _ _ _ _ _ G i t p0 T) as (r & q & _ & _ & _ & _ & PL).
    apply OK. eapply (proj1 (play_wb _ _ _ _ _ W PL)). apply hist_In. exact I. }
  assert (PUT : forall n i j k v w t p0, nth_error tasks i = Some (t, p0) -> (rank t < n)%nat -> In (LPut i k v) tr1 -> In (LPut j k w) tr2 -> v = w).
  { induction n as [|n IH]; intros i j k v w t p0 T L I J; [lia|].
    destruct (WHO _ _ _ _ _ GA I) as (t1 & p1 & T1 & O1). destruct (WHO _ _ _ _ _ GB J) as (t2 & p2 & T2 & O2). rewrite T in T1. injection T1 as <- <-.
    assert (t2 = t) by (eapply ONE; eassumption). subst t2.
    assert (i = j). { apply (proj1 (NoDup_nth_error (map fst tasks)) ND); [rewrite map_length; eapply nth_lt; exact T|]. erewrite (map_nth_error fst); [|exact T]. erewrite (map_nth_error fst); [|exact T2]. reflexivity. }
    subst j. rewrite T in T2. injection T2 as <-.
    destruct (TK t p0 (nth_error_In _ _ T)) as (outs & _ & _ & W).
    destruct (g_task _ _ _ _ _ GA i t p0 T) as (ra & qa & _ & _ & _ & _ & PA). destruct (g_task _ _ _ _ _ GB i t p0 T) as (rb & qb & _ & _ & _ & _ & PB).
    assert (CMP : forall k v w, In (OGot k v) (hist i tr1) -> In (OGot k w) (hist i tr2) -> v = w).
    { intros k' v' w' I' J'. assert (IN : inputs h t k') by (eapply (proj2 (play_wb _ _ _ _ _ W PA)); exact I'). apply hist_In in I'. apply hist_In in J'.
      destruct (GOT _ _ _ _ _ _ ST1 R1 I') as [i1 I1]. destruct (GOT _ _ _ _ _ _ ST2 R2 J') as [j1 J1]. destruct (WHO _ _ _ _ _ GA I1) as (t3 & p3 & T3 & [ty3 O3]).
      apply (IH i1 j1 k' v' w' t3 p3 T3); [|exact I1|exact J1]. destruct IN as [ty IN]. assert (NX : needs h t t3) by (exists k', ty, ty3; auto). specialize (RK _ _ NX). lia. }
    assert (TWO : forall tr s, good h tasks (keys (f_edges f)) tr s -> In (OPut k v) (hist i tr) -> In (OPut k w) (hist i tr) -> v = w).
    { intros tr s G A B. apply hist_In in A. apply hist_In in B. assert (AV : In v (puts tr k)) by (apply puts_In; eauto). assert (BV : In w (puts tr k)) by (apply puts_In; eauto).
      pose proof (g_one _ _ _ _ _ G k) as O. destruct (puts tr k) as [|x [|y l]]; [contradiction| |cbn in O; lia]. destruct AV as [<-|[]]. destruct BV as [<-|[]]. reflexivity. }
    apply hist_In in I. apply hist_In in J. destruct (play_compare _ _ _ _ _ PA PB CMP) as [(c & EC)|(c & EC)].
    - apply (TWO _ _ GB); [rewrite EC; apply in_or_app; auto|exact J].
    - apply (TWO _ _ GA); [exact I|rewrite EC; apply in_or_app; auto]. }
  intros i j k v w A B.
  assert (A' : exists i', In (LPut i' k v) tr1) by (destruct A as [A|A]; [eauto|exact (GOT _ _ _ _ _ _ ST1 R1 A)]). assert (B' : exists j', In (LPut j' k w) tr2) by (destruct B as [B|B]; [eauto|exact (GOT _ _ _ _ _ _ ST2 R2 B)]).
  destruct A' as [i' A']. destruct B' as [j' B']. destruct (WHO _ _ _ _ _ GA A') as (t & p0 & T & _). eapply (PUT (Datatypes.S (rank t))); [exact T|lia|exact A'|exact B'].
Qed.


(* A task that reads what it makes itself is accepted, and its event never ends. *)
Theorem C55_self_refuted : exists h f tasks c, declares newFlow h = Some f /\ startSvc f = Ok true /\ faithful h tasks /\ store_of (keys (f_edges f)) c /\
  exists i k g, nth_error (procs (event (keys (f_edges f)) c (map snd tasks))) i = Some (Run (Get k g)) /\ forall l s', step (event (keys (f_edges f)) c (map snd tasks)) l s' -> l = LClose.
Proof.
  exists [DIn 1 7 100; DOut 1 7 100]. eexists. exists [(1, Get 7 (fun o => match o with Some v => Put 7 v Ret | None => Ret false end))], (fun _ => None).
  split; [vm_compute; reflexivity|]. split; [vm_compute; reflexivity|]. split; [|split; [intros j _; reflexivity|]].
  - split; [constructor; [auto|constructor]|]. split.
    + intros t k [ty [E|[E|[]]]]; [discriminate|injection E as <- <- <-; left; reflexivity].
    + intros t p [E|[]]. injection E as <- <-. exists [7]. split; [constructor; [auto|constructor]|]. split.
      * intros k. split; [intros [<-|[]]; exists 100; cbn; auto|]. intros [ty [E|[E|[]]]]; [discriminate|injection E as <- <-; left; reflexivity].
      * apply wb_get; [exists 100; left; reflexivity|]. intros v. apply (wb_put _ [] 7 []). apply wb_ret.
  - exists 0%nat, 7. eexists. split; [reflexivity|]. intros l s' H. inversion H; subst; cbn in *; try reflexivity; exfalso;
      (destruct i as [|[|i]]; cbn in *; try discriminate; match goal with N : Some _ = Some _ |- _ => inversion N; subst end; vm_compute in *; congruence).
Qed.
(* three tasks, listed against the flow of the data *)
Definition chain : list decl := [DIn 3 8 100; DIn 2 7 100; DOut 2 8 100; DOut 1 7 100].
Definition chain_tasks : list (Z * prog) :=
  [(3, Get 8 (fun o => match o with Some _ => Ret true | None => Ret false end));
   (2, Get 7 (fun o => match o with Some v => Put 8 (v * 2) Ret | None => Ret false end));
   (1, Put 7 21 Ret)].
Example C55_example : exists f, declares newFlow chain = Some f /\ startSvc f = Ok true /\ (forall t, ~ needs chain t t) /\ faithful chain chain_tasks /\ store_of (keys (f_edges f)) (fun _ => None) /\
  exists tr s, run (event (keys (f_edges f)) (fun _ => None) (map snd chain_tasks)) tr s /\ ~ In LClose tr /\ In (LGot 0 8 42) tr /\ forall p, In p (procs s) -> p = Run (Ret true).
Proof.
  eexists. split; [vm_compute; reflexivity|]. split; [vm_compute; reflexivity|]. split.
  { intros t (p & a & b & I & J). cbn in I, J. intuition congruence. }
  split.
  { split; [cbn; repeat (constructor; [cbn; intuition lia|]); constructor|]. split.
    - intros t k [ty I]. cbn in I |- *. intuition congruence.
    - intros t p [E|[E|[E|[]]]]; injection E as <- <-.
      + exists []. split; [constructor|]. split; [intros k; split; [intros []|intros [ty I]; cbn in I; intuition congruence]|]. apply wb_get; [exists 100; cbn; auto|]. intros v. apply wb_ret.
      + exists [8]. split; [constructor; [auto|constructor]|]. split; [intros k; split; [intros [<-|[]]; exists 100; cbn; auto|intros [ty I]; cbn in I |- *; intuition congruence]|].
        apply wb_get; [exists 100; cbn; auto|]. intros v. apply (wb_put _ [] 8 []). apply wb_ret.
      + exists [7]. split; [constructor; [auto|constructor]|]. split; [intros k; split; [intros [<-|[]]; exists 100; cbn; auto|intros [ty I]; cbn in I |- *; intuition congruence]|].
        apply (wb_put _ [] 7 []). apply wb_ret. }
  split; [intros j _; reflexivity|]. exists [LGot 0 8 42; LTake 0 8 42; LPut 1 8 42; LGot 1 7 21; LTake 1 7 21; LPut 2 7 21]. eexists. split.
  { eapply run_step. eapply run_step. eapply run_step. eapply run_step. eapply run_step. eapply run_step. apply run_nil.
    - eapply s_put; reflexivity.
    - eapply s_take; reflexivity.
    - eapply s_got; reflexivity.
    - eapply (s_put _ _ _ (21 * 2)); reflexivity.
    - eapply s_take; reflexivity.
    - eapply s_got; reflexivity. }
  split; [cbn; intuition discriminate|]. split; [left; reflexivity|]. intros p I. cbn in I. intuition.
Qed.
Print Assumptions C42_get.
Print Assumptions C42_available.
Print Assumptions C42_single.
Print Assumptions C42_abort.
Print Assumptions C42_two_puts_refuted.
Print Assumptions C55_ends.
Print Assumptions C55_progress.
Print Assumptions C55_deterministic.
Print Assumptions C55_self_refuted.
