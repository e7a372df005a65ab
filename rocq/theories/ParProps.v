(* C43: bounded parallelism. *)
From Coq Require Import ZArith List Lia Bool Permutation.
From Verif Require Import ParModel.
Import ListNotations.

(* the tasks whose function was called, the latest first *)
Fixpoint starts (tr : list lab) : list nat := match tr with [] => [] | LStart t :: tr' => t :: starts tr' | _ :: tr' => starts tr' end.
Definition running (s : st) : nat := length (filter (fun g => match snd g with PRun => true | _ => false end) (gos s)).
Fixpoint errors (res : nat -> option Z) (ts : list nat) : list Z := match ts with [] => [] | t :: ts' => match res t with Some e => e :: errors res ts' | None => errors res ts' end end.

Definition sum {A} (w : A -> nat) (l : list A) : nat := list_sum (map w l).
Lemma sum_cons {A} (w : A -> nat) a l : sum w (a :: l) = (w a + sum w l)%nat. Proof. reflexivity. Qed.
Lemma sum_app {A} (w : A -> nat) l m : sum w (l ++ m) = (sum w l + sum w m)%nat.
Proof. unfold sum. rewrite map_app, list_sum_app. reflexivity. Qed.
Lemma sum_seti {A} (w : A -> nat) l : forall i x y, nth_error l i = Some x -> (sum w (seti l i y) + w x = sum w l + w y)%nat.
Proof. induction l as [|a l IH]; intros [|i] x y E; cbn [nth_error seti] in *; try discriminate; rewrite !sum_cons; [injection E as ->; lia|]. specialize (IH i x y E). lia. Qed.
Lemma sum_deli {A} (w : A -> nat) l : forall i x, nth_error l i = Some x -> (sum w (deli l i) + w x = sum w l)%nat.
Proof. induction l as [|a l IH]; intros [|i] x E; cbn [nth_error deli] in *; try discriminate; rewrite !sum_cons; [injection E as ->; lia|]. specialize (IH i x E). lia. Qed.
Lemma sum_ge {A} (w : A -> nat) l x : In x l -> (w x <= sum w l)%nat.
Proof. induction l as [|a l IH]; intros H; [contradiction|]. rewrite sum_cons. destruct H as [->|H]; [lia|specialize (IH H); lia]. Qed.
Lemma sum_zero {A} (w : A -> nat) l : (forall x, In x l -> w x = O) -> sum w l = O.
Proof. induction l as [|a l IH]; intros H; [reflexivity|]. rewrite sum_cons, (H a), IH; auto; [intros; apply H; right; assumption|left; reflexivity]. Qed.
Lemma sum_perm {A} (w : A -> nat) l m : Permutation l m -> sum w l = sum w m.
Proof. induction 1; rewrite ?sum_cons; lia. Qed.
Lemma seti_In {A} (l : list A) : forall i y x, In x (seti l i y) -> x = y \/ In x l.
Proof. induction l as [|a l IH]; intros [|i] y x H; cbn in *; try tauto; [intuition|]. destruct H as [->|H]; [auto|destruct (IH _ _ _ H); auto]. Qed.
Lemma deli_In {A} (l : list A) : forall i x, In x (deli l i) -> In x l.
Proof. induction l as [|a l IH]; intros [|i] x H; cbn in *; try tauto. destruct H as [->|H]; [auto|right; eapply IH, H]. Qed.

Definition ind (b : bool) : nat := if b then 1%nat else 0%nat.
Definition w_one {A} (_ : A) : nat := 1%nat.
Definition w_mid (c : caller) : nat := match c with CIdle _ => 0%nat | CMid _ _ => 1%nat end.
Definition w_wg (g : nat * phase) : nat := match snd g with PRel => 0%nat | _ => 1%nat end.
Definition w_run (g : nat * phase) : nat := match snd g with PRun => 1%nat | _ => 0%nat end.
Definition w_todo (t : nat) (c : caller) : nat := match c with CIdle ts => count_occ Nat.eq_dec ts t | CMid u ts => (ind (Nat.eqb u t) + count_occ Nat.eq_dec ts t)%nat end.
Definition w_new (t : nat) (g : nat * phase) : nat := match g with (u, PNew) => ind (Nat.eqb u t) | _ => 0%nat end.
Definition is_err (res : nat -> option Z) (e : Z) (t : nat) : nat := match res t with Some e' => ind (Z.eqb e' e) | None => 0%nat end.
Definition w_err (res : nat -> option Z) (e : Z) (g : nat * phase) : nat := match g with (t, PRun) => is_err res e t | (_, PErr e') => ind (Z.eqb e' e) | _ => 0%nat end.
Lemma count_cons (a t : nat) l : count_occ Nat.eq_dec (a :: l) t = (ind (Nat.eqb a t) + count_occ Nat.eq_dec l t)%nat.
Proof. cbn. destruct (Nat.eq_dec a t) as [->|N]; [rewrite Nat.eqb_refl; reflexivity|]. destruct (Nat.eqb_spec a t); [contradiction|reflexivity]. Qed.
Lemma countZ_snoc (a e : Z) l : count_occ Z.eq_dec (l ++ [a]) e = (count_occ Z.eq_dec l e + ind (Z.eqb a e))%nat.
Proof. rewrite count_occ_app. cbn. destruct (Z.eq_dec a e) as [->|N]; [rewrite Z.eqb_refl; reflexivity|]. destruct (Z.eqb_spec a e); [contradiction|reflexivity]. Qed.
Lemma length_sum {A} (l : list A) : length l = sum w_one l.
Proof. induction l as [|a l IH]; [reflexivity|]. rewrite sum_cons. cbn [length w_one]. rewrite IH. reflexivity. Qed.
Lemma running_sum s : running s = sum w_run (gos s).
Proof. unfold running. induction (gos s) as [|[t p] l IH]; [reflexivity|]. rewrite sum_cons. cbn [filter snd w_run]. destruct p; cbn [length]; rewrite IH; reflexivity. Qed.
Lemma errors_count res e ts : count_occ Z.eq_dec (errors res ts) e = sum (is_err res e) ts.
Proof.
  induction ts as [|t ts IH]; [reflexivity|]. rewrite sum_cons. cbn [errors]. unfold is_err at 1. destruct (res t) as [e'|]; [|exact IH]. cbn [count_occ]. rewrite IH.
  destruct (Z.eq_dec e' e) as [->|N]; [rewrite Z.eqb_refl; reflexivity|]. destruct (Z.eqb_spec e' e); [contradiction|reflexivity].
Qed.

Record inv (maxPar : nat) (res : nat -> option Z) (cs : list (list nat)) (tr : list lab) (s : st) : Prop := {
  i_lim : lim s = (sum w_mid (callers s) + length (gos s))%nat;
  i_max : (lim s <= maxPar)%nat;
  i_wg : wg s = sum w_wg (gos s);
  i_todo : forall t, count_occ Nat.eq_dec (concat cs) t = (sum (w_todo t) (callers s) + sum (w_new t) (gos s) + count_occ Nat.eq_dec (starts tr) t)%nat;
  i_err : forall e, sum (is_err res e) (starts tr) = (sum (w_err res e) (gos s) + count_occ Z.eq_dec (errs s) e)%nat;
  i_state : match wst s with
            | WNot | WWg => isopen s = true /\ col s = Collecting
            | WClosed => isopen s = false /\ (col s = Collecting \/ col s = Sending)
            | WRet l => isopen s = false /\ col s = Ended end;
  i_ret : forall l, In (LRet l) tr -> wst s = WRet l }.
Lemma sum_seti' {A} (w : A -> nat) l i x y : nth_error l i = Some x -> sum w (seti l i y) = (sum w l + w y - w x)%nat /\ (w x <= sum w l)%nat.
Proof. intros E. pose proof (sum_seti w l i x y E). pose proof (sum_ge w l x (nth_error_In _ _ E)). lia. Qed.
Lemma inv_new maxPar res cs : inv maxPar res cs [] (newRun cs).
Proof.
  constructor; cbn [newRun lim wg isopen callers gos errs col wst starts]; try reflexivity.
  - rewrite (sum_zero w_mid); [reflexivity|]. intros x H. apply in_map_iff in H. destruct H as (ts & <- & _). reflexivity.
  - lia.
  - intros t. rewrite Nat.add_0_r. change (sum (w_new t) []) with 0%nat. rewrite Nat.add_0_r. induction cs as [|ts cs IH]; [reflexivity|]. cbn [concat map]. rewrite sum_cons, count_occ_app, IH. reflexivity.
  - auto.
  - intros l [].
Qed.
Ltac sums := repeat match goal with
  | E : nth_error ?l ?i = Some ?x |- context [sum ?w (seti ?l ?i ?y)] => let H := fresh "SE" in pose proof (sum_seti w l i x y E) as H; generalize dependent (sum w (seti l i y)); intros
  | E : nth_error ?l ?i = Some ?x |- context [sum ?w (deli ?l ?i)] => let H := fresh "SD" in pose proof (sum_deli w l i x E) as H; generalize dependent (sum w (deli l i)); intros
  end.
Lemma inv_step maxPar res strict cs tr s l s' : inv maxPar res cs tr s -> step maxPar res strict s l s' -> inv maxPar res cs (l :: tr) s'.
Proof.
  intros [A B C D E F G] H. rewrite (length_sum (gos s)) in A.
  destruct H; constructor; cbn [lim wg isopen callers gos errs col wst starts In]; try rewrite length_sum; intros;
    try match goal with |- context [count_occ Nat.eq_dec (concat cs) ?x] => specialize (D x) end; try match goal with |- context [is_err res ?x] => specialize (E x) end;
    rewrite ?sum_app, ?sum_cons, ?count_cons, ?countZ_snoc;
    sums; unfold w_one in *; cbn [w_mid w_one w_wg w_todo w_new w_err snd] in *; rewrite ?count_cons in *;
    repeat match goal with H : wst s = _ |- _ => rewrite H in * end; repeat match goal with H : col s = _ |- _ => rewrite H in * end;
    repeat match goal with H : _ \/ _ |- _ => destruct H; try discriminate end; try (destruct F; congruence); auto;
    try (repeat match goal with |- context [sum ?w []] => change (sum w []) with 0%nat end; lia).
  - unfold is_err in SE. destruct (res t); cbn in *; lia.
  - unfold is_err in *. destruct (res t); cbn in *; lia.
  - unfold is_err in *. destruct (res t); cbn in *; lia.
  - match goal with I : In _ tr |- _ => specialize (G _ I) end. congruence.
  - destruct F. auto.
  - match goal with I : In _ tr |- _ => specialize (G _ I) end. congruence.
  - destruct (wst s); intuition congruence.
  - destruct F. auto.
  - match goal with I : In _ tr |- _ => specialize (G _ I) end. congruence.
Qed.
Lemma inv_run maxPar res strict cs tr s : run maxPar res strict (newRun cs) tr s -> inv maxPar res cs tr s.
Proof. induction 1 as [|tr s l s' R IH H]; [apply inv_new|eapply inv_step; eassumption]. Qed.
(* Wait called in time: from then on there is no task left to start, and after the close all functions have returned *)
Record late (s : st) : Prop := {
  l_np : panicked s = false;
  l_callers : wst s <> WNot -> forall c, In c (callers s) -> c = CIdle [];
  l_wg : isopen s = false -> wg s = 0%nat }.
Lemma no_go s g : sum w_wg (gos s) = 0%nat -> In g (gos s) -> snd g = PRel.
Proof. intros Z I. pose proof (sum_ge w_wg _ _ I) as G. unfold w_wg in G at 1. destruct (snd g); try reflexivity; lia. Qed.
Lemma late_run maxPar res cs tr s : run maxPar res true (newRun cs) tr s -> late s.
Proof.
  induction 1 as [|tr s l s' R [NP C W] H]; [constructor; cbn; [reflexivity|congruence|discriminate]|]. pose proof (inv_run _ _ _ _ _ _ R) as I. pose proof (i_wg _ _ _ _ _ I) as IW. pose proof (i_state _ _ _ _ _ I) as IS.
  assert (NC : forall i c, nth_error (callers s) i = Some c -> c <> CIdle [] -> wst s = WNot).
  { intros i c N D. destruct (wst s) eqn:E; [reflexivity| | |]; exfalso; apply D, C; try discriminate; eapply nth_error_In, N. }
  assert (NG : forall i t p, nth_error (gos s) i = Some (t, p) -> p <> PRel -> isopen s = true).
  { intros i t p N D. destruct (isopen s); [reflexivity|]. exfalso. apply D. rewrite W in IW by reflexivity. apply (no_go s (t, p)); [congruence|eapply nth_error_In, N]. }
  destruct H; constructor; cbn [panicked wst callers isopen wg]; intros; auto.
  - exfalso. match goal with H : nth_error _ _ = _ |- _ => apply NC in H; [congruence|discriminate] end.
  - exfalso. match goal with H : nth_error _ _ = _ |- _ => apply NC in H; [congruence|discriminate] end.
  - exfalso. match goal with H : nth_error _ _ = _ |- _ => apply NC in H; [|discriminate] end. match goal with H : wst s = _ |- _ => rewrite H in IS end. destruct IS. congruence.
  - exfalso. match goal with H : nth_error _ _ = _ |- _ => apply NG in H; [|discriminate] end. congruence.
  - match goal with H : nth_error _ _ = _ |- _ => apply NG in H; [|discriminate] end. congruence.
  - apply C; [|assumption]. congruence.
  - apply C; [|assumption]. congruence.
Qed.

(* ---- C43 ---- *)
(* whatever the tasks, the goroutines calling Do, and the time of Wait *)
Theorem C43_bound : forall maxPar res strict cs tr s, run maxPar res strict (newRun cs) tr s -> (running s <= maxPar)%nat.
Proof.
  intros maxPar res strict cs tr s R. pose proof (inv_run _ _ _ _ _ _ R) as I. pose proof (i_lim _ _ _ _ _ I). pose proof (i_max _ _ _ _ _ I). rewrite running_sum, length_sum in *.
  assert (sum w_run (gos s) <= sum w_one (gos s))%nat; [|lia]. clear. induction (gos s) as [|g l IH]; [auto|]. rewrite !sum_cons. unfold w_run at 1, w_one at 1. destruct (snd g); lia.
Qed.
Theorem C43_once : forall maxPar res strict cs tr s t, run maxPar res strict (newRun cs) tr s -> (count_occ Nat.eq_dec (starts tr) t <= count_occ Nat.eq_dec (concat cs) t)%nat.
Proof. intros maxPar res strict cs tr s t R. pose proof (i_todo _ _ _ _ _ (inv_run _ _ _ _ _ _ R) t). lia. Qed.
(* Wait returns when every function has been called and has returned, with all the errors and nothing else *)
Theorem C43_wait : forall maxPar res cs tr s es, run maxPar res true (newRun cs) tr s -> In (LRet es) tr ->
  Permutation (starts tr) (concat cs) /\ Permutation es (errors res (concat cs)) /\ running s = 0%nat /\ panicked s = false.
Proof.
  intros maxPar res cs tr s es R IR. pose proof (inv_run _ _ _ _ _ _ R) as I. destruct I as [A B C D E F G]. destruct (late_run _ _ _ _ _ R) as [NP LC LW]. pose proof (G es IR) as WE. rewrite WE in F. destruct F as [F1 F2].
  specialize (LW F1). rewrite C in LW. assert (CI : forall c, In c (callers s) -> c = CIdle []) by (apply LC; congruence).
  assert (P : Permutation (starts tr) (concat cs)).
  { apply (Permutation_count_occ Nat.eq_dec). intros t. rewrite D. rewrite (sum_zero (w_todo t)), (sum_zero (w_new t)); [reflexivity| |].
    - intros [u p] H. pose proof (no_go s _ LW H) as Q. cbn in Q. subst p. reflexivity.
    - intros c H. rewrite (CI c H). reflexivity. }
  split; [exact P|]. split; [|split; [|exact NP]].
  - assert (ES : es = errs s).
    { clear - R WE. revert WE. induction R as [|tr s l s' R IH H]; [discriminate|]. pose proof (i_state _ _ _ _ _ (inv_run _ _ _ _ _ _ R)) as IS. destruct H; cbn [wst errs]; intros; try congruence; auto.
      specialize (IH WE). rewrite WE in IS. destruct IS. congruence. }
    rewrite ES. apply (Permutation_count_occ Z.eq_dec). intros e. specialize (E e). rewrite (sum_zero (w_err res e)) in E.
    + cbn [plus] in E. rewrite <- E, errors_count. apply sum_perm, P.
    + intros [u p] H. pose proof (no_go s _ LW H) as Q. cbn in Q. subst p. reflexivity.
  - rewrite running_sum. apply sum_zero. intros [u p] H. pose proof (no_go s _ LW H) as Q. cbn in Q. subst p. reflexivity.
Qed.
(* It never gets stuck: until Wait has returned, with no goroutine left, there is a step. *)
Theorem C43_progress : forall maxPar res cs tr s, (0 < maxPar)%nat -> run maxPar res true (newRun cs) tr s ->
  (exists l s', step maxPar res true s l s') \/ (exists es, In (LRet es) tr) /\ gos s = [].
Proof.
  intros maxPar res cs tr s MP R. pose proof (inv_run _ _ _ _ _ _ R) as I. destruct I as [A B C D E F G]. destruct (late_run _ _ _ _ _ R) as [NP LC LW].
  destruct (gos s) as [|[t p] l] eqn:GO.
  - destruct (Forall_Exists_dec (fun c => c = CIdle []) ltac:(intros [[|]|]; [left; reflexivity|right; discriminate|right; discriminate]) (callers s)) as [FA|EX].
    + rewrite Forall_forall in FA. destruct (wst s) as [| | |es] eqn:W.
      * left. do 2 eexists. apply s_wait; auto.
      * left. do 2 eexists. apply s_close; auto.
      * destruct F as [F1 [F2|F2]]; left; do 2 eexists; [apply s_collected; auto|apply s_ret; auto].
      * right. split; [|reflexivity]. exists es. clear - R W. induction R as [|tr s l s' R IH H]; [discriminate|]. destruct H; cbn [wst] in W; try discriminate; try (right; auto; fail). injection W as <-. left. reflexivity.
    + left. apply Exists_exists in EX. destruct EX as (c & IC & NC). apply In_nth_error in IC. destruct IC as [i IC]. destruct c as [[|t ts]|t ts]; [congruence| |].
      * destruct (Nat.lt_ge_cases (lim s) maxPar) as [LT|GE]; [do 2 eexists; eapply s_acq; eassumption|].
        (* full: another caller is in Do *)
        cbn [length] in A. assert (EM : exists j u us, nth_error (callers s) j = Some (CMid u us)).
        { assert (P : (0 < sum w_mid (callers s))%nat) by lia. clear - P. induction (callers s) as [|c l IH]; [cbn in P; lia|]. rewrite sum_cons in P. destruct c as [ts|t ts]; [|exists 0%nat, t, ts; reflexivity].
          destruct (IH P) as (j & u & us & E). exists (S j), u, us. exact E. }
        destruct EM as (j & u & us & EM). do 2 eexists. eapply s_go; eassumption.
      * do 2 eexists. eapply s_go; eassumption.
  - left. assert (N : nth_error (gos s) 0 = Some (t, p)) by (rewrite GO; reflexivity). destruct p as [| |e| |].
    + do 2 eexists. eapply s_start; eassumption.
    + do 2 eexists. eapply s_return; eassumption.
    + destruct (isopen s) eqn:O; [|do 2 eexists; eapply s_closed; eassumption]. do 2 eexists. eapply s_done; try eassumption. destruct (wst s); intuition congruence.
    + do 2 eexists. eapply s_wgdone; eassumption.
    + do 2 eexists. eapply s_rel; eassumption.
Qed.
(* ... and it ends under every schedule *)
Definition w_phase (g : nat * phase) : nat := match snd g with PNew => 5 | PRun => 4 | PErr _ => 3 | PFin => 2 | PRel => 1 end.
Definition w_caller (c : caller) : nat := match c with CIdle ts => 7 * length ts | CMid _ ts => 6 + 7 * length ts end.
Definition size (s : st) : nat :=
  (sum w_caller (callers s) + sum w_phase (gos s) + (match wst s with WNot => 3 | WWg => 2 | WClosed => 1 | WRet _ => 0 end) + (match col s with Collecting => 2 | Sending => 1 | Ended => 0 end) + ind (negb (panicked s)))%nat.
Theorem C43_ends : forall maxPar res strict s l s', step maxPar res strict s l s' -> (size s' < size s)%nat.
Proof.
  intros maxPar res strict s l s' H. unfold size. destruct H; cbn [callers gos wst col panicked negb ind]; rewrite ?sum_app, ?sum_cons;
    repeat match goal with H : wst s = _ |- _ => rewrite H in * end; repeat match goal with H : col s = _ |- _ => rewrite H in * end; repeat match goal with H : panicked s = _ |- _ => rewrite H in * end;
    sums; unfold w_caller, w_phase in *; cbn [snd length negb ind] in *; repeat match goal with |- context [sum ?w []] => change (sum w []) with 0%nat end; try lia.
  destruct (res t); lia.
Qed.
(* With no room at all no function is ever called, and Wait is never reached. *)
Theorem C43_zero_refuted : forall res cs tr s, concat cs <> [] -> run 0 res true (newRun cs) tr s -> starts tr = [] /\ ~ In LWait tr.
Proof.
  intros res cs tr s NE R. assert (ST : s = newRun cs /\ tr = []); [|destruct ST as [_ ->]; split; [reflexivity|intros []]].
  induction R as [|tr s l s' R IH H]; [auto|]. exfalso. destruct IH as [-> ->]. inversion H as [? i t ts P N L|? i t ts P N|? i t P N|? i t P N|? i t e P N|? i t e P N|? i t P N|? i t P N|? P W ST|? P W|? P W O|? P W]; subst; cbn in *; try discriminate; try lia;
    try (destruct i; discriminate).
  - apply nth_error_In, in_map_iff in N. destruct N as (x & E & _). discriminate.
  - apply NE. assert (ALL : forall ts, In ts cs -> ts = []) by (intros ts I; specialize (ST eq_refl (CIdle ts) (in_map _ _ _ I)); congruence).
    clear - ALL. induction cs as [|ts cs IH]; [reflexivity|]. cbn. rewrite (ALL ts) by (left; reflexivity). apply IH. intros. apply ALL. right. assumption.
Qed.
Ltac adv tac := match goal with R : run ?m ?r ?b ?s0 ?tr ?s |- _ => let H := fresh "H" in let R' := fresh "R" in
  eassert (H : step m r b s _ _); [tac|]; pose proof (run_step _ _ _ _ _ _ _ _ R H) as R'; clear H R; cbn in R'; rename R' into R end.
(* Wait before the last Do has returned: the program can crash on a closed channel. *)
Theorem C43_late_refuted : exists maxPar res cs tr s, (0 < maxPar)%nat /\ run maxPar res false (newRun cs) tr s /\ panicked s = true.
Proof.
  exists 1%nat, (fun _ => Some 9%Z), [[0%nat]]. pose proof (run_nil 1 (fun _ => Some 9%Z) false (newRun [[0%nat]])) as R. cbn in R.
  adv ltac:(eapply (s_acq _ _ _ _ 0%nat 0%nat []); [reflexivity|reflexivity|cbn; lia]).
  adv ltac:(eapply s_wait; [reflexivity|reflexivity|discriminate]).
  adv ltac:(eapply s_close; reflexivity).
  adv ltac:(eapply (s_go _ _ _ _ 0%nat 0%nat []); reflexivity).
  adv ltac:(eapply (s_start _ _ _ _ 0%nat 0%nat); reflexivity).
  adv ltac:(eapply (s_return _ _ _ _ 0%nat 0%nat); reflexivity).
  adv ltac:(eapply (s_closed _ _ _ _ 0%nat 0%nat 9%Z); reflexivity).
  do 2 eexists. split; [lia|]. split; [exact R|reflexivity].
Qed.
Example C43_example : exists tr s, run 1 (fun t => match t with 1%nat => Some 9%Z | _ => None end) true (newRun [[0%nat; 1%nat]]) tr s /\ In (LRet [9%Z]) tr /\ gos s = [].
Proof.
  pose proof (run_nil 1 (fun t => match t with 1%nat => Some 9%Z | _ => None end) true (newRun [[0%nat; 1%nat]])) as R. cbn in R.
  adv ltac:(eapply (s_acq _ _ _ _ 0%nat 0%nat [1%nat]); [reflexivity|reflexivity|cbn; lia]).
  adv ltac:(eapply (s_go _ _ _ _ 0%nat 0%nat [1%nat]); reflexivity).
  adv ltac:(eapply (s_start _ _ _ _ 0%nat 0%nat); reflexivity).
  adv ltac:(eapply (s_return _ _ _ _ 0%nat 0%nat); reflexivity).
  adv ltac:(eapply (s_wgdone _ _ _ _ 0%nat 0%nat); reflexivity).
  adv ltac:(eapply (s_rel _ _ _ _ 0%nat 0%nat); reflexivity).
  adv ltac:(eapply (s_acq _ _ _ _ 0%nat 1%nat []); [reflexivity|reflexivity|cbn; lia]).
  adv ltac:(eapply (s_go _ _ _ _ 0%nat 1%nat []); reflexivity).
  adv ltac:(eapply (s_start _ _ _ _ 0%nat 1%nat); reflexivity).
  adv ltac:(eapply (s_return _ _ _ _ 0%nat 1%nat); reflexivity).
  adv ltac:(eapply (s_done _ _ _ _ 0%nat 1%nat 9%Z); reflexivity).
  adv ltac:(eapply (s_wgdone _ _ _ _ 0%nat 1%nat); reflexivity).
  adv ltac:(eapply (s_rel _ _ _ _ 0%nat 1%nat); reflexivity).
  adv ltac:(eapply s_wait; [reflexivity|reflexivity|intros _ c [<-|[]]; reflexivity]).
  adv ltac:(eapply s_close; reflexivity).
  adv ltac:(eapply s_collected; reflexivity).
  adv ltac:(eapply (s_ret _ _ _); reflexivity).
  do 2 eexists. split; [exact R|]. split; [left; reflexivity|reflexivity].
Qed.
Print Assumptions C43_bound.
Print Assumptions C43_once.
Print Assumptions C43_wait.
Print Assumptions C43_progress.
Print Assumptions C43_ends.
Print Assumptions C43_zero_refuted.
Print Assumptions C43_late_refuted.
