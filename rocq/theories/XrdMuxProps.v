(* C35: the multiplexer of streams.  C54: answers put together. *)
From Coq Require Import ZArith List Lia Bool.
From Verif Require Import Bytes GoLib XrdMuxModel.
Import ListNotations.
Local Open Scope Z_scope.

(* ---- what a history says, from its labels alone (the latest first) ---- *)
(* the channel of the current claim of an id *)
Fixpoint own (tr : list lab) (id : Z) : option nat :=
  match tr with
  | [] => None
  | LClaim i c :: tr' => if i =? id then Some c else own tr' id
  | LUnclaim i :: tr' => if i =? id then None else own tr' id
  | _ :: tr' => own tr' id
  end.
(* the data sent to a channel: that of SendData for the id whose current claim it was *)
Fixpoint given (tr : list lab) (ch : nat) : list Z :=
  match tr with
  | [] => []
  | LSend i d :: tr' => given tr' ch ++ (match own tr' i with Some c => if Nat.eqb c ch then [d] else [] | None => [] end)
  | _ :: tr' => given tr' ch
  end.
(* the data received from a channel *)
Fixpoint got (tr : list lab) (ch : nat) : list Z :=
  match tr with
  | [] => []
  | LRecv c d :: tr' => got tr' ch ++ (if Nat.eqb c ch then [d] else [])
  | _ :: tr' => got tr' ch
  end.
Definition pending (s : mux) (ch : nat) : list Z := match mlock s with Some (c, d) => if Nat.eqb c ch then [d] else [] | None => [] end.

Lemma waiter_unwait id i l : waiter i (unwait id l) = if id =? i then None else waiter i l.
Proof.
  induction l as [|[j c] l IH]; cbn [unwait filter fst waiter]; [destruct (id =? i); reflexivity|]. fold (unwait id l).
  destruct (Z.eqb_spec j id) as [->|N]; cbn [negb].
  - rewrite IH. destruct (Z.eqb_spec id i); reflexivity.
  - cbn [waiter]. rewrite IH. destruct (Z.eqb_spec j i) as [->|]; [|reflexivity]. replace (id =? i) with false by lia. reflexivity.
Qed.
Lemma waiter_In id l c : waiter id l = Some c -> In (id, c) l.
Proof.
  induction l as [|[j d] l IH]; cbn [waiter]; [discriminate|]. destruct (Z.eqb_spec j id) as [->|]; [intros E; injection E as ->; left; reflexivity|]. intros E. right. apply IH, E.
Qed.
Lemma unwait_In id l x : In x (unwait id l) -> In x l.
Proof. unfold unwait. rewrite filter_In. tauto. Qed.
Lemma drop_In ch l x : In x (drop ch l) <-> In x l /\ fst x <> ch.
Proof. unfold drop. rewrite filter_In. rewrite negb_true_iff, Nat.eqb_neq. tauto. Qed.
Lemma NoDup_filter_map {A B} (f : A -> B) (p : A -> bool) l : NoDup (map f l) -> NoDup (map f (filter p l)).
Proof.
  induction l as [|a l IH]; cbn [filter map]; intros H; [constructor|]. inversion H as [|? ? N H']; subst. destruct (p a); cbn [map]; [|apply IH, H'].
  constructor; [|apply IH, H']. intros I. apply N. apply in_map_iff in I. destruct I as (x & E & I). apply filter_In in I. apply in_map_iff. exists x. tauto.
Qed.

(* ---- invariants ---- *)
Record inv (tr : list lab) (s : mux) : Prop := {
  i_own : forall id, waiter id (mw s) = own tr id;
  i_mw : forall id c, In (id, c) (mw s) -> (c < mnext s)%nat /\ In (LClaim id c) tr;
  i_cl : forall c o, In (c, o) (mclaims s) -> (c < mnext s)%nat;
  i_tr : forall id c, In (LClaim id c) tr -> (c < mnext s)%nat /\ (forall o, ~ In (c, o) (mclaims s));
  i_one : forall id1 id2 c, In (LClaim id1 c) tr -> In (LClaim id2 c) tr -> id1 = id2;
  i_lock : forall c d, mlock s = Some (c, d) -> exists id, own tr id = Some c;
  i_data : forall ch, got tr ch ++ pending s ch = given tr ch }.
Lemma inv0 : inv [] mux0.
Proof. constructor; cbn; try tauto; try reflexivity; discriminate. Qed.
Ltac invs := match goal with H : inv _ _ |- _ => destruct H as [Iow Imw Icl Itr Ione Ilk Ida] end.
Lemma inv_step tr s l s' : inv tr s -> step s l s' -> inv (l :: tr) s'.
Proof.
  intros V ST. invs. assert (TC : forall id c x, In (LClaim id c) (x :: tr) -> x = LClaim id c \/ In (LClaim id c) tr) by (intros id c x I; exact I).
  destruct ST; (constructor; cbn [mw mnext mgen mbuf mclaims mlock mclosed mquit own given got pending]; [| | | | | |]);
    try (intros id0; rewrite ?waiter_unwait; cbn [waiter]; rewrite Iow; reflexivity);
    try exact Icl; try exact Ilk; try (intros c0 d0 X; discriminate X);
    try (intros id0 c0 I0; destruct (Imw _ _ I0); split; [lia|right; assumption]);
    try (intros id1 id2 c0 I1 I2; destruct (TC _ _ _ I1) as [X|X1]; [discriminate X|]; destruct (TC _ _ _ I2) as [X|X2]; [discriminate X|]; exact (Ione _ _ _ X1 X2));
    try (intros id0 c0 I0; destruct (TC _ _ _ I0) as [X|X0]; [discriminate X|]; destruct (Itr _ _ X0) as [Y1 Y2]; split; [lia|exact Y2]);
    try (intros ch0; exact (Ida ch0)).
  (* start *)
  - intros c o [E|I]; [injection E as <- _; lia|]. specialize (Icl _ _ I). lia.
  - intros id c I. destruct (TC _ _ _ I) as [X|X]; [discriminate X|]. destruct (Itr _ _ X) as [A B]. split; [lia|]. intros o [E|J]; [injection E as E _; lia|exact (B o J)].
  (* take *)
  - intros c o [E|I]; [injection E as <- _; exact (Icl _ _ H)|]. apply drop_In in I. exact (Icl _ _ (proj1 I)).
  - intros i c I. destruct (TC _ _ _ I) as [X|X]; [discriminate X|]. destruct (Itr _ _ X) as [A B]. split; [exact A|]. intros o [E|J]; [injection E as <- _; exact (B _ H)|].
    apply drop_In in J. exact (B o (proj1 J)).
  - intros c o [E|I]; [injection E as <- _; exact (Icl _ _ H)|]. apply drop_In in I. exact (Icl _ _ (proj1 I)).
  - intros i c I. destruct (TC _ _ _ I) as [X|X]; [discriminate X|]. destruct (Itr _ _ X) as [A B]. split; [exact A|]. intros o [E|J]; [injection E as <- _; exact (B _ H)|].
    apply drop_In in J. exact (B o (proj1 J)).
  (* closed *)
  - intros c o I. apply drop_In in I. exact (Icl _ _ (proj1 I)).
  - intros i c I. destruct (TC _ _ _ I) as [X|X]; [discriminate X|]. destruct (Itr _ _ X) as [A B]. split; [exact A|]. intros o J. apply drop_In in J. exact (B o (proj1 J)).
  - intros ch0. rewrite <- Ida. unfold pending. rewrite H0. reflexivity.
  (* again *)
  - intros c0 o [E|I]; [injection E as <- _; exact (Icl _ _ H)|]. apply drop_In in I. exact (Icl _ _ (proj1 I)).
  - intros i c0 I. destruct (TC _ _ _ I) as [X|X]; [discriminate X|]. destruct (Itr _ _ X) as [A B]. split; [exact A|]. intros o [E|J]; [injection E as <- _; exact (B _ H)|].
    apply drop_In in J. exact (B o (proj1 J)).
  - intros ch0. rewrite <- Ida. unfold pending. rewrite H0. reflexivity.
  (* claim *)
  - intros i c [E|I]; [injection E as <- <-; split; [exact (Icl _ _ H)|left; reflexivity]|]. destruct (Imw _ _ I). split; [assumption|right; assumption].
  - intros c o I. apply drop_In in I. exact (Icl _ _ (proj1 I)).
  - intros i c I. destruct (TC _ _ _ I) as [X|X].
    + injection X as <- <-. split; [exact (Icl _ _ H)|]. intros o J. apply drop_In in J. apply (proj2 J). reflexivity.
    + destruct (Itr _ _ X) as [A B]. split; [exact A|]. intros o J. apply drop_In in J. exact (B o (proj1 J)).
  - intros id1 id2 c I1 I2. destruct (TC _ _ _ I1) as [X1|X1], (TC _ _ _ I2) as [X2|X2]; [congruence| | |exact (Ione _ _ _ X1 X2)].
    + injection X1 as <- <-. destruct (Itr _ _ X2) as [_ B]. exfalso. exact (B _ H).
    + injection X2 as <- <-. destruct (Itr _ _ X1) as [_ B]. exfalso. exact (B _ H).
  - intros ch0. rewrite <- Ida. unfold pending. rewrite H0. reflexivity.
  (* with *)
  - intros i c [E|I]; [injection E as <- <-; split; [lia|left; reflexivity]|]. destruct (Imw _ _ I). split; [lia|right; assumption].
  - intros c o I. specialize (Icl _ _ I). lia.
  - intros i c I. destruct (TC _ _ _ I) as [X|X].
    + injection X as <- <-. split; [lia|]. intros o J. specialize (Icl _ _ J). lia.
    + destruct (Itr _ _ X) as [A B]. split; [lia|exact B].
  - intros id1 id2 c I1 I2. destruct (TC _ _ _ I1) as [X1|X1], (TC _ _ _ I2) as [X2|X2]; [congruence| | |exact (Ione _ _ _ X1 X2)].
    + injection X1 as <- <-. destruct (Itr _ _ X2) as [B _]. lia.
    + injection X2 as <- <-. destruct (Itr _ _ X1) as [B _]. lia.
  - intros ch0. rewrite <- Ida. unfold pending. rewrite H. reflexivity.
  (* unclaim *)
  - intros i c I. destruct (Imw _ _ (unwait_In _ _ _ I)). split; [assumption|right; assumption].
  - intros ch0. rewrite <- Ida. unfold pending. rewrite H. reflexivity.
  (* send *)
  - intros c0 d0 E. injection E as <- <-. exists id. rewrite <- Iow. exact H0.
  - intros ch0. rewrite <- Ida. unfold pending. cbn. rewrite H, <- Iow, H0. rewrite app_nil_r. reflexivity.
  (* recv *)
  - intros ch0. rewrite <- Ida. unfold pending. cbn. rewrite H. rewrite app_nil_r. reflexivity.
  (* close *)
  - intros ch0. rewrite <- Ida. unfold pending. rewrite H. reflexivity.
Qed.
Lemma run_inv tr s : run tr s -> inv tr s.
Proof. induction 1 as [|tr s l s' R IH ST]; [exact inv0|exact (inv_step _ _ _ _ IH ST)]. Qed.
Lemma run_suffix t2 t1 s : run (t2 ++ t1) s -> exists s1, run t1 s1.
Proof.
  revert s. induction t2 as [|l t2 IH]; intros s R; [exists s; exact R|]. inversion R; subst. eapply IH. eassumption.
Qed.

(* A claim is given an id no claim holds, and a channel of its own: between two claims of an id there is an end of claim. *)
Theorem C35_unique : forall tr2 tr1 s id ch, run (tr2 ++ LClaim id ch :: tr1) s ->
  own tr1 id = None /\ (forall id', ~ In (LClaim id' ch) tr1) /\
  (forall a b ch', tr1 = a ++ LClaim id ch' :: b -> In (LUnclaim id) a).
Proof.
  intros tr2 tr1 s id ch R. apply run_suffix in R. destruct R as [s1 R]. inversion R as [|? s0 ? ? R0 ST]; subst. pose proof (run_inv _ _ R0) as V. invs.
  assert (O : own tr1 id = None) by (rewrite <- Iow; inversion ST; subst; assumption). split; [exact O|]. split.
  - intros id' I. inversion ST; subst; destruct (Itr _ _ I) as [A B]; [eapply B; eassumption|lia].
  - intros a b ch' ->. clear - O. induction a as [|x a IH]; cbn [app own] in O; [rewrite Z.eqb_refl in O; discriminate|].
    destruct x; try (right; apply IH; exact O).
    + destruct (Z.eqb_spec id0 id) as [->|]; [discriminate|]. right. apply IH. exact O.
    + destruct (Z.eqb_spec id0 id) as [->|]; [left; reflexivity|]. right. apply IH. exact O.
Qed.
(* at any time an id has one channel at most, and a channel one id *)
Theorem C35_exclusive : forall tr s id1 id2 ch, run tr s -> own tr id1 = Some ch -> own tr id2 = Some ch -> id1 = id2.
Proof.
  intros tr s id1 id2 ch R A B. pose proof (run_inv _ _ R) as V. invs. rewrite <- Iow in A, B. apply waiter_In in A, B.
  exact (Ione _ _ _ (proj2 (Imw _ _ A)) (proj2 (Imw _ _ B))).
Qed.
(* Each channel receives the data sent for its id during its claim: all, in order, nothing else; but for one that may be on its way. *)
Theorem C35_delivery : forall tr s ch, run tr s -> got tr ch ++ pending s ch = given tr ch.
Proof. intros tr s ch R. exact (i_data _ _ (run_inv _ _ R) ch). Qed.
(* nothing is received on a channel whose claim has ended *)
Theorem C35_claimed : forall tr2 tr1 s ch d, run (tr2 ++ LRecv ch d :: tr1) s -> exists id, own tr1 id = Some ch.
Proof.
  intros tr2 tr1 s ch d R. apply run_suffix in R. destruct R as [s1 R]. inversion R as [|? s0 ? ? R0 ST]; subst. pose proof (run_inv _ _ R0) as V. invs.
  inversion ST; subst. eapply Ilk. eassumption.
Qed.
(* data is refused only when the id has no claim, and a claim of a free id is refused only once closed *)
Theorem C35_lost : forall tr2 tr1 s id d, run (tr2 ++ LLost id d :: tr1) s -> own tr1 id = None.
Proof.
  intros tr2 tr1 s id d R. apply run_suffix in R. destruct R as [s1 R]. inversion R as [|? s0 ? ? R0 ST]; subst. pose proof (run_inv _ _ R0) as V. invs.
  inversion ST; subst. rewrite <- Iow. assumption.
Qed.
Theorem C35_reclaim : forall tr s id, run tr s -> mlock s = None -> mclosed s = false -> own tr id = None ->
  exists s', step s (LClaim id (mnext s)) s' /\ run (LClaim id (mnext s) :: tr) s'.
Proof.
  intros tr s id R L C O. pose proof (run_inv _ _ R) as V. invs. rewrite <- Iow in O. eexists. split; [apply s_with; assumption|]. econstructor; [exact R|]. apply s_with; assumption.
Qed.

(* ---- a Claim gets an id when one of the pool is free ---- *)
Fixpoint consec (a : Z) (l : list Z) (g : Z) : Prop := match l with [] => a = g | x :: l' => x = a /\ consec ((a + 1) mod pool) l' g end.
Lemma consec_snoc a l g : consec a l g -> consec a (l ++ [g]) ((g + 1) mod pool).
Proof. revert a. induction l as [|x l IH]; intros a; cbn [app consec]; [intros ->; auto|]. intros [-> H]. split; [reflexivity|apply IH, H]. Qed.
Definition ginv (s : mux) : Prop := (exists a, 0 <= a < pool /\ consec a (mbuf s) (mgen s)) /\ (mquit s = true -> mclosed s = true).
Lemma pool_pos : 0 < pool. Proof. reflexivity. Qed.
Lemma ginv_step s l s' : ginv s -> step s l s' -> ginv s'.
Proof.
  intros [(a & A & K) Q] ST. pose proof pool_pos.
  destruct ST; (split; cbn [mbuf mgen mquit mclosed]; [|try exact Q; try discriminate; try reflexivity; try (intros X; specialize (Q X); congruence)]);
    try (exists a; split; assumption).
  - exists a. split; [exact A|apply consec_snoc, K].
  - rewrite H1 in K. cbn [consec] in K. destruct K as [-> K]. exists ((a + 1) mod pool). split; [apply Z.mod_pos_bound; lia|exact K].
  - rewrite H1 in K. exists a. split; assumption.
Qed.
Lemma ginv_run tr s : run tr s -> ginv s.
Proof. induction 1 as [|tr s l s' R IH ST]; [split; [exists 0; split; [split; [lia|reflexivity]|reflexivity]|discriminate]|exact (ginv_step _ _ _ IH ST)]. Qed.
Lemma own_tau tr n id : own (repeat LTau n ++ tr) id = own tr id.
Proof. induction n as [|n IH]; cbn; [reflexivity|exact IH]. Qed.
Lemma claim_loop : forall k tr s ch f a, run tr s -> mlock s = None -> mclosed s = false -> In (ch, None) (mclaims s) ->
  0 <= a < pool -> consec a (mbuf s) (mgen s) -> 0 <= f < pool -> own tr f = None -> (f - a) mod pool = Z.of_nat k ->
  exists n id s', steps s (repeat LTau n ++ [LClaim id ch]) s' /\ (n <= 3 * k + 2)%nat /\ 0 <= id < pool /\ own tr id = None.
Proof.
  induction k as [k IH] using lt_wf_ind. intros tr s ch f a R L C I A K F O D.
  pose proof (run_inv _ _ R) as V. pose proof (ginv_run _ _ R) as [_ GQ]. assert (Q : mquit s = false) by (destruct (mquit s); [specialize (GQ eq_refl); congruence|reflexivity]).
  (* a state with an id in the buffer *)
  assert (B : exists n s1 rest, (n <= 1)%nat /\ steps s (repeat LTau n) s1 /\ run (repeat LTau n ++ tr) s1 /\ mbuf s1 = a :: rest /\ consec ((a + 1) mod pool) rest (mgen s1) /\
                mw s1 = mw s /\ mlock s1 = None /\ mclosed s1 = false /\ mclaims s1 = mclaims s /\ mquit s1 = false).
  { destruct (mbuf s) as [|x rest] eqn:E.
    - cbn [consec] in K. subst a.
      assert (ST : step s LTau {| mw := mw s; mnext := mnext s; mgen := (mgen s + 1) mod pool; mbuf := mbuf s ++ [mgen s]; mclaims := mclaims s; mlock := mlock s; mclosed := mclosed s; mquit := false |})
        by (apply s_gen; [rewrite E; cbn; lia|exact Q]).
      exists 1%nat. eexists. exists []. split; [lia|]. split; [cbn; econstructor; [exact ST|constructor]|]. split; [cbn; econstructor; [exact R|exact ST]|].
      cbn. rewrite E. cbn. auto 10.
    - cbn [consec] in K. destruct K as [-> K]. exists 0%nat, s, rest. cbn. split; [lia|]. split; [constructor|]. auto 10. }
  destruct B as (n0 & s1 & rest & N0 & S1 & R1 & B1 & K1 & W1 & L1 & C1 & M1 & Q1).
  assert (ST2 : step s1 LTau {| mw := mw s1; mnext := mnext s1; mgen := mgen s1; mbuf := rest; mclaims := (ch, Some a) :: drop ch (mclaims s1); mlock := mlock s1; mclosed := mclosed s1; mquit := mquit s1 |})
    by (apply s_take; [rewrite M1; exact I|exact B1]).
  set (s2 := {| mw := mw s1; mnext := mnext s1; mgen := mgen s1; mbuf := rest; mclaims := (ch, Some a) :: drop ch (mclaims s1); mlock := mlock s1; mclosed := mclosed s1; mquit := mquit s1 |}) in *.
  assert (JOIN : forall u n v w, steps u (repeat LTau n) v -> steps v w s2 -> True) by auto. clear JOIN.
  assert (SA : forall u l1 v l2 w, steps u l1 v -> steps v l2 w -> steps u (l1 ++ l2) w).
  { intros u l1 v l2 w X. induction X as [u|u l v' t v'' Y X IHX]; [auto|]. intros Z. cbn. econstructor; [exact Y|]. apply IHX, Z. }
  destruct (waiter a (mw s)) as [c|] eqn:WA.
  - (* taken: go on *)
    assert (NF : f <> a) by (intros ->; rewrite <- (i_own _ _ V) in O; congruence).
    assert (ST3 : step s2 LTau {| mw := mw s2; mnext := mnext s2; mgen := mgen s2; mbuf := mbuf s2; mclaims := (ch, None) :: drop ch (mclaims s2); mlock := None; mclosed := false; mquit := mquit s2 |}).
    { eapply s_again with (id := a) (c := c); [left; reflexivity|exact L1|exact C1|]. cbn [s2 mw]. unfold s2. cbn. rewrite W1. exact WA. }
    set (s3 := {| mw := mw s2; mnext := mnext s2; mgen := mgen s2; mbuf := mbuf s2; mclaims := (ch, None) :: drop ch (mclaims s2); mlock := None; mclosed := false; mquit := mquit s2 |}) in *.
    assert (R3 : run (LTau :: LTau :: repeat LTau n0 ++ tr) s3) by (econstructor; [econstructor; [exact R1|exact ST2]|exact ST3]).
    pose proof pool_pos as PP.
    assert (K' : exists k', (f - (a + 1) mod pool) mod pool = Z.of_nat k' /\ (k' < k)%nat).
    { assert (k <> 0)%nat.
      { intros ->. change (Z.of_nat 0) with 0 in D. unfold pool in *. apply Z.mod_divide in D; [|lia]. destruct D as [z D]. lia. }
      exists (k - 1)%nat. split; [|lia]. rewrite Zminus_mod_idemp_r. replace (f - (a + 1)) with ((f - a) + (-1)) by lia. rewrite <- Zplus_mod_idemp_l, D.
      replace (Z.of_nat k + -1) with (Z.of_nat (k - 1)) by lia. apply Z.mod_small. pose proof (Z.mod_pos_bound (f - a) pool PP). lia. }
    destruct K' as (k' & D' & LT).
    destruct (IH k' LT _ s3 ch f ((a + 1) mod pool) R3 eq_refl eq_refl ltac:(left; reflexivity) (Z.mod_pos_bound _ _ PP) K1 F) as (n & id & s' & SS & NN & P1 & P2).
    { cbn [own]. rewrite own_tau. exact O. } { exact D'. }
    exists (n0 + (2 + n))%nat, id, s'. split; [|split; [lia|split; [exact P1|]]].
    + rewrite repeat_app, <- app_assoc. eapply SA; [exact S1|]. cbn [repeat app Nat.add]. econstructor; [exact ST2|]. econstructor; [exact ST3|exact SS].
    + cbn [own] in P2. rewrite own_tau in P2. exact P2.
  - exists (n0 + 1)%nat, a. eexists. split; [|split; [lia|split; [exact A|]]].
    + rewrite repeat_app, <- app_assoc. eapply SA; [exact S1|]. cbn [repeat app]. econstructor; [exact ST2|]. econstructor; [|constructor].
      eapply s_claim; [left; reflexivity|exact L1|exact C1|]. unfold s2. cbn. rewrite W1. exact WA.
    + rewrite <- (i_own _ _ V). exact WA.
Qed.
(* A Claim that is left to run gets a free id of the pool after at most all of them have been tried. *)
Theorem C35_claim : forall tr s ch f, run tr s -> mlock s = None -> mclosed s = false -> In (ch, None) (mclaims s) ->
  0 <= f < pool -> own tr f = None ->
  exists n id s', steps s (repeat LTau n ++ [LClaim id ch]) s' /\ Z.of_nat n <= 3 * pool /\ 0 <= id < pool /\ own tr id = None.
Proof.
  intros tr s ch f R L C I F O. destruct (ginv_run _ _ R) as [(a & A & K) _]. pose proof pool_pos as PP.
  destruct (Z_of_nat_complete ((f - a) mod pool)) as [k D]; [apply Z.mod_pos_bound; lia|].
  destruct (claim_loop k tr s ch f a R L C I A K F O D) as (n & id & s' & X & N & Y). exists n, id, s'. split; [exact X|]. split; [|exact Y].
  pose proof (Z.mod_pos_bound (f - a) pool PP). lia.
Qed.
(* stream ids on the wire: the two bytes determine the id *)
Theorem C35_stream : forall a b, 0 <= a < 2 ^ 16 -> 0 <= b < 2 ^ 16 -> stream_of a = stream_of b -> a = b.
Proof.
  intros a b A B E. unfold stream_of in E. rewrite !Z.shiftr_div_pow2 in E by lia. change (2 ^ 8) with 256 in E. injection E as E1 E2.
  rewrite !Z.mod_small in E1; [|split; [apply Z.div_pos; lia|apply Z.div_lt_upper_bound; lia]|split; [apply Z.div_pos; lia|apply Z.div_lt_upper_bound; lia]].
  rewrite (Z.div_mod a 256), (Z.div_mod b 256) by lia. lia.
Qed.
(* Once data is sent to a channel nobody reads (the request was cancelled, session.go:335-338), no other call ever returns: no claim,
   no end of claim, no data for any stream, no Close. *)
Definition returns (l : lab) : Prop := match l with LTau | LStart _ => False | _ => True end.
Theorem C35_abandoned_refuted : forall s tr s' ch d, mlock s = Some (ch, d) -> steps s tr s' -> ~ In (LRecv ch d) tr ->
  mlock s' = Some (ch, d) /\ Forall (fun l => ~ returns l) tr.
Proof.
  intros s tr s' ch d L ST. revert L. induction ST as [s|s l s' tr s'' ST STS IH]; intros L N; [split; [exact L|constructor]|].
  assert (A : ~ returns l /\ mlock s' = Some (ch, d)).
  { inversion ST; subst; cbn [returns mlock]; try (split; [tauto|exact L]); try congruence.
    exfalso. apply N. left. congruence. }
  destruct A as [A B]. destruct (IH B) as [C D]; [intros I; apply N; right; exact I|]. split; [exact C|constructor; assumption].
Qed.
Ltac adv tac := match goal with R : run ?tr ?s |- _ => let H := fresh "H" in let R' := fresh "R" in
  eassert (H : step s _ _); [tac|]; pose proof (run_step _ _ _ _ R H) as R'; clear H R; cbn in R' end.
Example C35_example_abandoned : exists tr s ch d, run tr s /\ mlock s = Some (ch, d).
Proof.
  pose proof run_new as R. adv ltac:(apply (s_with _ 3); reflexivity). adv ltac:(apply (s_send _ 3 7 0%nat); reflexivity).
  eexists _, _, 0%nat, 7. split; [eassumption|reflexivity].
Qed.
(* the ids of the pool leave out 511 of the 65536 stream ids *)
Example C35_example_pool : pool = 65025. Proof. reflexivity. Qed.
(* two claims, data for both, the first ended and claimed again: every premise at work *)
Example C35_example : exists s,
  run [LRecv 2 30; LSend 0 30; LRecv 1 20; LSend 5 20; LClaim 0 2%nat; LUnclaim 0; LRecv 0 10; LSend 0 10; LClaim 5 1%nat; LClaim 0 0%nat; LTau; LTau; LStart 0] s /\
  given [LRecv 2 30; LSend 0 30; LRecv 1 20; LSend 5 20; LClaim 0 2%nat; LUnclaim 0; LRecv 0 10; LSend 0 10; LClaim 5 1%nat; LClaim 0 0%nat; LTau; LTau; LStart 0] 2 = [30].
Proof.
  pose proof run_new as R. adv ltac:(apply s_start). adv ltac:(apply s_gen; [cbn; lia|reflexivity]).
  adv ltac:(apply (s_take _ 0%nat 0 []); [left; reflexivity|reflexivity]). adv ltac:(apply (s_claim _ 0%nat 0); [left; reflexivity|reflexivity|reflexivity|reflexivity]).
  adv ltac:(apply (s_with _ 5); reflexivity).
  adv ltac:(apply (s_send _ 0 10 0%nat); reflexivity).
  adv ltac:(apply (s_recv _ 0%nat 10); reflexivity).
  adv ltac:(apply (s_unclaim _ 0); reflexivity).
  adv ltac:(apply (s_with _ 0); reflexivity).
  adv ltac:(apply (s_send _ 5 20 1%nat); reflexivity).
  adv ltac:(apply (s_recv _ 1%nat 20); reflexivity).
  adv ltac:(apply (s_send _ 0 30 2%nat); reflexivity).
  adv ltac:(apply (s_recv _ 2%nat 30); reflexivity).
  eexists. split; [eassumption|reflexivity].
Qed.

(* ---- C54: the answers of the server, put together ---- *)
Definition part (id : Z) (r : resp) : bool := rs_stream r =? id.
Definition parts (id : Z) (rs : list resp) : list resp := filter (part id) rs.
Definition wait (r : resp) : bool := rs_status r =? 4005.
Definition sofar (r : resp) : bool := rs_status r =? 4000.
(* one stream answered: parts still to be continued, waits anywhere before the last part, the last part *)
Definition answered (ps : list resp) (a : answer) : Prop :=
  exists ps' fin, ps = ps' ++ [fin] /\ Forall (fun r => sofar r = true \/ wait r = true) ps' /\ sofar fin = false /\ wait fin = false /\
  a = (if rs_status fin =? 4003 then AErr else if rs_status fin =? 4004 then ARedir (rs_data fin)
       else AData (concat (map rs_data (filter (fun r => negb (wait r)) ps)))).
Definition items (ps : list resp) : list item := flat_map (fun r => match item_of r with Some i => [i] | None => [] end) ps.
Fixpoint good (ps : list resp) : Prop := match ps with [] => True | r :: ps' => if sofar r || wait r then good ps' else ps' = [] end.
Fixpoint closed_after (cl : bool) (ps : list resp) : bool := match ps with [] => cl | r :: ps' => if sofar r || wait r then closed_after cl ps' else true end.
Definition upd (rs : list resp) (x : Z * (list item * bool)) : Z * (list item * bool) :=
  let '(i, (its, cl)) := x in (i, (its ++ items (parts i rs), closed_after cl (parts i rs))).
Definition fits (rs : list resp) (x : Z * (list item * bool)) : Prop := let '(i, (its, cl)) := x in if cl then parts i rs = [] else good (parts i rs).
Lemma is_open_In id l its : NoDup (map fst l) -> In (id, (its, false)) l -> is_open id l = true.
Proof.
  induction l as [|[i [j c]] l IH]; intros N I; [contradiction|]. cbn [map fst] in N. inversion N as [|? ? NI N']; subst. cbn [is_open].
  destruct I as [E|I]; [injection E as -> -> ->; rewrite Z.eqb_refl; reflexivity|].
  destruct (Z.eqb_spec i id) as [->|]; [exfalso; apply NI; apply in_map_iff; exists (id, (its, false)); auto|]. apply IH; assumption.
Qed.
Lemma deliver_ok id it fin l its : NoDup (map fst l) -> In (id, (its, false)) l ->
  deliver id it fin l = Some (map (fun x => if fst x =? id then (id, (its ++ [it], fin)) else x) l).
Proof.
  induction l as [|[i [j c]] l IH]; intros N I; [contradiction|]. cbn [map fst] in N. inversion N as [|? ? NI N']; subst. cbn [deliver map fst].
  destruct (Z.eqb_spec i id) as [->|NE].
  - destruct I as [E|I]; [|exfalso; apply NI; apply in_map_iff; exists (id, (its, false)); auto]. injection E as -> ->. f_equal. f_equal.
    rewrite <- (map_id l) at 1. apply map_ext_in. intros [a b] J. cbn. destruct (Z.eqb_spec a id) as [->|]; [|reflexivity]. exfalso. apply NI. apply in_map_iff. exists (id, b). auto.
  - destruct I as [E|I]; [injection E as E _; congruence|]. rewrite (IH N' I). reflexivity.
Qed.
Lemma parts_cons id r rs : parts id (r :: rs) = if rs_stream r =? id then r :: parts id rs else parts id rs.
Proof. reflexivity. Qed.
Lemma consume_ok : forall rs l, NoDup (map fst l) -> (forall r, In r rs -> In (rs_stream r) (map fst l)) -> Forall (fits rs) l ->
  consume l rs = Ok (map (upd rs) l).
Proof.
  induction rs as [|r rs IH]; intros l N S F.
  - cbn [consume]. f_equal. rewrite <- (map_id l) at 1. apply map_ext. intros [i [its cl]]. unfold upd. cbn. rewrite app_nil_r. reflexivity.
  - assert (I : exists its, In (rs_stream r, (its, false)) l).
    { specialize (S r (or_introl eq_refl)). apply in_map_iff in S. destruct S as ([i [its cl]] & E & I). cbn in E. subst i. exists its.
      rewrite Forall_forall in F. specialize (F _ I). unfold fits in F. rewrite parts_cons, Z.eqb_refl in F. destruct cl; [discriminate|exact I]. }
    destruct I as [its I]. cbn [consume].
    assert (FR : good (parts (rs_stream r) (r :: rs))) by (rewrite Forall_forall in F; exact (F _ I)).
    rewrite parts_cons, Z.eqb_refl in FR. cbn [good] in FR.
    assert (UNI : forall i x c, In (i, (x, c)) l -> i = rs_stream r -> x = its /\ c = false).
    { intros i x c J ->. clear - N I J. induction l as [|y l IHl]; [contradiction|]. cbn in N. inversion N as [|? ? NI N']; subst. destruct I as [->|I], J as [E|J].
      - injection E as -> ->. auto.
      - exfalso. apply NI. apply in_map_iff. exists (rs_stream r, (x, c)). auto.
      - subst y. exfalso. apply NI. apply in_map_iff. exists (rs_stream r, (its, false)). auto.
      - apply IHl; assumption. }
    destruct (item_of r) as [it|] eqn:IT.
    + rewrite (deliver_ok _ _ _ _ its N I). set (l1 := map (fun x => if fst x =? rs_stream r then (rs_stream r, (its ++ [it], negb (rs_status r =? 4000))) else x) l).
      assert (M1 : map fst l1 = map fst l).
      { unfold l1. rewrite map_map. apply map_ext. intros [i x]. cbn. destruct (Z.eqb_spec i (rs_stream r)) as [->|]; reflexivity. }
      assert (W : wait r = false).
      { unfold wait, item_of in *. destruct (Z.eqb_spec (rs_status r) 4005) as [E|]; [|reflexivity]. rewrite E in IT. discriminate. }
      rewrite W, orb_false_r in FR.
      rewrite IH.
      * f_equal. unfold l1. rewrite map_map. apply map_ext_in. intros [i [x c]] J. cbn [fst]. destruct (Z.eqb_spec i (rs_stream r)) as [E|NE].
        -- destruct (UNI _ _ _ J E) as [-> ->]. subst i. unfold upd. rewrite parts_cons, Z.eqb_refl. cbn [items flat_map closed_after]. fold (items (parts (rs_stream r) rs)).
           rewrite IT, W, orb_false_r. cbn [app]. rewrite <- app_assoc. cbn [app]. do 2 f_equal. unfold sofar in *. destruct (rs_status r =? 4000); cbn [negb]; [reflexivity|]. rewrite FR. reflexivity.
        -- unfold upd. rewrite parts_cons. replace (rs_stream r =? i) with false by lia. reflexivity.
      * rewrite M1. exact N.
      * intros r' J. rewrite M1. apply S. right. exact J.
      * unfold l1. apply Forall_forall. intros y J. apply in_map_iff in J. destruct J as ([i [x c]] & <- & J). cbn [fst]. destruct (Z.eqb_spec i (rs_stream r)) as [E|NE].
        -- cbn. unfold sofar in FR. destruct (rs_status r =? 4000); cbn [negb]; exact FR.
        -- rewrite Forall_forall in F. specialize (F _ J). unfold fits in *. rewrite parts_cons in F. replace (rs_stream r =? i) with false in F by lia. exact F.
    + rewrite (is_open_In _ _ _ N I).
      assert (W : wait r = true).
      { unfold wait, item_of in *. destruct (rs_status r =? 4003); [discriminate|]. destruct (rs_status r =? 4005); [reflexivity|]. destruct (rs_status r =? 4004); discriminate. }
      rewrite W, orb_true_r in FR. rewrite IH.
      * f_equal. apply map_ext_in. intros [i [x c]] J. unfold upd. rewrite parts_cons. destruct (Z.eqb_spec (rs_stream r) i) as [E|NE]; [|reflexivity].
        cbn [items flat_map closed_after]. rewrite IT, W, orb_true_r. reflexivity.
      * exact N.
      * intros r' J. apply S. right. exact J.
      * apply Forall_forall. intros [i [x c]] J. rewrite Forall_forall in F. specialize (F _ J). unfold fits in *. rewrite parts_cons in F. destruct (Z.eqb_spec (rs_stream r) i) as [E|NE]; [|exact F].
        destruct (UNI _ _ _ J (eq_sym E)) as [_ ->]. subst i. exact FR.
Qed.
Lemma answered_good ps a : answered ps a -> good ps.
Proof.
  intros (ps' & fin & -> & F & A & B & _). induction F as [|r ps' H F IH]; cbn [app good]; [rewrite A, B; reflexivity|].
  replace (sofar r || wait r) with true; [exact IH|]. symmetry. apply orb_true_iff. exact H.
Qed.
Lemma closed_after_snoc ps' fin : Forall (fun r => sofar r = true \/ wait r = true) ps' -> sofar fin = false -> wait fin = false -> closed_after false (ps' ++ [fin]) = true.
Proof.
  intros F A B. induction F as [|r ps' H F IH]; cbn [app closed_after]; [rewrite A, B; reflexivity|].
  replace (sofar r || wait r) with true; [exact IH|]. symmetry. apply orb_true_iff. exact H.
Qed.
Lemma collect_answered ps' fin : Forall (fun r => sofar r = true \/ wait r = true) ps' -> sofar fin = false -> wait fin = false -> forall acc,
  collect acc (items (ps' ++ [fin])) true =
  (if rs_status fin =? 4003 then AErr else if rs_status fin =? 4004 then ARedir (rs_data fin)
   else AData (acc ++ concat (map rs_data (filter (fun r => negb (wait r)) (ps' ++ [fin]))))).
Proof.
  intros F A B. induction F as [|r ps' H F IH]; intros acc.
  - cbn [app items flat_map filter]. rewrite B. unfold item_of, wait in *. destruct (rs_status fin =? 4003); [reflexivity|]. rewrite B.
    destruct (rs_status fin =? 4004); [reflexivity|]. cbn. rewrite app_nil_r. reflexivity.
  - cbn [app items flat_map filter]. fold (items (ps' ++ [fin])). destruct H as [H|H].
    + assert (W : wait r = false) by (unfold sofar, wait in *; lia). rewrite W. cbn [negb map concat].
      replace (item_of r) with (Some (IData (rs_data r))).
      * cbn [app collect]. rewrite IH, <- app_assoc. reflexivity.
      * unfold item_of. unfold sofar in H. apply Z.eqb_eq in H. rewrite H. reflexivity.
    + rewrite H. cbn [negb]. replace (item_of r) with (@None item); [cbn [app]; apply IH|].
      unfold item_of. unfold wait in H. apply Z.eqb_eq in H. rewrite H. reflexivity.
Qed.
Lemma find_map_upd rs id : forall l, NoDup (map fst l) -> In (id, ([], false)) l ->
  find (fun x => fst x =? id) (map (upd rs) l) = Some (id, ([] ++ items (parts id rs), closed_after false (parts id rs))).
Proof.
  induction l as [|[i [its cl]] l IH]; intros N I; [contradiction|]. cbn [map find]. cbn [map fst] in N. inversion N as [|? ? NI N']; subst.
  unfold upd at 1. cbn [fst]. destruct (Z.eqb_spec i id) as [->|NE].
  - destruct I as [E|I]; [injection E as -> ->; reflexivity|]. exfalso. apply NI. apply in_map_iff. eexists. split; [|exact I]. reflexivity.
  - destruct I as [E|I]; [injection E as E _; congruence|]. exact (IH N' I).
Qed.
(* Any number of requests in flight on different streams, their answers in parts and interleaved in any way: each request gets the
   data of its own parts, in order; or its error, or its redirection. *)
Theorem C54_answers : forall ids rs, NoDup ids -> (forall r, In r rs -> In (rs_stream r) ids) ->
  (forall id, In id ids -> exists a, answered (parts id rs) a) ->
  exists l, consume (map (fun id => (id, ([], false))) ids) rs = Ok l /\ forall id a, In id ids -> answered (parts id rs) a -> answer_of id l = Some a.
Proof.
  intros ids rs N S A. assert (M : map fst (map (fun id : Z => (id, (@nil item, false))) ids) = ids) by (rewrite map_map; cbn; apply map_id).
  rewrite consume_ok.
  - eexists. split; [reflexivity|]. intros id a I (ps' & fin & E & F & A1 & A2 & ->). unfold answer_of. rewrite find_map_upd.
    + rewrite E. rewrite closed_after_snoc by assumption. cbn [app]. rewrite collect_answered by assumption. reflexivity.
    + rewrite M. exact N.
    + apply in_map_iff. exists id. auto.
  - rewrite M. exact N.
  - intros r I. rewrite M. apply S, I.
  - apply Forall_forall. intros x I. apply in_map_iff in I. destruct I as (id & <- & I). cbn. destruct (A id I) as [a B]. exact (answered_good _ _ B).
Qed.
(* An answer on a stream that is not in flight stops the client. *)
Theorem C54_unknown_refuted : forall l r rs, ~ In (rs_stream r) (map fst l) -> consume l (r :: rs) = Panic.
Proof.
  intros l r rs N. cbn [consume]. assert (O : is_open (rs_stream r) l = false /\ forall it fin, deliver (rs_stream r) it fin l = None).
  { induction l as [|[i [its c]] l IH]; [auto|]. cbn [map fst In] in N. cbn [is_open deliver]. destruct (Z.eqb_spec i (rs_stream r)) as [->|]; [exfalso; apply N; left; reflexivity|].
    destruct IH as [A B]; [intros I; apply N; right; exact I|]. split; [exact A|]. intros it fin. rewrite B. reflexivity. }
  destruct O as [A B]. destruct (item_of r); [rewrite B|rewrite A]; reflexivity.
Qed.
(* The status "answer comes later" (4006) is taken for the answer. *)
Theorem C54_later_refuted : forall d, consume [(1, ([], false))] [{| rs_stream := 1; rs_status := 4006; rs_data := d |}] = Ok [(1, ([IData d], true))] /\
  answer_of 1 [(1, ([IData d], true))] = Some (AData d).
Proof. intros d. split; reflexivity. Qed.
Example C54_example :
  let rs := [ {| rs_stream := 1; rs_status := 4000; rs_data := [1] |}; {| rs_stream := 2; rs_status := 4005; rs_data := [0; 0; 0; 1] |};
              {| rs_stream := 2; rs_status := 4000; rs_data := [7] |}; {| rs_stream := 1; rs_status := 0; rs_data := [2; 3] |};
              {| rs_stream := 2; rs_status := 4003; rs_data := [] |} ] in
  answered (parts 1 rs) (AData [1; 2; 3]) /\ answered (parts 2 rs) AErr.
Proof.
  cbn. split.
  - exists [ {| rs_stream := 1; rs_status := 4000; rs_data := [1] |} ], {| rs_stream := 1; rs_status := 0; rs_data := [2; 3] |}.
    repeat split; try reflexivity. constructor; [left; reflexivity|constructor].
  - exists [ {| rs_stream := 2; rs_status := 4005; rs_data := [0; 0; 0; 1] |}; {| rs_stream := 2; rs_status := 4000; rs_data := [7] |} ], {| rs_stream := 2; rs_status := 4003; rs_data := [] |}.
    repeat split; try reflexivity. constructor; [right; reflexivity|]. constructor; [left; reflexivity|constructor].
Qed.
Print Assumptions C35_unique.
Print Assumptions C35_exclusive.
Print Assumptions C35_delivery.
Print Assumptions C35_claimed.
Print Assumptions C35_lost.
Print Assumptions C35_reclaim.
Print Assumptions C35_claim.
Print Assumptions C35_stream.
Print Assumptions C35_abandoned_refuted.
Print Assumptions C54_answers.
Print Assumptions C54_unknown_refuted.
Print Assumptions C54_later_refuted.
