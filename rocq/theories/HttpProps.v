(* C23, C24: the read cache of the http plugin. *)
From Coq Require Import ZArith List Lia Bool Sorted.
From Verif Require Import Bytes GoLib HttpModel HttpProofs.
Import ListNotations.
Local Open Scope Z_scope.

(* ---- C23 ---- *)
(* For every history of additions the spans are sorted by start and cover exactly the bytes added. *)
Theorem C23_add_partial : forall (adds : list span), Forall (fun s => 0 <= len s) adds ->
  let l := fold_left (fun l s => add s l) adds [] in
  (forall i j a b, (i < j)%nat -> nth_error l i = Some a -> nth_error l j = Some b -> off a <= off b) /\
  (forall x, (exists s, In s l /\ off s <= x < off s + len s) <-> (exists s, In s adds /\ off s <= x < off s + len s)).
Proof.
  intros adds F. cbv zeta.
  assert (G : forall adds l, Forall (fun s => 0 <= len s) adds -> StronglySorted le_off l -> nonneg l ->
    StronglySorted le_off (fold_left (fun l s => add s l) adds l) /\
    (forall x, cov (fold_left (fun l s => add s l) adds l) x <-> cov adds x \/ cov l x)).
  { clear. induction adds as [|s adds IH]; intros l F S0 N; cbn [fold_left].
    - split; auto. intros x. rewrite cov_nil. tauto.
    - inversion F as [|? ? Fs F']; subst. destruct (add_spec s l N Fs) as (A1 & A2 & A3). destruct (IH (add s l) F' A2 A3) as (B1 & B2).
      split; auto. intros x. rewrite B2, A1, cov_cons. tauto. }
  destruct (G adds [] F ltac:(constructor) ltac:(constructor)) as (S0 & C).
  split.
  - clear -S0. induction S0 as [|x l S0 IH Fx]; intros i j a b L Ei Ej; [destruct i; discriminate|].
    destruct j as [|j]; [lia|]. cbn in Ej. destruct i as [|i]; cbn in Ei.
    + injection Ei as <-. rewrite Forall_forall in Fx. apply Fx. eapply nth_error_In, Ej.
    + apply (IH i j a b); auto. lia.
  - intros x. specialize (C x). rewrite cov_nil in C. unfold cov, in_sp, fin in C. tauto.
Qed.
(* Full statement: the spans are also disjoint.  False when an added span overlaps several cached ones: *)
Theorem C23_disjoint_refuted : exists adds i j a b x, Forall (fun s => 0 <= len s) adds /\
  let l := fold_left (fun l s => add s l) adds [] in
  i <> j /\ nth_error l i = Some a /\ nth_error l j = Some b /\ off a <= x < off a + len a /\ off b <= x < off b + len b.
Proof.
  exists [{| off := 10; len := 10 |}; {| off := 50; len := 10 |}; {| off := 0; len := 100 |}], 0%nat, 1%nat,
    {| off := 0; len := 100 |}, {| off := 50; len := 10 |}, 55.
  split. { repeat (constructor; [cbn; lia|]). constructor. } cbv zeta. split; [lia|]. split; [vm_compute; reflexivity|].
  split; [vm_compute; reflexivity|]. cbn. lia.
Qed.
(* ... and true when every added span is one that [split] returned, that is when calls do not overlap in time: the spans then
   are sorted, disjoint and not even adjacent. *)
Theorem C23_disjoint : forall (adds : list span), Forall (fun s => 0 <= len s) adds ->
  (forall k s, nth_error adds k = Some s -> In s (split s (fold_left (fun l s => add s l) (firstn k adds) []))) ->
  let l := fold_left (fun l s => add s l) adds [] in
  forall i j a b, (i < j)%nat -> nth_error l i = Some a -> nth_error l j = Some b -> off a + len a < off b.
Proof.
  intros adds F H. cbv zeta.
  assert (G : forall adds, Forall (fun s => 0 <= len s) adds ->
    (forall k s, nth_error adds k = Some s -> In s (split s (fold_left (fun l s => add s l) (firstn k adds) []))) ->
    StronglySorted gap (fold_left (fun l s => add s l) adds []) /\ nonneg (fold_left (fun l s => add s l) adds [])).
  { clear. induction adds as [|s adds IH] using rev_ind; intros F H; [cbn; repeat constructor|].
    apply Forall_app in F. destruct F as (F & Fs). inversion Fs as [|? ? Ps _]; subst.
    destruct IH as (G & N); auto.
    { intros k t E. specialize (H k t). rewrite nth_error_app1 in H by (apply nth_error_Some; congruence). specialize (H E).
      rewrite firstn_app in H. assert (k < length adds)%nat by (apply nth_error_Some; congruence).
      replace (k - length adds)%nat with 0%nat in H by lia. rewrite app_nil_r in H. exact H. }
    rewrite fold_left_app. cbn [fold_left]. specialize (H (length adds) s).
    rewrite nth_error_app2, Nat.sub_diag in H by lia. specialize (H eq_refl).
    rewrite firstn_app, firstn_all, Nat.sub_diag in H. cbn [firstn] in H. rewrite app_nil_r in H.
    destruct (split_spec s _ (gap_sorted _ N G) N Ps) as (_ & _ & _ & Ap & _).
    split; [|apply add_spec; auto]. apply add_gap; auto. }
  destruct (G adds F H) as (S0 & _). clear -S0.
  induction S0 as [|x l S0 IH Fx]; intros i j a b L Ei Ej; [destruct i; discriminate|].
  destruct j as [|j]; [lia|]. cbn in Ej. destruct i as [|i]; cbn in Ei.
  - injection Ei as <-. rewrite Forall_forall in Fx. apply (Fx b). eapply nth_error_In, Ej.
  - apply (IH i j a b); auto. lia.
Qed.
(* Splitting a request returns exactly the missing bytes, in increasing order, whatever was added before. *)
Theorem C23_split : forall (adds : list span) (o n : Z), Forall (fun s => 0 <= len s) adds -> 0 <= n ->
  let l := fold_left (fun l s => add s l) adds [] in
  let r := split {| off := o; len := n |} l in
  (forall x, (exists s, In s r /\ off s <= x < off s + len s) <->
             o <= x < o + n /\ ~ (exists s, In s adds /\ off s <= x < off s + len s)) /\
  (forall i j a b, (i < j)%nat -> nth_error r i = Some a -> nth_error r j = Some b -> off a + len a <= off b).
Proof.
  intros adds o n F Hn. cbv zeta.
  assert (G : forall adds l, Forall (fun s => 0 <= len s) adds -> StronglySorted le_off l -> nonneg l ->
    let m := fold_left (fun l s => add s l) adds l in
    StronglySorted le_off m /\ nonneg m /\ (forall x, cov m x <-> cov adds x \/ cov l x)).
  { clear. cbv zeta. induction adds as [|s adds IH]; intros l F S0 N; cbn [fold_left].
    - split; auto. split; auto. intros x. rewrite cov_nil. tauto.
    - inversion F as [|? ? Fs F']; subst. destruct (add_spec s l N Fs) as (A1 & A2 & A3). destruct (IH (add s l) F' A2 A3) as (B1 & B2 & B3).
      split; auto. split; auto. intros x. rewrite B3, A1, cov_cons. tauto. }
  destruct (G adds [] F ltac:(constructor) ltac:(constructor)) as (S0 & N & C). clear G.
  destruct (split_spec {| off := o; len := n |} _ S0 N Hn) as (P1 & _ & P3 & _).
  split.
  - intros x. specialize (P1 x). specialize (C x). rewrite cov_nil in C. unfold cov, in_sp, fin in *. cbn [off len] in P1. tauto.
  - revert P3. generalize (split {| off := o; len := n |} (fold_left (fun l s => add s l) adds [])). clear.
    intros r P3. induction P3 as [|x l S0 IH Fx]; intros i j a b L Ei Ej; [destruct i; discriminate|].
    destruct j as [|j]; [lia|]. cbn in Ej. destruct i as [|i]; cbn in Ei.
    + injection Ei as <-. rewrite Forall_forall in Fx. apply (Fx b). eapply nth_error_In, Ej.
    + apply (IH i j a b); auto. lia.
Qed.
Example C23_example :
  let l := fold_left (fun l s => add s l) [{| off := 30; len := 10 |}; {| off := 0; len := 10 |}; {| off := 10; len := 5 |}] [] in
  l = [{| off := 0; len := 15 |}; {| off := 30; len := 10 |}] /\
  split {| off := 5; len := 45 |} l = [{| off := 15; len := 15 |}; {| off := 40; len := 10 |}].
Proof. vm_compute. auto. Qed.
Example C23_disjoint_example :
  let adds := [{| off := 30; len := 10 |}; {| off := 0; len := 10 |}; {| off := 10; len := 20 |}] in
  (forall k s, nth_error adds k = Some s -> In s (split s (fold_left (fun l s => add s l) (firstn k adds) []))) /\
  fold_left (fun l s => add s l) adds [] = [{| off := 0; len := 40 |}].
Proof.
  cbv zeta. split; [|vm_compute; reflexivity].
  intros [|[|[|k]]] s E; cbn in E; try (injection E as <-; vm_compute; auto).
  destruct k; discriminate.
Qed.

(* ---- C24 ---- *)
(* Any history of calls inside the remote file returns the remote bytes, and no byte is requested twice. *)
Theorem C24_history_partial : forall blk content (reqs : list (list Z * Z)), 0 < blk ->
  (forall p o, In (p, o) reqs -> 0 <= o /\ o + zlen p <= zlen content) ->
  exists c, rc_run content blk reqs {| sto := []; sps := []; log := [] |} =
              (map (fun q => Some (firstn (length (fst q)) (skipn (Z.to_nat (snd q)) content))) reqs, c) /\
    (forall i j a b x, (i < j)%nat -> nth_error (log c) i = Some a -> nth_error (log c) j = Some b ->
       ~ (off a <= x < off a + len a /\ off b <= x < off b + len b)) /\
    (forall x, (exists s, In s (log c) /\ off s <= x < off s + len s) <-> (exists p o, In (p, o) reqs /\ o <= x < o + zlen p)).
Proof.
  intros blk content reqs Hb H.
  destruct (rc_run_ok content blk Hb reqs _ (good_init content)) as (c & E & G & C).
  { apply Forall_forall. intros (p, o) I. specialize (H p o I). unfold inside. cbn. pose proof (zlen_nonneg p). lia. }
  exists c. split.
  { rewrite E. f_equal. apply map_ext. intros (p, o). cbn [fst snd]. unfold readAt, zlen. now rewrite Nat2Z.id. }
  destruct G as (_ & _ & _ & G4 & G5). split.
  - clear -G5. intros i j a b x. revert i j. induction G5 as [|y l F G5 IH]; intros i j L Ei Ej; [destruct i; discriminate|].
    destruct j as [|j]; [lia|]. cbn in Ej. destruct i as [|i]; cbn in Ei.
    + injection Ei as <-. rewrite Forall_forall in F. apply (F b). eapply nth_error_In, Ej.
    + apply (IH i j); auto. lia.
  - intros x. specialize (G4 x). specialize (C x). cbn [sps] in C. rewrite cov_nil in C. unfold cov, in_sp, fin in *.
    rewrite G4, C. split; [intros [[]|((p, o) & I & Hx)]; eauto|]. intros (p & o & I & Hx). right. exists (p, o). auto.
Qed.
Example C24_example :
  let content := [10; 11; 12; 13; 14; 15; 16; 17; 18; 19] in
  let '(rs, c) := rc_run content 3 [([0; 0], 2); ([0; 0; 0; 0; 0; 0; 0; 0], 1); ([0; 0; 0], 4)] {| sto := []; sps := []; log := [] |} in
  rs = [Some [12; 13]; Some [11; 12; 13; 14; 15; 16; 17; 18]; Some [14; 15; 16]] /\
  log c = [{| off := 2; len := 2 |}; {| off := 1; len := 1 |}; {| off := 4; len := 5 |}].
Proof. vm_compute. auto. Qed.
(* Full statement: for every request, including those that reach past the end of the remote file.  There httpio's ReadAt
   returns a short count without an error, and the cache stores and returns what the caller's buffer held before. *)
Theorem C24_end_refuted : exists blk content p o bs c, 0 < blk /\ 0 <= o < zlen content /\
  rc_readAt blk content p o {| sto := []; sps := []; log := [] |} = (Some bs, c) /\
  bs <> firstn (length p) (skipn (Z.to_nat o) content).
Proof.
  exists 1024, [1; 2; 3], [9; 9], 2. eexists _, _. split; [lia|]. split; [vm_compute; split; congruence|].
  split; [vm_compute; reflexivity|]. vm_compute. discriminate.
Qed.
(* ... and the stale byte stays in the cache for later callers *)
Theorem C24_poison_refuted : exists blk content p o p2 o2, 0 < blk /\ 0 <= o < zlen content /\
  exists r bs c, rc_run content blk [(p, o); (p2, o2)] {| sto := []; sps := []; log := [] |} = ([r; Some bs], c) /\
  zlen content <= o2 /\ bs <> [].
Proof.
  exists 1024, [1; 2; 3], [9; 9], 2, [0], 3. split; [lia|]. split; [vm_compute; split; congruence|].
  eexists _, _, _. split; [vm_compute; reflexivity|]. split; [vm_compute; congruence|discriminate].
Qed.
(* Concurrent calls, with remote reads that may fail: every call that returns without error returns the remote bytes. *)
Theorem C24_concurrent : forall content (reqs : list (Z * Z)) s i o n bs,
  (forall o n, In (o, n) reqs -> 0 <= o /\ 0 <= n /\ o + n <= zlen content) ->
  csteps content {| csto := []; csps := []; calls := map (fun q => Asked (fst q) (snd q)) reqs |} s ->
  nth_error (calls s) i = Some (Returned o n (Some bs)) ->
  nth_error reqs i = Some (o, n) /\ bs = firstn (Z.to_nat n) (skipn (Z.to_nat o) content).
Proof.
  intros content reqs s i o n bs H St E. split.
  - assert (K : map (fun k => match k with Asked o n | Fetching o n _ | Returned o n _ => (o, n) end) (calls s) = reqs).
    { clear -St. remember {| csto := []; csps := []; calls := map (fun q => Asked (fst q) (snd q)) reqs |} as s0 eqn:E0.
      induction St as [s|s t u St IH Sc]; subst.
      - cbn. rewrite map_map. rewrite <- (map_id reqs) at 2. apply map_ext. intros []; auto.
      - rewrite <- (IH eq_refl). clear -Sc.
        assert (U : forall l i k k', nth_error l i = Some k ->
          (match k with Asked o n | Fetching o n _ | Returned o n _ => (o, n) end) = (match k' with Asked o n | Fetching o n _ | Returned o n _ => (o, n) end) ->
          map (fun k => match k with Asked o n | Fetching o n _ | Returned o n _ => (o, n) end) (upd l i k') =
          map (fun k => match k with Asked o n | Fetching o n _ | Returned o n _ => (o, n) end) l).
        { clear. induction l as [|x l IH]; intros [|i] k k' E H; cbn in E; try discriminate.
          - injection E as ->. unfold upd. cbn [firstn skipn app map]. now rewrite H.
          - unfold upd in *. cbn [firstn skipn app map]. f_equal. eapply IH; eauto. }
        destruct Sc; cbn [calls]; eapply U; eauto. }
    rewrite <- K, nth_error_map, E. reflexivity.
  - assert (I : cinv content s).
    { eapply cinv_steps; [|exact St]. unfold cinv. cbn. split; [constructor|]. split; [constructor|].
      split. { intros x Hx. apply cov_nil in Hx. tauto. }
      apply Forall_forall. intros k Ik. apply in_map_iff in Ik. destruct Ik as ((o', n') & <- & Iq). cbn. unfold inside.
      specialize (H o' n' Iq). tauto. }
    destruct I as (_ & _ & _ & I4). pose proof (nth_Forall _ _ _ _ I4 E) as K. cbn in K. apply (K bs eq_refl).
Qed.
(* two overlapping calls that ask before either has fetched *)
Example C24_concurrent_example : exists s, 
  csteps [10; 11; 12; 13; 14] {| csto := []; csps := []; calls := [Asked 0 3; Asked 1 4] |} s /\
  calls s = [Returned 0 3 (Some [10; 11; 12]); Returned 1 4 (Some [11; 12; 13; 14])] /\ csps s = [{| off := 0; len := 5 |}].
Proof.
  eexists. split.
  - eapply cs_cons. eapply cs_cons. eapply cs_cons. eapply cs_cons. eapply cs_cons. eapply cs_cons. eapply cs_cons. eapply cs_cons. apply cs_nil.
    { eapply (c_split _ _ 0); reflexivity. } { eapply (c_split _ _ 1); reflexivity. }
    { cbv. eapply (c_fetch _ _ 0 _ _ _ 0); reflexivity. }
    { cbv. eapply (c_fetch _ _ 1 _ _ _ 0); reflexivity. }
    { cbv. eapply (c_add _ _ 1 _ _ _ 0); reflexivity. }
    { cbv. eapply (c_add _ _ 0 _ _ _ 0); reflexivity. }
    { cbv. eapply (c_return _ _ 0); [reflexivity|]. intros t [<-|[]]; auto. }
    { cbv. eapply (c_return _ _ 1); [reflexivity|]. intros t [<-|[]]; auto. }
  - cbv. auto.
Qed.

Print Assumptions C23_add_partial.
Print Assumptions C23_disjoint_refuted.
Print Assumptions C23_disjoint.
Print Assumptions C23_split.
Print Assumptions C24_history_partial.
Print Assumptions C24_end_refuted.
Print Assumptions C24_poison_refuted.
Print Assumptions C24_concurrent.
