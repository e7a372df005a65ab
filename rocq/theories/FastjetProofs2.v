(* The scan for the smallest distance, the loop, and the readers of the history. *)
From Coq Require Import ZArith List Lia Bool Permutation.
From Verif Require Import GoLib FastjetModel FastjetProofs.
Import ListNotations.
Local Open Scope Z_scope.
Set Default Proof Using "All".

Local Ltac teq := match goal with |- (?d, ?a, Some ?b) = (?d, ?a', Some ?b') => refine (f_equal2 (fun x y => (d, x, Some y)) _ _); lia end.
Section Proofs.
Variables (J F : Type) (prep : J -> option J) (recomb : J -> J -> option J) (scale : J -> F) (dist : J -> J -> F)
  (ltb geb : F -> F -> bool) (fmax : F -> F -> F) (fzero : F).
Notation jet := (jet J). Notation hist := (hist F). Notation cseq := (cseq J F).
Notation jv := (jv J). Notation hidx := (hidx J).
Notation jets := (jets J F). Notation history := (history J F). Notation initn := (initn J F).
Notation ent := (ent F). Notation sk := (sk J F). Notation leaves := (leaves F).
Notation Inv := (Inv J F recomb scale dist fmax).
Notation last_max := (last_max F fzero).
Notation beams := (beams F). Notation live := (live F). Notation nom := (nom J).
Notation e1 := (e1 F). Notation e2 := (e2 F). Notation ej := (ej F). Notation ed := (ed F). Notation em := (em F).

(* ---- the scan ---- *)
Definition cand := (F * nat * option nat)%type.
Definition choose (st c : cand) : cand := if ltb (fst (fst c)) (fst (fst st)) then c else st.
Fixpoint beam_cands (i : nat) (vs : list J) : list cand := match vs with [] => [] | v :: vs' => (scale v, i, None) :: beam_cands (S i) vs' end.
Fixpoint row_cands (i : nat) (v : J) (j : nat) (ws : list J) : list cand := match ws with [] => [] | w :: ws' => (dist v w, i, Some j) :: row_cands i v (S j) ws' end.
Fixpoint pair_cands (i : nat) (vs : list J) : list cand := match vs with [] => [] | v :: vs' => row_cands i v (S i) vs' ++ pair_cands (S i) vs' end.
Lemma scan_beam_fold : forall vs i st, let b := scan_beam J F scale ltb i vs st in (fst b, snd b, None) = fold_left choose (beam_cands i vs) (fst st, snd st, None).
Proof.
  induction vs as [|v vs IH]; intros i st; [reflexivity|]. cbn [scan_beam beam_cands fold_left]. rewrite IH. unfold choose at 3. cbn [fst snd]. destruct (ltb (scale v) (fst st)); reflexivity.
Qed.
Lemma scan_row_fold : forall ws i v j st, scan_row J F dist ltb i v j ws st = fold_left choose (row_cands i v j ws) st.
Proof. induction ws as [|w ws IH]; intros i v j st; [reflexivity|]. cbn [scan_row row_cands fold_left]. rewrite IH. reflexivity. Qed.
Lemma scan_pairs_fold : forall vs i st, scan_pairs J F dist ltb i vs st = fold_left choose (pair_cands i vs) st.
Proof. induction vs as [|v vs IH]; intros i st; [reflexivity|]. cbn [scan_pairs pair_cands]. now rewrite fold_left_app, IH, scan_row_fold. Qed.
Lemma scan_fold v0 vs : scan J F scale dist ltb v0 vs = fold_left choose (beam_cands 0 vs ++ pair_cands 0 vs) (scale v0, 0%nat, None).
Proof. unfold scan. rewrite scan_pairs_fold, fold_left_app. f_equal. apply (scan_beam_fold vs 0 (scale v0, 0%nat)). Qed.
Lemma choose_in : forall cs st, In (fold_left choose cs st) (st :: cs).
Proof.
  induction cs as [|c cs IH]; intros st; [cbn; auto|]. cbn [fold_left]. destruct (IH (choose st c)) as [H|H]; [|cbn; auto]. rewrite <- H. unfold choose. destruct (ltb _ _); cbn; auto.
Qed.
Definition order_ok : Prop := (forall x, ltb x x = false) /\ (forall x y z, ltb x y = true -> ltb y z = true -> ltb x z = true).
Lemma choose_min : order_ok -> forall cs st c, In c (st :: cs) -> ltb (fst (fst c)) (fst (fst (fold_left choose cs st))) = false.
Proof.
  intros (lt_irrefl & lt_trans).
  assert (H : forall cs st x, ltb x (fst (fst st)) = false -> ltb x (fst (fst (fold_left choose cs st))) = false).
  { induction cs as [|c cs IH]; intros st x E; [exact E|]. cbn [fold_left]. apply IH. unfold choose. destruct (ltb (fst (fst c)) (fst (fst st))) eqn:Ec; auto.
    destruct (ltb x (fst (fst c))) eqn:Ex; auto. rewrite <- E. symmetry. eapply lt_trans; eauto. }
  induction cs as [|c' cs IH]; intros st c I; [destruct I as [<-|[]]; apply lt_irrefl|]. cbn [fold_left]. destruct I as [<-|[<-|I]].
  - apply H. unfold choose. destruct (ltb (fst (fst c')) (fst (fst st))) eqn:E; [|apply lt_irrefl]. destruct (ltb (fst (fst st)) (fst (fst c'))) eqn:E2; auto.
    rewrite <- (lt_irrefl (fst (fst c'))). symmetry. eapply lt_trans; eauto.
  - apply H. unfold choose. destruct (ltb (fst (fst c')) (fst (fst st))) eqn:E; [apply lt_irrefl|exact E].
  - apply IH. cbn. auto.
Qed.
Lemma beam_cands_in : forall vs i c, In c (beam_cands i vs) <-> exists k v, nth_error vs k = Some v /\ c = (scale v, (i + k)%nat, None).
Proof.
  induction vs as [|v vs IH]; intros i c; cbn [beam_cands In].
  - split; [tauto|]. intros (k & v & E & _). destruct k; discriminate.
  - rewrite IH. split.
    + intros [<-|(k & w & E & ->)]; [exists 0%nat, v; cbn; rewrite Nat.add_0_r; auto|]. exists (S k), w. cbn. split; auto. do 2 f_equal. lia.
    + intros (k & w & E & ->). destruct k as [|k]; cbn in E; [injection E as ->; left; rewrite Nat.add_0_r; auto|]. right. exists k, w. split; auto. do 2 f_equal. lia.
Qed.
Lemma row_cands_in : forall ws i v j c, In c (row_cands i v j ws) <-> exists k w, nth_error ws k = Some w /\ c = (dist v w, i, Some (j + k)%nat).
Proof.
  induction ws as [|w ws IH]; intros i v j c; cbn [row_cands In].
  - split; [tauto|]. intros (k & w & E & _). destruct k; discriminate.
  - rewrite IH. split.
    + intros [<-|(k & x & E & ->)]; [exists 0%nat, w; cbn; rewrite Nat.add_0_r; auto|]. exists (S k), x. cbn. split; auto. do 2 f_equal. lia.
    + intros (k & x & E & ->). destruct k as [|k]; cbn in E; [injection E as ->; left; rewrite Nat.add_0_r; auto|]. right. exists k, x. split; auto. do 2 f_equal. lia.
Qed.
Lemma pair_cands_in : forall vs i c, In c (pair_cands i vs) <-> exists a b v w, (a < b)%nat /\ nth_error vs a = Some v /\ nth_error vs b = Some w /\ c = (dist v w, (i + a)%nat, Some (i + b)%nat).
Proof.
  induction vs as [|v vs IH]; intros i c; cbn [pair_cands].
  - split; [intros []|]. intros (a & b & v & w & _ & E & _). destruct a; discriminate.
  - rewrite in_app_iff, row_cands_in, IH. split.
    + intros [(k & w & E & ->)|(a & b & x & w & L & Ea & Eb & ->)].
      * exists 0%nat, (S k), v, w. cbn. split; [lia|]. split; auto. split; auto. teq.
      * exists (S a), (S b), x, w. cbn. split; [lia|]. split; auto. split; auto. teq.
    + intros (a & b & x & w & L & Ea & Eb & ->). destruct b as [|b]; [lia|]. cbn in Eb. destruct a as [|a]; cbn in Ea.
      * injection Ea as ->. left. exists b, w. split; auto. teq.
      * right. exists a, b, x, w. split; [lia|]. split; auto. split; auto. teq.
Qed.
(* where the chosen candidate comes from *)
Lemma scan_from v0 vs y ii jj : scan J F scale dist ltb v0 (v0 :: vs) = (y, ii, jj) -> exists v, nth_error (v0 :: vs) ii = Some v /\
  match jj with None => y = scale v | Some j => (ii < j)%nat /\ exists w, nth_error (v0 :: vs) j = Some w /\ y = dist v w end.
Proof.
  rewrite scan_fold. intros E. pose proof (choose_in (beam_cands 0 (v0 :: vs) ++ pair_cands 0 (v0 :: vs)) (scale v0, 0%nat, None)) as H. rewrite E in H.
  destruct H as [H|H]; [injection H as <- <- <-; exists v0; auto|]. apply in_app_or in H. destruct H as [H|H].
  - apply beam_cands_in in H. destruct H as (k & v & Ek & H). injection H as -> -> ->. exists v. auto.
  - apply pair_cands_in in H. destruct H as (a & b & v & w & L & Ea & Eb & H). injection H as -> -> ->. exists v. split; auto. split; [exact L|]. exists w. auto.
Qed.
Lemma scan_min v0 vs y ii jj : order_ok -> scan J F scale dist ltb v0 (v0 :: vs) = (y, ii, jj) ->
  (forall v, In v (v0 :: vs) -> ltb (scale v) y = false) /\ (forall a b v w, (a < b)%nat -> nth_error (v0 :: vs) a = Some v -> nth_error (v0 :: vs) b = Some w -> ltb (dist v w) y = false).
Proof.
  rewrite scan_fold. intros Ho E. pose proof (choose_min Ho (beam_cands 0 (v0 :: vs) ++ pair_cands 0 (v0 :: vs)) (scale v0, 0%nat, None)) as H. rewrite E in H. cbn [fst] in H. split.
  - intros v Iv. apply In_nth_error in Iv. destruct Iv as (k & Ek). apply (H (scale v, k, None)). right. apply in_or_app. left. apply beam_cands_in. exists k, v. auto.
  - intros a b v w L Ea Eb. apply (H (dist v w, a, Some b)). right. apply in_or_app. right. apply pair_cands_in. exists a, b, v, w. auto.
Qed.

(* ---- the loop ---- *)
Lemma values_ok js : forall act, Forall (fun k => exists j, zn js k = Some j) act -> exists vs, values J js act = Ok vs /\ Forall2 (fun k v => exists j, zn js k = Some j /\ jv j = v) act vs.
Proof.
  induction act as [|k act IH]; intros H; [exists []; split; [reflexivity|constructor]|]. inversion H as [|? ? (j & Ej) H2]; subst. destruct (IH H2) as (vs & E & G).
  exists (jv j :: vs). cbn [values]. rewrite zat_zn, Ej. cbn [rbind]. rewrite E. cbn [rbind]. split; auto. constructor; eauto.
Qed.
Lemma upd_perm {A} : forall (l : list A) i x y, nth_error l i = Some x -> exists l' r, upd_nth l i (fun _ => y) = Ok l' /\ Permutation l (x :: r) /\ Permutation l' (y :: r) /\ length l' = length l.
Proof.
  induction l as [|a l IH]; intros i x y E; [destruct i; discriminate|]. destruct i as [|i]; cbn [nth_error] in E.
  - injection E as ->. exists (y :: l), l. cbn. auto.
  - destruct (IH i x y E) as (l' & r & E1 & P1 & P2 & L). exists (a :: l'), (a :: r). cbn [upd_nth]. rewrite E1. split; auto.
    split; [eapply Permutation_trans; [constructor; exact P1|apply perm_swap]|]. split; [eapply Permutation_trans; [constructor; exact P2|apply perm_swap]|]. cbn. lia.
Qed.
(* replacing the element at i by the last one and dropping the last: the list without the element at i *)
Lemma drop_at {A} (l : list A) m i x : length l = S m -> nth_error l i = Some x ->
  exists y l' r, zat l (Z.of_nat m) = Ok y /\ upd_nth l i (fun _ => y) = Ok l' /\ Permutation l (x :: r) /\ Permutation (firstn m l') r /\ length (firstn m l') = m.
Proof.
  intros L E. destruct (nth_error l m) as [y|] eqn:Em; [|apply nth_error_None in Em; lia].
  assert (Ez : zat l (Z.of_nat m) = Ok y). { rewrite zat_zn. unfold zn. destruct (Z.ltb_spec (Z.of_nat m) 0); [lia|]. rewrite Nat2Z.id, Em. reflexivity. }
  exists y. destruct (upd_perm l i x y E) as (l' & r & E1 & P1 & P2 & L1). exists l', r. split; auto. split; auto. split; auto.
  assert (Lf : length (firstn m l') = m) by (rewrite firstn_length; lia). split; auto.
  assert (El : nth_error l' m = Some y). { apply upd_nth_nth in E1. destruct E1 as (_ & E1). rewrite E1, Em. destruct (Nat.eqb m i); reflexivity. }
  assert (Es : l' = firstn m l' ++ [y]).
  { rewrite <- (firstn_skipn m l') at 1. f_equal. assert (Ls : length (skipn m l') = 1%nat) by (rewrite skipn_length; lia). destruct (skipn m l') as [|z [|]] eqn:Esk; try discriminate.
    f_equal. rewrite <- (firstn_skipn m l'), Esk in El. rewrite nth_error_app2, Lf, Nat.sub_diag in El by lia. cbn in El. congruence. }
  rewrite Es in P2. apply (Permutation_cons_inv (a := y)). eapply Permutation_trans; [apply Permutation_cons_append|exact P2].
Qed.

(* one turn of the loop *)
Inductive turn (cs : cseq) (act : list Z) (cs' : cseq) (act' : list Z) : Prop :=
| t_merge a b rest ja jb kv d : Permutation act (a :: b :: rest) -> zn (jets cs) a = Some ja -> zn (jets cs) b = Some jb -> recomb (jv ja) (jv jb) = Some kv -> d = dist (jv ja) (jv jb) ->
    Permutation act' (len (jets cs) :: rest) -> initn cs' = initn cs -> jets cs' = jets cs ++ [nom kv (len (sk cs))] ->
    sk cs' = sk cs ++ [{| FastjetProofs.e1 := Z.min (hidx ja) (hidx jb); FastjetProofs.e2 := Z.max (hidx ja) (hidx jb); FastjetProofs.ej := len (jets cs); FastjetProofs.ed := d; FastjetProofs.em := fmax d (last_max (sk cs)) |}] ->
    turn cs act cs' act'
| t_beam a rest ja d : Permutation act (a :: rest) -> zn (jets cs) a = Some ja -> d = scale (jv ja) -> Permutation act' rest -> initn cs' = initn cs -> jets cs' = jets cs ->
    sk cs' = sk cs ++ [{| FastjetProofs.e1 := hidx ja; FastjetProofs.e2 := beamJetIndex; FastjetProofs.ej := invalidIndex; FastjetProofs.ed := d; FastjetProofs.em := fmax d (last_max (sk cs)) |}] ->
    turn cs act cs' act'.
(* what the scan says of the distance of the last entry *)
Definition scanned (cs : cseq) (act : list Z) (x : ent) : Prop :=
  exists v0 vs ii jj, values J (jets cs) act = Ok (v0 :: vs) /\ scan J F scale dist ltb v0 (v0 :: vs) = (ed x, ii, jj) /\ (e2 x = beamJetIndex <-> jj = None).
Lemma Inv_turn vs cs act cs' act' : 0 < len vs -> Inv vs (jets cs) (sk cs) act -> turn cs act cs' act' -> Inv vs (jets cs') (sk cs') act'.
Proof.
  intros N0 I [a b rest ja jb kv d P Ea Eb Er Ed P' _ Ej Es|a rest ja d P Ea Ed P' _ Ej Es]; rewrite Ej, Es.
  - eapply Inv_merge; eauto.
  - eapply Inv_beam; eauto.
Qed.
Lemma len_sk cs : len (sk cs) = len (history cs).
Proof. apply len_map. Qed.
Lemma loop_turn vs cs act m : 0 < len vs -> Inv vs (jets cs) (sk cs) act -> length act = S m ->
  (loop J F recomb scale dist ltb fmax (S m) cs act = Ok None /\ exists u v, recomb u v = None) \/
  exists cs' act' x, turn cs act cs' act' /\ sk cs' = sk cs ++ [x] /\ scanned cs act x /\ length act' = m /\
    loop J F recomb scale dist ltb fmax (S m) cs act = loop J F recomb scale dist ltb fmax m cs' act'.
Proof.
  intros N0 I La. destruct (values_ok (jets cs) act) as (ws & Ew & Fw).
  { apply Forall_forall. intros k Hk. destruct (act_jet _ _ _ _ _ _ _ _ _ _ I k Hk) as (j & Ej & _). eauto. }
  cbn [loop]. rewrite Ew. cbn [rbind]. destruct ws as [|v0 ws]; [inversion Fw; subst; discriminate|].
  destruct (scan J F scale dist ltb v0 (v0 :: ws)) as ((y, ii), jj) eqn:Es. pose proof (scan_from _ _ _ _ _ Es) as (v & Ev & Hs).
  assert (Hk : forall i u, nth_error (v0 :: ws) i = Some u -> exists k j, nth_error act i = Some k /\ zn (jets cs) k = Some j /\ jv j = u).
  { clear -Fw. revert Fw. generalize (v0 :: ws). intros l Fl. induction Fl as [|k w act l (j & Ej & Hj) Fl IH]; intros i u E; [destruct i; discriminate|].
    destruct i as [|i]; cbn in E; [injection E as ->; exists k, j; auto|apply (IH i u E)]. }
  destruct (Hk _ _ Ev) as (a & ja & Ka & Ea & Va). pose proof (act_jet _ _ _ _ _ _ _ _ _ _ I a (nth_error_In _ _ Ka)) as (ja' & Ea' & Ra & _). assert (ja' = ja) by congruence. subst ja'.
  assert (Za : zat act (Z.of_nat ii) = Ok a). { rewrite zat_zn. unfold zn. destruct (Z.ltb_spec (Z.of_nat ii) 0); [lia|]. now rewrite Nat2Z.id, Ka. }
  rewrite len_sk in Ra. assert (Hh : 0 < len (history cs)) by (pose proof (i_n _ _ _ _ _ _ _ _ _ _ I); rewrite len_sk in *; lia).
  destruct jj as [jj|].
  - destruct Hs as (Lij & w & Ew2 & Ey). destruct (Hk _ _ Ew2) as (b & jb & Kb & Eb & Vb).
    pose proof (act_jet _ _ _ _ _ _ _ _ _ _ I b (nth_error_In _ _ Kb)) as (jb' & Eb' & Rb & _). assert (jb' = jb) by congruence. subst jb'. rewrite len_sk in Rb.
    assert (Zb : zat act (Z.of_nat jj) = Ok b). { rewrite zat_zn. unfold zn. destruct (Z.ltb_spec (Z.of_nat jj) 0); [lia|]. now rewrite Nat2Z.id, Kb. }
    rewrite Za, Zb. cbn [rbind]. unfold ijRecombinationStep. rewrite !zat_zn, Ea, Eb. cbn [rbind]. destruct (recomb (jv ja) (jv jb)) as [kv|] eqn:Er; [|left; split; [reflexivity|eauto]]. right.
    cbv zeta. set (cs1 := {| FastjetModel.initn := initn cs; FastjetModel.jets := jets cs ++ [{| FastjetModel.jv := kv; FastjetModel.hidx := len (history cs) |}]; FastjetModel.history := history cs |}).
    destruct (addStep_ok J F fmax fzero cs1 (jets cs ++ [{| FastjetModel.jv := kv; FastjetModel.hidx := len (history cs) |}]) (Z.min (hidx ja) (hidx jb)) (Z.max (hidx ja) (hidx jb)) (len (jets cs)) y) as (cs2 & E2 & In2 & Ej2 & Es2); cbn [FastjetModel.history FastjetModel.jets cs1]; try lia.
    { destruct (Z.eqb_spec (len (jets cs)) invalidIndex) as [E|_]; [pose proof (len_nonneg (jets cs)); unfold invalidIndex in E; lia|]. eexists. rewrite zn_last. auto. }
    cbn [FastjetModel.history cs1] in E2. rewrite E2. cbn [fbind fst snd].
    destruct (upd_perm act ii a (len (jets cs)) Ka) as (act1 & r1 & U1 & P1 & P2 & L1). rewrite U1. cbn [rbind].
    assert (Kb1 : nth_error act1 jj = Some b). { apply upd_nth_nth in U1. destruct U1 as (_ & U1). rewrite U1. destruct (Nat.eqb_spec jj ii); [lia|exact Kb]. }
    destruct (drop_at act1 m jj b ltac:(lia) Kb1) as (l & act2 & r2 & Z2 & U2 & P3 & P4 & L2). rewrite Z2. cbn [rbind]. rewrite U2. cbn [rbind].
    assert (exists rest, Permutation r1 (b :: rest) /\ Permutation r2 (len (jets cs) :: rest)) as (rest & Q1 & Q2).
    { assert (Pc : Permutation (len (jets cs) :: r1) (b :: r2)) by (eapply Permutation_trans; [symmetry; exact P2|exact P3]).
      assert (Hb : In b r1). { assert (In b (len (jets cs) :: r1)) by (eapply Permutation_in; [symmetry; exact Pc|cbn; auto]). destruct H as [H|H]; auto. apply zn_range in Eb. lia. }
      apply in_split in Hb. destruct Hb as (x1 & x2 & ->). exists (x1 ++ x2). split; [symmetry; apply Permutation_middle|].
      apply (Permutation_cons_inv (a := b)). eapply Permutation_trans; [symmetry; exact Pc|]. eapply Permutation_trans; [constructor; symmetry; apply Permutation_middle|]. apply perm_swap. }
    exists cs2, (firstn m act2). eexists. split; [|split; [exact Es2|split; [|split; [exact L2|reflexivity]]]].
    + eapply (t_merge cs act cs2 (firstn m act2) a b rest ja jb kv y); auto.
      * eapply Permutation_trans; [exact P1|]. constructor. exact Q1.
      * congruence.
      * eapply Permutation_trans; [exact P4|exact Q2].
      * rewrite len_sk. exact Ej2.
    + exists v0, ws, ii, (Some jj). split; auto. split; [exact Es|]. cbn [FastjetProofs.e2]. unfold beamJetIndex. split; [lia|discriminate].
  - rewrite Za. cbn [rbind]. unfold ibRecombinationStep. rewrite zat_zn, Ea. cbn [rbind].
    destruct (addStep_ok J F fmax fzero cs (jets cs) (hidx ja) beamJetIndex invalidIndex y) as (cs2 & E2 & In2 & Ej2 & Es2); unfold beamJetIndex; try lia; [reflexivity|].
    unfold beamJetIndex in E2. rewrite E2. cbn [fbind]. destruct (drop_at act m ii a La Ka) as (l & act2 & r & Z2 & U2 & P3 & P4 & L2). rewrite Z2. cbn [rbind]. rewrite U2. cbn [rbind].
    right. exists cs2, (firstn m act2). eexists. split; [|split; [exact Es2|split; [|split; [exact L2|reflexivity]]]].
    + eapply (t_beam cs act cs2 (firstn m act2) a r ja y); auto. congruence.
    + exists v0, ws, ii, None. split; auto. split; [exact Es|]. cbn. unfold beamJetIndex. tauto.
Qed.

(* sequences of turns *)
Inductive turns : cseq -> list Z -> cseq -> list Z -> Prop :=
| ts0 cs act : turns cs act cs act
| tsS cs act cs1 act1 x cs2 act2 : turn cs act cs1 act1 -> sk cs1 = sk cs ++ [x] -> scanned cs act x -> turns cs1 act1 cs2 act2 -> turns cs act cs2 act2.
Lemma turns_trans a b c d e f : turns a b c d -> turns c d e f -> turns a b e f.
Proof. induction 1; auto. intros. econstructor; eauto. Qed.
Lemma turns_Inv vs a b c d : 0 < len vs -> turns a b c d -> Inv vs (jets a) (sk a) b -> Inv vs (jets c) (sk c) d.
Proof. intros N0. induction 1; intros I; auto. apply IHturns. eapply Inv_turn; eauto. Qed.
Lemma loop_turns vs : 0 < len vs -> forall m cs act, Inv vs (jets cs) (sk cs) act -> length act = m ->
  (loop J F recomb scale dist ltb fmax m cs act = Ok None /\ exists u v, recomb u v = None) \/
  exists cs', loop J F recomb scale dist ltb fmax m cs act = Ok (Some cs') /\ turns cs act cs' [].
Proof.
  intros N0. induction m as [|m IH]; intros cs act I La.
  - destruct act; [|discriminate]. right. exists cs. split; [reflexivity|constructor].
  - destruct (loop_turn vs cs act m N0 I La) as [H|(cs1 & act1 & x & T & Es & Sc & L1 & E)]; [left; exact H|]. rewrite E.
    destruct (IH cs1 act1) as [H|(cs2 & E2 & T2)]; auto; [eapply Inv_turn; eauto|]. right. exists cs2. split; auto. econstructor; eauto.
Qed.
(* any number of turns from the start *)
Lemma turns_split vs : 0 < len vs -> forall cs act cs' act', turns cs act cs' act' -> Inv vs (jets cs) (sk cs) act -> forall k, len (sk cs) <= k <= len (sk cs') ->
  exists cm am, turns cs act cm am /\ turns cm am cs' act' /\ len (sk cm) = k.
Proof.
  intros N0 cs act cs' act' T. induction T as [cs act|cs act cs1 act1 x cs2 act2 T1 Es Sc T2 IH]; intros I k Hk.
  - exists cs, act. repeat split; try constructor. lia.
  - destruct (Z.eq_dec k (len (sk cs))) as [->|Hne]; [exists cs, act; repeat split; [constructor|econstructor; eauto]|].
    destruct (IH ltac:(eapply Inv_turn; eauto) k) as (cm & am & Ta & Tb & Lk); [rewrite Es, len_app in *; cbn in *; lia|]. exists cm, am. split; [econstructor; eauto|auto].
Qed.
Lemma turns_ext cs act cs' act' : turns cs act cs' act' -> exists x y, sk cs' = sk cs ++ x /\ jets cs' = jets cs ++ y /\ initn cs' = initn cs.
Proof.
  induction 1 as [cs act|cs act cs1 act1 x cs2 act2 T1 Es Sc T2 (x2 & y2 & E1 & E2 & E3)]; [exists [], []; rewrite !app_nil_r; auto|].
  assert (exists y1, jets cs1 = jets cs ++ y1 /\ initn cs1 = initn cs) as (y1 & Ey & Ei) by (destruct T1; [eauto|exists []; rewrite app_nil_r; auto]).
  exists (x :: x2), (y1 ++ y2). rewrite E1, E2, E3, Es, Ey, <- !app_assoc. auto.
Qed.

(* ---- the beginning ---- *)
Fixpoint preps (l : list J) : option (list J) := match l with [] => Some [] | j :: l' => match prep j, preps l' with Some a, Some b => Some (a :: b) | _, _ => None end end.
Lemma init_ok : forall l i, match preps l with
  | None => init_from J F prep fzero i l = None
  | Some vs => exists js hs, init_from J F prep fzero i l = Some (js, hs) /\ length vs = length l /\ length js = length l /\ length hs = length l /\
      (forall k v, nth_error vs k = Some v -> nth_error js k = Some {| FastjetModel.jv := v; FastjetModel.hidx := i + Z.of_nat k |}) /\
      (forall k, (k < length l)%nat -> option_map (ent_of F) (nth_error hs k) = Some {| FastjetProofs.e1 := inexistentParent; FastjetProofs.e2 := inexistentParent; FastjetProofs.ej := i + Z.of_nat k; FastjetProofs.ed := fzero; FastjetProofs.em := fzero |})
  end.
Proof.
  induction l as [|j l IH]; intros i; cbn [preps init_from].
  - exists [], []. repeat split; auto; intros [|]; intros; try discriminate; cbn in *; lia.
  - destruct (prep j) as [v|]; [|reflexivity]. specialize (IH (i + 1)). destruct (preps l) as [vs|]; [|now rewrite IH].
    destruct IH as (js & hs & -> & L1 & L2 & L3 & H1 & H2). eexists _, _. split; [reflexivity|]. cbn [length]. repeat split; try lia.
    + intros [|k] w E; cbn in E |- *; [injection E as ->; do 2 f_equal; lia|]. rewrite (H1 _ _ E). do 2 f_equal. lia.
    + intros [|k] Hk; cbn [nth_error option_map]; [unfold ent_of; cbn; do 2 f_equal; lia|]. rewrite H2 by lia. do 2 f_equal. lia.
Qed.
Lemma zn_nth {A} (l : list A) i : zn l i = if i <? 0 then None else nth_error l (Z.to_nat i).
Proof. reflexivity. Qed.
Lemma Inv_init l vs js hs : preps l = Some vs -> init_from J F prep fzero 0 l = Some (js, hs) ->
  len vs = len l /\ len js = len l /\ Inv vs js (map (ent_of F) hs) (map Z.of_nat (seq 0 (length js))).
Proof.
  intros Ep Ei. pose proof (init_ok l 0) as H. rewrite Ep in H. destruct H as (js' & hs' & Ei' & L1 & L2 & L3 & H1 & H2). assert (js' = js /\ hs' = hs) as (-> & ->) by (split; congruence).
  split; [unfold len; lia|]. split; [unfold len; lia|].
  assert (Ho : forall i v, zn vs i = Some v -> zn js i = Some {| FastjetModel.jv := v; FastjetModel.hidx := i |}).
  { intros i v. rewrite !zn_nth. destruct (Z.ltb_spec i 0); [discriminate|]. intros E. rewrite (H1 _ _ E). do 2 f_equal. lia. }
  assert (He : forall i e, zn (map (ent_of F) hs) i = Some e -> 0 <= i < len l /\ e = {| FastjetProofs.e1 := inexistentParent; FastjetProofs.e2 := inexistentParent; FastjetProofs.ej := i; FastjetProofs.ed := fzero; FastjetProofs.em := fzero |}).
  { intros i e E. pose proof (zn_range _ _ _ E) as R. rewrite len_map in R. rewrite zn_map, zn_nth in E. destruct (Z.ltb_spec i 0); [discriminate|]. unfold len in *. rewrite H2 in E by lia. split; [lia|].
    injection E as <-. f_equal. lia. }
  assert (He2 : forall i, 0 <= i < len l -> zn (map (ent_of F) hs) i = Some {| FastjetProofs.e1 := inexistentParent; FastjetProofs.e2 := inexistentParent; FastjetProofs.ej := i; FastjetProofs.ed := fzero; FastjetProofs.em := fzero |}).
  { intros i Hi. destruct (zn_ex (map (ent_of F) hs) i) as (e & E); [rewrite len_map; unfold len in *; lia|]. destruct (He _ _ E) as (_ & ->). exact E. }
  assert (Hj : forall k j, zn js k = Some j -> 0 <= k < len l /\ hidx j = k).
  { intros k j E. pose proof (zn_range _ _ _ E) as R. split; [unfold len in *; lia|]. destruct (zn_ex vs k) as (v & Ev); [unfold len in *; lia|]. rewrite (Ho _ _ Ev) in E. injection E as <-. reflexivity. }
  constructor.
  - rewrite !len_map. unfold len. rewrite seq_length. lia.
  - exact Ho.
  - intros i e E. destruct (He _ _ E) as (R & ->). left. cbn. unfold len in *. repeat split; lia.
  - intros k j E. destruct (Hj _ _ E) as (R & Eh). rewrite Eh. rewrite He2 by lia. eexists. split; [reflexivity|reflexivity].
  - intros i e E _. destruct (He _ _ E) as (R & ->). cbn. destruct (zn_ex js i) as (j & Ej); [unfold len in *; lia|]. exists j. split; auto. apply Hj in Ej. tauto.
  - apply FinFun.Injective_map_NoDup; [intros a b; lia|apply seq_NoDup].
  - exists (zseq (length js)). unfold zseq. split; [|split].
    + assert (H : forall l, (forall k, In k l -> 0 <= k < len js) -> Forall2 (fun k h => exists j, zn js k = Some j /\ hidx j = h) l l).
      { induction l0 as [|k l0 IH]; intros Hl; constructor; [|apply IH; intros; apply Hl; cbn; auto]. destruct (zn_ex js k) as (j & E); [apply Hl; cbn; auto|]. exists j. split; auto. apply Hj in E. tauto. }
      apply H. intros k Hk. apply in_map_iff in Hk. destruct Hk as (n & <- & Hn). apply in_seq in Hn. unfold len. lia.
    + intros h. split.
      * intros Hh. apply in_map_iff in Hh. destruct Hh as (n & <- & Hn). apply in_seq in Hn. split.
        { rewrite He2 by (unfold len; lia). eexists. split; [reflexivity|]. cbn. unfold invalidIndex. lia. }
        { intros e Ie. apply In_zn in Ie. destruct Ie as (i & E). apply He in E. destruct E as (_ & ->). cbn. unfold inexistentParent. lia. }
      * intros ((e & E & _) & _). apply He in E. destruct E as (R & _). apply in_map_iff. exists (Z.to_nat h). split; [lia|]. apply in_seq. unfold len in *. lia.
    + exists (map (fun h => [h]) (zseq (length js))), []. split; [|split].
      * unfold zseq. assert (H : forall l, (forall k, In k l -> 0 <= k < len js) -> Forall2 (leaves (map (ent_of F) hs)) l (map (fun h => [h]) l)).
        { induction l0 as [|k l0 IH]; intros Hl; constructor; [|apply IH; intros; apply Hl; cbn; auto]. eapply lv0; [apply He2; specialize (Hl k ltac:(cbn; auto)); unfold len in *; lia|reflexivity]. }
        apply H. intros k Hk. apply in_map_iff in Hk. destruct Hk as (n & <- & Hn). apply in_seq in Hn. unfold len. lia.
      * assert (Eb : filter (is_beam F) (map (ent_of F) hs) = []).
        { assert (H : forall l, (forall e, In e l -> is_beam F e = false) -> filter (is_beam F) l = []) by (induction l0 as [|e l0 IH]; intros Hl; [reflexivity|]; cbn; rewrite Hl by (cbn; auto); apply IH; intros; apply Hl; cbn; auto).
          apply H. intros e Ie. apply In_zn in Ie. destruct Ie as (i & E). apply He in E. destruct E as (_ & ->). reflexivity. }
        unfold FastjetProofs.beams. rewrite Eb. constructor.
      * cbn [concat]. rewrite app_nil_r. replace (length vs) with (length js) by lia. clear. fold (zseq (length js)). induction (zseq (length js)) as [|z l0 IHl]; [apply perm_nil|]. cbn [map concat app]. apply perm_skip. exact IHl.
  - intros i e e' E E' Hi. apply He in E'. unfold len in *. lia.
  - rewrite len_map. unfold len. lia.
Qed.

(* ---- the readers ---- *)
Lemma hist_sk cs p : zat (history cs) p = match zn (history cs) p with Some h => Ok h | None => Panic end.
Proof. apply zat_zn. Qed.
Lemma sk_hist cs p e : zn (sk cs) p = Some e -> exists h, zn (history cs) p = Some h /\ ent_of F h = e.
Proof. unfold FastjetProofs.sk. rewrite zn_map. destruct (zn (history cs) p) as [h|]; [|discriminate]. cbn. intros E. injection E as <-. eauto. Qed.
Lemma jet_of_ok vs cs act p e : Inv vs (jets cs) (sk cs) act -> zn (sk cs) p = Some e -> ej e <> invalidIndex -> exists j, jet_of J F cs p = Ok j /\ In j (jets cs) /\ hidx j = p.
Proof.
  intros I E Hv. destruct (i_hj _ _ _ _ _ _ _ _ _ _ I _ _ E Hv) as (j & Ej & Hj). destruct (sk_hist _ _ _ E) as (h & Eh & He). exists j. unfold jet_of. rewrite !zat_zn, Eh. cbn [rbind].
  rewrite zat_zn. rewrite <- He in Ej. cbn in Ej. rewrite Ej. split; auto. split; auto. eapply zn_In; eauto.
Qed.
Lemma addConstituents_ok vs cs act : Inv vs (jets cs) (sk cs) act -> forall h L, leaves (sk cs) h L -> forall fuel j, hidx j = h -> (Z.to_nat h < fuel)%nat ->
  exists js, addConstituents J F fuel cs j = Ok js /\ map hidx js = L /\ Forall (fun c => zn vs (hidx c) = Some (jv c)) js.
Proof.
  intros I h L HL. induction HL as [h e Ee E1|h e L1 L2 Ee R1 R2 H1 IH1 H2 IH2]; intros fuel j Hj Hf; (destruct fuel as [|fuel]; [lia|]); cbn [addConstituents]; rewrite Hj.
  - destruct (sk_hist _ _ _ Ee) as (hh & Eh & He). rewrite zat_zn, Eh. cbn [rbind]. rewrite <- He in E1. cbn in E1. rewrite E1, Z.eqb_refl.
    pose proof (i_ent _ _ _ _ _ _ _ _ _ _ I _ _ Ee) as [(R & _)|[(_ & R & _)|(_ & R & _)]]; [|rewrite <- He in R; cbn in R; unfold inexistentParent in E1; lia|rewrite <- He in R; cbn in R; unfold inexistentParent in E1; lia].
    destruct (zn_ex vs h R) as (v & Ev). rewrite zat_zn, (i_orig _ _ _ _ _ _ _ _ _ _ I _ _ Ev). cbn [rbind]. eexists. split; [reflexivity|]. split; [reflexivity|]. constructor; [exact Ev|constructor].
  - destruct (sk_hist _ _ _ Ee) as (hh & Eh & He). rewrite zat_zn, Eh. cbn [rbind].
    assert (Q1 : parent1 F hh = e1 e) by (rewrite <- He; reflexivity). assert (Q2 : parent2 F hh = e2 e) by (rewrite <- He; reflexivity). rewrite Q1, Q2.
    destruct (Z.eqb_spec (e1 e) inexistentParent) as [E|_]; [unfold inexistentParent in E; lia|].
    assert (Hc : forall p L, leaves (sk cs) p L -> exists e', zn (sk cs) p = Some e' /\ ej e' <> invalidIndex).
    { intros p L Hp. assert (exists e', zn (sk cs) p = Some e' /\ e2 e' <> beamJetIndex) as (e' & E' & N').
      { inversion Hp as [? e' E' Q|? e' ? ? E' ? Q]; subst; exists e'; (split; [exact E'|]); [|unfold beamJetIndex; lia].
        pose proof (i_ent _ _ _ _ _ _ _ _ _ _ I _ _ E') as [(_ & _ & R & _)|[(_ & R & _)|(_ & R & _)]]; unfold inexistentParent, beamJetIndex in *; lia. }
      exists e'. split; auto. pose proof (i_ent _ _ _ _ _ _ _ _ _ _ I _ _ E') as [(R & _ & _ & Q)|[(_ & _ & _ & R & _)|(_ & _ & R & _)]]; unfold invalidIndex, beamJetIndex in *; try lia. }
    destruct (Hc _ _ H1) as (x1 & X1 & N1). destruct (Hc _ _ H2) as (x2 & X2 & N2).
    destruct (jet_of_ok _ _ _ _ _ I X1 N1) as (j1 & Ej1 & _ & Hj1). destruct (jet_of_ok _ _ _ _ _ I X2 N2) as (j2 & Ej2 & _ & Hj2).
    unfold jet_of in Ej1, Ej2. destruct (zat (history cs) (e1 e)) as [h1|]; [|discriminate]. destruct (zat (history cs) (e2 e)) as [h2|]; [|discriminate]. cbn [rbind] in *.
    rewrite Ej1. cbn [rbind]. destruct (IH1 fuel j1 Hj1 ltac:(lia)) as (s1 & S1 & M1 & F1). rewrite S1. cbn [rbind].
    destruct (Z.eqb_spec (e2 e) beamJetIndex) as [E|_]; [unfold beamJetIndex in E; lia|]. rewrite Ej2. cbn [rbind].
    destruct (IH2 fuel j2 Hj2 ltac:(lia)) as (s2 & S2 & M2 & F2). rewrite S2. cbn [rbind]. eexists. split; [reflexivity|]. split; [now rewrite map_app, M1, M2|]. now apply Forall_app.
Qed.
Lemma constituents_ok vs cs act h L j : Inv vs (jets cs) (sk cs) act -> leaves (sk cs) h L -> hidx j = h ->
  exists js, constituents J F cs j = Ok js /\ map hidx js = L /\ Forall (fun c => zn vs (hidx c) = Some (jv c)) js.
Proof.
  intros I HL Hj. unfold constituents. eapply addConstituents_ok; eauto.
  assert (0 <= h < len (sk cs)) by (inversion HL; subst; eapply zn_range; eauto). rewrite len_sk in H. unfold len in H. lia.
Qed.
(* the entries with the beam, from the last *)
Lemma incl_gen_ok vs cs act pt dcut : Inv vs (jets cs) (sk cs) act -> forall hs, (forall h, In h hs -> exists p, zn (history cs) p = Some h) ->
  exists bj, incl_gen J F geb cs pt dcut hs = Ok (filter (fun j => geb (pt (jv j)) dcut) bj) /\ map hidx bj = beams (map (ent_of F) hs) /\ (forall j, In j bj -> In j (jets cs)).
Proof.
  intros I. induction hs as [|h hs IH]; intros Hp; [exists []; repeat split; intros j []|]. destruct IH as (bj & E & M & Ij); [intros; apply Hp; cbn; auto|].
  destruct (Hp h ltac:(cbn; auto)) as (p & Ez). assert (Es : zn (sk cs) p = Some (ent_of F h)) by (unfold FastjetProofs.sk; rewrite zn_map, Ez; reflexivity).
  cbn [incl_gen map]. unfold FastjetProofs.beams in *. cbn [filter]. unfold is_beam at 1. cbn [ent_of FastjetProofs.e2].
  destruct (Z.eqb_spec (parent2 F h) beamJetIndex) as [Eb|Nb]; cbn [negb]; [|exists bj; auto].
  pose proof (i_ent _ _ _ _ _ _ _ _ _ _ I _ _ Es) as He. unfold entry_ok in He. cbn [ent_of FastjetProofs.e1 FastjetProofs.e2 FastjetProofs.ej FastjetProofs.ed] in He.
  destruct He as [(_ & _ & R & _)|[(_ & R & R2 & _)|(_ & R & _ & _ & ja & Ha & Ia & _)]]; [unfold inexistentParent, beamJetIndex in *; lia|unfold beamJetIndex in *; lia|].
  apply In_zn in Ia. destruct Ia as (k & Ek). destruct (i_jets _ _ _ _ _ _ _ _ _ _ I _ _ Ek) as (e & Ee & Hk). rewrite Ha in Ee.
  destruct (jet_of_ok _ _ _ _ _ I Ee) as (j & Ej & Ij2 & Hj); [apply zn_range in Ek; unfold invalidIndex; lia|]. rewrite Ej, E. cbn [rbind]. exists (j :: bj). cbn [filter map].
  split; [destruct (geb (pt (jv j)) dcut); reflexivity|]. split; [cbn [map ent_of FastjetProofs.e1]; f_equal; [exact Hj|exact M]|]. intros x [<-|Hx]; auto.
Qed.
End Proofs.
