(* C31, C32: jet clustering, for any recombination scheme and any metric. *)
From Coq Require Import ZArith List Lia Bool Permutation.
From Verif Require Import GoLib FastjetModel FastjetProofs FastjetProofs2.
Import ListNotations.
Local Open Scope Z_scope.
Set Default Proof Using "All".

Section Props.
Variables (J F : Type) (prep : J -> option J) (recomb : J -> J -> option J) (scale : J -> F) (dist : J -> J -> F)
  (ltb geb : F -> F -> bool) (fmax : F -> F -> F) (fzero : F).
Notation jet := (jet J). Notation hist := (hist F). Notation cseq := (cseq J F).
Notation jv := (jv J). Notation hidx := (hidx J).
Notation jets := (jets J F). Notation history := (history J F). Notation initn := (initn J F).
Notation ent := (ent F). Notation sk := (sk J F). Notation leaves := (leaves F).
Notation Inv := (Inv J F recomb scale dist fmax).
Notation beams := (beams F). Notation live := (live F).
Notation e1 := (e1 F). Notation e2 := (e2 F). Notation ej := (ej F). Notation ed := (ed F). Notation em := (em F).
Notation turns := (turns J F recomb scale dist ltb fmax fzero).
Notation turn := (turn J F recomb scale dist fmax fzero).
Local Notation "'#' f" := (f J F prep recomb scale dist ltb geb fmax fzero) (at level 9, f at level 8).
Notation cluster := (newClusterSequence J F prep recomb scale dist ltb fmax fzero).
Notation constituents := (constituents J F). Notation jet_of := (jet_of J F).
Notation inclusiveJets := (inclusiveJets J F ltb geb).
Notation exclusiveJetsUpTo := (exclusiveJetsUpTo J F).

Lemma preps_spec l vs : preps J prep l = Some vs -> Forall2 (fun a b => prep a = Some b) l vs.
Proof.
  revert vs. induction l as [|a l IH]; intros vs; cbn [preps]; [intros E; injection E as <-; constructor|].
  destruct (prep a) eqn:Ea; [|discriminate]. destruct (preps J prep l); [|discriminate]. intros E. injection E as <-. constructor; auto.
Qed.
Lemma preps_none l : preps J prep l = None -> exists a, In a l /\ prep a = None.
Proof.
  induction l as [|a l IH]; cbn [preps]; [discriminate|]. destruct (prep a) eqn:Ea; [|exists a; cbn; auto]. destruct (preps J prep l); [discriminate|].
  intros _. destruct IH as (b & Ib & Hb); auto. exists b. cbn. auto.
Qed.
(* the whole clustering *)
Lemma cluster_cases l :
  (cluster l = Ok None /\ ((exists a, In a l /\ prep a = None) \/ exists u v, recomb u v = None)) \/
  exists vs cs0 act0 cs, Forall2 (fun a b => prep a = Some b) l vs /\ cluster l = Ok (Some cs) /\ len vs = len l /\ len (sk cs0) = len l /\ initn cs = len l /\
    Inv vs (jets cs0) (sk cs0) act0 /\ turns cs0 act0 cs [] /\ Inv vs (jets cs) (sk cs) [].
Proof.
  unfold newClusterSequence. destruct (preps J prep l) as [vs|] eqn:Ep.
  - pose proof (#init_ok l 0) as H. rewrite Ep in H. destruct H as (js & hs & Ei & L1 & L2 & L3 & _). rewrite Ei.
    destruct (#Inv_init l vs js hs Ep Ei) as (Lv & Lj & I). unfold runN3Dumb. cbn [FastjetModel.jets].
    set (cs0 := {| FastjetModel.initn := len l; FastjetModel.jets := js; FastjetModel.history := hs |}).
    destruct l as [|a l].
    + destruct js; [|discriminate]. cbn [length seq map loop]. right. exists vs, cs0, [], cs0. destruct hs; [|discriminate]. destruct vs; [|discriminate].
      split; [constructor|]. split; [reflexivity|]. split; auto. split; [reflexivity|]. split; [reflexivity|]. split; [exact I|]. split; [constructor|exact I].
    + assert (N0 : 0 < len vs) by (rewrite Lv, len_cons; pose proof (len_nonneg l); lia).
      destruct (#loop_turns vs N0 (length js) cs0 (map Z.of_nat (seq 0 (length js)))) as [(E & R)|(cs & E & T)].
      * exact I.
      * now rewrite map_length, seq_length.
      * left. split; [exact E|]. right. exact R.
      * right. exists vs, cs0, (map Z.of_nat (seq 0 (length js))), cs. split; [now apply preps_spec|]. split; [exact E|]. split; auto. split; [unfold FastjetProofs.sk; rewrite len_map; unfold len; cbn [FastjetModel.history cs0]; lia|].
        destruct (#turns_ext _ _ _ _ T) as (_ & _ & _ & _ & Ein). split; [exact Ein|]. split; [exact I|]. split; auto. eapply (#turns_Inv); eauto.
  - left. pose proof (#init_ok l 0) as H. rewrite Ep in H. rewrite H. split; auto. left. now apply preps_none.
Qed.
(* C31.  The clustering never panics, fails only if the recombiner does, and has exactly one step per particle. *)
Theorem C31_history : forall l,
  cluster l <> Panic /\
  ((forall a, prep a <> None) -> (forall a b, recomb a b <> None) -> exists cs, cluster l = Ok (Some cs)) /\
  (forall cs, cluster l = Ok (Some cs) -> len (history cs) = 2 * len l /\ initn cs = len l).
Proof.
  intros l. destruct (cluster_cases l) as [(E & R)|(vs & cs0 & act0 & cs & Fp & E & Lv & L0 & Li & I0 & T & I)]; rewrite E.
  - split; [discriminate|]. split; [|discriminate]. intros H1 H2. exfalso. destruct R as [(a & _ & Ha)|(u & v & Hu)]; [eapply H1; eauto|eapply H2; eauto].
  - split; [discriminate|]. split; [eauto|]. intros cs' E'. injection E' as <-. split; auto. pose proof (i_len _ _ _ _ _ _ _ _ _ _ I) as HL. unfold FastjetProofs.sk in HL. rewrite len_map in HL. change (len (@nil Z)) with 0 in HL. lia.
Qed.

(* ---- reading the final state ---- *)
Lemma zn_rev_In {A} (l : list A) x : In x (rev l) -> exists p, zn l p = Some x.
Proof. intros H. apply in_rev in H. now apply In_zn. Qed.
Lemma Forall2_map_ex {A B} (R : A -> B -> Prop) : forall l, (forall a, In a l -> exists b, R a b) -> exists m, Forall2 R l m.
Proof.
  induction l as [|a l IH]; intros H; [exists []; constructor|]. destruct (H a) as (b & Hb); [cbn; auto|]. destruct IH as (m & Hm); [intros; apply H; cbn; auto|]. exists (b :: m). now constructor.
Qed.
(* jets with given history indices have the leaves of these as constituents *)
Lemma cons_of vs cs act : Inv vs (jets cs) (sk cs) act -> forall js Ls, Forall2 (leaves (sk cs)) (map hidx js) Ls ->
  exists css, Forall2 (fun j c => constituents cs j = Ok c) js css /\ map hidx (concat css) = concat Ls /\ Forall (fun c => zn vs (hidx c) = Some (jv c)) (concat css).
Proof.
  intros I. induction js as [|j js IH]; intros Ls H; inversion H as [|? L ? Ls' H1 H2]; subst; [exists []; repeat split; constructor|].
  destruct (IH Ls' H2) as (css & F1 & M1 & G1). destruct (#constituents_ok _ _ _ _ _ _ I H1 eq_refl) as (c & Ec & Mc & Gc).
  exists (c :: css). split; [constructor; auto|]. cbn [concat]. rewrite map_app, Mc, M1. split; auto. now apply Forall_app.
Qed.
Lemma Forall2_rev {A B} (R : A -> B -> Prop) l m : Forall2 R l m -> Forall2 R (rev l) (rev m).
Proof. induction 1; [constructor|]. cbn. apply Forall2_app; auto. Qed.
Lemma beams_rev es : beams (rev es) = rev (beams es).
Proof.
  unfold FastjetProofs.beams. induction es as [|e es IH]; [reflexivity|]. cbn [rev]. rewrite filter_app, map_app, IH. cbn [filter]. destruct (is_beam F e); cbn; [reflexivity|apply app_nil_r].
Qed.
Lemma prep_of l vs i v : Forall2 (fun a b => prep a = Some b) l vs -> zn vs i = Some v -> exists a, zn l i = Some a /\ prep a = Some v.
Proof.
  intros H. unfold zn. destruct (i <? 0); [discriminate|]. generalize (Z.to_nat i). induction H as [|a b l vs Hab H IH]; intros [|k] E; cbn in *; try discriminate; [injection E as <-; eauto|auto].
Qed.

(* ---- the metrics of the three families of algorithms ---- *)
Definition kt_ok : Prop := forall d m c, ltb (fmax d m) c = true -> ltb m c = true /\ geb d c = false.
Notation order_ok := (order_ok F ltb).
Definition cambridge_ok : Prop := order_ok /\ (exists c, forall v, scale v = c) /\ (forall u v, dist u v = dist v u).

(* Kt: once the distances are below the cut, they are below for all earlier steps *)
Lemma incl_kt_ok vs cs act dcut : kt_ok -> Inv vs (jets cs) (sk cs) act -> forall pre suf, history cs = pre ++ suf -> (forall h, In h suf -> exists p, zn (history cs) p = Some h) ->
  exists bj, incl_kt J F ltb geb cs dcut (rev pre) = Ok (filter (fun j => geb (scale (jv j)) dcut) bj) /\ map hidx bj = beams (map (ent_of F) (rev pre)) /\ (forall j, In j bj -> In j (jets cs)).
Proof.
  intros Hk I pre. remember (length pre) as n eqn:Ln. revert pre Ln. induction n as [|n IH]; intros pre Ln suf Eh _.
  { destruct pre; [|discriminate]. exists []. split; [reflexivity|]. split; [reflexivity|intros j []]. }
  destruct (exists_last (l := pre)) as (pre' & h & ->); [intros ->; discriminate|]. rewrite rev_app_distr. cbn [rev app incl_kt map]. rewrite app_length in Ln. cbn [length] in Ln.
  rewrite <- app_assoc in Eh. cbn [app] in Eh.
  assert (Hz : zn (history cs) (len pre') = Some h). { rewrite Eh, zn_app. destruct (Z.ltb_spec (len pre') (len pre')); [lia|]. rewrite Z.sub_diag. reflexivity. }
  assert (Es : zn (sk cs) (len pre') = Some (ent_of F h)) by (unfold FastjetProofs.sk; rewrite zn_map, Hz; reflexivity).
  destruct (IH pre' ltac:(lia) (h :: suf) Eh) as (bj & E & M & Ij).
  { intros x Hx. apply In_zn. rewrite Eh. apply in_or_app. auto. }
  pose proof (i_ent _ _ _ _ _ _ _ _ _ _ I _ _ Es) as He. unfold entry_ok in He. cbn [ent_of FastjetProofs.e1 FastjetProofs.e2 FastjetProofs.ej FastjetProofs.ed] in He.
  (* below the cut: nothing earlier counts *)
  assert (Low : forall pre2 suf2, history cs = pre2 ++ suf2 -> (forall x y z, pre2 = x ++ y :: z -> z = [] -> ltb (maxdij F y) dcut = true) -> 
    exists bj, map hidx bj = beams (map (ent_of F) (rev pre2)) /\ filter (fun j => geb (scale (jv j)) dcut) bj = [] /\ (forall j, In j bj -> In j (jets cs))).
  { clear - I Hk. intros pre. remember (length pre) as n eqn:Ln. revert pre Ln. induction n as [|n IH]; intros pre Ln suf Eh Hl.
    { destruct pre; [|discriminate]. exists []. split; [reflexivity|]. split; [reflexivity|intros j []]. }
    destruct (exists_last (l := pre)) as (pre' & h & ->); [intros ->; discriminate|]. rewrite rev_app_distr. cbn [rev app map]. rewrite app_length in Ln. cbn [length] in Ln.
    pose proof (Hl pre' h [] eq_refl eq_refl) as Lt. rewrite <- app_assoc in Eh. cbn [app] in Eh.
    assert (Hz : zn (history cs) (len pre') = Some h). { rewrite Eh, zn_app. destruct (Z.ltb_spec (len pre') (len pre')); [lia|]. rewrite Z.sub_diag. reflexivity. }
    assert (Es : zn (sk cs) (len pre') = Some (ent_of F h)) by (unfold FastjetProofs.sk; rewrite zn_map, Hz; reflexivity).
    pose proof (i_ent _ _ _ _ _ _ _ _ _ _ I _ _ Es) as He. unfold entry_ok in He. cbn [ent_of FastjetProofs.e1 FastjetProofs.e2 FastjetProofs.ej FastjetProofs.ed] in He.
    assert (Hm : forall x y z, pre' = x ++ y :: z -> z = [] -> len vs <= len pre' -> maxdij F h = fmax (hdij F h) (maxdij F y)).
    { intros x y z Ex Ez Hn. subst z. apply (i_max _ _ _ _ _ _ _ _ _ _ I (len x) (ent_of F y) (ent_of F h)).
      - unfold FastjetProofs.sk. rewrite zn_map. rewrite Eh, Ex, <- app_assoc. cbn [app]. rewrite zn_app. destruct (Z.ltb_spec (len x) (len x)); [lia|]. rewrite Z.sub_diag. reflexivity.
      - rewrite Ex, len_app in Es. exact Es.
      - rewrite Ex, len_app in Hn. exact Hn. }
    assert (Low' : len vs <= len pre' -> exists bj, map hidx bj = beams (map (ent_of F) (rev pre')) /\ filter (fun j => geb (scale (jv j)) dcut) bj = [] /\ (forall j, In j bj -> In j (jets cs))).
    { intros Hn. apply (IH pre' ltac:(lia) (h :: suf) Eh). intros x y z Ex Ez. pose proof (Hm x y z Ex Ez Hn) as Hm'. rewrite Hm' in Lt. apply (Hk _ _ _ Lt). }
    destruct He as [(Ri & R1 & R2 & _)|[(Rn & R & R2 & _)|(Rn & R & R2 & _ & ja & Ha & Ia & Hd)]].
    - assert (Nb : beams (map (ent_of F) (rev pre')) = []).
      { unfold FastjetProofs.beams. assert (H : forall l, (forall e, In e l -> is_beam F e = false) -> filter (is_beam F) l = []) by (induction l as [|e l IHl]; intros Hl2; [reflexivity|]; cbn; rewrite Hl2 by (cbn; auto); apply IHl; intros; apply Hl2; cbn; auto).
        rewrite H; [reflexivity|]. intros e Ie. apply in_map_iff in Ie. destruct Ie as (y & <- & Iy). apply in_rev in Iy. apply In_zn in Iy. destruct Iy as (i & Ei). pose proof (zn_range _ _ _ Ei) as Rg.
        assert (Ey : zn (sk cs) i = Some (ent_of F y)) by (unfold FastjetProofs.sk; rewrite zn_map, Eh; rewrite (zn_app1 _ _ _ _ Ei); reflexivity).
        pose proof (i_ent _ _ _ _ _ _ _ _ _ _ I _ _ Ey) as [(_ & _ & Q & _)|[(Q & _)|(Q & _)]]; [|lia|lia]. unfold is_beam. rewrite Q. reflexivity. }
      exists []. split; [|split; [reflexivity|intros j []]]. unfold FastjetProofs.beams in *. cbn [filter]. unfold is_beam at 1. cbn [ent_of FastjetProofs.e2]. rewrite R2. cbn. rewrite Nb. reflexivity.
    - destruct (Low' Rn) as (bj & M & Fb & Ib). exists bj. split; [|split; [exact Fb|exact Ib]]. unfold FastjetProofs.beams in *. cbn [filter]. unfold is_beam at 1. cbn [ent_of FastjetProofs.e2].
      destruct (Z.eqb_spec (parent2 F h) beamJetIndex) as [E|_]; [unfold beamJetIndex in E; lia|]. exact M.
    - destruct (Low' Rn) as (bj & M & Fb & Ib). exists (ja :: bj). unfold FastjetProofs.beams in *. cbn [filter map]. unfold is_beam at 1. cbn [ent_of FastjetProofs.e2]. rewrite R2, Z.eqb_refl. cbn [map FastjetProofs.e1]. split; [now rewrite M, Ha|]. split; [|intros j [<-|Hj]; auto].
      rewrite Fb. destruct (exists_last (l := pre')) as (x & y & Ex); [intros ->; cbn in Rn; unfold len in *; cbn in *; destruct R; lia|].
      pose proof (Hm x y [] Ex eq_refl Rn) as Hm'. rewrite Hm' in Lt. destruct (Hk _ _ _ Lt) as (_ & Hg). rewrite Hd in Hg. rewrite Hg. reflexivity. }
  destruct (ltb (maxdij F h) dcut) eqn:Lt.
  - destruct (Low (pre' ++ [h]) suf) as (bj' & M' & Fb & Ib); [rewrite <- app_assoc; exact Eh| |].
    + intros x y z Ex Ez. subst z. apply app_inj_tail in Ex. destruct Ex as (_ & <-). exact Lt.
    + exists bj'. rewrite Fb. split; auto. rewrite M', rev_app_distr. split; [reflexivity|exact Ib].
  - unfold FastjetProofs.beams in *. cbn [filter]. unfold is_beam at 1. cbn [ent_of FastjetProofs.e2].
    destruct (Z.eqb_spec (parent2 F h) beamJetIndex) as [Eb|Nb]; cbn [andb]; [|exists bj; auto].
    destruct He as [(_ & _ & R & _)|[(_ & R & R2 & _)|(_ & R & _ & _ & ja & Ha & Ia & Hd)]]; [unfold inexistentParent, beamJetIndex in *; lia|unfold beamJetIndex in *; lia|].
    pose proof Ia as Ia'. apply In_zn in Ia'. destruct Ia' as (k & Ek). destruct (i_jets _ _ _ _ _ _ _ _ _ _ I _ _ Ek) as (e & Ee & Hke). rewrite Ha in Ee.
    destruct (#jet_of_ok _ _ _ _ _ I Ee) as (j & Ej & Ij2 & Hj); [apply zn_range in Ek; unfold invalidIndex; lia|].
    assert (j = ja) by (eapply (Inv_inj' J F recomb scale dist fmax); eauto; congruence). subst j.
    exists (ja :: bj). cbn [map filter]. rewrite Hd, Ej, E. cbn [rbind]. split; [destruct (geb (scale (jv ja)) dcut); reflexivity|]. cbn [FastjetProofs.e1]. split; [now rewrite M, Ha|]. intros j [<-|Hj2]; auto.
Qed.

(* Cambridge: after a step with the beam there are only such steps *)
Definition far (c : F) (cs : cseq) (act : list Z) : Prop :=
  forall k1 k2 j1 j2, k1 <> k2 -> In k1 act -> In k2 act -> zn (jets cs) k1 = Some j1 -> zn (jets cs) k2 = Some j2 -> ltb (dist (jv j1) (jv j2)) c = false.
Lemma values_nth js : forall act vs, values J js act = Ok vs -> length vs = length act /\ (forall i k, nth_error act i = Some k -> exists j, zn js k = Some j /\ nth_error vs i = Some (jv j)).
Proof.
  induction act as [|k act IH]; intros vs; cbn [values]; [intros E; injection E as <-; split; [reflexivity|intros []; discriminate]|]. rewrite zat_zn. destruct (zn js k) as [j|] eqn:Ej; [|discriminate]. cbn [rbind].
  destruct (values J js act) as [ws|]; [|discriminate]. cbn [rbind]. intros E. injection E as <-. destruct (IH ws eq_refl) as (L & H). split; [cbn; lia|].
  intros [|i] k' E; cbn in E |- *; [injection E as <-; eauto|auto].
Qed.
Lemma far_beam c cs act x : order_ok -> (forall v, scale v = c) -> (forall u v, dist u v = dist v u) -> NoDup act -> scanned J F scale dist ltb cs act x ->
  (e2 x = beamJetIndex -> far c cs act) /\ (far c cs act -> e2 x = beamJetIndex).
Proof.
  intros Ho Hc Hsym Nd (v0 & vs & ii & jj & Ev & Es & Hx). destruct (values_nth _ _ _ Ev) as (Lv & Hn). destruct (#scan_from _ _ _ _ _ Es) as (v & En & Hs). split.
  - intros Hb. apply Hx in Hb. subst jj. rewrite Hc in Hs. destruct (#scan_min _ _ _ _ _ Ho Es) as (_ & Hp). rewrite Hs in Hp.
    intros k1 k2 j1 j2 Hne I1 I2 Z1 Z2. apply In_nth_error in I1, I2. destruct I1 as (a & Ea). destruct I2 as (b & Eb).
    destruct (Hn _ _ Ea) as (j1' & Z1' & N1). destruct (Hn _ _ Eb) as (j2' & Z2' & N2). assert (j1' = j1) by congruence. assert (j2' = j2) by congruence. subst j1' j2'.
    destruct (Nat.lt_total a b) as [L|[->|L]]; [eapply Hp; eauto|congruence|]. rewrite Hsym. eapply Hp; eauto.
  - intros Hf. apply Hx. destruct jj as [jj|]; auto. exfalso. destruct Hs as (L & w & Ew & Ey).
    assert (Hlt : ltb (ed x) c = true).
    { rewrite (#scan_fold) in Es. assert (H : forall l st, (fst (fst st) = c /\ snd st = None) \/ ltb (fst (fst st)) c = true ->
        (fst (fst (fold_left (choose F ltb) l st)) = c /\ snd (fold_left (choose F ltb) l st) = None) \/ ltb (fst (fst (fold_left (choose F ltb) l st))) c = true).
      { induction l as [|d l IH]; intros st H; [exact H|]. cbn [fold_left]. apply IH. unfold choose. destruct (ltb (fst (fst d)) (fst (fst st))) eqn:Ed; auto. right.
        destruct H as [(H & _)|H]; [now rewrite <- H|eapply (proj2 Ho); eauto]. }
      specialize (H (beam_cands J F scale 0 (v0 :: vs) ++ pair_cands J F dist 0 (v0 :: vs)) (scale v0, 0%nat, None)). rewrite Es in H. cbn [fst snd] in H.
      destruct H as [(_ & H)|H]; [left; split; [apply Hc|reflexivity]|discriminate|exact H]. }
    assert (exists k1, nth_error act ii = Some k1) as (k1 & K1) by (destruct (nth_error act ii) eqn:E; eauto; apply nth_error_None in E; assert (nth_error (v0 :: vs) ii <> None) by congruence; apply nth_error_Some in H; lia).
    assert (exists k2, nth_error act jj = Some k2) as (k2 & K2) by (destruct (nth_error act jj) eqn:E; eauto; apply nth_error_None in E; assert (nth_error (v0 :: vs) jj <> None) by congruence; apply nth_error_Some in H; lia).
    destruct (Hn _ _ K1) as (j1 & Z1 & N1). destruct (Hn _ _ K2) as (j2 & Z2 & N2).
    assert (Hne : k1 <> k2). { intros ->. assert (ii = jj) by (eapply NoDup_nth_error; eauto; [apply nth_error_Some; congruence|congruence]). lia. }
    specialize (Hf k1 k2 j1 j2 Hne (nth_error_In _ _ K1) (nth_error_In _ _ K2) Z1 Z2). rewrite N1 in En. rewrite N2 in Ew. injection En as <-. injection Ew as <-. congruence.
Qed.
Lemma turn_beam_far c cs act cs' act' x : turn cs act cs' act' -> sk cs' = sk cs ++ [x] -> e2 x = beamJetIndex -> (forall k, In k act -> exists j, zn (jets cs) k = Some j /\ 0 <= hidx j) -> far c cs act -> far c cs' act'.
Proof.
  intros T Es Hb Hj Hf. destruct T as [a b rest ja jb kv d P Ea Eb Er Ed P' _ Ejs Es'|a rest ja d P Ea Ed P' _ Ejs Es'].
  - exfalso. rewrite Es' in Es. apply app_inj_tail in Es. destruct Es as (_ & <-). cbn in Hb. destruct (Hj a) as (j & Ej & R); [eapply Permutation_in; [symmetry; exact P|cbn; auto]|]. unfold beamJetIndex in Hb.
    assert (j = ja) by congruence. subst j. lia.
  - intros k1 k2 j1 j2 Hne I1 I2. rewrite Ejs. apply Hf; auto; (eapply Permutation_in; [symmetry; exact P|]); right; (eapply Permutation_in; [exact P'|auto]).
Qed.
Lemma cambridge_shape vs c cs act cs' act' : order_ok -> (forall v, scale v = c) -> (forall u v, dist u v = dist v u) -> 0 < len vs -> turns cs act cs' act' -> Inv vs (jets cs) (sk cs) act ->
  exists A B, sk cs' = sk cs ++ A ++ B /\ Forall (fun e => is_beam F e = false) A /\ Forall (fun e => is_beam F e = true) B /\ (far c cs act -> A = []).
Proof.
  intros Ho Hc Hs N0 T. induction T as [cs act|cs act cs1 act1 x cs2 act2 T1 Es Sc T2 IH]; intros I.
  - exists [], []. rewrite !app_nil_r. repeat split; auto.
  - pose proof (#Inv_turn _ _ _ _ _ N0 I T1) as I1. destruct (IH I1) as (A & B & E2 & FA & FB & Hf).
    destruct (far_beam c cs act x Ho Hc Hs (i_act _ _ _ _ _ _ _ _ _ _ I) Sc) as (H1 & H2).
    assert (Hj : forall k, In k act -> exists j, zn (jets cs) k = Some j /\ 0 <= hidx j). { intros k Hk. destruct (act_jet _ _ _ _ _ _ _ _ _ _ I k Hk) as (j & Ej & R & _). exists j. split; auto. lia. }
    destruct (is_beam F x) eqn:Ex.
    + assert (Hb : e2 x = beamJetIndex) by (now apply Z.eqb_eq). pose proof (turn_beam_far c _ _ _ _ _ T1 Es Hb Hj (H1 Hb)) as F1. rewrite (Hf F1) in *. exists [], (x :: B).
      rewrite E2, Es, <- app_assoc. repeat split; auto.
    + exists (x :: A), B. rewrite E2, Es, <- !app_assoc. repeat split; auto. intros Hfar. exfalso. apply H2 in Hfar. unfold is_beam in Ex. rewrite Hfar in Ex. discriminate.
Qed.
Lemma incl_ca_gen cs pt dcut : forall B A, Forall (fun h => parent2 F h = beamJetIndex) B -> Forall (fun h => parent2 F h <> beamJetIndex) A ->
  incl_ca J F geb cs pt dcut (B ++ A) = incl_gen J F geb cs pt dcut (B ++ A).
Proof.
  induction B as [|h B IH]; intros A HB HA; cbn [app incl_ca incl_gen].
  - assert (Hg : incl_gen J F geb cs pt dcut A = Ok []). { clear - HA. induction HA as [|h A Hh HA IH]; [reflexivity|]. cbn [incl_gen]. destruct (Z.eqb_spec (parent2 F h) beamJetIndex); [contradiction|]. exact IH. }
    rewrite Hg. destruct A as [|h A]; [reflexivity|]. inversion HA; subst. cbn [incl_ca]. destruct (Z.eqb_spec (parent2 F h) beamJetIndex); [contradiction|reflexivity].
  - inversion HB as [|? ? H1 H2]; subst. rewrite H1, Z.eqb_refl. cbn [negb]. rewrite IH by auto. reflexivity.
Qed.

(* C31.  There is a list of jets whose constituents partition the particles, and the inclusive jets are those of the list above the cut. *)
Theorem C31_partition : forall l cs, cluster l = Ok (Some cs) ->
  exists bj css, Forall2 (fun j c => constituents cs j = Ok c) bj css /\ Permutation (map hidx (concat css)) (zseq (length l)) /\
    Forall (fun c => exists a, zn l (hidx c) = Some a /\ prep a = Some (jv c)) (concat css) /\
    (forall pt dcut, inclusiveJets Generic cs pt dcut = Ok (filter (fun j => geb (pt (jv j)) dcut) bj)) /\
    (cambridge_ok -> forall pt dcut, inclusiveJets Cambridge cs pt dcut = Ok (filter (fun j => geb (pt (jv j)) dcut) bj)) /\
    (kt_ok -> forall dcut, inclusiveJets Kt cs scale dcut = Ok (filter (fun j => geb (scale (jv j)) dcut) bj)).
Proof.
  intros l cs E. destruct (cluster_cases l) as [(E' & _)|(vs & cs0 & act0 & cs' & Fp & E' & Lv & L0 & Li & I0 & T & I)]; [congruence|]. assert (cs' = cs) by congruence. subst cs'.
  assert (Hz : forall h, In h (rev (history cs)) -> exists p, zn (history cs) p = Some h) by (intros; now apply zn_rev_In).
  assert (Lvs : length vs = length l) by (unfold len in Lv; lia).
  (* the list, independent of the cut *)
  assert (exists bj, map hidx bj = beams (map (ent_of F) (rev (history cs))) /\ (forall j, In j bj -> In j (jets cs))) as (bj & Mb & Ib).
  { destruct (#incl_gen_ok vs cs [] (fun _ => fzero) fzero I (rev (history cs)) Hz) as (bj & _ & M & Ij). eauto. }
  assert (Uniq : forall bj', map hidx bj' = beams (map (ent_of F) (rev (history cs))) -> (forall j, In j bj' -> In j (jets cs)) -> bj' = bj).
  { intros bj' M' Ib'. rewrite <- Mb in M'. clear -M' Ib Ib' I. revert bj Ib M'. induction bj' as [|a bj' IH]; intros [|b bj] Ib M'; cbn in M'; try discriminate; [reflexivity|].
    injection M' as H1 H2. f_equal; [eapply (Inv_inj' J F recomb scale dist fmax); eauto; [apply Ib'|apply Ib]; cbn; auto|]. apply IH; auto; intros; [apply Ib'|apply Ib]; cbn; auto. }
  destruct (i_live _ _ _ _ _ _ _ _ _ _ I) as (hs & Hh & _ & La & Ld & HLa & HLd & HP). inversion Hh; subst hs. inversion HLa; subst La. cbn [concat app] in HP.
  assert (Hr : Forall2 (leaves (sk cs)) (map hidx bj) (rev Ld)). { rewrite Mb, map_rev, beams_rev. apply Forall2_rev. exact HLd. }
  destruct (cons_of _ _ _ I _ _ Hr) as (css & F1 & M1 & G1). exists bj, css. split; auto. split.
  { rewrite M1. rewrite <- Lvs. eapply Permutation_trans; [|exact HP]. apply concat_perm. symmetry. apply Permutation_rev. }
  split. { eapply Forall_impl; [|exact G1]. intros c Hc. eapply prep_of; eauto. }
  assert (Gen : forall pt dcut, inclusiveJets Generic cs pt dcut = Ok (filter (fun j => geb (pt (jv j)) dcut) bj)).
  { intros pt dcut. destruct (#incl_gen_ok vs cs [] pt dcut I (rev (history cs)) Hz) as (bj' & Eg & M & Ij). rewrite <- (Uniq bj' M Ij). exact Eg. }
  split; [exact Gen|]. split.
  - intros (Ho & (c & Hc) & Hs) pt dcut. rewrite <- Gen. unfold FastjetModel.inclusiveJets. destruct l as [|a l].
    { assert (H0 : history cs = []). { pose proof (i_len _ _ _ _ _ _ _ _ _ _ I) as HL. rewrite Lv in HL. unfold FastjetProofs.sk in HL. rewrite len_map in HL. unfold len in HL. cbn in HL. destruct (history cs); [reflexivity|cbn in HL; lia]. }
      rewrite H0. reflexivity. }
    assert (N0 : 0 < len vs) by (rewrite Lv, len_cons; pose proof (len_nonneg l); lia).
    destruct (cambridge_shape vs c cs0 act0 cs [] Ho Hc Hs N0 T I0) as (A & B & Esk & FA & FB & _).
    assert (exists HA HB, history cs = HA ++ HB /\ map (ent_of F) HA = sk cs0 ++ A /\ map (ent_of F) HB = B) as (HA & HB & Eh & EA & EB).
    { rewrite app_assoc in Esk. unfold FastjetProofs.sk in Esk at 1. apply map_eq_app in Esk. destruct Esk as (x & y & Ex & Ea & Eb). eauto 6. }
    rewrite Eh, rev_app_distr. apply incl_ca_gen.
    + apply Forall_rev. rewrite <- EB in FB. rewrite Forall_map in FB. eapply Forall_impl; [|exact FB]. intros h Hb. unfold is_beam in Hb. cbn in Hb. now apply Z.eqb_eq.
    + apply Forall_rev. apply Forall_forall. intros h Ih Hb. assert (Ie : In (ent_of F h) (sk cs0 ++ A)) by (rewrite <- EA; now apply in_map). apply in_app_or in Ie. destruct Ie as [Ie|Ie].
      * apply In_zn in Ie. destruct Ie as (i & Ei). pose proof (zn_range _ _ _ Ei). pose proof (i_ent _ _ _ _ _ _ _ _ _ _ I0 _ _ Ei) as [(_ & _ & Q & _)|[(Q & _)|(Q & _)]]; [|lia|lia]. cbn in Q. unfold inexistentParent, beamJetIndex in *. lia.
      * rewrite Forall_forall in FA. specialize (FA _ Ie). unfold is_beam in FA. cbn in FA. rewrite Hb in FA. discriminate.
  - intros Hk dcut. unfold FastjetModel.inclusiveJets. destruct (incl_kt_ok vs cs [] dcut Hk I (history cs) [] (eq_sym (app_nil_r _))) as (bj' & Ek & M & Ij); [intros h []|].
    rewrite Ek. now rewrite (Uniq bj' M Ij).
Qed.

(* ---- every step takes a smallest distance ---- *)
(* jets in use when step i of the history is made: made before, and not a parent of an earlier step *)
Definition in_use (cs : cseq) (i : Z) (j : jet) : Prop :=
  In j (jets cs) /\ hidx j < i /\ forall i' h, zn (history cs) i' = Some h -> i' < i -> parent1 F h <> hidx j /\ parent2 F h <> hidx j.
Lemma sk_zn cs i h : zn (history cs) i = Some h -> zn (sk cs) i = Some (ent_of F h).
Proof. intros E. unfold FastjetProofs.sk. now rewrite zn_map, E. Qed.
Lemma in_use_live vs cm am cs x y j : Inv vs (jets cm) (sk cm) am -> sk cs = sk cm ++ x -> jets cs = jets cm ++ y -> Inv vs (jets cs) (sk cs) [] ->
  in_use cs (len (sk cm)) j <-> In j (jets cm) /\ live (sk cm) (hidx j).
Proof.
  intros Im Es Ej I. split.
  - intros (Ij & Hl & Hu). assert (Iz : In j (jets cs)) by auto. apply In_zn in Iz. destruct Iz as (k & Ek). destruct (i_jets _ _ _ _ _ _ _ _ _ _ I _ _ Ek) as (e & Ee & Hk).
    assert (Em : zn (sk cm) (hidx j) = Some e). { rewrite Es, zn_app in Ee. destruct (Z.ltb_spec (hidx j) (len (sk cm))); [exact Ee|lia]. }
    assert (Hne : ej e <> invalidIndex) by (apply zn_range in Ek; unfold invalidIndex; lia).
    destruct (i_hj _ _ _ _ _ _ _ _ _ _ Im _ _ Em Hne) as (j' & Ej' & Hj'). assert (j' = j).
    { eapply (Inv_inj' J F recomb scale dist fmax); [exact I| |exact Ij|exact Hj']. rewrite Ej. apply in_or_app. left. eapply zn_In; eauto. }
    subst j'. split; [eapply zn_In; eauto|]. split; [exists e; auto|]. intros e' Ie. apply In_zn in Ie. destruct Ie as (i' & Ei'). pose proof (zn_range _ _ _ Ei').
    assert (Ez : zn (sk cs) i' = Some e') by (rewrite Es; now apply zn_app1). destruct (#sk_hist _ _ _ Ez) as (h & Eh & <-). apply (Hu i' h Eh). lia.
  - intros (Ij & (e & Ee & _) & Hu). split; [rewrite Ej; apply in_or_app; auto|]. split; [apply zn_range in Ee; lia|]. intros i' h Eh Hi.
    pose proof (sk_zn _ _ _ Eh) as Ez. rewrite Es, zn_app in Ez. destruct (Z.ltb_spec i' (len (sk cm))); [|lia].
    apply zn_In in Ez. apply (Hu _ Ez).
Qed.
(* the state in which step i is made *)
Lemma stage l cs i h : cluster l = Ok (Some cs) -> zn (history cs) i = Some h -> len l <= i ->
  exists vs cm am cm' am' x y, Inv vs (jets cm) (sk cm) am /\ len (sk cm) = i /\ turn cm am cm' am' /\ sk cm' = sk cm ++ [ent_of F h] /\ scanned J F scale dist ltb cm am (ent_of F h) /\
    sk cs = sk cm ++ x /\ jets cs = jets cm' ++ y /\ Inv vs (jets cs) (sk cs) [].
Proof.
  intros E Eh Hi. destruct (cluster_cases l) as [(E' & _)|(vs & cs0 & act0 & cs' & Fp & E' & Lv & L0 & Li & I0 & T & I)]; [congruence|]. assert (cs' = cs) by congruence. subst cs'.
  pose proof (zn_range _ _ _ Eh) as R. rewrite <- (#len_sk cs) in R.
  assert (N0 : 0 < len vs). { pose proof (i_len _ _ _ _ _ _ _ _ _ _ I) as HL. change (len (@nil Z)) with 0 in HL. pose proof (len_nonneg l). lia. }
  destruct (#turns_split vs N0 _ _ _ _ T I0 i) as (cm & am & T1 & T2 & Lm); [lia|].
  pose proof (#turns_Inv _ _ _ _ _ N0 T1 I0) as Im. destruct (#turns_ext _ _ _ _ T2) as (x & y & Ex & Ey & _).
  inversion T2 as [c a Hc Ha|c a cm' am' e cs2 act2 Tt Ex' Sc Tr Q1 Q2 Q3]; [subst; lia|]. subst cs2 c a act2.
  destruct (#turns_ext _ _ _ _ Tr) as (x2 & y2 & Ex2 & Ey2 & _).
  assert (e = ent_of F h). { pose proof (sk_zn _ _ _ Eh) as Ez. rewrite Ex2, Ex' in Ez. rewrite <- Lm in Ez. rewrite (zn_app1 _ _ _ _ (zn_last (sk cm) e)) in Ez. congruence. }
  subst e. exists vs, cm, am, cm', am', x, y2. auto 10.
Qed.
Lemma values_at js : forall am ws, values J js am = Ok ws -> forall n k, nth_error am n = Some k -> exists j, zn js k = Some j /\ nth_error ws n = Some (jv j).
Proof.
  induction am as [|a am IH]; intros ws E n k En; [destruct n; discriminate|]. cbn [values] in E. rewrite zat_zn in E. destruct (zn js a) as [ja|] eqn:Ea; cbn [rbind] in E; [|discriminate].
  destruct (values J js am) as [ws'|] eqn:Ew; cbn [rbind] in E; [|discriminate]. injection E as <-. destruct n as [|n]; cbn [nth_error] in *; [injection En as <-; eauto|eauto].
Qed.
Theorem C31_minimal : order_ok -> forall l cs i h, cluster l = Ok (Some cs) -> zn (history cs) i = Some h -> len l <= i ->
  (forall j, in_use cs i j -> ltb (scale (jv j)) (hdij F h) = false) /\
  (forall j1 j2, in_use cs i j1 -> in_use cs i j2 -> j1 <> j2 -> ltb (dist (jv j1) (jv j2)) (hdij F h) = false \/ ltb (dist (jv j2) (jv j1)) (hdij F h) = false) /\
  ((parent2 F h = beamJetIndex /\ exists j, in_use cs i j /\ hidx j = parent1 F h /\ hdij F h = scale (jv j)) \/
   (exists j1 j2 jk, in_use cs i j1 /\ in_use cs i j2 /\ j1 <> j2 /\ Z.min (hidx j1) (hidx j2) = parent1 F h /\ Z.max (hidx j1) (hidx j2) = parent2 F h /\
     hdij F h = dist (jv j1) (jv j2) /\ zn (jets cs) (hjet F h) = Some jk /\ hidx jk = i /\ recomb (jv j1) (jv j2) = Some (jv jk))).
Proof.
  intros Ho l cs i h E Eh Hi. destruct (stage l cs i h E Eh Hi) as (vs & cm & am & cm' & am' & x & y & Im & Lm & T & Es' & (v0 & ws & ii & jj & Ev & Esc & Hb) & Ex & Ey & I). subst i.
  assert (Ey' : exists y', jets cs = jets cm ++ y'). { destruct T as [? ? ? ? ? ? ? _ _ _ _ _ _ _ Ejs _|? ? ? ? _ _ _ _ _ Ejs _]; rewrite Ey, Ejs; [rewrite <- app_assoc; eauto|eauto]. }
  destruct Ey' as (y' & Ey').
  pose proof (fun j => in_use_live vs cm am cs x y' j Im Ex Ey' I) as Hu.
  assert (Ha : forall j, in_use cs (len (sk cm)) j -> exists k n, nth_error am n = Some k /\ zn (jets cm) k = Some j /\ nth_error (v0 :: ws) n = Some (jv j)).
  { intros j Hj. apply Hu in Hj. destruct Hj as (Ij & Lj). destruct (i_live _ _ _ _ _ _ _ _ _ _ Im) as (hs & Hh & Hl & _). apply Hl in Lj. destruct (Forall2_In_r _ _ _ _ Hh Lj) as (k & Ik & j' & Ej' & Hj').
    assert (j' = j) by (eapply (Inv_inj' J F recomb scale dist fmax); [exact Im| |exact Ij|exact Hj']; eapply zn_In; eauto). subst j'. apply In_nth_error in Ik. destruct Ik as (n & En). exists k, n. split; auto. split; auto.
    destruct (values_at _ _ _ Ev _ _ En) as (j' & Ej2 & Nv). congruence. }
  destruct (#scan_min _ _ _ _ _ Ho Esc) as (M1 & M2). cbn [ent_of FastjetProofs.ed] in M1, M2.
  assert (Hua : forall k j, In k am -> zn (jets cm) k = Some j -> in_use cs (len (sk cm)) j).
  { intros k j Ik Ej. apply Hu. split; [eapply zn_In; eauto|]. destruct (act_jet _ _ _ _ _ _ _ _ _ _ Im k Ik) as (j' & Ej' & _ & Lj). assert (j' = j) by congruence. subst. exact Lj. }
  split; [|split].
  - intros j Hj. destruct (Ha j Hj) as (k & n & _ & _ & Nj). apply M1. eapply nth_error_In; eauto.
  - intros j1 j2 H1 H2 Hne. destruct (Ha j1 H1) as (k1 & n1 & A1 & B1 & C1). destruct (Ha j2 H2) as (k2 & n2 & A2 & B2 & C2).
    destruct (Nat.lt_total n1 n2) as [L|[Eq|L]]; [left; exact (M2 _ _ _ _ L C1 C2)| |right; exact (M2 _ _ _ _ L C2 C1)]. exfalso. apply Hne. subst. congruence.
  - destruct T as [a b rest ja jb kv d P Ea Eb Er Ed P' _ Ejs Es|a rest ja d P Ea Ed P' _ Ejs Es].
    + right. rewrite Es' in Es. apply app_inj_tail in Es. destruct Es as (_ & Es). injection Es as Q1 Q2 Q3 Q4 Q5. cbn in Q1, Q2, Q3, Q4.
      assert (Pi : forall z, In z (a :: b :: rest) -> In z am) by (intros; eapply Permutation_in; [symmetry; exact P|auto]).
      exists ja, jb, (nom J kv (len (sk cm))). split; [apply (Hua a); auto; apply Pi; cbn; auto|]. split; [apply (Hua b); auto; apply Pi; cbn; auto|]. split.
      * intros Ejj. assert (a = b) by (eapply (Inv_hidx_inj J F recomb scale dist fmax vs _ _ am a b ja jb); [exact Im|exact Ea|exact Eb|congruence]). subst b. pose proof (i_act _ _ _ _ _ _ _ _ _ _ Im) as Nd. apply (Permutation_NoDup P) in Nd. inversion Nd as [|? ? N1 N2]. apply N1. cbn. auto.
      * split; auto. split; auto. split; [congruence|]. split; [|split; [reflexivity|exact Er]]. rewrite Q3, Ey, Ejs. apply zn_app1, zn_last.
    + left. rewrite Es' in Es. apply app_inj_tail in Es. destruct Es as (_ & Es). injection Es as Q1 Q2 Q3 Q4 Q5. cbn in Q1, Q2, Q3, Q4. split; auto. exists ja. split; [|split; [auto|congruence]].
      eapply Hua; eauto. eapply Permutation_in; [symmetry; exact P|cbn; auto].
Qed.

(* ---- additive quantities ---- *)
Section Sum.
Context (M : Type) (op : M -> M -> M) (un : M) (phi : J -> M).
Context (op_assoc : forall a b c, op a (op b c) = op (op a b) c) (op_comm : forall a b, op a b = op b a) (op_un : forall a, op un a = a)
  (phi_add : forall a b c, recomb a b = Some c -> phi c = op (phi a) (phi b)).
Definition total (l : list jet) : M := fold_right op un (map (fun j => phi (jv j)) l).
Lemma total_app a b : total (a ++ b) = op (total a) (total b).
Proof. unfold total. rewrite map_app. induction (map _ a) as [|x a' IH]; cbn; [now rewrite op_un|]. now rewrite IH, op_assoc. Qed.
Lemma leaves_ex vs js es act : Inv vs js es act -> forall n j, (Z.to_nat (hidx j) < n)%nat -> In j js -> exists L, leaves es (hidx j) L.
Proof.
  intros I. induction n as [|n IH]; intros j Hn Ij; [lia|]. apply In_zn in Ij. destruct Ij as (k & Ek). destruct (i_jets _ _ _ _ _ _ _ _ _ _ I _ _ Ek) as (e & Ee & Hk). pose proof (zn_range _ _ _ Ek) as Rk.
  pose proof (i_ent _ _ _ _ _ _ _ _ _ _ I _ _ Ee) as [(R & R1 & _)|[(R0 & R1 & R2 & R3 & ja & jb & jk & Ha & Hb & _ & Ia & Ib & _)|(_ & _ & _ & R & _)]].
  - exists [hidx j]. eapply lv0; eauto.
  - destruct (IH ja) as (L1 & H1); [lia|exact Ia|]. destruct (IH jb) as (L2 & H2); [lia|exact Ib|]. rewrite Ha in H1. rewrite Hb in H2. exists (L1 ++ L2). eapply lv2; eauto; lia.
  - unfold invalidIndex in R. lia.
Qed.
Lemma sum_leaves vs js es act : Inv vs js es act -> forall h L, leaves es h L -> forall j cl, In j js -> hidx j = h -> map hidx cl = L -> Forall (fun c => zn vs (hidx c) = Some (jv c)) cl -> phi (jv j) = total cl.
Proof.
  intros I h L HL. induction HL as [h e Ee E1|h e L1 L2 Ee R1 R2 H1 IH1 H2 IH2]; intros j cl Ij Hj Hc Fc.
  - destruct cl as [|c [|]]; try discriminate. injection Hc as Hc. inversion Fc as [|? ? F1 _]; subst. unfold total. cbn. rewrite op_comm, op_un. f_equal.
    pose proof (i_orig _ _ _ _ _ _ _ _ _ _ I _ _ F1) as Eo. apply zn_In in Eo. rewrite (Inv_inj' J F recomb scale dist fmax _ _ _ _ _ _ I Ij Eo); [reflexivity|]. cbn. congruence.
  - apply map_eq_app in Hc. destruct Hc as (c1 & c2 & -> & M1 & M2). apply Forall_app in Fc. destruct Fc as (F1 & F2). rewrite total_app.
    pose proof (i_ent _ _ _ _ _ _ _ _ _ _ I _ _ Ee) as [(_ & R & _)|[(R0 & _ & _ & _ & ja & jb & jk & Ha & Hb & Ek & Ia & Ib & Hr)|(_ & _ & R & _)]]; [unfold inexistentParent in R; lia| |unfold beamJetIndex in R; lia].
    rewrite <- (IH1 ja c1), <- (IH2 jb c2); auto.
    assert (j = jk). { destruct (i_hj _ _ _ _ _ _ _ _ _ _ I _ _ Ee) as (j' & Ej' & Hj'); [apply zn_range in Ek; unfold invalidIndex; lia|]. assert (j' = jk) by congruence. subst j'.
      eapply (Inv_inj' J F recomb scale dist fmax); [exact I|exact Ij|eapply zn_In; eauto|congruence]. }
    subst jk. destruct Hr as [(Hr & _)|(Hr & _)]; rewrite (phi_add _ _ _ Hr); auto.
Qed.
(* a quantity that recombination adds up has, for any jet, the sum over the constituents as its value *)
Theorem C31_sum : forall l cs j, cluster l = Ok (Some cs) -> In j (jets cs) ->
  exists c, constituents cs j = Ok c /\ c <> [] /\ phi (jv j) = fold_right op un (map (fun x => phi (jv x)) c).
Proof.
  intros l cs j E Ij. destruct (cluster_cases l) as [(E' & _)|(vs & cs0 & act0 & cs' & Fp & E' & Lv & L0 & Li & I0 & T & I)]; [congruence|]. assert (cs' = cs) by congruence. subst cs'.
  destruct (leaves_ex _ _ _ _ I (S (Z.to_nat (hidx j))) j ltac:(lia) Ij) as (L & HL). destruct (#constituents_ok _ _ _ _ _ _ I HL eq_refl) as (c & Ec & Mc & Gc). exists c. split; auto.
  split; [intros ->; apply (leaves_ne _ _ _ _ HL); auto|]. eapply sum_leaves; eauto.
Qed.
End Sum.

(* ---- exclusive jets ---- *)
Definition collect (s : Z) (es : list ent) : list Z := flat_map (fun e => (if e1 e <? s then [e1 e] else []) ++ (if (0 <? e2 e) && (e2 e <? s) then [e2 e] else [])) es.
Lemma filter_perm {A} (f : A -> bool) l m : Permutation l m -> Permutation (filter f l) (filter f m).
Proof. induction 1 as [|x l m P IH|x y l|l m n P1 IH1 P2 IH2]; cbn; [constructor|destruct (f x); auto|destruct (f x), (f y); auto using perm_swap|etransitivity; eauto]. Qed.
Definition hidxs (js : list jet) (act hs : list Z) : Prop := Forall2 (fun k h => exists j, zn js k = Some j /\ hidx j = h) act hs.
Lemma hidxs_app js x act hs : hidxs js act hs -> hidxs (js ++ x) act hs.
Proof. apply Forall2_impl'. intros k h (j & E & H). exists j. split; auto using zn_app1. Qed.
Lemma collect_turns vs s : 0 < len vs -> forall cm am cs act, turns cm am cs act -> act = [] -> Inv vs (jets cm) (sk cm) am -> s <= len (sk cm) -> forall x, sk cs = sk cm ++ x -> forall hs, hidxs (jets cm) am hs ->
  Permutation (collect s x) (filter (fun h => h <? s) hs).
Proof.
  intros N0 cm am cs act T. induction T as [cs act|cs act cs1 act1 x0 cs2 act2 T1 Es0 Sc T2 IH]; intros Ea I Hs x Ex hs Hh.
  - subst act. inversion Hh; subst. rewrite <- (app_nil_r (sk cs)) in Ex at 1. apply app_inv_head in Ex. subst x. constructor.
  - destruct (#turns_ext _ _ _ _ T2) as (x2 & _ & Ex2 & _ & _). rewrite Ex2, Es0, <- app_assoc in Ex. apply app_inv_head in Ex. subst x. cbn [app collect flat_map]. fold (collect s x2).
    specialize (IH Ea (#Inv_turn _ _ _ _ _ N0 I T1) ltac:(rewrite Es0, len_app; change (len [x0]) with 1; lia) x2 Ex2).
    assert (Hpos : forall k j, In k act -> zn (jets cs) k = Some j -> 0 <= hidx j).
    { intros k j Ik Ej. destruct (act_jet _ _ _ _ _ _ _ _ _ _ I k Ik) as (j' & Ej' & R & _). assert (j' = j) by congruence. subst. lia. }
    destruct T1 as [a b rest ja jb kv d P Eja Ejb Er Ed P' _ Ejs Es|a rest ja d P Eja Ed P' _ Ejs Es]; rewrite Es0 in Es; apply app_inj_tail in Es; destruct Es as (_ & ->); cbn [FastjetProofs.e1 FastjetProofs.e2].
    + destruct (Forall2_perm _ _ _ _ P Hh) as (hs' & Ph & Hh'). inversion Hh' as [|? ha ? hs1 (ja' & Ea1 & Ea2) Hh1 Q1 Q2]; subst. inversion Hh1 as [|? hb ? hs2 (jb' & Eb1 & Eb2) Hh2 Q1 Q2]; subst.
      assert (ja' = ja) by congruence. assert (jb' = jb) by congruence. subst ja' jb'.
      destruct (Forall2_perm (fun k h => exists j, zn (jets cs1) k = Some j /\ hidx j = h) (len (jets cs) :: rest) act1 (len (sk cs) :: hs2)) as (hs3 & P3 & H3); [now symmetry| |].
      { constructor; [rewrite Ejs; exists (nom J kv (len (sk cs))); split; [apply zn_last|reflexivity]|]. rewrite Ejs. apply hidxs_app. exact Hh2. }
      rewrite (IH hs3 H3). rewrite (filter_perm _ _ _ (Permutation_sym P3)), (filter_perm _ _ _ Ph). cbn [filter]. destruct (Z.ltb_spec (len (sk cs)) s); [lia|].
      assert (A1 : 0 <= hidx ja) by (apply (Hpos a ja); [eapply Permutation_in; [symmetry; exact P|cbn; auto]|exact Eja]). assert (A2 : 0 <= hidx jb) by (apply (Hpos b jb); [eapply Permutation_in; [symmetry; exact P|cbn; auto]|exact Ejb]).
      assert (hidx ja <> hidx jb).
      { intros Eq. assert (a = b) by (eapply (Inv_hidx_inj J F recomb scale dist fmax vs _ _ act a b ja jb); [exact I|exact Eja|exact Ejb|exact Eq]). subst b. pose proof (i_act _ _ _ _ _ _ _ _ _ _ I) as Nd. apply (Permutation_NoDup P) in Nd. inversion Nd as [|? ? N1 N2]. apply N1. cbn. auto. }
      assert (Hm : (0 <? Z.max (hidx ja) (hidx jb)) = true) by (apply Z.ltb_lt; lia). rewrite Hm. cbn [andb].
      destruct (Z.le_ge_cases (hidx ja) (hidx jb)); [rewrite Z.min_l, Z.max_r by lia|rewrite Z.min_r, Z.max_l by lia]; destruct (hidx ja <? s), (hidx jb <? s); cbn [app]; auto. apply perm_swap.
    + destruct (Forall2_perm _ _ _ _ P Hh) as (hs' & Ph & Hh'). inversion Hh' as [|? ha ? hs1 (ja' & Ea1 & Ea2) Hh1 Q1 Q2]; subst. assert (ja' = ja) by congruence. subst ja'.
      destruct (Forall2_perm (fun k h => exists j, zn (jets cs1) k = Some j /\ hidx j = h) rest act1 hs1) as (hs3 & P3 & H3); [now symmetry|rewrite Ejs; exact Hh1|].
      rewrite (IH hs3 H3). rewrite (filter_perm _ _ _ (Permutation_sym P3)), (filter_perm _ _ _ Ph). cbn [filter]. change (0 <? beamJetIndex) with false. cbn [andb]. rewrite app_nil_r.
      destruct (hidx ja <? s); reflexivity.
Qed.
Lemma excl_from_ok vs cs act s : Inv vs (jets cs) (sk cs) act -> s <= len (sk cs) -> forall hs, (forall h, In h hs -> exists p, zn (history cs) p = Some h /\ len vs <= p) ->
  exists js, excl_from J F cs s hs = Ok js /\ map hidx js = collect s (map (ent_of F) hs) /\ forall j, In j js -> In j (jets cs).
Proof.
  intros I Hs. induction hs as [|h hs IH]; intros Hp; [exists []; repeat split; intros j []|]. destruct IH as (js & E & Mj & Ij); [intros; apply Hp; cbn; auto|].
  destruct (Hp h ltac:(cbn; auto)) as (p & Ez & Hn). pose proof (sk_zn _ _ _ Ez) as Es. cbn [excl_from map collect flat_map]. fold (collect s (map (ent_of F) hs)). cbn [ent_of FastjetProofs.e1 FastjetProofs.e2]. rewrite E.
  assert (Hj : forall ja, In ja (jets cs) -> exists j, jet_of cs (hidx ja) = Ok j /\ In j (jets cs) /\ hidx j = hidx ja).
  { intros ja Ia. apply In_zn in Ia. destruct Ia as (k & Ek). destruct (i_jets _ _ _ _ _ _ _ _ _ _ I _ _ Ek) as (e & Ee & Hk). apply (#jet_of_ok _ _ _ _ _ I Ee). apply zn_range in Ek. unfold invalidIndex. lia. }
  pose proof (i_ent _ _ _ _ _ _ _ _ _ _ I _ _ Es) as [(R & _)|[(_ & R1 & R2 & _ & ja & jb & jk & Ha & Hb & _ & Ia & Ib & _)|(_ & R & Q & _ & ja & Ha & Ia & _)]]; cbn [ent_of FastjetProofs.e1 FastjetProofs.e2] in *; [lia| |].
  - destruct (Hj _ Ia) as (j1 & E1 & I1 & H1). destruct (Hj _ Ib) as (j2 & E2 & I2 & H2). rewrite Ha in *. rewrite Hb in *. rewrite E1, E2.
    exists ((if parent1 F h <? s then [j1] else []) ++ (if (0 <? parent2 F h) && (parent2 F h <? s) then [j2] else []) ++ js).
    destruct (parent1 F h <? s), ((0 <? parent2 F h) && (parent2 F h <? s)); cbn [rbind app map]; rewrite ?H1, ?H2, ?Mj; (split; [reflexivity|]); (split; [reflexivity|]); cbn; intros; intuition (subst; auto).
  - destruct (Hj _ Ia) as (j1 & E1 & I1 & H1). rewrite Ha in *. rewrite E1. rewrite Q. change (0 <? beamJetIndex) with false. cbn [andb]. rewrite app_nil_r.
    exists ((if parent1 F h <? s then [j1] else []) ++ js). destruct (parent1 F h <? s); cbn [rbind app map]; rewrite ?H1, ?Mj; (split; [reflexivity|]); (split; [reflexivity|]); cbn; intros; intuition (subst; auto).
Qed.
(* C32.  Exclusive jets are the jets left when the clustering is stopped at k jets; with what the beam took before, they partition the particles. *)
Theorem C32_exclusive : forall l cs k, cluster l = Ok (Some cs) -> 0 <= k <= len l ->
  exists js bj css bss, exclusiveJetsUpTo cs k = Ok (Some js) /\ len js = k /\ NoDup (map hidx js) /\
    (forall j, In j js <-> in_use cs (2 * len l - k) j) /\
    map hidx bj = map (parent1 F) (filter (fun h => parent2 F h =? beamJetIndex) (firstn (Z.to_nat (2 * len l - k)) (history cs))) /\ (forall j, In j bj -> In j (jets cs)) /\
    Forall2 (fun j c => constituents cs j = Ok c) js css /\ Forall2 (fun j c => constituents cs j = Ok c) bj bss /\
    Permutation (map hidx (concat css ++ concat bss)) (zseq (length l)).
Proof.
  intros l cs k E Hk. destruct (C31_history l) as (_ & _ & HL). destruct (HL cs E) as (Lh & Ln).
  destruct (cluster_cases l) as [(E' & _)|(vs & cs0 & act0 & cs' & Fp & E' & Lv & L0 & Li & I0 & T & I)]; [congruence|]. assert (cs' = cs) by congruence. subst cs'.
  destruct (Z.eq_dec (len l) 0) as [Ez|Nz].
  { assert (l = []) by (destruct l; [reflexivity|rewrite len_cons in Ez; pose proof (len_nonneg l); lia]). subst l. assert (k = 0) by (change (len (@nil J)) with 0 in Hk; lia). subst k.
    assert (Eh : history cs = []) by (destruct (history cs); [reflexivity|rewrite len_cons in Lh; pose proof (len_nonneg l); change (len (@nil J)) with 0 in Lh; lia]).
    assert (Nj : forall j, ~ In j (jets cs)).
    { intros j Ij. apply In_zn in Ij. destruct Ij as (q & Ek). destruct (i_jets _ _ _ _ _ _ _ _ _ _ I _ _ Ek) as (e & Ee & _). unfold FastjetProofs.sk in Ee. rewrite Eh in Ee. apply zn_range in Ee. cbn in Ee. lia. }
    exists [], [], [], []. unfold FastjetModel.exclusiveJetsUpTo. rewrite Ln, Eh. change (len (@nil J)) with 0. split; [reflexivity|]. split; [reflexivity|]. split; [constructor|].
    split; [intros j; split; [intros []|intros (Ij & _); elim (Nj j Ij)]|]. split; [reflexivity|]. split; [intros j []|]. split; [constructor|]. split; [constructor|]. constructor. }
  pose proof (len_nonneg l) as Hl0. set (s := 2 * len l - k). destruct (#turns_split vs ltac:(lia) _ _ _ _ T I0 s) as (cm & am & T1 & T2 & Lm); [rewrite L0, (#len_sk); unfold s; lia|].
  pose proof (#turns_Inv vs _ _ _ _ ltac:(lia) T1 I0) as Im. destruct (#turns_ext _ _ _ _ T2) as (x & y & Ex & Ey & _).
  destruct (i_live _ _ _ _ _ _ _ _ _ _ Im) as (hs & Hh & Hlive & La & Ld & FLa & FLd & Perm).
  assert (Hlt : forall h, In h hs -> h < s). { intros h Ih. apply Hlive in Ih. destruct Ih as ((e & Ee & _) & _). apply zn_range in Ee. lia. }
  pose proof (collect_turns vs s ltac:(lia) _ _ _ _ T2 eq_refl Im ltac:(lia) x Ex hs Hh) as Pc.
  assert (Ef : filter (fun h => h <? s) hs = hs) by (clear - Hlt; induction hs as [|h hs IH]; [reflexivity|]; cbn; rewrite (proj2 (Z.ltb_lt h s)) by (apply Hlt; cbn; auto); rewrite IH by (intros; apply Hlt; cbn; auto); reflexivity). rewrite Ef in Pc.
  assert (Esk : map (ent_of F) (skipn (Z.to_nat s) (history cs)) = x).
  { rewrite <- skipn_map. fold (sk cs). rewrite Ex. rewrite skipn_app. unfold len in Lm. rewrite skipn_all2 by lia. replace (Z.to_nat s - length (sk cm))%nat with 0%nat by lia. reflexivity. }
  assert (Efi : map (ent_of F) (firstn (Z.to_nat s) (history cs)) = sk cm).
  { rewrite <- firstn_map. fold (sk cs). rewrite Ex. rewrite firstn_app. unfold len in Lm. rewrite firstn_all2 by lia. replace (Z.to_nat s - length (sk cm))%nat with 0%nat by lia. cbn. apply app_nil_r. }
  assert (Hs : len l <= s) by (unfold s; lia).
  destruct (excl_from_ok vs cs [] s I ltac:(rewrite (#len_sk); unfold s; lia) (skipn (Z.to_nat s) (history cs))) as (js & Ejs & Mjs & Ij).
  { intros h Ih. apply In_zn in Ih. destruct Ih as (p & Ep). exists (p + s). unfold zn in *. destruct (Z.ltb_spec p 0); [discriminate|]. destruct (Z.ltb_spec (p + s) 0); [lia|]. split; [|lia].
    rewrite <- Ep. rewrite <- (firstn_skipn (Z.to_nat s) (history cs)) at 1. rewrite nth_error_app2; rewrite firstn_length; unfold len in *; [f_equal; lia|lia]. }
  rewrite Esk in Mjs. rewrite <- Mjs in Pc.
  assert (Bj : exists bj, map hidx bj = beams (sk cm) /\ forall j, In j bj -> In j (jets cs)).
  { destruct (#incl_gen_ok vs cm am (fun _ => fzero) fzero Im (history cm) (fun h Ih => In_zn _ _ Ih)) as (bj & _ & Mb & Ib). exists bj. split; [exact Mb|]. intros j Hj. rewrite Ey. apply in_or_app. auto. }
  destruct Bj as (bj & Mb & Ib).
  assert (Ubj : forall h L, leaves (sk cm) h L -> leaves (sk cs) h L) by (intros; rewrite Ex; now apply leaves_app).
  destruct (Forall2_perm _ _ _ _ (Permutation_sym Pc) FLa) as (La' & PLa & FLa').
  destruct (cons_of vs cs [] I js La') as (css & Fc & Mc & _). { eapply Forall2_impl'; [|exact FLa']. auto. }
  destruct (cons_of vs cs [] I bj Ld) as (bss & Fb & Mbs & _). { rewrite Mb. eapply Forall2_impl'; [|exact FLd]. auto. }
  exists js, bj, css, bss. split; [|split; [|split; [|split; [|split; [|split; [exact Ib|split; [exact Fc|split; [exact Fb|]]]]]]]].
  - unfold FastjetModel.exclusiveJetsUpTo. rewrite Ln, Lh. destruct (Z.ltb_spec (len l) k); [lia|]. rewrite Z.eqb_refl. cbn [negb]. destruct (Z.ltb_spec k 0); [lia|]. rewrite Z.max_l by (unfold s in Hs; lia). fold s. rewrite Ejs. reflexivity.
  - assert (len js = len am). { apply Permutation_length in Pc. rewrite map_length in Pc. assert (length am = length hs) by (clear - Hh; induction Hh; cbn; congruence). unfold len. lia. } pose proof (i_len _ _ _ _ _ _ _ _ _ _ Im). unfold s in *. lia.
  - eapply Permutation_NoDup; [symmetry; exact Pc|]. pose proof (i_act _ _ _ _ _ _ _ _ _ _ Im) as Nd. clear - Hh Nd Im.
    assert (forall k1 k2 h, (exists j, zn (jets cm) k1 = Some j /\ hidx j = h) -> (exists j, zn (jets cm) k2 = Some j /\ hidx j = h) -> k1 = k2).
    { intros k1 k2 h (j1 & A1 & B1) (j2 & A2 & B2). eapply (Inv_hidx_inj J F recomb scale dist fmax); [exact Im|exact A1|exact A2|congruence]. }
    clear Im. revert Nd. induction Hh as [|k h am hs Hkh Hh IH]; intros Nd; constructor; inversion Nd; subst; auto.
    intros Ih. destruct (Forall2_In_r _ _ _ _ Hh Ih) as (k' & Ik & Hk'). assert (k = k') by eauto. subst. auto.
  - intros j. rewrite <- Lm. rewrite (in_use_live vs cm am cs x y j Im Ex Ey I). split.
    + intros Hj. assert (Hl : live (sk cm) (hidx j)) by (apply Hlive; eapply Permutation_in; [exact Pc|now apply in_map]). split; auto.
      destruct Hl as ((e & Ee & Ne) & _). destruct (i_hj _ _ _ _ _ _ _ _ _ _ Im _ _ Ee Ne) as (j' & Ej' & Hj'). assert (j' = j); [|subst; eapply zn_In; eauto].
      eapply (Inv_inj' J F recomb scale dist fmax); [exact I| |apply Ij; exact Hj|exact Hj']. rewrite Ey. apply in_or_app. left. eapply zn_In; eauto.
    + intros (Hj & Hl). apply Hlive in Hl. apply (Permutation_in _ (Permutation_sym Pc)) in Hl. apply in_map_iff in Hl. destruct Hl as (j' & Hh' & Ij'). assert (j' = j); [|subst; auto].
      eapply (Inv_inj' J F recomb scale dist fmax); [exact I|auto| |exact Hh']. rewrite Ey. apply in_or_app. auto.
  - unfold FastjetProofs.beams in Mb. rewrite <- Efi in Mb. rewrite Mb. clear. fold s. induction (firstn (Z.to_nat s) (history cs)) as [|h hh IH]; [reflexivity|]. cbn [map filter]. unfold is_beam at 1. cbn. destruct (parent2 F h =? beamJetIndex); cbn; congruence.
  - rewrite map_app, Mc, Mbs. rewrite (concat_perm _ _ (Permutation_sym PLa)). replace (length l) with (length vs) by (unfold len in Lv; lia). exact Perm.
Qed.

Theorem C32_reject : forall l cs k, cluster l = Ok (Some cs) -> (len l < k -> exclusiveJetsUpTo cs k = Ok None) /\ (k < 0 -> exclusiveJetsUpTo cs k = Panic).
Proof.
  intros l cs k E. destruct (C31_history l) as (_ & _ & HL). destruct (HL cs E) as (Lh & Ln). unfold FastjetModel.exclusiveJetsUpTo. rewrite Ln, Lh, Z.eqb_refl. cbn [negb]. pose proof (len_nonneg l). split; intros Hk.
  - destruct (Z.ltb_spec (len l) k); [reflexivity|lia].
  - destruct (Z.ltb_spec (len l) k); [lia|]. destruct (Z.ltb_spec k 0); [reflexivity|lia].
Qed.
(* the particles themselves come with distance zero *)
Lemma cluster_zero l cs i h : cluster l = Ok (Some cs) -> zn (history cs) i = Some h -> i < len l -> maxdij F h = fzero /\ hdij F h = fzero.
Proof.
  intros E Eh Hi. pose proof (#init_ok l 0) as H. unfold newClusterSequence in E. destruct (preps J prep l) as [vs|] eqn:Ep; [|rewrite H in E; discriminate].
  destruct H as (js & hs & Ei & L1 & L2 & L3 & _ & H2). rewrite Ei in E. destruct (#Inv_init l vs js hs Ep Ei) as (Lv & Lj & I). unfold runN3Dumb in E. cbn [FastjetModel.jets] in E.
  set (cs0 := {| FastjetModel.initn := len l; FastjetModel.jets := js; FastjetModel.history := hs |}) in E.
  assert (Hx : exists x, sk cs = sk cs0 ++ x).
  { destruct l as [|a l]; [destruct js; [|discriminate]; injection E as <-; exists []; now rewrite app_nil_r|].
    destruct (#loop_turns vs ltac:(rewrite Lv, len_cons; pose proof (len_nonneg l); lia) (length js) cs0 (map Z.of_nat (seq 0 (length js)))) as [(E' & _)|(cs' & E' & T)]; [exact I|now rewrite map_length, seq_length|congruence|].
    assert (cs' = cs) by congruence. subst cs'. destruct (#turns_ext _ _ _ _ T) as (x & _ & Ex & _). eauto. }
  destruct Hx as (x & Ex). apply sk_zn in Eh. pose proof (zn_range _ _ _ Eh) as R. rewrite Ex, zn_app in Eh. unfold FastjetProofs.sk in Eh. cbn [FastjetModel.history cs0] in Eh. rewrite len_map in Eh.
  destruct (Z.ltb_spec i (len hs)); [|unfold len in *; lia]. rewrite zn_map in Eh. unfold zn in Eh. destruct (Z.ltb_spec i 0); [lia|]. unfold len in *. rewrite H2 in Eh by lia. injection Eh as _ _ _ Q1 Q2. auto.
Qed.
Lemma stop_at_spec leb dcut : forall (r : list hist), let i := stop_at F leb dcut (len r - 1) (rev r) in
  -1 <= i < Z.max 0 (len r) /\ (forall p h, zn r p = Some h -> i < p -> leb (maxdij F h) dcut = false) /\ (0 <= i -> exists h, zn r i = Some h /\ leb (maxdij F h) dcut = true).
Proof.
  induction r as [|h r IH] using rev_ind; cbn zeta.
  - cbn. split; [lia|]. split; [intros p h E; apply zn_range in E; cbn in E; lia|lia].
  - rewrite rev_app_distr. cbn [rev app stop_at]. rewrite len_app. change (len [h]) with 1. pose proof (len_nonneg r). destruct (leb (maxdij F h) dcut) eqn:El.
    + split; [lia|]. split; [intros p g E; apply zn_range in E; rewrite len_app in E; change (len [h]) with 1 in E; lia|]. intros _. exists h. split; auto. replace (len r + 1 - 1) with (len r) by lia. apply zn_last.
    + replace (len r + 1 - 1 - 1) with (len r - 1) by lia. cbn zeta in IH. destruct IH as (R & H1 & H2). split; [lia|]. split.
      * intros p g E Hp. apply zn_snoc in E. destruct E as [E|(-> & ->)]; [eauto|exact El].
      * intros Hi. destruct (H2 Hi) as (g & Eg & Hg). exists g. split; auto using zn_app1.
Qed.
(* the cut in distance: the steps kept are those up to the last whose largest distance so far is within the cut *)
Theorem C32_dcut : forall leb l cs dcut, cluster l = Ok (Some cs) -> leb fzero dcut = true ->
  exists k, 0 <= k <= len l /\ numExclusiveJets J F leb cs dcut = k /\ exclusiveJets J F leb cs dcut = exclusiveJetsUpTo cs k /\
    (forall i h, zn (history cs) i = Some h -> 2 * len l - k <= i -> leb (maxdij F h) dcut = false) /\
    ((forall d m, leb (fmax d m) dcut = true -> leb d dcut = true /\ leb m dcut = true) -> forall i h, zn (history cs) i = Some h -> i < 2 * len l - k -> leb (maxdij F h) dcut = true /\ leb (hdij F h) dcut = true).
Proof.
  intros leb l cs dcut E H0. destruct (C31_history l) as (_ & _ & HL). destruct (HL cs E) as (Lh & Ln). pose proof (stop_at_spec leb dcut (history cs)) as S. cbn zeta in S.
  unfold exclusiveJets, numExclusiveJets. set (i := stop_at F leb dcut (len (history cs) - 1) (rev (history cs))) in *. destruct S as (R & S1 & S2). rewrite Ln. pose proof (len_nonneg l) as Hl.
  assert (Hi : len l <= i + 1). { destruct (Z.eq_dec (len l) 0); [lia|]. destruct (zn_ex (history cs) (len l - 1)) as (h & Eh); [lia|]. destruct (cluster_zero l cs _ _ E Eh ltac:(lia)) as (Q & _).
    destruct (Z_le_gt_dec (len l - 1) i); [lia|]. pose proof (S1 _ _ Eh ltac:(lia)) as C. rewrite Q in C. congruence. }
  exists (2 * len l - (i + 1)). split; [lia|]. split; auto. split; auto. split.
  - intros p h Eh Hp. eapply S1; eauto. lia.
  - intros Hm. assert (H : forall n p h, Z.to_nat (i - p) = n -> p <= i -> zn (history cs) p = Some h -> leb (maxdij F h) dcut = true).
    { induction n as [|n IH]; intros p h Hn Hp Eh.
      - assert (p = i) by lia. subst p. destruct (S2 ltac:(apply zn_range in Eh; lia)) as (g & Eg & Hg). congruence.
      - pose proof (zn_range _ _ _ Eh). destruct (zn_ex (history cs) (p + 1)) as (g & Eg); [lia|]. pose proof (IH (p + 1) g ltac:(lia) ltac:(lia) Eg) as Hg.
        destruct (Z_lt_le_dec p (len l)) as [Hlt|Hge]; [destruct (cluster_zero l cs _ _ E Eh Hlt) as (-> & _); exact H0|].
        destruct (cluster_cases l) as [(E' & _)|(vs & cs0 & act0 & cs' & Fp & E' & Lv & L0 & Li & I0 & T & I)]; [congruence|]. assert (cs' = cs) by congruence. subst cs'.
        pose proof (i_max _ _ _ _ _ _ _ _ _ _ I _ _ _ (sk_zn _ _ _ Eh) (sk_zn _ _ _ Eg) ltac:(lia)) as Hx. cbn in Hx. rewrite Hx in Hg. apply Hm in Hg. tauto. }
    intros p h Eh Hp. pose proof (H _ p h eq_refl ltac:(lia) Eh) as Hmx. split; auto.
    destruct (Z_lt_le_dec p (len l)) as [Hlt|Hge]; [destruct (cluster_zero l cs _ _ E Eh Hlt) as (_ & ->); exact H0|].
    destruct (Z.eq_dec (len l) 0); [apply zn_range in Eh; lia|]. destruct (zn_ex (history cs) (p - 1)) as (g & Eg); [apply zn_range in Eh; lia|].
    destruct (cluster_cases l) as [(E' & _)|(vs & cs0 & act0 & cs' & Fp & E' & Lv & L0 & Li & I0 & T & I)]; [congruence|]. assert (cs' = cs) by congruence. subst cs'.
    pose proof (i_max _ _ _ _ _ _ _ _ _ _ I (p - 1) (ent_of F g) (ent_of F h) (sk_zn _ _ _ Eg)) as Hx. replace (p - 1 + 1) with p in Hx by lia. specialize (Hx (sk_zn _ _ _ Eh) ltac:(lia)). cbn in Hx. rewrite Hx in Hmx. apply Hm in Hmx. tauto.
Qed.
End Props.

(* ---- float64 satisfies what is asked of the order ---- *)
From Flocq Require Import IEEE754.BinarySingleNaN.
From Verif Require Import F64.
(* math.Max (Go 1.22 math/dim.go:39-59) *)
Definition goMax (x y : f64) : f64 :=
  if feq x (B754_infinity false) || feq y (B754_infinity false) then B754_infinity false
  else if is_nanb x || is_nanb y then B754_nan
  else if feq x (B754_zero false) && feq x y then (if Bsign x then y else x)
  else if fgt x y then x else y.
Lemma fkey_max x a : fkey x = Some a -> a <= 2 ^ 2100.
Proof.
  assert (P : 0 < 2 ^ 2100) by (apply Z.pow_pos_nonneg; lia). destruct x as [s|s| |s m e H]; cbn [fkey]; intros E; [| |discriminate|]; apply (f_equal (fun o => match o with Some z => z | None => 0 end)) in E; cbn beta iota in E; rewrite <- E.
  - lia.
  - destruct s; lia.
  - pose proof (key_fin_bound m e H). destruct s; lia.
Qed.
Lemma goMax_cases x y : (goMax x y = finf /\ True) \/ (goMax x y = fnan /\ True) \/ exists a b, fkey x = Some a /\ fkey y = Some b /\ fkey (goMax x y) = Some (Z.max a b).
Proof.
  unfold goMax. destruct (feq x _ || feq y _); [auto|]. unfold is_nanb. destruct (fkey x) as [a|] eqn:Ex; [|auto]. destruct (fkey y) as [b|] eqn:Ey; [|auto]. cbn [orb]. right. right. exists a, b. split; auto. split; auto.
  destruct (feq x _ && feq x y) eqn:Ef.
  - apply andb_true_iff in Ef. destruct Ef as (_ & Ef). apply feq_true in Ef. destruct Ef as (c & E1 & E2). assert (a = c) by congruence. assert (b = c) by congruence. subst. rewrite Z.max_id. destruct (Bsign x); auto.
  - change (fgt x y) with (flt y x). rewrite flt_key, Ex, Ey. cbn [opt2]. destruct (Z.ltb_spec b a); [rewrite Ex; f_equal; lia|rewrite Ey; f_equal; lia].
Qed.
Lemma f64_kt_ok : kt_ok f64 flt fge goMax.
Proof.
  intros d m c. rewrite flt_key. destruct (goMax_cases d m) as [(E & _)|[(E & _)|(a & b & Ea & Eb & E)]].
  - rewrite E. destruct (fkey c) as [z|] eqn:Ec; [|discriminate]. apply fkey_max in Ec. change (fkey finf) with (Some (2 ^ 2100)). cbn [opt2]. intros H. apply Z.ltb_lt in H. lia.
  - rewrite E. discriminate.
  - rewrite E. unfold fge. change (Bleb c d) with (fle c d). rewrite flt_key, fle_key, Ea, Eb. destruct (fkey c) as [z|]; [|discriminate]. cbn [opt2]. intros H. apply Z.ltb_lt in H. split; [apply Z.ltb_lt|apply Z.leb_gt]; lia.
Qed.
Lemma f64_order_ok : order_ok f64 flt.
Proof. split; [exact flt_irrefl|exact flt_trans]. Qed.
Lemma f64_max_le : forall c, flt c finf = true -> forall d m, fle (goMax d m) c = true -> fle d c = true /\ fle m c = true.
Proof.
  intros c Hc d m. rewrite !fle_key. apply flt_true in Hc. destruct Hc as (z & y & Ez & Ey & L). rewrite Ez. change (fkey finf) with (Some (2 ^ 2100)) in Ey. assert (y = 2 ^ 2100) by congruence. subst y. clear Ey. destruct (goMax_cases d m) as [(E & _)|[(E & _)|(a & b & Ea & Eb & E)]].
  - rewrite E. change (fkey finf) with (Some (2 ^ 2100)). cbn [opt2]. intros H. apply Z.leb_le in H. lia.
  - rewrite E. discriminate.
  - rewrite E, Ea, Eb. cbn [opt2]. rewrite !Z.leb_le. lia.
Qed.
(* so on float64, for any prep, recombination, scale and distance: the Kt reader and the cut *)
Theorem C31_float64 : forall J prep recomb scale dist l cs, newClusterSequence J f64 prep recomb scale dist flt goMax fzero l = Ok (Some cs) ->
  (exists bj css, Forall2 (fun j c => constituents J f64 cs j = Ok c) bj css /\ Permutation (map (hidx J) (concat css)) (zseq (length l)) /\
    (forall dcut, inclusiveJets J f64 flt fge Kt cs scale dcut = Ok (filter (fun j => fge (scale (jv J j)) dcut) bj)) /\
    (forall pt dcut, inclusiveJets J f64 flt fge Generic cs pt dcut = Ok (filter (fun j => fge (pt (jv J j)) dcut) bj))) /\
  (forall dcut, fle fzero dcut = true -> flt dcut finf = true -> exists k, 0 <= k <= len l /\ exclusiveJets J f64 fle cs dcut = exclusiveJetsUpTo J f64 cs k /\
    forall i h, zn (history J f64 cs) i = Some h -> (i < 2 * len l - k -> fle (hdij f64 h) dcut = true) /\ (2 * len l - k <= i -> fle (maxdij f64 h) dcut = false)).
Proof.
  intros J prep recomb scale dist l cs E. split.
  - destruct (C31_partition J f64 prep recomb scale dist flt fge goMax fzero l cs E) as (bj & css & H1 & H2 & _ & H3 & _ & H4). exists bj, css. split; auto. split; auto. split; auto. apply H4, f64_kt_ok.
  - intros dcut H0 Hf. destruct (C32_dcut J f64 prep recomb scale dist flt fge goMax fzero fle l cs dcut E H0) as (k & R & _ & Ek & H1 & H2). exists k. split; auto. split; auto. intros i h Eh. split; intros Hi; [|eauto].
    apply (H2 (f64_max_le dcut Hf) _ _ Eh Hi).
Qed.

(* ---- a concrete clustering: weights on a line, merged with their weighted centre, distances in integers ---- *)
Definition xprep (p : Z * Z) : option (Z * Z) := if fst p <? 0 then None else Some p.
Definition xrec (a b : Z * Z) : option (Z * Z) := Some (fst a + fst b, (fst a * snd a + fst b * snd b) / (fst a + fst b)).
Definition xscale (a : Z * Z) : Z := fst a * fst a * 4.
Definition xdist (a b : Z * Z) : Z := Z.min (fst a * fst a) (fst b * fst b) * ((snd a - snd b) * (snd a - snd b)).
Definition xcl := newClusterSequence (Z * Z) Z xprep xrec xscale xdist Z.ltb Z.max 0.
Definition xin : list (Z * Z) := [(10, 0); (3, 1); (8, 9); (2, 10); (1, 30)].
Example C31_example : exists cs, xcl xin = Ok (Some cs) /\ map (fun h => (parent1 Z h, parent2 Z h)) (history (Z * Z) Z cs) = [(-2,-2);(-2,-2);(-2,-2);(-2,-2);(-2,-2);(4,-1);(2,3);(0,1);(6,-1);(7,-1)] /\
  inclusiveJets (Z * Z) Z Z.ltb Z.geb Kt cs xscale 100 = Ok [{| jv := (13, 0); hidx := 7 |}; {| jv := (10, 9); hidx := 6 |}] /\
  constituents (Z * Z) Z cs {| jv := (10, 9); hidx := 6 |} = Ok [{| jv := (8, 9); hidx := 2 |}; {| jv := (2, 10); hidx := 3 |}] /\
  exclusiveJetsUpTo (Z * Z) Z cs 3 = Ok (Some [{| jv := (10, 0); hidx := 0 |}; {| jv := (3, 1); hidx := 1 |}; {| jv := (10, 9); hidx := 6 |}]) /\
  exclusiveJets (Z * Z) Z Z.leb cs 9 = exclusiveJetsUpTo (Z * Z) Z cs 2 /\ exclusiveJetsUpTo (Z * Z) Z cs 6 = Ok None.
Proof. eexists. split; [vm_compute; reflexivity|]. vm_compute. auto 10. Qed.
Example C31_example_error : xcl [(1, 1); (-1, 2)] = Ok None.
Proof. reflexivity. Qed.
Example C31_example_order : order_ok Z Z.ltb /\ kt_ok Z Z.ltb Z.geb Z.max /\ (forall a b c, xrec a b = Some c -> fst c = fst a + fst b).
Proof.
  split; [split; intros; rewrite ?Z.ltb_lt, ?Z.ltb_ge in *; lia|]. split; [intros d m c; rewrite Z.geb_leb, !Z.ltb_lt, Z.leb_gt; lia|]. intros a b c E. injection E as <-. reflexivity.
Qed.
(* Cambridge: all beam distances equal, which is what the shortcut of InclusiveJets needs *)
Example C31_example_cambridge : cambridge_ok (Z * Z) Z (fun _ => 4) (fun a b => (snd a - snd b) * (snd a - snd b)) Z.ltb.
Proof. split; [apply C31_example_order|]. split; [now exists 4|]. intros. ring. Qed.
(* a negative number of jets is not an error but a panic: make with a negative capacity *)
Theorem C32_negative_refuted : exists cs, xcl xin = Ok (Some cs) /\ exclusiveJetsUpTo (Z * Z) Z cs (-1) = Panic.
Proof. eexists. split; [vm_compute; reflexivity|]. vm_compute. reflexivity. Qed.
(* a negative cut in distance is reported as "too many exclusive jets" *)
Example C32_example_negative_cut : exists cs, xcl xin = Ok (Some cs) /\ exclusiveJets (Z * Z) Z Z.leb cs (-1) = Ok None.
Proof. eexists. split; [vm_compute; reflexivity|]. vm_compute. reflexivity. Qed.

Print Assumptions C31_history.
Print Assumptions C31_partition.
Print Assumptions C31_minimal.
Print Assumptions C31_sum.
Print Assumptions C31_float64.
Print Assumptions C32_exclusive.
Print Assumptions C32_reject.
Print Assumptions C32_dcut.
Print Assumptions C32_negative_refuted.
