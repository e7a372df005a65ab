(* Invariants of the clustering loop. *)
From Coq Require Import ZArith List Lia Bool Permutation.
From Verif Require Import GoLib FastjetModel.
Import ListNotations.
Local Open Scope Z_scope.

Definition zn {A} (l : list A) (i : Z) : option A := if i <? 0 then None else nth_error l (Z.to_nat i).
Lemma zat_zn {A} (l : list A) i : zat l i = match zn l i with Some x => Ok x | None => Panic end.
Proof. unfold zat, zn. destruct (i <? 0); reflexivity. Qed.
Lemma zn_range {A} (l : list A) i x : zn l i = Some x -> 0 <= i < len l.
Proof. unfold zn, len. destruct (Z.ltb_spec i 0); [discriminate|]. intros E. assert (nth_error l (Z.to_nat i) <> None) by congruence. apply nth_error_Some in H0. lia. Qed.
Lemma zn_ex {A} (l : list A) i : 0 <= i < len l -> exists x, zn l i = Some x.
Proof. unfold zn, len. intros H. destruct (Z.ltb_spec i 0); [lia|]. destruct (nth_error l (Z.to_nat i)) eqn:E; eauto. apply nth_error_None in E. lia. Qed.
Lemma zn_app {A} (l m : list A) i : zn (l ++ m) i = if i <? len l then zn l i else zn m (i - len l).
Proof.
  unfold zn, len. destruct (Z.ltb_spec i 0).
  - destruct (Z.ltb_spec i (Z.of_nat (length l))); [reflexivity|lia].
  - destruct (Z.ltb_spec i (Z.of_nat (length l))).
    + apply nth_error_app1. lia.
    + destruct (Z.ltb_spec (i - Z.of_nat (length l)) 0); [lia|]. rewrite nth_error_app2 by lia. f_equal. lia.
Qed.
Lemma zn_app1 {A} (l m : list A) i x : zn l i = Some x -> zn (l ++ m) i = Some x.
Proof. intros H. rewrite zn_app. pose proof (zn_range _ _ _ H). destruct (Z.ltb_spec i (len l)); [auto|lia]. Qed.
Lemma zn_last {A} (l : list A) x : zn (l ++ [x]) (len l) = Some x.
Proof. rewrite zn_app. destruct (Z.ltb_spec (len l) (len l)); [lia|]. rewrite Z.sub_diag. reflexivity. Qed.
Lemma zn_snoc {A} (l : list A) x i y : zn (l ++ [x]) i = Some y -> zn l i = Some y \/ (i = len l /\ y = x).
Proof.
  rewrite zn_app. destruct (Z.ltb_spec i (len l)); auto. intros E. pose proof (zn_range _ _ _ E) as R. change (len [x]) with 1 in R.
  assert (i = len l) by lia. subst. rewrite Z.sub_diag in E. cbn in E. injection E as <-. auto.
Qed.
Lemma zn_map {A B} (f : A -> B) l i : zn (map f l) i = option_map f (zn l i).
Proof. unfold zn. destruct (i <? 0); [reflexivity|]. apply nth_error_map. Qed.
Lemma zn_In {A} (l : list A) i x : zn l i = Some x -> In x l.
Proof. unfold zn. destruct (i <? 0); [discriminate|]. apply nth_error_In. Qed.
Lemma In_zn {A} (l : list A) x : In x l -> exists i, zn l i = Some x.
Proof. intros H. apply In_nth_error in H. destruct H as (n & E). exists (Z.of_nat n). unfold zn. destruct (Z.ltb_spec (Z.of_nat n) 0); [lia|]. now rewrite Nat2Z.id. Qed.
Lemma len_app {A} (l m : list A) : len (l ++ m) = len l + len m.
Proof. unfold len. rewrite app_length. lia. Qed.
Lemma len_map {A B} (f : A -> B) l : len (map f l) = len l.
Proof. unfold len. now rewrite map_length. Qed.
Lemma len_nonneg {A} (l : list A) : 0 <= len l.
Proof. unfold len. lia. Qed.
Lemma len_cons {A} (x : A) l : len (x :: l) = 1 + len l.
Proof. unfold len. cbn [length]. lia. Qed.
Definition zseq (n : nat) : list Z := map Z.of_nat (seq 0 n).

Section Proofs.
Variables (J F : Type) (prep : J -> option J) (recomb : J -> J -> option J) (scale : J -> F) (dist : J -> J -> F)
  (ltb geb : F -> F -> bool) (fmax : F -> F -> F) (fzero : F).
Notation jet := (jet J). Notation hist := (hist F). Notation cseq := (cseq J F).
Notation jv := (jv J). Notation hidx := (hidx J).
Notation jets := (jets J F). Notation history := (history J F). Notation initn := (initn J F).

(* a history entry without its child *)
Record ent := { e1 : Z; e2 : Z; ej : Z; ed : F; em : F }.
Definition ent_of (h : hist) : ent := {| e1 := parent1 F h; e2 := parent2 F h; ej := hjet F h; ed := hdij F h; em := maxdij F h |}.
Definition sk (cs : cseq) : list ent := map ent_of (history cs).

Lemma zupd_child h i c : 0 <= i < len h -> exists h', zupd h i (set_child F c) = Ok h' /\ map ent_of h' = map ent_of h.
Proof.
  intros H. unfold zupd, len in *. destruct (Z.ltb_spec i 0); [lia|]. destruct (upd_nth_ok h (Z.to_nat i) (set_child F c)) as (h' & E & L); [lia|].
  exists h'. split; auto. apply upd_nth_nth in E. destruct E as (_ & E). apply nth_ext with (d := ent_of (Build_hist F 0 0 0 0 fzero fzero)) (d' := ent_of (Build_hist F 0 0 0 0 fzero fzero)).
  - now rewrite !map_length.
  - intros n Hn. rewrite !map_nth. rewrite map_length in Hn. specialize (E n).
    destruct (nth_error h' n) eqn:E1; [|apply nth_error_None in E1; lia]. rewrite (nth_error_nth _ _ _ E1).
    destruct (nth_error h n) eqn:E2; [|apply nth_error_None in E2; lia]. rewrite (nth_error_nth _ _ _ E2).
    destruct (Nat.eqb n (Z.to_nat i)); cbn in E; injection E as ->; reflexivity.
Qed.
Definition last_max (es : list ent) : F := match zn es (len es - 1) with Some e => em e | None => fzero end.
Lemma addStep_ok cs js i1 i2 idx d : 0 < len (history cs) -> 0 <= i1 < len (history cs) -> i2 < len (history cs) ->
  (if idx =? invalidIndex then js = jets cs else exists j, zn (jets cs) idx = Some j /\ hidx j = len (history cs) /\ js = jets cs) ->
  exists cs', addStepToHistory J F fmax cs (len (history cs)) i1 i2 idx d = Ok (Some cs') /\ initn cs' = initn cs /\ jets cs' = js /\
    sk cs' = sk cs ++ [{| e1 := i1; e2 := i2; ej := idx; ed := d; em := fmax d (last_max (sk cs)) |}].
Proof.
  intros H0 H1 H2 Hj. unfold addStepToHistory. destruct (zn_ex (history cs) (len (history cs) - 1)) as (la & Ela); [lia|]. rewrite zat_zn, Ela. cbn [rbind].
  rewrite len_app. change (len [_]) with 1. replace (len (history cs) + 1 - 1) with (len (history cs)) by lia. rewrite Z.eqb_refl. cbn [negb].
  set (nh := {| parent1 := i1; parent2 := i2; child := invalidIndex; hjet := idx; hdij := d; maxdij := fmax d (maxdij F la) |}).
  destruct (zupd_child (history cs ++ [nh]) i1 (len (history cs))) as (h1 & E1 & M1); [rewrite len_app; cbn; lia|]. rewrite E1. cbn [rbind].
  assert (exists h2, (if 0 <=? i2 then zupd h1 i2 (set_child F (len (history cs))) else Ok h1) = Ok h2 /\ map ent_of h2 = map ent_of h1) as (h2 & E2 & M2).
  { destruct (Z.leb_spec 0 i2); [|eauto]. apply zupd_child. rewrite <- (len_map ent_of h1), M1, len_map, len_app. cbn. lia. }
  rewrite E2. cbn [rbind].
  assert (exists js', (if idx =? invalidIndex then Ok (jets cs) else zupd (jets cs) idx (set_hidx J (len (history cs)))) = Ok js' /\ js' = js) as (js' & E3 & M3).
  { destruct (Z.eqb_spec idx invalidIndex); [subst; eauto|]. destruct Hj as (j & Ej & Hj & ->). pose proof (zn_range _ _ _ Ej) as R. unfold zupd. destruct (Z.ltb_spec idx 0); [lia|].
    destruct (upd_nth_ok (jets cs) (Z.to_nat idx) (set_hidx J (len (history cs)))) as (js' & E & L); [unfold len in R; lia|]. exists js'. split; auto.
    apply upd_nth_nth in E. destruct E as (_ & E). apply nth_ext with (d := j) (d' := j); auto. intros i0 Hn. specialize (E i0).
    destruct (nth_error js' i0) eqn:Ea; [|apply nth_error_None in Ea; lia]. rewrite (nth_error_nth _ _ _ Ea).
    destruct (nth_error (jets cs) i0) eqn:Eb; [|apply nth_error_None in Eb; lia]. rewrite (nth_error_nth _ _ _ Eb).
    destruct (Nat.eqb_spec i0 (Z.to_nat idx)) as [->|]; cbn in E; [|congruence]. unfold zn in Ej. destruct (Z.ltb_spec idx 0); [lia|]. rewrite Eb in Ej. injection Ej as ->.
    injection E as ->. unfold set_hidx. rewrite <- Hj. destruct j; reflexivity. }
  rewrite E3. cbn [rbind]. eexists. split; [reflexivity|]. cbn. split; auto. split; auto. unfold sk. cbn. rewrite M2, M1, map_app. cbn [map]. unfold ent_of at 2, nh. cbn.
  unfold last_max. rewrite len_map, zn_map, Ela. reflexivity.
Qed.

(* the particles under a history entry *)
Inductive leaves (es : list ent) : Z -> list Z -> Prop :=
| lv0 h e : zn es h = Some e -> e1 e = inexistentParent -> leaves es h [h]
| lv2 h e L1 L2 : zn es h = Some e -> 0 <= e1 e < h -> 0 <= e2 e < h -> leaves es (e1 e) L1 -> leaves es (e2 e) L2 -> leaves es h (L1 ++ L2).
Lemma leaves_app es x h L : leaves es h L -> leaves (es ++ x) h L.
Proof. induction 1; [eapply lv0; eauto using zn_app1|eapply lv2; eauto using zn_app1]. Qed.
Lemma leaves_ne es h L : leaves es h L -> L <> [].
Proof. induction 1; [discriminate|]. destruct L1; [congruence|discriminate]. Qed.
Definition is_beam (e : ent) : bool := e2 e =? beamJetIndex.
Definition beams (es : list ent) : list Z := map e1 (filter is_beam es).
Lemma beams_app a b : beams (a ++ b) = beams a ++ beams b.
Proof. unfold beams. now rewrite filter_app, map_app. Qed.

(* what every entry of the history looks like *)
Definition entry_ok (n : Z) (js : list jet) (i : Z) (e : ent) : Prop :=
  (0 <= i < n /\ e1 e = inexistentParent /\ e2 e = inexistentParent /\ ej e = i) \/
  (n <= i /\ 0 <= e1 e < e2 e /\ e2 e < i /\ 0 <= ej e /\
    exists ja jb jk, hidx ja = e1 e /\ hidx jb = e2 e /\ zn js (ej e) = Some jk /\ In ja js /\ In jb js /\
      ((recomb (jv ja) (jv jb) = Some (jv jk) /\ ed e = dist (jv ja) (jv jb)) \/ (recomb (jv jb) (jv ja) = Some (jv jk) /\ ed e = dist (jv jb) (jv ja)))) \/
  (n <= i /\ 0 <= e1 e < i /\ e2 e = beamJetIndex /\ ej e = invalidIndex /\ exists ja, hidx ja = e1 e /\ In ja js /\ ed e = scale (jv ja)).
(* history indices in use at a point of the clustering: entries with a jet that no entry has as a parent *)
Definition live (es : list ent) (h : Z) : Prop := (exists e, zn es h = Some e /\ ej e <> invalidIndex) /\ forall e, In e es -> e1 e <> h /\ e2 e <> h.

Record Inv (vs : list J) (js : list jet) (es : list ent) (act : list Z) : Prop := {
  i_len : len es + len act = 2 * len vs;
  i_orig : forall i v, zn vs i = Some v -> zn js i = Some {| FastjetModel.jv := v; FastjetModel.hidx := i |};
  i_ent : forall i e, zn es i = Some e -> entry_ok (len vs) js i e;
  i_jets : forall k j, zn js k = Some j -> exists e, zn es (hidx j) = Some e /\ ej e = k;
  i_hj : forall i e, zn es i = Some e -> ej e <> invalidIndex -> exists j, zn js (ej e) = Some j /\ hidx j = i;
  i_act : NoDup act;
  i_live : exists hs, Forall2 (fun k h => exists j, zn js k = Some j /\ hidx j = h) act hs /\ (forall h, In h hs <-> live es h) /\
    exists La Ld, Forall2 (leaves es) hs La /\ Forall2 (leaves es) (beams es) Ld /\ Permutation (concat La ++ concat Ld) (zseq (length vs));
  i_max : forall i e e', zn es i = Some e -> zn es (i + 1) = Some e' -> len vs <= i + 1 -> em e' = fmax (ed e') (em e);
  i_n : len vs <= len es
}.

Definition nom (v : J) (h : Z) : jet := {| FastjetModel.jv := v; FastjetModel.hidx := h |}.
Lemma Inv_hidx_inj vs js es act k1 k2 j1 j2 : Inv vs js es act -> zn js k1 = Some j1 -> zn js k2 = Some j2 -> hidx j1 = hidx j2 -> k1 = k2.
Proof. intros I H1 H2 E. destruct (i_jets _ _ _ _ I _ _ H1) as (a & A1 & A2). destruct (i_jets _ _ _ _ I _ _ H2) as (b & B1 & B2). congruence. Qed.
Lemma Inv_inj' vs js es act j1 j2 : Inv vs js es act -> In j1 js -> In j2 js -> hidx j1 = hidx j2 -> j1 = j2.
Proof.
  intros I H1 H2 E. apply In_zn in H1, H2. destruct H1 as (k1 & H1). destruct H2 as (k2 & H2). assert (k1 = k2) by (eapply Inv_hidx_inj; eauto). congruence.
Qed.
Lemma entry_ok_mono n js x i e : entry_ok n js i e -> entry_ok n (js ++ x) i e.
Proof.
  intros [H|[(H0 & H1 & H2 & H3 & ja & jb & jk & Ha & Hb & Hk & Ia & Ib & R)|(H0 & H1 & H2 & H3 & ja & Ha & Ia & R)]]; [left; exact H|right; left|right; right].
  - repeat split; try lia. exists ja, jb, jk. split; auto. split; auto. split; [now apply zn_app1|]. split; [apply in_or_app; auto|]. split; [apply in_or_app; auto|]. exact R.
  - repeat split; try lia. exists ja. split; auto. split; [apply in_or_app; auto|]. exact R.
Qed.
Lemma concat_perm {A} (a b : list (list A)) : Permutation a b -> Permutation (concat a) (concat b).
Proof.
  induction 1 as [|x l l' H IH|x y l|l l' l'' H1 IH1 H2 IH2]; cbn; auto.
  - now apply Permutation_app_head.
  - rewrite !app_assoc. apply Permutation_app_tail. apply Permutation_app_comm.
  - eapply Permutation_trans; eauto.
Qed.
Lemma Forall2_perm {A B} (R : A -> B -> Prop) l l' m : Permutation l l' -> Forall2 R l m -> exists m', Permutation m m' /\ Forall2 R l' m'.
Proof. intros P Q. destruct (Permutation_Forall2 P Q) as (m' & P' & Q'). eauto. Qed.

Lemma live_snoc es n js e h : (forall i e, zn es i = Some e -> entry_ok n js i e) ->
  live (es ++ [e]) h <-> (h = len es /\ ej e <> invalidIndex /\ (forall x, In x es -> e1 x <> h /\ e2 x <> h) /\ e1 e <> h /\ e2 e <> h) \/ (live es h /\ e1 e <> h /\ e2 e <> h).
Proof.
  intros He. unfold live. split.
  - intros ((x & Ex & Hx) & Hu). apply zn_snoc in Ex. destruct Ex as [Ex|(-> & ->)].
    + right. split; [split; [exists x; auto|intros y Hy; apply Hu; apply in_or_app; auto]|]. apply Hu. apply in_or_app. cbn. auto.
    + left. split; auto. split; auto. split; [intros x Hx2; apply Hu; apply in_or_app; auto|]. apply Hu. apply in_or_app. cbn. auto.
  - intros [(-> & Hx & Hu & Hv)|(((x & Ex & Hx) & Hu) & Hv)].
    + split; [exists e; split; [apply zn_last|auto]|]. intros y Hy. apply in_app_or in Hy. destruct Hy as [Hy|[<-|[]]]; auto.
    + split; [exists x; split; [now apply zn_app1|auto]|]. intros y Hy. apply in_app_or in Hy. destruct Hy as [Hy|[<-|[]]]; auto.
Qed.
Lemma entry_parents_lt n js es i e : (forall i e, zn es i = Some e -> entry_ok n js i e) -> zn es i = Some e -> e1 e < len es /\ e2 e < len es.
Proof.
  intros He Ez. pose proof (zn_range _ _ _ Ez) as R. specialize (He _ _ Ez). unfold inexistentParent, beamJetIndex in *.
  destruct He as [(A & B & C & D)|[(A & B & C & D)|(A & B & C & D)]]; unfold inexistentParent, beamJetIndex in *; lia.
Qed.
Lemma leaves_new es e L1 L2 : 0 <= e1 e < len es -> 0 <= e2 e < len es -> leaves es (e1 e) L1 -> leaves es (e2 e) L2 -> leaves (es ++ [e]) (len es) (L1 ++ L2).
Proof. intros. eapply lv2; [apply zn_last|auto|auto|apply leaves_app; auto|apply leaves_app; auto]. Qed.
Lemma Forall2_impl' {A B} (P Q : A -> B -> Prop) l m : (forall a b, P a b -> Q a b) -> Forall2 P l m -> Forall2 Q l m.
Proof. intros H. induction 1; constructor; auto. Qed.
Lemma Forall2_In_l {A B} (R : A -> B -> Prop) l m a : Forall2 R l m -> In a l -> exists b, In b m /\ R a b.
Proof. induction 1; intros I; [contradiction|]. destruct I as [->|I]; [exists y; cbn; auto|]. destruct (IHForall2 I) as (b & Ib & Rb). exists b. cbn. auto. Qed.
Lemma Forall2_In_r {A B} (R : A -> B -> Prop) l m b : Forall2 R l m -> In b m -> exists a, In a l /\ R a b.
Proof. induction 1; intros I; [contradiction|]. destruct I as [->|I]; [exists x; cbn; auto|]. destruct (IHForall2 I) as (a & Ia & Ra). exists a. cbn. auto. Qed.

Lemma last_max_eq es e : zn es (len es - 1) = Some e -> last_max es = em e.
Proof. intros E. unfold last_max. now rewrite E. Qed.
Lemma max_snoc n es d x : n <= len es -> em x = fmax (ed x) (last_max es) -> ed x = d -> 0 < len es ->
  (forall i e e', zn es i = Some e -> zn es (i + 1) = Some e' -> n <= i + 1 -> em e' = fmax (ed e') (em e)) ->
  (forall i e e', zn (es ++ [x]) i = Some e -> zn (es ++ [x]) (i + 1) = Some e' -> n <= i + 1 -> em e' = fmax (ed e') (em e)).
Proof.
  intros Hn Hm Hd H0 H i e e' E E' Hi. apply zn_snoc in E'. destruct E' as [E'|(Ei & ->)].
  - apply zn_snoc in E. destruct E as [E|(-> & ->)]; [eauto|]. apply zn_range in E'. lia.
  - apply zn_snoc in E. destruct E as [E|(-> & ->)]; [|lia]. rewrite Hm. f_equal. apply last_max_eq. replace (len es - 1) with i by lia. exact E.
Qed.
Section Step.
Variables (vs : list J) (js : list jet) (es : list ent) (act : list Z).
Hypothesis (I : Inv vs js es act) (N0 : 0 < len vs).
Lemma act_jet k : In k act -> exists j, zn js k = Some j /\ 0 <= hidx j < len es /\ live es (hidx j).
Proof.
  intros H. destruct (i_live _ _ _ _ I) as (hs & Hh & Hl & _). destruct (Forall2_In_l _ _ _ _ Hh H) as (h & Ih & j & Ej & <-).
  exists j. split; auto. split; [destruct (i_jets _ _ _ _ I _ _ Ej) as (e & Ee & _); eapply zn_range; eauto|]. now apply Hl.
Qed.
(* merging two active jets *)
Lemma Inv_merge a b rest ja jb kv d act' : Permutation act (a :: b :: rest) -> zn js a = Some ja -> zn js b = Some jb -> recomb (jv ja) (jv jb) = Some kv -> d = dist (jv ja) (jv jb) ->
  Permutation act' (len js :: rest) ->
  Inv vs (js ++ [nom kv (len es)]) (es ++ [{| e1 := Z.min (hidx ja) (hidx jb); e2 := Z.max (hidx ja) (hidx jb); ej := len js; ed := d; em := fmax d (last_max es) |}]) act'.
Proof.
  intros P Ea Eb Er Ed P'. set (x := {| e1 := _ |}). pose proof (zn_range _ _ _ Ea) as Ra. pose proof (zn_range _ _ _ Eb) as Rb.
  assert (Na : NoDup (a :: b :: rest)) by (eapply Permutation_NoDup; [exact P|apply (i_act _ _ _ _ I)]).
  assert (Hab : hidx ja <> hidx jb). { intros E. assert (a = b) by (eapply Inv_hidx_inj; eauto). subst. inversion Na as [|? ? H]; apply H; cbn; auto. }
  destruct (act_jet a) as (ja' & Ea' & Rja & Lva); [eapply Permutation_in; [symmetry; exact P|cbn; auto]|]. assert (ja' = ja) by congruence. subst ja'.
  destruct (act_jet b) as (jb' & Eb' & Rjb & Lvb); [eapply Permutation_in; [symmetry; exact P|cbn; auto]|]. assert (jb' = jb) by congruence. subst jb'.
  assert (Lr : forall k, In k (a :: b :: rest) -> k < len js). { intros k Hk. destruct (act_jet k) as (j & Ej & _); [eapply Permutation_in; [symmetry; exact P|auto]|]. apply zn_range in Ej. lia. }
  constructor.
  - rewrite len_app. change (len [x]) with 1. apply Permutation_length in P, P'. pose proof (i_len _ _ _ _ I) as HL. unfold len in *. cbn [length] in *. lia.
  - intros i v Ev. apply zn_app1. eapply i_orig; eauto.
  - intros i e Ee. apply zn_snoc in Ee. destruct Ee as [Ee|(-> & ->)]; [apply entry_ok_mono; eapply i_ent; eauto|].
    right; left. pose proof (i_n _ _ _ _ I). unfold x. cbn [e1 e2 ej ed]. repeat split; try lia.
    destruct (Z.lt_total (hidx ja) (hidx jb)) as [Hlt|[Heq|Hlt]]; [|congruence|].
    + exists ja, jb, (nom kv (len es)). rewrite zn_last. repeat split; try lia; try (apply in_or_app; left; eapply zn_In; eauto). left. auto.
    + exists jb, ja, (nom kv (len es)). rewrite zn_last. repeat split; try lia; try (apply in_or_app; left; eapply zn_In; eauto). right. auto.
  - intros k j Ej. apply zn_snoc in Ej. destruct Ej as [Ej|(-> & ->)].
    + destruct (i_jets _ _ _ _ I _ _ Ej) as (e & Ee & He). exists e. split; auto. now apply zn_app1.
    + exists x. split; [apply zn_last|reflexivity].
  - intros i e Ee He. apply zn_snoc in Ee. destruct Ee as [Ee|(-> & ->)].
    + destruct (i_hj _ _ _ _ I _ _ Ee He) as (j & Ej & Hj). exists j. split; auto. now apply zn_app1.
    + exists (nom kv (len es)). split; [apply zn_last|reflexivity].
  - eapply Permutation_NoDup; [symmetry; exact P'|]. inversion Na as [|? ? Na1 Na2]; subst. inversion Na2 as [|? ? Na3 Na4]; subst. constructor; auto.
    intros Hk. specialize (Lr (len js) ltac:(cbn; auto)). lia.
  - destruct (i_live _ _ _ _ I) as (hs & Hh & Hl & La & Ld & HLa & HLd & HP).
    destruct (Forall2_perm _ _ _ _ P Hh) as (hs' & Ph & Hh'). inversion Hh' as [|? ? ? hs1 (j1 & Ej1 & Hj1) Hh1]; subst. inversion Hh1 as [|? ? ? hs2 (j2 & Ej2 & Hj2) Hh2]; subst.
    assert (j1 = ja) by congruence. assert (j2 = jb) by congruence. subst j1 j2.
    destruct (Forall2_perm _ _ _ _ Ph HLa) as (La' & PL & HLa'). inversion HLa' as [|? L1 ? La1 HL1 HLa1]; subst. inversion HLa1 as [|? L2 ? La2 HL2 HLa2]; subst.
    assert (Hn : Forall2 (fun k h => exists j, zn (js ++ [nom kv (len es)]) k = Some j /\ hidx j = h) (len js :: rest) (len es :: hs2)).
    { constructor; [exists (nom kv (len es)); split; [apply zn_last|reflexivity]|]. eapply Forall2_impl'; [|exact Hh2]. intros k h (j & Ej & Hj). exists j. split; auto. now apply zn_app1. }
    destruct (Forall2_perm _ _ _ _ (Permutation_sym P') Hn) as (hsn & Pn & Hnn). exists hsn. split; auto.
    assert (NDh : NoDup (hidx ja :: hidx jb :: hs2)).
    { assert (Hin : forall l m, Forall2 (fun k h => exists j, zn js k = Some j /\ hidx j = h) l m -> NoDup l -> NoDup m).
      { clear -I. intros l m Hf. induction Hf as [|k h l m (j & Ej & Hj) Hf IH]; intros Nd; [constructor|]. inversion Nd; subst. constructor; auto.
        intros Ih. destruct (Forall2_In_r _ _ _ _ Hf Ih) as (k' & Ik & j' & Ej' & Hj'). assert (k = k') by (eapply Inv_hidx_inj; eauto). congruence. }
      apply (Hin _ _ Hh' Na). }
    split.
    + intros h. assert (Eh : In h hsn <-> h = len es \/ In h hs2).
      { split; intros H; [apply (Permutation_in _ (Permutation_sym Pn)) in H; cbn in H; intuition congruence|]. apply (Permutation_in _ Pn). cbn. intuition congruence. }
      rewrite Eh, (live_snoc es (len vs) js x h (i_ent _ _ _ _ I)). unfold x. cbn [e1 e2 ej].
      assert (Eq : In h hs <-> h = hidx ja \/ h = hidx jb \/ In h hs2).
      { split; intros H; [apply (Permutation_in _ Ph) in H; cbn in H; intuition congruence|]. apply (Permutation_in _ (Permutation_sym Ph)). cbn. intuition congruence. }
      split.
      * intros [-> |H2].
        { left. split; auto. split; [unfold invalidIndex; pose proof (len_nonneg js); lia|]. split; [|lia].
          intros y Hy. apply In_zn in Hy. destruct Hy as (i & Ey). destruct (entry_parents_lt _ _ _ _ _ (i_ent _ _ _ _ I) Ey). lia. }
        { right. split; [apply Hl, Eq; auto|]. inversion NDh as [|? ? Q1 Q2]; subst. inversion Q2 as [|? ? Q3 Q4]; subst. cbn in Q1.
          assert (h <> hidx ja) by (intros ->; tauto). assert (h <> hidx jb) by (intros ->; tauto). lia. }
      * intros [(-> & _)|(Hv & Q1 & Q2)]; [auto|]. apply Hl, Eq in Hv. destruct Hv as [-> |[-> |Hv]]; [lia|lia|auto].
    + destruct (Forall2_perm (leaves (es ++ [x])) (len es :: hs2) hsn ((if hidx ja <? hidx jb then L1 ++ L2 else L2 ++ L1) :: La2)) as (Lan & PLn & HLan); auto.
      { constructor; [|eapply Forall2_impl'; [|exact HLa2]; intros; now apply leaves_app].
        destruct (Z.ltb_spec (hidx ja) (hidx jb)); (apply leaves_new; unfold x; cbn [e1 e2]; [lia|lia| |]);
          rewrite ?Z.min_l, ?Z.max_r by lia; rewrite ?Z.min_r, ?Z.max_l by lia; auto. }
      exists Lan, Ld. split; auto. split.
      { rewrite beams_app. unfold beams at 2. cbn [filter is_beam]. assert (Ex : is_beam x = false) by (unfold is_beam, x, beamJetIndex; cbn [e2]; apply Z.eqb_neq; lia). rewrite Ex, app_nil_r.
        eapply Forall2_impl'; [|exact HLd]. intros. now apply leaves_app. }
      eapply Permutation_trans; [|exact HP]. apply Permutation_app_tail. eapply Permutation_trans; [symmetry; apply concat_perm; exact PLn|].
      eapply Permutation_trans; [|symmetry; apply concat_perm; exact PL]. cbn [concat]. rewrite app_assoc. apply Permutation_app_tail. destruct (hidx ja <? hidx jb); [reflexivity|apply Permutation_app_comm].
  - pose proof (i_n _ _ _ _ I). apply (max_snoc (len vs) es d x); auto; [lia|]. apply (i_max _ _ _ _ I).
  - rewrite len_app. pose proof (i_n _ _ _ _ I). cbn. lia.
Qed.
(* merging an active jet with the beam *)
Lemma Inv_beam a rest ja d act' : Permutation act (a :: rest) -> zn js a = Some ja -> d = scale (jv ja) -> Permutation act' rest ->
  Inv vs js (es ++ [{| e1 := hidx ja; e2 := beamJetIndex; ej := invalidIndex; ed := d; em := fmax d (last_max es) |}]) act'.
Proof.
  intros P Ea Ed P'. set (x := {| e1 := _ |}). pose proof (zn_range _ _ _ Ea) as Ra.
  assert (Na : NoDup (a :: rest)) by (eapply Permutation_NoDup; [exact P|apply (i_act _ _ _ _ I)]).
  destruct (act_jet a) as (ja' & Ea' & Rja & Lva); [eapply Permutation_in; [symmetry; exact P|cbn; auto]|]. assert (ja' = ja) by congruence. subst ja'.
  constructor.
  - rewrite len_app. change (len [x]) with 1. apply Permutation_length in P, P'. pose proof (i_len _ _ _ _ I) as HL. unfold len in *. cbn [length] in *. lia.
  - intros i v Ev. eapply i_orig; eauto.
  - intros i e Ee. apply zn_snoc in Ee. destruct Ee as [Ee|(-> & ->)]; [eapply i_ent; eauto|].
    right; right. pose proof (i_n _ _ _ _ I). unfold x. cbn [e1 e2 ej ed]. repeat split; try lia. exists ja. repeat split; auto. eapply zn_In; eauto.
  - intros k j Ej. destruct (i_jets _ _ _ _ I _ _ Ej) as (e & Ee & He). exists e. split; auto. now apply zn_app1.
  - intros i e Ee He. apply zn_snoc in Ee. destruct Ee as [Ee|(-> & ->)].
    + destruct (i_hj _ _ _ _ I _ _ Ee He) as (j & Ej & Hj). exists j. auto.
    + exfalso. apply He. reflexivity.
  - eapply Permutation_NoDup; [symmetry; exact P'|]. now inversion Na.
  - destruct (i_live _ _ _ _ I) as (hs & Hh & Hl & La & Ld & HLa & HLd & HP).
    destruct (Forall2_perm _ _ _ _ P Hh) as (hs' & Ph & Hh'). inversion Hh' as [|? ? ? hs1 (j1 & Ej1 & Hj1) Hh1]; subst.
    assert (j1 = ja) by congruence. subst j1.
    destruct (Forall2_perm _ _ _ _ Ph HLa) as (La' & PL & HLa'). inversion HLa' as [|? L1 ? La1 HL1 HLa1]; subst.
    destruct (Forall2_perm _ _ _ _ (Permutation_sym P') Hh1) as (hsn & Pn & Hnn). exists hsn. split; auto.
    assert (NDh : NoDup (hidx ja :: hs1)).
    { assert (Hin : forall l m, Forall2 (fun k h => exists j, zn js k = Some j /\ hidx j = h) l m -> NoDup l -> NoDup m).
      { clear -I. intros l m Hf. induction Hf as [|k h l m (j & Ej & Hj) Hf IH]; intros Nd; [constructor|]. inversion Nd; subst. constructor; auto.
        intros Ih. destruct (Forall2_In_r _ _ _ _ Hf Ih) as (k' & Ik & j' & Ej' & Hj'). assert (k = k') by (eapply Inv_hidx_inj; eauto). congruence. }
      apply (Hin _ _ Hh' Na). }
    split.
    + intros h. assert (Eh : In h hsn <-> In h hs1).
      { split; intros H; [apply (Permutation_in _ (Permutation_sym Pn)) in H; auto|]. apply (Permutation_in _ Pn). auto. }
      rewrite Eh, (live_snoc es (len vs) js x h (i_ent _ _ _ _ I)). unfold x. cbn [e1 e2 ej].
      assert (Eq : In h hs <-> h = hidx ja \/ In h hs1).
      { split; intros H; [apply (Permutation_in _ Ph) in H; cbn in H; intuition congruence|]. apply (Permutation_in _ (Permutation_sym Ph)). cbn. intuition congruence. }
      split.
      * intros H2. right. assert (Hv : live es h) by (apply Hl, Eq; auto). split; auto. inversion NDh as [|? ? Q1 Q2]; subst.
        destruct Hv as ((e & Ee & _) & _). apply zn_range in Ee. unfold beamJetIndex. split; [intros <-; tauto|lia].
      * intros [(_ & Q & _)|(Hv & Q1 & Q2)]; [exfalso; apply Q; reflexivity|]. apply Hl, Eq in Hv. destruct Hv as [-> |Hv]; [lia|auto].
    + destruct (Forall2_perm (leaves (es ++ [x])) hs1 hsn La1) as (Lan & PLn & HLan); auto.
      { eapply Forall2_impl'; [|exact HLa1]; intros; now apply leaves_app. }
      exists Lan, (Ld ++ [L1]). split; auto. split.
      { rewrite beams_app. unfold beams at 2. cbn [filter is_beam]. assert (Ex : is_beam x = true) by reflexivity. rewrite Ex. cbn [map]. apply Forall2_app; [eapply Forall2_impl'; [|exact HLd]; intros; now apply leaves_app|].
        constructor; [|constructor]. unfold x. cbn [e1]. now apply leaves_app. }
      eapply Permutation_trans; [|exact HP]. rewrite concat_app. cbn [concat]. rewrite app_nil_r.
      eapply Permutation_trans; [apply Permutation_app_tail; symmetry; apply concat_perm; exact PLn|].
      eapply Permutation_trans; [|apply Permutation_app_tail; symmetry; apply concat_perm; exact PL]. cbn [concat]. rewrite app_assoc.
      eapply Permutation_trans; [apply Permutation_app_comm|]. rewrite app_assoc. reflexivity.
  - pose proof (i_n _ _ _ _ I). apply (max_snoc (len vs) es d x); auto; [lia|]. apply (i_max _ _ _ _ I).
  - rewrite len_app. pose proof (i_n _ _ _ _ I). cbn. lia.
Qed.
End Step.
End Proofs.
