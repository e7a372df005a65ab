(* C70: collections of lcio, written in the record of an event and read back. *)
From Coq Require Import ZArith List Lia Bool String Permutation Sorted.
From Verif Require Import Bytes GoLib GoStrings Bits Parse RioModel RioProofs SioModel SioProofs SioProofs2 SioProps LcioDataModel LcioDataSpec LcioDataProofs LcioDataProofs2 LcioDataProofs3.
Import ListNotations.
Local Open Scope Z_scope.
Local Arguments be : simpl never.
Local Arguments Z.pow : simpl never.

Section Conv.
Variable narrow widen : Z -> Z.
Hypothesis narrow_range : forall z, inU 32 (narrow z).
(* lcio/reader.go:151-164: what is connected for the names and types of the header *)
Definition evt_conn (bs : list named) : list (str * (Z -> rd (data nat Z))) := map (fun b => (fst b, unmarshal_of widen (fst (snd b)))) bs.
(* all objects of the event that pointers can refer to *)
Definition all_ids (bs : list named) : list Z := flat_map (fun b => flat_map (ids (fst (snd b)) (dflags (snd (snd b)))) (delems (snd (snd b)))) bs.

Lemma back_vmap {P Q} (h : P -> Q) c fl x (p : Z -> nat) (g : Z -> P) (nil : P) :
  map (fun fv => (fst fv, vmap (fun k => k) h (snd fv))) (back narrow widen p g nil c fl x) = back narrow widen p (fun a => h (g a)) (h nil) c fl x.
Proof.
  unfold back. rewrite map_map. apply map_ext. intros (f & t). cbn [fst snd]. f_equal.
  destruct (fate_in f (fates c fl x)); cbn [back_field].
  - rewrite vmap_vmap. reflexivity.
  - apply vzero_vmap.
  - rewrite vmap_vmap. reflexivity.
  - cbn [vmap]. f_equal. rewrite map_map. apply map_ext. intros v. now rewrite vmap_vmap.
  - cbn [vmap]. f_equal. rewrite map_map. apply map_ext. intros v. cbn [vmap]. f_equal. rewrite map_map. apply map_ext. intros ((k & u) & w). cbn [fst snd].
    destruct (existsb (String.eqb k) lost); [apply vzero_vmap|now rewrite vmap_vmap].
Qed.
Lemma back_ext {P} (g g' : Z -> P) c fl x (p p' : Z -> nat) (nil nil' : P) : (forall a, p a = p' a) -> (forall a, g a = g' a) -> nil = nil' ->
  back narrow widen p g nil c fl x = back narrow widen p' g' nil' c fl x.
Proof.
  intros Ep Eg ->. unfold back. apply map_ext. intros (f & t). cbn [fst snd]. f_equal.
  destruct (fate_in f (fates c fl x)); cbn [back_field]; auto using vmap_ext.
  - f_equal. apply map_ext. intros v. now apply vmap_ext.
  - f_equal. apply map_ext. intros v. f_equal. apply map_ext. intros ((k & u) & w). cbn [fst snd]. destruct (existsb (String.eqb k) lost); auto using vmap_ext.
Qed.
Lemma lookup_conn bs b : NoDup (map fst bs) -> In b bs -> lookup (fst b) (evt_conn bs) = Some (unmarshal_of widen (fst (snd b))).
Proof.
  induction bs as [|a bs IH]; [intros _ []|]. intros N J. inversion N as [|? ? Ni N']; subst. cbn [evt_conn map lookup].
  destruct J as [->|J]; [now rewrite str_eqb_refl|]. destruct (str_eqb_spec (fst b) (fst a)) as [E|_]; [|apply IH; auto].
  exfalso. apply Ni. rewrite <- E. now apply in_map.
Qed.
Lemma items bs conn : Forall (fun b => storable (fst (snd b)) (snd (snd b)) /\ lookup (fst b) conn = Some (unmarshal_of widen (fst (snd b)))) bs ->
  exists its, map (@iblk (data nat Z)) its = map (evt_blk narrow) bs /\ Forall (item_ok conn) its /\
  Permutation (flat_map (@itags (data nat Z)) its) (all_ids bs) /\ map (fun it => iconv it) its = map (fun b p i => back_data narrow widen (fst (snd b)) (snd (snd b)) p i 0) bs.
Proof.
  induction bs as [|(n & c & d) bs IH]; intros F.
  - exists []. split; [|split; [|split]]; try reflexivity. apply Forall_nil.
  - inversion F as [|? ? (S & L) F']; subst. destruct (IH F') as (its & E1 & E2 & E3 & E4). cbn [fst snd] in *.
    destruct (block_good narrow widen narrow_range c d S) as (tg & Pt & G).
    exists ({| iblk := evt_blk narrow (n, (c, d)); idec := unmarshal_of widen c; iconv := fun p i => back_data narrow widen c d p i 0; itags := tg |} :: its).
    split; [cbn [map iblk]; now rewrite E1|]. split; [|split].
    + apply Forall_cons; [|exact E2]. split; [|split; [exact L|]]; cbn [evt_blk gver gname gwrite iblk idec iconv itags fst snd].
      * unfold inU, Version. lia.
      * exact G.
    + cbn [flat_map itags all_ids fst snd]. apply Permutation_app; auto.
    + cbn [map iconv fst snd]. now rewrite E4.
Qed.
Lemma grec_write_items (its : list (@item (data nat Z))) : grec_write (map (@iblk (data nat Z)) its) = enc_all iwrite its (0, []).
Proof.
  unfold grec_write. generalize (0, @nil (Z * Z)). induction its as [|it its IH]; intros s; [reflexivity|]. cbn [map enc_all].
  unfold iwrite at 1. destruct (gwrite (iblk it) s) as [[(d & s')|]|]; [|reflexivity|reflexivity]. cbn [wbind wret fst snd]. unfold wret. cbn [wbind fst snd]. now rewrite IH.
Qed.

Lemma event_read perm (bs : list named) conn buf s :
  (forall l, Permutation (perm l) l) -> Forall (fun b => storable (fst (snd b)) (snd (snd b)) /\ lookup (fst b) conn = Some (unmarshal_of widen (fst (snd b)))) bs -> NoDup (all_ids bs) ->
  grec_write (map (evt_blk narrow) bs) = Ok (Some (buf, s)) -> zlen buf < 2 ^ 31 - 4 ->
  exists (at_ : Z -> nat) (target : Z -> option nat) out,
    (forall a, In a (all_ids bs) -> target a = Some (at_ a)) /\ (forall a, ~ In a (all_ids bs) -> target a = None) /\
    (forall a b, In a (all_ids bs) -> In b (all_ids bs) -> at_ a = at_ b -> a = b) /\
    grec_read (fun r => dmap (fun k => k) r) perm conn buf = Ok (Some out) /\
    Forall2 (fun b o => fst o = fst b /\ fst (snd o) = Version /\ dflags (snd (snd o)) = dflags (snd (snd b)) /\
               same_maps (dparams (snd (snd o))) (vmap at_ target (dparams (snd (snd b)))) /\
               delems (snd (snd o)) = map (back narrow widen at_ target None (fst (snd b)) (dflags (snd (snd b)))) (delems (snd (snd b)))) bs out.
Proof.
  intros Pm F' N W Sz. assert (F : Forall (fun b => storable (fst (snd b)) (snd (snd b))) bs) by (eapply Forall_impl; [|exact F']; cbv beta; tauto).
  destruct (items bs _ F') as (its & E1 & E2 & E3 & E4). rewrite <- E1, grec_write_items in W.
  assert (NI : NoDup (flat_map (@itags (data nat Z)) its)) by (eapply Permutation_NoDup; [apply Permutation_sym, E3|exact N]).
  destruct (grec_read_ok (fun r => dmap (fun k => k) r) perm _ its buf s Pm W E2 Sz NI) as (r & g & Er & E0 & Rd).
  set (L := flat_map (@itags (data nat Z)) its) in *.
  assert (InL : forall a, In a (all_ids bs) <-> In a L). { intros a. split; apply Permutation_in; auto using Permutation_sym. }
  exists (pos L), (idx L). eexists. split; [|split; [|split; [|split; [exact Rd|]]]].
  - intros a J. apply InL in J. unfold pos. destruct (idx L a) eqn:E; [reflexivity|]. apply idx_none in E. contradiction.
  - intros a J. apply idx_none. now rewrite <- InL.
  - intros a b Ja Jb E. apply InL in Ja, Jb. unfold pos in E. destruct (idx L a) eqn:Ea; [|apply idx_none in Ea; contradiction]. destruct (idx L b) eqn:Eb; [|apply idx_none in Eb; contradiction].
    subst. apply (idx_nth L _ _ NI) in Ea, Eb. congruence.
  - clear - E1 E4 F Er E0 narrow_range. clearbody L. revert its E1 E4. induction bs as [|(n & c & d) bs' IH]; intros [|it its] E1 E4; cbn [map] in *; try discriminate; [apply Forall2_nil|].
    inversion F as [|? ? Sd F']; subst. pose proof (f_equal (hd (iblk it)) E1) as H1. pose proof (f_equal (@tl _) E1) as H2. pose proof (f_equal (hd (iconv it)) E4) as H3. pose proof (f_equal (@tl _) E4) as H4.
    cbn [hd tl fst snd] in H1, H2, H3, H4.
    apply Forall2_cons; [|apply IH; auto]. cbn [fst snd]. rewrite H1, H3. cbn [evt_blk gname gver fst snd].
    split; [reflexivity|]. split; [reflexivity|]. unfold dmap, back_data. cbn [dflags dparams delems]. split; [reflexivity|]. split.
    + rewrite vmap_vmap. destruct Sd as (_ & Tp & _). rewrite (vmap_ext _ (pos L) _ (idx L)); [|reflexivity|exact Er]. apply same_sorted, Tp.
    + rewrite map_map. apply map_ext. intros x. rewrite back_vmap. apply back_ext; auto.
Qed.

(* The collections of an event come back under their names, with their flags and their parameters; every field of every
   element is as [fates] tells; a pointer refers to the object read in the place of the object it referred to, whatever the
   collection, and is nil when the object it referred to is not in the event. *)
Theorem C70_event perm (bs : list named) buf s :
  (forall l, Permutation (perm l) l) -> NoDup (map fst bs) -> Forall (fun b => storable (fst (snd b)) (snd (snd b))) bs -> NoDup (all_ids bs) ->
  grec_write (map (evt_blk narrow) bs) = Ok (Some (buf, s)) -> zlen buf < 2 ^ 31 - 4 ->
  exists (at_ : Z -> nat) (target : Z -> option nat) out,
    (forall a, In a (all_ids bs) -> target a = Some (at_ a)) /\ (forall a, ~ In a (all_ids bs) -> target a = None) /\
    (forall a b, In a (all_ids bs) -> In b (all_ids bs) -> at_ a = at_ b -> a = b) /\
    grec_read (fun r => dmap (fun k => k) r) perm (evt_conn bs) buf = Ok (Some out) /\
    Forall2 (fun b o => fst o = fst b /\ fst (snd o) = Version /\ dflags (snd (snd o)) = dflags (snd (snd b)) /\
               same_maps (dparams (snd (snd o))) (vmap at_ target (dparams (snd (snd b)))) /\
               delems (snd (snd o)) = map (back narrow widen at_ target None (fst (snd b)) (dflags (snd (snd b)))) (delems (snd (snd b)))) bs out.
Proof.
  intros Pm Nn F N W Sz. apply (event_read perm bs (evt_conn bs) buf s); auto. rewrite Forall_forall in *. intros b J. split; [auto|]. apply lookup_conn; auto.
Qed.
(* ---- writing does not panic ---- *)
Definition np (f : wids -> res (option (list Z * wids))) : Prop := forall s, f s <> Panic.
Lemma np_seq f g : np f -> np g -> np (wseq f g).
Proof.
  intros F G s. unfold wseq. specialize (F s). destruct (f s) as [[r|]|]; cbn [wbind]; [|discriminate|congruence].
  specialize (G (snd r)). destruct (g (snd r)) as [[r'|]|]; cbn; first [discriminate|congruence].
Qed.
Lemma np_bytes b : np (wbytes b).
Proof. intros s. discriminate. Qed.
Lemma np_enc t v : no_map_struct t -> np (enc true t v).
Proof. intros N s. apply C27_no_panic, N. Qed.
Lemma np_all {A} (f : A -> wids -> res (option (list Z * wids))) l : (forall x, In x l -> np (f x)) -> np (enc_all f l).
Proof. intros H s. apply enc_all_total. intros x s' J. apply H, J. Qed.
(* operations without panic on the object x *)
Inductive safe (x : obj Z Z) : op -> Prop :=
| safe_fd f t : no_map_struct t -> safe x (Fd f t)
| safe_ls f c t : no_map_struct t -> safe x (Ls f c t)
| safe_nr f t : no_map_struct (ty32 t) -> safe x (Nr f t)
| safe_pr f g : len_of f x <= len_of g x -> safe x (Pr f g)
| safe_ad f : safe x (Ad f)
| safe_bt f b l : (forall o, In o l -> forall s, wop narrow o x s <> Panic) -> safe x (Bt f b l)
| safe_vc f c sc l : (forall o y, In o l -> forall s, wop narrow o y s <> Panic) -> safe x (Vc f c sc l)
| safe_sk t : safe x (Sk t).
Lemma np_op x o : safe x o -> np (wop narrow o x).
Proof.
  assert (Go : forall y l, (forall o, In o l -> np (wop narrow o y)) ->
    np ((fix go (l : list op) (s : wids) {struct l} := match l with [] => wret ([], s) | o :: l' => wseq (wop narrow o y) (go l') s end) l)).
  { intros y. induction l as [|o0 l IH]; intros H s; [discriminate|]. apply np_seq; [apply H; cbn; auto|]. apply IH. intros; apply H; cbn; auto. }
  intros [f t N|f c t N|f t N|f g L|f|f b l N|f c sc l N|t] s; cbn [wop].
  - apply np_enc, N.
  - apply np_seq; [apply np_bytes|]. apply np_all. intros. apply np_enc, N.
  - apply np_enc, N.
  - unfold len_of in L. cbv zeta. destruct (Z.ltb_spec (zlen (list_of (fget g x))) (zlen (list_of (fget f x)))); [lia|].
    apply np_seq; [apply np_bytes|]. apply np_all. intros. apply np_seq; apply np_enc; exact I.
  - cbv zeta. apply np_seq; [apply np_bytes|]. apply np_seq; [|apply np_bytes]. apply np_all. intros. apply np_enc. exact I.
  - destruct (test (int_of (fget f x)) b); [|discriminate]. apply Go. intros o0 J s'. apply N, J.
  - apply np_seq; [apply np_bytes|]. apply np_all. intros e _. apply Go. intros o0 J s'. apply N, J.
  - discriminate.
Qed.
Lemma np_ops x l : Forall (safe x) l -> np (wops narrow l x).
Proof. induction 1 as [|o l S F IH]; intros s; [discriminate|]. cbn [wops]. apply np_seq; [apply np_op, S|exact IH]. Qed.
Lemma safe_when x b l : (b = true -> Forall (safe x) l) -> Forall (safe x) (when b l).
Proof. destruct b; cbn [when]; auto. Qed.
Ltac safes := repeat match goal with
  | |- Forall _ (_ ++ _) => apply Forall_app; split
  | |- Forall _ (when _ _) => apply safe_when; intros ?
  | |- Forall _ (_ :: _) => apply Forall_cons
  | |- Forall _ [] => apply Forall_nil
  | |- safe _ tag => apply safe_fd; exact I
  | |- safe _ (Fd _ _) => apply safe_fd; cbn; tauto
  | |- safe _ (Ls _ _ _) => apply safe_ls; cbn; tauto
  | |- safe _ (Nr _ _) => apply safe_nr; cbn; tauto
  | |- safe _ (Ad _) => apply safe_ad
  | |- safe _ (Sk _) => apply safe_sk
  end.
Ltac inner := let o := fresh "o" in let y := fresh "y" in let J := fresh "J" in
  intros o y J; apply np_op; revert o J; apply Forall_forall.
Lemma marshal_np c d : storable c d -> np (marshal_of narrow c d).
Proof.
  intros (_ & _ & _ & _ & Hx).
  assert (Pr_ : no_map_struct tparams) by (cbn; tauto).
  assert (G : forall k, coll_of c = Some k -> (forall x, In x (delems d) -> Forall (safe x) (cwr k (dflags d))) -> np (marshal narrow k d)).
  { intros k _ S. unfold marshal. apply np_seq; [apply np_enc; exact I|]. apply np_seq; [apply np_enc, Pr_|]. apply np_seq; [apply np_bytes|]. apply np_all. intros x J. apply np_ops, S, J. }
  destruct c; try contradiction; cbn [marshal_of coll_of]; try (apply G; [reflexivity|]; intros x J; cbn [cwr mcParticles simTrackerHits simCaloHits rawCaloHits caloHits trackerData trackerHits trackerHitPlanes trackerHitZCylinders trackerPulses trackerRawData tracks clusters vertices recParticles relations references]; safes).
  - apply safe_bt. intros o Jo. apply np_op. revert o Jo. apply Forall_forall. safes.
  - apply safe_vc. inner. safes.
  - apply safe_vc. inner. safes.
  - apply safe_vc. inner. unfold pid_ops. safes.
  - apply safe_pr. apply Hx; auto. rewrite <- test_bit by lia. assumption.
  - apply safe_vc. inner. unfold pid_ops. safes.
  - unfold marshalGeneric. cbv zeta. apply np_seq; [apply np_enc; exact I|]. apply np_seq; [apply np_enc, Pr_|]. apply np_seq; [apply np_bytes|]. apply np_seq; [apply np_bytes|].
    apply np_all. intros x J. apply np_seq; [apply np_bytes|]. repeat (apply np_seq; [apply np_all; intros; apply np_enc; exact I|]). apply np_enc. exact I.
Qed.
(* Writing the record of an event never panics. *)
Theorem C70_no_panic (bs : list named) : Forall (fun b => storable (fst (snd b)) (snd (snd b))) bs -> grec_write (map (evt_blk narrow) bs) <> Panic.
Proof.
  intros F. unfold grec_write. apply enc_all_total. intros b s J. apply in_map_iff in J. destruct J as (c & <- & J). rewrite Forall_forall in F.
  pose proof (marshal_np _ _ (F c J) s) as N. cbn [evt_blk gwrite]. destruct (marshal_of narrow (fst (snd c)) (snd (snd c)) s) as [[r|]|]; cbn; first [discriminate|congruence].
Qed.
End Conv.

(* ---- parameters ---- *)
Lemma str_leb_refl : forall a, str_leb a a = true.
Proof. induction a as [|x a IH]; [reflexivity|]. cbn [str_leb]. rewrite Z.eqb_refl, IH. now rewrite orb_true_r. Qed.
Lemma str_leb_total : forall a b, str_leb a b = true \/ str_leb b a = true.
Proof.
  induction a as [|x a IH]; intros [|y b]; cbn [str_leb]; auto. destruct (Z.ltb_spec x y); [auto|]. destruct (Z.ltb_spec y x); [auto|].
  assert (x = y) as -> by lia. rewrite Z.eqb_refl. cbn. apply IH.
Qed.
Lemma str_leb_antisym : forall a b, str_leb a b = true -> str_leb b a = true -> a = b.
Proof.
  induction a as [|x a IH]; intros [|y b]; cbn [str_leb]; try discriminate; auto. intros H K.
  destruct (Z.ltb_spec x y); destruct (Z.ltb_spec y x); try lia; destruct (Z.eqb_spec x y); destruct (Z.eqb_spec y x); try lia; try discriminate. subst. f_equal. apply IH; auto.
Qed.
Lemma str_leb_trans : forall a b c, str_leb a b = true -> str_leb b c = true -> str_leb a c = true.
Proof.
  induction a as [|x a IH]; intros [|y b] [|z c]; cbn [str_leb]; try discriminate; auto. intros H K.
  destruct (Z.ltb_spec x z); [reflexivity|]. destruct (Z.ltb_spec x y); destruct (Z.ltb_spec y z); try lia; destruct (Z.eqb_spec x y); destruct (Z.eqb_spec y z); destruct (Z.eqb_spec x z); try lia; try discriminate.
  cbn in *. eapply IH; eauto.
Qed.
Definition entry := (val Z Z * val Z Z)%type.
Definition le_entry (a b : entry) : Prop := exists x y, fst a = VStr x /\ fst b = VStr y /\ str_leb x y = true.
Lemma insert_sorted (kv : entry) l : (exists x, fst kv = VStr x) -> Forall (fun e : entry => exists x, fst e = VStr x) l -> StronglySorted le_entry l -> StronglySorted le_entry (insert kv l).
Proof.
  intros (x & Ex) Fk S. induction l as [|e l IH]; cbn [insert]; [repeat constructor|]. inversion Fk as [|? ? (y & Ey) Fk']; subst. inversion S as [|? ? S' Fa]; subst.
  unfold key_leb. rewrite Ex, Ey. destruct (str_leb x y) eqn:E.
  - constructor; auto. constructor; [exists x, y; auto|]. eapply Forall_impl; [|exact Fa]. intros e' (y' & z & H1 & H2 & H3). rewrite Ey in H1. injection H1 as <-.
    exists x, z. split; auto. split; auto. eapply str_leb_trans; eauto.
  - constructor; [apply IH; auto|]. eapply Permutation_Forall; [apply Permutation_sym, insert_perm|]. constructor; auto.
    exists y, x. split; auto. split; auto. destruct (str_leb_total x y); congruence.
Qed.
Lemma sort_sorted (l : list entry) : Forall (fun e : entry => exists x, fst e = VStr x) l -> StronglySorted le_entry (sort_keys l).
Proof.
  induction l as [|e l IH]; intros F; [constructor|]. inversion F; subst. change (sort_keys (e :: l)) with (insert e (sort_keys l)). apply insert_sorted; auto.
  eapply Permutation_Forall; [apply Permutation_sym, sort_perm|auto].
Qed.
Lemma sorted_unique {A} (R : A -> A -> Prop) : forall l l', StronglySorted R l -> StronglySorted R l' -> Permutation l l' ->
  (forall x y, In x l -> In y l -> R x y -> R y x -> x = y) -> l = l'.
Proof.
  induction l as [|x l IH]; intros l' S S' P Anti.
  - apply Permutation_nil in P. now subst.
  - destruct l' as [|y l']; [apply Permutation_sym, Permutation_nil in P; discriminate|]. inversion S as [|? ? S1 F1]; subst. inversion S' as [|? ? S2 F2]; subst.
    assert (x = y) as ->.
    { assert (J : In x (y :: l')) by (eapply Permutation_in; [exact P|cbn; auto]). assert (K : In y (x :: l)) by (eapply Permutation_in; [apply Permutation_sym, P|cbn; auto]).
      destruct J as [->|J]; [reflexivity|]. destruct K as [->|K]; [reflexivity|]. rewrite Forall_forall in F1, F2. apply Anti; cbn; auto. }
    f_equal. apply IH; auto; [eapply Permutation_cons_inv; eauto|]. intros; apply Anti; cbn; auto.
Qed.
Lemma sort_same w (a b : list entry) : typed (TMap TStr w) (VMap a) -> Permutation a b -> sort_keys a = sort_keys b.
Proof.
  intros (_ & F & N) P. assert (K : Forall (fun e : entry => exists x, fst e = VStr x) a).
  { eapply Forall_impl; [|exact F]. intros (k & v) (_ & T & _). cbn [fst] in *. destruct k; try contradiction. eauto. }
  apply (sorted_unique le_entry).
  - now apply sort_sorted.
  - apply sort_sorted. eapply Permutation_Forall; eauto.
  - eapply Permutation_trans; [apply sort_perm|]. eapply Permutation_trans; [exact P|]. apply Permutation_sym, sort_perm.
  - intros x y Jx Jy (u & v & E1 & E2 & L1) (v' & u' & E3 & E4 & L2). rewrite E2 in E3. rewrite E1 in E4. injection E3 as <-. injection E4 as <-.
    assert (u = v) as <- by (apply str_leb_antisym; auto). apply (Permutation_in _ (sort_perm a)) in Jx, Jy. rewrite <- E2 in E1. clear - N Jx Jy E1.
    induction a as [|e a IH]; [contradiction|]. cbn [map] in N. inversion N as [|? ? Ni N']; subst. destruct Jx as [->|Jx], Jy as [->|Jy]; auto.
    + exfalso. apply Ni. rewrite E1. now apply in_map.
    + exfalso. apply Ni. rewrite <- E1. now apply in_map.
Qed.
(* The bytes written for the parameters of a collection, a run or an event do not depend on the order in which a Go map is
   walked. *)
Theorem C70_params_bytes p q s : typed tparams p -> same_maps p q -> wparams p s = wparams q s.
Proof.
  intros T M. unfold wparams. f_equal. destruct (params_inv p T) as (a & b & c & -> & Ta & Tb & Tc). unfold same_maps in M.
  destruct q as [| | | |vs'| |]; try contradiction. destruct vs' as [|[] [|[] [|[] []]]]; try contradiction. destruct M as (Ma & Mb & Mc).
  cbn [sort_maps map]. rewrite (sort_same _ _ _ Ta Ma), (sort_same _ _ _ Tb Mb), (sort_same _ _ _ Tc Mc). reflexivity.
Qed.

(* ---- parents and children ---- *)
Lemma add_child_nth c m ch k : nth_error (add_child c m ch) k = match nth_error ch k with Some l => Some (l ++ if (k =? m)%nat then [c] else []) | None => None end.
Proof.
  unfold add_child. destruct (nth_error ch m) as [l|] eqn:E.
  - pose proof (nth_error_split ch m E) as (l1 & l2 & -> & Hl). assert (firstn m (l1 ++ l :: l2) = l1) as -> by (rewrite <- Hl, firstn_app, Nat.sub_diag, firstn_all; cbn; apply app_nil_r).
    assert (skipn (S m) (l1 ++ l :: l2) = l2) as -> by (rewrite <- Hl, skipn_app, skipn_all2 by lia; replace (S (List.length l1) - List.length l1)%nat with 1%nat by lia; reflexivity).
    destruct (Nat.eqb_spec k m) as [->|Nk].
    + rewrite E. rewrite nth_error_app2 by lia. rewrite Hl, Nat.sub_diag. reflexivity.
    + destruct (Nat.lt_ge_cases k m).
      * rewrite !nth_error_app1 by lia. destruct (nth_error l1 k) eqn:E1; [now rewrite app_nil_r|reflexivity].
      * rewrite !nth_error_app2 by lia. destruct (k - List.length l1)%nat eqn:Ek; [lia|]. cbn [nth_error]. destruct (nth_error l2 n) eqn:E2; [now rewrite app_nil_r|reflexivity].
  - destruct (nth_error ch k) as [l|] eqn:Ek; [|reflexivity]. destruct (Nat.eqb_spec k m); [congruence|]. now rewrite app_nil_r.
Qed.
Definition onat_dec (a b : option nat) : {a = b} + {a <> b}.
Proof. decide equality. apply Nat.eq_dec. Defined.
(* After reading, a particle has for children the particles that name it as their parent, in the order of the collections,
   once for each time they name it. *)
Theorem C70_children ps ch m l : nth_error ch m = Some l ->
  nth_error (link ps ch) m = Some (l ++ flat_map (fun ip => repeat (fst ip) (count_occ onat_dec (snd ip) (Some m))) ps).
Proof.
  assert (In_ : forall c qs ch l, nth_error ch m = Some l ->
    nth_error (fold_left (fun ch p => match p with Some m => add_child c m ch | None => ch end) qs ch) m = Some (l ++ repeat c (count_occ onat_dec qs (Some m)))).
  { clear. intros c. induction qs as [|[q|] qs IH]; intros ch l E; cbn [fold_left count_occ].
    - cbn. now rewrite app_nil_r.
    - rewrite (IH _ (l ++ if (m =? q)%nat then [c] else [])) by (now rewrite add_child_nth, E). destruct (onat_dec (Some q) (Some m)) as [Eq|Ne].
      + injection Eq as ->. rewrite Nat.eqb_refl. cbn [repeat]. now rewrite <- app_assoc.
      + destruct (Nat.eqb_spec m q); [congruence|]. now rewrite app_nil_r.
    - destruct (onat_dec None (Some m)); [discriminate|]. apply IH, E. }
  revert ch l. unfold link. induction ps as [|(i & qs) ps IH]; intros ch l E; cbn [fold_left flat_map fst snd].
  - now rewrite app_nil_r.
  - rewrite (IH _ _ (In_ i qs ch l E)). now rewrite <- app_assoc.
Qed.

(* ---- names of types ---- *)
(* The reader makes a collection of the type that was written, for all the types that can be written. *)
Theorem C70_type_names c n : typeName c = Ok n -> typeFrom n = Ok c.
Proof. destruct c; cbn [typeName]; intros H; try discriminate H; injection H as <-; reflexivity. Qed.
Example C70_type_names_ex : typeFrom "LCRelation" = Ok CRelation /\ typeFrom "Cal_References" = Ok CReferences.
Proof. split; reflexivity. Qed.
(* Full statement: for all collections.  There is no name for the references. *)
Theorem C70_type_names_refuted : exists c, typeName c = Panic.
Proof. exists CReferences. reflexivity. Qed.

(* ---- the index ---- *)
(* the index of a file as lcio/meta.go:58-66 documents it: bit 0 of the control word for a single run, bit 1 for offsets of 64 bits *)
Definition offset_bytes (cw : Z) (o : offset) : list Z :=
  (if Z.testbit cw 0 then [] else be 4 (orun o)) ++ be 4 (oevt o) ++ (if Z.testbit cw 1 then be 8 (oloc o) else be 4 (oloc o)).
Definition index_bytes (cw rmin base : Z) (os : list offset) : list Z :=
  be 4 cw ++ be 4 rmin ++ be 8 base ++ be 4 (zlen os) ++ flat_map (offset_bytes cw) os.
Definition offset_ok (cw : Z) (o : offset) : Prop := inS 32 (orun o) /\ (Z.testbit cw 0 = true -> orun o = 0) /\ inS 32 (oevt o) /\ inS 32 (oloc o).
Definition reads {A} (g : rd A) (bs : list Z) (c : A) : Prop := forall rest k T, g {| rl := bs ++ rest; rn := k; rtags := T |} = Some (c, {| rl := rest; rn := k; rtags := T |}).
Lemma reads_bind {A B} (g : rd A) (h : A -> rd B) a b c d : reads g a c -> reads (h c) b d -> reads (dbind g h) (a ++ b) d.
Proof. intros H1 H2 rest k T. unfold dbind. rewrite <- app_assoc, H1. apply H2. Qed.
Lemma reads_ret {A} (c : A) : reads (dret c) [] c.
Proof. intros rest k T. reflexivity. Qed.
Lemma reads_lift {A} (p : parser A) bs c : parses p bs c -> reads (rlift p) bs c.
Proof. intros H rest k T. unfold rlift. cbn [rl rn rtags]. now rewrite H. Qed.
Lemma reads_int n z : (0 < n)%nat -> inS (8 * Z.of_nat n) z -> reads (dec (TS n)) (be n z) (VInt z).
Proof.
  intros Hn Hz. cbn [dec]. apply reads_lift. replace (VInt z) with (@VInt nat Z (wrapS (8 * Z.of_nat n) (z mod 256 ^ Z.of_nat n))).
  - apply (parses_map _ (fun z => VInt (wrapS (8 * Z.of_nat n) z))). apply parses_pbe_mod.
  - f_equal. rewrite pow256_2, wrapS_mod by lia. apply wrapS_id; auto; lia.
Qed.
Lemma reads_rep {A B} (g : rd B) (f : A -> list Z) (c : A -> B) l : (forall x, In x l -> reads g (f x) (c x)) -> reads (drep (List.length l) g) (flat_map f l) (map c l).
Proof.
  induction l as [|x l IH]; intros H; [apply reads_ret|]. cbn [List.length drep flat_map map]. apply (reads_bind _ _ _ _ (c x)); [apply H; cbn; auto|].
  rewrite <- (app_nil_r (flat_map f l)). eapply reads_bind; [apply IH; intros; apply H; cbn; auto|apply reads_ret].
Qed.
Lemma land_bit cw k b : 0 <= k -> Z.testbit cw k = b -> Z.land cw (2 ^ k) = if b then 2 ^ k else 0.
Proof.
  intros Hk E. apply Z.bits_inj'. intros n Hn. rewrite Z.land_spec, Z.pow2_bits_eqb by lia. destruct (Z.eqb_spec k n) as [->|N].
  - rewrite E. destruct b; [now rewrite Z.pow2_bits_true|now rewrite Z.bits_0].
  - rewrite andb_false_r. destruct b; [now rewrite Z.pow2_bits_false|now rewrite Z.bits_0].
Qed.
(* An index with offsets of 32 bits and without parameters is read as it is. *)
Theorem C70_index_partial cw rmin base os rest k T : inU 32 cw -> Z.testbit cw 1 = false -> Z.testbit cw 2 = false -> inS 32 rmin -> inS 64 base -> zlen os < 2 ^ 31 ->
  Forall (offset_ok cw) os ->
  rindex {| rl := index_bytes cw rmin base os ++ rest; rn := k; rtags := T |} = Some ((cw, rmin, base, os), {| rl := rest; rn := k; rtags := T |}).
Proof.
  intros Hc B1 B2 Hr Hb Hn F. revert rest k T. change (reads rindex (index_bytes cw rmin base os) (cw, rmin, base, os)). unfold rindex, index_bytes.
  apply (reads_bind _ _ _ _ (VInt cw)); [apply reads_lift; apply (parses_map _ VInt); apply parses_pbe; exact Hc|].
  apply (reads_bind _ _ _ _ (VInt rmin)); [apply reads_int; [lia|exact Hr]|].
  apply (reads_bind _ _ _ _ (VInt base)); [apply reads_int; [lia|exact Hb]|].
  pose proof (zlen_nonneg os) as H0.
  apply (reads_bind _ _ _ _ (List.length os)).
  { unfold rcount. rewrite <- (app_nil_r (be 4 _)). apply (reads_bind _ _ _ _ (zlen os)); [apply reads_lift, parses_pbe; unfold inU; change (8 * Z.of_nat 4) with 32; lia|].
    rewrite wrapS_id by (unfold inS; lia). destruct (Z.ltb_spec (zlen os) 0); [lia|]. unfold zlen. rewrite Nat2Z.id. apply reads_ret. }
  rewrite <- (app_nil_r (flat_map _ os)). apply (reads_bind _ _ _ _ os); [|apply reads_ret]. rewrite <- (map_id os) at 3. apply reads_rep. intros o J. rewrite Forall_forall in F.
  destruct (F o J) as (Ho & Hz & He & Hl). unfold roffset, offset_bytes. cbn [int_of]. rewrite B1.
  pose proof (land_bit cw 1 _ ltac:(lia) B1) as L1. change (2 ^ 1) with 2 in L1. pose proof (land_bit cw 2 _ ltac:(lia) B2) as L2. change (2 ^ 2) with 4 in L2.
  pose proof (land_bit cw 0 _ ltac:(lia) eq_refl) as L0. change (2 ^ 0) with 1 in L0. rewrite L1, L2, L0. change (0 =? 1) with false. cbv iota.
  apply (reads_bind _ _ _ _ (VInt (orun o))).
  - destruct (Z.testbit cw 0); cbn [Z.eqb]; [rewrite Hz by reflexivity; apply reads_ret|]. change (0 =? 0) with true. cbv iota. apply reads_int; [lia|exact Ho].
  - apply (reads_bind _ _ _ _ (VInt (oevt o))); [apply reads_int; [lia|exact He]|].
    rewrite <- (app_nil_r (be 4 (oloc o))). apply (reads_bind _ _ _ _ (VInt (oloc o))); [apply reads_int; [lia|exact Hl]|]. destruct o. exact (reads_ret _).
Qed.
Definition ex_os : list offset := [{| orun := 0; oevt := 7; oloc := -1 |}; {| orun := 0; oevt := 8; oloc := 4096 |}].
Example C70_index_partial_ex : Forall (offset_ok 1) ex_os /\ rindex {| rl := index_bytes 1 3 0 ex_os; rn := 0; rtags := [] |} = Some ((1, 3, 0, ex_os), {| rl := []; rn := 0; rtags := [] |}).
Proof. split; [repeat constructor; unfold inS; cbn; lia|]. vm_compute. reflexivity. Qed.
(* Full statement: also when bit 1 of the control word asks for offsets of 64 bits. *)
Theorem C70_index_refuted : exists cw os, inU 32 cw /\ Z.testbit cw 1 = true /\ Forall (fun o => inS 64 (oloc o)) os /\
  exists os' s, rindex {| rl := index_bytes cw 0 0 os; rn := 0; rtags := [] |} = Some ((cw, 0, 0, os'), s) /\ os' <> os /\ rl s <> [].
Proof.
  exists 3, [{| orun := 0; oevt := 1; oloc := 300 |}]. split; [unfold inU; lia|]. split; [reflexivity|]. split; [repeat constructor; unfold inS; cbn; lia|].
  eexists _, _. split; [vm_compute; reflexivity|]. split; discriminate.
Qed.

(* ---- examples ---- *)
Definition ex_narrow (z : Z) : Z := z mod 2 ^ 32.
Definition ex_widen (z : Z) : Z := z.
Definition ints (l : list Z) : val Z Z := VStruct (map VInt l).
Definition no_params : val Z Z := VStruct [VMap []; VMap []; VMap []].
Definition ex_mc (k : Z) (parents : list Z) (status : Z) : obj Z Z :=
  [("Parents", VList (map VPtr parents)); ("Children", VList [VPtr 12]); ("PDG", VInt (-11)); ("GenStatus", VInt 1); ("SimStatus", VInt status); ("Vertex", ints [1; 2; 3]); ("Time", VInt 4);
   ("P", ints [5; 6; 7]); ("Mass", VInt (2 ^ 40 + 8)); ("Charge", VInt 9); ("endPoint", ints [10; 11; 12]); ("PEndPoint", ints [13; 14; 15]); ("Spin", ints [0; 0; 1]);
   ("ColorFlow", ints [-1; 1]); ("&", VTag k)]%string.
Definition ex_hit (k mc : Z) : obj Z Z :=
  [("CellID0", VInt 1); ("CellID1", VInt 2); ("Pos", ints [1; 2; 3]); ("EDep", VInt 4); ("Time", VInt 5); ("Mc", VPtr mc); ("Momentum", ints [6; 7; 8]); ("PathLength", VInt 9);
   ("Quality", VInt (-3)); ("&", VTag k)]%string.
Definition ex_evt : list named :=
  [([104], (CSimTrackerHit, {| dflags := 2 ^ 30; dparams := VStruct [VMap [(VStr [98], VList [VInt (-1)]); (VStr [97], VList [])]; VMap []; VMap [(VStr [], VList [VStr [1]])]]; delems := [ex_hit 21 12; ex_hit 22 99] |}));
   ([109; 99], (CMcParticle, {| dflags := 0; dparams := no_params; delems := [ex_mc 11 [] (2 ^ 31); ex_mc 12 [11] 0] |}))].
Example C70_event_ex : NoDup (map fst ex_evt) /\ NoDup (all_ids ex_evt) /\ Forall (fun b => storable (fst (snd b)) (snd (snd b))) ex_evt /\
  exists buf s, grec_write (map (evt_blk ex_narrow) ex_evt) = Ok (Some (buf, s)) /\ zlen buf < 2 ^ 31 - 4 /\
  exists h m, grec_read (fun r => dmap (fun k => k) r) (@rev _) (evt_conn ex_widen ex_evt) buf = Ok (Some [([104], (Version, h)); ([109; 99], (Version, m))]) /\
    map (fget "Mc") (delems h) = [VPtr (Some 3%nat); VPtr None] /\ map (fget "&") (delems m) = [VTag 2%nat; VTag 3%nat] /\ map (fget "CellID1") (delems h) = [VInt 0; VInt 0] /\
    map (fget "Mass") (delems m) = [VInt 8; VInt 8] /\ map (fget "endPoint") (delems m) = [VStruct [VInt 10; VInt 11; VInt 12]; VStruct [VInt 0; VInt 0; VInt 0]] /\
    map (fget "Parents") (delems m) = [VList []; VList [VPtr (Some 2%nat)]].
Proof.
  split; [repeat constructor; cbn; intuition discriminate|]. split; [repeat constructor; cbn; intuition discriminate|]. split.
  - repeat (apply Forall_cons || apply Forall_nil); cbn [fst snd]; (split; [unfold inU; cbn; lia|]); (split; [cbn; repeat split; try (unfold zlen; cbn; lia); repeat constructor; cbn; unfold zlen, inS; cbn; try lia; intuition discriminate|]);
      (split; [unfold zlen; cbn; lia|]); (split; [|exact I]); repeat constructor; cbn; unfold inU, inS, zlen; cbn; try lia.
  - eexists _, _. split; [vm_compute; reflexivity|]. split; [vm_compute; reflexivity|]. eexists _, _. split; [vm_compute; reflexivity|]. repeat split; reflexivity.
Qed.
Example C70_children_ex : link [(2%nat, []); (3%nat, [Some 2%nat; None]); (4%nat, [Some 2%nat; Some 3%nat; Some 2%nat])] [[]; []; []; []; []] = [[]; []; [3; 4; 4]; [4]; []]%nat.
Proof. reflexivity. Qed.
Example C70_params_bytes_ex : let p := VStruct [VMap [(VStr [98], VList [VInt 1]); (VStr [97], VList [])]; VMap []; VMap []] in
  let q := VStruct [VMap [(VStr [97], VList []); (VStr [98], VList [VInt 1])]; VMap []; VMap []] in typed tparams p /\ same_maps p q /\ p <> q /\ wparams p (0, []) = wparams q (0, []).
Proof.
  cbv zeta. split; [cbn; repeat split; try (unfold zlen; cbn; lia); repeat constructor; cbn; unfold zlen, inS; cbn; try lia; intuition discriminate|]. split; [|split; [discriminate|vm_compute; reflexivity]].
  cbn. split; [apply perm_swap|]. split; constructor.
Qed.

(* ---- what is lost ---- *)
Definition reads_none (c : ctype) (d : data Z Z) : Prop := exists buf s, grec_write [evt_blk ex_narrow ([97], (c, d))] = Ok (Some (buf, s)) /\
  grec_read (fun r => dmap (fun k => k) r) (fun l => l) (evt_conn ex_widen [([97], (c, d))]) buf = Ok None.
(* Full statement: for all collections.  The collections of vectors cannot be read back, even without elements. *)
Theorem C70_vectors_refuted : Forall (fun cv => reads_none (fst cv) {| dflags := 0; dparams := no_params; delems := [] |} /\
    reads_none (fst cv) {| dflags := 0; dparams := no_params; delems := [[("Elements", VList [snd cv; snd cv]); ("&", VTag 1)]%string] |})
  [(CFloatVec, VInt 1); (CIntVec, VInt (-1)); (CStrVec, VStr [97; 98])].
Proof. repeat (apply Forall_cons || apply Forall_nil); (split; eexists _, _; (split; [vm_compute; reflexivity|vm_compute; reflexivity])). Qed.
(* Generic objects flagged as of fixed size, whose sizes differ, are written and cannot be read back. *)
Theorem C70_generic_refuted : exists d, typed tparams (dparams d) /\ Forall (shaped (sch_of CGenericObject)) (delems d) /\ reads_none CGenericObject d.
Proof.
  exists {| dflags := 2 ^ 31; dparams := no_params; delems := [[("I32s", VList [VInt 1]); ("F32s", VList []); ("F64s", VList []); ("&", VTag 1)]; [("I32s", VList []); ("F32s", VList []); ("F64s", VList [VInt 5]); ("&", VTag 2)]]%string |}.
  split; [cbn; repeat split; try (unfold zlen; cbn; lia); repeat constructor|]. split; [repeat constructor; cbn; unfold inU, inS, zlen; cbn; try lia|].
  eexists _, _. split; [vm_compute; reflexivity|vm_compute; reflexivity].
Qed.
(* A cluster with less weights than hits makes the writer panic. *)
Theorem C70_cluster_refuted : exists x, shaped (sch_of CCluster) x /\ grec_write [evt_blk ex_narrow ([97], (CCluster, {| dflags := 2 ^ 31; dparams := no_params; delems := [x] |}))] = Panic.
Proof.
  exists [("Type", VInt 1); ("Energy", VInt 1); ("EnergyErr", VInt 1); ("Pos", ints [0; 0; 0]); ("PosErr", ints [0; 0; 0; 0; 0; 0]); ("Theta", VInt 0); ("Phi", VInt 0); ("DirErr", ints [0; 0; 0]);
    ("Shape", VList []); ("PIDs", VList []); ("Clusters", VList []); ("Hits", VList [VPtr 5]); ("Weights", VList []); ("SubDetEnes", VList []); ("&", VTag 1)]%string.
  split; [repeat constructor; cbn; unfold inU, inS, zlen; cbn; try lia|]. vm_compute. reflexivity.
Qed.

Print Assumptions C70_event.
Print Assumptions C70_no_panic.
Print Assumptions C70_params_bytes.
Print Assumptions C70_children.
Print Assumptions C70_type_names.
Print Assumptions C70_type_names_refuted.
Print Assumptions C70_index_partial.
Print Assumptions C70_index_refuted.
Print Assumptions C70_vectors_refuted.
Print Assumptions C70_generic_refuted.
Print Assumptions C70_cluster_refuted.
