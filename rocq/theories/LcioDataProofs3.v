(* Proofs about the data model of lcio: blocks and records. *)
From Coq Require Import ZArith List Lia Bool String Permutation.
From Verif Require Import Bytes GoLib GoStrings Bits Parse RioModel RioProofs SioModel SioProofs SioProofs2 LcioDataModel LcioDataSpec LcioDataProofs LcioDataProofs2.
Import ListNotations.
Local Open Scope Z_scope.
Local Arguments be : simpl never.
Local Arguments Z.pow : simpl never.

(* ---- records ---- *)
Section Rec.
Context {B : Type}.
(* a block, how it is read and what comes out of it *)
Record item := { iblk : gblk; idec : Z -> rd B; iconv : (Z -> nat) -> (Z -> Z) -> B; itags : list Z }.
Definition item_ok (conn : list (str * (Z -> rd B))) (it : item) : Prop :=
  inU 32 (gver (iblk it)) /\ lookup (gname (iblk it)) conn = Some (idec it) /\
  good (gwrite (iblk it)) (idec it (versionSio (gver (iblk it)))) (iconv it) (itags it) it.
Definition iwrite (it : item) (s : wids) : res (option (list Z * wids)) :=
  wbind (gwrite (iblk it) s) (fun r => wret (blk_bytes (gname (iblk it)) (gver (iblk it)) (fst r), snd r)).
Definition iexpect (f : Z -> nat) (g : Z -> Z) (its : list item) : list (str * (Z * B)) := map (fun it => (gname (iblk it), (gver (iblk it), iconv it f g))) its.
Lemma blk_len n v d : 16 + zlen n + zlen d <= zlen (blk_bytes n v d).
Proof.
  unfold blk_bytes. rewrite !zlen_app, !zlen_be. match goal with |- context [zlen (repeat 0 ?k)] => pose proof (zlen_nonneg (repeat 0 k)) end. lia.
Qed.
Lemma write_len : forall its s out s1, enc_all iwrite its s = Ok (Some (out, s1)) -> (List.length its <= List.length out)%nat.
Proof.
  induction its as [|it its IH]; intros s out s1 H; [cbn; lia|]. cbn [enc_all] in H. apply wbind_inv in H. destruct H as ((o1 & s2) & H1 & H).
  apply wbind_inv in H. destruct H as ((o2 & s3) & H2 & H). cbn [fst snd] in *. assert (out = o1 ++ o2) as -> by (unfold wret in H; congruence).
  specialize (IH _ _ _ H2). rewrite app_length. unfold iwrite in H1. apply wbind_inv in H1. destruct H1 as ((d & s4) & _ & H1). cbn [fst snd] in H1.
  assert (o1 = blk_bytes (gname (iblk it)) (gver (iblk it)) d) as -> by (unfold wret in H1; congruence).
  pose proof (blk_len (gname (iblk it)) (gver (iblk it)) d) as L. pose proof (zlen_nonneg (gname (iblk it))). pose proof (zlen_nonneg d). unfold zlen in *. cbn [List.length]. lia.
Qed.
Lemma write_ext conn : forall its s out s1, Forall (item_ok conn) its -> winv s -> enc_all iwrite its s = Ok (Some (out, s1)) ->
  winv s1 /\ ext (snd s) (snd s1) /\ (forall a, In a (flat_map itags its) -> assoc a (snd s1) <> None).
Proof.
  induction its as [|it its IH]; intros s out s1 F I H; cbn [enc_all] in H.
  - unfold wret in H. injection H as <- <-. split; auto. split; [apply ext_refl|]. intros a [].
  - inversion F as [|? ? (_ & _ & G) F']; subst. apply wbind_inv in H. destruct H as ((o1 & s2) & H1 & H).
    apply wbind_inv in H. destruct H as ((o2 & s3) & H2 & H). cbn [fst snd] in *. assert (s1 = s3) as -> by (unfold wret in H; congruence).
    unfold iwrite in H1. apply wbind_inv in H1. destruct H1 as ((d & s4) & Hd & H1). cbn [fst snd] in H1. assert (s2 = s4) as -> by (unfold wret in H1; congruence).
    destruct (G _ _ _ I Hd) as (I4 & X4 & J4 & _). destruct (IH _ _ _ F' I4 H2) as (I3 & X3 & J3). split; auto. split; [eapply ext_trans; eauto|].
    intros a J. cbn [flat_map] in J. apply in_app_or in J. destruct J as [J|J]; [|auto]. specialize (J4 a J). destruct (assoc a (snd s4)) eqn:E; [|congruence]. rewrite (X3 _ _ E). discriminate.
Qed.
Lemma grec_loop_ok conn : forall its s0 out s1, winv s0 -> enc_all iwrite its s0 = Ok (Some (out, s1)) -> Forall (item_ok conn) its -> zlen out < 2 ^ 31 - 4 ->
  forall m L L0 T acc fuel, ext (snd s1) m -> L = L0 ++ flat_map itags its -> NoDup L -> (List.length its < fuel)%nat ->
  grec_loop fuel conn acc {| rl := out; rn := List.length L0; rtags := T |} =
  Ok (Some (acc ++ iexpect (pos L) (idof m) its, {| rl := []; rn := List.length L; rtags := T ++ map (fun a => (pos L a, idof m a)) (flat_map itags its) |})).
Proof.
  induction its as [|it its IH]; intros s0 out s1 I W F Sz m L L0 T acc fuel X EL N Hf; cbn [enc_all] in W.
  - unfold wret in W. injection W as <- <-. destruct fuel; [lia|]. cbn. subst L. cbn [flat_map]. rewrite !app_nil_r. reflexivity.
  - inversion F as [|? ? (Bv & Lk & G) F']; subst x l. apply wbind_inv in W. destruct W as ((o1 & s2) & W1 & W).
    apply wbind_inv in W. destruct W as ((o2 & s3) & W2 & W). cbn [fst snd] in *. assert (out = o1 ++ o2 /\ s1 = s3) as (-> & ->) by (unfold wret in W; split; congruence).
    unfold iwrite in W1. apply wbind_inv in W1. destruct W1 as ((d & s4) & Wd & W1). cbn [fst snd] in W1.
    assert (o1 = blk_bytes (gname (iblk it)) (gver (iblk it)) d /\ s2 = s4) as (-> & ->) by (unfold wret in W1; split; congruence).
    set (n := gname (iblk it)) in *. set (v := gver (iblk it)) in *. rewrite zlen_app in Sz. pose proof (blk_len n v d) as Bl.
    pose proof (zlen_nonneg n). pose proof (zlen_nonneg d). pose proof (zlen_nonneg o2). assert (Bs : zlen n + zlen d < 2 ^ 31 - 20) by lia.
    destruct (align_spec (zlen n)) as (Ha & _); [lia|].
    destruct fuel as [|fuel]; [lia|]. cbn [List.length] in Hf. rewrite (blk_bytes_eq _ _ _ Bs), <- app_assoc.
    destruct (G _ _ _ I Wd) as (I2 & X2 & _ & R). destruct (write_ext conn _ _ _ _ F' I2 W2) as (_ & X3 & _).
    cbn [grec_loop rl rn rtags].
    assert (Ne : exists y ys, bhead_bytes n v (zlen d) ++ d ++ o2 = y :: ys).
    { destruct (bhead_bytes n v (zlen d) ++ d ++ o2) eqn:E; [|eauto]. apply (f_equal zlen) in E. rewrite zlen_app, bhead_len in E by lia.
      pose proof (zlen_nonneg (d ++ o2)). change (zlen []) with 0 in E. lia. }
    destruct Ne as (y & ys & Ne). rewrite Ne at 1. clear Ne. cbv iota beta.
    change (h <~~ pbe 4 ;; m0 <~~ pbe 4 ;; _ <~~ pguard (m0 =? blkMarker) ;; v <~~ pbe 4 ;; k <~~ pbe 4 ;;
            b0 <~~ take (Z.to_nat (align4U32 k)) ;; _ <~~ pguard (k <=? align4U32 k) ;; pret (h, v, firstn (Z.to_nat k) b0)) with bhead.
    rewrite (bhead_parses n v (zlen d)) by (auto; lia). cbv zeta. cbn [rn rtags rl]. rewrite Lk.
    cbn [flat_map] in EL |- *. rewrite (R m L L0 (flat_map itags its)); [|eapply ext_trans; eauto|exact EL|auto]. cbn [rl rn rtags].
    rewrite !zlen_app, bhead_len by lia.
    destruct (Z.eqb_spec (16 + align4U32 (zlen n) + (zlen d + zlen o2) - zlen o2) (16 + align4U32 (zlen n) + zlen d)); [|lia].
    assert (Go : grec_loop fuel conn (acc ++ [(n, (v, iconv it (pos L) (idof m)))]) {| rl := o2; rn := List.length (L0 ++ itags it); rtags := T ++ map (fun a => (pos L a, idof m a)) (itags it) |} =
      Ok (Some (acc ++ iexpect (pos L) (idof m) (it :: its), {| rl := []; rn := List.length L; rtags := T ++ map (fun a => (pos L a, idof m a)) (itags it ++ flat_map itags its) |}))).
    { rewrite (IH s4 o2 s3 I2 W2 F' ltac:(lia) m L (L0 ++ itags it)); auto; [|rewrite <- app_assoc; exact EL|lia].
      rewrite map_app, <- !app_assoc. reflexivity. }
    (* the next block is right there *)
    destruct its as [|it' its'].
    { cbn [enc_all] in W2. unfold wret in W2. assert (o2 = []) as -> by congruence. exact Go. }
    cbn [enc_all] in W2. apply wbind_inv in W2. destruct W2 as ((o3 & s5) & W3 & W2). apply wbind_inv in W2. destruct W2 as ((o4 & s6) & W4 & W2). cbn [fst snd] in *.
    assert (o2 = o3 ++ o4) as Eo by (unfold wret in W2; congruence). unfold iwrite in W3. apply wbind_inv in W3. destruct W3 as ((d' & s7) & _ & W3). cbn [fst snd] in W3.
    set (n' := gname (iblk it')) in *. set (v' := gver (iblk it')) in *. assert (o3 = blk_bytes n' v' d') as Eo3 by (unfold wret in W3; congruence).
    pose proof (blk_len n' v' d') as Bl'. pose proof (zlen_nonneg n'). pose proof (zlen_nonneg d'). pose proof (zlen_nonneg o4). rewrite Eo, zlen_app in Sz.
    rewrite Eo3 in Sz, Eo. assert (Bs' : zlen n' + zlen d' < 2 ^ 31 - 20) by lia. destruct (align_spec (zlen n')) as (Ha' & _); [lia|].
    rewrite (blk_bytes_eq _ _ _ Bs') in Eo.
    assert (E : exists rest, o2 = be 4 (16 + align4U32 (zlen n') + zlen d') ++ be 4 blkMarker ++ rest).
    { rewrite Eo. unfold bhead_bytes. eexists. rewrite <- !app_assoc. reflexivity. }
    destruct E as (rest & E). 
    assert (Nil : ~ has_mark []). { intros (a & c & Ec). destruct a; discriminate. }
    pose proof (mark_next [] (16 + align4U32 (zlen n') + zlen d') rest Nil ltac:(lia)) as Mk. cbn [app] in Mk. rewrite <- E in Mk.
    destruct o2 as [|q qs]; [exact Go|]. cbn [rl rn rtags]. rewrite Mk. cbn [List.length Nat.add Nat.ltb Nat.leb Nat.sub skipn]. exact Go.
Qed.
Theorem grec_read_ok {B'} (rel : (Z -> option nat) -> B -> B') perm conn its buf s : (forall l, Permutation (perm l) l) -> enc_all iwrite its (0, []) = Ok (Some (buf, s)) ->
  Forall (item_ok conn) its -> zlen buf < 2 ^ 31 - 4 -> NoDup (flat_map itags its) ->
  exists (r : Z -> option nat) (g : Z -> Z), (forall a, r (g a) = idx (flat_map itags its) a) /\ r 0 = None /\
  grec_read rel perm conn buf = Ok (Some (map (fun it => (gname (iblk it), (gver (iblk it), rel r (iconv it (pos (flat_map itags its)) g)))) its)).
Proof.
  intros Pm W F Sz N. set (L := flat_map itags its) in *. destruct (write_ext conn _ _ _ _ F winv0 W) as ((_ & Ib & Ii) & _ & Ir).
  exists (relocate (perm (map (fun a => (pos L a, idof (snd s) a)) L))), (idof (snd s)). split; [|split].
  - apply relocate_ok; auto. intros a i E. apply Ib in E. lia.
  - unfold relocate. rewrite Z.eqb_refl. reflexivity.
  - unfold grec_read. pose proof (write_len _ _ _ _ W). change 0%nat with (List.length (@nil Z)) at 1.
    rewrite (grec_loop_ok conn its (0, []) buf s winv0 W F Sz (snd s) L [] [] [] (S (List.length buf))); auto; [|apply ext_refl|lia].
    cbn [wbind fst snd app rtags]. unfold wret, iexpect. rewrite map_map. reflexivity.
Qed.
End Rec.

(* ---- blocks ---- *)
Ltac fields := repeat match goal with
  | H : shaped (_ :: _) _ |- _ => apply shaped_cons in H; let v := fresh "v" in let x' := fresh "x" in let T := fresh "T" in let L := fresh "L" in
      destruct H as (v & x' & -> & T & L & H)
  | H : shaped [] _ |- _ => apply shaped_nil in H; subst
  | H : typed (TSlice _) ?v |- _ => is_var v; let l := fresh "l" in let E := fresh "E" in let F := fresh "F" in
      destruct (typed_list _ _ H) as (l & E & F); subst v
  | H : typed TTag _ |- _ => apply typed_tag in H; let a := fresh "a" in destruct H as (a & ->)
  end.
Section Conv.
Variable narrow widen : Z -> Z.
Hypothesis narrow_range : forall z, inU 32 (narrow z).

Definition back_data {P} (c : ctype) (d : data Z Z) (at_ : Z -> nat) (ptr : Z -> P) (nil : P) : data nat P :=
  {| dflags := dflags d; dparams := vmap at_ ptr (sort_maps (dparams d)); delems := map (back narrow widen at_ ptr nil c (dflags d)) (delems d) |}.
Lemma elem_all c k fl x : coll_of c = Some k -> shaped (sch_of c) x ->
  (c = CCluster -> Z.testbit fl 31 = true -> len_of "Hits" x <= len_of "Weights" x) -> elem_ok narrow widen c k fl x.
Proof.
  intros E Sh Hc. destruct c; cbn [coll_of] in E; try discriminate E; injection E as <-.
  - apply mcParticles_ok; auto.
  - apply simTrackerHits_ok; auto.
  - apply simCaloHits_ok; auto.
  - apply rawCaloHits_ok; auto.
  - apply caloHits_ok; auto.
  - apply trackerData_ok; auto.
  - apply trackerHits_ok; auto.
  - apply trackerHitPlanes_ok; auto.
  - apply trackerHitZCylinders_ok; auto.
  - apply trackerPulses_ok; auto.
  - apply trackerRawData_ok; auto.
  - apply tracks_ok; auto.
  - apply clusters_ok; auto.
  - apply vertices_ok; auto.
  - apply recParticles_ok; auto.
  - apply relations_ok; auto.
  - apply references_ok; auto.
Qed.
Lemma perm_flat_map {A C} (f g : A -> list C) l : (forall x, In x l -> Permutation (f x) (g x)) -> Permutation (flat_map f l) (flat_map g l).
Proof. induction l as [|x l IH]; intros H; [apply perm_nil|]. cbn [flat_map]. apply Permutation_app; [apply H; cbn; auto|apply IH; intros; apply H; cbn; auto]. Qed.
Lemma coll_good c k d : coll_of c = Some k -> storable c d ->
  exists tg, Permutation tg (flat_map (ids c (dflags d)) (delems d)) /\
    good (marshal_of narrow c d) (unmarshal_of widen c 2008) (fun p i => back_data c d p i 0) tg d.
Proof.
  intros E (Hf & Hp & Hn & Hs & Hx). rewrite Forall_forall in Hs.
  assert (Ok_ : forall x, In x (delems d) -> elem_ok narrow widen c k (dflags d) x).
  { intros x J. apply elem_all; auto. intros -> B. cbn in Hx. auto. }
  exists (flat_map (tags_ops narrow (crd k (dflags d) 2008)) (delems d)). split.
  - apply perm_flat_map. intros x J. apply (Ok_ x J).
  - assert (Em : marshal_of narrow c d = marshal narrow k d) by (destruct c; cbn [coll_of] in E; try discriminate E; injection E as <-; reflexivity).
    assert (Eu : unmarshal_of widen c 2008 = unmarshal widen k 2008) by (destruct c; cbn [coll_of] in E; try discriminate E; injection E as <-; reflexivity).
    rewrite Em, Eu. eapply good_ext; [reflexivity|reflexivity| |reflexivity|apply (good_marshal narrow widen k 2008 d Hf Hp)].
    + intros p i. cbn beta. unfold back_data. f_equal. apply map_ext_in. intros x J. apply (Ok_ x J).
    + assert (H0 : 0 <= zlen (delems d)) by apply zlen_nonneg. destruct c; cbn [coll_of] in E; try discriminate E; injection E as <-; cbn [ccnt fits mcParticles]; try exact Hn; cbn; lia.
    + intros x J. destruct (Ok_ x J) as (H1 & H2 & H3 & _). auto.
Qed.
Lemma good_nil_bytes {A} (x : A) : good (wbytes []) (dret tt) (fun _ _ => tt) [] x.
Proof. apply (good_ret x). Qed.
Lemma good_counts3 {A} (y : A) x : len_of "I32s" x < 2 ^ 31 -> len_of "F32s" x < 2 ^ 31 -> len_of "F64s" x < 2 ^ 31 ->
  good (wbytes (counts3 x)) rcounts3 (fun _ _ => (Z.to_nat (len_of "I32s" x), Z.to_nat (len_of "F32s" x), Z.to_nat (len_of "F64s" x))) [] y.
Proof.
  intros H1 H2 H3. unfold counts3. fold (len_of "I32s" x) (len_of "F32s" x) (len_of "F64s" x). unfold rcounts3.
  assert (P0 : forall f, 0 <= len_of f x) by (intros; apply zlen_nonneg).
  eapply good_ext with (f := wseq (wbytes (wcount CInt (len_of "I32s" x))) (wseq (wbytes (wcount CInt (len_of "F32s" x))) (wbytes (wcount CInt (len_of "F64s" x)))));
    [intros s; reflexivity|reflexivity|reflexivity|reflexivity|].
  apply (good_wseq y _ _ _ _ (fun _ _ => Z.to_nat (len_of "I32s" x)) (fun _ _ _ _ => (Z.to_nat (len_of "I32s" x), Z.to_nat (len_of "F32s" x), Z.to_nat (len_of "F64s" x))) [] []); [apply good_count; auto; apply P0|]. intros _ _.
  apply (good_wseq y _ _ _ _ (fun _ _ => Z.to_nat (len_of "F32s" x)) (fun _ _ _ _ => (Z.to_nat (len_of "I32s" x), Z.to_nat (len_of "F32s" x), Z.to_nat (len_of "F64s" x))) [] []); [apply good_count; auto; apply P0|]. intros _ _.
  apply (good_map y _ _ (fun c => (Z.to_nat (len_of "I32s" x), Z.to_nat (len_of "F32s" x), c)) (fun _ _ => Z.to_nat (len_of "F64s" x))). apply good_count; auto; apply P0.
Qed.
Lemma generic_good d : storable CGenericObject d ->
  good (marshal_of narrow CGenericObject d) (unmarshal_of widen CGenericObject 2008) (fun p i => back_data CGenericObject d p i 0) (flat_map (ids CGenericObject (dflags d)) (delems d)) d.
Proof.
  intros (Hf & Hp & Hn & Hs & Hx). rewrite Forall_forall in Hs. cbn [marshal_of unmarshal_of]. unfold marshalGeneric, unmarshalGeneric, BitsGOFixed, bit31. rewrite test_bit by lia.
  assert (Sh : forall x, In x (delems d) -> exists a b c k, x = [("I32s", VList a); ("F32s", VList b); ("F64s", VList c); ("&", VTag k)]%string /\
    (Forall (typed i32) a /\ zlen a < 2 ^ 31) /\ (Forall (typed f32) b /\ zlen b < 2 ^ 31) /\ (Forall (typed f64) c /\ zlen c < 2 ^ 31)).
  { intros x J. specialize (Hs x J). cbn [sch_of] in Hs. unfold genericObjects in Hs. fields. eexists _, _, _, _. split; [reflexivity|]. auto 10. }
  set (sz := fun x => (Z.to_nat (len_of "I32s" x), Z.to_nat (len_of "F32s" x), Z.to_nat (len_of "F64s" x))).
  (* one element, its sizes known *)
  assert (El : forall x, In x (delems d) ->
    good (wseq (enc_all (enc true i32) (list_of (fget "I32s" x))) (wseq (enc_all (enc true f32) (list_of (fget "F32s" x)))
           (wseq (enc_all (enc true f64) (list_of (fget "F64s" x))) (enc true TTag (fget "&" x)))))
      (let '(a, b, c) := sz x in dbind (drep a (dec i32)) (fun x => dbind (drep b (dec f32)) (fun y => dbind (drep c (dec f64)) (fun z => dbind (dec TTag) (fun k =>
          dret [("I32s", VList x); ("F32s", VList y); ("F64s", VList z); ("&", k)]%string)))))
      (fun p i => back narrow widen p i 0 CGenericObject (dflags d) x) (ids CGenericObject (dflags d) x) x).
  { intros x J. destruct (Sh x J) as (a & b & c & k & -> & (Ta & _) & (Tb & _) & (Tc & _)). unfold sz, len_of. cbn [fget String.eqb Ascii.eqb Bool.eqb list_of]. unfold zlen. rewrite !Nat2Z.id.
    unfold ids, fates. cbn [fate_in find fget String.eqb Ascii.eqb Bool.eqb tags_of]. set (x := [_; _; _; _]).
    assert (Ga : forall t l, notag t = true -> Forall (typed t) l -> good (enc_all (enc true t) l) (drep (List.length l) (dec t)) (fun p i => map (vmap p i) l) [] x).
    { intros t l Nt Tl. rewrite Forall_forall in Tl. eapply good_ext with (t := flat_map tags_of l); [reflexivity|reflexivity|reflexivity| |apply (good_all' x (enc true t) (dec t) (fun v p i => vmap p i v) tags_of l); intros v Jv; apply enc_good; auto].
      apply flat_map_nil. intros v Jv. apply (typed_notag t v Nt); auto. }
    eapply good_ext with (c := fun p i => [("I32s", VList (map (vmap p i) a)); ("F32s", VList (map (vmap p i) b)); ("F64s", VList (map (vmap p i) c)); ("&", VTag (p k))]%string);
      [reflexivity|reflexivity|reflexivity|reflexivity|].
    apply (good_wseq x _ _ _ _ (fun p i => map (vmap p i) a) (fun p i p' i' => [("I32s", VList (map (vmap p i) a)); ("F32s", VList (map (vmap p' i') b)); ("F64s", VList (map (vmap p' i') c)); ("&", VTag (p' k))]%string) [] ([k] ++ [])); [apply Ga; auto|]. intros p1 i1.
    apply (good_wseq x _ _ _ _ (fun p i => map (vmap p i) b) (fun p i p' i' => [("I32s", VList (map (vmap p1 i1) a)); ("F32s", VList (map (vmap p i) b)); ("F64s", VList (map (vmap p' i') c)); ("&", VTag (p' k))]%string) [] ([k] ++ [])); [apply Ga; auto|]. intros p2 i2.
    apply (good_wseq x _ _ _ _ (fun p i => map (vmap p i) c) (fun p i p' i' => [("I32s", VList (map (vmap p1 i1) a)); ("F32s", VList (map (vmap p2 i2) b)); ("F64s", VList (map (vmap p i) c)); ("&", VTag (p' k))]%string) [] ([k] ++ [])); [apply Ga; auto|]. intros p3 i3.
    apply (good_map x _ _ (fun g => [("I32s", VList (map (vmap p1 i1) a)); ("F32s", VList (map (vmap p2 i2) b)); ("F64s", VList (map (vmap p3 i3) c)); ("&", g)]%string) (fun p i => VTag (p k))). apply (good_tag x k). }
  apply (good_wseq d _ _ _ _ (fun _ _ => VInt (dflags d)) (fun _ _ p i => back_data CGenericObject d p i 0) [] _); [apply (enc_good' d (TU 4) (VInt (dflags d))); exact Hf|].
  intros _ _. cbn [int_of]. rewrite test_bit by lia.
  apply (good_wseq d _ _ _ _ (fun p i => vmap p i (sort_maps (dparams d)))
    (fun p i p' i' => {| dflags := dflags d; dparams := vmap p i (sort_maps (dparams d)); delems := map (back narrow widen p' i' 0 CGenericObject (dflags d)) (delems d) |}) [] _); [apply good_params; exact Hp|].
  intros p0 i0. cbv zeta.
  set (sz0 := sz (match delems d with x :: _ => x | [] => [] end)).
  assert (Nil : len_of "I32s" [] = 0 /\ len_of "F32s" [] = 0 /\ len_of "F64s" [] = 0) by (cbv; auto).
  assert (Hlen : forall x, In x (delems d) -> len_of "I32s" x < 2 ^ 31 /\ len_of "F32s" x < 2 ^ 31 /\ len_of "F64s" x < 2 ^ 31).
  { intros x J. destruct (Sh x J) as (a & b & c & k & -> & (_ & La) & (_ & Lb) & (_ & Lc)). unfold len_of. cbn [fget String.eqb Ascii.eqb Bool.eqb list_of]. auto. }
  apply (good_wseq d _ _ _ _ (fun _ _ => if Z.testbit (dflags d) 31 then sz0 else (O, O, O))
    (fun _ _ p' i' => {| dflags := dflags d; dparams := vmap p0 i0 (sort_maps (dparams d)); delems := map (back narrow widen p' i' 0 CGenericObject (dflags d)) (delems d) |}) [] _).
  { destruct (Z.testbit (dflags d) 31); [|apply (good_ret d)]. apply good_counts3; destruct (delems d) as [|x l]; try (rewrite ?(proj1 Nil), ?(proj1 (proj2 Nil)), ?(proj2 (proj2 Nil)); lia); apply Hlen; cbn; auto. }
  intros _ _.
  eapply good_ext with (g := dbind (dbind (rcount CInt) (fun n => drep n
      (dbind (if Z.testbit (dflags d) 31 then dret (if Z.testbit (dflags d) 31 then sz0 else (O, O, O)) else rcounts3) (fun s => let '(a, b, c) := s in
        dbind (drep a (dec i32)) (fun x => dbind (drep b (dec f32)) (fun y => dbind (drep c (dec f64)) (fun z => dbind (dec TTag) (fun k =>
          dret [("I32s", VList x); ("F32s", VList y); ("F64s", VList z); ("&", k)]%string))))))))
     (fun es => dret {| dflags := dflags d; dparams := vmap p0 i0 (sort_maps (dparams d)); delems := es |}));
    [reflexivity|intros s; symmetry; apply (dbind_assoc (rcount CInt))|reflexivity|reflexivity|].
  apply (good_map d _ _ (fun es => {| dflags := dflags d; dparams := vmap p0 i0 (sort_maps (dparams d)); delems := es |}) (fun p i => map (back narrow widen p i 0 CGenericObject (dflags d)) (delems d))).
  apply (good_loop d _ _ (fun x p i => back narrow widen p i 0 CGenericObject (dflags d) x) (ids CGenericObject (dflags d)) CInt (delems d)); [exact Hn|].
  intros x J. change (ids CGenericObject (dflags d) x) with ([] ++ ids CGenericObject (dflags d) x).
  apply (good_wseq x _ _ _ _ (fun _ _ => sz x) (fun _ _ p i => back narrow widen p i 0 CGenericObject (dflags d) x) [] _).
  - destruct (Z.testbit (dflags d) 31) eqn:Eb.
    + assert (sz0 = sz x) as ->.
      { unfold sz0. destruct (delems d) as [|y l] eqn:Ed; [contradiction|]. cbn [storable] in Hx. destruct (Hx eq_refl y x (or_introl eq_refl) J) as (E1 & E2 & E3). unfold sz. now rewrite E1, E2, E3. }
      apply (good_ret x).
    + destruct (Hlen x J) as (L1 & L2 & L3). apply (good_counts3 x x L1 L2 L3).
  - intros _ _. apply El, J.
Qed.
Lemma block_good c d : storable c d -> exists tg, Permutation tg (flat_map (ids c (dflags d)) (delems d)) /\
    good (marshal_of narrow c d) (unmarshal_of widen c 2008) (fun p i => back_data c d p i 0) tg d.
Proof.
  intros H. destruct (coll_of c) as [k|] eqn:E; [apply (coll_good c k); auto|].
  destruct c; try discriminate E; try (destruct H as (_ & _ & _ & _ & []); fail).
  exists (flat_map (ids CGenericObject (dflags d)) (delems d)). split; [apply Permutation_refl|]. apply generic_good, H.
Qed.
End Conv.
