(* Proofs about the data model of lcio: the collections one by one. *)
From Coq Require Import ZArith List Lia Bool String Permutation.
From Verif Require Import Bytes GoLib GoStrings Bits Parse RioModel RioProofs SioModel SioProofs SioProofs2 LcioDataModel LcioDataSpec LcioDataProofs.
Import ListNotations.
Local Open Scope Z_scope.
Local Arguments be : simpl never.
Local Arguments Z.pow : simpl never.

(* ---- values without tags ---- *)
Fixpoint notag (t : ty) : bool :=
  match t with TTag => false | TSlice t' => notag t' | TMap k w => notag k && notag w | TStruct ts => forallb notag ts | _ => true end.
Lemma flat_map_nil {A B} (f : A -> list B) l : (forall x, In x l -> f x = []) -> flat_map f l = [].
Proof. induction l as [|x l IH]; intros H; [reflexivity|]. cbn [flat_map]. rewrite H, IH; cbn; auto. intros; apply H; cbn; auto. Qed.
Lemma typed_notag : forall t v, notag t = true -> typed t v -> tags_of v = [].
Proof.
  induction t as [n|n| | |t IH|k w IHk IHw|ts IH| |] using ty_ind2; intros v N T; destruct v; cbn [typed] in T; try contradiction; try reflexivity; try discriminate.
  - destruct T as (_ & T). cbn [tags_of]. apply flat_map_nil. rewrite Forall_forall in T. intros x J. apply IH; auto.
  - cbn [notag] in N. apply andb_prop in N. destruct N as (Nk & Nw). destruct T as (_ & T & _). cbn [tags_of]. apply flat_map_nil. rewrite Forall_forall in T.
    intros x J. destruct (T x J) as (_ & Tk & Tw). rewrite IHk, IHw; auto.
  - rewrite (typed_struct ts vs : _ = _) in T || idtac. change (typed_fields ts vs) in T || idtac. cbn [tags_of notag] in *.
    revert vs T. induction IH as [|t ts Ht _ IHt]; intros [|v vs] T; try contradiction; [reflexivity|]. cbn [forallb] in N. apply andb_prop in N. destruct N as (N1 & N2). destruct T as (T1 & T2).
    cbn [flat_map]. rewrite (Ht v N1 T1), (IHt N2 vs T2). reflexivity.
Qed.
Fixpoint floats (t : ty) : bool := match t with TU _ => true | TStruct ts => forallb floats ts | _ => false end.
Lemma typed_narrow (narrow : Z -> Z) (R : forall z, inU 32 (narrow z)) : forall t v, floats t = true -> typed t v -> typed (ty32 t) (on_ints narrow v).
Proof.
  induction t as [n|n| | |t IH|k w IHk IHw|ts IH| |] using ty_ind2; intros v N T; try discriminate; destruct v; cbn [typed] in T; try contradiction.
  - cbn [ty32 on_ints typed]. apply R.
  - cbn [ty32 on_ints floats] in *. revert vs T. induction IH as [|t ts Ht _ IHt]; intros [|v vs] T; try contradiction; [exact I|]. cbn [forallb] in N. apply andb_prop in N. destruct N as (N1 & N2).
    destruct T as (T1 & T2). cbn [map]. split; [apply Ht; auto|]. apply (IHt N2 vs T2).
Qed.
Lemma zero_vzero : forall t, zero t = vzero 0 t.
Proof. fix IH 1. intros [n|n| | |t|k w|ts| |]; cbn [zero vzero]; try reflexivity. f_equal. induction ts as [|t ts IHt]; [reflexivity|]. cbn [map]. now rewrite IH, IHt. Qed.
Lemma vzero_vmap {P Q} (a : P) (h : P -> Q) : forall t, vmap (fun k => k) h (vzero a t) = vzero (h a) t.
Proof. fix IH 1. intros [n|n| | |t|k w|ts| |]; cbn [vmap vzero map]; try reflexivity. f_equal. rewrite map_map. induction ts as [|t ts IHt]; [reflexivity|]. cbn [map]. now rewrite IH, IHt. Qed.

(* ---- parameters ---- *)
Lemma insert_perm {T P} (kv : val T P * val T P) l : Permutation (insert kv l) (kv :: l).
Proof.
  induction l as [|kv' l IH]; [apply Permutation_refl|]. cbn [insert]. destruct (key_leb _ _); [apply Permutation_refl|].
  eapply perm_trans; [apply perm_skip, IH|apply perm_swap].
Qed.
Lemma sort_perm {T P} (l : list (val T P * val T P)) : Permutation (sort_keys l) l.
Proof. induction l as [|kv l IH]; [apply perm_nil|]. cbn [sort_keys fold_right]. eapply perm_trans; [apply insert_perm|]. apply perm_skip, IH. Qed.
Lemma typed_perm k w l l' : Permutation l l' -> typed (TMap k w) (VMap l) -> typed (TMap k w) (VMap l').
Proof.
  intros Pm (H1 & H2 & H3). split; [|split].
  - unfold zlen in *. now rewrite <- (Permutation_length Pm).
  - rewrite Forall_forall in *. intros x J. apply H2. eapply Permutation_in; [apply Permutation_sym, Pm|exact J].
  - eapply Permutation_NoDup; [apply Permutation_map, Pm|exact H3].
Qed.
Lemma params_inv p : typed tparams p -> exists a b c, p = VStruct [VMap a; VMap b; VMap c] /\
  typed (TMap TStr (TSlice (TS 4))) (VMap a) /\ typed (TMap TStr (TSlice (TU 4))) (VMap b) /\ typed (TMap TStr (TSlice TStr)) (VMap c).
Proof.
  intros T. destruct p; try contradiction. cbn [tparams typed] in T. destruct vs as [|a [|b [|c [|]]]]; try tauto. destruct T as (Ta & Tb & Tc & _).
  destruct a; try contradiction. destruct b; try contradiction. destruct c; try contradiction. eexists _, _, _. split; [reflexivity|]. auto.
Qed.
Lemma typed_sorted p : typed tparams p -> typed tparams (sort_maps p).
Proof.
  intros T. destruct (params_inv p T) as (a & b & c & -> & Ta & Tb & Tc). cbn [sort_maps map].
  change (typed (TMap TStr (TSlice (TS 4))) (VMap (sort_keys a)) /\ typed (TMap TStr (TSlice (TU 4))) (VMap (sort_keys b)) /\ typed (TMap TStr (TSlice TStr)) (VMap (sort_keys c)) /\ True).
  split; [eapply typed_perm; [apply Permutation_sym, sort_perm|exact Ta]|]. split; [eapply typed_perm; [apply Permutation_sym, sort_perm|exact Tb]|].
  split; [eapply typed_perm; [apply Permutation_sym, sort_perm|exact Tc]|]. exact I.
Qed.
Lemma good_params {A} (x : A) p : typed tparams p -> good (wparams p) rparams (fun f g => vmap f g (sort_maps p)) [] x.
Proof.
  intros T. apply typed_sorted in T. pose proof (enc_good' x tparams _ T) as G. rewrite (typed_notag tparams _ eq_refl T) in G. exact G.
Qed.
Lemma same_sorted {T P} (f : Z -> T) (g : Z -> P) p : typed tparams p -> same_maps (vmap f g (sort_maps p)) (vmap f g p).
Proof.
  intros Tp. destruct (params_inv p Tp) as (a & b & c & -> & _). cbn [sort_maps map vmap same_maps].
  split; [|split]; apply Permutation_map, sort_perm.
Qed.

Section Conv.
Variable narrow widen : Z -> Z.
Hypothesis narrow_range : forall z, inU 32 (narrow z).

(* a collection with the operations [l] for its elements *)
Lemma good_marshal (k : coll) ver (d : data Z Z) : inU 32 (dflags d) -> typed tparams (dparams d) -> fits (ccnt k) (zlen (delems d)) ->
  (forall x, In x (delems d) -> (forall s, wops narrow (cwr k (dflags d)) x s = wops narrow (crd k (dflags d) ver) x s) /\
     typed_ops narrow (crd k (dflags d) ver) x /\ sync narrow widen (crd k (dflags d) ver) x (fresh (csch k))) ->
  good (marshal narrow k d) (unmarshal widen k ver)
    (fun p i => {| dflags := dflags d; dparams := vmap p i (sort_maps (dparams d)); delems := map (fun x => afters narrow widen (crd k (dflags d) ver) x p i (fresh (csch k))) (delems d) |})
    (flat_map (tags_ops narrow (crd k (dflags d) ver)) (delems d)) d.
Proof.
  intros Hf Hp Hn H. unfold marshal, unmarshal.
  apply (good_wseq d _ _ _ _ (fun _ _ => VInt (dflags d)) (fun _ _ p i => {| dflags := dflags d; dparams := vmap p i (sort_maps (dparams d)); delems := map (fun x => afters narrow widen (crd k (dflags d) ver) x p i (fresh (csch k))) (delems d) |}) [] _).
  { apply (enc_good' d (TU 4) (VInt (dflags d))). exact Hf. }
  intros _ _. cbn [int_of].
  apply (good_wseq d _ _ _ _ (fun p i => vmap p i (sort_maps (dparams d))) (fun p i p' i' => {| dflags := dflags d; dparams := vmap p i (sort_maps (dparams d)); delems := map (fun x => afters narrow widen (crd k (dflags d) ver) x p' i' (fresh (csch k))) (delems d) |}) [] _).
  { apply good_params. exact Hp. }
  intros p0 i0.
  eapply good_ext with (g := dbind (dbind (rcount (ccnt k)) (fun n => drep n (rops widen (crd k (dflags d) ver) (fresh (csch k))))) (fun es => dret {| dflags := dflags d; dparams := vmap p0 i0 (sort_maps (dparams d)); delems := es |}));
    [reflexivity|intros s; symmetry; apply dbind_assoc|reflexivity|reflexivity|].
  apply (good_map d _ _ (fun es => {| dflags := dflags d; dparams := vmap p0 i0 (sort_maps (dparams d)); delems := es |}) (fun p i => map (fun x => afters narrow widen (crd k (dflags d) ver) x p i (fresh (csch k))) (delems d))).
  apply (good_loop d (wops narrow (cwr k (dflags d))) (rops widen (crd k (dflags d) ver) (fresh (csch k))) (fun x p i => afters narrow widen (crd k (dflags d) ver) x p i (fresh (csch k))) (tags_ops narrow (crd k (dflags d) ver))); auto.
  intros x J. destruct (H x J) as (Hw & Ht & Hs). eapply good_ext; [intros s; apply Hw|reflexivity|reflexivity|reflexivity|]. apply good_ops_all; auto.
Qed.

(* ---- the collections ---- *)
Lemma test_bit fl k : 0 <= k -> test fl (2 ^ k) = Z.testbit fl k.
Proof.
  intros Hk. unfold test. destruct (Z.testbit fl k) eqn:E.
  - destruct (Z.eqb_spec (Z.land fl (2 ^ k)) 0) as [Z0|]; [|reflexivity]. exfalso.
    assert (T : Z.testbit (Z.land fl (2 ^ k)) k = true) by (rewrite Z.land_spec, E, Z.pow2_bits_true by lia; reflexivity). rewrite Z0, Z.bits_0 in T. discriminate.
  - destruct (Z.eqb_spec (Z.land fl (2 ^ k)) 0) as [|N]; [reflexivity|]. exfalso. apply N. apply Z.bits_inj'. intros n Hn.
    rewrite Z.land_spec, Z.bits_0, Z.pow2_bits_eqb by lia. destruct (Z.eqb_spec k n) as [<-|]; [now rewrite E|apply andb_false_r].
Qed.

Lemma shaped_cons f t s x : shaped ((f, t) :: s) x -> exists v x', x = (f, v) :: x' /\ typed t v /\ zlen (list_of v) < 2 ^ 31 /\ shaped s x'.
Proof.
  intros H. unfold shaped in H. inversion H as [|? (g & v) ? x' (E & T & L) F]; subst. cbn [fst snd] in *. subst g. exists v, x'. auto.
Qed.
Lemma shaped_nil x : shaped [] x -> x = [].
Proof. intros H. inversion H. reflexivity. Qed.
(* an element of a collection whose operations are those of the spec *)
Definition elem_ok (c : ctype) (k : coll) (fl : Z) (x : obj Z Z) : Prop :=
  (forall s, wops narrow (cwr k fl) x s = wops narrow (crd k fl 2008) x s) /\
  typed_ops narrow (crd k fl 2008) x /\ sync narrow widen (crd k fl 2008) x (fresh (csch k)) /\
  (forall p i, afters narrow widen (crd k fl 2008) x p i (fresh (csch k)) = back narrow widen p i 0 c fl x) /\
  Permutation (tags_ops narrow (crd k fl 2008) x) (ids c fl x).
Lemma typed_list t v : typed (TSlice t) v -> exists l, v = VList l /\ Forall (typed t) l.
Proof. destruct v; cbn [typed]; try contradiction. intros (_ & H). eauto. Qed.
Lemma typed_tag v : typed TTag v -> exists a, v = VTag a.
Proof. destruct v; cbn [typed]; try contradiction. eauto. Qed.

Definition plain_op (o : op) : bool := match o with Bt _ _ _ | Vc _ _ _ _ => false | _ => true end.
Lemma sync_plain l x : forallb plain_op l = true -> forall xr, sync narrow widen l x xr.
Proof.
  induction l as [|o l IH]; intros H xr; [exact I|]. cbn [forallb] in H. apply andb_prop in H. destruct H as (Ho & Hl). cbn [sync].
  split; [destruct o; try discriminate; exact I|]. intros p i. apply IH, Hl.
Qed.
Definition flat_op (o : op) : bool := match o with Bt _ _ _ => false | Vc _ _ _ l => forallb plain_op l | _ => true end.
Lemma sync_flat l x : forallb flat_op l = true -> forall xr, sync narrow widen l x xr.
Proof.
  induction l as [|o l IH]; intros H xr; [exact I|]. cbn [forallb] in H. apply andb_prop in H. destruct H as (Ho & Hl). cbn [sync].
  split; [destruct o; try discriminate; try exact I|].
  - cbn [sync_op]. intros e. apply sync_fix'. apply sync_plain. exact Ho.
  - intros p i. apply IH, Hl.
Qed.
(* the elements of a field that is a slice of structs *)
Lemma vc_typed f c sc l x es : fget f x = VList es -> fits c (zlen es) -> (forall e, In e es -> typed_ops narrow l (names sc e)) -> typed_op narrow (Vc f c sc l) x.
Proof.
  intros E F H. cbn [typed_op]. rewrite E. cbn [list_of]. split; [exact F|]. rewrite Forall_forall. intros e J. rewrite typed_ops_fix. auto.
Qed.
Lemma vc_after f c sc l x p i xr es g : fget f x = VList es -> (forall e, In e es -> vals (afters narrow widen l (names sc e) p i (fresh sc)) = g e) ->
  after narrow widen (Vc f c sc l) x p i xr = fset f (VList (map g es)) xr.
Proof. intros E H. cbn [after]. rewrite E. cbn [list_of]. do 2 f_equal. apply map_ext_in. exact H. Qed.
Lemma vc_tags f c sc l x es t : fget f x = VList es -> (forall e, In e es -> tags_ops narrow l (names sc e) = t e) -> tags_op narrow (Vc f c sc l) x = flat_map t es.
Proof.
  intros E H. cbn [tags_op]. rewrite E. cbn [list_of]. clear E. induction es as [|e es IH]; [reflexivity|]. cbn [flat_map].
  unfold tags_ops in H. rewrite H by (cbn; auto). rewrite IH; [reflexivity|]. intros; apply H; cbn; auto.
Qed.
Ltac fields := repeat match goal with
  | H : shaped (_ :: _) _ |- _ => apply shaped_cons in H; let v := fresh "v" in let x' := fresh "x" in let T := fresh "T" in let L := fresh "L" in
      destruct H as (v & x' & -> & T & L & H)
  | H : shaped [] _ |- _ => apply shaped_nil in H; subst
  | H : typed (TSlice _) ?v |- _ => is_var v; let l := fresh "l" in let E := fresh "E" in let F := fresh "F" in
      destruct (typed_list _ _ H) as (l & E & F); subst v
  | H : typed TTag _ |- _ => apply typed_tag in H; let a := fresh "a" in destruct H as (a & ->)
  end.
Ltac bits fl := unfold BitsChLong, BitsChID1, BitsChStep, BitsRChLong, BitsRChID1, BitsRChNoPtr, BitsRChTime, BitsRChEnergyError, BitsTRawID1, BitsTRawCM,
    BitsThMomentum, BitsThID1, BitsTrHits, BitsClHits, BitsRelWeighted, BitsGOFixed, bit31, bit30, bit29, bit28, bit27, bit26;
  rewrite ?(test_bit fl 31), ?(test_bit fl 30), ?(test_bit fl 29), ?(test_bit fl 28), ?(test_bit fl 27), ?(test_bit fl 26) by lia.
Ltac cases fl := repeat match goal with |- context [Z.testbit fl ?k] => destruct (Z.testbit fl k) end.
Ltac notags := repeat match goal with
  | H : typed ?t ?v |- context [tags_of ?v] => rewrite (typed_notag t v eq_refl H)
  | H : typed ?t (VList ?l) |- context [flat_map tags_of ?l] => change (flat_map tags_of l) with (tags_of (VList l)); rewrite (typed_notag t (VList l) eq_refl H)
  | H : typed ?t ?v |- context [tags_of (on_ints narrow ?v)] => rewrite (typed_notag (ty32 t) (on_ints narrow v) eq_refl (typed_narrow narrow narrow_range t v eq_refl H))
  end.
Ltac elem := cbn [when app negb cwr] ; split; [reflexivity|split; [|split; [|split]]];
  [cbn [typed_ops typed_op fget String.eqb Ascii.eqb Bool.eqb fits list_of tag]; repeat match goal with |- _ /\ _ => split end; auto; try exact I; try (apply typed_narrow; auto; reflexivity)
  |try (apply sync_flat; reflexivity)
  |intros p i; try reflexivity
  |unfold tags_ops; cbn [flat_map tags_op fget String.eqb Ascii.eqb Bool.eqb tag list_of]; notags; try apply Permutation_refl].

Lemma caloHits_ok fl x : shaped (sch_of CCalorimeterHit) x -> elem_ok CCalorimeterHit caloHits fl x.
Proof.
  intros H. unfold elem_ok. change (crd caloHits fl 2008) with (cwr caloHits fl). cbn [sch_of coll_of csch caloHits] in H. fields.
  unfold caloHits, back, ids, fates, tag. cbn [cwr csch]. bits fl. cases fl; elem.
Qed.
Lemma rawCaloHits_ok fl x : shaped (sch_of CRawCalorimeterHit) x -> elem_ok CRawCalorimeterHit rawCaloHits fl x.
Proof.
  intros H. unfold elem_ok. change (crd rawCaloHits fl 2008) with (cwr rawCaloHits fl). cbn [sch_of coll_of csch rawCaloHits] in H. fields.
  unfold rawCaloHits, back, ids, fates, tag. cbn [cwr csch]. bits fl. cases fl; elem.
Qed.
Lemma simTrackerHits_ok fl x : shaped (sch_of CSimTrackerHit) x -> elem_ok CSimTrackerHit simTrackerHits fl x.
Proof.
  intros H. unfold elem_ok. change (crd simTrackerHits fl 2008) with (cwr simTrackerHits fl). cbn [sch_of coll_of csch simTrackerHits] in H. fields.
  unfold simTrackerHits, back, ids, fates, tag. cbn [cwr csch]. bits fl. cases fl; elem.
Qed.
Lemma trackerData_ok fl x : shaped (sch_of CTrackerData) x -> elem_ok CTrackerData trackerData fl x.
Proof.
  intros H. unfold elem_ok. change (crd trackerData fl 2008) with (cwr trackerData fl). cbn [sch_of coll_of csch trackerData] in H. fields.
  unfold trackerData, back, ids, fates, tag. cbn [cwr csch]. bits fl. cases fl; elem.
Qed.
Lemma trackerHits_ok fl x : shaped (sch_of CTrackerHit) x -> elem_ok CTrackerHit trackerHits fl x.
Proof.
  intros H. unfold elem_ok. change (crd trackerHits fl 2008) with (cwr trackerHits fl). cbn [sch_of coll_of csch trackerHits] in H. fields.
  unfold trackerHits, back, ids, fates, tag. cbn [cwr csch]. bits fl. cases fl; elem.
Qed.
Lemma trackerHitPlanes_ok fl x : shaped (sch_of CTrackerHitPlane) x -> elem_ok CTrackerHitPlane trackerHitPlanes fl x.
Proof.
  intros H. unfold elem_ok. change (crd trackerHitPlanes fl 2008) with (cwr trackerHitPlanes fl). cbn [sch_of coll_of csch trackerHitPlanes] in H. fields.
  unfold trackerHitPlanes, back, ids, fates, tag. cbn [cwr csch]. bits fl. cases fl; elem.
Qed.
Lemma trackerHitZCylinders_ok fl x : shaped (sch_of CTrackerHitZCylinder) x -> elem_ok CTrackerHitZCylinder trackerHitZCylinders fl x.
Proof.
  intros H. unfold elem_ok. change (crd trackerHitZCylinders fl 2008) with (cwr trackerHitZCylinders fl). cbn [sch_of coll_of csch trackerHitZCylinders] in H. fields.
  unfold trackerHitZCylinders, back, ids, fates, tag. cbn [cwr csch]. bits fl. cases fl; elem.
Qed.
Lemma trackerPulses_ok fl x : shaped (sch_of CTrackerPulse) x -> elem_ok CTrackerPulse trackerPulses fl x.
Proof.
  intros H. unfold elem_ok. change (crd trackerPulses fl 2008) with (cwr trackerPulses fl). cbn [sch_of coll_of csch trackerPulses] in H. fields.
  unfold trackerPulses, back, ids, fates, tag. cbn [cwr csch]. bits fl. cases fl; elem.
Qed.
Lemma trackerRawData_ok fl x : shaped (sch_of CTrackerRawData) x -> elem_ok CTrackerRawData trackerRawData fl x.
Proof.
  intros H. unfold elem_ok. change (crd trackerRawData fl 2008) with (cwr trackerRawData fl). cbn [sch_of coll_of csch trackerRawData] in H. fields.
  unfold trackerRawData, back, ids, fates, tag. cbn [cwr csch]. bits fl. cases fl; elem.
Qed.
Lemma vertices_ok fl x : shaped (sch_of CVertex) x -> elem_ok CVertex vertices fl x.
Proof.
  intros H. unfold elem_ok. change (crd vertices fl 2008) with (cwr vertices fl). cbn [sch_of coll_of csch vertices] in H. fields.
  unfold vertices, back, ids, fates, tag. cbn [cwr csch]. bits fl. cases fl; elem.
Qed.
Lemma relations_ok fl x : shaped (sch_of CRelation) x -> elem_ok CRelation relations fl x.
Proof.
  intros H. unfold elem_ok. change (crd relations fl 2008) with (cwr relations fl). cbn [sch_of coll_of csch relations] in H. fields.
  unfold relations, back, ids, fates, tag. cbn [cwr csch]. bits fl. cases fl; elem.
Qed.
Lemma references_ok fl x : shaped (sch_of CReferences) x -> elem_ok CReferences references fl x.
Proof.
  intros H. unfold elem_ok. change (crd references fl 2008) with (cwr references fl). cbn [sch_of coll_of csch references] in H. fields.
  unfold references, back, ids, fates, tag. cbn [cwr csch]. bits fl. cases fl; elem.
Qed.

(* structs inside *)
Lemma struct_inv ts e : typed (TStruct ts) e -> exists vs, e = VStruct vs /\ typed_fields ts vs.
Proof. destruct e; try contradiction. intros T. rewrite typed_struct in T. eauto. Qed.
Lemma tf_cons t ts vs : typed_fields (t :: ts) vs -> exists v vs', vs = v :: vs' /\ typed t v /\ typed_fields ts vs'.
Proof. destruct vs; [contradiction|]. intros (H1 & H2). eauto. Qed.
Lemma tf_nil vs : typed_fields [] vs -> vs = [].
Proof. destruct vs; [reflexivity|contradiction]. Qed.
Ltac struct sc := match goal with H : typed (TStruct _) ?e |- _ => apply struct_inv in H; let vs := fresh "vs" in destruct H as (vs & -> & H); unfold sc in H; cbn [map snd] in H end;
  repeat match goal with
  | H : typed_fields (_ :: _) _ |- _ => apply tf_cons in H; let v := fresh "v" in let vs := fresh "vs" in let T := fresh "T" in destruct H as (v & vs & -> & T & H)
  | H : typed_fields [] _ |- _ => apply tf_nil in H; subst
  | H : typed TTag _ |- _ => apply typed_tag in H; let a := fresh "a" in destruct H as (a & ->)
  end.
Ltac inner sc := struct sc; cbv zeta; cbn [app when]; split; [|split];
  [cbn [typed_ops typed_op fget String.eqb Ascii.eqb Bool.eqb names combine map fst sc]; repeat match goal with |- _ /\ _ => split end; auto; exact I
  |unfold tags_ops; cbn [flat_map tags_op fget String.eqb Ascii.eqb Bool.eqb names combine map fst sc]; notags; reflexivity
  |intros p i; reflexivity].
Lemma contrib_ok (b : bool) e : typed (TStruct (map snd contrib)) e ->
  let l := [Fd "Mc" TPtr; Fd "Energy" f32; Fd "Time" f32] ++ when b [Fd "PDG" i32; Fd "StepPos" (arr 3 f32)] in
  typed_ops narrow l (names contrib e) /\ tags_ops narrow l (names contrib e) = [] /\
  forall p i, vals (afters narrow widen l (names contrib e) p i (fresh contrib)) =
    VStruct (map (fun fw => if existsb (String.eqb (fst (fst fw))) (if b then [] else ["PDG"; "StepPos"]%string) then vzero 0 (snd (fst fw)) else vmap p i (snd fw))
                 (combine contrib (match e with VStruct vs => vs | _ => [] end))).
Proof. intros T. destruct b; inner contrib. Qed.
Lemma trackState_ok e : typed (TStruct (map snd trackState)) e ->
  let l := [Fd "Loc" i32; Fd "D0" f32; Fd "Phi" f32; Fd "Omega" f32; Fd "Z0" f32; Fd "TanL" f32; Fd "Cov" (arr 15 f32); Fd "Ref" (arr 3 f32)] in
  typed_ops narrow l (names trackState e) /\ tags_ops narrow l (names trackState e) = [] /\
  forall p i, vals (afters narrow widen l (names trackState e) p i (fresh trackState)) = vmap p i e.
Proof. intros T. inner trackState. Qed.
Lemma pid_ok e : typed (TStruct (map snd pid)) e ->
  typed_ops narrow pid_ops (names pid e) /\ tags_ops narrow pid_ops (names pid e) = [] /\
  forall p i, vals (afters narrow widen pid_ops (names pid e) p i (fresh pid)) =
    VStruct (map (fun fw => if existsb (String.eqb (fst (fst fw))) ["&"]%string then vzero 0 (snd (fst fw)) else vmap p i (snd fw)) (combine pid (match e with VStruct vs => vs | _ => [] end))).
Proof. intros T. unfold pid_ops. inner pid. Qed.
Lemma pid_tag_ok e : typed (TStruct (map snd pid)) e ->
  typed_ops narrow (pid_ops ++ [tag]) (names pid e) /\ tags_ops narrow (pid_ops ++ [tag]) (names pid e) = tags_of e /\
  forall p i, vals (afters narrow widen (pid_ops ++ [tag]) (names pid e) p i (fresh pid)) = vmap p i e.
Proof.
  intros T. unfold pid_ops, tag. struct pid. split; [|split].
  - cbn [app typed_ops typed_op fget String.eqb Ascii.eqb Bool.eqb names combine map fst pid]. repeat match goal with |- _ /\ _ => split end; auto; exact I.
  - unfold tags_ops. cbn [app flat_map tags_op fget String.eqb Ascii.eqb Bool.eqb names combine map fst pid tags_of]. notags. reflexivity.
  - intros p i. reflexivity.
Qed.

Lemma in_typed {t es e} : Forall (typed t) es -> In e es -> typed t e.
Proof. rewrite Forall_forall. auto. Qed.
Ltac typed_fields_ := cbn [typed_ops typed_op fget String.eqb Ascii.eqb Bool.eqb fits list_of]; repeat match goal with |- _ /\ _ => split end; auto; try exact I; try (apply typed_narrow; auto; reflexivity).

Lemma simCaloHits_ok fl x : shaped (sch_of CSimCalorimeterHit) x -> elem_ok CSimCalorimeterHit simCaloHits fl x.
Proof.
  intros H. unfold elem_ok. change (crd simCaloHits fl 2008) with (cwr simCaloHits fl). cbn [sch_of coll_of csch simCaloHits] in H. fields.
  unfold simCaloHits, back, ids, fates, tag. cbn [cwr csch]. bits fl.
  match goal with |- context [Vc "Contributions" CInt contrib ?o] => set (in_ := o) end.
  match goal with T : Forall (typed (TStruct (map snd contrib))) ?es |- _ => set (cs := es) in *;
    pose proof (fun e J => contrib_ok (Z.testbit fl 28) e (in_typed T J)) as Hc; cbv zeta in Hc; fold in_ in Hc end.
  split; [reflexivity|]. split; [|split; [|split]].
  - assert (Tv : forall x, fget "Contributions" x = VList cs -> typed_op narrow (Vc "Contributions" CInt contrib in_) x).
    { intros x Ex. apply (vc_typed _ _ _ _ _ cs Ex); [assumption|]. intros e J. apply Hc, J. }
    generalize dependent (Vc "Contributions" CInt contrib in_). intros o Tv. cases fl; cbn [when app]; typed_fields_; apply Tv; reflexivity.
  - apply sync_flat. subst in_. cases fl; reflexivity.
  - intros p i. unfold afters. 
    assert (Av : forall x xr, fget "Contributions" x = VList cs -> after narrow widen (Vc "Contributions" CInt contrib in_) x p i xr = fset "Contributions" (VList (map (fun e => VStruct (map (fun fw => if existsb (String.eqb (fst (fst fw))) (if Z.testbit fl 28 then [] else ["PDG"; "StepPos"]%string) then vzero 0 (snd (fst fw)) else vmap p i (snd fw))
                 (combine contrib (match e with VStruct vs => vs | _ => [] end)))) cs)) xr).
    { intros x xr Ex. apply (vc_after _ _ _ _ _ _ _ _ cs); [exact Ex|]. intros e J. apply Hc, J. }
    generalize dependent (Vc "Contributions" CInt contrib in_). intros o Av. destruct (Z.testbit fl 29), (Z.testbit fl 31); cbn [when app fold_left]; rewrite Av by reflexivity; reflexivity.
  - assert (Gv : forall x, fget "Contributions" x = VList cs -> tags_op narrow (Vc "Contributions" CInt contrib in_) x = []).
    { intros x Ex. rewrite (vc_tags _ _ _ _ _ cs (fun _ => []) Ex); [|intros e J; apply Hc, J]. clear. induction cs; auto. }
    generalize dependent (Vc "Contributions" CInt contrib in_). intros o Gv. unfold tags_ops.
    destruct (Z.testbit fl 29), (Z.testbit fl 31); cbn [when app flat_map]; rewrite Gv by reflexivity; cbn [tags_op fget String.eqb Ascii.eqb Bool.eqb]; notags; apply Permutation_refl.
Qed.

Lemma tracks_ok fl x : shaped (sch_of CTrack) x -> elem_ok CTrack tracks fl x.
Proof.
  intros H. unfold elem_ok. change (crd tracks fl 2008) with (cwr tracks fl). cbn [sch_of coll_of csch tracks] in H. fields.
  unfold tracks, back, ids, fates, tag. cbn [cwr csch]. bits fl.
  match goal with |- context [Vc "States" CInt trackState ?o] => set (in_ := o) end.
  match goal with T : Forall (typed (TStruct (map snd trackState))) ?es |- _ => set (cs := es) in *;
    pose proof (fun e J => trackState_ok e (in_typed T J)) as Hc; cbv zeta in Hc; fold in_ in Hc end.
  split; [reflexivity|]. split; [|split; [|split]].
  - assert (Tv : forall x, fget "States" x = VList cs -> typed_op narrow (Vc "States" CInt trackState in_) x).
    { intros x Ex. apply (vc_typed _ _ _ _ _ cs Ex); [assumption|]. intros e J. apply Hc, J. }
    generalize dependent (Vc "States" CInt trackState in_). intros o Tv. cases fl; cbn [when app]; typed_fields_; apply Tv; reflexivity.
  - apply sync_flat. subst in_. cases fl; reflexivity.
  - intros p i. unfold afters.
    assert (Av : forall x xr, fget "States" x = VList cs -> after narrow widen (Vc "States" CInt trackState in_) x p i xr = fset "States" (VList (map (vmap p i) cs)) xr).
    { intros x xr Ex. apply (vc_after _ _ _ _ _ _ _ _ cs); [exact Ex|]. intros e J. apply Hc, J. }
    generalize dependent (Vc "States" CInt trackState in_). intros o Av. cases fl; cbn [when app fold_left]; rewrite Av by reflexivity; reflexivity.
  - assert (Gv : forall x, fget "States" x = VList cs -> tags_op narrow (Vc "States" CInt trackState in_) x = []).
    { intros x Ex. rewrite (vc_tags _ _ _ _ _ cs (fun _ => []) Ex); [|intros e J; apply Hc, J]. clear. induction cs; auto. }
    generalize dependent (Vc "States" CInt trackState in_). intros o Gv. unfold tags_ops.
    cases fl; cbn [when app flat_map]; rewrite Gv by reflexivity; cbn [tags_op fget String.eqb Ascii.eqb Bool.eqb list_of]; notags; apply Permutation_refl.
Qed.
Lemma recParticles_ok fl x : shaped (sch_of CRecParticle) x -> elem_ok CRecParticle recParticles fl x.
Proof.
  intros H. unfold elem_ok. change (crd recParticles fl 2008) with (cwr recParticles fl). cbn [sch_of coll_of csch recParticles] in H. fields.
  unfold recParticles, back, ids, fates. cbn [cwr csch].
  match goal with T : Forall (typed (TStruct (map snd pid))) ?es |- _ => set (cs := es) in *;
    pose proof (fun e J => pid_tag_ok e (in_typed T J)) as Hc; cbv zeta in Hc end.
  set (in_ := pid_ops ++ [tag]) in *. unfold tag.
  split; [reflexivity|]. split; [|split; [|split]].
  - assert (Tv : forall x, fget "PIDs" x = VList cs -> typed_op narrow (Vc "PIDs" CInt pid in_) x).
    { intros x Ex. apply (vc_typed _ _ _ _ _ cs Ex); [assumption|]. intros e J. apply Hc, J. }
    generalize dependent (Vc "PIDs" CInt pid in_). intros o Tv. cbn [when app]; typed_fields_; apply Tv; reflexivity.
  - apply sync_flat. reflexivity.
  - intros p i. unfold afters.
    assert (Av : forall x xr, fget "PIDs" x = VList cs -> after narrow widen (Vc "PIDs" CInt pid in_) x p i xr = fset "PIDs" (VList (map (vmap p i) cs)) xr).
    { intros x xr Ex. apply (vc_after _ _ _ _ _ _ _ _ cs); [exact Ex|]. intros e J. apply Hc, J. }
    generalize dependent (Vc "PIDs" CInt pid in_). intros o Av. cbn [when app fold_left]; rewrite Av by reflexivity; reflexivity.
  - assert (Gv : forall x, fget "PIDs" x = VList cs -> tags_op narrow (Vc "PIDs" CInt pid in_) x = flat_map tags_of cs).
    { intros x Ex. apply (vc_tags _ _ _ _ _ cs tags_of Ex). intros e J; apply Hc, J. }
    generalize dependent (Vc "PIDs" CInt pid in_). intros o Gv. unfold tags_ops.
    cbn [when app flat_map]; rewrite Gv by reflexivity; cbn [tags_op fget String.eqb Ascii.eqb Bool.eqb list_of tags_of fate_in find]; notags. cbn [app]. apply Permutation_sym, Permutation_cons_append.
Qed.
Lemma slice_ls t f l : (forall x s, fget f x = VList l -> wop narrow (Fd f (TSlice t)) x s = wop narrow (Ls f CInt t) x s).
Proof. intros x s E. cbn [LcioDataModel.wop]. rewrite E. cbn [enc list_of wcount]. unfold wseq, wbytes. cbn [wret wbind fst snd]. reflexivity. Qed.
Lemma clusters_ok fl x : shaped (sch_of CCluster) x -> (Z.testbit fl 31 = true -> len_of "Hits" x <= len_of "Weights" x) -> elem_ok CCluster clusters fl x.
Proof.
  intros H HW. unfold elem_ok. cbn [sch_of coll_of csch clusters] in H. fields.
  unfold clusters, back, ids, fates, tag. cbn [cwr crd csch]. change (1002 <? 2008) with true. change (1051 <? 2008) with true. cbn [when]. bits fl.
  match goal with T : Forall (typed (TStruct (map snd pid))) ?es |- _ => set (cs := es) in *;
    pose proof (fun e J => pid_ok e (in_typed T J)) as Hc; cbv zeta in Hc end.
  split; [|split; [|split; [|split]]].
  - intros s. assert (Eq : forall l1 l2 x0 sh, fget "Shape" x0 = VList sh -> forall s, wops narrow (l1 ++ Fd "Shape" (TSlice f32) :: l2) x0 s = wops narrow (l1 ++ Ls "Shape" CInt f32 :: l2) x0 s).
    { clear. intros l1 l2 x0 sh E. induction l1 as [|o l1 IH]; intros s; cbn [app LcioDataModel.wops].
      - unfold wseq. rewrite (slice_ls f32 "Shape" sh x0 s E). reflexivity.
      - unfold wseq. destruct (wop narrow o x0 s) as [[r|]|]; cbn [wbind]; auto. now rewrite IH. }
    cases fl; cbn [when app]; refine (Eq [Fd "Type" i32; Fd "Energy" f32; Fd "EnergyErr" f32; Fd "Pos" (arr 3 f32); Fd "PosErr" (arr 6 f32); Fd "Theta" f32; Fd "Phi" f32; Fd "DirErr" (arr 3 f32)] _ _ _ _ s); reflexivity.
  - assert (Tv : forall x, fget "PIDs" x = VList cs -> typed_op narrow (Vc "PIDs" CInt pid pid_ops) x).
    { intros x Ex. apply (vc_typed _ _ _ _ _ cs Ex); [assumption|]. intros e J. apply Hc, J. }
    generalize dependent (Vc "PIDs" CInt pid pid_ops). intros o Tv. cases fl; cbn [when app]; typed_fields_; try (apply Tv; reflexivity).
  - apply sync_flat. cases fl; reflexivity.
  - intros p i. unfold afters.
    assert (Av : forall x xr, fget "PIDs" x = VList cs -> after narrow widen (Vc "PIDs" CInt pid pid_ops) x p i xr = fset "PIDs" (VList (map (fun e => VStruct (map (fun fw => if existsb (String.eqb (fst (fst fw))) ["&"]%string then vzero 0 (snd (fst fw)) else vmap p i (snd fw)) (combine pid (match e with VStruct vs => vs | _ => [] end)))) cs)) xr).
    { intros x xr Ex. apply (vc_after _ _ _ _ _ _ _ _ cs); [exact Ex|]. intros e J. apply Hc, J. }
    generalize dependent (Vc "PIDs" CInt pid pid_ops). intros o Av. cases fl; cbn [when app fold_left]; rewrite Av by reflexivity; reflexivity.
  - assert (Gv : forall x, fget "PIDs" x = VList cs -> tags_op narrow (Vc "PIDs" CInt pid pid_ops) x = []).
    { intros x Ex. rewrite (vc_tags _ _ _ _ _ cs (fun _ => []) Ex); [|intros e J; apply Hc, J]. clear. induction cs; auto. }
    generalize dependent (Vc "PIDs" CInt pid pid_ops). intros o Gv. unfold tags_ops.
    cases fl; cbn [when app flat_map]; rewrite Gv by reflexivity; cbn [tags_op fget String.eqb Ascii.eqb Bool.eqb list_of]; notags; try apply Permutation_refl.
    rewrite flat_map_nil; [apply Permutation_refl|]. intros (h & w) J. cbn [fst snd].
    match goal with Th : Forall (typed TPtr) ?hs, Tw : Forall (typed f32) ?ws, J : In (h, w) (combine ?hs ?ws) |- _ =>
      rewrite (typed_notag TPtr h eq_refl (in_typed Th (in_combine_l _ _ _ _ J))), (typed_notag f32 w eq_refl (in_typed Tw (in_combine_r _ _ _ _ J))) end. reflexivity.
Qed.
Lemma mcParticles_ok fl x : shaped (sch_of CMcParticle) x -> elem_ok CMcParticle mcParticles fl x.
Proof.
  intros H. unfold elem_ok. change (crd mcParticles fl 2008) with (cwr mcParticles fl). cbn [sch_of coll_of csch mcParticles] in H. fields.
  unfold mcParticles, back, ids, fates, tag. cbn [cwr csch].
  match goal with T : typed (TU 4) ?v |- context [("SimStatus"%string, ?v)] => destruct v as [st| | | | | |]; try contradiction end.
  split; [reflexivity|]. split; [|split; [|split]].
  - typed_fields_. intros _. repeat split; auto. apply typed_narrow; auto.
  - cbn [sync]. repeat (split; [exact I|intros ? ?]). split; [|intros ? ?; split; [exact I|intros ? ?; split; [exact I|intros ? ?; exact I]]].
    cbn [sync_op]. split; [reflexivity|]. split; [exact I|]. intros ? ?. split; [exact I|]. intros ? ?. exact I.
  - intros p i. unfold afters. cbn [fold_left]. cbn [fget String.eqb Ascii.eqb Bool.eqb int_of].
    assert (Ab : forall x xr, fget "SimStatus" x = VInt st -> after narrow widen (Bt "SimStatus" bit31 [Fd "endPoint" (arr 3 f64); Nr "PEndPoint" (arr 3 f64)]) x p i xr =
      if Z.testbit st 31 then after narrow widen (Nr "PEndPoint" (arr 3 f64)) x p i (after narrow widen (Fd "endPoint" (arr 3 f64)) x p i xr) else xr).
    { intros x xr Ex. cbn [after]. rewrite Ex. cbn [int_of]. unfold bit31. rewrite test_bit by lia. destruct (Z.testbit st 31); reflexivity. }
    rewrite Ab by reflexivity. clear Ab. destruct (Z.testbit st 31); reflexivity.
  - unfold tags_ops. cbn [flat_map tags_op fget String.eqb Ascii.eqb Bool.eqb list_of int_of]. notags. destruct (test st bit31); apply Permutation_refl.
Qed.
End Conv.
