(* Proofs about sio: values, tags and pointers. *)
From Coq Require Import ZArith List Lia Bool.
From Verif Require Import Bytes GoLib GoStrings Bits Parse RioModel RioProofs SioModel.
Import ListNotations.
Local Open Scope Z_scope.
Local Arguments be : simpl never.
Local Arguments Z.pow : simpl never.

Lemma align_eq n : align4U32 n = rioAlignU32 n.
Proof. reflexivity. Qed.
Lemma align_spec n : 0 <= n < 2 ^ 32 - 3 -> n <= align4U32 n < n + 4 /\ align4U32 n mod 4 = 0.
Proof. intros H. rewrite align_eq, rioAlignU32_id by exact H. apply rioAlign_spec. Qed.
Lemma align_fit n : 0 <= n < 2 ^ 32 - 3 -> wrapU 32 (align4U32 n - n) = align4U32 n - n.
Proof. intros H. destruct (align_spec n H). apply wrapU_id. unfold inU. lia. Qed.
Definition padded (b : list Z) : list Z := b ++ repeat 0 (Z.to_nat (align4U32 (zlen b) - zlen b)).
Lemma padded_length b : zlen b < 2 ^ 32 - 3 -> length (padded b) = Z.to_nat (align4U32 (zlen b)).
Proof.
  intros H. pose proof (zlen_nonneg b). destruct (align_spec (zlen b)); [lia|]. unfold padded. rewrite app_length, repeat_length. unfold zlen in *. lia.
Qed.
Lemma padded_take b : firstn (Z.to_nat (zlen b)) (padded b) = b.
Proof. unfold padded. apply firstn_app_exact. unfold zlen. lia. Qed.

(* ---- typed values ---- *)
Section TyInd.
  Variable P : ty -> Prop.
  Hypothesis HU : forall n, P (TU n).
  Hypothesis HS : forall n, P (TS n).
  Hypothesis HB : P TBool.
  Hypothesis HStr : P TStr.
  Hypothesis HSl : forall t, P t -> P (TSlice t).
  Hypothesis HM : forall k v, P k -> P v -> P (TMap k v).
  Hypothesis HSt : forall ts, Forall P ts -> P (TStruct ts).
  Hypothesis HT : P TTag.
  Hypothesis HP : P TPtr.
  Fixpoint ty_ind2 (t : ty) : P t :=
    match t with
    | TU n => HU n | TS n => HS n | TBool => HB | TStr => HStr
    | TSlice t' => HSl t' (ty_ind2 t')
    | TMap k v => HM k v (ty_ind2 k) (ty_ind2 v)
    | TStruct ts => HSt ts ((fix go (l : list ty) : Forall P l :=
        match l with [] => Forall_nil P | t' :: l' => Forall_cons t' (ty_ind2 t') (go l') end) ts)
    | TTag => HT | TPtr => HP
    end.
End TyInd.

Definition is_key {T P} (v : val T P) : Prop := match v with VInt _ | VStr _ => True | _ => False end.
(* values in the range of their type, maps with distinct keys *)
Fixpoint typed (t : ty) (v : val Z Z) {struct t} : Prop :=
  match t, v with
  | TU n, VInt z => inU (8 * Z.of_nat n) z
  | TS n, VInt z => (0 < n)%nat /\ inS (8 * Z.of_nat n) z
  | TBool, VInt z => z = 0 \/ z = 1
  | TStr, VStr b => zlen b < 2 ^ 32 - 3
  | TSlice t', VList vs => zlen vs < 2 ^ 32 /\ Forall (typed t') vs
  | TMap k w, VMap kvs => zlen kvs < 2 ^ 32 /\ Forall (fun kv => is_key (fst kv) /\ typed k (fst kv) /\ typed w (snd kv)) kvs /\ NoDup (map fst kvs)
  | TStruct ts, VStruct vs =>
      (fix go (ts : list ty) (vs : list (val Z Z)) {struct ts} : Prop :=
         match ts, vs with [], [] => True | t' :: ts', v' :: vs' => typed t' v' /\ go ts' vs' | _, _ => False end) ts vs
  | TTag, VTag _ => True
  | TPtr, VPtr _ => True
  | _, _ => False
  end.
(* the objects tagged, in order *)
Fixpoint tags_of {T P} (v : val T P) : list T :=
  match v with
  | VInt _ | VStr _ | VPtr _ => []
  | VList vs | VStruct vs => flat_map tags_of vs
  | VMap kvs => flat_map (fun kv => tags_of (fst kv) ++ tags_of (snd kv)) kvs
  | VTag t => [t]
  end.
(* the position of an object among those *)
Fixpoint idx (l : list Z) (a : Z) : option nat :=
  match l with [] => None | b :: l' => if a =? b then Some O else option_map S (idx l' a) end.
Definition pos (l : list Z) (a : Z) : nat := match idx l a with Some k => k | None => O end.
Definition idof (m : list (Z * Z)) (a : Z) : Z := match assoc a m with Some i => i | None => 0 end.

Lemma idx_nth l : forall a k, NoDup l -> idx l a = Some k <-> nth_error l k = Some a.
Proof.
  induction l as [|b l IH]; intros a k N; cbn [idx]. { destruct k; cbn; split; discriminate. }
  inversion N as [|? ? N1 N2]; subst. destruct (Z.eqb_spec a b) as [->|Ne].
  - destruct k; cbn [nth_error]; split; auto; intros E; try discriminate. exfalso. apply N1. eapply nth_error_In; eauto.
  - destruct k; cbn [nth_error]; split; intros E.
    + destruct (idx l a); discriminate.
    + congruence.
    + destruct (idx l a) eqn:Ei; [|discriminate]. cbn in E. apply IH; auto. congruence.
    + apply IH in E; auto. rewrite E. reflexivity.
Qed.
Lemma idx_none l a : idx l a = None <-> ~ In a l.
Proof.
  induction l as [|b l IH]; cbn [idx In]; [tauto|]. destruct (Z.eqb_spec a b) as [->|Ne]; [split; [discriminate|tauto]|].
  destruct (idx l a); cbn; split; try tauto; try discriminate. intros H. exfalso. apply H. right. destruct (in_dec Z.eq_dec a l); auto. apply IH in n0. discriminate.
  intros _ [E|E]; [congruence|]. apply IH; auto.
Qed.
Lemma pos_app L0 a L1 : NoDup (L0 ++ a :: L1) -> pos (L0 ++ a :: L1) a = length L0.
Proof.
  intros N. unfold pos. assert (E : idx (L0 ++ a :: L1) a = Some (length L0)).
  { apply idx_nth; auto. rewrite nth_error_app2 by lia. now rewrite Nat.sub_diag. }
  now rewrite E.
Qed.

(* ---- ids ---- *)
Definition winv (s : wids) : Prop :=
  0 <= fst s <= 2 ^ 32 - 2 /\ (forall a i, assoc a (snd s) = Some i -> 1 <= i <= fst s) /\
  (forall a b i, assoc a (snd s) = Some i -> assoc b (snd s) = Some i -> a = b).
Definition ext (m m' : list (Z * Z)) : Prop := forall a i, assoc a m = Some i -> assoc a m' = Some i.
Lemma ext_refl m : ext m m. Proof. intros a i H; exact H. Qed.
Lemma ext_trans a b c : ext a b -> ext b c -> ext a c. Proof. intros H G x i E. auto. Qed.
Lemma winv0 : winv (0, []).
Proof. split; [cbn; lia|]. split; cbn; discriminate. Qed.
Lemma obj_id_ok a s id s' : winv s -> obj_id a s = Some (id, s') ->
  winv s' /\ ext (snd s) (snd s') /\ 1 <= id <= 2 ^ 32 - 2 /\ assoc a (snd s') = Some id.
Proof.
  intros (I1 & I2 & I3) E. unfold obj_id in E. destruct (assoc a (snd s)) as [i|] eqn:A.
  - injection E as <- <-. pose proof (I2 a i A). split; [split; auto|]. split; [apply ext_refl|]. split; [lia|auto].
  - destruct (Z.eqb_spec (fst s + 1) (2 ^ 32 - 1)); [discriminate|]. injection E as <- <-. cbn [fst snd].
    split; [|split; [|split]].
    + unfold winv. cbn [fst snd]. split; [lia|]. split.
      * intros b i. cbn [assoc]. destruct (Z.eqb_spec b a); intros H; [injection H as <-; lia|]. apply I2 in H. lia.
      * intros b c i. cbn [assoc]. destruct (Z.eqb_spec b a), (Z.eqb_spec c a); intros H G; subst; auto; try congruence.
        -- apply I2 in G. injection H as <-. lia.
        -- apply I2 in H. injection G as <-. lia.
        -- eapply I3; eauto.
    + intros b i H. cbn [assoc]. destruct (Z.eqb_spec b a); [congruence|auto].
    + lia.
    + cbn [assoc]. now rewrite Z.eqb_refl.
Qed.

(* ---- what it means to read back what was written ---- *)
Definition good {A B} (f : wids -> res (option (list Z * wids))) (g : rd B) (conv : (Z -> nat) -> (Z -> Z) -> B) (tg : list Z) (x : A) : Prop :=
  forall s bs s', winv s -> f s = Ok (Some (bs, s')) -> winv s' /\ ext (snd s) (snd s') /\ (forall a, In a tg -> assoc a (snd s') <> None) /\
    forall m L L0 L1 rest T, ext (snd s') m -> L = L0 ++ tg ++ L1 -> NoDup L ->
      g {| rl := bs ++ rest; rn := length L0; rtags := T |} =
      Some (conv (pos L) (idof m), {| rl := rest; rn := length (L0 ++ tg); rtags := T ++ map (fun a => (pos L a, idof m a)) tg |}).

Lemma wbind_inv {A B} (r : res (option A)) (f : A -> res (option B)) y : wbind r f = Ok (Some y) -> exists x, r = Ok (Some x) /\ f x = Ok (Some y).
Proof. destruct r as [[x|]|]; cbn; intros H; try discriminate. eauto. Qed.
Lemma good_plain {A B} (x : A) bs p (c : B) : parses p bs c -> good (fun s => wret (bs, s)) (rlift p) (fun _ _ => c) [] x.
Proof.
  intros H s bs' s' I E. unfold wret in E. injection E as <- <-. split; auto. split; [apply ext_refl|]. split; [intros a []|].
  intros m L L0 L1 rest T _ _ _. unfold rlift. cbn [rl]. rewrite H. cbn [rn rtags map]. rewrite !app_nil_r. reflexivity.
Qed.
Lemma good_ret {A B} (x : A) (c : B) : good (fun s => wret ([], s)) (dret c) (fun _ _ => c) [] x.
Proof.
  intros s bs' s' I E. unfold wret in E. injection E as <- <-. split; auto. split; [apply ext_refl|]. split; [intros a []|].
  intros. cbn [app map]. rewrite !app_nil_r. reflexivity.
Qed.
Lemma good_seq {A B C D E : Type} (x : A) (y : B) (z : C) (f1 f2 : wids -> res (option (list Z * wids))) (g1 : rd D) (g2 : D -> rd E) c1 c2 t1 t2 :
  good f1 g1 c1 t1 x -> (forall p i, good f2 (g2 (c1 p i)) (c2 p i) t2 y) ->
  good (fun s => wbind (f1 s) (fun r => wbind (f2 (snd r)) (fun r' => wret (fst r ++ fst r', snd r')))) (dbind g1 g2) (fun p i => c2 p i p i) (t1 ++ t2) z.
Proof.
  intros G1 G2 s bs s' I H. apply wbind_inv in H. destruct H as ((b1 & s1) & H1 & H). cbn [fst snd] in H.
  apply wbind_inv in H. destruct H as ((b2 & s2) & H2 & H). unfold wret in H. cbn [fst snd] in H.
  assert (bs = b1 ++ b2 /\ s' = s2) as (-> & ->) by (split; congruence).
  destruct (G1 _ _ _ I H1) as (I1 & X1 & J1 & R1). destruct (G2 (fun _ => O) (fun _ => 0) _ _ _ I1 H2) as (I2 & X2 & J2 & _).
  split; auto. split; [eapply ext_trans; eauto|].
  split. { intros a Ja. apply in_app_or in Ja. destruct Ja as [Ja|Ja]; [|auto]. specialize (J1 a Ja). destruct (assoc a (snd s1)) eqn:Ea; [|congruence]. rewrite (X2 _ _ Ea). discriminate. }
  intros m L L0 L1 rest T Xm EL N. unfold dbind. rewrite <- app_assoc.
  rewrite (R1 m L L0 (t2 ++ L1)); [|eapply ext_trans; eauto|rewrite EL, <- app_assoc; reflexivity|auto].
  destruct (G2 (pos L) (idof m) _ _ _ I1 H2) as (_ & _ & _ & R2).
  rewrite (R2 m L (L0 ++ t1) L1); auto.
  - rewrite map_app, <- !app_assoc. reflexivity.
  - rewrite EL, <- !app_assoc. reflexivity.
Qed.
(* the reading side only *)
Lemma good_map {A B C} (x : A) f (g : rd B) (h : B -> C) c t : good f g c t x -> good f (dbind g (fun v => dret (h v))) (fun p i => h (c p i)) t x.
Proof.
  intros G s bs s' I H. destruct (G _ _ _ I H) as (I' & X & J & R). split; auto. split; auto. split; auto. intros. unfold dbind. erewrite R; eauto. reflexivity.
Qed.
Lemma good_ext {A B} (x : A) f f' (g g' : rd B) c c' t t' : (forall s, f' s = f s) -> (forall s, g' s = g s) -> (forall p i, c p i = c' p i) -> t = t' ->
  good f g c t x -> good f' g' c' t' x.
Proof.
  intros Ef Eg Ec <- G s bs s' I H. rewrite Ef in H. destruct (G _ _ _ I H) as (I' & X & J & R). split; auto. split; auto. split; auto. intros. rewrite Eg, <- Ec. eauto.
Qed.
Lemma good_any {A A' B} (x : A) (x' : A') f (g : rd B) c t : good f g c t x -> good f g c t x'.
Proof. intros G; exact G. Qed.
Lemma good_all {A B} (f : A -> wids -> res (option (list Z * wids))) (g : rd B) (c : A -> (Z -> nat) -> (Z -> Z) -> B) (t : A -> list Z) : forall l,
  (forall x, In x l -> good (f x) g (c x) (t x) x) ->
  good (enc_all f l) (drep (length l) g) (fun p i => map (fun x => c x p i) l) (flat_map t l) l.
Proof.
  induction l as [|x l IH]; intros H; cbn [enc_all length drep map flat_map]; [apply good_ret|].
  apply (good_seq x l (x :: l) (f x) (enc_all f l) g (fun v => dbind (drep (length l) g) (fun vs => dret (v :: vs))) (c x)
           (fun p i p' i' => c x p i :: map (fun x => c x p' i') l) (t x) (flat_map t l)).
  - apply H; cbn; auto.
  - intros p i. apply (good_map l _ _ (fun vs => c x p i :: vs) (fun p i => map (fun x => c x p i) l)). apply IH. intros; apply H; cbn; auto.
Qed.
(* a length in front *)
Lemma good_len {A B} (x : A) f (g : nat -> rd B) c t n : 0 <= n < 2 ^ 32 -> good f (g (Z.to_nat n)) c t x ->
  good (fun s => wbind (f s) (fun r => wret (u32b n ++ fst r, snd r))) (dbind (rlift (pbe 4)) (fun k => g (Z.to_nat k))) c t x.
Proof.
  intros Hn G s bs s' I H. apply wbind_inv in H. destruct H as ((b1 & s1) & H1 & H). unfold wret in H. cbn [fst snd] in H.
  assert (bs = u32b n ++ b1 /\ s' = s1) as (-> & ->) by (split; congruence). destruct (G _ _ _ I H1) as (I1 & X1 & J1 & R1).
  split; auto. split; auto. split; auto. intros m L L0 L1 rest T Xm EL N. unfold dbind, rlift. cbn [rl rn rtags]. unfold u32b. rewrite wrapU_id by (unfold inU; lia).
  rewrite <- app_assoc. rewrite (parses_pbe 4 n) by (unfold inU; change (8 * Z.of_nat 4) with 32; lia). eapply R1; eauto.
Qed.

Lemma good_str {A} (x : A) b : zlen b < 2 ^ 32 - 3 -> good (enc true TStr (VStr b)) (dec TStr) (fun _ _ => VStr b) [] x.
Proof.
  intros H. pose proof (zlen_nonneg b) as Hb. cbn [enc dec].
  rewrite (wrapU_id 32 (zlen b)) by (unfold inU; lia). rewrite align_fit by lia.
  apply (good_plain x). eapply parses_bind; [apply (parses_pbe 4); unfold inU; change (8 * Z.of_nat 4) with 32; lia|].
  change (b ++ repeat 0 (Z.to_nat (align4U32 (zlen b) - zlen b))) with (padded b). rewrite <- (app_nil_r (padded b)).
  eapply parses_bind; [apply parses_read_some, padded_length, H|]. apply parses_guard; [destruct (align_spec (zlen b)); [lia|]; apply Z.leb_le; lia|].
  rewrite padded_take. apply parses_ret.
Qed.
Lemma good_tag {A} (x : A) a : good (enc true TTag (VTag a)) (dec TTag) (fun p i => VTag (p a)) [a] x.
Proof.
  intros s bs s' I E. cbn [enc] in E. destruct (obj_id a s) as [(id & s1)|] eqn:O1; [|discriminate]. assert (bs = be 4 id /\ s' = s1) as (-> & ->) by (split; congruence).
  destruct (obj_id_ok a s id s1 I O1) as (I1 & X1 & B1 & A1). split; auto. split; auto. split; [intros b [<-|[]]; congruence|].
  intros m L L0 L1 rest T Xm EL N. cbn [dec rl rn rtags]. rewrite (parses_pbe 4 id) by (unfold inU; change (8 * Z.of_nat 4) with 32; lia).
  unfold ptagMarker. destruct (Z.eqb_spec id 0xffffffff); [lia|]. cbn [app] in EL. subst L. cbn [map]. rewrite pos_app by auto.
  unfold idof. rewrite (Xm _ _ A1). rewrite app_length. cbn [length]. rewrite Nat.add_1_r. reflexivity.
Qed.
Lemma good_ptr {A} (x : A) a : good (enc true TPtr (VPtr a)) (dec TPtr) (fun p i => VPtr (i a)) [] x.
Proof.
  intros s bs s' I E. cbn [enc] in E. destruct (obj_id a s) as [(id & s1)|] eqn:O1; [|discriminate]. assert (bs = be 4 id /\ s' = s1) as (-> & ->) by (split; congruence).
  destruct (obj_id_ok a s id s1 I O1) as (I1 & X1 & B1 & A1). split; auto. split; auto. split; [intros b []|].
  intros m L L0 L1 rest T Xm EL N. cbn [dec]. unfold rlift, pbind. cbn [rl rn rtags].
  rewrite (parses_pbe 4 id) by (unfold inU; change (8 * Z.of_nat 4) with 32; lia). unfold pret. cbn [map]. rewrite !app_nil_r.
  unfold idof. rewrite (Xm _ _ A1). reflexivity.
Qed.

(* maps *)
Lemma key_eqb_spec {T P} (a b : val T P) : is_key a -> is_key b -> key_eqb a b = true <-> a = b.
Proof.
  destruct a, b; cbn; intros; try contradiction; split; intros E; try discriminate; try congruence.
  - apply Z.eqb_eq in E. congruence.
  - injection E as <-. apply Z.eqb_refl.
  - destruct (str_eqb_spec s s0); [congruence|discriminate].
  - injection E as <-. apply str_eqb_refl.
Qed.
Lemma set_map_new {T P} (k v : val T P) m : is_key k -> Forall (fun kv => is_key (fst kv)) m -> ~ In k (map fst m) -> set_map k v m = m ++ [(k, v)].
Proof.
  intros K F. induction m as [|(k' & v') m IH]; intros N; [reflexivity|]. cbn [set_map]. inversion F; subst. cbn [map In fst] in *.
  destruct (key_eqb k k') eqn:E; [apply key_eqb_spec in E; auto; exfalso; apply N; auto|]. cbn [app]. rewrite IH; auto.
Qed.
Lemma fold_set_map {T P} : forall (l m : list (val T P * val T P)), Forall (fun kv => is_key (fst kv)) (m ++ l) -> NoDup (map fst (m ++ l)) ->
  fold_left (fun m kv => set_map (fst kv) (snd kv) m) l m = m ++ l.
Proof.
  induction l as [|(k & v) l IH]; intros m F N; cbn [fold_left fst snd]; [now rewrite app_nil_r|].
  rewrite map_app in N. cbn [map fst] in N. pose proof N as N'. apply NoDup_remove_2 in N'. rewrite set_map_new.
  - rewrite IH; [now rewrite <- app_assoc|rewrite <- app_assoc; exact F|rewrite <- app_assoc, map_app; exact N].
  - rewrite Forall_app in F. destruct F as (_ & F). inversion F; auto.
  - rewrite Forall_app in F. tauto.
  - intros J. apply N'. apply in_or_app. auto.
Qed.

(* ---- structs ---- *)
Fixpoint enc_fields (addr : bool) (ts : list ty) (vs : list (val Z Z)) (s : wids) {struct ts} : res (option (list Z * wids)) :=
  match ts, vs with
  | [], [] => wret ([], s)
  | t' :: ts', v' :: vs' =>
      if addr then wbind (enc true t' v' s) (fun r => wbind (enc_fields addr ts' vs' (snd r)) (fun r' => wret (fst r ++ fst r', snd r')))
      else Panic
  | _, _ => Ok None
  end.
Fixpoint dec_fields (ts : list ty) : rd (list (val nat Z)) :=
  match ts with [] => dret [] | t' :: ts' => dbind (dec t') (fun v => dbind (dec_fields ts') (fun vs => dret (v :: vs))) end.
Fixpoint typed_fields (ts : list ty) (vs : list (val Z Z)) : Prop :=
  match ts, vs with [], [] => True | t' :: ts', v' :: vs' => typed t' v' /\ typed_fields ts' vs' | _, _ => False end.
Lemma enc_struct addr ts vs s : enc addr (TStruct ts) (VStruct vs) s = enc_fields addr ts vs s.
Proof. cbn [enc]. revert vs s. induction ts as [|t ts IH]; intros [|v vs] s; try reflexivity. cbn [enc_fields]. destruct addr; [|reflexivity]. destruct (enc true t v s) as [[r|]|]; cbn [wbind]; try reflexivity. rewrite IH. reflexivity. Qed.
Lemma dec_struct ts : dec (TStruct ts) = dbind (dec_fields ts) (fun vs => dret (VStruct vs)).
Proof. reflexivity. Qed.
Lemma typed_struct ts vs : typed (TStruct ts) (VStruct vs) = typed_fields ts vs.
Proof. reflexivity. Qed.

(* keys and elements of a map that can be written at all are written as if addressable *)
Lemma enc_addr t v s r : enc false t v s = Ok (Some r) -> enc true t v s = Ok (Some r).
Proof.
  destruct t, v; intros H; try discriminate H; try exact H. rewrite enc_struct in *. destruct ts, vs; try discriminate; auto.
Qed.

Lemma good_addr {A B} (x : A) t v (g : rd B) c tg : good (enc true t v) g c tg x -> good (enc false t v) g c tg x.
Proof. intros G s bs s' I H. apply enc_addr in H. apply (G s bs s' I H). Qed.

Theorem enc_good : forall t v, typed t v -> good (enc true t v) (dec t) (fun p i => vmap p i v) (tags_of v) v.
Proof.
  induction t as [n|n| | |t IH|k w IHk IHw|ts IH| |] using ty_ind2; intros v Tv; destruct v; cbn [typed] in Tv; try contradiction.
  - cbn [enc dec tags_of vmap]. apply good_plain. apply (parses_map _ VInt). apply parses_pbe. exact Tv.
  - cbn [enc dec tags_of vmap]. apply good_plain. destruct Tv as (Hn & Hz).
    replace (VInt z) with (@VInt nat Z (wrapS (8 * Z.of_nat n) (z mod 256 ^ Z.of_nat n))).
    + apply (parses_map _ (fun z => VInt (wrapS (8 * Z.of_nat n) z))). apply parses_pbe_mod.
    + f_equal. rewrite pow256_2, wrapS_mod by lia. apply wrapS_id; auto; lia.
  - cbn [enc dec tags_of vmap]. apply good_plain. replace (VInt z) with (@VInt nat Z (if z =? 0 then 0 else 1)) by (destruct Tv as [->| ->]; reflexivity).
    apply (parses_map _ (fun z => VInt (if z =? 0 then 0 else 1))). apply parses_pbe. unfold inU. change (8 * Z.of_nat 1) with 8. lia.
  - apply good_str. exact Tv.
  - destruct Tv as (Hn & F). cbn [enc dec tags_of vmap]. pose proof (zlen_nonneg vs).
    apply (good_len _ _ (fun k => dbind (drep k (dec t)) (fun vs => dret (VList vs)))); [lia|].
    unfold zlen. rewrite Nat2Z.id. apply (good_map _ _ _ VList (fun p i => map (vmap p i) vs)). eapply good_any.
    apply (good_all (enc true t) (dec t) (fun v p i => vmap p i v) tags_of). intros v J. apply IH. rewrite Forall_forall in F. auto.
  - destruct Tv as (Hn & F & N). cbn [enc dec tags_of vmap]. pose proof (zlen_nonneg kvs).
    apply (good_len _ _ (fun n => dbind (drep n (dbind (dec k) (fun a => dbind (dec w) (fun b => dret (a, b))))) (fun kvs => dret (VMap (fold_left (fun m kv => set_map (fst kv) (snd kv) m) kvs []))))); [lia|].
    unfold zlen. rewrite Nat2Z.id.
    eapply good_ext with (c := fun p i => VMap (fold_left (fun m kv => set_map (fst kv) (snd kv) m) (map (fun kv => (vmap p i (fst kv), vmap p i (snd kv))) kvs) [])).
    { reflexivity. } { reflexivity. }
    { intros p i. f_equal. apply (fold_set_map _ []); cbn [app].
      - rewrite Forall_map. eapply Forall_impl; [|exact F]. intros (a & b) (Ka & _). cbn [fst snd] in *. destruct a; exact Ka || exact I.
      - rewrite map_map. cbn [fst]. rewrite <- (map_map fst (vmap p i)).
        assert (Fk : Forall is_key (map fst kvs)) by (rewrite Forall_map; eapply Forall_impl; [|exact F]; cbn; tauto).
        clear -N Fk. induction (map fst kvs) as [|a l IHl]; [constructor|]. inversion N; inversion Fk; subst. cbn [map]. constructor; auto.
        rewrite in_map_iff. intros (b & Eb & Jb). apply H1. rewrite Forall_forall in H6. specialize (H6 b Jb).
        destruct a, b; cbn in *; try contradiction; try discriminate; congruence. }
    { reflexivity. }
    apply (good_map _ _ _ (fun kvs => VMap (fold_left (fun m kv => set_map (fst kv) (snd kv) m) kvs []))). eapply good_any.
    apply (good_all _ _ (fun kv p i => (vmap p i (fst kv), vmap p i (snd kv))) (fun kv => tags_of (fst kv) ++ tags_of (snd kv))).
    intros (a & b) J. rewrite Forall_forall in F. destruct (F _ J) as (_ & Ta & Tb). cbn [fst snd] in *.
    apply (good_seq a b (a, b) (enc false k a) (enc false w b) (dec k) (fun a => dbind (dec w) (fun b => dret (a, b))) (fun p i => vmap p i a) (fun p i p' i' => (vmap p i a, vmap p' i' b))).
    + apply good_addr, IHk, Ta.
    + intros p i. apply (good_map _ _ _ (pair (vmap p i a)) (fun p i => vmap p i b)). apply good_addr, IHw, Tb.
  - change (typed_fields ts vs) in Tv. rewrite dec_struct. cbn [vmap tags_of].
    eapply good_ext; [intros s; apply enc_struct|reflexivity|reflexivity|reflexivity|].
    apply (good_map _ _ _ VStruct (fun p i => map (vmap p i) vs)). eapply good_any with (x := vs).
    revert vs Tv. induction IH as [|t ts IHt IHts IH]; intros [|v vs] Tv; cbn [typed_fields] in Tv; try contradiction; cbn [enc_fields dec_fields map flat_map].
    + apply good_ret.
    + destruct Tv as (Tv & Tvs).
      apply (good_seq v vs (v :: vs) (enc true t v) (enc_fields true ts vs) (dec t) (fun a => dbind (dec_fields ts) (fun b => dret (a :: b))) (fun p i => vmap p i v) (fun p i p' i' => vmap p i v :: map (vmap p' i') vs)).
      * apply IHt, Tv.
      * intros p i. apply (good_map _ _ _ (cons (vmap p i v)) (fun p i => map (vmap p i) vs)). apply IH, Tvs.
  - apply good_tag.
  - apply good_ptr.
Qed.
