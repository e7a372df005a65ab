(* C67: what the code written by brio-gen for a struct type does. *)
From Coq Require Import ZArith List Bool Lia.
From Verif Require Import GoLib Bytes BrioModel BrioProofs BrioProofs2 BrioGenModel.
Import ListNotations.
Open Scope Z_scope.
Transparent get8 get8i unframe loop slice frame put8 mlist mslice.

(* the types whose fields come back: no []byte, elements of slices and arrays are structs, no pointers to pointers *)
Definition strukt (t : ty) : bool := match t with TNamed _ | TAnon _ => true | _ => false end.
Definition notptr (t : ty) : bool := match t with TPtr _ => false | _ => true end.
Fixpoint okty (t : ty) : bool :=
  match t with
  | TInt k _ => (k =? 1)%nat || (k =? 2)%nat || (k =? 4)%nat || (k =? 8)%nat
  | TFlt k => (k =? 4)%nat || (k =? 8)%nat
  | TC128 | TString => true
  | TBytes => false
  | TNamed fs | TAnon fs => forallb okty fs
  | TSlice e | TArr _ e => strukt e && okty e
  | TPtr e => notptr e && okty e
  end.
(* the values of a type, with no nil pointer *)
Inductive has : ty -> val -> Prop :=
| HasInt k z : inS (8 * Z.of_nat k) z -> has (TInt k true) (VInt z)
| HasUint k z : inU (8 * Z.of_nat k) z -> has (TInt k false) (VInt z)
| HasFlt k z : inU (8 * Z.of_nat k) z -> has (TFlt k) (VInt z)
| HasC re im : inU 64 re -> inU 64 im -> has TC128 (VCplx re im)
| HasStr s : has TString (VStr s)
| HasBytes s : has TBytes (VStr s)
| HasNamed fs vs : Forall2 has fs vs -> has (TNamed fs) (VStruct vs)
| HasAnon fs vs : Forall2 has fs vs -> has (TAnon fs) (VStruct vs)
| HasSlice e vs : zlen vs < 2 ^ 63 -> Forall (has e) vs -> has (TSlice e) (VList vs)
| HasArr n e vs : length vs = n -> Forall (has e) vs -> has (TArr n e) (VList vs)
| HasPtr e v : has e v -> has (TPtr e) (VPtr (Some v)).

Section TyInd.
Variable P : ty -> Prop.
Hypothesis Hi : forall k s, P (TInt k s). Hypothesis Hf : forall k, P (TFlt k). Hypothesis Hc : P TC128. Hypothesis Hs : P TString.
Hypothesis Hb : P TBytes. Hypothesis Hn : forall fs, Forall P fs -> P (TNamed fs). Hypothesis Ha : forall fs, Forall P fs -> P (TAnon fs).
Hypothesis Hl : forall e, P e -> P (TSlice e). Hypothesis Hr : forall n e, P e -> P (TArr n e). Hypothesis Hp : forall e, P e -> P (TPtr e).
Fixpoint ty_rec2 (t : ty) : P t :=
  match t with
  | TInt k s => Hi k s | TFlt k => Hf k | TC128 => Hc | TString => Hs | TBytes => Hb
  | TNamed fs => Hn fs ((fix go l : Forall P l := match l with [] => Forall_nil P | a :: l' => Forall_cons a (ty_rec2 a) (go l') end) fs)
  | TAnon fs => Ha fs ((fix go l : Forall P l := match l with [] => Forall_nil P | a :: l' => Forall_cons a (ty_rec2 a) (go l') end) fs)
  | TSlice e => Hl e (ty_rec2 e) | TArr n e => Hr n e (ty_rec2 e) | TPtr e => Hp e (ty_rec2 e)
  end.
End TyInd.

(* ---- reading back ---- *)
Lemma getk_mod k v t n : Z.of_nat k <= n -> getk k {| sb := le k v ++ t; sn := n |} = Ok (v mod 2 ^ (8 * Z.of_nat k), {| sb := t; sn := n - Z.of_nat k |}).
Proof.
  intros H. unfold getk. rewrite upto_ok by (rewrite zlen_app, zlen_le; pose proof (zlen_nonneg t); lia).
  cbn [rbind]. rewrite from_ok by (rewrite ?zlen_le; lia). cbn [rbind]. unfold bytes. cbn [sb sn].
  rewrite (zfirst (le k v) t (Z.of_nat k)) by (rewrite zlen_le; auto). rewrite unle_le, pow256_2. reflexivity.
Qed.
Lemma get1_mod v t n : 1 <= n -> get1 {| sb := le 1 v ++ t; sn := n |} = Ok (v mod 2 ^ 8, {| sb := t; sn := n - 1 |}).
Proof.
  intros H. unfold get1. cbn [sn]. replace (n <=? 0) with false by lia. rewrite (from_ok 1 (le 1 v)) by (rewrite ?zlen_le; lia). reflexivity.
Qed.
Lemma getn_mod k v t n : Z.of_nat k <= n -> getn k {| sb := le k v ++ t; sn := n |} = Ok (v mod 2 ^ (8 * Z.of_nat k), {| sb := t; sn := n - Z.of_nat k |}).
Proof. intros H. unfold getn. destruct (Nat.eqb_spec k 1) as [->|]; [apply get1_mod; auto|apply getk_mod; auto]. Qed.
Lemma getstr_reads s : zlen s < 2 ^ 63 -> reads getstr (put8 (zlen s) ++ s) s.
Proof.
  intros L t n K. rewrite zlen_app, put8_len in *. pose proof (zlen_nonneg s). unfold getstr. rewrite <- app_assoc.
  rewrite (get8i_reads (zlen s)); [|apply inS64; lia|rewrite put8_len; lia]. cbn [rbind fst snd]. rewrite put8_len.
  rewrite upto_ok by (rewrite zlen_app; pose proof (zlen_nonneg t); lia). cbn [rbind]. rewrite from_ok by (auto; lia). cbn [rbind]. unfold bytes. cbn [sb sn].
  rewrite (zfirst s t (zlen s)) by auto. do 3 f_equal; lia.
Qed.
Definition good (t : ty) : Prop :=
  forall v b, okty t = true -> has t v -> marsh t v = Ok b -> zlen b < 2 ^ 63 -> reads (unm t) b v.
Lemma fields_good fs : Forall good fs -> forallb okty fs = true -> forall vs b, Forall2 has fs vs -> fieldsM marsh fs vs = Ok b -> zlen b < 2 ^ 63 -> reads (fieldsU unm fs) b vs.
Proof.
  intros G K. induction G as [|f fs Gf G IH]; intros vs b H M L; inversion H; subst; cbn [fieldsM] in M.
  - inversion M. subst. intros t n _. cbn. rewrite Z.sub_0_r. reflexivity.
  - destruct (marsh f y) as [a|] eqn:E; [|discriminate]. cbn [rbind] in M. destruct (fieldsM marsh fs l') as [c|] eqn:E'; [|discriminate].
    assert (b = a ++ c) as -> by (cbn [rbind] in M; congruence). rewrite zlen_app in L. pose proof (zlen_nonneg a). pose proof (zlen_nonneg c).
    cbn [forallb] in K. apply andb_true_iff in K as [K1 K2]. cbn [fieldsU].
    eapply (reads_bind (unm f)); [apply Gf; eauto; lia|]. cbn [fst snd]. eapply reads_last; [apply IH; eauto; lia|reflexivity].
Qed.
Lemma elems_good e : good e -> okty e = true -> forall vs b, Forall (has e) vs -> elemsM (marsh e) vs = Ok b -> zlen b < 2 ^ 63 -> reads (elemsU (unm e) (length vs)) b vs.
Proof.
  intros G K. induction vs as [|v vs IH]; intros b H M L; inversion H; subst; cbn [elemsM] in M.
  - inversion M. subst. intros t n _. cbn. rewrite Z.sub_0_r. reflexivity.
  - destruct (marsh e v) as [a|] eqn:E; [|discriminate]. cbn [rbind] in M. fold (elemsM (marsh e)) in M. destruct (elemsM (marsh e) vs) as [c|] eqn:E'; [|discriminate].
    assert (b = a ++ c) as -> by (cbn [rbind] in M; congruence). rewrite zlen_app in L. pose proof (zlen_nonneg a). pose proof (zlen_nonneg c).
    cbn [elemsU length]. eapply (reads_bind (unm e)); [apply G; eauto; lia|]. cbn [fst snd]. fold (elemsU (unm e)).
    eapply reads_last; [apply IH; eauto; lia|reflexivity].
Qed.
Lemma all_good : forall t, good t.
Proof.
  apply ty_rec2; unfold good.
  - intros k s v b K H M L. inversion H; subst; cbn [marsh] in M; inversion M; subst; clear M; intros t n J; rewrite zlen_le in J; cbn [unm];
      rewrite getn_mod by auto; cbn [rbind fst snd]; rewrite zlen_le.
    + destruct k; [discriminate|]. rewrite wrapS_mod, wrapS_id by (auto; lia). reflexivity.
    + rewrite Z.mod_small by auto. reflexivity.
  - intros k v b K H M L. inversion H; subst; cbn [marsh] in M; inversion M; subst; clear M; intros t n J; rewrite zlen_le in J; cbn [unm].
    rewrite getk_mod by auto; cbn [rbind fst snd]; rewrite zlen_le. rewrite Z.mod_small by auto. reflexivity.
  - intros v b K H M L. inversion H; subst; cbn [marsh] in M. assert (b = le 8 re ++ le 8 im) as -> by congruence. clear M. intros t n J. rewrite zlen_app, !zlen_le in *.
    cbn [unm]. rewrite !upto_ok by (rewrite !zlen_app, !zlen_le; pose proof (zlen_nonneg t); lia). cbn [rbind].
    rewrite from_ok by (rewrite ?zlen_app, ?zlen_le; lia). cbn [rbind]. unfold bytes. cbn [sb sn].
    rewrite (zfirst (le 8 re ++ le 8 im) t 16) by (rewrite zlen_app, !zlen_le; reflexivity). rewrite <- app_assoc.
    rewrite (zfirst (le 8 re) (le 8 im ++ t) 8) by (rewrite zlen_le; reflexivity).
    rewrite (skipn_app_exact (le 8 re)) by (rewrite le_length; reflexivity). rewrite !unle_le_U by auto. reflexivity.
  - intros v b K H M L. inversion H; subst; cbn [marsh] in M. assert (b = put8 (zlen s) ++ s) as -> by congruence. cbn [unm].
    eapply (reads_last getstr); [|reflexivity]. rewrite zlen_app, put8_len in L. apply getstr_reads. lia.
  - intros v b K. discriminate.
  - intros fs G v b K H M L. inversion H; subst; cbn [marsh] in M. destruct (fieldsM marsh fs vs) as [c|] eqn:E; [|discriminate].
    assert (b = frame c) as -> by (cbn [rbind] in M; congruence). rewrite frame_len in L. cbn [unm].
    eapply (reads_last (unframe _)); [|intros d; reflexivity]. apply unframe_reads; [|lia]. intros t n J.
    rewrite (fields_good fs G K vs c H1 E ltac:(lia) t n J). reflexivity.
  - intros fs G v b K H M L. inversion H; subst; cbn [marsh] in M. cbn [unm]. eapply (reads_last (fieldsU unm fs)); [|intros d; reflexivity].
    apply fields_good; auto.
  - intros e G v b K H M L. inversion H; subst; cbn [marsh] in M. cbn [okty] in K. apply andb_true_iff in K as [_ K].
    destruct (elemsM (marsh e) vs) as [c|] eqn:E; [|discriminate]. assert (b = put8 (zlen vs) ++ c) as -> by (cbn [rbind] in M; congruence).
    rewrite zlen_app, put8_len in L. cbn [unm]. pose proof (zlen_nonneg vs). eapply (reads_bind get8i); [apply get8i_reads, inS64; lia|].
    cbn [fst snd]. unfold mk. replace (_ && _) with true by (symmetry; apply andb_true_iff; lia). cbn [rbind].
    replace (Z.to_nat (zlen vs)) with (length vs) by (unfold zlen; lia). eapply (reads_last (elemsU (unm e) (length vs))); [|intros d; reflexivity].
    apply elems_good; auto. lia.
  - intros m e G v b K H M L. inversion H; subst; cbn [marsh] in M. cbn [okty] in K. apply andb_true_iff in K as [_ K]. cbn [unm].
    eapply (reads_last (elemsU (unm e) (length vs))); [|intros d; reflexivity]. apply elems_good; auto.
  - intros e G v b K H M L. inversion H; subst; cbn [marsh] in M. cbn [okty] in K. apply andb_true_iff in K as [_ K]. cbn [unm].
    eapply (reads_last (unm e)); [|intros d; reflexivity]. apply G; auto.
Qed.

(* ---- bytes that are missing at the end ---- *)
Lemma getk_ext k : ext (getk k).
Proof.
  intros b n t m a d' N M. unfold getk. destruct (upto (Z.of_nat k) _) eqn:U; [|discriminate]. apply upto_inv in U as [-> U].
  cbn [rbind]. destruct (from (Z.of_nat k) _) eqn:E; [|discriminate]. apply from_inv in E as [-> E]. cbn [rbind]. intros H. inversion H; subst a d'; clear H.
  split; [cbn [sn]; lia|]. rewrite upto_ok by (rewrite zlen_app; pose proof (zlen_nonneg t); lia). cbn [rbind].
  rewrite from_ext by lia. cbn [rbind sb sn]. rewrite bytes_ext by lia. reflexivity.
Qed.
(* data[0] and data[1:] look at the length only; beyond the end of the memory there is nothing *)
Definition extw {A} (f : sl -> res (A * sl)) : Prop :=
  forall b n t m a d', 0 <= n <= zlen b -> 0 <= m <= zlen t -> f {| sb := b; sn := n |} = Ok (a, d') ->
  0 <= sn d' <= zlen (sb d') /\ f {| sb := b ++ t; sn := n + m |} = Ok (a, {| sb := sb d' ++ t; sn := sn d' + m |}).
Definition capw {A} (g : sl -> res A) : Prop :=
  forall b n t a, 0 <= n <= zlen b -> g {| sb := b; sn := n |} = Ok a -> g {| sb := b ++ t; sn := n |} = Ok a.
Lemma skip_len (b : list Z) k : 0 <= k <= zlen b -> zlen (skipn (Z.to_nat k) b) = zlen b - k.
Proof. intros H. unfold zlen in *. rewrite skipn_length. lia. Qed.
Lemma getk_extw k : extw (getk k).
Proof.
  intros b n t m a d' N M H. destruct (getk_ext k b n t m a d' ltac:(lia) ltac:(lia) H) as [P Q]. split; auto.
  unfold getk in H. destruct (upto _ _) eqn:U; [|discriminate]. apply upto_inv in U as [-> U]. cbn [rbind] in H. destruct (from _ _) eqn:E; [|discriminate].
  apply from_inv in E as [-> E]. cbn [rbind] in H. inversion H; subst; clear H. cbn [sb sn]. rewrite skip_len; lia.
Qed.
Lemma okpair {A B} (x a : A) (y b : B) : Ok (x, y) = Ok (a, b) -> a = x /\ b = y.
Proof. intros H. inversion H. auto. Qed.
Lemma get1_extw : extw get1.
Proof.
  intros b n t m a d' N M H. unfold get1 in *. cbn [sn sb] in *. destruct (n <=? 0) eqn:Z0; [discriminate|]. destruct (from 1 _) eqn:E; [|discriminate].
  apply from_inv in E as [-> E]. cbn [rbind] in H. apply okpair in H as [-> ->]. cbn [sb sn]. rewrite skip_len by lia. split; [lia|].
  replace (n + m <=? 0) with false by lia. rewrite from_ext by lia. cbn [rbind]. rewrite app_nth1 by (unfold zlen in N; lia). reflexivity.
Qed.
Lemma getn_extw k : extw (getn k).
Proof. unfold getn. destruct (k =? 1)%nat; [apply get1_extw|apply getk_extw]. Qed.
Lemma bind_extw {A B} (f : sl -> res (A * sl)) (k : A * sl -> res (B * sl)) :
  extw f -> (forall a, extw (fun d => k (a, d))) -> extw (fun d => rbind (f d) k).
Proof.
  intros F K b n t m a d' N M H. destruct (f _) as [[x d]|] eqn:E; [|discriminate]. cbn [rbind] in H.
  destruct (F b n t m x d N M E) as [P Q]. rewrite Q. cbn [rbind]. destruct d as [db dn]. cbn [sb sn] in *. apply (K x); auto.
Qed.
Lemma ret_extw {A} (a : A) : extw (fun d => Ok (a, d)).
Proof. intros b n t m a' d' N M H. inversion H; subst; clear H. cbn [sb sn]. auto. Qed.
Lemma get8i_extw : extw get8i.
Proof. apply (bind_extw get8); [apply (getk_extw 8)|]. intros a. cbn [fst snd]. apply ret_extw. Qed.
(* data[:k] and data[k:] *)
Lemma take_extw {A} k (g : sl -> res A) : capw g -> extw (fun d => do s <- upto k d; do a <- g s; do d' <- from k d; Ok (a, d')).
Proof.
  intros G b n t m a d' N M.
  destruct (upto k _) eqn:U; [|discriminate]. apply upto_inv in U as [-> U]. cbn [rbind]. destruct (g _) as [x|] eqn:E; [|discriminate].
  cbn [rbind]. destruct (from k _) eqn:F; [|discriminate]. apply from_inv in F as [-> F]. cbn [rbind]. intros H. apply okpair in H as [-> ->].
  cbn [sb sn]. rewrite skip_len by lia. split; [lia|]. rewrite upto_ok by (rewrite zlen_app; pose proof (zlen_nonneg t); lia). cbn [rbind].
  rewrite (G b k t x) by (auto; lia). cbn [rbind]. rewrite from_ext by lia. reflexivity.
Qed.
Lemma bytes_capw {A} (h : list Z -> A) : capw (fun s => Ok (h (bytes s))).
Proof. intros b n t a N H. rewrite bytes_ext by auto. exact H. Qed.
Lemma unframe_extw {A} (g : sl -> res A) : capw g -> extw (unframe g).
Proof. intros G. unfold unframe. apply (bind_extw get8i); [apply get8i_extw|]. intros k. cbn [fst snd]. apply take_extw, G. Qed.
Lemma fields_extw fs : Forall (fun t => extw (unm t)) fs -> extw (fieldsU unm fs).
Proof.
  intros G. induction G as [|f fs F G IH]; [apply ret_extw|]. cbn [fieldsU]. apply (bind_extw (unm f)); auto. intros x. cbn [fst snd].
  apply (bind_extw (fieldsU unm fs)); auto. intros y. cbn [fst snd]. apply ret_extw.
Qed.
Lemma elems_extw u n : extw u -> extw (elemsU u n).
Proof.
  intros U. induction n as [|n IH]; [apply ret_extw|]. cbn [elemsU]. apply (bind_extw u); auto. intros x. cbn [fst snd]. fold (elemsU u).
  apply (bind_extw (elemsU u n)); auto. intros y. cbn [fst snd]. apply ret_extw.
Qed.
Lemma all_extw : forall t, extw (unm t).
Proof.
  apply ty_rec2.
  - intros k s. cbn [unm]. apply (bind_extw (getn k)); [apply getn_extw|]. intros a. cbn [fst snd]. apply ret_extw.
  - intros k. cbn [unm]. apply (bind_extw (getk k)); [apply getk_extw|]. intros a. cbn [fst snd]. apply ret_extw.
  - intros b n t m a d' N M. cbn [unm]. destruct (upto 8 _) eqn:U; [|discriminate]. apply upto_inv in U as [-> U]. cbn [rbind].
    destruct (upto 16 _) eqn:V; [|discriminate]. apply upto_inv in V as [-> V]. cbn [rbind]. destruct (from 16 _) eqn:F; [|discriminate].
    apply from_inv in F as [-> F]. cbn [rbind]. intros H. apply okpair in H as [-> ->]. cbn [sb sn]. rewrite skip_len by lia. split; [lia|].
    rewrite !upto_ok by (rewrite zlen_app; pose proof (zlen_nonneg t); lia). cbn [rbind]. rewrite from_ext by lia. cbn [rbind]. rewrite !bytes_ext by lia. reflexivity.
  - cbn [unm]. apply (bind_extw getstr); [|intros a; cbn [fst snd]; apply ret_extw]. unfold getstr. apply (bind_extw get8i); [apply get8i_extw|].
    intros k. cbn [fst snd]. exact (take_extw k (fun s => Ok (bytes s)) (bytes_capw (fun x => x))).
  - cbn [unm]. apply (bind_extw get8i); [apply get8i_extw|]. intros k. cbn [fst snd]. destruct (mk 0 k) as [j|]; [|intros b n t m a d' N M H; discriminate].
    cbn [rbind]. exact (take_extw k (fun s => Ok (VStr (repeat 0 j ++ bytes s))) (bytes_capw (fun x => VStr (repeat 0 j ++ x)))).
  - intros fs G. cbn [unm]. apply (bind_extw (unframe _)); [|intros a; cbn [fst snd]; apply ret_extw]. apply unframe_extw.
    intros b n t a N H. destruct (fieldsU unm fs {| sb := b; sn := n |}) as [[x d]|] eqn:E; [|discriminate]. cbn [rbind fst] in H.
    destruct (fields_extw fs G b n t 0 x d N ltac:(pose proof (zlen_nonneg t); lia) E) as [_ Q]. rewrite Z.add_0_r in Q. rewrite Q. exact H.
  - intros fs G. cbn [unm]. apply (bind_extw (fieldsU unm fs)); [apply fields_extw, G|]. intros a. cbn [fst snd]. apply ret_extw.
  - intros e G. cbn [unm]. apply (bind_extw get8i); [apply get8i_extw|]. intros k. cbn [fst snd]. destruct (mk 0 k) as [j|]; [|intros b n t m a d' N M H; discriminate].
    cbn [rbind]. apply (bind_extw (elemsU (unm e) j)); [apply elems_extw, G|]. intros a. cbn [fst snd]. apply ret_extw.
  - intros n e G. cbn [unm]. apply (bind_extw (elemsU (unm e) n)); [apply elems_extw, G|]. intros a. cbn [fst snd]. apply ret_extw.
  - intros e G. cbn [unm]. apply (bind_extw (unm e)); auto. intros a. cbn [fst snd]. apply ret_extw.
Qed.

(* a value whose pointers are not nil is written *)
Lemma marsh_ok : forall t v, has t v -> exists b, marsh t v = Ok b.
Proof.
  apply (ty_rec2 (fun t => forall v, has t v -> exists b, marsh t v = Ok b)); try (intros; inversion H; subst; cbn [marsh]; eauto; fail).
  - intros fs G v H. inversion H; subst. cbn [marsh]. assert (exists b, fieldsM marsh fs vs = Ok b) as [b ->]; [|cbn [rbind]; eauto].
    clear H. revert vs H1. induction G as [|f fs F G IH]; intros vs H; inversion H; subst; cbn [fieldsM]; eauto.
    destruct (F _ H2) as [a ->]. destruct (IH _ H4) as [c ->]. cbn [rbind]. eauto.
  - intros fs G v H. inversion H; subst. cbn [marsh].
    clear H. revert vs H1. induction G as [|f fs F G IH]; intros vs H; inversion H; subst; cbn [fieldsM]; eauto.
    destruct (F _ H2) as [a ->]. destruct (IH _ H4) as [c ->]. cbn [rbind]. eauto.
  - intros e G v H. inversion H; subst. cbn [marsh]. assert (exists b, elemsM (marsh e) vs = Ok b) as [b ->]; [|cbn [rbind]; eauto].
    clear H H1. induction H2 as [|v vs W H IH]; cbn [elemsM]; eauto. destruct (G _ W) as [a ->]. cbn [rbind]. fold (elemsM (marsh e)). destruct IH as [c ->]. cbn [rbind]. eauto.
  - intros n e G v H. inversion H; subst. cbn [marsh]. clear H. induction H4 as [|v vs W H IH]; cbn [elemsM]; eauto. destruct (G _ W) as [a ->]. cbn [rbind]. fold (elemsM (marsh e)).
    destruct IH as [c ->]. cbn [rbind]. eauto.
  - intros e G v H. inversion H; subst. cbn [marsh]. auto.
Qed.

(* a struct with the fields fs, as the methods that brio-gen prints write and read it: it is written when it has no nil pointer, it
   comes back, and what was cut is not read but panics *)
Theorem C67_roundtrip fs vs :
  forallb okty fs = true -> Forall2 has fs vs ->
  exists b, marshal fs vs = Ok b /\
    (zlen b < 2 ^ 63 -> unmarshal fs b = Ok vs /\ forall p t, b = p ++ t -> t <> [] -> unmarshal fs p = Panic).
Proof.
  intros K H. destruct (marsh_ok (TAnon fs) (VStruct vs) (HasAnon _ _ H)) as [b M]. cbn [marsh] in M. exists b. split; auto. intros L.
  assert (R : reads (fieldsU unm fs) b vs). { apply fields_good; auto. apply Forall_forall. intros t _. apply all_good. }
  split.
  - unfold unmarshal. rewrite (reads_full _ _ _ R). reflexivity.
  - intros p t -> T. unfold unmarshal. destruct (fieldsU unm fs (full p)) as [[a d]|] eqn:F; auto. exfalso. unfold full in F.
    assert (X : extw (fieldsU unm fs)) by (apply fields_extw, Forall_forall; intros; apply all_extw).
    pose proof (zlen_nonneg p). pose proof (zlen_nonneg t).
    destruct (X p (zlen p) t (zlen t) a d ltac:(lia) ltac:(lia) F) as [P Q].
    apply reads_full in R. unfold full in R. rewrite zlen_app in R. rewrite Q in R. inversion R.
    assert (zlen t = 0) as Y by lia. apply zlen_0_nil in Y. auto.
Qed.
(* a nil pointer panics *)
Theorem C67_nil e : marshal [TPtr e] [VPtr None] = Panic.
Proof. destruct e; reflexivity. Qed.

(* int8, U16, complex128, string, a slice of named structs with a float32, an array of 2 structs without name, a pointer *)
Definition ex_fs : list ty := [TInt 1 true; TInt 2 false; TC128; TString; TSlice (TNamed [TFlt 4; TInt 8 true]); TArr 2 (TAnon [TInt 1 false]); TPtr (TNamed [TString])].
Definition ex_vs : list val := [VInt (-128); VInt 65535; VCplx 1 2; VStr [104; 105]; VList [VStruct [VInt 7; VInt (-9)]; VStruct [VInt 0; VInt 1]];
  VList [VStruct [VInt 255]; VStruct [VInt 3]]; VPtr (Some (VStruct [VStr []]))].
Example C67_example : forallb okty ex_fs = true /\ Forall2 has ex_fs ex_vs /\ (do b <- marshal ex_fs ex_vs; unmarshal ex_fs b) = Ok ex_vs.
Proof.
  split; [reflexivity|]. split; [|vm_compute; reflexivity].
  unfold ex_fs, ex_vs. repeat (match goal with
    | |- Forall2 _ [] [] => apply Forall2_nil | |- Forall2 _ (_ :: _) _ => apply Forall2_cons | |- Forall _ [] => apply Forall_nil | |- Forall _ (_ :: _) => apply Forall_cons
    | |- has _ _ => constructor | |- inU _ _ => split; [discriminate|reflexivity] | |- inS _ _ => split; [discriminate|reflexivity] | |- _ = _ => reflexivity | |- _ < _ => reflexivity end).
Qed.
(* findings: []byte comes back with as many zeros in front; the bools of a slice of structs are those of other elements; an array of
   arrays keeps the last row on its diagonal only *)
Theorem C67_bytes_refuted s : zlen s < 2 ^ 62 -> exists b, marshal [TBytes] [VStr s] = Ok b /\ unmarshal [TBytes] b = Ok [VStr (repeat 0 (length s) ++ s)].
Proof.
  intros L. pose proof (zlen_nonneg s). exists (put8 (zlen s) ++ s). unfold marshal. cbn [fieldsM marsh rbind]. rewrite app_nil_r. split; [reflexivity|].
  unfold unmarshal. cbn [fieldsU unm]. unfold full. rewrite (get8i_reads (zlen s)) by (try apply inS64; rewrite ?zlen_app, ?put8_len; lia).
  cbn [rbind fst snd]. unfold mk. replace (_ && _) with true by (symmetry; apply andb_true_iff; lia). cbn [rbind]. rewrite zlen_app, !put8_len.
  rewrite upto_ok by lia. cbn [rbind]. rewrite <- (app_nil_r s) at 2. rewrite from_ok by lia. cbn [rbind fst snd]. unfold bytes. cbn [sb sn].
  replace (Z.to_nat (zlen s)) with (length s) by (unfold zlen; lia). rewrite firstn_all. reflexivity.
Qed.
Theorem C67_bools_refuted : unmBools (marshBools [true; false; true]) = Panic /\ unmBools (marshBools [true; false] ++ [1]) = Ok [true; true].
Proof. split; vm_compute; reflexivity. Qed.
Theorem C67_grid_refuted : exists b z, let s n := VStruct [VInt n] in
  marshGrid (marsh (TAnon [TInt 1 false])) [[s 1; s 2]; [s 3; s 4]] = Ok b /\
  (do p <- unmGrid_loop (unm (TAnon [TInt 1 false])) [[s 0; s 0]; [s 0; s 0]] 2 2 (full b); Ok (fst p)) = Ok z /\ z = [[s 3; s 0]; [s 0; s 4]].
Proof. eexists; eexists; cbn beta zeta; split; [vm_compute; reflexivity|]. split; vm_compute; reflexivity. Qed.
Print Assumptions C67_roundtrip. Print Assumptions C67_nil. Print Assumptions C67_example. Print Assumptions C67_bytes_refuted. Print Assumptions C67_bools_refuted.
Print Assumptions C67_grid_refuted.
