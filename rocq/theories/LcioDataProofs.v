(* Proofs about the data model of lcio: what is read back is what was written. *)
From Coq Require Import ZArith List Lia Bool String Permutation.
From Verif Require Import Bytes GoLib GoStrings Bits Parse RioModel RioProofs SioModel SioProofs SioProofs2 LcioDataModel.
Import ListNotations.
Local Open Scope Z_scope.
Local Arguments be : simpl never.
Local Arguments Z.pow : simpl never.

Lemma vmap_int {T P T' P'} (f : T -> T') (g : P -> P') v : int_of (vmap f g v) = int_of v.
Proof. destruct v; reflexivity. Qed.
Lemma vmap_list {T P T' P'} (f : T -> T') (g : P -> P') v : list_of (vmap f g v) = map (vmap f g) (list_of v).
Proof. destruct v; reflexivity. Qed.

(* ---- sequences of writers and readers ---- *)
Definition W := wids -> res (option (list Z * wids)).
Lemma enc_good' {A} (x : A) t v : typed t v -> good (enc true t v) (dec t) (fun p i => vmap p i v) (tags_of v) x.
Proof. intros T. exact (enc_good t v T). Qed.
Lemma good_all' {A B C} (y : C) (f : A -> W) (g : rd B) (c : A -> (Z -> nat) -> (Z -> Z) -> B) (t : A -> list Z) l :
  (forall x, In x l -> good (f x) g (c x) (t x) x) -> good (enc_all f l) (drep (List.length l) g) (fun p i => map (fun x => c x p i) l) (flat_map t l) y.
Proof. intros H. exact (good_all f g c t l H). Qed.

Lemma good_wseq {A D E : Type} (x : A) (f1 f2 : W) (g1 : rd D) (g2 : D -> rd E) c1 c2 t1 t2 :
  good f1 g1 c1 t1 x -> (forall p i, good f2 (g2 (c1 p i)) (c2 p i) t2 x) ->
  good (wseq f1 f2) (dbind g1 g2) (fun p i => c2 p i p i) (t1 ++ t2) x.
Proof. intros G1 G2. exact (good_seq x x x f1 f2 g1 g2 c1 c2 t1 t2 G1 G2). Qed.
Lemma good_bytes {A B} (x : A) b (p : parser B) c : parses p b c -> good (wbytes b) (rlift p) (fun _ _ => c) [] x.
Proof. apply good_plain. Qed.
Lemma wrapS31 n : 0 <= n < 2 ^ 31 -> wrapS 32 n = n.
Proof. intros H. apply wrapS_id; [lia|]. unfold inS. change (2 ^ (32 - 1)) with (2 ^ 31). lia. Qed.
(* a count in front: written by [wcount], read by [rcount] *)
Definition fits (c : cnt) (n : Z) : Prop := match c with CUint => n < 2 ^ 32 | CInt | CPos => n < 2 ^ 31 | CFix k => n = Z.of_nat k end.
Lemma good_count {A} (x : A) c n : 0 <= n -> fits c n -> good (wbytes (wcount c n)) (rcount c) (fun _ _ => Z.to_nat n) [] x.
Proof.
  intros H0 H. assert (P4 : 0 <= n < 2 ^ 32 -> good (wbytes (u32b n)) (rlift (pbe 4)) (fun _ _ => n) [] x).
  { intros Hn. apply good_bytes. unfold u32b. rewrite wrapU_id by (unfold inU; lia). apply parses_pbe. unfold inU. change (8 * Z.of_nat 4) with 32. lia. }
  destruct c; cbn [wcount rcount fits] in *.
  - apply (good_ext x (wseq (wbytes (u32b n)) (wbytes [])) _ (dbind (rlift (pbe 4)) (fun n => if wrapS 32 n <? 0 then dfail else dret (Z.to_nat (wrapS 32 n)))) _ (fun _ _ => Z.to_nat n) _ ([] ++ []) []); [intros s; unfold wseq, wbytes, wret; cbn [wbind fst snd]; now rewrite app_nil_r|reflexivity|reflexivity|reflexivity|].
    apply (good_wseq x _ _ _ _ (fun _ _ => n) (fun _ _ _ _ => Z.to_nat n)); [apply P4; lia|]. intros p i. rewrite wrapS31 by lia. destruct (Z.ltb_spec n 0); [lia|]. apply (good_ret x).
  - apply (good_map x _ _ (fun n => Z.to_nat (wrapS 32 n)) (fun _ _ => n)) in P4; [|lia]. rewrite wrapS31 in P4 by lia. exact P4.
  - apply (good_map x _ _ Z.to_nat (fun _ _ => n)) in P4; [|lia]. exact P4.
  - subst n. rewrite Nat2Z.id. apply (good_ret x).
Qed.
Lemma good_loop {A B C} (y : C) (f : A -> W) (g : rd B) (cv : A -> (Z -> nat) -> (Z -> Z) -> B) (t : A -> list Z) c (l : list A) :
  fits c (zlen l) -> (forall x, In x l -> good (f x) g (cv x) (t x) x) ->
  good (wseq (wbytes (wcount c (zlen l))) (enc_all f l)) (dbind (rcount c) (fun n => drep n g)) (fun p i => map (fun x => cv x p i) l) (flat_map t l) y.
Proof.
  intros F G. change (flat_map t l) with ([] ++ flat_map t l).
  apply (good_wseq y _ _ _ _ (fun _ _ => Z.to_nat (zlen l)) (fun _ _ p i => map (fun x => cv x p i) l)).
  - apply good_count; auto. apply zlen_nonneg.
  - intros p i. unfold zlen. rewrite Nat2Z.id. apply good_all'. exact G.
Qed.
Lemma dbind_assoc {A B C} (f : rd A) (g : A -> rd B) (h : B -> rd C) s : dbind (dbind f g) h s = dbind f (fun x => dbind (g x) h) s.
Proof. unfold dbind. destruct (f s) as [(a & s')|]; reflexivity. Qed.
Lemma enc_all_ext {A} (f g : A -> W) : forall l, (forall x s, In x l -> f x s = g x s) -> forall s, enc_all f l s = enc_all g l s.
Proof.
  induction l as [|x l IH]; intros H s; [reflexivity|]. cbn [enc_all]. rewrite (H x s) by (cbn; auto).
  destruct (g x s) as [[r|]|]; cbn [wbind]; try reflexivity. rewrite IH; auto. intros; apply H; cbn; auto.
Qed.

Lemma combine_fst {A B} : forall (l : list A) (m : list B), (List.length l <= List.length m)%nat -> map fst (combine l m) = l.
Proof. induction l as [|x l IH]; intros [|y m] L; cbn in *; auto; try lia. f_equal. apply IH. lia. Qed.
Lemma combine_snd {A B} : forall (l : list A) (m : list B), (List.length l <= List.length m)%nat -> map snd (combine l m) = firstn (List.length l) m.
Proof. induction l as [|x l IH]; intros [|y m] L; cbn in *; auto; try lia. f_equal. apply IH. lia. Qed.

Lemma floats_vmap {T P T' P'} (f : T -> T') (g : P -> P') h : forall v, on_ints h (vmap f g v) = vmap f g (on_ints h v).
Proof.
  fix IH 1. intros [z|s|vs|kvs|vs|t|p]; cbn [vmap on_ints]; try reflexivity. f_equal. rewrite !map_map. induction vs as [|v vs IHv]; [reflexivity|]. cbn [map]. now rewrite IH, IHv.
Qed.

Section Conv.
Variable narrow widen : Z -> Z.
Hypothesis narrow_range : forall z, inU 32 (narrow z).
Notation wop := (wop narrow). Notation wops := (wops narrow). Notation rop := (rop widen). Notation rops := (rops widen).

Lemma wop_bt f b l x s : wop (Bt f b l) x s = if test (int_of (fget f x)) b then wops l x s else wret ([], s).
Proof.
  cbn [LcioDataModel.wop]. destruct (test _ b); [|reflexivity]. revert s. induction l as [|o l IH]; intros s; [reflexivity|]. cbn [LcioDataModel.wops].
  unfold wseq. destruct (wop o x s) as [[r|]|]; cbn [wbind]; try reflexivity. now rewrite IH.
Qed.
Lemma wop_vc f c sc l x s : wop (Vc f c sc l) x s = wseq (wbytes (wcount c (zlen (list_of (fget f x))))) (enc_all (fun e => wops l (names sc e)) (list_of (fget f x))) s.
Proof.
  cbn [LcioDataModel.wop]. unfold wseq at 1 3. cbn [wbytes wret wbind fst snd]. f_equal. apply enc_all_ext. intros e s0 _. revert s0.
  induction l as [|o l IH]; intros s0; [reflexivity|]. cbn [LcioDataModel.wops]. unfold wseq. destruct (wop o (names sc e) s0) as [[r|]|]; cbn [wbind]; try reflexivity. now rewrite IH.
Qed.
Lemma rop_bt f b l x s : rop (Bt f b l) x s = if test (int_of (fget f x)) b then rops l x s else dret x s.
Proof. cbn [LcioDataModel.rop]. destruct (test _ b); [|reflexivity]. revert x s. induction l as [|o l IH]; intros x s; [reflexivity|]. cbn [LcioDataModel.rops]. unfold dbind. destruct (rop o x s) as [(y & s')|]; auto. Qed.
Lemma drep_ext {A} (f g : rd A) : (forall s, f s = g s) -> forall n s, drep n f s = drep n g s.
Proof.
  intros H. induction n as [|n IH]; intros s; [reflexivity|]. cbn [drep]. unfold dbind. rewrite H. destruct (g s) as [(x & s')|]; auto. now rewrite IH.
Qed.
Lemma rop_vc f c sc l x s : rop (Vc f c sc l) x s =
  dbind (dbind (rcount c) (fun n => drep n (rops l (fresh sc)))) (fun es => dret (fset f (VList (map vals es)) x)) s.
Proof.
  rewrite dbind_assoc. cbn [LcioDataModel.rop]. unfold dbind. destruct (rcount c s) as [(n & s')|]; [|reflexivity].
  erewrite drep_ext; [reflexivity|]. intros s0. generalize (fresh sc). clear. revert s0. induction l as [|o l IH]; intros s0 y; [reflexivity|]. cbn [LcioDataModel.rops]. unfold dbind.
  destruct (rop o y s0) as [(z & s1)|]; auto.
Qed.

(* what is asked of an object, what it looks like after reading, and the objects that are tagged *)
Fixpoint typed_op (o : op) (x : obj Z Z) : Prop :=
  match o with
  | Fd f t => typed t (fget f x)
  | Ls f c t => fits c (zlen (list_of (fget f x))) /\ Forall (typed t) (list_of (fget f x))
  | Nr f t => typed (ty32 t) (on_ints narrow (fget f x))
  | Pr f g => zlen (list_of (fget f x)) < 2 ^ 31 /\ zlen (list_of (fget f x)) <= zlen (list_of (fget g x)) /\
              Forall (typed TPtr) (list_of (fget f x)) /\ Forall (typed (TU 4)) (list_of (fget g x))
  | Ad f => zlen (list_of (fget f x)) < 2 ^ 31 /\ Forall (typed (TU 2)) (list_of (fget f x))
  | Bt f b l => test (int_of (fget f x)) b = true -> (fix go (l : list op) : Prop := match l with [] => True | o :: l' => typed_op o x /\ go l' end) l
  | Vc f c sc l => fits c (zlen (list_of (fget f x))) /\
      Forall (fun e => (fix go (l : list op) : Prop := match l with [] => True | o :: l' => typed_op o (names sc e) /\ go l' end) l) (list_of (fget f x))
  | Sk _ => False
  end.
Fixpoint typed_ops (l : list op) (x : obj Z Z) : Prop := match l with [] => True | o :: l' => typed_op o x /\ typed_ops l' x end.
Lemma typed_ops_fix l x : (fix go (l : list op) : Prop := match l with [] => True | o :: l' => typed_op o x /\ go l' end) l = typed_ops l x.
Proof. induction l as [|o l IH]; [reflexivity|]. cbn [typed_ops]. now rewrite <- IH. Qed.
Fixpoint after (o : op) (x : obj Z Z) (p : Z -> nat) (i : Z -> Z) (xr : obj nat Z) : obj nat Z :=
  match o with
  | Fd f t => fset f (vmap p i (fget f x)) xr
  | Ls f _ _ | Ad f => fset f (VList (map (vmap p i) (list_of (fget f x)))) xr
  | Nr f t => fset f (vmap p i (on_ints widen (on_ints narrow (fget f x)))) xr
  | Pr f g => fset g (VList (map (vmap p i) (firstn (List.length (list_of (fget f x))) (list_of (fget g x))))) (fset f (VList (map (vmap p i) (list_of (fget f x)))) xr)
  | Bt f b l => if test (int_of (fget f x)) b then fold_left (fun xr o => after o x p i xr) l xr else xr
  | Vc f c sc l => fset f (VList (map (fun e => vals (fold_left (fun xr o => after o (names sc e) p i xr) l (fresh sc))) (list_of (fget f x)))) xr
  | Sk _ => xr
  end.
Definition afters (l : list op) (x : obj Z Z) p i (xr : obj nat Z) : obj nat Z := fold_left (fun xr o => after o x p i xr) l xr.
Fixpoint tags_op (o : op) (x : obj Z Z) : list Z :=
  match o with
  | Fd f t => tags_of (fget f x)
  | Ls f _ _ | Ad f => flat_map tags_of (list_of (fget f x))
  | Nr f t => tags_of (on_ints narrow (fget f x))
  | Pr f g => flat_map (fun p => tags_of (fst p) ++ tags_of (snd p)) (combine (list_of (fget f x)) (list_of (fget g x)))
  | Bt f b l => if test (int_of (fget f x)) b then flat_map (fun o => tags_op o x) l else []
  | Vc f c sc l => flat_map (fun e => flat_map (fun o => tags_op o (names sc e)) l) (list_of (fget f x))
  | Sk _ => []
  end.
Definition tags_ops (l : list op) (x : obj Z Z) : list Z := flat_map (fun o => tags_op o x) l.
(* the reader tests a field that has been read *)
Fixpoint sync_op (o : op) (x : obj Z Z) (xr : obj nat Z) : Prop :=
  match o with
  | Bt f b l => int_of (fget f xr) = int_of (fget f x) /\
      (fix go (l : list op) (xr : obj nat Z) : Prop := match l with [] => True | o :: l' => sync_op o x xr /\ forall p i, go l' (after o x p i xr) end) l xr
  | Vc f c sc l => forall e, (fix go (l : list op) (xr : obj nat Z) : Prop := match l with [] => True | o :: l' => sync_op o (names sc e) xr /\ forall p i, go l' (after o (names sc e) p i xr) end) l (fresh sc)
  | _ => True
  end.
Fixpoint sync (l : list op) (x : obj Z Z) (xr : obj nat Z) : Prop :=
  match l with [] => True | o :: l' => sync_op o x xr /\ forall p i, sync l' x (after o x p i xr) end.
Lemma sync_fix x l : forall xr, (fix go (l : list op) (xr : obj nat Z) : Prop := match l with [] => True | o :: l' => sync_op o x xr /\ forall p i, go l' (after o x p i xr) end) l xr -> sync l x xr.
Proof. induction l as [|o l IH]; intros xr H; [exact I|]. cbn [sync]. destruct H as (H1 & H2). split; [exact H1|]. intros p i. apply IH, H2. Qed.

Lemma sync_fix' x l : forall xr, sync l x xr -> (fix go (l : list op) (xr : obj nat Z) : Prop := match l with [] => True | o :: l' => sync_op o x xr /\ forall p i, go l' (after o x p i xr) end) l xr.
Proof. induction l as [|o l IH]; intros xr H; [exact I|]. cbn [sync] in H. destruct H as (H1 & H2). split; [exact H1|]. intros p i. apply IH, H2. Qed.

Section OpInd.
  Variable P : op -> Prop.
  Hypothesis H1 : forall f t, P (Fd f t). Hypothesis H2 : forall f c t, P (Ls f c t). Hypothesis H3 : forall f t, P (Nr f t).
  Hypothesis H4 : forall f g, P (Pr f g). Hypothesis H5 : forall f, P (Ad f). Hypothesis H6 : forall f b l, Forall P l -> P (Bt f b l).
  Hypothesis H7 : forall f c s l, Forall P l -> P (Vc f c s l). Hypothesis H8 : forall t, P (Sk t).
  Fixpoint op_ind2 (o : op) : P o :=
    match o with
    | Fd f t => H1 f t | Ls f c t => H2 f c t | Nr f t => H3 f t | Pr f g => H4 f g | Ad f => H5 f | Sk t => H8 t
    | Bt f b l => H6 f b l ((fix go (l : list op) : Forall P l := match l with [] => Forall_nil P | o :: l' => Forall_cons o (op_ind2 o) (go l') end) l)
    | Vc f c s l => H7 f c s l ((fix go (l : list op) : Forall P l := match l with [] => Forall_nil P | o :: l' => Forall_cons o (op_ind2 o) (go l') end) l)
    end.
End OpInd.

Definition good_op (o : op) : Prop := forall x xr, typed_op o x -> sync_op o x xr ->
  good (wop o x) (rop o xr) (fun p i => after o x p i xr) (tags_op o x) x.
Lemma good_ops : forall l, Forall good_op l -> forall x xr, typed_ops l x -> sync l x xr ->
  good (wops l x) (rops l xr) (fun p i => afters l x p i xr) (tags_ops l x) x.
Proof.
  intros l F. induction F as [|o l Ho F IH]; intros x xr T S; cbn [LcioDataModel.wops LcioDataModel.rops].
  - apply (good_ret x).
  - destruct T as (To & Tl). destruct S as (So & Sl).
    apply (good_wseq x _ _ _ _ (fun p i => after o x p i xr) (fun p i p' i' => afters l x p' i' (after o x p i xr)) (tags_op o x) (tags_ops l x)).
    + apply Ho; auto.
    + intros p i. apply IH; auto.
Qed.
Lemma good_op_all : forall o, good_op o.
Proof.
  induction o as [f t|f c t|f t|f g|f|f b l IH|f c sc l IH|t] using op_ind2; intros x xr T S; cbn [typed_op] in T.
  - cbn [LcioDataModel.wop LcioDataModel.rop after tags_op]. apply (good_map x _ _ (fun v => fset f v xr)). apply enc_good'. exact T.
  - destruct T as (F & T). cbn [LcioDataModel.wop LcioDataModel.rop after tags_op].
    eapply good_ext with (g := dbind (dbind (rcount c) (fun n => drep n (dec t))) (fun vs => dret (fset f (VList vs) xr))); [reflexivity| |reflexivity|reflexivity|].
    { intros s. symmetry. apply (dbind_assoc (rcount c)). }
    apply (good_map x _ _ (fun vs => fset f (VList vs) xr)).
    apply (good_loop x (enc true t) (dec t) (fun v p i => vmap p i v) tags_of); auto. intros v J. apply enc_good. rewrite Forall_forall in T. auto.
  - cbn [LcioDataModel.wop LcioDataModel.rop after tags_op].
    eapply good_ext with (c := fun p i => fset f (on_ints widen (vmap p i (on_ints narrow (fget f x)))) xr); [reflexivity|reflexivity|intros p i; now rewrite floats_vmap|reflexivity|].
    apply (good_map x _ _ (fun v => fset f (on_ints widen v) xr)). apply enc_good'. exact T.
  - destruct T as (F & L & Th & Tw). cbn [LcioDataModel.wop LcioDataModel.rop after tags_op]. cbv zeta.
    set (hs := list_of (fget f x)) in *. set (ws := list_of (fget g x)) in *.
    destruct (Z.ltb_spec (zlen ws) (zlen hs)); [lia|].
    assert (Lc : List.length (combine hs ws) = List.length hs) by (rewrite combine_length; unfold zlen in *; lia).
    assert (Ll : (List.length hs <= List.length ws)%nat) by (unfold zlen in L; lia).
    pose proof (combine_fst hs ws Ll) as Ef. pose proof (combine_snd hs ws Ll) as Es.
    eapply good_ext with (f := wseq (wbytes (wcount CInt (zlen (combine hs ws)))) (enc_all (fun p => wseq (enc true TPtr (fst p)) (enc true (TU 4) (snd p))) (combine hs ws)))
      (g := dbind (dbind (rcount CInt) (fun n => drep n (dbind (dec TPtr) (fun h => dbind (dec (TU 4)) (fun w => dret (h, w))))))
                 (fun ps => dret (fset g (VList (map snd ps)) (fset f (VList (map fst ps)) xr))))
      (c := fun p i => fset g (VList (map snd (map (fun hw => (vmap p i (fst hw), vmap p i (snd hw))) (combine hs ws))))
                      (fset f (VList (map fst (map (fun hw => (vmap p i (fst hw), vmap p i (snd hw))) (combine hs ws)))) xr)).
    { intros s. unfold zlen at 2. rewrite Lc. reflexivity. }
    { intros s. symmetry. apply (dbind_assoc (rcount CInt)). }
    { intros p i. rewrite !map_map. cbn [fst snd]. rewrite <- (map_map fst (vmap p i)), <- (map_map snd (vmap p i)), Ef, Es. reflexivity. }
    { reflexivity. }
    apply (good_map x _ _ (fun ps => fset g (VList (map snd ps)) (fset f (VList (map fst ps)) xr)) (fun p i => map (fun hw => (vmap p i (fst hw), vmap p i (snd hw))) (combine hs ws))).
    apply (good_loop x _ _ (fun hw p i => (vmap p i (fst hw), vmap p i (snd hw))) (fun hw => tags_of (fst hw) ++ tags_of (snd hw))).
    { cbn [fits]. unfold zlen at 1. rewrite Lc. exact F. }
    intros (h & w) J. cbn [fst snd]. pose proof (in_combine_l _ _ _ _ J) as Jh. pose proof (in_combine_r _ _ _ _ J) as Jw. rewrite Forall_forall in Th, Tw.
    apply (good_wseq (h, w) _ _ _ _ (fun p i => vmap p i h) (fun p i p' i' => (vmap p i h, vmap p' i' w))).
    + apply enc_good'. auto.
    + intros p i. apply (good_map (h, w) _ _ (pair (vmap p i h)) (fun p i => vmap p i w)). apply enc_good'. auto.
  - destruct T as (F & T). cbn [LcioDataModel.wop LcioDataModel.rop after tags_op]. cbv zeta. set (l := list_of (fget f x)) in *. rewrite Forall_forall in T.
    change (flat_map tags_of l) with ([] ++ flat_map tags_of l). rewrite <- (app_nil_r (flat_map tags_of l)).
    apply (good_wseq x (wbytes (wcount CInt (zlen l))) _ _ _ (fun _ _ => Z.to_nat (zlen l)) (fun _ _ p i => fset f (VList (map (vmap p i) l)) xr)).
    { apply good_count; auto. apply zlen_nonneg. }
    intros _ _. replace (Z.to_nat (zlen l)) with (List.length l) by (unfold zlen; lia). change (Z.of_nat (List.length l)) with (zlen l).
    apply (good_wseq x _ _ _ _ (fun p i => map (fun v => vmap p i v) l) (fun p i _ _ => fset f (VList (map (vmap p i) l)) xr) (flat_map tags_of l) []).
    + apply good_all'. intros v J. apply enc_good. auto.
    + intros p i. apply (good_map x _ _ (fun _ => fset f (VList (map (vmap p i) l)) xr) (fun _ _ => VInt 0)).
      destruct (zlen l mod 2 =? 1); [|apply (good_ret x)]. apply (enc_good' x (TU 2) (VInt 0)). cbn. unfold inU. lia.
  - rewrite typed_ops_fix in T. cbn [sync_op] in S. destruct S as (Se & Sl). apply sync_fix in Sl. cbn [after tags_op].
    eapply good_ext; [intros s; apply wop_bt|intros s; apply rop_bt|reflexivity|reflexivity|]. rewrite Se. destruct (test (int_of (fget f x)) b).
    + apply (good_ops l IH); auto.
    + apply (good_ret x).
  - destruct T as (F & T). cbn [sync_op] in S. cbn [after tags_op].
    eapply good_ext; [intros s; apply wop_vc|intros s; apply rop_vc|reflexivity|reflexivity|].
    eapply good_ext with (c := fun p i => fset f (VList (map vals (map (fun e => afters l (names sc e) p i (fresh sc)) (list_of (fget f x))))) xr); [reflexivity|reflexivity| |reflexivity|].
    { intros p i. rewrite map_map. reflexivity. }
    apply (good_map x _ _ (fun es => fset f (VList (map vals es)) xr) (fun p i => map (fun e => afters l (names sc e) p i (fresh sc)) (list_of (fget f x)))).
    apply (good_loop x (fun e => wops l (names sc e)) (rops l (fresh sc)) (fun e p i => afters l (names sc e) p i (fresh sc)) (fun e => tags_ops l (names sc e))); auto.
    intros e J. rewrite Forall_forall in T. specialize (T e J). rewrite typed_ops_fix in T. apply (good_any (names sc e)). apply (good_ops l IH); auto. apply sync_fix, S.
  - contradiction.
Qed.
Lemma good_ops_all l x xr : typed_ops l x -> sync l x xr -> good (wops l x) (rops l xr) (fun p i => afters l x p i xr) (tags_ops l x) x.
Proof. apply good_ops. rewrite Forall_forall. intros o _. apply good_op_all. Qed.
End Conv.
