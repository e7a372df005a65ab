(* Proofs about lists of branches, chains, the read-ahead pipeline, direct access and the absence of panics. *)
From Coq Require Import ZArith List Lia Bool Permutation.
From Verif Require Import Bytes GoLib RbytesModel RbytesProofs TreeModel TreeProofs TreeProofs2.
Import ListNotations.
Local Open Scope Z_scope.
Local Arguments be : simpl never.

(* l[a:b] *)
Definition sub {A} (l : list A) (a b : Z) : list A := firstn (Z.to_nat (b - a)) (skipn (Z.to_nat a) l).
Lemma sub_nil {A} (l : list A) a : sub l a a = [].
Proof. unfold sub. now rewrite Z.sub_diag. Qed.
Lemma firstn_plus {A} : forall (l : list A) n m, firstn (n + m) l = firstn n l ++ firstn m (skipn n l).
Proof. induction l as [|x l IH]; intros [|n] m; simpl; auto; [now rewrite firstn_nil|]. f_equal. apply IH. Qed.
Lemma sub_split {A} (l : list A) a b c : 0 <= a -> a <= b -> b <= c -> sub l a c = sub l a b ++ sub l b c.
Proof.
  intros. unfold sub. replace (Z.to_nat (c - a)) with (Z.to_nat (b - a) + Z.to_nat (c - b))%nat by lia.
  rewrite firstn_plus, skipn_skipn. do 3 f_equal. lia.
Qed.
Lemma sub_length {A} (l : list A) a b : 0 <= a -> a <= b -> b <= zlen l -> length (sub l a b) = Z.to_nat (b - a).
Proof. intros. unfold sub, zlen in *. rewrite firstn_length, skipn_length. lia. Qed.
Lemma sub_all {A} (l : list A) : sub l 0 (zlen l) = l.
Proof. unfold sub, zlen. simpl. rewrite Z.sub_0_r, Nat2Z.id. apply firstn_all. Qed.
Lemma sub_map {A B} (f : A -> B) l a b : sub (map f l) a b = map f (sub l a b).
Proof. unfold sub. now rewrite skipn_map, firstn_map. Qed.
Lemma concat_mid {A} (cs : list (list A)) k c : nth_error cs k = Some c ->
  concat cs = concat (firstn k cs) ++ c ++ concat (skipn (S k) cs).
Proof.
  revert k; induction cs as [|x cs IH]; intros [|k] H; simpl in *; try discriminate.
  - now injection H as ->.
  - rewrite <- app_assoc. f_equal. now apply IH.
Qed.
Lemma sub_chunk {A} (cs : list (list A)) k c a b : nth_error cs k = Some c -> pre cs k <= a -> a <= b -> b <= pre cs (S k) ->
  sub (concat cs) a b = sub c (a - pre cs k) (b - pre cs k).
Proof.
  intros N H1 H2 H3. rewrite (pre_S _ _ _ N) in H3. unfold sub. rewrite (concat_mid _ _ _ N).
  replace (b - pre cs k - (a - pre cs k)) with (b - a) by lia.
  unfold pre, zlen in *.
  rewrite skipn_app, skipn_all2 by lia. cbn [app].
  rewrite skipn_app.
  replace (Z.to_nat a - length (concat (firstn k cs)))%nat with (Z.to_nat (a - Z.of_nat (length (concat (firstn k cs))))) by lia.
  set (n := Z.to_nat (a - Z.of_nat (length (concat (firstn k cs))))).
  rewrite firstn_app. rewrite skipn_length. replace (Z.to_nat (b - a) - (length c - n))%nat with 0%nat by lia.
  now rewrite firstn_O, app_nil_r.
Qed.
Lemma combine_app {A B} (l1 l2 : list A) (m1 m2 : list B) : length l1 = length m1 ->
  combine (l1 ++ l2) (m1 ++ m2) = combine l1 m1 ++ combine l2 m2.
Proof. revert m1; induction l1 as [|x l1 IH]; intros [|y m1] H; simpl in *; try discriminate; auto. f_equal. apply IH. lia. Qed.
Lemma zseq_length b n : length (zseq b n) = n.
Proof. unfold zseq. now rewrite map_length, seq_length. Qed.

Lemma Forall2_nth {A B} (R : A -> B -> Prop) l l' i x : Forall2 R l l' -> nth_error l i = Some x ->
  exists y, nth_error l' i = Some y /\ R x y.
Proof.
  intros F; revert i; induction F as [|a b l l' R0 F IH]; intros [|i] N; simpl in *; try discriminate.
  - injection N as <-. eauto.
  - eauto.
Qed.

(* values read at i, i+1, ... as a slice *)
Lemma nth_zseq {A} (vals : list A) d beg n off : 0 <= beg -> beg + Z.of_nat n <= zlen vals ->
  map (fun j => (j + off, nth (Z.to_nat j) vals d)) (zseq beg n) = combine (zseq (beg + off) n) (sub vals beg (beg + Z.of_nat n)).
Proof.
  revert beg; induction n as [|n IH]; intros beg H0 H1; [reflexivity|].
  rewrite !zseq_S. cbn [map].
  rewrite (sub_split vals beg (beg + 1)) by lia.
  assert (E : sub vals beg (beg + 1) = [nth (Z.to_nat beg) vals d]).
  { unfold sub. replace (Z.to_nat (beg + 1 - beg)) with 1%nat by lia.
    assert (L : (Z.to_nat beg < length vals)%nat) by (unfold zlen in H1; lia).
    revert L. generalize (Z.to_nat beg). clear. induction vals as [|x l IH]; intros [|k] L; simpl in *; try lia; auto.
    rewrite IH by lia. reflexivity. }
  rewrite E. cbn [app combine]. f_equal. rewrite IH by lia.
  f_equal; [f_equal; lia|]. f_equal. lia.
Qed.

(* ---- one branch ---- *)
Definition readable {A} (es : list (list Z)) (vals : list A) (b : rbr) (lo : Z) (g : rd A) : Prop :=
  (exists kl, layout kl (reoff b) es b) /\ 0 <= reoff b /\ Forall2 (leaf_reads lo g) es vals /\
  (reoff b = 0 -> forall e1 e2, In e1 es -> In e2 es -> zlen e1 = zlen e2).
Lemma readable_len {A} es (vals : list A) b lo g : readable es vals b lo g -> length es = length vals.
Proof. intros (_ & _ & F & _). induction F; simpl; auto. Qed.
Lemma readable_val {A} es (vals : list A) d b lo g : readable es vals b lo g ->
  forall i e, nth_error es i = Some e -> leaf_reads lo g e (nth (Z.to_nat (Z.of_nat i)) vals d).
Proof.
  intros (_ & _ & F & _) i e N. destruct (Forall2_nth _ _ _ _ _ F N) as (v & Nv & R). rewrite Nat2Z.id.
  erewrite nth_error_nth by eauto. exact R.
Qed.

Lemma run_tree_vals {A} es (vals : list A) b lo g off beg end_ : readable es vals b lo g ->
  0 <= beg -> beg <= end_ -> end_ <= zlen vals ->
  run_tree b lo g off beg end_ = Ok (Some (combine (zseq (beg + off) (Z.to_nat (end_ - beg))) (sub vals beg end_))).
Proof.
  intros R H0 H1 H2. pose proof R as ((kl & L) & Eo & F & Sm). pose proof (readable_len _ _ _ _ _ R) as Len.
  assert (Hd : vals = [] \/ exists d : A, True) by (destruct vals as [|d]; eauto).
  destruct Hd as [->|(d & _)].
  - change (zlen (@nil A)) with 0 in *. assert (beg = 0) by lia. assert (end_ = 0) by lia. subst.
    pose proof L as (cs & c & Les & Ltab & _). destruct es; [|discriminate].
    unfold run_tree, feed. rewrite Ltab, spans_of_table by (destruct cs; discriminate).
    rewrite app_length. cbn [length]. rewrite Nat.add_1_r, seq_S, map_app. cbn [map]. rewrite last_last. cbn [send span_of].
    rewrite firstn_all2 by (rewrite app_length; simpl; lia). rewrite <- Les. reflexivity.
  - pose proof (run_tree_spec kl (reoff b) Eo lo g (fun j => nth (Z.to_nat j) vals d) es (readable_val es vals d b lo g R) Sm b off beg end_ L H0 H1
                  ltac:(unfold zlen in *; lia)) as E.
    rewrite E. rewrite nth_zseq by lia. do 3 f_equal. f_equal. lia.
Qed.

(* ---- several branches in lock step ---- *)
Definition st_ok (es : list (list Z)) (b : rbr) (i end_ : Z) (st : rstate) : Prop :=
  exists kl cs c k ke, es = concat (cs ++ [c]) /\ rtab b = table_from 0 (cs ++ [c]) /\
    Forall2 (f_rep kl (reoff b)) (cs ++ [c]) (rfile b) /\ Forall (fits kl) (cs ++ [c]) /\ Forall (fun c => c <> []) cs /\
    (k <= ke)%nat /\ (ke < length (cs ++ [c]))%nat /\ end_ <= pre (cs ++ [c]) (S ke) /\
    pre (cs ++ [c]) k <= i <= pre (cs ++ [c]) (S k) /\
    st = (Some (span_of (cs ++ [c]) k), map (span_of (cs ++ [c])) (seq (S k) (ke - k))).
Lemma st_start {A} es (vals : list A) b lo g beg end_ : readable es vals b lo g -> 0 <= beg -> beg < end_ -> end_ <= zlen es ->
  exists s l, feed (rtab b) beg end_ = Ok (s :: l) /\ st_ok es b beg end_ (Some s, l).
Proof.
  intros ((kl & cs & c & Les & Ltab & _ & Lfile & Lfits & Lne) & Eo & _) H0 H1 H2.
  destruct (feed_spec kl (reoff b) es b cs c Les Ltab Lfile Lfits Lne beg end_ H0 H1 H2) as (kb & ke & Lk & Lke & Pb & Pe & _ & F).
  rewrite F. replace (S ke - kb)%nat with (S (ke - kb)) by lia. cbn [seq map]. eexists _, _. split; [reflexivity|].
  exists kl, cs, c, kb, ke. repeat (split; auto); lia.
Qed.
Lemma st_read {A} es (vals : list A) d b lo g i end_ st : readable es vals b lo g -> st_ok es b i end_ st -> i < end_ -> end_ <= zlen es ->
  exists st', read_entry b lo g i st = Ok (Some (nth (Z.to_nat i) vals d, st')) /\ st_ok es b (i + 1) end_ st'.
Proof.
  intros R (kl & cs & c & k & ke & Les & Ltab & Lfile & Lfits & Lne & Lk & Lke & Pe & Pi & ->) H1 H2.
  pose proof R as (_ & Eo & _ & Sm).
  destruct (read_entry_spec kl (reoff b) Eo lo g (fun j => nth (Z.to_nat j) vals d) es (readable_val es vals d b lo g R) Sm b cs c
              Les eq_refl Lfile Lfits Lne i k ke end_ Lk Lke Pe H2 Pi H1) as (k' & Lk' & Pk' & E).
  rewrite E. eexists. split; [reflexivity|]. exists kl, cs, c, k', ke. repeat (split; auto); lia.
Qed.

(* a branch to read: its entries and its values, as read by a leaf *)
Definition col (A : Type) : Type := ((list (list Z) * list A) * (rbr * (Z * rd A)))%type.
Definition col_ok {A} (n : Z) (x : col A) : Prop :=
  readable (fst (fst x)) (snd (fst x)) (fst (snd x)) (fst (snd (snd x))) (snd (snd (snd x))) /\ zlen (snd (fst x)) = n.

Lemma read_all_spec {A} (d : A) n end_ i : end_ <= n -> i < end_ -> forall (cols : list (col A)) sts, Forall (col_ok n) cols ->
  Forall2 (fun x st => st_ok (fst (fst x)) (fst (snd x)) i end_ st) cols sts ->
  exists sts', read_all (map snd cols) i sts = Ok (Some (map (fun x => nth (Z.to_nat i) (snd (fst x)) d) cols, sts')) /\
    Forall2 (fun x st => st_ok (fst (fst x)) (fst (snd x)) (i + 1) end_ st) cols sts'.
Proof.
  intros H1 H2. induction cols as [|x cols IH]; intros sts C F.
  - inversion F; subst. exists []. split; auto. 
  - inversion F as [|? st ? sts' S0 F']; subst. inversion C as [|? ? C0 C']; subst.
    destruct x as [[es vals] [b [lo g]]]. unfold col_ok in C0. cbn [fst snd] in *. destruct C0 as (R & Len).
    pose proof (readable_len _ _ _ _ _ R) as Le.
    destruct (st_read es vals d b lo g i end_ st R S0 H2 ltac:(unfold zlen in *; lia)) as (st' & E & S1).
    destruct (IH sts' C' F') as (sts'' & E2 & F2).
    cbn [map read_all fst snd]. rewrite E. cbn [rbind]. rewrite E2. cbn [rbind].
    eexists. split; [reflexivity|]. constructor; auto.
Qed.
Lemma join_loop_spec {A} (d : A) n end_ off : end_ <= n -> forall (cols : list (col A)), Forall (col_ok n) cols ->
  forall m i sts, i + Z.of_nat m <= end_ -> Forall2 (fun x st => st_ok (fst (fst x)) (fst (snd x)) i end_ st) cols sts ->
  join_loop (map snd cols) m i off sts = Ok (Some (map (fun j => (j + off, map (fun x => nth (Z.to_nat j) (snd (fst x)) d) cols)) (zseq i m))).
Proof.
  intros H1 cols C. induction m as [|m IH]; intros i sts H2 F; [reflexivity|].
  rewrite zseq_S. cbn [join_loop map].
  destruct (read_all_spec d n end_ i H1 ltac:(lia) cols sts C F) as (sts' & E & F').
  rewrite E. cbn [rbind]. rewrite (IH (i + 1) sts') by (auto; lia). reflexivity.
Qed.
Lemma start_all_spec {A} n beg end_ : 0 <= beg -> beg < end_ -> end_ <= n -> forall (cols : list (col A)), Forall (col_ok n) cols ->
  exists sts, start_all (map fst (map snd cols)) beg end_ = Ok sts /\
    Forall2 (fun x st => st_ok (fst (fst x)) (fst (snd x)) beg end_ st) cols sts.
Proof.
  intros H0 H1 H2. induction cols as [|x cols IH]; intros C; [exists []; split; auto|].
  inversion C as [|? ? C0 C']; subst. destruct x as [[es vals] [b [lo g]]]. unfold col_ok in C0. cbn [fst snd] in *. destruct C0 as (R & Len).
  pose proof (readable_len _ _ _ _ _ R) as Le.
  destruct (st_start es vals b lo g beg end_ R H0 H1 ltac:(unfold zlen in *; lia)) as (s & l & E & S0).
  destruct (IH C') as (sts & E2 & F2). cbn [map start_all fst snd]. rewrite E. cbn [rbind]. rewrite E2. cbn [rbind].
  eexists. split; [reflexivity|]. constructor; auto.
Qed.

(* ---- chains ---- *)
Section ChainProofs.
  Context {T A : Type}.
  Variable entries : T -> Z.
  Variable run1 : T -> Z -> Z -> Z -> res (option (list (Z * A))).
  Variable vals : T -> list A.
  Hypothesis Hent : forall t, entries t = zlen (vals t).
  Hypothesis Hrun : forall t off beg end_, 0 <= beg -> beg <= end_ -> end_ <= entries t ->
    run1 t off beg end_ = Ok (Some (combine (zseq (beg + off) (Z.to_nat (end_ - beg))) (sub (vals t) beg end_))).

  Fixpoint tspans (k : nat) (eoff : Z) (ts : list T) : list rspan :=
    match ts with [] => [] | t :: ts' => {| sbeg := eoff; send := eoff + entries t; sid := k |} :: tspans (S k) (eoff + entries t) ts' end.
  Lemma findTrees_spans beg end_ : forall ts i k eoff ibeg iend,
    findTrees_loop entries i eoff ts beg end_ ibeg iend = findBaskets_loop i (tspans k eoff ts) beg end_ ibeg iend.
  Proof.
    induction ts as [|t ts IH]; intros; [reflexivity|]. cbn [findTrees_loop tspans findBaskets_loop sbeg send]. cbv zeta. rewrite (IH _ (S k)). reflexivity.
  Qed.
  Definition tspan (cs : list (list A)) (k : nat) : rspan := {| sbeg := pre cs k; send := pre cs (S k); sid := k |}.
  Lemma tspans_spec ts : forall k eoff, tspans k eoff ts =
    map (fun j => {| sbeg := eoff + pre (map vals ts) j; send := eoff + pre (map vals ts) (S j); sid := k + j |}) (seq 0 (length ts)).
  Proof.
    induction ts as [|t ts IH]; intros k eoff; [reflexivity|]. cbn [tspans length seq map]. rewrite IH. f_equal.
    - f_equal; try lia.
      + unfold pre. cbn. lia.
      + unfold pre. cbn [firstn map concat]. rewrite app_nil_r, Hent. lia.
    - rewrite <- seq_shift, map_map. apply map_ext. intros j. unfold pre. cbn [firstn map concat]. rewrite !zlen_app, Hent. f_equal; lia.
  Qed.
  Lemma offs_spec ts : forall off, chain_offs entries off ts = map (fun j => off + pre (map vals ts) j) (seq 0 (length ts)).
  Proof.
    induction ts as [|t ts IH]; intros off; [reflexivity|]. cbn [chain_offs length seq map]. rewrite IH. f_equal.
    - unfold pre. cbn. lia.
    - rewrite <- seq_shift, map_map. apply map_ext. intros j. unfold pre. cbn [firstn map concat]. rewrite !zlen_app, Hent. lia.
  Qed.
  Lemma tots_spec ts : forall off, chain_tots entries off ts = map (fun j => off + pre (map vals ts) (S j)) (seq 0 (length ts)).
  Proof.
    induction ts as [|t ts IH]; intros off; [reflexivity|]. cbn [chain_tots length seq map]. rewrite IH. f_equal.
    - unfold pre. cbn [firstn map concat]. rewrite app_nil_r, Hent. lia.
    - rewrite <- seq_shift, map_map. apply map_ext. intros j. unfold pre. cbn [firstn map concat]. rewrite !zlen_app, Hent. lia.
  Qed.
  Lemma entries_spec ts : chain_entries entries ts = zlen (concat (map vals ts)).
  Proof.
    unfold chain_entries. assert (G : forall a, fold_left (fun v t => v + entries t) ts a = a + zlen (concat (map vals ts))).
    { induction ts as [|t ts IH]; intros a; cbn [fold_left map concat]; [rewrite zlen_nil; lia|]. rewrite IH, zlen_app, Hent. lia. }
    rewrite G. lia.
  Qed.
  Definition celt (ts : list T) (t0 : T) (j : nat) : T * (Z * Z) := (nth j ts t0, (pre (map vals ts) j, pre (map vals ts) (S j))).
  Lemma combine_spec ts t0 : combine ts (combine (chain_offs entries 0 ts) (chain_tots entries 0 ts)) = map (celt ts t0) (seq 0 (length ts)).
  Proof.
    rewrite offs_spec, tots_spec.
    assert (G : forall (f h : nat -> Z) l a, combine l (combine (map f (seq a (length l))) (map h (seq a (length l)))) =
      map (fun j => (nth (j - a) l t0, (f j, h j))) (seq a (length l))).
    { intros f h. induction l as [|x l IH]; intros a; [reflexivity|]. cbn [length seq map combine]. rewrite IH. f_equal.
      - now rewrite Nat.sub_diag.
      - apply map_ext_in. intros j Hj. apply in_seq in Hj. replace (j - a)%nat with (S (j - S a)) by lia. reflexivity. }
    rewrite G. apply map_ext. intros j. unfold celt. rewrite Nat.sub_0_r. f_equal.
  Qed.

  Lemma chain_loop_spec ts t0 off beg end_ ke : let CS := map vals ts in
    (ke < length ts)%nat -> 0 <= beg -> beg <= end_ -> end_ <= pre CS (S ke) -> (forall j, (j < ke)%nat -> pre CS (S j) <= end_) ->
    forall m k, (k + m = S ke)%nat -> (m = 0%nat -> True) -> (m <> 0%nat -> beg <= pre CS (S k)) ->
      let lo := if Nat.eqb m 0 then end_ else Z.max beg (pre CS k) in
      chain_loop run1 (map (celt ts t0) (seq k m)) off beg end_ =
        Ok (Some (combine (zseq (lo + off) (Z.to_nat (end_ - lo))) (sub (concat CS) lo end_))).
  Proof.
    intros CS Lke H0 H1 Pe Pj. induction m as [|m IH]; intros k Hk _ Pb lo.
    - unfold lo. cbn. rewrite Z.sub_diag. reflexivity.
    - assert (Lo : lo = Z.max beg (pre CS k)) by reflexivity. clearbody lo.
      cbn [seq map chain_loop]. unfold celt at 1.
      assert (Nk : nth_error CS k = Some (vals (nth k ts t0))).
      { unfold CS. rewrite nth_error_map. rewrite (nth_error_nth' ts t0) by lia. reflexivity. }
      specialize (Pb ltac:(lia)).
      pose proof (pre_S _ _ _ Nk) as PS. rewrite <- Hent in PS. pose proof (zlen_nonneg (vals (nth k ts t0))) as Zn. rewrite <- Hent in Zn.
      fold CS.
      assert (Lk : pre CS k <= end_).
      { destruct k as [|k]; [rewrite pre_0; lia|]. apply Pj. lia. }
      rewrite Hrun by lia. cbn [rbind].
      destruct m as [|m].
      + cbn [seq map chain_loop rbind]. assert (k = ke) by lia. subst k. rewrite app_nil_r. do 2 f_equal.
        rewrite (sub_chunk CS ke _ lo end_ Nk) by lia.
        f_equal; [f_equal; lia|]. f_equal; lia.
      + assert (Pk := Pj k ltac:(lia)).
        rewrite (IH (S k)) by (auto; try lia; intros; pose proof (pre_mono CS (S k) (S (S k)) ltac:(lia)); lia). cbn [Nat.eqb rbind].
        set (mid := Z.max beg (pre CS (S k))). assert (Mid : mid = pre CS (S k)) by (unfold mid; lia).
        do 2 f_equal. rewrite (sub_split _ lo mid end_) by lia.
        replace (Z.to_nat (end_ - lo)) with (Z.to_nat (mid - lo) + Z.to_nat (end_ - mid))%nat by lia.
        rewrite zseq_app, combine_app.
        * f_equal.
          -- rewrite (sub_chunk CS k _ lo mid Nk) by lia. f_equal; [f_equal; lia|]. f_equal; lia.
          -- f_equal. f_equal. lia.
        * rewrite zseq_length, sub_length; auto; try lia. rewrite Mid. pose proof (pre_mono CS (S k) (length CS + S k) ltac:(lia)).
          rewrite (pre_all CS (length CS + S k)) in * by lia. lia.
  Qed.

  Lemma chain_run_spec ts off beg end_ : 0 <= beg -> beg < end_ -> end_ <= chain_entries entries ts ->
    chain_run entries run1 ts off beg end_ =
      Ok (Some (combine (zseq (beg + off) (Z.to_nat (end_ - beg))) (sub (concat (map vals ts)) beg end_))).
  Proof.
    intros H0 H1 H2. rewrite entries_spec in H2. set (CS := map vals ts) in *.
    assert (LC : length CS = length ts) by apply map_length.
    destruct (find_cut CS beg ltac:(lia)) as (kb & Lb & Pb).
    destruct (least (fun k => end_ <=? pre CS (S k)) (length ts - 1)) as (ke & Le & Pe & Fe).
    { rewrite pre_all by lia. apply Z.leb_le; lia. }
    apply Z.leb_le in Pe.
    assert (Lk : (kb <= ke)%nat).
    { destruct (Nat.le_gt_cases kb ke); auto. pose proof (pre_mono CS (S ke) kb ltac:(lia)). lia. }
    assert (Ht : exists t0 : T, True).
    { clear -Lb. subst CS. rewrite map_length in Lb. destruct ts; [simpl in Lb; lia|eauto]. }
    destruct Ht as (t0 & _).
    unfold chain_run, findTrees. rewrite (findTrees_spans _ _ _ _ 0%nat).
    rewrite findBaskets_loop_spec by lia. cbv zeta. cbn [Z.ltb Z.compare].
    rewrite tspans_spec. fold CS.
    assert (Ex : map (fun j => {| sbeg := 0 + pre CS j; send := 0 + pre CS (S j); sid := 0 + j |}) (seq 0 (length ts)) = map (tspan CS) (seq 0 (length ts))) by reflexivity.
    rewrite Ex.
    rewrite (first_idx_seq (tspan CS) _ (length ts) kb); auto; try lia.
    - rewrite (first_idx_seq (tspan CS) _ (length ts) ke); auto; try lia.
      + repeat (match goal with |- context [?x <? 0] => replace (x <? 0) with false by (symmetry; apply Z.ltb_ge; lia) end; cbn [orb]).
        rewrite (combine_spec ts t0). unfold slice. rewrite map_length, seq_length.
        replace ((0 <=? 0 + Z.of_nat kb) && (0 + Z.of_nat kb <=? 0 + Z.of_nat ke + 1) && (0 + Z.of_nat ke + 1 <=? Z.of_nat (length ts))) with true.
        2:{ symmetry. rewrite !andb_true_iff, !Z.leb_le. lia. }
        rewrite skipn_map, firstn_map.
        replace (Z.to_nat (0 + Z.of_nat kb)) with kb by lia.
        replace (Z.to_nat (0 + Z.of_nat ke + 1 - (0 + Z.of_nat kb))) with (S ke - kb)%nat by lia.
        rewrite seq_sub by lia. cbn [rbind].
        pose proof (chain_loop_spec ts t0 off beg end_ ke) as CL. cbv zeta in CL. fold CS in CL.
        rewrite (CL ltac:(lia) ltac:(lia) ltac:(lia) Pe) with (m := (S ke - kb)%nat) (k := kb); try lia.
        * replace (Nat.eqb (S ke - kb) 0) with false by (symmetry; apply Nat.eqb_neq; lia).
          replace (Z.max beg (pre CS kb)) with beg by lia. reflexivity.
        * intros j Hj. specialize (Fe j Hj). apply Z.leb_gt in Fe. lia.
      + cbn [send tspan]. apply Z.leb_le; auto.
    - cbn [sbeg send tspan]. rewrite andb_true_iff, Z.leb_le, Z.ltb_lt. auto.
    - intros j Hj. cbn [sbeg send tspan].
      apply andb_false_iff. right. apply Z.ltb_ge. pose proof (pre_mono CS (S j) kb ltac:(lia)). lia.
  Qed.
End ChainProofs.
