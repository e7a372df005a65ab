(* Lemmas on the free-segment list. *)
From Coq Require Import ZArith List Lia Bool Sorting.Sorted Sorting.Permutation.
From Verif Require Import Bytes GoLib RbytesModel FreelistModel.
Import ListNotations.
Local Open Scope Z_scope.

Definition covers (s : seg) (x : Z) : Prop := first s <= x <= last s.
Definition covered (l : list seg) (x : Z) : Prop := exists s, In s l /\ covers s x.
Definition valid (s : seg) : Prop := first s <= last s /\ last s < 2 ^ 63 - 1 /\ - 2 ^ 63 <= first s.
Definition gapped (l : list seg) : Prop := StronglySorted (fun a b => last a + 1 < first b) l.
Definition by_first (l : list seg) : Prop := StronglySorted (fun a b => first a <= first b) l.

(* ---- the consolidation loop as a right fold ---- *)
Definition merge (a : seg) (t : list seg) : list seg :=
  match t with
  | [] => [a]
  | c :: t' => if last a + 1 <? first c then a :: c :: t'
               else mkSeg (first a) (Z.max (last a) (last c)) :: t'
  end.

Lemma valid_nowrap s : valid s -> wrapS 64 (last s + 1) = last s + 1.
Proof. intros (A & B & C). apply wrapS_id; unfold inS; lia. Qed.

Lemma nth_mid {A} (pre : list A) a post d : nth (length pre) (pre ++ a :: post) d = a.
Proof. rewrite app_nth2, Nat.sub_diag by lia. reflexivity. Qed.
Lemma set_nth_mid {A} (pre : list A) a post v : set_nth (pre ++ a :: post) (length pre) v = pre ++ v :: post.
Proof. induction pre; simpl; congruence. Qed.
Lemma remove_mid {A} (pre : list A) a post : remove (pre ++ a :: post) (length pre) = pre ++ post.
Proof.
  unfold remove. rewrite firstn_app_exact by auto.
  replace (S (length pre)) with (length (pre ++ [a])) by (rewrite app_length; simpl; lia).
  replace (pre ++ a :: post) with ((pre ++ [a]) ++ post) by now rewrite <- app_assoc.
  now rewrite skipn_app_exact.
Qed.

Lemma consolidate_loop_fold pre : forall c t, Forall valid pre ->
  consolidate_loop (length pre) (pre ++ c :: t) = fold_right merge (c :: t) pre.
Proof.
  induction pre as [|a pre IH] using rev_ind; intros c t V; [reflexivity|].
  apply Forall_app in V as [V Va]. inversion Va as [|? ? Va' _]; subst.
  rewrite fold_right_app. cbn [fold_right].
  rewrite app_length. cbn [length]. rewrite Nat.add_1_r.
  cbn [consolidate_loop].
  replace (nth (S (length pre)) ((pre ++ [a]) ++ c :: t) seg0) with c.
  2:{ rewrite <- (nth_mid (pre ++ [a]) c t seg0) at 1. f_equal. rewrite app_length; simpl; lia. }
  replace (nth (length pre) ((pre ++ [a]) ++ c :: t) seg0) with a.
  2:{ rewrite <- app_assoc. cbn [app]. now rewrite nth_mid. }
  rewrite (valid_nowrap a) by assumption.
  change (merge a (c :: t)) with (if last a + 1 <? first c then a :: c :: t
               else mkSeg (first a) (Z.max (last a) (last c)) :: t).
  destruct (Z.ltb_spec (last a + 1) (first c)).
  - rewrite <- app_assoc. cbn [app]. now rewrite IH.
  - assert (R : forall v, remove (pre ++ v :: c :: t) (S (length pre)) = pre ++ v :: t).
    { intros v. replace (pre ++ v :: c :: t) with ((pre ++ [v]) ++ c :: t) by now rewrite <- app_assoc.
      replace (S (length pre)) with (length (pre ++ [v])) by (rewrite app_length; simpl; lia).
      rewrite remove_mid, <- app_assoc. reflexivity. }
    rewrite <- app_assoc. cbn [app].
    destruct (Z.leb_spec (last a) (last c)).
    + rewrite set_nth_mid, R, IH by auto. now rewrite Z.max_r.
    + rewrite R, IH by auto. rewrite Z.max_l by lia. now destruct a.
Qed.

Lemma consolidate_fold l : Forall valid l -> consolidate l = fold_right merge [] l.
Proof.
  intros V. unfold consolidate. destruct l as [|z l _] using rev_ind; [reflexivity|].
  apply Forall_app in V as [V _].
  rewrite app_length. cbn [length]. replace (length l + 1 - 1)%nat with (length l) by lia.
  rewrite consolidate_loop_fold, fold_right_app by auto. reflexivity.
Qed.

(* ---- sorting ---- *)
Lemma insert_perm x l : Permutation (insert x l) (x :: l).
Proof.
  induction l; simpl; auto. destruct (less a x); auto.
  rewrite IHl. apply perm_swap.
Qed.
Lemma go_sort_perm l : Permutation (go_sort l) l.
Proof. induction l; simpl; auto. rewrite insert_perm. now constructor. Qed.

Lemma insert_sorted x l : by_first l -> by_first (insert x l).
Proof.
  induction l as [|y l IH]; intros S; simpl.
  - repeat constructor.
  - inversion S; subst. destruct (less y x) eqn:E.
    + constructor; [now apply IH|].
      rewrite insert_perm. constructor; auto.
      unfold less in E. destruct (Z.ltb_spec (first y) (first x)); [lia|].
      destruct (Z.eqb_spec (first y) (first x)); [lia|discriminate].
    + constructor; auto. constructor.
      * unfold less in E. destruct (Z.ltb_spec (first y) (first x)); [discriminate|lia].
      * assert (first x <= first y).
        { unfold less in E. destruct (Z.ltb_spec (first y) (first x)); [discriminate|lia]. }
        eapply Forall_impl; [|eassumption]. simpl; intros; lia.
Qed.
Lemma go_sort_sorted l : by_first (go_sort l).
Proof. induction l; simpl; [constructor|now apply insert_sorted]. Qed.

(* the list is sorted by Less itself (both components): what sort.Sort guarantees *)
Definition le_seg (a b : seg) : Prop := less b a = false.
Lemma less_spec a b : less a b = true <-> first a < first b \/ (first a = first b /\ last a < last b).
Proof.
  unfold less. destruct (Z.ltb_spec (first a) (first b)); [intuition|].
  destruct (Z.eqb_spec (first a) (first b)).
  - rewrite Z.ltb_lt. intuition lia.
  - intuition (discriminate || lia).
Qed.
Lemma le_seg_spec a b : le_seg a b <-> first a < first b \/ (first a = first b /\ last a <= last b).
Proof.
  unfold le_seg. rewrite <- not_true_iff_false, less_spec. lia.
Qed.
Lemma insert_lex x l : StronglySorted le_seg l -> StronglySorted le_seg (insert x l).
Proof.
  induction l as [|y l IH]; intros S; simpl; [repeat constructor|].
  inversion S; subst. destruct (less y x) eqn:E.
  - constructor; [now apply IH|]. rewrite insert_perm. constructor; auto.
    apply less_spec in E. apply le_seg_spec. lia.
  - constructor; auto. constructor; auto.
    eapply Forall_impl; [|eassumption]. intros b H. apply le_seg_spec in H.
    apply not_true_iff_false in E. rewrite less_spec in E. apply le_seg_spec. lia.
Qed.
Lemma go_sort_lex l : StronglySorted le_seg (go_sort l).
Proof. induction l; simpl; [constructor|now apply insert_lex]. Qed.
(* ... and there is only one such arrangement, whichever algorithm produced it *)
Lemma sorted_unique l1 : forall l2, StronglySorted le_seg l1 -> StronglySorted le_seg l2 ->
  Permutation l1 l2 -> l1 = l2.
Proof.
  induction l1 as [|a l1 IH]; intros l2 S1 S2 P.
  - apply Permutation_nil in P. now subst.
  - destruct l2 as [|b l2]; [apply Permutation_sym, Permutation_nil in P; discriminate|].
    inversion S1 as [|? ? S1' F1]; inversion S2 as [|? ? S2' F2]; subst.
    assert (E : a = b).
    { assert (Ha : In a (b :: l2)) by (eapply Permutation_in; [exact P|now left]).
      assert (Hb : In b (a :: l1)) by (eapply Permutation_in; [apply Permutation_sym, P|now left]).
      destruct Ha as [->|Ha]; auto. destruct Hb as [->|Hb]; auto.
      rewrite Forall_forall in F1, F2. apply F1 in Hb. apply F2 in Ha.
      rewrite le_seg_spec in Ha, Hb. destruct a, b; simpl in *. f_equal; lia. }
    subst b. f_equal. apply IH; auto. now apply Permutation_cons_inv in P.
Qed.

(* ---- what consolidation does to the covered bytes ---- *)
Lemma merge_spec a t : (forall c, In c t -> first a <= first c) -> Forall valid (a :: t) ->
  Forall valid (merge a t) /\ (forall x, covered (merge a t) x <-> covered (a :: t) x) /\
  (forall s, In s (merge a t) -> first a <= first s) /\
  (forall s, In s (a :: t) -> exists s', In s' (merge a t) /\ first s' <= first s /\ last s <= last s').
Proof.
  intros F V. unfold merge. destruct t as [|c t].
  - split; auto. split; [tauto|]. split.
    + intros s [<-|[]]; lia.
    + intros s H; exists s; split; auto; lia.
  - assert (Fc : first a <= first c) by (apply F; now left).
    inversion V as [|? ? Va V']; subst. inversion V' as [|? ? Vc Vt]; subst.
    unfold valid in Va, Vc.
    destruct (Z.ltb_spec (last a + 1) (first c)).
    + split; auto. split; [tauto|]. split.
      * intros s [<-|H1]; [lia|now apply F].
      * intros s H1; exists s; split; auto; lia.
    + split; [constructor; auto; unfold valid; simpl; lia|]. split.
      * intros x; unfold covered; split.
        -- intros (s & [<-|I] & C).
           ++ unfold covers in C; simpl in C.
              destruct (Z.leb_spec x (last a)); [exists a|exists c]; simpl; unfold covers; split; auto; lia.
           ++ exists s; simpl; auto.
        -- intros (s & [<-|[<-|I]] & C); unfold covers in *.
           ++ eexists; split; [now left|]. simpl; lia.
           ++ eexists; split; [now left|]. simpl; lia.
           ++ exists s; simpl; auto.
      * split.
        -- intros s [<-|I]; simpl; [lia|apply F; now right].
        -- intros s [<-|[<-|I]].
           ++ eexists; split; [now left|]. simpl; lia.
           ++ eexists; split; [now left|]. simpl; lia.
           ++ exists s; split; [now right|lia].
Qed.

Lemma covered_cons a t x : covered (a :: t) x <-> covers a x \/ covered t x.
Proof.
  unfold covered; split.
  - intros (s & [<-|I] & C); eauto.
  - intros [C|(s & I & C)]; [exists a|exists s]; simpl; auto.
Qed.

Lemma consol_spec l : by_first l -> Forall valid l ->
  let m := fold_right merge [] l in
  Forall valid m /\ (forall x, covered m x <-> covered l x) /\
  by_first m /\
  (forall s, In s m -> exists s', In s' l /\ first s' = first s) /\
  (forall s, In s l -> exists s', In s' m /\ first s' <= first s /\ last s <= last s').
Proof.
  induction l as [|a t IH]; intros S V; cbn [fold_right].
  { split; auto. split; [tauto|]. split; [constructor|]. split; intros s []. }
  inversion S as [|? ? S' F]; inversion V as [|? ? Va V']; subst.
  destruct (IH S' V') as (V1 & C1 & B1 & L1 & K1). cbn zeta in *.
  set (m := fold_right merge [] t) in *.
  rewrite Forall_forall in F.
  assert (Fm : forall c, In c m -> first a <= first c).
  { intros c I. destruct (L1 _ I) as (s' & I' & E). apply F in I'. lia. }
  destruct (merge_spec a m Fm) as (V2 & C2 & F2 & K2); [now constructor|].
  split; auto. split.
  { intros x. rewrite C2, !covered_cons, C1. tauto. }
  split.
  { unfold merge. destruct m as [|c m']; [repeat constructor|].
    inversion B1 as [|? ? B1' Fc]; subst.
    destruct (_ <? _).
    - constructor; auto. apply Forall_forall; auto.
    - constructor; auto. apply Forall_forall. simpl. intros; apply Fm; now right. }
  split.
  { intros s I. unfold merge in I. destruct m as [|c m'].
    - destruct I as [<-|[]]. exists a; simpl; auto.
    - destruct (_ <? _).
      + destruct I as [<-|I]; [exists a; simpl; auto|].
        destruct (L1 _ I) as (s' & I' & E). exists s'; simpl; auto.
      + destruct I as [<-|I]; [exists a; simpl; auto|].
        destruct (L1 s) as (s' & I' & E); [now right|]. exists s'; simpl; auto. }
  intros s [<-|I].
  - apply K2. now left.
  - destruct (K1 _ I) as (s1 & I1 & A1 & A2).
    destruct (K2 s1) as (s2 & I2 & A3 & A4); [now right|].
    exists s2; split; auto; lia.
Qed.

(* ---- find ---- *)
Lemma find_loop_spec e l : forall i,
  match find_loop e l i with
  | Some j => exists k s, j = (i + k)%nat /\ nth_error l k = Some s /\ first s <= first e /\ last e <= last s
  | None => forall s, In s l -> valid e -> ~ (first s <= first e /\ last e <= last s)
  end.
Proof.
  induction l as [|c l IH]; intros i; simpl.
  - intros s [].
  - assert (R : ~ (valid e /\ first c <= first e /\ last e <= last c) ->
       match find_loop e l (S i) with
       | Some j => exists k s, j = (i + k)%nat /\ nth_error (c :: l) k = Some s /\ first s <= first e /\ last e <= last s
       | None => forall s, In s (c :: l) -> valid e -> ~ (first s <= first e /\ last e <= last s)
       end).
    { intros N. specialize (IH (S i)). destruct (find_loop e l (S i)).
      - destruct IH as (k & s & E & N1 & A). exists (S k), s. split; [lia|]. simpl. auto.
      - intros s [<-|I] Ve; [tauto|now apply IH]. }
    destruct (Z.ltb_spec (last e) (first c)); cbn [orb].
    { apply R. unfold valid. lia. }
    destruct (Z.ltb_spec (last c) (first e)); cbn [orb].
    { apply R. unfold valid. lia. }
    destruct (Z.leb_spec (first c) (first e)); cbn [andb]; [|apply R; lia].
    destruct (Z.leb_spec (first e) (last c)); cbn [andb]; [|apply R; lia].
    destruct (Z.leb_spec (last e) (last c)); [|apply R; lia].
    exists 0%nat, c. simpl. split; [lia|]. auto.
Qed.

(* ---- add, for an arbitrary list ---- *)
Lemma add_spec f l fl : Forall valid fl -> valid (mkSeg f l) ->
  let (fl', r) := add f l fl in
  Forall valid fl' /\ by_first fl' /\
  (forall x, covered fl' x <-> covered fl x \/ f <= x <= l) /\
  exists i s, r = Some i /\ nth_error fl' i = Some s /\ first s <= f /\ l <= last s.
Proof.
  intros V Ve. unfold add.
  set (srt := go_sort (fl ++ [mkSeg f l])).
  assert (P : Permutation srt (fl ++ [mkSeg f l])) by apply go_sort_perm.
  assert (S : by_first srt) by apply go_sort_sorted.
  assert (Vs : Forall valid srt).
  { rewrite P. apply Forall_app; split; auto. }
  rewrite consolidate_fold by auto.
  destruct (consol_spec srt S Vs) as (V1 & C1 & B1 & L1 & K1). cbn zeta in *.
  split; auto. split; auto. split.
  - intros x. rewrite C1. unfold covered. split.
    + intros (s & I & C). eapply Permutation_in in I; [|exact P].
      apply in_app_or in I as [I|[<-|[]]]; [left; eauto|right; exact C].
    + intros [(s & I & C)|C].
      * exists s; split; auto. eapply Permutation_in; [apply Permutation_sym, P|]. apply in_or_app; auto.
      * exists (mkSeg f l); split; auto. eapply Permutation_in; [apply Permutation_sym, P|].
        apply in_or_app; simpl; auto.
  - unfold find. pose proof (find_loop_spec (mkSeg f l) (fold_right merge [] srt) 0) as H.
    destruct (find_loop _ _ _).
    + destruct H as (k & s & -> & N & A). simpl in *. exists k, s. auto.
    + exfalso. destruct (K1 (mkSeg f l)) as (s' & I & A).
      * eapply Permutation_in; [apply Permutation_sym, P|]. apply in_or_app; simpl; auto.
      * eapply H; eauto.
Qed.

(* ---- gapped lists ---- *)
Lemma gapped_app_inv a b : gapped (a ++ b) ->
  gapped a /\ gapped b /\ (forall x y, In x a -> In y b -> last x + 1 < first y).
Proof.
  induction a as [|h a IH]; simpl; intros G.
  - repeat split; auto. constructor. intros x y [].
  - inversion G as [|? ? G' F]; subst. destruct (IH G') as (A & B & C).
    rewrite Forall_forall in F. split; [|split; auto].
    + constructor; auto. apply Forall_forall. intros; apply F, in_or_app; auto.
    + intros x y [<-|I] J; [apply F, in_or_app; auto|auto].
Qed.
Lemma gapped_app a b : gapped a -> gapped b ->
  (forall x y, In x a -> In y b -> last x + 1 < first y) -> gapped (a ++ b).
Proof.
  induction a as [|h a IH]; simpl; intros A B C; auto.
  inversion A; subst. constructor.
  - apply IH; auto.
  - apply Forall_app; split; auto. apply Forall_forall; auto.
Qed.

Lemma fold_merge_gapped a b : gapped (a ++ b) -> b <> [] \/ True -> fold_right merge b a = a ++ b.
Proof.
  induction a as [|h a IH]; simpl; intros G _; auto.
  inversion G as [|? ? G' F]; subst. rewrite IH by auto.
  unfold merge. destruct (a ++ b) as [|c t]; auto.
  inversion F; subst. destruct (Z.ltb_spec (last h + 1) (first c)); auto; lia.
Qed.

Lemma insert_least x l : (forall y, In y l -> first x < first y) -> insert x l = x :: l.
Proof.
  destruct l as [|y l]; simpl; auto. intros H.
  replace (less y x) with false; auto. symmetry.
  unfold less. specialize (H y (or_introl eq_refl)).
  destruct (Z.ltb_spec (first y) (first x)); [lia|]. destruct (Z.eqb_spec (first y) (first x)); [lia|auto].
Qed.

Lemma go_sort_gapped fl n : gapped fl -> Forall valid fl ->
  exists l1 l2, fl = l1 ++ l2 /\ go_sort (fl ++ [n]) = l1 ++ n :: l2 /\
    (forall s, In s l1 -> first s <= first n) /\ (forall s, In s l2 -> first n <= first s).
Proof.
  induction fl as [|a fl IH]; intros G V.
  - exists [], []. simpl. intuition.
  - inversion G as [|? ? G' F]; inversion V as [|? ? Va V']; subst.
    destruct (IH G' V') as (l1 & l2 & E & S & L1 & L2).
    cbn [app go_sort]. rewrite S.
    assert (Fa : forall s, In s fl -> first a < first s).
    { rewrite Forall_forall in F. intros s I. apply F in I. unfold valid in Va. lia. }
    destruct l1 as [|b l1].
    + simpl in E; subst l2. cbn [app insert].
      destruct (less n a) eqn:D.
      * exists [], (a :: fl). rewrite insert_least by auto. simpl. split; auto. split; auto. split; [intros s []|].
        assert (first n <= first a).
        { unfold less in D. destruct (Z.ltb_spec (first n) (first a)); [lia|].
          destruct (Z.eqb_spec (first n) (first a)); [lia|discriminate]. }
        intros s [<-|I]; auto.
      * exists [a], fl. simpl. split; auto. split; auto. split; auto.
        intros s [<-|[]]. unfold less in D. destruct (Z.ltb_spec (first n) (first a)); [discriminate|lia].
    + exists (a :: b :: l1), l2. subst fl. cbn [app] in *. split; auto. split.
      * cbn [insert]. replace (less b a) with false; auto. symmetry.
        assert (first a < first b) by (apply Fa; now left).
        unfold less. destruct (Z.ltb_spec (first b) (first a)); [lia|].
        destruct (Z.eqb_spec (first b) (first a)); [lia|auto].
      * split; auto. intros s [<-|I]; [|now apply L1].
        assert (first a < first b) by (apply Fa; now left).
        specialize (L1 b (or_introl eq_refl)). lia.
Qed.

(* the new segment touches at most one of the segments that start after it *)
Definition touches_one (fl : list seg) (f l : Z) : Prop :=
  forall c1 c2, In c1 fl -> In c2 fl -> f <= first c1 -> first c1 < first c2 -> l + 1 < first c2.

Lemma add_gapped f l fl : Forall valid fl -> valid (mkSeg f l) -> gapped fl -> touches_one fl f l ->
  gapped (fst (add f l fl)).
Proof.
  intros V Ve G T. unfold add; cbn [fst].
  assert (Vs : Forall valid (go_sort (fl ++ [mkSeg f l]))).
  { rewrite go_sort_perm. apply Forall_app; split; auto. }
  rewrite consolidate_fold by auto.
  destruct (go_sort_gapped fl (mkSeg f l) G V) as (l1 & l2 & -> & S & L1 & L2).
  rewrite S. rewrite fold_right_app. cbn [fold_right]. clear S Vs.
  set (n := mkSeg f l) in *.
  destruct (gapped_app_inv _ _ G) as (G1 & G2 & G12).
  apply Forall_app in V as [V1 V2].
  assert (E2 : fold_right merge [] l2 = l2).
  { pose proof (fold_merge_gapped l2 []) as H. rewrite app_nil_r in H. auto. }
  rewrite E2.
  (* merging the new segment to the right *)
  assert (R : exists m rest, merge n l2 = m :: rest /\ gapped (m :: rest) /\ first m = first n /\ valid m /\
                (forall s, In s rest -> In s l2)).
  { unfold merge. destruct l2 as [|c t].
    - exists n, []. repeat split; auto; try apply Ve. repeat constructor.
    - inversion G2 as [|? ? G2' F2]; inversion V2 as [|? ? Vc Vt]; subst.
      destruct (Z.ltb_spec (last n + 1) (first c)).
      + exists n, (c :: t). repeat split; auto; try apply Ve.
        constructor; auto. constructor; auto.
        eapply Forall_impl; [|exact F2]. unfold valid in Vc. intros s Hs; cbn beta in Hs; clear -H Hs Vc; clearbody n; lia.
      + eexists _, t. split; [reflexivity|]. split.
        * constructor; auto. simpl. rewrite Forall_forall in F2. apply Forall_forall. intros s I.
          pose proof (F2 _ I). unfold valid in Vc.
          assert (l + 1 < first s).
          { apply (T c s); try (apply in_or_app; simpl; auto).
            - apply (L2 c). now left.
            - lia. }
          subst n; simpl in *. lia.
        * simpl. unfold valid in *. simpl in *. repeat split; auto; lia. }
  destruct R as (m & rest & -> & Gm & Fm & Vm & Sub).
  destruct l1 as [|p l1 _] using rev_ind; [exact Gm|].
  rewrite fold_right_app. cbn [fold_right].
  destruct (gapped_app_inv _ _ G1) as (G1' & _ & Gp).
  apply Forall_app in V1 as [V1' V1p]. inversion V1p as [|? ? Vp _]; subst.
  inversion Gm as [|? ? Gr Fr]; subst.
  assert (P2 : forall s, In s rest -> last p + 1 < first s).
  { intros s I. apply G12; [apply in_or_app; simpl; auto|auto]. }
  assert (Pn : first p <= first n) by (apply L1, in_or_app; simpl; auto).
  assert (Y : exists y, merge p (m :: rest) = y /\ gapped y /\ (forall s, In s y -> first p <= first s)).
  { eexists; split; [reflexivity|]. unfold merge.
    destruct (Z.ltb_spec (last p + 1) (first m)).
    - split.
      + constructor; auto. constructor; auto. apply Forall_forall; auto.
      + unfold valid in Vp. intros s [<-|[<-|I]]; try lia. apply P2 in I. lia.
    - rewrite Forall_forall in Fr. split.
      + constructor; auto. simpl. apply Forall_forall. intros s I.
        pose proof (P2 _ I). pose proof (Fr _ I). lia.
      + unfold valid in Vp. intros s [<-|I]; simpl; try lia. apply P2 in I. lia. }
  destruct Y as (y & -> & Gy & Fy).
  rewrite fold_merge_gapped.
  - apply gapped_app; auto. intros x z I J. pose proof (Gp x p I (or_introl eq_refl)). apply Fy in J. lia.
  - apply gapped_app; auto. intros x z I J. pose proof (Gp x p I (or_introl eq_refl)). apply Fy in J. lia.
  - auto.
Qed.

Lemma disjoint_touches_one fl f l : gapped fl -> Forall valid fl -> valid (mkSeg f l) ->
  (forall x, covered fl x -> ~ f <= x <= l) -> touches_one fl f l.
Proof.
  intros G V Ve D c1 c2 I1 I2 H1 H2.
  assert (O : last c1 + 1 < first c2).
  { apply in_split in I1 as (a & b & ->). destruct (gapped_app_inv _ _ G) as (_ & Gb & Gab).
    inversion Gb as [|? ? _ Fb]; subst. rewrite Forall_forall in Fb.
    apply in_app_or in I2 as [I2|[->|I2]]; [|lia|now apply Fb].
    apply Forall_app in V as [V1 V2]. inversion V2 as [|? ? Vc _]; subst.
    rewrite Forall_forall in V1. pose proof (V1 _ I2) as Vc2.
    specialize (Gab _ c1 I2 (or_introl eq_refl)). unfold valid in *. lia. }
  rewrite Forall_forall in V. pose proof (V _ I1) as Vc1.
  destruct (Z.leb_spec (first c1) l); [|unfold valid in *; lia].
  exfalso. apply (D (first c1)); [|lia]. exists c1. split; auto. unfold covers, valid in *; lia.
Qed.

(* the segments of a gapped list are determined by the bytes it covers *)
Lemma gapped_maximal fl a b : gapped fl -> Forall valid fl -> a <= b ->
  (forall x, a <= x <= b -> covered fl x) -> ~ covered fl (a - 1) -> ~ covered fl (b + 1) ->
  In (mkSeg a b) fl.
Proof.
  intros G V L C Na Nb.
  destruct (C a) as (s & I & A1 & A2); [lia|].
  assert (first s = a).
  { destruct (Z.eq_dec (first s) a); auto. exfalso. apply Na. exists s; split; auto. unfold covers; lia. }
  assert (last s <= b).
  { destruct (Z.leb_spec (last s) b); auto. exfalso. apply Nb. exists s; split; auto. unfold covers; lia. }
  assert (last s = b).
  { destruct (Z.eq_dec (last s) b); auto. exfalso.
    destruct (C (last s + 1)) as (s' & I' & B1 & B2); [lia|].
    apply in_split in I as (u & v & ->). destruct (gapped_app_inv _ _ G) as (_ & Gv & Guv).
    inversion Gv as [|? ? _ Fv]; subst. rewrite Forall_forall in Fv.
    apply in_app_or in I' as [I'|[->|I']]; [|lia|].
    - specialize (Guv s' s I' (or_introl eq_refl)). lia.
    - apply Fv in I'. lia. }
  destruct s; simpl in *; subst; auto.
Qed.
