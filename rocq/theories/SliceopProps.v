(* C07: sliceop functions equal their list specification, aliasing included. *)
From Coq Require Import List Arith ZArith Lia Bool.
From Verif Require Import GoLib GoSlice SliceopModel.
Import ListNotations.

(* dst may live elsewhere, or in the array of src, not starting after it (dst = src,
   dst = src[:0], dst = src[:k] are the usual in-place forms) *)
Definition may_alias (dst src : slice) : Prop := arr dst <> arr src \/ off dst <= off src.

Section Proofs.
Context {A : Type}.
Variable z : A.
Variable grow : nat -> nat.
Hypothesis grow_ok : forall n, n <= grow n.

Lemma firstn_snoc {B} (l : list B) i x : nth_error l i = Some x -> firstn (S i) l = firstn i l ++ [x].
Proof.
  revert i; induction l; intros [|i] H; cbn in *; try discriminate.
  - inversion H; auto.
  - f_equal. auto.
Qed.

Lemma Filter_loop_spec (f : A -> bool) src xs k : forall i h dst,
  valid h src -> valid h dst -> length xs = len src -> i + k = len src ->
  may_alias dst src -> len dst <= i ->
  (forall j, i <= j < len src -> cell h (arr src) (off src + j) = nth_error xs j) ->
  contents h dst = filter f (firstn i xs) ->
  exists h' r, Filter_loop z grow f src k i h dst = Ok (h', r) /\ valid h' r /\
    contents h' r = filter f xs /\
    (arr dst <> arr src -> forall j, cell h' (arr src) j = cell h (arr src) j).
Proof.
  induction k; intros i h dst Vs Vd Lx Hk Al Hl Hc Hd.
  - exists h, dst. cbn. split; auto. split; auto. split; auto. rewrite Hd. f_equal. apply firstn_all2. lia.
  - cbn [Filter_loop].
    destruct (nth_error xs i) as [x|] eqn:Ex; [|apply nth_error_None in Ex; lia].
    assert (Hx : load h src i = Ok x).
    { unfold load. replace (i <? len src) with true by (symmetry; apply Nat.ltb_lt; lia).
      rewrite Hc by lia. rewrite Ex. auto. }
    rewrite Hx. cbn [rbind].
    destruct (f x) eqn:Fx.
    + destruct (append1 z grow h dst x) as [h1 d1] eqn:Ea.
      destruct (append1_spec z grow h dst x h1 d1 grow_ok Vd Ea) as (V1 & C1 & L1 & Cases).
      assert (Vs1 : valid h1 src).
      { destruct Cases as [(_ & _ & _ & ->)|(_ & _ & t & ->)]; [apply store_valid|apply valid_app]; auto. }
      assert (Al1 : may_alias d1 src).
      { unfold may_alias in *. destruct Cases as [(-> & -> & _)|(-> & _)]; auto.
        left; pose proof (valid_arr h src Vs); lia. }
      assert (Hc1 : forall j, S i <= j < len src -> cell h1 (arr src) (off src + j) = nth_error xs j).
      { intros j Hj. destruct Cases as [(_ & _ & _ & ->)|(_ & _ & t & ->)].
        - rewrite store_cell. destruct (Nat.eqb_spec (arr src) (arr dst)); cbn [andb].
          + destruct Al as [Al|Al]; [congruence|].
            destruct (Nat.eqb_spec (off src + j) (off dst + len dst)); [lia|]. apply Hc; lia.
          + apply Hc; lia.
        - rewrite cell_app by (apply valid_arr; auto). apply Hc; lia. }
      assert (Hd1 : contents h1 d1 = filter f (firstn (S i) xs)).
      { rewrite C1, Hd, (firstn_snoc _ _ _ Ex), filter_app. cbn. rewrite Fx. auto. }
      destruct (IHk (S i) h1 d1) as (h' & r & E & V & C & K); auto; try lia.
      exists h', r. split; auto. split; auto. split; auto. intros Hne j.
      assert (Hne1 : arr d1 <> arr src).
      { destruct Cases as [(-> & _)|(-> & _)]; auto. pose proof (valid_arr h src Vs); lia. }
      rewrite (K Hne1). destruct Cases as [(_ & _ & _ & ->)|(_ & _ & t & ->)].
      * rewrite store_cell. destruct (Nat.eqb_spec (arr src) (arr dst)); [congruence|]. auto.
      * apply cell_app. apply valid_arr; auto.
    + destruct (IHk (S i) h dst) as (h' & r & E & V & C & K); auto; try lia.
      * intros j Hj. apply Hc; lia.
      * rewrite Hd, (firstn_snoc _ _ _ Ex), filter_app. cbn. rewrite Fx, app_nil_r. auto.
      * exists h', r. auto.
Qed.

Lemma contents_from_cells (h : heap A) s xs :
  length xs = len s -> (forall j, j < len s -> cell h (arr s) (off s + j) = nth_error xs j) -> contents h s = xs.
Proof.
  intros L H. apply list_ext. intros i. rewrite contents_nth. destruct (Nat.ltb_spec i (len s)); auto.
  symmetry. apply nth_error_None. lia.
Qed.
Lemma cells_of_contents (h : heap A) s j : j < len s ->
  cell h (arr s) (off s + j) = nth_error (contents h s) j.
Proof. intros. rewrite contents_nth. replace (j <? len s) with true; auto. symmetry. apply Nat.ltb_lt; auto. Qed.

(* Filter: exactly the selected elements, in order; in-place or not; the source is untouched
   when dst does not share its array *)
Theorem C07_Filter (h : heap A) dst src (f : A -> bool) :
  valid h src ->
  (forall d, dst = Some d -> valid h d /\ may_alias d src) ->
  exists h' r, Filter z grow h dst src f = Ok (h', r) /\
    contents h' r = filter f (contents h src) /\
    ((forall d, dst = Some d -> arr d <> arr src) -> contents h' src = contents h src).
Proof.
  intros Vs Hd. unfold Filter. destruct dst as [d|].
  - destruct (Hd d eq_refl) as [Vd Al].
    destruct (Filter_loop_spec f src (contents h src) (len src) 0 h
       {| arr := arr d; off := off d; len := 0; cap := cap d |}) as (h' & r & E & V & C & K); auto.
    + destruct Vd as (V1 & V2). split; cbn; [lia|auto].
    + apply contents_length; auto.
    + intros j Hj. apply cells_of_contents; lia.
    + unfold contents. cbn. destruct (nth_error h (arr d)); auto.
    + exists h', r. split; auto. split; auto. intros Hne. apply list_ext. intros i.
      rewrite !contents_nth. cbn in K. rewrite K by (apply Hne; auto). auto.
  - cbn [make]. pose proof (make_valid z h 0 (len src) (Nat.le_0_l _)) as Vd. cbn [make fst snd] in Vd.
    assert (Vs' : valid (h ++ [repeat z (len src)]) src) by (apply valid_app; auto).
    destruct (Filter_loop_spec f src (contents h src) (len src) 0 (h ++ [repeat z (len src)])
       {| arr := length h; off := 0; len := 0; cap := len src |}) as (h' & r & E & V & C & K); auto.
    + apply contents_length; auto.
    + right. cbn. lia.
    + intros j Hj. rewrite cell_app by (apply valid_arr; auto). apply cells_of_contents; lia.
    + unfold contents. cbn. destruct (nth_error _ _); auto.
    + exists h', r. split; [exact E|]. split; auto. intros _. apply list_ext. intros i.
      rewrite !contents_nth, K, cell_app; auto; [apply valid_arr; auto|cbn; pose proof (valid_arr h src Vs); lia].
Qed.

(* ------------------------------------------------------------- Take *)
(* strictly increasing indices, all denoting elements *)
Fixpoint increasing (l : list Z) : Prop :=
  match l with a :: (b :: _) as t => (a < b)%Z /\ increasing t | _ => True end.
Definition in_range (n : nat) (l : list Z) : Prop := forall i, In i l -> (0 <= i < Z.of_nat n)%Z.
Definition elements (xs : list A) (indices : list Z) : list (option A) :=
  map (fun i => nth_error xs (Z.to_nat i)) indices.

Lemma increasing_lt a l : increasing (a :: l) -> forall b, In b l -> (a < b)%Z.
Proof.
  revert a; induction l as [|c l IH]; intros a H b Hb; [destruct Hb|].
  cbn in H. destruct H as [H1 H2]. destruct Hb as [->|Hb]; auto. specialize (IH c H2 b Hb). lia.
Qed.

Lemma Take_loop_spec src dst xs rest : forall i v0 h,
  valid h src -> valid h dst -> length xs = len src -> may_alias dst src ->
  1 <= i -> i + length rest = len dst -> (Z.of_nat (i - 1) <= v0)%Z ->
  (forall j, (v0 <= Z.of_nat j < Z.of_nat (len src))%Z -> cell h (arr src) (off src + j) = nth_error xs j) ->
  (increasing (v0 :: rest) /\ in_range (len src) (v0 :: rest) ->
     exists h', Take_loop src dst i v0 rest h = Ok h' /\
       map Some (contents h' dst) = map Some (firstn (i - 1) (contents h dst)) ++ elements xs (v0 :: rest)) /\
  (~ (increasing (v0 :: rest) /\ in_range (len src) (v0 :: rest)) -> Take_loop src dst i v0 rest h = Panic).
Proof.
  induction rest as [|v1 rest IH]; intros i v0 h Vs Vd Lx Al Hi1 Hi Hv Hc.
  - cbn [length] in Hi. cbn [Take_loop]. unfold loadZ. destruct (Z.ltb_spec v0 0); [lia|].
    unfold load. destruct (Nat.ltb_spec (Z.to_nat v0) (len src)).
    + rewrite Hc by lia. destruct (nth_error xs (Z.to_nat v0)) as [x|] eqn:Ex; [|apply nth_error_None in Ex; lia].
      cbn [rbind]. unfold put. replace (i - 1 <? len dst) with true by (symmetry; apply Nat.ltb_lt; lia).
      split.
      * intros _. eexists. split; [reflexivity|]. unfold elements. cbn [map]. rewrite Ex.
        change [Some x] with (map (@Some A) [x]). rewrite <- map_app. f_equal.
        apply contents_from_cells.
        -- rewrite app_length, firstn_length, contents_length by auto. cbn. lia.
        -- intros j Hj. rewrite store_cell, Nat.eqb_refl. cbn [andb].
           assert (Lf : length (firstn (i - 1) (contents h dst)) = i - 1).
           { rewrite firstn_length, contents_length by auto. lia. }
           destruct (Nat.eqb_spec (off dst + j) (off dst + (i - 1))).
           ++ assert (j = i - 1) by lia. subst j. destruct Vd as (V1 & V2).
              destruct (valid_cell h dst (i - 1)) as [u Hu]; [split; auto|lia|]. rewrite Hu.
              rewrite nth_error_app2 by lia. replace (i - 1 - _) with 0 by lia. auto.
           ++ rewrite nth_error_app1 by lia. rewrite nth_error_firstn'.
              replace (j <? i - 1) with true by (symmetry; apply Nat.ltb_lt; lia).
              apply cells_of_contents. auto.
      * intros Q. elim Q. split; [cbn; auto|]. intros k [<-|[]]. lia.
    + cbn [rbind]. split; auto. intros [_ R]. specialize (R v0 (or_introl eq_refl)). lia.
  - cbn [Take_loop]. destruct (Z.ltb_spec v0 v1).
    2:{ split; auto. intros [Q _]. cbn in Q. lia. }
    unfold loadZ. destruct (Z.ltb_spec v0 0); [lia|]. unfold load.
    destruct (Nat.ltb_spec (Z.to_nat v0) (len src)).
    + rewrite Hc by lia. destruct (nth_error xs (Z.to_nat v0)) as [x|] eqn:Ex; [|apply nth_error_None in Ex; lia].
      cbn [rbind length] in *. unfold put. replace (i - 1 <? len dst) with true by (symmetry; apply Nat.ltb_lt; lia).
      cbn [rbind]. set (h1 := store h (arr dst) (off dst + (i - 1)) x).
      destruct (IH (S i) v1 h1) as [P1 P2]; auto; try lia.
      { apply store_valid; auto. } { apply store_valid; auto. }
      { intros j Hj. unfold h1. rewrite store_cell. destruct (Nat.eqb_spec (arr src) (arr dst)); cbn [andb].
        - destruct Al as [Al|Al]; [congruence|].
          destruct (Nat.eqb_spec (off src + j) (off dst + (i - 1))); [lia|]. apply Hc. lia.
        - apply Hc. lia. }
      split.
      * intros [Q1 Q2]. destruct P1 as (h' & E & C).
        { split; [cbn in Q1; tauto|]. intros k Hk. apply Q2. right; auto. }
        exists h'. split; auto. rewrite C. replace (S i - 1) with i by lia.
        assert (Cf : firstn i (contents h1 dst) = firstn (i - 1) (contents h dst) ++ [x]).
        { replace i with (S (i - 1)) at 1 by lia. rewrite (firstn_snoc _ _ x).
          - f_equal. apply list_ext. intros j. rewrite !nth_error_firstn'.
            destruct (Nat.ltb_spec j (i - 1)); auto. rewrite !contents_nth.
            unfold h1. rewrite store_cell, Nat.eqb_refl. cbn [andb].
            destruct (Nat.eqb_spec (off dst + j) (off dst + (i - 1))); auto. lia.
          - rewrite contents_nth. replace (i - 1 <? len dst) with true by (symmetry; apply Nat.ltb_lt; lia).
            unfold h1. rewrite store_cell, !Nat.eqb_refl. cbn [andb].
            destruct (valid_cell h dst (i - 1)) as [u ->]; auto. destruct Vd. lia. }
        rewrite Cf, map_app, <- app_assoc. f_equal. cbn [map app elements]. rewrite Ex. reflexivity.
      * intros Q. apply P2. intros [Q1 Q2]. apply Q. split; [cbn; auto|].
        intros k [<-|Hk]; [lia|]. apply Q2; auto.
    + cbn [rbind]. split; auto. intros [_ R]. specialize (R v0 (or_introl eq_refl)). lia.
Qed.

(* Take succeeds exactly on strictly increasing in-range indices with dst of matching
   length, and then dst holds the elements of src at those indices *)
Theorem C07_Take (h : heap A) dst src (indices : list Z) :
  valid h src ->
  (forall d, dst = Some d -> valid h d /\ may_alias d src) ->
  let good := increasing indices /\ in_range (len src) indices /\ length indices <= len src /\
              (forall d, dst = Some d -> len d = length indices) in
  (good -> exists h' r, Take z h dst src indices = Ok (h', r) /\
     map Some (contents h' r) = map (fun i => nth_error (contents h src) (Z.to_nat i)) indices) /\
  (~ good -> Take z h dst src indices = Panic).
Proof.
  intros Vs Hd good. unfold Take.
  destruct (Nat.ltb_spec (len src) (length indices)).
  { split; auto. intros (_ & _ & G & _). lia. }
  set (hd := match dst with Some d => (h, d) | None => make z h (length indices) (length indices) end).
  assert (HH : exists h0 d, hd = (h0, d) /\ valid h0 src /\ valid h0 d /\ may_alias d src /\
      contents h0 src = contents h src /\ (len d = length indices <-> forall d, dst = Some d -> len d = length indices)).
  { unfold hd. destruct dst as [d|].
    - exists h, d. destruct (Hd d eq_refl). repeat split; auto; try apply H0; try apply Vs.
      intros E d' Hd'. inversion Hd'; subst; auto.
    - eexists _, _. split; [reflexivity|]. split; [apply valid_app; auto|].
      split; [apply (make_valid z h); auto|]. split; [right; cbn; lia|].
      split; [apply contents_app; auto|]. cbn. split; auto. discriminate. }
  destruct HH as (h0 & d & -> & V0 & Vd & Al & C0 & LD).
  destruct (Nat.eqb_spec (len d) (length indices)) as [E|E]; cbn [negb].
  2:{ split; auto. intros (_ & _ & _ & G). apply LD in G. congruence. }
  rewrite <- C0. set (xs := contents h0 src).
  assert (Lx : length xs = len src) by (apply contents_length; auto).
  destruct indices as [|v0 rest].
  { split.
    - intros _. exists h0, d. split; auto. cbn in E |- *.
      assert (L := contents_length h0 d Vd). rewrite E in L. destruct (contents h0 d); auto; discriminate.
    - intros Q. elim Q. split; [exact I|]. split; [intros i []|]. split; auto. apply LD; auto. }
  cbn [length] in *.
  unfold loadZ. destruct (Z.ltb_spec v0 0).
  { cbn [rbind]. split; auto. intros (_ & R & _). specialize (R v0 (or_introl eq_refl)). lia. }
  unfold load. destruct (Nat.ltb_spec (Z.to_nat v0) (len src)).
  2:{ cbn [rbind]. split; auto. intros (_ & R & _). specialize (R v0 (or_introl eq_refl)). lia. }
  rewrite cells_of_contents by auto. fold xs.
  destruct (nth_error xs (Z.to_nat v0)) as [x|] eqn:Ex; [|apply nth_error_None in Ex; lia].
  cbn [rbind]. unfold put. replace (0 <? len d) with true by (symmetry; apply Nat.ltb_lt; lia).
  cbn [rbind]. set (h1 := store h0 (arr d) (off d + 0) x).
  destruct (Take_loop_spec src d xs rest 1 v0 h1) as [P1 P2]; auto; try lia.
  { apply store_valid; auto. } { apply store_valid; auto. }
  { intros j Hj. unfold h1. rewrite store_cell. destruct (Nat.eqb_spec (arr src) (arr d)); cbn [andb].
    - destruct Al as [Al|Al]; [congruence|].
      destruct (Nat.eqb_spec (off src + j) (off d + 0)).
      + assert (j = Z.to_nat v0) by lia. subst j. rewrite Ex.
        destruct (valid_cell h0 d 0) as [u ->]; auto. destruct Vd; lia.
      + apply cells_of_contents. lia.
    - apply cells_of_contents. lia. }
  split.
  - intros (G1 & G2 & _). destruct P1 as (h' & Eh & C); auto. rewrite Eh. cbn [rbind].
    exists h', d. split; auto.
  - intros Q. rewrite P2; auto. intros [G1 G2]. apply Q. split; auto. split; auto. split; auto. apply LD; auto.
Qed.

(* ------------------------------------------------------------- Resize *)
Theorem C07_Resize (h : heap A) s n :
  valid h s -> (0 <= n)%Z ->
  exists h' r, Resize z grow h s n = Ok (h', r) /\ valid h' r /\ Z.of_nat (len r) = n /\
    (forall i, i < len s -> (Z.of_nat i < n)%Z -> nth_error (contents h' r) i = nth_error (contents h s) i) /\
    (* beyond the capacity the new elements are zero values *)
    (forall i, cap s <= i -> (Z.of_nat i < n)%Z -> nth_error (contents h' r) i = Some z).
Proof.
  intros V Hn. unfold Resize. destruct (Z.ltb_spec n 0); [lia|].
  destruct (Nat.ltb_spec (cap s) (Z.to_nat n)).
  - set (full := {| arr := arr s; off := off s; len := cap s; cap := cap s |}).
    assert (Vf : valid h full) by (destruct V as (V1 & V2); split; cbn; auto).
    assert (Lf : length (contents h full) = cap s) by (apply contents_length with (s := full); auto).
    specialize (grow_ok (Z.to_nat n)).
    eexists _, _. split; [reflexivity|]. split; [|split; [cbn; lia|]].
    + split; cbn; auto. eexists. rewrite nth_error_app2, Nat.sub_diag by lia. split; [reflexivity|].
      rewrite !app_length, !repeat_length, Lf. lia.
    + assert (C : forall i, nth_error (contents
         (h ++ [contents h full ++ repeat z (Z.to_nat n - cap s) ++ repeat z (grow (Z.to_nat n) - Z.to_nat n)])
         {| arr := length h; off := 0; len := Z.to_nat n; cap := grow (Z.to_nat n) |}) i =
         if i <? Z.to_nat n then if i <? cap s then nth_error (contents h full) i else Some z else None).
      { intros i. rewrite contents_nth. cbn [len arr off]. destruct (Nat.ltb_spec i (Z.to_nat n)); auto.
        unfold cell. rewrite nth_error_app2, Nat.sub_diag by lia. cbn [nth_error]. cbn [plus].
        destruct (Nat.ltb_spec i (cap s)).
        - rewrite nth_error_app1; auto; lia.
        - rewrite nth_error_app2, nth_error_app1 by (rewrite ?repeat_length; lia).
          rewrite nth_error_nth' with (d := z) by (rewrite repeat_length; lia).
          f_equal. apply nth_repeat. }
      split; intros i Hi1 Hi2; rewrite C.
      * replace (i <? Z.to_nat n) with true by (symmetry; apply Nat.ltb_lt; lia).
        destruct V as (V1 & _). replace (i <? cap s) with true by (symmetry; apply Nat.ltb_lt; lia).
        rewrite !contents_nth. cbn [len arr off full].
        replace (i <? cap s) with true by (symmetry; apply Nat.ltb_lt; lia).
        replace (i <? len s) with true by (symmetry; apply Nat.ltb_lt; lia). auto.
      * replace (i <? Z.to_nat n) with true by (symmetry; apply Nat.ltb_lt; lia).
        replace (i <? cap s) with false by (symmetry; apply Nat.ltb_ge; lia). auto.
  - eexists _, _. split; [reflexivity|]. split; [|split; [cbn; lia|split]].
    + destruct V as (V1 & V2). split; cbn; auto.
    + intros i Hi Hin. rewrite !contents_nth. cbn [len arr off].
      replace (i <? Z.to_nat n) with true by (symmetry; apply Nat.ltb_lt; lia).
      replace (i <? len s) with true by (symmetry; apply Nat.ltb_lt; lia). auto.
    + intros i Hi Hin. lia.
Qed.

Theorem C07_Resize_negative (h : heap A) s n : (n < 0)%Z -> Resize z grow h s n = Panic.
Proof. intros. unfold Resize. destruct (Z.ltb_spec n 0); auto; lia. Qed.

(* ------------------------------------------------------------- Map *)
Lemma Map_loop_spec (f : A -> A) src dst xs k : forall i h,
  valid h src -> valid h dst -> length xs = len src -> len dst = len src -> i + k = len src ->
  may_alias dst src ->
  (forall j, i <= j < len src -> cell h (arr src) (off src + j) = nth_error xs j) ->
  (forall j, j < i -> cell h (arr dst) (off dst + j) = option_map f (nth_error xs j)) ->
  exists h', Map_loop f src dst k i h = Ok h' /\ contents h' dst = map f xs.
Proof.
  induction k; intros i h Vs Vd Lx Ld Hk Al Hc Hd.
  - exists h. split; auto. apply contents_from_cells; [rewrite map_length; lia|].
    intros j Hj. rewrite Hd by lia. rewrite nth_error_map. auto.
  - cbn [Map_loop]. destruct (nth_error xs i) as [x|] eqn:Ex; [|apply nth_error_None in Ex; lia].
    unfold load. replace (i <? len src) with true by (symmetry; apply Nat.ltb_lt; lia).
    rewrite Hc by lia. rewrite Ex. cbn [rbind]. unfold put.
    replace (i <? len dst) with true by (symmetry; apply Nat.ltb_lt; lia). cbn [rbind].
    apply IHk; auto; try lia; try (apply store_valid; auto).
    + intros j Hj. rewrite store_cell. destruct (Nat.eqb_spec (arr src) (arr dst)); cbn [andb]; [|apply Hc; lia].
      destruct Al as [Al|Al]; [congruence|].
      destruct (Nat.eqb_spec (off src + j) (off dst + i)); [lia|]. apply Hc; lia.
    + intros j Hj. rewrite store_cell, Nat.eqb_refl. cbn [andb].
      destruct (Nat.eqb_spec (off dst + j) (off dst + i)).
      * assert (j = i) by lia. subst j. rewrite Ex. destruct (valid_cell h dst i) as [u ->]; auto. destruct Vd; lia.
      * apply Hd. lia.
Qed.

Theorem C07_Map (h : heap A) dst src (f : A -> A) :
  valid h src ->
  (forall d, dst = Some d -> valid h d /\ may_alias d src) ->
  ((forall d, dst = Some d -> len d = len src) ->
     exists h' r, Map z h dst src f = Ok (h', r) /\ contents h' r = map f (contents h src)) /\
  (forall d, dst = Some d -> len d <> len src -> Map z h dst src f = Panic).
Proof.
  intros Vs Hd. split.
  - intros Hl. unfold Map. destruct dst as [d|].
    + destruct (Hd d eq_refl) as [Vd Al]. specialize (Hl d eq_refl).
      rewrite Hl, Nat.eqb_refl. cbn [negb].
      destruct (Map_loop_spec f src d (contents h src) (len src) 0 h) as (h' & E & C); auto.
      * apply contents_length; auto.
      * intros j Hj. apply cells_of_contents; lia.
      * intros j Hj; lia.
      * rewrite E. exists h', d. auto.
    + cbn [make]. cbn [len]. rewrite Nat.eqb_refl. cbn [negb].
      destruct (Map_loop_spec f src {| arr := length h; off := 0; len := len src; cap := len src |} (contents h src) (len src) 0 (h ++ [repeat z (len src)])) as (h' & E & C); auto.
      * apply valid_app; auto.
      * apply (make_valid z h); auto.
      * apply contents_length; auto.
      * right; cbn; lia.
      * intros j Hj. rewrite cell_app by (apply valid_arr; auto). apply cells_of_contents; lia.
      * intros j Hj; lia.
      * rewrite E. eexists _, _. split; [reflexivity|exact C].
  - intros d -> Hne. unfold Map. destruct (Nat.eqb_spec (len src) (len d)); [congruence|]. auto.
Qed.
End Proofs.

(* ------------------------------------------------------------- Find *)
Section Find.
Context {A : Type}.
Variable grow : nat -> nat.
Hypothesis grow_ok : forall n, n <= grow n.

(* the indices, in increasing order, of the elements satisfying f *)
Definition indices_of (f : A -> bool) (xs : list A) (n : nat) : list Z :=
  map Z.of_nat (filter (fun i => match nth_error xs i with Some x => f x | None => false end) (seq 0 n)).

Lemma Find_loop_spec (f : A -> bool) hs src k : forall i h dst,
  valid hs src -> valid h dst -> i + k = len src ->
  contents h dst = indices_of f (contents hs src) i ->
  exists h' r, Find_loop grow f hs src k i h dst = Ok (h', r) /\
    contents h' r = indices_of f (contents hs src) (len src).
Proof.
  induction k; intros i h dst Vs Vd Hk Hd.
  - exists h, dst. split; auto. replace (len src) with i by lia. auto.
  - cbn [Find_loop]. assert (Lx := contents_length hs src Vs).
    destruct (nth_error (contents hs src) i) as [x|] eqn:Ex; [|apply nth_error_None in Ex; lia].
    rewrite (load_ok hs src i x) by auto. cbn [rbind].
    assert (S1 : indices_of f (contents hs src) (S i) = indices_of f (contents hs src) i ++ if f x then [Z.of_nat i] else []).
    { unfold indices_of. rewrite seq_S, filter_app, map_app. f_equal. cbn [plus filter]. rewrite Ex.
      destruct (f x); auto. }
    destruct (f x).
    + destruct (append1 0%Z grow h dst (Z.of_nat i)) as [h1 d1] eqn:Ea.
      destruct (append1_spec _ grow h dst _ h1 d1 grow_ok Vd Ea) as (V1 & C1 & _ & _).
      apply IHk; auto; try lia. rewrite C1, Hd, S1. auto.
    + apply IHk; auto; try lia. rewrite Hd, S1, app_nil_r. auto.
Qed.

Theorem C07_Find (hs : heap A) h dst src (f : A -> bool) :
  valid hs src -> (forall d, dst = Some d -> valid h d) ->
  exists h' r, Find grow hs h dst src f = Ok (h', r) /\
    contents h' r = indices_of f (contents hs src) (len src).
Proof.
  intros Vs Hd. unfold Find. destruct dst as [d|].
  - apply Find_loop_spec; auto.
    + destruct (Hd d eq_refl) as (V1 & V2). split; cbn; [lia|auto].
    + unfold contents, indices_of. cbn. destruct (nth_error h (arr d)); auto.
  - cbn [make]. apply Find_loop_spec; auto.
    + pose proof (make_valid 0%Z h 0 (len src) (Nat.le_0_l _)) as V. exact V.
    + unfold contents, indices_of. cbn. destruct (nth_error _ _); auto.
Qed.
End Find.

(* ------------------------------------------------------------- examples *)
Example ex_valid : let h := [[5; 1; 4; 2; 3]] in
  let s := {| arr := 0; off := 0; len := 5; cap := 5 |} in
  valid h s /\ may_alias s s /\
  match Filter 0 (fun n => n) h (Some s) s (fun x => 2 <? x) with
  | Ok (h', r) => contents h' r = [5; 4; 3] | Panic => False end /\
  match Take 0 h (Some {| arr := 0; off := 0; len := 2; cap := 5 |}) s [1; 3]%Z with
  | Ok (h', r) => contents h' r = [1; 2] | Panic => False end /\
  Take 0 h None s [3; 1]%Z = Panic.
Proof.
  cbv zeta. repeat split.
  - apply le_n.
  - exists [5; 1; 4; 2; 3]. split; [reflexivity|apply le_n].
  - right. apply le_n.
Qed.

(* writing to a destination that starts after the source breaks Filter: the aliasing
   condition is necessary *)
Example filter_bad_alias : let h := [[1; 2; 3; 0]] in
  let s := {| arr := 0; off := 0; len := 3; cap := 3 |} in
  let d := {| arr := 0; off := 1; len := 3; cap := 3 |} in
  match Filter 0 (fun n => n) h (Some d) s (fun _ => true) with
  | Ok (h', r) => contents h' r <> [1; 2; 3] | Panic => False end.
Proof. cbn. discriminate. Qed.

Print Assumptions C07_Filter.
Print Assumptions C07_Take.
Print Assumptions C07_Resize.
Print Assumptions C07_Map.
Print Assumptions C07_Find.
