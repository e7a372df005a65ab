(* Proofs about range reading, the read-ahead pipeline, chains and joins. *)
From Coq Require Import ZArith List Lia Bool.
From Verif Require Import Bytes GoLib RbytesModel RbytesProofs TreeModel TreeProofs.
Import ListNotations.
Local Open Scope Z_scope.
Local Arguments be : simpl never.

Lemma least (P : nat -> bool) n : P n = true -> exists k, (k <= n)%nat /\ P k = true /\ forall j, (j < k)%nat -> P j = false.
Proof.
  induction n as [n IH] using lt_wf_ind. intros H.
  destruct (existsb P (seq 0 n)) eqn:E.
  - apply existsb_exists in E. destruct E as (j & I & Pj). apply in_seq in I.
    destruct (IH j ltac:(lia) Pj) as (k & L & Pk & F). exists k. split; [lia|auto].
  - exists n. split; [lia|]. split; auto. intros j L. destruct (P j) eqn:Pj; auto.
    assert (X : existsb P (seq 0 n) = true) by (apply existsb_exists; exists j; split; auto; apply in_seq; lia). congruence.
Qed.

Lemma seq_sub a k n : (a <= k)%nat -> (k < n)%nat -> firstn (S k - a) (skipn a (seq 0 n)) = seq a (S k - a).
Proof.
  intros H1 H2. replace n with (a + ((S k - a) + (n - S k)))%nat by lia.
  rewrite seq_app. pose proof (skipn_app_exact (seq 0 a) (seq (0 + a) (S k - a + (n - S k)))) as E.
  rewrite seq_length in E. rewrite (E _ eq_refl). rewrite seq_app.
  pose proof (firstn_app_exact (seq (0 + a) (S k - a)) (seq (0 + a + (S k - a)) (n - S k))) as E2.
  rewrite seq_length in E2. exact (E2 _ eq_refl).
Qed.

Section Cuts.
  Context {A : Type}.
  Definition pre (cs : list (list A)) (k : nat) : Z := zlen (concat (firstn k cs)).
  Lemma pre_0 cs : pre cs 0 = 0. Proof. reflexivity. Qed.
  Lemma firstn_S_nth (cs : list (list A)) k c : nth_error cs k = Some c -> firstn (S k) cs = firstn k cs ++ [c].
  Proof.
    revert k; induction cs as [|x cs IH]; intros [|k] H; simpl in *; try discriminate.
    - now injection H as ->.
    - f_equal. now apply IH.
  Qed.
  Lemma pre_S cs k c : nth_error cs k = Some c -> pre cs (S k) = pre cs k + zlen c.
  Proof. intros H. unfold pre. rewrite (firstn_S_nth _ _ _ H), concat_app, zlen_app. simpl. now rewrite app_nil_r. Qed.
  Lemma pre_mono cs : forall j k, (j <= k)%nat -> pre cs j <= pre cs k.
  Proof.
    intros j k H. induction H as [|k H IH]; [lia|].
    destruct (nth_error cs k) as [c|] eqn:N.
    - rewrite (pre_S _ _ _ N). pose proof (zlen_nonneg c). lia.
    - apply nth_error_None in N. unfold pre in *. rewrite (firstn_all2 (n := S k)) by lia.
      rewrite (firstn_all2 (n := k)) in IH by lia. lia.
  Qed.
  Lemma pre_all cs k : (length cs <= k)%nat -> pre cs k = zlen (concat cs).
  Proof. intros H. unfold pre. now rewrite firstn_all2. Qed.
  Lemma pre_nonneg cs k : 0 <= pre cs k.
  Proof. apply zlen_nonneg. Qed.
  (* the chunk entry i is in *)
  Lemma in_chunk cs : forall i e, nth_error (concat cs) i = Some e -> forall k, pre cs k <= Z.of_nat i < pre cs (S k) ->
    exists c, nth_error cs k = Some c /\ nth_error c (Z.to_nat (Z.of_nat i - pre cs k)) = Some e.
  Proof.
    intros i e N k (L1 & L2).
    destruct (nth_error cs k) as [c|] eqn:Nk.
    - exists c. split; auto. rewrite (pre_S _ _ _ Nk) in L2.
      assert (E : concat cs = concat (firstn k cs) ++ c ++ concat (skipn (S k) cs)).
      { clear -Nk. revert k Nk; induction cs as [|x cs IH]; intros [|k] H; simpl in *; try discriminate.
        - now injection H as ->.
        - rewrite <- app_assoc. f_equal. now apply IH. }
      rewrite E in N. unfold pre, zlen in *.
      rewrite nth_error_app2 in N by lia. rewrite nth_error_app1 in N by lia.
      rewrite <- N. f_equal. lia.
    - apply nth_error_None in Nk. rewrite !pre_all in * by lia. lia.
  Qed.
  Lemma find_cut cs i : 0 <= i < zlen (concat cs) -> exists k, (k < length cs)%nat /\ pre cs k <= i < pre cs (S k).
  Proof.
    intros H. destruct (least (fun k => i <? pre cs (S k)) (length cs)) as (k & L & P & F).
    { rewrite pre_all by lia. apply Z.ltb_lt. lia. }
    apply Z.ltb_lt in P.
    assert (pre cs k <= i).
    { destruct k; [rewrite pre_0; lia|]. specialize (F k ltac:(lia)). apply Z.ltb_ge in F. lia. }
    exists k. split; [|lia]. destruct (Nat.eq_dec k (length cs)) as [->|]; [|lia]. rewrite (pre_all cs (length cs)) in *; lia.
  Qed.
End Cuts.

Definition zseq (beg : Z) (n : nat) : list Z := map (fun k => beg + Z.of_nat k) (seq 0 n).
Lemma zseq_S beg n : zseq beg (S n) = beg :: zseq (beg + 1) n.
Proof.
  unfold zseq. cbn [seq map]. f_equal; [lia|]. rewrite <- seq_shift, map_map. apply map_ext. intros; lia.
Qed.
Lemma zseq_app beg n m : zseq beg (n + m) = zseq beg n ++ zseq (beg + Z.of_nat n) m.
Proof.
  revert beg; induction n as [|n IH]; intros beg.
  - change (Z.of_nat 0) with 0. rewrite Z.add_0_r. reflexivity.
  - cbn [Nat.add]. rewrite !zseq_S, IH. cbn [app]. do 3 f_equal. lia.
Qed.

(* what a reader finds on file: the entries es, cut in baskets; no empty basket but the last *)
Definition layout (kl eoff : Z) (es : list (list Z)) (b : rbr) : Prop :=
  exists cs c, es = concat (cs ++ [c]) /\ rtab b = table_from 0 (cs ++ [c]) /\ reoff b = eoff /\
    Forall2 (f_rep kl eoff) (cs ++ [c]) (rfile b) /\ Forall (fits kl) (cs ++ [c]) /\ Forall (fun c => c <> []) cs.

Section Read.
  Variables (kl eoff : Z).
  Hypothesis eoff_nonneg : 0 <= eoff.
  Context {A : Type}.
  Variables (leafoff : Z) (g : rd A) (val : Z -> A).
  Variable es : list (list Z).
  Hypothesis Hval : forall i e, nth_error es i = Some e -> leaf_reads leafoff g e (val (Z.of_nat i)).
  Hypothesis Hsame : eoff = 0 -> forall e1 e2, In e1 es -> In e2 es -> zlen e1 = zlen e2.
  Variable b : rbr.

  Section L.
    Variables (cs : list (list (list Z))) (c : list (list Z)).
    Let CS := cs ++ [c].
    Hypothesis Les : es = concat CS.
    Hypothesis Ltab : rtab b = table_from 0 CS.
    Hypothesis Leoff : reoff b = eoff.
    Hypothesis Lfile : Forall2 (f_rep kl eoff) CS (rfile b).
    Hypothesis Lfits : Forall (fits kl) CS.
    Hypothesis Lne : Forall (fun c => c <> []) cs.

    Lemma lenCS : length CS = S (length cs).
    Proof. unfold CS. rewrite app_length. simpl. lia. Qed.
    Lemma pre_strict k : (k < length cs)%nat -> pre CS k < pre CS (S k).
    Proof.
      intros H. destruct (nth_error cs k) as [x|] eqn:N; [|apply nth_error_None in N; lia].
      assert (NE : nth_error CS k = Some x) by (unfold CS; rewrite nth_error_app1; auto).
      rewrite (pre_S _ _ _ NE). rewrite Forall_forall in Lne. specialize (Lne x (nth_error_In _ _ N)).
      destruct x; [congruence|]. rewrite zlen_cons. pose proof (zlen_nonneg x). lia.
    Qed.
    Lemma feed_spec beg end_ : 0 <= beg -> beg < end_ -> end_ <= zlen es ->
      exists kb ke, (kb <= ke)%nat /\ (ke < length CS)%nat /\ pre CS kb <= beg < pre CS (S kb) /\ end_ <= pre CS (S ke) /\
        (forall j, (j < ke)%nat -> pre CS (S j) < end_) /\
        feed (rtab b) beg end_ = Ok (map (span_of CS) (seq kb (S ke - kb))).
    Proof.
      intros H0 H1 H2. rewrite Les in H2.
      destruct (find_cut CS beg ltac:(lia)) as (kb & Lb & Pb).
      destruct (least (fun k => end_ <=? pre CS (S k)) (length cs)) as (ke & Le & Pe & Fe).
      { rewrite pre_all by (rewrite lenCS; lia). apply Z.leb_le; lia. }
      apply Z.leb_le in Pe.
      assert (Lk : (kb <= ke)%nat).
      { destruct (Nat.le_gt_cases kb ke); auto. pose proof (pre_mono CS (S ke) kb ltac:(lia)). lia. }
      exists kb, ke. split; auto. split; [rewrite lenCS; lia|]. split; auto. split; auto.
      split. { intros j Hj. specialize (Fe j Hj). apply Z.leb_gt in Fe. lia. }
      unfold feed. rewrite Ltab, spans_of_table by (unfold CS; destruct cs; discriminate).
      assert (Lst : last (map (span_of CS) (seq 0 (length CS))) {| sbeg := 0; send := 0; sid := 0 |} = span_of CS (length cs)).
      { rewrite lenCS, seq_S, map_app. simpl map. now rewrite last_last. }
      rewrite Lst. cbn [send span_of]. fold (pre CS (S (length cs))). rewrite pre_all by (rewrite lenCS; lia).
      destruct (Z.leb_spec (zlen (concat CS)) beg); [lia|].
      unfold findBaskets. rewrite findBaskets_loop_spec by lia. cbv zeta. cbn [Z.ltb Z.compare].
      rewrite (first_idx_seq (span_of CS) _ (length CS) kb); auto.
      - rewrite (first_idx_seq (span_of CS) _ (length CS) ke); auto.
        + repeat (match goal with |- context [?x <? 0] => replace (x <? 0) with false by (symmetry; apply Z.ltb_ge; lia) end; cbn [orb]).
 unfold slice. rewrite map_length, seq_length.
          replace ((0 <=? 0 + Z.of_nat kb) && (0 + Z.of_nat kb <=? 0 + Z.of_nat ke + 1) && (0 + Z.of_nat ke + 1 <=? Z.of_nat (length CS))) with true.
          2:{ symmetry. rewrite !andb_true_iff, !Z.leb_le. rewrite lenCS. lia. }
          f_equal. rewrite skipn_map, firstn_map. f_equal.
          replace (Z.to_nat (0 + Z.of_nat kb)) with kb by lia.
          replace (Z.to_nat (0 + Z.of_nat ke + 1 - (0 + Z.of_nat kb))) with (S ke - kb)%nat by lia.
          apply seq_sub; [lia|rewrite lenCS; lia].
        + rewrite lenCS; lia.
        + cbn [send span_of]. fold (pre CS (S ke)). apply Z.leb_le; auto.
      - cbn [sbeg send span_of]. fold (pre CS kb). fold (pre CS (S kb)). rewrite andb_true_iff, Z.leb_le, Z.ltb_lt. auto.
      - intros j Hj. cbn [sbeg send span_of]. fold (pre CS j). fold (pre CS (S j)).
        apply andb_false_iff. right. apply Z.ltb_ge. pose proof (pre_mono CS (S j) kb ltac:(lia)). lia.
    Qed.

    Lemma read_entry_spec i k ke end_ : (k <= ke)%nat -> (ke < length CS)%nat -> end_ <= pre CS (S ke) -> end_ <= zlen es ->
      pre CS k <= i <= pre CS (S k) -> i < end_ ->
      exists k', (k <= k' <= ke)%nat /\ pre CS k' <= i < pre CS (S k') /\
        read_entry b leafoff g i (Some (span_of CS k), map (span_of CS) (seq (S k) (ke - k))) =
          Ok (Some (val i, (Some (span_of CS k'), map (span_of CS) (seq (S k') (ke - k'))))).
    Proof.
      intros Lk Lke Pe Ee Pi Li. pose proof (pre_nonneg CS k).
      assert (K : exists k', (k <= k' <= ke)%nat /\ pre CS k' <= i < pre CS (S k') /\
         (if send (span_of CS k) <=? i then next (Some (span_of CS k), map (span_of CS) (seq (S k) (ke - k)))
          else Some (Some (span_of CS k), map (span_of CS) (seq (S k) (ke - k)))) =
         Some (Some (span_of CS k'), map (span_of CS) (seq (S k') (ke - k')))).
      { cbn [send span_of]. fold (pre CS (S k)). destruct (Z.leb_spec (pre CS (S k)) i) as [L|L].
        - assert (k <> ke) by (intros ->; lia).
          exists (S k). split; [lia|]. split.
          + split; [lia|]. destruct (Nat.lt_ge_cases (S k) (length cs)).
            * pose proof (pre_strict (S k) ltac:(auto)). lia.
            * assert (S k = ke) by (rewrite lenCS in Lke; lia). subst ke. lia.
          + unfold next. cbn [snd]. replace (ke - k)%nat with (S (ke - S k)) by lia. reflexivity.
        - exists k. split; [lia|]. split; [lia|reflexivity]. }
      destruct K as (k' & Lk' & Pk' & E). exists k'. split; auto. split; auto.
      unfold read_entry. cbn [fst]. cbv zeta. unfold rstate in *. rewrite E. cbn [sid span_of].
      destruct (nth_error es (Z.to_nat i)) as [e|] eqn:Ne.
      2:{ apply nth_error_None in Ne. unfold zlen in Ee. lia. }
      destruct (in_chunk CS (Z.to_nat i) e ltac:(congruence) k' ltac:(lia)) as (ck & Nk & Nc).
      assert (F2 : exists f, nth_error (rfile b) k' = Some f /\ f_rep kl eoff ck f).
      { clear -Lfile Nk. revert k' Nk. induction Lfile as [|x y l l' R F IH]; intros [|k] N; simpl in *; try discriminate.
        - injection N as <-. eauto.
        - eauto. }
      destruct F2 as (f & Nf & Rf). rewrite Nf, Leoff.
      assert (Fk : fits kl ck) by (rewrite Forall_forall in Lfits; apply Lfits; eapply nth_error_In; eauto).
      rewrite Z2Nat.id in Nc by lia.
      destruct (load_rep kl eoff ltac:(auto) ck f (Z.to_nat (i - pre CS k')) e leafoff g (val i) Fk Rf Nc) as (kk & I & LR).
      - specialize (Hval _ _ Ne). rewrite Z2Nat.id in Hval by lia. exact Hval.
      - intros E0 e1 e2 I1 I2. apply Hsame; auto; rewrite Les; apply in_concat; exists ck; split; auto; eapply nth_error_In; eauto.
      - rewrite I. cbn [rbind sbeg span_of]. fold (pre CS k'). rewrite Z2Nat.id in LR by lia. rewrite LR. reflexivity.
    Qed.

    Lemma read_loop_spec ke end_ off : (ke < length CS)%nat -> end_ <= pre CS (S ke) -> end_ <= zlen es ->
      forall n i k, (k <= ke)%nat -> pre CS k <= i <= pre CS (S k) -> i + Z.of_nat n <= end_ ->
        read_loop b leafoff g n i off (Some (span_of CS k), map (span_of CS) (seq (S k) (ke - k))) =
          Ok (Some (map (fun j => (j + off, val j)) (zseq i n))).
    Proof.
      intros Lke Pe Ee. induction n as [|n IH]; intros i k Lk Pi Li; [reflexivity|].
      rewrite zseq_S. cbn [read_loop map].
      destruct (read_entry_spec i k ke end_) as (k' & Lk' & Pk' & R); auto; try lia.
      rewrite R. cbn [rbind]. rewrite IH by lia. reflexivity.
    Qed.

    Lemma run_tree_L off beg end_ : 0 <= beg -> beg <= end_ -> end_ <= zlen es ->
      (beg = end_ -> beg = zlen es \/ exists l, feed (rtab b) beg end_ = Ok l) ->
      run_tree b leafoff g off beg end_ = Ok (Some (map (fun j => (j + off, val j)) (zseq beg (Z.to_nat (end_ - beg))))).
    Proof.
      intros H0 H1 H2 H3. unfold run_tree.
      destruct (Z.eq_dec beg end_) as [E|NE].
      - subst end_. rewrite Z.sub_diag. destruct (H3 eq_refl) as [Eb|(l & ->)]; [|reflexivity].
        unfold feed. rewrite Ltab, spans_of_table by (unfold CS; destruct cs; discriminate).
        assert (Lst : last (map (span_of CS) (seq 0 (length CS))) {| sbeg := 0; send := 0; sid := 0 |} = span_of CS (length cs)).
        { rewrite lenCS, seq_S, map_app. simpl map. now rewrite last_last. }
        rewrite Lst. cbn [send span_of]. fold (pre CS (S (length cs))). rewrite pre_all by (rewrite lenCS; lia).
        rewrite <- Les. destruct (Z.leb_spec (zlen es) beg); [reflexivity|lia].
      - destruct (feed_spec beg end_) as (kb & ke & Lk & Lke & Pb & Pe & _ & F); auto; try lia.
        rewrite F. cbn [rbind]. replace (S ke - kb)%nat with (S (ke - kb)) by lia. cbn [seq map].
        apply read_loop_spec with (end_ := end_); auto; lia.
    Qed.
  End L.

  (* an empty range inside the tree: the spans are found too *)
  Lemma feed_empty beg : layout kl eoff es b -> 0 <= beg < zlen es -> exists l, feed (rtab b) beg beg = Ok l.
  Proof.
    intros (cs & c & Les & Ltab & Leoff & Lfile & Lfits & Lne) H.
    set (CS := cs ++ [c]) in *. rewrite Les in H.
    assert (Lc : length CS = S (length cs)) by (unfold CS; rewrite app_length; simpl; lia).
    destruct (find_cut CS beg H) as (kb & Lb & Pb).
    destruct (least (fun k => beg <=? pre CS (S k)) kb) as (ke & Le & Pe & Fe); [apply Z.leb_le; lia|].
    unfold feed. rewrite Ltab, spans_of_table by (unfold CS; destruct cs; discriminate).
    assert (Lst : last (map (span_of CS) (seq 0 (length CS))) {| sbeg := 0; send := 0; sid := 0 |} = span_of CS (length cs)).
    { rewrite Lc, seq_S, map_app. simpl map. now rewrite last_last. }
    rewrite Lst. cbn [send span_of]. fold (pre CS (S (length cs))). rewrite pre_all by lia.
    destruct (Z.leb_spec (zlen (concat CS)) beg); [lia|].
    unfold findBaskets. rewrite findBaskets_loop_spec by lia. cbv zeta. cbn [Z.ltb Z.compare].
    rewrite (first_idx_seq (span_of CS) _ (length CS) kb); auto.
    - rewrite (first_idx_seq (span_of CS) _ (length CS) ke); auto.
      + repeat (match goal with |- context [?x <? 0] => replace (x <? 0) with false by (symmetry; apply Z.ltb_ge; lia) end; cbn [orb]).
 unfold slice. rewrite map_length, seq_length.
        replace ((0 <=? 0 + Z.of_nat kb) && (0 + Z.of_nat kb <=? 0 + Z.of_nat ke + 1) && (0 + Z.of_nat ke + 1 <=? Z.of_nat (length CS))) with true; [eauto|].
        symmetry. rewrite !andb_true_iff, !Z.leb_le. split; [split; [lia|]|lia].
        (* kb <= ke+1: the span before kb ends at or before beg, so it or an earlier one has end >= beg only if it ends at beg *)
        destruct (Nat.le_gt_cases kb (S ke)) as [|G]; [lia|exfalso].
        apply Z.leb_le in Pe. assert (X : pre CS (S ke) < pre CS (S (S ke))).
        { apply (pre_strict cs c Lne). lia. }
        pose proof (pre_mono CS (S (S ke)) kb ltac:(lia)). lia.
      + lia.
    - cbn [sbeg send span_of]. fold (pre CS kb). fold (pre CS (S kb)). rewrite andb_true_iff, Z.leb_le, Z.ltb_lt. auto.
    - intros j Hj. cbn [sbeg send span_of]. fold (pre CS j). fold (pre CS (S j)).
      apply andb_false_iff. right. apply Z.ltb_ge. pose proof (pre_mono CS (S j) kb ltac:(lia)). lia.
  Qed.

  Lemma run_tree_spec off beg end_ : layout kl eoff es b -> 0 <= beg -> beg <= end_ -> end_ <= zlen es ->
    run_tree b leafoff g off beg end_ = Ok (Some (map (fun j => (j + off, val j)) (zseq beg (Z.to_nat (end_ - beg))))).
  Proof.
    intros L H0 H1 H2. pose proof L as (cs & c & Les & Ltab & Leoff & Lfile & Lfits & Lne).
    apply (run_tree_L cs c); auto. intros ->. destruct (Z.eq_dec end_ (zlen es)); [left; auto|].
    right. apply feed_empty; auto. lia.
  Qed.
End Read.
