(* C11: the free-segment list; C47: file space is never handed out twice; C48: segment records. *)
From Coq Require Import ZArith List Lia Bool Sorting.Sorted Sorting.Permutation.
From Verif Require Import Bytes GoLib RbytesModel RbytesProofs RdMonad FreelistModel FreelistProofs.
Import ListNotations.
Local Open Scope Z_scope.

(* ---- specification vocabulary: bytes, and histories of releases ---- *)
Definition seg_has (p : Z * Z) (x : Z) : Prop := fst p <= x <= snd p.
Definition seg_in_range (p : Z * Z) : Prop := - 2 ^ 63 <= fst p /\ fst p <= snd p /\ snd p < 2 ^ 63 - 1.
Definition pair_of (s : seg) : Z * Z := (first s, last s).

(* the list after a sequence of releases, starting from an empty list *)
Definition releases (hist : list (Z * Z)) : list seg :=
  fold_left (fun fl p => fst (add (fst p) (snd p) fl)) hist [].

Lemma seg_in_range_valid p : seg_in_range p -> valid (mkSeg (fst p) (snd p)).
Proof. unfold seg_in_range, valid; simpl; lia. Qed.

Lemma releases_snoc h p : releases (h ++ [p]) = fst (add (fst p) (snd p) (releases h)).
Proof. unfold releases. now rewrite fold_left_app. Qed.

Lemma releases_inv hist : Forall seg_in_range hist ->
  Forall valid (releases hist) /\ by_first (releases hist) /\
  (forall x, covered (releases hist) x <-> exists p, In p hist /\ seg_has p x).
Proof.
  induction hist as [|p h IH] using rev_ind; intros V.
  - cbn. split; [constructor|]. split; [constructor|]. intros x; split; [intros (s & [] & _)|intros (q & [] & _)].
  - apply Forall_app in V as [V Vp]. inversion Vp; subst. destruct (IH V) as (A & B & C).
    rewrite releases_snoc.
    pose proof (add_spec (fst p) (snd p) (releases h) A (seg_in_range_valid _ H1)) as S.
    destruct (add (fst p) (snd p) (releases h)) as [fl' r]. destruct S as (A' & B' & C' & _).
    cbn [fst]. split; auto. split; auto. intros x. rewrite C', C. split.
    + intros [(q & I & Q)|Q]; [exists q|exists p]; split; auto; apply in_or_app; simpl; auto.
    + intros (q & I & Q). apply in_app_or in I as [I|[<-|[]]]; [left; eauto|right; exact Q].
Qed.

(* Every byte is free exactly when it belongs to a released segment, whatever the releases
   (overlapping, nested, adjacent, repeated, in any order); the list is sorted. *)
Theorem C11_free_bytes hist : Forall seg_in_range hist ->
  (forall x, (exists s, In s (releases hist) /\ seg_has (pair_of s) x) <-> (exists p, In p hist /\ seg_has p x)) /\
  StronglySorted (fun a b => first a <= first b) (releases hist) /\
  Forall (fun s => first s <= last s) (releases hist).
Proof.
  intros V. destruct (releases_inv hist V) as (A & B & C). split; [exact C|]. split; [exact B|].
  eapply Forall_impl; [|exact A]. unfold valid; intros; lia.
Qed.

Definition disjoint (p q : Z * Z) : Prop := snd p < fst q \/ snd q < fst p.

(* When no byte is released twice the list is sorted, disjoint and without adjacent segments. *)
Theorem C11_disjoint_partial hist : Forall seg_in_range hist -> ForallOrdPairs disjoint hist ->
  StronglySorted (fun a b => last a + 1 < first b) (releases hist).
Proof.
  induction hist as [|p h IH] using rev_ind; intros V D; [constructor|].
  apply Forall_app in V as [V Vp]. inversion Vp; subst.
  assert (D' : ForallOrdPairs disjoint h /\ forall q, In q h -> disjoint q p).
  { clear -D. induction h as [|q h IH]; [split; [constructor|intros ? []]|].
    simpl in D. inversion D as [|? ? F D']; subst. destruct (IH D') as (X & Y). rewrite Forall_forall in F.
    split.
    - constructor; auto. apply Forall_forall. intros; apply F, in_or_app; auto.
    - intros q' [<-|I]; [apply F, in_or_app; simpl; auto|auto]. }
  destruct D' as (Dh & Dp). destruct (releases_inv h V) as (A & B & C).
  rewrite releases_snoc. apply add_gapped; auto.
  - now apply seg_in_range_valid.
  - now apply IH.
  - apply disjoint_touches_one; auto.
    + now apply IH.
    + now apply seg_in_range_valid.
    + intros x Cx Hx. apply C in Cx as (q & I & Q). specialize (Dp _ I).
      unfold disjoint, seg_has in *. lia.
Qed.

(* More generally one release keeps the list disjoint as long as it reaches at most one of the
   segments that start at or after its own start. *)
Theorem C11_add_disjoint_partial fl f l :
  Forall (fun s => seg_in_range (pair_of s)) fl -> seg_in_range (f, l) ->
  StronglySorted (fun a b => last a + 1 < first b) fl ->
  (forall c1 c2, In c1 fl -> In c2 fl -> f <= first c1 -> first c1 < first c2 -> l + 1 < first c2) ->
  StronglySorted (fun a b => last a + 1 < first b) (fst (add f l fl)).
Proof.
  intros V Ve G T. apply add_gapped; auto.
  - eapply Forall_impl; [|exact V]. intros s; unfold seg_in_range, valid; simpl; lia.
  - now apply (seg_in_range_valid (f, l)).
Qed.

(* Releasing a segment that spans two free segments leaves overlapping segments in the list. *)
Theorem C11_disjoint_refuted : exists hist, Forall seg_in_range hist /\
  exists s1 s2 x, releases hist = [s1; s2] /\ seg_has (pair_of s1) x /\ seg_has (pair_of s2) x.
Proof.
  exists [(10, 20); (30, 40); (0, 100)]. split.
  - repeat constructor; unfold seg_in_range; simpl; lia.
  - exists (mkSeg 0 100), (mkSeg 30 40), 35. split; [vm_compute; reflexivity|].
    unfold seg_has; simpl; lia.
Qed.

(* The segment returned by a release contains the released bytes. *)
Theorem C11_returned fl f l : Forall (fun s => seg_in_range (pair_of s)) fl -> seg_in_range (f, l) ->
  exists i s, snd (add f l fl) = Some i /\ nth_error (fst (add f l fl)) i = Some s /\
    forall x, f <= x <= l -> seg_has (pair_of s) x.
Proof.
  intros V Ve.
  assert (V' : Forall valid fl).
  { eapply Forall_impl; [|exact V]. intros s; unfold seg_in_range, valid; simpl; lia. }
  pose proof (add_spec f l fl V' (seg_in_range_valid (f, l) Ve)) as S.
  destruct (add f l fl) as [fl' r]. destruct S as (_ & _ & _ & i & s & E & N & A & B).
  exists i, s. cbn [fst snd]. split; auto. split; auto. unfold seg_has, pair_of; simpl. intros; lia.
Qed.

(* ---- best ---- *)
Definition seg_size (s : seg) : Z := last s - first s + 1.
(* i is the first index whose segment satisfies P *)
Definition first_index (P : seg -> Prop) (l : list seg) (i : nat) : Prop :=
  (exists s, nth_error l i = Some s /\ P s) /\
  forall j s, (j < i)%nat -> nth_error l j = Some s -> ~ P s.

Lemma first_index_S (P : seg -> Prop) a l i : ~ P a -> first_index P l i -> first_index P (a :: l) (S i).
Proof.
  intros N [(s & E & H) F]. split; [exists s; auto|]. intros [|j] s' L E'; simpl in E'.
  - congruence.
  - eapply F; [|exact E']. lia.
Qed.

Lemma best_loop_spec n l : forall i b, Forall (fun s => inS 64 (seg_size s)) l -> inS 64 (n + 4) ->
  (exists k, first_index (fun s => seg_size s = n) l k /\ fst (best_loop n l i b) = Some (i + k)%nat) \/
  ((forall s, In s l -> seg_size s <> n) /\
   match b with
   | Some j => fst (best_loop n l i b) = Some j
   | None =>
      (exists k, first_index (fun s => n + 4 <= seg_size s) l k /\ fst (best_loop n l i b) = Some (i + k)%nat) \/
      ((forall s, In s l -> seg_size s < n + 4) /\ fst (best_loop n l i b) = None)
   end).
Proof.
  induction l as [|a l IH]; intros i b V Hn; cbn [best_loop].
  - right. split; [intros s []|]. destruct b; auto. right. split; auto. intros s [].
  - inversion V; subst. unfold seg_free. fold (seg_size a).
    rewrite !wrapS_id by (auto; lia).
    destruct (Z.eqb_spec (seg_size a) n).
    + left. exists 0%nat. split; [|cbn; now rewrite Nat.add_0_r].
      split; [exists a; auto|]. intros; lia.
    + assert (Sh : forall b', (exists k, first_index (fun s => seg_size s = n) l k /\
                fst (best_loop n l (S i) b') = Some (S i + k)%nat) ->
              exists k, first_index (fun s => seg_size s = n) (a :: l) k /\
                fst (best_loop n l (S i) b') = Some (i + k)%nat).
      { intros b' (k & F & E). exists (S k). split; [now apply first_index_S|]. rewrite E; f_equal; lia. }
      destruct (Z.leb_spec (n + 4) (seg_size a)); destruct b as [j|]; cbn [andb].
      * destruct (IH (S i) (Some j) H2 Hn) as [L|(N & R)]; [left; now apply Sh|right].
        split; auto. intros s [<-|I]; auto.
      * destruct (IH (S i) (Some i) H2 Hn) as [L|(N & R)]; [left; now apply Sh|right].
        split; [intros s [<-|I]; auto|]. left. exists 0%nat. rewrite Nat.add_0_r. split; auto.
        split; [exists a; auto|intros; lia].
      * destruct (IH (S i) (Some j) H2 Hn) as [L|(N & R)]; [left; now apply Sh|right].
        split; auto. intros s [<-|I]; auto.
      * destruct (IH (S i) None H2 Hn) as [L|(N & R)]; [left; now apply Sh|right].
        split; [intros s [<-|I]; auto|].
        destruct R as [(k & F & E)|(F & E)].
        -- left. exists (S k). split; [apply first_index_S; auto; lia|]. rewrite E; f_equal; lia.
        -- right. split; auto. intros s [<-|I]; [lia|auto].
Qed.

(* The segment proposed for n bytes: the first one of exactly that size; else the first one leaving
   room for a gap marker; else the last one, enlarged by 10^9 bytes. *)
Theorem C11_best fl n : fl <> [] -> Forall (fun s => inS 64 (seg_size s)) fl -> inS 64 (n + 4) ->
  (exists i, first_index (fun s => seg_size s = n) fl i /\ best n fl = (fl, Some i)) \/
  ((forall s, In s fl -> seg_size s <> n) /\
   exists i, first_index (fun s => n + 4 <= seg_size s) fl i /\ best n fl = (fl, Some i)) \/
  ((forall s, In s fl -> seg_size s <> n /\ seg_size s < n + 4) /\
   exists init s, fl = init ++ [s] /\
     (last s + 1000000000 < 2 ^ 63 -> - 2 ^ 63 <= last s ->
      best n fl = (init ++ [mkSeg (first s) (last s + 1000000000)], Some (length init)))).
Proof.
  intros NE V Hn. pose proof (best_loop_spec n fl 0 None V Hn) as S.
  unfold best. destruct fl as [|a t]; [congruence|]. set (fl := a :: t) in *.
  destruct S as [(k & F & E)|(N & [(k & F & E)|(F & E)])].
  - left. exists k. split; auto. now rewrite E.
  - right; left. split; auto. exists k. split; auto. now rewrite E.
  - right; right. split; [intros s I; split; auto|].
    destruct (exists_last NE) as (init & s & Es). exists init, s. split; [exact Es|]. intros.
    rewrite E, Es. rewrite app_length. cbn [length]. replace (length init + 1 - 1)%nat with (length init) by lia.
    rewrite nth_mid, set_nth_mid. rewrite wrapS_id; auto; unfold inS; lia.
Qed.

(* ---- C47: space in a file ---- *)
(* What a program does with a file: place a record of n bytes, or give back a record it holds.
   [live] are the records held. *)
Definition rec_has (rec : Z * Z) (x : Z) : Prop := fst rec <= x < fst rec + snd rec.

Inductive file_run (begin : Z) : fspace -> list (Z * Z) -> Prop :=
| run_start : file_run begin (fs_create begin) []
| run_alloc f live n seek f' err : file_run begin f live -> 0 < n -> fend f + n <= kStartBigFile ->
    fs_alloc n f = (seek, f', err) -> file_run begin f' ((seek, n) :: live)
| run_free f l1 l2 seek n : file_run begin f (l1 ++ (seek, n) :: l2) ->
    file_run begin (fst (markFree seek (seek + n - 1) f)) (l1 ++ l2).

Definition rec_disjoint (a b : Z * Z) : Prop := forall x, ~ (rec_has a x /\ rec_has b x).

Record fs_inv (begin : Z) (f : fspace) (live : list (Z * Z)) : Prop := {
  iv_valid : Forall valid (spans f);
  iv_gap : gapped (spans f);
  iv_last : exists init, spans f = init ++ [mkSeg (fend f) kStartBigFile];
  iv_end : begin <= fend f <= kStartBigFile;
  iv_live : Forall (fun r => 0 < snd r /\ begin <= fst r /\ fst r + snd r <= fend f) live;
  iv_disj : ForallOrdPairs rec_disjoint live;
  iv_cov : forall x, covered (spans f) x <-> begin <= x <= kStartBigFile /\ ~ exists r, In r live /\ rec_has r x
}.

Lemma fop_mid {A} (R : A -> A -> Prop) l1 a l2 : (forall x y, R x y -> R y x) -> ForallOrdPairs R (l1 ++ a :: l2) ->
  ForallOrdPairs R (l1 ++ l2) /\ forall b, In b (l1 ++ l2) -> R a b.
Proof.
  intros Sy. induction l1 as [|h l1 IH]; simpl; intros D; inversion D as [|? ? F D']; subst.
  - split; auto. now apply Forall_forall.
  - destruct (IH D') as (X & Y). rewrite Forall_forall in F. split.
    + constructor; auto. apply Forall_forall. intros x I. apply F.
      apply in_app_or in I as [I|I]; apply in_or_app; simpl; auto.
    + intros b [<-|I]; [apply Sy, F, in_or_app; simpl; auto|auto].
Qed.

Lemma last_seg_unique fl a : gapped fl -> Forall valid fl -> (forall x, covered fl x -> x <= last a) ->
  In a fl -> exists init, fl = init ++ [a].
Proof.
  intros G V C I. apply in_split in I as (u & v & ->). exists u. destruct v as [|b v]; auto. exfalso.
  destruct (gapped_app_inv _ _ G) as (_ & Gv & _). inversion Gv as [|? ? _ F]; subst.
  inversion F as [|? ? Fb _]; subst. apply Forall_app in V as [_ V]. inversion V as [|? ? _ V']; subst.
  inversion V' as [|? ? Vb _]; subst.
  assert (last b <= last a).
  { apply C. exists b. split; [apply in_or_app; simpl; auto|]. unfold covers, valid in *; lia. }
  unfold valid in Vb. lia.
Qed.

Lemma run_inv begin f live : 0 <= begin <= kStartBigFile -> file_run begin f live -> fs_inv begin f live.
Proof.
  intros Hb R. assert (K : kStartBigFile = 2000000000) by reflexivity.
  induction R as [|f live n seek f' err R IH Hn Hf E|f l1 l2 seek n R IH].
  - unfold fs_create. cbn [fst add app go_sort insert consolidate consolidate_loop length Nat.sub].
    split; simpl.
    + repeat constructor; simpl; lia.
    + repeat constructor.
    + now exists [].
    + lia.
    + constructor.
    + constructor.
    + intros x. rewrite covered_cons. unfold covers; simpl. split.
      * intros [H|(s & [] & _)]. split; [lia|]. intros (r & [] & _).
      * intros (H & _). left. lia.
  - destruct IH as [V G (init & L) En Li Di C].
    unfold fs_alloc, setEnd in E. rewrite L in E.
    rewrite app_length in E. cbn [length] in E. replace (length init + 1 - 1)%nat with (length init) in E by lia.
    rewrite nth_mid, set_nth_mid in E. cbn [last first] in E. rewrite Z.eqb_refl in E.
    assert (E' : seek = fend f /\ f' = mkFs (fend f + n) (init ++ [mkSeg (fend f + n) kStartBigFile])).
    { destruct init; cbn [app] in E; injection E as <- <- _; auto. }
    destruct E' as [-> ->]. clear E. rewrite L in V, G, C.
    apply Forall_app in V as [Vi Vl]. inversion Vl as [|? ? Vl' _]; subst. unfold valid in Vl'; simpl in Vl'.
    destruct (gapped_app_inv _ _ G) as (Gi & _ & Gl).
    split; cbn [fend spans].
    + apply Forall_app; split; auto. constructor; auto. unfold valid; simpl; lia.
    + apply gapped_app; auto; [repeat constructor|].
      intros x y I [<-|[]]. specialize (Gl x _ I (or_introl eq_refl)). simpl in *; lia.
    + now exists init.
    + lia.
    + constructor; simpl; [lia|]. eapply Forall_impl; [|exact Li]. simpl; intros; lia.
    + constructor; auto. eapply Forall_impl; [|exact Li].
      intros r (A1 & A2 & A3) x [B1 B2]. unfold rec_has in *; simpl in *; lia.
    + intros x.
      assert (Ci : covered (init ++ [mkSeg (fend f + n) kStartBigFile]) x <->
                   covered (init ++ [mkSeg (fend f) kStartBigFile]) x /\ ~ rec_has (fend f, n) x).
      { unfold covered, rec_has; simpl. split.
        - intros (s & I & Cs). apply in_app_or in I as [I|[<-|[]]].
          + split; [exists s; split; auto; apply in_or_app; auto|].
            specialize (Gl s _ I (or_introl eq_refl)). unfold covers in Cs. simpl in *. lia.
          + unfold covers in Cs; simpl in Cs. split; [|lia].
            eexists; split; [apply in_or_app; right; now left|]. unfold covers; simpl; lia.
        - intros ((s & I & Cs) & N). apply in_app_or in I as [I|[<-|[]]].
          + exists s; split; auto. apply in_or_app; auto.
          + unfold covers in Cs; simpl in Cs.
            eexists; split; [apply in_or_app; right; now left|]. unfold covers; simpl; lia. }
      rewrite Ci, C. split.
      * intros ((A & B) & D). split; auto. intros (r & [<-|I] & Hr); [auto|]. apply B; eauto.
      * intros (A & B). split; [split; auto|].
        -- intros (r & I & Hr). apply B. exists r; simpl; auto.
        -- intros D. apply B. eexists; split; [now left|exact D].
  - destruct IH as [V G (init & L) En Li Di C].
    assert (Hr : 0 < n /\ begin <= seek /\ seek + n <= fend f).
    { rewrite Forall_forall in Li. apply (Li (seek, n)), in_or_app; simpl; auto. }
    destruct (fop_mid rec_disjoint l1 (seek, n) l2) as (Di' & Ds); auto.
    { unfold rec_disjoint; intros x y H z [? ?]; apply (H z); auto. }
    assert (Li' : Forall (fun r => 0 < snd r /\ begin <= fst r /\ fst r + snd r <= fend f) (l1 ++ l2)).
    { apply Forall_app in Li as [X Y]. inversion Y; subst. apply Forall_app; auto. }
    assert (Ve : valid (mkSeg seek (seek + n - 1))) by (unfold valid; simpl; lia).
    unfold markFree. destruct (spans f) as [|s0 sp] eqn:Sp; [destruct init; discriminate|].
    rewrite <- Sp in *. clear s0 sp Sp.
    pose proof (add_spec seek (seek + n - 1) (spans f) V Ve) as S.
    assert (G' : gapped (fst (add seek (seek + n - 1) (spans f)))).
    { apply add_gapped; auto. apply disjoint_touches_one; auto.
      intros x Cx Hx. apply C in Cx as (_ & Cx). apply Cx. exists (seek, n).
      split; [apply in_or_app; simpl; auto|unfold rec_has; simpl; lia]. }
    destruct (add seek (seek + n - 1) (spans f)) as [fl' r]. cbn [fst] in G'.
    destruct S as (V' & _ & C' & i & sp & -> & Ni & Fs & Ls).
    cbn [fst]. rewrite (nth_error_nth _ _ seg0 Ni).
    assert (C2 : forall x, covered fl' x <-> begin <= x <= kStartBigFile /\ ~ exists r, In r (l1 ++ l2) /\ rec_has r x).
    { intros x. rewrite C', C. split.
      - intros [(A & B)|A].
        + split; auto. intros (r & I & Hx). apply B. exists r; split; auto.
          apply in_app_or in I as [I|I]; apply in_or_app; simpl; auto.
        + split; [lia|]. intros (r & I & Hx). apply (Ds r I x). split; auto. unfold rec_has; simpl; lia.
      - intros (A & B). destruct (Z_le_dec seek x) as [L1|L1]; [destruct (Z_le_dec x (seek + n - 1)) as [L2|L2]|].
        + right; lia.
        + left; split; auto. intros (r & I & Hx). apply in_app_or in I as [I|[<-|I]].
          * apply B; exists r; split; auto; apply in_or_app; auto.
          * unfold rec_has in Hx; simpl in Hx; lia.
          * apply B; exists r; split; auto; apply in_or_app; auto.
        + left; split; auto. intros (r & I & Hx). apply in_app_or in I as [I|[<-|I]].
          * apply B; exists r; split; auto; apply in_or_app; auto.
          * unfold rec_has in Hx; simpl in Hx; lia.
          * apply B; exists r; split; auto; apply in_or_app; auto. }
    assert (Top : forall x, fend f <= x <= kStartBigFile -> covered fl' x).
    { intros x Hx. apply C2. split; [lia|]. intros (r & I & Hx').
      rewrite Forall_forall in Li'. apply Li' in I. unfold rec_has in Hx'. lia. }
    assert (Bnd : forall x, covered fl' x -> x <= kStartBigFile) by (intros x H; apply C2 in H; lia).
    assert (In sp fl') by (eapply nth_error_In; eauto).
    destruct (Z.eqb_spec (seek + n - 1) (fend f - 1)) as [Ee|Ne].
    + (* the last record: the end of the file moves back *)
      assert (Vsp : valid sp) by (rewrite Forall_forall in V'; auto).
      assert (Lsp : last sp = kStartBigFile).
      { assert (last sp <= kStartBigFile).
        { apply Bnd. exists sp; split; auto. unfold covers, valid in *; lia. }
        destruct (Z.eq_dec (last sp) kStartBigFile); auto. exfalso.
        assert (Cn : covered fl' (last sp + 1)) by (apply Top; lia).
        destruct Cn as (s' & I' & B1 & B2).
        apply in_split in H as (u & v & ->). destruct (gapped_app_inv _ _ G') as (_ & Gv & Guv).
        inversion Gv as [|? ? _ Fv]; subst. rewrite Forall_forall in Fv.
        apply in_app_or in I' as [I'|[->|I']]; [|lia|].
        - specialize (Guv s' sp I' (or_introl eq_refl)). unfold valid in Vsp. lia.
        - apply Fv in I'. lia. }
      split; cbn [fend spans]; auto.
      * destruct (last_seg_unique fl' sp G' V') as (ini & Ei); auto.
        { intros x Hx. rewrite Lsp. auto. }
        exists ini. rewrite Ei. destruct sp; simpl in *; subst; auto.
      * assert (covered fl' (first sp)) by (exists sp; split; auto; unfold covers, valid in *; lia).
        apply C2 in H0. lia.
      * apply Forall_forall. intros r I. rewrite Forall_forall in Li'. pose proof (Li' _ I) as (A1 & A2 & A3).
        repeat split; auto.
        destruct (Z_le_dec (fst r + snd r) (first sp)) as [Q|Q]; auto. exfalso.
        assert (Cx : covered fl' (Z.max (fst r) (first sp))).
        { exists sp; split; auto. unfold covers, valid in *. lia. }
        apply C2 in Cx as (_ & Cx). apply Cx. exists r. split; auto. unfold rec_has. lia.
    + split; cbn [fend spans]; auto.
      apply last_seg_unique; auto.
      apply gapped_maximal; auto; [lia| |].
      * (* the byte before the end is held by a live record, if it is not before begin *)
        intros Cx. rewrite C' in Cx. destruct Cx as [Cx|Cx]; [|lia].
        destruct Cx as (s & I & A1 & A2).
        rewrite L in I, G. destruct (gapped_app_inv _ _ G) as (_ & _ & Gl).
        apply in_app_or in I as [I|[<-|[]]].
        -- specialize (Gl s _ I (or_introl eq_refl)). simpl in Gl. lia.
        -- simpl in *. lia.
      * intros Cx. apply Bnd in Cx. lia.
Qed.

(* In every run: held records never overlap and lie before the end of the file; a byte of the
   addressable file is free exactly when no record holds it; the next record goes to a place no
   record holds; placing a record never fails. *)
Theorem C47_space begin f live : 0 <= begin <= kStartBigFile -> file_run begin f live ->
  ForallOrdPairs rec_disjoint live /\
  Forall (fun r => begin <= fst r /\ fst r + snd r <= fend f) live /\
  (forall x, (exists s, In s (spans f) /\ seg_has (pair_of s) x) <->
             begin <= x <= kStartBigFile /\ ~ exists r, In r live /\ rec_has r x) /\
  StronglySorted (fun a b => last a + 1 < first b) (spans f) /\
  forall n, 0 < n -> fend f + n <= kStartBigFile ->
    exists f', fs_alloc n f = (fend f, f', false) /\ Forall (rec_disjoint (fend f, n)) live.
Proof.
  intros Hb R. destruct (run_inv begin f live Hb R) as [V G (init & L) En Li Di C].
  split; auto. split.
  { eapply Forall_impl; [|exact Li]. simpl; intros; lia. }
  split; [exact C|]. split; [exact G|]. intros n Hn Hf.
  unfold fs_alloc, setEnd. rewrite L, app_length. cbn [length].
  replace (length init + 1 - 1)%nat with (length init) by lia.
  rewrite nth_mid, set_nth_mid. cbn [last first]. rewrite Z.eqb_refl.
  eexists. split; [destruct init; reflexivity|].
  eapply Forall_impl; [|exact Li]. intros r (A1 & A2 & A3) x [B1 B2]. unfold rec_has in *; simpl in *; lia.
Qed.

(* Giving back a record of at least four bytes: the gap marker is written inside free space, at the
   start of the free segment that contains the record, and its value is minus the segment's size
   (at most 2*10^9); no byte of a held record is overwritten. *)
Theorem C47_marker begin f l1 l2 seek n : 0 <= begin <= kStartBigFile ->
  file_run begin f (l1 ++ (seek, n) :: l2) -> 4 <= n ->
  exists pos v s, snd (markFree seek (seek + n - 1) f) = Some (pos, v) /\
    In s (spans (fst (markFree seek (seek + n - 1) f))) /\
    pos = first s /\ (forall x, rec_has (seek, n) x -> seg_has (pair_of s) x) /\
    v = - Z.min (last s - first s + 1) 2000000000 /\
    forall x, pos <= x < pos + 4 -> ~ exists r, In r (l1 ++ l2) /\ rec_has r x.
Proof.
  intros Hb R Hn. pose proof (run_inv _ _ _ Hb (run_free _ _ _ _ _ _ R)) as [V2 G2 _ _ _ _ C2].
  pose proof (run_inv _ _ _ Hb R) as [V G (init & L) En Li Di C].
  assert (K : kStartBigFile = 2000000000) by reflexivity.
  assert (Hr : 0 < n /\ begin <= seek /\ seek + n <= fend f).
  { rewrite Forall_forall in Li. apply (Li (seek, n)), in_or_app; simpl; auto. }
  assert (Ve : valid (mkSeg seek (seek + n - 1))) by (unfold valid; simpl; lia).
  pose proof (add_spec seek (seek + n - 1) (spans f) V Ve) as S.
  unfold markFree in *. destruct (spans f) as [|s0 sp] eqn:Sp; [destruct init; discriminate|].
  rewrite <- Sp in *. clear s0 sp Sp.
  destruct (add seek (seek + n - 1) (spans f)) as [fl' r].
  destruct S as (V' & _ & C' & i & s & -> & Ni & Fs & Ls). cbn [fst snd spans] in *.
  rewrite (nth_error_nth _ _ seg0 Ni).
  assert (I : In s fl') by (eapply nth_error_In; eauto).
  assert (Bs : begin <= first s /\ last s <= kStartBigFile).
  { rewrite Forall_forall in V'. specialize (V' _ I).
    split; eapply C2; exists s; split; auto; unfold covers, valid in *; lia. }
  eexists _, _, s. split; [reflexivity|]. split; auto. split; auto.
  split; [unfold rec_has, seg_has; simpl; lia|]. split.
  - unfold seg_free. rewrite (wrapS_id 64) by (unfold inS; lia).
    rewrite (wrapS_id 32 (Z.min _ _)) by (unfold inS; lia).
    apply wrapS_id; unfold inS; lia.
  - intros x Hx. assert (Cx : covered fl' x) by (exists s; split; auto; unfold covers; lia).
    apply C2 in Cx. tauto.
Qed.

(* Past the 2*10^9 mark the bookkeeping breaks: giving back the last record makes every later
   placement fail. *)
Theorem C47_bigfile_refuted : exists f n1 n2 f1 f2 f3 s,
  f = fs_create 100 /\ 0 < n1 /\ 0 < n2 /\
  fs_alloc n1 f = (100, f1, false) /\ fs_alloc n2 f1 = (100 + n1, f2, false) /\
  f3 = fst (markFree (100 + n1) (100 + n1 + n2 - 1) f2) /\
  forall n, fs_alloc n f3 = (s, mkFs (s + n) (spans f3), true).
Proof.
  exists (fs_create 100), 1999999800, 1000,
    (mkFs 1999999900 [mkSeg 1999999900 2000000000]), (mkFs 2000000900 [mkSeg 2000000900 2000000000]),
    (mkFs 1999999900 [mkSeg 1999999900 2000000899]), 1999999900.
  split; [reflexivity|]. split; [lia|]. split; [lia|].
  split; [vm_compute; reflexivity|]. split; [vm_compute; reflexivity|]. split; [vm_compute; reflexivity|].
  intros n. reflexivity.
Qed.

(* ---- C48: records of the free-segment list ---- *)
Definition seg_record (s : seg) : list Z :=
  if kStartBigFile <? last s then be 2 1001 ++ be 8 (first s) ++ be 8 (last s)
  else be 2 1 ++ be 4 (first s) ++ be 4 (last s).

Definition seg_storable (s : seg) : Prop :=
  inS 64 (first s) /\ inS 64 (last s) /\ (last s <= kStartBigFile -> inS 32 (first s) /\ inS 32 (last s)).

Lemma marshalSeg_emits junk s : emits (marshalSeg junk s) (seg_record s).
Proof.
  unfold marshalSeg, seg_record. apply w_guard_emits. cbv zeta.
  apply (grow_emits junk (Z.to_nat (seg_sizeof s)) (fun w => (WriteInt junk 2 _ >> _) w)).
  destruct (kStartBigFile <? last s); cbn [Z.ltb Z.compare Pos.compare Pos.compare_cont];
    repeat apply w_seq_emits; apply WriteInt_emits.
Qed.

Lemma unmarshalSeg_reads s : seg_storable s -> reads unmarshalSeg (seg_record s) s.
Proof.
  intros (A & B & D). unfold unmarshalSeg, seg_record. apply rd_guard_reads.
  destruct (Z.ltb_spec kStartBigFile (last s)).
  - eapply rd_bind_reads; [apply ReadSint_reads; [lia|unfold inS; simpl; lia]|]. cbn beta.
    change (1000 <? 1001) with true. cbv iota.
    eapply rd_bind_reads; [apply ReadSint_reads; [lia|exact A]|]. cbn beta.
    eapply rd_last_reads; [apply ReadSint_reads; [lia|exact B]|]. now destruct s.
  - destruct (D H) as (A' & B').
    eapply rd_bind_reads; [apply ReadSint_reads; [lia|unfold inS; simpl; lia]|]. cbn beta.
    change (1000 <? 1) with false. cbv iota.
    eapply rd_bind_reads; [apply ReadSint_reads; [lia|exact A']|]. cbn beta.
    eapply rd_last_reads; [apply ReadSint_reads; [lia|exact B']|]. now destruct s.
Qed.

Fixpoint marshalSegs junk (l : list seg) : wr :=
  match l with [] => w_nop | s :: l' => marshalSeg junk s >> marshalSegs junk l' end.

Lemma marshalSegs_emits junk l : emits (marshalSegs junk l) (concat (map seg_record l)).
Proof.
  induction l as [|s l IH]; simpl; [apply w_nop_emits|]. apply w_seq_emits; auto. apply marshalSeg_emits.
Qed.

(* A list of free segments of a file, written to an empty buffer, takes exactly the advertised number
   of bytes and reads back unchanged, segment by segment, to the end of the buffer. *)
Theorem C48_segments junk l off : Forall seg_storable l ->
  exists w, marshalSegs junk l (wempty off) = Ok w /\ werr w = false /\
    Z.of_nat (length (wBytes w)) = fold_right Z.add 0 (map seg_sizeof l) /\
    read_n unmarshalSeg (length l) {| rp := wBytes w; rc := 0; rerr := false; roff := off |} =
      Ok (l, {| rp := wBytes w; rc := length (wBytes w); rerr := false; roff := off |}).
Proof.
  intros V. destruct (emits_whole _ _ off (marshalSegs_emits junk l)) as (w & Ew & We & B).
  exists w. split; auto. split; auto. rewrite B. split.
  - clear. induction l; simpl; auto. rewrite app_length, Nat2Z.inj_add, IHl. f_equal.
    unfold seg_record, seg_sizeof. destruct (_ <? _); rewrite !app_length, !be_length; reflexivity.
  - apply reads_whole. apply read_n_reads. rewrite Forall_forall in V.
    intros; apply unmarshalSeg_reads; auto.
Qed.

(* ---- examples ---- *)
Example C11_example : releases [(50, 59); (10, 19); (30, 39); (20, 24); (5, 9); (25, 29); (60, 60)] =
  [mkSeg 5 39; mkSeg 50 60].
Proof. reflexivity. Qed.
Example C11_example_hyp : ForallOrdPairs disjoint [(50, 59); (10, 19); (30, 39); (20, 24); (5, 9); (25, 29); (60, 60)].
Proof. repeat first [apply FOP_nil|apply FOP_cons|apply Forall_nil|apply Forall_cons]; unfold disjoint; simpl; lia. Qed.
Example C11_best_example : best 10 [mkSeg 0 5; mkSeg 20 60; mkSeg 70 79] = ([mkSeg 0 5; mkSeg 20 60; mkSeg 70 79], Some 2%nat).
Proof. reflexivity. Qed.
Example C47_example : exists f, file_run 100 f [(170, 50); (100, 30)] /\ spans f = [mkSeg 130 169; mkSeg 220 kStartBigFile].
Proof.
  assert (H : forall a, a <= 300 -> a <= kStartBigFile) by (unfold kStartBigFile; intros; lia).
  pose proof (run_start 100) as R0.
  pose proof (run_alloc 100 _ _ 30 _ _ _ R0 eq_refl (H 130 ltac:(lia)) eq_refl) as R1.
  pose proof (run_alloc 100 _ _ 40 _ _ _ R1 eq_refl (H 170 ltac:(lia)) eq_refl) as R2.
  pose proof (run_alloc 100 _ _ 50 _ _ _ R2 eq_refl (H 220 ltac:(lia)) eq_refl) as R3.
  pose proof (run_free 100 _ [(170, 50)] [(100, 30)] 130 40 R3) as R4.
  eexists. split; [exact R4|vm_compute; reflexivity].
Qed.
Example C48_example : Forall seg_storable [mkSeg 130 169; mkSeg 220 kStartBigFile; mkSeg 3000000000 4000000000].
Proof. repeat first [apply Forall_nil|apply Forall_cons]; unfold seg_storable, inS, kStartBigFile; simpl; lia. Qed.

Print Assumptions C11_free_bytes.
Print Assumptions C11_disjoint_partial.
Print Assumptions C11_add_disjoint_partial.
Print Assumptions C11_disjoint_refuted.
Print Assumptions C11_returned.
Print Assumptions C11_best.
Print Assumptions C47_space.
Print Assumptions C47_marker.
Print Assumptions C47_bigfile_refuted.
Print Assumptions C48_segments.
