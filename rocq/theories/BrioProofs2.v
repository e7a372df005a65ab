(* Bytes that are missing at the end: what UnmarshalBinary does with them. *)
From Coq Require Import ZArith List Bool Lia.
From Verif Require Import GoLib Bytes BrioModel BrioProofs.
Import ListNotations.
Open Scope Z_scope.
Transparent get8 get8i unframe loop slice frame put8 mlist mslice.

(* a run that ends well ends in the same way with more bytes behind *)
Definition ext {A} (f : sl -> res (A * sl)) : Prop :=
  forall b n t m a d', 0 <= n -> 0 <= m -> f {| sb := b; sn := n |} = Ok (a, d') ->
  0 <= sn d' /\ f {| sb := b ++ t; sn := n + m |} = Ok (a, {| sb := sb d' ++ t; sn := sn d' + m |}).
Definition cap {A} (g : sl -> res A) : Prop :=
  forall b n t a, 0 <= n -> g {| sb := b; sn := n |} = Ok a -> g {| sb := b ++ t; sn := n |} = Ok a.
Lemma upto_inv k b n s : upto k {| sb := b; sn := n |} = Ok s -> s = {| sb := b; sn := k |} /\ 0 <= k <= zlen b.
Proof. unfold upto. cbn [sb]. destruct (_ && _) eqn:E; [|discriminate]. apply andb_true_iff in E. intros H. inversion H. split; auto; lia. Qed.
Lemma from_inv k b n s : from k {| sb := b; sn := n |} = Ok s -> s = {| sb := skipn (Z.to_nat k) b; sn := n - k |} /\ 0 <= k <= n.
Proof. unfold from. cbn [sb sn]. destruct (_ && _) eqn:E; [|discriminate]. apply andb_true_iff in E. intros H. inversion H. split; auto; lia. Qed.
Lemma from_ext k b n t m : 0 <= k <= n -> 0 <= m -> k <= zlen b ->
  from k {| sb := b ++ t; sn := n + m |} = Ok {| sb := skipn (Z.to_nat k) b ++ t; sn := n - k + m |}.
Proof.
  intros H M L. unfold from. cbn [sb sn]. replace (_ && _) with true by (symmetry; apply andb_true_iff; lia).
  rewrite skipn_app. replace (Z.to_nat k - length b)%nat with 0%nat by (unfold zlen in L; lia). cbn [skipn]. do 2 f_equal; lia.
Qed.
Lemma bytes_ext k b t : 0 <= k <= zlen b -> bytes {| sb := b ++ t; sn := k |} = bytes {| sb := b; sn := k |}.
Proof.
  intros H. unfold bytes. cbn [sb sn]. rewrite firstn_app. replace (Z.to_nat k - length b)%nat with 0%nat by (unfold zlen in H; lia).
  cbn [firstn]. apply app_nil_r.
Qed.
Lemma get8_ext : ext get8.
Proof.
  intros b n t m a d' N M. unfold get8. destruct (upto 8 _) eqn:U; [|discriminate]. apply upto_inv in U as [-> U].
  cbn [rbind]. destruct (from 8 _) eqn:E; [|discriminate]. apply from_inv in E as [-> E]. cbn [rbind]. intros H. inversion H; subst a d'; clear H.
  split; [cbn [sn]; lia|]. rewrite upto_ok by (rewrite zlen_app; pose proof (zlen_nonneg t); lia). cbn [rbind].
  rewrite from_ext by lia. cbn [rbind sb sn]. rewrite bytes_ext by lia. reflexivity.
Qed.
Lemma ext_bind {A B} (f : sl -> res (A * sl)) (k : A * sl -> res (B * sl)) :
  ext f -> (forall a, ext (fun d => k (a, d))) -> ext (fun d => rbind (f d) k).
Proof.
  intros F K b n t m a d' N M H. destruct (f _) as [[x d]|] eqn:E; [|discriminate]. cbn [rbind] in H.
  destruct (F b n t m x d N M E) as [P Q]. rewrite Q. cbn [rbind]. destruct d as [db dn]. cbn [sb sn] in *. apply (K x); auto.
Qed.
Lemma ext_ret {A} (a : A) : ext (fun d => Ok (a, d)).
Proof. intros b n t m a' d' N M H. inversion H; subst; clear H. cbn [sb sn]. auto. Qed.
Lemma get8i_ext : ext get8i.
Proof. apply (ext_bind get8); [apply get8_ext|]. intros a. cbn [fst snd]. apply ext_ret. Qed.
Lemma drop_cap {A} (f : A -> sl -> res (A * sl)) o : ext (f o) -> cap (drop f o).
Proof.
  intros F b n t a N. unfold drop. destruct (f o _) as [[x d]|] eqn:E; [|discriminate]. cbn [rbind fst]. intros H. inversion H; subst; clear H.
  destruct (F b n t 0 a d N ltac:(lia) E) as [P Q]. rewrite Z.add_0_r in Q. rewrite Q. reflexivity.
Qed.
Lemma unframe_ext {A} (g : sl -> res A) : cap g -> ext (unframe g).
Proof.
  intros G. apply (ext_bind get8i); [apply get8i_ext|]. intros k. cbn [fst snd]. intros b n t m a d' N M.
  destruct (upto k _) eqn:U; [|discriminate]. apply upto_inv in U as [-> U]. cbn [rbind]. destruct (g _) as [x|] eqn:E; [|discriminate].
  cbn [rbind]. destruct (from k _) eqn:F; [|discriminate]. apply from_inv in F as [-> F]. cbn [rbind]. intros H. inversion H; subst; clear H.
  split; [cbn [sn]; lia|]. rewrite upto_ok by (rewrite zlen_app; pose proof (zlen_nonneg t); lia). cbn [rbind].
  rewrite (G b k t a) by (auto; lia). cbn [rbind]. rewrite from_ext by lia. reflexivity.
Qed.
Lemma loop_ext {A} (f : A -> sl -> res A) os : (forall o, cap (f o)) -> ext (loop f os).
Proof.
  intros F. induction os as [|o os IH]; [apply ext_ret|]. cbn [loop]. apply (ext_bind (unframe (f o))); [apply unframe_ext, F|].
  intros x. cbn [fst snd]. apply (ext_bind (loop f os)); auto. intros y. cbn [fst snd]. apply ext_ret.
Qed.
Lemma slice_ext {A} size zero (f : A -> sl -> res A) : (forall o, cap (f o)) -> ext (slice size zero f).
Proof.
  intros F. apply (ext_bind get8i); [apply get8i_ext|]. intros k. cbn [fst snd]. destruct (mk size k) as [j|] eqn:E; cbn [rbind].
  - apply loop_ext, F.
  - intros b n t m a d' N M H. discriminate.
Qed.
Opaque get8 get8i unframe loop slice.
Ltac ex := repeat (cbn [fst snd]; first [apply ext_ret|apply ext_bind; [|intros ?]]).
Ltac uc := apply unframe_ext, drop_cap.
Lemma rRange_ext o : ext (rRange o). Proof. unfold rRange. ex; apply get8_ext. Qed.
Lemma rDist0D_ext o : ext (rDist0D o). Proof. unfold rDist0D. ex; first [apply get8i_ext|apply get8_ext]. Qed.
Lemma rDist1D_ext o : ext (rDist1D o). Proof. unfold rDist1D. ex; first [apply get8_ext|uc; apply rDist0D_ext]. Qed.
Lemma rDist2D_ext o : ext (rDist2D o). Proof. unfold rDist2D. ex; first [apply get8_ext|uc; apply rDist1D_ext]. Qed.
Lemma rBin1D_ext o : ext (rBin1D o). Proof. unfold rBin1D. ex; first [uc; apply rRange_ext|uc; apply rDist1D_ext]. Qed.
Lemma rBinP1D_ext o : ext (rBinP1D o). Proof. unfold rBinP1D. ex; first [uc; apply rRange_ext|uc; apply rDist2D_ext]. Qed.
Lemma rBin2D_ext o : ext (rBin2D o). Proof. unfold rBin2D. ex; first [uc; apply rRange_ext|uc; apply rDist2D_ext]. Qed.
Lemma rPoint2D_ext o : ext (rPoint2D o). Proof. unfold rPoint2D. ex; first [apply get8_ext|uc; apply rRange_ext]. Qed.
Lemma rBinning1D_ext o : ext (rBinning1D o).
Proof.
  unfold rBinning1D. ex; first [uc; apply rRange_ext|uc; apply rDist1D_ext|apply slice_ext; intros; apply drop_cap; apply rBin1D_ext
    |apply loop_ext; intros; apply drop_cap; apply rDist1D_ext].
Qed.
Lemma rBinningP1D_ext o : ext (rBinningP1D o).
Proof.
  unfold rBinningP1D. ex; first [apply get8_ext|uc; apply rRange_ext|uc; apply rDist2D_ext|apply slice_ext; intros; apply drop_cap; apply rBinP1D_ext
    |apply loop_ext; intros; apply drop_cap; apply rDist2D_ext].
Qed.
Lemma rBinning2D_ext o : ext (rBinning2D o).
Proof.
  unfold rBinning2D. ex; first [apply get8i_ext|uc; apply rRange_ext|uc; apply rDist2D_ext|apply slice_ext; intros; apply drop_cap; apply rBin2D_ext
    |apply slice_ext; intros; apply drop_cap; apply rBin1D_ext|apply loop_ext; intros; apply drop_cap; apply rDist2D_ext].
Qed.

Section Ann.
Context {Ann : Type}.
Variable gobenc : Ann -> option (list Z).
Variable gobdec : list Z -> option Ann.
Lemma rAnn_ext {B} (o : obj B) b : ext (rAnn gobdec o b).
Proof.
  unfold rAnn. apply (ext_bind get8i); [apply get8i_ext|]. intros k. cbn [fst snd]. intros db n t m a d' N M.
  destruct (upto k _) eqn:U; [|discriminate]. apply upto_inv in U as [-> U]. cbn [rbind].
  rewrite upto_ok by (rewrite zlen_app; pose proof (zlen_nonneg t); lia). cbn [rbind]. rewrite bytes_ext by lia.
  destruct (gobdec _) as [x|] eqn:E.
  - destruct (from k _) eqn:F; [|discriminate]. apply from_inv in F as [-> F]. cbn [rbind]. intros H. inversion H; subst; clear H.
    split; [cbn [sn]; lia|]. rewrite from_ext by lia. reflexivity.
  - intros H. inversion H; subst; clear H. cbn [sn sb]. auto.
Qed.
Lemma rAnn_reads {B} (o : obj B) b s a : gobdec s = Some a -> zlen s < 2 ^ 63 -> reads (rAnn gobdec o b) (frame s) ({| bng := b; ann := a |}, false).
Proof.
  intros G L t n K. rewrite frame_len in *. pose proof (zlen_nonneg s). unfold frame, rAnn. rewrite <- app_assoc.
  rewrite (get8i_reads (zlen s)); [|apply inS64; lia|rewrite put8_len; lia]. cbn [rbind fst snd]. rewrite put8_len.
  rewrite upto_ok by (rewrite zlen_app; pose proof (zlen_nonneg t); lia). cbn [rbind]. unfold bytes. cbn [sb sn].
  rewrite (zfirst s t (zlen s)) by auto. rewrite G. rewrite from_ok by (auto; lia). cbn [rbind]. do 3 f_equal; lia.
Qed.
(* the whole object, by its first half *)
Lemma obj_reads {B} (f : sl -> res (B * sl)) (o x : obj B) m s :
  reads f m (bng x) -> gobdec s = Some (ann x) -> zlen s < 2 ^ 63 -> reads (fun d => do p <- f d; rAnn gobdec o (fst p) (snd p)) (m ++ frame s) (x, false).
Proof.
  intros F G L. eapply reads_bind; [exact F|]. cbn [fst snd]. replace x with {| bng := bng x; ann := ann x |} by (destruct x; reflexivity).
  apply rAnn_reads; auto.
Qed.
Lemma obj_ext {B} (f : sl -> res (B * sl)) (o : obj B) : ext f -> ext (fun d => do p <- f d; rAnn gobdec o (fst p) (snd p)).
Proof. intros F. apply (ext_bind f); auto. intros a. cbn [fst snd]. apply rAnn_ext. Qed.
Lemma reads_full {A} (f : sl -> res (A * sl)) m x : reads f m x -> f (full m) = Ok (x, {| sb := []; sn := 0 |}).
Proof. intros H. unfold full. specialize (H [] (zlen m)). rewrite app_nil_r, Z.sub_diag in H. apply H. lia. Qed.
(* a run over bytes that were cut panics *)
Lemma cut_panics {A} (f : sl -> res (A * sl)) p t x : ext f -> reads f (p ++ t) x -> t <> [] -> f (full p) = Panic.
Proof.
  intros E R T. destruct (f (full p)) as [[a d]|] eqn:F; auto. exfalso. unfold full in F.
  destruct (E p (zlen p) t (zlen t) a d (zlen_nonneg p) (zlen_nonneg t) F) as [P Q].
  apply reads_full in R. unfold full in R. rewrite zlen_app in R. rewrite Q in R. inversion R.
  pose proof (zlen_nonneg t). assert (zlen t = 0) by lia. apply zlen_0_nil in H3. auto.
Qed.
End Ann.
