(* Proofs about sio: blocks, records and streams. *)
From Coq Require Import ZArith List Lia Bool Permutation.
From Verif Require Import Bytes GoLib GoStrings Bits Parse RioModel RioProofs SioModel SioProofs.
Import ListNotations.
Local Open Scope Z_scope.
Local Arguments be : simpl never.
Local Arguments Z.pow : simpl never.

(* ---- the block marker ---- *)
Definition has_mark (d : list Z) : Prop := exists a b, d = a ++ blkMarkerBeg ++ b.
Lemma mark_here l : firstn 4 l = blkMarkerBeg -> has_mark l.
Proof. intros E. exists [], (skipn 4 l). rewrite <- E. symmetry. apply (firstn_skipn 4 l). Qed.
Lemma mark_tl x l : has_mark l -> has_mark (x :: l).
Proof. intros (a & b & ->). exists (x :: a), b. reflexivity. Qed.
Lemma mark_none : forall d, ~ has_mark d -> mark_index d = None.
Proof.
  induction d as [|x d IH]; intros N; [reflexivity|]. cbn [mark_index].
  destruct (str_eqb_spec (firstn 4 (x :: d)) blkMarkerBeg) as [E|_]; [exfalso; apply N, mark_here, E|].
  rewrite IH; [reflexivity|]. intros H. apply N, mark_tl, H.
Qed.
Lemma be4 h : 0 <= h < 2 ^ 31 -> exists a b c d, be 4 h = [a; b; c; d] /\ 0 <= a < 128.
Proof.
  intros H. unfold be, le. cbn [rev app]. eexists _, _, _, _. split; [reflexivity|].
  rewrite !Z.div_div by lia. change (256 * (256 * 256)) with (2 ^ 24). change (256 * 256 * 256) with (2 ^ 24).
  assert (h / 2 ^ 24 < 128) by (apply Z.div_lt_upper_bound; lia). assert (0 <= h / 2 ^ 24) by (apply Z.div_pos; lia).
  rewrite Z.mod_small; lia.
Qed.
Lemma mark_next : forall d h rest, ~ has_mark d -> 0 <= h < 2 ^ 31 ->
  mark_index (d ++ be 4 h ++ be 4 blkMarker ++ rest) = Some (length d + 4)%nat.
Proof.
  intros d h rest N H. destruct (be4 h H) as (h0 & h1 & h2 & h3 & -> & B).
  change (be 4 blkMarker) with [222; 173; 190; 239]. revert N. induction d as [|x d IH]; intros N.
  - cbn [app mark_index firstn length]. 
    assert (D : forall (p q : list Z), p <> q -> str_eqb p q = false) by (intros p q Np; destruct (str_eqb_spec p q); congruence).
    unfold blkMarkerBeg. rewrite (D [h0; h1; h2; h3]) by (intros E; injection E; lia). rewrite (D [h1; h2; h3; 222]) by (intros E; injection E; lia).
    rewrite (D [h2; h3; 222; 173]) by (intros E; injection E; lia). rewrite (D [h3; 222; 173; 190]) by (intros E; injection E; lia). reflexivity.
  - rewrite <- app_comm_cons. cbn [mark_index length]. rewrite IH by (intros M; apply N, mark_tl, M).
    destruct (str_eqb_spec (firstn 4 (x :: d ++ [h0; h1; h2; h3] ++ [222; 173; 190; 239] ++ rest)) blkMarkerBeg) as [E|_]; [exfalso|reflexivity].
    destruct d as [|x1 [|x2 [|x3 d]]]; cbn [app firstn] in E; unfold blkMarkerBeg in E.
    + injection E. lia.
    + injection E. lia.
    + injection E. lia.
    + apply N, mark_here. exact E.
Qed.

(* ---- blocks ---- *)
(* what each block writes *)
Fixpoint payloads (bs : list wblk) (s : wids) : res (option (list (list Z) * wids)) :=
  match bs with
  | [] => wret ([], s)
  | b :: bs' => wbind (enc true (wty b) (wval b) s) (fun r => wbind (payloads bs' (snd r)) (fun r' => wret (fst r :: fst r', snd r')))
  end.
Definition frames (bs : list wblk) (ds : list (list Z)) : list Z :=
  concat (map (fun p => blk_bytes (wname (fst p)) (wver (fst p)) (snd p)) (combine bs ds)).
Definition blk_write (b : wblk) (s : wids) : res (option (list Z * wids)) :=
  wbind (enc true (wty b) (wval b) s) (fun r => wret (blk_bytes (wname b) (wver b) (fst r), snd r)).
Lemma payloads_write : forall bs s ds s', payloads bs s = Ok (Some (ds, s')) -> enc_all blk_write bs s = Ok (Some (frames bs ds, s')) /\ length ds = length bs.
Proof.
  induction bs as [|b bs IH]; intros s ds s' H; cbn [payloads] in H.
  - unfold wret in H. injection H as <- <-. auto.
  - apply wbind_inv in H. destruct H as ((d & s1) & H1 & H). apply wbind_inv in H. destruct H as ((ds' & s2) & H2 & H). cbn [fst snd] in *.
    assert (ds = d :: ds' /\ s' = s2) as (-> & ->) by (unfold wret in H; split; congruence). destruct (IH _ _ _ H2) as (E & L).
    cbn [enc_all]. unfold blk_write at 1. rewrite H1. cbn [wbind fst snd wret]. rewrite E. cbn [wbind fst snd wret length]. split; [reflexivity|lia].
Qed.
Lemma write_payloads : forall bs s out s', enc_all blk_write bs s = Ok (Some (out, s')) -> exists ds, payloads bs s = Ok (Some (ds, s')) /\ out = frames bs ds.
Proof.
  induction bs as [|b bs IH]; intros s out s' H; cbn [enc_all] in H.
  - unfold wret in H. injection H as <- <-. exists []. auto.
  - apply wbind_inv in H. destruct H as ((d & s1) & H1 & H). apply wbind_inv in H. destruct H as ((ds' & s2) & H2 & H). cbn [fst snd] in *.
    apply wbind_inv in H1. destruct H1 as ((d0 & s0) & H0 & H1). unfold wret in *. cbn [fst snd] in *.
    assert (d = blk_bytes (wname b) (wver b) d0 /\ s1 = s0) as (-> & ->) by (split; congruence). assert (out = blk_bytes (wname b) (wver b) d0 ++ ds' /\ s' = s2) as (-> & ->) by (split; congruence).
    destruct (IH _ _ _ H2) as (ds & P & ->). exists (d0 :: ds). cbn [payloads]. rewrite H0. cbn [wbind fst snd]. rewrite P. auto.
Qed.

(* What is asked of a block and its payload: sizes; if it is connected, with the type it was written with; otherwise no
   block marker in its payload. *)
Definition blk_ok (conn : list (str * ty)) (b : wblk) (d : list Z) : Prop :=
  inU 32 (wver b) /\ zlen (wname b) + zlen d < 2 ^ 31 - 20 /\ typed (wty b) (wval b) /\
  match lookup (wname b) conn with Some t => t = wty b | None => ~ has_mark d end.
Definition connected (conn : list (str * ty)) (b : wblk) : bool := match lookup (wname b) conn with Some _ => true | None => false end.
Definition obj_list (conn : list (str * ty)) (bs : list wblk) : list Z := flat_map (fun b => tags_of (wval b)) (filter (connected conn) bs).

Definition bhead : parser (Z * Z * str) :=
  h <~~ pbe 4 ;; m <~~ pbe 4 ;; _ <~~ pguard (m =? blkMarker) ;; v <~~ pbe 4 ;; k <~~ pbe 4 ;;
  b <~~ take (Z.to_nat (align4U32 k)) ;; _ <~~ pguard (k <=? align4U32 k) ;; pret (h, v, firstn (Z.to_nat k) b).
Definition bhead_bytes (n : str) (ver : Z) (len : Z) : list Z :=
  be 4 (16 + align4U32 (zlen n) + len) ++ be 4 blkMarker ++ be 4 ver ++ be 4 (zlen n) ++ padded n.
Lemma inU4 v : 0 <= v < 2 ^ 32 -> inU (8 * Z.of_nat 4) v.
Proof. auto. Qed.
Lemma bhead_parses n ver len : zlen n < 2 ^ 32 - 3 -> 0 <= len -> 16 + align4U32 (zlen n) + len < 2 ^ 32 -> inU 32 ver ->
  parses bhead (bhead_bytes n ver len) (16 + align4U32 (zlen n) + len, ver, n).
Proof.
  intros Hn Hl Hs Hv. pose proof (zlen_nonneg n). destruct (align_spec (zlen n)) as (Ha & _); [lia|].
  unfold bhead, bhead_bytes. eapply parses_bind; [apply parses_pbe, inU4; lia|].
  eapply parses_bind; [apply parses_pbe, inU4; unfold blkMarker; lia|]. apply parses_guard; [reflexivity|].
  eapply parses_bind; [apply parses_pbe, Hv|]. eapply parses_bind; [apply parses_pbe, inU4; lia|].
  rewrite <- (app_nil_r (padded n)). eapply parses_bind; [apply parses_take, padded_length; lia|].
  apply parses_guard; [apply Z.leb_le; lia|]. rewrite padded_take. apply parses_ret.
Qed.
Lemma blk_bytes_eq n ver d : zlen n + zlen d < 2 ^ 31 - 20 -> blk_bytes n ver d = bhead_bytes n ver (zlen d) ++ d.
Proof.
  intros H. pose proof (zlen_nonneg n). pose proof (zlen_nonneg d). destruct (align_spec (zlen n)) as (Ha & _); [lia|].
  unfold blk_bytes, bhead_bytes, padded. rewrite wrapU_id by (unfold inU; lia). rewrite align_fit by lia. rewrite <- !app_assoc. reflexivity.
Qed.
Lemma bhead_len n ver len : zlen n < 2 ^ 32 - 3 -> zlen (bhead_bytes n ver len) = 16 + align4U32 (zlen n).
Proof.
  intros H. pose proof (zlen_nonneg n). destruct (align_spec (zlen n)) as (Ha & _); [lia|]. unfold bhead_bytes. rewrite !zlen_app, !zlen_be.
  assert (zlen (padded n) = align4U32 (zlen n)) by (unfold zlen at 1; rewrite padded_length by lia; lia). lia.
Qed.
Lemma frames_cons b d bs ds : frames (b :: bs) (d :: ds) = blk_bytes (wname b) (wver b) d ++ frames bs ds.
Proof. reflexivity. Qed.
(* after a block, the reader is at the next one *)
Lemma resync conn : forall d bs ds, Forall2 (blk_ok conn) bs ds -> ~ has_mark d ->
  match d ++ frames bs ds with
  | [] => frames bs ds = []
  | _ => match mark_index (d ++ frames bs ds) with
         | None => frames bs ds = []
         | Some next => (4 <= next)%nat /\ skipn (next - 4) (d ++ frames bs ds) = frames bs ds
         end
  end.
Proof.
  intros d bs ds F N. destruct F as [|b d1 bs ds B F].
  - change (frames [] []) with (@nil Z). rewrite app_nil_r. rewrite (mark_none d N). destruct d; reflexivity.
  - rewrite frames_cons. destruct B as (Bv & Bs & _ & _). rewrite (blk_bytes_eq _ _ _ Bs).
    pose proof (zlen_nonneg (wname b)). pose proof (zlen_nonneg d1). destruct (align_spec (zlen (wname b))) as (Ha & _); [lia|].
    assert (E : exists rest, (bhead_bytes (wname b) (wver b) (zlen d1) ++ d1) ++ frames bs ds = be 4 (16 + align4U32 (zlen (wname b)) + zlen d1) ++ be 4 blkMarker ++ rest).
    { unfold bhead_bytes. eexists. rewrite <- !app_assoc. reflexivity. }
    destruct E as (rest & ->). rewrite mark_next by (auto; lia).
    assert (R : (4 <= length d + 4)%nat /\ skipn (length d + 4 - 4) (d ++ be 4 (16 + align4U32 (zlen (wname b)) + zlen d1) ++ be 4 blkMarker ++ rest) = be 4 (16 + align4U32 (zlen (wname b)) + zlen d1) ++ be 4 blkMarker ++ rest).
    { split; [lia|]. apply skipn_app_exact. lia. }
    destruct d; [|exact R]. cbn [app] in *. destruct (be 4 (16 + align4U32 (zlen (wname b)) + zlen d1)) eqn:Eb; [|exact R].
    apply (f_equal (@length Z)) in Eb. rewrite be_length in Eb. discriminate.
Qed.

Lemma payloads_ext : forall bs s ds s', Forall (fun b => typed (wty b) (wval b)) bs -> winv s -> payloads bs s = Ok (Some (ds, s')) ->
  winv s' /\ ext (snd s) (snd s') /\ (forall b a, In b bs -> In a (tags_of (wval b)) -> assoc a (snd s') <> None).
Proof.
  induction bs as [|b bs IH]; intros s ds s' F I H; cbn [payloads] in H.
  - unfold wret in H. injection H as <- <-. split; auto. split; [apply ext_refl|]. intros b a [].
  - apply wbind_inv in H. destruct H as ((d & s1) & H1 & H). apply wbind_inv in H. destruct H as ((ds' & s2) & H2 & H). cbn [fst snd] in *.
    assert (s' = s2) as -> by (unfold wret in H; congruence). inversion F; subst.
    destruct (enc_good _ _ H4 _ _ _ I H1) as (I1 & X1 & J1 & _). destruct (IH _ _ _ H5 I1 H2) as (I2 & X2 & J2).
    split; auto. split; [eapply ext_trans; eauto|]. intros b' a [<-|Jb] Ja; [|eauto].
    specialize (J1 a Ja). destruct (assoc a (snd s1)) eqn:Ea; [|congruence]. rewrite (X2 _ _ Ea). discriminate.
Qed.

Definition expect (conn : list (str * ty)) {T P} (f : Z -> T) (g : Z -> P) (bs : list wblk) : list (str * (Z * val T P)) :=
  map (fun b => (wname b, (wver b, vmap f g (wval b)))) (filter (connected conn) bs).
Lemma rec_loop_ok conn : forall bs s0 ds s1, winv s0 -> payloads bs s0 = Ok (Some (ds, s1)) -> Forall2 (blk_ok conn) bs ds ->
  forall m L L0 T acc fuel, ext (snd s1) m -> L = L0 ++ obj_list conn bs -> NoDup L -> (length bs < fuel)%nat ->
  rec_loop fuel conn acc {| rl := frames bs ds; rn := length L0; rtags := T |} =
  Ok (Some (acc ++ expect conn (pos L) (idof m) bs, {| rl := []; rn := length L; rtags := T ++ map (fun a => (pos L a, idof m a)) (obj_list conn bs) |})).
Proof.
  induction bs as [|b bs IH]; intros s0 ds s1 I P F m L L0 T acc fuel X EL N Hf; cbn [payloads] in P.
  - unfold wret in P. injection P as <- <-. destruct fuel; [lia|]. cbn. subst L. cbn [obj_list filter flat_map]. rewrite !app_nil_r. reflexivity.
  - apply wbind_inv in P. destruct P as ((d & s2) & P1 & P). apply wbind_inv in P. destruct P as ((ds' & s3) & P2 & P). cbn [fst snd] in *.
    assert (ds = d :: ds' /\ s1 = s3) as (-> & ->) by (unfold wret in P; split; congruence). inversion F as [|? ? ? ? B F']; subst x y l l'.
    destruct fuel as [|fuel]; [lia|]. cbn [length] in Hf. rewrite frames_cons.
    pose proof B as (Bv & Bs & Bt & Bc). rewrite (blk_bytes_eq _ _ _ Bs), <- app_assoc.
    pose proof (zlen_nonneg (wname b)). pose proof (zlen_nonneg d). destruct (align_spec (zlen (wname b))) as (Ha & _); [lia|].
    assert (Fty : Forall (fun b => typed (wty b) (wval b)) bs) by (clear -F'; induction F' as [|? ? ? ? (_ & _ & ? & _)]; constructor; auto).
    destruct (enc_good _ _ Bt _ _ _ I P1) as (I2 & X2 & _ & R). destruct (payloads_ext _ _ _ _ Fty I2 P2) as (_ & X3 & _).
    cbn [rec_loop rl rn rtags].
    assert (Ne : exists y ys, bhead_bytes (wname b) (wver b) (zlen d) ++ d ++ frames bs ds' = y :: ys).
    { destruct (bhead_bytes (wname b) (wver b) (zlen d) ++ d ++ frames bs ds') eqn:E; [|eauto]. apply (f_equal zlen) in E. rewrite zlen_app, bhead_len in E by lia.
      pose proof (zlen_nonneg (d ++ frames bs ds')). change (zlen []) with 0 in E. lia. }
    destruct Ne as (y & ys & Ne). rewrite Ne at 1. clear Ne. cbv iota beta.
    change (h <~~ pbe 4 ;; m0 <~~ pbe 4 ;; _ <~~ pguard (m0 =? blkMarker) ;; v <~~ pbe 4 ;; k <~~ pbe 4 ;;
            b0 <~~ take (Z.to_nat (align4U32 k)) ;; _ <~~ pguard (k <=? align4U32 k) ;; pret (h, v, firstn (Z.to_nat k) b0)) with bhead.
    rewrite (bhead_parses (wname b) (wver b) (zlen d)) by (auto; lia). cbv zeta. cbn [rn rtags rl].
    destruct (lookup (wname b) conn) as [t|] eqn:Lk.
    + subst t.
      assert (Eo : obj_list conn (b :: bs) = tags_of (wval b) ++ obj_list conn bs) by (unfold obj_list; cbn [filter]; unfold connected at 1; rewrite Lk; reflexivity).
      assert (Ee : forall T P (f : Z -> T) (g : Z -> P), expect conn f g (b :: bs) = (wname b, (wver b, vmap f g (wval b))) :: expect conn f g bs) by (intros; unfold expect; cbn [filter]; unfold connected at 1; rewrite Lk; reflexivity).
      rewrite Eo in *. rewrite Ee. rewrite (R m L L0 (obj_list conn bs)); [|eapply ext_trans; eauto|exact EL|auto]. cbn [rl rn rtags].
      rewrite !zlen_app, bhead_len by lia.
      destruct (Z.eqb_spec (16 + align4U32 (zlen (wname b)) + (zlen d + zlen (frames bs ds')) - zlen (frames bs ds')) (16 + align4U32 (zlen (wname b)) + zlen d)); [|lia].
      assert (Nil : ~ has_mark []). { intros (a & c & E). destruct a; discriminate. }
      pose proof (resync conn [] bs ds' F' Nil) as Rs. cbn [app] in Rs.
      assert (Go : rec_loop fuel conn (acc ++ [(wname b, (wver b, vmap (pos L) (idof m) (wval b)))]) {| rl := frames bs ds'; rn := length (L0 ++ tags_of (wval b)); rtags := T ++ map (fun a => (pos L a, idof m a)) (tags_of (wval b)) |} =
        Ok (Some (acc ++ (wname b, (wver b, vmap (pos L) (idof m) (wval b))) :: expect conn (pos L) (idof m) bs, {| rl := []; rn := length L; rtags := T ++ map (fun a => (pos L a, idof m a)) (tags_of (wval b) ++ obj_list conn bs) |}))).
      { rewrite (IH s2 ds' s3 I2 P2 F' m L (L0 ++ tags_of (wval b))); auto; [|rewrite <- app_assoc; exact EL|lia].
        rewrite map_app, <- !app_assoc. reflexivity. }
      destruct (frames bs ds') as [|q qs] eqn:Eq; [exact Go|]. cbn [rl rn rtags].
      destruct (mark_index (q :: qs)) as [[|next]|]; [exfalso; destruct Rs as (Rs & _); clear -Rs; lia| |discriminate Rs].
      destruct Rs as (Rs1 & Rs2). destruct (Nat.ltb_spec (S next) 4); [lia|]. rewrite Rs2. exact Go.
    + assert (Eo : obj_list conn (b :: bs) = obj_list conn bs) by (unfold obj_list; cbn [filter]; unfold connected at 1; rewrite Lk; reflexivity).
      assert (Ee : forall T P (f : Z -> T) (g : Z -> P), expect conn f g (b :: bs) = expect conn f g bs) by (intros; unfold expect; cbn [filter]; unfold connected at 1; rewrite Lk; reflexivity).
      rewrite Eo in *. rewrite Ee. cbn [rl rn rtags].
      pose proof (resync conn d bs ds' F' Bc) as Rs.
      assert (Go : rec_loop fuel conn acc {| rl := frames bs ds'; rn := length L0; rtags := T |} =
        Ok (Some (acc ++ expect conn (pos L) (idof m) bs, {| rl := []; rn := length L; rtags := T ++ map (fun a => (pos L a, idof m a)) (obj_list conn bs) |}))).
      { apply (IH s2 ds' s3 I2 P2 F' m L L0); auto; lia. }
      destruct (d ++ frames bs ds') as [|q qs]; [rewrite Rs in Go; exact Go|]. cbn [rl rn rtags].
      destruct (mark_index (q :: qs)) as [[|next]|]; [exfalso; destruct Rs as (Rs & _); clear -Rs; lia| |rewrite Rs in Go; exact Go].
      destruct Rs as (Rs1 & Rs2). destruct (Nat.ltb_spec (S next) 4); [lia|]. rewrite Rs2. exact Go.
Qed.

(* ---- relocation ---- *)
Lemma relocate_ok perm L m : (forall l, Permutation (perm l) l) -> NoDup L ->
  (forall a b i, assoc a m = Some i -> assoc b m = Some i -> a = b) -> (forall a i, assoc a m = Some i -> i <> 0) -> (forall a, In a L -> assoc a m <> None) ->
  forall a, relocate (perm (map (fun a => (pos L a, idof m a)) L)) (idof m a) = idx L a.
Proof.
  intros Pm N Inj Nz Reg a. set (tags := perm _).
  assert (Ht : forall t, In t tags <-> exists b, In b L /\ t = (pos L b, idof m b)).
  { intros t. unfold tags. split.
    - intros J. eapply Permutation_in in J; [|apply Pm]. rewrite in_map_iff in J. destruct J as (b & <- & J). eauto.
    - intros (b & J & ->). eapply Permutation_in; [apply Permutation_sym, Pm|]. apply (in_map (fun a => (pos L a, idof m a))), J. }
  assert (Ri : forall b, In b L -> exists i, assoc b m = Some i /\ i <> 0 /\ idof m b = i).
  { intros b J. specialize (Reg b J). destruct (assoc b m) as [i|] eqn:E; [|congruence]. exists i. split; auto. split; [eapply Nz; eauto|]. unfold idof. now rewrite E. }
  unfold relocate. destruct (idx L a) as [k|] eqn:Ei.
  - assert (Ja : In a L). { destruct (in_dec Z.eq_dec a L); auto. apply idx_none in n. congruence. }
    destruct (Ri a Ja) as (i & Ea & Hz & Ed). rewrite Ed. destruct (Z.eqb_spec i 0); [congruence|].
    destruct (find (fun t => snd t =? i) tags) as [(k' & i')|] eqn:Ef.
    + apply find_some in Ef. destruct Ef as (J & E). cbn [snd] in E. apply Z.eqb_eq in E. apply Ht in J. destruct J as (b & Jb & E2).
      injection E2 as -> ->. destruct (Ri b Jb) as (i2 & Eb & _ & Edb). assert (a = b) by (eapply Inj; eauto; congruence). subst b. unfold pos. now rewrite Ei.
    + exfalso. assert (J : In (pos L a, idof m a) tags) by (apply Ht; eauto). eapply find_none in Ef; [|exact J]. cbn [snd] in Ef. rewrite Ed in Ef. apply Z.eqb_neq in Ef. congruence.
  - apply idx_none in Ei. destruct (Z.eqb_spec (idof m a) 0); auto. destruct (find _ tags) as [(k' & i')|] eqn:Ef; auto. exfalso.
    apply find_some in Ef. destruct Ef as (J & E). cbn [snd] in E. apply Z.eqb_eq in E. apply Ht in J. destruct J as (b & Jb & E2). injection E2 as -> ->.
    destruct (Ri b Jb) as (i2 & Eb & _ & Edb). apply Ei. replace a with b; auto. symmetry. unfold idof in E, Edb. destruct (assoc a m) as [i3|] eqn:Ea; [|unfold idof in n; rewrite Ea in n; congruence].
    rewrite Eb in E. eapply Inj; eauto. congruence.
Qed.
Lemma vmap_vmap {A B C A' B' C'} (f : A -> B) (f' : B -> C) (g : A' -> B') (g' : B' -> C') : forall v, vmap f' g' (vmap f g v) = vmap (fun x => f' (f x)) (fun x => g' (g x)) v.
Proof.
  fix IH 1. intros [z|s|vs|kvs|vs|t|p]; cbn [vmap]; try reflexivity; f_equal.
  - rewrite map_map. induction vs as [|v vs IHv]; [reflexivity|]. cbn [map]. now rewrite IH, IHv.
  - rewrite map_map. induction kvs as [|(a, b) kvs IHv]; [reflexivity|]. cbn [map]. rewrite IHv. cbn [fst snd]. now rewrite !IH.
  - rewrite map_map. induction vs as [|v vs IHv]; [reflexivity|]. cbn [map]. now rewrite IH, IHv.
Qed.
Lemma vmap_ext {A B A' B'} (f f' : A -> B) (g g' : A' -> B') : (forall x, f x = f' x) -> (forall x, g x = g' x) -> forall v, vmap f g v = vmap f' g' v.
Proof.
  intros E1 E2. fix IH 1. intros [z|s|vs|kvs|vs|t|p]; cbn [vmap]; try reflexivity; f_equal; auto.
  - induction vs as [|v vs IHv]; [reflexivity|]. cbn [map]. now rewrite IH, IHv.
  - induction kvs as [|(a, b) kvs IHv]; [reflexivity|]. cbn [map]. rewrite IHv. cbn [fst snd]. now rewrite !IH.
  - induction vs as [|v vs IHv]; [reflexivity|]. cbn [map]. now rewrite IH, IHv.
Qed.
Lemma frames_len conn : forall bs ds, Forall2 (blk_ok conn) bs ds -> (length bs <= length (frames bs ds))%nat.
Proof.
  intros bs ds F. induction F as [|b d bs ds B F IH]; [cbn; lia|]. rewrite frames_cons, app_length. destruct B as (_ & Bs & _).
  rewrite (blk_bytes_eq _ _ _ Bs), app_length. assert (1 <= length (bhead_bytes (wname b) (wver b) (zlen d)))%nat by (unfold bhead_bytes; rewrite !app_length, !be_length; lia).
  cbn [length]. lia.
Qed.
(* A record is read back, whatever the order in which the map of tags is run over. *)
Theorem rec_read_ok perm conn bs ds s : (forall l, Permutation (perm l) l) -> payloads bs (0, []) = Ok (Some (ds, s)) -> Forall2 (blk_ok conn) bs ds ->
  NoDup (obj_list conn bs) -> rec_read perm conn (frames bs ds) = Ok (Some (expect conn (pos (obj_list conn bs)) (idx (obj_list conn bs)) bs)).
Proof.
  intros Pm P F N. unfold rec_read. pose proof (frames_len conn bs ds F).
  change 0%nat with (length (@nil Z)) at 1. rewrite (rec_loop_ok conn bs (0, []) ds s winv0 P F (snd s) (obj_list conn bs) [] [] [] (S (length (frames bs ds)))); auto; [|apply ext_refl|lia].
  cbn [wbind fst snd app rtags]. unfold wret. f_equal. f_equal. unfold expect. rewrite map_map. apply map_ext. intros b. cbn [fst snd]. do 2 f_equal.
  rewrite vmap_vmap. apply vmap_ext; [reflexivity|].
  assert (Fty : Forall (fun b => typed (wty b) (wval b)) bs) by (clear -F; induction F as [|? ? ? ? (_ & _ & ? & _)]; constructor; auto).
  destruct (payloads_ext bs _ _ _ Fty winv0 P) as ((_ & Ib & Ii) & _ & Ir).
  apply relocate_ok; auto.
  - intros a i E. apply Ib in E. lia.
  - intros a J. unfold obj_list in J. apply in_flat_map in J. destruct J as (b' & J & Ja). apply filter_In in J. destruct J as (J & _). eapply Ir; eauto.
Qed.

(* ---- streams ---- *)
Definition zlib_ok (z : zlib) : Prop := forall x k, inflate z (deflate z x ++ repeat 0 k) (length x) = Some x.
Definition conf_of (cf : rconf) (n : str) : bool * list (str * ty) := match lookup n cf with Some c => c | None => (false, []) end.
Definition rec_ok (z : zlib) (cf : rconf) (r : wrec) : Prop :=
  inU 32 (wropt r) /\ exists ds s, payloads (wrblks r) (0, []) = Ok (Some (ds, s)) /\
    zlen (wrname r) + zlen (frames (wrblks r) ds) < 2 ^ 31 - 30 /\ zlen (wrname r) + zlen (deflate z (frames (wrblks r) ds)) < 2 ^ 31 - 30 /\
    (if fst (conf_of cf (wrname r)) then
       Forall2 (blk_ok (snd (conf_of cf (wrname r)))) (wrblks r) ds /\ NoDup (obj_list (snd (conf_of cf (wrname r))) (wrblks r))
     else compressed (wropt r) = true \/ zlen (frames (wrblks r) ds) mod 4 = 0).
Definition rhead_bytes (n : str) (o d u : Z) : list Z :=
  be 4 (24 + align4U32 (zlen n)) ++ be 4 recMarker ++ be 4 o ++ be 4 d ++ be 4 u ++ be 4 (zlen n) ++ padded n.
Lemma rhead_parses n o d u : zlen n < 2 ^ 31 -> inU 32 o -> inU 32 d -> inU 32 u -> parses rhead (rhead_bytes n o d u) (24 + align4U32 (zlen n), o, d, u, n).
Proof.
  intros Hn Ho Hd Hu. pose proof (zlen_nonneg n). destruct (align_spec (zlen n)) as (Ha & _); [lia|].
  unfold rhead, rhead_bytes. eapply parses_bind; [apply parses_pbe, inU4; lia|].
  eapply parses_bind; [apply parses_pbe, inU4; unfold recMarker; lia|]. apply parses_guard; [reflexivity|].
  eapply parses_bind; [apply parses_pbe, Ho|]. eapply parses_bind; [apply parses_pbe, Hd|]. eapply parses_bind; [apply parses_pbe, Hu|].
  eapply parses_bind; [apply parses_pbe, inU4; lia|].
  rewrite <- (app_nil_r (padded n)). eapply parses_bind; [apply parses_take, padded_length; lia|].
  apply parses_guard; [apply Z.leb_le; lia|]. rewrite padded_take. apply parses_ret.
Qed.
Lemma rhead_len n o d u : zlen n < 2 ^ 31 -> zlen (rhead_bytes n o d u) = 24 + align4U32 (zlen n).
Proof.
  intros H. pose proof (zlen_nonneg n). unfold rhead_bytes. rewrite !zlen_app, !zlen_be.
  assert (zlen (padded n) = align4U32 (zlen n)) by (unfold zlen at 1; rewrite padded_length by lia; destruct (align_spec (zlen n)); lia). lia.
Qed.
(* the bytes of a record *)
Definition data_of (z : zlib) (o : Z) (buf : list Z) : list Z := if compressed o then padded (deflate z buf) else buf.
Definition rec_bytes (z : zlib) (r : wrec) (buf : list Z) : list Z :=
  rhead_bytes (wrname r) (wropt r) (zlen (data_of z (wropt r) buf)) (zlen buf) ++ data_of z (wropt r) buf.
Lemma data_small z o buf (n : list Z) : zlen n + zlen buf < 2 ^ 31 - 30 -> zlen n + zlen (deflate z buf) < 2 ^ 31 - 30 -> 0 <= zlen (data_of z o buf) < 2 ^ 31 /\
  (compressed o = true -> zlen (data_of z o buf) mod 4 = 0).
Proof.
  intros H1 H2. pose proof (zlen_nonneg n). pose proof (zlen_nonneg buf). pose proof (zlen_nonneg (deflate z buf)). unfold data_of. destruct (compressed o).
  - assert (E : zlen (padded (deflate z buf)) = align4U32 (zlen (deflate z buf))) by (unfold zlen at 1; rewrite padded_length by lia; destruct (align_spec (zlen (deflate z buf))); lia).
    rewrite E. destruct (align_spec (zlen (deflate z buf))); [lia|]. split; auto. lia.
  - split; [lia|discriminate].
Qed.
Lemma write_record_eq z cf r out : rec_ok z cf r -> exists ds s, payloads (wrblks r) (0, []) = Ok (Some (ds, s)) /\
  write_record z r out = Ok (Some (out ++ rec_bytes z r (frames (wrblks r) ds))).
Proof.
  intros (Io & ds & s & P & S1 & S2 & _). exists ds, s. split; auto. unfold write_record. destruct (payloads_write _ _ _ _ P) as (E & _).
  unfold rec_write. fold blk_write. change (enc_all (fun b s0 => wbind (enc true (wty b) (wval b) s0) (fun r0 => wret (blk_bytes (wname b) (wver b) (fst r0), snd r0))) (wrblks r) (0, [])) with (enc_all blk_write (wrblks r) (0, [])).
  rewrite E. cbn [wbind fst snd]. unfold wret. do 3 f_equal.
  pose proof (zlen_nonneg (wrname r)). pose proof (zlen_nonneg (frames (wrblks r) ds)). pose proof (zlen_nonneg (deflate z (frames (wrblks r) ds))).
  destruct (align_spec (zlen (wrname r))) as (Ha & _); [lia|].
  rewrite (wrapU_id 32 (zlen (wrname r))) by (unfold inU; lia). rewrite (wrapU_id 32 (zlen (deflate z (frames (wrblks r) ds)))) by (unfold inU; lia).
  rewrite (wrapU_id 32 (24 + _)) by (unfold inU; lia). rewrite !align_fit by lia. rewrite (wrapU_id 32 (zlen (frames (wrblks r) ds))) by (unfold inU; lia).
  change (if compressed (wropt r) then deflate z (frames (wrblks r) ds) ++ repeat 0 (Z.to_nat (align4U32 (zlen (deflate z (frames (wrblks r) ds))) - zlen (deflate z (frames (wrblks r) ds)))) else frames (wrblks r) ds) with (data_of z (wropt r) (frames (wrblks r) ds)).
  destruct (data_small z (wropt r) _ _ S1 S2) as (Hd & _). rewrite (wrapU_id 32 (zlen (data_of z (wropt r) (frames (wrblks r) ds)))) by (unfold inU; lia).
  unfold rec_bytes, rhead_bytes, padded. rewrite <- !app_assoc. reflexivity.
Qed.
(* what ReadRecord gives for a record *)
Definition rec_value (cf : rconf) (r : wrec) : str * Z * list (str * (Z * val nat (option nat))) :=
  let conn := snd (conf_of cf (wrname r)) in
  (wrname r, wropt r, expect conn (pos (obj_list conn (wrblks r))) (idx (obj_list conn (wrblks r))) (wrblks r)).
Lemma read_record_ok perm z cf r ds s fuel rest : (forall l, Permutation (perm l) l) -> zlib_ok z -> rec_ok z cf r -> payloads (wrblks r) (0, []) = Ok (Some (ds, s)) ->
  read_record (S fuel) perm z cf (rec_bytes z r (frames (wrblks r) ds) ++ rest) =
  if fst (conf_of cf (wrname r)) then Ok (Some (rec_value cf r, rest)) else read_record fuel perm z cf rest.
Proof.
  intros Pm Zok (Io & ds' & s' & P' & S1 & S2 & C) P. assert (ds' = ds /\ s' = s) as (-> & ->) by (split; congruence). clear P'.
  pose proof (zlen_nonneg (wrname r)). pose proof (zlen_nonneg (frames (wrblks r) ds)). pose proof (zlen_nonneg (deflate z (frames (wrblks r) ds))).
  destruct (data_small z (wropt r) _ _ S1 S2) as (Hd & Hc).
  destruct (align_spec (zlen (wrname r))) as (Ha & _); [lia|].
  cbn [read_record]. unfold rec_bytes. rewrite <- app_assoc. rewrite rhead_parses by (auto; unfold inU; lia).
  fold (conf_of cf (wrname r)). destruct (conf_of cf (wrname r)) as (unpack & conn) eqn:Ec. cbn [fst snd] in *.
  set (D := data_of z (wropt r) (frames (wrblks r) ds)) in *. destruct unpack; cbn [negb].
  - destruct C as (F & N). rewrite (parses_take (Z.to_nat (zlen D)) D) by (unfold zlen; lia).
    assert (E : (if compressed (wropt r) then match inflate z D (Z.to_nat (zlen (frames (wrblks r) ds))) with
                 | Some buf => Some (buf, skipn (Z.to_nat (wrapU 32 (align4U32 (zlen D) - zlen D))) rest) | None => None end else Some (D, rest)) = Some (frames (wrblks r) ds, rest)).
    { unfold D, data_of in *. destruct (compressed (wropt r)); [|reflexivity]. specialize (Hc eq_refl).
      rewrite align_eq, rioAlignU32_id, rioAlign_id, Z.sub_diag by (auto; lia). change (Z.to_nat (wrapU 32 0)) with 0%nat.
      unfold padded at 1. unfold zlen at 3. rewrite Nat2Z.id. rewrite Zok. reflexivity. }
    rewrite E. rewrite (rec_read_ok perm conn _ _ _ Pm P F N). cbn [wbind]. unfold wret, rec_value. rewrite Ec. reflexivity.
  - rewrite align_eq, rioAlignU32_id by lia. rewrite rioAlign_id by (destruct C as [C|C]; [apply Hc, C|unfold D, data_of in *; destruct (compressed (wropt r)); [apply Hc; reflexivity|exact C]]).
    rewrite !zlen_app, rhead_len by lia. rewrite wrapU_id by (unfold inU; lia).
    destruct (Z.eqb_spec (24 + align4U32 (zlen (wrname r)) + (zlen D + zlen rest) - (zlen D + zlen rest) + zlen D) (zlen D + (24 + align4U32 (zlen (wrname r))))); [|lia].
    rewrite (skipn_app_exact D rest) by (unfold zlen; lia). reflexivity.
Qed.
(* the records read until an error, n at most *)
Fixpoint read_all (n fuel : nat) (perm : list (nat * Z) -> list (nat * Z)) (z : zlib) (cf : rconf) (l : list Z) :
  res (list (str * Z * list (str * (Z * val nat (option nat))))) :=
  match n with
  | O => Ok []
  | S n' => match read_record fuel perm z cf l with
            | Ok (Some (v, l')) => do r <- read_all n' fuel perm z cf l'; Ok (v :: r)
            | Ok None => Ok []
            | Panic => Panic
            end
  end.
Lemma write_records_eq z cf : forall rs out l, Forall (rec_ok z cf) rs -> write_records z rs out = Ok (Some l) ->
  exists bss, Forall2 (fun r b => exists ds s, payloads (wrblks r) (0, []) = Ok (Some (ds, s)) /\ b = rec_bytes z r (frames (wrblks r) ds)) rs bss /\ l = out ++ concat bss.
Proof.
  induction rs as [|r rs IH]; intros out l F W; cbn [write_records] in W.
  - unfold wret in W. injection W as <-. exists []. split; [constructor|]. now rewrite app_nil_r.
  - inversion F; subst. destruct (write_record_eq z cf r out H1) as (ds & s & P & E). rewrite E in W. cbn [wbind] in W.
    destruct (IH _ _ H2 W) as (bss & F2 & ->). exists (rec_bytes z r (frames (wrblks r) ds) :: bss). split; [constructor; eauto|]. cbn [concat]. now rewrite <- app_assoc.
Qed.
Definition unpacked (cf : rconf) (r : wrec) : bool := fst (conf_of cf (wrname r)).
Lemma read_next perm z cf : (forall l, Permutation (perm l) l) -> zlib_ok z -> forall rs bss, Forall (rec_ok z cf) rs ->
  Forall2 (fun r b => exists ds s, payloads (wrblks r) (0, []) = Ok (Some (ds, s)) /\ b = rec_bytes z r (frames (wrblks r) ds)) rs bss ->
  forall fuel, (length rs < fuel)%nat ->
  (filter (unpacked cf) rs = [] /\ read_record fuel perm z cf (concat bss) = Ok None) \/
  exists r rs' bss', filter (unpacked cf) rs = r :: filter (unpacked cf) rs' /\ (length rs' < length rs)%nat /\ Forall (rec_ok z cf) rs' /\
    Forall2 (fun r b => exists ds s, payloads (wrblks r) (0, []) = Ok (Some (ds, s)) /\ b = rec_bytes z r (frames (wrblks r) ds)) rs' bss' /\
    read_record fuel perm z cf (concat bss) = Ok (Some (rec_value cf r, concat bss')).
Proof.
  intros Pm Zok rs bss F F2. induction F2 as [|r b rs bss (ds & s & P & Eb) F2 IH]; intros fuel Hf.
  - left. split; auto. destruct fuel; [cbn in Hf; lia|]. reflexivity.
  - inversion F; subst. destruct fuel as [|fuel]; [lia|]. cbn [length] in Hf. cbn [concat filter].
    rewrite (read_record_ok perm z cf r ds s fuel (concat bss) Pm Zok H1 P). fold (unpacked cf r). destruct (unpacked cf r).
    + right. exists r, rs, bss. cbn [length]. auto.
    + destruct (IH H2 fuel) as [(E & R)|(r' & rs' & bss' & E & L & Fr & F2' & R)]; [lia|left; auto|right].
      exists r', rs', bss'. cbn [length]. repeat (split; auto).
Qed.
