(* Proofs about the read-ahead pipeline, direct access to baskets and the absence of panics in the writer. *)
From Coq Require Import ZArith List Lia Bool Permutation Sorted.
From Verif Require Import Bytes GoLib RbytesModel RbytesProofs TreeModel TreeProofs TreeProofs2 TreeProofs3.
Import ListNotations.
Local Open Scope Z_scope.

(* ---- the pipeline ---- *)
Definition olist {A} (o : option A) : list A := match o with Some x => [x] | None => [] end.
Definition tokens (p : pipe) : list nat := preuse p ++ pready p ++ olist (phand p) ++ olist (pcur p).
Definition pinv (n : nat) (l : list rspan) (p : pipe) : Prop :=
  pcap p = n /\ Permutation (tokens p) (seq 0 n) /\
  (exists rs hs, l = pgot p ++ rs ++ hs ++ ptodo p /\ map (pcont p) (pready p) = map Some rs /\ map (pcont p) (olist (phand p)) = map Some hs) /\
  (forall k, pcur p = Some k -> exists g s, pgot p = g ++ [s] /\ pcont p k = Some s) /\
  (pclosed p = true -> ptodo p = [] /\ phand p = None) /\
  (peof p = true -> pclosed p = true /\ pready p = [] /\ pwait p = false /\ pcur p = None) /\
  (pwait p = true -> pcur p = None /\ peof p = false).

Lemma pinv0 n l : pinv n l (pipe0 n l).
Proof.
  unfold pinv, pipe0, tokens. cbn. rewrite app_nil_r. repeat split; try discriminate; auto.
  exists [], []. auto.
Qed.
Lemma set_cont_other f k s l : ~ In k l -> map (set_cont f k s) l = map f l.
Proof.
  intros H. apply map_ext_in. intros i I. unfold set_cont. destruct (Nat.eqb_spec i k) as [->|]; auto. contradiction.
Qed.
Lemma pinv_step n l p q : pinv n l p -> pstep p q -> pinv n l q.
Proof.
  intros (Ic & It & (rs & hs & Il & Ir & Ih) & Icur & Icl & Ieof & Iw) S. 
  assert (ND : NoDup (tokens p)) by (eapply Permutation_NoDup; [symmetry; exact It|apply seq_NoDup]).
  unfold tokens in *. destruct S.
  - (* take *)
    rewrite H, H0, H1 in *. cbn [olist app] in *. destruct hs; [|discriminate].
    unfold pinv, tokens. cbn [pcap ptodo phand preuse pready pclosed pcur pwait peof pgot pcont olist app].
    split; auto. split.
    { rewrite <- It. rewrite app_assoc. rewrite <- Permutation_middle. now rewrite <- app_assoc. }
    assert (Nk : ~ In k (r ++ pready p ++ olist (pcur p))) by (inversion ND; auto).
    rewrite !in_app_iff in Nk.
    split. { exists rs, [s]. rewrite set_cont_other by tauto. split; auto. split; auto. cbn. unfold set_cont. now rewrite Nat.eqb_refl. }
    split. { intros k' E. destruct (Icur k' E) as (g & s' & G1 & G2). exists g, s'. split; auto. unfold set_cont.
             destruct (Nat.eqb_spec k' k) as [->|]; auto. exfalso. rewrite E in Nk. cbn in Nk. tauto. }
    split. { intros E. destruct (Icl E). congruence. }
    split. { intros E. destruct (Ieof E) as (E1 & _). destruct (Icl E1). congruence. }
    auto.
  - (* send *)
    rewrite H in *. cbn [olist app] in *.
    unfold pinv, tokens. cbn [pcap ptodo phand preuse pready pclosed pcur pwait peof pgot pcont olist app].
    split; auto. split. { rewrite <- It. rewrite <- !app_assoc. reflexivity. }
    split. { exists (rs ++ hs), []. rewrite !map_app, Ir. cbn [map] in *. rewrite Ih. rewrite <- app_assoc. auto. }
    split; auto. split. { intros E. destruct (Icl E). congruence. }
    split. { intros E. destruct (Ieof E) as (E1 & _). destruct (Icl E1). congruence. }
    auto.
  - (* close *)
    rewrite H, H0 in *. cbn [olist app] in *. unfold pinv, tokens. cbn [pcap ptodo phand preuse pready pclosed pcur pwait peof pgot pcont olist app].
    split; auto. split; auto. split; [exists rs, hs; auto|]. split; auto. split; auto. split; auto.
    intros E. destruct (Ieof E) as (E1 & E2). auto.
  - (* call *)
    unfold pinv, tokens. cbn [pcap ptodo phand preuse pready pclosed pcur pwait peof pgot pcont olist app]. rewrite H in *.
    split; auto. split; auto. split; [exists rs, hs; auto|]. split; [discriminate|]. split; auto. split; [discriminate|]. auto.
  - (* back *)
    rewrite H in *. cbn [olist] in *.
    unfold pinv, tokens. cbn [pcap ptodo phand preuse pready pclosed pcur pwait peof pgot pcont olist app].
    split; auto. split. { rewrite <- It. rewrite app_nil_r. rewrite <- !app_assoc. apply Permutation_app_head. 
      rewrite Permutation_app_comm. now rewrite <- app_assoc. }
    split; [exists rs, hs; auto|]. split; [discriminate|]. split; auto.
    assert (NE : peof p = false). { destruct (peof p) eqn:E; auto. destruct (Ieof eq_refl) as (_ & _ & _ & ?). discriminate. }
    split; [congruence|]. auto.
  - (* recv *)
    rewrite H0 in *. destruct (Iw H) as (Cn & En). rewrite Cn in *. cbn [olist map] in *. destruct rs as [|s' rs]; [discriminate|].
    cbn [map] in Ir. injection Ir as E1 E2. rewrite E1 in H1. injection H1 as ->.
    unfold pinv, tokens. cbn [pcap ptodo phand preuse pready pclosed pcur pwait peof pgot pcont olist app].
    split; auto. split.
    { rewrite <- It. rewrite app_nil_r. apply Permutation_app_head. rewrite app_assoc. rewrite Permutation_app_comm. reflexivity. }
    split. { exists rs, hs. rewrite <- app_assoc. auto. }
    split. { intros k' E. injection E as <-. eauto. }
    split; auto. split; [discriminate|]. discriminate.
  - (* eof *)
    rewrite H0 in *. destruct (Iw H) as (Cn & En). rewrite Cn in *.
    unfold pinv, tokens. cbn [pcap ptodo phand preuse pready pclosed pcur pwait peof pgot pcont olist app].
    split; auto. split; auto. split; [exists rs, hs; auto|]. split; [discriminate|]. split; [intros _; auto|].
    split; [auto|discriminate].
Qed.
Lemma pinv_steps n l p : psteps (pipe0 n l) p -> pinv n l p.
Proof.
  intros H. remember (pipe0 n l) as p0 eqn:E. induction H as [p|p q r H IH S]; subst.
  - apply pinv0.
  - eapply pinv_step; eauto.
Qed.
Lemma progress n l p : (1 <= n)%nat -> pinv n l p -> peof p = false -> exists q, pstep p q.
Proof.
  intros Hn (Ic & It & (rs & hs & Il & Ir & Ih) & Icur & Icl & Ieof & Iw) NE.
  assert (Len : length (tokens p) = n) by (rewrite It; apply seq_length).
  unfold tokens in *. rewrite !app_length in Len.
  destruct (pwait p) eqn:W.
  - destruct (Iw eq_refl) as (Cn & _). rewrite Cn in *. cbn [olist length] in *.
    destruct (pready p) as [|k r] eqn:R.
    + destruct (phand p) as [k|] eqn:Hd.
      * eexists. eapply p_send; eauto. rewrite R, Ic. cbn. lia.
      * destruct (ptodo p) as [|s t] eqn:Td.
        -- destruct (pclosed p) eqn:Cl.
           ++ eexists. eapply p_eof; eauto.
           ++ eexists. eapply p_close; eauto.
        -- destruct (preuse p) as [|k u] eqn:U; [cbn in Len; lia|]. eexists. eapply p_take; eauto.
    + destruct rs as [|s rs]; [discriminate|]. cbn in Ir. injection Ir as E1 E2. eexists. eapply p_recv; eauto.
  - destruct (pcur p) as [k|] eqn:Cu.
    + eexists. eapply p_back; eauto. cbn [olist length] in Len. lia.
    + eexists. eapply p_call; eauto.
Qed.

Inductive pstepsn : nat -> pipe -> pipe -> Prop :=
| psn_nil p : pstepsn 0 p p
| psn_cons n p q r : pstepsn n p q -> pstep q r -> pstepsn (S n) p r.
Lemma psteps_n p q : psteps p q <-> exists n, pstepsn n p q.
Proof.
  split.
  - intros H; induction H as [p|p q r H (n & IH) St]; [exists 0%nat; constructor|exists (S n); econstructor; eauto].
  - intros (n & H). induction H; econstructor; eauto.
Qed.
Definition pmeasure (p : pipe) : nat :=
  10 * length (ptodo p) + 9 * length (olist (phand p)) + 8 * length (pready p) + 2 * length (olist (pcur p)) +
  (if pwait p then 1 else 0) + (if pclosed p then 0 else 1) +
  (match pcur p with Some _ => 0 | None => if pwait p then 0 else if peof p then 0 else 2 end).
Lemma pmeasure_step n l p q : pinv n l p -> pstep p q -> (pmeasure q < pmeasure p)%nat.
Proof.
  intros (_ & _ & _ & _ & _ & Ieof & Iw) S. unfold pmeasure.
  destruct S; cbn [ptodo phand pready pcur pwait pclosed peof olist].
  - rewrite H, H0. cbn [olist length]. lia.
  - rewrite H, app_length. cbn [olist length]. lia.
  - rewrite H, H0, H1. cbn [olist length]. lia.
  - rewrite H, H0, H1. cbn [olist length]. lia.
  - rewrite H, H0. cbn [olist length]. lia.
  - destruct (Iw H) as (-> & ->). rewrite H, H0. cbn [olist length]. lia.
  - destruct (Iw H) as (-> & ->). rewrite H, H0, H1. cbn [olist length]. lia.
Qed.
Lemma pipe_bound n l k p : pstepsn k (pipe0 n l) p -> (k + pmeasure p <= 10 * length l + 3)%nat /\ pinv n l p.
Proof.
  intros H. remember (pipe0 n l) as p0 eqn:E. induction H as [p|k p q r H IH S]; subst.
  - split; [|apply pinv0]. unfold pmeasure, pipe0. cbn. lia.
  - destruct (IH eq_refl) as (B & I). pose proof (pmeasure_step _ _ _ _ I S). split; [lia|]. eapply pinv_step; eauto.
Qed.

(* ---- direct access ---- *)
(* cuts of the entries in baskets, none empty *)
Definition dinv (T : list Z) (k : nat) (c : dctx) : Prop :=
  did c = Z.of_nat k /\ nth_error T k = Some (dfirst c) /\ nth_error T (S k) = Some (dnext c) /\ (length (dheld c) <= S k)%nat /\
  (forall h, nth_error (dheld c) k = Some h -> h = Z.of_nat k).
Definition incr (T : list Z) : Prop := forall i j a b, (i < j)%nat -> nth_error T i = Some a -> nth_error T j = Some b -> a < b.

Lemma find_loop_spec entry : forall l i k hi, (forall j, (j < k)%nat -> exists v, nth_error l j = Some v /\ (v <= entry \/ v <= 0)) ->
  nth_error l k = Some hi -> entry < hi -> 0 < hi -> find_loop i l entry = Some (i + Z.of_nat k - 1).
Proof.
  induction l as [|v l IH]; intros i k hi Lo Hi L1 L2.
  - destruct k; discriminate.
  - destruct k as [|k].
    + cbn in Hi. injection Hi as ->. cbn [find_loop]. 
      destruct (Z.ltb_spec entry hi); [|lia]. destruct (Z.ltb_spec 0 hi); [|lia]. cbn. f_equal. lia.
    + cbn [find_loop]. destruct (Lo 0%nat ltac:(lia)) as (v' & E & D). cbn in E. injection E as <-.
      replace ((entry <? v) && (0 <? v)) with false.
      * rewrite (IH (i + 1) k hi); auto; [f_equal; lia|]. intros j Hj. apply (Lo (S j)). lia.
      * symmetry. apply andb_false_iff. rewrite !Z.ltb_ge. tauto.
Qed.

(* the state after some reads of entries up to [e], in increasing order *)
Definition reached (T : list Z) (e : Z) (c : dctx) : Prop :=
  (c = {| did := 0; dfirst := -1; dnext := -1; dheld := [] |} /\ 0 <= e) \/
  (exists k, dinv T k c /\ dfirst c <= e).
Lemma loadBasket_forward T c e0 e k a b : incr T -> nth_error T 0 = Some 0 -> nth_error T k = Some a -> nth_error T (S k) = Some b ->
  a <= e -> e < b -> e0 <= e -> reached T e0 c ->
  exists c', loadBasket T c e = Ok (Some (Z.of_nat k, e - a, c')) /\ reached T e c'.
Proof.
  intros Inc T0 Ta Tb H1 H2 H3 R.
  assert (A0 : 0 <= a). { destruct k; [rewrite T0 in Ta; injection Ta as <-; lia|]. pose proof (Inc 0%nat (S k) 0 a ltac:(lia) T0 Ta). lia. }
  assert (IB : findBasketIndex T c e = Z.of_nat k).
  { unfold findBasketIndex. destruct (Z.eqb_spec e 0) as [->|Ne].
    - destruct k; auto. pose proof (Inc 0%nat (S k) 0 a ltac:(lia) T0 Ta). lia.
    - assert (Key : forall s, (s <= k)%nat -> find_loop (Z.of_nat s) (skipn s T) e = Some (Z.of_nat k)).
      { intros s Hs. rewrite (find_loop_spec e (skipn s T) (Z.of_nat s) (S k - s) b); auto.
        - f_equal. lia.
        - intros j Hj. destruct (nth_error T (s + j)) as [v|] eqn:N.
          + exists v. rewrite nth_error_skipn. split; auto. left. destruct (Nat.eq_dec (s + j) k) as [E|NE].
            * subst k. rewrite N in Ta. injection Ta as ->. lia.
            * pose proof (Inc (s + j)%nat k v a ltac:(lia) N Ta). lia.
          + apply nth_error_None in N. assert (k < length T)%nat by (apply nth_error_Some; congruence). lia.
        - rewrite nth_error_skipn. replace (s + (S k - s))%nat with (S k) by lia. exact Tb.
        - lia. }
      destruct R as [(-> & R)|(k0 & (D1 & D2 & D3 & D4 & D5) & R)].
      + cbn [dfirst dnext did]. destruct (Z.leb_spec (-1) e); [|lia]. destruct (Z.ltb_spec e (-1)); [lia|]. cbn [andb].
        change (Z.to_nat 0) with 0%nat. change 0 with (Z.of_nat 0) at 1. rewrite (Key 0%nat ltac:(lia)). reflexivity.
      + assert (Lk : (k0 <= k)%nat).
        { destruct (Nat.le_gt_cases k0 k) as [|G]; auto. exfalso.
          destruct (Nat.eq_dec (S k) k0) as [<-|NE].
          - rewrite Tb in D2. injection D2 as E. lia.
          - pose proof (Inc (S k) k0 b (dfirst c) ltac:(lia) Tb D2). lia. }
        destruct (Z.leb_spec (dfirst c) e); [|lia]. cbn [andb]. destruct (Z.ltb_spec e (dnext c)) as [L|L].
        * rewrite D1. f_equal. destruct (Nat.eq_dec k0 k); auto. exfalso.
          destruct (Nat.eq_dec (S k0) k) as [<-|NE].
          -- rewrite D3 in Ta. injection Ta as E. lia.
          -- pose proof (Inc (S k0) k (dnext c) a ltac:(lia) D3 Ta). lia.
        * rewrite D1, Nat2Z.id, (Key k0 Lk). reflexivity. }
  unfold loadBasket. rewrite IB. destruct (Z.ltb_spec (Z.of_nat k) 0); [lia|]. rewrite Nat2Z.id, Ta, Tb.
  (* which held basket is used *)
  assert (Hh : (length (dheld c) <= S k)%nat /\ forall h, nth_error (dheld c) k = Some h -> h = Z.of_nat k).
  { destruct R as [(-> & R)|(k0 & (D1 & D2 & D3 & D4 & D5) & R)].
    - cbn. split; [lia|]. intros h E. destruct k; discriminate.
    - assert (Lk : (k0 <= k)%nat).
      { destruct (Nat.le_gt_cases k0 k) as [|G]; auto. exfalso.
        destruct (Nat.eq_dec (S k) k0) as [<-|NE].
        - rewrite Tb in D2. injection D2 as E. lia.
        - pose proof (Inc (S k) k0 b (dfirst c) ltac:(lia) Tb D2). lia. }
      split; [lia|]. intros h E. destruct (Nat.eq_dec k0 k) as [->|]; auto.
      assert (k < length (dheld c))%nat by (apply nth_error_Some; congruence). lia. }
  destruct Hh as (Hl & Hh).
  destruct (nth_error (dheld c) k) as [h|] eqn:Eh.
  - rewrite (Hh h eq_refl). eexists. split; [reflexivity|]. right. exists k. split; [|cbn; lia].
    unfold dinv. cbn. repeat (split; auto). intros h' E. apply Hh. congruence.
  - eexists. split; [reflexivity|]. right. exists k. split; [|cbn; lia].
    apply nth_error_None in Eh. unfold dinv. cbn. rewrite app_length. cbn [length]. repeat (split; auto); [lia|].
    intros h' E. assert (k < length (dheld c ++ [Z.of_nat k]))%nat by (apply nth_error_Some; congruence).
    rewrite app_length in *. cbn [length] in *. rewrite nth_error_app2 in E by lia. replace (k - length (dheld c))%nat with 0%nat in E by lia.
    cbn in E. congruence.
Qed.

(* ---- no panic when every entry has at most entryOffsetLen bytes (or all entries have a fixed size) ---- *)
Definition room (eoff : Z) (b : wbk) : Prop :=
  eoff = 0 /\ boffs b = [] \/ 0 < eoff /\ bnevsize b = zlen (boffs b) /\ eoff <= bnevsize b /\ Z.of_nat (bnev b) <= bnevsize b.
Lemma new_bk_room kl eoff big : 0 <= eoff -> room eoff (new_bk kl eoff big).
Proof.
  intros H. unfold room, new_bk. cbn. destruct (Z.eq_dec eoff 0) as [->|]; [left; auto|]. right. unfold zlen. rewrite repeat_length. lia.
Qed.
Lemma update_room eoff b : room eoff b -> exists b', update b = Ok b' /\ room eoff b'.
Proof.
  intros [(E & O)|(P & N & M & L)]; unfold update.
  - rewrite O. eexists. split; [reflexivity|]. left. auto.
  - destruct (boffs b) as [|o ol] eqn:Eb. { change (zlen (@nil Z)) with 0 in N. lia. }
    rewrite <- Eb in *. cbv zeta.
    set (offs := if bnevsize b <=? Z.of_nat (bnev b) + 1 then _ else _).
    set (nv := if bnevsize b <=? Z.of_nat (bnev b) + 1 then Z.max 10 (2 * bnevsize b) else bnevsize b) in *.
    assert (Lo : zlen offs = nv /\ Z.of_nat (bnev b) < nv /\ eoff <= nv).
    { unfold offs, nv. destruct (Z.leb_spec (bnevsize b) (Z.of_nat (bnev b) + 1)).
      - rewrite zlen_app. unfold zlen at 2. rewrite repeat_length. rewrite <- N. lia.
      - split; [congruence|]. lia. }
    destruct Lo as (L1 & L2 & L3).
    destruct (upd_nth_ok offs (bnev b) (fun _ => wrapS 32 (bkl b + zlen (bdata b))) ltac:(unfold zlen in L1; lia)) as (offs' & U & Le).
    rewrite U. cbn [rbind]. eexists. split; [reflexivity|]. right. cbn. unfold zlen in *. rewrite Le. lia.
Qed.
Lemma writeFile_room kl big eoff b : room eoff b -> exists f, writeFile kl big b = Ok f.
Proof.
  intros R. unfold writeFile.
  set (offs := if negb (bbig b) && big then _ else _).
  assert (Lo : length offs = length (boffs b)) by (unfold offs; destruct (negb (bbig b) && big); auto; apply map_length).
  destruct (boffs b) as [|o ol] eqn:Eb; [cbn [rbind]; eauto|].
  destruct R as [(E & O)|(P & N & M & L)]; [congruence|]. rewrite Eb in N.
  destruct (Nat.leb_spec (bnev b) (length offs)) as [|G]; [cbn [rbind]; eauto|]. unfold zlen in N. lia.
Qed.
Lemma writes_room eoff : 0 <= eoff -> forall h b bk, weoff b = eoff -> wcur b = Some bk -> room eoff bk ->
  (0 < eoff -> Forall (fun x => zlen (fst x) <= eoff) h) ->
  exists b' bk', writes h b = Ok b' /\ wcur b' = Some bk' /\ room eoff bk'.
Proof.
  intros He. induction h as [|[e [big big']] h IH]; intros b bk We Wc R F; [cbn; eauto|].
  cbn [writes]. unfold write. rewrite Wc.
  destruct (update_room eoff bk R) as (bk1 & U & R1). rewrite U. cbn [rbind].
  set (bk2 := {| bkl := bkl bk1; bbig := bbig bk1; bnevsize := if bnevsize bk1 <? zlen e then zlen e else bnevsize bk1;
                 bnev := bnev bk1; boffs := boffs bk1; bdata := bdata bk1 ++ e |}).
  assert (R2 : room eoff bk2).
  { destruct R1 as [(E & O)|(P & N & M & L)]; [left; auto|]. right. unfold bk2. cbn [bnevsize boffs bnev].
    specialize (F P). inversion F as [|? ? F0 F1]; subst. cbn [fst] in F0.
    destruct (Z.ltb_spec (bnevsize bk1) (zlen e)); lia. }
  assert (F' : 0 < eoff -> Forall (fun x => zlen (fst x) <= eoff) h) by (intros P; specialize (F P); inversion F; auto).
  destruct (wbsz b <=? zlen (bdata bk2) + zlen e).
  - unfold flush. cbn [wcur wkl weoff wbsz wentries wtable wfile].
    destruct (writeFile_room (wkl b) big eoff bk2 R2) as (f & Wf). rewrite Wf. cbn [rbind createNewBasket wcur wkl weoff wbsz wentries wtable wfile].
    eapply (IH _ (new_bk (wkl b) (weoff b) big')); cbn [wcur weoff createNewBasket]; auto. rewrite We. now apply new_bk_room.
  - cbn [rbind]. eapply (IH _ bk2); cbn [wcur weoff]; auto.
Qed.
Lemma write_all_total kl eoff bsz big0 h bigz : 0 <= eoff -> (0 < eoff -> Forall (fun x => zlen (fst x) <= eoff) h) ->
  exists b, write_all kl eoff bsz big0 h bigz = Ok b.
Proof.
  intros He F. unfold write_all.
  destruct (writes_room eoff He h (new_branch kl eoff bsz big0) (new_bk kl eoff big0)) as (b & bk & W & Wc & R); auto.
  { now apply new_bk_room. }
  rewrite W. cbn [rbind]. unfold flush. rewrite Wc. destruct (writeFile_room (wkl b) bigz eoff bk R) as (f & ->). cbn [rbind]. eauto.
Qed.
