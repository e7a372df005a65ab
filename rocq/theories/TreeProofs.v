(* Proofs about the tree writer and the basket reader. *)
From Coq Require Import ZArith List Lia Bool.
From Verif Require Import Bytes GoLib RbytesModel RbytesProofs TreeModel.
Import ListNotations.
Local Open Scope Z_scope.
Local Arguments be : simpl never.

Notation entry := (list Z) (only parsing).
(* where the entries of a basket start *)
Fixpoint starts (base : Z) (c : list (list Z)) : list Z :=
  match c with [] => [] | e :: c' => base :: starts (base + zlen e) c' end.
Fixpoint maxlen (c : list (list Z)) : Z := match c with [] => 0 | e :: c' => Z.max (zlen e) (maxlen c') end.
Fixpoint table_from (base : Z) (cs : list (list (list Z))) : list Z :=
  match cs with [] => [base] | c :: cs' => base :: table_from (base + zlen c) cs' end.

Lemma starts_length base c : length (starts base c) = length c.
Proof. revert base; induction c; simpl; auto. Qed.
Lemma starts_app base a b : starts base (a ++ b) = starts base a ++ starts (base + zlen (concat a)) b.
Proof.
  revert base; induction a as [|e a IH]; intros base; simpl.
  - rewrite zlen_nil. now rewrite Z.add_0_r.
  - rewrite IH, zlen_app. now rewrite Z.add_assoc.
Qed.
Lemma starts_shift base d c : map (fun v => v + d) (starts base c) = starts (base + d) c.
Proof. revert base; induction c as [|e c IH]; intros base; simpl; auto. rewrite IH. f_equal. f_equal. lia. Qed.
Lemma starts_bound base c v : In v (starts base c) -> base <= v <= base + zlen (concat c).
Proof.
  revert base; induction c as [|e c IH]; intros base H; simpl in *; [contradiction|].
  rewrite zlen_app. pose proof (zlen_nonneg e). pose proof (zlen_nonneg (concat c)).
  destruct H as [<-|H]; [lia|]. apply IH in H. lia.
Qed.
Lemma starts_nth base c i e : nth_error c i = Some e ->
  nth_error (starts base c) i = Some (base + zlen (concat (firstn i c))).
Proof.
  revert base i; induction c as [|x c IH]; intros base [|i] H; simpl in *; try discriminate.
  - f_equal. rewrite zlen_nil. lia.
  - apply IH with (base := base + zlen x) in H. rewrite H. rewrite zlen_app. f_equal. lia.
Qed.
Lemma concat_nth (c : list (list Z)) i e : nth_error c i = Some e ->
  concat c = concat (firstn i c) ++ e ++ concat (skipn (S i) c).
Proof.
  revert i; induction c as [|x c IH]; intros [|i] H; simpl in *; try discriminate.
  - now injection H as ->.
  - rewrite <- app_assoc. f_equal. now apply IH.
Qed.
Lemma maxlen_app a e : maxlen (a ++ [e]) = Z.max (maxlen a) (zlen e).
Proof. induction a as [|x a IH]; simpl; [pose proof (zlen_nonneg e); lia|]. rewrite IH. lia. Qed.
Lemma maxlen_nonneg c : 0 <= maxlen c.
Proof. induction c; simpl; lia. Qed.
Lemma maxlen_const c n : c <> [] -> (forall e, In e c -> zlen e = n) -> maxlen c = n.
Proof.
  intros NE H. induction c as [|e c IH]; [congruence|]. simpl. rewrite (H e) by (simpl; auto).
  destruct c; simpl.
  - assert (zlen e = n) by (apply H; simpl; auto). pose proof (zlen_nonneg e). lia.
  - simpl in IH. rewrite IH; [lia|discriminate|]. intros; apply H; simpl; auto.
Qed.
Lemma table_app base cs c : table_from base (cs ++ [c]) = table_from base cs ++ [base + zlen (concat cs) + zlen c].
Proof.
  revert base; induction cs as [|x cs IH]; intros base; simpl.
  - rewrite zlen_nil. f_equal. f_equal. lia.
  - rewrite IH, zlen_app. do 3 f_equal. lia.
Qed.
Lemma upd_nth_firstn {A} (l : list A) i f l' : upd_nth l i f = Ok l' ->
  (i < length l)%nat /\ length l' = length l /\ exists x, nth_error l i = Some x /\ firstn (S i) l' = firstn i l ++ [f x].
Proof.
  revert i l'; induction l as [|a l IH]; intros [|i] l' H; simpl in H; try discriminate.
  - injection H as <-. simpl. split; [lia|]. split; auto. eauto.
  - destruct (upd_nth l i f) eqn:E; [|discriminate]. injection H as <-. apply IH in E.
    destruct E as (L & L' & x & N & F). cbn [length nth_error]. split; [lia|]. split; [lia|].
    exists x. split; auto. change (firstn (S (S i)) (a :: a0)) with (a :: firstn (S i) a0). rewrite F. reflexivity.
Qed.

Lemma zlen_snoc {A} (l : list A) x : zlen (l ++ [x]) = zlen l + 1.
Proof. unfold zlen. rewrite app_length. cbn [length]. lia. Qed.
Lemma concat_snoc (c : list (list Z)) e : concat (c ++ [e]) = concat c ++ e.
Proof. rewrite concat_app. simpl. now rewrite app_nil_r. Qed.

Lemma last_irrel {A} (l : list A) : forall y d d', last (y :: l) d = last (y :: l) d'.
Proof. induction l as [|a l IH]; intros; auto. apply (IH a d d'). Qed.

Section Rep.
  Variables kl eoff bsz : Z.
  Hypothesis eoff_nonneg : 0 <= eoff.

  Definition bk_rep (c : list (list Z)) (b : wbk) : Prop :=
    bkl b = keylen kl (bbig b) /\ bdata b = concat c /\ bnev b = length c /\
    (eoff = 0 -> boffs b = [] /\ bnevsize b = maxlen c) /\
    (0 < eoff -> boffs b <> [] /\ (length c <= length (boffs b))%nat /\ firstn (length c) (boffs b) = starts (bkl b) c).
  Definition trailer (base : Z) (c : list (list Z)) : list Z :=
    if 0 <? eoff then be 4 (zlen c + 1) ++ concat (map (be 4) (starts base c)) ++ be 4 0 else [].
  Definition f_rep (c : list (list Z)) (f : fbk) : Prop :=
    (fkl f = kl \/ fkl f = kl + 8) /\ flast f = fkl f + zlen (concat c) /\ fnev f = zlen c /\
    fpay f = concat c ++ trailer (fkl f) c /\ (eoff = 0 -> fnevsize f = maxlen c).

  Lemma new_bk_rep big : bk_rep [] (new_bk kl eoff big).
  Proof.
    unfold bk_rep, new_bk. simpl. split; auto. split; auto. split; auto. split.
    - intros ->. auto.
    - intros P. split; [|split; [lia|auto]]. destruct (Z.to_nat eoff) eqn:E; [lia|discriminate].
  Qed.

  (* the sizes Go's 32-bit fields can hold *)
  Definition fits (c : list (list Z)) : Prop := 0 <= kl /\ kl + 8 + zlen (concat c) < 2 ^ 31 /\ zlen c + 1 < 2 ^ 31.

  Lemma update_rep c b b' : fits c -> bk_rep c b -> update b = Ok b' ->
    bkl b' = bkl b /\ bbig b' = bbig b /\ bdata b' = bdata b /\ bnev b' = S (length c) /\
    (eoff = 0 -> boffs b' = [] /\ bnevsize b' = bnevsize b) /\
    (0 < eoff -> boffs b' <> [] /\ (S (length c) <= length (boffs b'))%nat /\
       firstn (S (length c)) (boffs b') = starts (bkl b) c ++ [bkl b + zlen (concat c)]).
  Proof.
    intros F (Bk & Bd & Bn & B0 & B1) H. unfold update in H. rewrite Bd, Bn in H.
    destruct (Z.eq_dec eoff 0) as [E0|E0].
    - destruct (B0 E0) as (Bo & Bs). rewrite Bo in H. injection H as <-. simpl. rewrite Bd, ?Bn.
      repeat (split; auto); lia.
    - destruct (B1 ltac:(lia)) as (Bo & Bl & Bf).
      set (grows := bnevsize b <=? Z.of_nat (length c) + 1) in *.
      set (nv := if grows then Z.max 10 (2 * bnevsize b) else bnevsize b) in *.
      set (offs := if grows then boffs b ++ repeat 0 (Z.to_nat (Z.abs (zlen (boffs b) - nv))) else boffs b) in *.
      assert (H' : (do offs' <- upd_nth offs (length c) (fun _ => wrapS 32 (bkl b + zlen (concat c)));
         Ok {| bkl := bkl b; bbig := bbig b; bnevsize := nv; bnev := S (length c); boffs := offs'; bdata := concat c |}) = Ok b')
        by (destruct (boffs b); [congruence|exact H]). clear H.
      destruct (upd_nth offs (length c) _) as [offs'|] eqn:U; [|discriminate]. cbn [rbind] in H'. injection H' as <-. cbn [bkl bbig bnevsize bnev boffs bdata].
      destruct (upd_nth_firstn _ _ _ _ U) as (L1 & L2 & x & N & Fn).
      split; auto. split; auto. split; auto. split; auto. split; [lia|]. intros _.
      split; [intros X; rewrite X in L2; cbn [length] in L2; lia|]. split; [lia|].
      rewrite Fn. f_equal.
      + unfold offs. destruct grows; auto. rewrite firstn_app. replace (length c - length (boffs b))%nat with 0%nat by lia.
        rewrite firstn_O, app_nil_r. auto.
      + f_equal. apply wrapS_id; [lia|]. destruct F as (F1 & F2 & F3). unfold inS. rewrite Bk. unfold keylen.
        pose proof (zlen_nonneg (concat c)). destruct (bbig b); lia.
  Qed.

  Lemma writeFile_rep c b f big : fits c -> bk_rep c b -> (bbig b = true -> big = true) -> maxlen c < 2 ^ 31 ->
    writeFile kl big b = Ok f -> f_rep c f.
  Proof.
    intros F (Bk & Bd & Bn & B0 & B1) Mono Mx H. unfold writeFile in H. rewrite Bd, Bn in H.
    destruct F as (F1 & F2 & F3). pose proof (zlen_nonneg (concat c)) as Zc. pose proof (zlen_nonneg c) as Zn.
    set (adj := negb (bbig b) && big) in *.
    assert (Ekl : bkl b + (if adj then 8 else 0) = keylen kl big).
    { rewrite Bk. unfold keylen, adj. destruct (bbig b), big; simpl; try lia; discriminate (Mono eq_refl). }
    assert (Kb : kl <= keylen kl big <= kl + 8) by (unfold keylen; destruct big; lia).
    assert (W : wrapS 32 (bkl b + zlen (concat c) + (if adj then 8 else 0)) = keylen kl big + zlen (concat c)).
    { replace (bkl b + zlen (concat c) + (if adj then 8 else 0)) with (keylen kl big + zlen (concat c)) by lia.
      apply wrapS_id; [lia|]. unfold inS. lia. }
    assert (Wn : wrapS 32 (Z.of_nat (length c)) = zlen c) by (apply wrapS_id; [lia|]; unfold inS, zlen in *; lia).
    rewrite W, Wn in H.
    set (offs := if adj then map (fun v => wrapS 32 (v + 8)) (boffs b) else boffs b) in *.
    destruct (Z.eq_dec eoff 0) as [E0|E0].
    - destruct (B0 E0) as (Bo & Bs). rewrite Bo in H. cbn [rbind] in H. injection H as <-. unfold f_rep. simpl.
      split; [unfold keylen; destruct big; lia|]. split; auto. split; auto. split.
      + unfold trailer. destruct (Z.ltb_spec 0 eoff); [lia|auto].
      + intros _. rewrite Bs. apply wrapS_id; [lia|]. pose proof (maxlen_nonneg c). unfold inS. lia.
    - destruct (B1 ltac:(lia)) as (Bo & Bl & Bf).
      assert (Fo : firstn (length c) offs = starts (keylen kl big) c).
      { unfold offs. destruct adj eqn:Ad.
        - rewrite firstn_map, Bf.
          transitivity (map (fun v => v + 8) (starts (bkl b) c)).
          + apply map_ext_in. intros v Hv. apply starts_bound in Hv. apply wrapS_id; [lia|].
            unfold inS. rewrite Bk in Hv. unfold keylen in *. unfold adj in Ad. destruct (bbig b), big; try discriminate. lia.
          + rewrite starts_shift. f_equal. lia.
        - rewrite Bf. f_equal. lia. }
      assert (Lo : length offs = length (boffs b)) by (unfold offs; destruct adj; auto; apply map_length).
      destruct (boffs b) as [|o ol] eqn:Eb; [congruence|].
      destruct (Nat.leb_spec (length c) (length offs)); [|lia]. cbn [rbind] in H.
      rewrite Fo in H. apply (f_equal (fun r => match r with Ok x => x | Panic => f end)) in H. rewrite <- H.
      unfold f_rep. cbn [fkl flast fnev fpay fnevsize].
      split; [unfold keylen; destruct big; lia|]. split; auto. split; auto. split; [|lia].
      unfold trailer. destruct (Z.ltb_spec 0 eoff); [|lia]. reflexivity.
  Qed.

  Definition br_rep (es : list (list Z)) (b : wbr) : Prop :=
    exists cs c bk, es = concat cs ++ c /\ wkl b = kl /\ weoff b = eoff /\ wbsz b = bsz /\ wentries b = zlen es /\
      wtable b = table_from 0 cs /\ Forall2 (fun c f => fits c /\ f_rep c f) cs (wfile b) /\ Forall (fun c => c <> []) cs /\
      wcur b = Some bk /\ bk_rep c bk /\ (c <> [] -> zlen (concat c) < bsz).
  Definition closed_rep (es : list (list Z)) (b : wbr) : Prop :=
    exists cs c, es = concat cs ++ c /\ wentries b = zlen es /\ weoff b = eoff /\
      wtable b = table_from 0 (cs ++ [c]) /\ Forall2 (fun c f => fits c /\ f_rep c f) (cs ++ [c]) (wfile b) /\ Forall (fun c => c <> []) cs /\ wcur b = None.

  Lemma Forall2_snoc {A B} (R : A -> B -> Prop) l l' a b : Forall2 R l l' -> R a b -> Forall2 R (l ++ [a]) (l' ++ [b]).
  Proof. intros H Hab. apply Forall2_app; auto. Qed.
  Lemma zlen_concat_app (cs : list (list (list Z))) c : zlen (concat cs ++ c) = zlen (concat cs) + zlen c.
  Proof. apply zlen_app. Qed.

  (* an entry the 32-bit fields can hold *)
  Definition entry_ok (e : list Z) : Prop := kl + 8 + Z.max 0 bsz + zlen e < 2 ^ 31.

  Lemma entry_le (c : list (list Z)) e : In e c -> zlen e <= zlen (concat c).
  Proof.
    induction c as [|x c IH]; intros H; simpl in *; [contradiction|]. rewrite zlen_app.
    pose proof (zlen_nonneg x). pose proof (zlen_nonneg (concat c)). destruct H as [<-|H]; [lia|]. apply IH in H. lia.
  Qed.
  Lemma maxlen_le c : maxlen c <= zlen (concat c).
  Proof. induction c as [|x c IH]; [unfold zlen; cbn; lia|simpl]. rewrite zlen_app. pose proof (zlen_nonneg x). pose proof (zlen_nonneg (concat c)). lia. Qed.

  (* f.IsBigFile() never goes back to false while the tree is written *)
  Fixpoint mono (b0 : bool) (h : list bool) : Prop :=
    match h with [] => True | b :: h' => (b0 = true -> b = true) /\ mono b h' end.

  Lemma write_rep es b e big big' b' : 0 <= kl -> entry_ok e -> zlen es + 2 < 2 ^ 31 -> br_rep es b ->
    (forall bk, wcur b = Some bk -> bbig bk = true -> big = true) ->
    write e big big' b = Ok b' -> br_rep (es ++ [e]) b' /\
      (forall bk', wcur b' = Some bk' -> bbig bk' = true -> big' = true \/ exists bk, wcur b = Some bk /\ bbig bk = true).
  Proof.
    intros K Eo Ez (cs & c & bk & -> & Wk & We & Wb & Wn & Wt & Wf & Wne & Wc & Br & Bz) Mono H.
    unfold write in H. rewrite Wc in H. unfold entry_ok in Eo. pose proof (zlen_nonneg e) as Ze.
    pose proof (zlen_nonneg (concat cs)) as Zcs. pose proof (zlen_nonneg c) as Zc.
    rewrite zlen_app in Ez.
    assert (Dl : zlen (concat c) <= Z.max 0 bsz).
    { destruct c; [change (zlen (concat (@nil (list Z)))) with 0; lia|]. specialize (Bz ltac:(discriminate)). lia. }
    assert (Fc : fits c) by (unfold fits; lia).
    destruct (update bk) as [bk1|] eqn:U; [|discriminate]. cbn [rbind] in H.
    pose proof (update_rep c bk bk1 Fc Br U) as (U1 & U2 & U3 & U4 & U5 & U6).
    destruct Br as (Bk & Bd & Bn & B0 & B1).
    set (bk2 := {| bkl := bkl bk1; bbig := bbig bk1; bnevsize := if bnevsize bk1 <? zlen e then zlen e else bnevsize bk1;
                   bnev := bnev bk1; boffs := boffs bk1; bdata := bdata bk1 ++ e |}) in *.
    assert (R2 : bk_rep (c ++ [e]) bk2).
    { unfold bk_rep, bk2. cbn [bkl bbig bnevsize bnev boffs bdata]. rewrite U1, U2, U3, U4, Bd.
      split; auto. split; [rewrite concat_app; simpl; now rewrite app_nil_r|]. split; [rewrite app_length; simpl; lia|].
      split.
      - intros E0. destruct (U5 E0) as (Uo & Us). destruct (B0 E0) as (_ & Bs). split; auto.
        rewrite Us, Bs, maxlen_app. destruct (Z.ltb_spec (maxlen c) (zlen e)); lia.
      - intros E1. destruct (U6 E1) as (Uo & Ul & Uf). split; auto. rewrite app_length. cbn [length].
        replace (length c + 1)%nat with (S (length c)) by lia. split; auto.
        rewrite Uf, starts_app. simpl. reflexivity. }
    assert (D2 : zlen (bdata bk2) = zlen (concat c) + zlen e) by (unfold bk2; simpl; now rewrite U3, Bd, zlen_app).
    assert (F2 : fits (c ++ [e])).
    { unfold fits. rewrite concat_snoc, zlen_snoc, zlen_app. lia. }
    destruct (Z.leb_spec (wbsz b) (zlen (bdata bk2) + zlen e)) as [Fl|Fl].
    - unfold flush in H. cbn [wcur wkl weoff wbsz wentries wtable wfile] in H. rewrite Wk in H.
      destruct (writeFile kl big bk2) as [f|] eqn:Wfi; [|discriminate].
      cbn [wkl wcur weoff wbsz wentries wtable wfile rbind] in H. injection H as <-.
      assert (Rf : f_rep (c ++ [e]) f).
      { refine (writeFile_rep _ _ _ big F2 R2 _ _ Wfi).
        - intros X. apply (Mono bk Wc). unfold bk2 in X. cbn [bbig] in X. congruence.
        - pose proof (maxlen_le (c ++ [e])). destruct F2 as (? & ? & ?). lia. }
      split.
      2:{ intros bk' Hb Hbig. cbn [wcur] in Hb. injection Hb as <-. unfold new_bk in Hbig. cbn [bbig] in Hbig. auto. }
      exists (cs ++ [c ++ [e]]), [], (new_bk kl (weoff b) big').
      cbn [wkl weoff wbsz wentries wtable wfile wcur createNewBasket].
      split; [rewrite concat_app; simpl; now rewrite !app_nil_r, app_assoc|].
      split; auto. split; auto. split; auto.
      split; [rewrite Wn, zlen_snoc, zlen_app; lia|].
      split. { rewrite Wt, table_app. do 2 f_equal. rewrite Wn, zlen_snoc, zlen_app. lia. }
      split; [apply Forall2_snoc; auto|].
      split; [apply Forall_app; split; auto; constructor; [|constructor]; destruct c; discriminate|].
      split; auto. split; [rewrite We; apply new_bk_rep|]. congruence.
    - injection H as <-. split.
      2:{ intros bk' Hb Hbig. cbn [wcur] in Hb. injection Hb as <-. right. exists bk. split; auto.
          unfold bk2 in Hbig. cbn [bbig] in Hbig. congruence. }
      exists cs, (c ++ [e]), bk2. cbn [wkl weoff wbsz wentries wtable wfile wcur].
      split; [now rewrite app_assoc|]. split; auto. split; auto. split; auto.
      split; [rewrite Wn, zlen_snoc, zlen_app; lia|].
      split; auto. split; auto. split; auto. split; auto. split; auto.
      intros _. rewrite concat_snoc, zlen_app. lia.
  Qed.

  Definition bigs (h : list (list Z * (bool * bool))) : list bool := concat (map (fun x => [fst (snd x); snd (snd x)]) h).
  Lemma writes_rep h : forall es b b0 b', 0 <= kl -> Forall (fun x => entry_ok (fst x)) h -> zlen es + zlen h + 1 < 2 ^ 31 ->
    br_rep es b -> (forall bk, wcur b = Some bk -> bbig bk = true -> b0 = true) -> mono b0 (bigs h) ->
    writes h b = Ok b' -> br_rep (es ++ map fst h) b' /\
      (forall bk, wcur b' = Some bk -> bbig bk = true -> last (bigs h) b0 = true).
  Proof.
    induction h as [|[e [big big']] h IH]; intros es b b0 b' K Eo Ez R Hb M H.
    - simpl in *. injection H as <-. rewrite app_nil_r. auto.
    - cbn [writes] in H. destruct (write e big big' b) as [b1|] eqn:W; [|discriminate]. cbn [rbind] in H.
      inversion Eo as [|? ? E1 E2]; subst. cbn [fst] in E1. rewrite zlen_cons in Ez. pose proof (zlen_nonneg h).
      simpl in M. destruct M as (M1 & M2 & M3).
      destruct (write_rep es b e big big' b1 K E1 ltac:(lia) R) as (R1 & B1); auto.
      { intros bk Wc Bb. apply M1, (Hb bk); auto. }
      assert (HB : forall bk, wcur b1 = Some bk -> bbig bk = true -> big' = true).
      { intros bk Wc Bb. destruct (B1 bk Wc Bb) as [->|(bk0 & W0 & Bb0)]; auto. apply M2, M1, (Hb bk0); auto. }
      destruct (IH (es ++ [e]) b1 big' b' K E2 ltac:(rewrite zlen_snoc; lia) R1 HB M3 H) as (H1 & H2).
      cbn [map fst]. rewrite <- app_assoc in H1. split; auto.
      intros bk Wc Bb. specialize (H2 bk Wc Bb). unfold bigs in *. cbn [map concat fst snd app].
      set (l := concat (map (fun x => [fst (snd x); snd (snd x)]) h)) in *.
      change (last (big :: big' :: l) b0) with (last (big' :: l) b0). destruct l; auto.
      change (last (big' :: b2 :: l) b0) with (last (b2 :: l) b0). rewrite (last_irrel _ _ b0 big'). exact H2.
  Qed.

  Lemma write_all_rep big0 h bigz b : 0 <= kl -> Forall (fun x => entry_ok (fst x)) h -> zlen h + 1 < 2 ^ 31 ->
    mono big0 (bigs h ++ [bigz]) -> kl + 8 + Z.max 0 bsz < 2 ^ 31 ->
    write_all kl eoff bsz big0 h bigz = Ok b -> closed_rep (map fst h) b.
  Proof.
    intros K Eo Ez M Kb H. unfold write_all in H.
    destruct (writes h (new_branch kl eoff bsz big0)) as [b1|] eqn:W; [|discriminate]. cbn [rbind] in H.
    assert (M1 : mono big0 (bigs h) /\ (last (bigs h) big0 = true -> bigz = true)).
    { clear -M. revert big0 M. generalize (bigs h) as l. induction l as [|x l IH]; intros b0 M; simpl in *.
      - tauto.
      - destruct M as (A & B). apply IH in B. destruct B as (B & D). split; [split; auto|]. intros L. apply D.
        destruct l as [|y l]; auto. rewrite (last_irrel _ _ x b0). exact L. }
    destruct M1 as (M1 & M2).
    assert (R0 : br_rep [] (new_branch kl eoff bsz big0)).
    { exists [], [], (new_bk kl eoff big0). simpl. split; auto. split; auto. split; auto. split; auto. split; auto.
      split; auto. split; auto. split; auto. split; auto. split; [apply new_bk_rep|congruence]. }
    assert (B0 : forall bk, wcur (new_branch kl eoff bsz big0) = Some bk -> bbig bk = true -> big0 = true).
    { intros bk Wc Bg. simpl in Wc. injection Wc as <-. exact Bg. }
    destruct (writes_rep h [] _ big0 b1 K Eo ltac:(change (zlen (@nil (list Z))) with 0; lia) R0 B0 M1 W) as (R & Bb).
    simpl app in R. destruct R as (cs & c & bk & Es & Wk & We & Wb & Wn & Wt & Wf & Wne & Wc & Br & Bz).
    unfold flush in H. rewrite Wc, Wk in H. destruct (writeFile kl bigz bk) as [f|] eqn:Wfi; [|discriminate].
    cbn [rbind] in H. injection H as <-.
    assert (Dl : zlen (concat c) <= Z.max 0 bsz).
    { destruct c; [change (zlen (concat (@nil (list Z)))) with 0; lia|]. specialize (Bz ltac:(discriminate)). lia. }
    assert (Lh : zlen h = zlen (concat cs) + zlen c) by (rewrite <- zlen_app, <- Es; unfold zlen; now rewrite map_length).
    pose proof (zlen_nonneg (concat cs)). pose proof (zlen_nonneg c).
    assert (Fc : fits c) by (unfold fits; lia).
    assert (Rf : f_rep c f).
    { refine (writeFile_rep _ _ _ bigz Fc Br _ _ Wfi).
      - intros X. apply M2, (Bb bk); auto.
      - pose proof (maxlen_le c). lia. }
    exists cs, c. cbn [wkl weoff wbsz wentries wtable wfile wcur].
    split; auto. split; auto. split; auto. split.
    - rewrite Wt, table_app, Wn, Es. do 2 f_equal. rewrite zlen_app. lia.
    - split; auto. apply Forall2_snoc; auto.
  Qed.

  (* ---- reading one basket ---- *)
  Lemma rsetPos_at payload kl' pos pre bs suf e0 c0 : payload = pre ++ bs ++ suf -> pos = kl' + zlen pre -> e0 = false ->
    at_ (rsetPos pos {| rp := payload; rc := c0; rerr := e0; roff := kl' |}) bs.
  Proof.
    intros -> -> ->. unfold rsetPos, at_, r_set_c. cbn [rp rc rerr roff].
    replace (Z.to_nat (kl' + zlen pre - kl')) with (length pre) by (unfold zlen; lia).
    split; auto. split; [rewrite app_length; lia|]. exists suf. now rewrite skipn_app_exact.
  Qed.
  Lemma inflate_rep c f : fits c -> f_rep c f ->
    exists k, inflate eoff f = Ok (Some k) /\ rkl k = fkl f /\ rp (rbf k) = fpay f /\ rerr (rbf k) = false /\ roff (rbf k) = fkl f /\
      (eoff = 0 -> roffs k = [] /\ rnevsize k = maxlen c) /\
      (0 < eoff -> roffs k = starts (fkl f) c ++ [0]).
  Proof.
    intros (F1 & F2 & F3) (Fk & Fl & Fn & Fp & F0). unfold inflate. pose proof (zlen_nonneg c).
    destruct (Z.ltb_spec 0 eoff) as [P|P].
    - unfold trailer in Fp. destruct (Z.ltb_spec 0 eoff); [|lia].
      set (r0 := {| rp := fpay f; rc := 0; rerr := false; roff := fkl f |}).
      set (r1 := rsetPos (flast f) r0).
      set (offs := starts (fkl f) c ++ [0]).
      assert (A1 : at_ r1 (be 4 (zlen c + 1) ++ concat (map (be 4) offs))).
      { unfold r1, r0. apply rsetPos_at with (pre := concat c) (suf := []); auto.
        rewrite Fp. unfold offs. rewrite map_app, concat_app. simpl. now rewrite !app_nil_r. }
      apply at_app in A1. destruct A1 as (A1 & A2).
      rewrite (ReadSint_reads 4 (zlen c + 1)) by (auto; try lia; unfold inS; simpl; lia). cbn [rbind fst snd].
      destruct (Z.ltb_spec (zlen c + 1) 0); [lia|].
      rewrite be_length in *.
      assert (Lo : length offs = Z.to_nat (zlen c + 1)) by (unfold offs, zlen; rewrite app_length, starts_length; simpl; lia).
      rewrite (ReadArray_reads (ReadSint 4) (be 4) _ offs); auto.
      + cbn [rbind snd fst]. assert (E : rerr (adv (adv r1 4) (length (concat (map (be 4) offs)))) = false) by reflexivity.
        rewrite E. eexists. split; [reflexivity|]. cbn [rkl roffs rnevsize rbf]. repeat (split; auto); lia.
      + rewrite repeat_length. auto.
      + intros v Hv. apply (ReadSint_reads 4); [lia|]. unfold offs in Hv.
        apply in_app_or in Hv. unfold inS. destruct Hv as [Hv|[<-|[]]]; [apply starts_bound in Hv|]; simpl; lia.
      + intros v _. rewrite be_length. lia.
    - eexists. split; [reflexivity|]. cbn [rkl roffs rnevsize rbf rp rerr roff]. repeat (split; auto); try lia.
  Qed.

  (* [val] is what the leaf reader finds in an entry *)
  Definition leaf_reads {A} (leafoff : Z) (g : rd A) (e : list Z) (v : A) : Prop :=
    exists pre bs post, e = pre ++ bs ++ post /\ zlen pre = leafoff /\ reads g bs v.
  Lemma load_rep {A} c f i e leafoff (g : rd A) v : fits c -> f_rep c f -> nth_error c i = Some e -> leaf_reads leafoff g e v ->
    (eoff = 0 -> forall e1 e2, In e1 c -> In e2 c -> zlen e1 = zlen e2) ->
    exists k, inflate eoff f = Ok (Some k) /\ loadRLeaf k (Z.of_nat i) leafoff g = Ok v.
  Proof.
    intros F R N (pre & bs & post & -> & Lp & G) Same.
    destruct (inflate_rep c f F R) as (k & I & K1 & K2 & K3 & K4 & K5 & K6). exists k. split; auto.
    assert (Pos : forall off, off = fkl f + zlen (concat (firstn i c)) + leafoff ->
      (do vr <- g (rsetPos off (rbf k)); Ok (fst vr)) = Ok v).
    { intros off ->. rewrite G; [reflexivity|]. destruct (rbf k) as [p c0 e0 o0]. cbn [rp rerr roff] in *. subst.
      destruct R as (_ & _ & _ & Fp & _).
      apply rsetPos_at with (pre := concat (firstn i c) ++ pre) (suf := post ++ concat (skipn (S i) c) ++ trailer (fkl f) c); auto.
      - rewrite Fp, (concat_nth _ _ _ N). now rewrite <- !app_assoc.
      - rewrite zlen_app. lia. }
    unfold loadRLeaf. destruct (Z.eq_dec eoff 0) as [E0|E0].
    - destruct (K5 E0) as (Ro & Rn). rewrite Ro. cbn [rbind]. apply Pos. rewrite Rn, K1.
      assert (Ie : In (pre ++ bs ++ post) c) by (eapply nth_error_In; eauto).
      rewrite (maxlen_const c (zlen (pre ++ bs ++ post))); [|intros X; rewrite X in Ie; contradiction|intros; apply Same; auto].
      assert (Ci : zlen (concat (firstn i c)) = Z.of_nat i * zlen (pre ++ bs ++ post)); [|lia].
      assert (Li : (i < length c)%nat) by (apply nth_error_Some; congruence).
      assert (All : forall x, In x (firstn i c) -> zlen x = zlen (pre ++ bs ++ post)).
      { intros x Hx. apply Same; auto. rewrite <- (firstn_skipn i c). apply in_or_app; auto. }
      assert (Lf : length (firstn i c) = i) by (rewrite firstn_length; lia).
      revert All Lf. generalize (firstn i c) as l. clear. intros l All Lf. rewrite <- Lf. clear Lf.
      induction l as [|x l IH]; [reflexivity|]. cbn [concat]. rewrite zlen_app, (All x) by (simpl; auto). rewrite IH by (intros; apply All; simpl; auto).
      cbn [length]. lia.
    - rewrite K6 by lia. destruct (starts (fkl f) c ++ [0]) as [|o ol] eqn:S0; [destruct (starts (fkl f) c); discriminate|].
      destruct (Z.ltb_spec (Z.of_nat i) 0); [lia|]. rewrite Nat2Z.id.
      assert (Li : (i < length c)%nat) by (apply nth_error_Some; congruence).
      replace (nth_error (o :: ol) i) with (Some (fkl f + zlen (concat (firstn i c)))).
      + cbn [rbind]. apply Pos. reflexivity.
      + rewrite <- S0. rewrite nth_error_app1 by (now rewrite starts_length). symmetry. eapply starts_nth; eauto.
  Qed.
End Rep.

(* ---- spans ---- *)
Definition span_of (cs : list (list (list Z))) (k : nat) : rspan :=
  {| sbeg := zlen (concat (firstn k cs)); send := zlen (concat (firstn (S k) cs)); sid := k |}.
Lemma table_nonempty base cs : exists t, table_from base cs = base :: t.
Proof. destruct cs; simpl; eauto. Qed.
Lemma spans_from_table cs : forall base k, spans_from k (table_from base cs) =
  map (fun j => {| sbeg := base + zlen (concat (firstn j cs)); send := base + zlen (concat (firstn (S j) cs)); sid := k + j |}) (seq 0 (length cs)).
Proof.
  induction cs as [|c cs IH]; intros base k; [reflexivity|].
  cbn [table_from length seq map]. destruct (table_nonempty (base + zlen c) cs) as (t & E). specialize (IH (base + zlen c) (S k)).
  rewrite E in *. cbn [spans_from] in *. cbn [spans_from]. 
  rewrite IH. f_equal.
  - f_equal; [cbn; lia| |lia]. cbn [firstn concat]. rewrite app_nil_r. lia.
  - rewrite <- seq_shift, map_map. apply map_ext. intros j. cbn [firstn concat]. rewrite !zlen_app. f_equal; lia.
Qed.
Lemma spans_of_table cs : cs <> [] -> spans_of (table_from 0 cs) = map (span_of cs) (seq 0 (length cs)).
Proof.
  intros NE. unfold spans_of. rewrite spans_from_table.
  replace (map _ _) with (map (span_of cs) (seq 0 (length cs))).
  - destruct cs; [congruence|]. reflexivity.
  - apply map_ext. intros j. reflexivity.
Qed.

(* the first index, from i on, where P holds; -1 if none *)
Fixpoint first_idx {A} (P : A -> bool) (i : Z) (l : list A) : Z :=
  match l with [] => -1 | x :: l' => if P x then i else first_idx P (i + 1) l' end.
Lemma findBaskets_loop_spec l beg end_ : forall i ibeg iend, 0 <= i ->
  findBaskets_loop i l beg end_ ibeg iend =
  ((if ibeg <? 0 then let j := first_idx (fun v => (sbeg v <=? beg) && (beg <? send v)) i l in if j <? 0 then ibeg else j else ibeg),
   (if iend <? 0 then let j := first_idx (fun v => end_ <=? send v) i l in if j <? 0 then iend else j + 1 else iend)).
Proof.
  induction l as [|v l IH]; intros i ibeg iend Hi.
  - simpl. destruct (ibeg <? 0), (iend <? 0); reflexivity.
  - cbn [findBaskets_loop first_idx]. rewrite IH by lia. cbv zeta. f_equal.
    + destruct (Z.ltb_spec ibeg 0); cbn [andb].
      * destruct ((sbeg v <=? beg) && (beg <? send v)).
        -- destruct (Z.ltb_spec i 0); [lia|reflexivity].
        -- destruct (Z.ltb_spec ibeg 0); [reflexivity|lia].
      * destruct (Z.ltb_spec ibeg 0); [lia|reflexivity].
    + destruct (Z.ltb_spec iend 0); cbn [andb].
      * destruct (end_ <=? send v).
        -- destruct (Z.ltb_spec (i + 1) 0); [lia|]. destruct (Z.ltb_spec i 0); [lia|reflexivity].
        -- destruct (Z.ltb_spec iend 0); [reflexivity|lia].
      * destruct (Z.ltb_spec iend 0); [lia|reflexivity].
Qed.
Lemma first_idx_seq {B} (f : nat -> B) (P : B -> bool) n k : (k < n)%nat -> P (f k) = true -> (forall j, (j < k)%nat -> P (f j) = false) ->
  forall a, first_idx P a (map f (seq 0 n)) = a + Z.of_nat k.
Proof.
  intros L Pk Pj.
  assert (G : forall m s a, (s + m = n)%nat -> (s <= k)%nat -> first_idx P a (map f (seq s m)) = a + Z.of_nat (k - s)).
  { induction m as [|m IH]; intros s a E Ls; [lia|]. cbn [seq map first_idx].
    destruct (Nat.eq_dec s k) as [->|N].
    - rewrite Pk. lia.
    - rewrite Pj by lia. rewrite IH by lia. lia. }
  intros a. rewrite G by lia. f_equal. lia.
Qed.
