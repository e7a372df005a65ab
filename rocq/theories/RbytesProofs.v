(* Lemmas about the buffers: what operations emit, what readers consume. *)
From Coq Require Import ZArith List Bool Arith Lia.
From Verif Require Import GoLib Bytes Bits RbytesModel.
Import ListNotations.
Local Open Scope Z_scope.
Local Arguments be : simpl never.
Local Arguments unbe : simpl never.

(* ------------------------------------------------------------------ writer *)
Definition wf (w : wbuf) : Prop := (wc w <= length (wp w))%nat /\ werr w = false.
Definition slack (w : wbuf) : nat := length (wp w) - wc w.

Section W.
Variable junk : nat -> Z.

(* from w to w', exactly bs was appended and the spare room changed to s *)
Definition step (w w' : wbuf) (bs : list Z) : Prop :=
  wf w' /\ wBytes w' = wBytes w ++ bs /\ woff w' = woff w.
Lemma step_trans a b c x y : step a b x -> step b c y -> step a c (x ++ y).
Proof. intros (A1 & A2 & A3) (B1 & B2 & B3). split; auto. split; [|congruence]. rewrite B2, A2, app_assoc; auto. Qed.

Lemma step_wc w w' bs : wf w -> step w w' bs -> wc w' = (wc w + length bs)%nat.
Proof.
  intros [H1 _] ([H2 _] & E & _). apply (f_equal (@length Z)) in E.
  unfold wBytes in E. rewrite app_length, !firstn_length in E. lia.
Qed.

Lemma grow_step n w : wf w -> step w (grow junk n w) [] /\ slack (grow junk n w) = (slack w + n)%nat.
Proof.
  intros [H1 H2]. unfold step, wf, wBytes, slack, grow; cbn.
  rewrite app_length, map_length, seq_length, app_nil_r. repeat split; auto; try lia.
  rewrite firstn_app. replace (wc w - length (wp w))%nat with O by lia. cbn. apply app_nil_r.
Qed.
Lemma grow_wf n w : wf w -> wf (grow junk n w).
Proof. intros H; apply grow_step; auto. Qed.

Lemma poke_ok p c bs : (c + length bs <= length p)%nat ->
  poke p c bs = Ok (firstn c p ++ bs ++ skipn (c + length bs) p).
Proof. intros. unfold poke. replace (c + length bs <=? length p)%nat with true; auto. symmetry. apply Nat.leb_le; auto. Qed.
Lemma poke_length p c bs p' : poke p c bs = Ok p' -> length p' = length p.
Proof.
  unfold poke. destruct (Nat.leb_spec (c + length bs) (length p)); intros E; inversion E.
  rewrite !app_length, firstn_length, skipn_length. lia.
Qed.

Lemma put_bytes_step bs w : wf w -> (length bs <= slack w)%nat ->
  exists w', put_bytes bs w = Ok w' /\ step w w' bs /\ slack w' = (slack w - length bs)%nat.
Proof.
  intros [H1 H2] H. unfold slack in H. unfold put_bytes. rewrite poke_ok by lia. cbn [rbind].
  eexists. split; [reflexivity|].
  set (p' := firstn (wc w) (wp w) ++ bs ++ skipn (wc w + length bs) (wp w)).
  assert (L : length p' = length (wp w)).
  { unfold p'. rewrite !app_length, firstn_length, skipn_length. lia. }
  unfold step, wf, wBytes, slack; cbn [wp wc werr woff w_set_c w_set_p]. rewrite L.
  repeat split; auto; try lia.
  unfold p'. rewrite app_assoc. apply firstn_app_exact.
  rewrite app_length, firstn_length. lia.
Qed.

Lemma put_all_step bss : forall w, wf w -> (length (concat bss) <= slack w)%nat ->
  exists w', put_all bss w = Ok w' /\ step w w' (concat bss) /\ slack w' = (slack w - length (concat bss))%nat.
Proof.
  induction bss as [|b t IH]; intros w H L.
  - exists w. cbn. split; auto. split; [|lia]. repeat split; auto; try apply H. rewrite app_nil_r; auto.
  - cbn [concat] in *. rewrite app_length in L |- *. cbn [put_all].
    destruct (put_bytes_step b w H) as (w1 & E1 & S1 & K1); [lia|]. rewrite E1. cbn [rbind].
    destruct (IH w1) as (w2 & E2 & S2 & K2); [apply S1|lia|]. exists w2. split; auto.
    split; [eapply step_trans; eauto|lia].
Qed.

Lemma write_step v w : wf w -> (0 < slack w + length v)%nat ->
  exists w', write junk v w = Ok w' /\ step w w' v /\ slack w' = slack w.
Proof.
  intros H Hs. unfold write. rewrite (proj2 H).
  destruct (grow_step (length v) w H) as [S1 K1].
  set (w1 := grow junk (length v) w) in *. cbn zeta.
  destruct (Nat.leb_spec (length (wp w1)) (wc w1)); [unfold slack in *; lia|].
  replace (Nat.min (length v) (length (wp w1) - wc w1)) with (length v) by (unfold slack in *; lia).
  rewrite firstn_all. destruct (put_bytes_step v w1) as (w2 & E & S2 & K2); [apply S1|lia|].
  exists w2. split; auto. split; [|lia]. change v with ([] ++ v). eapply step_trans; eauto.
Qed.
Lemma write_empty_fails w : wf w -> slack w = O ->
  exists w', write junk [] w = Ok w' /\ werr w' = true.
Proof.
  intros H Hs. unfold write. rewrite (proj2 H). cbn zeta.
  destruct (grow_step 0 w H) as [S1 K1]. cbn [length].
  destruct (Nat.leb_spec (length (wp (grow junk 0 w))) (wc (grow junk 0 w))).
  - eexists. split; [reflexivity|]. auto.
  - exfalso. unfold slack in K1, Hs. lia.
Qed.

(* [emits op bs]: from every good state op succeeds and appends exactly bs *)
Definition emits (op : wbuf -> res wbuf) (bs : list Z) : Prop :=
  forall w, wf w -> exists w', op w = Ok w' /\ step w w' bs /\ (slack w <= slack w')%nat.

Lemma emits_seq op1 op2 a b : emits op1 a -> emits op2 b ->
  emits (fun w => do w' <- op1 w; op2 w') (a ++ b).
Proof.
  intros H1 H2 w Hw. destruct (H1 w Hw) as (w1 & E1 & S1 & K1). rewrite E1. cbn [rbind].
  destruct (H2 w1 (proj1 S1)) as (w2 & E2 & S2 & K2). exists w2. split; auto.
  split; [eapply step_trans; eauto|lia].
Qed.

Lemma grow_put_emits n bs : length bs = n -> emits (fun w => put_bytes bs (grow junk n w)) bs.
Proof.
  intros L w Hw. destruct (grow_step n w Hw) as [S1 K1].
  destruct (put_bytes_step bs (grow junk n w)) as (w2 & E & S2 & K2); [apply S1|lia|].
  exists w2. split; auto. split; [|lia]. change bs with ([] ++ bs). eapply step_trans; eauto.
Qed.
Lemma grow_put_all_emits n bss : length (concat bss) = n -> emits (fun w => put_all bss (grow junk n w)) (concat bss).
Proof.
  intros L w Hw. destruct (grow_step n w Hw) as [S1 K1].
  destruct (put_all_step bss (grow junk n w)) as (w2 & E & S2 & K2); [apply S1|lia|].
  exists w2. split; auto. split; [|lia]. change (concat bss) with ([] ++ concat bss). eapply step_trans; eauto.
Qed.
Lemma emits_guard op bs : emits op bs -> emits (fun w => if werr w then Ok w else op w) bs.
Proof. intros H w Hw. rewrite (proj2 Hw). apply H; auto. Qed.
Lemma emits_ext op op' bs : (forall w, wf w -> op w = op' w) -> emits op bs -> emits op' bs.
Proof. intros E H w Hw. rewrite <- E by auto. apply H; auto. Qed.

Lemma WriteInt_emits width v : emits (WriteInt junk width v) (be width v).
Proof. apply emits_guard, grow_put_emits, be_length. Qed.
Lemma WriteBool_emits (b : bool) : emits (WriteBool junk b) [if b then 1 else 0].
Proof. unfold WriteBool. apply (grow_put_emits 1 [if b then 1 else 0]). reflexivity. Qed.

(* the bytes of a length-prefixed string *)
Definition enc_string (v : list Z) : list Z :=
  (if (length v <? 255)%nat then be 1 (Z.of_nat (length v)) else be 1 255 ++ be 4 (Z.of_nat (length v))) ++ v.

Lemma WriteString_emits v : emits (WriteString junk v) (enc_string v).
Proof.
  apply emits_guard. intros w Hw. unfold enc_string.
  destruct (Nat.ltb_spec (length v) 255).
  - destruct (grow_step (1 + length v) w Hw) as [S1 K1].
    destruct (put_bytes_step (be 1 (Z.of_nat (length v))) (grow junk (1 + length v) w)) as (w2 & E & S2 & K2);
      [apply S1|rewrite be_length; lia|]. rewrite E. cbn [rbind]. rewrite be_length in K2.
    assert (S12 := step_trans _ _ _ _ _ S1 S2). cbn [app] in S12.
    destruct (Nat.ltb_spec 0 (length v)).
    + destruct (write_step v w2) as (w3 & E3 & S3 & K3); [apply S2|lia|].
      exists w3. split; auto. split; [eapply step_trans; eauto|lia].
    + exists w2. split; auto. destruct v; [|cbn in *; lia]. split; [|lia]. rewrite app_nil_r. auto.
  - destruct (grow_step (1 + 4 + length v) w Hw) as [S1 K1].
    destruct (put_bytes_step (be 1 255) (grow junk (1 + 4 + length v) w)) as (w2 & E & S2 & K2);
      [apply S1|rewrite be_length; lia|]. rewrite E. cbn [rbind]. rewrite be_length in K2.
    destruct (put_bytes_step (be 4 (Z.of_nat (length v))) w2) as (w3 & E3 & S3 & K3);
      [apply S2|rewrite be_length; lia|]. rewrite E3. cbn [rbind]. rewrite be_length in K3.
    destruct (write_step v w3) as (w4 & E4 & S4 & K4); [apply S3|lia|].
    exists w4. split; auto. split; [|lia].
    eapply step_trans; eauto. eapply step_trans; eauto.
    change (be 1 255) with ([] ++ be 1 255). eapply step_trans; eauto.
Qed.

Lemma WriteCString_emits v : emits (WriteCString junk v) (until_nul v ++ [0]).
Proof.
  apply emits_guard. intros w Hw. destruct (write_step (until_nul v ++ [0]) w Hw) as (w' & E & S & K).
  - rewrite app_length. cbn. lia.
  - exists w'. split; auto. split; auto. lia.
Qed.

Lemma concat_be_length width vs : length (concat (map (be width) vs)) = (length vs * width)%nat.
Proof. induction vs; cbn [map concat length]; auto. rewrite app_length, be_length, IHvs. lia. Qed.
Lemma concat_single_length {A} (g : A -> Z) vs : length (concat (map (fun b => [g b]) vs)) = length vs.
Proof. induction vs; cbn; auto. Qed.

Lemma WriteArrayInt_emits width vs : emits (WriteArrayInt junk width vs) (concat (map (be width) vs)).
Proof. apply emits_guard, grow_put_all_emits, concat_be_length. Qed.
Lemma WriteArrayBool_emits vs : emits (WriteArrayBool junk vs) (concat (map (fun b : bool => [if b then 1 else 0]) vs)).
Proof. apply emits_guard, grow_put_all_emits, concat_single_length. Qed.
Lemma WriteStaticArrayI32_emits vs :
  emits (WriteStaticArrayI32 junk vs) (be 4 (Z.of_nat (length vs)) ++ concat (map (be 4) vs)).
Proof.
  apply emits_guard.
  apply (grow_put_all_emits (4 + 4 * length vs) (be 4 (Z.of_nat (length vs)) :: map (be 4) vs)).
  cbn [concat]. rewrite app_length, be_length, concat_be_length. lia.
Qed.
Lemma concat_singles (l : list Z) : concat (map (fun b => [b]) l) = l.
Proof. induction l; cbn; congruence. Qed.
Lemma WriteStdBitset_emits vs : emits (WriteStdBitset junk vs) (rev vs).
Proof.
  rewrite <- (concat_singles (rev vs)). apply grow_put_all_emits.
  rewrite concat_singles, rev_length. auto.
Qed.

(* arrays of strings *)
Lemma strlen_enc v : length (enc_string v) = strlen v.
Proof.
  unfold enc_string, strlen. destruct (_ <? _)%nat; rewrite ?app_length, ?be_length; cbn; lia.
Qed.
Lemma writeString_step v w : wf w -> (strlen v - length v <= slack w)%nat ->
  (0 < slack w - (strlen v - length v) + length v)%nat ->
  exists w', writeString junk v w = Ok w' /\ step w w' (enc_string v) /\
     slack w' = (slack w - (strlen v - length v))%nat.
Proof.
  intros Hw H1 H2. unfold writeString, enc_string. rewrite (proj2 Hw). unfold strlen in *.
  destruct (Nat.ltb_spec (length v) 255).
  - destruct (put_bytes_step (be 1 (Z.of_nat (length v))) w Hw) as (w2 & E & S2 & K2);
      [rewrite be_length; lia|]. rewrite E. cbn [rbind]. rewrite be_length in K2.
    destruct (write_step v w2) as (w3 & E3 & S3 & K3); [apply S2|lia|].
    exists w3. split; auto. split; [eapply step_trans; eauto|lia].
  - destruct (put_bytes_step (be 1 255) w Hw) as (w2 & E & S2 & K2);
      [rewrite be_length; lia|]. rewrite E. cbn [rbind]. rewrite be_length in K2.
    destruct (put_bytes_step (be 4 (Z.of_nat (length v))) w2) as (w3 & E3 & S3 & K3);
      [apply S2|rewrite be_length; lia|]. rewrite E3. cbn [rbind]. rewrite be_length in K3.
    destruct (write_step v w3) as (w4 & E4 & S4 & K4); [apply S3|lia|].
    exists w4. split; auto. split; [|lia].
    eapply step_trans; eauto. eapply step_trans; eauto.
Qed.
Definition hdrs (vs : list (list Z)) : nat := list_sum (map (fun v => strlen v - length v)%nat vs).
Lemma strlen_ge v : (length v < strlen v)%nat.
Proof. unfold strlen. destruct (_ <? _)%nat; lia. Qed.
Lemma writeStrings_step vs : forall w, wf w -> (vs = [] \/ hdrs vs < slack w)%nat ->
  exists w', writeStrings junk vs w = Ok w' /\ step w w' (concat (map enc_string vs)) /\
     slack w' = (slack w - hdrs vs)%nat.
Proof.
  induction vs as [|v vs IH]; intros w Hw H2.
  - exists w. cbn. split; auto. split; [|unfold hdrs in *; cbn in *; lia].
    repeat split; auto; try apply Hw. rewrite app_nil_r; auto.
  - cbn [writeStrings map concat].
    assert (HE : hdrs (v :: vs) = (strlen v - length v + hdrs vs)%nat) by reflexivity.
    rewrite HE in *. destruct H2 as [H2|H2]; [discriminate|].
    assert (Hv := strlen_ge v).
    destruct (writeString_step v w) as (w1 & E1 & S1 & K1); auto; try lia.
    rewrite E1. cbn [rbind].
    destruct (IH w1) as (w2 & E2 & S2 & K2); [apply S1|right; lia|].
    exists w2. split; auto. split; [eapply step_trans; eauto|lia].
Qed.
(* all strings empty and no spare room: the last (empty) write reports io.EOF *)
Lemma writeStrings_empty_fails vs : forall w, vs <> [] -> wf w -> Forall (fun v => v = []) vs ->
  slack w = length vs ->
  exists w', writeStrings junk vs w = Ok w' /\ werr w' = true.
Proof.
  induction vs as [|v vs IH]; intros w Hne Hw HF HS; [congruence|].
  inversion HF; subst. cbn [writeStrings]. cbn [length] in HS.
  destruct vs as [|u vs].
  - unfold writeString. rewrite (proj2 Hw). cbn [length Nat.ltb Nat.leb].
    destruct (put_bytes_step (be 1 (Z.of_nat 0)) w Hw) as (w2 & E & S2 & K2); [rewrite be_length; cbn in *; lia|].
    rewrite E. cbn [rbind]. rewrite be_length in K2. cbn [length] in HS.
    destruct (write_empty_fails w2) as (w3 & E3 & F3); [apply S2|lia|]. rewrite E3. cbn. eauto.
  - destruct (writeString_step [] w Hw) as (w1 & E1 & S1 & K1).
    + cbn in *. lia. + cbn in *; lia.
    + rewrite E1. cbn [rbind]. apply IH; auto; [discriminate|apply S1|cbn in *; lia].
Qed.
Lemma sum_strlen vs : list_sum (map strlen vs) = (hdrs vs + list_sum (map (@length Z) vs))%nat.
Proof.
  induction vs as [|v vs IH]; auto. change (hdrs (v :: vs)) with (strlen v - length v + hdrs vs)%nat.
  cbn [map list_sum fold_right]. fold (list_sum (map strlen vs)). fold (list_sum (map (@length Z) vs)).
  rewrite IH. pose proof (strlen_ge v). lia.
Qed.
Lemma list_sum_pos vs : Exists (fun v : list Z => v <> []) vs -> (0 < list_sum (map (@length Z) vs))%nat.
Proof. induction 1; cbn. - destruct x; [congruence|cbn; lia]. - unfold list_sum in IHExists. lia. Qed.

Lemma grow_writeStrings_emits vs : vs = [] \/ Exists (fun v => v <> []) vs ->
  emits (fun w => writeStrings junk vs (grow junk (list_sum (map strlen vs)) w)) (concat (map enc_string vs)).
Proof.
  intros H w Hw. destruct (grow_step (list_sum (map strlen vs)) w Hw) as [S1 K1].
  rewrite sum_strlen in K1 at 2.
  destruct (writeStrings_step vs (grow junk (list_sum (map strlen vs)) w)) as (w2 & E & S2 & K2); [apply S1| |].
  - destruct H as [H|H]; [left; auto|right]. apply list_sum_pos in H. lia.
  - exists w2. split; auto. split; [|lia]. change (concat (map enc_string vs)) with ([] ++ concat (map enc_string vs)).
    eapply step_trans; eauto.
Qed.
Lemma WriteArrayString_emits vs : vs = [] \/ Exists (fun v => v <> []) vs ->
  emits (WriteArrayString junk vs) (concat (map enc_string vs)).
Proof. intros. apply emits_guard. apply grow_writeStrings_emits; auto. Qed.
End W.

Lemma firstn_app_le {A} (a b : list A) n : (n <= length a)%nat -> firstn n (a ++ b) = firstn n a.
Proof. intros. rewrite firstn_app. replace (n - length a)%nat with O by lia. cbn. apply app_nil_r. Qed.

Section WH.
Variable junk : nat -> Z.

Lemma SetHeader_spec hdr w A x B : wf w -> wBytes w = A ++ x ++ B -> length x = 4%nat ->
  hPos hdr = Z.of_nat (length A) + woff w ->
  exists w', SetHeader junk hdr w = Ok (Z.of_nat (length B) + 4, w') /\ wf w' /\
    wBytes w' = A ++ be 4 (wrapU 32 (Z.lor (Z.of_nat (length B)) kByteCountMask)) ++ B /\
    woff w' = woff w /\ (slack w <= slack w')%nat.
Proof.
  intros Hw HB Hx Hp. unfold SetHeader. rewrite (proj2 Hw). cbn zeta.
  assert (Hc : wc w = (length A + 4 + length B)%nat).
  { apply (f_equal (@length Z)) in HB. unfold wBytes in HB. destruct Hw.
    rewrite !app_length, firstn_length in HB. lia. }
  unfold wPos. rewrite Hp, Hc.
  replace (Z.of_nat (length A + 4 + length B) + woff w - (Z.of_nat (length A) + woff w) - 4) with (Z.of_nat (length B)) by lia.
  set (v := be 4 _). unfold WriteInt. cbn [wsetPos werr w_set_c]. rewrite (proj2 Hw).
  unfold put_bytes, grow. cbn [wp wc w_set_p w_set_c wsetPos].
  replace (Z.to_nat (Z.of_nat (length A) + woff w - woff w)) with (length A) by lia.
  set (p := wp w ++ map junk (seq (length (wp w)) 4)).
  assert (Lp : length p = (length (wp w) + 4)%nat) by (unfold p; rewrite app_length, map_length, seq_length; lia).
  assert (Lv : length v = 4%nat) by apply be_length.
  destruct Hw as [Hw1 Hw2].
  rewrite poke_ok by (fold v; rewrite Lv; lia). fold v. rewrite Lv. cbn [rbind fst snd].
  eexists. split; [reflexivity|].
  set (p' := firstn (length A) p ++ v ++ skipn (length A + 4) p).
  assert (Lp' : length p' = length p).
  { unfold p'. rewrite !app_length, firstn_length, skipn_length, Lv. lia. }
  unfold wf, wBytes, slack. cbn [wp wc werr woff w_set_p w_set_c wsetPos].
  replace (Z.to_nat (Z.of_nat (length A + 4 + length B) + woff w - woff w)) with (length A + 4 + length B)%nat by lia.
  repeat split; auto; try lia.
  assert (P : firstn (wc w) p = A ++ x ++ B).
  { unfold p. rewrite firstn_app_le by lia. exact HB. }
  assert (P' : p = (A ++ x ++ B) ++ skipn (wc w) p) by (rewrite <- P; symmetry; apply firstn_skipn).
  unfold p'.
  assert (F1 : firstn (length A) p = A).
  { rewrite P', <- app_assoc. apply firstn_app_exact; auto. }
  assert (F2 : skipn (length A + 4) p = B ++ skipn (wc w) p).
  { rewrite P' at 1. rewrite <- !app_assoc, app_assoc. apply skipn_app_exact. rewrite app_length; lia. }
  rewrite F1, F2, !app_assoc. apply firstn_app_exact. rewrite !app_length. lia.
Qed.

Lemma kmask_lor n : 0 <= n < 2 ^ 30 -> wrapU 32 (Z.lor n kByteCountMask) = n + 2 ^ 30.
Proof.
  intros H. unfold kByteCountMask. rewrite lor_pow2 by lia. apply wrapU_id. unfold inU. lia.
Qed.

(* a header, a payload, the byte count *)
Definition framed (name : list Z) (vers : Z) (op : wbuf -> res wbuf) (w : wbuf) : res (Z * wbuf) :=
  do hw <- WriteHeader junk name vers w;
  do w1 <- op (snd hw);
  SetHeader junk (fst hw) w1.

Lemma framed_emits name vers op bs w : emits op bs -> Z.of_nat (length bs) + 2 < 2 ^ 30 -> wf w ->
  exists w', framed name vers op w = Ok (Z.of_nat (length bs) + 6, w') /\
    step w w' (be 4 (Z.of_nat (length bs) + 2 + 2 ^ 30) ++ be 2 vers ++ bs) /\ (slack w <= slack w')%nat.
Proof.
  intros Hop Hlen Hw. unfold framed, WriteHeader. rewrite (proj2 Hw).
  destruct (grow_step junk 6 w Hw) as [S0 K0].
  destruct (put_bytes_step (be 4 0) (grow junk 6 w)) as (w1 & E1 & S1 & K1); [apply S0|rewrite be_length; lia|].
  rewrite E1. cbn [rbind]. rewrite be_length in K1.
  destruct (put_bytes_step (be 2 vers) w1) as (w2 & E2 & S2 & K2); [apply S1|rewrite be_length; lia|].
  rewrite E2. cbn [rbind fst snd]. rewrite be_length in K2.
  destruct (Hop w2 (proj1 S2)) as (w3 & E3 & S3 & K3). rewrite E3. cbn [rbind].
  assert (S := step_trans _ _ _ _ _ (step_trans _ _ _ _ _ (step_trans _ _ _ _ _ S0 S1) S2) S3).
  cbn [app] in S. destruct S as (F1 & F2 & F3).
  destruct (SetHeader_spec {| hName := name; hVers := vers; hPos := wPos w; hLen := 0; hMW := false |}
              w3 (wBytes w) (be 4 0) (be 2 vers ++ bs)) as (w4 & E4 & W4 & B4 & O4 & K4); auto.
  - cbn [hPos]. unfold wPos. rewrite F3. unfold wBytes. rewrite firstn_length. destruct Hw. lia.
  - rewrite E4. exists w4. rewrite app_length, be_length in *. split; [f_equal; f_equal; lia|].
    split; [|lia]. split; auto. split; [|congruence]. rewrite B4. do 2 f_equal.
    rewrite kmask_lor by lia. f_equal. lia.
Qed.

Definition enc_framed (vers : Z) (bs : list Z) : list Z :=
  be 4 (Z.of_nat (length bs) + 2 + 2 ^ 30) ++ be 2 vers ++ bs.

Lemma framed_snd_emits name vers op bs : emits op bs -> Z.of_nat (length bs) + 2 < 2 ^ 30 ->
  emits (fun w => do nw <- framed name vers op w; Ok (snd nw)) (enc_framed vers bs).
Proof.
  intros H1 H2 w Hw. destruct (framed_emits name vers op bs w H1 H2 Hw) as (w' & E & S & K).
  rewrite E. cbn. eauto.
Qed.

Lemma WriteStdString_emits v : Z.of_nat (length (enc_string v)) + 2 < 2 ^ 30 ->
  emits (WriteStdString junk v) (enc_framed StreamerBaseSTL (enc_string v)).
Proof.
  intros H. apply emits_guard.
  eapply emits_ext; [|apply (framed_snd_emits [115;116;114;105;110;103] StreamerBaseSTL _ _ (WriteString_emits junk v) H)].
  intros w Hw. unfold framed. destruct (WriteHeader _ _ _ w) as [hw|]; cbn [rbind]; auto.
  destruct (WriteString junk v (snd hw)) as [w1|]; cbn [rbind]; auto.
Qed.

Lemma WriteStdVectorInt_emits name width vs :
  let bs := be 4 (Z.of_nat (length vs)) ++ concat (map (be width) vs) in
  Z.of_nat (length bs) + 2 < 2 ^ 30 ->
  emits (WriteStdVectorInt junk name width vs) (enc_framed StreamerBaseSTL bs).
Proof.
  intros bs H. apply emits_guard.
  assert (E := emits_seq _ _ _ _ (WriteInt_emits junk 4 (Z.of_nat (length vs)))
                (grow_put_all_emits junk (length vs * width) (map (be width) vs) (concat_be_length width vs))).
  eapply emits_ext; [|apply (framed_snd_emits name StreamerBaseSTL _ bs E H)].
  intros w Hw. unfold framed.
  destruct (WriteHeader _ _ _ w) as [hw|] eqn:EH; cbn [rbind]; auto.
  assert (Hh : wf (snd hw)).
  { unfold WriteHeader in EH. rewrite (proj2 Hw) in EH.
    destruct (grow_step junk 6 w Hw) as [S0 K0].
    destruct (put_bytes_step (be 4 0) (grow junk 6 w)) as (w1 & E1 & S1 & K1); [apply S0|rewrite be_length; lia|].
    rewrite E1 in EH. cbn [rbind] in EH. rewrite be_length in K1.
    destruct (put_bytes_step (be 2 StreamerBaseSTL) w1) as (w2 & E2 & S2 & K2); [apply S1|rewrite be_length; lia|].
    rewrite E2 in EH. cbn [rbind] in EH. injection EH as <-. apply S2. }
  destruct (E (snd hw) Hh) as (w2 & E2 & S2 & _). rewrite E2. cbn [rbind].
  destruct (WriteInt junk 4 (Z.of_nat (length vs)) (snd hw)) as [w1|]; cbn [rbind] in *; [|discriminate].
  rewrite E2. cbn [rbind]. rewrite (proj2 (proj1 S2)). auto.
Qed.
Lemma WriteStdVectorStrs_emits name vs :
  let bs := be 4 (Z.of_nat (length vs)) ++ concat (map enc_string vs) in
  vs = [] \/ Exists (fun v => v <> []) vs ->
  Z.of_nat (length bs) + 2 < 2 ^ 30 ->
  emits (WriteStdVectorStrs junk name vs) (enc_framed StreamerBaseSTL bs).
Proof.
  intros bs Hv H. apply emits_guard.
  assert (E := emits_seq _ _ _ _ (WriteInt_emits junk 4 (Z.of_nat (length vs)))
                (grow_writeStrings_emits junk vs Hv)).
  eapply emits_ext; [|apply (framed_snd_emits name StreamerBaseSTL _ bs E H)].
  intros w Hw. unfold framed.
  destruct (WriteHeader _ _ _ w) as [hw|] eqn:EH; cbn [rbind]; auto.
  destruct (WriteInt junk 4 (Z.of_nat (length vs)) (snd hw)) as [w1|]; cbn [rbind] in *; auto.
  destruct (writeStrings _ _ _); cbn [rbind]; auto.
Qed.
End WH.

(* ------------------------------------------------------------------ reader *)
(* the reader has no error and the unread bytes start with bs *)
Definition at_ (r : rbuf) (bs : list Z) : Prop :=
  rerr r = false /\ (rc r <= length (rp r))%nat /\ exists suf, skipn (rc r) (rp r) = bs ++ suf.
Definition adv (r : rbuf) (n : nat) : rbuf := r_set_c r (rc r + n)%nat.
Definition reads {A} (f : rd A) (bs : list Z) (v : A) : Prop :=
  forall r, at_ r bs -> f r = Ok (v, adv r (length bs)).

Lemma adv_adv r a b : adv (adv r a) b = adv r (a + b).
Proof. unfold adv, r_set_c; cbn. f_equal. lia. Qed.
Lemma adv_0 r : adv r 0 = r.
Proof. destruct r; unfold adv, r_set_c; cbn. f_equal. lia. Qed.
Lemma at_room r bs : at_ r bs -> (rc r + length bs <= length (rp r))%nat.
Proof.
  intros (_ & L & suf & E). apply (f_equal (@length Z)) in E. rewrite skipn_length, app_length in E. lia.
Qed.
Lemma at_app r a b : at_ r (a ++ b) -> at_ r a /\ at_ (adv r (length a)) b.
Proof.
  intros H. pose proof (at_room _ _ H) as R. destruct H as (E & L & suf & S). rewrite app_length in R. split.
  - split; auto. split; auto. exists (b ++ suf). rewrite S, app_assoc. auto.
  - split; auto. unfold adv, r_set_c; cbn. split; [lia|]. exists suf.
    rewrite <- skipn_skipn, S, <- app_assoc. apply skipn_app_exact; auto.
Qed.
Lemma take_reads n bs : length bs = n -> reads (take n) bs bs.
Proof.
  intros L r H. pose proof (at_room _ _ H). unfold take. rewrite <- L.
  replace (rc r + length bs <=? length (rp r))%nat with true by (symmetry; apply Nat.leb_le; lia).
  destruct H as (_ & _ & suf & ->). rewrite firstn_app_exact; auto.
Qed.
Lemma reads_ret {A} (v : A) : reads (fun r => Ok (v, r)) [] v.
Proof. intros r _. cbn. rewrite adv_0. auto. Qed.
Lemma reads_bind {A B} (f : rd A) (g : A -> rd B) a b v u :
  reads f a v -> reads (g v) b u -> reads (fun r => do x <- f r; g (fst x) (snd x)) (a ++ b) u.
Proof.
  intros H1 H2 r H. apply at_app in H. destruct H as [Ha Hb].
  rewrite (H1 r Ha). cbn [rbind fst snd]. rewrite (H2 _ Hb), adv_adv, app_length. auto.
Qed.
Lemma reads_map {A B} (f : rd A) (g : A -> B) a v :
  reads f a v -> reads (fun r => do x <- f r; Ok (g (fst x), snd x)) a (g v).
Proof. intros H r Hr. rewrite (H r Hr). auto. Qed.
Lemma reads_guard {A} (f : rd A) (d : A) a v : reads f a v -> reads (fun r => if rerr r then Ok (d, r) else f r) a v.
Proof. intros H r Hr. rewrite (proj1 Hr). apply H; auto. Qed.
Lemma reads_ext {A} (f g : rd A) a v : (forall r, at_ r a -> f r = g r) -> reads f a v -> reads g a v.
Proof. intros E H r Hr. rewrite <- E; auto. Qed.

Lemma ReadUint_reads width v : inU (8 * Z.of_nat width) v -> reads (ReadUint width) (be width v) v.
Proof.
  intros H. apply reads_guard. rewrite <- (unbe_be_U width v H) at 2.
  apply reads_map. apply take_reads, be_length.
Qed.
Lemma ReadSint_reads width v : (0 < width)%nat -> inS (8 * Z.of_nat width) v -> reads (ReadSint width) (be width v) v.
Proof.
  intros Hw H. apply reads_guard. rewrite <- (wrapS_unbe_be_S width v Hw H) at 2.
  apply (reads_map (take width) (fun b => wrapS (8 * Z.of_nat width) (unbe b))). apply take_reads, be_length.
Qed.
Lemma ReadBool_reads (b : bool) : reads ReadBool [if b then 1 else 0] b.
Proof.
  apply reads_guard.
  assert (R := reads_map (take 1) (fun bs => negb (wrapS 8 (unbe bs) =? 0)) [if b then 1 else 0] [if b then 1 else 0] (take_reads 1 [if b then 1 else 0] eq_refl)).
  destruct b; exact R.
Qed.

Lemma read_into_reads bs data0 : length data0 = length bs -> reads (read_into data0) bs bs.
Proof.
  intros L r H. pose proof (at_room _ _ H). unfold read_into. rewrite (proj1 H).
  destruct (Nat.ltb_spec (length (rp r)) (rc r)); [lia|].
  replace (Nat.min (length data0) (length (rp r) - rc r)) with (length bs) by lia.
  destruct H as (_ & _ & suf & ->). rewrite firstn_app_exact by auto.
  rewrite skipn_all2 by lia. rewrite app_nil_r. auto.
Qed.

(* strings not starting with NUL *)
Definition str_ok (v : list Z) : Prop :=
  bytes_ok v /\ Z.of_nat (length v) < 2 ^ 32 /\ hd_error v <> Some 0.
Lemma be1_single b : byte_ok b -> be 1 b = [b].
Proof. intros H. unfold be. cbn. rewrite Z.mod_small by exact H. auto. Qed.

Lemma ReadString_reads v : str_ok v -> reads ReadString (enc_string v) v.
Proof.
  intros (H1 & H2 & H3). apply reads_guard. unfold enc_string.
  assert (LEN : reads (fun r => do ur <- ReadUint 1 r; if fst ur =? 255 then ReadUint 4 (snd ur) else Ok ur)
     (if (length v <? 255)%nat then be 1 (Z.of_nat (length v)) else be 1 255 ++ be 4 (Z.of_nat (length v)))
     (Z.of_nat (length v))).
  { destruct (Nat.ltb_spec (length v) 255).
    - intros r Hr. rewrite (ReadUint_reads 1 (Z.of_nat (length v))) by (auto; unfold inU; lia).
      cbn [rbind fst snd]. destruct (Z.eqb_spec (Z.of_nat (length v)) 255); [lia|]. auto.
    - eapply reads_ext; [|apply (reads_bind (ReadUint 1) (fun u r => if u =? 255 then ReadUint 4 r else Ok (u, r)) (be 1 255) (be 4 (Z.of_nat (length v))) 255)].
      + intros r _. cbn beta. destruct (ReadUint 1 r) as [[u r1]|]; cbn [rbind fst snd]; auto.
      + apply ReadUint_reads. unfold inU; lia.
      + cbn. apply ReadUint_reads. unfold inU; lia. }
  eapply reads_ext; [|eapply (reads_bind _ (fun n r =>
     if n =? 0 then Ok ([], r)
     else do vr <- ReadUint 1 r;
          if fst vr =? 0 then Ok ([], snd vr)
          else do br <- read_into (repeat 0 (Z.to_nat (n - 1))) (snd vr); Ok (fst vr :: fst br, snd br)) _ _ _ _ LEN)].
  - intros r Hr. cbn beta. destruct (ReadUint 1 r) as [ur|]; cbn [rbind]; auto.
  - destruct v as [|b t]; [apply reads_ret|].
    inversion H1; subst. cbn [hd_error length] in *.
    intros r Hr. change (b :: t) with ([b] ++ t) in Hr. destruct (at_app _ _ _ Hr) as [Ra Rb].
    destruct (Z.eqb_spec (Z.of_nat (S (length t))) 0); [lia|].
    rewrite <- (be1_single b) in Ra by auto.
    assert (Hb : inU (8 * Z.of_nat 1) b) by (unfold inU, byte_ok in *; lia).
    rewrite (ReadUint_reads 1 b Hb r Ra). cbn [rbind fst snd]. rewrite be_length.
    destruct (Z.eqb_spec b 0); [congruence|].
    rewrite (read_into_reads t) by (rewrite ?repeat_length; auto; lia).
    cbn [rbind fst snd]. rewrite adv_adv. auto.
Qed.

(* C strings *)
Lemma ReadCString_reads n v : ~ In 0 v -> (length v < n)%nat -> reads (ReadCString n) (v ++ [0]) v.
Proof.
  intros H1 H2. apply reads_guard. revert n H2. induction v as [|b t IH]; intros n H2.
  - destruct n; [cbn in H2; lia|]. cbn [app]. intros r Hr. cbn [ReadCString_loop].
    rewrite (read_into_reads [0]) by auto. reflexivity.
  - destruct n; [cbn in H2; lia|]. cbn [length] in H2.
    assert (Hb : b <> 0) by (intros ->; apply H1; left; auto).
    intros r Hr. cbn [app] in Hr. change (b :: t ++ [0]) with ([b] ++ (t ++ [0])) in Hr.
    destruct (at_app _ _ _ Hr) as [Ra Rb]. cbn [ReadCString_loop].
    rewrite (read_into_reads [b]) by auto. cbn [rbind fst snd].
    destruct (Z.eqb_spec b 0); [congruence|].
    rewrite IH; auto; [|intros X; apply H1; right; auto|lia]. cbn [rbind fst snd]. rewrite adv_adv. auto.
Qed.
Lemma until_nul_id v : ~ In 0 v -> until_nul v = v.
Proof.
  induction v as [|b t IH]; cbn; auto. intros H. destruct (Z.eqb_spec b 0); [subst; tauto|].
  f_equal. apply IH. tauto.
Qed.

(* n elements *)
Lemma read_n_reads {A} (f : rd A) (enc : A -> list Z) vs :
  (forall v, In v vs -> reads f (enc v) v) -> reads (read_n f (length vs)) (concat (map enc vs)) vs.
Proof.
  induction vs as [|v vs IH]; intros H.
  - cbn. apply reads_ret.
  - cbn [length read_n map concat].
    apply (reads_bind f (fun x r => do lr <- read_n f (length vs) r; Ok (x :: fst lr, snd lr)) _ _ v).
    + apply H. left; auto.
    + apply (reads_map _ (cons v)). apply IH. intros; apply H; right; auto.
Qed.
Lemma ReadArray_reads {A} (f : rd A) (enc : A -> list Z) old vs :
  length old = length vs -> (forall v, In v vs -> reads f (enc v) v) ->
  (forall v, In v vs -> (1 <= length (enc v))%nat) ->
  reads (ReadArray f old) (concat (map enc vs)) vs.
Proof.
  intros L H1 H2. apply reads_guard. intros r Hr. rewrite L. pose proof (at_room _ _ Hr) as R.
  assert (Le : (length vs <= length (concat (map enc vs)))%nat).
  { clear - H2. induction vs as [|v vs IH]; cbn [map concat length]; auto. rewrite app_length.
    specialize (H2 v (or_introl eq_refl)) as X. assert (length vs <= length (concat (map enc vs)))%nat; [|lia].
    apply IH. intros; apply H2; right; auto. }
  destruct (Nat.eqb_spec (length vs) 0).
  - cbn [orb]. destruct vs; [|discriminate]. destruct old; [|discriminate]. cbn. rewrite adv_0; auto.
  - cbn [orb]. unfold rLen. destruct (Z.ltb_spec (Z.of_nat (length (rp r)) - Z.of_nat (rc r)) (Z.of_nat (length vs))); [lia|].
    apply read_n_reads; auto.
Qed.
Lemma ReadStaticArrayI32_reads vs : Z.of_nat (length vs) < 2 ^ 31 -> Forall (inS 32) vs ->
  reads ReadStaticArrayI32 (be 4 (Z.of_nat (length vs)) ++ concat (map (be 4) vs)) vs.
Proof.
  intros L HF. apply reads_guard. intros r Hr. destruct (at_app _ _ _ Hr) as [Ra Rb].
  assert (Hn : inS (8 * Z.of_nat 4) (Z.of_nat (length vs))) by (unfold inS; cbn; lia).
  rewrite (ReadSint_reads 4 (Z.of_nat (length vs)) ltac:(lia) Hn r Ra). cbn [rbind fst snd].
  pose proof (at_room _ _ Rb) as R. rewrite concat_be_length in R.
  destruct (Z.leb_spec (Z.of_nat (length vs)) 0).
  - destruct vs; [|cbn [length] in *; lia]. cbn [orb]. rewrite !app_length, be_length. reflexivity.
  - unfold rLen. match goal with |- context [?a <? Z.of_nat (length vs)] => destruct (Z.ltb_spec a (Z.of_nat (length vs))) end; [unfold adv, r_set_c in *; cbn in *; lia|].
    cbn [orb]. rewrite Nat2Z.id.
    rewrite (read_n_reads (ReadSint 4) (be 4)); auto.
    + rewrite adv_adv, app_length. auto.
    + intros v Hv. apply ReadSint_reads; [lia|]. rewrite Forall_forall in HF. apply HF; auto.
Qed.
Lemma ReadStdBitset_reads vs : bytes_ok vs -> reads (ReadStdBitset (length vs)) (rev vs) vs.
Proof.
  intros H. rewrite <- (rev_involutive vs) at 3. unfold ReadStdBitset.
  apply (reads_map _ (@rev Z)). rewrite <- rev_length. rewrite <- (concat_singles (rev vs)) at 2.
  apply (read_n_reads _ (fun b => [b])). intros v Hv. apply in_rev in Hv.
  unfold bytes_ok in H. rewrite Forall_forall in H. specialize (H v Hv).
  rewrite <- (be1_single v) by auto.
  assert (E : unbe (be 1 v) = v) by (apply unbe_be_U; unfold inU, byte_ok in *; lia).
  rewrite <- E at 2. apply reads_map. apply take_reads, be_length.
Qed.

Section RH.
Variable sictx : option (list Z -> option (Z * Z)).

(* the header of a framed value, whatever the version *)
Lemma ReadHeader_reads name vers vmax n r :
  0 <= n < 2 ^ 30 -> 0 < vers < 2 ^ 14 -> (vmax < 0 \/ vers <= vmax) ->
  at_ r (be 4 (n + 2 ^ 30) ++ be 2 vers) ->
  ReadHeader sictx name vmax r =
    Ok ({| hName := name; hVers := vers; hPos := rPos r; hLen := n; hMW := false |}, adv r 6).
Proof.
  intros Hn Hv Hm Hr. unfold ReadHeader. rewrite (proj1 Hr). destruct (at_app _ _ _ Hr) as [Ra Rb].
  rewrite (ReadUint_reads 4 (n + 2 ^ 30)) by (auto; unfold inU; cbn; lia). cbn [rbind fst snd].
  unfold kByteCountMask. rewrite land_pow2_nz, testbit_add_pow2 by lia. cbn [negb].
  rewrite (ReadUint_reads 2 vers) by (auto; unfold inU; cbn; lia). cbn [rbind fst snd].
  rewrite ldiff_pow2_add by lia. rewrite !wrapS_id by (unfold inS; cbn; lia).
  unfold StreamedMemberWise. rewrite land_pow2_nz by lia. rewrite (testbit_small vers 14) by lia. cbn [negb].
  destruct (Z.leb_spec vers 0); [lia|]. cbn [rbind fst snd].
  destruct (Z.leb_spec 0 vmax); cbn [andb]; [destruct (Z.ltb_spec vmax vers); [lia|]|];
    rewrite adv_adv, !be_length; reflexivity.
Qed.

Lemma CheckHeader_spec h r : rerr r = false -> 0 < hLen h ->
  rerr (CheckHeader h r) = negb (rPos r =? hPos h + hLen h + 4) /\
  (rPos r = hPos h + hLen h + 4 -> CheckHeader h r = r).
Proof.
  intros E H. unfold CheckHeader. rewrite E. destruct (Z.leb_spec (hLen h) 0); [lia|].
  destruct (Z.eqb_spec (rPos r) (hPos h + hLen h + 4)); cbn; auto. split; auto. congruence.
Qed.

(* reading a framed value: header, payload reader, check *)
Lemma framed_reads {A} name vers vmax (f : rd A) bs v :
  reads f bs v -> Z.of_nat (length bs) + 2 < 2 ^ 30 -> 0 < vers < 2 ^ 14 -> (vmax < 0 \/ vers <= vmax) ->
  reads (fun r => do hr <- ReadHeader sictx name vmax r; do ar <- f (snd hr);
                  Ok (fst ar, CheckHeader (fst hr) (snd ar))) (enc_framed vers bs) v.
Proof.
  intros Hf Hl Hv Hm r Hr. unfold enc_framed in *. rewrite app_assoc in Hr. destruct (at_app _ _ _ Hr) as [Ra Rb].
  rewrite (ReadHeader_reads name vers vmax (Z.of_nat (length bs) + 2) r) by (auto; lia).
  cbn [rbind fst snd]. rewrite app_length, !be_length in Rb. change (4 + 2)%nat with 6%nat in Rb.
  rewrite (Hf _ Rb). cbn [rbind fst snd]. rewrite adv_adv.
  rewrite (proj2 (CheckHeader_spec _ _ (proj1 Hr : rerr (adv r (6 + length bs)) = false) (ltac:(cbn; lia) : 0 < hLen {| hName := name; hVers := vers; hPos := rPos r; hLen := Z.of_nat (length bs) + 2; hMW := false |}))).
  - rewrite !app_length, !be_length. do 3 f_equal.
  - unfold rPos, adv, r_set_c; cbn [rc roff hPos hLen]. lia.
Qed.

Lemma ReadStdString_reads v : str_ok v -> Z.of_nat (length (enc_string v)) + 2 < 2 ^ 30 ->
  reads (ReadStdString sictx) (enc_framed StreamerBaseSTL (enc_string v)) v.
Proof.
  intros Hv Hl. apply reads_guard.
  eapply reads_ext; [|apply (framed_reads [115;116;114;105;110;103] StreamerBaseSTL StreamerBaseSTL _ _ _ (ReadString_reads v Hv) Hl)]; unfold StreamerBaseSTL; try lia.
  intros r Hr. unfold enc_framed in Hr. rewrite app_assoc in Hr. destruct (at_app _ _ _ Hr) as [Ra Rb].
  cbn beta. unfold StreamerBaseSTL. rewrite (ReadHeader_reads _ 10 10 (Z.of_nat (length (enc_string v)) + 2) r) by (auto; lia). reflexivity.
Qed.
Lemma ReadStdVector_reads {A} name (f : rd A) (enc : A -> list Z) vs :
  let bs := be 4 (Z.of_nat (length vs)) ++ concat (map enc vs) in
  (forall v, In v vs -> reads f (enc v) v) ->
  Z.of_nat (length bs) + 2 < 2 ^ 30 -> Z.of_nat (length vs) < 2 ^ 31 ->
  reads (ReadStdVector sictx name f) (enc_framed StreamerBaseSTL bs) vs.
Proof.
  intros bs Hf Hl Hn. apply reads_guard.
  assert (P : reads (fun r => do nr <- ReadSint 4 r;
      if fst nr <? 0 then Panic else read_n f (Z.to_nat (fst nr)) (snd nr)) bs vs).
  { intros r Hr. destruct (at_app _ _ _ Hr) as [Ra Rb].
    rewrite (ReadSint_reads 4 (Z.of_nat (length vs))) by (auto; unfold inS; cbn; lia). cbn [rbind fst snd].
    destruct (Z.ltb_spec (Z.of_nat (length vs)) 0); [lia|]. rewrite Nat2Z.id.
    rewrite (read_n_reads f enc vs Hf _ Rb), adv_adv. unfold bs. rewrite app_length. auto. }
  eapply reads_ext; [|apply (framed_reads name StreamerBaseSTL StreamerBaseSTL _ _ _ P Hl)]; unfold StreamerBaseSTL; try lia.
  intros r Hr. unfold enc_framed in Hr. rewrite app_assoc in Hr. destruct (at_app _ _ _ Hr) as [Ra Rb].
  cbn beta. unfold StreamerBaseSTL. rewrite (ReadHeader_reads _ 10 10 (Z.of_nat (length bs) + 2) r) by (auto; lia). cbn [rbind fst snd hVers].
  change (10 <? 10) with false. cbn iota.
  destruct (ReadSint 4 (adv r 6)) as [nr|]; cbn [rbind]; auto. destruct (fst nr <? 0); auto.
Qed.
End RH.
