(* Lemmas about object graphs: a pure description of the bytes written, the writer follows
   it, and the reader undoes it. *)
From Coq Require Import ZArith List Bool Arith Lia.
From Verif Require Import GoLib Bytes Bits GoStrings RbytesModel RbytesProofs RobjModel.
Import ListNotations.
Local Open Scope Z_scope.
Local Arguments be : simpl never.
Local Arguments unbe : simpl never.

(* ------------------------------------------------------------------ the bytes *)
(* position and references of the writer *)
Record pst := { pp : Z; po : list (nat * Z); pc : list (list Z * Z) }.
Definition enc : Type := pst -> option (list Z * pst).
Definition padv (n : nat) (p : pst) : pst := {| pp := pp p + Z.of_nat n; po := po p; pc := pc p |}.
Definition pbytes (bs : list Z) : enc := fun p => Some (bs, padv (length bs) p).
Definition pseq (f g : enc) : enc := fun p =>
  match f p with
  | Some (a, p1) => match g p1 with Some (b, p2) => Some (a ++ b, p2) | None => None end
  | None => None
  end.
Fixpoint pall (l : list enc) : enc :=
  match l with [] => fun p => Some ([], p) | f :: t => pseq f (pall t) end.
Definition phead (n vers : Z) : list Z := be 4 (wrapU 32 (Z.lor n kByteCountMask)) ++ be 2 vers.
Definition phdr (vers : Z) (body : enc) : enc := fun p =>
  match body (padv 6 p) with
  | Some (bs, p') => Some (phead (Z.of_nat (length bs) + 2) vers ++ bs, p')
  | None => None
  end.

Definition enc_obj (o : tobj) : list Z :=
  be 2 vObject ++
  (if negb (Z.land (tBits o) kIsReferenced =? 0)
   then be 4 (Z.land (tID o) (2 ^ 24 - 1)) ++ be 4 (tBits o) ++ be 2 0
   else be 4 (tID o) ++ be 4 (tBits o)).

Section Pure.
Variable heap : list robj.
Variable any : ptr -> enc.
Definition pobj (o : robj) : enc :=
  match o with
  | ONamed o name title =>
      phdr vNamed (pseq (pbytes (enc_obj o)) (pseq (pbytes (enc_string name)) (pbytes (enc_string title))))
  | OObjString o str => phdr vObjString (pseq (pbytes (enc_obj o)) (pbytes (enc_string str)))
  | OList _ o name els =>
      phdr vList (pseq (pbytes (enc_obj o)) (pseq (pbytes (enc_string name))
        (pseq (pbytes (be 4 (Z.of_nat (length els))))
        (pall (map (fun e => pseq (any (fst e)) (pbytes (enc_string (snd e)))) els)))))
  | OArr o name low els =>
      phdr vObjArray (pseq (pbytes (enc_obj o)) (pseq (pbytes (enc_string name))
        (pseq (pbytes (be 4 (Z.of_nat (length els)))) (pseq (pbytes (be 4 low)) (pall (map any els))))))
  | OMap o name tbl =>
      phdr vMap (pseq (pbytes (enc_obj o)) (pseq (pbytes (enc_string name))
        (pseq (pbytes (be 4 (Z.of_nat (length tbl))))
        (pall (map (fun e => pseq (any (fst e)) (any (snd e))) tbl)))))
  | ORefArr o name lower refs =>
      phdr vRefArray (pseq (pbytes (enc_obj o)) (pseq (pbytes (enc_string name))
        (pseq (pbytes (be 4 (Z.of_nat (length refs)))) (pseq (pbytes (be 4 lower))
        (pseq (pbytes (be 2 0)) (pbytes (concat (map (be 4) refs))))))))
  end.

Definition bcnt_bytes (n : nat) : list Z := be 4 (wrapU 32 (Z.lor (Z.of_nat n) kByteCountMask)).
Definition pref (p : ptr) : enc := fun s =>
  match p with
  | None => Some (be 4 0, padv 4 s)
  | Some i =>
      match lookup Nat.eqb i (po s) with
      | Some ref => Some (bcnt_bytes 4 ++ be 4 (wrapU 32 ref), padv 8 s)
      | None =>
          match nth_error heap i with
          | None => None
          | Some o =>
              let class := class_of o in
              match lookup str_eqb class (pc s) with
              | None =>
                  let tag := be 4 kNewClassTag ++ until_nul class ++ [0] in
                  let s1 := {| pp := pp s + 4 + Z.of_nat (length tag);
                               po := (i, pp s + kMapOffset) :: po s;
                               pc := (class, Z.lor (pp s + 4 + kMapOffset) kClassMask) :: pc s |} in
                  match pobj o s1 with
                  | None => None
                  | Some (bs, s2) => Some (bcnt_bytes (length (tag ++ bs)) ++ tag ++ bs, s2)
                  end
              | Some ref =>
                  let tag := be 4 (Z.lor (wrapU 32 ref) kClassMask) in
                  match pobj o (padv 8 s) with
                  | None => None
                  | Some (bs, s2) =>
                      Some (bcnt_bytes (length (tag ++ bs)) ++ tag ++ bs,
                            {| pp := pp s2; po := (i, pp s + kMapOffset) :: po s2; pc := pc s2 |})
                  end
              end
          end
      end
  end.
End Pure.
Fixpoint pany (heap : list robj) (fuel : nat) : ptr -> enc :=
  match fuel with O => fun _ _ => None | S fuel' => pref heap (pany heap fuel') end.

Lemma some_pair {A B} (a c : A) (b d : B) : Some (a, b) = Some (c, d) -> a = c /\ b = d.
Proof. intros E; inversion E; auto. Qed.

(* every encoder moves the position by the number of bytes *)
Definition moves (f : enc) : Prop := forall p bs p', f p = Some (bs, p') -> pp p' = pp p + Z.of_nat (length bs).
Lemma pbytes_moves bs : moves (pbytes bs).
Proof. intros p b p' E. apply some_pair in E; destruct E as [<- <-]. reflexivity. Qed.
Lemma pseq_moves f g : moves f -> moves g -> moves (pseq f g).
Proof.
  intros F G p bs p' E. unfold pseq in E. destruct (f p) as [[a p1]|] eqn:E1; [|discriminate E].
  destruct (g p1) as [[b p2]|] eqn:E2; [|discriminate E]. apply some_pair in E; destruct E as [<- <-].
  rewrite (G _ _ _ E2), (F _ _ _ E1), app_length. lia.
Qed.
Lemma pall_moves l : Forall moves l -> moves (pall l).
Proof.
  induction 1; cbn [pall]; [|apply pseq_moves; auto].
  intros p bs p' E. apply some_pair in E; destruct E as [<- <-]. cbn. lia.
Qed.
Lemma phdr_moves v f : moves f -> moves (phdr v f).
Proof.
  intros F p bs p' E. unfold phdr in E. destruct (f (padv 6 p)) as [[b p1]|] eqn:E1; [|discriminate E].
  apply some_pair in E; destruct E as [<- <-]. rewrite (F _ _ _ E1). unfold phead. rewrite !app_length, !be_length. cbn. lia.
Qed.
Lemma Forall_map' {A B} (P : B -> Prop) (f : A -> B) l : (forall x, In x l -> P (f x)) -> Forall P (map f l).
Proof. intros H. apply Forall_forall. intros y I. apply in_map_iff in I. destruct I as (x & <- & I). auto. Qed.
Lemma pobj_moves any o : (forall p, moves (any p)) -> moves (pobj any o).
Proof.
  intros A. destruct o; cbn [pobj]; apply phdr_moves;
    repeat (apply pseq_moves; [apply pbytes_moves|]); try apply pbytes_moves;
    apply pall_moves, Forall_map'; intros; auto; apply pseq_moves; auto; apply pbytes_moves.
Qed.
Lemma pref_moves heap any q : (forall p, moves (any p)) -> moves (pref heap any q).
Proof.
  intros A p bs p' E. unfold pref in E. destruct q as [i|].
  2:{ apply some_pair in E; destruct E as [<- <-]. cbn. rewrite be_length. lia. }
  destruct (lookup Nat.eqb i (po p)).
  { apply some_pair in E; destruct E as [<- <-]. unfold bcnt_bytes. rewrite app_length, !be_length. cbn. lia. }
  destruct (nth_error heap i) as [o|]; [|discriminate E]. cbv zeta in E.
  destruct (lookup str_eqb (class_of o) (pc p)).
  - destruct (pobj any o (padv 8 p)) as [[b s2]|] eqn:E2; [|discriminate E].
    apply some_pair in E; destruct E as [<- <-]. cbn [pp]. rewrite (pobj_moves any o A _ _ _ E2).
    unfold bcnt_bytes. rewrite !app_length, !be_length. cbn. lia.
  - match type of E with context [pobj any o ?s1] => destruct (pobj any o s1) as [[b s2]|] eqn:E2 end; [|discriminate E].
    apply some_pair in E; destruct E as [<- <-]. rewrite (pobj_moves any o A _ _ _ E2). cbn [pp].
    unfold bcnt_bytes. rewrite !app_length, !be_length. lia.
Qed.
Lemma pany_moves heap fuel : forall q, moves (pany heap fuel q).
Proof. induction fuel; intros q; cbn [pany]; [intros ? ? ? E; discriminate E|]. apply pref_moves; auto. Qed.

(* ------------------------------------------------------------------ the writer *)
Section W.
Variable junk : nat -> Z.

Definition prel (s : wst) (p : pst) : Prop := wf (wb s) /\ wPos (wb s) = pp p /\ wro s = po p /\ wrc s = pc p.
Definition sim (op : wst -> res wst) (f : enc) : Prop :=
  forall s p bs p', prel s p -> f p = Some (bs, p') ->
  exists s', op s = Ok s' /\ step (wb s) (wb s') bs /\ prel s' p'.

Lemma step_wPos w w' bs : wf w -> step w w' bs -> wPos w' = wPos w + Z.of_nat (length bs).
Proof. intros H S. unfold wPos. rewrite (step_wc _ _ _ H S). destruct S as (_ & _ & ->). lia. Qed.

Lemma sim_bytes op bs : emits op bs -> sim (on_wb op) (pbytes bs).
Proof.
  intros E s p b p' (W & P & R1 & R2) X. apply some_pair in X; destruct X as [<- <-].
  destruct (E (wb s) W) as (w' & E' & S & _). unfold on_wb. rewrite E'. cbn [rbind].
  eexists. split; [reflexivity|]. cbn [wb wro wrc]. split; auto.
  split; [apply S|]. cbn [wb wro wrc]. rewrite (step_wPos _ _ _ W S). cbn. split; [lia|auto].
Qed.
Lemma sim_seq op1 op2 f g : sim op1 f -> sim op2 g -> sim (fun s => do s <- op1 s; op2 s) (pseq f g).
Proof.
  intros H1 H2 s p bs p' R E. unfold pseq in E. destruct (f p) as [[a p1]|] eqn:E1; [|discriminate E].
  destruct (g p1) as [[b p2]|] eqn:E2; [|discriminate E]. apply some_pair in E; destruct E as [<- <-].
  destruct (H1 _ _ _ _ R E1) as (s1 & X1 & S1 & R1). rewrite X1. cbn [rbind].
  destruct (H2 _ _ _ _ R1 E2) as (s2 & X2 & S2 & R2). exists s2. split; auto.
  split; auto. eapply step_trans; eauto.
Qed.
Lemma sim_ext op op' f : (forall s, op s = op' s) -> sim op f -> sim op' f.
Proof. intros E H s p bs p' R X. rewrite <- E. apply (H s p bs p'); auto. Qed.

Lemma mar_obj_emits o : emits (mar_obj junk o) (enc_obj o).
Proof.
  unfold mar_obj, enc_obj. apply emits_seq; [apply WriteInt_emits|].
  destruct (negb _); repeat (apply emits_seq; [apply WriteInt_emits|]); apply WriteInt_emits.
Qed.

Lemma WriteHeader_step name vers w : wf w ->
  exists w2, WriteHeader junk name vers w =
    Ok ({| hName := name; hVers := vers; hPos := wPos w; hLen := 0; hMW := false |}, w2) /\
    step w w2 (be 4 0 ++ be 2 vers).
Proof.
  intros Hw. unfold WriteHeader. rewrite (proj2 Hw).
  destruct (grow_step junk 6 w Hw) as [S0 K0].
  destruct (put_bytes_step (be 4 0) (grow junk 6 w)) as (w1 & E1 & S1 & K1); [apply S0|rewrite be_length; lia|].
  rewrite E1. cbn [rbind]. rewrite be_length in K1.
  destruct (put_bytes_step (be 2 vers) w1) as (w2 & E2 & S2 & K2); [apply S1|rewrite be_length; lia|].
  rewrite E2. cbn [rbind fst snd]. exists w2. split; auto.
  assert (S := step_trans _ _ _ _ _ S0 (step_trans _ _ _ _ _ S1 S2)). exact S.
Qed.
Lemma wBytes_length w : wf w -> length (wBytes w) = wc w.
Proof. intros [H _]. unfold wBytes. rewrite firstn_length. lia. Qed.

Lemma sim_header name vers body f : sim body f -> sim (with_header junk name vers body) (phdr vers f).
Proof.
  intros H s p bs p' (W & P & R1 & R2) E. unfold phdr in E.
  destruct (f (padv 6 p)) as [[b p1]|] eqn:E1; [|discriminate E]. apply some_pair in E; destruct E as [<- <-].
  unfold with_header. rewrite (proj2 W).
  destruct (WriteHeader_step name vers (wb s) W) as (w2 & X & S2). rewrite X. cbn [rbind fst snd].
  edestruct (H {| wb := w2; wro := wro s; wrc := wrc s |} (padv 6 p)) as (s3 & X3 & S3 & R3); [|exact E1|].
  { split; [apply S2|]. cbn [wb wro wrc]. rewrite (step_wPos _ _ _ W S2), app_length, !be_length. cbn.
    split; [lia|auto]. }
  rewrite X3. cbn [rbind]. cbn [wb] in S3.
  assert (S := step_trans _ _ _ _ _ S2 S3). destruct S as (F1 & F2 & F3).
  destruct (SetHeader_spec junk {| hName := name; hVers := vers; hPos := wPos (wb s); hLen := 0; hMW := false |}
              (wb s3) (wBytes (wb s)) (be 4 0) (be 2 vers ++ b)) as (w4 & E4 & W4 & B4 & O4 & K4); [exact F1| |apply be_length| |].
  - rewrite F2, !app_assoc. reflexivity.
  - cbn [hPos]. unfold wPos. rewrite F3, wBytes_length by auto. reflexivity.
  - rewrite E4. cbn [rbind fst snd]. eexists. split; [reflexivity|]. cbn [wb].
    assert (ST : step (wb s) w4 (phead (Z.of_nat (length b) + 2) vers ++ b)).
    { split; auto. split; [|congruence]. rewrite B4. f_equal. unfold phead. rewrite <- app_assoc. do 5 f_equal.
      rewrite app_length, be_length. lia. }
    split; auto. destruct R3 as (Q1 & Q2 & Q3 & Q4). split; [exact W4|]. cbn [wb wro wrc].
    split; [|auto]. rewrite (step_wPos _ _ _ W ST). rewrite <- Q2.
    rewrite (step_wPos _ _ _ (proj1 S2) S3), (step_wPos _ _ _ W S2). unfold phead.
    rewrite !app_length, !be_length. lia.
Qed.

Section Any.
Variable any : ptr -> wst -> res wst.
Variable pa : ptr -> enc.
Hypothesis Hany : forall q, sim (any q) (pa q).

Lemma sim_nil : sim (fun s => Ok s) (fun p => Some ([], p)).
Proof.
  intros s p bs p' R E. apply some_pair in E; destruct E as [<- <-]. exists s. split; auto. split; auto.
  split; [apply R|]. rewrite app_nil_r. auto.
Qed.
Lemma mar_els_sim els :
  sim (mar_els junk any els) (pall (map (fun e => pseq (pa (fst e)) (pbytes (enc_string (snd e)))) els)).
Proof.
  induction els as [|[p opt] t IH]; cbn [mar_els map pall fst snd]; [apply sim_nil|].
  eapply sim_ext; [|apply sim_seq; [apply sim_seq; [apply Hany|apply sim_bytes, WriteString_emits]|apply IH]].
  intros s. cbn beta. destruct (any p s); reflexivity.
Qed.
Lemma mar_ptrs_sim els : sim (mar_ptrs any els) (pall (map pa els)).
Proof.
  induction els as [|p t IH]; cbn [mar_ptrs map pall]; [apply sim_nil|].
  apply sim_seq; auto.
Qed.
Lemma mar_tbl_sim tbl : sim (mar_tbl any tbl) (pall (map (fun e => pseq (pa (fst e)) (pa (snd e))) tbl)).
Proof.
  induction tbl as [|[k v] t IH]; cbn [mar_tbl map pall fst snd]; [apply sim_nil|].
  eapply sim_ext; [|apply sim_seq; [apply sim_seq; [apply (Hany k)|apply (Hany v)]|apply IH]].
  intros s. cbn beta. destruct (any k s); reflexivity.
Qed.

Lemma marshal_sim o : sim (marshal junk any o) (pobj pa o).
Proof.
  destruct o; cbn [marshal pobj]; apply sim_header;
    repeat (apply sim_seq; [apply sim_bytes; first [apply mar_obj_emits|apply WriteString_emits|apply WriteInt_emits]|]);
    first [apply mar_els_sim|apply mar_ptrs_sim|apply mar_tbl_sim
          |apply sim_bytes; first [apply WriteString_emits|apply WriteArrayInt_emits]].
Qed.
End Any.

(* four bytes in the middle are replaced *)
Lemma patch_spec w A x B v pos : wf w -> wBytes w = A ++ x ++ B -> length x = 4%nat -> length v = 4%nat ->
  pos = Z.of_nat (length A) + woff w ->
  exists w', put_bytes v (wsetPos pos w) = Ok w' /\ wf (wsetPos (wPos w) w') /\
    wBytes (wsetPos (wPos w) w') = A ++ v ++ B /\ woff w' = woff w /\ wPos (wsetPos (wPos w) w') = wPos w.
Proof.
  intros [W1 W2] HB Hx Hv ->. assert (Hc : wc w = (length A + 4 + length B)%nat).
  { apply (f_equal (@length Z)) in HB. unfold wBytes in HB. rewrite !app_length, firstn_length in HB. lia. }
  unfold put_bytes. cbn [wp wc wsetPos w_set_c].
  replace (Z.to_nat (Z.of_nat (length A) + woff w - woff w)) with (length A) by lia.
  rewrite poke_ok by lia. cbn [rbind]. eexists. split; [reflexivity|]. rewrite Hv.
  set (p := wp w) in *.
  assert (P' : p = (A ++ x ++ B) ++ skipn (wc w) p) by (rewrite <- HB; symmetry; apply firstn_skipn).
  assert (F1 : firstn (length A) p = A).
  { rewrite P', <- app_assoc. apply firstn_app_exact; auto. }
  assert (F2 : skipn (length A + 4) p = B ++ skipn (wc w) p).
  { rewrite P' at 1. rewrite <- !app_assoc, app_assoc. apply skipn_app_exact. rewrite app_length; lia. }
  rewrite F1, F2. unfold wf, wBytes, wPos. cbn [wp wc werr woff wsetPos w_set_c w_set_p].
  replace (Z.to_nat (Z.of_nat (wc w) + woff w - woff w)) with (wc w) by lia.
  assert (LP : length p = (length A + 4 + length B + length (skipn (wc w) p))%nat).
  { rewrite P' at 1. rewrite !app_length. lia. }
  split; [split; [rewrite !app_length; lia|exact W2]|].
  split; [|split; [reflexivity|reflexivity]].
  rewrite !app_assoc. apply firstn_app_exact. rewrite !app_length. lia.
Qed.

Lemma WriteObjectAny_sim heap fuel : forall q, sim (WriteObjectAny junk heap fuel q) (pany heap fuel q).
Proof.
  induction fuel as [|fuel IH]; intros q s p bs p' R E; [discriminate E|].
  cbn [pany] in E. cbn [WriteObjectAny]. pose proof R as (W & P & R1 & R2). rewrite (proj2 W).
  destruct q as [i|].
  2:{ cbn [pref] in E. pose proof (sim_bytes _ _ (WriteInt_emits junk 4 0)) as H.
      apply (H s p bs p' R). unfold pbytes. rewrite be_length. exact E. }
  cbv zeta.
  destruct (sim_bytes _ _ (WriteInt_emits junk 4 0) s p _ _ R eq_refl) as (s1 & E1 & S1 & R1').
  rewrite E1. cbn [rbind].
  (* what WriteClass does *)
  assert (CL : exists tail s2, WriteClass junk heap (WriteObjectAny junk heap fuel) (wPos (wb s)) i s1 =
             Ok (wrapU 32 (Z.lor (Z.of_nat (length tail)) kByteCountMask), s2) /\
             bs = bcnt_bytes (length tail) ++ tail /\ step (wb s1) (wb s2) tail /\
             wf (wb s2) /\ wPos (wb s2) = pp p' /\ wro s2 = po p' /\ wrc s2 = pc p').
  { pose proof R1' as (W1 & P1 & Q1 & Q2). rewrite be_length in P1. cbn [padv pp po pc] in P1, Q1, Q2.
    unfold WriteClass. rewrite (proj2 W1). cbv zeta. unfold pref in E. rewrite Q1, Q2.
    destruct (lookup Nat.eqb i (po p)) as [ref|] eqn:LO.
    - apply some_pair in E; destruct E as [<- <-].
      destruct (sim_bytes _ _ (WriteInt_emits junk 4 (wrapU 32 ref)) s1 _ _ _ R1' eq_refl) as (s2 & E2 & S2 & R2').
      rewrite E2. cbn [rbind]. exists (be 4 (wrapU 32 ref)), s2.
      split; [rewrite (step_wPos _ _ _ W1 S2), !be_length; do 4 f_equal; lia|].
      split; [reflexivity|]. split; auto. destruct R2' as (A1 & A2 & A3 & A4).
      rewrite A2, A3, A4. cbn [padv pp po pc]. rewrite !be_length. split; auto. split; [lia|auto].
    - destruct (nth_error heap i) as [o|]; [|discriminate E]. cbv zeta in E.
      destruct (lookup str_eqb (class_of o) (pc p)) as [ref|] eqn:LC.
      + destruct (pobj (pany heap fuel) o (padv 8 p)) as [[b q2]|] eqn:EB; [|discriminate E].
        apply some_pair in E; destruct E as [<- <-]. set (tag := Z.lor (wrapU 32 ref) kClassMask) in *.
        destruct (sim_bytes _ _ (WriteInt_emits junk 4 tag) s1 _ _ _ R1' eq_refl) as (s2 & E2 & S2 & R2').
        rewrite E2. cbn [rbind].
        edestruct (marshal_sim (WriteObjectAny junk heap fuel) (pany heap fuel) IH o s2 (padv 8 p)) as (s3 & E3 & S3 & R3); [|exact EB|].
        { destruct R2' as (A1 & A2 & A3 & A4). split; auto. rewrite A2, A3, A4. unfold padv; cbn [pp po pc].
          rewrite !be_length. split; [lia|auto]. }
        rewrite E3. cbn [rbind]. destruct R3 as (A1 & A2 & A3 & A4). rewrite (proj2 A1). cbn [wb].
        exists (be 4 tag ++ b), (set_ro i (wPos (wb s) + kMapOffset) s3). split; [|split; [reflexivity|]].
        { assert (N : wPos (wb s3) - wPos (wb s1) = Z.of_nat (length (be 4 tag ++ b))).
          { rewrite (step_wPos _ _ _ (proj1 S2) S3), (step_wPos _ _ _ W1 S2), app_length. lia. }
          unfold set_ro; cbn [wb]. rewrite N. reflexivity. }
        unfold set_ro; cbn [wb wro wrc]. split; [eapply step_trans; eauto|]. split; auto. split; auto.
        split; auto. rewrite A3. cbn [po]. rewrite P. reflexivity.
      + match type of E with context [pobj _ o ?q1] => set (s1' := q1) in * end.
        destruct (pobj (pany heap fuel) o s1') as [[b q2]|] eqn:EB; [|discriminate E].
        apply some_pair in E; destruct E as [<- <-].
        destruct (sim_bytes _ _ (WriteInt_emits junk 4 kNewClassTag) s1 _ _ _ R1' eq_refl) as (s2 & E2 & S2 & R2').
        rewrite E2. cbn [rbind].
        destruct (sim_bytes _ _ (WriteCString_emits junk (class_of o)) s2 _ _ _ R2' eq_refl) as (s3 & E3 & S3 & R3).
        rewrite E3. cbn [rbind].
        edestruct (marshal_sim (WriteObjectAny junk heap fuel) (pany heap fuel) IH o
                    (set_ro i (wPos (wb s) + kMapOffset)
                       (set_rc (class_of o) (Z.lor (wPos (wb s1) + kMapOffset) kClassMask) s3)) s1') as (s4 & E4 & S4 & R4); [|exact EB|].
        { destruct R3 as (A1 & A2 & A3 & A4). split; [exact A1|]. unfold set_ro, set_rc, s1'; cbn [wb wro wrc pp po pc].
          rewrite A2, A3, A4, P1, P. cbn [padv pp po pc]. rewrite !app_length, !be_length. cbn [length]. split; [lia|auto]. }
        rewrite E4. cbn [rbind]. destruct R4 as (A1 & A2 & A3 & A4). rewrite (proj2 A1).
        cbn [set_ro set_rc wb] in S4. assert (S := step_trans _ _ _ _ _ S2 (step_trans _ _ _ _ _ S3 S4)).
        eexists. exists s4. split; [|split; [reflexivity|]].
        { assert (N : wPos (wb s4) - wPos (wb s1) = Z.of_nat (length ((be 4 kNewClassTag ++ until_nul (class_of o) ++ [0]) ++ b))).
          { rewrite (step_wPos _ _ _ W1 S). rewrite <- !app_assoc. lia. }
          rewrite N. reflexivity. }
        rewrite <- !app_assoc. rewrite <- !app_assoc in S. auto. }
  destruct CL as (tail & s2 & EC & -> & S2 & W2 & P2 & Q1 & Q2).
  rewrite EC. cbn [rbind fst snd]. rewrite (proj2 W2).
  assert (SS := step_trans _ _ _ _ _ S1 S2).
  destruct (patch_spec (wb s2) (wBytes (wb s)) (be 4 0) tail
             (be 4 (wrapU 32 (Z.lor (Z.of_nat (length tail)) kByteCountMask))) (wPos (wb s)))
    as (w' & X1 & X2 & X3 & X4 & X5); auto.
  - apply SS.
  - unfold wPos. rewrite wBytes_length by auto. destruct SS as (_ & _ & ->). reflexivity.
  - rewrite X1. cbn [rbind]. eexists. split; [reflexivity|]. cbn [wb wro wrc].
    split.
    + split; auto. split; [exact X3|]. cbn. rewrite X4. apply SS.
    + split; [exact X2|]. cbn [wb wro wrc]. rewrite X5. auto.
Qed.
End W.

(* the pointers in an object *)
Definition ptrs (o : robj) : list ptr :=
  match o with
  | OList _ _ _ els => map fst els
  | OArr _ _ _ els => els
  | OMap _ _ tbl => flat_map (fun e => [fst e; snd e]) tbl
  | _ => []
  end.

Definition total (f : enc) : Prop := forall p, f p <> None.
Lemma pbytes_total bs : total (pbytes bs).
Proof. intros p E; discriminate E. Qed.
Lemma pseq_total f g : total f -> total g -> total (pseq f g).
Proof.
  intros F G p E. unfold pseq in E. destruct (f p) as [[a p1]|] eqn:E1; [|exact (F p E1)].
  destruct (g p1) as [[b p2]|] eqn:E2; [discriminate E|exact (G p1 E2)].
Qed.
Lemma pall_total l : Forall total l -> total (pall l).
Proof. induction 1; cbn [pall]; [intros p E; discriminate E|apply pseq_total; auto]. Qed.
Lemma phdr_total v f : total f -> total (phdr v f).
Proof.
  intros F p E. unfold phdr in E. destruct (f (padv 6 p)) as [[a p1]|] eqn:E1; [discriminate E|exact (F _ E1)].
Qed.
Lemma pobj_total any o : (forall q, In q (ptrs o) -> total (any q)) -> total (pobj any o).
Proof.
  intros A. destruct o; cbn [pobj ptrs] in *; apply phdr_total;
    repeat (apply pseq_total; [apply pbytes_total|]); try apply pbytes_total;
    apply pall_total, Forall_map'.
  - intros e I. apply pseq_total; [|apply pbytes_total]. apply A, in_map; auto.
  - intros q I. auto.
  - intros e I. apply pseq_total; apply A, in_flat_map; exists e; split; auto; cbn; auto.
Qed.

Section Graph.
Variable heap : list robj.
Variable rank : nat -> nat.
(* every pointer of an object leads to an object of smaller rank *)
Hypothesis acyclic : forall i o j, nth_error heap i = Some o -> In (Some j) (ptrs o) ->
  (rank j < rank i)%nat /\ nth_error heap j <> None.

Definition below (R : nat) (q : ptr) : Prop :=
  match q with None => True | Some i => (rank i < R)%nat /\ nth_error heap i <> None end.

Lemma pany_total fuel : forall R q, (R < fuel)%nat -> below R q -> total (pany heap fuel q).
Proof.
  induction fuel as [|fuel IH]; intros R q HF HB; [lia|].
  cbn [pany]. intros p E. unfold pref in E. destruct q as [i|]; [|discriminate E].
  destruct (lookup Nat.eqb i (po p)); [discriminate E|].
  destruct HB as [HR HN]. destruct (nth_error heap i) as [o|] eqn:EO; [|congruence]. cbv zeta in E.
  assert (T : total (pobj (pany heap fuel) o)).
  { apply pobj_total. intros q I. apply (IH (rank i)); [lia|]. destruct q as [j|]; cbn; auto.
    apply (acyclic i o j); auto. }
  destruct (lookup str_eqb (class_of o) (pc p)).
  - destruct (pobj (pany heap fuel) o (padv 8 p)) as [[b s2]|] eqn:E2; [discriminate E|exact (T _ E2)].
  - match type of E with context [pobj _ o ?s1] => destruct (pobj (pany heap fuel) o s1) as [[b s2]|] eqn:E2 end;
      [discriminate E|exact (T _ E2)].
Qed.

(* writing objects of small rank does not change the references to the others *)
Definition keeps (R : nat) (f : enc) : Prop := forall p bs p', f p = Some (bs, p') ->
  forall j, (R <= rank j)%nat -> lookup Nat.eqb j (po p') = lookup Nat.eqb j (po p).
Lemma pbytes_keeps R bs : keeps R (pbytes bs).
Proof. intros p b p' E. apply some_pair in E; destruct E as [<- <-]. auto. Qed.
Lemma pseq_keeps R f g : keeps R f -> keeps R g -> keeps R (pseq f g).
Proof.
  intros F G p bs p' E j J. unfold pseq in E. destruct (f p) as [[a p1]|] eqn:E1; [|discriminate E].
  destruct (g p1) as [[b p2]|] eqn:E2; [|discriminate E]. apply some_pair in E; destruct E as [<- <-].
  rewrite (G _ _ _ E2 j J), (F _ _ _ E1 j J). auto.
Qed.
Lemma pall_keeps R l : Forall (keeps R) l -> keeps R (pall l).
Proof.
  induction 1; cbn [pall]; [|apply pseq_keeps; auto].
  intros p bs p' E. apply some_pair in E; destruct E as [<- <-]. auto.
Qed.
Lemma phdr_keeps R v f : keeps R f -> keeps R (phdr v f).
Proof.
  intros F p bs p' E j J. unfold phdr in E. destruct (f (padv 6 p)) as [[b p1]|] eqn:E1; [|discriminate E].
  apply some_pair in E; destruct E as [<- <-]. rewrite (F _ _ _ E1 j J). auto.
Qed.
Lemma pobj_keeps R any o : (forall q, In q (ptrs o) -> keeps R (any q)) -> keeps R (pobj any o).
Proof.
  intros A. destruct o; cbn [pobj ptrs] in *; apply phdr_keeps;
    repeat (apply pseq_keeps; [apply pbytes_keeps|]); try apply pbytes_keeps;
    apply pall_keeps, Forall_map'.
  - intros e I. apply pseq_keeps; [|apply pbytes_keeps]. apply A, in_map; auto.
  - intros q I. auto.
  - intros e I. apply pseq_keeps; apply A, in_flat_map; exists e; split; auto; cbn; auto.
Qed.
Lemma pany_keeps fuel : forall R q, below R q -> keeps R (pany heap fuel q).
Proof.
  induction fuel as [|fuel IH]; intros R q HB p bs p' E j J; [discriminate E|].
  cbn [pany] in E. unfold pref in E. destruct q as [i|].
  2:{ apply some_pair in E; destruct E as [<- <-]. auto. }
  destruct (lookup Nat.eqb i (po p)) eqn:LO.
  { apply some_pair in E; destruct E as [<- <-]. auto. }
  destruct HB as [HR HN]. destruct (nth_error heap i) as [o|] eqn:EO; [|discriminate E]. cbv zeta in E.
  assert (T : keeps (rank i) (pobj (pany heap fuel) o)).
  { apply pobj_keeps. intros q I. apply IH. destruct q as [l|]; cbn; auto. apply (acyclic i o l); auto. }
  assert (NE : Nat.eqb j i = false) by (apply Nat.eqb_neq; intros ->; lia).
  destruct (lookup str_eqb (class_of o) (pc p)).
  - destruct (pobj (pany heap fuel) o (padv 8 p)) as [[b s2]|] eqn:E2; [|discriminate E].
    apply some_pair in E; destruct E as [<- <-]. cbn [po lookup]. rewrite NE.
    rewrite (T _ _ _ E2 j) by lia. auto.
  - match type of E with context [pobj _ o ?s1] => destruct (pobj (pany heap fuel) o s1) as [[b s2]|] eqn:E2 end;
      [|discriminate E].
    apply some_pair in E; destruct E as [<- <-]. rewrite (T _ _ _ E2 j) by lia. cbn [po lookup]. rewrite NE. auto.
Qed.

(* ------------------------------------------------------------------ what is read *)
(* which object of the reader stands for which object of the writer *)
Definition mp : Type := nat -> option nat.
Definition ext (m m' : mp) : Prop := forall i k, m i = Some k -> m' i = Some k.
Definition corr_ptr (m : mp) (p q : ptr) : Prop :=
  match p, q with
  | None, None => True
  | Some i, Some k => m i = Some k
  | _, _ => False
  end.
(* the heap bit is set by the reader; a referenced object keeps 24 bits of its number *)
Definition read_obj (o : tobj) : tobj :=
  {| tID := if Z.testbit (tBits o) 4 then tID o mod 2 ^ 24 else tID o;
     tBits := Z.lor (tBits o) kIsOnHeap |}.
Inductive corr (m : mp) : robj -> robj -> Prop :=
| c_named o name title : corr m (ONamed o name title) (ONamed (read_obj o) name title)
| c_objstring o str : corr m (OObjString o str) (OObjString (read_obj o) str)
| c_list hash o name els els' :
    Forall2 (fun a b => corr_ptr m (fst a) (fst b) /\ snd a = snd b) els els' ->
    corr m (OList hash o name els) (OList hash (read_obj o) name els')
| c_arr o name low els els' : Forall2 (corr_ptr m) els els' ->
    corr m (OArr o name low els) (OArr (read_obj o) name low els')
| c_map o name tbl tbl' :
    Forall2 (fun a b => corr_ptr m (fst a) (fst b) /\ corr_ptr m (snd a) (snd b)) tbl tbl' ->
    corr m (OMap o name tbl) (OMap (read_obj o) name tbl')
| c_refarr o name lower refs : corr m (ORefArr o name lower refs) (ORefArr (read_obj o) name lower refs).

Lemma ext_refl m : ext m m. Proof. intros ? ? E; exact E. Qed.
Lemma ext_trans a b c : ext a b -> ext b c -> ext a c.
Proof. intros H1 H2 i k E. apply H2, H1, E. Qed.
Lemma corr_ptr_ext m m' p q : ext m m' -> corr_ptr m p q -> corr_ptr m' p q.
Proof. intros E. destruct p, q; cbn; auto. Qed.
Lemma Forall2_imp {A B} (P Q : A -> B -> Prop) l l' : (forall a b, P a b -> Q a b) -> Forall2 P l l' -> Forall2 Q l l'.
Proof. intros H. induction 1; constructor; auto. Qed.
Lemma corr_ext m m' o o' : ext m m' -> corr m o o' -> corr m' o o'.
Proof.
  intros E. destruct 1; constructor; eapply Forall2_imp; try eassumption; cbn; intros.
  - destruct H0; split; auto. eapply corr_ptr_ext; eauto.
  - eapply corr_ptr_ext; eauto.
  - destruct H0; split; eapply corr_ptr_ext; eauto.
Qed.

(* legal contents: what the formats of the fields can hold *)
Definition obj_legal (o : tobj) : Prop := inU 32 (tID o) /\ inU 32 (tBits o).
Definition legal (o : robj) : Prop :=
  match o with
  | ONamed o name title => obj_legal o /\ str_ok name /\ str_ok title
  | OObjString o str => obj_legal o /\ str_ok str
  | OList _ o name els => obj_legal o /\ str_ok name /\ Z.of_nat (length els) < 2 ^ 31 /\
      Forall (fun e => fst e <> None /\ str_ok (snd e)) els
  | OArr o name low els => obj_legal o /\ str_ok name /\ Z.of_nat (length els) < 2 ^ 31 /\ inS 32 low
  | OMap o name tbl => obj_legal o /\ str_ok name /\ Z.of_nat (length tbl) < 2 ^ 31 /\
      Forall (fun e => fst e <> None) tbl /\ NoDup (map fst tbl)
  | ORefArr o name lower refs => obj_legal o /\ str_ok name /\ Z.of_nat (length refs) < 2 ^ 31 /\
      inS 32 lower /\ Forall (inU 32) refs
  end.
Hypothesis heap_legal : forall i o, nth_error heap i = Some o -> legal o.

Record Inv (op : list nat) (m : mp) (p : pst) (s : rst) : Prop := {
  i_pos : rPos (rb s) = pp p;
  i_nn : 0 <= pp p;
  i_ro : forall i ref, lookup Nat.eqb i (po p) = Some ref -> ~ In i op ->
         exists k, m i = Some k /\ lookup Z.eqb ref (rr s) = Some (RObj k) /\ 2 <= ref < pp p;
  i_dom : forall i k, m i = Some k -> lookup Nat.eqb i (po p) <> None;
  i_rc : forall c ref, lookup str_eqb c (pc p) = Some ref ->
         exists q, ref = q + 2 ^ 31 /\ 0 <= q < pp p /\ q < 2 ^ 30 /\ lookup Z.eqb q (rr s) = Some (RCls c);
  i_keys : forall k, lookup Z.eqb k (rr s) <> None -> k < pp p;
  i_heap : forall i k, m i = Some k -> exists o o', nth_error heap i = Some o /\
         nth_error (rh s) k = Some (Some o') /\ corr m o o';
  i_inj : forall i j k, m i = Some k -> m j = Some k -> i = j }.

(* how the reader's state, and the correspondence, may change *)
Record Fr (R : nat) (m m' : mp) (p : pst) (s s' : rst) : Prop := {
  f_ext : ext m m';
  f_keys : forall k, k < pp p -> lookup Z.eqb k (rr s') = lookup Z.eqb k (rr s);
  f_heap : forall k, (k < length (rh s))%nat -> nth_error (rh s') k = nth_error (rh s) k;
  f_len : (length (rh s) <= length (rh s'))%nat;
  f_new : forall i k, m' i = Some k -> m i = None -> (length (rh s) <= k)%nat /\ (rank i < R)%nat }.

Lemma Fr_refl R m p s : Fr R m m p s s.
Proof. split; auto. apply ext_refl. intros; congruence. Qed.
Lemma Fr_same R m p s s' : rr s' = rr s -> rh s' = rh s -> Fr R m m p s s'.
Proof. intros E1 E2. split; rewrite ?E1, ?E2; auto. apply ext_refl. intros; congruence. Qed.
Lemma Fr_trans R m0 m1 m2 p0 p1 s0 s1 s2 : pp p0 <= pp p1 ->
  Fr R m0 m1 p0 s0 s1 -> Fr R m1 m2 p1 s1 s2 -> Fr R m0 m2 p0 s0 s2.
Proof.
  intros HP [A1 A2 A3 A4 A5] [B1 B2 B3 B4 B5]. split.
  - eapply ext_trans; eauto.
  - intros k H. rewrite B2, A2; auto. lia.
  - intros k H. rewrite B3, A3; auto. lia.
  - lia.
  - intros i k E N. destruct (m1 i) as [k1|] eqn:E1.
    + rewrite (B1 _ _ E1) in E. injection E as <-. apply A5; auto.
    + destruct (B5 _ _ E E1). split; auto. lia.
Qed.

Definition inj (m : mp) : Prop := forall i j k, m i = Some k -> m j = Some k -> i = j.
Definition rspec {A} (R : nat) (op : list nat) (m0 : mp) (f : rm A) (e : enc) (post : mp -> A -> Prop) : Prop :=
  forall m p s bs p', ext m0 m -> e p = Some (bs, p') -> pp p' < 2 ^ 30 -> Inv op m p s -> at_ (rb s) bs ->
  exists a s' m', f s = Ok (a, s') /\ rb s' = adv (rb s) (length bs) /\
    Inv op m' p' s' /\ Fr R m m' p s s' /\ post m' a.

Lemma rspec_seq {A B} R op m0 (f : rm A) (g : A -> rm B) e1 e2 P Q : moves e1 -> moves e2 ->
  rspec R op m0 f e1 P -> (forall a m1, ext m0 m1 -> inj m1 -> P m1 a -> rspec R op m1 (g a) e2 Q) ->
  rspec R op m0 (rseq f g) (pseq e1 e2) Q.
Proof.
  intros M1 M2 F G m p s bs p' X E L I AT. unfold pseq in E.
  destruct (e1 p) as [[a p1]|] eqn:E1; [|discriminate E].
  destruct (e2 p1) as [[b p2]|] eqn:E2; [|discriminate E]. apply some_pair in E; destruct E as [<- <-].
  apply at_app in AT. destruct AT as [ATa ATb].
  pose proof (M1 _ _ _ E1) as L1. pose proof (M2 _ _ _ E2) as L2.
  destruct (F m p s a p1 X E1 ltac:(lia) I ATa) as (x & s1 & m1 & X1 & X2 & X3 & X4 & X5).
  unfold rseq. rewrite X1. cbn [rbind fst snd]. rewrite <- X2 in ATb.
  destruct (G x m1 (ext_trans _ _ _ X (f_ext _ _ _ _ _ _ X4)) (i_inj _ _ _ _ X3) X5 m1 p1 s1 b p2 (ext_refl _) E2 L X3 ATb)
    as (y & s2 & m2 & Y1 & Y2 & Y3 & Y4 & Y5).
  exists y, s2, m2. split; auto. split; [rewrite Y2, X2, adv_adv, app_length; auto|].
  split; auto. split; auto. eapply Fr_trans; [|exact X4|exact Y4]. lia.
Qed.
Lemma rspec_ext {A} R op m0 (f : rm A) e e' P : (forall p, e p = e' p) -> rspec R op m0 f e P -> rspec R op m0 f e' P.
Proof. intros E H m p s bs p' X Y. rewrite <- E in Y. apply (H m p s bs p' X Y). Qed.
Lemma rspec_post {A} R op m0 (f : rm A) e (P Q : mp -> A -> Prop) :
  (forall m a, ext m0 m -> P m a -> Q m a) -> rspec R op m0 f e P -> rspec R op m0 f e Q.
Proof.
  intros H F m p s bs p' X E L I AT. destruct (F m p s bs p' X E L I AT) as (a & s' & m' & Y1 & Y2 & Y3 & Y4 & Y5).
  exists a, s', m'. split; auto. split; auto. split; auto. split; auto. apply H; auto.
  eapply ext_trans; [exact X|apply Y4].
Qed.

Lemma Inv_adv op m p s n : Inv op m p s -> Inv op m (padv n p) (set_rb (adv (rb s) n) s).
Proof.
  intros [A1 A2 A3 A4 A5 A6 A7 A8]. split; cbn [padv pp po pc set_rb rb rr rh]; auto.
  - unfold rPos, adv, r_set_c in *; cbn in *. lia.
  - lia.
  - intros i ref E N. destruct (A3 _ _ E N) as (k & ? & ? & ?). exists k. split; auto. split; auto. lia.
  - intros c ref E. destruct (A5 _ _ E) as (q & ? & ? & ? & ?). exists q. split; auto. split; [lia|]. auto.
  - intros k E. specialize (A6 k E). lia.
Qed.
Lemma rspec_lift {A} R op m0 (f : rd A) bs a : reads f bs a -> rspec R op m0 (lift f) (pbytes bs) (fun _ x => x = a).
Proof.
  intros H m p s b p' X E L I AT. apply some_pair in E; destruct E as [<- <-].
  unfold lift. rewrite (H _ AT). cbn [rbind fst snd]. eexists. eexists. exists m. split; [reflexivity|].
  split; [reflexivity|]. split; [exact (Inv_adv op m p s (length bs) I)|]. split; [apply Fr_same; reflexivity|reflexivity].
Qed.
Lemma rspec_ret {A} R op m0 (a : A) (P : mp -> A -> Prop) : (forall m, ext m0 m -> P m a) ->
  rspec R op m0 (rret a) (fun p => Some ([], p)) P.
Proof.
  intros H m p s b p' X E L I AT. apply some_pair in E; destruct E as [<- <-].
  exists a, s, m. split; [reflexivity|]. split; [rewrite adv_0; auto|]. split; auto. split; [apply Fr_refl|auto].
Qed.

Definition pcheck (q : Z) : enc := fun p => if pp p =? q then Some ([], p) else None.
Lemma pcheck_moves q : moves (pcheck q).
Proof. intros p bs p' E. unfold pcheck in E. destruct (_ =? _); [|discriminate E]. apply some_pair in E; destruct E as [<- <-]. cbn. lia. Qed.
Lemma pseq_assoc f g h p : pseq (pseq f g) h p = pseq f (pseq g h) p.
Proof.
  unfold pseq. destruct (f p) as [[a p1]|]; auto. destruct (g p1) as [[b p2]|]; auto.
  destruct (h p2) as [[c p3]|]; auto. rewrite app_assoc. auto.
Qed.
Lemma pseq_eq f g g' p : (forall p, g p = g' p) -> pseq f g p = pseq f g' p.
Proof. intros E. unfold pseq. destruct (f p) as [[a p1]|]; auto. rewrite E. auto. Qed.

Lemma rspec_check {A} R op m0 h q (a : A) (P : mp -> A -> Prop) :
  hPos h + hLen h + 4 = q -> (forall m, ext m0 m -> P m a) ->
  rspec R op m0 (rseq (check h) (fun _ => rret a)) (pcheck q) P.
Proof.
  intros Q H m p s b p' X E L I AT. unfold pcheck in E. destruct (Z.eqb_spec (pp p) q); [|discriminate E].
  apply some_pair in E; destruct E as [<- <-]. unfold rseq, check, rret. cbn [rbind fst snd].
  assert (EC : CheckHeader h (rb s) = rb s).
  { unfold CheckHeader. rewrite (proj1 AT). destruct (hLen h <=? 0); auto.
    rewrite (i_pos _ _ _ _ I). destruct (Z.eqb_spec (pp p) (hPos h + hLen h + 4)); auto. lia. }
  exists a, (set_rb (CheckHeader h (rb s)) s), m. rewrite EC. split; [reflexivity|].
  split; [rewrite adv_0; auto|]. destruct s; cbn. split; auto. split; [apply Fr_refl|auto].
Qed.

Variable sictx : option (list Z -> option (Z * Z)).
Lemma rspec_hdr {A} R op m0 name vers (g : Header -> rm A) body P :
  0 < vers < 2 ^ 14 -> moves body ->
  (forall h, hVers h = vers -> rspec R op m0 (g h) (pseq body (pcheck (hPos h + hLen h + 4))) P) ->
  rspec R op m0 (rseq (lift (ReadHeader sictx name vers)) g) (phdr vers body) P.
Proof.
  intros HV MB G m p s b p' X E L I AT. unfold phdr in E.
  destruct (body (padv 6 p)) as [[bs p1]|] eqn:EB; [|discriminate E]. apply some_pair in E; destruct E as [<- <-].
  pose proof (MB _ _ _ EB) as LB. cbn [padv pp] in LB. pose proof (i_nn _ _ _ _ I) as NN.
  apply at_app in AT. destruct AT as [ATa ATb]. unfold phead in ATa, ATb.
  rewrite kmask_lor in ATa by lia.
  unfold rseq, lift.
  rewrite (ReadHeader_reads sictx name vers vers (Z.of_nat (length bs) + 2) (rb s)) by (auto; lia).
  cbn [rbind fst snd]. set (h := {| hName := name |}). rewrite app_length, !be_length in ATb. cbn [Nat.add] in ATb.
  destruct (G h eq_refl m (padv 6 p) (set_rb (adv (rb s) 6) s) bs p1 X) as (a & s' & m' & Y1 & Y2 & Y3 & Y4 & Y5); auto.
  - unfold pseq, pcheck. rewrite EB. cbn [h hPos hLen]. rewrite (i_pos _ _ _ _ I).
    replace (pp p1 =? pp p + (Z.of_nat (length bs) + 2) + 4) with true by (symmetry; apply Z.eqb_eq; lia).
    rewrite app_nil_r. auto.
  - apply Inv_adv; auto.
  - exists a, s', m'. split; [exact Y1|]. split.
    { rewrite Y2. cbn [set_rb rb]. rewrite adv_adv. unfold phead. rewrite !app_length, !be_length. auto. }
    split; auto. split; auto. destruct Y4 as [B1 B2 B3 B4 B5]. split; auto.
    intros k H. apply B2. cbn. lia.
Qed.

Lemma rspec_guard {A} R op m0 (f z : rm A) e P :
  rspec R op m0 f e P -> rspec R op m0 (fun s => if rerr (rb s) then z s else f s) e P.
Proof. intros H m p s bs p' X E L I AT. rewrite (proj1 AT). apply (H m p s bs p'); auto. Qed.

(* the embedded TObject *)
Lemma read_obj_bits b : Z.testbit (Z.lor b kIsOnHeap) 4 = Z.testbit b 4.
Proof. unfold kIsOnHeap. rewrite Z.lor_spec, Z.pow2_bits_false by lia. apply orb_false_r. Qed.
Lemma unm_obj_reads o : obj_legal o -> reads unm_obj (enc_obj o) (read_obj o).
Proof.
  intros [H1 H2]. unfold enc_obj. intros r Hr. unfold unm_obj. rewrite (proj1 Hr).
  destruct (at_app _ _ _ Hr) as [R1 R2]. unfold SkipVersion. rewrite (proj1 Hr).
  rewrite (ReadSint_reads 2 vObject) by (auto; unfold vObject, inS; cbn; lia).
  cbn [rbind fst snd]. change (negb (Z.land vObject kByteCountVMask =? 0)) with false. cbn iota.
  cbn [rbind fst snd]. rewrite be_length in *. unfold read_obj.
  unfold kIsReferenced. rewrite !land_pow2_nz, !negb_involutive by lia.
  unfold kIsReferenced in R2. rewrite land_pow2_nz, negb_involutive in R2 by lia.
  destruct (Z.testbit (tBits o) 4) eqn:EB.
  - destruct (at_app _ _ _ R2) as [R3 R4]. destruct (at_app _ _ _ R4) as [R5 R6]. rewrite !be_length in *.
    rewrite land_mask in * by lia.
    rewrite (ReadUint_reads 4 (tID o mod 2 ^ 24)) by
      (auto; unfold inU; pose proof (Z.mod_pos_bound (tID o) (2 ^ 24) ltac:(lia)); change (8 * Z.of_nat 4) with 32; lia).
    cbn [rbind fst snd]. rewrite be_length.
    rewrite (ReadUint_reads 4 (tBits o)) by auto. cbn [rbind fst snd].
    rewrite land_pow2_nz, negb_involutive, read_obj_bits, EB by lia. rewrite be_length.
    rewrite (ReadUint_reads 2 0) by (auto; unfold inU; lia). cbn [rbind fst snd].
    rewrite !adv_adv, !app_length, !be_length. do 3 f_equal.
  - destruct (at_app _ _ _ R2) as [R3 R4]. rewrite !be_length in *.
    rewrite (ReadUint_reads 4 (tID o)) by auto.
    cbn [rbind fst snd]. rewrite be_length.
    rewrite (ReadUint_reads 4 (tBits o)) by auto. cbn [rbind fst snd].
    rewrite land_pow2_nz, negb_involutive, read_obj_bits, EB by lia.
    cbn [rbind]. rewrite !adv_adv, !app_length, !be_length. do 3 f_equal.
Qed.

Section Classes.
Variable R : nat.
Variable op : list nat.
Variable any : rm ptr.
Variable pa : ptr -> enc.
Hypothesis pa_moves : forall q, moves (pa q).
Hypothesis Hany : forall q m0, below R q -> rspec R op m0 any (pa q) (fun m x => corr_ptr m q x).

Lemma elm_moves (els : list (ptr * list Z)) :
  Forall moves (map (fun e => pseq (pa (fst e)) (pbytes (enc_string (snd e)))) els).
Proof. apply Forall_map'. intros. apply pseq_moves; auto. apply pbytes_moves. Qed.
Lemma tbl_moves (tbl : list (ptr * ptr)) : Forall moves (map (fun e => pseq (pa (fst e)) (pa (snd e))) tbl).
Proof. apply Forall_map'. intros. apply pseq_moves; auto. Qed.

Lemma unm_els_spec els : forall m0,
  Forall (fun e => below R (fst e) /\ fst e <> None /\ str_ok (snd e)) els ->
  rspec R op m0 (unm_els any (length els))
    (pall (map (fun e => pseq (pa (fst e)) (pbytes (enc_string (snd e)))) els))
    (fun m l => Forall2 (fun a b => corr_ptr m (fst a) (fst b) /\ snd a = snd b) els l).
Proof.
  induction els as [|[q opt] t IH]; intros m0 H; cbn [length unm_els map pall].
  - apply rspec_ret. constructor.
  - inversion H as [|? ? (H1 & H2 & H3) HT]; subst. cbn [fst snd] in *.
    eapply rspec_ext; [intros p; symmetry; apply pseq_assoc|].
    eapply rspec_seq; [auto|apply pseq_moves; [apply pbytes_moves|apply pall_moves, elm_moves]|apply (Hany q); auto|].
    intros a m1 X1 _ C1. destruct a as [k|]; [|destruct q; [contradiction|congruence]].
    eapply rspec_seq; [apply pbytes_moves|apply pall_moves, elm_moves|apply rspec_lift, ReadString_reads; auto|].
    intros o m2 X2 _ ->. eapply rspec_ext; [intros p|]; cycle 1.
    + eapply rspec_seq with (e2 := fun p => Some ([], p));
        [apply pall_moves, elm_moves| |apply IH; auto|].
      { intros p bs p' E. apply some_pair in E; destruct E as [<- <-]. cbn. lia. }
      intros l m3 X3 _ C3. apply rspec_ret. intros m4 X4. constructor.
      * cbn [fst snd]. split; auto. eapply corr_ptr_ext; [|exact C1].
        eapply ext_trans; [exact X2|]. eapply ext_trans; [exact X3|exact X4].
      * eapply Forall2_imp; [|exact C3]. cbn. intros x y [? ?]. split; auto. eapply corr_ptr_ext; eauto.
    + unfold pseq. destruct (pall _ p) as [[b p1]|]; auto. rewrite app_nil_r. auto.
Qed.
Lemma rspec_seq_ret {A B} R' op' m0 (f : rm A) (g : A -> B) e (P : mp -> A -> Prop) (Q : mp -> B -> Prop) : moves e ->
  rspec R' op' m0 f e P -> (forall a m1 m2, ext m0 m1 -> P m1 a -> ext m1 m2 -> Q m2 (g a)) ->
  rspec R' op' m0 (rseq f (fun a => rret (g a))) e Q.
Proof.
  intros M F G. eapply rspec_ext; [intros p|]; cycle 1.
  - eapply rspec_seq with (e2 := fun p => Some ([], p)); [exact M| |exact F|].
    { intros p bs p' E. apply some_pair in E; destruct E as [<- <-]. cbn. lia. }
    intros a m1 X1 _ P1. apply rspec_ret. intros m2 X2. eapply G; eauto.
  - unfold pseq. destruct (e p) as [[b p1]|]; auto. rewrite app_nil_r. auto.
Qed.
Lemma unm_ptrs_spec els : forall m0, Forall (below R) els ->
  rspec R op m0 (unm_ptrs any (length els)) (pall (map pa els)) (fun m l => Forall2 (corr_ptr m) els l).
Proof.
  induction els as [|q t IH]; intros m0 H; cbn [length unm_ptrs map pall].
  - apply rspec_ret. constructor.
  - inversion H; subst.
    assert (MT : moves (pall (map pa t))) by (apply pall_moves, Forall_map'; auto).
    eapply rspec_seq; [auto|exact MT|apply (Hany q); auto|].
    intros a m1 X1 _ C1. apply rspec_guard. eapply rspec_seq_ret; [exact MT|apply IH; auto|].
    intros l m2 m3 X2 C2 X3. constructor.
    + eapply corr_ptr_ext; [|exact C1]. eapply ext_trans; [exact X2|exact X3].
    + eapply Forall2_imp; [|exact C2]. intros x y. apply corr_ptr_ext; auto.
Qed.
Definition corr2 (m : mp) (a b : ptr * ptr) : Prop := corr_ptr m (fst a) (fst b) /\ corr_ptr m (snd a) (snd b).
Lemma corr2_ext m m' a b : ext m m' -> corr2 m a b -> corr2 m' a b.
Proof. intros E [H1 H2]. split; eapply corr_ptr_ext; eauto. Qed.
Lemma map_set_new m k v i dn acc : inj m -> m i = Some k -> Forall2 (corr2 m) dn acc ->
  ~ In (Some i) (map fst dn) -> map_set (Some k) v acc = acc ++ [(Some k, v)].
Proof.
  intros J E F. induction F as [|[a1 a2] [b1 b2] t u [C _] F IH]; intros N; cbn [map_set app]; auto.
  cbn [map fst] in N. cbn [fst] in C. destruct b1 as [b1|].
  - destruct (Nat.eqb_spec k b1) as [->|].
    + destruct a1 as [a1|]; [|contradiction]. cbn in C. exfalso. apply N. left. f_equal. eapply J; eauto.
    + f_equal. apply IH. intros I. apply N. right; auto.
  - f_equal. apply IH. intros I. apply N. right; auto.
Qed.
Lemma unm_tbl_spec tbl : forall m0 dn acc,
  Forall (fun e => below R (fst e) /\ below R (snd e) /\ fst e <> None) tbl ->
  NoDup (map fst (dn ++ tbl)) -> Forall2 (corr2 m0) dn acc ->
  rspec R op m0 (unm_tbl any (length tbl) acc)
    (pall (map (fun e => pseq (pa (fst e)) (pa (snd e))) tbl))
    (fun m l => Forall2 (corr2 m) (dn ++ tbl) l).
Proof.
  induction tbl as [|[k v] t IH]; intros m0 dn acc H ND F; cbn [length unm_tbl map pall].
  - apply rspec_ret. intros m X. rewrite app_nil_r. eapply Forall2_imp; [|exact F]. intros. eapply corr2_ext; eauto.
  - inversion H as [|? ? (H1 & H2 & H3) HT]; subst. cbn [fst snd] in *.
    eapply rspec_ext; [intros p; symmetry; apply pseq_assoc|].
    eapply rspec_seq; [auto|apply pseq_moves; [auto|apply pall_moves, tbl_moves]|apply (Hany k); auto|].
    intros a m1 X1 _ C1. apply rspec_guard.
    eapply rspec_seq; [auto|apply pall_moves, tbl_moves|apply (Hany v); auto|].
    intros b m2 X2 J2 C2. apply rspec_guard.
    destruct a as [a|]; [|destruct k; [contradiction|congruence]]. destruct k as [i|]; [|congruence].
    rewrite (map_set_new m2 a b i dn acc).
    + eapply rspec_post; [|apply (IH m2 (dn ++ [(Some i, v)]) (acc ++ [(Some a, b)])); auto].
      * intros m l _ C. rewrite <- app_assoc in C. exact C.
      * rewrite <- app_assoc. exact ND.
      * apply Forall2_app.
        -- eapply Forall2_imp; [|exact F]. intros x y. apply corr2_ext. eapply ext_trans; [exact X1|exact X2].
        -- constructor; [|constructor]. split; cbn [fst snd]; auto. apply (corr_ptr_ext _ _ (Some i) (Some a) X2 C1).
    + exact J2.
    + apply X2. exact C1.
    + eapply Forall2_imp; [|exact F]. intros x y. apply corr2_ext. eapply ext_trans; [exact X1|exact X2].
    + intros I. rewrite map_app in ND. cbn [map fst] in ND. apply NoDup_remove_2 in ND. apply ND, in_or_app. auto.
Qed.

Ltac mv := repeat first [apply pseq_moves | apply pbytes_moves | apply pcheck_moves | apply pall_moves, elm_moves
  | apply pall_moves, tbl_moves | apply pall_moves, Forall_map'; auto].
Lemma read_size_spec m0 n : Z.of_nat n < 2 ^ 31 ->
  rspec R op m0 read_size (pbytes (be 4 (Z.of_nat n))) (fun _ x => x = n).
Proof.
  intros H m p s b p' X E L I AT. apply some_pair in E; destruct E as [<- <-].
  unfold read_size, rseq, lift. rewrite (ReadSint_reads 4 (Z.of_nat n)) by (auto; unfold inS; cbn; lia).
  cbn [rbind fst snd]. destruct (Z.ltb_spec (Z.of_nat n) 0); [lia|]. rewrite Nat2Z.id.
  eexists. eexists. exists m. split; [reflexivity|]. split; [reflexivity|].
  split; [exact (Inv_adv op m p s _ I)|]. split; [apply Fr_same; reflexivity|reflexivity].
Qed.
Ltac stp lem := eapply rspec_seq; [mv|mv|lem|].
Ltac asc := eapply rspec_ext; [intros ?; symmetry; apply pseq_assoc|].

Lemma unmarshal_spec o m0 : legal o -> (forall q, In q (ptrs o) -> below R q) ->
  rspec R op m0 (unmarshal sictx any (class_of o)) (pobj pa o) (fun m o' => corr m o o').
Proof.
  intros LG BL. destruct o; cbn [class_of pobj ptrs legal] in *.
  - change (unmarshal sictx any sTNamed) with (unm_named sictx). unfold unm_named.
    destruct LG as (L1 & L2 & L3).
    apply rspec_hdr; [unfold vNamed; lia|mv|]. intros h HV. asc.
    stp ltac:(apply rspec_lift, unm_obj_reads; auto). intros ? m1 X1 _ ->. asc.
    stp ltac:(apply rspec_lift, ReadString_reads; auto). intros ? m2 X2 _ ->.
    stp ltac:(apply rspec_lift, ReadString_reads; auto). intros ? m3 X3 _ ->.
    apply rspec_check; auto. intros. constructor.
  - change (unmarshal sictx any sTObjString) with (unm_objstring sictx). unfold unm_objstring.
    destruct LG as (L1 & L2).
    apply rspec_hdr; [unfold vObjString; lia|mv|]. intros h HV. asc.
    stp ltac:(apply rspec_lift, unm_obj_reads; auto). intros ? m1 X1 _ ->.
    stp ltac:(apply rspec_lift, ReadString_reads; auto). intros ? m2 X2 _ ->.
    apply rspec_check; auto. intros. constructor.
  - replace (unmarshal sictx any (if hash then sTHashList else sTList)) with (unm_list sictx any hash)
      by (destruct hash; reflexivity). unfold unm_list.
    destruct LG as (L1 & L2 & L3 & L4).
    apply rspec_hdr; [unfold vList; lia|mv|]. intros h HV. rewrite HV. change (vList <=? 3) with false. cbn iota. asc.
    stp ltac:(apply rspec_lift, unm_obj_reads; auto). intros ? m1 X1 _ ->. asc.
    stp ltac:(apply rspec_lift, ReadString_reads; auto). intros ? m2 X2 _ ->. asc.
    stp ltac:(apply read_size_spec; auto). intros ? m3 X3 _ ->.
    stp ltac:(apply unm_els_spec).
    { rewrite Forall_forall in L4 |- *. intros e I. split; [|apply L4; auto]. apply BL, in_map; auto. }
    intros els' m4 X4 _ C4.
    apply rspec_check; auto. intros m5 X5. constructor. eapply Forall2_imp; [|exact C4].
    cbn. intros x y [? ?]. split; auto. eapply corr_ptr_ext; eauto.
  - change (unmarshal sictx any sTObjArray) with (unm_arr sictx any). unfold unm_arr.
    destruct LG as (L1 & L2 & L3 & L4).
    apply rspec_hdr; [unfold vObjArray; lia|mv|]. intros h HV. rewrite HV.
    change (2 <? vObjArray) with true. change (1 <? vObjArray) with true. cbn iota. asc.
    stp ltac:(apply rspec_lift, unm_obj_reads; auto). intros ? m1 X1 _ ->. asc.
    stp ltac:(apply rspec_lift, ReadString_reads; auto). intros ? m2 X2 _ ->. asc.
    stp ltac:(apply rspec_lift, (ReadSint_reads 4); [lia|unfold inS; cbn; lia]). intros ? m3 X3 _ ->. asc.
    stp ltac:(apply rspec_lift, (ReadSint_reads 4); [lia|auto]). intros ? m4 X4 _ ->.
    destruct (Z.ltb_spec (Z.of_nat (length els)) 0); [lia|]. rewrite Nat2Z.id.
    stp ltac:(apply unm_ptrs_spec; apply Forall_forall; auto). intros els' m5 X5 _ C5.
    apply rspec_check; auto. intros m6 X6. constructor. eapply Forall2_imp; [|exact C5].
    intros x y. apply corr_ptr_ext; auto.
  - change (unmarshal sictx any sTMap) with (unm_map sictx any). unfold unm_map.
    destruct LG as (L1 & L2 & L3 & L4 & L5).
    apply rspec_hdr; [unfold vMap; lia|mv|]. intros h HV. rewrite HV.
    change (2 <? vMap) with true. change (1 <? vMap) with true. cbn iota. asc.
    stp ltac:(apply rspec_lift, unm_obj_reads; auto). intros ? m1 X1 _ ->. asc.
    stp ltac:(apply rspec_lift, ReadString_reads; auto). intros ? m2 X2 _ ->. asc.
    stp ltac:(apply rspec_lift, (ReadSint_reads 4); [lia|unfold inS; cbn; lia]). intros ? m3 X3 _ ->.
    rewrite Nat2Z.id.
    stp ltac:(apply (unm_tbl_spec tbl m3 [] []); [|exact L5|constructor]).
    { rewrite Forall_forall in L4 |- *. intros e I. split; [|split; [|apply L4; auto]];
        apply BL, in_flat_map; exists e; split; auto; cbn; auto. }
    intros tbl' m4 X4 _ C4.
    apply rspec_check; auto. intros m5 X5. constructor. eapply Forall2_imp; [|exact C4].
    intros x y. apply corr2_ext; auto.
  - change (unmarshal sictx any sTRefArray) with (unm_refarr sictx). unfold unm_refarr.
    destruct LG as (L1 & L2 & L3 & L4 & L5).
    apply rspec_hdr; [unfold vRefArray; lia|mv|]. intros h HV. rewrite HV.
    change (vRefArray <? 1) with false. cbn iota. asc.
    stp ltac:(apply rspec_lift, unm_obj_reads; auto). intros ? m1 X1 _ ->. asc.
    stp ltac:(apply rspec_lift, ReadString_reads; auto). intros ? m2 X2 _ ->. asc.
    stp ltac:(apply rspec_lift, (ReadSint_reads 4); [lia|unfold inS; cbn; lia]). intros ? m3 X3 _ ->. asc.
    stp ltac:(apply rspec_lift, (ReadSint_reads 4); [lia|auto]). intros ? m4 X4 _ ->. asc.
    stp ltac:(apply rspec_lift, (ReadUint_reads 2 0); unfold inU; lia). intros ? m5 X5 _ ->.
    destruct (Z.ltb_spec (Z.of_nat (length refs)) 0); [lia|]. rewrite Nat2Z.id.
    stp ltac:(apply rspec_lift, (read_n_reads (ReadUint 4) (be 4) refs)).
    { rewrite Forall_forall in L5. intros x Hx. apply ReadUint_reads. apply (L5 x Hx). }
    intros ? m6 X6 _ ->.
    apply rspec_check; auto. intros m7 X7. constructor.
Qed.
End Classes.

(* ------------------------------------------------------------------ pointers *)
Lemma bcnt_len n : length (bcnt_bytes n) = 4%nat.
Proof. apply be_length. Qed.
Lemma bcnt_reads n : Z.of_nat n < 2 ^ 30 -> reads (ReadUint 4) (bcnt_bytes n) (Z.of_nat n + 2 ^ 30).
Proof.
  intros H. unfold bcnt_bytes. rewrite kmask_lor by lia. apply ReadUint_reads. unfold inU. cbn. lia.
Qed.
Lemma lookup_cons_ne {K V} (eqb : K -> K -> bool) k k' (v : V) l :
  eqb k k' = false -> lookup eqb k ((k', v) :: l) = lookup eqb k l.
Proof. intros E. cbn. rewrite E. auto. Qed.
Lemma lookup_cons_eq {K V} (eqb : K -> K -> bool) k k' (v : V) l :
  eqb k k' = true -> lookup eqb k ((k', v) :: l) = Some v.
Proof. intros E. cbn. rewrite E. auto. Qed.
Lemma upd_length {A} (l : list A) i v : length (upd l i v) = length l.
Proof. revert i. induction l; intros [|i]; cbn; auto. Qed.
Lemma nth_upd_eq {A} (l : list A) i v : (i < length l)%nat -> nth_error (upd l i v) i = Some v.
Proof. revert i. induction l; intros [|i] H; cbn in *; try lia; auto. apply IHl. lia. Qed.
Lemma nth_upd_ne {A} (l : list A) i j v : i <> j -> nth_error (upd l i v) j = nth_error l j.
Proof. revert i j. induction l; intros [|i] [|j] H; cbn; auto; try congruence. Qed.
Lemma class_len o : (length (class_of o) < 80)%nat /\ ~ In 0 (class_of o) /\ class_of o <> [].
Proof.
  destruct o as [| |[]| | |]; cbn; split; try lia; split; try discriminate;
    intros I; repeat (destruct I as [I|I]; [lia|]); auto.
Qed.

Definition put (m : mp) (i k : nat) : mp := fun j => if Nat.eqb j i then Some k else m j.
Lemma put_eq m i k : put m i k i = Some k. Proof. unfold put. rewrite Nat.eqb_refl. auto. Qed.
Lemma put_ne m i k j : j <> i -> put m i k j = m j.
Proof. unfold put. intros. destruct (Nat.eqb_spec j i); congruence. Qed.
Lemma put_ext m i k : m i = None -> ext m (put m i k).
Proof. intros N j k' E. unfold put. destruct (Nat.eqb_spec j i); congruence. Qed.

(* the object i, number k for the reader, is complete: m1, p1, s1 after its contents *)
Lemma close op m p s i o o' k beg m1 p1 s1 p2 s2 R :
  nth_error heap i = Some o -> corr m1 o o' ->
  m i = None -> pp p = beg ->
  (* start of the contents *)
  forall pS sS, Inv (i :: op) m pS sS -> pp p + 8 <= pp pS ->
  (forall q, q < pp p -> lookup Z.eqb q (rr sS) = lookup Z.eqb q (rr s)) ->
  k = length (rh s) -> rh sS = rh s ++ [None] ->
  Fr (rank i) m m1 pS sS s1 -> Inv (i :: op) m1 p1 s1 ->
  (rank i < R)%nat ->
  (* the references at the end *)
  pp p2 = pp p1 -> pc p2 = pc p1 ->
  lookup Nat.eqb i (po p2) = Some (beg + 2) ->
  (forall j, j <> i -> lookup Nat.eqb j (po p2) = lookup Nat.eqb j (po p1)) ->
  pp p1 < 2 ^ 30 ->
  pp p1 >= pp pS -> 0 <= beg ->
  rb s2 = rb s1 -> rh s2 = upd (rh s1) k (Some o') ->
  lookup Z.eqb (beg + 2) (rr s2) = Some (RObj k) ->
  (forall q, q <> beg + 2 -> lookup Z.eqb q (rr s2) = lookup Z.eqb q (rr s1)) ->
  (lookup Z.eqb (beg + 2) (rr s1) = None \/ lookup Z.eqb (beg + 2) (rr s1) = Some (RObj k)) ->
  Inv op (put m1 i k) p2 s2 /\ Fr R m (put m1 i k) p s s2.
Proof.
  intros HO HC HN HB pS sS IS HP KS HK HS F I1 HR P2 C2 O2 O2' L1 G1 B0 RB RH K2 K2' K1.
  assert (N1 : m1 i = None).
  { destruct (m1 i) as [k'|] eqn:E; auto. destruct (f_new _ _ _ _ _ _ F _ _ E HN). lia. }
  assert (LK : (k < length (rh s1))%nat).
  { pose proof (f_len _ _ _ _ _ _ F). rewrite HS, app_length in H. cbn in H. lia. }
  assert (NK : forall j, m1 j <> Some k).
  { intros j E. destruct (m j) as [k'|] eqn:Ej.
    - pose proof (f_ext _ _ _ _ _ _ F _ _ Ej) as E'. rewrite E in E'. injection E' as <-.
      destruct (i_heap _ _ _ _ IS _ _ Ej) as (? & ? & _ & X & _). rewrite HS in X.
      rewrite nth_error_app2 in X by lia. rewrite HK, Nat.sub_diag in X. discriminate X.
    - destruct (f_new _ _ _ _ _ _ F _ _ E Ej) as [X _]. rewrite HS, app_length in X. cbn in X. lia. }
  assert (XE : ext m1 (put m1 i k)) by (apply put_ext; auto).
  split.
  - split.
    + rewrite RB, P2. apply I1.
    + rewrite P2. apply I1.
    + intros j ref E NI. destruct (Nat.eq_dec j i) as [->|NE].
      * rewrite O2 in E. injection E as <-. exists k. rewrite put_eq. split; auto. split; auto. rewrite P2. lia.
      * rewrite O2' in E by auto. destruct (i_ro _ _ _ _ I1 j ref E) as (k' & X1 & X2 & X3).
        { intros [->|I]; [congruence|auto]. }
        exists k'. rewrite put_ne by auto. split; auto. rewrite P2. split; auto.
        rewrite K2'; auto. intros ->. destruct K1 as [K1|K1]; rewrite K1 in X2; [discriminate X2|].
        injection X2 as <-. exact (NK j X1).
    + intros j k' E. destruct (Nat.eq_dec j i) as [->|NE]; [rewrite O2; discriminate|].
      rewrite O2' by auto. rewrite put_ne in E by auto. eapply (i_dom _ _ _ _ I1); eauto.
    + intros c ref E. rewrite C2 in E. destruct (i_rc _ _ _ _ I1 c ref E) as (q & X1 & X2 & X3 & X4).
      exists q. rewrite P2. split; auto. split; auto. split; auto. rewrite K2'; auto.
      intros ->. destruct K1 as [K1|K1]; rewrite K1 in X4; discriminate X4.
    + intros q E. rewrite P2. destruct (Z.eq_dec q (beg + 2)) as [->|NE]; [lia|].
      rewrite K2' in E by auto. apply (i_keys _ _ _ _ I1); auto.
    + intros j k' E. destruct (Nat.eq_dec j i) as [->|NE].
      * rewrite put_eq in E. injection E as <-. exists o, o'. split; auto. rewrite RH.
        split; [apply nth_upd_eq; auto|]. eapply corr_ext; eauto.
      * rewrite put_ne in E by auto. destruct (i_heap _ _ _ _ I1 _ _ E) as (a & b & X1 & X2 & X3).
        exists a, b. split; auto. rewrite RH. split; [|eapply corr_ext; eauto].
        rewrite nth_upd_ne; auto. intros <-. exact (NK j E).
    + intros a b k' Ea Eb. unfold put in Ea, Eb.
      destruct (Nat.eqb_spec a i) as [->|], (Nat.eqb_spec b i) as [->|]; auto.
      * injection Ea as <-. exfalso. exact (NK b Eb).
      * injection Eb as <-. exfalso. exact (NK a Ea).
      * eapply (i_inj _ _ _ _ I1); eauto.
  - destruct F as [F1 F2 F3 F4 F5]. split.
    + eapply ext_trans; eauto.
    + intros q H. rewrite K2' by lia. rewrite F2 by lia. apply KS; auto.
    + intros q H. rewrite RH, nth_upd_ne by lia. rewrite F3 by (rewrite HS, app_length; lia).
      rewrite HS. apply nth_error_app1. auto.
    + rewrite RH, upd_length. rewrite HS, app_length in F4. lia.
    + intros j k' E N. destruct (Nat.eq_dec j i) as [->|NE].
      * rewrite put_eq in E. injection E as <-. split; [lia|auto].
      * rewrite put_ne in E by auto. destruct (F5 _ _ E N) as [X1 X2]. rewrite HS, app_length in X1. split; lia.
Qed.

Theorem ReadObjectAny_spec fuel : forall R op q m0, (forall j, In j op -> (R <= rank j)%nat) -> below R q ->
  rspec R op m0 (ReadObjectAny sictx fuel) (pany heap fuel q) (fun m x => corr_ptr m q x).
Proof.
  induction fuel as [|fuel IH]; intros R op q m0 HOP HB m p s bs p' X E L I AT; [discriminate E|].
  cbn [pany] in E. cbn [ReadObjectAny]. set (anyr := ReadObjectAny sictx fuel) in *.
  pose proof (pref_moves heap (pany heap fuel) q (pany_moves heap fuel) _ _ _ E) as LM.
  pose proof (i_nn _ _ _ _ I) as NN. pose proof (i_pos _ _ _ _ I) as PP.
  unfold ReadAny. rewrite (proj1 AT). unfold pref in E.
  destruct q as [i|].
  2:{ apply some_pair in E; destruct E as [<- <-]. unfold lift at 1.
      rewrite (ReadUint_reads 4 0) by (auto; unfold inU; cbn; lia). cbn [rbind fst snd].
      change (Z.land 0 kByteCountMask =? 0) with true. cbn [orb rbind fst snd].
      change (Z.land 0 kClassMask =? 0) with true. cbn iota. change (0 =? 0) with true. cbn iota.
      eexists. eexists. exists m. split; [reflexivity|]. split; [reflexivity|]. rewrite be_length.
      split; [exact (Inv_adv op m p s 4 I)|]. split; [apply Fr_same; reflexivity|exact Logic.I]. }
  destruct HB as [HR HH].
  assert (NI : ~ In i op) by (intros A; specialize (HOP i A); lia).
  destruct (lookup Nat.eqb i (po p)) as [ref|] eqn:LO.
  { (* seen before *)
    apply some_pair in E; destruct E as [<- <-].
    destruct (i_ro _ _ _ _ I i ref LO NI) as (k & X1 & X2 & X3).
    cbn [padv pp] in L. rewrite wrapU_id in * by (unfold inU; lia).
    destruct (at_app _ _ _ AT) as [A1 A2].
    unfold lift at 1. rewrite (bcnt_reads 4) by (auto; cbn; lia). cbn [rbind fst snd].
    change (Z.of_nat 4 + 2 ^ 30) with (4 + 2 ^ 30). unfold kByteCountMask.
    rewrite land_pow2_nz, testbit_add_pow2 by lia. change (4 + 2 ^ 30 =? kNewClassTag) with false. cbn [negb orb].
    unfold bcnt_bytes in A2. rewrite be_length in A2. unfold bcnt_bytes. rewrite be_length.
    unfold lift at 1. cbn [rb]. rewrite (ReadUint_reads 4 ref) by (auto; unfold inU; cbn; lia). cbn [rbind fst snd].
    unfold kClassMask. rewrite land_pow2_nz, (testbit_small ref 31) by lia. cbn [negb].
    destruct (Z.eqb_spec ref 0); [lia|]. destruct (Z.eqb_spec ref 1); [lia|]. cbn [rr]. rewrite X2.
    rewrite be_length, adv_adv, app_length, !be_length.
    eexists. eexists. exists m. split; [reflexivity|]. split; [reflexivity|].
    split; [exact (Inv_adv op m p s 8 I)|]. split; [apply Fr_same; reflexivity|exact X1]. }
  assert (MN : m i = None).
  { destruct (m i) eqn:Em; auto. exfalso. exact (i_dom _ _ _ _ I _ _ Em LO). }
  destruct (nth_error heap i) as [o|] eqn:EO; [|discriminate E]. cbv zeta in E.
  destruct (class_len o) as (CL1 & CL2 & CL3).
  assert (UNM : forall m1, rspec (rank i) (i :: op) m1 (unmarshal sictx anyr (class_of o)) (pobj (pany heap fuel) o)
                  (fun m o' => corr m o o')).
  { intros m1. apply unmarshal_spec.
    - apply pany_moves.
    - intros q m2 B. apply IH; auto. intros j [<-|J]; [lia|]. specialize (HOP j J). lia.
    - eapply heap_legal; eauto.
    - intros q J. destruct q as [j|]; cbn; auto. apply (acyclic i o j); auto. }
  destruct (lookup str_eqb (class_of o) (pc p)) as [ref|] eqn:LC.
  - (* an object of a known class *)
    destruct (pobj (pany heap fuel) o (padv 8 p)) as [[b s2]|] eqn:EB; [|discriminate E].
    apply some_pair in E; destruct E as [<- <-]. cbn [pp] in L, LM.
    pose proof (pobj_moves _ o (pany_moves heap fuel) _ _ _ EB) as LB. cbn [padv pp] in LB.
    destruct (i_rc _ _ _ _ I _ _ LC) as (q & -> & Q1 & Q2 & Q3).
    rewrite wrapU_id in * by (unfold inU; lia).
    assert (LR : Z.lor (q + 2 ^ 31) kClassMask = q + 2 ^ 31).
    { unfold kClassMask. rewrite <- (lor_pow2 q 31) by lia. rewrite <- Z.lor_assoc, Z.lor_diag. auto. }
    rewrite LR in *. set (tail := be 4 (q + 2 ^ 31) ++ b) in *.
    assert (LT : Z.of_nat (length tail) < 2 ^ 30).
    { unfold tail. rewrite app_length, be_length. lia. }
    destruct (at_app _ _ _ AT) as [A1 A2].
    unfold lift at 1. rewrite (bcnt_reads (length tail)) by auto. cbn [rbind fst snd].
    unfold kByteCountMask. rewrite land_pow2_nz, testbit_add_pow2 by lia.
    replace (Z.of_nat (length tail) + 2 ^ 30 =? kNewClassTag) with false
      by (symmetry; apply Z.eqb_neq; unfold kNewClassTag; lia). cbn [negb orb].
    unfold bcnt_bytes in A2. rewrite be_length in A2. rewrite !bcnt_len.
    unfold tail in A2. destruct (at_app _ _ _ A2) as [A3 A4]. rewrite be_length, adv_adv in A4. cbn [Nat.add] in A4.
    unfold lift at 1. cbn [rb]. rewrite (ReadUint_reads 4 (q + 2 ^ 31)) by (auto; unfold inU; cbn; lia).
    cbn [rbind fst snd rb rr rh]. unfold kClassMask. rewrite land_pow2_nz, testbit_add_pow2 by lia. cbn [negb].
    replace (q + 2 ^ 31 =? kNewClassTag) with false by (symmetry; apply Z.eqb_neq; unfold kNewClassTag; lia).
    rewrite ldiff_pow2_add by lia. rewrite Q3. unfold alloc. cbn [rh].
    rewrite be_length, adv_adv, PP. cbn [Nat.add].
    set (k := length (rh s)). unfold kMapOffset.
    set (sS := set_rr (pp p + 2) (RObj k) (set_rh (rh s ++ [None]) {| rb := adv (rb s) 8; rr := rr s; rh := rh s |})).
    assert (KB : lookup Z.eqb (pp p + 2) (rr s) = None).
    { destruct (lookup Z.eqb (pp p + 2) (rr s)) eqn:EK; auto.
      assert (Y : pp p + 2 < pp p) by (apply (i_keys _ _ _ _ I); congruence). lia. }
    assert (IS : Inv (i :: op) m (padv 8 p) sS).
    { destruct I as [J1 J2 J3 J4 J5 J6 J7 J8]. split; cbn [sS set_rr set_rh rb rr rh padv pp po pc]; auto.
      - unfold rPos, adv, r_set_c in *; cbn in *. lia.
      - lia.
      - intros j ref E NJ. destruct (J3 j ref E) as (k' & Y1 & Y2 & Y3).
        { intros J. apply NJ. right; auto. }
        exists k'. split; auto. split; [|lia]. rewrite lookup_cons_ne; auto. apply Z.eqb_neq. lia.
      - intros c ref E. destruct (J5 c ref E) as (q' & Y1 & Y2 & Y3 & Y4). exists q'.
        split; auto. split; [lia|]. split; auto. rewrite lookup_cons_ne; auto. apply Z.eqb_neq. lia.
      - intros k' E. cbn [lookup] in E. destruct (Z.eqb_spec k' (pp p + 2)); [lia|]. specialize (J6 k' E). lia.
      - intros j k' E. destruct (J7 j k' E) as (o1 & o2 & Y1 & Y2 & Y3). exists o1, o2. split; auto. split; auto.
        rewrite nth_error_app1; auto. apply nth_error_Some. congruence. }
    unfold fill. replace (rerr (rb sS)) with false by (symmetry; apply (proj1 AT)).
    destruct (UNM m m (padv 8 p) sS b s2 (ext_refl m) EB ltac:(lia) IS A4) as (o' & s1 & m1 & Y1 & Y2 & Y3 & Y4 & Y5).
    rewrite Y1. cbn [rbind fst snd].
    replace (rerr (rb (set_rh (upd (rh s1) k (Some o')) s1))) with false
      by (cbn [set_rh rb]; rewrite Y2; symmetry; apply (proj1 AT)).
    eexists. eexists. exists (put m1 i k). split; [reflexivity|].
    split.
    { cbn [set_rh rb]. rewrite Y2. cbn [sS set_rr set_rh rb]. rewrite adv_adv. apply (f_equal (adv (rb s))).
      unfold bcnt_bytes, tail. rewrite !app_length, !be_length. lia. }
    assert (KS : lookup Z.eqb (pp p + 2) (rr s1) = Some (RObj k)).
    { rewrite (f_keys _ _ _ _ _ _ Y4) by (cbn; lia). apply lookup_cons_eq. apply Z.eqb_refl. }
    edestruct (close op m p s i o o' k (pp p) m1 s2 s1
                 {| pp := pp s2; po := (i, pp p + 2) :: po s2; pc := pc s2 |}
                 (set_rh (upd (rh s1) k (Some o')) s1) R) as [Z1 Z2]; eauto.
    + cbn. lia.
    + intros q' H. cbn [sS set_rr set_rh rr]. apply lookup_cons_ne. apply Z.eqb_neq. lia.
    + apply lookup_cons_eq, Nat.eqb_refl.
    + intros j J. apply lookup_cons_ne, Nat.eqb_neq; auto.
    + cbn. lia.
    + split; [exact Z1|]. split; [exact Z2|]. cbn. apply put_eq.
  - (* the first object of a class *)
    rewrite until_nul_id in E by auto.
    set (tag := be 4 kNewClassTag ++ class_of o ++ [0]) in *.
    match type of E with context [pobj _ o ?q1] => set (pS := q1) in * end.
    destruct (pobj (pany heap fuel) o pS) as [[b s2]|] eqn:EB; [|discriminate E].
    apply some_pair in E; destruct E as [<- <-].
    pose proof (pobj_moves _ o (pany_moves heap fuel) _ _ _ EB) as LB. cbn [pS pp] in LB.
    assert (LTG : length tag = (length (class_of o) + 5)%nat).
    { unfold tag. rewrite !app_length, be_length. cbn. lia. }
    set (tail := tag ++ b) in *.
    assert (LT : Z.of_nat (length tail) < 2 ^ 30).
    { unfold tail. rewrite app_length. lia. }
    destruct (at_app _ _ _ AT) as [A1 A2].
    unfold lift at 1. rewrite (bcnt_reads (length tail)) by auto. cbn [rbind fst snd].
    unfold kByteCountMask. rewrite land_pow2_nz, testbit_add_pow2 by lia.
    replace (Z.of_nat (length tail) + 2 ^ 30 =? kNewClassTag) with false
      by (symmetry; apply Z.eqb_neq; unfold kNewClassTag; lia). cbn [negb orb].
    unfold bcnt_bytes in A2. rewrite be_length in A2. rewrite !bcnt_len.
    unfold tail, tag in A2. rewrite <- !app_assoc in A2. rewrite (app_assoc (class_of o)) in A2.
    destruct (at_app _ _ _ A2) as [A3 A4].
    destruct (at_app _ _ _ A4) as [A5 A6]. rewrite !be_length, !adv_adv in A6. rewrite be_length in A5.
    unfold lift at 1. cbn [rb]. rewrite (ReadUint_reads 4 kNewClassTag) by (auto; unfold inU, kNewClassTag; cbn; lia).
    cbn [rbind fst snd rb rr rh]. change (Z.land kNewClassTag kClassMask =? 0) with false. cbn iota.
    change (kNewClassTag =? kNewClassTag) with true. cbn iota.
    unfold lift at 1. cbn [rb]. rewrite be_length. rewrite (ReadCString_reads 80 (class_of o)) by auto.
    cbn [rbind fst snd rb rr rh]. unfold alloc. cbn [set_rr rb rr rh].
    rewrite PP. replace (rPos (adv (rb s) 4)) with (pp p + 4) by (rewrite <- PP; unfold rPos, adv, r_set_c; cbn [rc roff]; lia).
    set (k := length (rh s)). unfold kMapOffset.
    match goal with |- context [fill sictx anyr (class_of o) k ?x] => set (sS := x) end.
    assert (RS : rb sS = adv (rb s) (4 + length tag)).
    { cbn [sS set_rh rb]. rewrite !adv_adv. apply (f_equal (adv (rb s))). rewrite app_length, LTG. cbn [length]. lia. }
    assert (RRS : rr sS = (pp p + 4 + 2, RCls (class_of o)) :: rr s) by reflexivity.
    assert (RHS : rh sS = rh s ++ [None]) by reflexivity.
    assert (KB : lookup Z.eqb (pp p + 2) (rr s) = None).
    { destruct (lookup Z.eqb (pp p + 2) (rr s)) eqn:EK; auto.
      assert (Y : pp p + 2 < pp p) by (apply (i_keys _ _ _ _ I); congruence). lia. }
    assert (IS : Inv (i :: op) m pS sS).
    { destruct I as [J1 J2 J3 J4 J5 J6 J7 J8]. split; rewrite ?RS, ?RRS, ?RHS; cbn [pS pp po pc]; auto.
      - unfold rPos, adv, r_set_c in *; cbn [rc roff] in *. lia.
      - lia.
      - intros j ref E NJ. rewrite lookup_cons_ne in E by (apply Nat.eqb_neq; intros ->; apply NJ; left; auto).
        destruct (J3 j ref E) as (k' & Y1 & Y2 & Y3).
        { intros J. apply NJ. right; auto. }
        exists k'. split; auto. split; [|lia]. rewrite lookup_cons_ne; auto. apply Z.eqb_neq. lia.
      - intros j k' E. cbn [lookup]. destruct (Nat.eqb j i); [discriminate|]. eapply J4; eauto.
      - intros c ref E. cbn [lookup] in E. destruct (str_eqb_spec c (class_of o)) as [->|NE].
        + injection E as <-. exists (pp p + 4 + 2). unfold kClassMask, kMapOffset. rewrite lor_pow2 by lia.
          split; auto. split; [lia|]. split; [lia|]. apply lookup_cons_eq, Z.eqb_refl.
        + destruct (J5 c ref E) as (q' & Y1 & Y2 & Y3 & Y4). exists q'.
          split; auto. split; [lia|]. split; auto. rewrite lookup_cons_ne; auto. apply Z.eqb_neq. lia.
      - intros k' E. cbn [lookup] in E. destruct (Z.eqb_spec k' (pp p + 4 + 2)); [lia|]. specialize (J6 k' E). lia.
      - intros j k' E. destruct (J7 j k' E) as (o1 & o2 & Y1 & Y2 & Y3). exists o1, o2. split; auto. split; auto.
        rewrite nth_error_app1; auto. apply nth_error_Some. congruence. }
    assert (AS : at_ (rb sS) b).
    { rewrite RS. rewrite app_length in A6. cbn [length] in A6.
      replace (4 + length tag)%nat with (4 + 4 + (length (class_of o) + 1))%nat by lia. exact A6. }
    unfold fill. rewrite (proj1 AS).
    destruct (UNM m m pS sS b s2 (ext_refl m) EB ltac:(lia) IS AS) as (o' & s1 & m1 & Y1 & Y2 & Y3 & Y4 & Y5).
    rewrite Y1. cbn [rbind fst snd].
    replace (rerr (rb (set_rh (upd (rh s1) k (Some o')) s1))) with false
      by (cbn [set_rh rb]; rewrite Y2, RS; symmetry; apply (proj1 AT)).
    eexists. eexists. exists (put m1 i k). split; [reflexivity|].
    split.
    { cbn [set_rr set_rh rb]. rewrite Y2, RS. rewrite adv_adv. apply (f_equal (adv (rb s))).
      unfold bcnt_bytes, tail. rewrite !app_length, !be_length. lia. }
    assert (KS : lookup Z.eqb (pp p + 2) (rr s1) = None).
    { rewrite (f_keys _ _ _ _ _ _ Y4) by (cbn [pS pp]; lia). rewrite RRS, lookup_cons_ne; auto. apply Z.eqb_neq. lia. }
    edestruct (close op m p s i o o' k (pp p) m1 s2 s1 s2
                 (set_rr (pp p + 2) (RObj k) (set_rh (upd (rh s1) k (Some o')) s1)) R) as [Z1 Z2]; eauto.
    + cbn [pS pp]. lia.
    + intros q' H. rewrite RRS. apply lookup_cons_ne. apply Z.eqb_neq. lia.
    + assert (KP : keeps (rank i) (pobj (pany heap fuel) o)).
      { apply pobj_keeps. intros q J. apply pany_keeps. destruct q as [j|]; cbn; auto. apply (acyclic i o j); auto. }
      rewrite (KP _ _ _ EB i (le_n _)). apply lookup_cons_eq, Nat.eqb_refl.
    + cbn [pS pp]. lia.
    + apply lookup_cons_eq, Z.eqb_refl.
    + intros q' H. apply lookup_cons_ne, Z.eqb_neq; auto.
    + split; [exact Z1|]. split; [exact Z2|]. cbn. apply put_eq.
Qed.
End Graph.
