(* C18 - C22: writing the baskets of a branch, reading ranges of trees, chains and joins of trees. *)
From Coq Require Import ZArith List Lia Bool Permutation.
From Verif Require Import Bytes GoLib RbytesModel RbytesProofs GoStrings TreeModel TreeProofs TreeProofs2 TreeProofs3 TreeProofs4.
Import ListNotations.
Local Open Scope Z_scope.
Local Arguments be : simpl never.

(* The branch as a reader opens it. *)
Definition opened (b : wbr) : rbr := {| rtab := wtable b; reoff := weoff b; rfile := wfile b |}.
(* What the 32-bit fields of a basket can hold: key length kl, basket size bsz, entries [es]. *)
Definition sizes_ok (kl bsz : Z) (es : list (list Z)) : Prop :=
  0 <= kl /\ kl + 8 + Z.max 0 bsz < 2 ^ 31 /\ zlen es + 1 < 2 ^ 31 /\
  (forall e, In e es -> kl + 8 + Z.max 0 bsz + zlen e < 2 ^ 31).
(* A file that has become big stays big. *)
Definition stays_big (big0 : bool) (h : list (list Z * (bool * bool))) (bigz : bool) : Prop := mono big0 (bigs h ++ [bigz]).

Lemma table_nth (cs : list (list (list Z))) : forall base k, (k <= length cs)%nat -> nth_error (table_from base cs) k = Some (base + pre cs k).
Proof.
  induction cs as [|c cs IH]; intros base [|k] H; cbn [length] in H; try lia.
  - cbn. f_equal. unfold pre. cbn. lia.
  - cbn. f_equal. unfold pre. cbn. lia.
  - cbn [table_from nth_error]. rewrite IH by lia. f_equal. unfold pre. cbn [firstn concat]. rewrite zlen_app. lia.
Qed.
Lemma table_len (cs : list (list (list Z))) base : length (table_from base cs) = S (length cs).
Proof. revert base; induction cs; intros; cbn; auto. Qed.

Lemma F2_split {A B} (P : A -> Prop) (Q : A -> B -> Prop) l m : Forall2 (fun a b => P a /\ Q a b) l m -> Forall2 Q l m /\ Forall P l.
Proof. intros F; induction F as [|? ? ? ? (X & Y) F (I1 & I2)]; split; constructor; auto. Qed.
Lemma nth_last {A} (T : list A) d : T <> [] -> nth_error T (length T - 1) = Some (last T d).
Proof.
  induction T as [|t T IH]; intros H; [congruence|]. destruct T as [|u T]; [reflexivity|].
  change (last (t :: u :: T) d) with (last (u :: T) d). rewrite <- IH by discriminate. cbn [length].
  replace (S (S (length T)) - 1)%nat with (S (length T)) by lia. replace (S (length T) - 1)%nat with (length T) by lia. reflexivity.
Qed.
Lemma closed_layout kl eoff es b : closed_rep kl eoff es b -> layout kl eoff es (opened b).
Proof.
  intros (cs & c & Es & _ & Eo & Wt & Wf & Ne & _). exists cs, c.
  split; [rewrite Es, concat_app; cbn; now rewrite app_nil_r|]. split; auto. split; auto.
  apply F2_split in Wf. destruct Wf as (W1 & W2). auto.
Qed.
Lemma write_all_closed kl eoff bsz big0 h bigz b : 0 <= eoff -> sizes_ok kl bsz (map fst h) -> stays_big big0 h bigz ->
  write_all kl eoff bsz big0 h bigz = Ok b -> closed_rep kl eoff (map fst h) b.
Proof.
  intros He (K & Kb & N & En) M H. eapply (write_all_rep kl eoff bsz He big0 h bigz b); eauto.
  - apply Forall_forall. intros x I. apply En. now apply in_map.
  - unfold zlen in *. rewrite map_length in N. exact N.
Qed.

(* ---- C18 ---- *)
(* The baskets on file partition the entries in order; entry i is found in the basket whose range covers i, by any
   leaf that finds its value in the bytes of the entry, [lo] bytes after its start. *)
Theorem C18_partition_partial {A} kl eoff bsz big0 h bigz b lo (g : rd A) vals :
  0 <= eoff -> sizes_ok kl bsz (map fst h) -> stays_big big0 h bigz ->
  (eoff = 0 -> forall e1 e2, In e1 (map fst h) -> In e2 (map fst h) -> zlen e1 = zlen e2) ->
  Forall2 (fun e v => exists pre bs post, e = pre ++ bs ++ post /\ zlen pre = lo /\ reads g bs v) (map fst h) vals ->
  write_all kl eoff bsz big0 h bigz = Ok b ->
  exists baskets,
    concat baskets = map fst h /\
    length (wfile b) = length baskets /\ length (wtable b) = S (length baskets) /\ wentries b = zlen h /\
    (forall k, (k <= length baskets)%nat -> nth_error (wtable b) k = Some (zlen (concat (firstn k baskets)))) /\
    (forall k c, nth_error baskets k = Some c -> (S k < length baskets)%nat -> c <> []) /\
    (forall i v, nth_error vals i = Some v -> exists k lo_k hi_k f bk,
       nth_error (wtable b) k = Some lo_k /\ nth_error (wtable b) (S k) = Some hi_k /\ lo_k <= Z.of_nat i < hi_k /\
       nth_error (wfile b) k = Some f /\ inflate eoff f = Ok (Some bk) /\ loadRLeaf bk (Z.of_nat i - lo_k) lo g = Ok v).
Proof.
  intros He Sz Bg Sm Fv W. pose proof (write_all_closed _ _ _ _ _ _ _ He Sz Bg W) as CR.
  destruct CR as (cs & c & Es & En & Eo & Wt & Wf & Ne & Wc). set (CS := cs ++ [c]) in *.
  assert (Ec : concat CS = map fst h) by (unfold CS; rewrite Es, concat_app; cbn; now rewrite app_nil_r).
  exists CS. split; auto. split; [clear -Wf; induction Wf; cbn; auto|]. rewrite Wt.
  split; [apply table_len|]. split; [rewrite En; unfold zlen; now rewrite map_length|].
  split; [intros k Hk; rewrite table_nth by auto; unfold pre; f_equal; lia|].
  split.
  { intros k ck Nk Lk. rewrite Forall_forall in Ne. apply Ne. unfold CS in *. rewrite app_length in Lk. cbn [length] in Lk.
    rewrite nth_error_app1 in Nk by lia. eapply nth_error_In; eauto. }
  intros i v Nv.
  assert (exists e, nth_error (map fst h) i = Some e /\ leaf_reads lo g e v) as (e & Nee & Re).
  { clear -Fv Nv. revert i Nv; induction Fv as [|x y l l' R F IH]; intros [|i] N; cbn in *; try discriminate.
    - injection N as <-. eauto.
    - eauto. }
  rewrite <- Ec in Nee.
  assert (Li : (i < length (concat CS))%nat) by (apply nth_error_Some; congruence).
  destruct (find_cut CS (Z.of_nat i) ltac:(unfold zlen; lia)) as (k & Lk & Pk).
  destruct (in_chunk CS i e Nee k Pk) as (ck & Nk & Nc).
  destruct (Forall2_nth _ _ _ _ _ Wf Nk) as (f & Nf & Fk & Rf).
  destruct (load_rep kl eoff He ck f (Z.to_nat (Z.of_nat i - pre CS k)) e lo g v Fk Rf Nc Re) as (bk & I & L).
  { intros E0 e1 e2 I1 I2. apply Sm; auto; rewrite <- Ec; apply in_concat; exists ck; split; auto; eapply nth_error_In; eauto. }
  exists k, (pre CS k), (pre CS (S k)), f, bk. rewrite !table_nth by lia. rewrite !Z.add_0_l.
  split; auto. split; auto. split; auto. split; auto. split; auto. rewrite Z2Nat.id in L by lia. exact L.
Qed.
(* Writing never panics when entries have a fixed size (no offsets: entryOffsetLen is 0), or when none has more than
   entryOffsetLen bytes. *)
Theorem C18_total kl eoff bsz big0 h bigz : 0 <= eoff -> (0 < eoff -> forall e, In e (map fst h) -> zlen e <= eoff) ->
  exists b, write_all kl eoff bsz big0 h bigz = Ok b.
Proof.
  intros He F. apply write_all_total; auto. intros P. apply Forall_forall. intros x I. apply F; auto. now apply in_map.
Qed.
(* Three entries of different sizes in baskets of 12 bytes; the second basket is written after the file became big. *)
Definition C18_h : list (list Z * (bool * bool)) :=
  [(be 4 7, (false, false)); (be 4 9 ++ be 4 8, (false, true)); ([], (true, true)); (be 4 5 ++ [1], (true, true))].
Example C18_example : exists b, write_all 70 1000 12 false C18_h true = Ok b /\
  wtable b = [0; 2; 4] /\ map fpay (wfile b) <> [] /\ stays_big false C18_h true /\ sizes_ok 70 12 (map fst C18_h).
Proof.
  eexists. split; [vm_compute; reflexivity|].
  split; [reflexivity|]. split; [discriminate|]. split; [cbn; tauto|].
  unfold sizes_ok. split; [lia|]. split; [vm_compute; reflexivity|]. split; [vm_compute; reflexivity|].
  intros e I. cbn in I. destruct I as [<-|[<-|[<-|[<-|[]]]]]; vm_compute; reflexivity.
Qed.
(* An entry longer than the offsets array stops that array from growing: the number of bytes of the entry is taken
   for the size of the array (branch.go:717-719).  One entry of 2000 bytes and a thousand of one byte, in a branch
   with entryOffsetLen 1000 and the default basket size: Write panics. *)
Theorem C18_total_refuted : let h := (repeat 0 2000, (false, false)) :: repeat ([0], (false, false)) 1000 in
  write_all 70 1000 (32 * 1024) false h false = Panic /\ sizes_ok 70 (32 * 1024) (map fst h).
Proof.
  cbv zeta. split; [vm_compute; reflexivity|].
  unfold sizes_ok. split; [lia|]. split; [vm_compute; reflexivity|]. split; [vm_compute; reflexivity|].
  intros e I. cbn [map fst] in I. destruct I as [<-|I]; [vm_compute; reflexivity|].
  apply in_map_iff in I. destruct I as (x & <- & I). apply repeat_spec in I. subst. vm_compute. reflexivity.
Qed.
(* Flushing a tree writer twice panics, as does writing after a flush (Writer.Flush leaves no current basket). *)
Theorem C18_flush_refuted kl eoff bsz big b' e : flush big (new_branch kl eoff bsz big) = Ok b' ->
  write e big big b' = Panic /\ flush big b' = Panic.
Proof.
  intros H. unfold flush in H. cbn [new_branch wcur] in H. destruct (writeFile _ _ _); [|discriminate].
  cbn [rbind] in H. inversion H. split; reflexivity.
Qed.

(* ---- C20 ---- *)
(* A range of a tree, in any basket layout the writer makes: entries beg, beg+1, ..., end-1, each once, in order,
   with the value written. *)
Theorem C20_range {A} kl eoff bsz big0 h bigz b lo (g : rd A) vals off beg end_ :
  0 <= eoff -> sizes_ok kl bsz (map fst h) -> stays_big big0 h bigz ->
  (eoff = 0 -> forall e1 e2, In e1 (map fst h) -> In e2 (map fst h) -> zlen e1 = zlen e2) ->
  Forall2 (fun e v => exists pre bs post, e = pre ++ bs ++ post /\ zlen pre = lo /\ reads g bs v) (map fst h) vals ->
  write_all kl eoff bsz big0 h bigz = Ok b ->
  0 <= beg -> beg <= end_ -> end_ <= zlen h ->
  exists out, run_tree (opened b) lo g off beg end_ = Ok (Some out) /\
    length out = Z.to_nat (end_ - beg) /\
    forall j, 0 <= j < end_ - beg -> exists v, nth_error vals (Z.to_nat (beg + j)) = Some v /\
      nth_error out (Z.to_nat j) = Some (beg + j + off, v).
Proof.
  intros He Sz Bg Sm Fv W H0 H1 H2. pose proof (write_all_closed _ _ _ _ _ _ _ He Sz Bg W) as CR.
  pose proof (closed_layout _ _ _ _ CR) as L. assert (Eo : weoff b = eoff) by (destruct CR as (? & ? & _ & _ & E & _); exact E).
  assert (R : readable (map fst h) vals (opened b) lo g).
  { split; [|split; [|split]]; cbn [opened reoff]; rewrite ?Eo; auto. exists kl. exact L. }
  pose proof (readable_len _ _ _ _ _ R) as Len. rewrite map_length in Len.
  assert (Lv : zlen vals = zlen h) by (unfold zlen; lia).
  rewrite (run_tree_vals _ _ _ _ _ off beg end_ R) by lia.
  eexists. split; [reflexivity|]. rewrite combine_length, zseq_length, sub_length by lia. split; [lia|].
  intros j Hj. destruct (nth_error vals (Z.to_nat (beg + j))) as [v|] eqn:Nv.
  2:{ apply nth_error_None in Nv. unfold zlen in *. lia. }
  exists v. split; auto.
  assert (Ns : nth_error (sub vals beg end_) (Z.to_nat j) = Some v).
  { unfold sub. rewrite nth_error_firstn by lia. rewrite nth_error_skipn. rewrite <- Nv. f_equal. lia. }
  assert (Nz : nth_error (zseq (beg + off) (Z.to_nat (end_ - beg))) (Z.to_nat j) = Some (beg + j + off)).
  { unfold zseq. rewrite nth_error_map. rewrite (nth_error_nth' _ 0%nat) by (rewrite seq_length; lia).
    rewrite seq_nth by lia. cbn. f_equal. lia. }
  revert Ns Nz. generalize (Z.to_nat j). generalize (sub vals beg end_). generalize (zseq (beg + off) (Z.to_nat (end_ - beg))).
  clear. induction l as [|x l IH]; intros [|y m] [|n] Ns Nz; cbn in *; try discriminate; [congruence|]. auto.
Qed.
Example C20_example : exists b, write_all 70 1000 12 false C18_h true = Ok b /\
  run_tree (opened b) 0 (ReadSint 4) 10 0 2 = Ok (Some [(10, 7); (11, 9)]) /\
  run_tree (opened b) 0 (ReadSint 4) 10 1 2 = Ok (Some [(11, 9)]) /\
  run_tree (opened b) 0 (ReadSint 4) 10 3 4 = Ok (Some [(13, 5)]).
Proof.
  eexists. split; [vm_compute; reflexivity|]. repeat split; vm_compute; reflexivity.
Qed.
(* A range is accepted exactly when it lies in the tree (a negative end means the number of entries). *)
Theorem C20_rejects entries beg end_ : let e := if end_ <? 0 then entries else end_ in
  setup entries beg end_ = (if (0 <=? beg) && (beg <=? e) && (e <=? entries) then Some (beg, e) else None).
Proof.
  cbv zeta. unfold setup. set (e := if end_ <? 0 then entries else end_).
  destruct (Z.leb_spec 0 beg), (Z.leb_spec beg e), (Z.leb_spec e entries), (Z.ltb_spec beg 0), (Z.ltb_spec e beg),
    (Z.ltb_spec entries beg), (Z.ltb_spec entries e); cbn; try reflexivity; lia.
Qed.
(* The read-ahead goroutine and the reader, under every schedule and for every read-ahead size n: what was delivered is
   a prefix of the baskets of the range; the buffer in use holds the basket last delivered; a schedule has at most
   10 steps a basket and 3 more, and can stop only after the end of the range has been delivered and announced. *)
Theorem C20_pipeline n l p k : (1 <= n)%nat -> pstepsn k (pipe0 n l) p ->
  (k <= 10 * length l + 3)%nat /\
  (exists rest, l = pgot p ++ rest) /\
  (forall t, pcur p = Some t -> exists g s, pgot p = g ++ [s] /\ pcont p t = Some s) /\
  (peof p = true -> pgot p = l) /\
  ((forall q, ~ pstep p q) -> peof p = true).
Proof.
  intros Hn H. destruct (pipe_bound _ _ _ _ H) as (B & I). split; [lia|].
  pose proof I as (Ic & It & (rs & hs & Il & Ir & Ih) & Icur & Icl & Ieof & Iw).
  split; [exists (rs ++ hs ++ ptodo p); exact Il|]. split; auto. split.
  - intros E. destruct (Ieof E) as (E1 & E2 & _). destruct (Icl E1) as (E3 & E4). rewrite E2, E3, E4 in *.
    destruct rs; [|discriminate]. destruct hs; [|discriminate]. cbn in Il. now rewrite app_nil_r in Il.
  - intros St. destruct (peof p) eqn:E; auto. destruct (progress n l p Hn I E) as (q & Q). destruct (St q Q).
Qed.
(* a schedule of two baskets and one buffer, to its end *)
Definition C20_spans := [{| sbeg := 0; send := 3; sid := 0 |}; {| sbeg := 3; send := 4; sid := 1 |}].
Lemma ps_step p q r : pstep p q -> psteps q r -> psteps p r.
Proof. intros H1 H2. revert H1. induction H2 as [|a b c H IH S]; intros H1; [econstructor; [constructor|auto]|econstructor; eauto]. Qed.
Example C20_pipeline_example : exists p, psteps (pipe0 1 C20_spans) p /\ peof p = true /\ pgot p = C20_spans.
Proof.
  eexists. split.
  - eapply ps_step; [eapply p_call; reflexivity|]; cbv.
    eapply ps_step; [eapply p_take; reflexivity|]; cbv.
    eapply ps_step; [eapply p_send; [reflexivity|cbn; lia]|]; cbv.
    eapply ps_step; [eapply p_recv; reflexivity|]; cbv.
    eapply ps_step; [eapply p_back; [reflexivity|reflexivity|cbn; lia]|]; cbv.
    eapply ps_step; [eapply p_take; reflexivity|]; cbv.
    eapply ps_step; [eapply p_send; [reflexivity|cbn; lia]|]; cbv.
    eapply ps_step; [eapply p_recv; reflexivity|]; cbv.
    eapply ps_step; [eapply p_close; reflexivity|]; cbv.
    eapply ps_step; [eapply p_back; [reflexivity|reflexivity|cbn; lia]|]; cbv.
    eapply ps_step; [eapply p_eof; reflexivity|]. apply ps_nil.
  - split; reflexivity.
Qed.

(* ---- C19 ---- *)
(* Access in increasing order of entries (not necessarily contiguous), from a fresh branch: the basket found is the one
   whose range contains the entry, and the entry is at its place in it. *)
Fixpoint loads (T : list Z) (c : dctx) (es : list Z) : res (option (list (Z * Z))) :=
  match es with
  | [] => Ok (Some [])
  | e :: es' =>
      do o <- loadBasket T c e;
      match o with
      | None => Ok None
      | Some (k, j, c') => do r <- loads T c' es'; Ok (match r with Some r => Some ((k, j) :: r) | None => None end)
      end
  end.
Definition fresh_ctx : dctx := {| did := 0; dfirst := -1; dnext := -1; dheld := [] |}.
Fixpoint nondecr (from : Z) (es : list Z) : Prop := match es with [] => True | e :: es' => from <= e /\ nondecr e es' end.
Theorem C19_forward_partial T es : 
  (forall i j a b, (i < j)%nat -> nth_error T i = Some a -> nth_error T j = Some b -> a < b) ->
  nth_error T 0 = Some 0 -> nondecr 0 es -> (forall e, In e es -> e < last T 0) ->
  exists out, loads T fresh_ctx es = Ok (Some out) /\
    Forall2 (fun e kj => exists a b, 0 <= fst kj /\ nth_error T (Z.to_nat (fst kj)) = Some a /\
       nth_error T (S (Z.to_nat (fst kj))) = Some b /\ a <= e < b /\ snd kj = e - a) es out.
Proof.
  intros Inc T0 Nd Lt.
  assert (G : forall es from c, 0 <= from -> reached T from c -> nondecr from es -> (forall e, In e es -> e < last T 0) ->
    exists out, loads T c es = Ok (Some out) /\
    Forall2 (fun e kj => exists a b, 0 <= fst kj /\ nth_error T (Z.to_nat (fst kj)) = Some a /\
       nth_error T (S (Z.to_nat (fst kj))) = Some b /\ a <= e < b /\ snd kj = e - a) es out).
  { clear es Nd Lt. induction es as [|e es IH]; intros from c F0 R N Lt.
    - exists []. split; auto.
    - destruct N as (N1 & N2). 
      assert (Cut : exists k a b, nth_error T k = Some a /\ nth_error T (S k) = Some b /\ a <= e < b).
      { destruct (least (fun k => match nth_error T (S k) with Some b => e <? b | None => false end) (length T - 2)) as (k & Lk & P & Fk).
        - specialize (Lt e (or_introl eq_refl)).
          assert (L2 : (2 <= length T)%nat).
          { clear -T0 Lt N1 F0. destruct T as [|t0 [|t1 T']]; [discriminate| |cbn; lia]. cbn in T0, Lt. injection T0 as ->. lia. }
          replace (S (length T - 2)) with (length T - 1)%nat by lia.
          rewrite (nth_last T 0) by (intros ->; cbn in L2; lia). now apply Z.ltb_lt.
        - destruct (nth_error T (S k)) as [b|] eqn:Nb; [|discriminate]. apply Z.ltb_lt in P.
          destruct (nth_error T k) as [a|] eqn:Na.
          + exists k, a, b. repeat split; auto. destruct k; [rewrite T0 in Na; injection Na as <-; lia|].
            specialize (Fk k ltac:(lia)). rewrite Na in Fk. apply Z.ltb_ge in Fk. lia.
          + apply nth_error_None in Na. assert (S k < length T)%nat by (apply nth_error_Some; congruence). lia. }
      destruct Cut as (k & a & b & Na & Nb & Hab).
      destruct (loadBasket_forward T c from e k a b Inc T0 Na Nb) as (c' & E & R'); auto; try lia.
      destruct (IH e c') as (out & Eo & Fo); auto; try lia. { intros; apply Lt; cbn; auto. }
      cbn [loads]. rewrite E. cbn [rbind]. rewrite Eo. cbn [rbind]. eexists. split; [reflexivity|]. constructor; auto.
      exists a, b. cbn. rewrite Nat2Z.id. repeat split; auto; lia. }
  apply (G es 0); auto; try lia. left. split; auto. lia.
Qed.
Example C19_example : loads [0; 3; 4; 9] fresh_ctx [1; 2; 2; 5; 8] = Ok (Some [(0, 1); (0, 2); (0, 2); (2, 1); (2, 4)]).
Proof. reflexivity. Qed.
(* Going back finds the wrong basket: after entry 6 of the third basket, entry 1 of the first one is looked for in the
   second, at position -2. *)
Theorem C19_backward_refuted : loads [0; 3; 6; 9] fresh_ctx [6; 1] = Ok (Some [(2, 0); (1, -2)]).
Proof. reflexivity. Qed.
(* Going back to entry 0 finds index 0 all right, but the basket that is held there is the first one that was loaded. *)
Theorem C19_held_refuted : loads [0; 3; 6; 9] fresh_ctx [6; 0] = Ok (Some [(2, 0); (2, 0)]).
Proof. reflexivity. Qed.

(* ---- C21 ---- *)
(* Trees as lists of values; a range of one tree is read as C20 says. *)
Definition reads_ranges {T A} (entries : T -> Z) (run1 : T -> Z -> Z -> Z -> res (option (list (Z * A)))) (vals : T -> list A) : Prop :=
  forall t, entries t = zlen (vals t) /\
    forall off beg end_, 0 <= beg -> beg <= end_ -> end_ <= entries t ->
      run1 t off beg end_ = Ok (Some (combine (zseq (beg + off) (Z.to_nat (end_ - beg))) (sub (vals t) beg end_))).
(* The chain has the entries of all its trees, and a non-empty range of it visits the concatenation of their values. *)
Theorem C21_chain_partial {T A} (entries : T -> Z) run1 (vals : T -> list A) ts off beg end_ : reads_ranges entries run1 vals ->
  chain_entries entries ts = zlen (concat (map vals ts)) /\
  (0 <= beg -> beg < end_ -> end_ <= chain_entries entries ts ->
   chain_run entries run1 ts off beg end_ =
     Ok (Some (combine (zseq (beg + off) (Z.to_nat (end_ - beg))) (sub (concat (map vals ts)) beg end_)))).
Proof.
  intros H. assert (H1 : forall t, entries t = zlen (vals t)) by (intros t; apply H).
  split; [now apply entries_spec|]. intros. apply chain_run_spec; auto. intros t. apply H.
Qed.
(* The trees the writer makes are such trees. *)
Theorem C21_trees {A} lo (g : rd A) :
  reads_ranges (T := {x : list (list Z) * list A * rbr | readable (fst (fst x)) (snd (fst x)) (snd x) lo g})
    (fun t => zlen (snd (fst (proj1_sig t)))) (fun t => run_tree (snd (proj1_sig t)) lo g) (fun t => snd (fst (proj1_sig t))).
Proof.
  intros t. split; auto. intros off beg end_ H0 H1 H2. destruct t as [[[es vals] b] R]. cbn in *.
  eapply run_tree_vals; eauto.
Qed.
(* a chain of three trees, the second one empty *)
Definition ex_run1 (t : list Z) (off beg end_ : Z) : res (option (list (Z * Z))) :=
  Ok (Some (combine (zseq (beg + off) (Z.to_nat (end_ - beg))) (sub t beg end_))).
Example C21_example : reads_ranges (@zlen Z) ex_run1 (fun t => t) /\
  chain_run (@zlen Z) ex_run1 [[1; 2; 3]; []; [4; 5]] 0 1 4 = Ok (Some [(1, 2); (2, 3); (3, 4)]).
Proof. split; [|reflexivity]. intros t. split; [reflexivity|]. intros; reflexivity. Qed.
(* Empty ranges: the end of the chain, an empty chain, or the boundary of two trees with an empty tree between. *)
Theorem C21_empty_refuted : 
  chain_run (@zlen Z) ex_run1 [[1; 2; 3]; [4; 5]] 0 5 5 = Panic /\
  chain_run (@zlen Z) ex_run1 [] 0 0 0 = Panic /\
  chain_run (@zlen Z) ex_run1 [[1; 2; 3]; []; [4; 5]] 0 3 3 = Panic.
Proof. repeat split. Qed.

(* ---- C22 ---- *)
Definition shares (t t' : jtree) : Prop := exists n, In n (jbranches t) /\ In n (jbranches t').
Lemma str_eqb_eq a b : str_eqb a b = true <-> a = b.
Proof. destruct (str_eqb_spec a b); split; congruence. Qed.
Lemma clash_spec ts : clash ts = true <-> exists i j t t', (i < j)%nat /\ nth_error ts i = Some t /\ nth_error ts j = Some t' /\ shares t t'.
Proof.
  induction ts as [|t ts IH]; cbn [clash].
  - split; [discriminate|]. intros (i & j & t & t' & _ & N & _). destruct i; discriminate.
  - rewrite orb_true_iff, IH. split.
    + intros [H|(i & j & a & b & L & Na & Nb & Sh)].
      * apply existsb_exists in H. destruct H as (t' & I & H). apply existsb_exists in H. destruct H as (n & In1 & H).
        apply existsb_exists in H. destruct H as (n' & In2 & E). apply str_eqb_eq in E. subst n'.
        apply In_nth_error in I. destruct I as (j & Nj). exists 0%nat, (S j), t, t'. repeat split; auto; [lia|]. exists n. auto.
      * exists (S i), (S j), a, b. repeat split; auto. lia.
    + intros (i & j & a & b & L & Na & Nb & (n & I1 & I2)). destruct i as [|i], j as [|j]; try lia.
      * left. cbn in Na. injection Na as <-. cbn in Nb. apply existsb_exists. exists b. split; [eapply nth_error_In; eauto|].
        apply existsb_exists. exists n. split; auto. apply existsb_exists. exists n. split; auto. now apply str_eqb_eq.
      * right. cbn in Na, Nb. exists i, j, a, b. repeat split; auto; [lia|]. exists n. auto.
Qed.
(* Join succeeds exactly when there is a tree, all have the same number of entries and no two different trees share a
   branch name; it then has that many entries and the branches of all the trees, in order. *)
Theorem C22_join ts n names : Join ts = Some (n, names) <->
  ts <> [] /\ (forall t, In t ts -> jentries t = n) /\
  (forall i j t t', (i < j)%nat -> nth_error ts i = Some t -> nth_error ts j = Some t' -> ~ shares t t') /\
  names = concat (map jbranches ts).
Proof.
  destruct ts as [|t0 ts]; cbn [Join].
  - split; [discriminate|]. intros (H & _). congruence.
  - destruct (existsb (fun t' => negb (jentries t' =? jentries t0)) ts) eqn:Ee.
    + split; [discriminate|]. intros (_ & H & _). apply existsb_exists in Ee. destruct Ee as (t' & I & E).
      rewrite negb_true_iff, Z.eqb_neq in E. rewrite (H t') in E by (cbn; auto). rewrite (H t0) in E by (cbn; auto). congruence.
    + assert (All : forall t, In t (t0 :: ts) -> jentries t = jentries t0).
      { intros t [<-|I]; auto. destruct (Z.eq_dec (jentries t) (jentries t0)) as [|N]; auto.
        assert (existsb (fun t' => negb (jentries t' =? jentries t0)) ts = true); [|congruence].
        apply existsb_exists. exists t. split; auto. now rewrite negb_true_iff, Z.eqb_neq. }
      destruct (clash (t0 :: ts)) eqn:Ec.
      * split; [discriminate|]. intros (_ & _ & H & _). apply clash_spec in Ec. destruct Ec as (i & j & a & b & L & Na & Nb & Sh).
        destruct (H i j a b L Na Nb Sh).
      * split.
        -- intros H. inversion H; subst. split; [discriminate|]. split; auto. split; auto.
           intros i j a b L Na Nb Sh. assert (clash (t0 :: ts) = true); [|congruence]. apply clash_spec. eauto 10.
        -- intros (_ & H & _ & ->). rewrite (H t0) by (cbn; auto). reflexivity.
Qed.
(* Branches with the same number of entries, whatever their trees and basket layouts, are read in lock step. *)
Theorem C22_lock_step {A} (d : A) n (cols : list (list (list Z) * list A * (rbr * (Z * rd A)))) off beg end_ :
  (forall es vals b lo g, In (es, vals, (b, (lo, g))) cols -> readable es vals b lo g /\ zlen vals = n) ->
  0 <= beg -> beg < end_ -> end_ <= n ->
  exists out, run_branches (map snd cols) off beg end_ = Ok (Some out) /\
    length out = Z.to_nat (end_ - beg) /\
    forall j, 0 <= j < end_ - beg ->
      nth_error out (Z.to_nat j) = Some (beg + j + off, map (fun x => nth (Z.to_nat (beg + j)) (snd (fst x)) d) cols).
Proof.
  intros H H0 H1 H2.
  assert (C : Forall (col_ok n) cols).
  { apply Forall_forall. intros [[es vals] [b [lo g]]] I. apply H in I. exact I. }
  destruct (start_all_spec n beg end_ H0 H1 H2 cols C) as (sts & E & F).
  unfold run_branches. rewrite E. cbn [rbind].
  rewrite (join_loop_spec d n end_ off H2 cols C _ beg sts) by (auto; lia).
  eexists. split; [reflexivity|]. rewrite map_length, zseq_length. split; auto.
  intros j Hj. unfold zseq. rewrite map_map, nth_error_map. rewrite (nth_error_nth' _ 0%nat) by (rewrite seq_length; lia).
  rewrite seq_nth by lia. cbn [option_map plus]. rewrite Z2Nat.id by lia. reflexivity.
Qed.
Definition s_ (n : Z) : str := [n].
Example C22_example :
  Join [{| jname := s_ 1; jentries := 3; jbranches := [s_ 97] |}; {| jname := s_ 2; jentries := 3; jbranches := [s_ 98; s_ 99] |}] =
    Some (3, [s_ 97; s_ 98; s_ 99]) /\
  Join [{| jname := s_ 1; jentries := 3; jbranches := [s_ 97] |}; {| jname := s_ 2; jentries := 3; jbranches := [s_ 97] |}] = None.
Proof. split; reflexivity. Qed.
Example C22_lock_step_example : exists b1 b2,
  write_all 70 0 8 false (map (fun v => (be 4 v, (false, false))) [1; 2; 3]) false = Ok b1 /\
  write_all 70 0 100 false (map (fun v => (be 4 v, (false, false))) [7; 8; 9]) false = Ok b2 /\
  run_branches [(opened b1, (0, ReadSint 4)); (opened b2, (0, ReadSint 4))] 0 1 3 = Ok (Some [(1, [2; 8]); (2, [3; 9])]).
Proof.
  eexists _, _. split; [vm_compute; reflexivity|]. split; [vm_compute; reflexivity|]. vm_compute. reflexivity.
Qed.
(* A name that occurs twice in one tree is accepted. *)
Theorem C22_unique_refuted : exists ts n names, Join ts = Some (n, names) /\ ~ NoDup names.
Proof.
  exists [{| jname := s_ 1; jentries := 3; jbranches := [s_ 97; s_ 97] |}], 3, [s_ 97; s_ 97]. split; [reflexivity|].
  intros H. inversion H; subst. cbn in *. tauto.
Qed.

Print Assumptions C18_partition_partial.
Print Assumptions C18_total.
Print Assumptions C18_total_refuted.
Print Assumptions C18_flush_refuted.
Print Assumptions C19_forward_partial.
Print Assumptions C19_backward_refuted.
Print Assumptions C19_held_refuted.
Print Assumptions C20_range.
Print Assumptions C20_rejects.
Print Assumptions C20_pipeline.
Print Assumptions C21_chain_partial.
Print Assumptions C21_trees.
Print Assumptions C21_empty_refuted.
Print Assumptions C22_join.
Print Assumptions C22_lock_step.
Print Assumptions C22_unique_refuted.
