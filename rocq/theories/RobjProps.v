(* C57: graphs of objects written with WriteObjectAny are read back by ReadObjectAny with the
   same shape: the same contents, the same sharing. *)
From Coq Require Import ZArith List Bool Arith Lia.
From Verif Require Import GoLib Bytes Bits GoStrings RbytesModel RbytesProofs RobjModel RobjProofs.
Import ListNotations.
Local Open Scope Z_scope.
Local Arguments be : simpl never.
Local Arguments unbe : simpl never.

(* every pointer leads to an object of the heap, and following pointers never comes back:
   a rank decreases along every pointer *)
Definition well_formed (heap : list robj) (rank : nat -> nat) : Prop :=
  forall i o j, nth_error heap i = Some o -> In (Some j) (ptrs o) ->
    (rank j < rank i)%nat /\ nth_error heap j <> None.
Definition all_legal (heap : list robj) : Prop := forall i o, nth_error heap i = Some o -> legal o.
Definition points_in (heap : list robj) (q : ptr) : Prop :=
  match q with None => True | Some i => nth_error heap i <> None end.

(* reachable from a list of pointers *)
Inductive reach (heap : list robj) (roots : list ptr) : nat -> Prop :=
| r_root i : In (Some i) roots -> reach heap roots i
| r_step i o j : reach heap roots i -> nth_error heap i = Some o -> In (Some j) (ptrs o) -> reach heap roots j.

(* m is a one-to-one correspondence between the objects that were written and objects that
   were read, under which the contents agree; a pointer is read as the object that stands
   for the one it pointed to (so equal pointers stay equal and different ones different) *)
Record same_graph (heap : list robj) (roots : list ptr) (read : list (option robj)) (got : list ptr) (m : mp) : Prop := {
  g_roots : Forall2 (corr_ptr m) roots got;
  g_inj : forall i j k, m i = Some k -> m j = Some k -> i = j;
  g_all : forall i, reach heap roots i -> exists k, m i = Some k;
  g_obj : forall i k, m i = Some k -> exists o o', nth_error heap i = Some o /\
            nth_error read k = Some (Some o') /\ corr m o o' }.

Definition start_w (w : wbuf) : wst := {| wb := w; wro := []; wrc := [] |}.
Definition start_r (r : rbuf) : rst := {| rb := r; rr := []; rh := [] |}.

Lemma corr_ptrs m o o' j : corr m o o' -> In (Some j) (ptrs o) -> exists k, m j = Some k.
Proof.
  intros C. destruct C; cbn [ptrs]; try (intros []).
  - induction H as [|[a x] [b y] t u [H1 H2] HT IH]; cbn [map fst In]; [intros []|].
    intros [->|I]; auto. destruct b; [|contradiction]. cbn in H1. eauto.
  - induction H as [|a b t u H1 HT IH]; cbn [In]; [intros []|].
    intros [->|I]; auto. destruct b; [|contradiction]. cbn in H1. eauto.
  - induction H as [|[a x] [b y] t u [H1 H2] HT IH]; cbn [flat_map fst snd app In] in *; [intros []|].
    intros [->|[->|I]]; auto.
    + destruct b; [|contradiction]. cbn in H1. eauto.
    + destruct y; [|contradiction]. cbn in H2. eauto.
Qed.

Lemma bounded_rank (rank : nat -> nat) (roots : list ptr) :
  exists R, forall i, In (Some i) roots -> (rank i < R)%nat.
Proof.
  induction roots as [|[j|] t (R & IH)].
  - exists O. intros i [].
  - exists (S (Nat.max R (rank j))). intros i [E|I]; [injection E as <-; lia|]. specialize (IH i I). lia.
  - exists R. intros i [E|I]; [discriminate E|auto].
Qed.

(* Writing the pointers [roots], nil or not, one after the other in a buffer always ends
   (with enough stack).  If the buffer stays below 1 GiB, a reader placed on these bytes,
   at the same position, gives as many pointers, consumes exactly these bytes, and has made
   the same graph. *)
Theorem C57_round_trip junk sictx heap rank roots w0 :
  well_formed heap rank -> all_legal heap -> Forall (points_in heap) roots ->
  wf w0 -> 0 <= woff w0 ->
  exists F, forall fuel, (F <= fuel)%nat -> exists w1 bs,
    mar_ptrs (WriteObjectAny junk heap fuel) roots (start_w w0) = Ok w1 /\
    werr (wb w1) = false /\ wBytes (wb w1) = wBytes w0 ++ bs /\
    (wPos (wb w1) < 2 ^ 30 -> forall r suf,
       rerr r = false -> (rc r <= length (rp r))%nat -> skipn (rc r) (rp r) = bs ++ suf -> rPos r = wPos w0 ->
       exists got s m,
         unm_ptrs (ReadObjectAny sictx fuel) (length roots) (start_r r) = Ok (got, s) /\
         rb s = adv r (length bs) /\
         same_graph heap roots (rh s) got m).
Proof.
  intros WF LG PR W O.
  destruct (bounded_rank rank roots) as (R & HR). exists (S R). intros fuel HF.
  assert (BL : Forall (below heap rank R) roots).
  { rewrite Forall_forall in PR |- *. intros q I. specialize (PR q I). destruct q as [i|]; cbn in *; auto. }
  set (p0 := {| pp := wPos w0; po := []; pc := [] |}).
  assert (T : total (pall (map (pany heap fuel) roots))).
  { apply pall_total, Forall_map'. intros q I. rewrite Forall_forall in BL.
    apply (pany_total heap rank WF fuel R q HF (BL q I)). }
  destruct (pall (map (pany heap fuel) roots) p0) as [[bs p1]|] eqn:EP; [|destruct (T _ EP)].
  destruct (mar_ptrs_sim _ _ (WriteObjectAny_sim junk heap fuel) roots (start_w w0) p0 bs p1) as (w1 & E1 & S1 & R1); auto.
  { split; [exact W|]. cbn. auto. }
  exists w1, bs. split; auto. split; [apply S1|]. split; [apply S1|].
  intros HL r suf RE RC RS RP. destruct R1 as (_ & P1 & _ & _). rewrite P1 in HL.
  destruct (unm_ptrs_spec heap rank R [] (ReadObjectAny sictx fuel) (pany heap fuel) (pany_moves heap fuel)
              (fun q m0 B => ReadObjectAny_spec heap rank WF LG sictx fuel R [] q m0 (fun j (X : In j []) => match X with end) B)
              roots (fun _ => None) BL (fun _ => None) p0 (start_r r) bs p1) as (got & s & m & X1 & X2 & X3 & X4 & X5); auto.
  - apply ext_refl.
  - split; cbn [start_r rb rr rh p0 pp po pc].
    + exact RP.
    + unfold wPos. lia.
    + intros i ref E; discriminate E.
    + intros i k E; discriminate E.
    + intros c ref E; discriminate E.
    + intros k E; cbn in E; congruence.
    + intros i k E; discriminate E.
    + intros i j k E; discriminate E.
  - split; auto. split; auto. exists suf; auto.
  - exists got, s, m. split; auto. split; auto. destruct X3 as [J1 J2 J3 J4 J5 J6 J7 J8]. split; auto.
    intros i RI. induction RI as [i I|i o j RI (k & IH) EO I].
    + clear -X5 I. induction X5 as [|a b t u H HT IH]; [destruct I|].
      destruct I as [->|I]; auto. destruct b; [|contradiction]. cbn in H. eauto.
    + destruct (J7 _ _ IH) as (o1 & o2 & Y1 & Y2 & Y3). rewrite EO in Y1. injection Y1 as <-.
      eapply corr_ptrs; eauto.
Qed.

(* ------------------------------------------------------------------ an example *)
Definition h_obj : tobj := {| tID := 0; tBits := 50331648 |}.
Definition h_ref : tobj := {| tID := 2 ^ 24 + 5; tBits := 16 |}.
(* an array with a name twice, a nil, a list of the name and a string, and a map from the
   string to the list *)
Definition ex_heap : list robj :=
  [ OArr h_obj [97] 0 [Some 1%nat; Some 2%nat; None; Some 1%nat; Some 4%nat];
    ONamed h_ref [110] [116; 116];
    OList false h_obj [] [(Some 1%nat, [111]); (Some 3%nat, [])];
    OObjString h_obj [115; 116; 114];
    OMap h_obj [109] [(Some 3%nat, Some 2%nat)] ].
Definition ex_rank (i : nat) : nat := nth i [3; 0; 1; 0; 2]%nat 0%nat.
Definition w_empty : wbuf := {| wp := []; wc := 0; werr := false; woff := 60 |}.
Definition ex_run := mar_ptrs (WriteObjectAny (fun _ => 0) ex_heap 6) [Some 0%nat; Some 3%nat] (start_w w_empty).
Definition ex_bytes : list Z := match ex_run with Ok s => wBytes (wb s) | Panic => [] end.
Definition ex_read := unm_ptrs (ReadObjectAny None 6) 2
  (start_r {| rp := ex_bytes; rc := 0; rerr := false; roff := 60 |}).

Example C57_example_hypotheses : well_formed ex_heap ex_rank /\ all_legal ex_heap /\
  Forall (points_in ex_heap) [Some 0%nat; Some 3%nat] /\ wf w_empty /\ 0 <= woff w_empty.
Proof.
  split; [|split; [|split; [|split]]].
  - intros i o j E I.
    destruct i as [|[|[|[|[|i]]]]]; cbn in E; try (destruct i; discriminate E); injection E as <-;
      cbn in I; repeat (destruct I as [I|I]); try discriminate I; try contradiction;
      injection I as <-; cbn; split; (lia || discriminate).
  - assert (OL : obj_legal h_obj /\ obj_legal h_ref) by (unfold obj_legal, inU; cbn; lia).
    assert (ST : forall v, (forall b, In b v -> 0 < b < 256) -> (length v < 10)%nat -> str_ok v).
    { intros v H L. split; [apply Forall_forall; intros b I; specialize (H b I); unfold byte_ok; lia|].
      split; [lia|]. destruct v; cbn; [discriminate|]. intros E. injection E as ->. specialize (H 0 (or_introl eq_refl)). lia. }
    assert (SO : forall v, Forall (fun b => 0 < b < 256) v -> (length v < 10)%nat -> str_ok v).
    { intros v H L. apply ST; auto. rewrite Forall_forall in H. auto. }
    intros i o E.
    destruct i as [|[|[|[|[|i]]]]]; cbn in E; try (destruct i; discriminate E); injection E as <-;
      cbn [legal];
      destruct OL; repeat match goal with
        | |- _ /\ _ => split
        | |- obj_legal _ => assumption
        | |- str_ok _ => apply SO; [|cbn; lia]
        | |- Forall _ _ => constructor
        | |- NoDup _ => constructor
        | |- _ <> _ => discriminate
        | |- ~ _ => intros []
        end; try lia; cbn; unfold inS; lia.
  - repeat constructor; discriminate.
  - split; cbn; auto.
  - cbn; lia.
Qed.
(* what comes out: objects are numbered in the order in which the reader makes them *)
Example C57_example_result : exists s, ex_read = Ok ([Some 0%nat; Some 3%nat], s) /\
  rh s = [ Some (OArr h_obj [97] 0 [Some 1%nat; Some 2%nat; None; Some 1%nat; Some 4%nat]);
           Some (ONamed {| tID := 5; tBits := 16777232 |} [110] [116; 116]);
           Some (OList false h_obj [] [(Some 1%nat, [111]); (Some 3%nat, [])]);
           Some (OObjString h_obj [115; 116; 114]);
           Some (OMap h_obj [109] [(Some 3%nat, Some 2%nat)]) ] /\
  rLen (rb s) = 0 /\ (length ex_bytes = 238)%nat.
Proof. eexists. split; [vm_compute; reflexivity|]. split; [vm_compute; reflexivity|]. split; vm_compute; reflexivity. Qed.

(* ------------------------------------------------------------------ cycles *)
(* The comment of WriteClass says that the reference is recorded first "to handle self
   reference"; the reader records it last, so a reference to an object from its own contents
   is unknown to the reader.  It then skips the reference without clearing the flag in the
   byte count: one gibibyte too far.  The object is read with an error, or a panic as soon as
   something follows. *)
Lemma rPos_rsetPos p r : roff r <= p -> rPos (rsetPos p r) = p.
Proof. intros H. unfold rPos, rsetPos, r_set_c. cbn [rc roff]. lia. Qed.
Lemma dangling sictx any s ref : at_ (rb s) (bcnt_bytes 4 ++ be 4 ref) -> 2 <= ref < 2 ^ 30 ->
  lookup Z.eqb ref (rr s) = None ->
  ReadAny sictx any s =
    Ok (None, {| rb := rsetPos (rPos (rb s) + (4 + 2 ^ 30) + 4) (adv (rb s) 8); rr := rr s; rh := rh s |}).
Proof.
  intros AT HR LK. unfold ReadAny. rewrite (proj1 AT). destruct (at_app _ _ _ AT) as [A1 A2].
  unfold lift at 1. rewrite (bcnt_reads 4) by (auto; cbn; lia). cbn [rbind fst snd].
  change (Z.of_nat 4 + 2 ^ 30) with (4 + 2 ^ 30). unfold kByteCountMask.
  rewrite land_pow2_nz, testbit_add_pow2 by lia. change (4 + 2 ^ 30 =? kNewClassTag) with false. cbn [negb orb].
  rewrite !bcnt_len in *.
  unfold lift at 1. cbn [rb]. rewrite (ReadUint_reads 4 ref) by (auto; unfold inU; cbn; lia). cbn [rbind fst snd].
  unfold kClassMask. rewrite land_pow2_nz, (testbit_small ref 31) by lia. cbn [negb].
  destruct (Z.eqb_spec ref 0); [lia|]. destruct (Z.eqb_spec ref 1); [lia|]. cbn [rr]. rewrite LK.
  unfold set_rb. cbn [rb rr rh]. rewrite adv_adv, be_length. reflexivity.
Qed.
Lemma dangling' sictx any s ref : at_ (rb s) (bcnt_bytes 4 ++ be 4 ref) -> 2 <= ref < 2 ^ 30 ->
  lookup Z.eqb ref (rr s) = None ->
  exists t, ReadAny sictx any s = Ok (None, t) /\ rerr (rb t) = false /\ rp (rb t) = rp (rb s) /\ roff (rb t) = roff (rb s) /\
    rPos (rb t) = rPos (rb s) + 8 + 2 ^ 30.
Proof.
  intros AT HR LK. eexists. split; [apply (dangling sictx any s ref); assumption|].
  pose proof (proj1 AT) as E. split; [exact E|]. split; [reflexivity|]. split; [reflexivity|].
  cbn [rb]. rewrite rPos_rsetPos; [lia|]. cbn [adv r_set_c roff]. unfold rPos. lia.
Qed.
Lemma ReadObjectAny_S sictx fuel s : ReadObjectAny sictx (S fuel) s = ReadAny sictx (ReadObjectAny sictx fuel) s.
Proof. reflexivity. Qed.

Definition cyc1 (n : nat) : list robj := [OArr h_obj [] 0 (repeat (Some 0%nat) n)].
Definition cyc1_bytes (n : nat) : list Z :=
  match WriteObjectAny (fun _ => 0) (cyc1 n) 5 (Some 0%nat) (start_w w_empty) with
  | Ok w => wBytes (wb w) | Panic => [] end.
(* runs the reader on known bytes, one operation at a time *)
Ltac red1 := first
  [ match goal with |- context [rbind (lift ?f ?s) _] =>
      let v := eval vm_compute in (lift f s) in
      replace (lift f s) with v by (vm_compute; reflexivity) end
  | match goal with |- context [if ?b then _ else _] =>
      let v := eval vm_compute in b in
      match v with
      | true => replace b with true by (vm_compute; reflexivity)
      | false => replace b with false by (vm_compute; reflexivity)
      end end ]; cbv zeta; cbn [rbind fst snd]; cbv beta.

(* up to the elements of the array *)
Definition cyc1_mid (n : nat) : rst :=
  {| rb := {| rp := cyc1_bytes n; rc := 43; rerr := false; roff := 60 |};
     rr := [(66, RCls sTObjArray)]; rh := [None] |}.
Definition cyc1_hdr (n : nat) : Header :=
  {| hName := sTObjArray; hVers := 3; hPos := 78; hLen := 21 + 8 * Z.of_nat n; hMW := false |}.

Lemma cyc1_prefix n fuel : n = 1%nat \/ n = 2%nat ->
  ReadObjectAny None (S fuel) (start_r {| rp := cyc1_bytes n; rc := 0; rerr := false; roff := 60 |}) =
  (do ls <- unm_ptrs (ReadObjectAny None fuel) n (cyc1_mid n);
   let s := set_rb (CheckHeader (cyc1_hdr n) (rb (snd ls))) (snd ls) in
   let s := set_rh (upd (rh s) 0 (Some (OArr h_obj [] 0 (fst ls)))) s in
   if rerr (rb s) then Ok (None, s) else Ok (Some 0%nat, set_rr 62 (RObj 0) s)).
Proof.
  intros H. cbn [ReadObjectAny]. set (any := ReadObjectAny None fuel). clearbody any. unfold ReadAny, start_r.
  cbn [rb]. destruct H as [-> | ->].
  all: do 7 red1; cbn iota; unfold alloc, fill; cbn iota; red1.
  all: match goal with |- context [unmarshal None ?a ?c] => change (unmarshal None a c) with (unm_arr None a) end;
    unfold unm_arr, rseq; repeat red1.
  all: match goal with |- context [unm_ptrs _ ?k ?s] => 
    let k' := eval vm_compute in k in
    replace k with k' by (vm_compute; reflexivity) end.
  all: match goal with |- context [unm_ptrs _ ?k ?s] => 
    match s with cyc1_mid _ => fail 1 | _ => replace s with (cyc1_mid k) by (vm_compute; reflexivity) end end.
  all: match goal with |- context [unm_ptrs ?a ?k ?s] => destruct (unm_ptrs a k s) as [ls|]; reflexivity end.
Qed.
Lemma bytes_at n : n = 1%nat \/ n = 2%nat -> at_ (rb (cyc1_mid n)) (bcnt_bytes 4 ++ be 4 62).
Proof.
  intros [-> | ->]; (split; [reflexivity|]; split; [vm_compute; lia|]).
  - exists []. vm_compute. reflexivity.
  - exists (bcnt_bytes 4 ++ be 4 62). vm_compute. reflexivity.
Qed.
Theorem C57_self_reference_refuted :
  exists heap w1,
    Forall (points_in heap) [Some 0%nat] /\ all_legal heap /\
    WriteObjectAny (fun _ => 0) heap 5 (Some 0%nat) (start_w w_empty) = Ok w1 /\ werr (wb w1) = false /\
    forall fuel, exists s,
      ReadObjectAny None (S (S fuel)) (start_r {| rp := wBytes (wb w1); rc := 0; rerr := false; roff := 60 |}) = Ok (None, s) /\
      rerr (rb s) = true.
Proof.
  exists (cyc1 1). eexists. split; [repeat constructor; discriminate|]. split; [|split; [vm_compute; reflexivity|]].
  { intros [|i] o E; [|destruct i; discriminate E]. injection E as <-. cbn [legal length repeat].
    split; [unfold obj_legal, inU; cbn; lia|]. split; [|unfold inS; cbn; lia].
    split; [constructor|]. split; [cbn; lia|discriminate]. }
  split; [reflexivity|]. intros fuel.
  match goal with |- context [start_r {| rp := ?b |}] => replace b with (cyc1_bytes 1) by (vm_compute; reflexivity) end.
  rewrite cyc1_prefix by auto. cbn [unm_ptrs]. unfold rseq at 1.
  assert (R62 : 2 <= 62 < 2 ^ 30) by lia.
  destruct (dangling' None (ReadObjectAny None fuel) _ 62 (bytes_at 1 (or_introl eq_refl)) R62 eq_refl)
    as (t & D & Te & Tp & To & TP).
  rewrite ReadObjectAny_S, D. clear D. cbn [rbind fst snd].
  unfold rseq, rret. cbn [rbind fst snd].
  assert (C : rerr (CheckHeader (cyc1_hdr 1) (rb t)) = true).
  { unfold CheckHeader. rewrite Te. change (hLen (cyc1_hdr 1) <=? 0) with false. cbn iota.
    rewrite TP. reflexivity. }
  cbv zeta. unfold set_rb, set_rh. cbn [rb rh rr fst snd]. rewrite Te. cbn [rbind fst snd]. rewrite C. eexists. split; [reflexivity|]. exact C.
Qed.
Theorem C57_self_reference_panic_refuted :
  exists heap w1,
    Forall (points_in heap) [Some 0%nat] /\ all_legal heap /\
    WriteObjectAny (fun _ => 0) heap 5 (Some 0%nat) (start_w w_empty) = Ok w1 /\ werr (wb w1) = false /\
    forall fuel,
      ReadObjectAny None fuel (start_r {| rp := wBytes (wb w1); rc := 0; rerr := false; roff := 60 |}) = Panic.
Proof.
  exists (cyc1 2). eexists. split; [repeat constructor; discriminate|]. split; [|split; [vm_compute; reflexivity|]].
  { intros [|i] o E; [|destruct i; discriminate E]. injection E as <-. cbn [legal length repeat].
    split; [unfold obj_legal, inU; cbn; lia|]. split; [|unfold inS; cbn; lia].
    split; [constructor|]. split; [cbn; lia|discriminate]. }
  split; [reflexivity|]. intros fuel.
  match goal with |- context [start_r {| rp := ?b |}] => replace b with (cyc1_bytes 2) by (vm_compute; reflexivity) end.
  destruct fuel as [|fuel]; [reflexivity|].
  rewrite cyc1_prefix by auto. destruct fuel as [|fuel]; [reflexivity|]. cbn [unm_ptrs]. unfold rseq at 1.
  assert (R62 : 2 <= 62 < 2 ^ 30) by lia.
  destruct (dangling' None (ReadObjectAny None fuel) _ 62 (bytes_at 2 (or_intror eq_refl)) R62 eq_refl)
    as (t & D & Te & Tp & To & TP).
  rewrite ReadObjectAny_S, D. clear D. cbn [rbind fst snd].
  rewrite Te. unfold rseq. rewrite ReadObjectAny_S.
  assert (X : ReadAny None (ReadObjectAny None fuel) t = Panic).
  { unfold ReadAny. rewrite Te. unfold lift at 1, ReadUint at 1. rewrite Te. unfold take.
    assert (LP : length (rp (rb t)) = 59%nat) by (rewrite Tp; reflexivity). rewrite LP.
    unfold rPos in TP. rewrite To in TP. cbn [cyc1_mid rb roff rc] in TP.
    destruct (Nat.leb_spec (rc (rb t) + 4) 59); [lia|]. reflexivity. }
  rewrite X. reflexivity.
Qed.

(* A cycle through an object that is not the first of its class: the reference is recorded
   after the contents, and writing never ends, whatever the stack. *)
Definition cyc2 : list robj := [OArr h_obj [] 0 [Some 1%nat]; OArr h_obj [] 0 [Some 1%nat]].
Lemma cyc2_loop junk fuel : forall s ref, wf (wb s) -> lookup Nat.eqb 1%nat (wro s) = None ->
  lookup str_eqb sTObjArray (wrc s) = Some ref ->
  WriteObjectAny junk cyc2 fuel (Some 1%nat) s = Panic.
Proof.
  induction fuel as [|fuel IH]; intros s ref W LO LC; [reflexivity|].
  cbn [WriteObjectAny]. rewrite (proj2 W). cbv zeta.
  assert (ON : forall op bs s, emits op bs -> wf (wb s) -> exists w, on_wb op s = Ok {| wb := w; wro := wro s; wrc := wrc s |} /\ wf w).
  { intros op bs t E H. destruct (E _ H) as (w & X & S & _). unfold on_wb. rewrite X. cbn [rbind].
    exists w. split; auto. apply S. }
  destruct (ON _ _ s (WriteInt_emits junk 4 0) W) as (w1 & E1 & W1). rewrite E1. cbn [rbind].
  unfold WriteClass. cbn [wb wro wrc]. rewrite (proj2 W1), LO. cbn [nth_error cyc2 class_of]. cbv zeta. rewrite LC.
  destruct (ON _ _ {| wb := w1; wro := wro s; wrc := wrc s |} (WriteInt_emits junk 4 (Z.lor (wrapU 32 ref) kClassMask)) W1)
    as (w2 & E2 & W2). rewrite E2. cbn [rbind wb wro wrc].
  cbn [marshal]. unfold with_header. cbn [wb wro wrc]. rewrite (proj2 W2).
  destruct (WriteHeader_step junk sTObjArray vObjArray w2 W2) as (w3 & E3 & S3). rewrite E3. cbn [rbind fst snd].
  destruct (ON _ _ {| wb := w3; wro := wro s; wrc := wrc s |} (mar_obj_emits junk h_obj) (proj1 S3)) as (w4 & E4 & W4).
  rewrite E4. cbn [rbind].
  destruct (ON _ _ {| wb := w4; wro := wro s; wrc := wrc s |} (WriteString_emits junk []) W4) as (w5 & E5 & W5).
  cbn [wb wro wrc] in *. rewrite E5. cbn [rbind].
  destruct (ON _ _ {| wb := w5; wro := wro s; wrc := wrc s |} (WriteInt_emits junk 4 (Z.of_nat (@length ptr [Some 1%nat]))) W5) as (w6 & E6 & W6).
  cbn [wb wro wrc] in *. rewrite E6. cbn [rbind].
  destruct (ON _ _ {| wb := w6; wro := wro s; wrc := wrc s |} (WriteInt_emits junk 4 0) W6) as (w7 & E7 & W7).
  cbn [wb wro wrc] in *. rewrite E7. cbn [rbind mar_ptrs].
  rewrite (IH {| wb := w7; wro := wro s; wrc := wrc s |} ref W7 LO LC). reflexivity.
Qed.
Theorem C57_cycle_writes_forever_refuted :
  exists heap root, Forall (points_in heap) [Some root] /\ all_legal heap /\
    forall junk fuel, WriteObjectAny junk heap fuel (Some root) (start_w w_empty) = Panic.
Proof.
  exists cyc2, 0%nat. split; [repeat constructor; discriminate|]. split.
  { intros i o E. assert (o = OArr h_obj [] 0 [Some 1%nat]) as ->.
    { destruct i as [|[|i]]; cbn in E; try (injection E as <-; auto). destruct i; discriminate E. }
    cbn [legal length]. split; [unfold obj_legal, inU; cbn; lia|]. split; [|unfold inS; cbn; lia].
    split; [constructor|]. split; [cbn; lia|discriminate]. }
  intros junk fuel. destruct fuel as [|fuel]; [reflexivity|].
  cbn [WriteObjectAny]. change (werr (wb (start_w w_empty))) with false. cbv zeta.
  assert (W : wf (wb (start_w w_empty))) by (split; cbn; auto).
  assert (ON : forall op bs s, emits op bs -> wf (wb s) -> exists w, on_wb op s = Ok {| wb := w; wro := wro s; wrc := wrc s |} /\ wf w).
  { intros op bs t E H. destruct (E _ H) as (w & X & S & _). unfold on_wb. rewrite X. cbn [rbind].
    exists w. split; auto. apply S. }
  destruct (ON _ _ (start_w w_empty) (WriteInt_emits junk 4 0) W) as (w1 & E1 & W1). rewrite E1. cbn [rbind].
  unfold WriteClass. cbn [wb wro wrc start_w]. rewrite (proj2 W1). cbn [lookup nth_error cyc2 class_of]. cbv zeta.
  destruct (ON _ _ {| wb := w1; wro := []; wrc := [] |} (WriteInt_emits junk 4 kNewClassTag) W1) as (w2 & E2 & W2).
  cbn [wb wro wrc] in *. rewrite E2. cbn [rbind].
  destruct (ON _ _ {| wb := w2; wro := []; wrc := [] |} (WriteCString_emits junk sTObjArray) W2) as (w2' & E2' & W2').
  cbn [wb wro wrc] in *. rewrite E2'. cbn [rbind].
  cbn [marshal]. unfold with_header, set_ro, set_rc. cbn [wb wro wrc]. rewrite (proj2 W2').
  match goal with |- context [{| wb := snd _; wro := ?a; wrc := ?b |}] => set (ro := a); set (rc' := b) end.
  destruct (WriteHeader_step junk sTObjArray vObjArray w2' W2') as (w3 & E3 & S3). rewrite E3. cbn [rbind fst snd].
  destruct (ON _ _ {| wb := w3; wro := ro; wrc := rc' |} (mar_obj_emits junk h_obj) (proj1 S3)) as (w4 & E4 & W4).
  rewrite E4. cbn [rbind].
  destruct (ON _ _ {| wb := w4; wro := ro; wrc := rc' |} (WriteString_emits junk []) W4) as (w5 & E5 & W5).
  cbn [wb wro wrc] in *. rewrite E5. cbn [rbind].
  destruct (ON _ _ {| wb := w5; wro := ro; wrc := rc' |} (WriteInt_emits junk 4 (Z.of_nat (@length ptr [Some 1%nat]))) W5) as (w6 & E6 & W6).
  cbn [wb wro wrc] in *. rewrite E6. cbn [rbind].
  destruct (ON _ _ {| wb := w6; wro := ro; wrc := rc' |} (WriteInt_emits junk 4 0) W6) as (w7 & E7 & W7).
  cbn [wb wro wrc] in *. rewrite E7. cbn [rbind mar_ptrs].
  rewrite (cyc2_loop junk fuel {| wb := w7; wro := ro; wrc := rc' |} _ W7 eq_refl eq_refl). reflexivity.
Qed.

(* A TList may hold nil (rcont.NewList and Append accept it); it is written without error,
   and reading it back panics, whatever the reader's stack. *)
Definition nil_list : list robj := [OList false h_obj [] [(None, [])]].
Theorem C57_nil_in_list_refuted :
  exists w1, WriteObjectAny (fun _ => 0) nil_list 5 (Some 0%nat) (start_w w_empty) = Ok w1 /\ werr (wb w1) = false /\
  forall fuel, ReadObjectAny None fuel
    (start_r {| rp := wBytes (wb w1); rc := 0; rerr := false; roff := 60 |}) = Panic.
Proof.
  eexists. split; [vm_compute; reflexivity|]. split; [reflexivity|].
  intros [|[|fuel]]; [reflexivity|vm_compute; reflexivity|vm_compute; reflexivity].
Qed.

Print Assumptions C57_round_trip.
Print Assumptions C57_self_reference_refuted.
Print Assumptions C57_self_reference_panic_refuted.
Print Assumptions C57_cycle_writes_forever_refuted.
Print Assumptions C57_nil_in_list_refuted.
