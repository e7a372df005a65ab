(* C71: the files of lcio, from the calls of a writer to what a reader gives. *)
From Coq Require Import ZArith List Lia Bool String Ascii Permutation.
From Verif Require Import Bytes GoLib GoStrings Bits Parse RioModel RioProofs RioProofs2 SioModel SioProofs SioProofs2 SioProps LcioDataModel LcioDataSpec LcioDataProofs LcioDataProofs2 LcioDataProofs3 LcioDataProps LcioFileModel.
Import ListNotations.
Local Open Scope Z_scope.
Local Arguments be : simpl never.
Local Arguments Z.pow : simpl never.

(* ---- what is expected ---- *)
(* headers have no pointers *)
Definition plain (v : val Z Z) : hval := vmap Z.to_nat (fun _ => None) v.
(* each event with the last run header that was written before it *)
Fixpoint with_runs (cur : option (val Z Z)) (cs : list wcall) : list (option (val Z Z) * levent) :=
  match cs with [] => [] | WRun v :: cs' => with_runs (Some v) cs' | WEvt e :: cs' => (cur, e) :: with_runs cur cs' end.
(* a run header: all the fields, the parameters as maps *)
Definition run_back (cur : option (val Z Z)) (w : hval) : Prop :=
  match cur with
  | None => w = hzero trunhdr
  | Some v => exists n d t s p q, v = VStruct [n; d; t; s; p] /\ w = VStruct [plain n; plain d; plain t; plain s; q] /\ same_maps q (plain p)
  end.
Definition header_back (e : levent) (h : hval) : Prop := exists bs q,
  h = VStruct [VInt (erun e); VInt (enum e); VInt (estamp e); VStr (edet e); bs; q] /\ same_maps q (plain (eparams e)).
Section File.
Variable narrow widen : Z -> Z.
Hypothesis narrow_range : forall z, inU 32 (narrow z).
Variable z : zlib.
Variable perm : list (nat * Z) -> list (nat * Z).
(* the collections, as in C70_event *)
Definition colls_back (bs : list named) (out : list (str * data nat (option nat))) : Prop := exists (at_ : Z -> nat) (target : Z -> option nat),
  (forall a, In a (all_ids bs) -> target a = Some (at_ a)) /\ (forall a, ~ In a (all_ids bs) -> target a = None) /\
  (forall a b, In a (all_ids bs) -> In b (all_ids bs) -> at_ a = at_ b -> a = b) /\
  Forall2 (fun b o => fst o = fst b /\ dflags (snd o) = dflags (snd (snd b)) /\ same_maps (dparams (snd o)) (vmap at_ target (dparams (snd (snd b)))) /\
             delems (snd o) = map (back narrow widen at_ target None (fst (snd b)) (dflags (snd (snd b)))) (delems (snd (snd b)))) bs out.
Definition event_back (ce : option (val Z Z) * levent) (ev : event) : Prop :=
  run_back (fst ce) (fst (fst ev)) /\ header_back (snd ce) (snd (fst ev)) /\ colls_back (ecolls (snd ce)) (snd ev).
(* ---- what can be written ---- *)
Definition fits_rec (n : str) (bs : list gblk) : Prop := exists buf s, grec_write bs = Ok (Some (buf, s)) /\
  zlen n + zlen buf < 2 ^ 31 - 30 /\ zlen n + zlen (deflate z buf) < 2 ^ 31 - 30.
Definition call_ok (c : wcall) : Prop :=
  match c with
  | WRun v => typed trunhdr v /\ fits_rec recRunHeader [hdr_blk blkRunHeader trunhdr v]
  | WEvt e => exists ts, type_names (ecolls e) = Ok ts /\ typed tevthdr (event_header e ts) /\ NoDup (map fst (ecolls e)) /\
      Forall (fun b => storable (fst (snd b)) (snd (snd b))) (ecolls e) /\ NoDup (all_ids (ecolls e)) /\
      fits_rec recEventHeader [hdr_blk blkEventHeader tevthdr (event_header e ts)] /\ fits_rec recEvent (map (evt_blk narrow) (ecolls e))
  end.

(* ---- records ---- *)
Definition recb (n : str) (o : Z) (buf : list Z) : list Z := rhead_bytes n o (zlen (data_of z o buf)) (zlen buf) ++ data_of z o buf.
Lemma write_grec_eq n o bs buf s out : inU 32 o -> grec_write bs = Ok (Some (buf, s)) -> zlen n + zlen buf < 2 ^ 31 - 30 -> zlen n + zlen (deflate z buf) < 2 ^ 31 - 30 ->
  write_grec z n o bs out = Ok (Some (out ++ recb n o buf)).
Proof.
  intros Io E S1 S2. unfold write_grec. rewrite E. cbn [wbind fst snd]. unfold wret. do 3 f_equal.
  pose proof (zlen_nonneg n). pose proof (zlen_nonneg buf). pose proof (zlen_nonneg (deflate z buf)).
  destruct (align_spec (zlen n)) as (Ha & _); [lia|]. destruct (align_spec (zlen (deflate z buf))) as (Hb & _); [lia|].
  rewrite (wrapU_id 32 (zlen n)) by (unfold inU; lia). rewrite (wrapU_id 32 (zlen (deflate z buf))) by (unfold inU; lia).
  rewrite (wrapU_id 32 (24 + _)) by (unfold inU; lia). rewrite !align_fit by lia. rewrite (wrapU_id 32 (zlen buf)) by (unfold inU; lia).
  change (if compressed o then deflate z buf ++ repeat 0 (Z.to_nat (align4U32 (zlen (deflate z buf)) - zlen (deflate z buf))) else buf) with (data_of z o buf).
  destruct (data_small z o _ _ S1 S2) as (Hd & _). rewrite (wrapU_id 32 (zlen (data_of z o buf))) by (unfold inU; lia).
  unfold recb, rhead_bytes, padded. rewrite <- !app_assoc. reflexivity.
Qed.
Lemma recb_parts n o buf rest_ : zlib_ok z -> inU 32 o -> zlen n + zlen buf < 2 ^ 31 - 30 -> zlen n + zlen (deflate z buf) < 2 ^ 31 - 30 ->
  exists h d u l1 y ys, recb n o buf ++ rest_ = y :: ys /\ rhead (recb n o buf ++ rest_) = Some ((h, o, d, u, n), l1) /\ payload z o d u l1 = Some (buf, rest_).
Proof.
  intros Zok Io S1 S2. pose proof (zlen_nonneg n). pose proof (zlen_nonneg buf). destruct (data_small z o _ _ S1 S2) as (Hd & Hc).
  unfold recb. rewrite <- app_assoc. set (D := data_of z o buf) in *.
  exists (24 + align4U32 (zlen n)), (zlen D), (zlen buf), (D ++ rest_).
  destruct (rhead_bytes n o (zlen D) (zlen buf)) as [|y ys] eqn:Er.
  { apply (f_equal zlen) in Er. rewrite rhead_len in Er by lia. destruct (align_spec (zlen n)) as (Ha & _); [lia|]. change (zlen []) with 0 in Er. lia. }
  exists y, (ys ++ D ++ rest_). split; [reflexivity|]. rewrite <- Er. split.
  - rewrite rhead_parses by (auto; unfold inU; lia). reflexivity.
  - unfold payload. rewrite (parses_take (Z.to_nat (zlen D)) D) by (unfold zlen; lia). unfold D, data_of in *. destruct (compressed o); [|reflexivity]. specialize (Hc eq_refl).
    rewrite align_eq, rioAlignU32_id, rioAlign_id, Z.sub_diag by (auto; lia). change (Z.to_nat (wrapU 32 0)) with 0%nat.
    unfold padded at 1. replace (Z.to_nat (zlen buf)) with (List.length buf) by (unfold zlen; lia). rewrite Zok. reflexivity.
Qed.
Lemma recb_len n o buf : (1 <= List.length (recb n o buf))%nat.
Proof. unfold recb, rhead_bytes. rewrite !app_length, !be_length. lia. Qed.

(* ---- headers ---- *)
Fixpoint flat (t : ty) : bool :=
  match t with TTag | TPtr => false | TSlice t' => flat t' | TMap k w => flat k && flat w | TStruct ts => forallb flat ts | _ => true end.
Lemma flat_vmap {T P} (f f' : Z -> T) (g g' : Z -> P) : forall t v, flat t = true -> typed t v -> vmap f g v = vmap f' g' v.
Proof.
  induction t as [n|n| | |t IH|k w IHk IHw|ts IH| |] using ty_ind2; intros v F Tv; destruct v; cbn [typed] in Tv; try contradiction; try reflexivity; try discriminate F.
  - cbn [vmap]. f_equal. destruct Tv as (_ & Tv). rewrite Forall_forall in Tv. apply map_ext_in. intros x J. apply IH; auto.
  - cbn [vmap]. f_equal. destruct Tv as (_ & Tv & _). rewrite Forall_forall in Tv. cbn [flat] in F. apply andb_prop in F. destruct F as (Fk & Fw).
    apply map_ext_in. intros x J. destruct (Tv x J) as (_ & Tk & Tw). f_equal; auto.
  - cbn [vmap]. f_equal. change (typed_fields ts vs) in Tv. cbn [flat] in F. revert vs Tv. induction IH as [|t ts IHt IHts IH]; intros [|v vs] Tv; cbn [typed_fields] in Tv; try contradiction; [reflexivity|].
    cbn [forallb] in F. apply andb_prop in F. destruct F as (F1 & F2). destruct Tv as (T1 & T2). cbn [map]. f_equal; auto.
Qed.
Lemma flat_notag : forall t, flat t = true -> notag t = true.
Proof.
  induction t as [n|n| | |t IH|k w IHk IHw|ts IH| |] using ty_ind2; intros F; try reflexivity; try discriminate F; cbn [flat notag] in *; auto.
  - apply andb_prop in F. destruct F as (Fk & Fw). now rewrite IHk, IHw.
  - induction IH as [|t ts IHt IHts IH]; [reflexivity|]. cbn [forallb] in *. apply andb_prop in F. destruct F as (F1 & F2). rewrite IHt by auto. now rewrite IH.
Qed.
Lemma read_one_ok n t v buf s old : (forall l, Permutation (perm l) l) -> flat t = true -> typed t (sorted_last v) -> grec_write [hdr_blk n t v] = Ok (Some (buf, s)) -> zlen buf < 2 ^ 31 - 4 ->
  read_one perm n (dec t) old buf = Ok (Some (plain (sorted_last v))).
Proof.
  intros Pm Ft Tv W Sz. set (it := {| iblk := hdr_blk n t v; idec := fun _ => dec t; iconv := fun p i => vmap p i (sorted_last v); itags := [] |}).
  change [hdr_blk n t v] with (map (@iblk (val nat Z)) [it]) in W.
  assert (Ew : forall (its : list (@item (val nat Z))), grec_write (map (@iblk (val nat Z)) its) = enc_all iwrite its (0, [])).
  { intros its. unfold grec_write. generalize (0, @nil (Z * Z)). induction its as [|i its IH]; intros s'; [reflexivity|]. cbn [map enc_all].
    unfold iwrite at 1. destruct (gwrite (iblk i) s') as [[(d & s'')|]|]; [|reflexivity|reflexivity]. cbn [wbind wret fst snd]. unfold wret. cbn [wbind fst snd]. now rewrite IH. }
  rewrite Ew in W.
  assert (Ok_ : Forall (item_ok [(n, fun _ => dec t)]) [it]).
  { apply Forall_cons; [|apply Forall_nil]. split; [|split].
    - cbn. unfold inU, Version. lia.
    - cbn [iblk it hdr_blk gname idec lookup]. now rewrite str_eqb_refl.
    - cbn [iblk it hdr_blk gwrite idec iconv itags gver]. eapply good_ext with (t := tags_of (sorted_last v)); [reflexivity|reflexivity|reflexivity| |apply (enc_good' it t (sorted_last v)); exact Tv].
      apply (typed_notag t _ (flat_notag _ Ft) Tv). }
  destruct (grec_read_ok (fun r => vmap (fun k => k) r) perm _ [it] buf s Pm W Ok_ Sz) as (r & g & _ & _ & Rd); [cbn; constructor|].
  unfold read_one. rewrite Rd. cbn [map wbind fold_left snd iconv it]. unfold wret. do 2 f_equal. rewrite vmap_vmap. unfold plain. eapply flat_vmap; eauto.
Qed.

(* ---- names ---- *)
Lemma string_bytes n : string_of (bytes_of n) = n.
Proof.
  unfold string_of, bytes_of. rewrite map_map. rewrite (map_ext _ (fun a => a)); [rewrite map_id; apply string_of_list_ascii_of_string|].
  intros a. rewrite Nat2Z.id. apply ascii_nat_embedding.
Qed.
Lemma lookup_map {A C} (f : A -> C) n (m : list (str * A)) : lookup n (map (fun nc => (fst nc, f (snd nc))) m) = option_map f (lookup n m).
Proof. induction m as [|(k & a) m IH]; [reflexivity|]. cbn [map lookup fst snd]. destruct (str_eqb n k); [reflexivity|apply IH]. Qed.
Lemma remap_ok : forall bs ts conn, type_names bs = Ok ts -> NoDup (map fst bs) -> exists conn', remap ts conn = Ok conn' /\
  (forall b, In b bs -> lookup (fst b) conn' = Some (fst (snd b))) /\ (forall n, ~ In n (map fst bs) -> lookup n conn' = lookup n conn).
Proof.
  induction bs as [|(n & c & d) bs IH]; intros ts conn E N; cbn [type_names fst snd] in E.
  - injection E as <-. exists conn. split; [reflexivity|]. split; [intros b []|auto].
  - destruct (typeName c) as [tn|] eqn:Ec; [|discriminate]. destruct (type_names bs) as [ts'|] eqn:Et; [|discriminate]. injection E as <-. cbn [map fst] in N. inversion N as [|? ? Ni N']; subst.
    cbn [remap]. rewrite string_bytes, (C70_type_names _ _ Ec). destruct (IH ts' (put n c conn) eq_refl N') as (conn' & E1 & E2 & E3). exists conn'. split; [exact E1|]. split.
    + intros b [<-|J]; [|auto]. cbn [fst snd]. rewrite E3 by exact Ni. rewrite lookup_put, str_eqb_refl. reflexivity.
    + intros m J. cbn [map fst In] in J. rewrite E3 by tauto. rewrite lookup_put. destruct (str_eqb_spec m n); [subst; tauto|reflexivity].
Qed.
Lemma type_names_fst : forall bs ts, type_names bs = Ok ts -> map fst ts = map fst bs.
Proof.
  induction bs as [|(n & c & d) bs IH]; intros ts E; cbn [type_names fst snd] in E; [now injection E as <-|].
  destruct (typeName c); [|discriminate]. destruct (type_names bs) as [ts'|]; [|discriminate]. injection E as <-. cbn [map fst]. f_equal. now apply IH.
Qed.
Lemma fold_pick {A} (out : list (str * (Z * A))) : forall n x y, NoDup (map fst out) -> In (n, y) out -> fold_left (fun x b => if str_eqb (fst b) n then snd (snd b) else x) out x = snd y.
Proof.
  assert (No : forall out n (x : A), ~ In n (map fst out) -> fold_left (fun x (b : str * (Z * A)) => if str_eqb (fst b) n then snd (snd b) else x) out x = x).
  { clear. induction out as [|(m & a) out IH]; intros n x J; [reflexivity|]. cbn [fold_left fst snd map In] in *. destruct (str_eqb_spec m n); [tauto|]. apply IH. tauto. }
  induction out as [|(m & a) out IH]; intros n x y N J; [contradiction|]. cbn [map fst] in N. inversion N as [|? ? Ni N']; subst. cbn [fold_left fst snd]. destruct J as [E|J].
  - injection E as <- <-. rewrite str_eqb_refl. apply No, Ni.
  - destruct (str_eqb m n); apply IH; auto.
Qed.
Lemma pick_all {A} (out : list (str * (Z * A))) (x : A) : NoDup (map fst out) ->
  map (fun n => (n, fold_left (fun x b => if str_eqb (fst b) n then snd (snd b) else x) out x)) (map fst out) = map (fun o => (fst o, snd (snd o))) out.
Proof.
  intros N. rewrite map_map. apply map_ext_in. intros (n & y) J. cbn [fst snd]. f_equal. apply fold_pick; auto.
Qed.
Lemma blocks_header e ts p : blocks (VStruct [VInt (erun e); VInt (enum e); VInt (estamp e); VStr (edet e); plain (VList (map (fun nt => VStruct [VStr (fst nt); VStr (snd nt)]) ts)); p]) = ts.
Proof. unfold plain. cbn [vmap blocks]. rewrite map_map. induction ts as [|(n & t) ts IH]; [reflexivity|]. cbn [map flat_map]. rewrite IH. reflexivity. Qed.

(* ---- Next ---- *)
Definition call_bytes (o : Z) (c : wcall) (b : list Z) : Prop :=
  match c with
  | WRun v => typed trunhdr v /\ exists buf s, grec_write [hdr_blk blkRunHeader trunhdr v] = Ok (Some (buf, s)) /\
      zlen recRunHeader + zlen buf < 2 ^ 31 - 30 /\ zlen recRunHeader + zlen (deflate z buf) < 2 ^ 31 - 30 /\ b = recb recRunHeader o buf
  | WEvt e => exists ts, type_names (ecolls e) = Ok ts /\ typed tevthdr (event_header e ts) /\ NoDup (map fst (ecolls e)) /\
      Forall (fun b => storable (fst (snd b)) (snd (snd b))) (ecolls e) /\ NoDup (all_ids (ecolls e)) /\
      exists hb s1 eb s2, grec_write [hdr_blk blkEventHeader tevthdr (event_header e ts)] = Ok (Some (hb, s1)) /\
        zlen recEventHeader + zlen hb < 2 ^ 31 - 30 /\ zlen recEventHeader + zlen (deflate z hb) < 2 ^ 31 - 30 /\
        grec_write (map (evt_blk narrow) (ecolls e)) = Ok (Some (eb, s2)) /\
        zlen recEvent + zlen eb < 2 ^ 31 - 30 /\ zlen recEvent + zlen (deflate z eb) < 2 ^ 31 - 30 /\ b = recb recEventHeader o hb ++ recb recEvent o eb
  end.
Lemma typed_run v : typed trunhdr v -> exists n d t s p, v = VStruct [n; d; t; s; p] /\ typed (TS 4) n /\ typed TStr d /\ typed TStr t /\ typed (TSlice TStr) s /\ typed tparams p /\
  typed trunhdr (VStruct [n; d; t; s; sort_maps p]).
Proof.
  intros T. destruct v as [| | | |vs| |]; cbn [trunhdr typed] in T; try contradiction. destruct vs as [|n [|d [|t [|s [|p [|]]]]]]; try tauto.
  destruct T as (T1 & T2 & T3 & T4 & T5 & _). exists n, d, t, s, p. repeat split; auto. apply typed_sorted, T5.
Qed.
Lemma typed_evt e ts : typed tevthdr (event_header e ts) -> typed tparams (eparams e) /\ typed tevthdr (sorted_last (event_header e ts)).
Proof.
  unfold event_header. intros T. cbn [sorted_last]. change (typed tevthdr (VStruct ?l)) with (typed_fields [i32; i32; TS 8; TStr; TSlice (TStruct [TStr; TStr]); tparams] l) in *.
  cbn [typed_fields] in *. destruct T as (T1 & T2 & T3 & T4 & T5 & T6 & _). split; [exact T6|]. repeat split; auto; try apply T1; try apply T2; try apply T3; try apply T5. apply typed_sorted, T6.
Qed.
Fixpoint nrec (cs : list wcall) : nat := match cs with [] => O | WRun _ :: cs' => S (nrec cs') | WEvt _ :: cs' => S (S (nrec cs')) end.
(* what is left when no event can be read any more *)
Definition dead (tl : list Z) (b : bool) : Prop := forall fuel r, rest r = tl -> (List.length tl < fuel)%nat -> next widen z perm fuel r = Ok (inr b).
Lemma dead_nil : dead [] true.
Proof. intros [|fuel] r E H; [cbn in H; lia|]. cbn [next]. now rewrite E. Qed.
Lemma header_step o e ts hb s1 tail fuel r : zlib_ok z -> (forall l, Permutation (perm l) l) -> inU 32 o -> type_names (ecolls e) = Ok ts -> NoDup (map fst (ecolls e)) ->
  typed tevthdr (event_header e ts) -> grec_write [hdr_blk blkEventHeader tevthdr (event_header e ts)] = Ok (Some (hb, s1)) ->
  zlen recEventHeader + zlen hb < 2 ^ 31 - 30 -> zlen recEventHeader + zlen (deflate z hb) < 2 ^ 31 - 30 -> rest r = recb recEventHeader o hb ++ tail ->
  exists conn, next widen z perm (S fuel) r = next widen z perm fuel {| rest := tail; rrun := rrun r; revt := plain (sorted_last (event_header e ts)); rconn := conn |} /\
    forall b, In b (ecolls e) -> lookup (fst b) conn = Some (fst (snd b)).
Proof.
  intros Zok Pm Io Et Nn Th W1 S1 S2 Er. pose proof (zlen_nonneg recEventHeader).
  destruct (recb_parts recEventHeader o hb tail Zok Io S1 S2) as (h & d & u & l1 & y & ys & Ey & Eh & Ep).
  destruct (typed_evt e ts Th) as (Tp & Ts). destruct (remap_ok (ecolls e) ts (rconn r) Et Nn) as (conn & Ec & Lk & _). exists conn. split; [|exact Lk].
  cbn [next]. rewrite Er. rewrite Ey at 1. rewrite Eh. cbv zeta. rewrite Ep.
  change (negb (existsb (str_eqb recEventHeader) [recIndex; recRandomAccess; recRunHeader; recEventHeader; recEvent])) with false. cbv iota.
  change (str_eqb recEventHeader recEvent) with false. change (str_eqb recEventHeader recRunHeader) with false. change (str_eqb recEventHeader recEventHeader) with true. cbv iota.
  rewrite (read_one_ok blkEventHeader tevthdr (event_header e ts) hb s1 _ Pm eq_refl Ts W1) by lia.
  assert (EB : blocks (plain (sorted_last (event_header e ts))) = ts) by apply blocks_header. rewrite EB, Ec. reflexivity.
Qed.
Lemma next_ok o tl eof : zlib_ok z -> (forall l, Permutation (perm l) l) -> inU 32 o -> dead tl eof -> forall cs bss, Forall2 (call_bytes o) cs bss -> forall fuel r cur, rest r = List.concat bss ++ tl -> run_back cur (rrun r) -> (nrec cs + List.length tl < fuel)%nat ->
  (with_runs cur cs = [] /\ next widen z perm fuel r = Ok (inr eof)) \/
  exists cur' e cs' bss' ev r', with_runs cur cs = (cur', e) :: with_runs cur' cs' /\ (List.length cs' < List.length cs)%nat /\ (nrec cs' <= nrec cs)%nat /\ Forall2 (call_bytes o) cs' bss' /\
    next widen z perm fuel r = Ok (inl (ev, r')) /\ rest r' = List.concat bss' ++ tl /\ run_back cur' (rrun r') /\ event_back (cur', e) ev.
Proof.
  intros Zok Pm Io Dt cs bss F2. induction F2 as [|c b cs bss B F2 IH]; intros fuel r cur Er Rb Hf.
  - left. split; [reflexivity|]. apply Dt; [exact Er|]. cbn [nrec] in Hf. lia.
  - destruct fuel as [|fuel]; [lia|]. destruct c as [v|e]; cbn [call_bytes nrec with_runs List.concat List.length] in *.
    + rewrite <- app_assoc in Er. destruct B as (Tv & buf & s & W & S1 & S2 & ->). pose proof (zlen_nonneg recRunHeader).
      destruct (recb_parts recRunHeader o buf (List.concat bss ++ tl) Zok Io S1 S2) as (h & d & u & l1 & y & ys & Ey & Eh & Ep).
      destruct (typed_run v Tv) as (n & dt & t & sb & p & -> & _ & _ & _ & _ & Tp & Ts).
      cbn [next]. rewrite Er. rewrite Ey at 1. rewrite Eh. cbv zeta. rewrite Ep.
      change (negb (existsb (str_eqb recRunHeader) [recIndex; recRandomAccess; recRunHeader; recEventHeader; recEvent])) with false. cbv iota.
      change (str_eqb recRunHeader recEvent) with false. change (str_eqb recRunHeader recRunHeader) with true. cbv iota.
      rewrite (read_one_ok blkRunHeader trunhdr (VStruct [n; dt; t; sb; p]) buf s _ Pm eq_refl Ts W) by lia.
      destruct (IH fuel {| rest := List.concat bss ++ tl; rrun := plain (sorted_last (VStruct [n; dt; t; sb; p])); revt := revt r; rconn := rconn r |} (Some (VStruct [n; dt; t; sb; p])) eq_refl) as [(E1 & E2)|(cur' & e & cs' & bss' & ev & r' & E1 & E2 & E3 & E4)].
      * cbn [rrun run_back]. exists n, dt, t, sb, p, (plain (sort_maps p)). split; [reflexivity|]. split; [reflexivity|]. apply same_sorted, Tp.
      * lia.
      * left. auto.
      * right. exists cur', e, cs', bss', ev, r'. split; [exact E1|]. split; [lia|]. split; [lia|]. exact E4.
    + right. destruct B as (ts & Et & Th & Nn & Fs & Ni & hb & s1 & eb & s2 & W1 & S1 & S2 & W2 & S3 & S4 & ->). rewrite <- !app_assoc in Er.
      pose proof (zlen_nonneg recEventHeader). pose proof (zlen_nonneg recEvent).
      destruct (header_step o e ts hb s1 (recb recEvent o eb ++ List.concat bss ++ tl) fuel r Zok Pm Io Et Nn Th W1 S1 S2 Er) as (conn & E1 & Lk).
      destruct (typed_evt e ts Th) as (Tp & Ts).
      set (Hd := plain (sorted_last (event_header e ts))) in *.
      assert (EH : Hd = VStruct [VInt (erun e); VInt (enum e); VInt (estamp e); VStr (edet e); plain (VList (map (fun nt => VStruct [VStr (fst nt); VStr (snd nt)]) ts)); plain (sort_maps (eparams e))]) by reflexivity.
      assert (EB : blocks Hd = ts) by (rewrite EH; apply blocks_header).
      destruct fuel as [|fuel]; [lia|].
      destruct (recb_parts recEvent o eb (List.concat bss ++ tl) Zok Io S3 S4) as (h & d & u & l1 & y & ys & Ey & Eh & Ep).
      destruct (event_read narrow widen narrow_range perm (ecolls e) (map (fun nc => (fst nc, unmarshal_of widen (snd nc))) conn) eb s2 Pm) as (at_ & target & out & A1 & A2 & A3 & Rd & F); auto; [|lia|].
      { rewrite Forall_forall in *. intros b J. split; [auto|]. rewrite lookup_map, (Lk b J). reflexivity. }
      assert (Ef : map fst out = map fst (ecolls e)) by (clear - F; induction F as [|b q bs qs (E & _) F IH]; [reflexivity|]; cbn [map]; now rewrite E, IH).
      exists cur, e, cs, bss. eexists _, _. split; [reflexivity|]. split; [lia|]. split; [lia|]. split; [exact F2|]. split.
      { rewrite E1. cbn [next rest revt rconn rrun]. rewrite Ey at 1. rewrite Eh. cbv zeta. rewrite Ep.
        change (negb (existsb (str_eqb recEvent) [recIndex; recRandomAccess; recRunHeader; recEventHeader; recEvent])) with false. cbv iota.
        change (str_eqb recEvent recEvent) with true. cbv iota. rewrite Rd. rewrite EB. reflexivity. }
      split; [reflexivity|]. split; [exact Rb|].
      split; [exact Rb|]. cbn [fst snd]. split.
      * rewrite EH. eexists _, _. split; [reflexivity|]. apply same_sorted, Tp.
      * exists at_, target. split; [exact A1|]. split; [exact A2|]. split; [exact A3|].
        assert (Eo : map (fun nt : str * str => (fst nt, fold_left (fun x b => if str_eqb (fst b) (fst nt) then snd (snd b) else x) out no_data)) ts = map (fun q => (fst q, snd (snd q))) out).
        { rewrite <- (pick_all out no_data) by (rewrite Ef; exact Nn). rewrite Ef, <- (type_names_fst _ _ Et), map_map. reflexivity. }
        rewrite Eo. clear - F. induction F as [|b q bs qs (E0 & _ & E1 & E2 & E3) F IH]; [constructor|]. cbn [map]. constructor; [|exact IH]. cbn [fst snd]. auto.
Qed.
Lemma events_ok o tl eof : zlib_ok z -> (forall l, Permutation (perm l) l) -> inU 32 o -> dead tl eof -> forall n fuel cs bss r cur, Forall2 (call_bytes o) cs bss -> rest r = List.concat bss ++ tl -> run_back cur (rrun r) ->
  (nrec cs + List.length tl < fuel)%nat -> (List.length cs < n)%nat -> exists evs, events widen z perm n fuel r = Ok (evs, eof) /\ Forall2 event_back (with_runs cur cs) evs.
Proof.
  intros Zok Pm Io Dt. induction n as [|n IH]; intros fuel cs bss r cur F2 Er Rb Hf Hn; [lia|]. cbn [events].
  destruct (next_ok o tl eof Zok Pm Io Dt cs bss F2 fuel r cur Er Rb Hf) as [(E1 & ->)|(cur' & e & cs' & bss' & ev & r' & E1 & E2 & E3 & F2' & -> & Er' & Rb' & Eb)].
  - exists []. rewrite E1. split; [reflexivity|constructor].
  - destruct (IH fuel cs' bss' r' cur' F2' Er' Rb') as (evs & Ee & Fe); [lia|lia|]. rewrite Ee. exists (ev :: evs). split; [reflexivity|]. rewrite E1. constructor; auto.
Qed.
Lemma write_ok o : inU 32 o -> forall cs, Forall call_ok cs -> exists bss, Forall2 (call_bytes o) cs bss /\ (nrec cs <= List.length (List.concat bss))%nat /\
  forall out, write_calls narrow z o cs out = Ok (Some (out ++ List.concat bss)).
Proof.
  intros Io. induction cs as [|c cs IH]; intros F.
  - exists []. split; [constructor|]. split; [cbn; lia|]. intros out. cbn. now rewrite app_nil_r.
  - inversion F as [|? ? C F']; subst. destruct (IH F') as (bss & F2 & L & W). destruct c as [v|e]; cbn [call_ok] in C.
    + destruct C as (Tv & buf & s & W1 & S1 & S2). exists (recb recRunHeader o buf :: bss). pose proof (recb_len recRunHeader o buf). split; [|split].
      * constructor; [|exact F2]. split; [exact Tv|]. exists buf, s. auto.
      * cbn [nrec List.concat]. rewrite app_length. lia.
      * intros out. cbn [write_calls write_call]. rewrite (write_grec_eq _ _ _ _ _ _ Io W1 S1 S2). cbn [wbind]. rewrite W. cbn [List.concat]. now rewrite <- app_assoc.
    + destruct C as (ts & Et & Th & Nn & Fs & Ni & (hb & s1 & W1 & S1 & S2) & (eb & s2 & W2 & S3 & S4)).
      exists ((recb recEventHeader o hb ++ recb recEvent o eb) :: bss). pose proof (recb_len recEventHeader o hb). pose proof (recb_len recEvent o eb). split; [|split].
      * constructor; [|exact F2]. exists ts. do 5 (split; [assumption|]). exists hb, s1, eb, s2. auto 10.
      * cbn [nrec List.concat]. rewrite !app_length. lia.
      * intros out. cbn [write_calls write_call]. rewrite Et. rewrite (write_grec_eq _ _ _ _ _ _ Io W1 S1 S2). cbn [wbind]. rewrite (write_grec_eq _ _ _ _ _ _ Io W2 S3 S4). cbn [wbind].
        rewrite W. cbn [List.concat]. now rewrite <- !app_assoc.
Qed.
(* A file written by any sequence of WriteRunHeader and WriteEvent calls, compressed or not, is read back as the same events, in
   order, each with its header, its collections and the run header in force when it was written; then the reader is at the end
   of the file. *)
Theorem C71_file o cs : zlib_ok z -> (forall l, Permutation (perm l) l) -> inU 32 o -> Forall call_ok cs ->
  exists l evs, write_calls narrow z o cs [] = Ok (Some l) /\ read_file widen z perm l = Ok (evs, true) /\ Forall2 event_back (with_runs None cs) evs.
Proof.
  intros Zok Pm Io F. destruct (write_ok o Io cs F) as (bss & F2 & L & W). specialize (W []). cbn [app] in W.
  assert (Ln : (List.length cs <= nrec cs)%nat) by (clear; induction cs as [|[v|e] cs IH]; cbn [nrec List.length]; lia).
  destruct (events_ok o [] true Zok Pm Io dead_nil (S (List.length (List.concat bss))) (S (List.length (List.concat bss))) cs bss (open (List.concat bss)) None F2) as (evs & E & Fe); [cbn [open rest]; now rewrite app_nil_r|reflexivity|cbn [List.length]; lia|lia|].
  exists (List.concat bss), evs. split; [exact W|]. split; [exact E|exact Fe].
Qed.

(* ---- files cut short ---- *)
Definition mono {A} (p : parser A) : Prop := forall l x r, p l = Some (x, r) -> exists bs, l = bs ++ r /\ forall r', p (bs ++ r') = Some (x, r').
Lemma mono_take n : mono (take n).
Proof.
  intros l x r E. unfold take in *. destruct (Nat.leb_spec n (List.length l)) as [H|H]; [|discriminate]. injection E as <- <-. exists (firstn n l). split; [symmetry; apply firstn_skipn|].
  intros r'. pose proof (firstn_length_le l H) as L. rewrite app_length, L. destruct (Nat.leb_spec n (n + List.length r')); [|lia].
  rewrite firstn_app, skipn_app, L, Nat.sub_diag. cbn [firstn skipn]. rewrite app_nil_r, firstn_firstn, Nat.min_id, skipn_all2 by lia. reflexivity.
Qed.
Lemma mono_bind {A B} (p : parser A) (q : A -> parser B) : mono p -> (forall x, mono (q x)) -> mono (pbind p q).
Proof.
  intros Mp Mq l x r E. unfold pbind in *. destruct (p l) as [(a & l1)|] eqn:Ea; [|discriminate]. destruct (Mp _ _ _ Ea) as (b1 & -> & H1). destruct (Mq a _ _ _ E) as (b2 & -> & H2).
  exists (b1 ++ b2). split; [now rewrite app_assoc|]. intros r'. rewrite <- app_assoc, H1. apply H2.
Qed.
Lemma mono_ret {A} (x : A) : mono (pret x).
Proof. intros l y r E. injection E as <- <-. exists []. split; reflexivity. Qed.
Lemma mono_guard b : mono (pguard b).
Proof. destruct b; [apply mono_ret|]. intros l y r E. discriminate. Qed.
Lemma mono_be n : mono (pbe n).
Proof. apply mono_bind; [apply mono_take|]. intros. apply mono_ret. Qed.
Lemma mono_head : mono rhead.
Proof. unfold rhead. repeat (apply mono_bind; [first [apply mono_be|apply mono_guard|apply mono_take]|intros ?]). apply mono_ret. Qed.
Lemma cut_rec n o buf k fuel r : existsb (str_eqb n) [recIndex; recRandomAccess; recRunHeader; recEventHeader; recEvent] = true -> inU 32 o -> zlen n + zlen buf < 2 ^ 31 - 30 -> zlen n + zlen (deflate z buf) < 2 ^ 31 - 30 ->
  (0 < k < List.length (recb n o buf))%nat -> rest r = firstn k (recb n o buf) -> next widen z perm (S fuel) r = Ok (inr false).
Proof.
  intros Kn Io S1 S2 Hk Er. pose proof (zlen_nonneg n). pose proof (zlen_nonneg buf). destruct (data_small z o _ _ S1 S2) as (Hd & _). cbn [next]. rewrite Er.
  assert (Lk : List.length (firstn k (recb n o buf)) = k) by (apply firstn_length_le; lia).
  destruct (firstn k (recb n o buf)) as [|y ys] eqn:Ey; [cbn in Lk; lia|]. rewrite <- Ey in *. clear Ey y ys.
  destruct (rhead (firstn k (recb n o buf))) as [(hd & l1)|] eqn:Eh; [|reflexivity]. destruct (mono_head _ _ _ Eh) as (bs & Eb & Hm).
  specialize (Hm (l1 ++ skipn k (recb n o buf))). rewrite app_assoc, <- Eb, firstn_skipn in Hm. unfold recb in Hm at 1. rewrite rhead_parses in Hm by (auto; unfold inU; lia). injection Hm as <- El.
  rewrite Kn. cbn [negb].
  assert (L1 : (List.length l1 < List.length (data_of z o buf))%nat). { apply (f_equal (@List.length Z)) in El. rewrite app_length, skipn_length in El. lia. }
  unfold payload, take. destruct (Nat.leb_spec (Z.to_nat (zlen (data_of z o buf))) (List.length l1)) as [J|J]; [unfold zlen in J; lia|reflexivity].
Qed.
Lemma cut_dead o c b k : zlib_ok z -> (forall l, Permutation (perm l) l) -> inU 32 o -> call_bytes o c b -> (k < List.length b)%nat -> exists eof, dead (firstn k b) eof.
Proof.
  intros Zok Pm Io C Hk. destruct k as [|k]; [exists true; apply dead_nil|].
  assert (Cut : forall n buf j, existsb (str_eqb n) [recIndex; recRandomAccess; recRunHeader; recEventHeader; recEvent] = true -> zlen n + zlen buf < 2 ^ 31 - 30 -> zlen n + zlen (deflate z buf) < 2 ^ 31 - 30 ->
    (0 < j < List.length (recb n o buf))%nat -> dead (firstn j (recb n o buf)) false).
  { intros n buf j Kn S1 S2 Hj [|fuel] r Er Hf; [lia|]. apply (cut_rec n o buf j); auto. }
  destruct c as [v|e]; cbn [call_bytes] in C.
  - destruct C as (_ & buf & s & _ & S1 & S2 & ->). exists false. apply Cut; auto. lia.
  - destruct C as (ts & Et & Th & Nn & Fs & Ni & hb & s1 & eb & s2 & W1 & S1 & S2 & W2 & S3 & S4 & ->). rewrite app_length in Hk.
    destruct (Nat.lt_ge_cases (S k) (List.length (recb recEventHeader o hb))) as [H|H].
    + exists false. rewrite firstn_app, (proj2 (Nat.sub_0_le _ _)) by lia. rewrite firstn_O, app_nil_r. apply Cut; auto. lia.
    + rewrite firstn_app, firstn_all2 by lia. set (j := (S k - List.length (recb recEventHeader o hb))%nat) in *.
      assert (Dj : exists eof, dead (firstn j (recb recEvent o eb)) eof).
      { destruct j as [|j'] eqn:Ej; [exists true; apply dead_nil|]. exists false. apply Cut; auto. lia. }
      destruct Dj as (eof & Dj). exists eof. intros [|fuel] r Er Hf; [lia|].
      destruct (header_step o e ts hb s1 (firstn j (recb recEvent o eb)) fuel r Zok Pm Io Et Nn Th W1 S1 S2 Er) as (conn & -> & _). apply Dj; [reflexivity|].
      pose proof (recb_len recEventHeader o hb). rewrite app_length in Hf. lia.
Qed.
(* When the file is cut anywhere inside what a call wrote, the reader still gives the events of the calls before it, and no other. *)
Theorem C71_truncated o cs c cs' : zlib_ok z -> (forall l, Permutation (perm l) l) -> inU 32 o -> Forall call_ok (cs ++ c :: cs') ->
  exists l1 l2 l, write_calls narrow z o cs [] = Ok (Some l1) /\ write_calls narrow z o (cs ++ [c]) [] = Ok (Some l2) /\ write_calls narrow z o (cs ++ c :: cs') [] = Ok (Some l) /\
    forall k, (List.length l1 <= k < List.length l2)%nat -> exists evs eof, read_file widen z perm (firstn k l) = Ok (evs, eof) /\ Forall2 event_back (with_runs None cs) evs.
Proof.
  intros Zok Pm Io F. apply Forall_app in F. destruct F as (F & Fc). inversion Fc as [|? ? Fc1 Fc2]; subst.
  destruct (write_ok o Io cs F) as (bss & F2 & L & W).
  assert (Wa : forall a b out, write_calls narrow z o (a ++ b) out = wbind (write_calls narrow z o a out) (write_calls narrow z o b)).
  { clear. induction a as [|x a IH]; intros b out; [reflexivity|]. cbn [app write_calls]. destruct (write_call narrow z o x out) as [[l|]|]; cbn [wbind]; [apply IH|reflexivity|reflexivity]. }
  destruct (write_ok o Io (c :: cs') Fc) as (bss' & F2' & _ & W'). inversion F2' as [|? b ? bss2 B F22]; subst.
  destruct (write_ok o Io [c]) as (bss1 & F21 & _ & W1); [repeat constructor; auto|]. inversion F21 as [|? b1 ? t B1 Ft]; subst. inversion Ft; subst.
  assert (b1 = b) as ->.
  { destruct c as [v|e]; cbn [call_bytes] in B, B1.
    - destruct B as (_ & x & s & E & _ & _ & ->). destruct B1 as (_ & x1 & t1 & E1 & _ & _ & ->). congruence.
    - destruct B as (ts & E & _ & _ & _ & _ & x & s & y & t & E1 & _ & _ & E2 & _ & _ & ->). destruct B1 as (ts' & E' & _ & _ & _ & _ & x' & s' & y' & t' & E1' & _ & _ & E2' & _ & _ & ->). congruence. }
  exists (List.concat bss), (List.concat bss ++ b), (List.concat bss ++ b ++ List.concat bss2). split; [apply (W [])|]. split; [|split].
  - rewrite Wa, (W []). cbn [app wbind]. rewrite W1. cbn [List.concat]. now rewrite app_nil_r.
  - rewrite Wa, (W []). cbn [app wbind]. rewrite W'. reflexivity.
  - intros k Hk. rewrite app_length in Hk. destruct (cut_dead o c b (k - List.length (List.concat bss)) Zok Pm Io B) as (eof & D); [lia|]. 
    set (j := (k - List.length (List.concat bss))%nat) in *.
    assert (Ef : firstn k (List.concat bss ++ b ++ List.concat bss2) = List.concat bss ++ firstn j b).
    { rewrite firstn_app, firstn_all2 by lia. f_equal. fold j. rewrite firstn_app, (proj2 (Nat.sub_0_le j (List.length b))) by lia. rewrite firstn_O. apply app_nil_r. }
    rewrite Ef. unfold read_file. assert (Ln : (List.length cs <= nrec cs)%nat) by (clear; induction cs as [|[v|e] cs IH]; cbn [nrec List.length]; lia).
    destruct (events_ok o (firstn j b) eof Zok Pm Io D (S (List.length (List.concat bss ++ firstn j b))) (S (List.length (List.concat bss ++ firstn j b))) cs bss (open (List.concat bss ++ firstn j b)) None F2 eq_refl eq_refl) as (evs & E & Fe);
      [rewrite app_length; lia|rewrite app_length; lia|]. exists evs, eof. auto.
Qed.
End File.

(* ---- Add and Weight ---- *)
(* An event built by Add holds the collections added, under their names, in order; Add panics exactly on a name already there. *)
Theorem C71_add {A} (l : list (str * A)) :
  (NoDup (map fst l) -> exists e, evt_adds l ([], []) = Ok e /\ fst e = map fst l /\ (forall n x, In (n, x) l -> lookup n (snd e) = Some x) /\ (forall n, ~ In n (map fst l) -> lookup n (snd e) = None)) /\
  (~ NoDup (map fst l) -> evt_adds l ([], []) = Panic).
Proof.
  assert (G : forall l (e : list str * list (str * A)), (forall n, lookup n (snd e) <> None <-> In n (fst e)) -> NoDup (fst e) ->
    (NoDup (fst e ++ map fst l) -> exists e', evt_adds l e = Ok e' /\ fst e' = fst e ++ map fst l /\ (forall n x, In (n, x) l -> lookup n (snd e') = Some x) /\ (forall n, ~ In n (map fst l) -> lookup n (snd e') = lookup n (snd e))) /\
    (~ NoDup (fst e ++ map fst l) -> evt_adds l e = Panic)).
  { clear l. induction l as [|(n & x) l IH]; intros (ns & m) Hm Nd; cbn [map fst snd evt_adds] in *.
    - split; [|rewrite app_nil_r; tauto]. intros _. exists (ns, m). rewrite app_nil_r. split; [reflexivity|]. split; [reflexivity|]. split; [intros ? ? []|auto].
    - unfold evt_add. cbn [fst snd]. destruct (lookup n m) as [y|] eqn:El.
      + split; [|reflexivity]. intros N. exfalso. apply NoDup_remove_2 in N. apply N. apply in_or_app. left. apply Hm. rewrite El. discriminate.
      + assert (Nn : ~ In n ns) by (intros J; apply Hm in J; congruence).
        destruct (IH (ns ++ [n], put n x m)) as (I1 & I2); cbn [fst snd].
        * intros k. rewrite lookup_put. destruct (str_eqb_spec k n) as [->|Ne].
          -- split; [intros _; apply in_or_app; cbn; auto|discriminate].
          -- rewrite Hm. rewrite in_app_iff. cbn. split; [auto|intros [J|[J|[]]]; [exact J|congruence]].
        * apply (Permutation_NoDup (l := n :: ns)); [apply Permutation_cons_append|constructor; auto].
        * cbn [fst snd] in I1, I2. rewrite <- app_assoc in I1, I2. cbn [app] in I1, I2. split; [|exact I2].
          intros N. destruct (I1 N) as (e' & E1 & E2 & E3 & E4). exists e'. split; [exact E1|]. split; [exact E2|]. split.
          -- intros k w [E|J]; [|auto]. injection E as -> ->. apply NoDup_remove_2 in N. rewrite E4 by (intros J; apply N, in_or_app; auto). rewrite lookup_put, str_eqb_refl. reflexivity.
          -- intros k J. cbn [In] in J. rewrite E4 by tauto. rewrite lookup_put. destruct (str_eqb_spec k n); [subst; tauto|reflexivity]. }
  destruct (G l ([], [])) as (G1 & G2); cbn [fst snd lookup]; [intros n; cbn; tauto|constructor|]. cbn [fst snd app lookup] in G1, G2. split; [|exact G2].
  intros N. destruct (G1 N) as (e & E1 & E2 & E3 & E4). exists e. auto.
Qed.
Lemma find_perm {A} (f : A -> bool) l l' : Permutation l l' -> (forall x y, In x l -> In y l -> f x = true -> f y = true -> x = y) -> find f l = find f l'.
Proof.
  intros P U. destruct (find f l) as [x|] eqn:E.
  - apply find_some in E. destruct E as (I & F). destruct (find f l') as [y|] eqn:E'.
    + apply find_some in E'. destruct E' as (I' & F'). f_equal. apply U; auto. eapply Permutation_in; [apply Permutation_sym, P|exact I'].
    + exfalso. pose proof (find_none _ _ E' x (Permutation_in _ P I)). congruence.
  - destruct (find f l') as [y|] eqn:E'; [|reflexivity]. exfalso. apply find_some in E'. destruct E' as (I' & F'). pose proof (find_none _ _ E y (Permutation_in _ (Permutation_sym P) I')). congruence.
Qed.
Lemma find_map {A B} (f : B -> bool) (g : A -> B) l : find f (map g l) = option_map g (find (fun x => f (g x)) l).
Proof. induction l as [|x l IH]; [reflexivity|]. cbn [map find]. destruct (f (g x)); [reflexivity|exact IH]. Qed.
Lemma find_ext' {A} (f g : A -> bool) l : (forall x, f x = g x) -> find f l = find g l.
Proof. intros E. induction l as [|x l IH]; [reflexivity|]. cbn [find]. rewrite E, IH. reflexivity. Qed.
(* The weight of an event is the same after reading. *)
Theorem C71_weight p q : typed tparams p -> same_maps q (plain p) -> weight q = weight p.
Proof.
  intros T S. destruct (params_inv p T) as (a & b & c & -> & _ & (_ & Fb & Nb) & _). unfold plain in S. cbn [vmap map] in S.
  destruct q as [| | | |vs| |]; try contradiction. destruct vs as [|[| | |a'| | |] [|[| | |b'| | |] [|[| | |c'| | |] [|]]]]; cbn [same_maps] in S; try contradiction. destruct S as (_ & Pb & _). cbn [weight].
  rewrite (find_perm _ b' _ Pb).
  - rewrite find_map. cbn [fst]. rewrite (find_ext' _ (fun kv : val Z Z * val Z Z => match fst kv with VStr k => str_eqb k (bytes_of "_weight") | _ => false end)).
    + destruct (find _ b) as [(k & v)|] eqn:E; [|reflexivity]. cbn [option_map fst snd]. destruct v; try reflexivity. destruct vs as [|[] ?]; reflexivity.
    + intros (k & v). cbn [fst]. destruct k; reflexivity.
  - intros x y Ix Iy Fx Fy. pose proof (Permutation_in _ Pb Ix) as Jx. pose proof (Permutation_in _ Pb Iy) as Jy. apply in_map_iff in Jx, Jy. destruct Jx as (x0 & <- & Jx). destruct Jy as (y0 & <- & Jy).
    cbn [fst] in Fx, Fy. enough (x0 = y0) as -> by reflexivity.
    assert (K : forall u v : val Z Z * val Z Z, In u b -> In v b -> fst u = fst v -> u = v).
    { clear - Nb. induction b as [|w b IH]; intros u v Iu Iv Ek; [contradiction|]. cbn [map] in Nb. inversion Nb as [|? ? Ni N']; subst. destruct Iu as [<-|Iu], Iv as [<-|Iv]; [reflexivity| | |auto].
      - exfalso. apply Ni. rewrite Ek. apply in_map, Iv.
      - exfalso. apply Ni. rewrite <- Ek. apply in_map, Iu. }
    apply K; auto. rewrite Forall_forall in Fb. destruct x0 as (k1 & v1), y0 as (k2 & v2). cbn [fst] in *. destruct k1 as [|w1| | | | |]; try discriminate Fx. destruct k2 as [|w2| | | | |]; try discriminate Fy. cbn [vmap] in Fx, Fy.
    destruct (str_eqb_spec w1 (bytes_of "_weight")); [|discriminate]. destruct (str_eqb_spec w2 (bytes_of "_weight")); [|discriminate]. congruence.
Qed.

(* ---- examples ---- *)
Definition ex_run (n : Z) : val Z Z := VStruct [VInt n; VStr [68]; VStr [100; 101]; VList [VStr [69; 67]; VStr []]; VStruct [VMap [(VStr [98], VList [VInt 1; VInt (-2)]); (VStr [97], VList [])]; VMap []; VMap []]].
Definition ex_weighted : val Z Z := VStruct [VMap []; VMap [(VStr [122], VList []); (VStr (bytes_of "_weight"), VList [VInt 1073741824])]; VMap []].
Definition ex_calls : list wcall :=
  [WEvt {| erun := -1; enum := 0; estamp := 2 ^ 40; edet := []; eparams := no_params; ecolls := [] |}; WRun (ex_run 7);
   WEvt {| erun := 7; enum := 1; estamp := -1; edet := [65]; eparams := ex_weighted; ecolls := ex_evt |}; WRun (ex_run 8);
   WEvt {| erun := 8; enum := 2; estamp := 5; edet := [66]; eparams := ex_weighted; ecolls := skipn 1 ex_evt |}].
Ltac fits_ex := eexists _, _; split; [vm_compute; reflexivity|]; split; vm_compute; reflexivity.
Ltac typed_ex := cbn; repeat split; try (unfold zlen; cbn; lia); repeat constructor; cbn; unfold zlen, inS, inU; cbn; try lia; intuition discriminate.
Example C71_calls_ex : zlib_ok id_zlib /\ Forall (call_ok ex_narrow id_zlib) ex_calls.
Proof.
  split; [apply id_zlib_ok|]. destruct C70_event_ex as (N1 & N2 & F & _).
  apply Forall_cons; [|apply Forall_cons; [|apply Forall_cons; [|apply Forall_cons; [|apply Forall_cons; [|apply Forall_nil]]]]].
  - exists []. split; [reflexivity|]. split; [typed_ex|]. split; [constructor|]. split; [constructor|]. split; [constructor|]. split; fits_ex.
  - split; [typed_ex|fits_ex].
  - eexists _. split; [reflexivity|]. split; [typed_ex|]. split; [exact N1|]. split; [exact F|]. split; [exact N2|]. split; fits_ex.
  - split; [typed_ex|fits_ex].
  - eexists _. split; [reflexivity|]. split; [typed_ex|]. split; [repeat constructor; cbn; intuition discriminate|]. split; [inversion F; assumption|]. split; [repeat constructor; cbn; intuition discriminate|]. split; fits_ex.
Qed.
Example C71_file_ex : exists l e0 e1 e2, write_calls ex_narrow id_zlib 1 ex_calls [] = Ok (Some l) /\ zlen l = 1568 /\ read_file ex_widen id_zlib (@rev _) l = Ok ([e0; e1; e2], true) /\
  map (fun e : event => match fst (fst e) with VStruct (n :: _) => n | _ => VInt 0 end) [e0; e1; e2] = [VInt 0; VInt 7; VInt 8] /\
  map (fun e : event => map fst (snd e)) [e0; e1; e2] = [[]; [[104]; [109; 99]]; [[109; 99]]] /\
  read_file ex_widen id_zlib (@rev _) (firstn 1000 l) = Ok ([e0; e1], false) /\ read_file ex_widen id_zlib (@rev _) (firstn 500 l) = Ok ([e0], false).
Proof. eexists _, _, _, _. split; [vm_compute; reflexivity|]. split; [vm_compute; reflexivity|]. split; [vm_compute; reflexivity|]. split; [reflexivity|]. split; [reflexivity|]. split; vm_compute; reflexivity. Qed.
Example C71_add_ex : evt_adds [([97], 1); ([98], 2)] ([], []) = Ok ([[97]; [98]], [([97], 1); ([98], 2)]) /\ evt_adds [([97], 1); ([98], 2); ([97], 3)] ([], []) = Panic.
Proof. split; reflexivity. Qed.
Example C71_weight_ex : typed tparams ex_weighted /\ weight ex_weighted = Ok (Some 1073741824) /\ weight (plain (sort_maps ex_weighted)) = Ok (Some 1073741824) /\ weight no_params = Ok None.
Proof. split; [typed_ex|]. repeat split; reflexivity. Qed.

(* ---- what is not so ---- *)
(* Full statement: Weight gives a number for all parameters.  An empty list under the name _weight makes it panic. *)
Theorem C71_weight_refuted : exists p, typed tparams p /\ weight p = Panic.
Proof. exists (VStruct [VMap []; VMap [(VStr (bytes_of "_weight"), VList [])]; VMap []]). split; [typed_ex|reflexivity]. Qed.
(* Full statement: a reader gives events or an error, whatever the file.  An event header that names a type unknown to the
   package, written by any other program, makes Next panic. *)
Theorem C71_unknown_type_refuted : exists l, read_file ex_widen id_zlib (fun x => x) l = Panic.
Proof.
  destruct (write_grec id_zlib recEventHeader 0 [hdr_blk blkEventHeader tevthdr
    (event_header {| erun := 1; enum := 1; estamp := 1; edet := []; eparams := no_params; ecolls := [] |} [([97], bytes_of "CaloHitCollection")])] []) as [[l|]|] eqn:E; [|vm_compute in E; discriminate|vm_compute in E; discriminate].
  exists l. vm_compute in E. injection E as <-. vm_compute. reflexivity.
Qed.

Print Assumptions C71_file.
Print Assumptions C71_truncated.
Print Assumptions C71_add.
Print Assumptions C71_weight.
Print Assumptions C71_weight_refuted.
Print Assumptions C71_unknown_type_refuted.
