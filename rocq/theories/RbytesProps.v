(* C08: primitive round trip; C09: object headers. *)
From Coq Require Import ZArith List Bool Arith Lia.
From Verif Require Import GoLib Bytes Bits RbytesModel RbytesProofs.
Import ListNotations.
Local Open Scope Z_scope.
Local Arguments be : simpl never.

(* ---------------------------------------------------------- a value of the API *)
Inductive item : Type :=
| IBool (b : bool)
| IUint (width : nat) (v : Z)              (* U8..U64; F32/F64 as bit patterns *)
| ISint (width : nat) (v : Z)
| IString (s : list Z)
| ICString (s : list Z)
| IStdString (s : list Z)
| IBools (bs : list bool)
| IUints (width : nat) (vs : list Z)
| ISints (width : nat) (vs : list Z)
| IStrings (ss : list (list Z))
| IStaticI32 (vs : list Z)
| IBitset (vs : list Z)
| IVecU (name : list Z) (width : nat) (vs : list Z)
| IVecS (name : list Z) (width : nat) (vs : list Z)
| IVecStr (name : list Z) (ss : list (list Z)).

(* what the reader is given: the kind, and the destination arrays *)
Inductive shape : Type :=
| SBool | SUint (width : nat) | SSint (width : nat) | SString | SCString (n : nat) | SStdString
| SBools (old : list bool) | SUints (width : nat) (old : list Z) | SSints (width : nat) (old : list Z)
| SStrings (old : list (list Z)) | SStaticI32 | SBitset (n : nat)
| SVecU (name : list Z) (width : nat) | SVecS (name : list Z) (width : nat) | SVecStr (name : list Z).

Definition write_item (junk : nat -> Z) (i : item) : wbuf -> res wbuf :=
  match i with
  | IBool b => WriteBool junk b
  | IUint w v | ISint w v => WriteInt junk w v
  | IString s => WriteString junk s
  | ICString s => WriteCString junk s
  | IStdString s => WriteStdString junk s
  | IBools bs => WriteArrayBool junk bs
  | IUints w vs | ISints w vs => WriteArrayInt junk w vs
  | IStrings ss => WriteArrayString junk ss
  | IStaticI32 vs => WriteStaticArrayI32 junk vs
  | IBitset vs => WriteStdBitset junk vs
  | IVecU n w vs | IVecS n w vs => WriteStdVectorInt junk n w vs
  | IVecStr n ss => WriteStdVectorStrs junk n ss
  end.
Definition rmap {A} (g : A -> item) (f : rd A) : rd item :=
  fun r => do x <- f r; Ok (g (fst x), snd x).
Definition read_item sictx (s : shape) : rd item :=
  match s with
  | SBool => rmap IBool ReadBool
  | SUint w => rmap (IUint w) (ReadUint w)
  | SSint w => rmap (ISint w) (ReadSint w)
  | SString => rmap IString ReadString
  | SCString n => rmap ICString (ReadCString n)
  | SStdString => rmap IStdString (ReadStdString sictx)
  | SBools old => rmap IBools (ReadArray ReadBool old)
  | SUints w old => rmap (IUints w) (ReadArray (ReadUint w) old)
  | SSints w old => rmap (ISints w) (ReadArray (ReadSint w) old)
  | SStrings old => rmap IStrings (ReadArray ReadString old)
  | SStaticI32 => rmap IStaticI32 ReadStaticArrayI32
  | SBitset n => rmap IBitset (ReadStdBitset n)
  | SVecU n w => rmap (IVecU n w) (ReadStdVector sictx n (ReadUint w))
  | SVecS n w => rmap (IVecS n w) (ReadStdVector sictx n (ReadSint w))
  | SVecStr n => rmap (IVecStr n) (ReadStdVector sictx n ReadString)
  end.
Fixpoint write_items junk (its : list item) (w : wbuf) : res wbuf :=
  match its with [] => Ok w | i :: t => do w' <- write_item junk i w; write_items junk t w' end.
Fixpoint read_items sictx (shs : list shape) (r : rbuf) : res (list item * rbuf) :=
  match shs with
  | [] => Ok ([], r)
  | s :: t => do ir <- read_item sictx s r; do lr <- read_items sictx t (snd ir); Ok (fst ir :: fst lr, snd lr)
  end.

Definition width_ok (w : nat) : Prop := In w [1; 2; 4; 8]%nat.
Definition uints_ok w vs := width_ok w /\ Forall (inU (8 * Z.of_nat w)) vs.
Definition sints_ok w vs := width_ok w /\ Forall (inS (8 * Z.of_nat w)) vs.
(* total size of the strings with their length prefixes *)
Definition strs_size (ss : list (list Z)) : Z := Z.of_nat (list_sum (map (fun s => 5 + length s) ss))%nat.

(* the values C08 speaks about; the restrictions that are not mere Go types are:
   - strings do not start with a NUL byte (ReadString drops them), C-strings contain none;
   - an array of strings is empty or holds at least one non-empty string;
   - containers with a byte count stay below 2^30 bytes *)
Definition legal (i : item) : Prop :=
  match i with
  | IBool _ | IBools _ => True
  | IUint w v => width_ok w /\ inU (8 * Z.of_nat w) v
  | ISint w v => width_ok w /\ inS (8 * Z.of_nat w) v
  | IString s => str_ok s
  | ICString s => ~ In 0 s
  | IStdString s => str_ok s /\ Z.of_nat (length s) + 7 < 2 ^ 30
  | IUints w vs => uints_ok w vs
  | ISints w vs => sints_ok w vs
  | IStrings ss => Forall str_ok ss /\ (ss = [] \/ Exists (fun s => s <> []) ss)
  | IStaticI32 vs => Forall (inS 32) vs /\ Z.of_nat (length vs) < 2 ^ 31
  | IBitset vs => bytes_ok vs
  | IVecU _ w vs => uints_ok w vs /\ Z.of_nat (length vs * w) + 6 < 2 ^ 30
  | IVecS _ w vs => sints_ok w vs /\ Z.of_nat (length vs * w) + 6 < 2 ^ 30
  | IVecStr _ ss => Forall str_ok ss /\ (ss = [] \/ Exists (fun s => s <> []) ss) /\ strs_size ss + 6 < 2 ^ 30
  end.
(* the reader asks for the right kind and size *)
Definition fits (s : shape) (i : item) : Prop :=
  match s, i with
  | SBool, IBool _ | SString, IString _ | SStdString, IStdString _ | SStaticI32, IStaticI32 _ => True
  | SUint w, IUint w' _ | SSint w, ISint w' _ => w = w'
  | SCString n, ICString s => (length s < n)%nat
  | SBools old, IBools bs => length old = length bs
  | SUints w old, IUints w' vs | SSints w old, ISints w' vs => w = w' /\ length old = length vs
  | SStrings old, IStrings ss => length old = length ss
  | SBitset n, IBitset vs => n = length vs
  | SVecU n w, IVecU n' w' _ | SVecS n w, IVecS n' w' _ => n = n' /\ w = w'
  | SVecStr n, IVecStr n' _ => n = n'
  | _, _ => False
  end.

Lemma width_pos w : width_ok w -> (0 < w)%nat.
Proof. unfold width_ok; cbn; intuition lia. Qed.
Lemma width_le w : width_ok w -> (w <= 8)%nat.
Proof. unfold width_ok; cbn; intuition lia. Qed.

Lemma strs_size_enc ss : Z.of_nat (length (concat (map enc_string ss))) <= strs_size ss.
Proof.
  unfold strs_size. apply Nat2Z.inj_le. induction ss as [|s ss IH]; auto.
  cbn [map concat list_sum fold_right]. rewrite app_length, strlen_enc.
  unfold list_sum in IH. unfold strlen. destruct (_ <? _)%nat; lia.
Qed.
Lemma strs_size_len ss : Z.of_nat (length ss) <= strs_size ss.
Proof.
  unfold strs_size. apply Nat2Z.inj_le. induction ss as [|s ss IH]; auto.
  cbn [map length list_sum fold_right]. unfold list_sum in IH. lia.
Qed.

Lemma item_codec junk sictx s i : legal i -> fits s i ->
  exists bs, emits (write_item junk i) bs /\ reads (read_item sictx s) bs i.
Proof.
  intros HL HF. destruct i, s; cbn in HF; try contradiction.
  - eexists; split; [apply WriteBool_emits|]. apply (reads_map _ IBool), ReadBool_reads.
  - subst. destruct HL as [H1 H2]. eexists; split; [apply WriteInt_emits|]. apply reads_map, ReadUint_reads; auto.
  - subst. destruct HL as [H1 H2]. eexists; split; [apply WriteInt_emits|]. apply (reads_map _ (ISint _)), ReadSint_reads; auto.
    apply width_pos; auto.
  - eexists; split; [apply WriteString_emits|]. apply (reads_map _ IString), ReadString_reads; auto.
  - eexists; split; [apply WriteCString_emits|]. cbn in HL. rewrite until_nul_id by auto.
    apply (reads_map _ ICString), ReadCString_reads; auto.
  - destruct HL as [H1 H2].
    assert (Z.of_nat (length (enc_string s0)) + 2 < 2 ^ 30).
    { rewrite strlen_enc. unfold strlen. destruct (_ <? _)%nat; lia. }
    eexists; split; [apply WriteStdString_emits; auto|]. apply (reads_map _ IStdString), ReadStdString_reads; auto.
  - eexists; split; [apply WriteArrayBool_emits|].
    apply (reads_map _ IBools), (ReadArray_reads ReadBool (fun b : bool => [if b then 1 else 0])); auto.
    intros; apply ReadBool_reads.
  - destruct HF as [-> HF], HL as [H1 H2]. rewrite Forall_forall in H2.
    eexists; split; [apply WriteArrayInt_emits|].
    apply (reads_map _ (IUints width)), (ReadArray_reads (ReadUint width) (be width)); auto.
    + intros; apply ReadUint_reads; auto.
    + intros; rewrite be_length. apply width_pos; auto.
  - destruct HF as [-> HF], HL as [H1 H2]. rewrite Forall_forall in H2. assert (HP := width_pos _ H1).
    eexists; split; [apply WriteArrayInt_emits|].
    apply (reads_map _ _), (ReadArray_reads (ReadSint width) (be width)); auto.
    + intros; apply ReadSint_reads; auto.
    + intros; rewrite be_length. auto.
  - destruct HL as [H1 H2]. rewrite Forall_forall in H1.
    eexists; split; [apply WriteArrayString_emits; auto|].
    apply (reads_map _ IStrings), (ReadArray_reads ReadString enc_string); auto.
    + intros; apply ReadString_reads; auto.
    + intros v _. rewrite strlen_enc. pose proof (strlen_ge v). lia.
  - destruct HL as [H1 H2]. eexists; split; [apply WriteStaticArrayI32_emits|].
    apply (reads_map _ IStaticI32), ReadStaticArrayI32_reads; auto.
  - subst. eexists; split; [apply WriteStdBitset_emits|]. apply (reads_map _ IBitset), ReadStdBitset_reads; auto.
  - destruct HF as [-> ->], HL as [[H1 H2] H3]. rewrite Forall_forall in H2. assert (HP := width_pos _ H1).
    eexists; split; [apply WriteStdVectorInt_emits; rewrite app_length, be_length, concat_be_length; lia|].
    apply (reads_map _ (IVecU name width)), (ReadStdVector_reads sictx name (ReadUint width) (be width)).
    + intros; apply ReadUint_reads; auto.
    + rewrite app_length, be_length, concat_be_length; lia.
    + nia.
  - destruct HF as [-> ->], HL as [[H1 H2] H3]. rewrite Forall_forall in H2. assert (HP := width_pos _ H1).
    eexists; split; [apply WriteStdVectorInt_emits; rewrite app_length, be_length, concat_be_length; lia|].
    apply (reads_map _ (IVecS name width)), (ReadStdVector_reads sictx name (ReadSint width) (be width)).
    + intros; apply ReadSint_reads; auto.
    + rewrite app_length, be_length, concat_be_length; lia.
    + nia.
  - subst. destruct HL as (H1 & H2 & H3). rewrite Forall_forall in H1.
    pose proof (strs_size_enc ss). pose proof (strs_size_len ss).
    eexists; split; [apply WriteStdVectorStrs_emits; auto; rewrite app_length, be_length; lia|].
    apply (reads_map _ (IVecStr name)), (ReadStdVector_reads sictx name ReadString enc_string).
    + intros; apply ReadString_reads; auto.
    + rewrite app_length, be_length; lia.
    + lia.
Qed.

(* C08: every sequence of values written to a buffer in any state is read back unchanged,
   wherever the bytes end up, and the reader stops exactly after them *)
Theorem C08_round_trip junk sictx its shs w :
  wf w -> Forall legal its -> Forall2 fits shs its ->
  exists w' bs, write_items junk its w = Ok w' /\ wf w' /\ wBytes w' = wBytes w ++ bs /\
    forall pre suf off,
      read_items sictx shs {| rp := pre ++ bs ++ suf; rc := length pre; rerr := false; roff := off |}
      = Ok (its, {| rp := pre ++ bs ++ suf; rc := length pre + length bs; rerr := false; roff := off |}).
Proof.
  intros Hw HL HF.
  assert (C : exists bs, emits (write_items junk its) bs /\ reads (read_items sictx shs) bs its).
  { clear w Hw. induction HF as [|s i shs its HF1 HF IH].
    - exists []. split.
      + intros w Hw. exists w. cbn. split; auto. split; auto. repeat split; try apply Hw. rewrite app_nil_r; auto.
      + apply reads_ret.
    - inversion HL; subst. destruct (IH H2) as (b2 & E2 & R2).
      destruct (item_codec junk sictx s i H1 HF1) as (b1 & E1 & R1).
      exists (b1 ++ b2). split.
      + cbn [write_items]. apply emits_seq; auto.
      + cbn [read_items]. apply (reads_bind (read_item sictx s)
          (fun x r => do lr <- read_items sictx shs r; Ok (x :: fst lr, snd lr)) b1 b2 i); auto.
        apply (reads_map _ (cons i)); auto. }
  destruct C as (bs & E & R). destruct (E w Hw) as (w' & E' & (S1 & S2 & _) & _).
  exists w', bs. split; auto. split; auto. split; auto. intros pre suf off.
  apply R. split; auto. cbn. split.
  - rewrite app_length. lia.
  - exists suf. apply skipn_app_exact; auto.
Qed.

(* NewWBuffer(nil,...) then NewRBuffer(w.Bytes(),...): nothing is left *)
Corollary C08_whole_buffer junk sictx its shs :
  Forall legal its -> Forall2 fits shs its ->
  exists w', write_items junk its {| wp := []; wc := 0; werr := false; woff := 0 |} = Ok w' /\ werr w' = false /\
    exists r', read_items sictx shs {| rp := wBytes w'; rc := 0; rerr := false; roff := 0 |} = Ok (its, r') /\
      rerr r' = false /\ rLen r' = 0.
Proof.
  intros H1 H2. destruct (C08_round_trip junk sictx its shs {| wp := []; wc := 0; werr := false; woff := 0 |})
    as (w' & bs & E & W & B & R); auto.
  - split; cbn; auto.
  - exists w'. split; auto. split; [apply W|]. specialize (R [] [] 0).
    cbn [app length plus] in R. rewrite app_nil_r in R. cbn in B. rewrite B. rewrite R.
    eexists. split; [reflexivity|]. split; auto. unfold rLen; cbn. lia.
Qed.

(* strings starting with a NUL byte do not survive *)
Theorem C08_nul_string_refuted : exists s w' r',
  bytes_ok s /\
  WriteString (fun _ => 0) s {| wp := []; wc := 0; werr := false; woff := 0 |} = Ok w' /\ werr w' = false /\
  ReadString {| rp := wBytes w'; rc := 0; rerr := false; roff := 0 |} = Ok ([], r') /\ s <> [] /\ rLen r' = 1.
Proof.
  exists [0; 65]. eexists _, _. split; [repeat constructor; unfold byte_ok; lia|].
  split; [reflexivity|]. split; [reflexivity|]. split; [reflexivity|]. split; [discriminate|reflexivity].
Qed.

(* an array of empty strings cannot be written to a buffer without spare room *)
Theorem C08_empty_strings_refuted junk w vs :
  wf w -> slack w = 0%nat -> vs <> [] -> Forall (fun v => v = []) vs ->
  exists w', WriteArrayString junk vs w = Ok w' /\ werr w' = true.
Proof.
  intros Hw Hs Hne HF. unfold WriteArrayString. rewrite (proj2 Hw).
  destruct (grow_step junk (list_sum (map strlen vs)) w Hw) as [S1 K1].
  apply writeStrings_empty_fails; auto; [apply S1|]. rewrite K1, Hs.
  clear - HF. induction HF; auto. subst. cbn in *. unfold list_sum in *. lia.
Qed.

Example C08_example : exists its shs, Forall legal its /\ Forall2 fits shs its /\ length its = 6%nat.
Proof.
  exists [IBool true; ISint 2 (-5); IString [104; 105]; IStrings [[]; [65]]; IVecU [118] 4 [7; 8]; ICString [65]],
         [SBool; SSint 2; SString; SStrings [[1]; []]; SVecU [118] 4; SCString 80].
  split; [|split; [|reflexivity]].
  - repeat apply Forall_cons; [exact I| | | | | |apply Forall_nil]; cbn [legal].
    + split; [right; left; reflexivity|unfold inS; cbn; lia].
    + split; [|split; [cbn; lia|discriminate]]. repeat constructor; unfold byte_ok; lia.
    + split.
      * repeat apply Forall_cons; try apply Forall_nil;
          (split; [|split; [cbn; lia|discriminate]]); repeat constructor; unfold byte_ok; lia.
      * right. apply Exists_cons_tl, Exists_cons_hd. discriminate.
    + split; [split; [do 2 right; left; reflexivity|]|cbn; lia].
      repeat constructor; unfold inU; cbn; lia.
    + intros [X|[]]. discriminate.
  - repeat apply Forall2_cons; try apply Forall2_nil; cbn; auto; lia.
Qed.

(* ------------------------------------------------------------------ C09 *)
(* A value written as header, payload, byte count.  [emits op bs]: op appends exactly bs. *)
Theorem C09_header junk sictx name vers vmax op bs w :
  emits op bs -> Z.of_nat (length bs) + 2 < 2 ^ 30 -> 0 < vers < 2 ^ 14 -> wf w ->
  exists n w' new, framed junk name vers op w = Ok (n, w') /\ werr w' = false /\
    wBytes w' = wBytes w ++ new /\ n = Z.of_nat (length new) /\ length new = (6 + length bs)%nat /\
    forall r pre suf, r = {| rp := pre ++ new ++ suf; rc := length pre; rerr := false; roff := roff r |} ->
      (vmax < 0 \/ vers <= vmax ->
       exists h r1, ReadHeader sictx name vmax r = Ok (h, r1) /\
         hVers h = vers /\ hPos h = rPos r /\ hLen h = n - 4 /\ hMW h = false /\ rc r1 = (length pre + 6)%nat /\
         (* CheckHeader accepts exactly at the end of the value *)
         forall r2, rerr r2 = false -> roff r2 = roff r ->
           (rerr (CheckHeader h r2) = false <-> Z.of_nat (rc r2) = Z.of_nat (length pre) + n)) /\
      (0 <= vmax < vers -> ReadHeader sictx name vmax r = Panic).
Proof.
  intros Hop Hl Hv Hw. destruct (framed_emits junk name vers op bs w Hop Hl Hw) as (w' & E & (S1 & S2 & S3) & _).
  set (new := be 4 (Z.of_nat (length bs) + 2 + 2 ^ 30) ++ be 2 vers ++ bs) in *.
  assert (Ln : length new = (6 + length bs)%nat) by (unfold new; rewrite !app_length, !be_length; lia).
  exists (Z.of_nat (length bs) + 6), w', new. split; auto. split; [apply S1|]. split; auto.
  split; [lia|]. split; auto. intros r pre suf Er.
  assert (Hat : at_ r (be 4 (Z.of_nat (length bs) + 2 + 2 ^ 30) ++ be 2 vers)).
  { rewrite Er. split; auto. cbn. split; [rewrite app_length; lia|]. exists (bs ++ suf).
    rewrite skipn_app_exact by auto. unfold new. rewrite <- !app_assoc. auto. }
  assert (Hrc : rc r = length pre) by (rewrite Er; auto).
  split.
  - intros Hm. rewrite (ReadHeader_reads sictx name vers vmax (Z.of_nat (length bs) + 2) r) by (auto; lia).
    eexists _, _. split; [reflexivity|]. cbn [hVers hPos hLen hMW]. repeat split; auto; try lia.
    + unfold adv, r_set_c; cbn. lia.
    + intros HC. destruct (CheckHeader_spec {| hName := name; hVers := vers; hPos := rPos r; hLen := Z.of_nat (length bs) + 2; hMW := false |} r2 H ltac:(cbn; lia)) as [C1 _].
      rewrite C1 in HC. cbn [hPos hLen] in HC. destruct (Z.eqb_spec (rPos r2) (rPos r + (Z.of_nat (length bs) + 2) + 4)) as [Q|]; [|discriminate].
      unfold rPos in Q. rewrite H0, Hrc in Q. lia.
    + intros HC. destruct (CheckHeader_spec {| hName := name; hVers := vers; hPos := rPos r; hLen := Z.of_nat (length bs) + 2; hMW := false |} r2 H ltac:(cbn; lia)) as [C1 _].
      rewrite C1. cbn [hPos hLen]. replace (rPos r2 =? _) with true; auto. symmetry. apply Z.eqb_eq.
      unfold rPos. rewrite H0, Hrc. lia.
  - intros Hm. unfold ReadHeader. rewrite (proj1 Hat). destruct (at_app _ _ _ Hat) as [Ra Rb].
    rewrite (ReadUint_reads 4 (Z.of_nat (length bs) + 2 + 2 ^ 30)) by (auto; unfold inU; cbn; lia). cbn [rbind fst snd].
    unfold kByteCountMask. rewrite land_pow2_nz, testbit_add_pow2 by lia. cbn [negb].
    rewrite (ReadUint_reads 2 vers) by (auto; unfold inU; cbn; lia). cbn [rbind fst snd].
    rewrite (wrapS_id 16) by (unfold inS; cbn; lia).
    unfold StreamedMemberWise. rewrite land_pow2_nz by lia. rewrite (testbit_small vers 14) by lia. cbn [negb].
    destruct (Z.leb_spec vers 0); [lia|]. cbn [rbind fst snd].
    destruct (Z.leb_spec 0 vmax); [|lia]. destruct (Z.ltb_spec vmax vers); [|lia]. reflexivity.
Qed.

Lemma list_of_length n : 0 <= n -> exists l : list Z, Z.of_nat (length l) = n.
Proof. intros. exists (repeat 0 (Z.to_nat n)). rewrite repeat_length. lia. Qed.

(* above 2^30-3 payload bytes the count is silently wrong: a payload of 2^30-2 bytes is
   recorded as if nothing followed the count *)
Theorem C09_oversize_refuted junk w name vers :
  wf w -> exists bs n w',
    Z.of_nat (length bs) = 2 ^ 30 - 2 /\
    framed junk name vers (write junk bs) w = Ok (n, w') /\ werr w' = false /\
    wBytes w' = wBytes w ++ be 4 (2 ^ 30) ++ be 2 vers ++ bs.
Proof.
  intros Hw. destruct (list_of_length (2 ^ 30 - 2)) as [bs Lb]; [lia|]. exists bs.
  unfold framed, WriteHeader. rewrite (proj2 Hw).
  destruct (grow_step junk 6 w Hw) as [S0 K0].
  destruct (put_bytes_step (be 4 0) (grow junk 6 w)) as (w1 & E1 & S1 & K1); [apply S0|rewrite be_length; lia|].
  rewrite E1. cbn [rbind]. rewrite be_length in K1.
  destruct (put_bytes_step (be 2 vers) w1) as (w2 & E2 & S2 & K2); [apply S1|rewrite be_length; lia|].
  rewrite E2. cbn [rbind fst snd].
  destruct (write_step junk bs w2) as (w3 & E3 & S3 & K3); [apply S2|lia|]. rewrite E3. cbn [rbind].
  assert (S := step_trans _ _ _ _ _ (step_trans _ _ _ _ _ (step_trans _ _ _ _ _ S0 S1) S2) S3).
  destruct S as (F1 & F2 & F3).
  destruct (SetHeader_spec junk {| hName := name; hVers := vers; hPos := wPos w; hLen := 0; hMW := false |}
              w3 (wBytes w) (be 4 0) (be 2 vers ++ bs)) as (w4 & E4 & W4 & B4 & O4 & K4); auto.
  - cbn [hPos]. unfold wPos. rewrite F3. unfold wBytes. rewrite firstn_length. destruct Hw. lia.
  - rewrite E4. eexists _, w4. split; auto. split; [reflexivity|]. split; [apply W4|]. rewrite B4.
    rewrite app_length, be_length, Nat2Z.inj_add, Lb. reflexivity.
Qed.

Example C09_example : exists w', framed (fun _ => 0) [84] 3 (WriteInt (fun _ => 0) 4 7)
    {| wp := []; wc := 0; werr := false; woff := 100 |} = Ok (10, w') /\
  wBytes w' = [64; 0; 0; 6; 0; 3; 0; 0; 0; 7].
Proof. eexists. split; reflexivity. Qed.

Print Assumptions C08_round_trip.
Print Assumptions C08_whole_buffer.
Print Assumptions C08_nul_string_refuted.
Print Assumptions C08_empty_strings_refuted.
Print Assumptions C09_header.
Print Assumptions C09_oversize_refuted.
