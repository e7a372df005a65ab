(* C27, C28: sio streams. *)
From Coq Require Import ZArith List Lia Bool Permutation.
From Verif Require Import Bytes GoLib GoStrings Bits Parse RioModel RioProofs SioModel SioProofs SioProofs2.
Import ListNotations.
Local Open Scope Z_scope.
Local Arguments be : simpl never.
Local Arguments Z.pow : simpl never.

(* C27.  A record in front of anything: ReadRecord gives its name, options and the values of its connected blocks and leaves
   what follows; if it is not to be unpacked, reading goes on with what follows. *)
Theorem C27_record : forall perm z cf r fuel rest out out', (forall l, Permutation (perm l) l) -> zlib_ok z -> rec_ok z cf r ->
  write_record z r out = Ok (Some out') ->
  exists bytes, out' = out ++ bytes /\
    read_record (S fuel) perm z cf (bytes ++ rest) =
    if unpacked cf r then Ok (Some (rec_value cf r, rest)) else read_record fuel perm z cf rest.
Proof.
  intros perm z cf r fuel rest out out' Pm Zok R W. destruct (write_record_eq z cf r out R) as (ds & s & P & E). rewrite E in W.
  assert (out' = out ++ rec_bytes z r (frames (wrblks r) ds)) as -> by congruence. eexists. split; [reflexivity|].
  apply (read_record_ok perm z cf r ds s fuel rest Pm Zok R P).
Qed.
(* Whole streams: the records to be unpacked are read, in order and no other, until the end.  Needs skipped records that are
   not compressed to have a length that is a multiple of four and blocks that are not connected to be free of the block marker
   (both in rec_ok). *)
Theorem C27_stream_partial : forall perm z cf rs l, (forall l, Permutation (perm l) l) -> zlib_ok z -> Forall (rec_ok z cf) rs ->
  write_records z rs [] = Ok (Some l) ->
  forall n, (length rs < n)%nat -> read_all n n perm z cf l = Ok (map (rec_value cf) (filter (unpacked cf) rs)).
Proof.
  intros perm z cf rs l Pm Zok F W n Hn. destruct (write_records_eq z cf rs [] l F W) as (bss & F2 & ->). cbn [app].
  assert (G : forall m n rs bss, (length rs < m)%nat -> (length rs < n)%nat -> Forall (rec_ok z cf) rs ->
    Forall2 (fun r b => exists ds s, payloads (wrblks r) (0, []) = Ok (Some (ds, s)) /\ b = rec_bytes z r (frames (wrblks r) ds)) rs bss ->
    read_all m n perm z cf (concat bss) = Ok (map (rec_value cf) (filter (unpacked cf) rs))).
  { clear -Pm Zok. induction m as [|m IH]; intros n rs bss H1 H2 F F2; [lia|]. cbn [read_all].
    destruct (read_next perm z cf Pm Zok rs bss F F2 n H2) as [(E & R)|(r & rs' & bss' & E & L & Fr & F2' & R)]; rewrite R, E.
    - reflexivity.
    - rewrite (IH n rs' bss'); [reflexivity|lia|lia|auto|auto]. }
  apply G; auto.
Qed.
(* Writing never fails but for ids; it panics only on structs inside maps. *)
Fixpoint no_map_struct (t : ty) : Prop :=
  match t with
  | TSlice t' => no_map_struct t'
  | TMap k w => no_map_struct k /\ no_map_struct w /\ (match k with TStruct _ => False | _ => True end) /\ (match w with TStruct _ => False | _ => True end)
  | TStruct ts => (fix go (ts : list ty) : Prop := match ts with [] => True | t' :: ts' => no_map_struct t' /\ go ts' end) ts
  | _ => True
  end.
Lemma enc_all_total {A} (f : A -> wids -> res (option (list Z * wids))) : forall l, (forall x s, In x l -> f x s <> Panic) -> forall s, enc_all f l s <> Panic.
Proof.
  induction l as [|x l IH]; intros H s; cbn [enc_all]; [discriminate|]. specialize (H x) as Hx. destruct (f x s) as [[r|]|] eqn:E; cbn [wbind]; [|discriminate|exfalso; apply (Hx s); cbn; auto].
  assert (Hl : enc_all f l (snd r) <> Panic) by (apply IH; intros; apply H; cbn; auto). destruct (enc_all f l (snd r)) as [[r'|]|]; cbn; first [discriminate|congruence].
Qed.
Theorem C27_no_panic : forall t, no_map_struct t -> forall v s, enc true t v s <> Panic.
Proof.
  assert (Af : forall t, (match t with TStruct _ => False | _ => True end) -> forall v s, enc false t v s = enc true t v s) by (destruct t; intros N v s; try contradiction; destruct v; reflexivity).
  induction t as [n|n| | |t IH|k w IHk IHw|ts IH| |] using ty_ind2; intros N v s; destruct v; try (cbn; discriminate).
  - cbn [enc]. assert (H : enc_all (enc true t) vs s <> Panic) by (apply enc_all_total; intros; apply IH, N). destruct (enc_all (enc true t) vs s) as [[r|]|]; cbn; first [discriminate|congruence].
  - cbn [enc]. cbn [no_map_struct] in N. destruct N as (Nk & Nw & Sk & Sw).
    match goal with |- context [enc_all ?f kvs s] => assert (H : enc_all f kvs s <> Panic) end.
    { apply enc_all_total. intros (a, b) s' _. cbn [fst snd]. rewrite (Af k Sk). pose proof (IHk Nk a s') as H1. destruct (enc true k a s') as [[r|]|]; cbn [wbind]; try first [discriminate|congruence].
      rewrite (Af w Sw). pose proof (IHw Nw b (snd r)) as H2. destruct (enc true w b (snd r)) as [[r'|]|]; cbn; first [discriminate|congruence]. }
    match goal with |- context [enc_all ?f kvs s] => destruct (enc_all f kvs s) as [[r|]|] end; cbn; first [discriminate|congruence].
  - rewrite enc_struct. revert vs s. cbn [no_map_struct] in N. induction IH as [|t ts IHt IHts IH]; intros [|v vs] s; cbn [enc_fields]; try discriminate.
    destruct N as (Nt & Nts). pose proof (IHt Nt v s) as H1. destruct (enc true t v s) as [[r|]|]; cbn [wbind]; try first [discriminate|congruence].
    pose proof (IH Nts vs (snd r)) as H2. destruct (enc_fields true ts vs (snd r)) as [[r'|]|]; cbn; first [discriminate|congruence].
Qed.

(* C28.  After reading a record, every pointer refers to the object that carried its tag, wherever it is in the connected
   blocks of the record, and pointers to other objects (nil among them) are left as they were; two pointers to objects of the
   record are equal after reading iff they were when written.  Needs objects to be tagged once. *)
Theorem C28_pointers_partial : forall perm conn bs buf s, (forall l, Permutation (perm l) l) -> rec_write bs = Ok (Some (buf, s)) ->
  (exists ds, payloads bs (0, []) = Ok (Some (ds, s)) /\ Forall2 (blk_ok conn) bs ds) ->
  let objs := flat_map (fun b => tags_of (wval b)) (filter (connected conn) bs) in
  NoDup objs ->
  exists (at_ : Z -> nat) (target : Z -> option nat),
    rec_read perm conn buf = Ok (Some (map (fun b => (wname b, (wver b, vmap at_ target (wval b)))) (filter (connected conn) bs))) /\
    (forall a, In a objs -> nth_error objs (at_ a) = Some a) /\
    (forall a k, target a = Some k <-> nth_error objs k = Some a) /\
    (forall a b, In a objs -> In b objs -> target a = target b <-> a = b).
Proof.
  intros perm conn bs buf s Pm W (ds & P & F) objs N. destruct (payloads_write _ _ _ _ P) as (E & _).
  assert (buf = frames bs ds) as -> by (unfold rec_write in W; fold blk_write in W; change (enc_all (fun b s0 => wbind (enc true (wty b) (wval b) s0) (fun r0 => wret (blk_bytes (wname b) (wver b) (fst r0), snd r0))) bs (0, [])) with (enc_all blk_write bs (0, [])) in W; congruence).
  exists (pos objs), (idx objs). split; [apply (rec_read_ok perm conn bs ds s Pm P F N)|].
  assert (Ix : forall a, In a objs -> exists k, idx objs a = Some k). { intros a J. destruct (idx objs a) eqn:Ei; [eauto|]. apply idx_none in Ei. contradiction. }
  split; [|split].
  - intros a J. destruct (Ix a J) as (k & Ek). unfold pos. rewrite Ek. apply idx_nth; auto.
  - intros a k. apply idx_nth. exact N.
  - intros a b Ja Jb. split; [|congruence]. intros Ei. destruct (Ix a Ja) as (k & Ek). rewrite Ek in Ei. symmetry in Ei.
    apply idx_nth in Ek; auto. apply idx_nth in Ei; auto. congruence.
Qed.

(* ---- examples and limits ---- *)
Definition id_zlib : zlib := {| deflate := fun x => x; inflate := fun l n => if (n <=? length l)%nat then Some (firstn n l) else None |}.
Lemma id_zlib_ok : zlib_ok id_zlib.
Proof.
  intros x k. cbn. rewrite app_length. destruct (Nat.leb_spec (length x) (length x + length (repeat 0 k))); [|lia].
  now rewrite (firstn_app_exact _ _ _ eq_refl).
Qed.
Definition node : ty := TStruct [TS 4; TTag; TPtr; TPtr].
Definition mk (v me a b : Z) : val Z Z := VStruct [VInt v; VTag me; VPtr a; VPtr b].
(* a cycle over two blocks, with a nil pointer and a pointer into a block that is not connected *)
Definition ex_blks : list wblk :=
  [{| wname := [97]; wver := 1; wty := TSlice node; wval := VList [mk (-5) 10 11 0; mk 6 11 20 10] |};
   {| wname := [120]; wver := 0; wty := node; wval := mk 7 30 10 10 |};
   {| wname := [98; 98]; wver := 2; wty := TStruct [TStr; TMap TStr (TSlice TBool); node]; wval := VStruct [VStr [104; 105]; VMap [(VStr [1], VList [VInt 1]); (VStr [], VList [])]; mk 8 20 30 11] |}].
Definition ex_conn : list (str * ty) := [([97], TSlice node); ([98; 98], TStruct [TStr; TMap TStr (TSlice TBool); node])].
Lemma no_mark_dec d : mark_index d = None -> ~ has_mark d.
Proof.
  intros E (a & b & ->). revert E. induction a as [|x a IH]; [discriminate|]. rewrite <- app_comm_cons. cbn [mark_index].
  destruct (str_eqb _ _); [discriminate|]. destruct (mark_index (a ++ blkMarkerBeg ++ b)); [discriminate|]. auto.
Qed.
Ltac ok := repeat match goal with
  | |- _ /\ _ => split | |- Forall _ [] => apply Forall_nil | |- Forall _ (_ :: _) => apply Forall_cons | |- Forall2 _ [] [] => apply Forall2_nil
  | |- Forall2 _ (_ :: _) (_ :: _) => apply Forall2_cons | |- NoDup [] => apply NoDup_nil | |- NoDup (_ :: _) => apply NoDup_cons
  | |- True => exact I | |- ~ has_mark _ => apply no_mark_dec; vm_compute; reflexivity
  | |- blk_ok _ _ _ => unfold blk_ok; cbn | |- typed _ _ => cbn | |- inU _ _ => unfold inU; lia | |- inS _ _ => unfold inS; lia
  | |- zlen _ + _ < _ => unfold zlen; cbn; lia | |- zlen _ < _ => unfold zlen; cbn; lia | |- ~ In _ _ => cbn; intuition (lia || discriminate) | |- (_ < _)%nat => lia
  | |- Forall _ (wrblks _) => cbn [wrblks] | |- Forall _ (_ ++ _) => cbn [app] | |- is_key _ => exact I | |- match _ with _ => _ end => progress cbn | |- _ < _ => lia | |- context [mk] => unfold mk; cbn | |- _ = _ => reflexivity | |- _ -> False => cbn; intuition (lia || discriminate) | |- _ \/ _ => cbn; intuition lia
  end.
Example C28_example : exists buf s, rec_write ex_blks = Ok (Some (buf, s)) /\
  (exists ds, payloads ex_blks (0, []) = Ok (Some (ds, s)) /\ Forall2 (blk_ok ex_conn) ex_blks ds) /\
  NoDup (flat_map (fun b => tags_of (wval b)) (filter (connected ex_conn) ex_blks)) /\
  rec_read (@rev _) ex_conn buf = Ok (Some
    [([97], (1, VList [VStruct [VInt (-5); VTag 0%nat; VPtr (Some 1%nat); VPtr None]; VStruct [VInt 6; VTag 1%nat; VPtr (Some 2%nat); VPtr (Some 0%nat)]]));
     ([98; 98], (2, VStruct [VStr [104; 105]; VMap [(VStr [1], VList [VInt 1]); (VStr [], VList [])]; VStruct [VInt 8; VTag 2%nat; VPtr None; VPtr (Some 1%nat)]]))]).
Proof.
  eexists _, _. split; [vm_compute; reflexivity|]. split; [|split].
  - eexists. split; [vm_compute; reflexivity|]. unfold ex_blks. ok.
  - cbn. ok.
  - vm_compute. reflexivity.
Qed.
(* an object tagged twice: what a pointer to it refers to depends on the order of a Go map *)
Definition twice : list wblk := [{| wname := [97]; wver := 0; wty := TStruct [TTag; TTag; TPtr]; wval := VStruct [VTag 1; VTag 1; VPtr 1] |}].
Theorem C28_twice_refuted : exists bs conn buf s v w, rec_write bs = Ok (Some (buf, s)) /\
  (exists ds, payloads bs (0, []) = Ok (Some (ds, s)) /\ Forall2 (blk_ok conn) bs ds) /\
  rec_read (fun l => l) conn buf = Ok (Some v) /\ rec_read (@rev _) conn buf = Ok (Some w) /\ v <> w.
Proof.
  exists twice, [([97], TStruct [TTag; TTag; TPtr])]. eexists _, _, _, _. split; [vm_compute; reflexivity|]. split.
  - eexists. split; [vm_compute; reflexivity|]. unfold twice. ok.
  - split; [vm_compute; reflexivity|]. split; [vm_compute; reflexivity|]. discriminate.
Qed.

(* three records, the second one skipped, the last one compressed *)
Definition ex_recs : list wrec :=
  [{| wrname := [82]; wropt := 0; wrblks := ex_blks |};
   {| wrname := [83; 83]; wropt := 0; wrblks := [{| wname := [97]; wver := 0; wty := TU 4; wval := VInt 1 |}] |};
   {| wrname := [84]; wropt := 3; wrblks := [{| wname := [97]; wver := 0; wty := TU 1; wval := VInt 255 |}] |};
   {| wrname := [82]; wropt := 1; wrblks := [] |}].
Definition ex_conf : rconf := [([82], (true, ex_conn)); ([84], (true, [([97], TU 1)])); ([83; 83], (false, [([97], TU 4)]))].
Example C27_example : Forall (rec_ok id_zlib ex_conf) ex_recs /\ exists l, write_records id_zlib ex_recs [] = Ok (Some l) /\
  exists v, read_all 5 5 (fun l => l) id_zlib ex_conf l = Ok [v; ([84], 3, [([97], (0, VInt 255))]); ([82], 1, [])] /\ fst v = ([82], 0).
Proof.
  split.
  - repeat (apply Forall_cons; [split; [unfold inU; cbn; lia|]; eexists _, _; split; [vm_compute; reflexivity|]; split; [vm_compute; reflexivity|]; split; [vm_compute; reflexivity|]|]); [..|apply Forall_nil].
    all: cbn; unfold ex_blks; ok.
  - eexists. split; [vm_compute; reflexivity|]. eexists. split; [vm_compute; reflexivity|]. reflexivity.
Qed.
(* Full statement: for every stream.  Skipping a record that is not compressed and whose length is not a multiple of four
   leaves the stream in the middle of the next one. *)
Theorem C27_skip_refuted : exists rs cf l, write_records id_zlib rs [] = Ok (Some l) /\
  Forall (fun r => Forall (fun b => typed (wty b) (wval b)) (wrblks r)) rs /\ length (filter (unpacked cf) rs) = 1%nat /\
  read_all 3 3 (fun l => l) id_zlib cf l = Ok [].
Proof.
  exists [{| wrname := [65]; wropt := 0; wrblks := [{| wname := [97]; wver := 0; wty := TU 1; wval := VInt 1 |}] |};
          {| wrname := [66]; wropt := 0; wrblks := [{| wname := [97]; wver := 0; wty := TU 1; wval := VInt 2 |}] |}], [([66], (true, [([97], TU 1)]))].
  eexists. split; [vm_compute; reflexivity|]. split; [ok|]. split; reflexivity.
Qed.
(* A block that is not connected and holds the block marker hides the blocks that follow it, or makes the reader panic. *)
Theorem C27_marker_refuted : exists bs bs' conn buf buf' s s', rec_write bs = Ok (Some (buf, s)) /\ rec_write bs' = Ok (Some (buf', s')) /\
  Forall (fun b => typed (wty b) (wval b)) (bs ++ bs') /\ length (filter (connected conn) bs) = 1%nat /\
  rec_read (fun l => l) conn buf = Ok (Some []) /\ rec_read (fun l => l) conn buf' = Panic.
Proof.
  exists [{| wname := [120]; wver := 0; wty := TU 4; wval := VInt 0xdeadbeef |}; {| wname := [97]; wver := 0; wty := TU 4; wval := VInt 1 |}],
         [{| wname := [120]; wver := 0; wty := TU 8; wval := VInt 0x01deadbeef020304 |}; {| wname := [97]; wver := 0; wty := TU 4; wval := VInt 1 |}], [([97], TU 4)].
  eexists _, _, _, _. split; [vm_compute; reflexivity|]. split; [vm_compute; reflexivity|]. split; [ok|].
  split; [reflexivity|]. split; vm_compute; reflexivity.
Qed.
(* A map whose elements are structs cannot be written. *)
Theorem C27_map_refuted : exists t v, typed t v /\ enc true t v (0, []) = Panic.
Proof.
  exists (TMap TStr (TStruct [TBool])), (VMap [(VStr [97], VStruct [VInt 1])]). split; [|reflexivity].
  ok.
Qed.

Print Assumptions C27_record.
Print Assumptions C27_stream_partial.
Print Assumptions C27_no_panic.
Print Assumptions C27_skip_refuted.
Print Assumptions C27_marker_refuted.
Print Assumptions C27_map_refuted.
Print Assumptions C28_pointers_partial.
Print Assumptions C28_twice_refuted.
