(* C36 opaque data, C37 files, C38 signing, C39 redirections. *)
From Coq Require Import ZArith List Lia Bool.
From Verif Require Import Bytes GoLib GoStrings XrdModel XrdProofs XrdProps XrdCliModel.
Import ListNotations.
Local Open Scope Z_scope.

(* ---- C36 ---- *)
Lemma last_index_none c s : last_index c s = None <-> ~ In c s.
Proof.
  induction s as [|b s IH]; cbn [last_index In]; [split; [intros _ []|reflexivity]|].
  destruct (last_index c s) as [i|].
  - split; [discriminate|]. intros H. exfalso. apply H. right. destruct (in_dec Z.eq_dec c s) as [I|I]; [exact I|]. apply IH in I. discriminate.
  - destruct (Z.eqb_spec b c) as [->|N].
    + split; [discriminate|]. intros H. exfalso. apply H. left. reflexivity.
    + split; [|reflexivity]. intros _ [E|I]; [apply N, E|]. destruct IH as [X _]. apply X; [reflexivity|exact I].
Qed.
Lemma last_index_app c a b : ~ In c b -> last_index c (a ++ c :: b) = Some (length a).
Proof.
  intros N. induction a as [|x a IH]; cbn [app last_index length].
  - apply last_index_none in N. rewrite N, Z.eqb_refl. reflexivity.
  - rewrite IH. reflexivity.
Qed.
Lemma last_index_some c s i : last_index c s = Some i -> exists a b, s = a ++ c :: b /\ ~ In c b /\ length a = i.
Proof.
  revert i. induction s as [|x s IH]; intros i; cbn [last_index]; [discriminate|].
  destruct (last_index c s) as [j|] eqn:E.
  - intros H. apply some_eq in H. subst i. destruct (IH j eq_refl) as (a & b & -> & N & L). exists (x :: a), b. split; [reflexivity|]. split; [exact N|]. cbn. lia.
  - destruct (Z.eqb_spec x c) as [->|]; [|discriminate]. intros H. apply some_eq in H. subst i. exists [], s. split; [reflexivity|]. split; [|reflexivity]. apply last_index_none, E.
Qed.
Lemma setOpaque_app a b o : ~ In 63 b -> setOpaque (a ++ 63 :: b) o = a ++ 63 :: o.
Proof. intros N. unfold setOpaque. rewrite last_index_app by exact N. rewrite firstn_app_exact by reflexivity. reflexivity. Qed.
Lemma setOpaque_plain p o : ~ In 63 p -> setOpaque p o = p ++ 63 :: o.
Proof. intros N. unfold setOpaque. apply last_index_none in N. rewrite N. reflexivity. Qed.
Lemma opaque_app a b : ~ In 63 b -> opaque (a ++ 63 :: b) = b.
Proof.
  intros N. unfold opaque. rewrite last_index_app by exact N. replace (a ++ 63 :: b) with ((a ++ [63]) ++ b) by (rewrite <- app_assoc; reflexivity).
  apply skipn_app_exact. rewrite app_length. reflexivity.
Qed.
(* p is base, or base followed by '?' and opaque data: what comes after the last '?' *)
Definition base_of (p base : list Z) : Prop := (~ In 63 p /\ p = base) \/ (exists old, ~ In 63 old /\ p = base ++ 63 :: old).
Theorem C36_opaque : forall p o, ~ In 63 o ->
  opaque (setOpaque p o) = o /\ exists base, base_of p base /\ setOpaque p o = base ++ 63 :: o.
Proof.
  intros p o N. destruct (last_index 63 p) as [i|] eqn:E.
  - apply last_index_some in E. destruct E as (a & b & -> & Nb & _). rewrite setOpaque_app by exact Nb. split; [apply opaque_app, N|].
    exists a. split; [right; exists b; split; [exact Nb|reflexivity]|reflexivity].
  - apply last_index_none in E. rewrite setOpaque_plain by exact E. split; [apply opaque_app, N|].
    exists p. split; [left; split; [exact E|reflexivity]|reflexivity].
Qed.
(* after any number of redirections a path carries the last opaque data and nothing of the others *)
Theorem C36_last : forall p os o, Forall (fun o => ~ In 63 o) os -> ~ In 63 o ->
  fold_left setOpaque (os ++ [o]) p = setOpaque p o.
Proof.
  intros p os o F N. revert p. induction F as [|x os Nx F IH]; intros p; [reflexivity|]. cbn [app fold_left]. rewrite IH.
  destruct (C36_opaque p x Nx) as (_ & base & B & E). rewrite E, setOpaque_app by exact Nx.
  destruct B as [[Np ->]|(old & No & ->)]; [rewrite setOpaque_plain by exact Np|rewrite setOpaque_app by exact No]; reflexivity.
Qed.
(* Opaque returns what was set, for the requests with a path; only the last path of the request changes *)
Definition last_path (m : msg) : option (list Z) :=
  match m with
  | Mchmod _ p | Mdirlist _ p | Mmkdir _ _ p | Mmv _ p | Mrm p | Mrmdir p | Mstat _ _ p | Mopen _ _ p | Mtruncate _ _ p => Some p
  | _ => None
  end.
Definition by_handle (m : msg) : Prop := match m with Mtruncate _ _ [] => True | _ => False end.
Definition set_last_path (m : msg) (p : list Z) : msg :=
  match m with
  | Mchmod x _ => Mchmod x p | Mdirlist x _ => Mdirlist x p | Mmkdir x y _ => Mmkdir x y p | Mmv a _ => Mmv a p | Mrm _ => Mrm p
  | Mrmdir _ => Mrmdir p | Mstat x h _ => Mstat x h p | Mopen x y _ => Mopen x y p | Mtruncate h n _ => Mtruncate h n p
  | _ => m
  end.
Theorem C36_requests : forall m p o, last_path m = Some p -> ~ In 63 o -> ~ by_handle m ->
  req_opaque (req_setOpaque m o) = Some o /\
  exists base, base_of p base /\ req_setOpaque m o = set_last_path m (base ++ 63 :: o).
Proof.
  intros m p o L N H. destruct (C36_opaque p o N) as (A & base & B & E).
  destruct m; cbn in L; try discriminate; apply some_eq in L; subst; cbn [req_setOpaque set_last_path];
    try (split; [cbn [req_opaque]; rewrite A; reflexivity|exists base; split; [exact B|rewrite E; reflexivity]]).
  destruct path; [exfalso; apply H; exact I|]. split; [cbn [req_opaque]; rewrite A; reflexivity|]. exists base. split; [exact B|]. rewrite E. reflexivity.
Qed.
(* and the server gets exactly this *)
Theorem C36_wire : forall m o rest bs, sendable (req_setOpaque m o) -> last_path m <> None -> encode (req_setOpaque m o) = Some bs ->
  decode (kind_of m) (bs ++ rest) = Ok (Some (req_setOpaque m o, rest)).
Proof.
  intros m o rest bs V L E. assert (K : kind_of (req_setOpaque m o) = kind_of m) by (destruct m; try reflexivity; cbn [req_setOpaque]; destruct path; reflexivity).
  rewrite <- K. apply (C33_round_trip _ _ _ V E). destruct m; try (intros X; discriminate X); try (exfalso; apply L; reflexivity). cbn [req_setOpaque].
  destruct path; intros X; discriminate X.
Qed.
(* Opaque data with a '?' is not returned as set; Opaque of a path without opaque data is the path; the stat of an open file
   becomes the stat of the path "?..."; setting the opaque data of a request to truncate an open file has no effect. *)
Theorem C36_refuted :
  (exists p o, opaque (setOpaque p o) <> o) /\ (exists p, ~ In 63 p /\ opaque p = p /\ p <> []) /\
  (exists h o, req_setOpaque (Mstat 0 h []) o = Mstat 0 h (63 :: o)) /\
  (forall h n o, req_setOpaque (Mtruncate h n []) o = Mtruncate h n []).
Proof.
  split; [exists [47], [97; 63; 98]; discriminate|]. split; [exists [47; 97]; split; [cbn; intuition discriminate|split; [reflexivity|discriminate]]|].
  split; [exists [1; 2; 3; 4], [97]; reflexivity|]. reflexivity.
Qed.
Example C36_example : setOpaque [47; 97; 63; 98; 63; 99] [120; 61; 49] = [47; 97; 63; 98; 63; 120; 61; 49] /\
  base_of [47; 97; 63; 98; 63; 99] [47; 97; 63; 98].
Proof. split; [reflexivity|]. right. exists [99]. split; [cbn; intuition discriminate|reflexivity]. Qed.

(* ---- C38 ---- *)
(* the protocol's tables: which requests each level adds *)
Definition level_of (id : Z) : option Z :=
  if existsb (Z.eqb id) [3002; 3009; 3014; 3015; 3028] then Some 1
  else if existsb (Z.eqb id) [3008; 3010] then Some 2
  else if existsb (Z.eqb id) [3003; 3019; 3026] then Some 3
  else if existsb (Z.eqb id) [3004; 3013; 3016; 3017; 3022] then Some 4
  else None.
Lemma lookup_app k a b : lookup k (a ++ b) = match lookup k a with Some v => Some v | None => lookup k b end.
Proof. induction a as [|[k' v] a IH]; cbn [app lookup]; [reflexivity|]. destruct (k =? k'); [reflexivity|exact IH]. Qed.
Definition base_reqs (level : Z) : reqs := newReqs level [].
Lemma newReqs_split level ovs : newReqs level ovs = rev (map (fun o => (wrapU 16 (3000 + ov_index o), ov_level o)) ovs) ++ base_reqs level.
Proof. unfold base_reqs, newReqs, put_all. cbn [map rev app]. reflexivity. Qed.
Definition lvl (level : Z) : Z := Z.max 0 (Z.min 4 level).
Lemma base_reqs_lvl level : base_reqs level = base_reqs (lvl level).
Proof.
  unfold base_reqs, newReqs, lvl.
  replace (1 <=? Z.max 0 (Z.min 4 level)) with (1 <=? level) by (destruct (Z.leb_spec 1 level); symmetry; [apply Z.leb_le|apply Z.leb_gt]; lia).
  replace (2 <=? Z.max 0 (Z.min 4 level)) with (2 <=? level) by (destruct (Z.leb_spec 2 level); symmetry; [apply Z.leb_le|apply Z.leb_gt]; lia).
  replace (3 <=? Z.max 0 (Z.min 4 level)) with (3 <=? level) by (destruct (Z.leb_spec 3 level); symmetry; [apply Z.leb_le|apply Z.leb_gt]; lia).
  replace (4 <=? Z.max 0 (Z.min 4 level)) with (4 <=? level) by (destruct (Z.leb_spec 4 level); symmetry; [apply Z.leb_le|apply Z.leb_gt]; lia).
  reflexivity.
Qed.
Definition ids : list Z := [3002; 3009; 3010; 3014; 3015; 3028; 3008; 3003; 3026; 3019; 3004; 3013; 3017; 3022; 3016].
Lemma lookup_notin k l : ~ In k (map fst l) -> lookup k l = None.
Proof.
  induction l as [|[k' v] l IH]; cbn [map fst lookup In]; [reflexivity|]. intros H. destruct (Z.eqb_spec k k') as [->|]; [exfalso; apply H; left; reflexivity|].
  apply IH. intros I. apply H. right. exact I.
Qed.
Lemma lvl_cases level : lvl level = 0 \/ lvl level = 1 \/ lvl level = 2 \/ lvl level = 3 \/ lvl level = 4.
Proof. unfold lvl. lia. Qed.
Lemma base_lookup level id : lookup id (base_reqs level) =
  match level_of id with
  | Some l => if (id =? 3010) && (level =? 1) then Some 1 else if l <=? level then Some 2 else None
  | None => None
  end.
Proof.
  rewrite base_reqs_lvl.
  assert (M : match level_of id with
              | Some l => if (id =? 3010) && (level =? 1) then Some 1 else if l <=? level then Some 2 else None | None => None end =
              match level_of id with
              | Some l => if (id =? 3010) && (lvl level =? 1) then Some 1 else if l <=? lvl level then Some 2 else None | None => None end).
  { destruct (level_of id) as [l|] eqn:E; [|reflexivity].
    assert (R : 1 <= l <= 4).
    { unfold level_of in E. repeat (destruct (existsb _ _) in E; [apply some_eq in E; lia|]). discriminate. }
    replace (lvl level =? 1) with (level =? 1) by (unfold lvl; destruct (Z.eqb_spec level 1); symmetry; [apply Z.eqb_eq|apply Z.eqb_neq]; lia).
    replace (l <=? lvl level) with (l <=? level) by (unfold lvl; destruct (Z.leb_spec l level); symmetry; [apply Z.leb_le|apply Z.leb_gt]; lia).
    reflexivity. }
  rewrite M. clear M. set (L := lvl level). assert (C : L = 0 \/ L = 1 \/ L = 2 \/ L = 3 \/ L = 4) by apply lvl_cases. clearbody L.
  destruct (in_dec Z.eq_dec id ids) as [I|I].
  - cbn in I. destruct C as [-> | [-> | [-> | [-> | ->]]]]; repeat (destruct I as [<-|I]; [reflexivity|]); contradiction.
  - assert (X : level_of id = None).
    { unfold level_of. replace (existsb (Z.eqb id) [3002; 3009; 3014; 3015; 3028]) with false; [|symmetry; apply not_true_iff_false; intros H; apply existsb_exists in H; destruct H as (x & Hx & E); apply Z.eqb_eq in E; subst x; apply I; cbn in *; tauto].
      replace (existsb (Z.eqb id) [3008; 3010]) with false; [|symmetry; apply not_true_iff_false; intros H; apply existsb_exists in H; destruct H as (x & Hx & E); apply Z.eqb_eq in E; subst x; apply I; cbn in *; tauto].
      replace (existsb (Z.eqb id) [3003; 3019; 3026]) with false; [|symmetry; apply not_true_iff_false; intros H; apply existsb_exists in H; destruct H as (x & Hx & E); apply Z.eqb_eq in E; subst x; apply I; cbn in *; tauto].
      replace (existsb (Z.eqb id) [3004; 3013; 3016; 3017; 3022]) with false; [|symmetry; apply not_true_iff_false; intros H; apply existsb_exists in H; destruct H as (x & Hx & E); apply Z.eqb_eq in E; subst x; apply I; cbn in *; tauto].
      reflexivity. }
    rewrite X. apply lookup_notin. intros J. apply I. destruct C as [-> | [-> | [-> | [-> | ->]]]]; cbn in *; tauto.
Qed.
(* the last override of a request, by its number counted from 3000 *)
Fixpoint last_override (id : Z) (ovs : list sover) : option Z :=
  match ovs with
  | [] => None
  | o :: ovs' => match last_override id ovs' with Some v => Some v | None => if 3000 + ov_index o =? id then Some (ov_level o) else None end
  end.
Lemma lookup_overrides id ovs : Forall (fun o => inU 8 (ov_index o)) ovs ->
  lookup id (rev (map (fun o => (wrapU 16 (3000 + ov_index o), ov_level o)) ovs)) = last_override id ovs.
Proof.
  induction ovs as [|o ovs IH]; intros F; [reflexivity|]. inversion F as [|? ? Fo F']; subst. cbn [map rev last_override]. rewrite lookup_app, IH by exact F'.
  destruct (last_override id ovs); [reflexivity|]. cbn [lookup]. rewrite wrapU_id by (unfold inU in *; lia). rewrite Z.eqb_sym. reflexivity.
Qed.
(* a request must be signed: by its last override if there is one, by the tables of the level otherwise *)
Definition must_sign (level : Z) (ovs : list sover) (id : Z) (destructive : bool) : Prop :=
  match last_override id ovs with
  | Some v => v >= 2 \/ v = 1 /\ destructive = true
  | None => exists l, level_of id = Some l /\ (l <= level \/ id = 3010 /\ level = 1 /\ destructive = true)
  end.
Theorem C38_policy : forall level ovs id d, 0 <= level -> Forall (fun o => inU 8 (ov_index o) /\ inU 8 (ov_level o)) ovs ->
  needed (newReqs level ovs) id d = true <-> must_sign level ovs id d.
Proof.
  intros level ovs id d L F. unfold needed, must_sign. rewrite newReqs_split, lookup_app, lookup_overrides by (eapply Forall_impl; [|exact F]; intros o [A _]; exact A).
  destruct (last_override id ovs) as [v|] eqn:E.
  - assert (V : 0 <= v).
    { clear - E F. induction ovs as [|o ovs IH]; [discriminate|]. inversion F as [|? ? [_ Fo] F']; subst. cbn [last_override] in E.
      destruct (last_override id ovs) as [w|]; [apply some_eq in E; subst; apply IH; [exact F'|reflexivity]|].
      destruct (3000 + ov_index o =? id); [|discriminate]. apply some_eq in E. subst. unfold inU in Fo. lia. }
    destruct (Z.eqb_spec v 0) as [->|N0]; [split; [discriminate|intros [H|[H _]]; lia]|].
    destruct (Z.eqb_spec v 1) as [->|N1]; cbn [andb].
    + destruct d; cbn [negb]; split; try discriminate; intros; try reflexivity; [right; split; reflexivity|]. destruct H as [H|[_ H]]; [lia|discriminate].
    + split; [intros _; left; lia|reflexivity].
  - rewrite base_lookup. destruct (level_of id) as [l|] eqn:El; [|split; [discriminate|intros (l & H & _); discriminate]].
    destruct (Z.eqb_spec id 3010) as [->|Ni]; cbn [andb].
    + cbn in El. apply some_eq in El. subst l. destruct (Z.eqb_spec level 1) as [->|N1].
      * cbn. destruct d; cbn; split; try discriminate; intros H; try reflexivity.
        -- exists 2. split; [reflexivity|]. right. repeat split.
        -- destruct H as (l & H & [C|(_ & _ & C)]); [apply some_eq in H; lia|discriminate].
      * destruct (Z.leb_spec 2 level) as [G|G]; cbn.
        -- split; [intros _; exists 2; split; [reflexivity|left; lia]|reflexivity].
        -- split; [discriminate|]. intros (l & H & [C|(_ & C & _)]); [apply some_eq in H; lia|lia].
    + destruct (Z.leb_spec l level) as [G|G]; cbn.
      * split; [intros _; exists l; split; [reflexivity|left; exact G]|reflexivity].
      * split; [discriminate|]. intros (k & H & [C|(C & _)]); [apply some_eq in H; lia|contradiction].
Qed.
(* monotone in the level, overrides taking precedence *)
Theorem C38_monotone : forall l1 l2 ovs id d, 0 <= l1 <= l2 -> Forall (fun o => inU 8 (ov_index o) /\ inU 8 (ov_level o)) ovs ->
  needed (newReqs l1 ovs) id d = true -> needed (newReqs l2 ovs) id d = true.
Proof.
  intros l1 l2 ovs id d [L1 L] F H. apply C38_policy in H; [|assumption|assumption]. apply C38_policy; [lia|assumption|]. unfold must_sign in *.
  destruct (last_override id ovs); [exact H|]. destruct H as (l & E & [C|(-> & -> & ->)]); exists l; (split; [exact E|]).
  - left. lia.
  - cbn in E. apply some_eq in E. subst l. destruct (Z.eq_dec l2 1) as [->|]; [right; repeat split|left; lia].
Qed.
(* an open request is destructive exactly when it may change the files *)
Theorem C38_open : forall mode o p, shouldSign (Mopen mode o p) = true <->
  (Z.testbit o 1 = true \/ Z.testbit o 3 = true \/ Z.testbit o 5 = true \/ Z.testbit o 8 = true \/ Z.testbit o 9 = true).
Proof.
  assert (B : forall o k, 0 <= k -> negb (Z.land o (2 ^ k) =? 0) = Z.testbit o k).
  { intros o k K. destruct (Z.testbit o k) eqn:T.
    - apply negb_true_iff, Z.eqb_neq. intros H. assert (X : Z.testbit (Z.land o (2 ^ k)) k = true) by (rewrite Z.land_spec, T, Z.pow2_bits_true by lia; reflexivity).
      rewrite H, Z.bits_0 in X. discriminate.
    - apply negb_false_iff, Z.eqb_eq. apply Z.bits_inj'. intros n Hn. rewrite Z.land_spec, Z.bits_0, Z.pow2_bits_eqb by lia.
      destruct (Z.eqb_spec k n) as [<-|]; [rewrite T; reflexivity|apply andb_false_r]. }
  intros mode o p. cbn [shouldSign]. pose proof (B o 1 ltac:(lia)) as B1. pose proof (B o 3 ltac:(lia)) as B3. pose proof (B o 5 ltac:(lia)) as B5.
  pose proof (B o 8 ltac:(lia)) as B8. pose proof (B o 9 ltac:(lia)) as B9.
  change (2 ^ 1) with 2 in B1. change (2 ^ 3) with 8 in B3. change (2 ^ 5) with 32 in B5. change (2 ^ 8) with 256 in B8. change (2 ^ 9) with 512 in B9.
  rewrite B1, B3, B5, B8, B9, !orb_true_iff. tauto.
Qed.
(* At the level where all requests are to be signed (xrdproto.go:281-282), these are not. *)
Theorem C38_pedantic_refuted : forall id, In id [3001; 3020; 3021; 3023; 3024; 3027] -> needed (newReqs 4 []) id true = false.
Proof. intros id I. cbn in I. repeat (destruct I as [<-|I]; [reflexivity|]). contradiction. Qed.

(* what the signature of a request covers: its header and, but for the data of a write, all of it *)
Definition covered (m : msg) (bytes : list Z) : list Z := match m with Mwrite _ _ _ _ | Mverifyw _ _ _ _ _ => firstn 24 bytes | _ => bytes end.
Definition nodata (m : msg) : Z := match m with Mwrite _ _ _ _ => 1 | _ => 0 end.
(* What a server is to receive for a sequence of requests on their streams: before each request to be signed, its signature,
   with the next sequence number. *)
Fixpoint expected (sha : list Z -> list Z) (level : Z) (ovs : list sover) (seq : Z) (qs : list (list Z * msg)) (es : list (list Z * Z * msg)) : Prop :=
  match qs with
  | [] => es = []
  | (s, m) :: qs' =>
      exists id bytes, req_id m = Some id /\ request_bytes s id m = Some bytes /\
      ((must_sign level ovs id (shouldSign m) /\
        exists es', es = (s, 3029, Msigver id 0 (nodata m) (seq + 1) 1 (sha (be 8 (seq + 1) ++ covered m bytes))) :: (s, id, m) :: es' /\ expected sha level ovs (seq + 1) qs' es')
       \/ (~ must_sign level ovs id (shouldSign m) /\ exists es', es = (s, id, m) :: es' /\ expected sha level ovs seq qs' es'))
  end.
(* the requests of a session, one after the other *)
Fixpoint session_run (sha : list Z -> list Z) (rq : reqs) (seq : Z) (qs : list (list Z * msg)) : res (list Z) :=
  match qs with
  | [] => Ok []
  | (s, m) :: qs' => do r <- session_out sha rq seq s m; do b <- session_run sha rq (fst r) qs'; Ok (match snd r with Some x => x ++ b | None => b end)
  end.
Lemma req_id_request m id : req_id m = Some id -> is_request m = true /\ inU 16 id /\ id <> 3029 \/ (exists a b c d e f, m = Msigver a b c d e f).
Proof.
  destruct m; cbn [req_id]; intros H; try discriminate; apply some_eq in H; subst id;
    try (left; split; [reflexivity|split; [unfold inU; lia|lia]]).
  right. repeat eexists.
Qed.
Lemma encode_some m : sendable m -> is_request m = true -> exists b, encode m = Some b.
Proof. intros V _. exact (C33_total m V). Qed.
Lemma sent_length s id m b : sent (s, id, m) b -> 24 <= zlen b.
Proof.
  intros S. destruct (sent_frame _ _ S) as (p & d & -> & P & _). unfold frame, zlen. rewrite !app_length, be_length. lia.
Qed.
Lemma to_hash_covered m id seq b : req_id m = Some id -> 24 <= zlen b -> to_hash id seq b = Ok (be 8 seq ++ covered m b).
Proof.
  intros R L. unfold to_hash. replace (zlen b <? 24) with false by lia.
  destruct m; cbn [req_id] in R; try discriminate; apply some_eq in R; subst id; reflexivity.
Qed.
Lemma nodata_id m id : req_id m = Some id -> (if id =? 3019 then 1 else 0) = nodata m.
Proof. intros R. destruct m; cbn [req_id] in R; try discriminate; apply some_eq in R; subst id; reflexivity. Qed.
Definition user_request (q : list Z * msg) : Prop := length (fst q) = 2%nat /\ sendable (snd q) /\ is_request (snd q) = true /\ req_id (snd q) <> None.
Theorem C38_session : forall sha level ovs, 0 <= level -> Forall (fun o => inU 8 (ov_index o) /\ inU 8 (ov_level o)) ovs ->
  (forall x, zlen (sha x) < 2 ^ 31) ->
  forall qs seq, Forall user_request qs -> 0 <= seq -> seq + zlen qs < 2 ^ 63 ->
  exists out es, session_run sha (newReqs level ovs) seq qs = Ok out /\ expected sha level ovs seq qs es /\
    forall c rest, concat c = out ++ rest ->
    exists bss c', requests (length es) c = Some (bss, c') /\ concat c' = rest /\ Forall2 understood es bss.
Proof.
  intros sha level ovs L F HS.
  assert (M : forall qs seq, Forall user_request qs -> 0 <= seq -> seq + zlen qs < 2 ^ 63 ->
    exists out es bss, session_run sha (newReqs level ovs) seq qs = Ok out /\ expected sha level ovs seq qs es /\ Forall2 sent es bss /\ out = concat bss).
  { induction qs as [|[s m] qs IH]; intros seq U S0 S1.
    - exists [], [], []. split; [reflexivity|]. split; [reflexivity|]. split; [constructor|reflexivity].
    - inversion U as [|? ? (Ls & V & Q & R) U']; subst. cbn [fst snd] in *. destruct (req_id m) as [id|] eqn:RI; [|congruence].
      destruct (C33_total m V) as [b EB]. cbn [zlen] in S1. assert (ZL : zlen ((s, m) :: qs) = zlen qs + 1) by (unfold zlen; cbn [length]; lia).
      pose proof (zlen_nonneg qs) as ZN.
      assert (I16 : inU 16 id) by (destruct m; cbn [req_id] in RI; try discriminate; apply some_eq in RI; subst id; unfold inU; lia).
      destruct (request_bytes s id m) as [bytes|] eqn:RB; [|unfold request_bytes in RB; cbn [encode] in RB; rewrite EB in RB; discriminate].
      assert (SN : sent (s, id, m) bytes) by (cbn [sent]; repeat split; auto; apply I16).
      cbn [session_run]. unfold session_out. rewrite RI, RB.
      destruct (needed (newReqs level ovs) id (shouldSign m)) eqn:ND.
      + unfold sign. rewrite wrapS_id by (unfold inS; lia). unfold sig_request. rewrite (to_hash_covered m id (seq + 1) bytes RI) by (eapply sent_length; exact SN).
        rewrite (nodata_id m id RI). cbn [rbind].
        set (sm := Msigver id 0 (nodata m) (seq + 1) 1 (sha (be 8 (seq + 1) ++ covered m bytes))).
        assert (VS : sendable sm).
        { unfold sm. cbn [sendable]. split; [exact I16|]. split; [unfold inU; lia|]. split; [unfold inU; destruct m; cbn [nodata]; lia|].
          split; [unfold inS; lia|]. split; [unfold inU; lia|]. apply HS. }
        destruct (C33_total sm VS) as [sb ESB].
        assert (RS : exists sbytes, request_bytes s 3029 sm = Some sbytes) by (unfold request_bytes; rewrite ESB; cbn [encode]; eexists; reflexivity).
        destruct RS as [sbytes RS]. rewrite RS. cbn [rbind fst snd].
        destruct (IH (seq + 1) U') as (out & es & bss & E1 & E2 & E3 & E4); [lia|lia|]. rewrite E1. cbn [rbind].
        exists ((sbytes ++ bytes) ++ out), ((s, 3029, sm) :: (s, id, m) :: es), (sbytes :: bytes :: bss).
        split; [reflexivity|]. split.
        { cbn [expected]. exists id, bytes. split; [exact RI|]. split; [exact RB|]. left. split; [apply C38_policy; assumption|]. exists es. split; [reflexivity|exact E2]. }
        split; [constructor; [|constructor; [exact SN|exact E3]]|].
        { cbn [sent]. split; [exact Ls|]. split; [unfold inU; lia|]. split; [reflexivity|]. split; [exact VS|exact RS]. }
        cbn [concat]. rewrite E4, <- app_assoc. reflexivity.
      + cbn [rbind fst snd]. destruct (IH seq U') as (out & es & bss & E1 & E2 & E3 & E4); [lia|lia|]. rewrite E1. cbn [rbind].
        exists (bytes ++ out), ((s, id, m) :: es), (bytes :: bss). split; [reflexivity|]. split.
        { cbn [expected]. exists id, bytes. split; [exact RI|]. split; [exact RB|]. right. split; [|exists es; split; [reflexivity|exact E2]].
          intros C. apply C38_policy in C; [congruence|assumption|assumption]. }
        split; [constructor; assumption|]. cbn [concat]. rewrite E4. reflexivity. }
  intros qs seq U S0 S1. destruct (M qs seq U S0 S1) as (out & es & bss & E1 & E2 & E3 & ->). exists (concat bss), es. split; [exact E1|]. split; [exact E2|].
  intros c rest C. destruct (C34_requests es bss rest c E3 C) as ((c' & R & C') & UN). exists bss, c'. auto.
Qed.
(* The data of a verified write is not covered either, but its signature says that it is. *)
Theorem C38_verifyw_refuted : exists sha s h d1 d2 b1 b2, d1 <> d2 /\
  request_bytes s 3026 (Mverifyw h 0 0 0 d1) = Some b1 /\ request_bytes s 3026 (Mverifyw h 0 0 0 d2) = Some b2 /\
  sig_request sha 3026 7 b1 = sig_request sha 3026 7 b2 /\ (forall x, sha x = x) /\
  match sig_request sha 3026 7 b1 with Ok (Msigver _ _ flags _ _ _) => flags = 0 | _ => False end.
Proof.
  exists (fun x => x), [0; 1], [1; 2; 3; 4], [5], [6]. do 2 eexists. split; [discriminate|]. split; [reflexivity|]. split; [reflexivity|].
  split; [vm_compute; reflexivity|]. split; [reflexivity|]. vm_compute. reflexivity.
Qed.
Example C38_example :
  must_sign 1 [] 3010 true /\ ~ must_sign 1 [] 3010 false /\ must_sign 0 [{| ov_index := 13; ov_level := 2 |}] 3013 false /\
  ~ must_sign 4 [{| ov_index := 13; ov_level := 2 |}; {| ov_index := 13; ov_level := 0 |}] 3013 false /\
  user_request ([0; 1], Mopen 0 32 [47; 97]).
Proof.
  unfold must_sign. cbn. split; [exists 2; split; [reflexivity|right; repeat split]|]. split.
  { intros (l & H & [C|(_ & _ & C)]); [apply some_eq in H; lia|discriminate]. }
  split; [left; lia|]. split; [lia|]. unfold user_request. cbn. unfold size_ok, inU. cbn. repeat split; try lia; discriminate.
Qed.

(* ---- C37 ---- *)
Inductive fop := FRead (n : Z) | FSeekStart (off : Z) | FSeekCur (off : Z) | FReadAt (n off : Z).
Inductive fobs := OBytes (d : list Z) (e : rerr) | OPos (p : Z).
(* the code *)
Fixpoint frun (content : list Z) (f : xfile) (ops : list fop) : res (list fobs * xfile) :=
  match ops with
  | [] => Ok ([], f)
  | FRead n :: ops' => do r <- xread content f n; let '(f1, d, e) := r in do rs <- frun content f1 ops'; Ok (OBytes d e :: fst rs, snd rs)
  | FSeekStart o :: ops' => let '(f1, p) := xseek content f o 0 in do rs <- frun content f1 ops'; Ok (OPos p :: fst rs, snd rs)
  | FSeekCur o :: ops' => let '(f1, p) := xseek content f o 1 in do rs <- frun content f1 ops'; Ok (OPos p :: fst rs, snd rs)
  | FReadAt n o :: ops' => do r <- xreadAt content n o; do rs <- frun content f ops'; Ok (OBytes (fst r) (snd r) :: fst rs, snd rs)
  end.
(* the io contracts over the bytes of the file: bytes lo..hi of it *)
Definition bytes_at (content : list Z) (lo hi : Z) : list Z := firstn (Z.to_nat (hi - lo)) (skipn (Z.to_nat lo) content).
Fixpoint io_spec (content : list Z) (pos : Z) (ops : list fop) (obs : list fobs) (pos' : Z) : Prop :=
  match ops, obs with
  | [], [] => pos' = pos
  | FRead n :: ops', OBytes d e :: obs' =>
      let q := Z.min (pos + n) (zlen content) in
      d = bytes_at content pos q /\ zlen d = q - pos /\ e = (if q =? zlen content then REOF else RNil) /\ io_spec content q ops' obs' pos'
  | FSeekStart o :: ops', OPos p :: obs' => p = o /\ io_spec content o ops' obs' pos'
  | FSeekCur o :: ops', OPos p :: obs' => p = pos + o /\ io_spec content (pos + o) ops' obs' pos'
  | FReadAt n o :: ops', OBytes d e :: obs' => d = bytes_at content o (Z.min (o + n) (zlen content)) /\ e = RNil /\ io_spec content pos ops' obs' pos'
  | _, _ => False
  end.
(* the positions of a history stay inside the file *)
Fixpoint inside (size pos : Z) (ops : list fop) : Prop :=
  match ops with
  | [] => True
  | FRead n :: ops' => 0 <= n < 2 ^ 31 /\ inside size (Z.min (pos + n) size) ops'
  | FSeekStart o :: ops' => 0 <= o <= size /\ inside size o ops'
  | FSeekCur o :: ops' => 0 <= pos + o <= size /\ inside size (pos + o) ops'
  | FReadAt n o :: ops' => 0 <= n < 2 ^ 31 /\ 0 <= o /\ o + n <= size /\ inside size pos ops'
  end.
Lemma bytes_at_len content lo hi : 0 <= lo <= hi -> hi <= zlen content -> zlen (bytes_at content lo hi) = hi - lo.
Proof. intros A B. unfold bytes_at, zlen in *. rewrite firstn_length, skipn_length. lia. Qed.
Lemma srv_read_at content n off : 0 <= n -> 0 <= off <= zlen content ->
  srv_read content n off = Ok (Some (bytes_at content off (Z.min (off + n) (zlen content)))).
Proof.
  intros N F. unfold srv_read, bytes_at. replace (n <? 0) with false by lia. replace (off <? 0) with false by lia. do 2 f_equal.
  destruct (Z.le_gt_cases (off + n) (zlen content)) as [A|A].
  - rewrite Z.min_l by exact A. f_equal. lia.
  - rewrite Z.min_r by lia. unfold zlen in *. rewrite !firstn_all2 by (rewrite skipn_length; lia). reflexivity.
Qed.
Theorem C37_history_partial : forall content ops f, zlen content < 2 ^ 63 -> xf_size f = zlen content -> 0 <= xf_pos f <= zlen content ->
  inside (zlen content) (xf_pos f) ops ->
  exists obs f', frun content f ops = Ok (obs, f') /\ io_spec content (xf_pos f) ops obs (xf_pos f').
Proof.
  intros content ops. induction ops as [|op ops IH]; intros f ZC SZ P V.
  - exists [], f. split; reflexivity.
  - destruct op as [n|o|o|n o]; cbn [inside] in V; cbn [frun].
    + destruct V as [N V]. unfold xread, file_readAt. rewrite wrapS_id by (unfold inS; lia). rewrite srv_read_at by lia. cbn [rbind].
      set (q := Z.min (xf_pos f + n) (zlen content)) in *. assert (Q : xf_pos f <= q <= zlen content) by (unfold q; lia).
      pose proof (bytes_at_len content (xf_pos f) q ltac:(lia) ltac:(lia)) as LB. rewrite LB. replace (xf_pos f + (q - xf_pos f)) with q by lia.
      rewrite wrapS_id by (unfold inS; lia). cbn [xf_pos xf_size].
      destruct (IH {| xf_pos := q; xf_size := xf_size f |} ZC SZ ltac:(cbn; lia) V) as (obs & f' & R & S). rewrite R. cbn [rbind fst snd].
      do 2 eexists. split; [reflexivity|]. cbn [io_spec]. fold q. rewrite SZ. auto.
    + destruct V as [N V]. unfold xseek. cbn [Z.eqb].
      destruct (IH {| xf_pos := o; xf_size := xf_size f |} ZC SZ ltac:(cbn; lia) V) as (obs & f' & R & S). rewrite R. cbn [rbind fst snd].
      do 2 eexists. split; [reflexivity|]. cbn [io_spec]. auto.
    + destruct V as [N V]. unfold xseek. cbn [Z.eqb Pos.eqb]. rewrite wrapS_id by (unfold inS; lia).
      destruct (IH {| xf_pos := xf_pos f + o; xf_size := xf_size f |} ZC SZ ltac:(cbn; lia) V) as (obs & f' & R & S). rewrite R. cbn [rbind fst snd].
      do 2 eexists. split; [reflexivity|]. cbn [io_spec]. auto.
    + destruct V as (N & O0 & ON & V). unfold xreadAt, file_readAt. rewrite wrapS_id by (unfold inS; lia). rewrite srv_read_at by lia. cbn [rbind].
      destruct (IH f ZC SZ P V) as (obs & f' & R & S). rewrite R. cbn [rbind fst snd]. do 2 eexists. split; [reflexivity|]. cbn [io_spec]. auto.
Qed.
(* Reading until EOF with buffers of any sizes gives the rest of the file, all of it and nothing else. *)
Fixpoint read_until (content : list Z) (f : xfile) (sizes : list Z) : res (list Z * bool) :=
  match sizes with
  | [] => Ok ([], false)
  | n :: sizes' =>
      do r <- xread content f n; let '(f1, d, e) := r in
      match e with REOF => Ok (d, true) | RFail => Ok (d, false) | RNil => do rs <- read_until content f1 sizes'; Ok (d ++ fst rs, snd rs) end
  end.
Theorem C37_read_all : forall content sizes f, zlen content < 2 ^ 63 -> xf_size f = zlen content -> 0 <= xf_pos f <= zlen content ->
  Forall (fun n => 0 < n < 2 ^ 31) sizes ->
  exists d eof, read_until content f sizes = Ok (d, eof) /\ (eof = true -> d = skipn (Z.to_nat (xf_pos f)) content) /\
  (zlen content - xf_pos f < zlen sizes -> eof = true).
Proof.
  intros content sizes. induction sizes as [|n sizes IH]; intros f ZC SZ P F.
  - exists [], false. split; [reflexivity|]. split; [discriminate|]. unfold zlen. cbn [length]. unfold zlen in P. lia.
  - inversion F as [|? ? N F']; subst. cbn [read_until]. unfold xread, file_readAt. rewrite wrapS_id by (unfold inS; lia). rewrite srv_read_at by lia. cbn [rbind].
    set (q := Z.min (xf_pos f + n) (zlen content)) in *. assert (Q : xf_pos f <= q <= zlen content) by (unfold q; lia).
    pose proof (bytes_at_len content (xf_pos f) q ltac:(lia) ltac:(lia)) as LB. rewrite LB. replace (xf_pos f + (q - xf_pos f)) with q by lia.
    rewrite wrapS_id by (unfold inS; lia). cbn [xf_pos xf_size]. rewrite SZ. destruct (Z.eqb_spec q (zlen content)) as [E|E].
    + do 2 eexists. split; [reflexivity|]. split; [|reflexivity]. intros _. unfold bytes_at. rewrite E. apply firstn_all2. rewrite skipn_length. unfold zlen. lia.
    + destruct (IH {| xf_pos := q; xf_size := zlen content |} ZC eq_refl ltac:(cbn; lia) F') as (d & eof & R & A & B). rewrite R. cbn [rbind fst snd xf_pos] in *.
      do 2 eexists. split; [reflexivity|]. split.
      * intros X. rewrite (A X). unfold bytes_at. rewrite <- (firstn_skipn (Z.to_nat (q - xf_pos f)) (skipn (Z.to_nat (xf_pos f)) content)) at 2. f_equal.
        rewrite skipn_skipn. f_equal. lia.
      * intros X. apply B. assert (q = xf_pos f + n) by (unfold q in *; lia). unfold zlen in *. cbn [length] in X. lia.
Qed.
(* Seeking from the end goes the wrong way, unless by nothing. *)
Theorem C37_seek_end_refuted : forall content f off, zlen content < 2 ^ 62 -> - 2 ^ 62 < off < 2 ^ 62 ->
  (snd (xseek content f off 2) = zlen content + off <-> off = 0).
Proof. intros content f off A B. pose proof (zlen_nonneg content). unfold xseek. cbn [Z.eqb Pos.eqb snd]. rewrite wrapS_id by (unfold inS; lia). lia. Qed.
(* Past the end a read gives neither bytes nor EOF, for ever. *)
Theorem C37_past_end_refuted : forall content f sizes, xf_size f = zlen content -> zlen content < xf_pos f < 2 ^ 63 ->
  Forall (fun n => 0 < n < 2 ^ 31) sizes -> read_until content f sizes = Ok ([], false).
Proof.
  intros content f sizes SZ P F. pose proof (zlen_nonneg content). induction F as [|n sizes N F IH]; [reflexivity|]. cbn [read_until]. unfold xread, file_readAt.
  rewrite wrapS_id by (unfold inS; lia). unfold srv_read. replace (n <? 0) with false by lia. replace (xf_pos f <? 0) with false by lia. cbn [rbind].
  rewrite skipn_all2 by (unfold zlen in *; lia). rewrite firstn_nil. rewrite zlen_nil, Z.add_0_r. rewrite wrapS_id by (unfold inS; lia). cbn [xf_pos xf_size].
  replace (xf_pos f =? xf_size f) with false by lia. destruct f as [fp fs]. cbn [xf_pos xf_size] in *. rewrite IH. reflexivity.
Qed.
(* A ReadAt that finds less than asked for gives no error, which io.ReaderAt forbids; so does one past the end. *)
Theorem C37_short_refuted : forall content n off, 0 <= off -> 0 < n < 2 ^ 31 -> zlen content < off + n ->
  exists d, xreadAt content n off = Ok (d, RNil) /\ zlen d < n.
Proof.
  intros content n off O0 N S.
  unfold xreadAt, file_readAt. rewrite wrapS_id by (unfold inS; lia). unfold srv_read. replace (n <? 0) with false by lia. replace (off <? 0) with false by lia. cbn [rbind].
  eexists. split; [reflexivity|]. unfold zlen in *. rewrite firstn_length, skipn_length. lia.
Qed.
(* A buffer of 2^31 bytes makes the server panic. *)
Theorem C37_large_refuted : forall content f n, 2 ^ 31 <= n < 2 ^ 32 -> xread content f n = Panic.
Proof.
  intros content f n N. unfold xread, file_readAt, srv_read. replace (wrapS 32 n) with (n - 2 ^ 32); [|].
  - replace (n - 2 ^ 32 <? 0) with true by lia. reflexivity.
  - rewrite <- (wrapS_mod 32 n) by lia. rewrite <- (wrapS_id 32 (n - 2 ^ 32)) by (unfold inS; lia). rewrite <- (wrapS_mod 32 (n - 2 ^ 32)) by lia. f_equal. replace (n - 2 ^ 32) with (n + (-1) * 2 ^ 32) by lia. rewrite Z_mod_plus_full. reflexivity.
Qed.
Example C37_example : inside 5 0 [FRead 2; FSeekCur (-1); FReadAt 3 2; FRead 100; FRead 1; FSeekStart 5] /\
  frun [1; 2; 3; 4; 5] (xopen [1; 2; 3; 4; 5]) [FRead 2; FSeekCur (-1); FReadAt 3 2; FRead 100; FRead 1; FSeekStart 5] =
  Ok ([OBytes [1; 2] RNil; OPos 1; OBytes [3; 4; 5] RNil; OBytes [2; 3; 4; 5] REOF; OBytes [] REOF; OPos 5], {| xf_pos := 5; xf_size := 5 |}).
Proof. split; [cbn; lia|vm_compute; reflexivity]. Qed.

(* ---- C39 ---- *)
(* the requests sent during a call, in order *)
Definition hops (h : list event) : list (list Z * msg * reply) :=
  flat_map (fun e => match e with ESend a q r => [(a, q, r)] | EConn _ _ _ => [] end) (rev h).
(* a request follows another: to the address of the redirection, with its opaque data *)
Definition next_hop (x y : list Z * msg * reply) : Prop :=
  let '(_, q, r) := x in let '(a', q', _) := y in
  exists rd, r = RRedir rd /\ a' = rd_addr rd /\ q' = (match last_path q with Some _ => req_setOpaque q (rd_opaque rd) | None => q end).
Definition linked (l : list (list Z * msg * reply)) : Prop := forall l1 x y l2, l = l1 ++ x :: y :: l2 -> next_hop x y.
Definition redirected (x : list Z * msg * reply) : Prop := exists rd, snd x = RRedir rd.
Lemma hops_send a q r h : hops (ESend a q r :: h) = hops h ++ [(a, q, r)].
Proof. unfold hops. cbn [rev]. rewrite flat_map_app. reflexivity. Qed.
Lemma hops_conn a t b h : hops (EConn a t b :: h) = hops h.
Proof. unfold hops. cbn [rev]. rewrite flat_map_app. cbn. apply app_nil_r. Qed.
Lemma linked_snoc l x y : linked (l ++ [x]) -> next_hop x y -> linked ((l ++ [x]) ++ [y]).
Proof.
  intros A B l1 u v l2 E. destruct l2 as [|w l2] using rev_ind.
  - replace (l1 ++ [u; v]) with ((l1 ++ [u]) ++ [v]) in E by (rewrite <- app_assoc; reflexivity).
    apply app_inj_tail in E. destruct E as [E ->]. apply app_inj_tail in E. destruct E as [_ ->]. exact B.
  - replace (l1 ++ u :: v :: l2 ++ [w]) with ((l1 ++ u :: v :: l2) ++ [w]) in E by (rewrite <- app_assoc; reflexivity).
    apply app_inj_tail in E. destruct E as [E _]. exact (A l1 u v l2 E).
Qed.
Lemma req_opaque_path m : (match req_opaque m with Some _ => true | None => false end) = (match last_path m with Some _ => true | None => false end).
Proof. destruct m; reflexivity. Qed.
(* connections: only to addresses not connected to yet *)
Fixpoint conns_ok (known : list (list Z)) (l : list event) : Prop :=
  match l with
  | [] => True
  | EConn a _ ok :: l' => ~ In a known /\ conns_ok (if ok then a :: known else known) l'
  | ESend a _ _ :: l' => In a known /\ conns_ok known l'
  end.
Fixpoint known_after (known : list (list Z)) (l : list event) : list (list Z) :=
  match l with [] => known | EConn a _ true :: l' => known_after (a :: known) l' | _ :: l' => known_after known l' end.
Lemma conns_ok_app known l1 l2 : conns_ok known (l1 ++ l2) <-> conns_ok known l1 /\ conns_ok (known_after known l1) l2.
Proof.
  revert known. induction l1 as [|e l1 IH]; intros known; cbn [app conns_ok known_after]; [tauto|]. destruct e as [a t []|a q r]; cbn [conns_ok known_after]; rewrite IH; tauto.
Qed.
Lemma known_after_app known l1 l2 : known_after known (l1 ++ l2) = known_after (known_after known l1) l2.
Proof. revert known. induction l1 as [|e l1 IH]; intros known; cbn [app known_after]; [reflexivity|]. destruct e as [a t []|a q r]; apply IH. Qed.
Lemma existsb_In a l : existsb (str_eqb a) l = true <-> In a l.
Proof.
  rewrite existsb_exists. split.
  - intros (x & I & E). destruct (str_eqb_spec a x) as [->|]; [exact I|discriminate].
  - intros I. exists a. split; [exact I|apply str_eqb_refl].
Qed.
Definition result_ok (cnt0 : nat) (o : outcome) (a : list Z) (h : list event) : Prop :=
  match o with
  | OAns d => exists pre q, hops h = pre ++ [(a, q, RAns d)]
  | OErr => exists pre q, hops h = pre ++ [(a, q, RErr)]
  | OConnErr => exists t h', h = EConn a t false :: h' /\ (exists pre b q rd, hops h' = pre ++ [(b, q, RRedir rd)] /\ rd_addr rd = a /\ rd_token rd = t)
  | OTooMany => length (hops h) = S cnt0 /\ Forall redirected (hops h) /\ exists pre q rd, hops h = pre ++ [(a, q, RRedir rd)]
  | ONoSession => False
  end.
Lemma follow_ok w : forall cnt known0 known a q r h o a' known' h' pre n,
  follow w cnt known a q r h = (o, a', known', h') ->
  hops h = pre ++ [(a, q, r)] -> linked (hops h) -> Forall redirected pre -> (length pre + cnt)%nat = n ->
  conns_ok known0 (rev h) -> known = known_after known0 (rev h) ->
  (exists ext, h' = ext ++ h) /\ linked (hops h') /\ (length (hops h') <= S n)%nat /\ result_ok n o a' h' /\ conns_ok known0 (rev h') /\ known' = known_after known0 (rev h').
Proof.
  induction cnt as [|cnt IH]; intros known0 known a q r h o a' known' h' pre n E H L F N K KA.
  - destruct r as [d| |rd]; cbn [follow] in E; injection E as <- <- <- <-;
      (split; [exists []; reflexivity|]; split; [exact L|]; split; [rewrite H, app_length; cbn; lia|]; split; [|split; assumption]); cbn [result_ok].
    + exists pre, q. exact H.
    + exists pre, q. exact H.
    + split; [rewrite H, app_length; cbn; lia|]. split; [rewrite H; apply Forall_app; split; [exact F|constructor; [exists rd; reflexivity|constructor]]|].
      exists pre, q, rd. exact H.
  - destruct r as [d| |rd]; cbn [follow] in E.
    + injection E as <- <- <- <-. split; [exists []; reflexivity|]. split; [exact L|]. split; [rewrite H, app_length; cbn; lia|]. split; [|split; assumption]. exists pre, q. exact H.
    + injection E as <- <- <- <-. split; [exists []; reflexivity|]. split; [exact L|]. split; [rewrite H, app_length; cbn; lia|]. split; [|split; assumption]. exists pre, q. exact H.
    + set (q' := match req_opaque q with Some _ => req_setOpaque q (rd_opaque rd) | None => q end) in *.
      assert (Q : q' = match last_path q with Some _ => req_setOpaque q (rd_opaque rd) | None => q end).
      { unfold q'. pose proof (req_opaque_path q) as X. destruct (req_opaque q), (last_path q); try discriminate; reflexivity. }
      assert (STEP : forall r' g, hops g = hops h -> linked (hops (ESend (rd_addr rd) q' r' :: g))).
      { intros r' g G. rewrite hops_send, G, H. apply linked_snoc; [rewrite <- H; exact L|]. exists rd. split; [reflexivity|]. split; [reflexivity|exact Q]. }
      assert (F' : Forall redirected (hops h)) by (rewrite H; apply Forall_app; split; [exact F|constructor; [exists rd; reflexivity|constructor]]).
      assert (LH : (length (hops h) + cnt)%nat = n) by (rewrite H, app_length; cbn; lia).
      destruct (existsb (str_eqb (rd_addr rd)) known) eqn:EX.
      * apply existsb_In in EX. eapply IH in E; [|rewrite hops_send; reflexivity|apply STEP; reflexivity|exact F'|exact LH| |].
        -- destruct E as ((ext & ->) & E). split; [exists (ext ++ [ESend (rd_addr rd) q' (w_reply w h (rd_addr rd) q')]); rewrite <- app_assoc; reflexivity|exact E].
        -- cbn [rev]. apply conns_ok_app. split; [exact K|]. cbn. rewrite <- KA. auto.
        -- cbn [rev]. rewrite known_after_app, <- KA. reflexivity.
      * assert (NI : ~ In (rd_addr rd) known) by (intros I; apply existsb_In in I; congruence).
        destruct (w_conn w h (rd_addr rd) (rd_token rd)) eqn:W; cbn [fst snd] in E.
        -- eapply IH in E; [|rewrite hops_send; reflexivity|apply STEP; apply hops_conn|rewrite hops_conn; exact F'|rewrite hops_conn; exact LH| |].
           ++ destruct E as ((ext & ->) & E). split; [|exact E].
              eexists (ext ++ [_; _]). rewrite <- app_assoc. reflexivity.
           ++ cbn [rev]. rewrite !conns_ok_app, !known_after_app. cbn. rewrite <- KA. repeat split; auto.
           ++ cbn [rev]. rewrite !known_after_app. cbn. rewrite <- KA. reflexivity.
        -- injection E as <- <- <- <-. split; [eexists [_]; reflexivity|]. split; [rewrite hops_conn; exact L|]. split; [rewrite hops_conn; lia|]. split.
           ++ cbn [result_ok]. eexists _, h. split; [reflexivity|]. exists pre, a, q, rd. auto.
           ++ cbn [rev]. rewrite !conns_ok_app, !known_after_app. cbn. rewrite <- KA. auto.
Qed.
(* A request is sent at most eleven times, whatever the servers do; each time to where the last redirection said, with its opaque
   data; the call ends with the first reply that is no redirection, with a connection that fails, or with the eleventh
   redirection; the session returned is the last one. *)
Theorem C39_redirections : forall w known addr req o a known' h, In addr known -> sendSession w known addr req = (o, a, known', h) ->
  (exists r l, hops h = (addr, req, r) :: l) /\ (length (hops h) <= 11)%nat /\ linked (hops h) /\ result_ok 10 o a h.
Proof.
  intros w known addr req o a known' h I E. unfold sendSession in E. apply existsb_In in I. rewrite I in E. apply existsb_In in I.
  eapply (follow_ok w 10 known) with (pre := []) in E; [|reflexivity| |constructor|reflexivity| |reflexivity].
  - destruct E as ((ext & ->) & L & N & R & _). split; [|auto]. exists (w_reply w [] addr req).
    unfold hops. rewrite rev_app_distr. cbn [rev app flat_map]. eexists. reflexivity.
  - intros l1 x y l2 X. cbn in X. destruct l1 as [|z l1]; [discriminate|]. cbn in X. injection X as _ X. destruct l1; discriminate.
  - cbn. auto.
Qed.
(* Connections are made only to new addresses, and kept. *)
Theorem C39_connections : forall w known addr req o a known' h, In addr known -> sendSession w known addr req = (o, a, known', h) ->
  conns_ok known (rev h) /\ known' = known_after known (rev h).
Proof.
  intros w known addr req o a known' h I E. unfold sendSession in E. apply existsb_In in I. rewrite I in E. apply existsb_In in I.
  eapply (follow_ok w 10 known) with (pre := []) in E; [|reflexivity| |constructor|reflexivity| |reflexivity].
  - destruct E as (_ & _ & _ & _ & C). exact C.
  - intros l1 x y l2 X. cbn in X. destruct l1 as [|z l1]; [discriminate|]. cbn in X. injection X as _ X. destruct l1; discriminate.
  - cbn. auto.
Qed.
(* the path of the last request carries the opaque data of the last redirection *)
Theorem C39_opaque : forall w known addr req o a known' h pre x y, In addr known -> sendSession w known addr req = (o, a, known', h) ->
  hops h = pre ++ [x; y] -> forall rd p, snd x = RRedir rd -> last_path (snd (fst x)) = Some p -> ~ by_handle (snd (fst x)) -> ~ In 63 (rd_opaque rd) ->
  req_opaque (snd (fst y)) = Some (rd_opaque rd).
Proof.
  intros w known addr req o a known' h pre x y I E H rd p R P B N. destruct (C39_redirections w known addr req o a known' h I E) as (_ & _ & L & _).
  specialize (L pre x y [] H). destruct x as [[xa xq] xr], y as [[ya yq] yr]. cbn [fst snd] in *. destruct L as (rd' & -> & _ & ->). injection R as ->.
  rewrite P. apply (C36_requests _ _ _ P N B).
Qed.
Theorem C39_parse : forall host opq tok port, 0 <= port < 2 ^ 32 -> ~ In 63 host -> ~ In 63 opq -> ~ In 63 tok ->
  parseRedirection (be 4 port ++ host ++ 63 :: opq ++ 63 :: tok) = Ok {| rd_addr := host ++ 58 :: itoa port; rd_opaque := opq; rd_token := tok |} /\
  parseRedirection (be 4 port ++ host ++ 63 :: opq) = Ok {| rd_addr := host ++ 58 :: itoa port; rd_opaque := opq; rd_token := [] |} /\
  parseRedirection (be 4 port ++ host) = Ok {| rd_addr := host ++ 58 :: itoa port; rd_opaque := []; rd_token := [] |}.
Proof.
  intros host opq tok port P H1 H2 H3.
  assert (G : forall x, parseRedirection (be 4 port ++ x) =
    match split 63 x with [] => Panic | h :: ps => Ok {| rd_addr := h ++ 58 :: itoa port; rd_opaque := nth 0 ps []; rd_token := nth 1 ps [] |} end).
  { intros x. unfold parseRedirection. rewrite skipn_app_exact, firstn_app_exact by (rewrite be_length; reflexivity). rewrite unbe4 by lia.
    replace (zlen (be 4 port ++ x) <? 4) with false; [reflexivity|]. symmetry. apply Z.ltb_ge. unfold zlen. rewrite app_length, be_length. lia. }
  rewrite !G. rewrite !split_cons by assumption. rewrite !split_nosep by assumption. auto.
Qed.
(* A redirection of less than four bytes makes the client panic; more parts than three are dropped. *)
Theorem C39_short_refuted : (forall raw, zlen raw < 4 -> parseRedirection raw = Panic) /\
  (exists raw r, parseRedirection raw = Ok r /\ raw = [0; 0; 4; 70; 104; 63; 97; 63; 98; 63; 99] /\ rd_token r = [98]).
Proof.
  split; [intros raw H; unfold parseRedirection; replace (zlen raw <? 4) with true by lia; reflexivity|].
  do 2 eexists. split; [|split; [reflexivity|]]; vm_compute; reflexivity.
Qed.
Definition sample_world : world :=
  {| w_conn := fun _ _ _ => true;
     w_reply := fun h a q => if (length (hops h) <? 3)%nat then RRedir {| rd_addr := a ++ [49]; rd_opaque := [120]; rd_token := [116] |} else RAns [42] |}.
Example C39_example :
  let '(o, a, known, h) := sendSession sample_world [[97]] [97] (Mrm [47]) in
  o = OAns [42] /\ a = [97; 49; 49; 49] /\ length (hops h) = 4%nat /\ length known = 4%nat.
Proof. vm_compute. auto. Qed.
Example C39_example_loop :
  let w := {| w_conn := fun _ _ _ => true; w_reply := fun _ a _ => RRedir {| rd_addr := a; rd_opaque := []; rd_token := [] |} |} in
  let '(o, _, _, h) := sendSession w [[97]] [97] Mping in o = OTooMany /\ length (hops h) = 11%nat.
Proof. vm_compute. auto. Qed.

(* ---- C50: addresses of files ---- *)
Lemma find_scheme_app' a b : ~ In 58 a -> find_scheme (a ++ 58 :: 47 :: 47 :: b) = Some (length a).
Proof.
  induction a as [|x a IH]; intros N; [reflexivity|]. cbn [app length]. cbn [find_scheme]. rewrite IH by (intros I; apply N; right; exact I).
  destruct (str_eqb_spec (firstn 3 (x :: a ++ 58 :: 47 :: 47 :: b)) [58; 47; 47]) as [E|]; [|reflexivity]. exfalso. cbn in E. injection E as E _. apply N. left. exact E.
Qed.
Lemma find_scheme_app a b : ~ In 58 a -> find_scheme (a ++ [58; 47; 47] ++ b) = Some (length a).
Proof. exact (find_scheme_app' a b). Qed.
Lemma find_scheme_none s : ~ In 58 s -> find_scheme s = None.
Proof.
  induction s as [|x s IH]; intros N; [reflexivity|]. cbn [find_scheme]. rewrite IH by (intros I; apply N; right; exact I).
  destruct (str_eqb_spec (firstn 3 (x :: s)) [58; 47; 47]) as [E|]; [|reflexivity]. exfalso. cbn in E. injection E as E _. apply N. left. exact E.
Qed.
Lemma cut_app c a b : ~ In c a -> cut c (a ++ c :: b) = (a, Some b).
Proof.
  induction a as [|x a IH]; intros N; cbn [app cut]; [rewrite Z.eqb_refl; reflexivity|].
  destruct (Z.eqb_spec x c) as [E|_]; [exfalso; apply N; left; exact E|]. rewrite IH by (intros I; apply N; right; exact I). reflexivity.
Qed.
Lemma cut_none c a : ~ In c a -> cut c a = (a, None).
Proof.
  induction a as [|x a IH]; intros N; cbn [cut]; [reflexivity|].
  destruct (Z.eqb_spec x c) as [E|_]; [exfalso; apply N; left; exact E|]. rewrite IH by (intros I; apply N; right; exact I). reflexivity.
Qed.
(* an address net.SplitHostPort has nothing to say about (no port), or accepts *)
Definition good_addr (hostport : list Z -> bool) (addr : list Z) : Prop := ~ In 47 addr /\ (~ In 58 addr \/ hostport addr = true).
(* the path on the server: one '/' in front, whether the address had one or two after the host *)
Definition server_path (p : list Z) : list Z := match p with 47 :: _ => p | _ => 47 :: p end.
Lemma existsb_colon l : existsb (Z.eqb 58) l = true -> In 58 l.
Proof. intros H. apply existsb_exists in H. destruct H as (x & I & E). apply Z.eqb_eq in E. subst x. exact I. Qed.
Lemma skipn_In {A} (x : A) n l : In x (skipn n l) -> In x l.
Proof. intros I. rewrite <- (firstn_skipn n l). apply in_or_app. right. exact I. Qed.
Lemma check_good hostport addr : good_addr hostport addr ->
  match addr with
  | 91 :: _ => if existsb (Z.eqb 58) (match last_index 93 addr with Some i => skipn (i + 1) addr | None => addr end) then hostport addr else true
  | _ => if existsb (Z.eqb 58) addr then hostport addr else true
  end = true.
Proof.
  intros (_ & G). assert (X : forall l, (In 58 l -> In 58 addr) -> (if existsb (Z.eqb 58) l then hostport addr else true) = true).
  { intros l I. destruct (existsb (Z.eqb 58) l) eqn:E; [|reflexivity]. destruct G as [G|G]; [|exact G]. exfalso. apply G, I, existsb_colon, E. }
  assert (A : (if existsb (Z.eqb 58) (match last_index 93 addr with Some i => skipn (i + 1) addr | None => addr end) then hostport addr else true) = true).
  { apply X. destruct (last_index 93 addr); [apply skipn_In|auto]. }
  assert (B : (if existsb (Z.eqb 58) addr then hostport addr else true) = true) by (apply X; auto).
  destruct addr as [|z addr]; [exact B|]. destruct z as [|pz|pz]; try exact B. repeat (destruct pz as [pz|pz|]; try exact B). exact A.
Qed.
Lemma strip_path p : (match 47 :: p with 47 :: (47 :: _) as q => q | _ => 47 :: p end) = server_path p.
Proof. destruct p as [|z p]; [reflexivity|]. destruct z as [|pz|pz]; try reflexivity. Qed.
Theorem C50_url : forall hostport scheme user addr path, ~ In 58 scheme -> good_addr hostport addr ->
  (~ In 47 user -> ~ In 58 user -> ~ In 64 user ->
   parseURL hostport (scheme ++ [58; 47; 47] ++ user ++ 64 :: addr ++ 47 :: path) = Ok (Some {| u_addr := addr; u_user := user; u_path := server_path path |})) /\
  (forall pw, ~ In 47 (user ++ pw) -> ~ In 58 user -> ~ In 64 (user ++ pw) ->
   parseURL hostport (scheme ++ [58; 47; 47] ++ user ++ 58 :: pw ++ 64 :: addr ++ 47 :: path) = Ok (Some {| u_addr := addr; u_user := user; u_path := server_path path |})) /\
  (~ In 64 addr -> parseURL hostport (scheme ++ [58; 47; 47] ++ addr ++ 47 :: path) = Ok (Some {| u_addr := addr; u_user := []; u_path := server_path path |})).
Proof.
  intros hostport scheme user addr path NS G. pose proof (check_good hostport addr G) as CK. destruct G as [NA _].
  assert (P : forall rest ua user', ~ In 47 ua -> rest = ua ++ 47 :: path -> parseUA hostport ua = Some (user', addr) ->
    parseURL hostport (scheme ++ [58; 47; 47] ++ rest) = Ok (Some {| u_addr := addr; u_user := user'; u_path := server_path path |})).
  { intros rest ua user' N -> U. unfold parseURL. rewrite find_scheme_app by exact NS.
    replace (skipn (length scheme + 3) (scheme ++ [58; 47; 47] ++ ua ++ 47 :: path)) with (ua ++ 47 :: path)
      by (rewrite app_assoc, skipn_app_exact by (rewrite app_length; reflexivity); reflexivity).
    rewrite cut_app by exact N. rewrite U. rewrite <- strip_path. reflexivity. }
  split; [|split].
  - intros U1 U2 U3. apply (P _ (user ++ 64 :: addr)).
    + intros I. apply in_app_or in I. destruct I as [I|[I|I]]; [exact (U1 I)|discriminate|exact (NA I)].
    + rewrite <- app_assoc. reflexivity.
    + unfold parseUA. rewrite cut_app by exact U3. rewrite cut_none by exact U2. cbn [fst]. rewrite CK. reflexivity.
  - intros pw U1 U2 U3. apply (P _ ((user ++ 58 :: pw) ++ 64 :: addr)).
    + intros I. apply in_app_or in I. destruct I as [I|[I|I]]; [|discriminate|exact (NA I)]. apply U1. apply in_app_or in I. apply in_or_app. destruct I as [I|[I|I]]; [left; exact I|discriminate|right; exact I].
    + rewrite <- !app_assoc. reflexivity.
    + unfold parseUA. rewrite cut_app.
      * rewrite cut_app by exact U2. cbn [fst]. rewrite CK. reflexivity.
      * intros I. apply U3. apply in_app_or in I. apply in_or_app. destruct I as [I|[I|I]]; [left; exact I|discriminate|right; exact I].
  - intros U. apply (P _ addr); [exact NA|reflexivity|]. unfold parseUA. rewrite cut_none by exact U. rewrite CK. reflexivity.
Qed.
(* a name without scheme is a local path *)
Theorem C50_local : forall hostport p, ~ In 58 p -> hd 0 p <> 47 ->
  parseURL hostport p = Ok (Some {| u_addr := []; u_user := []; u_path := p |}) /\
  parseURL hostport (47 :: p) = Ok (Some {| u_addr := []; u_user := []; u_path := 47 :: p |}) /\
  parseURL hostport (47 :: 47 :: p) = Ok (Some {| u_addr := []; u_user := []; u_path := 47 :: p |}).
Proof.
  intros hostport p N H. unfold parseURL. rewrite !find_scheme_none; [|intros [I|[I|I]]; [discriminate|discriminate|exact (N I)]|intros [I|I]; [discriminate|exact (N I)]|exact N].
  split; [|split]; [| |reflexivity].
  - destruct p as [|z p]; [reflexivity|]. cbn in H. destruct z as [|pz|pz]; try reflexivity. repeat (destruct pz as [pz|pz|]; try reflexivity). congruence.
  - destruct p as [|z p]; [reflexivity|]. cbn in H. destruct z as [|pz|pz]; try reflexivity. repeat (destruct pz as [pz|pz|]; try reflexivity). congruence.
Qed.
(* an address without a path makes Parse panic *)
Theorem C50_no_path_refuted : forall hostport scheme addr, ~ In 58 scheme -> good_addr hostport addr -> ~ In 64 addr ->
  parseURL hostport (scheme ++ [58; 47; 47] ++ addr) = Panic.
Proof.
  intros hostport scheme addr NS G U. pose proof (check_good hostport addr G) as CK. destruct G as [NA _]. unfold parseURL. rewrite find_scheme_app by exact NS.
  replace (skipn (length scheme + 3) (scheme ++ [58; 47; 47] ++ addr)) with addr by (rewrite app_assoc, skipn_app_exact by (rewrite app_length; reflexivity); reflexivity).
  rewrite cut_none by exact NA. unfold parseUA. rewrite cut_none by exact U. rewrite CK. reflexivity.
Qed.
Example C50_example : (* root://bob:pw@host:1094//a/b *)
  parseURL (fun _ => true) ([114; 111; 111; 116] ++ [58; 47; 47] ++ [98; 111; 98] ++ 58 :: [112; 119] ++ 64 :: [104; 58; 49] ++ 47 :: [47; 97; 47; 98]) =
  Ok (Some {| u_addr := [104; 58; 49]; u_user := [98; 111; 98]; u_path := [47; 97; 47; 98] |}).
Proof. vm_compute. reflexivity. Qed.
Print Assumptions C36_opaque.
Print Assumptions C36_last.
Print Assumptions C36_requests.
Print Assumptions C36_wire.
Print Assumptions C36_refuted.
Print Assumptions C38_policy.
Print Assumptions C38_monotone.
Print Assumptions C38_open.
Print Assumptions C38_session.
Print Assumptions C38_pedantic_refuted.
Print Assumptions C38_verifyw_refuted.
Print Assumptions C37_history_partial.
Print Assumptions C37_read_all.
Print Assumptions C37_seek_end_refuted.
Print Assumptions C37_past_end_refuted.
Print Assumptions C37_short_refuted.
Print Assumptions C37_large_refuted.
Print Assumptions C39_redirections.
Print Assumptions C39_connections.
Print Assumptions C39_opaque.
Print Assumptions C39_parse.
Print Assumptions C39_short_refuted.
Print Assumptions C50_url.
Print Assumptions C50_local.
Print Assumptions C50_no_path_refuted.
