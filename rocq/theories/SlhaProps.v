(* Theorems about SUSY Les Houches Accord files: C73 *)
From Coq Require Import ZArith List Bool Lia String Ascii.
From Flocq Require Import IEEE754.BinarySingleNaN.
From Verif Require Import Bytes GoLib GoStrings F64 FloatText FloatDigits SlhaModel SlhaProofs.
Import ListNotations.
Local Open Scope Z_scope.

(* ---- the values of a block ---- *)
Lemma dataPos_none d i : dataPos d i < 0 -> dataGet d i = None.
Proof.
  induction d as [|x d IH]; [reflexivity|]. cbn [dataPos dataGet]. destruct (idx_eqb (i_idx x) i); [lia|]. cbv zeta. destruct (Z.ltb_spec (dataPos d i) 0); [auto|lia].
Qed.
Lemma dataPos_some d i : 0 <= dataPos d i -> exists a x r, d = a ++ x :: r /\ Z.of_nat (List.length a) = dataPos d i /\ i_idx x = i /\ dataGet a i = None.
Proof.
  induction d as [|y d IH]; [cbn; lia|]. cbn [dataPos]. destruct (idx_eqb_spec (i_idx y) i) as [E|N].
  - intros _. exists [], y, d. auto.
  - cbv zeta. destruct (Z.ltb_spec (dataPos d i) 0); [lia|]. intros _. destruct (IH H) as (a & x & r & -> & L & E & G). exists (y :: a), x, r.
    cbn [app List.length dataGet]. destruct (idx_eqb_spec (i_idx y) i); [congruence|]. repeat split; auto. lia.
Qed.
Lemma dataGet_app a b i : dataGet (a ++ b) i = match dataGet a i with Some v => Some v | None => dataGet b i end.
Proof. induction a as [|x a IH]; [reflexivity|]. cbn [app dataGet]. destruct (idx_eqb (i_idx x) i); auto. Qed.
Lemma dataGet_none_idx a x i : dataGet a i = None -> i_idx x = i -> ~ In (i_idx x) (map i_idx a).
Proof.
  intros G E I. apply in_map_iff in I as (y & E2 & I). induction a as [|z a IH]; [contradiction|]. cbn [dataGet] in G. destruct (idx_eqb_spec (i_idx z) i); [discriminate|].
  destruct I as [->|I]; [congruence|auto].
Qed.
(* Block.Set, then Block.Get *)
Theorem C73_get_set : forall b v args, Forall in64 args ->
  blockGet (blockSet b v args) args = Some (mkval v (match blockGet b args with Some w => v_c w | None => [] end)) /\
  (forall a, Forall in64 a -> a <> args -> blockGet (blockSet b v args) a = blockGet b a) /\
  map i_idx (b_data (blockSet b v args)) = map i_idx (b_data b) ++ (match blockGet b args with Some _ => [] | None => [newIndex args] end) /\
  b_name (blockSet b v args) = b_name b /\ b_com (blockSet b v args) = b_com b /\ b_q (blockSet b v args) = b_q b.
Proof.
  intros b v args F. unfold blockSet, blockGet. cbn [b_data b_name b_com b_q]. destruct (Z.ltb_spec (dataPos (b_data b) (newIndex args)) 0) as [N|P].
  - rewrite (dataPos_none _ _ N). repeat split.
    + rewrite dataGet_app, (dataPos_none _ _ N). cbn [dataGet i_idx]. destruct (idx_eqb_spec (newIndex args) (newIndex args)); [reflexivity|congruence].
    + intros a FA NA. rewrite dataGet_app. destruct (dataGet (b_data b) (newIndex a)) eqn:E; [reflexivity|]. cbn [dataGet i_idx]. destruct (idx_eqb_spec (newIndex args) (newIndex a)) as [X|]; [|reflexivity].
      apply newIndex_inj in X; auto. congruence.
    + rewrite map_app. reflexivity.
  - destruct (dataPos_some _ _ P) as (a & x & r & E & L & EX & GA). rewrite <- L, Nat2Z.id. rewrite E.
    rewrite firstn_app, Nat.sub_diag, firstn_all. cbn [firstn]. rewrite app_nil_r.
    rewrite nth_error_app2, Nat.sub_diag by lia. cbn [nth_error].
    assert (SK : skipn (List.length a + 1) (a ++ x :: r) = r).
    { rewrite skipn_app. replace (List.length a + 1 - List.length a)%nat with 1%nat by lia. rewrite skipn_all2 by lia. reflexivity. }
    rewrite SK. rewrite !dataGet_app, GA. cbn [app dataGet i_idx i_val]. rewrite EX. destruct (idx_eqb_spec (newIndex args) (newIndex args)); [|congruence]. repeat split.
    + intros q FQ NQ. rewrite !dataGet_app. destruct (dataGet a (newIndex q)); [reflexivity|]. cbn [dataGet i_idx]. rewrite EX. destruct (idx_eqb_spec (newIndex args) (newIndex q)) as [X|]; [|reflexivity].
      apply newIndex_inj in X; auto. congruence.
    + rewrite !map_app. cbn [map i_idx]. rewrite EX, app_nil_r. reflexivity.
Qed.
Example C73_get_set_ex :
  let b := mkblock (bs "MODSEL") [] B754_nan [mkitem (newIndex [1; 12]) (mkval (VInt 7) (bs "old")); mkitem (newIndex [11; 2]) (mkval (VInt 8) [])] in
  blockGet (blockSet b (VInt 9) [1; 12]) [1; 12] = Some (mkval (VInt 9) (bs "old")) /\ blockGet (blockSet b (VInt 9) [1; 12]) [11; 2] = Some (mkval (VInt 8) []) /\
  blockGet (blockSet b (VInt 9) [112]) [112] = Some (mkval (VInt 9) []).
Proof. repeat split; reflexivity. Qed.

(* the indices: what was given to NewIndex, and different for different indices *)
Theorem C73_index : forall args, args <> [] -> Forall in64 args -> Index (newIndex args) = Ok args /\ rank (newIndex args) = zlen args /\
  forall a, Forall in64 a -> newIndex a = newIndex args -> a = args.
Proof. intros args N F. split; [apply Index_newIndex; auto|]. split; [reflexivity|]. intros a FA E. apply newIndex_inj; auto. Qed.
Example C73_index_ex : Index (newIndex [1000022; -3]) = Ok [1000022; -3].
Proof. reflexivity. Qed.
(* but not for no index at all *)
Theorem C73_index_none_refuted : exists args, Index (newIndex args) <> Ok args.
Proof. exists []. rewrite Index_newIndex_nil. discriminate. Qed.

(* ---- what is written is what is read ---- *)
Definition sameVal (name : str) (v w : value) : Prop :=
  match v, w with
  | VInt a, VInt b => a = b
  | VStr a, VStr b => a = b
  | VFloat x, VFloat y => match blockFormat name with KOther => x = y | _ => near 9 x y end
  | _, _ => False
  end.
Definition sameItem (name : str) (i j : item) : Prop := i_idx i = i_idx j /\ v_c (i_val i) = v_c (i_val j) /\ sameVal name (v_v (i_val i)) (v_v (i_val j)).
Definition sameBlock (b c : block) : Prop := b_name b = b_name c /\ b_com b = b_com c /\ near 9 (b_q b) (b_q c) /\ Forall2 (sameItem (b_name b)) (b_data b) (b_data c).
Definition sameDecay (d e : decay) : Prop := near 9 (d_br d) (d_br e) /\ d_ids d = d_ids e /\ d_com d = d_com e.
Definition samePart (p q : particle) : Prop := p_id p = p_id q /\ near 9 (p_width p) (p_width q) /\ p_com p = p_com q /\ Forall2 sameDecay (p_decays p) (p_decays q).
Definition sameSlha (d e : slha) : Prop := Forall2 sameBlock (s_blocks d) (s_blocks e) /\ Forall2 samePart (s_parts d) (s_parts e).
(* the masses of the particles are those of the block MASS *)
Definition massesSet (d : slha) : Prop :=
  forall p, In p (s_parts d) ->
    (forall b v, blocksGet (s_blocks d) (bs "MASS") = Some b -> blockGet b [p_id p] = Some v -> v_v v = VFloat (p_mass p)) /\
    ((forall b, blocksGet (s_blocks d) (bs "MASS") = Some b -> blockGet b [p_id p] = None) -> p_mass p = B754_nan).

Lemma Forall2_map_r {A B} (R : A -> B -> Prop) f l : (forall x, In x l -> R x (f x)) -> Forall2 R l (map f l).
Proof. induction l as [|x l IH]; intros H; constructor; [apply H; left; reflexivity|]. apply IH. intros y I. apply H. right. exact I. Qed.
Lemma same_rdItem name it : item_ok name it -> sameItem name it (rdItem name it).
Proof.
  intros (args & v & c & -> & _ & _ & K). split; [reflexivity|]. split; [reflexivity|]. cbn [rdItem i_val v_v].
  destruct (blockFormat name) eqn:EF; cbn [kind_ok] in K; destruct K as [_ (z & K)];
    first [subst v|destruct K as [-> M]]; cbn [rdVal sameVal]; rewrite ?EF; try reflexivity; apply rd_ok; exact M.
Qed.
Lemma same_rdBlock b : block_ok b -> sameBlock b (rdBlock b).
Proof.
  intros (_ & _ & M & F). split; [reflexivity|]. split; [reflexivity|]. split; [apply rd_ok; exact M|]. cbn [rdBlock b_data]. apply Forall2_map_r. intros x I. apply same_rdItem. rewrite Forall_forall in F. auto.
Qed.
Lemma same_rdPart p m : part_ok p -> samePart p (withMass m (rdPart p)).
Proof.
  intros (_ & M & _ & _ & F). split; [reflexivity|]. split; [apply rd_ok; exact M|]. split; [reflexivity|]. cbn [withMass rdPart p_decays]. apply Forall2_map_r. intros x I. rewrite Forall_forall in F. destruct (F _ I) as (MX & _).
  split; [apply rd_ok; exact MX|]. split; reflexivity.
Qed.
Lemma masses_rd d : slha_ok d -> massesSet (rdSlha d).
Proof.
  intros [FB _] p I. cbn [rdSlha s_parts s_blocks] in *. apply in_map_iff in I as (p0 & <- & I). cbn [withMass p_id rdPart p_mass]. unfold massOf. cbn [s_blocks]. split.
  - intros b v EB EV. rewrite EB, EV. apply blocksGet_in in EB as [IB NB]. apply in_map_iff in IB as (b0 & <- & IB). rewrite Forall_forall in FB. destruct (FB _ IB) as (_ & _ & _ & FI). cbn [rdBlock b_name] in NB.
    unfold blockGet in EV. apply dataGet_in in EV as (x & IX & <-). cbn [rdBlock b_data] in IX. apply in_map_iff in IX as (y & <- & IY). rewrite Forall_forall in FI.
    destruct (FI _ IY) as (args & w & c & -> & _ & _ & KO). rewrite NB in KO. change (blockFormat (bs "MASS")) with KMass in KO. destruct KO as (_ & z & -> & _).
    unfold rdItem. cbn [i_val v_v]. rewrite NB. reflexivity.
  - intros H. destruct (blocksGet (map rdBlock (s_blocks d)) (bs "MASS")) as [b|]; [rewrite (H b eq_refl)|]; reflexivity.
Qed.
(* slha_ok d: upper-case names, values and indices that fit the format of the block, comments without newline; the floating point
   numbers written with 9 digits are neither subnormal nor larger than 10^308; short: the lines are shorter than 64 KiB *)
Theorem C73_roundtrip : forall fv d, verb_ok fv -> slha_ok d ->
  exists t, encode fv d = Some t /\ (Forall short (split 10 t) -> exists e, decode t = Ok (Some e) /\ sameSlha d e /\ massesSet e /\ encode fv e = Some t).
Proof.
  intros fv d V W. destruct (decode_encode fv d V W) as (t & E & D). exists t. split; [exact E|]. intros S. exists (rdSlha d). split; [auto|]. split; [|split; [apply masses_rd; exact W|rewrite encode_rd by auto; exact E]].
  destruct W as [FB FP]. rewrite Forall_forall in FB, FP. split; cbn [rdSlha s_blocks s_parts].
  - apply Forall2_map_r. intros b I. apply same_rdBlock. auto.
  - apply (Forall2_map_r samePart (fun p => withMass (massOf (mkslha (map rdBlock (s_blocks d)) []) (p_id p)) (rdPart p))). intros p I. apply same_rdPart. auto.
Qed.

(* ---- Decode does not panic ---- *)
Lemma tobin_small a : 0 < a <= 2 ^ 63 -> let '(m, e) := tobin (a * 1) 1 in forall s, mkf s m e <> None.
Proof.
  intros H. pose proof (tobin_spec (a * 1) 1 ltac:(lia) ltac:(lia)) as T. destruct (tobin (a * 1) 1) as [m e]. destruct T as (HM & HE & HN & g & G0 & G1 & _ & G3). intros s. unfold mkf. destruct m as [|p|p]; try discriminate.
  assert (GB : g <= 1085).
  { destruct G3 as [->|G3]; [lia|]. destruct (Z_le_gt_dec g 1085); [auto|exfalso]. assert (2 ^ 1086 <= 2 ^ g) by (apply Z.pow_le_mono_r; lia).
    assert (X : a * 1 * 2 ^ 1074 <= 2 ^ 63 * 2 ^ 1074) by (apply Z.mul_le_mono_nonneg_r; [apply Z.pow_nonneg|]; lia).
    assert (Y : 2 ^ 52 * 2 ^ 1086 <= 2 ^ 52 * 2 ^ g) by (apply Z.mul_le_mono_nonneg_l; [apply Z.pow_nonneg|]; lia).
    rewrite <- !Z.pow_add_r in X, Y by lia. assert (Z1 : 2 ^ (63 + 1074) < 2 ^ (52 + 1086)) by (apply Z.pow_lt_mono_r; lia). rewrite Z.pow_add_r in Y by lia. clear - G3 X Y Z1 H0. rewrite Z.mul_1_l in G3. rewrite Z.pow_add_r in Z1, X by lia.
    rewrite Z.pow_add_r in Z1 by lia. set (q := 2 ^ 1074) in *. set (w := 2 ^ g) in *. set (u := 2 ^ 1086) in *. set (k := a * 1 * q) in *. clearbody q w u k. lia. }
  assert (BB : SpecFloat.bounded 53 1024 p e = true) by (apply bounded_intro; [lia|lia|exact HN]).
  set (b := SpecFloat.bounded 53 1024 p e) in *. generalize (eq_refl b). 
  assert (X : forall c (E : b = c), c = true -> (match c as b0 return b = b0 -> option f64 with true => fun H0 => Some (B754_finite s p e H0) | false => fun _ => None end) E <> None) by (intros [] E F; congruence).
  intros E. apply X. exact BB.
Qed.
Lemma digits_all ds v : fold_left dec_step ds (Some 0) = Some v -> digits ds 0 0 = (v, zlen ds, []).
Proof. intros H. rewrite <- (app_nil_r ds) at 1. rewrite (digits_app ds [] 0 v 0 H). reflexivity. Qed.
Lemma dec_nonneg ds : forall a v, 0 <= a -> fold_left dec_step ds (Some a) = Some v -> 0 <= v.
Proof.
  induction ds as [|c ds IH]; intros a v A E; [cbn in E; congruence|]. cbn [fold_left dec_step] in E. destruct (is_digit c) eqn:D.
  - apply IH in E; auto. unfold is_digit in D. apply andb_prop in D as [D1 D2]. apply Z.leb_le in D1. lia.
  - clear - E. exfalso. induction ds; [discriminate|auto].
Qed.
Lemma udec_float neg s v : parse_udec s = Some v -> v <= 2 ^ 63 -> exists x, parse_udecimal neg s = Some x.
Proof.
  intros P L. destruct s as [|c s]; [discriminate|]. unfold parse_udec in P. unfold parse_udecimal. rewrite (digits_all _ _ P). cbv iota beta.
  destruct (Z.eqb_spec (zlen (c :: s)) 0) as [Z0|_]; [rewrite zlen_cons in Z0; pose proof (zlen_nonneg s); lia|].
  pose proof (dec_nonneg _ 0 v ltac:(lia) P) as NV. unfold fromdec. change (Z.max 0 (- 0)) with 0. change (Z.max 0 (- - 0)) with 0. change (10 ^ 0) with 1.
  destruct (Z.eq_dec v 0) as [->|NZ]; [destruct neg; eexists; reflexivity|]. pose proof (tobin_small v ltac:(lia)) as T. destruct (tobin (v * 1) 1) as [m e]. specialize (T neg).
  destruct (mkf neg m e) as [x|]; [exists x; reflexivity|congruence].
Qed.
Lemma udec_head s v : parse_udec s = Some v -> exists c r, s = c :: r /\ 48 <= c <= 57.
Proof.
  intros P. destruct s as [|c r]; [discriminate|]. exists c, r. split; [reflexivity|]. unfold parse_udec in P. cbn [fold_left dec_step] in P. destruct (is_digit c) eqn:D.
  - unfold is_digit in D. apply andb_prop in D as [D1 D2]. apply Z.leb_le in D1, D2. lia.
  - exfalso. clear - P. induction r; [discriminate|auto].
Qed.
Lemma pf_digit sg c r : 48 <= c <= 57 -> parse_float (signtext sg ++ c :: r) = parse_udecimal sg (c :: r).
Proof. apply parse_digit_body. Qed.
Lemma pf_plus c r : 48 <= c <= 57 -> parse_float (43 :: c :: r) = parse_udecimal false (c :: r).
Proof.
  intros H. rewrite <- (pf_digit false c r H). cbn [signtext app]. unfold parse_float. cbv zeta beta. 
  assert (C : c = 48 \/ c = 49 \/ c = 50 \/ c = 51 \/ c = 52 \/ c = 53 \/ c = 54 \/ c = 55 \/ c = 56 \/ c = 57) by lia.
  repeat destruct C as [C|C]; subst c; reflexivity.
Qed.
(* every integer is a floating point number *)
Lemma atoi_float s n : atoi s = Some n -> exists x, parse_float s = Some x.
Proof.
  intros A. unfold atoi in A. 
  assert (K : exists sg r v, parse_udec r = Some v /\ v <= 2 ^ 63 /\ (s = signtext sg ++ r \/ s = 43 :: r /\ sg = false)).
  { destruct s as [|c r]; [discriminate|]. destruct (Z.eqb_spec c 45) as [->|N1].
    - destruct (parse_udec r) as [v|] eqn:E; [|discriminate]. cbn [option_map] in A. destruct (Z.leb_spec (- 2 ^ 63) (- v)); [|discriminate]. exists true, r, v. split; [auto|]. split; [lia|left; reflexivity].
    - destruct (Z.eqb_spec c 43) as [->|N2].
      + destruct (parse_udec r) as [v|] eqn:E; [|discriminate]. destruct (Z.ltb_spec v (2 ^ 63)); [|rewrite andb_false_r in A; discriminate]. exists false, r, v. split; [auto|]. split; [lia|right; auto].
      + assert (E : exists v, parse_udec (c :: r) = Some v /\ v < 2 ^ 63).
        { assert (X : (match parse_udec (c :: r) with Some v => if (- 2 ^ 63 <=? v) && (v <? 2 ^ 63) then Some v else None | None => None end) = Some n).
          { rewrite <- A. destruct c as [|p|p]; try reflexivity. do 6 (destruct p as [p|p|]; try reflexivity); congruence. }
          destruct (parse_udec (c :: r)) as [v|]; [|discriminate]. exists v. split; [reflexivity|]. destruct (Z.ltb_spec v (2 ^ 63)); [auto|rewrite andb_false_r in X; discriminate]. }
        destruct E as (v & E & L). exists false, (c :: r), v. split; [auto|]. split; [lia|left; reflexivity]. }
  destruct K as (sg & r & v & P & L & S). destruct (udec_float sg r v P L) as (x & U). destruct (udec_head r v P) as (c & q & -> & H). exists x. destruct S as [->|[-> ->]].
  - rewrite pf_digit; auto.
  - rewrite pf_plus; auto.
Qed.
Theorem C73_values : forall s v, anyvalue s = Some v -> exists x, v = VFloat x.
Proof.
  intros s v E. unfold anyvalue in E. destruct (parse_float s) eqn:P; [injection E as <-; eauto|].
  destruct (if Nat.eqb (count 68 s) 1 then _ else _); [injection E as <-; eauto|]. destruct (if Nat.eqb (count 100 s) 1 then _ else _); [injection E as <-; eauto|].
  destruct (atoi s) eqn:A; [|discriminate]. destruct (atoi_float _ _ A) as (x & X). congruence.
Qed.

(* a line of data can be split into what Decode looks for: something before the comment, and for a decay the branching ratio,
   the number of products and the products *)
Definition fieldsOf (l : str) : list str := tokens (fst (cut l)).
Definition data_line (l : str) : Prop :=
  match l with
  | c :: _ => c = 9 \/ c = 32 -> match fieldsOf l with
              | [] => False
              | [_] => False
              | _ :: n :: ids => forall k, atoi n = Some k -> 0 <= k <= zlen ids
              end
  | [] => True
  end.
Definition block_line (l : str) : Prop := match l with c :: _ => c = 9 \/ c = 32 -> fieldsOf l <> [] | [] => True end.
(* the lines of a text, and whether they follow a DECAY line or a BLOCK line *)
Definition head_of (l : str) : option mode := match l with c :: _ => if upper c =? 66 then Some MBlock else if upper c =? 68 then Some MDecay else None | [] => None end.
Fixpoint lines_ok (m : mode) (ls : list str) : Prop :=
  match ls with
  | [] => True
  | l :: ls' => (match m with M0 => True | MBlock => block_line l | MDecay => data_line l end) /\ lines_ok (match head_of l with Some m' => m' | None => m end) ls'
  end.
Lemma readIDs_nopanic n : forall ids k, k <= zlen ids -> (List.length ids <= n)%nat -> readIDs ids k <> Panic.
Proof.
  induction n as [|n IH]; intros ids k K L; destruct ids as [|t ids]; cbn [readIDs List.length] in *; try lia.
  1, 2: rewrite zlen_nil in K; destruct (Z.leb_spec k 0); [discriminate|lia].
  destruct (Z.leb_spec k 0); [discriminate|]. rewrite zlen_cons in K. destruct (atoi t); [|discriminate]. specialize (IH ids (k - 1) ltac:(lia) ltac:(lia)). destruct (readIDs ids (k - 1)) as [[|]|]; congruence.
Qed.
Definition goodBlock (b : block) : Prop := b_name b = bs "MASS" -> Forall (fun it => exists x, v_v (i_val it) = VFloat x) (b_data b).
Definition good (s : st) : Prop := Forall goodBlock (s_blocks (t_data s)).
Lemma entry_panic name l : fieldsOf l <> [] -> addBlockEntry name l <> Panic /\ forall it, name = bs "MASS" -> addBlockEntry name l = Ok (Some it) -> exists x, v_v (i_val it) = VFloat x.
Proof.
  unfold fieldsOf, addBlockEntry. destruct (cut l) as [a c]. cbn [fst]. destruct (tokens a) as [|t ts]; [congruence|]. intros _. cbv zeta. destruct (atois (removelast (t :: ts))); [|split; [discriminate|intros; discriminate]]. split.
  - destruct (if oneof name ["MODSEL"]%string then _ else _); discriminate.
  - intros it -> E. change (oneof (bs "MASS") ["MODSEL"]%string) with false in E. change (oneof (bs "MASS") ["SPINFO"; "DCINFO"]%string) with false in E. cbv iota in E.
    destruct (anyvalue (last (t :: ts) [])) eqn:A; [|discriminate]. injection E as <-. apply C73_values in A as (x & ->). exists x. reflexivity.
Qed.
Lemma decay_panic l : (match fieldsOf l with [] => False | [_] => False | _ :: n :: ids => forall k, atoi n = Some k -> 0 <= k <= zlen ids end) -> addDecayEntry l <> Panic.
Proof.
  unfold fieldsOf, addDecayEntry. destruct (cut l) as [a c]. cbn [fst]. destruct (tokens a) as [|t [|n ids]]; try contradiction. intros H. destruct (parse_float t); [|discriminate]. destruct (atoi n) as [k|]; [|discriminate].
  specialize (H k eq_refl). destruct (Z.ltb_spec k 0); [lia|]. pose proof (readIDs_nopanic (List.length ids) ids k ltac:(lia) ltac:(lia)) as R. destruct (readIDs ids k) as [[|]|]; congruence.
Qed.
Lemma good_app bl b it : Forall goodBlock (bl ++ [b]) -> (b_name b = bs "MASS" -> exists x, v_v (i_val it) = VFloat x) -> Forall goodBlock (bl ++ [pushItem it b]).
Proof.
  intros F H. apply Forall_app in F as [F1 F2]. apply Forall_app. split; [exact F1|]. constructor; [|constructor]. inversion F2; subst. intros E. cbn [pushItem b_name b_data] in *. apply Forall_app. split; [auto|]. constructor; auto.
Qed.
Lemma step_nopanic s l : good s -> (match t_mode s with M0 => True | MBlock => block_line l | MDecay => data_line l end) ->
  step s l <> Panic /\ forall s', step s l = Ok (Some s') -> good s' /\ t_mode s' = match head_of l with Some m' => m' | None => t_mode s end.
Proof.
  intros G L. unfold step. destruct l as [|c0 r]; [split; [discriminate|]; intros s' [= <-]; auto|]. cbn [head_of].
  destruct (Z.eqb_spec c0 35) as [->|N35]; [split; [discriminate|]; intros s' [= <-]; auto|]. destruct (cut (c0 :: r)) as [be af] eqn:EC. cbv zeta.
  destruct (Z.eqb_spec (upper c0) 66).
  { destruct (find blockAt _) as [[name q]|]; [|split; [|intros ?]; discriminate]. destruct (match q with None => _ | Some _ => _ end); [|split; [|intros ?]; discriminate]. split; [discriminate|]. intros s' [= <-]. split; [|reflexivity].
    unfold good. cbn [t_data addBlock s_blocks]. apply Forall_app. split; [exact G|]. constructor; [|constructor]. intros _. constructor. }
  destruct (Z.eqb_spec (upper c0) 68).
  { destruct (find decayAt _) as [[id w]|]; [|split; [|intros ?]; discriminate]. destruct (atoi id); [|split; [|intros ?]; discriminate]. destruct (parse_float w); [|split; [|intros ?]; discriminate]. split; [discriminate|]. intros s' [= <-]. split; [exact G|reflexivity]. }
  destruct ((c0 =? 9) || (c0 =? 32)) eqn:EB; [|split; [discriminate|]; intros s' [= <-]; auto].
  assert (SP : c0 = 9 \/ c0 = 32) by (apply orb_prop in EB as [EB|EB]; apply Z.eqb_eq in EB; auto).
  destruct (t_mode s) eqn:EM; [split; [discriminate|]; intros s' [= <-]; auto| |].
  - destruct (entry_panic (lastName (s_blocks (t_data s))) (c0 :: r) (L SP)) as [P1 P2]. destruct (addBlockEntry (lastName (s_blocks (t_data s))) (c0 :: r)) as [[it|]|] eqn:EA; [|split; [|intros ?]; discriminate|congruence].
    split; [discriminate|]. intros s' [= <-]. split; [|reflexivity]. unfold good in *. cbn [t_data s_blocks]. destruct (s_blocks (t_data s)) as [|b0 bl0]; [constructor|].
    destruct (exists_last (l := b0 :: bl0) ltac:(discriminate)) as (bl & b & E). rewrite E in *. rewrite updLast_app, lastName_app in *. apply good_app; auto.
  - pose proof (decay_panic (c0 :: r) (L SP)) as P1. destruct (addDecayEntry (c0 :: r)) as [[it|]|]; [|split; [|intros ?]; discriminate|congruence]. split; [discriminate|]. intros s' [= <-]. split; [exact G|reflexivity].
Qed.
Lemma scan_nopanic ls : forall s, good s -> lines_ok (t_mode s) (map dropCR ls) -> scan s ls <> Panic /\ forall s', scan s ls = Ok (Some s') -> good s'.
Proof.
  induction ls as [|l ls IH]; intros s G L; [split; [discriminate|]; intros s' [= <-]; auto|]. cbn [map lines_ok scan] in *. destruct L as [L1 L2]. destruct (65536 <=? zlen l); [split; [|intros ?]; discriminate|].
  destruct (step_nopanic s (dropCR l) G L1) as [P Q]. destruct (step s (dropCR l)) as [[s2|]|] eqn:ES; [|split; [|intros ?]; discriminate|congruence]. destruct (Q s2 eq_refl) as [G2 M2]. apply IH; [exact G2|]. rewrite M2. exact L2.
Qed.
Theorem C73_no_panic : forall t, lines_ok M0 (map dropCR (split 10 t)) -> decode t <> Panic.
Proof.
  intros t L. unfold decode. destruct (scan_nopanic (split 10 t) (mkst M0 (mkslha [] [])) ltac:(constructor) L) as [P Q].
  destruct (scan (mkst M0 (mkslha [] [])) (split 10 t)) as [[s|]|]; [|discriminate|congruence]. specialize (Q s eq_refl). cbv zeta.
  destruct (blocksGet (s_blocks (t_data s)) (bs "MASS")) as [b|] eqn:EB; [|discriminate]. apply blocksGet_in in EB as [IB NB]. unfold good in Q. rewrite Forall_forall in Q. specialize (Q b IB NB).
  assert (S : setMasses b (s_parts (t_data s)) <> Panic).
  { induction (s_parts (t_data s)) as [|p ps IH]; [discriminate|]. cbn [setMasses]. destruct (blockGet b [p_id p]) as [v|] eqn:EG.
    - unfold blockGet in EG. apply dataGet_in in EG as (x & IX & <-). rewrite Forall_forall in Q. destruct (Q _ IX) as (y & ->). destruct (setMasses b ps); [discriminate|congruence].
    - destruct (setMasses b ps); [discriminate|congruence]. }
  destruct (setMasses b (s_parts (t_data s))); [discriminate|congruence].
Qed.

(* ---- examples ---- *)
Lemma verb17 : verb_ok (fmt_e 17).
Proof.
  intros x. split; [apply parse_fmt17|]. split; [apply fmt_nonempty|]. apply Forall_forall. intros c I. apply fmt_chars in I; [|lia]. unfold numchar in I. unfold edge. lia.
Qed.
Lemma b15 : SpecFloat.bounded 53 1024 6755399441055744 (-52) = true.
Proof. reflexivity. Qed.
Definition f15 : f64 := B754_finite false 6755399441055744 (-52) b15.          (* 1.5 *)
Definition exd : slha := mkslha
  [mkblock (bs "MODSEL") (bs "Select model") B754_nan [mkitem (newIndex [1]) (mkval (VInt 1) (bs "sugra"))];
   mkblock (bs "SPINFO") [] B754_nan [mkitem (newIndex [2]) (mkval (VStr (bs "3.4.1")) (bs "version"))];
   mkblock (bs "MASS") (bs "Mass spectrum") B754_nan [mkitem (newIndex [24]) (mkval (VFloat f15) (bs "W+")); mkitem (newIndex [-25]) (mkval (VFloat (B754_zero false)) [])];
   mkblock (bs "NMIX") [] f15 [mkitem (newIndex [1; 2]) (mkval (VFloat f15) (bs "N_12"))];
   mkblock (bs "MYBLOCK") [] B754_nan [mkitem (newIndex [1; 2; 3]) (mkval (VFloat f15) [])]]
  [mkpart 24 f15 B754_nan (bs "W+ decays") [mkdecay f15 [-11; 12] (bs "BR(W+ -> e+ nu_e)"); mkdecay f15 [] []]; mkpart (-25) B754_nan B754_nan [] []].
Lemma mid15 : mid f15.
Proof. cbn [mid f15]. split; apply Z.leb_le; reflexivity. Qed.
Ltac wf := repeat match goal with
  | |- Forall _ _ => constructor
  | |- _ /\ _ => split
  | |- item_ok _ _ => do 3 eexists; split; [reflexivity|]
  | |- mid f15 => exact mid15
  | |- mid (B754_zero _) => exact I
  | |- mid B754_nan => exact I
  | |- mid _ => progress cbn [b_q p_width d_br]
  | |- text_ok _ => split; [vm_compute; intuition discriminate|first [left; reflexivity|right; split; vm_compute; split; discriminate]]
  | |- name_ok _ => split; [discriminate|repeat constructor; unfold is_name; cbn; lia]
  | |- tok_ok _ => split; [discriminate|repeat constructor; unfold edge; cbn; lia]
  | |- in64 _ => unfold in64; cbn; lia
  | |- kind_ok _ _ _ => cbn; split; [first [reflexivity|discriminate]|eexists; first [split; [reflexivity|]|reflexivity]]
  | |- ~ infinite _ => intros (? & ?); discriminate
  | |- zlen _ < _ => cbn; lia
  end.
Example C73_roundtrip_ex : slha_ok exd /\ verb_ok (fmt_e 17) /\ zlen (s_blocks exd) = 5 /\ zlen (s_parts exd) = 2.
Proof.
  split; [|split; [exact verb17|split; reflexivity]]. unfold slha_ok, block_ok, part_ok, decay_ok, exd. wf.
Qed.
(* numbers 0, so that the text can be computed *)
Definition exz : slha := mkslha [mkblock (bs "MASS") [] B754_nan [mkitem (newIndex [24]) (mkval (VFloat (B754_zero true)) (bs "W+"))]]
  [mkpart 24 (B754_zero false) B754_nan [] [mkdecay (B754_zero false) [-11; 12] []]].
Example C73_roundtrip_text_ex : exists t e, encode (fmt_e 17) exz = Some t /\ 150 < zlen t /\ decode t = Ok (Some e) /\ map p_mass (s_parts e) = [B754_zero true].
Proof. eexists. eexists. split; [reflexivity|]. split; [vm_compute; reflexivity|]. split; [vm_compute; reflexivity|reflexivity]. Qed.
Example C73_no_panic_ex : lines_ok M0 (map dropCR (split 10 (bs "BLOCK A" ++ [10] ++ bs " 1 2 0 # c" ++ [10] ++ bs "DECAY 1 0" ++ [10] ++ bs " 0 2 3 4"))).
Proof. vm_compute. repeat split; try discriminate; intros; try discriminate. all: match goal with H : Some _ = Some _ |- _ => injection H as <- | _ => idtac end; discriminate. Qed.
Example C73_values_ex : anyvalue (bs "0") = Some (VFloat (B754_zero false)).
Proof. reflexivity. Qed.

(* ---- what does not hold ---- *)
Definition nl : str := [10].
(* Decode panics: on a line with only blanks or a comment in a block or a decay, on a decay without the number of products, with a
   negative number or with fewer products than announced *)
Theorem C73_panic_refuted :
  decode (bs "BLOCK A" ++ nl ++ bs " " ++ nl) = Panic /\ decode (bs "BLOCK A" ++ nl ++ bs "  # comment" ++ nl) = Panic /\
  decode (bs "DECAY 6 0" ++ nl ++ bs "  # comment" ++ nl) = Panic /\ decode (bs "DECAY 6 0" ++ nl ++ bs " 0" ++ nl) = Panic /\
  decode (bs "DECAY 6 0" ++ nl ++ bs " 0 -1" ++ nl) = Panic /\ decode (bs "DECAY 6 0" ++ nl ++ bs " 0 2 11" ++ nl) = Panic.
Proof. repeat split; vm_compute; reflexivity. Qed.
(* a string that Encode writes in a block of the user cannot be read *)
Theorem C73_string_refuted : exists d t, encode (fmt_e 17) d = Some t /\ map b_name (s_blocks d) = [bs "MYINFO"] /\
  (exists i, map b_data (s_blocks d) = [[i]] /\ v_v (i_val i) = VStr (bs "abc")) /\ decode t = Ok None.
Proof.
  exists (mkslha [mkblock (bs "MYINFO") [] B754_nan [mkitem (newIndex [1]) (mkval (VStr (bs "abc")) [])]] []). eexists. split; [reflexivity|]. split; [reflexivity|].
  split; [eexists; split; reflexivity|vm_compute; reflexivity].
Qed.
(* an integer comes back as a floating point number *)
Theorem C73_int_refuted : exists d t e, encode (fmt_e 17) d = Some t /\ decode t = Ok (Some e) /\
  map (fun b => map (fun i => v_v (i_val i)) (b_data b)) (s_blocks d) = [[VInt 0]] /\ map (fun b => map (fun i => v_v (i_val i)) (b_data b)) (s_blocks e) = [[VFloat (B754_zero false)]].
Proof.
  exists (mkslha [mkblock (bs "MYBLOCK") [] B754_nan [mkitem (newIndex [1]) (mkval (VInt 0) [])]] []). eexists. eexists. split; [reflexivity|]. split; [vm_compute; reflexivity|]. split; reflexivity.
Qed.
(* a version with a blank cannot be read: the first word is taken for an index *)
Theorem C73_info_refuted : exists d t, encode (fmt_e 17) d = Some t /\ (exists i, map b_data (s_blocks d) = [[i]] /\ v_v (i_val i) = VStr (bs "SOFTSUSY 3")) /\ decode t = Ok None.
Proof.
  exists (mkslha [mkblock (bs "SPINFO") [] B754_nan [mkitem (newIndex [1]) (mkval (VStr (bs "SOFTSUSY 3")) [])]] []). eexists. split; [reflexivity|].
  split; [eexists; split; reflexivity|vm_compute; reflexivity].
Qed.
(* an infinite width is written but cannot be read *)
Theorem C73_width_refuted : exists d t, encode (fmt_e 17) d = Some t /\ map p_width (s_parts d) = [B754_infinity false] /\ decode t = Ok None.
Proof.
  exists (mkslha [] [mkpart 6 (B754_infinity false) B754_nan [] []]). eexists. split; [reflexivity|]. split; [reflexivity|vm_compute; reflexivity].
Qed.
(* the data of a section that Decode does not know are added to the block before it *)
Theorem C73_section_refuted : exists e, decode (bs "BLOCK A" ++ nl ++ bs " 1 0" ++ nl ++ bs "XSECTION 1" ++ nl ++ bs " 2 0" ++ nl) = Ok (Some e) /\
  map (fun b => (b_name b, map i_idx (b_data b))) (s_blocks e) = [(bs "A", [newIndex [1]; newIndex [2]])].
Proof. eexists. split; [vm_compute; reflexivity|reflexivity]. Qed.
(* names come back in upper case *)
Theorem C73_name_refuted : exists d t e, encode (fmt_e 17) d = Some t /\ decode t = Ok (Some e) /\ map b_name (s_blocks d) = [bs "mass"] /\ map b_name (s_blocks e) = [bs "MASS"].
Proof. exists (mkslha [mkblock (bs "mass") [] B754_nan []] []). eexists. eexists. split; [reflexivity|]. split; [vm_compute; reflexivity|]. split; reflexivity. Qed.

Print Assumptions C73_get_set.
Print Assumptions C73_index.
Print Assumptions C73_index_none_refuted.
Print Assumptions C73_roundtrip.
Print Assumptions C73_values.
Print Assumptions C73_no_panic.
Print Assumptions C73_panic_refuted.
Print Assumptions C73_string_refuted.
Print Assumptions C73_int_refuted.
Print Assumptions C73_info_refuted.
Print Assumptions C73_width_refuted.
Print Assumptions C73_section_refuted.
Print Assumptions C73_name_refuted.
