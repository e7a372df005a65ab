(* Proofs about SlhaModel.v: the text of each line and what is read from it. *)
From Coq Require Import ZArith List Lia Bool String.
From Flocq Require Import IEEE754.BinarySingleNaN.
From Verif Require Import Bytes GoLib GoStrings F64 FloatText FloatDigits SlhaModel.
Import ListNotations.
Local Open Scope Z_scope.

(* ---- characters ---- *)
Definition edge (c : Z) : Prop := 33 <= c <= 126.
Definition tok_ok (t : str) : Prop := t <> [] /\ Forall (fun c => edge c /\ c <> 35) t.
Lemma edge_nospace c : edge c -> is_space c = false.
Proof. unfold edge, is_space. intros H. destruct (Z.leb_spec 9 c), (Z.leb_spec c 13), (Z.eqb_spec c 32); try lia; reflexivity. Qed.
Lemma edge_nows c : edge c -> is_ws c = false.
Proof. unfold edge, is_ws. intros H. destruct (Z.eqb_spec c 32), (Z.eqb_spec c 9), (Z.eqb_spec c 10), (Z.eqb_spec c 12), (Z.eqb_spec c 13); try lia; reflexivity. Qed.
Lemma itoa_tok n : tok_ok (itoa n).
Proof.
  split.
  - unfold itoa. destruct (n <? 0); [discriminate|]. apply udec_nonempty.
  - apply Forall_forall. intros c I. apply itoa_chars in I. unfold edge. lia.
Qed.
Lemma fmtE_tok x : tok_ok (fmt_E 9 x).
Proof.
  unfold fmt_E. split.
  - pose proof (fmt_nonempty 9 x). destruct (fmt_e 9 x); [congruence|discriminate].
  - apply Forall_forall. intros c I. apply in_map_iff in I as (d & <- & I). apply fmt_chars in I; [|lia]. unfold numchar in I. unfold upE, edge. destruct (d =? 101); lia.
Qed.
Lemma tok_hd t : tok_ok t -> exists c r, t = c :: r /\ edge c /\ c <> 35.
Proof. intros [N F]. destruct t; [congruence|]. inversion F; subst. destruct H1. eauto. Qed.
Lemma tok_last t : tok_ok t -> exists c r, t = r ++ [c] /\ edge c /\ c <> 35.
Proof. intros [N F]. destruct (exists_last N) as (r & c & ->). apply Forall_app in F as [_ F]. inversion F; subst. destruct H1. eauto. Qed.
Lemma tok_no k t : k < 33 \/ k = 35 -> tok_ok t -> ~ In k t.
Proof. intros H [_ F] I. rewrite Forall_forall in F. apply F in I. unfold edge in I. lia. Qed.

(* ---- blanks, trim, cut ---- *)
Lemma blanks_app a b s : blanks a ++ blanks b ++ s = blanks (a + b) ++ s.
Proof. unfold blanks. rewrite app_assoc, repeat_app. reflexivity. Qed.
Lemma blanks_in n c : In c (blanks n) -> c = 32.
Proof. apply repeat_spec. Qed.
Lemma rev_blanks n : rev (blanks n) = blanks n.
Proof. induction n as [|n IH]; [reflexivity|]. cbn [blanks repeat rev]. fold (blanks n). rewrite IH. unfold blanks. change [32] with (repeat 32 1). rewrite <- repeat_app. rewrite Nat.add_1_r. reflexivity. Qed.
Lemma dropw_blanks p n s : p 32 = true -> dropw p (blanks n ++ s) = dropw p s.
Proof. intros H. induction n as [|n IH]; [reflexivity|]. cbn [blanks repeat app dropw]. rewrite H. exact IH. Qed.
Lemma dropw_stop p c s : p c = false -> dropw p (c :: s) = c :: s.
Proof. intros H. cbn [dropw]. rewrite H. reflexivity. Qed.
Lemma trim_core a b s : (s = [] \/ (edge (hd 0 s) /\ edge (last s 0))) -> trim (blanks a ++ s ++ blanks b) = s.
Proof.
  intros H. unfold trim. rewrite dropw_blanks by reflexivity. destruct s as [|c s].
  - cbn [app]. replace (blanks b) with (blanks b ++ []) by apply app_nil_r. rewrite dropw_blanks by reflexivity. reflexivity.
  - destruct H as [|[H1 H2]]; [discriminate|]. cbn [hd] in H1. cbn [app]. rewrite dropw_stop by (apply edge_nospace; auto).
    change (c :: s ++ blanks b) with ((c :: s) ++ blanks b). rewrite rev_app_distr, rev_blanks, dropw_blanks by reflexivity.
    destruct (exists_last (l := c :: s) ltac:(discriminate)) as (r & d & E). rewrite E in *. rewrite last_last in H2. rewrite rev_app_distr. cbn [rev app]. rewrite dropw_stop by (apply edge_nospace; auto).
    cbn [rev]. rewrite rev_involutive. reflexivity.
Qed.
Lemma cut_at a b : ~ In 35 a -> cut (a ++ 35 :: b) = (a, Some b).
Proof.
  induction a as [|c a IH]; intros N; [reflexivity|]. cbn [app cut]. destruct (Z.eqb_spec c 35) as [->|]; [exfalso; apply N; left; reflexivity|].
  rewrite IH by (intros I; apply N; right; auto). reflexivity.
Qed.
Lemma cut_none a : ~ In 35 a -> cut a = (a, None).
Proof.
  induction a as [|c a IH]; intros N; [reflexivity|]. cbn [cut]. destruct (Z.eqb_spec c 35) as [->|]; [exfalso; apply N; left; reflexivity|].
  rewrite IH by (intros I; apply N; right; auto). reflexivity.
Qed.

(* ---- tokens ---- *)
Definition toks (s : str) : list str := filter (fun t => negb (str_eqb t [])) (split 32 s).
Lemma split32 s : split 32 (32 :: s) = [] :: split 32 s.
Proof. exact (split_cons 32 [] s (fun F => F)). Qed.
Lemma toks_32 s : toks (32 :: s) = toks s.
Proof. unfold toks. rewrite split32. reflexivity. Qed.
Lemma toks_blanks n s : toks (blanks n ++ s) = toks s.
Proof. induction n as [|n IH]; [reflexivity|]. cbn [blanks repeat app]. rewrite toks_32. exact IH. Qed.
Lemma toks_tok t s : tok_ok t -> toks (t ++ 32 :: s) = t :: toks s.
Proof.
  intros T. unfold toks. rewrite split_cons by (apply (tok_no 32); auto; lia). cbn [filter]. destruct T as [N _]. destruct t; [congruence|]. reflexivity.
Qed.
(* a line of words, each after blanks *)
Definition lay (l : list (nat * str)) : str := List.concat (map (fun nt => blanks (S (fst nt)) ++ snd nt) l).
Lemma lay_app a b : lay (a ++ b) = lay a ++ lay b.
Proof. unfold lay. rewrite map_app, concat_app. reflexivity. Qed.
Lemma toks_lay l k : Forall (fun nt => tok_ok (snd nt)) l -> toks (lay l ++ blanks (S k)) = map snd l.
Proof.
  intros F. induction F as [|[n t] l T F IH].
  - cbn [lay map List.concat app]. unfold blanks. rewrite <- (app_nil_r (repeat 32 (S k))). change (toks (blanks (S k) ++ []) = []). rewrite toks_blanks. reflexivity.
  - cbn [lay map List.concat fst snd] in *. fold (lay l) in *. rewrite <- !app_assoc, toks_blanks.
    assert (E : exists s, lay l ++ blanks (S k) = 32 :: s) by (destruct l as [|[n2 t2] l2]; [exists (blanks k); reflexivity|eexists; reflexivity]).
    destruct E as (s & E). rewrite E in *. rewrite toks_tok by exact T. rewrite toks_32 in IH. rewrite IH. reflexivity.
Qed.
Lemma tokens_lay l k : l <> [] -> Forall (fun nt => tok_ok (snd nt)) l -> tokens (lay l ++ blanks (S k)) = map snd l.
Proof.
  intros NE F. destruct l as [|[n t] l]; [congruence|]. clear NE.
  assert (E : exists a, lay ((n, t) :: l) = blanks (S n) ++ a /\ edge (hd 0 a) /\ edge (last a 0) /\ toks (a ++ blanks (S k)) = toks (lay ((n, t) :: l) ++ blanks (S k))).
  { exists (t ++ lay l). split; [cbn [lay map List.concat fst snd]; rewrite <- app_assoc; reflexivity|]. inversion F as [|x y T F2]; subst. cbn [snd] in T.
    split; [destruct (tok_hd t T) as (c & r & -> & ? & _); exact H|]. split.
    - clear F. revert n t T. induction F2 as [|[n2 t2] l T2 F2 IH]; intros n t T; cbn [snd] in *.
      + cbn [lay map List.concat]. rewrite app_nil_r. destruct (tok_last t T) as (c & r & -> & ? & _). rewrite last_last. exact H.
      + cbn [lay map List.concat fst snd]. fold (lay l). specialize (IH n2 t2 T2).
        assert (N : t2 ++ lay l <> []) by (destruct T2; destruct t2; [congruence|discriminate]).
        destruct (exists_last N) as (r & c & E). rewrite <- app_assoc, E in *. rewrite last_last in IH. rewrite !app_assoc, last_last. exact IH.
    - cbn [lay map List.concat fst snd]. fold (lay l). rewrite <- !app_assoc, toks_blanks. reflexivity. }
  destruct E as (a & E & H1 & H2 & H3). unfold tokens. rewrite E, <- app_assoc, trim_core by (right; auto).
  change (toks a = map snd ((n, t) :: l)). rewrite <- (toks_lay ((n, t) :: l) k F), <- H3.
  (* trailing blanks do not matter *)
  assert (G : forall a, toks (a ++ blanks 1) = toks a).
  { clear. intros a. unfold toks. induction a as [|c a IH]; [reflexivity|]. cbn [app]. destruct (Z.eq_dec c 32) as [->|N].
    - rewrite !split32. cbn [filter str_eqb negb]. exact IH.
    - cbn [split]. destruct (Z.eqb_spec c 32); [congruence|].
      assert (S : split 32 (a ++ blanks 1) = split 32 a ++ [[]]).
      { clear. induction a as [|c a IH]; [reflexivity|]. cbn [app split]. rewrite IH. destruct (c =? 32); [reflexivity|].
        pose proof (split_nonempty 32 a). destruct (split 32 a); [congruence|reflexivity]. }
      rewrite S. pose proof (split_nonempty 32 a). destruct (split 32 a) as [|h r]; [congruence|]. cbn [app filter]. destruct (str_eqb (c :: h) []); rewrite filter_app; cbn [filter str_eqb negb]; rewrite app_nil_r; reflexivity. }
  assert (G2 : forall k a, toks (a ++ blanks k) = toks a).
  { clear - G. induction k as [|k IH]; intros a; [cbn [blanks repeat]; rewrite app_nil_r; reflexivity|].
    replace (a ++ blanks (S k)) with ((a ++ blanks k) ++ blanks 1); [rewrite G; apply IH|]. unfold blanks. rewrite <- app_assoc, <- repeat_app, Nat.add_1_r. reflexivity. }
  rewrite G2. reflexivity.
Qed.
Lemma lay_in l k c : Forall (fun nt => tok_ok (snd nt)) l -> In c (lay l ++ blanks k) -> c = 32 \/ (edge c /\ c <> 35).
Proof.
  intros F I. apply in_app_or in I as [I|I]; [|left; eapply blanks_in; eauto]. induction F as [|[n t] l T F IH]; [destruct I|].
  cbn [lay map List.concat fst snd] in I. fold (lay l) in I. apply in_app_or in I as [I|I]; [|auto]. apply in_app_or in I as [I|I]; [left; eapply blanks_in; eauto|].
  right. destruct T as [_ T]. rewrite Forall_forall in T. auto.
Qed.
Lemma lay_no l k c : Forall (fun nt => tok_ok (snd nt)) l -> c = 35 \/ c < 32 -> ~ In c (lay l ++ blanks k).
Proof. intros F H I. apply (lay_in l k c F) in I. unfold edge in I. lia. Qed.

(* ---- comments ---- *)
Definition text_ok (c : str) : Prop := ~ In 10 c /\ (c = [] \/ (edge (hd 0 c) /\ edge (last c 0))).
Lemma trim_com c : text_ok c -> trim (32 :: c) = c.
Proof. intros [_ H]. pose proof (trim_core 1 0 c H) as T. cbn [blanks repeat app] in T. rewrite app_nil_r in T. exact T. Qed.
Lemma dropCR_last s c : c <> 13 -> dropCR (s ++ [c]) = s ++ [c].
Proof. intros N. unfold dropCR. rewrite rev_app_distr. cbn [rev app]. destruct (Z.eqb_spec c 13); [congruence|reflexivity]. Qed.
(* a line with a comment *)
Lemma dropCR_com a c : text_ok c -> dropCR (a ++ 35 :: 32 :: c) = a ++ 35 :: 32 :: c.
Proof.
  intros [_ H]. destruct H as [->|[_ H]].
  - change (a ++ [35; 32]) with (a ++ [35] ++ [32]). rewrite app_assoc. apply dropCR_last. lia.
  - destruct c as [|x c]; [change (a ++ [35; 32]) with (a ++ [35] ++ [32]); rewrite app_assoc; apply dropCR_last; lia|].
    destruct (exists_last (l := x :: c) ltac:(discriminate)) as (r & d & E). rewrite E in *. rewrite last_last in H.
    replace (a ++ 35 :: 32 :: r ++ [d]) with ((a ++ 35 :: 32 :: r) ++ [d]) by (rewrite <- app_assoc; reflexivity). apply dropCR_last. unfold edge in H. lia.
Qed.

(* ---- scan ---- *)
Definition short (l : str) : Prop := zlen l < 65536.
Lemma scan_line s l rest s' : ~ In 10 l -> Forall short (split 10 (l ++ 10 :: rest)) -> step s (dropCR l) = Ok (Some s') ->
  scan s (split 10 (l ++ 10 :: rest)) = scan s' (split 10 rest) /\ Forall short (split 10 rest).
Proof.
  intros N F E. rewrite split_cons in * by exact N. inversion F as [|x y H1 H2]; subst. unfold short in H1. cbn [scan]. destruct (Z.leb_spec 65536 (zlen l)); [lia|]. rewrite E. auto.
Qed.
Lemma step_hash s l : step s (35 :: l) = Ok (Some s).
Proof. reflexivity. Qed.

(* ---- the line of an item ---- *)
Definition in64 (n : Z) : Prop := - 2 ^ 63 <= n < 2 ^ 63.
Lemma atois_itoa l : Forall in64 l -> atois (map itoa l) = Some l.
Proof. intros F. induction F as [|n l H F IH]; [reflexivity|]. cbn [map atois]. rewrite atoi_itoa, IH by exact H. reflexivity. Qed.
Definition valof (name t : str) : option value :=
  if oneof name ["MODSEL"]%string then match atoi t with Some n => Some (VInt n) | None => None end
  else if oneof name ["SPINFO"; "DCINFO"]%string then Some (VStr t) else anyvalue t.
(* indices with the blanks before them *)
Definition ilay (l : list (nat * Z)) : list (nat * str) := map (fun p => (fst p, itoa (snd p))) l.
Lemma ilay_snd l : map snd (ilay l) = map itoa (map snd l).
Proof. unfold ilay. rewrite !map_map. reflexivity. Qed.
Lemma ilay_ok l : Forall (fun nt => tok_ok (snd nt)) (ilay l).
Proof. apply Forall_forall. intros x I. apply in_map_iff in I as (p & <- & _). apply itoa_tok. Qed.
Lemma entry_line name l m t k c : Forall in64 (map snd l) -> tok_ok t -> text_ok c ->
  addBlockEntry name (lay (ilay l ++ [(m, t)]) ++ blanks (S k) ++ 35 :: 32 :: c) =
  match valof name t with Some v => Ok (Some (mkitem (newIndex (map snd l)) (mkval v c))) | None => Ok None end.
Proof.
  intros F T C. assert (FF : Forall (fun nt => tok_ok (snd nt)) (ilay l ++ [(m, t)])) by (apply Forall_app; split; [apply ilay_ok|constructor; auto]).
  unfold addBlockEntry. rewrite app_assoc, cut_at by (apply lay_no; auto). rewrite tokens_lay by (auto; destruct (ilay l); discriminate).
  rewrite map_app, ilay_snd. cbn [map snd]. rewrite trim_com by exact C.
  assert (E : exists h r, map itoa (map snd l) ++ [t] = h :: r) by (destruct (map itoa (map snd l)); eexists _, _; reflexivity).
  destruct E as (h & r & E). rewrite E. rewrite <- E. rewrite removelast_last, last_last, atois_itoa by exact F. reflexivity.
Qed.

(* ---- indices ---- *)
Lemma itoa_no35 n : ~ In 35 (itoa n).
Proof. intros I. apply itoa_chars in I. lia. Qed.
Lemma Index_newIndex args : args <> [] -> Forall in64 args -> Index (newIndex args) = Ok args.
Proof.
  intros NE F. unfold Index, newIndex. cbn [coords]. rewrite split_join.
  - clear NE. induction F as [|n l H F IH]; [reflexivity|]. cbn [map indexArgs]. rewrite IH. rewrite atoi_itoa by exact H.
    pose proof (proj1 (itoa_tok n)) as N. destruct (itoa n); [congruence|reflexivity].
  - destruct args; [congruence|discriminate].
  - apply Forall_forall. intros s I. apply in_map_iff in I as (n & <- & _). apply itoa_no35.
Qed.
Lemma Index_newIndex_nil : Index (newIndex []) = Ok [0].
Proof. reflexivity. Qed.
Lemma itoa_inj a b : in64 a -> in64 b -> itoa a = itoa b -> a = b.
Proof. intros A B E. apply (f_equal atoi) in E. rewrite !atoi_itoa in E by assumption. congruence. Qed.
Lemma newIndex_inj a b : Forall in64 a -> Forall in64 b -> newIndex a = newIndex b -> a = b.
Proof.
  intros A B E. unfold newIndex in E. injection E as L J. 
  destruct a as [|x a].
  - destruct b; [reflexivity|]. rewrite zlen_cons, zlen_nil in L. pose proof (zlen_nonneg b). lia.
  - destruct b as [|y b]; [rewrite zlen_cons, zlen_nil in L; pose proof (zlen_nonneg a); lia|].
    apply (f_equal (split 35)) in J. rewrite !split_join in J.
    + revert A B J. generalize (x :: a) (y :: b). clear. intros l. induction l as [|n l IH]; intros m A B E; destruct m as [|k m]; try discriminate; [reflexivity|].
      cbn [map] in E. injection E as E1 E2. inversion A; inversion B; subst. f_equal; [apply itoa_inj; auto|apply IH; auto].
    + discriminate.
    + apply Forall_forall. intros s I. apply in_map_iff in I as (n & <- & _). apply itoa_no35.
    + discriminate.
    + apply Forall_forall. intros s I. apply in_map_iff in I as (n & <- & _). apply itoa_no35.
Qed.
Lemma idx_eqb_spec a b : reflect (a = b) (idx_eqb a b).
Proof.
  unfold idx_eqb. destruct a as [r c], b as [r' c']. cbn [rank coords]. destruct (Z.eqb_spec r r'); cbn [andb].
  - destruct (str_eqb_spec c c'); constructor; congruence.
  - constructor. congruence.
Qed.

(* ---- the data of a block that can be written ---- *)
Definition kind_ok (k : fmtk) (args : list Z) (v : value) : Prop :=
  match k with
  | KMass | KFive => zlen args = 1 /\ exists x, v = VFloat x /\ mid x
  | KMix => zlen args = 2 /\ exists x, v = VFloat x /\ mid x
  | KAlpha => args = [] /\ exists x, v = VFloat x /\ mid x
  | KInfo => zlen args = 1 /\ exists s, v = VStr s /\ tok_ok s
  | KSel => zlen args = 1 /\ exists n, v = VInt n /\ in64 n
  | KOther => args <> [] /\ exists x, v = VFloat x
  end.
Definition item_ok (name : str) (it : item) : Prop :=
  exists args v c, it = mkitem (newIndex args) (mkval v c) /\ Forall in64 args /\ text_ok c /\ kind_ok (blockFormat name) args v.
(* what the verb %v has to satisfy: the text is that of the same number *)
Definition verb_ok (fv : f64 -> str) : Prop := forall x, parse_float (fv x) = Some x /\ tok_ok (fv x).
(* the number that is read *)
Definition rd (x : f64) : f64 := match parse_float (fmt_E 9 x) with Some y => y | None => x end.
Lemma rd_ok x : mid x -> parse_float (fmt_E 9 x) = Some (rd x) /\ fmt_E 9 (rd x) = fmt_E 9 x /\ near 9 x (rd x).
Proof. intros M. destruct (fmt_E_stable 9 x ltac:(lia) M) as (y & A & B & C). unfold rd. rewrite A. auto. Qed.
Definition rdVal (k : fmtk) (v : value) : value := match k, v with KOther, _ => v | _, VFloat x => VFloat (rd x) | _, _ => v end.
Definition rdItem (name : str) (it : item) : item := mkitem (i_idx it) (mkval (rdVal (blockFormat name) (v_v (i_val it))) (v_c (i_val it))).

Lemma oneof_sel name : oneof name ["MODSEL"]%string = true -> blockFormat name = KSel.
Proof. unfold oneof. cbn [existsb]. rewrite orb_false_r. destruct (str_eqb_spec (bs "MODSEL") name) as [<-|]; [reflexivity|discriminate]. Qed.
Lemma oneof_info name : oneof name ["SPINFO"; "DCINFO"]%string = true -> blockFormat name = KInfo.
Proof.
  unfold oneof. cbn [existsb]. rewrite orb_false_r. destruct (str_eqb_spec (bs "SPINFO") name) as [<-|]; [reflexivity|].
  destruct (str_eqb_spec (bs "DCINFO") name) as [<-|]; [reflexivity|discriminate].
Qed.
Lemma format_cases name : match blockFormat name with
  | KSel => oneof name ["MODSEL"]%string = true
  | KInfo => oneof name ["MODSEL"]%string = false /\ oneof name ["SPINFO"; "DCINFO"]%string = true
  | _ => oneof name ["MODSEL"]%string = false /\ oneof name ["SPINFO"; "DCINFO"]%string = false
  end.
Proof.
  destruct (oneof name ["MODSEL"]%string) eqn:E1; [rewrite (oneof_sel _ E1); reflexivity|].
  destruct (oneof name ["SPINFO"; "DCINFO"]%string) eqn:E2; [rewrite (oneof_info _ E2); auto|].
  unfold blockFormat. rewrite E1, E2. repeat (destruct (oneof name _); auto).
Qed.
Lemma lay1 n w t r : blanks (S n) ++ padl w t ++ r = lay [((n + (w - List.length t))%nat, t)] ++ r.
Proof. unfold padl. rewrite <- app_assoc, blanks_app. cbn [lay map List.concat fst snd]. rewrite app_nil_r, <- app_assoc. reflexivity. Qed.
Lemma layr l r s : lay (l ++ r) ++ s = lay l ++ lay r ++ s.
Proof. rewrite lay_app, app_assoc. reflexivity. Qed.

Lemma zlen1 (l : list Z) : zlen l = 1 -> exists x, l = [x].
Proof. destruct l as [|x [|y l]]; rewrite ?zlen_cons, ?zlen_nil; intros H; [lia|eauto|pose proof (zlen_nonneg l); lia]. Qed.
Lemma zlen2 (l : list Z) : zlen l = 2 -> exists x y, l = [x; y].
Proof. destruct l as [|x [|y [|z l]]]; rewrite ?zlen_cons, ?zlen_nil; intros H; try lia; [eauto|pose proof (zlen_nonneg l); lia]. Qed.

(* the line of an item is a list of words, and the words are read as the item *)
Lemma item_line fv name it : verb_ok fv -> item_ok name it -> exists l m t k,
  encItem fv name it = Some (lay (ilay l ++ [(m, t)]) ++ blanks (S k) ++ 35 :: 32 :: v_c (i_val it)) /\
  Forall in64 (map snd l) /\ tok_ok t /\ text_ok (v_c (i_val it)) /\ i_idx it = newIndex (map snd l) /\ valof name t = Some (rdVal (blockFormat name) (v_v (i_val it))) /\
  encItem fv name (rdItem name it) = encItem fv name it.
Proof.
  intros V (args & v & c & -> & F & C & K). unfold encItem, rdItem. cbn [i_idx i_val v_v v_c].
  pose proof (format_cases name) as FC. unfold valof. destruct (blockFormat name) eqn:EF; cbn [kind_ok] in K.
  - destruct K as [L (x & -> & M)]. destruct (zlen1 _ L) as (i & ->). destruct FC as [-> ->]. destruct (rd_ok x M) as (R1 & R2 & _). cbn [rdVal].
    rewrite Index_newIndex by (auto; discriminate). unfold fE, fD. rewrite R2.
    exists [((0 + (9 - List.length (itoa i)))%nat, i)], (2 + (16 - List.length (fmt_E 9 x)))%nat, (fmt_E 9 x), 2%nat. cbn [map snd]. repeat split; auto; try (apply fmtE_tok); try apply C.
    + f_equal. cbn [ilay map fst snd]. rewrite layr. rewrite <- lay1, <- lay1. reflexivity.
    + unfold anyvalue. rewrite R1. reflexivity.
  - destruct K as [L (x & -> & M)]. destruct (zlen2 _ L) as (i & j & ->). destruct FC as [-> ->]. destruct (rd_ok x M) as (R1 & R2 & _). cbn [rdVal].
    rewrite Index_newIndex by (auto; discriminate). unfold fE, fD. rewrite R2.
    exists [((0 + (2 - List.length (itoa i)))%nat, i); ((0 + (2 - List.length (itoa j)))%nat, j)], (2 + (16 - List.length (fmt_E 9 x)))%nat, (fmt_E 9 x), 2%nat. cbn [map snd]. repeat split; auto; try (apply fmtE_tok); try apply C.
    + f_equal. cbn [ilay map fst snd]. rewrite layr. change (lay [?a; ?b]) with (lay ([a] ++ [b])). 
      rewrite layr. rewrite <- !lay1. reflexivity.
    + unfold anyvalue. rewrite R1. reflexivity.
  - destruct K as [-> (x & -> & M)]. destruct FC as [-> ->]. destruct (rd_ok x M) as (R1 & R2 & _). cbn [rdVal].
    rewrite Index_newIndex_nil. unfold fE. rewrite R2.
    exists [], (8 + (16 - List.length (fmt_E 9 x)))%nat, (fmt_E 9 x), 2%nat. cbn [map snd]. repeat split; auto; try (apply fmtE_tok); try apply C.
    + f_equal. cbn [ilay map app]. rewrite <- lay1. reflexivity.
    + unfold anyvalue. rewrite R1. reflexivity.
  - destruct K as [L (x & -> & M)]. destruct (zlen1 _ L) as (i & ->). destruct FC as [-> ->]. destruct (rd_ok x M) as (R1 & R2 & _). cbn [rdVal].
    rewrite Index_newIndex by (auto; discriminate). unfold fE, fD. rewrite R2.
    exists [((0 + (5 - List.length (itoa i)))%nat, i)], (2 + (16 - List.length (fmt_E 9 x)))%nat, (fmt_E 9 x), 2%nat. cbn [map snd]. repeat split; auto; try (apply fmtE_tok); try apply C.
    + f_equal. cbn [ilay map fst snd]. rewrite layr. rewrite <- lay1, <- lay1. reflexivity.
    + unfold anyvalue. rewrite R1. reflexivity.
  - destruct K as [L (s & -> & M)]. destruct (zlen1 _ L) as (i & ->). destruct FC as [-> ->]. cbn [rdVal].
    rewrite Index_newIndex by (auto; discriminate). unfold fD.
    exists [((0 + (5 - List.length (itoa i)))%nat, i)], 2%nat, s, ((8 - List.length s) + 3)%nat. cbn [map snd]. repeat split; auto; try apply M; try apply C.
    f_equal. cbn [ilay map fst snd]. rewrite layr, <- lay1. cbn [lay map List.concat fst snd]. rewrite app_nil_r. unfold padr. rewrite <- !app_assoc. 
    replace (S (8 - List.length s + 3)) with ((8 - List.length s) + 4)%nat by lia. rewrite <- (blanks_app _ 4). reflexivity.
  - destruct K as [L (n & -> & M)]. destruct (zlen1 _ L) as (i & ->). rewrite FC. cbn [rdVal].
    rewrite Index_newIndex by (auto; discriminate). unfold fD.
    exists [((0 + (5 - List.length (itoa i)))%nat, i)], (0 + (5 - List.length (itoa n)))%nat, (itoa n), 1%nat. cbn [map snd]. repeat split; auto; try apply itoa_tok; try apply C.
    + f_equal. cbn [ilay map fst snd]. rewrite layr. rewrite <- lay1, <- lay1. reflexivity.
    + rewrite atoi_itoa by exact M. reflexivity.
  - destruct K as [NE (x & ->)]. destruct FC as [-> ->]. cbn [rdVal]. rewrite Index_newIndex by auto. cbn [anytext]. destruct (V x) as [V1 V2].
    exists (map (fun i => (0%nat, i)) args), 0%nat, (fv x), 0%nat. rewrite map_map. cbn [snd]. rewrite map_id. repeat split; auto; try apply V2; try apply C.
    + f_equal. rewrite lay_app, <- !app_assoc. f_equal.
      * unfold lay, ilay. rewrite !map_map. reflexivity.
      * unfold lay. cbn [map List.concat fst snd]. rewrite app_nil_r, <- !app_assoc. reflexivity.
    + unfold anyvalue. rewrite V1. reflexivity.
Qed.

(* ---- numbers in the header lines, which are made upper case ---- *)
Definition infinite (x : f64) : Prop := exists s, x = B754_infinity s.
Lemma numc_digit c : 48 <= c <= 57 -> is_numc c = true.
Proof. intros H. unfold is_numc, is_digit. destruct (Z.leb_spec 48 c), (Z.leb_spec c 57); try lia; reflexivity. Qed.
Lemma exptext_numc X : Forall (fun c => is_numc (upE c) = true) (exptext X).
Proof.
  destruct (exptext_parse X) as (d & r & -> & H & _ & _ & D). constructor; [destruct H as [-> | ->]; reflexivity|].
  apply Forall_forall. intros c I. apply D in I. unfold upE. destruct (Z.eqb_spec c 101); [lia|]. apply numc_digit. exact I.
Qed.
Lemma fmtE_numc x : is_nan x = false -> ~ infinite x -> Forall (fun c => is_numc c = true) (fmt_E 9 x).
Proof.
  intros HN HI. unfold fmt_E. apply Forall_map.
  assert (S : forall s, Forall (fun c => is_numc (upE c) = true) (signtext s)) by (intros [|]; repeat constructor).
  assert (DD : forall l, (forall c, In c l -> 48 <= c <= 57) -> Forall (fun c => is_numc (upE c) = true) l).
  { intros l H. apply Forall_forall. intros c I. apply H in I. unfold upE. destruct (Z.eqb_spec c 101); [lia|]. apply numc_digit. exact I. }
  destruct x as [s|s| |s m e H]; [| |discriminate|].
  - unfold fmt_e. apply Forall_app; split; [apply S|]. apply Forall_app; split; [|constructor; [reflexivity|apply exptext_numc]].
    cbn [Z.eqb Pos.eqb]. repeat constructor. 
  - exfalso. apply HI. exists s. reflexivity.
  - unfold fmt_e. apply Forall_app; split; [apply S|]. pose proof (bounded_facts _ _ H) as (He & Hm & _).
    pose proof (todec_spec 9 (Zpos m) e ltac:(lia) ltac:(lia) He) as T. destruct (todec 9 (Z.pos m) e) as [N X]. cbv zeta in T. destruct T as (RN & _).
    assert (G : 0 <= N) by (change (10 ^ (9 - 1)) with 100000000 in RN; lia). unfold scitext.
    pose proof (udec_digits N) as DG. destruct (udec N) as [|d ds]; [constructor|].
    assert (F : Forall (fun c => is_numc (upE c) = true) (d :: ds)) by (apply DD; intros c I; apply DG; auto). inversion F; subst.
    destruct ds as [|d2 ds]; (constructor; [assumption|]).
    + constructor; [reflexivity|apply exptext_numc].
    + constructor; [reflexivity|]. apply Forall_app; split; [assumption|]. constructor; [reflexivity|apply exptext_numc].
Qed.
Lemma upper_numc c : is_numc c = true -> upper c = c.
Proof.
  unfold upper. destruct (Z.leb_spec 97 c); [|reflexivity]. destruct (Z.leb_spec c 122); [|reflexivity]. cbn [andb]. unfold is_numc, is_digit.
  destruct (Z.leb_spec 48 c), (Z.leb_spec c 57), (Z.eqb_spec c 46), (Z.eqb_spec c 69), (Z.eqb_spec c 43), (Z.eqb_spec c 45); try lia; discriminate.
Qed.
Lemma map_upper_id s : Forall (fun c => is_numc c = true) s -> map upper s = s.
Proof. intros F. induction F as [|c s H F IH]; [reflexivity|]. cbn [map]. rewrite upper_numc, IH by exact H. reflexivity. Qed.
Lemma upper_parse x : parse_float (map upper (fmt_E 9 x)) = parse_float (fmt_E 9 x).
Proof.
  destruct x as [s|s| |s m e H]; [| destruct s; reflexivity | reflexivity |]; (rewrite map_upper_id; [reflexivity|apply fmtE_numc; [reflexivity|intros [? ?]; discriminate]]).
Qed.
Lemma upper_tok t : tok_ok t -> tok_ok (map upper t).
Proof.
  intros [N F]. split; [destruct t; [congruence|discriminate]|]. apply Forall_map. eapply Forall_impl; [|exact F]. intros c [H1 H2]. unfold edge, upper in *.
  destruct (Z.leb_spec 97 c), (Z.leb_spec c 122); cbn [andb]; lia.
Qed.
Lemma upper_blanks n : map upper (blanks n) = blanks n.
Proof. induction n as [|n IH]; [reflexivity|]. cbn [blanks repeat map]. fold (blanks n). rewrite IH. reflexivity. Qed.

Definition is_name (c : Z) : Prop := 48 <= c <= 57 \/ 65 <= c <= 90 \/ c = 95.
Definition name_ok (n : str) : Prop := n <> [] /\ Forall is_name n.
Lemma name_tok n : name_ok n -> tok_ok n.
Proof. intros [N F]. split; [exact N|]. eapply Forall_impl; [|exact F]. unfold is_name, edge. intros c H. lia. Qed.
Lemma name_upper n : Forall is_name n -> map upper n = n.
Proof.
  intros F. induction F as [|c s H F IH]; [reflexivity|]. cbn [map]. rewrite IH. f_equal. unfold upper, is_name in *. destruct (Z.leb_spec 97 c), (Z.leb_spec c 122); cbn [andb]; lia.
Qed.
Lemma name_word c : is_name c -> is_word c = true.
Proof.
  unfold is_name, is_word, is_digit. intros H. destruct (Z.leb_spec 48 c), (Z.leb_spec c 57), (Z.leb_spec 65 c), (Z.leb_spec c 90), (Z.leb_spec 97 c), (Z.leb_spec c 122), (Z.eqb_spec c 95); try lia; reflexivity.
Qed.
Lemma takew_app p a b : Forall (fun c => p c = true) a -> takew p (a ++ b) = a ++ takew p b.
Proof. intros F. induction F as [|c s H F IH]; [reflexivity|]. cbn [app takew]. rewrite H, IH. reflexivity. Qed.
Lemma dropw_app p a b : Forall (fun c => p c = true) a -> dropw p (a ++ b) = dropw p b.
Proof. intros F. induction F as [|c s H F IH]; [reflexivity|]. cbn [app dropw]. rewrite H, IH. reflexivity. Qed.
Lemma find_at {A} (m : str -> option A) s a : m s = Some a -> find m s = Some a.
Proof. intros E. destruct s; cbn [find]; rewrite E; reflexivity. Qed.
Lemma ws_tok t r : tok_ok t -> dropw is_ws (t ++ r) = t ++ r.
Proof. intros T. destruct (tok_hd t T) as (c & s & -> & H & _). cbn [app]. apply dropw_stop. apply edge_nows. exact H. Qed.

(* the second part of the header of a block *)
Definition qpart (q : f64) : str := if is_nanb q then [] else bs " Q=" ++ fE q.
Lemma qpart_nan q : is_nanb q = true -> q = B754_nan.
Proof. destruct q; try reflexivity; discriminate. Qed.
Lemma blockAt_head name q : name_ok name -> blockAt (bs "BLOCK " ++ name ++ map upper (qpart q)) =
  Some (name, if is_nanb q then None else Some (blanks (16 - List.length (fmt_E 9 q)) ++ map upper (fmt_E 9 q))).
Proof.
  intros [NE F]. unfold blockAt. change (bs "BLOCK " ++ name ++ map upper (qpart q)) with (bs "BLOCK" ++ 32 :: name ++ map upper (qpart q)).
  change (stripPrefix (bs "BLOCK") (bs "BLOCK" ++ 32 :: name ++ map upper (qpart q))) with (Some (32 :: name ++ map upper (qpart q))).
  cbn [blanks1]. change (is_ws 32) with true. cbv iota. rewrite (ws_tok name) by (apply name_tok; split; auto).
  assert (FW : Forall (fun c => is_word c = true) name) by (eapply Forall_impl; [|exact F]; intros c; apply name_word).
  rewrite takew_app, dropw_app by exact FW.
  assert (W : takew is_word (map upper (qpart q)) = [] /\ dropw is_word (map upper (qpart q)) = map upper (qpart q)) by (unfold qpart; destruct (is_nanb q); split; reflexivity).
  destruct W as [W1 W2]. rewrite W1, W2, app_nil_r. destruct name as [|c0 name]; [congruence|]. f_equal. f_equal.
  unfold qpart. destruct (is_nanb q); [reflexivity|]. unfold fE, padl. rewrite map_app, map_app, upper_blanks.
  set (r := blanks (16 - List.length (fmt_E 9 q)) ++ map upper (fmt_E 9 q)).
  assert (RN : str_eqb r [] = false). { destruct (str_eqb_spec r []) as [E|]; [|reflexivity]. exfalso. unfold r in E. apply app_eq_nil in E as [_ E]. destruct (upper_tok _ (fmtE_tok q)). congruence. }
  change (map upper (bs " Q=") ++ r) with (32 :: 81 :: 61 :: r). unfold qGroup. cbn [blanks1]. change (is_ws 32) with true. cbv iota. 
  change (dropw is_ws (81 :: 61 :: r)) with (81 :: 61 :: r). cbv iota beta. change (81 =? 81) with true. cbv iota. change (dropw is_ws (61 :: r)) with (61 :: r). cbv iota beta. rewrite RN. reflexivity.
Qed.
Lemma head_core name q : name_ok name -> let core := bs "BLOCK " ++ name ++ qpart q in
  (forall c, In c core -> c = 32 \/ (edge c /\ c <> 35)) /\ edge (hd 0 core) /\ edge (last (map upper core) 0) /\ map upper core = bs "BLOCK " ++ name ++ map upper (qpart q) /\ exists r c, core = r ++ [c] /\ c <> 13.
Proof.
  intros N core. pose proof (name_tok name N) as T. destruct N as [NE F].
  assert (A : forall c, In c core -> c = 32 \/ (edge c /\ c <> 35)).
  { intros c I. unfold core in I. apply in_app_or in I as [I|I].
    - cbn in I. unfold edge. intuition lia.
    - apply in_app_or in I as [I|I]; [right; destruct T as [_ T]; rewrite Forall_forall in T; auto|].
      unfold qpart in I. destruct (is_nanb q); [destruct I|]. apply in_app_or in I as [I|I]; [cbn in I; unfold edge; intuition lia|].
      unfold fE, padl in I. apply in_app_or in I as [I|I]; [left; eapply blanks_in; eauto|right]. destruct (fmtE_tok q) as [_ TT]. rewrite Forall_forall in TT. auto. }
  assert (U : map upper core = bs "BLOCK " ++ name ++ map upper (qpart q)) by (unfold core; rewrite !map_app, (name_upper name F); reflexivity).
  assert (L : exists r c, core = r ++ [c] /\ edge c).
  { unfold core, qpart. destruct (is_nanb q).
    - rewrite app_nil_r. destruct (tok_last name T) as (c & r & -> & H & _). exists (bs "BLOCK " ++ r), c. rewrite <- app_assoc. auto.
    - destruct (tok_last _ (fmtE_tok q)) as (c & r & E & H & _). unfold fE, padl. rewrite E. eexists _, c. split; [|exact H]. rewrite !app_assoc. reflexivity. }
  split; [exact A|]. split; [unfold core; cbn; unfold edge; lia|]. destruct L as (r & c & E & H).
  split; [|split; [exact U|exists r, c; split; [exact E|unfold edge in H; lia]]].
  rewrite E, map_app. cbn [map]. rewrite last_last. unfold edge, upper in *. destruct (Z.leb_spec 97 c), (Z.leb_spec c 122); cbn [andb]; lia.
Qed.
Lemma rd_nan : rd B754_nan = B754_nan.
Proof. reflexivity. Qed.
Lemma step_head s b : name_ok (b_name b) -> text_ok (b_com b) -> mid (b_q b) ->
  ~ In 10 (blockHead b) /\ step s (dropCR (blockHead b)) = Ok (Some (mkst MBlock (addBlock (mkblock (b_name b) (b_com b) (rd (b_q b)) []) (t_data s)))).
Proof.
  intros N C M. destruct b as [name com q data]. cbn [b_name b_com b_q] in *. unfold blockHead. cbn [b_name b_com b_q]. change (if is_nanb q then [] else bs " Q=" ++ fE q) with (qpart q).
  destruct (head_core name q N) as (A & H1 & H2 & U & r & c & EC & NC). set (core := bs "BLOCK " ++ name ++ qpart q) in *.
  assert (NO : forall k, k = 35 \/ k < 32 -> ~ In k core) by (intros k K I; apply A in I; unfold edge in I; lia).
  assert (EQ1 : is_nanb q = true -> rd q = nan64) by (intros EN; rewrite (qpart_nan q EN); reflexivity).
  assert (EQ2 : parse_float (trim (blanks (16 - List.length (fmt_E 9 q)) ++ map upper (fmt_E 9 q))) = Some (rd q)).
  { pose proof (trim_core (16 - List.length (fmt_E 9 q)) 0 (map upper (fmt_E 9 q))) as TC. cbn [blanks repeat] in TC. rewrite app_nil_r in TC. rewrite TC.
    - rewrite upper_parse. apply rd_ok. exact M.
    - right. pose proof (upper_tok _ (fmtE_tok q)) as T. split; [destruct (tok_hd _ T) as (x & y & -> & ? & _); auto|destruct (tok_last _ T) as (x & y & -> & ? & _); rewrite last_last; auto]. }
  destruct com as [|c0 com].
  - replace (bs "BLOCK " ++ name ++ qpart q ++ []) with core by (rewrite app_nil_r; reflexivity). split; [apply NO; lia|].
    rewrite EC, dropCR_last by exact NC. rewrite <- EC. unfold step. unfold core at 1. change (bs "BLOCK " ++ name ++ qpart q) with (66 :: bs "LOCK " ++ name ++ qpart q). cbv iota beta.
    change (66 :: bs "LOCK " ++ name ++ qpart q) with core. change (66 =? 35) with false. cbv iota. rewrite cut_none by (apply NO; auto). cbv beta iota zeta. change (upper 66 =? 66) with true. cbv iota.
    rewrite U. rewrite (find_at blockAt _ _ (blockAt_head name q N)). clear - EQ1 EQ2. destruct (is_nanb q); [rewrite (EQ1 eq_refl)|rewrite EQ2]; reflexivity.
  - change (match c0 :: com with [] => [] | c1 => bs "  # " ++ c1 end) with (bs "  # " ++ c0 :: com).
    replace (bs "BLOCK " ++ name ++ qpart q ++ bs "  # " ++ c0 :: com) with ((core ++ blanks 2) ++ 35 :: 32 :: c0 :: com) by (unfold core; rewrite <- !app_assoc; reflexivity).
    assert (NO2 : forall k, k = 35 \/ k < 32 -> ~ In k (core ++ blanks 2)) by (intros k K I; apply in_app_or in I as [I|I]; [exact (NO k K I)|apply blanks_in in I; lia]).
    split.
    { intros I. apply in_app_or in I as [I|[I|[I|I]]]; try discriminate; [exact (NO2 10 ltac:(lia) I)|]. destruct C. auto. }
    rewrite dropCR_com by exact C. unfold step. 
    assert (E0 : exists l, (core ++ blanks 2) ++ 35 :: 32 :: c0 :: com = 66 :: l) by (eexists; reflexivity). destruct E0 as (l & E0). rewrite E0. rewrite <- E0. change (66 =? 35) with false. cbv iota.
    rewrite cut_at by (apply NO2; auto). cbv beta iota zeta. change (upper 66 =? 66) with true. cbv iota.
    rewrite map_app, upper_blanks. pose proof (trim_core 0 2 (map upper core)) as TC. cbn [blanks repeat app] in TC. change (blanks 2) with [32; 32]. rewrite TC.
    + rewrite U. rewrite (find_at blockAt _ _ (blockAt_head name q N)). rewrite trim_com by exact C. clear - EQ1 EQ2. destruct (is_nanb q); [rewrite (EQ1 eq_refl)|rewrite EQ2]; reflexivity.
    + right. split; [rewrite U; unfold edge; cbn; lia|exact H2].
Qed.

(* ---- particles ---- *)
Definition decay_ok (d : decay) : Prop := mid (d_br d) /\ Forall in64 (d_ids d) /\ zlen (d_ids d) < 2 ^ 63 /\ text_ok (d_com d).
Definition part_ok (p : particle) : Prop := in64 (p_id p) /\ mid (p_width p) /\ ~ infinite (p_width p) /\ text_ok (p_com p) /\ Forall decay_ok (p_decays p).
Definition rdDecay (d : decay) : decay := mkdecay (rd (d_br d)) (d_ids d) (d_com d).
Definition rdPart (p : particle) : particle := mkpart (p_id p) (rd (p_width p)) nan64 (p_com p) (map rdDecay (p_decays p)).

Lemma readIDs_itoa l : Forall in64 l -> readIDs (map itoa l) (zlen l) = Ok (Some l).
Proof.
  intros F. induction F as [|n l H F IH]; [reflexivity|]. cbn [map readIDs]. rewrite zlen_cons. pose proof (zlen_nonneg l).
  destruct (Z.leb_spec (1 + zlen l) 0); [lia|]. rewrite atoi_itoa by exact H. replace (1 + zlen l - 1) with (zlen l) by lia. rewrite IH. reflexivity.
Qed.
Lemma ids_lay0 ids : List.concat (map (fun i => bs " " ++ fD 9 i) ids) = lay (ilay (map (fun i => ((9 - List.length (itoa i))%nat, i)) ids)).
Proof.
  unfold lay, ilay. rewrite !map_map. reflexivity.
Qed.
Lemma decay_line d : decay_ok d -> exists a b l k,
  encDecay d = lay ((a, fmt_E 9 (d_br d)) :: (b, itoa (zlen (d_ids d))) :: ilay l) ++ blanks (S k) ++ 35 :: 32 :: d_com d /\ map snd l = d_ids d.
Proof.
  intros (M & F & L & C). unfold encDecay. rewrite ids_lay0.
  assert (G : forall r, bs "   " ++ fE (d_br d) ++ bs "   " ++ fD 2 (zlen (d_ids d)) ++ r =
    lay [((2 + (16 - List.length (fmt_E 9 (d_br d))))%nat, fmt_E 9 (d_br d)); ((2 + (2 - List.length (itoa (zlen (d_ids d)))))%nat, itoa (zlen (d_ids d)))] ++ r).
  { intros r. change (lay [?a; ?b]) with (lay ([a] ++ [b])). rewrite layr, <- !lay1. reflexivity. }
  rewrite G. destruct (d_ids d) as [|i ids].
  - eexists _, _, [], 4%nat. split; [reflexivity|reflexivity].
  - eexists _, _, (((2 + (9 - List.length (itoa i)))%nat, i) :: map (fun i => ((9 - List.length (itoa i))%nat, i)) ids), 2%nat. split.
    + cbn [map]. unfold ilay at 1. cbn [map fst snd].
      match goal with |- lay [?x; ?y] ++ bs "  " ++ lay (?u :: ?w) ++ _ = lay (_ :: _ :: ilay (?z :: ?t)) ++ _ =>
        replace (lay (x :: y :: ilay (z :: t))) with (lay [x; y] ++ bs "  " ++ lay (u :: w)); [rewrite <- !app_assoc; reflexivity|] end.
      match goal with |- lay [?x; ?y] ++ _ = lay (_ :: _ :: ?z) => change (x :: y :: z) with ([x; y] ++ z) end. rewrite lay_app. f_equal.
    + cbn [map snd]. rewrite map_map. cbn [snd]. rewrite map_id. reflexivity.
Qed.
Lemma step_decay s p ps d : decay_ok d -> t_mode s = MDecay -> s_parts (t_data s) = ps ++ [p] ->
  ~ In 10 (encDecay d) /\ step s (dropCR (encDecay d)) = Ok (Some (mkst MDecay (mkslha (s_blocks (t_data s)) (ps ++ [pushDecay (rdDecay d) p])))).
Proof.
  intros D EM EP. destruct (decay_line d D) as (a & b & l & k & E & I). destruct D as (M & F & L & C). rewrite E. rewrite <- I in F.
  set (w := (a, fmt_E 9 (d_br d)) :: (b, itoa (zlen (d_ids d))) :: ilay l).
  assert (FF : Forall (fun nt => tok_ok (snd nt)) w) by (repeat constructor; try apply fmtE_tok; try apply itoa_tok; apply ilay_ok).
  split.
  { intros J. rewrite app_assoc in J. apply in_app_or in J as [J|[J|[J|J]]]; try discriminate; [exact (lay_no w (S k) 10 FF ltac:(lia) J)|]. destruct C. auto. }
  rewrite app_assoc. rewrite dropCR_com by exact C. unfold step.
  assert (E0 : exists r, (lay w ++ blanks (S k)) ++ 35 :: 32 :: d_com d = 32 :: r) by (eexists; reflexivity). destruct E0 as (r & E0). rewrite E0. rewrite <- E0.
  change (32 =? 35) with false. cbv iota. rewrite cut_at by (apply lay_no; auto). cbv beta iota zeta. change (upper 32 =? 66) with false. change (upper 32 =? 68) with false. change ((32 =? 9) || (32 =? 32)) with true. cbv iota.
  rewrite EM. unfold addDecayEntry. rewrite cut_at by (apply lay_no; auto). rewrite tokens_lay by (auto; discriminate). cbn [w map snd]. rewrite ilay_snd.
  destruct (rd_ok _ M) as (R1 & _). rewrite R1. pose proof (zlen_nonneg (d_ids d)). rewrite atoi_itoa by lia. destruct (Z.ltb_spec (zlen (d_ids d)) 0); [lia|].
  rewrite I. rewrite I in F. rewrite readIDs_itoa by exact F. rewrite trim_com by exact C. rewrite EP.
  assert (UL : updLast (pushDecay (mkdecay (rd (d_br d)) (d_ids d) (d_com d))) (ps ++ [p]) = ps ++ [pushDecay (rdDecay d) p]).
  { clear. induction ps as [|q ps IH]; [reflexivity|]. cbn [app updLast]. rewrite IH. destruct (ps ++ [p]) eqn:E; [destruct ps; discriminate|reflexivity]. }
  rewrite UL. reflexivity.
Qed.

Lemma decayAt_head id w n m : ~ infinite w -> decayAt (bs "DECAY " ++ blanks n ++ itoa id ++ blanks (S m) ++ map upper (fmt_E 9 w)) = Some (itoa id, map upper (fmt_E 9 w)).
Proof.
  intros NI. unfold decayAt. set (tl := blanks n ++ itoa id ++ blanks (S m) ++ map upper (fmt_E 9 w)).
  change (stripPrefix (bs "DECAY") (bs "DECAY " ++ tl)) with (Some (32 :: tl)). cbn [blanks1]. change (is_ws 32) with true. cbv iota. unfold tl.
  rewrite dropw_blanks by reflexivity. rewrite ws_tok by apply itoa_tok.
  assert (DN : decayNum (map upper (fmt_E 9 w)) = Some (map upper (fmt_E 9 w))).
  { unfold decayNum. destruct (is_nan w) eqn:EN; [destruct w; try discriminate; reflexivity|].
    pose proof (fmtE_numc w EN NI) as FN. rewrite map_upper_id by exact FN. pose proof (takew_app is_numc (fmt_E 9 w) [] FN) as TW. rewrite app_nil_r in TW. cbn [takew] in TW. rewrite app_nil_r in TW. rewrite TW.
    destruct (fmtE_tok w) as [N _]. destruct (fmt_E 9 w); [congruence|reflexivity]. }
  assert (B1 : blanks1 (blanks (S m) ++ map upper (fmt_E 9 w)) = Some (map upper (fmt_E 9 w))).
  { cbn [blanks repeat app blanks1]. change (is_ws 32) with true. cbv iota. fold (blanks m). rewrite dropw_blanks by reflexivity.
    pose proof (ws_tok (map upper (fmt_E 9 w)) [] (upper_tok _ (fmtE_tok w))) as W. rewrite app_nil_r in W. rewrite W. reflexivity. }
  assert (DG : forall u, 0 <= u -> takew is_digit (udec u ++ blanks (S m) ++ map upper (fmt_E 9 w)) = udec u /\ dropw is_digit (udec u ++ blanks (S m) ++ map upper (fmt_E 9 w)) = blanks (S m) ++ map upper (fmt_E 9 w)).
  { intros u U. assert (FD : Forall (fun c => is_digit c = true) (udec u)) by (apply Forall_forall; intros c I; apply udec_digits in I; auto; replace c with (48 + (c - 48)) by lia; apply is_digit_48; lia).
    rewrite takew_app, dropw_app by exact FD. cbn [blanks repeat app takew dropw]. change (is_digit 32) with false. cbv iota. rewrite app_nil_r. auto. }
  unfold itoa. destruct (Z.ltb_spec id 0).
  - cbn [app]. change (45 =? 45) with true. cbv iota. destruct (DG (- id) ltac:(lia)) as [D1 D2]. rewrite D1, D2. pose proof (udec_nonempty (- id)). destruct (udec (- id)); [congruence|]. rewrite B1, DN. reflexivity.
  - destruct (DG id ltac:(lia)) as [D1 D2]. pose proof (udec_nonempty id) as UN. pose proof (udec_digits id) as UD. destruct (udec id) as [|c u] eqn:EU; [congruence|]. cbn [app] in *.
    assert (C45 : c =? 45 = false) by (apply Z.eqb_neq; specialize (UD c ltac:(lia) (or_introl eq_refl)); lia). rewrite C45. rewrite D1, D2, B1, DN. reflexivity.
Qed.
Lemma step_part s p : part_ok p ->
  ~ In 10 (partHead p) /\ step s (dropCR (partHead p)) = Ok (Some (mkst MDecay (addPart (mkpart (p_id p) (rd (p_width p)) nan64 (p_com p) []) (t_data s)))).
Proof.
  intros (I & M & NI & C & _). unfold partHead, fD, fE, padl. set (n := (9 - List.length (itoa (p_id p)))%nat). set (m := (16 - List.length (fmt_E 9 (p_width p)))%nat).
  set (core := bs "DECAY " ++ blanks n ++ itoa (p_id p) ++ blanks (3 + m) ++ fmt_E 9 (p_width p)).
  replace (bs "DECAY " ++ (blanks n ++ itoa (p_id p)) ++ bs "   " ++ (blanks m ++ fmt_E 9 (p_width p)) ++ bs "   # " ++ p_com p) with ((core ++ blanks 3) ++ 35 :: 32 :: p_com p)
    by (unfold core; rewrite <- (blanks_app 3 m), <- !app_assoc; reflexivity).
  assert (NO : forall k, k = 35 \/ k < 32 -> ~ In k (core ++ blanks 3)).
  { intros k K J. apply in_app_or in J as [J|J]; [|apply blanks_in in J; lia]. unfold core in J.
    apply in_app_or in J as [J|J]; [cbn in J; lia|]. apply in_app_or in J as [J|J]; [apply blanks_in in J; lia|].
    apply in_app_or in J as [J|J]; [revert J; apply tok_no; [lia|apply itoa_tok]|]. apply in_app_or in J as [J|J]; [apply blanks_in in J; lia|]. revert J; apply tok_no; [lia|apply fmtE_tok]. }
  split.
  { intros J. apply in_app_or in J as [J|[J|[J|J]]]; try discriminate; [exact (NO 10 ltac:(lia) J)|]. destruct C. auto. }
  rewrite dropCR_com by exact C. unfold step.
  assert (E0 : exists r, (core ++ blanks 3) ++ 35 :: 32 :: p_com p = 68 :: r) by (eexists; reflexivity). destruct E0 as (r & E0). rewrite E0. rewrite <- E0.
  change (68 =? 35) with false. cbv iota. rewrite cut_at by (apply NO; auto). cbv beta iota zeta. change (upper 68 =? 66) with false. change (upper 68 =? 68) with true. cbv iota.
  assert (U : map upper core = bs "DECAY " ++ blanks n ++ itoa (p_id p) ++ blanks (3 + m) ++ map upper (fmt_E 9 (p_width p))).
  { unfold core. rewrite !map_app, !upper_blanks. do 3 f_equal.
    assert (F : Forall (fun c => is_numc c = true) (itoa (p_id p))) by (apply Forall_forall; intros c J; apply itoa_chars in J as [-> |J]; [reflexivity|apply numc_digit; exact J]).
    rewrite map_upper_id by exact F. reflexivity. }
  rewrite map_app, upper_blanks. pose proof (trim_core 0 3 (map upper core)) as TC. change (blanks 0 ++ map upper core ++ blanks 3) with (map upper core ++ blanks 3) in TC. rewrite TC.
  - rewrite U. change (3 + m)%nat with (S (2 + m)). rewrite (find_at decayAt _ _ (decayAt_head (p_id p) (p_width p) n (2 + m) NI)). rewrite atoi_itoa by exact I. rewrite upper_parse. destruct (rd_ok _ M) as (R1 & _). rewrite R1.
    rewrite trim_com by exact C. reflexivity.
  - right. split; [rewrite U; unfold edge; cbn; lia|]. rewrite U. destruct (tok_last _ (upper_tok _ (fmtE_tok (p_width p)))) as (x & y & -> & H & _). rewrite !app_assoc, last_last. exact H.
Qed.

(* ---- the whole text ---- *)
Definition block_ok (b : block) : Prop := name_ok (b_name b) /\ text_ok (b_com b) /\ mid (b_q b) /\ Forall (item_ok (b_name b)) (b_data b).
Definition slha_ok (d : slha) : Prop := Forall block_ok (s_blocks d) /\ Forall part_ok (s_parts d).
Definition rdBlock (b : block) : block := mkblock (b_name b) (b_com b) (rd (b_q b)) (map (rdItem (b_name b)) (b_data b)).

Lemma updLast_app {A} (f : A -> A) l a : updLast f (l ++ [a]) = l ++ [f a].
Proof. induction l as [|q l IH]; [reflexivity|]. cbn [app updLast]. rewrite IH. destruct (l ++ [a]) eqn:E; [destruct l; discriminate|reflexivity]. Qed.
Lemma lastName_app l b : lastName (l ++ [b]) = b_name b.
Proof. unfold lastName. rewrite rev_app_distr. reflexivity. Qed.
Lemma step_item fv s bl b it : verb_ok fv -> item_ok (b_name b) it -> t_mode s = MBlock -> s_blocks (t_data s) = bl ++ [b] ->
  exists l, encItem fv (b_name b) it = Some l /\ ~ In 10 l /\
    step s (dropCR l) = Ok (Some (mkst MBlock (mkslha (bl ++ [pushItem (rdItem (b_name b) it) b]) (s_parts (t_data s))))).
Proof.
  intros V H EM EB. destruct (item_line fv (b_name b) it V H) as (l & m & t & k & E & F & T & C & EI & EV & _). eexists. split; [exact E|].
  assert (FF : Forall (fun nt => tok_ok (snd nt)) (ilay l ++ [(m, t)])) by (apply Forall_app; split; [apply ilay_ok|constructor; auto]). split.
  { intros J. rewrite app_assoc in J. apply in_app_or in J as [J|[J|[J|J]]]; try discriminate; [exact (lay_no _ (S k) 10 FF ltac:(lia) J)|]. destruct C. auto. }
  rewrite app_assoc, dropCR_com by exact C. unfold step.
  assert (E0 : exists r, (lay (ilay l ++ [(m, t)]) ++ blanks (S k)) ++ 35 :: 32 :: v_c (i_val it) = 32 :: r) by (destruct l as [|[? ?] ?]; eexists; reflexivity).
  destruct E0 as (r & E0). rewrite E0. rewrite <- E0.
  change (32 =? 35) with false. cbv iota. rewrite cut_at by (apply lay_no; auto). cbv beta iota zeta. change (upper 32 =? 66) with false. change (upper 32 =? 68) with false. change ((32 =? 9) || (32 =? 32)) with true. cbv iota.
  rewrite EM, EB, lastName_app, <- app_assoc, entry_line by assumption. rewrite EV, updLast_app, <- EI. destruct it as [ix [v c]]. reflexivity.
Qed.
Lemma scan_items fv bl its : verb_ok fv -> forall s b, Forall (item_ok (b_name b)) its -> t_mode s = MBlock -> s_blocks (t_data s) = bl ++ [b] ->
  exists t, encItems fv (b_name b) its = Some t /\ forall rest, Forall short (split 10 (t ++ rest)) ->
    Forall short (split 10 rest) /\
    scan s (split 10 (t ++ rest)) = scan (mkst MBlock (mkslha (bl ++ [mkblock (b_name b) (b_com b) (b_q b) (b_data b ++ map (rdItem (b_name b)) its)]) (s_parts (t_data s)))) (split 10 rest).
Proof.
  intros V. induction its as [|it its IH]; intros s b F EM EB.
  - exists []. split; [reflexivity|]. intros rest S. split; [exact S|]. cbn [app map]. rewrite app_nil_r. destruct s as [mo [bb pp]], b. cbn in *. subst. reflexivity.
  - inversion F as [|x y H F2]; subst. destruct (step_item fv s bl b it V H EM EB) as (l & E & N & ST).
    set (s2 := mkst MBlock (mkslha (bl ++ [pushItem (rdItem (b_name b) it) b]) (s_parts (t_data s)))) in *.
    destruct (IH s2 (pushItem (rdItem (b_name b) it) b) F2 eq_refl eq_refl) as (t & E2 & K). cbn [pushItem b_name b_com b_q b_data] in *.
    exists (l ++ 10 :: t). split; [cbn [encItems]; rewrite E, E2; reflexivity|]. intros rest S. rewrite <- app_assoc in *. cbn [app] in *.
    destruct (scan_line s l (t ++ rest) s2 N S ST) as [S1 S2]. destruct (K rest S2) as [K1 K2]. split; [exact K1|]. rewrite S1, K2. subst s2. cbn [t_data s_blocks s_parts map]. reflexivity.
Qed.
Lemma scan_block fv s b : verb_ok fv -> block_ok b -> exists t, encBlock fv b = Some t /\ forall rest, Forall short (split 10 (t ++ rest)) ->
  Forall short (split 10 rest) /\ exists s', t_data s' = addBlock (rdBlock b) (t_data s) /\ scan s (split 10 (t ++ rest)) = scan s' (split 10 rest).
Proof.
  intros V (N & C & M & F). destruct (step_head s b N C M) as [N10 ST]. set (s1 := mkst _ _) in ST.
  destruct (scan_items fv (s_blocks (t_data s)) (b_data b) V s1 (mkblock (b_name b) (b_com b) (rd (b_q b)) []) F eq_refl eq_refl) as (t & E & K). cbn [b_name b_com b_q b_data app] in *.
  eexists. split; [unfold encBlock; rewrite E; reflexivity|]. intros rest S. rewrite <- !app_assoc in *. cbn [app] in S |- *. rewrite <- !app_assoc in *.
  destruct (scan_line s _ _ s1 N10 S ST) as [S1 S2]. destruct (K _ S2) as [K1 K2]. 
  assert (N35 : ~ In 10 (bs "#")) by (cbn; lia). set (s2 := mkst _ _) in K2.
  destruct (scan_line s2 (bs "#") rest s2 N35 K1 eq_refl) as [S3 S4].
  split; [exact S4|]. exists s2. split; [reflexivity|]. rewrite S1, K2. exact S3.
Qed.
Lemma scan_blocks fv bl : verb_ok fv -> Forall block_ok bl -> exists t, encBlocks fv bl = Some t /\ forall s rest, Forall short (split 10 (t ++ rest)) ->
  Forall short (split 10 rest) /\ exists s', t_data s' = mkslha (s_blocks (t_data s) ++ map rdBlock bl) (s_parts (t_data s)) /\ scan s (split 10 (t ++ rest)) = scan s' (split 10 rest).
Proof.
  intros V F. induction F as [|b bl H F IH].
  - exists []. split; [reflexivity|]. intros s rest S. split; [exact S|]. exists s. split; [|reflexivity]. cbn [map]. rewrite app_nil_r. destruct (t_data s); reflexivity.
  - destruct IH as (t2 & E2 & IH). 
    assert (G : exists t1, encBlock fv b = Some t1) by (destruct (scan_block fv (mkst M0 (mkslha [] [])) b V H) as (t1 & E1 & _); eauto). destruct G as (t1 & E1).
    exists (t1 ++ t2). split; [cbn [encBlocks]; rewrite E1, E2; reflexivity|]. intros s rest S. rewrite <- app_assoc in *.
    destruct (scan_block fv s b V H) as (t1' & E1' & K). rewrite E1 in E1'. injection E1' as <-. destruct (K _ S) as (K1 & s1 & D1 & K2).
    destruct (IH s1 rest K1) as (I1 & s2 & D2 & I2). split; [exact I1|]. exists s2. split; [|rewrite K2; exact I2]. rewrite D2, D1. cbn [addBlock s_blocks s_parts map]. rewrite <- app_assoc. reflexivity.
Qed.
Lemma scan_decays ps ds : Forall decay_ok ds -> forall s p, t_mode s = MDecay -> s_parts (t_data s) = ps ++ [p] -> forall rest,
  Forall short (split 10 (List.concat (map (fun d => encDecay d ++ [10]) ds) ++ rest)) ->
  Forall short (split 10 rest) /\ scan s (split 10 (List.concat (map (fun d => encDecay d ++ [10]) ds) ++ rest)) =
    scan (mkst MDecay (mkslha (s_blocks (t_data s)) (ps ++ [mkpart (p_id p) (p_width p) (p_mass p) (p_com p) (p_decays p ++ map rdDecay ds)]))) (split 10 rest).
Proof.
  intros F. induction F as [|d ds H F IH]; intros s p EM EP rest S.
  - cbn [map List.concat app] in *. split; [exact S|]. rewrite app_nil_r. destruct s as [mo [bb pp]], p. cbn in *. subst. reflexivity.
  - cbn [map List.concat] in *. rewrite <- !app_assoc in *. cbn [app] in *. destruct (step_decay s p ps d H EM EP) as [N ST]. set (s2 := mkst _ _) in ST.
    destruct (scan_line s _ _ s2 N S ST) as [S1 S2]. destruct (IH s2 (pushDecay (rdDecay d) p) eq_refl eq_refl rest S2) as [I1 I2]. split; [exact I1|]. rewrite S1, I2. subst s2.
    cbn [t_data s_blocks pushDecay p_id p_width p_mass p_com p_decays]. rewrite <- app_assoc. reflexivity.
Qed.
Lemma scan_part s p rest : part_ok p -> Forall short (split 10 (encPart p ++ rest)) ->
  Forall short (split 10 rest) /\ exists s', t_data s' = addPart (rdPart p) (t_data s) /\ scan s (split 10 (encPart p ++ rest)) = scan s' (split 10 rest).
Proof.
  intros H S. destruct (step_part s p H) as [N ST]. set (s1 := mkst _ _) in ST. unfold encPart in *. rewrite <- app_assoc in *. cbn [app] in S |- *. rewrite <- app_assoc in *. cbn [app] in S |- *.
  assert (N1 : ~ In 10 particleHeader) by (cbv; lia). assert (N2 : ~ In 10 decayHeader) by (cbv; lia). assert (N35 : ~ In 10 (bs "#")) by (cbv; lia).
  destruct (scan_line s _ _ s N1 S eq_refl) as [A1 A2]. destruct (scan_line s _ _ s1 N A2 ST) as [B1 B2]. rewrite A1, B1. clear A1 B1 A2 S.
  destruct H as (I & M & NI & C & F). rewrite <- app_assoc in *. rewrite <- app_assoc in *.
  destruct (p_decays p) as [|d ds] eqn:ED.
  - cbn [app] in *. destruct (scan_line s1 (bs "#") rest s1 N35 B2 eq_refl) as [S3 S4]. split; [exact S4|]. exists s1. split; [|exact S3].
    unfold rdPart. rewrite ED. reflexivity.
  - rewrite <- app_assoc in *. cbn [app] in *. destruct (scan_line s1 _ _ s1 N2 B2 eq_refl) as [A1 A2].
    destruct (scan_decays (s_parts (t_data s)) (d :: ds) F s1 _ eq_refl eq_refl _ A2) as [D1 D2]. set (s2 := mkst _ _) in D2.
    destruct (scan_line s2 (bs "#") rest s2 N35 D1 eq_refl) as [S3 S4].
    split; [exact S4|]. exists s2. split; [|rewrite A1, D2; exact S3]. unfold rdPart. rewrite ED. reflexivity.
Qed.
Lemma scan_parts ps : Forall part_ok ps -> forall s rest, Forall short (split 10 (List.concat (map encPart ps) ++ rest)) ->
  Forall short (split 10 rest) /\ exists s', t_data s' = mkslha (s_blocks (t_data s)) (s_parts (t_data s) ++ map rdPart ps) /\ scan s (split 10 (List.concat (map encPart ps) ++ rest)) = scan s' (split 10 rest).
Proof.
  intros F. induction F as [|p ps H F IH]; intros s rest S.
  - split; [exact S|]. exists s. split; [|reflexivity]. cbn [map]. rewrite app_nil_r. destruct (t_data s); reflexivity.
  - cbn [map List.concat] in *. rewrite <- app_assoc in *. destruct (scan_part s p _ H S) as (K1 & s1 & D1 & K2). destruct (IH s1 rest K1) as (I1 & s2 & D2 & I2).
    split; [exact I1|]. exists s2. split; [|rewrite K2; exact I2]. rewrite D2, D1. cbn [addPart s_blocks s_parts map]. rewrite <- app_assoc. reflexivity.
Qed.
(* the mass of a particle: that of the block MASS *)
Definition massOf (d : slha) (id : Z) : f64 :=
  match blocksGet (s_blocks d) (bs "MASS") with
  | Some b => match blockGet b [id] with Some v => match v_v v with VFloat x => x | _ => nan64 end | None => nan64 end
  | None => nan64
  end.
Definition withMass (m : f64) (p : particle) : particle := mkpart (p_id p) (p_width p) m (p_com p) (p_decays p).
Definition rdSlha (d : slha) : slha :=
  let bl := map rdBlock (s_blocks d) in mkslha bl (map (fun p => withMass (massOf (mkslha bl []) (p_id p)) (rdPart p)) (s_parts d)).
Lemma dataGet_in d i v : dataGet d i = Some v -> exists x, In x d /\ i_val x = v.
Proof.
  induction d as [|x d IH]; [discriminate|]. cbn [dataGet]. destruct (idx_eqb (i_idx x) i).
  - intros [= <-]. exists x. split; [left|]; reflexivity.
  - intros E. destruct (IH E) as (y & I & V). exists y. split; [right; exact I|exact V].
Qed.
Lemma blocksGet_in bl n b : blocksGet bl n = Some b -> In b bl /\ b_name b = n.
Proof.
  induction bl as [|x bl IH]; [discriminate|]. cbn [blocksGet]. destruct (str_eqb_spec (b_name x) n).
  - intros [= <-]. split; [left; reflexivity|exact e].
  - intros E. destruct (IH E). split; [right|]; auto.
Qed.
Theorem decode_encode fv d : verb_ok fv -> slha_ok d -> exists t, encode fv d = Some t /\ (Forall short (split 10 t) -> decode t = Ok (Some (rdSlha d))).
Proof.
  intros V [FB FP]. destruct (scan_blocks fv (s_blocks d) V FB) as (t & E & K). exists (t ++ List.concat (map encPart (s_parts d))). unfold encode. rewrite E. split; [reflexivity|]. intros S.
  destruct (K (mkst M0 (mkslha [] [])) _ S) as (K1 & s1 & D1 & K2). rewrite <- (app_nil_r (List.concat _)) in K1. destruct (scan_parts _ FP s1 [] K1) as (_ & s2 & D2 & P2). rewrite app_nil_r in P2.
  unfold decode. rewrite K2, P2. change (split 10 []) with [@nil Z]. cbn [scan dropCR rev step]. change (65536 <=? zlen (@nil Z)) with false. cbv iota.
  rewrite D2, D1. cbn [t_data s_blocks s_parts app]. cbv zeta. cbn [t_data s_blocks s_parts app]. unfold rdSlha, massOf. cbv zeta. cbn [s_blocks].
  destruct (blocksGet (map rdBlock (s_blocks d)) (bs "MASS")) as [b|] eqn:EB.
  - assert (SM : setMasses b (map rdPart (s_parts d)) = Ok (map (fun p => withMass (match blockGet b [p_id p] with Some v => match v_v v with VFloat x => x | _ => nan64 end | None => nan64 end) (rdPart p)) (s_parts d))).
    { apply blocksGet_in in EB as [IB NB]. apply in_map_iff in IB as (b0 & <- & IB). rewrite Forall_forall in FB. destruct (FB _ IB) as (_ & _ & _ & FI). cbn [rdBlock b_name] in NB.
      clear - FI NB. induction (s_parts d) as [|p ps IH]; [reflexivity|]. cbn [map setMasses]. change (p_id (rdPart p)) with (p_id p).
      destruct (blockGet (rdBlock b0) [p_id p]) as [v|] eqn:EG.
      - unfold blockGet in EG. apply dataGet_in in EG as (x & I & <-). cbn [rdBlock b_data] in I. apply in_map_iff in I as (y & <- & I). rewrite Forall_forall in FI.
        destruct (FI _ I) as (args & w & c & -> & _ & _ & KO). rewrite NB in KO. change (blockFormat (bs "MASS")) with KMass in KO. destruct KO as (_ & z & -> & _).
        unfold rdItem. cbn [i_val v_v]. rewrite NB. change (blockFormat (bs "MASS")) with KMass. cbn [rdVal]. rewrite IH. reflexivity.
      - rewrite IH. reflexivity. }
    rewrite SM. reflexivity.
  - reflexivity.
Qed.
(* written again, the same text *)
Lemma rd_isnan x : mid x -> is_nanb (rd x) = is_nanb x.
Proof.
  intros M. destruct (rd_ok x M) as (_ & _ & N). destruct x; cbn [near] in N; try (rewrite <- N; reflexivity).
  destruct (rd _); try discriminate. reflexivity.
Qed.
Lemma encItems_rd fv name its : verb_ok fv -> Forall (item_ok name) its -> encItems fv name (map (rdItem name) its) = encItems fv name its.
Proof.
  intros V F. induction F as [|it its H F IH]; [reflexivity|]. cbn [map encItems]. rewrite IH. destruct (item_line fv name it V H) as (_ & _ & _ & _ & _ & _ & _ & _ & _ & _ & E). rewrite E. reflexivity.
Qed.
Lemma encBlock_rd fv b : verb_ok fv -> block_ok b -> encBlock fv (rdBlock b) = encBlock fv b.
Proof.
  intros V (N & C & M & F). unfold encBlock. cbn [rdBlock b_name b_data]. rewrite encItems_rd by assumption. destruct (encItems fv (b_name b) (b_data b)); [|reflexivity].
  unfold blockHead. cbn [rdBlock b_name b_com b_q]. rewrite rd_isnan by exact M. unfold fE. destruct (rd_ok _ M) as (_ & R & _). rewrite R. reflexivity.
Qed.
Lemma encPart_rd p m : part_ok p -> encPart (withMass m (rdPart p)) = encPart p.
Proof.
  intros (I & M & NI & C & F). unfold encPart, partHead. cbn [withMass rdPart p_id p_width p_com p_decays]. unfold fE. destruct (rd_ok _ M) as (_ & R & _). rewrite R.
  assert (E : map (fun d => encDecay d ++ [10]) (map rdDecay (p_decays p)) = map (fun d => encDecay d ++ [10]) (p_decays p)).
  { clear - F. induction F as [|d ds H F IH]; [reflexivity|]. cbn [map]. rewrite IH. f_equal. f_equal. destruct H as (M & _). unfold encDecay. cbn [rdDecay d_br d_ids d_com]. unfold fE. destruct (rd_ok _ M) as (_ & R & _). rewrite R. reflexivity. }
  destruct (p_decays p) as [|d ds]; [reflexivity|]. cbn [map] in E |- *. rewrite E. reflexivity.
Qed.
Theorem encode_rd fv d : verb_ok fv -> slha_ok d -> encode fv (rdSlha d) = encode fv d.
Proof.
  intros V [FB FP]. unfold encode. cbn [rdSlha s_blocks s_parts].
  assert (E : encBlocks fv (map rdBlock (s_blocks d)) = encBlocks fv (s_blocks d)).
  { clear - V FB. induction FB as [|b bl H F IH]; [reflexivity|]. cbn [map encBlocks]. rewrite IH, encBlock_rd by assumption. reflexivity. }
  rewrite E. destruct (encBlocks fv (s_blocks d)); [|reflexivity]. f_equal. f_equal. f_equal. rewrite map_map.
  clear - FP. induction FP as [|p ps H F IH]; [reflexivity|]. cbn [map]. rewrite IH, encPart_rd by assumption. reflexivity.
Qed.
