(* Nested paths: specification by a tree of paths, and the invariant that relates it to the directories of a file. *)
From Coq Require Import ZArith List Lia Bool Sorting.Permutation Sorting.Sorted.
From Verif Require Import Bytes GoLib RbytesModel RbytesProofs RdMonad GoStrings FreelistModel FreelistProps KeyModel KeyProofs KeyProps
  DirModel DirProps CompressModel RfileModel RfileSpec RfileProofs RfileInv RfileClose RfileOpen RfileLive RecdirModel.
Import ListNotations.
Local Open Scope Z_scope.

(* ---- specification: the paths of the directories, in order of creation, and what was put, in order ---- *)
Definition path := list str.
Definition path_dec : forall p q : path, {p = q} + {p <> q} := list_eq_dec str_dec.
Definition bobj := object (Z -> option (list Z)).
Record tree := mkTree { tdirs : list path; tputs : list (path * bobj) }.
Definition tree0 : tree := mkTree [[]] [].
Definition puts_at (p : path) (t : tree) : list bobj := map snd (filter (fun x => if path_dec (fst x) p then true else false) (tputs t)).
Definition isdir (p : path) (t : tree) : Prop := In p (tdirs t).
Definition add_dir (p : path) (t : tree) : tree := if in_dec path_dec p (tdirs t) then t else mkTree (tdirs t ++ [p]) (tputs t).
Fixpoint mkdirs (p : path) (rest : list str) (t : tree) : tree :=
  match rest with [] => t | x :: r => mkdirs (p ++ [x]) r (add_dir (p ++ [x]) t) end.
Definition add_put (p : path) (o : bobj) (t : tree) : tree := mkTree (tdirs t) (tputs t ++ [(p, o)]).

(* calls on riofs.Dir(f): Put and Mkdir with a path, given with or without a leading slash *)
Inductive call :=
| KPut (lead : bool) (ds : path) (n : str) (o : bobj) (now : civil)
| KMkdir (lead : bool) (ds : path) (now : civil).
Definition pstr (lead : bool) (p : path) : str := (if lead then [slash] else []) ++ join slash p.
Definition after (c : call) (t : tree) : tree :=
  match c with
  | KPut _ ds n o _ => add_put (ds ++ [n]) o (mkdirs [] ds t)
  | KMkdir _ ds _ => mkdirs [] ds t
  end.
Definition name_ok (n : str) : Prop :=
  n <> [] /\ ~ In slash n /\ ~ In semicolon n /\ str_ok n /\ enc_len n n sTDirectory < maxkey.
(* no object is in the way of the directories *)
Definition free (ds : path) (t : tree) : Prop := forall p q, ds = p ++ q -> p <> [] -> puts_at p t = [].
Definition allowed (cdc : codec) (compr : Z) (c : call) (t : tree) : Prop :=
  match c with
  | KMkdir _ ds now => ds <> [] /\ Forall name_ok ds /\ date_ok now /\ free ds t
  | KPut lead ds n o now =>
      Forall name_ok ds /\ n <> [] /\ ~ In slash n /\ (ds = [] -> lead = false) /\ free ds t /\
      op_ok cdc compr (OPut 0 n o now) /\ op_live cdc compr (OPut 0 n o now) /\
      ~ isdir (ds ++ [n]) t /\ Forall (fun x => GoName2Cxx (oClass x) = oClass o) (puts_at (ds ++ [n]) t) /\
      exists p out, oData o (enc_len n (put_title o) (GoName2Cxx (oClass o))) = Some p /\ Compress cdc p compr = Ok (Some out)
  end.
Fixpoint all_allowed (cdc : codec) (compr : Z) (cs : list call) (t : tree) : Prop :=
  match cs with [] => True | c :: cs' => allowed cdc compr c t /\ all_allowed cdc compr cs' (after c t) end.
Definition afters (cs : list call) (t : tree) : tree := fold_left (fun t c => after c t) cs t.
(* the room they take in the file *)
Fixpoint dcost (p : path) (rest : list str) (t : tree) : Z :=
  match rest with
  | [] => 0
  | x :: r => (if in_dec path_dec (p ++ [x]) (tdirs t) then 0 else 60 + enc_len x x sTDirectory) + dcost (p ++ [x]) r (add_dir (p ++ [x]) t)
  end.
Definition ccost (cdc : codec) (compr : Z) (c : call) (t : tree) : Z :=
  match c with
  | KPut _ ds n o now => dcost [] ds t + cost cdc compr (OPut 0 n o now)
  | KMkdir _ ds _ => dcost [] ds t
  end.
Fixpoint crooms (cdc : codec) (compr : Z) (cs : list call) (t : tree) : Z :=
  match cs with [] => 0 | c :: cs' => ccost cdc compr c t + crooms cdc compr cs' (after c t) end.

(* ---- strings ---- *)
Lemma itoa_9999 : itoa 9999 = [57; 57; 57; 57]. Proof. reflexivity. Qed.
Lemma in_join c sep l : In c (join sep l) -> c = sep \/ exists x, In x l /\ In c x.
Proof.
  induction l as [|a l IH]; [intros []|]. destruct l as [|b l].
  - cbn [join]. intros I. right. exists a. split; [left; auto|auto].
  - rewrite join_cons by discriminate. intros I. apply in_app_or in I as [I|[I|I]].
    + right. exists a. split; [left; auto|auto].
    + left. auto.
    + destruct (IH I) as [->|(x & A & B)]; [auto|]. right. exists x. split; [right; auto|auto].
Qed.
Lemma join_nosemi p : Forall (fun n => ~ In semicolon n) p -> ~ In semicolon (join slash p).
Proof.
  intros F I. apply in_join in I as [I|(x & A & B)]; [discriminate I|]. rewrite Forall_forall in F. exact (F x A B).
Qed.
Lemma join_snoc sep l x : l <> [] -> join sep (l ++ [x]) = join sep l ++ sep :: x.
Proof.
  induction l as [|a l IH]; intros N; [congruence|]. destruct l as [|b l]; [reflexivity|].
  change ((a :: b :: l) ++ [x]) with (a :: ((b :: l) ++ [x])). rewrite !join_cons by (destruct l; discriminate).
  rewrite IH by discriminate. now rewrite <- app_assoc.
Qed.
Lemma lastIndex_app sep a b : ~ In sep b -> lastIndex sep (a ++ sep :: b) = zlen a.
Proof.
  intros N. assert (B : lastIndex sep b = -1).
  { induction b as [|x b IH]; [reflexivity|]. cbn [lastIndex]. rewrite IH by (intros I; apply N; right; auto).
    cbv zeta. change (0 <=? -1) with false. cbv iota. destruct (Z.eqb_spec x sep) as [->|]; [|reflexivity]. exfalso. apply N. left; auto. }
  induction a as [|x a IH].
  - cbn [app lastIndex]. rewrite B. cbv zeta. change (0 <=? -1) with false. cbv iota. now rewrite Z.eqb_refl.
  - cbn [app lastIndex]. rewrite IH. cbv zeta. pose proof (zlen_nonneg a). destruct (Z.leb_spec 0 (zlen a)); [|lia].
    unfold zlen. cbn [length]. lia.
Qed.
Lemma lastIndex_none sep b : ~ In sep b -> lastIndex sep b = -1.
Proof.
  induction b as [|x b IH]; [reflexivity|]. intros N. cbn [lastIndex]. rewrite IH by (intros I; apply N; right; auto).
  cbv zeta. change (0 <=? -1) with false. cbv iota. destruct (Z.eqb_spec x sep) as [->|]; [|reflexivity]. exfalso. apply N. left; auto.
Qed.
Lemma pathSplit_app a b : ~ In slash b -> pathSplit (a ++ slash :: b) = (a ++ [slash], b).
Proof.
  intros N. unfold pathSplit. rewrite lastIndex_app by auto. unfold zlen.
  replace (Z.to_nat (Z.of_nat (length a) + 1)) with (length (a ++ [slash])) by (rewrite app_length; cbn [length]; lia).
  change (slash :: b) with ([slash] ++ b). rewrite app_assoc, firstn_app, skipn_app, Nat.sub_diag, firstn_all, skipn_all.
  cbn [firstn skipn]. now rewrite app_nil_r.
Qed.
Lemma pathSplit_none b : ~ In slash b -> pathSplit b = ([], b).
Proof. intros N. unfold pathSplit. now rewrite lastIndex_none. Qed.
Lemma trimRight_one a c : c <> slash -> trimRight ((a ++ [c]) ++ [slash]) = a ++ [c].
Proof.
  intros N. unfold trimRight. rewrite rev_unit. cbn [trimLeft]. rewrite Z.eqb_refl, rev_unit. cbn [trimLeft].
  destruct (Z.eqb_spec c slash); [contradiction|]. now rewrite <- rev_unit, rev_involutive.
Qed.
Lemma trimRight_none a c : c <> slash -> trimRight (a ++ [c]) = a ++ [c].
Proof.
  intros N. unfold trimRight. rewrite rev_unit. cbn [trimLeft]. destruct (Z.eqb_spec c slash); [contradiction|].
  now rewrite <- rev_unit, rev_involutive.
Qed.
(* a path ends with a byte that is not a slash *)
Lemma pstr_end lead p : p <> [] -> Forall (fun n => n <> [] /\ ~ In slash n) p -> exists a c, pstr lead p = a ++ [c] /\ c <> slash.
Proof.
  intros N F. destruct (exists_last N) as (q & x & ->). apply Forall_app in F as [Fq Fx]. inversion_clear Fx as [|? ? [X1 X2] _].
  destruct (exists_last X1) as (x' & c & ->). exists ((if lead then [slash] else []) ++ (if q then x' else join slash q ++ slash :: x')), c. split.
  - unfold pstr. destruct q as [|y q]; [cbn [app join]; now rewrite app_assoc|].
    rewrite join_snoc by discriminate. rewrite <- !app_assoc. cbn [app]. reflexivity.
  - intros ->. apply X2. apply in_or_app. right. left. auto.
Qed.
Lemma pstr_head p : p <> [] -> Forall (fun n => n <> [] /\ ~ In slash n) p -> exists c s, join slash p = c :: s /\ c <> slash.
Proof.
  intros N F. destruct p as [|x p]; [congruence|]. inversion_clear F as [|? ? [X1 X2] _]. destruct x as [|c x]; [congruence|].
  exists c. destruct p as [|y p]; [exists x|exists (x ++ slash :: join slash (y :: p))]; (split; [reflexivity|]); intros ->; apply X2; left; auto.
Qed.
Definition pre (lead : bool) : list str := if lead then [[]] else [].
Lemma pstr_parts lead p : p <> [] -> Forall (fun n => n <> [] /\ ~ In slash n) p ->
  (str_eqb (pstr lead p) [] || str_eqb (pstr lead p) [slash]) = false /\ split slash (trimPrefix (pstr lead p)) = p /\
  split slash (pstr lead p) = pre lead ++ p.
Proof.
  intros N F. destruct (pstr_head p N F) as (c & s & E & Nc). assert (Sp : split slash (join slash p) = p).
  { apply split_join; auto. eapply Forall_impl; [|exact F]. intros a [_ H]. exact H. }
  unfold pstr. destruct lead; cbn [app].
  - split; [|split].
    + rewrite E. cbn [str_eqb]. rewrite Z.eqb_refl. reflexivity.
    + cbn [trimPrefix]. rewrite Z.eqb_refl. exact Sp.
    + cbn [split]. rewrite Z.eqb_refl. now rewrite Sp.
  - split; [|split].
    + rewrite E. cbn [str_eqb]. destruct (Z.eqb_spec c slash); [contradiction|]. reflexivity.
    + rewrite E. cbn [trimPrefix]. destruct (Z.eqb_spec c slash); [contradiction|]. now rewrite <- E.
    + exact Sp.
Qed.

(* ---- the tree and the store ---- *)
Definition ent_of (n : str) (o : bobj) : entry := mkEntry n (put_title o) (GoName2Cxx (oClass o)) (CObj (oData o)).
Record Rel (t : tree) (st : store) : Prop := {
  r_len : length st = length (tdirs t);
  r_nodup : NoDup (tdirs t);
  r_root : nth_error (tdirs t) 0 = Some [];
  r_closed : forall p n, isdir (p ++ [n]) t -> isdir p t;
  r_dir : forall j p n j', nth_error (tdirs t) j = Some p -> nth_error (tdirs t) j' = Some (p ++ [n]) ->
            named n (nth j st []) = [mkEntry n n sTDirectory (CDir j')];
  r_put : forall j p n, nth_error (tdirs t) j = Some p -> ~ isdir (p ++ [n]) t ->
            named n (nth j st []) = map (ent_of n) (puts_at (p ++ [n]) t);
  r_sep : forall p, isdir p t -> puts_at p t = [];
  r_par : forall p n, puts_at (p ++ [n]) t <> [] -> isdir p t }.

Lemma Rel0 : Rel tree0 [[]].
Proof.
  constructor; unfold isdir, tree0; cbn [tdirs tputs].
  - reflexivity.
  - constructor; [intros []|constructor].
  - reflexivity.
  - intros p n [E|[]]. destruct p; discriminate E.
  - intros j p n j' H H'. apply nth_error_In in H' as [E|[]]. destruct p; discriminate E.
  - intros [|[|j]] p n H _; try discriminate H. reflexivity.
  - reflexivity.
  - intros p n H. exfalso. apply H. reflexivity.
Qed.

Lemma nth_add_entry j i e (st : store) : (i < length st)%nat ->
  nth j (add_entry i e st) [] = if (j =? i)%nat then nth i st [] ++ [e] else nth j st [].
Proof.
  intros L. unfold add_entry. pose proof (set_nth_nth st i (nth i st [] ++ [e]) j) as H.
  destruct (Nat.eqb_spec j i) as [->|Ne]; cbn [andb] in H.
  - destruct (Nat.ltb_spec i (length st)); [|lia]. now apply nth_error_nth.
  - destruct (nth_error st j) as [x|] eqn:E.
    + rewrite (nth_error_nth _ _ _ H). symmetry. now apply nth_error_nth.
    + rewrite !nth_overflow; auto; [now apply nth_error_None|now apply nth_error_None].
Qed.
Lemma named_snoc n es e : named n (es ++ [e]) = named n es ++ (if str_eqb (eName e) n then [e] else []).
Proof. unfold named. rewrite filter_app. reflexivity. Qed.
Lemma NoDup_app_snoc {A} (l : list A) x : NoDup l -> ~ In x l -> NoDup (l ++ [x]).
Proof.
  intros N I. apply NoDup_rev in N. rewrite <- (rev_involutive (l ++ [x])), rev_unit. apply NoDup_rev. constructor; auto.
  now rewrite <- in_rev.
Qed.
Lemma snoc_inj {A} (a b : list A) x y : a ++ [x] = b ++ [y] -> a = b /\ x = y.
Proof. apply app_inj_tail. Qed.
Lemma puts_add p q o t : puts_at p (add_put q o t) = puts_at p t ++ (if path_dec q p then [o] else []).
Proof. unfold puts_at, add_put. cbn [tputs]. rewrite filter_app, map_app. cbn [filter fst]. destruct (path_dec q p); reflexivity. Qed.

Lemma mk_step t st j p n now : Rel t st -> nth_error (tdirs t) j = Some p -> ~ isdir (p ++ [n]) t -> puts_at (p ++ [n]) t = [] ->
  Rel (add_dir (p ++ [n]) t) (apply (OMkdir j n now) true st).
Proof.
  intros [L ND R0 CL RD RP SE PA] N NI NP. unfold add_dir. destruct (in_dec path_dec (p ++ [n]) (tdirs t)) as [I|_]; [contradiction|].
  assert (Lj : (j < length st)%nat) by (rewrite L; apply nth_error_Some; congruence).
  unfold isdir in *. cbn [apply negb]. cbv iota. set (e := mkEntry n n sTDirectory (CDir (length st))).
  assert (LA : length (add_entry j e st) = length st) by (unfold add_entry; apply set_nth_length).
  assert (NT : forall i q, nth_error (tdirs t ++ [p ++ [n]]) i = Some q ->
             ((i < length st)%nat /\ nth_error (tdirs t) i = Some q) \/ (i = length st /\ q = p ++ [n])).
  { intros i q H. destruct (Nat.lt_ge_cases i (length (tdirs t))).
    - rewrite nth_error_app1 in H by auto. left. split; [lia|auto].
    - rewrite nth_error_app2 in H by auto. right. destruct (i - length (tdirs t))%nat eqn:E; [|destruct n0; discriminate H].
      injection H as <-. split; [lia|auto]. }
  assert (NS : forall i, (i < length st)%nat -> nth i (add_entry j e st ++ [[]]) [] = if (i =? j)%nat then nth j st [] ++ [e] else nth i st []).
  { intros i Li. rewrite app_nth1 by lia. now apply nth_add_entry. }
  constructor; unfold isdir; cbn [tdirs tputs].
  - rewrite app_length, LA, app_length, L. reflexivity.
  - apply NoDup_app_snoc; auto.
  - destruct (tdirs t); [discriminate R0|]. exact R0.
  - intros q m I. apply in_app_iff in I as [I|[E|[]]]; apply in_or_app; left; [eauto|].
    apply snoc_inj in E as [<- _]. eapply nth_error_In; eauto.
  - intros i q m i' H H'. apply NT in H as [(Li & H)|(-> & ->)].
    + rewrite NS by auto. apply NT in H' as [(Li' & H')|(-> & E)].
      * destruct (Nat.eqb_spec i j) as [->|]; [|eauto]. rewrite named_snoc, (RD _ _ _ _ H H').
        cbn [e eName]. destruct (str_eqb_spec n m) as [->|]; [|now rewrite app_nil_r]. exfalso. apply NI. apply nth_error_In in H'. assert (q = p) by congruence. subst q. exact H'.
      * apply snoc_inj in E as [<- ->]. assert (i = j).
        { apply (proj1 (NoDup_nth_error (tdirs t)) ND); [lia|congruence]. } subst i. rewrite Nat.eqb_refl, named_snoc.
        rewrite (RP _ _ _ N NI), NP. cbn [e eName map app]. now rewrite str_eqb_refl.
    + exfalso. apply NT in H' as [(Li' & H')|(-> & E)].
      * apply NI. apply nth_error_In in H'. eauto.
      * apply (f_equal (@length str)) in E. rewrite !app_length in E. cbn [length] in E. lia.
  - intros i q m H NI'. apply NT in H as [(Li & H)|(-> & ->)].
    + rewrite NS by auto. assert (NI2 : ~ In (q ++ [m]) (tdirs t)) by (intros I; apply NI'; apply in_or_app; auto).
      destruct (Nat.eqb_spec i j) as [->|]; [|apply RP; auto]. assert (q = p) by congruence. subst q. rewrite named_snoc, (RP _ _ _ N NI2).
      cbn [e eName]. destruct (str_eqb_spec n m) as [->|]; [|now rewrite app_nil_r]. exfalso. apply NI', in_or_app. right. left. auto.
    + rewrite app_nth2 by lia. rewrite LA, Nat.sub_diag. cbn [nth]. change (named m []) with (@nil entry).
      assert (Z : puts_at ((p ++ [n]) ++ [m]) t = []).
      { destruct (puts_at ((p ++ [n]) ++ [m]) t) eqn:E; auto. exfalso. apply NI. apply (PA _ m). congruence. }
      change (puts_at ((p ++ [n]) ++ [m]) (mkTree (tdirs t ++ [p ++ [n]]) (tputs t))) with (puts_at ((p ++ [n]) ++ [m]) t). now rewrite Z.
  - intros q I. apply in_app_iff in I as [I|[<-|[]]]; [apply SE; auto|exact NP].
  - intros q m H. apply in_or_app. left. eapply PA; eauto.
Qed.

Lemma put_step t st j p n o now : Rel t st -> nth_error (tdirs t) j = Some p -> ~ isdir (p ++ [n]) t -> n <> [] ->
  Rel (add_put (p ++ [n]) o t) (apply (OPut j n o now) true st).
Proof.
  intros [L ND R0 CL RD RP SE PA] N NI Nn. assert (Lj : (j < length st)%nat) by (rewrite L; apply nth_error_Some; congruence).
  unfold isdir in *. cbn [apply negb]. cbv iota. assert (EN : put_as n o = n) by (destruct n; [congruence|reflexivity]). rewrite EN.
  change (mkEntry n (put_title o) (GoName2Cxx (oClass o)) (CObj (oData o))) with (ent_of n o).
  assert (NS : forall i, nth i (add_entry j (ent_of n o) st) [] = if (i =? j)%nat then nth j st [] ++ [ent_of n o] else nth i st []).
  { intros i. now apply nth_add_entry. }
  constructor; unfold isdir; cbn [tdirs add_put]; auto.
  - unfold add_entry. now rewrite set_nth_length.
  - intros i q m i' H H'. rewrite NS. destruct (Nat.eqb_spec i j) as [->|]; [|eauto]. rewrite named_snoc, (RD _ _ _ _ H H').
    cbn [ent_of eName]. destruct (str_eqb_spec n m) as [->|]; [|now rewrite app_nil_r]. exfalso. apply NI. apply nth_error_In in H'. assert (q = p) by congruence. subst q. exact H'.
  - intros i q m H NI'. rewrite NS. change (mkTree (tdirs t) (tputs t ++ [(p ++ [n], o)])) with (add_put (p ++ [n]) o t). rewrite puts_add.
    destruct (Nat.eqb_spec i j) as [->|Ne].
    + assert (q = p) by congruence. subst q. rewrite named_snoc, (RP _ _ _ N NI'), map_app. cbn [ent_of eName].
      destruct (str_eqb_spec n m) as [Em|Nm], (path_dec (p ++ [n]) (p ++ [m])) as [E|E]; try reflexivity.
      * rewrite Em. reflexivity.
      * congruence.
      * apply snoc_inj in E as [_ E]. contradiction.
    + destruct (path_dec (p ++ [n]) (q ++ [m])) as [E|E]; [|rewrite app_nil_r; auto].
      exfalso. apply snoc_inj in E as [<- _]. apply Ne. apply (proj1 (NoDup_nth_error (tdirs t)) ND); [apply nth_error_Some; congruence|congruence].
  - intros q I. change (mkTree (tdirs t) (tputs t ++ [(p ++ [n], o)])) with (add_put (p ++ [n]) o t). rewrite puts_add, (SE _ I).
    destruct (path_dec (p ++ [n]) q) as [<-|]; [contradiction|reflexivity].
  - intros q m. change (mkTree (tdirs t) (tputs t ++ [(p ++ [n], o)])) with (add_put (p ++ [n]) o t). rewrite puts_add.
    destruct (path_dec (p ++ [n]) (q ++ [m])) as [E|]; [|rewrite app_nil_r; apply PA]. intros _. apply snoc_inj in E as [<- _]. eapply nth_error_In; eauto.
Qed.

Lemma Rel_counts t st : Rel t st -> (forall p, zlen (puts_at p t) <= 32767) -> forall i nm, zlen (named nm (nth i st [])) <= 32767.
Proof.
  intros R C i nm. destruct (Nat.lt_ge_cases i (length st)) as [Li|Li]; [|rewrite nth_overflow by auto; discriminate].
  rewrite (r_len _ _ R) in Li. destruct (nth_error (tdirs t) i) as [p|] eqn:E; [|apply nth_error_None in E; lia].
  destruct (in_dec path_dec (p ++ [nm]) (tdirs t)) as [I|NI].
  - apply In_nth_error in I as (j' & I). rewrite (r_dir _ _ R _ _ _ _ E I). discriminate.
  - rewrite (r_put _ _ R _ _ _ E NI). unfold zlen. rewrite map_length. apply C.
Qed.

(* ---- trees ---- *)
Lemma puts_add_dir p q t : puts_at p (add_dir q t) = puts_at p t.
Proof. unfold add_dir. destruct (in_dec _ _ _); reflexivity. Qed.
Lemma puts_mkdirs p rest : forall q t, puts_at p (mkdirs q rest t) = puts_at p t.
Proof. induction rest as [|x r IH]; intros q t; cbn [mkdirs]; [reflexivity|]. now rewrite IH, puts_add_dir. Qed.
Lemma isdir_add_dir p q t : isdir p (add_dir q t) <-> isdir p t \/ p = q.
Proof.
  unfold add_dir, isdir. destruct (in_dec path_dec q (tdirs t)) as [I|I]; cbn [tdirs].
  - split; [auto|]. intros [H| ->]; auto.
  - rewrite in_app_iff. cbn [In]. split; [intros [H|[H|[]]]; auto|intros [H| ->]; auto].
Qed.
Lemma isdir_mkdirs q rest : forall p t, isdir q (mkdirs p rest t) <-> isdir q t \/ exists a b, rest = a ++ b /\ a <> [] /\ q = p ++ a.
Proof.
  induction rest as [|x r IH]; intros p t; cbn [mkdirs].
  - split; [auto|]. intros [H|(a & b & E & N & _)]; auto. destruct a; [congruence|discriminate E].
  - rewrite IH, isdir_add_dir. split.
    + intros [[H| ->]|(a & b & -> & N & ->)]; auto.
      * right. exists [x], r. repeat split; auto. discriminate.
      * right. exists (x :: a), b. repeat split; auto; [discriminate|]. now rewrite <- app_assoc.
    + intros [H|(a & b & E & N & ->)]; auto. destruct a as [|y a]; [congruence|]. injection E as -> ->.
      destruct a as [|z a]; [auto|]. right. exists (z :: a), b. repeat split; auto; [discriminate|]. now rewrite <- app_assoc.
Qed.
Lemma closed_app t st p q : Rel t st -> isdir (p ++ q) t -> isdir p t.
Proof.
  intros R. revert p. induction q as [|x q IH] using rev_ind; intros p H; [now rewrite app_nil_r in H|].
  apply IH. rewrite app_assoc in H. eapply (r_closed _ _ R); eauto.
Qed.
Lemma mkdirs_id t st rest : Rel t st -> forall p, isdir (p ++ rest) t -> mkdirs p rest t = t /\ dcost p rest t = 0.
Proof.
  intros R. induction rest as [|x r IH]; intros p H; cbn [mkdirs dcost]; [auto|].
  replace (p ++ x :: r) with ((p ++ [x]) ++ r) in H by now rewrite <- app_assoc. pose proof (closed_app _ _ _ _ R H) as H1.
  unfold add_dir. unfold isdir in H1. destruct (in_dec path_dec (p ++ [x]) (tdirs t)); [|contradiction]. destruct (IH _ H) as (A & B). auto.
Qed.
Lemma dcost_nonneg rest : forall p t, 0 <= dcost p rest t.
Proof.
  induction rest as [|x r IH]; intros p t; cbn [dcost]; [lia|]. specialize (IH (p ++ [x]) (add_dir (p ++ [x]) t)).
  pose proof (enc_len_pos x x sTDirectory). destruct (in_dec _ _ _); lia.
Qed.
Lemma ccost_nonneg cdc compr c t : 0 <= ccost cdc compr c t.
Proof. destruct c as [lead ds n o now|lead ds now]; cbn [ccost]; pose proof (dcost_nonneg ds [] t); [pose proof (cost_nonneg cdc compr (OPut 0 n o now))|]; lia. Qed.
Lemma crooms_nonneg cdc compr cs : forall t, 0 <= crooms cdc compr cs t.
Proof. induction cs as [|c cs IH]; intros t; cbn [crooms]; [lia|]. specialize (IH (after c t)). pose proof (ccost_nonneg cdc compr c t). lia. Qed.

(* ---- a file being written ---- *)
Section Writing.
  Variable junk : nat -> Z.
  Variable cdc : codec.
  Variable srt : list (dkey nat) -> list (dkey nat).
  Variable fnd : fkey -> option (str -> gres nat fkey).
  Variable fname : str.
  Variable compr : Z.
  Hypothesis ST : sorts srt.
  Notation goodf := (good cdc fname compr).

  Definition counts (t : tree) : Prop := forall p, zlen (puts_at p t) <= 32767.
  Definition W (t : tree) (f : wfile) : Prop := goodf f /\ Rel t (view f).

  Lemma view_length f : length (view f) = length (wDirs f).
  Proof. unfold view. apply map_length. Qed.
  Lemma wGet_spec j nc f : goodf f -> (j < length (wDirs f))%nat -> nc_ok nc ->
    exists g, wGet srt j (nc_string nc) f = Ok g /\
      match lookup nc (nth j (view f) []) with
      | None => g = GNoKey
      | Some e => match eBody e with CDir j' => g = GDir j' | CObj _ => exists k, g = GObj k /\ ent k = e end
      end.
  Proof.
    intros G Lj Nc. destruct (nth_error (wDirs f) j) as [d|] eqn:N; [|apply nth_error_None in N; lia].
    pose proof (g_dirs _ _ _ _ G _ _ N) as DW. unfold wGet. rewrite (dir_at_nth _ _ _ N), (nth_view f _ _ N).
    destruct (pick_lookup srt nc (map fKey (wKeys d)) (map ent (wKeys d)) ST Nc (dw_cyc _ _ DW)) as (p & -> & P); [rewrite !map_map; reflexivity|].
    cbn [rbind]. destruct p as [i|]; [|rewrite P; eauto]. destruct P as (e & E1 & ->). rewrite nth_error_map in E1.
    destruct (nth_error (wKeys d) i) as [k|]; [|discriminate E1]. cbn in E1. assert (E : ent k = e) by congruence. subst e.
    cbn [ent eBody]. destruct (fObj k) as [m|j']; eexists; split; eauto.
  Qed.
  Lemma wGet_9999 j n f : ~ In semicolon n -> wGet srt j (n ++ semicolon :: itoa 9999) f = wGet srt j n f.
  Proof.
    intros N. unfold wGet, pick, get. rewrite (C14_plain n N). change (n ++ semicolon :: itoa 9999) with (namecycle n 9999).
    rewrite C14_encode_decode by (auto; lia). reflexivity.
  Qed.
  Lemma wGet_name j n f : goodf f -> (j < length (wDirs f))%nat -> ~ In semicolon n ->
    exists g, wGet srt j n f = Ok g /\
      match List.last (map Some (named n (nth j (view f) []))) None with
      | None => g = GNoKey
      | Some e => match eBody e with CDir j' => g = GDir j' | CObj _ => exists k, g = GObj k /\ ent k = e end
      end.
  Proof. intros G L N. apply (wGet_spec j (n, None) f G L). split; [exact N|exact I]. Qed.

  Lemma W_lt t f j p : W t f -> nth_error (tdirs t) j = Some p -> (j < length (wDirs f))%nat.
  Proof. intros (_ & R) N. rewrite <- view_length, (r_len _ _ R). apply nth_error_Some. congruence. Qed.
  Lemma wGet_dir t f j p (n : str) j' : W t f -> nth_error (tdirs t) j = Some p -> ~ In semicolon n ->
    nth_error (tdirs t) j' = Some (p ++ [n]) -> wGet srt j n f = Ok (GDir j').
  Proof.
    intros Wt N Sn N'. pose proof Wt as (G & R). destruct (wGet_name j n f G (W_lt _ _ _ _ Wt N) Sn) as (g & -> & E).
    rewrite (r_dir _ _ R _ _ _ _ N N') in E. cbn in E. now subst.
  Qed.
  Lemma wGet_none t f j p (n : str) : W t f -> nth_error (tdirs t) j = Some p -> ~ In semicolon n ->
    ~ isdir (p ++ [n]) t -> puts_at (p ++ [n]) t = [] -> wGet srt j n f = Ok GNoKey.
  Proof.
    intros Wt N Sn NI NP. pose proof Wt as (G & R). destruct (wGet_name j n f G (W_lt _ _ _ _ Wt N) Sn) as (g & -> & E).
    rewrite (r_put _ _ R _ _ _ N NI), NP in E. cbn in E. now subst.
  Qed.
  Lemma walk_dir t f rest : W t f -> forall p j, nth_error (tdirs t) j = Some p -> rest <> [] -> Forall name_ok rest -> isdir (p ++ rest) t ->
    exists j', nth_error (tdirs t) j' = Some (p ++ rest) /\ walkdir fnd (wGet srt) j rest 9999 f = Ok (GDir j').
  Proof.
    intros Wt. induction rest as [|x r IH]; intros p j N NE F I; [congruence|]. inversion_clear F as [|? ? (X1 & X2 & X3 & X4 & X5) Fr].
    assert (E : p ++ x :: r = (p ++ [x]) ++ r) by now rewrite <- app_assoc.
    rewrite E in I |- *. pose proof (closed_app _ _ _ _ (proj2 Wt) I) as I1. apply In_nth_error in I1 as (j1 & N1).
    destruct r as [|y r].
    - exists j1. rewrite app_nil_r. split; auto. cbn [walkdir]. rewrite wGet_9999 by auto. eapply wGet_dir; eauto.
    - cbn [walkdir]. rewrite (wGet_dir t f j p x j1) by auto. cbn [rbind]. apply IH; auto. discriminate.
  Qed.
  Lemma walk_free t f rest : W t f -> forall p j, nth_error (tdirs t) j = Some p -> rest <> [] -> Forall name_ok rest -> ~ isdir (p ++ rest) t ->
    (forall q r, rest = q ++ r -> q <> [] -> puts_at (p ++ q) t = []) -> walkdir fnd (wGet srt) j rest 9999 f = Ok GNoKey.
  Proof.
    intros Wt. induction rest as [|x r IH]; intros p j N NE F I FR; [congruence|]. inversion_clear F as [|? ? (X1 & X2 & X3 & X4 & X5) Fr].
    assert (P1 : puts_at (p ++ [x]) t = []) by (apply (FR [x] r); [reflexivity|discriminate]).
    destruct r as [|y r].
    - cbn [walkdir]. rewrite wGet_9999 by auto. eapply wGet_none; eauto.
    - cbn [walkdir]. destruct (in_dec path_dec (p ++ [x]) (tdirs t)) as [I1|I1].
      + apply In_nth_error in I1 as (j1 & N1). rewrite (wGet_dir t f j p x j1) by auto. cbn [rbind]. apply (IH (p ++ [x]) j1); auto; [discriminate|now rewrite <- app_assoc|].
        intros q z E Nq. rewrite <- app_assoc. apply (FR (x :: q) z); [cbn [app]; now rewrite E|discriminate].
      + rewrite (wGet_none t f j p x) by auto. reflexivity.
  Qed.
  Lemma name_ok_weak p : Forall name_ok p -> Forall (fun n => n <> [] /\ ~ In slash n) p.
  Proof. apply Forall_impl. intros a (A & B & _). auto. Qed.
  Lemma pstr_nosemi lead p : Forall (fun n => ~ In semicolon n) p -> ~ In semicolon (pstr lead p).
  Proof. intros F I. unfold pstr in I. apply in_app_or in I as [I|I]; [destruct lead; [destruct I as [I|[]]; discriminate I|destruct I]|]. now apply (join_nosemi p F). Qed.
  Lemma recGet_path lead p d f : p <> [] -> Forall name_ok p -> recGet fnd (wGet srt) d (pstr lead p) f = walkdir fnd (wGet srt) d p 9999 f.
  Proof.
    intros N F. unfold recGet. destruct (pstr_parts lead p N (name_ok_weak _ F)) as (-> & S1 & _).
    rewrite C14_plain by (apply pstr_nosemi; eapply Forall_impl; [|exact F]; intros a (_ & _ & A & _); exact A). cbn [rbind fst snd]. now rewrite S1.
  Qed.

  Lemma op_step o f : goodf f -> op_ok cdc compr o -> op_live cdc compr o -> accepts cdc compr o (view f) = true ->
    wEnd f + cost cdc compr o <= kStartBigFile -> (forall i nm, zlen (named nm (nth i (apply o true (view f)) [])) <= 32767) ->
    exists f', step junk cdc srt o f = Ok (f', true) /\ goodf f' /\ view f' = apply o true (view f) /\ wEnd f' = wEnd f + cost cdc compr o.
  Proof.
    intros G OK LV A L Cn. destruct (run_room junk cdc srt fname compr [o] f ST G) as (f' & R & G' & V' & W'); auto.
    - cbn [room]. cbv zeta. rewrite A. lia.
    - cbn [verdicts applies]. cbv zeta. rewrite A. exact Cn.
    - cbn [verdicts applies room run] in R, V', W'. cbv zeta in R, V', W'. rewrite A in R, V', W'. exists f'.
      destruct (step junk cdc srt o f) as [[f1 b]|]; cbn [rbind fst snd] in R; [|discriminate R]. assert (f1 = f') by congruence. assert (b = true) by congruence.
      subst. split; [reflexivity|]. split; [exact G'|]. split; [exact V'|]. lia.
  Qed.
  Lemma mk1 t f j p n now : W t f -> counts t -> nth_error (tdirs t) j = Some p -> name_ok n -> date_ok now -> ~ isdir (p ++ [n]) t ->
    puts_at (p ++ [n]) t = [] -> wEnd f + (60 + enc_len n n sTDirectory) <= kStartBigFile ->
    exists f' j', wMkdir junk srt now j n f = Ok (f', Some j') /\ nth_error (tdirs (add_dir (p ++ [n]) t)) j' = Some (p ++ [n]) /\
      W (add_dir (p ++ [n]) t) f' /\ wEnd f' = wEnd f + (60 + enc_len n n sTDirectory).
  Proof.
    intros Wt Cn N (X1 & X2 & X3 & X4 & X5) Dn NI NP L. pose proof Wt as (G & R). pose proof (W_lt _ _ _ _ Wt N) as Lj.
    pose proof (mk_step t (view f) j p n now R N NI NP) as R'.
    destruct (op_step (OMkdir j n now) f G) as (f' & E & G' & V' & W').
    - split; [exact Dn|]. auto.
    - exact I.
    - cbn [accepts]. rewrite view_length, (r_put _ _ R _ _ _ N NI), NP. destruct (Nat.ltb_spec j (length (wDirs f))); [|lia]. cbn [map andb].
      destruct (has_byte slash n) eqn:H1; [apply has_byte_spec in H1; contradiction|reflexivity].
    - exact L.
    - apply (Rel_counts _ _ R'). intros q. rewrite puts_add_dir. apply Cn.
    - exists f', (length (wDirs f)). split.
      + unfold wMkdir. cbn [step] in E. destruct (Nat.ltb_spec j (length (wDirs f))); [|lia]. rewrite E. reflexivity.
      + split; [|split; [split; [exact G'|rewrite V'; exact R']|exact W']].
        unfold add_dir. destruct (in_dec path_dec (p ++ [n]) (tdirs t)); [contradiction|]. cbn [tdirs].
        rewrite <- view_length, (r_len _ _ R), nth_error_app2, Nat.sub_diag by lia. reflexivity.
  Qed.
  Lemma parent t f lead p x : W t f -> isdir p t -> Forall name_ok p -> name_ok x ->
    exists j, nth_error (tdirs t) j = Some p /\ recGet fnd (wGet srt) 0%nat (trimRight (fst (pathSplit (pstr lead (p ++ [x]))))) f = Ok (GDir j) /\
      snd (pathSplit (pstr lead (p ++ [x]))) = x.
  Proof.
    intros Wt I F (X1 & X2 & _). destruct p as [|y p].
    - exists 0%nat. split; [apply (r_root _ _ (proj2 Wt))|]. unfold pstr. cbn [app join]. destruct lead; cbn [app].
      + pose proof (pathSplit_app [] x X2) as H. cbn [app] in H. rewrite H. split; reflexivity.
      + rewrite pathSplit_none by auto. split; reflexivity.
    - assert (E : pstr lead ((y :: p) ++ [x]) = pstr lead (y :: p) ++ slash :: x).
      { unfold pstr. rewrite join_snoc by discriminate. now rewrite app_assoc. }
      rewrite E, pathSplit_app by auto. cbn [fst snd].
      destruct (pstr_end lead (y :: p)) as (a & c & E2 & Nc); [discriminate|now apply name_ok_weak|]. rewrite E2, trimRight_one, <- E2 by auto.
      rewrite recGet_path by (auto; discriminate).
      destruct (walk_dir t f (y :: p) Wt [] 0%nat) as (j & N & ->); auto; [apply (r_root _ _ (proj2 Wt))|discriminate|]. exists j. auto.
  Qed.
  Lemma join_pre lead p : p <> [] -> join slash (pre lead ++ p) = pstr lead p.
  Proof. intros N. unfold pstr, pre. destruct lead; [|reflexivity]. cbn [app]. now rewrite join_cons. Qed.

  Lemma mkloop_spec lead now rest : forall t f p, W t f -> counts t -> date_ok now -> isdir p t -> Forall name_ok (p ++ rest) ->
    (forall q r, rest = q ++ r -> q <> [] -> puts_at (p ++ q) t = []) -> wEnd f + dcost p rest t <= kStartBigFile ->
    exists f', mkloop fnd (wGet srt) (wMkdir junk srt now) 0%nat (pre lead ++ p) rest f = Ok (f', true) /\
      W (mkdirs p rest t) f' /\ wEnd f' = wEnd f + dcost p rest t.
  Proof.
    induction rest as [|x r IH]; intros t f p Wt Cn Dn Ip F FR L; cbn [mkloop mkdirs dcost] in *.
    { exists f. split; [reflexivity|]. split; [exact Wt|]. lia. }
    cbv zeta. rewrite <- app_assoc, join_pre by (destruct p; discriminate).
    assert (EF : p ++ x :: r = (p ++ [x]) ++ r) by now rewrite <- app_assoc.
    assert (Fp : Forall name_ok p) by (apply Forall_app in F as [? _]; auto).
    assert (Fx : name_ok x) by (apply Forall_app in F as [_ F]; now inversion F).
    assert (Fpx : Forall name_ok (p ++ [x])) by (rewrite EF in F; apply Forall_app in F as [? _]; auto).
    assert (NE : p ++ [x] <> []) by (destruct p; discriminate).
    pose proof (dcost_nonneg r (p ++ [x]) (add_dir (p ++ [x]) t)) as DN.
    assert (FR' : forall q r0, r = q ++ r0 -> q <> [] -> puts_at ((p ++ [x]) ++ q) (add_dir (p ++ [x]) t) = []).
    { intros q z E Nq. rewrite puts_add_dir, <- app_assoc. apply (FR (x :: q) z); [cbn [app]; now rewrite E|discriminate]. }
    rewrite recGet_path by auto. pose proof (r_root _ _ (proj2 Wt)) as R0.
    destruct (in_dec path_dec (p ++ [x]) (tdirs t)) as [I1|I1].
    - destruct (walk_dir t f (p ++ [x]) Wt [] 0%nat R0 NE Fpx I1) as (j & _ & ->). cbn [rbind].
      assert (EA : add_dir (p ++ [x]) t = t) by (unfold add_dir; destruct (in_dec _ _ _); [reflexivity|contradiction]). rewrite EA in *.
      apply IH; auto. now rewrite <- EF.
    - rewrite (walk_free t f (p ++ [x]) Wt [] 0%nat R0 NE Fpx I1).
      2:{ intros q z E Nq. cbn [app]. destruct (exists_last Nq) as (q' & c & ->). destruct z as [|z0 z].
          - rewrite app_nil_r in E. rewrite <- E. apply (FR [x] r); [reflexivity|discriminate].
          - destruct (@exists_last _ (z0 :: z)) as (z' & c' & Ez); [discriminate|]. rewrite Ez, app_assoc in E. apply snoc_inj in E as [E _].
            apply (r_sep _ _ (proj2 Wt)). apply (closed_app _ _ _ z' (proj2 Wt)). now rewrite <- E. }
      cbn [rbind]. destruct (parent t f lead p x Wt Ip Fp Fx) as (j & Nj & -> & ->). cbn [rbind].
      destruct (mk1 t f j p x now Wt Cn Nj Fx Dn I1) as (f1 & j1 & E1 & N1 & W1 & S1).
      { apply (FR [x] r); [reflexivity|discriminate]. }
      { lia. }
      rewrite E1. cbn [rbind snd fst].
      assert (Nj' : nth_error (tdirs (add_dir (p ++ [x]) t)) j = Some p).
      { unfold add_dir. destruct (in_dec _ _ _); [contradiction|]. cbn [tdirs]. rewrite nth_error_app1; [exact Nj|apply nth_error_Some; congruence]. }
      destruct Fx as (X1 & X2 & X3 & X4 & X5).
      rewrite (wGet_dir _ f1 j p x j1 W1 Nj' X3 N1). cbn [rbind].
      destruct (IH (add_dir (p ++ [x]) t) f1 (p ++ [x]) W1) as (f2 & E2 & W2 & S2); auto.
      + intros q. rewrite puts_add_dir. apply Cn.
      + apply isdir_add_dir. auto.
      + now rewrite <- EF.
      + lia.
      + exists f2. split; [exact E2|]. split; [exact W2|]. lia.
  Qed.

  Lemma mkdir_spec lead ds now t f : W t f -> counts t -> ds <> [] -> Forall name_ok ds -> date_ok now -> free ds t ->
    wEnd f + dcost [] ds t <= kStartBigFile ->
    exists f' j, dirMkdir junk srt fnd (pstr lead ds) now f = Ok (f', Some j) /\ nth_error (tdirs (mkdirs [] ds t)) j = Some ds /\
      W (mkdirs [] ds t) f' /\ wEnd f' = wEnd f + dcost [] ds t.
  Proof.
    intros Wt Cn NE F Dn FR L. unfold dirMkdir, recMkdir. destruct (pstr_parts lead ds NE (name_ok_weak _ F)) as (-> & _ & SP).
    rewrite recGet_path by auto. pose proof (r_root _ _ (proj2 Wt)) as R0.
    destruct (in_dec path_dec ds (tdirs t)) as [I1|I1].
    - destruct (walk_dir t f ds Wt [] 0%nat R0 NE F I1) as (j & N & ->). cbn [rbind]. destruct (mkdirs_id t _ ds (proj2 Wt) [] I1) as (E1 & E2).
      rewrite E1, E2. exists f, j. split; [reflexivity|]. split; [exact N|]. split; [exact Wt|lia].
    - rewrite (walk_free t f ds Wt [] 0%nat R0 NE F I1) by exact FR. cbn [rbind]. cbv zeta. rewrite SP.
      assert (LOOP : exists f' j, (do r <- mkloop fnd (wGet srt) (wMkdir junk srt now) 0%nat [] (pre lead ++ ds) f;
                 if negb (snd r) then Ok (fst r, None)
                 else do g <- recGet fnd (wGet srt) 0%nat (pstr lead ds) (fst r);
                      match g with GDir d' => Ok (fst r, Some d') | _ => Ok (fst r, None) end) = Ok (f', Some j) /\
                 nth_error (tdirs (mkdirs [] ds t)) j = Some ds /\ W (mkdirs [] ds t) f' /\ wEnd f' = wEnd f + dcost [] ds t).
      { assert (M : mkloop fnd (wGet srt) (wMkdir junk srt now) 0%nat [] (pre lead ++ ds) f =
                    mkloop fnd (wGet srt) (wMkdir junk srt now) 0%nat (pre lead ++ []) ds f).
        { unfold pre. destruct lead; [|reflexivity]. cbn [app mkloop join]. reflexivity. }
        rewrite M. destruct (mkloop_spec lead now ds t f [] Wt Cn Dn (nth_error_In _ _ R0) F FR L) as (f' & -> & W' & S').
        cbn [rbind fst snd negb]. rewrite recGet_path by auto.
        destruct (walk_dir _ f' ds W' [] 0%nat (r_root _ _ (proj2 W')) NE F) as (j & N & ->).
        { apply isdir_mkdirs. right. exists ds, []. repeat split; auto. now rewrite app_nil_r. }
        cbn [rbind]. exists f', j. auto. }
      unfold pre in *. destruct lead; [cbn [app length Nat.eqb]; destruct ds; [congruence|exact LOOP]|]. destruct ds as [|x [|y r]]; [congruence| |exact LOOP].
      cbn [app length Nat.eqb]. clear LOOP. inversion_clear F as [|? ? Fx _].
      destruct (mk1 t f 0%nat [] x now Wt Cn R0 Fx Dn I1) as (f1 & j1 & E1 & N1 & W1 & S1).
      + apply (FR [x] []); [reflexivity|discriminate].
      + cbn [dcost app] in L. destruct (in_dec _ _ _); [contradiction|]. lia.
      + exists f1, j1. split; [exact E1|]. split; [exact N1|]. split; [exact W1|]. cbn [dcost app]. destruct (in_dec _ _ _); [contradiction|]. lia.
  Qed.

  Lemma put1 t f j p n o now : W t f -> counts (add_put (p ++ [n]) o t) -> nth_error (tdirs t) j = Some p -> n <> [] -> ~ In slash n ->
    op_ok cdc compr (OPut 0 n o now) -> op_live cdc compr (OPut 0 n o now) -> ~ isdir (p ++ [n]) t ->
    Forall (fun x => GoName2Cxx (oClass x) = oClass o) (puts_at (p ++ [n]) t) ->
    (exists b out, oData o (enc_len n (put_title o) (GoName2Cxx (oClass o))) = Some b /\ Compress cdc b compr = Ok (Some out)) ->
    wEnd f + cost cdc compr (OPut 0 n o now) <= kStartBigFile ->
    exists f', wPut junk cdc now j n o f = Ok (f', true) /\ W (add_put (p ++ [n]) o t) f' /\ wEnd f' = wEnd f + cost cdc compr (OPut 0 n o now).
  Proof.
    intros Wt Cn N Nn Sn OK LV NI CL (b & out & B1 & B2) L. pose proof Wt as (G & R). pose proof (W_lt _ _ _ _ Wt N) as Lj.
    pose proof (put_step t (view f) j p n o now R N NI Nn) as R'. assert (EN : put_as n o = n) by (destruct n; [congruence|reflexivity]).
    destruct (op_step (OPut j n o now) f G) as (f' & E & G' & V' & W').
    - exact OK.
    - exact LV.
    - cbn [accepts]. cbv zeta. rewrite EN, view_length, (r_put _ _ R _ _ _ N NI). destruct (Nat.ltb_spec j (length (wDirs f))); [|lia].
      destruct (has_byte slash n) eqn:H1; [apply has_byte_spec in H1; contradiction|]. destruct (str_eqb_spec n []); [congruence|]. cbn [negb andb].
      rewrite B1, B2, andb_true_r. apply forallb_forall. intros e I. apply in_map_iff in I as (x & <- & I). cbn [ent_of eClass].
      rewrite Forall_forall in CL. rewrite (CL x I). apply str_eqb_refl.
    - exact L.
    - apply (Rel_counts _ _ R'). exact Cn.
    - exists f'. split; [|split; [split; [exact G'|rewrite V'; exact R']|exact W']].
      unfold wPut. cbn [step] in E. destruct (Nat.ltb_spec j (length (wDirs f))); [exact E|lia].
  Qed.
  Lemma put_spec lead ds n o now t f : W t f -> counts (add_put (ds ++ [n]) o t) -> allowed cdc compr (KPut lead ds n o now) t ->
    wEnd f + ccost cdc compr (KPut lead ds n o now) t <= kStartBigFile ->
    exists f', dirPut junk cdc srt fnd (pstr lead (ds ++ [n])) o now f = Ok (f', true) /\ W (after (KPut lead ds n o now) t) f' /\
      wEnd f' = wEnd f + ccost cdc compr (KPut lead ds n o now) t.
  Proof.
    intros Wt Cn (F & Nn & Sn & LD & FR & OK & LV & NI & CL & B) L. cbn [ccost after] in *. unfold dirPut, recPut.
    pose proof (cost_nonneg cdc compr (OPut 0 n o now)) as CN.
    assert (Ct : counts t).
    { intros q. specialize (Cn q). rewrite puts_add in Cn. unfold zlen in *. rewrite app_length in Cn. lia. }
    destruct ds as [|x ds].
    - rewrite (LD eq_refl) in *. unfold pstr. cbn [app join]. rewrite pathSplit_none by auto. cbn [fst].
      change (trimRight []) with (@nil Z). cbv iota. cbn [mkdirs dcost] in *.
      destruct (put1 t f 0%nat [] n o now Wt Cn (r_root _ _ (proj2 Wt)) Nn Sn OK LV NI CL B) as (f' & E & W' & S'); [lia|].
      exists f'. split; [exact E|]. split; [exact W'|]. lia.
    - assert (E : pstr lead ((x :: ds) ++ [n]) = pstr lead (x :: ds) ++ slash :: n).
      { unfold pstr. rewrite join_snoc by discriminate. now rewrite app_assoc. }
      cbv zeta. rewrite E, pathSplit_app by auto. cbn [fst snd].
      destruct (pstr_end lead (x :: ds)) as (a & c & E2 & Nc); [discriminate|now apply name_ok_weak|].
      rewrite E2, trimRight_one, <- E2 by auto.
      assert (DD : exists f1, (do r <- recMkdir fnd (wGet srt) (wMkdir junk srt now) 0%nat (pstr lead (x :: ds)) f;
                match snd r with None => Ok (fst r, false) | Some p => wPut junk cdc now p n o (fst r) end) = Ok (f1, true) /\
                W (add_put ((x :: ds) ++ [n]) o (mkdirs [] (x :: ds) t)) f1 /\
                wEnd f1 = wEnd f + (dcost [] (x :: ds) t + cost cdc compr (OPut 0 n o now))).
      { destruct (mkdir_spec lead (x :: ds) now t f Wt Ct) as (f1 & j & E1 & N1 & W1 & S1); auto; [discriminate|apply OK|lia|].
        unfold dirMkdir in E1. rewrite E1. cbn [rbind fst snd].
        destruct (put1 (mkdirs [] (x :: ds) t) f1 j (x :: ds) n o now W1) as (f2 & E3 & W3 & S3); auto.
        - intros q. specialize (Cn q). rewrite puts_add in *. now rewrite puts_mkdirs.
        - rewrite isdir_mkdirs. intros [H|(u & v & E3 & _ & E4)]; [contradiction|]. cbn [app] in E4.
          apply (f_equal (@length str)) in E3. apply (f_equal (@length str)) in E4. rewrite app_length in *. cbn [length] in *. rewrite app_length in E4. cbn [length] in E4. lia.
        - rewrite puts_mkdirs. exact CL.
        - lia.
        - exists f2. split; [exact E3|]. split; [exact W3|]. lia. }
      destruct DD as (f1 & E1 & W1 & S1).
      destruct (pstr lead (x :: ds)) as [|z s] eqn:Ez; [destruct a; discriminate E2|]. rewrite E1. exists f1. auto.
  Qed.
End Writing.

(* the calls, in order: true when all succeed *)
Section Calls.
  Variable junk : nat -> Z.
  Variable cdc : codec.
  Variable srt : list (dkey nat) -> list (dkey nat).
  Variable fnd : fkey -> option (str -> gres nat fkey).
  Definition docall (c : call) (f : wfile) : res (wfile * bool) :=
    match c with
    | KPut lead ds n o now => dirPut junk cdc srt fnd (pstr lead (ds ++ [n])) o now f
    | KMkdir lead ds now =>
        do r <- dirMkdir junk srt fnd (pstr lead ds) now f;
        Ok (fst r, match snd r with Some _ => true | None => false end)
    end.
  Fixpoint docalls (cs : list call) (f : wfile) : res (wfile * list bool) :=
    match cs with
    | [] => Ok (f, [])
    | c :: cs' => do r <- docall c f; do r' <- docalls cs' (fst r); Ok (fst r', snd r :: snd r')
    end.
  Variable fname : str.
  Variable compr : Z.
  Hypothesis ST : sorts srt.

  Lemma puts_after q c t : exists l, puts_at q (after c t) = puts_at q t ++ l.
  Proof.
    destruct c as [lead ds n o now|lead ds now]; cbn [after]; [rewrite puts_add|]; rewrite puts_mkdirs; [eauto|].
    exists []. symmetry. apply app_nil_r.
  Qed.
  Lemma puts_afters q cs : forall t, exists l, puts_at q (afters cs t) = puts_at q t ++ l.
  Proof.
    induction cs as [|c cs IH]; intros t; cbn [afters fold_left]; [exists []; symmetry; apply app_nil_r|].
    destruct (IH (after c t)) as (l & E). destruct (puts_after q c t) as (l' & E'). unfold afters in E. rewrite E, E'. exists (l' ++ l). now rewrite app_assoc.
  Qed.
  Lemma counts_before cs t : counts (afters cs t) -> counts t.
  Proof.
    intros C q. specialize (C q). destruct (puts_afters q cs t) as (l & E). rewrite E in C. unfold zlen in *. rewrite app_length in C. lia.
  Qed.
  Lemma call_spec c t f : W cdc fname compr t f -> counts (after c t) -> allowed cdc compr c t -> wEnd f + ccost cdc compr c t <= kStartBigFile ->
    exists f', docall c f = Ok (f', true) /\ W cdc fname compr (after c t) f' /\ wEnd f' = wEnd f + ccost cdc compr c t.
  Proof.
    intros Wt Cn A L. pose proof (counts_before [c] t Cn) as Ct. destruct c as [lead ds n o now|lead ds now]; cbn [docall].
    - eapply put_spec; eauto. intros q. specialize (Cn q). cbn [after] in Cn. rewrite puts_add in *. now rewrite puts_mkdirs in Cn.
    - destruct A as (NE & F & Dn & FR).
      destruct (mkdir_spec junk cdc srt fnd fname compr ST lead ds now t f Wt Ct NE F Dn FR L) as (f' & j & -> & _ & W' & S'). cbn [rbind fst snd]. eauto.
  Qed.
  Lemma calls_spec cs : forall t f, W cdc fname compr t f -> counts (afters cs t) -> all_allowed cdc compr cs t ->
    wEnd f + crooms cdc compr cs t <= kStartBigFile ->
    exists f', docalls cs f = Ok (f', map (fun _ => true) cs) /\ W cdc fname compr (afters cs t) f' /\ wEnd f' = wEnd f + crooms cdc compr cs t.
  Proof.
    induction cs as [|c cs IH]; intros t f Wt Cn A L; cbn [docalls crooms all_allowed map] in *.
    - exists f. split; [reflexivity|]. split; [exact Wt|]. lia.
    - destruct A as (A & As). pose proof (crooms_nonneg cdc compr cs (after c t)).
      destruct (call_spec c t f Wt (counts_before cs _ Cn) A) as (f1 & -> & W1 & S1); [lia|]. cbn [rbind fst snd].
      destruct (IH (after c t) f1 W1 Cn As) as (f2 & -> & W2 & S2); [lia|]. cbn [rbind fst snd].
      exists f2. split; [reflexivity|]. split; [exact W2|]. lia.
  Qed.
End Calls.
