(* C59: nested paths.  What is put under "a/b/c" is found again under that path, and nothing else is. *)
From Coq Require Import ZArith List Lia Bool Sorting.Permutation Sorting.Sorted.
From Verif Require Import Bytes GoLib RbytesModel RbytesProofs RdMonad GoStrings FreelistModel FreelistProps KeyModel KeyProofs KeyProps
  DirModel DirProps CompressModel CompressProps RfileModel RfileSpec RfileProofs RfileInv RfileClose RfileOpen RfileLive RfileProps
  RecdirModel RecdirProofs.
Import ListNotations.
Local Open Scope Z_scope.

(* ---- specification of Get: the path, possibly with a cycle ---- *)
Definition cyc_str (co : option Z) : str := match co with None => [] | Some c => semicolon :: itoa c end.
Definition gstr (lead : bool) (p : path) (co : option Z) : str := pstr lead p ++ cyc_str co.
Definition co_ok (co : option Z) : Prop := match co with None => True | Some c => 1 <= c <= 32767 /\ c <> 9999 end.
(* without cycle, the last one *)
Definition pickc {A} (co : option Z) (l : list A) : option A :=
  match co with None => List.last (map Some l) None | Some c => nth_error l (Z.to_nat (c - 1)) end.
Definition plain (n : str) : Prop := n <> [] /\ ~ In slash n /\ ~ In semicolon n.
Definition first_cycle (co : option Z) : Prop := co = None \/ co = Some 1.

Lemma last_map {A B} (f : A -> B) (l : list A) : List.last (map Some (map f l)) None = option_map f (List.last (map Some l) None).
Proof.
  induction l as [|a l IH]; [reflexivity|]. destruct l as [|b l]; [reflexivity|]. cbn [map] in *.
  change (List.last (Some (f a) :: Some (f b) :: map Some (map f l)) None) with (List.last (Some (f b) :: map Some (map f l)) None).
  rewrite IH. reflexivity.
Qed.
Lemma pickc_map {A B} (f : A -> B) co (l : list A) : pickc co (map f l) = option_map f (pickc co l).
Proof. destruct co as [c|]; cbn [pickc]; [apply nth_error_map|apply last_map]. Qed.
Lemma lookup_pickc n co es : lookup (n, co) es = pickc co (named n es).
Proof. destruct co; reflexivity. Qed.

(* Get on directories of any kind that answer as the entries of a store *)
Section Generic.
  Context {St D L : Type}.
  Variable finder : L -> option (str -> gres D L).
  Variable dget : D -> str -> St -> res (gres D L).
  Variable st : St.
  Variable S : store.
  Variable relD : D -> nat -> Prop.
  Variable relL : L -> entry -> Prop.
  Definition answers (g : gres D L) (r : option entry) : Prop :=
    match r with
    | None => g = GNoKey
    | Some e => match eBody e with CDir j => exists d, g = GDir d /\ relD d j | CObj _ => exists l, g = GObj l /\ relL l e end
    end.
  Hypothesis GET : forall d j nc, relD d j -> nc_ok nc -> exists g, dget d (nc_string nc) st = Ok g /\ answers g (lookup nc (nth j S [])).
  Hypothesis G9999 : forall d n, ~ In semicolon n -> dget d (n ++ semicolon :: itoa 9999) st = dget d n st.
  Variable t : tree.
  Hypothesis R : Rel t S.

  Definition outcome (q : path) (co : option Z) (g : gres D L) : Prop :=
    (isdir q t -> first_cycle co -> exists d j, g = GDir d /\ relD d j /\ nth_error (tdirs t) j = Some q) /\
    (forall o, pickc co (puts_at q t) = Some o -> exists n l, g = GObj l /\ relL l (ent_of n o)) /\
    ((forall l, finder l = None) -> ~ (isdir q t /\ first_cycle co) -> pickc co (puts_at q t) = None -> g = GNoKey \/ g = GErr).
  Lemma pickc_nil {A} co : pickc co (@nil A) = None.
  Proof. destruct co as [c|]; [|reflexivity]. cbn [pickc]. now destruct (Z.to_nat (c - 1)). Qed.
  Lemma outcome_lost q co g : ~ isdir q t -> puts_at q t = [] -> ((forall l, finder l = None) -> g = GNoKey \/ g = GErr) -> outcome q co g.
  Proof.
    intros NI NP H. split; [intros I; contradiction|]. rewrite NP, pickc_nil. split; [discriminate|]. auto.
  Qed.
  Lemma walkobj_total : forall l path, path <> [] -> exists g, walkobj finder l path = Ok g.
  Proof.
    intros l path. revert l. induction path as [|n [|m p] IH]; intros l N; [congruence|eexists; reflexivity|].
    cbn [walkobj]. destruct (l n) as [| |d|x]; eauto. destruct (finder x) as [f'|]; eauto. apply IH. discriminate.
  Qed.
  Lemma below q r : ~ isdir q t -> r <> [] -> ~ isdir (q ++ r) t /\ puts_at (q ++ r) t = [].
  Proof.
    intros NI Nr. split; [intros H; apply NI; eapply closed_app; eauto|].
    destruct (exists_last Nr) as (r' & x & ->). rewrite app_assoc. destruct (puts_at ((q ++ r') ++ [x]) t) as [|o l] eqn:E; [reflexivity|].
    exfalso. apply NI. apply (closed_app t S q r' R). apply (r_par _ _ R (q ++ r') x). rewrite E. discriminate.
  Qed.
  Lemma gwalk rest : forall p d j (n : str) co, relD d j -> nth_error (tdirs t) j = Some p -> Forall (fun n => ~ In semicolon n) (rest ++ [n]) -> co_ok co ->
    exists g, walkdir finder dget d (rest ++ [n]) (match co with None => 9999 | Some c => c end) st = Ok g /\ outcome (p ++ rest ++ [n]) co g.
  Proof.
    induction rest as [|x r IH]; intros p d j n co RD N F CO.
    - cbn [app walkdir]. inversion_clear F as [|? ? Fn _].
      assert (E : dget d (n ++ semicolon :: itoa (match co with None => 9999 | Some c => c end)) st = dget d (nc_string (n, co)) st).
      { destruct co; [reflexivity|]. now rewrite G9999. }
      rewrite E. destruct (GET d j (n, co) RD) as (g & -> & A); [split; [exact Fn|exact CO]|]. exists g. split; [reflexivity|].
      rewrite lookup_pickc in A. destruct (in_dec path_dec (p ++ [n]) (tdirs t)) as [I|NI].
      + apply In_nth_error in I as (j' & N'). rewrite (r_dir _ _ R _ _ _ _ N N') in A.
        assert (NP : puts_at (p ++ [n]) t = []) by (apply (r_sep _ _ R); eapply nth_error_In; eauto).
        split.
        { intros _ [-> | ->]; cbn in A; destruct A as (d' & -> & RD'); eauto. }
        rewrite NP, pickc_nil. split; [discriminate|]. intros _ H _. left.
        destruct co as [c|]; [|exfalso; apply H; split; [eapply nth_error_In; eauto|left; reflexivity]].
        cbn [pickc co_ok] in A, CO. destruct (Z.eq_dec c 1) as [->|Nc]; [exfalso; apply H; split; [eapply nth_error_In; eauto|right; reflexivity]|].
        destruct (Z.to_nat (c - 1)) as [|k] eqn:Ek; [lia|]. cbn in A. now destruct k.
      + rewrite (r_put _ _ R _ _ _ N NI), pickc_map in A. split; [intros I; contradiction|]. split.
        * intros o E'. rewrite E' in A. cbn in A. destruct A as (l & -> & RL). eauto.
        * intros _ _ E'. rewrite E' in A. cbn in A. auto.
    - inversion_clear F as [|? ? Fx Fr]. destruct (GET d j (x, None) RD) as (g & E & A); [split; [exact Fx|exact I]|].
      rewrite lookup_pickc in A. cbn [nc_string fst snd] in E. assert (EP : p ++ (x :: r) ++ [n] = (p ++ [x]) ++ r ++ [n]) by (cbn [app]; now rewrite <- app_assoc).
      assert (EW : walkdir finder dget d ((x :: r) ++ [n]) (match co with None => 9999 | Some c => c end) st =
        match g with GDir d' => walkdir finder dget d' (r ++ [n]) (match co with None => 9999 | Some c => c end) st
                | GObj l => match finder l with Some f => walkobj finder f (r ++ [n]) | None => Ok GErr end | e => Ok e end).
      { cbn [app walkdir]. destruct (r ++ [n]) as [|y z] eqn:Er; [destruct r; discriminate Er|]. rewrite E. reflexivity. }
      rewrite EW, EP. clear EW. assert (Nr : r ++ [n] <> []) by (destruct r; discriminate).
      destruct (in_dec path_dec (p ++ [x]) (tdirs t)) as [I|NI].
      + apply In_nth_error in I as (j' & N'). rewrite (r_dir _ _ R _ _ _ _ N N') in A. cbn in A. destruct A as (d' & -> & RD'). eapply IH; eauto.
      + destruct (below _ _ NI Nr) as (B1 & B2). rewrite (r_put _ _ R _ _ _ N NI), pickc_map in A.
        destruct (pickc None (puts_at (p ++ [x]) t)) as [o|]; cbn in A.
        * destruct A as (l & -> & _). destruct (finder l) as [f|] eqn:Ef.
          -- destruct (walkobj_total f (r ++ [n]) Nr) as (g & ->). exists g. split; [reflexivity|]. apply outcome_lost; auto. intros H. rewrite H in Ef. discriminate.
          -- eexists. split; [reflexivity|]. apply outcome_lost; auto.
        * subst g. eexists. split; [reflexivity|]. apply outcome_lost; auto.
  Qed.
  Lemma gget d lead p co : relD d 0%nat -> p <> [] -> Forall plain p -> co_ok co ->
    exists g, recGet finder dget d (gstr lead p co) st = Ok g /\ outcome p co g.
  Proof.
    intros RD NE F CO. assert (Fw : Forall (fun n => n <> [] /\ ~ In slash n) p) by (eapply Forall_impl; [|exact F]; intros a (A & B & _); auto).
    assert (Fs : Forall (fun n => ~ In semicolon n) p) by (eapply Forall_impl; [|exact F]; intros a (_ & _ & A); auto).
    destruct (pstr_parts lead p NE Fw) as (PE & PS & _). pose proof (pstr_nosemi lead p Fs) as NS.
    assert (DE : decodeNameCycle (gstr lead p co) = Ok (pstr lead p, match co with None => 9999 | Some c => c end)).
    { unfold gstr, cyc_str. destruct co as [c|]; cbn [co_ok] in CO.
      - apply C14_encode_decode; [auto|lia].
      - rewrite app_nil_r. now apply C14_plain. }
    assert (NN : (str_eqb (gstr lead p co) [] || str_eqb (gstr lead p co) [slash]) = false).
    { apply orb_false_iff in PE as (P1 & P2). apply orb_false_iff. split.
      - destruct (str_eqb_spec (gstr lead p co) []) as [E|]; [|reflexivity]. unfold gstr in E. apply app_eq_nil in E as (E & _). rewrite E in P1. discriminate P1.
      - destruct (str_eqb_spec (gstr lead p co) [slash]) as [E|]; [|reflexivity]. unfold gstr in E.
        destruct (pstr lead p) as [|a [|b s]]; cbn in P1; [discriminate P1| |discriminate E].
        cbn [app] in E. assert (a = slash) by congruence. subst a. rewrite str_eqb_refl in P2. discriminate P2. }
    unfold recGet. rewrite NN, DE. cbn [rbind fst snd]. rewrite PS. destruct (exists_last NE) as (ds & n & ->).
    destruct (gwalk ds [] d 0%nat n co RD (r_root _ _ R) Fs CO) as (g & -> & O'). exists g. auto.
  Qed.
End Generic.

(* ---- on a file being written ---- *)
Section OnWritten.
  Variable cdc : codec.
  Variable srt : list (dkey nat) -> list (dkey nat).
  Variable fnd : fkey -> option (str -> gres nat fkey).
  Variable fname : str.
  Variable compr : Z.
  Lemma written_get t f lead p co : sorts srt -> W cdc fname compr t f -> p <> [] -> Forall plain p -> co_ok co ->
    exists g, dirGet srt fnd (gstr lead p co) f = Ok g /\
      outcome fnd (fun d j => d = j) (fun k e => ent k = e) t p co g.
  Proof.
    intros ST (G & R) NE F CO. unfold dirGet.
    assert (LT : forall j, (j < length (wDirs f))%nat \/ (length (wDirs f) <= j)%nat) by (intros; lia).
    destruct (gget fnd (wGet srt) f (view f) (fun d j => d = j /\ (j < length (wDirs f))%nat) (fun k e => ent k = e)) with (t := t) (d := 0%nat) (lead := lead) (p := p) (co := co)
      as (g & E & O1 & O2 & O3); auto.
    - intros d j nc (-> & Lj) Nc. destruct (wGet_spec cdc srt fname compr ST j nc f G Lj Nc) as (g & E & A). exists g. split; [exact E|].
      unfold answers. destruct (lookup nc (nth j (view f) [])) as [e|] eqn:LK; [|exact A]. destruct (eBody e) as [m|j'] eqn:B; [exact A|]. exists j'.
      split; [exact A|]. split; [reflexivity|].
      (* the directory of an entry exists *)
      destruct (nth_error (wDirs f) j) as [d|] eqn:N; [|apply nth_error_None in N; lia]. rewrite (nth_view f _ _ N) in LK.
      assert (I : In e (map ent (wKeys d))).
      { rewrite (surjective_pairing nc), lookup_pickc in LK. unfold pickc in LK. destruct (snd nc) as [c|].
        - apply nth_error_In in LK. unfold named in LK. now apply filter_In in LK.
        - assert (H : forall l, List.last (map Some l) None = Some e -> In e l).
          { clear. induction l as [|a l IH]; [discriminate|]. destruct l as [|b l]; [cbn; intros H; left; congruence|]. intros H. right. apply IH. exact H. }
          apply H in LK. unfold named in LK. now apply filter_In in LK. }
      apply in_map_iff in I as (k & <- & Ik). cbn [ent eBody] in B. destruct (g_dirkey _ _ _ _ G _ _ _ _ N Ik B) as (dj & Nj & _).
      apply nth_error_Some. congruence.
    - intros d n Sn. now apply wGet_9999.
    - split; [reflexivity|]. destruct (g_root _ _ _ _ G) as (d0 & N0 & _). apply nth_error_Some. congruence.
    - exists g. split; [exact E|]. split; [|split; [exact O2|exact O3]].
      intros I1 I2. destruct (O1 I1 I2) as (d & j & A & (B & _) & C). eauto.
  Qed.
End OnWritten.

(* ---- on a file that was opened ---- *)
(* the keys of a directory that was read: under each name, the directory or what was put there, in order *)
Definition lists (t : tree) (p : path) (d : rdir) : Prop :=
  forall n, map (fun k => (kTitle k, kClass k)) (filter (fun k => str_eqb (kName k) n) (rKeys d)) =
    if in_dec path_dec (p ++ [n]) (tdirs t) then [(n, sTDirectoryFile)] else map (fun o => (put_title o, GoName2Cxx (oClass o))) (puts_at (p ++ [n]) t).
Lemma filter_maps {A B X} (na : A -> str) (nb : B -> str) (fa : A -> X) (fb : B -> X) n (la : list A) : forall (lb : list B),
  map na la = map nb lb -> map fa la = map fb lb -> map fa (filter (fun k => str_eqb (na k) n) la) = map fb (filter (fun e => str_eqb (nb e) n) lb).
Proof.
  induction la as [|a la IH]; intros [|b lb] E1 E2; try discriminate; [reflexivity|]. cbn [map filter] in *.
  assert (H1 : na a = nb b) by congruence. assert (H2 : fa a = fb b) by congruence. assert (H3 : map na la = map nb lb) by congruence.
  assert (H4 : map fa la = map fb lb) by congruence. rewrite H1. destruct (str_eqb (nb b) n); cbn [map]; rewrite (IH lb) by auto; congruence.
Qed.
Lemma map_pairs {A B X Y} (f1 : A -> X) (f2 : A -> Y) (g1 : B -> X) (g2 : B -> Y) (la : list A) : forall (lb : list B),
  map f1 la = map g1 lb -> map f2 la = map g2 lb -> map (fun a => (f1 a, f2 a)) la = map (fun b => (g1 b, g2 b)) lb.
Proof.
  induction la as [|a la IH]; intros [|b lb] E1 E2; try discriminate; [reflexivity|]. cbn [map] in *.
  rewrite (IH lb) by congruence. congruence.
Qed.
Lemma shows_lists t S e j p d : Rel t S -> eBody e = CDir j -> nth_error (tdirs t) j = Some p -> shows S e (RDir d) -> lists t p d.
Proof.
  intros R B N H. unfold shows in H. rewrite B in H. destruct H as (H1 & H2 & H3 & _). intros n.
  rewrite (filter_maps kName eName (fun k => (kTitle k, kClass k)) (fun e => (eTitle e, shown_class e)) n _ (nth j S []) H1).
  2:{ now apply map_pairs. }
  change (filter (fun e0 => str_eqb (eName e0) n) (nth j S [])) with (named n (nth j S [])).
  destruct (in_dec path_dec (p ++ [n]) (tdirs t)) as [I|NI].
  - apply In_nth_error in I as (j' & N'). rewrite (r_dir _ _ R _ _ _ _ N N'). reflexivity.
  - rewrite (r_put _ _ R _ _ _ N NI), map_map. reflexivity.
Qed.
Lemma walk_app cdc srt D path1 path2 : forall o, walk cdc srt D o (path1 ++ path2) =
  do r <- walk cdc srt D o path1; match r with None => Ok None | Some o' => walk cdc srt D o' path2 end.
Proof.
  induction path1 as [|n p IH]; intros o; [reflexivity|]. cbn [app walk]. destruct o; [reflexivity|].
  destruct (rGet cdc srt D d n) as [[o'|]|]; cbn [rbind]; auto.
Qed.
Lemma locate_app S path1 path2 : forall e, locate S e (path1 ++ path2) =
  match locate S e path1 with None => None | Some e' => locate S e' path2 end.
Proof.
  induction path1 as [|n p IH]; intros e; [reflexivity|]. cbn [app locate]. destruct (eBody e) as [m|j]; [reflexivity|].
  destruct (lookup n (nth j S [])); auto.
Qed.
Section OnRead.
  Variable cdc : codec.
  Variable srt : list (dkey nat) -> list (dkey nat).
  Variable fnd : robj -> option (str -> gres rdir robj).
  Variable D : list Z.
  Variable S : store.
  Variable root : rdir.
  Variable e0 : entry.
  Hypothesis E0 : eBody e0 = CDir 0.
  Hypothesis SH0 : shows S e0 (RDir root).
  Hypothesis WALK : forall path, Forall nc_ok path ->
      exists r, walk cdc srt D (RDir root) (map nc_string path) = Ok r /\
        match locate S e0 path with None => r = None | Some e => exists o, r = Some o /\ shows S e o end.
  Definition reldir (d : rdir) (j : nat) : Prop :=
    exists path e, Forall nc_ok path /\ locate S e0 path = Some e /\ eBody e = CDir j /\ walk cdc srt D (RDir root) (map nc_string path) = Ok (Some (RDir d)).
  Lemma reldir_root : reldir root 0%nat.
  Proof. exists [], e0. repeat split; auto. Qed.
  Lemma reldir_lists t d j p : Rel t S -> reldir d j -> nth_error (tdirs t) j = Some p -> lists t p d.
  Proof.
    intros R (path & e & F & LO & B & WK) N. destruct (WALK path F) as (r & E & M). rewrite LO in M. destruct M as (o & -> & SH).
    assert (o = RDir d) by congruence. subst o. eapply shows_lists; eauto.
  Qed.
  Lemma reldir_get d j nc : reldir d j -> nc_ok nc -> exists g, rGet' cdc srt d (nc_string nc) D = Ok g /\
    answers reldir (fun l e => shows S e l) g (lookup nc (nth j S [])).
  Proof.
    intros (path & e & F & LO & B & WK) Nc. assert (F' : Forall nc_ok (path ++ [nc])) by (apply Forall_app; split; auto).
    destruct (WALK _ F') as (r & E & M). pose proof E as E'. rewrite map_app, walk_app, WK in E. cbn [rbind map walk] in E.
    unfold rGet'. destruct (rGet cdc srt D d (nc_string nc)) as [r'|]; cbn [rbind] in E; [|discriminate E]. cbn [rbind].
    assert (r' = r) by (destruct r' as [o|]; congruence). subst r'. eexists. split; [reflexivity|].
    rewrite locate_app, LO in M. cbn [locate] in M. rewrite B in M. unfold answers.
    destruct (lookup nc (nth j S [])) as [e'|] eqn:LK; [|now rewrite M]. destruct M as (o & -> & SH).
    destruct (eBody e') as [m|j'] eqn:B'; destruct o as [cl b off|d']; unfold shows in SH; rewrite B' in SH; try contradiction.
    - eexists. split; [reflexivity|]. unfold shows. now rewrite B'.
    - exists d'. split; [reflexivity|]. exists (path ++ [nc]), e'. repeat split; auto. rewrite locate_app, LO. cbn [locate]. now rewrite B, LK.
  Qed.
  Lemma read_get t lead p co : Rel t S -> p <> [] -> Forall plain p -> co_ok co ->
    exists g, recGet fnd (rGet' cdc srt) root (gstr lead p co) D = Ok g /\ outcome fnd reldir (fun l e => shows S e l) t p co g.
  Proof.
    intros R NE F CO. apply (gget fnd (rGet' cdc srt) D S reldir (fun l e => shows S e l)); auto.
    - intros. now apply reldir_get.
    - intros d n Sn. unfold rGet', rGet, pick, get. rewrite (C14_plain n Sn). change (n ++ semicolon :: itoa 9999) with (namecycle n 9999).
      rewrite C14_encode_decode by (auto; lia). reflexivity.
    - apply reldir_root.
  Qed.
End OnRead.

Section Theorems.
  Variable junk : nat -> Z.
  Variable cdc : codec.
  Variable srt : list (dkey nat) -> list (dkey nat).
  Variable fnd : fkey -> option (str -> gres nat fkey).
  Variable fname : str.
  Variable compr : Z.
  Variable now : civil.

  Definition start_size : Z := 194 + 2 * tstringSizeof fname.
  Lemma calls_good cs : sorts srt -> str_ok fname -> zlen fname <= 478 -> date_ok now ->
    all_allowed cdc compr cs tree0 -> (forall p, zlen (puts_at p (afters cs tree0)) <= 32767) ->
    start_size + crooms cdc compr cs tree0 <= kStartBigFile ->
    exists f0 f, Create junk fname compr now = Ok f0 /\ docalls junk cdc srt fnd cs f0 = Ok (f, map (fun _ => true) cs) /\
      W cdc fname compr (afters cs tree0) f /\ wEnd f = start_size + crooms cdc compr cs tree0.
  Proof.
    intros ST SF LF Dn A Cn L. destruct (create_eq junk fname compr now SF LF Dn) as (dk & k & HC & _).
    destruct (create_good junk cdc fname compr now _ SF LF Dn HC) as (G0 & V0).
    assert (E0 : wEnd (fresh fname compr dk (100 + (tstringSizeof fname + 1 + hsize + enc_len fname [] sTFile))
                        (enc_len fname [] sTFile + (tstringSizeof fname + 1)) now) = start_size).
    { unfold fresh, wEnd. cbn [wSpace fend]. unfold enc_len, hsize, start_size. change (tstringSizeof sTFile) with 6. change (tstringSizeof []) with 1. lia. }
    assert (W0 : W cdc fname compr tree0 (fresh fname compr dk (100 + (tstringSizeof fname + 1 + hsize + enc_len fname [] sTFile))
                        (enc_len fname [] sTFile + (tstringSizeof fname + 1)) now)) by (split; [exact G0|rewrite V0; apply Rel0]).
    destruct (calls_spec junk cdc srt fnd fname compr ST cs _ _ W0 Cn A) as (f & E & W1 & S1); [rewrite E0; exact L|].
    eexists _, f. split; [exact HC|]. split; [exact E|]. split; [exact W1|]. now rewrite S1, E0.
  Qed.
End Theorems.

(* Put and Mkdir with nested paths create the directories that miss and succeed; once the file was closed and opened,
   Get of a path gives the directory that was created there, with its content, or the last object that was put there
   (with a cycle: that one), and nothing is found under any other path. *)
Theorem C59_reopen junk cdc srt fnd fname compr now cs si clk t1 t2 :
  sorts srt -> str_ok fname -> zlen fname <= 478 -> inS 32 compr ->
  date_ok now -> (forall j, date_ok (clk j)) -> date_ok t1 -> date_ok t2 ->
  (forall off, payload_ok cdc compr (si off)) -> (forall off, exists out, Compress cdc (si off) compr = Ok (Some out)) ->
  let t := afters cs tree0 in
  all_allowed cdc compr cs tree0 -> (forall p, zlen (puts_at p t) <= 32767) ->
  start_size fname + crooms cdc compr cs tree0 <= kStartBigFile ->
  exists f0 f f', Create junk fname compr now = Ok f0 /\ docalls junk cdc srt fnd cs f0 = Ok (f, map (fun _ => true) cs) /\
    wEnd f = start_size fname + crooms cdc compr cs tree0 /\ Close junk cdc si clk t1 t2 f = Ok (Some f') /\
    (wEnd f' <= kStartBigFile ->
     exists R, Open cdc (wDisk f') = Ok (Some R) /\ lists t [] (rfRoot R) /\
       forall rfnd, fileGet cdc srt rfnd R [] (wDisk f') = Ok (GDir (rfRoot R)) /\ fileGet cdc srt rfnd R [slash] (wDisk f') = Ok (GDir (rfRoot R)) /\
       forall lead p co, p <> [] -> Forall plain p -> co_ok co ->
         exists g, fileGet cdc srt rfnd R (gstr lead p co) (wDisk f') = Ok g /\
           (isdir p t -> first_cycle co -> exists d, g = GDir d /\ lists t p d) /\
           (forall o, pickc co (puts_at p t) = Some o -> exists b off, g = GObj (RLeaf (GoName2Cxx (oClass o)) b off) /\ oData o off = Some b) /\
           ((forall l, rfnd l = None) -> ~ (isdir p t /\ first_cycle co) -> pickc co (puts_at p t) = None -> g = GNoKey \/ g = GErr)).
Proof.
  intros ST SF LF IC Dn Dc D1 D2 PO CO t A Cn L.
  destruct (calls_good junk cdc srt fnd fname compr now cs ST SF LF Dn A Cn L) as (f0 & f & HC & HR & (G & R) & S1).
  assert (LE : wEnd f <= kStartBigFile) by lia.
  destruct (close_total junk cdc fname compr si clk t1 t2 f G LE Dc D1 D2 PO CO) as (f' & HX).
  exists f0, f, f'. split; [exact HC|]. split; [exact HR|]. split; [exact S1|]. split; [exact HX|]. intros L'.
  destruct (reopen_view junk cdc srt fname compr si clk t1 t2 f f' ST IC Dc D1 D2 PO G HX LE L') as (RF & HO & _ & _ & _ & _ & SH & WK).
  exists RF. split; [exact HO|]. split; [exact (shows_lists t (view f) (root_entry fname) 0 [] (rfRoot RF) R eq_refl (r_root _ _ R) SH)|]. intros rfnd. split; [reflexivity|]. split; [reflexivity|].
  intros lead p co NE F CO'. destruct (read_get cdc srt rfnd (wDisk f') (view f) (rfRoot RF) (root_entry fname) eq_refl WK t lead p co R NE F CO') as (g & E & O1 & O2 & O3).
  exists g. split; [exact E|]. split; [|split; [|exact O3]].
  - intros I FC. destruct (O1 I FC) as (d & j & -> & RD & N). exists d. split; [reflexivity|]. eapply reldir_lists; eauto.
  - intros o E'. destruct (O2 o E') as (n & l & -> & SHo). unfold shows in SHo. cbn [ent_of eBody eClass] in SHo.
    destruct l as [cl b off|]; [|contradiction]. destruct SHo as (-> & M). eauto.
Qed.

(* Get finds the same on the file that is being written *)
Theorem C59_get junk cdc srt fnd fname compr now cs :
  sorts srt -> str_ok fname -> zlen fname <= 478 -> date_ok now ->
  let t := afters cs tree0 in
  all_allowed cdc compr cs tree0 -> (forall p, zlen (puts_at p t) <= 32767) ->
  start_size fname + crooms cdc compr cs tree0 <= kStartBigFile ->
  exists f0 f, Create junk fname compr now = Ok f0 /\ docalls junk cdc srt fnd cs f0 = Ok (f, map (fun _ => true) cs) /\
    forall lead p co, p <> [] -> Forall plain p -> co_ok co ->
      exists g, dirGet srt fnd (gstr lead p co) f = Ok g /\
        (isdir p t -> first_cycle co -> exists j, g = GDir j /\ nth_error (tdirs t) j = Some p) /\
        (forall o, pickc co (puts_at p t) = Some o -> exists k, g = GObj k /\ kClass (fKey k) = GoName2Cxx (oClass o) /\ fObj k = CObj (oData o)) /\
        ((forall l, fnd l = None) -> ~ (isdir p t /\ first_cycle co) -> pickc co (puts_at p t) = None -> g = GNoKey \/ g = GErr).
Proof.
  intros ST SF LF Dn t A Cn L.
  destruct (calls_good junk cdc srt fnd fname compr now cs ST SF LF Dn A Cn L) as (f0 & f & HC & HR & WF & S1).
  exists f0, f. split; [exact HC|]. split; [exact HR|]. intros lead p co NE F CO.
  destruct (written_get cdc srt fnd fname compr t f lead p co ST WF NE F CO) as (g & E & O1 & O2 & O3).
  exists g. split; [exact E|]. split; [|split; [|exact O3]].
  - intros I FC. destruct (O1 I FC) as (d & j & -> & -> & N). eauto.
  - intros o E'. destruct (O2 o E') as (n & k & -> & EE). exists k. split; [reflexivity|]. unfold ent, ent_of in EE.
    split; [|]; congruence.
Qed.

(* ---- paths that go on inside an object ---- *)
(* what the finders of objects give for a path: each one is asked for the next element *)
Inductive inside {D L} (finder : L -> option (str -> gres D L)) : (str -> gres D L) -> path -> gres D L -> Prop :=
| inside_one f x : inside finder f [x] (f x)
| inside_more f x l f' q g : f x = GObj l -> finder l = Some f' -> inside finder f' q g -> inside finder f (x :: q) g.
Lemma inside_walkobj {D L} (finder : L -> option (str -> gres D L)) f q g : inside finder f q g -> walkobj finder f q = Ok g.
Proof.
  induction 1 as [f x|f x l f' q g E1 E2 H IH]; [reflexivity|]. destruct q as [|y q]; [inversion H|].
  cbn [walkobj] in *. rewrite E1, E2. exact IH.
Qed.
(* on a file that was opened: below an object, Get gives what the objects give *)
Theorem C59_inside cdc srt rfnd R D lead p q l f g : p <> [] -> Forall plain p -> Forall plain q ->
  fileGet cdc srt rfnd R (pstr lead p) D = Ok (GObj l) -> rfnd l = Some f -> inside rfnd f q g ->
  fileGet cdc srt rfnd R (pstr lead (p ++ q)) D = Ok g.
Proof.
  intros Np Fp Fq H F I.
  assert (Nq : q <> []) by (inversion I; discriminate).
  assert (P0 : forall p, Forall plain p -> Forall (fun n => n <> [] /\ ~ In slash n) p).
  { intros p0 F0. eapply Forall_impl; [|exact F0]. intros a (A & B & _); auto. }
  assert (RG : forall p, p <> [] -> Forall plain p -> fileGet cdc srt rfnd R (pstr lead p) D = walkdir rfnd (rGet' cdc srt) (rfRoot R) p 9999 D).
  { intros p0 N0 F0. unfold fileGet, recGet. destruct (pstr_parts lead p0 N0 (P0 p0 F0)) as (A & B & _). rewrite A.
    rewrite C14_plain; [cbn [rbind fst snd]; rewrite B; reflexivity|].
    unfold pstr. intros K. apply in_app_or in K as [K|K].
    - destruct lead; [destruct K as [K|[]]; discriminate | exact K].
    - apply in_join in K as [K|(x & X1 & X2)]; [discriminate|]. rewrite Forall_forall in F0. apply (F0 x X1). exact X2. }
  assert (G9 : forall d n, ~ In semicolon n -> rGet' cdc srt d (n ++ semicolon :: itoa 9999) D = rGet' cdc srt d n D).
  { intros d n Sn. unfold rGet', rGet, pick, get. rewrite (C14_plain n Sn). change (n ++ semicolon :: itoa 9999) with (namecycle n 9999).
    rewrite C14_encode_decode; [reflexivity | exact Sn | lia]. }
  rewrite RG in H by auto. rewrite RG; [|destruct p; [congruence|discriminate] | apply Forall_app; auto].
  clear RG. revert H. generalize (rfRoot R). induction p as [|n p IH]; intros d H; [congruence|].
  inversion Fp as [|? ? Hn Fp']; subst. destruct p as [|m p].
  - cbn [app walkdir] in *. rewrite G9 in H by apply Hn. destruct q as [|y q]; [congruence|]. rewrite H. cbn [rbind]. rewrite F.
    apply inside_walkobj; exact I.
  - change ((n :: m :: p) ++ q) with (n :: (m :: p) ++ q).
    assert (Wc : forall r, r <> [] -> walkdir rfnd (rGet' cdc srt) d (n :: r) 9999 D =
      (do g <- rGet' cdc srt d n D; match g with GDir d' => walkdir rfnd (rGet' cdc srt) d' r 9999 D
         | GObj l => match rfnd l with Some f => walkobj rfnd f r | None => Ok GErr end | e => Ok e end)).
    { intros r Nr. destruct r; [congruence|reflexivity]. }
    rewrite Wc in H by discriminate. rewrite Wc by discriminate.
    destruct (rGet' cdc srt d n D) as [g0|]; [|discriminate]. cbn [rbind] in *.
    destruct g0 as [| |d'|l']; try discriminate.
    + apply IH; auto. discriminate.
    + destruct (rfnd l') as [f1|]; [|discriminate].
      assert (WO : forall r f1, walkobj rfnd f1 r = Ok (GObj l) -> walkobj rfnd f1 (r ++ q) = Ok g).
      { clear - F I Nq. induction r as [|a r IHr]; intros f1 H; [discriminate|]. destruct r as [|b r].
        - cbn [app walkobj] in *. destruct q as [|y q]; [congruence|]. injection H as ->. rewrite F. apply inside_walkobj; exact I.
        - change ((a :: b :: r) ++ q) with (a :: (b :: r) ++ q).
          assert (We : forall r, r <> [] -> walkobj rfnd f1 (a :: r) = match f1 a with GObj l => match rfnd l with Some f' => walkobj rfnd f' r | None => Ok GErr end
             | GDir _ => Ok GErr | e => Ok e end) by (intros r0 N0; destruct r0; [congruence|reflexivity]).
          rewrite We in H by discriminate. rewrite We by discriminate. destruct (f1 a) as [| | |l1]; try discriminate.
          destruct (rfnd l1); [|discriminate]. apply IHr; exact H. }
      apply WO; exact H.
Qed.

Lemma last_some {A} (l : list A) : l <> [] -> exists x, List.last (map Some l) None = Some x.
Proof.
  induction l as [|a [|b l] IH]; intros N; [congruence|eexists; reflexivity|]. destruct IH as (x & E); [discriminate|]. exists x. exact E.
Qed.
(* Mkdir of a path under which an object was put does not fail, it panics; so does Put of a path that goes through one *)
Theorem C59_mkdir_object_panics junk cdc srt fnd fname compr now cs :
  sorts srt -> str_ok fname -> zlen fname <= 478 -> date_ok now ->
  let t := afters cs tree0 in
  all_allowed cdc compr cs tree0 -> (forall p, zlen (puts_at p t) <= 32767) ->
  start_size fname + crooms cdc compr cs tree0 <= kStartBigFile ->
  exists f0 f, Create junk fname compr now = Ok f0 /\ docalls junk cdc srt fnd cs f0 = Ok (f, map (fun _ => true) cs) /\
    forall lead p n o when, Forall plain p -> puts_at p t <> [] -> ~ In slash n -> p <> [] ->
      dirMkdir junk srt fnd (pstr lead p) when f = Panic /\ dirPut junk cdc srt fnd (pstr lead (p ++ [n])) o when f = Panic.
Proof.
  intros ST SF LF Dn t A Cn L.
  destruct (calls_good junk cdc srt fnd fname compr now cs ST SF LF Dn A Cn L) as (f0 & f & HC & HR & WF & S1).
  exists f0, f. split; [exact HC|]. split; [exact HR|]. intros lead p n o when F NP Sn NE.
  destruct (written_get cdc srt fnd fname compr t f lead p None ST WF NE F I) as (g & E & _ & O2 & _).
  destruct (last_some _ NP) as (x & EX). destruct (O2 x EX) as (nm & k & -> & _). unfold gstr, cyc_str in E. rewrite app_nil_r in E.
  assert (Fw : Forall (fun n => n <> [] /\ ~ In slash n) p) by (eapply Forall_impl; [|exact F]; intros a (Q & B & _); auto).
  assert (M : dirMkdir junk srt fnd (pstr lead p) when f = Panic).
  { unfold dirMkdir, recMkdir. destruct (pstr_parts lead p NE Fw) as (-> & _). unfold dirGet in E. rewrite E. reflexivity. }
  split; [exact M|]. unfold dirPut, recPut.
  assert (EQ : pstr lead (p ++ [n]) = pstr lead p ++ slash :: n) by (unfold pstr; rewrite join_snoc by auto; now rewrite app_assoc).
  cbv zeta. rewrite EQ, pathSplit_app by auto. cbn [fst snd]. destruct (pstr_end lead p NE Fw) as (a & c & E2 & Nc).
  rewrite E2, trimRight_one, <- E2 by auto. unfold dirMkdir in M.
  destruct (pstr lead p) as [|z s] eqn:Ez; [destruct a; discriminate E2|]. rewrite M. reflexivity.
Qed.

(* ---- an example ---- *)
Definition nofind {A B} (_ : A) : option (str -> B) := None.
Definition ex_small2 : object (Z -> option (list Z)) := mkObj [84; 72] (Some ([104], [117])) (fun off => Some [4; 4; off mod 256]).
(* Put a/b/c, Mkdir /a/d, Put /a/b/c again, Put h *)
Definition ex_calls : list call :=
  [KPut false [[97]; [98]] [99] ex_small ex_now; KMkdir true [[97]; [100]] ex_now; KPut true [[97]; [98]] [99] ex_small2 ex_now;
   KPut false [] [104] ex_other ex_now].
Lemma ex_pay o : In o [ex_small; ex_small2; ex_other] ->
  forall off p, oData o off = Some p -> payload_ok ex_cdc 106 p /\ Compress ex_cdc p 106 = Ok (Some p).
Proof.
  intros I off p E. assert (L : zlen p < 512).
  { destruct I as [<-|[<-|[<-|[]]]]; cbn in E; match type of E with Some ?x = _ => assert (X : p = x) by congruence end; rewrite X; reflexivity. }
  now apply small_ok.
Qed.
Example C59_reopen_example :
  all_allowed ex_cdc 106 ex_calls tree0 /\ (forall p, zlen (puts_at p (afters ex_calls tree0)) <= 32767) /\
  start_size ex_name + crooms ex_cdc 106 ex_calls tree0 <= kStartBigFile /\
  tdirs (afters ex_calls tree0) = [[]; [[97]]; [[97]; [98]]; [[97]; [100]]] /\
  puts_at [[97]; [98]; [99]] (afters ex_calls tree0) = [ex_small; ex_small2].
Proof.
  assert (Dn : date_ok ex_now) by (split; [reflexivity|cbn; lia]).
  assert (NO : forall n, In n [97; 98; 99; 100; 104] -> name_ok [n]).
  { intros n I. cbn [In] in I. destruct I as [<-|[<-|[<-|[<-|[<-|[]]]]]]; (split; [discriminate|]; split; [intros [E|[]]; discriminate E|]; split; [intros [E|[]]; discriminate E|]; split; [str_tac|reflexivity]). }
  assert (OK : forall n o, In n [99; 104] -> In o [ex_small; ex_small2; ex_other] ->
             op_ok ex_cdc 106 (OPut 0 [n] o ex_now) /\ op_live ex_cdc 106 (OPut 0 [n] o ex_now)).
  { intros n o In1 In2. split; [|intros off p E; rewrite (proj2 (ex_pay o In2 off p E)); discriminate].
    cbn [op_ok]. cbv zeta. split; [exact Dn|].
    assert (N1 : str_ok [n]) by (apply (NO n); destruct In1 as [<-|[<-|[]]]; cbn; auto 10).
    split; [exact N1|].
    destruct In1 as [<-|[<-|[]]]; destruct In2 as [<-|[<-|[<-|[]]]]; (split; [str_tac|]; split; [str_tac|]; split; [reflexivity|];
      split; [intros [E|[]]; discriminate E|]; split; [discriminate|]; split; [discriminate|]; split; [discriminate|];
      intros off p E; eapply ex_pay; [|exact E]; cbn; auto 10). }
  split; [|split; [|split; [vm_compute; discriminate|split; vm_compute; reflexivity]]].
  - cbn [all_allowed ex_calls allowed].
    assert (FR : forall ds (t : tree), (forall p, In p (map fst (tputs t)) -> ~ exists q, ds = p ++ q) -> free ds t).
    { intros ds t H p q E Np. unfold puts_at. destruct (filter _ (tputs t)) as [|x l] eqn:Ef; [reflexivity|]. exfalso.
      assert (I : In x (filter (fun x => if path_dec (fst x) p then true else false) (tputs t))) by (rewrite Ef; left; reflexivity).
      apply filter_In in I as (I & B). destruct (path_dec (fst x) p) as [Ep|]; [|discriminate B]. apply (H (fst x)); [now apply in_map|]. exists q. congruence. }
    assert (NS : forall n, In n [99; 104] -> ~ In slash [n]) by (intros n I [E|[]]; destruct I as [<-|[<-|[]]]; discriminate E).
    assert (LO : forall n o, In n [99; 104] -> In o [ex_small; ex_small2; ex_other] ->
       exists p out, oData o (enc_len [n] (put_title o) (GoName2Cxx (oClass o))) = Some p /\ Compress ex_cdc p 106 = Ok (Some out)).
    { intros n o I1 I2. assert (E : exists p, oData o (enc_len [n] (put_title o) (GoName2Cxx (oClass o))) = Some p) by (destruct I2 as [<-|[<-|[<-|[]]]]; eexists; reflexivity).
      destruct E as (p & E). exists p, p. split; [exact E|]. now apply (ex_pay o I2 _ _ E). }
    assert (PUT : forall lead ds n o t, In n [99; 104] -> In o [ex_small; ex_small2; ex_other] -> Forall name_ok ds -> (ds = [] -> lead = false) -> free ds t ->
       ~ isdir (ds ++ [[n]]) t -> Forall (fun x => GoName2Cxx (oClass x) = oClass o) (puts_at (ds ++ [[n]]) t) -> allowed ex_cdc 106 (KPut lead ds [n] o ex_now) t).
    { intros lead ds n o t I1 I2 H1 H2 H3 H4 H5. split; [exact H1|]. split; [discriminate|]. split; [now apply NS|]. split; [exact H2|].
      split; [exact H3|]. split; [now apply OK|]. split; [now apply OK|]. split; [exact H4|]. split; [exact H5|]. now apply LO. }
    assert (F2 : forall x y, In x [97; 98; 99; 100; 104] -> In y [97; 98; 99; 100; 104] -> Forall name_ok [[x]; [y]]) by (intros; constructor; [now apply NO|constructor; [now apply NO|constructor]]).
    split; [|split; [|split; [|split; [|exact I]]]].
    + apply PUT; [cbn; auto 10|cbn; auto 10|apply F2; cbn; auto 10|discriminate|apply FR; intros p []| |constructor]. intros [E|[]]; discriminate E.
    + split; [discriminate|]. split; [apply F2; cbn; auto 10|]. split; [exact Dn|]. apply FR. intros p [<-|[]] (q & E). discriminate E.
    + apply PUT; [cbn; auto 10|cbn; auto 10|apply F2; cbn; auto 10|discriminate| | |].
      * apply FR. intros p [<-|[]] (q & E). discriminate E.
      * intros [E|[E|[E|[E|[]]]]]; discriminate E.
      * vm_compute. constructor; [reflexivity|constructor].
    + apply PUT; [cbn; auto 10|cbn; auto 10|constructor|reflexivity| | |].
      * apply FR. intros p [<-|[<-|[]]] (q & E); discriminate E.
      * intros [E|[E|[E|[E|[]]]]]; discriminate E.
      * vm_compute. constructor.
  - assert (FL : forall (A : Type) (f : A -> bool) l, (length (filter f l) <= length l)%nat).
    { intros A f l. induction l as [|a l IH]; cbn [filter length]; [lia|]. destruct (f a); cbn [length]; lia. }
    intros p. transitivity (zlen (tputs (afters ex_calls tree0))); [|vm_compute; discriminate].
    unfold zlen, puts_at. rewrite map_length. apply Nat2Z.inj_le. apply FL.
Qed.

(* it computes: the bytes of the file, and what is found in it *)
Definition ex_nested (fnd : robj -> option (str -> gres rdir robj)) (gets : list str) : res (option (list bool * list (gres (list str) robj))) :=
  do f <- Create ex_junk ex_name 106 ex_now;
  do r <- docalls ex_junk ex_cdc isort nofind ex_calls f;
  do c <- Close ex_junk ex_cdc ex_si (fun _ => ex_now) ex_now ex_now (fst r);
  match c with
  | None => Ok None
  | Some f' =>
      do R <- Open ex_cdc (wDisk f');
      match R with
      | None => Ok None
      | Some R =>
          do l <- fold_right (fun n acc =>
                    do l <- acc; do g <- fileGet ex_cdc isort fnd R n (wDisk f');
                    Ok (match g with GDir d => GDir (map kName (rKeys d)) | GObj l => GObj l | GNoKey => GNoKey | GErr => GErr end :: l)) (Ok []) gets;
          Ok (Some (snd r, l))
      end
  end.
(* a, /a/b, a/b/c, /a/b/c;1, a/b/c;3, a/d/c, h/x, /h *)
Example C59_computed :
  ex_nested nofind [[97]; [47; 97; 47; 98]; [97; 47; 98; 47; 99]; [47; 97; 47; 98; 47; 99; 59; 49]; [97; 47; 98; 47; 99; 59; 51]; [97; 47; 100; 47; 99];
             [104; 47; 120]; [47; 104]] =
  Ok (Some ([true; true; true; true],
     [GDir [[98]; [100]]; GDir [[99]; [99]]; GObj (RLeaf [84; 72] [4; 4; 33] 33); GObj (RLeaf [84; 72] [1; 2; 3; 33] 33); GNoKey; GNoKey;
      GErr; GObj (RLeaf [84; 76] [5; 5; 5; 5; 5; 5] 32)])).
Proof. vm_compute. reflexivity. Qed.

(* the object h finds x in it, which finds y *)
Definition ex_find (o : robj) : option (str -> gres rdir robj) :=
  match o with
  | RLeaf c b off => if str_eqb c [84; 76] then Some (fun n => if str_eqb n [120] then GObj (RLeaf [1] b off) else GNoKey)
                     else if str_eqb c [1] then Some (fun n => if str_eqb n [121] then GObj (RLeaf [2] b off) else GNoKey) else None
  | _ => None
  end.
Example C59_inside_example :
  ex_nested ex_find [[104; 47; 120]; [47; 104; 47; 120; 47; 121]; [104; 47; 122]; [104; 47; 120; 47; 121; 47; 122]] =
  Ok (Some ([true; true; true; true],
     [GObj (RLeaf [1] [5; 5; 5; 5; 5; 5] 32); GObj (RLeaf [2] [5; 5; 5; 5; 5; 5] 32); GNoKey; GErr])).
Proof. vm_compute. reflexivity. Qed.

(* ---- what does not hold ---- *)
(* Put and Mkdir do not always return: Put h, then Mkdir h, or Put h/x *)
Theorem C59_no_panic_refuted :
  exists f f', Create ex_junk ex_name 106 ex_now = Ok f /\ dirPut ex_junk ex_cdc isort nofind [104] ex_small ex_now f = Ok (f', true) /\
    dirMkdir ex_junk isort nofind [104] ex_now f' = Panic /\ dirPut ex_junk ex_cdc isort nofind [104; 47; 120] ex_small ex_now f' = Panic.
Proof.
  eexists _, _. split; [vm_compute; reflexivity|]. split; [vm_compute; reflexivity|]. split; vm_compute; reflexivity.
Qed.
(* a leading slash is accepted, but not before a name of the root directory: /a/c is put, /c is refused *)
Theorem C59_leading_slash_refuted :
  exists f f' f'', Create ex_junk ex_name 106 ex_now = Ok f /\
    dirPut ex_junk ex_cdc isort nofind [47; 97; 47; 99] ex_small ex_now f = Ok (f', true) /\
    dirPut ex_junk ex_cdc isort nofind [47; 99] ex_small ex_now f = Ok (f'', false).
Proof.
  eexists _, _, _. split; [vm_compute; reflexivity|]. split; vm_compute; reflexivity.
Qed.
(* Mkdir of a/ makes two directories, the second one without a name *)
Theorem C59_trailing_slash_refuted :
  exists f f' j, Create ex_junk ex_name 106 ex_now = Ok f /\ dirMkdir ex_junk isort nofind [97; 47] ex_now f = Ok (f', Some j) /\
    map (fun d => map (fun k => kName (fKey k)) (wKeys d)) (wDirs f') = [[[97]]; [[]]; []].
Proof.
  eexists _, _, _. split; [vm_compute; reflexivity|]. split; vm_compute; reflexivity.
Qed.

Print Assumptions C59_reopen.
Print Assumptions C59_get.
Print Assumptions C59_inside.
Print Assumptions C59_mkdir_object_panics.
Print Assumptions C59_no_panic_refuted.
Print Assumptions C59_leading_slash_refuted.
Print Assumptions C59_trailing_slash_refuted.
