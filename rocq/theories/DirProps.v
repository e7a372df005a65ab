(* C15: histories of Put, Mkdir and Get on a ROOT directory. *)
From Coq Require Import ZArith List Lia Bool Sorting.Permutation Sorting.Sorted.
From Verif Require Import Bytes GoLib GoStrings KeyModel KeyProps DirModel.
Import ListNotations.
Local Open Scope Z_scope.

Section C15.
  Context {data : Type}.
  Notation object := (object data).
  Notation dkey := (dkey data).

  (* calls of the API; the boolean says whether the file accepts what it is asked to write *)
  Inductive call :=
  | CPut (name : str) (obj : object) (fileOk : bool)
  | CMkdir (name : str) (sub : object).

  (* any sorting function: sort.Slice promises no more *)
  Definition sorts (srt : list dkey -> list dkey) : Prop :=
    forall l, Permutation l (srt l) /\ StronglySorted (fun a b => dkCycle a <= dkCycle b) (srt l).

  Definition step (srt : list dkey -> list dkey) (c : call) (keys : list dkey) : res (list dkey * bool) :=
    match c with
    | CPut name obj ok => Ok (put true ok name obj keys)
    | CMkdir name sub => mkdir srt true name sub keys
    end.
  (* the keys after a history of calls, with the success of each call *)
  Fixpoint run (srt : list dkey -> list dkey) (h : list call) (keys : list dkey) : res (list dkey * list bool) :=
    match h with
    | [] => Ok (keys, [])
    | c :: h' =>
        do kb <- step srt c keys;
        do r <- run srt h' (fst kb);
        Ok (fst r, snd kb :: snd r)
    end.

  (* ---- specification: objects accepted under a name, in order ---- *)
  Definition put_name (c : call) : str :=
    match c with
    | CPut [] obj _ => match oNamed obj with Some (n, _) => n | None => [] end
    | CPut name _ _ => name
    | CMkdir name _ => name
    end.
  Definition put_obj (c : call) : object := match c with CPut _ o _ => o | CMkdir _ s => s end.
  Fixpoint accepted (name : str) (h : list call) (oks : list bool) : list object :=
    match h, oks with
    | c :: h', b :: oks' =>
        (if b then if str_dec (put_name c) name then [put_obj c] else [] else []) ++ accepted name h' oks'
    | _, _ => []
    end.

  (* ---- invariant ---- *)
  Definition of_name (name : str) (keys : list dkey) : list dkey := filter (fun k => str_eqb (dkName k) name) keys.
  Fixpoint zseq (a : Z) (n : nat) : list Z := match n with O => [] | S n' => a :: zseq (a + 1) n' end.
  Definition inv (name : str) (keys : list dkey) (l : list object) : Prop :=
    map dkObj (of_name name keys) = l /\ map dkCycle (of_name name keys) = zseq 1 (length l).

  Lemma zseq_length a n : length (zseq a n) = n.
  Proof. revert a; induction n; intros; simpl; auto. Qed.
  Lemma zseq_snoc a n : zseq a (S n) = zseq a n ++ [a + Z.of_nat n].
  Proof.
    revert a; induction n as [|n IH]; intros a; [simpl; f_equal; lia|].
    change (zseq a (S (S n))) with (a :: zseq (a + 1) (S n)). rewrite IH. simpl. do 3 f_equal. lia.
  Qed.
  Lemma zseq_in a n x : In x (zseq a n) <-> a <= x < a + Z.of_nat n.
  Proof. revert a; induction n as [|n IH]; intros a; simpl; [lia|]. rewrite IH. lia. Qed.
  Lemma zseq_nth a n i : (i < n)%nat -> nth_error (zseq a n) i = Some (a + Z.of_nat i).
  Proof.
    revert a i; induction n as [|n IH]; intros a i L; [lia|]. destruct i; simpl; [f_equal; lia|].
    rewrite IH by lia. f_equal. lia.
  Qed.

  Lemma of_name_app name a b : of_name name (a ++ b) = of_name name a ++ of_name name b.
  Proof. apply filter_app. Qed.

  Lemma scan_spec name class (keys : list dkey) c0 c : scan name class c0 keys = Some c ->
    c0 <= c /\ (forall k, In k (of_name name keys) -> dkCycle k <= c /\ dkClass k = class) /\
    (c = c0 \/ exists k, In k (of_name name keys) /\ dkCycle k = c).
  Proof.
    revert c0. induction keys as [|k keys IH]; simpl; intros c0 H.
    - injection H as <-. split; [lia|]. split; [intros ? []|auto].
    - destruct (str_eqb (dkName k) name) eqn:N; simpl in H |- *.
      + destruct (str_eqb_spec (dkClass k) class); simpl in H; [|discriminate].
        destruct (IH _ H) as (A & B & C).
        destruct (Z.ltb_spec c0 (dkCycle k)).
        * split; [lia|]. split; [intros ? [<-|I]; [split; auto|auto]|].
          right. destruct C as [->|(k' & I & E)]; [exists k; auto|exists k'; auto].
        * split; [lia|]. split; [intros ? [<-|I]; [split; auto; lia|auto]|].
          destruct C as [->|(k' & I & E)]; [auto|right; exists k'; auto].
      + destruct (IH _ H) as (A & B & C). auto.
  Qed.
  Lemma scan_succeeds name class (keys : list dkey) c0 :
    (forall k, In k keys -> dkName k = name -> dkClass k = class) -> exists c, scan name class c0 keys = Some c.
  Proof.
    revert c0; induction keys as [|k keys IH]; intros c0 H; simpl; [eauto|].
    destruct (str_eqb_spec (dkName k) name); simpl; [|apply IH; intros; apply H; simpl; auto].
    destruct (str_eqb_spec (dkClass k) class) as [|E]; simpl; [apply IH; intros; apply H; simpl; auto|].
    exfalso; apply E, H; simpl; auto.
  Qed.
  Lemma scan_max name class keys l c : inv name keys l -> scan name class 0 keys = Some c -> c = zlen l.
  Proof.
    intros [O C] H. apply scan_spec in H as (A & B & D).
    assert (IC : forall x, In x (zseq 1 (length l)) <-> exists k, In k (of_name name keys) /\ dkCycle k = x).
    { intros x. rewrite <- C, in_map_iff. split; intros (k & X & Y); exists k; auto. }
    unfold zlen. destruct D as [->|(k & I & E)].
    - destruct l as [|o l]; [reflexivity|]. exfalso.
      destruct (IC 1) as [X _]. destruct X as (k & I & E); [simpl; auto|]. apply B in I. lia.
    - assert (I' : In c (zseq 1 (length l))) by (apply IC; eauto). apply zseq_in in I'.
      destruct (IC (Z.of_nat (length l))) as [X _]. destruct X as (k' & Ik & Ek); [apply zseq_in; lia|].
      apply B in Ik. lia.
  Qed.

  Lemma put_cases ok name obj keys ks b : put true ok name obj keys = (ks, b) ->
    (b = false /\ ks = keys) \/
    (b = true /\ exists t c, put_name (CPut name obj ok) <> [] /\
       scan (put_name (CPut name obj ok)) (oClass obj) 0 keys = Some c /\ ok = true /\ has_byte slash name = false /\
       ks = keys ++ [mkDKey (put_name (CPut name obj ok)) t (GoName2Cxx (oClass obj)) (wrapS 16 (c + 1)) obj]).
  Proof.
    unfold put. cbn [negb]. destruct (has_byte slash name) eqn:Sl; [intros H; injection H as <- <-; auto|].
    destruct (oNamed obj) as [[n t]|] eqn:N.
    - set (nm := match name with [] => n | _ => name end).
      assert (E : put_name (CPut name obj ok) = nm) by (unfold nm; simpl; rewrite N; destruct name; auto).
      rewrite E. destruct nm as [|x nm'] eqn:Enm; [intros H; injection H as <- <-; auto|].
      destruct (scan _ _ 0 keys) as [c|] eqn:S; [|intros H; injection H as <- <-; auto].
      destruct ok; simpl; intros H; injection H as <- <-; auto.
      right. split; auto. exists t, c. repeat split; auto. discriminate.
    - assert (E : put_name (CPut name obj ok) = name) by (simpl; rewrite N; destruct name; auto).
      rewrite E. destruct name as [|x nm'] eqn:Enm; [intros H; injection H as <- <-; auto|].
      destruct (scan _ _ 0 keys) as [c|] eqn:S; [|intros H; injection H as <- <-; auto].
      destruct ok; simpl; intros H; injection H as <- <-; auto.
      right. split; auto. exists [], c. repeat split; auto. discriminate.
  Qed.

  Lemma of_name_nil name keys : of_name name keys = [] -> inv name keys [].
  Proof. intros E. unfold inv. now rewrite E. Qed.

  Lemma get_latest srt name keys l : sorts srt -> ~ In semicolon name -> inv name keys l ->
    get srt name keys = Ok (last (map Some l) None).
  Proof.
    intros ST N [O C]. unfold get. rewrite C14_plain by auto. cbn [rbind negb Z.eqb Pos.eqb].
    fold (of_name name keys). destruct (of_name name keys) as [|k [|k2 ks]] eqn:E.
    - simpl in O. now subst l.
    - simpl in O. now subst l.
    - set (L := k :: k2 :: ks) in *. destruct (ST L) as [P Q]. rewrite <- O.
      assert (LL : length L = length l) by (rewrite <- O; now rewrite map_length).
      destruct (nth_error (srt L) (length L - 1)) as [m|] eqn:Em.
      2:{ apply nth_error_None in Em. rewrite <- (Permutation_length P) in Em. subst L. simpl in Em. lia. }
      assert (Im : In m (srt L)) by (eapply nth_error_In; eauto).
      assert (Max : forall x, In x (srt L) -> dkCycle x <= dkCycle m).
      { intros x Ix. destruct (In_nth_error _ _ Ix) as (i & Ei).
        assert (i < length L)%nat by (rewrite (Permutation_length P); apply nth_error_Some; congruence).
        clear -Q Em Ei H. remember (length L - 1)%nat as j. assert (i <= j)%nat by lia. clear Heqj H.
        revert i j Em Ei H0. induction Q as [|a s Q IH F]; intros i j Em Ei L0; [destruct i; discriminate|].
        destruct j, i; simpl in *; try lia.
        - assert (x = m) by congruence. subst. lia.
        - injection Ei as <-. rewrite Forall_forall in F. apply F. eapply nth_error_In; eauto.
        - eapply IH; eauto. lia. }
      (* the last key of L has the greatest cycle, and cycles are distinct *)
      assert (SP : L = removelast L ++ [last L k]) by (apply app_removelast_last; discriminate).
      set (z := last L k) in *. set (R := removelast L) in *. clearbody z R.
      assert (LR : length l = S (length R)) by (rewrite <- LL, SP, app_length; simpl; lia).
      rewrite SP, map_app in C. cbn [map] in C. rewrite LR, zseq_snoc in C.
      apply app_inj_tail in C as [CR Cz].
      rewrite SP, !map_app. cbn [map]. rewrite last_last. f_equal. f_equal.
      assert (Iz : In z (srt L)) by (apply (Permutation_in z P); rewrite SP; apply in_or_app; simpl; auto).
      pose proof (Max z Iz) as M1. apply (Permutation_in m (Permutation_sym P)) in Im. rewrite SP in Im.
      apply in_app_or in Im as [Im|[<-|[]]]; auto.
      exfalso. assert (In (dkCycle m) (zseq 1 (length R))) by (rewrite <- CR; now apply in_map).
      apply zseq_in in H. lia.
  Qed.

  Lemma step_inv srt c keys ks b name l : sorts srt -> ~ In semicolon name -> zlen l < 32767 ->
    inv name keys l -> step srt c keys = Ok (ks, b) ->
    inv name ks (l ++ (if b then if str_dec (put_name c) name then [put_obj c] else [] else [])).
  Proof.
    intros ST NS Ll I H. destruct c as [n o ok|n sub]; simpl step in H.
    - injection H as H. apply put_cases in H as [(-> & ->)|(-> & t & c & NE & S & -> & _ & ->)].
      + now rewrite app_nil_r.
      + unfold inv. rewrite of_name_app, !map_app. destruct I as [O C]. rewrite O, C.
        set (pn := put_name (CPut n o true)) in *. cbn [of_name filter dkName].
        destruct (str_dec pn name) as [E|E], (str_eqb_spec pn name); try congruence.
        * cbn [map dkObj dkCycle put_obj]. split; auto. rewrite app_length. simpl length.
          rewrite Nat.add_1_r, zseq_snoc. do 2 f_equal. rewrite E in S.
          rewrite (scan_max name _ keys l c (conj O C) S). unfold zlen in *.
          rewrite wrapS_id; [lia|lia|unfold inS; simpl; lia].
        * cbn [map]. now rewrite !app_nil_r.
    - unfold mkdir in H.
      destruct (get srt n keys) as [g|] eqn:G; [|discriminate]. cbn [rbind] in H.
      destruct g; [injection H as <- <-; now rewrite app_nil_r|].
      destruct (has_byte slash n); [injection H as <- <-; now rewrite app_nil_r|].
      injection H as <- <-. cbn [put_name put_obj].
      unfold inv. rewrite of_name_app, !map_app. cbn [of_name filter dkName].
      destruct (str_dec n name) as [E|E], (str_eqb_spec n name); try congruence.
      + subst n. rewrite (get_latest srt name keys l ST NS I) in G. injection G as G.
        assert (l = []) as ->.
        { destruct l as [|o l]; auto. exfalso.
          rewrite (app_removelast_last o) in G by discriminate. rewrite map_app in G. cbn [map] in G.
          rewrite last_last in G. discriminate. }
        destruct I as [O C]. rewrite O, C. cbn. auto.
      + destruct I as [O C]. cbn [map]. rewrite !app_nil_r. auto.
  Qed.

  Lemma accepted_length name h oks : (length (accepted name h oks) <= length h)%nat.
  Proof.
    revert oks; induction h as [|c h IH]; intros [|b oks]; simpl; try lia. rewrite app_length. specialize (IH oks).
    destruct b; [destruct (str_dec _ _)|]; simpl; lia.
  Qed.
  Lemma run_inv srt name h : sorts srt -> ~ In semicolon name -> forall keys l ks oks,
    inv name keys l -> run srt h keys = Ok (ks, oks) -> zlen l + zlen (accepted name h oks) <= 32767 ->
    inv name ks (l ++ accepted name h oks).
  Proof.
    intros ST NS. induction h as [|c h IH]; intros keys l ks oks I H L; simpl in H.
    - injection H as <- <-. simpl. now rewrite app_nil_r.
    - destruct (step srt c keys) as [[k1 b]|] eqn:S; [|discriminate]. cbn [rbind fst snd] in H.
      destruct (run srt h k1) as [[k2 bs]|] eqn:R; [|discriminate]. cbn [rbind fst snd] in H. injection H as <- <-.
      cbn [accepted] in L |- *. rewrite zlen_app in L. pose proof (zlen_nonneg (accepted name h bs)).
      rewrite app_assoc.
      assert (D : zlen l < 32767 \/ (if b then if str_dec (put_name c) name then [put_obj c] else [] else []) = []).
      { destruct b; auto. destruct (str_dec (put_name c) name); auto. left. rewrite zlen_cons, zlen_nil in L. lia. }
      assert (I1 : inv name k1 (l ++ (if b then if str_dec (put_name c) name then [put_obj c] else [] else []))).
      { destruct D as [D|D]; [eapply step_inv; eauto|]. rewrite D, app_nil_r.
        (* the call does not touch this name *)
        destruct I as [O C]. destruct c as [n o ok|n sub]; simpl step in S.
        - injection S as S. apply put_cases in S as [(-> & ->)|(-> & t & c & NE & Sc & -> & _ & ->)]; [split; auto|].
          unfold inv. rewrite of_name_app. cbn [of_name filter dkName].
          destruct (str_dec _ name) as [|E] in D; [discriminate|].
          destruct (str_eqb_spec (put_name (CPut n o true)) name); [contradiction|]. now rewrite app_nil_r.
        - unfold mkdir in S.
          destruct (get srt n keys) as [g|] eqn:G; [|discriminate]. cbn [rbind] in S.
          destruct g; [injection S as <- <-; split; auto|].
          destruct (has_byte slash n); [injection S as <- <-; split; auto|].
          injection S as <- <-. unfold inv. rewrite of_name_app. cbn [of_name filter dkName].
          cbn [put_name] in D. destruct (str_dec n name); [discriminate|].
          destruct (str_eqb_spec n name); [contradiction|]. now rewrite app_nil_r. }
      apply (IH k1 _ _ _ I1 R). rewrite zlen_app. lia.
  Qed.

  Lemma find_cycle_spec name keys l c : inv name keys l -> 1 <= c ->
    option_map dkObj (find_cycle name c keys) = nth_error l (Z.to_nat (c - 1)).
  Proof.
    intros [O C] Hc.
    assert (G : forall ks a, map dkCycle (of_name name ks) = zseq a (length (of_name name ks)) -> a <= c ->
      option_map dkObj (find_cycle name c ks) = nth_error (map dkObj (of_name name ks)) (Z.to_nat (c - a))).
    { induction ks as [|k ks IH]; intros a E L.
      - simpl. now destruct (Z.to_nat (c - a)).
      - cbn [find_cycle of_name filter] in *. destruct (str_eqb (dkName k) name); cbn [andb map length zseq] in *.
        + injection E as E1 E2. destruct (Z.eqb_spec (dkCycle k) c).
          * replace (Z.to_nat (c - a)) with 0%nat by lia. reflexivity.
          * fold (of_name name ks) in *. rewrite (IH (a + 1)) by (auto; lia).
            replace (Z.to_nat (c - a)) with (S (Z.to_nat (c - (a + 1)))) by lia. reflexivity.
        + apply IH; auto. }
    rewrite <- O. apply G; auto. rewrite C. f_equal. rewrite <- O. now rewrite map_length.
  Qed.

  (* ---- theorems ---- *)
  (* Get(name) gives the last object accepted under that name; Get("name;c") the c-th one
     (c = 9999 is the code for the latest). *)
  Theorem C15_get srt h keys oks name : sorts srt -> run srt h [] = Ok (keys, oks) ->
    ~ In semicolon name -> zlen (accepted name h oks) <= 32767 ->
    get srt name keys = Ok (last (map Some (accepted name h oks)) None) /\
    forall c, 1 <= c <= 32767 -> c <> 9999 ->
      get srt (namecycle name c) keys = Ok (nth_error (accepted name h oks) (Z.to_nat (c - 1))).
  Proof.
    intros ST R NS L.
    assert (I : inv name keys (accepted name h oks)).
    { apply (run_inv srt name h ST NS [] [] keys oks); auto. split; reflexivity. }
    split; [now apply get_latest|]. intros c Hc N9. unfold get. rewrite C14_encode_decode by (auto; lia). cbn [rbind].
    destruct (Z.eqb_spec c 9999); [contradiction|]. cbn [negb]. f_equal. apply find_cycle_spec; auto. lia.
  Qed.

  (* The keys of a name are numbered 1, 2, 3, ... in the order of the calls. *)
  Theorem C15_cycles srt h keys oks name : sorts srt -> run srt h [] = Ok (keys, oks) ->
    ~ In semicolon name -> zlen (accepted name h oks) <= 32767 ->
    forall i k, nth_error (filter (fun k => str_eqb (dkName k) name) keys) i = Some k ->
      dkCycle k = Z.of_nat i + 1 /\ nth_error (accepted name h oks) i = Some (dkObj k).
  Proof.
    intros ST R NS L i k E.
    assert (I : inv name keys (accepted name h oks)).
    { apply (run_inv srt name h ST NS [] [] keys oks); auto. split; reflexivity. }
    destruct I as [O C]. fold (of_name name keys) in E.
    assert (Li : (i < length (accepted name h oks))%nat).
    { rewrite <- O, map_length. apply nth_error_Some. congruence. }
    pose proof (map_nth_error dkObj _ _ E) as E1. pose proof (map_nth_error dkCycle _ _ E) as E2.
    rewrite O in E1. rewrite C in E2. rewrite zseq_nth in E2 by auto. assert (1 + Z.of_nat i = dkCycle k) by congruence. split; auto. lia.
  Qed.

  (* What Put refuses; nothing changes then. *)
  Theorem C15_refused ok name obj keys :
    (In slash name \/ put_name (CPut name obj ok) = [] \/
     (exists k, In k keys /\ dkName k = put_name (CPut name obj ok) /\ dkClass k <> oClass obj)) ->
    put true ok name obj keys = (keys, false).
  Proof.
    intros H. destruct (put true ok name obj keys) as [ks b] eqn:E.
    apply put_cases in E as [(-> & ->)|(-> & t & c & NE & S & -> & Sl & _)]; auto. exfalso.
    destruct H as [H|[H|(k & I & N & C)]].
    - apply has_byte_spec in H. congruence.
    - contradiction.
    - apply scan_spec in S as (_ & B & _). apply C, (B k). apply filter_In. split; auto. rewrite N. apply str_eqb_refl.
  Qed.

  (* and what it accepts: valid names, on a working file, when previous objects have the same class *)
  Theorem C15_accepted name obj keys :
    ~ In slash name -> put_name (CPut name obj true) <> [] ->
    (forall k, In k keys -> dkName k = put_name (CPut name obj true) -> dkClass k = oClass obj) ->
    exists k, put true true name obj keys = (keys ++ [k], true) /\ dkObj k = obj /\ dkName k = put_name (CPut name obj true)
      /\ dkClass k = GoName2Cxx (oClass obj).
  Proof.
    intros Sl NE SC. destruct (scan_succeeds _ _ keys 0 SC) as (c & S).
    assert (E : exists t, put true true name obj keys = (keys ++ [mkDKey (put_name (CPut name obj true)) t
       (GoName2Cxx (oClass obj)) (wrapS 16 (c + 1)) obj], true)).
    { unfold put. cbn [negb]. destruct (has_byte slash name) eqn:H; [apply has_byte_spec in H; contradiction|].
      destruct (oNamed obj) as [[n t]|] eqn:N.
      - replace (match name with [] => n | _ => name end) with (put_name (CPut name obj true))
          by (simpl; rewrite N; destruct name; auto).
        exists t. destruct (put_name (CPut name obj true)) eqn:P; [congruence|]. rewrite <- P in S |- *.
        rewrite S. reflexivity.
      - assert (Ep : put_name (CPut name obj true) = name) by (simpl; rewrite N; destruct name; auto).
        rewrite Ep in *. exists []. destruct name; [congruence|]. rewrite S. reflexivity. }
    destruct E as (t & E). eexists. split; [exact E|]. auto.
  Qed.
End C15.

(* classes without '.', '-' and '/' keep their name *)
Lemma GoName2Cxx_plain c : ~ In dot c -> ~ In 45 c -> ~ In slash c -> GoName2Cxx c = c.
Proof.
  intros D M S. unfold GoName2Cxx.
  assert (L : lastIndex dot c = -1).
  { clear M S. induction c as [|x c IH]; simpl; auto. rewrite IH by (simpl in D; tauto). simpl.
    destruct (Z.eqb_spec x dot); auto. simpl in D; tauto. }
  rewrite L. simpl. induction c as [|x c IH]; simpl; auto.
  destruct (Z.eqb_spec x 45); [simpl in M; tauto|]. destruct (Z.eqb_spec x slash); [simpl in S; tauto|].
  destruct (Z.eqb_spec x dot); [simpl in D; tauto|]. simpl. f_equal. apply IH; simpl in *; try tauto.
  simpl in L. destruct (0 <=? lastIndex dot c) eqn:E; [|].
  - exfalso. apply Z.leb_le in E. simpl in L. lia.
  - clear -D. induction c as [|y c IH]; simpl; auto. rewrite IH by (simpl in D; tauto). simpl.
    destruct (Z.eqb_spec y dot); auto. simpl in D; tauto.
Qed.

(* Findings.  A '/' reaches the directory through the object's own name. *)
Theorem C15_slash_refuted : exists (o : object nat) k,
  put true true [] o [] = ([k], true) /\ In slash (dkName k).
Proof.
  exists (mkObj [84] (Some ([97; 47; 98], [])) 0%nat), (mkDKey [97; 47; 98] [] [84] 1 (mkObj [84] (Some ([97; 47; 98], [])) 0%nat)).
  split; [reflexivity|]. simpl. auto.
Qed.
(* Two objects of the same class "a.B" (a Go type) cannot be put under the same name. *)
Theorem C15_go_class_refuted : exists (o1 o2 : object nat) ks,
  oClass o1 = oClass o2 /\ put true true [104] o1 [] = (ks, true) /\ put true true [104] o2 ks = (ks, false).
Proof.
  exists (mkObj [97; 46; 66] None 1%nat), (mkObj [97; 46; 66] None 2%nat).
  eexists. split; [reflexivity|]. split; [vm_compute; reflexivity|]. vm_compute. reflexivity.
Qed.
(* A name with one ';' is accepted but cannot be found; with two, Get panics. *)
Theorem C15_semicolon_refuted : exists (o : object nat) name ks,
  put true true name o [] = (ks, true) /\ get (fun l => l) name ks = Ok None.
Proof.
  exists (mkObj [84] None 1%nat), [104; 59; 97]. eexists. split; [vm_compute; reflexivity|]. vm_compute. reflexivity.
Qed.
(* The 9999th version of an object cannot be asked for: "name;9999" is the latest one. *)
Theorem C15_9999_refuted (ks : list (dkey nat)) srt name : ~ In semicolon name ->
  get srt (namecycle name 9999) ks = get srt name ks.
Proof. intros N. unfold get. rewrite C14_encode_decode, C14_plain by (auto; lia). reflexivity. Qed.

(* insertion sort is one of the sorting functions *)
Section Isort.
  Context {data : Type}.
  Fixpoint insert (k : dkey data) (l : list (dkey data)) :=
    match l with [] => [k] | x :: l' => if dkCycle k <=? dkCycle x then k :: l else x :: insert k l' end.
  Definition isort (l : list (dkey data)) := fold_right insert [] l.
  Lemma insert_perm k l : Permutation (k :: l) (insert k l).
  Proof.
    induction l as [|x l IH]; simpl; auto. destruct (_ <=? _); auto.
    rewrite perm_swap. now apply perm_skip.
  Qed.
  Lemma insert_sorted k l : StronglySorted (fun a b => dkCycle a <= dkCycle b) l ->
    StronglySorted (fun a b => dkCycle a <= dkCycle b) (insert k l).
  Proof.
    induction 1 as [|x l Q IH F]; simpl; [repeat constructor|].
    destruct (Z.leb_spec (dkCycle k) (dkCycle x)).
    - constructor; [constructor; auto|]. constructor; auto. eapply Forall_impl; [|exact F]. simpl; intros; lia.
    - constructor; auto. apply Forall_forall. intros y I. apply (Permutation_in y (Permutation_sym (insert_perm k l))) in I.
      rewrite Forall_forall in F. destruct I as [<-|I]; [lia|auto].
  Qed.
  Lemma isort_sorts : sorts isort.
  Proof.
    intros l. split.
    - induction l; simpl; auto. rewrite <- insert_perm. auto.
    - induction l; simpl; [constructor|]. now apply insert_sorted.
  Qed.
End Isort.

(* a history of five calls on two names *)
Example C15_example :
  let o i := mkObj [84; 72; 49] None i in
  let h := [CPut [97] (o 1%nat) true; CMkdir [98] (o 2%nat); CPut [97] (o 3%nat) false; CPut [97] (o 4%nat) true; CMkdir [97] (o 5%nat)] in
  sorts (@isort nat) /\ exists ks, run isort h [] = Ok (ks, [true; true; false; true; false]) /\
    accepted [97] h [true; true; false; true; false] = [o 1%nat; o 4%nat] /\
    get isort [97] ks = Ok (Some (o 4%nat)) /\ get isort [97; 59; 49] ks = Ok (Some (o 1%nat)).
Proof. split; [apply isort_sorts|]. eexists. split; [vm_compute; reflexivity|]. repeat split. Qed.

Print Assumptions C15_get.
Print Assumptions C15_cycles.
Print Assumptions C15_refused.
Print Assumptions C15_accepted.
