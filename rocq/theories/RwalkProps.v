(* C60: Walk visits every directory and the latest object of every path, once, parents first. *)
From Coq Require Import ZArith List Lia Bool Sorting.Permutation Sorting.Sorted.
From Verif Require Import Bytes GoLib RbytesModel RbytesProofs RdMonad GoStrings FreelistModel FreelistProps KeyModel KeyProofs KeyProps
  DirModel DirProps CompressModel CompressProps RfileModel RfileSpec RfileProofs RfileInv RfileClose RfileOpen RfileLive RfileProps
  RecdirModel RecdirProofs RecdirProps RwalkModel.
From Verif Require XrdSrvModel XrdPathProps.
Import ListNotations.
Local Open Scope Z_scope.

(* ---- specification ---- *)
Definition prefix (p q : path) : Prop := exists s, q = p ++ s.
Fixpoint prefixb (p q : path) : bool :=
  match p, q with
  | [], _ => true
  | a :: p', b :: q' => str_eqb a b && prefixb p' q'
  | _ :: _, [] => false
  end.
Lemma prefixb_spec p : forall q, prefixb p q = true <-> prefix p q.
Proof.
  induction p as [|a p IH]; intros [|b q]; cbn [prefixb].
  - split; [exists []; reflexivity|reflexivity].
  - split; [exists (b :: q); reflexivity|reflexivity].
  - split; [discriminate|intros (s & E); discriminate E].
  - rewrite andb_true_iff, IH. split.
    + intros (A & s & ->). destruct (str_eqb_spec a b) as [->|]; [exists s; reflexivity|discriminate].
    + intros (s & E). cbn in E. assert (b = a) by congruence. assert (q = p ++ s) by congruence. subst. split; [apply str_eqb_refl|exists s; reflexivity].
Qed.
Section Spec.
  Context {D L V E : Type}.
  Variable fn : V -> str -> option (D + L) -> V * wret E.
  Variable report : path -> str.
  (* what calling fn on a list of paths does: an error stops it, SkipDir on a directory leaves out all that is below *)
  Fixpoint visit (skip : list path) (v : V) (l : list (path * (D + L))) : V * wret E :=
    match l with
    | [] => (v, WNil)
    | (p, o) :: l' =>
        if existsb (fun q => prefixb q p) skip then visit skip v l'
        else
          match fn v (report p) (Some o) with
          | (v', WErr e) => (v', WErr e)
          | (v', WNil) => visit skip v' l'
          | (v', WSkip) => visit (match o with inl _ => p :: skip | inr _ => skip end) v' l'
          end
    end.
  Lemma visit_ext l : forall sk1 sk2 v, (forall p, In p (map fst l) -> existsb (fun q => prefixb q p) sk1 = existsb (fun q => prefixb q p) sk2) ->
    visit sk1 v l = visit sk2 v l.
  Proof.
    induction l as [|(p, o) l IH]; intros sk1 sk2 v H; [reflexivity|]. cbn [visit map fst] in *. rewrite (H p) by (left; reflexivity).
    assert (H' : forall q, In q (map fst l) -> existsb (fun x => prefixb x q) sk1 = existsb (fun x => prefixb x q) sk2) by (intros; apply H; right; auto).
    destruct (existsb _ sk2); [now apply IH|]. destruct (fn v (report p) (Some o)) as (v', [| |e]); [now apply IH| |reflexivity].
    destruct o; [|now apply IH]. apply IH. intros q I. cbn [existsb]. now rewrite H'.
  Qed.
  Lemma visit_blocked l l2 : forall sk v, (forall p, In p (map fst l) -> existsb (fun q => prefixb q p) sk = true) -> visit sk v (l ++ l2) = visit sk v l2.
  Proof.
    induction l as [|(p, o) l IH]; intros sk v H; [reflexivity|]. cbn [visit app]. rewrite (H p) by (left; reflexivity). apply IH. intros q I. apply H. right. exact I.
  Qed.
End Spec.

(* ---- the latest entries of a directory ---- *)
Fixpoint latest (es : list entry) : list entry :=
  match es with
  | [] => []
  | e :: r => if existsb (fun x => str_eqb (eName x) (eName e)) r then latest r else e :: latest r
  end.
Lemma in_named n es e : In e (named n es) <-> In e es /\ eName e = n.
Proof. unfold named. rewrite filter_In. destruct (str_eqb_spec (eName e) n); split; intros (A & B); auto; congruence. Qed.
Lemma exists_named n es : existsb (fun x => str_eqb (eName x) n) es = negb (match named n es with [] => true | _ => false end).
Proof. unfold named. induction es as [|e es IH]; [reflexivity|]. cbn [existsb filter]. destruct (str_eqb (eName e) n); [reflexivity|exact IH]. Qed.
Lemma latest_in es e : In e (latest es) -> In e es /\ List.last (map Some (named (eName e) es)) None = Some e.
Proof.
  induction es as [|a es IH]; [intros []|]. cbn [latest]. rewrite exists_named. destruct (named (eName a) es) as [|x l] eqn:Ne; cbn [negb].
  - intros [->|I].
    + split; [left; reflexivity|]. unfold named in *. cbn [filter]. rewrite str_eqb_refl, Ne. reflexivity.
    + destruct (IH I) as (A & B). split; [right; exact A|]. unfold named in *. cbn [filter]. destruct (str_eqb_spec (eName a) (eName e)) as [Ea|]; [|exact B].
      rewrite Ea in Ne. rewrite Ne in B. discriminate B.
  - intros I. destruct (IH I) as (A & B). split; [right; exact A|]. unfold named in *. cbn [filter].
    destruct (str_eqb (eName a) (eName e)); [|exact B]. destruct (filter (fun e0 => str_eqb (eName e0) (eName e)) es); [discriminate B|exact B].
Qed.
Lemma latest_has es n : named n es <> [] -> exists e, In e (latest es) /\ eName e = n.
Proof.
  induction es as [|a es IH]; [intros H; exfalso; apply H; reflexivity|]. intros H. cbn [latest]. rewrite exists_named.
  destruct (named n es) as [|x l] eqn:Ne.
  - assert (Ea : eName a = n). { unfold named in *. cbn [filter] in H. destruct (str_eqb_spec (eName a) n); [auto|]. rewrite Ne in H. congruence. }
    rewrite Ea, Ne. cbn [negb]. exists a. split; [left; reflexivity|exact Ea].
  - destruct IH as (e & I & En); [discriminate|]. exists e. split; [|exact En]. destruct (negb _); [exact I|right; exact I].
Qed.
Lemma latest_nodup es : NoDup (map eName (latest es)).
Proof.
  induction es as [|a es IH]; [constructor|]. cbn [latest]. rewrite exists_named. destruct (named (eName a) es) as [|x l] eqn:Ne; cbn [negb]; [|exact IH].
  cbn [map]. constructor; [|exact IH]. intros I. apply in_map_iff in I as (e & En & Ie). destruct (latest_in _ _ Ie) as (A & _).
  assert (X : In e (named (eName a) es)) by (apply in_named; auto). rewrite Ne in X. destruct X.
Qed.
(* the code finds them by the largest cycle *)
Definition keys_of (es : list entry) : list (str * Z) := combine (map eName es) (cycles [] es).
Lemma zlen_named_app n a b : zlen (named n (a ++ b)) = zlen (named n a) + zlen (named n b).
Proof. unfold named, zlen. rewrite filter_app, app_length. lia. Qed.
Lemma zlen_named_one n e : zlen (named n [e]) = if str_eqb (eName e) n then 1 else 0.
Proof. unfold named. cbn [filter]. destruct (str_eqb (eName e) n); reflexivity. Qed.
Definition counted (s : str -> option Z) (es : list entry) : Prop := forall n, s n = match named n es with [] => None | _ => Some (zlen (named n es)) end.
Lemma latest_cycles_spec es : counted (latest_cycles (keys_of es)) es.
Proof.
  assert (H : forall es before s, counted s before ->
    counted (fold_left (fun s k => let set := fun n => if str_eqb n (fst k) then Some (snd k) else s n in
       match s (fst k) with Some c => if snd k <? c then s else set | None => set end) (combine (map eName es) (cycles before es)) s) (before ++ es)).
  { clear es. induction es as [|e es IH]; intros before s C; cbn [map cycles combine fold_left]; [now rewrite app_nil_r|].
    replace (before ++ e :: es) with ((before ++ [e]) ++ es) by now rewrite <- app_assoc. apply IH. cbv zeta. cbn [fst snd].
    assert (X : counted (fun n => if str_eqb n (eName e) then Some (zlen (named (eName e) before) + 1) else s n) (before ++ [e])).
    { intros n. pose proof (zlen_named_app n before [e]) as Z1. rewrite zlen_named_one in Z1.
      destruct (str_eqb_spec n (eName e)) as [->|Nn].
      - rewrite str_eqb_refl in Z1. pose proof (zlen_nonneg (named (eName e) before)). destruct (named (eName e) (before ++ [e])) as [|x l] eqn:Ne.
        + change (zlen (@nil entry)) with 0 in Z1. lia.
        + now rewrite Z1.
      - assert (E0 : named n (before ++ [e]) = named n before).
        { unfold named. rewrite filter_app. cbn [filter]. destruct (str_eqb_spec (eName e) n); [congruence|]. apply app_nil_r. }
        rewrite E0. apply C. }
    pose proof (C (eName e)) as Ce. destruct (s (eName e)) as [c|]; [|exact X].
    destruct (named (eName e) before) as [|x l] eqn:Nb; [discriminate Ce|]. assert (c = zlen (x :: l)) by congruence. subst c.
    destruct (Z.ltb_spec (zlen (x :: l) + 1) (zlen (x :: l))); [lia|exact X]. }
  apply (H es [] (fun _ => None)). intros n. reflexivity.
Qed.
Lemma select_latest es : map fst (filter (fun k => snd k =? cycle_of (latest_cycles (keys_of es)) (fst k)) (keys_of es)) = map eName (latest es).
Proof.
  assert (H : forall rest before s, counted s (before ++ rest) ->
    map fst (filter (fun k => snd k =? cycle_of s (fst k)) (combine (map eName rest) (cycles before rest))) = map eName (latest rest)).
  { induction rest as [|e r IH]; intros before s C; cbn [map cycles combine filter latest]; [reflexivity|].
    assert (IH' : map fst (filter (fun k => snd k =? cycle_of s (fst k)) (combine (map eName r) (cycles (before ++ [e]) r))) = map eName (latest r)).
    { apply IH. now rewrite <- app_assoc. }
    cbn [fst snd]. unfold cycle_of at 1. rewrite (C (eName e)). pose proof (zlen_named_app (eName e) before (e :: r)) as Z1.
    pose proof (zlen_named_app (eName e) [e] r) as Z2. rewrite zlen_named_one, str_eqb_refl in Z2. cbn [app] in Z2. rewrite Z2 in Z1. clear Z2.
    pose proof (zlen_nonneg (named (eName e) before)). pose proof (zlen_nonneg (named (eName e) r)).
    destruct (named (eName e) (before ++ e :: r)) as [|x l]; [change (zlen (@nil entry)) with 0 in Z1; lia|]. rewrite Z1, exists_named.
    destruct (named (eName e) r) as [|y z]; cbn [negb].
    - change (zlen (@nil entry)) with 0. destruct (Z.eqb_spec (zlen (named (eName e) before) + 1) (zlen (named (eName e) before) + (1 + 0))); [|lia].
      cbn [map]. now rewrite IH'.
    - unfold zlen in *. cbn [length] in *. destruct (Z.eqb_spec (Z.of_nat (length (named (eName e) before)) + 1) (Z.of_nat (length (named (eName e) before)) + (1 + Z.of_nat (S (length z))))); [lia|]. exact IH'. }
  apply (H es [] _). apply latest_cycles_spec.
Qed.

Fixpoint nameloop {St D L V E} (dget : D -> str -> St -> res (gres D L)) (fn : V -> str -> option (D + L) -> V * wret E)
    (walk : str -> D + L -> V -> res (option (V * wret E))) (path : str) (d : D) (st : St) (names : list str) (v : V) : res (option (V * wret E)) :=
  match names with
  | [] => Ok (Some (v, WNil))
  | n :: names' =>
      do g <- dget d n st;
      do r <- match g with
              | GDir d' => walk (pjoin path n) (inl d') v
              | GObj l => walk (pjoin path n) (inr l) v
              | GNoKey | GErr => Ok (Some (fn v (pjoin path n) None))
              end;
      match r with
      | None => Ok None
      | Some (v', WErr e) => Ok (Some (v', WErr e))
      | Some (v', _) => nameloop dget fn walk path d st names' v'
      end
  end.
Lemma walkloop_names {St D L V E} (dget : D -> str -> St -> res (gres D L)) (fn : V -> str -> option (D + L) -> V * wret E) walk path d st set keys :
  forall v, walkloop dget fn walk path d st set keys v =
            nameloop dget fn walk path d st (map fst (filter (fun k => snd k =? cycle_of set (fst k)) keys)) v.
Proof.
  induction keys as [|k keys IH]; intros v; [reflexivity|]. cbn [walkloop filter]. destruct (snd k =? cycle_of set (fst k)); cbn [negb map nameloop]; [|apply IH].
  cbv zeta. destruct (dget d (fst k) st) as [g|]; [|reflexivity]. cbn [rbind].
  destruct (match g with GDir d' => walk (pjoin path (fst k)) (inl d') v | GObj l => walk (pjoin path (fst k)) (inr l) v
            | GNoKey | GErr => Ok (Some (fn v (pjoin path (fst k)) None)) end) as [[[v' r]|]|]; cbn [rbind]; try reflexivity.
  destruct r; auto.
Qed.
Lemma prefix_trans p q r : prefix p q -> prefix q r -> prefix p r.
Proof. intros (a & ->) (b & ->). exists (a ++ b). now rewrite app_assoc. Qed.
Lemma prefix_snoc p x q : prefix (p ++ [x]) q -> prefix p q.
Proof. intros (s & ->). exists (x :: s). now rewrite <- app_assoc. Qed.
Lemma prefix_snoc_inj p x y q : prefix (p ++ [x]) q -> prefix (p ++ [y]) q -> x = y.
Proof.
  intros (a & ->) (b & E). rewrite <- !app_assoc in E. apply app_inv_head in E. cbn in E. congruence.
Qed.

Section Walks.
  Context {St D L : Type}.
  Variable dkeys : D -> St -> list (str * Z).
  Variable dget : D -> str -> St -> res (gres D L).
  Variable st : St.
  Variable S : store.
  Variable relD : D -> nat -> Prop.
  Variable relL : L -> entry -> Prop.
  Hypothesis GET : forall d j nc, relD d j -> nc_ok nc -> exists g, dget d (nc_string nc) st = Ok g /\ answers relD relL g (lookup nc (nth j S [])).
  Hypothesis KEYS : forall d j, relD d j -> dkeys d st = keys_of (nth j S []).
  Variable t : tree.
  Hypothesis R : Rel t S.
  Definition there (p : path) : Prop := isdir p t \/ puts_at p t <> [].
  Variable report : path -> str.
  Hypothesis REP : forall p n, there (p ++ [n]) -> pjoin (report p) n = report (p ++ [n]).
  Hypothesis NS : forall p n, there (p ++ [n]) -> ~ In semicolon n.

  Definition relO (o : D + L) (e : entry) : Prop :=
    match o, eBody e with inl d, CDir j => relD d j | inr l, CObj _ => relL l e | _, _ => False end.
  Definition rel (x : path * (D + L)) (y : path * entry) : Prop := fst x = fst y /\ relO (snd x) (snd y).
  Definition valid (p : path) (e : entry) : Prop :=
    match eBody e with CDir j => nth_error (tdirs t) j = Some p | CObj mar => ~ isdir p t /\ exists n o, List.last (map Some (puts_at p t)) None = Some o /\ e = ent_of n o end.
  Fixpoint sub (fuel : nat) (p : path) (e : entry) : list (path * entry) :=
    (p, e) :: match eBody e, fuel with
              | CDir j, Datatypes.S n => flat_map (fun e' => sub n (p ++ [eName e']) e') (latest (nth j S []))
              | _, _ => []
              end.
  Lemma rel_fst l l' : Forall2 rel l l' -> map fst l = map fst l'.
  Proof. induction 1 as [|x y l l' (A & _) _ IH]; [reflexivity|]. cbn [map]. now rewrite A, IH. Qed.
  Lemma child j p e : nth_error (tdirs t) j = Some p -> In e (latest (nth j S [])) -> valid (p ++ [eName e]) e.
  Proof.
    intros N I. destruct (latest_in _ _ I) as (_ & LA). unfold valid. destruct (in_dec path_dec (p ++ [eName e]) (tdirs t)) as [I1|NI].
    - apply In_nth_error in I1 as (j' & N'). rewrite (r_dir _ _ R _ _ _ _ N N') in LA. cbn in LA. assert (E : e = mkEntry (eName e) (eName e) sTDirectory (CDir j')) by congruence.
      rewrite E. cbn [eBody eName]. exact N'.
    - rewrite (r_put _ _ R _ _ _ N NI), last_map in LA. destruct (List.last (map Some (puts_at (p ++ [eName e]) t)) None) as [o|] eqn:LO; [|discriminate LA].
      cbn in LA. assert (E : e = ent_of (eName e) o) by congruence. rewrite E. cbn [ent_of eBody eName]. split; [exact NI|]. exists (eName e), o. auto.
  Qed.
  Lemma valid_there p e : valid p e -> there p.
  Proof.
    unfold valid. destruct (eBody e); [|intros N; left; eapply nth_error_In; eauto]. intros (_ & n & o & LO & _). right. intros H. rewrite H in LO. discriminate LO.
  Qed.
  Lemma dir_depth p : isdir p t -> (length p < length (tdirs t))%nat.
  Proof.
    intros I. assert (H : incl (map (fun i => firstn i p) (seq 0 (Datatypes.S (length p)))) (tdirs t)).
    { intros q Iq. apply in_map_iff in Iq as (i & <- & _). apply (closed_app t S (firstn i p) (skipn i p) R). now rewrite firstn_skipn. }
    apply NoDup_incl_length in H; [rewrite map_length, seq_length in H; exact H|].
    assert (G : forall m k, (k + m <= Datatypes.S (length p))%nat -> NoDup (map (fun i => firstn i p) (seq k m))).
    { induction m as [|m IH]; intros k Hk; cbn [seq map]; constructor; [|apply IH; lia]. intros J. apply in_map_iff in J as (i & E & J). apply in_seq in J.
      apply (f_equal (@length str)) in E. rewrite !firstn_length in E. lia. }
    apply G. lia.
  Qed.
  Lemma sub_prefix n : forall p e q, In q (map fst (sub n p e)) -> prefix p q.
  Proof.
    induction n as [|n IH]; intros p e q I; cbn [sub map fst] in I; destruct I as [<-|I]; try (exists []; now rewrite app_nil_r).
    - destruct (eBody e); destruct I.
    - destruct (eBody e) as [m|j]; [destruct I|]. apply in_map_iff in I as (x & <- & I). apply in_flat_map in I as (e' & _ & I).
      eapply prefix_snoc. apply (IH (p ++ [eName e']) e'). now apply in_map.
  Qed.
  Lemma subs_prefix n p es q : In q (map fst (flat_map (fun e' => sub n (p ++ [eName e']) e') es)) -> exists e, In e es /\ prefix (p ++ [eName e]) q.
  Proof.
    intros I. apply in_map_iff in I as (x & <- & I). apply in_flat_map in I as (e & Ie & I). exists e. split; [exact Ie|]. eapply sub_prefix. apply in_map. exact I.
  Qed.

  Definition follows {V E} (fn : V -> str -> option (D + L) -> V * wret E) (p : path) (l : list (path * (D + L))) (k : V -> res (option (V * wret E))) : Prop :=
    forall v sk l2, (forall q, In q (map fst l) -> existsb (fun x => prefixb x q) sk = false) -> (forall q, In q (map fst l2) -> ~ prefix p q) ->
      exists v' r, k v = Ok (Some (v', r)) /\
        visit fn report sk v (l ++ l2) = match r with WErr e => (v', WErr e) | _ => visit fn report sk v' l2 end.
  Lemma walk_spec n : forall p e o, relO o e -> valid p e -> (length (tdirs t) <= n + length p)%nat ->
    exists l, Forall2 rel l (sub n p e) /\
      forall V E (fn : V -> str -> option (D + L) -> V * wret E), follows fn p l (fun v => walk dkeys dget fn n (report p) o v st).
  Proof.
    induction n as [|n IH]; intros p e o RO VA LN.
    all: destruct o as [d|x]; unfold relO in RO; destruct (eBody e) as [m|j] eqn:B; try contradiction.
    - exfalso. unfold valid in VA. rewrite B in VA. pose proof (dir_depth p (nth_error_In _ _ VA)). lia.
    - exists [(p, inr x)]. split; [cbn [sub]; rewrite B; constructor; [split; [reflexivity|]; unfold relO; cbn [snd]; rewrite B; exact RO|constructor]|].
      intros V E fn v sk l2 H1 H2. cbn [walk app visit]. rewrite (H1 p) by (left; reflexivity).
      destruct (fn v (report p) (Some (inr x))) as (v', [| |e']); eauto.
    - assert (ND := latest_nodup (nth j S [])). unfold valid in VA. rewrite B in VA.
      assert (CH : forall es, incl es (latest (nth j S [])) -> NoDup (map eName es) ->
        exists l, Forall2 rel l (flat_map (fun e' => sub n (p ++ [eName e']) e') es) /\
          forall V E (fn : V -> str -> option (D + L) -> V * wret E), forall v sk l2,
            (forall q, In q (map fst l) -> existsb (fun x => prefixb x q) sk = false) -> (forall q, In q (map fst l2) -> ~ prefix p q) ->
            exists v' r, nameloop dget fn (fun p o v => walk dkeys dget fn n p o v st) (report p) d st (map eName es) v = Ok (Some (v', r)) /\ r <> WSkip /\
              visit fn report sk v (l ++ l2) = match r with WErr e => (v', WErr e) | _ => visit fn report sk v' l2 end).
      { induction es as [|e1 es IHes]; intros IN ND1.
        - exists []. split; [constructor|]. intros V E fn v sk l2 _ _. exists v, WNil. split; [reflexivity|]. split; [discriminate|reflexivity].
        - cbn [map] in ND1. inversion_clear ND1 as [|? ? NI ND2]. assert (I1 : In e1 (latest (nth j S []))) by (apply IN; left; reflexivity).
          pose proof (child j p e1 VA I1) as V1. pose proof (valid_there _ _ V1) as T1.
          destruct (GET d j (eName e1, None) RO) as (g & Eg & Ag); [split; [eapply NS; exact T1|exact I]|].
          cbn [nc_string fst snd] in Eg. rewrite lookup_pickc in Ag. cbn [pickc] in Ag. rewrite (proj2 (latest_in _ _ I1)) in Ag.
          assert (OO : exists o1, relO o1 e1 /\ g = match o1 with inl d' => GDir d' | inr l => GObj l end).
          { unfold answers in Ag. destruct (eBody e1) as [m1|j1] eqn:B1; destruct Ag as (z & -> & Rz); [exists (inr z)|exists (inl z)]; (split; [unfold relO; rewrite B1; exact Rz|reflexivity]). }
          destruct OO as (o1 & RO1 & Eo). destruct (IH (p ++ [eName e1]) e1 o1 RO1 V1) as (l1 & F1 & W1); [rewrite app_length; cbn [length]; lia|].
          destruct IHes as (l' & F' & W'); [intros x Ix; apply IN; right; exact Ix|exact ND2|].
          exists (l1 ++ l'). split; [cbn [flat_map]; now apply Forall2_app|].
          intros V E fn v sk l2 H1 H2. cbn [map nameloop]. rewrite Eg. cbn [rbind]. rewrite (REP p (eName e1) T1).
          destruct (W1 V E fn v sk (l' ++ l2)) as (v1 & r1 & Ew & Ev).
          + intros q Iq. apply H1. rewrite map_app. apply in_or_app. left. exact Iq.
          + intros q Iq P. rewrite map_app in Iq. apply in_app_or in Iq as [Iq|Iq].
            * rewrite (rel_fst _ _ F') in Iq. apply subs_prefix in Iq as (e2 & Ie2 & P2). apply NI. rewrite (prefix_snoc_inj _ _ _ _ P P2). now apply in_map.
            * apply (H2 q Iq). eapply prefix_snoc. exact P.
          + assert (EW : match g with GDir d' => walk dkeys dget fn n (report (p ++ [eName e1])) (inl d') v st
              | GObj l => walk dkeys dget fn n (report (p ++ [eName e1])) (inr l) v st | GNoKey | GErr => Ok (Some (fn v (report (p ++ [eName e1])) None)) end = Ok (Some (v1, r1))).
            { rewrite Eo. destruct o1; exact Ew. }
            assert (EW' : match g with GNoKey | GErr => Ok (Some (fn v (report (p ++ [eName e1])) None)) | GDir d' => walk dkeys dget fn n (report (p ++ [eName e1])) (inl d') v st
              | GObj l => walk dkeys dget fn n (report (p ++ [eName e1])) (inr l) v st end = Ok (Some (v1, r1))) by (destruct g; exact EW).
            rewrite EW'. cbn [rbind]. rewrite <- app_assoc, Ev.
            assert (H1' : forall q, In q (map fst l') -> existsb (fun x => prefixb x q) sk = false) by (intros q Iq; apply H1; rewrite map_app; apply in_or_app; right; exact Iq).
            destruct r1 as [| |ee].
            * apply (W' V E fn v1 sk l2 H1' H2).
            * apply (W' V E fn v1 sk l2 H1' H2).
            * exists v1, (WErr ee). split; [reflexivity|]. split; [discriminate|reflexivity]. }
      destruct (CH (latest (nth j S [])) (incl_refl _) ND) as (l & F & WL). exists ((p, inl d) :: l). split.
      + cbn [sub]. rewrite B. constructor; [split; [reflexivity|]; unfold relO; cbn [snd]; rewrite B; exact RO|exact F].
      + intros V E fn v sk l2 H1 H2. cbn [walk app visit]. rewrite (H1 p) by (left; reflexivity).
        destruct (fn v (report p) (Some (inl d))) as (v1, [| |e']).
        * rewrite walkloop_names, (KEYS d j RO), select_latest.
          destruct (WL V E fn v1 sk l2) as (v' & r & E1 & _ & E2); [intros q Iq; apply H1; right; exact Iq|exact H2|]. exists v', r. auto.
        * exists v1, WSkip. split; [reflexivity|]. rewrite visit_blocked.
          -- apply visit_ext. intros q Iq. cbn [existsb]. destruct (prefixb p q) eqn:P; [|reflexivity]. apply prefixb_spec in P. exfalso. exact (H2 q Iq P).
          -- intros q Iq. cbn [existsb]. rewrite (rel_fst _ _ F) in Iq. apply subs_prefix in Iq as (e2 & _ & P2). apply prefix_snoc in P2.
             apply prefixb_spec in P2. now rewrite P2.
        * exists v1, (WErr e'). auto.
    - exists [(p, inr x)]. split; [cbn [sub]; rewrite B; constructor; [split; [reflexivity|]; unfold relO; cbn [snd]; rewrite B; exact RO|constructor]|].
      intros V E fn v sk l2 H1 H2. cbn [walk app visit]. rewrite (H1 p) by (left; reflexivity).
      destruct (fn v (report p) (Some (inr x))) as (v', [| |e']); eauto.
  Qed.

  (* the list: the paths that are there, each once, parents first *)
  Lemma sub_there n : forall p e q, valid p e -> In q (map fst (sub n p e)) -> there q.
  Proof.
    induction n as [|n IH]; intros p e q VA I; cbn [sub map fst] in I; destruct I as [<-|I]; try (eapply valid_there; eauto; fail).
    - destruct (eBody e); destruct I.
    - unfold valid in VA. destruct (eBody e) as [m|j]; [destruct I|]. apply in_map_iff in I as (x & <- & I). apply in_flat_map in I as (e' & I1 & I).
      apply (IH (p ++ [eName e']) e'); [eapply child; eauto|now apply in_map].
  Qed.
  Lemma sub_has n : forall p e r, valid p e -> (length (tdirs t) <= n + length p)%nat -> there (p ++ r) -> In (p ++ r) (map fst (sub n p e)).
  Proof.
    induction n as [|n IH]; intros p e r VA LN T; (destruct r as [|x r]; [rewrite app_nil_r; left; reflexivity|]).
    all: assert (DP : isdir p t).
    1,3: destruct (@exists_last _ (x :: r)) as (r' & y & Er); [discriminate|]; rewrite Er, app_assoc in T; apply (closed_app t S p r' R);
      destruct T as [T|T]; [eapply (r_closed _ _ R); exact T|eapply (r_par _ _ R); exact T].
    - exfalso. pose proof (dir_depth p DP). lia.
    - unfold valid in VA. cbn [sub map fst]. right. destruct (eBody e) as [m|j]; [destruct VA; contradiction|].
      assert (Tx : there (p ++ [x])).
      { replace (p ++ x :: r) with ((p ++ [x]) ++ r) in T by now rewrite <- app_assoc. destruct r as [|y r]; [now rewrite app_nil_r in T|]. left.
        destruct (@exists_last _ (y :: r)) as (r' & z & Er); [discriminate|]. rewrite Er, app_assoc in T. apply (closed_app t S (p ++ [x]) r' R).
        destruct T as [T|T]; [eapply (r_closed _ _ R); exact T|eapply (r_par _ _ R); exact T]. }
      assert (NN : named x (nth j S []) <> []).
      { destruct (in_dec path_dec (p ++ [x]) (tdirs t)) as [I|NI].
        - apply In_nth_error in I as (j' & N'). rewrite (r_dir _ _ R _ _ _ _ VA N'). discriminate.
        - rewrite (r_put _ _ R _ _ _ VA NI). destruct Tx as [Tx|Tx]; [contradiction|]. destruct (puts_at (p ++ [x]) t); [congruence|discriminate]. }
      destruct (latest_has _ _ NN) as (e' & I' & En).
      assert (H : In (p ++ x :: r) (map fst (sub n (p ++ [eName e']) e'))).
      { rewrite En. replace (p ++ x :: r) with ((p ++ [x]) ++ r) in * by now rewrite <- app_assoc. apply IH; [rewrite <- En; eapply child; eauto|rewrite app_length; cbn [length]; lia|exact T]. }
      apply in_map_iff in H as (y & Ey & Iy). rewrite <- Ey. apply in_map. apply in_flat_map. eauto.
  Qed.
  Lemma sub_valid n : forall p e x, valid p e -> In x (sub n p e) -> valid (fst x) (snd x).
  Proof.
    induction n as [|n IH]; intros p e x VA I; cbn [sub] in I; destruct I as [<-|I]; auto.
    - destruct (eBody e); destruct I.
    - unfold valid in VA. destruct (eBody e) as [m|j]; [destruct I|]. apply in_flat_map in I as (e' & I1 & I).
      apply (IH (p ++ [eName e']) e'); [eapply child; eauto|exact I].
  Qed.
  Lemma fop_app {A} (P : A -> A -> Prop) l1 l2 : ForallOrdPairs P l1 -> ForallOrdPairs P l2 -> (forall a b, In a l1 -> In b l2 -> P a b) -> ForallOrdPairs P (l1 ++ l2).
  Proof.
    induction 1 as [|a l1 Fa F IH]; intros F2 X; [exact F2|]. cbn [app]. constructor.
    - apply Forall_app. split; [exact Fa|]. apply Forall_forall. intros b Ib. apply X; [left; reflexivity|exact Ib].
    - apply IH; [exact F2|]. intros b c Ib Ic. apply X; [right; exact Ib|exact Ic].
  Qed.
  Lemma sub_order n : forall p e, ForallOrdPairs (fun a b => ~ prefix b a) (map fst (sub n p e)).
  Proof.
    induction n as [|n IH]; intros p e; cbn [sub map fst]; [destruct (eBody e); constructor; constructor|].
    destruct (eBody e) as [m|j]; [constructor; constructor|]. constructor.
    - apply Forall_forall. intros q Iq. apply subs_prefix in Iq as (e' & _ & (a & ->)). intros (b & Eb). apply (f_equal (@length str)) in Eb.
      rewrite !app_length in Eb. cbn [length] in Eb. lia.
    - pose proof (latest_nodup (nth j S [])) as ND. induction (latest (nth j S [])) as [|e1 es IHes]; [constructor|]. cbn [map] in ND. inversion_clear ND as [|? ? NI ND'].
      cbn [flat_map]. rewrite map_app. apply fop_app; [apply IH|apply IHes, ND'|]. intros a b Ia Ib P. apply sub_prefix in Ia. apply subs_prefix in Ib as (e2 & I2 & P2).
      apply NI. rewrite (prefix_snoc_inj p (eName e1) (eName e2) a Ia (prefix_trans _ _ _ P2 P)). now apply in_map.
  Qed.
End Walks.

(* ---- the paths that are reported ---- *)
Notation is_name := XrdPathProps.is_name.
Notation clean_step := XrdSrvModel.clean_step.
(* what Clean keeps, last element first: names, above ".." when the path is not rooted *)
Inductive canon (rooted : bool) : list (list Z) -> Prop :=
| canon_nil : canon rooted []
| canon_name e st : is_name e -> canon rooted st -> canon rooted (e :: st)
| canon_up st : rooted = false -> Forall (eq XrdSrvModel.dotdot) st -> canon rooted (XrdSrvModel.dotdot :: st).
Lemma step_name rooted st e : is_name e -> clean_step rooted st e = e :: st.
Proof.
  intros (_ & A & B & C). unfold clean_step. destruct (str_eqb_spec e []); [congruence|]. destruct (str_eqb_spec e [46]); [congruence|].
  destruct (str_eqb_spec e XrdSrvModel.dotdot); [congruence|reflexivity].
Qed.
Lemma canon_dots rooted st : rooted = false -> Forall (eq XrdSrvModel.dotdot) st -> canon rooted st.
Proof. intros Er F. destruct F as [|x st <- F]; [constructor|apply canon_up; auto]. Qed.
Lemma canon_step rooted st e : ~ In 47 e -> canon rooted st -> canon rooted (clean_step rooted st e).
Proof.
  intros N C. unfold clean_step. destruct (str_eqb_spec e []); [auto|]. destruct (str_eqb_spec e [46]); cbn [orb]; [auto|].
  destruct (str_eqb_spec e XrdSrvModel.dotdot) as [->|D].
  - destruct C as [|x st Hx C|st Er F].
    + destruct rooted; [constructor|apply canon_up; auto].
    + destruct (str_eqb_spec x XrdSrvModel.dotdot) as [->|]; [destruct Hx as (_ & _ & _ & Hx); congruence|exact C].
    + rewrite str_eqb_refl. apply canon_up; [exact Er|]. constructor; auto.
  - apply canon_name; [repeat split; auto|exact C].
Qed.
Lemma canon_fold rooted st : canon rooted st -> fold_left (clean_step rooted) (rev st) [] = st.
Proof.
  induction 1 as [|e st He C IH|st Er F]; [reflexivity| |].
  - cbn [rev]. rewrite fold_left_app, IH. cbn [fold_left]. now apply step_name.
  - assert (H : forall k, fold_left (clean_step rooted) (repeat XrdSrvModel.dotdot k) [] = repeat XrdSrvModel.dotdot k).
    { rewrite Er. induction k as [|k IH]; [reflexivity|]. cbn [repeat]. rewrite repeat_cons at 1. rewrite fold_left_app, IH. cbn [fold_left].
      destruct k; reflexivity. }
    assert (E : XrdSrvModel.dotdot :: st = repeat XrdSrvModel.dotdot (length (XrdSrvModel.dotdot :: st))).
    { cbn [length repeat]. f_equal. clear -F. induction F as [|x st <- F IH]; [reflexivity|]. cbn [length repeat]. now f_equal. }
    rewrite E. assert (Er' : rev (repeat XrdSrvModel.dotdot (length (XrdSrvModel.dotdot :: st))) = repeat XrdSrvModel.dotdot (length (XrdSrvModel.dotdot :: st))).
    { generalize (length (XrdSrvModel.dotdot :: st)). induction n as [|n IH]; [reflexivity|]. cbn [repeat rev]. rewrite IH. symmetry. rewrite <- repeat_cons. reflexivity. }
    rewrite Er'. apply H.
Qed.
Lemma canon_elem rooted st : canon rooted st -> Forall (fun e => e <> [] /\ ~ In 47 e) st.
Proof.
  induction 1 as [|e st (A & B & _) C IH|st Er F]; constructor; auto.
  - split; [discriminate|]. intros [E|[E|[]]]; discriminate E.
  - eapply Forall_impl; [|exact F]. intros x <-. split; [discriminate|]. intros [E|[E|[]]]; discriminate E.
Qed.
Definition render (rooted : bool) (l : list (list Z)) : list Z := (if rooted then [47] else []) ++ join 47 l.
Lemma render_snoc rooted l n : l <> [] -> render rooted (l ++ [n]) = render rooted l ++ 47 :: n.
Proof. intros N. unfold render. rewrite join_snoc by exact N. now rewrite app_assoc. Qed.
Lemma render_head rooted l : l <> [] -> Forall (fun e => e <> [] /\ ~ In 47 e) l -> exists c s, render rooted l = c :: s /\ (c =? 47) = rooted.
Proof.
  intros N F. unfold render. destruct rooted; [exists 47, (join 47 l); split; reflexivity|]. destruct l as [|e l]; [congruence|].
  inversion_clear F as [|? ? (A & B) _]. destruct e as [|c e]; [congruence|]. assert (Nc : (c =? 47) = false) by (apply Z.eqb_neq; intros ->; apply B; left; reflexivity).
  destruct l as [|b l]; [exists c, e; split; auto|]. cbn [app]. rewrite join_cons by discriminate. exists c, (e ++ 47 :: join 47 (b :: l)). split; auto.
Qed.
Lemma pjoin_canon rooted st n : canon rooted st -> st <> [] -> is_name n -> pjoin (render rooted (rev st)) n = render rooted (rev st ++ [n]).
Proof.
  intros C N Hn. assert (Nr : rev st <> []) by (intros E; apply N; rewrite <- (rev_involutive st), E; reflexivity).
  assert (F : Forall (fun e => e <> [] /\ ~ In 47 e) (rev st)) by (apply Forall_rev; eapply canon_elem; exact C).
  destruct (render_head rooted (rev st) Nr F) as (c & s & E & Ec). unfold pjoin, XrdSrvModel.pjoin. rewrite E.
  assert (EQ : XrdSrvModel.clean ((c :: s) ++ 47 :: n) = render rooted (rev st ++ [n])).
  { cbn [app]. unfold XrdSrvModel.clean. rewrite Ec.
    change (c :: s ++ 47 :: n) with ((c :: s) ++ 47 :: n). rewrite <- E, XrdPathProps.split_app.
    assert (Sn : split 47 n = [n]) by (apply split_nosep; apply Hn).
    assert (Sr : split 47 (render rooted (rev st)) = (if rooted then [[]] else []) ++ rev st).
    { unfold render. assert (SJ : split 47 (join 47 (rev st)) = rev st) by (apply split_join; [exact Nr|]; eapply Forall_impl; [|exact F]; intros a (_ & H); exact H).
      destruct rooted; [|exact SJ]. cbn [app split]. change (47 =? 47) with true. cbv iota. now rewrite SJ. }
    assert (FO : fold_left (clean_step rooted) (split 47 (render rooted (rev st)) ++ split 47 n) [] = n :: st).
    { rewrite Sr, Sn, !fold_left_app. destruct rooted; cbn [fold_left]; [change (clean_step true [] []) with (@nil (list Z))|]; rewrite canon_fold by exact C; now apply step_name. }
    rewrite FO. cbn [rev]. unfold render. destruct rooted; [reflexivity|]. cbn [app]. rewrite join_snoc by exact Nr.
    destruct (join 47 (rev st) ++ 47 :: n) eqn:Z; [destruct (join 47 (rev st)); discriminate Z|reflexivity]. }
  destruct n; exact EQ.
Qed.
Definition report (top : str) (p : path) : str := match p with [] => top | _ => top ++ slash :: join slash p end.
Lemma report_snoc top p n : report top (p ++ [n]) = report top p ++ slash :: n.
Proof.
  destruct p as [|x p]; [reflexivity|]. unfold report. cbn [app]. change (x :: p ++ [n]) with ((x :: p) ++ [n]). rewrite join_snoc by discriminate.
  now rewrite <- app_assoc.
Qed.
Definition top_of (fname : str) : str := pjoin fname [46].
Lemma top_canon fname : top_of fname <> [47] -> top_of fname <> [46] -> exists rooted st, canon rooted st /\ st <> [] /\ top_of fname = render rooted (rev st).
Proof.
  unfold top_of, pjoin, XrdSrvModel.pjoin. destruct fname as [|c s]; [intros _ H; exfalso; apply H; reflexivity|].
  unfold XrdSrvModel.clean. cbn [app]. set (l := split 47 (c :: s ++ [47; 46])). cbv zeta. intros H1 H2.
  exists (c =? 47), (fold_left (clean_step (c =? 47)) l []).
  assert (C : canon (c =? 47) (fold_left (clean_step (c =? 47)) l [])).
  { assert (G : forall es st, Forall (fun e => ~ In 47 e) es -> canon (c =? 47) st -> canon (c =? 47) (fold_left (clean_step (c =? 47)) es st)).
    { induction es as [|e es IH]; intros st F Cs; [exact Cs|]. inversion_clear F. apply IH; auto. now apply canon_step. }
    apply G; [apply XrdPathProps.split_clean|constructor]. }
  split; [exact C|]. unfold render. set (st := fold_left (clean_step (c =? 47)) l []) in *. destruct (c =? 47); cbn [app].
  - split; [|reflexivity]. intros E. apply H1. now rewrite E.
  - split; [intros E; apply H2; now rewrite E|]. destruct (join 47 (rev st)) eqn:J; [|reflexivity]. exfalso. apply H2. reflexivity.
Qed.
Lemma report_join fname p n : top_of fname <> [47] -> top_of fname <> [46] -> Forall is_name (p ++ [n]) ->
  pjoin (report (top_of fname) p) n = report (top_of fname) (p ++ [n]).
Proof.
  intros H1 H2 F. destruct (top_canon fname H1 H2) as (rooted & st & C & N & E). apply Forall_app in F as (Fp & Fn). inversion_clear Fn as [|? ? Hn _].
  assert (Nr : rev st <> []) by (intros E0; apply N; rewrite <- (rev_involutive st), E0; reflexivity).
  assert (G : report (top_of fname) p = render rooted (rev (rev p ++ st)) /\ canon rooted (rev p ++ st)).
  { clear Hn. induction p as [|x p IH] using rev_ind; [split; [exact E|exact C]|]. apply Forall_app in Fp as (Fp & Fx). inversion_clear Fx as [|? ? Hx _].
    destruct (IH Fp) as (A & B). assert (Er : rev (p ++ [x]) = x :: rev p) by (rewrite rev_app_distr; reflexivity). rewrite report_snoc, A, Er. cbn [rev app].
    split; [|apply canon_name; auto]. symmetry. apply render_snoc. rewrite rev_app_distr. destruct (rev st); [congruence|discriminate]. }
  destruct G as (G & GC). rewrite report_snoc, G, pjoin_canon; [apply render_snoc| | |exact Hn]; auto.
  - rewrite rev_app_distr. destruct (rev st); [congruence|discriminate].
  - destruct (rev p); [exact N|discriminate].
Qed.

(* ---- names ---- *)
Definition call_names (c : call) : path := match c with KPut _ ds n _ _ => ds ++ [n] | KMkdir _ ds _ => ds end.
Lemma there_after (P : str -> Prop) c t : Forall P (call_names c) -> (forall p, there t p -> Forall P p) -> forall p, there (after c t) p -> Forall P p.
Proof.
  intros F H p T. destruct c as [lead ds n o now|lead ds now]; cbn [after call_names] in *.
  - apply Forall_app in F as F'. destruct F' as (Fd & Fn). destruct T as [T|T].
    + change (isdir p (add_put (ds ++ [n]) o (mkdirs [] ds t))) with (isdir p (mkdirs [] ds t)) in T. apply isdir_mkdirs in T as [T|(a & b & E & _ & ->)]; [apply H; left; exact T|].
      cbn [app]. rewrite E in Fd. apply Forall_app in Fd. tauto.
    + rewrite puts_add, puts_mkdirs in T. destruct (path_dec (ds ++ [n]) p) as [<-|]; [exact F|]. rewrite app_nil_r in T. apply H. right. exact T.
  - destruct T as [T|T].
    + apply isdir_mkdirs in T as [T|(a & b & E & _ & ->)]; [apply H; left; exact T|]. cbn [app]. rewrite E in F. apply Forall_app in F. tauto.
    + rewrite puts_mkdirs in T. apply H. right. exact T.
Qed.
Lemma there_afters (P : str -> Prop) cs : forall t, Forall (fun c => Forall P (call_names c)) cs -> (forall p, there t p -> Forall P p) ->
  forall p, there (afters cs t) p -> Forall P p.
Proof.
  induction cs as [|c cs IH]; intros t F H p T; [now apply H|]. inversion_clear F as [|? ? Fc Fs]. cbn [afters fold_left] in T.
  apply (IH (after c t) Fs); [|exact T]. now apply there_after.
Qed.
Lemma allowed_plain cdc compr cs : forall t, all_allowed cdc compr cs t -> Forall (fun c => Forall plain (call_names c)) cs.
Proof.
  induction cs as [|c cs IH]; intros t A; [constructor|]. cbn [all_allowed] in A. destruct A as (A & As). constructor; [|eapply IH; exact As].
  assert (NP : forall l, Forall name_ok l -> Forall plain l) by (intros l; apply Forall_impl; intros a (X & Y & Z & _); split; auto).
  destruct c as [lead ds n o now|lead ds now]; cbn [allowed call_names] in *.
  - destruct A as (F & Nn & Sn & _ & _ & OK & _). apply Forall_app. split; [now apply NP|]. constructor; [|constructor]. split; [exact Nn|]. split; [exact Sn|].
    cbn [op_ok] in OK. cbv zeta in OK. destruct OK as (_ & _ & _ & _ & _ & H & _). unfold put_as in H. destruct n; [congruence|exact H].
  - apply NP. tauto.
Qed.
Lemma map_combine {A B C} (f : A -> B) (g : A -> C) l : map (fun k => (f k, g k)) l = combine (map f l) (map g l).
Proof. induction l as [|a l IH]; [reflexivity|]. cbn [map combine]. now rewrite IH. Qed.

(* more fuel changes nothing *)
Section More.
  Context {St D L V E : Type}.
  Variable dkeys : D -> St -> list (str * Z).
  Variable dget : D -> str -> St -> res (gres D L).
  Variable fn : V -> str -> option (D + L) -> V * wret E.
  Lemma loop_more (w1 w2 : str -> D + L -> V -> res (option (V * wret E))) path d st set keys :
    (forall p o v r, w1 p o v = Ok (Some r) -> w2 p o v = Ok (Some r)) ->
    forall v r, walkloop dget fn w1 path d st set keys v = Ok (Some r) -> walkloop dget fn w2 path d st set keys v = Ok (Some r).
  Proof.
    intros H. induction keys as [|k keys IH]; intros v r E1; [exact E1|]. cbn [walkloop] in *. cbv zeta in *.
    destruct (negb _); [now apply IH|]. destruct (dget d (fst k) st) as [g|]; cbn [rbind] in *; [|discriminate E1].
    assert (X : forall y, match g with GDir d' => w1 (pjoin path (fst k)) (inl d') v | GObj l => w1 (pjoin path (fst k)) (inr l) v
                          | GNoKey | GErr => Ok (Some (fn v (pjoin path (fst k)) None)) end = Ok (Some y) ->
                          match g with GDir d' => w2 (pjoin path (fst k)) (inl d') v | GObj l => w2 (pjoin path (fst k)) (inr l) v
                          | GNoKey | GErr => Ok (Some (fn v (pjoin path (fst k)) None)) end = Ok (Some y)) by (destruct g; auto).
    destruct (match g with GNoKey | GErr => Ok (Some (fn v (pjoin path (fst k)) None)) | GDir d' => w1 (pjoin path (fst k)) (inl d') v
              | GObj l => w1 (pjoin path (fst k)) (inr l) v end) as [[[v' w]|]|]; cbn [rbind] in *; try discriminate E1.
    rewrite (X _ eq_refl). cbn [rbind]. destruct w; auto.
  Qed.
  Lemma walk_more n : forall m path o v st r, (n <= m)%nat -> walk dkeys dget fn n path o v st = Ok (Some r) -> walk dkeys dget fn m path o v st = Ok (Some r).
  Proof.
    induction n as [|n IH]; intros m path o v st r Lm H; destruct o as [d|l]; cbn [walk] in H; try discriminate H; try (destruct m; exact H).
    destruct m as [|m]; [lia|]. cbn [walk]. destruct (fn v path (Some (inl d))) as (v1, [| |e]); try exact H. revert H. apply loop_more.
    intros p o v2 r2. apply IH. lia.
  Qed.
End More.

(* Walk calls the function on each directory and on the latest object of each path, parents first and each path once,
   with the path below the name of the file; an error stops it, SkipDir on a directory leaves out what is below. *)
Theorem C60_walk junk cdc srt fnd fname compr now cs si clk t1 t2 :
  sorts srt -> str_ok fname -> zlen fname <= 478 -> inS 32 compr ->
  date_ok now -> (forall j, date_ok (clk j)) -> date_ok t1 -> date_ok t2 ->
  (forall off, payload_ok cdc compr (si off)) -> (forall off, exists out, Compress cdc (si off) compr = Ok (Some out)) ->
  let t := afters cs tree0 in
  all_allowed cdc compr cs tree0 -> (forall p, zlen (puts_at p t) <= 32767) ->
  start_size fname + crooms cdc compr cs tree0 <= kStartBigFile ->
  Forall (fun c => Forall (fun n => n <> [46] /\ n <> [46; 46]) (call_names c)) cs ->
  top_of fname <> [47] -> top_of fname <> [46] ->
  exists f0 f f', Create junk fname compr now = Ok f0 /\ docalls junk cdc srt fnd cs f0 = Ok (f, map (fun _ => true) cs) /\
    Close junk cdc si clk t1 t2 f = Ok (Some f') /\
    (wEnd f' <= kStartBigFile ->
     exists R l, Open cdc (wDisk f') = Ok (Some R) /\
       (forall p, In p (map fst l) <-> isdir p t \/ puts_at p t <> []) /\
       ForallOrdPairs (fun a b => ~ prefix b a) (map fst l) /\
       (forall p o, In (p, o) l ->
          match o with
          | inl d => isdir p t /\ lists t p d
          | inr x => exists ob b off, pickc None (puts_at p t) = Some ob /\ x = RLeaf (GoName2Cxx (oClass ob)) b off /\ oData ob off = Some b
          end) /\
       forall V E (fn : V -> str -> option (rdir + robj) -> V * wret E) fuel v, (length (tdirs t) <= fuel)%nat ->
         fileWalk cdc srt fn fuel R v (wDisk f') = Ok (Some (visit fn (report (top_of fname)) [] v l))).
Proof.
  intros ST SF LF IC Dn Dc D1 D2 PO CO t A Cn L DL T1 T2.
  destruct (calls_good junk cdc srt fnd fname compr now cs ST SF LF Dn A Cn L) as (f0 & f & HC & HR & (G & R) & S1).
  assert (LE : wEnd f <= kStartBigFile) by lia.
  destruct (close_total junk cdc fname compr si clk t1 t2 f G LE Dc D1 D2 PO CO) as (f' & HX).
  exists f0, f, f'. split; [exact HC|]. split; [exact HR|]. split; [exact HX|]. intros L'.
  destruct (reopen_view junk cdc srt fname compr si clk t1 t2 f f' ST IC Dc D1 D2 PO G HX LE L') as (RF & HO & RN & _ & _ & _ & SH & WK).
  set (D := wDisk f') in *. set (S := view f) in *. set (e0 := root_entry fname) in *.
  set (rd := reldir cdc srt D S (rfRoot RF) e0). set (rl := fun (x : robj) e => shows S e x).
  assert (TN : forall p, there t p -> Forall (fun n => is_name n /\ ~ In semicolon n) p).
  { intros p T. assert (X1 : Forall plain p).
    { apply (there_afters plain cs tree0); [eapply allowed_plain; exact A| |exact T]. intros q [Q|Q]; [destruct Q as [<-|[]]; constructor|exfalso; apply Q; reflexivity]. }
    assert (X2 : Forall (fun n => n <> [46] /\ n <> [46; 46]) p).
    { apply (there_afters _ cs tree0); [exact DL| |exact T]. intros q [Q|Q]; [destruct Q as [<-|[]]; constructor|exfalso; apply Q; reflexivity]. }
    clear -X1 X2. induction p as [|n p IH]; [constructor|]. inversion_clear X1 as [|? ? (B1 & B2 & B3) X1']. inversion_clear X2 as [|? ? (C1 & C2) X2'].
    constructor; [|now apply IH]. split; [|exact B3]. split; [exact B2|]. split; [exact B1|]. split; [exact C1|exact C2]. }
  assert (GET : forall d j nc, rd d j -> nc_ok nc -> exists g, rGet' cdc srt d (nc_string nc) D = Ok g /\ answers rd rl g (lookup nc (nth j S []))).
  { intros d j nc Rd Nc. exact (reldir_get cdc srt D S (rfRoot RF) e0 WK d j nc Rd Nc). }
  assert (KEYS : forall d j, rd d j -> rdkeys d D = keys_of (nth j S [])).
  { intros d j (path & e & F & LO & B & W1). destruct (WK path F) as (r & E & M). rewrite LO in M. destruct M as (o & -> & SHo).
    assert (o = RDir d) by congruence. subst o. unfold shows in SHo. rewrite B in SHo. destruct SHo as (N1 & _ & _ & N4).
    unfold rdkeys, keys_of. now rewrite map_combine, N1, N4. }
  assert (REP : forall p n, there t (p ++ [n]) -> pjoin (report (top_of fname) p) n = report (top_of fname) (p ++ [n])).
  { intros p n T. apply report_join; auto. eapply Forall_impl; [|exact (TN _ T)]. intros a (H & _). exact H. }
  assert (NSEM : forall p n, there t (p ++ [n]) -> ~ In semicolon n).
  { intros p n T. apply TN in T. apply Forall_app in T as (_ & T). inversion_clear T as [|? ? (_ & H) _]. exact H. }
  assert (RO : relO rd rl (inl (rfRoot RF)) e0) by exact (reldir_root cdc srt D S (rfRoot RF) e0 eq_refl).
  assert (VA : valid t [] e0) by exact (r_root _ _ R).
  destruct (walk_spec rdkeys (rGet' cdc srt) D S rd rl GET KEYS t R (report (top_of fname)) REP NSEM (length (tdirs t)) [] e0 (inl (rfRoot RF)) RO VA) as (l & F & WL); [lia|].
  exists RF, l. split; [exact HO|]. pose proof (rel_fst rd rl _ _ F) as EF. split; [|split; [|split]].
  - intros p. rewrite EF. split.
    + apply (sub_there S t R). exact VA.
    + intros T. apply (sub_has S t R (length (tdirs t)) [] e0 p VA); [cbn [length]; lia|exact T].
  - rewrite EF. apply sub_order.
  - intros p o I. assert (X : exists e, In (p, e) (sub S (length (tdirs t)) [] e0) /\ relO rd rl o e).
    { clear -F I. induction F as [|x y l l' (X1 & X2) F IH]; [destruct I|]. destruct I as [->|I].
      - exists (snd y). split; [left; destruct y; cbn in *; congruence|exact X2].
      - destruct (IH I) as (e & A & B). exists e. split; [right; exact A|exact B]. }
    destruct X as (e & Ie & Re). pose proof (sub_valid S t R _ _ _ _ VA Ie) as Ve. cbn [fst snd] in Ve. unfold valid in Ve. unfold relO in Re.
    destruct o as [d|x]; destruct (eBody e) as [m|j] eqn:B; try contradiction.
    + split; [eapply nth_error_In; exact Ve|]. exact (reldir_lists cdc srt D S (rfRoot RF) e0 WK t d j p R Re Ve).
    + destruct Ve as (_ & n & ob & LO & ->). unfold rl, shows in Re. cbn [ent_of eBody eClass] in Re. destruct x as [cl b off|]; [|contradiction].
      destruct Re as (-> & M). exists ob, b, off. auto.
  - intros V E fn fuel v LF'. 
    destruct (WL V E fn v [] []) as (v' & r & E1 & E2); [reflexivity|intros q []|]. rewrite app_nil_r in E2. rewrite E2.
    unfold fileWalk, Walk. rewrite RN. fold (top_of fname). change (report (top_of fname) []) with (top_of fname) in E1.
    rewrite (walk_more _ _ _ (length (tdirs t)) fuel (top_of fname) (inl (rfRoot RF)) v D (v', r)); [|exact LF'|exact E1]. cbn [rbind option_map visit].
    destruct r; reflexivity.
Qed.

(* ---- an example ---- *)
(* the paths that are reported, for a function that returns [ret] of each path *)
Definition ex_fn (ret : str -> wret Z) (v : list str) (p : str) (o : option (rdir + robj)) : list str * wret Z := (v ++ [p], ret p).
Definition ex_walk (cs : list call) (ret : str -> wret Z) : res (option (list str * wret Z)) :=
  do f <- Create ex_junk ex_name 106 ex_now;
  do r <- docalls ex_junk ex_cdc isort nofind cs f;
  do c <- Close ex_junk ex_cdc ex_si (fun _ => ex_now) ex_now ex_now (fst r);
  match c with
  | None => Ok None
  | Some f' =>
      do R <- Open ex_cdc (wDisk f');
      match R with
      | None => Ok None
      | Some R => fileWalk ex_cdc isort (ex_fn ret) 10 R [] (wDisk f')
      end
  end.
Definition under (s : str) : str := ex_name ++ slash :: s.
(* a.root, a.root/a, a.root/a/b, a.root/a/b/c (put twice), a.root/a/d, a.root/h; leaving out a.root/a; stopping at a.root/a/b *)
Example C60_walk_example :
  Forall (fun c => Forall (fun n => n <> [46] /\ n <> [46; 46]) (call_names c)) ex_calls /\ top_of ex_name <> [47] /\ top_of ex_name <> [46] /\
  ex_walk ex_calls (fun _ => WNil) =
    Ok (Some ([ex_name; under [97]; under [97; 47; 98]; under [97; 47; 98; 47; 99]; under [97; 47; 100]; under [104]], WNil)) /\
  ex_walk ex_calls (fun p => if str_eqb p (under [97]) then WSkip else WNil) = Ok (Some ([ex_name; under [97]; under [104]], WNil)) /\
  ex_walk ex_calls (fun p => if str_eqb p (under [97; 47; 98]) then WErr 5 else WNil) = Ok (Some ([ex_name; under [97]; under [97; 47; 98]], WErr 5)).
Proof.
  split; [repeat constructor; discriminate|]. split; [vm_compute; discriminate|]. split; [vm_compute; discriminate|]. split; [|split]; vm_compute; reflexivity.
Qed.

(* ---- what does not hold ---- *)
(* The documentation of WalkFunc: when it returns SkipDir on an object that is not a directory, the remaining keys of its
   directory are skipped.  They are not: h and x are put in the file, SkipDir is returned for h, x is visited. *)
Theorem C60_skip_object_refuted :
  exists cs ret h x, ret h = WSkip /\ ex_walk cs ret = Ok (Some ([ex_name; h; x], WNil)) /\ h = under [104] /\ x = under [120] /\
    cs = [KPut false [] [104] ex_small ex_now; KPut false [] [120] ex_small ex_now].
Proof.
  exists [KPut false [] [104] ex_small ex_now; KPut false [] [120] ex_small ex_now], (fun p => if str_eqb p (under [104]) then WSkip else WNil), (under [104]), (under [120]).
  split; [reflexivity|]. split; [vm_compute; reflexivity|]. auto.
Qed.
(* an object of the name ".." is reported as if it was above the file: "." *)
Theorem C60_dotdot_refuted :
  exists cs, ex_walk cs (fun _ => WNil) = Ok (Some ([ex_name; [46]], WNil)) /\ cs = [KPut false [] [46; 46] ex_small ex_now].
Proof. eexists. split; [|reflexivity]. vm_compute. reflexivity. Qed.

Print Assumptions C60_walk.
Print Assumptions C60_skip_object_refuted.
Print Assumptions C60_dotdot_refuted.
