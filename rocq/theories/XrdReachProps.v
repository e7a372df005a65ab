(* C51 over whole histories, and C53: what requests can do to an xrootd server. *)
From Coq Require Import ZArith List Lia Bool.
From Verif Require Import Bytes GoLib GoStrings XrdModel XrdProofs XrdProps XrdCliModel XrdSrvModel XrdSrvProps XrdPathProps.
Import ListNotations.
Local Open Scope Z_scope.

(* ---- C51: files outside the base path ---- *)
(* the paths of a request that are used; an empty one stands for a handle in stat and truncate *)
Definition paths_of (m : msg) : list (list Z) :=
  match m with
  | Mopen _ _ p | Mrm p => [p]
  | Mstat _ _ p | Mtruncate _ _ p => match p with [] => [] | _ => [p] end
  | Mmv a b => [a; b]
  | _ => []
  end.
Definition below (base q : list Z) : Prop := exists y, place [] q = place [] base ++ y.
Section Reach.
Variable base : list Z.
Variable attr : nat -> Z * Z.
Variable dirs : srv -> msg -> reply.
Variable sidb : Z -> list Z.
Variable out : list Z -> Prop.
Record kept (s : srv) : Prop := {
  k_inj : forall q1 q2 i, nget (o_names s) q1 = Some i -> nget (o_names s) q2 = Some i -> q1 = q2;
  k_range : forall q i, nget (o_names s) q = Some i -> (i < length (o_inodes s))%nat;
  k_fds : forall f q, In f (o_fds s) -> out q -> nget (o_names s) q <> Some (fd_ino f);
  k_hs : forall sid h j, nget (handles s sid) h = Some j -> (j < length (o_fds s))%nat;
  k_fdr : forall f, In f (o_fds s) -> (fd_ino f < length (o_inodes s))%nat }.
Definition same_out (s s' : srv) : Prop :=
  forall q, out q -> nget (o_names s') q = nget (o_names s) q /\ forall i, nget (o_names s) q = Some i -> content s' i = content s i.
Lemma same_refl s : same_out s s.
Proof. intros q _. auto. Qed.
Lemma kept_ino s i c : kept s -> (forall q, out q -> nget (o_names s) q <> Some i) -> kept (setIno s i c) /\ same_out s (setIno s i c).
Proof.
  intros [I R F H D] N. split.
  - constructor; cbn [setIno o_names o_inodes o_fds]; auto; intros; rewrite length_seti; eauto.
  - intros q O. split; [reflexivity|]. intros k E. unfold content. cbn [setIno o_inodes]. apply nth_seti_other. intros ->. eapply N; eauto.
Qed.
Lemma fd_in s j : (j < length (o_fds s))%nat -> In (fd_of s j) (o_fds s).
Proof. intros L. unfold fd_of. now apply nth_In. Qed.
Lemma kept_set s sid l : kept s -> (forall h j, nget l h = Some j -> (j < length (o_fds s))%nat) -> kept (setHandles s sid l).
Proof.
  intros [I R F H D] N. constructor; cbn [setHandles o_names o_inodes o_fds]; auto. intros t h j. rewrite handles_set. destruct (sid =? t); eauto.
Qed.
Lemma kept_close s j : kept s -> kept (closeFd s j).
Proof.
  intros [I R F H D]. assert (X : forall f, In f (o_fds (closeFd s j)) -> exists f', In f' (o_fds s) /\ fd_ino f' = fd_ino f).
  { intros f J. destruct (Nat.lt_ge_cases j (length (o_fds s))) as [L|L].
    - apply (In_nth _ _ (fd_of s 0)) in J. destruct J as (k & Lk & E). unfold closeFd in E, Lk. cbn [o_fds] in E, Lk. rewrite length_seti in Lk. rewrite nth_seti in E by exact L.
      destruct (Nat.eqb_spec j k); [exists (fd_of s j); split; [now apply fd_in|rewrite <- E; reflexivity]|].
      exists (nth k (o_fds s) (fd_of s 0)). split; [now apply nth_In|rewrite E; reflexivity].
    - unfold closeFd in J. cbn [o_fds] in J. exists f. split; [|reflexivity]. assert (Q : forall (l : list fd) i x, (length l <= i)%nat -> seti l i x = l).
      { clear. induction l as [|a l IH]; intros [|i] x L; cbn [seti length] in *; try lia; auto. rewrite IH by lia. reflexivity. }
      rewrite Q in J by exact L. exact J. }
  constructor; cbn [closeFd o_names o_inodes]; auto.
  - intros f q J O. destruct (X f J) as (f' & J' & E). rewrite <- E. eapply F; eauto.
  - intros t h k. cbn [closeFd o_fds]. rewrite length_seti. apply H.
  - intros f J. destruct (X f J) as (f' & J' & E). rewrite <- E. eauto.
Qed.
Lemma kept_end s sid : kept s -> kept (closeSession s sid) /\ same_out s (closeSession s sid).
Proof.
  intros K. unfold closeSession. assert (K' : kept (fold_left (fun s x => closeFd s (@snd (list Z) nat x)) (handles s sid) s)).
  { revert K. generalize (handles s sid) as l. intros l. revert s. induction l as [|x l IH]; intros s K; [exact K|]. cbn [fold_left]. apply IH, kept_close, K. }
  destruct (close_all dirs (handles s sid) s) as (A & B & C & D & E). cbv zeta. set (s' := fold_left _ _ _) in *. split.
  - destruct K' as [I R F H Dd]. constructor; cbn [o_names o_inodes o_fds]; auto. intros t h j. unfold handles. cbn [o_sess]. rewrite sget_sdel. specialize (H t h j). unfold handles in H. destruct (sid =? t); [discriminate|exact H].
  - intros q O. cbn [o_names]. rewrite A. split; [reflexivity|]. intros i G. unfold content. cbn [o_inodes]. now rewrite B.
Qed.
Lemma kept_step s sid tries m s' r : kept s -> (forall p, In p (paths_of m) -> ~ out (pjoin base p)) ->
  handle base attr dirs (sidb sid) s sid tries m = Ok (s', r) -> kept s' /\ same_out s s'.
Proof.
  intros K P E.
  assert (G : forall h j, getFile s sid h = Some j -> forall q, out q -> nget (o_names s) q <> Some (fd_ino (fd_of s j))).
  { intros h j Ej q O. eapply k_fds; eauto. apply fd_in. eapply k_hs; eauto. }
  assert (N : forall p i, In p (paths_of m) -> nget (o_names s) (pjoin base p) = Some i -> forall q, out q -> nget (o_names s) q <> Some i).
  { intros p i Ip Ei q O Eq. assert (pjoin base p = q) by (eapply k_inj; eauto). subst q. eapply P; eauto. }
  destruct m; cbn [XrdSrvModel.handle paths_of] in *; try (injection E as <- <-; split; [exact K|apply same_refl]).
  - (* close *) unfold doClose in E. destruct (getFile s sid handle) as [j|]; injection E as <- <-; [|split; [exact K|apply same_refl]].
    split; [|intros q _; split; [reflexivity|auto]]. apply kept_close, kept_set; auto. intros h k. rewrite nget_ndel. destruct (str_eqb _ _); [discriminate|]. eapply k_hs; eauto.
  - (* rm *) unfold doRemove in E. destruct (nget (o_names s) (pjoin base path)) as [i|] eqn:Ei; injection E as <- <-; [|split; [exact K|apply same_refl]].
    assert (Q : forall q, out q -> str_eqb (pjoin base path) q = false). { intros q O. destruct (str_eqb_spec (pjoin base path) q) as [<-|]; [|reflexivity]. exfalso. eapply P; cbn; eauto. }
    split; [|intros q O; cbn [o_names]; rewrite nget_ndel, (Q q O); split; [reflexivity|auto]]. destruct K as [I R F H D]. constructor; cbn [o_names o_inodes o_fds]; auto.
    + intros q1 q2 k. rewrite !nget_ndel. destruct (str_eqb _ q1); [discriminate|]. destruct (str_eqb _ q2); [discriminate|]. apply I.
    + intros q k. rewrite nget_ndel. destruct (str_eqb _ q); [discriminate|]. apply R.
    + intros f q J O. rewrite nget_ndel, (Q q O). eauto.
  - (* truncate *) unfold doTruncate in E. destruct path as [|c path].
    + destruct (getFile s sid handle) as [j|] eqn:Ej; [|injection E as <- <-; split; [exact K|apply same_refl]]. unfold os_truncate in E.
      destruct (fd_rw (fd_of s j) && fd_open (fd_of s j) && (0 <=? size)); injection E as <- <-; [|split; [exact K|apply same_refl]]. apply kept_ino; eauto.
    + destruct (nget (o_names s) (pjoin base (c :: path))) as [i|] eqn:Ei; [|injection E as <- <-; split; [exact K|apply same_refl]]. unfold os_truncate in E. cbn [andb] in E.
      destruct (0 <=? size); injection E as <- <-; [|split; [exact K|apply same_refl]]. apply kept_ino; [exact K|]. eapply N; [cbn; left; reflexivity|exact Ei].
  - (* mv *) unfold doRename in E. destruct (nget (o_names s) (pjoin base old)) as [i|] eqn:Ei; injection E as <- <-; [|split; [exact K|apply same_refl]].
    set (a := pjoin base old) in *. set (b := pjoin base new) in *.
    assert (Qa : forall q, out q -> str_eqb a q = false). { intros q O. destruct (str_eqb_spec a q) as [<-|]; [|reflexivity]. exfalso. apply (P old); cbn; auto. }
    assert (Qb : forall q, out q -> str_eqb b q = false). { intros q O. destruct (str_eqb_spec b q) as [<-|]; [|reflexivity]. exfalso. apply (P new); cbn; auto. }
    assert (X : forall x, nget ((b, i) :: ndel (ndel (o_names s) a) b) x = if str_eqb b x then Some i else if str_eqb a x then None else nget (o_names s) x).
    { intros x. cbn [nget]. destruct (str_eqb b x) eqn:Y; [reflexivity|]. rewrite !nget_ndel, Y. reflexivity. }
    split; [|intros q O; cbn [o_names]; rewrite X, (Qa q O), (Qb q O); split; [reflexivity|auto]]. destruct K as [I R F H D]. constructor; cbn [o_names o_inodes o_fds]; auto.
    + intros q1 q2 k. rewrite !X. destruct (str_eqb_spec b q1) as [<-|N1], (str_eqb_spec b q2) as [<-|N2]; auto; intros E1 E2.
      * injection E1 as <-. destruct (str_eqb_spec a q2); [discriminate|]. exfalso. apply n. eapply I; eauto.
      * injection E2 as <-. destruct (str_eqb_spec a q1); [discriminate|]. exfalso. apply n. eapply I; eauto.
      * destruct (str_eqb a q1); [discriminate|]. destruct (str_eqb a q2); [discriminate|]. eapply I; eauto.
    + intros q k. rewrite X. destruct (str_eqb b q); [intros Ek; injection Ek as <-; eapply R; eauto|]. destruct (str_eqb a q); [discriminate|]. apply R.
    + intros f q J O. rewrite X, (Qa q O), (Qb q O). eauto.
  - (* write *) unfold doWrite in E. destruct (getFile s sid handle) as [j|] eqn:Ej; [|injection E as <- <-; split; [exact K|apply same_refl]]. unfold os_write in E.
    destruct (fd_app (fd_of s j) || (off <? 0)); [injection E as <- <-; split; [exact K|apply same_refl]|]. destruct data as [|d data]; [injection E as <- <-; split; [exact K|apply same_refl]|].
    destruct (fd_rw (fd_of s j) && fd_open (fd_of s j) && (off + zlen (d :: data) <? 2 ^ 63)); injection E as <- <-; [|split; [exact K|apply same_refl]]. apply kept_ino; eauto.
  - (* open *) unfold doOpen in E. destruct (os_open s (pjoin base path) options) as [[s1 j]|] eqn:Eo; [|injection E as <- <-; split; [exact K|apply same_refl]].
    assert (X : kept s1 /\ same_out s s1 /\ (j < length (o_fds s1))%nat).
    { unfold os_open in Eo. destruct (nget (o_names s) (pjoin base path)) as [i|] eqn:Ei.
      - destruct (bit options 8 && negb (bit options 2)); [discriminate|]. assert (Nq : forall q, out q -> nget (o_names s) q <> Some i) by (eapply N; [cbn; left; reflexivity|exact Ei]).
        destruct (kept_ino s i [] K Nq) as (K0 & S0). remember {| fd_ino := i; fd_rw := bit options 32; fd_app := bit options 512; fd_open := true |} as f.
        assert (Y : forall s0, kept s0 -> o_names s0 = o_names s -> o_fds s0 = o_fds s -> o_sess s0 = o_sess s -> kept {| o_names := o_names s; o_inodes := o_inodes s0; o_fds := o_fds s ++ [f]; o_sess := o_sess s |}).
        { intros s0 [I R F H D] A1 A2 A3. rewrite A1, A2 in *. constructor; cbn [o_names o_inodes o_fds]; auto.
          - intros f' q J O. apply in_app_or in J. destruct J as [J|[<-|[]]]; [eauto|]. subst f. cbn [fd_ino]. eauto.
          - intros t h k G'. rewrite app_length. unfold handles in G', H. cbn [o_sess] in G'. rewrite <- A3 in G'. apply H in G'. lia.
          - intros f' J. apply in_app_or in J. destruct J as [J|[<-|[]]]; [eauto|]. subst f. cbn [fd_ino]. eauto. }
        injection Eo as <- <-. cbn [o_fds]. rewrite app_length. cbn [length]. destruct (bit options 2); (split; [|split; [|lia]]).
        + apply (Y (setIno s i []) K0); reflexivity.
        + exact S0.
        + apply (Y s K); reflexivity.
        + intros q O. split; [reflexivity|auto].
      - destruct (bit options 8 || bit options 2); [|discriminate]. injection Eo as <- <-. cbn [o_fds]. rewrite app_length. cbn [length]. split; [|split; [|lia]].
        + destruct K as [I R F H D]. constructor; cbn [o_names o_inodes o_fds nget].
          * intros q1 q2 i. destruct (str_eqb_spec (pjoin base path) q1) as [<-|N1], (str_eqb_spec (pjoin base path) q2) as [<-|N2]; intros E1 E2; auto; try (injection E1 as <-; apply R in E2; lia); try (injection E2 as <-; apply R in E1; lia). eauto.
          * intros q i. rewrite app_length. cbn [length]. destruct (str_eqb (pjoin base path) q); intros E1; [injection E1 as <-; lia|]. apply R in E1. lia.
          * intros f q J O. destruct (str_eqb_spec (pjoin base path) q) as [<-|]; [exfalso; eapply P; cbn; eauto|]. apply in_app_or in J. destruct J as [J|[<-|[]]]; [eauto|]. cbn [fd_ino]. intros E1. apply R in E1. lia.
          * intros t h k G'. rewrite app_length. apply H in G'. lia.
          * intros f J. rewrite app_length. cbn [length]. apply in_app_or in J. destruct J as [J|[<-|[]]]; [apply D in J; lia|cbn [fd_ino]; lia].
        + intros q O. cbn [o_names nget]. destruct (str_eqb_spec (pjoin base path) q) as [<-|]; [exfalso; eapply P; cbn; eauto|]. split; [reflexivity|]. intros i G'. unfold content. cbn [o_inodes].
          apply (k_range _ K) in G'. now rewrite app_nth1. }
    destruct X as (K1 & S1 & L1). assert (K2 : kept (setHandles s1 sid (handles s1 sid))) by (apply kept_set; [exact K1|intros h k; apply (k_hs _ K1)]).
    destruct (pick tries (handles s1 sid)) as [h|]; injection E as <- <-; [|split; [exact K2|exact S1]]. split; [|exact S1]. apply kept_set; [exact K2|]. intros x k. cbn [nget setHandles o_fds].
    destruct (str_eqb h x); [intros Ek; injection Ek as <-; exact L1|]. apply (k_hs _ K1).
  - (* read *) destruct (doRead s sid handle off len); [|discriminate]. injection E as <- <-. split; [exact K|apply same_refl].
Qed.
Definition all_paths (es : list event) (ok : list Z -> Prop) : Prop :=
  Forall (fun e => match e with Req _ _ m => Forall ok (paths_of m) | End _ => True end) es.
Lemma kept_run es : forall s s' rs, kept s -> all_paths es (fun p => ~ out (pjoin base p)) -> run base attr dirs sidb s es = Ok (s', rs) -> kept s' /\ same_out s s'.
Proof.
  induction es as [|[sid tries m|sid] es IH]; intros s s' rs K A E; cbn [run] in E.
  - injection E as <- <-. split; [exact K|apply same_refl].
  - inversion A as [|x y A1 A2]; subst. destruct (handle base attr dirs (sidb sid) s sid tries m) as [[s1 r]|] eqn:E1; [|discriminate]. cbn [rbind fst snd] in E.
    destruct (run base attr dirs sidb s1 es) as [[s2 rs2]|] eqn:E2; [|discriminate]. cbn [rbind fst snd] in E. injection E as <- <-.
    rewrite Forall_forall in A1. destruct (kept_step s sid tries m s1 r K A1 E1) as (K1 & S1). destruct (IH s1 s2 rs2 K1 A2 E2) as (K2 & S2). split; [exact K2|].
    intros q O. destruct (S1 q O) as (B1 & C1). destruct (S2 q O) as (B2 & C2). split; [congruence|]. intros i G. rewrite <- (C1 i G). apply C2. now rewrite B1.
  - inversion A as [|x y A1 A2]; subst. destruct (kept_end s sid K) as (K1 & S1). destruct (IH _ _ _ K1 A2 E) as (K2 & S2). split; [exact K2|].
    intros q O. destruct (S1 q O) as (B1 & C1). destruct (S2 q O) as (B2 & C2). split; [congruence|]. intros i G. rewrite <- (C1 i G). apply C2. now rewrite B1.
Qed.
End Reach.
Lemma fresh_kept out s : fresh s -> kept out s.
Proof.
  intros (F1 & F2 & F3 & F4). constructor; rewrite ?F1.
  - intros q1 q2 i E1 E2. apply nget_In in E1, E2. clear -F3 E1 E2. induction (o_names s) as [|[a b] l IH]; [destruct E1|]. cbn [map snd] in F3. inversion F3 as [|x y A B]; subst.
    destruct E1 as [E1|E1], E2 as [E2|E2]; try congruence; auto.
    + injection E1 as -> ->. exfalso. apply A. change i with (snd (q2, i)). apply in_map. exact E2.
    + injection E2 as -> ->. exfalso. apply A. change i with (snd (q1, i)). apply in_map. exact E1.
  - intros q i E. apply nget_In in E. rewrite Forall_forall in F4. apply (F4 _ E).
  - intros f q [].
  - intros sid h j. unfold handles. rewrite F2. discriminate.
  - intros f [].
Qed.
(* Requests whose paths stay below their start leave every file outside the base path as it is, in any history of any sessions;
   removing and renaming open files is included. *)
Theorem C51_untouched : forall base attr dirs sidb s es s' rs, base <> [] -> fresh s -> all_paths es stays_below ->
  run base attr dirs sidb s es = Ok (s', rs) ->
  forall q, ~ below base q -> nget (o_names s') q = nget (o_names s) q /\ forall i, nget (o_names s) q = Some i -> content s' i = content s i.
Proof.
  intros base attr dirs sidb s es s' rs N F A E. refine (proj2 (kept_run base attr dirs sidb (fun q => ~ below base q) es s s' rs (fresh_kept _ s F) _ E)).
  eapply Forall_impl; [|exact A]. intros [sid tries m|sid]; [|auto]. apply Forall_impl. intros p B O. apply O. apply C51_confined; auto.
Qed.
(* They see nothing of them either: two servers with the same files below the base path give the same responses. *)
Definition agree (base : list Z) (g1 g2 : spec) : Prop :=
  (forall q, below base q -> f_of g1 q = f_of g2 q) /\ (forall sid h, h_of g1 sid h = h_of g2 sid h) /\
  (forall sid h q rw app, h_of g1 sid h = Some (q, rw, app) -> below base q).
Lemma agree_file base g1 g2 q c : agree base g1 g2 -> agree base (put_file g1 q c) (put_file g2 q c).
Proof. intros (A & B & C). split; [|split; auto]. intros x Bx. cbn [put_file f_of]. destruct (str_eqb q x); auto. Qed.
Lemma agree_handle base g1 g2 sid h v : agree base g1 g2 -> (forall q rw app, v = Some (q, rw, app) -> below base q) -> agree base (put_handle g1 sid h v) (put_handle g2 sid h v).
Proof.
  intros (A & B & C) V. split; [auto|split].
  - intros t x. cbn [put_handle h_of]. destruct (_ && _); auto.
  - intros t x q rw app. cbn [put_handle h_of]. destruct (_ && _); [apply V|apply C].
Qed.
Lemma agree_free base g1 g2 sid tries : agree base g1 g2 -> first_free g1 sid tries = first_free g2 sid tries.
Proof. intros (A & B & C). induction tries as [|h t IH]; cbn [first_free]; [reflexivity|]. rewrite <- B. destruct (h_of g1 sid h); auto. Qed.
Lemma agree_step base sidb g1 g2 sid tries m : base <> [] -> agree base g1 g2 -> Forall stays_below (paths_of m) ->
  agree base (fst (spec_step base sidb g1 sid tries m)) (fst (spec_step base sidb g2 sid tries m)) /\
  snd (spec_step base sidb g1 sid tries m) = snd (spec_step base sidb g2 sid tries m).
Proof.
  intros N G P. pose proof G as (A & B & C). assert (Q : forall p, In p (paths_of m) -> below base (pjoin base p)).
  { intros p I. rewrite Forall_forall in P. apply C51_confined; auto. }
  destruct m; cbn [spec_step paths_of] in *; try (split; [exact G|reflexivity]).
  - (* sync *) rewrite <- B. split; [exact G|reflexivity].
  - (* close *) rewrite <- B. destruct (h_of g1 sid handle); [|split; [exact G|reflexivity]]. split; [|reflexivity]. apply agree_handle; [exact G|]. discriminate.
  - (* rm *) rewrite (A (pjoin base path)) by (apply Q; cbn; auto). destruct (f_of g2 _); (split; [|reflexivity]); [apply agree_file|]; exact G.
  - (* truncate *) destruct path as [|c path].
    + rewrite <- B. destruct (h_of g1 sid handle) as [[[q rw] app]|] eqn:E; [|split; [exact G|reflexivity]]. rewrite (A q) by (eapply C; eauto).
      destruct (rw && _); (split; [|reflexivity]); [apply agree_file|]; exact G.
    + rewrite (A (pjoin base (c :: path))) by (apply Q; cbn; auto). destruct (f_of g2 _); [|split; [exact G|reflexivity]]. destruct (0 <=? size); (split; [|reflexivity]); [apply agree_file|]; exact G.
  - (* mv *) rewrite (A (pjoin base old)) by (apply Q; cbn; auto). destruct (f_of g2 _); (split; [|reflexivity]); [apply agree_file, agree_file|]; exact G.
  - (* write *) rewrite <- B. destruct (h_of g1 sid handle) as [[[q rw] app]|] eqn:E; [|split; [exact G|reflexivity]]. destruct (app || _); [split; [exact G|reflexivity]|].
    destruct data; [split; [exact G|reflexivity]|]. rewrite (A q) by (eapply C; eauto). destruct (rw && _); (split; [|reflexivity]); [apply agree_file|]; exact G.
  - (* stat *) split; [exact G|]. destruct (bit options 1); [reflexivity|]. destruct path as [|c path].
    + rewrite <- B. destruct (h_of g1 sid handle) as [[[q rw] app]|] eqn:E; [|reflexivity]. rewrite (A q) by (eapply C; eauto). reflexivity.
    + rewrite (A (pjoin base (c :: path))) by (apply Q; cbn; auto). reflexivity.
  - (* open *) set (q := pjoin base path) in *. assert (Bq : below base q) by (apply Q; cbn; auto). rewrite (A q Bq).
    assert (X : forall c,
      let T g := match first_free (put_file g q (Some c)) sid tries with
        | None => (put_file g q (Some c), invalid)
        | Some h => (put_handle (put_file g q (Some c)) sid h (Some (q, bit options 32, bit options 512)),
                     (0, Some (MopenR h (if bit options 1024 && negb (bit options 1) then Some {| fc_page := 0; fc_type := [0; 0; 0; 0] |} else None)
                                        (if bit options 1024 then Some (size_of c) else None)))) end in
      agree base (fst (T g1)) (fst (T g2)) /\ snd (T g1) = snd (T g2)).
    { intros c T. pose proof (agree_file base g1 g2 q (Some c) G) as G1. unfold T. rewrite (agree_free base _ _ sid tries G1).
      destruct (first_free (put_file g2 q (Some c)) sid tries); (split; [|reflexivity]); cbn [fst]; [|exact G1]. apply agree_handle; [exact G1|]. intros ? ? ? E. injection E as <- _ _. exact Bq. }
    destruct (f_of g2 q) as [c|].
    + destruct (bit options 8 && negb (bit options 2)); [split; [exact G|reflexivity]|]. apply X.
    + destruct (bit options 8 || bit options 2); [|split; [exact G|reflexivity]]. apply X.
  - (* read *) rewrite <- B. destruct (h_of g1 sid handle) as [[[q rw] app]|] eqn:E; [|split; [exact G|reflexivity]]. split; [exact G|]. cbn [snd]. rewrite (A q) by (eapply C; eauto). reflexivity.
Qed.
Lemma agree_run base sidb es : forall g1 g2, base <> [] -> agree base g1 g2 -> all_paths es stays_below -> snd (spec_run base sidb g1 es) = snd (spec_run base sidb g2 es).
Proof.
  induction es as [|[sid tries m|sid] es IH]; intros g1 g2 N G P; [reflexivity| |]; inversion P as [|x y P1 P2]; subst; cbn [spec_run].
  - destruct (agree_step base sidb g1 g2 sid tries m N G P1) as (G' & E). destruct (spec_step base sidb g1 sid tries m) as [a r], (spec_step base sidb g2 sid tries m) as [b r']. cbn [fst snd] in *.
    specialize (IH a b N G' P2). destruct (spec_run base sidb a es), (spec_run base sidb b es). cbn [snd] in *. congruence.
  - apply IH; auto. destruct G as (A & B & C). split; [auto|split]; cbn [end_session h_of].
    + intros t x. destruct (sid =? t); auto.
    + intros t x q rw app. destruct (sid =? t); [discriminate|]. apply C.
Qed.
Theorem C51_unseen : forall base attr attr' dirs sidb s1 s2 es, base <> [] -> fresh s1 -> fresh s2 -> all_paths es stays_below ->
  (forall q, below base q -> option_map (content s1) (nget (o_names s1) q) = option_map (content s2) (nget (o_names s2) q)) ->
  all_covered base sidb (spec_of s1) es -> all_covered base sidb (spec_of s2) es ->
  exists s1' rs1 s2' rs2, run base attr dirs sidb s1 es = Ok (s1', rs1) /\ run base attr' dirs sidb s2 es = Ok (s2', rs2) /\ map erase rs1 = map erase rs2.
Proof.
  intros base attr attr' dirs sidb s1 s2 es N F1 F2 P E C1 C2. destruct (C56_server base dirs sidb attr s1 es F1 C1) as (s1' & rs1 & R1 & M1 & _).
  destruct (C56_server base dirs sidb attr' s2 es F2 C2) as (s2' & rs2 & R2 & M2 & _). exists s1', rs1, s2', rs2. repeat split; auto. rewrite M1, M2. apply agree_run; auto.
  split; [exact E|]. split; [reflexivity|discriminate].
Qed.
(* A file outside the base path stays as it is while files are created, replaced and removed below it; the paths climb, but not above their start. *)
Definition reach_srv (x : list Z) : srv := {| o_names := [([47; 115], 0%nat); ([47; 100; 47; 97], 1%nat)]; o_inodes := [x; [1; 2; 3]]; o_fds := []; o_sess := [] |}.
Definition reach_es : list event :=
  let h := [9; 9; 9; 9] in
  [Req 1 [h] (Mopen 0 32 [120; 47; 46; 46; 47; 97]); Req 1 [] (Mwrite h 0 0 [7]); Req 2 [] (Mmv [97] [115]); Req 1 [] (Mtruncate h 0 []); Req 2 [] (Mrm [47; 115]); End 1].
Lemma below_dec p : forallb (fun k => 0 <=? level (firstn k (split 47 p))) (seq 0 (S (length (split 47 p)))) = true -> stays_below p.
Proof.
  intros H a b E. rewrite forallb_forall in H. specialize (H (length a)). rewrite E, firstn_app, Nat.sub_diag, firstn_all, app_nil_r in H. apply Z.leb_le, H. apply in_seq. rewrite app_length. lia.
Qed.
Example C51_untouched_example : fresh (reach_srv [4; 5]) /\ all_paths reach_es stays_below /\ ~ below [47; 100] [47; 115] /\
  exists s', run [47; 100] (fun _ => (0, 0)) (fun _ _ => invalid) (fun _ => []) (reach_srv [4; 5]) reach_es = Ok (s', [(0, Some (MopenR [9; 9; 9; 9] None None)); done; done; done; done]) /\
    o_names s' = [([47; 115], 0%nat)] /\ content s' 0 = [4; 5].
Proof.
  split; [unfold fresh; cbn; repeat split; auto; repeat constructor; cbn; intuition congruence|]. split; [|split].
  - unfold reach_es, all_paths. repeat (apply Forall_cons; [cbn [paths_of]; first [exact I | repeat (apply Forall_cons; [apply below_dec; vm_compute; reflexivity|]); apply Forall_nil]|]). apply Forall_nil.
  - intros (y & E). discriminate E.
  - eexists. split; [vm_compute; reflexivity|split; reflexivity].
Qed.
(* Climbing above the start does reach it: the same file, removed. *)
Theorem C51_touched_refuted : exists es s' rs, fresh (reach_srv [4; 5]) /\ ~ below [47; 100] [47; 115] /\
  run [47; 100] (fun _ => (0, 0)) (fun _ _ => invalid) (fun _ => []) (reach_srv [4; 5]) es = Ok (s', rs) /\ nget (o_names s') [47; 115] = None.
Proof.
  exists [Req 1 [] (Mrm [46; 46; 47; 115])]. eexists. eexists. split; [unfold fresh; cbn; repeat split; auto; repeat constructor; cbn; intuition congruence|]. split; [intros (y & E); discriminate E|].
  split; [vm_compute; reflexivity|reflexivity].
Qed.
Print Assumptions C51_untouched.
Print Assumptions C51_unseen.
Print Assumptions C51_touched_refuted.
