(* C51: which files the requests of a client of the xrootd server reach. *)
From Coq Require Import ZArith List Lia Bool.
From Verif Require Import Bytes GoLib GoStrings XrdModel XrdCliModel XrdSrvModel.
Import ListNotations.
Local Open Scope Z_scope.

(* ---- places ---- *)
(* The directory or file a path leads to, as the names from the root, for a file system without symbolic links: one step per
   element, "" and "." stay, ".." goes up, and stays at the root. *)
Definition walk1 (cur : list (list Z)) (e : list Z) : list (list Z) :=
  if str_eqb e [] || str_eqb e [46] then cur else if str_eqb e dotdot then removelast cur else cur ++ [e].
Definition walk (cur : list (list Z)) (es : list (list Z)) : list (list Z) := fold_left walk1 es cur.
Definition place (cwd : list (list Z)) (s : list Z) : list (list Z) :=
  match s with 47 :: _ => walk [] (split 47 s) | _ => walk cwd (split 47 s) end.
Definition is_name (e : list Z) : Prop := ~ In 47 e /\ e <> [] /\ e <> [46] /\ e <> dotdot.

Lemma walk_app cur a b : walk cur (a ++ b) = walk (walk cur a) b.
Proof. unfold walk. apply fold_left_app. Qed.
Lemma walk1_name cur e : is_name e -> walk1 cur e = cur ++ [e].
Proof. intros (_ & A & B & C). unfold walk1. destruct (str_eqb_spec e []); [congruence|]. destruct (str_eqb_spec e [46]); [congruence|]. destruct (str_eqb_spec e dotdot); [congruence|reflexivity]. Qed.
Lemma walk_names cur es : Forall is_name es -> walk cur es = cur ++ es.
Proof.
  intros F. revert cur. induction F as [|e es H F IH]; intros cur; [now rewrite app_nil_r|]. change (walk cur (e :: es)) with (walk (walk1 cur e) es).
  rewrite (walk1_name cur e H), IH, <- app_assoc. reflexivity.
Qed.
Lemma split_app sep a b : split sep (a ++ sep :: b) = split sep a ++ split sep b.
Proof.
  induction a as [|c a IH]; cbn [app split]; [now rewrite Z.eqb_refl|]. destruct (c =? sep); [now rewrite IH|]. rewrite IH.
  pose proof (split_nonempty sep a). destruct (split sep a); [congruence|reflexivity].
Qed.
Lemma split_clean sep s : Forall (fun e => ~ In sep e) (split sep s).
Proof.
  induction s as [|c s IH]; cbn [split]; [constructor; [cbn; tauto|constructor]|]. destruct (Z.eqb_spec c sep) as [->|N]; [constructor; [cbn; tauto|auto]|].
  destruct (split sep s) as [|h t]; inversion IH; subst; constructor; auto; cbn; intuition.
Qed.

(* ---- what Clean does ---- *)
Definition elem_ok (rooted : bool) (e : list Z) : Prop := is_name e \/ (rooted = false /\ e = dotdot).
Lemma step_ok rooted st e : ~ In 47 e -> Forall (elem_ok rooted) st -> Forall (elem_ok rooted) (clean_step rooted st e).
Proof.
  intros N F. unfold clean_step. destruct (str_eqb_spec e []); [auto|]. destruct (str_eqb_spec e [46]); cbn [orb]; [auto|]. destruct (str_eqb_spec e dotdot) as [->|D].
  - destruct st as [|t st']; [destruct rooted; constructor; auto; right; auto|]. inversion F as [|x y H F']; subst. destruct (str_eqb_spec t dotdot) as [->|]; auto.
  - constructor; auto. left. repeat split; auto.
Qed.
Lemma step_walk rooted cwd st e : ~ In 47 e -> (rooted = true -> cwd = []) -> Forall (elem_ok rooted) st ->
  walk cwd (rev (clean_step rooted st e)) = walk1 (walk cwd (rev st)) e.
Proof.
  intros N R F. unfold clean_step. destruct (str_eqb_spec e []) as [->|E1]; [reflexivity|]. destruct (str_eqb_spec e [46]) as [->|E2]; [reflexivity|]. cbn [orb].
  destruct (str_eqb_spec e dotdot) as [->|D].
  - destruct st as [|t st']; [destruct rooted; [rewrite R by auto|]; reflexivity|]. inversion F as [|x y H F']; subst. destruct (str_eqb_spec t dotdot) as [->|Nt].
    + change (rev (dotdot :: dotdot :: st')) with (rev (dotdot :: st') ++ [dotdot]). rewrite walk_app. reflexivity.
    + destruct H as [H|[_ H]]; [|congruence]. cbn [rev]. rewrite walk_app. change (walk (walk cwd (rev st')) [t]) with (walk1 (walk cwd (rev st')) t).
      rewrite (walk1_name _ t H). unfold walk1. change (str_eqb dotdot [] || str_eqb dotdot [46]) with false. rewrite str_eqb_refl. now rewrite removelast_last.
  - cbn [rev]. rewrite walk_app. reflexivity.
Qed.
Lemma steps rooted cwd es : forall st, Forall (fun e => ~ In 47 e) es -> (rooted = true -> cwd = []) -> Forall (elem_ok rooted) st ->
  Forall (elem_ok rooted) (fold_left (clean_step rooted) es st) /\
  walk cwd (rev (fold_left (clean_step rooted) es st)) = walk (walk cwd (rev st)) es.
Proof.
  induction es as [|e es IH]; intros st N R F; [auto|]. inversion N as [|x y He N']; subst. cbn [fold_left].
  destruct (IH (clean_step rooted st e) N' R (step_ok rooted st e He F)) as (A & B). split; auto.
  rewrite B, (step_walk rooted cwd st e) by auto. reflexivity.
Qed.
Lemma elem_sep rooted l : Forall (elem_ok rooted) l -> Forall (fun e => ~ In 47 e) l.
Proof. apply Forall_impl. intros e [(H & _)|(_ & ->)]; auto. unfold dotdot. cbn. intuition discriminate. Qed.
Lemma split_of_join l : Forall (fun e => ~ In 47 e) l -> l <> [] -> split 47 (join 47 l) = l.
Proof. intros. now apply split_join. Qed.
Lemma head_of_join l : Forall (fun e => ~ In 47 e) l -> Forall (fun e => e <> []) l -> forall s, join 47 l <> 47 :: s.
Proof.
  intros F N s. destruct l as [|e l]; [discriminate|]. inversion F as [|x y Fe F']; subst. inversion N as [|x y Ne N']; subst.
  destruct e as [|c e]; [congruence|]. intros E. apply Fe. destruct l; cbn in E; injection E as -> _; left; reflexivity.
Qed.
Theorem C51_clean : forall cwd p, p <> [] -> place cwd (clean p) = place cwd p.
Proof.
  intros cwd p N. destruct p as [|c p]; [congruence|]. unfold clean. set (s := c :: p) in *. cbv zeta.
  assert (F0 : Forall (fun e => ~ In 47 e) (split 47 s)) by apply split_clean.
  destruct (Z.eqb_spec c 47) as [->|Nc].
  - destruct (steps true [] (split 47 s) [] F0 (fun _ => eq_refl) (Forall_nil _)) as (A & B). change (walk [] (rev [])) with (@nil (list Z)) in B.
    set (l := rev (fold_left (clean_step true) (split 47 s) [])) in *. assert (Fl : Forall (elem_ok true) l) by (apply Forall_rev; exact A).
    assert (P : place cwd (47 :: join 47 l) = walk [] l).
    { unfold place. cbn [split]. change (47 =? 47) with true. cbn [walk]. change (walk [] ([] :: split 47 (join 47 l))) with (walk [] (split 47 (join 47 l))).
      destruct l as [|e l]; [reflexivity|]. rewrite split_of_join by (try discriminate; eapply elem_sep; exact Fl). reflexivity. }
    rewrite P, B. reflexivity.
  - destruct (steps false cwd (split 47 s) [] F0 ltac:(discriminate) (Forall_nil _)) as (A & B). change (walk cwd (rev [])) with cwd in B.
    set (l := rev (fold_left (clean_step false) (split 47 s) [])) in *. assert (Fl : Forall (elem_ok false) l) by (apply Forall_rev; exact A).
    assert (Pr : place cwd s = walk cwd (split 47 s)).
    { unfold place, s. destruct c as [|q|q]; auto. repeat (destruct q; auto). congruence. }
    rewrite Pr, <- B.
    assert (Ne : Forall (fun e => e <> []) l) by (eapply Forall_impl; [|exact Fl]; intros e [(_ & H & _)|(_ & ->)]; [auto|discriminate]).
    pose proof (head_of_join l (elem_sep false l Fl) Ne) as H.
    destruct (join 47 l) as [|d q] eqn:J.
    + destruct l as [|e l]; [reflexivity|]. inversion Ne as [|x y Ne1 _]; subst. destruct e; [congruence|]. destruct l; discriminate.
    + assert (Pq : place cwd (d :: q) = walk cwd (split 47 (d :: q))).
      { unfold place. destruct d as [|r|r]; auto. do 6 (destruct r; auto). exfalso. apply (H q). reflexivity. }
      rewrite Pq, <- J, split_of_join; [reflexivity|eapply elem_sep; exact Fl|]. intros ->. discriminate.
Qed.
(* Every request of the server goes to the place its path leads to from the base path, in lexical order. *)
Theorem C51_place : forall cwd base p, base <> [] -> place cwd (pjoin base p) = walk (place cwd base) (split 47 p).
Proof.
  intros cwd base p N. destruct base as [|c base]; [congruence|].
  assert (E : pjoin (c :: base) p = clean ((c :: base) ++ 47 :: p)) by (destruct p; reflexivity).
  rewrite E, C51_clean by (destruct base; discriminate). set (b := c :: base).
  assert (P : forall w, (forall x, place cwd (c :: x) = walk w (split 47 (c :: x))) -> place cwd (b ++ 47 :: p) = walk (place cwd b) (split 47 p)).
  { intros w H. unfold b. rewrite <- app_comm_cons. rewrite !H, app_comm_cons, split_app, walk_app. reflexivity. }
  destruct (Z.eqb_spec c 47) as [->|Nc]; [apply (P []); reflexivity|]. apply (P cwd). intros x. unfold place. destruct c as [|r|r]; auto. do 6 (destruct r; auto). congruence.
Qed.
(* an empty base path: the request alone decides *)
Theorem C51_no_base : forall cwd p, p <> [] -> place cwd (pjoin [] p) = place cwd p.
Proof. intros cwd p N. destruct p; [congruence|]. apply C51_clean. discriminate. Qed.

(* ---- confinement ---- *)
(* how many levels below its start a path is, counted without looking at the file system *)
Definition level (es : list (list Z)) : Z :=
  fold_right (fun e n => (if str_eqb e [] || str_eqb e [46] then 0 else if str_eqb e dotdot then -1 else 1) + n) 0 es.
Definition stays_below (p : list Z) : Prop := forall a b, split 47 p = a ++ b -> 0 <= level a.
Lemma walk_below es : forall cur x, (forall a b, es = a ++ b -> 0 <= zlen x + level a) -> exists y, walk (cur ++ x) es = cur ++ y.
Proof.
  induction es as [|e es IH]; intros cur x H; [exists x; reflexivity|]. change (walk (cur ++ x) (e :: es)) with (walk (walk1 (cur ++ x) e) es).
  assert (H1 : 0 <= zlen x + level [e]) by (apply (H [e] es); reflexivity). unfold level in H1. cbn [fold_right] in H1. unfold walk1.
  assert (K : forall x', zlen x' = zlen x + level [e] -> exists y, walk (cur ++ x') es = cur ++ y).
  { intros x' L. apply IH. intros a b E. specialize (H (e :: a) b). rewrite E in H. specialize (H eq_refl). unfold level in *. cbn [fold_right] in *. lia. }
  unfold level in K. cbn [fold_right] in K.
  destruct (str_eqb e [] || str_eqb e [46]); [apply K; lia|]. destruct (str_eqb e dotdot).
  - destruct x as [|a x _] using rev_ind; [change (zlen (@nil (list Z))) with 0 in H1; lia|]. rewrite app_assoc, removelast_last. apply K. unfold zlen. rewrite app_length. cbn [length]. lia.
  - rewrite <- app_assoc. apply K. unfold zlen. rewrite app_length. cbn [length]. lia.
Qed.
Theorem C51_confined : forall cwd base p, base <> [] -> stays_below p -> exists y, place cwd (pjoin base p) = place cwd base ++ y.
Proof.
  intros cwd base p N H. rewrite C51_place by auto. destruct (walk_below (split 47 p) (place cwd base) []) as (y & E).
  - intros a b S. specialize (H a b S). change (zlen (@nil (list Z))) with 0. lia.
  - rewrite app_nil_r in E. eauto.
Qed.
(* in particular paths without ".." *)
Theorem C51_no_dotdot : forall p, ~ In dotdot (split 47 p) -> stays_below p.
Proof.
  intros p N a b E. assert (Na : ~ In dotdot a) by (intros H; apply N; rewrite E; apply in_or_app; auto). clear -Na.
  induction a as [|e a IH]; [cbn; lia|]. unfold level in *. cbn [fold_right]. specialize (IH ltac:(cbn in Na; tauto)).
  destruct (str_eqb e [] || str_eqb e [46]); [lia|]. destruct (str_eqb_spec e dotdot) as [->|]; [cbn in Na; tauto|lia].
Qed.
Example C51_confined_example : (* base "/srv/data", request "a/../b/./c" *)
  let base := [47; 115; 114; 118; 47; 100; 97; 116; 97] in let p := [97; 47; 46; 46; 47; 98; 47; 46; 47; 99] in
  stays_below p /\ place [] base = [[115; 114; 118]; [100; 97; 116; 97]] /\ place [] (pjoin base p) = place [] base ++ [[98]; [99]].
Proof.
  cbv zeta. split; [|split; reflexivity].
  intros a b E. cbn [split Z.eqb Pos.eqb] in E. destruct a as [|e1 [|e2 [|e3 [|e4 [|e5 [|e6 a]]]]]]; try (cbn in E; injection E; intros; subst; vm_compute; discriminate).
  all: first [vm_compute; discriminate | idtac].
  all: exfalso; apply (f_equal (@length _)) in E; cbn [length app] in E; lia.
Qed.

(* Full statement: for every request.  A request with ".." reaches any place of the file system. *)
Lemma walk_up n : forall cur, (length cur <= n)%nat -> walk cur (repeat dotdot n) = [].
Proof.
  induction n as [|n IH]; intros cur L; [destruct cur; [reflexivity|cbn in L; lia]|]. cbn [repeat]. change (walk cur (dotdot :: repeat dotdot n)) with (walk (removelast cur) (repeat dotdot n)).
  apply IH. destruct cur as [|a x _] using rev_ind; [cbn; lia|]. rewrite removelast_last, app_length in *. cbn [length] in L. lia.
Qed.
Definition escape (n : nat) (target : list (list Z)) : list Z := join 47 (repeat dotdot n ++ target).
Lemma escape_split n target : Forall is_name target -> (0 < n)%nat -> split 47 (escape n target) = repeat dotdot n ++ target.
Proof.
  intros F P. unfold escape. apply split_of_join.
  - apply Forall_app. split; [|eapply Forall_impl; [|exact F]; intros e (H & _); exact H]. apply Forall_forall. intros e I. apply repeat_spec in I. subst e. cbn. intuition discriminate.
  - destruct n; [lia|discriminate].
Qed.
Theorem C51_escape_refuted : forall cwd base target, base <> [] -> Forall is_name target -> exists p, place cwd (pjoin base p) = target.
Proof.
  intros cwd base target N F. exists (escape (S (length (place cwd base))) target). rewrite C51_place, escape_split, walk_app, walk_up, walk_names by (auto; lia). reflexivity.
Qed.
(* the name the server looks up for it, with an absolute base path *)
Lemma rooted_names l : Forall (elem_ok true) l -> Forall is_name l.
Proof. apply Forall_impl. intros e [H|(H & _)]; [exact H|discriminate]. Qed.
Lemma pjoin_abs base p : pjoin (47 :: base) p = 47 :: join 47 (walk (place [] (47 :: base)) (split 47 p)).
Proof.
  assert (E : pjoin (47 :: base) p = clean ((47 :: base) ++ 47 :: p)) by (destruct p; reflexivity). rewrite E. set (s := (47 :: base) ++ 47 :: p).
  assert (C : clean s = 47 :: join 47 (rev (fold_left (clean_step true) (split 47 s) []))) by reflexivity. rewrite C. f_equal. f_equal.
  destruct (steps true [] (split 47 s) [] (split_clean 47 s) (fun _ => eq_refl) (Forall_nil _)) as (A & B).
  rewrite (walk_names [] (rev (fold_left (clean_step true) (split 47 s) []))) in B by (apply rooted_names, Forall_rev, A). cbn [app rev] in B. rewrite B.
  unfold s. rewrite split_app. cbn [rev]. rewrite walk_app. reflexivity.
Qed.
(* Whatever file there is on the machine of the server, a client gets its content with one open and one read. *)
Theorem C51_steal_refuted : forall base attr s sid tries target i h, Forall is_name target ->
  nget (o_names s) (47 :: join 47 target) = Some i -> pick tries (handles s sid) = Some h ->
  exists p s', doOpen (47 :: base) attr s sid tries 16 p = (s', (0, Some (MopenR h None None))) /\
    forall n, 0 <= n -> doRead s' sid h 0 n = Ok (0, Some (MreadR (firstn (Z.to_nat n) (content s i)))).
Proof.
  intros base attr s sid tries target i h F G P. exists (escape (S (length (place [] (47 :: base)))) target). eexists.
  assert (Q : pjoin (47 :: base) (escape (S (length (place [] (47 :: base)))) target) = 47 :: join 47 target).
  { rewrite pjoin_abs, escape_split, walk_app, walk_up, walk_names by (auto; lia). reflexivity. }
  unfold doOpen. rewrite Q. unfold os_open. rewrite G. change (bit 16 8) with false. change (bit 16 2) with false. change (bit 16 1024) with false. change (bit 16 1) with false.
  cbn [andb negb orb]. unfold handles at 1. cbn [o_sess]. fold (handles s sid). rewrite P. split; [reflexivity|].
  intros n Hn. unfold doRead, getFile, handles, setHandles. cbn [o_sess sget o_fds o_inodes o_names]. rewrite Z.eqb_refl. cbn [nget]. rewrite str_eqb_refl.
  unfold fd_of. cbn [o_fds]. rewrite nth_middle. cbn [fd_ino fd_open]. unfold content. cbn [o_inodes]. unfold srv_read.
  replace (n <? 0) with false by lia. change (0 <? 0) with false. cbn [rbind orb]. reflexivity.
Qed.
Example C51_steal_example : (* base "/srv/data", file "/etc/pw" *)
  let base := [115; 114; 118; 47; 100; 97; 116; 97] in let target := [[101; 116; 99]; [112; 119]] in
  let s := {| o_names := [([47; 101; 116; 99; 47; 112; 119], 0%nat)]; o_inodes := [[1; 2; 3]]; o_fds := []; o_sess := [] |} in
  Forall is_name target /\ nget (o_names s) (47 :: join 47 target) = Some 0%nat /\ pick [[9; 9; 9; 9]] (handles s 5) = Some [9; 9; 9; 9] /\
  pjoin (47 :: base) (escape 3 target) = [47; 101; 116; 99; 47; 112; 119].
Proof. cbv zeta. split; [repeat constructor; cbn; intuition discriminate|]. vm_compute. auto. Qed.

Print Assumptions C51_clean.
Print Assumptions C51_place.
Print Assumptions C51_no_base.
Print Assumptions C51_confined.
Print Assumptions C51_no_dotdot.
Print Assumptions C51_escape_refuted.
Print Assumptions C51_steal_refuted.
