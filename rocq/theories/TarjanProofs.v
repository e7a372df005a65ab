(* Proof about TarjanModel. *)
From Coq Require Import ZArith List Lia Bool Sorted.
From Verif Require Import GoLib TarjanModel.
Import ListNotations.

Definition edge (g : graph) (x y : Z) : Prop := In y (edges_of g x).
(* y can be reached from x in any number of steps *)
Inductive reach (g : graph) : Z -> Z -> Prop :=
| reach_refl x : reach g x x
| reach_step x y z : edge g x y -> reach g y z -> reach g x z.
Lemma reach_trans g x y z : reach g x y -> reach g y z -> reach g x z.
Proof. induction 1; intros H'; [exact H'|]. eapply reach_step; eauto. Qed.
Lemma reach_edge g x y : edge g x y -> reach g x y.
Proof. intros H. eapply reach_step; [exact H|constructor]. Qed.
(* the strongly connected component of each of its elements *)
Definition scc (g : graph) (C : list Z) : Prop := C <> [] /\ forall x, In x C -> forall y, In y C <-> reach g x y /\ reach g y x.

Section proof.
Context (g : graph).
Notation edge := (edge g). Notation reach := (reach g).
Definition ix (s : st) (v : Z) (i : nat) : Prop := index_of (t_index s) v = Some i.
Definition good_out (out : list (list Z)) : Prop :=
  NoDup (concat out) /\ forall l1 C l2, out = l1 ++ C :: l2 -> scc g C /\ forall x y, In x C -> edge x y -> In y C \/ In y (concat l1).
Record inv (gray : list Z) (s : st) : Prop := {
  v_lt : forall v i, ix s v i -> (i < length (t_nodes s))%nat;
  v_inj : forall v w i, ix s v i -> ix s w i -> v = w;
  v_flag : forall v i, ix s v i -> (nth_error (t_nodes s) i = Some true <-> In v (t_stack s));
  v_stk : forall v, In v (t_stack s) -> exists i, ix s v i;
  v_sorted : StronglySorted (fun x y => forall i j, ix s x i -> ix s y j -> (j < i)%nat) (t_stack s);
  v_gray : incl gray (t_stack s);
  v_all : forall v i, ix s v i -> In v (t_stack s) \/ In v (concat (t_out s));
  v_outix : forall v, In v (concat (t_out s)) -> exists i, ix s v i;
  v_disj : forall v, In v (concat (t_out s)) -> ~ In v (t_stack s);
  v_black : forall x y, In x (t_stack s) -> ~ In x gray -> edge x y -> exists i, ix s y i;
  v_down : forall x y i j, In x gray -> In y (t_stack s) -> ix s x i -> ix s y j -> (i <= j)%nat -> reach x y;
  v_up : forall y j, In y (t_stack s) -> ix s y j -> exists x i, In x gray /\ ix s x i /\ (i <= j)%nat /\ reach y x;
  v_good : good_out (t_out s);
  v_vert : forall v i, ix s v i -> In v (vertices g) }.

Lemma ix_fun s v i j : ix s v i -> ix s v j -> i = j.
Proof. unfold ix. congruence. Qed.
Lemma out_closed out : good_out out -> forall x y, In x (concat out) -> reach x y -> In y (concat out).
Proof.
  intros [_ G] x y I R. induction R as [x|x y z E R IH]; [exact I|]. apply IH. apply in_concat in I. destruct I as (C & IC & I).
  apply in_split in IC. destruct IC as (l1 & l2 & ->). destruct (G l1 C l2 eq_refl) as [_ H]. rewrite concat_app. cbn [concat]. apply in_or_app.
  destruct (H x y I E) as [A|A]; [right; apply in_or_app; left; exact A|left; exact A].
Qed.

Record ext (s s' : st) : Prop := {
  e_mono : forall u i, ix s u i -> ix s' u i;
  e_new : forall u i, ix s' u i -> ix s u i \/ (length (t_nodes s) <= i)%nat;
  e_len : (length (t_nodes s) <= length (t_nodes s'))%nat }.
Lemma ext_refl s : ext s s.
Proof. constructor; auto. Qed.
Lemma ext_trans a b c : ext a b -> ext b c -> ext a c.
Proof.
  intros [A1 A2 A3] [B1 B2 B3]. constructor; [auto| |lia]. intros u i H. destruct (B2 u i H) as [H'|H']; [auto|]. right. lia.
Qed.

(* after strongConnect *)
Record post (gray : list Z) (v : Z) (s : st) (low : nat) (s' : st) : Prop := {
  p_inv : inv gray s';
  p_ext : ext s s';
  p_v : ix s' v (length (t_nodes s));
  p_stk : exists new, t_stack s' = new ++ t_stack s /\ (forall x, In x new -> exists i, ix s' x i /\ (length (t_nodes s) <= i)%nat) /\
          forall x y j, In x new -> edge x y -> In y (t_stack s) -> ix s y j -> (low <= j)%nat;
  p_low : (low = length (t_nodes s) /\ t_stack s' = t_stack s) \/ exists y, In y (t_stack s) /\ ix s y low /\ reach v y }.
(* inside the loop over the edges of v; s is the state before v *)
Record loop (gray : list Z) (v : Z) (s : st) (done : list Z) (low : nat) (s' : st) : Prop := {
  l_inv : inv (v :: gray) s';
  l_ext : ext s s';
  l_v : ix s' v (length (t_nodes s));
  l_done : forall w, In w done -> exists i, ix s' w i;
  l_stk : exists new, t_stack s' = new ++ v :: t_stack s /\ (forall x, In x new -> exists i, ix s' x i /\ (length (t_nodes s) < i)%nat) /\
          forall x y j, In x new -> edge x y -> In y (t_stack s) -> ix s y j -> (low <= j)%nat;
  l_edges : forall y j, In y done -> In y (t_stack s) -> ix s y j -> (low <= j)%nat;
  l_low : low = length (t_nodes s) \/ exists y, In y (t_stack s) /\ ix s y low /\ reach v y }.

Lemma unset_length l i : length (unset l i) = length l.
Proof. revert i. induction l as [|b l IH]; intros [|i]; cbn; auto. Qed.
Lemma unset_nth l i j : (i < length l)%nat -> nth_error (unset l i) j = if Nat.eqb i j then Some false else nth_error l j.
Proof. revert i j. induction l as [|b l IH]; intros i j H; [cbn in H; lia|]. destruct i as [|i], j as [|j]; cbn; try reflexivity. apply IH. cbn in H. lia. Qed.
Lemma pop_ok index idx v old : index_of idx v = Some index -> forall new nodes acc,
  (index < length nodes)%nat -> (forall x, In x new -> exists i, index_of idx x = Some i /\ (i < length nodes)%nat /\ i <> index) ->
  exists nodes', pop index idx (new ++ v :: old) nodes acc = Ok (acc ++ new ++ [v], old, nodes') /\ length nodes' = length nodes /\
  (forall x i, In x (new ++ [v]) -> index_of idx x = Some i -> nth_error nodes' i = Some false) /\
  (forall i, (forall x, In x (new ++ [v]) -> index_of idx x <> Some i) -> nth_error nodes' i = nth_error nodes i).
Proof.
  intros V. induction new as [|w new IH]; intros nodes acc L H.
  - cbn [app pop]. rewrite V. replace (length nodes <=? index)%nat with false by (symmetry; apply Nat.leb_gt; exact L). rewrite Nat.eqb_refl.
    eexists. split; [reflexivity|]. split; [apply unset_length|]. split.
    + intros x i [<-|[]] E. rewrite V in E. injection E as <-. rewrite unset_nth by exact L. rewrite Nat.eqb_refl. reflexivity.
    + intros i N. rewrite unset_nth by exact L. destruct (Nat.eqb_spec index i) as [<-|]; [|reflexivity]. exfalso. apply (N v); [left; reflexivity|exact V].
  - destruct (H w (or_introl eq_refl)) as (i & W & LI & NE). cbn [app pop]. rewrite W.
    replace (length nodes <=? i)%nat with false by (symmetry; apply Nat.leb_gt; exact LI). destruct (Nat.eqb_spec i index) as [|_]; [contradiction|].
    destruct (IH (unset nodes i) (acc ++ [w])) as (nodes' & A & B & C & D).
    + rewrite unset_length. exact L.
    + intros x I. destruct (H x (or_intror I)) as (k & K). exists k. rewrite unset_length. exact K.
    + exists nodes'. split; [rewrite A, <- app_assoc; reflexivity|]. split; [rewrite B; apply unset_length|]. split.
      * intros x k [<-|I] E; [|exact (C x k I E)]. rewrite W in E. injection E as <-.
        destruct (in_dec Z.eq_dec w (new ++ [v])) as [J|J]; [exact (C w i J W)|]. 
        destruct (existsb (fun x => match index_of idx x with Some k => Nat.eqb k i | None => false end) (new ++ [v])) eqn:X.
        -- apply existsb_exists in X. destruct X as (x & I & E). destruct (index_of idx x) as [k|] eqn:K; [|discriminate]. apply Nat.eqb_eq in E. subst k. exact (C x i I K).
        -- rewrite D; [rewrite unset_nth by exact LI; rewrite Nat.eqb_refl; reflexivity|]. intros x I E.
           assert (existsb (fun x => match index_of idx x with Some k => Nat.eqb k i | None => false end) (new ++ [v]) = true); [|congruence].
           apply existsb_exists. exists x. split; [exact I|]. rewrite E. apply Nat.eqb_refl.
      * intros k N. rewrite D; [|intros x I; apply N; right; exact I]. rewrite unset_nth by exact LI. destruct (Nat.eqb_spec i k) as [<-|]; [|reflexivity].
        exfalso. apply (N w); [left; reflexivity|exact W].
Qed.

Lemma sorted_weaken {A} (R R' : A -> A -> Prop) l : (forall x y, In x l -> In y l -> R x y -> R' x y) -> StronglySorted R l -> StronglySorted R' l.
Proof.
  intros H S. induction S as [|x l S IH F]; constructor; [apply IH; intros a b I J; apply H; right; assumption|].
  rewrite Forall_forall in *. intros y Y. apply H; [left; reflexivity|right; exact Y|apply F, Y].
Qed.
Lemma inv_start gray s v : inv gray s -> In v (vertices g) -> index_of (t_index s) v = None -> (forall x, In x gray -> reach x v) ->
  loop gray v s [] (length (t_nodes s)) {| t_index := (v, length (t_nodes s)) :: t_index s; t_stack := v :: t_stack s; t_nodes := t_nodes s ++ [true]; t_out := t_out s |}.
Proof.
  intros I VV N R. set (s1 := {| t_index := _ |}).
  assert (IX : forall u i, ix s1 u i <-> (u = v /\ i = length (t_nodes s)) \/ ix s u i).
  { intros u i. unfold ix, s1. cbn [t_index index_of]. destruct (Z.eqb_spec v u) as [->|NE]; [|split; [auto|intros [[E _]|H]; [congruence|exact H]]].
    split; [intros E; injection E as <-; auto|]. intros [[_ ->]|H]; [reflexivity|]. congruence. }
  assert (NV : forall i, ~ ix s v i) by (intros i H; unfold ix in H; congruence).
  constructor.
  - constructor.
    + intros u i H. apply IX in H. cbn [s1 t_nodes]. rewrite app_length. cbn [length]. destruct H as [[_ ->]|H]; [lia|]. apply (v_lt _ _ I) in H. lia.
    + intros u w i H1 H2. apply IX in H1, H2. destruct H1 as [[-> ->]|H1], H2 as [[-> E]|H2]; auto.
      * exfalso. apply (v_lt _ _ I) in H2. lia.
      * exfalso. apply (v_lt _ _ I) in H1. lia.
      * eapply (v_inj _ _ I); eassumption.
    + intros u i H. apply IX in H. cbn [s1 t_nodes t_stack In]. destruct H as [[-> ->]|H].
      * rewrite nth_error_app2, Nat.sub_diag by lia. cbn. tauto.
      * rewrite nth_error_app1 by (eapply v_lt; eassumption). rewrite (v_flag _ _ I u i H). split; [auto|]. intros [<-|A]; [exfalso; eapply NV; eassumption|exact A].
    + intros u [<-|H]; [exists (length (t_nodes s)); apply IX; auto|]. destruct (v_stk _ _ I u H) as [i J]. exists i. apply IX. auto.
    + cbn [s1 t_stack]. constructor.
      * eapply sorted_weaken; [|exact (v_sorted _ _ I)]. intros x y X Y F i j H1 H2. apply IX in H1, H2.
        destruct H1 as [[-> _]|H1]; [exfalso; destruct (v_stk _ _ I v X) as [k K]; eapply NV; eassumption|].
        destruct H2 as [[-> _]|H2]; [exfalso; destruct (v_stk _ _ I v Y) as [k K]; eapply NV; eassumption|]. eapply F; eassumption.
      * apply Forall_forall. intros y Y i j H1 H2. apply IX in H1, H2. destruct H1 as [[_ ->]|H1]; [|exfalso; eapply NV; eassumption].
        destruct H2 as [[-> _]|H2]; [exfalso; destruct (v_stk _ _ I v Y) as [k K]; eapply NV; eassumption|]. eapply v_lt; eassumption.
    + cbn [s1 t_stack]. intros x [<-|H]; [left; reflexivity|right; apply (v_gray _ _ I), H].
    + intros u i H. apply IX in H. cbn [s1 t_stack t_out]. destruct H as [[-> _]|H]; [left; left; reflexivity|]. destruct (v_all _ _ I u i H); [left; right; assumption|auto].
    + intros u H. destruct (v_outix _ _ I u H) as [i J]. exists i. apply IX. auto.
    + cbn [s1 t_stack t_out]. intros u H [<-|A]; [destruct (v_outix _ _ I v H) as [i J]; eapply NV; eassumption|]. eapply v_disj; eassumption.
    + cbn [s1 t_stack]. intros x y [<-|H] G E; [exfalso; apply G; left; reflexivity|]. destruct (v_black _ _ I x y H) as [i J]; [intros K; apply G; right; exact K|exact E|]. exists i. apply IX. auto.
    + cbn [s1 t_stack]. intros x y i j G Y H1 H2 LE. apply IX in H1, H2. destruct G as [<-|G].
      * destruct H1 as [[_ ->]|H1]; [|exfalso; eapply NV; eassumption]. destruct H2 as [[-> _]|H2]; [constructor|]. apply (v_lt _ _ I) in H2. lia.
      * destruct Y as [<-|Y]; [apply R, G|]. destruct H1 as [[-> _]|H1]; [exfalso; destruct (v_stk _ _ I v (v_gray _ _ I _ G)) as [k K]; eapply NV; eassumption|].
        destruct H2 as [[-> _]|H2]; [apply R, G|]. eapply (v_down _ _ I); eassumption.
    + cbn [s1 t_stack]. intros y j Y H. apply IX in H. destruct H as [[-> ->]|H].
      * exists v, (length (t_nodes s)). split; [left; reflexivity|]. split; [apply IX; auto|]. split; [lia|constructor].
      * destruct Y as [<-|Y]; [exfalso; eapply NV; eassumption|]. destruct (v_up _ _ I y j Y H) as (x & i & A & B & C & D). exists x, i. split; [right; exact A|]. split; [apply IX; auto|]. auto.
    + exact (v_good _ _ I).
    + intros u i H. apply IX in H. destruct H as [[-> _]|H]; [exact VV|eapply v_vert; eassumption].
  - constructor.
    + intros u i H. apply IX. auto.
    + intros u i H. apply IX in H. destruct H as [[_ ->]|H]; [right; lia|auto].
    + cbn [s1 t_nodes]. rewrite app_length. lia.
  - apply IX. auto.
  - intros w [].
  - exists []. split; [reflexivity|]. split; [intros x []|intros x y j []].
  - intros y j [].
  - left. reflexivity.
Qed.

(* one more edge *)
Lemma loop_seen gray v s done low s' w i b : inv gray s -> loop gray v s done low s' -> edge v w -> ix s' w i -> nth_error (t_nodes s') i = Some b ->
  loop gray v s (done ++ [w]) (if b then if (i <? low)%nat then i else low else low) s'.
Proof.
  intros I L E W B. set (low' := if b then _ else low). assert (LE : (low' <= low)%nat) by (unfold low'; destruct b; [|lia]; destruct (Nat.ltb_spec i low); lia).
  destruct L as [L1 L2 L3 L4 (new & S & N & X) L6 L7]. constructor.
  - exact L1.
  - exact L2.
  - exact L3.
  - intros u U. apply in_app_or in U. destruct U as [U|[<-|[]]]; [auto|]. exists i. exact W.
  - exists new. split; [exact S|]. split; [exact N|]. intros x y j A C D F. pose proof (X x y j A C D F). lia.
  - intros y j U Y H. apply in_app_or in U. destruct U as [U|[<-|[]]]; [pose proof (L6 y j U Y H); lia|].
    assert (i = j) by (eapply ix_fun; [exact W|apply (e_mono _ _ L2), H]). subst j.
    assert (In w (t_stack s')) by (rewrite S; apply in_or_app; right; right; exact Y).
    apply (v_flag _ _ L1 w i W) in H0. rewrite B in H0. injection H0 as ->. unfold low'. destruct (Nat.ltb_spec i low); lia.
  - unfold low'. destruct b; [|exact L7]. destruct (Nat.ltb_spec i low) as [LT|]; [|exact L7]. right. exists w.
    assert (IW : In w (t_stack s')) by (apply (v_flag _ _ L1 w i W); exact B).
    assert (LI : (i < length (t_nodes s))%nat).
    { destruct L7 as [->|(y & Y & H & _)]; [exact LT|]. apply (v_lt _ _ I) in H. lia. }
    rewrite S in IW. apply in_app_or in IW. destruct IW as [A|[<-|A]].
    + exfalso. destruct (N w A) as (k & K & KL). assert (k = i) by (eapply ix_fun; eassumption). lia.
    + exfalso. assert (i = length (t_nodes s)) by (eapply ix_fun; eassumption). lia.
    + split; [exact A|]. split; [|apply reach_edge, E]. destruct (e_new _ _ L2 w i W) as [H|H]; [exact H|lia].
Qed.
Lemma loop_rec gray v s done low s' w n s2 : inv gray s -> loop gray v s done low s' -> edge v w -> post (v :: gray) w s' n s2 ->
  loop gray v s (done ++ [w]) (if (n <? low)%nat then n else low) s2.
Proof.
  intros I L E P. set (low' := if (n <? low)%nat then n else low). assert (LE : (low' <= low /\ low' <= n)%nat) by (unfold low'; destruct (Nat.ltb_spec n low); lia).
  assert (LOW : (low <= length (t_nodes s))%nat).
  { destruct (l_low _ _ _ _ _ _ L) as [->|(y & Y & H & _)]; [lia|]. apply (v_lt _ _ I) in H. lia. }
  destruct L as [L1 L2 L3 L4 (new & S & N & X) L6 L7]. destruct P as [P1 P2 P3 (nw & PS & PN & PX) P5].
  assert (VL : (length (t_nodes s) < length (t_nodes s'))%nat) by (eapply v_lt; eassumption).
  constructor.
  - exact P1.
  - eapply ext_trans; eassumption.
  - apply (e_mono _ _ P2), L3.
  - intros u U. apply in_app_or in U. destruct U as [U|[<-|[]]]; [|exists (length (t_nodes s')); exact P3]. destruct (L4 u U) as [k K]. exists k. apply (e_mono _ _ P2), K.
  - exists (nw ++ new). split; [rewrite PS, S, <- app_assoc; reflexivity|]. split.
    + intros x A. apply in_app_or in A. destruct A as [A|A].
      * destruct (PN x A) as (k & K & KL). exists k. split; [exact K|lia].
      * destruct (N x A) as (k & K & KL). exists k. split; [apply (e_mono _ _ P2), K|exact KL].
    + intros x y j A C D F. apply in_app_or in A. destruct A as [A|A]; [|pose proof (X x y j A C D F); lia].
      assert (IY : In y (t_stack s')) by (rewrite S; apply in_or_app; right; right; exact D).
      pose proof (PX x y j A C IY (e_mono _ _ L2 _ _ F)). lia.
  - intros y j U Y H. apply in_app_or in U. destruct U as [U|[<-|[]]]; [pose proof (L6 y j U Y H); lia|].
    exfalso. assert (j = length (t_nodes s')) by (eapply ix_fun; [|exact P3]; apply (e_mono _ _ P2), (e_mono _ _ L2), H). apply (v_lt _ _ I) in H. lia.
  - unfold low'. destruct (Nat.ltb_spec n low) as [LT|]; [|exact L7]. right. destruct P5 as [[-> _]|(y & Y & H & R)]; [lia|]. exists y.
    assert (RV : reach v y) by (eapply reach_step; eassumption).
    rewrite S in Y. apply in_app_or in Y. destruct Y as [Y|[<-|Y]].
    + exfalso. destruct (N y Y) as (k & K & KL). assert (k = n) by (eapply ix_fun; eassumption). lia.
    + exfalso. assert (n = length (t_nodes s)) by (eapply ix_fun; eassumption). lia.
    + split; [exact Y|]. split; [|exact RV]. destruct (e_new _ _ L2 y n H) as [H'|H']; [exact H'|lia].
Qed.

(* v is done, something below it on the stack can be reached *)
Lemma finish_keep gray v s low s' : inv gray s -> loop gray v s (edges_of g v) low s' -> low <> length (t_nodes s) -> ~ In v gray -> post gray v s low s'.
Proof.
  intros I L NE NG. destruct L as [L1 L2 L3 L4 (new & S & N & X) L6 L7]. destruct L7 as [|(y0 & Y0 & H0 & R0)]; [contradiction|].
  assert (LI : (low < length (t_nodes s))%nat) by (eapply v_lt; eassumption).
  assert (GS : incl gray (t_stack s)) by exact (v_gray _ _ I).
  constructor.
  - destruct L1 as [A1 A2 A3 A4 A5 A6 A7 A8 A9 A10 A11 A12 A13 A14]. constructor; try assumption.
    + intros x H. apply A6. right. exact H.
    + intros x y IX NX EX. destruct (Z.eq_dec x v) as [->|NV]; [exact (L4 y EX)|]. apply (A10 x y IX); [|exact EX]. intros [E|E]; [congruence|contradiction].
    + intros x y i j G. apply A11. right. exact G.
    + intros y j IY HY.
      assert (FROMV : exists x i, In x gray /\ ix s' x i /\ (i <= low)%nat /\ reach v x).
      { destruct (v_up _ _ I y0 low Y0 H0) as (x & i & B1 & B2 & B3 & B4). exists x, i. split; [exact B1|]. split; [apply (e_mono _ _ L2), B2|]. split; [exact B3|]. eapply reach_trans; eassumption. }
      destruct (A12 y j IY HY) as (x & i & [<-|B1] & B2 & B3 & B4); [|exists x, i; auto].
      assert (i = length (t_nodes s)) by (eapply ix_fun; eassumption). subst i.
      destruct FROMV as (x & i & C1 & C2 & C3 & C4). exists x, i. split; [exact C1|]. split; [exact C2|]. split; [lia|]. eapply reach_trans; eassumption.
  - exact L2.
  - exact L3.
  - exists (new ++ [v]). split; [rewrite S, <- app_assoc; reflexivity|]. split.
    + intros x A. apply in_app_or in A. destruct A as [A|[<-|[]]]; [destruct (N x A) as (k & K & KL); exists k; split; [exact K|lia]|]. exists (length (t_nodes s)). auto.
    + intros x y j A C D F. apply in_app_or in A. destruct A as [A|[<-|[]]]; [exact (X x y j A C D F)|]. exact (L6 y j C D F).
  - right. exists y0. auto.
Qed.
Lemma sorted_app {A} (R : A -> A -> Prop) l1 l2 : StronglySorted R (l1 ++ l2) -> StronglySorted R l2 /\ forall x y, In x l1 -> In y l2 -> R x y.
Proof.
  induction l1 as [|a l1 IH]; intros H; [split; [exact H|intros x y []]|]. cbn [app] in H. inversion H as [|? ? S F]; subst. destruct (IH S) as [B C]. split; [exact B|].
  intros x y [<-|I] J; [|auto]. rewrite Forall_forall in F. apply F, in_or_app. auto.
Qed.
Lemma sorted_nodup s l : (forall v, In v l -> exists i, ix s v i) -> StronglySorted (fun x y => forall i j, ix s x i -> ix s y j -> (j < i)%nat) l -> NoDup l.
Proof.
  intros H S. induction S as [|x l S IH F]; constructor.
  - intros I. rewrite Forall_forall in F. destruct (H x (or_introl eq_refl)) as [i J]. pose proof (F x I i i J J). lia.
  - apply IH. intros v V. apply H. right. exact V.
Qed.
(* v is done and nothing below it can be reached: what is above it on the stack is a component *)
Lemma finish_pop gray v s s' : inv gray s -> loop gray v s (edges_of g v) (length (t_nodes s)) s' -> ~ In v gray ->
  exists C nodes, pop (length (t_nodes s)) (t_index s') (t_stack s') (t_nodes s') [] = Ok (C, t_stack s, nodes) /\
  post gray v s (length (t_nodes s)) {| t_index := t_index s'; t_stack := t_stack s; t_nodes := nodes; t_out := t_out s' ++ [C] |}.
Proof.
  intros I L NG. pose proof (loop_seen) as _. destruct L as [L1 L2 L3 L4 (new & S & N & X) L6 _].
  destruct (pop_ok (length (t_nodes s)) (t_index s') v (t_stack s) L3 new (t_nodes s') []) as (nodes & PO & PL & PF & PK).
  { eapply v_lt; eassumption. }
  { intros x A. destruct (N x A) as (k & K & KL). exists k. split; [exact K|]. split; [eapply v_lt; eassumption|lia]. }
  set (C := new ++ [v]) in *. cbn [app] in PO. exists C, nodes. rewrite S. split; [exact PO|].
  assert (SC : t_stack s' = C ++ t_stack s) by (rewrite S; unfold C; rewrite <- app_assoc; reflexivity).
  assert (CI : forall x, In x C -> exists k, ix s' x k /\ (length (t_nodes s) <= k)%nat).
  { intros x A. apply in_app_or in A. destruct A as [A|[<-|[]]]; [destruct (N x A) as (k & K & KL); exists k; split; [exact K|lia]|]. exists (length (t_nodes s)). auto. }
  assert (CS : forall x, In x C -> ~ In x (t_stack s)).
  { intros x A B. destruct (CI x A) as (k & K & KL). destruct (v_stk _ _ I x B) as [j J]. assert (k = j) by (eapply ix_fun; [exact K|apply (e_mono _ _ L2), J]). apply (v_lt _ _ I) in J. lia. }
  assert (OC := out_closed _ (v_good _ _ L1)).
  (* what leaves C is done *)
  assert (CE : forall x y, In x C -> edge x y -> In y C \/ In y (concat (t_out s'))).
  { intros x y A E. assert (VY : exists i, ix s' y i).
    { apply in_app_or in A. destruct A as [A|[<-|[]]]; [|exact (L4 y E)]. apply (v_black _ _ L1 x y); [rewrite S; apply in_or_app; left; exact A| |exact E].
      destruct (N x A) as (k & K & KL). intros [<-|G]; [assert (k = length (t_nodes s)) by (eapply ix_fun; eassumption); lia|].
      apply (v_gray _ _ I) in G. apply (CS x); [apply in_or_app; left; exact A|exact G]. }
    destruct VY as [i VY]. destruct (v_all _ _ L1 y i VY) as [B|B]; [|right; exact B]. rewrite SC in B. apply in_app_or in B. destruct B as [B|B]; [left; exact B|]. exfalso.
    destruct (v_stk _ _ I y B) as [j J]. pose proof (v_lt _ _ I _ _ J). apply in_app_or in A. destruct A as [A|[<-|[]]].
    - pose proof (X x y j A E B J). lia.
    - pose proof (L6 y j E B J). lia. }
  assert (CR : forall x y, reach x y -> In x C \/ In x (concat (t_out s')) -> In y C \/ In y (concat (t_out s'))).
  { intros x y R. induction R as [x|x y z E R IH]; [auto|]. intros [A|A]; apply IH; [exact (CE x y A E)|]. right. eapply OC; [exact A|]. apply reach_edge, E. }
  assert (FROM : forall y, In y C -> reach v y).
  { intros y A. destruct (CI y A) as (k & K & KL). eapply (v_down _ _ L1 v y); [left; reflexivity|rewrite SC; apply in_or_app; left; exact A|exact L3|exact K|exact KL]. }
  assert (TO : forall y, In y C -> reach y v).
  { intros y A. destruct (CI y A) as (k & K & KL). assert (IY : In y (t_stack s')) by (rewrite SC; apply in_or_app; left; exact A).
    destruct (v_up _ _ L1 y k IY K) as (x & i & [<-|G] & _ & _ & R); [exact R|]. exfalso. apply (v_gray _ _ I) in G.
    destruct (CR y x R (or_introl A)) as [B|B]; [eapply CS; eassumption|]. apply (v_disj _ _ L1 x B). rewrite SC. apply in_or_app. right. exact G. }
  assert (VC : In v C) by (unfold C; apply in_or_app; right; left; reflexivity).
  assert (NDC : NoDup C /\ forall x, In x C -> ~ In x (concat (t_out s'))).
  { pose proof (sorted_nodup s' (t_stack s') (v_stk _ _ L1) (v_sorted _ _ L1)) as ND. rewrite SC in ND. split.
    - clear - ND. revert ND. generalize (t_stack s). induction C as [|c C IH]; intros l ND; [constructor|]. cbn [app] in ND. inversion ND as [|? ? A B]; subst. constructor; [|eapply IH; exact B]. intros I. apply A, in_or_app. auto.
    - intros x A B. apply (v_disj _ _ L1 x B). rewrite SC. apply in_or_app. auto. }
  destruct NDC as [NDC CO].
  assert (SCC : scc g C).
  { split; [intros E; rewrite E in VC; destruct VC|]. intros x A y. split.
    - intros B. split; eapply reach_trans; [apply TO, A|apply FROM, B|apply TO, B|apply FROM, A].
    - intros [R1 R2]. destruct (CR x y R1 (or_introl A)) as [B|B]; [exact B|]. exfalso. apply (CO x A). eapply OC; eassumption. }
  set (s2 := {| t_index := t_index s' |}).
  assert (IXE : forall u i, ix s2 u i <-> ix s' u i) by (intros; reflexivity).
  assert (NIX : forall u i, ix s' u i -> In u (t_stack s) -> forall x, In x C -> index_of (t_index s') x <> Some i).
  { intros u i U B x A E. assert (u = x) by (eapply (v_inj _ _ L1); [exact U|exact E]). subst x. eapply CS; eassumption. }
  constructor.
  - constructor.
    + intros u i H. cbn [s2 t_nodes]. rewrite PL. eapply (v_lt _ _ L1), H.
    + exact (v_inj _ _ L1).
    + intros u i H. cbn [s2 t_nodes t_stack]. destruct (in_dec Z.eq_dec u C) as [A|A].
      * rewrite (PF u i A H). split; [discriminate|]. intros B. exfalso. eapply CS; eassumption.
      * rewrite (PK i); [|intros x B E; apply A; assert (u = x) by (eapply (v_inj _ _ L1); [exact H|exact E]); congruence].
        rewrite (v_flag _ _ L1 u i H), SC. rewrite in_app_iff. tauto.
    + intros u H. destruct (v_stk _ _ I u H) as [i J]. exists i. apply (e_mono _ _ L2), J.
    + cbn [s2 t_stack]. pose proof (v_sorted _ _ L1) as ST. rewrite SC in ST. apply sorted_app in ST. exact (proj1 ST).
    + exact (v_gray _ _ I).
    + intros u i H. cbn [s2 t_stack t_out]. rewrite concat_app. cbn [concat]. rewrite app_nil_r, in_app_iff. destruct (v_all _ _ L1 u i H) as [B|B]; [|tauto].
      rewrite SC in B. apply in_app_or in B. tauto.
    + intros u H. cbn [s2 t_out] in H. rewrite concat_app in H. cbn [concat] in H. rewrite app_nil_r in H. apply in_app_or in H. destruct H as [H|H]; [apply (v_outix _ _ L1), H|].
      destruct (CI u H) as (k & K & _). exists k. exact K.
    + intros u H. cbn [s2 t_out t_stack] in *. rewrite concat_app in H. cbn [concat] in H. rewrite app_nil_r in H. apply in_app_or in H. destruct H as [H|H]; [|apply CS, H].
      intros B. apply (v_disj _ _ L1 u H). rewrite SC. apply in_or_app. auto.
    + cbn [s2 t_stack]. intros x y A NX E. destruct (v_black _ _ I x y A NX E) as [i J]. exists i. apply (e_mono _ _ L2), J.
    + cbn [s2 t_stack]. intros x y i j G B H1 H2 LE. eapply (v_down _ _ L1); [right; exact G|rewrite SC; apply in_or_app; right; exact B|exact H1|exact H2|exact LE].
    + cbn [s2 t_stack]. intros y j B H. destruct (v_stk _ _ I y B) as [j' J]. destruct (v_up _ _ I y j' B J) as (x & i & C1 & C2 & C3 & C4).
      exists x, i. split; [exact C1|]. split; [apply (e_mono _ _ L2), C2|]. split; [|exact C4]. assert (j = j') by (eapply ix_fun; [exact H|apply (e_mono _ _ L2), J]). lia.
    + cbn [s2 t_out]. destruct (v_good _ _ L1) as [G1 G2]. split.
      * rewrite concat_app. cbn [concat]. rewrite app_nil_r. clear - G1 NDC CO. induction (concat (t_out s')) as [|a l IH]; [exact NDC|]. inversion G1 as [|? ? A B]; subst. cbn [app]. constructor.
        -- intros I. apply in_app_or in I. destruct I as [I|I]; [contradiction|]. apply (CO a I). left. reflexivity.
        -- apply IH; [|exact B]. intros x I J. apply (CO x I). right. exact J.
      * intros l1 C' l2 E. destruct l2 as [|c l2'] using rev_ind; [|clear IHl2'].
        -- apply app_inj_tail in E. destruct E as [<- <-]. split; [exact SCC|]. intros x y A EX. destruct (CE x y A EX); auto.
        -- replace (l1 ++ C' :: l2' ++ [c]) with ((l1 ++ C' :: l2') ++ [c]) in E by (rewrite <- app_assoc; reflexivity). apply app_inj_tail in E. destruct E as [E _]. exact (G2 l1 C' l2' E).
    + exact (v_vert _ _ L1).
  - destruct L2 as [E1 E2 E3]. constructor; [exact E1|exact E2|]. cbn [s2 t_nodes]. lia.
  - exact L3.
  - exists []. split; [reflexivity|]. split; [intros x []|intros x y j []].
  - left. auto.
Qed.

(* the vertices not reached yet *)
Definition unseen (s : st) : list Z := filter (fun v => match index_of (t_index s) v with None => true | Some _ => false end) (nodup Z.eq_dec (vertices g)).
Lemma unseen_ext s s' : (forall u i, ix s u i -> ix s' u i) -> (length (unseen s') <= length (unseen s))%nat.
Proof.
  intros H. unfold unseen. generalize (nodup Z.eq_dec (vertices g)). intros l. induction l as [|v l IH]; [cbn; lia|]. cbn [filter].
  destruct (index_of (t_index s) v) as [i|] eqn:E; [rewrite (H v i E); exact IH|]. destruct (index_of (t_index s') v); cbn [length]; lia.
Qed.
Lemma unseen_lt s s' v i : (forall u i, ix s u i -> ix s' u i) -> In v (vertices g) -> index_of (t_index s) v = None -> ix s' v i -> (length (unseen s') < length (unseen s))%nat.
Proof.
  intros H I N X. unfold unseen. apply (nodup_In Z.eq_dec) in I. revert I. generalize (nodup Z.eq_dec (vertices g)). intros l. induction l as [|w l IH]; [intros []|].
  assert (LE : (length (filter (fun v => match index_of (t_index s') v with None => true | Some _ => false end) l) <= length (filter (fun v => match index_of (t_index s) v with None => true | Some _ => false end) l))%nat).
  { clear IH. induction l as [|u l IH]; [cbn; lia|]. cbn [filter]. destruct (index_of (t_index s) u) as [k|] eqn:E; [rewrite (H u k E); exact IH|]. destruct (index_of (t_index s') u); cbn [length]; lia. }
  intros I. cbn [filter]. destruct I as [->|I].
  - rewrite N, X. cbn [length]. lia.
  - specialize (IH I). destruct (index_of (t_index s) w) as [k|] eqn:E; [rewrite (H w k E); exact IH|]. destruct (index_of (t_index s') w); cbn [length]; lia.
Qed.
Lemma edges_vertices v w : edge v w -> In w (vertices g).
Proof.
  unfold TarjanProofs.edge, vertices. intros H. apply in_or_app. right. induction g as [|[u ws] g' IH]; [contradiction|]. cbn [edges_of map concat snd] in *. apply in_or_app. destruct (Z.eqb u v); [left; exact H|right; apply IH, H].
Qed.
Lemma visit_ok fuel gray v s : inv gray s ->
  (forall gray w s1, inv gray s1 -> index_of (t_index s1) w = None -> In w (vertices g) -> (forall x, In x gray -> reach x w) -> (length (unseen s1) <= fuel)%nat ->
     exists n s2, strongConnect g fuel w s1 = Ok (n, s2) /\ post gray w s1 n s2) ->
  (forall x, In x gray -> reach x v) ->
  forall ws done low s', edges_of g v = done ++ ws -> loop gray v s done low s' -> (length (unseen s') <= fuel)%nat ->
  exists low' s2, visit (strongConnect g fuel) ws low s' = Ok (low', s2) /\ loop gray v s (edges_of g v) low' s2.
Proof.
  intros I REC GR. induction ws as [|w ws IH]; intros done low s' ED L FU.
  - cbn [visit]. rewrite app_nil_r in ED. rewrite ED. eauto.
  - assert (EV : edge v w) by (unfold TarjanProofs.edge; rewrite ED; apply in_or_app; right; left; reflexivity). cbn [visit].
    assert (ED' : edges_of g v = (done ++ [w]) ++ ws) by (rewrite <- app_assoc; exact ED).
    destruct (index_of (t_index s') w) as [i|] eqn:W.
    + pose proof (v_lt _ _ (l_inv _ _ _ _ _ _ L) w i W) as LT. destruct (nth_error (t_nodes s') i) as [b|] eqn:B; [|apply nth_error_None in B; lia].
      eapply IH; [exact ED'| |exact FU]. eapply loop_seen; eassumption.
    + destruct (REC (v :: gray) w s' (l_inv _ _ _ _ _ _ L) W (edges_vertices _ _ EV)) as (n & s2 & -> & P).
      * intros x [<-|G]; [apply reach_edge, EV|]. eapply reach_trans; [apply GR, G|apply reach_edge, EV].
      * exact FU.
      * cbn [rbind]. eapply IH; [exact ED'|eapply loop_rec; eassumption|].
        pose proof (unseen_ext s' s2 (e_mono _ _ (p_ext _ _ _ _ _ P))). lia.
Qed.
Lemma strongConnect_ok : forall fuel gray v s, inv gray s -> index_of (t_index s) v = None -> In v (vertices g) -> (forall x, In x gray -> reach x v) -> (length (unseen s) <= fuel)%nat ->
  exists n s', strongConnect g fuel v s = Ok (n, s') /\ post gray v s n s'.
Proof.
  induction fuel as [|fuel IH]; intros gray v s I N V GR FU.
  - exfalso. unfold unseen in FU. assert (A : In v (filter (fun v => match index_of (t_index s) v with None => true | Some _ => false end) (nodup Z.eq_dec (vertices g)))).
    { apply filter_In. split; [apply nodup_In, V|]. rewrite N. reflexivity. }
    destruct (filter _ _); [destruct A|cbn in FU; lia].
  - cbn [strongConnect]. pose proof (inv_start gray s v I V N GR) as L. set (s1 := {| t_index := (v, _) :: _ |}) in *.
    assert (NG : ~ In v gray).
    { intros G. apply (v_gray _ _ I) in G. destruct (v_stk _ _ I v G) as [i J]. unfold ix in J. congruence. }
    destruct (visit_ok fuel gray v s I) with (ws := edges_of g v) (done := @nil Z) (low := length (t_nodes s)) (s' := s1) as (low & s2 & E & L2).
    + intros. apply IH; assumption.
    + exact GR.
    + reflexivity.
    + exact L.
    + pose proof (unseen_lt s s1 v _ (e_mono _ _ (l_ext _ _ _ _ _ _ L)) V N (l_v _ _ _ _ _ _ L)). lia.
    + rewrite E. cbn [rbind]. destruct (Nat.eqb_spec low (length (t_nodes s))) as [->|NE].
      * destruct (finish_pop gray v s s2 I L2 NG) as (C & nodes & PO & P). rewrite PO. cbn [rbind]. eauto.
      * eexists _, _. split; [reflexivity|]. apply finish_keep; assumption.
Qed.
Lemma inv_nil : inv [] {| t_index := []; t_stack := []; t_nodes := []; t_out := [] |}.
Proof.
  constructor; unfold ix; cbn; try discriminate; try contradiction; try (intros; contradiction).
  - constructor.
  - intros x [].
  - split; [constructor|]. intros [|] C l2; discriminate.
Qed.
Lemma inv_stack s : inv [] s -> t_stack s = [].
Proof.
  intros I. destruct (t_stack s) as [|y l] eqn:E; [reflexivity|]. exfalso. assert (IY : In y (t_stack s)) by (rewrite E; left; reflexivity).
  destruct (v_stk _ _ I y IY) as [j J]. destruct (v_up _ _ I y j IY J) as (x & _ & [] & _).
Qed.
Lemma roots_ok : forall vs s, incl vs (vertices g) -> inv [] s -> exists s', roots g vs s = Ok s' /\ inv [] s' /\ (forall u i, ix s u i -> ix s' u i) /\ forall v, In v vs -> exists i, ix s' v i.
Proof.
  induction vs as [|v vs IH]; intros s H I.
  - exists s. split; [reflexivity|]. split; [exact I|]. split; [auto|]. intros v [].
  - cbn [roots]. assert (HV : incl vs (vertices g)) by (intros u U; apply H; right; exact U). destruct (index_of (t_index s) v) as [i|] eqn:E.
    + destruct (IH s HV I) as (s' & A & B & C & D). exists s'. split; [exact A|]. split; [exact B|]. split; [exact C|]. intros u [<-|U]; [exists i; apply C, E|apply D, U].
    + destruct (strongConnect_ok (S (length (vertices g))) [] v s I E (H v (or_introl eq_refl))) as (n & s1 & A & P).
      * intros x [].
      * unfold unseen. transitivity (length (nodup Z.eq_dec (vertices g))).
        -- generalize (nodup Z.eq_dec (vertices g)). intros l. induction l as [|w l IHl]; cbn; [lia|]. destruct (index_of (t_index s) w); cbn; lia.
        -- assert (L : (length (nodup Z.eq_dec (vertices g)) <= length (vertices g))%nat); [|lia].
           apply NoDup_incl_length; [apply NoDup_nodup|]. intros u U. apply nodup_In in U. exact U.
      * rewrite A. cbn [rbind snd]. destruct (IH s1 HV (p_inv _ _ _ _ _ P)) as (s' & B & C & D & F). exists s'. split; [exact B|]. split; [exact C|]. split.
        -- intros u i U. apply D, (e_mono _ _ (p_ext _ _ _ _ _ P)), U.
        -- intros u [<-|U]; [exists (length (t_nodes s)); apply D, (p_v _ _ _ _ _ P)|apply F, U].
Qed.
End proof.
