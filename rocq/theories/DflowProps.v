(* C40: the declared data flow is accepted exactly when it can run. *)
From Coq Require Import ZArith List Lia Bool.
From Verif Require Import GoLib TarjanModel TarjanProofs TarjanProps DflowModel.
Import ListNotations.
Local Open Scope Z_scope.

(* ---- what is said, in terms of the declarations ---- *)
Definition port (d : decl) : Z := match d with DIn _ p _ => p | DOut _ p _ => p end.
Definition type_of (d : decl) : Z := match d with DIn _ _ t => t | DOut _ _ t => t end.
(* the type in the last declaration of a port *)
Definition last_type (h : list decl) (p : Z) : option Z := fold_left (fun acc d => if port d =? p then Some (type_of d) else acc) h None.
(* a declaration that does not contradict the earlier ones *)
Definition fits (h : list decl) (d : decl) : Prop :=
  match d with
  | DIn k p t => (forall t', ~ In (DIn k p t') h) /\ (last_type h p = None \/ last_type h p = Some t)
  | DOut k p t => forall k' t', ~ In (DOut k' p t') h
  end.
Definition consistent (h : list decl) : Prop := forall h1 d h2, h = h1 ++ d :: h2 -> fits h1 d.
(* a component needs what another one makes *)
Definition needs (h : list decl) (x y : Z) : Prop := exists p t t', In (DIn x p t) h /\ In (DOut y p t') h.
Inductive needs_star (h : list decl) : Z -> Z -> Prop :=
| ns_refl x : needs_star h x x
| ns_step x y z : needs h x y -> needs_star h y z -> needs_star h x z.

(* ---- maps ---- *)
Lemma get_set {A} (m : amap A) k a j : get (set m k a) j = if k =? j then Some a else get m j.
Proof.
  induction m as [|[i b] m IH]; cbn [set get]; [reflexivity|]. destruct (Z.eqb_spec i k) as [->|N]; cbn [get].
  - destruct (k =? j); reflexivity.
  - rewrite IH. destruct (Z.eqb_spec i j) as [->|]; [|reflexivity]. replace (k =? j) with false by lia. reflexivity.
Qed.
Lemma set_keys {A} (m : amap A) k a j : In j (keys (set m k a)) <-> j = k \/ In j (keys m).
Proof.
  unfold keys. induction m as [|[i b] m IH]; cbn [set map fst In]; [split; intros [H|[]]; auto|]. destruct (Z.eqb_spec i k) as [->|N]; cbn [map fst In]; [intuition|]. rewrite IH. intuition.
Qed.
Lemma set_nodup {A} (m : amap A) k a : NoDup (keys m) -> NoDup (keys (set m k a)).
Proof.
  unfold keys. induction m as [|[i b] m IH]; cbn [set map fst]; intros H; [constructor; [auto|constructor]|]. inversion H as [|? ? N N']; subst.
  destruct (Z.eqb_spec i k) as [->|NE]; cbn [map fst]; [exact H|]. constructor; [|apply IH, N']. intros I. apply (set_keys m k a) in I. destruct I; [contradiction|contradiction].
Qed.
Lemma get_In {A} (m : amap A) k a : get m k = Some a -> In (k, a) m.
Proof. induction m as [|[i b] m IH]; cbn [get]; [discriminate|]. destruct (Z.eqb_spec i k) as [->|]; intros E; [injection E as ->; left; reflexivity|right; apply IH, E]. Qed.
Lemma In_get {A} (m : amap A) k a : NoDup (keys m) -> In (k, a) m -> get m k = Some a.
Proof.
  unfold keys. induction m as [|[i b] m IH]; cbn [get map fst]; intros N I; [contradiction|]. inversion N as [|? ? N1 N2]; subst. destruct I as [E|I].
  - injection E as -> ->. rewrite Z.eqb_refl. reflexivity.
  - destruct (Z.eqb_spec i k) as [->|]; [exfalso; apply N1; apply in_map_iff; exists (k, a); auto|]. apply IH; assumption.
Qed.
Lemma keys_get {A} (m : amap A) k : In k (keys m) <-> exists a, get m k = Some a.
Proof.
  unfold keys. induction m as [|[i b] m IH]; cbn [get map fst In]; [split; [intros []|intros [a E]; discriminate]|]. destruct (Z.eqb_spec i k) as [->|N]; [split; [eauto|auto]|].
  rewrite <- IH. intuition.
Qed.

(* ---- the flow of a history ---- *)
Record rel (h : list decl) (f : flow) : Prop := {
  r_keys : NoDup (keys (f_nodes f));
  r_in : forall k p t, get (n_in (node_of f k)) p = Some t <-> In (DIn k p t) h;
  r_out : forall k p t, get (n_out (node_of f k)) p = Some t <-> In (DOut k p t) h;
  r_edge : forall p, get (f_edges f) p = last_type h p;
  r_one : forall k p t k' t', In (DOut k p t) h -> In (DOut k' p t') h -> k = k';
  r_nd : forall k, NoDup (keys (n_out (node_of f k))) }.
Lemma last_type_snoc h d p : last_type (h ++ [d]) p = if port d =? p then Some (type_of d) else last_type h p.
Proof. unfold last_type. rewrite fold_left_app. reflexivity. Qed.
Lemma last_type_none h p : last_type h p = None -> forall d, In d h -> port d <> p.
Proof.
  induction h as [|e h IH] using rev_ind; intros E d I; [contradiction|]. rewrite last_type_snoc in E. destruct (Z.eqb_spec (port e) p) as [|N]; [discriminate|].
  apply in_app_or in I. destruct I as [I|[<-|[]]]; [apply IH; assumption|exact N].
Qed.
Lemma node_of_set f k n e j : node_of {| f_nodes := set (f_nodes f) k n; f_edges := e |} j = if k =? j then n else node_of f j.
Proof. unfold node_of. cbn [f_nodes]. rewrite get_set. destruct (k =? j); reflexivity. Qed.
Lemma node_In f k n : NoDup (keys (f_nodes f)) -> In (k, n) (f_nodes f) -> node_of f k = n.
Proof. intros N I. unfold node_of. rewrite (In_get _ _ _ N I). reflexivity. Qed.
Lemma node_port_In f k p t : get (n_out (node_of f k)) p = Some t -> In (k, node_of f k) (f_nodes f).
Proof. unfold node_of. destruct (get (f_nodes f) k) as [n|] eqn:E; [intros _; apply get_In, E|cbn; discriminate]. Qed.
Lemma rel_new : rel [] newFlow.
Proof. constructor; cbn; try (intros; reflexivity); try (intros; split; [discriminate|intros []]); try (intros; contradiction); intros; constructor. Qed.
Lemma declare_ok h f d : rel h f -> (fst (declare f d) = true <-> fits h d) /\ (fst (declare f d) = true -> rel (h ++ [d]) (snd (declare f d))).
Proof.
  intros R. destruct d as [k p t|k p t]; cbn [declare fits].
  - unfold addInNode. destruct (get (n_in (node_of f k)) p) as [t0|] eqn:G.
    { cbn [fst snd]. split; [|discriminate]. split; [discriminate|]. intros [A _]. exfalso. apply (A t0). apply (r_in _ _ R), G. }
    assert (NI : forall t', ~ In (DIn k p t') h) by (intros t' I; apply (r_in _ _ R) in I; congruence).
    set (nodes := set (f_nodes f) k _). rewrite (r_edge _ _ R).
    assert (REL : rel (h ++ [DIn k p t]) {| f_nodes := nodes; f_edges := set (f_edges f) p t |}).
    { constructor; cbn [f_nodes f_edges].
      - apply set_nodup, (r_keys _ _ R).
      - intros k' p' t'. unfold nodes. rewrite node_of_set. rewrite in_app_iff. cbn [In]. destruct (Z.eqb_spec k k') as [<-|NE]; cbn [n_in].
        + rewrite get_set. destruct (Z.eqb_spec p p') as [<-|NP].
          * split; [intros E; injection E as ->; auto|]. intros [I|[E|[]]]; [exfalso; eapply NI; eassumption|]. injection E as ->. reflexivity.
          * rewrite (r_in _ _ R). split; [auto|]. intros [I|[E|[]]]; [exact I|]. injection E as E _. congruence.
        + rewrite (r_in _ _ R). split; [auto|]. intros [I|[E|[]]]; [exact I|]. injection E as E _ _. congruence.
      - intros k' p' t'. unfold nodes. rewrite node_of_set. rewrite in_app_iff. cbn [In]. 
        replace (get (n_out (if k =? k' then _ else node_of f k')) p') with (get (n_out (node_of f k')) p') by (destruct (Z.eqb_spec k k') as [<-|]; reflexivity).
        rewrite (r_out _ _ R). split; [auto|]. intros [I|[E|[]]]; [exact I|discriminate].
      - intros p'. rewrite get_set, last_type_snoc, (r_edge _ _ R). reflexivity.
      - intros a b c a' c' I J. apply in_app_or in I, J. destruct I as [I|[E|[]]]; [|discriminate]. destruct J as [J|[E|[]]]; [|discriminate]. eapply r_one; eassumption.
      - intros k'. unfold nodes. rewrite node_of_set. destruct (Z.eqb_spec k k') as [<-|]; apply (r_nd _ _ R). }
    destruct (last_type h p) as [t0|] eqn:L.
    + destruct (Z.eqb_spec t0 t) as [->|NE]; cbn [fst snd]; [split; [split; auto|auto]|]. split; [|discriminate]. split; [discriminate|]. intros [_ [E|E]]; [discriminate|congruence].
    + cbn [fst snd]. split; [split; auto|auto].
  - unfold addOutNode. destruct (get (n_out (node_of f k)) p) as [t0|] eqn:G.
    { cbn [fst snd]. split; [|discriminate]. split; [discriminate|]. intros A. exfalso. apply (A k t0). apply (r_out _ _ R), G. }
    set (nodes := set (f_nodes f) k _). rewrite (r_edge _ _ R).
    assert (ND : NoDup (keys nodes)) by (apply set_nodup, (r_keys _ _ R)).
    assert (REL : (forall k' t', ~ In (DOut k' p t') h) -> rel (h ++ [DOut k p t]) {| f_nodes := nodes; f_edges := set (f_edges f) p t |}).
    { intros NI. constructor; cbn [f_nodes f_edges].
      - exact ND.
      - intros k' p' t'. unfold nodes. rewrite node_of_set. rewrite in_app_iff. cbn [In].
        replace (get (n_in (if k =? k' then _ else node_of f k')) p') with (get (n_in (node_of f k')) p') by (destruct (Z.eqb_spec k k') as [<-|]; reflexivity).
        rewrite (r_in _ _ R). split; [auto|]. intros [I|[E|[]]]; [exact I|discriminate].
      - intros k' p' t'. unfold nodes. rewrite node_of_set. rewrite in_app_iff. cbn [In]. destruct (Z.eqb_spec k k') as [<-|NE]; cbn [n_out].
        + rewrite get_set. destruct (Z.eqb_spec p p') as [<-|NP].
          * split; [intros E; injection E as ->; auto|]. intros [I|[E|[]]]; [exfalso; eapply NI; eassumption|]. injection E as ->. reflexivity.
          * rewrite (r_out _ _ R). split; [auto|]. intros [I|[E|[]]]; [exact I|]. injection E as E _. congruence.
        + rewrite (r_out _ _ R). split; [auto|]. intros [I|[E|[]]]; [exact I|]. injection E as E _ _. congruence.
      - intros p'. rewrite get_set, last_type_snoc, (r_edge _ _ R). reflexivity.
      - intros a b c a' c' I J. apply in_app_or in I, J. destruct I as [I|[E|[]]], J as [J|[E'|[]]].
        + eapply r_one; eassumption.
        + injection E' as <- <- <-. exfalso. eapply NI; eassumption.
        + injection E as <- <- <-. exfalso. eapply NI; eassumption.
        + congruence.
      - intros k'. unfold nodes. rewrite node_of_set. destruct (Z.eqb_spec k k') as [<-|]; cbn [n_out]; [apply set_nodup|]; apply (r_nd _ _ R). }
    destruct (last_type h p) as [t0|] eqn:L.
    + match goal with |- context [existsb ?f nodes] => destruct (existsb f nodes) eqn:X end; cbn [fst snd].
      * split; [|discriminate]. split; [discriminate|]. intros A. exfalso. apply existsb_exists in X. destruct X as ([k' n] & I & E). cbn [fst snd] in E.
        apply andb_prop in E. destruct E as [NE E]. rewrite negb_true_iff, Z.eqb_neq in NE. apply existsb_exists in E. destruct E as (p' & K & E). apply Z.eqb_eq in E. subst p'.
        apply keys_get in K. destruct K as [t' K]. apply (In_get _ _ _ ND) in I. unfold nodes in I. rewrite get_set in I. replace (k =? k') with false in I by lia.
        apply (A k' t'). apply (r_out _ _ R). unfold node_of. rewrite I. exact K.
      * assert (NI : forall k' t', ~ In (DOut k' p t') h).
        { intros k' t' I. apply (r_out _ _ R) in I. destruct (Z.eq_dec k' k) as [->|NE]; [congruence|].
          assert (existsb (fun x => negb (fst x =? k) && existsb (Z.eqb p) (keys (n_out (snd x)))) nodes = true); [|congruence].
          apply existsb_exists. exists (k', node_of f k'). split.
          - apply get_In. unfold nodes. rewrite get_set. replace (k =? k') with false by lia. apply In_get; [apply (r_keys _ _ R)|eapply node_port_In; exact I].
          - cbn [fst snd]. replace (k' =? k) with false by lia. cbn [negb andb]. apply existsb_exists. exists p. split; [apply keys_get; eauto|apply Z.eqb_refl]. }
        split; [split; auto|auto].
    + cbn [fst snd]. assert (NI : forall k' t', ~ In (DOut k' p t') h) by (intros k' t' I; apply (last_type_none _ _ L) in I; apply I; reflexivity).
      split; [split; auto|auto].
Qed.
Lemma declares_ok : forall ds h f, rel h f ->
  match declares f ds with
  | Some f' => rel (h ++ ds) f' /\ forall d1 d d2, ds = d1 ++ d :: d2 -> fits (h ++ d1) d
  | None => exists d1 d d2, ds = d1 ++ d :: d2 /\ ~ fits (h ++ d1) d
  end.
Proof.
  induction ds as [|d ds IH]; intros h f R; cbn [declares].
  - rewrite app_nil_r. split; [exact R|]. intros [|] x d2 E; discriminate.
  - destruct (declare_ok h f d R) as [A B]. destruct (declare f d) as [ok f'] eqn:E. cbn [fst snd] in *. destruct ok.
    + specialize (IH (h ++ [d]) f' (B eq_refl)). destruct (declares f' ds) as [f2|].
      * destruct IH as [I1 I2]. rewrite <- app_assoc in I1. split; [exact I1|]. intros [|e d1] d' d2 ED; cbn [app] in ED; injection ED as -> ->.
        -- rewrite app_nil_r. apply A. reflexivity.
        -- pose proof (I2 d1 d' d2 eq_refl) as F. rewrite <- app_assoc in F. exact F.
      * destruct IH as (d1 & d' & d2 & -> & N). exists (d :: d1), d', d2. split; [reflexivity|]. rewrite <- app_assoc in N. exact N.
    + exists [], d, ds. split; [reflexivity|]. rewrite app_nil_r. intros F. apply A in F. discriminate.
Qed.

(* ---- the checks at start ---- *)
Definition flat (nodes : amap node) : list (Z * Z) := concat (map (fun x => map (fun k => (k, fst x)) (keys (n_out (snd x)))) nodes).
Fixpoint ins (l : list (Z * Z)) (out : amap Z) : option (amap Z) :=
  match l with [] => Some out | (k, t) :: l' => match get out k with Some _ => None | None => ins l' (set out k t) end end.
Lemma producers_ins : forall nodes out, producers nodes out = ins (flat nodes) out.
Proof.
  induction nodes as [|[tsk n] nodes IH]; intros out; [reflexivity|]. cbn [producers flat map concat fst snd]. fold (flat nodes).
  generalize (keys (n_out n)). intros ks. revert out. induction ks as [|k ks IHk]; intros out; [apply IH|]. cbn [map app ins]. destruct (get out k); [reflexivity|]. apply IHk.
Qed.
Lemma ins_ok : forall l out, NoDup (map fst l) -> (forall k, In k (map fst l) -> get out k = None) ->
  exists out', ins l out = Some out' /\ forall k, get out' k <> None <-> get out k <> None \/ In k (map fst l).
Proof.
  induction l as [|[k t] l IH]; intros out N D; cbn [ins map fst] in *.
  - exists out. split; [reflexivity|]. cbn. tauto.
  - inversion N as [|? ? N1 N2]; subst. rewrite (D k (or_introl eq_refl)). destruct (IH (set out k t) N2) as (out' & A & B).
    + intros j J. rewrite get_set. destruct (Z.eqb_spec k j) as [<-|]; [contradiction|]. apply D. right. exact J.
    + exists out'. split; [exact A|]. intros j. rewrite B, get_set. cbn [In]. destruct (Z.eqb_spec k j) as [->|]; [|tauto]. split; [auto|]. intros _. left. discriminate.
Qed.
Lemma flat_nodup h f : rel h f -> NoDup (map fst (flat (f_nodes f))).
Proof.
  intros R. assert (H : forall x p, In x (f_nodes f) -> In p (keys (n_out (snd x))) -> exists t, In (DOut (fst x) p t) h).
  { intros [k n] p I P. cbn [fst snd] in *. rewrite <- (node_In _ _ _ (r_keys _ _ R) I) in P. apply keys_get in P. destruct P as [t P]. exists t. apply (r_out _ _ R), P. }
  assert (N : forall x, In x (f_nodes f) -> NoDup (keys (n_out (snd x)))).
  { intros [k n] I. cbn [snd]. rewrite <- (node_In _ _ _ (r_keys _ _ R) I). apply (r_nd _ _ R). }
  pose proof (r_keys _ _ R) as K. unfold flat. unfold keys in K. induction (f_nodes f) as [|[k n] l IH]; [constructor|]. cbn [map concat fst snd] in *. inversion K as [|? ? K1 K2]; subst.
  rewrite map_app, map_map. cbn [fst]. rewrite map_id.
  assert (D : forall p, In p (keys (n_out n)) -> ~ In p (map fst (concat (map (fun x => map (fun k => (k, fst x)) (keys (n_out (snd x)))) l)))).
  { intros p P I. rewrite in_map_iff in I. destruct I as ([p' k'] & E & I). cbn [fst] in E. subst p'. apply in_concat in I. destruct I as (c & C & I). apply in_map_iff in C. destruct C as ([k2 n2] & <- & C).
    cbn [fst snd] in I. apply in_map_iff in I. destruct I as (p2 & E & I). injection E as -> <-. destruct (H (k, n) p (or_introl eq_refl) P) as [t T]. destruct (H (k2, n2) p (or_intror C) I) as [t' T'].
    cbn [fst] in *. assert (k = k2) by (eapply r_one; eassumption). subst k2. apply K1. apply in_map_iff. exists (k, n2). auto. }
  specialize (N (k, n) (or_introl eq_refl)) as N0. cbn [snd] in N0.
  assert (IHl : NoDup (map fst (concat (map (fun x => map (fun k => (k, fst x)) (keys (n_out (snd x)))) l)))) by (apply IH; [intros; eapply H; [right; eassumption|eassumption]|intros; apply N; right; assumption|exact K2]).
  clear - D N0 IHl. induction (keys (n_out n)) as [|p ps IH]; [exact IHl|]. inversion N0; subst. cbn [app]. constructor.
  - rewrite in_app_iff. intros [I|I]; [contradiction|]. apply (D p (or_introl eq_refl) I).
  - apply IH; [intros q Q; apply D; right; exact Q|assumption].
Qed.
Lemma flat_In h f p : rel h f -> (In p (map fst (flat (f_nodes f))) <-> exists k t, In (DOut k p t) h).
Proof.
  intros R. unfold flat. rewrite in_map_iff. split.
  - intros ([p' k'] & E & I). cbn [fst] in E. subst p'. apply in_concat in I. destruct I as (c & C & I). apply in_map_iff in C. destruct C as ([k n] & <- & C). cbn [fst snd] in I.
    apply in_map_iff in I. destruct I as (p2 & E & I). injection E as -> <-. rewrite <- (node_In _ _ _ (r_keys _ _ R) C) in I. apply keys_get in I. destruct I as [t I]. exists k, t. apply (r_out _ _ R), I.
  - intros (k & t & I). apply (r_out _ _ R) in I. exists (p, k). split; [reflexivity|]. apply in_concat. exists (map (fun j => (j, k)) (keys (n_out (node_of f k)))). split.
    + apply in_map_iff. exists (k, node_of f k). split; [reflexivity|]. eapply node_port_In; exact I.
    + apply in_map_iff. exists p. split; [reflexivity|]. apply keys_get. eauto.
Qed.
Lemma in_node h f k p t : rel h f -> In (DIn k p t) h -> In (k, node_of f k) (f_nodes f) /\ In p (keys (n_in (node_of f k))).
Proof.
  intros R I. apply (r_in _ _ R) in I. split; [|apply keys_get; eauto]. revert I. unfold node_of. destruct (get (f_nodes f) k) as [n|] eqn:E; [intros _; apply get_In, E|cbn; discriminate].
Qed.
Lemma graph_keys nodes : map fst (graph_of nodes) = keys nodes.
Proof. unfold graph_of. rewrite map_map. reflexivity. Qed.
Lemma edges_In : forall (G : graph) x y, NoDup (map fst G) -> (edge G x y <-> exists ws, In (x, ws) G /\ In y ws).
Proof.
  unfold edge. induction G as [|[u ws] G IH]; intros x y N; cbn [edges_of map fst] in *; [split; [intros []|intros (ws & [] & _)]|]. inversion N as [|? ? N1 N2]; subst.
  destruct (Z.eqb_spec u x) as [->|NE].
  - split; [intros I; exists ws; auto using in_eq|]. intros (ws' & [E|I] & Y); [injection E as ->; exact Y|]. exfalso. apply N1. apply in_map_iff. exists (x, ws'). auto.
  - rewrite (IH x y N2). split; intros (ws' & I & Y); [exists ws'; auto using in_cons|]. destruct I as [E|I]; [injection E as E _; congruence|]. eauto.
Qed.
Lemma graph_edge h f x y : rel h f -> (edge (graph_of (f_nodes f)) x y <-> x <> y /\ needs h x y).
Proof.
  intros R. rewrite edges_In by (rewrite graph_keys; apply (r_keys _ _ R)). unfold graph_of. split.
  - intros (ws & I & Y). apply in_map_iff in I. destruct I as ([k n] & E & I). injection E as -> <-. cbn [fst snd] in Y. apply in_concat in Y. destruct Y as (c & C & Y).
    apply in_map_iff in C. destruct C as (p & <- & P). apply in_map_iff in Y. destruct Y as ([k2 n2] & E & Y). cbn [fst] in E. subst k2. apply filter_In in Y. destruct Y as [Y F]. cbn [fst snd] in F.
    apply andb_prop in F. destruct F as [NE F]. rewrite negb_true_iff, Z.eqb_neq in NE. apply existsb_exists in F. destruct F as (q & Q & E). apply Z.eqb_eq in E. subst q.
    split; [congruence|]. rewrite <- (node_In _ _ _ (r_keys _ _ R) I) in P. rewrite <- (node_In _ _ _ (r_keys _ _ R) Y) in Q. apply keys_get in P, Q. destruct P as [t P], Q as [t' Q].
    exists p, t, t'. split; [apply (r_in _ _ R), P|apply (r_out _ _ R), Q].
  - intros (NE & p & t & t' & A & B). destruct (in_node h f x p t R A) as [A1 A2]. apply (r_out _ _ R) in B. eexists. split; [apply in_map_iff; exists (x, node_of f x); split; [reflexivity|exact A1]|].
    cbn [fst snd]. apply in_concat. eexists. split; [apply in_map_iff; exists p; split; [reflexivity|exact A2]|]. apply in_map_iff. exists (y, node_of f y). split; [reflexivity|].
    apply filter_In. split; [eapply node_port_In; exact B|]. cbn [fst snd]. replace (y =? x) with false by lia. cbn [negb andb]. apply existsb_exists. exists p. split; [apply keys_get; eauto|apply Z.eqb_refl].
Qed.
Lemma graph_reach h f x y : rel h f -> (reach (graph_of (f_nodes f)) x y <-> needs_star h x y).
Proof.
  intros R. split.
  - induction 1 as [x|x y z E _ IH]; [constructor|]. apply (graph_edge h f x y R) in E. eapply ns_step; [exact (proj2 E)|exact IH].
  - induction 1 as [x|x y z E _ IH]; [constructor|]. destruct (Z.eq_dec x y) as [->|NE]; [exact IH|]. eapply reach_step; [|exact IH]. apply (graph_edge h f x y R). auto.
Qed.

(* ---- C40 ---- *)
(* A sequence of declarations is accepted exactly when: no component declares an input port twice, no output port is declared twice, by one
   component or two, and an input port has the type of the declaration of the port before it. *)
Theorem C40_declarations : forall h, (exists f, declares newFlow h = Some f) <-> consistent h.
Proof.
  intros h. pose proof (declares_ok h [] newFlow rel_new) as D. cbn [app] in D. split.
  - intros [f E]. rewrite E in D. exact (proj2 D).
  - intros C. destruct (declares newFlow h) as [f|]; [eauto|]. destruct D as (d1 & d & d2 & E & N). exfalso. apply N. eapply C, E.
Qed.
(* A flow declared without error starts exactly when every input has a producer and no two components need each other. *)
Theorem C40_start : forall h f, declares newFlow h = Some f ->
  exists b, startSvc f = Ok b /\
  (b = true <-> (forall k p t, In (DIn k p t) h -> exists k' t', In (DOut k' p t') h) /\ ~ exists x y, x <> y /\ needs_star h x y /\ needs_star h y x).
Proof.
  intros h f E. pose proof (declares_ok h [] newFlow rel_new) as D. rewrite E in D. destruct D as [R _]. cbn [app] in R.
  unfold startSvc. rewrite producers_ins. destruct (ins_ok (flat (f_nodes f)) [] (flat_nodup h f R)) as (out & -> & O); [reflexivity|].
  assert (HO : forall p, get out p <> None <-> exists k t, In (DOut k p t) h).
  { intros p. rewrite O, (flat_In h f p R). cbn [get]. split; [intros [H|H]; [congruence|exact H]|auto]. }
  destruct (missing (f_nodes f) out) eqn:M.
  - exists false. split; [reflexivity|]. split; [discriminate|]. intros [A _]. exfalso. unfold missing in M. apply existsb_exists in M. destruct M as ([k n] & I & M). cbn [snd] in M.
    apply existsb_exists in M. destruct M as (p & P & M). rewrite <- (node_In _ _ _ (r_keys _ _ R) I) in P. apply keys_get in P. destruct P as [t P]. apply (r_in _ _ R) in P.
    apply A in P. apply HO in P. destruct (get out p); [discriminate|congruence].
  - assert (ND : NoDup (map fst (graph_of (f_nodes f)))) by (rewrite graph_keys; apply (r_keys _ _ R)).
    destruct (C41_components _ ND) as (cs & EC & _). rewrite EC. cbn [rbind]. eexists. split; [reflexivity|]. rewrite negb_true_iff.
    assert (IN : forall k p t, In (DIn k p t) h -> exists k' t', In (DOut k' p t') h).
    { intros k p t I. destruct (in_node h f k p t R I) as [A B]. apply HO. intros G. unfold missing in M.
      assert (existsb (fun x => existsb (fun k => match get out k with None => true | Some _ => false end) (keys (n_in (snd x)))) (f_nodes f) = true); [|congruence].
      apply existsb_exists. exists (k, node_of f k). split; [exact A|]. cbn [snd]. apply existsb_exists. exists p. rewrite G. auto. }
    pose proof (C41_cycles _ _ ND EC) as CY.
    destruct (existsb (fun c => (1 <? length c)%nat) cs) eqn:X.
    + split; [discriminate|]. intros [_ N]. exfalso. apply N. apply existsb_exists in X. destruct X as (c & C & L). apply Nat.ltb_lt in L.
      destruct (proj1 CY (ex_intro _ c (conj C L))) as (x & y & NE & _ & R1 & R2). exists x, y. split; [exact NE|]. split; apply (graph_reach h f _ _ R); assumption.
    + split; [|reflexivity]. intros _. split; [exact IN|]. intros (x & y & NE & R1 & R2). apply (graph_reach h f _ _ R) in R1, R2.
      destruct (proj2 CY) as (c & C & L).
      * exists x, y. split; [exact NE|]. split; [|auto]. rewrite graph_keys. inversion R1 as [|a b c EX _]; subst; [contradiction|]. apply (edges_In _ _ _ ND) in EX. destruct EX as (ws & W & _).
        rewrite <- graph_keys. apply in_map_iff. exists (x, ws). auto.
      * assert (existsb (fun c => (1 <? length c)%nat) cs = true); [|congruence]. apply existsb_exists. exists c. split; [exact C|]. apply Nat.ltb_lt, L.
Qed.
(* If the output is declared first, all declarations of a port have one type. *)
Theorem C40_types : forall h f pre k p t post, declares newFlow h = Some f -> h = pre ++ DOut k p t :: post -> (forall d, In d pre -> port d <> p) ->
  forall d, In d h -> port d = p -> type_of d = t.
Proof.
  intros h f pre k p t post E -> NP. assert (C : consistent (pre ++ DOut k p t :: post)) by (apply C40_declarations; eauto). clear E f.
  assert (L : forall post2 post3, post = post2 ++ post3 -> last_type (pre ++ DOut k p t :: post2) p = Some t /\ forall d, In d (pre ++ DOut k p t :: post2) -> port d = p -> type_of d = t).
  { induction post2 as [|d post2 IH] using rev_ind; intros post3 EP.
    - rewrite last_type_snoc. cbn [port type_of]. rewrite Z.eqb_refl. split; [reflexivity|]. intros d I P. apply in_app_or in I. destruct I as [I|[<-|[]]]; [exfalso; eapply NP; eassumption|reflexivity].
    - rewrite <- app_assoc in EP. destruct (IH ([d] ++ post3) EP) as [A B].
      assert (T : port d = p -> type_of d = t).
      { intros P. assert (F : fits (pre ++ DOut k p t :: post2) d) by (apply (C _ _ post3); rewrite EP, <- app_assoc; reflexivity).
        destruct d as [k' p' t'|k' p' t']; cbn [port type_of fits] in *; subst p'.
        - destruct F as [_ [F|F]]; congruence.
        - exfalso. apply (F k t). apply in_or_app. right. left. reflexivity. }
      replace (pre ++ DOut k p t :: post2 ++ [d]) with ((pre ++ DOut k p t :: post2) ++ [d]) by (rewrite <- app_assoc; reflexivity). rewrite last_type_snoc. split.
      + destruct (Z.eqb_spec (port d) p) as [P|]; [rewrite (T P); reflexivity|exact A].
      + intros e I P. apply in_app_or in I. destruct I as [I|[<-|[]]]; [exact (B e I P)|exact (T P)]. }
  destruct (L post [] (eq_sym (app_nil_r post))) as [_ B]. exact B.
Qed.
(* If the input is declared first, the types may differ. *)
Theorem C40_types_refuted : exists h f, declares newFlow h = Some f /\ startSvc f = Ok true /\ exists k p t k' t', In (DIn k p t) h /\ In (DOut k' p t') h /\ t <> t'.
Proof.
  exists [DIn 1 7 100; DOut 2 7 200]. eexists. split; [vm_compute; reflexivity|]. split; [vm_compute; reflexivity|]. exists 1, 7, 100, 2, 200. cbn. intuition lia.
Qed.
(* A component that needs its own output is accepted: it waits for itself for ever. *)
Theorem C40_self_refuted : exists h f k, declares newFlow h = Some f /\ startSvc f = Ok true /\ needs h k k.
Proof.
  exists [DIn 1 7 100; DOut 1 7 100]. eexists. exists 1. split; [vm_compute; reflexivity|]. split; [vm_compute; reflexivity|]. exists 7, 100, 100. cbn. auto.
Qed.
Example C40_example :
  let h := [DOut 1 10 0; DIn 2 10 0; DOut 2 20 0; DIn 3 10 0; DIn 3 20 0; DOut 3 30 0] in
  exists f, declares newFlow h = Some f /\ startSvc f = Ok true.
Proof. eexists. split; vm_compute; reflexivity. Qed.
Example C40_example_cycle :
  exists f, declares newFlow [DOut 1 10 0; DIn 2 10 0; DOut 2 20 0; DIn 3 20 0; DOut 3 30 0; DIn 1 30 0] = Some f /\ startSvc f = Ok false.
Proof. eexists. split; vm_compute; reflexivity. Qed.
Example C40_example_missing : exists f, declares newFlow [DOut 1 10 0; DIn 2 11 0] = Some f /\ startSvc f = Ok false.
Proof. eexists. split; vm_compute; reflexivity. Qed.
Print Assumptions C40_declarations.
Print Assumptions C40_start.
Print Assumptions C40_types.
Print Assumptions C40_types_refuted.
Print Assumptions C40_self_refuted.
