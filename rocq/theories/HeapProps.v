(* C30: the heap pops its smallest element. *)
From Coq Require Import ZArith List Lia Bool Arith Permutation FinFun.
From Verif Require Import GoLib F64 HeapModel.
Import ListNotations.
Local Open Scope nat_scope.

Definition dflt : pair := {| jeti := 0; jetj := 0; dij := fzero |}.
Definition g (l : list pair) (k : nat) : pair := nth k l dflt.
Definition key (p : pair) : Z := match fkey (dij p) with Some k => k | None => 0%Z end.
Definition num (p : pair) : Prop := is_nanb (dij p) = false.
Lemma flt_num a b : num a -> num b -> flt (dij a) (dij b) = (key a <? key b)%Z.
Proof. unfold num, is_nanb, key. rewrite flt_key. destruct (fkey (dij a)), (fkey (dij b)); cbn; congruence. Qed.
Lemma at_ok l i : i < length l -> at_ l i = Ok (g l i).
Proof. intros H. unfold at_. rewrite (nth_error_nth' l dflt H). reflexivity. Qed.
Lemma less_ok l i j : i < length l -> j < length l -> num (g l i) -> num (g l j) -> less l i j = Ok (key (g l i) <? key (g l j))%Z.
Proof. intros. unfold less. rewrite !at_ok by auto. cbn. now rewrite flt_num. Qed.
Definition tau (i j k : nat) : nat := if k =? i then j else if k =? j then i else k.
Lemma g_upd l i f l' : upd_nth l i f = Ok l' -> i < length l -> length l' = length l /\ forall k, g l' k = if k =? i then f (g l k) else g l k.
Proof.
  intros E Hi. apply upd_nth_nth in E. destruct E as (L & E). split; auto. intros k. unfold g. specialize (E k).
  destruct (lt_dec k (length l)) as [H|H].
  - rewrite (nth_error_nth' l dflt H) in E. rewrite (nth_error_nth' l' dflt) in E by lia. cbn in E. destruct (k =? i); cbn in *; congruence.
  - rewrite !(nth_overflow _ dflt) by lia. destruct (Nat.eqb_spec k i); [lia|reflexivity].
Qed.
Lemma swap_ok l i j : i < length l -> j < length l -> exists l', swap l i j = Ok l' /\ length l' = length l /\ forall k, g l' k = g l (tau i j k).
Proof.
  intros Hi Hj. unfold swap. rewrite !at_ok by auto. cbn.
  destruct (upd_nth_ok l i (fun _ => g l j) Hi) as (l1 & E1 & L1). rewrite E1. cbn. destruct (g_upd _ _ _ _ E1 Hi) as (_ & G1).
  destruct (upd_nth_ok l1 j (fun _ => g l i)) as (l2 & E2 & L2); [lia|]. rewrite E2. destruct (g_upd _ _ _ _ E2 ltac:(lia)) as (_ & G2).
  eexists. split; [reflexivity|]. split; [lia|]. intros k. rewrite G2, G1. unfold tau.
  destruct (Nat.eqb_spec k j), (Nat.eqb_spec k i); subst; auto.
Qed.
(* the elements held *)
Definition held_l (l : list pair) (n : nat) : list pair := map (g l) (seq 1 n).
Definition held (h : heap) : list pair := held_l (items h) (hn h).
Lemma tau_inj i j : Injective (tau i j).
Proof. intros a b. unfold tau. repeat match goal with |- context [?x =? ?y] => destruct (Nat.eqb_spec x y) end; subst; intros; lia. Qed.
Lemma held_tau l l' n i j : 1 <= i <= n -> 1 <= j <= n -> (forall k, g l' k = g l (tau i j k)) -> Permutation (held_l l' n) (held_l l n).
Proof.
  intros Hi Hj E. unfold held_l. rewrite (map_ext _ _ E), <- map_map. apply Permutation_map. apply NoDup_Permutation_bis.
  - apply Injective_map_NoDup; [apply tau_inj|apply seq_NoDup].
  - rewrite map_length, seq_length. lia.
  - intros x Hx. apply in_map_iff in Hx. destruct Hx as (y & <- & Hy). apply in_seq in Hy. apply in_seq. unfold tau. destruct (y =? i), (y =? j); lia.
Qed.
Lemma held_num l n k : Forall num (held_l l n) -> 1 <= k <= n -> num (g l k).
Proof. intros F H. rewrite Forall_forall in F. apply F. apply in_map. apply in_seq. lia. Qed.

Local Open Scope Z_scope.
Definition le_ (l : list pair) (a b : nat) : Prop := key (g l a) <= key (g l b).
Definition is_heap (l : list pair) (n : nat) : Prop := forall k, (2 <= k <= n)%nat -> le_ l (k / 2) k.
Lemma half_lt k : (2 <= k)%nat -> (1 <= k / 2 < k)%nat.
Proof. intros H. split; [apply Nat.div_le_lower_bound; lia|apply Nat.div_lt; lia]. Qed.

Lemma moveUp_ok : forall fuel l n i, (i <= fuel)%nat -> (1 <= i <= n)%nat -> (n < length l)%nat -> Forall num (held_l l n) ->
  (forall k, (2 <= k <= n)%nat -> k <> i -> le_ l (k / 2) k) ->
  (forall k, (2 <= k <= n)%nat -> (k / 2)%nat = i -> (2 <= i)%nat -> le_ l (i / 2) k) ->
  exists l', moveUp fuel l i = Ok l' /\ length l' = length l /\ is_heap l' n /\ Permutation (held_l l' n) (held_l l n) /\ g l' 0 = g l 0.
Proof.
  induction fuel as [|fuel IH]; intros l n i Hf Hi Hn Hnum H1 H2; [lia|]. cbn [moveUp].
  destruct (Nat.eqb_spec (i / 2) 0) as [E0|E0].
  { exists l. repeat split; auto. intros k Hk. apply H1; auto. intros ->. pose proof (half_lt i ltac:(lia)). lia. }
  assert (Hi2 : (2 <= i)%nat). { destruct (le_lt_dec 2 i); auto. assert (i = 1)%nat by lia. subst. cbn in E0. lia. }
  pose proof (half_lt i Hi2) as Hh. rewrite less_ok; [|lia|lia|eapply held_num; eauto; lia|eapply held_num; eauto; lia]. cbn [rbind].
  destruct (Z.ltb_spec (key (g l i)) (key (g l (i / 2)))) as [L|L].
  - destruct (swap_ok l i (i / 2)) as (l1 & E1 & L1 & G1); [lia|lia|]. rewrite E1. cbn [rbind].
    assert (P1 : Permutation (held_l l1 n) (held_l l n)) by (apply (held_tau l l1 n i (i / 2)); [lia|lia|exact G1]).
    destruct (IH l1 n (i / 2)%nat) as (l2 & E2 & L2 & W & P2 & Z2); [lia|lia|lia| | | |].
    + eapply Permutation_Forall; [symmetry; exact P1|auto].
    + intros k Hk Hne. unfold le_. rewrite !G1. unfold tau. pose proof (half_lt k ltac:(lia)).
      destruct (Nat.eqb_spec k i) as [->|]; [rewrite Nat.eqb_refl; destruct (Nat.eqb_spec (i / 2) i); lia|].
      destruct (Nat.eqb_spec k (i / 2)); [contradiction|].
      destruct (Nat.eqb_spec (k / 2) i) as [Ek|]; [specialize (H2 k ltac:(lia) Ek Hi2); unfold le_ in H2; lia|].
      destruct (Nat.eqb_spec (k / 2) (i / 2)) as [Ek|]; [|apply H1; auto; lia].
      specialize (H1 k ltac:(lia) ltac:(lia)). unfold le_ in H1. rewrite Ek in H1. lia.
    + intros k Hk Ek Hi4. unfold le_. rewrite !G1. unfold tau. pose proof (half_lt (i / 2) ltac:(lia)). pose proof (half_lt k ltac:(lia)).
      destruct (Nat.eqb_spec (i / 2 / 2) i); [lia|]. destruct (Nat.eqb_spec (i / 2 / 2) (i / 2)); [lia|].
      assert (B : le_ l (i / 2 / 2) (i / 2)) by (apply H1; lia). unfold le_ in B.
      destruct (Nat.eqb_spec k i) as [->|]; [lia|]. destruct (Nat.eqb_spec k (i / 2)); [lia|].
      specialize (H1 k ltac:(lia) ltac:(lia)). unfold le_ in H1. rewrite Ek in H1. lia.
    + exists l2. split; auto. split; [lia|]. split; auto. split; [eapply Permutation_trans; eauto|]. rewrite Z2, G1. unfold tau.
      destruct (Nat.eqb_spec 0 i); [lia|]. destruct (Nat.eqb_spec 0 (i / 2)); [lia|reflexivity].
  - exists l. repeat split; auto. intros k Hk. destruct (Nat.eq_dec k i) as [->|]; [exact L|auto].
Qed.
Lemma half_cases k i : (k / 2)%nat = i -> (k = 2 * i \/ k = 2 * i + 1)%nat.
Proof. intros <-. pose proof (Nat.div_mod k 2 ltac:(lia)). pose proof (Nat.mod_upper_bound k 2 ltac:(lia)). lia. Qed.
Lemma half_2 i : ((2 * i) / 2 = i /\ (2 * i + 1) / 2 = i)%nat.
Proof. split; [rewrite Nat.mul_comm; apply Nat.div_mul; lia|]. symmetry. apply Nat.div_unique with 1%nat; lia. Qed.
Lemma moveDown_ok : forall fuel l n i, (n < fuel + i)%nat -> (1 <= i <= n)%nat -> (n < length l)%nat -> Forall num (held_l l n) ->
  (forall k, (2 <= k <= n)%nat -> (k / 2)%nat <> i -> le_ l (k / 2) k) ->
  (forall k, (2 <= k <= n)%nat -> (k / 2)%nat = i -> (2 <= i)%nat -> le_ l (i / 2) k) ->
  exists l', moveDown fuel n l i = Ok l' /\ length l' = length l /\ is_heap l' n /\ Permutation (held_l l' n) (held_l l n).
Proof.
  induction fuel as [|fuel IH]; intros l n i Hf Hi Hn Hnum H1 H2; [lia|]. cbn [moveDown]. cbv zeta.
  destruct (half_2 i) as (Hl & Hr).
  destruct (Nat.ltb_spec n (2 * i)) as [Hlt|Hge].
  { exists l. repeat split; auto. intros k Hk. apply H1; auto. intros E. apply half_cases in E. lia. }
  assert (exists sc, (if (2 * i =? n)%nat then Ok (2 * i)%nat else do b <- less l (2 * i) (2 * i + 1); Ok (if b then (2 * i)%nat else (2 * i + 1)%nat)) = Ok sc /\
    (sc <= n)%nat /\ (sc / 2)%nat = i /\ (i < sc)%nat /\ forall k, (2 <= k <= n)%nat -> (k / 2)%nat = i -> le_ l sc k) as (sc & Esc & Hsc & Hs2 & Hsi & Hmin).
  { destruct (Nat.eqb_spec (2 * i) n) as [E|E].
    - exists (2 * i)%nat. split; auto. split; [lia|]. split; auto. split; [lia|]. intros k Hk Ek. apply half_cases in Ek. unfold le_. replace k with (2 * i)%nat by lia. lia.
    - rewrite less_ok; [|lia|lia|eapply held_num; eauto; lia|eapply held_num; eauto; lia]. cbn [rbind]. eexists. split; [reflexivity|].
      destruct (Z.ltb_spec (key (g l (2 * i))) (key (g l (2 * i + 1)))); (split; [lia|]; split; [auto|]; split; [lia|]);
        intros k Hk Ek; apply half_cases in Ek; unfold le_; destruct Ek as [-> | ->]; lia. }
  rewrite Esc. cbn [rbind]. rewrite less_ok; [|lia|lia|eapply held_num; eauto; lia|eapply held_num; eauto; lia]. cbn [rbind].
  destruct (Z.ltb_spec (key (g l sc)) (key (g l i))) as [L|L].
  - destruct (swap_ok l i sc) as (l1 & E1 & L1 & G1); [lia|lia|]. rewrite E1. cbn [rbind].
    assert (P1 : Permutation (held_l l1 n) (held_l l n)) by (apply (held_tau l l1 n i sc); [lia|lia|exact G1]).
    destruct (IH l1 n sc) as (l2 & E2 & L2 & W & P2); [lia|lia|lia| | | |].
    + eapply Permutation_Forall; [symmetry; exact P1|auto].
    + intros k Hk Hne. unfold le_. rewrite !G1. unfold tau. pose proof (half_lt k ltac:(lia)).
      destruct (Nat.eqb_spec (k / 2) i) as [Ek|Ek].
      * specialize (Hmin k ltac:(lia) Ek). unfold le_ in Hmin. destruct (Nat.eqb_spec k i); [lia|]. destruct (Nat.eqb_spec k sc); [lia|lia].
      * destruct (Nat.eqb_spec (k / 2) sc); [contradiction|].
        destruct (Nat.eqb_spec k i) as [->|]; [|destruct (Nat.eqb_spec k sc) as [->|]; [congruence|apply H1; auto; lia]].
        apply (H2 sc); [lia|auto|lia].
    + intros k Hk Ek _. unfold le_. rewrite !G1. unfold tau. pose proof (half_lt k ltac:(lia)). rewrite Hs2, Nat.eqb_refl.
      destruct (Nat.eqb_spec k i); [lia|]. destruct (Nat.eqb_spec k sc); [lia|]. specialize (H1 k ltac:(lia) ltac:(lia)). unfold le_ in H1. rewrite Ek in H1. lia.
    + exists l2. split; auto. split; [lia|]. split; auto. eapply Permutation_trans; eauto.
  - exists l. repeat split; auto. intros k Hk. destruct (Nat.eq_dec (k / 2) i) as [E|]; [|auto]. rewrite E. specialize (Hmin k Hk E). unfold le_ in *. lia.
Qed.
Definition wf (h : heap) : Prop := (hn h < length (items h))%nat /\ is_heap (items h) (hn h) /\ Forall num (held h).
Lemma g_app l x : g (l ++ [x]) (length l) = x.
Proof. unfold g. rewrite app_nth2 by lia. now rewrite Nat.sub_diag. Qed.
Lemma held_S l n : held_l l (S n) = held_l l n ++ [g l (S n)].
Proof. unfold held_l. rewrite seq_S, map_app. reflexivity. Qed.
Lemma push_ok h i j d : wf h -> is_nanb d = false -> exists h', push h i j d = Ok h' /\ wf h' /\ hn h' = S (hn h) /\ Permutation (held h') ({| jeti := i; jetj := j; dij := d |} :: held h).
Proof.
  intros (W1 & W2 & W3) Nd. unfold push. set (item := {| jeti := i; jetj := j; dij := d |}).
  assert (exists l, (if (length (items h) <=? S (hn h))%nat then Ok (items h ++ [item]) else upd_nth (items h) (S (hn h)) (fun _ => item)) = Ok l /\
    (S (hn h) < length l)%nat /\ g l (S (hn h)) = item /\ forall k, (k <= hn h)%nat -> g l k = g (items h) k) as (l & E & Ll & Gn & Gk).
  { destruct (Nat.leb_spec (length (items h)) (S (hn h))) as [H|H].
    - eexists. split; [reflexivity|]. assert (Ex : length (items h) = S (hn h)) by lia. rewrite app_length, Ex. cbn. split; [lia|]. split; [rewrite <- Ex; apply g_app|].
      intros k Hk. unfold g. apply app_nth1. lia.
    - destruct (upd_nth_ok (items h) (S (hn h)) (fun _ => item) H) as (l & E & L). destruct (g_upd _ _ _ _ E H) as (_ & G). exists l. split; auto. split; [lia|].
      split; [rewrite G, Nat.eqb_refl; reflexivity|]. intros k Hk. rewrite G. destruct (Nat.eqb_spec k (S (hn h))); [lia|reflexivity]. }
  rewrite E. cbn [rbind].
  assert (Hh : held_l l (hn h) = held h). { unfold held, held_l. apply map_ext_in. intros k Hk. apply in_seq in Hk. apply Gk. lia. }
  assert (Hs : held_l l (S (hn h)) = held h ++ [item]) by (rewrite held_S, Hh, Gn; reflexivity).
  destruct (moveUp_ok (S (hn h)) l (S (hn h)) (S (hn h))) as (l' & Em & Lm & Wm & Pm & _); [lia|lia|lia| | | |].
  - rewrite Hs. apply Forall_app. split; auto.
  - intros k Hk Hne. pose proof (half_lt k ltac:(lia)). unfold le_. rewrite !Gk by lia. apply W2. lia.
  - intros k Hk Ek _. pose proof (half_lt k ltac:(lia)). lia.
  - rewrite Em. cbn [rbind]. eexists. split; [reflexivity|]. cbn [hn items]. unfold held, wf. cbn [hn items]. rewrite Hs in Pm.
    assert (Pc : Permutation (held_l l' (S (hn h))) (item :: held h)) by (eapply Permutation_trans; [exact Pm|]; symmetry; apply Permutation_cons_append).
    split; [|split; auto]. split; [lia|]. split; auto. eapply Permutation_Forall; [symmetry; exact Pc|]. constructor; auto.
Qed.
Lemma heap_top l n : is_heap l n -> forall k, (1 <= k <= n)%nat -> le_ l 1 k.
Proof.
  intros H k. induction k as [k IH] using lt_wf_ind. intros Hk. destruct (Nat.eq_dec k 1) as [->|]; [unfold le_; lia|].
  pose proof (half_lt k ltac:(lia)). specialize (IH (k / 2)%nat ltac:(lia) ltac:(lia)). specialize (H k ltac:(lia)). unfold le_ in *. lia.
Qed.
Lemma pop_ok h : wf h -> hn h <> 0%nat -> exists h' it, pop h = Ok (h', (jeti it, jetj it, dij it)) /\ wf h' /\ hn h = S (hn h') /\ Permutation (held h) (it :: held h') /\
  Forall (fun x => flt (dij x) (dij it) = false) (held h).
Proof.
  intros (W1 & W2 & W3) Nz. unfold pop. destruct (hn h) as [|n] eqn:En; [congruence|]. rewrite at_ok by lia. cbn [rbind].
  assert (Min : Forall (fun x => flt (dij x) (dij (g (items h) 1)) = false) (held h)).
  { apply Forall_forall. intros x Hx. pose proof W3 as W4. rewrite Forall_forall in W3. assert (Nx := W3 _ Hx). unfold held, held_l in Hx. apply in_map_iff in Hx. destruct Hx as (k & <- & Hk). apply in_seq in Hk.
    rewrite flt_num; [|auto|unfold held in W4; eapply held_num; eauto; lia]. apply Z.ltb_ge. apply (heap_top _ _ W2). lia. }
  destruct (Nat.eqb_spec n 0) as [->|Hn0].
  - eexists _, (g (items h) 1). split; [reflexivity|]. unfold held at 2, wf. cbn [hn items]. split; [|split; [reflexivity|split; [|exact Min]]].
    + split; [lia|]. split; [intros k Hk; lia|]. constructor.
    + unfold held. rewrite En. cbn. reflexivity.
  - destruct (swap_ok (items h) 1 (S n)) as (l1 & E1 & L1 & G1); [lia|lia|]. rewrite E1. cbn [rbind].
    assert (Hp : Permutation (held_l l1 (S n)) (held h)) by (unfold held; rewrite En; apply (held_tau (items h) l1 (S n) 1 (S n)); [lia|lia|exact G1]).
    assert (Gs : g l1 (S n) = g (items h) 1). { rewrite G1. unfold tau. rewrite Nat.eqb_refl. destruct (Nat.eqb_spec (S n) 1); [lia|reflexivity]. }
    rewrite held_S, Gs in Hp.
    destruct (moveDown_ok n l1 n 1) as (l2 & E2 & L2 & W & P2); [lia|lia|lia| | | |].
    + apply (Permutation_Forall (Permutation_sym Hp)) in W3. apply Forall_app in W3. tauto.
    + intros k Hk Hne. unfold le_. rewrite !G1. pose proof (half_lt k ltac:(lia)). unfold tau.
      destruct (Nat.eqb_spec (k / 2) 1); [contradiction|]. destruct (Nat.eqb_spec (k / 2) (S n)); [lia|]. destruct (Nat.eqb_spec k 1); [lia|]. destruct (Nat.eqb_spec k (S n)); [lia|].
      apply W2. lia.
    + intros k Hk Ek H0. lia.
    + rewrite E2. cbn [rbind]. eexists _, (g (items h) 1). split; [reflexivity|]. unfold held at 2, wf. cbn [hn items].
      assert (Pf : Permutation (held h) (g (items h) 1 :: held_l l2 n)).
      { eapply Permutation_trans; [symmetry; exact Hp|]. eapply Permutation_trans; [symmetry; apply Permutation_cons_append|]. constructor. symmetry. exact P2. }
      split; [|split; [reflexivity|split; [exact Pf|exact Min]]]. split; [lia|]. split; auto.
      apply (Permutation_Forall Pf) in W3. inversion W3; auto.
Qed.

(* ---- histories ---- *)
Inductive op := OPush (i j : Z) (d : f64) | OPop.
(* what Pop answers, and what IsEmpty answers after the operation *)
Inductive ans := APushed (e : bool) | APopped (i j : Z) (d : f64) (e : bool).
Definition run1 (h : heap) (o : op) : res (heap * ans) :=
  match o with
  | OPush i j d => do h' <- push h i j d; Ok (h', APushed (isEmpty h'))
  | OPop => do r <- pop h; Ok (fst r, APopped (fst (fst (snd r))) (snd (fst (snd r))) (snd (snd r)) (isEmpty (fst r)))
  end.
Fixpoint run (h : heap) (os : list op) : res (heap * list ans) :=
  match os with [] => Ok (h, []) | o :: os' => do r <- run1 h o; do r' <- run (fst r) os'; Ok (fst r', snd r :: snd r') end.
(* the specification: a multiset *)
Inductive spec1 : list pair -> op -> ans -> list pair -> Prop :=
| spec_push m m' i j d e : Permutation m' ({| jeti := i; jetj := j; dij := d |} :: m) -> (e = true <-> m' = []) -> spec1 m (OPush i j d) (APushed e) m'
| spec_empty : spec1 [] OPop (APopped (-1) (-1) fzero true) []
| spec_pop m x m' e : Permutation m (x :: m') -> Forall (fun y => flt (dij y) (dij x) = false) m -> (e = true <-> m' = []) ->
    spec1 m OPop (APopped (jeti x) (jetj x) (dij x) e) m'.
Inductive specs : list pair -> list op -> list ans -> list pair -> Prop :=
| specs_nil m : specs m [] [] m
| specs_cons m o a m' os aa m'' : spec1 m o a m' -> specs m' os aa m'' -> specs m (o :: os) (a :: aa) m''.
Definition op_ok (o : op) : Prop := match o with OPush _ _ d => is_nanb d = false | OPop => True end.
Lemma empty_held h : isEmpty h = true <-> held h = [].
Proof. unfold isEmpty, held, held_l. destruct (hn h); cbn; split; congruence. Qed.
Lemma run1_ok h o : wf h -> op_ok o -> exists h' a, run1 h o = Ok (h', a) /\ wf h' /\ spec1 (held h) o a (held h').
Proof.
  intros W Ho. destruct o as [i j d|]; cbn [run1 op_ok] in *.
  - destruct (push_ok h i j d W Ho) as (h' & E & W' & _ & P). rewrite E. cbn [rbind]. eexists _, _. split; [reflexivity|]. split; auto. constructor; auto. apply empty_held.
  - destruct (Nat.eq_dec (hn h) 0) as [Z0|Nz].
    + unfold pop. rewrite Z0. cbn [rbind fst snd]. eexists _, _. split; [reflexivity|]. split; auto. unfold isEmpty. rewrite Z0. cbn.
      assert (Eh : held h = []) by (unfold held; rewrite Z0; reflexivity). rewrite Eh. constructor.
    + destruct (pop_ok h W Nz) as (h' & it & E & W' & _ & P & F). rewrite E. cbn [rbind fst snd]. eexists _, _. split; [reflexivity|]. split; auto. constructor; auto. apply empty_held.
Qed.
(* C30.  Any sequence of pushes of numbers and pops, from a new heap: the answers are those of a multiset from which Pop takes a smallest element. *)
Theorem C30_heap : forall os, Forall op_ok os -> exists h aa m, run new os = Ok (h, aa) /\ specs [] os aa m.
Proof.
  assert (H : forall os h, wf h -> Forall op_ok os -> exists h' aa, run h os = Ok (h', aa) /\ specs (held h) os aa (held h')).
  { induction os as [|o os IH]; intros h W F; [eexists _, _; split; [reflexivity|constructor]|]. inversion F; subst.
    destruct (run1_ok h o W) as (h1 & a & E & W1 & S1); auto. destruct (IH h1 W1) as (h2 & aa & E2 & S2); auto.
    cbn [run]. rewrite E. cbn [rbind fst snd]. rewrite E2. cbn [rbind fst snd]. eexists _, _. split; [reflexivity|]. econstructor; eauto. }
  intros os F. destruct (H os new) as (h' & aa & E & S'); auto.
  - split; [cbn; lia|]. split; [intros k Hk; cbn in Hk; lia|constructor].
  - exists h', aa, (held h'). auto.
Qed.
(* The distances of successive pops, without pushes in between, never decrease. *)
Theorem C30_sorted : forall ds n, Forall (fun t => is_nanb (snd t) = false) ds -> (n <= length ds)%nat ->
  exists h xs, run new (map (fun t => OPush (fst (fst t)) (snd (fst t)) (snd t)) ds ++ repeat OPop n) = Ok (h, repeat (APushed false) (length ds) ++ xs) /\
    exists ps rest, length ps = n /\ Permutation (ps ++ rest) ds /\
      map (fun t => (fst (fst t), snd (fst t), snd t)) ps = flat_map (fun a => match a with APopped i j d _ => [(i, j, d)] | _ => [] end) xs /\
      (forall a b c t u, ps = a ++ t :: b ++ u :: c -> flt (snd u) (snd t) = false) /\
      Forall (fun t => Forall (fun u => flt (snd u) (snd t) = false) rest) ps.
Proof.
  intros ds n F Hn.
  set (up := fun t : Z * Z * f64 => {| jeti := fst (fst t); jetj := snd (fst t); dij := snd t |}).
  assert (H1 : forall ds h, wf h -> Forall (fun t => is_nanb (snd t) = false) ds -> forall os,
    exists h', wf h' /\ Permutation (held h') (map up ds ++ held h) /\
      run h (map (fun t => OPush (fst (fst t)) (snd (fst t)) (snd t)) ds ++ os) = do r <- run h' os; Ok (fst r, repeat (APushed false) (length ds) ++ snd r)).
  { clear. induction ds as [|t ds IH]; intros h W F os.
    - exists h. split; auto. split; [reflexivity|]. cbn [map app repeat length]. destruct (run h os) as [(h', r)|]; reflexivity.
    - inversion F; subst. destruct (push_ok h (fst (fst t)) (snd (fst t)) (snd t) W) as (h1 & E & W1 & S1 & P1); auto.
      destruct (IH h1 W1 ltac:(auto) os) as (h2 & W2 & P2 & E2). exists h2. split; auto. split.
      + eapply Permutation_trans; [exact P2|]. cbn [map app]. eapply Permutation_trans; [apply Permutation_app_head; exact P1|]. symmetry. apply Permutation_middle.
      + cbn [map app run run1]. rewrite E. cbn [rbind fst snd]. rewrite E2. destruct (run h2 os) as [(h', r)|]; [|reflexivity]. cbn [rbind fst snd]. unfold isEmpty. rewrite S1. reflexivity. }
  assert (H2 : forall n h, wf h -> (n <= hn h)%nat -> exists h' xs ps, wf h' /\ run h (repeat OPop n) = Ok (h', xs) /\ length ps = n /\ Permutation (ps ++ held h') (held h) /\
    map (fun p => (jeti p, jetj p, dij p)) ps = flat_map (fun a => match a with APopped i j d _ => [(i, j, d)] | _ => [] end) xs /\
    (forall a b c t u, ps = a ++ t :: b ++ u :: c -> flt (dij u) (dij t) = false) /\ Forall (fun t => Forall (fun u => flt (dij u) (dij t) = false) (held h')) ps).
  { clear. induction n as [|n IH]; intros h W Hn.
    - exists h, [], []. split; auto. split; [reflexivity|]. split; [reflexivity|]. split; [reflexivity|]. split; [reflexivity|]. split; [|constructor]. intros a b c t u E. destruct a; discriminate.
    - destruct (pop_ok h W ltac:(lia)) as (h1 & it & E & W1 & S1 & P1 & M1). destruct (IH h1 W1 ltac:(lia)) as (h2 & xs & ps & W2 & E2 & L2 & P2 & Mp & Ord & Rest).
      eexists h2, _, (it :: ps). split; auto. cbn [repeat run run1]. rewrite E. cbn [rbind fst snd]. rewrite E2. cbn [rbind fst snd]. split; [reflexivity|].
      assert (Pa : Permutation (it :: ps ++ held h2) (held h)) by (eapply Permutation_trans; [constructor; exact P2|symmetry; exact P1]).
      split; [cbn; lia|]. split; [exact Pa|]. split; [cbn; now rewrite Mp|].
      assert (M2 : Forall (fun x => flt (dij x) (dij it) = false) (it :: ps ++ held h2)) by (eapply Permutation_Forall; [symmetry; exact Pa|exact M1]).
      inversion M2 as [|? ? _ M3]; subst. apply Forall_app in M3. destruct M3 as (M3 & M4). split.
      + intros a b c t u Eq. destruct a as [|x a]; cbn [app] in Eq.
        * injection Eq as -> ->. rewrite Forall_forall in M3. apply M3. apply in_or_app. right. left. reflexivity.
        * injection Eq as -> ->. eapply Ord. reflexivity.
      + constructor; auto. }
  assert (W0 : wf new) by (split; [cbn; lia|]; split; [intros k Hk; cbn in Hk; lia|constructor]).
  destruct (H1 ds new W0 F (repeat OPop n)) as (h1 & W1 & P1 & E1).
  cbn in P1. rewrite app_nil_r in P1.
  assert (Hh1 : hn h1 = length ds). { apply Permutation_length in P1. unfold held, held_l in P1. rewrite !map_length, seq_length in P1. exact P1. }
  destruct (H2 n h1 W1 ltac:(lia)) as (h2 & xs & ps & W2 & E2 & L2 & P2 & Mp & Ord & Rest).
  set (dn := fun p : pair => (jeti p, jetj p, dij p)). rewrite E1, E2. cbn [rbind fst snd]. exists h2, xs. split; auto. exists (map dn ps), (map dn (held h2)).
  assert (Du : forall t, dn (up t) = t) by (intros ((a, b), c); reflexivity).
  split; [rewrite map_length; auto|]. split.
  { rewrite <- map_app. eapply Permutation_trans; [apply Permutation_map; exact P2|]. eapply Permutation_trans; [apply Permutation_map; exact P1|]. rewrite map_map. rewrite (map_ext _ (fun t => t) Du), map_id. reflexivity. }
  split; [rewrite <- Mp, map_map; apply map_ext; intros p; reflexivity|]. split.
  - intros a b c t u Eq.
    assert (Dn : forall l a (t : Z * Z * f64) b, map dn l = a ++ t :: b -> exists l1 x l2, l = l1 ++ x :: l2 /\ map dn l1 = a /\ dn x = t /\ map dn l2 = b).
    { clear. induction l as [|y l IH]; intros a t b E; [destruct a; discriminate|]. destruct a as [|z a]; cbn in E.
      - injection E as E1 E2. exists [], y, l. auto.
      - injection E as E1 E2. destruct (IH a t b E2) as (l1 & x & l2 & -> & <- & A & B). exists (y :: l1), x, l2. cbn. subst. auto. }
    destruct (Dn _ _ _ _ Eq) as (l1 & x & l2 & -> & _ & <- & Eb). destruct (Dn _ _ _ _ Eb) as (l3 & y & l4 & -> & _ & <- & _). cbn. eapply Ord. reflexivity.
  - rewrite Forall_map. eapply Forall_impl; [|exact Rest]. intros p Hp. rewrite Forall_map. exact Hp.
Qed.
(* a history with ties, pushes between pops and a pop of the empty heap *)
Example C30_example : exists h m,
  run new [OPush 1 2 f3; OPush 3 4 f1; OPush 5 6 f2; OPop; OPush 7 8 f1; OPop; OPop; OPop; OPop] =
    Ok (h, [APushed false; APushed false; APushed false; APopped 3 4 f1 false; APushed false; APopped 7 8 f1 false; APopped 5 6 f2 false; APopped 1 2 f3 true; APopped (-1) (-1) fzero true]) /\
  specs [] [OPush 1 2 f3; OPush 3 4 f1; OPush 5 6 f2; OPop; OPush 7 8 f1; OPop; OPop; OPop; OPop]
    [APushed false; APushed false; APushed false; APopped 3 4 f1 false; APushed false; APopped 7 8 f1 false; APopped 5 6 f2 false; APopped 1 2 f3 true; APopped (-1) (-1) fzero true] m.
Proof.
  destruct (C30_heap [OPush 1 2 f3; OPush 3 4 f1; OPush 5 6 f2; OPop; OPush 7 8 f1; OPop; OPop; OPop; OPop]) as (h & aa & m & E & S').
  { repeat constructor. }
  exists h, m. assert (aa = [APushed false; APushed false; APushed false; APopped 3 4 f1 false; APushed false; APopped 7 8 f1 false; APopped 5 6 f2 false; APopped 1 2 f3 true; APopped (-1) (-1) fzero true]).
  { vm_compute in E. injection E as _ <-. reflexivity. }
  subst aa. auto.
Qed.
(* With a NaN inside, a pop can return an element larger than another one. *)
Theorem C30_nan_refuted : exists os h aa, run new os = Ok (h, aa) /\ exists i j d i' j' d' e, last aa (APushed true) = APopped i j d e /\
  In (OPush i' j' d') os /\ flt d' d = true /\ (forall i d e, ~ In (APopped i j' d e) aa) /\ is_nanb d = false /\ is_nanb d' = false.
Proof.
  exists [OPush 1 1 f2; OPush 2 2 fnan; OPush 3 3 f3; OPush 4 4 f1; OPop]. eexists _, _. split; [vm_compute; reflexivity|].
  exists 1, 1, f2, 4, 4, f1, false. split; [vm_compute; reflexivity|]. split; [cbn; auto|]. split; [vm_compute; reflexivity|]. split; [|split; reflexivity].
  intros i d e H. cbn in H. repeat destruct H as [H|H]; try discriminate; contradiction.
Qed.

Print Assumptions C30_heap.
Print Assumptions C30_sorted.
Print Assumptions C30_nan_refuted.
