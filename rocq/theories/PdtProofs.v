(* Proofs about particle data tables *)
From Coq Require Import ZArith List Lia Bool Permutation.
From Flocq Require Import IEEE754.BinarySingleNaN.
From Verif Require Import Bytes GoLib GoStrings F64 F64Arith FloatText PidModel YodaModel YodaProofs PdtModel.
Import ListNotations.
Local Open Scope Z_scope.

(* ---- blanks ---- *)
Definition blank1 (c : Z) : Prop := ws c = true.
Definition blanks (s : str) : Prop := Forall blank1 s.
Definition word (t : str) : Prop := t <> [] /\ Forall (fun c => ws c = false) t.
Lemma dropws_app p s : blanks p -> dropws (p ++ s) = dropws s.
Proof. induction 1 as [|c p H F IH]; [reflexivity|]. cbn [app dropws]. rewrite H. exact IH. Qed.
Lemma dropws_all p : blanks p -> dropws p = [].
Proof. intros B. rewrite <- (app_nil_r p), dropws_app by exact B. reflexivity. Qed.
Lemma dropws_snoc s c : dropws (s ++ [c]) = if forallb ws s then dropws [c] else dropws s ++ [c].
Proof. induction s as [|a s IH]; [reflexivity|]. cbn [app dropws forallb]. destruct (ws a); [exact IH|reflexivity]. Qed.
Lemma dropws_forall s : forallb ws s = true -> dropws s = [].
Proof. intros H. apply dropws_all. apply Forall_forall. intros c I. exact (proj1 (forallb_forall ws s) H c I). Qed.
Lemma trim_snoc s c : ws c = true -> trim (s ++ [c]) = trim s.
Proof.
  intros W. unfold trim. rewrite dropws_snoc. destruct (forallb ws s) eqn:E.
  - rewrite (dropws_forall s E). cbn [dropws]. rewrite W. reflexivity.
  - rewrite rev_app_distr. cbn [rev app dropws]. rewrite W. reflexivity.
Qed.
Lemma trim_cons s c : ws c = true -> trim (c :: s) = trim s.
Proof. intros W. unfold trim. cbn [dropws]. rewrite W. reflexivity. Qed.
Lemma trim_word t : word t -> trim t = t.
Proof.
  intros [N F]. assert (D : forall u, u <> [] -> Forall (fun c => ws c = false) u -> dropws u = u) by (intros u NU FU; destruct FU as [|c u H FU]; [contradiction|]; cbn [dropws]; rewrite H; reflexivity).
  unfold trim. rewrite (D t N F). rewrite D, rev_involutive; [reflexivity| |apply Forall_rev; exact F]. intros E. apply N. rewrite <- (rev_involutive t), E. reflexivity.
Qed.
(* ---- tokens ---- *)
Lemma split_mid a b : split 32 (a ++ 32 :: b) = split 32 a ++ split 32 b.
Proof.
  induction a as [|c a IH]; [reflexivity|]. cbn [app split]. rewrite IH. destruct (c =? 32); [reflexivity|]. pose proof (split_nonempty 32 a). destruct (split 32 a); [contradiction|reflexivity].
Qed.
Lemma tokens_mid a b : tokens (a ++ 32 :: b) = tokens a ++ tokens b.
Proof. unfold tokens. rewrite split_mid, map_app, filter_app. reflexivity. Qed.
Lemma tokens_cons c s : ws c = true -> tokens (c :: s) = tokens s.
Proof.
  intros W. destruct (Z.eqb_spec c 32) as [->|N]; [exact (tokens_mid [] s)|]. unfold tokens. cbn [split]. destruct (Z.eqb_spec c 32); [contradiction|]. pose proof (split_nonempty 32 s). destruct (split 32 s) as [|h t]; [contradiction|]. cbn [map]. rewrite (trim_cons h c W). reflexivity.
Qed.
Lemma tokens_nosp s : ~ In 32 s -> tokens s = match trim s with [] => [] | _ => [trim s] end.
Proof. intros N. unfold tokens. rewrite split_nosep by exact N. cbn. destruct (trim s); reflexivity. Qed.
Lemma tokens_snoc c : ws c = true -> forall n s, (List.length s <= n)%nat -> tokens (s ++ [c]) = tokens s.
Proof.
  intros W. destruct (Z.eqb_spec c 32) as [->|N]; [intros n s _; change [32] with (32 :: @nil Z); rewrite tokens_mid; apply app_nil_r|].
  induction n as [|n IH]; intros s L; [destruct s; [|cbn in L; lia]; exact (tokens_cons c [] W)|]. destruct (in_dec Z.eq_dec 32 s) as [I|I].
  - apply in_split in I as (a & b & ->). rewrite <- app_assoc. cbn [app]. rewrite !tokens_mid, IH; [reflexivity|]. rewrite app_length in L. cbn in L. lia.
  - rewrite !tokens_nosp; [rewrite trim_snoc by exact W; reflexivity|exact I|]. intros J. apply in_app_or in J as [J|[J|[]]]; [contradiction|]. subst. contradiction.
Qed.
Lemma tokens_pre p s : blanks p -> tokens (p ++ s) = tokens s.
Proof. induction 1 as [|c p H F IH]; [reflexivity|]. cbn [app]. rewrite tokens_cons by exact H. exact IH. Qed.
Lemma tokens_post s p : blanks p -> tokens (s ++ p) = tokens s.
Proof.
  induction p as [|c p IH] using rev_ind; intros B; [rewrite app_nil_r; reflexivity|]. apply Forall_app in B as [B C]. rewrite app_assoc, (tokens_snoc c) with (n := List.length (s ++ p)); [exact (IH B)|inversion C; assumption|lia].
Qed.
Lemma tokens_trim s : tokens (trim s) = tokens s.
Proof.
  assert (D : forall u, tokens (dropws u) = tokens u) by (induction u as [|c u IH]; [reflexivity|]; cbn [dropws]; destruct (ws c) eqn:E; [rewrite tokens_cons by exact E; exact IH|reflexivity]).
  unfold trim. rewrite <- (D s). set (u := dropws s). rewrite <- (rev_involutive u) at 2. generalize (rev u). clear. intros v. induction v as [|c v IH]; [reflexivity|]. cbn [dropws]. destruct (ws c) eqn:E; [|reflexivity]. rewrite IH. cbn [rev]. symmetry. apply (tokens_snoc c E (List.length (rev v))). lia.
Qed.
Lemma tokens_word t : word t -> tokens t = [t].
Proof.
  intros W. rewrite tokens_nosp; [rewrite (trim_word t W); destruct W as [N _]; destruct t; [contradiction|reflexivity]|]. destruct W as [_ F]. rewrite Forall_forall in F. intros I. specialize (F 32 I). discriminate.
Qed.
(* words with blanks between them, among which there is a space *)
Definition gap (g : str) : Prop := blanks g /\ In 32 g.
Inductive laid : list str -> str -> Prop :=
  | laid1 t p : word t -> blanks p -> laid [t] (t ++ p)
  | laidS t g ts s : word t -> gap g -> laid ts s -> laid (t :: ts) (t ++ g ++ s).
Lemma tokens_laid ts s : laid ts s -> tokens s = ts.
Proof.
  induction 1 as [t p W B|t g ts s W [B I] L IH]; [rewrite tokens_post by exact B; apply tokens_word; exact W|].
  apply in_split in I as (a & b & ->). apply Forall_app in B as [B1 B2]. pose proof (Forall_inv_tail B2) as B3. rewrite <- app_assoc. cbn [app]. rewrite app_assoc, tokens_mid, tokens_post, tokens_pre, IH by assumption. rewrite tokens_word by exact W. reflexivity.
Qed.
Lemma laid_head ts s : laid ts s -> exists t r c u, ts = t :: r /\ word t /\ t = c :: u /\ exists v, s = c :: v.
Proof.
  intros L. assert (G : forall t, word t -> exists c u, t = c :: u) by (intros t [N _]; destruct t as [|c u]; [contradiction|]; exists c, u; reflexivity).
  destruct L as [t p W B|t g ts s W G' L]; destruct (G t W) as (c & u & E); exists t; [exists []|exists ts]; exists c, u; (split; [reflexivity|]; split; [exact W|]; split; [exact E|]; rewrite E; eexists; reflexivity).
Qed.
Lemma rtrim_keep c v : ws c = false -> exists r, rev (dropws (rev (c :: v))) = c :: r /\ forall d v', v = d :: v' -> ws d = false -> exists r', r = d :: r'.
Proof.
  intros W. cbn [rev]. assert (G : forall v, exists r, rev (dropws (rev v ++ [c])) = c :: r).
  { intros u. rewrite dropws_snoc. destruct (forallb ws (rev u)); [cbn [dropws]; rewrite W; exists []; reflexivity|]. rewrite rev_app_distr. eexists. reflexivity. }
  destruct (G v) as [r E]. exists r. split; [exact E|]. intros d v' -> WD. cbn [rev] in E. rewrite dropws_snoc in E.
  assert (X : forallb ws (rev v' ++ [d]) = false). { destruct (forallb ws (rev v' ++ [d])) eqn:F; [|reflexivity]. rewrite forallb_app in F. cbn [forallb] in F. rewrite WD in F. cbn [andb] in F. rewrite andb_false_r in F. discriminate. }
  rewrite X, dropws_snoc, rev_app_distr in E. cbn [rev app] in E. injection E as E. subst r. destruct (forallb ws (rev v')); [cbn [dropws]; rewrite WD; exists []; reflexivity|]. rewrite rev_app_distr. eexists. reflexivity.
Qed.
Lemma trim_head p c v : blanks p -> ws c = false -> exists r, trim (p ++ c :: v) = c :: r /\ forall d v', v = d :: v' -> ws d = false -> exists r', r = d :: r'.
Proof. intros B W. unfold trim. rewrite dropws_app by exact B. cbn [dropws]. rewrite W. exact (rtrim_keep c v W). Qed.
(* ---- lines ---- *)
(* a blank line or a comment *)
Definition comment (l : str) : Prop := blanks l \/ exists p v, blanks p /\ (l = p ++ 35 :: v \/ l = p ++ 47 :: 47 :: v).
Lemma comment_skipped l : comment l -> skipped (trim l) = true.
Proof.
  intros [B|(p & v & B & [->| ->])].
  - unfold trim. rewrite (dropws_all l B). reflexivity.
  - destruct (trim_head p 35 v B eq_refl) as (r & -> & _). reflexivity.
  - destruct (trim_head p 47 (47 :: v) B eq_refl) as (r & -> & H). destruct (H 47 v eq_refl eq_refl) as [r' ->]. reflexivity.
Qed.
Lemma dec_none l : fold_left dec_step l None = None.
Proof. induction l as [|c l IH]; [reflexivity|]. exact IH. Qed.
Lemma atoi_head c u i : atoi (c :: u) = Some i -> c <> 35 /\ c <> 47.
Proof. intros H. split; intros ->; unfold atoi, parse_udec in H; cbn [fold_left dec_step is_digit] in H; rewrite dec_none in H; discriminate. Qed.
Lemma rowOf_head ts p : rowOf ts = Some p -> exists t r i, ts = t :: r /\ atoi t = Some i.
Proof. destruct ts as [|a [|b [|c [|d [|e [|f [|g ts]]]]]]]; try discriminate. cbn [rowOf]. destruct (atoi a) as [i|] eqn:E; [|discriminate]. intros _. exists a, [b; c; d; e; f], i. auto. Qed.
(* a line of words *)
Definition rowLine (ts : list str) (l : str) : Prop := exists p s, blanks p /\ laid ts s /\ l = p ++ s.
Lemma row_tokens ts l : rowLine ts l -> tokens (trim l) = ts.
Proof. intros (p & s & B & L & ->). rewrite tokens_trim, tokens_pre by exact B. apply tokens_laid. exact L. Qed.
Lemma row_kept ts l p : rowLine ts l -> rowOf ts = Some p -> skipped (trim l) = false.
Proof.
  intros (b & s & B & L & ->) R. destruct (rowOf_head ts p R) as (t & r & i & ET & EA). destruct (laid_head ts s L) as (t' & r' & c & u & ET' & W & EC & v & ->). rewrite ET in ET'. injection ET' as <- <-. rewrite EC in EA, W. destruct (atoi_head c u i EA) as [N1 N2].
  destruct W as [_ W]. inversion W as [|? ? WC _]; subst. destruct (trim_head b c v B WC) as (x & -> & _). unfold skipped. destruct (Z.eqb_spec c 35); [contradiction|]. destruct (Z.eqb_spec c 47); [contradiction|]. reflexivity.
Qed.
(* what a line is: passed over, or a particle *)
Definition lineIs (l : str) (o : option particle) : Prop := match o with None => comment l | Some p => exists ts, rowLine ts l /\ rowOf ts = Some p end.
Definition kept (os : list (option particle)) : list particle := flat_map (fun o => match o with Some p => [p] | None => [] end) os.
Definition tableOf (ps : list particle) (t : table) : table := mktable (rev (map (fun p => (p_id p, p)) ps) ++ t_pdt t) (rev (map (fun p => (p_name p, p_id p)) ps) ++ t_pid t).
Lemma parse_app ls ls' os : Forall2 lineIs ls os -> forall t, parseLines (ls ++ ls') t = parseLines ls' (tableOf (kept os) t).
Proof.
  induction 1 as [|l o ls os H F IH]; intros t; [destruct t; reflexivity|]. cbn [app parseLines]. destruct o as [p|]; cbn [lineIs] in H.
  - destruct H as (ts & R & E). rewrite (row_kept ts l p R E), (row_tokens ts l R), E, IH. f_equal. unfold tableOf. cbn [kept flat_map app map rev t_pdt t_pid]. fold (kept os). rewrite <- !app_assoc. reflexivity.
  - rewrite (comment_skipped l H), IH. reflexivity.
Qed.
Definition short (l : str) : Prop := Z.of_nat (List.length l) < 65536.
Lemma scanned_app a b : Forall short a -> scanned (a ++ b) = a ++ scanned b.
Proof. induction 1 as [|l a H F IH]; [reflexivity|]. cbn [app scanned]. unfold short in H. destruct (Z.ltb_spec (Z.of_nat (List.length l)) 65536); [|lia]. rewrite IH. reflexivity. Qed.
Lemma dropCR_plain ls : Forall plain ls -> map dropCR ls = ls.
Proof. induction 1 as [|l ls [_ N] F IH]; [reflexivity|]. cbn [map]. rewrite IH. unfold dropCR. destruct (Z.eqb_spec (last l 0) 13); [contradiction|reflexivity]. Qed.
Lemma split_lines ls r : Forall plain ls -> split 10 (flat_map nl ls ++ r) = ls ++ split 10 r.
Proof. induction 1 as [|l ls [N _] F IH]; [reflexivity|]. cbn [flat_map app]. unfold nl at 1. rewrite <- !app_assoc. cbn [app]. rewrite split_cons by exact N. rewrite IH. reflexivity. Qed.
Lemma rawlines_more ls r : r <> [] -> rawlines (ls ++ r) = ls ++ rawlines r.
Proof. intros N. induction ls as [|l ls IH]; [reflexivity|]. cbn [app rawlines]. rewrite IH. destruct l; [|reflexivity]. destruct (ls ++ r) eqn:E; [|reflexivity]. apply app_eq_nil in E as [_ E]. contradiction. Qed.
Lemma new_app ls os r : Forall plain ls -> Forall short ls -> Forall2 lineIs ls os ->
  newTable (flat_map nl ls ++ r) = parseLines (map dropCR (scanned (rawlines (split 10 r)))) (tableOf (kept os) (mktable [] [])).
Proof.
  intros P S F. unfold newTable. rewrite split_lines, rawlines_more, scanned_app, map_app, dropCR_plain by (assumption || apply split_nonempty). apply parse_app. exact F.
Qed.
(* ---- what is found ---- *)
Lemma find_rev {A} (f : A -> bool) l x : find f (rev l) = Some x <-> exists a b, l = a ++ x :: b /\ f x = true /\ forall y, In y b -> f y = false.
Proof.
  split.
  - induction l as [|y l IH] using rev_ind; [discriminate|]. rewrite rev_app_distr. cbn [rev app find]. destruct (f y) eqn:E.
    + intros H. injection H as <-. exists l, []. split; [reflexivity|]. split; [exact E|]. intros ? [].
    + intros H. destruct (IH H) as (a & b & -> & FX & N). exists a, (b ++ [y]). split; [rewrite <- app_assoc; reflexivity|]. split; [exact FX|]. intros z I. apply in_app_or in I as [I|[<-|[]]]; auto.
  - intros (a & b & -> & FX & N). rewrite rev_app_distr. cbn [rev]. rewrite <- app_assoc. cbn [app].
    assert (G : forall u v, (forall y, In y u -> f y = false) -> find f (u ++ v) = find f v) by (induction u as [|y u IHu]; intros v H; [reflexivity|]; cbn [app find]; rewrite (H y (or_introl eq_refl)); apply IHu; intros; apply H; right; assumption).
    rewrite G by (intros y I; apply N; apply in_rev; exact I). cbn [find]. rewrite FX. reflexivity.
Qed.
Lemma byID_last ps i p : byID (tableOf ps (mktable [] [])) i = Some p <-> exists a b, ps = a ++ p :: b /\ p_id p = i /\ forall q, In q b -> p_id q <> i.
Proof.
  unfold byID, tableOf. cbn [t_pdt t_pid]. rewrite app_nil_r, <- map_rev. 
  assert (E : match find (fun x => fst x =? i) (map (fun p => (p_id p, p)) (rev ps)) with Some x => Some (snd x) | None => None end = find (fun q => p_id q =? i) (rev ps)) by (induction (rev ps) as [|q l IH]; [reflexivity|]; cbn [map find fst]; destruct (p_id q =? i); [reflexivity|exact IH]).
  rewrite E, find_rev. split; intros (a & b & -> & H1 & H2); exists a, b; (split; [reflexivity|]).
  - split; [apply Z.eqb_eq; exact H1|]. intros q I. apply Z.eqb_neq. exact (H2 q I).
  - split; [apply Z.eqb_eq; exact H1|]. intros q I. apply Z.eqb_neq. exact (H2 q I).
Qed.
Lemma byID_none ps i : byID (tableOf ps (mktable [] [])) i = None <-> forall q, In q ps -> p_id q <> i.
Proof.
  unfold byID, tableOf. cbn [t_pdt t_pid]. rewrite app_nil_r, <- map_rev. split.
  - intros H q I E. apply in_rev in I. induction (rev ps) as [|x l IH]; [contradiction|]. cbn [map find fst] in H. destruct (Z.eqb_spec (p_id x) i); [discriminate|]. destruct I as [->|I]; [contradiction|]. exact (IH H I).
  - intros H. assert (H' : forall q, In q (rev ps) -> p_id q <> i) by (intros q I; apply H; apply in_rev; exact I). induction (rev ps) as [|x l IH]; [reflexivity|]. cbn [map find fst]. destruct (Z.eqb_spec (p_id x) i) as [E|_]; [destruct (H' x (or_introl eq_refl) E)|]. apply IH. intros q I. apply H'. right. exact I.
Qed.
Lemma byName_last ps n p : byName (tableOf ps (mktable [] [])) n = Some p <-> exists a q b, ps = a ++ q :: b /\ p_name q = n /\ (forall r, In r b -> p_name r <> n) /\ byID (tableOf ps (mktable [] [])) (p_id q) = Some p.
Proof.
  unfold byName. assert (E : find (fun x => str_eqb (fst x) n) (t_pid (tableOf ps (mktable [] []))) = option_map (fun q => (p_name q, p_id q)) (find (fun q => str_eqb (p_name q) n) (rev ps))).
  { unfold tableOf. cbn [t_pid]. rewrite app_nil_r, <- map_rev. induction (rev ps) as [|q l IH]; [reflexivity|]. cbn [map find fst]. destruct (str_eqb (p_name q) n); [reflexivity|exact IH]. }
  rewrite E. split.
  - destruct (find _ (rev ps)) as [q|] eqn:F; [|discriminate]. cbn [option_map snd]. intros H. apply find_rev in F as (a & b & EP & H1 & H2). exists a, q, b. split; [exact EP|]. split; [destruct (str_eqb_spec (p_name q) n); [assumption|discriminate]|]. split; [|exact H].
    intros r I. specialize (H2 r I). destruct (str_eqb_spec (p_name r) n); [discriminate|assumption].
  - intros (a & q & b & EP & H1 & H2 & H). assert (F : find (fun q => str_eqb (p_name q) n) (rev ps) = Some q).
    { apply find_rev. exists a, b. split; [exact EP|]. split; [rewrite H1; apply str_eqb_refl|]. intros r I. destruct (str_eqb_spec (p_name r) n); [destruct (H2 r I); assumption|reflexivity]. }
    rewrite F. exact H.
Qed.
Lemma len_ids ps : len (tableOf ps (mktable [] [])) = List.length (nodup Z.eq_dec (map p_id ps)).
Proof.
  unfold len, tableOf. cbn [t_pdt]. rewrite app_nil_r, map_rev, map_map. cbn [fst]. apply Permutation_length. apply NoDup_Permutation; [apply NoDup_nodup|apply NoDup_nodup|]. intros i. rewrite !nodup_In. rewrite <- in_rev. reflexivity.
Qed.
