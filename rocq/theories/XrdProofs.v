(* Round trip lemmas for the codecs of XrdModel. *)
From Coq Require Import ZArith List Lia Bool.
From Verif Require Import Bytes GoLib GoStrings XrdModel.
Import ListNotations.
Local Open Scope Z_scope.

Definition reads {A} (f : rd A) (bs : list Z) (v : A) : Prop := forall rest, f (bs ++ rest) = Ok (Some (v, rest)).
Lemma reads_ret {A} (v : A) : reads (ret v) [] v.
Proof. intros rest. reflexivity. Qed.
Lemma reads_bind {A B} (f : rd A) (g : A -> rd B) a b v w : reads f a v -> reads (g v) b w -> reads (bind f g) (a ++ b) w.
Proof. intros F G rest. unfold bind. rewrite <- app_assoc, F. apply G. Qed.
Lemma reads_last {A B} (f : rd A) (g : A -> rd B) a v w : reads f a v -> reads (g v) [] w -> reads (bind f g) a w.
Proof. intros F G. rewrite <- (app_nil_r a). eapply reads_bind; eauto. Qed.
Lemma reads_bytes n s : n = zlen s -> reads (rbytes n) s s.
Proof.
  intros -> rest. unfold rbytes. rewrite zlen_app. pose proof (zlen_nonneg s). pose proof (zlen_nonneg rest).
  replace ((zlen s <? 0) || (zlen s + zlen rest <? zlen s)) with false by lia.
  unfold zlen at 1 2. rewrite Nat2Z.id. rewrite firstn_app_exact, skipn_app_exact by reflexivity. reflexivity.
Qed.
Lemma reads_u8 v : inU 8 v -> reads ru8 (wu8 v) v.
Proof.
  intros H. eapply reads_last; [apply reads_bytes; unfold wu8; rewrite zlen_be; reflexivity|].
  unfold wu8. rewrite unbe_be_U by exact H. apply reads_ret.
Qed.
Lemma reads_u16 v : inU 16 v -> reads ru16 (wu16 v) v.
Proof.
  intros H. eapply reads_last; [apply reads_bytes; unfold wu16; rewrite zlen_be; reflexivity|].
  unfold wu16. rewrite unbe_be_U by exact H. apply reads_ret.
Qed.
Lemma reads_i32 v : inS 32 v -> reads ri32 (wi32 v) v.
Proof.
  intros H. eapply reads_last; [apply reads_bytes; unfold wi32; rewrite zlen_be; reflexivity|].
  unfold wi32. rewrite unbe_be. replace (256 ^ Z.of_nat 4) with (2 ^ 32) by reflexivity.
  rewrite wrapS_mod, wrapS_id by (try lia; exact H). apply reads_ret.
Qed.
Lemma reads_i64 v : inS 64 v -> reads ri64 (wi64 v) v.
Proof.
  intros H. eapply reads_last; [apply reads_bytes; unfold wi64; rewrite zlen_be; reflexivity|].
  unfold wi64. rewrite unbe_be. replace (256 ^ Z.of_nat 8) with (2 ^ 64) by reflexivity.
  rewrite wrapS_mod, wrapS_id by (try lia; exact H). apply reads_ret.
Qed.
Lemma inS32_len {A} (s : list A) : zlen s < 2 ^ 31 -> inS 32 (zlen s).
Proof. pose proof (zlen_nonneg s). unfold inS. lia. Qed.
Lemma wlen_id n : inS 32 n -> wlen n = wi32 n.
Proof. intros H. unfold wlen. rewrite wrapS_id by (try lia; exact H). reflexivity. Qed.
Lemma reads_str s : zlen s < 2 ^ 31 -> reads rstr (wstr s) s.
Proof.
  intros H. unfold wstr. rewrite wlen_id by (apply inS32_len; exact H). eapply reads_bind; [apply reads_i32, inS32_len; exact H|].
  apply reads_bytes. reflexivity.
Qed.
Lemma reads_next n k : n = Z.of_nat k -> reads (skip n) (next k) tt.
Proof. intros -> rest. unfold skip. rewrite Nat2Z.id, skipn_app_exact by (unfold next; rewrite repeat_length; reflexivity). reflexivity. Qed.
Lemma reads_many {A} (f : rd A) (w : A -> list Z) (l : list A) : (forall x, In x l -> reads f (w x) x) -> reads (rmany (length l) f) (concat (map w l)) l.
Proof.
  induction l as [|x l IH]; intros H; cbn [length rmany map concat]; [apply reads_ret|].
  eapply reads_bind; [apply H; left; reflexivity|]. eapply reads_last; [apply IH; intros y Y; apply H; right; exact Y|]. apply reads_ret.
Qed.
Lemma reads_eq {A} (f : rd A) a b v : reads f a v -> a = b -> reads f b v.
Proof. intros H <-. exact H. Qed.

(* exact length: the reading needs all the bytes *)
Definition reads0 {A} (f : rd A) (bs : list Z) (v : A) : Prop := f bs = Ok (Some (v, [])).
Lemma reads_0 {A} (f : rd A) bs v : reads f bs v -> reads0 f bs v.
Proof. intros H. unfold reads0. rewrite <- (app_nil_r bs). apply H. Qed.
Lemma reads0_bind {A B} (f : rd A) (g : A -> rd B) a b v w : reads f a v -> reads0 (g v) b w -> reads0 (bind f g) (a ++ b) w.
Proof. intros F G. unfold reads0, bind. rewrite F. apply G. Qed.

(* the textual stat information *)
Lemma word_sep s rest : (forall c, In c s -> c <> 0 /\ c <> 10) -> word (s ++ 0 :: rest) = (s, rest) /\ word (s ++ 10 :: rest) = (s, rest) /\ word s = (s, []).
Proof.
  induction s as [|c s IH]; intros H; [repeat split; reflexivity|].
  destruct (H c (or_introl eq_refl)) as [H0 H10]. destruct IH as (A & B & D); [intros d I; apply H; right; exact I|].
  cbn [app word]. replace ((c =? 0) || (c =? 10)) with false by lia. rewrite A, B, D. repeat split; reflexivity.
Qed.
Lemma itoa_no c n : c < 45 -> ~ In c (itoa n).
Proof. intros H I. apply itoa_chars in I. lia. Qed.
Lemma itoa_ok n c : In c (itoa n) -> c <> 0 /\ c <> 10.
Proof. intros I. apply itoa_chars in I. lia. Qed.
Lemma reads_atoi n : inS 64 n -> reads (ratoi (itoa n)) [] n.
Proof. intros H rest. unfold ratoi. rewrite atoi_itoa by (unfold inS in H; exact H). reflexivity. Qed.
Definition sok (e : estat) : Prop :=
  es_has e = true /\ inS 64 (es_id e) /\ inS 64 (es_size e) /\ inS 32 (es_flags e) /\ inS 64 (es_mtime e).
Lemma inS32_64 v : inS 32 v -> inS 64 v.
Proof. unfold inS. lia. Qed.
Lemma w_estat_chars e c : In c (w_estat e) -> c <> 0 /\ c <> 10.
Proof.
  unfold w_estat. destruct (es_has e); [|intros []]. intros I.
  repeat (apply in_app_or in I; destruct I as [I|[<-|I]]; [apply itoa_ok in I; exact I|lia|]). apply itoa_ok in I. exact I.
Qed.
Lemma r_estat_word o e l r : sok e -> word l = (w_estat e, r) ->
  r_estat o l = Ok (Some ({| es_name := es_name o; es_has := true; es_id := es_id e; es_size := es_size e; es_flags := es_flags e; es_mtime := es_mtime e |}, r)).
Proof.
  intros (H & I & S & F & M) W. unfold r_estat, bind, rword. rewrite W. unfold w_estat. rewrite H.
  rewrite !split_cons by (apply itoa_no; lia). rewrite split_nosep by (apply itoa_no; lia).
  unfold ratoi. rewrite !atoi_itoa by (try (apply inS32_64 in F; exact F); assumption). cbn [ret fail]. unfold ret.
  rewrite wrapS_id by (try lia; exact F). reflexivity.
Qed.
Lemma sok_eta e : sok e -> {| es_name := es_name e; es_has := true; es_id := es_id e; es_size := es_size e; es_flags := es_flags e; es_mtime := es_mtime e |} = e.
Proof. intros (H & _). destruct e; cbn in *. subst. reflexivity. Qed.
Lemma reads0_estat e : sok e -> es_name e = [] -> reads0 (r_estat es0) (w_estat e) e.
Proof.
  intros S N. unfold reads0. erewrite r_estat_word; [|exact S|apply word_sep, w_estat_chars; exact []]. destruct S as (H & _). destruct e; cbn in *. subst. reflexivity.
Qed.
Lemma w_estat_nonempty e : es_has e = true -> w_estat e <> [].
Proof. intros H. unfold w_estat. rewrite H. destruct (itoa (es_id e)); discriminate. Qed.

(* directory listings *)
Lemma trim0_app_nz a b : b <> 0 -> trim0 (a ++ [b]) = a ++ [b].
Proof.
  intros H. induction a as [|x a IH]; [cbn [app trim0]; replace (b =? 0) with false by lia; reflexivity|].
  cbn [app trim0]. rewrite IH. destruct (a ++ [b]) eqn:E; [destruct a; discriminate|reflexivity].
Qed.
Lemma trim0_snoc0 a : trim0 (a ++ [0]) = trim0 a.
Proof.
  induction a as [|x a IH]; [reflexivity|]. cbn [app trim0]. rewrite IH. reflexivity.
Qed.
Lemma trim0_id a : last a 1 <> 0 -> trim0 a = a.
Proof.
  intros H. destruct a as [|x a] using rev_ind; [reflexivity|]. rewrite last_last in H. apply trim0_app_nz, H.
Qed.
(* the lines of a listing *)
Fixpoint lines_of (ws : bool) (l : list estat) : list (list Z) :=
  match l with [] => [] | e :: l' => if ws then es_name e :: w_estat e :: lines_of ws l' else es_name e :: lines_of ws l' end.
Lemma lines_nonempty ws l : l <> [] -> lines_of ws l <> [].
Proof. destruct l; [congruence|]. cbn. destruct ws; discriminate. Qed.
Lemma w_entries_join ws l : l <> [] -> w_entries ws l = join 10 (lines_of ws l) ++ [0].
Proof.
  induction l as [|e l IH]; [congruence|]. intros _. destruct l as [|e' l].
  - cbn [w_entries lines_of]. destruct ws.
    + rewrite join_cons by discriminate. cbn [join]. rewrite app_nil_r, <- app_assoc. reflexivity.
    + cbn [join]. rewrite app_nil_r. reflexivity.
  - specialize (IH ltac:(discriminate)). cbn [w_entries lines_of] in *. destruct ws.
    + rewrite join_cons by discriminate. rewrite join_cons by discriminate. rewrite IH.
      rewrite <- !app_assoc. cbn [app]. rewrite <- !app_assoc. reflexivity.
    + rewrite join_cons by (destruct l; discriminate). rewrite IH. rewrite <- !app_assoc. cbn [app]. reflexivity.
Qed.
Lemma last_app_ne {A} (a b : list A) d : b <> [] -> last (a ++ b) d = last b d.
Proof. intros H. destruct b as [|x b] using rev_ind; [congruence|]. rewrite app_assoc, !last_last. reflexivity. Qed.
Lemma last_join l : l <> [] -> last (last l []) 1 <> 0 -> last (join 10 l) 1 <> 0.
Proof.
  induction l as [|x l IH]; [congruence|]. intros _ H. destruct l as [|y l].
  - cbn [join]. cbn [last] in H. exact H.
  - rewrite join_cons by discriminate. change (last (x :: y :: l) []) with (last (y :: l) []) in H. specialize (IH ltac:(discriminate) H).
    rewrite last_app_ne by discriminate. change (10 :: join 10 (y :: l)) with ([10] ++ join 10 (y :: l)).
    destruct (join 10 (y :: l)) as [|b r] eqn:E; [cbn; lia|]. rewrite last_app_ne by discriminate. exact IH.
Qed.
Definition zeros : list Z := [48; 32; 48; 32; 48; 32; 48].
Lemma w_estat_dot : w_estat dot = zeros.
Proof. reflexivity. Qed.
Lemma has_prefix_app p r : has_prefix p (p ++ r) = true.
Proof. unfold has_prefix. rewrite firstn_app_exact by reflexivity. apply str_eqb_refl. Qed.
Lemma has_prefix_inv p l : has_prefix p l = true -> exists r, l = p ++ r.
Proof.
  unfold has_prefix. intros H. destruct (str_eqb_spec (firstn (length p) l) p) as [E|]; [|discriminate].
  exists (skipn (length p) l). rewrite <- E at 1. symmetry. apply firstn_skipn.
Qed.
Lemma lines_false l : lines_of false l = map es_name l.
Proof. induction l as [|e l IH]; cbn; congruence. Qed.
Lemma d_pairs_lines l : Forall sok l -> d_pairs (lines_of true l) = Ok (Some l).
Proof.
  induction 1 as [|e l S F IH]; [reflexivity|]. cbn [lines_of d_pairs].
  rewrite (r_estat_word es0 e (w_estat e) []) by (try exact S; apply (word_sep _ []), w_estat_chars). rewrite IH.
  cbn [es_has es_id es_size es_flags es_mtime]. rewrite sok_eta by exact S. reflexivity.
Qed.
Lemma lines_true_even l : Nat.odd (length (lines_of true l)) = false.
Proof. induction l as [|e l IH]; [reflexivity|]. cbn [lines_of length]. exact IH. Qed.
Lemma lines_last ws l : l <> [] -> last (lines_of ws l) [] = if ws then w_estat (last l es0) else es_name (last l es0).
Proof.
  induction l as [|e l IH]; [congruence|]. intros _. destruct l as [|e' l]; [destruct ws; reflexivity|].
  change (last (e :: e' :: l) es0) with (last (e' :: l) es0). rewrite <- IH by discriminate.
  pose proof (lines_nonempty ws (e' :: l) ltac:(discriminate)) as N. change (lines_of ws (e :: e' :: l)) with
    (if ws then es_name e :: w_estat e :: lines_of ws (e' :: l) else es_name e :: lines_of ws (e' :: l)).
  destruct (lines_of ws (e' :: l)) as [|a b]; [congruence|]. destruct ws; reflexivity.
Qed.
Lemma last_in {A} (l : list A) d : l <> [] -> In (last l d) l.
Proof. intros H. destruct l as [|x l] using rev_ind; [congruence|]. rewrite last_last. apply in_or_app. right. left. reflexivity. Qed.
Lemma dirlist_stat l : Forall sok l -> Forall (fun e => ~ In 10 (es_name e)) l ->
  exists bs, w_dirlist l true = Some bs /\ d_dirlist bs = Ok (Some (MdirlistR l true, [])).
Proof.
  intros S N. unfold w_dirlist. cbn [forallb]. replace (forallb (fun e => eqb (es_has e) true) l) with true.
  2: { symmetry. apply forallb_forall. intros e I. rewrite Forall_forall in S. destruct (S e I) as (H & _). rewrite H. reflexivity. }
  cbn [es_has dot eqb andb]. eexists. split; [reflexivity|]. rewrite w_entries_join by discriminate.
  set (L := lines_of true (dot :: l)).
  assert (EL : L = [46] :: zeros :: lines_of true l) by reflexivity.
  assert (NS : Forall (fun s => ~ In 10 s) L).
  { rewrite EL. constructor; [intros [|[]]; discriminate|]. constructor; [cbn; intuition discriminate|].
    clear - N. induction N as [|e l H _ IH]; [constructor|]. cbn. constructor; [exact H|]. constructor; [|exact IH].
    intros I. apply w_estat_chars in I. lia. }
  assert (T : trim0 (join 10 L ++ [0]) = join 10 L).
  { rewrite trim0_snoc0. apply trim0_id. apply last_join; [rewrite EL; discriminate|]. unfold L. rewrite lines_last by discriminate.
    assert (S' : Forall sok (dot :: l)) by (constructor; [unfold sok, inS; cbn; lia|exact S]).
    rewrite Forall_forall in S'. destruct (S' _ (last_in (dot :: l) es0 ltac:(discriminate))) as (H & _).
    apply w_estat_nonempty in H. apply (last_in _ 1) in H. apply w_estat_chars in H. apply H. }
  assert (P : has_prefix (dotline ++ [10]) (join 10 L) || str_eqb (join 10 L) dotline = true).
  { rewrite EL, join_cons by discriminate. destruct (lines_of true l) as [|a b] eqn:E.
    - apply orb_true_iff. right. reflexivity.
    - rewrite join_cons by discriminate. apply orb_true_iff. left. exact (has_prefix_app (dotline ++ [10]) (join 10 (a :: b))). }
  unfold d_dirlist. destruct (join 10 L ++ [0]) as [|b0 r0] eqn:EJ; [destruct (join 10 L); discriminate|].
  rewrite T. rewrite P. cbn [negb]. rewrite split_join by (try exact NS; rewrite EL; discriminate).
  unfold L. rewrite lines_true_even. change (skipn 2 (lines_of true (dot :: l))) with (lines_of true l). rewrite d_pairs_lines by exact S. reflexivity.
Qed.
Definition plain (e : estat) : Prop := e = {| es_name := es_name e; es_has := false; es_id := 0; es_size := 0; es_flags := 0; es_mtime := 0 |}.
Lemma dirlist_plain l : Forall plain l -> Forall (fun e => ~ In 10 (es_name e)) l -> last (last (map es_name l) []) 1 <> 0 ->
  (forall r, map es_name l <> [46] :: zeros :: r) ->
  exists bs, w_dirlist l false = Some bs /\ d_dirlist bs = Ok (Some (MdirlistR l false, [])).
Proof.
  intros S N LZ ND. unfold w_dirlist. replace (forallb (fun e => eqb (es_has e) false) l) with true.
  2: { symmetry. apply forallb_forall. intros e I. rewrite Forall_forall in S. rewrite (S e I). reflexivity. }
  eexists. split; [reflexivity|]. destruct l as [|e0 l0] eqn:EQ; [reflexivity|]. rewrite <- EQ in *.
  assert (NE : l <> []) by (rewrite EQ; discriminate). clear EQ. rewrite w_entries_join by exact NE. rewrite lines_false. set (L := map es_name l).
  assert (NL : L <> []) by (unfold L; destruct l; [congruence|discriminate]).
  assert (NS : Forall (fun s => ~ In 10 s) L) by (unfold L; apply Forall_map; exact N).
  assert (T : trim0 (join 10 L ++ [0]) = join 10 L) by (rewrite trim0_snoc0; apply trim0_id; apply last_join; assumption).
  unfold d_dirlist. destruct (join 10 L ++ [0]) as [|b0 r0] eqn:EJ; [destruct (join 10 L); discriminate|].
  rewrite T. rewrite split_join by assumption.
  replace (has_prefix (dotline ++ [10]) (join 10 L) || str_eqb (join 10 L) dotline) with false.
  2: { symmetry. apply orb_false_iff. split.
    - destruct (has_prefix (dotline ++ [10]) (join 10 L)) eqn:E; [|reflexivity]. apply has_prefix_inv in E. destruct E as [r E].
      exfalso. apply (ND (split 10 r)). fold L. rewrite <- (split_join 10 L) by assumption. rewrite E.
      change ((dotline ++ [10]) ++ r) with ([46] ++ 10 :: (zeros ++ 10 :: r)).
      rewrite split_cons by (intros [|[]]; discriminate). rewrite split_cons by (cbn; intuition discriminate). reflexivity.
    - destruct (str_eqb_spec (join 10 L) dotline) as [E|]; [|reflexivity]. exfalso. apply (ND []). fold L. rewrite <- (split_join 10 L) by assumption. rewrite E. reflexivity. }
  cbn [negb]. do 4 f_equal. unfold L. rewrite map_map. rewrite <- (map_id l) at 2. apply map_ext_in. intros e I. rewrite Forall_forall in S. symmetry. apply (S e I).
Qed.
