(* Lemmas on the model of a whole ROOT file: the disk, the invariant of a file being written, Close and Open. *)
From Coq Require Import ZArith List Lia Bool Sorting.Permutation Sorting.Sorted.
From Verif Require Import Bytes GoLib RbytesModel RbytesProofs RdMonad GoStrings FreelistModel FreelistProps KeyModel KeyProofs KeyProps
  DirModel DirProps CompressModel RfileModel RfileSpec.
Import ListNotations.
Local Open Scope Z_scope.

(* ---- the disk ---- *)
Definition at_disk (d : list Z) (p : Z) (bs : list Z) : Prop :=
  forall i v, nth_error bs i = Some v -> nth_error d (Z.to_nat p + i) = Some v.

Lemma nth_error_repeat {A} (x : A) n i : nth_error (repeat x n) i = if (i <? n)%nat then Some x else None.
Proof.
  revert i; induction n as [|n IH]; intros i; simpl; [destruct i; reflexivity|].
  destruct i as [|i]; simpl; [reflexivity|]. rewrite IH. destruct (Nat.ltb_spec i n), (Nat.ltb_spec (S i) (S n)); auto; lia.
Qed.
Lemma nth_error_firstn' {A} n (l : list A) i : nth_error (firstn n l) i = if (i <? n)%nat then nth_error l i else None.
Proof.
  revert l i; induction n as [|n IH]; intros l i; [destruct i; reflexivity|].
  destruct l as [|x l]; simpl; [destruct i; simpl; [|destruct (S i <? S n)%nat]; reflexivity|].
  destruct i as [|i]; simpl; [reflexivity|]. rewrite IH.
  destruct (Nat.ltb_spec i n), (Nat.ltb_spec (S i) (S n)); auto; lia.
Qed.
Lemma nth_error_skipn' {A} n (l : list A) i : nth_error (skipn n l) i = nth_error l (n + i).
Proof.
  revert l; induction n as [|n IH]; intros l; [reflexivity|].
  destruct l as [|x l]; simpl; [destruct i; reflexivity|]. apply IH.
Qed.
Lemma nth_error_app_if {A} (a b : list A) i :
  nth_error (a ++ b) i = if (i <? length a)%nat then nth_error a i else nth_error b (i - length a).
Proof.
  destruct (Nat.ltb_spec i (length a)); [now rewrite nth_error_app1|now rewrite nth_error_app2 by lia].
Qed.

Lemma writeAt_nth d pos bs i : bs <> [] ->
  nth_error (writeAt d pos bs) i =
  if (Z.to_nat pos <=? i)%nat && (i <? Z.to_nat pos + length bs)%nat then nth_error bs (i - Z.to_nat pos)
  else if (i <? length d)%nat then nth_error d i
  else if (i <? Z.to_nat pos)%nat then Some 0 else None.
Proof.
  intros N. unfold writeAt. destruct bs as [|b0 bs0] eqn:E; [congruence|]. rewrite <- E in *. clear E b0 bs0.
  cbv zeta. set (p := Z.to_nat pos). set (L := d ++ repeat 0 (p + length bs - length d)).
  assert (LL : length L = Nat.max (length d) (p + length bs)) by (unfold L; rewrite app_length, repeat_length; lia).
  rewrite nth_error_app_if, firstn_length, nth_error_firstn'. replace (Nat.min p (length L)) with p by lia.
  assert (LN : forall j, nth_error L j = if (j <? length d)%nat then nth_error d j
                         else if (j <? p + length bs)%nat then Some 0 else None).
  { intros j. unfold L. rewrite nth_error_app_if. destruct (Nat.ltb_spec j (length d)); auto. rewrite nth_error_repeat.
    destruct (Nat.ltb_spec (j - length d) (p + length bs - length d)), (Nat.ltb_spec j (p + length bs)); auto; lia. }
  destruct (Nat.ltb_spec i p).
  - rewrite LN. destruct (Nat.leb_spec p i); [lia|]. cbn [andb].
    destruct (i <? length d)%nat; auto. destruct (Nat.ltb_spec i (p + length bs)); auto; lia.
  - destruct (Nat.leb_spec p i); [|lia]. cbn [andb]. rewrite nth_error_app_if.
    destruct (Nat.ltb_spec (i - p) (length bs)), (Nat.ltb_spec i (p + length bs)); try lia; auto.
    rewrite nth_error_skipn', LN. replace (p + length bs + (i - p - length bs))%nat with i by lia.
    destruct (i <? length d)%nat; auto. destruct (Nat.ltb_spec i (p + length bs)); auto; lia.
Qed.
Lemma nth_ext_error {A} (a b : list A) : (forall i, nth_error a i = nth_error b i) -> a = b.
Proof.
  revert b; induction a as [|x a IH]; intros [|y b] H; auto.
  - specialize (H 0%nat); discriminate H.
  - specialize (H 0%nat); discriminate H.
  - pose proof (H 0%nat) as H0. simpl in H0. injection H0 as ->. f_equal. apply IH. intros i. exact (H (S i)).
Qed.
Lemma writeAt_length d pos bs : bs <> [] -> length (writeAt d pos bs) = Nat.max (length d) (Z.to_nat pos + length bs).
Proof.
  intros N. unfold writeAt. destruct bs as [|b0 bs0] eqn:E; [congruence|]. rewrite <- E. cbv zeta.
  rewrite !app_length, firstn_length, skipn_length, !app_length, repeat_length. lia.
Qed.
Lemma writeAt_grows d pos bs : (length d <= length (writeAt d pos bs))%nat.
Proof. destruct bs as [|b bs]; [simpl; lia|]. rewrite writeAt_length by discriminate. lia. Qed.
Lemma writeAt_zlen d pos bs : 0 <= pos -> pos <= zlen d -> zlen (writeAt d pos bs) = Z.max (zlen d) (pos + zlen bs).
Proof.
  intros. unfold zlen in *. destruct bs as [|b bs]; [simpl; lia|]. rewrite writeAt_length by discriminate.
  cbn [length]. lia.
Qed.
Lemma writeAt_at d pos bs : at_disk (writeAt d pos bs) pos bs.
Proof.
  intros i v H. assert (bs <> []) by (intros ->; destruct i; discriminate H). rewrite writeAt_nth by auto.
  assert (i < length bs)%nat by (apply nth_error_Some; congruence).
  destruct (Nat.leb_spec (Z.to_nat pos) (Z.to_nat pos + i)); [|lia].
  destruct (Nat.ltb_spec (Z.to_nat pos + i) (Z.to_nat pos + length bs)); [|lia]. cbn [andb].
  replace (Z.to_nat pos + i - Z.to_nat pos)%nat with i by lia. auto.
Qed.
Lemma writeAt_other d pos bs p x : 0 <= pos -> 0 <= p -> p + zlen x <= pos \/ pos + zlen bs <= p ->
  at_disk d p x -> at_disk (writeAt d pos bs) p x.
Proof.
  intros P0 P1 D A i v H. destruct bs as [|b0 bs0] eqn:E; [apply A; auto|]. rewrite <- E in *. clear E.
  destruct (list_eq_dec Z.eq_dec bs []) as [->|N]; [apply A; auto|]. rewrite writeAt_nth by auto.
  assert (i < length x)%nat by (apply nth_error_Some; congruence). unfold zlen in D.
  pose proof (A i v H) as Q. assert (Z.to_nat p + i < length d)%nat by (apply nth_error_Some; congruence).
  destruct (Nat.ltb_spec (Z.to_nat p + i) (length d)); [|lia].
  destruct (Nat.leb_spec (Z.to_nat pos) (Z.to_nat p + i)), (Nat.ltb_spec (Z.to_nat p + i) (Z.to_nat pos + length bs));
    cbn [andb]; auto. lia.
Qed.
Lemma at_disk_nil d p : at_disk d p [].
Proof. intros i v H. destruct i; discriminate H. Qed.
Lemma at_disk_app d p a b : 0 <= p -> at_disk d p a -> at_disk d (p + zlen a) b -> at_disk d p (a ++ b).
Proof.
  intros P A B i v H. rewrite nth_error_app_if in H. destruct (Nat.ltb_spec i (length a)); [auto|].
  specialize (B _ _ H). unfold zlen in B. rewrite <- B. f_equal. lia.
Qed.
Lemma at_disk_app_l d p a b : at_disk d p (a ++ b) -> at_disk d p a.
Proof.
  intros A i v H. apply A. rewrite nth_error_app1; auto. apply nth_error_Some. congruence.
Qed.
Lemma at_disk_app_r d p a b : 0 <= p -> at_disk d p (a ++ b) -> at_disk d (p + zlen a) b.
Proof.
  intros P A i v H. unfold zlen. replace (Z.to_nat (p + Z.of_nat (length a)) + i)%nat with (Z.to_nat p + (length a + i))%nat by lia.
  apply A. rewrite nth_error_app2 by lia. replace (length a + i - length a)%nat with i by lia. auto.
Qed.
(* the bytes from p on start with x *)
Lemma at_disk_skipn d p x : 0 <= p -> p + zlen x <= zlen d -> at_disk d p x ->
  exists rest, skipn (Z.to_nat p) d = x ++ rest.
Proof.
  intros P L A. exists (skipn (Z.to_nat p + length x) d). apply nth_ext_error. intros i.
  rewrite nth_error_skipn', nth_error_app_if. destruct (Nat.ltb_spec i (length x)).
  - destruct (nth_error x i) as [v|] eqn:E; [apply A; auto|]. apply nth_error_None in E. lia.
  - rewrite nth_error_skipn'. f_equal. lia.
Qed.
Lemma readAt_prefix d p n x : 0 <= p -> zlen x <= n -> p + n <= zlen d -> at_disk d p x ->
  exists rest, readAt d p n = Some (x ++ rest) /\ zlen (x ++ rest) = n.
Proof.
  intros P N L A. unfold readAt. destruct (Z.ltb_spec p 0); [lia|]. destruct (Z.ltb_spec (zlen d) (p + n)); [lia|]. cbn [orb].
  destruct (at_disk_skipn d p x P ltac:(lia) A) as (rest & E). pose proof (zlen_nonneg x).
  assert (LE : zlen (firstn (Z.to_nat n) (skipn (Z.to_nat p) d)) = n).
  { unfold zlen in *. rewrite firstn_length, skipn_length. lia. }
  rewrite E in *. rewrite firstn_app in *. rewrite firstn_all2 in * by (unfold zlen in *; lia).
  eexists; split; [reflexivity|]. auto.
Qed.

(* ---- writing to a buffer ---- *)
Lemma fill_emits n op bs : 0 <= n -> emits op bs -> fill n op = Ok bs.
Proof.
  intros N E. unfold fill. destruct (Z.ltb_spec n 0); [lia|].
  destruct (E (wzero n)) as (w & Ew & (_ & B & _) & _); [split; simpl; [lia|reflexivity]|].
  rewrite Ew. cbn [rbind]. rewrite B. reflexivity.
Qed.

(* ---- the search among the keys ---- *)
Definition has_name (name : str) (k : key) : bool := str_eqb (kName k) name.
Fixpoint positions (a : nat) (name : str) (names : list str) : list nat :=
  match names with
  | [] => []
  | n :: names' => (if str_eqb n name then [a] else []) ++ positions (S a) name names'
  end.
Definition cyc_ok (ks : list key) : Prop :=
  forall name, map kCycle (filter (has_name name) ks) = zseq 1 (length (filter (has_name name) ks)).

Lemma labels_cycles name a ks :
  map dkCycle (of_name name (labels a ks)) = map kCycle (filter (has_name name) ks).
Proof.
  revert a; induction ks as [|k ks IH]; intros a; [reflexivity|]. cbn [labels of_name filter label dkName]. unfold has_name at 1.
  destruct (str_eqb (kName k) name); cbn [map dkCycle]; rewrite ?IH; f_equal; apply IH.
Qed.
Lemma labels_objs name a ks :
  map dkObj (of_name name (labels a ks)) = map (mkObj [] None) (positions a name (map kName ks)).
Proof.
  revert a; induction ks as [|k ks IH]; intros a; [reflexivity|]. cbn [labels of_name filter label dkName positions map].
  destruct (str_eqb (kName k) name); cbn [map dkObj app]; [f_equal|]; apply IH.
Qed.
Lemma positions_length a name ks : length (positions a name (map kName ks)) = length (filter (has_name name) ks).
Proof.
  revert a; induction ks as [|k ks IH]; intros a; [reflexivity|]. cbn [map positions filter]. unfold has_name at 1.
  rewrite app_length, IH. destruct (str_eqb (kName k) name); reflexivity.
Qed.
Lemma labels_inv name ks : cyc_ok ks -> inv name (labels 0 ks) (map (mkObj [] None) (positions 0 name (map kName ks))).
Proof.
  intros C. split; [apply labels_objs|]. rewrite labels_cycles, C, map_length, positions_length. reflexivity.
Qed.
Lemma last_map {A B} (f : A -> B) l : List.last (map Some (map f l)) None = option_map f (List.last (map Some l) None).
Proof. induction l as [|x [|y l] IH]; simpl in *; auto. Qed.
Lemma pick_latest srt name ks : sorts srt -> ~ In semicolon name -> cyc_ok ks ->
  pick srt name ks = Ok (List.last (map Some (positions 0 name (map kName ks))) None).
Proof.
  intros ST N C. unfold pick. rewrite (get_latest srt name _ _ ST N (labels_inv name ks C)). cbn [rbind]. f_equal.
  rewrite last_map. destruct (List.last _ None); reflexivity.
Qed.
Lemma pick_cycle srt name c ks : ~ In semicolon name -> cyc_ok ks -> 1 <= c <= 32767 -> c <> 9999 ->
  pick srt (namecycle name c) ks = Ok (nth_error (positions 0 name (map kName ks)) (Z.to_nat (c - 1))).
Proof.
  intros N C Rg N9. unfold pick, get. rewrite C14_encode_decode by (auto; lia). cbn [rbind].
  destruct (Z.eqb_spec c 9999); [contradiction|]. cbn [negb rbind]. f_equal.
  rewrite (find_cycle_spec name _ _ c (labels_inv name ks C)) by lia. rewrite nth_error_map.
  destruct (nth_error _ _); reflexivity.
Qed.
(* positions and entries *)
Lemma positions_nth a name es m :
  match nth_error (positions a name (map eName es)) m with
  | None => nth_error (named name es) m = None
  | Some p => (a <= p)%nat /\ exists e, nth_error es (p - a) = Some e /\ nth_error (named name es) m = Some e
  end.
Proof.
  revert a m; induction es as [|e es IH]; intros a m; [destruct m; reflexivity|].
  cbn [map positions named filter]. specialize (IH (S a)).
  destruct (str_eqb (eName e) name); cbn [app].
  - destruct m as [|m]; cbn [nth_error].
    + split; [lia|]. exists e. replace (a - a)%nat with 0%nat by lia. auto.
    + specialize (IH m). destruct (nth_error (positions _ _ _) m) as [p|]; auto. destruct IH as (L & e' & E1 & E2).
      split; [lia|]. exists e'. replace (p - a)%nat with (S (p - S a)) by lia. auto.
  - specialize (IH m). destruct (nth_error (positions _ _ _) m) as [p|]; auto. destruct IH as (L & e' & E1 & E2).
    split; [lia|]. exists e'. replace (p - a)%nat with (S (p - S a)) by lia. auto.
Qed.
Lemma last_nth {A} (l : list A) : List.last (map Some l) None = nth_error l (length l - 1).
Proof.
  induction l as [|x [|y l] IH]; [reflexivity|reflexivity|]. cbn [map List.last length] in *. rewrite IH.
  replace (S (S (length l)) - 1)%nat with (S (S (length l) - 1)) by lia. reflexivity.
Qed.
Lemma positions_length_e a name es : length (positions a name (map eName es)) = length (named name es).
Proof.
  revert a; induction es as [|e es IH]; intros a; [reflexivity|]. cbn [map positions named filter].
  rewrite app_length, IH. destruct (str_eqb (eName e) name); reflexivity.
Qed.
Lemma pick_lookup srt nc ks es : sorts srt -> nc_ok nc -> cyc_ok ks -> map kName ks = map eName es ->
  exists p, pick srt (nc_string nc) ks = Ok p /\
    match p with None => lookup nc es = None | Some i => exists e, nth_error es i = Some e /\ lookup nc es = Some e end.
Proof.
  intros ST [N Rg] C E. destruct nc as [name [c|]]; cbn [nc_string lookup fst snd] in *.
  - destruct Rg as [Rg N9]. rewrite pick_cycle by auto. eexists; split; [reflexivity|]. rewrite E.
    pose proof (positions_nth 0 name es (Z.to_nat (c - 1))) as P. destruct (nth_error (positions _ _ _) _) as [p|]; auto.
    destruct P as (_ & e & P1 & P2). rewrite Nat.sub_0_r in P1. eauto.
  - rewrite pick_latest by auto. eexists; split; [reflexivity|]. rewrite E, !last_nth, positions_length_e.
    pose proof (positions_nth 0 name es (length (named name es) - 1)) as P.
    destruct (nth_error (positions _ _ _) _) as [p|]; auto.
    destruct P as (_ & e & P1 & P2). rewrite Nat.sub_0_r in P1. eauto.
Qed.
