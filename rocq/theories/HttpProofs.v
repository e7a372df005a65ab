(* Proofs about spans and the read cache. *)
From Coq Require Import ZArith List Lia Bool Sorted Permutation.
From Verif Require Import Bytes GoLib HttpModel.
Import ListNotations.
Local Open Scope Z_scope.

Definition in_sp (s : span) (x : Z) : Prop := off s <= x < fin s.
Definition cov (l : list span) (x : Z) : Prop := exists s, In s l /\ in_sp s x.
Definition le_off (a b : span) : Prop := off a <= off b.
Definition before (a b : span) : Prop := fin a <= off b.
Definition gap (a b : span) : Prop := fin a < off b.
Definition apart (a b : span) : Prop := fin a <= off b \/ fin b <= off a.
Definition nonneg (l : list span) : Prop := Forall (fun s => 0 <= len s) l.

Lemma cov_nil x : cov [] x <-> False.
Proof. split; [intros (s & [] & _)|tauto]. Qed.
Lemma cov_cons a l x : cov (a :: l) x <-> in_sp a x \/ cov l x.
Proof.
  split.
  - intros (s & [<-|I] & H); [auto|right; exists s; auto].
  - intros [H|(s & I & H)]; [exists a; cbn; auto|exists s; cbn; auto].
Qed.
Lemma cov_app a b x : cov (a ++ b) x <-> cov a x \/ cov b x.
Proof. induction a as [|s a IH]; cbn [app]; [rewrite cov_nil; tauto|rewrite !cov_cons, IH; tauto]. Qed.

Lemma dec_cov l x : cov l x \/ ~ cov l x.
Proof.
  induction l as [|a l IH]; [right; rewrite cov_nil; tauto|]. rewrite cov_cons. unfold in_sp at 1 2.
  destruct (Z.le_gt_cases (off a) x), (Z.lt_ge_cases x (fin a)); destruct IH; try tauto; right; intros [H'|H']; try lia; tauto.
Qed.

(* ---- split ---- *)
Lemma split_loop_spec : forall l sp o, StronglySorted le_off l -> nonneg l -> 0 < len sp ->
  exists o', split_loop sp l o = o ++ o' /\
    (forall x, cov o' x <-> in_sp sp x /\ ~ cov l x) /\
    Forall (fun s => off sp <= off s /\ fin s <= fin sp /\ 0 < len s) o' /\ StronglySorted before o' /\
    (forall v s, In v l -> In s o' -> apart s v).
Proof.
  induction l as [|v l IH]; intros sp o So Nn P.
  - cbn [split_loop]. destruct (Z.eqb_spec (len sp) 0); [lia|]. exists [sp]. split; auto.
    split. { intros x. rewrite cov_cons, !cov_nil. tauto. }
    split. { constructor; [|constructor]. unfold fin. lia. }
    split. { repeat constructor. }
    intros v s [].
  - inversion So as [|? ? So' Fo]; subst. inversion Nn as [|? ? Nv Nn']; subst.
    rewrite Forall_forall in Fo.
    (* what is covered by the later spans starts after v *)
    assert (Later : forall x, cov l x -> off v <= x). { intros x (s & I & H1 & H2). specialize (Fo s I). unfold le_off in Fo. lia. }
    cbn [split_loop]. cbv zeta. unfold fin in *.
    destruct (Z.leb_spec (off v + len v) (off sp)) as [C0|C0].
    + destruct (IH sp o So' Nn' P) as (o' & E & Cv & Fr & Sr & Ap). exists o'. split; auto. split.
      { intros x. rewrite Cv, cov_cons. unfold in_sp, fin. split.
        - intros (A & B). split; auto. intros [D|D]; [lia|auto].
        - intros (A & B). split; auto. }
      split; auto. split; auto. intros w s [<-|I] Is; [|auto]. rewrite Forall_forall in Fr. specialize (Fr s Is). right. unfold fin. lia.
    + destruct (Z.leb_spec (off sp + len sp) (off v)) as [C1|C1].
      { cbn [len]. cbn [Z.eqb]. exists [sp]. split; auto. split.
        { intros x. rewrite !cov_cons, cov_nil. unfold in_sp, fin. split.
          - intros [A|[]]. split; auto. intros [B|B]; [lia|]. apply Later in B. lia.
          - intros (A & _). auto. }
        split; [constructor; [lia|constructor]|]. split; [repeat constructor|].
        intros w s I [<-|[]]. left. unfold fin. destruct I as [<-|I]; [lia|]. specialize (Fo w I). unfold le_off in Fo. lia. }
      destruct (Z.ltb_spec (off sp) (off v)) as [C2|C2].
      * destruct (Z.leb_spec (off v + len v) (off sp + len sp)) as [C3|C3]; cbn [andb].
        -- (* v inside sp *)
           cbn [len]. destruct (Z.eqb_spec (len sp - (len v + (off v - off sp))) 0) as [C4|C4].
           ++ exists [{| off := off sp; len := off v - off sp |}]. split; auto. split.
              { intros x. rewrite !cov_cons, cov_nil. unfold in_sp, fin. cbn [off len]. split.
                - intros [A|[]]. split; [lia|]. intros [B|B]; [lia|]. apply Later in B. lia.
                - intros (A & B). left. lia. }
              split; [constructor; [cbn; lia|constructor]|]. split; [repeat constructor|].
              intros w s I [<-|[]]. left. unfold fin. cbn. destruct I as [<-|I]; [lia|]. specialize (Fo w I). unfold le_off in Fo. lia.
           ++ set (sp2 := {| off := off v + len v; len := len sp - (len v + (off v - off sp)) |}).
              destruct (IH sp2 (o ++ [{| off := off sp; len := off v - off sp |}]) So' Nn' ltac:(cbn; lia)) as (o' & E & Cv & Fr & Sr & Ap).
              exists ({| off := off sp; len := off v - off sp |} :: o'). split; [rewrite E, <- app_assoc; reflexivity|].
              unfold sp2 in *. cbn [off len] in *. split.
              { intros x. rewrite !cov_cons, Cv. unfold in_sp, fin. cbn [off len]. split.
                - intros [A|(A & B)].
                  + split; [lia|]. intros [B|B]; [lia|]. apply Later in B. lia.
                  + split; [lia|]. intros [D|D]; [lia|auto].
                - intros (A & B). destruct (Z.lt_ge_cases x (off v)); [left; lia|right]. split; [|tauto]. lia. }
              rewrite Forall_forall in Fr.
              split. { constructor; [cbn; lia|]. apply Forall_forall. intros s Is. specialize (Fr s Is). lia. }
              split. { constructor; auto. apply Forall_forall. intros s Is. specialize (Fr s Is). unfold before, fin. cbn. lia. }
              intros w s I [<-|Is].
              { left. unfold fin. cbn. destruct I as [<-|I]; [lia|]. specialize (Fo w I). unfold le_off in Fo. lia. }
              destruct I as [<-|I]; [|auto]. right. unfold fin. specialize (Fr s Is). lia.
        -- (* sp ends inside v *)
           destruct (Z.ltb_spec (off v) (off sp + len sp)); [|lia]. destruct (Z.ltb_spec (off sp + len sp) (off v + len v)); [|lia].
           cbn [andb len Z.eqb]. exists [{| off := off sp; len := off v - off sp |}]. split; auto. split.
           { intros x. rewrite !cov_cons, cov_nil. unfold in_sp, fin. cbn [off len]. split.
             - intros [A|[]]. split; [lia|]. intros [B|B]; [lia|]. apply Later in B. lia.
             - intros (A & B). left. lia. }
           split; [constructor; [cbn; lia|constructor]|]. split; [repeat constructor|].
           intros w s I [<-|[]]. left. unfold fin. cbn. destruct I as [<-|I]; [lia|]. specialize (Fo w I). unfold le_off in Fo. lia.
      * cbn [andb]. destruct (Z.leb_spec (off v) (off sp)); [|lia]. cbn [andb].
        destruct (Z.leb_spec (off sp + len sp) (off v + len v)) as [C3|C3].
        -- cbn [len Z.eqb]. exists []. split; [now rewrite app_nil_r|]. split.
           { intros x. rewrite cov_nil, cov_cons. unfold in_sp, fin. split; [tauto|]. intros (A & B). apply B. left. lia. }
           split; [constructor|]. split; [constructor|]. intros w s _ [].
        -- destruct (Z.ltb_spec (off v + len v) (off sp + len sp)); [|lia]. cbn [len].
           destruct (Z.eqb_spec (off sp + len sp - (off v + len v)) 0); [lia|].
           set (sp2 := {| off := off v + len v; len := off sp + len sp - (off v + len v) |}).
           destruct (IH sp2 o So' Nn' ltac:(cbn; lia)) as (o' & E & Cv & Fr & Sr & Ap). exists o'. split; auto.
           unfold sp2 in *. cbn [off len] in *. split.
           { intros x. rewrite Cv, cov_cons. unfold in_sp, fin. cbn [off len]. split.
             - intros (A & B). split; [lia|]. intros [D|D]; [lia|auto].
             - intros (A & B). split; [|tauto]. destruct (Z.lt_ge_cases x (off v + len v)); [|lia]. exfalso. apply B. left. lia. }
           rewrite Forall_forall in Fr.
           split. { apply Forall_forall. intros s Is. specialize (Fr s Is). lia. }
           split; auto. intros w s [<-|I] Is; [|auto]. right. unfold fin. specialize (Fr s Is). lia.
Qed.
(* a request of no byte: at most itself *)
Lemma split_loop_empty : forall l sp o, StronglySorted le_off l -> nonneg l -> len sp = 0 ->
  exists o', split_loop sp l o = o ++ o' /\ (o' = [] \/ o' = [sp] /\ forall v, In v l -> apart sp v).
Proof.
  induction l as [|v l IH]; intros sp o So Nn P.
  - cbn [split_loop]. rewrite P. exists []. rewrite app_nil_r. auto.
  - inversion So as [|? ? So' Fo]; subst. inversion Nn as [|? ? Nv Nn']; subst. rewrite Forall_forall in Fo.
    cbn [split_loop]. cbv zeta. unfold fin. destruct (Z.leb_spec (off v + len v) (off sp)) as [C0|C0].
    + destruct (IH sp o So' Nn' P) as (o' & E & D). exists o'. split; auto. destruct D as [D|(D & A)]; auto. right. split; auto.
      intros w [<-|I]; auto. right. unfold fin. lia.
    + destruct (Z.leb_spec (off sp + len sp) (off v)) as [C1|C1].
      * cbn [len Z.eqb]. exists [sp]. split; auto. right. split; auto. intros w [<-|I]; left; unfold fin; [lia|].
        specialize (Fo w I). unfold le_off in Fo. lia.
      * destruct (Z.ltb_spec (off sp) (off v)); [lia|]. cbn [andb]. destruct (Z.leb_spec (off v) (off sp)); [|lia]. cbn [andb].
        destruct (Z.leb_spec (off sp + len sp) (off v + len v)); [|lia]. cbn [len Z.eqb]. exists []. rewrite app_nil_r. auto.
Qed.
Lemma split_spec sp l : StronglySorted le_off l -> nonneg l -> 0 <= len sp ->
  (forall x, cov (split sp l) x <-> in_sp sp x /\ ~ cov l x) /\
  Forall (fun s => off sp <= off s /\ fin s <= fin sp /\ 0 <= len s) (split sp l) /\
  StronglySorted before (split sp l) /\ (forall v s, In v l -> In s (split sp l) -> apart s v) /\
  (0 < len sp -> Forall (fun s => 0 < len s) (split sp l)).
Proof.
  intros So Nn P. unfold split. destruct l as [|v l0] eqn:El.
  - split. { intros x. rewrite cov_cons, !cov_nil. tauto. }
    split. { constructor; [|constructor]. unfold fin. lia. }
    split. { repeat constructor. } split; [intros v s []|]. intros; constructor; auto.
  - rewrite <- El in *. destruct (Z.eq_dec (len sp) 0) as [E0|E0].
    + destruct (split_loop_empty l sp [] So Nn E0) as (o' & E & D). rewrite E. cbn [app].
      assert (Cv : forall x, cov o' x <-> in_sp sp x /\ ~ cov l x).
      { intros x. destruct D as [->|(-> & _)].
        - rewrite cov_nil. unfold in_sp, fin. split; [tauto|lia].
        - rewrite cov_cons, cov_nil. unfold in_sp, fin. split; [intros [?|[]]; lia|lia]. }
      split; auto. destruct D as [->|(-> & A)].
      * split; [constructor|]. split; [constructor|]. split; [intros ? ? ? []|]. lia.
      * split. { constructor; [|constructor]. unfold fin. lia. }
        split. { repeat constructor. } split; [|lia]. intros w s I [<-|[]]. auto.
    + destruct (split_loop_spec l sp [] So Nn ltac:(lia)) as (o' & E & Cv & Fr & Sr & Ap). rewrite E. cbn [app].
      split; auto. rewrite Forall_forall in Fr.
      split. { apply Forall_forall. intros s Is. specialize (Fr s Is). lia. }
      split; auto. split; auto. intros _. apply Forall_forall. intros s Is. specialize (Fr s Is). lia.
Qed.

(* ---- sorting and consolidating ---- *)
Lemma insert_in x l y : In y (insert x l) <-> x = y \/ In y l.
Proof. induction l as [|z l IH]; cbn; [tauto|]. destruct (span_lt x z); cbn; [tauto|]. rewrite IH. tauto. Qed.
Lemma sort_in l y : In y (sort_spans l) <-> In y l.
Proof. induction l as [|x l IH]; cbn; [tauto|]. rewrite insert_in, IH. tauto. Qed.
Lemma cov_In l l' x : (forall s, In s l <-> In s l') -> (cov l x <-> cov l' x).
Proof. intros H. split; intros (s & I & A); exists s; split; auto; now apply H. Qed.
Lemma span_lt_le a b : span_lt a b = false -> off b <= off a /\ (off a = off b -> fin b <= fin a).
Proof.
  unfold span_lt, fin. destruct (Z.ltb_spec (off a) (off b)); [discriminate|].
  destruct (Z.eqb_spec (off a) (off b)); [|intros _; split; [lia|lia]].
  destruct (Z.ltb_spec (off a + len a) (off b + len b)); [discriminate|]. lia.
Qed.
Lemma span_lt_true a b : span_lt a b = true -> off a <= off b /\ (off a = off b -> fin a <= fin b).
Proof.
  unfold span_lt, fin. destruct (Z.ltb_spec (off a) (off b)); [lia|].
  destruct (Z.eqb_spec (off a) (off b)); [|discriminate].
  destruct (Z.ltb_spec (off a + len a) (off b + len b)); [lia|discriminate].
Qed.
Definition le_span (a b : span) : Prop := off a < off b \/ off a = off b /\ fin a <= fin b.
Lemma insert_sorted x l : StronglySorted le_span l -> StronglySorted le_span (insert x l).
Proof.
  induction l as [|y l IH]; intros So; cbn; [repeat constructor|]. inversion So as [|? ? So' Fo]; subst.
  destruct (span_lt x y) eqn:L.
  - apply span_lt_true in L. constructor; auto. constructor; [unfold le_span; lia|].
    rewrite Forall_forall in *. intros z I. specialize (Fo z I). unfold le_span in *. lia.
  - apply span_lt_le in L. constructor; auto. apply Forall_forall. intros z I. apply insert_in in I.
    destruct I as [<-|I]; [unfold le_span; lia|]. rewrite Forall_forall in Fo. auto.
Qed.
Lemma sort_sorted l : StronglySorted le_span (sort_spans l).
Proof. induction l; cbn; [constructor|]. now apply insert_sorted. Qed.
Lemma SS_impl {A} (R Q : A -> A -> Prop) l : (forall a b, In a l -> In b l -> R a b -> Q a b) -> StronglySorted R l -> StronglySorted Q l.
Proof.
  intros H So. induction So as [|a l So IH Fo]; constructor.
  - apply IH. intros; apply H; cbn; auto.
  - rewrite Forall_forall in *. intros x I. apply H; cbn; auto.
Qed.

Definition comb (a : span) (l : list span) : list span :=
  match l with
  | [] => [a]
  | y :: r => if fin a <? off y then a :: y :: r
              else (if fin a <=? fin y then {| off := off a; len := len a + (fin y - fin a) |} else a) :: r
  end.
Lemma consolidate_at_comb p a x r : consolidate_at (p ++ a :: x :: r) (S (length p)) = p ++ comb a (x :: r).
Proof.
  unfold consolidate_at. replace (S (length p) - 1)%nat with (length p) by lia.
  assert (N0 : nth_error (p ++ a :: x :: r) (length p) = Some a) by (rewrite nth_error_app2, Nat.sub_diag by lia; reflexivity).
  assert (N1 : nth_error (p ++ a :: x :: r) (S (length p)) = Some x).
  { rewrite nth_error_app2 by lia. replace (S (length p) - length p)%nat with 1%nat by lia. reflexivity. }
  rewrite N0, N1.
  cbn [comb]. destruct (fin a <? off x); auto. cbv zeta.
  rewrite firstn_app, firstn_all2, Nat.sub_diag by lia. cbn [firstn]. rewrite app_nil_r. f_equal. f_equal.
  change (skipn (S (S (length p))) (p ++ a :: x :: r) = r).
  rewrite skipn_app, skipn_all2 by lia. replace (S (S (length p)) - length p)%nat with 2%nat by lia. reflexivity.
Qed.
Lemma consolidate_comb p : forall x r, consolidate_from (p ++ x :: r) (length p) = fold_right comb (x :: r) p.
Proof.
  induction p as [|a p IH] using rev_ind; intros x r; [reflexivity|].
  rewrite app_length. cbn [length]. rewrite Nat.add_1_r. rewrite <- app_assoc. cbn [app consolidate_from].
  rewrite consolidate_at_comb. rewrite fold_right_app. cbn [fold_right].
  destruct (comb a (x :: r)) as [|y r'] eqn:E; [cbn in E; destruct (fin a <? off x); discriminate|]. apply IH.
Qed.
Lemma consolidate_fold l : consolidate l = fold_right comb [] l.
Proof.
  unfold consolidate. destruct (rev l) as [|x p] eqn:E.
  - destruct l; [reflexivity|]. cbn in E. destruct (rev l); discriminate.
  - assert (El : l = rev p ++ [x]) by (rewrite <- (rev_involutive l), E; reflexivity). rewrite El.
    rewrite app_length. cbn [length]. replace (length (rev p) + 1 - 1)%nat with (length (rev p)) by lia.
    rewrite consolidate_comb, fold_right_app. reflexivity.
Qed.
Lemma comb_head a l : exists y r, comb a l = y :: r /\ off y = off a /\ fin a <= fin y.
Proof.
  destruct l as [|y r]; cbn; [exists a, []; repeat split; lia|]. destruct (fin a <? off y); [exists a, (y :: r); repeat split; lia|].
  destruct (Z.leb_spec (fin a) (fin y)); eexists _, _; (split; [reflexivity|]); unfold fin in *; cbn; lia.
Qed.
Lemma fold_comb_spec l : StronglySorted le_off l -> nonneg l ->
  (forall x, cov (fold_right comb [] l) x <-> cov l x) /\ StronglySorted le_off (fold_right comb [] l) /\ nonneg (fold_right comb [] l) /\
  (forall a m, l = a :: m -> exists y r, fold_right comb [] l = y :: r /\ off y = off a) /\
  (forall v, In v (fold_right comb [] l) -> exists s, In s l /\ off s = off v) /\
  (StronglySorted before l -> StronglySorted gap (fold_right comb [] l)).
Proof.
  induction l as [|a l IH]; intros So Nn.
  - cbn. repeat split; auto; try constructor. intros. discriminate. intros v [].
  - inversion So as [|? ? So' Fo]; subst. inversion Nn as [|? ? Na Nn']; subst.
    destruct (IH So' Nn') as (I1 & I2 & I3 & I4 & I5 & I6). cbn [fold_right]. set (m := fold_right comb [] l) in *.
    assert (Hm : forall v, In v m -> off a <= off v).
    { intros v Iv. destruct (I5 v Iv) as (s & Is & <-). rewrite Forall_forall in Fo. apply Fo, Is. }
    assert (C : (forall x, cov (comb a m) x <-> in_sp a x \/ cov m x) /\ StronglySorted le_off (comb a m) /\ nonneg (comb a m) /\
                (forall v, In v (comb a m) -> off v = off a \/ In v m)).
    { destruct m as [|y r] eqn:Em.
      - cbn. split; [intros x; rewrite cov_cons; tauto|]. split; [repeat constructor|]. split; [repeat constructor; auto|].
        intros v [<-|[]]; auto.
      - assert (Hy : off a <= off y) by (apply Hm; cbn; auto).
        inversion I2 as [|? ? I2' F2]; subst. inversion I3 as [|? ? Ny I3']; subst.
        cbn [comb]. destruct (Z.ltb_spec (fin a) (off y)) as [G|G].
        + split; [intros x; rewrite !cov_cons; tauto|]. split.
          { constructor; auto. apply Forall_forall. intros z Iz. unfold le_off. apply Hm; auto. }
          split; [constructor; auto|]. intros v [<-|Iv]; auto.
        + set (z := if fin a <=? fin y then {| off := off a; len := len a + (fin y - fin a) |} else a).
          assert (Z1 : off z = off a) by (unfold z; destruct (fin a <=? fin y); auto).
          assert (Z2 : fin z = Z.max (fin a) (fin y)).
          { unfold z. destruct (Z.leb_spec (fin a) (fin y)); unfold fin in *; cbn; lia. }
          split. { intros x. rewrite !cov_cons. unfold in_sp at 1. rewrite Z1, Z2. unfold in_sp. split.
                   - intros [H|H]; [|auto]. destruct (Z.lt_ge_cases x (fin a)); [left; lia|right; left; lia].
                   - intros [H|[H|H]]; [left; lia|left; lia|auto]. }
          split. { constructor; auto. rewrite Forall_forall in *. intros w Iw. unfold le_off. rewrite Z1. apply Hm. cbn; auto. }
          split. { constructor; auto. unfold fin in Z2. rewrite Z1 in Z2. lia. }
          intros v [<-|Iv]; auto. right. cbn; auto. }
    destruct C as (C1 & C2 & C3 & C4).
    split; [intros x; rewrite C1, cov_cons, I1; tauto|]. split; auto. split; auto.
    split. { intros a' m' E. injection E as <- <-. destruct (comb_head a m) as (y & r & E & O & _). eauto. }
    split. { intros v Iv. destruct (C4 v Iv) as [E|Iv']; [exists a; cbn; auto|]. destruct (I5 v Iv') as (s & Is & E). exists s; cbn; auto. }
    intros Bf. inversion Bf as [|? ? Bf' Fb]; subst. specialize (I6 Bf').
    destruct m as [|y r] eqn:Em; cbn [comb]; [repeat constructor|].
    inversion I6 as [|? ? I6' F6]; subst. inversion I3 as [|? ? Ny I3']; subst.
    rewrite Forall_forall in F6, I3'.
    assert (Fy : fin a <= off y).
    { destruct (I5 y (or_introl eq_refl)) as (s & Is & <-). rewrite Forall_forall in Fb. apply Fb, Is. }
    destruct (Z.ltb_spec (fin a) (off y)) as [G|G].
    + constructor; auto. constructor; [exact G|]. apply Forall_forall. intros z Iz. specialize (F6 z Iz).
      unfold gap, fin in *. lia.
    + destruct (Z.leb_spec (fin a) (fin y)).
      * constructor; auto. apply Forall_forall. intros z Iz. specialize (F6 z Iz). unfold gap, fin in *. cbn. lia.
      * constructor; auto. apply Forall_forall. intros z Iz. specialize (F6 z Iz). unfold gap, fin in *. lia.
Qed.
Lemma insert_before x l : StronglySorted before l -> nonneg l -> 0 <= len x -> (forall v, In v l -> apart x v) ->
  StronglySorted before (insert x l).
Proof.
  induction l as [|y l IH]; intros B Nn Px Ap; cbn; [repeat constructor|].
  inversion B as [|? ? B' F]; subst. inversion Nn as [|? ? Ny Nn']; subst. pose proof (Ap y (or_introl eq_refl)) as Ay.
  rewrite Forall_forall in F. unfold nonneg in Nn'.
  destruct (span_lt x y) eqn:L.
  - assert (fin x <= off y).
    { unfold span_lt in L. unfold apart, fin in *. destruct (Z.ltb_spec (off x) (off y)); [lia|].
      destruct (Z.eqb_spec (off x) (off y)); [|discriminate]. apply Z.ltb_lt in L. lia. }
    constructor; auto. constructor; auto. apply Forall_forall. intros z Iz. specialize (F z Iz). unfold before, fin in *. lia.
  - apply span_lt_le in L. constructor.
    + apply IH; auto. intros; apply Ap; cbn; auto.
    + apply Forall_forall. intros z Iz. apply insert_in in Iz. destruct Iz as [<-|Iz]; auto.
      unfold before, apart, fin in *. lia.
Qed.
Lemma add_spec sp l : nonneg l -> 0 <= len sp ->
  (forall x, cov (add sp l) x <-> in_sp sp x \/ cov l x) /\ StronglySorted le_off (add sp l) /\ nonneg (add sp l).
Proof.
  intros Nn P. unfold add. rewrite consolidate_fold.
  assert (So : StronglySorted le_off (sort_spans (l ++ [sp]))).
  { eapply SS_impl; [|apply sort_sorted]. intros a b _ _ H. unfold le_span, le_off in *. lia. }
  assert (Nn' : nonneg (sort_spans (l ++ [sp]))).
  { apply Forall_forall. intros s I. rewrite sort_in in I. apply in_app_or in I. unfold nonneg in Nn. rewrite Forall_forall in Nn.
    destruct I as [I|[<-|[]]]; auto. }
  destruct (fold_comb_spec _ So Nn') as (C1 & C2 & C3 & _). split; auto.
  intros x. rewrite C1. rewrite (cov_In _ (l ++ [sp])) by (intros; apply sort_in). rewrite cov_app, cov_cons, cov_nil. tauto.
Qed.
Lemma add_gap sp l : nonneg l -> 0 <= len sp -> StronglySorted gap l -> (forall v, In v l -> apart sp v) -> StronglySorted gap (add sp l).
Proof.
  intros Nn P G Ap. unfold add. rewrite consolidate_fold.
  assert (So : StronglySorted le_off (sort_spans (l ++ [sp]))).
  { eapply SS_impl; [|apply sort_sorted]. intros a b _ _ H. unfold le_span, le_off in *. lia. }
  assert (Nn' : nonneg (sort_spans (l ++ [sp]))).
  { apply Forall_forall. intros s I. rewrite sort_in in I. apply in_app_or in I. unfold nonneg in Nn. rewrite Forall_forall in Nn.
    destruct I as [I|[<-|[]]]; auto. }
  apply fold_comb_spec; auto.
  assert (Fp : ForallOrdPairs apart (l ++ [sp])).
  { clear -G Ap. induction G as [|x l G IH F]; cbn [app]; [repeat constructor|].
    constructor.
    - apply Forall_app. split.
      + eapply Forall_impl; [|exact F]. intros b Hb. left. unfold gap in Hb. lia.
      + constructor; [|constructor]. specialize (Ap x (or_introl eq_refl)). unfold apart in *. tauto.
    - apply IH. intros; apply Ap; cbn; auto. }
  assert (Nn2 : nonneg (l ++ [sp])) by (apply Forall_app; split; auto).
  clear -Fp Nn2. induction Fp as [|x m F Fp IH]; cbn; [constructor|]. inversion Nn2 as [|? ? Nx Nm]; subst.
  apply insert_before; auto.
  - apply Forall_forall. intros s I. rewrite sort_in in I. unfold nonneg in Nm. rewrite Forall_forall in Nm. auto.
  - intros v I. rewrite sort_in in I. rewrite Forall_forall in F. auto.
Qed.

Lemma comb_grow l : nonneg l -> forall v, In v (fold_right comb [] l) -> exists s, In s l /\ off s = off v /\ fin s <= fin v.
Proof.
  induction l as [|a l IH]; intros Nn v Iv; [destruct Iv|]. inversion Nn as [|? ? Na Nn']; subst. specialize (IH Nn').
  cbn [fold_right] in Iv. set (m := fold_right comb [] l) in *.
  destruct (comb_head a m) as (y & r & E & Ey & Fy).
  assert (R : forall w, In w r -> In w m).
  { intros w Iw. destruct m as [|z m0]; cbn in E; [injection E as <- <-; destruct Iw|].
    destruct (fin a <? off z); injection E as <- <-; cbn in *; auto. }
  rewrite E in Iv. destruct Iv as [<-|Iv]; [exists a; cbn; auto|]. destruct (IH v (R v Iv)) as (s & Is & H). exists s; cbn; auto.
Qed.
Lemma add_apart sp l s : nonneg l -> 0 <= len sp -> 0 < len s -> apart s sp -> (forall v, In v l -> apart s v) ->
  forall v, In v (add sp l) -> apart s v.
Proof.
  intros Nn P Ps As Al v Iv. destruct (add_spec sp l Nn P) as (C & _ & N).
  assert (Nv : 0 <= len v) by (unfold nonneg in N; rewrite Forall_forall in N; auto).
  destruct (Z.eq_dec (len v) 0) as [E|E].
  - unfold add in Iv. rewrite consolidate_fold in Iv. apply comb_grow in Iv.
    + destruct Iv as (w & Iw & Ow & Fw). rewrite sort_in in Iw. apply in_app_or in Iw.
      assert (Aw : apart s w /\ 0 <= len w). { unfold nonneg in Nn; rewrite Forall_forall in Nn. destruct Iw as [Iw|[<-|[]]]; auto. }
      unfold apart, fin in *. lia.
    + apply Forall_forall. intros w Iw. rewrite sort_in in Iw. apply in_app_or in Iw. unfold nonneg in Nn. rewrite Forall_forall in Nn.
      destruct Iw as [Iw|[<-|[]]]; auto.
  - destruct (Z.le_gt_cases (fin s) (off v)); [left; auto|]. destruct (Z.le_gt_cases (fin v) (off s)); [right; auto|]. exfalso.
    set (x := Z.max (off s) (off v)).
    assert (Hx : in_sp s x /\ in_sp v x) by (unfold in_sp, x, fin in *; lia). destruct Hx as (H1 & H2).
    assert (Cx : cov (add sp l) x) by (exists v; auto). rewrite C in Cx. destruct Cx as [H3|(w & Iw & H3)].
    + unfold apart, in_sp in *. lia.
    + specialize (Al w Iw). unfold apart, in_sp in *. lia.
Qed.

(* ---- files ---- *)
Lemma nth_repeat_app (st : list Z) k n i : (i < length st)%nat -> (i < n)%nat ->
  nth_error (firstn n (st ++ repeat 0 k)) i = nth_error st i.
Proof. intros H1 H2. rewrite nth_error_firstn by auto. now rewrite nth_error_app1. Qed.
Lemma writeAt_in st p o i : 0 <= o -> (Z.to_nat o <= i)%nat -> (i < Z.to_nat o + length p)%nat ->
  nth_error (writeAt st p o) i = nth_error p (i - Z.to_nat o).
Proof.
  intros H0 H1 H2. unfold writeAt. destruct p as [|a p0] eqn:E; [cbn in H2; lia|]. rewrite <- E in *.
  assert (L : length (firstn (Z.to_nat o) (st ++ repeat 0 (Z.to_nat o))) = Z.to_nat o).
  { rewrite firstn_length, app_length, repeat_length. lia. }
  rewrite nth_error_app2 by lia. rewrite L. rewrite nth_error_app1 by lia. reflexivity.
Qed.
Lemma writeAt_out st p o i : 0 <= o -> (i < length st)%nat -> (i < Z.to_nat o)%nat \/ (Z.to_nat o + length p <= i)%nat ->
  nth_error (writeAt st p o) i = nth_error st i.
Proof.
  intros H0 H1 H2. unfold writeAt. destruct p as [|a p0] eqn:E; [reflexivity|]. rewrite <- E in *.
  assert (L : length (firstn (Z.to_nat o) (st ++ repeat 0 (Z.to_nat o))) = Z.to_nat o).
  { rewrite firstn_length, app_length, repeat_length. lia. }
  destruct H2 as [H2|H2].
  - rewrite nth_error_app1 by lia. now apply nth_repeat_app.
  - rewrite nth_error_app2 by lia. rewrite L. rewrite nth_error_app2 by lia. rewrite nth_error_skipn. f_equal. lia.
Qed.
Lemma readAt_nth c o n j : (j < Z.to_nat n)%nat -> nth_error (readAt c o n) j = nth_error c (Z.to_nat o + j).
Proof. intros H. unfold readAt. rewrite nth_error_firstn by auto. apply nth_error_skipn. Qed.
Lemma readAt_len c o n : 0 <= o -> 0 <= n -> o + n <= zlen c -> length (readAt c o n) = Z.to_nat n.
Proof. intros. unfold readAt, zlen in *. rewrite firstn_length, skipn_length. lia. Qed.
Lemma nth_error_ext {A} (l l' : list A) : length l = length l' -> (forall i, (i < length l)%nat -> nth_error l i = nth_error l' i) -> l = l'.
Proof.
  revert l'; induction l as [|x l IH]; intros [|y l'] L H; cbn in *; try discriminate; auto. f_equal.
  - specialize (H 0%nat ltac:(lia)). cbn in H. congruence.
  - apply IH; [lia|]. intros i Hi. apply (H (S i)). lia.
Qed.

Section Cache.
  Variable content : list Z.
  Definition agree (st : list Z) (x : Z) : Prop :=
    0 <= x < zlen content /\ nth_error st (Z.to_nat x) = nth_error content (Z.to_nat x).
  Lemma agree_lt st x : agree st x -> (Z.to_nat x < length st)%nat.
  Proof.
    intros (H & E). apply nth_error_Some. rewrite E. intros N. apply nth_error_None in N. unfold zlen in H. lia.
  Qed.
  Definition inside (o n : Z) : Prop := 0 <= o /\ 0 <= n /\ o + n <= zlen content.
  Lemma write_agree_new st o n x : inside o n -> o <= x < o + n -> agree (writeAt st (readAt content o n) o) x.
  Proof.
    intros (H0 & H1 & H2) Hx. split; [lia|].
    rewrite writeAt_in by (rewrite ?readAt_len; lia). rewrite readAt_nth by lia. f_equal. lia.
  Qed.
  Lemma write_agree_old st o n x : inside o n -> agree st x -> agree (writeAt st (readAt content o n) o) x.
  Proof.
    intros I A. destruct (Z.lt_ge_cases x o) as [L|L].
    - split; [apply A|]. rewrite writeAt_out; [apply A|apply I|now apply agree_lt|]. left. destruct A, I. lia.
    - destruct (Z.lt_ge_cases x (o + n)) as [L2|L2]; [apply write_agree_new; auto|].
      split; [apply A|]. rewrite writeAt_out; [apply A|apply I|now apply agree_lt|]. right.
      destruct I as (H0 & H1 & H2). rewrite readAt_len by auto. lia.
  Qed.
  Lemma read_agree st o n : inside o n -> (forall x, o <= x < o + n -> agree st x) -> readAt st o n = readAt content o n.
  Proof.
    intros (H0 & H1 & H2) A.
    assert (L : length (readAt st o n) = Z.to_nat n).
    { destruct (Z.eq_dec n 0) as [->|]; [reflexivity|]. pose proof (agree_lt _ _ (A (o + n - 1) ltac:(lia))).
      unfold readAt. rewrite firstn_length, skipn_length. lia. }
    apply nth_error_ext.
    - rewrite L, readAt_len; auto.
    - intros i Hi. rewrite !readAt_nth by lia. destruct (A (o + Z.of_nat i) ltac:(lia)) as (_ & E).
      replace (Z.to_nat (o + Z.of_nat i)) with (Z.to_nat o + i)%nat in E by lia. exact E.
  Qed.

  (* the remote *)
  Lemma http_ok p o : inside o (zlen p) -> http_readAt content p o = (readAt content o (zlen p), zlen p, true).
  Proof.
    intros I. unfold http_readAt. destruct p as [|a p0] eqn:E.
    - change (zlen (@nil Z)) with 0. reflexivity.
    - rewrite <- E in *. assert (0 < zlen p) by (rewrite E, zlen_cons; pose proof (zlen_nonneg p0); lia).
      destruct I as (H0 & H1 & H2).
      destruct (Z.leb_spec (zlen content) o); [lia|]. cbv zeta.
      assert (L : length (readAt content o (zlen p)) = length p) by (rewrite readAt_len by auto; unfold zlen; lia).
      rewrite L. rewrite skipn_all, app_nil_r. destruct (Z.ltb_spec (zlen content) (zlen p)); [lia|]. cbn [negb].
      f_equal. f_equal. unfold zlen at 1. rewrite L. reflexivity.
  Qed.
  Lemma readAt_app o n m : 0 <= o -> 0 <= n -> 0 <= m -> o + n + m <= zlen content ->
    readAt content o n ++ readAt content (o + n) m = readAt content o (n + m).
  Proof.
    intros. unfold readAt. rewrite Z2Nat.inj_add, Z2Nat.inj_add by lia.
    generalize (Z.to_nat o) (Z.to_nat n) (Z.to_nat m). clear. intros o n m. rewrite <- skipn_skipn || idtac.
    replace (skipn (o + n) content) with (skipn n (skipn o content)) by (rewrite skipn_skipn; f_equal; lia).
    generalize (skipn o content). clear. intros l. revert n. induction l as [|x l IH]; intros [|n]; cbn; auto.
    - now rewrite firstn_nil.
    - f_equal. apply IH.
  Qed.
  Lemma pread_ok blk : 0 < blk -> forall fuel p o, (length p <= fuel)%nat -> inside o (zlen p) ->
    pread_blocks fuel blk content p o = (readAt content o (zlen p), zlen p, true).
  Proof.
    intros Hb. induction fuel as [|fuel IH]; intros p o L I.
    - destruct p; [reflexivity|cbn in L; lia].
    - cbn [pread_blocks]. destruct p as [|a p0] eqn:E; [reflexivity|]. rewrite <- E in *.
      assert (Lp : (0 < length p)%nat) by (rewrite E; cbn; lia). clear E a p0.
      destruct I as (H0 & H1 & H2).
      assert (Z1 : zlen (firstn (Z.to_nat blk) p) = Z.min blk (zlen p)) by (unfold zlen; rewrite firstn_length; lia).
      assert (Z2 : zlen (skipn (Z.to_nat blk) p) = zlen p - Z.min blk (zlen p)) by (unfold zlen; rewrite skipn_length; lia).
      rewrite http_ok by (unfold inside; lia).
      destruct (Z.le_gt_cases blk (zlen p)) as [B|B].
      + rewrite IH; [|rewrite skipn_length; lia|unfold inside; lia]. rewrite Z1, Z2. rewrite !Z.min_l by lia. cbn [andb].
        rewrite readAt_app by lia. replace (blk + (zlen p - blk)) with (zlen p) by lia. reflexivity.
      + rewrite skipn_all2 by (unfold zlen in B; lia).
        replace (pread_blocks fuel blk content [] (o + blk)) with (@nil Z, 0, true) by (destruct fuel; reflexivity).
        rewrite Z1, Z.min_r by lia. rewrite app_nil_r. f_equal. f_equal. lia.
  Qed.
  Lemma preader_ok blk p o : 0 < blk -> inside o (zlen p) -> preader_readAt blk content p o = (readAt content o (zlen p), zlen p, true).
  Proof. intros Hb I. unfold preader_readAt. destruct (blk <? zlen p); [apply pread_ok; auto|apply http_ok; auto]. Qed.

  (* ---- one call at a time ---- *)
  Definition disjoint (a b : span) : Prop := forall x, ~ (in_sp a x /\ in_sp b x).
  Definition good (c : rc) : Prop :=
    StronglySorted gap (sps c) /\ nonneg (sps c) /\ (forall x, cov (sps c) x -> agree (sto c) x) /\
    (forall x, cov (log c) x <-> cov (sps c) x) /\ ForallOrdPairs disjoint (log c).
  Lemma gap_sorted l : nonneg l -> StronglySorted gap l -> StronglySorted le_off l.
  Proof.
    intros Nn. apply SS_impl. intros a b Ia _ G. unfold nonneg in Nn. rewrite Forall_forall in Nn. specialize (Nn a Ia).
    unfold gap, fin, le_off in *. lia.
  Qed.
  Lemma pairs_snoc {A} (R : A -> A -> Prop) l x : ForallOrdPairs R l -> Forall (fun y => R y x) l -> ForallOrdPairs R (l ++ [x]).
  Proof.
    induction l as [|y l IH]; intros F G; cbn; [repeat constructor|].
    inversion F; subst. inversion G; subst. constructor; auto. apply Forall_app. split; auto.
  Qed.
  Lemma apart_disjoint a b : apart a b -> disjoint a b.
  Proof. unfold apart, disjoint, in_sp. intros H x (A & B). lia. Qed.
  Lemma fetch_ok blk q sp c : 0 < blk -> good c -> 0 <= off sp -> zlen q = len sp -> fin sp <= zlen content -> (forall v, In v (sps c) -> apart sp v) ->
    exists q' c', fetch blk content q sp c = (q', true, c') /\ length q' = length q /\ good c' /\ (forall x, cov (sps c') x <-> in_sp sp x \/ cov (sps c) x) /\
      (forall s, 0 < len s -> apart s sp -> (forall v, In v (sps c) -> apart s v) -> forall v, In v (sps c') -> apart s v).
  Proof.
    intros Hb (G1 & G2 & G3 & G4 & G5) H0 Hq Hf Ap. pose proof (zlen_nonneg q) as Zq.
    assert (I : inside (off sp) (zlen q)) by (unfold inside, fin in *; lia).
    unfold fetch. rewrite preader_ok by auto. eexists _, _. split; [reflexivity|].
    destruct (add_spec sp (sps c) G2 ltac:(lia)) as (A1 & A2 & A3).
    split; [rewrite readAt_len by (unfold inside in I; lia); unfold zlen; lia|].
    split; [|cbn [sps]; split; [auto|intros s Ps As Al; apply (add_apart sp (sps c) s); auto; lia]].
    unfold good. cbn [sto sps log]. split; [apply add_gap; auto; lia|]. split; auto.
    split. { intros x Cx. apply A1 in Cx. destruct Cx as [Cx|Cx].
             - apply write_agree_new; auto. unfold in_sp, fin in *. lia.
             - apply write_agree_old; auto. }
    split. { intros x. rewrite cov_app, cov_cons, cov_nil, A1, G4. tauto. }
    apply pairs_snoc; auto. apply Forall_forall. intros s Is x (Hs & Hx).
    assert (Cx : cov (sps c) x) by (apply G4; exists s; auto). destruct Cx as (v & Iv & Hv).
    specialize (Ap v Iv). apply apart_disjoint in Ap. exact (Ap x (conj Hx Hv)).
  Qed.
  Definition in_order (oo : list span) : Prop := StronglySorted before oo.
  Lemma fetch_all_ok blk : 0 < blk -> forall oo p c, good c -> StronglySorted before oo ->
    Forall (fun s => 0 <= off s /\ fin s <= zlen content /\ 0 < len s) oo ->
    (fold_right (fun s a => len s + a) 0 oo <= zlen p) -> (forall v s, In v (sps c) -> In s oo -> apart s v) ->
    exists p' c', fetch_all blk content p oo c = (p', true, c') /\ good c' /\ (forall x, cov (sps c') x <-> cov oo x \/ cov (sps c) x).
  Proof.
    intros Hb. induction oo as [|sp oo IH]; intros p c G So Fo L Ap.
    - exists p, c. split; auto. split; auto. intros x. rewrite cov_nil. tauto.
    - inversion So as [|? ? So' Fb]; subst. inversion Fo as [|? ? (F1 & F2 & F3) Fo']; subst. cbn [fold_right] in L.
      assert (Ls : 0 <= fold_right (fun s a => len s + a) 0 oo).
      { clear -Fo'. induction Fo' as [|s oo (_ & _ & H) _ IH]; cbn; lia. }
      cbn [fetch_all].
      assert (Lq : zlen (firstn (Z.to_nat (len sp)) p) = len sp) by (unfold zlen in *; rewrite firstn_length; lia).
      destruct (fetch_ok blk (firstn (Z.to_nat (len sp)) p) sp c Hb G F1 Lq F2) as (q & c1 & E & Lq' & G1 & C1 & A1).
      { intros; apply Ap; cbn; auto. }
      rewrite E.
      destruct (IH (skipn (Z.to_nat (len sp)) p) c1 G1 So' Fo') as (p' & c2 & E2 & G2 & C2).
      + unfold zlen in *. rewrite skipn_length. lia.
      + intros v s Iv Is. rewrite Forall_forall in Fb, Fo'. apply A1; auto.
        * apply Fo'; auto.
        * right. apply Fb; auto.
        * intros; apply Ap; cbn; auto.
      + rewrite E2. eexists _, _. split; [reflexivity|]. split; auto. intros x. rewrite C2, C1, cov_cons. tauto.
  Qed.
  Lemma total_len oo : forall a b, StronglySorted before oo -> Forall (fun s => a <= off s /\ fin s <= b /\ 0 <= len s) oo -> a <= b ->
    fold_right (fun s a => len s + a) 0 oo <= b - a.
  Proof.
    induction oo as [|s oo IH]; intros a b So F H; cbn [fold_right]; [lia|].
    inversion So as [|? ? So' Fb]; subst. inversion F as [|? ? (F1 & F2 & F3) F']; subst.
    assert (IH' : fold_right (fun s a => len s + a) 0 oo <= b - fin s).
    { apply IH; auto. rewrite Forall_forall in *. intros t It. specialize (Fb t It). specialize (F' t It). unfold before in Fb. lia. }
    unfold fin in *. lia.
  Qed.
  Lemma rc_read_ok blk p o c : 0 < blk -> good c -> inside o (zlen p) ->
    exists c', rc_readAt blk content p o c = (Some (readAt content o (zlen p)), c') /\ good c' /\
      (forall x, cov (sps c') x <-> o <= x < o + zlen p \/ cov (sps c) x).
  Proof.
    intros Hb G I. pose proof G as (G1 & G2 & G3 & G4 & G5). pose proof I as (I0 & I1 & I2).
    assert (Sl : StronglySorted le_off (sps c)) by (apply gap_sorted; auto).
    destruct (split_spec {| off := o; len := zlen p |} (sps c) Sl G2 I1) as (S1 & S2 & S3 & S4 & S5).
    unfold rc_readAt. cbv zeta. cbn [off len] in *.
    set (oo := split {| off := o; len := zlen p |} (sps c)) in *.
    assert (Done : forall c', good c' -> (forall x, cov (sps c') x <-> cov oo x \/ cov (sps c) x) ->
      readAt (sto c') o (zlen p) = readAt content o (zlen p) /\ (forall x, cov (sps c') x <-> o <= x < o + zlen p \/ cov (sps c) x)).
    { intros c' G' C'. assert (D : forall x, cov (sps c') x <-> o <= x < o + zlen p \/ cov (sps c) x).
      { intros x. rewrite C', S1. unfold in_sp, fin. cbn [off len]. split; [tauto|]. intros [H|H]; auto.
        destruct (dec_cov (sps c) x); tauto. }
      split; auto. apply read_agree; auto. intros x Hx. apply G'. apply D. auto. }
    destruct (Z.eq_dec (zlen p) 0) as [E0|E0].
    - (* an empty request *)
      destruct p; [|rewrite zlen_cons in E0; pose proof (zlen_nonneg p); lia].
      assert (D : oo = [] \/ oo = [{| off := o; len := 0 |}]).
      { unfold oo, split. destruct (sps c) as [|v l] eqn:Es; [auto|]. rewrite <- Es in *.
        destruct (split_loop_empty (sps c) {| off := o; len := zlen (@nil Z) |} [] Sl G2 eq_refl) as (o' & E & D).
        rewrite E. cbn [app]. destruct D as [->|(-> & _)]; auto. }
      destruct D as [D|D]; rewrite D in *.
      + destruct (Done c G) as (D3 & D4). { intros x. rewrite cov_nil. tauto. } exists c. rewrite D3. auto.
      + destruct (fetch_ok blk [] {| off := o; len := 0 |} c Hb G I0 eq_refl) as (q & c1 & E & _ & G1' & C1 & _).
        { unfold fin. cbn. change (zlen (@nil Z)) with 0 in I2. lia. }
        { intros v Iv. apply S4; cbn; auto. }
        cbn [fetch_all len]. change (firstn (Z.to_nat 0) (@nil Z)) with (@nil Z). rewrite E. cbn [andb].
        destruct (Done c1 G1') as (D3 & D4). { intros x. rewrite C1, cov_cons, cov_nil. tauto. }
        exists c1. rewrite D3. auto.
    - assert (Fp : Forall (fun s => 0 <= off s /\ fin s <= zlen content /\ 0 < len s) oo).
      { specialize (S5 ltac:(lia)). rewrite Forall_forall in *. intros s Is. specialize (S2 s Is). specialize (S5 s Is). unfold fin in *. cbn in S2. lia. }
      destruct (fetch_all_ok blk Hb oo p c G S3 Fp) as (p' & c' & E & G' & C').
      + transitivity (o + zlen p - o); [|lia]. apply total_len; auto. lia.
      + intros; apply S4; auto.
      + destruct (Done c' G' C') as (D1 & D2). destruct oo as [|s0 oo0] eqn:Eo.
        * destruct (Done c G) as (D3 & D4). { intros x. rewrite cov_nil. tauto. } exists c. rewrite D3. auto.
        * rewrite <- Eo in *. rewrite E. exists c'. rewrite D1. auto.
  Qed.

  (* ---- histories of calls ---- *)
  Fixpoint rc_run (blk : Z) (reqs : list (list Z * Z)) (c : rc) : list (option (list Z)) * rc :=
    match reqs with
    | [] => ([], c)
    | (p, o) :: reqs' => let '(r, c1) := rc_readAt blk content p o c in let '(rs, c2) := rc_run blk reqs' c1 in (r :: rs, c2)
    end.
  Lemma rc_run_ok blk : 0 < blk -> forall reqs c, good c -> Forall (fun q => inside (snd q) (zlen (fst q))) reqs ->
    exists c', rc_run blk reqs c = (map (fun q => Some (readAt content (snd q) (zlen (fst q)))) reqs, c') /\ good c' /\
      (forall x, cov (sps c') x <-> cov (sps c) x \/ exists q, In q reqs /\ snd q <= x < snd q + zlen (fst q)).
  Proof.
    intros Hb. induction reqs as [|(p, o) reqs IH]; intros c G F.
    - exists c. cbn. split; auto. split; auto. intros x. split; auto. intros [H|(q & [] & _)]; auto.
    - inversion F as [|? ? I F']; subst. cbn [fst snd] in I. destruct (rc_read_ok blk p o c Hb G I) as (c1 & E1 & G1 & C1).
      destruct (IH c1 G1 F') as (c2 & E2 & G2 & C2). exists c2. cbn [rc_run map fst snd]. rewrite E1, E2. split; auto. split; auto.
      intros x. rewrite C2, C1. split.
      + intros [[H|H]|(q & Iq & H)]; auto.
        * right. exists (p, o). cbn; auto.
        * right. exists q. cbn; auto.
      + intros [H|(q & [<-|Iq] & H)]; auto. right. exists q. auto.
  Qed.
  Lemma good_init : good {| sto := []; sps := []; log := [] |}.
  Proof.
    unfold good. cbn. repeat split; auto; try constructor; try (intros x H; apply cov_nil in H; tauto);
      rewrite cov_nil in *; tauto.
  Qed.

  (* ---- concurrent calls ---- *)
  Definition tinv (st : list Z) (l : list span) (t : phase * span) : Prop :=
    0 <= off (snd t) /\ 0 <= len (snd t) /\ fin (snd t) <= zlen content /\
    (fst t = Written -> forall x, in_sp (snd t) x -> agree st x) /\ (fst t = Added -> forall x, in_sp (snd t) x -> cov l x).
  Definition kinv (st : list Z) (l : list span) (k : call) : Prop :=
    match k with
    | Asked o n => inside o n
    | Fetching o n ts => inside o n /\ Forall (tinv st l) ts /\ (forall x, o <= x < o + n -> cov l x \/ cov (map snd ts) x)
    | Returned o n r => forall bs, r = Some bs -> bs = readAt content o n
    end.
  Definition cinv (s : sys) : Prop :=
    StronglySorted le_off (csps s) /\ nonneg (csps s) /\ (forall x, cov (csps s) x -> agree (csto s) x) /\
    Forall (kinv (csto s) (csps s)) (calls s).
  Lemma upd_Forall {A} (P : A -> Prop) l i x : Forall P l -> P x -> Forall P (upd l i x).
  Proof.
    intros F H. unfold upd. apply Forall_app. split; [|constructor; auto].
    - rewrite Forall_forall in *. intros y I. apply F. rewrite <- (firstn_skipn i l). apply in_or_app; auto.
    - rewrite Forall_forall in *. intros y I. apply F. rewrite <- (firstn_skipn (S i) l). apply in_or_app; auto.
  Qed.
  Lemma upd_In {A} (l : list A) i x y : nth_error l i = Some y -> forall z, In z (upd l i x) <-> z = x \/ In z (firstn i l ++ skipn (S i) l).
  Proof. intros _ z. unfold upd. rewrite !in_app_iff. cbn. intuition. Qed.
  Lemma upd_snd (ts : list (phase * span)) j ph ph' sp : nth_error ts j = Some (ph, sp) -> map snd (upd ts j (ph', sp)) = map snd ts.
  Proof.
    intros E. unfold upd. rewrite map_app. cbn [map snd]. rewrite <- firstn_map, <- skipn_map.
    assert (E' : nth_error (map snd ts) j = Some sp) by (rewrite nth_error_map, E; reflexivity).
    revert E'. generalize (map snd ts). clear. intros l. revert j. induction l as [|a l IH]; intros [|j] E; cbn in *; try discriminate.
    - congruence.
    - f_equal. apply IH, E.
  Qed.
  Lemma tinv_mono st l st' l' t : (forall x, agree st x -> agree st' x) -> (forall x, cov l x -> cov l' x) -> tinv st l t -> tinv st' l' t.
  Proof. unfold tinv. intros A B (H1 & H2 & H3 & H4 & H5). do 3 (split; [assumption|]). split; eauto. Qed.
  Lemma kinv_mono st l st' l' k : (forall x, agree st x -> agree st' x) -> (forall x, cov l x -> cov l' x) -> kinv st l k -> kinv st' l' k.
  Proof.
    intros A B. destruct k as [o n|o n ts|o n r]; cbn; auto. intros (H1 & H2 & H3). split; auto. split.
    - eapply Forall_impl; [|exact H2]. intros t. apply tinv_mono; auto.
    - intros x Hx. destruct (H3 x Hx); auto.
  Qed.
  Lemma nth_Forall {A} (P : A -> Prop) l i x : Forall P l -> nth_error l i = Some x -> P x.
  Proof. intros F E. rewrite Forall_forall in F. apply F. eapply nth_error_In, E. Qed.
  Lemma cinv_step s t : cinv s -> cstep content s t -> cinv t.
  Proof.
    intros (I1 & I2 & I3 & I4) St. destruct St as [s i o n E|s i o n ts j sp E Ej|s i o n ts j sp E Ej|s i o n ts j sp E Ej|s i o n ts E D];
      pose proof (nth_Forall _ _ _ _ I4 E) as K; cbn [kinv] in K; unfold cinv; cbn [csto csps calls].
    - split; auto. split; auto. split; auto. apply upd_Forall; auto. cbn [kinv]. split; auto.
      destruct K as (K0 & K1 & K2).
      destruct (split_spec {| off := o; len := n |} (csps s) I1 I2 K1) as (S1 & S2 & _ & _ & _).
      split.
      + apply Forall_forall. intros t It. apply in_map_iff in It. destruct It as (sp & <- & Is).
        rewrite Forall_forall in S2. specialize (S2 sp Is). unfold tinv. cbn [fst snd]. unfold fin in *. cbn [off len] in S2.
        repeat split; try lia; discriminate.
      + intros x Hx. rewrite map_map. cbn [snd]. rewrite map_id. rewrite S1. unfold in_sp, fin. cbn [off len].
        destruct (dec_cov (csps s) x); auto.
    - destruct K as (K0 & K1 & K2). pose proof (nth_Forall _ _ _ _ K1 Ej) as (T1 & T2 & T3 & T4 & T5). cbn [fst snd] in *.
      assert (In' : inside (off sp) (len sp)) by (unfold inside, fin in *; lia).
      assert (Mo : forall x, agree (csto s) x -> agree (writeAt (csto s) (readAt content (off sp) (len sp)) (off sp)) x)
        by (intros; apply write_agree_old; auto).
      split; auto. split; auto. split; auto.
      apply upd_Forall.
      + eapply Forall_impl; [|exact I4]. intros k. apply kinv_mono; auto.
      + cbn [kinv]. split; auto. split.
        * apply upd_Forall; [eapply Forall_impl; [|exact K1]; intros k; apply tinv_mono; auto|].
          unfold tinv. cbn [fst snd]. do 3 (split; [assumption|]). split; [|discriminate].
          intros _ x Hx. apply write_agree_new; auto.
        * intros x Hx. rewrite (upd_snd _ _ _ _ _ Ej). auto.
    - destruct K as (K0 & K1 & K2). pose proof (nth_Forall _ _ _ _ K1 Ej) as (T1 & T2 & T3 & T4 & T5). cbn [fst snd] in *.
      split; auto. split; auto. split; auto. apply upd_Forall; auto. cbn [kinv]. split; auto. split.
      + apply upd_Forall; auto. unfold tinv. cbn [fst snd]. repeat split; auto; discriminate.
      + intros x Hx. rewrite (upd_snd _ _ _ _ _ Ej). auto.
    - destruct K as (K0 & K1 & K2). pose proof (nth_Forall _ _ _ _ K1 Ej) as (T1 & T2 & T3 & T4 & T5). cbn [fst snd] in *.
      destruct (add_spec sp (csps s) I2 T2) as (A1 & A2 & A3).
      assert (Mo : forall x, cov (csps s) x -> cov (add sp (csps s)) x) by (intros; apply A1; auto).
      split; auto. split; auto. split. { intros x Cx. apply A1 in Cx. destruct Cx; auto. }
      apply upd_Forall.
      + eapply Forall_impl; [|exact I4]. intros k. apply kinv_mono; auto.
      + cbn [kinv]. split; auto. split.
        * apply upd_Forall; [eapply Forall_impl; [|exact K1]; intros k; apply tinv_mono; auto|].
          unfold tinv. cbn [fst snd]. repeat split; auto; try discriminate. intros. apply A1. auto.
        * intros x Hx. rewrite (upd_snd _ _ _ _ _ Ej). destruct (K2 x Hx); auto.
    - destruct K as (K0 & K1 & K2). split; auto. split; auto. split; auto. apply upd_Forall; auto. cbn [kinv].
      intros bs. destruct (existsb _ ts) eqn:Ex; [discriminate|]. intros Eb.
      assert (bs = readAt (csto s) o n) as -> by congruence. apply read_agree; auto. intros x Hx. apply I3.
      destruct (K2 x Hx) as [H|(sp & Is & H)]; auto. apply in_map_iff in Is. destruct Is as ((ph, sp') & <- & It).
      assert (ph = Added) as ->.
      { destruct (D _ It) as [?|F]; auto. cbn in F. exfalso.
        assert (X : existsb (fun t : phase * span => match fst t with Failed => true | _ => false end) ts = true).
        { apply existsb_exists. exists (ph, sp'). split; auto. cbn. now rewrite F. }
        congruence. }
      rewrite Forall_forall in K1. destruct (K1 _ It) as (_ & _ & _ & _ & T5). apply T5; auto.
  Qed.
  Lemma cinv_steps s t : cinv s -> csteps content s t -> cinv t.
  Proof. intros I St. induction St as [|s t u St IH Sc]; [auto|]. eapply cinv_step; [apply IH; auto|eauto]. Qed.
End Cache.
