(* Proofs about HepevtModel.v *)
From Coq Require Import ZArith List Lia Bool.
From Flocq Require Import IEEE754.BinarySingleNaN.
From Verif Require Import Bytes GoLib GoStrings F64 FloatText FloatDigits ScanfModel ScanfProofs HepevtModel.
Import ListNotations.
Local Open Scope Z_scope.

Definition i64 (n : Z) : Prop := - 2 ^ 63 <= n < 2 ^ 63.
Lemma w64_in n : i64 (w64 n).
Proof. unfold i64, w64. pose proof (Z.mod_pos_bound (n + 2 ^ 63) (2 ^ 64) ltac:(lia)). change (2 ^ 64) with (2 ^ 63 + 2 ^ 63) in *. lia. Qed.
Lemma w64_id n : i64 n -> w64 n = n.
Proof. unfold i64, w64. intros H. rewrite Z.mod_small; [lia|]. change (2 ^ 64) with (2 ^ 63 + 2 ^ 63). lia. Qed.
Lemma w64_back n : i64 n -> w64 (w64 (n + 1) - 1) = n.
Proof.
  intros H. unfold w64 at 1. replace (w64 (n + 1) - 1 + 2 ^ 63) with (w64 (n + 1) + (2 ^ 63 - 1)) by lia.
  unfold w64. replace ((n + 1 + 2 ^ 63) mod 2 ^ 64 - 2 ^ 63 + (2 ^ 63 - 1)) with ((n + 1 + 2 ^ 63) mod 2 ^ 64 + (-1)) by lia.
  rewrite Zplus_mod_idemp_l. replace (n + 1 + 2 ^ 63 + -1) with (n + 2 ^ 63) by lia. apply (w64_id n H).
Qed.
(* the particles of an event *)
Record part := mkpt { g_st : Z; g_id : Z; g_mo : Z * Z; g_da : Z * Z; g_p : p5; g_v : v4 }.
Definition evtOf (nev : Z) (l : list part) : event :=
  mkevt nev (zlen l) (map g_st l) (map g_id l) (map g_mo l) (map g_da l) (map g_p l) (map g_v l).
Definition mid5 (p : p5) : Prop := let '(a, b, c, d, e) := p in mid a /\ mid b /\ mid c /\ mid d /\ mid e.
Definition mid4 (p : v4) : Prop := let '(a, b, c, d) := p in mid a /\ mid b /\ mid c /\ mid d.
Definition pt_ok (g : part) : Prop := i64 (g_st g) /\ i64 (g_id g) /\ i64 (fst (g_mo g)) /\ i64 (snd (g_mo g)) /\ i64 (fst (g_da g)) /\ i64 (snd (g_da g)) /\ mid5 (g_p g) /\ mid4 (g_v g).
Definition rd (x : f64) : f64 := rdE 7 x.
Definition rd5 (p : p5) : p5 := let '(a, b, c, d, e) := p in (rd a, rd b, rd c, rd d, rd e).
Definition rd4 (p : v4) : v4 := let '(a, b, c, d) := p in (rd a, rd b, rd c, rd d).
Definition rdPt (g : part) : part := mkpt (g_st g) (g_id g) (g_mo g) (g_da g) (rd5 (g_p g)) (rd4 (g_v g)).
Definition lineOf (g : part) : str := encLine (g_st g) (g_id g) (g_mo g) (g_da g) (g_p g) (g_v g).

Lemma encLines_at nev pre l : encLines (evtOf nev (pre ++ l)) (List.length pre) (List.length l) = Ok (List.concat (map lineOf l)).
Proof.
  revert pre. induction l as [|g l IH]; intros pre; [reflexivity|]. cbn [List.length encLines evtOf isthep idhep jmohep jdahep phep vhep map List.concat].
  assert (NT : forall {B} (f : part -> B), nth_error (map f (pre ++ g :: l)) (List.length pre) = Some (f g)).
  { intros B f. rewrite map_app, nth_error_app2 by (rewrite map_length; lia). rewrite map_length, Nat.sub_diag. reflexivity. }
  rewrite !NT. specialize (IH (pre ++ [g])). rewrite app_length in IH. cbn [List.length] in IH. rewrite Nat.add_1_r, <- app_assoc in IH. cbn [app] in IH. rewrite IH. reflexivity.
Qed.
Lemma encode_evt nev l : encode (evtOf nev l) = Ok (sep [itoa nev; itoa (zlen l)] ++ [10] ++ List.concat (map lineOf l)).
Proof. unfold encode. cbn [evtOf nhep nevhep]. unfold zlen at 1. rewrite Nat2Z.id. pose proof (encLines_at nev [] l) as E. cbn [app List.length] in E. rewrite E. reflexivity. Qed.

Lemma i64_inb n : i64 n -> inb 64 n.
Proof. auto. Qed.
Lemma fI n : i64 n -> fld_ok (PD 64, O, itoa n, SI n).
Proof. intros H. apply int_readable; [lia|exact H]. Qed.
Lemma fF x : mid x -> fld_ok (PF, O, fE6 x, SF (rd x)).
Proof. intros H. apply float_readable; [lia|exact H]. Qed.
Lemma sep_fields (f : fld) l : Forall (fun f => let '(_, n, _, _) := f in n = O) (f :: l) ->
  sep (map (fun f : fld => let '(_, _, t, _) := f in t) (f :: l)) = ftext f ++ ftexts l.
Proof.
  revert f. induction l as [|g l IH]; intros f F.
  - inversion F; subst. destruct f as [[[v n] t] x]. subst. unfold ftexts, sep. cbn [map join ftext sps repeat app List.concat]. rewrite app_nil_r. reflexivity.
  - inversion F as [|? ? H F2]; subst. destruct f as [[[v n] t] x]. subst. specialize (IH g F2). unfold sep in *. cbn [map] in *. 
    change (join 32 (t :: ?a :: ?b)) with (t ++ 32 :: join 32 (a :: b)) in *. 
    transitivity (t ++ 32 :: join 32 ((let '(_, _, t0, _) := g in t0) :: map (fun f : fld => let '(_, _, t0, _) := f in t0) l)); [reflexivity|]. rewrite IH.
    cbn [ftext sps repeat app]. unfold ftexts. cbn [map List.concat app]. reflexivity.
Qed.
Lemma scan_line g r : pt_ok g -> exists a b c d p0 p1 p2 p3 p4 x y z t,
  fscanf lineFmt (lineOf g ++ r) = Some ([SI (g_st g); SI (g_id g); SI a; SI b; SI c; SI d; SF p0; SF p1; SF p2; SF p3; SF p4; SF x; SF y; SF z; SF t], r) /\
  (w64 (a - 1), w64 (b - 1)) = g_mo g /\ (w64 (c - 1), w64 (d - 1)) = g_da g /\ (p0, p1, p2, p3, p4) = rd5 (g_p g) /\ (x, y, z, t) = rd4 (g_v g).
Proof.
  intros (H1 & H2 & H3 & H4 & H5 & H6 & H7 & H8). destruct g as [st id [m0 m1] [d0 d1] [[[[p0 p1] p2] p3] p4] [[[x y] z] t]]. cbn [g_st g_id g_mo g_da g_p g_v fst snd mid5 mid4 rd5 rd4] in *.
  destruct H7 as (? & ? & ? & ? & ?). destruct H8 as (? & ? & ? & ?). do 13 eexists. split; [|split; [|split; [|split; reflexivity]]].
  2: rewrite (w64_back m0), (w64_back m1) by assumption; reflexivity. 2: rewrite (w64_back d0), (w64_back d1) by assumption; reflexivity.
  unfold lineOf, encLine. cbn [g_st g_id g_mo g_da g_p g_v fst snd].
  set (f0 := (PD 64, O, itoa st, SI st) : fld).
  set (l := [(PD 64, O, itoa id, SI id); (PD 64, O, itoa (w64 (m0 + 1)), SI (w64 (m0 + 1))); (PD 64, O, itoa (w64 (m1 + 1)), SI (w64 (m1 + 1)));
             (PD 64, O, itoa (w64 (d0 + 1)), SI (w64 (d0 + 1))); (PD 64, O, itoa (w64 (d1 + 1)), SI (w64 (d1 + 1)));
             (PF, O, fE6 p0, SF (rd p0)); (PF, O, fE6 p1, SF (rd p1)); (PF, O, fE6 p2, SF (rd p2)); (PF, O, fE6 p3, SF (rd p3)); (PF, O, fE6 p4, SF (rd p4));
             (PF, O, fE6 x, SF (rd x)); (PF, O, fE6 y, SF (rd y)); (PF, O, fE6 z, SF (rd z)); (PF, O, fE6 t, SF (rd t))] : list fld).
  assert (F : Forall fld_ok (f0 :: l)) by (unfold f0, l; repeat (constructor; [first [apply fI; first [assumption|apply w64_in]|apply fF; assumption]|]); constructor).
  assert (E : sep [itoa st; itoa id; itoa (w64 (m0 + 1)); itoa (w64 (m1 + 1)); itoa (w64 (d0 + 1)); itoa (w64 (d1 + 1)); fE6 p0; fE6 p1; fE6 p2; fE6 p3; fE6 p4; fE6 x; fE6 y; fE6 z; fE6 t] = ftext f0 ++ ftexts l).
  { rewrite <- sep_fields; [reflexivity|]. unfold f0, l. repeat constructor. }
  rewrite E, <- !app_assoc. cbn [app]. exact (fscanf_fields f0 l r F).
Qed.
Lemma upd_at {A} (pre : list A) x post y : upd (pre ++ x :: post) (List.length pre) y = Ok (pre ++ y :: post).
Proof. induction pre as [|z pre IH]; [reflexivity|]. cbn [app List.length upd bindr]. rewrite IH. reflexivity. Qed.
Lemma has_at {A B} (l : list A) (pre : list B) : (List.length pre < List.length l)%nat -> has l (List.length pre) = true.
Proof. intros H. apply Nat.ltb_lt. exact H. Qed.
Lemma decLines_at l : Forall pt_ok l -> forall nev n pre post r, List.length post = List.length l ->
  let mk := fun q => mkevt nev n (map g_st q) (map g_id q) (map g_mo q) (map g_da q) (map g_p q) (map g_v q) in
  decLines (mk (pre ++ post)) (List.length pre) (List.length l) (List.concat (map lineOf l) ++ r) = Ok (Some (mk (pre ++ map rdPt l), r)).
Proof.
  intros F. induction F as [|g l H F IH]; intros nev n pre post r L mk.
  - destruct post; [|discriminate]. reflexivity.
  - destruct post as [|q post]; [discriminate|]. cbn [List.length] in *. cbn [decLines]. unfold mk. cbn [isthep idhep jmohep jdahep phep vhep nevhep nhep].
    assert (HS : forall {B} (f : part -> B), has (map f (pre ++ q :: post)) (List.length pre) = true) by (intros B f; apply has_at; rewrite map_length, app_length; cbn [List.length]; lia).
    rewrite !HS. cbn [andb map List.concat]. rewrite <- app_assoc.
    destruct (scan_line g (List.concat (map lineOf l) ++ r) H) as (a & b & c & d & p0 & p1 & p2 & p3 & p4 & x & y & z & t & S & E1 & E2 & E3 & E4). rewrite S. rewrite E1, E2, E3, E4.
    assert (UP : forall {B} (f : part -> B), upd (map f (pre ++ q :: post)) (List.length pre) (f (rdPt g)) = Ok (map f ((pre ++ [rdPt g]) ++ post))).
    { intros B f. rewrite !map_app. cbn [map]. rewrite <- (map_length f pre). rewrite upd_at, <- app_assoc. reflexivity. }
    change (g_st g) with (g_st (rdPt g)) at 1. rewrite (UP _ g_st). cbn [bindr]. change (g_id g) with (g_id (rdPt g)) at 1. rewrite (UP _ g_id). cbn [bindr].
    change (g_mo g) with (g_mo (rdPt g)) at 1. rewrite (UP _ g_mo). cbn [bindr]. change (g_da g) with (g_da (rdPt g)) at 1. rewrite (UP _ g_da). cbn [bindr].
    change (rd5 (g_p g)) with (g_p (rdPt g)) at 1. rewrite (UP _ g_p). cbn [bindr]. change (rd4 (g_v g)) with (g_v (rdPt g)) at 1. rewrite (UP _ g_v). cbn [bindr].
    specialize (IH nev n (pre ++ [rdPt g]) post r ltac:(lia)). cbv zeta in IH. rewrite app_length in IH. cbn [List.length] in IH. rewrite Nat.add_1_r in IH. rewrite IH. rewrite <- app_assoc. reflexivity.
Qed.
(* an event whose slices have the same length *)
Definition partsOf (e : event) : Prop := exists nev n q, e = mkevt nev n (map g_st q) (map g_id q) (map g_mo q) (map g_da q) (map g_p q) (map g_v q).
Definition zpt : part := mkpt 0 0 (0, 0) (0, 0) (zf, zf, zf, zf, zf) (zf, zf, zf, zf).
Lemma resize_map {B} (f : part -> B) q n : 0 <= n -> exists q', List.length q' = Z.to_nat n /\ forall (C : Type) (h : part -> C), resize (h zpt) (zlen (map f q)) n (map h q) = Ok (map h q').
Proof.
  intros H. unfold resize. assert (ZL : forall C (h : part -> C), zlen (map h q) = zlen q) by (intros; unfold zlen; rewrite map_length; reflexivity).
  destruct (Z.gtb_spec (zlen q) n) as [G|G].
  - exists (firstn (Z.to_nat n) q). split.
    + rewrite firstn_length. unfold zlen in G. lia.
    + intros C h. rewrite !ZL. destruct (Z.gtb_spec (zlen q) n); [|lia]. destruct (Z.ltb_spec n 0); [lia|]. destruct (Z.ltb_spec (zlen q) n); [lia|]. cbn [orb]. rewrite firstn_map. reflexivity.
  - exists (q ++ repeat zpt (Z.to_nat (n - zlen q))). split.
    + rewrite app_length, repeat_length. unfold zlen in *. lia.
    + intros C h. rewrite !ZL. destruct (Z.gtb_spec (zlen q) n); [lia|]. rewrite map_app. f_equal. f_equal. clear. induction (Z.to_nat (n - zlen q)) as [|k IH]; [reflexivity|]. cbn [repeat map]. rewrite IH. reflexivity.
Qed.
Theorem decode_encode old nev l r : partsOf old -> i64 nev -> zlen l < 2 ^ 63 -> Forall pt_ok l ->
  decode old (sep [itoa nev; itoa (zlen l)] ++ [10] ++ List.concat (map lineOf l) ++ r) = Ok (Some (evtOf nev (map rdPt l), r)).
Proof.
  intros (nev0 & n0 & q & ->) HN HL F. unfold decode.
  set (f0 := (PD 64, O, itoa nev, SI nev) : fld). set (f1 := (PD 64, O, itoa (zlen l), SI (zlen l)) : fld).
  pose proof (zlen_nonneg l) as NN.
  assert (FF : Forall fld_ok [f0; f1]) by (constructor; [apply fI; exact HN|constructor; [apply fI; unfold i64; lia|constructor]]).
  pose proof (fscanf_fields f0 [f1] (List.concat (map lineOf l) ++ r) FF) as S.
  assert (E : sep [itoa nev; itoa (zlen l)] = ftext f0 ++ ftexts [f1]) by (rewrite <- sep_fields; [reflexivity|unfold f0, f1; repeat constructor]).
  rewrite E, <- app_assoc. cbn [app]. change [PD 64; PD 64] with (map fverb [f0; f1]). rewrite S. cbn [map fval f0 f1].
  destruct (resize_map g_st q (zlen l) NN) as (q' & LQ & RS). unfold resizeAll. cbn [isthep idhep jmohep jdahep phep vhep].
  rewrite (RS _ g_st : resize 0 _ _ _ = _). cbn [bindr]. rewrite (RS _ g_id : resize 0 _ _ _ = _). cbn [bindr]. rewrite (RS _ g_mo : resize (0, 0) _ _ _ = _). cbn [bindr]. rewrite (RS _ g_da : resize (0, 0) _ _ _ = _). cbn [bindr].
  rewrite (RS _ g_p : resize (zf, zf, zf, zf, zf) _ _ _ = _). cbn [bindr]. rewrite (RS _ g_v : resize (zf, zf, zf, zf) _ _ _ = _). cbn [bindr].
  unfold zlen at 2. rewrite Nat2Z.id. pose proof (decLines_at l F nev (zlen l) [] q' r) as D. cbv zeta in D. cbn [app List.length] in D. rewrite D.
  - unfold evtOf. replace (zlen (map rdPt l)) with (zlen l) by (unfold zlen; rewrite map_length; reflexivity). reflexivity.
  - rewrite LQ. unfold zlen. rewrite Nat2Z.id. reflexivity.
Qed.
Lemma lineOf_rd g : pt_ok g -> lineOf (rdPt g) = lineOf g.
Proof.
  intros (_ & _ & _ & _ & _ & _ & H7 & H8). destruct g as [st id [m0 m1] [d0 d1] [[[[p0 p1] p2] p3] p4] [[[x y] z] t]]. cbn [g_p g_v mid5 mid4] in *. destruct H7 as (? & ? & ? & ? & ?). destruct H8 as (? & ? & ? & ?).
  assert (R : forall u, mid u -> fE6 (rd u) = fE6 u) by (intros u M; apply (rdE_ok 7 u ltac:(lia) M)).
  unfold lineOf, encLine. cbn [rdPt g_st g_id g_mo g_da g_p g_v rd5 rd4]. rewrite !R by assumption. reflexivity.
Qed.
