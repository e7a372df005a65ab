(* C53: which bytes make an xrootd server panic; C56 on the wire: what a client receives for the requests it sends. *)
From Coq Require Import ZArith List Lia Bool.
From Verif Require Import Bytes GoLib GoStrings XrdModel XrdProofs XrdProps XrdCliModel XrdSrvModel XrdSrvProps.
Import ListNotations.
Local Open Scope Z_scope.

(* ---- C53 ---- *)
Lemma rb1 a r : rbytes 1 (a :: r) = Ok (Some ([a], r)).
Proof. apply (reads_bytes 1 [a]). reflexivity. Qed.
Lemma rb2 a b r : rbytes 2 (a :: b :: r) = Ok (Some ([a; b], r)).
Proof. apply (reads_bytes 2 [a; b]). reflexivity. Qed.
Lemma rb4 a b c d r : rbytes 4 (a :: b :: c :: d :: r) = Ok (Some ([a; b; c; d], r)).
Proof. apply (reads_bytes 4 [a; b; c; d]). reflexivity. Qed.
Lemma rb8 a b c d e f g h r : rbytes 8 (a :: b :: c :: d :: e :: f :: g :: h :: r) = Ok (Some ([a; b; c; d; e; f; g; h], r)).
Proof. apply (reads_bytes 8 [a; b; c; d; e; f; g; h]). reflexivity. Qed.
Lemma ru8_1 a r : ru8 (a :: r) = Ok (Some (unbe [a], r)).
Proof. unfold ru8, bind. rewrite rb1. reflexivity. Qed.
Lemma ru16_2 a b r : ru16 (a :: b :: r) = Ok (Some (unbe [a; b], r)).
Proof. unfold ru16, bind. rewrite rb2. reflexivity. Qed.
Lemma ri32_4 a b c d r : ri32 (a :: b :: c :: d :: r) = Ok (Some (wrapS 32 (unbe [a; b; c; d]), r)).
Proof. unfold ri32, bind. rewrite rb4. reflexivity. Qed.
Lemma ri64_8 a b c d e f g h r : ri64 (a :: b :: c :: d :: e :: f :: g :: h :: r) = Ok (Some (wrapS 64 (unbe [a; b; c; d; e; f; g; h]), r)).
Proof. unfold ri64, bind. rewrite rb8. reflexivity. Qed.
Lemma sk n (a r : list Z) : length a = Z.to_nat n -> skip n (a ++ r) = Ok (Some (tt, r)).
Proof. intros L. unfold skip. rewrite skipn_app_exact by (symmetry; exact L). reflexivity. Qed.
Lemma tail_len d : zlen d < 2 ^ 31 -> ri32 (be 4 (zlen d) ++ d) = Ok (Some (zlen d, d)).
Proof. intros D. apply (reads_i32 (zlen d)). apply inS32_len, D. Qed.
Lemma tail_str d : zlen d < 2 ^ 31 -> rstr (be 4 (zlen d) ++ d) = Ok (Some (d, [])).
Proof. intros D. unfold rstr, bind. rewrite tail_len by exact D. rewrite <- (app_nil_r d) at 2. apply (reads_bytes (zlen d) d). reflexivity. Qed.
Lemma many_ok {A} (f : rd A) w : (forall l, (w <= length l)%nat -> exists x r, f l = Ok (Some (x, r)) /\ length r = (length l - w)%nat) ->
  forall n l, (n * w <= length l)%nat -> exists xs r, rmany n f l = Ok (Some (xs, r)).
Proof.
  intros F. induction n as [|n IH]; intros l L; [exists [], l; reflexivity|]. cbn [Nat.mul] in L. destruct (F l ltac:(lia)) as (x & r & E & Lr). cbn [rmany]. unfold bind at 1. rewrite E.
  destruct (IH r ltac:(lia)) as (xs & r' & E'). unfold bind. rewrite E'. unfold ret. eauto.
Qed.
Lemma rahead_ok l : (16 <= length l)%nat -> exists x r, r_rahead l = Ok (Some (x, r)) /\ length r = (length l - 16)%nat.
Proof.
  intros L. do 16 (destruct l as [|? l]; cbn [length] in L; [lia|]). unfold r_rahead, bind. rewrite rb4, ri32_4, ri64_8. unfold ret.
  eexists _, _. split; [reflexivity|]. cbn [length]. lia.
Qed.
Definition negative (p : list Z) : Prop := wrapS 32 (unbe (firstn 4 (skipn 16 p))) < 0.
Lemma read_body x d : length x = 16%nat -> zlen d < 2 ^ 31 ->
  (d = [] \/ 8 <= zlen d /\ (zlen d - 8) mod 16 = 0 ->
     exists opt, exists r, d_read (x ++ be 4 (zlen d) ++ d) = Ok (Some (Mread (firstn 4 x) (wrapS 64 (unbe (firstn 8 (skipn 4 x)))) (wrapS 32 (unbe (skipn 12 x))) opt, r))) /\
  (~ (d = [] \/ 8 <= zlen d /\ (zlen d - 8) mod 16 = 0) -> d_read (x ++ be 4 (zlen d) ++ d) = Ok None).
Proof.
  intros L D. do 16 (destruct x as [|? x]; [discriminate L|]). destruct x; [|discriminate L]. cbn [app firstn skipn]. unfold d_read, bind. rewrite rb4, ri64_8, ri32_4.
  unfold rlen. rewrite zlen_app, zlen_be. pose proof (zlen_nonneg d). destruct (Z.ltb_spec 4 (Z.of_nat 4 + zlen d)) as [G|G].
  - rewrite tail_len by exact D. destruct d as [|d0 d]; [rewrite zlen_nil in G; lia|]. rewrite ru8_1.
    unfold skip. set (n := zlen (d0 :: d)) in *. destruct (Z.ltb_spec n 8) as [N|N]; cbn [orb].
    + split; [intros [X|X]; [discriminate|lia]|reflexivity].
    + destruct (Z.eqb_spec ((n - 8) mod 16) 0) as [M|M]; cbn [negb].
      * split; [intros _|intros X; exfalso; apply X; right; split; assumption]. destruct (Z.leb_spec n 8); [unfold ret; eauto|].
        destruct (many_ok r_rahead 16 rahead_ok (Z.to_nat ((n - 8) / 16)) (skipn (Z.to_nat 7) d)) as (xs & r & E).
        { rewrite skipn_length. unfold n in *. rewrite zlen_cons in *. unfold zlen in *. pose proof (Z.div_mod (1 + Z.of_nat (length d) - 8) 16 ltac:(lia)). lia. }
        rewrite E. unfold ret. eauto.
      * split; [intros [X|X]; [discriminate|lia]|reflexivity].
  - assert (d = []) by (apply zlen_0_nil; lia). subst d. rewrite tail_len by exact D. change (zlen (@nil Z) =? 0) with true. cbv iota. unfold ret. split; [eauto|]. intros X. exfalso. auto.
Qed.
Lemma body_total k x d : length x = 16%nat -> zlen d < 2 ^ 31 -> In k [Klogin; Kprotocol; Kdirlist; Kopen; Kclose; Kwrite; Kstat; Ksync; Ktruncate; Kmv; Kmkdir; Kping; Krm; Krmdir] ->
  decode k (x ++ be 4 (zlen d) ++ d) <> Panic /\ forall m r, decode k (x ++ be 4 (zlen d) ++ d) = Ok (Some (m, r)) -> match m with Mread _ _ _ _ => False | _ => True end.
Proof.
  intros L D I. do 16 (destruct x as [|? x]; [discriminate L|]). destruct x; [|discriminate L]. remember (be 4 (zlen d) ++ d) as t eqn:T. cbn [app].
  assert (ST : rstr t = Ok (Some (d, []))) by (subst t; apply tail_str, D). clear T.
  assert (S1 : forall n (a : list Z), skip n a = Ok (Some (tt, skipn (Z.to_nat n) a))) by reflexivity.
  cbn [In] in I. decompose [or] I; try contradiction; subst k; cbn [decode]; unfold d_mv, bind, ret;
    repeat (first [rewrite rb4 | rewrite rb8 | rewrite ru8_1 | rewrite ru16_2 | rewrite ri32_4 | rewrite ri64_8 | rewrite ST | rewrite S1;
      match goal with |- context[Z.to_nat ?n] => let v := eval compute in (Z.to_nat n) in change (Z.to_nat n) with v end; cbn [skipn]]);
    try (split; [discriminate|intros m r E; injection E as <- _; exact Logic.I]).
  destruct (zlen d <=? _); [split; discriminate|]. destruct (_ =? -1); [split; discriminate|]. split; [discriminate|intros m r E; injection E as <- _; exact Logic.I].
Qed.
(* A request read from a connection makes the server panic exactly if it is a read with a negative length, on an open handle, well formed otherwise. *)
Theorem C53_exact : forall base attr dirs sidb s sid tries p d, length p = 20%nat -> zlen d < 2 ^ 31 ->
  (handleFrame base attr dirs sidb s sid tries (frame p d) = Panic <->
   unbe (firstn 2 (skipn 2 p)) = 3013 /\ negative p /\ getFile s sid (firstn 4 (skipn 4 p)) <> None /\ (d = [] \/ 8 <= zlen d /\ (zlen d - 8) mod 16 = 0)).
Proof.
  intros base attr dirs sidb s sid tries p d L D. do 4 (destruct p as [|? p]; [discriminate L|]). assert (L' : length p = 16%nat) by (cbn [length] in L; lia). clear L.
  unfold frame, handleFrame, negative. cbn [app decode]. unfold bind. rewrite rb2, ru16_2. unfold ret. cbn [rbind].
  change (skipn 4 (z :: z0 :: z1 :: z2 :: p)) with p. change (skipn 16 (z :: z0 :: z1 :: z2 :: p)) with (skipn 12 p). change (firstn 2 (skipn 2 (z :: z0 :: z1 :: z2 :: p))) with [z1; z2]. set (id := unbe [z1; z2]).
  assert (K : forall k, kind_of_id id = Some k -> (k = Kread /\ id = 3013) \/ (id <> 3013 /\ In k [Klogin; Kprotocol; Kdirlist; Kopen; Kclose; Kwrite; Kstat; Ksync; Ktruncate; Kmv; Kmkdir; Kping; Krm; Krmdir])).
  { intros k. unfold kind_of_id. repeat match goal with |- context[id =? ?n] => destruct (Z.eqb_spec id n) as [?|?] end; intros E; try discriminate; injection E as <-; cbn [In]; try tauto; right; (split; [lia|tauto]). }
  destruct (kind_of_id id) as [k|] eqn:Ek.
  - destruct (K k eq_refl) as [(-> & E3)|(N3 & I)].
    + cbn [decode]. destruct (read_body p d L' D) as (A & B). assert (Dec : (d = [] \/ 8 <= zlen d /\ (zlen d - 8) mod 16 = 0) \/ ~ (d = [] \/ 8 <= zlen d /\ (zlen d - 8) mod 16 = 0)).
      { destruct d; [auto|]. destruct (Z.le_gt_cases 8 (zlen (z3 :: d))); [|right; intros [X|X]; [discriminate|lia]]. destruct (Z.eq_dec ((zlen (z3 :: d) - 8) mod 16) 0); [auto|]. right. intros [X|X]; [discriminate|lia]. }
      destruct Dec as [G|G].
      * destruct (A G) as (opt & r & E). rewrite E. cbn [rbind XrdSrvModel.handle]. unfold doRead.
        replace (firstn 4 (skipn 12 p)) with (skipn 12 p) by (symmetry; apply firstn_all2; rewrite skipn_length; lia).
        destruct (getFile s sid (firstn 4 p)) as [j|]; [|cbn [rbind]; split; [discriminate|intros (_ & _ & X & _); congruence]].
        unfold srv_read. destruct (Z.ltb_spec (wrapS 32 (unbe (skipn 12 p))) 0) as [N|N]; cbn [rbind].
        -- split; [intros _|reflexivity]. repeat split; auto. discriminate.
        -- split; [|intros (_ & X & _); lia]. match goal with |- context[?a <? 0] => destruct (a <? 0) end; cbn [rbind]; discriminate.
      * rewrite (B G). cbn [rbind]. split; [discriminate|]. intros (_ & _ & _ & X). contradiction.
    + destruct (body_total k p d L' D I) as (A & B). split; [|intros (X & _); contradiction]. destruct (decode k (p ++ be 4 (zlen d) ++ d)) as [[[m r]|]|]; [|cbn [rbind]; discriminate|congruence].
      specialize (B m r eq_refl). cbn [rbind]. destruct m; try contradiction; cbn [XrdSrvModel.handle rbind]; discriminate.
  - split; [discriminate|]. intros (X & _). rewrite X in Ek. discriminate.
Qed.
Lemma readFull_inv c : forall n b c', readFull c n = Some (b, c') -> length b = n /\ concat c = b ++ concat c'.
Proof.
  induction c as [|p c IH]; intros n b c' E; destruct n as [|n]; cbn [readFull] in E; try discriminate; try (injection E as <- <-; split; reflexivity).
  destruct (Nat.ltb_spec (S n) (length p)) as [L|L].
  - apply some_eq, pair_equal_spec in E. destruct E as [-> ->]. split; [rewrite firstn_length; lia|]. cbn [concat]. rewrite app_assoc, firstn_skipn. reflexivity.
  - destruct (readFull c (S n - length p)) as [[x y]|] eqn:E'; [|discriminate]. injection E as <- <-. apply IH in E'. destruct E' as (A & B). split; [rewrite app_length; lia|]. cbn [concat]. rewrite B, app_assoc. reflexivity.
Qed.
Lemma readRequest_inv c r c' : bytes_ok (concat c) -> readRequest c = Some (r, c') -> concat c = r ++ concat c' /\ exists p d, r = frame p d /\ length p = 20%nat.
Proof.
  intros B E. unfold readRequest in E. destruct (readFull c 24) as [[h c1]|] eqn:E1; [|discriminate]. apply readFull_inv in E1. destruct E1 as (L & C). rewrite C in B. apply bytes_ok_app in B. destruct B as (B1 & B2).
  assert (Q : h = firstn 20 h ++ be 4 (unbe (skipn 20 h))). { rewrite <- (firstn_skipn 20 h) at 1. f_equal. symmetry. pose proof (be_unbe (skipn 20 h) (bytes_ok_skipn 20 _ B1)) as X. rewrite skipn_length, L in X. exact X. }
  pose proof (unbe_bound _ (bytes_ok_skipn 20 _ B1)) as U. destruct (Z.eqb_spec (unbe (skipn 20 h)) 0) as [Z0|Z0].
  - injection E as <- <-. split; [exact C|]. exists (firstn 20 h), []. split; [unfold frame; rewrite zlen_nil, app_nil_r, <- Z0; exact Q|rewrite firstn_length; lia].
  - destruct (readFull c1 _) as [[d c2]|] eqn:E2; [|discriminate]. injection E as <- <-. apply readFull_inv in E2. destruct E2 as (L2 & C2). split; [rewrite C, C2, app_assoc; reflexivity|].
    exists (firstn 20 h), d. split; [|rewrite firstn_length; lia]. unfold frame, zlen. rewrite L2, Z2Nat.id by lia. rewrite app_assoc, <- Q. reflexivity.
Qed.
(* a request with less than 2^31 bytes of data that does not read a negative number of bytes *)
Definition harmless (r : list Z) : Prop := zlen r < 2 ^ 31 + 24 /\ (unbe (firstn 2 (skipn 2 r)) = 3013 -> 0 <= wrapS 32 (unbe (firstn 4 (skipn 16 r)))).
(* On any bytes, from any state: if the requests they contain are harmless the server answers and goes on. *)
Theorem C53_serve : forall base attr dirs sidb n s sid tries c, bytes_ok (concat c) ->
  (forall k rs c', requests k c = Some (rs, c') -> Forall harmless rs) ->
  exists s' out, serve base attr dirs sidb n s sid tries c = Ok (s', out).
Proof.
  intros base attr dirs sidb n. induction n as [|n IH]; intros s sid tries c B H; cbn [serve]; [eauto|]. destruct (readRequest c) as [[r c']|] eqn:E; [|eauto].
  destruct (readRequest_inv c r c' B E) as (C & p & d & -> & L).
  assert (Hr : harmless (frame p d)). { specialize (H 1%nat [frame p d] c'). cbn [requests] in H. rewrite E in H. specialize (H eq_refl). inversion H. assumption. }
  destruct Hr as (Z1 & Z2). unfold frame in Z1. rewrite !zlen_app, zlen_be in Z1. assert (zlen p = 20) by (unfold zlen; lia).
  destruct (handleFrame base attr dirs sidb s sid (tries (S n)) (frame p d)) as [[s1 [st rep]]|] eqn:F.
  - cbn [rbind]. destruct (IH s1 sid tries c') as (s2 & out & E2).
    + rewrite C in B. apply bytes_ok_app in B. tauto.
    + intros k rs c2 R. specialize (H (S k) (frame p d :: rs) c2). cbn [requests] in H. rewrite E, R in H. specialize (H eq_refl). inversion H. assumption.
    + rewrite E2. cbn [rbind]. eauto.
  - exfalso. apply C53_exact in F; [|exact L|lia]. destruct F as (F1 & F2 & _). unfold negative in F2.
    assert (G : forall k, (k < 20)%nat -> forall m, (k + m <= 20)%nat -> firstn m (skipn k (frame p d)) = firstn m (skipn k p)).
    { intros k K m M. unfold frame. rewrite skipn_app. replace (k - length p)%nat with 0%nat by lia. cbn [skipn]. rewrite firstn_app, skipn_length. replace (m - (length p - k))%nat with 0%nat by lia. cbn [firstn]. apply app_nil_r. }
    rewrite !G in Z2 by lia. specialize (Z2 F1). lia.
Qed.
(* A client can make the server panic: a read of -1 bytes from a file it has opened. *)
Definition crash_open : msg := Mopen 0 16 [97].
Definition crash_srv : srv := {| o_names := [([47; 100; 47; 97], 0%nat)]; o_inodes := [[1; 2; 3]]; o_fds := []; o_sess := [] |}.
Theorem C53_negative_refuted : exists s sid tries m1 m2 b1 b2 c, fresh s /\ sent ([0; 1], 3010, m1) b1 /\ sent ([0; 2], 3013, m2) b2 /\ concat c = b1 ++ b2 /\
  (forall k rs c', requests k c = Some (rs, c') -> Forall (fun r => zlen r < 2 ^ 31) rs) /\
  serve [47; 100] (fun _ => (0, 0)) (fun _ _ => invalid) (repeat 7 16) 2 s sid tries c = Panic.
Proof.
  exists crash_srv, 5, (fun _ => [[1; 2; 3; 4]]), crash_open, (Mread [1; 2; 3; 4] 0 (-1) None).
  eexists. eexists. eexists [_]. split; [|split; [|split; [|split; [|split]]]].
  - unfold fresh, crash_srv. cbn. repeat split; auto; repeat constructor; auto.
  - cbn. unfold size_ok, inU, zlen. cbn. repeat split; try lia; reflexivity.
  - cbn. unfold inU, inS. repeat split; try lia; try reflexivity; discriminate.
  - cbn [concat]. apply app_nil_r.
  - intros k rs c' R. apply Forall_forall. intros r I. enough (H : zlen r <= 49) by lia.
    assert (G : forall k c rs c', requests k c = Some (rs, c') -> forall r, In r rs -> zlen r <= zlen (concat c)).
    { clear. induction k as [|k IH]; intros c rs c' R r I; cbn [requests] in R; [injection R as <- <-; destruct I|].
      destruct (readRequest c) as [[r1 c1]|] eqn:E; [|discriminate]. destruct (requests k c1) as [[rs1 c2]|] eqn:E2; [|discriminate]. apply some_eq, pair_equal_spec in R. destruct R as [-> ->].
      assert (X : concat c = r1 ++ concat c1).
      { unfold readRequest in E. destruct (readFull c 24) as [[h c0]|] eqn:E0; [|discriminate]. apply readFull_inv in E0. destruct E0 as (_ & C0). destruct (_ =? 0); [apply some_eq, pair_equal_spec in E; destruct E as [-> ->]; exact C0|].
        destruct (readFull c0 _) as [[d c3]|] eqn:E3; [|discriminate]. apply some_eq, pair_equal_spec in E; destruct E as [-> ->]. apply readFull_inv in E3. destruct E3 as (_ & C3). rewrite C0, C3, app_assoc. reflexivity. }
      rewrite X, zlen_app. pose proof (zlen_nonneg (concat c1)). pose proof (zlen_nonneg r1). destruct I as [<-|I]; [lia|]. specialize (IH _ _ _ E2 r I). lia. }
    specialize (G _ _ _ _ R r I). etransitivity; [exact G|]. vm_compute. discriminate.
  - vm_compute. reflexivity.
Qed.
(* So can any bytes of data of 2^31 or more, here with a request to remove a file. *)
Theorem C53_large_refuted : exists req, (forall base attr dirs sidb s sid tries, handleFrame base attr dirs sidb s sid tries req = Panic) /\
  exists p d, req = frame p d /\ length p = 20%nat /\ zlen d < 2 ^ 32.
Proof.
  set (d := repeat 97 (Z.to_nat (2 ^ 31))). assert (D : zlen d = 2 ^ 31) by (unfold d; rewrite zlen_repeat; lia). clearbody d.
  exists (frame ([0; 1] ++ be 2 3014 ++ next 16) d). split; [|eexists _, d; repeat split; lia]. intros. unfold handleFrame, frame.
  change (([0; 1] ++ be 2 3014 ++ next 16) ++ be 4 (zlen d) ++ d) with (0 :: 1 :: 11 :: 198 :: next 16 ++ be 4 (zlen d) ++ d). cbn [decode]. unfold bind at 1. rewrite rb2. unfold bind. rewrite ru16_2. unfold ret at 1.
  cbn [rbind]. change (kind_of_id (unbe [11; 198])) with (Some Krm). cbv iota beta. cbn [decode]. unfold bind. rewrite sk by reflexivity. unfold rstr, bind, ri32, bind.
  rewrite (reads_bytes 4 (be 4 (zlen d))) by (rewrite zlen_be; reflexivity). unfold ret. rewrite D. change (wrapS 32 (unbe (be 4 (2 ^ 31)))) with (- 2 ^ 31). reflexivity.
Qed.
Example C53_example : exists s out, serve [47; 100] (fun _ => (0, 0)) (fun _ _ => invalid) (repeat 7 16) 2 crash_srv 5 (fun _ => [[1; 2; 3; 4]])
    [[0; 1; 11; 194; 0; 0; 0; 16] ++ next 12 ++ [0; 0; 0; 1; 97]; [0; 2; 11; 197; 1; 2; 3; 4] ++ next 8 ++ [0; 0; 0; 9; 0; 0; 0; 0]] = Ok (s, out) /\
  out = [0; 1; 0; 0; 0; 0; 0; 4; 1; 2; 3; 4; 0; 2; 0; 0; 0; 0; 0; 3; 1; 2; 3].
Proof. eexists. eexists. split; [vm_compute; reflexivity|reflexivity]. Qed.

(* ---- C56 on the wire ---- *)
Lemma udec_len f n : 0 <= n -> (length (udec_fuel f n) <= f)%nat.
Proof. revert n. induction f as [|f IH]; intros n H; cbn [udec_fuel length]; [lia|]. destruct (n <? 10); cbn [length]; [lia|]. rewrite app_length. cbn [length]. assert (0 <= n / 10) by (apply Z.div_pos; lia). specialize (IH (n / 10) ltac:(lia)). lia. Qed.
Lemma itoa_len n : inS 64 n -> zlen (itoa n) <= 65.
Proof.
  intros H. unfold inS in H. assert (U : forall k, 0 <= k <= 2 ^ 63 -> zlen (udec k) <= 64).
  { intros k K. unfold udec. pose proof (udec_len (S (Z.to_nat (Z.log2 k))) k ltac:(lia)) as L. unfold zlen. assert (Z.log2 k <= 63) by (change 63 with (Z.log2 (2 ^ 63)); apply Z.log2_le_mono; lia). pose proof (Z.log2_nonneg k). lia. }
  unfold itoa. destruct (Z.ltb_spec n 0); [rewrite zlen_cons; pose proof (U (- n) ltac:(lia)); lia|pose proof (U n ltac:(lia)); lia].
Qed.
Lemma stat_len e : stat_ok e -> zlen (w_estat e) <= 300.
Proof.
  intros (A & B & C & D & F). unfold w_estat. rewrite A. rewrite ?zlen_app, ?zlen_cons, ?zlen_app, ?zlen_cons, ?zlen_app, ?zlen_cons, ?zlen_app.
  pose proof (itoa_len _ B). pose proof (itoa_len _ C). pose proof (itoa_len _ (inS32_64 _ D)). pose proof (itoa_len _ F). lia.
Qed.
Section Wire.
Variable base : list Z.
Variable attr : nat -> Z * Z.
Variable dirs : srv -> msg -> reply.
Variable sidb : list Z.
Hypothesis attr_ok : forall i, inS 32 (fst (attr i)) /\ inS 64 (snd (attr i)).
Hypothesis sidb_ok : length sidb = 16%nat.
Definition sizes (s : srv) : Prop := forall i, zlen (content s i) < 2 ^ 63.
Definition good (r : reply) : Prop :=
  inU 16 (fst r) /\ match snd r with None => True | Some m => sendable m /\ forall b, encode m = Some b -> zlen b < 2 ^ 31 end.
(* no request on directories; no open that asks for a status and for a compressed file at once; handles of four bytes *)
Definition plain_req (m : msg) : Prop := match m with Mdirlist _ _ | Mmkdir _ _ _ | Mrmdir _ => False | Mopen _ o _ => bit o 1024 && bit o 1 = false | _ => True end.
Lemma good_err c : good (4003, Some (Merror c [])) <-> inS 32 c.
Proof.
  unfold good. cbn [fst snd sendable encode]. split; [tauto|]. intros H. split; [unfold inU; lia|split; [exact H|]]. intros b E. apply some_eq in E. subst b. cbn [app]. rewrite zlen_app. unfold wi32. rewrite zlen_be. cbn. lia.
Qed.
Lemma good_invalid : good invalid.
Proof. apply good_err. unfold inS. lia. Qed.
Lemma good_io : good ioerror.
Proof. apply good_err. unfold inS. lia. Qed.
Lemma good_done : good done.
Proof. split; [unfold inU; cbn; lia|exact I]. Qed.
Lemma stat_entry s i : sizes s -> stat_ok (entryStat attr s i).
Proof. intros Z1. unfold stat_ok, entryStat. cbn. pose proof (zlen_nonneg (content s i)). specialize (Z1 i). destruct (attr_ok i). unfold inS in *. repeat split; try lia. Qed.
Lemma good_stat s i : sizes s -> good (0, Some (MstatR (entryStat attr s i))).
Proof.
  intros Z1. pose proof (stat_entry s i Z1) as K. split; [unfold inU; cbn; lia|]. cbn [snd sendable encode]. split; [split; [exact K|reflexivity]|]. intros b E. apply some_eq in E. subst b. pose proof (stat_len _ K). lia.
Qed.
Lemma sizes_set s i c : sizes s -> zlen c < 2 ^ 63 -> sizes (setIno s i c).
Proof.
  intros Z1 L j. unfold content. cbn [setIno o_inodes]. destruct (Nat.eq_dec i j) as [->|N].
  - destruct (Nat.lt_ge_cases j (length (o_inodes s))) as [X|X]; [rewrite nth_seti, Nat.eqb_refl by exact X; exact L|]. rewrite nth_overflow by (rewrite length_seti; exact X). rewrite zlen_nil. lia.
  - rewrite nth_seti_other by exact N. apply Z1.
Qed.
Lemma good_step s sid tries m s' r : sizes s -> Forall (fun h => length h = 4%nat) tries -> sendable m -> plain_req m ->
  handle base attr dirs sidb s sid tries m = Ok (s', r) -> sizes s' /\ good r.
Proof.
  intros Z1 T V P E.
  destruct m; cbn [XrdSrvModel.handle plain_req sendable] in *; try contradiction; try (injection E as <- <-; split; [exact Z1|first [exact good_invalid | exact good_done]]).
  - (* sync *) injection E as <- <-. split; [exact Z1|]. unfold doSync. destruct (getFile s sid handle); [|exact good_invalid]. destruct (fd_open _); [exact good_done|exact good_io].
  - (* close *) unfold doClose in E. destruct (getFile s sid handle); injection E as <- <-; (split; [exact Z1|]); [|exact good_invalid]. destruct (fd_open _); [exact good_done|exact good_io].
  - (* rm *) unfold doRemove in E. destruct (nget _ _); injection E as <- <-; (split; [exact Z1|]); [exact good_done|exact good_io].
  - (* truncate *) destruct V as (_ & Sz & _). assert (R : forall c, zlen (resize c size) < 2 ^ 63).
    { intros c. unfold resize. rewrite zlen_app, zlen_repeat. unfold zlen. rewrite firstn_length. unfold inS in Sz. lia. }
    unfold doTruncate in E. destruct path as [|c path].
    + destruct (getFile s sid handle); [|injection E as <- <-; split; [exact Z1|exact good_invalid]]. unfold os_truncate in E. destruct (_ && _); injection E as <- <-; [|split; [exact Z1|exact good_io]].
      split; [apply sizes_set; auto|exact good_done].
    + destruct (nget _ _); [|injection E as <- <-; split; [exact Z1|exact good_io]]. unfold os_truncate in E. destruct (_ && _); injection E as <- <-; [|split; [exact Z1|exact good_io]].
      split; [apply sizes_set; auto|exact good_done].
  - (* mv *) unfold doRename in E. destruct (nget _ _); injection E as <- <-; (split; [exact Z1|]); [exact good_done|exact good_io].
  - (* write *) unfold doWrite in E. destruct (getFile s sid handle) as [j|]; [|injection E as <- <-; split; [exact Z1|exact good_invalid]]. unfold os_write in E.
    destruct (fd_app _ || (off <? 0)) eqn:A; [injection E as <- <-; split; [exact Z1|exact good_io]|]. destruct data as [|d data]; [injection E as <- <-; split; [exact Z1|exact good_done]|].
    destruct (_ && _ && (off + zlen (d :: data) <? 2 ^ 63)) eqn:B; injection E as <- <-; [|split; [exact Z1|exact good_io]]. split; [|exact good_done]. apply sizes_set; [exact Z1|].
    apply andb_true_iff in B. destruct B as (_ & B). apply Z.ltb_lt in B. apply orb_false_iff in A. destruct A as (_ & A). apply Z.ltb_ge in A. unfold write_at. rewrite !zlen_app, zlen_repeat.
    specialize (Z1 (fd_ino (fd_of s j))). unfold zlen in *. rewrite firstn_length, skipn_length. lia.
  - (* stat *) injection E as <- <-. split; [exact Z1|]. unfold doStat. destruct (bit options 1); [exact good_invalid|]. destruct path.
    + destruct (getFile s sid handle); [|exact good_invalid]. cbv zeta. destruct (fd_open _); [apply good_stat, Z1|exact good_io].
    + destruct (nget _ _); [apply good_stat, Z1|exact good_io].
  - (* login *) injection E as <- <-. split; [exact Z1|]. split; [unfold inU; cbn; lia|]. cbn [snd sendable encode]. split; [exact sidb_ok|]. intros b E. apply some_eq in E. subst b. rewrite app_nil_r. unfold zlen. lia.
  - (* open *) injection E as E. unfold doOpen in E. destruct (os_open s (pjoin base path) options) as [[s1 j]|] eqn:Eo; [|injection E as <- <-; split; [exact Z1|exact good_io]].
    assert (Z2 : sizes s1).
    { unfold os_open in Eo. cbv zeta in Eo. destruct (nget (o_names s) (pjoin base path)) as [i|].
      - destruct (bit options 8 && negb (bit options 2)); [discriminate|]. injection Eo as <- _. destruct (bit options 2); [|exact Z1]. apply (sizes_set s i [] Z1). rewrite zlen_nil. lia.
      - destruct (bit options 8 || bit options 2); [|discriminate]. injection Eo as <- _. intros k. unfold content. cbn [o_inodes]. destruct (Nat.lt_ge_cases k (length (o_inodes s))); [rewrite app_nth1 by lia; apply Z1|].
        rewrite app_nth2 by lia. destruct (k - length (o_inodes s))%nat as [|[|x]]; cbn [nth]; rewrite zlen_nil; lia. }
    cbv zeta in E. destruct (pick tries _) as [h|] eqn:Ep; injection E as <- <-; [|split; [exact Z2|exact good_invalid]]. split; [exact Z2|].
    assert (Lh : length h = 4%nat). { revert Ep. generalize (handles s1 sid) as u. clear -T. induction T as [|x l Lx T IH]; intros u Ep; cbn [pick] in Ep; [discriminate|]. destruct (nget u x); [eauto|]. injection Ep as <-. exact Lx. }
    set (e := entryStat attr _ _). assert (Ke : stat_ok e) by (apply stat_entry; exact Z2). split; [unfold inU; cbn; lia|]. cbn [snd sendable encode].
    destruct (bit options 1024); cbn [andb] in *; [rewrite P; cbn [negb]|].
    + split; [split; [exact Lh|split]|].
      * intros c' X. injection X as <-. cbn. unfold inS. split; [lia|reflexivity].
      * intros s2 X. injection X as <-. split; [discriminate|]. split; [exact Ke|reflexivity].
      * intros b X. apply some_eq in X. subst b. pose proof (stat_len _ Ke). rewrite !zlen_app. unfold w_fcomp, wi32. rewrite zlen_app, zlen_be. cbn [fc_type fc_page]. change (zlen [0; 0; 0; 0]) with 4. unfold zlen at 1. lia.
    + split; [split; [exact Lh|split; discriminate]|]. intros b X. apply some_eq in X. subst b. rewrite app_nil_r. unfold zlen. lia.
  - (* protocol *) injection E as <- <-. split; [exact Z1|]. split; [unfold inU; cbn; lia|]. cbn [snd sendable encode]. split; [unfold inS; repeat split; try lia; discriminate|]. intros b E. apply some_eq in E. subst b. unfold wi32. rewrite app_nil_r, zlen_app, !zlen_be. lia.
  - (* read *) unfold doRead in E. destruct (getFile s sid handle) as [j|]; [|injection E as <- <-; split; [exact Z1|exact good_invalid]]. unfold srv_read in E.
    destruct (Z.ltb_spec len 0); [discriminate|]. destruct (off <? 0); cbn [rbind] in E; injection E as <- <-; (split; [exact Z1|]); [exact good_io|]. destruct (_ || _); [|exact good_io].
    split; [unfold inU; cbn; lia|]. cbn [snd sendable encode]. split; [exact I|]. intros b E. apply some_eq in E. subst b. destruct V as (_ & _ & V & _). unfold inS in V. unfold zlen. rewrite firstn_length. lia.
Qed.
(* the history of one session that sends requests qs; tries n gives the handles tried for the request with n left to answer, itself included *)
Fixpoint reqs (sid : Z) (tries : nat -> list (list Z)) (qs : list (list Z * Z * msg)) : list event :=
  match qs with [] => [] | q :: qs' => Req sid (tries (length qs)) (snd q) :: reqs sid tries qs' end.
(* a response carries the stream of its request, the status, and bytes from which the reply is decoded *)
Definition received (qr : (list Z * Z * msg) * reply) (got : list Z * Z * list Z) : Prop :=
  let '((stream, _, _), (st, rep)) := qr in let '(stream', st', d) := got in
  stream' = stream /\ st' = st /\ match rep with None => d = [] | Some m => decode (kind_of m) d = Ok (Some (m, [])) end.
Lemma frame_handled q bs s sid tries s' r : sent q bs -> kind_of_id (snd (fst q)) = Some (kind_of (snd q)) ->
  handle base attr dirs sidb s sid tries (snd q) = Ok (s', r) -> handleFrame base attr dirs sidb s sid tries bs = Ok (s', (fst (fst q), r)).
Proof.
  intros S K E. apply sent_understood in S. destruct q as [[st id] m]. cbn [fst snd understood] in *. destruct S as (body & A & B). unfold handleFrame. rewrite A. cbn [rbind]. rewrite K, B. cbn [rbind]. rewrite E. reflexivity.
Qed.
Lemma reply_sent stream r : length stream = 2%nat -> good r -> exists d, replyBytes stream r = writeResponse stream (fst r) d /\ zlen d < 2 ^ 31 /\
  match snd r with None => d = [] | Some m => decode (kind_of m) d = Ok (Some (m, [])) end.
Proof.
  intros L (U & G). unfold replyBytes. destruct r as [st [m|]]; cbn [fst snd] in *; [|exists []; split; [reflexivity|split; [rewrite zlen_nil; lia|reflexivity]]].
  destruct G as (V & B). destruct (C33_total m V) as (b & E). rewrite E. exists b. split; [reflexivity|split; [auto|]]. rewrite <- (app_nil_r b) at 1. apply C33_round_trip; auto.
Qed.
Theorem C56_wire : forall qs bss, Forall2 sent qs bss -> forall s sid tries c rest s' rs,
  Forall (fun q => kind_of_id (snd (fst q)) = Some (kind_of (snd q)) /\ plain_req (snd q)) qs -> (forall n, Forall (fun h => length h = 4%nat) (tries n)) -> sizes s ->
  concat c = concat bss ++ rest -> run base attr dirs (fun _ => sidb) s (reqs sid tries qs) = Ok (s', rs) ->
  length rs = length qs /\
  exists out, serve base attr dirs sidb (length qs) s sid tries c = Ok (s', out) /\
    forall cc, concat cc = out -> exists got cc', responses (length qs) cc = Ok (Some (got, cc')) /\ concat cc' = [] /\ Forall2 received (combine qs rs) got.
Proof.
  intros qs bss F. induction F as [|q bs qs bss Sn F IH]; intros s sid tries c rest s' rs K T Z1 C E.
  - cbn [reqs run] in E. injection E as <- <-. split; [reflexivity|]. exists []. split; [reflexivity|]. intros cc Ec. exists [], cc. split; [reflexivity|]. split; [exact Ec|constructor].
  - inversion K as [|x y (K1 & K2) K3]; subst. cbn [reqs run length] in E. destruct (handle base attr dirs sidb s sid (tries (S (length qs))) (snd q)) as [[s1 r]|] eqn:E1; [|discriminate]. cbn [rbind fst snd] in E.
    destruct (run base attr dirs (fun _ => sidb) s1 (reqs sid tries qs)) as [[s2 rs2]|] eqn:E2; [|discriminate]. cbn [rbind fst snd] in E. apply (f_equal (fun x => match x with Ok y => y | Panic => (s2, []) end)) in E. apply pair_equal_spec in E. destruct E as [<- <-].
    pose proof Sn as S'. destruct q as [[stream id] m]. cbn [fst snd] in *. destruct S' as (Ls & _ & _ & Vm & _).
    destruct (good_step s sid _ m s1 r Z1 (T _) Vm K2 E1) as (Z2 & G).
    destruct (sent_frame _ _ Sn) as (p & d & -> & P & D). cbn [concat] in C. rewrite <- app_assoc in C. destruct (readRequest_frame c p d _ P ltac:(lia) C) as (c1 & R & C1).
    destruct (IH s1 sid tries c1 rest s2 rs2 K3 T Z2 C1 E2) as (Lr & out & Es & Hc). split; [cbn [length]; congruence|].
    exists (replyBytes stream r ++ out). cbn [serve length]. rewrite R. rewrite (frame_handled _ _ s sid (tries (S (length qs))) s1 r Sn K1 E1). cbn [rbind fst snd]. rewrite Es. cbn [rbind fst snd]. split; [reflexivity|].
    intros cc Ec. destruct (reply_sent stream r Ls G) as (b & Eb & Lb & Db). rewrite Eb in Ec. destruct G as (U & _). destruct (readResponse_ok cc stream (fst r) b out Ls U Lb Ec) as (cc1 & R1 & Cc1).
    destruct (Hc cc1 Cc1) as (got & cc2 & R2 & Cc2 & Hg). exists ((stream, fst r, b) :: got), cc2. cbn [responses]. rewrite R1, R2. split; [reflexivity|]. split; [exact Cc2|]. cbn [combine]. constructor; [|exact Hg].
    destruct r as [st rep]. cbn [received fst snd] in *. auto.
Qed.
(* A client that sends any requests the specification covers, one after the other, to a server just started: the responses come in order, each
   on the stream of its request, and tell what the specification tells; the files are as the specification has them. *)
Theorem C56_client : forall qs bss s sid tries c, fresh s -> sizes s -> Forall2 sent qs bss ->
  Forall (fun q => kind_of_id (snd (fst q)) = Some (kind_of (snd q)) /\ plain_req (snd q)) qs -> (forall n, Forall (fun h => length h = 4%nat) (tries n)) ->
  concat c = concat bss -> all_covered base (fun _ => sidb) (spec_of s) (reqs sid tries qs) ->
  exists s' out rs, serve base attr dirs sidb (length qs) s sid tries c = Ok (s', out) /\
    map erase rs = snd (spec_run base (fun _ => sidb) (spec_of s) (reqs sid tries qs)) /\
    (forall q, option_map (content s') (nget (o_names s') q) = f_of (fst (spec_run base (fun _ => sidb) (spec_of s) (reqs sid tries qs))) q) /\
    length rs = length qs /\
    forall cc, concat cc = out -> exists got cc', responses (length qs) cc = Ok (Some (got, cc')) /\ concat cc' = [] /\ Forall2 received (combine qs rs) got.
Proof.
  intros qs bss s sid tries c F Z1 S K T C Cv. destruct (C56_server base dirs (fun _ => sidb) attr s _ F Cv) as (s' & rs & R & M & Fs).
  destruct (C56_wire qs bss S s sid tries c [] s' rs K T Z1 ltac:(rewrite app_nil_r; exact C) R) as (L & out & Es & Hc). exists s', out, rs. auto.
Qed.
End Wire.
(* A session of seven requests: create a file, write to it, write past its end, read it back, cut it to two bytes, ask for its size, close it. *)
Definition demo : list (list Z * Z * msg) :=
  let h := [1; 2; 3; 4] in
  [([0; 1], 3010, Mopen 0 40 [98]); ([0; 2], 3019, Mwrite h 0 0 [10; 11; 12]); ([0; 3], 3019, Mwrite h 5 0 [13]); ([0; 4], 3013, Mread h 1 100 None);
   ([0; 5], 3028, Mtruncate h 2 []); ([0; 6], 3017, Mstat 0 h []); ([0; 7], 3003, Mclose h 0); ([0; 8], 3013, Mread h 0 1 None)].
Example C56_client_example : exists bss, Forall2 sent demo bss /\
  Forall (fun q => kind_of_id (snd (fst q)) = Some (kind_of (snd q)) /\ plain_req (snd q)) demo /\ fresh crash_srv /\ sizes crash_srv /\
  all_covered [47; 100] (fun _ => repeat 7 16) (spec_of crash_srv) (reqs 5 (fun _ => [[1; 2; 3; 4]]) demo) /\
  snd (spec_run [47; 100] (fun _ => repeat 7 16) (spec_of crash_srv) (reqs 5 (fun _ => [[1; 2; 3; 4]]) demo)) =
    [(0, Some (MopenR [1; 2; 3; 4] None None)); done; done; (0, Some (MreadR [11; 12; 0; 0; 13])); done; (0, Some (MstatR (size_of [10; 11]))); done; invalid].
Proof.
  eexists. split; [|split; [|split; [|split; [|split]]]].
  - unfold demo. repeat (apply Forall2_cons; [unfold sent; cbn [is_request sendable]; unfold size_ok, inU, inS, zlen; cbn [length]; repeat split; try lia; try reflexivity; try discriminate|]). apply Forall2_nil.
  - unfold demo. repeat (apply Forall_cons; [split; reflexivity || exact I|]). apply Forall_nil.
  - unfold fresh, crash_srv. cbn. repeat split; auto; repeat constructor; auto.
  - intros [|[|i]]; unfold crash_srv, content; cbn; lia.
  - cbn. repeat split; auto; lia.
  - vm_compute. reflexivity.
Qed.
(* An open that asks for a status and for a compressed file at once gets a response without the status: the server has one and it is not sent. *)
Theorem C56_status_refuted : exists s s' h st b, fresh s /\
  handle [47; 100] (fun _ => (0, 0)) (fun _ _ => invalid) (repeat 7 16) s 5 [[1; 2; 3; 4]] (Mopen 0 1041 [97]) = Ok (s', (0, Some (MopenR h None (Some st)))) /\
  es_size st = 3 /\ encode (MopenR h None (Some st)) = Some b /\ decode KopenR b = Ok (Some (MopenR h None None, [])).
Proof.
  exists crash_srv. eexists. eexists. eexists. eexists. split; [unfold fresh, crash_srv; cbn; repeat split; auto; repeat constructor; auto|]. split; [reflexivity|]. split; [reflexivity|]. split; [reflexivity|]. vm_compute. reflexivity.
Qed.
(* The size given when a file is closed is not checked. *)
Theorem C56_close_size_refuted : exists s s' , fresh s /\
  run [47; 100] (fun _ => (0, 0)) (fun _ _ => invalid) (fun _ => repeat 7 16) s [Req 5 [[1; 2; 3; 4]] (Mopen 0 16 [97]); Req 5 [] (Mclose [1; 2; 3; 4] 1000)] =
    Ok (s', [(0, Some (MopenR [1; 2; 3; 4] None None)); done]) /\ content s' 0 = [1; 2; 3].
Proof.
  exists crash_srv. eexists. split; [unfold fresh, crash_srv; cbn; repeat split; auto; repeat constructor; auto|]. split; [vm_compute; reflexivity|reflexivity].
Qed.
(* A file is opened, and stays open, when no handle is free for it; ending the session does not close it. *)
Theorem C56_leak_refuted : exists s es s' rs, fresh s /\ (forall sid tries m, In (Req sid tries m) es -> sid = 5) /\ In (End 5) es /\
  run [47; 100] (fun _ => (0, 0)) (fun _ _ => invalid) (fun _ => repeat 7 16) s es = Ok (s', rs) /\ o_sess s' = [] /\ exists f, In f (o_fds s') /\ fd_open f = true.
Proof.
  exists crash_srv, [Req 5 [[1; 2; 3; 4]] (Mopen 0 16 [97]); Req 5 (repeat [1; 2; 3; 4] 100) (Mopen 0 16 [97]); End 5]. eexists. eexists.
  split; [unfold fresh, crash_srv; cbn; repeat split; auto; repeat constructor; auto|]. split; [|split; [cbn; auto|split; [vm_compute; reflexivity|split; [reflexivity|]]]].
  - intros sid tries m I. cbn in I. decompose [or] I; try contradiction; congruence.
  - eexists. split; [right; left; reflexivity|reflexivity].
Qed.
Print Assumptions C53_exact.
Print Assumptions C53_serve.
Print Assumptions C53_negative_refuted.
Print Assumptions C53_large_refuted.
Print Assumptions C56_wire.
Print Assumptions C56_client.
Print Assumptions C56_status_refuted.
Print Assumptions C56_close_size_refuted.
Print Assumptions C56_leak_refuted.
