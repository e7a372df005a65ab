(* C33 and C34 for xrootd. *)
From Coq Require Import ZArith List Lia Bool.
From Verif Require Import Bytes GoLib GoStrings XrdModel XrdProofs.
Import ListNotations.
Local Open Scope Z_scope.

(* ---- C33: what is sent is what is received ---- *)
Definition size_ok (s : list Z) : Prop := zlen s < 2 ^ 31.
Definition stat_ok (e : estat) : Prop :=
  es_has e = true /\ inS 64 (es_id e) /\ inS 64 (es_size e) /\ inS 32 (es_flags e) /\ inS 64 (es_mtime e).
(* a name without any information *)
Definition bare (e : estat) : Prop := e = {| es_name := es_name e; es_has := false; es_id := 0; es_size := 0; es_flags := 0; es_mtime := 0 |}.
(* fields in the range of their Go type, payloads below 2^31 bytes, and per message what the format can carry *)
Definition sendable (m : msg) : Prop :=
  match m with
  | Mping | Mdecrypt => True
  | Mauth t c => length t = 4%nat /\ size_ok c
  | Mbind s | Mendsess s => length s = 16%nat
  | MbindR p => inU 8 p
  | Mchmod m p => inU 16 m /\ size_ok p
  | Msync h => length h = 4%nat
  | Mclose h n => length h = 4%nat /\ inS 64 n
  | Mrm p | Mrmdir p | Mstatx p | Madmin p => size_ok p
  | Mtruncate h n p => length h = 4%nat /\ inS 64 n /\ size_ok p
  | Mmkdir o m p => inU 8 o /\ inU 16 m /\ size_ok p
  | Mmv a b => zlen a < 2 ^ 16 /\ zlen a + zlen b + 1 < 2 ^ 31
  | Mlocate o p => inU 16 o /\ size_ok p
  | MlocateR _ | MadminR _ | MqueryR _ | MprepareR _ | MreadR _ => True
  | MstatxR fs => Forall (inU 8) fs
  | Mverifyw h o p v d => length h = 4%nat /\ inS 64 o /\ inU 8 p /\ inU 8 v /\ size_ok d
  | Mwrite h o p d => length h = 4%nat /\ inS 64 o /\ p = 0 /\ size_ok d
  | Mhandshake a b c d e => inS 32 a /\ inS 32 b /\ inS 32 c /\ inS 32 d /\ inS 32 e
  | MhandshakeR v t => inS 32 v /\ inS 32 t
  | Mstat o h p => inU 8 o /\ length h = 4%nat /\ size_ok p
  | MstatR s => stat_ok s /\ es_name s = []
  | MvfsR a b c d e f => inS 64 a /\ inS 64 b /\ inS 64 c /\ inS 64 d /\ inS 64 e /\ inS 64 f
  | Msigver i v f s c g => inU 16 i /\ inU 8 v /\ inU 8 f /\ inS 64 s /\ inU 8 c /\ size_ok g
  | Mquery q h a => inU 16 q /\ length h = 4%nat /\ size_ok a
  | Mprepare o pr po ps => inU 8 o /\ inU 8 pr /\ inU 16 po /\ size_ok (join 10 ps) /\ Forall (fun p => ~ In 10 p) ps /\ ps <> [[]]
  | Mlogin p u a c r t => inS 32 p /\ length u = 8%nat /\ inU 8 a /\ inU 8 c /\ inU 8 r /\ size_ok t
  | MloginR s i => length s = 16%nat
  | Mopen m o p => inU 16 m /\ inU 16 o /\ size_ok p
  | MopenR h c s =>
      length h = 4%nat /\ (forall c', c = Some c' -> inS 32 (fc_page c') /\ length (fc_type c') = 4%nat) /\
      (forall s', s = Some s' -> c <> None /\ stat_ok s' /\ es_name s' = [])
  | Mdirlist o p => inU 8 o /\ size_ok p
  | MdirlistR es true => Forall stat_ok es /\ Forall (fun e => ~ In 10 (es_name e)) es
  | MdirlistR es false =>
      Forall bare es /\ Forall (fun e => ~ In 10 (es_name e)) es /\ last (last (map es_name es) []) 1 <> 0 /\
      (forall r, map es_name es <> [46] :: [48; 32; 48; 32; 48; 32; 48] :: r)
  | Mprotocol v o => inS 32 v /\ inU 8 o
  | MprotocolR v f s =>
      inS 32 v /\ inS 32 f /\
      (forall sv so sl ovs, s = Some (sv, so, sl, ovs) ->
        inU 8 sv /\ inU 8 so /\ inU 8 sl /\ zlen ovs < 2 ^ 8 /\ Forall (fun o => inU 8 (ov_index o) /\ inU 8 (ov_level o)) ovs)
  | Mread h o n opt =>
      length h = 4%nat /\ inS 64 o /\ inS 32 n /\
      (forall p ras, opt = Some (p, ras) ->
        inU 8 p /\ zlen ras * 16 + 8 < 2 ^ 31 /\ Forall (fun r => length (ra_handle r) = 4%nat /\ inS 32 (ra_len r) /\ inS 64 (ra_off r)) ras)
  | Mreqhdr s i => length s = 2%nat /\ inU 16 i
  | Mresphdr s st n => length s = 2%nat /\ inU 16 st /\ inS 32 n
  | Mwait s => inS 32 s
  | Merror c m => inS 32 c
  end.
(* the messages whose size is only known from the frame they come in *)
Definition takes_rest (k : kind) : bool :=
  match k with
  | KlocateR | KstatxR | KadminR | KqueryR | KprepareR | KloginR | KopenR | KdirlistR | KprotocolR | Kread | KreadR | Kerror | KstatR | KvfsR => true
  | _ => false
  end.

Ltac unstr := repeat match goal with H : size_ok ?s |- _ => change (zlen s < 2 ^ 31) in H end.
Lemma reads_str' s : zlen s < 2 ^ 31 -> reads rstr (wlen (zlen s) ++ s) s.
Proof. exact (reads_str s). Qed.
Lemma inU8_0 : inU 8 0.
Proof. unfold inU. lia. Qed.
Ltac rstep :=
  match goal with
  | |- reads (ret _) [] _ => apply reads_ret
  | |- reads ru8 (wu8 _) _ => apply reads_u8; assumption
  | |- reads ru16 (wu16 _) _ => apply reads_u16; assumption
  | |- reads ri32 (wi32 _) _ => apply reads_i32; assumption
  | |- reads ri64 (wi64 _) _ => apply reads_i64; assumption
  | |- reads rstr (wstr _) _ => apply reads_str; assumption
  | |- reads rstr (wlen _ ++ _) _ => apply reads_str'; assumption
  | |- reads (skip _) (next _) _ => apply reads_next; reflexivity
  | |- reads (rbytes _) _ _ => apply reads_bytes; unfold zlen; lia
  end.
Ltac rgo := repeat first [ rstep | match goal with |- reads (bind _ _) (_ ++ _) _ => eapply reads_bind; [rstep|] end | match goal with |- reads (bind _ _) _ _ => eapply reads_last; [rstep|] end ].
Lemma inS32_0 : inS 32 0.
Proof. unfold inS. lia. Qed.
Lemma some_eq {A} (a b : A) : Some a = Some b -> b = a.
Proof. congruence. Qed.
Lemma rt_mv a b : zlen a < 2 ^ 16 -> zlen a + zlen b + 1 < 2 ^ 31 ->
  reads d_mv (next 14 ++ wu16 (zlen a) ++ wlen (zlen a + zlen b + 1) ++ a ++ [32] ++ b) (Mmv a b).
Proof.
  intros A B. pose proof (zlen_nonneg a). pose proof (zlen_nonneg b). unfold d_mv. eapply reads_bind; [rstep|]. eapply reads_bind; [apply reads_u16; unfold inU; lia|].
  replace (zlen a + zlen b + 1) with (zlen (a ++ [32] ++ b)) by (rewrite !zlen_app; change (zlen [32]) with 1; lia).
  eapply reads_last; [apply reads_str'; rewrite !zlen_app; change (zlen [32]) with 1; lia|].
  replace (zlen (a ++ [32] ++ b) <=? zlen a) with false by (rewrite !zlen_app; change (zlen [32]) with 1; lia). cbv zeta.
  replace (if zlen a =? 0 then index_byte 32 (a ++ [32] ++ b) else zlen a) with (zlen a).
  2: { destruct (zlen a =? 0) eqn:E; [|reflexivity]. apply Z.eqb_eq, zlen_0_nil in E. subst a. reflexivity. }
  replace (zlen a =? -1) with false by lia. unfold zlen. rewrite Nat2Z.id. rewrite firstn_app_exact by reflexivity.
  rewrite app_assoc, skipn_app_exact by (rewrite app_length; reflexivity). apply reads_ret.
Qed.
Lemma rt_query q h a : inU 16 q -> length h = 4%nat -> zlen a < 2 ^ 31 ->
  reads (decode Kquery) (wu16 q ++ next 2 ++ h ++ next 8 ++ wi32 (wrapS 32 (zlen a)) ++ a) (Mquery q h a).
Proof.
  intros Q H A. cbn [decode]. change (wi32 (wrapS 32 (zlen a))) with (wlen (zlen a)). rewrite wlen_id by (apply inS32_len; exact A).
  assert (I : inS 32 (zlen a)) by (apply inS32_len; exact A). do 5 (eapply reads_bind; [rstep|]). eapply reads_last; [|apply reads_ret].
  destruct (0 <? zlen a) eqn:E; [apply reads_bytes; reflexivity|].
  assert (N : a = []) by (apply zlen_0_nil; pose proof (zlen_nonneg a); lia). subst a. apply reads_ret.
Qed.
Lemma rt_prepare o pr po ps : inU 8 o -> inU 8 pr -> inU 16 po -> zlen (join 10 ps) < 2 ^ 31 -> Forall (fun p => ~ In 10 p) ps -> ps <> [[]] ->
  reads (decode Kprepare) (wu8 o ++ wu8 pr ++ wu16 po ++ next 12 ++ wi32 (wrapS 32 (zlen (join 10 ps))) ++ join 10 ps) (Mprepare o pr po ps).
Proof.
  intros O P Q Z F N. cbn [decode]. change (wi32 (wrapS 32 (zlen (join 10 ps)))) with (wlen (zlen (join 10 ps))). rewrite wlen_id by (apply inS32_len; exact Z).
  assert (I : inS 32 (zlen (join 10 ps))) by (apply inS32_len; exact Z). do 5 (eapply reads_bind; [rstep|]). eapply reads_last; [apply reads_bytes; reflexivity|].
  cbv beta. match goal with |- reads (ret ?x) [] ?y => replace y with x; [apply reads_ret|f_equal] end.
  destruct ps as [|a l]; [reflexivity|]. rewrite split_join by (try exact F; discriminate).
  destruct (zlen (join 10 (a :: l)) =? 0) eqn:E; [|reflexivity]. apply Z.eqb_eq, zlen_0_nil in E. destruct l as [|b l]; [exfalso; apply N; change (a = []) in E; rewrite E; reflexivity|].
  rewrite join_cons in E by discriminate. destruct a; discriminate.
Qed.
Lemma rt_read h o n opt : sendable (Mread h o n opt) ->
  reads0 d_read (h ++ wi64 o ++ wi32 n ++ match opt with None => wlen 0 | Some (p, ras) => wlen (zlen ras * 16 + 8) ++ wu8 p ++ next 7 ++ concat (map w_rahead ras) end)
    (Mread h o n opt).
Proof.
  intros (H & O & N & V). unfold d_read. do 3 (eapply reads0_bind; [rstep|]). destruct opt as [[p ras]|]; [|reflexivity].
  destruct (V p ras eq_refl) as (P & L & F). clear V. pose proof (zlen_nonneg ras).
  assert (IL : inS 32 (zlen ras * 16 + 8)) by (unfold inS; lia). rewrite wlen_id by exact IL.
  assert (ZL : zlen (concat (map w_rahead ras)) = zlen ras * 16).
  { clear - F. induction F as [|r ras (H & _) _ IH]; [reflexivity|]. cbn [map concat]. rewrite zlen_app, IH, zlen_cons. unfold w_rahead, wi32, wi64.
    rewrite !zlen_app, !zlen_be. unfold zlen at 1. rewrite H. lia. }
  assert (ZT : 4 < zlen (wi32 (zlen ras * 16 + 8) ++ wu8 p ++ next 7 ++ concat (map w_rahead ras))).
  { unfold wi32, wu8, next. rewrite !zlen_app, !zlen_be, zlen_repeat, ZL. lia. }
  unfold reads0, bind at 1, rlen. replace (4 <? _) with true by lia.
  match goal with |- ?f ?a = Ok (Some (?m, [])) => change (reads0 f a m) end. apply reads_0.
  eapply reads_bind; [rstep|]. eapply reads_bind; [rstep|]. eapply reads_bind; [rstep|].
  replace (zlen ras * 16 + 8 - 8) with (zlen ras * 16) by lia. rewrite Z_mod_mult, Z_div_mult by lia.
  replace ((zlen ras * 16 + 8 <? 8) || negb (0 =? 0)) with false by lia.
  destruct (zlen ras * 16 + 8 <=? 8) eqn:E.
  - assert (X : ras = []) by (apply zlen_0_nil; lia). subst ras. apply reads_ret.
  - unfold zlen at 1. rewrite Nat2Z.id. eapply reads_last; [|apply reads_ret]. apply reads_many. intros r I. rewrite Forall_forall in F. destruct (F r I) as (A & B & D).
    unfold r_rahead, w_rahead. destruct r as [rh rl ro]; cbn [ra_handle ra_len ra_off] in *. rgo.
Qed.
Lemma rt_protocolR v f s : sendable (MprotocolR v f s) ->
  reads0 d_protocolR (wi32 v ++ wi32 f ++ match s with
        | None => []
        | Some (sv, so, sl, ovs) => wu8 83 ++ next 1 ++ wu8 sv ++ wu8 so ++ wu8 sl ++ wu8 (zlen ovs) ++ concat (map w_sover ovs)
        end) (MprotocolR v f s).
Proof.
  intros (V & F & W). unfold d_protocolR. do 2 (eapply reads0_bind; [rstep|]). destruct s as [[[[sv so] sl] ovs]|]; [|reflexivity].
  destruct (W _ _ _ _ eq_refl) as (A & B & D & L & O). clear W. pose proof (zlen_nonneg ovs).
  set (tl := wu8 sv ++ wu8 so ++ wu8 sl ++ wu8 (zlen ovs) ++ concat (map w_sover ovs)).
  assert (ZT : zlen (wu8 83 ++ next 1 ++ tl) <> 0). { unfold wu8, next. rewrite !zlen_app, !zlen_be, zlen_repeat. pose proof (zlen_nonneg tl). lia. }
  unfold reads0, bind at 1, rlen. replace (zlen (wu8 83 ++ next 1 ++ tl) =? 0) with false by lia.
  match goal with |- ?f ?a = Ok (Some (?m, [])) => change (reads0 f a m) end. apply reads_0. unfold tl.
  eapply reads_bind; [intros r; reflexivity|].
  do 4 (eapply reads_bind; [rstep|]). eapply reads_bind; [apply reads_u8; unfold inU; lia|].
  unfold zlen at 1. rewrite Nat2Z.id. eapply reads_last; [|apply reads_ret]. apply reads_many. intros r I. rewrite Forall_forall in O. destruct (O r I) as (X & Y).
  unfold r_sover, w_sover. destruct r as [oi ol]; cbn [ov_index ov_level] in *. rgo.
Qed.
Lemma rt_fcomp c : inS 32 (fc_page c) -> length (fc_type c) = 4%nat -> reads r_fcomp (w_fcomp c) c.
Proof. intros P T. destruct c as [cp ct]. cbn [fc_page fc_type] in *. unfold r_fcomp, w_fcomp. cbn [fc_page fc_type]. rgo. Qed.
Lemma rt_openR h c s : sendable (MopenR h c s) ->
  reads0 d_openR (h ++ match c with None => [] | Some c => w_fcomp c ++ match s with None => [] | Some s => w_estat s end end) (MopenR h c s).
Proof.
  intros (H & C & S). unfold d_openR. eapply reads0_bind; [rstep|]. destruct c as [c|].
  2: { destruct s as [s|]; [destruct (S s eq_refl) as (X & _); congruence|reflexivity]. }
  destruct (C c eq_refl) as (P & T). unfold reads0, bind at 1, rlen.
  set (tl := match s with None => [] | Some s => w_estat s end).
  replace (zlen (w_fcomp c ++ tl) =? 0) with false.
  2: { unfold w_fcomp, wi32. rewrite !zlen_app, !zlen_be. pose proof (zlen_nonneg tl). pose proof (zlen_nonneg (fc_type c)). change (Z.of_nat 4) with 4. clearbody tl. symmetry. apply Z.eqb_neq. lia. }
  match goal with |- ?f ?a = Ok (Some (?m, [])) => change (reads0 f a m) end.
  eapply reads0_bind; [apply rt_fcomp; assumption|].
  unfold reads0, bind at 1. unfold tl. destruct s as [s|]; [|reflexivity]. destruct (S s eq_refl) as (_ & K & N).
  assert (NE : zlen (w_estat s) <> 0). { intros E. apply zlen_0_nil in E. destruct K as (K & _). apply w_estat_nonempty in K. congruence. }
  replace (zlen (w_estat s) =? 0) with false by lia. unfold bind. rewrite (reads0_estat s K N). reflexivity.
Qed.
Theorem C33_round_trip : forall m bs rest,
  sendable m -> encode m = Some bs -> (takes_rest (kind_of m) = true -> rest = []) -> decode (kind_of m) (bs ++ rest) = Ok (Some (m, rest)).
Proof.
  intros m bs rest V E R. pose proof inS32_0. destruct m; cbn [sendable kind_of decode encode takes_rest] in *; decompose [and] V; unstr;
    try (match type of E with Some _ = Some _ => apply some_eq in E; subst bs end);
    try (rewrite (R eq_refl), !app_nil_r); clear R;
    try (match goal with |- ?f (?a ++ rest) = Ok (Some (?m, rest)) => revert rest; change (reads f a m); solve [rgo] end);
    try (match goal with |- (_ <- rall;; _) _ = _ => reflexivity end).
  - unshelve eapply (rt_mv old new _ _ rest); assumption.
  - unfold bind at 1, rlen. set (bs := concat (map wu8 flags)). assert (L : Z.to_nat (zlen bs) = length flags).
    { unfold zlen. rewrite Nat2Z.id. unfold bs. clear. induction flags; cbn [map concat]; [reflexivity|]. rewrite app_length. cbn [length]. unfold wu8 at 1. rewrite be_length. lia. }
    rewrite L. apply reads_0. eapply reads_last; [|apply reads_ret]. apply reads_many. intros x I. apply reads_u8. rewrite Forall_forall in V. apply V, I.
  - subst path. change (if 0 =? 0 then data else []) with data. pose proof inU8_0. revert rest. match goal with |- forall rest, ?f (?a ++ rest) = Ok (Some (?m, rest)) => change (reads f a m) end. rgo.
  - unfold bind. rewrite (reads0_estat st) by assumption. reflexivity.
  - unfold bind, rword.
    set (w := itoa nrw ++ 32 :: itoa frw ++ 32 :: itoa urw ++ 32 :: itoa nstg ++ 32 :: itoa fstg ++ 32 :: itoa ustg).
    assert (W : word w = (w, [])). { apply (word_sep w []). intros c I. unfold w in I. repeat (apply in_app_or in I; destruct I as [I|[<-|I]]; [apply itoa_ok in I; exact I|lia|]). apply itoa_ok in I. exact I. }
    rewrite W. unfold w. rewrite !split_cons by (apply itoa_no; lia). rewrite split_nosep by (apply itoa_no; lia).
    unfold ratoi. rewrite !atoi_itoa by assumption. reflexivity.
  - unshelve eapply (rt_query query handle args _ _ _ rest); assumption.
  - unshelve eapply (rt_prepare options prio port paths _ _ _ _ _ _ rest); assumption.
  - unfold bind at 1. rewrite (reads_bytes 16 session) by (unfold zlen; lia). reflexivity.
  - apply rt_openR. assumption.
  - destruct withstat.
    + destruct V as (S & N). destruct (dirlist_stat entries S N) as (bs' & A & B). rewrite A in E. apply some_eq in E. subst bs. exact B.
    + destruct V as (S & N & L & D). destruct (dirlist_plain entries S N L D) as (bs' & A & B). rewrite A in E. apply some_eq in E. subst bs. exact B.
  - apply rt_protocolR. assumption.
  - apply rt_read. assumption.
  - rewrite wrapS_id by (try lia; assumption). revert rest. match goal with |- forall rest, ?f (?a ++ rest) = Ok (Some (?m, rest)) => change (reads f a m) end. rgo.
  - unfold d_error, bind at 1. rewrite (reads_i32 code) by assumption. unfold bind, rall. destruct (message ++ [0]) eqn:E; [destruct message; discriminate|].
    rewrite <- E, removelast_last. reflexivity.
Qed.
(* nothing sendable is refused *)
Theorem C33_total : forall m, sendable m -> exists bs, encode m = Some bs.
Proof.
  intros m V. destruct m; try (eexists; reflexivity). destruct withstat; cbn [sendable encode] in *.
  - destruct V as (S & N). destruct (dirlist_stat entries S N) as (bs' & A & B). eauto.
  - destruct V as (S & N & L & D). destruct (dirlist_plain entries S N L D) as (bs' & A & B). eauto.
Qed.
(* two messages of a kind that differ are sent as different bytes *)
Theorem C33_injective : forall m1 m2 bs,
  sendable m1 -> sendable m2 -> kind_of m1 = kind_of m2 -> encode m1 = Some bs -> encode m2 = Some bs -> m1 = m2.
Proof.
  intros m1 m2 bs V1 V2 K E1 E2. pose proof (C33_round_trip m1 bs [] V1 E1 (fun _ => eq_refl)) as A.
  pose proof (C33_round_trip m2 bs [] V2 E2 (fun _ => eq_refl)) as B. rewrite K in A. rewrite A in B. congruence.
Qed.
Definition sample_stat : estat := {| es_name := []; es_has := true; es_id := -7; es_size := 2 ^ 40; es_flags := 51; es_mtime := 1514764800 |}.
Example C33_example :
  sendable (Mread [1; 2; 3; 4] (2 ^ 62) 4096 (Some (3, [{| ra_handle := [9; 9; 9; 9]; ra_len := 17; ra_off := -1 |}]))) /\
  sendable (MopenR [1; 2; 3; 4] (Some {| fc_page := 10; fc_type := [116; 101; 115; 116] |}) (Some sample_stat)) /\
  sendable (MdirlistR [{| es_name := [97; 0; 32]; es_has := true; es_id := 1; es_size := 2; es_flags := 3; es_mtime := 4 |}] true) /\
  sendable (MprotocolR 784 1 (Some (0, 2, 4, [{| ov_index := 3; ov_level := 2 |}]))) /\
  sendable (Mprepare 1 2 3 [[97]; []; [98; 99]]) /\
  encode (MstatR sample_stat) = Some [45; 55; 32; 49; 48; 57; 57; 53; 49; 49; 54; 50; 55; 55; 55; 54; 32; 53; 49; 32; 49; 53; 49; 52; 55; 54; 52; 56; 48; 48].
Proof.
  split; [|split; [|split; [|split; [|split]]]].
  - cbn. unfold inS. split; [reflexivity|]. split; [lia|]. split; [lia|]. intros p ras H. injection H as <- <-. split; [unfold inU; lia|]. split; [reflexivity|].
    constructor; [|constructor]. cbn. split; [reflexivity|]. unfold inS. lia.
  - cbn. split; [reflexivity|]. split; intros x H; apply some_eq in H; subst x; cbn; unfold inS, stat_ok, inS; cbn; intuition (discriminate || lia).
  - cbn. split; (constructor; [|constructor]); [unfold stat_ok, inS; cbn; lia|]. cbn. intuition discriminate.
  - cbn. unfold inS. split; [lia|]. split; [lia|]. intros sv so sl ovs H. injection H as <- <- <- <-. unfold inU. split; [lia|]. split; [lia|]. split; [lia|].
    split; [reflexivity|]. constructor; [cbn; lia|constructor].
  - cbn. unfold inU. split; [lia|]. split; [lia|]. split; [lia|]. split; [reflexivity|]. split; [|discriminate].
    repeat (constructor; [cbn; intuition discriminate|]). constructor.
  - vm_compute. reflexivity.
Qed.
Definition from_empty (r : res (option (msg * list Z))) : bool := match r with Ok (Some (Mmv [] _, _)) => true | _ => false end.
Lemma mv_long_fails : exists bs, encode (Mmv (32 :: repeat 97 (Z.to_nat 65535)) [98]) = Some bs /\
  decode (kind_of (Mmv (32 :: repeat 97 (Z.to_nat 65535)) [98])) bs <> Ok (Some (Mmv (32 :: repeat 97 (Z.to_nat 65535)) [98], [])).
Proof.
  assert (X : match encode (Mmv (32 :: repeat 97 (Z.to_nat 65535)) [98]) with Some bs => from_empty (decode Kmv bs) | None => false end = true) by (vm_compute; reflexivity).
  generalize dependent (repeat 97 (Z.to_nat 65535)). intros a X. cbn [kind_of]. destruct (encode (Mmv (32 :: a) [98])) as [bs|]; [|discriminate].
  exists bs. split; [reflexivity|]. intros E. rewrite E in X. discriminate.
Qed.
(* Without the conditions of [sendable] the round trip fails: a write on another path, the stat of an opened file that is
   not compressed, one empty path to prepare, a path with a new line, 256 overrides, a file named "." followed by one named
   "0 0 0 0", a move from a path of 65536 bytes, a status above 255, a name ending with a zero byte. *)
Theorem C33_refuted :
  Forall (fun m => exists bs, encode m = Some bs /\ decode (kind_of m) bs <> Ok (Some (m, [])))
    [ Mwrite [0; 0; 0; 0] 0 1 [7];
      MopenR [0; 0; 0; 0] None (Some sample_stat);
      Mprepare 0 0 0 [[]];
      Mprepare 0 0 0 [[97; 10; 98]];
      MprotocolR 0 0 (Some (0, 0, 0, repeat {| ov_index := 1; ov_level := 1 |} 256));
      MdirlistR [ {| es_name := [46]; es_has := false; es_id := 0; es_size := 0; es_flags := 0; es_mtime := 0 |};
                  {| es_name := [48; 32; 48; 32; 48; 32; 48]; es_has := false; es_id := 0; es_size := 0; es_flags := 0; es_mtime := 0 |} ] false;
      Mmv (32 :: repeat 97 (Z.to_nat 65535)) [98];
      MstatxR [256];
      MdirlistR [ {| es_name := [97; 0]; es_has := false; es_id := 0; es_size := 0; es_flags := 0; es_mtime := 0 |} ] false ].
Proof.
  do 6 (constructor; [eexists; split; [reflexivity|]; intros E; vm_compute in E; discriminate|]). constructor.
  { apply mv_long_fails. }
  do 2 (constructor; [eexists; split; [reflexivity|]; intros E; vm_compute in E; discriminate|]). constructor.
Qed.
(* a boolean read back is the byte after the one written, and at the end of the message a panic *)
Theorem C33_bool_refuted : forall b, rbool (wbool b) = Panic /\ exists rest v, rbool (wbool b ++ rest) = Ok (Some (v, rest)) /\ v <> b.
Proof.
  intros b. split; [reflexivity|]. exists [if b then 0 else 1], (negb b). destruct b; split; (reflexivity || discriminate).
Qed.
(* Data is not sent when a write goes over another path: the frame announces more bytes than it has. *)
Theorem C33_write_path : forall h o p d bs, length h = 4%nat -> p <> 0 -> 0 < zlen d < 2 ^ 31 -> encode (Mwrite h o p d) = Some bs ->
  length bs = 20%nat /\ wrapS 32 (unbe (skipn 16 bs)) = zlen d /\ decode Kwrite bs = Panic.
Proof.
  intros h o p d bs H P D E. cbn [encode] in E. replace (p =? 0) with false in E by lia. rewrite app_nil_r in E. apply some_eq in E. subst bs.
  rewrite wlen_id by (apply inS32_len; lia).
  split; [|split].
  - rewrite !app_length. unfold wi64, wu8, next, wi32. rewrite !be_length, repeat_length, H. reflexivity.
  - rewrite !app_assoc. rewrite skipn_app_exact by (rewrite !app_length; unfold wi64, wu8, next; rewrite !be_length, repeat_length, H; reflexivity).
    unfold wi32. apply (wrapS_unbe_be_S 4); [lia|apply inS32_len; lia].
  - cbn [decode]. unfold bind. rewrite (reads_bytes 4 h) by (unfold zlen; lia).
    unfold ri64 at 1, bind. rewrite (reads_bytes 8 (wi64 o)) by (unfold wi64; rewrite zlen_be; reflexivity). cbn [ret]. unfold ret at 1.
    unfold ru8 at 1, bind. rewrite (reads_bytes 1 (wu8 p)) by (unfold wu8; rewrite zlen_be; reflexivity). unfold ret at 1.
    rewrite (reads_next 3 3) by reflexivity. unfold rstr, bind. rewrite <- (app_nil_r (wi32 (zlen d))). rewrite (reads_i32 (zlen d)) by (apply inS32_len; lia).
    unfold rbytes. destruct ((zlen d <? 0) || (zlen (@nil Z) <? zlen d)) eqn:X; [reflexivity|]. exfalso. apply orb_false_iff in X. destruct X as [_ X]. apply Z.ltb_ge in X. rewrite zlen_nil in X. lia.
Qed.

(* ---- C34: framing ---- *)
Lemma readFull_ok c : forall n a b, concat c = a ++ b -> length a = n -> exists c', readFull c n = Some (a, c') /\ concat c' = b.
Proof.
  induction c as [|p c IH]; intros n a b E L.
  - cbn in E. symmetry in E. apply app_eq_nil in E. destruct E as [-> ->]. cbn in L. subst n. exists []. split; reflexivity.
  - destruct n as [|n].
    + destruct a; [|discriminate]. exists (p :: c). split; [reflexivity|]. exact E.
    + cbn [readFull]. set (k := S n) in *. clearbody k. cbn [concat] in E. destruct (Nat.ltb_spec k (length p)) as [H|H].
      * assert (X : p = a ++ skipn k p /\ skipn k p ++ concat c = b).
        { assert (A : firstn k p = a). { apply (f_equal (firstn k)) in E. rewrite firstn_app, (firstn_app_exact a b) in E by lia. replace (k - length p)%nat with 0%nat in E by lia.
            cbn [firstn] in E. rewrite app_nil_r in E. exact E. }
          split; [rewrite <- A; symmetry; apply firstn_skipn|]. apply (f_equal (skipn k)) in E. rewrite skipn_app, (skipn_app_exact a b) in E by lia.
          replace (k - length p)%nat with 0%nat in E by lia. cbn [skipn] in E. exact E. }
        destruct X as [X Y]. exists (skipn k p :: c). split; [|exact Y]. rewrite X at 1. rewrite firstn_app_exact by lia. reflexivity.
      * assert (X : a = p ++ skipn (length p) a).
        { apply (f_equal (firstn (length p))) in E. rewrite firstn_app_exact in E by reflexivity. rewrite firstn_app in E.
          replace (length p - length a)%nat with 0%nat in E by lia. cbn [firstn] in E. rewrite app_nil_r in E. rewrite E at 1. symmetry. apply firstn_skipn. }
        destruct (IH (k - length p)%nat (skipn (length p) a) b) as (c' & R & C).
        { rewrite X, <- app_assoc in E. apply app_inv_head in E. exact E. }
        { rewrite skipn_length. lia. }
        rewrite R. exists c'. split; [|exact C]. rewrite <- X. reflexivity.
Qed.
Lemma readFull_short c : forall n, (length (concat c) < n)%nat -> readFull c n = None.
Proof.
  induction c as [|p c IH]; intros n H; destruct n as [|n]; try (cbn in H; lia); [reflexivity|]. cbn [readFull]. set (k := S n) in *. clearbody k.
  cbn [concat] in H. rewrite app_length in H. destruct (Nat.ltb_spec k (length p)) as [L|L]; [lia|]. rewrite IH by lia. reflexivity.
Qed.
(* a frame: 20 bytes, the number of bytes that follow, and those *)
Definition frame (p : list Z) (d : list Z) : list Z := p ++ be 4 (zlen d) ++ d.
Definition is_request (m : msg) : bool :=
  match m with
  | Mping | Mauth _ _ | Mbind _ | Mchmod _ _ | Mdecrypt | Mendsess _ | Msync _ | Mclose _ _ | Mrm _ | Mrmdir _ | Mtruncate _ _ _ | Mmkdir _ _ _ | Mmv _ _
  | Mlocate _ _ | Mstatx _ | Mverifyw _ _ _ _ _ | Mwrite _ _ _ _ | Madmin _ | Mstat _ _ _ | Msigver _ _ _ _ _ _ | Mquery _ _ _ | Mprepare _ _ _ _
  | Mlogin _ _ _ _ _ _ | Mopen _ _ _ | Mdirlist _ _ | Mprotocol _ _ | Mread _ _ _ _ => true
  | _ => false
  end.
Lemma next4 : next 4 = be 4 0.
Proof. reflexivity. Qed.
Lemma next_split a b : next (a + b) = next a ++ next b.
Proof. unfold next. apply repeat_app. Qed.
Lemma wlen_be n : 0 <= n < 2 ^ 31 -> wlen n = be 4 n.
Proof. intros H. rewrite wlen_id by (unfold inS; lia). reflexivity. Qed.
Ltac lens := repeat rewrite app_length; unfold wi64, wi32, wu16, wu8, next; repeat rewrite be_length; repeat rewrite repeat_length; lia.
(* every request has the shape the receiver of a stream expects *)
Lemma request_frame m bs : is_request m = true -> sendable m -> encode m = Some bs ->
  exists p d, bs = frame p d /\ length p = 16%nat /\ zlen d < 2 ^ 31.
Proof.
  intros Q V E. destruct m; try discriminate Q; cbn [encode sendable] in *; apply some_eq in E; subst bs; unfold size_ok in V; decompose [and] V; unfold wstr, frame.
  all: try match goal with |- context[wlen (zlen ?s) ++ ?s] => rewrite (wlen_be (zlen s)) by (pose proof (zlen_nonneg s); lia) end.
  all: try match goal with |- context[wi32 (wrapS 32 (zlen ?s)) ++ ?s] => change (wi32 (wrapS 32 (zlen s))) with (wlen (zlen s)); rewrite (wlen_be (zlen s)) by (pose proof (zlen_nonneg s); lia) end.
  all: try (match goal with |- exists p d, ?a ++ be 4 (zlen ?s) ++ ?s = _ /\ _ => exists a, s end; split; [reflexivity|split; [lens|assumption]]).
  all: try (match goal with |- exists p d, ?a ++ ?b ++ be 4 (zlen ?s) ++ ?s = _ /\ _ => exists (a ++ b), s end; split; [rewrite <- !app_assoc; reflexivity|split; [lens|assumption]]).
  all: try (match goal with |- exists p d, ?a ++ ?b ++ ?c ++ be 4 (zlen ?s) ++ ?s = _ /\ _ => exists (a ++ b ++ c), s end; split; [rewrite <- !app_assoc; reflexivity|split; [lens|assumption]]).
  all: try (match goal with |- exists p d, ?a ++ ?b ++ ?c ++ ?e ++ be 4 (zlen ?s) ++ ?s = _ /\ _ => exists (a ++ b ++ c ++ e), s end; split; [rewrite <- !app_assoc; reflexivity|split; [lens|assumption]]).
  all: try (match goal with |- exists p d, ?a ++ ?b ++ ?c ++ ?e ++ ?f ++ be 4 (zlen ?s) ++ ?s = _ /\ _ => exists (a ++ b ++ c ++ e ++ f), s end; split; [rewrite <- !app_assoc; reflexivity|split; [lens|assumption]]).
  all: try (match goal with |- exists p d, ?a ++ ?b ++ ?c ++ ?e ++ ?f ++ ?g ++ be 4 (zlen ?s) ++ ?s = _ /\ _ => exists (a ++ b ++ c ++ e ++ f ++ g), s end; split; [rewrite <- !app_assoc; reflexivity|split; [lens|assumption]]).
  - exists (next 16), []. split; [reflexivity|split; [reflexivity|cbn; lia]].
  - exists session, []. split; [reflexivity|split; [assumption|cbn; lia]].
  - exists (next 16), []. split; [reflexivity|split; [reflexivity|cbn; lia]].
  - exists session, []. split; [reflexivity|split; [assumption|cbn; lia]].
  - exists (handle ++ next 12), []. split; [rewrite <- app_assoc; reflexivity|split; [lens|cbn; lia]].
  - exists (handle ++ wi64 size ++ next 4), []. split; [rewrite <- !app_assoc; reflexivity|split; [lens|cbn; lia]].
  - exists (next 14 ++ wu16 (zlen old)), (old ++ [32] ++ new). pose proof (zlen_nonneg old). pose proof (zlen_nonneg new).
    replace (zlen (old ++ [32] ++ new)) with (zlen old + zlen new + 1) by (rewrite !zlen_app; change (zlen [32]) with 1; lia).
    rewrite wlen_be by lia. split; [rewrite <- !app_assoc; reflexivity|split; [lens|lia]].
  - subst path. change (if 0 =? 0 then data else []) with data. rewrite (wlen_be (zlen data)) by (pose proof (zlen_nonneg data); lia).
    exists (handle ++ wi64 off ++ wu8 0 ++ next 3), data. split; [rewrite <- !app_assoc; reflexivity|split; [lens|assumption]].
  - exists (wi32 version ++ wu8 options ++ next 11), []. split; [rewrite <- !app_assoc; reflexivity|split; [lens|cbn; lia]].
  - destruct opt as [[p ras]|].
    + match goal with W : forall p0 ras0, _ = Some _ -> _ |- _ => destruct (W p ras eq_refl) as (P & L & F) end. pose proof (zlen_nonneg ras).
      assert (ZL : zlen (concat (map w_rahead ras)) = zlen ras * 16).
      { clear - F. induction F as [|r ras (H & _) _ IH]; [reflexivity|]. cbn [map concat]. rewrite zlen_app, IH, zlen_cons. unfold w_rahead, wi32, wi64.
        rewrite !zlen_app, !zlen_be. unfold zlen at 1. rewrite H. lia. }
      assert (ZT : zlen (wu8 p ++ next 7 ++ concat (map w_rahead ras)) = zlen ras * 16 + 8) by (unfold wu8, next; rewrite !zlen_app, zlen_be, zlen_repeat, ZL; lia).
      exists (handle ++ wi64 off ++ wi32 len), (wu8 p ++ next 7 ++ concat (map w_rahead ras)). rewrite ZT, wlen_be by lia.
      split; [rewrite <- !app_assoc; reflexivity|split; [lens|lia]].
    + exists (handle ++ wi64 off ++ wi32 len), []. split; [rewrite <- !app_assoc; reflexivity|split; [lens|cbn; lia]].
Qed.
Lemma unbe4 n : 0 <= n < 2 ^ 32 -> unbe (be 4 n) = n.
Proof. intros H. apply unbe_be_U. exact H. Qed.
Lemma readRequest_frame c p d rest : length p = 20%nat -> zlen d < 2 ^ 32 -> concat c = frame p d ++ rest ->
  exists c', readRequest c = Some (frame p d, c') /\ concat c' = rest.
Proof.
  intros P D E. unfold frame in *. pose proof (zlen_nonneg d).
  destruct (readFull_ok c 24 (p ++ be 4 (zlen d)) (d ++ rest)) as (c1 & R1 & C1).
  { rewrite E, <- !app_assoc. reflexivity. } { rewrite app_length, be_length, P. reflexivity. }
  unfold readRequest. rewrite R1. rewrite skipn_app_exact by (symmetry; exact P). rewrite unbe4 by lia. destruct (zlen d =? 0) eqn:Z0.
  - apply Z.eqb_eq, zlen_0_nil in Z0. subst d. exists c1. rewrite app_nil_r. split; [reflexivity|exact C1].
  - destruct (readFull_ok c1 (Z.to_nat (zlen d)) d rest C1) as (c2 & R2 & C2); [unfold zlen; rewrite Nat2Z.id; reflexivity|].
    rewrite R2. exists c2. rewrite <- app_assoc. split; [reflexivity|exact C2].
Qed.
(* the requests a server finds on a connection, one after the other *)
Fixpoint requests (n : nat) (c : conn) : option (list (list Z) * conn) :=
  match n with
  | O => Some ([], c)
  | S k => match readRequest c with
           | Some (r, c1) => match requests k c1 with Some (rs, c2) => Some (r :: rs, c2) | None => None end
           | None => None
           end
  end.
(* header and message of a request as they are sent *)
Definition sent (q : list Z * Z * msg) (bs : list Z) : Prop :=
  let '(stream, id, m) := q in
  length stream = 2%nat /\ inU 16 id /\ is_request m = true /\ sendable m /\ request_bytes stream id m = Some bs.
(* what a server makes of the bytes of a request *)
Definition understood (q : list Z * Z * msg) (bs : list Z) : Prop :=
  let '(stream, id, m) := q in
  exists body, decode Kreqhdr bs = Ok (Some (Mreqhdr stream id, body)) /\ decode (kind_of m) body = Ok (Some (m, [])).
Lemma sent_frame q bs : sent q bs -> exists p d, bs = frame p d /\ length p = 20%nat /\ zlen d < 2 ^ 31.
Proof.
  destruct q as [[s i] m]. cbn [sent]. intros (S & I & Q & V & E). unfold request_bytes in E. cbn [encode] in E. destruct (encode m) as [b|] eqn:EM; [|discriminate].
  apply some_eq in E. subst bs. destruct (request_frame m b Q V EM) as (p & d & -> & P & D). exists ((s ++ wu16 i) ++ p), d.
  split; [unfold frame; rewrite <- !app_assoc; reflexivity|]. split; [|exact D]. lens.
Qed.
Lemma sent_understood q bs : sent q bs -> understood q bs.
Proof.
  destruct q as [[s i] m]. cbn [sent understood]. intros (S & I & Q & V & E). unfold request_bytes in E. destruct (encode (Mreqhdr s i)) as [h|] eqn:EH; [|discriminate].
  destruct (encode m) as [b|] eqn:EM; [|discriminate]. apply some_eq in E. subst bs. exists b. split.
  - apply (C33_round_trip (Mreqhdr s i) h b); [cbn; auto|exact EH|discriminate].
  - rewrite <- (app_nil_r b). apply (C33_round_trip m b []); auto.
Qed.
(* Any number of requests, cut by the transport in any way, are received one by one, and understood; what follows them is left. *)
Theorem C34_requests : forall (qs : list (list Z * Z * msg)) bss rest c,
  Forall2 sent qs bss -> concat c = concat bss ++ rest ->
  (exists c', requests (length qs) c = Some (bss, c') /\ concat c' = rest) /\ Forall2 understood qs bss.
Proof.
  intros qs bss rest c F. revert c. induction F as [|q bs qs bss S F IH]; intros c E.
  - split; [exists c; split; [reflexivity|exact E]|constructor].
  - destruct (sent_frame q bs S) as (p & d & -> & P & D). cbn [concat] in E. rewrite <- app_assoc in E.
    destruct (readRequest_frame c p d _ P ltac:(lia) E) as (c1 & R & C1). destruct (IH c1 C1) as ((c2 & R2 & C2) & U).
    split; [|constructor; [apply sent_understood; exact S|exact U]]. exists c2. cbn [requests length]. rewrite R, R2. split; [reflexivity|exact C2].
Qed.
Lemma readRequest_short c p d k : length p = 20%nat -> zlen d < 2 ^ 32 -> concat c = firstn k (frame p d) -> (k < length (frame p d))%nat -> readRequest c = None.
Proof.
  intros P D E K. pose proof (zlen_nonneg d). assert (LF : length (frame p d) = (24 + length d)%nat) by (unfold frame; rewrite !app_length, be_length; lia).
  unfold readRequest. destruct (Nat.lt_ge_cases k 24) as [L|L]; [rewrite readFull_short by (rewrite E, firstn_length; lia); reflexivity|].
  destruct (readFull_ok c 24 (p ++ be 4 (zlen d)) (firstn (k - 24) d)) as (c1 & R1 & C1).
  { rewrite E. unfold frame. rewrite app_assoc, firstn_app. rewrite firstn_all2 by (rewrite app_length, be_length; lia).
    f_equal. f_equal. rewrite app_length, be_length. lia. }
  { rewrite app_length, be_length, P. reflexivity. }
  rewrite R1. rewrite skipn_app_exact by (symmetry; exact P). rewrite unbe4 by lia. unfold zlen. rewrite Nat2Z.id.
  destruct (Z.of_nat (length d) =? 0) eqn:Z0; [apply Z.eqb_eq in Z0; lia|]. rewrite readFull_short; [reflexivity|]. rewrite C1, firstn_length. lia.
Qed.
(* a connection cut inside a request, at its end or anywhere before, gives an error and no request *)
Theorem C34_cut : forall q bs k c, sent q bs -> (k < length bs)%nat -> concat c = firstn k bs -> readRequest c = None.
Proof.
  intros q bs k c S K E. destruct (sent_frame q bs S) as (p & d & -> & P & D). exact (readRequest_short c p d k P ltac:(lia) E K).
Qed.
Fixpoint responses (n : nat) (c : conn) : res (option (list (list Z * Z * list Z) * conn)) :=
  match n with
  | O => Ok (Some ([], c))
  | S k => match readResponse c with
           | Ok (Some (r, c1)) => match responses k c1 with Ok (Some (rs, c2)) => Ok (Some (r :: rs, c2)) | x => x end
           | Ok None => Ok None
           | Panic => Panic
           end
  end.
Lemma readResponse_ok c s st d rest : length s = 2%nat -> inU 16 st -> zlen d < 2 ^ 31 -> concat c = writeResponse s st d ++ rest ->
  exists c', readResponse c = Ok (Some (s, st, d, c')) /\ concat c' = rest.
Proof.
  intros S T D E. unfold writeResponse in E. pose proof (zlen_nonneg d).
  assert (W : wi32 (wrapS 32 (zlen d)) = be 4 (zlen d)) by (apply wlen_be; lia). rewrite W in E.
  destruct (readFull_ok c 8 (s ++ wu16 st ++ be 4 (zlen d)) (d ++ rest)) as (c1 & R1 & C1).
  { rewrite E, <- !app_assoc. reflexivity. } { unfold wu16. rewrite !app_length, !be_length, S. reflexivity. }
  unfold readResponse. rewrite R1.
  assert (K4 : skipn 4 (s ++ wu16 st ++ be 4 (zlen d)) = be 4 (zlen d)) by (rewrite app_assoc; apply skipn_app_exact; unfold wu16; rewrite app_length, be_length, S; reflexivity).
  assert (K2 : skipn 2 (s ++ wu16 st ++ be 4 (zlen d)) = wu16 st ++ be 4 (zlen d)) by (apply skipn_app_exact; symmetry; exact S).
  rewrite K4, K2. rewrite (firstn_app_exact s) by (symmetry; exact S). rewrite (firstn_app_exact (wu16 st)) by (unfold wu16; rewrite be_length; reflexivity).
  rewrite unbe4 by lia. unfold wu16. rewrite unbe_be_U by exact T. rewrite wrapS_id by (try lia; unfold inS; lia).
  destruct (zlen d =? 0) eqn:Z0.
  - apply Z.eqb_eq, zlen_0_nil in Z0. subst d. exists c1. split; [reflexivity|exact C1].
  - replace (zlen d <? 0) with false by lia. destruct (readFull_ok c1 (Z.to_nat (zlen d)) d rest C1) as (c2 & R2 & C2); [unfold zlen; rewrite Nat2Z.id; reflexivity|].
    rewrite R2. exists c2. split; [reflexivity|exact C2].
Qed.
(* Any number of responses, cut in any way, are received one by one: stream, status and body. *)
Theorem C34_responses : forall (rs : list (list Z * Z * list Z)) rest c,
  Forall (fun r => length (fst (fst r)) = 2%nat /\ inU 16 (snd (fst r)) /\ zlen (snd r) < 2 ^ 31) rs ->
  concat c = concat (map (fun r => writeResponse (fst (fst r)) (snd (fst r)) (snd r)) rs) ++ rest ->
  exists c', responses (length rs) c = Ok (Some (rs, c')) /\ concat c' = rest.
Proof.
  induction rs as [|r rs IH]; intros rest c F E.
  - exists c. split; [reflexivity|exact E].
  - inversion F as [|x y H F']; subst. destruct H as (S & T & D). destruct r as [[s st] d]. cbn [map concat fst snd] in *. rewrite <- app_assoc in E.
    destruct (readResponse_ok c s st d _ S T D E) as (c1 & R & C1). destruct (IH rest c1 F' C1) as (c2 & R2 & C2).
    exists c2. cbn [responses length]. rewrite R, R2. split; [reflexivity|exact C2].
Qed.
(* The length of a response is read as a signed number: a server announcing 2^31 bytes or more makes the client panic. *)
Theorem C34_negative_length_refuted : exists c : conn, length (concat c) = 8%nat /\ readResponse c = Panic.
Proof. exists [[0; 1; 0; 0; 128]; [0; 0; 0]]. split; reflexivity. Qed.
Example C34_example :
  let a := Mopen 0 16 [47; 97] in let b := Mping in
  exists x y, sent ([0; 1], 3010, a) x /\ sent ([0; 2], 3011, b) y /\
    requests 2 [firstn 3 x; []; skipn 3 x ++ firstn 23 y; skipn 23 y ++ [9]] = Some ([x; y], [[9]]).
Proof.
  cbv zeta. eexists. eexists. split; [|split].
  - cbn. unfold size_ok, inU, zlen. cbn. repeat split; try lia; reflexivity.
  - cbn. unfold inU. repeat split; try lia; reflexivity.
  - vm_compute. reflexivity.
Qed.
Print Assumptions C33_round_trip.
Print Assumptions C33_total.
Print Assumptions C33_injective.
Print Assumptions C33_refuted.
Print Assumptions C33_bool_refuted.
Print Assumptions C33_write_path.
Print Assumptions C34_requests.
Print Assumptions C34_cut.
Print Assumptions C34_responses.
Print Assumptions C34_negative_length_refuted.
