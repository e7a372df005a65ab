(* C12: key headers; C13: packed dates; C14: name;cycle strings; C49: key listings and directory headers. *)
From Coq Require Import ZArith List Lia Bool.
From Verif Require Import Bytes Bits GoLib RbytesModel RbytesProofs RdMonad GoStrings FreelistModel KeyModel KeyProofs.
Import ListNotations.
Local Open Scope Z_scope.
Local Arguments be : simpl never.

(* ---- C13 ---- *)
(* chronological order of civil times, and the calendar *)
Definition before (a b : civil) : Prop :=
  cYear a < cYear b \/ cYear a = cYear b /\ (cMonth a < cMonth b \/ cMonth a = cMonth b /\
  (cDay a < cDay b \/ cDay a = cDay b /\ (cHour a < cHour b \/ cHour a = cHour b /\
  (cMin a < cMin b \/ cMin a = cMin b /\ cSec a < cSec b)))).
Definition leap_year (y : Z) : Prop := (4 | y) /\ (~ (100 | y) \/ (400 | y)).
Definition is_date (t : civil) : Prop :=
  1 <= cMonth t <= 12 /\ 1 <= cDay t /\ 0 <= cHour t < 24 /\ 0 <= cMin t < 60 /\ 0 <= cSec t < 60 /\
  (In (cMonth t) [1; 3; 5; 7; 8; 10; 12] -> cDay t <= 31) /\ (In (cMonth t) [4; 6; 9; 11] -> cDay t <= 30) /\
  (cMonth t = 2 -> leap_year (cYear t) -> cDay t <= 29) /\ (cMonth t = 2 -> ~ leap_year (cYear t) -> cDay t <= 28).

Lemma leap_spec y : leap y = true <-> leap_year y.
Proof.
  unfold leap, leap_year. rewrite andb_true_iff, orb_true_iff, negb_true_iff, !Z.eqb_eq, Z.eqb_neq.
  rewrite !Z.mod_divide by lia. tauto.
Qed.
Lemma is_date_ok t : is_date t <-> civil_ok t = true.
Proof.
  unfold is_date, civil_ok. rewrite !andb_true_iff, !Z.leb_le. pose proof (leap_spec (cYear t)) as L.
  split.
  - intros (A & B & C & D & E & F1 & F2 & F3 & F4). repeat split; try lia.
    unfold days_in. simpl in F1, F2.
    destruct (Z.eqb_spec (cMonth t) 2) as [M|M].
    + destruct (leap (cYear t)); [apply F3; auto; now apply L|apply F4; auto]. intros X. apply L in X. discriminate.
    + destruct (Z.eqb_spec (cMonth t) 4), (Z.eqb_spec (cMonth t) 6), (Z.eqb_spec (cMonth t) 9),
        (Z.eqb_spec (cMonth t) 11); simpl; try (apply F2; lia); apply F1; lia.
  - intros H. assert (D : cDay t <= days_in (cYear t) (cMonth t)) by tauto.
    repeat split; try lia; unfold days_in in D; simpl.
    + pose proof (days_in_le (cYear t) (cMonth t)) as X. unfold days_in in X. lia.
    + intros I. destruct (Z.eqb_spec (cMonth t) 2); [lia|].
      destruct (Z.eqb_spec (cMonth t) 4), (Z.eqb_spec (cMonth t) 6), (Z.eqb_spec (cMonth t) 9),
        (Z.eqb_spec (cMonth t) 11); simpl in D; lia.
    + intros M Y. rewrite M in D. simpl in D. apply L in Y. rewrite Y in D. auto.
    + intros M Y. rewrite M in D. simpl in D. destruct (leap (cYear t)); auto. exfalso. now apply Y, L.
Qed.

(* Packing a date from 1995 to 2058 gives a 32-bit value that unpacks to the same date. *)
Theorem C13_round_trip t : is_date t -> 1995 <= cYear t <= 2058 ->
  exists d, time2datime t = Ok d /\ 0 <= d < 2 ^ 32 /\ datime2time d = Some t.
Proof.
  intros D Y. apply is_date_ok in D. assert (O : date_ok t) by (split; auto).
  destruct (time2datime_pack t O) as [E R]. exists (pack t). auto using datime2time_pack.
Qed.

(* The packed values are ordered like the dates. *)
Theorem C13_order a b da db : is_date a -> is_date b -> 1995 <= cYear a <= 2058 -> 1995 <= cYear b <= 2058 ->
  time2datime a = Ok da -> time2datime b = Ok db -> (da < db <-> before a b).
Proof.
  intros A B Ya Yb Ea Eb. apply is_date_ok in A, B.
  destruct (time2datime_pack a) as [Fa _]; [split; auto|]. destruct (time2datime_pack b) as [Fb _]; [split; auto|].
  rewrite Fa in Ea. rewrite Fb in Eb. injection Ea as <-. injection Eb as <-.
  apply civil_ok_ranges in A, B. unfold before, pack. lia.
Qed.

Lemma some_inj {A} (x y : A) : Some x = Some y -> x = y.
Proof. congruence. Qed.
(* Every 32-bit value that unpacks to a calendar date is the packing of that date. *)
Theorem C13_unpack_pack d t : 0 <= d < 2 ^ 32 -> datime2time d = Some t -> time2datime t = Ok d /\ is_date t.
Proof.
  intros R H. unfold datime2time, go_Date in H. destruct (civil_ok _) eqn:C; [|discriminate]. apply some_inj in H.
  set (u := mkCivil _ _ _ _ _ _) in *. subst t. rename u into t. split; [|now apply is_date_ok].
  assert (Y : cYear t = d / 2 ^ 26 + 1995).
  { subst t. cbn [cYear]. rewrite Z.shiftr_div_pow2 by lia. apply wrapU_id. unfold inU.
    pose proof (Z.div_pos d (2 ^ 26)). pose proof (Z.div_lt_upper_bound d (2 ^ 26) (2 ^ 6)). lia. }
  assert (O : date_ok t).
  { split; auto. rewrite Y. pose proof (Z.div_pos d (2 ^ 26)). pose proof (Z.div_lt_upper_bound d (2 ^ 26) (2 ^ 6)). lia. }
  destruct (time2datime_pack t O) as [E _]. rewrite E. f_equal. unfold pack. rewrite Y. subst t.
  cbn [cMonth cDay cHour cMin cSec]. rewrite !extract by lia.
  change (28 - 6) with 22. change (27 - 10) with 17. change (27 - 15) with 12. change (26 - 20) with 6. change (26 - 26) with 0.
  change (32 - 28) with 4. change (32 - 27) with 5. change (32 - 26) with 6.
  change (2 ^ 0) with 1. rewrite Z.div_1_r.
  change (2 ^ 26) with (2 ^ 6 * 2 ^ 6 * 2 ^ 5 * 2 ^ 5 * 2 ^ 4).
  change (2 ^ 22) with (2 ^ 6 * 2 ^ 6 * 2 ^ 5 * 2 ^ 5). change (2 ^ 17) with (2 ^ 6 * 2 ^ 6 * 2 ^ 5).
  change (2 ^ 12) with (2 ^ 6 * 2 ^ 6).
  rewrite <- !Z.div_div by lia.
  pose proof (Z.div_mod d (2 ^ 6)). set (d1 := d / 2 ^ 6) in *.
  pose proof (Z.div_mod d1 (2 ^ 6)). set (d2 := d1 / 2 ^ 6) in *.
  pose proof (Z.div_mod d2 (2 ^ 5)). set (d3 := d2 / 2 ^ 5) in *.
  pose proof (Z.div_mod d3 (2 ^ 5)). set (d4 := d3 / 2 ^ 5) in *.
  pose proof (Z.div_mod d4 (2 ^ 4)). lia.
Qed.

(* Outside of the range the claim fails: earlier dates are refused, later ones come back 64 years earlier. *)
Theorem C13_early t : 0 <= cYear t < 1995 -> time2datime t = Panic.
Proof.
  intros Y. unfold time2datime. rewrite wrapU_id by (unfold inU; lia). destruct (Z.ltb_spec (cYear t) 1995); [auto|lia].
Qed.
Theorem C13_late_refuted : exists t d u, is_date t /\ cYear t = 2059 /\
  time2datime t = Ok d /\ datime2time d = Some u /\ cYear u = 1995.
Proof.
  exists (mkCivil 2059 7 14 10 20 30), 31237406, (mkCivil 1995 7 14 10 20 30).
  split; [apply is_date_ok; reflexivity|]. repeat split.
Qed.
Example C13_example : is_date (mkCivil 2024 2 29 23 59 58) /\
  (exists d, time2datime (mkCivil 2024 2 29 23 59 58) = Ok d /\ d = 1958444794).
Proof. split; [apply is_date_ok; reflexivity|]. eexists; split; vm_compute; reflexivity. Qed.
Example C13_example_order : before (mkCivil 2023 12 31 23 59 59) (mkCivil 2024 1 1 0 0 0).
Proof. left. simpl. lia. Qed.

(* ---- C14 ---- *)
Definition namecycle (name : str) (c : Z) : str := name ++ semicolon :: itoa c.

Theorem C14_encode_decode name c : ~ In semicolon name -> 0 <= c <= 32767 ->
  decodeNameCycle (namecycle name c) = Ok (name, c).
Proof.
  intros N C. unfold decodeNameCycle, namecycle. rewrite split_cons by auto.
  rewrite split_nosep, atoi_itoa.
  - rewrite wrapS_id; auto; unfold inS; simpl; lia.
  - lia.
  - intros I. apply itoa_chars in I. unfold semicolon in I. lia.
Qed.
Theorem C14_plain name : ~ In semicolon name -> decodeNameCycle name = Ok (name, 9999).
Proof. intros N. unfold decodeNameCycle. now rewrite split_nosep. Qed.
(* every decimal integer is accepted, reduced to 16 bits; anything else means the latest cycle *)
Theorem C14_cycle_text name c : ~ In semicolon name -> ~ In semicolon c ->
  decodeNameCycle (name ++ semicolon :: c) =
  Ok (name, match atoi c with Some i => wrapS 16 i | None => 9999 end).
Proof.
  intros N C. unfold decodeNameCycle. rewrite split_cons, split_nosep by auto. destruct (atoi c); auto.
Qed.
Theorem C14_two_separators a b c : decodeNameCycle (a ++ semicolon :: b ++ semicolon :: c) = Panic.
Proof.
  assert (G : forall s, (length (split semicolon s) = S (count_occ Z.eq_dec s semicolon))%nat).
  { induction s as [|x s IH]; simpl; auto. destruct (Z.eqb_spec x semicolon), (Z.eq_dec x semicolon); try congruence.
    - simpl. now rewrite IH.
    - destruct (split semicolon s) eqn:E; [now apply split_nonempty in E|]. simpl in *. auto. }
  pose proof (G (a ++ semicolon :: b ++ semicolon :: c)) as L. rewrite count_occ_app in L. simpl in L.
  rewrite count_occ_app in L. simpl in L. unfold decodeNameCycle.
  destruct (split _ _) as [|x [|y [|z l]]]; simpl in L; auto; lia.
Qed.
(* cycles above 32767 come back as another cycle *)
Theorem C14_wrap_refuted : exists name c, ~ In semicolon name /\ decodeNameCycle (namecycle name c) = Ok (name, 1) /\ c = 65537.
Proof. exists [104; 49], 65537. split; [simpl; intuition discriminate|]. split; reflexivity. Qed.
Example C14_example : namecycle [104; 49] 12 = [104; 49; 59; 49; 50] /\
  decodeNameCycle [104; 49; 59; 49; 50] = Ok ([104; 49], 12).
Proof. split; reflexivity. Qed.

(* ---- C12 ---- *)
(* what the API lets a user put in a key *)
Record key_in_range (k : key) : Prop := {
  kr_nbytes : 0 <= kNbytes k < 2 ^ 31;
  kr_rvers : 0 <= kRvers k < 2 ^ 15;
  kr_objlen : - 2 ^ 31 <= kObjlen k < 2 ^ 31;
  kr_date : is_date (kDate k) /\ 1995 <= cYear (kDate k) <= 2058;
  kr_keylen : 0 <= kKeylen k < 2 ^ 15;
  kr_cycle : - 2 ^ 15 <= kCycle k < 2 ^ 15;
  (* 64-bit positions in a big-file key, 32-bit positions otherwise; beyond 2e9 the key gets big *)
  kr_seeks : (kRvers k <= 1000 -> - 2 ^ 31 <= kSeekpdir k < 2 ^ 31 /\ - 2 ^ 31 <= kSeekkey k <= kStartBigFile) /\
             (1000 < kRvers k -> - 2 ^ 63 <= kSeekpdir k < 2 ^ 63 /\ - 2 ^ 63 <= kSeekkey k < 2 ^ 63);
  kr_strs : str_ok (kClass k) /\ str_ok (kName k) /\ str_ok (kTitle k) }.

Lemma key_in_range_ok k : key_in_range k -> key_ok k /\ wire k = k.
Proof.
  intros [A B C [D D'] E F [G1 G2] H]. split.
  - split; auto; unfold inS; simpl; try lia.
    + split; auto. now apply is_date_ok.
    + destruct (Z.le_gt_cases (kRvers k) 1000) as [X|X]; [specialize (G1 X); unfold kStartBigFile in G1|specialize (G2 ltac:(lia))]; lia.
    + intros X. specialize (G1 X). unfold kStartBigFile in G1. lia.
  - unfold wire. assert (Bk : bump k = k).
    { unfold bump. destruct (Z.ltb_spec kStartBigFile (kSeekkey k)); auto.
      destruct (Z.ltb_spec (kRvers k) 1000); auto. exfalso. specialize (G1 ltac:(lia)). lia. }
    rewrite Bk. cbv zeta. rewrite wrapS_id by (unfold inS; simpl; lia). now destruct k.
Qed.

Definition reader (bs : list Z) (pos : nat) (off : Z) : rbuf := {| rp := bs; rc := pos; rerr := false; roff := off |}.

(* Writing a key then reading it, with any bytes following, gives the key back and stops after it. *)
Theorem C12_round_trip junk k k0 off roff rest : key_in_range k ->
  exists w, marshalKey junk k (wempty off) = Ok w /\ werr w = false /\
    unmarshalKey k0 (reader (wBytes w ++ rest) 0 roff) = Ok (k, reader (wBytes w ++ rest) (length (wBytes w)) roff).
Proof.
  intros K. destruct (key_in_range_ok k K) as [O W].
  destruct (emits_whole (marshalKey junk k) (enc_key k) off) as (w & E & Er & B).
  { rewrite <- W at 2. apply marshalKey_emits; [apply (ko_nbytes k O)|apply (ko_date k O)]. }
  exists w. split; auto. split; auto. rewrite B. unfold reader.
  rewrite (unmarshalKey_reads k0 k O); [reflexivity|]. split; auto. split; [cbn; lia|]. exists rest. reflexivity.
Qed.

(* A key beyond 2e9 bytes that is not yet of the big form is written in that form (version + 1000). *)
Theorem C12_far_key junk k k0 off roff rest : kRvers k < 1000 -> kStartBigFile < kSeekkey k ->
  key_in_range (k_set_rvers k (kRvers k + 1000)) ->
  exists w, marshalKey junk k (wempty off) = Ok w /\ werr w = false /\
    unmarshalKey k0 (reader (wBytes w ++ rest) 0 roff) =
    Ok (k_set_rvers k (kRvers k + 1000), reader (wBytes w ++ rest) (length (wBytes w)) roff).
Proof.
  intros Vs Sk K. destruct (key_in_range_ok _ K) as [O W].
  assert (W' : wire k = k_set_rvers k (kRvers k + 1000)).
  { set (k' := k_set_rvers k (kRvers k + 1000)) in *.
    assert (B1 : bump k = k').
    { unfold bump. destruct (Z.ltb_spec kStartBigFile (kSeekkey k)); [|lia].
      destruct (Z.ltb_spec (kRvers k) 1000); [|lia]. unfold k'. f_equal. apply wrapS_id; [lia|].
      pose proof (kr_rvers _ K) as R. cbn [kRvers k_set_rvers k'] in R. unfold inS. simpl. lia. }
    assert (B2 : bump k' = k').
    { unfold bump. unfold k'. cbn [kSeekkey kRvers k_set_rvers]. fold k'.
      destruct (Z.ltb_spec kStartBigFile (kSeekkey k)); [|lia].
      destruct (Z.ltb_spec (kRvers k + 1000) 1000); [|reflexivity].
      exfalso. pose proof (kr_rvers _ K) as R. cbn [kRvers k_set_rvers k'] in R.
      pose proof (kr_seeks _ K) as [G _]. cbn [kSeekkey kRvers k_set_rvers k'] in G. specialize (G ltac:(lia)). lia. }
    transitivity (wire k'); [|exact W]. unfold wire. now rewrite B1, B2. }
  destruct (emits_whole (marshalKey junk k) (enc_key (wire k)) off) as (w & E & Er & B).
  { apply marshalKey_emits; [apply (ko_nbytes _ O)|apply (ko_date _ O)]. }
  exists w. split; auto. split; auto. rewrite B, W'. unfold reader.
  rewrite (unmarshalKey_reads k0 _ O); [reflexivity|]. split; auto. split; [cbn; lia|]. exists rest. reflexivity.
Qed.

(* A key made for a new record: the header takes exactly the advertised number of bytes
   (for every class but TBasket, whose header has 19 more bytes written by the basket). *)
Theorem C12_advertised_length junk off name title class cycle objlen csize dirBig seekdir eof now w :
  class <> sTBasket -> (dirBig = true -> kStartBigFile < eof) ->
  is_date now -> 1995 <= cYear now <= 2058 -> 0 <= csize -> keylenFor name title class dirBig eof + csize < 2 ^ 31 ->
  let k := newKeyFromBuf name title class cycle objlen csize dirBig seekdir eof now in
  marshalKey junk k (wempty off) = Ok w ->
  zlen (wBytes w) = kKeylen k /\ kNbytes k = zlen (wBytes w) + csize.
Proof.
  intros NB DB D Y C0 C1 k E.
  assert (KP : 0 <= kKeylen k).
  { subst k. unfold newKeyFromBuf, keylenFor. cbn [kKeylen]. pose proof (zlen_nonneg class). pose proof (zlen_nonneg name).
    pose proof (zlen_nonneg title). unfold tstringSizeof.
    repeat match goal with |- context [if ?b then _ else _] => destruct b end; lia. }
  assert (NE : kNbytes k = kKeylen k + csize).
  { subst k. unfold newKeyFromBuf. cbn [kNbytes kKeylen]. apply wrapS_id; [lia|]. unfold inS.
    unfold newKeyFromBuf in KP. cbn [kKeylen] in KP. simpl. lia. }
  destruct (emits_whole (marshalKey junk k) (enc_key (wire k)) off) as (w' & E' & _ & B).
  { apply marshalKey_emits; [lia|]. split; [apply is_date_ok; exact D|exact Y]. }
  rewrite E in E'. injection E' as <-. rewrite B. rewrite NE.
  assert (L : zlen (enc_key (wire k)) = kKeylen k); [|lia].
  rewrite enc_key_size.
  unfold wire, bump, k, newKeyFromBuf, keylenFor.
  cbn [kNbytes kRvers kObjlen kDate kKeylen kCycle kSeekkey kSeekpdir kClass kName kTitle k_set_rvers].
  destruct (str_eqb_spec class sTBasket); [contradiction|].
  destruct (Z.ltb_spec kStartBigFile eof) as [X|X].
  - change (4 + 1000 <? 1000) with false. cbn [kRvers kClass kName kTitle]. change (1000 <? 4 + 1000) with true.
    rewrite orb_true_r. lia.
  - cbn [kRvers kClass kName kTitle]. change (1000 <? 4) with false. destruct dirBig; [specialize (DB eq_refl); lia|]. simpl. lia.
Qed.

(* The key length is stored on 16 bits: with a long enough name the length read back is not the one written. *)
Theorem C12_long_name_refuted : exists name title class k w,
  k = newKeyFromBuf name title class 1 10 10 false 100 300 (mkCivil 2024 2 29 23 59 58) /\
  marshalKey (fun _ => 0) k (wempty 0) = Ok w /\ kKeylen k = 40037 /\
  exists k' r, unmarshalKey key0 (reader (wBytes w) 0 0) = Ok (k', r) /\ kKeylen k' = -25499.
Proof.
  set (name := repeat 65 (Z.to_nat 40000)). set (k := newKeyFromBuf name [] [84; 72; 49; 68] 1 10 10 false 100 300 (mkCivil 2024 2 29 23 59 58)).
  assert (Ln : zlen name = 40000) by (unfold name; rewrite zlen_repeat; apply Z2Nat.id; lia).
  assert (Kl : keylenFor name [] [84; 72; 49; 68] false 300 = 40037).
  { unfold keylenFor, tstringSizeof. rewrite Ln. reflexivity. }
  destruct (emits_whole (marshalKey (fun _ => 0) k) (enc_key (wire k)) 0) as (w & E & _ & B).
  { apply marshalKey_emits; [unfold k, newKeyFromBuf; cbn [kNbytes]; rewrite Kl; discriminate|]. split; [reflexivity|simpl; lia]. }
  exists name, [], [84; 72; 49; 68], k, w. split; auto. split; auto. split; [unfold k, newKeyFromBuf; cbn [kKeylen]; exact Kl|].
  assert (W : wire k = mkKey 40047 4 10 (mkCivil 2024 2 29 23 59 58) (-25499) 1 300 100 [84; 72; 49; 68] name []).
  { unfold wire, bump, k, newKeyFromBuf. cbn [kSeekkey kRvers]. change (kStartBigFile <? 300) with false.
    cbn [kNbytes kRvers kObjlen kDate kKeylen kCycle kSeekkey kSeekpdir kClass kName kTitle].
    rewrite Kl. reflexivity. }
  assert (O : key_ok (wire k)).
  { rewrite W. split; cbn [kNbytes kRvers kObjlen kDate kKeylen kCycle kSeekkey kSeekpdir kClass kName kTitle];
      unfold inS; simpl; try lia.
    - split; [reflexivity|simpl; lia].
    - assert (S1 : str_ok [84; 72; 49; 68]).
      { split; [repeat constructor; lia|]. split; [simpl; lia|discriminate]. }
      assert (S2 : str_ok name).
      { split; [|split; [unfold zlen in Ln; rewrite Ln; simpl; lia|]].
        - unfold name, bytes_ok. apply Forall_forall. intros x I. apply repeat_spec in I. subst. unfold byte_ok; lia.
        - unfold name. destruct (Z.to_nat 40000); simpl; discriminate. }
      split; auto. split; auto. split; [constructor|]. split; [simpl; lia|discriminate]. }
  eexists (wire k), _. rewrite B. unfold reader. rewrite (reads_whole _ _ _ 0 (unmarshalKey_reads key0 _ O)).
  split; [reflexivity|]. now rewrite W.
Qed.

Example C12_example : key_in_range (newKeyFromBuf [104; 49] [116] [84; 72; 49; 68] 3 900 700 false 100 300 (mkCivil 2024 2 29 23 59 58)) /\
  key_in_range (newKeyFromBuf [104; 49] [116] [84; 72; 49; 68] 3 900 700 false 100 3000000000 (mkCivil 2024 2 29 23 59 58)).
Proof.
  assert (S : str_ok [104; 49] /\ str_ok [116] /\ str_ok [84; 72; 49; 68]).
  { repeat split; try (repeat constructor; unfold byte_ok; lia); simpl; try lia; discriminate. }
  destruct S as (S1 & S2 & S3).
  split; split; unfold newKeyFromBuf, kStartBigFile;
    cbn [kNbytes kRvers kObjlen kDate kKeylen kCycle kSeekkey kSeekpdir kClass kName kTitle]; auto;
    try (split; [apply is_date_ok; reflexivity|simpl; lia]); try (vm_compute; intuition congruence).
Qed.

Example C12_far_example : key_in_range (k_set_rvers
  (mkKey 100 4 60 (mkCivil 2024 2 29 23 59 58) 40 1 3000000000 100 [84] [104] [116]) (4 + 1000)).
Proof.
  assert (S : str_ok [84] /\ str_ok [104] /\ str_ok [116]).
  { repeat split; try (repeat constructor; unfold byte_ok; lia); simpl; try lia; discriminate. }
  destruct S as (S1 & S2 & S3).
  split; unfold kStartBigFile, k_set_rvers;
    cbn [kNbytes kRvers kObjlen kDate kKeylen kCycle kSeekkey kSeekpdir kClass kName kTitle]; auto;
    try (split; [apply is_date_ok; reflexivity|simpl; lia]); try (simpl; lia).
Qed.

(* ---- C49 ---- *)
(* Writing the keys of a directory then reading them gives them back in order (keys of class TDirectory
   are reported as TDirectoryFile). *)
Definition as_read (k : key) : key := if str_dec (kClass k) sTDirectory then k_set_class k sTDirectoryFile else k.
Theorem C49_keys junk l off roff rest : Forall key_in_range l -> zlen l < 2 ^ 31 ->
  exists w, writeKeys junk l (wempty off) = Ok w /\ werr w = false /\
    readKeys (reader (wBytes w ++ rest) 0 roff) = Ok (map as_read l, reader (wBytes w ++ rest) (length (wBytes w)) roff).
Proof.
  intros F L.
  assert (O : Forall key_ok l) by (eapply Forall_impl; [|exact F]; intros; now apply key_in_range_ok).
  assert (W : map (fun k => enc_key (wire k)) l = map enc_key l).
  { apply map_ext_in. intros k I. rewrite Forall_forall in F. f_equal. now apply key_in_range_ok, F. }
  destruct (emits_whole (writeKeys junk l) (be 4 (zlen l) ++ concat (map enc_key l)) off) as (w & E & Er & B).
  { unfold writeKeys. rewrite <- W. apply w_seq_emits.
    - rewrite wrapS_id by (try lia; pose proof (zlen_nonneg l); unfold inS; simpl; lia). apply WriteInt_emits.
    - apply marshalKeys_emits. eapply Forall_impl; [|exact O]. intros k K. split; [apply (ko_nbytes k K)|apply (ko_date k K)]. }
  exists w. split; auto. split; auto. rewrite B. unfold reader.
  rewrite (readKeys_reads l O L); [|split; auto; split; [cbn; lia|]; exists rest; reflexivity].
  unfold adv. cbn [rp rc rerr RbytesModel.roff].
  replace (map oldDir l) with (map as_read l); [reflexivity|].
  apply map_ext. intros k. unfold oldDir, as_read. destruct (str_eqb_spec (kClass k) sTDirectory), (str_dec (kClass k) sTDirectory); congruence.
Qed.

Record dir_in_range (d : dirhdr) : Prop := {
  dr_rvers : 0 <= dRvers d < 2 ^ 15 /\ 3 <= dRvers d mod 1000;
  dr_dates : is_date (dCtime d) /\ 1995 <= cYear (dCtime d) <= 2058 /\ is_date (dMtime d) /\ 1995 <= cYear (dMtime d) <= 2058;
  dr_sizes : - 2 ^ 31 <= dNbyteskeys d < 2 ^ 31 /\ - 2 ^ 31 <= dNbytesname d < 2 ^ 31;
  dr_seeks : forall x, In x [dSeekdir d; dSeekparent d; dSeekkeys d] ->
     if 1000 <? dRvers d then - 2 ^ 63 <= x < 2 ^ 63 else - 2 ^ 31 <= x < 2 ^ 31;
  dr_uuid : length (dUuid d) = 16%nat }.
(* A directory header record (of version 3 or later) comes back as written. *)
Theorem C49_header junk d off roff rest : dir_in_range d ->
  exists w, marshalDir junk d (wempty off) = Ok w /\ werr w = false /\
    unmarshalDir (reader (wBytes w ++ rest) 0 roff) = Ok (d, reader (wBytes w ++ rest) (length (wBytes w)) roff).
Proof.
  intros [[V V'] (C & Cy & M & My) [A B] S U]. apply is_date_ok in C, M.
  assert (O : dir_ok d).
  { pose proof (S (dSeekdir d) ltac:(simpl; auto)) as S1. pose proof (S (dSeekparent d) ltac:(simpl; auto)) as S2.
    pose proof (S (dSeekkeys d) ltac:(simpl; auto)) as S3.
    split; auto; unfold inS; simpl; try lia.
    - rewrite Z.rem_mod_nonneg by lia. lia.
    - split; split; auto.
    - destruct (1000 <? dRvers d); lia.
    - destruct (Z.ltb_spec 1000 (dRvers d)); lia. }
  destruct (emits_whole (marshalDir junk d) (enc_dir d) off) as (w & E & Er & Bw).
  { apply marshalDir_emits; try (split; auto). intros X. rewrite X in U. discriminate. }
  exists w. split; auto. split; auto. rewrite Bw. unfold reader.
  rewrite (unmarshalDir_reads d O); [reflexivity|]. split; auto. split; [cbn; lia|]. exists rest. reflexivity.
Qed.
Example C49_example : Forall key_in_range
  [newKeyFromBuf [104; 49] [116] [84; 72; 49; 68] 3 900 700 false 100 300 (mkCivil 2024 2 29 23 59 58);
   newKeyFromBuf [104; 49] [116] [84; 72; 49; 68] 3 900 700 false 100 3000000000 (mkCivil 2024 2 29 23 59 58)] /\
  dir_in_range (mkDir 5 (mkCivil 2024 2 29 23 59 58) (mkCivil 2024 3 1 0 0 0) 120 58 100 0 1234 (repeat 7 16)).
Proof.
  split.
  - apply Forall_cons; [apply C12_example|]. apply Forall_cons; [apply C12_example|]. constructor.
  - split; cbn [dRvers dCtime dMtime dNbyteskeys dNbytesname dSeekdir dSeekparent dSeekkeys dUuid].
    + split; [simpl; lia|]. change (5 mod 1000) with 5. lia.
    + split; [apply is_date_ok; reflexivity|]. split; [simpl; lia|]. split; [apply is_date_ok; reflexivity|simpl; lia].
    + simpl; lia.
    + simpl. intros x [<-|[<-|[<-|[]]]]; lia.
    + reflexivity.
Qed.

Print Assumptions C12_round_trip.
Print Assumptions C12_far_key.
Print Assumptions C12_advertised_length.
Print Assumptions C12_long_name_refuted.
Print Assumptions C13_round_trip.
Print Assumptions C13_order.
Print Assumptions C13_unpack_pack.
Print Assumptions C13_late_refuted.
Print Assumptions C14_encode_decode.
Print Assumptions C14_plain.
Print Assumptions C14_cycle_text.
Print Assumptions C14_two_separators.
Print Assumptions C49_keys.
Print Assumptions C49_header.
