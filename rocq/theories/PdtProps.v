(* C80: particle data tables *)
From Coq Require Import ZArith List Lia Bool String.
From Flocq Require Import IEEE754.BinarySingleNaN.
From Verif Require Import Bytes GoLib GoStrings F64 F64Arith FloatText PidModel YodaModel YodaProofs YodaCnvProofs YodaH2Proofs PdtModel PdtProofs.
Import ListNotations.
Local Open Scope Z_scope.

(* ---- texts ---- *)
Definition isBlank (c : Z) : Prop := In c [9; 10; 13; 32].
Definition Word (t : str) : Prop := t <> [] /\ Forall (fun c => ~ isBlank c) t.
(* words, with blanks between them among which there is a space, and blanks at the end *)
Inductive Laid : list str -> str -> Prop :=
  | Laid1 t p : Word t -> Forall isBlank p -> Laid [t] (t ++ p)
  | LaidS t g ts s : Word t -> Forall isBlank g -> In 32 g -> Laid ts s -> Laid (t :: ts) (t ++ g ++ s).
Definition Row (ts : list str) (l : str) : Prop := exists p s, Forall isBlank p /\ Laid ts s /\ l = p ++ s.
Definition Comment (l : str) : Prop := Forall isBlank l \/ exists p v, Forall isBlank p /\ (l = p ++ 35 :: v \/ l = p ++ 47 :: 47 :: v).
(* lines: no newline, no carriage return at the end, and fewer than 65536 bytes *)
Definition Line (l : str) : Prop := ~ In 10 l /\ last l 0 <> 13 /\ Z.of_nat (List.length l) < 65536.
(* six columns: a whole number, a name, a whole number and three numbers *)
Definition wellFormed (ts : list str) : Prop := exists id name chg mass width life, ts = [id; name; chg; mass; width; life] /\ atoi id <> None /\ atoi chg <> None /\ parse_float mass <> None /\ parse_float width <> None /\ parse_float life <> None.
(* -1, 1e-20 and hbar in GeV s *)
Theorem C80_constants : zero = B754_zero false /\ minusOne = Bopp (const 1 0) /\ epsilon = const 1 (-20) /\ hbar = const 658211889 (-33).
Proof. repeat split. Qed.
Definition describes (ts : list str) (p : particle) : Prop := exists id name chg mass width life i q m w l,
  ts = [id; name; chg; mass; width; life] /\ atoi id = Some i /\ atoi chg = Some q /\ parse_float mass = Some m /\ parse_float width = Some w /\ parse_float life = Some l /\
  p_id p = i /\ p_name p = name /\ p_mass p = m /\ p_charge p = fmul (ofInt q) (if isQBall i then const 1 (-2) else fdiv (const 1 0) (const 3 0)) /\
  (fgt w zero = true -> p_width p = w) /\ (feq w minusOne = true -> p_width p = minusOne) /\
  (fgt w zero = false -> feq w minusOne = false -> fge l epsilon = true -> p_width p = fdiv hbar l) /\
  (fgt w zero = false -> feq w minusOne = false -> fge l epsilon = false -> p_width p = zero).
(* a line is a comment or a row *)
Definition reads (l : str) (o : option (list str)) : Prop := match o with None => Comment l | Some ts => Row ts l /\ wellFormed ts end.
Definition rows (os : list (option (list str))) : list (list str) := flat_map (fun o => match o with Some ts => [ts] | None => [] end) os.

Lemma blank_ws c : isBlank c <-> ws c = true.
Proof. unfold isBlank, ws. cbn [In]. destruct (Z.eqb_spec c 32), (Z.eqb_spec c 9), (Z.eqb_spec c 13), (Z.eqb_spec c 10); cbn [orb]; split; intros; try discriminate; try reflexivity; intuition lia. Qed.
Lemma Blanks l : Forall isBlank l -> blanks l.
Proof. apply Forall_impl. intros c H. apply blank_ws. exact H. Qed.
Lemma Word_word t : Word t -> word t.
Proof. intros [N F]. split; [exact N|]. revert F. apply Forall_impl. intros c H. destruct (ws c) eqn:E; [|reflexivity]. destruct H. apply blank_ws. exact E. Qed.
Lemma Laid_laid ts s : Laid ts s -> laid ts s.
Proof. induction 1 as [t p W B|t g ts s W B I L IH]; [constructor; [apply Word_word; exact W|apply Blanks; exact B]|]. constructor; [apply Word_word; exact W|split; [apply Blanks; exact B|exact I]|exact IH]. Qed.
Lemma Row_rowLine ts l : Row ts l -> rowLine ts l.
Proof. intros (p & s & B & L & E). exists p, s. split; [apply Blanks; exact B|]. split; [apply Laid_laid; exact L|exact E]. Qed.
Lemma Comment_comment l : Comment l -> comment l.
Proof. intros [B|(p & v & B & E)]; [left; apply Blanks; exact B|right]. exists p, v. split; [apply Blanks; exact B|exact E]. Qed.
Lemma width_cases (eps l : f64) : is_nanb eps = false -> fgt eps zero = true -> (fge l eps = true -> fgt l zero = true /\ flt l eps = false) /\ (fge l eps = false -> fgt l zero = false \/ flt l eps = true).
Proof.
  intros NE PE. split; intros G.
  - change (fle eps l = true) in G. destruct (nonan_le _ _ G) as [_ NL]. split.
    + change (flt zero l = true). change (flt zero eps = true) in PE. apply flt_true in PE as (x & y & X & Y & XY). apply fle_true in G as (y' & u & Y' & U & YU). apply flt_true. exists x, u. split; [exact X|]. split; [exact U|]. rewrite Y in Y'. injection Y' as <-. lia.
    + destruct (flt l eps) eqn:E; [|reflexivity]. rewrite (flt_not_le _ _ E) in G. discriminate.
  - change (fle eps l = false) in G. destruct (fgt l zero) eqn:P; [|left; reflexivity]. right. change (flt zero l = true) in P. destruct (nonan_le _ _ (flt_le _ _ P)) as [_ NL]. destruct (flt l eps) eqn:E; [reflexivity|]. rewrite (flt_total l eps NL NE E) in G. discriminate.
Qed.
Lemma short_ge (eps l : f64) : flt l eps = true -> fge l eps = false.
Proof. exact (flt_not_le l eps). Qed.
Lemma eps_ok : is_nanb epsilon = false /\ fgt epsilon zero = true.
Proof. split; vm_compute; reflexivity. Qed.
Lemma one_ok : fgt minusOne zero = false /\ (forall s, feq (B754_zero s) minusOne = false) /\ feq minusOne minusOne = true.
Proof. split; [vm_compute; reflexivity|]. split; [intros s; destruct s; vm_compute; reflexivity|vm_compute; reflexivity]. Qed.
Lemma zero_ge s : fge (B754_zero s) epsilon = false.
Proof. destruct s; vm_compute; reflexivity. Qed.
Lemma pick_width (one eps w l : f64) (calc : f64) : is_nanb eps = false -> fgt eps zero = true -> fgt one zero = false -> (forall s, feq (B754_zero s) one = false) ->
  let r := if fgt w zero then w else if feq w one then one else if fgt l zero then (if flt l eps then zero else calc) else zero in
  (fgt w zero = true -> r = w) /\ (feq w one = true -> r = one) /\ (fgt w zero = false -> feq w one = false -> fge l eps = true -> r = calc) /\ (fgt w zero = false -> feq w one = false -> fge l eps = false -> r = zero).
Proof.
  intros NE PE O1 O2 r. unfold r. destruct (width_cases eps l NE PE) as [A B]. split; [intros ->; reflexivity|]. split.
  - intros H. rewrite H. destruct (fgt w zero) eqn:G; [|reflexivity]. destruct (feq_same w one H) as [->|(s & s' & -> & ->)]; [rewrite O1 in G; discriminate|destruct s; discriminate G].
  - split; intros -> -> G; [destruct (A G) as [-> ->]; reflexivity|]. destruct (B G) as [->| ->]; [reflexivity|]. destruct (fgt l zero); reflexivity.
Qed.
Lemma row_describes ts : wellFormed ts -> exists p, rowOf ts = Some p /\ describes ts p.
Proof.
  intros (a & b & c & d & e & f & -> & HA & HC & HD & HE & HF). cbn [rowOf]. destruct (atoi a) as [i|] eqn:EA; [|contradiction]. destruct (atoi c) as [q|] eqn:EC; [|contradiction]. destruct (parse_float d) as [m|] eqn:ED; [|contradiction]. destruct (parse_float e) as [w|] eqn:EE; [|contradiction]. destruct (parse_float f) as [l|] eqn:EF; [|contradiction].
  eexists. split; [reflexivity|]. exists a, b, c, d, e, f, i, q, m, w, l. repeat (split; [assumption || reflexivity|]). cbn [p_width]. unfold calcWidth. destruct eps_ok as [NE PE]. destruct one_ok as (O1 & O2 & _).
  exact (pick_width minusOne epsilon w l (fdiv hbar l) NE PE O1 O2).
Qed.
Lemma reads_lineIs ls os : Forall2 reads ls os -> exists ps, Forall2 lineIs ls ps /\ Forall2 describes (rows os) (kept ps).
Proof.
  induction 1 as [|l o ls os H F (ps & A & B)]; [exists []; split; constructor|]. destruct o as [ts|]; cbn [reads] in H.
  - destruct H as [R W]. destruct (row_describes ts W) as (p & E & D). exists (Some p :: ps). split; [constructor; [exists ts; split; [apply Row_rowLine; exact R|exact E]|exact A]|]. cbn [rows kept flat_map app]. constructor; [exact D|exact B].
  - exists (None :: ps). split; [constructor; [apply Comment_comment; exact H|exact A]|]. exact B.
Qed.
Lemma Lines ls : Forall Line ls -> Forall plain ls /\ Forall short ls.
Proof. intros F. split; revert F; apply Forall_impl; intros l (A & B & C); [split; assumption|exact C]. Qed.
Lemma new_lines ls ps : Forall Line ls -> Forall2 lineIs ls ps -> newTable (flat_map nl ls) = (tableOf (kept ps) (mktable [] []), true).
Proof. intros L F. destruct (Lines ls L) as [P S]. rewrite <- (app_nil_r (flat_map nl ls)), (new_app ls ps [] P S F). reflexivity. Qed.

(* every row is a particle: by its number the last row with that number is found, by a name the particle with the number of the last row with that name *)
Theorem C80_table : forall ls os, Forall Line ls -> Forall2 reads ls os ->
  exists t ps, newTable (flat_map nl ls) = (t, true) /\ Forall2 describes (rows os) ps /\
    (forall i p, byID t i = Some p <-> exists a b, ps = a ++ p :: b /\ p_id p = i /\ forall q, In q b -> p_id q <> i) /\
    (forall i, byID t i = None <-> forall q, In q ps -> p_id q <> i) /\
    (forall n p, byName t n = Some p <-> exists a q b, ps = a ++ q :: b /\ p_name q = n /\ (forall r, In r b -> p_name r <> n) /\ byID t (p_id q) = Some p) /\
    len t = List.length (nodup Z.eq_dec (map p_id ps)).
Proof.
  intros ls os L F. destruct (reads_lineIs ls os F) as (ps & A & B). exists (tableOf (kept ps) (mktable [] [])), (kept ps). split; [apply new_lines; assumption|]. split; [exact B|]. split; [intros; apply byID_last|]. split; [intros; apply byID_none|]. split; [intros; apply byName_last|]. apply len_ids.
Qed.
(* when no number and no name is there twice, every particle is found by either *)
Theorem C80_unique : forall ls os t, Forall Line ls -> Forall2 reads ls os -> newTable (flat_map nl ls) = (t, true) ->
  exists ps, Forall2 describes (rows os) ps /\ (NoDup (map p_id ps) -> NoDup (map p_name ps) -> len t = List.length ps /\ forall p, In p ps -> byID t (p_id p) = Some p /\ byName t (p_name p) = Some p).
Proof.
  intros ls os t L F E. destruct (C80_table ls os L F) as (t' & ps & E' & D & ID & _ & NM & LN). rewrite E in E'. injection E' as <-. exists ps. split; [exact D|]. intros N1 N2. split; [rewrite LN, nodup_fixed_point by exact N1; apply map_length|].
  assert (G : forall {B} (f : particle -> B) a p b, NoDup (map f (a ++ p :: b)) -> forall q, In q b -> f q <> f p).
  { intros B f a p b N q I X. rewrite map_app in N. cbn [map] in N. apply NoDup_remove_2 in N. apply N. apply in_or_app. right. rewrite <- X. apply in_map. exact I. }
  intros p I. apply in_split in I as (a & b & ->). assert (BI : byID t (p_id p) = Some p) by (apply ID; exists a, b; split; [reflexivity|]; split; [reflexivity|]; exact (G _ p_id a p b N1)). split; [exact BI|]. apply NM. exists a, p, b. split; [reflexivity|]. split; [reflexivity|]. split; [exact (G _ p_name a p b N2)|exact BI].
Qed.
(* a line that is neither a comment nor a row is an error, and the table holds what was before it *)
Theorem C80_malformed : forall ls os l ts rest, Forall Line ls -> Forall2 reads ls os -> Line l -> Row ts l -> ~ wellFormed ts -> (forall r, hd [] ts <> 35 :: r /\ hd [] ts <> 47 :: r) ->
  exists t, newTable (flat_map nl ls) = (t, true) /\ newTable (flat_map nl ls ++ nl l ++ rest) = (t, false).
Proof.
  intros ls os l ts rest L F LL R NW NC. destruct (reads_lineIs ls os F) as (ps & A & _). exists (tableOf (kept ps) (mktable [] [])). split; [apply new_lines; assumption|]. destruct (Lines ls L) as [P S]. rewrite (new_app ls ps _ P S A).
  destruct LL as (L1 & L2 & L3). unfold nl. rewrite <- app_assoc. cbn [app]. rewrite split_cons by exact L1. change (l :: split 10 rest) with ([l] ++ split 10 rest). rewrite rawlines_more by apply split_nonempty. rewrite scanned_app by (constructor; [exact L3|constructor]). rewrite map_app. cbn [map app parseLines].
  assert (EL : dropCR l = l) by (unfold dropCR; destruct (Z.eqb_spec (last l 0) 13); [contradiction|reflexivity]). rewrite EL. pose proof (Row_rowLine ts l R) as RL. rewrite (row_tokens ts l RL).
  assert (SK : skipped (trim l) = false).
  { destruct RL as (b & s & B & LD & ->). destruct (laid_head ts s LD) as (t & r & c & u & -> & W & -> & v & ->). destruct W as [_ W]. inversion W as [|? ? WC _]; subst. destruct (trim_head b c v B WC) as (x & -> & _). destruct (NC u) as (N1 & N2). cbn [hd] in N1, N2. unfold skipped. destruct (Z.eqb_spec c 35) as [->|_]; [contradiction|]. destruct (Z.eqb_spec c 47) as [->|_]; [contradiction|]. reflexivity. }
  rewrite SK. destruct (rowOf ts) eqn:E; [|reflexivity]. exfalso. apply NW. destruct ts as [|a [|b [|c [|d [|e [|f [|g ts]]]]]]]; try discriminate. cbn [rowOf] in E. exists a, b, c, d, e, f. split; [reflexivity|].
  destruct (atoi a), (atoi c), (parse_float d), (parse_float e), (parse_float f); try discriminate. repeat split; discriminate.
Qed.
(* ---- examples ---- *)
Definition exLines : list str := [ys "# comment"; ys "  1 d  -1 0 0 0"; []; ys "// comment"; ys "2" ++ 9 :: ys " u 2 0 -0 0 "].
Definition exRows : list (option (list str)) := [None; Some (map ys ["1"; "d"; "-1"; "0"; "0"; "0"]%string); None; None; Some (map ys ["2"; "u"; "2"; "0"; "-0"; "0"]%string)].
Ltac blk := repeat (apply Forall_cons; [unfold isBlank; cbn; tauto|]); apply Forall_nil.
Ltac wd := split; [discriminate|cbn; repeat (apply Forall_cons; [unfold isBlank; cbn; lia|]); apply Forall_nil].
Lemma exLines_ok : Forall Line exLines.
Proof. repeat (apply Forall_cons; [split; [cbn; lia|split; [cbn; lia|cbn; lia]]|]). apply Forall_nil. Qed.
Lemma exRows_ok : Forall2 reads exLines exRows.
Proof.
  unfold exLines, exRows. constructor; [right; exists [], (ys " comment"); split; [constructor|left; reflexivity]|].
  constructor. { split; [|exists (ys "1"), (ys "d"), (ys "-1"), (ys "0"), (ys "0"), (ys "0"); split; [reflexivity|]; repeat split; discriminate]. exists (ys "  "), (ys "1" ++ ys " " ++ ys "d" ++ ys "  " ++ ys "-1" ++ ys " " ++ ys "0" ++ ys " " ++ ys "0" ++ ys " " ++ ys "0" ++ []). split; [blk|]. split; [|reflexivity]. cbn [map]. repeat (apply LaidS; [wd|blk|cbn; tauto|]). apply Laid1; [wd|blk]. }
  constructor; [left; constructor|]. constructor; [right; exists [], (ys " comment"); split; [constructor|right; reflexivity]|].
  constructor; [|constructor]. split; [|exists (ys "2"), (ys "u"), (ys "2"), (ys "0"), (ys "-0"), (ys "0"); split; [reflexivity|]; repeat split; discriminate].
  exists [], (ys "2" ++ (9 :: ys " ") ++ ys "u" ++ ys " " ++ ys "2" ++ ys " " ++ ys "0" ++ ys " " ++ ys "-0" ++ ys " " ++ ys "0" ++ ys " "). split; [blk|]. split; [|reflexivity]. cbn [map]. repeat (apply LaidS; [wd|blk|cbn; tauto|]). apply Laid1; [wd|blk].
Qed.
Example C80_table_ex : exists t ps, newTable (flat_map nl exLines) = (t, true) /\ Forall2 describes (rows exRows) ps /\ len t = List.length (nodup Z.eq_dec (map p_id ps)).
Proof. destruct (C80_table exLines exRows exLines_ok exRows_ok) as (t & ps & A & B & _ & _ & _ & C). exists t, ps. auto. Qed.
Example C80_found_ex : option_map p_name (byID (fst (newTable (flat_map nl exLines))) 2) = Some (ys "u") /\ option_map p_id (byName (fst (newTable (flat_map nl exLines))) (ys "d")) = Some 1.
Proof. split; lazy; reflexivity. Qed.
Example C80_malformed_ex : exists t, newTable (flat_map nl exLines) = (t, true) /\ newTable (flat_map nl exLines ++ nl (ys "3 s") ++ ys "rest") = (t, false).
Proof.
  apply (C80_malformed exLines exRows (ys "3 s") (map ys ["3"; "s"]%string) (ys "rest") exLines_ok exRows_ok).
  - split; [cbn; lia|split; [cbn; lia|cbn; lia]].
  - exists [], (ys "3" ++ ys " " ++ ys "s" ++ []). split; [blk|]. split; [|reflexivity]. cbn [map]. apply LaidS; [wd|blk|cbn; tauto|]. apply Laid1; [wd|blk].
  - intros (a & b & c & d & e & f & E & _). discriminate.
  - intros r. repeat split; discriminate.
Qed.
(* the particle found by a name can have another name *)
Theorem C80_name_refuted : exists text t p, newTable text = (t, true) /\ byName t (ys "a") = Some p /\ p_name p = ys "b".
Proof. exists (flat_map nl [ys "1 a 0 0 0 0"; ys "1 b 0 0 0 0"]). eexists. eexists. split; [lazy -[fmul fdiv const ofInt]; reflexivity|]. split; lazy -[fmul fdiv const ofInt]; reflexivity. Qed.
(* columns separated by tabs are an error *)
Theorem C80_tabs_refuted : exists ts, wellFormed ts /\ snd (newTable (nl (join 9 ts))) = false.
Proof. exists (map ys ["1"; "d"; "-1"; "0"; "0"; "0"]%string). split; [exists (ys "1"), (ys "d"), (ys "-1"), (ys "0"), (ys "0"), (ys "0"); split; [reflexivity|]; repeat split; discriminate|]. lazy. reflexivity. Qed.
(* ---- long lines ---- *)
(* what follows a line of 65536 bytes or more is not read, and there is no error *)
Theorem C80_long_line : forall ls os l rest, Forall Line ls -> Forall2 reads ls os -> ~ In 10 l -> 65536 <= Z.of_nat (List.length l) -> newTable (flat_map nl ls ++ nl l ++ rest) = newTable (flat_map nl ls).
Proof.
  intros ls os l rest L F N G. destruct (reads_lineIs ls os F) as (ps & A & _). destruct (Lines ls L) as [P S]. rewrite (new_lines ls ps L A), (new_app ls ps _ P S A). unfold nl. rewrite <- app_assoc. cbn [app]. rewrite split_cons by exact N. change (l :: split 10 rest) with ([l] ++ split 10 rest). rewrite rawlines_more by apply split_nonempty.
  cbn [app scanned]. destruct (Z.ltb_spec (Z.of_nat (List.length l)) 65536); [lia|]. reflexivity.
Qed.
Theorem C80_long_refuted : exists l, Comment l /\ ~ In 10 l /\ forall rest, newTable (flat_map nl exLines ++ nl l ++ rest) = newTable (flat_map nl exLines).
Proof.
  exists (35 :: repeat 32 (Z.to_nat 65536)). split; [right; exists [], (repeat 32 (Z.to_nat 65536)); split; [constructor|left; reflexivity]|]. assert (N : ~ In 10 (35 :: repeat 32 (Z.to_nat 65536))) by (intros [H|H]; [discriminate|apply repeat_spec in H; discriminate]). split; [exact N|].
  intros rest. apply (C80_long_line exLines exRows); [exact exLines_ok|exact exRows_ok|exact N|]. cbn [List.length]. rewrite repeat_length, Nat2Z.inj_succ, Z2Nat.id by lia. lia.
Qed.
(* ---- stable particles ---- *)
Lemma hbar_pos : exists m e H, hbar = B754_finite false m e H.
Proof. assert (G : match hbar with B754_finite false _ _ _ => true | _ => false end = true) by (vm_compute; reflexivity). destruct hbar as [| | |[] m e H]; try discriminate. exists m, e, H. reflexivity. Qed.
Lemma zero_stable p : p_width p = zero -> isStable p = true.
Proof.
  intros E. unfold isStable, lifetime. rewrite E. destruct hbar_pos as (m & e & H & ->). destruct one_ok as (_ & M & _). unfold zero. rewrite M. reflexivity.
Qed.
(* a width of -1 means unstable; with neither width nor lifetime a particle is stable; with a width from which a finite lifetime follows it is not *)
Theorem C80_stable : forall ts p w l, describes ts p -> parse_float (nth 4 ts []) = Some w -> parse_float (nth 5 ts []) = Some l ->
  (feq w minusOne = true -> isStable p = false) /\
  ((exists s, w = B754_zero s) -> (exists s, l = B754_zero s) -> isStable p = true) /\
  (fgt w zero = true -> fdiv hbar w <> B754_infinity false -> isStable p = false).
Proof.
  intros ts p w l (a & b & c & d & e & f & i & q & m & w' & l' & -> & _ & _ & _ & EW & EL & _ & _ & _ & _ & W1 & W2 & W3 & W4) PW PL. cbn [nth] in PW, PL. rewrite PW in EW. injection EW as <-. rewrite PL in EL. injection EL as <-. destruct one_ok as (_ & O2 & O3). split; [|split].
  - intros H. unfold isStable. rewrite (W2 H), O3. reflexivity.
  - intros [s ->] [s' ->]. apply zero_stable. apply W4; [destruct s; reflexivity|apply O2|apply zero_ge].
  - intros H N. unfold isStable, lifetime. rewrite (W1 H), H. cbn [orb]. destruct (feq w minusOne); [reflexivity|]. destruct (fdiv hbar w) as [|[]| |]; try reflexivity. contradiction.
Qed.
(* a particle with a lifetime below 1e-20 and no width is taken to be stable *)
Theorem C80_short_lived : forall ts p w l, describes ts p -> parse_float (nth 4 ts []) = Some w -> parse_float (nth 5 ts []) = Some l -> (exists s, w = B754_zero s) -> fgt l zero = true -> flt l epsilon = true -> isStable p = true.
Proof.
  intros ts p w l (a & b & c & d & e & f & i & q & m & w' & l' & -> & _ & _ & _ & EW & EL & _ & _ & _ & _ & W1 & W2 & W3 & W4) PW PL [s ->] GL LT. cbn [nth] in PW, PL. rewrite PW in EW. injection EW as <-. rewrite PL in EL. injection EL as <-. destruct one_ok as (_ & O2 & _).
  apply zero_stable. apply W4; [destruct s; reflexivity|apply O2|]. apply short_ge. exact LT.
Qed.
Theorem C80_short_refuted : exists ts p l, describes ts p /\ parse_float (nth 5 ts []) = Some l /\ fgt l zero = true /\ isStable p = true.
Proof.
  assert (W : wellFormed (map ys ["223"; "omega"; "0"; "0"; "0"; "1e-21"]%string)) by (exists (ys "223"), (ys "omega"), (ys "0"), (ys "0"), (ys "0"), (ys "1e-21"); split; [reflexivity|]; repeat split; vm_compute; discriminate).
  destruct (row_describes _ W) as (p & _ & D). exists (map ys ["223"; "omega"; "0"; "0"; "0"; "1e-21"]%string), p. destruct (parse_float (ys "1e-21")) as [l|] eqn:E; [|exfalso; revert E; vm_compute; discriminate]. exists l. split; [exact D|]. split; [exact E|].
  assert (G : match parse_float (ys "1e-21") with Some x => fgt x zero && flt x epsilon | None => false end = true) by (vm_compute; reflexivity). rewrite E in G. apply andb_true_iff in G as [G1 G2]. split; [exact G1|]. apply (C80_short_lived _ p (B754_zero false) l D); [reflexivity|exact E|exists false; reflexivity|exact G1|exact G2].
Qed.

Print Assumptions C80_constants.
Print Assumptions C80_table.
Print Assumptions C80_unique.
Print Assumptions C80_malformed.
Print Assumptions C80_name_refuted.
Print Assumptions C80_tabs_refuted.
Print Assumptions C80_long_line.
Print Assumptions C80_long_refuted.
Print Assumptions C80_stable.
Print Assumptions C80_short_lived.
Print Assumptions C80_short_refuted.
