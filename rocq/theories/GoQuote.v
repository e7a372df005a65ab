(* Go's quoted strings: fmt's verb %q on strings (strconv.Quote) and strconv.Unquote of a double-quoted string, with
   UTF-8, and the proof that unquoting gives back every byte string.
   Part of the Go standard library, modelled from its documentation and source.  Which runes from 128 on are printable
   (unicode tables) is a parameter.  Strings in back quotes and single quotes are not modelled: Unquote gives an error. *)
From Coq Require Import ZArith List Lia Bool.
From Verif Require Import Bytes GoStrings.
Import ListNotations.
Local Open Scope Z_scope.

Definition cont (b : Z) : bool := (128 <=? b) && (b <=? 191).
Definition inrange (lo hi b : Z) : bool := (lo <=? b) && (b <=? hi).
(* utf8.DecodeRuneInString on a string that is not empty: rune and width; (65533, 1) for what is not UTF-8 *)
Definition decodeRune (s : str) : Z * nat :=
  match s with
  | [] => (65533, O)
  | b0 :: s1 =>
    if b0 <? 128 then (b0, 1%nat)
    else if inrange 194 223 b0 then
      match s1 with
      | b1 :: _ => if cont b1 then ((b0 - 192) * 64 + (b1 - 128), 2%nat) else (65533, 1%nat)
      | _ => (65533, 1%nat) end
    else if inrange 224 239 b0 then
      match s1 with
      | b1 :: b2 :: _ =>
        if inrange (if b0 =? 224 then 160 else 128) (if b0 =? 237 then 159 else 191) b1 && cont b2
        then ((b0 - 224) * 4096 + (b1 - 128) * 64 + (b2 - 128), 3%nat) else (65533, 1%nat)
      | _ => (65533, 1%nat) end
    else if inrange 240 244 b0 then
      match s1 with
      | b1 :: b2 :: b3 :: _ =>
        if inrange (if b0 =? 240 then 144 else 128) (if b0 =? 244 then 143 else 191) b1 && cont b2 && cont b3
        then ((b0 - 240) * 262144 + (b1 - 128) * 4096 + (b2 - 128) * 64 + (b3 - 128), 4%nat) else (65533, 1%nat)
      | _ => (65533, 1%nat) end
    else (65533, 1%nat)
  end.
(* utf8.ValidRune *)
Definition validRune (r : Z) : bool := inrange 0 55295 r || inrange 57344 1114111 r.
(* utf8.AppendRune *)
Definition encodeRune (r : Z) : str :=
  let r := if validRune r then r else 65533 in
  if r <? 128 then [r]
  else if r <? 2048 then [192 + r / 64; 128 + r mod 64]
  else if r <? 65536 then [224 + r / 4096; 128 + (r / 64) mod 64; 128 + r mod 64]
  else [240 + r / 262144; 128 + (r / 4096) mod 64; 128 + (r / 64) mod 64; 128 + r mod 64].

Definition hexdigit (n : Z) : Z := if n <? 10 then 48 + n else 87 + n.
(* the n lowest hexadecimal digits of v *)
Fixpoint hex (n : nat) (v : Z) : str := match n with O => [] | S n' => hexdigit (v / 16 ^ Z.of_nat n' mod 16) :: hex n' v end.

Section Quote.
(* strconv.IsPrint from 128 on *)
Variable isPrint : Z -> bool.
Definition printable (r : Z) : bool := if r <? 128 then inrange 32 126 r else isPrint r.
(* strconv.appendEscapedRune for the double quote *)
Definition escapeRune (r : Z) : str :=
  if (r =? 34) || (r =? 92) then [92; r]
  else if printable r then encodeRune r
  else if r =? 7 then [92; 97] else if r =? 8 then [92; 98] else if r =? 12 then [92; 102] else if r =? 10 then [92; 110]
  else if r =? 13 then [92; 114] else if r =? 9 then [92; 116] else if r =? 11 then [92; 118]
  else if (r <? 32) || (r =? 127) then 92 :: 120 :: hex 2 r
  else if r <? 65536 then 92 :: 117 :: hex 4 r
  else 92 :: 85 :: hex 8 r.
(* strconv.appendQuotedWith: the loop *)
Fixpoint quote_body (k : nat) (s : str) : str :=
  match k, s with
  | S k', b :: _ =>
    let '(r, w) := decodeRune s in
    (if (Nat.eqb w 1) && (r =? 65533) then 92 :: 120 :: hex 2 b else escapeRune r) ++ quote_body k' (skipn w s)
  | _, _ => []
  end.
Definition quote (s : str) : str := 34 :: quote_body (length s) s ++ [34].
End Quote.

Definition unhex (c : Z) : option Z :=
  if inrange 48 57 c then Some (c - 48) else if inrange 97 102 c then Some (c - 87) else if inrange 65 70 c then Some (c - 55) else None.
(* n hexadecimal digits *)
Fixpoint unhexs (n : nat) (v : Z) (s : str) : option (Z * str) :=
  match n with
  | O => Some (v, s)
  | S n' => match s with c :: s' => match unhex c with Some d => unhexs n' (16 * v + d) s' | None => None end | [] => None end
  end.
Definition unoct (c : Z) : option Z := if inrange 48 55 c then Some (c - 48) else None.
(* strconv.UnquoteChar with the double quote: the bytes it stands for and what is left; None is an error *)
Definition unquoteChar (s : str) : option (str * str) :=
  match s with
  | [] => None
  | c :: s1 =>
    if c =? 34 then None
    else if 128 <=? c then let '(r, w) := decodeRune s in Some (encodeRune r, skipn w s)
    else if negb (c =? 92) then Some ([c], s1)
    else match s1 with
    | [] => None
    | c :: s2 =>
      if c =? 97 then Some ([7], s2) else if c =? 98 then Some ([8], s2) else if c =? 102 then Some ([12], s2)
      else if c =? 110 then Some ([10], s2) else if c =? 114 then Some ([13], s2) else if c =? 116 then Some ([9], s2)
      else if c =? 118 then Some ([11], s2)
      else if c =? 120 then match unhexs 2 0 s2 with Some (v, s3) => Some ([v], s3) | None => None end
      else if c =? 117 then match unhexs 4 0 s2 with Some (v, s3) => if validRune v then Some (encodeRune v, s3) else None | None => None end
      else if c =? 85 then match unhexs 8 0 s2 with Some (v, s3) => if validRune v then Some (encodeRune v, s3) else None | None => None end
      else if inrange 48 55 c then
        match s2 with
        | a :: b :: s3 => match unoct a, unoct b with
                          | Some x, Some y => let v := (c - 48) * 64 + x * 8 + y in if v <=? 255 then Some ([v], s3) else None
                          | _, _ => None end
        | _ => None end
      else if c =? 92 then Some ([92], s2)
      else if c =? 34 then Some ([34], s2)
      else None
    end
  end.
(* strconv.unquote: the loop after the opening quote; the string must end right after the closing quote, and hold no
   new line *)
Fixpoint unquote_body (k : nat) (s : str) : option str :=
  match k with
  | O => None
  | S k' =>
    match s with
    | [] => None
    | 34 :: s' => match s' with [] => Some [] | _ => None end
    | 10 :: _ => None
    | _ => match unquoteChar s with Some (v, s') => option_map (app v) (unquote_body k' s') | None => None end
    end
  end.
(* strconv.Unquote of a string that begins with a double quote *)
Definition unquote (s : str) : option str := match s with 34 :: s' => unquote_body (length s') s' | _ => None end.

(* ---- proofs ---- *)
Lemma inrange_spec lo hi b : inrange lo hi b = true <-> lo <= b <= hi.
Proof. unfold inrange. rewrite andb_true_iff, !Z.leb_le. tauto. Qed.
Lemma cont_spec b : cont b = true <-> 128 <= b <= 191.
Proof. unfold cont. rewrite andb_true_iff, !Z.leb_le. tauto. Qed.
(* a rune of more than one byte is encoded as the bytes it was decoded from *)
Lemma decode_multi b s r w : bytes_ok (b :: s) -> decodeRune (b :: s) = (r, w) -> (1 < w)%nat ->
  (w <= length (b :: s))%nat /\ 128 <= r /\ validRune r = true /\ encodeRune r = firstn w (b :: s) /\ Forall (fun c => 128 <= c < 256) (firstn w (b :: s)).
Proof.
  intros B D W. cbn [decodeRune] in D. assert (VR : forall r, 0 <= r <= 55295 \/ 57344 <= r <= 1114111 -> validRune r = true).
  { intros x X. unfold validRune. apply orb_true_iff. rewrite !inrange_spec. exact X. }
  destruct (Z.ltb_spec b 128); [injection D as <- <-; lia|].
  destruct (inrange 194 223 b) eqn:I2.
  { apply inrange_spec in I2. destruct s as [|b1 s]; [injection D as <- <-; lia|].
    destruct (cont b1) eqn:C1; injection D as <- <-; [|lia]. apply cont_spec in C1.
    split; [cbn; lia|]. split; [lia|]. assert (V : validRune ((b - 192) * 64 + (b1 - 128)) = true) by (apply VR; lia). split; [exact V|].
    split; [|repeat constructor; lia]. unfold encodeRune. rewrite V. cbn [firstn].
    destruct (Z.ltb_spec ((b - 192) * 64 + (b1 - 128)) 128); [lia|]. destruct (Z.ltb_spec ((b - 192) * 64 + (b1 - 128)) 2048); [|lia].
    replace (((b - 192) * 64 + (b1 - 128)) / 64) with (b - 192) by (apply Z.div_unique with (b1 - 128); lia).
    replace (((b - 192) * 64 + (b1 - 128)) mod 64) with (b1 - 128) by (apply Z.mod_unique with (b - 192); lia).
    repeat f_equal; lia. }
  destruct (inrange 224 239 b) eqn:I3.
  { apply inrange_spec in I3. destruct s as [|b1 [|b2 s]]; [injection D as <- <-; lia..|].
    destruct (inrange (if b =? 224 then 160 else 128) (if b =? 237 then 159 else 191) b1 && cont b2) eqn:C1; injection D as <- <-; [|lia].
    apply andb_true_iff in C1 as [C1 C2]. apply cont_spec in C2. apply inrange_spec in C1.
    assert (R1 : 128 <= b1 <= 191) by (destruct (b =? 224), (b =? 237); lia).
    set (r := (b - 224) * 4096 + (b1 - 128) * 64 + (b2 - 128)).
    assert (RR : 2048 <= r <= 55295 \/ 57344 <= r < 65536).
    { unfold r. destruct (Z.eqb_spec b 224), (Z.eqb_spec b 237); lia. }
    split; [cbn; lia|]. split; [lia|]. assert (V : validRune r = true) by (apply VR; lia). split; [exact V|].
    split; [|repeat constructor; lia]. unfold encodeRune. rewrite V. cbn [firstn].
    destruct (Z.ltb_spec r 128); [lia|]. destruct (Z.ltb_spec r 2048); [lia|]. destruct (Z.ltb_spec r 65536); [|lia].
    replace (r / 4096) with (b - 224) by (apply Z.div_unique with ((b1 - 128) * 64 + (b2 - 128)); unfold r; lia).
    replace (r / 64) with ((b - 224) * 64 + (b1 - 128)) by (apply Z.div_unique with (b2 - 128); unfold r; lia).
    replace (((b - 224) * 64 + (b1 - 128)) mod 64) with (b1 - 128) by (apply Z.mod_unique with (b - 224); lia).
    replace (r mod 64) with (b2 - 128) by (apply Z.mod_unique with ((b - 224) * 64 + (b1 - 128)); unfold r; lia).
    repeat f_equal; lia. }
  destruct (inrange 240 244 b) eqn:I4.
  { apply inrange_spec in I4. destruct s as [|b1 [|b2 [|b3 s]]]; [injection D as <- <-; lia..|].
    destruct (inrange (if b =? 240 then 144 else 128) (if b =? 244 then 143 else 191) b1 && cont b2 && cont b3) eqn:C1; injection D as <- <-; [|lia].
    apply andb_true_iff in C1 as [C1 C3]. apply andb_true_iff in C1 as [C1 C2]. apply cont_spec in C2, C3. apply inrange_spec in C1.
    assert (R1 : 128 <= b1 <= 191) by (destruct (b =? 240), (b =? 244); lia).
    set (r := (b - 240) * 262144 + (b1 - 128) * 4096 + (b2 - 128) * 64 + (b3 - 128)).
    assert (RR : 65536 <= r <= 1114111).
    { unfold r. destruct (Z.eqb_spec b 240), (Z.eqb_spec b 244); lia. }
    split; [cbn; lia|]. split; [lia|]. assert (V : validRune r = true) by (apply VR; lia). split; [exact V|].
    split; [|repeat constructor; lia]. unfold encodeRune. rewrite V. cbn [firstn].
    destruct (Z.ltb_spec r 128); [lia|]. destruct (Z.ltb_spec r 2048); [lia|]. destruct (Z.ltb_spec r 65536); [lia|].
    replace (r / 262144) with (b - 240) by (apply Z.div_unique with ((b1 - 128) * 4096 + (b2 - 128) * 64 + (b3 - 128)); unfold r; lia).
    replace (r / 4096) with ((b - 240) * 64 + (b1 - 128)) by (apply Z.div_unique with ((b2 - 128) * 64 + (b3 - 128)); unfold r; lia).
    replace (((b - 240) * 64 + (b1 - 128)) mod 64) with (b1 - 128) by (apply Z.mod_unique with (b - 240); lia).
    replace (r / 64) with ((b - 240) * 4096 + (b1 - 128) * 64 + (b2 - 128)) by (apply Z.div_unique with (b3 - 128); unfold r; lia).
    replace (((b - 240) * 4096 + (b1 - 128) * 64 + (b2 - 128)) mod 64) with (b2 - 128) by (apply Z.mod_unique with ((b - 240) * 64 + (b1 - 128)); lia).
    replace (r mod 64) with (b3 - 128) by (apply Z.mod_unique with ((b - 240) * 4096 + (b1 - 128) * 64 + (b2 - 128)); unfold r; lia).
    repeat f_equal; lia. }
  injection D as <- <-. lia.
Qed.
(* a rune of one byte is that byte, or an error *)
Lemma decode_one b s r w : bytes_ok (b :: s) -> decodeRune (b :: s) = (r, w) -> (w <= 1)%nat -> w = 1%nat /\ (b < 128 /\ r = b \/ 128 <= b /\ r = 65533).
Proof.
  intros B D W. cbn [decodeRune] in D.
  destruct (Z.ltb_spec b 128); [injection D as <- <-; auto|].
  destruct (inrange 194 223 b); [destruct s as [|b1 s]; [|destruct (cont b1)]; injection D as <- <-; auto; lia|].
  destruct (inrange 224 239 b); [destruct s as [|b1 [|b2 s]]; [| |destruct (_ && _)]; injection D as <- <-; auto; lia|].
  destruct (inrange 240 244 b); [destruct s as [|b1 [|b2 [|b3 s]]]; [| | |destruct (_ && _)]; injection D as <- <-; auto; lia|].
  injection D as <- <-. auto.
Qed.
(* decoding depends only on the bytes of the rune *)
Lemma decode_app b s r w t : bytes_ok (b :: s) -> decodeRune (b :: s) = (r, w) -> (1 < w)%nat -> decodeRune (firstn w (b :: s) ++ t) = (r, w).
Proof.
  intros B D W. pose proof (decode_multi b s r w B D W) as (L & _). cbn [decodeRune] in D.
  destruct (b <? 128) eqn:E0; [injection D as <- <-; lia|].
  destruct (inrange 194 223 b) eqn:E1.
  { destruct s as [|b1 s]; [|destruct (cont b1) eqn:E2]; injection D as <- <-; [lia| |lia]. cbn [firstn app decodeRune]. rewrite E0, E1, E2. reflexivity. }
  destruct (inrange 224 239 b) eqn:E2.
  { destruct s as [|b1 [|b2 s]]; [| |destruct (_ && _) eqn:E3]; injection D as <- <-; [lia|lia| |lia]. cbn [firstn app decodeRune]. rewrite E0, E1, E2, E3. reflexivity. }
  destruct (inrange 240 244 b) eqn:E3.
  { destruct s as [|b1 [|b2 [|b3 s]]]; [| | |destruct (_ && _) eqn:E4]; injection D as <- <-; [lia|lia|lia| |lia]. cbn [firstn app decodeRune]. rewrite E0, E1, E2, E3, E4. reflexivity. }
  injection D as <- <-. lia.
Qed.
Lemma unhex_hexdigit n : 0 <= n < 16 -> unhex (hexdigit n) = Some n.
Proof.
  intros H. assert (n = 0 \/ n = 1 \/ n = 2 \/ n = 3 \/ n = 4 \/ n = 5 \/ n = 6 \/ n = 7 \/ n = 8 \/ n = 9 \/ n = 10 \/ n = 11 \/ n = 12 \/ n = 13 \/ n = 14 \/ n = 15) as K by lia.
  repeat (destruct K as [->|K]; [reflexivity|]). subst. reflexivity.
Qed.
Lemma unhexs_hex n : forall v a t, unhexs n a (hex n v ++ t) = Some (16 ^ Z.of_nat n * a + v mod 16 ^ Z.of_nat n, t).
Proof.
  induction n as [|n IH]; intros v a t.
  - cbn [unhexs hex app]. change (16 ^ Z.of_nat 0) with 1. rewrite Z.mod_1_r. f_equal. f_equal. lia.
  - cbn [hex app unhexs]. rewrite unhex_hexdigit by (apply Z.mod_pos_bound; lia). rewrite IH. f_equal. f_equal.
    rewrite Nat2Z.inj_succ, Z.pow_succ_r by lia. set (p := 16 ^ Z.of_nat n). assert (0 < p) by (apply Z.pow_pos_nonneg; lia).
    replace (16 * p) with (p * 16) by ring. rewrite Z.rem_mul_r by lia. ring.
Qed.
Lemma hex_chars n v c : In c (hex n v) -> 48 <= c <= 102.
Proof.
  induction n as [|n IH]; cbn [hex]; [intros []|]. intros [<-|I]; auto. unfold hexdigit.
  pose proof (Z.mod_pos_bound (v / 16 ^ Z.of_nat n) 16 ltac:(lia)). destruct (Z.ltb_spec (v / 16 ^ Z.of_nat n mod 16) 10); lia.
Qed.

Section Proofs.
Variable isPrint : Z -> bool.
(* one rune *)
Lemma unquote_escape_ascii r t : 0 <= r < 128 -> unquoteChar (escapeRune isPrint r ++ t) = Some ([r], t).
Proof.
  intros H. unfold escapeRune. destruct (Z.eqb_spec r 34) as [->|]; [reflexivity|]. destruct (Z.eqb_spec r 92) as [->|]; [reflexivity|]. cbn [orb].
  unfold printable. destruct (Z.ltb_spec r 128); [|lia]. destruct (inrange 32 126 r) eqn:I.
  - unfold encodeRune. assert (V : validRune r = true) by (unfold validRune; apply orb_true_iff; left; apply inrange_spec; lia). rewrite V.
    destruct (Z.ltb_spec r 128); [|lia]. cbn [app unquoteChar]. destruct (Z.eqb_spec r 34); [lia|]. destruct (Z.leb_spec 128 r); [lia|].
    destruct (Z.eqb_spec r 92); [lia|]. reflexivity.
  - assert (~ (32 <= r <= 126)) by (rewrite <- inrange_spec; congruence).
    destruct (Z.eqb_spec r 7) as [->|]; [reflexivity|]. destruct (Z.eqb_spec r 8) as [->|]; [reflexivity|]. destruct (Z.eqb_spec r 12) as [->|]; [reflexivity|].
    destruct (Z.eqb_spec r 10) as [->|]; [reflexivity|]. destruct (Z.eqb_spec r 13) as [->|]; [reflexivity|]. destruct (Z.eqb_spec r 9) as [->|]; [reflexivity|].
    destruct (Z.eqb_spec r 11) as [->|]; [reflexivity|].
    replace ((r <? 32) || (r =? 127)) with true by (symmetry; apply orb_true_iff; rewrite Z.ltb_lt, Z.eqb_eq; lia).
    change ((92 :: 120 :: hex 2 r) ++ t) with (92 :: 120 :: hex 2 r ++ t). unfold unquoteChar. cbn [Z.eqb Pos.eqb Z.leb Z.compare Pos.compare Pos.compare_cont negb].
    rewrite unhexs_hex. change (16 ^ Z.of_nat 2) with 256. rewrite Z.mod_small by lia. f_equal.
Qed.
Lemma unquote_escape_multi b s r w t : bytes_ok (b :: s) -> decodeRune (b :: s) = (r, w) -> (1 < w)%nat ->
  unquoteChar (escapeRune isPrint r ++ t) = Some (firstn w (b :: s), t).
Proof.
  intros B D W. destruct (decode_multi b s r w B D W) as (L & R & V & E & F). unfold escapeRune.
  destruct (Z.eqb_spec r 34); [lia|]. destruct (Z.eqb_spec r 92); [lia|]. cbn [orb].
  destruct (printable isPrint r).
  - rewrite E. destruct w as [|w]; [lia|]. cbn [firstn] in *. inversion F; subst. unfold unquoteChar. cbn [app].
    destruct (Z.eqb_spec b 34); [lia|]. destruct (Z.leb_spec 128 b); [|lia].
    change (b :: firstn w s ++ t) with (firstn (S w) (b :: s) ++ t). rewrite (decode_app b s r (S w) t B D W). rewrite E. f_equal. f_equal.
    rewrite skipn_app. rewrite (skipn_all2 (firstn (S w) (b :: s))) by (rewrite firstn_length; lia).
    rewrite firstn_length. replace (S w - Nat.min (S w) (length (b :: s)))%nat with O by lia. reflexivity.
  - destruct (Z.eqb_spec r 7); [lia|]. destruct (Z.eqb_spec r 8); [lia|]. destruct (Z.eqb_spec r 12); [lia|].
    destruct (Z.eqb_spec r 10); [lia|]. destruct (Z.eqb_spec r 13); [lia|]. destruct (Z.eqb_spec r 9); [lia|]. destruct (Z.eqb_spec r 11); [lia|].
    destruct (Z.ltb_spec r 32); [lia|]. destruct (Z.eqb_spec r 127); [lia|]. cbn [orb]. destruct (Z.ltb_spec r 65536).
    + change ((92 :: 117 :: hex 4 r) ++ t) with (92 :: 117 :: hex 4 r ++ t). unfold unquoteChar. cbn [Z.eqb Pos.eqb Z.leb Z.compare Pos.compare Pos.compare_cont negb].
      rewrite unhexs_hex. change (16 ^ Z.of_nat 4) with 65536. rewrite Z.mul_0_r, Z.add_0_l, Z.mod_small, V, E by lia. reflexivity.
    + assert (r < 4294967296) by (unfold validRune in V; apply orb_true_iff in V; rewrite !inrange_spec in V; lia).
      change ((92 :: 85 :: hex 8 r) ++ t) with (92 :: 85 :: hex 8 r ++ t). unfold unquoteChar. cbn [Z.eqb Pos.eqb Z.leb Z.compare Pos.compare Pos.compare_cont negb].
      rewrite unhexs_hex. change (16 ^ Z.of_nat 8) with 4294967296. rewrite Z.mul_0_r, Z.add_0_l, Z.mod_small, V, E by lia. reflexivity.
Qed.
(* the first character of a piece is no closing quote and no new line *)
Lemma escape_head r : 0 <= r -> exists c l, escapeRune isPrint r = c :: l /\ c <> 34 /\ c <> 10.
Proof.
  intros H. unfold escapeRune. destruct (Z.eqb_spec r 34) as [->|]; [cbn [orb]; eexists _, _; split; [reflexivity|lia]|]. destruct (Z.eqb_spec r 92) as [->|]; [cbn [orb]; eexists _, _; split; [reflexivity|lia]|]. cbn [orb].
  destruct (printable isPrint r) eqn:P.
  - unfold encodeRune. destruct (validRune r).
    + unfold printable in P. destruct (Z.ltb_spec r 128); [apply inrange_spec in P; eexists _, _; split; [reflexivity|lia]|].
      assert (0 <= r / 64) by (apply Z.div_pos; lia). assert (0 <= r / 4096) by (apply Z.div_pos; lia). assert (0 <= r / 262144) by (apply Z.div_pos; lia).
      destruct (Z.ltb_spec r 2048); [|destruct (Z.ltb_spec r 65536)]; eexists _, _; (split; [reflexivity|lia]).
    + eexists _, _; split; [reflexivity|cbn; lia].
  - repeat match goal with |- context [if ?b then _ else _] => destruct b end; eexists _, _; (split; [reflexivity|lia]).
Qed.
Lemma unquote_step k p t v : (exists c l, p = c :: l /\ c <> 34 /\ c <> 10) -> unquoteChar (p ++ t) = Some (v, t) ->
  unquote_body (S k) (p ++ t) = option_map (app v) (unquote_body k t).
Proof.
  intros (c & l & -> & N1 & N2) U. cbn [unquote_body app] in *. rewrite U.
  assert (M : forall (X : Type) (f g h : X), match c with 34 => f | 10 => g | _ => h end = match c with 34 => f | 10 => g | _ => h end) by reflexivity.
  destruct c as [|q|q]; try reflexivity. repeat (destruct q as [q|q|]; try reflexivity; try congruence).
Qed.
Lemma unquote_quote_body : forall n s k, (length s <= n)%nat -> bytes_ok s -> (length (quote_body isPrint n s) < k)%nat -> unquote_body k (quote_body isPrint n s ++ [34]) = Some s.
Proof.
  induction n as [|n IH]; intros s k L B K.
  - destruct s; [|cbn in L; lia]. destruct k; [lia|]. reflexivity.
  - destruct s as [|b s].
    + cbn [quote_body] in *. destruct k; [lia|]. reflexivity.
    + remember (b :: s) as bs. cbn [quote_body] in *. rewrite Heqbs in *. destruct (decodeRune (b :: s)) as [r w] eqn:D. rewrite <- Heqbs in *.
      assert (B0 : 0 <= b < 256) by (rewrite Heqbs in B; now inversion B).
      set (p := if Nat.eqb w 1 && (r =? 65533) then 92 :: 120 :: hex 2 b else escapeRune isPrint r) in *.
      assert (S1 : (1 <= w)%nat /\ (exists c l, p = c :: l /\ c <> 34 /\ c <> 10) /\ forall t, unquoteChar (p ++ t) = Some (firstn w bs, t)).
      { destruct (Nat.le_gt_cases w 1) as [W|W].
        - destruct (decode_one b s r w ltac:(congruence) ltac:(congruence) W) as (-> & [[Hb ->]|[Hb ->]]).
          + assert (EP : p = escapeRune isPrint b) by (unfold p; cbn [Nat.eqb andb]; destruct (Z.eqb_spec b 65533); [lia|reflexivity]).
            split; [lia|]. rewrite EP. split; [apply escape_head; lia|]. intros t. rewrite unquote_escape_ascii by lia. rewrite Heqbs. reflexivity.
          + split; [lia|]. unfold p. cbn [Nat.eqb andb Z.eqb Pos.eqb]. split; [eexists _, _; split; [reflexivity|lia]|]. intros t.
            change ((92 :: 120 :: hex 2 b) ++ t) with (92 :: 120 :: hex 2 b ++ t). unfold unquoteChar. cbn [Z.eqb Pos.eqb Z.leb Z.compare Pos.compare Pos.compare_cont negb].
            rewrite unhexs_hex. change (16 ^ Z.of_nat 2) with 256. rewrite Z.mul_0_r, Z.add_0_l, Z.mod_small by lia. rewrite Heqbs. reflexivity.
        - destruct (decode_multi b s r w ltac:(congruence) ltac:(congruence) W) as (Lw & Rr & _). split; [lia|].
          assert (EP : p = escapeRune isPrint r) by (unfold p; destruct (Nat.eqb_spec w 1); [lia|reflexivity]). rewrite EP.
          split; [apply escape_head; lia|]. intros t. rewrite Heqbs. apply unquote_escape_multi; auto; congruence. }
      destruct S1 as (W & Hd & U). rewrite <- app_assoc. destruct k; [lia|]. rewrite (unquote_step k p _ (firstn w bs) Hd (U _)).
      rewrite IH.
      * cbn [option_map]. rewrite firstn_skipn. reflexivity.
      * rewrite skipn_length. lia.
      * now apply bytes_ok_skipn.
      * rewrite app_length in K. destruct Hd as (c & l & E & _). rewrite E in K. cbn [length] in K. lia.
Qed.
(* unquoting gives back the string *)
Theorem unquote_quote s : bytes_ok s -> unquote (quote isPrint s) = Some s.
Proof.
  intros B. unfold quote, unquote. apply unquote_quote_body; auto. rewrite app_length. cbn. lia.
Qed.
(* the characters of a quoted string *)
Lemma encode_chars r c : 0 <= r -> In c (encodeRune r) -> (r < 128 /\ c = r) \/ 128 <= c.
Proof.
  intros H. unfold encodeRune. set (r' := if validRune r then r else 65533). intros I.
  assert (R : 0 <= r') by (unfold r'; destruct (validRune r); lia).
  assert (0 <= r' / 64) by (apply Z.div_pos; lia). assert (0 <= r' / 4096) by (apply Z.div_pos; lia). assert (0 <= r' / 262144) by (apply Z.div_pos; lia).
  pose proof (Z.mod_pos_bound r' 64 ltac:(lia)). pose proof (Z.mod_pos_bound (r' / 64) 64 ltac:(lia)). pose proof (Z.mod_pos_bound (r' / 4096) 64 ltac:(lia)).
  destruct (Z.ltb_spec r' 128).
  - destruct I as [<-|[]]. left. unfold r' in *. destruct (validRune r); lia.
  - right. destruct (r' <? 2048); [|destruct (r' <? 65536)]; cbn [In] in I; repeat (destruct I as [<-|I]; [lia|]); destruct I.
Qed.
Lemma escape_chars r c : 0 <= r -> In c (escapeRune isPrint r) -> 32 <= c /\ (c = 32 -> r = 32).
Proof.
  intros H. unfold escapeRune. destruct (Z.eqb_spec r 34) as [->|]; [cbn; lia|]. destruct (Z.eqb_spec r 92) as [->|]; [cbn; lia|]. cbn [orb].
  destruct (printable isPrint r) eqn:P.
  - intros I. apply encode_chars in I; auto. unfold printable in P. destruct (Z.ltb_spec r 128); [apply inrange_spec in P|]; lia.
  - intros I. repeat match type of I with context [if ?b then _ else _] => destruct b end; cbn [In] in I;
      repeat (destruct I as [<-|I]; [lia|]); try contradiction; try (apply hex_chars in I; lia).
Qed.
Lemma quote_body_chars : forall n s c, bytes_ok s -> In c (quote_body isPrint n s) -> 32 <= c /\ (c = 32 -> In 32 s).
Proof.
  induction n as [|n IH]; intros s c B I; [destruct I|]. destruct s as [|b s]; [destruct I|].
  remember (b :: s) as bs. cbn [quote_body] in *. rewrite Heqbs in *. destruct (decodeRune (b :: s)) as [r w] eqn:D. rewrite <- Heqbs in *.
  assert (B0 : 0 <= b < 256) by (rewrite Heqbs in B; now inversion B).
  apply in_app_or in I as [I|I].
  - destruct (Nat.le_gt_cases w 1) as [W|W].
    + destruct (decode_one b s r w ltac:(congruence) ltac:(congruence) W) as (-> & [[Hb ->]|[Hb ->]]).
      * cbn [Nat.eqb andb] in I. destruct (Z.eqb_spec b 65533); [lia|]. apply escape_chars in I; [|lia]. split; [lia|]. intros ->.
        rewrite Heqbs. left. apply I. reflexivity.
      * cbn [Nat.eqb andb Z.eqb Pos.eqb] in I. destruct I as [<-|[<-|I]]; [lia|lia|]. apply hex_chars in I. lia.
    + destruct (decode_multi b s r w ltac:(congruence) ltac:(congruence) W) as (Lw & Rr & _).
      destruct (Nat.eqb_spec w 1); [lia|]. cbn [andb] in I. apply escape_chars in I; [|lia]. lia.
  - apply IH in I; [|now apply bytes_ok_skipn]. split; [lia|]. intros E. rewrite <- (firstn_skipn w bs). apply in_or_app. right. tauto.
Qed.
(* no control characters; a blank only when the string has one *)
Theorem quote_chars s c : bytes_ok s -> In c (quote isPrint s) -> 32 <= c /\ (c = 32 -> In 32 s).
Proof.
  intros B. unfold quote. intros [<-|I]; [lia|]. apply in_app_or in I as [I|[<-|[]]]; [|lia]. eapply quote_body_chars; eauto.
Qed.
(* a blank in the string is a blank in the quoted string *)
Theorem quote_blank s : bytes_ok s -> In 32 s -> In 32 (quote isPrint s).
Proof.
  intros B I. unfold quote. right. apply in_or_app. left.
  assert (G : forall n s, (length s <= n)%nat -> bytes_ok s -> In 32 s -> In 32 (quote_body isPrint n s)); [|apply G; auto].
  clear. induction n as [|n IH]; intros s L B I; [destruct s; [destruct I|cbn in L; lia]|]. destruct s as [|b s]; [destruct I|].
  remember (b :: s) as bs. cbn [quote_body]. rewrite Heqbs. destruct (decodeRune (b :: s)) as [r w] eqn:D. rewrite <- Heqbs.
  assert (B0 : 0 <= b < 256) by (rewrite Heqbs in B; now inversion B).
  rewrite <- (firstn_skipn w bs) in I. apply in_app_or in I as [I|I].
  - apply in_or_app. left. destruct (Nat.le_gt_cases w 1) as [W|W].
    + destruct (decode_one b s r w ltac:(congruence) ltac:(congruence) W) as (-> & [[Hb ->]|[Hb ->]]); rewrite Heqbs in I; destruct I as [->|[]].
      * cbn. auto.
      * lia.
    + exfalso. destruct (decode_multi b s r w ltac:(congruence) ltac:(congruence) W) as (_ & _ & _ & _ & F). rewrite Heqbs in I. rewrite Forall_forall in F. apply F in I. lia.
  - apply in_or_app. right. apply IH; auto.
    + assert (1 <= w)%nat; [|rewrite skipn_length; lia]. destruct (Nat.le_gt_cases w 1) as [W|W]; [|lia].
      destruct (decode_one b s r w ltac:(congruence) ltac:(congruence) W) as (-> & _). lia.
    + now apply bytes_ok_skipn.
Qed.
End Proofs.
(* a, double quote, backslash, e-acute, newline, a byte that is not UTF-8, a rune that is not printable *)
Example quote_ex : let s := [97; 34; 92; 195; 169; 10; 255; 226; 128; 139; 1] in
  let q := quote (fun r => negb (r =? 8203)) s in
  q = [34; 97; 92; 34; 92; 92; 195; 169; 92; 110; 92; 120; 102; 102; 92; 117; 50; 48; 48; 98; 92; 120; 48; 49; 34] /\ unquote q = Some s.
Proof. vm_compute. auto. Qed.
