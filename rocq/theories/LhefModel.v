(* Model of package lhef: Encoder (writer.go) and Decoder (reader.go) of version 1.0 of the Les Houches Event Files.
   Of encoding/xml, Decoder.Token is modelled for elements with attributes, end tags and text; comments, processing instructions,
   directives, name spaces, elements that close themselves, entities, carriage returns and characters outside ASCII are not: here they
   are errors.  fmt.Fscanf is that of ScanfModel.v.  Errors of readers and writers are not modelled, nor the slices of Weights,
   Clustering and the other fields that Encode and Decode do not use. *)
From Coq Require Import ZArith List Bool String Ascii.
From Flocq Require Import IEEE754.BinarySingleNaN.
From Verif Require Import Bytes GoLib GoStrings F64 FloatText FloatDigits ScanfModel.
Import ListNotations.
Local Open Scope Z_scope.

Definition bs (s : string) : str := map (fun a => Z.of_nat (nat_of_ascii a)) (list_ascii_of_string s).

(* ---- the data ---- *)
(* lhef/lhef.go:83-101: the fields of HEPRUP that are written; neve is XSecInfo.Neve *)
Record run := mkrun { idbmup : Z * Z; ebmup : f64 * f64; pdfgup : Z * Z; pdfsup : Z * Z; idwtup : Z; nprup : Z;
  xsecup : list f64; xerrup : list f64; xmaxup : list f64; lprup : list Z; neve : Z }.
Definition p5 := (f64 * f64 * f64 * f64 * f64)%type.
(* lhef/lhef.go:114-135: the fields of HEPEUP that are written; nsub, nreal and ncount are len(SubEvents.Events), SubEvents.Nreal and SubEvents.Ncounter *)
Record evt := mkevt { nup : Z; idprup : Z; xwgtup : f64; scalup : f64; aqedup : f64; aqcdup : f64;
  idup : list Z; istup : list Z; mothup : list (Z * Z); icolup : list (Z * Z); pup : list p5; vtimup : list f64; spinup : list f64;
  nsub : Z; nreal : Z; ncount : Z }.

(* ---- Encoder ---- *)
Definition padl (w : nat) (s : str) : str := repeat 32 (w - List.length s) ++ s.
Definition fD (w : nat) (n : Z) : str := 32 :: padl w (itoa n).                 (* " %7d" *)
Definition fE6 (x : f64) : str := 32 :: padl 13 (fmt_E 7 x).                    (* " %13.6E" *)
Definition fE10 (x : f64) : str := 32 :: padl 17 (fmt_E 11 x).                  (* " %17.10E" *)
(* the integer nearest to a finite number, without its sign *)
Definition inear (m e : Z) : Z := if 0 <=? e then m * 2 ^ e else rne m (2 ^ (- e)).
(* %1.f *)
Definition fmt_f0 (x : f64) : str :=
  match x with
  | B754_nan => nantext
  | B754_infinity s => (if s then 45 else 43) :: inftext
  | B754_zero s => signtext s ++ [48]
  | B754_finite s m e _ => signtext s ++ udec (inear (Zpos m) e)
  end.
Definition fF (x : f64) : str := 32 :: fmt_f0 x ++ [46].                        (* " %1.f." *)
(* lhef/writer.go:66-74 *)
Definition initLine (r : run) : str :=
  fD 7 (fst (idbmup r)) ++ fD 7 (snd (idbmup r)) ++ fE6 (fst (ebmup r)) ++ fE6 (snd (ebmup r)) ++
  fD 5 (fst (pdfgup r)) ++ fD 5 (snd (pdfgup r)) ++ fD 5 (fst (pdfsup r)) ++ fD 5 (snd (pdfsup r)) ++ fD 5 (idwtup r) ++ fD 5 (nprup r) ++ [10].
(* lhef/writer.go:79-91 *)
Fixpoint procLines (r : run) (i n : nat) : res str :=
  match n with
  | O => Ok []
  | S n' =>
    match nth_error (xsecup r) i, nth_error (xerrup r) i, nth_error (xmaxup r) i, nth_error (lprup r) i with
    | Some a, Some b, Some c, Some d =>
      match procLines r (S i) n' with Ok t => Ok (fE6 a ++ fE6 b ++ fE6 c ++ fD 5 d ++ [10] ++ t) | Panic => Panic end
    | _, _, _, _ => Panic
    end
  end.
Definition nl : str := [10].
(* lhef/writer.go:51-64 *)
Definition headerText (h : str) : str :=
  match h with
  | [] => []
  | _ => bs "<header>" ++ nl ++ (if last h 0 =? 10 then removelast h else h) ++ nl ++ bs "</header>" ++ nl
  end.
Definition quote : str := [34].
(* Encoder.init: lhef/writer.go:31-103 *)
Definition encInit (r : run) (header : str) : res str :=
  if 0 <? neve r then Panic else
  match procLines r 0 (Z.to_nat (nprup r)) with
  | Ok t => Ok (bs "<LesHouchesEvents version=" ++ quote ++ bs "1.0" ++ quote ++ bs ">" ++ nl ++ headerText header ++
                bs "<init>" ++ nl ++ initLine r ++ t ++ bs "#" ++ nl ++ bs "</init>" ++ nl)
  | Panic => Panic
  end.
(* lhef/writer.go:112-133 *)
Definition groupText (e : evt) : str :=
  if 0 <? nsub e then
    bs "<eventgroup" ++ (if 0 <? nreal e then bs " nreal=" ++ quote ++ itoa (nreal e) ++ quote else []) ++
    (if 0 <? ncount e then bs " ncounter=" ++ quote ++ itoa (ncount e) ++ quote else []) ++ bs "</eventgroup>" ++ nl
  else [].
(* lhef/writer.go:135-144 *)
Definition evtLine (e : evt) : str :=
  fD 5 (nup e) ++ fD 5 (idprup e) ++ fE6 (xwgtup e) ++ fE6 (scalup e) ++ fE6 (aqedup e) ++ fE6 (aqcdup e) ++ nl.
(* lhef/writer.go:150-160 *)
Definition partLine (id ist : Z) (mo co : Z * Z) (p : p5) (vt sp : f64) : str :=
  let '(p0, p1, p2, p3, p4) := p in
  fD 7 id ++ fD 4 ist ++ fD 4 (fst mo) ++ fD 4 (snd mo) ++ fD 4 (fst co) ++ fD 4 (snd co) ++
  fE10 p0 ++ fE10 p1 ++ fE10 p2 ++ fE10 p3 ++ fE10 p4 ++ fF vt ++ fF sp ++ nl.
Fixpoint partLines (e : evt) (i n : nat) : res str :=
  match n with
  | O => Ok []
  | S n' =>
    match nth_error (idup e) i, nth_error (istup e) i, nth_error (mothup e) i, nth_error (icolup e) i, nth_error (pup e) i, nth_error (vtimup e) i, nth_error (spinup e) i with
    | Some id, Some ist, Some mo, Some co, Some p, Some vt, Some sp =>
      match partLines e (S i) n' with Ok t => Ok (partLine id ist mo co p vt sp ++ t) | Panic => Panic end
    | _, _, _, _, _, _, _ => Panic
    end
  end.
(* Encoder.Encode after the first call: lhef/writer.go:105-177 *)
Definition encEvt (e : evt) : res str :=
  match partLines e 0 (Z.to_nat (nup e)) with
  | Ok t => Ok (groupText e ++ bs "<event>" ++ nl ++ evtLine e ++ t ++ bs "#" ++ nl ++ bs "</event>" ++ nl)
  | Panic => Panic
  end.
Fixpoint encEvts (es : list evt) : res str :=
  match es with
  | [] => Ok []
  | e :: es' => match encEvt e, encEvts es' with Ok a, Ok b => Ok (a ++ b) | _, _ => Panic end
  end.
(* Encoder.Close: lhef/writer.go:179-193 *)
Definition closeText : str := bs "</LesHouchesEvents>" ++ nl.
(* the file made by Encode for each of the events and Close; the run is written by the first call of Encode, if there is one *)
Definition encFile (r : run) (header : str) (es : list evt) : res str :=
  match es with
  | [] => Ok closeText
  | _ => match encInit r header, encEvts es with Ok a, Ok b => Ok (a ++ b ++ closeText) | _, _ => Panic end
  end.

(* ---- encoding/xml ---- *)
Inductive tok := TStart (name : str) (attrs : list (str * str)) | TEnd (name : str) | TChar (text : str).
Inductive xres := XTok (t : tok) (stack : list str) (rest : str) | XEOF | XErr.
Definition is_namec (c : Z) : bool := is_digit c || ((65 <=? c) && (c <=? 90)) || ((97 <=? c) && (c <=? 122)) || (c =? 95) || (c =? 45) || (c =? 46).
Definition is_xsp (c : Z) : bool := (c =? 32) || (c =? 13) || (c =? 10) || (c =? 9).
Definition plain (c : Z) : bool := ((32 <=? c) && (c <=? 126) && negb (c =? 38) && negb (c =? 93)) || (c =? 9) || (c =? 10).
Definition name1 (s : str) : option (str * str) :=
  let '(n, r) := accepts is_namec s in
  match n with [] => None | c :: _ => if is_digit c || (c =? 45) || (c =? 46) then None else Some (n, r) end.
Definition xskip (s : str) : str := snd (accepts is_xsp s).
(* the attributes and the end of a start tag; fuel is the length of the text *)
Fixpoint xattrs (fuel : nat) (s : str) : option (list (str * str) * str) :=
  match fuel with
  | O => None
  | S k =>
    match xskip s with
    | c :: r =>
      if c =? 62 then Some ([], r) else
      match name1 (c :: r) with
      | None => None
      | Some (n, r1) =>
        match xskip r1 with
        | e :: r2 =>
          if e =? 61 then
            match xskip r2 with
            | q :: r3 =>
              if (q =? 34) || (q =? 39) then
                let '(v, r4) := accepts (fun c => plain c && negb (c =? q) && negb (c =? 60)) r3 in
                match r4 with
                | q' :: r5 => if q' =? q then match xattrs k r5 with Some (l, r6) => Some ((n, v) :: l, r6) | None => None end else None
                | [] => None
                end
              else None
            | [] => None
            end
          else None
        | [] => None
        end
      end
    | [] => None
    end
  end.
(* Decoder.Token *)
Definition xtoken (stack : list str) (s : str) : xres :=
  match s with
  | [] => match stack with [] => XEOF | _ => XErr end
  | c :: r =>
    if c =? 60 then
      match r with
      | d :: r' =>
        if d =? 47 then
          match name1 r' with
          | None => XErr
          | Some (n, r1) => match xskip r1, stack with
                            | g :: r2, top :: st => if (g =? 62) && str_eqb n top then XTok (TEnd n) st r2 else XErr
                            | _, _ => XErr
                            end
          end
        else match name1 r with
             | None => XErr
             | Some (n, r1) => match xattrs (List.length r1) r1 with Some (l, r2) => XTok (TStart n l) (n :: stack) r2 | None => XErr end
             end
      | [] => XErr
      end
    else
      let '(t, r1) := accepts (fun c => plain c && negb (c =? 60)) s in
      match t, r1 with
      | [], _ => XErr
      | _, [] => XTok (TChar t) stack []
      | _, d :: _ => if d =? 60 then XTok (TChar t) stack r1 else XErr
      end
  end.

(* ---- Decoder ---- *)
Record dst := mkdst { d_stack : list str; d_rest : str }.
Inductive outcome (A : Type) := Got (a : A) (d : dst) | EndOfFile | Failed | Crash.
Arguments Got {A}. Arguments EndOfFile {A}. Arguments Failed {A}. Arguments Crash {A}.
(* reading tokens up to a start tag (lhef/reader.go:70-92 and 164-186) or an end tag (lhef/reader.go:188-201) of this name *)
Definition wanted (start : bool) (name : str) (t : tok) : bool :=
  match t with TStart n _ => start && str_eqb n name | TEnd n => negb start && str_eqb n name | TChar _ => false end.
Fixpoint seekTok (fuel : nat) (start : bool) (name : str) (d : dst) : outcome unit :=
  match fuel with
  | O => Failed
  | S k =>
    match xtoken (d_stack d) (d_rest d) with
    | XEOF => EndOfFile
    | XErr => Failed
    | XTok t st r => if wanted start name t then Got tt (mkdst st r) else seekTok k start name (mkdst st r)
    end
  end.
Definition seek (start : bool) (name : str) (d : dst) : outcome unit := seekTok (S (List.length (d_rest d))) start name d.
Definition initFmt : list verb := [PD 64; PD 64; PF; PF; PD 32; PD 32; PD 32; PD 32; PD 32; PD 32].
Definition procFmt : list verb := [PF; PF; PF; PD 32].
(* lhef/reader.go:136-148 *)
Fixpoint scanProcs (n : nat) (s : str) : option (list (f64 * f64 * f64 * Z)) :=
  match n with
  | O => Some []
  | S n' => match fscanf procFmt s with
            | Some ([SF a; SF b; SF c; SI d], r) => match scanProcs n' r with Some l => Some ((a, b, c, d) :: l) | None => None end
            | _ => None
            end
  end.
Definition q1 {A B C D} (q : A * B * C * D) : A := fst (fst (fst q)).
Definition q2 {A B C D} (q : A * B * C * D) : B := snd (fst (fst q)).
Definition q3 {A B C D} (q : A * B * C * D) : C := snd (fst q).
(* lhef/reader.go:107-148 *)
Definition scanRun (data : str) : option run :=
  match newline data with
  | None => None
  | Some s =>
    match fscanf initFmt s with
    | Some ([SI b0; SI b1; SF e0; SF e1; SI g0; SI g1; SI s0; SI s1; SI w; SI n], r) =>
      if n <? 0 then None else
      match scanProcs (Z.to_nat n) r with
      | Some l => Some (mkrun (b0, b1) (e0, e1) (g0, g1) (s0, s1) w n (map q1 l) (map q2 l) (map q3 l) (map snd l) 0)
      | None => None
      end
    | _ => None
    end
  end.
(* NewDecoder: lhef/reader.go:27-161; the result has Version and Run *)
Definition newDecoder (s : str) : outcome (Z * run) :=
  match xtoken [] s with
  | XEOF => EndOfFile
  | XErr => Failed
  | XTok (TStart n attrs) st r =>
    if str_eqb n (bs "LesHouchesEvents") then
      match attrs with
      | [] => Crash
      | (_, v) :: _ =>
        let version := if str_eqb v (bs "1.0") then 1 else if str_eqb v (bs "2.0") then 2 else -42 in
        match seek true (bs "init") (mkdst st r) with
        | Got _ d =>
          match xtoken (d_stack d) (d_rest d) with
          | XTok (TChar data) st2 r2 =>
            match scanRun data with
            | Some rn => match seek false (bs "init") (mkdst st2 r2) with Got _ d3 => Got (version, rn) d3 | EndOfFile => EndOfFile | _ => Failed end
            | None => Failed
            end
          | XEOF => EndOfFile
          | _ => Failed
          end
        | EndOfFile => EndOfFile
        | _ => Failed
        end
      end
    else Failed
  | XTok _ _ _ => Failed
  end.
Definition evtFmt : list verb := [PD 32; PD 32; PF; PF; PF; PF].
Definition partFmt : list verb := [PD 64; PD 32; PD 32; PD 32; PD 32; PD 32; PF; PF; PF; PF; PF; PF; PF].
(* the particles of an event *)
Record part := mkpt { g_id : Z; g_st : Z; g_mo : Z * Z; g_co : Z * Z; g_p : p5; g_vt : f64; g_sp : f64 }.
(* lhef/reader.go:261-280 *)
Fixpoint scanParts (n : nat) (s : str) : option (list part) :=
  match n with
  | O => Some []
  | S n' => match fscanf partFmt s with
            | Some ([SI id; SI ist; SI m0; SI m1; SI c0; SI c1; SF p0; SF p1; SF p2; SF p3; SF p4; SF vt; SF sp], r) =>
              match scanParts n' r with Some l => Some (mkpt id ist (m0, m1) (c0, c1) (p0, p1, p2, p3, p4) vt sp :: l) | None => None end
            | _ => None
            end
  end.
(* lhef/reader.go:228-280; Ok None is an error, and make panics for a negative length *)
Definition scanEvt (data : str) : res (option evt) :=
  match newline data with
  | None => Ok None
  | Some s =>
    match fscanf evtFmt s with
    | Some ([SI n; SI id; SF a; SF b; SF c; SF d], r) =>
      if n <? 0 then Panic else
      match scanParts (Z.to_nat n) r with
      | Some l => Ok (Some (mkevt n id a b c d (map g_id l) (map g_st l) (map g_mo l) (map g_co l) (map g_p l) (map g_vt l) (map g_sp l) 0 0 0))
      | None => Ok None
      end
    | _ => Ok None
    end
  end.
(* Decoder.Decode: lhef/reader.go:204-294 *)
Definition decode (d : dst) : outcome evt :=
  match seek true (bs "event") d with
  | Got _ d1 =>
    match xtoken (d_stack d1) (d_rest d1) with
    | XTok (TChar data) st r =>
      match scanEvt data with
      | Panic => Crash
      | Ok None => Failed
      | Ok (Some e) => match seek false (bs "event") (mkdst st r) with Got _ d2 => Got e d2 | EndOfFile => EndOfFile | _ => Failed end
      end
    | XEOF => EndOfFile
    | _ => Failed
    end
  | EndOfFile => EndOfFile
  | _ => Failed
  end.
(* all events of a file: Decode until it does not give an event *)
Fixpoint decodeAll (fuel : nat) (d : dst) : list evt * outcome unit :=
  match fuel with
  | O => ([], Failed)
  | S k => match decode d with
           | Got e d' => let '(l, o) := decodeAll k d' in (e :: l, o)
           | EndOfFile => ([], EndOfFile)
           | Failed => ([], Failed)
           | Crash => ([], Crash)
           end
  end.
