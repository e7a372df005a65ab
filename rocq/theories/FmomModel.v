(* Model of the four-momenta of package fmom, over the real numbers with infinities and NaN.
   Simplified: arithmetic is exact (no rounding, no overflow); there is one zero, division by it gives the infinity of the
   sign of the numerator; atan2 and the remainder of numbers that are not finite are NaN.
   Reals functions (sqrt, ln, sinh, cosh, tanh, sin, cos, atan) stand for those of package math. *)
From Coq Require Import Reals ZArith Bool Lra.
From Flocq Require Import Core.Raux Core.Generic_fmt Core.Round_NE.
From Verif Require Import GoLib.
Local Open Scope R_scope.

Inductive num := Fin (r : R) | Inf (neg : bool) | NaN.

Definition rlt (a b : R) : bool := if Rlt_dec a b then true else false.
Definition req (a b : R) : bool := if Req_EM_T a b then true else false.

Definition nneg (a : num) : num := match a with Fin x => Fin (- x) | Inf s => Inf (negb s) | NaN => NaN end.
Definition nabs (a : num) : num := match a with Fin x => Fin (Rabs x) | Inf _ => Inf false | NaN => NaN end.
Definition nadd (a b : num) : num :=
  match a, b with
  | Fin x, Fin y => Fin (x + y)
  | Inf s, Inf t => if eqb s t then Inf s else NaN
  | Inf s, Fin _ | Fin _, Inf s => Inf s
  | _, _ => NaN
  end.
Definition nsub (a b : num) : num := nadd a (nneg b).
Definition nmul (a b : num) : num :=
  match a, b with
  | Fin x, Fin y => Fin (x * y)
  | Inf s, Inf t => Inf (xorb s t)
  | Inf s, Fin x | Fin x, Inf s => if req x 0 then NaN else Inf (xorb s (rlt x 0))
  | _, _ => NaN
  end.
Definition ndiv (a b : num) : num :=
  match a, b with
  | Fin x, Fin y => if req y 0 then (if req x 0 then NaN else Inf (rlt x 0)) else Fin (x / y)
  | Inf s, Fin y => Inf (xorb s (rlt y 0))
  | Fin _, Inf _ => Fin 0
  | _, _ => NaN
  end.
Definition nsqrt (a : num) : num :=
  match a with Fin x => if rlt x 0 then NaN else Fin (sqrt x) | Inf false => Inf false | _ => NaN end.
Definition nln (a : num) : num :=
  match a with Fin x => if rlt 0 x then Fin (ln x) else if req x 0 then Inf true else NaN | Inf false => Inf false | _ => NaN end.
Definition nsinh (a : num) : num := match a with Fin x => Fin (sinh x) | _ => a end.
Definition ncosh (a : num) : num := match a with Fin x => Fin (cosh x) | Inf _ => Inf false | NaN => NaN end.
Definition ntanh (a : num) : num := match a with Fin x => Fin (tanh x) | Inf s => Fin (if s then -1 else 1) | NaN => NaN end.
Definition nsin (a : num) : num := match a with Fin x => Fin (sin x) | _ => NaN end.
Definition ncos (a : num) : num := match a with Fin x => Fin (cos x) | _ => NaN end.
Definition atan2 (y x : R) : R :=
  if rlt 0 x then atan (y / x)
  else if rlt x 0 then (if rlt y 0 then atan (y / x) - PI else atan (y / x) + PI)
  else if rlt 0 y then PI / 2 else if rlt y 0 then - (PI / 2) else 0.
Definition natan2 (a b : num) : num := match a, b with Fin y, Fin x => Fin (atan2 y x) | _, _ => NaN end.
(* a < b and a == b *)
Definition nlt (a b : num) : bool :=
  match a, b with
  | Fin x, Fin y => rlt x y
  | Fin _, Inf s => negb s
  | Inf s, Fin _ => s
  | Inf s, Inf t => s && negb t
  | _, _ => false
  end.
Definition neq (a b : num) : bool :=
  match a, b with Fin x, Fin y => req x y | Inf s, Inf t => eqb s t | _, _ => false end.
(* min, math.Max *)
Definition nmin (a b : num) : num :=
  match a, b with NaN, _ | _, NaN => NaN | _, _ => if nlt b a then b else a end.
Definition nmax (a b : num) : num :=
  match a, b with NaN, _ | _, NaN => NaN | _, _ => if nlt a b then b else a end.
(* math.Remainder(x, y): the nearest multiple of y is taken away, of two the even one *)
Definition nremainder (a b : num) : num :=
  match a, b with
  | Fin x, Fin y => if req y 0 then NaN else Fin (x - IZR (ZnearestE (x / y)) * y)
  | _, _ => NaN
  end.
(* sign := 1.0; if e < 0 { sign = -1.0 } *)
Definition sign (e : num) : num := if nlt e (Fin 0) then Fin (-1) else Fin 1.

(* fmom/p4.go:35-37 Vec4 *)
Record vec4 := V4 { vX : num; vY : num; vZ : num; vT : num }.

(* ---- PxPyPzE (fmom/pxpypze.go) ---- *)
(* fmom/pxpypze.go:32 Px *)
Definition c_Px (p : vec4) : num := vX p.
(* fmom/pxpypze.go:33 Py *)
Definition c_Py (p : vec4) : num := vY p.
(* fmom/pxpypze.go:34 Pz *)
Definition c_Pz (p : vec4) : num := vZ p.
(* fmom/pxpypze.go:35 E *)
Definition c_E (p : vec4) : num := vT p.
(* fmom/pxpypze.go:42-50 M2 *)
Definition c_M2 (p : vec4) : num := nsub (nmul (c_E p) (c_E p)) (nadd (nadd (nmul (c_Px p) (c_Px p)) (nmul (c_Py p) (c_Py p))) (nmul (c_Pz p) (c_Pz p))).
(* fmom/pxpypze.go:52-58 M *)
Definition c_M (p : vec4) : num := let m2 := c_M2 p in if nlt m2 (Fin 0) then nneg (nsqrt (nneg m2)) else nsqrt m2.
(* fmom/pxpypze.go:60-85 Eta *)
Definition c_Eta (p : vec4) : num := let pp := nsqrt (nadd (nadd (nmul (c_Px p) (c_Px p)) (nmul (c_Py p) (c_Py p))) (nmul (c_Pz p) (c_Pz p))) in
  if neq pp (Fin 0) then Fin 0 else if neq pp (c_Pz p) then Inf false else if neq pp (nneg (c_Pz p)) then Inf true
  else nmul (nmul (sign (c_E p)) (Fin (1 / 2))) (nln (ndiv (nadd pp (c_Pz p)) (nsub pp (c_Pz p)))).
(* fmom/pxpypze.go:87-100 Phi *)
Definition c_Phi (p : vec4) : num := let px := nmul (sign (c_E p)) (c_Px p) in let py := nmul (sign (c_E p)) (c_Py p) in
  if neq px (Fin 0) && neq py (Fin 0) then Fin 0 else natan2 py px.
(* fmom/pxpypze.go:102-108 P2 *)
Definition c_P2 (p : vec4) : num := nadd (nadd (nmul (c_Px p) (c_Px p)) (nmul (c_Py p) (c_Py p))) (nmul (c_Pz p) (c_Pz p)).
(* fmom/pxpypze.go:110-119 P *)
Definition c_P (p : vec4) : num := nmul (sign (c_E p)) (nsqrt (c_P2 p)).
(* fmom/pxpypze.go:157-167 Pt *)
Definition c_Pt (p : vec4) : num := nmul (sign (c_E p)) (nsqrt (nadd (nmul (c_Px p) (c_Px p)) (nmul (c_Py p) (c_Py p)))).
(* fmom/pxpypze.go:176-179 IPt *)
Definition c_IPt (p : vec4) : num := ndiv (Fin 1) (c_Pt p).
(* fmom/pxpypze.go:121-125 CosPhi *)
Definition c_CosPhi (p : vec4) : num := nmul (c_Px p) (c_IPt p).
(* fmom/pxpypze.go:127-131 SinPhi *)
Definition c_SinPhi (p : vec4) : num := nmul (c_Py p) (c_IPt p).
(* fmom/pxpypze.go:133-137 TanTh *)
Definition c_TanTh (p : vec4) : num := ndiv (c_Pt p) (c_Pz p).
(* fmom/pxpypze.go:139-143 CotTh *)
Definition c_CotTh (p : vec4) : num := ndiv (c_Pz p) (c_Pt p).
(* fmom/pxpypze.go:145-149 CosTh *)
Definition c_CosTh (p : vec4) : num := ndiv (c_Pz p) (c_P p).
(* fmom/pxpypze.go:151-155 SinTh *)
Definition c_SinTh (p : vec4) : num := ndiv (c_Pt p) (c_P p).
(* fmom/pxpypze.go:169-174 Et *)
Definition c_Et (p : vec4) : num := nmul (c_E p) (c_SinTh p).
(* fmom/pxpypze.go:181-194 Rapidity *)
Definition c_Rapidity (p : vec4) : num := if neq (c_E p) (Fin 0) then Fin 0 else if neq (c_E p) (c_Pz p) then Inf false else if neq (c_E p) (nneg (c_Pz p)) then Inf true
  else nmul (Fin (1 / 2)) (nln (ndiv (nadd (c_E p) (c_Pz p)) (nsub (c_E p) (c_Pz p)))).

(* ---- EEtaPhiM (fmom/eetaphim.go) ---- *)
(* fmom/eetaphim.go:32-34 E *)
Definition ee_E (p : vec4) : num := vX p.
(* fmom/eetaphim.go:36-38 Eta *)
Definition ee_Eta (p : vec4) : num := vY p.
(* fmom/eetaphim.go:40-42 Phi *)
Definition ee_Phi (p : vec4) : num := vZ p.
(* fmom/eetaphim.go:44-46 M *)
Definition ee_M (p : vec4) : num := vT p.
(* fmom/eetaphim.go:48-51 M2 *)
Definition ee_M2 (p : vec4) : num := nmul (ee_M p) (ee_M p).
(* fmom/eetaphim.go:53-64 P *)
Definition ee_P (p : vec4) : num := if neq (ee_M p) (Fin 0) then ee_E p else nmul (sign (ee_E p)) (nsqrt (nsub (nmul (ee_E p) (ee_E p)) (nmul (ee_M p) (ee_M p)))).
(* fmom/eetaphim.go:65-69 P2 *)
Definition ee_P2 (p : vec4) : num := nsub (nmul (ee_E p) (ee_E p)) (nmul (ee_M p) (ee_M p)).
(* fmom/eetaphim.go:71-74 CosPhi *)
Definition ee_CosPhi (p : vec4) : num := ncos (ee_Phi p).
(* fmom/eetaphim.go:76-79 SinPhi *)
Definition ee_SinPhi (p : vec4) : num := nsin (ee_Phi p).
(* fmom/eetaphim.go:81-93 TanTh *)
Definition ee_TanTh (p : vec4) : num := let eta := if nlt (Fin 710) (nabs (ee_Eta p)) then (if nlt (Fin 0) (ee_Eta p) then Fin 710 else Fin (- 710)) else ee_Eta p in
  ndiv (Fin 1) (nsinh eta).
(* fmom/eetaphim.go:95-98 CotTh *)
Definition ee_CotTh (p : vec4) : num := nsinh (ee_Eta p).
(* fmom/eetaphim.go:100-103 CosTh *)
Definition ee_CosTh (p : vec4) : num := ntanh (ee_Eta p).
(* fmom/eetaphim.go:105-109 SinTh *)
Definition ee_SinTh (p : vec4) : num := ndiv (Fin 1) (ncosh (nmin (nabs (ee_Eta p)) (Fin 710))).
(* fmom/eetaphim.go:111-115 Pt *)
Definition ee_Pt (p : vec4) : num := nmul (ee_P p) (ee_SinTh p).
(* fmom/eetaphim.go:117-121 Et *)
Definition ee_Et (p : vec4) : num := nmul (ee_E p) (ee_SinTh p).
(* fmom/eetaphim.go:123-126 IPt *)
Definition ee_IPt (p : vec4) : num := ndiv (Fin 1) (ee_Pt p).
(* fmom/eetaphim.go:146-150 Pz *)
Definition ee_Pz (p : vec4) : num := nmul (ee_P p) (ee_CosTh p).
(* fmom/eetaphim.go:128-132 Rapidity *)
Definition ee_Rapidity (p : vec4) : num := nmul (Fin (1 / 2)) (nln (ndiv (nadd (ee_E p) (ee_Pz p)) (nsub (ee_E p) (ee_Pz p)))).
(* fmom/eetaphim.go:134-138 Px *)
Definition ee_Px (p : vec4) : num := nmul (ee_Pt p) (ee_CosPhi p).
(* fmom/eetaphim.go:140-144 Py *)
Definition ee_Py (p : vec4) : num := nmul (ee_Pt p) (ee_SinPhi p).

(* ---- EtEtaPhiM (fmom/etetaphim.go) ---- *)
(* fmom/etetaphim.go:32-34 Et *)
Definition et_Et (p : vec4) : num := vX p.
(* fmom/etetaphim.go:36-38 Eta *)
Definition et_Eta (p : vec4) : num := vY p.
(* fmom/etetaphim.go:40-42 Phi *)
Definition et_Phi (p : vec4) : num := vZ p.
(* fmom/etetaphim.go:44-46 M *)
Definition et_M (p : vec4) : num := vT p.
(* fmom/etetaphim.go:48-51 M2 *)
Definition et_M2 (p : vec4) : num := nmul (et_M p) (et_M p).
(* fmom/etetaphim.go:81-93 TanTh *)
Definition et_TanTh (p : vec4) : num := let eta := if nlt (Fin 710) (nabs (et_Eta p)) then (if nlt (Fin 0) (et_Eta p) then Fin 710 else Fin (- 710)) else et_Eta p in
  ndiv (Fin 1) (nsinh eta).
(* fmom/etetaphim.go:95-98 CotTh *)
Definition et_CotTh (p : vec4) : num := nsinh (et_Eta p).
(* fmom/etetaphim.go:100-103 CosTh *)
Definition et_CosTh (p : vec4) : num := ntanh (et_Eta p).
(* fmom/etetaphim.go:105-109 SinTh *)
Definition et_SinTh (p : vec4) : num := ndiv (Fin 1) (ncosh (nmin (nabs (et_Eta p)) (Fin 710))).
(* fmom/etetaphim.go:117-121 E *)
Definition et_E (p : vec4) : num := ndiv (et_Et p) (et_SinTh p).
(* fmom/etetaphim.go:53-64 P *)
Definition et_P (p : vec4) : num := if neq (et_M p) (Fin 0) then et_E p else nmul (sign (et_E p)) (nsqrt (nsub (nmul (et_E p) (et_E p)) (nmul (et_M p) (et_M p)))).
(* fmom/etetaphim.go:65-69 P2 *)
Definition et_P2 (p : vec4) : num := nsub (nmul (et_E p) (et_E p)) (nmul (et_M p) (et_M p)).
(* fmom/etetaphim.go:71-74 CosPhi *)
Definition et_CosPhi (p : vec4) : num := ncos (et_Phi p).
(* fmom/etetaphim.go:76-79 SinPhi *)
Definition et_SinPhi (p : vec4) : num := nsin (et_Phi p).
(* fmom/etetaphim.go:111-115 Pt *)
Definition et_Pt (p : vec4) : num := nmul (et_P p) (et_SinTh p).
(* fmom/etetaphim.go:123-126 IPt *)
Definition et_IPt (p : vec4) : num := ndiv (Fin 1) (et_Pt p).
(* fmom/etetaphim.go:146-150 Pz *)
Definition et_Pz (p : vec4) : num := nmul (et_P p) (et_CosTh p).
(* fmom/etetaphim.go:128-132 Rapidity *)
Definition et_Rapidity (p : vec4) : num := nmul (Fin (1 / 2)) (nln (ndiv (nadd (et_E p) (et_Pz p)) (nsub (et_E p) (et_Pz p)))).
(* fmom/etetaphim.go:134-138 Px *)
Definition et_Px (p : vec4) : num := nmul (et_Pt p) (et_CosPhi p).
(* fmom/etetaphim.go:140-144 Py *)
Definition et_Py (p : vec4) : num := nmul (et_Pt p) (et_SinPhi p).

(* ---- PtEtaPhiM (fmom/ptetaphim.go) ---- *)
(* fmom/ptetaphim.go:32-34 Pt *)
Definition pt_Pt (p : vec4) : num := vX p.
(* fmom/ptetaphim.go:36-38 Eta *)
Definition pt_Eta (p : vec4) : num := vY p.
(* fmom/ptetaphim.go:40-42 Phi *)
Definition pt_Phi (p : vec4) : num := vZ p.
(* fmom/ptetaphim.go:44-46 M *)
Definition pt_M (p : vec4) : num := vT p.
(* fmom/ptetaphim.go:93-96 CotTh *)
Definition pt_CotTh (p : vec4) : num := nsinh (pt_Eta p).
(* fmom/ptetaphim.go:153-157 Pz *)
Definition pt_Pz (p : vec4) : num := nmul (pt_Pt p) (pt_CotTh p).
(* fmom/ptetaphim.go:48-58 E *)
Definition pt_E (p : vec4) : num := nmul (sign (pt_Pt p)) (nsqrt (nadd (nadd (nmul (pt_Pt p) (pt_Pt p)) (nmul (pt_Pz p) (pt_Pz p))) (nmul (pt_M p) (pt_M p)))).
(* fmom/ptetaphim.go:60-69 P *)
Definition pt_P (p : vec4) : num := nmul (sign (pt_Pt p)) (nsqrt (nadd (nmul (pt_Pt p) (pt_Pt p)) (nmul (pt_Pz p) (pt_Pz p)))).
(* fmom/ptetaphim.go:71-76 P2 *)
Definition pt_P2 (p : vec4) : num := nadd (nmul (pt_Pt p) (pt_Pt p)) (nmul (pt_Pz p) (pt_Pz p)).
(* fmom/ptetaphim.go:78-81 M2 *)
Definition pt_M2 (p : vec4) : num := nmul (pt_M p) (pt_M p).
(* fmom/ptetaphim.go:83-86 CosPhi *)
Definition pt_CosPhi (p : vec4) : num := ncos (pt_Phi p).
(* fmom/ptetaphim.go:88-91 SinPhi *)
Definition pt_SinPhi (p : vec4) : num := nsin (pt_Phi p).
(* fmom/ptetaphim.go:98-101 CosTh *)
Definition pt_CosTh (p : vec4) : num := ntanh (pt_Eta p).
(* fmom/ptetaphim.go:103-108 SinTh *)
Definition pt_SinTh (p : vec4) : num := ndiv (Fin 1) (ncosh (nmin (nabs (pt_Eta p)) (Fin 710))).
(* fmom/ptetaphim.go:110-122 TanTh *)
Definition pt_TanTh (p : vec4) : num := let eta := if nlt (Fin 710) (nabs (pt_Eta p)) then (if nlt (Fin 0) (pt_Eta p) then Fin 710 else Fin (- 710)) else pt_Eta p in
  ndiv (Fin 1) (nsinh eta).
(* fmom/ptetaphim.go:124-128 Et *)
Definition pt_Et (p : vec4) : num := nmul (pt_E p) (pt_SinTh p).
(* fmom/ptetaphim.go:130-133 IPt *)
Definition pt_IPt (p : vec4) : num := ndiv (Fin 1) (pt_Pt p).
(* fmom/ptetaphim.go:135-139 Rapidity *)
Definition pt_Rapidity (p : vec4) : num := nmul (Fin (1 / 2)) (nln (ndiv (nadd (pt_E p) (pt_Pz p)) (nsub (pt_E p) (pt_Pz p)))).
(* fmom/ptetaphim.go:141-145 Px *)
Definition pt_Px (p : vec4) : num := nmul (pt_Pt p) (pt_CosPhi p).
(* fmom/ptetaphim.go:147-151 Py *)
Definition pt_Py (p : vec4) : num := nmul (pt_Pt p) (pt_SinPhi p).

(* ---- IPtCotThPhiM (fmom/iptcotthphim.go) ---- *)
(* fmom/iptcotthphim.go:32-34 IPt *)
Definition ip_IPt (p : vec4) : num := vX p.
(* fmom/iptcotthphim.go:36-38 CotTh *)
Definition ip_CotTh (p : vec4) : num := vY p.
(* fmom/iptcotthphim.go:40-42 Phi *)
Definition ip_Phi (p : vec4) : num := vZ p.
(* fmom/iptcotthphim.go:44-46 M *)
Definition ip_M (p : vec4) : num := vT p.
(* fmom/iptcotthphim.go:48-51 Pt *)
Definition ip_Pt (p : vec4) : num := ndiv (Fin 1) (ip_IPt p).
(* fmom/iptcotthphim.go:53-57 P *)
Definition ip_P (p : vec4) : num := ndiv (nsqrt (nadd (Fin 1) (nmul (ip_CotTh p) (ip_CotTh p)))) (ip_IPt p).
(* fmom/iptcotthphim.go:59-63 P2 *)
Definition ip_P2 (p : vec4) : num := ndiv (nadd (Fin 1) (nmul (ip_CotTh p) (ip_CotTh p))) (nmul (ip_IPt p) (ip_IPt p)).
(* fmom/iptcotthphim.go:65-68 M2 *)
Definition ip_M2 (p : vec4) : num := nmul (ip_M p) (ip_M p).
(* fmom/iptcotthphim.go:70-73 TanTh *)
Definition ip_TanTh (p : vec4) : num := ndiv (Fin 1) (ip_CotTh p).
(* fmom/iptcotthphim.go:75-78 SinTh *)
Definition ip_SinTh (p : vec4) : num := ndiv (Fin 1) (nsqrt (nadd (Fin 1) (nmul (ip_CotTh p) (ip_CotTh p)))).
(* fmom/iptcotthphim.go:80-89 CosTh *)
Definition ip_CosTh (p : vec4) : num := let c2 := nmul (ip_CotTh p) (ip_CotTh p) in nmul (sign (ip_CotTh p)) (nsqrt (ndiv c2 (nadd (Fin 1) c2))).
(* fmom/iptcotthphim.go:91-98 E *)
Definition ip_E (p : vec4) : num := if neq (ip_M p) (Fin 0) then ip_P p else nsqrt (nadd (nmul (ip_P p) (ip_P p)) (nmul (ip_M p) (ip_M p))).
(* fmom/iptcotthphim.go:100-104 Et *)
Definition ip_Et (p : vec4) : num := ndiv (ip_E p) (nsqrt (nadd (Fin 1) (nmul (ip_CotTh p) (ip_CotTh p)))).
(* fmom/iptcotthphim.go:106-110 Eta *)
Definition ip_Eta (p : vec4) : num := let aux := (nsqrt (nadd (Fin 1) (nmul (ip_CotTh p) (ip_CotTh p)))) in nmul (Fin (- (1 / 2))) (nln (ndiv (nsub aux (ip_CotTh p)) (nadd aux (ip_CotTh p)))).
(* fmom/iptcotthphim.go:139-142 CosPhi *)
Definition ip_CosPhi (p : vec4) : num := ncos (ip_Phi p).
(* fmom/iptcotthphim.go:144-147 SinPhi *)
Definition ip_SinPhi (p : vec4) : num := nsin (ip_Phi p).
(* fmom/iptcotthphim.go:118-123 Px *)
Definition ip_Px (p : vec4) : num := nmul (ndiv (Fin 1) (ip_IPt p)) (ip_CosPhi p).
(* fmom/iptcotthphim.go:125-130 Py *)
Definition ip_Py (p : vec4) : num := nmul (ndiv (Fin 1) (ip_IPt p)) (ip_SinPhi p).
(* fmom/iptcotthphim.go:132-137 Pz *)
Definition ip_Pz (p : vec4) : num := nmul (ndiv (Fin 1) (ip_IPt p)) (ip_CotTh p).
(* fmom/iptcotthphim.go:112-116 Rapidity *)
Definition ip_Rapidity (p : vec4) : num := nmul (Fin (1 / 2)) (nln (ndiv (nadd (ip_E p) (ip_Pz p)) (nsub (ip_E p) (ip_Pz p)))).

(* fmom/p4.go:8-32: a value of the interface P4, which is one of five types *)
Inductive kind := PxPyPzE | EEtaPhiM | EtEtaPhiM | PtEtaPhiM | IPtCotThPhiM.
Record p4 := P4 { kd : kind; val : vec4 }.
Definition Px (p : p4) : num := match kd p with PxPyPzE => c_Px (val p) | EEtaPhiM => ee_Px (val p) | EtEtaPhiM => et_Px (val p) | PtEtaPhiM => pt_Px (val p) | IPtCotThPhiM => ip_Px (val p) end.
Definition Py (p : p4) : num := match kd p with PxPyPzE => c_Py (val p) | EEtaPhiM => ee_Py (val p) | EtEtaPhiM => et_Py (val p) | PtEtaPhiM => pt_Py (val p) | IPtCotThPhiM => ip_Py (val p) end.
Definition Pz (p : p4) : num := match kd p with PxPyPzE => c_Pz (val p) | EEtaPhiM => ee_Pz (val p) | EtEtaPhiM => et_Pz (val p) | PtEtaPhiM => pt_Pz (val p) | IPtCotThPhiM => ip_Pz (val p) end.
Definition M (p : p4) : num := match kd p with PxPyPzE => c_M (val p) | EEtaPhiM => ee_M (val p) | EtEtaPhiM => et_M (val p) | PtEtaPhiM => pt_M (val p) | IPtCotThPhiM => ip_M (val p) end.
Definition M2 (p : p4) : num := match kd p with PxPyPzE => c_M2 (val p) | EEtaPhiM => ee_M2 (val p) | EtEtaPhiM => et_M2 (val p) | PtEtaPhiM => pt_M2 (val p) | IPtCotThPhiM => ip_M2 (val p) end.
Definition P (p : p4) : num := match kd p with PxPyPzE => c_P (val p) | EEtaPhiM => ee_P (val p) | EtEtaPhiM => et_P (val p) | PtEtaPhiM => pt_P (val p) | IPtCotThPhiM => ip_P (val p) end.
Definition P2 (p : p4) : num := match kd p with PxPyPzE => c_P2 (val p) | EEtaPhiM => ee_P2 (val p) | EtEtaPhiM => et_P2 (val p) | PtEtaPhiM => pt_P2 (val p) | IPtCotThPhiM => ip_P2 (val p) end.
Definition Eta (p : p4) : num := match kd p with PxPyPzE => c_Eta (val p) | EEtaPhiM => ee_Eta (val p) | EtEtaPhiM => et_Eta (val p) | PtEtaPhiM => pt_Eta (val p) | IPtCotThPhiM => ip_Eta (val p) end.
Definition Rapidity (p : p4) : num := match kd p with PxPyPzE => c_Rapidity (val p) | EEtaPhiM => ee_Rapidity (val p) | EtEtaPhiM => et_Rapidity (val p) | PtEtaPhiM => pt_Rapidity (val p) | IPtCotThPhiM => ip_Rapidity (val p) end.
Definition Phi (p : p4) : num := match kd p with PxPyPzE => c_Phi (val p) | EEtaPhiM => ee_Phi (val p) | EtEtaPhiM => et_Phi (val p) | PtEtaPhiM => pt_Phi (val p) | IPtCotThPhiM => ip_Phi (val p) end.
Definition E (p : p4) : num := match kd p with PxPyPzE => c_E (val p) | EEtaPhiM => ee_E (val p) | EtEtaPhiM => et_E (val p) | PtEtaPhiM => pt_E (val p) | IPtCotThPhiM => ip_E (val p) end.
Definition Et (p : p4) : num := match kd p with PxPyPzE => c_Et (val p) | EEtaPhiM => ee_Et (val p) | EtEtaPhiM => et_Et (val p) | PtEtaPhiM => pt_Et (val p) | IPtCotThPhiM => ip_Et (val p) end.
Definition Pt (p : p4) : num := match kd p with PxPyPzE => c_Pt (val p) | EEtaPhiM => ee_Pt (val p) | EtEtaPhiM => et_Pt (val p) | PtEtaPhiM => pt_Pt (val p) | IPtCotThPhiM => ip_Pt (val p) end.
Definition IPt (p : p4) : num := match kd p with PxPyPzE => c_IPt (val p) | EEtaPhiM => ee_IPt (val p) | EtEtaPhiM => et_IPt (val p) | PtEtaPhiM => pt_IPt (val p) | IPtCotThPhiM => ip_IPt (val p) end.
Definition CosPhi (p : p4) : num := match kd p with PxPyPzE => c_CosPhi (val p) | EEtaPhiM => ee_CosPhi (val p) | EtEtaPhiM => et_CosPhi (val p) | PtEtaPhiM => pt_CosPhi (val p) | IPtCotThPhiM => ip_CosPhi (val p) end.
Definition SinPhi (p : p4) : num := match kd p with PxPyPzE => c_SinPhi (val p) | EEtaPhiM => ee_SinPhi (val p) | EtEtaPhiM => et_SinPhi (val p) | PtEtaPhiM => pt_SinPhi (val p) | IPtCotThPhiM => ip_SinPhi (val p) end.
Definition CosTh (p : p4) : num := match kd p with PxPyPzE => c_CosTh (val p) | EEtaPhiM => ee_CosTh (val p) | EtEtaPhiM => et_CosTh (val p) | PtEtaPhiM => pt_CosTh (val p) | IPtCotThPhiM => ip_CosTh (val p) end.
Definition SinTh (p : p4) : num := match kd p with PxPyPzE => c_SinTh (val p) | EEtaPhiM => ee_SinTh (val p) | EtEtaPhiM => et_SinTh (val p) | PtEtaPhiM => pt_SinTh (val p) | IPtCotThPhiM => ip_SinTh (val p) end.
Definition CotTh (p : p4) : num := match kd p with PxPyPzE => c_CotTh (val p) | EEtaPhiM => ee_CotTh (val p) | EtEtaPhiM => et_CotTh (val p) | PtEtaPhiM => pt_CotTh (val p) | IPtCotThPhiM => ip_CotTh (val p) end.
Definition TanTh (p : p4) : num := match kd p with PxPyPzE => c_TanTh (val p) | EEtaPhiM => ee_TanTh (val p) | EtEtaPhiM => et_TanTh (val p) | PtEtaPhiM => pt_TanTh (val p) | IPtCotThPhiM => ip_TanTh (val p) end.
(* Set: fmom/pxpypze.go:196-201, fmom/eetaphim.go:152-157, fmom/etetaphim.go:152-157, fmom/ptetaphim.go:159-164, fmom/iptcotthphim.go:149-154; the destination has kind k *)
Definition Set4 (k : kind) (p : p4) : p4 :=
  match k with
  | PxPyPzE => P4 PxPyPzE (V4 (Px p) (Py p) (Pz p) (E p))
  | EEtaPhiM => P4 EEtaPhiM (V4 (E p) (Eta p) (Phi p) (M p))
  | EtEtaPhiM => P4 EtEtaPhiM (V4 (Et p) (Eta p) (Phi p) (M p))
  | PtEtaPhiM => P4 PtEtaPhiM (V4 (Pt p) (Eta p) (Phi p) (M p))
  | IPtCotThPhiM => P4 IPtCotThPhiM (V4 (IPt p) (CotTh p) (Phi p) (M p))
  end.
(* fmom/pxpypze.go:16-18, fmom/eetaphim.go:16-18, fmom/etetaphim.go:16-18, fmom/ptetaphim.go:16-18, fmom/iptcotthphim.go:16-18 *)
Definition New (k : kind) (x y z t : num) : p4 := P4 k (V4 x y z t).
Definition cart (x y z t : num) : p4 := New PxPyPzE x y z t.

(* fmom/ops.go:38-77 Add: the result has the type of the first *)
Definition Add (p q : p4) : p4 :=
  let s := cart (nadd (Px p) (Px q)) (nadd (Py p) (Py q)) (nadd (Pz p) (Pz q)) (nadd (E p) (E q)) in
  match kd p with PxPyPzE => s | k => Set4 k s end.
(* fmom/ops.go:80-121 IAdd: the new value of dst *)
Definition IAdd (dst src : p4) : p4 :=
  let d := match kd dst with PxPyPzE => dst | _ => cart (Px dst) (Py dst) (Pz dst) (E dst) end in
  let v := val d in
  Set4 (kd dst) (P4 PxPyPzE (V4 (nadd (vX v) (Px src)) (nadd (vY v) (Py src)) (nadd (vZ v) (Pz src)) (nadd (vT v) (E src)))).
(* fmom/ops.go:124-132 Scale *)
Definition Scale (a : num) (p : p4) : p4 :=
  Set4 (kd p) (cart (nmul a (Px p)) (nmul a (Py p)) (nmul a (Pz p)) (nmul a (E p))).
(* fmom/ops.go:135-138 InvMass *)
Definition InvMass (p q : p4) : num := M (Add p q).

(* r3.Vec, r3.Dot *)
Record vec3 := V3 { wX : num; wY : num; wZ : num }.
Definition dot3 (p q : vec3) : num := nadd (nadd (nmul (wX p) (wX q)) (nmul (wY p) (wY q))) (nmul (wZ p) (wZ q)).
(* fmom/ops.go:143-157 BoostOf *)
Definition BoostOf (p : p4) : res vec3 :=
  let e := E p in
  if neq e (Fin 0) then (if neq (P2 p) (Fin 0) then Ok (V3 (Fin 0) (Fin 0) (Fin 0)) else Panic)
  else if nlt (M2 p) (Fin 0) || neq (M2 p) (Fin 0) then Panic
  else let inv := ndiv (Fin 1) e in Ok (V3 (nmul inv (Px p)) (nmul inv (Py p)) (nmul inv (Pz p))).
(* fmom/ops.go:196-202 VecOf *)
Definition VecOf (p : p4) : vec3 := V3 (Px p) (Py p) (Pz p).
(* fmom/ops.go:161-193 Boost *)
Definition Boost (p : p4) (v : vec3) : p4 :=
  if neq (wX v) (Fin 0) && neq (wY v) (Fin 0) && neq (wZ v) (Fin 0) then p
  else
    let ee := E p in
    let v2 := dot3 v v in
    let bp := dot3 v (VecOf p) in
    let gamma := ndiv (Fin 1) (nsqrt (nsub (Fin 1) v2)) in
    let beta := ndiv (nsub gamma (Fin 1)) v2 in
    let alpha := nadd (nmul beta bp) (nmul gamma ee) in
    Set4 (kd p) (cart (nadd (Px p) (nmul alpha (wX v))) (nadd (Py p) (nmul alpha (wY v))) (nadd (Pz p) (nmul alpha (wZ v)))
                      (nmul gamma (nadd ee bp))).

(* fmom/utils.go:18-22 DeltaPhi *)
Definition DeltaPhi (p q : p4) : num := nneg (nremainder (nsub (Phi p) (Phi q)) (Fin (2 * PI))).
(* fmom/utils.go:25-28 DeltaEta *)
Definition DeltaEta (p q : p4) : num := nsub (Eta p) (Eta q).
(* fmom/utils.go:31-35 DeltaR *)
Definition DeltaR (p q : p4) : num :=
  nsqrt (nadd (nmul (DeltaEta p q) (DeltaEta p q)) (nmul (DeltaPhi p q) (DeltaPhi p q))).
(* fmom/utils.go:38-40 Dot *)
Definition Dot (p q : p4) : num :=
  nsub (nsub (nsub (nmul (E p) (E q)) (nmul (Px p) (Px q))) (nmul (Py p) (Py q))) (nmul (Pz p) (Pz q)).
(* fmom/utils.go:43-49 CosTheta *)
Definition CosTheta (p q : p4) : num := ndiv (dot3 (VecOf p) (VecOf q)) (nsqrt (nmul (P2 p) (P2 q))).

(* fmom/ops.go:29-35 cmpeq *)
Definition cmpeq (x y eps : num) : bool := neq x y || nlt (nabs (nsub x y)) eps.
(* fmom/ops.go:19-27 p4equal *)
Definition p4equal (p q : p4) (eps : num) : bool :=
  cmpeq (E p) (E q) eps && cmpeq (Px p) (Px q) eps && cmpeq (Py p) (Py q) eps && cmpeq (Pz p) (Pz q) eps.
(* fmom/ops.go:15-17 Equal *)
Definition Equal (p q : p4) : bool := p4equal p q (Fin (1 / 10 ^ 14)).

(* fmom/pxpypze.go:203-218 SetPtEtaPhiM *)
Definition SetPtEtaPhiM (pt eta phi m : num) : p4 :=
  let pt := nabs pt in
  let x := nmul pt (ncos phi) in let y := nmul pt (nsin phi) in let z := nmul pt (nsinh eta) in
  let p2 := nadd (nadd (nmul x x) (nmul y y)) (nmul z z) in
  let m2 := nmul m m in
  cart x y z (if nlt (Fin 0) m || neq m (Fin 0) then nsqrt (nadd p2 m2) else nsqrt (nmax (Fin 0) (nsub p2 m2))).
(* fmom/pxpypze.go:220-227 SetPtEtaPhiE *)
Definition SetPtEtaPhiE (pt eta phi e : num) : p4 :=
  let pt := nabs pt in cart (nmul pt (ncos phi)) (nmul pt (nsin phi)) (nmul pt (nsinh eta)) e.
