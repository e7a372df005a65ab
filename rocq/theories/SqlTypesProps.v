(** C81, continued: what is told of the columns of a query. *)
From Coq Require Import ZArith List Bool Lia.
From Verif Require Import SqlTypesModel.
Import ListNotations.
Open Scope Z_scope.

Definition signedness (e : elem) : option (Z * bool) :=
  match e with
  | EI8 => Some (8, true) | EI16 => Some (16, true) | EI32 => Some (32, true) | EI64 => Some (64, true)
  | EU8 => Some (8, false) | EU16 => Some (16, false) | EU32 => Some (32, false) | EU64 => Some (64, false)
  | _ => None
  end.

(** Integers of a leaf are read with its width, and as unsigned ones if it is unsigned;
    other elements are read as they are. *)
Theorem C81_read l e : (readType l = Scalar e \/ readType l = Slice e \/ exists n, readType l = Array n e) ->
  match signedness (l_type l) with
  | Some (b, s) => signedness e = Some (b, s && negb (l_unsigned l))
  | None => e = l_type l
  end.
Proof.
  destruct l as [t u c n]. unfold readType; cbn [l_type l_unsigned l_count l_len].
  assert (H : match signedness t with
    | Some (b, s) => signedness (readElem t u) = Some (b, s && negb u)
    | None => readElem t u = t end) by (destruct t, u; reflexivity).
  intros E. assert (e = readElem t u) as ->; [|exact H].
  destruct c; [|destruct (_ && _)]; destruct E as [E|[E|[m E]]]; congruence.
Qed.

(** For columns of single values, the type that is told is that of the values, and neither
    a length nor null is. *)
Theorem C81_scan_type l d e : readType l = Scalar e -> colDescrFromLeaf l = Some d ->
  c_type d = readType l /\ columnTypeLength d = None /\ c_null d = false.
Proof.
  destruct l as [t u c n]. unfold readType, colDescrFromLeaf, colDescrFrom, columnTypeLength;
    cbn [l_type l_unsigned l_count l_len].
  destruct c; [discriminate|].
  destruct ((1 <? n) && _) eqn:Q; [discriminate|]. intros _ D.
  destruct t; try discriminate; inversion D; subst; cbn; auto.
Qed.

(** The length that is told of an array is that of its values; slices have no bound and may
    be null; the type that is told of both is that of their elements. *)
Theorem C81_length l d : colDescrFromLeaf l = Some d ->
  match readType l with
  | Array n e => columnTypeLength d = Some n /\ c_null d = false /\ c_type d = Scalar e
  | Slice e => columnTypeLength d = Some (2 ^ 63 - 1) /\ c_null d = true /\ c_type d = Scalar e
  | Scalar _ => columnTypeLength d = None
  end.
Proof.
  destruct l as [t u c n]. unfold readType, colDescrFromLeaf, colDescrFrom, columnTypeLength;
    cbn [l_type l_unsigned l_count l_len].
  destruct c.
  - destruct t; intros D; inversion D; subst; cbn; auto.
  - destruct ((1 <? n) && _) eqn:Q.
    + assert (N : n =? -1 = false).
      { apply andb_true_iff in Q as [Q _]. apply Z.ltb_lt in Q. apply Z.eqb_neq. lia. }
      destruct t; intros D; inversion D; subst; cbn [c_len c_null c_type]; rewrite ?N; auto.
    + destruct t; intros D; inversion D; subst; cbn; auto.
Qed.

(** So the type that is told of a column of arrays is not the type of its values: it is that
    of their elements. *)
Theorem C81_array_refuted : exists l d, colDescrFromLeaf l = Some d /\ c_type d <> readType l.
Proof. exists (mkleaf EF64 false false 10). eexists. split; [reflexivity|discriminate]. Qed.

Example C81_types_ex :
  readType (mkleaf EI32 true false 1) = Scalar EU32 /\
  colDescrFromLeaf (mkleaf EI32 true false 1) = Some (mkdescr (Scalar EU32) (-1) false) /\
  readType (mkleaf EStr false false 20) = Scalar EStr /\
  readType (mkleaf EF64 false true 1) = Slice EF64 /\
  readType (mkleaf EI16 false false 10) = Array 10 EI16.
Proof. repeat split. Qed.
