(* Sequencing notations for models of ROOT unmarshallers and marshallers, with the matching lemmas. *)
From Coq Require Import ZArith List Lia Bool.
From Verif Require Import Bytes GoLib RbytesModel RbytesProofs.
Import ListNotations.
Local Open Scope Z_scope.

Definition rd_bind {A B} (f : rd A) (g : A -> rd B) : rd B := fun r => do x <- f r; g (fst x) (snd x).
Definition rd_ret {A} (a : A) : rd A := fun r => Ok (a, r).
(* if r.Err() != nil { return r.Err() } *)
Definition rd_guard {A} (d : A) (f : rd A) : rd A := fun r => if rerr r then Ok (d, r) else f r.
Notation "x <~ f ;; g" := (rd_bind f (fun x => g)) (at level 61, f at next level, right associativity).

Definition wr : Type := wbuf -> res wbuf.
Definition w_seq (f g : wr) : wr := fun w => do w' <- f w; g w'.
Definition w_nop : wr := fun w => Ok w.
(* if w.Err() != nil { return w.Err() } *)
Definition w_guard (f : wr) : wr := fun w => if werr w then Ok w else f w.
Notation "f >> g" := (w_seq f g) (at level 62, right associativity).

Lemma rd_bind_reads {A B} (f : rd A) (g : A -> rd B) a b v u :
  reads f a v -> reads (g v) b u -> reads (rd_bind f g) (a ++ b) u.
Proof. apply reads_bind. Qed.
Lemma rd_ret_reads {A} (v : A) : reads (rd_ret v) [] v.
Proof. apply reads_ret. Qed.
Lemma rd_last_reads {A B} (f : rd A) (g : A -> B) a v u : reads f a v -> g v = u ->
  reads (rd_bind f (fun x => rd_ret (g x))) a u.
Proof.
  intros H <-. rewrite <- (app_nil_r a). eapply rd_bind_reads; [exact H|]. apply rd_ret_reads.
Qed.
Lemma rd_guard_reads {A} d (f : rd A) a v : reads f a v -> reads (rd_guard d f) a v.
Proof. apply reads_guard. Qed.
Lemma w_seq_emits f g a b : emits f a -> emits g b -> emits (f >> g) (a ++ b).
Proof. apply emits_seq. Qed.
Lemma w_guard_emits f a : emits f a -> emits (w_guard f) a.
Proof. apply emits_guard. Qed.
Lemma w_nop_emits : emits w_nop [].
Proof. intros w W. exists w. split; auto. split; [|lia]. split; auto. split; auto. now rewrite app_nil_r. Qed.
Lemma grow_emits junk n op bs : emits op bs -> emits (fun w => op (grow junk n w)) bs.
Proof.
  intros E w W. destruct (grow_step junk n w W) as (S & K).
  destruct (E (grow junk n w) (grow_wf junk n w W)) as (w' & E1 & S1 & K1).
  exists w'. split; auto. split; [|lia]. change bs with ([] ++ bs). eapply step_trans; eauto.
Qed.

(* a value read from a buffer that holds exactly its bytes; a value written to an empty buffer *)
Lemma reads_whole {A} (f : rd A) bs v off : reads f bs v ->
  f {| rp := bs; rc := 0; rerr := false; roff := off |} =
  Ok (v, {| rp := bs; rc := length bs; rerr := false; roff := off |}).
Proof.
  intros R. rewrite R; [reflexivity|]. split; auto. split; [cbn; lia|]. exists []. cbn. now rewrite app_nil_r.
Qed.
Definition wempty (off : Z) : wbuf := {| wp := []; wc := 0; werr := false; woff := off |}.
Lemma emits_whole f bs off : emits f bs ->
  exists w, f (wempty off) = Ok w /\ werr w = false /\ wBytes w = bs.
Proof.
  intros E. destruct (E (wempty off)) as (w & Ew & ((_ & W) & B & _) & _).
  { split; auto. }
  exists w. auto.
Qed.
