(* C56, and the part of C51 on histories: what the clients of an xrootd server see. *)
From Coq Require Import ZArith List Lia Bool.
From Verif Require Import Bytes GoLib GoStrings XrdModel XrdCliModel XrdSrvModel.
Import ListNotations.
Local Open Scope Z_scope.

(* ---- C56: the specification ---- *)
(* the files by path, and per session and handle the file it stands for, whether it may be written and whether it is for appending *)
Record spec := { f_of : list Z -> option (list Z); h_of : Z -> list Z -> option (list Z * bool * bool) }.
Definition put_file (g : spec) (q : list Z) (c : option (list Z)) : spec := {| f_of := fun x => if str_eqb q x then c else f_of g x; h_of := h_of g |}.
Definition put_handle (g : spec) (sid : Z) (h : list Z) (v : option (list Z * bool * bool)) : spec :=
  {| f_of := f_of g; h_of := fun t x => if (sid =? t) && str_eqb h x then v else h_of g t x |}.
Fixpoint first_free (g : spec) (sid : Z) (tries : list (list Z)) : option (list Z) :=
  match tries with [] => None | h :: t => match h_of g sid h with None => Some h | Some _ => first_free g sid t end end.
Definition size_of (c : list Z) : estat := {| es_name := []; es_has := true; es_id := 0; es_size := zlen c; es_flags := 0; es_mtime := 0 |}.
(* flags and times of files are not specified *)
Definition no_attr (e : estat) : estat := {| es_name := es_name e; es_has := es_has e; es_id := es_id e; es_size := es_size e; es_flags := 0; es_mtime := 0 |}.
Definition erase (r : reply) : reply :=
  (fst r, match snd r with
          | Some (MstatR e) => Some (MstatR (no_attr e))
          | Some (MopenR h c (Some e)) => Some (MopenR h c (Some (no_attr e)))
          | m => m
          end).
(* the bytes of a file after d is written at an offset: the old ones, zeros up to the offset, and d over them *)
Definition overlay (c : list Z) (off : nat) (d : list Z) : list Z :=
  map (fun i => if (off <=? i)%nat && (i <? off + length d)%nat then nth (i - off) d 0 else nth i c 0) (seq 0 (Nat.max (length c) (off + length d))).
Definition resized (c : list Z) (n : nat) : list Z := map (fun i => nth i c 0) (seq 0 n).
Section Spec.
Variable base : list Z.
Variable dirs : srv -> msg -> reply.
Variable sidb : Z -> list Z.
Definition spec_step (g : spec) (sid : Z) (tries : list (list Z)) (m : msg) : spec * reply :=
  match m with
  | Mlogin _ _ _ _ _ _ => (g, (0, Some (MloginR (sidb sid) [])))
  | Mprotocol _ _ => (g, (0, Some (MprotocolR 784 1 None)))
  | Mping => (g, done)
  | Mopen _ o p =>
      let q := pjoin base p in
      let new c :=
        let g1 := put_file g q (Some c) in
        match first_free g1 sid tries with
        | None => (g1, invalid)
        | Some h => (put_handle g1 sid h (Some (q, bit o 32, bit o 512)),
                     (0, Some (MopenR h (if bit o 1024 && negb (bit o 1) then Some {| fc_page := 0; fc_type := [0; 0; 0; 0] |} else None)
                                        (if bit o 1024 then Some (size_of c) else None))))
        end in
      match f_of g q with
      | Some c => if bit o 8 && negb (bit o 2) then (g, ioerror) else new (if bit o 2 then [] else c)
      | None => if bit o 8 || bit o 2 then new [] else (g, ioerror)
      end
  | Mclose h _ => match h_of g sid h with None => (g, invalid) | Some _ => (put_handle g sid h None, done) end
  | Mread h o n _ =>
      match h_of g sid h with
      | None => (g, invalid)
      | Some (q, _, _) =>
          (g, match f_of g q with
              | Some c => if o <? 0 then ioerror else (0, Some (MreadR (firstn (Z.to_nat n) (skipn (Z.to_nat o) c))))
              | None => ioerror
              end)
      end
  | Mwrite h o _ d =>
      match h_of g sid h with
      | None => (g, invalid)
      | Some (q, rw, app) =>
          if app || (o <? 0) then (g, ioerror)
          else match d with
               | [] => (g, done)
               | _ => if rw && (o + zlen d <? 2 ^ 63) then (put_file g q (option_map (fun c => overlay c (Z.to_nat o) d) (f_of g q)), done) else (g, ioerror)
               end
      end
  | Mstat o h p =>
      (g, if bit o 1 then invalid
          else match p with
               | [] => match h_of g sid h with
                       | None => invalid
                       | Some (q, _, _) => match f_of g q with Some c => (0, Some (MstatR (size_of c))) | None => ioerror end
                       end
               | _ => match f_of g (pjoin base p) with Some c => (0, Some (MstatR (size_of c))) | None => ioerror end
               end)
  | Msync h => (g, match h_of g sid h with None => invalid | Some _ => done end)
  | Mtruncate h n [] =>
      match h_of g sid h with
      | None => (g, invalid)
      | Some (q, rw, _) => if rw && (0 <=? n) then (put_file g q (option_map (fun c => resized c (Z.to_nat n)) (f_of g q)), done) else (g, ioerror)
      end
  | Mtruncate _ n p =>
      match f_of g (pjoin base p) with
      | None => (g, ioerror)
      | Some c => if 0 <=? n then (put_file g (pjoin base p) (Some (resized c (Z.to_nat n))), done) else (g, ioerror)
      end
  | Mmv a b =>
      match f_of g (pjoin base a) with
      | None => (g, ioerror)
      | Some c => (put_file (put_file g (pjoin base a) None) (pjoin base b) (Some c), done)
      end
  | Mrm p => match f_of g (pjoin base p) with None => (g, ioerror) | Some _ => (put_file g (pjoin base p) None, done) end
  | _ => (g, invalid)
  end.
Definition end_session (g : spec) (sid : Z) : spec := {| f_of := f_of g; h_of := fun t x => if sid =? t then None else h_of g t x |}.
Definition not_open (g : spec) (q : list Z) : Prop := forall sid h rw app, h_of g sid h <> Some (q, rw, app).
(* what the specification covers: reads of a length that is not negative, and removing or renaming no file that is open; the
   requests on directories are not covered *)
Definition covered (g : spec) (m : msg) : Prop :=
  match m with
  | Mread _ _ n _ => 0 <= n
  | Mrm p => not_open g (pjoin base p)
  | Mmv a b => not_open g (pjoin base a) /\ not_open g (pjoin base b)
  | Mdirlist _ _ | Mmkdir _ _ _ | Mrmdir _ => False
  | _ => True
  end.
Fixpoint spec_run (g : spec) (es : list event) : spec * list reply :=
  match es with
  | [] => (g, [])
  | Req sid tries m :: es' => let '(g1, r) := spec_step g sid tries m in let '(g2, rs) := spec_run g1 es' in (g2, r :: rs)
  | End sid :: es' => spec_run (end_session g sid) es'
  end.
Fixpoint all_covered (g : spec) (es : list event) : Prop :=
  match es with
  | [] => True
  | Req sid tries m :: es' => covered g m /\ all_covered (fst (spec_step g sid tries m)) es'
  | End sid :: es' => all_covered (end_session g sid) es'
  end.

(* ---- tables ---- *)
Lemma nget_ndel {A} (m : list (list Z * A)) k q : nget (ndel m k) q = if str_eqb k q then None else nget m q.
Proof.
  induction m as [|[j a] m IH]; cbn [ndel filter nget fst]; [now destruct (str_eqb k q)|]. fold (ndel m k). destruct (str_eqb_spec j k) as [->|N]; cbn [negb nget].
  - rewrite IH. destruct (str_eqb k q); reflexivity.
  - rewrite IH. destruct (str_eqb_spec j q) as [->|]; [|reflexivity]. destruct (str_eqb_spec k q); [congruence|reflexivity].
Qed.
Lemma sget_sdel {A} (m : list (Z * A)) k q : sget (sdel m k) q = if k =? q then None else sget m q.
Proof.
  induction m as [|[j a] m IH]; cbn [sdel filter sget fst]; [now destruct (k =? q)|]. fold (sdel m k). destruct (Z.eqb_spec j k) as [->|N]; cbn [negb sget].
  - rewrite IH. destruct (k =? q); reflexivity.
  - rewrite IH. destruct (Z.eqb_spec j q) as [->|]; [|reflexivity]. destruct (Z.eqb_spec k q); [congruence|reflexivity].
Qed.
Lemma handles_set s sid l t : handles (setHandles s sid l) t = if sid =? t then l else handles s t.
Proof.
  unfold handles, setHandles. cbn [o_sess sget]. destruct (Z.eqb_spec sid t) as [->|N]; [reflexivity|]. rewrite sget_sdel. destruct (Z.eqb_spec sid t); [congruence|reflexivity].
Qed.
Lemma nget_In {A} (m : list (list Z * A)) q a : nget m q = Some a -> In (q, a) m.
Proof. induction m as [|[j b] m IH]; cbn [nget]; [discriminate|]. destruct (str_eqb_spec j q) as [->|]; [intros E; injection E as ->; left; reflexivity|right; auto]. Qed.
Lemma In_nget {A} (m : list (list Z * A)) q a : NoDup (map fst m) -> In (q, a) m -> nget m q = Some a.
Proof.
  induction m as [|[j b] m IH]; intros N I; [destruct I|]. cbn [map fst] in N. inversion N as [|x y N1 N2]; subst. cbn [nget]. destruct I as [E|I].
  - injection E as -> ->. now rewrite str_eqb_refl.
  - destruct (str_eqb_spec j q) as [->|]; [|auto]. exfalso. apply N1. change q with (fst (q, a)). apply in_map. exact I.
Qed.
Lemma nget_None {A} (m : list (list Z * A)) q : nget m q = None -> ~ In q (map fst m).
Proof. induction m as [|[j b] m IH]; cbn [nget map fst In]; [tauto|]. destruct (str_eqb_spec j q) as [->|N]; [discriminate|]. intros E [H|H]; [congruence|now apply IH]. Qed.
Lemma NoDup_ndel {A} (m : list (list Z * A)) k : NoDup (map fst m) -> NoDup (map fst (ndel m k)).
Proof.
  induction m as [|[j b] m IH]; intros N; [constructor|]. cbn [map fst] in N. inversion N as [|x y N1 N2]; subst. cbn [ndel filter fst]. fold (ndel m k).
  destruct (str_eqb j k); cbn [negb map fst]; [auto|]. constructor; [|auto]. intros H. apply N1. apply in_map_iff in H. destruct H as ((x & y) & <- & I). apply filter_In in I. destruct I as (I & _).
  change (fst (x, y)) with (fst (x, y)). apply in_map. exact I.
Qed.
Lemma length_seti {A} (l : list A) i x : length (seti l i x) = length l.
Proof. revert i. induction l as [|a l IH]; intros [|i]; cbn [seti length]; auto. Qed.
Lemma nth_seti {A} (l : list A) i j x d : (i < length l)%nat -> nth j (seti l i x) d = if (i =? j)%nat then x else nth j l d.
Proof. revert i j. induction l as [|a l IH]; intros [|i] [|j] H; cbn [seti nth length] in *; try lia; auto. rewrite IH by lia. reflexivity. Qed.
Lemma nth_seti_other {A} (l : list A) i j x d : i <> j -> nth j (seti l i x) d = nth j l d.
Proof. revert i j. induction l as [|a l IH]; intros [|i] [|j] H; cbn [seti nth] in *; try lia; auto. Qed.

(* ---- the bytes of a file ---- *)
Lemma nth_map_seq (f : nat -> Z) n i : (i < n)%nat -> nth i (map f (seq 0 n)) 0 = f i.
Proof. intros H. rewrite (nth_indep _ 0 (f 0%nat)) by (rewrite map_length, seq_length; lia). rewrite map_nth, seq_nth by lia. reflexivity. Qed.
Lemma nth_skipn' (l : list Z) k i : nth i (skipn k l) 0 = nth (k + i) l 0.
Proof. revert l. induction k as [|k IH]; intros [|a l]; cbn [skipn Nat.add nth]; auto. destruct i; reflexivity. Qed.
Lemma nth_firstn' (l : list Z) k i : (i < k)%nat -> nth i (firstn k l) 0 = nth i l 0.
Proof. revert l i. induction k as [|k IH]; intros [|a l] [|i] H; cbn [firstn nth]; try lia; auto. apply IH. lia. Qed.
Lemma write_overlay c off d : 0 <= off -> write_at c off d = overlay c (Z.to_nat off) d.
Proof.
  intros _. unfold write_at, overlay. set (n := Z.to_nat off). apply (nth_ext _ _ 0 0).
  - rewrite map_length, seq_length, !app_length, firstn_length, repeat_length, skipn_length. lia.
  - intros i L. assert (L' : (i < Nat.max (length c) (n + length d))%nat) by (rewrite !app_length, firstn_length, repeat_length, skipn_length in L; lia).
    rewrite nth_map_seq by exact L'. destruct (Nat.leb_spec n i) as [H|H]; cbn [andb].
    + rewrite app_nth2 by (rewrite firstn_length; lia). rewrite app_nth2 by (rewrite firstn_length, repeat_length; lia). rewrite firstn_length, repeat_length.
      replace (i - Nat.min n (length c) - (n - length c))%nat with (i - n)%nat by lia. destruct (Nat.ltb_spec i (n + length d)).
      * rewrite app_nth1 by lia. reflexivity.
      * rewrite app_nth2 by lia. rewrite nth_skipn'. f_equal. lia.
    + destruct (Nat.lt_ge_cases i (length c)).
      * rewrite app_nth1 by (rewrite firstn_length; lia). apply nth_firstn'. lia.
      * rewrite app_nth2 by (rewrite firstn_length; lia). rewrite app_nth1 by (rewrite firstn_length, repeat_length; lia). rewrite nth_repeat. now rewrite nth_overflow.
Qed.
Lemma resize_resized c n : resize c n = resized c (Z.to_nat n).
Proof.
  unfold resize, resized. set (k := Z.to_nat n). apply (nth_ext _ _ 0 0).
  - rewrite map_length, seq_length, app_length, firstn_length, repeat_length. lia.
  - intros i L. rewrite app_length, firstn_length, repeat_length in L. rewrite nth_map_seq by lia. destruct (Nat.lt_ge_cases i (length c)).
    + rewrite app_nth1 by (rewrite firstn_length; lia). apply nth_firstn'. lia.
    + rewrite app_nth2 by (rewrite firstn_length; lia). rewrite nth_repeat. now rewrite nth_overflow.
Qed.

(* ---- the relation ---- *)
Record rel (s : srv) (g : spec) : Prop := {
  r_files : forall q, f_of g q = option_map (content s) (nget (o_names s) q);
  r_inj : forall q1 q2 i, nget (o_names s) q1 = Some i -> nget (o_names s) q2 = Some i -> q1 = q2;
  r_range : forall q i, nget (o_names s) q = Some i -> (i < length (o_inodes s))%nat;
  r_open : forall sid h, match nget (handles s sid) h with
    | None => h_of g sid h = None
    | Some j => exists q, h_of g sid h = Some (q, fd_rw (fd_of s j), fd_app (fd_of s j)) /\ nget (o_names s) q = Some (fd_ino (fd_of s j)) /\
                  fd_open (fd_of s j) = true /\ (j < length (o_fds s))%nat
    end;
  r_sep : forall sid h sid' h' j, nget (handles s sid) h = Some j -> nget (handles s sid') h' = Some j -> sid = sid' /\ h = h';
  r_nodup : forall sid, NoDup (map fst (handles s sid)) }.
Lemma rel_ino s g q i c : rel s g -> nget (o_names s) q = Some i -> rel (setIno s i c) (put_file g q (Some c)).
Proof.
  intros [F I R O P N] G. constructor; cbn [o_names setIno o_inodes f_of put_file h_of]; auto.
  - intros x. destruct (str_eqb_spec q x) as [<-|Nx].
    + rewrite G. cbn [option_map]. unfold content. cbn [setIno o_inodes]. rewrite nth_seti by eauto. now rewrite Nat.eqb_refl.
    + rewrite F. destruct (nget (o_names s) x) as [j|] eqn:E; [|reflexivity]. cbn [option_map]. f_equal. unfold content. cbn [setIno o_inodes].
      rewrite nth_seti_other; [reflexivity|]. intros ->. apply Nx. eapply I; eauto.
  - intros x j E. rewrite length_seti. eauto.
Qed.
Lemma rel_fd s g f : rel s g ->
  rel {| o_names := o_names s; o_inodes := o_inodes s; o_fds := o_fds s ++ [f]; o_sess := o_sess s |} g.
Proof.
  intros [F I R O P N]. constructor; cbn [o_names o_inodes]; auto.
  intros sid h. specialize (O sid h). unfold handles in *. cbn [o_sess]. destruct (nget _ h) as [j|]; [|exact O]. destruct O as (q & A & B & C & D).
  exists q. unfold fd_of in *. cbn [o_fds]. rewrite app_nth1, app_length by exact D. repeat split; auto. lia.
Qed.
Lemma rel_create s g q : rel s g -> nget (o_names s) q = None ->
  rel {| o_names := (q, length (o_inodes s)) :: o_names s; o_inodes := o_inodes s ++ [[]]; o_fds := o_fds s; o_sess := o_sess s |} (put_file g q (Some [])).
Proof.
  intros [F I R O P N] G. assert (C : forall i, (i < length (o_inodes s))%nat -> nth i (o_inodes s ++ [[]]) [] = content s i) by (intros i L; unfold content; now rewrite app_nth1).
  constructor; cbn [o_names o_inodes f_of put_file h_of nget]; auto.
  - intros x. destruct (str_eqb_spec q x) as [<-|Nx].
    + cbn [option_map]. unfold content. cbn [o_inodes]. now rewrite nth_middle.
    + rewrite F. destruct (nget (o_names s) x) as [j|] eqn:E; [|reflexivity]. cbn [option_map]. unfold content at 2. cbn [o_inodes]. rewrite C by eauto. reflexivity.
  - intros q1 q2 i. destruct (str_eqb_spec q q1) as [<-|N1], (str_eqb_spec q q2) as [<-|N2]; intros E1 E2; auto; try (injection E1 as <-; apply R in E2; lia); try (injection E2 as <-; apply R in E1; lia). eauto.
  - intros x i. rewrite app_length. cbn [length]. destruct (str_eqb_spec q x); intros E; [injection E as <-; lia|]. apply R in E. lia.
  - intros sid h. specialize (O sid h). unfold handles in *. cbn [o_sess]. destruct (nget _ h) as [j|]; [|exact O]. destruct O as (x & A & B & D & E).
    exists x. repeat split; auto. destruct (str_eqb_spec q x) as [<-|]; [congruence|auto].
Qed.
Lemma rel_handles s g sid : rel s g -> rel (setHandles s sid (handles s sid)) g.
Proof.
  intros [F I R O P N]. assert (H : forall t, handles (setHandles s sid (handles s sid)) t = handles s t) by (intros t; rewrite handles_set; destruct (Z.eqb_spec sid t) as [->|]; reflexivity).
  constructor; auto; intros *; rewrite ?H; auto; [apply O|apply P].
Qed.
Lemma rel_insert s g sid h j q : rel s g -> nget (handles s sid) h = None -> (j < length (o_fds s))%nat -> (forall t x, nget (handles s t) x <> Some j) ->
  nget (o_names s) q = Some (fd_ino (fd_of s j)) -> fd_open (fd_of s j) = true ->
  rel (setHandles s sid ((h, j) :: handles s sid)) (put_handle g sid h (Some (q, fd_rw (fd_of s j), fd_app (fd_of s j)))).
Proof.
  intros [F I R O P N] Hf Lj Fr Q Op.
  assert (G : forall t x, nget (handles (setHandles s sid ((h, j) :: handles s sid)) t) x = if (sid =? t) && str_eqb h x then Some j else nget (handles s t) x).
  { intros t x. rewrite handles_set. destruct (Z.eqb_spec sid t) as [->|]; cbn [andb nget]; reflexivity. }
  constructor; auto.
  - intros t x. rewrite G. cbn [put_handle h_of]. destruct ((sid =? t) && str_eqb h x); [|apply O]. exists q. auto.
  - intros t x t' x' k. rewrite !G. destruct (Z.eqb_spec sid t) as [<-|Nt], (Z.eqb_spec sid t') as [<-|Nt'], (str_eqb_spec h x) as [<-|Nx], (str_eqb_spec h x') as [<-|Nx']; cbn [andb]; intros E1 E2; auto;
      try (exfalso; congruence); try (exfalso; injection E1 as <-; eapply Fr; eassumption); try (exfalso; injection E2 as <-; eapply Fr; eassumption); eapply P; eassumption.
  - intros t. rewrite handles_set. destruct (sid =? t); [|apply N]. cbn [map fst]. constructor; [now apply nget_None|apply N].
Qed.
Lemma fd_close s j k : (j < length (o_fds s))%nat -> k <> j -> fd_of (closeFd s j) k = fd_of s k.
Proof. intros L N. unfold fd_of, closeFd. cbn [o_fds]. now rewrite nth_seti_other by auto. Qed.
Lemma rel_close s g sid h j : rel s g -> nget (handles s sid) h = Some j ->
  rel (closeFd (setHandles s sid (ndel (handles s sid) h)) j) (put_handle g sid h None).
Proof.
  intros [F I R O P N] Hj. pose proof (O sid h) as Oh. rewrite Hj in Oh. destruct Oh as (q & _ & _ & _ & Lj).
  assert (G : forall t x, nget (handles (closeFd (setHandles s sid (ndel (handles s sid) h)) j) t) x = if (sid =? t) && str_eqb h x then None else nget (handles s t) x).
  { intros t x. change (handles (closeFd (setHandles s sid (ndel (handles s sid) h)) j) t) with (handles (setHandles s sid (ndel (handles s sid) h)) t). rewrite handles_set.
    destruct (Z.eqb_spec sid t) as [->|]; cbn [andb]; [|reflexivity]. apply nget_ndel. }
  constructor; auto.
  - intros t x. rewrite G. cbn [put_handle h_of]. destruct ((sid =? t) && str_eqb h x) eqn:E; [reflexivity|]. specialize (O t x). destruct (nget (handles s t) x) as [k|] eqn:K; [|exact O].
    assert (k <> j). { intros ->. destruct (P _ _ _ _ _ K Hj) as (-> & ->). rewrite Z.eqb_refl, str_eqb_refl in E. discriminate. }
    destruct O as (y & A & B & C & D). exists y. rewrite fd_close by auto. unfold fd_of in *. cbn [setHandles o_fds o_names closeFd]. rewrite length_seti. auto.
  - intros t x t' x' k. rewrite !G. destruct (_ && _); [discriminate|]. destruct (_ && _); [discriminate|]. apply P.
  - intros t. change (handles (closeFd (setHandles s sid (ndel (handles s sid) h)) j) t) with (handles (setHandles s sid (ndel (handles s sid) h)) t). rewrite handles_set.
    destruct (sid =? t); [apply NoDup_ndel|]; apply N.
Qed.
Lemma close_all l : forall s, let s' := fold_left (fun s x => closeFd s (@snd (list Z) nat x)) l s in
  o_names s' = o_names s /\ o_inodes s' = o_inodes s /\ o_sess s' = o_sess s /\ length (o_fds s') = length (o_fds s) /\
  (forall k, ~ In k (map snd l) -> fd_of s' k = fd_of s k).
Proof.
  induction l as [|[h j] l IH]; intros s s'; [auto|]. unfold s'. cbn [fold_left snd]. destruct (IH (closeFd s j)) as (A & B & C & D & E). rewrite A, B, C, D.
  repeat split; auto; [cbn [closeFd o_fds]; apply length_seti|]. intros k N. cbn [map snd In] in N. rewrite E by tauto. unfold fd_of, closeFd. cbn [o_fds]. rewrite nth_seti_other; auto.
Qed.
Lemma rel_end s g sid : rel s g -> rel (closeSession s sid) (end_session g sid).
Proof.
  intros [F I R O P N]. unfold closeSession. destruct (close_all (handles s sid) s) as (A & B & C & D & E). cbv zeta.
  set (s' := fold_left _ (handles s sid) s) in *.
  assert (H : forall t, handles {| o_names := o_names s'; o_inodes := o_inodes s'; o_fds := o_fds s'; o_sess := sdel (o_sess s') sid |} t = if sid =? t then [] else handles s t).
  { intros t. unfold handles. cbn [o_sess]. rewrite sget_sdel, C. destruct (sid =? t); reflexivity. }
  constructor; cbn [o_names o_inodes o_fds end_session f_of h_of].
  - intros q. rewrite F, A. unfold content. cbn [o_inodes]. now rewrite B.
  - rewrite A. exact I.
  - rewrite A, B. exact R.
  - intros t x. rewrite H. destruct (Z.eqb_spec sid t) as [|Nt]; [reflexivity|]. specialize (O t x). destruct (nget (handles s t) x) as [k|] eqn:K; [|exact O].
    destruct O as (q & O1 & O2 & O3 & O4). assert (X : fd_of {| o_names := o_names s'; o_inodes := o_inodes s'; o_fds := o_fds s'; o_sess := sdel (o_sess s') sid |} k = fd_of s k).
    { rewrite <- E; [reflexivity|]. intros J. apply in_map_iff in J. destruct J as ((y & k') & E' & J). cbn [snd] in E'. subst k'. apply In_nget in J; [|apply N]. destruct (P _ _ _ _ _ J K). congruence. }
    exists q. rewrite X, A, D. auto.
  - intros t x t' x' k. rewrite !H. destruct (sid =? t); [discriminate|]. destruct (sid =? t'); [discriminate|]. apply P.
  - intros t. rewrite H. destruct (sid =? t); [constructor|apply N].
Qed.
Lemma pick_free s g sid tries : rel s g -> first_free g sid tries = pick tries (handles s sid) /\
  forall h, pick tries (handles s sid) = Some h -> nget (handles s sid) h = None.
Proof.
  intros Rl. induction tries as [|h t IH]; cbn [first_free pick]; [split; [auto|discriminate]|]. pose proof (r_open _ _ Rl sid h) as O.
  destruct (nget (handles s sid) h) as [j|] eqn:E.
  - destruct O as (q & -> & _). exact IH.
  - rewrite O. split; auto. intros x Ex. injection Ex as <-. exact E.
Qed.

Variable attr : nat -> Z * Z.
Lemma fresh_fd s g f : rel s g -> forall t x, nget (handles s t) x <> Some (length (o_fds s)) /\
  fd_of {| o_names := o_names s; o_inodes := o_inodes s; o_fds := o_fds s ++ [f]; o_sess := o_sess s |} (length (o_fds s)) = f.
Proof.
  intros R t x. split; [|unfold fd_of; cbn [o_fds]; now rewrite nth_middle]. intros E. pose proof (r_open _ _ R t x) as O. rewrite E in O. destruct O as (q & _ & _ & _ & L). lia.
Qed.
(* the second half of Open: the handle *)
Lemma open_tail s g q i o sid tries f c : rel s g -> nget (o_names s) q = Some i -> content s i = c ->
  f = {| fd_ino := i; fd_rw := bit o 32; fd_app := bit o 512; fd_open := true |} ->
  let s1 := {| o_names := o_names s; o_inodes := o_inodes s; o_fds := o_fds s ++ [f]; o_sess := o_sess s |} in
  let used := handles s1 sid in
  let s2 := setHandles s1 sid used in
  let j := length (o_fds s) in
  let R := match pick tries used with
      | None => (s2, invalid)
      | Some h =>
          let st := if bit o 1024 then Some (entryStat attr s2 (fd_ino (fd_of s2 j))) else None in
          let comp := if bit o 1024 && negb (bit o 1) then Some {| fc_page := 0; fc_type := [0; 0; 0; 0] |} else None in
          (setHandles s2 sid ((h, j) :: used), (0, Some (MopenR h comp st)))
      end in
  let G := match first_free g sid tries with
        | None => (g, invalid)
        | Some h => (put_handle g sid h (Some (q, bit o 32, bit o 512)),
                     (0, Some (MopenR h (if bit o 1024 && negb (bit o 1) then Some {| fc_page := 0; fc_type := [0; 0; 0; 0] |} else None)
                                        (if bit o 1024 then Some (size_of c) else None))))
        end in
  rel (fst R) (fst G) /\ erase (snd R) = snd G.
Proof.
  intros Rl Q Ci -> s1 used s2 j. pose proof (rel_fd s g {| fd_ino := i; fd_rw := bit o 32; fd_app := bit o 512; fd_open := true |} Rl) as R1. fold s1 in R1.
  pose proof (rel_handles s1 g sid R1) as R2. fold used in R2. fold s2 in R2. destruct (pick_free s2 g sid tries R2) as (P1 & P2).
  assert (U : handles s2 sid = used) by (unfold s2; rewrite handles_set, Z.eqb_refl; reflexivity). rewrite U in P1, P2. rewrite P1.
  assert (Fj : fd_of s2 j = {| fd_ino := i; fd_rw := bit o 32; fd_app := bit o 512; fd_open := true |}) by (apply (fresh_fd s g _ Rl 0 [])).
  destruct (pick tries used) as [h|] eqn:E; cbv zeta; cbn [fst snd].
  - split.
    + rewrite <- U. replace (bit o 32) with (fd_rw (fd_of s2 j)) by (rewrite Fj; reflexivity). replace (bit o 512) with (fd_app (fd_of s2 j)) by (rewrite Fj; reflexivity).
      apply rel_insert; auto; try (rewrite Fj; auto).
      * rewrite U. auto.
      * unfold s2, s1, j. cbn [o_fds setHandles]. rewrite app_length. cbn [length]. lia.
      * intros t x. unfold s2. rewrite handles_set. destruct (Z.eqb_spec sid t) as [<-|]; unfold used; apply (fresh_fd s g {| fd_ino := i; fd_rw := bit o 32; fd_app := bit o 512; fd_open := true |} Rl).
    + unfold erase. cbn [fst snd]. destruct (bit o 1024); [|reflexivity]. cbn [andb]. repeat f_equal. unfold entryStat, no_attr, size_of. cbn [es_name es_has es_id es_size].
      rewrite Fj. cbn [fd_ino]. unfold content in *. cbn [s2 s1 setHandles o_inodes]. now rewrite Ci.
  - auto.
Qed.
(* One request, in related states. *)
Lemma step_ok s g sid tries m : rel s g -> covered g m ->
  exists s' r, handle base attr dirs (sidb sid) s sid tries m = Ok (s', r) /\ rel s' (fst (spec_step g sid tries m)) /\ erase r = snd (spec_step g sid tries m).
Proof.
  intros R Cv.
  assert (H0 : forall h, match getFile s sid h with
    | None => h_of g sid h = None
    | Some j => exists q, h_of g sid h = Some (q, fd_rw (fd_of s j), fd_app (fd_of s j)) /\ nget (o_names s) q = Some (fd_ino (fd_of s j)) /\
                  fd_open (fd_of s j) = true /\ (j < length (o_fds s))%nat /\ f_of g q = Some (content s (fd_ino (fd_of s j)))
    end).
  { intros h. unfold getFile. pose proof (r_open _ _ R sid h) as O. destruct (nget (handles s sid) h) as [j|]; [|exact O]. destruct O as (q & A & B & C & D).
    exists q. repeat split; auto. rewrite (r_files _ _ R), B. reflexivity. }
  destruct m; try (eexists _, _; split; [reflexivity|]; cbn [spec_step fst snd]; split; [exact R|reflexivity]); cbn [covered] in Cv; try contradiction; cbn [XrdSrvModel.handle spec_step].
  - (* sync *) unfold doSync. specialize (H0 handle). destruct (getFile s sid handle) as [j|]; [|rewrite H0; (eexists _, _; split; [reflexivity|split; [exact R|reflexivity]])].
    destruct H0 as (q & -> & B & C & D & _). rewrite C. eexists _, _. split; [reflexivity|split; [exact R|reflexivity]].
  - (* close *) unfold doClose. pose proof (H0 handle) as H1. destruct (getFile s sid handle) as [j|] eqn:E; [|rewrite H1; (eexists _, _; split; [reflexivity|split; [exact R|reflexivity]])].
    destruct H1 as (q & -> & B & C & D & _). rewrite C. eexists _, _. split; [reflexivity|]. cbn [fst snd]. split; [|reflexivity]. apply rel_close; auto.
  - (* rm *) unfold doRemove. rewrite (r_files _ _ R). destruct (nget (o_names s) (pjoin base path)) as [i|] eqn:E; [|(eexists _, _; split; [reflexivity|split; [exact R|reflexivity]])].
    eexists _, _. split; [reflexivity|]. cbn [fst snd option_map]. split; [|reflexivity]. destruct R as [F I Rg O P N]. set (q := pjoin base path) in *.
    constructor; cbn [o_names o_inodes put_file f_of h_of]; auto.
    + intros x. rewrite nget_ndel. destruct (str_eqb q x); [reflexivity|]. apply F.
    + intros q1 q2 k. rewrite !nget_ndel. destruct (str_eqb q q1); [discriminate|]. destruct (str_eqb q q2); [discriminate|]. apply I.
    + intros x k. rewrite nget_ndel. destruct (str_eqb q x); [discriminate|]. apply Rg.
    + intros t x. specialize (O t x). unfold handles in *. cbn [o_sess]. destruct (nget _ x) as [j|]; [|exact O]. destruct O as (y & A & B & C & D). exists y. rewrite nget_ndel.
      destruct (str_eqb_spec q y) as [<-|]; [exfalso; eapply Cv; exact A|]. auto.
  - (* truncate *) destruct path as [|c path].
    + cbn [doTruncate]. specialize (H0 handle). destruct (getFile s sid handle) as [j|]; [|rewrite H0; (eexists _, _; split; [reflexivity|split; [exact R|reflexivity]])].
      destruct H0 as (q & -> & B & C & D & E). rewrite C, andb_true_r. unfold os_truncate. destruct (fd_rw (fd_of s j) && (0 <=? size)) eqn:X; [|(eexists _, _; split; [reflexivity|split; [exact R|reflexivity]])].
      eexists _, _. split; [reflexivity|]. cbn [fst snd]. split; [|reflexivity]. rewrite E. cbn [option_map]. rewrite resize_resized. apply rel_ino; auto.
    + unfold doTruncate. rewrite (r_files _ _ R). destruct (nget (o_names s) (pjoin base (c :: path))) as [i|] eqn:E; [|(eexists _, _; split; [reflexivity|split; [exact R|reflexivity]])]. cbn [option_map].
      unfold os_truncate. cbn [andb]. destruct (0 <=? size); [|(eexists _, _; split; [reflexivity|split; [exact R|reflexivity]])].
      eexists _, _. split; [reflexivity|]. cbn [fst snd]. split; [|reflexivity]. rewrite resize_resized. apply rel_ino; auto.
  - (* mv *) unfold doRename. rewrite (r_files _ _ R). destruct (nget (o_names s) (pjoin base old)) as [i|] eqn:E; [|(eexists _, _; split; [reflexivity|split; [exact R|reflexivity]])].
    eexists _, _. split; [reflexivity|]. cbn [fst snd option_map]. split; [|reflexivity]. destruct Cv as (Ca & Cb). destruct R as [F I Rg O P N]. set (a := pjoin base old) in *. set (b := pjoin base new) in *.
    assert (G : forall x, nget ((b, i) :: ndel (ndel (o_names s) a) b) x = if str_eqb b x then Some i else if str_eqb a x then None else nget (o_names s) x).
    { intros x. cbn [nget]. destruct (str_eqb b x) eqn:X; [reflexivity|]. rewrite !nget_ndel, X. reflexivity. }
    constructor; cbn [o_names o_inodes put_file f_of h_of]; auto.
    + intros x. rewrite G. destruct (str_eqb b x); [reflexivity|]. destruct (str_eqb a x); [reflexivity|]. apply F.
    + intros q1 q2 k. rewrite !G. destruct (str_eqb_spec b q1) as [<-|N1], (str_eqb_spec b q2) as [<-|N2]; auto; intros E1 E2.
      * injection E1 as <-. destruct (str_eqb_spec a q2); [discriminate|]. exfalso. apply n. eapply I; eauto.
      * injection E2 as <-. destruct (str_eqb_spec a q1); [discriminate|]. exfalso. apply n. eapply I; eauto.
      * destruct (str_eqb a q1); [discriminate|]. destruct (str_eqb a q2); [discriminate|]. eapply I; eauto.
    + intros x k. rewrite G. destruct (str_eqb b x); [intros Ek; injection Ek as <-; eapply Rg; eauto|]. destruct (str_eqb a x); [discriminate|]. apply Rg.
    + intros t x. specialize (O t x). unfold handles in *. cbn [o_sess]. destruct (nget _ x) as [j|]; [|exact O]. destruct O as (y & A & B & C & D). exists y. rewrite G.
      destruct (str_eqb_spec b y) as [<-|]; [exfalso; eapply Cb; exact A|]. destruct (str_eqb_spec a y) as [<-|]; [exfalso; eapply Ca; exact A|]. auto.
  - (* write *) unfold doWrite. specialize (H0 handle). destruct (getFile s sid handle) as [j|]; [|rewrite H0; (eexists _, _; split; [reflexivity|split; [exact R|reflexivity]])].
    destruct H0 as (q & -> & B & C & D & E). unfold os_write. destruct (fd_app (fd_of s j) || (off <? 0)) eqn:X; [(eexists _, _; split; [reflexivity|split; [exact R|reflexivity]])|].
    destruct data as [|d data]; [(eexists _, _; split; [reflexivity|split; [exact R|reflexivity]])|]. rewrite C, andb_true_r. destruct (fd_rw (fd_of s j) && (off + zlen (d :: data) <? 2 ^ 63)); [|(eexists _, _; split; [reflexivity|split; [exact R|reflexivity]])].
    eexists _, _. split; [reflexivity|]. cbn [fst snd]. split; [|reflexivity]. rewrite E. cbn [option_map]. rewrite <- write_overlay by (apply orb_false_iff in X; lia). apply rel_ino; auto.
  - (* stat *) unfold doStat. destruct (bit options 1); [(eexists _, _; split; [reflexivity|split; [exact R|reflexivity]])|]. destruct path as [|c path].
    + specialize (H0 handle). destruct (getFile s sid handle) as [j|]; [|rewrite H0; (eexists _, _; split; [reflexivity|split; [exact R|reflexivity]])].
      destruct H0 as (q & -> & B & C & D & E). rewrite C, E. eexists _, _. split; [reflexivity|split; [exact R|reflexivity]].
    + rewrite (r_files _ _ R). destruct (nget (o_names s) (pjoin base (c :: path))) as [i|] eqn:E; (eexists _, _; split; [reflexivity|split; [exact R|reflexivity]]).
  - (* open *) unfold doOpen, os_open. set (q := pjoin base path). rewrite (r_files _ _ R). destruct (nget (o_names s) q) as [i|] eqn:E; cbn [option_map].
    + destruct (bit options 8 && negb (bit options 2)); [(eexists _, _; split; [reflexivity|split; [exact R|reflexivity]])|].
      set (c := if bit options 2 then [] else content s i).
      assert (X : exists s0, rel s0 (put_file g q (Some c)) /\ o_names s0 = o_names s /\ o_inodes s0 = (if bit options 2 then seti (o_inodes s) i [] else o_inodes s) /\ o_fds s0 = o_fds s /\ o_sess s0 = o_sess s /\ content s0 i = c).
      { unfold c. destruct (bit options 2).
        - exists (setIno s i []). split; [apply rel_ino; auto|]. repeat split. unfold content. cbn [setIno o_inodes]. rewrite nth_seti by (eapply r_range; eauto). now rewrite Nat.eqb_refl.
        - exists s. split; [|repeat split]. destruct R as [F I Rg O P N]. constructor; auto. intros x. cbn [put_file f_of]. destruct (str_eqb_spec q x) as [<-|]; [rewrite E; reflexivity|apply F]. }
      destruct X as (s0 & R0 & N0 & I0 & F0 & S0 & C0). rewrite <- N0, <- F0, <- S0, <- I0.
      rewrite <- N0 in E. pose proof (open_tail s0 (put_file g q (Some c)) q i options sid tries _ c R0 E C0 eq_refl) as (T1 & T2).
      eexists _, _. split; [rewrite <- surjective_pairing; reflexivity|]. split; [exact T1|exact T2].
    + destruct (bit options 8 || bit options 2); [|(eexists _, _; split; [reflexivity|split; [exact R|reflexivity]])].
      pose proof (rel_create s g q R E) as R0. set (s0 := {| o_names := (q, length (o_inodes s)) :: o_names s; o_inodes := o_inodes s ++ [[]]; o_fds := o_fds s; o_sess := o_sess s |}) in *.
      assert (E0 : nget (o_names s0) q = Some (length (o_inodes s))) by (cbn; now rewrite str_eqb_refl).
      assert (C0 : content s0 (length (o_inodes s)) = []) by (unfold content; cbn [s0 o_inodes]; now rewrite nth_middle).
      pose proof (open_tail s0 (put_file g q (Some [])) q (length (o_inodes s)) options sid tries _ [] R0 E0 C0 eq_refl) as (T1 & T2).
      eexists _, _. split; [rewrite <- surjective_pairing; reflexivity|]. split; [exact T1|exact T2].
  - (* read *) unfold doRead. specialize (H0 handle). destruct (getFile s sid handle) as [j|]; [|rewrite H0; (eexists _, _; split; [reflexivity|split; [exact R|reflexivity]])].
    destruct H0 as (q & -> & B & C & D & E). unfold srv_read. rewrite C, E. replace (len <? 0) with false by lia. destruct (off <? 0); (eexists _, _; split; [reflexivity|split; [exact R|reflexivity]]).
Qed.
(* Any number of clients and requests, in any order: every response is the one of the specification. *)
Theorem C56_history : forall es s g, rel s g -> all_covered g es ->
  exists s' rs, run base attr dirs sidb s es = Ok (s', rs) /\ rel s' (fst (spec_run g es)) /\ map erase rs = snd (spec_run g es).
Proof.
  induction es as [|[sid tries m|sid] es IH]; intros s g R Cv; cbn [run spec_run all_covered] in *.
  - exists s, []. auto.
  - destruct Cv as (C1 & C2). destruct (step_ok s g sid tries m R C1) as (s1 & r & E & R1 & Er). rewrite E. cbn [rbind].
    destruct (spec_step g sid tries m) as [g1 r1] eqn:Es. cbn [fst snd] in *. destruct (IH s1 g1 R1 C2) as (s2 & rs & E2 & R2 & Er2). rewrite E2. cbn [rbind fst snd].
    destruct (spec_run g1 es) as [g2 rs2]. cbn [fst snd] in *. exists s2, (r :: rs). cbn [map]. rewrite Er, Er2. auto.
  - apply IH; auto. apply rel_end, R.
Qed.
(* from a server that was just started over any files *)
Definition fresh (s : srv) : Prop := o_fds s = [] /\ o_sess s = [] /\ NoDup (map snd (o_names s)) /\ Forall (fun n => (snd n < length (o_inodes s))%nat) (o_names s).
Definition spec_of (s : srv) : spec := {| f_of := fun q => option_map (content s) (nget (o_names s) q); h_of := fun _ _ => None |}.
Theorem C56_server : forall s es, fresh s -> all_covered (spec_of s) es ->
  exists s' rs, run base attr dirs sidb s es = Ok (s', rs) /\ map erase rs = snd (spec_run (spec_of s) es) /\
    (forall q, option_map (content s') (nget (o_names s') q) = f_of (fst (spec_run (spec_of s) es)) q).
Proof.
  intros s es (F1 & F2 & F3 & F4) Cv. assert (R : rel s (spec_of s)).
  { constructor; cbn [spec_of f_of h_of]; auto.
    - intros q1 q2 i E1 E2. apply nget_In in E1, E2. clear -F3 E1 E2. induction (o_names s) as [|[a b] l IH]; [destruct E1|]. cbn [map snd] in F3. inversion F3 as [|x y A B]; subst.
      destruct E1 as [E1|E1], E2 as [E2|E2]; try congruence; auto.
      + injection E1 as -> ->. exfalso. apply A. change i with (snd (q2, i)). apply in_map. exact E2.
      + injection E2 as -> ->. exfalso. apply A. change i with (snd (q1, i)). apply in_map. exact E1.
    - intros q i E. apply nget_In in E. rewrite Forall_forall in F4. apply (F4 _ E).
    - intros sid h. unfold handles. rewrite F2. reflexivity.
    - intros sid h sid' h' j. unfold handles. rewrite F2. discriminate.
    - intros sid. unfold handles. rewrite F2. constructor. }
  destruct (C56_history es s (spec_of s) R Cv) as (s' & rs & A & B & C). exists s', rs. repeat split; auto. intros q. symmetry. apply (r_files _ _ B).
Qed.
End Spec.
(* Two sessions on one file: what one writes the other reads, handles are the session's own, ending a session ends its handles only. *)
Definition two_srv : srv := {| o_names := [([47; 100; 47; 98], 0%nat)]; o_inodes := [[1; 2; 3]]; o_fds := []; o_sess := [] |}.
Definition two_sessions : list event :=
  let h := [9; 9; 9; 9] in
  [Req 1 [] (Mmv [98] [97]); Req 1 [h] (Mopen 0 32 [97]); Req 2 [h] (Mopen 0 16 [97]); Req 1 [] (Mwrite h 2 0 [7; 8]); Req 2 [] (Mread h 0 10 None); Req 2 [] (Mwrite h 0 0 [5]);
   End 1; Req 1 [] (Mread h 0 10 None); Req 2 [] (Mread h 1 2 None); Req 2 [] (Mclose h 0); Req 2 [] (Mstat 0 h [97])].
Example C56_server_example : fresh two_srv /\ all_covered [47; 100] (fun _ => []) (spec_of two_srv) two_sessions /\
  snd (spec_run [47; 100] (fun _ => []) (spec_of two_srv) two_sessions) =
    [done; (0, Some (MopenR [9; 9; 9; 9] None None)); (0, Some (MopenR [9; 9; 9; 9] None None)); done; (0, Some (MreadR [1; 2; 7; 8])); ioerror;
     invalid; (0, Some (MreadR [2; 7])); done; (0, Some (MstatR (size_of [1; 2; 7; 8])))] /\
  f_of (fst (spec_run [47; 100] (fun _ => []) (spec_of two_srv) two_sessions)) [47; 100; 47; 98] = None.
Proof.
  split; [unfold fresh, two_srv; cbn; repeat split; auto; repeat constructor; auto|]. split; [|split; vm_compute; reflexivity].
  unfold two_sessions. cbn [all_covered covered]. split; [split; intros sid h rw app; discriminate|]. repeat (split; [lia || exact I|]). exact I.
Qed.
Print Assumptions C56_history.
Print Assumptions C56_server.
