(** Specification and proofs for declarative memory (C16, C18 and lemmas for C13 to C22). *)
From Verif Require Import BaseFacts Chunks ChunkSpec ChunkFacts ChunkMatch DecMem.
Local Open Scope string_scope.
Arguments hval_eqb : simpl never.
Arguments hash_value : simpl nomatch.
Arguments val_eqb : simpl nomatch.

(** ** Specification *)

(** Two chunks are the same entry of memory: they are ==. *)
Definition same_entry (c d : chunk) : Prop := chunk_eqb nobind c d = true.

(** No two entries of memory are equal. *)
Fixpoint distinct (l : list chunk) : Prop :=
  match l with
  | [] => True
  | c :: l' => Forall (fun d => ~ same_entry c d) l' /\ distinct l'
  end.
Definition dm_ok (m : decmem) : Prop := distinct (map fst (dmdata m)).

(** Presentation times of a chunk; none if it is not in memory. *)
Definition times (m : decmem) (c : chunk) : list Q :=
  match dm_times m c with Some ts => ts | None => [] end.
Definition in_memory (m : decmem) (c : chunk) : Prop :=
  exists d ts, In (d, ts) (dmdata m) /\ same_entry d c.

(** All slots of memory with content (anything but None, the empty string and a chunk without
    slots), as pairs of slot name and value. *)
Definition content (v : value) : bool :=
  match v with
  | VNone | VStr "" | VChunk (MkChunk _ []) => false
  | _ => true
  end.
Definition written (c : chunk) : list (string * value) :=
  flat_map (fun p => match snd p with
                     | Some w => if content (vvals w) then [(fst p, vvals w)] else []
                     | None => []
                     end) (cslots c).
Definition all_slots (m : decmem) : list (string * value) := flat_map (fun p => written (fst p)) (dmdata m).

(** The number of slots of memory holding [v] (anywhere / in slot [s]). *)
Definition fan (m : decmem) (v : value) : nat :=
  List.length (filter (fun p => val_eqb v (snd p)) (all_slots m)).
Definition fan_in (m : decmem) (s : string) (v : value) : nat :=
  List.length (filter (fun p => String.eqb (fst p) s && val_eqb v (snd p)) (all_slots m)).

(** A value that can be a source: a string or a chunk. *)
Inductive source : value -> Prop :=
| source_str s : source (VStr s)
| source_chunk c : source (VChunk c).

(** No slot was given the EmptyValue object inside a VarvalClass. *)
Definition no_empty_object (c : chunk) : Prop :=
  forall n w, In (n, Some w) (cslots c) -> vvals w <> VEmpty.

(** Histories of a memory. *)
Inductive mem_op :=
| MAdd (c : chunk) (t : Q)
| MAddAll (cs : list chunk) (t : Q)
| MAddTimes (c : chunk) (ts : list Q)
| MSet (c : chunk) (ts : list Q)
| MStrength (j : value) (i : chunk) (restricted : option string) (only_chunks : bool)
| MCopy.

Definition mem_step (m : decmem) (o : mem_op) : decmem :=
  match o with
  | MAdd c t => dm_add m c t
  | MAddAll cs t => dm_add_all m cs t
  | MAddTimes c ts => dm_add_times m c ts
  | MSet c ts => dm_setitem m c ts
  | MStrength j i r oc => fst (strength m j i r oc)
  | MCopy => dm_copy m
  end.
Definition mem_run (ops : list mem_op) : decmem := fold_left mem_step ops dm_empty.

Definition op_ok (o : mem_op) : Prop :=
  match o with
  | MAdd c _ | MAddTimes c _ | MSet c _ => no_empty_object c
  | MAddAll cs _ => Forall no_empty_object cs
  | MStrength j _ _ _ => source j
  | MCopy => True
  end.

(** ** Lookup *)

Lemma eqb_iff c d : chunk_eqb nobind c d = true <-> sig nobind c = sig nobind d.
Proof. apply chunk_eqb_sig. Qed.

Lemma same_entry_refl c : same_entry c c.
Proof. apply chunk_eqb_refl. Qed.
Lemma same_entry_sym c d : same_entry c d -> same_entry d c.
Proof. unfold same_entry. rewrite !eqb_iff. congruence. Qed.
Lemma same_entry_trans c d e : same_entry c d -> same_entry d e -> same_entry c e.
Proof. unfold same_entry. rewrite !eqb_iff. congruence. Qed.

Lemma eqb_congr c d e : same_entry c d -> chunk_eqb nobind c e = chunk_eqb nobind d e.
Proof.
  intros H. apply eqb_iff in H. apply Bool.eq_iff_eq_true. rewrite !eqb_iff. rewrite H. reflexivity.
Qed.

Lemma cget_cset l c ts d :
  cget (cset l c ts) d = if chunk_eqb nobind c d then Some ts else cget l d.
Proof.
  induction l as [|[c' ts'] l IH]; simpl.
  - destruct (chunk_eqb nobind c d); reflexivity.
  - destruct (chunk_eqb nobind c' c) eqn:E; simpl.
    + rewrite (eqb_congr c' c d E). destruct (chunk_eqb nobind c d); reflexivity.
    + rewrite IH. destruct (chunk_eqb nobind c' d) eqn:E'; [|reflexivity].
      destruct (chunk_eqb nobind c d) eqn:E2; [|reflexivity].
      exfalso. rewrite (same_entry_trans _ _ _ E' (same_entry_sym _ _ E2)) in E. discriminate.
Qed.

Lemma cget_congr l c d : same_entry c d -> cget l c = cget l d.
Proof.
  intros H. induction l as [|[c' ts] l IH]; simpl; [reflexivity|]. rewrite IH.
  rewrite (chunk_eqb_sym c' c), (chunk_eqb_sym c' d), (eqb_congr _ _ _ H). reflexivity.
Qed.

Lemma cget_In l c ts : cget l c = Some ts -> exists d, In (d, ts) l /\ same_entry d c.
Proof.
  induction l as [|[c' ts'] l IH]; simpl; [discriminate|]. destruct (chunk_eqb nobind c' c) eqn:E.
  - intros H. injection H as <-. exists c'. auto.
  - intros H. destruct (IH H) as (d & H1 & H2). exists d. auto.
Qed.

Lemma cget_None l c : cget l c = None <-> forall d ts, In (d, ts) l -> ~ same_entry d c.
Proof.
  induction l as [|[c' ts'] l IH]; simpl.
  - split; [intros _ d ts []|reflexivity].
  - destruct (chunk_eqb nobind c' c) eqn:E.
    + split; [discriminate|]. intros H. exfalso. apply (H c' ts' (or_introl eq_refl) E).
    + rewrite IH. split; intros H d ts; [intros [Hd|Hd]; [injection Hd as <- <-; intros S; red in S; congruence|eauto]|].
      intros Hd. apply (H d ts). right. exact Hd.
Qed.

Lemma distinct_get l c ts : distinct (map fst l) -> In (c, ts) l -> cget l c = Some ts.
Proof.
  induction l as [|[c' ts'] l IH]; simpl; [intros _ []|]. intros [H1 H2] [H|H].
  - injection H as -> ->. rewrite chunk_eqb_refl. reflexivity.
  - destruct (chunk_eqb nobind c' c) eqn:E; [|auto]. exfalso. rewrite Forall_forall in H1.
    apply (H1 c); [|exact E]. apply in_map_iff. exists (c, ts). auto.
Qed.

Lemma cset_keys l c ts :
  map fst (cset l c ts) = (if (match cget l c with Some _ => true | None => false end) then map fst l else map fst l ++ [c])%list.
Proof.
  induction l as [|[c' ts'] l IH]; simpl; [reflexivity|]. destruct (chunk_eqb nobind c' c); simpl; [reflexivity|].
  rewrite IH. destruct (cget l c); reflexivity.
Qed.

Lemma distinct_app l c : distinct l -> (forall d, In d l -> ~ same_entry d c) -> distinct (l ++ [c]).
Proof.
  induction l as [|d l IH]; simpl; intros H1 H2; [auto|]. destruct H1 as [H1 H3]. split.
  - apply Forall_app. split; [exact H1|]. constructor; [apply H2; auto|constructor].
  - apply IH; auto.
Qed.

Lemma cset_distinct l c ts : distinct (map fst l) -> distinct (map fst (cset l c ts)).
Proof.
  intros H. rewrite cset_keys. destruct (cget l c) eqn:E; [exact H|]. apply distinct_app; [exact H|].
  intros d Hd. apply in_map_iff in Hd. destruct Hd as ([d' t'] & E' & Hd). simpl in E'. subst d'.
  apply (proj1 (cget_None l c) E d t' Hd).
Qed.

Lemma setitem_times m c ts d :
  dm_times (dm_setitem m c ts) d = if chunk_eqb nobind c d then Some ts else dm_times m d.
Proof. apply cget_cset. Qed.

Lemma setitem_ok m c ts : dm_ok m -> dm_ok (dm_setitem m c ts).
Proof. apply cset_distinct. Qed.

Lemma setitem_keys m c ts :
  map fst (dmdata (dm_setitem m c ts)) =
  (if dm_mem m c then map fst (dmdata m) else map fst (dmdata m) ++ [c])%list.
Proof. unfold dm_setitem, dm_mem. simpl. rewrite cset_keys. unfold dm_times. destruct (cget (dmdata m) c); reflexivity. Qed.

Lemma cset_cset l c ts us : cset (cset l c ts) c us = cset l c us.
Proof.
  induction l as [|[c' ts'] l IH]; simpl.
  - rewrite chunk_eqb_refl. reflexivity.
  - destruct (chunk_eqb nobind c' c) eqn:E; simpl; rewrite E; [reflexivity|]. rewrite IH. reflexivity.
Qed.

(** add is one setitem with the old times and the new ones. *)
Lemma add_times_setitem m c ts : dm_add_times m c ts = dm_setitem m c (times m c ++ ts).
Proof.
  unfold dm_add_times, dm_setdefault, times. destruct (dm_times m c) as [old|] eqn:E; [reflexivity|].
  simpl. unfold dm_setitem at 1. unfold dm_mem. rewrite setitem_times, chunk_eqb_refl. simpl.
  unfold dm_setitem, dm_mem. rewrite E. simpl. rewrite cset_cset. reflexivity.
Qed.

(** ** C16 *)

Theorem add_spec m c t :
  (forall d, same_entry c d -> dm_times (dm_add m c t) d = Some (times m d ++ [round4 t])%list) /\
  (forall d, ~ same_entry c d -> dm_times (dm_add m c t) d = dm_times m d) /\
  ((in_memory m c /\ map fst (dmdata (dm_add m c t)) = map fst (dmdata m)) \/
   (~ in_memory m c /\ map fst (dmdata (dm_add m c t)) = (map fst (dmdata m) ++ [c])%list)) /\
  (dm_ok m -> dm_ok (dm_add m c t)).
Proof.
  unfold dm_add. rewrite add_times_setitem. split; [|split; [|split]].
  - intros d H. rewrite setitem_times. red in H. rewrite H. f_equal. unfold times, dm_times.
    rewrite (cget_congr _ _ _ H). reflexivity.
  - intros d H. rewrite setitem_times. unfold same_entry in H. destruct (chunk_eqb nobind c d); [congruence|reflexivity].
  - rewrite setitem_keys. unfold dm_mem, dm_times, in_memory. destruct (cget (dmdata m) c) eqn:E.
    + left. split; [|reflexivity]. destruct (cget_In _ _ _ E) as (d & H1 & H2). eauto.
    + right. split; [|reflexivity]. intros (d & ts & H1 & H2). apply (proj1 (cget_None _ _) E d ts H1 H2).
  - apply setitem_ok.
Qed.

(** After any history of adds: a chunk has exactly the (rounded) times of the adds of equal
    chunks, in order; it is in memory if there is one. *)
Definition presentations (adds : list (chunk * Q)) (d : chunk) : list Q :=
  map (fun p => round4 (snd p)) (filter (fun p => chunk_eqb nobind (fst p) d) adds).
Definition add_run (adds : list (chunk * Q)) : decmem := fold_left (fun m p => dm_add m (fst p) (snd p)) adds dm_empty.

Theorem add_run_spec adds d :
  dm_ok (add_run adds) /\ times (add_run adds) d = presentations adds d /\
  (in_memory (add_run adds) d <-> exists c t, In (c, t) adds /\ same_entry c d).
Proof.
  unfold add_run, presentations.
  assert (G : forall m, dm_ok m ->
    let m' := fold_left (fun m p => dm_add m (fst p) (snd p)) adds m in
    dm_ok m' /\
    times m' d = (times m d ++ map (fun p => round4 (snd p)) (filter (fun p => chunk_eqb nobind (fst p) d) adds))%list /\
    (in_memory m' d <-> in_memory m d \/ exists c t, In (c, t) adds /\ same_entry c d)).
  { induction adds as [|[c t] adds IH]; intros m Hm; simpl.
    - rewrite app_nil_r. split; [exact Hm|]. split; [reflexivity|]. split; [auto|]. intros [H|(c & t & [] & _)]; exact H.
    - destruct (add_spec m c t) as (A1 & A2 & A3 & A4). destruct (IH (dm_add m c t) (A4 Hm)) as (B1 & B2 & B3).
      split; [exact B1|]. split.
      + rewrite B2. destruct (chunk_eqb nobind c d) eqn:E.
        * simpl. unfold times at 1. rewrite (A1 d E). rewrite <- app_assoc. reflexivity.
        * unfold times. rewrite (A2 d); [reflexivity|]. unfold same_entry. congruence.
      + rewrite B3. clear B1 B2 B3 IH.
        assert (Hin : in_memory (dm_add m c t) d <-> in_memory m d \/ same_entry c d).
        { assert (K : forall m d, in_memory m d <-> exists e, In e (map fst (dmdata m)) /\ same_entry e d).
          { intros m0 d0. unfold in_memory. split.
            - intros (e & ts & H1 & H2). exists e. split; [apply in_map_iff; exists (e, ts); auto|exact H2].
            - intros (e & H1 & H2). apply in_map_iff in H1. destruct H1 as ([e' ts] & E & H1). simpl in E. subst e'. eauto. }
          rewrite !K. destruct A3 as [[H1 H2]|[H1 H2]]; rewrite H2.
          - split; [auto|]. intros [H|H]; [exact H|]. apply K in H1. destruct H1 as (e & I1 & I2). exists e.
            split; [exact I1|]. apply (same_entry_trans _ _ _ I2 H).
          - split.
            + intros (e & H & He). apply in_app_or in H. destruct H as [H|[<-|[]]]; [left; eauto|auto].
            + intros [(e & H & He)|H]; [exists e; split; [apply in_or_app; auto|exact He]|].
              exists c. split; [apply in_or_app; simpl; auto|exact H]. }
        rewrite Hin. split.
        * intros [[H|H]|(c' & t' & H1 & H2)]; [auto|right; exists c, t; auto|right; exists c', t'; auto].
        * intros [H|(c' & t' & [H1|H1] & H2)]; [auto|injection H1 as <- <-; auto|right; eauto]. }
  destruct (G dm_empty I) as (G1 & G2 & G3). split; [exact G1|]. split; [exact G2|].
  rewrite G3. split; [|auto]. intros [(e & ts & [] & _)|H]; exact H.
Qed.

(** Copying gives the same entries. *)
Lemma update_app m data : distinct (map fst (dmdata m) ++ map fst data) ->
  dmdata (dm_update m data) = (dmdata m ++ data)%list.
Proof.
  revert m. induction data as [|[c ts] data IH]; intros m H; simpl; [symmetry; apply app_nil_r|].
  assert (E : dmdata (dm_setitem m c ts) = (dmdata m ++ [(c, ts)])%list).
  { simpl. assert (Hn : forall d t, In (d, t) (dmdata m) -> ~ same_entry d c).
    { intros d t Hd. revert H Hd. clear. induction (dmdata m) as [|[e u] l IHl]; [intros _ []|]. simpl. intros [H1 H2] [Hd|Hd].
      - injection Hd as -> ->. rewrite Forall_forall in H1. apply H1. apply in_or_app. simpl. auto.
      - apply IHl; assumption. }
    revert Hn. clear. induction (dmdata m) as [|[e u] l IHl]; intros Hn; simpl; [reflexivity|].
    destruct (chunk_eqb nobind e c) eqn:E; [exfalso; apply (Hn e u (or_introl eq_refl) E)|].
    rewrite IHl; [reflexivity|]. intros d t Hd. apply (Hn d t). right. exact Hd. }
  rewrite IH; rewrite E.
  - rewrite <- app_assoc. reflexivity.
  - rewrite map_app, <- app_assoc. exact H.
Qed.

Theorem copy_same m : dm_ok m -> dm_copy m = m.
Proof.
  intros H. unfold dm_copy. rewrite update_app; [|exact H]. simpl. destruct m. reflexivity.
Qed.

(** Initialisation with a collection of chunks. *)
Lemma in_memory_get m d : in_memory m d <-> dm_times m d <> None.
Proof.
  unfold in_memory, dm_times. split.
  - intros (e & ts & H1 & H2) H. apply (proj1 (cget_None _ _) H e ts H1 H2).
  - intros H. destruct (cget (dmdata m) d) as [ts|] eqn:E; [|congruence]. destruct (cget_In _ _ _ E) as (e & H1 & H2). eauto.
Qed.

Theorem init_spec cs :
  (forall c rest, cs = c :: rest -> List.length (cslots c) <> 2%nat) ->
  exists m, dm_init cs = Ok m /\ dm_ok m /\
    (forall d, in_memory m d <-> exists c, In c cs /\ same_entry c d) /\
    forall d, in_memory m d -> exists q, dm_times m d = Some [q] /\ (q == 0)%Q.
Proof.
  intros H. exists (fold_left (fun m c => dm_setitem_scalar m c 0) cs dm_empty). split.
  { destruct cs as [|c rest]; [reflexivity|]. unfold dm_init. specialize (H c rest eq_refl). apply Nat.eqb_neq in H. rewrite H. reflexivity. }
  assert (G : forall l m, dm_ok m -> (forall d ts, dm_times m d = Some ts -> ts = [round4 0]) ->
     let m' := fold_left (fun m c => dm_setitem_scalar m c 0) l m in
     dm_ok m' /\ (forall d ts, dm_times m' d = Some ts -> ts = [round4 0]) /\
     forall d, dm_times m' d <> None <-> dm_times m d <> None \/ exists c, In c l /\ same_entry c d).
  { clear. induction l as [|c l IH]; intros m H1 H2; cbv zeta; simpl.
    - split; [exact H1|]. split; [exact H2|]. intros d. split; [auto|]. intros [A|(c & [] & _)]. exact A.
    - destruct (IH (dm_setitem_scalar m c 0)) as (G1 & G2 & G3).
      + apply setitem_ok. exact H1.
      + intros d ts. unfold dm_setitem_scalar. rewrite setitem_times. destruct (chunk_eqb nobind c d); [congruence|apply H2].
      + split; [exact G1|]. split; [exact G2|]. intros d. rewrite G3. unfold dm_setitem_scalar. rewrite setitem_times. unfold same_entry. split.
        * intros [A|(c' & A & B)]; [|right; exists c'; auto]. destruct (chunk_eqb nobind c d) eqn:E; [right; exists c; auto|auto].
        * intros [A|(c' & [A|A] & B)]; [|subst c'; rewrite B; left; discriminate|right; eauto]. destruct (chunk_eqb nobind c d); [left; discriminate|auto]. }
  destruct (G cs dm_empty I) as (G1 & G2 & G3); [discriminate|]. split; [exact G1|]. split.
  - intros d. rewrite in_memory_get, G3. simpl. split; [intros [A|A]; [exfalso; apply A; reflexivity|exact A]|auto].
  - intros d Hd. rewrite in_memory_get in Hd. destruct (dm_times _ d) as [ts|] eqn:E; [|congruence]. rewrite (G2 d ts E).
    exists (round4 0). split; [reflexivity|]. reflexivity.
Qed.
