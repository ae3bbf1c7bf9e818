(** Proofs about copies of memories (C53). *)
From Verif Require Import BaseFacts Chunks ChunkFacts ChunkMatch DecMem DecMemFacts Buffers BufferFacts DecMemHeap.
From Verif Require Import ChunkSpec.
Local Open Scope string_scope.
Arguments hval_eqb : simpl never.
Arguments hash_value : simpl nomatch.
Arguments val_eqb : simpl nomatch.

(** ** Specification *)

(** What is seen of memory number [k]. *)
Definition observed (h : heap) (k : nat) : option (decmem * list (chunk * Q)) := option_map (view h) (nth_error (objs h) k).

(** The memory that a call is made on. *)
Definition acts_on (op : hop) : option nat :=
  match op with
  | HNew | HCopy _ => None
  | HAdd m _ _ | HAddTimes m _ _ | HSet m _ _ | HAlias m _ _ _ | HDel m _ | HStrength m _ _ _ _
  | HActivation m _ _ | HInplace m _ _ _ => Some m
  end.
(** No assignment to elements of the arrays of times. *)
Definition not_inplace (op : hop) : Prop := match op with HInplace _ _ _ _ => False | _ => True end.

(** Memories as values: what each call should do to the list of all memories. *)
Notation mem_value := (decmem * list (chunk * Q))%type.
Definition vstep (l : list mem_value) (op : hop) : list mem_value :=
  let on m f := match nth_error l m with Some v => upd l m (f v) | None => l end in
  match op with
  | HNew => (l ++ [(dm_empty, [])])%list
  | HAdd m c t => on m (fun v => (dm_add (fst v) c t, snd v))
  | HAddTimes m c ts => on m (fun v => (dm_add_times (fst v) c ts, snd v))
  | HSet m c ts => on m (fun v => (dm_setitem (fst v) c ts, snd v))
  | HAlias m c m' c' =>
      match nth_error l m' with
      | Some v' => match dm_times (fst v') c' with
                   | Some ts => on m (fun v => (dm_setitem (fst v) c ts, snd v))
                   | None => l
                   end
      | None => l
      end
  | HDel m c => on m (fun v => (MkDM (kdel (dmdata (fst v)) c) (restr (fst v)) (unrestr (fst v)), snd v))
  | HStrength m j i r oc => on m (fun v => (fst (strength (fst v) j i r oc), snd v))
  | HActivation m c q => on m (fun v => (fst v, if dm_mem (fst v) c then kset (snd v) c q else snd v))
  | HCopy m => match nth_error l m with Some v => (l ++ [v])%list | None => l end
  | HInplace _ _ _ _ => l
  end.
Definition vrun (ops : list hop) (l : list mem_value) : list mem_value := fold_left vstep ops l.

(** ** Invariant *)

Definition wf_heap (h : heap) : Prop :=
  let n := List.length (objs h) in
  List.length (datas h) = n /\ List.length (restrs h) = n /\ List.length (unrestrs h) = n /\ List.length (actss h) = n /\
  (forall i o, nth_error (objs h) i = Some o -> o = MkObj i i i i) /\
  (forall i d, nth_error (datas h) i = Some d -> distinct (map fst d)) /\
  (forall i d c r, nth_error (datas h) i = Some d -> In (c, r) d -> (r < List.length (arrs h))%nat).

Definition values (h : heap) : list mem_value := map (view h) (objs h).

(** ** Lists *)

Lemma nth_upd_same {A} (l : list A) i x d : (i < List.length l)%nat -> nth i (upd l i x) d = x.
Proof. revert i. induction l as [|a l IH]; intros [|i] H; simpl in *; try lia; [reflexivity|]. apply IH. lia. Qed.
Lemma nth_upd_other {A} (l : list A) i j x d : j <> i -> nth j (upd l i x) d = nth j l d.
Proof. revert i j. induction l as [|a l IH]; intros [|i] [|j] H; simpl; try reflexivity; try congruence. apply IH. congruence. Qed.
Lemma nth_snoc_last {A} (l : list A) x d : nth (List.length l) (l ++ [x]) d = x.
Proof. rewrite app_nth2 by lia. replace (List.length l - List.length l)%nat with 0%nat by lia. reflexivity. Qed.
Lemma nth_snoc_old {A} (l : list A) i x d : (i < List.length l)%nat -> nth i (l ++ [x]) d = nth i l d.
Proof. intros. apply app_nth1. assumption. Qed.
Lemma nth_error_lt {A} (l : list A) i x : nth_error l i = Some x -> (i < List.length l)%nat.
Proof. intros H. apply nth_error_Some. congruence. Qed.
Lemma nth_error_nth_some {A} (l : list A) i d : (i < List.length l)%nat -> nth_error l i = Some (nth i l d).
Proof. revert i. induction l as [|a l IH]; intros [|i] H; simpl in *; try lia; [reflexivity|]. apply IH. lia. Qed.
Lemma upd_eq {A} (l l' : list A) i x : (i < List.length l)%nat -> List.length l' = List.length l -> nth_error l' i = Some x ->
  (forall j, j <> i -> nth_error l' j = nth_error l j) -> l' = upd l i x.
Proof.
  intros Hi Hl H1 H2. apply nth_ext with (d := x) (d' := x); [rewrite upd_length; exact Hl|]. intros j Hj.
  destruct (Nat.eq_dec j i) as [->|N].
  - rewrite nth_upd_same by exact Hi. apply nth_error_nth. exact H1.
  - rewrite nth_upd_other by exact N. specialize (H2 j N). rewrite !nth_error_nth_some with (d := x) in H2 by lia. congruence.
Qed.

(** ** Dictionaries *)

Lemma kget_map {A B} (f : A -> B) l c : kget (map (fun p => (fst p, f (snd p))) l) c = option_map f (kget l c).
Proof. induction l as [|[d a] l IH]; simpl; [reflexivity|]. destruct (chunk_eqb nobind d c); [reflexivity|exact IH]. Qed.
Lemma kset_map {A B} (f : A -> B) l c a : map (fun p => (fst p, f (snd p))) (kset l c a) = kset (map (fun p => (fst p, f (snd p))) l) c (f a).
Proof. induction l as [|[d b] l IH]; simpl; [reflexivity|]. destruct (chunk_eqb nobind d c); simpl; [reflexivity|]. rewrite IH. reflexivity. Qed.
Lemma kdel_map {A B} (f : A -> B) l c : map (fun p => (fst p, f (snd p))) (kdel l c) = kdel (map (fun p => (fst p, f (snd p))) l) c.
Proof. induction l as [|[d b] l IH]; simpl; [reflexivity|]. destruct (chunk_eqb nobind d c); simpl; [reflexivity|]. rewrite IH. reflexivity. Qed.
Lemma kget_cget l c : kget l c = cget l c.
Proof. induction l as [|[d a] l IH]; simpl; [reflexivity|]. rewrite IH. reflexivity. Qed.
Lemma kset_cset l c ts : kset l c ts = cset l c ts.
Proof. induction l as [|[d a] l IH]; simpl; [reflexivity|]. rewrite IH. reflexivity. Qed.
Lemma kset_In {A} (l : list (chunk * A)) c a d b : In (d, b) (kset l c a) -> b = a \/ In (d, b) l.
Proof.
  induction l as [|[e x] l IH]; simpl; [intros [H|[]]; injection H as <- <-; auto|]. destruct (chunk_eqb nobind e c); simpl.
  - intros [H|H]; [injection H as <- <-; auto|auto].
  - intros [H|H]; [auto|]. destruct (IH H); auto.
Qed.
Lemma kset_distinct {A} (l : list (chunk * A)) c a : distinct (map fst l) -> distinct (map fst (kset l c a)).
Proof.
  intros H. assert (E : map fst (kset l c a) = map fst (cset (map (fun p => (fst p, @nil Q)) l) c [])).
  { clear H. induction l as [|[d b] l IH]; simpl; [reflexivity|]. destruct (chunk_eqb nobind d c); simpl; [|rewrite IH; reflexivity].
    rewrite map_map. reflexivity. }
  rewrite E. apply cset_distinct. rewrite map_map. exact H.
Qed.
Lemma kdel_In {A} (l : list (chunk * A)) c p : In p (kdel l c) -> In p l.
Proof. induction l as [|[d b] l IH]; simpl; [auto|]. destruct (chunk_eqb nobind d c); simpl; intuition auto. Qed.
Lemma kget_In {A} (l : list (chunk * A)) c a : kget l c = Some a -> exists d, In (d, a) l.
Proof. induction l as [|[d b] l IH]; simpl; [discriminate|]. destruct (chunk_eqb nobind d c); [intros H; injection H as ->; eauto|]. intros H. destruct (IH H) as (e & He). eauto. Qed.
Lemma kdel_distinct {A} (l : list (chunk * A)) c : distinct (map fst l) -> distinct (map fst (kdel l c)).
Proof.
  induction l as [|[d b] l IH]; simpl; [auto|]. intros [H1 H2]. destruct (chunk_eqb nobind d c); [exact H2|]. simpl. split; [|auto].
  rewrite Forall_forall in *. intros e He. apply H1. apply in_map_iff in He. destruct He as ([e' x] & <- & He). apply in_map, (kdel_In _ _ _ He).
Qed.
Lemma kset_fresh {A} (l : list (chunk * A)) c a : (forall d b, In (d, b) l -> ~ same_entry d c) -> kset l c a = (l ++ [(c, a)])%list.
Proof.
  induction l as [|[d b] l IH]; intros H; simpl; [reflexivity|]. destruct (chunk_eqb nobind d c) eqn:E; [exfalso; apply (H d b (or_introl eq_refl) E)|].
  rewrite IH; [reflexivity|]. intros e x He. apply (H e x). simpl. auto.
Qed.
Lemma kset_all {A} (l acc : list (chunk * A)) : distinct (map fst acc ++ map fst l) ->
  fold_left (fun d p => kset d (fst p) (snd p)) l acc = (acc ++ l)%list.
Proof.
  revert acc. induction l as [|[c a] l IH]; intros acc H; simpl; [symmetry; apply app_nil_r|].
  rewrite kset_fresh.
  - rewrite IH; [rewrite <- app_assoc; reflexivity|]. rewrite map_app, <- app_assoc. exact H.
  - intros d b Hd. revert H Hd. clear. induction acc as [|[e u] l1 IHl]; [intros _ []|]. simpl. intros [H1 H2] [Hd|Hd].
    + injection Hd as -> ->. rewrite Forall_forall in H1. apply H1. apply in_or_app. simpl. auto.
    + apply IHl; assumption.
Qed.

(** ** Operations *)

Lemma values_nth h j : nth_error (values h) j = option_map (view h) (nth_error (objs h) j).
Proof. unfold values. apply nth_error_map. Qed.
Lemma values_length h : List.length (values h) = List.length (objs h).
Proof. apply map_length. Qed.

Lemma values_upd h h' i o x : objs h' = objs h -> nth_error (objs h) i = Some o -> view h' o = x ->
  (forall j o', j <> i -> nth_error (objs h) j = Some o' -> view h' o' = view h o') -> values h' = upd (values h) i x.
Proof.
  intros E H V1 V2. apply upd_eq.
  - rewrite values_length. apply (nth_error_lt _ _ _ H).
  - rewrite !values_length, E. reflexivity.
  - rewrite values_nth, E, H. simpl. rewrite <- V1. reflexivity.
  - intros j N. rewrite !values_nth, E. destruct (nth_error (objs h) j) as [o'|] eqn:Ej; simpl; [|reflexivity]. rewrite (V2 j o' N Ej). reflexivity.
Qed.

Lemma values_same h h' : objs h' = objs h -> (forall j o, nth_error (objs h) j = Some o -> view h' o = view h o) -> values h' = values h.
Proof.
  intros E V. unfold values. rewrite E. apply map_ext_in. intros o Ho. apply In_nth_error in Ho. destruct Ho as [j Hj]. apply (V j o Hj).
Qed.

Lemma data_nth h i o : wf_heap h -> nth_error (objs h) i = Some o ->
  o = MkObj i i i i /\ (i < List.length (objs h))%nat /\ nth_error (datas h) i = Some (data_of h o).
Proof.
  intros (L1 & _ & _ & _ & W & _) H. pose proof (W i o H) as E. split; [exact E|]. pose proof (nth_error_lt _ _ _ H) as Hi. split; [exact Hi|].
  subst o. unfold data_of. simpl. apply nth_error_nth_some. lia.
Qed.

Lemma data_refs h i o c r : wf_heap h -> nth_error (objs h) i = Some o -> In (c, r) (data_of h o) -> (r < List.length (arrs h))%nat.
Proof.
  intros W H Hin. destruct (data_nth h i o W H) as (_ & _ & E). destruct W as (_ & _ & _ & _ & _ & _ & W). apply (W i _ c r E Hin).
Qed.

Lemma arr_old h h1 r ts : new_arr h ts = (h1, r) -> forall k, (k < List.length (arrs h))%nat -> arr h1 k = arr h k.
Proof. intros E k Hk. injection E as <- <-. unfold arr. simpl. apply nth_snoc_old. exact Hk. Qed.

Lemma new_arr_spec h ts h1 r : wf_heap h -> new_arr h ts = (h1, r) ->
  wf_heap h1 /\ objs h1 = objs h /\ datas h1 = datas h /\ values h1 = values h /\ arr h1 r = ts /\ (r < List.length (arrs h1))%nat.
Proof.
  intros W E. pose proof (arr_old _ _ _ _ E) as O. injection E as <- <-.
  split; [|split; [reflexivity|split; [reflexivity|split; [|split]]]].
  - destruct W as (L1 & L2 & L3 & L4 & W1 & W2 & W3). repeat (split; [assumption|]). simpl. intros i d c r Hd Hin. rewrite app_length. specialize (W3 i d c r Hd Hin). lia.
  - apply values_same; [reflexivity|]. intros j o Hj. unfold view. f_equal. f_equal. unfold data_of. simpl.
    apply map_ext_in. intros [c r] Hin. f_equal. apply O. apply (data_refs h j o c r W Hj Hin).
  - unfold arr. simpl. apply nth_snoc_last.
  - simpl. rewrite app_length. simpl. lia.
Qed.

Lemma setitem_spec h i o key ref : wf_heap h -> nth_error (objs h) i = Some o -> (ref < List.length (arrs h))%nat ->
  wf_heap (h_setitem h o key ref) /\ objs (h_setitem h o key ref) = objs h /\ arrs (h_setitem h o key ref) = arrs h /\
  values (h_setitem h o key ref) = upd (values h) i (dm_setitem (fst (view h o)) key (arr h ref), snd (view h o)).
Proof.
  intros W H Hr. destruct (data_nth h i o W H) as (-> & Hi & Ed).
  assert (Hd : forall c r, In (c, r) (data_of h (MkObj i i i i)) -> (r < List.length (arrs h))%nat) by (intros c r; apply (data_refs h i); assumption).
  destruct W as (L1 & L2 & L3 & L4 & W1 & W2 & W3). split; [|split; [reflexivity|split; [reflexivity|]]].
  - unfold wf_heap, h_setitem. simpl. split; [rewrite upd_length; exact L1|].
    split; [destruct (kget _ key); rewrite ?upd_length; exact L2|]. split; [destruct (kget _ key); rewrite ?upd_length; exact L3|]. split; [exact L4|].
    split; [exact W1|]. split.
    + intros j d Hj. destruct (Nat.eq_dec j i) as [->|N].
      * rewrite (upd_same _ _ _ _ Ed) in Hj. injection Hj as <-. apply kset_distinct. apply (W2 i _ Ed).
      * rewrite upd_other in Hj by exact N. apply (W2 j d Hj).
    + intros j d c r Hj Hin. destruct (Nat.eq_dec j i) as [->|N].
      * rewrite (upd_same _ _ _ _ Ed) in Hj. injection Hj as <-. destruct (kset_In _ _ _ _ _ Hin) as [->|Hin']; [exact Hr|apply (Hd c r Hin')].
      * rewrite upd_other in Hj by exact N. apply (W3 j d c r Hj Hin).
  - apply values_upd with (o := MkObj i i i i); [reflexivity|exact H| |].
    + unfold view, dm_setitem, dm_mem, dm_times. cbn [fst snd dmdata]. rewrite <- kset_cset, <- kget_cget, kget_map.
      unfold data_of, restr_of, unrestr_of, acts_of, h_setitem. cbn. f_equal. unfold arr at 1. cbn. fold (arr h).
      rewrite nth_upd_same by lia. rewrite <- (kset_map (arr h)). f_equal.
      * destruct (kget _ key); simpl; [reflexivity|]. apply nth_upd_same. lia.
      * destruct (kget _ key); simpl; [reflexivity|]. apply nth_upd_same. lia.
    + intros j o' N Hj. rewrite (W1 j o' Hj). unfold view, data_of, restr_of, unrestr_of, acts_of, h_setitem. cbn. f_equal. unfold arr at 1. cbn. fold (arr h).
      rewrite nth_upd_other by exact N. f_equal.
      * destruct (kget _ key); [reflexivity|]. apply nth_upd_other. exact N.
      * destruct (kget _ key); [reflexivity|]. apply nth_upd_other. exact N.
Qed.

Lemma view_values h i o : nth_error (objs h) i = Some o -> nth_error (values h) i = Some (view h o).
Proof. intros H. rewrite values_nth, H. reflexivity. Qed.

Lemma view_from_values h h' i o : objs h' = objs h -> nth_error (objs h) i = Some o -> values h' = values h -> view h' o = view h o.
Proof. intros E H V. pose proof (view_values h i o H) as A. rewrite <- E in H. pose proof (view_values h' i o H) as B. congruence. Qed.

Lemma view_times h o c : dm_times (fst (view h o)) c = option_map (arr h) (kget (data_of h o) c).
Proof. unfold dm_times, view. cbn. rewrite <- kget_cget. apply kget_map. Qed.

Lemma add_times_spec h i o key ts : wf_heap h -> nth_error (objs h) i = Some o ->
  wf_heap (h_add_times h o key ts) /\
  values (h_add_times h o key ts) = upd (values h) i (dm_add_times (fst (view h o)) key ts, snd (view h o)).
Proof.
  intros W H. unfold h_add_times.
  assert (S : exists h1 r, (match kget (data_of h o) key with
     | Some r => (h, r) | None => let (h', r) := new_arr h [] in (h_setitem h' o key r, r) end) = (h1, r) /\
     wf_heap h1 /\ objs h1 = objs h /\ (r < List.length (arrs h1))%nat /\
     arr h1 r = snd (dm_setdefault (fst (view h o)) key) /\
     values h1 = upd (values h) i (fst (dm_setdefault (fst (view h o)) key), snd (view h o))).
  { unfold dm_setdefault. rewrite view_times. destruct (kget (data_of h o) key) as [r|] eqn:E; simpl option_map; cbv iota.
    - exists h, r. split; [reflexivity|]. split; [exact W|]. split; [reflexivity|]. split; [|split; [reflexivity|]].
      + destruct (kget_In _ _ _ E) as (d & Hd). apply (data_refs h i o d r W H Hd).
      + symmetry. apply upd_id. rewrite (view_values _ _ _ H). destruct (view h o). reflexivity.
    - destruct (new_arr h []) as [h' r] eqn:En. destruct (new_arr_spec _ _ _ _ W En) as (W' & O' & _ & V' & A' & R').
      assert (H' : nth_error (objs h') i = Some o) by (rewrite O'; exact H).
      destruct (setitem_spec h' i o key r W' H' R') as (W2 & O2 & A2 & V2).
      eexists _, _. split; [reflexivity|]. split; [exact W2|]. split; [congruence|]. split; [rewrite A2; exact R'|]. split.
      + unfold arr. rewrite A2. exact A'.
      + rewrite V2, V', A', (view_from_values h h' i o O' H V'). reflexivity. }
  destruct S as (h1 & r & -> & W1 & O1 & R1 & A1 & V1).
  destruct (new_arr h1 (arr h1 r ++ ts)) as [h2 r2] eqn:En. destruct (new_arr_spec _ _ _ _ W1 En) as (W2 & O2 & _ & V2 & A2 & R2).
  assert (H2 : nth_error (objs h2) i = Some o) by (rewrite O2, O1; exact H).
  destruct (setitem_spec h2 i o key r2 W2 H2 R2) as (W3 & _ & _ & V3). split; [exact W3|].
  rewrite V3, V2, V1, upd_upd. f_equal.
  assert (Ev : view h2 o = (fst (dm_setdefault (fst (view h o)) key), snd (view h o))).
  { pose proof (view_values h2 i o H2) as X. rewrite V2, V1, (upd_same _ _ _ _ (view_values h i o H)) in X. congruence. }
  rewrite Ev, A2, A1. unfold dm_add_times. destruct (dm_setdefault (fst (view h o)) key) as [m1 old]. reflexivity.
Qed.

(** Only dictionaries and Counters of memory [i] are replaced; the refs stay valid. *)
Lemma wf_replace h i o d r u a : wf_heap h -> nth_error (objs h) i = Some o ->
  distinct (map fst d) -> (forall c k, In (c, k) d -> (k < List.length (arrs h))%nat) ->
  let h' := MkHeap (arrs h) (upd (datas h) (odata o) d) (upd (restrs h) (orestr o) r) (upd (unrestrs h) (ounrestr o) u) (upd (actss h) (oact o) a) (objs h) in
  wf_heap h' /\ values h' = upd (values h) i (MkDM (map (fun p => (fst p, arr h (snd p))) d) r u, a).
Proof.
  intros W H D R. cbv zeta. destruct (data_nth h i o W H) as (-> & Hi & Ed). destruct W as (L1 & L2 & L3 & L4 & W1 & W2 & W3). simpl. split.
  - unfold wf_heap. simpl. rewrite !upd_length. repeat (split; [assumption|]). split.
    + intros j d' Hj. destruct (Nat.eq_dec j i) as [->|N].
      * rewrite (upd_same _ _ _ _ Ed) in Hj. injection Hj as <-. exact D.
      * rewrite upd_other in Hj by exact N. apply (W2 j d' Hj).
    + intros j d' c k Hj Hin. destruct (Nat.eq_dec j i) as [->|N].
      * rewrite (upd_same _ _ _ _ Ed) in Hj. injection Hj as <-. apply (R c k Hin).
      * rewrite upd_other in Hj by exact N. apply (W3 j d' c k Hj Hin).
  - apply values_upd with (o := MkObj i i i i); [reflexivity|exact H| |].
    + unfold view, data_of, restr_of, unrestr_of, acts_of, arr. cbn. rewrite !nth_upd_same by lia. reflexivity.
    + intros j o' N Hj. rewrite (W1 j o' Hj). unfold view, data_of, restr_of, unrestr_of, acts_of, arr. cbn. rewrite !nth_upd_other by exact N. reflexivity.
Qed.

Lemma upd_nth_same {A} (l : list A) i d : upd l i (nth i l d) = l.
Proof. revert i. induction l as [|a l IH]; intros [|i]; simpl; [reflexivity..|]. f_equal. apply IH. Qed.

Lemma data_id h o : upd (datas h) (odata o) (data_of h o) = datas h.
Proof. apply upd_nth_same. Qed.
Lemma restr_id h o : upd (restrs h) (orestr o) (restr_of h o) = restrs h.
Proof. apply upd_nth_same. Qed.
Lemma unrestr_id h o : upd (unrestrs h) (ounrestr o) (unrestr_of h o) = unrestrs h.
Proof. apply upd_nth_same. Qed.
Lemma acts_id h o : upd (actss h) (oact o) (acts_of h o) = actss h.
Proof. apply upd_nth_same. Qed.

Lemma new_obj_spec h d r u a : wf_heap h -> distinct (map fst d) -> (forall c k, In (c, k) d -> (k < List.length (arrs h))%nat) ->
  wf_heap (new_obj h d r u a) /\ values (new_obj h d r u a) = (values h ++ [(MkDM (map (fun p => (fst p, arr h (snd p))) d) r u, a)])%list.
Proof.
  intros (L1 & L2 & L3 & L4 & W1 & W2 & W3) D R. split.
  - unfold wf_heap, new_obj. simpl. rewrite !app_length. simpl. repeat (split; [lia|]). split; [|split].
    + intros j o Hj. destruct (Nat.lt_ge_cases j (List.length (objs h))) as [Hl|Hl].
      * rewrite nth_error_app1 in Hj by exact Hl. apply (W1 j o Hj).
      * rewrite nth_error_app2 in Hj by exact Hl. destruct (j - List.length (objs h))%nat as [|k] eqn:E; simpl in Hj; [|destruct k; discriminate].
        injection Hj as <-. assert (j = List.length (objs h)) by lia. congruence.
    + intros j d' Hj. destruct (Nat.lt_ge_cases j (List.length (datas h))) as [Hl|Hl].
      * rewrite nth_error_app1 in Hj by exact Hl. apply (W2 j d' Hj).
      * rewrite nth_error_app2 in Hj by exact Hl. destruct (j - List.length (datas h))%nat as [|k] eqn:E; simpl in Hj; [|destruct k; discriminate].
        injection Hj as <-. exact D.
    + intros j d' c k Hj Hin. destruct (Nat.lt_ge_cases j (List.length (datas h))) as [Hl|Hl].
      * rewrite nth_error_app1 in Hj by exact Hl. apply (W3 j d' c k Hj Hin).
      * rewrite nth_error_app2 in Hj by exact Hl. destruct (j - List.length (datas h))%nat as [|k'] eqn:E; simpl in Hj; [|destruct k'; discriminate].
        injection Hj as <-. apply (R c k Hin).
  - unfold values, new_obj. simpl. rewrite map_app. simpl. f_equal.
    + apply map_ext_in. intros o Ho. apply In_nth_error in Ho. destruct Ho as [j Hj]. pose proof (nth_error_lt _ _ _ Hj) as Hl. rewrite (W1 j o Hj).
      unfold view, data_of, restr_of, unrestr_of, acts_of, arr. simpl. rewrite !nth_snoc_old by lia. reflexivity.
    + unfold view, data_of, restr_of, unrestr_of, acts_of, arr. simpl. rewrite !nth_snoc_last. reflexivity.
Qed.

Lemma strength_dmdata m j i r oc : dmdata (fst (strength m j i r oc)) = dmdata m.
Proof. apply strength_data. Qed.

Theorem hstep_value h op : wf_heap h -> not_inplace op ->
  wf_heap (hstep h op) /\ values (hstep h op) = vstep (values h) op.
Proof.
  intros W N. destruct op as [|m c t|m c ts|m c ts|m c m' c'|m c|m j i r oc|m c q|m|m c k t]; simpl in N; try contradiction; simpl; rewrite ?values_nth.
  - apply (new_obj_spec h [] [] [] [] W I). intros c k [].
  - destruct (nth_error (objs h) m) as [o|] eqn:E; simpl; [apply add_times_spec; assumption|auto].
  - destruct (nth_error (objs h) m) as [o|] eqn:E; simpl; [apply add_times_spec; assumption|auto].
  - destruct (nth_error (objs h) m) as [o|] eqn:E; simpl; [|auto]. change (MkHeap (arrs h ++ [ts]) (datas h) (restrs h) (unrestrs h) (actss h) (objs h)) with (fst (new_arr h ts)).
    destruct (new_arr h ts) as [h1 r] eqn:En. pose proof En as En'. injection En' as _ <-. destruct (new_arr_spec _ _ _ _ W En) as (W' & O' & _ & V' & A' & R'). simpl fst.
    assert (H' : nth_error (objs h1) m = Some o) by (rewrite O'; exact E).
    destruct (setitem_spec h1 m o c _ W' H' R') as (W2 & _ & _ & V2). split; [exact W2|]. rewrite V2, V', A', (view_from_values h h1 m o O' E V'). reflexivity.
  - destruct (nth_error (objs h) m) as [o|] eqn:E; simpl.
    + destruct (nth_error (objs h) m') as [o'|] eqn:E'; simpl; [|auto]. change (dm_times _ c') with (dm_times (fst (view h o')) c'). rewrite view_times.
      destruct (kget (data_of h o') c') as [r|] eqn:Er; simpl; [|auto].
      destruct (setitem_spec h m o c r W E) as (W2 & _ & _ & V2); [|auto]. destruct (kget_In _ _ _ Er) as (d & Hd). apply (data_refs h m' o' d r W E' Hd).
    + destruct (nth_error (objs h) m') as [o'|] eqn:E'; simpl; [|auto]. destruct (dm_times _ c'); auto.
  - destruct (nth_error (objs h) m) as [o|] eqn:E; simpl; [|auto]. destruct (data_nth h m o W E) as (Eo & Hm & Ed).
    pose proof (wf_replace h m o (kdel (data_of h o) c) (restr_of h o) (unrestr_of h o) (acts_of h o) W E) as X. cbv zeta in X.
    rewrite restr_id, unrestr_id, acts_id in X. unfold h_del. destruct (kget (data_of h o) c) as [r|] eqn:Ek; simpl.
    + rewrite (kdel_map (arr h)) in X. apply X; [apply kdel_distinct; destruct W as (_ & _ & _ & _ & _ & W2 & _); apply (W2 m _ Ed)|].
      intros d k Hd. apply (data_refs h m o d k W E). apply (kdel_In _ _ _ Hd).
    + split; [exact W|]. symmetry. rewrite <- (kdel_map (arr h)).
      assert (K : forall (l : list (chunk * nat)), kget l c = None -> kdel l c = l).
      { induction l as [|[d a] l IH]; simpl; [reflexivity|]. destruct (chunk_eqb nobind d c); [discriminate|]. intros K. rewrite (IH K). reflexivity. }
      rewrite (K _ Ek). apply upd_id. rewrite (view_values _ _ _ E). reflexivity.
  - destruct (nth_error (objs h) m) as [o|] eqn:E; simpl; [|auto]. destruct (data_nth h m o W E) as (Eo & Hm & Ed).
    set (s := fst (strength (fst (view h o)) j i r oc)).
    pose proof (wf_replace h m o (data_of h o) (restr s) (unrestr s) (acts_of h o) W E) as X. cbv zeta in X.
    rewrite data_id, acts_id in X. unfold h_strength. fold s.
    destruct X as [X1 X2]; [destruct W as (_ & _ & _ & _ & _ & W2 & _); apply (W2 m _ Ed)|intros d k; apply (data_refs h m o d k W E)|].
    split; [exact X1|]. rewrite X2. f_equal. f_equal.
    assert (Es : dmdata s = map (fun p => (fst p, arr h (snd p))) (data_of h o)) by apply strength_dmdata.
    transitivity s; [|reflexivity]. rewrite <- Es. destruct s. reflexivity.
  - destruct (nth_error (objs h) m) as [o|] eqn:E; simpl; [|auto]. destruct (data_nth h m o W E) as (Eo & Hm & Ed).
    pose proof (wf_replace h m o (data_of h o) (restr_of h o) (unrestr_of h o) (kset (acts_of h o) c q) W E) as X. cbv zeta in X.
    rewrite data_id, restr_id, unrestr_id in X. unfold h_activation, dm_mem.
    change (dm_times _ c) with (dm_times (fst (view h o)) c). rewrite view_times. destruct (kget (data_of h o) c) as [r|]; simpl.
    + apply X; [destruct W as (_ & _ & _ & _ & _ & W2 & _); apply (W2 m _ Ed)|intros d k; apply (data_refs h m o d k W E)].
    + split; [exact W|]. symmetry. apply upd_id. rewrite (view_values _ _ _ E). reflexivity.
  - destruct (nth_error (objs h) m) as [o|] eqn:E; simpl; [|auto]. destruct (data_nth h m o W E) as (Eo & Hm & Ed).
    assert (D : distinct (map fst (data_of h o))) by (destruct W as (_ & _ & _ & _ & _ & W2 & _); apply (W2 m _ Ed)).
    unfold h_copy. rewrite kset_all by exact D. simpl app. apply new_obj_spec; [exact W|exact D|]. intros d k. apply (data_refs h m o d k W E).
Qed.

Lemma heap0_wf : wf_heap heap0.
Proof.
  unfold wf_heap. simpl. repeat (split; [reflexivity|]). split; [|split]; intros [|i]; simpl; intros; discriminate.
Qed.

(** Memories behave as values in all histories without assignments to array elements. *)
Theorem hrun_value ops : Forall not_inplace ops -> wf_heap (hrun ops heap0) /\ values (hrun ops heap0) = vrun ops [].
Proof.
  intros H. unfold hrun, vrun. change (@nil mem_value) with (values heap0). generalize heap0 heap0_wf.
  induction H as [|op ops Hop Hops IH]; intros h W; simpl; [auto|]. destruct (hstep_value h op W Hop) as [W' V']. rewrite <- V'. apply IH. exact W'.
Qed.

Lemma observed_values h k : observed h k = nth_error (values h) k.
Proof. symmetry. apply values_nth. Qed.

Lemma vstep_other l op k : (k < List.length l)%nat -> acts_on op <> Some k -> nth_error (vstep l op) k = nth_error l k /\ (k < List.length (vstep l op))%nat.
Proof.
  intros Hk Ha. destruct op as [|m c t|m c ts|m c ts|m c m' c'|m c|m j i r oc|m c q|m|m c k' t]; simpl in *;
    try (destruct (nth_error l m) as [v|]; [|auto]; rewrite upd_other by congruence; rewrite upd_length; auto).
  - rewrite nth_error_app1 by exact Hk. rewrite app_length. split; [reflexivity|lia].
  - destruct (nth_error l m') as [v'|]; [|auto]. destruct (dm_times (fst v') c'); [|auto].
    destruct (nth_error l m) as [v|]; [|auto]; rewrite upd_other by congruence; rewrite upd_length; auto.
  - destruct (nth_error l m) as [v|]; [|auto]. rewrite nth_error_app1 by exact Hk. rewrite app_length. split; [reflexivity|lia].
  - auto.
Qed.

(** Calls on other memories do not affect a memory. *)
Theorem memories_independent ops1 ops2 k : Forall not_inplace ops1 -> Forall not_inplace ops2 ->
  (k < List.length (objs (hrun ops1 heap0)))%nat -> Forall (fun op => acts_on op <> Some k) ops2 ->
  observed (hrun ops2 (hrun ops1 heap0)) k = observed (hrun ops1 heap0) k.
Proof.
  intros H1 H2 Hk H3. destruct (hrun_value ops1 H1) as [W _]. revert W Hk. generalize (hrun ops1 heap0).
  induction ops2 as [|op ops2 IH]; intros h W Hk; simpl; [reflexivity|].
  inversion H2 as [|? ? N1 N2]; subst. inversion H3 as [|? ? A1 A2]; subst. destruct (hstep_value h op W N1) as [W' V'].
  rewrite <- values_length in Hk. destruct (vstep_other (values h) op k Hk A1) as [E L].
  rewrite IH; [|assumption..|rewrite <- values_length, V'; exact L]. rewrite !observed_values, V'. exact E.
Qed.

(** A copy is a further memory that looks like the original. *)
Theorem copy_equal ops m v : Forall not_inplace ops -> observed (hrun ops heap0) m = Some v ->
  let h := hrun ops heap0 in
  observed (hstep h (HCopy m)) (List.length (objs h)) = Some v /\
  forall k, (k < List.length (objs h))%nat -> observed (hstep h (HCopy m)) k = observed h k.
Proof.
  intros H E. cbv zeta. destruct (hrun_value ops H) as [W _]. destruct (hstep_value (hrun ops heap0) (HCopy m) W I) as [_ V].
  rewrite observed_values in E. simpl vstep in V. rewrite E in V. rewrite !observed_values, V, <- values_length. split.
  - rewrite nth_error_app2 by lia. rewrite Nat.sub_diag. reflexivity.
  - intros k Hk. rewrite !observed_values, V. apply nth_error_app1. exact Hk.
Qed.
