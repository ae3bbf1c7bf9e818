(** Proofs about modify and create (C11, C12) and about resolving whole chunks. *)
From Verif Require Import BaseFacts Chunks ChunkSpec ChunkFacts ChunkMatch TypeFacts ResolveFacts DecMem DecMemFacts Buffers BufferFacts.
Local Open Scope string_scope.
Arguments hval_eqb : simpl never.
Arguments hash_value : simpl nomatch.
Arguments val_eqb : simpl nomatch.

(** ** Specification *)

(** Slot [n] of [o] is mentioned: it has a value, a variable or a negation. *)
Definition mentions (o : chunk) (n : string) (w : vv) : Prop :=
  In (n, Some w) (cslots o) /\
  ((vvals w <> VNone /\ vvals w <> VEmpty) \/ (exists x, vvar w = Some x /\ x <> "") \/
   vnegvars w <> [] \/ vnegvals w <> []).
Definition unmentioned (o : chunk) (n : string) : Prop := forall w, ~ mentions o n w.

Definition marks_free (b : bindings) (o : chunk) : Prop :=
  forall n w, mentions o n w -> no_marks b w.

(** Slot names are pairwise different. *)
Definition names_distinct (c : chunk) : Prop := NoDup (dkeys (cslots c)).

(** ** Resolution of slots *)

Lemma check_ok b s ni r : NoDup (dkeys (bpos b)) -> no_marks b (splitting s) ->
  check_bound_vars b s ni = Ok r -> ~ illegal b ni (splitting s) /\ resolves_to b (splitting s) r.
Proof.
  intros nd nm H.
  assert (ne : not_empty_bound b (splitting s)).
  { intros x v Hx Hne Hin B. assert (T : truthy v = false) by (destruct (truthy v) eqn:T; [apply truthy_blank in T; tauto|reflexivity]).
    apply dget_NoDup in Hin; [|exact nd].
    revert H. unfold check_bound_vars. rewrite Hx.
    assert (Ev : var_truthy (Some x) = Some x) by (apply var_truthy_Some; auto). rewrite Ev, Hin.
    intros H. inv_ok H. inv_ok H. inv_ok H. inv_ok H. inv_ok H. inv_ok H. inv_ok H. injection E0 as <-.
    rewrite T in H. discriminate. }
  assert (nb : negvars_bound b ni (splitting s)).
  { destruct ni; [left; reflexivity|]. right. right.
    revert H. unfold check_bound_vars. intros H. inv_ok H. inv_ok H. inv_ok H. inv_ok H. inv_ok H. inv_ok H. clear H.
    destruct (vnegvars (splitting s)) as [|x xs] eqn:Ex; [intros y []|].
    pose proof (cbv_negvars_spec b (match var_truthy (vvar (splitting s)) with Some _ => true | None => false end) (x :: xs) a2) as Hc.
    rewrite E4 in Hc. apply Hc. }
  pose proof (resolve_exact b s ni nd nm ne nb) as R. rewrite H in R. exact R.
Qed.

Lemma used_mentions o n s : In (n, s) (removeunused o) <-> exists w, s = Some w /\ mentions o n w.
Proof.
  unfold removeunused, mentions. rewrite filter_In. simpl. split.
  - intros [Hin Hk]. destruct s as [w|]; [|discriminate]. exists w. split; [reflexivity|]. split; [exact Hin|].
    simpl in Hk. rewrite !orb_true_iff in Hk. destruct Hk as [[[Hk|Hk]|Hk]|Hk].
    + left. destruct (vvals w); try discriminate; split; discriminate.
    + right. left. destruct (var_truthy (vvar w)) as [x|] eqn:E; [|discriminate]. apply var_truthy_Some in E. eauto.
    + right. right. left. destruct (vnegvars w); [discriminate|discriminate].
    + right. right. right. destruct (vnegvals w); [discriminate|discriminate].
  - intros (w & -> & Hin & Hk). split; [exact Hin|]. simpl. rewrite !orb_true_iff.
    destruct Hk as [[H1 H2]|[(x & H1 & H2)|[H|H]]].
    + left. left. left. destruct (vvals w); try reflexivity; congruence.
    + left. left. right. assert (E : var_truthy (vvar w) = Some x) by (apply var_truthy_Some; auto). rewrite E. reflexivity.
    + left. right. destruct (vnegvars w); [congruence|reflexivity].
    + right. destruct (vnegvals w); [congruence|reflexivity].
Qed.

Lemma removeunused_NoDup o : names_distinct o -> NoDup (dkeys (removeunused o)).
Proof.
  unfold names_distinct, removeunused, dkeys. induction (cslots o) as [|[n s] l IH]; simpl; intros H; [constructor|].
  inversion H as [|? ? H1 H2]. subst. destruct (kept_used s); simpl; [|auto]. constructor; [|auto].
  intros Hin. apply H1. apply in_map_iff in Hin. destruct Hin as ([n' s'] & E & Hin). simpl in E. subst n'.
  apply filter_In in Hin. apply in_map_iff. exists (n, s'). tauto.
Qed.

Lemma resolve_slots_keys b ni l args : resolve_slots b ni l = Ok args -> dkeys args = dkeys l.
Proof.
  revert args. induction l as [|[n s] l IH]; intros args H; simpl in H; [injection H as <-; reflexivity|].
  destruct (check_bound_vars b s ni); [|discriminate]. simpl in H. destruct (resolve_slots b ni l) as [rest|]; [|discriminate].
  simpl in H. injection H as <-. simpl. f_equal. apply IH. reflexivity.
Qed.

Lemma resolve_slots_In b ni l args : resolve_slots b ni l = Ok args ->
  (forall n s, In (n, s) l -> exists r, check_bound_vars b s ni = Ok r /\ In (n, RVV r) args) /\
  (forall n x, In (n, x) args -> exists s r, In (n, s) l /\ check_bound_vars b s ni = Ok r /\ x = RVV r).
Proof.
  revert args. induction l as [|[n s] l IH]; intros args H; simpl in H; [injection H as <-; split; intros ? ? []|].
  destruct (check_bound_vars b s ni) as [r|] eqn:E; [|discriminate]. simpl in H. destruct (resolve_slots b ni l) as [rest|]; [|discriminate].
  simpl in H. injection H as <-. destruct (IH rest eq_refl) as [I1 I2]. split.
  - intros n' s' [X|X]; [injection X as <- <-; exists r; simpl; auto|]. destruct (I1 n' s' X) as (r' & H1 & H2). exists r'. simpl. auto.
  - intros n' x [X|X]; [injection X as <- <-; exists s, r; simpl; auto|]. destruct (I2 n' x X) as (s' & r' & H1 & H2 & H3). exists s', r'. simpl. auto.
Qed.

Lemma resolve_slots_err b ni l e : resolve_slots b ni l = Err e ->
  exists n s, In (n, s) l /\ check_bound_vars b s ni = Err e.
Proof.
  induction l as [|[n s] l IH]; intros H; simpl in H; [discriminate|].
  destruct (check_bound_vars b s ni) as [r|] eqn:E; [|exists n, s; injection H as ->; simpl; auto].
  simpl in H. destruct (resolve_slots b ni l) as [rest|]; [discriminate|]. simpl in H. injection H as ->.
  destruct (IH eq_refl) as (n' & s' & H1 & H2). exists n', s'. simpl. auto.
Qed.

Lemma resolve_get b ni o args : names_distinct o -> NoDup (dkeys (bpos b)) -> marks_free b o ->
  resolve_slots b ni (removeunused o) = Ok args ->
  (forall n w, mentions o n w -> exists r, dget args n = Some (RVV r) /\ resolves_to b w r /\ ~ illegal b ni w) /\
  (forall n, unmentioned o n -> dget args n = None) /\ NoDup (dkeys args).
Proof.
  intros Nd nd nm H. pose proof (resolve_slots_keys _ _ _ _ H) as K. pose proof (removeunused_NoDup o Nd) as Nu.
  assert (Na : NoDup (dkeys args)) by (rewrite K; exact Nu).
  destruct (resolve_slots_In _ _ _ _ H) as [R1 R2]. split; [|split; [|exact Na]].
  - intros n w M. assert (Hu : In (n, Some w) (removeunused o)) by (apply used_mentions; exists w; auto).
    destruct (R1 n (Some w) Hu) as (r & E & Hin). exists r. split; [apply dget_NoDup; assumption|].
    pose proof (check_ok b (Some w) ni r nd (nm n w M) E). tauto.
  - intros n U. apply dget_None. rewrite K. intros Hin. apply in_map_iff in Hin. destruct Hin as ([n' s] & E & Hin). simpl in E. subst n'.
    apply used_mentions in Hin. destruct Hin as (w & -> & M). apply (U w M).
Qed.

(** ** Arguments of the constructor *)

Lemma dget_dupdate {A} (d e : dict A) n : NoDup (dkeys e) ->
  dget (dupdate d e) n = match dget e n with Some a => Some a | None => dget d n end.
Proof.
  unfold dupdate. revert d. induction e as [|[k a] e IH]; intros d H; simpl; [reflexivity|].
  inversion H as [|? ? H1 H2]. subst. rewrite IH by exact H2. rewrite dget_dset.
  destruct (String.eqb_spec k n) as [->|Hn]; [|destruct (dget e n); reflexivity].
  apply dget_None in H1. rewrite H1. reflexivity.
Qed.

Lemma dget_as_args c n : dget (as_args c) n =
  match dget (cslots c) n with
  | Some (Some w) => Some (RVV w)
  | Some None => Some REmpty
  | None => None
  end.
Proof.
  unfold as_args. induction (cslots c) as [|[k s] l IH]; simpl; [reflexivity|]. destruct (String.eqb k n); [destruct s; reflexivity|exact IH].
Qed.

Lemma split_none : convert REmpty = Ok (MkVV (VStr "None") None [] []).
Proof. reflexivity. Qed.

(** ** C11 *)

Lemma modify_inv w i b o bs s w' c :
  nth_error (bufs w) i = Some b -> bdata b = [c] ->
  modify_buf w i b o bs s = (w', Ok tt) ->
  exists mods r' c' b', resolve_slots bs true (removeunused o) = Ok mods /\
    mk_chunk (wreg w) (ctype o) (dupdate (as_args c) mods) = Ok (r', c') /\
    w' = set_reg (set_buf w i b') r' /\ bdata b' = [c'].
Proof.
  intros Eb Ed. unfold modify_buf. rewrite Ed. destruct (resolve_slots _ _ _) as [mods|]; [|discriminate].
  destruct (mk_chunk _ _ _) as [[r' c']|] eqn:Ek; [|discriminate]. intros H. injection H as <-.
  eexists mods, r', c', _. split; [reflexivity|]. split; [exact Ek|]. split; [reflexivity|].
  destruct (bkind b); try reflexivity. unfold attend. destruct s; [destruct (Nat.eqb _ _)|]; reflexivity.
Qed.

Theorem modify_exact w i o bs s w' r c :
  holds_chunks w i [c] -> names_distinct o -> NoDup (dkeys (bpos bs)) -> marks_free bs o ->
  step w (OModify i o bs s) = (w', Ok r) ->
  exists c', holds_chunks w' i [c'] /\ ctype c' = ctype o /\
    (forall n v, mentions o n v -> ~ illegal bs true v /\
       exists u, dget (cslots c') n = Some (Some u) /\ resolves_to bs v u) /\
    (forall n u, unmentioned o n -> dget (cslots c) n = Some (Some u) -> dget (cslots c') n = Some (Some u)) /\
    (forall n, unmentioned o n -> dget (cslots c) n = Some None -> dget (cslots c') n = Some (plain (VStr "None"))) /\
    (forall n, unmentioned o n -> ~ In n (dkeys (cslots c)) -> In n (dkeys (cslots c')) -> dget (cslots c') n = Some None) /\
    mems w' = mems w /\ other_buffers_same w w' i.
Proof.
  intros (b & Eb & Ed) No nd nm H. simpl in H. rewrite Eb in H.
  destruct (modify_buf w i b o bs s) as [w1 [u|]] eqn:Em; [|discriminate]. simpl in H. injection H as -> _. destruct u.
  destruct (modify_inv _ _ _ _ _ _ _ _ Eb Ed Em) as (mods & r' & c' & b' & R & M & -> & Hd).
  destruct (resolve_get bs true o mods No nd nm R) as (R1 & R2 & R3).
  apply mk_chunk_spec in M. destruct M as (M1 & M2 & M3 & M4 & _ & _).
  exists c'. split; [exists b'; split; [simpl; apply (upd_same _ _ _ b); exact Eb|exact Hd]|]. split; [exact M1|].
  assert (G : forall n, dget (dupdate (as_args c) mods) n = match dget mods n with Some a => Some a | None => dget (as_args c) n end)
    by (intros n; apply dget_dupdate; exact R3).
  repeat split.
  - destruct (R1 n v H) as (u & Eu & Ru & Li). exact Li.
  - destruct (R1 n v H) as (u & Eu & Ru & Li). exists u. split; [|exact Ru].
    destruct (M2 n (RVV u)) as (w0 & C & D); [rewrite G, Eu; reflexivity|]. simpl in C. injection C as <-. exact D.
  - intros n u U E. destruct (M2 n (RVV u)) as (w0 & C & D); [rewrite G, (R2 n U), dget_as_args, E; reflexivity|].
    simpl in C. injection C as <-. exact D.
  - intros n U E. destruct (M2 n REmpty) as (w0 & C & D); [rewrite G, (R2 n U), dget_as_args, E; reflexivity|].
    rewrite split_none in C. injection C as <-. exact D.
  - intros n U Hn Hin. apply M3; [|exact Hin]. rewrite G, (R2 n U), dget_as_args. apply dget_None in Hn. rewrite Hn. reflexivity.
  - intros j Hj. simpl. apply upd_other. exact Hj.
Qed.

(** Seen as content, every slot that is not mentioned keeps its value. *)
Theorem modify_frame w i o bs s w' r c c' n :
  holds_chunks w i [c] -> names_distinct o -> NoDup (dkeys (bpos bs)) -> marks_free bs o ->
  step w (OModify i o bs s) = (w', Ok r) -> holds_chunks w' i [c'] -> unmentioned o n ->
  slot_value c' n = slot_value c n \/ (is_empty (slot_value c' n) /\ is_empty (slot_value c n)).
Proof.
  intros Hc No nd nm H (b' & Eb' & Ed') U. destruct (modify_exact _ _ _ _ _ _ _ _ Hc No nd nm H) as (c'' & (b2 & Eb2 & Ed2) & _ & _ & F1 & F2 & F3 & _).
  assert (c'' = c') by congruence. subst c''. unfold slot_value.
  destruct (dget (cslots c) n) as [[u|]|] eqn:E.
  - rewrite (F1 n u U E). auto.
  - rewrite (F2 n U E). right. split; constructor.
  - destruct (dget (cslots c') n) as [x|] eqn:E'; [|auto].
    rewrite (F3 n U) in E'; [|apply dget_None; exact E|apply (dget_Some_key _ _ E')]. injection E' as <-. right. split; constructor.
Qed.

(** When does modify succeed?  Whenever no mentioned slot is illegal (with the guards of the
    resolution theorem) and the type is known and has the slots of both chunks. *)
Lemma convert_all_total args : (forall n x, In (n, x) args -> exists w, convert x = Ok w) -> exists kw, convert_all args = Ok kw.
Proof.
  induction args as [|[n x] args IH]; intros H; simpl; [eauto|].
  destruct (H n x) as (w & E); [simpl; auto|]. rewrite E. simpl. destruct IH as (kw & E'); [intros n' x' H'; apply (H n' x'); simpl; auto|].
  rewrite E'. simpl. eauto.
Qed.
Lemma nt_fill_total ct i fields kw : (forall f, In f fields -> In f (dkeys kw)) -> exists l, nt_fill ct i fields kw = Ok l.
Proof.
  revert i. induction fields as [|f fields IH]; intros i H; simpl; [eauto|].
  destruct (dget kw f) eqn:E; [|apply dget_None in E; exfalso; apply E, H; simpl; auto].
  simpl. destruct (IH (S i)) as (l & El); [intros g Hg; apply H; simpl; auto|]. rewrite El. simpl. eauto.
Qed.
Lemma mk_chunk_total r ty args ct : dget r ty = Some ct ->
  (forall n x, In (n, x) args -> exists w, convert x = Ok w) ->
  (forall n, In n (dkeys args) -> In n (ctfields ct)) -> exists c, mk_chunk r ty args = Ok (r, c).
Proof.
  intros Et Hc Hk. unfold mk_chunk. destruct (convert_all_total args Hc) as (kw & Ekw). rewrite Ekw. cbn [rbind]. rewrite Et.
  pose proof (convert_all_keys _ _ Ekw) as K.
  assert (S : subset (dkeys (fill_empty (ctfields ct) kw)) (ctfields ct) = true).
  { apply subset_spec. intros n Hn. apply fill_keys in Hn. destruct Hn as [Hn|Hn]; [apply Hk; rewrite <- K; exact Hn|exact Hn]. }
  rewrite S, Et. unfold nt_call. rewrite S.
  destruct (nt_fill_total ct 0 (ctfields ct) (fill_empty (ctfields ct) kw)) as (l & El); [intros f Hf; apply fill_keys; auto|].
  rewrite El. simpl. eauto.
Qed.

Lemma resolve_slots_total b ni l : (forall n s, In (n, s) l -> exists r, check_bound_vars b s ni = Ok r) ->
  exists args, resolve_slots b ni l = Ok args.
Proof.
  induction l as [|[n s] l IH]; intros H; simpl; [eauto|]. destruct (H n s) as (r & E); [simpl; auto|]. rewrite E. simpl.
  destruct IH as (a & Ea); [intros n' s' H'; apply (H n' s'); simpl; auto|]. rewrite Ea. simpl. eauto.
Qed.

Lemma dupdate_In {A} (d e : dict A) n x : In (n, x) (dupdate d e) -> In (n, x) d \/ In (n, x) e.
Proof.
  unfold dupdate. revert d. induction e as [|[k a] e IH]; intros d H; simpl in *; [auto|].
  apply IH in H. destruct H as [H|H]; [|auto]. clear IH.
  induction d as [|[k' a'] d IHd]; simpl in H; [destruct H as [H|[]]; auto|].
  destruct (String.eqb_spec k' k) as [->|Hn]; simpl in H.
  - destruct H as [H|H]; [auto|simpl; auto].
  - destruct H as [H|H]; [simpl; auto|]. destruct (IHd H) as [H'|H']; [simpl; auto|auto].
Qed.

Theorem modify_succeeds w i o bs s c ct :
  holds_chunks w i [c] -> NoDup (dkeys (bpos bs)) ->
  (forall n v, mentions o n v -> no_marks bs v /\ not_empty_bound bs v /\ ~ illegal bs true v) ->
  dget (wreg w) (ctype o) = Some ct ->
  (forall n, In n (dkeys (cslots c)) \/ In n (dkeys (cslots o)) -> In n (ctfields ct)) ->
  exists w', step w (OModify i o bs s) = (w', Ok None).
Proof.
  intros (b & Eb & Ed) nd Hm Et Hf. simpl. rewrite Eb. unfold modify_buf. rewrite Ed.
  destruct (resolve_slots_total bs true (removeunused o)) as (mods & R).
  { intros n s0 Hin. apply used_mentions in Hin. destruct Hin as (v & -> & M). destruct (Hm n v M) as (H1 & H2 & H3).
    pose proof (resolve_exact bs (Some v) true nd H1 H2 (or_introl eq_refl)) as X.
    destruct (check_bound_vars bs (Some v) true) as [u|e]; [eauto|]. destruct X as [_ X]. contradiction. }
  rewrite R. pose proof (resolve_slots_keys _ _ _ _ R) as K. pose proof (proj2 (resolve_slots_In _ _ _ _ R)) as RI.
  destruct (mk_chunk_total (wreg w) (ctype o) (dupdate (as_args c) mods) ct Et) as (c' & Ec).
  { intros n x Hin. apply dupdate_In in Hin. destruct Hin as [Hin|Hin].
    - unfold as_args in Hin. apply in_map_iff in Hin. destruct Hin as ([n' [u|]] & E & _); simpl in E; injection E as <- <-; eexists; reflexivity.
    - destruct (RI n x Hin) as (s0 & u & _ & _ & ->). eexists. reflexivity. }
  { intros n Hin. apply in_map_iff in Hin. destruct Hin as ([n' x] & E & Hin). simpl in E. subst n'. apply Hf. apply dupdate_In in Hin. destruct Hin as [Hin|Hin].
    - left. unfold as_args in Hin. apply in_map_iff in Hin. destruct Hin as ([n' s0] & E & Hin). simpl in E. injection E as <- _.
      apply in_map_iff. exists (n', s0). auto.
    - right. destruct (RI n x Hin) as (s0 & u & Hu & _ & _). apply used_mentions in Hu. destruct Hu as (v & -> & (Hu & _)).
      apply in_map_iff. exists (n, Some v). auto. }
  rewrite Ec. simpl. eauto.
Qed.

(** ** C12 *)

Theorem failed_modify_empties w i o bs s w' e c :
  holds_chunks w i [c] -> step w (OModify i o bs s) = (w', Err e) ->
  holds_chunks w' i [] /\ mems w' = mems w.
Proof.
  intros (b & Eb & Ed) H. simpl in H. rewrite Eb in H. unfold modify_buf in H. rewrite Ed in H.
  assert (G : holds_chunks (set_buf w i (set_data b [])) i [])
    by (eexists; split; [apply (upd_same _ _ _ b); exact Eb|reflexivity]).
  destruct (resolve_slots _ _ _) as [mods|].
  - destruct (mk_chunk _ _ _) as [[r' c']|]; [discriminate|]. simpl in H. injection H as <- _. split; [exact G|reflexivity].
  - simpl in H. injection H as <- _. split; [exact G|reflexivity].
Qed.

(** Creating a chunk in the goal buffer is safe in this respect. *)
Theorem failed_create_keeps w i o bs w' e :
  step w (OCreate i o bs) = (w', Err e) -> w' = w.
Proof.
  simpl. destruct (nth_error (bufs w) i) as [b|]; [|congruence]. unfold create_buf. simpl.
  destruct (bkind b); try (intros H; injection H; congruence).
  destruct (resolve_slots _ _ _); [|simpl; congruence]. destruct (mk_chunk _ _ _) as [[r' c']|]; [discriminate|simpl; congruence].
Qed.
