(** Specification and proofs for buffers (C10 to C15, C17). *)
From Verif Require Import BaseFacts Chunks ChunkSpec ChunkFacts ChunkMatch TypeFacts ResolveFacts DecMem DecMemFacts Buffers.
Local Open Scope string_scope.
Arguments hval_eqb : simpl never.
Arguments hash_value : simpl nomatch.
Arguments val_eqb : simpl nomatch.

(** ** Observations of a world *)

Definition holds_chunks (w : world) (i : nat) (l : list chunk) : Prop :=
  exists b, nth_error (bufs w) i = Some b /\ bdata b = l.
Definition memory (w : world) (m : nat) : option decmem := nth_error (mems w) m.
Definition of_kind (w : world) (i : nat) (k : kind) : Prop :=
  exists b, nth_error (bufs w) i = Some b /\ bkind b = k.

(** The memory that a buffer is harvested to: the one given, or else the buffer's own. *)
Definition harvested_to (w : world) (i : nat) (h : option nat) (m : nat) : Prop :=
  match h with
  | Some k => m = k
  | None => exists b, nth_error (bufs w) i = Some b /\ bdm b = Some m
  end.

(** Only buffer [i] may differ. *)
Definition other_buffers_same (w w' : world) (i : nat) : Prop :=
  forall j, j <> i -> nth_error (bufs w') j = nth_error (bufs w) j.
Definition other_memories_same (w w' : world) (m : nat) : Prop :=
  forall k, k <> m -> memory w' k = memory w k.

(** Memory [m'] is [m] with one more presentation of [c] at time [t] and nothing else. *)
Definition recorded (m m' : decmem) (c : chunk) (t : Q) : Prop :=
  (forall d, same_entry c d -> dm_times m' d = Some (times m d ++ [round4 t])%list) /\
  (forall d, ~ same_entry c d -> dm_times m' d = dm_times m d).

(** Nothing is lost going from [m] to [m']: entries stay in place and times are only added. *)
Definition extends (m m' : decmem) : Prop :=
  (exists new, map fst (dmdata m') = (map fst (dmdata m) ++ new)%list) /\
  forall c ts, dm_times m c = Some ts -> exists more, dm_times m' c = Some (ts ++ more)%list.

(** ** Lists *)

Lemma upd_same {A} (l : list A) i x y : nth_error l i = Some y -> nth_error (upd l i x) i = Some x.
Proof. revert i. induction l as [|a l IH]; intros [|i] H; simpl in *; try discriminate; auto. Qed.
Lemma upd_other {A} (l : list A) i j x : j <> i -> nth_error (upd l i x) j = nth_error l j.
Proof. revert i j. induction l as [|a l IH]; intros [|i] [|j] H; simpl; try reflexivity; try congruence. apply IH. congruence. Qed.
Lemma upd_length {A} (l : list A) i x : List.length (upd l i x) = List.length l.
Proof. revert i. induction l as [|a l IH]; intros [|i]; simpl; auto. Qed.
Lemma upd_id {A} (l : list A) i x : nth_error l i = Some x -> upd l i x = l.
Proof. revert i. induction l as [|a l IH]; intros [|i] H; simpl in *; try discriminate; [congruence|]. f_equal. auto. Qed.
Lemma upd_Forall {A} (P : A -> Prop) l i x : Forall P l -> P x -> Forall P (upd l i x).
Proof. intros H Hx. revert i. induction H as [|a l Ha Hl IH]; intros [|i]; simpl; constructor; auto. Qed.
Lemma upd_upd {A} (l : list A) i x y : upd (upd l i x) i y = upd l i y.
Proof. revert i. induction l as [|a l IH]; intros [|i]; simpl; [reflexivity..|]. f_equal. auto. Qed.
Lemma nth_Forall {A} (P : A -> Prop) l i x : Forall P l -> nth_error l i = Some x -> P x.
Proof. rewrite Forall_forall. intros H E. apply H. apply (nth_error_In _ _ E). Qed.
Lemma Forall_snoc {A} (P : A -> Prop) l x : Forall P l -> P x -> Forall P (l ++ [x]).
Proof. intros. apply Forall_app. auto. Qed.

(** ** C10 *)

Definition small (b : buffer) : Prop := (List.length (bdata b) <= 1)%nat.
Definition all_small (w : world) : Prop := Forall small (bufs w).

Lemma attend_small b s : small b -> small (attend b s).
Proof. unfold attend, small. destruct s; [|auto]. destruct (Nat.eqb _ _); auto. Qed.

Lemma clear_small w i b t h : all_small w -> small b -> all_small (fst (clear_buf w i b t h)).
Proof.
  intros H Hb. unfold clear_buf.
  assert (G : forall m dm c rest, bdata b = c :: rest ->
     all_small (set_buf (set_mem_at w m dm) i (set_data b rest))).
  { intros m dm c rest E. apply upd_Forall; [exact H|]. unfold small in *. simpl in *. rewrite E in Hb. simpl in Hb. lia. }
  destruct (bkind b); [..|apply upd_Forall; [exact H|unfold small; simpl; lia]];
    (destruct (bdata b) as [|c rest]; [exact H|];
     destruct (match h with Some m => Some m | None => bdm b end); [|exact H];
     destruct (nth_error (mems w) n); [|exact H]; eapply G; reflexivity).
Qed.

Lemma add_small w i b x t h s : all_small w -> small b -> all_small (fst (add_buf w i b x t h s)).
Proof.
  intros H Hb. unfold add_buf. destruct (bkind b) eqn:K; [..|exact H];
    [destruct x; simpl; (apply upd_Forall; [exact H|unfold small; simpl; lia])|..];
    (pose proof (clear_small w i b t h H Hb) as C; destruct (clear_buf w i b t h) as [w1 [u|e]]; [|exact C];
     destruct x; simpl; (apply upd_Forall; [exact C|]); try apply attend_small; unfold small; simpl; lia).
Qed.

Lemma set_insert_small c rest : (S (List.length rest) <= 1)%nat -> (List.length (set_insert c rest) <= 1)%nat.
Proof. destruct rest; simpl; [lia|lia]. Qed.

Lemma modify_small w i b o bs s : all_small w -> small b -> all_small (fst (modify_buf w i b o bs s)).
Proof.
  intros H Hb. unfold modify_buf. destruct (bdata b) as [|c rest] eqn:E; [exact H|].
  assert (Hr : (S (List.length rest) <= 1)%nat) by (unfold small in Hb; rewrite E in Hb; exact Hb).
  destruct (resolve_slots _ _ _); [|apply upd_Forall; [exact H|unfold small; simpl; lia]].
  destruct (mk_chunk _ _ _) as [[r' c']|]; [|apply upd_Forall; [exact H|unfold small; simpl; lia]].
  apply upd_Forall; [exact H|].
  assert (small (set_data b (set_insert c' rest))) by (apply set_insert_small; exact Hr).
  destruct (bkind b); try assumption. apply attend_small. assumption.
Qed.

Lemma step_small w o : all_small w -> all_small (fst (step w o)).
Proof.
  intros H.
  assert (N : forall i b, nth_error (bufs w) i = Some b -> small b) by (intros i b E; apply (nth_Forall _ _ _ _ H E)).
  assert (F : forall (r : world * res unit), fst (fst r, u <- snd r ;; Ok (@None chunk)) = fst r) by reflexivity.
  destruct o; simpl.
  - exact H.
  - destruct (nth_error (mems w) m); exact H.
  - destruct (nth_error (mems w) m); exact H.
  - unfold new_buf. destruct (Nat.leb_spec (List.length d) 1) as [Hd|Hd]; [|exact H]. apply Forall_snoc; [exact H|]. exact Hd.
  - destruct (nth_error (bufs w) i) eqn:E; [|exact H]. apply add_small; eauto.
  - destruct (nth_error (bufs w) i) eqn:E; [|exact H]. apply clear_small; eauto.
  - destruct (nth_error (bufs w) i) eqn:E; [|exact H]. apply modify_small; eauto.
  - destruct (nth_error (bufs w) i) eqn:E; [|exact H]. unfold create_buf. destruct (bkind b); try exact H.
    destruct (resolve_slots _ _ _); [|exact H]. destruct (mk_chunk _ _ _) as [[r' c']|]; [|exact H].
    apply upd_Forall; [exact H|]. unfold small. simpl. lia.
  - destruct (nth_error (bufs w) i) eqn:E; [|exact H]. apply upd_Forall; [exact H|]. pose proof (N i b E) as Hb.
    unfold small in *. simpl. revert Hb. generalize (bdata b). intros l Hl.
    destruct l as [|a [|? ?]]; simpl in *; [lia| |lia]. destruct (negb _); simpl; lia.
  - destruct (nth_error (bufs w) i) eqn:E; [|exact H]. unfold copy_buf, new_buf. destruct (bkind b); try exact H;
      (destruct (Nat.leb_spec (List.length (bdata b)) 1) as [Hd|Hd]; [|exact H]; apply Forall_snoc; [exact H|exact Hd]).
  - destruct (nth_error (bufs w) i) eqn:E; [|exact H]. destruct (retrieve_buf w i b p act time o bs x) as [w' r] eqn:R. simpl.
    unfold retrieve_buf in R. destruct (bkind b); try (injection R as <- _; exact H).
    destruct (request _ _ _) as [[r' pat]|]; [|injection R as <- _; exact H].
    destruct (match bdm b with Some _ => _ | None => _ end) as [[m dm]|]; [|injection R as <- _; exact H].
    destruct (retrieve_loop _ _ _ _ _ _ _ _ _ _) as [st|]; [|injection R as <- _; exact H].
    injection R as <- _. apply upd_Forall; [exact H|]. pose proof (N i b E) as Hb. destruct (Nat.eqb (bfinst b) 0); exact Hb.
  - destruct (nth_error (bufs w) i) eqn:E; [|exact H]. apply upd_Forall; [exact H|]. apply (N i b E).
  - destruct (nth_error (bufs w) i) eqn:E; [|exact H]. apply upd_Forall; [exact H|]. apply (N i b E).
  - destruct (nth_error (bufs w) i) eqn:E; [|exact H]. destruct (Qle_bool 0 q); [|exact H]. apply upd_Forall; [exact H|]. apply (N i b E).
Qed.

Lemma run_small ops w : all_small w -> all_small (run ops w).
Proof. revert w. induction ops as [|o ops IH]; intros w H; simpl; [exact H|]. apply IH, step_small, H. Qed.

Theorem buffer_at_most_one ops i l : holds_chunks (run ops world0) i l -> l = [] \/ exists c, l = [c].
Proof.
  intros (b & E & <-). assert (S : small b).
  { apply (nth_Forall small (bufs (run ops world0)) i); [|exact E]. apply run_small. constructor. }
  unfold small in S. destruct (bdata b) as [|c [|]]; simpl in S; [auto|eauto|lia].
Qed.

(** ** C13 *)

Lemma nth_set_buf w i b b' : nth_error (bufs w) i = Some b -> nth_error (bufs (set_buf w i b')) i = Some b'.
Proof. apply upd_same. Qed.

Lemma clear_exact w i b t h m dm c :
  nth_error (bufs w) i = Some b -> bkind b <> KMotor -> bdata b = [c] ->
  harvested_to w i h m -> memory w m = Some dm ->
  clear_buf w i b t h = (set_buf (set_mem_at w m (dm_add dm c t)) i (set_data b []), Ok tt).
Proof.
  intros Hb Hk Hd Hh Hm. unfold clear_buf. rewrite Hd.
  assert (E : (match h with Some k => Some k | None => bdm b end) = Some m).
  { destruct h as [k|]; simpl in Hh; [congruence|]. destruct Hh as (b0 & E0 & E1). congruence. }
  rewrite E. unfold memory in Hm. rewrite Hm. destruct (bkind b); try reflexivity. congruence.
Qed.

Lemma recorded_add dm c t : recorded dm (dm_add dm c t) c t.
Proof. destruct (add_spec dm c t) as (A1 & A2 & _). split; assumption. Qed.

Theorem clear_conserves w i t h m dm c :
  holds_chunks w i [c] -> ~ of_kind w i KMotor -> harvested_to w i h m -> memory w m = Some dm ->
  exists w' dm', step w (OClear i t h) = (w', Ok None) /\
    holds_chunks w' i [] /\ memory w' m = Some dm' /\ recorded dm dm' c t /\
    other_memories_same w w' m /\ other_buffers_same w w' i.
Proof.
  intros (b & Eb & Ed) Hk Hh Hm. simpl. rewrite Eb.
  rewrite (clear_exact w i b t h m dm c Eb); [|intros K; apply Hk; exists b; auto|exact Ed|exact Hh|exact Hm].
  eexists _, (dm_add dm c t). split; [reflexivity|]. split; [|split; [|split; [|split]]].
  - exists (set_data b []). split; [|reflexivity]. simpl. apply (upd_same _ _ _ b). exact Eb.
  - unfold memory. simpl. apply (upd_same _ _ _ dm). exact Hm.
  - apply recorded_add.
  - intros k Hn. unfold memory. simpl. apply upd_other. exact Hn.
  - intros j Hn. simpl. apply upd_other. exact Hn.
Qed.

(** Clearing an empty buffer does nothing; clearing a full one without a memory raises and
    changes nothing. *)
Theorem clear_empty w i t h : holds_chunks w i [] -> step w (OClear i t h) = (w, Ok None).
Proof.
  intros (b & Eb & Ed). simpl. rewrite Eb. unfold clear_buf. rewrite Ed.
  destruct (bkind b); try reflexivity. simpl. unfold set_buf. rewrite upd_id; [destruct w; reflexivity|].
  destruct b as [k d ? ? ? ? ? ?]. simpl in *. subst d. exact Eb.
Qed.

Theorem clear_without_memory w i t c b :
  nth_error (bufs w) i = Some b -> bkind b <> KMotor -> bdata b = [c] -> bdm b = None ->
  step w (OClear i t None) = (w, Err EAttr).
Proof.
  intros Eb Hk Ed Em. simpl. rewrite Eb. unfold clear_buf. rewrite Ed, Em. destruct (bkind b); try reflexivity. congruence.
Qed.

(** ** C14, C15 *)

Definition saving (k : kind) : Prop := k = KRetrieval \/ k = KVisual \/ k = KLocation.

Theorem add_saves_old w i b t h s m dm old x :
  nth_error (bufs w) i = Some b -> saving (bkind b) -> bdata b = [old] ->
  harvested_to w i h m -> memory w m = Some dm ->
  exists w' dm', fst (step w (OAdd i x t h s)) = w' /\
    memory w' m = Some dm' /\ recorded dm dm' old t /\
    other_memories_same w w' m /\ other_buffers_same w w' i /\
    match x with
    | AChunk c => snd (step w (OAdd i x t h s)) = Ok None /\ holds_chunks w' i [c]
    | AOther => snd (step w (OAdd i x t h s)) = Err EType /\ holds_chunks w' i []
    end.
Proof.
  intros Eb Hk Ed Hh Hm.
  assert (Nm : bkind b <> KMotor) by (destruct Hk as [->|[->| ->]]; discriminate).
  pose proof (clear_exact w i b t h m dm old Eb Nm Ed Hh Hm) as C.
  eexists _, (dm_add dm old t). split; [reflexivity|].
  assert (G : forall b1 (r : res (option chunk)), bdata b1 = match x with AChunk c => [c] | AOther => [] end ->
     let w' := set_buf (set_buf (set_mem_at w m (dm_add dm old t)) i (set_data b [])) i b1 in
     memory w' m = Some (dm_add dm old t) /\ recorded dm (dm_add dm old t) old t /\
     other_memories_same w w' m /\ other_buffers_same w w' i /\
     holds_chunks w' i (match x with AChunk c => [c] | AOther => [] end)).
  { intros b1 r Hd. simpl. split; [|split; [|split; [|split]]].
    - unfold memory. simpl. apply (upd_same _ _ _ dm). exact Hm.
    - apply recorded_add.
    - intros k Hn. unfold memory. simpl. apply upd_other. exact Hn.
    - intros j Hn. simpl. rewrite !upd_other by exact Hn. reflexivity.
    - exists b1. split; [|exact Hd]. simpl. rewrite upd_upd. apply (upd_same _ _ _ b). exact Eb. }
  simpl. rewrite Eb. unfold add_buf. rewrite C.
  assert (Ad : forall bb, bdata (attend bb s) = bdata bb) by (intros bb; unfold attend; destruct s; [destruct (Nat.eqb _ _)|]; reflexivity).
  destruct Hk as [K|[K|K]]; rewrite K; destruct x as [c|]; simpl;
    match goal with |- context[set_buf (set_buf _ _ _) i ?b1] => destruct (G b1 (Ok None)) as (G1 & G2 & G3 & G4 & G5) end;
    try rewrite Ad; try reflexivity; auto 10.
Qed.

(** If the buffer was empty, no memory changes. *)
Theorem add_to_empty w i b t h s c :
  nth_error (bufs w) i = Some b -> saving (bkind b) -> bdata b = [] ->
  exists w', step w (OAdd i (AChunk c) t h s) = (w', Ok None) /\ holds_chunks w' i [c] /\
    mems w' = mems w /\ other_buffers_same w w' i.
Proof.
  intros Eb Hk Ed. simpl. rewrite Eb. unfold add_buf, clear_buf. rewrite Ed.
  destruct Hk as [K|[K|K]]; rewrite K; simpl; (eexists; split; [reflexivity|]; split; [|split; [reflexivity|intros j Hn; apply upd_other; exact Hn]]).
  - eexists. split; [apply (upd_same _ _ _ b); exact Eb|reflexivity].
  - eexists. split; [apply (upd_same _ _ _ b); exact Eb|reflexivity].
  - eexists. split; [apply (upd_same _ _ _ b); exact Eb|]. unfold attend. destruct s; [destruct (Nat.eqb _ _)|]; reflexivity.
Qed.

(** If the old chunk cannot be saved, it stays in the buffer. *)
Theorem add_without_memory w i b t s old x :
  nth_error (bufs w) i = Some b -> saving (bkind b) -> bdata b = [old] -> bdm b = None ->
  step w (OAdd i x t None s) = (w, Err EAttr).
Proof.
  intros Eb Hk Ed Em. simpl. rewrite Eb. unfold add_buf, clear_buf. rewrite Ed, Em.
  destruct Hk as [K|[K|K]]; rewrite K; reflexivity.
Qed.

(** C15: the goal buffer never saves anything when a chunk is added. *)
Theorem goal_add_never_saves w i b t h s x :
  nth_error (bufs w) i = Some b -> bkind b = KGoal ->
  mems (fst (step w (OAdd i x t h s))) = mems w /\
  holds_chunks (fst (step w (OAdd i x t h s))) i (match x with AChunk c => [c] | AOther => [] end).
Proof.
  intros Eb K. simpl. rewrite Eb. unfold add_buf. rewrite K.
  destruct x; simpl; (split; [reflexivity|]); eexists; (split; [apply (upd_same _ _ _ b); exact Eb|reflexivity]).
Qed.

(** ** C17 *)

Lemma extends_refl m : extends m m.
Proof. split; [exists []; symmetry; apply app_nil_r|]. intros c ts H. exists []. rewrite app_nil_r. exact H. Qed.
Lemma extends_trans a b c : extends a b -> extends b c -> extends a c.
Proof.
  intros [(n1 & H1) H2] [(n2 & H3) H4]. split; [exists (n1 ++ n2)%list; rewrite H3, H1, app_assoc; reflexivity|].
  intros k ts E. destruct (H2 k ts E) as (m1 & E1). destruct (H4 k _ E1) as (m2 & E2). exists (m1 ++ m2)%list. rewrite app_assoc. exact E2.
Qed.
Lemma extends_add m c t : extends m (dm_add m c t).
Proof.
  destruct (add_spec m c t) as (A1 & A2 & A3 & _). split.
  - destruct A3 as [[_ ->]|[_ ->]]; [exists []; symmetry; apply app_nil_r|eexists; reflexivity].
  - intros d ts E. destruct (chunk_eqb nobind c d) eqn:Q.
    + exists [round4 t]. rewrite (A1 d Q). unfold times. rewrite E. reflexivity.
    + exists []. rewrite app_nil_r, A2; [exact E|]. unfold same_entry. congruence.
Qed.

Lemma strength_data m j i r oc : dmdata (fst (strength m j i r oc)) = dmdata m.
Proof.
  unfold strength. destruct (negb _ && negb _); [reflexivity|]. destruct (var_truthy r).
  - destruct (existsb _ _); [|reflexivity]. destruct (rcount _ _ _); reflexivity.
  - destruct (ucount _ _); reflexivity.
Qed.
Lemma spread_data p m c : dmdata (spread_mem p m c) = dmdata m.
Proof.
  unfold spread_mem. revert m. induction (psources p) as [|sv l IH]; intros m; simpl; [reflexivity|].
  rewrite IH. apply strength_data.
Qed.
Lemma retrieve_step_data p act t pat i c ts st st' :
  retrieve_step p act t pat i c ts st = Ok st' -> dmdata (rsmem st') = dmdata (rsmem st).
Proof.
  unfold retrieve_step. destruct (psub p).
  - destruct (if ppm p then _ else _) as [[b1 apm] ok]. destruct ok; [|intros H; injection H as <-; reflexivity].
    destruct (act i); [intros H; injection H as <-; reflexivity|discriminate|].
    destruct (_ && _); intros H; injection H as <-; apply spread_data.
  - destruct (chunk_le _ _ _) as [b1 ok]. destruct ok; [|intros H; injection H as <-; reflexivity].
    destruct ts; [discriminate|]. destruct (Qeq_bool q t); intros H; injection H as <-; reflexivity.
Qed.
Lemma retrieve_loop_data p act t pat x n rc l : forall i st st',
  retrieve_loop p act t pat x n rc i l st = Ok st' -> dmdata (rsmem st') = dmdata (rsmem st).
Proof.
  induction l as [|[c ts] l IH]; intros i st st' H; simpl in H; [injection H as <-; reflexivity|].
  destruct (skipped x n rc c); simpl in H; [apply (IH _ _ _ H)|].
  destruct (retrieve_step p act t pat i c ts st) as [st1|] eqn:E; [|discriminate]. simpl in H.
  rewrite (IH _ _ _ H). apply (retrieve_step_data _ _ _ _ _ _ _ _ _ E).
Qed.
Lemma extends_data m m' : dmdata m' = dmdata m -> extends m m'.
Proof.
  intros H. split; [exists []; rewrite H, app_nil_r; reflexivity|]. intros c ts E. exists []. rewrite app_nil_r. unfold dm_times in *. rewrite H. exact E.
Qed.

Definition all_extend (w w' : world) : Prop :=
  forall m dm, memory w m = Some dm -> exists dm', memory w' m = Some dm' /\ extends dm dm'.

Lemma ae_refl w w' : mems w' = mems w -> all_extend w w'.
Proof. intros H m dm E. exists dm. unfold memory in *. rewrite H. split; [exact E|apply extends_refl]. Qed.
Lemma ae_upd w k dm0 dm1 bs r : memory w k = Some dm0 -> extends dm0 dm1 ->
  all_extend w (MkW (upd (mems w) k dm1) bs r).
Proof.
  intros E X m dm Em. unfold memory in *. simpl. destruct (Nat.eq_dec m k) as [->|Hn].
  - exists dm1. split; [apply (upd_same _ _ _ dm0); exact E|]. congruence.
  - exists dm. rewrite upd_other by exact Hn. split; [exact Em|apply extends_refl].
Qed.
Lemma ae_snoc w dm1 bs r : all_extend w (MkW (mems w ++ [dm1]) bs r).
Proof.
  intros m dm E. unfold memory in *. simpl. exists dm. split; [|apply extends_refl].
  rewrite nth_error_app1; [exact E|]. apply nth_error_Some. congruence.
Qed.

Lemma clear_extends w i b t h : all_extend w (fst (clear_buf w i b t h)).
Proof.
  unfold clear_buf. destruct (bkind b); [..|apply ae_refl; reflexivity];
    (destruct (bdata b) as [|c rest]; [apply ae_refl; reflexivity|];
     destruct (match h with Some m => Some m | None => bdm b end) as [m|]; [|apply ae_refl; reflexivity];
     destruct (nth_error (mems w) m) as [dm|] eqn:E; [|apply ae_refl; reflexivity];
     apply (ae_upd w m dm); [exact E|apply extends_add]).
Qed.

Lemma step_extends w o : all_extend w (fst (step w o)).
Proof.
  destruct o; simpl.
  - apply ae_snoc.
  - destruct (nth_error (mems w) m) eqn:E; [|apply ae_refl; reflexivity]. apply (ae_upd w m d); [exact E|apply extends_add].
  - destruct (nth_error (mems w) m) eqn:E; [|apply ae_refl; reflexivity]. apply ae_snoc.
  - destruct (new_buf _ _ _ _); apply ae_refl; reflexivity.
  - destruct (nth_error (bufs w) i) as [b|]; [|apply ae_refl; reflexivity]. unfold add_buf. simpl.
    destruct (bkind b) eqn:K; [destruct x; apply ae_refl; reflexivity|..|apply ae_refl; reflexivity];
      (pose proof (clear_extends w i b t h) as C; destruct (clear_buf w i b t h) as [w1 [u|e]]; [|exact C];
       destruct x; exact C).
  - destruct (nth_error (bufs w) i) as [b|]; [|apply ae_refl; reflexivity]. apply clear_extends.
  - destruct (nth_error (bufs w) i) as [b|]; [|apply ae_refl; reflexivity]. apply ae_refl. unfold modify_buf.
    destruct (bdata b); [reflexivity|]. destruct (resolve_slots _ _ _); [|reflexivity]. destruct (mk_chunk _ _ _) as [[? ?]|]; reflexivity.
  - destruct (nth_error (bufs w) i) as [b|]; [|apply ae_refl; reflexivity]. apply ae_refl. unfold create_buf.
    destruct (bkind b); try reflexivity. destruct (resolve_slots _ _ _); [|reflexivity]. destruct (mk_chunk _ _ _) as [[? ?]|]; reflexivity.
  - destruct (nth_error (bufs w) i) as [b|]; apply ae_refl; reflexivity.
  - destruct (nth_error (bufs w) i) as [b|]; [|apply ae_refl; reflexivity]. apply ae_refl. unfold copy_buf.
    destruct (bkind b); try reflexivity; destruct (new_buf _ _ _ _); reflexivity.
  - destruct (nth_error (bufs w) i) as [b|]; [|apply ae_refl; reflexivity].
    destruct (retrieve_buf w i b p act time o bs x) as [w' r] eqn:R. simpl.
    unfold retrieve_buf in R. destruct (bkind b); try (injection R as <- _; apply ae_refl; reflexivity).
    destruct (request _ _ _) as [[r' pat]|]; [|injection R as <- _; apply ae_refl; reflexivity].
    destruct (bdm b) as [m|]; [|injection R as <- _; apply ae_refl; reflexivity].
    destruct (nth_error (mems w) m) as [dm|] eqn:Em; [|injection R as <- _; apply ae_refl; reflexivity].
    destruct (retrieve_loop _ _ _ _ _ _ _ _ _ _) as [st|] eqn:L; [|injection R as <- _; apply ae_refl; reflexivity].
    injection R as <- _. apply (ae_upd w m dm); [exact Em|]. apply extends_data. apply (retrieve_loop_data _ _ _ _ _ _ _ _ _ _ _ L).
  - destruct (nth_error (bufs w) i) as [b|]; apply ae_refl; reflexivity.
  - destruct (nth_error (bufs w) i) as [b|]; apply ae_refl; reflexivity.
  - destruct (nth_error (bufs w) i) as [b|]; [|apply ae_refl; reflexivity]. destruct (Qle_bool 0 q); apply ae_refl; reflexivity.
Qed.

Theorem never_forgets ops w m dm : memory w m = Some dm ->
  exists dm', memory (run ops w) m = Some dm' /\ extends dm dm'.
Proof.
  revert w dm. induction ops as [|o ops IH]; intros w dm E; simpl; [exists dm; split; [exact E|apply extends_refl]|].
  destruct (step_extends w o m dm E) as (dm1 & E1 & X1). destruct (IH _ _ E1) as (dm2 & E2 & X2).
  exists dm2. split; [exact E2|]. apply (extends_trans _ _ _ X1 X2).
Qed.
