(** Proofs about matching of chunks. *)
From Verif Require Import Chunks ChunkSpec ChunkFacts.
Local Open Scope string_scope.
#[local] Set Implicit Arguments.
Arguments hval_eqb : simpl never.
Arguments hash_value : simpl nomatch.
Arguments val_eqb : simpl nomatch.

(** ** Requirements *)

Lemma truthy_spec v : truthy v = true <-> ~ (asks_nothing v /\ v <> VEmpty).
Proof.
  destruct v as [| |s|[ty sl]]; simpl.
  - split; [discriminate|]. intros H. exfalso. apply H. split; [constructor|discriminate].
  - split; [|reflexivity]. intros _ [_ H]. congruence.
  - destruct (String.eqb_spec s "") as [->|Hne]; simpl.
    + split; [discriminate|]. intros H. exfalso. apply H. split; [constructor|discriminate].
    + split; [|reflexivity]. intros _ [H _]. inversion H. congruence.
  - destruct sl; simpl.
    + split; [discriminate|]. intros H. exfalso. apply H. split; [constructor|discriminate].
    + split; [|reflexivity]. intros _ [H _]. inversion H.
Qed.

Lemma asks_nothing_dec v : {asks_nothing v} + {~ asks_nothing v}.
Proof.
  destruct v as [| |s|[ty sl]]; try (left; constructor).
  - destruct (string_dec s "") as [->|H]; [left; constructor|right; intros H'; inversion H'; congruence].
  - destruct sl; [left; constructor|right; intros H'; inversion H'].
Qed.

Lemma match_value_spec v m :
  match_value v m = true <-> (~ asks_nothing v -> val_eqb v m = true).
Proof.
  unfold match_value. destruct (asks_nothing_dec v) as [Ha|Ha].
  - split; [tauto|]. intros _. inversion Ha; reflexivity.
  - assert (Ht : truthy v = true) by (apply truthy_spec; tauto). rewrite Ht.
    assert (v <> VEmpty) by (intros ->; apply Ha; constructor).
    destruct v; try tauto; congruence.
Qed.

Lemma val_eqb_empty m : val_eqb m VEmpty = emptyish m.
Proof. destruct m; reflexivity. Qed.

Lemma neg_clash_spec v m : goodv v -> goodv m -> (neg_clash v m = true <-> same_content v m).
Proof.
  intros Gv Gm. unfold neg_clash. rewrite orb_true_iff, andb_true_iff, val_eqb_empty, !emptyish_spec.
  split.
  - intros [H|[H1 H2]]; [apply val_eqb_same_content; assumption|left; auto].
  - intros [[H1 H2]|(H1 & H2 & H3)]; [auto|]. left. apply same_content_val_eqb; auto.
    + intros ->. apply H1. constructor.
    + intros ->. apply H2. constructor.
    + right. auto.
Qed.

Lemma match_negvals_spec nvs m : (forall v, In v nvs -> goodv v) -> goodv m ->
  (match_negvals nvs m = true <-> forall v, In v nvs -> ~ same_content v m).
Proof.
  intros Gn Gm. unfold match_negvals. rewrite negb_true_iff, <- not_true_iff_false, existsb_exists.
  split.
  - intros H v Hin Hs. apply H. exists v. split; [exact Hin|]. apply neg_clash_spec; auto.
  - intros H (v & Hin & Hc). apply (H v Hin). apply neg_clash_spec; auto.
Qed.

Lemma key_eqb_content v w : key_eqb v w = true -> goodv v -> goodv w -> same_content v w.
Proof.
  unfold key_eqb. intros H Gv Gw. apply andb_true_iff in H. apply val_eqb_same_content; tauto.
Qed.

Lemma set_mem_spec v l : set_mem v l = true <-> exists w, In w l /\ key_eqb w v = true.
Proof. unfold set_mem. rewrite existsb_exists. reflexivity. Qed.

Lemma key_eqb_refl v : key_eqb v v = true.
Proof. unfold key_eqb. rewrite hval_eqb_refl, val_eqb_refl. reflexivity. Qed.

Lemma set_add_incl v l : incl l (set_add v l).
Proof.
  unfold set_add. intros x Hx. destruct (set_mem v l); [exact Hx|]. apply in_app_iff. auto.
Qed.

Lemma set_add_has v l : exists w, In w (set_add v l) /\ key_eqb w v = true.
Proof.
  unfold set_add. destruct (set_mem v l) eqn:E.
  - apply set_mem_spec. exact E.
  - exists v. split; [apply in_app_iff; simpl; auto|apply key_eqb_refl].
Qed.

Lemma set_add_inv v l x : In x (set_add v l) -> In x l \/ x = v.
Proof.
  unfold set_add. destruct (set_mem v l); [auto|]. rewrite in_app_iff. simpl. intuition.
Qed.

Lemma excluded_In b x u : In u (excluded b x) <-> exists l, dget (bneg b) x = Some l /\ In u l.
Proof.
  unfold excluded. destruct (dget (bneg b) x) as [l|]; split.
  - eauto.
  - intros (l' & [= <-] & H). exact H.
  - intros [].
  - intros (l' & [=] & _).
Qed.

(** ** Bindings are kept (C08) *)

Lemma keeps_refl b : keeps b b.
Proof. split; [auto|]. intros x l H. exists l. split; [exact H|apply incl_refl]. Qed.

Lemma keeps_trans a b c : keeps a b -> keeps b c -> keeps a c.
Proof.
  intros [H1 H2] [H3 H4]. split; [auto|].
  intros x l H. destruct (H2 x l H) as (l1 & E1 & I1). destruct (H4 x l1 E1) as (l2 & E2 & I2).
  exists l2. split; [exact E2|]. eapply incl_tran; eauto.
Qed.

Lemma keeps_bind b x m :
  dget (bpos b) x = None -> keeps b (MkB (dset (bpos b) x m) (bneg b)).
Proof.
  intros H. split; simpl.
  - intros y v E. rewrite dget_dset. destruct (String.eqb_spec x y) as [->|]; [congruence|exact E].
  - intros y l E. exists l. split; [exact E|apply incl_refl].
Qed.

Lemma keeps_exclude b x m :
  keeps b (MkB (bpos b) (dset (bneg b) x (set_add m (excluded b x)))).
Proof.
  split; simpl; [auto|]. intros y l E. rewrite dget_dset.
  destruct (String.eqb_spec x y) as [->|].
  - eexists. split; [reflexivity|]. unfold excluded. rewrite E. apply set_add_incl.
  - exists l. split; [exact E|apply incl_refl].
Qed.

Lemma match_var_keeps b o m : keeps b (fst (match_var b o m)).
Proof.
  unfold match_var. destruct (var_truthy o) as [x|]; [|apply keeps_refl].
  destruct (existsb _ _); [apply keeps_refl|].
  destruct (dget (bpos b) x) eqn:E; [apply keeps_refl|]. apply keeps_bind. exact E.
Qed.

Lemma match_negvars_keeps xs m : forall b, keeps b (fst (match_negvars b xs m)).
Proof.
  induction xs as [|x xs IH]; intros b; simpl; [apply keeps_refl|].
  destruct (dget (bpos b) x) as [v|].
  - destruct (val_eqb v m); [apply keeps_refl|]. eapply keeps_trans; [apply keeps_exclude|apply IH].
  - eapply keeps_trans; [apply keeps_exclude|apply IH].
Qed.

Lemma match_slot_keeps b w m : keeps b (fst (match_slot b w m)).
Proof.
  unfold match_slot. pose proof (match_var_keeps b (vvar w) m) as H1.
  destruct (match_var b (vvar w) m) as [b1 ok1]. destruct ok1; [|exact H1].
  pose proof (match_negvars_keeps (vnegvars w) m b1) as H2.
  destruct (match_negvars b1 (vnegvars w) m) as [b2 ok2]. simpl in *.
  destruct ok2; simpl; eapply keeps_trans; eassumption.
Qed.

Lemma match_slots_keeps slots d : forall b, keeps b (fst (match_slots b slots d)).
Proof.
  induction slots as [|[n s] slots IH]; intros b; simpl; [apply keeps_refl|].
  pose proof (match_slot_keeps b (splitting s) (slot_value d n)) as H1.
  destruct (match_slot b (splitting s) (slot_value d n)) as [b1 ok]. destruct ok; [|exact H1].
  eapply keeps_trans; [exact H1|apply IH].
Qed.

Lemma match_chunk_keeps b c d : keeps b (fst (match_chunk b c d)).
Proof.
  unfold match_chunk. destruct (chunk_eqb b c d); [apply keeps_refl|apply match_slots_keeps].
Qed.

Theorem chunk_le_keeps b c d : keeps b (fst (chunk_le b c d)).
Proof.
  unfold chunk_le. destruct (chunk_eqb b c d); [apply keeps_refl|apply match_chunk_keeps].
Qed.

(** ** Matching against a class of values on which == means same content *)

Section Matching.
  Variable K : value -> Prop.
  Hypothesis K_eq : forall v w, goodv v -> goodv w -> K v -> K w ->
    (val_eqb v w = true <-> same_content v w).

  Definition kbind (b : bindings) : Prop :=
    (forall x v, dget (bpos b) x = Some v -> K v) /\
    (forall x l v, dget (bneg b) x = Some l -> In v l -> K v).

  (** What one slot contributes, in a form that survives later bindings. *)
  Definition slot_ok (b : bindings) (w : vv) (m : value) : Prop :=
    (forall x, vvar w = Some x -> x <> "" ->
       exists v, dget (bpos b) x = Some v /\ same_content v m) /\
    (forall x, In x (vnegvars w) ->
       exists l u, dget (bneg b) x = Some l /\ In u l /\ same_content u m) /\
    (~ asks_nothing (vvals w) -> same_content (vvals w) m) /\
    (forall v, In v (vnegvals w) -> ~ same_content v m).

  Lemma slot_ok_keeps b b' w m : keeps b b' -> slot_ok b w m -> slot_ok b' w m.
  Proof.
    intros [H1 H2] (S1 & S2 & S3 & S4). split; [|split; [|split; assumption]].
    - intros x E Hx. destruct (S1 x E Hx) as (v & Ev & Hs). exists v. auto.
    - intros x Hin. destruct (S2 x Hin) as (l & u & El & Hu & Hs).
      destruct (H2 x l El) as (l' & El' & Hincl). exists l', u. auto.
  Qed.

  Lemma var_truthy_spec o x : var_truthy o = Some x <-> o = Some x /\ x <> "".
  Proof.
    destruct o as [[|a s]|]; simpl; split; try discriminate; try (intros [[=] _]; fail).
    - intros [[= <-] H]. congruence.
    - intros [= <-]. split; [reflexivity|discriminate].
    - intros [[= <-] _]. reflexivity.
  Qed.

  Lemma match_var_ok b o m b' :
    good_bindings b -> kbind b -> goodv m -> K m ->
    match_var b o m = (b', true) ->
    good_bindings b' /\ kbind b' /\
    (forall x, o = Some x -> x <> "" -> exists v, dget (bpos b') x = Some v /\ same_content v m).
  Proof.
    intros Gb Kb Gm Km. unfold match_var. destruct (var_truthy o) as [x|] eqn:Eo.
    - apply var_truthy_spec in Eo. destruct Eo as [-> Hx].
      destruct (existsb (fun e => val_eqb e m) (excluded b x)) eqn:Ex; [discriminate|].
      destruct Gb as (G1 & G2 & G3). destruct Kb as (K1 & K2).
      destruct (dget (bpos b) x) as [v|] eqn:E.
      + intros [= <- Hv]. split; [split; auto|]. split; [split; auto|].
        intros y [= <-] _. exists v. split; [exact E|]. apply val_eqb_same_content; auto.
        split; apply (G1 x v E).
      + intros [= <-]. split; [split; [|split]|split; [split|]]; simpl.
        * intros y v. rewrite dget_dset. destruct (String.eqb_spec x y); [intros [= <-]; exact Gm|apply G1].
        * exact G2.
        * intros y l v u El Hu. rewrite dget_dset. destruct (String.eqb_spec x y) as [<-|]; [|apply (G3 y l v u); assumption].
          intros [= <-] Hs.
          assert (Hf : existsb (fun e => val_eqb e m) (excluded b x) = true); [|congruence].
          apply existsb_exists. exists u. split; [apply excluded_In; eauto|].
          apply K_eq; auto; [apply (G2 x l u); assumption|apply (K2 x l); assumption|].
          apply same_content_sym. exact Hs.
        * intros y v. rewrite dget_dset. destruct (String.eqb_spec x y); [intros [= <-]; exact Km|apply K1].
        * exact K2.
        * intros y [= <-] _. exists m. split; [apply dget_dset_eq|apply same_content_refl].
    - intros [= <-]. split; [exact Gb|]. split; [exact Kb|]. intros x -> Hx.
      assert (var_truthy (Some x) = Some x) by (apply var_truthy_spec; auto). congruence.
  Qed.

  Lemma exclude_good b x m :
    good_bindings b -> kbind b -> goodv m -> K m ->
    (forall v, dget (bpos b) x = Some v -> val_eqb v m = false) ->
    good_bindings (MkB (bpos b) (dset (bneg b) x (set_add m (excluded b x)))) /\
    kbind (MkB (bpos b) (dset (bneg b) x (set_add m (excluded b x)))).
  Proof.
    intros (G1 & G2 & G3) (K1 & K2) Gm Km Hv. split; [split; [|split]|split]; simpl.
    - exact G1.
    - intros y l v. rewrite dget_dset. destruct (String.eqb_spec x y) as [<-|]; [|apply G2].
      intros [= <-] Hin. apply set_add_inv in Hin. destruct Hin as [Hin| ->]; [|exact Gm].
      apply excluded_In in Hin. destruct Hin as (l & El & Hin). apply (G2 x l v El Hin).
    - intros y l v u. rewrite dget_dset. destruct (String.eqb_spec x y) as [<-|]; [|apply G3].
      intros [= <-] Hin Ev. apply set_add_inv in Hin. destruct Hin as [Hin| ->].
      + apply excluded_In in Hin. destruct Hin as (l & El & Hin). apply (G3 x l v u El Hin Ev).
      + intros Hs. specialize (Hv v Ev). rewrite (proj2 (K_eq (v:=v) (w:=m) (G1 x v Ev) Gm (K1 x v Ev) Km) Hs) in Hv.
        discriminate.
    - exact K1.
    - intros y l v. rewrite dget_dset. destruct (String.eqb_spec x y) as [<-|]; [|apply K2].
      intros [= <-] Hin. apply set_add_inv in Hin. destruct Hin as [Hin| ->]; [|exact Km].
      apply excluded_In in Hin. destruct Hin as (l & El & Hin). apply (K2 x l v El Hin).
  Qed.

  Lemma match_negvars_ok xs m : forall b b',
    good_bindings b -> kbind b -> goodv m -> K m ->
    match_negvars b xs m = (b', true) ->
    good_bindings b' /\ kbind b' /\
    (forall x, In x xs -> exists l u, dget (bneg b') x = Some l /\ In u l /\ same_content u m).
  Proof.
    induction xs as [|x xs IH]; intros b b' Gb Kb Gm Km; simpl.
    - intros [= <-]. split; [exact Gb|]. split; [exact Kb|]. intros x [].
    - intros H.
      assert (Hv : forall v, dget (bpos b) x = Some v -> val_eqb v m = false).
      { intros v E. rewrite E in H. destruct (val_eqb v m); [discriminate|reflexivity]. }
      assert (H' : match_negvars (MkB (bpos b) (dset (bneg b) x (set_add m (excluded b x)))) xs m = (b', true)).
      { destruct (dget (bpos b) x) as [v|]; [rewrite (Hv v eq_refl) in H|]; exact H. }
      destruct (@exclude_good b x m Gb Kb Gm Km Hv) as [G1 K1].
      destruct (IH _ _ G1 K1 Gm Km H') as (G' & K' & Hx).
      split; [exact G'|]. split; [exact K'|]. intros y [<-|Hin]; [|apply Hx; exact Hin].
      pose proof (match_negvars_keeps xs m (MkB (bpos b) (dset (bneg b) x (set_add m (excluded b x))))) as Hk.
      rewrite H' in Hk. destruct Hk as [_ Hk]. simpl in Hk.
      destruct (Hk x (set_add m (excluded b x))) as (l' & El' & Hincl); [apply dget_dset_eq|].
      destruct (set_add_has m (excluded b x)) as (u & Hu & Ek).
      exists l', u. split; [exact El'|]. split; [apply Hincl; exact Hu|].
      apply key_eqb_content; [exact Ek| |exact Gm].
      destruct G' as (_ & G2 & _). apply (G2 x l' u El'). apply Hincl. exact Hu.
  Qed.

  Lemma match_slot_ok b w m b' :
    good_bindings b -> kbind b -> goodv m -> K m ->
    goodv (vvals w) -> (forall v, In v (vnegvals w) -> goodv v) ->
    match_slot b w m = (b', true) ->
    good_bindings b' /\ kbind b' /\ slot_ok b' w m.
  Proof.
    intros Gb Kb Gm Km Gw Gn. unfold match_slot.
    destruct (match_var b (vvar w) m) as [b1 ok1] eqn:E1. destruct ok1; [|discriminate].
    destruct (match_negvars b1 (vnegvars w) m) as [b2 ok2] eqn:E2. destruct ok2; [|discriminate].
    intros [= <- H]. apply andb_true_iff in H. destruct H as [H3 H4].
    destruct (@match_var_ok _ _ _ _ Gb Kb Gm Km E1) as (G1 & K1 & S1).
    destruct (@match_negvars_ok _ _ _ _ G1 K1 Gm Km E2) as (G2 & K2 & S2).
    split; [exact G2|]. split; [exact K2|]. split; [|split; [|split]].
    - intros x Ex Hx. destruct (S1 x Ex Hx) as (v & Ev & Hs). exists v. split; [|exact Hs].
      pose proof (match_negvars_keeps (vnegvars w) m b1) as [Hk _]. rewrite E2 in Hk. apply Hk. exact Ev.
    - exact S2.
    - intros Ha. apply val_eqb_same_content; [exact Gw|exact Gm|].
      apply (proj1 (match_value_spec (vvals w) m) H3 Ha).
    - apply match_negvals_spec; assumption.
  Qed.

  Lemma match_slots_ok slots d : forall b b',
    good_bindings b -> kbind b ->
    (forall n, In n (dkeys slots) -> goodv (slot_value d n) /\ K (slot_value d n)) ->
    (forall n w, In (n, Some w) slots -> goodv (vvals w) /\ forall v, In v (vnegvals w) -> goodv v) ->
    match_slots b slots d = (b', true) ->
    good_bindings b' /\ kbind b' /\
    (forall n w, In (n, Some w) slots -> slot_ok b' w (slot_value d n)).
  Proof.
    induction slots as [|[n s] slots IH]; intros b b' Gb Kb Hd Hc; simpl.
    - intros [= <-]. split; [exact Gb|]. split; [exact Kb|]. intros n w [].
    - destruct (match_slot b (splitting s) (slot_value d n)) as [b1 ok] eqn:E1.
      destruct ok; [|discriminate]. intros E2.
      assert (Hw : goodv (vvals (splitting s)) /\ forall v, In v (vnegvals (splitting s)) -> goodv v).
      { destruct s as [w|]; simpl.
        - apply (Hc n w). simpl. auto.
        - split; [split; constructor|intros v []]. }
      destruct (Hd n) as [Gm Km]; [simpl; auto|].
      destruct (@match_slot_ok _ _ _ _ Gb Kb Gm Km (proj1 Hw) (proj2 Hw) E1) as (G1 & K1 & S1).
      destruct (IH b1 b' G1 K1) as (G2 & K2 & S2).
      + intros y Hy. apply Hd. simpl. auto.
      + intros y w Hy. apply (Hc y). simpl. auto.
      + exact E2.
      + split; [exact G2|]. split; [exact K2|]. intros y w [[= <- ->]|Hin]; [|apply S2; exact Hin].
        apply slot_ok_keeps with b1; [|exact S1].
        pose proof (match_slots_keeps slots d b1) as Hk. rewrite E2 in Hk. exact Hk.
  Qed.

  Lemma slot_ok_satisfies b c d :
    good_bindings b ->
    (forall n w, In (n, Some w) (cslots c) -> slot_ok b w (slot_value d n)) ->
    satisfies (dget (bpos b)) c d.
  Proof.
    intros (G1 & G2 & G3) H n w Hin. destruct (H n w Hin) as (S1 & S2 & S3 & S4).
    split; [exact S1|]. split; [|split; assumption].
    intros x v Hx Ev Hs. destruct (S2 x Hx) as (l & u & El & Hu & Hs').
    apply (G3 x l v u El Hu Ev). apply same_content_trans with (slot_value d n); [exact Hs|].
    apply same_content_sym. exact Hs'.
  Qed.

  (** *** Completeness *)

  Variable f : string -> option value.

  Lemma match_var_complete b o m :
    good_bindings b -> kbind b -> goodv m -> K m ->
    respects f b ->
    (forall x, o = Some x -> x <> "" -> exists v, f x = Some v /\ same_content v m) ->
    snd (match_var b o m) = true /\ respects f (fst (match_var b o m)).
  Proof.
    intros Gb Kb Gm Km [R1 R2] Ho. unfold match_var. destruct (var_truthy o) as [x|] eqn:Eo.
    - apply var_truthy_spec in Eo. destruct Eo as [-> Hx].
      destruct (Ho x eq_refl Hx) as (v & Ev & Hs).
      destruct (existsb (fun e => val_eqb e m) (excluded b x)) eqn:Ex.
      + exfalso. apply existsb_exists in Ex. destruct Ex as (u & Hu & Eu).
        apply excluded_In in Hu. destruct Hu as (l & El & Hu).
        apply (R2 x l u v El Hu Ev). apply same_content_trans with m; [exact Hs|].
        apply same_content_sym. apply val_eqb_same_content; auto.
        destruct Gb as (_ & G2 & _). apply (G2 x l u El Hu).
      + destruct (dget (bpos b) x) as [v0|] eqn:E; simpl.
        * split; [|split; assumption]. destruct Gb as (G1 & _ & _). destruct Kb as (K1 & _).
          apply K_eq; eauto; [apply (G1 x v0 E)|]. destruct (R1 x v0 E) as (v' & Ev' & Hs').
          rewrite Ev in Ev'. injection Ev' as <-. apply same_content_trans with v; assumption.
        * split; [reflexivity|]. split; simpl; [|exact R2].
          intros y v0. rewrite dget_dset. destruct (String.eqb_spec x y) as [<-|]; [|apply R1].
          intros [= <-]. exists v. split; [exact Ev|]. apply same_content_sym. exact Hs.
    - simpl. split; [reflexivity|split; assumption].
  Qed.

  Lemma match_negvars_complete xs m : forall b,
    good_bindings b -> kbind b -> goodv m -> K m -> respects f b ->
    (forall x v, In x xs -> f x = Some v -> ~ same_content v m) ->
    snd (match_negvars b xs m) = true /\ respects f (fst (match_negvars b xs m)).
  Proof.
    induction xs as [|x xs IH]; intros b Gb Kb Gm Km R Hn; simpl; [auto|].
    assert (Hv : forall v, dget (bpos b) x = Some v -> val_eqb v m = false).
    { intros v E. destruct (val_eqb v m) eqn:Ev; [|reflexivity]. exfalso.
      destruct R as [R1 _]. destruct (R1 x v E) as (v' & Ev' & Hs).
      apply (Hn x v'); [simpl; auto|exact Ev'|].
      apply same_content_trans with v; [apply same_content_sym; exact Hs|].
      apply val_eqb_same_content; auto. destruct Gb as (G1 & _). apply (G1 x v E). }
    destruct (@exclude_good b x m Gb Kb Gm Km Hv) as [G1 K1].
    assert (R' : respects f (MkB (bpos b) (dset (bneg b) x (set_add m (excluded b x))))).
    { destruct R as [R1 R2]. split; simpl; [exact R1|].
      intros y l u v. rewrite dget_dset. destruct (String.eqb_spec x y) as [<-|]; [|apply R2].
      intros [= <-] Hin Ev. apply set_add_inv in Hin. destruct Hin as [Hin| ->].
      - apply excluded_In in Hin. destruct Hin as (l & El & Hin). apply (R2 x l u v El Hin Ev).
      - apply (Hn x v); [simpl; auto|exact Ev]. }
    assert (H' : forall y v, In y xs -> f y = Some v -> ~ same_content v m).
    { intros y v Hy. apply Hn. simpl. auto. }
    specialize (IH _ G1 K1 Gm Km R' H').
    destruct (dget (bpos b) x) as [v|]; [rewrite (Hv v eq_refl)|]; exact IH.
  Qed.

  Lemma match_slots_complete slots d : forall b,
    good_bindings b -> kbind b -> respects f b ->
    (forall n, In n (dkeys slots) -> goodv (slot_value d n) /\ K (slot_value d n)) ->
    (forall n w, In (n, Some w) slots -> goodv (vvals w) /\ forall v, In v (vnegvals w) -> goodv v) ->
    (forall n w, In (n, Some w) slots -> vvals w = VStr "None" -> slot_value d n <> VNone) ->
    (forall n w, In (n, Some w) slots ->
       (forall x, vvar w = Some x -> x <> "" ->
          exists v, f x = Some v /\ same_content v (slot_value d n)) /\
       (forall x v, In x (vnegvars w) -> f x = Some v -> ~ same_content v (slot_value d n)) /\
       (~ asks_nothing (vvals w) -> same_content (vvals w) (slot_value d n)) /\
       (forall v, In v (vnegvals w) -> ~ same_content v (slot_value d n))) ->
    snd (match_slots b slots d) = true /\ respects f (fst (match_slots b slots d)).
  Proof.
    induction slots as [|[n s] slots IH]; intros b Gb Kb R Hd Hc Hnone Hs; simpl; [auto|].
    destruct (Hd n) as [Gm Km]; [simpl; auto|].
    set (m := slot_value d n) in *.
    assert (Hw : goodv (vvals (splitting s)) /\ forall v, In v (vnegvals (splitting s)) -> goodv v).
    { destruct s as [w|]; simpl; [apply (Hc n w); simpl; auto|split; [split; constructor|intros v []]]. }
    assert (Hn : vvals (splitting s) = VStr "None" -> m <> VNone).
    { destruct s as [w|]; simpl; [apply (Hnone n w); simpl; auto|discriminate]. }
    assert (H : (forall x, vvar (splitting s) = Some x -> x <> "" ->
          exists v, f x = Some v /\ same_content v m) /\
       (forall x v, In x (vnegvars (splitting s)) -> f x = Some v -> ~ same_content v m) /\
       (~ asks_nothing (vvals (splitting s)) -> same_content (vvals (splitting s)) m) /\
       (forall v, In v (vnegvals (splitting s)) -> ~ same_content v m)).
    { destruct s as [w|]; simpl; [apply (Hs n w); simpl; auto|].
      split; [discriminate|]. split; [intros x v []|]. split; [|intros v []].
      intros Ha. exfalso. apply Ha. constructor. }
    destruct H as (H1 & H2 & H3 & H4).
    assert (IH' : forall b1, good_bindings b1 -> kbind b1 -> respects f b1 ->
               snd (match_slots b1 slots d) = true /\ respects f (fst (match_slots b1 slots d))).
    { intros b1 G1 K1 R1. apply IH; auto.
      - intros y Hy. apply Hd. simpl. auto.
      - intros y w Hy. apply (Hc y). simpl. auto.
      - intros y w Hy. apply (Hnone y). simpl. auto.
      - intros y w Hy. apply (Hs y). simpl. auto. }
    unfold match_slot.
    destruct (@match_var_complete _ _ _ Gb Kb Gm Km R H1) as [V1 V2].
    destruct (match_var b (vvar (splitting s)) m) as [b1 ok1] eqn:E1. simpl in V1, V2. subst ok1.
    destruct (@match_var_ok _ _ _ _ Gb Kb Gm Km E1) as (G1 & K1 & _).
    destruct (@match_negvars_complete (vnegvars (splitting s)) _ _ G1 K1 Gm Km V2 H2) as [W1 W2].
    destruct (match_negvars b1 (vnegvars (splitting s)) m) as [b2 ok2] eqn:E2. simpl in W1, W2. subst ok2.
    destruct (@match_negvars_ok _ _ _ _ G1 K1 Gm Km E2) as (G2 & K2 & _).
    assert (Hval : match_value (vvals (splitting s)) m = true).
    { apply match_value_spec. intros Ha. specialize (H3 Ha). destruct Hw as [Gw _].
      set (v := vvals (splitting s)) in *. destruct H3 as [[Ev Em]|(Nv & Nm & Hsv)].
      - inversion Ev as [E|E|E]; rewrite <- E in *; try (exfalso; apply Ha; constructor; fail).
        inversion Em as [E'|E'|E']; try reflexivity. exfalso. apply Hn; auto.
      - apply same_content_val_eqb; auto; [intros E; rewrite E in Nv; apply Nv; constructor|
          intros E; rewrite E in Nm; apply Nm; constructor|right; auto]. }
    assert (Hneg : match_negvals (vnegvals (splitting s)) m = true).
    { apply match_negvals_spec; [exact (proj2 Hw)|exact Gm|exact H4]. }
    rewrite Hval, Hneg. simpl. apply IH'; assumption.
  Qed.
End Matching.

(** The two classes of values on which == and "same content" agree. *)
Lemma K_not_none v w : goodv v -> goodv w -> v <> VNone -> w <> VNone ->
  (val_eqb v w = true <-> same_content v w).
Proof.
  intros Gv Gw Hv Hw. split; [apply val_eqb_same_content; assumption|].
  intros [[E1 E2]|(N1 & N2 & S)].
  - inversion E1; inversion E2; subst; try contradiction; reflexivity.
  - apply same_content_val_eqb; auto; [intros ->; apply N1; constructor|
      intros ->; apply N2; constructor|right; auto].
Qed.

Lemma K_not_strnone v w : goodv v -> goodv w -> v <> VStr "None" -> w <> VStr "None" ->
  (val_eqb v w = true <-> same_content v w).
Proof. intros. apply val_eqb_iff; assumption. Qed.

Lemma slot_value_goodv d n : wf_chunk d -> fact d -> goodv (slot_value d n).
Proof.
  intros Wd Fd. unfold slot_value. destruct (dget (cslots d) n) as [[w|]|] eqn:E.
  - apply dget_In in E. split; [apply (fact_inv Fd n w E)|apply (proj1 (proj2 (wf_chunk_inv Wd) n w E))].
  - split; constructor.
  - split; constructor.
Qed.

(** *** The == shortcut *)

Lemma In_singleton_hash (l : list hval) (h : hval) (n : string) :
  map (fun x => (n, (KValues, x))) (hdedup l) = [(n, (KValues, h))] -> forall x, In x l -> x = h.
Proof.
  intros E x Hx. apply hdedup_In in Hx.
  assert (Hin : In (n, (KValues, x)) (map (fun x => (n, (KValues, x))) (hdedup l))).
  { apply in_map_iff. exists x. auto. }
  rewrite E in Hin. destruct Hin as [[= ->]|[]]. reflexivity.
Qed.

Lemma hdedup_nil l : hdedup l = [] -> l = [].
Proof.
  destruct l as [|a l]; [reflexivity|]. intros E. exfalso.
  assert (H : In a (hdedup (a :: l))) by (apply hdedup_In; simpl; auto). rewrite E in H. destruct H.
Qed.

Lemma unbound_in_kind b kd n xs e : In e (unbound b kd n xs) -> fst (snd e) = kd.
Proof.
  unfold unbound. rewrite in_flat_map. intros (x & _ & H). destruct (b x); simpl in H; [tauto|].
  destruct H as [<-|[]]. reflexivity.
Qed.

Lemma unbound_nil b kd n xs : unbound b kd n xs = [] -> forall x, In x xs -> exists v, b x = Some v.
Proof.
  intros E x Hx. destruct (b x) as [v|] eqn:Ex; [eauto|]. exfalso.
  assert (H : In (n, (kd, HStr x)) (unbound b kd n xs)).
  { unfold unbound. apply in_flat_map. exists x. rewrite Ex. simpl. auto. }
  rewrite E in H. destruct H.
Qed.

(** All entries of a slot of a fact are of kind "values". *)
Lemma blk_fact_kind b d n e : fact d -> In e (blk b d n) -> fst (snd e) = KValues.
Proof.
  intros Fd. destruct (blk_fact_cases b n Fd) as [(v & _ & ->)|[_ ->]]; simpl; [|tauto].
  intros [<-|[]]. reflexivity.
Qed.

(** If a slot of the pattern produces exactly the entries of the same slot of the fact... *)
Lemma eq_slot b d n w :
  wf_chunk d -> fact d ->
  slot_entries hash_value (bhash b) n w = blk nobind d n ->
  unbound (bhash b) KVariables n (var_chars (vvar w)) = [] /\
  vnegvars w = [] /\ vnegvals w = [] /\
  (forall x, In x (bound (bhash b) (var_chars (vvar w))) -> exists u, holds d n u /\ x = hash_value u) /\
  (~ is_empty (vvals w) -> exists u, holds d n u /\ hash_value (vvals w) = hash_value u) /\
  (is_empty (vvals w) -> var_chars (vvar w) = [] -> is_empty (slot_value d n)).
Proof.
  intros Wd Fd E.
  assert (Hk : forall e, In e (slot_entries hash_value (bhash b) n w) -> fst (snd e) = KValues).
  { intros e He. rewrite E in He. apply (@blk_fact_kind nobind d n e Fd He). }
  unfold slot_entries in *.
  set (A := unbound (bhash b) KVariables n (var_chars (vvar w))) in *.
  set (B := unbound (bhash b) KNegvariables n (vnegvars w)) in *.
  set (D := map (fun x => (n, (KNegvalues, x))) (hdedup (bound (bhash b) (vnegvars w) ++ map hash_value (vnegvals w)))) in *.
  assert (EA : A = []).
  { destruct A as [|e A'] eqn:EA; [reflexivity|]. exfalso.
    assert (H1 : fst (snd e) = KVariables).
    { apply (@unbound_in_kind (bhash b) KVariables n (var_chars (vvar w))). fold A. rewrite EA. simpl. auto. }
    rewrite (Hk e) in H1; [discriminate|]. simpl. auto. }
  assert (EB : B = []).
  { destruct B as [|e B'] eqn:EB; [reflexivity|]. exfalso.
    assert (H1 : fst (snd e) = KNegvariables).
    { apply (@unbound_in_kind (bhash b) KNegvariables n (vnegvars w)). fold B. rewrite EB. simpl. auto. }
    rewrite (Hk e) in H1; [discriminate|]. rewrite EA. simpl. auto. }
  assert (ED : D = []).
  { destruct D as [|e D'] eqn:ED; [reflexivity|]. exfalso.
    assert (H1 : In e D) by (rewrite ED; simpl; auto). unfold D in H1. apply in_map_iff in H1.
    destruct H1 as (x & <- & _).
    assert (KNegvalues = KValues); [|discriminate].
    apply (Hk (n, (KNegvalues, x))). rewrite !in_app_iff. right; right; right. simpl. auto. }
  rewrite EA, EB, ED in E. simpl in E. rewrite app_nil_r in E.
  assert (EDl : (bound (bhash b) (vnegvars w) ++ map hash_value (vnegvals w))%list = []).
  { apply hdedup_nil. unfold D in ED. apply map_eq_nil in ED. exact ED. }
  apply app_eq_nil in EDl. destruct EDl as [ED1 ED2].
  split; [exact EA|]. split.
  { destruct (vnegvars w) as [|y ys]; [reflexivity|]. exfalso.
    destruct (@unbound_nil _ _ _ _ EB y) as (v & Ev); [simpl; auto|].
    assert (H : In v (bound (bhash b) (y :: ys))).
    { unfold bound. apply in_flat_map. exists y. rewrite Ev. simpl. auto. }
    rewrite ED1 in H. destruct H. }
  split. { destruct (vnegvals w); [reflexivity|discriminate]. }
  destruct (blk_fact_cases nobind n Fd) as [(u & Hu & Eb)|[Hn Eb]]; rewrite Eb in E.
  - split; [|split].
    + intros x Hx. exists u. split; [exact Hu|]. apply (@In_singleton_hash _ _ _ E).
      apply in_app_iff. auto.
    + intros Hne. exists u. split; [exact Hu|]. apply (@In_singleton_hash _ _ _ E).
      apply emptyish_false in Hne. rewrite Hne. apply in_app_iff. simpl. auto.
    + intros He Hc. exfalso. apply emptyish_spec in He. rewrite He, Hc in E. discriminate.
  - assert (El : (bound (bhash b) (var_chars (vvar w)) ++ (if emptyish (vvals w) then [] else [hash_value (vvals w)]))%list = []).
    { apply hdedup_nil. apply map_eq_nil in E; exact E. }
    apply app_eq_nil in El. destruct El as [El1 El2]. split; [|split].
    + intros x Hx. rewrite El1 in Hx. destruct Hx.
    + intros Hne. apply emptyish_false in Hne. rewrite Hne in El2. discriminate.
    + intros _ _. unfold slot_value. destruct (dget (cslots d) n) as [[w'|]|] eqn:E'; try constructor.
      destruct (is_empty_dec (vvals w')); [assumption|]. exfalso. apply (Hn (vvals w')). exists w'. auto.
Qed.

Lemma holds_slot_value d n u : holds d n u -> slot_value d n = u.
Proof. intros (w & E & <- & _). unfold slot_value. rewrite E. reflexivity. Qed.

Lemma chars_one x : String.length x = 1%nat -> chars x = [x].
Proof. destruct x as [|a [|c x]]; simpl; intros H; try lia. reflexivity. Qed.

Lemma chunk_eqb_satisfies b c d :
  wf_chunk c -> const_pattern c -> wf_chunk d -> fact d -> good_bindings b ->
  names_safe b c -> none_alone c ->
  chunk_eqb b c d = true -> satisfies (dget (bpos b)) c d.
Proof.
  intros Wc Cc Wd Fd Gb Hsafe Hnone E. apply chunk_eqb_sig in E.
  destruct (wf_chunk_inv Wc) as [Ic Vc].
  rewrite (sig_eq_iff b c nobind d Ic (proj1 (wf_chunk_inv Wd))) in E.
  intros n w Hin. specialize (E n). unfold blk at 1, blk_with in E.
  rewrite (@dget_NoDup _ _ _ _ (wf_NoDup Wc) Hin) in E.
  destruct (@eq_slot b d n w Wd Fd E) as (A1 & A2 & A3 & A4 & A5 & A6).
  destruct (Vc n w Hin) as [Wv _]. destruct (Cc n w Hin) as [Cv _].
  assert (Same : forall u v, holds d n u -> goodv v -> hash_value v = hash_value u -> same_content v (slot_value d n)).
  { intros u v Hu [C W] Eh. rewrite (holds_slot_value Hu).
    assert (Gu : goodv u) by (rewrite <- (holds_slot_value Hu); apply slot_value_goodv; assumption).
    destruct (is_empty_dec v) as [Hev|Hnv].
    - exfalso. pose proof (holds_nonempty Hu) as Hnu. destruct u as [| |su|cu]; try (apply Hnu; constructor).
      + inversion Hev; subst; simpl in Eh; try discriminate. injection Eh as Es. subst. apply Hnu. constructor.
      + inversion Hev; subst; discriminate.
    - right. split; [exact Hnv|]. split; [apply (holds_nonempty Hu)|].
      apply hash_same_value; auto; try apply Gu. apply (holds_nonempty Hu). }
  split; [|split; [|split]].
  - intros x Ex Hx. rewrite Ex in *. simpl in *.
    destruct (Hsafe n w x Hin Ex Hx) as [Hlen|(y & Hy & Hunb)].
    + rewrite (@chars_one x Hlen) in A1, A4.
      destruct (@unbound_nil _ _ _ _ A1 x) as (hx & Ehx); [simpl; auto|].
      destruct (A4 hx) as (u & Hu & Eu).
      { unfold bound. apply in_flat_map. exists x. rewrite Ehx. simpl. auto. }
      unfold bhash in Ehx. destruct (dget (bpos b) x) as [v|] eqn:Ev; [|discriminate].
      injection Ehx as Ehx. exists v. split; [reflexivity|]. apply (Same u); [exact Hu| |congruence].
      destruct Gb as (G1 & _). apply (G1 x v Ev).
    + exfalso. destruct (@unbound_nil _ _ _ _ A1 y Hy) as (hy & Ehy). unfold bhash in Ehy.
      rewrite Hunb in Ehy. discriminate.
  - intros x v Hx. rewrite A2 in Hx. destruct Hx.
  - intros Ha. destruct (is_empty_dec (vvals w)) as [He|Hne].
    + left. split; [exact He|]. apply A6; [exact He|].
      assert (Ew : vvals w = VStr "None").
      { inversion He as [E'|E'|E']; try reflexivity; exfalso; apply Ha; rewrite <- E'; constructor. }
      rewrite (Hnone n w Hin Ew). reflexivity.
    + destruct (A5 Hne) as (u & Hu & Eu). apply (Same u); [exact Hu| |exact Eu]. split; assumption.
  - intros v Hv. rewrite A3 in Hv. destruct Hv.
Qed.

Lemma pattern_good c : wf_chunk c -> const_pattern c -> forall n w, In (n, Some w) (cslots c) ->
  goodv (vvals w) /\ forall v, In v (vnegvals w) -> goodv v.
Proof.
  intros Wc Cc n w Hin. destruct (wf_chunk_inv Wc) as [_ Vc]. destruct (Vc n w Hin) as [W1 W2].
  destruct (Cc n w Hin) as [C1 C2]. split; [split; assumption|]. intros v Hv. split; auto.
Qed.

(** Soundness (C06). *)
Theorem chunk_le_sound b c d b' :
  wf_chunk c -> const_pattern c -> wf_chunk d -> fact d ->
  good_bindings b -> one_empty b c d -> names_safe b c -> none_alone c ->
  chunk_le b c d = (b', true) ->
  satisfies (dget (bpos b')) c d /\ good_bindings b' /\ keeps b b'.
Proof.
  intros Wc Cc Wd Fd Gb Ho Hs Hn E.
  assert (Hk : keeps b b').
  { pose proof (chunk_le_keeps b c d) as Hk. rewrite E in Hk. exact Hk. }
  unfold chunk_le, match_chunk in E. destruct (chunk_eqb b c d) eqn:Eeq.
  - injection E as <-. split; [|split; [exact Gb|exact Hk]]. apply chunk_eqb_satisfies; assumption.
  - destruct Ho as [(O1 & O2 & O3)|(O1 & O2 & O3)].
    + destruct (@match_slots_ok (fun v => v <> VNone) K_not_none (cslots c) d b b' Gb (conj O1 O2)) as (G' & _ & S);
        [|apply pattern_good; assumption|exact E|].
      * intros n Hin. split; [apply slot_value_goodv; assumption|apply O3; exact Hin].
      * split; [|split; assumption]. apply slot_ok_satisfies; assumption.
    + destruct (@match_slots_ok (fun v => v <> VStr "None") K_not_strnone (cslots c) d b b' Gb (conj O1 O2)) as (G' & _ & S);
        [|apply pattern_good; assumption|exact E|].
      * intros n Hin. split; [apply slot_value_goodv; assumption|apply O3; exact Hin].
      * split; [|split; assumption]. apply slot_ok_satisfies; assumption.
Qed.

(** Completeness (C07). *)
Theorem chunk_le_complete b c d f :
  wf_chunk c -> const_pattern c -> wf_chunk d -> fact d ->
  good_bindings b -> one_empty b c d ->
  (forall n w, In (n, Some w) (cslots c) -> vvals w = VStr "None" -> slot_value d n <> VNone) ->
  respects f b -> satisfies f c d ->
  snd (chunk_le b c d) = true /\ respects f (fst (chunk_le b c d)).
Proof.
  intros Wc Cc Wd Fd Gb Ho Hn R S. unfold chunk_le, match_chunk.
  destruct (chunk_eqb b c d); [auto|].
  assert (Gd : forall n, goodv (slot_value d n)) by (intros; apply slot_value_goodv; assumption).
  destruct Ho as [(O1 & O2 & O3)|(O1 & O2 & O3)].
  - apply (@match_slots_complete (fun v => v <> VNone) K_not_none); auto; [split; assumption|apply pattern_good; assumption].
  - apply (@match_slots_complete (fun v => v <> VStr "None") K_not_strnone); auto; [split; assumption|apply pattern_good; assumption].
Qed.
