(** Proofs about partial matching (C26). *)
From Verif Require Import BaseFacts Chunks ChunkSpec ChunkFacts ChunkMatch ChunkGround.
From Coq Require Import Lqa.
Local Open Scope string_scope.
Arguments hval_eqb : simpl never.
Arguments hash_value : simpl nomatch.
Arguments val_eqb : simpl nomatch.

(** All penalties that can occur are non-positive / negative. *)
Definition penalties_nonpos (t : simtable) (mp : Q) : Prop :=
  (0 <= mp)%Q /\ forall k q, In (k, q) t -> (q <= 0)%Q.
Definition penalties_neg (t : simtable) (mp : Q) : Prop :=
  (0 < mp)%Q /\ forall k q, In (k, q) t -> (q < 0)%Q.

Lemma penalties_neg_nonpos t mp : penalties_neg t mp -> penalties_nonpos t mp.
Proof. intros [H1 H2]. split; [apply Qlt_le_weak; exact H1|]. intros k q H. apply Qlt_le_weak. apply (H2 k q H). Qed.

Lemma sim_get_In t v w q : sim_get t v w = Some q -> exists k, In (k, q) t.
Proof.
  induction t as [|[[v' w'] q'] t IH]; simpl; [discriminate|].
  destruct (key_eqb v' v && key_eqb w' w).
  - intros E. injection E as <-. eauto.
  - intros E. destruct (IH E) as (k & Hk). eauto.
Qed.

Lemma sim_nonpos t mp v w : penalties_nonpos t mp -> (get_similarity t v w mp <= 0)%Q.
Proof.
  intros [H1 H2]. unfold get_similarity. destruct (sim_get t w v) as [q|] eqn:E.
  - apply sim_get_In in E. destruct E as (k & Hk). apply (H2 k q Hk).
  - lra.
Qed.

Lemma sim_neg t mp v w : penalties_neg t mp -> (get_similarity t v w mp < 0)%Q.
Proof.
  intros [H1 H2]. unfold get_similarity. destruct (sim_get t w v) as [q|] eqn:E.
  - apply sim_get_In in E. destruct E as (k & Hk). apply (H2 k q Hk).
  - lra.
Qed.

Lemma sumQ_nonpos {A} (f : A -> Q) l : (forall a, In a l -> f a <= 0)%Q -> (sumQ (map f l) <= 0)%Q.
Proof.
  induction l as [|a l IH]; simpl; intros H; [apply Qle_refl|].
  pose proof (H a (or_introl eq_refl)). specialize (IH (fun x Hx => H x (or_intror Hx))). unfold sumQ in *. simpl in *. lra.
Qed.

(** A sum of non-positive numbers is zero only if all are. *)
Lemma sumQ_zero {A} (f : A -> Q) (p : A -> bool) l :
  (forall a, p a = false -> f a == 0)%Q -> (forall a, p a = true -> f a < 0)%Q ->
  (sumQ (map f l) == 0 <-> existsb p l = false)%Q.
Proof.
  intros H0 H1. assert (Hn : forall a, (f a <= 0)%Q).
  { intros a. destruct (p a) eqn:E; [apply Qlt_le_weak; auto|]. rewrite (H0 a E). apply Qle_refl. }
  induction l as [|a l IH]; [simpl; split; reflexivity|]. simpl. pose proof (sumQ_nonpos f l (fun a _ => Hn a)) as Hs.
  unfold sumQ in *. simpl. destruct (p a) eqn:E; simpl.
  - split; [|discriminate]. intros Hz. specialize (H1 a E). lra.
  - specialize (H0 a E). rewrite <- IH. split; intros Hz; lra.
Qed.

Section Penalties.
  Variable t : simtable.
  Variable mp : Q.

  Lemma pm_var_nonpos b o m : penalties_nonpos t mp -> (snd (pm_var t mp b o m) <= 0)%Q.
  Proof.
    intros P. unfold pm_var. destruct (var_truthy o) as [x|]; [|apply Qle_refl].
    pose proof (sumQ_nonpos (fun e => if val_eqb e m then get_similarity t e m mp else 0%Q) (excluded b x)) as H.
    assert (H' : (sumQ (map (fun e => if val_eqb e m then get_similarity t e m mp else 0%Q) (excluded b x)) <= 0)%Q).
    { apply H. intros a _. destruct (val_eqb a m); [apply sim_nonpos; exact P|apply Qle_refl]. }
    destruct (dget (bpos b) x) as [v|]; simpl; [|exact H'].
    pose proof (sim_nonpos t mp v m P). destruct (val_eqb v m); lra.
  Qed.

  Lemma pm_negvars_nonpos xs : forall b m, penalties_nonpos t mp -> (snd (pm_negvars t mp b xs m) <= 0)%Q.
  Proof.
    induction xs as [|x xs IH]; intros b m P; simpl; [apply Qle_refl|].
    specialize (IH (MkB (bpos b) (dset (bneg b) x (set_add m (excluded b x)))) m P).
    destruct (pm_negvars t mp _ xs m) as [b' q]. simpl in *.
    destruct (dget (bpos b) x) as [v|]; [|lra]. pose proof (sim_nonpos t mp v m P). destruct (val_eqb v m); lra.
  Qed.

  Lemma pm_slot_nonpos b w m : penalties_nonpos t mp -> (snd (pm_slot t mp b w m) <= 0)%Q.
  Proof.
    intros P. unfold pm_slot. pose proof (pm_var_nonpos b (vvar w) m P) as H1.
    destruct (pm_var t mp b (vvar w) m) as [b1 q1]. pose proof (pm_negvars_nonpos (vnegvars w) b1 m P) as H2.
    destruct (pm_negvars t mp b1 (vnegvars w) m) as [b2 q2]. simpl in *.
    assert (H3 : (pm_value t mp (vvals w) m <= 0)%Q).
    { unfold pm_value. destruct (match_value (vvals w) m); [apply Qle_refl|apply sim_nonpos; exact P]. }
    assert (H4 : (pm_negvals t mp (vnegvals w) m <= 0)%Q).
    { apply sumQ_nonpos. intros a _. destruct (neg_clash a m); [apply sim_nonpos; exact P|apply Qle_refl]. }
    lra.
  Qed.

  Lemma pm_slots_nonpos slots : forall b d, penalties_nonpos t mp -> (snd (pm_slots t mp b slots d) <= 0)%Q.
  Proof.
    induction slots as [|[n s] slots IH]; intros b d P; simpl; [apply Qle_refl|].
    pose proof (pm_slot_nonpos b (splitting s) (slot_value d n) P) as H1.
    destruct (pm_slot t mp b (splitting s) (slot_value d n)) as [b1 q1]. specialize (IH b1 d P).
    destruct (pm_slots t mp b1 slots d) as [b2 q2]. simpl in *. lra.
  Qed.

  Theorem pm_match_nonpos b c d : penalties_nonpos t mp -> (snd (pm_match t mp b c d) <= 0)%Q.
  Proof.
    intros P. unfold pm_match. destruct (chunk_eqb b c d); [apply Qle_refl|apply pm_slots_nonpos; exact P].
  Qed.

  (** With negative penalties, score zero means that ordinary matching succeeds, and then the
      bindings are the same. *)
  Definition agrees {X} (p : bindings * Q) (q : bindings * X) (ok : X -> bool) : Prop :=
    ((snd p == 0)%Q <-> ok (snd q) = true) /\ (ok (snd q) = true -> fst p = fst q).

  Lemma pm_var_agrees b o m : penalties_neg t mp ->
    ((snd (pm_var t mp b o m) == 0)%Q <-> snd (match_var b o m) = true) /\
    (snd (match_var b o m) = true -> fst (pm_var t mp b o m) = fst (match_var b o m)).
  Proof.
    intros P. unfold pm_var, match_var. destruct (var_truthy o) as [x|]; [|simpl; split; [split; reflexivity|reflexivity]].
    pose proof (sumQ_zero (fun e => if val_eqb e m then get_similarity t e m mp else 0%Q) (fun e => val_eqb e m) (excluded b x)) as Hz.
    pose proof (sumQ_nonpos (fun e => if val_eqb e m then get_similarity t e m mp else 0%Q) (excluded b x)) as Hn.
    set (S := sumQ (map _ (excluded b x))) in *.
    assert (Hz' : (S == 0)%Q <-> existsb (fun e => val_eqb e m) (excluded b x) = false).
    { apply Hz; intros a E; rewrite E; [reflexivity|apply sim_neg; exact P]. }
    assert (Hn' : (S <= 0)%Q).
    { apply Hn. intros a _. destruct (val_eqb a m); [apply sim_nonpos, penalties_neg_nonpos; exact P|apply Qle_refl]. }
    clear Hz Hn. destruct (existsb (fun e => val_eqb e m) (excluded b x)).
    - assert (HS : (S < 0)%Q). { destruct (Qlt_le_dec S 0) as [|Hge]; [assumption|]. assert (S == 0)%Q by lra. apply Hz' in H. discriminate. }
      split; [|discriminate]. split; [|discriminate]. intros E. exfalso.
      destruct (dget (bpos b) x) as [v|]; simpl in E; [|lra].
      pose proof (sim_neg t mp v m P). destruct (val_eqb v m); lra.
    - assert (HS : (S == 0)%Q) by (apply Hz'; reflexivity).
      destruct (dget (bpos b) x) as [v|]; simpl; [|split; [split; [reflexivity|auto]|reflexivity]].
      pose proof (sim_neg t mp v m P). destruct (val_eqb v m); split; try reflexivity; split; try reflexivity; try discriminate; intros; lra.
  Qed.

  Lemma pm_negvars_agrees xs : forall b m, penalties_neg t mp ->
    ((snd (pm_negvars t mp b xs m) == 0)%Q <-> snd (match_negvars b xs m) = true) /\
    (snd (match_negvars b xs m) = true -> fst (pm_negvars t mp b xs m) = fst (match_negvars b xs m)).
  Proof.
    induction xs as [|x xs IH]; intros b m P; simpl; [split; [split; reflexivity|reflexivity]|].
    set (b1 := MkB (bpos b) (dset (bneg b) x (set_add m (excluded b x)))).
    specialize (IH b1 m P). pose proof (pm_negvars_nonpos xs b1 m (penalties_neg_nonpos _ _ P)) as Hn.
    destruct (pm_negvars t mp b1 xs m) as [b2 q2]. simpl in *.
    destruct (dget (bpos b) x) as [v|].
    - pose proof (sim_neg t mp v m P). destruct (val_eqb v m); simpl.
      + split; [|discriminate]. split; [intros; lra|discriminate].
      + destruct IH as [I1 I2]. split; [|exact I2]. rewrite <- I1. split; intros; lra.
    - destruct IH as [I1 I2]. split; [|exact I2]. rewrite <- I1. split; intros; lra.
  Qed.

  Lemma pm_slot_agrees b w m : penalties_neg t mp ->
    ((snd (pm_slot t mp b w m) == 0)%Q <-> snd (match_slot b w m) = true) /\
    (snd (match_slot b w m) = true -> fst (pm_slot t mp b w m) = fst (match_slot b w m)).
  Proof.
    intros P. pose proof (penalties_neg_nonpos _ _ P) as P'. unfold pm_slot, match_slot.
    pose proof (pm_var_agrees b (vvar w) m P) as [A1 A2]. pose proof (pm_var_nonpos b (vvar w) m P') as A3.
    destruct (pm_var t mp b (vvar w) m) as [b1 q1]. destruct (match_var b (vvar w) m) as [b1' ok1]. simpl in A1, A2, A3.
    pose proof (pm_negvars_nonpos (vnegvars w) b1 m P') as B3.
    pose proof (pm_negvars_agrees (vnegvars w) b1 m P) as [B1 B2].
    destruct (pm_negvars t mp b1 (vnegvars w) m) as [b2 q2] eqn:E2. simpl in B1, B2, B3.
    assert (C : ((pm_value t mp (vvals w) m == 0)%Q <-> match_value (vvals w) m = true) /\ (pm_value t mp (vvals w) m <= 0)%Q).
    { unfold pm_value. pose proof (sim_neg t mp (vvals w) m P). destruct (match_value (vvals w) m); split; try lra; split; intros; try reflexivity; try discriminate; exfalso; lra. }
    assert (D : ((pm_negvals t mp (vnegvals w) m == 0)%Q <-> match_negvals (vnegvals w) m = true) /\ (pm_negvals t mp (vnegvals w) m <= 0)%Q).
    { unfold pm_negvals, match_negvals. split.
      - rewrite (sumQ_zero _ (fun nv => neg_clash nv m)).
        + destruct (existsb _ _); simpl; split; congruence.
        + intros a E. rewrite E. reflexivity.
        + intros a E. rewrite E. apply sim_neg. exact P.
      - apply sumQ_nonpos. intros a _. destruct (neg_clash a m); [apply sim_nonpos; exact P'|apply Qle_refl]. }
    destruct C as [C1 C2], D as [D1 D2]. simpl.
    destruct ok1.
    - assert (b1 = b1') by auto. subst b1'. destruct (match_negvars b1 (vnegvars w) m) as [b2' ok2]. simpl in B1, B2.
      destruct ok2; simpl.
      + split.
        * rewrite andb_true_iff, <- C1, <- D1. assert (q1 == 0)%Q by (apply A1; reflexivity). assert (q2 == 0)%Q by (apply B1; reflexivity).
          split; [intros; split; lra|intros []; lra].
        * intros _. auto.
      + split; [|discriminate]. split; [|discriminate]. intros Hz. assert (q2 == 0)%Q by lra. apply B1 in H. discriminate.
    - split; [|discriminate]. split; [|discriminate]. simpl. intros Hz. assert (q1 == 0)%Q by lra. apply A1 in H. discriminate.
  Qed.

  Lemma pm_slots_agrees slots : forall b d, penalties_neg t mp ->
    ((snd (pm_slots t mp b slots d) == 0)%Q <-> snd (match_slots b slots d) = true) /\
    (snd (match_slots b slots d) = true -> fst (pm_slots t mp b slots d) = fst (match_slots b slots d)).
  Proof.
    induction slots as [|[n s] slots IH]; intros b d P; simpl; [split; [split; reflexivity|reflexivity]|].
    pose proof (pm_slot_agrees b (splitting s) (slot_value d n) P) as [A1 A2].
    pose proof (pm_slot_nonpos b (splitting s) (slot_value d n) (penalties_neg_nonpos _ _ P)) as A3.
    destruct (pm_slot t mp b (splitting s) (slot_value d n)) as [b1 q1].
    destruct (match_slot b (splitting s) (slot_value d n)) as [b1' ok1]. simpl in *.
    specialize (IH b1 d P). pose proof (pm_slots_nonpos slots b1 d (penalties_neg_nonpos _ _ P)) as B3.
    destruct (pm_slots t mp b1 slots d) as [b2 q2]. simpl in *. destruct ok1.
    - assert (b1 = b1') by auto. subst b1'. destruct IH as [I1 I2]. split; [|exact I2].
      assert (q1 == 0)%Q by (apply A1; reflexivity). rewrite <- I1. split; intros; lra.
    - simpl. split; [|discriminate]. split; [|discriminate]. intros Hz. assert (q1 == 0)%Q by lra. apply A1 in H. discriminate.
  Qed.

  Theorem pm_match_agrees b c d : penalties_neg t mp ->
    ((snd (pm_match t mp b c d) == 0)%Q <-> snd (chunk_le b c d) = true) /\
    (snd (chunk_le b c d) = true -> fst (pm_match t mp b c d) = fst (chunk_le b c d)).
  Proof.
    intros P. unfold pm_match, chunk_le, match_chunk. destruct (chunk_eqb b c d).
    - simpl. split; [split; reflexivity|reflexivity].
    - apply pm_slots_agrees. exact P.
  Qed.

  (** ** The score of a constant pattern *)

  (** The penalties of one slot [n] with content [w], seen from chunk [d]: one for a required
      value that is not there, one for each forbidden value that is there. *)
  Inductive forbidden_pen (d : chunk) (n : string) : list value -> Q -> Prop :=
  | fp_nil : forbidden_pen d n [] 0
  | fp_hit v vs q : has_forbidden d n v -> forbidden_pen d n vs q ->
      forbidden_pen d n (v :: vs) (get_similarity t v (slot_value d n) mp + q)
  | fp_miss v vs q : ~ has_forbidden d n v -> forbidden_pen d n vs q -> forbidden_pen d n (v :: vs) q.

  Inductive slots_pen (d : chunk) : list (string * slotval) -> Q -> Prop :=
  | sp_nil : slots_pen d [] 0
  | sp_unset n l q : slots_pen d l q -> slots_pen d ((n, None) :: l) q
  | sp_agree n w l f q :
      asks_nothing (vvals w) \/ has_required d n (vvals w) ->
      forbidden_pen d n (vnegvals w) f -> slots_pen d l q ->
      slots_pen d ((n, Some w) :: l) (f + q)
  | sp_differ n w l f q :
      ~ asks_nothing (vvals w) -> ~ has_required d n (vvals w) ->
      forbidden_pen d n (vnegvals w) f -> slots_pen d l q ->
      slots_pen d ((n, Some w) :: l) (get_similarity t (vvals w) (slot_value d n) mp + f + q).

  Lemma forbidden_pen_spec d n vs : wf_chunk d -> fact d -> (forall v, In v vs -> goodv v) ->
    exists q, forbidden_pen d n vs q /\ (pm_negvals t mp vs (slot_value d n) == q)%Q.
  Proof.
    intros Wd Fd. pose proof (slot_value_goodv n Wd Fd) as Gm. unfold pm_negvals.
    induction vs as [|v vs IH]; intros G; [exists 0%Q; split; [constructor|reflexivity]|].
    destruct IH as (q & H1 & H2); [intros u Hu; apply G; simpl; auto|]. simpl.
    pose proof (neg_clash_spec (G v (or_introl eq_refl)) Gm) as Hc. destruct (neg_clash v (slot_value d n)).
    - eexists. split; [apply fp_hit; [apply Hc; reflexivity|exact H1]|]. unfold sumQ in *. simpl. rewrite H2. reflexivity.
    - exists q. split; [apply fp_miss; [|exact H1]|].
      + intros Hf. apply Hc in Hf. discriminate.
      + unfold sumQ in *. simpl. rewrite H2. ring.
  Qed.

  Theorem pm_match_const b c d :
    wf_chunk c -> const_pattern c -> no_variables c -> wf_chunk d -> fact d ->
    fst (pm_match t mp b c d) = b /\
    ((fact c /\ same_fact c d /\ (snd (pm_match t mp b c d) == 0)%Q) \/
     exists q, slots_pen d (cslots c) q /\ (snd (pm_match t mp b c d) == q)%Q).
  Proof.
    intros Wc Cc Nc Wd Fd. unfold pm_match. destruct (chunk_eqb b c d) eqn:E.
    - split; [reflexivity|]. left. assert (Fc : fact c) by (apply (chunk_eqb_fact b c d); assumption).
      split; [exact Fc|]. split; [|reflexivity]. apply fact_eq_extensional; auto.
      rewrite chunk_eqb_novar in E by exact Nc. exact E.
    - pose proof (pattern_good Wc Cc) as Gp. red in Nc.
      assert (G : fst (pm_slots t mp b (cslots c) d) = b /\
        exists q, slots_pen d (cslots c) q /\ (snd (pm_slots t mp b (cslots c) d) == q)%Q).
      2:{ destruct G as [G1 G2]. split; [exact G1|]. right. exact G2. }
      clear E Wc Cc. induction (cslots c) as [|[n s] l IH].
      + simpl. split; [reflexivity|]. exists 0%Q. split; [constructor|reflexivity].
      + destruct IH as (I1 & q & I2 & I3); [intros m w H; apply (Nc m w); simpl; auto|intros m w H; apply (Gp m w); simpl; auto|].
        simpl. destruct s as [w|]; simpl.
        * destruct (Nc n w (or_introl eq_refl)) as [N1 N2]. destruct (Gp n w (or_introl eq_refl)) as [G1 G2].
          destruct (forbidden_pen_spec d n (vnegvals w) Wd Fd G2) as (f & F1 & F2).
          unfold pm_slot. rewrite N1, N2. simpl. unfold pm_var. simpl.
          destruct (pm_slots t mp b l d) as [b2 q2]. simpl in *. split; [exact I1|].
          unfold pm_value. destruct (match_value (vvals w) (slot_value d n)) eqn:Em.
          -- exists (f + q)%Q. split; [|rewrite F2, I3; ring]. apply sp_agree; auto.
             destruct (asks_nothing_dec (vvals w)) as [|Ha]; [auto|]. right. apply required_iff; auto.
             apply (proj1 (match_value_spec _ _) Em Ha).
          -- eexists. split; [|rewrite F2, I3; instantiate (1 := (get_similarity t (vvals w) (slot_value d n) mp + f + q)%Q); ring].
             assert (Hno : ~ (~ asks_nothing (vvals w) -> val_eqb (vvals w) (slot_value d n) = true)).
             { intros H. apply match_value_spec in H. congruence. }
             apply sp_differ; [| |assumption|assumption].
             ++ intros Ha. apply Hno. intros H. destruct (H Ha).
             ++ intros Hr. apply Hno. intros Ha. apply required_iff; auto.
        * unfold pm_slot. simpl. unfold pm_var, pm_value, pm_negvals. simpl.
          destruct (pm_slots t mp b l d) as [b2 q2]. simpl in *. split; [exact I1|]. exists q.
          split; [constructor; exact I2|]. rewrite I3. unfold sumQ. simpl. ring.
  Qed.
End Penalties.
