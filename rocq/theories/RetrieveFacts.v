(** Proofs about retrieval from declarative memory (C19 to C22). *)
From Coq Require Import Lqa.
From Verif Require Import BaseFacts Chunks ChunkFacts ChunkMatch ChunkGround TypeFacts ResolveFacts DecMem DecMemFacts Buffers BufferFacts ModifyFacts.
From Verif Require Import ChunkSpec.
Local Open Scope string_scope.
Arguments hval_eqb : simpl never.
Arguments hash_value : simpl nomatch.
Arguments val_eqb : simpl nomatch.

(** ** Specification *)

(** [pat] is the request [o] with its variables replaced by what they are bound to. *)
Definition resolved (bs : bindings) (o pat : chunk) : Prop :=
  ctype pat = ctype o /\
  (forall n w, mentions o n w -> exists r, dget (cslots pat) n = Some (Some r) /\ resolves_to bs w r) /\
  (forall n r, dget (cslots pat) n = Some (Some r) -> exists w, mentions o n w /\ resolves_to bs w r).

(** Chunk [d] has what the resolved request asks for: it has all required values and none of
    the forbidden ones, or it is equal to the request. *)
Definition asked (pat d : chunk) : Prop :=
  (fact pat /\ same_fact pat d) \/
  (forall n w, In (n, Some w) (cslots pat) ->
     (~ asks_nothing (vvals w) -> has_required d n (vvals w)) /\
     (forall v, In v (vnegvals w) -> ~ has_forbidden d n v)).

(** The values in the bindings and in the request are well-formed constants. *)
Definition good_values (bs : bindings) (o : chunk) : Prop :=
  (forall x v, In (x, v) (bpos bs) -> const_value v /\ wf_value v) /\
  (forall n w, mentions o n w -> const_value (vvals w) /\ wf_value (vvals w) /\
     forall v, In v (vnegvals w) -> const_value v /\ wf_value v).

(** Memory holds facts, each presented at least once. *)
Definition factual (m : decmem) : Prop :=
  forall c ts, In (c, ts) (dmdata m) -> wf_chunk c /\ fact c.
Definition presented (m : decmem) : Prop := forall c ts, In (c, ts) (dmdata m) -> ts <> [].

(** First presented before or after the moment of the request, not at it. *)
Definition not_new (ts : list Q) (time : Q) : Prop := exists t0 rest, ts = t0 :: rest /\ ~ (t0 == time)%Q.

(** What the finsts say about a chunk. *)
Definition recent_in (l : list (option chunk)) (c : chunk) : Prop :=
  exists d, In (Some d) l /\ same_entry d c.
Definition passes (x : recency) (finst : nat) (recent : list (option chunk)) (c : chunk) : Prop :=
  match x with
  | RNone => True
  | RNot => finst = 0%nat \/ ~ recent_in recent c
  | ROnly => finst = 0%nat \/ recent_in recent c
  end.

(** ** Requests *)

Lemma resolves_no_vars bs w r : resolves_to bs w r -> vvar r = None /\ vnegvars r = [].
Proof. intros (_ & H1 & H2 & _). auto. Qed.

Lemma resolves_good bs w r : (forall x v, In (x, v) (bpos bs) -> const_value v /\ wf_value v) ->
  (const_value (vvals w) /\ wf_value (vvals w) /\ forall v, In v (vnegvals w) -> const_value v /\ wf_value v) ->
  resolves_to bs w r ->
  const_value (vvals r) /\ wf_value (vvals r) /\ forall v, In v (vnegvals r) -> const_value v /\ wf_value v.
Proof.
  intros Hb (H1 & H2 & H3) (P & _ & _ & F & _). assert (G : const_value (vvals r) /\ wf_value (vvals r)).
  { inversion P as [x v Ex Hx Hin Ev|Hn Hb' Ev|Hn Hb' Ev]; [apply (Hb x _ Hin)|auto|split; constructor]. }
  split; [apply G|]. split; [apply G|]. intros v Hv. destruct (F v Hv) as [Hn|(x & _ & Hin)]; [auto|apply (Hb x v Hin)].
Qed.

Theorem request_resolved reg o bs reg' pat :
  names_distinct o -> NoDup (dkeys (bpos bs)) -> marks_free bs o -> request reg o bs = Ok (reg', pat) -> resolved bs o pat.
Proof.
  intros No nd nm H. unfold request in H. destruct (resolve_slots bs false (removeunused o)) as [args|] eqn:R; [|discriminate].
  cbn [rbind] in H. destruct (resolve_get bs false o args No nd nm R) as (R1 & R2 & R3).
  apply mk_chunk_spec in H. destruct H as (M1 & M2 & M3 & M4 & _). split; [exact M1|]. split.
  - intros n w M. destruct (R1 n w M) as (r & E & Hr & _). destruct (M2 n (RVV r) E) as (w' & C & D). simpl in C. injection C as <-. eauto.
  - intros n r E. destruct (dget args n) as [x|] eqn:Ea.
    + pose proof (dget_In _ _ Ea) as Hin. destruct (proj2 (resolve_slots_In _ _ _ _ R) n x Hin) as (s & u & Hu & Eu & ->).
      apply used_mentions in Hu. destruct Hu as (w & -> & M). destruct (R1 n w M) as (r2 & E2 & Hr2 & _).
      assert (r2 = u) by congruence. subst r2. destruct (M2 n (RVV u) Ea) as (w' & C & D). simpl in C. injection C as <-.
      exists w. split; [exact M|]. congruence.
    + rewrite (M3 n Ea) in E; [discriminate|]. apply (dget_Some_key _ _ E).
Qed.

Lemma request_pattern reg o bs reg' pat :
  registry_ok reg -> names_distinct o -> NoDup (dkeys (bpos bs)) -> marks_free bs o -> good_values bs o ->
  request reg o bs = Ok (reg', pat) -> wf_chunk pat /\ const_pattern pat /\ no_variables pat.
Proof.
  intros Hr No nd nm [G1 G2] H. pose proof (request_resolved _ _ _ _ _ No nd nm H) as (_ & _ & R).
  assert (W : wf_chunk pat).
  { unfold request in H. destruct (resolve_slots bs false (removeunused o)) as [args|] eqn:E; [|discriminate]. cbn [rbind] in H.
    apply mk_chunk_wf in H; [apply H|exact Hr|]. intros n x Hin.
    destruct (proj2 (resolve_slots_In _ _ _ _ E) n x Hin) as (s & u & Hu & Eu & ->).
    apply used_mentions in Hu. destruct Hu as (w & -> & M).
    destruct (check_ok bs (Some w) false u nd (nm n w M) Eu) as [_ Ru].
    destruct (resolves_good bs w u G1 (G2 n w M) Ru) as (_ & Q1 & Q2). simpl. split; [exact Q1|]. intros v Hv. apply (Q2 v Hv). }
  assert (D : forall n r, In (n, Some r) (cslots pat) -> dget (cslots pat) n = Some (Some r)).
  { intros n r Hin. apply dget_NoDup; [apply (wf_NoDup W)|exact Hin]. }
  split; [exact W|]. split.
  - intros n r Hin. destruct (R n r (D n r Hin)) as (w & M & Rw). destruct (resolves_good bs w r G1 (G2 n w M) Rw) as (Q1 & _ & Q2).
    split; [exact Q1|]. intros v Hv. apply (Q2 v Hv).
  - intros n r Hin. destruct (R n r (D n r Hin)) as (w & M & Rw). apply (resolves_no_vars _ _ _ Rw).
Qed.

Lemma le_asked pat d : wf_chunk pat -> const_pattern pat -> no_variables pat -> wf_chunk d -> fact d ->
  forall b, fst (chunk_le b pat d) = b /\ (snd (chunk_le b pat d) = true <-> asked pat d).
Proof. intros. apply const_le_spec; assumption. Qed.

Lemma pm_slots_novar t mp b slots d :
  (forall n w, In (n, Some w) slots -> vvar w = None /\ vnegvars w = []) ->
  fst (pm_slots t mp b slots d) = b /\ forall b', snd (pm_slots t mp b slots d) = snd (pm_slots t mp b' slots d).
Proof.
  revert b. induction slots as [|[n s] l IH]; intros b H; simpl; [auto|].
  assert (E : forall b0, pm_slot t mp b0 (splitting s) (slot_value d n) =
     (b0, (0 + 0 + pm_value t mp (vvals (splitting s)) (slot_value d n) + pm_negvals t mp (vnegvals (splitting s)) (slot_value d n))%Q)).
  { intros b0. unfold pm_slot, pm_var. destruct s as [w|]; simpl; [|reflexivity]. destruct (H n w) as [-> ->]; [simpl; auto|]. reflexivity. }
  assert (Hl : forall n w, In (n, Some w) l -> vvar w = None /\ vnegvars w = []) by (intros n' w' H'; apply (H n' w'); simpl; auto).
  rewrite E. pose proof (IH b Hl) as [I1 I2]. destruct (pm_slots t mp b l d) as [b2 q2] eqn:E2. simpl in *. split; [exact I1|].
  intros b'. rewrite E. specialize (I2 b'). destruct (pm_slots t mp b' l d) as [b3 q3]. simpl in *. rewrite I2. reflexivity.
Qed.

Lemma pm_novar t mp b pat d : no_variables pat ->
  pm_match t mp b pat d = (b, snd (pm_match t mp nobind pat d)).
Proof.
  intros H. unfold pm_match. rewrite (chunk_eqb_novar b pat d H). destruct (chunk_eqb nobind pat d); [reflexivity|].
  destruct (pm_slots_novar t mp b (cslots pat) d H) as [P1 P2]. rewrite <- (P2 nobind). rewrite (surjective_pairing (pm_slots t mp b (cslots pat) d)). simpl. congruence.
Qed.

(** ** Recency *)

Lemma recently_iff l c : recently l c = true <-> recent_in l c.
Proof.
  unfold recently, recent_in. rewrite existsb_exists. split.
  - intros ([d|] & H1 & H2); [|discriminate]. exists d. auto.
  - intros (d & H1 & H2). exists (Some d). auto.
Qed.

Lemma skipped_passes x n l c : skipped x n l c = false <-> passes x n l c.
Proof.
  destruct x; simpl; [tauto|..].
  - rewrite andb_false_iff, negb_false_iff, Nat.eqb_eq, <- recently_iff. destruct (recently l c); split; intros [H|H]; auto; try congruence; exfalso; apply H; reflexivity.
  - rewrite andb_false_iff, !negb_false_iff, Nat.eqb_eq, recently_iff. tauto.
Qed.

(** ** The loop without subsymbolic processing *)

Section Loop.
  Variable p : rparams.
  Variable act : nat -> activation.
  Variable time : Q.
  Variable pat : chunk.
  Variable x : recency.
  Variable finst : nat.
  Variable recent : list (option chunk).
  Hypothesis Wp : wf_chunk pat.
  Hypothesis Cp : const_pattern pat.
  Hypothesis Np : no_variables pat.

  Definition cand (c : chunk) (ts : list Q) : Prop := passes x finst recent c /\ asked pat c /\ not_new ts time.

  Lemma sym_loop l : psub p = false ->
    (forall c ts, In (c, ts) l -> wf_chunk c /\ fact c /\ ts <> []) ->
    forall i st, exists st', retrieve_loop p act time pat x finst recent i l st = Ok st' /\
      rsmem st' = rsmem st /\ rsmax st' = rsmax st /\ rsb st' = rsb st /\
      ((rsgot st' = rsgot st /\ forall c ts, In (c, ts) l -> ~ cand c ts) \/
       (exists l1 c ts l2, l = (l1 ++ (c, ts) :: l2)%list /\ cand c ts /\ rsgot st' = Some (c, 0%Q) /\
          forall c' ts', In (c', ts') l2 -> ~ cand c' ts')).
  Proof.
    intros Hp. induction l as [|[c ts] l IH]; intros Hl i st.
    - exists st. simpl. repeat (split; [reflexivity|]). left. split; [reflexivity|]. intros c ts [].
    - destruct (Hl c ts (or_introl eq_refl)) as (Wc & Fc & Ht).
      assert (Hl' : forall c ts, In (c, ts) l -> wf_chunk c /\ fact c /\ ts <> []) by (intros c' ts' H; apply (Hl c' ts'); simpl; auto).
      assert (S : exists st1, (if skipped x finst recent c then Ok st else retrieve_step p act time pat i c ts st) = Ok st1 /\
        rsmem st1 = rsmem st /\ rsmax st1 = rsmax st /\ rsb st1 = rsb st /\
        ((cand c ts /\ rsgot st1 = Some (c, 0%Q)) \/ (~ cand c ts /\ rsgot st1 = rsgot st))).
      { unfold cand. destruct (skipped x finst recent c) eqn:Es.
        - exists st. repeat (split; [reflexivity|]). right. split; [|reflexivity]. intros [Hc _]. apply skipped_passes in Hc. congruence.
        - apply skipped_passes in Es. unfold retrieve_step. rewrite Hp. destruct (le_asked pat c Wp Cp Np Wc Fc (rsb st)) as [L1 L2].
          destruct (chunk_le (rsb st) pat c) as [b1 ok]. simpl in L1, L2. subst b1. destruct ok.
          + destruct ts as [|t0 rest]; [congruence|]. destruct (Qeq_bool t0 time) eqn:Et.
            * eexists. split; [reflexivity|]. simpl. repeat (split; [reflexivity|]). right. split; [|reflexivity].
              intros (_ & _ & (t1 & r1 & E & Hn)). injection E as <- <-. apply Hn, Qeq_bool_iff. exact Et.
            * eexists. split; [reflexivity|]. simpl. repeat (split; [reflexivity|]). left. split; [|reflexivity].
              split; [exact Es|]. split; [apply L2; reflexivity|]. exists t0, rest. split; [reflexivity|]. intros E. apply Qeq_bool_iff in E. congruence.
          + eexists. split; [reflexivity|]. simpl. repeat (split; [reflexivity|]). right. split; [|reflexivity].
            intros (_ & Ha & _). apply L2 in Ha. discriminate. }
      destruct S as (st1 & E1 & S1 & S2 & S3 & S4). simpl. rewrite E1. cbn [rbind].
      destruct (IH Hl' (S i) st1) as (st' & E' & T1 & T2 & T3 & T4). exists st'. split; [exact E'|].
      split; [congruence|]. split; [congruence|]. split; [congruence|]. destruct T4 as [[T4 T5]|(l1 & c' & ts' & l2 & T4 & T5 & T6 & T7)].
      + destruct S4 as [[S4 S5]|[S4 S5]].
        * right. exists [], c, ts, l. split; [reflexivity|]. split; [exact S4|]. split; [congruence|exact T5].
        * left. split; [congruence|]. intros c' ts' [H|H]; [injection H as <- <-; exact S4|apply T5; exact H].
      + right. exists ((c, ts) :: l1), c', ts', l2. split; [simpl; congruence|]. auto.
  Qed.

  (** ** The loop with subsymbolic processing *)

  (** The mismatch penalty of a chunk (none without partial matching). *)
  Definition penalty (c : chunk) : Q := if ppm p then snd (pm_match (psims p) (pmp p) nobind pat c) else 0%Q.
  (** The chunk takes part in the competition. *)
  Definition eligible (c : chunk) : Prop := passes x finst recent c /\ (ppm p = true \/ asked pat c).
  (** Entry number [k] takes part and has total activation [a]. *)
  Definition competes (k : nat) (c : chunk) (a : Q) : Prop :=
    eligible c /\ exists q, act k = AVal q /\ a = (q + penalty c)%Q.

  Lemma sub_step k c ts st : psub p = true -> wf_chunk c -> fact c -> passes x finst recent c ->
    match retrieve_step p act time pat k c ts st with
    | Err e => eligible c /\ act k = AFail e
    | Ok st1 => rsb st1 = rsb st /\ ~ (eligible c /\ exists e, act k = AFail e) /\
        ((exists a, competes k c a /\ (pthr p <= a)%Q /\ (forall mx, rsmax st = Some mx -> mx < a)%Q /\
            rsmax st1 = Some a /\ rsgot st1 = Some (c, platency p a)) \/
         (rsmax st1 = rsmax st /\ rsgot st1 = rsgot st /\
          forall a, competes k c a -> (a < pthr p)%Q \/ exists mx, rsmax st = Some mx /\ (a <= mx)%Q))
    end.
  Proof.
    intros Hp Wc Fc Hpass. unfold retrieve_step. rewrite Hp.
    assert (M : exists ok, (if ppm p then let (b1, q) := pm_match (psims p) (pmp p) (rsb st) pat c in (b1, q, true)
       else let (b1, ok) := chunk_le (rsb st) pat c in (b1, 0%Q, ok)) = (rsb st, penalty c, ok) /\ (ok = true <-> eligible c)).
    { unfold penalty, eligible. destruct (ppm p).
      - exists true. rewrite pm_novar by exact Np. split; [reflexivity|]. tauto.
      - destruct (le_asked pat c Wp Cp Np Wc Fc (rsb st)) as [L1 L2]. destruct (chunk_le (rsb st) pat c) as [b1 ok]. simpl in *. subst b1.
        exists ok. split; [reflexivity|]. rewrite L2. split; [tauto|]. intros [_ [H|H]]; [discriminate|exact H]. }
    destruct M as (ok & -> & Hok). destruct ok.
    - assert (El : eligible c) by (apply Hok; reflexivity). destruct (act k) as [|e|q] eqn:Ea.
      + simpl. split; [reflexivity|]. split; [intros [_ (e & H)]; discriminate|]. right. split; [reflexivity|]. split; [reflexivity|].
        intros a (_ & q & H & _). congruence.
      + auto.
      + destruct (Qle_bool (pthr p) (q + penalty c) && match rsmax st with Some mx => negb (Qle_bool (q + penalty c) mx) | None => true end) eqn:Eb; simpl.
        * split; [reflexivity|]. split; [intros [_ (e & H)]; discriminate|]. left. exists (q + penalty c)%Q. apply andb_true_iff in Eb. destruct Eb as [E1 E2].
          split; [split; [exact El|exists q; auto]|]. split; [apply Qle_bool_iff; exact E1|]. split; [|auto].
          intros mx Emx. rewrite Emx in E2. apply negb_true_iff in E2. apply Qnot_le_lt. intros H. apply Qle_bool_iff in H. congruence.
        * split; [reflexivity|]. split; [intros [_ (e & H)]; discriminate|]. right. split; [reflexivity|]. split; [reflexivity|].
          intros a (_ & q' & Hq & ->). rewrite Ea in Hq. injection Hq as <-. apply andb_false_iff in Eb. destruct Eb as [E1|E2].
          -- left. apply Qnot_le_lt. intros H. apply Qle_bool_iff in H. congruence.
          -- right. destruct (rsmax st) as [mx|]; [|discriminate]. exists mx. split; [reflexivity|]. apply negb_false_iff in E2. apply Qle_bool_iff. exact E2.
    - simpl. assert (Nel : ~ eligible c) by (intros H; apply Hok in H; discriminate).
      split; [reflexivity|]. split; [tauto|]. right. split; [reflexivity|]. split; [reflexivity|]. intros a [H _]. contradiction.
  Qed.

  Lemma sub_loop l : psub p = true ->
    (forall c ts, In (c, ts) l -> wf_chunk c /\ fact c) ->
    forall i st,
    match retrieve_loop p act time pat x finst recent i l st with
    | Err e => exists k c ts, nth_error l k = Some (c, ts) /\ eligible c /\ act (i + k)%nat = AFail e
    | Ok st' =>
        (forall k c ts, nth_error l k = Some (c, ts) -> ~ (eligible c /\ exists e, act (i + k)%nat = AFail e)) /\
        ((rsmax st' = rsmax st /\ rsgot st' = rsgot st /\
          forall k c ts a, nth_error l k = Some (c, ts) -> competes (i + k) c a ->
            (a < pthr p)%Q \/ exists mx, rsmax st = Some mx /\ (a <= mx)%Q) \/
         (exists k c ts a, nth_error l k = Some (c, ts) /\ competes (i + k) c a /\ (pthr p <= a)%Q /\
            (forall mx, rsmax st = Some mx -> mx < a)%Q /\
            rsmax st' = Some a /\ rsgot st' = Some (c, platency p a) /\
            forall k' c' ts' a', nth_error l k' = Some (c', ts') -> competes (i + k') c' a' ->
              (a' <= a)%Q /\ ((k' < k)%nat -> (a' < a)%Q)))
    end.
  Proof.
    intros Hp. induction l as [|[c ts] l IH]; intros Hl i st.
    - simpl. split; [intros [|k] c ts H; discriminate|]. left. split; [reflexivity|]. split; [reflexivity|]. intros [|k] c ts a H; discriminate.
    - destruct (Hl c ts (or_introl eq_refl)) as (Wc & Fc).
      assert (Hl' : forall c ts, In (c, ts) l -> wf_chunk c /\ fact c) by (intros c' ts' H; apply (Hl c' ts'); simpl; auto).
      assert (Sh : forall k, (i + S k = S i + k)%nat) by (intros; lia).
      assert (Sx : match (if skipped x finst recent c then Ok st else retrieve_step p act time pat i c ts st) with
        | Err e => eligible c /\ act i = AFail e
        | Ok st1 => ~ (eligible c /\ exists e, act i = AFail e) /\
          ((exists a, competes i c a /\ (pthr p <= a)%Q /\ (forall mx, rsmax st = Some mx -> mx < a)%Q /\
            rsmax st1 = Some a /\ rsgot st1 = Some (c, platency p a)) \/
           (rsmax st1 = rsmax st /\ rsgot st1 = rsgot st /\
            forall a, competes i c a -> (a < pthr p)%Q \/ exists mx, rsmax st = Some mx /\ (a <= mx)%Q))
        end).
      { destruct (skipped x finst recent c) eqn:Es.
        - assert (Ns : ~ passes x finst recent c) by (intros H; apply skipped_passes in H; congruence).
          split; [intros [[H _] _]; contradiction|]. right. split; [reflexivity|]. split; [reflexivity|]. intros a [[H _] _]. contradiction.
        - apply skipped_passes in Es. pose proof (sub_step i c ts st Hp Wc Fc Es) as X.
          destruct (retrieve_step p act time pat i c ts st); tauto. }
      simpl. destruct (if skipped x finst recent c then Ok st else retrieve_step p act time pat i c ts st) as [st1|e]; cbn [rbind].
      + destruct Sx as [S0 Sx]. specialize (IH Hl' (S i) st1). destruct (retrieve_loop p act time pat x finst recent (S i) l st1) as [st'|e].
        * destruct IH as [N0 IH]. split.
          { intros [|k] c' ts' H; simpl in H; [injection H as <- <-; rewrite Nat.add_0_r; exact S0|]. rewrite Sh. apply (N0 k c' ts' H). }
          destruct Sx as [(a & A1 & A2 & A3 & A4 & A5)|(B1 & B2 & B3)], IH as [(C1 & C2 & C3)|(k & c1 & ts1 & a1 & D1 & D2 & D3 & D4 & D5 & D6 & D7)].
          -- right. exists 0%nat, c, ts, a. rewrite Nat.add_0_r. split; [reflexivity|]. split; [exact A1|]. split; [exact A2|]. split; [exact A3|].
             split; [congruence|]. split; [congruence|]. intros [|k'] c' ts' a' H Hc.
             ++ simpl in H. injection H as <- <-. rewrite Nat.add_0_r in Hc. destruct A1 as (_ & q & Eq & ->), Hc as (_ & q' & Eq' & ->).
                assert (q' = q) by congruence. subst q'. split; [apply Qle_refl|lia].
             ++ simpl in H. rewrite Sh in Hc. split; [|lia]. destruct (C3 k' c' ts' a' H Hc) as [H1|(mx & H1 & H2)].
                ** lra.
                ** assert (mx = a) by congruence. subst mx. exact H2.
          -- right. exists (S k), c1, ts1, a1. rewrite Sh. split; [exact D1|]. split; [exact D2|]. split; [exact D3|].
             split; [intros mx Emx; specialize (A3 mx Emx); specialize (D4 a A4); lra|]. split; [exact D5|]. split; [exact D6|].
             intros [|k'] c' ts' a' H Hc.
             ++ simpl in H. injection H as <- <-. rewrite Nat.add_0_r in Hc. destruct A1 as (_ & q & Eq & ->), Hc as (_ & q' & Eq' & ->).
                assert (q' = q) by congruence. subst q'. specialize (D4 _ A4). split; [lra|]. intros _. exact D4.
             ++ simpl in H. rewrite Sh in Hc. destruct (D7 k' c' ts' a' H Hc) as [E1 E2]. split; [exact E1|]. intros Hk. apply E2. lia.
          -- left. split; [congruence|]. split; [congruence|]. intros [|k'] c' ts' a' H Hc.
             ++ simpl in H. injection H as <- <-. rewrite Nat.add_0_r in Hc. apply B3. exact Hc.
             ++ simpl in H. rewrite Sh in Hc. rewrite <- B1. apply (C3 k' c' ts' a' H Hc).
          -- right. exists (S k), c1, ts1, a1. rewrite Sh. split; [exact D1|]. split; [exact D2|]. split; [exact D3|].
             split; [rewrite <- B1; exact D4|]. split; [exact D5|]. split; [exact D6|]. intros [|k'] c' ts' a' H Hc.
             ++ simpl in H. injection H as <- <-. rewrite Nat.add_0_r in Hc. destruct (B3 a' Hc) as [H1|(mx & H1 & H2)].
                ** split; [lra|intros _; lra].
                ** rewrite <- B1 in H1. specialize (D4 mx H1). split; [lra|intros _; lra].
             ++ simpl in H. rewrite Sh in Hc. destruct (D7 k' c' ts' a' H Hc) as [E1 E2]. split; [exact E1|]. intros Hk. apply E2. lia.
        * destruct IH as (k & c' & ts' & H1 & H2 & H3). exists (S k), c', ts'. rewrite Sh. auto.
      + destruct Sx as (S1 & S2). exists 0%nat, c, ts. rewrite Nat.add_0_r. auto.
  Qed.
End Loop.

(** ** Whole retrievals *)

(** The situation of a retrieval: buffer [i] is a retrieval buffer [b] with memory [dm], and the
    request [o] is resolved to [pat]. *)
Definition retrieval_setup (w : world) (i : nat) (b : buffer) (m : nat) (dm : decmem) (o : chunk)
  (bs : bindings) (reg' : registry) (pat : chunk) : Prop :=
  nth_error (bufs w) i = Some b /\ bkind b = KRetrieval /\ bdm b = Some m /\ memory w m = Some dm /\
  factual dm /\ registry_ok (wreg w) /\ names_distinct o /\ NoDup (dkeys (bpos bs)) /\
  marks_free bs o /\ good_values bs o /\ request (wreg w) o bs = Ok (reg', pat).

Lemma setup_pattern w i b m dm o bs reg' pat : retrieval_setup w i b m dm o bs reg' pat ->
  resolved bs o pat /\ wf_chunk pat /\ const_pattern pat /\ no_variables pat.
Proof.
  intros (_ & _ & _ & _ & _ & H1 & H2 & H3 & H4 & H5 & H6). split; [eapply request_resolved; eassumption|].
  eapply request_pattern; eassumption.
Qed.

Theorem symbolic_retrieval w i b m dm o bs reg' pat p act time x :
  retrieval_setup w i b m dm o bs reg' pat -> presented dm -> psub p = false ->
  let ok := cand time pat x (bfinst b) (brecent b) in
  exists w' out q, retrieve_buf w i b p act time o bs x = (w', Ok (out, q)) /\ mems w' = mems w /\
    match out with
    | Some c => exists l1 ts l2, dmdata dm = (l1 ++ (c, ts) :: l2)%list /\ ok c ts /\
                  forall c' ts', In (c', ts') l2 -> ~ ok c' ts'
    | None => forall c ts, In (c, ts) (dmdata dm) -> ~ ok c ts
    end.
Proof.
  intros S Pr Hp. cbv zeta. destruct (setup_pattern _ _ _ _ _ _ _ _ _ S) as (_ & Wp & Cp & Np).
  destruct S as (Eb & Ek & Em & Ed & Fm & _ & _ & _ & _ & _ & Er). unfold memory in Ed.
  unfold retrieve_buf. rewrite Ek, Er, Em, Ed.
  destruct (sym_loop p act time pat x (bfinst b) (brecent b) Wp Cp Np (dmdata dm) Hp) with (i := 0%nat) (st := MkRS dm nobind None None)
    as (st' & E & T1 & _ & _ & T4).
  { intros c ts H. destruct (Fm c ts H). split; [assumption|]. split; [assumption|]. apply (Pr c ts H). }
  rewrite E. eexists _, _, _. split; [rewrite (surjective_pairing (outcome p (rsgot st'))); reflexivity|].
  split; [simpl; rewrite T1; simpl; apply upd_id; exact Ed|].
  destruct T4 as [[T4 T5]|(l1 & c & ts & l2 & T4 & T5 & T6 & T7)].
  - rewrite T4. simpl. exact T5.
  - rewrite T6. simpl. exists l1, ts, l2. auto.
Qed.

Lemma sym_step_zero p act time pat j c ts st st1 : psub p = false ->
  retrieve_step p act time pat j c ts st = Ok st1 ->
  (forall d q, rsgot st = Some (d, q) -> q = 0%Q) -> forall d q, rsgot st1 = Some (d, q) -> q = 0%Q.
Proof.
  intros Hp E H d q G. unfold retrieve_step in E. rewrite Hp in E. destruct (chunk_le (rsb st) pat c) as [b1 []].
  - destruct ts as [|t0 ts]; [discriminate|]. destruct (Qeq_bool t0 time); injection E as <-; simpl in G; [apply (H d q G)|].
    injection G as _ <-. reflexivity.
  - injection E as <-. apply (H d q G).
Qed.

Lemma sym_loop_zero p act time pat x n rc l : psub p = false -> forall j st st1,
  retrieve_loop p act time pat x n rc j l st = Ok st1 ->
  (forall d q, rsgot st = Some (d, q) -> q = 0%Q) -> forall d q, rsgot st1 = Some (d, q) -> q = 0%Q.
Proof.
  intros Hp. induction l as [|[c ts] l IH]; intros j st st1 H H0; simpl in H; [injection H as <-; exact H0|].
  destruct (skipped x n rc c); cbn [rbind] in H; [apply (IH _ _ _ H H0)|].
  destruct (retrieve_step p act time pat j c ts st) as [st2|] eqn:E; [|discriminate]. cbn [rbind] in H. apply (IH _ _ _ H).
  apply (sym_step_zero _ _ _ _ _ _ _ _ _ Hp E H0).
Qed.

(** The time that a symbolic retrieval takes: none if a chunk with slots was found, the time of
    a rule otherwise. *)
Theorem symbolic_retrieval_time w i b p act time o bs x w' out q : psub p = false ->
  retrieve_buf w i b p act time o bs x = (w', Ok (out, q)) ->
  match out with
  | Some c => q = match cslots c with [] => pfiring p | _ => 0%Q end
  | None => q = pfiring p
  end.
Proof.
  intros Hp H. unfold retrieve_buf in H. destruct (bkind b); try discriminate.
  destruct (request (wreg w) o bs) as [[r' pat]|]; [|discriminate]. destruct (bdm b) as [m|]; [|discriminate].
  destruct (nth_error (mems w) m) as [dm|]; [|discriminate].
  destruct (retrieve_loop p act time pat x (bfinst b) (brecent b) 0 (dmdata dm) (MkRS dm nobind None None)) as [st|] eqn:L; [|discriminate].
  injection H as _ H. pose proof (sym_loop_zero _ _ _ _ _ _ _ _ Hp _ _ _ L) as Z. simpl in Z. specialize (Z ltac:(discriminate)).
  unfold outcome in H. rewrite Hp in H. destruct (rsgot st) as [[c q0]|].
  - injection H as <- <-. rewrite (Z c q0 eq_refl). reflexivity.
  - injection H as <- <-. reflexivity.
Qed.

(** ** C22 *)

Theorem subsymbolic_retrieval w i b m dm o bs reg' pat p act time x :
  retrieval_setup w i b m dm o bs reg' pat -> psub p = true ->
  let part := eligible p pat x (bfinst b) (brecent b) in
  let total := competes p act pat x (bfinst b) (brecent b) in
  let entry k c := exists ts, nth_error (dmdata dm) k = Some (c, ts) in
  match snd (retrieve_buf w i b p act time o bs x) with
  | Err e => exists k c, entry k c /\ part c /\ act k = AFail e
  | Ok (Some c, q) =>
      exists k a, entry k c /\ total k c a /\ (pthr p <= a)%Q /\
        (cslots c <> [] -> q = platency p a) /\
        forall k' c' a', entry k' c' -> total k' c' a' -> (a' <= a)%Q /\ ((k' < k)%nat -> (a' < a)%Q)
  | Ok (None, q) =>
      q = platency p (pthr p) /\ forall k c a, entry k c -> total k c a -> (a < pthr p)%Q
  end.
Proof.
  intros S Hp. cbv zeta. destruct (setup_pattern _ _ _ _ _ _ _ _ _ S) as (_ & Wp & Cp & Np).
  destruct S as (Eb & Ek & Em & Ed & Fm & _ & _ & _ & _ & _ & Er). unfold memory in Ed.
  unfold retrieve_buf. rewrite Ek, Er, Em, Ed.
  pose proof (sub_loop p act time pat x (bfinst b) (brecent b) Wp Cp Np (dmdata dm) Hp Fm 0%nat (MkRS dm nobind None None)) as X.
  destruct (retrieve_loop p act time pat x (bfinst b) (brecent b) 0 (dmdata dm) (MkRS dm nobind None None)) as [st|e].
  - destruct X as [_ [(X1 & X2 & X3)|(k & c & ts & a & X1 & X2 & X3 & X4 & X5 & X6 & X7)]]; simpl in *.
    + unfold outcome. rewrite X2, Hp. split; [reflexivity|]. intros k c a (ts & E) T.
      destruct (X3 k c ts a E T) as [H|(mx & H & _)]; [exact H|discriminate].
    + unfold outcome. rewrite X6, Hp. exists k, a. split; [eauto|]. split; [exact X2|]. split; [exact X3|]. split.
      * intros Hc. destruct (cslots c); [congruence|reflexivity].
      * intros k' c' a' (ts' & E) T. apply (X7 k' c' ts' a' E T).
  - destruct X as (k & c & ts & X1 & X2 & X3). simpl. exists k, c. split; [eauto|]. auto.
Qed.

(** The error is raised whenever a competing chunk has no valid base activation. *)
Theorem subsymbolic_error w i b m dm o bs reg' pat p act time x k c ts e :
  retrieval_setup w i b m dm o bs reg' pat -> psub p = true ->
  nth_error (dmdata dm) k = Some (c, ts) -> eligible p pat x (bfinst b) (brecent b) c -> act k = AFail e ->
  exists e', snd (retrieve_buf w i b p act time o bs x) = Err e'.
Proof.
  intros S Hp Hk He Hn. destruct (setup_pattern _ _ _ _ _ _ _ _ _ S) as (_ & Wp & Cp & Np).
  destruct S as (Eb & Ek & Em & Ed & Fm & _ & _ & _ & _ & _ & Er). unfold memory in Ed.
  unfold retrieve_buf. rewrite Ek, Er, Em, Ed.
  pose proof (sub_loop p act time pat x (bfinst b) (brecent b) Wp Cp Np (dmdata dm) Hp Fm 0%nat (MkRS dm nobind None None)) as X.
  destruct (retrieve_loop p act time pat x (bfinst b) (brecent b) 0 (dmdata dm) (MkRS dm nobind None None)) as [st|e0].
  - destruct X as [X _]. destruct (X k c ts Hk). eauto.
  - eexists. reflexivity.
Qed.

(** ** C19 and C20 in terms of calls *)

Theorem symbolic_last w i b m dm o bs reg' pat p act time x :
  retrieval_setup w i b m dm o bs reg' pat -> presented dm -> psub p = false ->
  let ok c ts := passes x (bfinst b) (brecent b) c /\ asked pat c /\ not_new ts time in
  exists w' out, step w (ORetrieve i p act time o bs x) = (w', Ok out) /\ mems w' = mems w /\
    match out with
    | Some c => exists l1 ts l2, dmdata dm = (l1 ++ (c, ts) :: l2)%list /\ ok c ts /\
                  forall c' ts', In (c', ts') l2 -> ~ ok c' ts'
    | None => forall c ts, In (c, ts) (dmdata dm) -> ~ ok c ts
    end.
Proof.
  intros S Pr Hp. destruct (symbolic_retrieval w i b m dm o bs reg' pat p act time x S Pr Hp) as (w' & out & q & E & M & H).
  exists w', out. split; [|auto]. simpl. destruct S as (Eb & _). rewrite Eb, E. reflexivity.
Qed.

Theorem symbolic_sound_complete w i b m dm o bs reg' pat p act time x :
  retrieval_setup w i b m dm o bs reg' pat -> presented dm -> psub p = false ->
  resolved bs o pat /\
  exists w' out, step w (ORetrieve i p act time o bs x) = (w', Ok out) /\
    let ok c ts := In (c, ts) (dmdata dm) /\ passes x (bfinst b) (brecent b) c /\ asked pat c /\ not_new ts time in
    match out with
    | Some c => exists ts, ok c ts
    | None => forall c ts, ~ ok c ts
    end.
Proof.
  intros S Pr Hp. split; [apply (setup_pattern _ _ _ _ _ _ _ _ _ S)|].
  destruct (symbolic_last w i b m dm o bs reg' pat p act time x S Pr Hp) as (w' & out & E & _ & H).
  exists w', out. split; [exact E|]. cbv zeta in *. destruct out as [c|].
  - destruct H as (l1 & ts & l2 & H1 & H2 & _). exists ts. split; [rewrite H1; apply in_or_app; simpl; auto|exact H2].
  - intros c ts [H1 H2]. apply (H c ts H1 H2).
Qed.
