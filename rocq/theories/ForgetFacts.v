(** Proofs about removal of chunks from declarative memory (C102). *)
From Verif Require Import BaseFacts Chunks ChunkSpec ChunkFacts ChunkMatch DecMem DecMemFacts FanFacts.
From Verif Require Import Forget ForgetSpec.
Local Open Scope string_scope.
Arguments hval_eqb : simpl never.
Arguments hash_value : simpl nomatch.
Arguments val_eqb : simpl nomatch.

(** ** Removing an entry *)

Lemma cdel_split l c l' : cdel l c = Some l' ->
  exists a d ts b, l = (a ++ (d, ts) :: b)%list /\ l' = (a ++ b)%list /\ same_entry d c.
Proof.
  revert l'. induction l as [|[d ts] l IH]; simpl; intros l' E; [discriminate|].
  destruct (chunk_eqb nobind d c) eqn:Ec.
  - injection E as <-. exists [], d, ts, l. auto.
  - destruct (cdel l c) as [r|]; [|discriminate]. injection E as <-.
    destruct (IH r eq_refl) as (a & d' & ts' & b & -> & -> & H). exists ((d, ts) :: a)%list, d', ts', b. auto.
Qed.

Lemma cdel_None l c : cdel l c = None <-> cget l c = None.
Proof.
  induction l as [|[d ts] l IH]; simpl; [tauto|]. destruct (chunk_eqb nobind d c); [split; discriminate|].
  rewrite <- IH. destruct (cdel l c); split; congruence.
Qed.

Lemma distinct_app a b : distinct (a ++ b) -> distinct a /\ distinct b /\
  forall c d, In c a -> In d b -> ~ same_entry c d.
Proof.
  induction a as [|x a IH]; simpl; [intuition|]. intros [H1 H2]. destruct (IH H2) as (A & B & C).
  apply Forall_app in H1. destruct H1 as [H1 H3]. split; [auto|]. split; [exact B|].
  intros c d [<-|Hc] Hd; [|eauto]. rewrite Forall_forall in H3. auto.
Qed.

Lemma distinct_drop a c b : distinct (a ++ c :: b) ->
  distinct (a ++ b) /\ forall d, In d (a ++ b)%list -> ~ same_entry d c.
Proof.
  induction a as [|x a IH]; simpl.
  - intros [H1 H2]. split; [exact H2|]. rewrite Forall_forall in H1.
    intros d Hd E. apply (H1 d Hd). apply same_entry_sym. exact E.
  - intros [H1 H2]. destruct (IH H2) as [A B]. apply Forall_app in H1. destruct H1 as [H1 H3].
    inversion H3 as [|? ? H4 H5]. subst. split; [split; [apply Forall_app; auto|exact A]|].
    intros d [<-|Hd]; auto.
Qed.

Lemma cget_app a b c : cget (a ++ b) c = match cget a c with Some ts => Some ts | None => cget b c end.
Proof. induction a as [|[d ts] a IH]; simpl; [reflexivity|]. destruct (chunk_eqb nobind d c); auto. Qed.

Lemma del_data m c m' : dm_del m c = Some m' ->
  cdel (dmdata m) c = Some (dmdata m') /\ restr m' = restr m /\ unrestr m' = unrestr m.
Proof. unfold dm_del. destruct (cdel _ _); [|discriminate]. intros E. injection E as <-. auto. Qed.

Lemma del_ok m c m' : dm_ok m -> dm_del m c = Some m' -> dm_ok m'.
Proof.
  intros K E. destruct (del_data _ _ _ E) as [D _]. destruct (cdel_split _ _ _ D) as (a & d & ts & b & H1 & H2 & _).
  unfold dm_ok in *. rewrite H1 in K. rewrite H2. rewrite map_app in *. simpl in K. apply (distinct_drop _ _ _ K).
Qed.

Theorem del_times m c m' : dm_ok m -> dm_del m c = Some m' ->
  forall d, dm_times m' d = if chunk_eqb nobind c d then None else dm_times m d.
Proof.
  intros K E d. destruct (del_data _ _ _ E) as [D _]. destruct (cdel_split _ _ _ D) as (a & x & ts & b & H1 & H2 & H3).
  unfold dm_ok, dm_times in *. rewrite H1 in K |- *. rewrite H2, !cget_app. rewrite map_app in K. simpl in K.
  pose proof (proj2 (distinct_drop _ _ _ K)) as N. cbn [cget]. destruct (chunk_eqb nobind c d) eqn:Ed.
  - assert (G : forall e us, In (e, us) (a ++ b)%list -> ~ same_entry e d).
    { intros e us He S. apply (N e); [rewrite <- map_app; apply in_map_iff; exists (e, us); auto|].
      apply (same_entry_trans _ d); [exact S|]. apply same_entry_sym. apply (same_entry_trans _ c); assumption. }
    apply cget_None in G. rewrite cget_app in G. exact G.
  - rewrite (eqb_congr x c d H3), Ed. reflexivity.
Qed.

Theorem del_missing m c : dm_del m c = None <-> dm_times m c = None.
Proof. unfold dm_del, dm_times. rewrite <- cdel_None. destruct (cdel _ _); split; congruence. Qed.

(** ** Clearing *)

Lemma popitem_eq m c ts l : dmdata m = (c, ts) :: l ->
  dm_popitem m = Some (c, ts, MkDM l (restr m) (unrestr m)).
Proof.
  intros E. unfold dm_popitem, dm_pop, dm_times, dm_del. rewrite E. cbn [cget cdel]. rewrite chunk_eqb_refl. reflexivity.
Qed.

Theorem clear_eq m : dm_clear m = MkDM [] (restr m) (unrestr m).
Proof.
  unfold dm_clear. destruct m as [l r u]. cbn [dmdata restr unrestr]. induction l as [|[c ts] l IH]; [reflexivity|].
  cbn [List.length popall]. rewrite (popitem_eq _ c ts l) by reflexivity. exact IH.
Qed.

(** ** Counts *)

Definition table (m : decmem) (A : value -> bool) (U : value -> nat) (R : string -> value -> nat) : Prop :=
  ok_keys (map fst (dmdata m)) /\
  uniq _ _ hash_value (unrestr m) /\ uniq _ _ rhash (restr m) /\
  (forall v n, In (v, n) (unrestr m) -> source v /\ A v = true /\ (S (fan m v) <= n <= S (fan m v + U v))%nat) /\
  (forall s v n, In (s, v, n) (restr m) -> source v /\ A v = true /\ (S (fan_in m s v) <= n <= S (fan_in m s v + R s v))%nat).

Lemma table_setitem m c ts A U R : no_empty_object c -> table m A U R -> table (dm_setitem m c ts) A U R.
Proof.
  intros Hc (H1 & H2 & H3 & H4 & H5). pose proof (setitem_keys m c ts) as HK. unfold dm_setitem in *.
  destruct (dm_mem m c); simpl in *.
  - split; [|split; [|split; [|split]]]; simpl; try assumption.
    + unfold ok_keys. rewrite HK. exact H1.
    + intros v n H. rewrite (fan_keys _ m v) by exact HK. apply (H4 v n H).
    + intros s v n H. rewrite (fan_in_keys _ m s v) by exact HK. apply (H5 s v n H).
  - rewrite uupdate_g, rupdate_g.
    rewrite (gsteps_spec _ _ hash_value _ key_eqb_iff) by exact H2.
    rewrite (gsteps_spec _ _ rhash _ rkey_iff) by exact H3.
    assert (F : forall v, source v -> fan {| dmdata := cset (dmdata m) c ts; restr := []; unrestr := [] |} v
                  = (fan m v + hits _ key_eqb _ probe_v v (cslots c))%nat).
    { intros v Hv. unfold fan. rewrite !all_slots_keys. simpl. rewrite HK. unfold keys_slots.
      rewrite flat_map_app, filter_app, app_length. simpl. rewrite app_nil_r, hits_written by assumption. reflexivity. }
    assert (G : forall s v, source v -> fan_in {| dmdata := cset (dmdata m) c ts; restr := []; unrestr := [] |} s v
                  = (fan_in m s v + hits _ rkey_eqb _ probe_sv (s, v) (cslots c))%nat).
    { intros s v Hv. unfold fan_in. rewrite !all_slots_keys. simpl. rewrite HK. unfold keys_slots.
      rewrite flat_map_app, filter_app, app_length. simpl. rewrite app_nil_r, hits_in_written by assumption. reflexivity. }
    split; [|split; [|split; [|split]]]; simpl.
    + unfold ok_keys. rewrite HK. apply Forall_app. auto.
    + unfold uniq. rewrite map_map. simpl. exact H2.
    + unfold uniq. rewrite map_map. simpl. exact H3.
    + intros v n H. apply in_map_iff in H. destruct H as ([v' n'] & E & H). simpl in E. injection E as <- <-.
      destruct (H4 _ _ H) as (S1 & S3 & S2). split; [exact S1|]. split; [exact S3|]. rewrite (fan_keys _ {| dmdata := cset (dmdata m) c ts; restr := []; unrestr := [] |}) by reflexivity.
      rewrite F by exact S1. lia.
    + intros s v n H. apply in_map_iff in H. destruct H as ([[s' v'] n'] & E & H). simpl in E. injection E as <- <- <-.
      destruct (H5 _ _ _ H) as (S1 & S3 & S2). split; [exact S1|]. split; [exact S3|]. rewrite (fan_in_keys _ {| dmdata := cset (dmdata m) c ts; restr := []; unrestr := [] |}) by reflexivity.
      rewrite G by exact S1. lia.
Qed.

(** Bounds that take equal sources alike. *)
Definition alike (U : value -> nat) : Prop :=
  forall v u, source v -> source u -> key_eqb v u = true -> U v = U u.

Lemma val_eqb_self v : source v -> val_eqb v v = true.
Proof. intros H. rewrite val_key; [apply key_eqb_iff; reflexivity|exact H|destruct H; discriminate]. Qed.

Lemma table_strength m j i r oc A U R : source j -> alike U -> (forall s, alike (R s)) -> table m A U R ->
  let '(m', o) := strength m j i r oc in
  table m' (fun v => A v || val_eqb v j) U R /\ dmdata m' = dmdata m /\
  (forall n k, o = Some (n, k) ->
     match var_truthy r with
     | Some s => S (fan_in m s j) <= n <= S (fan_in m s j + R s j)
     | None => S (fan m j) <= n <= S (fan m j + U j)
     end)%nat.
Proof.
  intros Hj AU AR T. pose proof T as (H1 & H2 & H3 & H4 & H5). unfold strength.
  assert (C : table m (fun v => A v || val_eqb v j) U R).
  { split; [exact H1|]. split; [exact H2|]. split; [exact H3|]. split.
    - intros v n H. destruct (H4 v n H) as (? & -> & ?). auto.
    - intros s v n H. destruct (H5 s v n H) as (? & -> & ?). auto. }
  destruct (negb _ && negb _); [split; [exact C|]; split; [reflexivity|discriminate]|].
  destruct (var_truthy r) as [s|].
  - destruct (existsb _ _); [|split; [exact C|]; split; [reflexivity|discriminate]].
    destruct (rcount (restr m) s j) as [n|] eqn:E.
    + split; [exact C|]. split; [reflexivity|].
      intros n' k X. injection X as <- <-. rewrite rcount_g in E. apply gcount_In in E. destruct E as ([s' j'] & E1 & E2).
      destruct (H5 _ _ _ E1) as (S1 & _ & S2). unfold rkey_eqb in E2. simpl in E2. apply andb_true_iff in E2. destruct E2 as [E2 E3].
      apply String.eqb_eq in E2. subst s'. rewrite <- (AR s j' j) by assumption.
      assert (F : fan_in m s j = fan_in m s j').
      { unfold fan_in. f_equal. apply filter_ext. intros [a b]. rewrite (val_eqb_congr j' j); auto. }
      rewrite F. exact S2.
    + split; [|split; [reflexivity|]].
      * destruct C as (_ & _ & _ & C4 & C5). split; [exact H1|]. split; [exact H2|]. split; [|split]; simpl.
        -- apply (gcount_None _ _ rhash _ rkey_iff); [rewrite <- rcount_g; exact E|exact H3].
        -- exact C4.
        -- intros s' v n H. apply in_app_or in H. destruct H as [H|[H|[]]]; [apply (C5 s' v n H)|].
           injection H as <- <- <-. split; [exact Hj|]. split; [rewrite val_eqb_self by exact Hj; apply orb_true_r|].
           rewrite dm_slots_in_fan. unfold fan_in, all_slots. simpl. lia.
      * intros n k X. injection X as <- <-. rewrite dm_slots_in_fan. lia.
  - destruct (ucount (unrestr m) j) as [n|] eqn:E.
    + split; [exact C|]. split; [reflexivity|].
      intros n' k X. injection X as <- <-. rewrite ucount_g in E. apply gcount_In in E. destruct E as (j' & E1 & E2).
      destruct (H4 _ _ E1) as (S1 & _ & S2). rewrite <- (AU j' j) by assumption.
      assert (F : fan m j = fan m j').
      { unfold fan. f_equal. apply filter_ext. intros [a b]. rewrite (val_eqb_congr j' j); auto. }
      rewrite F. exact S2.
    + split; [|split; [reflexivity|]].
      * destruct C as (_ & _ & _ & C4 & C5). split; [exact H1|]. split; [|split; [exact H3|split]]; simpl.
        -- apply (gcount_None _ _ hash_value _ key_eqb_iff); [rewrite <- ucount_g; exact E|exact H2].
        -- intros v n H. apply in_app_or in H. destruct H as [H|[H|[]]]; [apply (C4 v n H)|].
           injection H as <- <-. split; [exact Hj|]. split; [rewrite val_eqb_self by exact Hj; apply orb_true_r|].
           rewrite dm_slots_fan. unfold fan, all_slots. simpl. lia.
        -- exact C5.
      * intros n k X. injection X as <- <-. rewrite dm_slots_fan. lia.
Qed.

(** A removal. *)
Lemma keys_fan_drop a c b v r u :
  (fan (MkDM (a ++ b) r u) v <= fan (MkDM (a ++ c :: b) r u) v)%nat /\
  forall s, (fan_in (MkDM (a ++ b) r u) s v <= fan_in (MkDM (a ++ c :: b) r u) s v)%nat.
Proof.
  unfold fan, fan_in, all_slots. cbn [dmdata]. rewrite !flat_map_app. cbn [flat_map].
  split; [|intros s]; rewrite !filter_app, !app_length; lia.
Qed.

Definition plus (A : value -> bool) (U : value -> nat) (d : value -> nat) : value -> nat :=
  fun v => (U v + if A v then d v else 0)%nat.

Lemma table_less m m' A U R : table m A U R -> ok_keys (map fst (dmdata m')) ->
  restr m' = restr m -> unrestr m' = unrestr m ->
  (forall v, fan m' v <= fan m v /\ forall s, fan_in m' s v <= fan_in m s v)%nat ->
  table m' A (plus A U (fun v => fan m v - fan m' v)%nat)
             (fun s => plus A (R s) (fun v => fan_in m s v - fan_in m' s v)%nat).
Proof.
  intros (H1 & H2 & H3 & H4 & H5) K Er Eu L. split; [exact K|]. rewrite Er, Eu. split; [exact H2|]. split; [exact H3|].
  unfold plus. split.
  - intros v n H. destruct (H4 v n H) as (S1 & S2 & S3). rewrite S2. split; [exact S1|]. split; [reflexivity|].
    destruct (L v) as [L1 _]. lia.
  - intros s v n H. destruct (H5 s v n H) as (S1 & S2 & S3). rewrite S2. split; [exact S1|]. split; [reflexivity|].
    destruct (L v) as [_ L1]. specialize (L1 s). lia.
Qed.

Lemma removes_table m o A U R : removes o = true -> table m A U R ->
  table (dm_step m o) A (plus A U (fun v => fan m v - fan (dm_step m o) v)%nat)
                        (fun s => plus A (R s) (fun v => fan_in m s v - fan_in (dm_step m o) s v)%nat).
Proof.
  intros Hr T. destruct o as [o|c|]; [discriminate| |]; cbn [dm_step].
  - destruct (dm_del m c) as [m'|] eqn:E.
    + destruct (del_data _ _ _ E) as (D & D1 & D2). destruct (cdel_split _ _ _ D) as (a & x & ts & b & X1 & X2 & _).
      apply table_less; try assumption.
      * pose proof T as (H1 & _). unfold ok_keys in *. rewrite X1 in H1. rewrite X2. rewrite map_app in *.
        apply Forall_app in H1. destruct H1 as [A1 A2]. inversion A2. apply Forall_app. auto.
      * intros v. destruct m as [l r u], m' as [l' r' u']. cbn [dmdata restr unrestr] in *. subst. apply keys_fan_drop.
    + apply table_less; try assumption; try reflexivity; [apply T|]. intros v. split; [|intros s]; lia.
  - rewrite clear_eq. apply table_less; try assumption; try reflexivity; [constructor|].
    intros v. split; [|intros s]; apply Nat.le_0_l.
Qed.

Lemma op_table m o A U R : dm_ok m -> alike U -> (forall s, alike (R s)) -> op_ok o -> table m A U R ->
  table (mem_step m o) (fun v => A v || asks v (Did o)) U R /\ dm_ok (mem_step m o).
Proof.
  intros K AU AR Ho T.
  assert (W : forall m', table m' A U R -> table m' (fun v => A v || false) U R).
  { intros m' (H1 & H2 & H3 & H4 & H5). split; [exact H1|]. split; [exact H2|]. split; [exact H3|]. split.
    - intros v n H. rewrite orb_false_r. auto.
    - intros s v n H. rewrite orb_false_r. auto. }
  assert (D : forall c ts m', no_empty_object c -> dm_ok m' -> table m' A U R ->
              table (dm_add_times m' c ts) A U R /\ dm_ok (dm_add_times m' c ts)).
  { intros c ts m' Hc K' T'. rewrite add_times_setitem. split; [apply table_setitem|apply setitem_ok]; assumption. }
  destruct o; cbn [mem_step asks] in *.
  - destruct (D c [round4 t] m Ho K T). split; [apply W|]; assumption.
  - unfold dm_add_all. enough (G : table (fold_left (fun m c => dm_add m c t) cs m) A U R /\
                                   dm_ok (fold_left (fun m c => dm_add m c t) cs m)) by (split; [apply W|]; apply G).
    clear W. revert m K T. induction Ho as [|c cs Hc _ IH]; intros m K T; cbn [fold_left]; [auto|].
    apply IH; apply (D c [round4 t] m); assumption.
  - destruct (D c ts m Ho K T). split; [apply W|]; assumption.
  - split; [apply W; apply table_setitem; assumption|apply setitem_ok; exact K].
  - pose proof (table_strength m j i restricted only_chunks A U R Ho AU AR T) as S.
    destruct (strength _ _ _ _ _) as [m' o]. cbn [fst]. destruct S as (S1 & S2 & _). split; [exact S1|].
    unfold dm_ok. rewrite S2. exact K.
  - rewrite copy_same by exact K. split; [apply W; exact T|exact K].
Qed.

(** ** Histories *)

Lemma fan_alike m : alike (fan m) /\ forall s, alike (fan_in m s).
Proof.
  split; [intros v u Hv Hu Hk; unfold fan|intros s v u Hv Hu Hk; unfold fan_in];
    f_equal; apply filter_ext; intros [a b]; rewrite (val_eqb_congr v u); auto.
Qed.

Definition agree (A : value -> bool) : Prop :=
  forall v u, source v -> source u -> key_eqb v u = true -> A v = A u.

Lemma agree_asks A o : agree A -> agree (fun v => A v || asks v o).
Proof.
  intros H v u Hv Hu Hk. rewrite (H v u) by assumption. f_equal. destruct o as [[]|c|]; try reflexivity.
  cbn [asks]. apply val_eqb_congr; assumption.
Qed.

Definition gu (m : decmem) (o : dm_op) (A : value -> bool) (U : value -> nat) : value -> nat :=
  fun v => (U v + (if removes o && A v then fan m v - fan (dm_step m o) v else 0))%nat.
Definition gr (m : decmem) (o : dm_op) (A : value -> bool) (R : string -> value -> nat) : string -> value -> nat :=
  fun s v => (R s v + (if removes o && A v then fan_in m s v - fan_in (dm_step m o) s v else 0))%nat.

Lemma table_ext m A U R A' U' R' : table m A U R ->
  (forall v, A v = A' v) -> (forall v, U v = U' v) -> (forall s v, R s v = R' s v) -> table m A' U' R'.
Proof.
  intros (H1 & H2 & H3 & H4 & H5) EA EU ER. split; [exact H1|]. split; [exact H2|]. split; [exact H3|]. split.
  - intros v n H. rewrite <- EA, <- EU. auto.
  - intros s v n H. rewrite <- EA, <- ER. auto.
Qed.

Lemma step_table m o A U R : dm_ok m -> alike U -> (forall s, alike (R s)) -> dm_op_ok o -> table m A U R ->
  table (dm_step m o) (fun v => A v || asks v o) (gu m o A U) (gr m o A R) /\ dm_ok (dm_step m o).
Proof.
  intros K AU AR Ho T. destruct (removes o) eqn:Er.
  - split.
    + apply (table_ext _ _ _ _ _ _ _ (removes_table m o A U R Er T)); unfold plus, gu, gr; rewrite ?Er.
      * intros v. destruct o; [discriminate| |]; cbn [asks]; rewrite orb_false_r; reflexivity.
      * reflexivity.
      * reflexivity.
    + destruct o as [o|c|]; [discriminate| |]; cbn [dm_step].
      * destruct (dm_del m c) eqn:E; [apply (del_ok _ _ _ K E)|exact K].
      * rewrite clear_eq. exact I.
  - destruct o as [o|c|]; try discriminate. destruct (op_table m o A U R K AU AR Ho T) as [T1 T2]. split; [|exact T2].
    apply (table_ext _ _ _ _ _ _ _ T1); unfold gu, gr; cbn [removes andb]; intros; try reflexivity; lia.
Qed.

Lemma runs_table ops : Forall dm_op_ok ops -> forall m A U R,
  dm_ok m -> agree A -> alike U -> (forall s, alike (R s)) -> table m A U R ->
  exists A',
  table (fold_left dm_step ops m) A' (fun v => U v + lost (fun m => fan m v) v ops m (A v))%nat
        (fun s v => R s v + lost (fun m => fan_in m s v) v ops m (A v))%nat /\
  alike (fun v => U v + lost (fun m => fan m v) v ops m (A v))%nat /\
  (forall s, alike (fun v => R s v + lost (fun m => fan_in m s v) v ops m (A v))%nat) /\
  dm_ok (fold_left dm_step ops m).
Proof.
  induction 1 as [|o ops Ho _ IH]; intros m A U R K AA AU AR T; cbn [fold_left lost].
  - exists A. split; [|split; [|split; [|exact K]]].
    + apply (table_ext _ _ _ _ _ _ _ T); intros; cbv beta; try reflexivity; lia.
    + intros v u Hv Hu Hk. rewrite (AU v u) by assumption. reflexivity.
    + intros s v u Hv Hu Hk. rewrite (AR s v u) by assumption. reflexivity.
  - destruct (step_table m o A U R K AU AR Ho T) as [T1 K1].
    assert (AU1 : alike (gu m o A U)).
    { intros v u Hv Hu Hk. unfold gu. rewrite (AU v u), (AA v u) by assumption.
      rewrite (proj1 (fan_alike m) v u), (proj1 (fan_alike (dm_step m o)) v u) by assumption. reflexivity. }
    assert (AR1 : forall s, alike (gr m o A R s)).
    { intros s v u Hv Hu Hk. unfold gr. rewrite (AR s v u), (AA v u) by assumption.
      rewrite (proj2 (fan_alike m) s v u), (proj2 (fan_alike (dm_step m o)) s v u) by assumption. reflexivity. }
    destruct (IH _ _ _ _ K1 (agree_asks A o AA) AU1 AR1 T1) as (A' & X1 & X2 & X3 & X4).
    exists A'. split; [|split; [|split; [|exact X4]]].
    + apply (table_ext _ _ _ _ _ _ _ X1); unfold gu, gr; intros; cbv beta; try reflexivity; lia.
    + intros v u Hv Hu Hk. specialize (X2 v u Hv Hu Hk). unfold gu in X2. cbv beta in *. lia.
    + intros s v u Hv Hu Hk. specialize (X3 s v u Hv Hu Hk). unfold gr in X3. cbv beta in *. lia.
Qed.

Theorem runs_ok ops : Forall dm_op_ok ops -> dm_ok (dm_runs ops).
Proof.
  intros H. destruct (runs_table ops H dm_empty (fun _ => false) (fun _ => 0%nat) (fun _ _ => 0%nat)) as (A & _ & _ & _ & K);
    [exact I|red; auto|red; auto|red; auto| |exact K].
  repeat split; try constructor; try (intros ? ? []); try (intros ? ? ? []); contradiction.
Qed.

Theorem del_exact ops c : Forall dm_op_ok ops ->
  match dm_del (dm_runs ops) c with
  | Some m' => forall d, dm_times m' d = if chunk_eqb nobind c d then None else dm_times (dm_runs ops) d
  | None => dm_times (dm_runs ops) c = None
  end.
Proof.
  intros H. pose proof (del_times (dm_runs ops) c) as D. pose proof (del_missing (dm_runs ops) c) as N.
  destruct (dm_del (dm_runs ops) c) as [m'|]; [|apply N; reflexivity]. apply (D m' (runs_ok ops H) eq_refl).
Qed.

Theorem count_bounds ops j i r oc n k :
  Forall dm_op_ok ops -> source j -> snd (strength (dm_runs ops) j i r oc) = Some (n, k) ->
  (S (holding r j (dm_runs ops)) <= n <= S (holding r j (dm_runs ops) + lost (holding r j) j ops dm_empty false))%nat.
Proof.
  intros H Hj E.
  destruct (runs_table ops H dm_empty (fun _ => false) (fun _ => 0%nat) (fun _ _ => 0%nat)) as (A & T & AU & AR & K);
    [exact I|red; auto|red; auto|red; auto| |].
  { repeat split; try constructor; try (intros ? ? []); try (intros ? ? ? []); contradiction. }
  cbn [Nat.add] in T, AU, AR.
  pose proof (table_strength _ j i r oc _ _ _ Hj AU AR T) as S. unfold dm_runs in *.
  destruct (strength _ _ _ _ _) as [m' o]. cbn [snd] in E. destruct S as (_ & _ & S). specialize (S n k E).
  destruct r as [[|a s]|]; exact S.
Qed.

Lemma lost_none f j ops : forall m a, (forall o, In o ops -> removes o = false) -> lost f j ops m a = 0%nat.
Proof.
  induction ops as [|o ops IH]; intros m a H; cbn [lost]; [reflexivity|].
  rewrite (H o) by (left; reflexivity). cbn [andb Nat.add]. apply IH. intros; apply H; right; assumption.
Qed.
Lemma lost_unasked f j ops1 : forall ops2 m, (forall o, In o ops1 -> asks j o = false) ->
  lost f j (ops1 ++ ops2) m false = lost f j ops2 (fold_left dm_step ops1 m) false.
Proof.
  induction ops1 as [|o ops IH]; intros ops2 m H; cbn [app lost fold_left]; [reflexivity|].
  rewrite (H o) by (left; reflexivity). rewrite andb_false_r. cbn [orb Nat.add]. apply IH. intros; apply H; right; assumption.
Qed.

(** Nothing is removed once the strength of association from [j] has been asked for. *)
Theorem count_exact ops1 ops2 j i r oc n k :
  Forall dm_op_ok (ops1 ++ ops2) -> source j ->
  (forall o, In o ops1 -> asks j o = false) -> (forall o, In o ops2 -> removes o = false) ->
  snd (strength (dm_runs (ops1 ++ ops2)) j i r oc) = Some (n, k) ->
  n = S (holding r j (dm_runs (ops1 ++ ops2))).
Proof.
  intros H Hj H1 H2 E. pose proof (count_bounds _ _ _ _ _ _ _ H Hj E) as B.
  rewrite lost_unasked, lost_none in B by assumption. lia.
Qed.

(** ** A count that is out of date *)

Definition fx_red (n : string) : chunk := MkChunk "o" [("color", plain (VStr "red")); ("name", plain (VStr n))].
Definition fx_ops : list dm_op :=
  [Did (MAdd (fx_red "a") 0); Did (MAdd (fx_red "b") 0); Did (MAdd (fx_red "c") 0);
   Did (MStrength (VStr "red") (fx_red "a") None false); Del (fx_red "b"); Del (fx_red "c")].
Lemma fx_ops_ok : Forall dm_op_ok fx_ops.
Proof. repeat constructor; intros n w H; simpl in H; destruct H as [H|[H|[]]]; injection H as <- <-; discriminate. Qed.

Theorem count_stale : exists ops j i n k,
  Forall dm_op_ok ops /\ source j /\
  snd (strength (dm_runs ops) j i None false) = Some (n, k) /\ n <> S (fan (dm_runs ops) j).
Proof.
  exists fx_ops, (VStr "red"), (fx_red "a"), 4%nat, 1%nat. split; [exact fx_ops_ok|]. split; [constructor|].
  split; [reflexivity|]. vm_compute. discriminate.
Qed.
