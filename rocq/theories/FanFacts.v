(** Proofs about the cached fan counts of declarative memory (C18). *)
From Verif Require Import BaseFacts Chunks ChunkSpec ChunkFacts ChunkMatch DecMem DecMemFacts.
Local Open Scope string_scope.
Arguments hval_eqb : simpl never.
Arguments hash_value : simpl nomatch.
Arguments val_eqb : simpl nomatch.

Lemma key_eqb_hash v u : key_eqb v u = hval_eqb (hash_value v) (hash_value u).
Proof.
  unfold key_eqb. destruct v as [| |s|c], u as [| |t|d]; simpl; try reflexivity; try (apply andb_true_r); try (apply andb_false_r).
  - destruct (hval_eqb _ _) eqn:E; [|reflexivity]. apply hval_eqb_eq in E. injection E as ->. apply String.eqb_refl.
  - apply andb_diag.
Qed.

Lemma key_eqb_iff v u : key_eqb v u = true <-> hash_value v = hash_value u.
Proof. rewrite key_eqb_hash. apply hval_eqb_eq. Qed.

(** For a source and a value that is not the EmptyValue object, Python's == is equality of
    dictionary keys. *)
Lemma val_key v u : source v -> u <> VEmpty -> val_eqb v u = key_eqb v u.
Proof.
  intros Hs Hu. rewrite key_eqb_hash. destruct Hs as [s|c], u as [| |t|d]; try congruence; try reflexivity.
Qed.

Lemma empty_sig ty : sig nobind (MkChunk ty []) = [].
Proof. reflexivity. Qed.

(** ** Generic counters *)
Section Counter.
  Variable K H : Type.
  Variable f : K -> H.
  Variable eqb : K -> K -> bool.
  Hypothesis eqb_iff : forall a b, eqb a b = true <-> f a = f b.

  Fixpoint gcount (l : list (K * nat)) (k : K) : option nat :=
    match l with
    | [] => None
    | (k', n) :: l' => if eqb k' k then Some n else gcount l' k
    end.
  Fixpoint gincr (l : list (K * nat)) (k : K) : list (K * nat) :=
    match l with
    | [] => []
    | (k', n) :: l' => if eqb k' k then (k', S n) :: l' else (k', n) :: gincr l' k
    end.
  Definition gstep (l : list (K * nat)) (k : K) : list (K * nat) :=
    match gcount l k with Some _ => gincr l k | None => l end.
  Definition uniq (l : list (K * nat)) : Prop := NoDup (map (fun p => f (fst p)) l).
  Definition bump (k : K) (p : K * nat) : K * nat := (fst p, if eqb (fst p) k then S (snd p) else snd p).

  Lemma bump_id l k : (forall p, In p l -> eqb (fst p) k = false) -> map (bump k) l = l.
  Proof.
    induction l as [|[a n] l IH]; intros Hl; simpl; [reflexivity|]. rewrite IH by (intros p Hp; apply Hl; simpl; auto).
    unfold bump. simpl. pose proof (Hl (a, n) (or_introl eq_refl)) as E. simpl in E. rewrite E. reflexivity.
  Qed.

  Lemma gstep_bump l k : uniq l -> gstep l k = map (bump k) l.
  Proof.
    unfold gstep. induction l as [|[a n] l IH]; simpl; [reflexivity|]. intros U. inversion U as [|? ? U1 U2]. subst.
    destruct (eqb a k) eqn:E.
    - f_equal; [unfold bump; simpl; rewrite E; reflexivity|]. symmetry. apply bump_id. intros [c j] Hp. simpl.
      destruct (eqb c k) eqn:E2; [|reflexivity]. exfalso. apply eqb_iff in E, E2. apply U1. simpl. rewrite E, <- E2.
      apply in_map_iff. exists (c, j). auto.
    - specialize (IH U2). destruct (gcount l k); rewrite <- IH; unfold bump; simpl; rewrite E; reflexivity.
  Qed.

  Lemma uniq_bump l k : uniq l -> uniq (map (bump k) l).
  Proof. unfold uniq. rewrite map_map. simpl. auto. Qed.

  Lemma gcount_In l k n : gcount l k = Some n -> exists k', In (k', n) l /\ eqb k' k = true.
  Proof.
    induction l as [|[a m] l IH]; simpl; [discriminate|]. destruct (eqb a k) eqn:E.
    - intros X. injection X as <-. eauto.
    - intros X. destruct (IH X) as (k' & H1 & H2). eauto.
  Qed.

  Lemma gcount_None l k n : gcount l k = None -> uniq l -> uniq (l ++ [(k, n)]).
  Proof.
    unfold uniq. rewrite map_app. simpl. intros Hn U. apply NoDup_rev in U.
    rewrite <- (rev_involutive (_ ++ _)). apply NoDup_rev. rewrite rev_app_distr. simpl. constructor; [|exact U].
    rewrite <- in_rev. apply NoDup_rev in U. rewrite rev_involutive in U.
    intros Hin. apply in_map_iff in Hin. destruct Hin as ([a m] & E & Hin). simpl in E.
    induction l as [|[b j] l IH]; [destruct Hin|]. simpl in Hn. destruct (eqb b k) eqn:Eb; [discriminate|].
    destruct Hin as [Hin|Hin].
    - injection Hin as -> ->. assert (eqb a k = true) by (apply eqb_iff; exact E). congruence.
    - inversion U. subst. apply IH; assumption.
  Qed.

  (** Several increments in a row. *)
  Variable X : Type.
  Variable probe : X -> option K.
  Definition gsteps (xs : list X) (l : list (K * nat)) : list (K * nat) :=
    fold_left (fun acc x => match probe x with Some k => gstep acc k | None => acc end) xs l.
  Definition hits (k : K) (xs : list X) : nat :=
    List.length (filter (fun x => match probe x with Some k' => eqb k k' | None => false end) xs).

  Lemma gsteps_spec xs : forall l, uniq l ->
    gsteps xs l = map (fun p => (fst p, snd p + hits (fst p) xs)%nat) l.
  Proof.
    induction xs as [|x xs IH]; intros l U; simpl.
    - symmetry. transitivity (map (fun p => p) l); [|apply map_id]. apply map_ext. intros [a n]. simpl. f_equal. apply Nat.add_0_r.
    - unfold hits. simpl. destruct (probe x) as [k|].
      + rewrite (gstep_bump l k U). rewrite IH by (apply uniq_bump; exact U). rewrite map_map. apply map_ext. intros [a n]. unfold bump. simpl.
        destruct (eqb a k); simpl; f_equal; unfold hits; lia.
      + rewrite IH by exact U. apply map_ext. intros [a n]. reflexivity.
  Qed.
End Counter.

(** ** The two counters as instances *)

Definition rkey_eqb (a b : string * value) : bool := String.eqb (fst a) (fst b) && key_eqb (snd a) (snd b).
Definition rhash (a : string * value) : string * hval := (fst a, hash_value (snd a)).

Lemma rkey_iff a b : rkey_eqb a b = true <-> rhash a = rhash b.
Proof.
  unfold rkey_eqb, rhash. rewrite andb_true_iff, String.eqb_eq, key_eqb_iff. split; [intros [-> ->]; reflexivity|].
  intros E. injection E. auto.
Qed.

Definition probe_v (p : string * slotval) : option value :=
  let v := vvals (splitting (snd p)) in if truthy v then Some v else None.
Definition probe_sv (p : string * slotval) : option (string * value) :=
  let v := vvals (splitting (snd p)) in if truthy v then Some (fst p, v) else None.

Lemma ucount_g l v : ucount l v = gcount _ key_eqb l v.
Proof. induction l as [|[a n] l IH]; simpl; [reflexivity|]. rewrite IH. reflexivity. Qed.
Lemma uincr_g l v : uincr l v = gincr _ key_eqb l v.
Proof. induction l as [|[a n] l IH]; simpl; [reflexivity|]. rewrite IH. reflexivity. Qed.
Lemma rcount_g l s v : rcount l s v = gcount _ rkey_eqb l (s, v).
Proof. induction l as [|[[a b] n] l IH]; simpl; [reflexivity|]. rewrite IH. reflexivity. Qed.
Lemma rincr_g l s v : rincr l s v = gincr _ rkey_eqb l (s, v).
Proof. induction l as [|[[a b] n] l IH]; simpl; [reflexivity|]. rewrite IH. reflexivity. Qed.

Lemma uupdate_g l key : uupdate l key = gsteps _ key_eqb _ probe_v (cslots key) l.
Proof.
  unfold uupdate, gsteps, gstep. revert l. induction (cslots key) as [|p xs IH]; intros l; simpl; [reflexivity|].
  rewrite IH. f_equal. unfold probe_v. destruct (truthy _); [|reflexivity]. rewrite ucount_g, uincr_g. reflexivity.
Qed.
Lemma rupdate_g l key : rupdate l key = gsteps _ rkey_eqb _ probe_sv (cslots key) l.
Proof.
  unfold rupdate, gsteps, gstep. revert l. induction (cslots key) as [|p xs IH]; intros l; simpl; [reflexivity|].
  rewrite IH. f_equal. unfold probe_sv. destruct (truthy _); [|reflexivity]. rewrite rcount_g, rincr_g. reflexivity.
Qed.

(** ** Counting slots *)

Definition keys_slots (l : list chunk) : list (string * value) := flat_map written l.

Lemma all_slots_keys m : all_slots m = keys_slots (map fst (dmdata m)).
Proof. unfold all_slots, keys_slots. induction (dmdata m) as [|[c ts] l IH]; simpl; [reflexivity|]. rewrite IH. reflexivity. Qed.


Lemma content_truthy v : content v = truthy v.
Proof. destruct v as [| |[|a s]|[ty [|p l]]]; reflexivity. Qed.

Definition ok_keys (l : list chunk) : Prop := Forall no_empty_object l.

(** The counts computed by scanning memory are the specified ones. *)
Lemma slots_with_written v c :
  slots_with v c = List.length (filter (fun p => val_eqb v (snd p)) (written c)).
Proof.
  unfold slots_with, written. induction (cslots c) as [|[n s] l IH]; simpl; [reflexivity|].
  rewrite filter_app, app_length, <- IH. destruct s as [w|]; simpl; [|reflexivity].
  rewrite content_truthy. destruct (truthy (vvals w)); simpl; [|reflexivity].
  destruct (val_eqb v (vvals w)); reflexivity.
Qed.
Lemma slots_with_in_written s v c :
  slots_with_in s v c = List.length (filter (fun p => String.eqb (fst p) s && val_eqb v (snd p)) (written c)).
Proof.
  unfold slots_with_in, written. induction (cslots c) as [|[n sv] l IH]; simpl; [reflexivity|].
  rewrite filter_app, app_length, <- IH. destruct sv as [w|]; simpl; [|rewrite andb_false_r; reflexivity].
  rewrite content_truthy. destruct (truthy (vvals w)); simpl; [|rewrite andb_false_r; reflexivity].
  destruct (String.eqb n s && val_eqb v (vvals w)); reflexivity.
Qed.

Lemma dm_slots_fan m v : dm_slots m v = fan m v.
Proof.
  unfold dm_slots, fan, all_slots. induction (dmdata m) as [|[c ts] l IH]; simpl; [reflexivity|].
  rewrite filter_app, app_length, IH, slots_with_written. reflexivity.
Qed.
Lemma dm_slots_in_fan m s v : dm_slots_in m s v = fan_in m s v.
Proof.
  unfold dm_slots_in, fan_in, all_slots. induction (dmdata m) as [|[c ts] l IH]; simpl; [reflexivity|].
  rewrite filter_app, app_length, IH, slots_with_in_written. reflexivity.
Qed.

(** The increments made for a new chunk are the slots it adds. *)
Lemma hits_written v c : source v -> no_empty_object c ->
  hits _ key_eqb _ probe_v v (cslots c) = List.length (filter (fun p => val_eqb v (snd p)) (written c)).
Proof.
  intros Hs Hc. unfold hits, written, no_empty_object in *. induction (cslots c) as [|[n s] l IH]; simpl; [reflexivity|].
  rewrite filter_app, app_length, <- IH by (intros n' w' H; apply (Hc n'); simpl; auto).
  unfold probe_v at 1. simpl. destruct s as [w|]; simpl; [|reflexivity].
  rewrite content_truthy. destruct (truthy (vvals w)); simpl; [|reflexivity].
  rewrite val_key; [|exact Hs|apply (Hc n); simpl; auto]. destruct (key_eqb v (vvals w)); reflexivity.
Qed.
Lemma hits_in_written s v c : source v -> no_empty_object c ->
  hits _ rkey_eqb _ probe_sv (s, v) (cslots c) =
  List.length (filter (fun p => String.eqb (fst p) s && val_eqb v (snd p)) (written c)).
Proof.
  intros Hs Hc. unfold hits, written, no_empty_object in *. induction (cslots c) as [|[n sv] l IH]; simpl; [reflexivity|].
  rewrite filter_app, app_length, <- IH by (intros n' w' H; apply (Hc n'); simpl; auto).
  unfold probe_sv at 1. simpl. destruct sv as [w|]; simpl; [|reflexivity].
  rewrite content_truthy. destruct (truthy (vvals w)); simpl; [|reflexivity].
  rewrite val_key; [|exact Hs|apply (Hc n); simpl; auto]. unfold rkey_eqb. simpl. rewrite (String.eqb_sym s n).
  destruct (String.eqb n s); simpl; [|reflexivity]. destruct (key_eqb v (vvals w)); reflexivity.
Qed.

Lemma val_eqb_congr v u w : source v -> source u -> key_eqb v u = true -> val_eqb v w = val_eqb u w.
Proof.
  intros Hv Hu Hk. apply key_eqb_iff in Hk. destruct Hv as [s|c], Hu as [t|d]; simpl in Hk; try discriminate.
  - injection Hk as ->. reflexivity.
  - destruct w as [| |x|e]; try reflexivity. simpl. rewrite Hk. reflexivity.
Qed.

(** ** The invariant *)

Definition coherent (m : decmem) : Prop :=
  ok_keys (map fst (dmdata m)) /\
  uniq _ _ hash_value (unrestr m) /\ uniq _ _ rhash (restr m) /\
  (forall v n, In (v, n) (unrestr m) -> source v /\ n = S (fan m v)) /\
  (forall s v n, In (s, v, n) (restr m) -> source v /\ n = S (fan_in m s v)).

Lemma coherent_empty : coherent dm_empty.
Proof. repeat split; try constructor; try (intros ? ? []); try (intros ? ? ? []); contradiction. Qed.

Lemma fan_keys m m' v : map fst (dmdata m) = map fst (dmdata m') -> fan m v = fan m' v.
Proof. intros H. unfold fan. rewrite !all_slots_keys, H. reflexivity. Qed.
Lemma fan_in_keys m m' s v : map fst (dmdata m) = map fst (dmdata m') -> fan_in m s v = fan_in m' s v.
Proof. intros H. unfold fan_in. rewrite !all_slots_keys, H. reflexivity. Qed.

Lemma coherent_setitem m c ts : no_empty_object c -> coherent m -> coherent (dm_setitem m c ts).
Proof.
  intros Hc (H1 & H2 & H3 & H4 & H5). pose proof (setitem_keys m c ts) as HK. unfold dm_setitem in *.
  destruct (dm_mem m c); simpl in *.
  - repeat split; simpl; try assumption.
    + unfold ok_keys. rewrite HK. exact H1.
    + apply (H4 v n H).
    + rewrite (fan_keys _ m v) by exact HK. apply (H4 v n H).
    + apply (H5 s v n H).
    + rewrite (fan_in_keys _ m s v) by exact HK. apply (H5 s v n H).
  - rewrite uupdate_g, rupdate_g.
    rewrite (gsteps_spec _ _ hash_value _ key_eqb_iff) by exact H2.
    rewrite (gsteps_spec _ _ rhash _ rkey_iff) by exact H3.
    assert (F : forall v, source v -> fan {| dmdata := cset (dmdata m) c ts; restr := []; unrestr := [] |} v
                  = (fan m v + hits _ key_eqb _ probe_v v (cslots c))%nat).
    { intros v Hv. unfold fan. rewrite !all_slots_keys. simpl. rewrite HK. unfold keys_slots.
      rewrite flat_map_app, filter_app, app_length. simpl. rewrite app_nil_r, hits_written by assumption. reflexivity. }
    assert (G : forall s v, source v -> fan_in {| dmdata := cset (dmdata m) c ts; restr := []; unrestr := [] |} s v
                  = (fan_in m s v + hits _ rkey_eqb _ probe_sv (s, v) (cslots c))%nat).
    { intros s v Hv. unfold fan_in. rewrite !all_slots_keys. simpl. rewrite HK. unfold keys_slots.
      rewrite flat_map_app, filter_app, app_length. simpl. rewrite app_nil_r, hits_in_written by assumption. reflexivity. }
    split; [|split; [|split; [|split]]]; simpl.
    + unfold ok_keys. rewrite HK. apply Forall_app. auto.
    + unfold uniq. rewrite map_map. simpl. exact H2.
    + unfold uniq. rewrite map_map. simpl. exact H3.
    + intros v n H. apply in_map_iff in H. destruct H as ([v' n'] & E & H). simpl in E. injection E as <- <-.
      destruct (H4 _ _ H) as [S1 S2]. split; [exact S1|]. rewrite (fan_keys _ {| dmdata := cset (dmdata m) c ts; restr := []; unrestr := [] |}) by reflexivity.
      rewrite F by exact S1. lia.
    + intros s v n H. apply in_map_iff in H. destruct H as ([[s' v'] n'] & E & H). simpl in E. injection E as <- <- <-.
      destruct (H5 _ _ _ H) as [S1 S2]. split; [exact S1|]. rewrite (fan_in_keys _ {| dmdata := cset (dmdata m) c ts; restr := []; unrestr := [] |}) by reflexivity.
      rewrite G by exact S1. lia.
Qed.

(** What the strength computation returns, and that it keeps the invariant. *)
Lemma strength_spec m j i r oc : source j -> coherent m ->
  let '(m', o) := strength m j i r oc in
  coherent m' /\ dmdata m' = dmdata m /\
  (forall n k, o = Some (n, k) ->
     n = S (match var_truthy r with Some s => fan_in m s j | None => fan m j end)).
Proof.
  intros Hj C. pose proof C as (H1 & H2 & H3 & H4 & H5). unfold strength.
  destruct (negb _ && negb _); [split; [exact C|]; split; [reflexivity|discriminate]|].
  destruct (var_truthy r) as [s|].
  - destruct (existsb _ _); [|split; [exact C|]; split; [reflexivity|discriminate]].
    destruct (rcount (restr m) s j) as [n|] eqn:E.
    + split; [exact C|]. split; [reflexivity|].
      intros n' k X. injection X as <- <-. rewrite rcount_g in E. apply gcount_In in E. destruct E as ([s' j'] & E1 & E2).
      destruct (H5 _ _ _ E1) as [S1 S2]. unfold rkey_eqb in E2. simpl in E2. apply andb_true_iff in E2. destruct E2 as [E2 E3].
      apply String.eqb_eq in E2. subst s' n. f_equal. unfold fan_in. f_equal. apply filter_ext. intros [a b].
      rewrite (val_eqb_congr j' j); auto.
    + split; [|split; [reflexivity|]].
      * split; [exact H1|]. split; [exact H2|]. split; [|split]; simpl.
        -- apply (gcount_None _ _ rhash _ rkey_iff); [rewrite <- rcount_g; exact E|exact H3].
        -- exact H4.
        -- intros s' v n H. apply in_app_or in H. destruct H as [H|[H|[]]]; [apply (H5 s' v n H)|].
           injection H as <- <- <-. split; [exact Hj|]. rewrite dm_slots_in_fan. reflexivity.
      * intros n k X. injection X as <- <-. rewrite dm_slots_in_fan. reflexivity.
  - destruct (ucount (unrestr m) j) as [n|] eqn:E.
    + split; [exact C|]. split; [reflexivity|].
      intros n' k X. injection X as <- <-. rewrite ucount_g in E. apply gcount_In in E. destruct E as (j' & E1 & E2).
      destruct (H4 _ _ E1) as [S1 S2]. subst n. f_equal. unfold fan. f_equal. apply filter_ext. intros [a b].
      rewrite (val_eqb_congr j' j); auto.
    + split; [|split; [reflexivity|]].
      * split; [exact H1|]. split; [|split; [exact H3|split]]; simpl.
        -- apply (gcount_None _ _ hash_value _ key_eqb_iff); [rewrite <- ucount_g; exact E|exact H2].
        -- intros v n H. apply in_app_or in H. destruct H as [H|[H|[]]]; [apply (H4 v n H)|].
           injection H as <- <-. split; [exact Hj|]. rewrite dm_slots_fan. reflexivity.
        -- exact H5.
      * intros n k X. injection X as <- <-. rewrite dm_slots_fan. reflexivity.
Qed.

Lemma coherent_add m c t : no_empty_object c -> coherent m -> coherent (dm_add m c t).
Proof. intros. unfold dm_add. rewrite add_times_setitem. apply coherent_setitem; assumption. Qed.

Lemma run_inv ops : Forall op_ok ops -> dm_ok (mem_run ops) /\ coherent (mem_run ops).
Proof.
  unfold mem_run. intros H.
  assert (G : forall m, dm_ok m -> coherent m ->
            dm_ok (fold_left mem_step ops m) /\ coherent (fold_left mem_step ops m)).
  { induction H as [|o ops Ho _ IH]; intros m K C; simpl; [auto|]. apply IH.
    - destruct o; simpl in *.
      + apply add_spec. exact K.
      + unfold dm_add_all. clear Ho C. revert m K. induction cs as [|c cs IHc]; intros m K; simpl; [exact K|].
        apply IHc. apply add_spec. exact K.
      + rewrite add_times_setitem. apply setitem_ok. exact K.
      + apply setitem_ok. exact K.
      + pose proof (strength_spec m j i restricted only_chunks Ho C) as S. destruct (strength _ _ _ _ _) as [m' o].
        destruct S as (_ & S & _). simpl. unfold dm_ok. rewrite S. exact K.
      + rewrite copy_same by exact K. exact K.
    - destruct o; simpl in *.
      + apply coherent_add; assumption.
      + unfold dm_add_all. clear K. revert m C. induction Ho as [|c cs Hc _ IHc]; intros m C; simpl; [exact C|].
        apply IHc. apply coherent_add; assumption.
      + rewrite add_times_setitem. apply coherent_setitem; assumption.
      + apply coherent_setitem; assumption.
      + pose proof (strength_spec m j i restricted only_chunks Ho C) as S. destruct (strength _ _ _ _ _) as [m' o]. apply S.
      + rewrite copy_same by exact K. exact C. }
  apply G; [exact I|apply coherent_empty].
Qed.

(** ** C18 *)

Theorem fan_exact ops j i r oc n k :
  Forall op_ok ops -> source j -> snd (strength (mem_run ops) j i r oc) = Some (n, k) ->
  n = S (match r with
         | None | Some "" => fan (mem_run ops) j
         | Some s => fan_in (mem_run ops) s j
         end).
Proof.
  intros H Hj E. destruct (run_inv ops H) as [_ C]. pose proof (strength_spec (mem_run ops) j i r oc Hj C) as S.
  destruct (strength _ _ _ _ _) as [m' o]. simpl in E. destruct S as (_ & _ & S). rewrite (S n k E).
  destruct r as [[|a s]|]; reflexivity.
Qed.
