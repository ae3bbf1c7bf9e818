From Verif Require Import Base BaseFacts Chunks ChunkFacts DecMem Buffers BufferFacts ModifyFacts Model ModelSpec.
Arguments hval_eqb : simpl never. Arguments hash_value : simpl nomatch. Arguments val_eqb : simpl nomatch.
Local Open Scope string_scope.
Local Open Scope list_scope.
Local Open Scope nat_scope.

(** ** C27 *)

Lemma key_same v w : key_eqb v w = true <-> same v w.
Proof.
  unfold key_eqb. destruct v, w; cbn [same]; try (split; [discriminate || (intros H; exact I)|intros H; try reflexivity; elim H]).
  - cbn. rewrite andb_true_iff, hval_eqb_eq. split; [intros [_ H]; apply String.eqb_eq; exact H|intros ->; split; [reflexivity|apply String.eqb_refl]].
  - cbn [val_eqb]. rewrite andb_true_iff. tauto.
Qed.
Lemma key_hash v w : key_eqb v w = true <-> hash_value v = hash_value w.
Proof.
  unfold key_eqb. rewrite andb_true_iff, hval_eqb_eq. split; [tauto|]. intros H. split; [exact H|].
  destruct v, w; cbn in H |- *; try discriminate; try reflexivity.
  - injection H as ->. apply String.eqb_refl.
  - apply hval_eqb_eq. exact H.
Qed.
Definition hkey (v w a b : value) : bool := key_eqb v a && key_eqb w b.
Lemma hkey_iff v w a b : hkey v w a b = true <-> hash_value v = hash_value a /\ hash_value w = hash_value b.
Proof. unfold hkey. rewrite andb_true_iff, !key_hash. tauto. Qed.
Lemma hkey_eq v w a b v' w' : hash_value v = hash_value v' -> hash_value w = hash_value w' -> hkey v w a b = hkey v' w' a b.
Proof.
  intros E1 E2. destruct (hkey v w a b) eqn:E; symmetry.
  - apply hkey_iff in E. apply hkey_iff. destruct E. split; congruence.
  - apply not_true_iff_false. intros H. apply hkey_iff in H. apply not_true_iff_false in E. apply E. apply hkey_iff. destruct H; split; congruence.
Qed.

Lemma sim_get_set t v w q a b : sim_get (sim_set t v w q) a b = if hkey v w a b then Some q else sim_get t a b.
Proof.
  induction t as [|[[v' w'] q'] t IH]; cbn [sim_set sim_get].
  - unfold hkey. reflexivity.
  - destruct (key_eqb v' v && key_eqb w' w) eqn:E; cbn [sim_get].
    + change (hkey v' w' v w = true) in E. apply hkey_iff in E. destruct E as [E1 E2].
      change (key_eqb v' a && key_eqb w' b) with (hkey v' w' a b). rewrite (hkey_eq v' w' a b v w E1 E2). destruct (hkey v w a b); reflexivity.
    + change (key_eqb v' a && key_eqb w' b) with (hkey v' w' a b). rewrite IH. destruct (hkey v' w' a b) eqn:E'; [|reflexivity].
      destruct (hkey v w a b) eqn:E2; [|reflexivity]. apply hkey_iff in E'. apply hkey_iff in E2.
      assert (X : hkey v' w' v w = true) by (apply hkey_iff; destruct E', E2; split; congruence). unfold hkey in X. congruence.
Qed.

Lemma same_hash v w : same v w <-> hash_value v = hash_value w.
Proof. rewrite <- key_same. apply key_hash. Qed.
Lemma same_pair_hkey a b v w : same_pair a b v w <-> hkey a b v w || hkey b a v w = true.
Proof. unfold same_pair. rewrite orb_true_iff, !hkey_iff, !same_hash. tauto. Qed.

Lemma sims_snoc h c : sims (h ++ [c]) = fst (set_similarities (sims h) (fst (fst c)) (snd (fst c)) (snd c)).
Proof. unfold sims. rewrite fold_left_app. reflexivity. Qed.

Lemma sims_get_snoc h a b q v w : sim_get (sims (h ++ [(a, b, q)])) v w = if Qle_bool q 0 && (hkey a b v w || hkey b a v w) then Some q else sim_get (sims h) v w.
Proof.
  rewrite sims_snoc. cbn [fst snd]. unfold set_similarities. destruct (Qle_bool q 0); cbn [fst andb]; [|reflexivity].
  rewrite !sim_get_set. destruct (hkey b a v w); [destruct (hkey a b v w); reflexivity|]. rewrite orb_false_r. reflexivity.
Qed.

Lemma last_never h v w : (exists q, last_call h v w q) \/ never_called h v w.
Proof.
  induction h as [|[[a b] r] h IH] using rev_ind; [right; intros a b r []|].
  destruct (Qle_bool r 0 && (hkey a b v w || hkey b a v w)) eqn:E.
  - left. apply andb_true_iff in E. destruct E as [E1 E2]. exists r. exists h, a, b, []. split; [reflexivity|]. split; [apply Qle_bool_iff; exact E1|].
    split; [apply same_pair_hkey; exact E2|]. intros ? ? ? [].
  - assert (N : (r <= 0)%Q -> ~ same_pair a b v w).
    { intros L H. apply same_pair_hkey in H. apply Qle_bool_iff in L. rewrite L, H in E. discriminate. }
    destruct IH as [[q (h1 & v' & w' & h2 & -> & L & H & A)]|IH].
    + left. exists q, h1, v', w', (h2 ++ [(a, b, r)]). rewrite <- app_assoc. split; [reflexivity|]. split; [exact L|]. split; [exact H|].
      intros x y z I. apply in_app_iff in I. destruct I as [I|[[= <- <- <-]|[]]]; [apply A; exact I|exact N].
    + right. intros x y z I. apply in_app_iff in I. destruct I as [I|[[= <- <- <-]|[]]]; [apply IH; exact I|exact N].
Qed.

Lemma never_get h v w : never_called h v w -> sim_get (sims h) v w = None.
Proof.
  induction h as [|[[a b] r] h IH] using rev_ind; [reflexivity|]. intros N. rewrite sims_get_snoc.
  destruct (Qle_bool r 0 && (hkey a b v w || hkey b a v w)) eqn:E.
  - apply andb_true_iff in E. destruct E as [E1 E2]. elim (N a b r); [apply in_app_iff; right; left; reflexivity|apply Qle_bool_iff; exact E1|apply same_pair_hkey; exact E2].
  - apply IH. intros x y z I. apply N. apply in_app_iff. left. exact I.
Qed.
Lemma last_get h v w q : last_call h v w q -> sim_get (sims h) v w = Some q.
Proof.
  intros (h1 & a & b & h2 & -> & L & P & A). induction h2 as [|[[x y] r] h2 IH] using rev_ind.
  - rewrite sims_get_snoc. apply Qle_bool_iff in L. apply same_pair_hkey in P. rewrite L, P. reflexivity.
  - rewrite app_comm_cons, app_assoc, sims_get_snoc. destruct (Qle_bool r 0 && (hkey x y v w || hkey y x v w)) eqn:E.
    + apply andb_true_iff in E. destruct E as [E1 E2]. elim (A x y r); [apply in_app_iff; right; left; reflexivity|apply Qle_bool_iff; exact E1|apply same_pair_hkey; exact E2].
    + apply IH. intros u z k I. apply A. apply in_app_iff. left. exact I.
Qed.
Lemma same_pair_swap a b v w : same_pair a b v w <-> same_pair a b w v.
Proof. unfold same_pair. tauto. Qed.
Lemma last_swap h v w q : last_call h v w q -> last_call h w v q.
Proof.
  intros (h1 & a & b & h2 & E & L & P & A). exists h1, a, b, h2. split; [exact E|]. split; [exact L|]. split; [apply same_pair_swap; exact P|].
  intros x y r I Lr H. apply (A x y r I Lr). apply same_pair_swap. exact H.
Qed.

Theorem similarities h v w mp :
  get_similarity (sims h) v w mp = get_similarity (sims h) w v mp /\
  (forall q, last_call h v w q -> get_similarity (sims h) v w mp = q) /\
  (never_called h v w -> get_similarity (sims h) v w mp = (- mp)%Q) /\
  ((0 <= mp)%Q -> (get_similarity (sims h) v w mp <= 0)%Q).
Proof.
  unfold get_similarity. split; [|split; [|split]].
  - destruct (last_never h v w) as [[q H]|H].
    + rewrite (last_get _ _ _ _ H), (last_get _ _ _ _ (last_swap _ _ _ _ H)). reflexivity.
    + rewrite (never_get _ _ _ H). rewrite (never_get h w v); [reflexivity|]. intros a b r I L P. apply (H a b r I L). apply same_pair_swap. exact P.
  - intros q H. rewrite (last_get _ _ _ _ (last_swap _ _ _ _ H)). reflexivity.
  - intros H. rewrite (never_get h w v); [reflexivity|]. intros a b r I L P. apply (H a b r I L). apply same_pair_swap. exact P.
  - intros L. destruct (last_never h w v) as [[q H]|H].
    + rewrite (last_get _ _ _ _ H). destruct H as (? & ? & ? & ? & _ & Lq & _). exact Lq.
    + rewrite (never_get _ _ _ H). apply (Qopp_le_compat 0 mp). exact L.
Qed.

Theorem positive_rejected t v w q : (0 < q)%Q -> set_similarities t v w q = (t, Err EActr).
Proof.
  intros L. unfold set_similarities. destruct (Qle_bool q 0) eqn:E; [|reflexivity]. apply Qle_bool_iff in E. elim (Qlt_not_le _ _ L E).
Qed.
Theorem other_accepted t v w q : (q <= 0)%Q -> snd (set_similarities t v w q) = Ok tt.
Proof. intros L. unfold set_similarities. apply Qle_bool_iff in L. rewrite L. reflexivity. Qed.

(** ** Similarities of several models *)

Lemma models_app l l' : models_in (l ++ l') = models_in l + models_in l'.
Proof. induction l as [|[] l IH]; cbn; rewrite ?IH; reflexivity. Qed.
Lemma calls_app k l l' : calls_of k (l ++ l') = calls_of k l ++ calls_of k l'.
Proof. induction l as [|[] l IH]; cbn; rewrite ?IH; try reflexivity. destruct (Nat.eqb k0 k); reflexivity. Qed.
Lemma valid_snoc l o : valid (l ++ [o]) -> valid l /\ op_valid (models_in l) o.
Proof.
  intros V. split; [|exact (V l o [] eq_refl)]. intros l1 o' l2 ->. apply (V l1 o' (l2 ++ [o])). rewrite <- app_assoc. reflexivity.
Qed.
Lemma calls_new l k : valid l -> models_in l <= k -> calls_of k l = [].
Proof.
  induction l as [|o l IH] using rev_ind; [reflexivity|]. intros V L. apply valid_snoc in V. destruct V as [V W]. rewrite models_app in L.
  rewrite calls_app, IH by (trivial; lia). destruct o; try reflexivity. cbn. cbn in W, L. destruct (Nat.eqb_spec k0 k); [lia|reflexivity].
Qed.
Lemma tables l : valid l -> List.length (stabs (sims_run l)) = models_in l /\
  forall k, k < models_in l -> nth_error (stabs (sims_run l)) k = Some (sims (calls_of k l)).
Proof.
  induction l as [|o l IH] using rev_ind; [intros _; split; [reflexivity|cbn; lia]|]. intros V. pose proof V as V0. apply valid_snoc in V. destruct V as [V W].
  destruct (IH V) as [L T]. unfold sims_run. rewrite fold_left_app, models_app. fold (sims_run l). cbn [fold_left]. destruct o; cbn [sims_step models_in].
  - cbn [stabs]. rewrite app_length. split; [cbn; lia|]. intros k Hk. rewrite calls_app. cbn [calls_of]. rewrite app_nil_r.
    destruct (Nat.eq_dec k (models_in l)) as [->|N].
    + rewrite nth_error_app2 by lia. rewrite L, Nat.sub_diag. cbn. rewrite calls_new by (trivial; lia). reflexivity.
    + rewrite nth_error_app1 by lia. apply T. lia.
  - cbn in W. rewrite (T k W). cbn [stabs]. rewrite upd_length. split; [lia|]. intros j Hj. rewrite calls_app. cbn [calls_of].
    destruct (Nat.eqb_spec k j) as [->|N].
    + rewrite (upd_same _ j _ _ (T j W)). rewrite sims_snoc. reflexivity.
    + rewrite upd_other by congruence. rewrite app_nil_r. apply T. lia.
  - cbn in W. rewrite (T k W). cbn [stabs]. split; [lia|]. intros j Hj. rewrite calls_app. cbn [calls_of]. rewrite app_nil_r. apply T. lia.
Qed.
Lemma cur_last l1 k l2 : valid (l1 ++ SSimulation k :: l2) -> existsb is_simulation l2 = false -> scur (sims_run (l1 ++ SSimulation k :: l2)) = Some k.
Proof.
  induction l2 as [|o l2 IH] using rev_ind; intros V N.
  - apply valid_snoc in V. destruct V as [V W]. cbn in W. unfold sims_run. rewrite fold_left_app. fold (sims_run l1). cbn. rewrite (proj2 (tables l1 V) k W). reflexivity.
  - rewrite app_comm_cons, app_assoc in V |- *. apply valid_snoc in V. destruct V as [V W]. rewrite existsb_app in N. apply orb_false_iff in N. destruct N as [N1 N2].
    unfold sims_run. rewrite fold_left_app. fold (sims_run (l1 ++ SSimulation k :: l2)). cbn [fold_left]. specialize (IH V N1).
    destruct o; cbn in N2; try discriminate; cbn [sims_step]; [exact IH|]. destruct (nth_error _ _); exact IH.
Qed.
Theorem latest_table l1 k l2 : valid (l1 ++ SSimulation k :: l2) -> existsb is_simulation l2 = false ->
  used_table (sims_run (l1 ++ SSimulation k :: l2)) = sims (calls_of k (l1 ++ SSimulation k :: l2)).
Proof.
  intros V N. unfold used_table. rewrite (cur_last _ _ _ V N). rewrite (proj2 (tables _ V)); [reflexivity|].
  rewrite models_app. pose proof (V l1 (SSimulation k) l2 eq_refl) as H. cbn in H. lia.
Qed.

(** ** C47 *)

Lemma defaults name : match dget MODEL_PARAMETERS name with Some v => show_value pheap0 v | None => None end = dget documented name.
Proof.
  unfold MODEL_PARAMETERS, documented. cbn [dget].
  repeat match goal with |- context[String.eqb ?k name] => destruct (String.eqb k name); [reflexivity|] end. reflexivity.
Qed.
Lemma known name : dmem MODEL_PARAMETERS name = dmem documented name.
Proof.
  unfold dmem. pose proof (defaults name) as D. rewrite <- D. destruct (dget MODEL_PARAMETERS name) as [v|] eqn:E; [|reflexivity].
  unfold MODEL_PARAMETERS in E. cbn [dget] in E.
  repeat match type of E with context[String.eqb ?k name] => destruct (String.eqb k name); [injection E as <-; reflexivity|] end. discriminate.
Qed.
Theorem parameters_unknown given name : In name (dkeys given) -> dget documented name = None -> init_parameters given = Err EActr.
Proof.
  intros I N. unfold init_parameters. destruct (forallb _ _) eqn:E; [|reflexivity]. rewrite forallb_forall in E. specialize (E name I).
  rewrite known in E. unfold dmem in E. rewrite N in E. discriminate.
Qed.
Theorem parameters_known given : NoDup (dkeys given) -> (forall name, In name (dkeys given) -> dget documented name <> None) ->
  exists ps, init_parameters given = Ok ps /\
    forall name, show_parameter pheap0 ps name = match dget given name with Some v => show_value pheap0 v | None => dget documented name end.
Proof.
  intros N K. unfold init_parameters. assert (E : forallb (fun k => dmem MODEL_PARAMETERS k) (dkeys given) = true).
  { apply forallb_forall. intros k I. rewrite known. unfold dmem. specialize (K k I). destruct (dget documented k); [reflexivity|congruence]. }
  rewrite E. eexists. split; [reflexivity|]. intros name. unfold show_parameter. rewrite dget_dupdate by exact N.
  destruct (dget given name); [reflexivity|]. apply defaults.
Qed.

(** ** C66 *)

Theorem write_frame h ps name buffer q ps' name' :
  (forall r, dget ps name = Some (PRef r) -> dget ps' name' <> Some (PRef r)) ->
  show_parameter (write_parameter h ps name buffer q) ps' name' = show_parameter h ps' name'.
Proof.
  intros N. unfold show_parameter, write_parameter. destruct (dget ps name) as [[b|x|r]|] eqn:E; try reflexivity.
  destruct (nth_error h r) as [d|] eqn:H; [|reflexivity]. destruct (dget ps' name') as [[b|x|r']|] eqn:E'; try reflexivity.
  cbn [show_value]. rewrite upd_other; [reflexivity|]. intros X. subst. apply (N _ eq_refl eq_refl).
Qed.
Theorem write_seen h ps name buffer q r d :
  dget ps name = Some (PRef r) -> nth_error h r = Some d -> show_parameter (write_parameter h ps name buffer q) ps name = Some (ShDict (dset d buffer q)).
Proof.
  intros E H. unfold show_parameter, write_parameter. rewrite E, H. cbn [show_value].
  rewrite (upd_same h r _ _ H). reflexivity.
Qed.

(** ** C48 *)

(** From a new model on, set_decmem replaces the only memory. *)
Theorem set_decmem_replaces (dms : list decmem) w : forall w' a',
  (w', a') = fold_left (fun s dm => set_decmem (fst s) (snd s) dm) dms (new_model w) ->
  exists m, adecmems a' = [("decmem", m)] /\ nth_error (mems w') m = Some (last dms dm_empty).
Proof.
  induction dms as [|dm dms IH] using rev_ind; intros w' a' E.
  - cbn in E. injection E as -> ->. eexists. split; [reflexivity|]. cbn. rewrite nth_error_app2 by lia. rewrite Nat.sub_diag. reflexivity.
  - rewrite fold_left_app in E. destruct (fold_left _ dms (new_model w)) as [w1 a1] eqn:F. destruct (IH w1 a1 eq_refl) as (m & M & _).
    cbn [fold_left fst snd] in E. unfold set_decmem in E. rewrite M in E. cbn in E. injection E as -> ->. eexists. split; [reflexivity|].
    cbn. rewrite nth_error_app2 by lia. rewrite Nat.sub_diag. rewrite last_last. reflexivity.
Qed.
Theorem set_decmem_adds w a dm w' a' :
  set_decmem w a dm = (w', a') -> 2 <= List.length (adecmems a) ->
  dget (adecmems a) ("decmem" ++ str_of_nat (List.length (adecmems a)))%string = None ->
  List.length (adecmems a') = S (List.length (adecmems a)) /\
  (forall name m, dget (adecmems a) name = Some m -> dget (adecmems a') name = Some m) /\
  exists name m, dget (adecmems a) name = None /\ dget (adecmems a') name = Some m /\ nth_error (mems w') m = Some dm.
Proof.
  unfold set_decmem. intros E L N. apply pair_equal_spec in E. destruct E as [<- <-]. destruct (Nat.ltb_spec 1 (List.length (adecmems a))); [|lia]. cbn [adecmems mems].
  set (x := ("decmem" ++ str_of_nat (List.length (adecmems a)))%string) in *.
  assert (K : dkeys (dset (adecmems a) x (List.length (mems w))) = dkeys (adecmems a) ++ [x]) by (rewrite dkeys_dset; unfold dmem; rewrite N; reflexivity).
  split; [|split].
  - assert (Y : forall d : dict nat, List.length d = List.length (dkeys d)) by (intros d; unfold dkeys; rewrite map_length; reflexivity).
    rewrite Y, K, app_length, <- Y. cbn. lia.
  - intros name m E. rewrite dget_dset_neq by congruence. exact E.
  - exists x, (List.length (mems w)). split; [exact N|]. split; [apply dget_dset_eq|]. rewrite nth_error_app2 by lia. rewrite Nat.sub_diag. reflexivity.
Qed.

(** ** C64 *)

Lemma mem_truthy_filled w m : mem_truthy w m = true <-> filled w m.
Proof.
  unfold mem_truthy, filled. destruct (nth_error (mems w) m) as [dm|]; [|split; [discriminate|intros (? & ? & _); discriminate]].
  destruct (dmdata dm) eqn:E; split; try discriminate; try reflexivity.
  - intros (d & [= <-] & H). congruence.
  - intros _. exists dm. split; [reflexivity|congruence].
Qed.
Definition has_filled (w : world) (i : nat) : bool := match buf_dm w i with Some m => mem_truthy w m | None => false end.
Lemma needy_iff w i : needy w i <-> has_filled w i = false.
Proof.
  unfold needy, has_filled, buf_dm. destruct (nth_error (bufs w) i) as [b|]; [|tauto]. destruct (bdm b) as [m|]; [|tauto].
  unfold mem_truthy. destruct (nth_error (mems w) m) as [dm|]; [|tauto]. destruct (dmdata dm); split; congruence.
Qed.

Lemma give_assigned w i m names w' : assigned w w' names m -> i < List.length (bufs w) ->
  assigned w (give_dm w' i m) (names ++ [("", i)]) m.
Proof.
  intros (M & R & L & B) I. unfold give_dm. destruct (nth_error (bufs w') i) as [b'|] eqn:E; [|apply nth_error_None in E; lia].
  split; [exact M|]. split; [exact R|]. split; [cbn; rewrite upd_length; exact L|]. intros j b Hb. cbn [bufs set_buf]. destruct (B j b Hb) as [B1 B2].
  rewrite map_app, in_app_iff. cbn [map snd In]. destruct (Nat.eq_dec j i) as [->|N].
  - split; [|tauto]. intros _. rewrite (upd_same _ _ _ _ E). f_equal. destruct (in_dec Nat.eq_dec i (map snd names)) as [H|H]; [apply B1 in H|apply B2 in H]; rewrite H in E; injection E as <-; reflexivity.
  - rewrite upd_other by exact N. split; [intros [H|[H|[]]]; [auto|congruence]|tauto].
Qed.
Lemma give_all_assigned names w m : Forall (fun p => snd p < List.length (bufs w)) names -> assigned w (give_all w names m) names m.
Proof.
  intros F. induction names as [|[x i] names IH] using rev_ind.
  - cbn. split; [reflexivity|]. split; [reflexivity|]. split; [reflexivity|]. intros i b H. split; [intros []|intros _; exact H].
  - apply Forall_app in F. destruct F as [F1 F2]. inversion F2 as [|? ? F3 _]; subst. unfold give_all. rewrite fold_left_app. fold (give_all w names m). cbn [fold_left snd].
    pose proof (give_assigned w i m names _ (IH F1) F3) as (A1 & A2 & A3 & A4). split; [exact A1|]. split; [exact A2|]. split; [exact A3|].
    intros j b Hb. rewrite map_app. specialize (A4 j b Hb). rewrite map_app in A4. exact A4.
Qed.

Theorem one_memory w a name m : adecmems a = [(name, m)] -> Forall (fun p => snd p < List.length (bufs w)) (abuffers a) ->
  exists w', assign_memories w a = (w', Ok tt) /\ assigned w w' (abuffers a) m.
Proof.
  intros E F. unfold assign_memories, the_decmem. rewrite E. cbn. eexists. split; [reflexivity|]. apply give_all_assigned. exact F.
Qed.

Lemma give_needy_fails a names : (2 <= List.length (adecmems a)) -> forall w, (exists p, In p names /\ needy w (snd p)) -> give_needy w a names = (w, Err EValue).
Proof.
  intros L. induction names as [|[x i] names IH]; intros w (p & I & N); [elim I|]. cbn [give_needy]. fold (has_filled w i).
  destruct (has_filled w i) eqn:E.
  - apply IH. destruct I as [<-|I]; [apply needy_iff in N; cbn in N; congruence|eauto].
  - unfold the_decmem. destruct (adecmems a) as [|[x1 m1] [|]]; cbn in L; try lia. reflexivity.
Qed.
Lemma give_needy_none a names w : (forall p, In p names -> ~ needy w (snd p)) -> give_needy w a names = (w, Ok tt).
Proof.
  induction names as [|[x i] names IH]; intros N; [reflexivity|]. cbn [give_needy]. fold (has_filled w i). destruct (has_filled w i) eqn:E.
  - apply IH. intros p I. apply N. right. exact I.
  - elim (N (x, i) (or_introl eq_refl)). apply needy_iff. exact E.
Qed.

Theorem one_filled_fails w a name m : 2 <= List.length (adecmems a) -> NoDup (map snd (adecmems a)) ->
  In (name, m) (adecmems a) -> filled w m -> (forall name' m', In (name', m') (adecmems a) -> filled w m' -> m' = m) ->
  (exists p, In p (abuffers a) /\ needy w (snd p)) -> assign_memories w a = (w, Err EValue).
Proof.
  intros L ND I F U N. unfold assign_memories. destruct (Nat.eqb_spec (List.length (adecmems a)) 1); [lia|].
  assert (X : filter (mem_truthy w) (map snd (adecmems a)) = [m]).
  { assert (A : forall l, NoDup l -> In m l -> (forall m', In m' l -> filled w m' -> m' = m) -> filter (mem_truthy w) l = [m]).
    { assert (Z : forall l, ~ In m l -> (forall m', In m' l -> filled w m' -> m' = m) -> filter (mem_truthy w) l = []).
      { induction l as [|y l IH]; intros H1 H2; [reflexivity|]. cbn. destruct (mem_truthy w y) eqn:E.
        - apply mem_truthy_filled in E. elim H1. left. apply H2; [left; reflexivity|exact E].
        - apply IH; [intros H; apply H1; right; exact H|intros; apply H2; [right|]; assumption]. }
      induction l as [|y l IH]; intros D H1 H2; [elim H1|]. inversion D as [|? ? D1 D2]; subst. cbn. destruct (mem_truthy w y) eqn:E.
      - apply mem_truthy_filled in E. assert (y = m) by (apply H2; [left; reflexivity|exact E]). subst y. rewrite Z; [reflexivity|exact D1|intros; apply H2; [right|]; assumption].
      - destruct H1 as [->|H1]; [apply mem_truthy_filled in F; congruence|]. apply IH; [exact D2|exact H1|intros; apply H2; [right|]; assumption]. }
    apply A; [exact ND|apply in_map_iff; exists (name, m); auto|]. intros m' I' F'. apply in_map_iff in I'. destruct I' as ([n' m''] & <- & I'). exact (U n' m'' I' F'). }
  rewrite X. cbn [List.length Nat.eqb]. apply give_needy_fails; assumption.
Qed.
Theorem several_kept w a : 2 <= List.length (adecmems a) -> (forall p, In p (abuffers a) -> ~ needy w (snd p)) -> assign_memories w a = (w, Ok tt).
Proof.
  intros L N. unfold assign_memories. destruct (Nat.eqb_spec (List.length (adecmems a)) 1); [lia|].
  destruct (Nat.eqb _ 1); [|reflexivity]. apply give_needy_none. exact N.
Qed.

Lemma used_memories_spec names w m : (forall p, In p names -> buf_dm w (snd p) = Some m) -> NoDup (dkeys names) ->
  forall name, dget (used_memories w names) name = match dget names name with Some _ => Some m | None => None end.
Proof.
  intros H N name. unfold used_memories.
  enough (G : forall acc, dget (fold_left (fun acc p => match buf_dm w (snd p) with Some m => dset acc (fst p) m | None => acc end) names acc) name =
    match dget names name with Some _ => Some m | None => dget acc name end) by apply (G []).
  induction names as [|[x i] names IH]; intros acc; [reflexivity|]. cbn [fold_left fst snd]. inversion N as [|? ? N1 N2]; subst.
  rewrite IH by (trivial; intros p I; apply H; right; exact I). rewrite (H (x, i) (or_introl eq_refl) : buf_dm w i = Some m). cbn [dget]. rewrite dget_dset.
  destruct (String.eqb_spec x name) as [->|Ne]; [|reflexivity]. apply dget_None in N1. rewrite N1. reflexivity.
Qed.

(** The simulation can be prepared, and every buffer of the model uses the only memory in it. *)
Theorem one_memory_simulation w a name m env : adecmems a = [(name, m)] -> abuffers a <> [] ->
  Forall (fun p => snd p < List.length (bufs w)) (abuffers a) -> NoDup (dkeys (abuffers a)) ->
  exists w' a' bs dms, prepare_simulation w a env = (w', Ok (a', bs, dms)) /\
    (forall x, In x (dkeys (abuffers a)) -> dget dms x = Some m) /\
    forall i b, nth_error (bufs w) i = Some b -> In i (map snd (abuffers a)) -> nth_error (bufs w') i = Some (set_dm b (Some m)).
Proof.
  intros E Ne F N. destruct (one_memory w a name m E F) as (w1 & A & _ & _ & L & B). unfold prepare_simulation. rewrite A. cbn zeta.
  assert (D : forall x, dget (used_memories w1 (abuffers a)) x = match dget (abuffers a) x with Some _ => Some m | None => None end).
  { apply used_memories_spec; [|exact N]. intros [x i] I. rewrite Forall_forall in F. specialize (F _ I). cbn in F |- *.
    destruct (nth_error (bufs w) i) as [b|] eqn:H; [|apply nth_error_None in H; lia]. unfold buf_dm. destruct (B i b H) as [B1 _]. rewrite B1; [reflexivity|]. apply in_map_iff. exists (x, i). auto. }
  assert (D' : forall x, In x (dkeys (abuffers a)) -> dget (used_memories w1 (abuffers a)) x = Some m).
  { intros x I. rewrite D. destruct (dget (abuffers a) x) eqn:G; [reflexivity|]. apply dget_None in G. elim (G I). }
  assert (G : forall l i b, nth_error (bufs w) i = Some b -> In i (map snd (abuffers a)) -> nth_error (bufs w1 ++ l) i = Some (set_dm b (Some m))).
  { intros l i b Hb I. rewrite nth_error_app1; [exact (proj1 (B i b Hb) I)|]. rewrite L. apply nth_error_Some. congruence. }
  destruct env; cbn [negb].
  - destruct (avis a) as [|v vs].
    + destruct (used_memories w1 (abuffers a)) as [|[x m'] dms] eqn:U.
      * exfalso. destruct (abuffers a) as [|[x i] l]; [congruence|]. specialize (D' x (or_introl eq_refl)). discriminate.
      * eexists _, _, _, _. split; [reflexivity|]. split; [exact D'|]. intros i b Hb I. cbn [bufs]. rewrite <- app_assoc. apply G; assumption.
    + eexists _, _, _, _. split; [reflexivity|]. split; [exact D'|]. intros i b Hb I. cbn [bufs]. apply G; assumption.
  - eexists _, _, _, _. split; [reflexivity|]. split; [exact D'|]. intros i b Hb I. cbn [bufs]. apply G; assumption.
Qed.
Theorem one_filled_simulation w a name m env : 2 <= List.length (adecmems a) -> NoDup (map snd (adecmems a)) ->
  In (name, m) (adecmems a) -> filled w m -> (forall name' m', In (name', m') (adecmems a) -> filled w m' -> m' = m) ->
  (exists p, In p (abuffers a) /\ needy w (snd p)) -> prepare_simulation w a env = (w, Err EValue).
Proof. intros. unfold prepare_simulation. erewrite one_filled_fails; eauto. Qed.
Theorem several_simulation w a env : 2 <= List.length (adecmems a) -> abuffers a <> [] -> NoDup (dkeys (abuffers a)) -> (forall p, In p (abuffers a) -> ~ needy w (snd p)) ->
  exists w' a' bs dms, prepare_simulation w a env = (w', Ok (a', bs, dms)) /\
    forall i b, nth_error (bufs w) i = Some b -> nth_error (bufs w') i = Some b.
Proof.
  intros L Ne N H. unfold prepare_simulation. rewrite several_kept by assumption. cbn zeta.
  assert (G : forall l i b, nth_error (bufs w) i = Some b -> nth_error (bufs w ++ l) i = Some b).
  { intros l i b Hb. rewrite nth_error_app1; [exact Hb|]. apply nth_error_Some. congruence. }
  destruct env; cbn [negb].
  - destruct (avis a) as [|v vs].
    + destruct (used_memories w (abuffers a)) as [|[x m'] dms] eqn:U.
      * exfalso. assert (Z : forall names acc, acc <> [] -> fold_left (fun acc p => match buf_dm w (snd p) with Some m => dset acc (fst p) m | None => acc end) names acc <> @nil (string * nat)).
        { induction names as [|p names IH]; intros acc Ha; [exact Ha|]. cbn. apply IH. destruct (buf_dm w (snd p)); [|exact Ha]. destruct acc as [|[k v] acc]; [congruence|]. cbn. destruct (String.eqb k (fst p)); discriminate. }
        destruct (abuffers a) as [|[x i] l] eqn:E; [congruence|]. specialize (H (x, i) (or_introl eq_refl)).
        unfold used_memories in U. cbn [fold_left] in U. revert U. cbn [snd fst]. destruct (buf_dm w i) eqn:B.
        -- apply Z. discriminate.
        -- intros _. apply H. apply needy_iff. unfold has_filled. cbn [snd]. rewrite B. reflexivity.
      * eexists _, _, _, _. split; [reflexivity|]. intros i b Hb. cbn [bufs]. rewrite <- app_assoc. apply G; assumption.
    + eexists _, _, _, _. split; [reflexivity|]. intros i b Hb. apply G; assumption.
  - eexists _, _, _, _. split; [reflexivity|]. intros i b Hb. apply G; assumption.
Qed.
