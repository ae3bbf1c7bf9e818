(** Proofs about chunk types and the creation of chunks (C35, C36). *)
From Verif Require Import BaseFacts Chunks ChunkSpec ChunkFacts.
From Coq Require Import Permutation.
Local Open Scope string_scope.

(** Every type in the registry has strictly increasing, hence duplicate-free, slot names. *)
Definition registry_ok (r : registry) : Prop :=
  forall ty ct, dget r ty = Some ct -> increasing (ctfields ct).

Lemma nodupb_NoDup l : nodupb l = true -> NoDup l.
Proof.
  induction l as [|a l IH]; simpl; intros H; [constructor|]. apply andb_true_iff in H. destruct H as [H1 H2].
  constructor; [|apply IH; exact H2]. apply negb_true_iff in H1. apply smem_not_In in H1. exact H1.
Qed.

Lemma NoDup_nodupb l : NoDup l -> nodupb l = true.
Proof.
  induction 1 as [|a l H1 H2 IH]; [reflexivity|]. simpl. apply andb_true_iff. split; [|exact IH].
  apply negb_true_iff. apply smem_not_In. exact H1.
Qed.

Lemma isort_In n l : In n (isort slot_leb l) <-> In n l.
Proof.
  split; apply Permutation_in; [|apply Permutation_sym]; apply isort_perm.
Qed.

Definition sorted_fields (l : list string) : Prop := sortedb slot_leb l.

Lemma inherit_spec r include : forall fields fields',
  sorted_fields fields -> inherit r fields include = Ok fields' ->
  sorted_fields fields' /\
  (forall p, In p include -> exists ct, dget r p = Some ct) /\
  (forall n, In n fields' <-> In n fields \/ exists p ct, In p include /\ dget r p = Some ct /\ In n (ctfields ct)).
Proof.
  induction include as [|p ps IH]; intros fields fields' Hs H; simpl in H.
  - injection H as <-. split; [exact Hs|]. split; [intros p []|]. intros n. split; [auto|].
    intros [H|(p & ct & [] & _)]. exact H.
  - destruct (dget r p) as [ct|] eqn:E; [|discriminate].
    apply IH in H; [|apply isort_sorted; [exact slot_leb_total|exact slot_leb_trans]].
    destruct H as (H1 & H2 & H3). split; [exact H1|]. split.
    + intros q [<-|Hq]; [eauto|]. apply H2. exact Hq.
    + intros n. rewrite H3. rewrite isort_In, sdedup_In, in_app_iff. split.
      * intros [[H|H]|(q & ct' & Hq & Ec & Hn)]; [auto| |]; right; [exists p, ct; simpl; auto|exists q, ct'; simpl; auto].
      * intros [H|(q & ct' & [<-|Hq] & Ec & Hn)]; [auto| |].
        -- left. right. rewrite E in Ec. injection Ec as <-. exact Hn.
        -- right. exists q, ct'. auto.
Qed.

Lemma chunktype_inv r cls a defaults include r' :
  chunktype r cls a defaults include = Ok r' ->
  is_special_redef cls a = false /\
  exists ct, r' = dset r cls ct /\ increasing (ctfields ct) /\
    (forall p, In p include -> exists pt, dget r p = Some pt) /\
    (forall n, In n (ctfields ct) <->
       In n (fields_of_arg a) \/ exists p pt, In p include /\ dget r p = Some pt /\ In n (ctfields pt)).
Proof.
  unfold chunktype. destruct (is_special_redef cls a); [discriminate|].
  destruct (isa_check _); [discriminate|].
  destruct (inherit r (isort slot_leb (fields_of_arg a)) include) as [fs|] eqn:E; [|discriminate].
  simpl. unfold namedtuple. destruct (nodupb fs && forallb valid_field fs) eqn:En; [|discriminate].
  simpl. intros H. injection H as <-. split; [reflexivity|].
  apply inherit_spec in E; [|apply isort_sorted; [exact slot_leb_total|exact slot_leb_trans]].
  destruct E as (E1 & E2 & E3). apply andb_true_iff in En. destruct En as [En _].
  eexists. split; [reflexivity|]. simpl. split.
  - apply sorted_NoDup_increasing; [exact E1|apply nodupb_NoDup; exact En].
  - split; [exact E2|]. intros n. rewrite E3, isort_In. reflexivity.
Qed.

Lemma dset_ok r cls ct : registry_ok r -> increasing (ctfields ct) -> registry_ok (dset r cls ct).
Proof.
  intros Hr Hc ty ct' H. rewrite dget_dset in H. destruct (String.eqb cls ty); [injection H as <-; exact Hc|].
  apply (Hr ty). exact H.
Qed.

Theorem chunktype_spec r cls a defaults include r' :
  chunktype r cls a defaults include = Ok r' ->
  exists ct, dget r' cls = Some ct /\ increasing (ctfields ct) /\
    (forall n, In n (ctfields ct) <->
       In n (fields_of_arg a) \/
       exists p pt, In p include /\ dget r p = Some pt /\ In n (ctfields pt)) /\
    (forall p, In p include -> exists pt, dget r p = Some pt) /\
    (forall t, t <> cls -> dget r' t = dget r t).
Proof.
  intros H. apply chunktype_inv in H. destruct H as (_ & ct & -> & H1 & H2 & H3).
  exists ct. split; [apply dget_dset_eq|]. split; [exact H1|]. split; [exact H3|]. split; [exact H2|].
  intros t Ht. apply dget_dset_neq. congruence.
Qed.

Lemma chunktype_ok r cls a defaults include r' :
  registry_ok r -> chunktype r cls a defaults include = Ok r' -> registry_ok r'.
Proof.
  intros Hr H. apply chunktype_inv in H. destruct H as (_ & ct & -> & H1 & _). apply dset_ok; assumption.
Qed.

(** ** Creation of chunks *)

Lemma convert_all_keys args kw : convert_all args = Ok kw -> dkeys kw = dkeys args.
Proof.
  revert kw. induction args as [|[n x] args IH]; intros kw H; simpl in H; [injection H as <-; reflexivity|].
  destruct (convert x) as [w|]; [|discriminate]. simpl in H. destruct (convert_all args) as [rest|] eqn:E; [|discriminate].
  simpl in H. injection H as <-. simpl. f_equal. apply IH. reflexivity.
Qed.

Lemma convert_all_spec args kw : convert_all args = Ok kw ->
  forall n, match dget args n with
            | Some x => exists w, convert x = Ok w /\ dget kw n = Some (Some w)
            | None => dget kw n = None
            end.
Proof.
  revert kw. induction args as [|[m x] args IH]; intros kw H n; simpl in H; [injection H as <-; reflexivity|].
  destruct (convert x) as [w|] eqn:Ex; [|discriminate]. simpl in H. destruct (convert_all args) as [rest|] eqn:E; [|discriminate].
  simpl in H. injection H as <-. simpl. destruct (String.eqb m n); [eauto|]. apply IH. reflexivity.
Qed.

Lemma fill_keys fields kw n : In n (dkeys (fill_empty fields kw)) <-> In n (dkeys kw) \/ In n fields.
Proof.
  unfold fill_empty, dkeys. rewrite map_app, in_app_iff, map_map. simpl. rewrite map_id, filter_In.
  split; [tauto|]. intros [H|H]; [auto|]. destruct (smem n (map fst kw)) eqn:E; [left; apply smem_In; exact E|auto].
Qed.

Lemma dget_app {A} (a b : dict A) n :
  dget (app a b) n = match dget a n with Some s => Some s | None => dget b n end.
Proof. induction a as [|[m s] a IH]; simpl; [reflexivity|]. destruct (String.eqb m n); [reflexivity|exact IH]. Qed.

Lemma dget_const {A} (x : A) (l : list string) n :
  dget (map (fun f => (f, x)) l) n = if smem n l then Some x else None.
Proof.
  induction l as [|f l IH]; [reflexivity|]. simpl. destruct (String.eqb_spec f n) as [->|Hn].
  - rewrite String.eqb_refl. reflexivity.
  - rewrite IH. destruct (String.eqb_spec n f); [congruence|reflexivity].
Qed.

Lemma fill_get fields kw n :
  dget (fill_empty fields kw) n =
  match dget kw n with Some s => Some s | None => if smem n fields then Some None else None end.
Proof.
  unfold fill_empty. rewrite dget_app. destruct (dget kw n) as [s|] eqn:E; [reflexivity|].
  rewrite dget_const. replace (smem n (filter (fun f => negb (smem f (dkeys kw))) fields)) with (smem n fields); [reflexivity|].
  apply dget_None in E. apply smem_not_In in E. destruct (smem n fields) eqn:E1; symmetry.
  - apply smem_In. apply filter_In. split; [apply smem_In; exact E1|]. rewrite E. reflexivity.
  - apply smem_not_In. rewrite filter_In. apply smem_not_In in E1. tauto.
Qed.

Lemma nt_fill_spec ct fields : forall i kw slots,
  nt_fill ct i fields kw = Ok slots -> (forall f, In f fields -> In f (dkeys kw)) ->
  dkeys slots = fields /\
  (forall n, dget slots n = if smem n fields then dget kw n else None).
Proof.
  induction fields as [|f fields IH]; intros i kw slots H Hk; simpl in H; [injection H as <-; auto|].
  destruct (dget kw f) as [s|] eqn:E.
  - simpl in H. destruct (nt_fill ct (S i) fields kw) as [rest|] eqn:Er; [|discriminate]. simpl in H. injection H as <-.
    apply IH in Er; [|intros g Hg; apply Hk; simpl; auto]. destruct Er as [E1 E2]. simpl. split; [f_equal; exact E1|].
    intros n. destruct (String.eqb_spec f n) as [->|Hn].
    + rewrite String.eqb_refl. simpl. congruence.
    + rewrite E2. destruct (String.eqb_spec n f); [congruence|]. reflexivity.
  - exfalso. apply dget_None in E. apply E. apply Hk. simpl. auto.
Qed.

Lemma subset_spec l m : subset l m = true <-> forall x, In x l -> In x m.
Proof.
  unfold subset. rewrite forallb_forall. split; intros H x Hx; [apply smem_In; auto|apply smem_In; auto].
Qed.

(** The slots of a new chunk are those of its type, which has the given slots and those that
    it had before; given slots hold what was given, all others are empty. *)
Theorem mk_chunk_spec r ty args r' c :
  mk_chunk r ty args = Ok (r', c) ->
  ctype c = ty /\
  (forall n x, dget args n = Some x -> exists w, convert x = Ok w /\ dget (cslots c) n = Some (Some w)) /\
  (forall n, dget args n = None -> In n (dkeys (cslots c)) -> dget (cslots c) n = Some None) /\
  (forall n, In n (dkeys (cslots c)) <->
     In n (dkeys args) \/ exists ct, dget r ty = Some ct /\ In n (ctfields ct)) /\
  (exists ct', dget r' ty = Some ct' /\ ctfields ct' = dkeys (cslots c)) /\
  (forall t, t <> ty -> dget r' t = dget r t).
Proof.
  unfold mk_chunk. destruct (convert_all args) as [kw|] eqn:Ec; [|discriminate]. simpl rbind. cbv beta.
  pose proof (convert_all_keys _ _ Ec) as Ek. pose proof (convert_all_spec _ _ Ec) as Es.
  (* common end: a type whose fields are exactly the keywords *)
  assert (Fin : forall kw' r1 ct slots,
    dget r1 ty = Some ct -> nt_call ct kw' = Ok slots ->
    (forall n, In n (ctfields ct) <-> In n (dkeys kw')) ->
    (forall n, dget kw' n = match dget kw n with Some s => Some s | None => if smem n (dkeys kw') then Some None else None end) ->
    (forall n, In n (dkeys kw') <-> In n (dkeys args) \/ exists ct, dget r ty = Some ct /\ In n (ctfields ct)) ->
    (forall t, t <> ty -> dget r1 t = dget r t) ->
    let c := MkChunk ty slots in
    ctype c = ty /\
    (forall n x, dget args n = Some x -> exists w, convert x = Ok w /\ dget (cslots c) n = Some (Some w)) /\
    (forall n, dget args n = None -> In n (dkeys (cslots c)) -> dget (cslots c) n = Some None) /\
    (forall n, In n (dkeys (cslots c)) <->
       In n (dkeys args) \/ exists ct, dget r ty = Some ct /\ In n (ctfields ct)) /\
    (exists ct', dget r1 ty = Some ct' /\ ctfields ct' = dkeys (cslots c)) /\
    (forall t, t <> ty -> dget r1 t = dget r t)).
  { intros kw' r1 ct slots Hct Hnt Hf Hg Hk Ho. unfold nt_call in Hnt.
    destruct (subset (dkeys kw') (ctfields ct)) eqn:Esub; [|discriminate].
    apply nt_fill_spec in Hnt; [|intros f Hf'; apply Hf; exact Hf']. destruct Hnt as [N1 N2].
    simpl. split; [reflexivity|]. split; [|split; [|split; [|split]]].
    - intros n x Hx. pose proof (Es n) as Esn. rewrite Hx in Esn. destruct Esn as (w & Hw & Hkw). exists w. split; [exact Hw|].
      rewrite N2, Hg, Hkw. replace (smem n (ctfields ct)) with true; [reflexivity|].
      symmetry. apply smem_In. apply Hf. apply Hk. left. apply dget_Some_key in Hx. exact Hx.
    - intros n Hx Hn. pose proof (Es n) as Esn. rewrite Hx in Esn. rewrite N1 in Hn.
      rewrite N2, Hg, Esn. replace (smem n (ctfields ct)) with true by (symmetry; apply smem_In; exact Hn).
      replace (smem n (dkeys kw')) with true by (symmetry; apply smem_In; apply Hf; exact Hn). reflexivity.
    - intros n. rewrite N1, Hf. apply Hk.
    - exists ct. auto.
    - exact Ho. }
  destruct (dget r ty) as [ct|] eqn:Er.
  - set (kw' := fill_empty (ctfields ct) kw).
    assert (Hg : forall n, dget kw' n = match dget kw n with Some s => Some s | None => if smem n (dkeys kw') then Some None else None end).
    { intros n. unfold kw'. rewrite fill_get. destruct (dget kw n) eqn:E; [reflexivity|].
      destruct (smem n (ctfields ct)) eqn:E1.
      - replace (smem n (dkeys (fill_empty (ctfields ct) kw))) with true; [reflexivity|]. symmetry. apply smem_In, fill_keys.
        right. apply smem_In. exact E1.
      - replace (smem n (dkeys (fill_empty (ctfields ct) kw))) with false; [reflexivity|]. symmetry. apply smem_not_In.
        rewrite fill_keys. apply smem_not_In in E1. apply dget_None in E. tauto. }
    assert (Hk : forall n, In n (dkeys kw') <-> In n (dkeys args) \/ exists ct0, Some ct = Some ct0 /\ In n (ctfields ct0)).
    { intros n. unfold kw'. rewrite fill_keys, Ek. split; intros [H|H]; auto.
      - right. exists ct. auto.
      - destruct H as (ct0 & E & H). injection E as <-. auto. }
    destruct (subset (dkeys kw') (ctfields ct)) eqn:Esub.
    + rewrite Er. destruct (nt_call ct kw') as [slots|] eqn:En; [|discriminate]. simpl. intros H. injection H as <- <-.
      apply (Fin kw' r ct slots); auto.
      rewrite subset_spec in Esub. intros n. split; [|apply Esub]. intros H. apply Hk. right. exists ct. auto.
    + destruct (chunktype r ty (FSeq (dkeys kw')) [] []) as [r1|e] eqn:Ect.
      * apply chunktype_spec in Ect. destruct Ect as (ct1 & E1 & E2 & E3 & _ & E4). rewrite E1.
        destruct (nt_call ct1 kw') as [slots|] eqn:En; [|discriminate]. simpl. intros H. injection H as <- <-.
        apply (Fin kw' r1 ct1 slots); auto. intros n. rewrite E3. simpl. split; [|auto].
        intros [H|(p & pt & [] & _)]. exact H.
      * rewrite Er. unfold nt_call. rewrite Esub. discriminate.
  - destruct (chunktype r ty (FSeq (dkeys kw)) [] []) as [r1|e] eqn:Ect.
    + apply chunktype_spec in Ect. destruct Ect as (ct1 & E1 & E2 & E3 & _ & E4). rewrite E1.
      destruct (nt_call ct1 kw) as [slots|] eqn:En; [|discriminate]. simpl. intros H. injection H as <- <-.
      apply (Fin kw r1 ct1 slots); auto.
      * intros n. rewrite E3. simpl. split; [|auto]. intros [H|(p & pt & [] & _)]. exact H.
      * intros n. destruct (dget kw n) eqn:E; [reflexivity|]. apply dget_None in E. apply smem_not_In in E. rewrite E. reflexivity.
      * intros n. rewrite Ek. split; [auto|]. intros [H|(ct0 & E & _)]; [exact H|discriminate].
    + rewrite Er. discriminate.
Qed.

Definition wf_raw (x : rawval) : Prop :=
  match x with
  | RChunk c => wf_chunk c
  | RVV w => wf_value (vvals w) /\ (forall v, In v (vnegvals w) -> wf_value v)
  | REmpty | RStr _ => True
  end.

Lemma stringsplitting_wf s w : stringsplitting s = Ok w ->
  wf_value (vvals w) /\ (forall v, In v (vnegvals w) -> wf_value v).
Proof.
  unfold stringsplitting.
  set (vals := match findall_set "=" false s with [] => _ | _ => _ end).
  destruct vals as [|x [|y l]]; destruct (findall_set "=" false s) as [|x' [|y' l']]; intros H; try discriminate;
    injection H as <-; simpl; (split; [constructor|]);
    intros v Hv; apply in_map_iff in Hv; destruct Hv as (z & <- & _); constructor.
Qed.

Lemma convert_wf x w : wf_raw x -> convert x = Ok w ->
  wf_value (vvals w) /\ (forall v, In v (vnegvals w) -> wf_value v).
Proof.
  destruct x as [c|u| |s]; simpl; intros H E.
  - injection E as <-. simpl. split; [constructor; exact H|intros v []].
  - injection E as <-. exact H.
  - apply stringsplitting_wf in E. exact E.
  - apply stringsplitting_wf in E. exact E.
Qed.

Lemma mk_chunk_registry_ok r ty args r' c :
  registry_ok r -> mk_chunk r ty args = Ok (r', c) -> registry_ok r'.
Proof.
  intros Hr. unfold mk_chunk. destruct (convert_all args) as [kw|]; [|discriminate]. simpl.
  destruct (dget r ty) as [ct|].
  - destruct (subset _ _).
    + destruct (dget r ty); [|discriminate]. destruct (nt_call _ _); [|discriminate]. simpl. intros H. injection H as <- _. exact Hr.
    + destruct (chunktype _ _ _ _ _) as [r1|] eqn:E.
      * apply chunktype_ok in E; [|exact Hr]. destruct (dget r1 ty); [|discriminate]. destruct (nt_call _ _); [|discriminate].
        simpl. intros H. injection H as <- _. exact E.
      * destruct (dget r ty); [|discriminate]. destruct (nt_call _ _); [|discriminate]. simpl. intros H. injection H as <- _. exact Hr.
  - destruct (chunktype _ _ _ _ _) as [r1|] eqn:E.
    + apply chunktype_ok in E; [|exact Hr]. destruct (dget r1 ty); [|discriminate]. destruct (nt_call _ _); [|discriminate].
      simpl. intros H. injection H as <- _. exact E.
    + destruct (dget r ty); [|discriminate]. destruct (nt_call _ _); [|discriminate]. simpl. intros H. injection H as <- _. exact Hr.
Qed.

(** Created chunks are well-formed: this is where the hypothesis [wf_chunk] comes from. *)
Theorem mk_chunk_wf r ty args r' c :
  registry_ok r -> (forall n x, In (n, x) args -> wf_raw x) ->
  mk_chunk r ty args = Ok (r', c) -> wf_chunk c /\ registry_ok r'.
Proof.
  intros Hr Ha H. pose proof (mk_chunk_registry_ok _ _ _ _ _ Hr H) as Hr'. split; [|exact Hr'].
  apply mk_chunk_spec in H. destruct H as (_ & H1 & H2 & _ & (ct & Hct & Hf) & _).
  assert (Hi : increasing (dkeys (cslots c))) by (rewrite <- Hf; apply (Hr' ty); exact Hct).
  constructor; [exact Hi|]. intros n w Hin.
  assert (Hd : dget (cslots c) n = Some (Some w)) by (apply dget_NoDup; [apply increasing_NoDup; exact Hi|exact Hin]).
  destruct (dget args n) as [x|] eqn:E.
  - destruct (H1 n x E) as (w' & Hw & Hd'). rewrite Hd' in Hd. injection Hd as ->.
    apply (convert_wf x); [|exact Hw]. apply (Ha n). apply dget_In. exact E.
  - rewrite (H2 n E) in Hd; [discriminate|]. apply dget_Some_key in Hd. exact Hd.
Qed.

(** ** Histories of definitions *)

Inductive type_op :=
| TDef (cls : string) (a : field_arg) (defaults : list slotval) (include : list string)
| TMake (ty : string) (args : list (string * rawval)).

(** The registry after an operation (an operation that raises leaves it as it was). *)
Definition type_step (r : registry) (o : type_op) : registry :=
  match o with
  | TDef cls a defaults include =>
      match chunktype r cls a defaults include with Ok r' => r' | Err _ => r end
  | TMake ty args => match mk_chunk r ty args with Ok (r', _) => r' | Err _ => r end
  end.

Definition type_run (ops : list type_op) : registry := fold_left type_step ops init_registry.

Lemma type_step_ok r o : registry_ok r -> registry_ok (type_step r o).
Proof.
  intros Hr. destruct o as [cls a ds inc|ty args]; simpl.
  - destruct (chunktype r cls a ds inc) eqn:E; [apply (chunktype_ok _ _ _ _ _ _ Hr E)|exact Hr].
  - destruct (mk_chunk r ty args) as [[r' c]|] eqn:E; [apply (mk_chunk_registry_ok _ _ _ _ _ Hr E)|exact Hr].
Qed.

Lemma init_ok : registry_ok init_registry.
Proof.
  unfold init_registry.
  assert (G : forall l r, registry_ok r -> registry_ok (fold_left (fun r p => match chunktype r (fst p) (FString (snd p)) [] [] with
                        | Ok r' => r' | Err _ => r end) l r)).
  { induction l as [|p l IH]; intros r Hr; [exact Hr|]. simpl. apply IH.
    destruct (chunktype r (fst p) (FString (snd p)) [] []) eqn:E; [apply (chunktype_ok _ _ _ _ _ _ Hr E)|exact Hr]. }
  apply G. intros ty ct H. discriminate.
Qed.

Theorem type_run_ok ops : registry_ok (type_run ops).
Proof.
  unfold type_run. generalize init_ok. generalize init_registry.
  induction ops as [|o ops IH]; intros r Hr; [exact Hr|]. simpl. apply IH. apply type_step_ok. exact Hr.
Qed.

(** A type never loses slots by creating chunks; only chunktype redefines it. *)
Theorem mk_chunk_keeps_slots r ty args r' c t ct :
  mk_chunk r ty args = Ok (r', c) -> dget r t = Some ct ->
  exists ct', dget r' t = Some ct' /\ incl (ctfields ct) (ctfields ct').
Proof.
  intros H Ht. apply mk_chunk_spec in H. destruct H as (_ & _ & _ & H4 & (ct' & Hct & Hf) & H6).
  destruct (String.eqb_spec t ty) as [->|Hn].
  - exists ct'. split; [exact Hct|]. intros n Hn. rewrite Hf. apply H4. right. exists ct. auto.
  - exists ct. rewrite (H6 t Hn). split; [exact Ht|apply incl_refl].
Qed.

(** ** The special types *)

Definition special_fields (ty : string) : option (list string) :=
  match dget special_types ty with Some s => Some (isort slot_leb (split_fields "" s)) | None => None end.

Definition specials_kept (r : registry) : Prop :=
  forall ty fs, special_fields ty = Some fs -> exists ct, dget r ty = Some ct /\ ctfields ct = fs.

(** No operation of the history gives [include] for a special type. *)
Definition no_special_include (o : type_op) : Prop :=
  match o with
  | TDef cls _ _ include => special_fields cls <> None -> include = []
  | TMake _ _ => True
  end.

Lemma chunktype_special r cls a ds inc r' fs :
  special_fields cls = Some fs -> inc = [] -> chunktype r cls a ds inc = Ok r' ->
  exists ct, dget r' cls = Some ct /\ ctfields ct = fs.
Proof.
  unfold special_fields. intros Hs -> H. unfold chunktype in H.
  destruct (dget special_types cls) as [s|] eqn:Es; [|discriminate]. injection Hs as <-.
  assert (Ea : is_special_redef cls a = false -> a = FString s).
  { unfold is_special_redef. rewrite Es. destruct a as [t|l]; [|discriminate]. intros E. apply negb_false_iff in E.
    apply String.eqb_eq in E. congruence. }
  destruct (is_special_redef cls a); [discriminate|]. rewrite (Ea eq_refl) in H. simpl fields_of_arg in H.
  destruct (isa_check _); [discriminate|]. simpl in H. unfold namedtuple in H.
  destruct (_ && _); [|discriminate]. simpl in H. injection H as <-. eexists. split; [apply dget_dset_eq|reflexivity].
Qed.

Lemma special_step r o : specials_kept r -> no_special_include o -> specials_kept (type_step r o).
Proof.
  intros Hr Ho ty fs Hs. destruct o as [cls a ds inc|cls args]; simpl.
  - destruct (chunktype r cls a ds inc) as [r'|] eqn:E; [|apply Hr; exact Hs].
    destruct (String.eqb_spec cls ty) as [->|Hn].
    + apply (chunktype_special _ _ _ _ _ _ _ Hs) in E; [exact E|]. apply Ho. congruence.
    + apply chunktype_spec in E. destruct E as (_ & _ & _ & _ & _ & E). rewrite E by congruence. apply Hr. exact Hs.
  - destruct (mk_chunk r cls args) as [[r' c]|] eqn:E; [|apply Hr; exact Hs].
    destruct (String.eqb_spec cls ty) as [->|Hn].
    + unfold mk_chunk in E. destruct (convert_all args) as [kw|]; [|discriminate]. simpl in E.
      destruct (Hr ty fs Hs) as (ct & Hct & Hf). rewrite Hct in E.
      destruct (subset (dkeys (fill_empty (ctfields ct) kw)) (ctfields ct)) eqn:Esub.
      * rewrite Hct in E. destruct (nt_call _ _); [|discriminate]. simpl in E. injection E as <- _. eauto.
      * assert (Esp : chunktype r ty (FSeq (dkeys (fill_empty (ctfields ct) kw))) [] [] = Err EActr).
        { unfold chunktype, is_special_redef. unfold special_fields in Hs. destruct (dget special_types ty); [reflexivity|discriminate]. }
        rewrite Esp, Hct in E. destruct (nt_call _ _); [|discriminate]. simpl in E. injection E as <- _. eauto.
    + apply mk_chunk_spec in E. destruct E as (_ & _ & _ & _ & _ & E). rewrite E by congruence. apply Hr. exact Hs.
Qed.

Lemma special_init : specials_kept init_registry.
Proof.
  intros ty fs H. unfold special_fields in H. destruct (dget special_types ty) as [s|] eqn:E; [|discriminate].
  injection H as <-. apply dget_In in E. destruct E as [E|[E|[E|[]]]]; injection E as <- <-; eexists; split; reflexivity.
Qed.

Theorem special_run ops : Forall no_special_include ops -> specials_kept (type_run ops).
Proof.
  unfold type_run. generalize special_init. generalize init_registry.
  induction ops as [|o ops IH]; intros r Hr Ho; [exact Hr|]. inversion Ho; subst. simpl. apply IH; [|assumption].
  apply special_step; assumption.
Qed.

(** chunktype('_manual', 'cmd, key', include='goal') does extend a special type. *)
Lemma special_include_extends : exists ops, ~ specials_kept (type_run ops).
Proof.
  exists [TDef "goal" (FString "state") [] []; TDef "_manual" (FString "cmd, key") [] ["goal"]].
  intros H. destruct (H "_manual" ["cmd"; "key"] eq_refl) as (ct & Hct & Hf). vm_compute in Hct. injection Hct as <-.
  discriminate.
Qed.

(** ** isa and defaults (C36) *)

Lemma isa_accepted : exists r', chunktype init_registry "goal" (FString "isa, ISA") [] [] = Ok r'.
Proof. eexists. vm_compute. reflexivity. Qed.

(** Chunks never see the defaults of their type: the result of creating a chunk is the same
    whatever defaults the types have. *)
Definition same_fields (r s : registry) : Prop :=
  forall ty, match dget r ty, dget s ty with
             | Some ct, Some ct' => ctfields ct = ctfields ct'
             | None, None => True
             | _, _ => False
             end.

Lemma defaults_unused r s ty args r' c s' d :
  registry_ok r -> same_fields r s ->
  mk_chunk r ty args = Ok (r', c) -> mk_chunk s ty args = Ok (s', d) ->
  forall n, dget (cslots c) n = dget (cslots d) n.
Proof.
  intros _ Hsame H1 H2 n. apply mk_chunk_spec in H1, H2.
  destruct H1 as (_ & A1 & A2 & A3 & _). destruct H2 as (_ & B1 & B2 & B3 & _).
  destruct (dget args n) as [x|] eqn:E.
  - destruct (A1 n x E) as (w & Hw & ->). destruct (B1 n x E) as (w' & Hw' & ->). congruence.
  - assert (Hiff : In n (dkeys (cslots c)) <-> In n (dkeys (cslots d))).
    { rewrite A3, B3. specialize (Hsame ty). destruct (dget r ty) as [ct|], (dget s ty) as [ct'|]; try contradiction.
      - split; intros [H|(ct0 & E0 & H)]; auto; right; injection E0 as <-; eexists; split; try reflexivity; congruence.
      - split; intros [H|(ct0 & E0 & H)]; auto; discriminate. }
    destruct (dget (cslots c) n) as [s1|] eqn:Ec.
    + pose proof (dget_Some_key _ _ Ec) as K. rewrite (A2 n E K) in Ec. injection Ec as <-.
      rewrite (B2 n E); [reflexivity|]. apply Hiff. exact K.
    + destruct (dget (cslots d) n) as [s2|] eqn:Ed; [|reflexivity]. exfalso. apply dget_None in Ec. apply Ec.
      apply Hiff. apply dget_Some_key in Ed. exact Ed.
Qed.

(** A concrete default that is ignored. *)
Lemma default_ignored : exists r r' c,
  chunktype init_registry "goal" (FString "state") [plain (VStr "start")] [] = Ok r /\
  mk_chunk r "goal" [] = Ok (r', c) /\ slot_value c "state" = VEmpty.
Proof. eexists. eexists. eexists. vm_compute. repeat split. Qed.
