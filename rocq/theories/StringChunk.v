(** chunkstring makes the chunk that its string says. *)
From Coq Require Import DecimalString.
From Verif Require Import Base BaseFacts Chunks ChunkFacts DecMem Buffers Productions TypeFacts ModifyFacts FanFacts Strings StringSpec StringRead StringMeaning.
From Verif Require VisionFacts.
Local Open Scope string_scope.
Arguments hval_eqb : simpl never.
Arguments hash_value : simpl nomatch.
Arguments val_eqb : simpl nomatch.

Definition raw_args (d : dict vv) : list (string * rawval) := map (fun p => (fst p, RVV (snd p))) d.

Lemma raw_args_keys d : dkeys (raw_args d) = dkeys d.
Proof. unfold raw_args, dkeys. rewrite map_map. reflexivity. Qed.
Lemma raw_args_get d n : dget (raw_args d) n = match dget d n with Some w => Some (RVV w) | None => None end.
Proof.
  unfold raw_args. induction d as [|[m w] d IH]; [reflexivity|]. cbn [map dget fst snd]. destruct (String.eqb m n); [reflexivity|exact IH].
Qed.

Definition fresh_type (st : names_state) : string := "undefined" ++ digits_str (nscount st).
Definition stored_name (name : string) : string := if String.eqb name "" then "unnamedchunk" else name.

(** ** Soundness *)

Lemma listing_written ps s r : listing ps s r -> all_written ps.
Proof.
  induction 1 as [rest|n v ps g1 g2 t s rest H1 Hn H2 Hw Hb He Hl IH]; intros m x Hin; [destruct Hin|].
  destruct Hin as [Hin|Hin]; [injection Hin as <- <-; exists t; exact Hw|apply (IH m x Hin)].
Qed.

Theorem chunk_of_pairs_conflict st name ps :
  all_written ps -> conflict (nsnames st) ps -> chunk_of_pairs st name (parts_of ps) = Err EActr.
Proof.
  intros Hw Hc. unfold chunk_of_pairs, createchunkdict.
  destruct (dict_spec (nsnames st) ps Hw) as [[Hn _]|[_ E]]; [contradiction|]. rewrite E. reflexivity.
Qed.

Lemma makechunk_inv st name ty args st' c :
  makechunk st name ty args = Ok (st', c) ->
  exists s r', mk_chunk (nsreg st) s args = Ok (r', c) /\
    (truthy ty = true /\ ty = VStr s /\ nscount st' = nscount st \/
     truthy ty = false /\ s = fresh_type st /\ nscount st' = S (nscount st)) /\
    nsreg st' = r' /\ nsnames st' = dset (nsnames st) (stored_name name) c.
Proof.
  unfold makechunk. destruct (existsb _ (dkeys args)); [discriminate|].
  destruct (truthy ty) eqn:Et.
  - destruct ty as [| |s|d].
    + discriminate.
    + destruct (convert_all args); discriminate.
    + destruct (dmem (nsreg st) s || valid_type s); [|destruct (convert_all args); discriminate].
      destruct (mk_chunk (nsreg st) s args) as [[r' c']|] eqn:E; [|discriminate]. cbn [rbind]. intros H. injection H as <- <-.
      exists s, r'. split; [exact E|]. split; [left; auto|]. auto.
    + destruct (convert_all args); discriminate.
  - fold (fresh_type st). destruct (dmem (nsreg st) (fresh_type st) || valid_type (fresh_type st)); [|destruct (convert_all args); discriminate].
    destruct (mk_chunk (nsreg st) (fresh_type st) args) as [[r' c']|] eqn:E; [|discriminate]. cbn [rbind]. intros H. injection H as <- <-.
    exists (fresh_type st), r'. split; [exact E|]. split; [right; auto|]. auto.
Qed.

Theorem chunk_of_pairs_sound st name ps st' c :
  all_written ps -> chunk_of_pairs st name (parts_of ps) = Ok (st', c) ->
  ~ conflict (nsnames st) ps /\
  chunk_said (nsreg st) (nsnames st) (fresh_type st) ps c /\
  nsnames st' = dset (nsnames st) (stored_name name) c /\
  (forall t, t <> ctype c -> dget (nsreg st') t = dget (nsreg st) t) /\
  (exists ct, dget (nsreg st') (ctype c) = Some ct /\ ctfields ct = dkeys (cslots c)).
Proof.
  intros Hw H. unfold chunk_of_pairs, createchunkdict in H.
  destruct (dict_spec (nsnames st) ps Hw) as [(Hn & d & E & Hd & Hk & Hr)|[_ E]]; rewrite E in H; cbn [rbind] in H; [|discriminate].
  split; [exact Hn|]. destruct (pop_type d) as [ty d'] eqn:Ep.
  destruct (pop_type_spec (nsnames st) ps d ty d' Hk Hd Hr Ep) as (Hd' & Hk' & Hr' & Hty).
  fold (raw_args d') in H. apply makechunk_inv in H. destruct H as (s & r' & Hm & Hs & Er & En).
  apply mk_chunk_spec in Hm. destruct Hm as (Ec & A1 & A2 & A3 & A4 & A5). rewrite Er, En, Ec. split; [|auto].
  constructor.
  - rewrite Ec. destruct Hty as [[Hi ->]|(Hi & w & Hsr & ->)].
    + destruct Hs as [(Ht & _)|(_ & -> & _)]; [discriminate|]. apply type_none. exact Hi.
    + destruct Hs as [(Ht & Ev & _)|(Ht & -> & _)].
      * apply (type_value _ _ _ w); auto. rewrite Ev in Ht. intros ->. discriminate.
      * apply (type_empty _ _ _ w); auto.
  - intros n Hsn. apply Hk' in Hsn. destruct (dget d' n) as [w|] eqn:Ew.
    + destruct (A1 n (RVV w)) as (w' & Hc & Hg); [rewrite raw_args_get, Ew; reflexivity|]. injection Hc as <-.
      exists w. split; [exact Hg|]. apply Hr'. exact Ew.
    + apply dget_None in Ew. contradiction.
  - intros n Hsn. rewrite Ec. assert (Hnk : ~ In n (dkeys (raw_args d'))) by (rewrite raw_args_keys, Hk'; exact Hsn).
    assert (Hga : dget (raw_args d') n = None) by (apply dget_None; exact Hnk).
    destruct (dget (nsreg st) s) as [ct|] eqn:Ect.
    + destruct (smem n (ctfields ct)) eqn:Em.
      * apply smem_In in Em. apply (A2 n Hga). apply A3. right. exists ct. auto.
      * apply dget_None. rewrite A3. intros [H|(ct' & H & Hin)]; [contradiction|]. injection H as <-.
        apply smem_In in Hin. congruence.
    + apply dget_None. rewrite A3. intros [H|(ct' & H & Hin)]; [contradiction|discriminate].
Qed.

(** ** Success *)

Lemma valid_field_iff n : valid_field n = true <-> begins (one_of_chars letters) n /\ all wordish n.
Proof.
  destruct n as [|c n]; [split; [discriminate|intros [[] _]]|]. cbn [valid_field begins]. rewrite andb_true_iff, is_alpha_iff.
  assert (Hn : forall m, str_forallb is_word m = true <-> all wordish m).
  { intros m. induction m as [|x m IH]; [split; [intros; apply all_nil|reflexivity]|].
    change (is_word x && str_forallb is_word m = true <-> all wordish (String x m)).
    rewrite andb_true_iff, IH, all_cons. pose proof (slot_body_iff x) as Hx. unfold slot_body in Hx. rewrite Hx. reflexivity. }
  rewrite Hn, all_cons. split; [|tauto]. intros [H1 H2]. split; [exact H1|]. split; [|exact H2].
  unfold wordish. apply one_of_chars_app. left. exact H1.
Qed.

Lemma identifier_iff s : valid_type s = true <-> identifier s.
Proof.
  unfold identifier, slot_name. destruct s as [|c s]; [split; [discriminate|intros [[[] _] _]]|].
  cbn [valid_type begins]. rewrite !andb_true_iff, negb_true_iff, slot_init_iff.
  assert (Hn : forall m, str_forallb slot_body m = true <-> all wordish m).
  { intros m. induction m as [|x m IH]; [split; [intros; apply all_nil|reflexivity]|].
    change (slot_body x && str_forallb slot_body m = true <-> all wordish (String x m)).
    rewrite andb_true_iff, IH, all_cons, slot_body_iff. reflexivity. }
  rewrite Hn, all_cons. change keywords with python_words. rewrite <- not_true_iff_false, smem_In.
  split; [|tauto]. intros [[H1 H2] H3]. split; [|exact H3]. split; [exact H1|]. split; [|exact H2].
  apply slot_body_iff, slot_init_body, slot_init_iff. exact H1.
Qed.

Lemma convert_all_raw d : convert_all (raw_args d) = Ok (map (fun p => (fst p, Some (snd p))) d).
Proof.
  induction d as [|[n w] d IH]; [reflexivity|]. cbn [raw_args map fst snd convert_all convert rbind].
  fold (raw_args d). rewrite IH. reflexivity.
Qed.

Lemma isort_nodup_valid fields :
  NoDup fields -> (forall n, In n fields -> valid_field n = true) ->
  namedtuple (isort slot_leb fields) [] = Ok (MkCT (isort slot_leb fields) []).
Proof.
  intros Hn Hv. unfold namedtuple.
  assert (E : nodupb (isort slot_leb fields) && forallb valid_field (isort slot_leb fields) = true).
  { apply andb_true_iff. split.
    - apply NoDup_nodupb. apply (Permutation.Permutation_NoDup (Permutation.Permutation_sym (isort_perm slot_leb fields))). exact Hn.
    - apply forallb_forall. intros n H. apply Hv. rewrite isort_In in H. exact H. }
  rewrite E. reflexivity.
Qed.

Lemma nt_call_total ct kw :
  (forall n, In n (dkeys kw) <-> In n (ctfields ct)) -> exists slots, nt_call ct kw = Ok slots.
Proof.
  intros H. unfold nt_call. assert (E : subset (dkeys kw) (ctfields ct) = true) by (apply subset_spec; intros n; apply H).
  rewrite E. apply nt_fill_total. intros f. apply H.
Qed.

Lemma isa_check_never fields : isa_check fields = false.
Proof.
  unfold isa_check. apply not_true_iff_false. rewrite existsb_exists. intros (n & _ & H). apply orb_true_iff in H.
  assert (Hl : forall m, "_" = m -> True) by auto. clear Hl.
  assert (G : forall a b, n ++ "_" = String a (String b "a") \/ n ++ "_" = String a (String b "A") -> False).
  { intros a b G. destruct n as [|x [|y [|z n]]]; [destruct G; discriminate..|]. destruct G as [G|G]; destruct n; discriminate. }
  destruct H as [H|H]; apply String.eqb_eq in H; [apply (G "I"%char "S"%char)|apply (G "i"%char "s"%char)]; auto.
Qed.

Lemma mk_chunk_makes r ty d :
  proper_types r -> NoDup (dkeys d) -> (forall n, In n (dkeys d) -> valid_field n = true) ->
  (dget special_types ty = None \/ exists ct, dget r ty = Some ct /\ forall n, In n (dkeys d) -> In n (ctfields ct)) ->
  exists r' c, mk_chunk r ty (raw_args d) = Ok (r', c).
Proof.
  intros Hp Hd Hv Hs. unfold mk_chunk. rewrite convert_all_raw. cbn [rbind].
  set (kw := map (fun p => (fst p, Some (snd p))) d). assert (Ek : dkeys kw = dkeys d) by (unfold kw, dkeys; rewrite map_map; reflexivity).
  destruct (dget r ty) as [ct|] eqn:Et.
  - destruct (Hp ty ct Et) as [Hnd Hf]. set (kw' := fill_empty (ctfields ct) kw).
    assert (Hk' : forall n, In n (dkeys kw') <-> In n (dkeys d) \/ In n (ctfields ct)) by (intros n; unfold kw'; rewrite fill_keys, Ek; tauto).
    destruct (subset (dkeys kw') (ctfields ct)) eqn:Es.
    + rewrite Et. rewrite subset_spec in Es. destruct (nt_call_total ct kw') as (slots & E).
      { intros n. split; [apply Es|]. intros H. apply Hk'. auto. }
      rewrite E. cbn [rbind]. eauto.
    + destruct Hs as [Hs|(ct' & Ec & Hin)].
      * unfold chunktype, is_special_redef. rewrite Hs. cbn [fields_of_arg]. rewrite isa_check_never. cbn [inherit rbind].
        assert (HN : NoDup (dkeys kw')).
        { unfold kw', fill_empty, dkeys. rewrite map_app, map_map. cbn [fst]. rewrite map_id.
          assert (G : forall (l m : list string), NoDup l -> NoDup m -> (forall x, In x l -> ~ In x m) -> NoDup (app l m)).
          { intros l m Hl Hm Hx. induction Hl as [|a l Ha Hl IH]; [exact Hm|]. cbn [app]. constructor.
            - rewrite in_app_iff. intros [H|H]; [contradiction|]. apply (Hx a); [left; reflexivity|exact H].
            - apply IH. intros x Hx'. apply Hx. right. exact Hx'. }
          apply G.
          - change (NoDup (dkeys kw)). rewrite Ek. exact Hd.
          - apply NoDup_filter. exact Hnd.
          - intros x Hx Hf'. apply filter_In in Hf'. destruct Hf' as [_ Hf']. apply negb_true_iff in Hf'. apply smem_In in Hx. unfold dkeys in Hx, Hf'. rewrite Hx in Hf'. discriminate. }
        rewrite (isort_nodup_valid (dkeys kw') HN).
        2:{ intros n Hn. apply Hk' in Hn. destruct Hn as [Hn|Hn]; [apply Hv; exact Hn|]. apply valid_field_iff, Hf. exact Hn. }
        cbn [rbind]. rewrite dget_dset_eq. destruct (nt_call_total (MkCT (isort slot_leb (dkeys kw')) []) kw') as (slots & E).
        { intros n. cbn [ctfields]. rewrite isort_In. reflexivity. }
        rewrite E. cbn [rbind]. eauto.
      * exfalso. injection Ec as <-. apply not_true_iff_false in Es. apply Es. apply subset_spec. intros n Hn. apply Hk' in Hn.
        destruct Hn as [Hn|Hn]; [apply Hin; exact Hn|exact Hn].
  - destruct Hs as [Hs|(ct' & Ec & _)]; [|discriminate].
    unfold chunktype, is_special_redef. rewrite Hs. cbn [fields_of_arg]. rewrite isa_check_never. cbn [inherit rbind].
    rewrite (isort_nodup_valid (dkeys kw)); [|rewrite Ek; exact Hd|intros n Hn; apply Hv; rewrite <- Ek; exact Hn].
    cbn [rbind]. rewrite dget_dset_eq. destruct (nt_call_total (MkCT (isort slot_leb (dkeys kw)) []) kw) as (slots & E).
    { intros n. cbn [ctfields]. rewrite isort_In. reflexivity. }
    rewrite E. cbn [rbind]. eauto.
Qed.

(** The name of a fresh type. *)
Lemma digits_wordish s : VisionFacts.digits s -> all wordish s.
Proof.
  induction 1 as [|c s (d & -> & Hd) Hs IH]; [apply all_nil|]. apply all_cons. split; [|exact IH].
  apply slot_body_iff. do 10 (destruct d as [|d]; [reflexivity|]). lia.
Qed.

Lemma fresh_identifier st : identifier (fresh_type st) /\ dget special_types (fresh_type st) = None.
Proof.
  unfold fresh_type, digits_str. set (s := NilZero.string_of_uint (Nat.to_uint (nscount st))).
  assert (Hs : all wordish s) by (apply digits_wordish, VisionFacts.digits_zero).
  assert (Hu : all wordish "undefined") by (repeat (apply all_cons; split; [apply slot_body_iff; reflexivity|]); apply all_nil).
  split; [split|].
  - split; [apply (slot_init_iff "u"); reflexivity|]. apply all_app. auto.
  - intros H. cbn [python_words In append] in H. repeat (destruct H as [H|H]; [discriminate|]). destruct H.
  - reflexivity.
Qed.

Lemma valid_type_fresh st : valid_type (fresh_type st) = true.
Proof. apply identifier_iff. apply fresh_identifier. Qed.

Lemma listing_slots ps s r : listing ps s r -> forall n, named ps n -> slot_name n.
Proof.
  induction 1 as [rest|n v ps g1 g2 t s rest H1 Hn H2 Hw Hb He Hl IH]; intros m Hm; [destruct Hm|].
  destruct Hm as [<-|Hm]; [exact Hn|]. apply IH. exact Hm.
Qed.

Theorem chunk_of_pairs_makes st name ps :
  all_written ps -> (forall n, named ps n -> slot_name n) ->
  proper_types (nsreg st) -> ~ conflict (nsnames st) ps -> type_fine (nsreg st) (nsnames st) ps -> slots_fine ps ->
  exists st' c, chunk_of_pairs st name (parts_of ps) = Ok (st', c).
Proof.
  intros Hw Hsn Hp Hc Ht Hs. unfold chunk_of_pairs, createchunkdict.
  destruct (dict_spec (nsnames st) ps Hw) as [(_ & d & E & Hd & Hk & Hr)|[Hc' _]]; [|contradiction]. rewrite E. cbn [rbind].
  destruct (pop_type d) as [ty d'] eqn:Ep.
  destruct (pop_type_spec (nsnames st) ps d ty d' Hk Hd Hr Ep) as (Hd' & Hk' & Hr' & Hty).
  fold (raw_args d'). unfold makechunk.
  assert (Hres : existsb (fun n => smem n reserved) (dkeys (raw_args d')) = false).
  { apply not_true_iff_false. rewrite existsb_exists. intros (n & Hn & Hin). rewrite raw_args_keys, Hk' in Hn.
    apply smem_In in Hin. apply (Hs n Hn). exact Hin. }
  rewrite Hres.
  assert (Hv : forall n, In n (dkeys d') -> valid_field n = true).
  { intros n Hn. apply Hk' in Hn. apply valid_field_iff. split; [apply Hs; exact Hn|]. apply Hsn, Hn. }
  assert (Hfresh : exists st' c, (if dmem (nsreg st) (fresh_type st) || valid_type (fresh_type st) then
      '(r', c) <- mk_chunk (nsreg st) (fresh_type st) (raw_args d') ;; Ok (MkNS r' (dset (nsnames st) (stored_name name) c) (S (nscount st)), c)
      else (_ <- convert_all (raw_args d') ;; Err EKey)) = Ok (st', c)).
  { rewrite valid_type_fresh, orb_true_r.
    destruct (mk_chunk_makes (nsreg st) (fresh_type st) d' Hp Hd' Hv (or_introl (proj2 (fresh_identifier st)))) as (r' & c & ->).
    cbn [rbind]. eauto. }
  destruct Hty as [[Hi ->]|(Hi & w & Hsr & ->)]; [exact Hfresh|].
  destruct (read_val _ _ _ _ Hsr) as [[_ Ev]|Ev]; [rewrite Ev; exact Hfresh|].
  destruct (Ht Hi (vvals w) Ev) as (s & -> & [->|[Hkn Hsp]]); [exact Hfresh|]. cbn [truthy].
  destruct (String.eqb_spec s "") as [->|Hne]; [exact Hfresh|]. cbn [negb].
  assert (Hok : dmem (nsreg st) s || valid_type s = true).
  { apply orb_true_iff. destruct Hkn as [Hkn|Hkn]; [left|right; apply identifier_iff; exact Hkn].
    unfold dmem. destruct (dget (nsreg st) s); [reflexivity|congruence]. }
  rewrite Hok.
  destruct (mk_chunk_makes (nsreg st) s d' Hp Hd' Hv) as (r' & c & Em).
  { destruct (dget special_types s) as [x|] eqn:Ex; [right|left; reflexivity]. destruct Hsp as (ct & Ect & Hin); [discriminate|].
    exists ct. split; [exact Ect|]. intros n Hn. apply Hin, Hk'. exact Hn. }
  rewrite Em. cbn [rbind]. eauto.
Qed.

(** ** chunkstring *)

Theorem chunkstring_reads st name s ps :
  chunk_text ps s -> no_quoted_tab ps -> chunkstring st name s = chunk_of_pairs st name (parts_of ps).
Proof. intros H Hq. unfold chunkstring. rewrite (chunk_reader_complete ps s H Hq). reflexivity. Qed.

Lemma chunk_text_written ps s : chunk_text ps s -> all_written ps /\ forall n, named ps n -> slot_name n.
Proof. intros (r & _ & Hl & _). split; [apply (listing_written ps s r Hl)|apply (listing_slots ps s r Hl)]. Qed.

(** ** Proper types *)

Lemma chunktype_fields_valid r cls a r' :
  chunktype r cls a [] [] = Ok r' ->
  exists ct, r' = dset r cls ct /\ NoDup (ctfields ct) /\ forall n, In n (ctfields ct) -> valid_field n = true.
Proof.
  unfold chunktype. destruct (is_special_redef cls a); [discriminate|]. destruct (isa_check _); [discriminate|].
  cbn [inherit rbind]. unfold namedtuple. destruct (nodupb _ && forallb valid_field _) eqn:E; [|discriminate]. cbn [rbind].
  intros H. injection H as <-. eexists. split; [reflexivity|]. cbn [ctfields]. apply andb_true_iff in E. destruct E as [E1 E2].
  split; [apply nodupb_NoDup; exact E1|]. apply forallb_forall. exact E2.
Qed.

Lemma proper_dset r cls ct : proper_types r -> NoDup (ctfields ct) -> (forall n, In n (ctfields ct) -> valid_field n = true) ->
  proper_types (dset r cls ct).
Proof.
  intros Hp Hn Hv ty ct' H. rewrite dget_dset in H. destruct (String.eqb cls ty); [|apply (Hp ty); exact H].
  injection H as <-. split; [exact Hn|]. intros n Hin. apply valid_field_iff. auto.
Qed.

Lemma mk_chunk_proper r ty args r' c : proper_types r -> mk_chunk r ty args = Ok (r', c) -> proper_types r'.
Proof.
  intros Hp H. unfold mk_chunk in H. destruct (convert_all args) as [kw|]; [|discriminate]. cbn [rbind] in H.
  assert (G : forall l, proper_types (match chunktype r ty l [] [] with Ok r' => r' | Err _ => r end)).
  { intros l. destruct (chunktype r ty l [] []) as [r1|] eqn:E; [|exact Hp]. apply chunktype_fields_valid in E.
    destruct E as (ct & -> & Hn & Hv). apply proper_dset; assumption. }
  destruct (dget r ty) as [ct|].
  - destruct (subset (dkeys (fill_empty (ctfields ct) kw)) (ctfields ct)).
    + destruct (dget r ty) as [ct1|]; [|discriminate]. destruct (nt_call ct1 _); [|discriminate]. injection H as <- _. exact Hp.
    + specialize (G (FSeq (dkeys (fill_empty (ctfields ct) kw)))).
      match type of G with proper_types ?x => set (r1 := x) in * end. destruct (dget r1 ty) as [ct1|] in H; [|discriminate].
      destruct (nt_call ct1 _); [|discriminate]. injection H as <- _. exact G.
  - specialize (G (FSeq (dkeys kw))).
    match type of G with proper_types ?x => set (r1 := x) in * end. destruct (dget r1 ty) as [ct1|] in H; [|discriminate].
    destruct (nt_call ct1 _); [|discriminate]. injection H as <- _. exact G.
Qed.

Theorem types_proper st name s st' c :
  proper_types (nsreg st) -> chunkstring st name s = Ok (st', c) -> proper_types (nsreg st').
Proof.
  intros Hp H. unfold chunkstring, chunk_of_pairs in H. destruct (chunk_reader s) as [l|]; [|discriminate].
  destruct (createchunkdict (nsnames st) l) as [[ty d]|]; [|discriminate]. cbn [rbind] in H.
  apply makechunk_inv in H. destruct H as (s0 & r' & Hm & _ & Er & _). rewrite Er. exact (mk_chunk_proper _ _ _ _ _ Hp Hm).
Qed.

Lemma proper_init : proper_types init_registry.
Proof.
  intros ty ct H. apply dget_In in H. destruct H as [H|[H|[H|[]]]]; injection H as <- <-; cbn [ctfields];
    (split; [apply nodupb_NoDup; reflexivity|]); intros n Hn; apply valid_field_iff;
    repeat (destruct Hn as [<-|Hn]; [reflexivity|]); destruct Hn.
Qed.
