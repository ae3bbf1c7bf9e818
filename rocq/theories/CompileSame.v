(** Rules that compilation takes to be identical: what == on the chunks of rules means. *)
From Coq Require Import Lia.
From Verif Require Import Base BaseFacts Chunks ChunkFacts DecMem Buffers Productions ProdSpec Compile CompileFacts ChunkSpec CompileSpec.
Local Open Scope string_scope. Local Open Scope list_scope.
Arguments hval_eqb : simpl never. Arguments hash_value : simpl nomatch. Arguments val_eqb : simpl nomatch.
Lemma chars_inj x : forall y, chars x = chars y -> x = y.
Proof. induction x as [|c x IH]; intros [|d y]; cbn [chars]; intros H; try discriminate; [reflexivity|]. injection H as -> H. f_equal. auto. Qed.
Lemma hash_val_eqb v u : hash_value v = hash_value u -> val_eqb v u = true.
Proof.
  destruct v as [| |s|c], u as [| |t|d]; cbn [hash_value val_eqb]; intros H; try discriminate; try reflexivity.
  - injection H as ->. apply String.eqb_refl.
  - rewrite H. apply hval_eqb_refl.
Qed.
Definition of_kind (k : hkind) (l : list entry) : list hval := map (fun e => snd (snd e)) (filter (fun e => hkind_eqb (fst (snd e)) k) l).
Lemma of_kind_app k l m : of_kind k (l ++ m) = of_kind k l ++ of_kind k m.
Proof. unfold of_kind. rewrite filter_app, map_app. reflexivity. Qed.
Lemma of_kind_map k k' n l : of_kind k (map (fun x => (n, (k', x))) l) = if hkind_eqb k' k then l else [].
Proof.
  unfold of_kind. induction l as [|a l IH]; [destruct (hkind_eqb k' k); reflexivity|]. cbn [map filter fst snd].
  destruct (hkind_eqb k' k); cbn [map snd]; rewrite ?IH; reflexivity.
Qed.
Lemma nobind_hash x : bhash nobind x = None. Proof. reflexivity. Qed.
Lemma unbound_nobind kd n l : unbound (bhash nobind) kd n l = map (fun x => (n, (kd, x))) (map HStr l).
Proof. unfold unbound. induction l as [|a l IH]; [reflexivity|]. cbn [flat_map map app]. rewrite IH. reflexivity. Qed.
Lemma bound_nobind l : bound (bhash nobind) l = [].
Proof. induction l as [|a l IH]; [reflexivity|exact IH]. Qed.
Lemma blk_said c n : blk nobind c n = slot_entries hash_value (bhash nobind) n (said c n).
Proof.
  unfold blk, blk_with, said. destruct (dget (cslots c) n) as [[w|]|] eqn:E; try reflexivity.
Qed.
Lemma entries_kinds n w :
  of_kind KVariables (slot_entries hash_value (bhash nobind) n w) = map HStr (var_chars (vvar w)) /\
  of_kind KNegvariables (slot_entries hash_value (bhash nobind) n w) = map HStr (vnegvars w) /\
  of_kind KValues (slot_entries hash_value (bhash nobind) n w) = hdedup (if emptyish (vvals w) then [] else [hash_value (vvals w)]) /\
  of_kind KNegvalues (slot_entries hash_value (bhash nobind) n w) = hdedup (map hash_value (vnegvals w)).
Proof.
  unfold slot_entries. rewrite !unbound_nobind, !bound_nobind. cbn [app].
  rewrite !of_kind_app, !of_kind_map. cbn [hkind_eqb]. rewrite !app_nil_r. cbn [app]. auto.
Qed.
Lemma map_HStr_inj l : forall m, map HStr l = map HStr m -> l = m.
Proof. induction l as [|a l IH]; intros [|b m]; cbn [map]; intros H; try discriminate; [reflexivity|]. injection H as -> H. f_equal. auto. Qed.
Theorem eqb_says_same c d : NoDup (dkeys (cslots c)) -> NoDup (dkeys (cslots d)) -> chunk_eqb nobind c d = true -> says_same c d.
Proof.
  intros Nc Nd E n. apply chunk_eqb_sig in E.
  assert (B : blk nobind c n = blk nobind d n).
  { unfold blk. rewrite <- (sig_filter _ _ _ n Nc), <- (sig_filter _ _ _ n Nd). unfold sig in E. rewrite E. reflexivity. }
  rewrite !blk_said in B. destruct (entries_kinds n (said c n)) as (K1 & K2 & K3 & K4), (entries_kinds n (said d n)) as (L1 & L2 & L3 & L4).
  rewrite B in K1, K2, K3, K4. rewrite K1 in L1. rewrite K2 in L2. rewrite K3 in L3. rewrite K4 in L4.
  apply map_HStr_inj in L1, L2. split; [|split; [|split; [|split]]].
  - intros x Hx. unfold var_chars in L1. destruct (vvar (said c n)) as [y|] eqn:Y, (vvar (said d n)) as [z|] eqn:Z.
    + apply chars_inj in L1. subst z. tauto.
    + destruct y; [|discriminate]. split; [intros [= <-]; congruence|discriminate].
    + destruct z; [|discriminate]. split; [discriminate|intros [= <-]; congruence].
    + tauto.
  - exact L2.
  - destruct (emptyish (vvals (said c n))) eqn:Y, (emptyish (vvals (said d n))) eqn:Z; try discriminate.
    + left. split; apply emptyish_spec; assumption.
    + right. injection L3 as L3. exact (hash_val_eqb _ _ L3).
  - intros v Hv. assert (J : In (hash_value v) (hdedup (map hash_value (vnegvals (said c n))))) by (apply hdedup_In, in_map; exact Hv).
    rewrite L4 in J. apply hdedup_In, in_map_iff in J. destruct J as (u & J & Hu). exists u. split; [exact Hu|]. apply hash_val_eqb. auto.
  - intros v Hv. assert (J : In (hash_value v) (hdedup (map hash_value (vnegvals (said d n))))) by (apply hdedup_In, in_map; exact Hv).
    rewrite <- L4 in J. apply hdedup_In, in_map_iff in J. destruct J as (u & J & Hu). exists u. split; [exact Hu|]. apply hash_val_eqb. auto.
Qed.
Lemma list_eqb_eq {A} (eqb : A -> A -> bool) : (forall a b, eqb a b = true -> a = b) -> forall l m, list_eqb eqb l m = true -> l = m.
Proof. intros H. induction l as [|a l IH]; intros [|b m]; cbn [list_eqb]; intros E; try discriminate; [reflexivity|]. apply andb_true_iff in E. destruct E. f_equal; auto. Qed.
Lemma dict_eqb_get d e : NoDup (dkeys d) -> dict_eqb d e = true -> forall k, dget d k = dget e k.
Proof.
  intros N H k. unfold dict_eqb in H. apply andb_true_iff in H. destruct H as [L H]. rewrite forallb_forall in H. apply Nat.eqb_eq in L.
  destruct (dget d k) as [v|] eqn:E.
  - apply dget_In in E. specialize (H _ E). cbn [fst snd] in H. unfold opt_eqb in H.
    destruct (dget e k) as [u|]; [|discriminate]. apply String.eqb_eq in H. congruence.
  - destruct (dget e k) as [u|] eqn:E2; [|reflexivity]. exfalso. apply dget_None in E. apply E.
    assert (I : incl (dkeys d) (dkeys e)).
    { intros x Hx. apply in_map_iff in Hx. destruct Hx as ([x' v] & <- & Hx). specialize (H _ Hx). cbn [fst snd] in H |- *.
      unfold opt_eqb in H. destruct (dget e x') eqn:E3; [|discriminate]. exact (dget_Some_key _ _ E3). }
    assert (G : incl (dkeys e) (dkeys d)) by (apply NoDup_length_incl; [exact N|unfold dkeys; rewrite !map_length, L; constructor|exact I]).
    apply G. exact (dget_Some_key _ _ E2).
Qed.
Lemma content_eqb_same a b : content_eqb a b = true -> content_same a b.
Proof.
  destruct a, b; cbn [content_eqb content_same]; intros H; try discriminate; try exact I.
  - intros N1 N2. exact (eqb_says_same _ _ N1 N2 H).
  - intros N k. exact (dict_eqb_get _ _ N H k).
  - revert H. apply list_eqb_eq. intros [p q] [p' q'] E. unfold cmd_eqb in E. cbn [fst snd] in E. apply andb_true_iff in E. destruct E as [E1 E2].
    apply String.eqb_eq in E1, E2. congruence.
Qed.
Theorem side_eqb_same a b : side_eqb a b = true -> side_same a b.
Proof.
  unfold side_eqb. intros H. apply andb_true_iff in H. destruct H as [L H]. rewrite forallb_forall in H. apply Nat.eqb_eq in L.
  assert (G : forall k c, In (k, c) a -> exists d, dget b k = Some d /\ content_eqb c d = true).
  { intros k c J. specialize (H _ J). cbn [fst snd] in H. destruct (dget b k) as [d|]; [|discriminate]. eauto. }
  split.
  - intros k c J. destruct (G k c J) as (d & E & K). eauto using content_eqb_same.
  - intros N. apply NoDup_length_incl; [exact N|unfold dkeys; rewrite !map_length, L; constructor|].
    intros x Hx. apply in_map_iff in Hx. destruct Hx as ([x' v] & <- & Hx). destruct (G _ _ Hx) as (d & E & _). exact (dget_Some_key _ _ E).
Qed.

(** ** Compiling never changes another rule *)

Lemma compiled_name_longer n1 n2 i : compiled_name n1 n2 i <> n1 /\ compiled_name n1 n2 i <> n2.
Proof.
  assert (L : forall a b, String.length (a ++ b) = (String.length a + String.length b)%nat)
    by (induction a as [|c a IH]; intros b; cbn [String.append String.length Nat.add]; [reflexivity|rewrite IH; reflexivity]).
  unfold compiled_name. split; intros H; apply (f_equal String.length) in H; destruct i; rewrite ?L in H; cbn [String.length] in H; lia.
Qed.
(** The rule that compiling adds when no other rule is in the way. *)
Definition would_add (tie : string -> string -> bool) (s : st) (n1 n2 : string) (vals : dict slotinfo) (new : rule) : Prop :=
  exists ru1 ru2 n0 rs1, dget (srules s) n1 = Some ru1 /\ dget (srules s) n2 = Some ru2 /\
    compile_rules tie (set_rules [(n1, ru1); (n2, ru2)] s) n1 n2 vals = Ok (Some (n0, false, rs1)) /\ dget rs1 n0 = Some new.
Lemma scan_rules s rs vals : forall o l, scan_vals (set_rules rs s) vals o l = scan_vals s vals o l.
Proof.
  induction vals as [|[b i] vals IH]; intros o l; cbn [scan_vals]; [reflexivity|]. destruct i as [|d|d g]; rewrite ?IH; try reflexivity.
Qed.
Lemma combine_rules tie s rs n2 ru1 ru2 vals : combine tie (set_rules rs s) n2 ru1 ru2 vals = combine tie s n2 ru1 ru2 vals.
Proof. unfold combine. rewrite scan_rules. reflexivity. Qed.
Lemma would_add_combine tie s n1 n2 vals ru1 ru2 l r : dget (srules s) n1 = Some ru1 -> dget (srules s) n2 = Some ru2 ->
  combine tie s n2 ru1 ru2 vals = Ok (Some (Ok l, Ok r)) -> would_add tie s n1 n2 vals (MkRule l r 0 None).
Proof.
  intros E1 E2 C. exists ru1, ru2, (compiled_name n1 n2 0), (dset [(n1, ru1); (n2, ru2)] (compiled_name n1 n2 0) (MkRule l r 0 None)).
  split; [exact E1|]. split; [exact E2|]. split; [|rewrite dget_dset_eq; reflexivity].
  destruct (compiled_name_longer n1 n2 0) as [X1 X2].
  assert (G1 : dget [(n1, ru1); (n2, ru2)] n1 = Some ru1) by (cbn [dget fst snd]; rewrite String.eqb_refl; reflexivity).
  assert (G2 : dget [(n1, ru1); (n2, ru2)] n2 = Some ru2).
  { cbn [dget fst snd]. rewrite String.eqb_refl. destruct (String.eqb n1 n2) eqn:E; [|reflexivity]. apply String.eqb_eq in E. congruence. }
  assert (G3 : dget [(n1, ru1); (n2, ru2)] (compiled_name n1 n2 0) = None).
  { apply dget_None. cbn [dkeys map fst In]. intuition congruence. }
  unfold compile_rules. change (srules (set_rules [(n1, ru1); (n2, ru2)] s)) with [(n1, ru1); (n2, ru2)]. rewrite G1, G2.
  rewrite combine_rules, C. cbn [rbind].
  cbn [List.length place]. rewrite G3. reflexivity.
Qed.
Theorem compile_safe tie s n1 n2 vals n again rs : compile_rules tie s n1 n2 vals = Ok (Some (n, again, rs)) ->
  (forall m, m <> n -> dget rs m = dget (srules s) m) /\
  exists new, would_add tie s n1 n2 vals new /\
    ((again = false /\ dget (srules s) n = None /\ dget rs n = Some new) \/
     (again = true /\ exists old u, dget (srules s) n = Some old /\ side_same (rlhs old) (rlhs new) /\ side_same (rrhs old) (rrhs new) /\
        dget rs n = Some (set_util old u))).
Proof.
  intros H. destruct (compile_exact _ _ _ _ _ _ _ _ H) as (_ & ru1 & ru2 & l & r & E1 & E2 & C & [(-> & N & ->)|(-> & old & E & S1 & S2 & ->)]).
  - split; [intros m Hm; rewrite dget_dset_neq; auto|]. exists (MkRule l r 0 None). split; [exact (would_add_combine _ _ _ _ _ _ _ _ _ E1 E2 C)|].
    left. split; [reflexivity|]. split; [exact N|apply dget_dset_eq].
  - split; [intros m Hm; destruct (qlearn (sp s)); [rewrite dget_dset_neq by auto; reflexivity|reflexivity]|].
    exists (MkRule l r 0 None). split; [exact (would_add_combine _ _ _ _ _ _ _ _ _ E1 E2 C)|]. right. split; [reflexivity|].
    exists old, (if qlearn (sp s) then round4 (rutil old + qalpha (sp s) * (rutil ru1 - rutil old)) else rutil old)%Q.
    split; [exact E|]. split; [exact (side_eqb_same _ _ S1)|]. split; [exact (side_eqb_same _ _ S2)|].
    destruct (qlearn (sp s)); [apply dget_dset_eq|]. rewrite E. destruct old; reflexivity.
Qed.

(** ** The new rule *)

Lemma new_combine tie s n1 n2 vals n rs ru1 ru2 new : compile_rules tie s n1 n2 vals = Ok (Some (n, false, rs)) ->
  dget (srules s) n1 = Some ru1 -> dget (srules s) n2 = Some ru2 -> dget rs n = Some new ->
  combine tie s n2 ru1 ru2 vals = Ok (Some (Ok (rlhs new), Ok (rrhs new))).
Proof.
  intros H E1 E2 E. destruct (compile_exact _ _ _ _ _ _ _ _ H) as (_ & ru1' & ru2' & l & r & E1' & E2' & C & [(_ & N & ->)|(K & _)]); [|discriminate].
  rewrite dget_dset_eq in E. injection E as <-. rewrite E1 in E1'. rewrite E2 in E2'. injection E1' as <-. injection E2' as <-. exact C.
Qed.
Theorem compile_actions tie s n1 n2 vals n rs ru1 ru2 new : compile_rules tie s n1 n2 vals = Ok (Some (n, false, rs)) ->
  dget (srules s) n1 = Some ru1 -> dget (srules s) n2 = Some ru2 -> dget rs n = Some new ->
  (forall k, In k (dkeys (rrhs ru2)) -> In k (dkeys (rrhs new))) /\
  (forall k, In k (dkeys (rrhs new)) -> In k (dkeys (rrhs ru2)) \/ In k (dkeys (rrhs ru1))) /\
  (forall b, acts_upon (rrhs ru1) b -> acts_upon (rrhs new) b \/ exists d got, In (b, SRet d got) vals) /\
  (one_each (rrhs ru1) -> forall code b, In (String code b) (dkeys (rrhs ru1)) -> ~ acts_upon (rrhs ru2) b ->
     In (String code b) (dkeys (rrhs new)) \/ exists d got, In (b, SRet d got) vals).
Proof. intros H E1 E2 E. exact (combine_actions _ _ _ _ _ _ _ _ (new_combine _ _ _ _ _ _ _ _ _ _ H E1 E2 E)). Qed.
Theorem compile_conditions tie s n1 n2 vals n rs ru1 ru2 new : compile_rules tie s n1 n2 vals = Ok (Some (n, false, rs)) ->
  dget (srules s) n1 = Some ru1 -> dget (srules s) n2 = Some ru2 -> dget rs n = Some new ->
  (forall k, In k (dkeys (rlhs ru1)) -> In k (dkeys (rlhs new))) /\
  (forall k, In k (dkeys (rlhs new)) -> In k (dkeys (rlhs ru1)) \/ In k (dkeys (rlhs ru2))) /\
  (forall b, In (String "=" b) (dkeys (rlhs ru2)) -> In (String "=" b) (dkeys (rlhs new)) \/ exists d got, In (b, SRet d got) vals).
Proof. intros H E1 E2 E. exact (combine_conditions _ _ _ _ _ _ _ _ (new_combine _ _ _ _ _ _ _ _ _ _ H E1 E2 E)). Qed.
Theorem compile_retrieval tie s n1 n2 vals n rs ru1 ru2 new b d got : compile_rules tie s n1 n2 vals = Ok (Some (n, false, rs)) ->
  dget (srules s) n1 = Some ru1 -> dget (srules s) n2 = Some ru2 -> dget rs n = Some new ->
  dget vals b = Some (SRet d got) -> (forall b' d' got', In (b', SRet d' got') vals -> b' = b) -> In (String "=" b) (dkeys (rlhs ru2)) ->
  (In (String "=" b) (dkeys (rlhs new)) -> In (String "=" b) (dkeys (rlhs ru1))) /\
  (forall code, In (String code b) (dkeys (rrhs new)) -> In (String code b) (dkeys (rrhs ru2))).
Proof. intros H E1 E2 E. exact (combine_retrieval _ _ _ _ _ _ _ _ _ _ _ (new_combine _ _ _ _ _ _ _ _ _ _ H E1 E2 E)). Qed.
Theorem compile_unsafe tie s n1 n2 vals x ru1 ru2 b : compile_rules tie s n1 n2 vals = Ok (Some x) ->
  dget (srules s) n1 = Some ru1 -> dget (srules s) n2 = Some ru2 -> requests_from (rrhs ru1) b ->
  (~ kind_is s b KRetrieval -> ~ requests_from (rrhs ru2) b) /\
  (forall k, kind_is s b k -> perceptual k -> ~ In (String "=" b) (dkeys (rlhs ru2))) /\
  (forall k d, kind_is s b k -> perceptual k \/ k = KMotor -> asks (rlhs ru2) b d -> d = [("state", "busy")]) /\
  (kind_is s b KRetrieval -> ~ asks (rlhs ru2) b [("state", "error")]).
Proof.
  destruct x as [[n again] rs]. intros H E1 E2 R. destruct (compile_exact _ _ _ _ _ _ _ _ H) as (_ & ru1' & ru2' & l & r & E1' & E2' & C & _).
  rewrite E1 in E1'. rewrite E2 in E2'. injection E1' as <-. injection E2' as <-.
  destruct (unsafe_pairs _ _ _ _ _ _ _ _ C R) as (U1 & U2 & U3 & U4). split; [|auto].
  intros K. apply U1. intros K2. apply K. unfold kind_of, buf_at in K2. destruct (dget (snames s) b) as [i|] eqn:Ei; [|discriminate].
  destruct (nth_error (bufs (sw s)) i) as [bf|] eqn:Eb; [|discriminate]. injection K2 as K2. exists i, bf. auto.
Qed.

(** ** Failed retrievals *)

Lemma match_sides_keeps tie lhs2 : forall temp vals mv vals1 mv1 b, match_sides tie lhs2 temp vals mv = Ok (vals1, mv1) ->
  (forall code, about_chunk code -> ~ In (String code b) (dkeys lhs2)) -> dget vals1 b = dget vals b.
Proof.
  induction lhs2 as [|[key c] lhs2 IH]; intros temp vals mv vals1 mv1 b; cbn [match_sides]; [intros [= <- <-]; reflexivity|].
  destruct key as [|code b']; [discriminate|]. destruct (carries code) eqn:C.
  - intros H N. apply rbind_Ok in H. destruct H as (ch & _ & H).
    assert (N' : forall code, about_chunk code -> ~ In (String code b) (dkeys lhs2)) by (intros k K J; exact (N k K (or_intror J))).
    assert (Nb : b' <> b) by (intros ->; exact (N code (proj1 (carries_spec code) C) (or_introl eq_refl))).
    destruct (dget temp b') as [[| d3 | d3 got]|]; try (apply rbind_Ok in H; destruct H as (mv' & _ & H); exact (IH _ _ _ _ _ _ H N')).
    rewrite (IH _ _ _ _ _ _ H N'), dget_ddel. destruct (String.eqb_spec b b'); [congruence|reflexivity].
  - intros H N. apply (IH _ _ _ _ _ _ H). intros k K J. exact (N k K (or_intror J)).
Qed.
Lemma subst_vals_list m v vals b d got : dget vals b = Some (SRet d got) -> forall x, subst_vals m v vals <> Ok x.
Proof.
  intros E x H. apply rmap_Forall2 in H. apply dget_In in E. destruct (Forall2_In_l _ _ _ _ H E) as (y & _ & K). discriminate K.
Qed.
Lemma scan_empty s vals : (forall b d got, In (b, SRet d got) vals -> content_of s b = []) -> forall o l, scan_vals s vals o l <> Ok None.
Proof.
  induction vals as [|[b i] vals IH]; intros E o l; cbn [scan_vals]; [discriminate|].
  assert (E' : forall b d got, In (b, SRet d got) vals -> content_of s b = []) by (intros b0 d0 g0 J; exact (E _ _ _ (or_intror J))).
  destruct i as [|d|d got]; [exact (IH E' o l)|exact (IH E' _ _)|]. specialize (E b d got (or_introl eq_refl)). unfold content_of in E. unfold buffer_full, buf_at.
  destruct (dget (snames s) b) as [i|]; [|discriminate]. destruct (nth_error (bufs (sw s)) i) as [bf|]; [|discriminate]. rewrite E. cbn [rbind]. exact (IH E' _ _).
Qed.
Theorem untested_retrieval tie s n1 n2 vals ru1 ru2 b d got : dget (srules s) n1 = Some ru1 -> dget (srules s) n2 = Some ru2 ->
  dget vals b = Some (SRet d got) -> typed_lhs (rlhs ru2) -> ~ In (String "=" b) (dkeys (rlhs ru2)) ->
  (forall b' d' got', In (b', SRet d' got') vals -> content_of s b' = []) ->
  (forall b', requests_from (rrhs ru1) b' -> kind_is s b' KRetrieval /\ ~ asks (rlhs ru2) b' [("state", "error")]) ->
  exists e, compile_rules tie s n1 n2 vals = Err e.
Proof.
  intros E1 E2 Ev T N Em Rq. unfold compile_rules. rewrite E1, E2.
  destruct (combine tie s n2 ru1 ru2 vals) as [c|e] eqn:C; [|exists e; reflexivity]. exfalso.
  unfold combine in C. destruct (unsafe s (rrhs ru1) (rlhs ru2) (rrhs ru2)) eqn:U.
  - unfold unsafe in U. apply existsb_exists in U. destruct U as ([|code b'] & J & U); [discriminate|].
    destruct (Ascii.eqb_spec code "+") as [->|K].
    2:{ destruct code as [[] [] [] [] [] [] [] []]; try discriminate U. apply K. reflexivity. }
    destruct (Rq b' J) as [K1 K2]. unfold unsafe_request in U. rewrite (kind_of_spec _ _ _ K1) in U. apply existsb_exists in U.
    destruct U as ([k c0] & Jk & Uk). cbn [fst snd] in Uk. apply andb_true_iff in Uk. destruct Uk as [Uk Uc]. apply String.eqb_eq in Uk. subst k.
    destruct c0 as [|d0| |]; try discriminate Uc. cbn [asks_only] in Uc. apply dict_eqb_single in Uc. subst d0. exact (K2 Jk).
  - destruct (scan_vals s vals None []) as [[[retr vs]|]|e] eqn:Sc; [| |discriminate].
    + cbn [rbind] in C. apply rbind_Ok in C. destruct C as (lhs2 & Hl & C). apply rbind_Ok in C. destruct C as ([vals1 mv] & Hm & C).
      apply rbind_Ok in C. destruct C as (vals2 & Hv & _).
      assert (K : dget vals1 b = Some (SRet d got)).
      { rewrite (match_sides_keeps _ _ _ _ _ _ _ b Hm); [exact Ev|]. intros code A J. rewrite (with_parts_keys _ _ _ Hl) in J.
        apply in_map_iff in J. destruct J as ([k c0] & Ek & J). cbn [fst] in Ek. subst k. destruct (T _ _ J) as (b0 & [(Eb & _)|(Eb & _)]); injection Eb as -> ->.
        - apply N. exact (in_map fst _ _ J).
        - destruct A as [A|[A|[A|A]]]; discriminate A. }
      exact (subst_vals_list _ _ _ _ _ _ K _ Hv).
    + exact (scan_empty _ _ Em _ _ Sc).
Qed.
