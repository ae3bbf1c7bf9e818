(** Proofs about constant patterns, the order on facts, and interchangeability. *)
From Verif Require Import Chunks ChunkSpec ChunkFacts ChunkMatch.
Local Open Scope string_scope.
Arguments hval_eqb : simpl never.
Arguments hash_value : simpl nomatch.
Arguments val_eqb : simpl nomatch.

(** ** Constant patterns (C03) *)

Lemma slot_entries_novar b b' n w :
  vvar w = None -> vnegvars w = [] ->
  slot_entries hash_value b n w = slot_entries hash_value b' n w.
Proof. intros E1 E2. unfold slot_entries. rewrite E1, E2. reflexivity. Qed.

Lemma sig_novar b b' c : no_variables c -> sig b c = sig b' c.
Proof.
  intros H. unfold sig, sig_with.
  assert (E : forall p, In p (cslots c) ->
    match snd p with None => [] | Some w => if kept_nonempty (snd p) then slot_entries hash_value (bhash b) (fst p) w else [] end =
    match snd p with None => [] | Some w => if kept_nonempty (snd p) then slot_entries hash_value (bhash b') (fst p) w else [] end).
  { intros [n [w|]] Hin; simpl; [|reflexivity].
    destruct (H n w Hin) as [E1 E2]. rewrite (slot_entries_novar (bhash b) (bhash b') n w E1 E2). reflexivity. }
  induction (cslots c) as [|p l IH]; [reflexivity|]. simpl.
  rewrite (E p) by (simpl; auto). f_equal. apply IH. intros q Hq. apply E. simpl. auto.
Qed.

Lemma chunk_eqb_novar b c d : no_variables c -> chunk_eqb b c d = chunk_eqb nobind c d.
Proof. intros H. unfold chunk_eqb. rewrite (sig_novar b nobind c H). reflexivity. Qed.

Lemma match_slots_novar b slots d :
  (forall n w, In (n, Some w) slots -> vvar w = None /\ vnegvars w = []) ->
  match_slots b slots d =
  (b, forallb (fun p => match_value (vvals (splitting (snd p))) (slot_value d (fst p)) &&
                        match_negvals (vnegvals (splitting (snd p))) (slot_value d (fst p))) slots).
Proof.
  induction slots as [|[n s] slots IH]; intros H; [reflexivity|]. simpl.
  assert (E : vvar (splitting s) = None /\ vnegvars (splitting s) = []).
  { destruct s as [w|]; simpl; [apply (H n w); simpl; auto|auto]. }
  destruct E as [E1 E2]. unfold match_slot. rewrite E1, E2. simpl.
  destruct (match_value _ _ && match_negvals _ _); simpl; [|reflexivity].
  apply IH. intros m w Hin. apply (H m w). simpl. auto.
Qed.

Lemma holds_intro d n : ~ is_empty (slot_value d n) -> holds d n (slot_value d n).
Proof.
  unfold slot_value. destruct (dget (cslots d) n) as [[w|]|] eqn:E; intros H.
  - exists w. auto.
  - exfalso. apply H. constructor.
  - exfalso. apply H. constructor.
Qed.

Lemma slot_value_key d n : slot_value d n <> VNone -> In n (dkeys (cslots d)).
Proof.
  unfold slot_value. destruct (dget (cslots d) n) as [s|] eqn:E.
  - intros _. apply dget_Some_key in E. exact E.
  - congruence.
Qed.

Lemma required_iff d n v : wf_chunk d -> fact d -> goodv v -> ~ asks_nothing v ->
  (val_eqb v (slot_value d n) = true <-> has_required d n v).
Proof.
  intros Wd Fd Gv Ha. pose proof (slot_value_goodv n Wd Fd) as Gm.
  destruct (is_empty_dec v) as [He|Hne].
  - assert (Ev : v = VStr "None").
    { inversion He as [E|E|E]; try reflexivity; exfalso; apply Ha; rewrite <- E; constructor. }
    subst v. split.
    + intros H. right.
      assert (Hn : slot_value d n <> VNone) by (intros E; rewrite E in H; discriminate).
      split; [reflexivity|]. split; [apply slot_value_key; exact Hn|]. split; [exact Hn|].
      apply val_eqb_same_content in H; auto. destruct H as [[_ H]|(H & _)]; [exact H|contradiction].
    + intros [(u & Hu & Hs)|(_ & _ & Hn & Hm)].
      * exfalso. apply (holds_nonempty Hu). apply (same_value_not_empty Hs). exact He.
      * inversion Hm as [E|E|E]; try reflexivity. congruence.
  - split.
    + intros H. left. exists (slot_value d n). apply val_eqb_same_content in H; auto.
      destruct H as [[H _]|(_ & Hn & Hs)]; [contradiction|]. split; [apply holds_intro; exact Hn|exact Hs].
    + intros [(u & Hu & Hs)|(E & _)]; [|subst; exfalso; apply Hne; constructor].
      rewrite (holds_slot_value Hu) in *. apply same_content_val_eqb; auto.
      * intros ->. apply Hne. constructor.
      * intros ->. apply (holds_nonempty Hu). constructor.
      * right. split; [exact Hne|]. split; [apply (holds_nonempty Hu)|exact Hs].
Qed.

(** What a constant pattern asks of a chunk, slot by slot. *)
Definition slots_agree (c d : chunk) : Prop :=
  forall n w, In (n, Some w) (cslots c) ->
    (~ asks_nothing (vvals w) -> has_required d n (vvals w)) /\
    (forall v, In v (vnegvals w) -> ~ has_forbidden d n v).

Lemma match_slots_const b c d :
  wf_chunk c -> const_pattern c -> no_variables c -> wf_chunk d -> fact d ->
  exists r, match_slots b (cslots c) d = (b, r) /\ (r = true <-> slots_agree c d).
Proof.
  intros Wc Cc Nc Wd Fd. rewrite match_slots_novar by exact Nc.
  eexists. split; [reflexivity|]. rewrite forallb_forall. unfold slots_agree.
  pose proof (pattern_good Wc Cc) as Gp.
  assert (Gd : forall n, goodv (slot_value d n)) by (intros; apply slot_value_goodv; assumption).
  split.
  - intros H n w Hin. specialize (H (n, Some w) Hin). simpl in H. apply andb_true_iff in H.
    destruct H as [H1 H2]. destruct (Gp n w Hin) as [Gw Gn]. split.
    + intros Ha. apply required_iff; auto. apply (proj1 (match_value_spec _ _) H1 Ha).
    + apply match_negvals_spec; auto.
  - intros H [n [w|]] Hin; simpl; [|reflexivity]. destruct (H n w Hin) as [H1 H2].
    destruct (Gp n w Hin) as [Gw Gn]. apply andb_true_iff. split.
    + apply match_value_spec. intros Ha. apply required_iff; auto.
    + apply match_negvals_spec; auto.
Qed.

Lemma chunk_eqb_fact b c d :
  wf_chunk c -> const_pattern c -> no_variables c -> wf_chunk d -> fact d ->
  chunk_eqb b c d = true -> fact c.
Proof.
  intros Wc Cc Nc Wd Fd E. apply chunk_eqb_sig in E.
  rewrite (sig_eq_iff b c nobind d (proj1 (wf_chunk_inv Wc)) (proj1 (wf_chunk_inv Wd))) in E.
  constructor. intros n w Hin. specialize (E n). unfold blk at 1, blk_with in E.
  rewrite (dget_NoDup _ _ _ (wf_NoDup Wc) Hin) in E.
  destruct (eq_slot b n w Wd Fd E) as (_ & A2 & A3 & _).
  destruct (Nc n w Hin) as [E1 _]. destruct (Cc n w Hin) as [C1 _]. auto.
Qed.

Theorem const_le_spec b c d :
  wf_chunk c -> const_pattern c -> no_variables c -> wf_chunk d -> fact d ->
  fst (chunk_le b c d) = b /\
  (snd (chunk_le b c d) = true <-> (fact c /\ same_fact c d) \/ slots_agree c d).
Proof.
  intros Wc Cc Nc Wd Fd. unfold chunk_le, match_chunk.
  destruct (chunk_eqb b c d) eqn:E; simpl.
  - split; [reflexivity|]. split; [|reflexivity]. intros _. left.
    assert (Fc : fact c) by (apply (chunk_eqb_fact b c d); assumption). split; [exact Fc|].
    apply fact_eq_extensional; auto. rewrite chunk_eqb_novar in E by exact Nc. exact E.
  - destruct (match_slots_const b c d Wc Cc Nc Wd Fd) as (r & Er & Hr). rewrite Er. simpl.
    split; [reflexivity|]. rewrite Hr. split; [auto|]. intros [[Fc Hs]|H]; [|exact H]. exfalso.
    apply fact_eq_extensional in Hs; auto. rewrite chunk_eqb_novar in E by exact Nc. congruence.
Qed.

(** ** The order on proper facts (C04) *)

Lemma fact_no_variables c : fact c -> no_variables c.
Proof. intros F n w Hin. destruct (fact_inv F n w Hin) as (E1 & E2 & E3 & _). auto. Qed.

Lemma fact_const_pattern c : fact c -> const_pattern c.
Proof.
  intros F n w Hin. destruct (fact_inv F n w Hin) as (E1 & E2 & E3 & C). split; [exact C|].
  rewrite E2. intros v [].
Qed.

Lemma fact_le_subsumes b c d :
  wf_chunk c -> proper_fact c -> wf_chunk d -> fact d ->
  (snd (chunk_le b c d) = true <-> subsumes c d).
Proof.
  intros Wc [Fc Pc] Wd Fd.
  destruct (const_le_spec b c d Wc (fact_const_pattern c Fc) (fact_no_variables c Fc) Wd Fd) as [_ H].
  rewrite H. clear H. split.
  - intros [[_ Hs]|Ha].
    + apply same_fact_inv in Hs. exact (proj1 Hs).
    + intros n v Hv. destruct (holds_In Hv) as (w & Hin & <-). destruct (Pc n w Hin) as [P1 P2].
      destruct (Ha n w Hin) as [H1 _]. destruct (H1 P2) as [H|(E & _)]; [exact H|].
      exfalso. apply P1. rewrite E. constructor.
  - intros Hs. right. intros n w Hin. destruct (Pc n w Hin) as [P1 P2].
    destruct (fact_inv Fc n w Hin) as (_ & E2 & _). split.
    + intros _. left. apply Hs. exists w. split; [apply dget_NoDup; [apply wf_NoDup; exact Wc|exact Hin]|auto].
    + rewrite E2. intros v [].
Qed.

Lemma subsumes_refl c : subsumes c c.
Proof. intros n v Hv. exists v. split; [exact Hv|]. apply same_value_refl. apply (holds_nonempty Hv). Qed.

Lemma subsumes_trans c d e : subsumes c d -> subsumes d e -> subsumes c e.
Proof.
  intros H1 H2 n v Hv. destruct (H1 n v Hv) as (u & Hu & S1). destruct (H2 n u Hu) as (x & Hx & S2).
  exists x. split; [exact Hx|]. apply same_value_trans with u; assumption.
Qed.

Lemma holds_fun c n v w : holds c n v -> holds c n w -> v = w.
Proof. intros H1 H2. rewrite <- (holds_slot_value H1). apply (holds_slot_value H2). Qed.

Lemma subsumes_antisym c d : subsumes c d -> subsumes d c -> same_fact c d.
Proof.
  intros H1 H2. constructor; [exact H1|]. intros n w Hw. destruct (H2 n w Hw) as (v & Hv & S).
  exists v. split; [exact Hv|]. apply same_value_sym. exact S.
Qed.

(** ** Equal patterns are interchangeable (C05) *)

(** Slots of the two patterns that ask for the same. *)
Definition vv_equiv (w w' : vv) : Prop :=
  var_chars (vvar w) = var_chars (vvar w') /\
  vnegvars w = vnegvars w' /\
  ((is_empty (vvals w) /\ is_empty (vvals w')) \/
   (~ is_empty (vvals w) /\ ~ is_empty (vvals w') /\ hash_value (vvals w) = hash_value (vvals w'))) /\
  hdedup (map hash_value (vnegvals w)) = hdedup (map hash_value (vnegvals w')).

Lemma unbound_nobind kd n xs : unbound (bhash nobind) kd n xs = map (fun x => (n, (kd, HStr x))) xs.
Proof. unfold unbound, bhash. simpl. induction xs as [|x xs IH]; simpl; congruence. Qed.

Lemma bound_nobind xs : bound (bhash nobind) xs = [].
Proof. unfold bound, bhash. simpl. induction xs as [|x xs IH]; simpl; auto. Qed.

Lemma hdedup_one (h : hval) : hdedup [h] = [h].
Proof. reflexivity. Qed.

Definition kind_of (e : entry) : hkind := fst (snd e).

Lemma filter_kind_same (f : hkind -> bool) (kd : hkind) n (l : list hval) :
  filter (fun e : entry => f (kind_of e)) (map (fun x => (n, (kd, x))) l) =
  if f kd then map (fun x => (n, (kd, x))) l else [].
Proof.
  induction l as [|x l IH]; simpl; [destruct (f kd); reflexivity|]. unfold kind_of at 1. simpl.
  rewrite IH. destruct (f kd); reflexivity.
Qed.

Lemma map_pair_inj {A} (g : A -> hval) (n : string) (kd : hkind) (l m : list A) :
  (forall x y, g x = g y -> x = y) ->
  map (fun x => (n, (kd, g x))) l = map (fun x => (n, (kd, g x))) m -> l = m.
Proof.
  intros Hg. revert m. induction l as [|x l IH]; intros [|y m]; simpl; intros H; try discriminate; [reflexivity|].
  injection H as E H. apply Hg in E. subst. f_equal. apply IH. exact H.
Qed.

Lemma entries_equiv n w w' :
  slot_entries hash_value (bhash nobind) n w = slot_entries hash_value (bhash nobind) n w' ->
  vv_equiv w w'.
Proof.
  unfold slot_entries. rewrite !unbound_nobind, !bound_nobind. simpl.
  set (V := if emptyish (vvals w) then [] else [hash_value (vvals w)]).
  set (V' := if emptyish (vvals w') then [] else [hash_value (vvals w')]).
  assert (EV : hdedup V = V) by (unfold V; destruct (emptyish (vvals w)); reflexivity).
  assert (EV' : hdedup V' = V') by (unfold V'; destruct (emptyish (vvals w')); reflexivity).
  rewrite EV, EV'. intros E.
  assert (P : forall f : hkind -> bool,
    filter (fun e : entry => f (kind_of e)) (map (fun x => (n, (KVariables, HStr x))) (var_chars (vvar w)) ++ map (fun x => (n, (KNegvariables, HStr x))) (vnegvars w) ++ map (fun x => (n, (KValues, x))) V ++ map (fun x => (n, (KNegvalues, x))) (hdedup (map hash_value (vnegvals w)))) =
    filter (fun e : entry => f (kind_of e)) (map (fun x => (n, (KVariables, HStr x))) (var_chars (vvar w')) ++ map (fun x => (n, (KNegvariables, HStr x))) (vnegvars w') ++ map (fun x => (n, (KValues, x))) V' ++ map (fun x => (n, (KNegvalues, x))) (hdedup (map hash_value (vnegvals w'))))).
  { intros f. f_equal. exact E. }
  assert (M : forall (kd : hkind) (xs : list string), map (fun x => (n, (kd, HStr x))) xs = map (fun x => (n, (kd, x))) (map HStr xs)).
  { intros. rewrite map_map. reflexivity. }
  assert (P' : forall f : hkind -> bool, _) by (intros f; specialize (P f); rewrite !M, !filter_app, !filter_kind_same in P; exact P).
  clear M E P. rename P' into P.
  split; [|split; [|split]].
  - specialize (P (fun k => hkind_eqb k KVariables)). simpl in P.
    rewrite !app_nil_r in P. apply (map_pair_inj (fun x => x)) in P; [|auto].
    apply (map_pair_inj HStr "" KValues); [congruence|]. rewrite <- !(map_map HStr (fun x => ("", (KValues, x)))).
    rewrite P. reflexivity.
  - specialize (P (fun k => hkind_eqb k KNegvariables)). simpl in P.
    rewrite !app_nil_r in P. apply (map_pair_inj (fun x => x)) in P; [|auto].
    apply (map_pair_inj HStr "" KValues); [congruence|]. rewrite <- !(map_map HStr (fun x => ("", (KValues, x)))).
    rewrite P. reflexivity.
  - specialize (P (fun k => hkind_eqb k KValues)). simpl in P.
    rewrite !app_nil_r in P. apply (map_pair_inj (fun x => x)) in P; [|auto]. unfold V, V' in P.
    destruct (emptyish (vvals w)) eqn:E1, (emptyish (vvals w')) eqn:E2; try discriminate.
    + left. rewrite <- !emptyish_spec. auto.
    + right. rewrite <- !emptyish_false. injection P as P. auto.
  - specialize (P (fun k => hkind_eqb k KNegvalues)). simpl in P.
    apply (map_pair_inj (fun x => x)) in P; [|auto]. exact P.
Qed.

Lemma hdedup_from_filter seen l :
  hdedup_from seen l = filter (fun x => negb (existsb (hval_eqb x) seen)) (hdedup l).
Proof.
  unfold hdedup. 
  enough (G : forall l s1 s2, (forall x, existsb (hval_eqb x) s1 = true -> existsb (hval_eqb x) s2 = true) ->
    hdedup_from s2 l = filter (fun x => negb (existsb (hval_eqb x) s2)) (hdedup_from s1 l)).
  { apply G. simpl. discriminate. }
  clear. induction l as [|a l IH]; intros s1 s2 H; [reflexivity|]. simpl.
  destruct (existsb (hval_eqb a) s1) eqn:E1.
  - rewrite (H a E1). apply IH. exact H.
  - simpl. destruct (existsb (hval_eqb a) s2) eqn:E2; simpl.
    + apply IH. simpl. intros x Hx. apply orb_true_iff in Hx. destruct Hx as [Hx|Hx]; [|auto].
      apply hval_eqb_eq in Hx. subst x. exact E2.
    + f_equal. rewrite (IH (a :: s1) (a :: s2)).
      * apply filter_ext_in. intros x Hx. simpl. apply hdedup_from_In in Hx. destruct Hx as [_ Hx].
        assert (hval_eqb x a = false); [|rewrite H0; reflexivity].
        apply hval_eqb_neq. intros ->. apply Hx. simpl. auto.
      * simpl. intros x Hx. apply orb_true_iff in Hx. apply orb_true_iff. destruct Hx; auto.
Qed.

Lemma hdedup_app l m : hdedup (l ++ m) = (hdedup l ++ filter (fun x => negb (existsb (hval_eqb x) l)) (hdedup m))%list.
Proof.
  unfold hdedup at 1.
  enough (G : forall seen, hdedup_from seen (l ++ m) = (hdedup_from seen l ++ filter (fun x => negb (existsb (hval_eqb x) (l ++ seen))) (hdedup m))%list).
  { rewrite G. rewrite app_nil_r. reflexivity. }
  induction l as [|a l IH]; intros seen.
  - simpl. apply hdedup_from_filter.
  - cbn [app hdedup_from]. destruct (existsb (hval_eqb a) seen) eqn:E.
    + rewrite IH. f_equal. apply filter_ext. intros x. f_equal. simpl.
      destruct (hval_eqb x a) eqn:Ex; [|reflexivity]. simpl. apply hval_eqb_eq in Ex. subst x.
      rewrite existsb_app, E, orb_true_r. reflexivity.
    + cbn [app]. f_equal. rewrite IH. f_equal. apply filter_ext. intros x. f_equal.
      simpl. rewrite !existsb_app. simpl. destruct (hval_eqb x a), (existsb (hval_eqb x) l); reflexivity.
Qed.

Lemma equiv_entries b n w w' : vv_equiv w w' ->
  slot_entries hash_value b n w = slot_entries hash_value b n w'.
Proof.
  intros (E1 & E2 & E3 & E4). unfold slot_entries. rewrite E1, E2. f_equal. f_equal. f_equal.
  - destruct E3 as [[H1 H2]|(H1 & H2 & H3)].
    + apply emptyish_spec in H1, H2. rewrite H1, H2. reflexivity.
    + apply emptyish_false in H1, H2. rewrite H1, H2, H3. reflexivity.
  - rewrite !hdedup_app, E4. reflexivity.
Qed.

Lemma var_chars_truthy o o' : var_chars o = var_chars o' -> var_truthy o = var_truthy o'.
Proof.
  destruct o as [x|], o' as [y|]; simpl; intros H.
  - assert (E : x = y).
    { revert y H. induction x as [|a x IH]; intros [|b y] H; simpl in H; try discriminate; [reflexivity|].
      injection H as -> H. f_equal. apply IH. exact H. }
    subst. reflexivity.
  - destruct x; [reflexivity|discriminate].
  - destruct y; [reflexivity|discriminate].
  - reflexivity.
Qed.

Lemma val_eqb_hash_cong v v' m : hash_value v = hash_value v' -> ~ is_empty v -> ~ is_empty v' ->
  val_eqb v m = val_eqb v' m.
Proof.
  intros Eh Hv Hv'. destruct v as [| |s|c]; try (exfalso; apply Hv; constructor);
    destruct v' as [| |s'|c']; try (exfalso; apply Hv'; constructor); try discriminate.
  - injection Eh as ->. reflexivity.
  - destruct m; try reflexivity. cbn [val_eqb]. rewrite Eh. reflexivity.
Qed.

Lemma neg_clash_hash v v' m : hash_value v = hash_value v' -> neg_clash v m = neg_clash v' m.
Proof.
  intros Eh. unfold neg_clash.
  destruct (is_empty_dec v) as [H|H], (is_empty_dec v') as [H'|H'].
  - inversion H; inversion H'; subst; simpl in Eh; try discriminate; try reflexivity;
      destruct m as [| |s|]; try reflexivity; simpl; destruct (String.eqb s "None"); reflexivity.
  - exfalso. destruct v' as [| |s|c]; try (apply H'; constructor); inversion H; subst; simpl in Eh; try discriminate.
    injection Eh as <-. apply H'. constructor.
  - exfalso. destruct v as [| |s|c]; try (apply H; constructor); inversion H'; subst; simpl in Eh; try discriminate.
    injection Eh as ->. apply H. constructor.
  - rewrite (val_eqb_hash_cong v v' m Eh H H').
    apply emptyish_false in H, H'. rewrite H, H'. reflexivity.
Qed.

Lemma match_negvals_hash l l' m :
  hdedup (map hash_value l) = hdedup (map hash_value l') -> match_negvals l m = match_negvals l' m.
Proof.
  intros E. unfold match_negvals. f_equal.
  assert (Sub : forall l l', hdedup (map hash_value l) = hdedup (map hash_value l') ->
    existsb (fun nv => neg_clash nv m) l = true -> existsb (fun nv => neg_clash nv m) l' = true).
  { clear. intros l l' E H. apply existsb_exists in H. destruct H as (v & Hin & Hc).
    assert (Hi : In (hash_value v) (map hash_value l')).
    { apply hdedup_In. rewrite <- E. apply hdedup_In. apply in_map. exact Hin. }
    apply in_map_iff in Hi. destruct Hi as (v' & Eh & Hin'). apply existsb_exists. exists v'.
    split; [exact Hin'|]. rewrite (neg_clash_hash v' v m Eh). exact Hc. }
  destruct (existsb (fun nv => neg_clash nv m) l) eqn:E1; symmetry.
  - apply (Sub l l' E E1).
  - destruct (existsb (fun nv => neg_clash nv m) l') eqn:E2; [|reflexivity].
    rewrite (Sub l' l (eq_sym E) E2) in E1. discriminate.
Qed.

Definition explicit_vv (w : vv) : Prop :=
  vvals w = VNone \/ vvals w = VEmpty \/ (~ asks_nothing (vvals w) /\ ~ is_empty (vvals w)).

Lemma match_slot_equiv b w w' m : vv_equiv w w' -> explicit_vv w -> explicit_vv w' ->
  match_slot b w m = match_slot b w' m.
Proof.
  intros (E1 & E2 & E3 & E4) X X'. unfold match_slot.
  assert (Ev : match_var b (vvar w) m = match_var b (vvar w') m).
  { unfold match_var. rewrite (var_chars_truthy _ _ E1). reflexivity. }
  rewrite Ev, E2. destruct (match_var b (vvar w') m) as [b1 ok1]. destruct ok1; [|reflexivity].
  destruct (match_negvars b1 (vnegvars w') m) as [b2 ok2]. destruct ok2; [|reflexivity].
  rewrite (match_negvals_hash _ _ m E4). f_equal. f_equal.
  destruct E3 as [[H1 H2]|(H1 & H2 & H3)].
  - assert (T : forall u, explicit_vv u -> is_empty (vvals u) -> match_value (vvals u) m = true).
    { intros u [->|[->|[_ H]]] He; [reflexivity|reflexivity|contradiction]. }
    rewrite !T; auto.
  - assert (T : forall u, explicit_vv u -> ~ is_empty (vvals u) -> match_value (vvals u) m = val_eqb (vvals u) m).
    { intros u [E|[E|[Ha _]]] He; [rewrite E in He; exfalso; apply He; constructor|rewrite E in He; exfalso; apply He; constructor|].
      unfold match_value. assert (Ht : truthy (vvals u) = true) by (apply truthy_spec; tauto). rewrite Ht.
      destruct (vvals u); try reflexivity. exfalso. apply He. constructor. }
    rewrite !T by assumption. apply val_eqb_hash_cong; assumption.
Qed.

Lemma match_slots_app b l m d :
  match_slots b (l ++ m) d =
  let (b1, ok) := match_slots b l d in if ok then match_slots b1 m d else (b1, false).
Proof.
  revert b. induction l as [|[n s] l IH]; intros b; [reflexivity|]. simpl.
  destruct (match_slot b (splitting s) (slot_value d n)) as [b1 ok]. destruct ok; [apply IH|reflexivity].
Qed.

(** Slots without content can be dropped from an explicit pattern. *)
Lemma match_slot_idle b s m :
  kept_nonempty s = false -> (forall w, s = Some w -> explicit_vv w) ->
  match_slot b (splitting s) m = (b, true).
Proof.
  intros K X. destruct s as [w|]; [|reflexivity]. simpl in *.
  apply orb_false_iff in K. destruct K as [K K4]. apply orb_false_iff in K. destruct K as [K K3].
  apply orb_false_iff in K. destruct K as [K1 K2]. apply negb_false_iff in K1. apply emptyish_spec in K1.
  unfold match_slot, match_var. destruct (var_truthy (vvar w)); [discriminate|].
  destruct (vnegvars w); [|discriminate]. simpl. destruct (vnegvals w); [|discriminate]. simpl.
  rewrite andb_true_r. destruct (X w eq_refl) as [->|[->|[_ H]]]; [reflexivity|reflexivity|contradiction].
Qed.

Lemma match_slots_kept b slots d :
  (forall n w, In (n, Some w) slots -> explicit_vv w) ->
  match_slots b slots d = match_slots b (filter (fun p => kept_nonempty (snd p)) slots) d.
Proof.
  revert b. induction slots as [|[n s] slots IH]; intros b X; [reflexivity|].
  assert (X' : forall m w, In (m, Some w) slots -> explicit_vv w) by (intros m w H; apply (X m); simpl; auto).
  cbn [filter snd]. destruct (kept_nonempty s) eqn:K; simpl.
  - destruct (match_slot b (splitting s) (slot_value d n)) as [b1 ok]. destruct ok; [apply IH; exact X'|reflexivity].
  - rewrite match_slot_idle; [apply IH; exact X'|exact K|]. intros w ->. apply (X n w). simpl. auto.
Qed.

Lemma kept_entries_nonempty n w : kept_nonempty (Some w) = true ->
  slot_entries hash_value (bhash nobind) n w <> [].
Proof.
  intros K E. assert (V : vv_equiv w (MkVV VNone None [] [])).
  { apply entries_equiv with n. rewrite E. reflexivity. }
  destruct V as (V1 & V2 & V3 & V4). simpl in *.
  assert (K1 : emptyish (vvals w) = true).
  { apply emptyish_spec. destruct V3 as [[H _]|(_ & H & _)]; [exact H|exfalso; apply H; constructor]. }
  rewrite K1, V2 in K. apply hdedup_nil in V4. destruct (vnegvals w); [|discriminate].
  destruct (vvar w) as [[|a x]|]; simpl in *; discriminate.
Qed.

(** Two patterns with the same signature have, after dropping empty slots, the same slots,
    pairwise equivalent. *)
Lemma sig_eq_kept l m :
  increasing (dkeys l) -> increasing (dkeys m) ->
  (forall p, In p l -> kept_nonempty (snd p) = true) ->
  (forall p, In p m -> kept_nonempty (snd p) = true) ->
  (forall n, blk_with hash_value (bhash nobind) l n = blk_with hash_value (bhash nobind) m n) ->
  Forall2 (fun p q => fst p = fst q /\ exists w w', snd p = Some w /\ snd q = Some w' /\ vv_equiv w w') l m.
Proof.
  revert m. induction l as [|[n s] l IH]; intros m Il Im Kl Km E.
  - destruct m as [|[n s] m]; [constructor|]. exfalso.
    specialize (E n). unfold blk_with in E. simpl in E. rewrite String.eqb_refl in E.
    specialize (Km (n, s)). destruct s as [w|]; [|discriminate Km; simpl; auto].
    apply (kept_entries_nonempty n w); [apply Km; simpl; auto|auto].
  - destruct m as [|[n' s'] m].
    { exfalso. specialize (E n). unfold blk_with in E. simpl in E. rewrite String.eqb_refl in E.
      specialize (Kl (n, s)). destruct s as [w|]; [|discriminate Kl; simpl; auto].
      apply (kept_entries_nonempty n w); [apply Kl; simpl; auto|auto]. }
    simpl in Il, Im. destruct Il as [Il1 Il2], Im as [Im1 Im2]. rewrite Forall_forall in Il1, Im1.
    assert (Ks : exists w, s = Some w /\ kept_nonempty (Some w) = true).
    { specialize (Kl (n, s)). destruct s as [w|]; [exists w; split; [reflexivity|apply Kl; simpl; auto]|discriminate Kl; simpl; auto]. }
    assert (Ks' : exists w, s' = Some w /\ kept_nonempty (Some w) = true).
    { specialize (Km (n', s')). destruct s' as [w|]; [exists w; split; [reflexivity|apply Km; simpl; auto]|discriminate Km; simpl; auto]. }
    destruct Ks as (w & -> & Kw), Ks' as (w' & -> & Kw').
    assert (En : n = n').
    { destruct (slot_trichotomy n n') as [Hlt|[Heq|Hlt]]; [exfalso|exact Heq|exfalso].
      - specialize (E n). unfold blk_with in E. simpl in E. rewrite String.eqb_refl in E.
        destruct (String.eqb_spec n' n) as [->|_]; [apply (slot_lt_irrefl Hlt)|].
        replace (dget m n) with (@None slotval) in E; [apply (kept_entries_nonempty n w Kw E)|].
        symmetry. apply dget_None. intros Hin. apply (slot_lt_irrefl (a:=n)). apply slot_lt_trans with n'; auto.
      - specialize (E n'). unfold blk_with in E. simpl in E. rewrite String.eqb_refl in E.
        destruct (String.eqb_spec n n') as [->|_]; [apply (slot_lt_irrefl Hlt)|].
        replace (dget l n') with (@None slotval) in E; [apply (kept_entries_nonempty n' w' Kw' (eq_sym E))|].
        symmetry. apply dget_None. intros Hin. apply (slot_lt_irrefl (a:=n')). apply slot_lt_trans with n; auto. }
    subst n'. constructor.
    + split; [reflexivity|]. exists w, w'. split; [reflexivity|]. split; [reflexivity|].
      apply entries_equiv with n. specialize (E n). unfold blk_with in E. simpl in E.
      rewrite String.eqb_refl in E. exact E.
    + apply IH; auto.
      * intros p Hp. apply Kl. simpl. auto.
      * intros p Hp. apply Km. simpl. auto.
      * intros x. specialize (E x). unfold blk_with in *. simpl in E.
        destruct (String.eqb_spec n x) as [->|Hne]; [|exact E].
        replace (dget l x) with (@None slotval);
          [replace (dget m x) with (@None slotval); [reflexivity|]|]; symmetry;
          apply dget_None; intros Hin; apply (slot_lt_irrefl (a:=x)); auto.
Qed.

Lemma increasing_filter (f : string * slotval -> bool) l :
  increasing (dkeys l) -> increasing (dkeys (filter f l)).
Proof.
  induction l as [|p l IH]; simpl; [auto|]. intros [H1 H2].
  destruct (f p); [|apply IH; exact H2]. simpl. split; [|apply IH; exact H2].
  rewrite Forall_forall in *. intros x Hx. apply H1. unfold dkeys in *. apply in_map_iff in Hx.
  destruct Hx as (q & <- & Hq). apply filter_In in Hq. apply in_map. tauto.
Qed.

Lemma blk_with_kept h b l n : NoDup (dkeys l) ->
  blk_with h b (filter (fun p => kept_nonempty (snd p)) l) n = blk_with h b l n.
Proof.
  intros Hnd. unfold blk_with. induction l as [|[k s] l IH]; [reflexivity|].
  inversion Hnd as [|? ? Hni Hnd']; subst. simpl. destruct (kept_nonempty s) eqn:K; simpl.
  - destruct (String.eqb k n); [reflexivity|apply IH; exact Hnd'].
  - destruct (String.eqb_spec k n) as [->|Hne]; [|apply IH; exact Hnd'].
    rewrite IH by exact Hnd'. replace (dget l n) with (@None slotval); [|symmetry; apply dget_None; exact Hni].
    destruct s as [w|]; [|reflexivity]. symmetry. apply kept_false_entries. exact K.
Qed.

Lemma Forall2_dget l m n :
  Forall2 (fun p q : string * slotval => fst p = fst q /\ exists w w', snd p = Some w /\ snd q = Some w' /\ vv_equiv w w') l m ->
  forall b, blk_with hash_value b l n = blk_with hash_value b m n.
Proof.
  intros F b. unfold blk_with. induction F as [|[k s] [k' s'] l m (E & w & w' & E1 & E2 & V) F IH]; [reflexivity|].
  simpl in *. subst. destruct (String.eqb_spec k' n) as [->|]; [|exact IH]. apply equiv_entries. exact V.
Qed.

Lemma Forall2_match l m d :
  Forall2 (fun p q : string * slotval => fst p = fst q /\ exists w w', snd p = Some w /\ snd q = Some w' /\ vv_equiv w w') l m ->
  (forall n w, In (n, Some w) l -> explicit_vv w) -> (forall n w, In (n, Some w) m -> explicit_vv w) ->
  forall b, match_slots b l d = match_slots b m d.
Proof.
  intros F. induction F as [|[k s] [k' s'] l m (E & w & w' & E1 & E2 & V) F IH]; intros X X' b; [reflexivity|].
  simpl in *. subst. simpl. rewrite (match_slot_equiv b w w' _ V).
  - destruct (match_slot b w' (slot_value d k')) as [b1 ok]. destruct ok; [|reflexivity].
    apply IH; [intros n u H; apply (X n); auto|intros n u H; apply (X' n); auto].
  - apply (X k'). auto.
  - apply (X' k'). auto.
Qed.

Theorem equal_patterns_match_alike c c' :
  wf_chunk c -> wf_chunk c' -> explicit_pattern c -> explicit_pattern c' ->
  chunk_eqb nobind c c' = true ->
  forall b d, chunk_le b c d = chunk_le b c' d.
Proof.
  intros Wc Wc' X X' E b d. apply chunk_eqb_sig in E.
  destruct (wf_chunk_inv Wc) as [Ic _]. destruct (wf_chunk_inv Wc') as [Ic' _].
  pose proof (proj1 (sig_eq_iff nobind c nobind c' Ic Ic') E) as Eb. unfold blk in Eb.
  set (f := fun p : string * slotval => kept_nonempty (snd p)).
  assert (F : Forall2 (fun p q : string * slotval => fst p = fst q /\ exists w w', snd p = Some w /\ snd q = Some w' /\ vv_equiv w w') (filter f (cslots c)) (filter f (cslots c'))).
  { apply sig_eq_kept; try (apply increasing_filter; assumption).
    - intros p Hp. apply filter_In in Hp. apply Hp.
    - intros p Hp. apply filter_In in Hp. apply Hp.
    - intros n. unfold f. rewrite !blk_with_kept by (apply increasing_NoDup; assumption). apply Eb. }
  assert (Es : sig b c = sig b c').
  { apply sig_eq_iff; [exact Ic|exact Ic'|]. intros n. unfold blk.
    rewrite <- (blk_with_kept hash_value (bhash b) (cslots c)) by (apply increasing_NoDup; assumption).
    rewrite <- (blk_with_kept hash_value (bhash b) (cslots c')) by (apply increasing_NoDup; assumption).
    apply Forall2_dget. exact F. }
  assert (Em : match_slots b (cslots c) d = match_slots b (cslots c') d).
  { rewrite (match_slots_kept b (cslots c)) by exact X. rewrite (match_slots_kept b (cslots c')) by exact X'.
    apply Forall2_match; [exact F| |].
    - intros n w H. apply filter_In in H. apply (X n). apply H.
    - intros n w H. apply filter_In in H. apply (X' n). apply H. }
  unfold chunk_le, match_chunk, chunk_eqb. rewrite Es, Em. reflexivity.
Qed.

(** [<] is [<=] without [==]. *)
Theorem const_lt_spec b c d :
  wf_chunk c -> const_pattern c -> no_variables c -> wf_chunk d -> fact d ->
  fst (chunk_lt b c d) = b /\
  (snd (chunk_lt b c d) = true <-> ~ (fact c /\ same_fact c d) /\ slots_agree c d).
Proof.
  intros Wc Cc Nc Wd Fd. unfold chunk_lt, match_chunk.
  destruct (chunk_eqb b c d) eqn:E; simpl.
  - split; [reflexivity|]. split; [discriminate|]. intros [H _]. exfalso. apply H.
    assert (Fc : fact c) by (apply (chunk_eqb_fact b c d); assumption). split; [exact Fc|].
    apply fact_eq_extensional; auto. rewrite chunk_eqb_novar in E by exact Nc. exact E.
  - destruct (match_slots_const b c d Wc Cc Nc Wd Fd) as (r & Er & Hr). rewrite Er. simpl.
    split; [reflexivity|]. rewrite Hr. split; [|tauto]. intros H. split; [|exact H]. intros [Fc Hs].
    apply fact_eq_extensional in Hs; auto. rewrite chunk_eqb_novar in E by exact Nc. congruence.
Qed.

(** Replacing slot values (required or forbidden, in any number of slots) by equal chunks
    gives an equal chunk (C02). *)
Definition eq_value (v w : value) : Prop :=
  v = w \/ exists c d, v = VChunk c /\ w = VChunk d /\ chunk_eqb nobind c d = true.

Definition eq_slots (s t : string * slotval) : Prop :=
  fst s = fst t /\
  match snd s, snd t with
  | None, None => True
  | Some w, Some w' =>
      eq_value (vvals w) (vvals w') /\ vvar w = vvar w' /\
      Forall2 eq_value (vnegvals w) (vnegvals w') /\ vnegvars w = vnegvars w'
  | _, _ => False
  end.

Lemma eq_value_hash v w : eq_value v w -> hash_value v = hash_value w /\ emptyish v = emptyish w.
Proof.
  intros [->|(c & d & -> & -> & E)]; [auto|]. split; [|reflexivity].
  apply chunk_eqb_sig in E. rewrite !hash_chunk. congruence.
Qed.

Theorem eqb_congruence b c d :
  Forall2 eq_slots (cslots c) (cslots d) -> sig b c = sig b d.
Proof.
  unfold sig, sig_with. intros F. induction F as [|[n s] [m t] l r [E H] F IH]; [reflexivity|].
  simpl in *. subst m. f_equal; [|exact IH]. destruct s as [w|], t as [w'|]; try contradiction; [|reflexivity].
  destruct H as (H1 & H2 & H3 & H4). destruct (eq_value_hash _ _ H1) as [E1 E2].
  assert (E3 : map hash_value (vnegvals w) = map hash_value (vnegvals w')).
  { induction H3 as [|x y xs ys Hxy _ IH3]; [reflexivity|]. simpl. destruct (eq_value_hash _ _ Hxy) as [-> _].
    f_equal. exact IH3. }
  assert (E4 : match vnegvals w with [] => false | _ => true end = match vnegvals w' with [] => false | _ => true end).
  { destruct H3; reflexivity. }
  unfold slot_entries, kept_nonempty. rewrite E1, E2, E3, E4, H2, H4. reflexivity.
Qed.

Theorem le_partial_order :
  (forall b c d, wf_chunk c -> proper_fact c -> wf_chunk d -> fact d ->
     (snd (chunk_le b c d) = true <-> subsumes c d)) /\
  (forall b c, wf_chunk c -> proper_fact c -> snd (chunk_le b c c) = true) /\
  (forall b c d e, wf_chunk c -> proper_fact c -> wf_chunk d -> proper_fact d -> wf_chunk e -> fact e ->
     snd (chunk_le b c d) = true -> snd (chunk_le b d e) = true -> snd (chunk_le b c e) = true) /\
  (forall b c d, wf_chunk c -> proper_fact c -> wf_chunk d -> proper_fact d ->
     snd (chunk_le b c d) = true -> snd (chunk_le b d c) = true -> chunk_eqb nobind c d = true).
Proof.
  split; [exact fact_le_subsumes|]. split; [|split].
  - intros b c W P. apply fact_le_subsumes; auto; [apply P|]. apply subsumes_refl.
  - intros b c d e Wc Pc Wd Pd We Fe H1 H2. apply fact_le_subsumes; auto.
    apply fact_le_subsumes in H1; auto; [|apply Pd]. apply fact_le_subsumes in H2; auto.
    apply subsumes_trans with d; assumption.
  - intros b c d Wc Pc Wd Pd H1 H2. apply fact_le_subsumes in H1; auto; [|apply Pd].
    apply fact_le_subsumes in H2; auto; [|apply Pc]. apply fact_eq_extensional; auto; [apply Pc|apply Pd|].
    apply subsumes_antisym; assumption.
Qed.
