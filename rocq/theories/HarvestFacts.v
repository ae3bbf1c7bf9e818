(** Facts about strict harvesting. *)
From Coq Require Import Permutation.
From Verif Require Import Base BaseFacts Chunks DecMem Buffers Productions ProdSpec ProdFacts ActFacts.
Local Open Scope string_scope.

(** ** What a left-hand side binds *)

Lemma dset_keys {A} (d : dict A) k a x : In x (dkeys (dset d k a)) <-> In x (dkeys d) \/ x = k.
Proof.
  induction d as [|[k' a'] d IH]; cbn; [split; intros [H|H]; auto; contradiction|].
  destruct (String.eqb_spec k' k) as [->|Hn]; cbn.
  - split; [intros [H|H]; auto|intros [[H|H]|H]; auto].
  - fold (dkeys (dset d k a)). rewrite IH. fold (dkeys d). tauto.
Qed.

Lemma dset_NoDup {A} (d : dict A) k a : NoDup (dkeys d) -> NoDup (dkeys (dset d k a)).
Proof.
  induction d as [|[k' a'] d IH]; cbn; intro H; [constructor; [tauto|constructor]|].
  inversion H; subst. destruct (String.eqb_spec k' k) as [->|Hn]; cbn; constructor; auto.
  intro Hin. apply (proj1 (dset_keys _ _ _ _)) in Hin. destruct Hin as [Hin|Hin]; [contradiction|congruence].
Qed.

(** Bindings [b'] extend [b] by variables of [xs] only. *)
Definition extends (b b' : bindings) (xs : list string) : Prop :=
  (NoDup (dkeys (bpos b)) -> NoDup (dkeys (bpos b'))) /\
  (forall x, In x (dkeys (bpos b)) -> In x (dkeys (bpos b'))) /\
  (forall x, In x (dkeys (bpos b')) -> In x (dkeys (bpos b)) \/ In x xs).

Lemma extends_refl b xs : extends b b xs.
Proof. repeat split; auto. Qed.
Lemma extends_trans b1 b2 b3 xs ys : extends b1 b2 xs -> extends b2 b3 ys -> extends b1 b3 (xs ++ ys).
Proof.
  intros (A1 & B1 & C1) (A2 & B2 & C2). repeat split; auto.
  intros x Hx. apply C2 in Hx. destruct Hx as [Hx|Hx]; [apply C1 in Hx; destruct Hx; auto|]; right; apply in_or_app; auto.
Qed.
Lemma extends_incl b1 b2 xs ys : incl xs ys -> extends b1 b2 xs -> extends b1 b2 ys.
Proof. intros H (A1 & B1 & C1). repeat split; auto. intros x Hx. apply C1 in Hx. destruct Hx; auto. Qed.
Lemma extends_pos b b1 b2 xs : bpos b1 = bpos b2 -> extends b b1 xs -> extends b b2 xs.
Proof. unfold extends. intros ->. auto. Qed.

Lemma match_negvars_pos xs m : forall b, bpos (fst (match_negvars b xs m)) = bpos b.
Proof.
  induction xs as [|x xs IH]; intro b; cbn [match_negvars]; [reflexivity|].
  destruct (dget (bpos b) x) as [v|]; [destruct (val_eqb v m); [reflexivity|]|]; rewrite IH; reflexivity.
Qed.

Lemma match_var_extends b o m :
  extends b (fst (match_var b o m)) (match o with Some x => [x] | None => [] end).
Proof.
  unfold match_var. destruct o as [x|]; [|apply extends_refl].
  destruct (var_truthy (Some x)) as [y|] eqn:E; [|apply extends_refl].
  assert (y = x) as ->. { unfold var_truthy in E. destruct x; inversion E; reflexivity. }
  destruct (existsb _ _); [apply extends_refl|].
  destruct (dget (bpos b) x); [apply extends_refl|]. cbn. repeat split; cbn.
  - apply dset_NoDup.
  - intros z Hz. apply dset_keys. auto.
  - intros z Hz. apply dset_keys in Hz. destruct Hz as [Hz| ->]; auto.
Qed.

Lemma match_slot_extends b w m :
  extends b (fst (match_slot b w m)) (match vvar w with Some x => [x] | None => [] end).
Proof.
  unfold match_slot. pose proof (match_var_extends b (vvar w) m) as H.
  destruct (match_var b (vvar w) m) as [b1 ok1]. cbn [fst] in H. destruct ok1; [|exact H].
  pose proof (match_negvars_pos (vnegvars w) m b1) as Hp.
  destruct (match_negvars b1 (vnegvars w) m) as [b2 ok2]. cbn [fst] in Hp.
  destruct ok2; cbn [fst]; (eapply extends_pos; [symmetry; exact Hp|exact H]).
Qed.

Definition slots_vars (l : list (string * slotval)) : list string :=
  flat_map (fun p => match snd p with Some w => match vvar w with Some x => [x] | None => [] end | None => [] end) l.

Lemma match_slots_extends d : forall l b, extends b (fst (match_slots b l d)) (slots_vars l).
Proof.
  induction l as [|[n s] l IH]; intro b; cbn [match_slots]; [apply extends_refl|].
  pose proof (match_slot_extends b (splitting s) (slot_value d n)) as H.
  destruct (match_slot b (splitting s) (slot_value d n)) as [b1 ok]. cbn [fst] in H.
  assert (H' : extends b b1 (match s with Some w => match vvar w with Some x => [x] | None => [] end | None => [] end)).
  { destruct s; exact H. }
  cbn [slots_vars flat_map snd]. destruct ok.
  - eapply extends_trans; [exact H'|apply IH].
  - cbn [fst]. eapply extends_incl; [|exact H']. intros x Hx. apply in_or_app. auto.
Qed.

Lemma chunk_le_extends b p d : extends b (fst (chunk_le b p d)) (pattern_vars p).
Proof.
  unfold chunk_le, match_chunk. destruct (chunk_eqb b p d); [apply extends_refl|]. apply match_slots_extends.
Qed.

Lemma conds_bound s lhs b b' : conds_hold s lhs b b' ->
  (NoDup (dkeys (bpos b)) -> NoDup (dkeys (bpos b'))) /\
  (forall x, In x (dkeys (bpos b)) \/ tested lhs x -> In x (dkeys (bpos b'))) /\
  (forall x, In x (dkeys (bpos b')) -> In x (dkeys (bpos b)) \/ tested lhs x \/ In x (lhs_vars lhs)).
Proof.
  induction 1 as [b|k c l b b1 b2 Hc Hl (IH1 & IH2 & IH3)].
  - repeat split; auto. intros x [H|[]]. exact H.
  - inversion Hc as [name p d rest b0 bm Hd Hv Hle|name d b0 Hq]; subst.
    + pose proof (chunk_le_extends b p d) as (E1 & E2 & E3). rewrite Hle in E1, E2, E3. cbn [fst] in E1, E2, E3.
      repeat split.
      * intro nd. apply IH1. cbn. apply dset_NoDup. auto.
      * intros x Hx. apply IH2. cbn [bpos]. rewrite dset_keys. destruct Hx as [Hx|[Hx|Hx]]; auto.
        cbn in Hx. inversion Hx. auto.
      * intros x Hx. apply IH3 in Hx. cbn [bpos] in Hx. rewrite dset_keys in Hx. cbn [lhs_vars flat_map snd].
        destruct Hx as [[Hx|Hx]|[Hx|Hx]].
        -- apply E3 in Hx. destruct Hx as [Hx|Hx]; auto. right. right. apply in_or_app. auto.
        -- subst x. right. left. now left.
        -- right. left. now right.
        -- right. right. apply in_or_app. auto.
    + repeat split; auto.
      * intros x Hx. apply IH2. destruct Hx as [Hx|[Hx|Hx]]; auto. discriminate.
      * intros x Hx. apply IH3 in Hx. cbn [lhs_vars flat_map snd].
        destruct Hx as [Hx|[Hx|Hx]]; auto. right. left. now right.
Qed.

(** ** What is queued for clearing *)

Lemma clears_app l l' : clears (l ++ l') = (clears l ++ clears l')%list.
Proof. unfold clears. apply flat_map_app. Qed.

Lemma harvest_clears names t : forall s,
  clears (sprocs (harvest names t s)) =
  (clears (sprocs s) ++ filter (fun n => match dget (snames s) n with Some _ => true | None => false end) names)%list.
Proof.
  induction names as [|n names IH]; intro s; cbn [harvest filter]; [now rewrite app_nil_r|].
  rewrite IH. destruct (dget (snames s) n) as [i|] eqn:E; [|reflexivity].
  unfold add_proc. cbn [sprocs snames set_procs]. rewrite clears_app. cbn. rewrite <- app_assoc. reflexivity.
Qed.

(** Names left for harvesting after the actions [l]. *)
Fixpoint left_over (temp : bindings) (l : list (string * content)) : bindings :=
  match l with
  | [] => temp
  | (key, _) :: l' =>
      match key with "" => temp | String _ name => left_over (MkB (ddel (bpos temp) name) (bneg temp)) l' end
  end.

(** In states satisfying [C], [g] queues the clearing of [l] when it returns, in its last step,
    and nothing for clearing before. *)
Fixpoint queues (C : st -> Prop) (g : gen) (l : list string) : Prop :=
  match g with
  | GRet => l = []
  | GRaise _ => True
  | GYield e k => queues C k l
  | GCont _ => False
  | GNote n k => queues C k l
  | GAct f k =>
      ((forall s, C s -> C (f s) /\ clears (sprocs (f s)) = clears (sprocs s)) /\ queues C k l) \/
      (k = GRet /\ forall s, C s -> clears (sprocs (f s)) = (clears (sprocs s) ++ l)%list)
  | GGet k => forall s, C s -> queues C (k s) l
  end.

(** [g] queues nothing for clearing. *)
Fixpoint still (C : st -> Prop) (g : gen) : Prop :=
  match g with
  | GRet => True
  | GRaise _ => True
  | GYield e k => still C k
  | GCont _ => False
  | GNote n k => still C k
  | GAct f k => (forall s, C s -> C (f s) /\ clears (sprocs (f s)) = clears (sprocs s)) /\ still C k
  | GGet k => forall s, C s -> still C (k s)
  end.

Lemma queues_gseq C g : forall k l, still C g -> queues C k l -> queues C (gseq g k) l.
Proof.
  induction g as [|e|e g IH|g IH|n g IH|f g IH|h IH]; cbn [gseq queues still]; intros k l Hg Hk; auto.
  left. destruct Hg. split; auto.
Qed.
Lemma still_gseq C g : forall k, still C g -> still C k -> still C (gseq g k).
Proof.
  induction g as [|e|e g IH|g IH|n g IH|f g IH|h IH]; cbn [gseq queues still]; intros k Hg Hk; auto.
  destruct Hg. split; auto.
Qed.

(** What the actions of a rule leave alone. *)
Definition frame (s0 s : st) : Prop := sp s = sp s0 /\ snames s = snames s0 /\ svars s = svars s0.

Lemma still_gcall {A} s0 (f : st -> world * res A) k : (forall a, still (frame s0) (k a)) -> still (frame s0) (gcall f k).
Proof. intros H s Hs. destruct (f s) as [w [a|e]]; cbn; split; auto. Qed.
Lemma still_record s0 f k : still (frame s0) k -> still (frame s0) (g_record f k).
Proof. intros H s Hs. destruct (f s); cbn; auto. Qed.
Lemma frame_attrs s0 i l s : frame s0 s -> frame s0 (set_attrs i l s) /\ clears (sprocs (set_attrs i l s)) = clears (sprocs s).
Proof. unfold set_attrs. intro H. destruct (nth_error (smods s) i); auto. Qed.
Lemma frame_state s0 i v s : frame s0 s -> frame s0 (set_state i v s) /\ clears (sprocs (set_state i v s)) = clears (sprocs s).
Proof. apply frame_attrs. Qed.

Ltac still_tac :=
  repeat (cbn [still]; cbv beta zeta;
    first [ apply still_gcall; intro | apply still_record | apply still_gseq | exact I
          | match goal with |- frame _ _ /\ _ => first [apply frame_state; assumption | apply frame_attrs; assumption] end
          | match goal with |- _ /\ _ => split end
          | match goal with |- forall _ : st, _ -> _ => intros ? ? end
          | match goal with |- still _ (match ?x with _ => _ end) => destruct x end
          | match goal with |- still _ (match ?x with _ => _ end _) => destruct x end
          | match goal with |- still _ (if ?x then _ else _) => destruct x end
          | assumption | reflexivity ]).

Lemma still_start s0 O m name i c bs t : interruptible m = false -> still (frame s0) (start O m name i c bs t).
Proof.
  intro H. destruct m; try discriminate; unfold start, g_extra, g_modify, g_execute, g_clear, g_overwrite; still_tac.
Qed.

Lemma queues_actions s0 O t : forall l temp,
  queues (frame s0) (actions O t temp l)
    (if qstrict (sp s0) then
       filter (fun n => match dget (snames s0) n with Some _ => true | None => false end) (var_keys (left_over temp l))
     else []).
Proof.
  induction l as [|[key c] l IH]; intro temp; cbn [actions left_over].
  - cbn [queues]. intros s (Hp & Hn & Hv). rewrite Hp. destruct (qstrict (sp s0)); [|reflexivity].
    right. split; [reflexivity|]. intros s1 (Hp1 & Hn1 & Hv1). rewrite harvest_clears, Hn1. reflexivity.
  - destruct key as [|code name]; [exact I|]. destruct (rhs_meth code) as [m|] eqn:Em; [|exact I].
    cbn [queues]. intros s Hs. destruct (dget (snames s) name) as [i|]; [|exact I].
    cbn [queues]. left. split; [intros; now apply frame_state|].
    destruct (interruptible m) eqn:Ei.
    + left. split; [|apply IH]. intros s1 Hs1. split; [exact Hs1|]. unfold add_proc. cbn [sprocs set_procs].
      rewrite clears_app. destruct m; try discriminate; cbn; apply app_nil_r.
    + apply queues_gseq; [now apply still_start|apply IH].
Qed.

Lemma queues_resume C g : forall l s s' ns o, queues C g l -> C s -> resume g s = (s', ns, o) ->
  match o with
  | ODone => clears (sprocs s') = (clears (sprocs s) ++ l)%list
  | ORaise _ => clears (sprocs s') = clears (sprocs s)
  | OYield e k => clears (sprocs s') = clears (sprocs s) /\ C s' /\ queues C k l
  | OCont _ => False
  end.
Proof.
  induction g as [|e|e g IH|g IH|n g IH|f g IH|h IH]; cbn [resume queues]; intros l s s' ns o Hn Hc H.
  - inversion H; subst. now rewrite app_nil_r.
  - inversion H; subst. reflexivity.
  - inversion H; subst. auto.
  - contradiction.
  - destruct (resume g s) as [[s1 ns1] o1] eqn:E. inversion H; subst. exact (IH _ _ _ _ _ Hn Hc E).
  - destruct Hn as [[Hf Hn]|[-> Hf]].
    + destruct (Hf s Hc) as [Hc' He]. rewrite <- He. exact (IH _ _ _ _ _ Hn Hc' H).
    + cbn in H. inversion H; subst. auto.
  - exact (IH _ _ _ _ _ _ (Hn _ Hc) Hc H).
Qed.

(** Only the last step of a run queues something for clearing, if the run is complete. *)
Definition quiet_hop (h : hop) : Prop := clears (sprocs (hafter h)) = clears (sprocs (hbefore h)).

Lemma queues_runs (R : st -> st -> Prop) (C : st -> Prop) g s tr f : (forall s s', C s -> R s s' -> C s') -> runs R g s tr f ->
  forall l, queues C g l -> C s ->
  match f with
  | FDone => exists tr' h, tr = (tr' ++ [h])%list /\ Forall quiet_hop tr' /\
               clears (sprocs (hafter h)) = (clears (sprocs (hbefore h)) ++ l)%list
  | FCut | FRaise _ => Forall quiet_hop tr
  | FCont _ => False
  end.
Proof.
  intro HR. induction 1 as [g s|g s s' ns H|g s s' ns e H|g s s' ns k H|g s s' ns e k s'' tr f H Hrel Hr IH]; intros l Hq Hc.
  - constructor.
  - pose proof (queues_resume _ _ _ _ _ _ _ Hq Hc H) as Hx. cbn in Hx. exists [], (MkHop s ns None s'). repeat split; auto.
  - pose proof (queues_resume _ _ _ _ _ _ _ Hq Hc H) as Hx. cbn in Hx. constructor; [exact Hx|constructor].
  - exact (queues_resume _ _ _ _ _ _ _ Hq Hc H).
  - pose proof (queues_resume _ _ _ _ _ _ _ Hq Hc H) as Hx. cbn in Hx. destruct Hx as (Hx & Hc' & Hk).
    specialize (IH _ Hk (HR _ _ Hc' Hrel)).
    destruct f; [constructor; auto| |constructor; auto|auto].
    destruct IH as (tr' & h & -> & Hf & He). exists (MkHop s ns (Some e) s' :: tr'), h. repeat split; auto.
Qed.

Lemma ddel_keys {A} (d : dict A) k x : In x (dkeys (ddel d k)) <-> In x (dkeys d) /\ x <> k.
Proof.
  unfold ddel, dkeys. rewrite !in_map_iff. split.
  - intros [[k' a] [E H]]. apply filter_In in H. destruct H as [H1 H2]. cbn in *. subst k'.
    split; [exists (x, a); auto|]. apply negb_true_iff in H2. now apply String.eqb_neq.
  - intros [[[k' a] [E H]] Hn]. cbn in E. subst k'. exists (x, a). split; [reflexivity|]. apply filter_In. split; [auto|].
    apply negb_true_iff. now apply String.eqb_neq.
Qed.
Lemma ddel_NoDup {A} (d : dict A) k : NoDup (dkeys d) -> NoDup (dkeys (ddel d k)).
Proof.
  unfold ddel, dkeys. induction d as [|[k' a] d IH]; cbn; intro H; [constructor|]. inversion H; subst.
  destruct (negb (String.eqb k' k)); cbn; [constructor|]; auto.
  intro Hin. apply H2. apply in_map_iff in Hin. destruct Hin as [p [Hp Hin]]. apply filter_In in Hin.
  apply in_map_iff. exists p. tauto.
Qed.

Lemma left_over_keys l : (forall k, In k (map fst l) -> k <> "") -> forall temp x,
  In x (dkeys (bpos (left_over temp l))) <-> In x (dkeys (bpos temp)) /\ ~ mentioned l x.
Proof.
  induction l as [|[key c] l IH]; intros Hk temp x; cbn [left_over].
  - split; [intro H; split; [auto|intros [c []]]|tauto].
  - destruct key as [|code name]; [exfalso; apply (Hk ""); [now left|reflexivity]|].
    rewrite IH by (intros; apply Hk; now right). cbn [bpos]. rewrite ddel_keys. unfold mentioned. cbn.
    split.
    + intros [[H1 H2] H3]. split; [auto|]. intros [c' [E|E]]; [inversion E; auto|]. apply H3. eauto.
    + intros [H1 H2]. repeat split; auto.
      * intros ->. apply H2. exists code. now left.
      * intros [c' E]. apply H2. exists c'. now right.
Qed.
Lemma left_over_NoDup l : forall temp, NoDup (dkeys (bpos temp)) -> NoDup (dkeys (bpos (left_over temp l))).
Proof.
  induction l as [|[key c] l IH]; intros temp H; cbn [left_over]; [exact H|].
  destruct key; [exact H|]. apply IH. cbn. now apply ddel_NoDup.
Qed.

Lemma filter_none {A} (f : A -> bool) l : (forall a, In a l -> f a = false) -> filter f l = [].
Proof.
  induction l as [|a l IH]; intro H; [reflexivity|]. cbn. rewrite H by now left. apply IH. intros; apply H; now right.
Qed.

(** What strict harvesting queues for clearing. *)
Theorem update_queues O rhs t s tr f : runs rely (g_update O rhs t) s tr f ->
  NoDup (dkeys (bpos (svars s))) ->
  (forall x, dget (snames s) (String "=" x) = None) ->
  match f with
  | FDone => exists tr' h l, tr = (tr' ++ [h])%list /\ Forall quiet_hop tr' /\
               clears (sprocs (hafter h)) = (clears (sprocs (hbefore h)) ++ l)%list /\ NoDup l /\
               forall n, In n l <-> qstrict (sp s) = true /\ dget (snames s) n <> None /\
                           In n (dkeys (bpos (svars s))) /\ ~ mentioned rhs n
  | FCut | FRaise _ => Forall quiet_hop tr
  | FCont _ => False
  end.
Proof.
  intros Hr nd Heq.
  destruct (ordered_rhs rhs) as [l|e] eqn:Eo.
  2:{ assert (Hu : resume (g_update O rhs t) s = (s, [], ORaise e)) by (cbn; now rewrite Eo).
      inversion Hr; subst; try constructor; try congruence; try constructor;
        match goal with Hx : resume _ _ = _ |- _ => rewrite Hu in Hx; inversion Hx; subst end. reflexivity. }
  destruct (ordered_rhs_staged _ _ Eo) as [_ Hp].
  assert (Hne : forall k, In k (map fst l) -> k <> "").
  { intros k Hk ->. unfold ordered_rhs in Eo. destruct (rmap _ rhs) as [rk|] eqn:E; [|discriminate].
    cbn [rbind] in Eo. inversion Eo; subst l. destruct (rmap_rank _ _ E) as [Hm Hf].
    assert (Hin : In "" (map (fun x => fst (snd x)) rk)).
    { rewrite <- (map_map snd fst), Hm. eapply Permutation_in; [apply Permutation_map; exact Hp|exact Hk]. }
    apply in_map_iff in Hin. destruct Hin as [x [Hx Hin]]. rewrite Forall_forall in Hf. apply Hf in Hin. rewrite Hx in Hin. discriminate. }
  assert (Hq : queues (frame s) (g_update O rhs t)
     (if qstrict (sp s) then
       filter (fun n => match dget (snames s) n with Some _ => true | None => false end) (var_keys (left_over (svars s) l))
     else [])).
  { intros s1 (H1 & H2 & H3). rewrite Eo, H3. apply queues_actions. }
  assert (Hrel : forall s1 s2, frame s s1 -> rely s1 s2 -> frame s s2).
  { intros s1 s2 (H1 & H2 & H3) (G1 & G2 & G3 & _). repeat split; congruence. }
  pose proof (queues_runs _ _ _ _ _ _ Hrel Hr _ Hq) as Hx.
  assert (Hfs : frame s s) by (repeat split). specialize (Hx Hfs). destruct f; auto.
  destruct Hx as (tr' & h & Et & Hqq & He). exists tr', h. eexists. split; [exact Et|]. split; [exact Hqq|]. split; [exact He|].
  assert (Hvk : filter (fun n => match dget (snames s) n with Some _ => true | None => false end) (var_keys (left_over (svars s) l))
     = filter (fun n => match dget (snames s) n with Some _ => true | None => false end) (dkeys (bpos (left_over (svars s) l)))).
  { unfold var_keys. rewrite filter_app.
    rewrite (filter_none _ (map _ _)); [apply app_nil_r|].
    intros a Ha. apply in_map_iff in Ha. destruct Ha as [y [<- _]]. now rewrite Heq. }
  rewrite Hvk. destruct (qstrict (sp s)).
  - split; [apply NoDup_filter; now apply left_over_NoDup|]. intro n. rewrite filter_In, left_over_keys by exact Hne.
    assert (Hmm : mentioned l n <-> mentioned rhs n).
    { unfold mentioned, dkeys. split; intros [c Hc]; exists c;
      (eapply Permutation_in; [apply Permutation_map; try exact Hp; symmetry; exact Hp|exact Hc]). }
    rewrite Hmm. destruct (dget (snames s) n); intuition congruence.
  - split; [constructor|]. intro n. cbn. intuition discriminate.
Qed.
