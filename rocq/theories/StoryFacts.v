(** The log of a simulation as a sequence of runs of the procedural process. *)
From Coq Require Import Lia Sorted.
From Verif Require Import Base BaseFacts Chunks DecMem Buffers BufferFacts Productions ProdSpec ProdFacts ActFacts CycleFacts LearnFacts RoundFacts Sim SimSpec SimFacts SerialFacts.
Local Open Scope string_scope.
Local Open Scope list_scope.
Local Open Scope nat_scope.

(** ** Suspended runs *)

(** The generator [g] was started in [s], has made the steps [tr], and is suspended as [k]; [s'] is
    the state right after the last step. *)
Inductive reach (R : st -> st -> Prop) (g : gen) (s : st) : list hop -> st -> gen -> Prop :=
| reach_one s' ns e k : resume g s = (s', ns, OYield e k) -> reach R g s [MkHop s ns (Some e) s'] s' k
| reach_snoc tr s1 k1 s2 s3 ns e k : reach R g s tr s1 k1 -> R s1 s2 -> resume k1 s2 = (s3, ns, OYield e k) ->
    reach R g s (tr ++ [MkHop s2 ns (Some e) s3]) s3 k.
Lemma reach_runs R g s tr s1 k : reach R g s tr s1 k -> forall s2 tr2 f, R s1 s2 -> runs R k s2 tr2 f -> runs R g s (tr ++ tr2) f.
Proof.
  intros H. induction H as [s' ns e k E|tr s1 k1 s2 s3 ns e k H IH Hr E]; intros s4 tr2 f R4 H4.
  - cbn. eapply runs_yield; eauto.
  - rewrite <- app_assoc. cbn. apply (IH s2); [exact Hr|]. eapply runs_yield; eauto.
Qed.
Lemma events_app l l' : events (l ++ l') = events l ++ events l'.
Proof. unfold events. apply flat_map_app. Qed.
Lemma loud_app l l' : loud (l ++ l') = loud l ++ loud l'.
Proof. apply filter_app. Qed.
Lemma loud_quiet e : quiet e -> loud [e] = [].
Proof. intros H. cbn. apply quiet_rule in H. rewrite H. reflexivity. Qed.

Lemma story_rely O s0 l s s' : story O s0 l s -> rely s s' -> story O s0 l s'.
Proof. intros H R. inversion H; subst; econstructor; eauto; eapply rely_trans; eauto. Qed.

(** ** The invariant *)

Definition value_of (ev : nat) (S : sim) : option outcome := match event_at ev S with Some e => evalue e | None => None end.
Definition tok (p : nat) (S : sim) : nat := tokE p S + tokT p S.
Definition cyc (c : code) : Prop := match c with KLocal0 true _ _ | KLocal true _ _ _ => True | _ => False end.

Record Jc (S : sim) : Prop := MkJc {
  j_code : forall p r, proc_at p S = Some r -> tame (pcode r) \/ cyc (pcode r);
  j_val : forall ev g, value_of ev S = Some (Good (XCont g)) -> outside g;
  j_time : forall ev t, role_at ev (RTime t) S -> value_of ev S = Some (Good XUnit);
  j_end : forall p r, proc_at p S = Some r -> pcode r = KEnd -> tok p S = 0;
  j_zero : exists m, proc_at 0 S = Some m;
  j_main : forall p r, proc_at p S = Some r -> (pkind r = Some GMain <-> p = 0) }.

Section Phase.
Variable O : oracle.
Variable s0 : st.

(** Only the process [q], if any, is running a procedural generator. *)
Definition alone (q : option nat) (S : sim) : Prop := forall p r, proc_at p S = Some r -> cyc (pcode r) -> q = Some p.
(** The last events about rules, if the last procedural process has not ended properly. *)
Definition unfinished (s : st) (tail : list event) : Prop :=
  exists t tr f rest, runs rely (procedural O (seconds_of t)) s tr f /\ loud (events tr) = tail ++ rest.
Definition progress (r : prc) (s : st) (tail : list event) (S : sim) : Prop :=
  match pcode r with
  | KLocal0 _ _ g => tail = [] /\ s = ss S /\ exists t, g = procedural O (seconds_of t)
  | KLocal _ _ e g => exists t tr s2 l, reach rely (procedural O (seconds_of t)) s tr s2 g /\ events tr = l ++ [e] /\ tail = loud l /\ rely s2 (ss S)
  | KEnd => match value_of (pown r) S with
            | Some (Good _) => tail = [] /\ s = ss S
            | Some (Bad _) => unfinished s tail
            | None => False
            end
  | _ => False
  end.
Definition phase (S : sim) : Prop :=
  exists m l s tail, proc_at 0 S = Some m /\ story O s0 l s /\ rule_events S = List.concat (map (fun tr => loud (events tr)) l) ++ tail /\
    match pcode m with
    | KProcPro _ => exists q r, proc_at q S = Some r /\ pkind r = Some (GLocal true PROCEDURAL) /\ pown r = ptarget m /\ alone (Some q) S /\ progress r s tail S
    | KEnd => alone None S /\ unfinished s tail
    | _ => alone None S /\ tail = [] /\ s = ss S
    end.

Lemma unfinished_nil s : unfinished s [].
Proof. exists 0%Z, [], FCut, []. split; [constructor|reflexivity]. Qed.
Lemma phase_keep S S' : Inv S -> rule_events S' = rule_events S -> rely (ss S) (ss S') -> proc_at 0 S' = proc_at 0 S ->
  (forall p r, proc_at p S' = Some r -> cyc (pcode r) -> proc_at p S = Some r) ->
  (forall p r n, proc_at p S = Some r -> pkind r = Some (GLocal true n) -> proc_at p S' = Some r /\ value_of (pown r) S' = value_of (pown r) S) ->
  phase S -> phase S'.
Proof.
  intros H Hl Hs Hm Hn Hq (m & l & s & tail & Pm & St & Ev & Ph).
  assert (Al : forall q, alone q S -> alone q S') by (intros q A p r Hp Hc; eapply A; eauto).
  assert (Free : alone None S /\ tail = [] /\ s = ss S -> exists s', story O s0 l s' /\ alone None S' /\ tail = [] /\ s' = ss S').
  { intros (A & -> & ->). exists (ss S'). split; [eapply story_rely; eauto|]. auto. }
  assert (G : forall s', story O s0 l s' -> match pcode m with
    | KProcPro _ => exists q r, proc_at q S' = Some r /\ pkind r = Some (GLocal true PROCEDURAL) /\ pown r = ptarget m /\ alone (Some q) S' /\ progress r s' tail S'
    | KEnd => alone None S' /\ unfinished s' tail
    | _ => alone None S' /\ tail = [] /\ s' = ss S'
    end -> phase S').
  { intros s' St' P'. exists m, l, s', tail. split; [congruence|]. split; [exact St'|]. split; [congruence|exact P']. }
  revert Ph G. destruct (pcode m) eqn:Ec; intros Ph G; try (destruct (Free Ph) as (s' & St' & P'); exact (G s' St' P')).
  - destruct Ph as (q & r & Pq & Kq & Oq & Aq & Pr). destruct (Hq _ _ _ Pq Kq) as [Pq' Vq].
    assert (X : (s = ss S -> exists s', story O s0 l s' /\ s' = ss S')) by (intros ->; exists (ss S'); split; [eapply story_rely; eauto|reflexivity]).
    assert (Y : forall s', story O s0 l s' -> progress r s' tail S' -> phase S').
    { intros s' St' P'. apply (G s' St'). exists q, r. auto 6. }
    unfold progress in Pr, Y. revert Pr Y. destruct (pcode r) eqn:Er; intros Pr Y; try contradiction.
    + destruct Pr as (-> & E & T). destruct (X E) as (s' & St' & E'). apply (Y s' St'). split; [reflexivity|]. split; [exact E'|exact T].
    + destruct Pr as (t & tr & s2 & l2 & R1 & R2 & R3 & R4). apply (Y s St). exists t, tr, s2, l2. split; [exact R1|]. split; [exact R2|]. split; [exact R3|]. eapply rely_trans; eauto.
    + rewrite Vq in Y. revert Pr Y. destruct (value_of (pown r) S) as [[v|t]|]; intros Pr Y; [|apply (Y s St); exact Pr|contradiction].
      destruct Pr as (-> & E). destruct (X E) as (s' & St' & E'). apply (Y s'); auto.
  - apply (G s St). destruct Ph as [A U]. split; auto.
Qed.
End Phase.

(** ** Changes that do not concern processes *)

Lemma role_value S S' ev : (exists e e', event_at ev S = Some e /\ event_at ev S' = Some e' /\ evalue e' = evalue e) -> value_of ev S' = value_of ev S.
Proof. intros (e & e' & H & H' & E). unfold value_of. rewrite H, H'. exact E. Qed.

(** Codes of new processes. *)
Definition fresh (c : code) : Prop := (tame c \/ cyc c) /\ c <> KEnd /\ kind_of c <> Some GMain.
Lemma side_fresh c : side c -> fresh c.
Proof. intros [Ht [(n & g & ->)|(e & ->)]]; (split; [auto|split; discriminate]). Qed.
Lemma Jc_frame (X : code -> Prop) S S' : (forall c, X c -> fresh c) -> Inv S -> Inv S' -> frame X S S' -> Jc S -> Jc S'.
Proof.
  intros HX H H' F J. destruct (f_prs _ _ _ F) as (new & En & Fn).
  assert (Pn : forall p r, proc_at p S' = Some r -> proc_at p S = Some r \/ (fresh (pcode r) /\ List.length (prs S) <= p)).
  { intros p r Hp. unfold proc_at in *. rewrite En in Hp. destruct (Nat.lt_ge_cases p (List.length (prs S))) as [L|L].
    - rewrite nth_error_app1 in Hp; auto.
    - rewrite nth_error_app2 in Hp by exact L. right. split; [|exact L]. apply HX. apply (nth_Forall _ _ _ _ Fn Hp). }
  constructor.
  - intros p r Hp. destruct (Pn _ _ Hp) as [Hp'|[[Ht _] _]]; [apply (j_code _ J _ _ Hp')|auto].
  - intros ev g Hv. unfold value_of in Hv. destruct (event_at ev S') as [e'|] eqn:He; [|discriminate].
    destruct (f_vals _ _ _ F _ _ He) as [(e & He0 & _ & Ev)|[P _]]; [|elim (P g Hv)]. apply (j_val _ J ev). unfold value_of. rewrite He0. congruence.
  - intros ev t (e' & He & R). unfold value_of. rewrite He. destruct (f_vals _ _ _ F _ _ He) as [(e & He0 & R0 & Ev)|[_ P]]; [|eauto].
    rewrite Ev. assert (Rt : role_at ev (RTime t) S) by (exists e; split; congruence). pose proof (j_time _ J _ _ Rt) as V. unfold value_of in V. rewrite He0 in V. exact V.
  - intros p r Hp Hk. destruct (Pn _ _ Hp) as [Hp'|[[_ [Ne _]] _]]; [|contradiction].
    pose proof (j_end _ J _ _ Hp' Hk) as T. unfold tok, tokT in *. rewrite (f_todo _ _ _ F). rewrite (f_tok _ _ _ F); [exact T|].
    apply nth_error_Some. unfold proc_at in Hp'. congruence.
  - destruct (j_zero _ J) as (m & Hm). exists m. eapply frame_proc; eauto.
  - intros p r Hp. destruct (Pn _ _ Hp) as [Hp'|[[_ [Ne Nm]] L]]; [apply (j_main _ J _ _ Hp')|].
    destruct (i_kind _ H' _ _ Hp) as [K _]. destruct (j_zero _ J) as (m & Hm).
    assert (Lp : 0 < List.length (prs S)) by (apply nth_error_Some; unfold proc_at in Hm; congruence).
    split; [|lia]. intros Km. destruct K as [K|K]; [contradiction|congruence].
Qed.
Lemma rule_events_frame (X : code -> Prop) S S' : frame X S S' -> rule_events S' = rule_events S.
Proof.
  intros F. destruct (f_log _ _ _ F) as (l & El & Fl). unfold rule_events. rewrite El, map_app, loud_app.
  replace (loud (map snd l)) with (@nil event); [apply app_nil_r|]. clear El. induction Fl as [|te l Hq Fl IH]; [reflexivity|].
  cbn [map]. change (snd te :: map snd l) with ([snd te] ++ map snd l). rewrite loud_app, loud_quiet by exact Hq. exact IH.
Qed.
Lemma side_not_cyc c : side c -> ~ cyc c.
Proof. intros [_ [(n & g & ->)|(e & ->)]]; exact (fun x => x). Qed.
Lemma phase_frame_X (X : code -> Prop) O s0 S S' : (forall c, X c -> ~ cyc c) -> Inv S -> frame X S S' -> phase O s0 S -> phase O s0 S'.
Proof.
  intros HX H F Ph. destruct (f_prs _ _ _ F) as (new & En & Fn). apply (phase_keep O s0 S S'); auto.
  - apply (rule_events_frame X). exact F.
  - apply (f_ss _ _ _ F).
  - destruct Ph as (m & _ & _ & _ & Pm & _). rewrite Pm. eapply frame_proc; eauto.
  - intros p r Hp Hc. unfold proc_at in *. rewrite En in Hp. destruct (Nat.lt_ge_cases p (List.length (prs S))) as [L|L].
    + rewrite nth_error_app1 in Hp; auto.
    + rewrite nth_error_app2 in Hp by exact L. elim (HX (pcode r)); [|exact Hc]. apply (nth_Forall _ _ _ _ Fn Hp).
  - intros p r n Hp Hk. split; [eapply frame_proc; eauto|]. destruct (i_own _ H _ _ Hp) as (e & He & R & _).
    destruct (f_evs _ _ _ F _ _ He) as (e' & He' & _ & [V|[V|V]] & _); [|congruence|congruence].
    apply role_value. exists e, e'. auto.
Qed.
Lemma phase_frame O s0 S S' : Inv S -> frame side S S' -> phase O s0 S -> phase O s0 S'.
Proof. apply phase_frame_X. apply side_not_cyc. Qed.

(** Changes of callbacks, of the queue and of the work to do. *)
Record still (S S' : sim) : Prop := MkStill {
  t_prs : prs S' = prs S;
  t_log : log S' = log S;
  t_ss : ss S' = ss S;
  t_evs : forall ev, option_map (fun e => (erole e, evalue e)) (event_at ev S') = option_map (fun e => (erole e, evalue e)) (event_at ev S) }.
Lemma still_refl S : still S S.
Proof. constructor; reflexivity. Qed.
Lemma still_trans S1 S2 S3 : still S1 S2 -> still S2 S3 -> still S1 S3.
Proof. intros A B. constructor; [rewrite (t_prs _ _ B)|rewrite (t_log _ _ B)|rewrite (t_ss _ _ B)|intros ev; rewrite (t_evs _ _ B)]; apply A. Qed.
Lemma still_value S S' ev : still S S' -> value_of ev S' = value_of ev S.
Proof. intros T. pose proof (t_evs _ _ T ev) as E. unfold value_of. destruct (event_at ev S'), (event_at ev S); cbn in E; congruence. Qed.
Lemma still_role S S' ev r : still S S' -> role_at ev r S' <-> role_at ev r S.
Proof.
  intros T. pose proof (t_evs _ _ T ev) as E. unfold role_at. destruct (event_at ev S') as [e'|], (event_at ev S) as [e|]; cbn in E; try discriminate.
  - injection E as R _. split; intros (x & Hx & Rx); injection Hx as <-; eexists; split; eauto; congruence.
  - split; intros (x & Hx & _); discriminate.
Qed.
Lemma Jc_still S S' : still S S' -> (forall p r, proc_at p S = Some r -> pcode r = KEnd -> tok p S' <= tok p S) -> Jc S -> Jc S'.
Proof.
  intros T Tk J. assert (P : forall p, proc_at p S' = proc_at p S) by (intros p; unfold proc_at; rewrite (t_prs _ _ T); reflexivity).
  constructor; intros *; rewrite ?P, ?(still_value _ _ _ T), ?(still_role _ _ _ _ T); try apply J.
  - intros Hp Hk. pose proof (j_end _ J _ _ Hp Hk). specialize (Tk _ _ Hp Hk). lia.
Qed.
Lemma phase_still O s0 S S' : Inv S -> still S S' -> phase O s0 S -> phase O s0 S'.
Proof.
  intros H T. assert (P : forall p, proc_at p S' = proc_at p S) by (intros p; unfold proc_at; rewrite (t_prs _ _ T); reflexivity).
  apply phase_keep; auto.
  - unfold rule_events. rewrite (t_log _ _ T). reflexivity.
  - rewrite (t_ss _ _ T). apply rely_refl.
  - intros p r. rewrite P. auto.
  - intros p r n. rewrite P, (still_value _ _ _ T). auto.
Qed.
Lemma still_upd_event S ev e e' : event_at ev S = Some e -> erole e' = erole e -> evalue e' = evalue e -> still S (set_evs (upd (evs S) ev e') S).
Proof.
  intros He Hr Hv. constructor; try reflexivity. intros i. unfold event_at in *. cbn [evs set_evs].
  destruct (Nat.eq_dec i ev) as [->|N]; [rewrite (upd_same _ _ _ e He), He; cbn; congruence|rewrite upd_other by exact N; reflexivity].
Qed.
Lemma still_defuse S ev : still S (exec_ (defuse ev) S).
Proof.
  unfold exec_, defuse, set_event, upd_. cbn [fst]. destruct (nth_error (evs S) ev) as [e|] eqn:He; [|apply still_refl].
  apply (still_upd_event S ev e); auto.
Qed.

(** ** A process goes on *)

(** [S'] is [S] with another record for the process [p], up to callbacks and work. *)
Record moved (p : nat) (r' : prc) (S S' : sim) : Prop := MkMoved {
  m_prs : prs S' = upd (prs S) p r';
  m_log : log S' = log S;
  m_ss : ss S' = ss S;
  m_evs : forall ev, option_map (fun e => (erole e, evalue e)) (event_at ev S') = option_map (fun e => (erole e, evalue e)) (event_at ev S);
  m_tok : forall q, q <> p -> tok q S' = tok q S }.
Lemma moved_value p r' S S' ev : moved p r' S S' -> value_of ev S' = value_of ev S.
Proof. intros T. pose proof (m_evs _ _ _ _ T ev) as E. unfold value_of. destruct (event_at ev S'), (event_at ev S); cbn in E; congruence. Qed.
Lemma moved_role p r' S S' ev r : moved p r' S S' -> role_at ev r S' -> role_at ev r S.
Proof.
  intros T (x & Hx & R). pose proof (m_evs _ _ _ _ T ev) as E. rewrite Hx in E. unfold role_at. destruct (event_at ev S) as [e|]; cbn in E; [|discriminate].
  exists e. split; congruence.
Qed.
Lemma moved_proc p r r' S S' : moved p r' S S' -> proc_at p S = Some r -> forall i, proc_at i S' = if Nat.eqb i p then Some r' else proc_at i S.
Proof.
  intros T Hr i. unfold proc_at in *. rewrite (m_prs _ _ _ _ T). destruct (Nat.eqb_spec i p) as [->|N]; [apply (upd_same _ _ _ r Hr)|apply upd_other; exact N].
Qed.
Lemma wsum_other p o q l : q <> p -> wsum q (WRun p o :: l) = wsum q l.
Proof. intros N. unfold wsum. cbn. destruct (Nat.eqb_spec p q); [congruence|reflexivity]. Qed.
Lemma esum_resume q p l ev e : nth_error l ev = Some e -> q <> p ->
  esum q (upd l ev (MkEvt (erole e) (evalue e) (edefused e) (match ecbs e with Some l => Some (l ++ [CResume p]) | None => None end))) = esum q l.
Proof.
  intros He N. apply (esum_same _ _ _ e _ He). unfold cbs_of. cbn [ecbs]. destruct (ecbs e) as [x|]; [|reflexivity]. rewrite cres_app. unfold cres at 3. cbn.
  destruct (Nat.eqb_spec p q); [congruence|]. cbn. lia.
Qed.
Lemma esum_defuse q ev S : tokE q (exec_ (defuse ev) S) = tokE q S.
Proof.
  unfold tokE, exec_, defuse, set_event, upd_. cbn [fst]. destruct (nth_error (evs S) ev) as [e|] eqn:He; [|reflexivity].
  cbn [evs set_evs]. apply (esum_same _ _ _ e _ He). reflexivity.
Qed.

Lemma hand_over_moved S p r c ev e : proc_at p S = Some r -> event_at ev S = Some e -> (firm c -> processed ev S = false) ->
  let S' := hand_over p ev (set_prc p (fun r => MkPrc (pkind r) (pown r) (ptarget r) c) S) in
  exists r', moved p r' S S' /\ pkind r' = pkind r /\ pown r' = pown r /\ pcode r' = c /\ (firm c -> ptarget r' = ev) /\
    (todo S' = todo S \/ exists o, todo S' = WRun p o :: todo S /\ ~ firm c /\ value_of ev S = Some o).
Proof.
  intros Hr He Hp. cbv zeta. unfold hand_over, set_prc.
  change (nth_error (prs S) p) with (proc_at p S). rewrite Hr. set (r1 := MkPrc (pkind r) (pown r) (ptarget r) c).
  change (event_at ev (set_prs (upd (prs S) p r1) S)) with (event_at ev S). rewrite He.
  assert (W : let S' := match nth_error (prs (exec_ (add_cb ev (CResume p)) (set_prs (upd (prs S) p r1) S))) p with
                        | Some r0 => set_prs (upd (prs (exec_ (add_cb ev (CResume p)) (set_prs (upd (prs S) p r1) S))) p (MkPrc (pkind r0) (pown r0) ev (pcode r0)))
                                       (exec_ (add_cb ev (CResume p)) (set_prs (upd (prs S) p r1) S))
                        | None => exec_ (add_cb ev (CResume p)) (set_prs (upd (prs S) p r1) S) end in
    exists r', moved p r' S S' /\ pkind r' = pkind r /\ pown r' = pown r /\ pcode r' = c /\ (firm c -> ptarget r' = ev) /\
    (todo S' = todo S \/ exists o, todo S' = WRun p o :: todo S /\ ~ firm c /\ value_of ev S = Some o)).
  { assert (Ex : exec_ (add_cb ev (CResume p)) (set_prs (upd (prs S) p r1) S) =
                 set_evs (upd (evs S) ev (MkEvt (erole e) (evalue e) (edefused e) (match ecbs e with Some l => Some (l ++ [CResume p]) | None => None end))) (set_prs (upd (prs S) p r1) S)).
    { unfold exec_, add_cb, set_event, upd_. cbn [fst]. cbn [evs set_prs]. change (nth_error (evs S) ev) with (event_at ev S). rewrite He. reflexivity. }
    cbv zeta. rewrite Ex. cbn [prs set_evs set_prs]. rewrite (upd_same _ _ _ r Hr). cbn [pkind pown pcode r1]. rewrite upd_upd.
    eexists. split; [constructor; cbn [prs log ss set_prs set_evs]; try reflexivity|].
    - intros i. unfold event_at in *. cbn [evs set_evs set_prs].
      destruct (Nat.eq_dec i ev) as [->|N]; [rewrite (upd_same _ _ _ e He), He; reflexivity|rewrite upd_other by exact N; reflexivity].
    - intros q N. unfold tok, tokE, tokT. cbn [evs todo set_evs set_prs]. rewrite (esum_resume q p _ _ _ He N). reflexivity.
    - cbn. auto 6. }
  destruct (ecbs e) as [l|] eqn:El; [exact W|]. destruct (evalue e) as [o|] eqn:Ev; [|exact W].
  assert (Nf : ~ firm c). { intros F. specialize (Hp F). unfold processed in Hp. rewrite He, El in Hp. discriminate. }
  exists r1. assert (T : still (set_prs (upd (prs S) p r1) S) (exec_ (match o with Good _ => ret tt | Bad _ => defuse ev end) (set_prs (upd (prs S) p r1) S))).
  { destruct o; [apply still_refl|apply still_defuse]. }
  split; [|split; [reflexivity|]; split; [reflexivity|]; split; [reflexivity|]; split; [intros F; contradiction|]].
  - constructor; cbn [prs log ss set_todo]; [rewrite (t_prs _ _ T)|rewrite (t_log _ _ T)|rewrite (t_ss _ _ T)|intros i; exact (t_evs _ _ T i)|]; try reflexivity.
    intros q N. unfold tok, tokT. cbn [todo set_todo]. rewrite wsum_other by exact N. change (wsum q (todo (set_prs (upd (prs S) p r1) S))) with (wsum q (todo S)).
    destruct o; [reflexivity|]. change (tokE q (exec_ (defuse ev) (set_prs (upd (prs S) p r1) S)) + wsum q (todo S) = tokE q S + wsum q (todo S)). rewrite esum_defuse. reflexivity.
  - right. exists o. split; [reflexivity|]. split; [exact Nf|]. unfold value_of. rewrite He. exact Ev.
Qed.

(** [S'] is [S] with the process [p] ended. *)
Record stopped (p : nat) (r : prc) (o : outcome) (S S' : sim) : Prop := MkStopped {
  s_prs : prs S' = upd (prs S) p (MkPrc (pkind r) (pown r) (ptarget r) KEnd);
  s_log : log S' = log S;
  s_ss : ss S' = ss S;
  s_todo : todo S' = todo S;
  s_own : value_of (pown r) S' = Some o;
  s_role : forall ev x, role_at ev x S' -> role_at ev x S;
  s_vals : forall ev, ev <> pown r -> value_of ev S' = value_of ev S;
  s_tok : forall q, tok q S' = tok q S }.
Lemma end_process_stopped S p r o : Inv S -> proc_at p S = Some r -> stopped p r o S (end_process p o S).
Proof.
  intros H Hr. unfold end_process, set_prc. change (nth_error (prs S) p) with (proc_at p S). rewrite Hr.
  set (r' := MkPrc (pkind r) (pown r) (ptarget r) KEnd). unfold own_event. change (nth_error (prs S) p) with (proc_at p S). rewrite Hr.
  destruct (i_own _ H _ _ Hr) as (e & He & R & V).
  unfold exec_, bind, set_event, schedule, upd_. cbn [fst]. cbn [evs set_prs]. change (nth_error (evs S) (pown r)) with (event_at (pown r) S). rewrite He.
  constructor; cbn [prs log ss todo set_queue set_evs set_prs]; try reflexivity.
  - unfold value_of, event_at. cbn [evs set_queue set_evs]. rewrite (upd_same _ _ _ e He). reflexivity.
  - intros ev x (y & Hy & Ry). unfold role_at, event_at in *. cbn [evs set_queue set_evs] in Hy.
    destruct (Nat.eq_dec ev (pown r)) as [->|N]; [rewrite (upd_same _ _ _ e He) in Hy; injection Hy as <-; exists e; auto|rewrite upd_other in Hy by exact N; eauto].
  - intros ev N. unfold value_of, event_at. cbn [evs set_queue set_evs]. rewrite upd_other by exact N. reflexivity.
  - intros q. unfold tok, tokE, tokT. cbn [evs todo set_queue set_evs set_prs]. rewrite (esum_same _ _ _ e _ He); reflexivity.
Qed.
Lemma stopped_proc p r o S S' : stopped p r o S S' -> proc_at p S = Some r -> forall i, proc_at i S' = if Nat.eqb i p then Some (MkPrc (pkind r) (pown r) (ptarget r) KEnd) else proc_at i S.
Proof.
  intros T Hr i. unfold proc_at in *. rewrite (s_prs _ _ _ _ _ T). destruct (Nat.eqb_spec i p) as [->|N]; [apply (upd_same _ _ _ r Hr)|apply upd_other; exact N].
Qed.

Lemma Jc_moved p r r' S S' : Jc S -> moved p r' S S' -> proc_at p S = Some r -> pkind r' = pkind r -> tame (pcode r') \/ cyc (pcode r') -> pcode r' <> KEnd -> Jc S'.
Proof.
  intros J T Hr Hk Hc Ne. pose proof (moved_proc _ _ _ _ _ T Hr) as P. constructor.
  - intros i x. rewrite P. destruct (Nat.eqb_spec i p) as [->|N]; [intros [= <-]; exact Hc|apply (j_code _ J)].
  - intros ev g. rewrite (moved_value _ _ _ _ _ T). apply (j_val _ J).
  - intros ev t R. rewrite (moved_value _ _ _ _ _ T). apply (j_time _ J _ t). eapply moved_role; eauto.
  - intros i x. rewrite P. destruct (Nat.eqb_spec i p) as [->|N]; [intros [= <-]; congruence|]. intros Hx Ke. rewrite (m_tok _ _ _ _ T) by exact N. apply (j_end _ J _ _ Hx Ke).
  - rewrite P. destruct (Nat.eqb_spec 0 p); [eauto|apply (j_zero _ J)].
  - intros i x. rewrite P. destruct (Nat.eqb_spec i p) as [->|N]; [intros [= <-]; rewrite Hk; apply (j_main _ J _ _ Hr)|apply (j_main _ J)].
Qed.
Lemma Jc_stopped p r o S S' : Jc S -> stopped p r o S S' -> proc_at p S = Some r -> tok p S = 0 -> (forall t, ~ role_at (pown r) (RTime t) S) ->
  (forall g, o = Good (XCont g) -> outside g) -> Jc S'.
Proof.
  intros J T Hr Tk Ro Hg. pose proof (stopped_proc _ _ _ _ _ T Hr) as P. constructor.
  - intros i x. rewrite P. destruct (Nat.eqb_spec i p) as [->|N]; [intros [= <-]; left; exact I|apply (j_code _ J)].
  - intros ev g. destruct (Nat.eq_dec ev (pown r)) as [->|N]; [rewrite (s_own _ _ _ _ _ T); intros [= E]; auto|rewrite (s_vals _ _ _ _ _ T _ N); apply (j_val _ J)].
  - intros ev t R. apply (s_role _ _ _ _ _ T) in R. destruct (Nat.eq_dec ev (pown r)) as [->|N]; [elim (Ro t R)|]. rewrite (s_vals _ _ _ _ _ T _ N). apply (j_time _ J _ t R).
  - intros i x. rewrite P, (s_tok _ _ _ _ _ T). destruct (Nat.eqb_spec i p) as [->|N]; [auto|apply (j_end _ J)].
  - rewrite P. destruct (Nat.eqb_spec 0 p); [eauto|apply (j_zero _ J)].
  - intros i x. rewrite P. destruct (Nat.eqb_spec i p) as [->|N]; [intros [= <-]; apply (j_main _ J _ _ Hr)|apply (j_main _ J)].
Qed.

(** ** Phases and steps of processes *)

Definition norun (l : list work) : Prop := forall p o, ~ In (WRun p o) l.
Definition okrun (p : nat) (o : outcome) (S : sim) : Prop :=
  (forall g, o = Good (XCont g) -> outside g) /\
  forall r, proc_at p S = Some r -> firm (pcode r) -> ~ soft (pkind r) -> value_of (ptarget r) S = Some o.
Definition runnable (S : sim) : Prop := match todo S with WRun p o :: l => okrun p o S /\ norun l | l => norun l end.

Section Steps.
Variable O : oracle.
Variable s0 : st.
Notation phase := (phase O s0).
Notation all l := (List.concat (map (fun tr => loud (events tr)) l)).

(** No procedural process is running; the last one has ended properly, or not. *)
Definition free (S : sim) : Prop := exists l, story O s0 l (ss S) /\ rule_events S = all l /\ alone None S.
Definition broken (S : sim) : Prop := exists l s tail, story O s0 l s /\ rule_events S = all l ++ tail /\ alone None S /\ unfinished O s tail.

Lemma free_broken S : free S -> broken S.
Proof. intros (l & St & E & A). exists l, (ss S), []. rewrite app_nil_r. repeat split; auto. apply unfinished_nil. Qed.
Lemma free_keep S S' : rule_events S' = rule_events S -> rely (ss S) (ss S') -> (forall p r, proc_at p S' = Some r -> cyc (pcode r) -> proc_at p S = Some r) -> free S -> free S'.
Proof.
  intros E R N (l & St & El & A). exists l. split; [eapply story_rely; eauto|]. split; [congruence|]. intros p r Hp Hc. apply (A p r); auto.
Qed.
Lemma broken_keep S S' : rule_events S' = rule_events S -> (forall p r, proc_at p S' = Some r -> cyc (pcode r) -> proc_at p S = Some r) -> broken S -> broken S'.
Proof.
  intros E N (l & s & tail & St & El & A & U). exists l, s, tail. split; [exact St|]. split; [congruence|]. split; [|exact U]. intros p r Hp Hc. apply (A p r); auto.
Qed.
Lemma frame_cyc S S' p r : frame side S S' -> proc_at p S' = Some r -> cyc (pcode r) -> proc_at p S = Some r.
Proof.
  intros F Hp Hc. destruct (f_prs _ _ _ F) as (new & En & Fn). unfold proc_at in *. rewrite En in Hp. destruct (Nat.lt_ge_cases p (List.length (prs S))) as [L|L].
  - rewrite nth_error_app1 in Hp; auto.
  - rewrite nth_error_app2 in Hp by exact L. elim (side_not_cyc (pcode r)); [|exact Hc]. apply (nth_Forall _ _ _ _ Fn Hp).
Qed.
Lemma free_frame S S' : frame side S S' -> free S -> free S'.
Proof. intros F. apply free_keep; [eapply rule_events_frame; exact F|apply (f_ss _ _ _ F)|]. intros p r. apply frame_cyc. exact F. Qed.
Lemma broken_frame S S' : frame side S S' -> broken S -> broken S'.
Proof. intros F. apply broken_keep; [eapply rule_events_frame; exact F|]. intros p r. apply frame_cyc. exact F. Qed.
Lemma free_moved p r r' S S' : moved p r' S S' -> proc_at p S = Some r -> ~ cyc (pcode r') -> free S -> free S'.
Proof.
  intros T Hr Nc. apply free_keep; [unfold rule_events; rewrite (m_log _ _ _ _ T); reflexivity|rewrite (m_ss _ _ _ _ T); apply rely_refl|].
  intros i x. rewrite (moved_proc _ _ _ _ _ T Hr). destruct (Nat.eqb_spec i p) as [->|N]; [intros [= <-]; contradiction|auto].
Qed.
Lemma broken_stopped p r o S S' : stopped p r o S S' -> proc_at p S = Some r -> broken S -> broken S'.
Proof.
  intros T Hr. apply broken_keep; [unfold rule_events; rewrite (s_log _ _ _ _ _ T); reflexivity|].
  intros i x. rewrite (stopped_proc _ _ _ _ _ T Hr). destruct (Nat.eqb_spec i p) as [->|N]; [intros [= <-] []|auto].
Qed.
Lemma phase_free S m : free S -> proc_at 0 S = Some m -> (pcode m = KProcAct \/ exists k, pcode m = KProcZero k) -> phase S.
Proof.
  intros (l & St & E & A) Hm Hc. exists m, l, (ss S), []. rewrite app_nil_r. split; [exact Hm|]. split; [exact St|]. split; [exact E|].
  destruct Hc as [->|(k & ->)]; auto.
Qed.
Lemma phase_broken S m : broken S -> proc_at 0 S = Some m -> pcode m = KEnd -> phase S.
Proof.
  intros (l & s & tail & St & E & A & U) Hm Hc. exists m, l, s, tail. split; [exact Hm|]. split; [exact St|]. split; [exact E|]. rewrite Hc. auto.
Qed.

(** The main process goes on only when the procedural process that it waits for has ended. *)
Lemma main_free S m o : Inv S -> phase S -> proc_at 0 S = Some m -> pcode m <> KEnd -> (firm (pcode m) -> value_of (ptarget m) S = Some o) ->
  kind_of (pcode m) = Some GMain -> (forall v, o = Good v -> free S) /\ broken S.
Proof.
  intros H (m' & l & s & tail & Hm' & St & E & Ph) Hm Ne Hf Hk. assert (m' = m) by congruence. subst m'.
  assert (Fr : alone None S /\ tail = [] /\ s = ss S -> (forall v, o = Good v -> free S) /\ broken S).
  { intros (A & -> & ->). rewrite app_nil_r in E. assert (F : free S) by (exists l; auto). split; [auto|]. apply free_broken. exact F. }
  destruct (pcode m) eqn:Ec; try discriminate Hk; try exact (Fr Ph).
  destruct Ph as (q & r & Hq & Kq & Oq & A & P). specialize (Hf I). rewrite <- Oq in Hf.
  destruct (i_own _ H _ _ Hq) as (e & He & _ & V). unfold value_of in Hf. rewrite He in Hf.
  destruct (kend_dec (pcode r)) as [Ke|Ke]; [|apply V in Ke; congruence].
  assert (A' : alone None S).
  { intros i x Hx Hc. specialize (A i x Hx Hc). injection A as ->. assert (x = r) by congruence. subst x. rewrite Ke in Hc. destruct Hc. }
  unfold progress in P. rewrite Ke in P. unfold value_of in P. rewrite He, Hf in P. destruct o as [v|t].
  - apply Fr. destruct P. auto.
  - split; [discriminate|]. exists l, s, tail. auto.
Qed.

(** Processes other than the main and the procedural ones. *)
Lemma phase_moved p r r' S S' : Inv S -> moved p r' S S' -> proc_at p S = Some r -> p <> 0 -> (forall n, pkind r <> Some (GLocal true n)) -> ~ cyc (pcode r') -> phase S -> phase S'.
Proof.
  intros H T Hr N0 Nl Nc. pose proof (moved_proc _ _ _ _ _ T Hr) as P. apply phase_keep; auto.
  - unfold rule_events. rewrite (m_log _ _ _ _ T). reflexivity.
  - rewrite (m_ss _ _ _ _ T). apply rely_refl.
  - rewrite P. destruct (Nat.eqb_spec 0 p); [congruence|reflexivity].
  - intros i x. rewrite P. destruct (Nat.eqb_spec i p) as [->|N]; [intros [= <-]; contradiction|auto].
  - intros i x n Hi Hk. rewrite (moved_value _ _ _ _ _ T). split; [|reflexivity]. rewrite P. destruct (Nat.eqb_spec i p) as [->|N]; [|exact Hi].
    elim (Nl n). congruence.
Qed.
Lemma phase_stopped p r o S S' : Inv S -> stopped p r o S S' -> proc_at p S = Some r -> p <> 0 -> (forall n, pkind r <> Some (GLocal true n)) -> phase S -> phase S'.
Proof.
  intros H T Hr N0 Nl. pose proof (stopped_proc _ _ _ _ _ T Hr) as P. apply phase_keep; auto.
  - unfold rule_events. rewrite (s_log _ _ _ _ _ T). reflexivity.
  - rewrite (s_ss _ _ _ _ _ T). apply rely_refl.
  - rewrite P. destruct (Nat.eqb_spec 0 p); [congruence|reflexivity].
  - intros i x. rewrite P. destruct (Nat.eqb_spec i p) as [->|N]; [intros [= <-] []|auto].
  - intros i x n Hi Hk. assert (N : i <> p) by (intros ->; apply (Nl n); congruence).
    rewrite P. destruct (Nat.eqb_spec i p); [contradiction|]. split; [exact Hi|]. apply (s_vals _ _ _ _ _ T).
    destruct (i_own _ H _ _ Hi) as (e1 & He1 & R1 & _). destruct (i_own _ H _ _ Hr) as (e2 & He2 & R2 & _). intros E. rewrite E in He1. congruence.
Qed.

(** ** A resumed process *)

(** What remains to be shown when the code of the process has run. *)
Lemma after_wait S p r c ev l : Inv S -> Jc S -> proc_at p S = Some r -> lands (pkind r) (NWait c ev) S -> (tame c \/ cyc c) -> c <> KEnd -> todo S = l -> norun l ->
  let S' := hand_over p ev (set_prc p (fun r => MkPrc (pkind r) (pown r) (ptarget r) c) S) in
  (forall r', moved p r' S S' -> pkind r' = pkind r -> pown r' = pown r -> pcode r' = c -> (firm c -> ptarget r' = ev) -> phase S') ->
  Jc S' /\ phase S' /\ runnable S'.
Proof.
  intros H J Hr (Hk & (e & He & _) & _ & Hp) Hc Ne Et Nr S' Ph.
  destruct (hand_over_moved S p r c ev e Hr He Hp) as (r' & T & K' & O' & C' & F' & Td). fold S' in T, Td.
  assert (J' : Jc S') by (apply (Jc_moved p r r' S); auto; rewrite C'; auto).
  split; [exact J'|]. split; [apply (Ph r'); auto|]. unfold runnable. rewrite Et in Td.
  destruct Td as [->|(o & -> & Nf & V)].
  - destruct l as [|[]]; auto. elim (Nr p0 o). left. reflexivity.
  - split; [|exact Nr]. split.
    + intros g ->. apply (j_val _ J ev). exact V.
    + intros x Hx. rewrite (moved_proc _ _ _ _ _ T Hr), Nat.eqb_refl in Hx. injection Hx as <-. rewrite C'. contradiction.
Qed.
Lemma after_end S p r o l : Inv S -> Jc S -> proc_at p S = Some r -> tok p S = 0 -> (forall g, o = Good (XCont g) -> outside g) -> todo S = l -> norun l ->
  (stopped p r o S (end_process p o S) -> phase (end_process p o S)) ->
  Jc (end_process p o S) /\ phase (end_process p o S) /\ runnable (end_process p o S).
Proof.
  intros H J Hr Tk Hg Et Nr Ph. pose proof (end_process_stopped S p r o H Hr) as T. split; [|split; [auto|]].
  - apply (Jc_stopped p r o S); auto. intros t (e & He & R). destruct (i_own _ H _ _ Hr) as (e' & He' & R' & _). congruence.
  - unfold runnable. rewrite (s_todo _ _ _ _ _ T), Et. destruct l as [|[]]; auto. elim (Nr p0 o0). left. reflexivity.
Qed.

(** *** Results *)

Definition gives {A} (P : A -> Prop) (m : M A) : Prop := forall S S' a, m S = (S', inl a) -> P a.
Lemma gives_bind {A B} (P : B -> Prop) (m : M A) (k : A -> M B) : (forall a, gives P (k a)) -> gives P (bind m k).
Proof. intros H S S' b. unfold bind. destruct (m S) as [S1 [a|t]]; [apply H|discriminate]. Qed.
Lemma gives_ret {A} (P : A -> Prop) (a : A) : P a -> gives P (ret a).
Proof. intros H S S' b [= _ <-]. exact H. Qed.
Lemma gives_throw {A} (P : A -> Prop) t : gives P (throw t).
Proof. intros S S' b [=]. Qed.
Definition rests (x : nxt) : Prop := match x with NWait KProcAct _ | NWait (KProcZero _) _ => True | _ => False end.
Lemma zero_gives k : gives rests (zero k).
Proof. apply gives_bind. intros ev. apply gives_ret. exact I. Qed.
Lemma proc_loop_gives p : gives rests (proc_loop p).
Proof.
  apply gives_bind. intros S. destruct (remove_procedural _) as [l|]; [|apply gives_ret; exact I].
  apply gives_bind. intros _. apply gives_bind. intros _. apply zero_gives.
Qed.
Lemma main_gives p c o : kind_of c = Some GMain -> special c = false -> gives (fun x => rests x /\ exists v, o = Good v) (go_on O p c o).
Proof.
  intros K Sp. destruct o as [v|t].
  2:{ destruct c; try discriminate; try (destruct more; [discriminate|]); apply gives_throw. }
  assert (G : gives rests (go_on O p c (Good v))).
  { destruct c; try discriminate; cbn [go_on].
    - apply gives_bind. intros _. apply gives_bind. intros _. apply proc_loop_gives.
    - apply zero_gives.
    - destruct more; [discriminate|apply zero_gives]. }
  intros S S' x E. split; [exact (G _ _ _ E)|eauto].
Qed.

(** *** The main process *)

Lemma run_main p o r l S : Inv S -> Jc S -> phase S -> todo S = l -> norun l -> proc_at p S = Some r -> tok p S = 0 -> pcode r <> KEnd ->
  okrun p o S -> pkind r = Some GMain ->
  match go_on O p (pcode r) o S with
  | (S', inl (NWait c ev)) => let S'' := hand_over p ev (set_prc p (fun r => MkPrc (pkind r) (pown r) (ptarget r) c) S') in Jc S'' /\ phase S'' /\ runnable S''
  | (S', inl (NDone v)) => let S'' := end_process p (Good v) S' in Jc S'' /\ phase S'' /\ runnable S''
  | (S', inr t) => let S'' := end_process p (Bad t) S' in Jc S'' /\ phase S'' /\ runnable S''
  end.
Proof.
  intros H J Ph Et Nr Hr Tk Ne [Hx Hf] Km. assert (p = 0) by (apply (j_main _ J _ _ Hr); exact Km). subst p.
  destruct (i_kind _ H _ _ Hr) as [[Kk|Kk] _]; [contradiction|]. rewrite Km in Kk. symmetry in Kk.
  destruct (main_free S r o H Ph Hr Ne) as [Fr Br]; [intros F; apply Hf; auto; rewrite Km; exact (fun x => x)|exact Kk|].
  assert (En : forall t S', Inv S' -> Jc S' -> proc_at 0 S' = Some r -> tok 0 S' = 0 -> broken S' -> todo S' = l ->
                let S'' := end_process 0 (Bad t) S' in Jc S'' /\ phase S'' /\ runnable S'').
  { intros t S' H' J' Hr' Tk' Br' Et'. apply (after_end S' 0 r (Bad t) l); auto; [discriminate|]. intros T.
    apply (phase_broken _ (MkPrc (pkind r) (pown r) (ptarget r) KEnd)); [apply (broken_stopped 0 r (Bad t) S'); auto| |reflexivity].
    rewrite (stopped_proc _ _ _ _ _ T Hr'). reflexivity. }
  destruct (special (pcode r)) eqn:Sp.
  - (* a new procedural process *)
    assert (Go : exists first, go_on O 0 (pcode r) o = match o with
                   | Good _ => let! S := get in let! pro := spawn (KLocal0 true PROCEDURAL (procedural O (seconds_of (now S)))) in wait_for (KProcPro first) pro
                   | Bad t => throw t end).
    { clear - Kk Sp. revert Kk Sp. destruct (pcode r); try discriminate; intros _ Sp; try (destruct more; [|discriminate]); try (destruct isproc; discriminate); first [exists true; destruct o; reflexivity | exists false; destruct o; reflexivity]. }
    destruct Go as (first & ->). destruct o as [v|t]; [|unfold throw; apply En; auto].
    set (c := KLocal0 true PROCEDURAL (procedural O (seconds_of (now S)))). set (q := List.length (prs S)).
    pose proof (tri2_spawn_proc (procedural O (seconds_of (now S))) (KProcPro first) S H ltac:(destruct first; auto)) as T2.
    unfold tri2 in T2. change (bind get (fun S => let! pro := spawn (KLocal0 true PROCEDURAL (procedural O (seconds_of (now S)))) in wait_for (KProcPro first) pro) S)
      with ((let! pro := spawn c in wait_for (KProcPro first) pro) S). fold c in T2.
    assert (Eg : (let! pro := spawn c in wait_for (KProcPro first) pro) S = (spawned c S, inl (NWait (KProcPro first) (List.length (evs S))))).
    { unfold bind. rewrite spawn_eq. unfold wait_for, bind, get, ret. do 3 f_equal. unfold own_event.
      pose proof (spawned_new c S) as N. unfold proc_at in N. rewrite N. reflexivity. }
    rewrite Eg in T2 |- *. destruct T2 as (H' & W & L). cbn iota. set (S' := spawned c S) in *.
    pose proof (frame_spawned (fun x => x = c) c S eq_refl) as F. fold S' in F.
    assert (J' : Jc S').
    { apply (Jc_frame (fun x => x = c) S); auto. intros x ->. split; [right; exact I|split; discriminate]. }
    assert (Hr' : proc_at 0 S' = Some r) by (eapply frame_proc; eauto).
    apply (after_wait S' 0 r _ _ l); auto; [rewrite Km; exact L|left; exact I|discriminate|].
    intros r' T K' O' C' F'. destruct (Fr v eq_refl) as (ls & St & Ev & A).
    pose proof (moved_proc _ _ _ _ _ T Hr') as P. set (S'' := hand_over _ _ _) in *.
    exists r', ls, (ss S''), []. split; [rewrite P; reflexivity|]. rewrite (m_ss _ _ _ _ T). split; [exact St|]. rewrite app_nil_r. unfold rule_events. rewrite (m_log _ _ _ _ T).
    split; [exact Ev|]. rewrite C'. exists q, (MkPrc (kind_of c) (List.length (evs S)) (Datatypes.S (List.length (evs S))) c).
    assert (Nq : q <> 0). { unfold q. intros E. assert (0 < List.length (prs S)) by (apply nth_error_Some; unfold proc_at in Hr; congruence). lia. }
    split; [rewrite P; destruct (Nat.eqb_spec q 0); [contradiction|]; apply spawned_new|]. split; [reflexivity|]. split; [symmetry; apply F'; exact I|].
    split.
    + intros i x. rewrite P. destruct (Nat.eqb_spec i 0) as [->|N]; [intros [= <-]; rewrite C'; intros []|].
      unfold proc_at, S', spawned. cbn [prs set_prs set_queue]. intros Hi Hc. apply nth_snoc in Hi. destruct Hi as [Hi|[-> _]]; [|reflexivity].
      specialize (A i x Hi Hc). discriminate.
    + cbn. split; [reflexivity|]. split; [rewrite (m_ss _ _ _ _ T); reflexivity|eauto].
  - pose proof (main_gives 0 (pcode r) o Kk Sp) as G.
    assert (T : tri side (go_on O 0 (pcode r) o) S (lands2 (Some GMain))).
    { apply (go_on_side O 0 (pcode r) (Some GMain) o (ptarget r) S H Kk Ne (i_fits _ H _ _ Hr)); auto.
      - intros v t -> D. revert Kk D. destruct (pcode r); discriminate.
      - eapply tame_kind; [exact Kk|auto]. }
    unfold tri in T. destruct (go_on O 0 (pcode r) o S) as [S' x] eqn:Eg. destruct T as (H' & F & L).
    assert (J' : Jc S') by (apply (Jc_frame side S); auto; apply side_fresh).
    assert (Hr' : proc_at 0 S' = Some r) by (eapply frame_proc; eauto).
    assert (Et' : todo S' = l) by (rewrite (f_todo _ _ _ F); exact Et).
    assert (Tk' : tok 0 S' = 0). { unfold tok, tokT in *. rewrite (f_todo _ _ _ F), (f_tok _ _ _ F); [exact Tk|]. apply nth_error_Some. unfold proc_at in Hr. congruence. }
    destruct x as [x|t]; [|apply En; auto; eapply broken_frame; eauto].
    destruct (G _ _ _ Eg) as [Rs (v & Ev)]. destruct x as [c ev|v']; [|destruct Rs].
    apply (after_wait S' 0 r c ev l); auto; [rewrite Km; apply L|left; apply L|destruct c; discriminate || destruct Rs|].
    intros r' T K' O' C' F'. apply (phase_free _ r'); [|rewrite (moved_proc _ _ _ _ _ T Hr'); reflexivity|].
    + apply (free_moved 0 r r' S'); auto; [rewrite C'; destruct c; exact (fun x => x) || destruct Rs|]. eapply free_frame; eauto.
    + rewrite C'. destruct c; try destruct Rs; eauto.
Qed.

(** *** Other processes *)

Lemma run_other p o r l S : Inv S -> Jc S -> phase S -> todo S = l -> norun l -> proc_at p S = Some r -> tok p S = 0 -> pcode r <> KEnd ->
  okrun p o S -> (forall v t, o = Good v -> due (pcode r) = Some t -> now S = t) -> pkind r <> Some GMain -> ~ cyc (pcode r) ->
  match go_on O p (pcode r) o S with
  | (S', inl (NWait c ev)) => let S'' := hand_over p ev (set_prc p (fun r => MkPrc (pkind r) (pown r) (ptarget r) c) S') in Jc S'' /\ phase S'' /\ runnable S''
  | (S', inl (NDone v)) => let S'' := end_process p (Good v) S' in Jc S'' /\ phase S'' /\ runnable S''
  | (S', inr t) => let S'' := end_process p (Bad t) S' in Jc S'' /\ phase S'' /\ runnable S''
  end.
Proof.
  intros H J Ph Et Nr Hr Tk Ne [Hx Hf] Hd Km Nc.
  assert (N0 : p <> 0). { intros E. apply Km. apply (j_main _ J _ _ Hr). exact E. }
  destruct (i_kind _ H _ _ Hr) as [[Kk|Kk] Kn]; [contradiction|].
  assert (Sp : special (pcode r) = false).
  { rewrite Kk in Km. clear - Km Nc. revert Km Nc. destruct (pcode r); cbn; intros Km Nc; try reflexivity; try congruence; try (destruct isproc; [elim Nc; exact I|reflexivity]). }
  assert (Nl : forall n, pkind r <> Some (GLocal true n)).
  { intros n E. rewrite E in Kk. clear - Kk Nc. revert Kk Nc. destruct (pcode r); try discriminate; intros Kk Nc; injection Kk as <- _; apply Nc; exact I. }
  assert (Tm : tame (pcode r)) by (destruct (j_code _ J _ _ Hr); [assumption|contradiction]).
  pose proof (go_on_side O p (pcode r) (pkind r) o (ptarget r) S H (eq_sym Kk) Ne (i_fits _ H _ _ Hr) (i_env _ H _ _ Hr) Hd Sp Tm Hx) as T. unfold tri in T.
  destruct (go_on O p (pcode r) o S) as [S' x] eqn:Eg. destruct T as (H' & F & L).
  assert (J' : Jc S') by (apply (Jc_frame side S); auto; apply side_fresh).
  assert (Hr' : proc_at p S' = Some r) by (eapply frame_proc; eauto).
  assert (Et' : todo S' = l) by (rewrite (f_todo _ _ _ F); exact Et).
  assert (Tk' : tok p S' = 0). { unfold tok, tokT in *. rewrite (f_todo _ _ _ F), (f_tok _ _ _ F); [exact Tk|]. apply nth_error_Some. unfold proc_at in Hr. congruence. }
  assert (Ph' : phase S') by exact (phase_frame O s0 S S' H F Ph).
  destruct x as [[c ev|v]|t].
  - destruct L as [L Tc]. assert (Kc : kind_of c = pkind r) by apply L.
    apply (after_wait S' p r c ev l); auto; [intros ->; apply Kn; symmetry; exact Kc|].
    intros r' T K' O' C' F'. apply (phase_moved p r r' S'); auto. rewrite C'. destruct c; try exact (fun x => x); destruct isproc; try exact (fun x => x); destruct Tc.
  - destruct L as [_ Tv]. apply (after_end S' p r (Good v) l); auto; [intros g [= ->]; exact Tv|]. intros T. apply (phase_stopped p r (Good v) S'); auto.
  - apply (after_end S' p r (Bad t) l); auto; [discriminate|]. intros T. apply (phase_stopped p r (Bad t) S'); auto.
Qed.

(** *** The procedural process *)

Record ctx (p : nat) (r m : prc) (ls : list (list hop)) (s : st) (tail : list event) (S : sim) : Prop := MkCtx {
  c_main : proc_at 0 S = Some m;
  c_code : exists first, pcode m = KProcPro first;
  c_proc : proc_at p S = Some r;
  c_kind : pkind r = Some (GLocal true PROCEDURAL);
  c_own : pown r = ptarget m;
  c_alone : alone (Some p) S;
  c_story : story O s0 ls s;
  c_log : rule_events S = all ls ++ tail }.
Lemma ctx_frame p r m ls s tail S S' : frame side S S' -> ctx p r m ls s tail S -> ctx p r m ls s tail S'.
Proof.
  intros F C. constructor; try apply C.
  - eapply frame_proc; [exact F|apply C].
  - eapply frame_proc; [exact F|apply C].
  - intros i x Hi Hc. apply (c_alone _ _ _ _ _ _ _ C i x); [|exact Hc]. eapply frame_cyc; eauto.
  - rewrite (rule_events_frame _ _ _ F). apply C.
Qed.
Lemma ctx_same p r m ls s tail tail' S S' : prs S' = prs S -> rule_events S' = all ls ++ tail' -> ctx p r m ls s tail S -> ctx p r m ls s tail' S'.
Proof.
  intros E L C. assert (P : forall i, proc_at i S' = proc_at i S) by (intros i; unfold proc_at; rewrite E; reflexivity).
  constructor; try apply C; try (rewrite P; apply C); [|exact L]. intros i x. rewrite P. apply (c_alone _ _ _ _ _ _ _ C).
Qed.
Lemma ctx_nonzero p r m ls s tail S : Jc S -> ctx p r m ls s tail S -> p <> 0.
Proof. intros J C ->. pose proof (j_main _ J _ _ (c_proc _ _ _ _ _ _ _ C)) as [_ M]. pose proof (c_kind _ _ _ _ _ _ _ C). rewrite M in H by reflexivity. discriminate. Qed.

(** The generator of the procedural process is [g], and its next step begins in [S]. *)
Definition ready (t : Z) (s : st) (tr : list hop) (g : gen) (tail : list event) (S : sim) : Prop :=
  (tr = [] /\ g = procedural O (seconds_of t) /\ s = ss S /\ tail = []) \/
  (exists s2, reach rely (procedural O (seconds_of t)) s tr s2 g /\ rely s2 (ss S) /\ tail = loud (events tr)).
Lemma ready_next t s tr g tail S s' ns o : ready t s tr g tail S -> resume g (ss S) = (s', ns, o) ->
  match o with
  | ODone => exists tr', runs rely (procedural O (seconds_of t)) s tr' FDone /\ last (map hafter tr') s = s' /\ loud (events tr') = tail
  | ORaise _ => unfinished O s tail
  | OYield e k => exists tr' l, reach rely (procedural O (seconds_of t)) s tr' s' k /\ events tr' = l ++ [e] /\ loud l = tail
  | OCont _ => False
  end.
Proof.
  intros R E.
  assert (G : forall tr2 f, runs rely g (ss S) tr2 f -> runs rely (procedural O (seconds_of t)) s (tr ++ tr2) f).
  { intros tr2 f Hr. destruct R as [(-> & -> & -> & _)|(s2 & R1 & R2 & _)]; [exact Hr|]. eapply reach_runs; eauto. }
  assert (L : tail = loud (events tr)) by (destruct R as [(-> & _ & _ & ->)|(s2 & _ & _ & ->)]; reflexivity).
  destruct o as [|x|e k|k].
  - exists (tr ++ [MkHop (ss S) ns None s']). split; [apply G; constructor; exact E|]. rewrite map_app; cbn [map hafter]; rewrite last_last. split; [reflexivity|].
    rewrite events_app. cbn. rewrite app_nil_r. symmetry. exact L.
  - exists t, (tr ++ [MkHop (ss S) ns None s']), (FRaise x), []. split; [apply G; constructor; exact E|]. rewrite events_app. cbn. rewrite !app_nil_r. symmetry. exact L.
  - exists (tr ++ [MkHop (ss S) ns (Some e) s']), (events tr). rewrite events_app. split; [|auto].
    destruct R as [(-> & -> & -> & _)|(s2 & R1 & R2 & _)]; [constructor; exact E|]. eapply reach_snoc; eauto.
  - assert (Rc : runs rely (procedural O (seconds_of t)) s (tr ++ [MkHop (ss S) ns None s']) (FCont k)) by (apply G; constructor; exact E).
    destruct (procedural_cycle _ _ _ _ _ Rc) as (_ & _ & _ & _ & _ & N). elim (N k eq_refl).
Qed.

Lemma phase_cyc_end p r m ls s tail o S S' : Inv S -> Jc S -> ctx p r m ls s tail S -> stopped p r o S S' ->
  match o with
  | Good _ => exists ls', story O s0 ls' (ss S) /\ all ls' = all ls ++ tail
  | Bad _ => unfinished O s tail
  end -> phase S'.
Proof.
  intros H J C T Ho. pose proof (stopped_proc _ _ _ _ _ T (c_proc _ _ _ _ _ _ _ C)) as P. pose proof (ctx_nonzero _ _ _ _ _ _ _ J C) as N0.
  assert (Main : proc_at 0 S' = Some m) by (rewrite P; destruct (Nat.eqb_spec 0 p); [congruence|apply C]).
  assert (A : alone (Some p) S').
  { intros i x. rewrite P. destruct (Nat.eqb_spec i p) as [->|N]; [reflexivity|apply (c_alone _ _ _ _ _ _ _ C)]. }
  assert (L : rule_events S' = all ls ++ tail) by (unfold rule_events; rewrite (s_log _ _ _ _ _ T); apply (c_log _ _ _ _ _ _ _ C)).
  destruct (c_code _ _ _ _ _ _ _ C) as (first & Cm).
  assert (Q : forall s' tail', progress O (MkPrc (pkind r) (pown r) (ptarget r) KEnd) s' tail' S' ->
    exists q r0, proc_at q S' = Some r0 /\ pkind r0 = Some (GLocal true PROCEDURAL) /\ pown r0 = ptarget m /\ alone (Some q) S' /\ progress O r0 s' tail' S').
  { intros s' tail' Pr. exists p, (MkPrc (pkind r) (pown r) (ptarget r) KEnd). split; [rewrite P, Nat.eqb_refl; reflexivity|]. split; [apply (c_kind _ _ _ _ _ _ _ C)|].
    split; [apply (c_own _ _ _ _ _ _ _ C)|]. auto. }
  destruct o as [v|t].
  - destruct Ho as (ls' & St & E). exists m, ls', (ss S'), []. split; [exact Main|]. split; [rewrite (s_ss _ _ _ _ _ T); exact St|].
    split; [rewrite app_nil_r; congruence|]. rewrite Cm. apply Q. unfold progress. cbn [pcode pown]. rewrite (s_own _ _ _ _ _ T). auto.
  - exists m, ls, s, tail. split; [exact Main|]. split; [apply C|]. split; [exact L|]. rewrite Cm. apply Q. unfold progress. cbn [pcode pown]. rewrite (s_own _ _ _ _ _ T). exact Ho.
Qed.

Lemma Jc_same S S' : evs S' = evs S -> prs S' = prs S -> todo S' = todo S -> Jc S -> Jc S'.
Proof.
  intros E1 E2 E3 J. assert (P : forall i, proc_at i S' = proc_at i S) by (intros i; unfold proc_at; rewrite E2; reflexivity).
  assert (Q : forall i, event_at i S' = event_at i S) by (intros i; unfold event_at; rewrite E1; reflexivity).
  constructor; intros *; unfold value_of, role_at, tok, tokE, tokT; rewrite ?P, ?Q, ?E1, ?E3; apply J.
Qed.

Lemma cyc_next p r m ls s tail t tr g S l : Inv S -> Jc S -> ctx p r m ls s tail S -> ready t s tr g tail S -> todo S = l -> norun l -> tok p S = 0 ->
  match local_next true PROCEDURAL g S with
  | (S', inl (NWait c ev)) => let S'' := hand_over p ev (set_prc p (fun r => MkPrc (pkind r) (pown r) (ptarget r) c) S') in Jc S'' /\ phase S'' /\ runnable S''
  | (S', inl (NDone v)) => let S'' := end_process p (Good v) S' in Jc S'' /\ phase S'' /\ runnable S''
  | (S', inr t) => let S'' := end_process p (Bad t) S' in Jc S'' /\ phase S'' /\ runnable S''
  end.
Proof.
  intros H J C R Et Nr Tk. unfold local_next. destruct (resume g (ss S)) as [[s' ns] o] eqn:E. pose proof (ready_next _ _ _ _ _ _ _ _ _ R E) as N.
  set (S1 := set_ss s' S). pose proof (Inv_ss s' S H) as H1. fold S1 in H1.
  assert (J1 : Jc S1) by (apply (Jc_same S); auto). assert (C1 : ctx p r m ls s tail S1) by (apply (ctx_same p r m ls s tail tail S); auto; apply C).
  assert (Bad_ : forall t' S2, Inv S2 -> Jc S2 -> ctx p r m ls s tail S2 -> todo S2 = l -> tok p S2 = 0 -> unfinished O s tail ->
            let S'' := end_process p (Bad t') S2 in Jc S'' /\ phase S'' /\ runnable S'').
  { intros t' S2 H2 J2 C2 Et2 Tk2 U. apply (after_end S2 p r (Bad t') l); auto; [apply C2|discriminate|]. intros T. apply (phase_cyc_end p r m ls s tail (Bad t') S2); auto. }
  destruct o as [|x|e k|k].
  - destruct N as (tr' & R' & Ls & Ll). apply (after_end S1 p r (Good XProcs) l); auto; [apply C1|discriminate|]. intros T.
    apply (phase_cyc_end p r m ls s tail (Good XProcs) S1); auto. exists (ls ++ [tr']). split.
    + eapply story_snoc; [apply C|exact R'|]. rewrite Ls. apply rely_refl.
    + rewrite map_app, concat_app. cbn. rewrite app_nil_r, Ll. reflexivity.
  - apply Bad_; auto.
  - destruct N as (tr' & l0 & R' & Le & Ll).
    assert (U : unfinished O s tail).
    { exists t, (tr' ++ []), FCut, (loud [e]). split; [eapply reach_runs; [exact R'|apply rely_refl|constructor]|]. rewrite app_nil_r, Le, loud_app, Ll. reflexivity. }
    assert (T : tri side (let! ev := timeout (etime e - now S1) in ret (NWait (KLocal true PROCEDURAL e k) ev)) S1 (fun x S2 => lands (Some (GLocal true PROCEDURAL)) x S2 /\ exists ev, x = NWait (KLocal true PROCEDURAL e k) ev)).
    { eapply tri_bind; [apply tri_timeout with (Q := fun ev S' => role_at ev (RTime (etime e)) S' /\ processed ev S' = false); auto|].
      - intros ev S2 Rr P. split; [|exact P]. replace (etime e) with (now S1 + (etime e - now S1))%Z by lia. exact Rr.
      - intros ev S2 H2 F2 [Rr P]. apply tri_ret; [exact H2|]. split; [|eauto]. cbn. repeat split; auto. eapply role_not_int; [exact Rr|discriminate]. }
    unfold tri in T. destruct (bind _ _ S1) as [S2 x]. destruct T as (H2 & F & L).
    assert (J2 : Jc S2) by (apply (Jc_frame side S1); auto; apply side_fresh). pose proof (ctx_frame _ _ _ _ _ _ _ _ F C1) as C2.
    assert (Et2 : todo S2 = l) by (rewrite (f_todo _ _ _ F); exact Et).
    assert (Tk2 : tok p S2 = 0). { unfold tok, tokT in *. rewrite (f_todo _ _ _ F), (f_tok _ _ _ F); [exact Tk|]. apply nth_error_Some. pose proof (c_proc _ _ _ _ _ _ _ C1) as Hp. unfold proc_at in Hp. congruence. }
    destruct x as [x|t']; [|apply Bad_; auto]. destruct L as [L (ev & ->)]. pose proof (c_proc _ _ _ _ _ _ _ C2) as Hr2.
    apply (after_wait S2 p r _ ev l); auto; [rewrite (c_kind _ _ _ _ _ _ _ C); exact L|right; exact I|discriminate|].
    intros r' T K' O' C' F'. pose proof (moved_proc _ _ _ _ _ T Hr2) as P. pose proof (ctx_nonzero _ _ _ _ _ _ _ J C) as N0. set (S3 := hand_over _ _ _) in *.
    exists m, ls, s, tail. split; [rewrite P; destruct (Nat.eqb_spec 0 p); [congruence|apply C2]|]. split; [apply C|].
    split; [unfold rule_events; rewrite (m_log _ _ _ _ T); apply (c_log _ _ _ _ _ _ _ C2)|]. destruct (c_code _ _ _ _ _ _ _ C) as (first & ->).
    exists p, r'. split; [rewrite P, Nat.eqb_refl; reflexivity|]. split; [rewrite K'; apply C|]. split; [rewrite O'; apply C|].
    split.
    + intros i x. rewrite P. destruct (Nat.eqb_spec i p) as [->|N]; [reflexivity|apply (c_alone _ _ _ _ _ _ _ C2)].
    + unfold progress. rewrite C'. exists t, tr', s', l0. split; [exact R'|]. split; [exact Le|]. split; [auto|]. rewrite (m_ss _ _ _ _ T). apply (f_ss _ _ _ F).
  - destruct N.
Qed.

Lemma run_cyc p o r l S : Inv S -> Jc S -> phase S -> todo S = l -> norun l -> proc_at p S = Some r -> tok p S = 0 ->
  okrun p o S -> (forall v t, o = Good v -> due (pcode r) = Some t -> now S = t) -> cyc (pcode r) ->
  match go_on O p (pcode r) o S with
  | (S', inl (NWait c ev)) => let S'' := hand_over p ev (set_prc p (fun r => MkPrc (pkind r) (pown r) (ptarget r) c) S') in Jc S'' /\ phase S'' /\ runnable S''
  | (S', inl (NDone v)) => let S'' := end_process p (Good v) S' in Jc S'' /\ phase S'' /\ runnable S''
  | (S', inr t) => let S'' := end_process p (Bad t) S' in Jc S'' /\ phase S'' /\ runnable S''
  end.
Proof.
  intros H J (m & ls & s & tail & Hm & St & Ev & Ph) Et Nr Hr Tk [Hx Hf] Hd Hc.
  assert (Cm : exists first, pcode m = KProcPro first).
  { revert Ph. destruct (pcode m); eauto; intros (A & _); specialize (A p r Hr Hc); discriminate. }
  pose proof Cm as (first & Em). rewrite Em in Ph. destruct Ph as (q & r' & Hq & Kq & Oq & A & Pr).
  pose proof (A p r Hr Hc) as Eq. injection Eq as ->. assert (r' = r) by congruence. subst r'.
  assert (C : ctx p r m ls s tail S) by (constructor; auto).
  assert (Nm : forall n b, kind_of (pcode r) = Some (GLocal b n) -> n = PROCEDURAL /\ b = true).
  { intros n b E. destruct (i_kind _ H _ _ Hr) as [[K|K] _]; [rewrite K in Hc; destruct Hc|]. rewrite Kq, E in K. injection K as <- <-. auto. }
  unfold progress in Pr. assert (Hf' : firm (pcode r) -> value_of (ptarget r) S = Some o) by (intros F; apply Hf; auto; rewrite Kq; exact (fun x => x)).
  pose proof (i_fits _ H _ _ Hr) as Fi.
  destruct (pcode r) as [| | | | | | | |b n g|b n e g| | | | |] eqn:Ec; try destruct Hc.
  - destruct (Nm n b eq_refl) as [-> ->]. destruct Pr as (-> & -> & t & ->). destruct o as [v|t'].
    + cbn [go_on]. apply (cyc_next p r m ls (ss S) [] t []  _ S l); auto. left. auto.
    + cbn [go_on]. unfold throw. apply (after_end S p r (Bad t') l); auto. intros T. apply (phase_cyc_end p r m ls (ss S) [] (Bad t') S); auto. apply unfinished_nil.
  - destruct (Nm n b eq_refl) as [-> ->]. destruct Pr as (t & tr & s2 & l0 & R1 & R2 & R3 & R4).
    specialize (Hf' I). assert (o = Good XUnit) by (pose proof (j_time _ J _ _ Fi); congruence). subst o. cbn [go_on].
    pose proof (tri2_note e S H (Hd XUnit (etime e) eq_refl eq_refl)) as N. unfold tri2, note, upd_ in N. destruct N as (H1 & _).
    set (S1 := set_log (log S ++ [(now S, e)]) S) in *.
    assert (T : tri side (activate e ;! interact) S1 (fun _ _ => True)).
    { eapply tri_bind with (Q1 := fun _ _ => True); [apply tri_activate; auto|]. intros _ S2 H2 _ _. apply tri_interact; auto. }
    unfold tri in T.
    assert (Eb : forall k : M nxt, (note e ;! activate e ;! interact ;! k) S = match (activate e ;! interact) S1 with (S2, inl _) => k S2 | (S2, inr t) => (S2, inr t) end).
    { intros k. unfold note, upd_. unfold bind at 1. fold S1. unfold bind. destruct (activate e S1) as [S2 [[]|t2]]; [|reflexivity]. destruct (interact S2) as [S3 [[]|t3]]; reflexivity. }
    rewrite Eb. destruct ((activate e ;! interact) S1) as [S2 x]. destruct T as (H2 & F & _).
    assert (J1 : Jc S1) by (apply (Jc_same S); auto). assert (J2 : Jc S2) by (apply (Jc_frame side S1); auto; apply side_fresh).
    assert (C1 : ctx p r m ls s (loud (events tr)) S1).
    { apply (ctx_same p r m ls s tail _ S); auto. unfold rule_events, S1. cbn [log set_log]. rewrite map_app, loud_app. fold (rule_events S). rewrite Ev, R3, R2, loud_app, app_assoc. reflexivity. }
    pose proof (ctx_frame _ _ _ _ _ _ _ _ F C1) as C2.
    assert (Et2 : todo S2 = l) by (rewrite (f_todo _ _ _ F); exact Et).
    assert (Tk2 : tok p S2 = 0). { unfold tok, tokT in *. rewrite (f_todo _ _ _ F), (f_tok _ _ _ F); [exact Tk|]. apply nth_error_Some. unfold proc_at in Hr. cbn. congruence. }
    destruct x as [u|t'].
    + apply (cyc_next p r m ls s (loud (events tr)) t tr g S2 l); auto. right. exists s2. split; [exact R1|]. split; [|reflexivity].
      eapply rely_trans; [exact R4|apply (f_ss _ _ _ F)].
    + apply (after_end S2 p r (Bad t') l); auto; [apply C2|discriminate|]. intros T. apply (phase_cyc_end p r m ls s (loud (events tr)) (Bad t') S2); auto.
      exists t, (tr ++ []), FCut, []. split; [eapply reach_runs; [exact R1|apply rely_refl|constructor]|]. rewrite !app_nil_r. reflexivity.
Qed.

(** ** Steps of the simulation *)

Record told (S : sim) : Prop := MkTold { t_inv : Inv S; t_jc : Jc S; t_phase : phase S; t_run : runnable S }.

Lemma norun_tail w l : norun (w :: l) -> norun l.
Proof. intros H p o Hi. apply (H p o). right. exact Hi. Qed.
Lemma norun_runnable S : norun (todo S) -> runnable S.
Proof. intros H. unfold runnable. destruct (todo S) as [|[ev c|p o|ev] l]; auto. elim (H p o). left. reflexivity. Qed.
Lemma still_todo l S : still S (set_todo l S).
Proof. constructor; reflexivity. Qed.
Lemma tok_todo p l S : tok p (set_todo l S) = tokE p S + wsum p l.
Proof. reflexivity. Qed.
Lemma wsum_cons p w l : wsum p (w :: l) = tokW p w + wsum p l.
Proof. reflexivity. Qed.

Lemma told_step S w l : told S -> todo S = w :: l -> told (work_off O w (set_todo l S)).
Proof.
  intros [H J Ph Ru] E. pose proof (work_ok O w l S H E) as H'. set (S1 := set_todo l S) in *. destruct (Inv_tail _ _ _ H E) as [H1 _]. fold S1 in H1.
  assert (T1 : still S S1) by apply still_todo.
  assert (J1 : Jc S1). { apply (Jc_still S); auto. intros p r _ _. unfold S1. rewrite tok_todo. unfold tok, tokT. rewrite E, wsum_cons. lia. }
  assert (Ph1 : phase S1) by (apply (phase_still O s0 S); auto).
  assert (Nl : norun l). { unfold runnable in Ru. rewrite E in Ru. destruct w; [eapply norun_tail; eauto|apply Ru|eapply norun_tail; eauto]. }
  assert (Ru1 : runnable S1) by (apply norun_runnable; exact Nl).
  assert (Done : told S1) by (constructor; auto).
  destruct w as [ev [p|p|c]|p o|ev]; cbn [work_off] in *.
  - assert (Hin : In (WCb ev (CResume p)) (todo S)) by (rewrite E; left; reflexivity). destruct (i_resw _ H _ _ Hin) as (r & Hr & Ht).
    change (event_at ev S1) with (event_at ev S) in *. destruct (event_at ev S) as [e|] eqn:He; [|exact Done]. destruct (evalue e) as [o|] eqn:Ev; [|exact Done].
    set (S2 := exec_ (match o with Good _ => ret tt | Bad _ => defuse ev end) S1) in *.
    assert (T2 : still S1 S2) by (unfold S2; destruct o; [apply still_refl|apply still_defuse]).
    assert (T3 : still S1 (set_todo (WRun p o :: todo S1) S2)) by (eapply still_trans; [exact T2|apply still_todo]).
    assert (V : value_of ev S = Some o) by (unfold value_of; rewrite He; exact Ev).
    constructor; [exact H'| | |].
    + apply (Jc_still S); [eapply still_trans; eauto| |exact J]. intros q x Hq Hk. rewrite tok_todo. unfold tok, tokT. rewrite E, !wsum_cons.
      change (todo S1) with l. assert (Et : tokE q S2 = tokE q S) by (change (tokE q S) with (tokE q S1); unfold S2; destruct o; [reflexivity|apply esum_defuse]). rewrite Et. cbn [tokW]. lia.
    + apply (phase_still O s0 S1); auto.
    + unfold runnable. cbn [todo set_todo]. split; [|exact Nl]. split.
      * intros g ->. apply (j_val _ J ev). exact V.
      * intros x Hx _ _. assert (x = r). { unfold proc_at in *. cbn [prs set_todo] in Hx. rewrite (t_prs _ _ T2) in Hx. cbn in Hx. congruence. } subst x. rewrite Ht.
        change (value_of ev S2 = Some o). rewrite (still_value _ _ _ T2). exact V.
  - destruct (ended p S1) eqn:En; [exact Done|]. change (nth_error (prs S1) p) with (proc_at p S) in *. destruct (proc_at p S) as [r|] eqn:Hr; [|exact Done].
    assert (Hin : In (WCb ev (CInt p)) (todo S)) by (rewrite E; left; reflexivity).
    destruct (i_intw _ H _ _ Hin) as [_ (ei & Hei & Rei)]. destruct (i_role _ H _ _ _ Hei Rei) as (_ & r' & Hr' & So). assert (r' = r) by congruence. subst r'.
    assert (Ne : pcode r <> KEnd).
    { intros K. destruct (i_own _ H _ _ Hr) as (eo & Heo & _ & V). revert En. unfold ended, own_event, trig. change (nth_error (prs S1) p) with (proc_at p S). rewrite Hr.
      change (event_at (pown r) S1) with (event_at (pown r) S). rewrite Heo. unfold triggered. destruct (evalue eo); [discriminate|]. intros _. apply V; auto. }
    cbv zeta in *. set (S2 := exec_ _ S1) in *.
    assert (T2 : still S1 S2 /\ (forall q, q <> p -> tokE q S2 = tokE q S1) /\ todo S2 = todo S1).
    { unfold S2, exec_, set_event, upd_. cbn [fst]. destruct (nth_error (evs S1) (ptarget r)) as [e|] eqn:He; [|split; [apply still_refl|auto]].
      split; [apply (still_upd_event S1 _ e); auto|]. split; [|reflexivity]. intros q Nq. unfold tokE. cbn [evs set_evs]. apply (esum_same _ _ _ e _ He).
      unfold cbs_of. cbn [ecbs]. destruct (ecbs e); [|reflexivity]. rewrite remove_cres_other by congruence. reflexivity. }
    destruct T2 as (T2 & Tk2 & Td2). assert (T3 : still S1 (set_todo (WRun p (Bad TInterrupt) :: todo S2) S2)) by (eapply still_trans; [exact T2|apply still_todo]).
    constructor; [exact H'| | |].
    + apply (Jc_still S1); auto. intros q x Hq Hk. assert (Nq : q <> p) by (intros ->; change (proc_at p S = Some x) in Hq; congruence).
      rewrite tok_todo, wsum_cons, Td2, (Tk2 q Nq). unfold tok, tokT. cbn [tokW]. destruct (Nat.eqb_spec p q); [congruence|]. lia.
    + apply (phase_still O s0 S1); auto.
    + unfold runnable. cbn [todo set_todo]. rewrite Td2. split; [|exact Nl]. split; [discriminate|]. intros x Hx _ Ns. elim Ns.
      assert (x = r). { unfold proc_at in *. cbn [prs set_todo] in Hx. rewrite (t_prs _ _ T2) in Hx. cbn in Hx. congruence. } subst x. exact So.
  - assert (Hin : In (WCb ev (CCheck c)) (todo S)) by (rewrite E; left; reflexivity).
    pose proof (tri_check side c ev S1 (fun _ _ => True) H1 (i_chkw _ H _ _ Hin) (fun _ => I)) as T. unfold tri in T. unfold exec_ in *.
    destruct (check c ev S1) as [S2 x]. destruct T as (_ & F & _). cbn [fst] in *.
    constructor; [exact H'| | |]; [apply (Jc_frame side S1); auto; apply side_fresh|apply (phase_frame O s0 S1); auto|].
    apply norun_runnable. rewrite (f_todo _ _ _ F). exact Nl.
  - change (nth_error (prs S1) p) with (proc_at p S1) in *. destruct (proc_at p S1) as [r|] eqn:Hr; [|exact Done].
    assert (Tk : tok p S1 = 0) by (destruct (run_tokens _ _ _ _ H E r Hr) as [A B]; unfold tok; fold S1 in A, B; rewrite A, B; reflexivity).
    assert (Ok : okrun p o S1). { unfold runnable in Ru. rewrite E in Ru. destruct Ru as [[A B] _]. split; [exact A|exact B]. }
    assert (Ne : pcode r <> KEnd).
    { intros K. pose proof (j_end _ J _ _ Hr K) as T. unfold tok, tokT in T. rewrite E, wsum_cons in T. cbn [tokW] in T. rewrite Nat.eqb_refl in T. lia. }
    assert (Hd : forall v t, o = Good v -> due (pcode r) = Some t -> now S1 = t).
    { intros v t -> D. apply (i_due _ H p r v t Hr); [|exact D]. rewrite E. left. reflexivity. }
    assert (G : match go_on O p (pcode r) o S1 with
      | (S', inl (NWait c ev)) => let S'' := hand_over p ev (set_prc p (fun r => MkPrc (pkind r) (pown r) (ptarget r) c) S') in Jc S'' /\ phase S'' /\ runnable S''
      | (S', inl (NDone v)) => let S'' := end_process p (Good v) S' in Jc S'' /\ phase S'' /\ runnable S''
      | (S', inr t) => let S'' := end_process p (Bad t) S' in Jc S'' /\ phase S'' /\ runnable S''
      end).
    { destruct (j_code _ J1 _ _ Hr) as [Tm|Cy].
      - assert (D : pkind r = Some GMain \/ pkind r <> Some GMain).
        { destruct (pkind r) as [[]|]; auto; right; discriminate. }
        destruct D as [D|D]; [apply (run_main p o r l); auto|apply (run_other p o r l); auto].
        intros Cy. destruct (pcode r) as [| | | | | | | |[] n g|[] n e g| | | | |]; cbn in Tm, Cy; tauto.
      - apply (run_cyc p o r l); auto. }
    destruct (go_on O p (pcode r) o S1) as [S2 [[c ev|v]|t]]; cbv zeta in G; destruct G as (A & B & C); constructor; auto.
  - destruct (event_at ev S1) as [e|]; [|exact Done]. destruct (evalue e) as [[v|t]|]; try exact Done. destruct (edefused e); [exact Done|].
    constructor; [exact H'|apply (Jc_same S1); auto|apply (phase_still O s0 S1); auto; constructor; reflexivity|apply norun_runnable; exact Nl].
Qed.

Lemma told_sim_step S S' : told S -> sim_step O S = Some S' -> told S'.
Proof.
  intros T Hs. pose proof (step_ok O S S' (t_inv _ T) Hs) as H'. revert Hs. unfold sim_step. destruct (dead S); [discriminate|]. destruct (todo S) as [|w l] eqn:Et.
  - destruct T as [H J Ph Ru]. destruct (pop_min (heap S)) as [[q h]|] eqn:Ep; [|discriminate]. cbv zeta.
    change (event_at (qev q) (set_now (qtime q) (set_queue (eid S) h S))) with (event_at (qev q) S).
    destruct (pop_min_ok _ _ _ Ep) as [Hq _]. destruct (i_heap _ H _ Hq) as (_ & e & He & _). rewrite He. intros [= <-].
    revert H'. unfold exec_, set_event, upd_. cbn [fst evs set_now set_queue]. change (nth_error (evs S) (qev q)) with (event_at (qev q) S). rewrite He.
    set (S1 := set_now (qtime q) (set_queue (eid S) h S)). set (e' := MkEvt _ _ _ None). intros H'.
    assert (T1 : still S S1) by (constructor; reflexivity).
    assert (T2 : still S1 (set_evs (upd (evs S) (qev q) e') S1)) by (apply (still_upd_event S1 _ e); auto).
    set (S2 := set_evs (upd (evs S) (qev q) e') S1) in *.
    assert (T3 : still S (set_todo (map (WCb (qev q)) (match ecbs e with Some l => l | None => [] end) ++ [WEnd (qev q)]) S2)).
    { eapply still_trans; [exact T1|]. eapply still_trans; [exact T2|apply still_todo]. }
    constructor; [exact H'| | |].
    + apply (Jc_still S); auto. intros p r _ _. rewrite tok_todo. unfold tok, tokT. rewrite Et, wsum_app, wsum_cb.
      pose proof (esum_upd p _ _ _ e' He) as U. unfold tokE. cbn [evs set_evs S2]. change (cres p (cbs_of e')) with 0 in U. unfold cbs_of in U.
      change (wsum p [WEnd (qev q)]) with 0. change (wsum p []) with 0. revert U. destruct (ecbs e); intros U; [lia|change (cres p []) with 0 in *; lia].
    + apply (phase_still O s0 S); auto.
    + apply norun_runnable. cbn [todo set_todo]. intros p o Hi. apply in_app_iff in Hi. rewrite in_map_iff in Hi. destruct Hi as [(d & D & _)|[D|[]]]; discriminate.
  - intros [= <-]. apply told_step; assumption.
Qed.
End Steps.

(** ** The beginning *)

Definition starts (env : option gen) (c : code) : Prop := (exists n, c = KExtra0 n) \/ (exists g, env = Some g /\ c = KEnv0 g).
Lemma starts_fresh env c : (forall g, env = Some g -> outside g) -> starts env c -> fresh c.
Proof. intros He [(n & ->)|(g & Hg & ->)]; (split; [left; cbn; auto|split; discriminate]). Qed.
Lemma starts_not_cyc env c : starts env c -> ~ cyc c.
Proof. intros [(n & ->)|(g & _ & ->)]; exact (fun x => x). Qed.

Lemma tri_start (X : code -> Prop) c S : Inv S -> X c -> (exists k, kind_of c = Some k) -> due c = None -> (forall S ev, fits S c ev) -> (envy (kind_of c) -> hasenv S = true) ->
  tri X (spawn c) S (fun p S' => exists r, proc_at p S' = Some r /\ pkind r = kind_of c).
Proof.
  intros H HX Hk Hd Hf He. unfold tri. rewrite spawn_eq. split; [apply spawned_Inv; assumption|]. split; [apply frame_spawned; exact HX|].
  eexists. split; [apply spawned_new|reflexivity].
Qed.
Lemma tri_new_act (X : code -> Prop) f S : Inv S -> (forall ev S, Inv S -> role_at ev RAct S -> Inv (f ev S) /\ frame X S (f ev S)) ->
  tri X (let! ev := new_event RAct in upd_ (f ev)) S (fun _ _ => True).
Proof.
  intros H Hf. eapply tri_bind; [apply tri_new_event with (Q := fun ev S' => role_at ev RAct S'); [exact H|left; reflexivity|auto]|].
  intros ev S1 H1 F1 R. unfold tri, upd_. destruct (Hf ev S1 H1 R) as [A B]. auto.
Qed.

Lemma tri_make_extras env names S : Inv S -> tri (starts env) (make_extras names) S (fun _ _ => True).
Proof.
  revert S. induction names as [|n names IH]; intros S H; [apply tri_ret; auto|]. cbn [make_extras].
  eapply tri_bind with (Q1 := fun _ _ => True); [|intros _ S1 H1 _ _; apply IH; exact H1].
  destruct (String.eqb n PROCEDURAL); [apply tri_ret; auto|].
  eapply tri_bind; [apply tri_start; cbn; eauto; try tauto; left; eauto|]. intros p S1 H1 F1 Hp.
  eapply tri_bind with (Q1 := fun _ _ => True).
  { unfold tri, upd_. split; [|split; [apply frame_same; try reflexivity; apply rely_refl|exact I]]. constructor; try apply H1. cbn [extras set_extras]. intros m q.
    rewrite dget_dset. destruct (String.eqb_spec n m) as [<-|]; [|apply (i_extras _ H1)]. intros [= <-]. exact Hp. }
  intros _ S2 H2 F2 _. apply tri_new_act; [exact H2|]. intros ev S3 H3 R3. destruct (Inv_acts n ev S3 H3 R3) as [A _]. split; [exact A|].
  apply frame_same; try reflexivity. apply rely_refl.
Qed.

Theorem told_init O t s env : (forall g, env = Some g -> outside g) -> told O s (sim_init t s env).
Proof.
  intros He. pose proof (init_ok t s env) as H. unfold sim_init, exec_ in *. set (S0 := MkSim _ _ _ _ _ _ _ _ _ _ _ _ _ _ _ _) in *.
  assert (R0 : role_at 0 RAct S0) by (eexists; split; reflexivity).
  assert (E0 : forall ev e, event_at ev S0 = Some e -> e = MkEvt RAct None false (Some [])).
  { intros [|[|ev]] e Hx; cbn in Hx; congruence. }
  assert (P0 : forall p, proc_at p S0 = None) by (intros [|p]; reflexivity).
  assert (H0 : Inv S0).
  { constructor; cbn [heap todo prs S0 log now hasenv eact pact acts extras]; try (intros; contradiction); try (intros; discriminate).
    - intros ev e p Hx Hp. rewrite (E0 _ _ Hx) in Hp. destruct Hp.
    - intros p. cbn. lia.
    - intros ev e p Hx Hp. rewrite (E0 _ _ Hx) in Hp. destruct Hp.
    - intros ev e p Hx Hp. rewrite (E0 _ _ Hx) in Hp. discriminate.
    - intros ev e c Hx Hp. rewrite (E0 _ _ Hx) in Hp. destruct Hp.
    - intros p r Hr. fold S0 in Hr. rewrite P0 in Hr. discriminate.
    - intros p r Hr. fold S0 in Hr. rewrite P0 in Hr. discriminate.
    - intros p r Hr. fold S0 in Hr. rewrite P0 in Hr. discriminate.
    - exact R0.
    - intros _. exact R0.
    - intros p r Hr. fold S0 in Hr. rewrite P0 in Hr. discriminate.
    - split; constructor. }
  set (S1 := spawned KProc0 S0).
  assert (H1 : Inv S1) by (apply spawned_Inv; cbn; eauto; tauto).
  assert (P1 : forall p r, proc_at p S1 = Some r -> p = 0 /\ r = MkPrc (Some GMain) 1 2 KProc0).
  { intros [|[|p]] r Hr; cbn in Hr; try discriminate. injection Hr as <-. auto. }
  assert (V1 : forall ev v, value_of ev S1 = Some v -> v = Good XUnit).
  { intros [|[|[|[|ev]]]] v Hv; cbn in Hv; congruence. }
  assert (J1 : Jc S1).
  { constructor.
    - intros p r Hr. destruct (P1 _ _ Hr) as [_ ->]. left. exact I.
    - intros ev g Hv. apply V1 in Hv. discriminate.
    - intros [|[|[|[|ev]]]] t' (e & Hx & R); cbn in Hx; try discriminate; injection Hx as <-; discriminate.
    - intros p r Hr Hk. destruct (P1 _ _ Hr) as [_ ->]. discriminate.
    - eexists. reflexivity.
    - intros p r Hr. destruct (P1 _ _ Hr) as [-> ->]. split; reflexivity. }
  assert (Ph1 : phase O s S1).
  { eexists _, [], s, []. split; [reflexivity|]. split; [constructor; apply rely_refl|]. split; [reflexivity|]. cbn [pcode]. split; [|auto].
    intros p r Hr Hc. destruct (P1 _ _ Hr) as [_ ->]. destruct Hc. }
  assert (T : tri (starts env) (make_extras (dkeys (snames s)) ;! (let! ev := new_event RAct in upd_ (set_pact ev)) ;!
      match env with None => ret tt | Some g => spawn (KEnv0 g) ;! (let! ev := new_event RAct in upd_ (set_eact ev)) end) S1 (fun _ _ => True)).
  { eapply tri_bind with (Q1 := fun _ _ => True); [apply tri_make_extras; exact H1|]. intros _ S2 H2 F2 _.
    eapply tri_bind with (Q1 := fun _ _ => True).
    { apply tri_new_act; [exact H2|]. intros ev S3 H3 R3. destruct (Inv_pact ev S3 H3 R3) as [A _]. split; [exact A|]. apply frame_same; try reflexivity. apply rely_refl. }
    intros _ S3 H3 F3 _. destruct env as [g|]; [|apply tri_ret; auto].
    eapply tri_bind.
    - apply tri_start; cbn; eauto; [right; eauto|]. intros _. rewrite (f_hasenv _ _ _ F3), (f_hasenv _ _ _ F2). reflexivity.
    - intros _ S4 H4 F4 _. apply tri_new_act; [exact H4|]. intros ev S5 H5 R5. destruct (Inv_eact ev S5 H5 R5) as [A _]. split; [exact A|]. apply frame_same; try reflexivity. apply rely_refl. }
  unfold initialise in *. unfold bind at 1. unfold bind at 1 in H. rewrite spawn_eq in *. fold S1 in H |- *. unfold tri in T.
  match type of T with let (_, _) := ?m in _ => destruct m as [S2 x] end. destruct T as (_ & F & _). cbn [fst] in *.
  constructor; [exact H| | |].
  - apply (Jc_frame (starts env) S1); auto. intros c. apply starts_fresh. exact He.
  - apply (phase_frame_X (starts env) O s S1); auto. apply starts_not_cyc.
  - apply norun_runnable. rewrite (f_todo _ _ _ F). intros p o [].
Qed.

Theorem sim_told O t s env S : (forall g, env = Some g -> outside g) -> sim_runs O (sim_init t s env) S -> told O s S.
Proof.
  intros He H. remember (sim_init t s env) as S0 eqn:E. induction H as [|S0 S1 S2 R IH Hs]; [subst; apply told_init; exact He|].
  eapply told_sim_step; eauto.
Qed.

(** ** The log *)

Lemma cycle_loud t f l : cycle (seconds_of t) f l -> rule_cycle f t (loud l).
Proof.
  assert (Rt : roundtime (seconds_of t) = t) by exact (roundtime_seconds t).
  intros H. inversion H as [E|r E|r made acts Hm Ha E].
  - cbn. rewrite Rt. constructor.
  - cbn. rewrite Rt. constructor.
  - assert (L : loud acts = []). { clear -Ha. induction Ha as [|e l Hq Ha IH]; [reflexivity|]. change (loud ([e] ++ l) = []). rewrite loud_app, loud_quiet by exact Hq. exact IH. }
    unfold loud in *. rewrite !filter_app. cbn. rewrite L, Rt. destruct Hm as [->|(again & n & ->)]; cbn; constructor.
Qed.
(** Parameters and names of buffers do not change. *)
Definition settings (s : st) : params * dict nat := (sp s, snames s).
Fixpoint fixes (x : params * dict nat) (g : gen) : Prop :=
  match g with
  | GRet | GRaise _ => True
  | GYield _ k | GCont k | GNote _ k => fixes x k
  | GAct f k => (forall s, settings s = x -> settings (f s) = x) /\ fixes x k
  | GGet k => forall s, settings s = x -> fixes x (k s)
  end.
Lemma rely_settings s s' : rely s s' -> settings s' = settings s.
Proof. intros (A & B & _). unfold settings. congruence. Qed.
Lemma keeps_fixes x g : keeps g -> fixes x g.
Proof.
  induction g as [|e|e g IH|g IH|n g IH|f g IH|h IH]; cbn [keeps fixes]; auto. intros [A B]. split; [|auto].
  intros s <-. apply rely_settings, A.
Qed.
Lemma fixes_resume x g : forall s s' ns o, fixes x g -> settings s = x -> resume g s = (s', ns, o) ->
  settings s' = x /\ match o with OYield _ k | OCont k => fixes x k | _ => True end.
Proof.
  induction g as [|e|e g IH|g IH|n g IH|f g IH|h IH]; cbn [resume fixes]; intros s s' ns o Hg Hs H.
  1-4: inversion H; subst; auto.
  - destruct (resume g s) as [[s1 ns1] o1] eqn:E. inversion H; subst. eauto.
  - destruct Hg as [Hf Hg]. eauto.
  - eapply IH; [apply Hg; exact Hs|exact Hs|exact H].
Qed.
Lemma last_any {A} (x y : A) l d d' : last (x :: y :: l) d = last (y :: l) d'.
Proof. change (last (x :: y :: l) d) with (last (y :: l) d). revert y. induction l as [|z l IH]; intros y; [reflexivity|]. apply (IH z). Qed.
Lemma fixes_runs x g s tr f : runs rely g s tr f -> fixes x g -> settings s = x -> settings (last (map hafter tr) s) = x.
Proof.
  induction 1 as [g s|g s s' ns H|g s s' ns e H|g s s' ns k H|g s s' ns e k s'' tr f H Hrel Hr IH]; intros Hf Hs; [exact Hs|..];
    destruct (fixes_resume _ _ _ _ _ _ Hf Hs H) as [H1 H2]; [exact H1|exact H1|exact H1|].
  specialize (IH H2). rewrite (rely_settings _ _ Hrel) in IH. specialize (IH H1). cbn [map hafter].
  destruct tr as [|h tr]; [exact H1|]. cbn [map] in *. rewrite last_any with (d' := s''). exact IH.
Qed.
Lemma fixes_fire x O r ru t : fixes x (g_fire O r ru t).
Proof.
  unfold g_fire. cbn [fixes]. split; [intros s Hs; exact Hs|]. apply keeps_fixes. exact (act_keeps O r ru t).
Qed.
Lemma fixes_try x O r t : fixes x (g_try O r t).
Proof.
  unfold g_try. cbn [fixes]. intros s Hs. destruct (dget (srules s) r) as [ru|]; [|exact I]. destruct (lhs_test _ _ _) as [[b|]|e]; [|exact I|exact I].
  cbv zeta. destruct (learned (set_vars b s) ru t) as [s2|e] eqn:E; [|exact I]. apply learned_fields in E.
  assert (H2 : settings s2 = x) by (destruct E as (_ & _ & N & P & _); unfold settings in *; cbn in N, P; congruence).
  destruct (compile_now O s2) as [[[[n again] rs]|]|e]; cbn [fixes].
  - split; [intros _ _; exact H2|apply fixes_fire].
  - split; [intros _ _; exact H2|apply fixes_fire].
  - split; [intros _ _; exact H2|exact I].
Qed.
Lemma fixes_procedural x O t : fixes x (procedural O t).
Proof.
  unfold procedural. cbn [fixes]. split; [auto|]. split; [auto|]. intros s Hs. destruct (select O s) as [[r|]|e]; [| |exact I]; cbn [fixes].
  - split; [|apply fixes_try]. intros s1 H1. exact H1.
  - split; [auto|]. destruct (remove_procedural (sprocs s)); cbn [fixes]; auto.
Qed.
Lemma story_settings O s0 l s : story O s0 l s -> settings s = settings s0.
Proof.
  intros H. induction H as [s R|l s t tr s' H IH Hr R]; [apply rely_settings; exact R|]. rewrite (rely_settings _ _ R).
  apply (fixes_runs _ _ _ _ _ Hr); [apply fixes_procedural|exact IH].
Qed.
Lemma story_cycles O s0 l s : story O s0 l s -> Forall (fun c => exists t, rule_cycle (qfiring (sp s0)) t c) (map (fun tr => loud (events tr)) l).
Proof.
  intros H. induction H as [s R|l s t tr s' H IH Hr R]; [constructor|]. rewrite map_app. apply Forall_app. split; [exact IH|]. constructor; [|constructor].
  destruct (procedural_cycle _ _ _ _ _ Hr) as (evs & rest & C & E & D & _). rewrite D, app_nil_r in E by reflexivity. subst evs.
  assert (Sp : sp s = sp s0) by (pose proof (story_settings _ _ _ _ H) as X; unfold settings in X; congruence). rewrite Sp in C.
  exists t. apply cycle_loud. exact C.
Qed.

Theorem sim_story O t s env S : (forall g, env = Some g -> outside g) -> sim_runs O (sim_init t s env) S ->
  exists l s1 t1 tr f tail rest, story O s l s1 /\ runs rely (procedural O (seconds_of t1)) s1 tr f /\
    rule_events S = List.concat (map (fun tr => loud (events tr)) l) ++ tail /\ loud (events tr) = tail ++ rest.
Proof.
  intros He H. destruct (sim_told O t s env S He H) as [_ _ (m & l & s1 & tail & _ & St & Ev & Ph) _].
  assert (U : unfinished O s1 tail).
  { revert Ph. destruct (pcode m); try (intros (_ & -> & _); apply unfinished_nil).
    - intros (q & r & _ & _ & _ & _ & Pr). unfold progress in Pr. revert Pr. destruct (pcode r); try contradiction.
      + intros (-> & _). apply unfinished_nil.
      + intros (t' & tr & s2 & l0 & R & E & -> & _). exists t', (tr ++ []), FCut, (loud [e]).
        split; [eapply reach_runs; [exact R|apply rely_refl|constructor]|]. rewrite app_nil_r, E, loud_app. reflexivity.
      + destruct (value_of (pown r) S) as [[v|t']|]; [intros (-> & _); apply unfinished_nil|auto|contradiction].
    - intros (_ & U). exact U. }
  destruct U as (t1 & tr & f & rest & R & E). exists l, s1, t1, tr, f, tail, rest. auto.
Qed.

Theorem sim_cycles O t s env S : (forall g, env = Some g -> outside g) -> sim_runs O (sim_init t s env) S ->
  exists cycles tail rest t1, rule_events S = List.concat cycles ++ tail /\
    Forall (fun c => exists t, rule_cycle (qfiring (sp s)) t c) cycles /\ rule_cycle (qfiring (sp s)) t1 (tail ++ rest).
Proof.
  intros He H. destruct (sim_story O t s env S He H) as (l & s1 & t1 & tr & f & tail & rest & St & R & E & Et).
  destruct (procedural_cycle _ _ _ _ _ R) as (evs & more & C & Ee & _ & _).
  assert (Sp : sp s1 = sp s) by (pose proof (story_settings _ _ _ _ St) as X; unfold settings in X; congruence). rewrite Sp in C.
  exists (map (fun tr => loud (events tr)) l), tail, (rest ++ loud more), t1. split; [exact E|]. split; [eapply story_cycles; eauto|].
  rewrite app_assoc, <- Et, <- loud_app, <- Ee. apply cycle_loud. exact C.
Qed.
