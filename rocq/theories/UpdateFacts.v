(** A right-hand side as a whole: every action announced has changed its buffer as it should, all
    are announced, and all requests are queued (C30, C56). *)
From Coq Require Import Permutation.
From Verif Require Import Base BaseFacts Chunks DecMem Buffers BufferFacts ModifyFacts Productions ProdSpec ProdFacts ActFacts HarvestFacts CycleFacts LearnFacts EffectFacts.
From Verif Require Import ChunkSpec.
Local Open Scope string_scope.

(** ** Specification *)

(** What the action with sign [code] and content [c] on the buffer [name] (number [i]) does in the
    step that announces [e], with bindings [bs]. *)
Inductive acted (t : Q) (bs : bindings) (name : string) (i : nat) : ascii -> content -> world -> event -> world -> Prop :=
| acted_clear c w w' : ~ of_kind w i KMotor -> emptied w w' i t ->
    acted t bs name i "~" c w (MkEv (roundtime t) name (WText "CLEARED")) w'
| acted_modify c w w' : (~ of_kind w i KLocation -> exists o, c = CChunk o /\ modified w w' i o bs) ->
    acted t bs name i "=" c w (MkEv (roundtime t) name (WText "MODIFIED")) w'
| acted_waiting c w q : acted t bs name i "@" c w (MkEv q name WUnknown) w
| acted_overwrite o w w' q : step w (OCreate i o bs) = (w', Ok None) ->
    acted t bs name i "@" (CChunk o) w (MkEv q name (WText "WROTE A CHUNK")) w'
| acted_execute c w w' : acted t bs name i "!" c w (MkEv (roundtime t) name (WText "EXECUTED")) w'
| acted_test c w : acted t bs name i "?" c w (MkEv (roundtime t) name (WText "EXTRA TEST ADDED")) w.

(** What an action announces in the end; requests announce nothing while the rule fires. *)
Definition announcement (key : string) : list (string * string) :=
  match key with
  | String code name =>
      match code with
      | "~"%char => [(name, "CLEARED")]
      | "="%char => [(name, "MODIFIED")]
      | "@"%char => [(name, "WROTE A CHUNK")]
      | "!"%char => [(name, "EXECUTED")]
      | "?"%char => [(name, "EXTRA TEST ADDED")]
      | _ => []
      end
  | "" => []
  end.
Definition texts (l : list event) : list (string * string) :=
  flat_map (fun e => match ewhat e with WText x => [(eproc e, x)] | _ => [] end) l.

(** A queued process without its number. *)
Definition req := (string * meth * nat * content * bindings * Q)%type.
Definition strip (p : proc) : option req :=
  match p with PReq _ n m i c b t => Some (n, m, i, c, b, t) | _ => None end.
(** The requests of the actions [l]. *)
Definition requests (names : dict nat) (bs : bindings) (t : Q) (l : list (string * content)) : list (option req) :=
  flat_map (fun p =>
    match fst p with
    | String code name =>
        match dget names name with
        | Some i => match code with
                    | "+"%char => [Some (name, MRetrieve, i, snd p, bs, t)]
                    | "*"%char => [Some (name, MModReq, i, snd p, bs, t)]
                    | _ => []
                    end
        | None => []
        end
    | "" => []
    end) l.

(** ** Effects step by step *)

Section Eff.
Variable I : st -> Prop.
Variable P : world -> event -> world -> Prop.

Fixpoint eff (g : gen) (w : world) (s : st) (T : list (string * string)) : Prop :=
  match g with
  | GRet => I s /\ sw s = w /\ T = []
  | GRaise _ => True
  | GYield e k => I s /\ P w e (sw s) /\ exists T', T = (texts [e] ++ T')%list /\ forall s', I s' -> eff k (sw s') s' T'
  | GCont _ => False
  | GNote _ k => eff k w s T
  | GAct f k => eff k w (f s) T
  | GGet k => eff (k s) w s T
  end.

Lemma eff_gseq g : forall k w s T T', eff g w s T -> (forall s', I s' -> eff k (sw s') s' T') -> eff (gseq g k) w s (T ++ T').
Proof.
  induction g as [|e|e g IH|g IH|n g IH|f g IH|h IH]; cbn [gseq eff]; intros k w s T T' Hg Hk; auto.
  - destruct Hg as (Hi & <- & ->). apply Hk. exact Hi.
  - destruct Hg as (Hi & Hp & T1 & -> & Hg). repeat split; auto. exists (T1 ++ T')%list. rewrite app_assoc. split; [reflexivity|].
    intros s' Hs'. apply IH; auto.
Qed.

Lemma eff_resume g : forall w s T s' ns o, eff g w s T -> resume g s = (s', ns, o) ->
  match o with
  | ODone => I s' /\ sw s' = w /\ T = []
  | ORaise _ => True
  | OYield e k => I s' /\ P w e (sw s') /\ exists T', T = (texts [e] ++ T')%list /\ forall s2, I s2 -> eff k (sw s2) s2 T'
  | OCont _ => False
  end.
Proof.
  induction g as [|e|e g IH|g IH|n g IH|f g IH|h IH]; cbn [resume eff]; intros w s T s' ns o Hg H.
  1-3: inversion H; subst; auto.
  - contradiction.
  - destruct (resume g s) as [[s1 ns1] o1] eqn:E. inversion H; subst. eapply IH; eauto.
  - eapply IH; eauto.
  - eapply IH; eauto.
Qed.

Lemma texts_app l l' : texts (l ++ l') = (texts l ++ texts l')%list.
Proof. apply flat_map_app. Qed.

Lemma eff_runs (R : st -> st -> Prop) g s tr f : runs R g s tr f -> (forall s s', I s -> R s s' -> I s') ->
  forall T, eff g (sw s) s T ->
  (forall h e, In h tr -> hevent h = Some e -> P (sw (hbefore h)) e (sw (hafter h))) /\
  (exists T', T = (texts (events tr) ++ T')%list /\ (f = FDone -> T' = [])) /\
  (forall h, In h tr -> hevent h = None -> f = FDone -> sw (hafter h) = sw (hbefore h)).
Proof.
  intros Hr HR. induction Hr as [g s|g s s' ns H|g s s' ns e H|g s s' ns k H|g s s' ns e k s'' tr f H Hrel Hr IH]; intros T He.
  - repeat split; [intros h e []|exists T; split; [reflexivity|discriminate]|intros h []].
  - pose proof (eff_resume _ _ _ _ _ _ _ He H) as (Hi & Hw & ->). repeat split.
    + intros h e [<-|[]]; discriminate.
    + exists []. auto.
    + intros h [<-|[]] _ _. exact Hw.
  - repeat split; [intros h e' [<-|[]]; discriminate|exists T; split; [reflexivity|discriminate]|discriminate].
  - repeat split; [intros h e' [<-|[]]; discriminate|exists T; split; [reflexivity|discriminate]|discriminate].
  - pose proof (eff_resume _ _ _ _ _ _ _ He H) as (Hi & Hp & T' & -> & Hk).
    destruct (IH T') as (I1 & (T2 & -> & I2) & I3); [apply Hk; eapply HR; eauto|]. repeat split.
    + intros h e' [<-|Hin] Hh; [cbn in *; congruence|eauto].
    + exists T2. split; [|exact I2]. rewrite app_assoc, <- texts_app. reflexivity.
    + intros h [<-|Hin] Hn Hf; [discriminate|eauto].
Qed.
End Eff.

(** What stays the same while the rule fires. *)
Definition same (b : bindings) (names : dict nat) (strict : bool) (s : st) : Prop :=
  svars s = b /\ snames s = names /\ qstrict (sp s) = strict.
Lemma same_rely b names st s s' : same b names st s -> rely s s' -> same b names st s'.
Proof. intros (H1 & H2 & H3) (H0 & H4 & H5 & _). unfold same. rewrite H0, H4, H5. auto. Qed.
Lemma same_attrs b names st i l s : same b names st s -> same b names st (set_attrs i l s).
Proof. unfold same, set_attrs. destruct (nth_error (smods s) i); auto. Qed.
Lemma same_state b names st i l s : same b names st s -> same b names st (set_state i l s).
Proof. apply same_attrs. Qed.

Lemma eff_mono I (P P' : world -> event -> world -> Prop) : (forall w e w', P w e w' -> P' w e w') ->
  forall g w s T, eff I P g w s T -> eff I P' g w s T.
Proof.
  intros H g. induction g as [|e|e g IH|g IH|n g IH|f g IH|h IH]; cbn [eff]; intros w s T Hg; auto.
  destruct Hg as (Hi & Hp & T' & -> & Hg). repeat split; auto. exists T'. split; [reflexivity|]. intros. apply IH; auto.
Qed.

Section Actions.
Variables (O : oracle) (t : Q) (b : bindings) (names : dict nat) (strict : bool).

Lemma eff_record fr k w s T P : same b names strict s ->
  (forall c, fr s = Ok c -> eff (same b names strict) P k w (set_cur c (slastv s) s) T) -> eff (same b names strict) P (g_record fr k) w s T.
Proof. intros Hs H. unfold g_record. cbn [eff]. destruct (fr s) as [c|e]; cbn [eff]; auto. Qed.
Lemma eff_gcall {A} (f : st -> world * res A) k w s T P :
  (forall a w', f s = (w', Ok a) -> eff (same b names strict) P (k a) w (set_w w' s) T) -> eff (same b names strict) P (gcall f k) w s T.
Proof. intros H. unfold gcall. cbn [eff]. destruct (f s) as [w' [a|e]]; cbn [eff]; auto. Qed.

Lemma eff_start code m name i c s : rhs_meth code = Some m -> interruptible m = false -> same b names strict s ->
  eff (same b names strict) (acted t b name i code c) (start O m name i c b t) (sw s) s (announcement (String code name)).
Proof.
  intros Hm Hi Hs. unfold rhs_meth in Hm.
  repeat match type of Hm with (if Ascii.eqb code ?x then _ else _) = _ =>
    destruct (Ascii.eqb_spec code x) as [->|?]; [injection Hm as <-; try discriminate Hi|] end; try discriminate Hm.
  all: try (destruct (andb _ _) in Hm; discriminate).
  - (* ? *) unfold start, g_extra. cbn [eff].
    assert (G : eff (same b names strict) (acted t b name i "?" c)
      (GAct (set_state i "free") (GYield (ev t name (WText "EXTRA TEST ADDED")) GRet)) (sw s) (set_state i "busy" s) [(name, "EXTRA TEST ADDED")] /\
      forall d, eff (same b names strict) (acted t b name i "?" c)
      (GAct (set_state i "free") (GYield (ev t name (WText "EXTRA TEST ADDED")) GRet)) (sw s) (set_extra d (set_state i "busy" s)) [(name, "EXTRA TEST ADDED")]).
    { split; [|intros d]; cbn [eff]; (split; [apply same_state; apply (same_state b names strict i "busy" s Hs)|]);
        (split; [rewrite set_state_w; cbn; rewrite set_state_w; apply acted_test|]);
        (eexists []; split; [reflexivity|intros s' Hs'; cbn; auto]). }
    destruct G as [G1 G2]. destruct c as [o|d|l|]; [apply G1|cbn [eff]; apply G2|apply G1|apply G1].
  - (* = *) unfold start, g_modify. cbn [eff]. apply eff_record; [apply same_state; exact Hs|]. intros d _.
    apply eff_gcall. intros [] w' E. cbn [eff]. split; [apply same_state; apply (same_state b names strict i "busy" s Hs)|].
    split; [|eexists []; split; [reflexivity|intros s' Hs'; cbn; auto]].
    rewrite set_state_w. cbn [sw set_w]. apply acted_modify. intros K.
    destruct (modify_call_step i c b _ w' E) as (o & Ec & M).
    { intros K'. apply K. revert K'. cbn. rewrite set_state_w. auto. }
    exists o. split; [exact Ec|]. revert M. cbn. rewrite set_state_w. auto.
  - (* ! *) unfold start, g_execute. cbn [eff]. apply eff_gcall. intros [] w' E. cbn [eff].
    split; [apply same_state; apply (same_state b names strict i "busy" s Hs)|].
    split; [apply acted_execute|eexists []; split; [reflexivity|intros s' Hs'; cbn; auto]].
  - (* ~ *) unfold start, g_clear. cbn [eff]. apply eff_gcall. intros [] w' E. cbn [eff].
    split; [apply (same_state b names strict i "busy" s Hs)|].
    apply clear_into_emptied in E. rewrite set_state_w in E. destruct E as [E1 E2].
    split; [apply acted_clear; [exact E1|exact E2]|]. eexists []. split; [reflexivity|]. intros s' Hs'. cbn.
    split; [apply same_state; exact Hs'|]. split; [apply set_state_w|reflexivity].
  - (* @ *) unfold start, g_overwrite. cbn [eff]. split; [apply same_state; exact Hs|]. rewrite set_state_w.
    split; [apply acted_waiting|]. eexists. split; [reflexivity|]. intros s' Hs'.
    apply eff_record; [exact Hs'|]. intros d _. apply eff_gcall. intros [] w' E. cbn [eff].
    split; [apply same_state; exact Hs'|]. split; [|eexists []; split; [reflexivity|intros s2 Hs2; cbn; auto]].
    apply create_call_step in E. destruct E as (o & -> & E). rewrite set_state_w. apply acted_overwrite. exact E.
Qed.

Lemma announcement_quiet code name m : rhs_meth code = Some m -> interruptible m = true -> announcement (String code name) = [].
Proof.
  unfold rhs_meth. intros Hm Hi.
  repeat match type of Hm with (if Ascii.eqb code ?x then _ else _) = _ =>
    destruct (Ascii.eqb_spec code x) as [->|?]; [injection Hm as <-; first [discriminate Hi|reflexivity]|] end; discriminate Hm.
Qed.

(** Some action of [l] has done this. *)
Definition some_action (l : list (string * content)) (w : world) (e : event) (w' : world) : Prop :=
  exists code name c i, In (String code name, c) l /\ dget names name = Some i /\ acted t b name i code c w e w'.

Lemma harvest_w ns : forall s, sw (harvest ns t s) = sw s.
Proof. induction ns as [|n ns IH]; intros s; cbn [harvest]; [reflexivity|]. rewrite IH. destruct (dget (snames s) n); reflexivity. Qed.

Lemma eff_actions l : forall temp w s, same b names strict s -> sw s = w ->
  eff (same b names strict) (some_action l) (actions O t temp l) w s (flat_map (fun p => announcement (fst p)) l).
Proof.
  induction l as [|[key c] l IH]; intros temp w s Hs Hw; cbn [actions eff].
  - destruct (qstrict (sp s)); cbn [eff]; [|auto]. split; [|split; [rewrite harvest_w; exact Hw|reflexivity]].
    eapply same_rely; [exact Hs|apply rely_harvest].
  - destruct key as [|code name]; [exact I|]. destruct (rhs_meth code) as [m|] eqn:Em; [|exact I].
    cbn [eff]. destruct (dget (snames s) name) as [i|] eqn:Ei; [|exact I]. cbn [eff].
    assert (Hn : dget names name = Some i) by (destruct Hs as (_ & <- & _); exact Ei).
    assert (Hv : svars s = b) by (destruct Hs as [H _]; exact H). rewrite Hv.
    assert (Hl : forall temp w s, same b names strict s -> sw s = w ->
       eff (same b names strict) (some_action ((String code name, c) :: l)) (actions O t temp l) w s (flat_map (fun p => announcement (fst p)) l)).
    { intros. eapply eff_mono; [|apply IH; eassumption]. intros w1 e1 w1' (code' & name' & c' & i' & A & B). exists code', name', c', i'. split; [right; exact A|exact B]. }
    destruct (interruptible m) eqn:Em'.
    + cbn [eff flat_map fst]. rewrite (announcement_quiet code name m Em Em'). apply Hl; [|cbn; rewrite set_state_w; exact Hw].
      apply same_state; exact Hs.
    + cbn [flat_map fst]. apply eff_gseq; [|intros s' Hs'; apply Hl; [exact Hs'|reflexivity]].
      subst w. rewrite <- (set_state_w i "busy" s). eapply eff_mono; [|apply (eff_start code m name i c); [exact Em|exact Em'|apply same_state; exact Hs]].
      intros w1 e1 w1' A. exists code, name, c, i. split; [left; reflexivity|auto].
Qed.

(** ** The queue *)

Fixpoint adds (g : gen) (ps : list proc) (s : st) (Q : list (option req)) : Prop :=
  match g with
  | GRet => exists a, sprocs s = (ps ++ a)%list /\ map strip a = Q
  | GRaise _ => True
  | GYield e k => same b names strict s /\ exists a Q', sprocs s = (ps ++ a)%list /\ Q = (map strip a ++ Q')%list /\
      forall s', same b names strict s' -> adds k (sprocs s') s' Q'
  | GCont _ => False
  | GNote _ k => adds k ps s Q
  | GAct f k => adds k ps (f s) Q
  | GGet k => adds (k s) ps s Q
  end.

Lemma adds_before g : forall ps a s Q, adds g (ps ++ a) s Q -> adds g ps s (map strip a ++ Q).
Proof.
  induction g as [|e|e g IH|g IH|n g IH|f g IH|h IH]; cbn [adds]; intros ps a s Q Hg; auto.
  - destruct Hg as (a' & E & <-). exists (a ++ a')%list. rewrite app_assoc, map_app. auto.
  - destruct Hg as (Hs & a' & Q' & E & -> & Hk). split; [exact Hs|]. exists (a ++ a')%list, Q'. rewrite map_app, !app_assoc. auto.
Qed.

(** [g] queues nothing. *)
Fixpoint idle (g : gen) : Prop :=
  match g with
  | GRet | GRaise _ => True
  | GYield _ k => idle k
  | GCont _ => False
  | GNote _ k => idle k
  | GAct f k => (forall s, sprocs (f s) = sprocs s /\ (same b names strict s -> same b names strict (f s))) /\ idle k
  | GGet k => forall s, idle (k s)
  end.
Lemma idle_gseq g : forall k ps s Q, idle g -> same b names strict s -> sprocs s = ps ->
  (forall s', same b names strict s' -> adds k (sprocs s') s' Q) -> adds (gseq g k) ps s Q.
Proof.
  induction g as [|e|e g IH|g IH|n g IH|f g IH|h IH]; cbn [gseq adds idle]; intros k ps s Q Hg Hs Hp Hk; auto.
  - subst ps. auto.
  - split; [exact Hs|]. exists [], Q. rewrite app_nil_r. cbn. split; [exact Hp|]. split; [reflexivity|]. intros s2 Hs2. apply IH; auto.
  - destruct Hg as [Hf Hg]. apply IH; auto; [apply Hf; exact Hs|rewrite (proj1 (Hf s)); exact Hp].
Qed.

Lemma procs_attrs i l s : sprocs (set_attrs i l s) = sprocs s.
Proof. unfold set_attrs. destruct (nth_error (smods s) i); reflexivity. Qed.
Lemma idle_record fr k : idle k -> idle (g_record fr k).
Proof. intros H s. destruct (fr s); cbn; auto. Qed.
Lemma idle_gcall {A} (f : st -> world * res A) k : (forall a, idle (k a)) -> idle (gcall f k).
Proof. intros H s. destruct (f s) as [w [a|e]]; cbn; auto. Qed.
Ltac idle_tac :=
  repeat (cbn [idle]; cbv beta zeta;
    first [ apply idle_gcall; intro | apply idle_record | exact I
          | match goal with |- _ /\ _ => split end
          | match goal with |- forall _ : st, _ => intro end
          | match goal with |- sprocs (set_state _ _ _) = _ => apply procs_attrs end
          | match goal with |- same _ _ _ _ -> same _ _ _ (set_state _ _ _) => apply same_state end
          | match goal with |- idle (match ?x with _ => _ end) => destruct x end
          | match goal with |- idle (match ?x with _ => _ end _) => destruct x end
          | match goal with |- idle (if ?x then _ else _) => destruct x end
          | reflexivity | tauto ]).
Lemma start_idle m name i c : interruptible m = false -> idle (start O m name i c b t).
Proof. intro H. destruct m; try discriminate; unfold start, g_extra, g_modify, g_execute, g_clear, g_overwrite; idle_tac. Qed.

(** What harvesting the buffers [ns] queues. *)
Definition harvested (ns : list string) : list (option req) :=
  flat_map (fun n => match dget names n with Some i => [Some (n, MClear, i, CNone, b, t)] | None => [] end) ns.
Lemma harvest_adds ns : forall s, same b names strict s ->
  exists a, sprocs (harvest ns t s) = (sprocs s ++ a)%list /\ map strip a = harvested ns.
Proof.
  induction ns as [|n ns IH]; intros s Hs; cbn [harvest]; [exists []; rewrite app_nil_r; auto|].
  unfold harvested. cbn [flat_map]. fold (harvested ns). destruct (dget (snames s) n) as [i|] eqn:E.
  - destruct (IH (add_proc n MClear i CNone (svars s) t s)) as (a & E' & F); [exact Hs|]. rewrite E'. unfold add_proc. cbn [sprocs set_procs].
    rewrite <- app_assoc. eexists. split; [reflexivity|]. cbn [map strip app]. destruct Hs as (Hv & Hn & _). rewrite <- Hn, E, Hv, F. reflexivity.
  - destruct (IH s Hs) as (a & E' & F). exists a. split; [exact E'|]. destruct Hs as (Hv & Hn & _). rewrite <- Hn, E. exact F.
Qed.
Definition clearing (q : option req) : Prop := exists n i bs t, q = Some (n, MClear, i, CNone, bs, t).
Lemma harvested_clearing ns : Forall clearing (harvested ns).
Proof.
  apply Forall_forall. intros q Hq. unfold harvested in Hq. apply in_flat_map in Hq. destruct Hq as (n & _ & Hq).
  destruct (dget names n) as [i|]; [destruct Hq as [<-|[]]|destruct Hq]. repeat eexists.
Qed.

Lemma request_codes code m name i c : rhs_meth code = Some m -> dget names name = Some i ->
  requests names b t [(String code name, c)] = if interruptible m then [Some (name, m, i, c, b, t)] else [].
Proof.
  unfold rhs_meth, requests. intros Hm Hn. cbn [flat_map fst snd]. rewrite Hn, app_nil_r.
  repeat match type of Hm with (if Ascii.eqb code ?x then _ else _) = _ =>
    destruct (Ascii.eqb_spec code x) as [->|?]; [injection Hm as <-; reflexivity|] end; discriminate Hm.
Qed.

Fixpoint left (temp : bindings) (l : list (string * content)) : bindings :=
  match l with
  | [] => temp
  | (String _ name, _) :: l' => left (MkB (ddel (bpos temp) name) (bneg temp)) l'
  | ("", _) :: l' => left temp l'
  end.

Lemma adds_actions l : forall temp s, same b names strict s ->
  adds (actions O t temp l) (sprocs s) s
    (requests names b t l ++ if strict then harvested (var_keys (left temp l)) else []).
Proof.
  induction l as [|[key c] l IH]; intros temp s Hs; cbn [actions].
  - cbn [adds left]. destruct Hs as (Hv & Hn & Hq). rewrite Hq. destruct strict eqn:Est; cbn [adds].
    + rewrite <- Est in *. destruct (harvest_adds (var_keys temp) s) as (a & E & F); [repeat split; assumption|]. exists a. auto.
    + exists []. rewrite app_nil_r. auto.
  - destruct key as [|code name]; [exact I|]. destruct (rhs_meth code) as [m|] eqn:Em; [|exact I].
    cbn [adds]. destruct (dget (snames s) name) as [i|] eqn:Ei; [|exact I]. cbn [adds].
    assert (Hn : dget names name = Some i) by (destruct Hs as (_ & <- & _); exact Ei).
    assert (Hv : svars s = b) by (destruct Hs as (H & _); exact H). rewrite Hv.
    assert (Er : requests names b t ((String code name, c) :: l) =
       ((if interruptible m then [Some (name, m, i, c, b, t)] else []) ++ requests names b t l)%list).
    { pose proof (request_codes code m name i c Em Hn) as X. unfold requests in X |- *. cbn [flat_map] in X |- *. rewrite app_nil_r in X. rewrite X. reflexivity. }
    rewrite Er. clear Er. cbn [left]. destruct (interruptible m) eqn:Em'.
    + cbn [adds]. set (s1 := set_state i "busy" s). assert (Hs1 : same b names strict s1) by (apply same_state; exact Hs).
      specialize (IH (MkB (ddel (bpos temp) name) (bneg temp)) (add_proc name m i c b t s1) Hs1).
      unfold add_proc at 1 in IH. cbn [sprocs set_procs] in IH. apply adds_before in IH. replace (sprocs s1) with (sprocs s) in IH by (symmetry; apply procs_attrs). exact IH.
    + cbn [app]. apply idle_gseq; [apply start_idle; exact Em'|apply same_state; exact Hs|apply procs_attrs|].
      intros s' Hs'. apply IH. exact Hs'.
Qed.

Lemma adds_resume g : forall ps s Q s' ns o, adds g ps s Q -> resume g s = (s', ns, o) ->
  match o with
  | ODone => exists a, sprocs s' = (ps ++ a)%list /\ map strip a = Q
  | ORaise _ => True
  | OYield e k => same b names strict s' /\ exists a Q', sprocs s' = (ps ++ a)%list /\ Q = (map strip a ++ Q')%list /\
      forall s', same b names strict s' -> adds k (sprocs s') s' Q'
  | OCont _ => False
  end.
Proof.
  induction g as [|e|e g IH|g IH|n g IH|f g IH|h IH]; cbn [resume adds]; intros ps s Q s' ns o Hg H.
  1-3: inversion H; subst; auto.
  - contradiction.
  - destruct (resume g s) as [[s1 ns1] o1] eqn:E. inversion H; subst. eapply IH; eauto.
  - eapply IH; eauto.
  - eapply IH; eauto.
Qed.

Lemma adds_runs (R : st -> st -> Prop) g s tr : runs R g s tr FDone -> (forall s s', same b names strict s -> R s s' -> same b names strict s') ->
  forall Q, adds g (sprocs s) s Q ->
  exists al, Forall2 (fun h a => sprocs (hafter h) = (sprocs (hbefore h) ++ a)%list) tr al /\ map strip (List.concat al) = Q.
Proof.
  intros Hr HR. remember FDone as f eqn:Ef.
  induction Hr as [g s|g s s' ns H|g s s' ns e H|g s s' ns k H|g s s' ns e k s'' tr f H Hrel Hr IH]; intros Q Ha; try discriminate.
  - pose proof (adds_resume _ _ _ _ _ _ _ Ha H) as (a & E & F). exists [a]. split; [constructor; [exact E|constructor]|]. cbn. rewrite app_nil_r. exact F.
  - pose proof (adds_resume _ _ _ _ _ _ _ Ha H) as (Hs & a & Q' & E & -> & Hk).
    destruct (IH Ef Q') as (al & F1 & F2); [apply Hk; eapply HR; eauto|].
    exists (a :: al). split; [constructor; assumption|]. cbn. rewrite map_app, F2. reflexivity.
Qed.
End Actions.

(** ** The whole right-hand side *)

(** In the steps [tr] the list of processes grows by the requests [rl], and then by processes that
    clear buffers. *)
Definition queued (rl : list (option req)) (tr : list hop) : Prop :=
  exists al cl, Forall2 (fun h a => sprocs (hafter h) = (sprocs (hbefore h) ++ a)%list) tr al /\
    map strip (List.concat al) = (rl ++ cl)%list /\ Forall clearing cl.

(** The actions of a right-hand side, stage by stage. *)
Definition acts_in (n : nat) (l : dict content) : dict content :=
  filter (fun p => match stage (fst p) with Some m => Nat.eqb m n | None => false end) l.
Definition in_order (l : dict content) : dict content :=
  (acts_in 0 l ++ acts_in 1 l ++ acts_in 2 l ++ acts_in 3 l ++ acts_in 4 l ++ acts_in 5 l)%list.


Lemma ordered_in_order rhs l : ordered_rhs rhs = Ok l -> l = in_order rhs.
Proof.
  unfold ordered_rhs. intro H.
  destruct (rmap _ rhs) as [rk|] eqn:E; cbn [rbind] in H; [|discriminate]. inversion H; subst l. clear H.
  destruct (rmap_rank _ _ E) as [Hm Hf].
  set (key := fun a : nat * (string * content) => Z.of_nat (fst a)).
  assert (Hext : isort (fun a b : nat * (string * content) => Nat.leb (fst a) (fst b)) rk = isort (fun a b => (key a <=? key b)%Z) rk).
  { apply isort_ext. intros a b. unfold key. destruct (Nat.leb_spec (fst a) (fst b)), (Z.leb_spec (Z.of_nat (fst a)) (Z.of_nat (fst b))); auto; lia. }
  rewrite Hext.
  assert (Hr : forall a, In a rk -> (0 <= key a < 0 + Z.of_nat 6)%Z).
  { intros a Ha. rewrite Forall_forall in Hf. apply Hf in Ha. apply stage_lt in Ha. unfold key. lia. }
  assert (Hs : isort (fun a b => (key a <=? key b)%Z) rk = groups _ key 0 6 rk).
  { rewrite <- groups_perm_stable. apply sorted_groups.
    - apply isort_sorted; intros; rewrite ?Z.leb_le in *; lia.
    - intros a Ha. apply Hr. eapply Permutation_in; [apply isort_perm|exact Ha]. }
  rewrite Hs. clear Hs Hext. unfold in_order. rewrite <- Hm.
  assert (Hin : forall n, acts_in n (map snd rk) = map snd (group _ key (Z.of_nat n) rk)).
  { intro n. unfold acts_in, group. apply filter_map_comm. intros a Ha. rewrite Forall_forall in Hf. rewrite (Hf _ Ha). unfold key.
    destruct (Nat.eqb_spec (fst a) n), (Z.eqb_spec (Z.of_nat (fst a)) (Z.of_nat n)); auto; lia. }
  rewrite !Hin. cbn [groups]. rewrite app_nil_r. rewrite !map_app. reflexivity.
Qed.

Lemma in_order_in p rhs : In p (in_order rhs) -> In p rhs.
Proof. unfold in_order, acts_in. rewrite !in_app_iff, !filter_In. tauto. Qed.

(** Every event of a right-hand side comes from an action that has had its effect in that step;
    with bindings and names as they were at the start.  Once all is done, all announcements have
    been made, in order, and all requests have been queued. *)
Theorem update_effects O rhs t s tr f :
  runs rely (g_update O rhs t) s tr f ->
  (forall h e, In h tr -> hevent h = Some e ->
     exists code name c i, In (String code name, c) rhs /\ dget (snames s) name = Some i /\
       acted t (svars s) name i code c (sw (hbefore h)) e (sw (hafter h))) /\
  (exists rest, flat_map (fun p => announcement (fst p)) (in_order rhs) = (texts (events tr) ++ rest)%list /\ (f = FDone -> rest = [])) /\
  (f = FDone -> queued (requests (snames s) (svars s) t (in_order rhs)) tr).
Proof.
  intros Hr. unfold g_update in Hr. apply runs_get in Hr. destruct (ordered_rhs rhs) as [l|e] eqn:Eo.
  2:{ step_of Hr E. destruct (run_step _ _ _ _ _ Hr _ _ _ E) as [[-> ->]|[-> ->]]; repeat split; try discriminate.
      - intros h e0 [].
      - eexists. split; [reflexivity|discriminate].
      - intros h e0 [<-|[]]; discriminate.
      - eexists. split; [reflexivity|discriminate]. }
  apply ordered_in_order in Eo. subst l.
  assert (Hs : same (svars s) (snames s) (qstrict (sp s)) s) by (repeat split).
  assert (HR : forall s1 s2, same (svars s) (snames s) (qstrict (sp s)) s1 -> rely s1 s2 -> same (svars s) (snames s) (qstrict (sp s)) s2)
    by (intros; eapply same_rely; eauto).
  destruct (eff_runs _ _ _ _ _ _ _ Hr HR _ (eff_actions O t _ _ _ (in_order rhs) _ _ s Hs eq_refl)) as (E1 & E2 & _).
  split; [|split].
  - intros h e Hin He. destruct (E1 h e Hin He) as (code & name & c & i & Hp & P). exists code, name, c, i. split; [apply in_order_in; exact Hp|exact P].
  - exact E2.
  - intros ->. destruct (adds_runs _ _ _ _ _ _ _ Hr HR _ (adds_actions O t _ _ _ (in_order rhs) _ s Hs)) as (al & F1 & F2).
    exists al, (if qstrict (sp s) then harvested t (svars s) (snames s) (var_keys (left (svars s) (in_order rhs))) else []).
    repeat split; [exact F1|exact F2|]. destruct (qstrict (sp s)); [apply harvested_clearing|constructor].
Qed.
