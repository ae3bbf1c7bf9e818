(** What the actions of rules do to their buffers by the time they are announced (C56, C57). *)
From Verif Require Import Base BaseFacts Chunks TypeFacts ResolveFacts DecMem DecMemFacts Buffers BufferFacts ModifyFacts Productions ProdSpec ActFacts CycleFacts.
From Verif Require Import ChunkSpec.
Local Open Scope string_scope.

(** ** Specification *)

(** The step [h] announces [x] of the buffer [name] at time [t]. *)
Definition announces (h : hop) (t : Q) (name x : string) : Prop := hevent h = Some (MkEv (roundtime t) name (WText x)).

(** Emptied into a memory: what was in buffer [i] is recorded at [t], and nothing else changes. *)
Definition emptied (w w' : world) (i : nat) (t : Q) : Prop :=
  (holds_chunks w i [] -> w' = w) /\
  (forall c, holds_chunks w i [c] ->
     holds_chunks w' i [] /\ other_buffers_same w w' i /\
     exists m dm dm', memory w m = Some dm /\ memory w' m = Some dm' /\ recorded dm dm' c t /\ other_memories_same w w' m).

(** Buffer [i] holds a new chunk of the type of [o]: its slots mentioned have the resolved values,
    the others are empty. *)
Definition created (w w' : world) (i : nat) (o : chunk) (bs : bindings) : Prop :=
  exists c, holds_chunks w' i [c] /\ ctype c = ctype o /\
    (forall n v, mentions o n v -> ~ illegal bs true v /\
       exists u, dget (cslots c) n = Some (Some u) /\ resolves_to bs v u) /\
    (forall n, unmentioned o n -> In n (dkeys (cslots c)) -> dget (cslots c) n = Some None) /\
    mems w' = mems w /\ other_buffers_same w w' i.

(** Evaluate one resumption of the run [H]. *)
Ltac step_of H E :=
  match type of H with runs _ ?g ?s _ _ =>
    let r := eval cbn [resume] in (resume g s) in
    match r with (?a, ?b, ?c) => assert (E : resume g s = (a, b, c)) by reflexivity end
  end.

Lemma run_step R g s tr f : runs R g s tr f -> forall s' ns o, resume g s = (s', ns, o) ->
  (tr = [] /\ f = FCut) \/
  match o with
  | ODone => tr = [MkHop s ns None s'] /\ f = FDone
  | ORaise e => tr = [MkHop s ns None s'] /\ f = FRaise e
  | OCont k => tr = [MkHop s ns None s'] /\ f = FCont k
  | OYield e k => exists s'' tr', tr = MkHop s ns (Some e) s' :: tr' /\ R s' s'' /\ runs R k s'' tr' f
  end.
Proof. intros. eapply runs_step; eauto. Qed.

(** ** Operations *)

Lemma create_exact w i o bs w' r :
  names_distinct o -> NoDup (dkeys (bpos bs)) -> marks_free bs o ->
  step w (OCreate i o bs) = (w', Ok r) -> created w w' i o bs.
Proof.
  intros No nd nm H. simpl in H. destruct (nth_error (bufs w) i) as [b|] eqn:Eb; [|discriminate].
  unfold create_buf in H. destruct (bkind b); try discriminate.
  destruct (resolve_slots bs true (removeunused o)) as [args|] eqn:R; [|discriminate].
  destruct (mk_chunk (wreg w) (ctype o) args) as [[r' c']|] eqn:M; [|discriminate].
  simpl in H. injection H as <- _.
  destruct (resolve_get bs true o args No nd nm R) as (R1 & R2 & R3).
  apply mk_chunk_spec in M. destruct M as (M1 & M2 & M3 & M4 & _ & _).
  exists c'. split; [eexists; split; [simpl; apply (upd_same _ _ _ b); exact Eb|reflexivity]|]. split; [exact M1|].
  repeat split.
  - destruct (R1 n v H) as (u & Eu & Ru & Li). exact Li.
  - destruct (R1 n v H) as (u & Eu & Ru & Li). exists u. split; [|exact Ru].
    destruct (M2 n (RVV u) Eu) as (w0 & C & D). simpl in C. injection C as <-. exact D.
  - intros n U Hin. apply M3; [|exact Hin]. apply R2. exact U.
  - intros j Hj. simpl. apply upd_other. exact Hj.
Qed.

Lemma clear_buf_emptied w i b t h w' : nth_error (bufs w) i = Some b -> bkind b <> KMotor ->
  clear_buf w i b t h = (w', Ok tt) -> emptied w w' i t.
Proof.
  intros Eb K H. split.
  - intros (b' & E & Ed). assert (b' = b) by congruence. subst b'. unfold clear_buf in H. rewrite Ed in H.
    destruct (bkind b); try (injection H as <-; reflexivity). congruence.
  - intros c Hc. destruct (match h with Some m => Some m | None => bdm b end) as [m|] eqn:Em.
    2:{ destruct Hc as (b' & E & Ed). assert (b' = b) by congruence. subst b'. unfold clear_buf in H. rewrite Ed, Em in H. destruct (bkind b); congruence. }
    destruct (nth_error (mems w) m) as [dm|] eqn:Ed.
    2:{ destruct Hc as (b' & E & Eh). assert (b' = b) by congruence. subst b'. unfold clear_buf in H. rewrite Eh, Em, Ed in H. destruct (bkind b); congruence. }
    assert (Hh : harvested_to w i h m).
    { destruct h; simpl; [congruence|]. exists b. auto. }
    destruct (clear_conserves w i t h m dm c Hc) as (w1 & dm' & Hs & H1 & H2 & H3 & H4 & H5); [|exact Hh|exact Ed|].
    { intros (b' & E & Ek). assert (b' = b) by congruence. subst b'. congruence. }
    simpl in Hs. rewrite Eb, H in Hs. simpl in Hs. injection Hs as <-.
    split; [exact H1|]. split; [exact H5|]. exists m, dm, dm'. auto.
Qed.

Lemma clear_into_emptied s i name opt t w' : clear_into s i name opt t = (w', Ok tt) ->
  ~ of_kind (sw s) i KMotor /\ emptied (sw s) w' i t.
Proof.
  unfold clear_into, on_buf. destruct (nth_error (bufs (sw s)) i) as [b|] eqn:Eb; [|discriminate]. intros H.
  assert (K : bkind b <> KMotor) by (intros K; rewrite K in H; discriminate).
  split; [intros (b' & E & Ek); congruence|].
  assert (exists h, clear_buf (sw s) i b t h = (w', Ok tt)).
  { destruct (bkind b); try congruence;
    (destruct (clear_buf (sw s) i b t None) as [w1 [[]|[]]] eqn:E1; try discriminate; [exists None; congruence|];
     destruct (sdm s) as [|[n m] [|]]; [destruct opt; [discriminate|]|exists (Some m); exact H|destruct opt; [discriminate|]];
     destruct (dget _ name) as [m'|]; [exists (Some m'); exact H|discriminate|exists (Some m'); exact H|discriminate]). }
  destruct H0 as (h & H0). apply (clear_buf_emptied _ _ _ _ _ _ Eb K H0).
Qed.

Lemma set_attrs_w i l s : sw (set_attrs i l s) = sw s.
Proof. unfold set_attrs. destruct (nth_error (smods s) i); reflexivity. Qed.
Lemma set_state_w i v s : sw (set_state i v s) = sw s.
Proof. apply set_attrs_w. Qed.
Lemma set_attrs_dm i l s : sdm (set_attrs i l s) = sdm s.
Proof. unfold set_attrs. destruct (nth_error (smods s) i); reflexivity. Qed.
Lemma set_attrs_names i l s : snames (set_attrs i l s) = snames s.
Proof. unfold set_attrs. destruct (nth_error (smods s) i); reflexivity. Qed.

(** ** Clearing *)

Lemma g_clear_resume name i opt t freeing s :
  exists s' ns o, resume (g_clear name i opt t freeing) s = (s', ns, o) /\
  match o with
  | OYield e k => e = MkEv (roundtime t) name (WText "CLEARED") /\ ns = [] /\
      k = (if freeing then GAct (set_state i "free") GRet else GRet) /\
      ~ of_kind (sw s) i KMotor /\ emptied (sw s) (sw s') i t
  | ORaise _ => True
  | _ => False
  end.
Proof.
  unfold g_clear, gcall. cbn [resume]. set (s1 := set_state i "busy" s).
  destruct (clear_into s1 i name opt t) as [w1 [[]|e]] eqn:E; cbn [resume]; eexists _, _, _; (split; [reflexivity|]); [|exact I].
  apply clear_into_emptied in E. unfold s1 in E. rewrite set_state_w in E. destruct E as [E1 E2]. auto.
Qed.

Theorem clear_effect R O name i c bs t s tr f h :
  runs R (start O MClear name i c bs t) s tr f -> In h tr ->
  (forall e, hevent h = Some e -> announces h t name "CLEARED" /\
     ~ of_kind (sw (hbefore h)) i KMotor /\ emptied (sw (hbefore h)) (sw (hafter h)) i t).
Proof.
  intros Hr Hin e He. cbn [start] in Hr.
  match type of Hr with runs _ (g_clear _ _ ?o _ _) _ _ _ =>
    destruct (g_clear_resume name i o t true s) as (s' & ns & oo & E & P) end.
  destruct (runs_step _ _ _ _ _ _ _ _ E Hr) as [[-> _]|Hs]; [destruct Hin|].
  destruct oo; [destruct P|destruct Hs as [-> _]; destruct Hin as [<-|[]]; discriminate| |destruct P].
  destruct Hs as (s'' & tr' & -> & _ & Hr'). destruct P as (-> & -> & -> & P1 & P2).
  destruct Hin as [<-|Hin]; [cbn in He |- *; unfold announces; cbn; auto|].
  step_of Hr' E2. destruct (runs_step _ _ _ _ _ _ _ _ E2 Hr') as [[-> _]|Hs]; [destruct Hin|].
  cbn in Hs. destruct Hs as [-> _]. destruct Hin as [<-|[]]. discriminate He.
Qed.

Theorem clear_done R O name i c bs t s tr :
  runs R (start O MClear name i c bs t) s tr FDone -> events tr = [MkEv (roundtime t) name (WText "CLEARED")].
Proof.
  intros Hr. cbn [start] in Hr.
  match type of Hr with runs _ (g_clear _ _ ?o _ _) _ _ _ =>
    destruct (g_clear_resume name i o t true s) as (s' & ns & oo & E & P) end.
  destruct (runs_step _ _ _ _ _ _ _ _ E Hr) as [[_ X]|Hs]; [discriminate|].
  destruct oo; [destruct P|destruct Hs; discriminate| |destruct P].
  destruct Hs as (s'' & tr' & -> & _ & Hr'). destruct P as (-> & -> & -> & P1 & P2).
  step_of Hr' E2. destruct (runs_step _ _ _ _ _ _ _ _ E2 Hr') as [[_ X]|Hs]; [discriminate|].
  cbn in Hs. destruct Hs as [-> _]. reflexivity.
Qed.

(** ** Modifying *)

Lemma g_record_resume fr k s :
  (exists c, resume (g_record fr k) s = resume k (set_cur c (slastv s) s)) \/
  (exists e, resume (g_record fr k) s = (s, [], ORaise e)).
Proof. unfold g_record. cbn [resume]. destruct (fr s) as [c|e]; [left; exists c; reflexivity|right; exists e; reflexivity]. Qed.

Definition modified (w w' : world) (i : nat) (o : chunk) (bs : bindings) : Prop :=
  step w (OModify i o bs None) = (w', Ok None).

Lemma modify_call_step i c bs s w' : modify_call i c bs s = (w', Ok tt) -> ~ of_kind (sw s) i KLocation ->
  exists o, c = CChunk o /\ modified (sw s) w' i o bs.
Proof.
  unfold modify_call, on_buf. destruct (nth_error (bufs (sw s)) i) as [b|] eqn:Eb; [|discriminate]. intros H K.
  destruct c as [o| | |]; try (destruct (bdata b); discriminate). exists o. split; [reflexivity|].
  assert (bkind b <> KLocation) by (intros X; apply K; exists b; auto).
  unfold modified. simpl. rewrite Eb. destruct (bkind b); try congruence; rewrite H; reflexivity.
Qed.

Lemma modify_tail_resume name i c bs t x s :
  let g := g_record (record_modify name c) (gcall (modify_call i c bs) (fun _ =>
             GAct (set_state i "free") (GYield (ev t name (WText x)) GRet))) in
  exists s' o, resume g s = (s', [], o) /\
  match o with
  | OYield e k => e = MkEv (roundtime t) name (WText x) /\ k = GRet /\
      (~ of_kind (sw s) i KLocation -> exists o, c = CChunk o /\ modified (sw s) (sw s') i o bs)
  | ORaise _ => True
  | _ => False
  end.
Proof.
  intros g. unfold g. destruct (g_record_resume (record_modify name c) (gcall (modify_call i c bs) (fun _ =>
             GAct (set_state i "free") (GYield (ev t name (WText x)) GRet))) s) as [(d & ->)|(e & ->)].
  2:{ eexists _, _. split; [reflexivity|exact I]. }
  unfold gcall. cbn [resume]. destruct (modify_call i c bs (set_cur d (slastv s) s)) as [w1 [[]|e]] eqn:E; cbn [resume].
  2:{ eexists _, _. split; [reflexivity|exact I]. }
  eexists _, _. split; [reflexivity|]. cbn. split; [reflexivity|]. split; [reflexivity|]. intros K.
  rewrite set_state_w. apply (modify_call_step _ _ _ _ _ E K).
Qed.

Lemma ret_runs R s tr f h : runs R GRet s tr f -> In h tr -> hevent h = None.
Proof. intros H Hin. inversion H; subst; try discriminate; [destruct Hin|destruct Hin as [<-|[]]; reflexivity]. Qed.
Lemma ret_events R s tr f : runs R GRet s tr f -> events tr = [].
Proof. intros H. inversion H; subst; try discriminate; reflexivity. Qed.

Theorem modify_effect R O name i c bs t s tr f h e :
  runs R (start O MModify name i c bs t) s tr f -> In h tr -> hevent h = Some e ->
  announces h t name "MODIFIED" /\
  (~ of_kind (sw (hbefore h)) i KLocation -> exists o, c = CChunk o /\ modified (sw (hbefore h)) (sw (hafter h)) i o bs).
Proof.
  intros Hr Hin He. cbn [start] in Hr. unfold g_modify in Hr.
  destruct (modify_tail_resume name i c bs t "MODIFIED" (set_state i "busy" s)) as (s' & oo & E & P).
  assert (E' : resume (GAct (set_state i "busy") (g_record (record_modify name c) (gcall (modify_call i c bs) (fun _ =>
             GAct (set_state i "free") (GYield (ev t name (WText "MODIFIED")) GRet))))) s = (s', [], oo)) by exact E.
  destruct (runs_step _ _ _ _ _ _ _ _ E' Hr) as [[-> _]|Hs]; [destruct Hin|].
  destruct oo; [destruct P|destruct Hs as [-> _]; destruct Hin as [<-|[]]; discriminate| |destruct P].
  destruct Hs as (s'' & tr' & -> & _ & Hr'). destruct P as (-> & -> & P).
  destruct Hin as [<-|Hin]; [|rewrite (ret_runs _ _ _ _ _ Hr' Hin) in He; discriminate].
  split; [reflexivity|]. cbn. rewrite set_state_w in P. exact P.
Qed.

Theorem modify_done R O name i c bs t s tr :
  runs R (start O MModify name i c bs t) s tr FDone -> events tr = [MkEv (roundtime t) name (WText "MODIFIED")].
Proof.
  intros Hr. cbn [start] in Hr. unfold g_modify in Hr.
  destruct (modify_tail_resume name i c bs t "MODIFIED" (set_state i "busy" s)) as (s' & oo & E & P).
  assert (E' : resume (GAct (set_state i "busy") (g_record (record_modify name c) (gcall (modify_call i c bs) (fun _ =>
             GAct (set_state i "free") (GYield (ev t name (WText "MODIFIED")) GRet))))) s = (s', [], oo)) by exact E.
  destruct (runs_step _ _ _ _ _ _ _ _ E' Hr) as [[_ X]|Hs]; [discriminate|].
  destruct oo; [destruct P|destruct Hs; discriminate| |destruct P].
  destruct Hs as (s'' & tr' & -> & _ & Hr'). destruct P as (-> & -> & P). cbn. f_equal. apply (ret_events _ _ _ _ Hr').
Qed.

(** ** Delayed actions on goals *)

Definition delay_at (w : world) (i : nat) (q : Q) : Prop :=
  exists b, nth_error (bufs w) i = Some b /\ q = (match bkind b with KGoal => bdelay b | _ => 0%Q end).

(** A generator in two parts: an unknown event at [t'], then [g]. *)
Lemma two_parts R pre t' name g s tr f :
  runs R (GAct pre (GGet (fun s => GYield (ev (t' s) name WUnknown) (g s)))) s tr f ->
  tr = [] \/ exists s2 tr', tr = MkHop s [] (Some (MkEv (roundtime (t' (pre s))) name WUnknown)) (pre s) :: tr' /\
    R (pre s) s2 /\ runs R (g (pre s)) s2 tr' f.
Proof.
  intros Hr. step_of Hr E2. destruct (runs_step _ _ _ _ _ _ _ _ E2 Hr) as [[-> _]|Hs]; [left; reflexivity|right].
  cbn in Hs. destruct Hs as (s2 & tr' & -> & HR & Hr'). exists s2, tr'. auto.
Qed.

Lemma create_call_step i c bs s w' : create_call i c bs s = (w', Ok tt) ->
  exists o, c = CChunk o /\ step (sw s) (OCreate i o bs) = (w', Ok None).
Proof.
  unfold create_call, on_buf. destruct (sdm s); [discriminate|].
  destruct (nth_error (bufs (sw s)) i) as [b|] eqn:Eb; [|discriminate]. intros H.
  destruct (bkind b) eqn:K; destruct c as [o| | |]; try discriminate. exists o. split; [reflexivity|].
  simpl. rewrite Eb, H. reflexivity.
Qed.

Lemma create_tail_resume name i c bs t x s :
  let g := g_record (record_create name c) (gcall (create_call i c bs) (fun _ =>
             GAct (set_state i "free") (GYield (ev t name (WText x)) GRet))) in
  exists s' o, resume g s = (s', [], o) /\
  match o with
  | OYield e k => e = MkEv (roundtime t) name (WText x) /\ k = GRet /\
      exists o, c = CChunk o /\ step (sw s) (OCreate i o bs) = (sw s', Ok None)
  | ORaise _ => True
  | _ => False
  end.
Proof.
  intros g. unfold g. destruct (g_record_resume (record_create name c) (gcall (create_call i c bs) (fun _ =>
             GAct (set_state i "free") (GYield (ev t name (WText x)) GRet))) s) as [(d & ->)|(e & ->)].
  2:{ eexists _, _. split; [reflexivity|exact I]. }
  unfold gcall. cbn [resume]. destruct (create_call i c bs (set_cur d (slastv s) s)) as [w1 [[]|e]] eqn:E; cbn [resume].
  2:{ eexists _, _. split; [reflexivity|exact I]. }
  eexists _, _. split; [reflexivity|]. cbn. split; [reflexivity|]. split; [reflexivity|].
  rewrite set_state_w. apply (create_call_step _ _ _ _ _ E).
Qed.

(** A step does [op] to the world, and announces [x] at [t]. *)
Definition does (h : hop) (t : Q) (name x : string) (o : op) : Prop :=
  announces h t name x /\ step (sw (hbefore h)) o = (sw (hafter h), Ok None).

Definition setting (s : st) (i : nat) : Q :=
  match nth_error (bufs (sw s)) i with Some b => match bkind b with KGoal => bdelay b | _ => 0%Q end | None => 0%Q end.
Lemma delay_setting s i : delay_of s i = setting s i.
Proof. unfold delay_of, setting, setting_time. destruct (nth_error (bufs (sw s)) i); reflexivity. Qed.

Theorem overwrite_effect R O name i c bs t s tr f h e :
  runs R (start O MOverwrite name i c bs t) s tr f -> In h tr -> hevent h = Some e -> ewhat e <> WUnknown ->
  exists o, c = CChunk o /\ does h (t + setting s i) name "WROTE A CHUNK" (OCreate i o bs).
Proof.
  intros Hr Hin He Hu. cbn [start] in Hr. unfold g_overwrite in Hr.
  apply two_parts in Hr. destruct Hr as [->|(s2 & tr' & -> & _ & Hr)]; [destruct Hin|].
  destruct Hin as [<-|Hin]; [cbn in He; injection He as <-; elim Hu; reflexivity|].
  destruct (create_tail_resume name i c bs (t + delay_of (set_state i "busy" s) i) "WROTE A CHUNK" s2) as (s' & oo & E & P).
  destruct (runs_step _ _ _ _ _ _ _ _ E Hr) as [[-> _]|Hs]; [destruct Hin|].
  destruct oo; [destruct P|destruct Hs as [-> _]; destruct Hin as [<-|[]]; discriminate| |destruct P].
  destruct Hs as (s'' & tr2 & -> & _ & Hr'). destruct P as (-> & -> & o & Ec & P).
  destruct Hin as [<-|Hin]; [|rewrite (ret_runs _ _ _ _ _ Hr' Hin) in He; discriminate].
  exists o. split; [exact Ec|]. split; [|exact P]. unfold announces. cbn. rewrite delay_setting. unfold setting. rewrite set_state_w. reflexivity.
Qed.

Theorem modreq_effect R O name i c bs t s tr f h e :
  runs R (start O MModReq name i c bs t) s tr f -> In h tr -> hevent h = Some e -> ewhat e <> WUnknown ->
  announces h (t + setting s i) name "MODIFIED" /\
  (~ of_kind (sw (hbefore h)) i KLocation -> exists o, c = CChunk o /\ modified (sw (hbefore h)) (sw (hafter h)) i o bs).
Proof.
  intros Hr Hin He Hu. cbn [start] in Hr. unfold g_modreq in Hr.
  apply two_parts in Hr. destruct Hr as [->|(s2 & tr' & -> & _ & Hr)]; [destruct Hin|].
  destruct Hin as [<-|Hin]; [cbn in He; injection He as <-; elim Hu; reflexivity|].
  destruct (modify_tail_resume name i c bs (t + delay_of (set_state i "busy" s) i) "MODIFIED" s2) as (s' & oo & E & P).
  destruct (runs_step _ _ _ _ _ _ _ _ E Hr) as [[-> _]|Hs]; [destruct Hin|].
  destruct oo; [destruct P|destruct Hs as [-> _]; destruct Hin as [<-|[]]; discriminate| |destruct P].
  destruct Hs as (s'' & tr2 & -> & _ & Hr'). destruct P as (-> & -> & P).
  destruct Hin as [<-|Hin]; [|rewrite (ret_runs _ _ _ _ _ Hr' Hin) in He; discriminate].
  split; [|exact P]. unfold announces. cbn. rewrite delay_setting. unfold setting. rewrite set_state_w. reflexivity.
Qed.

(** A new goal: the old one is saved at once, the new one is there after the delay. *)
Theorem setgoal_effect R O name i c bs t s tr f h e :
  of_kind (sw s) i KGoal ->
  runs R (start O MRetrieve name i c bs t) s tr f -> In h tr -> hevent h = Some e -> ewhat e <> WUnknown ->
  (announces h t name "CLEARED" /\ emptied (sw (hbefore h)) (sw (hafter h)) i t) \/
  exists o h0, c = CChunk o /\ In h0 tr /\ does h (t + setting (hbefore h0) i) name "CREATED A CHUNK" (OCreate i o bs).
Proof.
  intros (b & Eb & Kb) Hr Hin He Hu. cbn [start] in Hr. unfold g_request in Hr.
  set (opt := match c with CChunk ch => truthy (VChunk ch) | CNone => false | CDict [] => false | CCmds [] => false | _ => true end).
  destruct (g_clear_resume name i opt t false (set_state i "busy" s)) as (s' & ns & oo & E & P).
  assert (Hr1 : forall k, resume (gseq (g_clear name i opt t false) k) (set_state i "busy" s) =
    match oo with OYield e g => (s', ns, OYield e (gseq g k)) | _ => (s', ns, oo) end).
  { intros k. revert E P. unfold g_clear, gcall. cbn [gseq resume].
    destruct (clear_into _ i name opt t) as [w1 [[]|e1]]; cbn [gseq resume]; intros E P; injection E as <- <- <-; reflexivity. }
  assert (E1 : forall g : gen, resume (GAct (set_state i "busy") g) s = resume g (set_state i "busy" s)) by reflexivity.
  assert (Hr2 : resume (GAct (set_state i "busy") (GGet (fun s0 => match nth_error (bufs (sw s0)) i with
     | None => GRaise EAttr
     | Some b0 => match bkind b0 with KGoal => g_setgoal name i c bs t | KLocation => g_find O name i c bs t
         | KVisual => g_visual O name i c bs t | KMotor => g_motor name i c bs t | KRetrieval => g_retrieve O name i c bs t end end))) s
     = resume (g_setgoal name i c bs t) (set_state i "busy" s)).
  { cbn [resume]. rewrite set_state_w, Eb, Kb. reflexivity. }
  unfold g_setgoal in Hr2. rewrite Hr1 in Hr2.
  destruct oo as [|e1|e1 g1|g1]; [destruct P| |destruct P as (-> & -> & -> & P1 & P2)|destruct P].
  { destruct (runs_step _ _ _ _ _ _ _ _ Hr2 Hr) as [[-> _]|[-> _]]; [destruct Hin|destruct Hin as [<-|[]]; discriminate]. }
  destruct (runs_step _ _ _ _ _ _ _ _ Hr2 Hr) as [[-> _]|(s2 & tr' & -> & _ & Hr')]; [destruct Hin|].
  destruct Hin as [<-|Hin].
  { left. split; [reflexivity|]. cbn. rewrite set_state_w in P2. exact P2. }
  right. cbn [gseq] in Hr'.
  assert (Hr3 : runs R (GAct (fun s => s) (GGet (fun s => GYield (ev (t + delay_of s i) name WUnknown)
     (g_record (record_create name c)
     (gcall (create_call i c bs) (fun _ =>
      GAct (set_state i "free") (GYield (ev (t + delay_of s i) name (WText "CREATED A CHUNK")) GRet))))))) s2 tr' f).
  { inversion Hr'; subst; econstructor; eauto. }
  apply two_parts in Hr3. destruct Hr3 as [->|(s3 & tr3 & -> & _ & Hr3)]; [destruct Hin|].
  destruct Hin as [<-|Hin]; [cbn in He; injection He as <-; elim Hu; reflexivity|].
  destruct (create_tail_resume name i c bs (t + delay_of s2 i) "CREATED A CHUNK" s3) as (s4 & oo & E4 & P4).
  destruct (runs_step _ _ _ _ _ _ _ _ E4 Hr3) as [[-> _]|Hs]; [destruct Hin|].
  destruct oo; [destruct P4|destruct Hs as [-> _]; destruct Hin as [<-|[]]; discriminate| |destruct P4].
  destruct Hs as (s'' & tr2 & -> & _ & Hr''). destruct P4 as (-> & -> & o & Ec & P4).
  destruct Hin as [<-|Hin]; [|rewrite (ret_runs _ _ _ _ _ Hr'' Hin) in He; discriminate].
  match goal with |- context[?h0 :: ?h1 :: _] => exists o, h1 end.
  split; [exact Ec|]. split; [right; left; reflexivity|]. split; [|exact P4]. unfold announces. cbn. rewrite delay_setting. reflexivity.
Qed.

(** ** Retrieval *)

Lemma runs_get R k s tr f : runs R (GGet k) s tr f -> runs R (k s) s tr f.
Proof. intros H. inversion H; subst; econstructor; eauto. Qed.

(** The step [h] asks the memory of buffer [i] for [o], and gets [got], which takes the time [lat]. *)
Definition asks (O : oracle) (h : hop) (name : string) (i : nat) (t : Q) (o : chunk) (bs : bindings) (got : option chunk) (lat : Q) : Prop :=
  exists b, nth_error (bufs (sw (hbefore h))) i = Some b /\
    retrieve_buf (sw (hbefore h)) i b (fst (oretr O (hbefore h) i)) (snd (oretr O (hbefore h) i)) t o bs
      (recency_of (extra_of (hbefore h) name)) = (sw (hafter h), Ok (got, lat)).

Definition found (got : option chunk) (c : chunk) : Prop := got = Some c /\ cslots c <> [].

Lemma truthy_chunk (c : chunk) : truthy (VChunk c) = true <-> cslots c <> [].
Proof. destruct c as [ty [|]]; simpl; split; intros; congruence. Qed.

Lemma record_retrieve_tail R name c got t s tr :
  runs R (g_record (record_retrieve name c got) (GYield (ev t name (WText "RETRIEVED")) GRet)) s tr FDone ->
  exists h h', tr = [h; h'] /\ hbefore h = s /\ sw (hafter h) = sw s /\ smods (hafter h) = smods s /\
    announces h t name "RETRIEVED" /\ hevent h' = None.
Proof.
  intros Hr. destruct (g_record_resume (record_retrieve name c got) (GYield (ev t name (WText "RETRIEVED")) GRet) s) as [(d & E)|(e & E)].
  - cbn [resume] in E. destruct (runs_step _ _ _ _ _ _ _ _ E Hr) as [[_ X]|(s2 & tr' & -> & _ & Hr')]; [discriminate|].
    inversion Hr'; subst; try discriminate. eexists _, _. split; [reflexivity|]. repeat split.
  - destruct (runs_step _ _ _ _ _ _ _ _ E Hr) as [[_ X]|[_ X]]; discriminate.
Qed.

Theorem retrieve_effect R O name i c bs t s tr :
  of_kind (sw s) i KRetrieval ->
  runs R (start O MRetrieve name i c bs t) s tr FDone ->
  exists o got lat h1 h2 rest, c = CChunk o /\ tr = h1 :: h2 :: rest /\
    announces h1 t name "START RETRIEVAL" /\ asks O h2 name i t o bs got lat /\
    hevent h2 = Some (MkEv (roundtime (t + lat)) name WUnknown) /\
    ((exists d h3 h4 h5, found got d /\ rest = [h3; h4; h5] /\ hevent h5 = None /\
        announces h3 (t + lat) name "CLEARED" /\ sw (hafter h3) = sw (hbefore h3) /\
        does h4 (t + lat) name "RETRIEVED" (OAdd i (AChunk d) (t + lat) None None)) \/
     ((forall d, ~ found got d) /\ exists h3 h4, rest = [h3; h4] /\ hevent h4 = None /\
        announces h3 (t + lat) name "RETRIEVED" /\ sw (hafter h3) = sw (hbefore h3) /\
        smods (hafter h3) = smods (set_state i "error" (hbefore h3)))).
Proof.
  intros (b & Eb & Kb) Hr. cbn [start] in Hr. unfold g_request in Hr.
  assert (E1 : resume (GAct (set_state i "busy") (GGet (fun s0 => match nth_error (bufs (sw s0)) i with
     | None => GRaise EAttr
     | Some b0 => match bkind b0 with KGoal => g_setgoal name i c bs t | KLocation => g_find O name i c bs t
         | KVisual => g_visual O name i c bs t | KMotor => g_motor name i c bs t | KRetrieval => g_retrieve O name i c bs t end end))) s
     = resume (g_retrieve O name i c bs t) (set_state i "busy" s)).
  { cbn [resume]. rewrite set_state_w, Eb, Kb. reflexivity. }
  match type of E1 with ?l = _ => remember l as L eqn:EL end. unfold g_retrieve in E1. cbn [resume] in E1. rewrite EL in E1. clear EL L.
  destruct (runs_step _ _ _ _ _ _ _ _ E1 Hr) as [[_ X]|(s2 & tr' & -> & _ & Hr2)]; [discriminate|]. clear E1.
  unfold gcall in Hr2 at 1.
  match type of Hr2 with runs _ (GGet ?k) _ _ _ => assert (E2 : resume (GGet k) s2 = resume (k s2) s2) by reflexivity end.
  match type of E2 with ?l = _ => remember l as L eqn:EL end. cbn beta in E2. unfold on_buf in E2 at 1.
  destruct (nth_error (bufs (sw s2)) i) as [b2|] eqn:Eb2.
  2:{ cbn [resume] in E2. rewrite EL in E2. destruct (runs_step _ _ _ _ _ _ _ _ E2 Hr2) as [[_ X]|[_ X]]; discriminate. }
  destruct c as [o| | |]; try (cbn [resume] in E2; rewrite EL in E2; destruct (runs_step _ _ _ _ _ _ _ _ E2 Hr2) as [[_ X]|[_ X]]; discriminate).
  destruct (oretr O s2 i) as [p act] eqn:Ep.
  destruct (retrieve_buf (sw s2) i b2 p act t o bs (recency_of (extra_of s2 name))) as [w2 [[got lat]|e]] eqn:Eq.
  2:{ cbn [resume] in E2. rewrite EL in E2. destruct (runs_step _ _ _ _ _ _ _ _ E2 Hr2) as [[_ X]|[_ X]]; discriminate. }
  cbn [resume fst snd] in E2. rewrite EL in E2. clear EL L.
  destruct (runs_step _ _ _ _ _ _ _ _ E2 Hr2) as [[_ X]|(s3 & tr3 & -> & _ & Hr3)]; [discriminate|]. clear E2 Hr Hr2.
  eexists o, got, lat, _, _, tr3. split; [reflexivity|]. split; [reflexivity|]. split; [reflexivity|]. split.
  { exists b2. cbn. rewrite Ep. auto. }
  split; [reflexivity|].
  assert (F : (exists d, found got d) \/ forall d, ~ found got d).
  { destruct got as [d|]; [|right; intros d [X _]; discriminate]. destruct (cslots d) eqn:Es.
    - right. intros d' [X Y]. congruence.
    - left. exists d. split; [reflexivity|congruence]. }
  destruct F as [(d & F)|F]; [left|right].
  - destruct F as [-> Fs]. pose proof (proj2 (truthy_chunk d) Fs) as T. rewrite T in Hr3. cbn [gseq] in Hr3.
    step_of Hr3 E3. destruct (runs_step _ _ _ _ _ _ _ _ E3 Hr3) as [[_ X]|(s4 & tr4 & -> & _ & Hr4)]; [discriminate|].
    unfold gcall in Hr4. cbn [gseq] in Hr4.
    destruct (on_buf s4 i (fun b => add_buf (sw s4) i b (AChunk d) (t + lat) None None)) as [w4 [[]|e]] eqn:E4.
    2:{ apply runs_get in Hr4. cbn beta in Hr4. rewrite E4 in Hr4. cbn [gseq] in Hr4. step_of Hr4 E5.
        destruct (runs_step _ _ _ _ _ _ _ _ E5 Hr4) as [[_ X]|[_ X]]; discriminate. }
    apply runs_get in Hr4. cbn beta in Hr4. rewrite E4 in Hr4. cbn [gseq] in Hr4.
    destruct (g_record_resume (record_retrieve name (CChunk o) (Some d)) (GYield (ev (t + lat) name (WText "RETRIEVED")) GRet)
      (set_state i "free" (set_w w4 s4))) as [(cu & E6)|(e & E6)].
    2:{ destruct (run_step _ _ _ _ _ Hr4 _ _ _ E6) as [[_ X]|[_ X]]; discriminate. }
    cbn [resume] in E6. destruct (run_step _ _ _ _ _ Hr4 _ _ _ E6) as [[_ X]|(s6 & tr6 & -> & _ & Hr6)]; [discriminate|].
    inversion Hr6; subst; try discriminate.
    eexists d, _, _, _. split; [split; [reflexivity|exact Fs]|]. split; [reflexivity|]. split; [reflexivity|]. split; [reflexivity|].
    split; [reflexivity|]. split; [reflexivity|]. cbn [hbefore hafter].
    unfold on_buf in E4. simpl. rewrite set_state_w. cbn. destruct (nth_error (bufs (sw s4)) i); [|discriminate]. rewrite E4. reflexivity.
  - split; [exact F|].
    assert (Hr4 : runs R (GAct (set_state i "error") (g_record (record_retrieve name (CChunk o) got)
                    (GYield (ev (t + lat) name (WText "RETRIEVED")) GRet))) s3 tr3 FDone).
    { destruct got as [d|]; [|exact Hr3]. destruct (truthy (VChunk d)) eqn:T; [|exact Hr3].
      elim (F d). split; [reflexivity|]. apply truthy_chunk. exact T. }
    clear Hr3.
    destruct (g_record_resume (record_retrieve name (CChunk o) got) (GYield (ev (t + lat) name (WText "RETRIEVED")) GRet)
      (set_state i "error" s3)) as [(cu & E6)|(e & E6)].
    2:{ destruct (run_step _ _ _ _ _ Hr4 _ _ _ E6) as [[_ X]|[_ X]]; discriminate. }
    cbn [resume] in E6. destruct (run_step _ _ _ _ _ Hr4 _ _ _ E6) as [[_ X]|(s6 & tr6 & -> & _ & Hr6)]; [discriminate|].
    inversion Hr6; subst; try discriminate.
    eexists _, _. split; [reflexivity|]. split; [reflexivity|]. split; [reflexivity|]. cbn. rewrite set_state_w. split; reflexivity.
Qed.
