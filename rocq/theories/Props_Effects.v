(** Property theorems about the effects of actions: C56, C57. *)
From Verif Require Import Base BaseFacts Chunks DecMem DecMemFacts Buffers BufferFacts ModifyFacts Productions ProdSpec ProdFacts ActFacts HarvestFacts CycleFacts LearnFacts SelectFacts EffectFacts UpdateFacts ProdWitness.
From Verif Require Import ChunkSpec.
Local Open Scope string_scope.

(** ** C56 *)

(** The right-hand side of a rule.  Full statement: modifications of visual-location buffers
    included (missing: see the refutation).  Every event comes from an action whose effect on its
    buffer has happened in exactly that step, with the bindings and buffers at the start; when all
    is done, all actions have been announced in order, and the requests have been queued. *)
Theorem C56_actions_take_effect_partial : forall O rhs t s tr f,
  runs rely (g_update O rhs t) s tr f ->
  (forall h e, In h tr -> hevent h = Some e ->
     exists code name c i, In (String code name, c) rhs /\ dget (snames s) name = Some i /\
       acted t (svars s) name i code c (sw (hbefore h)) e (sw (hafter h))) /\
  (exists rest, flat_map (fun p => announcement (fst p)) (in_order rhs) = (texts (events tr) ++ rest)%list /\ (f = FDone -> rest = [])) /\
  (f = FDone -> queued (requests (snames s) (svars s) t (in_order rhs)) tr).
Proof. exact update_effects. Qed.
Print Assumptions C56_actions_take_effect_partial.

(** Goal requests with a delay (the star sign), and new goals: the old content is saved when CLEARED
    is announced, and the new chunk is in the buffer, after the delay, when it is announced. *)
Theorem C56_delayed_modification_partial : forall R O name i c bs t s tr f h e,
  runs R (start O MModReq name i c bs t) s tr f -> In h tr -> hevent h = Some e -> ewhat e <> WUnknown ->
  announces h (t + setting s i) name "MODIFIED" /\
  (~ of_kind (sw (hbefore h)) i KLocation -> exists o, c = CChunk o /\ modified (sw (hbefore h)) (sw (hafter h)) i o bs).
Proof. exact modreq_effect. Qed.
Print Assumptions C56_delayed_modification_partial.

Theorem C56_new_goal : forall R O name i c bs t s tr f h e,
  of_kind (sw s) i KGoal ->
  runs R (start O MRetrieve name i c bs t) s tr f -> In h tr -> hevent h = Some e -> ewhat e <> WUnknown ->
  (announces h t name "CLEARED" /\ emptied (sw (hbefore h)) (sw (hafter h)) i t) \/
  exists o h0, c = CChunk o /\ In h0 tr /\ does h (t + setting (hbefore h0) i) name "CREATED A CHUNK" (OCreate i o bs).
Proof. exact setgoal_effect. Qed.
Print Assumptions C56_new_goal.

Theorem C56_overwriting : forall R O name i c bs t s tr f h e,
  runs R (start O MOverwrite name i c bs t) s tr f -> In h tr -> hevent h = Some e -> ewhat e <> WUnknown ->
  exists o, c = CChunk o /\ does h (t + setting s i) name "WROTE A CHUNK" (OCreate i o bs).
Proof. exact overwrite_effect. Qed.
Print Assumptions C56_overwriting.

(** What creating does: the slots mentioned have the values of the right-hand side, the others are
    empty.  (For modifying see C19.) *)
Theorem C56_creating : forall w i o bs w' r,
  names_distinct o -> NoDup (dkeys (bpos bs)) -> marks_free bs o ->
  step w (OCreate i o bs) = (w', Ok r) -> created w w' i o bs.
Proof. exact create_exact. Qed.
Print Assumptions C56_creating.

(** A right-hand side with three actions: the modification comes first, the request is queued,
    clearing is last. *)
Definition ex_rhs : dict content :=
  [("~imaginal", CNone); ("=g", CChunk (wx_goal "next")); ("+imaginal", CChunk wx_var)].
Definition ex_st : st := set_vars (MkB [("x", VStr "start")] []) (wx_state wx_par []).
Definition ex_bound : st := ex_st.
Definition ex_tr : list hop := fst (exec undisturbed 20 (g_update wx_oracle ex_rhs 1) ex_bound).
Example C56_example :
  runs rely (g_update wx_oracle ex_rhs 1) ex_bound ex_tr FDone /\
  texts (events ex_tr) = [("g", "MODIFIED"); ("imaginal", "CLEARED")] /\
  content_of (hafter (last ex_tr (MkHop ex_st [] None ex_st))) "g" = [wx_goal "next"] /\
  requests (snames ex_bound) (svars ex_bound) 1 (in_order ex_rhs) =
    [Some ("imaginal", MRetrieve, 1%nat, CChunk wx_var, svars ex_bound, 1%Q)].
Proof.
  split; [|vm_compute; repeat split; reflexivity].
  exact (exec_runs rely undisturbed undisturbed_rely 20 (g_update wx_oracle ex_rhs 1) ex_bound).
Qed.

(** A visual-location buffer is not modified: its modify takes the found stimulus as second
    argument, and is given the bindings there; so a bound variable counts as unbound. *)
Definition ex_loc : chunk := MkChunk "place" [("screen_x", plain (VStr "10"))].
Definition ex_locvar : chunk := MkChunk "place" [("screen_x", Some (MkVV VNone (Some "x") [] []))].
Definition ex_locst : st :=
  set_w (MkW [add_run []] [MkBuf KLocation [ex_loc] None 0 [] [] None 0; wx_buf []] init_registry) ex_bound.
Theorem C56_actions_take_effect_refuted : exists O s i o t w' tr e,
  of_kind (sw s) i KLocation /\ dget (snames s) "g" = Some i /\
  step (sw s) (OModify i o (svars s) None) = (w', Ok None) /\
  runs rely (g_update O [("=g", CChunk o)] t) s tr (FRaise e).
Proof.
  exists wx_oracle, ex_locst, 0%nat, ex_locvar, 1%Q.
  eexists _, (fst (exec undisturbed 20 (g_update wx_oracle [("=g", CChunk ex_locvar)] 1) ex_locst)), EActr.
  split; [eexists; split; reflexivity|]. split; [reflexivity|]. split; [vm_compute; reflexivity|].
  exact (exec_runs rely undisturbed undisturbed_rely 20 (g_update wx_oracle [("=g", CChunk ex_locvar)] 1) ex_locst).
Qed.
Print Assumptions C56_actions_take_effect_refuted.

(** A delayed modification, an overwriting and a new goal, in a buffer with a delay of a tenth of a
    second. *)
Definition ex_slow : st :=
  set_w (MkW [add_run []] [MkBuf KGoal [wx_goal "start"] (Some 0%nat) 0 [] [] None (1 # 10); wx_buf []] init_registry) ex_bound.
Definition ex_start (m : meth) : list hop * fin :=
  exec undisturbed 20 (start wx_oracle m "g" 0 (CChunk (wx_goal "next")) nobind 1) ex_slow.
Example C56_delay_example : forall m, In m [MModReq; MOverwrite; MRetrieve] ->
  runs rely (start wx_oracle m "g" 0 (CChunk (wx_goal "next")) nobind 1) ex_slow (fst (ex_start m)) FDone.
Proof.
  intros m Hm. replace FDone with (snd (ex_start m)); [apply exec_runs, undisturbed_rely|].
  destruct Hm as [<-|[<-|[<-|[]]]]; vm_compute; reflexivity.
Qed.
Example C56_delay_events :
  map (fun e => (etime e, ewhat e)) (events (fst (ex_start MModReq))) = [(11000%Z, WUnknown); (11000%Z, WText "MODIFIED")] /\
  map (fun e => (etime e, ewhat e)) (events (fst (ex_start MOverwrite))) = [(11000%Z, WUnknown); (11000%Z, WText "WROTE A CHUNK")] /\
  map (fun e => (etime e, ewhat e)) (events (fst (ex_start MRetrieve))) =
    [(10000%Z, WText "CLEARED"); (11000%Z, WUnknown); (11000%Z, WText "CREATED A CHUNK")].
Proof. vm_compute. repeat split. Qed.

(** ** C57 *)

(** A retrieval that ends asks the memory once, in the step after its start, and takes exactly the
    latency of the answer: then the chunk is put into the buffer in the step that announces it, or
    the module is in error. *)
Theorem C57_retrieval : forall R O name i c bs t s tr,
  of_kind (sw s) i KRetrieval ->
  runs R (start O MRetrieve name i c bs t) s tr FDone ->
  exists o got lat h1 h2 rest, c = CChunk o /\ tr = h1 :: h2 :: rest /\
    announces h1 t name "START RETRIEVAL" /\ asks O h2 name i t o bs got lat /\
    hevent h2 = Some (MkEv (roundtime (t + lat)) name WUnknown) /\
    ((exists d h3 h4 h5, found got d /\ rest = [h3; h4; h5] /\ hevent h5 = None /\
        announces h3 (t + lat) name "CLEARED" /\ sw (hafter h3) = sw (hbefore h3) /\
        does h4 (t + lat) name "RETRIEVED" (OAdd i (AChunk d) (t + lat) None None)) \/
     ((forall d, ~ found got d) /\ exists h3 h4, rest = [h3; h4] /\ hevent h4 = None /\
        announces h3 (t + lat) name "RETRIEVED" /\ sw (hafter h3) = sw (hbefore h3) /\
        smods (hafter h3) = smods (set_state i "error" (hbefore h3)))).
Proof. exact retrieve_effect. Qed.
Print Assumptions C57_retrieval.

(** A memory with one chunk, which is retrieved at once; looking for another one takes a twentieth of
    a second. *)
Definition ex_mem : st :=
  set_w (MkW [add_run [(wx_goal "known", 0%Q)]] [MkBuf KRetrieval [] (Some 0%nat) 0 [] [] None 0; wx_buf []] init_registry) ex_bound.
Definition ex_ask (v : string) : list hop * fin :=
  exec undisturbed 20 (start wx_oracle MRetrieve "g" 0 (CChunk (wx_goal v)) nobind 1) ex_mem.
Example C57_example :
  runs rely (start wx_oracle MRetrieve "g" 0 (CChunk (wx_goal "known")) nobind 1) ex_mem (fst (ex_ask "known")) FDone /\
  map (fun e => (etime e, ewhat e)) (events (fst (ex_ask "known"))) =
    [(10000%Z, WText "START RETRIEVAL"); (10000%Z, WUnknown); (10000%Z, WText "CLEARED"); (10000%Z, WText "RETRIEVED")] /\
  runs rely (start wx_oracle MRetrieve "g" 0 (CChunk (wx_goal "other")) nobind 1) ex_mem (fst (ex_ask "other")) FDone /\
  map (fun e => (etime e, ewhat e)) (events (fst (ex_ask "other"))) =
    [(10000%Z, WText "START RETRIEVAL"); (10500%Z, WUnknown); (10500%Z, WText "RETRIEVED")].
Proof.
  split; [|split; [vm_compute; reflexivity|split; [|vm_compute; reflexivity]]].
  - replace FDone with (snd (ex_ask "known")) by (vm_compute; reflexivity). apply exec_runs, undisturbed_rely.
  - replace FDone with (snd (ex_ask "other")) by (vm_compute; reflexivity). apply exec_runs, undisturbed_rely.
Qed.
