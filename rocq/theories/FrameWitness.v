(** Simulations with a buffer that no rule acts upon. *)
From Verif Require Import Base BaseFacts Chunks DecMem DecMemFacts Buffers Productions ProdSpec ProdWitness Sim SimWitness Compile CompileFacts CompileWitness Environment FrameSpec.
Local Open Scope string_scope.

(** Goal, retrieval, and an imaginal buffer that holds a chunk. *)
Definition fw_state (strict comp : bool) (rules : dict rule) : st :=
  MkSt (MkPar false 0 (5 # 100) false (1 # 2) strict comp true)
    (MkW [add_run [(cw_fact, 0)]] [wx_buf [cw_goal]; MkBuf KRetrieval [] (Some 0%nat) 0 [] [] None 0; wx_buf [cw_fact]] cw_reg)
    [("g", 0%nat); ("retrieval", 1%nat); ("imaginal", 2%nat)] [("decmem", 0%nat)] [wx_mod; wx_mod; wx_mod] false [] nobind
    rules (initial_order rules) [] [] 0 [] None [("g", SNone); ("retrieval", SNone); ("imaginal", SNone)]
    [("g", SNone); ("retrieval", SNone); ("imaginal", SNone)] None None (MkScr None []).
Notation fw_init strict comp rules := (sim_init 0 (fw_state strict comp rules) None).
Definition fw_sim (strict comp : bool) (rules : dict rule) (n : nat) : sim := sim_exec cw_oracle n (fw_init strict comp rules).
(** Three rules about the goal; the first one has a variable called [x]. *)
Definition hold_rules (x : string) : dict rule :=
  [("one", on (task (v_ x) None (c_ "start")) (task None None (c_ "next"))); ("two", nx "next" "done"); ("three", nx "done" "start")].

Lemma cw_minds_own : minds_own cw_oracle.
Proof.
  split; [intros s i l j _; reflexivity|]. split; [intros s i c bs x j _; reflexivity|].
  split; [intros s i c bs j _; destruct c; reflexivity|]. split; intros s i l j _; reflexivity.
Qed.
Lemma fw_named strict comp rules : named (fw_state strict comp rules) "imaginal" 2%nat.
Proof.
  intros m. split; [|intros ->; reflexivity]. intros H. apply dget_In in H. destruct H as [H|[H|[H|[]]]]; [discriminate H|discriminate H|]. injection H as <-. reflexivity.
Qed.
Lemma hold_rule r x ru : dget (hold_rules x) r = Some ru -> dkeys (rlhs ru) = ["=g"] /\ dkeys (rrhs ru) = ["=g"] /\ (lhs_vars (rlhs ru) = [x] \/ lhs_vars (rlhs ru) = []).
Proof.
  intros H. apply dget_In in H. destruct H as [[= _ <-]|[[= _ <-]|[[= _ <-]|[]]]]; (split; [reflexivity|]; split; [reflexivity|]); cbn; auto.
Qed.
Lemma fw_spared strict comp x : spared (fw_state strict comp (hold_rules x)) "imaginal".
Proof. intros r ru H (c & K). apply hold_rule in H. destruct H as (_ & H & _). rewrite H in K. destruct K as [K|[]]. discriminate K. Qed.
Lemma fw_unharvested strict comp x : x <> "imaginal" -> unharvested (fw_state strict comp (hold_rules x)) "imaginal".
Proof.
  intros N. right. split; [|discriminate]. intros r ru H. apply hold_rule in H. destruct H as (A & _ & B). split.
  - unfold tested. rewrite A. intros [K|[]]. discriminate K.
  - destruct B as [-> | ->]; [intros [K|[]]; exact (N K)|intros []].
Qed.
Lemma screens_shows stimuli : forall t triggers times, shows_only (screens t stimuli triggers times).
Proof.
  induction stimuli as [|x stimuli IH]; intros t triggers times; cbn [screens]; [exact I|]. destruct times as [|d times]; [exact I|].
  destruct triggers as [|k triggers]; [exact I|]. cbn [shows_only]. split; [intros s; eexists; reflexivity|apply IH].
Qed.
Lemma env_shows initial stimuli triggers times start : shows_only (env_process initial stimuli triggers times start).
Proof. unfold env_process. destruct (prepare _ _ _) as [[[objs ks] ts]|e]; [apply screens_shows|exact I]. Qed.
