(** Running the simulation for examples. *)
From Verif Require Import Base Chunks DecMem DecMemFacts Buffers Productions ProdSpec ProdWitness Sim.
Local Open Scope string_scope.

(** At most [n] steps. *)
Fixpoint sim_exec (O : oracle) (n : nat) (S : sim) : sim :=
  match n with
  | O => S
  | Datatypes.S n' => match sim_step O S with Some S' => sim_exec O n' S' | None => S end
  end.
Lemma sim_exec_runs O n : forall S0 S, sim_runs O S0 S -> sim_runs O S0 (sim_exec O n S).
Proof.
  induction n as [|n IH]; intros S0 S H; cbn [sim_exec]; [exact H|].
  destruct (sim_step O S) as [S'|] eqn:E; [|exact H]. apply IH. eapply sim_runs_step; eauto.
Qed.
Lemma sim_exec_init O n S : sim_runs O S (sim_exec O n S).
Proof. apply sim_exec_runs. constructor. Qed.

(** The model of [wx_rules]: the rule "high" is selected and fires; then nothing matches any more. *)
Definition wx_high : dict rule := [("low", MkRule (wx_lhs "start") [] 4 None); ("high", MkRule (wx_lhs "start") [("~g", CNone)] 5 None)].
Definition wx_sim (n : nat) : sim := sim_exec wx_oracle n (sim_init 0 (wx_state wx_par wx_high) None).
Definition trace (S : sim) : list (Z * string * what) := map (fun te => (fst te, eproc (snd te), ewhat (snd te))) (log S).

(** ** Requests that are interrupted *)

(** A goal, a retrieval and a visual buffer.  Retrievals fail after 200 ms.  Attention shifts to
    "slow" take long to encode what is there, others do not. *)
Definition vx_seen (v : string) : chunk := MkChunk "_visual" [("cmd", plain (VStr "move_attention")); ("value", plain (VStr v))].
Definition vx_oracle : oracle :=
  MkOr (fun _ _ => 0)
       (fun _ _ => (MkRP false false 1 0 (2 # 10) (fun a => a) [] [] false false, fun _ => AVal 0))
       (fun s _ _ => (sw s, Ok tt)) (fun s _ _ _ _ => (sw s, Ok None))
       (fun s _ c _ => match c with
                       | CChunk o => (sw s, Ok (o, (if val_eqb (VChunk o) (VChunk (vx_seen "slow")) then 3 # 10 else 1 # 100, 2 # 100, 1 # 100), (0, 0)))
                       | _ => (sw s, Err EActr)
                       end)
       (fun _ _ _ _ => Ok None) (fun s _ _ => (sw s, Ok None)) (fun s _ _ => (sw s, Ok (None, 0%Q))).
Definition vx_world : world :=
  MkW [add_run []] [wx_buf [wx_goal "start"]; MkBuf KRetrieval [] (Some 0%nat) 0 [] [] None 0; MkBuf KVisual [] (Some 0%nat) 0 [] [] None 0] init_registry.
Definition vx_state (rules : dict rule) : st :=
  MkSt wx_par vx_world [("g", 0%nat); ("retrieval", 1%nat); ("visual", 2%nat)] [("decmem", 0%nat)] [wx_mod; wx_mod; wx_mod] false [] nobind
    rules (initial_order rules) [] [] 0 [] None [("g", SNone)] [("g", SNone)] None None (MkScr None []).
Notation vx_init rules := (sim_init 0 (vx_state rules) None).
Definition vx_sim (rules : dict rule) (n : nat) : sim := sim_exec vx_oracle n (vx_init rules).

(** Two requests to the buffer [b], the second one right after the first one. *)
Definition vx_rules (b : string) (x y : chunk) : dict rule :=
  [("one", MkRule (wx_lhs "start") [("=g", CChunk (wx_goal "middle")); (("+" ++ b)%string, CChunk x)] 0 None);
   ("two", MkRule (wx_lhs "middle") [("=g", CChunk (wx_goal "end")); (("+" ++ b)%string, CChunk y)] 0 None)].
Definition vx_retrieve : dict rule := vx_rules "retrieval" (wx_goal "x") (wx_goal "y").
Definition vx_shift : dict rule := vx_rules "visual" (vx_seen "slow") (vx_seen "fast").

(** The first state, of at most [n], in which some process is about to get an interruption. *)
Fixpoint to_interrupt (O : oracle) (n : nat) (S : sim) : sim :=
  match n with
  | O => S
  | Datatypes.S n' => match todo S with
                      | WRun _ (Bad TInterrupt) :: _ => S
                      | _ => match sim_step O S with Some S' => to_interrupt O n' S' | None => S end
                      end
  end.
Lemma to_interrupt_runs O n : forall S0 S, sim_runs O S0 S -> sim_runs O S0 (to_interrupt O n S).
Proof.
  induction n as [|n IH]; intros S0 S H; cbn [to_interrupt]; [exact H|].
  assert (G : sim_runs O S0 (match sim_step O S with Some S' => to_interrupt O n S' | None => S end)).
  { destruct (sim_step O S) as [S'|] eqn:E; [|exact H]. apply IH. eapply sim_runs_step; eauto. }
  destruct (todo S) as [|[ev c|p [v|[e| |]]|ev] l]; exact G || exact H.
Qed.
Definition vx_hit (rules : dict rule) : sim := to_interrupt vx_oracle 400 (vx_init rules).
(** The second interruption: that of the process that the first one waited for. *)
Definition vx_hit2 (rules : dict rule) : sim :=
  match sim_step vx_oracle (vx_hit rules) with Some S' => to_interrupt vx_oracle 400 S' | None => vx_hit rules end.
Lemma vx_hit_runs rules : sim_runs vx_oracle (vx_init rules) (vx_hit rules).
Proof. exact (to_interrupt_runs vx_oracle 400 (vx_init rules) (vx_init rules) (sim_runs_refl vx_oracle (vx_init rules))). Qed.
Lemma vx_hit2_runs rules : sim_runs vx_oracle (vx_init rules) (vx_hit2 rules).
Proof.
  unfold vx_hit2. destruct (sim_step vx_oracle (vx_hit rules)) as [S1|] eqn:E; [|exact (vx_hit_runs rules)].
  exact (to_interrupt_runs vx_oracle 400 (vx_init rules) S1 (sim_runs_step vx_oracle _ _ _ (vx_hit_runs rules) E)).
Qed.
(** The process that goes on next, its kind, and whether it waits for a continuation. *)
Definition continues (c : code) : bool := match c with KExtraCont _ _ => true | _ => false end.
Definition interrupted (S : sim) : option (nat * option (option pkind_ * bool)) :=
  match todo S with
  | WRun p (Bad TInterrupt) :: _ => Some (p, match nth_error (prs S) p with Some r => Some (pkind r, continues (pcode r)) | None => None end)
  | _ => None
  end.

(** ** Two actions on one buffer, and harvesting during a retrieval *)

Definition dx_rules : dict rule :=
  [("one", MkRule (wx_lhs "start") [("*g", CChunk (wx_goal "middle")); ("+g", CChunk (wx_goal "end"))] 0 None)].

(** The first rule starts a retrieval, which takes 200 ms; the second one tests what is still in the
    buffer and does not mention the buffer among its actions. *)
Definition hx_rules : dict rule :=
  [("one", MkRule (wx_lhs "start") [("=g", CChunk (wx_goal "middle")); ("+retrieval", CChunk (wx_goal "x"))] 0 None);
   ("two", MkRule [("=g", CChunk (wx_goal "middle")); ("=retrieval", CChunk (wx_goal "old"))] [("=g", CChunk (wx_goal "end"))] 0 None)].
Definition hx_state (strict : bool) : st :=
  MkSt (MkPar false 0 (5 # 100) false (1 # 2) strict false true)
    (MkW [add_run []] [wx_buf [wx_goal "start"]; MkBuf KRetrieval [wx_goal "old"] (Some 0%nat) 0 [] [] None 0] init_registry)
    [("g", 0%nat); ("retrieval", 1%nat)] [("decmem", 0%nat)] [wx_mod; wx_mod] false [] nobind
    hx_rules (initial_order hx_rules) [] [] 0 [] None [("g", SNone)] [("g", SNone)] None None (MkScr None []).
