(** Small concrete models for examples and refutations about production rules. *)
From Verif Require Import Base BaseFacts Chunks DecMem DecMemFacts Buffers Productions ProdSpec CycleFacts LearnFacts SelectFacts.
Local Open Scope string_scope.

Definition wx_oracle : oracle :=
  MkOr (fun _ i => inject_Z (3 * Z.of_nat i))
       (fun _ _ => (MkRP false false 1 0 (5 # 100) (fun a => a) [] [] false false, fun _ => AVal 0))
       (fun s _ _ => (sw s, Ok tt)) (fun s _ _ _ _ => (sw s, Ok None)) (fun s _ _ _ => (sw s, Err EActr)) (fun _ _ _ _ => Ok None)
       (fun s _ _ => (sw s, Ok None)) (fun s _ _ => (sw s, Ok (None, 0%Q))).

(** Two goal buffers, g (holding a chunk) and imaginal (empty), and one memory. *)
Definition wx_goal (v : string) : chunk := MkChunk "state" [("step", plain (VStr v))].
Definition wx_buf (l : list chunk) : buffer := MkBuf KGoal l None 0 [] [] None 0.
Definition wx_world (v : string) : world := MkW [add_run []] [wx_buf [wx_goal v]; wx_buf []] init_registry.
Definition wx_mod : modst := MkMod [("state", "free")] (None, 0%Q) (0%Q, 0%Q) true 0%Q.
Definition wx_state (p : params) (rules : dict rule) : st :=
  MkSt p (wx_world "start") [("g", 0%nat); ("imaginal", 1%nat)] [("decmem", 0%nat)] [wx_mod; wx_mod] false [] nobind
    rules (initial_order rules) [] [] 0 [] None [("g", SNone); ("imaginal", SNone)] [("g", SNone); ("imaginal", SNone)] None None (MkScr None []).

Definition wx_par : params := MkPar false 0 (5 # 100) false (1 # 2) true false true.
Definition wx_learning : params := MkPar true 0 (5 # 100) true (1 # 2) true false true.
Definition wx_noise : params := MkPar true 1 (5 # 100) false (1 # 2) true false true.

(** =g> step =x  ?imaginal> buffer empty  ==>  ~g>  +imaginal> step =x *)
Definition wx_lhs (v : string) : dict content := [("=g", CChunk (wx_goal v))].
Definition wx_var : chunk := MkChunk "state" [("step", Some (MkVV VNone (Some "x") [] []))].
Definition wx_rule : rule :=
  MkRule [("=g", CChunk wx_var); ("?imaginal", CDict [("buffer", "empty"); ("state", "free")])]
         [("~g", CNone); ("+imaginal", CChunk wx_var)] 0 None.
(** Two rules that always match and do nothing. *)
Definition wx_rules : dict rule :=
  [("low", MkRule (wx_lhs "start") [] 4 None); ("high", MkRule (wx_lhs "start") [] 5 (Some 0%Q)); ("never", MkRule (wx_lhs "stop") [] 9 None)].

(** A process that overwrites the goal after some event. *)
Definition wx_change (at_ : what -> bool) (e : event) (s : st) : st :=
  if at_ (ewhat e) then set_w (wx_world "stop") s else s.
Lemma wx_change_rely at_ e s : rely s (wx_change at_ e s).
Proof. unfold wx_change. destruct (at_ (ewhat e)); repeat split. Qed.
Definition is_selected (w : what) : bool := match w with WSelected _ => true | _ => false end.
Definition is_firing (w : what) : bool := match w with WFired _ => true | _ => false end.

Definition wx_run (env : event -> st -> st) (s : st) : list hop := fst (exec env 20 (procedural wx_oracle 0) s).

(** ** Running the models *)

(** The step whose event satisfies [p]. *)
Definition step_at (p : what -> bool) (tr : list hop) : option hop :=
  find (fun h => match hevent h with Some e => p (ewhat e) | None => false end) tr.
Lemma wx_runs env s : (forall e s, rely s (env e s)) -> runs rely (procedural wx_oracle 0) s (wx_run env s) (snd (exec env 20 (procedural wx_oracle 0) s)).
Proof. intro H. unfold wx_run. now apply exec_runs. Qed.
Lemma step_at_In p tr h : step_at p tr = Some h -> In h tr.
Proof. apply find_some. Qed.

(** A run that is stopped, and a second one, starting at 1, in which another rule is rewarded. *)
Definition wx_two : dict rule :=
  [("first", MkRule (wx_lhs "start") [] 5 None); ("second", MkRule (wx_lhs "stop") [] 4 (Some 10%Q))].
Definition wx_second (s : st) : list hop := fst (exec undisturbed 20 (procedural wx_oracle 1) s).

(** A rule that tests g with a variable called like the buffer imaginal. *)
Definition wx_clash : rule :=
  MkRule [("=g", CChunk (MkChunk "state" [("step", Some (MkVV VNone (Some "imaginal") [] []))]))] [] 0 None.
