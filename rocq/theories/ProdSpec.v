(** Running generators, and specifications for production rules that do not use the functions
    of Productions.v for testing left-hand sides, choosing a rule or ordering actions. *)
From Coq Require Import Permutation.
From Verif Require Import Base Chunks DecMem Buffers Productions.
Local Open Scope string_scope.

(** ** Running a generator *)

Inductive out := ODone | ORaise (e : exn) | OYield (e : event) (k : gen) | OCont (k : gen).

(** next(generator): from one yield to the following one.  The strings are the keys of the
    right-hand-side actions that were started in between. *)
Fixpoint resume (g : gen) (s : st) : st * list string * out :=
  match g with
  | GRet => (s, [], ODone)
  | GRaise e => (s, [], ORaise e)
  | GYield e k => (s, [], OYield e k)
  | GCont k => (s, [], OCont k)
  | GNote n k => let '(s', ns, o) := resume k s in (s', n :: ns, o)
  | GAct f k => resume k (f s)
  | GGet k => resume (k s) s
  end.

(** One resumption: the state before, the actions started, the event, the state after. *)
Record hop := MkHop { hbefore : st; hstarted : list string; hevent : option event; hafter : st }.
Inductive fin := FCut | FDone | FRaise (e : exn) | FCont (k : gen).

(** A run of a generator, observed up to some point.  Whenever the generator is suspended, the
    rest of the program may change the state, subject to [R]. *)
Inductive runs (R : st -> st -> Prop) : gen -> st -> list hop -> fin -> Prop :=
| runs_cut g s : runs R g s [] FCut
| runs_done g s s' ns : resume g s = (s', ns, ODone) -> runs R g s [MkHop s ns None s'] FDone
| runs_raise g s s' ns e : resume g s = (s', ns, ORaise e) -> runs R g s [MkHop s ns None s'] (FRaise e)
| runs_cont g s s' ns k : resume g s = (s', ns, OCont k) -> runs R g s [MkHop s ns None s'] (FCont k)
| runs_yield g s s' ns e k s'' tr f :
    resume g s = (s', ns, OYield e k) -> R s' s'' -> runs R k s'' tr f ->
    runs R g s (MkHop s ns (Some e) s' :: tr) f.

Definition events (tr : list hop) : list event :=
  flat_map (fun h => match hevent h with Some e => [e] | None => [] end) tr.
Definition started (tr : list hop) : list string := flat_map hstarted tr.

(** What the rest of the program leaves alone while the procedural process is suspended: the
    bindings, the rules and their order, the buffer names and the parameters. *)
Definition rely (s s' : st) : Prop :=
  sp s' = sp s /\ snames s' = snames s /\ svars s' = svars s /\ srules s' = srules s /\
  sorder s' = sorder s /\ sused s' = sused s.

(** ** Conditions *)

Definition content_of (s : st) (name : string) : list chunk :=
  match dget (snames s) name with
  | Some i => match nth_error (bufs (sw s)) i with Some b => bdata b | None => [] end
  | None => []
  end.

(** One condition holds, turning the bindings [b] into [b']. *)
Inductive cond_holds (s : st) : string -> content -> bindings -> bindings -> Prop :=
| test_holds name p d rest b b1 :
    content_of s name = d :: rest ->
    (forall v, dget (bpos b) name = Some v -> val_eqb (VChunk d) v = true) ->
    chunk_le b p d = (b1, true) ->
    cond_holds s (String "=" name) (CChunk p) b (MkB (dset (bpos b1) name (VChunk d)) (bneg b1))
| query_holds name d b :
    (forall a v, In (a, v) d ->
       exists i bf m, dget (snames s) name = Some i /\ nth_error (bufs (sw s)) i = Some bf /\
         ((a = "buffer" /\ ((v = "full" /\ bdata bf <> []) \/ (v = "empty" /\ bdata bf = []))) \/
          (a <> "buffer" /\ nth_error (smods s) i = Some m /\ dget (mattr m) a = Some v))) ->
    cond_holds s (String "?" name) (CDict d) b b.

(** All conditions hold, in order. *)
Inductive conds_hold (s : st) : dict content -> bindings -> bindings -> Prop :=
| conds_nil b : conds_hold s [] b b
| conds_cons k c l b b1 b2 : cond_holds s k c b b1 -> conds_hold s l b1 b2 -> conds_hold s ((k, c) :: l) b b2.

(** The rule called [r] matches. *)
Definition rule_matches (s : st) (r : string) : Prop :=
  exists ru b, dget (srules s) r = Some ru /\ conds_hold s (rlhs ru) nobind b.

Definition util (s : st) (r : string) : Q := match dget (srules s) r with Some ru => rutil ru | None => 0 end.

(** ** Actions *)

(** The kinds of actions in the documented order. *)
Definition stage (key : string) : option nat :=
  match key with
  | String c _ =>
      match c with
      | "!"%char | "?"%char => Some 0
      | "="%char => Some 1
      | "@"%char => Some 2
      | "*"%char => Some 3
      | "+"%char => Some 4
      | "~"%char => Some 5
      | _ => None
      end
  | "" => None
  end%nat.

(** [l'] lists the keys [l] stage by stage; keys of the same stage keep their order. *)
Definition in_stage (n : nat) (l : list string) : list string :=
  filter (fun k => match stage k with Some m => Nat.eqb m n | None => false end) l.
Definition staged (l l' : list string) : Prop :=
  l' = (in_stage 0 l ++ in_stage 1 l ++ in_stage 2 l ++ in_stage 3 l ++ in_stage 4 l ++ in_stage 5 l)%list.

(** ** Strict harvesting *)

Definition tested (lhs : dict content) (n : string) : Prop := In (String "=" n) (dkeys lhs).
Definition mentioned (rhs : dict content) (n : string) : Prop := exists c, In (String c n) (dkeys rhs).

(** Variables that the tests of a left-hand side can bind. *)
Definition pattern_vars (c : chunk) : list string :=
  flat_map (fun p => match snd p with Some w => match vvar w with Some x => [x] | None => [] end | None => [] end)
    (cslots c).
Definition lhs_vars (lhs : dict content) : list string :=
  flat_map (fun p => match snd p with CChunk c => pattern_vars c | _ => [] end) lhs.

Definition is_clear (p : proc) : option string :=
  match p with PReq _ n MClear _ CNone _ _ => Some n | _ => None end.
Definition clears (l : list proc) : list string :=
  flat_map (fun p => match is_clear p with Some n => [n] | None => [] end) l.

(** ** The events of one cycle of the procedural process *)

Definition quiet (e : event) : Prop := ewhat e = WUnknown \/ exists t, ewhat e = WText t.

(** A complete cycle starting at [t] with firing time [f]. *)
Inductive cycle (t f : Q) : list event -> Prop :=
| cycle_none : cycle t f [MkEv (roundtime t) PROCEDURAL WConflict; MkEv (roundtime t) PROCEDURAL WNoRule]
| cycle_stopped r :
    cycle t f [MkEv (roundtime t) PROCEDURAL WConflict; MkEv (roundtime t) PROCEDURAL (WSelected r);
               MkEv (roundtime (t + f)) PROCEDURAL WUnknown; MkEv (roundtime (t + f)) PROCEDURAL (WStopped r)]
| cycle_fired r made acts :
    (made = [] \/ exists again n, made = [MkEv (roundtime (t + f)) PROCEDURAL (WCompiled again n)]) ->
    Forall quiet acts ->
    cycle t f ([MkEv (roundtime t) PROCEDURAL WConflict; MkEv (roundtime t) PROCEDURAL (WSelected r);
                MkEv (roundtime (t + f)) PROCEDURAL WUnknown] ++ made ++
               MkEv (roundtime (t + f)) PROCEDURAL (WFired r) :: acts)%list.

(** ** Steps up to the firing of the rule *)

Definition is_fired (h : hop) : bool :=
  match hevent h with Some e => match ewhat e with WFired _ => true | _ => false end | None => false end.
(** [P] holds of all steps up to and including the one that announces the firing. *)
Fixpoint until_fired (P : hop -> Prop) (tr : list hop) : Prop :=
  match tr with
  | [] => True
  | h :: tr' => P h /\ if is_fired h then True else until_fired P tr'
  end.

(** The step [h] tested the rule [r] with success: its conditions hold in the buffers at that
    moment, and give the bindings left behind. *)
Definition tested_ok (r : string) (h : hop) : Prop :=
  exists ru, dget (srules (hbefore h)) r = Some ru /\ conds_hold (hbefore h) (rlhs ru) nobind (svars (hafter h)).

(** ** Utility learning *)

(** Rounding to four decimals: some multiple of 1/10000 at distance at most 1/20000. *)
Definition rounded (x y : Q) : Prop := (exists n : Z, y == n # 10000) /\ x - (1 # 20000) <= y <= x + (1 # 20000).

(** From [u] to [u'] by one step for every use in [uses], in this order: the reward is reduced by
    the time passed since the use, and the utility moves [alpha] of the way towards it. *)
Inductive learns (alpha reward now : Q) : Q -> list Q -> Q -> Prop :=
| learns_nil u : learns alpha reward now u [] u
| learns_cons u t uses v u' :
    rounded (u + alpha * ((reward - (now - t)) - u)) v -> learns alpha reward now v uses u' ->
    learns alpha reward now u (t :: uses) u'.
