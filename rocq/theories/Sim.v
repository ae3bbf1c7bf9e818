(** Model of /repo/pyactr/simulation.py:24-252 (class Simulation, without GUI and real time) on top
    of the simpy library.

    simpy is not part of /repo; what is used of it is modelled after its documentation: events with
    callbacks, a queue ordered by time, priority (urgent before normal) and order of scheduling,
    processes driven by the events they wait for, interruptions, conditions (|).  Times are integers,
    in units of 0.1 ms: the initial time is rounded (simulation.py:45) and so is every delay
    (utilities.py:110-114, simulation.py:197). *)
From Verif Require Import Base Chunks DecMem Buffers Productions ProdSpec.
Local Open Scope string_scope.

(** ** simpy *)

(** What can be raised: an exception of the model, RuntimeError, simpy.Interrupt. *)
Inductive fault := TExn (e : exn) | TRuntime | TInterrupt.

(** Values of events: None, ProductionRules.procs (the value of the procedural process), a generator
    (the continuation of a process). *)
Inductive val := XUnit | XProcs | XCont (g : gen).
Inductive outcome := Good (v : val) | Bad (t : fault).

(** Callbacks: Process._resume, Interruption._interrupt, Condition._check. *)
Inductive cb := CResume (p : nat) | CInt (p : nat) | CCheck (c : nat).

(** What an event was made for: the end of a process, a time-out at some time, activation (the locks
    of simulation.py:69, 72, 83), a condition, the start or the interruption of a process.  Not in
    the code; nothing depends on it. *)
Inductive role := ROwn (p : nat) | RTime (t : Z) | RAct | RCond | RInit (p : nat) | RInt (p : nat).

(** [evalue]: None is PENDING.  [ecbs]: None when the event has been processed. *)
Record evt := MkEvt { erole : role; evalue : option outcome; edefused : bool; ecbs : option (list cb) }.
Definition triggered (e : evt) : bool := match evalue e with Some _ => true | None => false end.

(** Where a process is: the generators of simulation.py, each at one of its yields.
    [KProc0], [KExtra0], [KLocal0], [KEnv0], [KEnvP0]: not started. *)
Inductive code :=
| KProc0                                          (* 226 *)
| KProcPro (first : bool)                         (* 231, 251 *)
| KProcAct                                        (* 236 *)
| KProcZero (more : nat)                          (* 249 *)
| KExtra0 (name : string)                         (* 151 *)
| KExtraAct (name : string)                       (* 161 *)
| KExtraPro (name : string) (pro : nat)           (* 170 *)
| KExtraCont (name : string) (pro : nat)          (* 181 *)
| KLocal0 (isproc : bool) (name : string) (g : gen)           (* 185 *)
| KLocal (isproc : bool) (name : string) (e : event) (g : gen) (* 197 *)
| KEnv0 (g : gen)                                 (* 99 *)
| KEnvWait (pro : nat) (g : gen)                  (* 107 *)
| KEnvP0 (e : event)                              (* 138 *)
| KEnvP (e : event)                               (* 143 *)
| KEnd.

(** The generator that a process runs.  Not in the code; nothing depends on it. *)
Inductive pkind_ := GMain | GExtra (name : string) | GLocal (isproc : bool) (name : string) | GEnv | GEnvP.
Definition kind_of (c : code) : option pkind_ :=
  match c with
  | KProc0 | KProcPro _ | KProcAct | KProcZero _ => Some GMain
  | KExtra0 n | KExtraAct n | KExtraPro n _ | KExtraCont n _ => Some (GExtra n)
  | KLocal0 b n _ | KLocal b n _ _ => Some (GLocal b n)
  | KEnv0 _ | KEnvWait _ _ => Some GEnv
  | KEnvP0 _ | KEnvP _ => Some GEnvP
  | KEnd => None
  end.

(** A process: its own event, the event it waits for, where it is. *)
Record prc := MkPrc { pkind : option pkind_; pown : nat; ptarget : nat; pcode : code }.

(** An entry of the queue. *)
Record qent := MkQ { qtime : Z; qprio : nat; qid : nat; qev : nat }.
Definition URGENT := 0%nat.
Definition NORMAL := 1%nat.

(** What is left to do in the step of the environment that is being carried out. *)
Inductive work := WCb (ev : nat) (c : cb) | WRun (p : nat) (o : outcome) | WEnd (ev : nat).

(** The simulation.  [early]: the list procs_started of line 77, until it is replaced by procs
    (None).  [log]: every event at the moment of __printevent__ (also the unknown ones, which are not
    printed) or __printenv__, with the time.  [dead]: the exception that ended the run. *)
Record sim := MkSim {
  now : Z;
  eid : nat;
  heap : list qent;
  evs : list evt;
  prs : list prc;
  todo : list work;
  dead : option fault;
  ss : st;
  early : option (list proc);
  inter : dict nat;
  acts : dict nat;
  pact : nat;
  extras : dict nat;
  hasenv : bool;
  eact : nat;
  log : list (Z * event) }.

Definition set_now (t : Z) (S : sim) := MkSim t (eid S) (heap S) (evs S) (prs S) (todo S) (dead S) (ss S) (early S) (inter S) (acts S) (pact S) (extras S) (hasenv S) (eact S) (log S).
Definition set_queue (n : nat) (h : list qent) (S : sim) := MkSim (now S) n h (evs S) (prs S) (todo S) (dead S) (ss S) (early S) (inter S) (acts S) (pact S) (extras S) (hasenv S) (eact S) (log S).
Definition set_evs (x : list evt) (S : sim) := MkSim (now S) (eid S) (heap S) x (prs S) (todo S) (dead S) (ss S) (early S) (inter S) (acts S) (pact S) (extras S) (hasenv S) (eact S) (log S).
Definition set_prs (x : list prc) (S : sim) := MkSim (now S) (eid S) (heap S) (evs S) x (todo S) (dead S) (ss S) (early S) (inter S) (acts S) (pact S) (extras S) (hasenv S) (eact S) (log S).
Definition set_todo (x : list work) (S : sim) := MkSim (now S) (eid S) (heap S) (evs S) (prs S) x (dead S) (ss S) (early S) (inter S) (acts S) (pact S) (extras S) (hasenv S) (eact S) (log S).
Definition set_dead (x : option fault) (S : sim) := MkSim (now S) (eid S) (heap S) (evs S) (prs S) (todo S) x (ss S) (early S) (inter S) (acts S) (pact S) (extras S) (hasenv S) (eact S) (log S).
Definition set_ss (x : st) (S : sim) := MkSim (now S) (eid S) (heap S) (evs S) (prs S) (todo S) (dead S) x (early S) (inter S) (acts S) (pact S) (extras S) (hasenv S) (eact S) (log S).
Definition set_early (x : option (list proc)) (S : sim) := MkSim (now S) (eid S) (heap S) (evs S) (prs S) (todo S) (dead S) (ss S) x (inter S) (acts S) (pact S) (extras S) (hasenv S) (eact S) (log S).
Definition set_inter (x : dict nat) (S : sim) := MkSim (now S) (eid S) (heap S) (evs S) (prs S) (todo S) (dead S) (ss S) (early S) x (acts S) (pact S) (extras S) (hasenv S) (eact S) (log S).
Definition set_acts (x : dict nat) (S : sim) := MkSim (now S) (eid S) (heap S) (evs S) (prs S) (todo S) (dead S) (ss S) (early S) (inter S) x (pact S) (extras S) (hasenv S) (eact S) (log S).
Definition set_pact (x : nat) (S : sim) := MkSim (now S) (eid S) (heap S) (evs S) (prs S) (todo S) (dead S) (ss S) (early S) (inter S) (acts S) x (extras S) (hasenv S) (eact S) (log S).
Definition set_extras (x : dict nat) (S : sim) := MkSim (now S) (eid S) (heap S) (evs S) (prs S) (todo S) (dead S) (ss S) (early S) (inter S) (acts S) (pact S) x (hasenv S) (eact S) (log S).
Definition set_eact (x : nat) (S : sim) := MkSim (now S) (eid S) (heap S) (evs S) (prs S) (todo S) (dead S) (ss S) (early S) (inter S) (acts S) (pact S) (extras S) (hasenv S) x (log S).
Definition set_log (x : list (Z * event)) (S : sim) := MkSim (now S) (eid S) (heap S) (evs S) (prs S) (todo S) (dead S) (ss S) (early S) (inter S) (acts S) (pact S) (extras S) (hasenv S) (eact S) x.

(** Code of a process: it changes the simulation, and gives a result or raises. *)
Definition M (A : Type) := sim -> sim * (A + fault).
Definition ret {A} (a : A) : M A := fun S => (S, inl a).
Definition throw {A} (t : fault) : M A := fun S => (S, inr t).
Definition bind {A B} (m : M A) (k : A -> M B) : M B :=
  fun S => match m S with (S', inl a) => k a S' | (S', inr t) => (S', inr t) end.
Notation "'let!' x := m 'in' k" := (bind m (fun x => k)) (at level 200, x name, m at level 100, k at level 200).
Notation "m ;! k" := (bind m (fun _ => k)) (at level 199, right associativity).
Definition get : M sim := fun S => (S, inl S).
Definition upd_ (f : sim -> sim) : M unit := fun S => (f S, inl tt).

(** A new event. *)
Definition mk_event (r : role) (v : option outcome) (defused : bool) (cbs : list cb) : M nat :=
  fun S => (set_evs (evs S ++ [MkEvt r v defused (Some cbs)])%list S, inl (List.length (evs S))).
Definition new_event (r : role) : M nat := mk_event r None false [].
(** Environment.schedule *)
Definition schedule (prio : nat) (delay : Z) (ev : nat) : M unit :=
  upd_ (fun S => set_queue (Datatypes.S (eid S)) (heap S ++ [MkQ (now S + delay) prio (eid S) ev])%list S).
Definition event_at (ev : nat) (S : sim) : option evt := nth_error (evs S) ev.
Definition set_event (ev : nat) (f : evt -> evt) : M unit :=
  upd_ (fun S => match nth_error (evs S) ev with Some e => set_evs (upd (evs S) ev (f e)) S | None => S end).
Definition trig (S : sim) (ev : nat) : bool := match event_at ev S with Some e => triggered e | None => false end.
(** Event.succeed *)
Definition succeed (ev : nat) : M unit :=
  let! S := get in
  if trig S ev then throw TRuntime
  else set_event ev (fun e => MkEvt (erole e) (Some (Good XUnit)) (edefused e) (ecbs e)) ;! schedule NORMAL 0 ev.
(** Environment.timeout *)
Definition timeout (d : Z) : M nat :=
  if Z.ltb d 0 then throw (TExn EValue)
  else let! S := get in
       let! ev := mk_event (RTime (now S + d)) (Some (Good XUnit)) false [] in schedule NORMAL d ev ;! ret ev.
(** Environment.process: the process, and the event that starts it. *)
Definition spawn (c : code) : M nat :=
  let! S := get in
  let p := List.length (prs S) in
  let! own := new_event (ROwn p) in
  let! init := mk_event (RInit p) (Some (Good XUnit)) false [CResume p] in
  upd_ (fun S => set_prs (prs S ++ [MkPrc (kind_of c) own init c])%list S) ;!
  schedule URGENT 0 init ;! ret p.
Definition own_event (p : nat) (S : sim) : nat := match nth_error (prs S) p with Some r => pown r | None => 0%nat end.
Definition ended (p : nat) (S : sim) : bool := trig S (own_event p S).
(** Process.interrupt.  [active]: the process that calls it. *)
Definition interrupt (active p : nat) : M unit :=
  let! S := get in
  if ended p S then throw TRuntime
  else if Nat.eqb active p then throw TRuntime
  else let! ev := mk_event (RInt p) (Some (Bad TInterrupt)) true [CInt p] in schedule URGENT 0 ev.
Definition add_cb (ev : nat) (c : cb) : M unit :=
  set_event ev (fun e => MkEvt (erole e) (evalue e) (edefused e) (match ecbs e with Some l => Some (l ++ [c])%list | None => None end)).
Definition defuse (ev : nat) : M unit := set_event ev (fun e => MkEvt (erole e) (evalue e) true (ecbs e)).
(** Condition._check, for |.  (Once it has a value, a condition takes its callbacks off the other
    events; they would not do anything.) *)
Definition check (c ev : nat) : M unit :=
  let! S := get in
  if trig S c then ret tt
  else match event_at ev S with
       | Some e =>
           match evalue e with
           | Some (Bad t) =>
               defuse ev ;! set_event c (fun e => MkEvt (erole e) (Some (Bad t)) (edefused e) (ecbs e)) ;! schedule NORMAL 0 c
           | _ => succeed c
           end
       | None => ret tt
       end.
Definition processed (ev : nat) (S : sim) : bool :=
  match event_at ev S with Some e => match ecbs e with None => true | Some _ => false end | None => false end.
Definition watch (c ev : nat) : M unit :=
  let! S := get in if processed ev S then check c ev else add_cb ev (CCheck c).
(** a | b *)
Definition any_of (a b : nat) : M nat :=
  let! c := new_event RCond in watch c a ;! watch c b ;! ret c.

(** ** Simulation *)

(** How a process goes on: it waits for an event, or ends with a value. *)
Inductive nxt := NWait (c : code) (ev : nat) | NDone (v : val).

Definition seconds_of (t : Z) : Q := t # 10000.
Definition wait_for (c : code) (p : nat) : M nxt := let! S := get in ret (NWait c (own_event p S)).

Definition get_started (S : sim) : list proc := match early S with Some l => l | None => sprocs (ss S) end.
Definition put_started (l : list proc) (S : sim) : sim :=
  match early S with Some _ => set_early (Some l) S | None => set_ss (set_procs l (snext (ss S)) (ss S)) S end.

(** simulation.py:91-97, __activate__. *)
Definition activate (e : event) : M unit :=
  let! S := get in
  match ewhat e with
  | WUnknown => ret tt
  | _ => if String.eqb (eproc e) PROCEDURAL then ret tt
         else if trig S (pact S) then ret tt else succeed (pact S)
  end.

(** simulation.py:210-217 and 219-224. *)
Definition note (e : event) : M unit := upd_ (fun S => set_log (log S ++ [(now S, e)])%list S).

(** simulation.py:203-208.  Without an environment there is an AttributeError, which is ignored. *)
Definition str_value (v : value) (k : string) : bool := match v with VStr s => String.eqb s k | _ => false end.
Definition interact : M unit :=
  let! S := get in
  if hasenv S then
    (if existsb (fun k => existsb (fun v => str_value v k) (skeys (ss S))) (xtrig (sscreen (ss S)))
     then succeed (eact S) else ret tt) ;!
    upd_ (fun S => set_ss (set_keys [] (ss S)) S)
  else ret tt.

(** simulation.py:189-197, one round: next(generator), and waiting until the time of the event. *)
Definition local_next (isproc : bool) (name : string) (g : gen) : M nxt := fun S =>
  let '(s', _, o) := resume g (ss S) in
  let S' := set_ss s' S in
  match o with
  | ODone => (S', inl (NDone (if isproc then XProcs else XUnit)))
  | OCont k => (S', inl (NDone (XCont k)))
  | ORaise e => (S', inr (TExn e))
  | OYield e k => (let! ev := timeout (etime e - now S') in ret (NWait (KLocal isproc name e k) ev)) S'
  end.

(** simulation.py:238-247, for one element of procs_started.  The string PROCEDURAL has no buffer
    of the name 'P'. *)
Definition act_of (name : string) : M nat :=
  let! S := get in match dget (acts S) name with Some ev => ret ev | None => throw (TExn EKey) end.
Definition interrupt_extra (active : nat) (name : string) : M unit :=
  let! S := get in
  match dget (extras S) name with Some p => interrupt active p | None => throw (TExn EKey) end.
Definition launch (active : nat) (pr : proc) : M unit :=
  match pr with
  | PProc => throw (TExn EKey)
  | PReq id name _ _ _ _ _ | PAuto id name _ _ _ _ =>
      let can := match pr with PReq _ _ m _ _ _ _ => interruptible m | _ => false end in
      let! ev := act_of name in
      let! S := get in
      if trig S ev then
        match dget (inter S) name with
        | Some id' =>
            if Nat.eqb id id' then ret tt
            else upd_ (fun S => set_inter (dset (inter S) name id) S) ;! interrupt_extra active name
        | None => ret tt
        end
      else (if can then upd_ (fun S => set_inter (dset (inter S) name id) S) else ret tt) ;! succeed ev
  end.
Fixpoint launch_all (active : nat) (l : list proc) : M unit :=
  match l with [] => ret tt | p :: l' => launch active p ;! launch_all active l' end.

Definition zero (k : nat) : M nxt := let! ev := timeout 0 in ret (NWait (KProcZero k) ev).
(** simulation.py:233-249: from the head of the loop to the next yield. *)
Definition proc_loop (active : nat) : M nxt :=
  let! S := get in
  match remove_procedural (get_started S) with
  | None => ret (NWait KProcAct (pact S))
  | Some l => upd_ (put_started l) ;! launch_all active l ;! zero 4
  end.

(** simulation.py:155-167: from the head of the loop to the next yield. *)
Fixpoint take_proc (name : string) (l : list proc) : option (proc * list proc) :=
  match l with
  | [] => None
  | p :: l' =>
      let n := match p with PProc => "P" | PReq _ n _ _ _ _ _ | PAuto _ n _ _ _ _ => n end in
      if String.eqb n name then Some (p, l')
      else match take_proc name l' with Some (q, l'') => Some (q, p :: l'') | None => None end
  end.
Definition extra_loop (O : oracle) (name : string) : M nxt :=
  let! S := get in
  match take_proc name (get_started S) with
  | None =>
      upd_ (fun S => set_inter (ddel (inter S) name) S) ;!
      let! ev := act_of name in ret (NWait (KExtraAct name) ev)
  | Some (PProc, _) => throw (TExn EValue)
  | Some (p, l) =>
      upd_ (put_started l) ;!
      let! ev := act_of name in
      let! S := get in
      (if trig S ev then ret tt else succeed ev) ;!
      let! pro := spawn (KLocal0 false name (proc_gen O p)) in
      wait_for (KExtraPro name pro) pro
  end.

(** simulation.py:116-136: automatic vision, for one buffer. *)
Definition auto (active : nat) (nb : string * nat) : M unit :=
  let (name, i) := nb in
  let! S := get in
  let s := ss S in
  match nth_error (bufs (sw s)) i with
  | None => ret tt
  | Some b =>
      let kind_ := match bkind b with
                   | KLocation => Some false
                   | KVisual => match nth_error (smods s) i with
                                | Some m => if mattend m then Some true else None
                                | None => None
                                end
                   | _ => None
                   end in
      match kind_, xstim (sscreen s) with
      | None, _ => ret tt
      | Some _, None => throw (TExn EAttr)
      | Some encode, Some stims =>
          let id := snext s in
          let p := PAuto id name encode i stims (seconds_of (now S)) in
          upd_ (fun S => set_ss (set_procs (sprocs (ss S)) (Datatypes.S id) (ss S)) S) ;!
          upd_ (fun S => put_started (get_started S ++ [p])%list S) ;!
          let! ev := act_of name in
          let! S := get in
          if trig S ev then
            match dget (inter S) name with
            | None => throw (TExn EKey)
            | Some id' =>
                if Nat.eqb id id' then ret tt
                else upd_ (fun S => set_inter (dset (inter S) name id) S) ;! interrupt_extra active name
            end
          else upd_ (fun S => set_inter (dset (inter S) name id) S) ;! succeed ev
      end
  end.
Fixpoint auto_all (active : nat) (l : list (string * nat)) : M unit :=
  match l with [] => ret tt | x :: l' => auto active x ;! auto_all active l' end.

(** simulation.py:105-107. *)
Definition env_loop (e : event) (g : gen) : M nxt :=
  let! pro := spawn (KEnvP0 e) in
  let! S := get in
  let! c := any_of (own_event pro S) (eact S) in
  ret (NWait (KEnvWait pro g) c).
(** next(generator) in the environment process. *)
Definition env_next (g : gen) (k : option (event * gen) -> M nxt) : M nxt := fun S =>
  let '(s', _, o) := resume g (ss S) in
  let S' := set_ss s' S in
  match o with
  | ODone => k None S'
  | OCont _ => (S', inr (TExn EAttr))
  | ORaise e => (S', inr (TExn e))
  | OYield e g' => k (Some (e, g')) S'
  end.

(** A process [p] goes on after its yield with the outcome of the event it waited for. *)
Definition go_on (O : oracle) (p : nat) (c : code) (o : outcome) : M nxt :=
  match c, o with
  (* simulation.py:226-252 *)
  | KProc0, Good _ =>
      let! S := get in
      let! pro := spawn (KLocal0 true PROCEDURAL (procedural O (seconds_of (now S)))) in
      wait_for (KProcPro true) pro
  | KProcPro first, Good _ =>
      upd_ (set_early None) ;!
      (if first then ret tt else let! ev := new_event RAct in upd_ (set_pact ev)) ;!
      proc_loop p
  | KProcAct, Good _ => zero 4
  | KProcZero (Datatypes.S k), Good _ => zero k
  | KProcZero O, Good _ =>
      let! S := get in
      let! pro := spawn (KLocal0 true PROCEDURAL (procedural O (seconds_of (now S)))) in
      wait_for (KProcPro false) pro
  (* simulation.py:151-183 *)
  | KExtra0 name, Good _ => extra_loop O name
  | KExtraAct name, Good _ =>
      let! ev := new_event RAct in
      upd_ (fun S => set_acts (dset (acts S) name ev) S) ;! extra_loop O name
  | KExtraPro name pro, Good (XCont g) =>
      let! pro' := spawn (KLocal0 false name g) in wait_for (KExtraCont name pro') pro'
  | KExtraPro name pro, Good _ => extra_loop O name
  | KExtraPro name pro, Bad TInterrupt =>
      let! S := get in
      (if ended pro S then ret tt else interrupt p pro) ;! extra_loop O name
  | KExtraCont name pro, Good _ => extra_loop O name
  | KExtraCont name pro, Bad TInterrupt => extra_loop O name
  (* simulation.py:185-208 *)
  | KLocal0 isproc name g, Good _ => local_next isproc name g
  | KLocal isproc name e g, Good _ => note e ;! activate e ;! interact ;! local_next isproc name g
  | KLocal isproc name e g, Bad TInterrupt => ret (NDone XUnit)
  (* simulation.py:99-136; StopIteration inside a generator is a RuntimeError *)
  | KEnv0 g, Good _ =>
      env_next g (fun r => match r with None => throw TRuntime | Some (e, g') => env_loop e g' end)
  | KEnvWait pro g, Good _ =>
      let! S := get in
      (if trig S (eact S) then let! ev := new_event RAct in upd_ (set_eact ev) ;! interrupt p pro else ret tt) ;!
      env_next g (fun r =>
        match r with
        | None => ret (NDone XUnit)
        | Some (e, g') => let! S := get in auto_all p (snames (ss S)) ;! env_loop e g'
        end)
  (* simulation.py:138-149 *)
  | KEnvP0 e, Good _ =>
      let! S := get in
      if Z.ltb (etime e - now S) 0 then activate e ;! throw (TExn EValue)
      else let! ev := timeout (etime e - now S) in ret (NWait (KEnvP e) ev)
  | KEnvP e, Good _ => note e ;! activate e ;! ret (NDone XUnit)
  | KEnvP e, Bad TInterrupt => activate e ;! ret (NDone XUnit)
  | KEnvP e, Bad t => activate e ;! throw t
  | KEnd, _ => ret (NDone XUnit)
  | _, Bad t => throw t
  end.

(** ** Steps *)

(** Order of the queue. *)
Definition earlier (a b : qent) : bool :=
  if Z.ltb (qtime a) (qtime b) then true
  else if Z.ltb (qtime b) (qtime a) then false
  else if Nat.ltb (qprio a) (qprio b) then true
  else if Nat.ltb (qprio b) (qprio a) then false
  else Nat.leb (qid a) (qid b).
Fixpoint pop_min (l : list qent) : option (qent * list qent) :=
  match l with
  | [] => None
  | q :: l' => match pop_min l' with
               | None => Some (q, [])
               | Some (m, r) => if earlier q m then Some (q, l') else Some (m, q :: r)
               end
  end.

Definition set_prc (p : nat) (f : prc -> prc) (S : sim) : sim :=
  match nth_error (prs S) p with Some r => set_prs (upd (prs S) p (f r)) S | None => S end.
Definition exec_ (m : M unit) (S : sim) : sim := fst (m S).
Definition cb_eqb (a b : cb) : bool :=
  match a, b with
  | CResume p, CResume q | CInt p, CInt q | CCheck p, CCheck q => Nat.eqb p q
  | _, _ => false
  end.
Fixpoint remove_cb (c : cb) (l : list cb) : list cb :=
  match l with [] => [] | d :: l' => if cb_eqb d c then l' else d :: remove_cb c l' end.

(** The process waits for [ev] from now on, or goes on at once if [ev] has been processed. *)
Definition hand_over (p ev : nat) (S : sim) : sim :=
  match event_at ev S with
  | Some e =>
      match ecbs e, evalue e with
      | None, Some o => set_todo (WRun p o :: todo S) (exec_ (match o with Bad _ => defuse ev | _ => ret tt end) S)
      | _, _ => set_prc p (fun r => MkPrc (pkind r) (pown r) ev (pcode r)) (exec_ (add_cb ev (CResume p)) S)
      end
  | None => S
  end.
Definition end_process (p : nat) (o : outcome) (S : sim) : sim :=
  exec_ (set_event (own_event p S) (fun e => MkEvt (erole e) (Some o) (edefused e) (ecbs e)) ;! schedule NORMAL 0 (own_event p S))
    (set_prc p (fun r => MkPrc (pkind r) (pown r) (ptarget r) KEnd) S).

Definition work_off (O : oracle) (w : work) (S : sim) : sim :=
  match w with
  | WEnd ev =>
      match event_at ev S with
      | Some e => match evalue e, edefused e with
                  | Some (Bad t), false => set_dead (Some t) S
                  | _, _ => S
                  end
      | None => S
      end
  | WCb ev (CResume p) =>
      match event_at ev S with
      | Some e => match evalue e with
                  | Some o => set_todo (WRun p o :: todo S) (exec_ (match o with Bad _ => defuse ev | _ => ret tt end) S)
                  | None => S
                  end
      | None => S
      end
  | WCb ev (CInt p) =>
      if ended p S then S
      else match nth_error (prs S) p with
           | Some r =>
               let S' := exec_ (set_event (ptarget r) (fun e => MkEvt (erole e) (evalue e) (edefused e)
                             (match ecbs e with Some l => Some (remove_cb (CResume p) l) | None => None end))) S in
               set_todo (WRun p (Bad TInterrupt) :: todo S') S'
           | None => S
           end
  | WCb ev (CCheck c) => exec_ (check c ev) S
  | WRun p o =>
      match nth_error (prs S) p with
      | None => S
      | Some r =>
          match go_on O p (pcode r) o S with
          | (S', inl (NWait c ev)) => hand_over p ev (set_prc p (fun r => MkPrc (pkind r) (pown r) (ptarget r) c) S')
          | (S', inl (NDone v)) => end_process p (Good v) S'
          | (S', inr t) => end_process p (Bad t) S'
          end
      end
  end.

(** One step; None when the run has ended, with an exception or because nothing is left to do.
    simpy's step() is a step that takes an event from the queue and all steps up to the next one
    of this kind. *)
Definition sim_step (O : oracle) (S : sim) : option sim :=
  match dead S with
  | Some _ => None
  | None =>
      match todo S with
      | w :: l => Some (work_off O w (set_todo l S))
      | [] =>
          match pop_min (heap S) with
          | None => None
          | Some (q, h) =>
              let S1 := set_now (qtime q) (set_queue (eid S) h S) in
              match event_at (qev q) S1 with
              | None => Some S1
              | Some e =>
                  let S2 := exec_ (set_event (qev q) (fun e => MkEvt (erole e) (evalue e) (edefused e) None)) S1 in
                  Some (set_todo (map (WCb (qev q)) (match ecbs e with Some l => l | None => [] end) ++ [WEnd (qev q)])%list S2)
              end
          end
      end
  end.

Inductive sim_runs (O : oracle) : sim -> sim -> Prop :=
| sim_runs_refl S : sim_runs O S S
| sim_runs_step S S1 S2 : sim_runs O S S1 -> sim_step O S1 = Some S2 -> sim_runs O S S2.

(** ** The beginning *)

(** simulation.py:45-85.  [env]: the generator of the environment, if there is one.  Event 0 stands
    for an attribute that has not been assigned yet. *)
Fixpoint make_extras (names : list string) : M unit :=
  match names with
  | [] => ret tt
  | n :: names' =>
      (if String.eqb n PROCEDURAL then ret tt
       else let! p := spawn (KExtra0 n) in
            upd_ (fun S => set_extras (dset (extras S) n p) S) ;!
            let! ev := new_event RAct in
            upd_ (fun S => set_acts (dset (acts S) n ev) S)) ;!
      make_extras names'
  end.
Definition initialise (names : list string) (env : option gen) : M unit :=
  spawn KProc0 ;!
  make_extras names ;!
  (let! ev := new_event RAct in upd_ (set_pact ev)) ;!
  match env with
  | None => ret tt
  | Some g => spawn (KEnv0 g) ;! (let! ev := new_event RAct in upd_ (set_eact ev))
  end.
Definition sim_init (t : Z) (s : st) (env : option gen) : sim :=
  exec_ (initialise (dkeys (snames s)) env)
    (MkSim t 0 [] [MkEvt RAct None false (Some [])] [] [] None s (Some []) [] [] 0 [] (match env with Some _ => true | None => false end) 0 []).
