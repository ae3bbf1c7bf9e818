(** Model of the production system: /repo/pyactr/productions.py:450-1025 (class ProductionRules),
    utilities.py:94-108 (signs), utilities.py:402-420 (utility learning, setting time),
    motor.py (class Motor).

    Python generators are programs of the type [gen] below: they read and write the state [st]
    and yield events.  What other modules compute from random numbers, from the screen or in
    Python code supplied by the user comes from an [oracle]. *)
From Verif Require Import Base Chunks DecMem Buffers.
Local Open Scope string_scope.

(** ** Rules *)

(** The value of a key on one side of a rule: a chunk (test, modify, ...), a dictionary (query,
    extra test), the commands of an execute, or None (clear). *)
Inductive content := CChunk (c : chunk) | CDict (d : dict string) | CCmds (l : list (string * string)) | CNone.

(** productions.py:18-62: rule(), utility, reward.  The generator function yields the left-hand
    side, then the right-hand side, both dictionaries; it is assumed to yield the same two
    dictionaries whenever it is called. *)
Record rule := MkRule { rlhs : dict content; rrhs : dict content; rutil : Q; rreward : option Q }.

(** utilities.py:101-108, _RHSCONVENTIONS and _INTERRUPTIBLE. *)
Inductive meth := MExtra | MModify | MRetrieve | MExecute | MClear | MOverwrite | MModReq.
Definition rhs_meth (c : ascii) : option meth :=
  (if Ascii.eqb c "?" then Some MExtra
   else if Ascii.eqb c "=" then Some MModify
   else if Ascii.eqb c "+" then Some MRetrieve
   else if Ascii.eqb c "!" then Some MExecute
   else if Ascii.eqb c "~" then Some MClear
   else if Ascii.eqb c "@" then Some MOverwrite
   else if Ascii.eqb c "*" then Some MModReq
   else None)%char.
Definition interruptible (m : meth) : bool := match m with MRetrieve | MModReq => true | _ => false end.

(** productions.py:569, ordering_dict. *)
Definition rank (c : ascii) : option nat :=
  (if Ascii.eqb c "!" then Some 0
   else if Ascii.eqb c "?" then Some 0
   else if Ascii.eqb c "=" then Some 1
   else if Ascii.eqb c "@" then Some 2
   else if Ascii.eqb c "*" then Some 3
   else if Ascii.eqb c "+" then Some 4
   else if Ascii.eqb c "~" then Some 5
   else None)%char%nat.

(** ** Events *)

(** utilities.py:90, Event.  [WText] is the text of an event of a module other than the
    procedural one; the chunk that some of these texts mention is left out. *)
Inductive what :=
| WUnknown
| WConflict
| WSelected (r : string)
| WStopped (r : string)
| WFired (r : string)
| WNoRule
| WCompiled (again : bool) (r : string)
| WText (s : string).
Record event := MkEv { etime : Z; eproc : string; ewhat : what }.
Definition PROCEDURAL := "PROCEDURAL".
Definition ev (t : Q) (p : string) (w : what) : event := MkEv (roundtime t) p w.

(** ** State *)

(** Attributes of one buffer object besides its content.  [mattr]: state, preparation, processor,
    execution, autoattending (buffers.py:20, motor.py:24-26, vision.py:249-253); querying any
    other attribute is modelled as AttributeError.  [mlast]: Motor.last_key (motor.py:28).
    [mfocus], [mattend], [mmvt]: vision.py:248, 254, 255. *)
Record modst := MkMod {
  mattr : dict string;
  mlast : option vv * Q;
  mfocus : Q * Q;
  mattend : bool;
  mmvt : Q }.

(** current_slotvals (productions.py:469-470): None, a dictionary, or the list
    [dictionary, retrieved chunk]. *)
Inductive slotinfo := SNone | SDict (d : dict slotval) | SRet (d : dict slotval) (c : option chunk).

(** An element of procs: the string PROCEDURAL, or a buffer name with a generator that has not
    been started: its method, buffer object, arguments and an identity.  [PAuto]: automatic search
    or, with [encode], automatic buffering, with the stimuli on the screen when it was made. *)
Inductive proc :=
| PProc
| PReq (id : nat) (name : string) (m : meth) (i : nat) (c : content) (bs : bindings) (t : Q)
| PAuto (id : nat) (name : string) (encode : bool) (i : nat) (stims : list stimulus) (t : Q).

(** Environment.stimulus (None before the first screen) and Environment.trigger
    (environment.py:35-36; the empty list for None). *)
Record screen := MkScr { xstim : option (list stimulus); xtrig : list string }.

(** Model parameters used by the production system (model.py:50-77).  motor_prepared is in [st]
    because motorset changes it. *)
Record params := MkPar {
  qsub : bool; qnoise : Q; qfiring : Q; qlearn : bool; qalpha : Q; qstrict : bool; qcompile : bool;
  qautosearch : bool }.

(** The attributes of ProductionRules (productions.py:463-480) and what they refer to.
    [snames]: buffers, by name, as numbers in [bufs]; [sdm]: dm, by name, as numbers in [mems].
    [snext] gives identities to generators.  [skeys]: env_interaction.  [srule]: used_rulename.
    [sscreen] belongs to the environment. *)
Record st := MkSt {
  sp : params;
  sw : world;
  snames : dict nat;
  sdm : dict nat;
  smods : list modst;
  sprep : bool;
  sextra : dict (dict string);
  svars : bindings;
  srules : dict rule;
  sorder : list string;
  sused : dict (list Q);
  sprocs : list proc;
  snext : nat;
  skeys : list value;
  srule : option string;
  scur : dict slotinfo;
  slastv : dict slotinfo;
  slast : option string;
  scomp : option (string * string * dict slotinfo);
  sscreen : screen }.

Definition set_w (w : world) (s : st) : st :=
  MkSt (sp s) w (snames s) (sdm s) (smods s) (sprep s) (sextra s) (svars s) (srules s) (sorder s) (sused s)
    (sprocs s) (snext s) (skeys s) (srule s) (scur s) (slastv s) (slast s) (scomp s) (sscreen s).
Definition set_mods (m : list modst) (s : st) : st :=
  MkSt (sp s) (sw s) (snames s) (sdm s) m (sprep s) (sextra s) (svars s) (srules s) (sorder s) (sused s)
    (sprocs s) (snext s) (skeys s) (srule s) (scur s) (slastv s) (slast s) (scomp s) (sscreen s).
Definition set_prep (b : bool) (s : st) : st :=
  MkSt (sp s) (sw s) (snames s) (sdm s) (smods s) b (sextra s) (svars s) (srules s) (sorder s) (sused s)
    (sprocs s) (snext s) (skeys s) (srule s) (scur s) (slastv s) (slast s) (scomp s) (sscreen s).
Definition set_extra (x : dict (dict string)) (s : st) : st :=
  MkSt (sp s) (sw s) (snames s) (sdm s) (smods s) (sprep s) x (svars s) (srules s) (sorder s) (sused s)
    (sprocs s) (snext s) (skeys s) (srule s) (scur s) (slastv s) (slast s) (scomp s) (sscreen s).
Definition set_vars (b : bindings) (s : st) : st :=
  MkSt (sp s) (sw s) (snames s) (sdm s) (smods s) (sprep s) (sextra s) b (srules s) (sorder s) (sused s)
    (sprocs s) (snext s) (skeys s) (srule s) (scur s) (slastv s) (slast s) (scomp s) (sscreen s).
Definition set_rules (r : dict rule) (s : st) : st :=
  MkSt (sp s) (sw s) (snames s) (sdm s) (smods s) (sprep s) (sextra s) (svars s) r (sorder s) (sused s)
    (sprocs s) (snext s) (skeys s) (srule s) (scur s) (slastv s) (slast s) (scomp s) (sscreen s).
Definition set_order (o : list string) (s : st) : st :=
  MkSt (sp s) (sw s) (snames s) (sdm s) (smods s) (sprep s) (sextra s) (svars s) (srules s) o (sused s)
    (sprocs s) (snext s) (skeys s) (srule s) (scur s) (slastv s) (slast s) (scomp s) (sscreen s).
Definition set_used (u : dict (list Q)) (s : st) : st :=
  MkSt (sp s) (sw s) (snames s) (sdm s) (smods s) (sprep s) (sextra s) (svars s) (srules s) (sorder s) u
    (sprocs s) (snext s) (skeys s) (srule s) (scur s) (slastv s) (slast s) (scomp s) (sscreen s).
Definition set_procs (l : list proc) (n : nat) (s : st) : st :=
  MkSt (sp s) (sw s) (snames s) (sdm s) (smods s) (sprep s) (sextra s) (svars s) (srules s) (sorder s) (sused s)
    l n (skeys s) (srule s) (scur s) (slastv s) (slast s) (scomp s) (sscreen s).
Definition set_keys (k : list value) (s : st) : st :=
  MkSt (sp s) (sw s) (snames s) (sdm s) (smods s) (sprep s) (sextra s) (svars s) (srules s) (sorder s) (sused s)
    (sprocs s) (snext s) k (srule s) (scur s) (slastv s) (slast s) (scomp s) (sscreen s).
Definition set_rule (r : option string) (s : st) : st :=
  MkSt (sp s) (sw s) (snames s) (sdm s) (smods s) (sprep s) (sextra s) (svars s) (srules s) (sorder s) (sused s)
    (sprocs s) (snext s) (skeys s) r (scur s) (slastv s) (slast s) (scomp s) (sscreen s).
Definition set_cur (c l : dict slotinfo) (s : st) : st :=
  MkSt (sp s) (sw s) (snames s) (sdm s) (smods s) (sprep s) (sextra s) (svars s) (srules s) (sorder s) (sused s)
    (sprocs s) (snext s) (skeys s) (srule s) c l (slast s) (scomp s) (sscreen s).
Definition set_last (l : option string) (c : option (string * string * dict slotinfo)) (s : st) : st :=
  MkSt (sp s) (sw s) (snames s) (sdm s) (smods s) (sprep s) (sextra s) (svars s) (srules s) (sorder s) (sused s)
    (sprocs s) (snext s) (skeys s) (srule s) (scur s) (slastv s) l c (sscreen s).

Definition set_screen (x : screen) (s : st) : st :=
  MkSt (sp s) (sw s) (snames s) (sdm s) (smods s) (sprep s) (sextra s) (svars s) (srules s) (sorder s) (sused s)
    (sprocs s) (snext s) (skeys s) (srule s) (scur s) (slastv s) (slast s) (scomp s) x.

(** {key: None for key in buffers} *)
Definition no_slotvals (s : st) : dict slotinfo := map (fun p => (fst p, SNone)) (snames s).

Definition buf_at (s : st) (name : string) : option (nat * buffer) :=
  match dget (snames s) name with
  | Some i => match nth_error (bufs (sw s)) i with Some b => Some (i, b) | None => None end
  | None => None
  end.

Definition set_attrs (i : nat) (l : list (string * string)) (s : st) : st :=
  match nth_error (smods s) i with
  | Some m => set_mods (upd (smods s) i (MkMod (dupdate (mattr m) l) (mlast m) (mfocus m) (mattend m) (mmvt m))) s
  | None => s
  end.
Definition set_state (i : nat) (v : string) : st -> st := set_attrs i [("state", v)].

(** ** Generators *)

(** [GYield]: yield of an event.  [GCont]: yield of another generator, upon which this one is
    dropped (simulation.py:173-174).  [GNote]: no effect; it marks, for the statements below, that
    update calls the method that the key of a right-hand side stands for. *)
Inductive gen :=
| GRet
| GRaise (e : exn)
| GYield (e : event) (k : gen)
| GCont (k : gen)
| GNote (key : string) (k : gen)
| GAct (f : st -> st) (k : gen)
| GGet (k : st -> gen).

(** yield from g; k *)
Fixpoint gseq (g k : gen) : gen :=
  match g with
  | GRet => k
  | GRaise e => GRaise e
  | GYield e g' => GYield e (gseq g' k)
  | GCont g' => GCont g'
  | GNote n g' => GNote n (gseq g' k)
  | GAct f g' => GAct f (gseq g' k)
  | GGet g' => GGet (fun s => gseq (g' s) k)
  end.

(** A call that changes the world also when it raises. *)
Definition gcall {A} (f : st -> world * res A) (k : A -> gen) : gen :=
  GGet (fun s => match f s with
                 | (w, Ok a) => GAct (set_w w) (k a)
                 | (w, Err e) => GAct (set_w w) (GRaise e)
                 end).

(** ** Oracles *)

(** [onoise]: sample number [i] of the utility noise (utilities.py:458-466) during one conflict
    resolution.  [oretr]: parameters and activations at a retrieval.  [oexec]: the effect of an
    execute.  [ofind]: VisualLocation.find.  [oshift]: Visual.shift (encoding, preparation,
    execution time; landing site).  [ocompile]: Productions.compile_rules (name, re-created, rules).
    [oauto]: VisualLocation.automatic_search; [oautobuf]: productions.py:815-824. *)
Record oracle := MkOr {
  onoise : st -> nat -> Q;
  oretr : st -> nat -> rparams * (nat -> activation);
  oexec : st -> nat -> list (string * string) -> world * res unit;
  ofind : st -> nat -> content -> bindings -> dict string -> world * res (option (chunk * stimulus));
  oshift : st -> nat -> content -> bindings -> world * res (chunk * (Q * Q * Q) * (Q * Q));
  ocompile : st -> string -> string -> dict slotinfo -> res (option (string * bool * dict rule));
  oauto : st -> nat -> list stimulus -> world * res (option (chunk * stimulus));
  oautobuf : st -> nat -> list stimulus -> world * res (option chunk * Q) }.

(** ** Left-hand sides *)

(** productions.py:984-1006, test.  The chunk in the buffer has no bound variables of its own. *)
Definition test_cond (s : st) (name : string) (c : content) (b : bindings) : res (option bindings) :=
  match buf_at s name with
  | None => Ok None
  | Some (_, bf) =>
      match bdata bf with
      | [] => Ok None
      | d :: _ =>
          if (match dget (bpos b) name with Some v => negb (val_eqb (VChunk d) v) | None => false end)
          then Ok None
          else match c with
               | CChunk p =>
                   let (b', ok) := chunk_le b p d in
                   if ok then Ok (Some (MkB (dset (bpos b') name (VChunk d)) (bneg b'))) else Ok None
               | _ => Err EAttr
               end
      end
  end.

(** goals.py:74-78 and the same method of the other buffers. *)
Definition test_attr (s : st) (i : nat) (attr val : string) : res bool :=
  match nth_error (smods s) i with
  | None => Err EAttr
  | Some m => match dget (mattr m) attr with Some v => Ok (String.eqb v val) | None => Err EAttr end
  end.

(** productions.py:1008-1024, query: all the inquiries of one dictionary. *)
Fixpoint query_all (s : st) (name : string) (d : dict string) : res bool :=
  match d with
  | [] => Ok true
  | (a, v) :: d' =>
      match buf_at s name with
      | None => Err EAttr
      | Some (i, bf) =>
          ok <- (if String.eqb a "buffer" then Ok (test_buffer bf v) else test_attr s i a v) ;;
          if (ok : bool) then query_all s name d' else Ok false
      end
  end.

Definition query_cond (s : st) (name : string) (c : content) (b : bindings) : res (option bindings) :=
  match c with
  | CDict d => ok <- query_all s name d ;; Ok (if (ok : bool) then Some b else None)
  | _ => Err EType
  end.

(** productions.py:966-982, LHStest; None stands for False.  The first character of a key says
    what to do (IndexError for the empty key). *)
Fixpoint lhs_test (s : st) (lhs : dict content) (b : bindings) : res (option bindings) :=
  match lhs with
  | [] => Ok (Some b)
  | (key, c) :: lhs' =>
      match key with
      | "" => Err EIndex
      | String code name =>
          r <- (if Ascii.eqb code "="%char then test_cond s name c b
                else if Ascii.eqb code "?"%char then query_cond s name c b
                else Err EActr) ;;
          match r with
          | Some b' => lhs_test s lhs' b'
          | None => Ok None
          end
      end
  end.

(** ** Conflict resolution *)

(** productions.py:500-514.  [maxu]: max_utility (None is -inf). *)
Fixpoint select_from (O : oracle) (s : st) (i : nat) (names : list string) (maxu : option Q) (used : option string)
  : res (option string) :=
  match names with
  | [] => Ok used
  | r :: names' =>
      match dget (srules s) r with
      | None => Err EType
      | Some ru =>
          noise <- (if qsub (sp s) then
                      if Qle_bool 0 (qnoise (sp s)) then
                        Ok (if Qeq_bool (qnoise (sp s)) 0 then 0%Q else onoise O s i)
                      else Err EAssert
                    else Ok 0%Q) ;;
          let u := (rutil ru + noise)%Q in
          if (match maxu with None => true | Some m => Qle_bool m u end) then
            t <- lhs_test s (rlhs ru) (svars s) ;;
            match t with
            | Some _ =>
                if negb (qsub (sp s)) || Qeq_bool (qnoise (sp s)) 0 then Ok (Some r)
                else select_from O s (S i) names' (Some u) (Some r)
            | None => select_from O s (S i) names' maxu used
            end
          else select_from O s (S i) names' maxu used
      end
  end.

(** productions.py:500-515.  A rule with the empty name counts as no rule (line 515). *)
Definition select (O : oracle) (s : st) : res (option string) :=
  r <- select_from O s 0 (sorder s) None None ;;
  Ok (match r with Some "" => None | _ => r end).

(** productions.py:465: sorted by utility, highest first; equal ones keep their order. *)
Definition initial_order (rules : dict rule) : list string :=
  map fst (isort (fun p q => Qle_bool (rutil (snd q)) (rutil (snd p))) rules).

(** ** Utility learning *)

(** utilities.py:402-409.  The result is rounded to four decimals. *)
Definition learn (alpha reward delay u : Q) : Q := round4 (u + alpha * (reward - delay - u)).
Definition set_util (r : rule) (u : Q) : rule := MkRule (rlhs r) (rrhs r) u (rreward r).
Definition modify_utilities (time reward alpha : Q) (used : dict (list Q)) (rules : dict rule) : res (dict rule) :=
  fold_left (fun acc p =>
    rs <- acc ;;
    match snd p with
    | [] => Ok rs
    | ts => match dget rs (fst p) with
            | None => Err EType
            | Some r => Ok (dset rs (fst p)
                (set_util r (fold_left (fun u t => learn alpha reward (time - t) u) ts (rutil r))))
            end
    end) used (Ok rules).

(** productions.py:518: used_rulenames.setdefault(name, []).append(time) *)
Definition use_rule (name : string) (time : Q) (s : st) : st :=
  set_used (dset (sused s) name ((match dget (sused s) name with Some l => l | None => [] end) ++ [time])%list) s.

(** ** Actions *)

(** utilities.py:411-420: only goal buffers have a delay. *)
Definition setting_time (b : buffer) : Q := match bkind b with KGoal => bdelay b | _ => 0%Q end.
Definition delay_of (s : st) (i : nat) : Q :=
  match nth_error (bufs (sw s)) i with Some b => setting_time b | None => 0%Q end.

(** Methods of the buffer object number [i]. *)
Definition on_buf {A} (s : st) (i : nat) (f : buffer -> world * res A) : world * res A :=
  match nth_error (bufs (sw s)) i with Some b => f b | None => (sw s, Err EAttr) end.

(** productions.py:600-607, extra_test. *)
Definition g_extra (name : string) (i : nat) (c : content) (t : Q) : gen :=
  GAct (set_state i "busy")
  (match c with
   | CDict d => GAct (fun s => set_extra (dset (sextra s) name d) s)
   | _ => fun k => k  (* stored, and never looked at as anything but a dictionary *)
   end
  (GAct (set_state i "free")
  (GYield (ev t name (WText "EXTRA TEST ADDED")) GRet))).

(** productions.py:614-626: where the content of a buffer goes.  A Motor has no clear(time):
    TypeError.  [optional] is a chunk when the method is called by retrieveorset; as a key of dm
    it raises KeyError. *)
Definition clear_into (s : st) (i : nat) (name : string) (optional : bool) (t : Q) : world * res unit :=
  on_buf s i (fun b =>
    match bkind b with
    | KMotor => (sw s, Err EType)
    | _ =>
        match clear_buf (sw s) i b t None with
        | (w, Err EAttr) =>
            match sdm s with
            | [(_, m)] => clear_buf (sw s) i b t (Some m)
            | _ =>
                if optional then (sw s, Err EKey)
                else match dget (sdm s) name with
                     | Some m => clear_buf (sw s) i b t (Some m)
                     | None => (sw s, Err EActr)
                     end
            end
        | r => r
        end
    end).

(** productions.py:609-628, clear. *)
Definition g_clear (name : string) (i : nat) (optional : bool) (t : Q) (freeing : bool) : gen :=
  GAct (set_state i "busy")
  (gcall (fun s => clear_into s i name optional t) (fun _ =>
   GYield (ev t name (WText "CLEARED"))
   (if freeing then GAct (set_state i "free") GRet else GRet))).

(** productions.py:630-641, execute. *)
Definition g_execute (O : oracle) (name : string) (i : nat) (c : content) (t : Q) : gen :=
  GAct (set_state i "busy")
  (gcall (fun s => match c with
                   | CCmds l => oexec O s i l
                   | _ => (sw s, Err EType)
                   end) (fun _ =>
   GAct (set_state i "free") (GYield (ev t name (WText "EXECUTED")) GRet))).

(** productions.py:648-661, 674-685: slot values recorded for compilation.  [item[1] !=
    EmptyValue()] drops the slots that are unset.  A missing test gives {}; anything but a chunk
    under the key of a test has no _asdict, and then line 658 fails with UnboundLocalError.  The
    rule looked up is the one in use at that moment (for modify_request, when its delay is over). *)
Definition set_slots (c : chunk) : dict slotval :=
  filter (fun p => match snd p with None => false | Some _ => true end) (cslots c).
Definition record_modify (name : string) (c : content) (s : st) : res (dict slotinfo) :=
  if qcompile (sp s) then
    match c with
    | CChunk ch =>
        match (match srule s with Some r => dget (srules s) r | None => None end) with
        | None => Err EType
        | Some ru =>
            match dget (rlhs ru) ("=" ++ name) with
            | Some (CChunk p) => Ok (dset (scur s) name (SDict (dupdate (cslots p) (set_slots ch))))
            | None => Ok (dset (scur s) name (SDict (set_slots ch)))
            | Some _ => Err EUnbound
            end
        end
    | _ => Err EAttr
    end
  else Ok (scur s).
Definition g_record (f : st -> res (dict slotinfo)) (k : gen) : gen :=
  GGet (fun s => match f s with Ok c => GAct (fun s => set_cur c (slastv s) s) k | Err e => GRaise e end).

(** vision.py:66-76 is called here with the bindings in the place of the stimulus (so no variable
    is resolved, and the dictionary of bindings, unless empty, is remembered as attended). *)
Definition junk_stim : stimulus := MkStim None 0 0 None None None None [("=", "")].
Definition modify_call (i : nat) (c : content) (bs : bindings) (s : st) : world * res unit :=
  on_buf s i (fun b =>
    match c with
    | CChunk o =>
        match bkind b with
        | KLocation => modify_buf (sw s) i b o nobind
                         (match bpos bs, bneg bs with [], [] => None | _, _ => Some junk_stim end)
        | _ => modify_buf (sw s) i b o bs None
        end
    | _ => match bdata b with
           | [] => (sw s, Err EKey)
           | _ :: rest => (set_buf (sw s) i (set_data b rest), Err EAttr)
           end
    end).

(** productions.py:643-663, modify. *)
Definition g_modify (name : string) (i : nat) (c : content) (bs : bindings) (t : Q) : gen :=
  GAct (set_state i "busy")
  (g_record (record_modify name c)
  (gcall (modify_call i c bs) (fun _ =>
   GAct (set_state i "free") (GYield (ev t name (WText "MODIFIED")) GRet)))).

(** productions.py:665-688, modify_request. *)
Definition g_modreq (name : string) (i : nat) (c : content) (bs : bindings) (t : Q) : gen :=
  GAct (set_state i "busy")
  (GGet (fun s => let t' := (t + delay_of s i)%Q in
   GYield (ev t' name WUnknown)
   (g_record (record_modify name c)
   (gcall (modify_call i c bs) (fun _ =>
    GAct (set_state i "free") (GYield (ev t' name (WText "MODIFIED")) GRet)))))).

(** productions.py:698-701, 732-735. *)
Definition record_create (name : string) (c : content) (s : st) : res (dict slotinfo) :=
  if qcompile (sp s) then
    match c with
    | CChunk ch => Ok (dset (scur s) name (SDict (cslots ch)))
    | _ => Err EAttr
    end
  else Ok (scur s).

(** create of goals.py:87-98 is called with three arguments: IndexError when there is no memory at
    all, TypeError for a Motor, AttributeError for the others. *)
Definition create_call (i : nat) (c : content) (bs : bindings) (s : st) : world * res unit :=
  match sdm s with
  | [] => (sw s, Err EIndex)
  | _ =>
      on_buf s i (fun b =>
        match bkind b, c with
        | KGoal, CChunk o => create_buf (sw s) i b o bs
        | KMotor, _ => (sw s, Err EType)
        | _, _ => (sw s, Err EAttr)
        end)
  end.

(** productions.py:690-707, overwrite. *)
Definition g_overwrite (name : string) (i : nat) (c : content) (bs : bindings) (t : Q) : gen :=
  GAct (set_state i "busy")
  (GGet (fun s => let t' := (t + delay_of s i)%Q in
   GYield (ev t' name WUnknown)
   (g_record (record_create name c)
   (gcall (create_call i c bs) (fun _ =>
    GAct (set_state i "free") (GYield (ev t' name (WText "WROTE A CHUNK")) GRet)))))).

(** productions.py:726-739: setting a goal. *)
Definition g_setgoal (name : string) (i : nat) (c : content) (bs : bindings) (t : Q) : gen :=
  gseq (g_clear name i (match c with CChunk ch => truthy (VChunk ch) | CNone => false
                        | CDict [] => false | CCmds [] => false | _ => true end) t false)
  (GGet (fun s => let t' := (t + delay_of s i)%Q in
   GYield (ev t' name WUnknown)
   (g_record (record_create name c)
   (gcall (create_call i c bs) (fun _ =>
    GAct (set_state i "free") (GYield (ev t' name (WText "CREATED A CHUNK")) GRet)))))).

(** declarative.py:202-211: the extra tests of a retrieval. *)
Definition recency_of (d : dict string) : recency :=
  match dget d "recently_retrieved" with
  | None => RNone
  | Some v => if String.eqb v "False" then RNot else ROnly
  end.
Definition extra_of (s : st) (name : string) : dict string :=
  match dget (sextra s) name with Some d => d | None => [] end.

Definition record_retrieve (name : string) (c : content) (got : option chunk) (s : st) : res (dict slotinfo) :=
  if qcompile (sp s) then
    match c with
    | CChunk ch => Ok (dset (scur s) name (SRet (set_slots ch) got))
    | _ => Err EAttr
    end
  else Ok (scur s).

(** productions.py:769-790, retrieve. *)
Definition g_retrieve (O : oracle) (name : string) (i : nat) (c : content) (bs : bindings) (t : Q) : gen :=
  GYield (ev t name (WText "START RETRIEVAL"))
  (gcall (fun s => on_buf s i (fun b =>
            match c with
            | CChunk o => let (p, act) := oretr O s i in
                          retrieve_buf (sw s) i b p act t o bs (recency_of (extra_of s name))
            | _ => (sw s, Err EAttr)
            end))
   (fun out => let got := fst out in let t' := (t + snd out)%Q in
    GYield (ev t' name WUnknown)
    (gseq
      (match got with
       | Some ch =>
           if truthy (VChunk ch) then
             GYield (ev t' name (WText "CLEARED"))
             (gcall (fun s => on_buf s i (fun b => add_buf (sw s) i b (AChunk ch) t' None None))
               (fun _ => GAct (set_state i "free") GRet))
           else GAct (set_state i "error") GRet
       | None => GAct (set_state i "error") GRet
       end)
      (g_record (record_retrieve name c got)
      (GYield (ev t' name (WText "RETRIEVED")) GRet))))).

(** productions.py:740-752: visual search. *)
Definition g_find (O : oracle) (name : string) (i : nat) (c : content) (bs : bindings) (t : Q) : gen :=
  GYield (ev t name WUnknown)
  (gcall (fun s => ofind O s i c bs (extra_of s name))
   (fun r => gseq
     (match r with
      | Some (ch, stim) =>
          if truthy (VChunk ch) then
            gseq (g_clear name i false t false)
            (gcall (fun s => on_buf s i (fun b => add_buf (sw s) i b (AChunk ch) t None (Some stim)))
              (fun _ => GAct (set_state i "free") GRet))
          else GAct (set_state i "error") GRet
      | None => GAct (set_state i "error") GRet
      end)
     (GYield (ev t name (WText "ENCODED LOCATION")) GRet))).

(** ** Vision *)

Definition set_focus (i : nat) (p : Q * Q) (s : st) : st :=
  match nth_error (smods s) i with
  | Some m => set_mods (upd (smods s) i (MkMod (mattr m) (mlast m) p (mattend m) (mmvt m))) s
  | None => s
  end.
Definition set_attend (i : nat) (b : bool) (s : st) : st :=
  match nth_error (smods s) i with
  | Some m => set_mods (upd (smods s) i (MkMod (mattr m) (mlast m) (mfocus m) b (mmvt m))) s
  | None => s
  end.
Definition set_mvt (i : nat) (q : Q) (s : st) : st :=
  match nth_error (smods s) i with
  | Some m => set_mods (upd (smods s) i (MkMod (mattr m) (mlast m) (mfocus m) (mattend m) q)) s
  | None => s
  end.
Definition mvt_of (s : st) (i : nat) : Q :=
  match nth_error (smods s) i with Some m => mmvt m | None => 0%Q end.

(** Python's int(): towards zero. *)
Definition py_int (q : Q) : Q := (inject_Z (Z.quot (Qnum q) (Z.pos (Qden q))))%Q.

(** productions.py:709-719, visualencode. *)
Definition g_encode (name : string) (i : nat) (ch : chunk) (t extra : Q) (site : Q * Q) : gen :=
  let t' := (t + extra)%Q in
  GAct (set_state i "busy")
  (GAct (set_focus i site)
  (gseq (g_clear name i false t' false)
  (gcall (fun s => on_buf s i (fun b => add_buf (sw s) i b (AChunk ch) t' None None)) (fun _ =>
   GAct (set_state i "free") (GYield (ev t' name (WText "ENCODED VIS OBJECT")) GRet))))).

(** productions.py:862-891, visualcontinue.  move_eye (vision.py:361-366) truncates the landing
    site. *)
Definition g_viscont (O : oracle) (name : string) (i : nat) (ch : chunk) (bs : bindings) (t : Q)
  (times : Q * Q * Q) (site : Q * Q) : gen :=
  let '(enc, prep, exe) := times in
  GAct (set_attrs i [("preparation", "free"); ("execution", "busy")])
  (GGet (fun s =>
   let t0 := if Qle_bool (mvt_of s i) t then t else mvt_of s i in
   let t1 := (t0 + exe)%Q in
   GAct (set_mvt i t1)
   (GYield (ev t1 name WUnknown)
   (GAct (set_focus i (py_int (fst site), py_int (snd site)))
   (GYield (ev t1 name (WText "SHIFT COMPLETE"))
   (gseq
     (if Qle_bool enc (prep + exe) then GRet
      else gcall (fun s => oshift O s i (CChunk ch) bs) (fun r =>
             let '(_, (enc2, _, _), _) := r in
             g_encode name i ch t1 ((1 - (prep + exe) / enc) * enc2) site))
   (GAct (set_attrs i [("processor", "free"); ("execution", "free"); ("state", "free")])
   (GAct (set_attend i true) GRet)))))))).

(** productions.py:834-860, visualshift. *)
Definition g_shift (O : oracle) (name : string) (i : nat) (c : content) (bs : bindings) (t : Q) : gen :=
  gcall (fun s => oshift O s i c bs) (fun r =>
  let '(ch, times, site) := r in
  let '(enc, prep, exe) := times in
  GAct (set_attrs i [("preparation", "busy"); ("processor", "busy"); ("state", "busy")])
  (GYield (ev t name (WText "PREPARATION TO SHIFT VISUAL ATTENTION STARTED"))
  (gseq (if Qle_bool enc prep then g_encode name i ch t enc site else GRet)
  (let t' := (t + prep)%Q in
   GYield (ev t' name (WText "PREPARATION TO SHIFT VISUAL ATTENTION COMPLETED"))
   (gseq (if negb (Qle_bool enc prep) && Qle_bool enc (prep + exe)
          then g_encode name i ch (t' - prep) enc site else GRet)
   (GCont (g_viscont O name i ch bs t' times site))))))).

(** productions.py:753-763.  utilities.py:77: None and 'None' are valid commands, too, and do
    nothing; a missing command raises KeyError. *)
Definition g_visual (O : oracle) (name : string) (i : nat) (c : content) (bs : bindings) (t : Q) : gen :=
  match c with
  | CChunk o =>
      match resolve_slots bs true (removeunused o) with
      | Err e => GRaise e
      | Ok args =>
          match dget args "cmd" with
          | Some (RVV w) =>
              match vvals w with
              | VStr "move_attention" => g_shift O name i c bs t
              | VStr "clear" =>
                  GAct (set_attend i false)
                  (GAct (set_state i "free")
                  (GYield (ev t name (WText "VISUAL STOPPED FROM AUTOMATIC BUFFERING AT ITS CURRENT FOCUS")) GRet))
              | VStr "None" => GRet
              | VEmpty => GRet
              | _ => GRaise EActr
              end
          | _ => GRaise EKey
          end
      end
  | _ => GRaise EAttr
  end.

(** ** Motor *)

(** motor.py:13-20. *)
Definition LEFT_HAND := ["1"; "2"; "3"; "4"; "5"; "Q"; "W"; "E"; "R"; "T"; "A"; "S"; "D"; "F"; "G"; "Z"; "X"; "C"; "V"; "B"; "SPACE"].
Definition RIGHT_HAND := ["6"; "7"; "8"; "9"; "0"; "Y"; "U"; "I"; "O"; "P"; "H"; "J"; "K"; "L"; "N"; "M"; "SPACE"].
Definition PRESSING := ["A"; "S"; "D"; "F"; "J"; "K"; "L"; "SPACE"].
Definition SLOWEST := ["5"; "6"].

(** Preparation, initiation, action, finishing movement. *)
Record press := MkPress { pprep : Q; pinit : Q; pexec : Q; pfinish : Q }.
Definition press_fast := MkPress (15 # 100) (5 # 100) (1 # 100) (9 # 100).
Definition press_slow := MkPress (25 # 100) (5 # 100) (11 # 100) (16 # 100).
Definition press_other := MkPress (25 # 100) (5 # 100) (10 # 100) (15 # 100).

(** str.upper() on ASCII text. *)
Definition upper_char (c : ascii) : ascii :=
  if is_lower c then ascii_of_nat (nat_of_ascii c - 32) else c.
Fixpoint upper (s : string) : string :=
  match s with "" => "" | String c s' => String (upper_char c) (upper s') end.

(** motor.py:42-65, create.  Returns the slot "key" of the chunk made.  A missing or empty slot
    and a chunk in its place have no upper: AttributeError.  The commands None and 'None' are
    valid, but then pressed_key has no value: UnboundLocalError. *)
Definition motor_create (r : registry) (o : chunk) (bs : bindings) : res (registry * vv) :=
  args <- resolve_slots bs true (removeunused o) ;;
  '(r1, c1) <- mk_chunk r "_manual" args ;;
  match dget (cslots c1) "cmd" with
  | Some (Some cmd) =>
      match vvals cmd with
      | VStr "press_key" =>
          match dget (cslots c1) "key" with
          | Some (Some k) =>
              match vvals k with
              | VStr txt =>
                  let pressed := upper txt in
                  '(r2, c2) <- mk_chunk r1 "_manual" (dset args "key" (RStr pressed)) ;;
                  match dget (cslots c2) "key" with
                  | Some (Some k2) =>
                      if smem pressed LEFT_HAND then Ok (r2, k2)
                      else match vvals k2 with
                           | VStr v => if smem v RIGHT_HAND then Ok (r2, k2) else Err EActr
                           | _ => Err EActr
                           end
                  | _ => Err EAttr
                  end
              | _ => Err EAttr
              end
          | _ => Err EAttr
          end
      | VStr "None" | VNone | VEmpty => Err EUnbound
      | _ => Err EActr
      end
  | _ => Err EAttr
  end.

(** utilities.py:39-62, str() of a VarvalClass whose values are strings (keys of a Motor). *)
Definition value_str (v : value) : string := match v with VStr s => s | VChunk _ => "<chunk>" | _ => "None" end.
Definition vv_str (w : vv) : string :=
  ((if truthy (vvals w) then value_str (vvals w) else "")
   ++ (match var_truthy (vvar w) with Some x => "=" ++ x | None => "" end)
   ++ fold_right String.append "" (map (fun v => "~" ++ value_str v) (vnegvals w))
   ++ fold_right String.append "" (map (fun x => "~=" ++ x) (vnegvars w)))%string.

(** productions.py:899-904. *)
Definition press_times (k : vv) : press :=
  if smem (vv_str k) SLOWEST then press_slow
  else if smem (vv_str k) PRESSING then press_fast
  else press_other.

(** == on VarvalClass objects (tuples). *)
Definition vv_eqb (a b : vv) : bool :=
  val_eqb (vvals a) (vvals b) && opt_eqb String.eqb (vvar a) (vvar b) &&
  list_eqb val_eqb (vnegvals a) (vnegvals b) && list_eqb String.eqb (vnegvars a) (vnegvars b).

(** A VarvalClass object is compared with strings: it is in none of the tuples of keys. *)
Definition vv_in (k : vv) (keys : list string) : bool := false.

(** productions.py:905-915. *)
Definition preparation (prepared : bool) (last : option vv) (k : vv) : Q :=
  let p := pprep (press_times k) in
  if (match last with Some l => vv_eqb k l | None => false end) || prepared then 0%Q
  else match last with
       | None => p
       | Some l =>
           if Bool.eqb (vv_in k PRESSING) (vv_in l PRESSING) then
             if Bool.eqb (vv_in k LEFT_HAND) (vv_in l LEFT_HAND) then (p - (1 # 10))%Q else (p - (5 # 100))%Q
           else p
       end.

Definition set_mlast (i : nat) (l : option vv * Q) (s : st) : st :=
  match nth_error (smods s) i with
  | Some m => set_mods (upd (smods s) i (MkMod (mattr m) l (mfocus m) (mattend m) (mmvt m))) s
  | None => s
  end.
Definition mlast_of (s : st) (i : nat) : option vv * Q :=
  match nth_error (smods s) i with Some m => mlast m | None => (None, 0%Q) end.

(** productions.py:928-964, motorcontinue.  env_interaction is a set of values; the discard at the
    end compares a VarvalClass with them and removes nothing. *)
Definition g_motorcont (name : string) (i : nat) (k : vv) (t : Q) (p : press) : gen :=
  GGet (fun s =>
  let t0 := if Qeq_bool (snd (mlast_of s i)) 0 then t else snd (mlast_of s i) in
  let t1 := (t0 + pinit p)%Q in
  let t2 := (t1 + pexec p)%Q in
  let t3 := (t2 + pfinish p)%Q in
  GAct (set_attrs i [("preparation", "free"); ("execution", "busy")])
  (GAct (set_mlast i (Some k, t3))
  (GYield (ev t1 name (WText "INITIATION COMPLETE"))
  (GAct (set_attrs i [("processor", "free")])
  (GYield (ev t2 name WUnknown)
  (GAct (fun s => set_keys (set_add (vvals k) (skeys s)) s)
  (GYield (ev t2 name (WText ("KEY PRESSED: " ++ vv_str k)))
  (GYield (ev t3 name (WText "MOVEMENT FINISHED"))
  (GAct (set_attrs i [("state", "free"); ("execution", "free")])
  (GAct (fun s => set_mlast i (fst (mlast_of s i), 0%Q) s) GRet)))))))))).

(** productions.py:893-926, motorset. *)
Definition g_motor (name : string) (i : nat) (c : content) (bs : bindings) (t : Q) : gen :=
  match c with
  | CChunk o =>
      gcall (fun s => match motor_create (wreg (sw s)) o bs with
                      | Ok (r, k) => (set_reg (sw s) r, Ok k)
                      | Err e => (sw s, Err e)
                      end) (fun k =>
      GGet (fun s =>
      let p := preparation (sprep s) (fst (mlast_of s i)) k in
      GAct (if (match fst (mlast_of s i) with Some l => vv_eqb k l | None => false end) || sprep s
            then set_prep false else fun s => s)
      (GAct (set_attrs i [("state", "busy"); ("preparation", "busy"); ("processor", "busy")])
      (GYield (ev t name (WText "COMMAND: press_key"))
      (GYield (ev (t + p) name (WText "PREPARATION COMPLETE"))
      (GCont (g_motorcont name i k (t + p) (press_times k))))))))
  | _ => GRaise EAttr
  end.

(** productions.py:721-767, retrieveorset. *)
Definition g_request (O : oracle) (name : string) (i : nat) (c : content) (bs : bindings) (t : Q) : gen :=
  GAct (set_state i "busy")
  (GGet (fun s =>
   match nth_error (bufs (sw s)) i with
   | None => GRaise EAttr
   | Some b =>
       match bkind b with
       | KGoal => g_setgoal name i c bs t
       | KLocation => g_find O name i c bs t
       | KVisual => g_visual O name i c bs t
       | KMotor => g_motor name i c bs t
       | KRetrieval => g_retrieve O name i c bs t
       end
   end)).

(** The generator that a method call makes. *)
Definition start (O : oracle) (m : meth) (name : string) (i : nat) (c : content) (bs : bindings) (t : Q) : gen :=
  match m with
  | MExtra => g_extra name i c t
  | MModify => g_modify name i c bs t
  | MRetrieve => g_request O name i c bs t
  | MExecute => g_execute O name i c t
  | MClear => g_clear name i (match c with CChunk ch => truthy (VChunk ch) | CNone => false
                        | CDict [] => false | CCmds [] => false | _ => true end) t true
  | MOverwrite => g_overwrite name i c bs t
  | MModReq => g_modreq name i c bs t
  end.

(** ** Right-hand sides *)

Definition key_rank (key : string) : res nat :=
  match key with
  | "" => Err EIndex
  | String c _ => match rank c with Some n => Ok n | None => Err EActr end
  end.

(** productions.py:568-574: sorted by rank, stable; a sign without rank is reported before anything
    is done. *)
Definition ordered_rhs (rhs : dict content) : res (list (string * content)) :=
  ranked <- rmap (fun p => n <- key_rank (fst p) ;; Ok (n, p)) rhs ;;
  Ok (map snd (isort (fun a b => Nat.leb (fst a) (fst b)) ranked)).

Definition add_proc (name : string) (m : meth) (i : nat) (c : content) (bs : bindings) (t : Q) (s : st) : st :=
  set_procs (sprocs s ++ [PReq (snext s) name m i c bs t])%list (S (snext s)) s.

(** productions.py:593-598: strict harvesting.  [names]: what is left of the keys of
    temp_actrvariables, without their first character. *)
Fixpoint harvest (names : list string) (t : Q) (s : st) : st :=
  match names with
  | [] => s
  | n :: names' =>
      harvest names' t
        (match dget (snames s) n with
         | Some i => add_proc n MClear i CNone (svars s) t s
         | None => s
         end)
  end.

(** The keys "=x" and "~=x" of the bindings without their first character (in this order: first
    the keys "=x"). *)
Definition var_keys (b : bindings) : list string :=
  (dkeys (bpos b) ++ map (fun x => String "=" x) (dkeys (bneg b)))%list.

(** productions.py:575-598. *)
Fixpoint actions (O : oracle) (t : Q) (temp : bindings)
  (l : list (string * content)) : gen :=
  match l with
  | [] => GGet (fun s => if qstrict (sp s) then GAct (harvest (var_keys temp) t) GRet else GRet)
  | (key, c) :: l' =>
      match key with
      | "" => GRaise EIndex
      | String code name =>
          match rhs_meth code with
          | None => GRaise EKey
          | Some m =>
              let temp' := MkB (ddel (bpos temp) name) (bneg temp) in
              GGet (fun s =>
                match dget (snames s) name with
                | None => GRaise EKey
                | Some i =>
                    GNote key
                    (GAct (set_state i "busy")
                    (if interruptible m then
                       GAct (add_proc name m i c (svars s) t) (actions O t temp' l')
                     else gseq (start O m name i c (svars s) t)
                            (actions O t temp' l')))
                end)
          end
      end
  end.

(** productions.py:564-598, update. *)
Definition g_update (O : oracle) (rhs : dict content) (t : Q) : gen :=
  GGet (fun s =>
    match ordered_rhs rhs with
    | Err e => GRaise e
    | Ok l => actions O t (svars s) l
    end).

(** ** The procedural process *)

Fixpoint remove_procedural (l : list proc) : option (list proc) :=
  match l with
  | [] => None
  | PProc :: l' => Some l'
  | p :: l' => match remove_procedural l' with Some l'' => Some (p :: l'') | None => None end
  end.

(** productions.py:552-562, compile_rules. *)
Definition compile_now (O : oracle) (s : st) : res (option (string * bool * dict rule)) :=
  if qcompile (sp s) then
    match scomp s with
    | Some (r1, r2, vals) => ocompile O s r1 r2 vals
    | None => Ok None
    end
  else Ok None.

(** productions.py:529-531. *)
Definition learned (s : st) (r : rule) (t : Q) : res st :=
  match rreward r with
  | Some rew =>
      if qlearn (sp s) then
        rs <- modify_utilities t rew (qalpha (sp s)) (sused s) (srules s) ;;
        Ok (set_used [] (set_rules rs s))
      else Ok s
  | None => Ok s
  end.

(** productions.py:538-548: firing. *)
Definition g_fire (O : oracle) (r : string) (ru : rule) (t : Q) : gen :=
  GAct (fun s => set_cur (no_slotvals s) (slastv s) s)
  (GYield (ev t PROCEDURAL (WFired r))
  (gseq (g_update O (rrhs ru) t)
  (GAct (fun s =>
     match slast s with
     | Some l =>
         if negb (String.eqb l "") && negb (String.eqb l r) then
           set_cur (scur s) (no_slotvals s) (set_last (Some r) (Some (l, r, slastv s)) s)
         else set_last (Some r) (scomp s) s
     | None => set_last (Some r) (scomp s) s
     end) GRet))).

(** productions.py:523-536, after the firing time has passed. *)
Definition g_try (O : oracle) (r : string) (t : Q) : gen :=
  GGet (fun s =>
    match dget (srules s) r with
    | None => GRaise EType
    | Some ru =>
        match lhs_test s (rlhs ru) (svars s) with
        | Err e => GRaise e
        | Ok None => GYield (ev t PROCEDURAL (WStopped r)) GRet
        | Ok (Some b) =>
            let s1 := set_vars b s in
            match learned s1 ru t with
            | Err e => GRaise e
            | Ok s2 =>
                match compile_now O s2 with
                | Err e => GAct (fun _ => s2) (GRaise e)
                | Ok None => GAct (fun _ => set_last (slast s2) None s2) (g_fire O r ru t)
                | Ok (Some (n, again, rs)) =>
                    GAct (fun _ => set_last (slast s2) None (set_order (sorder s2 ++ [n])%list (set_rules rs s2)))
                    (GYield (ev t PROCEDURAL (WCompiled again n)) (g_fire O r ru t))
                end
            end
        end
    end).

(** productions.py:482-550, procedural_process(start_time).  It ends by yielding procs, which ends
    the process that runs it (simulation.py:173-174): GRet. *)
Definition procedural (O : oracle) (t0 : Q) : gen :=
  GAct (fun s => set_vars nobind (set_procs (sprocs s ++ [PProc])%list (snext s) s))
  (GYield (ev t0 PROCEDURAL WConflict)
  (GAct (fun s => set_extra [] (set_cur (scur s) (scur s) s))
  (GGet (fun s =>
    match select O s with
    | Err e => GRaise e
    | Ok None =>
        GAct (set_rule (last (map Some (sorder s)) None))
        match remove_procedural (sprocs s) with
        | None => GRaise EValue
        | Some l => GAct (set_procs l (snext s)) (GYield (ev t0 PROCEDURAL WNoRule) GRet)
        end
    | Ok (Some r) =>
        GAct (fun s => use_rule r t0 (set_rule (Some r) s))
        (GYield (ev t0 PROCEDURAL (WSelected r))
        (let t := (t0 + qfiring (sp s))%Q in
         GYield (ev t PROCEDURAL WUnknown) (g_try O r t)))
    end)))).

(** ** Automatic vision (called by the simulation, not by rules) *)

(** productions.py:792-807, automatic_search. *)
Definition g_autosearch (O : oracle) (name : string) (i : nat) (stims : list stimulus) (t : Q) : gen :=
  GAct (set_state i "busy")
  (gcall (fun s => if qautosearch (sp s) then oauto O s i stims else (sw s, Ok None)) (fun r =>
   match r with
   | Some (ch, stim) =>
       if truthy (VChunk ch) then
         gcall (fun s => on_buf s i (fun b =>
                  match bdata b with
                  | [] => add_buf (sw s) i b (AChunk ch) t None (Some stim)
                  | _ => modify_buf (sw s) i b ch nobind (Some stim)
                  end))
           (fun _ => GYield (ev t name (WText "ENCODED LOCATION")) GRet)
       else GYield (ev t name WUnknown) GRet
   | None => GYield (ev t name WUnknown) GRet
   end)).

(** productions.py:809-832, automatic_buffering.  The oracle gives the chunk for the last stimulus in
    the fovea that differs from the content of the buffer, and its encoding time. *)
Definition g_autobuffer (O : oracle) (name : string) (i : nat) (stims : list stimulus) (t : Q) : gen :=
  GAct (set_attrs i [("state", "busy"); ("autoattending", "busy")])
  (gcall (fun s => oautobuf O s i stims) (fun r =>
   let t' := (t + snd r)%Q in
   GYield (ev t' name WUnknown)
   (GAct (set_attrs i [("state", "free"); ("autoattending", "free")])
   (match fst r with
    | Some ch =>
        if truthy (VChunk ch) then
          gcall (fun s => on_buf s i (fun b =>
                   match bdata b with
                   | [] => add_buf (sw s) i b (AChunk ch) t' None None
                   | _ => modify_buf (sw s) i b ch nobind None
                   end))
            (fun _ => GYield (ev t' name (WText "AUTOMATIC BUFFERING")) GRet)
        else GRet
    | None => GRet
    end)))).

(** The generator of an element of procs. *)
Definition proc_gen (O : oracle) (p : proc) : gen :=
  match p with
  | PProc => GRet
  | PReq _ name m i c bs t => start O m name i c bs t
  | PAuto _ name encode i stims t => if encode then g_autobuffer O name i stims t else g_autosearch O name i stims t
  end.
