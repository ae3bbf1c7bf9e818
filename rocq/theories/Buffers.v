(** Buffers: model of /repo/pyactr/buffers.py, /repo/pyactr/goals.py, the class DecMemBuffer of
    /repo/pyactr/declarative.py and the buffer operations (not the search) of
    /repo/pyactr/vision.py. *)
From Verif Require Export DecMem.
Local Open Scope string_scope.

(** ** Stimuli *)

(** One stimulus of the environment: a Python dictionary (environment.py:run/stimulus_creation,
    vision.py:374-415) with the control keys 'text', 'position', 'vis_delay',
    'visual_location_typename', 'visual_typename', 'externally_visible' and any other keys
    ([stfeats]).  Positions are rationals. *)
Record stimulus := MkStim {
  sttext : option string;
  stx : Q; sty : Q;
  stdelay : option Q;
  stloctype : option string;
  stvistype : option string;
  stvisible : option (list string);
  stfeats : dict string }.

Definition opt_eqb {A} (eqb : A -> A -> bool) (a b : option A) : bool :=
  match a, b with
  | Some x, Some y => eqb x y
  | None, None => true
  | _, _ => false
  end.
Fixpoint list_eqb {A} (eqb : A -> A -> bool) (a b : list A) : bool :=
  match a, b with
  | [], [] => true
  | x :: a', y :: b' => eqb x y && list_eqb eqb a' b'
  | _, _ => false
  end.

(** Python == on dictionaries with string values. *)
Definition dict_eqb (a b : dict string) : bool :=
  Nat.eqb (List.length a) (List.length b) &&
  forallb (fun p => opt_eqb String.eqb (dget b (fst p)) (Some (snd p))) a.

Definition stim_eqb (a b : stimulus) : bool :=
  opt_eqb String.eqb (sttext a) (sttext b) && Qeq_bool (stx a) (stx b) && Qeq_bool (sty a) (sty b) &&
  opt_eqb Qeq_bool (stdelay a) (stdelay b) && opt_eqb String.eqb (stloctype a) (stloctype b) &&
  opt_eqb String.eqb (stvistype a) (stvistype b) &&
  opt_eqb (list_eqb String.eqb) (stvisible a) (stvisible b) && dict_eqb (stfeats a) (stfeats b).

(** ** Buffers and the world they live in *)

Inductive kind := KGoal | KRetrieval | KVisual | KLocation | KMotor.

(** [bdata]: the set _data (buffers.py:18-25) as a list.  [bdm]: the declarative memory
    attached to the buffer, by number; several buffers may share one memory.  [bfinst],
    [brecent]: declarative.py:117-121.  [bstims]: the deque recent of VisualLocation
    (vision.py:19-23).  [bact]: activation of the last retrieved element.  [bdelay]:
    goals.py:13-29. *)
Record buffer := MkBuf {
  bkind : kind;
  bdata : list chunk;
  bdm : option nat;
  bfinst : nat;
  brecent : list (option chunk);
  bstims : list stimulus;
  bact : option Q;
  bdelay : Q }.

Record world := MkW {
  mems : list decmem;
  bufs : list buffer;
  wreg : registry }.

Definition set_data (b : buffer) (d : list chunk) : buffer :=
  MkBuf (bkind b) d (bdm b) (bfinst b) (brecent b) (bstims b) (bact b) (bdelay b).
Definition set_dm (b : buffer) (m : option nat) : buffer :=
  MkBuf (bkind b) (bdata b) m (bfinst b) (brecent b) (bstims b) (bact b) (bdelay b).
Definition set_finst (b : buffer) (n : nat) : buffer :=
  MkBuf (bkind b) (bdata b) (bdm b) n (brecent b) (bstims b) (bact b) (bdelay b).
Definition set_recent (b : buffer) (r : list (option chunk)) : buffer :=
  MkBuf (bkind b) (bdata b) (bdm b) (bfinst b) r (bstims b) (bact b) (bdelay b).
Definition set_stims (b : buffer) (s : list stimulus) : buffer :=
  MkBuf (bkind b) (bdata b) (bdm b) (bfinst b) (brecent b) s (bact b) (bdelay b).
Definition set_act (b : buffer) (a : option Q) : buffer :=
  MkBuf (bkind b) (bdata b) (bdm b) (bfinst b) (brecent b) (bstims b) a (bdelay b).
Definition set_delay (b : buffer) (q : Q) : buffer :=
  MkBuf (bkind b) (bdata b) (bdm b) (bfinst b) (brecent b) (bstims b) (bact b) q.

Fixpoint upd {A} (l : list A) (i : nat) (x : A) : list A :=
  match l, i with
  | [], _ => []
  | _ :: l', O => x :: l'
  | y :: l', S i' => y :: upd l' i' x
  end.

Definition set_buf (w : world) (i : nat) (b : buffer) : world := MkW (mems w) (upd (bufs w) i b) (wreg w).
Definition set_mem_at (w : world) (i : nat) (m : decmem) : world := MkW (upd (mems w) i m) (bufs w) (wreg w).
Definition set_reg (w : world) (r : registry) : world := MkW (mems w) (bufs w) r.

(** The argument of add: a chunk or something else. *)
Inductive arg := AChunk (c : chunk) | AOther.

(** buffers.py:54-65, Buffer.add: the set is emptied before the argument is checked. *)
Definition base_add (b : buffer) (x : arg) : buffer * res unit :=
  match x with
  | AChunk c => (set_data b [c], Ok tt)
  | AOther => (set_data b [], Err EType)
  end.

(** Adding an element to a set of chunks. *)
Definition set_insert (c : chunk) (l : list chunk) : list chunk :=
  if existsb (fun d => chunk_eqb nobind d c) l then l else (l ++ [c])%list.

(** deque.append and, if it is then longer than finst, one popleft. *)
Definition push {A} (n : nat) (l : list A) (x : A) : list A :=
  if (n <? S (List.length l))%nat then tl (l ++ [x]) else (l ++ [x])%list.

(** goals.py:53-62, declarative.py:161-166, vision.py:79-88 and 282-291: clear(time, harvest).
    self.dm.add is looked up before the pop, so a missing memory raises AttributeError and the
    chunk stays.  Motor has no clear of its own: MutableSet.clear throws the content away. *)
Definition clear_buf (w : world) (i : nat) (b : buffer) (t : Q) (h : option nat) : world * res unit :=
  match bkind b with
  | KMotor => (set_buf w i (set_data b []), Ok tt)
  | _ =>
      match bdata b with
      | [] => (w, Ok tt)
      | c :: rest =>
          match (match h with Some m => Some m | None => bdm b end) with
          | None => (w, Err EAttr)
          | Some m =>
              match nth_error (mems w) m with
              | None => (w, Err EAttr)
              | Some dm => (set_buf (set_mem_at w m (dm_add dm c t)) i (set_data b rest), Ok tt)
              end
          end
      end
  end.

(** vision.py:61-64 and 73-76. *)
Definition attend (b : buffer) (s : option stimulus) : buffer :=
  match s with
  | Some st => if Nat.eqb (bfinst b) 0 then b else set_stims b (push (bfinst b) (bstims b) st)
  | None => b
  end.

(** add: goals.py:45-51 (no clearing), declarative.py:154-159, vision.py:275-280,
    vision.py:53-64, motor.py:36-40. *)
Definition add_buf (w : world) (i : nat) (b : buffer) (x : arg) (t : Q) (h : option nat)
  (s : option stimulus) : world * res unit :=
  match bkind b with
  | KMotor => (w, Err EAttr)
  | KGoal => let (b', r) := base_add b x in (set_buf w i b', r)
  | k =>
      match clear_buf w i b t h with
      | (w1, Err e) => (w1, Err e)
      | (w1, Ok _) =>
          let (b', r) := base_add (set_data b []) x in
          match r with
          | Err e => (set_buf w1 i b', Err e)
          | Ok _ => (set_buf w1 i (match k with KLocation => attend b' s | _ => b' end), Ok tt)
          end
      end
  end.

(** The slots of a chunk as constructor arguments: {x[0]: x[1] for x in elem}. *)
Definition as_args (c : chunk) : list (string * rawval) :=
  map (fun p => (fst p, match snd p with Some w => RVV w | None => REmpty end)) (cslots c).

(** buffers.py:96-111, modify; vision.py:66-76 also updates the attended stimuli.  The old chunk
    is popped first, and KeyError is raised if there is none. *)
Definition modify_buf (w : world) (i : nat) (b : buffer) (o : chunk) (bs : bindings)
  (s : option stimulus) : world * res unit :=
  match bdata b with
  | [] => (w, Err EKey)
  | c :: rest =>
      let w1 := set_buf w i (set_data b rest) in
      match resolve_slots bs true (removeunused o) with
      | Err e => (w1, Err e)
      | Ok mods =>
          match mk_chunk (wreg w) (ctype o) (dupdate (as_args c) mods) with
          | Err e => (w1, Err e)
          | Ok (r', c') =>
              let b' := set_data b (set_insert c' rest) in
              (set_reg (set_buf w i (match bkind b with KLocation => attend b' s | _ => b' end)) r', Ok tt)
          end
      end
  end.

(** goals.py:87-98, create. *)
Definition create_buf (w : world) (i : nat) (b : buffer) (o : chunk) (bs : bindings) : world * res unit :=
  match bkind b with
  | KGoal =>
      match resolve_slots bs true (removeunused o) with
      | Err e => (w, Err e)
      | Ok args =>
          match mk_chunk (wreg w) (ctype o) args with
          | Err e => (w, Err e)
          | Ok (r', c') => (set_reg (set_buf w i (set_data b [c'])) r', Ok tt)
          end
      end
  | _ => (w, Err EAttr)
  end.

(** buffers.py:67-71. *)
Definition discard_buf (w : world) (i : nat) (b : buffer) (c : chunk) : world :=
  set_buf w i (set_data b (filter (fun d => negb (chunk_eqb nobind d c)) (bdata b))).

(** buffers.py:18-25 and the constructors of the subclasses. *)
Definition new_buf (k : kind) (m : option nat) (d : list chunk) (finst : nat) : res buffer :=
  if (List.length d <=? 1)%nat then Ok (MkBuf k d m finst [] [] None 0) else Err EAssert.

(** goals.py:65-72 and declarative.py:168-175; the other classes have no copy. *)
Definition copy_buf (w : world) (b : buffer) (h : option nat) : world * res unit :=
  match bkind b with
  | KGoal | KRetrieval =>
      match new_buf (bkind b) (match h with Some m => Some m | None => bdm b end) (bdata b) 0 with
      | Ok b' => (MkW (mems w) (bufs w ++ [b']) (wreg w), Ok tt)
      | Err e => (w, Err e)
      end
  | _ => (w, Err EAttr)
  end.

(** buffers.py:86-94. *)
Definition test_buffer (b : buffer) (inquiry : string) : bool :=
  match bdata b with
  | _ :: _ => String.eqb inquiry "full"
  | [] => String.eqb inquiry "empty"
  end.

(** ** Retrieval *)

(** The extra test "recently_retrieved": absent, False/'False', or anything else. *)
Inductive recency := RNone | RNot | ROnly.

(** Base-level plus spreading activation plus noise of one chunk: no value (UnboundLocalError,
    the chunk is skipped), an exception (ACTRError for nan, or what the calculation raises), or a
    number.  The values are an oracle here; Subsymbolic.v computes them. *)
Inductive activation := ASkip | AFail (e : exn) | AVal (q : Q).

Record rparams := MkRP {
  psub : bool;                 (* subsymbolic *)
  ppm : bool;                  (* partial_matching *)
  pmp : Q;                     (* mismatch_penalty *)
  pthr : Q;                    (* retrieval_threshold *)
  pfiring : Q;                 (* rule_firing *)
  platency : Q -> Q;           (* utilities.retrieval_latency with factor and exponent *)
  psims : simtable;            (* similarities of chunks *)
  psources : list (string * value); (* slots of the buffers that spread activation *)
  prestricted : bool; pchunksonly : bool }.

(** `chunk in self.recent`: the deque is searched with ==. *)
Definition recently (l : list (option chunk)) (c : chunk) : bool :=
  existsb (fun o => match o with Some d => chunk_eqb nobind d c | None => false end) l.

(** declarative.py:202-211: is the chunk passed over? *)
Definition skipped (x : recency) (finst : nat) (recent : list (option chunk)) (c : chunk) : bool :=
  match x with
  | RNone => false
  | RNot => negb (Nat.eqb finst 0) && recently recent c
  | ROnly => negb (Nat.eqb finst 0) && negb (recently recent c)
  end.

(** utilities.py:539-560: the strength queries made for one chunk, which fill the Counters. *)
Definition spread_mem (p : rparams) (m : decmem) (c : chunk) : decmem :=
  fold_left (fun m sv => fst (strength m (snd sv) c (if prestricted p then Some (fst sv) else None)
                                (pchunksonly p))) (psources p) m.

(** State of the loop of declarative.py:201-248: memory (for its Counters), boundvars of
    chunk_tobe_matched, max_A (None is -inf), the retrieved chunk with extra_time. *)
Record rstate := MkRS { rsmem : decmem; rsb : bindings; rsmax : option Q; rsgot : option (chunk * Q) }.

(** declarative.py:213-248 for the chunk number [i]. *)
Definition retrieve_step (p : rparams) (act : nat -> activation) (time : Q) (pat : chunk)
  (i : nat) (c : chunk) (ts : list Q) (st : rstate) : res rstate :=
  if psub p then
    let '(b1, apm, ok) :=
      (if ppm p then let (b1, q) := pm_match (psims p) (pmp p) (rsb st) pat c in (b1, q, true)
       else let (b1, ok) := chunk_le (rsb st) pat c in (b1, 0%Q, ok)) in
    if ok then
      match act i with
      | ASkip => Ok (MkRS (rsmem st) b1 (rsmax st) (rsgot st))
      | AFail e => Err e
      | AVal q =>
          let a := (q + apm)%Q in
          let m' := spread_mem p (rsmem st) c in
          if Qle_bool (pthr p) a && (match rsmax st with None => true | Some mx => negb (Qle_bool a mx) end)
          then Ok (MkRS m' b1 (Some a) (Some (c, platency p a)))
          else Ok (MkRS m' b1 (rsmax st) (rsgot st))
      end
    else Ok (MkRS (rsmem st) b1 (rsmax st) (rsgot st))
  else
    let (b1, ok) := chunk_le (rsb st) pat c in
    if ok then
      match ts with
      | [] => Err EIndex
      | t0 :: _ =>
          if Qeq_bool t0 time then Ok (MkRS (rsmem st) b1 (rsmax st) (rsgot st))
          else Ok (MkRS (rsmem st) b1 (rsmax st) (Some (c, 0%Q)))
      end
    else Ok (MkRS (rsmem st) b1 (rsmax st) (rsgot st)).

Fixpoint retrieve_loop (p : rparams) (act : nat -> activation) (time : Q) (pat : chunk) (x : recency)
  (finst : nat) (recent : list (option chunk)) (i : nat) (l : list (chunk * list Q)) (st : rstate)
  : res rstate :=
  match l with
  | [] => Ok st
  | (c, ts) :: l' =>
      st' <- (if skipped x finst recent c then Ok st else retrieve_step p act time pat i c ts st) ;;
      retrieve_loop p act time pat x finst recent (S i) l' st'
  end.

(** The request with variables resolved (declarative.py:192-196). *)
Definition request (r : registry) (o : chunk) (bs : bindings) : res (registry * chunk) :=
  args <- resolve_slots bs false (removeunused o) ;; mk_chunk r (ctype o) args.

(** Result of the loop, with the time for a failed retrieval (declarative.py:250-254); a chunk
    without slots is false, so its extra_time is replaced as well. *)
Definition outcome (p : rparams) (g : option (chunk * Q)) : option chunk * Q :=
  let fail := if psub p then platency p (pthr p) else pfiring p in
  match g with
  | None => (None, fail)
  | Some (c, q) => (Some c, match cslots c with [] => fail | _ => q end)
  end.

(** declarative.py:183-259, retrieve.  Iterating over a missing memory raises TypeError.
    (self.activation is set during the loop, also when the loop ends in an exception; the
    buffer then keeps a stale value, which nothing reads: the model sets it at the end.) *)
Definition retrieve_buf (w : world) (i : nat) (b : buffer) (p : rparams) (act : nat -> activation)
  (time : Q) (o : chunk) (bs : bindings) (x : recency) : world * res (option chunk * Q) :=
  match bkind b with
  | KGoal => (w, Err EActr)
  | KRetrieval =>
      match request (wreg w) o bs with
      | Err e => (w, Err e)
      | Ok (r', pat) =>
          let w1 := set_reg w r' in
          match (match bdm b with Some m => match nth_error (mems w) m with Some dm => Some (m, dm) | None => None end
                 | None => None end) with
          | None => (w1, Err EType)
          | Some (m, dm) =>
              match retrieve_loop p act time pat x (bfinst b) (brecent b) 0 (dmdata dm) (MkRS dm nobind None None) with
              | Err e => (w1, Err e)
              | Ok st =>
                  let out := outcome p (rsgot st) in
                  let b1 := set_act b (match rsmax st with Some q => Some q | None => bact b end) in
                  let b2 := if Nat.eqb (bfinst b) 0 then b1
                            else set_recent b1 (push (bfinst b) (brecent b) (fst out)) in
                  (set_buf (set_mem_at w1 m (rsmem st)) i b2, Ok out)
              end
          end
      end
  | _ => (w, Err EAttr)
  end.

(** ** Histories *)

Inductive op :=
| ONewMem
| OMemAdd (m : nat) (c : chunk) (t : Q)
| OMemCopy (m : nat)
| ONew (k : kind) (m : option nat) (d : list chunk) (finst : nat)
| OAdd (i : nat) (x : arg) (t : Q) (h : option nat) (s : option stimulus)
| OClear (i : nat) (t : Q) (h : option nat)
| OModify (i : nat) (o : chunk) (bs : bindings) (s : option stimulus)
| OCreate (i : nat) (o : chunk) (bs : bindings)
| ODiscard (i : nat) (c : chunk)
| OCopy (i : nat) (h : option nat)
| ORetrieve (i : nat) (p : rparams) (act : nat -> activation) (time : Q) (o : chunk) (bs : bindings) (x : recency)
| OSetFinst (i : nat) (n : nat)
| OSetDm (i : nat) (m : option nat)
| OSetDelay (i : nat) (q : Q).

(** One call.  The world changes also when the call raises.  A number that refers to no buffer
    or memory (which no Python program can produce) changes nothing. *)
Definition step (w : world) (o : op) : world * res (option chunk) :=
  let unit_of := fun (r : world * res unit) => (fst r, u <- snd r ;; Ok (@None chunk)) in
  let on (i : nat) (f : buffer -> world * res unit) :=
    match nth_error (bufs w) i with Some b => unit_of (f b) | None => (w, Err EAttr) end in
  match o with
  | ONewMem => (MkW (mems w ++ [dm_empty]) (bufs w) (wreg w), Ok None)
  | OMemAdd m c t =>
      match nth_error (mems w) m with
      | Some dm => (set_mem_at w m (dm_add dm c t), Ok None)
      | None => (w, Err EAttr)
      end
  | OMemCopy m =>
      match nth_error (mems w) m with
      | Some dm => (MkW (mems w ++ [dm_copy dm]) (bufs w) (wreg w), Ok None)
      | None => (w, Err EAttr)
      end
  | ONew k m d n =>
      match new_buf k m d n with
      | Ok b => (MkW (mems w) (bufs w ++ [b]) (wreg w), Ok None)
      | Err e => (w, Err e)
      end
  | OAdd i x t h s => on i (fun b => add_buf w i b x t h s)
  | OClear i t h => on i (fun b => clear_buf w i b t h)
  | OModify i o' bs s => on i (fun b => modify_buf w i b o' bs s)
  | OCreate i o' bs => on i (fun b => create_buf w i b o' bs)
  | ODiscard i c => on i (fun b => (discard_buf w i b c, Ok tt))
  | OCopy i h => on i (fun b => copy_buf w b h)
  | ORetrieve i p act time o' bs x =>
      match nth_error (bufs w) i with
      | Some b => let (w', r) := retrieve_buf w i b p act time o' bs x in (w', out <- r ;; Ok (fst out))
      | None => (w, Err EAttr)
      end
  | OSetFinst i n => on i (fun b => (set_buf w i (set_finst b n), Ok tt))
  | OSetDm i m => on i (fun b => (set_buf w i (set_dm b m), Ok tt))
  | OSetDelay i q =>
      on i (fun b => if Qle_bool 0 q then (set_buf w i (set_delay b q), Ok tt) else (w, Err EValue))
  end.

Definition run (ops : list op) (w : world) : world := fold_left (fun w o => fst (step w o)) ops w.
Definition world0 : world := MkW [] [] init_registry.
