(** Model of /repo/pyactr/model.py:47-327 (class ACTRModel): parameters, memories, similarities and
    the preparation of a simulation.  Reading of rules from strings is in other files. *)
From Verif Require Import Base Chunks DecMem Buffers.
Local Open Scope string_scope.
Local Open Scope list_scope.

(** ** Parameters *)

(** Values of parameters: truth values, numbers, dictionaries.  Dictionaries are objects: [PRef r] is
    dictionary number [r]. *)
Inductive pval := PBool (b : bool) | PNum (q : Q) | PRef (r : nat).
(** Dictionaries from names of buffers to weights. *)
Definition pheap := list (dict Q).

(** model.py:47-75.  Dictionary number 0 is made when the class is defined. *)
Definition MODEL_PARAMETERS : dict pval :=
  [("subsymbolic", PBool false); ("rule_firing", PNum (5 # 100)); ("latency_factor", PNum (1 # 10));
   ("latency_exponent", PNum 1); ("decay", PNum (1 # 2)); ("baselevel_learning", PBool true);
   ("optimized_learning", PBool false); ("instantaneous_noise", PNum 0); ("retrieval_threshold", PNum 0);
   ("buffer_spreading_activation", PRef 0); ("spreading_activation_restricted", PBool false);
   ("strength_of_association", PNum 0); ("association_only_from_chunks", PBool true);
   ("partial_matching", PBool false); ("mismatch_penalty", PNum 1); ("activation_trace", PBool false);
   ("utility_noise", PNum 0); ("utility_learning", PBool false); ("utility_alpha", PNum (2 # 10));
   ("motor_prepared", PBool false); ("strict_harvesting", PBool false); ("production_compilation", PBool false);
   ("automatic_visual_search", PBool true); ("emma", PBool true); ("emma_noise", PBool true);
   ("emma_landing_site_noise", PBool false); ("eye_mvt_angle_parameter", PNum 1);
   ("eye_mvt_scaling_parameter", PNum (1 # 100))].
Definition pheap0 : pheap := [[]].

(** model.py:100-109.  Keyword arguments have distinct names.  (The TypeError of line 108 cannot
    happen with keyword arguments.) *)
Definition init_parameters (given : dict pval) : res (dict pval) :=
  if forallb (fun k => dmem MODEL_PARAMETERS k) (dkeys given) then Ok (dupdate MODEL_PARAMETERS given) else Err EActr.

(** model.model_parameters[name][buffer] = weight, for a parameter that is a dictionary. *)
Definition write_parameter (h : pheap) (ps : dict pval) (name buffer : string) (q : Q) : pheap :=
  match dget ps name with
  | Some (PRef r) => match nth_error h r with Some d => upd h r (dset d buffer q) | None => h end
  | _ => h
  end.
(** What a user sees. *)
Inductive pshown := ShBool (b : bool) | ShNum (q : Q) | ShDict (d : dict Q).
Definition show_value (h : pheap) (v : pval) : option pshown :=
  match v with
  | PBool b => Some (ShBool b)
  | PNum q => Some (ShNum q)
  | PRef r => match nth_error h r with Some d => Some (ShDict d) | None => None end
  end.
Definition show_parameter (h : pheap) (ps : dict pval) (name : string) : option pshown :=
  match dget ps name with Some v => show_value h v | None => None end.

(** ** Similarities *)

(** model.py:273-282: an equal key keeps its place and its first form. *)
Fixpoint sim_set (t : simtable) (v w : value) (q : Q) : simtable :=
  match t with
  | [] => [((v, w), q)]
  | ((v', w'), q') :: t' => if key_eqb v' v && key_eqb w' w then ((v', w'), q) :: t' else ((v', w'), q') :: sim_set t' v w q
  end.
Definition set_similarities (t : simtable) (v w : value) (q : Q) : simtable * res unit :=
  if Qle_bool q 0 then (sim_set (sim_set t v w q) w v q, Ok tt) else (t, Err EActr).

(** Each model has a table (model.py:98).  The table used when chunks are compared is an attribute of the class
    Chunk, which is set when a simulation is prepared (model.py:325).  [scur]: the model that set it;
    the table is the same object as that of the model. *)
Record simstate := MkSims { stabs : list simtable; scur : option nat }.
Inductive simop := SNewModel | SSetSimilarity (k : nat) (v w : value) (q : Q) | SSimulation (k : nat).
Definition sims_step (s : simstate) (o : simop) : simstate :=
  match o with
  | SNewModel => MkSims (stabs s ++ [[]]) (scur s)
  | SSetSimilarity k v w q =>
      match nth_error (stabs s) k with
      | Some t => MkSims (upd (stabs s) k (fst (set_similarities t v w q))) (scur s)
      | None => s
      end
  | SSimulation k => match nth_error (stabs s) k with Some _ => MkSims (stabs s) (Some k) | None => s end
  end.
(** chunks.py: Chunk._similarities, {} at the beginning. *)
Definition used_table (s : simstate) : simtable :=
  match scur s with Some k => match nth_error (stabs s) k with Some t => t | None => [] end | None => [] end.

(** ** Memories *)

(** str() of a number. *)
Fixpoint digits (fuel n : nat) (acc : string) : string :=
  let d := Ascii.ascii_of_nat (48 + Nat.modulo n 10) in
  match fuel with
  | O => acc
  | S f => if Nat.ltb n 10 then String d acc else digits f (Nat.div n 10) (String d acc)
  end.
Definition str_of_nat (n : nat) : string := digits (S n) n "".

(** The attributes decmems, __buffers and visbuffers: names of memories and buffers, which are numbers in a
    [world]. *)
Record amodel := MkModel { adecmems : dict nat; abuffers : dict nat; avis : dict nat }.

(** model.py:84-95, ACTRModel(): one goal buffer, one retrieval buffer, one memory. *)
Definition new_goal (delay : Q) : buffer := MkBuf KGoal [] None 0 [] [] None delay.
Definition new_retrieval : buffer := MkBuf KRetrieval [] None 0 [] [] None 0.
Definition new_model (w : world) : world * amodel :=
  let g := List.length (bufs w) in
  let m := List.length (mems w) in
  (MkW (mems w ++ [dm_empty]) (bufs w ++ [new_goal 0; new_retrieval]) (wreg w),
   MkModel [("decmem", m)] [("g", g); ("retrieval", S g)] []).

(** model.py:141-150, set_decmem, for the data [cs] (a memory that can be made of them; see dm_init). *)
Definition set_decmem (w : world) (a : amodel) (dm : decmem) : world * amodel :=
  let m := List.length (mems w) in
  let name := if Nat.ltb 1 (List.length (adecmems a)) then ("decmem" ++ str_of_nat (List.length (adecmems a)))%string else "decmem" in
  (MkW (mems w ++ [dm]) (bufs w) (wreg w), MkModel (dset (adecmems a) name m) (abuffers a) (avis a)).
(** model.decmems[name] = DecMem(): memories can also be put there directly. *)
Definition put_decmem (w : world) (a : amodel) (name : string) (dm : decmem) : world * amodel :=
  (MkW (mems w ++ [dm]) (bufs w) (wreg w), MkModel (dset (adecmems a) name (List.length (mems w))) (abuffers a) (avis a)).
(** model.py:127-135, the property decmem. *)
Definition the_decmem (a : amodel) : res nat :=
  match adecmems a with [(_, m)] => Ok m | _ => Err EValue end.

(** model.py:166-190, set_goal and set_retrieval with a name that is a string. *)
Definition set_goal (w : world) (a : amodel) (name : string) (delay : Q) : world * amodel :=
  (MkW (mems w) (bufs w ++ [new_goal delay]) (wreg w), MkModel (adecmems a) (dset (abuffers a) name (List.length (bufs w))) (avis a)).
Definition set_retrieval (w : world) (a : amodel) (name : string) : world * amodel :=
  (MkW (mems w) (bufs w ++ [new_retrieval]) (wreg w), MkModel (adecmems a) (dset (abuffers a) name (List.length (bufs w))) (avis a)).

(** ** Preparing a simulation *)

(** A memory without chunks is false. *)
Definition mem_truthy (w : world) (m : nat) : bool :=
  match nth_error (mems w) m with Some dm => match dmdata dm with [] => false | _ => true end | None => false end.
Definition buf_dm (w : world) (i : nat) : option nat := match nth_error (bufs w) i with Some b => bdm b | None => None end.
Definition give_dm (w : world) (i m : nat) : world :=
  match nth_error (bufs w) i with Some b => set_buf w i (set_dm b (Some m)) | None => w end.

(** model.py:299-301. *)
Definition give_all (w : world) (names : dict nat) (m : nat) : world :=
  fold_left (fun w p => give_dm w (snd p) m) names w.
(** model.py:302-305.  self.decmem is looked up for each buffer that needs it. *)
Fixpoint give_needy (w : world) (a : amodel) (names : dict nat) : world * res unit :=
  match names with
  | [] => (w, Ok tt)
  | (_, i) :: names' =>
      if match buf_dm w i with Some m => mem_truthy w m | None => false end then give_needy w a names'
      else match the_decmem a with
           | Err e => (w, Err e)
           | Ok m => give_needy (give_dm w i m) a names'
           end
  end.
Definition assign_memories (w : world) (a : amodel) : world * res unit :=
  if Nat.eqb (List.length (adecmems a)) 1 then
    match the_decmem a with Ok m => (give_all w (abuffers a) m, Ok tt) | Err e => (w, Err e) end
  else if Nat.eqb (List.length (filter (mem_truthy w) (map snd (adecmems a)))) 1 then give_needy w a (abuffers a)
  else (w, Ok tt).

(** model.py:307-308. *)
Definition used_memories (w : world) (names : dict nat) : dict nat :=
  fold_left (fun acc p => match buf_dm w (snd p) with Some m => dset acc (fst p) m | None => acc end) names [].

(** model.py:299-319.  Result: the buffers and memories of the simulation.  The new motor and visual buffers
    get new numbers. *)
Definition new_motor : buffer := MkBuf KMotor [] None 0 [] [] None 0.
Definition new_visual (k : kind) (m : nat) : buffer := MkBuf k [] (Some m) (match k with KLocation => 4 | _ => 0 end) [] [] None 0.
Definition prepare_simulation (w : world) (a : amodel) (env : bool) : world * res (amodel * dict nat * dict nat) :=
  match assign_memories w a with
  | (w1, Err e) => (w1, Err e)
  | (w1, Ok _) =>
      let dms := used_memories w1 (abuffers a) in
      let b1 := dset (abuffers a) "manual" (List.length (bufs w1)) in
      let w2 := MkW (mems w1) (bufs w1 ++ [new_motor]) (wreg w1) in
      if negb env then (w2, Ok (MkModel (adecmems a) b1 (avis a), b1, dms))
      else match avis a with
           | _ :: _ => let b2 := dupdate b1 (avis a) in (w2, Ok (MkModel (adecmems a) b2 (avis a), b2, dms))
           | [] => match dms with
                   | [] => (w2, Err EIndex)
                   | (_, m) :: _ =>
                       let n := List.length (bufs w2) in
                       let b2 := dset (dset b1 "visual" n) "visual_location" (S n) in
                       (MkW (mems w2) (bufs w2 ++ [new_visual KVisual m; new_visual KLocation m]) (wreg w2),
                        Ok (MkModel (adecmems a) b2 (avis a), b2, dms))
                   end
           end
  end.
