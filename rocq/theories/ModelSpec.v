(** Specifications for ACTRModel. *)
From Verif Require Import Base Chunks DecMem Buffers Model.
Local Open Scope string_scope.
Local Open Scope list_scope.
Local Open Scope nat_scope.

(** ** C47 *)

(** The parameters and defaults in the documentation (model.py:12-41); {} is an empty dictionary. *)
Definition documented : dict pshown :=
  [("subsymbolic", ShBool false); ("rule_firing", ShNum (5 # 100)); ("latency_factor", ShNum (1 # 10));
   ("latency_exponent", ShNum 1); ("decay", ShNum (1 # 2)); ("baselevel_learning", ShBool true);
   ("optimized_learning", ShBool false); ("instantaneous_noise", ShNum 0); ("retrieval_threshold", ShNum 0);
   ("buffer_spreading_activation", ShDict []); ("spreading_activation_restricted", ShBool false); ("strength_of_association", ShNum 0);
   ("association_only_from_chunks", ShBool true); ("partial_matching", ShBool false); ("mismatch_penalty", ShNum 1);
   ("activation_trace", ShBool false); ("utility_noise", ShNum 0); ("utility_learning", ShBool false);
   ("utility_alpha", ShNum (2 # 10)); ("motor_prepared", ShBool false); ("strict_harvesting", ShBool false);
   ("production_compilation", ShBool false); ("automatic_visual_search", ShBool true); ("emma", ShBool true);
   ("emma_noise", ShBool true); ("emma_landing_site_noise", ShBool false); ("eye_mvt_angle_parameter", ShNum 1);
   ("eye_mvt_scaling_parameter", ShNum (1 # 100))].

(** ** C27 *)

(** The same key: both empty, the same text, or equal chunks. *)
Definition same (v w : value) : Prop :=
  match v, w with
  | VNone, VNone | VNone, VEmpty | VEmpty, VNone | VEmpty, VEmpty => True
  | VStr s, VStr t => s = t
  | VChunk c, VChunk d => val_eqb (VChunk c) (VChunk d) = true
  | _, _ => False
  end.
(** The same two values in either order. *)
Definition same_pair (v w v' w' : value) : Prop := same v v' /\ same w w' \/ same v w' /\ same w v'.

(** Calls of set_similarities, oldest first. *)
Definition calls := list (value * value * Q).
(** [q] is the value in the last call for [v] and [w] that is not positive. *)
Definition last_call (h : calls) (v w : value) (q : Q) : Prop :=
  exists before v' w' after, h = before ++ (v', w', q) :: after /\ (q <= 0)%Q /\ same_pair v' w' v w /\
    forall a b r, In (a, b, r) after -> (r <= 0)%Q -> ~ same_pair a b v w.
Definition never_called (h : calls) (v w : value) : Prop :=
  forall a b r, In (a, b, r) h -> (r <= 0)%Q -> ~ same_pair a b v w.

(** The table after such calls, from an empty one on. *)
Definition sims (h : calls) : simtable := fold_left (fun t c => fst (set_similarities t (fst (fst c)) (snd (fst c)) (snd c))) h [].

(** ** C68 *)

(** Several models, from the beginning of the program on. *)
Definition sims_run (l : list simop) : simstate := fold_left sims_step l (MkSims [] None).

(** The calls for model [k]. *)
Fixpoint calls_of (k : nat) (l : list simop) : calls :=
  match l with
  | [] => []
  | SSetSimilarity j v w q :: l' => if Nat.eqb j k then (v, w, q) :: calls_of k l' else calls_of k l'
  | _ :: l' => calls_of k l'
  end.
Fixpoint models_in (l : list simop) : nat := match l with [] => 0 | SNewModel :: l' => S (models_in l') | _ :: l' => models_in l' end.
Definition op_valid (n : nat) (o : simop) : Prop := match o with SNewModel => True | SSetSimilarity k _ _ _ => k < n | SSimulation k => k < n end.
(** Only models that exist are used. *)
Definition valid (l : list simop) : Prop := forall l1 o l2, l = l1 ++ o :: l2 -> op_valid (models_in l1) o.
Definition is_simulation (o : simop) : bool := match o with SSimulation _ => true | _ => false end.

(** ** C64 *)

(** Buffer number [i] has no memory, or an empty one. *)
Definition needy (w : world) (i : nat) : Prop :=
  match nth_error (bufs w) i with
  | Some b => match bdm b with
              | Some m => match nth_error (mems w) m with Some dm => dmdata dm = [] | None => True end
              | None => True
              end
  | None => True
  end.
Definition filled (w : world) (m : nat) : Prop := exists dm, nth_error (mems w) m = Some dm /\ dmdata dm <> [].
(** Worlds that differ at most in the memories of the buffers in [names], which have [m]. *)
Definition assigned (w w' : world) (names : dict nat) (m : nat) : Prop :=
  mems w' = mems w /\ wreg w' = wreg w /\ List.length (bufs w') = List.length (bufs w) /\
  forall i b, nth_error (bufs w) i = Some b ->
    (In i (map snd names) -> nth_error (bufs w') i = Some (set_dm b (Some m))) /\
    (~ In i (map snd names) -> nth_error (bufs w') i = Some b).
