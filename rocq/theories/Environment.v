(** Model of /repo/pyactr/environment.py:57-145 (Environment.environment_process, output). *)
From Verif Require Import Base Chunks Buffers Productions.
Local Open Scope string_scope.
Local Open Scope list_scope.

Definition ENV := "ENVIRONMENT".

(** ** Arguments *)

(** An element of stimuli: a dictionary whose values should be dictionaries (None: one that is not),
    or anything else that can be a key of a dictionary (given as its text). *)
Inductive stim_arg := StMap (d : dict (option stimulus)) | StOther (x : string).
(** An element of triggers: a text, an iterable (None: an element without the method upper), or
    something that is not iterable, for example None. *)
Inductive trig_arg := TrText (s : string) | TrList (l : list (option string)) | TrBad.
(** stimuli, triggers, times: [AOne x] is an argument that is not a list and is made a list
    (environment.py:84-85, 93-96); other iterables are lists.  Times are numbers.  The list given as
    stimuli is changed in place by the code (92); that is not modelled. *)
Inductive one_or_many (A : Type) := AOne (x : A) | AMany (l : list A).
Arguments AOne {A}. Arguments AMany {A}.
Definition as_list {A} (a : one_or_many A) : list A := match a with AOne x => [x] | AMany l => l end.

Fixpoint chars (s : string) : list string :=
  match s with "" => [] | String c s' => String c "" :: chars s' end.

(** environment.py:86-92: the objects of one screen, in the order of the dictionary. *)
Definition default_stim : stimulus := MkStim None 320 180 None None None None [].
Fixpoint all_some {A} (l : list (option A)) : option (list A) :=
  match l with
  | [] => Some []
  | Some x :: l' => match all_some l' with Some r => Some (x :: r) | None => None end
  | None :: _ => None
  end.
Definition stim_objects (x : stim_arg) : res (list stimulus) :=
  match x with
  | StMap d => match all_some (map snd d) with Some l => Ok l | None => Err EActr end
  | StOther _ => Ok [default_stim]
  end.

(** environment.py:98-109. *)
Fixpoint repeat_list {A} (l : list A) (n : nat) : list A :=
  match n with O => [] | S n' => l ++ repeat_list l n' end.
Definition balance {A B} (stimuli : list A) (triggers : list B) : res (list A * list B) :=
  if Nat.eqb (List.length stimuli) (List.length triggers) then Ok (stimuli, triggers)
  else if Nat.eqb (List.length stimuli) 1 then Ok (repeat_list stimuli (List.length triggers), triggers)
  else if Nat.eqb (List.length triggers) 1 then Ok (stimuli, repeat_list triggers (List.length stimuli))
  else Err EActr.
Definition fit {A} (n : nat) (times : list A) : res (list A) :=
  if Nat.eqb n (List.length times) then Ok times
  else if Nat.eqb (List.length times) 1 then Ok (repeat_list times n)
  else Err EActr.

(** environment.py:111-119. *)
Definition trigger_set (t : trig_arg) : res (list string) :=
  match t with
  | TrText s => if String.eqb (upper s) "SPACE" then Ok ["SPACE"] else Ok (sdedup (map upper (chars s)))
  | TrList l => match all_some l with Some l' => Ok (sdedup (map upper l')) | None => Err EActr end
  | TrBad => Err EActr
  end.

(** ** The process *)

(** environment.py:123-128.  [self.times[idx]] and [self.triggers[idx]] can raise IndexError. *)
Fixpoint screens (t : Q) (stimuli : list (list stimulus)) (triggers : list (list string)) (times : list Q) : gen :=
  match stimuli with
  | [] => GRet
  | x :: stimuli' =>
      match times, triggers with
      | d :: times', k :: triggers' =>
          GAct (set_screen (MkScr (Some x) k))
          (GYield (ev (t + d) ENV (WText "PRINTED NEW STIMULUS")) (screens (t + d) stimuli' triggers' times'))
      | _, _ => GRaise EIndex
      end
  end.

(** environment.py:81-128.  [initial]: initial_time of the simulation (model.py:313).  The attributes
    stimuli, triggers, times, run_time are not used anywhere else and are left out. *)
Definition prepare (stimuli : list stim_arg) (triggers : list trig_arg) (times : list Q) :
    res (list (list stimulus) * list (list string) * list Q) :=
  objs <- rmap stim_objects stimuli ;;
  st <- balance objs triggers ;;
  ts <- fit (List.length (fst st)) times ;;
  ks <- rmap trigger_set (snd st) ;;
  Ok (fst st, ks, ts).
Definition env_process (initial : Q) (stimuli : one_or_many stim_arg) (triggers : one_or_many trig_arg) (times : one_or_many Q) (start : Q) : gen :=
  match prepare (as_list stimuli) (as_list triggers) (as_list times) with
  | Err e => GRaise e
  | Ok (objs, ks, ts) =>
      GYield (ev (initial - start) ENV (WText "STARTING ENVIRONMENT")) (screens (initial - start) objs ks ts)
  end.
