(** Specification for C111: what a modeller has done with a model, and which buffer has which name. *)
From Verif Require Import Base Chunks DecMem Buffers Model Naming.
Local Open Scope string_scope.
Local Open Scope list_scope.

(** What has been done, the last thing first, with the buffers that were returned. *)
Inductive deed :=
| SetGoal (name : string) (i : nat)
| SetRetrieval (name : string) (i : nat)
| VisualBuffer (what : string) (i : nat) (where' : string) (j : nat)
| Simulated.

(** [past env h w n]: after [h], the model is [n] and the rest is [w].  [env]: whether the model has an environment.
    Between the calls, anything may happen that makes no buffer disappear ([past_else]). *)
Inductive past (env : bool) : list deed -> world -> nmodel -> Prop :=
| past_new w : past env [SetRetrieval "retrieval" (Datatypes.S (List.length (bufs w))); SetGoal "g" (List.length (bufs w))] (fst (named_model w)) (snd (named_model w))
| past_else h w w' n : past env h w n -> (List.length (bufs w) <= List.length (bufs w'))%nat -> past env h w' n
| past_goal h w n name delay w' n' i : past env h w n -> named_goal w n name delay = (w', n', i) -> past env (SetGoal name i :: h) w' n'
| past_retrieval h w n name w' n' i : past env h w n -> named_retrieval w n name = (w', n', i) -> past env (SetRetrieval name i :: h) w' n'
| past_visual h w n what where' dm finst w' n' i j : past env h w n -> visual_buffers w n what where' dm finst = (w', n', (i, j)) -> past env (VisualBuffer what i where' j :: h) w' n'
| past_simulation h w n w' n' bs : past env h w n -> named_simulation w n env = (w', Ok (n', bs)) -> past env (Simulated :: h) w' n'.

(** The buffer returned by the last call of set_goal or set_retrieval for a name; of visualBuffer; of set_goal; of set_retrieval. *)
Fixpoint last_set (name : string) (h : list deed) : option nat :=
  match h with
  | [] => None
  | SetGoal m i :: h' | SetRetrieval m i :: h' => if String.eqb m name then Some i else last_set name h'
  | _ :: h' => last_set name h'
  end.
Fixpoint last_visual (name : string) (h : list deed) : option nat :=
  match h with
  | [] => None
  | VisualBuffer m1 i m2 j :: h' => if String.eqb m2 name then Some j else if String.eqb m1 name then Some i else last_visual name h'
  | _ :: h' => last_visual name h'
  end.
Fixpoint last_goal (name : string) (h : list deed) : option nat :=
  match h with
  | [] => None
  | SetGoal m i :: h' => if String.eqb m name then Some i else last_goal name h'
  | _ :: h' => last_goal name h'
  end.
Fixpoint last_retrieval (name : string) (h : list deed) : option nat :=
  match h with
  | [] => None
  | SetRetrieval m i :: h' => if String.eqb m name then Some i else last_retrieval name h'
  | _ :: h' => last_retrieval name h'
  end.
(** All buffers that were returned. *)
Fixpoint returned (h : list deed) : list nat :=
  match h with
  | [] => []
  | SetGoal _ i :: h' | SetRetrieval _ i :: h' => i :: returned h'
  | VisualBuffer _ i _ j :: h' => j :: i :: returned h'
  | Simulated :: h' => returned h'
  end.
Definition reserved : list string := ["manual"; "visual"; "visual_location"].
