(** Assigning rules to names, copying and deleting them: productions.py:62-119, the methods of Productions (model.productions). *)
From Verif Require Import Base Strings Signatures Defining.
Local Open Scope string_scope.
Local Open Scope list_scope.

(** A mapping that the user assigns: its values for the keys rule, utility and reward, if it has them, and whether it has other keys. *)
Record mapping := { m_rule : option body; m_utility : option num; m_reward : option num; m_more : bool }.
Inductive edit := EAssign (n : string) (v : mapping) | ECopy (n m : string) | EDelete (n : string).

(** productions.py:115-117 and 23: productions[n] = v; Production( **v ) is a TypeError unless v has exactly the three keys.
    A new Production with a new dict is made, so that no two names share one; identity of objects is not modelled. *)
Definition assign (d : dict entry) (n : string) (v : mapping) : dict entry * res unit :=
  match v with
  | {| m_rule := Some b; m_utility := Some u; m_reward := Some r; m_more := false |} => (dset d n (b, u, r), Ok tt)
  | _ => (d, Err EType)
  end.
(** productions.py:18, 32-42: a Production is a UserDict, hence a MutableMapping, with the three keys.
    (Deleting one of its keys, productions.py:45-46, is not modelled.) *)
Definition as_mapping (e : entry) : mapping := let '(b, u, r) := e in {| m_rule := Some b; m_utility := Some u; m_reward := Some r; m_more := false |}.
(** The statement productions[n] = productions[m].  productions.py:102-103: productions[m] is None if there is no such rule;
    productions.py:118-119: None["rule"] is a TypeError. *)
Definition copy (d : dict entry) (n m : string) : dict entry * res unit :=
  match dget d m with Some e => assign d n (as_mapping e) | None => (d, Err EType) end.
(** productions.py:105-106: del productions[n]. *)
Definition delete (d : dict entry) (n : string) : dict entry * res unit := if dmem d n then (ddel d n, Ok tt) else (d, Err EKey).

Definition do_edit (d : dict entry) (c : edit) : dict entry * res unit :=
  match c with EAssign n v => assign d n v | ECopy n m => copy d n m | EDelete n => delete d n end.
(** A sequence of such statements, where the user catches the exceptions. *)
Definition edit_all (d : dict entry) (l : list edit) : dict entry := fold_left (fun d c => fst (do_edit d c)) l d.
