(** Specification for C114: which rules a model has. *)
From Verif Require Import Base Strings Signatures SignatureSpec Defining.
Local Open Scope string_scope.
Local Open Scope list_scope.

(** A call of set_productions that no signature makes fail. *)
Definition starts_anew (c : defcall) : Prop := exists fs, c = DFunctions fs /\ forall f, In f fs -> ~ demands f "utility" /\ ~ demands f "reward".
(** The call gives the rule [e] the name [n]. *)
Definition gives (c : defcall) (n : string) (e : entry) : Prop :=
  (exists s u r x, c = DString n s u r /\ productionstring n s = Ok x /\ e = (BString x, u, r)) \/
  (starts_anew c /\ exists fs f u r, c = DFunctions fs /\ last_called fs n f /\ means f "utility" (Some 0%Q) u /\ means f "reward" None r /\ e = (BFunction f, u, r)).
(** It leaves the rule called [n] alone. *)
Definition spares (c : defcall) (n : string) : Prop := ~ starts_anew c /\ forall e, ~ gives c n e.
(** All functions have signatures as in C106_exactly_partial. *)
Definition plain_call (c : defcall) : Prop := match c with DFunctions fs => Forall plainly fs | _ => True end.
(** The name that a string is given, unless the call fails. *)
Definition string_name (c : defcall) : list string :=
  match c with DString n s _ _ => match productionstring n s with Ok _ => [n] | Err _ => [] end | DFunctions _ => [] end.
(** The names in [l] that have not been seen, in the order in which they occur first. *)
Fixpoint firsts (seen l : list string) : list string :=
  match l with
  | [] => []
  | n :: l' => if in_dec string_dec n seen then firsts seen l' else n :: firsts (seen ++ [n]) l'
  end.
