(** Rules written as Python functions: the utility and the reward of a rule are defaults of parameters. *)
From Verif Require Import Base.
Local Open Scope string_scope.
Local Open Scope list_scope.

(** Numbers and None. *)
Definition num : Type := option Q.
(** A function: its name and its parameters in the order in which they are written, each with its default if it has one.
    [fkwonly]: the parameters after a star, which can only be given by name.  (The body of the function is what Productions.v
    calls the rule; parameters with a double star are not modelled.) *)
Record func := MkFunc { fname : string; fargs : list (string * option num); fkwonly : list (string * option num) }.

(** inspect.getfullargspec(rule).args and .defaults: the names without those after a star; the defaults of the last
    parameters as a tuple, or None if no parameter has a default. *)
Definition arg_names (f : func) : list string := map fst (fargs f).
Definition arg_defaults (f : func) : option (list num) :=
  match flat_map (fun p => match snd p with Some v => [v] | None => [] end) (fargs f) with [] => None | l => Some l end.
(** list.index *)
Fixpoint index_of (n : string) (l : list string) : option nat :=
  match l with
  | [] => None
  | x :: l' => if String.eqb x n then Some 0%nat else match index_of n l' with Some k => Some (S k) | None => None end
  end.
(** productions.py:76-81 and 82-87: the default of the parameter [n].  The index is counted from the end; a tuple that is
    too short raises IndexError, None raises TypeError. *)
Definition from_signature (f : func) (n : string) (dft : num) : res num :=
  match index_of n (arg_names f) with
  | None => Ok dft
  | Some k =>
      let pos := (List.length (arg_names f) - k)%nat in
      match arg_defaults f with
      | None => Err EType
      | Some ds => if (pos <=? List.length ds)%nat then match nth_error ds (List.length ds - pos) with Some v => Ok v | None => Err EIndex end else Err EIndex
      end
  end.
(** productions.py:74-90 and model.py:206-211.  The new rules replace all rules; an exception leaves the model as it was. *)
Fixpoint load (fs : list func) (d : dict (num * num)) : res (dict (num * num)) :=
  match fs with
  | [] => Ok d
  | f :: fs' =>
      u <- from_signature f "utility" (Some 0%Q) ;;
      r <- from_signature f "reward" None ;;
      load fs' (dset d (fname f) (u, r))
  end.
Definition set_productions (old : dict (num * num)) (fs : list func) : dict (num * num) * res unit :=
  match load fs [] with Ok d => (d, Ok tt) | Err e => (old, Err e) end.
