(** Defining the rules of a model by several calls of set_productions and productionstring. *)
From Verif Require Import Base Strings Signatures.
Local Open Scope string_scope.
Local Open Scope list_scope.

(** The body of a rule: a function, or what productionstring has parsed. *)
Inductive body := BFunction (f : func) | BString (x : list group * list group).
(** productions.py:23-30: a rule with its utility and its reward. *)
Definition entry : Type := body * num * num.
Inductive defcall := DFunctions (fs : list func) | DString (name text : string) (utility reward : num).

(** productions.py:74-90: as [load] of Signatures.v, with the functions themselves. *)
Fixpoint load_rules (fs : list func) (d : dict entry) : res (dict entry) :=
  match fs with
  | [] => Ok d
  | f :: fs' =>
      u <- from_signature f "utility" (Some 0%Q) ;;
      r <- from_signature f "reward" None ;;
      load_rules fs' (dset d (fname f) (BFunction f, u, r))
  end.
(** model.py:206-211: the model gets a new object with the rules of this call only.  model.py:213-271: the rule is put into the rules
    that there are (update of UserDict calls productions.py:115-119). *)
Definition define (d : dict entry) (c : defcall) : dict entry * res unit :=
  match c with
  | DFunctions fs => match load_rules fs [] with Ok d' => (d', Ok tt) | Err e => (d, Err e) end
  | DString n s u r => match productionstring n s with Ok x => (dset d n (BString x, u, r), Ok tt) | Err e => (d, Err e) end
  end.
(** Calls one after another; exceptions are caught by the user. *)
Definition define_all (d : dict entry) (l : list defcall) : dict entry := fold_left (fun d c => fst (define d c)) l d.
