(** What the signature of a rule function says. *)
From Verif Require Import Base Signatures.
Local Open Scope string_scope.
Local Open Scope list_scope.

(** What Python accepts: distinct names; after a parameter with a default, all parameters (before a star) have one. *)
Definition written_well (f : func) : Prop :=
  NoDup (map fst (fargs f) ++ map fst (fkwonly f)) /\
  exists a b, fargs f = a ++ b /\ (forall p, In p a -> snd p = None) /\ (forall p, In p b -> snd p <> None).
(** The function has a parameter [n] with the default [v]. *)
Definition says (f : func) (n : string) (v : num) : Prop := In (n, Some v) (fargs f) \/ In (n, Some v) (fkwonly f).
(** It has no parameter [n]. *)
Definition silent (f : func) (n : string) : Prop := ~ In n (map fst (fargs f)) /\ ~ In n (map fst (fkwonly f)).
(** It has a parameter [n] without default. *)
Definition demands (f : func) (n : string) : Prop := In (n, None) (fargs f) \/ In (n, None) (fkwonly f).
(** [n] is not a parameter after a star. *)
Definition not_starred (f : func) (n : string) : Prop := ~ In n (map fst (fkwonly f)).
(** The value of [n]: what the function says, or else [dft]. *)
Definition means (f : func) (n : string) (dft v : num) : Prop := says f n v \/ (silent f n /\ v = dft).
(** [f] is the last function called [n]. *)
Definition last_called (fs : list func) (n : string) (f : func) : Prop :=
  exists l1 l2, fs = l1 ++ f :: l2 /\ fname f = n /\ forall g, In g l2 -> fname g <> n.
(** Neither the utility nor the reward is given after a star. *)
Definition plainly (f : func) : Prop := written_well f /\ not_starred f "utility" /\ not_starred f "reward".
