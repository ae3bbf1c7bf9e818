(** What it means that a module is busy while it works. *)
From Verif Require Import Base Chunks DecMem Buffers Productions ProdSpec Sim.
Local Open Scope string_scope.

(** The query [a v] about the module of buffer number [i] is true. *)
Definition shows (i : nat) (a v : string) (s : st) : Prop := exists m, nth_error (smods s) i = Some m /\ dget (mattr m) a = Some v.
(** There is a module number [i]. *)
Definition module_at (i : nat) (s : st) : Prop := nth_error (smods s) i <> None.
(** The rest of the program leaves the module number [i] alone. *)
Definition untouched (i : nat) (s s' : st) : Prop := nth_error (smods s') i = nth_error (smods s) i.

(** Whenever the process waits, from the time [t] of its last event until the time of the next one, and these times
    are different, the query [a busy] is true: [hafter] is the state in which it waits. *)
Fixpoint waits_busy (i : nat) (a : string) (t : Z) (tr : list hop) : Prop :=
  match tr with
  | [] => True
  | h :: tr' => match hevent h with
                | Some e => (etime e = t \/ shows i a "busy" (hafter h)) /\ waits_busy i a (etime e) tr'
                | None => True
                end
  end.
(** The time of the last event. *)
Fixpoint last_time (t : Z) (tr : list hop) : Z :=
  match tr with
  | [] => t
  | h :: tr' => match hevent h with Some e => last_time (etime e) tr' | None => t end
  end.

(** A process of the buffer [n] waits until the time of [e]; all processes have done what they had to do now. *)
Definition waits_for (n : string) (e : event) (S : sim) : Prop :=
  todo S = [] /\ dead S = None /\ (now S < etime e)%Z /\ exists p r k, nth_error (prs S) p = Some r /\ pcode r = KLocal false n e k.
