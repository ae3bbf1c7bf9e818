(** Which buffers the parts of a simulation leave alone. *)
From Verif Require Import Base Chunks DecMem Buffers Productions ProdSpec Sim.
Local Open Scope string_scope.

(** Every buffer but number [i] is the same in [w'] as in [w]. *)
Definition others_same (i : nat) (w w' : world) : Prop := forall j, j <> i -> nth_error (bufs w') j = nth_error (bufs w) j.

(** The parts of the program that are left open change no buffer but the one they are called for. *)
Definition minds_own (O : oracle) : Prop :=
  (forall s i l, others_same i (sw s) (fst (oexec O s i l))) /\
  (forall s i c bs x, others_same i (sw s) (fst (ofind O s i c bs x))) /\
  (forall s i c bs, others_same i (sw s) (fst (oshift O s i c bs))) /\
  (forall s i l, others_same i (sw s) (fst (oauto O s i l))) /\
  (forall s i l, others_same i (sw s) (fst (oautobuf O s i l))).

(** Environments that change nothing but what is on the screen. *)
Fixpoint shows_only (g : gen) : Prop :=
  match g with
  | GRet => True
  | GRaise _ => True
  | GYield _ k => shows_only k
  | GCont k => shows_only k
  | GNote _ k => shows_only k
  | GAct f k => (forall s, exists x, f s = set_screen x s) /\ shows_only k
  | GGet k => forall s, shows_only (k s)
  end.

(** No rule acts upon the buffer called [n]. *)
Definition spared (s : st) (n : string) : Prop := forall r ru, dget (srules s) r = Some ru -> ~ mentioned (rrhs ru) n.

(** Strict harvesting is off, or no rule tests the buffer called [n] or has a variable of this name. *)
Definition unharvested (s : st) (n : string) : Prop :=
  qstrict (sp s) = false \/
  ((forall r ru, dget (srules s) r = Some ru -> ~ tested (rlhs ru) n /\ ~ In n (lhs_vars (rlhs ru))) /\ forall x, n <> String "=" x).

(** The buffer called [n] is the object number [i], and has no other name. *)
Definition named (s : st) (n : string) (i : nat) : Prop := forall m, dget (snames s) m = Some i <-> m = n.
