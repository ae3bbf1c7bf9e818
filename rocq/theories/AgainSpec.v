(** Specification of compiled rules that are created again and again (C78). *)
From Coq Require Import Qabs.
From Verif Require Import Base Chunks Productions Compile.
Local Open Scope Q_scope.

(** The utility of a rule. *)
Definition utility (s : st) (n : string) : option Q :=
  match dget (srules s) n with Some r => Some (rutil r) | None => None end.

(** A number with at most four decimals. *)
Definition four_decimals (u : Q) : Prop := exists t : Z, u = t # 10000.

(** The rules [n1] and [n2] are compiled in [s], the rule [n] is created again, and whatever
    happens until [s'], it leaves the utilities of [n] and of its first parent and the parameters
    as they are. *)
Definition created_again (n1 n2 n : string) (s s' : st) : Prop :=
  exists tie vals rs, compile_rules tie s n1 n2 vals = Ok (Some (n, true, rs)) /\
    sp s' = sp s /\ forall m, m = n \/ m = n1 -> utility s' m = utility (set_rules rs s) m.

Inductive created_times (n1 n2 n : string) : nat -> st -> st -> Prop :=
| never_created s : created_times n1 n2 n 0 s s
| once_more k s s1 s' : created_times n1 n2 n k s s1 -> created_again n1 n2 n s1 s' ->
    created_times n1 n2 n (S k) s s'.

(** [a] to the power [k]. *)
Fixpoint qpow (a : Q) (k : nat) : Q := match k with O => 1 | S k' => a * qpow a k' end.
