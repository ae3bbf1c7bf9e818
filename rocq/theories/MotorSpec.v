(** Specification of key presses (C39, C40), after the documentation in motor.py:13-24 and
    productions.py:893-926. *)
From Verif Require Import Base Chunks Productions.
Local Open Scope string_scope.

Definition left_keys := ["1"; "2"; "3"; "4"; "5"; "Q"; "W"; "E"; "R"; "T"; "A"; "S"; "D"; "F"; "G"; "Z"; "X"; "C"; "V"; "B"; "SPACE"].
Definition right_keys := ["6"; "7"; "8"; "9"; "0"; "Y"; "U"; "I"; "O"; "P"; "H"; "J"; "K"; "L"; "N"; "M"; "SPACE"].
(** Keys under the fingers, and keys that take longest to reach. *)
Definition home_keys := ["A"; "S"; "D"; "F"; "J"; "K"; "L"; "SPACE"].
Definition far_keys := ["5"; "6"].
Definition known_key (x : string) : Prop := In x left_keys \/ In x right_keys.

(** Full preparation, initiation, action, finishing the movement (seconds). *)
Inductive durations (x : string) : Q -> Q -> Q -> Q -> Prop :=
| dur_home : In x home_keys -> durations x (15 # 100) (5 # 100) (1 # 100) (9 # 100)
| dur_far : In x far_keys -> durations x (25 # 100) (5 # 100) (11 # 100) (16 # 100)
| dur_other : ~ In x home_keys -> ~ In x far_keys -> durations x (25 # 100) (5 # 100) (10 # 100) (15 # 100).

Definition same_hand (x y : string) : Prop := In x left_keys <-> In y left_keys.
Definition same_move (x y : string) : Prop := In x home_keys <-> In y home_keys.

(** The documented preparation of [x] after [prev], if it takes [full] without anything before. *)
Inductive prepares (x : string) (full : Q) : option string -> Q -> Prop :=
| prep_first : prepares x full None full
| prep_same : prepares x full (Some x) 0
| prep_hand y : y <> x -> same_move x y -> same_hand x y -> prepares x full (Some y) (full - (10 # 100))
| prep_other y : y <> x -> same_move x y -> ~ same_hand x y -> prepares x full (Some y) (full - (5 # 100))
| prep_move y : y <> x -> ~ same_move x y -> prepares x full (Some y) full.

(** The key of a text without marks, as it is kept in chunks. *)
Definition key_of (x : string) : vv := MkVV (VStr x) None [] [].
