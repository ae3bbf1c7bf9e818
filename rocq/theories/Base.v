(** Base: Python run-time notions used by every model file.

    Nothing in this file models a function of /repo, except [py_round_half_even]
    (the rounding rule behind utilities.roundtime, /repo/pyactr/utilities.py:110-114). *)
From Coq Require Export List String Ascii Bool ZArith QArith Lia.
Export ListNotations.
#[local] Set Implicit Arguments.
#[global] Set Asymmetric Patterns.
Local Open Scope string_scope.

(** ** Exceptions as values *)

(** The Python exception classes that the modelled code can raise.
    [EActr] is pyactr.utilities.ACTRError (utilities.py:118-121). *)
Inductive exn := EActr | EType | EKey | EValue | EAttr | EUnbound | EAssert | EIndex | EWarning | EParse.

Inductive res (A : Type) := Ok (a : A) | Err (e : exn).
Arguments Ok {A} a.
Arguments Err {A} e.

Definition rbind {A B} (x : res A) (f : A -> res B) : res B :=
  match x with Ok a => f a | Err e => Err e end.
Notation "x <- e ;; f" := (rbind e (fun x => f)) (at level 61, e at next level, right associativity).
Notation "' p <- e ;; f" := (rbind e (fun p => f))
  (at level 61, p pattern, e at next level, right associativity).

(** [[f(x) for x in l]] where [f] may raise: stops at the first exception. *)
Fixpoint rmap {A B} (f : A -> res B) (l : list A) : res (list B) :=
  match l with
  | [] => Ok []
  | a :: l' => b <- f a ;; bs <- rmap f l' ;; Ok (b :: bs)
  end.

(** ** Dictionaries: insertion-ordered association lists with string keys *)

Definition dict (A : Type) := list (string * A).

Fixpoint dget {A} (d : dict A) (k : string) : option A :=
  match d with
  | [] => None
  | (k', a) :: d' => if String.eqb k' k then Some a else dget d' k
  end.

(** [d[k] = a]: an existing key keeps its position, a new key goes last. *)
Fixpoint dset {A} (d : dict A) (k : string) (a : A) : dict A :=
  match d with
  | [] => [(k, a)]
  | (k', a') :: d' => if String.eqb k' k then (k', a) :: d' else (k', a') :: dset d' k a
  end.

(** [d.update(e)] *)
Definition dupdate {A} (d e : dict A) : dict A :=
  fold_left (fun acc p => dset acc (fst p) (snd p)) e d.

(** [del d[k]] / [d.pop(k)] on a key that may be absent *)
Definition ddel {A} (d : dict A) (k : string) : dict A :=
  filter (fun p => negb (String.eqb (fst p) k)) d.

Definition dkeys {A} (d : dict A) : list string := map fst d.

Definition dmem {A} (d : dict A) (k : string) : bool :=
  match dget d k with Some _ => true | None => false end.

Definition smem (k : string) (l : list string) : bool := existsb (String.eqb k) l.

(** Duplicate-free version of a list of strings, first occurrences kept
    (a Python set, in insertion order). *)
Fixpoint sdedup_from (seen l : list string) : list string :=
  match l with
  | [] => []
  | a :: l' => if smem a seen then sdedup_from seen l' else a :: sdedup_from (a :: seen) l'
  end.
Definition sdedup (l : list string) : list string := sdedup_from [] l.

(** ** Sorting (Python's sorted is a stable sort) *)

Section Sort.
  Variable A : Type.
  Variable leb : A -> A -> bool.
  Fixpoint insert_sorted (a : A) (l : list A) : list A :=
    match l with
    | [] => [a]
    | b :: l' => if leb a b then a :: b :: l' else b :: insert_sorted a l'
    end.
  (** Stable insertion sort: equal keys keep their order because the list is
      consumed from the right and [a] is put before the elements it is [leb] to. *)
  Fixpoint isort (l : list A) : list A :=
    match l with
    | [] => []
    | a :: l' => insert_sorted a (isort l')
    end.
End Sort.

(** ** Rounding

    Python's [round(x, 4)] rounds to the nearest multiple of 1/10000, ties to even.
    A time in seconds is the rational [x]; the result is in ticks of 0.1 ms.
    (The code works on binary floats; [x] is the exact rational value of the float, and the
    result is identified with the integer number of ticks of its decimal reading.) *)
Definition py_round_half_even (x : Q) : Z :=
  let n := Qnum x in
  let d := Z.pos (Qden x) in
  let q := (n / d)%Z in
  let r := (n mod d)%Z in
  match Z.compare (2 * r) d with
  | Lt => q
  | Gt => (q + 1)%Z
  | Eq => if Z.even q then q else (q + 1)%Z
  end.

(** utilities.py:110-114, roundtime: round to four decimals, result in ticks. *)
Definition roundtime (x : Q) : Z := py_round_half_even (x * (10000 # 1)).
