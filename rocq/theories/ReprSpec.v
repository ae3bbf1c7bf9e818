(** Specification of texts of chunks that identify the chunk (C103). *)
From Verif Require Import Chunks.
Local Open Scope string_scope.

(** The characters that separate the parts of a printed chunk. *)
Definition separator (c : ascii) : Prop := In c ["="%char; "~"%char; ","%char; "("%char; ")"%char].

Fixpoint no_separator (s : string) : Prop :=
  match s with
  | "" => True
  | String c s' => ~ separator c /\ no_separator s'
  end.
Definition a_word (s : string) : Prop := s <> "" /\ no_separator s.

Section Printable.
  Variable P : value -> Prop.
  (** A slot that was given something: a value, a variable, a negated value or variable. *)
  Definition vv_printable (w : vv) : Prop :=
    (vvals w = VNone \/ P (vvals w)) /\
    (forall x, vvar w = Some x -> a_word x) /\
    fold_right (fun v r => P v /\ r) True (vnegvals w) /\
    (forall x, In x (vnegvars w) -> a_word x) /\
    w <> MkVV VNone None [] [].
  Definition slot_printable (p : string * slotval) : Prop :=
    a_word (fst p) /\ match snd p with Some w => vv_printable w | None => True end.
  Definition chunk_printable (c : chunk) : Prop :=
    a_word (ctype c) /\ fold_right (fun p r => slot_printable p /\ r) True (cslots c).
End Printable.

(** Strings without separators, and chunks with slots of which the same holds. *)
Fixpoint value_printable (v : value) : Prop :=
  match v with
  | VNone | VEmpty => False
  | VStr s => a_word s
  | VChunk c => cslots c <> [] /\ chunk_printable value_printable c
  end.

Definition printable (c : chunk) : Prop := chunk_printable value_printable c.
