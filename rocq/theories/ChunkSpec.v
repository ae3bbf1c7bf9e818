(** Specifications for chunks, written without the hashing and matching functions of the
    model (only the data types and slot lookup are used). *)
From Verif Require Import Chunks.
Local Open Scope string_scope.

(** ** What a slot of a chunk contains *)

(** An empty value: None, the EmptyValue object, or the string 'None'. *)
Inductive is_empty : value -> Prop :=
| empty_none : is_empty VNone
| empty_obj : is_empty VEmpty
| empty_str : is_empty (VStr "None").

(** Slot [n] of [c] is written and holds the non-empty value [v]. *)
Definition holds (c : chunk) (n : string) (v : value) : Prop :=
  exists w, dget (cslots c) n = Some (Some w) /\ vvals w = v /\ ~ is_empty v.

(** Two values are the same: equal strings, or chunks with the same content: every slot
    that holds something in one holds the same thing in the other.  Nothing is said about
    the chunk type, the order of slots, or slots that are unset in one of them. *)
Inductive same_value : value -> value -> Prop :=
| same_str s : same_value (VStr s) (VStr s)
| same_chunk c d : same_fact c d -> same_value (VChunk c) (VChunk d)
with same_fact : chunk -> chunk -> Prop :=
| same_slots c d :
    (forall n v, holds c n v -> exists w, holds d n w /\ same_value v w) ->
    (forall n w, holds d n w -> exists v, holds c n v /\ same_value v w) ->
    same_fact c d.

(** The same content: both empty, or the same value. *)
Definition same_content (v w : value) : Prop :=
  (is_empty v /\ is_empty w) \/ (~ is_empty v /\ ~ is_empty w /\ same_value v w).

(** ** Kinds of chunks *)

(** Slot names are strictly increasing in the order used by chunk types, here and in
    nested chunks.  Every chunk that the constructor can build is of this kind. *)
Definition slot_lt (a b : string) : Prop := String.compare (a ++ "_") (b ++ "_") = Lt.

Fixpoint increasing (l : list string) : Prop :=
  match l with
  | [] => True
  | a :: l' => Forall (slot_lt a) l' /\ increasing l'
  end.

Inductive wf_value : value -> Prop :=
| wf_none : wf_value VNone
| wf_empty : wf_value VEmpty
| wf_str s : wf_value (VStr s)
| wf_vchunk c : wf_chunk c -> wf_value (VChunk c)
with wf_chunk : chunk -> Prop :=
| wf_slots c :
    increasing (dkeys (cslots c)) ->
    (forall n w, In (n, Some w) (cslots c) ->
       wf_value (vvals w) /\ (forall v, In v (vnegvals w) -> wf_value v)) ->
    wf_chunk c.

(** A fact: every written slot holds one constant: no variables and no negations,
    recursively. *)
Inductive const_value : value -> Prop :=
| const_none : const_value VNone
| const_empty : const_value VEmpty
| const_str s : const_value (VStr s)
| const_chunk c : fact c -> const_value (VChunk c)
with fact : chunk -> Prop :=
| fact_slots c :
    (forall n w, In (n, Some w) (cslots c) ->
       vvar w = None /\ vnegvals w = [] /\ vnegvars w = [] /\ const_value (vvals w)) ->
    fact c.

(** A pattern whose slot values (required and forbidden) are constants; it may also have
    variables. *)
Definition const_pattern (c : chunk) : Prop :=
  forall n w, In (n, Some w) (cslots c) ->
    const_value (vvals w) /\ (forall v, In v (vnegvals w) -> const_value v).

(** A pattern without variables. *)
Definition no_variables (c : chunk) : Prop :=
  forall n w, In (n, Some w) (cslots c) -> vvar w = None /\ vnegvars w = [].

(** The value asks for nothing when it is used as a requirement: None, the EmptyValue
    object, the empty string, a chunk without slots. *)
Inductive asks_nothing : value -> Prop :=
| asks_none : asks_nothing VNone
| asks_empty : asks_nothing VEmpty
| asks_str : asks_nothing (VStr "")
| asks_chunk ty : asks_nothing (VChunk (MkChunk ty [])).

(** The string 'None' was written explicitly in a slot. *)
Definition writes_none (c : chunk) : Prop :=
  exists n w, In (n, Some w) (cslots c) /\ vvals w = VStr "None".

(** A proper fact: every written slot holds a non-empty constant. *)
Definition proper_fact (c : chunk) : Prop :=
  fact c /\ forall n w, In (n, Some w) (cslots c) -> ~ is_empty (vvals w) /\ ~ asks_nothing (vvals w).

(** ** Constant patterns *)

(** Chunk [d] has the required value [v] in slot [n].  A required 'None' asks that [d] has
    the slot and that it is empty. *)
Definition has_required (d : chunk) (n : string) (v : value) : Prop :=
  (exists u, holds d n u /\ same_value v u) \/
  (v = VStr "None" /\ In n (dkeys (cslots d)) /\
   slot_value d n <> VNone /\ is_empty (slot_value d n)).

(** Chunk [d] has the forbidden value [v] in slot [n]; for an empty [v]: the slot is absent
    or empty. *)
Definition has_forbidden (d : chunk) (n : string) (v : value) : Prop :=
  same_content v (slot_value d n).

(** ** Patterns with variables *)

(** Assignment [f] of values to variables makes the pattern [c] true of [d]: a slot [=x]
    holds what [x] stands for, a slot [~=x] does not, required values are there, forbidden
    ones are not. *)
Definition satisfies (f : string -> option value) (c d : chunk) : Prop :=
  forall n w, In (n, Some w) (cslots c) ->
    (forall x, vvar w = Some x -> x <> "" ->
       exists v, f x = Some v /\ same_content v (slot_value d n)) /\
    (forall x v, In x (vnegvars w) -> f x = Some v -> ~ same_content v (slot_value d n)) /\
    (~ asks_nothing (vvals w) -> same_content (vvals w) (slot_value d n)) /\
    (forall v, In v (vnegvals w) -> ~ same_content v (slot_value d n)).

(** The bindings contain well-formed constants, and no variable is bound to a value that is
    excluded for it. *)
Definition good_bindings (b : bindings) : Prop :=
  (forall x v, dget (bpos b) x = Some v -> const_value v /\ wf_value v) /\
  (forall x l v, dget (bneg b) x = Some l -> In v l -> const_value v /\ wf_value v) /\
  (forall x l v u, dget (bneg b) x = Some l -> In u l -> dget (bpos b) x = Some v ->
     ~ same_content v u).

(** The value [u] occurs neither in the bindings nor as the value of a slot of [d] that the
    pattern [c] mentions. *)
Definition never (u : value) (b : bindings) (c d : chunk) : Prop :=
  (forall x v, dget (bpos b) x = Some v -> v <> u) /\
  (forall x l v, dget (bneg b) x = Some l -> In v l -> v <> u) /\
  (forall n, In n (dkeys (cslots c)) -> slot_value d n <> u).

(** Python's None and the string 'None' do not occur together (None != 'None' although both
    mean an empty slot).  None occurs as the value of a slot that the target's type lacks. *)
Definition one_empty (b : bindings) (c d : chunk) : Prop :=
  never VNone b c d \/ never (VStr "None") b c d.

(** No slot of the pattern demands at once a variable and the value 'None'. *)
Definition none_alone (c : chunk) : Prop :=
  forall n w, In (n, Some w) (cslots c) -> vvals w = VStr "None" -> vvar w = None.

(** Assignment [f] respects the bindings: same values, exclusions obeyed. *)
Definition respects (f : string -> option value) (b : bindings) : Prop :=
  (forall x v, dget (bpos b) x = Some v -> exists v', f x = Some v' /\ same_content v v') /\
  (forall x l u v, dget (bneg b) x = Some l -> In u l -> f x = Some v -> ~ same_content v u).

(** [b'] keeps every value and every exclusion of [b]. *)
Definition keeps (b b' : bindings) : Prop :=
  (forall x v, dget (bpos b) x = Some v -> dget (bpos b') x = Some v) /\
  (forall x l, dget (bneg b) x = Some l -> exists l', dget (bneg b') x = Some l' /\ incl l l').

(** Characters of a variable name, as names. *)
Definition letter_of (y x : string) : Prop := In y (chars x).

(** The names of the pattern's variables cannot be confused with one-letter variables that
    are already bound: each has one letter, or contains a letter that is not bound. *)
Definition names_safe (b : bindings) (c : chunk) : Prop :=
  forall n w x, In (n, Some w) (cslots c) -> vvar w = Some x -> x <> "" ->
    String.length x = 1%nat \/ exists y, letter_of y x /\ dget (bpos b) y = None.

(** Every slot of the pattern that is written demands something other than 'None', or only
    has variables and negations. *)
Definition explicit_pattern (c : chunk) : Prop :=
  forall n w, In (n, Some w) (cslots c) ->
    vvals w = VNone \/ vvals w = VEmpty \/ (~ asks_nothing (vvals w) /\ ~ is_empty (vvals w)).

(** Everything that [c] holds, [d] holds as well. *)
Definition subsumes (c d : chunk) : Prop :=
  forall n v, holds c n v -> exists u, holds d n u /\ same_value v u.
