(** Specification of visual search (C41, C42, C70), after the documentation of the search
    requests in vision.py:90-206 and utilities.py:21-27. *)
From Coq Require Import DecimalString DecimalZ Qround Qabs.
From Verif Require Import Base Chunks Buffers ChunkSpec SplitFacts ResolveFacts ModifyFacts.
Local Open Scope string_scope.

(** ** Places *)

Definition numeral (z : Z) : string := NilZero.string_of_int (Z.to_int z).
(** The pixel of a coordinate: cut off after the point. *)
Definition pixel (q : Q) : Z := if Qle_bool 0 q then Qfloor q else Qceiling q.
Definition spot (st : stimulus) : Z * Z := (pixel (stx st), pixel (sty st)).

(** What can be asked of one coordinate, and how it is written in a request. *)
Inductive place := Anywhere | At (n : Z) | Below (n : Z) | Above (n : Z) | Lowest | Highest | Nearest | NearestHere.
Definition place_text (p : place) : option string :=
  match p with
  | Anywhere => None
  | At n => Some (numeral n)
  | Below n => Some ("<" ++ numeral n)
  | Above n => Some (">" ++ numeral n)
  | Lowest => Some "lowest"
  | Highest => Some "highest"
  | Nearest => Some "closest"
  | NearestHere => Some "onewayclosest"
  end.

(** The coordinate is where it should be. *)
Definition lies (p : place) (z : Z) : Prop :=
  match p with
  | At n => z = n
  | Below n => (z < n)%Z
  | Above n => (n < z)%Z
  | _ => True
  end.

Definition sq (a b : Q) : Q := ((a - b) * (a - b))%Q.
(** How far the place is from what was asked for by a superlative; less is better.  [this] and [other]: the
    two coordinates of the focus and of the place. *)
Definition penalty (p : place) (this other : Q * Z) : Q :=
  match p with
  | Lowest => inject_Z (snd this)
  | Highest => - inject_Z (snd this)
  | Nearest => sq (fst this) (inject_Z (snd this)) + sq (fst other) (inject_Z (snd other))
  | NearestHere => Qabs (fst this - inject_Z (snd this))
  | _ => 0
  end.
Definition superlative (p : place) : bool :=
  match p with Lowest | Highest | Nearest | NearestHere => true | _ => false end.
Definition penalty_x (p : place) (f : Q * Q) (z : Z * Z) : Q := penalty p (fst f, fst z) (snd f, snd z).
Definition penalty_y (p : place) (f : Q * Q) (z : Z * Z) : Q := penalty p (snd f, snd z) (fst f, fst z).

(** ** Requests *)

(** The request asks for the text [s] in slot [n], or for nothing. *)
Inductive wants (o : chunk) (bs : bindings) (n : string) : option string -> Prop :=
| wants_nothing : unmentioned o n -> wants o bs n None
| wants_text w s : mentions o n w -> ResolveFacts.positive bs w (VStr s) -> vnegvals w = [] -> vnegvars w = [] ->
    wants o bs n (Some s).

(** A request that only asks for texts: no negations and nothing but texts. *)
Definition texts_only (o : chunk) (bs : bindings) : Prop :=
  names_distinct o /\ NoDup (dkeys (bpos bs)) /\ marks_free bs o /\ forall n, exists x, wants o bs n x.

(** The request for a location with text [t] at [px], [py]. *)
Definition asks_for (o : chunk) (bs : bindings) (t : option string) (px py : place) : Prop :=
  wants o bs "value" t /\ wants o bs "screen_x" (place_text px) /\ wants o bs "screen_y" (place_text py).

(** ** Objects *)

(** A feature that can be seen without attending to the object. *)
Definition shows (st : stimulus) (n s : string) : Prop :=
  exists l, stvisible st = Some l /\ In n l /\ ((n = "text" /\ sttext st = Some s) \/ In (n, s) (stfeats st)).
(** A dictionary: every feature once, text apart; visible features are proper texts. *)
Definition proper_stim (st : stimulus) : Prop :=
  NoDup (dkeys (stfeats st)) /\ ~ In "text" (dkeys (stfeats st)) /\
  forall n s, shows st n s -> plain_text s /\ s <> "" /\ s <> "None".

Definition attended (recent : list stimulus) (st : stimulus) : Prop := exists s, In s recent /\ stim_eqb s st = true.
(** The test of attention; with no finsts nothing is known about it. *)
Definition attention_ok (extra : dict string) (finst : nat) (recent : list stimulus) (st : stimulus) : Prop :=
  match dget extra "attended" with
  | None => True
  | Some a => finst = 0%nat \/ if String.eqb a "False" then ~ attended recent st else attended recent st
  end.

(** The object is one that was asked for, apart from superlatives. *)
Definition admissible (o : chunk) (bs : bindings) (extra : dict string) (finst : nat) (recent : list stimulus)
  (t : option string) (px py : place) (st : stimulus) : Prop :=
  attention_ok extra finst recent st /\
  (forall s, t = Some s -> sttext st = Some s) /\
  lies px (fst (spot st)) /\ lies py (snd (spot st)) /\
  forall n s, shows st n s -> wants o bs n (Some s).

(** The chunk is the location of the object. *)
Definition locates (c : chunk) (st : stimulus) : Prop :=
  holds c "screen_x" (VStr (numeral (fst (spot st)))) /\ holds c "screen_y" (VStr (numeral (snd (spot st)))) /\
  (forall n s, shows st n s -> n <> "screen_x" -> n <> "screen_y" -> holds c n (VStr s)) /\
  (forall n v, holds c n v -> n = "screen_x" \/ n = "screen_y" \/ exists s, v = VStr s /\ shows st n s).
