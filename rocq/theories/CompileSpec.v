(** Specifications for production compilation, written without the functions of Compile.v. *)
From Verif Require Import Base Chunks DecMem Buffers Productions ProdSpec ChunkSpec.
Local Open Scope string_scope.

(** ** Variables *)

(** The variable [x] is mentioned in a slot, as a value or as a forbidden value. *)
Definition mentions_var (x : string) (s : slotval) : Prop :=
  exists w, s = Some w /\ ((vvar w = Some x /\ x <> "") \/ In x (vnegvars w)).
(** Signs of conditions and actions that are about a chunk. *)
Definition about_chunk (code : ascii) : Prop :=
  code = "="%char \/ code = "+"%char \/ code = "@"%char \/ code = "*"%char.
(** The variable [x] occurs in a side of a rule. *)
Definition occurs (x : string) (side : dict content) : Prop :=
  exists code buff c n s, In (String code buff, CChunk c) side /\ about_chunk code /\ In (n, s) (cslots c) /\ mentions_var x s.
(** The same side but for the names of variables, which are changed by [f]. *)
Definition slot_renamed (f : string -> string) (p q : string * slotval) : Prop :=
  fst q = fst p /\
  match snd p, snd q with
  | Some w, Some w' =>
      vvals w' = vvals w /\ vnegvals w' = vnegvals w /\
      (forall y, vvar w' = Some y <-> exists x, vvar w = Some x /\ x <> "" /\ y = f x) /\
      (forall y, In y (vnegvars w') <-> exists x, In x (vnegvars w) /\ y = f x)
  | None, Some w' => vvals w' = VNone /\ vvar w' = None /\ vnegvals w' = [] /\ vnegvars w' = []
  | _, None => False
  end.
Definition cond_renamed (f : string -> string) (p q : string * content) : Prop :=
  fst q = fst p /\
  ((exists c c', snd p = CChunk c /\ snd q = CChunk c' /\ ctype c' = ctype c /\
      Forall2 (slot_renamed f) (cslots c) (cslots c')) \/
   (snd q = snd p /\ forall code buff, fst p = String code buff -> ~ about_chunk code)).

(** ** Firing *)

(** The generator [g] is run to its end from [s] without anything else happening meanwhile. *)
Inductive completes : gen -> st -> st -> Prop :=
| completes_done g s s' ns : resume g s = (s', ns, ODone) -> completes g s s'
| completes_yield g s s1 ns e k s' : resume g s = (s1, ns, OYield e k) -> completes k s1 s' -> completes g s s'.

(** The rule called [r] matches in [s]; its actions lead to [s']. *)
Definition fires (O : oracle) (t : Q) (s : st) (r : string) (s' : st) : Prop :=
  exists ru b, dget (srules s) r = Some ru /\ conds_hold s (rlhs ru) nobind b /\
    completes (g_update O (rrhs ru) t) (set_vars b (set_rule (Some r) s)) s'.

(** [vals]: the slot values recorded while the rule called [r] fired in some state with the rules and
    buffers of [s]. *)
Definition recorded (O : oracle) (s : st) (r : string) (vals : dict slotinfo) : Prop :=
  exists t s0 s1, srules s0 = srules s /\ snames s0 = snames s /\ sp s0 = sp s /\ scur s0 = no_slotvals s0 /\
    fires O t s0 r s1 /\ vals = scur s1.

(** Two states have the same in every buffer. *)
Definition same_buffers (s s' : st) : Prop :=
  forall b, Forall2 (fun c d => forall n, same_content (slot_value c n) (slot_value d n)) (content_of s b) (content_of s' b).
(** Whenever the rule [n] fires, the rules [n1] and [n2] fire one after the other, with the same result. *)
Definition like_parents (O : oracle) (t : Q) (s : st) (n1 n2 n : string) : Prop :=
  forall s', fires O t s n s' -> exists s1 s2, fires O t s n1 s1 /\ fires O t s1 n2 s2 /\ same_buffers s2 s'.
(** Whenever [n1] and [n2] fire one after the other, [n] can fire, with the same result. *)
Definition serves_for (O : oracle) (t : Q) (s : st) (n1 n2 n : string) : Prop :=
  forall s1 s2, fires O t s n1 s1 -> fires O t s1 n2 s2 -> exists s', fires O t s n s' /\ same_buffers s2 s'.

(** ** Rules *)

(** Nothing that was there has gone or changed, but for utilities. *)
Definition same_rule (r r' : rule) : Prop := rlhs r' = rlhs r /\ rrhs r' = rrhs r /\ rreward r' = rreward r.
Definition rules_kept (rs rs' : dict rule) : Prop :=
  forall n r, dget rs n = Some r -> exists r', dget rs' n = Some r' /\ same_rule r r'.

(** *** Identical rules *)

(** What a chunk of a rule says about the slot [n]. *)
Definition said (c : chunk) (n : string) : vv :=
  match dget (cslots c) n with Some (Some w) => w | _ => MkVV VNone None [] [] end.
(** Two chunks of rules say the same about every slot, whatever their types are called.  Values are the
    same if they are both empty or equal. *)
Definition says_same (c d : chunk) : Prop :=
  forall n, (forall x, x <> "" -> (vvar (said c n) = Some x <-> vvar (said d n) = Some x)) /\
    vnegvars (said c n) = vnegvars (said d n) /\
    ((is_empty (vvals (said c n)) /\ is_empty (vvals (said d n))) \/ val_eqb (vvals (said c n)) (vvals (said d n)) = true) /\
    (forall v, In v (vnegvals (said c n)) -> exists u, In u (vnegvals (said d n)) /\ val_eqb v u = true) /\
    (forall u, In u (vnegvals (said d n)) -> exists v, In v (vnegvals (said c n)) /\ val_eqb v u = true).
Definition content_same (a b : content) : Prop :=
  match a, b with
  | CChunk c, CChunk d => NoDup (dkeys (cslots c)) -> NoDup (dkeys (cslots d)) -> says_same c d
  | CDict d, CDict e => NoDup (dkeys d) -> forall k, dget d k = dget e k
  | CCmds l, CCmds m => l = m
  | CNone, CNone => True
  | _, _ => False
  end.
Definition side_same (a b : dict content) : Prop :=
  (forall k c, In (k, c) a -> exists d, dget b k = Some d /\ content_same c d) /\
  (NoDup (dkeys a) -> incl (dkeys b) (dkeys a)).

(** An action on the buffer, a request to it. *)
Definition acts_upon (side : dict content) (buff : string) : Prop := exists code, In (String code buff) (dkeys side).
(** At most one action on each buffer. *)
Definition one_each (side : dict content) : Prop := NoDup (map (fun k => match k with String _ b => b | "" => "" end) (dkeys side)).

(** The contents of the sides are of the right kind. *)
Definition typed_lhs (side : dict content) : Prop :=
  forall k c, In (k, c) side -> exists b, (k = String "=" b /\ exists ch, c = CChunk ch) \/ (k = String "?" b /\ exists d, c = CDict d).
Definition typed_rhs (side : dict content) : Prop :=
  forall k c, In (k, c) side -> exists code b, k = String code b /\
    ((about_chunk code /\ exists ch, c = CChunk ch) \/ code = "!"%char \/ code = "?"%char \/ code = "~"%char).
(** Where both rules test a buffer, the second asks for no slot that the first one's chunk lacks. *)
Definition same_slots (lhs1 lhs2 : dict content) : Prop :=
  forall b c1 c2, In (String "=" b, CChunk c1) lhs1 -> In (String "=" b, CChunk c2) lhs2 -> incl (dkeys (cslots c2)) (dkeys (cslots c1)).

(** *** Pairs that cannot be combined *)

Definition asks (side : dict content) (b : string) (d : dict string) : Prop := In (String "?" b, CDict d) side.
Definition requests_from (side : dict content) (b : string) : Prop := In (String "+" b) (dkeys side).
Definition kind_is (s : st) (b : string) (k : kind) : Prop :=
  exists i bf, dget (snames s) b = Some i /\ nth_error (bufs (sw s)) i = Some bf /\ bkind bf = k.
Definition perceptual (k : kind) : Prop := k = KVisual \/ k = KLocation.
