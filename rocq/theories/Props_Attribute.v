(** C110: the slots of a chunk are read by their names. *)
From Verif Require Import Base BaseFacts Chunks ChunkSpec ChunkFacts TypeFacts Attributes AttributeFacts.
Local Open Scope string_scope.
Local Open Scope list_scope.

(** chunk.slot is not the slot if a chunk has an attribute of that name, although chunktype and makechunk accept such a slot. *)
Theorem C110_refuted : exists r c v, aw_made = Ok (r, c) /\ wf_chunk c /\ In ("match", v) (cslots c) /\ getattribute c "match" = Ok (Own "match").
Proof. exact attr_refuted. Qed.
Print Assumptions C110_refuted.
(** There are seven such names; a slot with any other name is read. *)
Theorem C110_slot_partial : forall c n v, wf_chunk c -> In (n, v) (cslots c) -> valid_field n = true ->
  ~ In n ["EmptyValue"; "typename"; "boundvars"; "actrchunk"; "match"; "removeempty"; "removeunused"] -> getattribute c n = Ok (Slot v).
Proof. exact attr_slot. Qed.
Print Assumptions C110_slot_partial.
(** What is no slot raises AttributeError. *)
Theorem C110_missing_partial : forall c n, valid_field n = true ->
  ~ In n ["EmptyValue"; "typename"; "boundvars"; "actrchunk"; "match"; "removeempty"; "removeunused"] -> ~ In n (dkeys (cslots c)) -> getattribute c n = Err EAttr.
Proof. exact attr_missing. Qed.
Print Assumptions C110_missing_partial.
(** Iterating over a chunk, _asdict, len and positions from both ends give all slots, whatever their names. *)
Theorem C110_dict : forall c, wf_chunk c -> asdict c = cslots c.
Proof. exact asdict_slots. Qed.
Print Assumptions C110_dict.
Theorem C110_iteration : forall c, iterate c = cslots c /\ len c = List.length (cslots c).
Proof. exact (fun c => conj (iterate_slots c) (len_slots c)). Qed.
Print Assumptions C110_iteration.
Theorem C110_positions : forall c i p, nth_error (cslots c) i = Some p -> getitem c (Z.of_nat i) = Ok p /\ getitem c (Z.of_nat i - Z.of_nat (List.length (cslots c))) = Ok p.
Proof. exact item_there. Qed.
Print Assumptions C110_positions.
Theorem C110_outside : forall c pos, (pos < - Z.of_nat (List.length (cslots c)) \/ Z.of_nat (List.length (cslots c)) <= pos)%Z -> getitem c pos = Err EIndex.
Proof. exact item_outside. Qed.
Print Assumptions C110_outside.
Example C110_used : exists r c, aw_made = Ok (r, c) /\ wf_chunk c /\ valid_field "action" = true /\ ~ In "action" own_names /\ getattribute c "action" = Ok (Slot (plain (VStr "go"))) /\
  getitem c (-1) = Ok ("match", plain (VStr "yes")) /\ getattribute c "other" = Err EAttr.
Proof. exact attr_used. Qed.
