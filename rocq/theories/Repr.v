(** Texts of chunks: model of varval_repr (/repo/pyactr/utilities.py:39-64) and of
    Chunk.__repr__ and EmptyValue.__repr__ (/repo/pyactr/chunks.py:80-81, 219-232). *)
From Verif Require Export Chunks.
Local Open Scope string_scope.

Section Texts.
  (** str() of a value. *)
  Variable text : value -> string.

  (** utilities.py:39-62: the value, then the variable, the negated values and the negated
      variables, each with its sign.  (negvalues and negvariables are tuples.) *)
  Definition vv_text (w : vv) : string :=
    (if truthy (vvals w) then text (vvals w) else "") ++
    (match vvar w with Some (String a x) => "=" ++ String a x | _ => "" end) ++
    String.concat "" (map (fun v => "~" ++ text v) (vnegvals w)) ++
    String.concat "" (map (fun x => "~=" ++ x) (vnegvars w)).

  (** chunks.py:222-225.  EmptyValue is written as nothing. *)
  Definition slot_text (s : slotval) : string :=
    match s with Some w => vv_text w | None => "" end.

  (** chunks.py:220-232. *)
  Definition add_slot (txt : string) (p : string * slotval) : string :=
    let y := slot_text (snd p) in
    if negb (String.eqb txt "") then txt ++ ", " ++ fst p ++ "= " ++ y
    else if negb (String.eqb (fst p) "") then fst p ++ "= " ++ y
    else y.
  Definition chunk_text_with (c : chunk) : string :=
    ctype c ++ "(" ++ fold_left add_slot (cslots c) "" ++ ")".
End Texts.

(** str(v): None and EmptyValue are written None (chunks.py:80-81). *)
Fixpoint value_text (v : value) : string :=
  match v with
  | VNone | VEmpty => "None"
  | VStr s => s
  | VChunk c => chunk_text_with value_text c
  end.

(** repr(c), str(c). *)
Definition repr (c : chunk) : string := chunk_text_with value_text c.
