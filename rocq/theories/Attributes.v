(** Model of /repo/pyactr/chunks.py:54-66, 91-93, 151, 157-163, 171-178, 212-217: reading the slots of a chunk.

    A chunk keeps its slots in a namedtuple, self.actrchunk, whose fields have the names of the slots with
    an underscore at the end (chunks.py:28-31). *)
From Verif Require Import Base Chunks.
Local Open Scope string_scope.
Local Open Scope list_scope.

(** self.actrchunk: its fields and their values. *)
Definition actrchunk (c : chunk) : list (string * slotval) := map (fun p => (fst p ++ "_", snd p))%string (cslots c).
(** re.sub("_$", "", x).  (A field name contains no newline.) *)
Fixpoint without_underscore (x : string) : string :=
  match x with
  | "" => ""
  | String a "" => if Ascii.eqb a "_" then "" else x
  | String a x' => String a (without_underscore x')
  end.

(** The attributes that every chunk has besides its slots, apart from those that begin with an underscore:
    EmptyValue (66), typename, boundvars (92-93), actrchunk (151), match (246), removeempty (320), removeunused (342). *)
Definition own_names : list string := ["EmptyValue"; "typename"; "boundvars"; "actrchunk"; "match"; "removeempty"; "removeunused"].
(** chunk.name.  Python looks for an attribute of the object or the class first and calls __getattr__ (171-175)
    only if there is none.  [Private]: names that begin with an underscore are not followed further. *)
Inductive reading := Own (n : string) | Slot (v : slotval) | Private.
Definition getattribute (c : chunk) (n : string) : res reading :=
  if smem n own_names then Ok (Own n)
  else match n with
       | String "_" _ => Ok Private
       | _ => match dget (actrchunk c) (n ++ "_") with Some v => Ok (Slot v) | None => Err EAttr end
       end.

(** chunks.py:212-214, iteration. *)
Definition iterate (c : chunk) : list (string * slotval) := map (fun p => (without_underscore (fst p), snd p)) (actrchunk c).
(** chunks.py:157-163, _asdict: a dictionary comprehension. *)
Definition asdict (c : chunk) : dict slotval := fold_left (fun d p => dset d (without_underscore (fst p)) (snd p)) (actrchunk c) [].
(** chunks.py:177-178, chunk[pos], with Python's negative positions. *)
Definition getitem (c : chunk) (pos : Z) : res (string * slotval) :=
  let n := Z.of_nat (List.length (actrchunk c)) in
  let k := if Z.ltb pos 0 then (pos + n)%Z else pos in
  if Z.ltb k 0 then Err EIndex
  else match nth_error (actrchunk c) (Z.to_nat k) with Some p => Ok (without_underscore (fst p), snd p) | None => Err EIndex end.
(** chunks.py:216-217, len(chunk). *)
Definition len (c : chunk) : nat := List.length (actrchunk c).
