(** Model of /repo/pyactr/model.py:79-98, 117-125, 152-201: the buffers of a model and their names.

    Model.v has the dictionaries decmems, __buffers and visbuffers; here are goals and retrievals besides.
    [nmodel]: the attributes of a model.  Buffers are numbers (see Buffers.v); a new buffer gets the next number. *)
From Verif Require Import Base Chunks DecMem Buffers Model.
Local Open Scope string_scope.
Local Open Scope list_scope.

Record nmodel := MkN { ngoals : dict nat; nretrievals : dict nat; nrest : amodel }.

(** model.py:79-98, ACTRModel(). *)
Definition named_model (w : world) : world * nmodel :=
  let g := List.length (bufs w) in
  (fst (new_model w), MkN [("g", g)] [("retrieval", Datatypes.S g)] (snd (new_model w))).
(** model.py:152-164, the property goal, and 117-125, the property retrieval. *)
Definition only (d : dict nat) : res nat := match d with [(_, i)] => Ok i | _ => Err EValue end.
Definition the_goal (n : nmodel) : res nat := only (ngoals n).
Definition the_retrieval (n : nmodel) : res nat := only (nretrievals n).
(** model.py:179-190, set_goal; `model.goal = name` (162-164) is set_goal(name, 0). *)
Definition named_goal (w : world) (n : nmodel) (name : string) (delay : Q) : world * nmodel * nat :=
  let i := List.length (bufs w) in
  (fst (set_goal w (nrest n) name delay), MkN (dset (ngoals n) name i) (nretrievals n) (snd (set_goal w (nrest n) name delay)), i).
(** model.py:166-177, set_retrieval; `model.retrieval = name` (123-125) is the same. *)
Definition named_retrieval (w : world) (n : nmodel) (name : string) : world * nmodel * nat :=
  let i := List.length (bufs w) in
  (fst (set_retrieval w (nrest n) name), MkN (ngoals n) (dset (nretrievals n) name i) (snd (set_retrieval w (nrest n) name)), i).
(** model.py:192-204, visualBuffer.  [dm]: default_harvest. *)
Definition visual_buffers (w : world) (n : nmodel) (what where' : string) (dm : option nat) (finst : nat) : world * nmodel * (nat * nat) :=
  let i := List.length (bufs w) in
  (MkW (mems w) (bufs w ++ [MkBuf KVisual [] dm 0 [] [] None 0; MkBuf KLocation [] dm finst [] [] None 0]) (wreg w),
   MkN (ngoals n) (nretrievals n) (MkModel (adecmems (nrest n)) (abuffers (nrest n)) (dset (dset (avis (nrest n)) what i) where' (Datatypes.S i))),
   (i, Datatypes.S i)).
(** model.py:284-327, simulation(), as in Model.v: it changes __buffers.  Result: the buffers of the simulation. *)
Definition named_simulation (w : world) (n : nmodel) (env : bool) : world * res (nmodel * dict nat) :=
  match prepare_simulation w (nrest n) env with
  | (w', Ok (a, bs, _)) => (w', Ok (MkN (ngoals n) (nretrievals n) a, bs))
  | (w', Err e) => (w', Err e)
  end.
