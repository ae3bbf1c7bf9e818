(** Forgetting: removal of chunks from declarative memory, /repo/pyactr/declarative.py:32-33
    ([DecMem.__delitem__]) and the methods that collections.abc.MutableMapping builds on it. *)
From Verif Require Export DecMem.

(** [del self._data[key]]: the entry with an equal key goes; KeyError if there is none. *)
Fixpoint cdel (l : list (chunk * list Q)) (c : chunk) : option (list (chunk * list Q)) :=
  match l with
  | [] => None
  | (c', ts) :: l' =>
      if chunk_eqb nobind c' c then Some l'
      else match cdel l' c with Some l'' => Some ((c', ts) :: l'') | None => None end
  end.

(** declarative.py:32-33.  None: KeyError.  The two Counters are left as they are. *)
Definition dm_del (m : decmem) (c : chunk) : option decmem :=
  match cdel (dmdata m) c with
  | Some l => Some (MkDM l (restr m) (unrestr m))
  | None => None
  end.

(** collections.abc.MutableMapping.pop without default: look the value up, then delete. *)
Definition dm_pop (m : decmem) (c : chunk) : option (list Q * decmem) :=
  match dm_times m c, dm_del m c with
  | Some ts, Some m' => Some (ts, m')
  | _, _ => None
  end.

(** collections.abc.MutableMapping.popitem: the first key of the iteration. *)
Definition dm_popitem (m : decmem) : option (chunk * list Q * decmem) :=
  match dmdata m with
  | [] => None
  | (c, _) :: _ => match dm_pop m c with Some (ts, m') => Some (c, ts, m') | None => None end
  end.

(** collections.abc.MutableMapping.clear: popitem until KeyError.  Every popitem removes one
    entry, so as many rounds as there are entries are enough. *)
Fixpoint popall (n : nat) (m : decmem) : decmem :=
  match n with
  | O => m
  | S n' => match dm_popitem m with Some (_, _, m') => popall n' m' | None => m end
  end.
Definition dm_clear (m : decmem) : decmem := popall (List.length (dmdata m)) m.
