(** Declarative memory: model of /repo/pyactr/declarative.py (class DecMem) and of the cached
    fan counts in /repo/pyactr/utilities.py (find_chunks, calculate_strength_association). *)
From Verif Require Export Chunks.
Local Open Scope string_scope.

(** Times are rationals (seconds).  [round4 t] is Python's round(t, 4). *)
Definition round4 (t : Q) : Q := roundtime t # 10000.

(** declarative.py:18-27.  [dmdata]: the dictionary _data from chunks to arrays of times, in
    insertion order.  [restr], [unrestr]: the two Counters used for associative strength.
    The dictionary activations (manually set activations, lines 22 and 68-77) only enters the
    base-level formula and is not part of this record. *)
Record decmem := MkDM {
  dmdata : list (chunk * list Q);
  restr : list ((string * value) * nat);
  unrestr : list (value * nat) }.

Definition dm_empty : decmem := MkDM [] [] [].

(** Dictionary lookup with a chunk as key: equal hashes and ==, which for chunks is the same
    thing (chunks.py:166-170).  Chunks stored in memory have empty boundvars. *)
Fixpoint cget (l : list (chunk * list Q)) (c : chunk) : option (list Q) :=
  match l with
  | [] => None
  | (c', ts) :: l' => if chunk_eqb nobind c' c then Some ts else cget l' c
  end.

(** [d[c] = ts]: an equal key keeps its place and its identity. *)
Fixpoint cset (l : list (chunk * list Q)) (c : chunk) (ts : list Q) : list (chunk * list Q) :=
  match l with
  | [] => [(c, ts)]
  | (c', ts') :: l' => if chunk_eqb nobind c' c then (c', ts) :: l' else (c', ts') :: cset l' c ts
  end.

Definition dm_times (m : decmem) (c : chunk) : option (list Q) := cget (dmdata m) c.
Definition dm_mem (m : decmem) (c : chunk) : bool :=
  match dm_times m c with Some _ => true | None => false end.

(** ** Counters *)

Fixpoint ucount (l : list (value * nat)) (v : value) : option nat :=
  match l with
  | [] => None
  | (v', n) :: l' => if key_eqb v' v then Some n else ucount l' v
  end.
(** Counter.update([v]) for a key that is present. *)
Fixpoint uincr (l : list (value * nat)) (v : value) : list (value * nat) :=
  match l with
  | [] => []
  | (v', n) :: l' => if key_eqb v' v then (v', S n) :: l' else (v', n) :: uincr l' v
  end.
Fixpoint rcount (l : list ((string * value) * nat)) (s : string) (v : value) : option nat :=
  match l with
  | [] => None
  | ((s', v'), n) :: l' => if String.eqb s' s && key_eqb v' v then Some n else rcount l' s v
  end.
Fixpoint rincr (l : list ((string * value) * nat)) (s : string) (v : value)
  : list ((string * value) * nat) :=
  match l with
  | [] => []
  | ((s', v'), n) :: l' =>
      if String.eqb s' s && key_eqb v' v then ((s', v'), S n) :: l' else ((s', v'), n) :: rincr l' s v
  end.

(** declarative.py:50-52: for every slot with a (true) value that is already counted. *)
Definition uupdate (l : list (value * nat)) (key : chunk) : list (value * nat) :=
  fold_left (fun acc p =>
    let v := vvals (splitting (snd p)) in
    if truthy v then (match ucount acc v with Some _ => uincr acc v | None => acc end) else acc)
    (cslots key) l.
(** declarative.py:54-56. *)
Definition rupdate (l : list ((string * value) * nat)) (key : chunk)
  : list ((string * value) * nat) :=
  fold_left (fun acc p =>
    let v := vvals (splitting (snd p)) in
    if truthy v then (match rcount acc (fst p) v with Some _ => rincr acc (fst p) v | None => acc end)
    else acc)
    (cslots key) l.

(** declarative.py:48-66, dm[key] = time, for a chunk [key] and an array of times.  The tests
    for non-empty Counters (lines 49 and 53) make no difference: an empty Counter is left
    empty by the loops. *)
Definition dm_setitem (m : decmem) (key : chunk) (ts : list Q) : decmem :=
  let fresh := negb (dm_mem m key) in
  MkDM (cset (dmdata m) key ts)
       (if fresh then rupdate (restr m) key else restr m)
       (if fresh then uupdate (unrestr m) key else unrestr m).

(** declarative.py:61-62: a number is rounded and put in a one-element array. *)
Definition dm_setitem_scalar (m : decmem) (key : chunk) (t : Q) : decmem := dm_setitem m key [round4 t].

(** MutableMapping.setdefault(key, empty array): sets the item only if it is missing. *)
Definition dm_setdefault (m : decmem) (key : chunk) : decmem * list Q :=
  match dm_times m key with
  | Some ts => (m, ts)
  | None => (dm_setitem m key [], [])
  end.

(** declarative.py:79-100, add(element, time) with an iterable of times (lines 87-88). *)
Definition dm_add_times (m : decmem) (key : chunk) (ts : list Q) : decmem :=
  let '(m1, old) := dm_setdefault m key in dm_setitem m1 key (old ++ ts).

(** With a number (lines 95-96). *)
Definition dm_add (m : decmem) (key : chunk) (t : Q) : decmem := dm_add_times m key [round4 t].

(** With an unhashable collection of chunks (lines 97-100; a list or a set). *)
Definition dm_add_all (m : decmem) (keys : list chunk) (t : Q) : decmem :=
  fold_left (fun m c => dm_add m c t) keys m.

(** declarative.py:102-110.  DecMem(self._data.copy()) sets every item again, in order, in an
    empty memory; the Counters are copied afterwards. *)
Definition dm_update (m : decmem) (data : list (chunk * list Q)) : decmem :=
  fold_left (fun m p => dm_setitem m (fst p) (snd p)) data m.
Definition dm_copy (m : decmem) : decmem :=
  MkDM (dmdata (dm_update dm_empty (dmdata m))) (restr m) (unrestr m).

(** declarative.py:23-27, DecMem(data) for a collection of chunks.  MutableMapping.update first
    takes each element apart as a pair [key, value]: a chunk with exactly two slots can be
    taken apart, and its key is not a chunk (ACTRError, line 66); any other chunk raises
    ValueError, and then all chunks are stored with time 0. *)
Definition dm_init (cs : list chunk) : res decmem :=
  match cs with
  | [] => Ok dm_empty
  | c :: _ =>
      if Nat.eqb (List.length (cslots c)) 2 then Err EActr
      else Ok (fold_left (fun m c => dm_setitem_scalar m c 0) cs dm_empty)
  end.

(** ** Associative strength *)

(** utilities.py:481-499, find_chunks: the slots with content, as a dictionary. *)
Definition find_chunks (c : chunk) (only_chunks : bool) : list (string * value) :=
  flat_map (fun p =>
    let v := vvals (splitting (snd p)) in
    match v with
    | VNone | VEmpty => []
    | VStr s => if String.eqb s "None" then [] else if only_chunks then [] else [(fst p, v)]
    | VChunk _ => [(fst p, v)]
    end) (cslots c).

(** Number of slots holding [v] in a chunk / in memory (utilities.py:516-520, 528-531). *)
Definition slots_with (v : value) (c : chunk) : nat :=
  List.length (filter (fun p => let u := vvals (splitting (snd p)) in truthy u && val_eqb v u) (cslots c)).
Definition slots_with_in (s : string) (v : value) (c : chunk) : nat :=
  List.length (filter (fun p => let u := vvals (splitting (snd p)) in
                  String.eqb (fst p) s && (truthy u && val_eqb v u)) (cslots c)).
Definition dm_slots (m : decmem) (v : value) : nat :=
  fold_right (fun p n => slots_with v (fst p) + n)%nat 0%nat (dmdata m).
Definition dm_slots_in (m : decmem) (s : string) (v : value) : nat :=
  fold_right (fun p n => slots_with_in s v (fst p) + n)%nat 0%nat (dmdata m).

(** utilities.py:501-537.  The first component is the memory with its Counters, the second is
    None if the function returns 0 at once, and otherwise the two counts (slots_j, slots_ij)
    of the formula S - ln(slots_j / max(1, slots_ij)).  [restricted] is the slot name, or
    None/'' for no restriction.  [j] is the source, [i] the chunk that receives activation. *)
Definition strength (m : decmem) (j : value) (i : chunk) (restricted : option string)
  (only_chunks : bool) : decmem * option (nat * nat) :=
  let dic := find_chunks i only_chunks in
  let among := existsb (fun p => val_eqb (snd p) j) dic in
  let same := val_eqb j (VChunk i) in
  let slots_ij := List.length (filter (fun p => val_eqb (snd p) j) dic) in
  if negb same && negb among then (m, None) else
  match var_truthy restricted with
  | Some s =>
      if existsb (fun p => String.eqb (fst p) s && val_eqb (snd p) j) dic then
        match rcount (restr m) s j with
        | Some n => (m, Some (n, slots_ij))
        | None =>
            let n := S (dm_slots_in m s j) in
            (MkDM (dmdata m) (restr m ++ [((s, j), n)]) (unrestr m), Some (n, slots_ij))
        end
      else (m, None)
  | None =>
      match ucount (unrestr m) j with
      | Some n => (m, Some (n, slots_ij))
      | None =>
          let n := S (dm_slots m j) in
          (MkDM (dmdata m) (restr m) (unrestr m ++ [(j, n)]), Some (n, slots_ij))
      end
  end.
