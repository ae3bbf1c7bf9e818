(** Declarative memories as objects on a heap: what is shared between a memory and its copy.
    Model of /repo/pyactr/declarative.py:13-110 with object identities.  The dictionaries
    (_data, activations), the two Counters and the numpy arrays of times are objects that are
    changed in place or replaced, as in the code. *)
From Verif Require Export DecMem Buffers.
Local Open Scope string_scope.

(** Dictionaries with chunks as keys. *)
Fixpoint kget {A} (l : list (chunk * A)) (c : chunk) : option A :=
  match l with
  | [] => None
  | (c', a) :: l' => if chunk_eqb nobind c' c then Some a else kget l' c
  end.
Fixpoint kset {A} (l : list (chunk * A)) (c : chunk) (a : A) : list (chunk * A) :=
  match l with
  | [] => [(c, a)]
  | (c', a') :: l' => if chunk_eqb nobind c' c then (c', a) :: l' else (c', a') :: kset l' c a
  end.
Fixpoint kdel {A} (l : list (chunk * A)) (c : chunk) : list (chunk * A) :=
  match l with
  | [] => []
  | (c', a) :: l' => if chunk_eqb nobind c' c then l' else (c', a) :: kdel l' c
  end.

(** A DecMem object refers to its dictionaries and Counters (declarative.py:18-22). *)
Record obj := MkObj { odata : nat; orestr : nat; ounrestr : nat; oact : nat }.

(** All objects.  A reference is a position in the list of objects of its type. *)
Record heap := MkHeap {
  arrs : list (list Q);
  datas : list (list (chunk * nat));
  restrs : list (list ((string * value) * nat));
  unrestrs : list (list (value * nat));
  actss : list (list (chunk * Q));
  objs : list obj }.

Definition heap0 : heap := MkHeap [] [] [] [] [] [].

Definition arr (h : heap) (r : nat) : list Q := nth r (arrs h) [].
Definition data_of (h : heap) (o : obj) : list (chunk * nat) := nth (odata o) (datas h) [].
Definition restr_of (h : heap) (o : obj) := nth (orestr o) (restrs h) [].
Definition unrestr_of (h : heap) (o : obj) := nth (ounrestr o) (unrestrs h) [].
Definition acts_of (h : heap) (o : obj) : list (chunk * Q) := nth (oact o) (actss h) [].

(** What a user sees of a memory: chunks with times, Counters, activations. *)
Definition view (h : heap) (o : obj) : decmem * list (chunk * Q) :=
  (MkDM (map (fun p => (fst p, arr h (snd p))) (data_of h o)) (restr_of h o) (unrestr_of h o), acts_of h o).

(** A new array. *)
Definition new_arr (h : heap) (ts : list Q) : heap * nat :=
  (MkHeap (arrs h ++ [ts]) (datas h) (restrs h) (unrestrs h) (actss h) (objs h), List.length (arrs h)).

(** declarative.py:18-22: a new memory with new dictionaries and Counters. *)
Definition new_obj (h : heap) (d : list (chunk * nat)) (r : list ((string * value) * nat))
  (u : list (value * nat)) (a : list (chunk * Q)) : heap :=
  MkHeap (arrs h) (datas h ++ [d]) (restrs h ++ [r]) (unrestrs h ++ [u]) (actss h ++ [a])
    (objs h ++ [MkObj (List.length (datas h)) (List.length (restrs h)) (List.length (unrestrs h)) (List.length (actss h))]).

(** declarative.py:48-66 with an array: the array object itself is stored (lines 58-59). *)
Definition h_setitem (h : heap) (o : obj) (key : chunk) (ref : nat) : heap :=
  let d := data_of h o in
  let fresh := match kget d key with Some _ => false | None => true end in
  MkHeap (arrs h) (upd (datas h) (odata o) (kset d key ref))
    (if fresh then upd (restrs h) (orestr o) (rupdate (restr_of h o) key) else restrs h)
    (if fresh then upd (unrestrs h) (ounrestr o) (uupdate (unrestr_of h o) key) else unrestrs h)
    (actss h) (objs h).

(** declarative.py:79-100: np.append and np.concatenate return new arrays. *)
Definition h_add_times (h : heap) (o : obj) (key : chunk) (ts : list Q) : heap :=
  let (h1, r) := match kget (data_of h o) key with
                 | Some r => (h, r)
                 | None => let (h', r) := new_arr h [] in (h_setitem h' o key r, r)
                 end in
  let (h2, r2) := new_arr h1 (arr h1 r ++ ts) in
  h_setitem h2 o key r2.

(** utilities.py:501-537: the Counters are updated in place. *)
Definition h_strength (h : heap) (o : obj) (j : value) (i : chunk) (r : option string) (oc : bool) : heap :=
  let m := fst (strength (fst (view h o)) j i r oc) in
  MkHeap (arrs h) (datas h) (upd (restrs h) (orestr o) (restr m)) (upd (unrestrs h) (ounrestr o) (unrestr m))
    (actss h) (objs h).

(** declarative.py:68-77; AttributeError for an absent chunk. *)
Definition h_activation (h : heap) (o : obj) (c : chunk) (q : Q) : heap * res unit :=
  match kget (data_of h o) c with
  | Some _ => (MkHeap (arrs h) (datas h) (restrs h) (unrestrs h) (upd (actss h) (oact o) (kset (acts_of h o) c q)) (objs h), Ok tt)
  | None => (h, Err EAttr)
  end.

(** declarative.py:32-33. *)
Definition h_del (h : heap) (o : obj) (c : chunk) : heap * res unit :=
  match kget (data_of h o) c with
  | Some _ => (MkHeap (arrs h) (upd (datas h) (odata o) (kdel (data_of h o) c)) (restrs h) (unrestrs h) (actss h) (objs h), Ok tt)
  | None => (h, Err EKey)
  end.

(** declarative.py:102-110.  DecMem(self._data.copy()) stores the same array objects in a new
    dictionary, entry by entry; activations and Counters are new copies.  (The empty Counters
    and dictionary that the constructor makes first are dropped at once and not modelled.) *)
Definition h_copy (h : heap) (o : obj) : heap :=
  new_obj h (fold_left (fun d p => kset d (fst p) (snd p)) (data_of h o) []) (restr_of h o) (unrestr_of h o) (acts_of h o).

(** Assignment to an element of an array, dm[c][k] = t. *)
Definition h_inplace (h : heap) (o : obj) (c : chunk) (k : nat) (t : Q) : heap * res unit :=
  match kget (data_of h o) c with
  | Some r => if (k <? List.length (arr h r))%nat
              then (MkHeap (upd (arrs h) r (upd (arr h r) k t)) (datas h) (restrs h) (unrestrs h) (actss h) (objs h), Ok tt)
              else (h, Err EIndex)
  | None => (h, Err EKey)
  end.

(** Calls by a user.  The first number is the memory that the call is made on.  [HAlias m c m' c']
    is dm[c] = dm'[c']. *)
Inductive hop :=
| HNew
| HAdd (m : nat) (c : chunk) (t : Q)
| HAddTimes (m : nat) (c : chunk) (ts : list Q)
| HSet (m : nat) (c : chunk) (ts : list Q)
| HAlias (m : nat) (c : chunk) (m' : nat) (c' : chunk)
| HDel (m : nat) (c : chunk)
| HStrength (m : nat) (j : value) (i : chunk) (r : option string) (oc : bool)
| HActivation (m : nat) (c : chunk) (q : Q)
| HCopy (m : nat)
| HInplace (m : nat) (c : chunk) (k : nat) (t : Q).

Definition hstep (h : heap) (op : hop) : heap :=
  let on m f := match nth_error (objs h) m with Some o => f o | None => h end in
  match op with
  | HNew => new_obj h [] [] [] []
  | HAdd m c t => on m (fun o => h_add_times h o c [round4 t])
  | HAddTimes m c ts => on m (fun o => h_add_times h o c ts)
  | HSet m c ts => on m (fun o => let (h1, r) := new_arr h ts in h_setitem h1 o c r)
  | HAlias m c m' c' =>
      on m (fun o => on m' (fun o' => match kget (data_of h o') c' with
                                      | Some r => h_setitem h o c r
                                      | None => h
                                      end))
  | HDel m c => on m (fun o => fst (h_del h o c))
  | HStrength m j i r oc => on m (fun o => h_strength h o j i r oc)
  | HActivation m c q => on m (fun o => fst (h_activation h o c q))
  | HCopy m => on m (fun o => h_copy h o)
  | HInplace m c k t => on m (fun o => fst (h_inplace h o c k t))
  end.
Definition hrun (ops : list hop) (h : heap) : heap := fold_left hstep ops h.
