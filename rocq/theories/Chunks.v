(** Model of /repo/pyactr/chunks.py and of the chunk helpers of
    /repo/pyactr/utilities.py (stringsplitting, splitting, check_bound_vars). *)
From Verif Require Export Base.
Local Open Scope string_scope.
#[local] Set Implicit Arguments.

(** * Data *)

(** utilities.py:37, VarvalClass: the content of a slot that was written by the user or
    computed by a rule.  [vvals] values, [vvar] variables, [vnegvals] negvalues,
    [vnegvars] negvariables.  (At most one value and one variable; negations are tuples.) *)
Record vv_ (V : Type) := MkVV {
  vvals : V;
  vvar : option string;
  vnegvals : list V;
  vnegvars : list string }.
Arguments MkVV {V}.

(** chunks.py:54-155: a chunk is its typename and its slots in namedtuple order.  A slot
    holds either the EmptyValue object ([None] here) or a VarvalClass ([Some]).  Slot names
    are stored without the trailing "_" that the code adds (chunks.py:131) and strips
    (chunks.py:178, 214).  The mutable attribute [boundvars] is passed separately. *)
Record chunk_ (V : Type) := MkChunk {
  ctype : string;
  cslots : list (string * option (vv_ V)) }.
Arguments MkChunk {V}.

(** Values found in slots and in variable bindings: Python's None, the EmptyValue object
    (chunks.py:63-81), a string, a chunk.  (Chunk.__init__ turns every other hashable value
    into a string, chunks.py:115; such inputs are represented by that string.) *)
Inductive value :=
| VNone
| VEmpty
| VStr (s : string)
| VChunk (c : chunk_ value).

Notation vv := (vv_ value).
Notation slotval := (option (vv_ value)).
Notation chunk := (chunk_ value).

(** A slot of a fact: one plain value. *)
Definition plain (v : value) : slotval := Some (MkVV v None [] []).

(** utilities.py:145-152, splitting: EmptyValue == None, so an empty slot becomes the
    VarvalClass without any content; anything else is returned as it is. *)
Definition splitting (s : slotval) : vv :=
  match s with
  | None => MkVV VNone None [] []
  | Some w => w
  end.

(** Python truthiness of a value: None and "" are false, a chunk is false when it has no
    slots (Chunk.__len__, chunks.py:216-217), EmptyValue is true (no __len__/__bool__). *)
Definition truthy (v : value) : bool :=
  match v with
  | VNone => false
  | VEmpty => true
  | VStr s => negb (String.eqb s "")
  | VChunk c => match cslots c with [] => false | _ => true end
  end.

(** Truthiness of VarvalClass.variables (None or a string). *)
Definition var_truthy (o : option string) : option string :=
  match o with
  | Some "" => None
  | Some x => Some x
  | None => None
  end.

(** [v == EmptyValue()] where [v] is not a chunk (chunks.py:71-75); a chunk is not equal to
    it (hash comparison, chunks.py:165-169, with None's hash). *)
Definition emptyish (v : value) : bool :=
  match v with
  | VNone | VEmpty => true
  | VStr s => String.eqb s "None"
  | VChunk _ => false
  end.

(** * Hashing and equality *)

(** chunks.py:180-210: the keys used inside the tuples that are hashed. *)
Inductive hkind := KVariables | KNegvariables | KValues | KNegvalues.

(** What is fed to Python's [hash]: hash(None) = hash(EmptyValue()), the hash of a string,
    or the hash of a chunk, i.e. of the tuple of its entries.  Identifying a hash with
    the structure below assumes that [hash] has no collisions. *)
Inductive hval :=
| HNone
| HStr (s : string)
| HChunk (l : list (string * (hkind * hval))).

Notation entry := (string * (hkind * hval))%type.

Definition hkind_eqb (a b : hkind) : bool :=
  match a, b with
  | KVariables, KVariables | KNegvariables, KNegvariables
  | KValues, KValues | KNegvalues, KNegvalues => true
  | _, _ => false
  end.

Fixpoint hval_eqb (a b : hval) {struct a} : bool :=
  match a, b with
  | HNone, HNone => true
  | HStr s, HStr t => String.eqb s t
  | HChunk l, HChunk m =>
      (fix go (l m : list entry) {struct l} : bool :=
         match l, m with
         | [], [] => true
         | (s, (k, x)) :: l', (t, (k', y)) :: m' =>
             String.eqb s t && hkind_eqb k k' && hval_eqb x y && go l' m'
         | _, _ => false
         end) l m
  | _, _ => false
  end.

(** A Python set of hashed values, in insertion order. *)
Fixpoint hdedup_from (seen l : list hval) : list hval :=
  match l with
  | [] => []
  | a :: l' => if existsb (hval_eqb a) seen then hdedup_from seen l'
               else a :: hdedup_from (a :: seen) l'
  end.
Definition hdedup (l : list hval) : list hval := hdedup_from [] l.

(** The characters of a string, as one-character strings (Python iteration over str). *)
Fixpoint chars (s : string) : list string :=
  match s with
  | "" => []
  | String c s' => String c "" :: chars s'
  end.

(** chunks.py:183-207, body of hash_func for one slot [n] with VarvalClass [w].
    [h] hashes a value, [b x] is the hash of [boundvars["=" + x]] if that key exists.
    Note the loop at line 189: [variables] is a string, so it is iterated character by
    character; [negvariables] is a tuple, so it is iterated name by name.
    Sets are iterated in insertion order here; the real order is arbitrary. *)
Section SlotEntries.
  Variable h : value -> hval.
  Variable b : string -> option hval.

  Definition unbound (kd : hkind) (n : string) (names : list string) : list entry :=
    flat_map (fun x => match b x with Some _ => [] | None => [(n, (kd, HStr x))] end) names.
  Definition bound (names : list string) : list hval :=
    flat_map (fun x => match b x with Some v => [v] | None => [] end) names.

  Definition var_chars (o : option string) : list string :=
    match o with Some x => chars x | None => [] end.

  Definition slot_entries (n : string) (w : vv) : list entry :=
    unbound KVariables n (var_chars (vvar w))
    ++ unbound KNegvariables n (vnegvars w)
    ++ map (fun x => (n, (KValues, x)))
         (hdedup (bound (var_chars (vvar w))
                  ++ (if emptyish (vvals w) then [] else [h (vvals w)])))
    ++ map (fun x => (n, (KNegvalues, x)))
         (hdedup (bound (vnegvars w) ++ map h (vnegvals w))).

  (** chunks.py:320-340, removeempty, for one slot: is the slot kept? *)
  Definition kept_nonempty (s : slotval) : bool :=
    match s with
    | None => false
    | Some w =>
        negb (emptyish (vvals w))
        || (match var_truthy (vvar w) with Some _ => true | None => false end)
        || (match vnegvars w with [] => false | _ => true end)
        || (match vnegvals w with [] => false | _ => true end)
    end.

  (** chunks.py:180-210, the tuple hashed by Chunk.__hash__. *)
  Definition sig_with (slots : list (string * slotval)) : list entry :=
    flat_map (fun p => match snd p with
                       | None => []
                       | Some w => if kept_nonempty (snd p) then slot_entries (fst p) w else []
                       end) slots.
End SlotEntries.

(** Hash of a value.  A chunk inside another chunk has no bound variables of its own
    (boundvars is only ever set on the pattern under test: productions.py:991,
    buffers and memories never touch it). *)
Fixpoint hash_value (v : value) : hval :=
  match v with
  | VNone | VEmpty => HNone
  | VStr s => HStr s
  | VChunk c => HChunk (sig_with hash_value (fun _ => None) (cslots c))
  end.

(** Variable bindings: the attribute [boundvars] of the pattern under test and the
    dictionaries [actrvariables] passed between the parts of a rule.  [bpos] holds the keys
    "=x" (stored as "x"), [bneg] the keys "~=x" with their sets of excluded values.
    Buffer names are stored in [bpos] as well (productions.py:995). *)
Record bindings := MkB { bpos : dict value; bneg : dict (list value) }.
Definition nobind : bindings := MkB [] [].

Definition bhash (b : bindings) (x : string) : option hval :=
  match dget (bpos b) x with Some v => Some (hash_value v) | None => None end.

(** The tuple hashed by [hash(c)] when [c.boundvars] is [b]. *)
Definition sig (b : bindings) (c : chunk) : list entry :=
  sig_with hash_value (bhash b) (cslots c).

(** Python [==] on values.  Strings compare by content; None/EmptyValue/'None' as in
    chunks.py:71-75; chunks by hash (chunks.py:165-169). *)
Definition val_eqb (v w : value) : bool :=
  match v, w with
  | VNone, VNone | VNone, VEmpty | VEmpty, VNone | VEmpty, VEmpty => true
  | VEmpty, VStr s | VStr s, VEmpty => String.eqb s "None"
  | VStr s, VStr t => String.eqb s t
  | VChunk _, VChunk _ => hval_eqb (hash_value v) (hash_value w)
  | _, _ => false
  end.

(** chunks.py:165-169, [self == other]; [b] is self.boundvars, other has none. *)
Definition chunk_eqb (b : bindings) (c d : chunk) : bool :=
  hval_eqb (HChunk (sig b c)) (HChunk (sig nobind d)).

(** * Matching *)

(** chunks.py:256-262: the value of slot [n] in the other chunk: None when the slot does
    not exist, the EmptyValue object when it is unset, otherwise the [values] part. *)
Definition slot_value (c : chunk) (n : string) : value :=
  match dget (cslots c) n with
  | None => VNone
  | Some None => VEmpty
  | Some (Some w) => vvals w
  end.

(** Membership test / insertion for a Python set of values (equal hash and ==). *)
Definition set_mem (v : value) (l : list value) : bool :=
  existsb (fun w => hval_eqb (hash_value w) (hash_value v) && val_eqb w v) l.
Definition set_add (v : value) (l : list value) : list value :=
  if set_mem v l then l else l ++ [v].

Definition excluded (b : bindings) (x : string) : list value :=
  match dget (bneg b) x with Some l => l | None => [] end.

(** chunks.py:266-283, the [=x] part of one slot.  [m] is matching_val. *)
Definition match_var (b : bindings) (o : option string) (m : value) : bindings * bool :=
  match var_truthy o with
  | None => (b, true)
  | Some x =>
      if existsb (fun e => val_eqb e m) (excluded b x) then (b, false)
      else match dget (bpos b) x with
           | Some v => (b, val_eqb v m)
           | None => (MkB (dset (bpos b) x m) (bneg b), true)
           end
  end.

(** chunks.py:286-296, the [~=x] part of one slot. *)
Fixpoint match_negvars (b : bindings) (xs : list string) (m : value) : bindings * bool :=
  match xs with
  | [] => (b, true)
  | x :: xs' =>
      match dget (bpos b) x with
      | Some v =>
          if val_eqb v m then (b, false)
          else match_negvars (MkB (bpos b) (dset (bneg b) x (set_add m (excluded b x)))) xs' m
      | None => match_negvars (MkB (bpos b) (dset (bneg b) x (set_add m (excluded b x)))) xs' m
      end
  end.

(** chunks.py:300-306, the value part of one slot ([None] and the EmptyValue object ask for
    nothing: line 302 tests [val != None]). *)
Definition match_value (v m : value) : bool :=
  if truthy v then
    match v with
    | VEmpty => true
    | _ => val_eqb v m
    end
  else true.

(** chunks.py:308-314, one negated value. *)
Definition neg_clash (nv m : value) : bool :=
  val_eqb nv m || (emptyish nv && val_eqb m VEmpty).

Definition match_negvals (nvs : list value) (m : value) : bool :=
  negb (existsb (fun nv => neg_clash nv m) nvs).

(** chunks.py:254-318 for one slot, without partial matching. *)
Definition match_slot (b : bindings) (w : vv) (m : value) : bindings * bool :=
  let (b1, ok1) := match_var b (vvar w) m in
  if ok1 then
    let (b2, ok2) := match_negvars b1 (vnegvars w) m in
    if ok2 then
      (b2, match_value (vvals w) m && match_negvals (vnegvals w) m)
    else (b2, false)
  else (b1, false).

(** chunks.py:254-318, the loop over the slots of self (bindings are kept even on failure). *)
Fixpoint match_slots (b : bindings) (slots : list (string * slotval)) (d : chunk)
  : bindings * bool :=
  match slots with
  | [] => (b, true)
  | (n, s) :: slots' =>
      let (b1, ok) := match_slot b (splitting s) (slot_value d n) in
      if ok then match_slots b1 slots' d else (b1, false)
  end.

(** chunks.py:246-318, match(otherchunk, partialmatching=False) as a truth value: when
    self == otherchunk the result is the number 0, which is false. *)
Definition match_chunk (b : bindings) (c d : chunk) : bindings * bool :=
  if chunk_eqb b c d then (b, false) else match_slots b (cslots c) d.

(** chunks.py:240-244, [self <= other]. *)
Definition chunk_le (b : bindings) (c d : chunk) : bindings * bool :=
  if chunk_eqb b c d then (b, true) else match_chunk b c d.

(** chunks.py:234-238, [self < other]. *)
Definition chunk_lt (b : bindings) (c d : chunk) : bindings * bool :=
  if chunk_eqb b c d then (b, false) else match_chunk b c d.

(** ** Partial matching *)

(** Similarities: a dictionary with pairs of values as keys (model.py:273-282). *)
Definition simtable := list ((value * value) * Q).

(** Equality of dictionary keys that are pairs: same hash and ==, component-wise. *)
Definition key_eqb (v w : value) : bool :=
  hval_eqb (hash_value v) (hash_value w) && val_eqb v w.

Fixpoint sim_get (t : simtable) (v w : value) : option Q :=
  match t with
  | [] => None
  | ((v', w'), q) :: t' => if key_eqb v' v && key_eqb w' w then Some q else sim_get t' v w
  end.

(** utilities.py:154-159, get_similarity(d, val1, val2, mismatch_penalty). *)
Definition get_similarity (t : simtable) (v1 v2 : value) (mp : Q) : Q :=
  match sim_get t v2 v1 with Some q => q | None => (- mp)%Q end.

Definition sumQ (l : list Q) : Q := fold_right Qplus 0%Q l.

(** chunks.py:266-283 with partialmatching=True: nothing fails, penalties are added. *)
Definition pm_var (t : simtable) (mp : Q) (b : bindings) (o : option string) (m : value)
  : bindings * Q :=
  match var_truthy o with
  | None => (b, 0%Q)
  | Some x =>
      let p := sumQ (map (fun e => if val_eqb e m then get_similarity t e m mp else 0%Q)
                       (excluded b x)) in
      match dget (bpos b) x with
      | Some v => (b, (p + (if val_eqb v m then 0 else get_similarity t v m mp))%Q)
      | None => (MkB (dset (bpos b) x m) (bneg b), p)
      end
  end.

(** chunks.py:286-296 with partialmatching=True. *)
Fixpoint pm_negvars (t : simtable) (mp : Q) (b : bindings) (xs : list string) (m : value)
  : bindings * Q :=
  match xs with
  | [] => (b, 0%Q)
  | x :: xs' =>
      let p := match dget (bpos b) x with
               | Some v => if val_eqb v m then get_similarity t v m mp else 0%Q
               | None => 0%Q
               end in
      let (b', q) := pm_negvars t mp
                       (MkB (bpos b) (dset (bneg b) x (set_add m (excluded b x)))) xs' m in
      (b', (p + q)%Q)
  end.

(** chunks.py:300-306 with partialmatching=True. *)
Definition pm_value (t : simtable) (mp : Q) (v m : value) : Q :=
  if match_value v m then 0%Q else get_similarity t v m mp.

(** chunks.py:308-314 with partialmatching=True. *)
Definition pm_negvals (t : simtable) (mp : Q) (nvs : list value) (m : value) : Q :=
  sumQ (map (fun nv => if neg_clash nv m then get_similarity t nv m mp else 0%Q) nvs).

Definition pm_slot (t : simtable) (mp : Q) (b : bindings) (w : vv) (m : value) : bindings * Q :=
  let (b1, q1) := pm_var t mp b (vvar w) m in
  let (b2, q2) := pm_negvars t mp b1 (vnegvars w) m in
  (b2, (q1 + q2 + pm_value t mp (vvals w) m + pm_negvals t mp (vnegvals w) m)%Q).

Fixpoint pm_slots (t : simtable) (mp : Q) (b : bindings) (slots : list (string * slotval))
  (d : chunk) : bindings * Q :=
  match slots with
  | [] => (b, 0%Q)
  | (n, s) :: slots' =>
      let (b1, q1) := pm_slot t mp b (splitting s) (slot_value d n) in
      let (b2, q2) := pm_slots t mp b1 slots' d in
      (b2, (q1 + q2)%Q)
  end.

(** chunks.py:246-318, match(otherchunk, partialmatching=True, mismatch_penalty=mp). *)
Definition pm_match (t : simtable) (mp : Q) (b : bindings) (c d : chunk) : bindings * Q :=
  if chunk_eqb b c d then (b, 0%Q) else pm_slots t mp b (cslots c) d.

(** * removeempty, removeunused *)

(** chunks.py:320-340. *)
Definition removeempty (c : chunk) : list (string * slotval) :=
  filter (fun p => kept_nonempty (snd p)) (cslots c).

(** chunks.py:342-362.  The test is [values != None]: the EmptyValue object equals None, the
    string 'None' does not. *)
Definition is_none (v : value) : bool :=
  match v with VNone | VEmpty => true | _ => false end.

Definition kept_used (s : slotval) : bool :=
  match s with
  | None => false
  | Some w =>
      negb (is_none (vvals w))
      || (match var_truthy (vvar w) with Some _ => true | None => false end)
      || (match vnegvars w with [] => false | _ => true end)
      || (match vnegvals w with [] => false | _ => true end)
  end.

Definition removeunused (c : chunk) : list (string * slotval) :=
  filter (fun p => kept_used (snd p)) (cslots c).

(** * Splitting slot strings *)

Definition special (c : ascii) : bool :=
  (Ascii.eqb c "~" || Ascii.eqb c "!" || Ascii.eqb c "=")%char.

(** utilities.py:130-134.  The four regular expressions are
      (?<=(?<!~)=).*?(?=$|~|!|=)   (?<=(?<!~)!)...   (?<=~=)...   (?<=~!)...
    and differ only in the look-behind.  [mark] is '=' or '!', [neg] says whether a '~' must
    (true) or must not (false) precede it. *)
Definition lookbehind (mark : ascii) (neg : bool) (p2 p1 : option ascii) : bool :=
  match p1 with
  | Some c => Ascii.eqb c mark &&
              (match p2 with
               | Some d => if neg then Ascii.eqb d "~" else negb (Ascii.eqb d "~")
               | None => negb neg
               end)
  | None => false
  end.

(** re.findall with such an expression, character by character.  [acc = None]: searching;
    [acc = Some t]: inside a match whose text so far is [t].  [p2], [p1] are the two
    preceding characters.  A match that is empty because a special character follows is
    reported, and the engine then retries at the same place demanding a non-empty match,
    which swallows that special character.  (The model assumes that the string contains no
    newline.) *)
Fixpoint findall (mark : ascii) (neg : bool) (p2 p1 : option ascii) (acc : option string)
  (s : string) : list string :=
  match s with
  | "" =>
      match acc with
      | Some t => t :: (if lookbehind mark neg p2 p1 then [""] else [])
      | None => if lookbehind mark neg p2 p1 then [""] else []
      end
  | String c s' =>
      let search_here :=
        if lookbehind mark neg p2 p1 then
          app (if special c then [""] else [])
              (findall mark neg p1 (Some c) (Some (String c "")) s')
        else findall mark neg p1 (Some c) None s' in
      match acc with
      | Some t =>
          if special c then t :: search_here
          else findall mark neg p1 (Some c) (Some (t ++ String c "")) s'
      | None => search_here
      end
  end.

Definition findall_set (mark : ascii) (neg : bool) (s : string) : list string :=
  sdedup (findall mark neg None None None s).

(** utilities.py:125-143 together with chunks.py:114-128 (sets to single values/tuples).
    Sets are in order of appearance. *)
Definition stringsplitting (info : string) : res vv :=
  let variables := findall_set "=" false info in
  let values0 := findall_set "!" false info in
  let negvariables := findall_set "=" true info in
  let negvalues := findall_set "!" true info in
  let values := match variables, values0, negvariables, negvalues with
                | [], [], [], [] => [info]
                | _, _, _, _ => values0
                end in
  match values, variables with
  | _ :: _ :: _, _ => Err EActr
  | _, _ :: _ :: _ => Err EActr
  | _, _ =>
      Ok (MkVV (match values with x :: _ => VStr x | [] => VNone end)
               (match variables with x :: _ => Some x | [] => None end)
               (map VStr negvalues) negvariables)
  end.

(** * Chunk types and creation of chunks *)

(** utilities.py:66, SPECIALCHUNKTYPES. *)
Definition special_types : dict string :=
  [("_manual", "cmd, key");
   ("_visual", "cmd, value, color, screen_pos");
   ("_visuallocation", "screen_x, screen_y, color, value")].

(** A class made by collections.namedtuple (chunks.py:50-52): field names without the trailing
    "_", and the defaults, which belong to the last fields.  (A default is any Python object;
    here it is the slot content that such an object would be read as.) *)
Record ctdef := MkCT { ctfields : list string; ctdefaults : list slotval }.

(** Chunk._chunktypes (chunks.py:83): type name to namedtuple class. *)
Definition registry := dict ctdef.

(** Order of slots: sorted(name + "_") (chunks.py:31). *)
Definition slot_leb (a b : string) : bool := String.leb (a ++ "_") (b ++ "_").

Definition is_lower (c : ascii) : bool := let n := nat_of_ascii c in (97 <=? n)%nat && (n <=? 122)%nat.
Definition is_upper (c : ascii) : bool := let n := nat_of_ascii c in (65 <=? n)%nat && (n <=? 90)%nat.
Definition is_digit (c : ascii) : bool := let n := nat_of_ascii c in (48 <=? n)%nat && (n <=? 57)%nat.
Definition is_alpha (c : ascii) : bool := is_lower c || is_upper c.
Definition is_word (c : ascii) : bool := is_alpha c || is_digit c || Ascii.eqb c "_".

Fixpoint str_forallb (f : ascii -> bool) (s : string) : bool :=
  match s with "" => true | String c s' => f c && str_forallb f s' end.

(** collections.namedtuple accepts [name ++ "_"] as a field name: an identifier that does not
    start with an underscore (ASCII names only). *)
Definition valid_field (n : string) : bool :=
  match n with
  | "" => false
  | String c s => is_alpha c && str_forallb is_word s
  end.

Fixpoint nodupb (l : list string) : bool :=
  match l with [] => true | a :: l' => negb (smem a l') && nodupb l' end.

(** Splitting the string form of field names (chunks.py:28):
    field_names.replace(',', ' ').split(). *)
Fixpoint split_fields (acc : string) (s : string) : list string :=
  match s with
  | "" => if String.eqb acc "" then [] else [acc]
  | String c s' =>
      if (Ascii.eqb c "," || Ascii.eqb c " ")%char then
        (if String.eqb acc "" then [] else [acc]) ++ split_fields "" s'
      else split_fields (acc ++ String c "") s'
  end.

Inductive field_arg := FString (s : string) | FSeq (l : list string).

(** chunks.py:27-30: a string is split, anything else is taken as a sequence of names. *)
Definition fields_of_arg (a : field_arg) : list string :=
  match a with FString s => split_fields "" s | FSeq l => l end.

(** chunks.py:32-34: the names already end in "_" here, so this test never succeeds. *)
Definition isa_check (fields : list string) : bool :=
  existsb (fun n => String.eqb (n ++ "_") "ISA" || String.eqb (n ++ "_") "isa") fields.

(** chunks.py:37-47: after each parent the union with all inherited fields is taken. *)
Fixpoint inherit (r : registry) (fields : list string) (include : list string) : res (list string) :=
  match include with
  | [] => Ok fields
  | p :: ps =>
      match dget r p with
      | None => Err EActr
      | Some ct => inherit r (isort slot_leb (sdedup (fields ++ ctfields ct))) ps
      end
  end.

(** chunks.py:24: the special types may only be defined with exactly their own string. *)
Definition is_special_redef (cls : string) (a : field_arg) : bool :=
  match dget special_types cls with
  | None => false
  | Some s => match a with FString t => negb (String.eqb t s) | FSeq _ => true end
  end.

(** chunks.py:49-52: namedtuple(name, fields, defaults=defaults).  A bad or repeated field
    name raises ValueError; too many defaults raise TypeError, upon which the class is made
    without defaults.  (The type name is assumed to be an identifier.) *)
Definition namedtuple (fields : list string) (defaults : list slotval) : res ctdef :=
  if nodupb fields && forallb valid_field fields then
    Ok (MkCT fields (if (List.length defaults <=? List.length fields)%nat then defaults else []))
  else Err EValue.

(** chunks.py:13-52, chunktype(cls_name, field_names, defaults, include). *)
Definition chunktype (r : registry) (cls : string) (a : field_arg) (defaults : list slotval)
  (include : list string) : res registry :=
  if is_special_redef cls a then Err EActr else
  let fields := isort slot_leb (fields_of_arg a) in
  if isa_check fields then Err EActr else
  fields' <- inherit r fields include ;;
  ct <- namedtuple fields' defaults ;;
  Ok (dset r cls ct).

(** chunks.py:365-366: the registry after import. *)
Definition init_registry : registry :=
  fold_left (fun r p => match chunktype r (fst p) (FString (snd p)) [] [] with
                        | Ok r' => r' | Err _ => r end) special_types [].

(** Arguments of Chunk(...): a chunk, a VarvalClass, the EmptyValue object, or anything else,
    represented by its str(). *)
Inductive rawval := RChunk (c : chunk) | RVV (w : vv) | REmpty | RStr (s : string).

(** chunks.py:96-131 for one slot.  str(EmptyValue()) is 'None'.  (Unhashable and iterable
    values raise ValueError; they are not representable here.) *)
Definition convert (x : rawval) : res vv :=
  match x with
  | RChunk c => Ok (MkVV (VChunk c) None [] [])
  | RVV w => Ok w
  | REmpty => stringsplitting "None"
  | RStr s => stringsplitting s
  end.

Fixpoint convert_all (args : list (string * rawval)) : res (list (string * slotval)) :=
  match args with
  | [] => Ok []
  | (n, x) :: args' =>
      w <- convert x ;; rest <- convert_all args' ;; Ok ((n, Some w) :: rest)
  end.

Definition subset (l m : list string) : bool := forallb (fun x => smem x m) l.

(** The default of field number [i] of [k] fields: the [d] defaults belong to the last [d]
    fields. *)
Definition nt_default (ct : ctdef) (i : nat) : option slotval :=
  let skip := (List.length (ctfields ct) - List.length (ctdefaults ct))%nat in
  if (i <? skip)%nat then None else nth_error (ctdefaults ct) (i - skip).

(** Calling the namedtuple class with keyword arguments (chunks.py:151): each field takes its
    argument, or its default, or else TypeError; an unexpected keyword raises TypeError. *)
Fixpoint nt_fill (ct : ctdef) (i : nat) (fields : list string) (kw : dict slotval)
  : res (list (string * slotval)) :=
  match fields with
  | [] => Ok []
  | f :: fs =>
      s <- (match dget kw f with
            | Some s => Ok s
            | None => match nt_default ct i with Some s => Ok s | None => Err EType end
            end) ;;
      rest <- nt_fill ct (S i) fs kw ;;
      Ok ((f, s) :: rest)
  end.

Definition nt_call (ct : ctdef) (kw : dict slotval) : res (list (string * slotval)) :=
  if subset (dkeys kw) (ctfields ct) then nt_fill ct 0 (ctfields ct) kw else Err EType.

(** chunks.py:133-138: the EmptyValue object is put in every field that is not given. *)
Definition fill_empty (fields : list string) (kw : dict slotval) : dict slotval :=
  app kw (map (fun f => (f, None)) (filter (fun f => negb (smem f (dkeys kw))) fields)).

(** chunks.py:91-155, Chunk(typename, **dictionary); returns the registry because the type is
    created or extended when needed.  Slot names come from a Python dictionary, so they are
    pairwise distinct.  The namedtuple is called in a [finally] clause (lines 150-151), also
    when chunktype failed; its own exception (TypeError for an unexpected keyword, KeyError
    for an unknown type) then replaces that failure. *)
Definition mk_chunk (r : registry) (ty : string) (args : list (string * rawval))
  : res (registry * chunk) :=
  kw <- convert_all args ;;
  let '(kw', r') :=
    match dget r ty with
    | Some ct =>
        let kw' := fill_empty (ctfields ct) kw in
        if subset (dkeys kw') (ctfields ct) then (kw', r)
        else (kw', match chunktype r ty (FSeq (dkeys kw')) [] [] with Ok r' => r' | Err _ => r end)
    | None =>
        (kw, match chunktype r ty (FSeq (dkeys kw)) [] [] with Ok r' => r' | Err _ => r end)
    end in
  match dget r' ty with
  | Some ct => slots <- nt_call ct kw' ;; Ok (r', MkChunk ty slots)
  | None => Err EKey
  end.

(** * Resolving right-hand-side values *)

Definition is_relational (v : value) : bool :=
  match v with
  | VStr s => String.eqb s ">" || String.eqb s "<"
  | _ => false
  end.

(** utilities.py:298: "".join(sorted([temp_result, result], reverse=True)); anything but two
    strings raises TypeError. *)
Definition join_sorted (a b : value) : res value :=
  match a, b with
  | VStr s, VStr t => Ok (VStr (if String.leb s t then t ++ s else s ++ t))
  | _, _ => Err EType
  end.

(** utilities.py:297-305, the end of each round of the loop; [temp] is None while the local
    variable temp_result has not been assigned. *)
Definition cbv_combine (temp : option value) (result : value) : res value :=
  match temp with
  | None =>
      (* result is None here: both conditions are False without evaluating temp_result *)
      Ok result
  | Some t =>
      if (truthy result && is_relational t) || is_relational result then join_sorted t result
      else if truthy result && negb (val_eqb t result) then Err EActr
      else Ok t
  end.

(** utilities.py:283-296: adding the values of the negated variables. *)
Fixpoint cbv_negvars (b : bindings) (var_set : bool) (xs : list string) (acc : list value)
  : res (list value) :=
  match xs with
  | [] => Ok acc
  | x :: xs' =>
      match dget (bpos b) x with
      | Some v => cbv_negvars b var_set xs' (set_add v acc)
      | None => if var_set then Err EActr else Err EUnbound
      end
  end.

(** utilities.py:262-311, check_bound_vars(actrvariables, elem, negative_impossible).
    The loop runs over the fields values, variables, negvalues, negvariables in this order.
    When a negated variable is unbound, the error message mentions the local [var], which
    exists only if a positive variable was seen: otherwise UnboundLocalError (line 296).
    When temp_result ends up false, returned_tuple is never assigned (lines 306-311):
    UnboundLocalError. *)
Definition check_bound_vars (b : bindings) (elem : slotval) (negative_impossible : bool) : res vv :=
  let w := splitting elem in
  (* field values *)
  let temp1 := if truthy (vvals w) then Some (vvals w) else None in
  r1 <- cbv_combine temp1 VNone ;;
  (* field variables *)
  temp2 <- (match var_truthy (vvar w) with
            | Some x => match dget (bpos b) x with
                        | Some v => Ok (Some v)
                        | None => Err EActr
                        end
            | None => Ok temp1
            end) ;;
  r2 <- cbv_combine temp2 r1 ;;
  (* field negvalues *)
  neg1 <- (match vnegvals w with
           | [] => Ok []
           | nvs => if negative_impossible then Err EActr
                    else Ok (fold_left (fun acc v => set_add v acc) nvs [])
           end) ;;
  r3 <- cbv_combine temp2 r2 ;;
  (* field negvariables *)
  neg2 <- (match vnegvars w with
           | [] => Ok neg1
           | xs => if negative_impossible then Err EActr
                   else cbv_negvars b (match var_truthy (vvar w) with Some _ => true | None => false end)
                          xs neg1
           end) ;;
  r4 <- cbv_combine temp2 r3 ;;
  match temp2 with
  | Some t => if truthy t then Ok (MkVV r4 None neg2 []) else Err EUnbound
  | None => Ok (MkVV VNone None neg2 [])
  end.

(** The dictionary comprehension used by modify, create and retrieve:
    {x[0]: check_bound_vars(actrvariables, x[1], ...) for x in otherchunk.removeunused()}. *)
Fixpoint resolve_slots (b : bindings) (negative_impossible : bool) (slots : list (string * slotval))
  : res (list (string * rawval)) :=
  match slots with
  | [] => Ok []
  | (n, s) :: slots' =>
      w <- check_bound_vars b s negative_impossible ;;
      rest <- resolve_slots b negative_impossible slots' ;;
      Ok ((n, RVV w) :: rest)
  end.
