(** Model of chunk strings and rule strings: utilities.py:161-173 (getchunk), 249-260 (getrule),
    chunks.py:368-494 (createchunkdict, makechunk, chunkstring), model.py:213-271
    (productionstring).

    The readers are built from elements of the library pyparsing.  What is modelled of it, from
    its documentation and source: every token skips blanks, newlines, tabs and carriage returns in
    front of it; Word takes the longest run of its characters; one_of tries a longer sign before a
    shorter one it starts with; QuotedString runs to the next quote of the same kind on the same
    line and here keeps its quotes; [|] takes the first alternative that can be read; OneOrMore
    and Optional take as much as they can and never give back; parse_string expands tabs first and
    with parse_all demands that only white space is left.  Characters are those of [ascii]. *)
From Coq Require Import DecimalString.
From Verif Require Import Base Chunks DecMem Buffers Productions.
Local Open Scope string_scope.

(** ** Elements of pyparsing *)

Definition tab : ascii := ascii_of_nat 9.
Definition newline : ascii := ascii_of_nat 10.
Definition return_ : ascii := ascii_of_nat 13.
Definition dquote : ascii := ascii_of_nat 34.
Definition squote : ascii := ascii_of_nat 39.

Fixpoint spaces (n : nat) : string :=
  match n with O => "" | S n' => String " " (spaces n') end.

(** str.expandtabs(), called by parse_string: tabs become blanks up to the next multiple of 8;
    [col] is the current column. *)
Fixpoint expandtabs (col : nat) (s : string) : string :=
  match s with
  | "" => ""
  | String c s' =>
      if Ascii.eqb c tab then
        let k := (8 - col mod 8)%nat in spaces k ++ expandtabs (col + k) s'
      else if Ascii.eqb c newline || Ascii.eqb c return_ then String c (expandtabs 0 s')
      else String c (expandtabs (S col) s')
  end.

Definition is_ws (c : ascii) : bool :=
  Ascii.eqb c " " || Ascii.eqb c tab || Ascii.eqb c newline || Ascii.eqb c return_.

Fixpoint skip_ws (s : string) : string :=
  match s with
  | "" => ""
  | String c s' => if is_ws c then skip_ws s' else s
  end.

Fixpoint take_while (f : ascii -> bool) (s : string) : string * string :=
  match s with
  | "" => ("", "")
  | String c s' => if f c then let (a, b) := take_while f s' in (String c a, b) else ("", s)
  end.

(** Word(init, body) *)
Definition word (init body : ascii -> bool) (s : string) : option (string * string) :=
  match skip_ws s with
  | "" => None
  | String c s' =>
      if init c then let (a, b) := take_while body s' in Some (String c a, b) else None
  end.

(** [s] without the prefix [p] *)
Fixpoint strip (p s : string) : option string :=
  match p, s with
  | "", _ => Some s
  | String a p', String b s' => if Ascii.eqb a b then strip p' s' else None
  | String _ _, "" => None
  end.

(** one_of(...), Literal(...): the first of the given texts that comes next. *)
Fixpoint first_of (ps : list string) (s : string) : option (string * string) :=
  match ps with
  | [] => None
  | p :: ps' => match strip p s with Some r => Some (p, r) | None => first_of ps' s end
  end.
Definition one_of (ps : list string) (s : string) : option (string * string) :=
  first_of ps (skip_ws s).

(** QuotedString(q, unquoteResults=False) *)
Definition quoted (q : ascii) (s : string) : option (string * string) :=
  match skip_ws s with
  | "" => None
  | String c s' =>
      if Ascii.eqb c q then
        let (a, b) := take_while (fun x => negb (Ascii.eqb x q || Ascii.eqb x newline || Ascii.eqb x return_)) s' in
        match b with
        | "" => None
        | String d b' => if Ascii.eqb d q then Some (String q (a ++ String q ""), b') else None
        end
      else None
  end.

(** ** utilities.py:161-173, getchunk *)

(** The characters of the four words (lines 165-170). *)
Definition slot_init (c : ascii) : bool := is_alpha c || Ascii.eqb c "_".
Definition slot_body (c : ascii) : bool := is_word c.
Definition special_char (c : ascii) : bool := is_word c || Ascii.eqb c dquote || Ascii.eqb c squote.
Definition var_char (c : ascii) : bool :=
  is_word c || existsb (Ascii.eqb c) (list_ascii_of_string ":|.,%&$`*-").

(** Line 166, in the order in which one_of tries them. *)
Definition operators : list string := ["="; "~="; "~"; ">="; ">"; "<="; "<"].

(** A parsed value: a str, or the Group made of a sign and a word. *)
Inductive part := PStr (s : string) | PGroup (op w : string).

(** Line 171 *)
Definition value_reader (s : string) : option (part * string) :=
  match word var_char var_char s with
  | Some (w, r) => Some (PStr w, r)
  | None =>
      match (match one_of operators s with
             | Some (op, r) =>
                 match word special_char special_char r with
                 | Some (w, r') => Some (PGroup op w, r')
                 | None => None
                 end
             | None => None
             end) with
      | Some x => Some x
      | None =>
          match quoted dquote s with
          | Some (t, r) => Some (PStr t, r)
          | None => match quoted squote s with
                    | Some (t, r) => Some (PStr t, r)
                    | None => None
                    end
          end
      end
  end.

(** Group(slot + value) *)
Definition pair_reader (s : string) : option ((string * part) * string) :=
  match word slot_init slot_body s with
  | Some (n, r) =>
      match value_reader r with Some (v, r') => Some ((n, v), r') | None => None end
  | None => None
  end.

(** OneOrMore(...), Optional(OneOrMore(...)): pairs as long as there are any, and what is left.
    Every pair takes at least two characters, so the length of the string is enough [fuel]
    (StringRead.pairs_complete). *)
Fixpoint pairs (fuel : nat) (s : string) : list (string * part) * string :=
  match fuel with
  | O => ([], s)
  | S fuel' =>
      match pair_reader s with
      | Some (p, r) => let (l, r') := pairs fuel' r in (p :: l, r')
      | None => ([], s)
      end
  end.

(** getchunk().parse_string(string, parse_all=True); [None] is a ParseException. *)
Definition chunk_reader (s : string) : option (list (string * part)) :=
  let s := expandtabs 0 s in
  let (l, r) := pairs (String.length s) s in
  match l with
  | [] => None
  | _ => match skip_ws r with "" => Some l | _ => None end
  end.

(** ** chunks.py:368-428, createchunkdict *)

(** The four sets of line 375. *)
Record parts := MkParts {
  pvals : list value; pvars : list string; pnegvals : list value; pnegvars : list string }.
Definition no_parts : parts := MkParts [] [] [] [].

Definition sadd (x : string) (l : list string) : list string := if smem x l then l else (l ++ [x])%list.

(** [s[1:-1]] *)
Fixpoint butlast (s : string) : string :=
  match s with
  | "" => ""
  | String _ "" => ""
  | String c s' => String c (butlast s')
  end.
Definition middle (s : string) : string :=
  match s with "" => "" | String _ s' => butlast s' end.

Definition starts_quote (s : string) : bool :=
  match s with
  | "" => false
  | String c _ => Ascii.eqb c squote || Ascii.eqb c dquote
  end.

(** chunks.py:371, 377-407 for one parsed value.  [names] is Chunk._chunks.  A plain str of the
    reader starts neither with a comparison nor with another sign
    (StringRound.reader_parts), so lines 379-394 always end in KeyError or IndexError for it and
    lines 396-405 apply.  The signs of a Group are those of [operators]. *)
Definition add_part (names : dict chunk) (p : part) (t : parts) : parts :=
  match p with
  | PStr s =>
      let v := if starts_quote s then VStr (middle s)
               else match dget names s with Some c => VChunk c | None => VStr s end in
      MkParts (set_add v (pvals t)) (pvars t) (pnegvals t) (pnegvars t)
  | PGroup op w =>
      if String.eqb op ">=" || String.eqb op "<=" then
        MkParts (set_add (VStr (if String.eqb op ">=" then ">" else "<")) (pvals t))
          (sadd w (pvars t)) (pnegvals t) (pnegvars t)
      else if String.eqb op ">" || String.eqb op "<" then
        MkParts (set_add (VStr (op ++ w)) (pvals t)) (pvars t) (pnegvals t) (pnegvars t)
      else
        let w' := if starts_quote w then middle w else w in
        if String.eqb op "=" then MkParts (pvals t) (sadd w' (pvars t)) (pnegvals t) (pnegvars t)
        else if String.eqb op "~" then
          MkParts (pvals t) (pvars t) (set_add (VStr w') (pnegvals t)) (pnegvars t)
        else MkParts (pvals t) (pvars t) (pnegvals t) (sadd w' (pnegvars t))
  end.

(** chunks.py:372-409 *)
Definition gather (names : dict chunk) (l : list (string * part)) : dict parts :=
  fold_left (fun d p =>
    dset d (fst p) (add_part names (snd p) (match dget d (fst p) with Some t => t | None => no_parts end)))
    l [].

(** chunks.py:411-421 for one slot; sets become tuples in order of insertion. *)
Definition close_parts (t : parts) : res vv :=
  match pvals t, pvars t with
  | _ :: _ :: _, _ => Err EActr
  | _, _ :: _ :: _ => Err EActr
  | vs, xs => Ok (MkVV (match vs with v :: _ => v | [] => VNone end)
                       (match xs with x :: _ => Some x | [] => None end) (pnegvals t) (pnegvars t))
  end.

(** chunks.py:422-428: 'ISA' and 'Isa' are only looked for when 'isa' was found. *)
Definition pop_type (d : dict vv) : value * dict vv :=
  match dget d "isa" with
  | None => (VStr "", d)
  | Some w =>
      let d1 := ddel d "isa" in
      match dget d1 "ISA" with
      | None => (vvals w, d1)
      | Some w1 =>
          let d2 := ddel d1 "ISA" in
          match dget d2 "Isa" with
          | None => (vvals w1, d2)
          | Some w2 => (vvals w2, ddel d2 "Isa")
          end
      end
  end.

Definition createchunkdict (names : dict chunk) (l : list (string * part)) : res (value * dict vv) :=
  d <- rmap (fun p => w <- close_parts (snd p) ;; Ok (fst p, w)) (gather names l) ;;
  Ok (pop_type d).

(** ** chunks.py:430-476, makechunk *)

(** Chunk._chunktypes, Chunk._chunks, Chunk._undefinedchunktypecounter (chunks.py:83-85). *)
Record names_state := MkNS { nsreg : registry; nsnames : dict chunk; nscount : nat }.

Definition digits_str (n : nat) : string := NilZero.string_of_uint (Nat.to_uint n).

(** keyword.kwlist of Python 3 *)
Definition keywords : list string :=
  ["False"; "None"; "True"; "and"; "as"; "assert"; "async"; "await"; "break"; "class"; "continue";
   "def"; "del"; "elif"; "else"; "except"; "finally"; "for"; "from"; "global"; "if"; "import"; "in";
   "is"; "lambda"; "nonlocal"; "not"; "or"; "pass"; "raise"; "return"; "try"; "while"; "with"; "yield"].

(** collections.namedtuple accepts a new type name (ASCII names only). *)
Definition valid_type (s : string) : bool :=
  match s with
  | "" => false
  | String c s' => slot_init c && str_forallb slot_body s' && negb (smem s keywords)
  end.

(** Slot names that clash with parameters of makechunk or of Chunk.__init__: TypeError. *)
Definition reserved : list string := ["nameofchunk"; "typename"; "self"].

(** makechunk(nameofchunk, typename, **dictionary).  A type that is false (None, "", a chunk
    without slots) is replaced by a fresh one.  When namedtuple refuses the type name, or the type
    is a chunk (its str is no identifier), the [finally] clause of Chunk.__init__
    (chunks.py:150-151) looks up the type and raises KeyError.  (When an exception is raised, the
    counter and the types may nevertheless have changed; the model does not return them.) *)
Definition makechunk (st : names_state) (name : string) (ty : value) (args : list (string * rawval))
  : res (names_state * chunk) :=
  if existsb (fun n => smem n reserved) (dkeys args) then Err EType else
  let name' := if String.eqb name "" then "unnamedchunk" else name in
  let '(ty', k) := if truthy ty then (ty, nscount st)
                   else (VStr ("undefined" ++ digits_str (nscount st)), S (nscount st)) in
  match ty' with
  | VStr s =>
      if dmem (nsreg st) s || valid_type s then
        '(r', c) <- mk_chunk (nsreg st) s args ;;
        Ok (MkNS r' (dset (nsnames st) name' c) k, c)
      else (_ <- convert_all args ;; Err EKey)
  | _ => _ <- convert_all args ;; Err EKey
  end.

(** makechunk("", *createchunkdict(l)) *)
Definition chunk_of_pairs (st : names_state) (name : string) (l : list (string * part))
  : res (names_state * chunk) :=
  '(ty, d) <- createchunkdict (nsnames st) l ;;
  makechunk st name ty (map (fun p => (fst p, RVV (snd p))) d).

(** chunks.py:478-494, chunkstring(name, string). *)
Definition chunkstring (st : names_state) (name s : string) : res (names_state * chunk) :=
  match chunk_reader s with
  | None => Err EParse
  | Some l => chunk_of_pairs st name l
  end.

(** ** utilities.py:249-260, getrule *)

(** One group of a side: the sign, the buffer, the pairs. *)
Record group := MkGroup { gsign : string; gbuf : string; gpairs : list (string * part) }.

Definition lhs_signs : list string := ["="; "?"].
Definition rhs_signs : list string := ["?"; "="; "+"; "!"; "~"; "@"; "*"].

(** Group(special + buff + end_buffer + Group(Optional(chunk))) *)
Definition group_reader (signs : list string) (s : string) : option (group * string) :=
  match one_of signs s with
  | None => None
  | Some (g, r1) =>
      match word is_alpha slot_body r1 with
      | None => None
      | Some (b, r2) =>
          match one_of [">"] r2 with
          | None => None
          | Some (_, r3) => let (l, r4) := pairs (String.length r3) r3 in Some (MkGroup g b l, r4)
          end
      end
  end.

Fixpoint groups (signs : list string) (fuel : nat) (s : string) : list group * string :=
  match fuel with
  | O => ([], s)
  | S fuel' =>
      match group_reader signs s with
      | Some (g, r) => let (l, r') := groups signs fuel' r in (g :: l, r')
      | None => ([], s)
      end
  end.

(** getrule().parse_string(string, parse_all=True) *)
Definition rule_reader (s : string) : option (list group * list group) :=
  let s := expandtabs 0 s in
  let (l, r1) := groups lhs_signs (String.length s) s in
  match l with
  | [] => None
  | _ =>
      match one_of ["==>"] r1 with
      | None => None
      | Some (_, r2) =>
          let (m, r3) := groups rhs_signs (String.length r2) r2 in
          match m with
          | [] => None
          | _ => match skip_ws r3 with "" => Some (l, m) | _ => None end
          end
      end
  end.

(** ** model.py:213-271, productionstring *)

(** The value of a query or the argument of a command: x[1].  A str is taken with its quotes; a
    Group is an object that equals no string, it is represented by its text (which starts with a
    sign, as no status and no command argument does). *)
Definition part_text (p : part) : string :=
  match p with PStr s => s | PGroup op w => op ++ w end.

(** {x[0]: x[1] for x in each[3]} *)
Definition query_dict (l : list (string * part)) : dict string :=
  fold_left (fun d p => dset d (fst p) (part_text (snd p))) l [].

(** model.py:247-255, the loop over the left-hand side. *)
Fixpoint lhs_side (st : names_state) (acc : dict content) (l : list group)
  : res (names_state * dict content) :=
  match l with
  | [] => Ok (st, acc)
  | g :: l' =>
      let k := gsign g ++ gbuf g in
      if String.eqb (gsign g) "?" then lhs_side st (dset acc k (CDict (query_dict (gpairs g)))) l'
      else '(st', c) <- chunk_of_pairs st "" (gpairs g) ;; lhs_side st' (dset acc k (CChunk c)) l'
  end.

(** model.py:257-269, the loop over the right-hand side. *)
Fixpoint rhs_side (st : names_state) (acc : dict content) (l : list group)
  : res (names_state * dict content) :=
  match l with
  | [] => Ok (st, acc)
  | g :: l' =>
      let k := gsign g ++ gbuf g in
      if String.eqb (gsign g) "?" then rhs_side st (dset acc k (CDict (query_dict (gpairs g)))) l'
      else if String.eqb (gsign g) "~" then rhs_side st (dset acc k CNone) l'
      else if String.eqb (gsign g) "!" then
        rhs_side st (dset acc k (CCmds (map (fun p => (fst p, part_text (snd p))) (gpairs g)))) l'
      else '(st', c) <- chunk_of_pairs st "" (gpairs g) ;; rhs_side st' (dset acc k (CChunk c)) l'
  end.

(** productionstring(name, string): what is stored, i.e. the parsed rule.  Without a name
    line 235 adds a number to a string: TypeError. *)
Definition productionstring (name s : string) : res (list group * list group) :=
  if String.eqb name "" then Err EType
  else match rule_reader s with None => Err EActr | Some x => Ok x end.

(** The two dictionaries that func() yields when it is run in state [st].  (The dictionaries are
    shared by all runs of func, but a later run sets the same keys again.) *)
Definition rule_sides (st : names_state) (x : list group * list group)
  : res (names_state * (dict content * dict content)) :=
  '(st1, l) <- lhs_side st [] (fst x) ;;
  '(st2, r) <- rhs_side st1 [] (snd x) ;;
  Ok (st2, (l, r)).
