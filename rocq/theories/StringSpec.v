(** What chunk strings and rule strings are and what they say, independently of the readers. *)
From Verif Require Import Base Chunks Productions.
Local Open Scope string_scope.

(** ** Texts *)

Definition one_of_chars (s : string) (c : ascii) : Prop := In c (list_ascii_of_string s).

Definition letters : string := "abcdefghijklmnopqrstuvwxyzABCDEFGHIJKLMNOPQRSTUVWXYZ".
Definition digits10 : string := "0123456789".
Definition quotes : string := String (ascii_of_nat 34) (String (ascii_of_nat 39) "").
Definition blanks : string :=
  String " " (String (ascii_of_nat 9) (String (ascii_of_nat 10) (String (ascii_of_nat 13) ""))).

(** Letters, digits and underscores. *)
Definition wordish : ascii -> Prop := one_of_chars (letters ++ digits10 ++ "_").
(** What a value without any sign may consist of. *)
Definition plainish : ascii -> Prop := one_of_chars (letters ++ digits10 ++ "_" ++ ":|.,%&$`*-").
(** What may follow a sign. *)
Definition markish : ascii -> Prop := one_of_chars (letters ++ digits10 ++ "_" ++ quotes).

Definition all (P : ascii -> Prop) (s : string) : Prop := Forall P (list_ascii_of_string s).
Definition begins (P : ascii -> Prop) (s : string) : Prop :=
  match s with "" => False | String c _ => P c end.

(** White space, possibly none. *)
Definition gap (s : string) : Prop := all (one_of_chars blanks) s.

(** Signs in front of a value. *)
Inductive mark := MVar | MNegvar | MNeg | MGreater | MLess | MGreaterVar | MLessVar.
Definition mark_text (m : mark) : string :=
  match m with
  | MVar => "=" | MNegvar => "~=" | MNeg => "~"
  | MGreater => ">" | MLess => "<" | MGreaterVar => ">=" | MLessVar => "<="
  end.

(** A value as it is written: a plain word, a word after a sign, a quoted text. *)
Inductive written := WPlain (s : string) | WMark (m : mark) (s : string) | WQuoted (q : ascii) (s : string).

(** [t] is a way of writing [v]; white space may follow a sign. *)
Inductive writes : written -> string -> Prop :=
| writes_plain s : s <> "" -> all plainish s -> writes (WPlain s) s
| writes_mark m g s : gap g -> s <> "" -> all markish s -> writes (WMark m s) (mark_text m ++ g ++ s)
| writes_quoted q s : one_of_chars quotes q ->
    all (fun c => c <> q /\ c <> ascii_of_nat 10 /\ c <> ascii_of_nat 13) s ->
    writes (WQuoted q s) (String q (s ++ String q "")).

(** Names of slots. *)
Definition slot_name (n : string) : Prop := begins (one_of_chars (letters ++ "_")) n /\ all wordish n.

(** The text [rest] does not continue the value [v]. *)
Definition ended (v : written) (rest : string) : Prop :=
  match v with
  | WPlain _ => ~ begins plainish rest
  | WMark _ _ => ~ begins markish rest
  | WQuoted _ _ => True
  end.

(** [s] consists of the slot-value pairs [ps], in some layout, and then [rest]. *)
Inductive listing : list (string * written) -> string -> string -> Prop :=
| listing_nil rest : listing [] rest rest
| listing_cons n v ps g1 g2 t s rest :
    gap g1 -> slot_name n -> gap g2 -> writes v t -> ~ begins wordish (g2 ++ t) -> ended v s ->
    listing ps s rest -> listing ((n, v) :: ps) (g1 ++ n ++ g2 ++ t ++ s) rest.

(** A chunk string: pairs, then at most white space. *)
Definition chunk_text (ps : list (string * written)) (s : string) : Prop :=
  exists rest, ps <> [] /\ listing ps s rest /\ gap rest.

(** A tab in a quoted text becomes blanks; texts without such tabs are read as they are. *)
Definition no_quoted_tab (ps : list (string * written)) : Prop :=
  forall n q s, In (n, WQuoted q s) ps -> ~ In (ascii_of_nat 9) (list_ascii_of_string s).

(** ** Meaning *)

(** A word after a sign that starts with a quote has its first and last character removed. *)
Inductive unquoted : string -> string -> Prop :=
| unquoted_none s : ~ begins (one_of_chars quotes) s -> unquoted s s
| unquoted_one q : one_of_chars quotes q -> unquoted (String q "") ""
| unquoted_both q s q' : one_of_chars quotes q -> unquoted (String q (s ++ String q' "")) s.

(** What a written value contributes to its slot, given the chunks that have names. *)
Inductive says_value (names : dict chunk) : written -> value -> Prop :=
| says_name s c : dget names s = Some c -> says_value names (WPlain s) (VChunk c)
| says_plain s : dget names s = None -> says_value names (WPlain s) (VStr s)
| says_quoted q s : says_value names (WQuoted q s) (VStr s)
| says_greater s : says_value names (WMark MGreater s) (VStr (">" ++ s))
| says_less s : says_value names (WMark MLess s) (VStr ("<" ++ s))
| says_greater_var s : says_value names (WMark MGreaterVar s) (VStr ">")
| says_less_var s : says_value names (WMark MLessVar s) (VStr "<").

Inductive says_var : written -> string -> Prop :=
| says_var_plain s x : unquoted s x -> says_var (WMark MVar s) x
| says_var_greater s : says_var (WMark MGreaterVar s) s
| says_var_less s : says_var (WMark MLessVar s) s.

Inductive says_negval : written -> value -> Prop :=
| says_neg s x : unquoted s x -> says_negval (WMark MNeg s) (VStr x).

Inductive says_negvar : written -> string -> Prop :=
| says_negv s x : unquoted s x -> says_negvar (WMark MNegvar s) x.

(** The slot [n] of the list [ps] says [P]. *)
Definition slot_says {A} (says : written -> A -> Prop) (ps : list (string * written)) (n : string) (a : A) : Prop :=
  exists v, In (n, v) ps /\ says v a.

(** Two different values or two different variables for one slot. *)
Definition conflict (names : dict chunk) (ps : list (string * written)) : Prop :=
  exists n,
    (exists v w, slot_says (says_value names) ps n v /\ slot_says (says_value names) ps n w /\
       key_eqb v w = false) \/
    (exists x y, slot_says says_var ps n x /\ slot_says says_var ps n y /\ x <> y).

(** [w] is what the list says about the slot [n]. *)
Record slot_read (names : dict chunk) (ps : list (string * written)) (n : string) (w : vv) : Prop := {
  read_val : (forall v, ~ slot_says (says_value names) ps n v) /\ vvals w = VNone \/
             slot_says (says_value names) ps n (vvals w);
  read_var : (forall x, ~ slot_says says_var ps n x) /\ vvar w = None \/
             exists x, vvar w = Some x /\ slot_says says_var ps n x;
  read_negval : forall v, In v (vnegvals w) <-> slot_says says_negval ps n v;
  read_negvar : forall x, In x (vnegvars w) <-> slot_says says_negvar ps n x }.

(** ** Chunks *)

Definition named (ps : list (string * written)) (n : string) : Prop := In n (map fst ps).

(** The slots that give the type: "isa"; "ISA" and "Isa" count only if the ones before are there. *)
Definition type_slots (ps : list (string * written)) : list string :=
  let there n := smem n (map fst ps) in
  if there "isa" then
    "isa" :: (if there "ISA" then "ISA" :: (if there "Isa" then ["Isa"] else []) else [])
  else [].

(** The type that the list asks for: the value of the last of these slots, or, when there is none
    or it has no value, [fresh]. *)
Inductive type_said (names : dict chunk) (fresh : string) (ps : list (string * written)) : string -> Prop :=
| type_none : ~ named ps "isa" -> type_said names fresh ps fresh
| type_value w s : named ps "isa" -> slot_read names ps (last (type_slots ps) "") w ->
    vvals w = VStr s -> s <> "" -> type_said names fresh ps s
| type_empty w : named ps "isa" -> slot_read names ps (last (type_slots ps) "") w ->
    truthy (vvals w) = false -> type_said names fresh ps fresh.

(** The slots that the chunk is to have. *)
Definition slot_said (ps : list (string * written)) (n : string) : Prop := named ps n /\ ~ In n (type_slots ps).

(** [c] is what the list says: its type; the slots named in the list hold what is said about them;
    the other slots are those of the type as it was defined before, and they are empty. *)
Record chunk_said (r : registry) (names : dict chunk) (fresh : string) (ps : list (string * written)) (c : chunk) : Prop := {
  said_type : type_said names fresh ps (ctype c);
  said_slots : forall n, slot_said ps n -> exists w, dget (cslots c) n = Some (Some w) /\ slot_read names ps n w;
  said_others : forall n, ~ slot_said ps n ->
    dget (cslots c) n = match dget r (ctype c) with
                        | Some ct => if smem n (ctfields ct) then Some None else None
                        | None => None
                        end }.

(** ** When chunks can be made *)

(** Words that Python reserves. *)
Definition python_words : list string :=
  ["False"; "None"; "True"; "and"; "as"; "assert"; "async"; "await"; "break"; "class"; "continue";
   "def"; "del"; "elif"; "else"; "except"; "finally"; "for"; "from"; "global"; "if"; "import"; "in";
   "is"; "lambda"; "nonlocal"; "not"; "or"; "pass"; "raise"; "return"; "try"; "while"; "with"; "yield"].
Definition identifier (s : string) : Prop := slot_name s /\ ~ In s python_words.

(** The type, if the list says one, is a word: no value, a known type, or an identifier; and one of
    the special types is not given other slots than its own. *)
Definition type_fine (r : registry) (names : dict chunk) (ps : list (string * written)) : Prop :=
  named ps "isa" ->
  forall v, slot_says (says_value names) ps (last (type_slots ps) "") v ->
  exists s, v = VStr s /\
    (s = "" \/ ((dget r s <> None \/ identifier s) /\
                (dget special_types s <> None -> exists ct, dget r s = Some ct /\ forall n, slot_said ps n -> In n (ctfields ct)))).

(** Slot names start with a letter and are not names of parameters of makechunk and Chunk. *)
Definition slots_fine (ps : list (string * written)) : Prop :=
  forall n, slot_said ps n -> begins (one_of_chars letters) n /\ ~ In n ["nameofchunk"; "typename"; "self"].

(** Known types have proper slot names, in order and without repetition (this is so at the start
    and remains so, see StringChunk.types_proper). *)
Definition proper_types (r : registry) : Prop :=
  forall ty ct, dget r ty = Some ct -> NoDup (ctfields ct) /\
    forall n, In n (ctfields ct) -> begins (one_of_chars letters) n /\ all wordish n.

(** ** Rule strings *)

(** One test or action as it is written: a sign, a buffer, and pairs. *)
Record wgroup := MkWG { wsign : ascii; wbuf : string; wpairs : list (string * written) }.

Definition buffer_name (b : string) : Prop := begins (one_of_chars letters) b /\ all wordish b.

(** [s] consists of the groups [gs], in some layout, and then [rest]. *)
Inductive side_text (signs : string) : list wgroup -> string -> string -> Prop :=
| side_nil rest : side_text signs [] rest rest
| side_cons c b ps gs g1 g2 g3 s s' rest :
    gap g1 -> one_of_chars signs c -> gap g2 -> buffer_name b -> gap g3 -> listing ps s s' ->
    side_text signs gs s' rest ->
    side_text signs (MkWG c b ps :: gs) (g1 ++ String c (g2 ++ b ++ g3 ++ String ">" s)) rest.

(** A rule string: tests, the arrow, actions. *)
Definition rule_text (ls rs : list wgroup) (s : string) : Prop :=
  exists g r r', ls <> [] /\ rs <> [] /\ gap g /\
    side_text "=?" ls s (g ++ "==>" ++ r) /\ side_text "?=+!~@*" rs r r' /\ gap r'.

Definition groups_no_tab (gs : list wgroup) : Prop := forall g, In g gs -> no_quoted_tab (wpairs g).

(** The text of a value, as it is kept in queries and commands (quotes included). *)
Definition written_text (v : written) : string :=
  match v with
  | WPlain s => s
  | WMark m s => mark_text m ++ s
  | WQuoted q s => String q (s ++ String q "")
  end.

(** [d] holds, for every slot, the text of the last pair for it. *)
Definition query_said (ps : list (string * written)) (d : dict string) : Prop :=
  (forall n, In n (dkeys d) <-> named ps n) /\
  (forall pre n v post, ps = (pre ++ (n, v) :: post)%list -> ~ named post n -> dget d n = Some (written_text v)).

(** What a group asks for, given the types and named chunks at the time of reading. *)
Inductive content_said (r : registry) (names : dict chunk) (fresh : string) (g : wgroup) : content -> Prop :=
| content_query d : wsign g = "?"%char -> query_said (wpairs g) d -> content_said r names fresh g (CDict d)
| content_clear : wsign g = "~"%char -> content_said r names fresh g CNone
| content_commands : wsign g = "!"%char ->
    content_said r names fresh g (CCmds (map (fun p => (fst p, written_text (snd p))) (wpairs g)))
| content_chunk c : ~ In (wsign g) ["?"; "~"; "!"]%char -> ~ conflict names (wpairs g) ->
    chunk_said r names fresh (wpairs g) c -> content_said r names fresh g (CChunk c).

Definition group_key (g : wgroup) : string := String (wsign g) (wbuf g).
