(** Property theorems about chunk strings and rule strings: C52, C83. *)
From Verif Require Import Base BaseFacts Chunks DecMem Buffers Productions TypeFacts Strings StringSpec StringRead StringMeaning StringChunk StringRule StringSides StringRound StringWitness.
Local Open Scope string_scope.

(** ** C52 *)

(** Full statement: without [no_quoted_tab], and without [dget names t = None] in [spells]; see the
    refutations below.  For slots and values written as plain or quoted words, in any layout, the
    chunk has exactly these slots and values, empty slots for the rest of its type, and the type
    given as isa. *)
Theorem C52_round_trip_partial : forall st name s ps l ty,
  chunk_text ps s -> no_quoted_tab ps -> spelled (nsnames st) ps l -> NoDup (map fst l) -> spelled_type l ty ->
  proper_types (nsreg st) -> ty <> "" -> dget (nsreg st) ty <> None \/ identifier ty ->
  (dget special_types ty <> None -> exists ct, dget (nsreg st) ty = Some ct /\ forall n, dget l n <> None -> n <> "isa" -> In n (ctfields ct)) ->
  (forall n, dget l n <> None -> n <> "isa" -> begins (one_of_chars letters) n /\ ~ In n ["nameofchunk"; "typename"; "self"]) ->
  exists st' c, chunkstring st name s = Ok (st', c) /\ ctype c = ty /\
    (forall n t, dget l n = Some t -> n <> "isa" -> dget (cslots c) n = Some (Some (MkVV (VStr t) None [] []))) /\
    (forall n, dget l n = None \/ n = "isa" -> dget (cslots c) n =
       match dget (nsreg st) ty with
       | Some ct => if smem n (ctfields ct) then Some None else None
       | None => None
       end) /\
    nsnames st' = dset (nsnames st) (if String.eqb name "" then "unnamedchunk" else name) c.
Proof. exact round_trip. Qed.
Print Assumptions C52_round_trip_partial.

Example C52_round_trip_example :
  (chunk_text sw_ps2 sw_s2 /\ no_quoted_tab sw_ps2) /\
  (spelled (nsnames sw_st) sw_ps2 sw_l2 /\ NoDup (map fst sw_l2) /\ spelled_type sw_l2 "fact") /\ proper_types (nsreg sw_st).
Proof. exact (conj sw_text2 (conj sw_spelled2 proper_init)). Qed.

(** Types stay proper, so the hypothesis of the round trip holds in every state that is reached. *)
Theorem C52_types_proper : proper_types init_registry /\
  forall st name s st' c, proper_types (nsreg st) -> chunkstring st name s = Ok (st', c) -> proper_types (nsreg st').
Proof. exact (conj proper_init types_proper). Qed.
Print Assumptions C52_types_proper.

(** With signs (variables, negations, comparisons) and slots that are named more than once: if a
    chunk comes back, it is what the string says. *)
Theorem C52_meaning_partial : forall st name s ps st' c,
  chunk_text ps s -> no_quoted_tab ps -> chunkstring st name s = Ok (st', c) ->
  ~ conflict (nsnames st) ps /\ chunk_said (nsreg st) (nsnames st) ("undefined" ++ digits_str (nscount st)) ps c.
Proof. exact chunkstring_meaning. Qed.
Print Assumptions C52_meaning_partial.

(** A chunk does come back. *)
Theorem C52_made : forall st name s ps,
  chunk_text ps s -> no_quoted_tab ps -> proper_types (nsreg st) -> ~ conflict (nsnames st) ps ->
  type_fine (nsreg st) (nsnames st) ps -> slots_fine ps -> exists st' c, chunkstring st name s = Ok (st', c).
Proof. exact chunkstring_made. Qed.
Print Assumptions C52_made.

Example C52_made_example : proper_types (nsreg sw_st) /\ ~ conflict (nsnames sw_st) sw_ps /\
  type_fine (nsreg sw_st) (nsnames sw_st) sw_ps /\ slots_fine sw_ps.
Proof. exact (conj proper_init sw_fine). Qed.

Example C52_meaning_example : chunk_text sw_ps sw_s /\ no_quoted_tab sw_ps /\
  exists st' c, chunkstring sw_st "" sw_s = Ok (st', c).
Proof. exact (conj sw_text (conj sw_no_tab sw_read)). Qed.

(** Two different values or variables for a slot raise ACTRError. *)
Theorem C52_conflict : forall st name s ps,
  chunk_text ps s -> no_quoted_tab ps -> conflict (nsnames st) ps -> chunkstring st name s = Err EActr.
Proof. exact chunkstring_conflict. Qed.
Print Assumptions C52_conflict.

Example C52_conflict_example : exists ps s, chunk_text ps s /\ conflict (nsnames sw_st) ps.
Proof. exact (ex_intro _ _ (ex_intro _ _ sw_conflict)). Qed.

(** The layout does not matter. *)
Theorem C52_layout : forall st name s s' ps,
  chunk_text ps s -> chunk_text ps s' -> no_quoted_tab ps -> chunkstring st name s = chunkstring st name s'.
Proof. exact chunkstring_layout. Qed.
Print Assumptions C52_layout.

(** A text without tabs that is no list of slot-value pairs, and no other, raises ParseException. *)
Theorem C52_others : forall st name s, ~ In tab (list_ascii_of_string s) ->
  (chunkstring st name s = Err EParse <-> ~ exists ps, chunk_text ps s).
Proof. exact chunkstring_parse. Qed.
Print Assumptions C52_others.

(** A tab between quotes is not read as written. *)
Theorem C52_tab_refuted :
  exists t s ps st' c w, chunk_text ps s /\ In ("v", WQuoted squote t) ps /\
    chunkstring (MkNS init_registry [] 0) "" s = Ok (st', c) /\ dget (cslots c) "v" = Some (Some w) /\ vvals w <> VStr t.
Proof. exact tab_changed. Qed.
Print Assumptions C52_tab_refuted.

(** What can be a value cannot always be negated. *)
Theorem C52_negated_refuted :
  (exists st' c, chunkstring (MkNS init_registry [] 0) "" "isa fact v 3.5" = Ok (st', c)) /\
  chunkstring (MkNS init_registry [] 0) "" "isa fact v ~3.5" = Err EParse /\
  chunkstring (MkNS init_registry [] 0) "" "isa fact v ~'two words'" = Err EParse.
Proof. exact sw_negated. Qed.
Print Assumptions C52_negated_refuted.

(** After any chunk was made without a name, the value "unnamedchunk" is read as that chunk. *)
Theorem C52_name_refuted : forall st s ps st1 c1,
  chunk_text ps s -> no_quoted_tab ps -> chunkstring st "" s = Ok (st1, c1) ->
  forall st' c w, chunkstring st1 "" "isa fact v unnamedchunk" = Ok (st', c) ->
  dget (cslots c) "v" = Some (Some w) -> vvals w = VChunk c1.
Proof. exact default_name. Qed.
Print Assumptions C52_name_refuted.

Example C52_name_example : exists st1 c1 st' c w,
  chunkstring (MkNS init_registry [] 0) "" sw_s2 = Ok (st1, c1) /\
  chunkstring st1 "" "isa fact v unnamedchunk" = Ok (st', c) /\ dget (cslots c) "v" = Some (Some w).
Proof. exact sw_name_case. Qed.

(** A chunk that bears the name of its type makes the type unusable in strings. *)
Theorem C52_type_name_refuted :
  exists st1 c, chunkstring (MkNS init_registry [] 0) "fact" "isa fact v 1" = Ok (st1, c) /\
    chunkstring st1 "other" "isa fact v 1" = Err EKey.
Proof. exact sw_type_name. Qed.
Print Assumptions C52_type_name_refuted.

(** 'ISA' alone does not give the type. *)
Theorem C52_isa_refuted :
  exists st1 c, chunkstring (MkNS init_registry [] 0) "" "ISA fact v 1" = Ok (st1, c) /\ ctype c <> "fact" /\
    dget (cslots c) "ISA" <> None.
Proof. exact sw_isa. Qed.
Print Assumptions C52_isa_refuted.

(** ** C83 *)

(** Full statement: the content for every group (here: for the last one with its sign and buffer,
    see C83_repeated_refuted), with names as they were when the rule was made (here: as they are
    when the rule is tried, see C83_names_refuted), quoted values of queries without their quotes
    (see C83_query_refuted). *)
Theorem C83_rule_partial : forall ls rs name s,
  rule_text ls rs s -> groups_no_tab ls -> groups_no_tab rs -> name <> "" ->
  exists x, productionstring name s = Ok x /\
  forall st st' l r, rule_sides st x = Ok (st', (l, r)) ->
    later st st' /\ side_said st ls [] l /\ exists st1, later st st1 /\ side_said st1 rs [] r.
Proof. exact rule_meaning. Qed.
Print Assumptions C83_rule_partial.

Example C83_rule_example : rule_text sw_ls sw_rs sw_rule /\ (groups_no_tab sw_ls /\ groups_no_tab sw_rs) /\
  exists x st' l r, productionstring "r" sw_rule = Ok x /\ rule_sides sw_st x = Ok (st', (l, r)).
Proof. exact (conj sw_rule_text (conj sw_rule_no_tab sw_rule_runs)). Qed.

Theorem C83_layout : forall ls rs name s s',
  rule_text ls rs s -> rule_text ls rs s' -> groups_no_tab ls -> groups_no_tab rs ->
  productionstring name s = productionstring name s'.
Proof. exact rule_layout. Qed.
Print Assumptions C83_layout.

(** A text without tabs that is no rule, and no other, raises ACTRError. *)
Theorem C83_others : forall name s, ~ In tab (list_ascii_of_string s) -> name <> "" ->
  (productionstring name s = Err EActr <-> ~ exists ls rs, rule_text ls rs s).
Proof. exact productionstring_parse. Qed.
Print Assumptions C83_others.

(** Every rule without a name raises TypeError, although the name is optional. *)
Theorem C83_nameless_refuted : forall s, productionstring "" s = Err EType.
Proof. exact nameless. Qed.
Print Assumptions C83_nameless_refuted.

(** Of two tests of one buffer the first is dropped without notice. *)
Theorem C83_repeated_refuted :
  exists ls rs s n v x st' l r c, rule_text ls rs s /\ In (MkWG "=" "g" [("isa", WPlain "fact"); (n, WPlain v)]) ls /\
    productionstring "r" s = Ok x /\ rule_sides (MkNS init_registry [] 0) x = Ok (st', (l, r)) /\
    dkeys l = ["=g"] /\ dget l "=g" = Some (CChunk c) /\ forall w, dget (cslots c) n <> Some (Some w).
Proof. exact twice_lost. Qed.
Print Assumptions C83_repeated_refuted.

(** A quoted value in a query is not the status that it names. *)
Theorem C83_query_refuted :
  exists x st' l r, productionstring "r" "?retrieval> state 'free' ==> ~g>" = Ok x /\
    rule_sides (MkNS init_registry [] 0) x = Ok (st', (l, r)) /\ dget l "?retrieval" = Some (CDict [("state", "'free'")]).
Proof. exact sw_quoted_query. Qed.
Print Assumptions C83_query_refuted.

(** A rule that has been made becomes another rule when a chunk gets a name that it uses as a value. *)
Theorem C83_names_refuted :
  exists st0 c, chunkstring (MkNS init_registry [] 0) "dog" "isa animal legs 4" = Ok (st0, c) /\
  exists x st1 l1 r1 st2 l2 r2,
    productionstring "r" "=g> isa fact pet dog ==> ~g>" = Ok x /\
    rule_sides (MkNS init_registry [] 0) x = Ok (st1, (l1, r1)) /\ rule_sides st0 x = Ok (st2, (l2, r2)) /\ l1 <> l2.
Proof. exact renamed. Qed.
Print Assumptions C83_names_refuted.
