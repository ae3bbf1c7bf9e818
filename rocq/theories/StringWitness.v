(** Concrete strings: cases that meet the hypotheses, and counterexamples. *)
From Verif Require Import Base BaseFacts Chunks DecMem Buffers Productions TypeFacts Strings StringSpec StringRead StringMeaning StringChunk StringRule StringSides StringRound.
Local Open Scope string_scope.

(** ** Only the reader raises ParseException *)

Lemma nt_fill_no_parse ct fs : forall i kw, nt_fill ct i fs kw <> Err EParse.
Proof.
  induction fs as [|f fs IH]; intros i kw; cbn [nt_fill]; [discriminate|].
  destruct (dget kw f) as [v|]; [|destruct (nt_default ct i) as [v|]; [|discriminate]]; cbn [rbind].
  all: destruct (nt_fill ct (S i) fs kw) as [l|e] eqn:E; cbn [rbind]; [discriminate|]; intros H; injection H as ->; exact (IH _ _ E).
Qed.

Lemma raw_args_convert d : exists kw, convert_all (raw_args d) = Ok kw.
Proof.
  induction d as [|[n w] d [kw IH]]; [exists []; reflexivity|].
  unfold raw_args in *. cbn [map fst snd convert_all convert rbind]. rewrite IH. eexists. reflexivity.
Qed.

Lemma mk_chunk_no_parse r s d : mk_chunk r s (raw_args d) <> Err EParse.
Proof.
  unfold mk_chunk. destruct (raw_args_convert d) as [kw ->]. cbn [rbind].
  match goal with |- (let '(_, _) := ?x in _) <> _ => destruct x as [kw' r'] end.
  destruct (dget r' s) as [ct|]; [|discriminate]. unfold nt_call. destruct (subset (dkeys kw') (ctfields ct)); [|discriminate].
  destruct (nt_fill ct 0 (ctfields ct) kw') as [l|e] eqn:E; cbn [rbind]; [discriminate|]. intros H. injection H as ->.
  exact (nt_fill_no_parse _ _ _ _ E).
Qed.

Lemma chunk_of_pairs_no_parse st name l : chunk_of_pairs st name l <> Err EParse.
Proof.
  unfold chunk_of_pairs, createchunkdict. destruct (rmap_close (gather (nsnames st) l)) as [(d0 & E0 & _)|(n & t & e & _ & Ee & E0)];
    rewrite E0; cbn [rbind].
  2:{ intros H. injection H as ->. unfold close_parts in Ee. destruct (pvals t) as [|v [|v' vs]], (pvars t) as [|x [|x' xs]]; discriminate. }
  match goal with |- context [pop_type ?x] => destruct (pop_type x) as [ty d] end. fold (raw_args d).
  unfold makechunk. destruct (existsb _ _); [discriminate|]. cbv zeta. destruct (raw_args_convert d) as [kw Ek].
  match goal with |- (let '(_, _) := ?x in _) <> _ => destruct x as [ty' k] end.
  destruct ty' as [| |s|c]; try (rewrite Ek; discriminate). destruct (_ || _); [|rewrite Ek; discriminate].
  destruct (mk_chunk (nsreg st) s (raw_args d)) as [[r c]|e] eqn:E; cbn [rbind]; [discriminate|]. intros H. injection H as ->.
  exact (mk_chunk_no_parse _ _ _ E).
Qed.

(** A text without tabs raises ParseException exactly if it is no list of pairs. *)
Theorem chunkstring_parse st name s :
  ~ In tab (list_ascii_of_string s) ->
  (chunkstring st name s = Err EParse <-> ~ exists ps, chunk_text ps s).
Proof.
  intros Ht. assert (E : expandtabs 0 s = s).
  { apply expandtabs_none. unfold all. apply Forall_forall. intros c Hc ->. contradiction. }
  unfold chunkstring. destruct (chunk_reader s) as [l|] eqn:Er.
  - split; [intros H; destruct (chunk_of_pairs_no_parse _ _ _ H)|]. intros H. destruct H.
    apply chunk_reader_sound in Er. rewrite E in Er. destruct Er as (ps & Hp & _). exists ps. exact Hp.
  - split; [|reflexivity]. intros _ (ps & Hp). rewrite chunk_reader_unfold, E in Er.
    assert (H : read_pairs s = Some (parts_of ps)) by (apply read_pairs_iff; exists ps; auto). congruence.
Qed.

Theorem productionstring_parse name s :
  ~ In tab (list_ascii_of_string s) -> name <> "" ->
  (productionstring name s = Err EActr <-> ~ exists ls rs, rule_text ls rs s).
Proof.
  intros Ht Hn. assert (E : expandtabs 0 s = s).
  { apply expandtabs_none. unfold all. apply Forall_forall. intros c Hc ->. contradiction. }
  unfold productionstring. apply String.eqb_neq in Hn. rewrite Hn. destruct (rule_reader s) as [x|] eqn:Er.
  - split; [discriminate|]. intros H. destruct H. apply rule_reader_sound in Er. rewrite E in Er.
    destruct Er as (ls & rs & Hp & _). exists ls, rs. exact Hp.
  - split; [|reflexivity]. intros _ (ls & rs & Hp). rewrite rule_reader_unfold, E in Er.
    assert (H : read_rule s = Some (map group_of ls, map group_of rs)) by (apply read_rule_iff; exists ls, rs; auto). congruence.
Qed.

Theorem rule_read ls rs name s :
  rule_text ls rs s -> groups_no_tab ls -> groups_no_tab rs -> name <> "" ->
  productionstring name s = Ok (map group_of ls, map group_of rs).
Proof.
  intros H H1 H2 Hn. unfold productionstring. apply String.eqb_neq in Hn.
  rewrite Hn, (rule_reader_complete ls rs s H H1 H2). reflexivity.
Qed.

(** ** The properties, put together *)

Theorem chunkstring_meaning st name s ps st' c :
  chunk_text ps s -> no_quoted_tab ps -> chunkstring st name s = Ok (st', c) ->
  ~ conflict (nsnames st) ps /\ chunk_said (nsreg st) (nsnames st) (fresh_type st) ps c.
Proof.
  intros Ht Hq H. rewrite (chunkstring_reads st name s ps Ht Hq) in H. destruct (chunk_text_written ps s Ht) as [Hw _].
  destruct (chunk_of_pairs_sound st name ps st' c Hw H) as (A & B & _). auto.
Qed.

Theorem chunkstring_made st name s ps :
  chunk_text ps s -> no_quoted_tab ps -> proper_types (nsreg st) -> ~ conflict (nsnames st) ps ->
  type_fine (nsreg st) (nsnames st) ps -> slots_fine ps -> exists st' c, chunkstring st name s = Ok (st', c).
Proof.
  intros Ht Hq Hp Hc Hf Hs. rewrite (chunkstring_reads st name s ps Ht Hq). destruct (chunk_text_written ps s Ht) as [Hw Hn].
  apply chunk_of_pairs_makes; assumption.
Qed.

Theorem chunkstring_conflict st name s ps :
  chunk_text ps s -> no_quoted_tab ps -> conflict (nsnames st) ps -> chunkstring st name s = Err EActr.
Proof.
  intros Ht Hq Hc. rewrite (chunkstring_reads st name s ps Ht Hq). destruct (chunk_text_written ps s Ht) as [Hw _].
  apply chunk_of_pairs_conflict; assumption.
Qed.

Theorem chunkstring_layout st name s s' ps :
  chunk_text ps s -> chunk_text ps s' -> no_quoted_tab ps -> chunkstring st name s = chunkstring st name s'.
Proof. intros H H' Hq. rewrite (chunkstring_reads st name s ps H Hq), (chunkstring_reads st name s' ps H' Hq). reflexivity. Qed.

Theorem rule_meaning ls rs name s :
  rule_text ls rs s -> groups_no_tab ls -> groups_no_tab rs -> name <> "" ->
  exists x, productionstring name s = Ok x /\
  forall st st' l r, rule_sides st x = Ok (st', (l, r)) ->
    later st st' /\ side_said st ls [] l /\ exists st1, later st st1 /\ side_said st1 rs [] r.
Proof.
  intros H H1 H2 Hn. exists (map group_of ls, map group_of rs). split; [apply rule_read; assumption|].
  intros st st' l r E. exact (rule_sides_said st ls rs s st' l r H E).
Qed.

Theorem rule_layout ls rs name s s' :
  rule_text ls rs s -> rule_text ls rs s' -> groups_no_tab ls -> groups_no_tab rs ->
  productionstring name s = productionstring name s'.
Proof.
  intros H H' H1 H2. unfold productionstring. rewrite (rule_reader_complete ls rs s H H1 H2), (rule_reader_complete ls rs s' H' H1 H2). reflexivity.
Qed.

Lemma nameless s : productionstring "" s = Err EType.
Proof. reflexivity. Qed.

(** ** Building texts *)

Ltac char_in := vm_compute; repeat (first [left; reflexivity | right]); fail.
Ltac char_all := unfold gap, all, slot_name; cbn [list_ascii_of_string]; repeat (apply Forall_cons; [char_in|]); apply Forall_nil.
Ltac char_not := let H := fresh in intros H; vm_compute in H; repeat (destruct H as [H|H]; [discriminate|]); destruct H.

Definition sw_st : names_state := MkNS init_registry [] 0.

(** A string over several lines, with quotes, signs and repeated slots. *)
Definition sw_ps : list (string * written) :=
  [("isa", WPlain "fact"); ("a", WQuoted squote "two words"); ("b", WMark MVar "x"); ("b", WMark MNeg "7"); ("c", WPlain "3.5")].
Definition sw_s : string :=
  "isa fact" ++ String newline "  a 'two words'b= x b ~7" ++ String newline " c   3.5 ".

Lemma sw_text : chunk_text sw_ps sw_s.
Proof.
  exists " ". split; [discriminate|]. split; [|char_all].
  apply (listing_cons "isa" (WPlain "fact") _ "" " " "fact"); [char_all|split; [char_in|char_all]|char_all|apply writes_plain; [discriminate|char_all]|char_not|char_not|].
  apply (listing_cons "a" (WQuoted squote "two words") _ (String newline "  ") " " "'two words'");
    [char_all|split; [char_in|char_all]|char_all| |char_not|exact I|].
  { apply (writes_quoted squote "two words"); [char_in|]. unfold all. cbn [list_ascii_of_string]. repeat (apply Forall_cons; [repeat split; discriminate|]); apply Forall_nil. }
  apply (listing_cons "b" (WMark MVar "x") _ "" "" "= x"); [char_all|split; [char_in|char_all]|char_all| |char_not|char_not|].
  { apply (writes_mark MVar " " "x"); [char_all|discriminate|char_all]. }
  apply (listing_cons "b" (WMark MNeg "7") _ " " " " "~7"); [char_all|split; [char_in|char_all]|char_all| |char_not|char_not|].
  { apply (writes_mark MNeg "" "7"); [char_all|discriminate|char_all]. }
  apply (listing_cons "c" (WPlain "3.5") _ (String newline " ") "   " "3.5");
    [char_all|split; [char_in|char_all]|char_all|apply writes_plain; [discriminate|char_all]|char_not|char_not|].
  apply listing_nil.
Qed.

Ltac pair_plain n v g1 g2 :=
  apply (listing_cons n (WPlain v) _ g1 g2 v);
    [char_all|split; [char_in|char_all]|char_all|apply writes_plain; [discriminate|char_all]|char_not|char_not|].
Ltac pair_mark n m v g1 g2 g3 :=
  let t := eval compute in (mark_text m ++ g3 ++ v) in
  apply (listing_cons n (WMark m v) _ g1 g2 t);
    [char_all|split; [char_in|char_all]|char_all|apply (writes_mark m g3 v); [char_all|discriminate|char_all]|char_not|char_not|].
Ltac pair_quoted n q v g1 g2 :=
  let t := eval compute in (String q (v ++ String q "")) in
  apply (listing_cons n (WQuoted q v) _ g1 g2 t);
    [char_all|split; [char_in|char_all]|char_all|
     apply (writes_quoted q v); [char_in|unfold all; cbn [list_ascii_of_string];
       repeat (apply Forall_cons; [repeat split; discriminate|]); apply Forall_nil]
    |char_not|exact I|].

(** ** Chunk strings *)

Definition sw_ps2 : list (string * written) :=
  [("a", WQuoted squote "two words"); ("isa", WPlain "fact"); ("c", WPlain "3.5")].
Definition sw_l2 : list (string * string) := [("a", "two words"); ("isa", "fact"); ("c", "3.5")].
Definition sw_s2 : string := "a'two words'isa   fact" ++ String newline (String tab "c 3.5").
Lemma sw_text2 : chunk_text sw_ps2 sw_s2 /\ no_quoted_tab sw_ps2.
Proof.
  split.
  - exists "". split; [discriminate|]. split; [|char_all].
    pair_quoted "a" squote "two words" "" "". pair_plain "isa" "fact" "" "   ".
    pair_plain "c" "3.5" (String newline (String tab "")) " ". apply listing_nil.
  - intros n q s [E|[E|[E|[]]]]; try discriminate. injection E as <- <- <-. char_not.
Qed.
Lemma sw_spelled2 : spelled (nsnames sw_st) sw_ps2 sw_l2 /\ NoDup (map fst sw_l2) /\ spelled_type sw_l2 "fact".
Proof.
  split; [|split; [apply nodupb_NoDup; reflexivity|split; reflexivity]].
  unfold spelled, sw_ps2, sw_l2.
  apply Forall2_cons; [split; [reflexivity|right; exists squote; reflexivity]|].
  apply Forall2_cons; [split; [reflexivity|left; split; reflexivity]|].
  apply Forall2_cons; [split; [reflexivity|left; split; reflexivity]|]. apply Forall2_nil.
Qed.

Lemma sw_no_tab : no_quoted_tab sw_ps.
Proof. intros n q s [E|[E|[E|[E|[E|[]]]]]]; try discriminate. injection E as <- <- <-. char_not. Qed.

Definition sw_value (x : res (names_state * chunk)) (n : string) : option value :=
  match x with
  | Ok (_, c) => match dget (cslots c) n with Some (Some w) => Some (vvals w) | _ => None end
  | Err _ => None
  end.

(** A tab between quotes is not kept. *)
Definition sw_tab : string := "a" ++ String tab "b".
Lemma sw_tab_text : chunk_text [("isa", WPlain "fact"); ("v", WQuoted squote sw_tab)] ("isa fact v'" ++ sw_tab ++ "'").
Proof.
  exists "". split; [discriminate|]. split; [|char_all].
  pair_plain "isa" "fact" "" " ". pair_quoted "v" squote sw_tab " " "". apply listing_nil.
Qed.
Lemma sw_tab_changed : exists st' c, chunkstring sw_st "" ("isa fact v'" ++ sw_tab ++ "'") = Ok (st', c) /\
  dget (cslots c) "v" = Some (Some (MkVV (VStr "a    b") None [] [])) /\ sw_tab <> "a    b".
Proof. do 2 eexists. split; [vm_compute; reflexivity|]. split; [vm_compute; reflexivity|discriminate]. Qed.

(** A plain text that cannot be negated. *)
Lemma sw_negated : (exists st' c, chunkstring sw_st "" "isa fact v 3.5" = Ok (st', c)) /\
  chunkstring sw_st "" "isa fact v ~3.5" = Err EParse /\ chunkstring sw_st "" "isa fact v ~'two words'" = Err EParse.
Proof. split; [do 2 eexists; vm_compute; reflexivity|]. split; vm_compute; reflexivity. Qed.

(** A word that happens to be the name of a chunk. *)
Definition sw_named : names_state := match chunkstring sw_st "" "isa fact v 1" with Ok (st, _) => st | Err _ => sw_st end.
Lemma sw_name_text : chunk_text [("isa", WPlain "fact"); ("v", WPlain "unnamedchunk")] "isa fact v unnamedchunk".
Proof.
  exists "". split; [discriminate|]. split; [|char_all].
  pair_plain "isa" "fact" "" " ". pair_plain "v" "unnamedchunk" " " " ". apply listing_nil.
Qed.

(** A chunk that has the name of its type. *)
Lemma sw_type_name : exists st1 c, chunkstring sw_st "fact" "isa fact v 1" = Ok (st1, c) /\
  chunkstring st1 "other" "isa fact v 1" = Err EKey.
Proof. do 2 eexists. split; [vm_compute; reflexivity|vm_compute; reflexivity]. Qed.

(** 'ISA' on its own is a slot. *)
Lemma sw_isa : exists st1 c, chunkstring sw_st "" "ISA fact v 1" = Ok (st1, c) /\ ctype c <> "fact" /\
  dget (cslots c) "ISA" <> None.
Proof. do 2 eexists. split; [vm_compute; reflexivity|]. split; discriminate. Qed.

(** Two different values for a slot. *)
Lemma sw_conflict : chunk_text [("isa", WPlain "fact"); ("v", WPlain "1"); ("v", WPlain "2")] "isa fact v 1 v 2" /\
  conflict (nsnames sw_st) [("isa", WPlain "fact"); ("v", WPlain "1"); ("v", WPlain "2")].
Proof.
  split.
  - exists "". split; [discriminate|]. split; [|char_all].
    pair_plain "isa" "fact" "" " ". pair_plain "v" "1" " " " ". pair_plain "v" "2" " " " ". apply listing_nil.
  - exists "v". left. exists (VStr "1"), (VStr "2"). split; [|split; [|reflexivity]].
    + exists (WPlain "1"). split; [right; left; reflexivity|]. apply says_plain. reflexivity.
    + exists (WPlain "2"). split; [right; right; left; reflexivity|]. apply says_plain. reflexivity.
Qed.

(** ** Rule strings *)

Ltac group c b g1 g2 g3 :=
  match goal with |- side_text ?sg (MkWG _ _ ?ps :: ?gs) _ ?rest =>
    eapply (side_cons sg c b ps gs g1 g2 g3 _ _ rest); [char_all|char_in|char_all|split; [char_in|char_all]|char_all| |] end.

Definition sw_ls : list wgroup :=
  [MkWG "=" "g" [("isa", WPlain "fact"); ("a", WMark MVar "x")]; MkWG "?" "retrieval" [("state", WPlain "free")]].
Definition sw_rs : list wgroup :=
  [MkWG "=" "g" [("isa", WPlain "fact"); ("a", WPlain "done")];
   MkWG "+" "retrieval" [("isa", WPlain "fact"); ("b", WMark MNegvar "x")]; MkWG "~" "h" []].
Definition sw_rule : string :=
  "=g> isa fact a =x ? retrieval > state free" ++ String newline "==>" ++ String newline "=g>isa fact a done +retrieval> isa fact b~=x ~h> ".
Lemma sw_rule_text : rule_text sw_ls sw_rs sw_rule.
Proof.
  exists (String newline ""), (String newline "=g>isa fact a done +retrieval> isa fact b~=x ~h> "), " ".
  split; [discriminate|]. split; [discriminate|]. split; [char_all|]. split; [|split; [|char_all]].
  - unfold sw_ls. group "="%char "g" "" "" "".
    { pair_plain "isa" "fact" " " " ". pair_mark "a" MVar "x" " " " " "". apply listing_nil. }
    group "?"%char "retrieval" " " " " " ".
    { pair_plain "state" "free" " " " ". apply listing_nil. }
    apply side_nil.
  - unfold sw_rs. group "="%char "g" (String newline "") "" "".
    { pair_plain "isa" "fact" "" " ". pair_plain "a" "done" " " " ". apply listing_nil. }
    group "+"%char "retrieval" " " "" "".
    { pair_plain "isa" "fact" " " " ". pair_mark "b" MNegvar "x" " " "" "". apply listing_nil. }
    group "~"%char "h" " " "" "".
    { apply listing_nil. }
    apply side_nil.
Qed.
Lemma sw_rule_no_tab : groups_no_tab sw_ls /\ groups_no_tab sw_rs.
Proof.
  split; intros g Hg n q s Hin; repeat (destruct Hg as [<-|Hg]; [repeat (destruct Hin as [Hin|Hin]; [discriminate|]); destruct Hin|]); destruct Hg.
Qed.
Lemma sw_rule_sides : exists st' l r, rule_sides sw_st (map group_of sw_ls, map group_of sw_rs) = Ok (st', (l, r)).
Proof. do 3 eexists. vm_compute. reflexivity. Qed.

(** Two tests of one buffer: only the second is kept. *)
Definition sw_twice : list wgroup :=
  [MkWG "=" "g" [("isa", WPlain "fact"); ("a", WPlain "1")]; MkWG "=" "g" [("isa", WPlain "fact"); ("b", WPlain "2")]].
Definition sw_then : list wgroup := [MkWG "~" "g" []].
Lemma sw_twice_text : rule_text sw_twice sw_then "=g> isa fact a 1 =g> isa fact b 2 ==> ~g>".
Proof.
  exists " ", " ~g>", "". split; [discriminate|]. split; [discriminate|]. split; [char_all|]. split; [|split; [|char_all]].
  - unfold sw_twice. group "="%char "g" "" "" "".
    { pair_plain "isa" "fact" " " " ". pair_plain "a" "1" " " " ". apply listing_nil. }
    group "="%char "g" " " "" "".
    { pair_plain "isa" "fact" " " " ". pair_plain "b" "2" " " " ". apply listing_nil. }
    apply side_nil.
  - unfold sw_then. group "~"%char "g" " " "" "".
    { apply listing_nil. }
    apply side_nil.
Qed.
Lemma sw_twice_lost : exists x st' l r c,
  productionstring "r" "=g> isa fact a 1 =g> isa fact b 2 ==> ~g>" = Ok x /\
  rule_sides sw_st x = Ok (st', (l, r)) /\ dkeys l = ["=g"] /\ dget l "=g" = Some (CChunk c) /\
  forall w, dget (cslots c) "a" <> Some (Some w).
Proof.
  do 5 eexists. split; [vm_compute; reflexivity|]. split; [vm_compute; reflexivity|]. split; [vm_compute; reflexivity|].
  split; [vm_compute; reflexivity|]. intros w. vm_compute. discriminate.
Qed.

(** A quoted value in a query keeps its quotes, so it is not the status that it names. *)
Definition sw_quoted_rule : string := "?retrieval> state 'free' ==> ~g>".
Lemma sw_quoted_query : exists x st' l r,
  productionstring "r" sw_quoted_rule = Ok x /\ rule_sides sw_st x = Ok (st', (l, r)) /\
  dget l "?retrieval" = Some (CDict [("state", "'free'")]).
Proof. do 4 eexists. split; [vm_compute; reflexivity|]. split; [vm_compute; reflexivity|]. vm_compute. reflexivity. Qed.

(** The same stored rule is another rule after a chunk was given a name. *)
Definition sw_dog : names_state := match chunkstring sw_st "dog" "isa animal legs 4" with Ok (st, _) => st | Err _ => sw_st end.
Lemma sw_dog_made : exists c, chunkstring sw_st "dog" "isa animal legs 4" = Ok (sw_dog, c).
Proof. eexists. vm_compute. reflexivity. Qed.
Lemma sw_renamed : exists x st1 l1 r1 st2 l2 r2,
  productionstring "r" "=g> isa fact pet dog ==> ~g>" = Ok x /\
  rule_sides sw_st x = Ok (st1, (l1, r1)) /\ rule_sides sw_dog x = Ok (st2, (l2, r2)) /\ l1 <> l2.
Proof.
  do 7 eexists. split; [vm_compute; reflexivity|]. split; [vm_compute; reflexivity|]. split; [vm_compute; reflexivity|]. discriminate.
Qed.

(** ** The refutations, put together *)

Lemma sw_read : exists st' c, chunkstring sw_st "" sw_s = Ok (st', c).
Proof. do 2 eexists. vm_compute. reflexivity. Qed.

Lemma tab_changed :
  exists t s ps st' c w, chunk_text ps s /\ In ("v", WQuoted squote t) ps /\
    chunkstring (MkNS init_registry [] 0) "" s = Ok (st', c) /\ dget (cslots c) "v" = Some (Some w) /\ vvals w <> VStr t.
Proof.
  destruct sw_tab_changed as (st' & c & A & B & C).
  exists sw_tab, ("isa fact v'" ++ sw_tab ++ "'"), [("isa", WPlain "fact"); ("v", WQuoted squote sw_tab)], st', c, (MkVV (VStr "a    b") None [] []).
  split; [exact sw_tab_text|]. split; [right; left; reflexivity|]. split; [exact A|]. split; [exact B|]. cbn [vvals]. congruence.
Qed.

Lemma default_name st s ps st1 c1 :
  chunk_text ps s -> no_quoted_tab ps -> chunkstring st "" s = Ok (st1, c1) ->
  forall st' c w, chunkstring st1 "" "isa fact v unnamedchunk" = Ok (st', c) ->
  dget (cslots c) "v" = Some (Some w) -> vvals w = VChunk c1.
Proof.
  intros Ht Hq H st' c w H' Hw. rewrite (chunkstring_reads st "" s ps Ht Hq) in H. destruct (chunk_text_written ps s Ht) as [Hwr _].
  destruct (chunk_of_pairs_sound st "" ps st1 c1 Hwr H) as (_ & _ & En & _). change (stored_name "") with "unnamedchunk" in En.
  assert (Hq' : no_quoted_tab [("isa", WPlain "fact"); ("v", WPlain "unnamedchunk")]).
  { intros n q x [E|[E|[]]]; discriminate. }
  destruct (chunkstring_meaning st1 "" _ _ st' c sw_name_text Hq' H') as [_ Hs].
  destruct (said_slots _ _ _ _ _ Hs "v") as (w' & E & Hr).
  - split; [right; left; reflexivity|]. cbn. intros [E|[]]. discriminate.
  - rewrite Hw in E. injection E as <-. destruct (read_val _ _ _ _ Hr) as [[Hno _]|(v & Hin & Hv)].
    + exfalso. apply (Hno (VChunk c1)). exists (WPlain "unnamedchunk"). split; [right; left; reflexivity|].
      apply says_name. rewrite En. apply dget_dset_eq.
    + destruct Hin as [Hin|[Hin|[]]]; [discriminate|]. injection Hin as <-. inversion Hv as [x y Hx|x Hx|x y|x|x|x|x]; subst.
      * rewrite En, dget_dset_eq in Hx. congruence.
      * rewrite En, dget_dset_eq in Hx. discriminate.
Qed.

Lemma sw_name_case : exists st1 c1 st' c w,
  chunkstring (MkNS init_registry [] 0) "" sw_s2 = Ok (st1, c1) /\
  chunkstring st1 "" "isa fact v unnamedchunk" = Ok (st', c) /\ dget (cslots c) "v" = Some (Some w).
Proof. do 5 eexists. split; [vm_compute; reflexivity|]. split; [vm_compute; reflexivity|]. vm_compute. reflexivity. Qed.

Lemma sw_rule_runs : exists x st' l r, productionstring "r" sw_rule = Ok x /\ rule_sides sw_st x = Ok (st', (l, r)).
Proof. do 4 eexists. split; [vm_compute; reflexivity|]. vm_compute. reflexivity. Qed.

Lemma twice_lost :
  exists ls rs s n v x st' l r c, rule_text ls rs s /\ In (MkWG "=" "g" [("isa", WPlain "fact"); (n, WPlain v)]) ls /\
    productionstring "r" s = Ok x /\ rule_sides (MkNS init_registry [] 0) x = Ok (st', (l, r)) /\
    dkeys l = ["=g"] /\ dget l "=g" = Some (CChunk c) /\ forall w, dget (cslots c) n <> Some (Some w).
Proof.
  destruct sw_twice_lost as (x & st' & l & r & c & H). exists sw_twice, sw_then, "=g> isa fact a 1 =g> isa fact b 2 ==> ~g>", "a", "1", x, st', l, r, c.
  split; [exact sw_twice_text|]. split; [left; reflexivity|exact H].
Qed.

Lemma renamed :
  exists st0 c, chunkstring (MkNS init_registry [] 0) "dog" "isa animal legs 4" = Ok (st0, c) /\
  exists x st1 l1 r1 st2 l2 r2,
    productionstring "r" "=g> isa fact pet dog ==> ~g>" = Ok x /\
    rule_sides (MkNS init_registry [] 0) x = Ok (st1, (l1, r1)) /\ rule_sides st0 x = Ok (st2, (l2, r2)) /\ l1 <> l2.
Proof. exists sw_dog. destruct sw_dog_made as [c E]. exists c. split; [exact E|exact sw_renamed]. Qed.

Lemma sw_fine : ~ conflict (nsnames sw_st) sw_ps /\ type_fine (nsreg sw_st) (nsnames sw_st) sw_ps /\ slots_fine sw_ps.
Proof.
  split; [|split].
  - destruct sw_read as (st' & c & E). apply (chunkstring_meaning sw_st "" sw_s sw_ps st' c sw_text sw_no_tab E).
  - intros _ v (u & Hin & Hv). cbn in Hin. repeat (destruct Hin as [Hin|Hin]; [try discriminate|]); [|destruct Hin].
    injection Hin as <-. inversion Hv as [x y Hx|x Hx|x y|x|x|x|x]; [discriminate|]. exists "fact". split; [reflexivity|]. right.
    split; [right|intros Hx0; destruct Hx0; reflexivity].
    split; [split; [char_in|char_all]|]. char_not.
  - intros n [Hn Ht]. unfold named in Hn. cbn in Hn. cbn in Ht.
    destruct Hn as [E|Hn]; [destruct Ht; left; exact E|]. clear Ht.
    repeat (destruct Hn as [E|Hn]; [rewrite <- E; split; [char_in|char_not]|]). destruct Hn.
Qed.
