(** Visual search and attention: C41, C42, C69, C70, C71. *)
From Coq Require Import Permutation.
From Verif Require Import BaseFacts Chunks TypeFacts SplitFacts ResolveFacts ModifyFacts Buffers BufferFacts Productions ProdSpec EffectFacts ProdWitness Vision VisionSpec VisionFacts VisionWitness VisionEffect VisionRun.
From Verif Require Import ChunkSpec.
Local Open Scope string_scope.
Local Open Scope list_scope.

(** ** C41 *)

(** Full statement: a found location belongs to an admissible object, none is better, and a search
    fails exactly if nothing is admissible.  Missing: requests that ask for the closest object only
    in screen_y and requests with negations (see the refutations); with two superlatives no object
    is better in one respect and at least as good in the other. *)
Theorem C41_search_partial : forall r f finst recent l o bs extra t px py r' res rst,
  registry_ok r -> texts_only o bs -> asks_for o bs t px py -> (py = Nearest -> px <> Anywhere) -> Forall proper_stim l ->
  visual_find r f finst recent (Some l) o bs extra = (r', Ok (res, rst)) ->
  match res with
  | None => forall s, In s l -> ~ admissible o bs extra finst recent t px py s
  | Some c => exists s, In s l /\ admissible o bs extra finst recent t px py s /\ locates c s /\
      forall s', In s' l -> admissible o bs extra finst recent t px py s' -> ~ dominated px py f (spot s) (spot s')
  end.
Proof. exact find_exact. Qed.
Print Assumptions C41_search_partial.

(** With one superlative, or closest in both coordinates, the object that was found is the best one. *)
Theorem C41_best_partial : forall r f finst recent l o bs extra t px py r' c rst,
  registry_ok r -> texts_only o bs -> asks_for o bs t px py -> (py = Nearest -> px <> Anywhere) -> Forall proper_stim l ->
  visual_find r f finst recent (Some l) o bs extra = (r', Ok (Some c, rst)) ->
  exists s, In s l /\ admissible o bs extra finst recent t px py s /\ locates c s /\
    forall s', In s' l -> admissible o bs extra finst recent t px py s' ->
      (superlative py = false -> penalty_x px f (spot s) <= penalty_x px f (spot s')) /\
      (superlative px = false -> penalty_y py f (spot s) <= penalty_y py f (spot s')) /\
      (px = Nearest -> py = Nearest -> penalty_x px f (spot s) <= penalty_x px f (spot s')).
Proof. exact find_best. Qed.
Print Assumptions C41_best_partial.

Example C41_search_example : exists o f l c,
  registry_ok init_registry /\ texts_only o nobind /\ asks_for o nobind None (Above 3) Nearest /\
  Forall proper_stim l /\ List.length l = 4%nat /\
  visual_find init_registry f 4 [vx_c] (Some l) o nobind [("attended", "False")] = (init_registry, Ok (Some c, Some vx_a)) /\ locates c vx_a.
Proof.
  exists (ask [("screen_x", ">3"); ("screen_y", "closest")]), (0, 0), [vx_far; vx_a; vx_b; vx_c], (loc_chunk 5 5).
  split; [exact init_ok|]. split; [apply request_texts; reflexivity|]. split; [apply asked; reflexivity|].
  split; [apply all_objs; repeat constructor; repeat eexists|]. split; [reflexivity|]. split; [vm_compute; reflexivity|apply loc_locates; reflexivity].
Qed.

(** Such a search ends normally if all names are known, and objects have texts when one is asked for. *)
Theorem C41_returns : forall r f finst recent l o bs extra t px py ct,
  registry_ok r -> texts_only o bs -> asks_for o bs t px py ->
  (forall n w, mentions o n w -> not_empty_bound bs w /\ ~ illegal bs false w) ->
  dget r "_visuallocation" = Some ct -> In "value" (ctfields ct) -> (forall n, In n (dkeys (cslots o)) -> In n (ctfields ct)) ->
  Forall proper_stim l -> Forall (known_stim r) l -> (t <> None -> Forall (fun s => sttext s <> None) l) ->
  exists res rst, visual_find r f finst recent (Some l) o bs extra = (r, Ok (res, rst)).
Proof. exact find_returns. Qed.
Print Assumptions C41_returns.

Example C41_returns_example : exists o ct,
  asks_for o nobind (Some "A") (Below 100) Lowest /\ texts_only o nobind /\
  (forall n w, mentions o n w -> not_empty_bound nobind w /\ ~ illegal nobind false w) /\
  dget init_registry "_visuallocation" = Some ct /\ In "value" (ctfields ct) /\ (forall n, In n (dkeys (cslots o)) -> In n (ctfields ct)) /\
  Forall proper_stim [vx_a; vx_b; vx_far] /\ Forall (known_stim init_registry) [vx_a; vx_b; vx_far] /\ Forall (fun s => sttext s <> None) [vx_a; vx_b; vx_far].
Proof.
  exists (ask [("value", "A"); ("screen_x", "<100"); ("screen_y", "lowest")]).
  eexists. split; [apply asked; reflexivity|]. split; [apply request_texts; reflexivity|].
  split.
  { intros n w (Hin & _). simpl in Hin. destruct Hin as [E|[E|[E|[]]]]; injection E as <- <-; (split; [intros x X; discriminate|]); intros X; inversion X; simpl in *; try contradiction; discriminate. }
  split; [reflexivity|]. split; [simpl; auto|]. split; [simpl; intuition (subst; auto)|].
  split; [apply all_objs; repeat constructor; repeat eexists|].
  split; [|repeat constructor; discriminate].
  assert (K : forall t x y, known_stim init_registry (obj t x y)).
  { intros t x y. eexists. split; [reflexivity|]. simpl. split; [auto|]. split; [auto|]. intros n s H. exfalso. exact (obj_shows _ _ _ _ _ H). }
  repeat constructor; apply K.
Qed.

(** The same for a request by a rule: at one moment the screen of that moment is searched; then the
    location found is in the buffer when it is announced, or nothing was admissible and the module
    is in error.  [focus]: where the eyes are. *)
Theorem C41_location_buffer_partial : forall R O focus name i o bs t s tr tx px py,
  sees O focus -> runs R (start O MRetrieve name i (CChunk o) bs t) s tr FDone ->
  searchable s i -> (forall h, In h tr -> searchable (hbefore h) i) ->
  texts_only o bs -> asks_for o bs tx px py -> (py = Nearest -> px <> Anywhere) ->
  exists h l finst recent, In h tr /\ views h i l finst recent /\
    let adm := admissible o bs (extra_of (hbefore h) name) finst recent tx px py in
    (exists h' c st, In h' tr /\ In st l /\ adm st /\ locates c st /\
       (forall st', In st' l -> adm st' -> ~ dominated px py (focus (hbefore h)) (spot st) (spot st')) /\
       announces h' t name "ENCODED LOCATION" /\ holds_chunks (sw (hafter h')) i [c] /\
       smods (hafter h') = smods (set_state i "free" (hbefore h'))) \/
    ((forall st, In st l -> ~ adm st) /\ announces h t name "ENCODED LOCATION" /\
       smods (hafter h) = smods (set_state i "error" (hbefore h))).
Proof. exact search_effect. Qed.
Print Assumptions C41_location_buffer_partial.

(** A search for the lowest object on a screen of three. *)
Example C41_location_buffer_example :
  sees vision_oracle (fun _ => (0, 0)%Q) /\ searchable lx_state 0 /\ (forall h, In h (fst lx_run) -> searchable (hbefore h) 0) /\
  runs rely (start vision_oracle MRetrieve "loc" 0 (CChunk lx_request) nobind 1) lx_state (fst lx_run) FDone /\
  texts_only lx_request nobind /\ asks_for lx_request nobind None Anywhere Lowest /\
  map ewhat (events (fst lx_run)) = [WUnknown; WText "CLEARED"; WText "ENCODED LOCATION"] /\
  nth_error (bufs (sw (hafter (last (fst lx_run) (MkHop lx_state [] None lx_state))))) 0 =
    Some (MkBuf KLocation [loc_chunk 4 4] (Some 0%nat) 4 [] [vx_c] None 0).
Proof.
  split; [exact vision_sees|]. split; [exact lx_searchable|]. split; [exact lx_steps|].
  split; [exact lx_runs|]. split; [apply request_texts; reflexivity|]. split; [apply asked; reflexivity|]. vm_compute. split; reflexivity.
Qed.

(** Two superlatives: the object found is not the lowest in screen_x, although it was asked for. *)
Theorem C41_two_superlatives_refuted : exists o f l c s',
  texts_only o nobind /\ asks_for o nobind None Lowest Lowest /\ Forall proper_stim l /\
  visual_find init_registry f 4 [] (Some l) o nobind [] = (init_registry, Ok (Some c, Some vx_c)) /\
  In s' l /\ admissible o nobind [] 4 [] None Lowest Lowest s' /\
  forall s, locates c s -> (fst (spot s') < fst (spot s))%Z.
Proof. exact two_superlatives. Qed.
Print Assumptions C41_two_superlatives_refuted.

(** The result then depends on the order of the objects. *)
Theorem C41_order_refuted : exists o f l l' c c' s s',
  texts_only o nobind /\ asks_for o nobind None Lowest Lowest /\ Forall proper_stim l /\ Permutation l l' /\
  visual_find init_registry f 4 [] (Some l) o nobind [] = (init_registry, Ok (Some c, Some s)) /\
  visual_find init_registry f 4 [] (Some l') o nobind [] = (init_registry, Ok (Some c', Some s')) /\
  locates c s /\ locates c' s' /\ spot s <> spot s'.
Proof. exact order_matters. Qed.
Print Assumptions C41_order_refuted.

(** Asking for the closest object only in screen_y is ignored. *)
Theorem C41_closest_refuted : exists o f l c s',
  texts_only o nobind /\ asks_for o nobind None Anywhere Nearest /\ Forall proper_stim l /\
  visual_find init_registry f 4 [] (Some l) o nobind [] = (init_registry, Ok (Some c, Some vx_far)) /\
  In s' l /\ admissible o nobind [] 4 [] None Anywhere Nearest s' /\
  forall s, locates c s -> penalty_y Nearest f (spot s') < penalty_y Nearest f (spot s).
Proof. exact closest_ignored. Qed.
Print Assumptions C41_closest_refuted.

(** A request for an object without a certain text never finds anything. *)
Theorem C41_negated_text_never_found : forall r f finst recent l o bs extra w r' res rst,
  names_distinct o -> NoDup (dkeys (bpos bs)) -> marks_free bs o ->
  mentions o "value" w -> vvals w = VNone -> vvar w = None ->
  visual_find r f finst recent (Some l) o bs extra = (r', Ok (res, rst)) -> res = None.
Proof. exact find_negated_text. Qed.
Print Assumptions C41_negated_text_never_found.
Theorem C41_negated_text_refuted : exists l s, In s l /\ sttext s = Some "B" /\ (forall n x, ~ shows s n x) /\
  visual_find init_registry (0, 0) 4 [] (Some l) (not_text "value" "A") nobind [] = (init_registry, Ok (None, None)).
Proof. exact negated_text_lost. Qed.
Print Assumptions C41_negated_text_refuted.

(** A request for an object that is not at 5 finds one at 5. *)
Theorem C41_negated_place_refuted : exists l c s, (forall s', In s' l -> fst (spot s') = 5%Z) /\ locates c s /\
  visual_find init_registry (0, 0) 4 [] (Some l) (not_text "screen_x" "5") nobind [] = (init_registry, Ok (Some c, Some s)).
Proof. exact negated_place_ignored. Qed.
Print Assumptions C41_negated_place_refuted.

(** One object without text makes the search for a text fail with a KeyError. *)
Theorem C41_textless_refuted : exists o l s, texts_only o nobind /\ asks_for o nobind (Some "A") Anywhere Anywhere /\ Forall proper_stim l /\
  In s l /\ admissible o nobind [] 4 [] (Some "A") Anywhere Anywhere s /\
  visual_find init_registry (0, 0) 4 [] (Some l) o nobind [] = (init_registry, Err EKey).
Proof. exact textless_breaks. Qed.
Print Assumptions C41_textless_refuted.

(** ** C42 *)

(** Full statement: for all searches.  Missing: screens with objects that show from afar something
    that was not asked for (see the refutation). *)
Theorem C42_reports_partial : forall r f finst recent l o bs extra t px py r' res rst,
  registry_ok r -> texts_only o bs -> asks_for o bs t px py -> (py = Nearest -> px <> Anywhere) -> Forall proper_stim l ->
  (forall s n x, In s l -> shows s n x -> wants o bs n (Some x)) ->
  visual_find r f finst recent (Some l) o bs extra = (r', Ok (res, rst)) ->
  (res = None /\ rst = None) \/
  exists c s, res = Some c /\ rst = Some s /\ In s l /\ admissible o bs extra finst recent t px py s /\ locates c s.
Proof. exact find_reports. Qed.
Print Assumptions C42_reports_partial.

(** Two red objects, and red is asked for. *)
Example C42_reports_example : exists o l,
  texts_only o nobind /\ asks_for o nobind None Anywhere Anywhere /\ Forall proper_stim l /\
  (forall s n x, In s l -> shows s n x -> wants o nobind n (Some x)) /\ In vx_red l /\ List.length l = 3%nat /\
  visual_find init_registry (0, 0) 4 [] (Some l) o nobind [] = (init_registry, Ok (Some red_chunk, Some vx_red)).
Proof.
  exists (ask [("color", "red")]), [vx_a; colored "B" "red" 9 9; vx_red].
  split; [apply request_texts; reflexivity|]. split; [apply asked; reflexivity|].
  split; [constructor; [apply obj_proper|]; constructor; [|constructor; [|constructor]]; apply colored_proper; try discriminate; simpl; repeat split; discriminate|].
  split.
  { intros s n x Hin Sh. destruct Hin as [<-|[<-|[<-|[]]]]; [exfalso; exact (obj_shows _ _ _ _ _ Sh)| |];
      apply colored_shows in Sh; destruct Sh as [-> ->]; exact (proj2 (request_texts [("color", "red")] eq_refl) "color"). }
  split; [simpl; auto|]. split; [reflexivity|]. vm_compute. reflexivity.
Qed.

(** Red was asked for; the red object is found, and the green one is remembered as attended. *)
Theorem C42_reports_refuted : exists o l c s w i w',
  texts_only o nobind /\ asks_for o nobind None Anywhere Anywhere /\ Forall proper_stim l /\
  visual_find (wreg w) (0, 0) 4 [] (Some l) o nobind [] = (wreg w, Ok (Some c, Some s)) /\
  step w (OAdd i (AChunk c) 0 None (Some s)) = (w', Ok None) /\ holds_chunks w' i [c] /\
  (exists b, nth_error (bufs w') i = Some b /\ bstims b = [s]) /\ ~ locates c s /\ ~ admissible o nobind [] 4 [] None Anywhere Anywhere s.
Proof. exact wrong_report. Qed.
Print Assumptions C42_reports_refuted.

(** ** C69 *)

(** Full statement: screen_x and screen_y can be asked to be below or above the value of a variable.
    Refuted: whatever is bound to the variable, the search is an error. *)
Theorem C69_comparison_refuted : forall r f finst recent stims o bs extra n w m x v,
  In n ["screen_x"; "screen_y"] -> In (n, Some w) (cslots o) -> vvals w = VStr m -> m = "<" \/ m = ">" ->
  vvar w = Some x -> x <> "" -> dget (bpos bs) x = Some v -> is_relational v = false ->
  exists r' e, visual_find r f finst recent stims o bs extra = (r', Err e).
Proof. exact find_comparison. Qed.
Print Assumptions C69_comparison_refuted.

Example C69_example :
  visual_find init_registry (0, 0) 4 [] (Some [vx_a]) (MkChunk "_visuallocation" [("screen_x", Some (MkVV (VStr "<") (Some "x") [] []))])
    (MkB [("x", VStr "100")] []) [] = (init_registry, Err EActr).
Proof. vm_compute. reflexivity. Qed.

(** ** C70 *)

(** Full statement: moving attention to a location that was found encodes the object found there.
    Missing: objects between pixels and several objects at one position (see the refutations). *)
Theorem C70_attend_found_partial : forall r l o bs c st r' v rst, attends o bs c -> locates c st -> In st l -> whole st ->
  (forall s, In s l -> same_place s st -> s = st) ->
  shift r (Some l) o bs = (r', Ok (v, rst)) -> rst = st.
Proof. exact attend_found. Qed.
Print Assumptions C70_attend_found_partial.

(** What is encoded has the text of the object and its location. *)
Theorem C70_encodes : forall r l o bs r' v st txt, shift r l o bs = (r', Ok (v, st)) -> proper_stim st -> sttext st = Some txt -> plain_text txt -> txt <> "None" ->
  holds v "value" (VStr txt) /\ exists loc, holds v "screen_pos" (VChunk loc) /\ locates loc st.
Proof. exact attend_encodes. Qed.
Print Assumptions C70_encodes.

(** Attention is moved if all names are known. *)
Theorem C70_returns : forall r l o bs c st, attends o bs c ->
  (forall n w, mentions o n w -> not_empty_bound bs w /\ ~ illegal bs true w) ->
  locates c st -> In st l -> whole st -> Forall proper_stim l -> Forall (known_visual r) l ->
  exists v rst, shift r (Some l) o bs = (r, Ok (v, rst)).
Proof. exact attend_returns. Qed.
Print Assumptions C70_returns.

Example C70_example : exists o bs v,
  attends o bs (loc_chunk 5 5) /\ locates (loc_chunk 5 5) vx_a /\ whole vx_a /\ Forall proper_stim [vx_b; vx_a] /\
  (forall n w, mentions o n w -> not_empty_bound bs w /\ ~ illegal bs true w) /\ Forall (known_visual init_registry) [vx_b; vx_a] /\
  (forall s, In s [vx_b; vx_a] -> same_place s vx_a -> s = vx_a) /\
  shift init_registry (Some [vx_b; vx_a]) o bs = (init_registry, Ok (v, vx_a)) /\ holds v "value" (VStr "A").
Proof.
  exists (fst (attend_to (loc_chunk 5 5))), (snd (attend_to (loc_chunk 5 5))). eexists.
  split; [apply attend_ok|]. split; [apply loc_locates; reflexivity|]. split; [split; reflexivity|].
  split; [apply all_objs; repeat constructor; repeat eexists|]. split.
  { intros n w (Hin & _). simpl in Hin. destruct Hin as [E|[E|[]]]; injection E as <- <-; split.
    - intros x v X; discriminate.
    - intros [x X|x X|_ [X|X]|x v X]; [discriminate|destruct X|apply X; reflexivity|apply X; reflexivity|discriminate].
    - intros x v X _ Hv B. simpl in Hv. destruct Hv as [Hv|[]]. injection Hv as _ <-. inversion B.
    - intros [x X _ N|x X|_ [X|X]|x v X _ Hv N]; [injection X as <-; apply N; left; reflexivity|destruct X|apply X; reflexivity|apply X; reflexivity|apply N; constructor]. }
  split.
  { assert (K : forall t x y, plain_text t -> known_visual init_registry (obj t x y)).
    { intros t x y P. split; [|split; [intros n s []|split; [intros z Z; injection Z as <-; exact P|]]].
      - eexists. split; [reflexivity|]. simpl. split; [auto|]. split; [auto|]. intros n s H. exfalso. exact (obj_shows _ _ _ _ _ H).
      - eexists. split; [reflexivity|]. simpl. split; [auto|]. split; [auto|]. split; [auto|]. intros n []. }
    constructor; [|constructor; [|constructor]]; apply K; simpl; repeat split; discriminate. }
  split; [intros s [<-|[<-|[]]]; [intros [X _]; discriminate|reflexivity]|].
  split; [vm_compute; reflexivity|]. exists (text_slot "A"). split; [reflexivity|]. split; [reflexivity|]. intros X. inversion X.
Qed.

(** If no object is exactly at the pixel, moving attention there is an error. *)
Theorem C70_fractional_refuted : forall r l o bs c st, attends o bs c -> locates c st ->
  (forall s, In s l -> ~ (stx s == inject_Z (fst (spot st)) /\ sty s == inject_Z (snd (spot st)))) ->
  exists r' e, shift r (Some l) o bs = (r', Err e).
Proof. exact attend_fractional. Qed.
Print Assumptions C70_fractional_refuted.

(** An object at 5.5 is found, but cannot be attended to. *)
Theorem C70_half_refuted : exists o l c o' bs',
  texts_only o nobind /\ asks_for o nobind (Some "A") Anywhere Anywhere /\ Forall proper_stim l /\
  visual_find init_registry (0, 0) 4 [] (Some l) o nobind [] = (init_registry, Ok (Some c, Some vx_half)) /\
  attends o' bs' c /\ shift init_registry (Some l) o' bs' = (init_registry, Err EUnbound).
Proof. exact half_lost. Qed.
Print Assumptions C70_half_refuted.

(** Text A is asked for and found, and B, at the same position, is encoded. *)
Theorem C70_same_place_refuted : exists o l c o' bs' v,
  texts_only o nobind /\ asks_for o nobind (Some "A") Anywhere Anywhere /\ Forall proper_stim l /\
  visual_find init_registry (0, 0) 4 [] (Some l) o nobind [] = (init_registry, Ok (Some c, Some vx_a)) /\
  attends o' bs' c /\ shift init_registry (Some l) o' bs' = (init_registry, Ok (v, vx_over)) /\ holds v "value" (VStr "B").
Proof. exact other_encoded. Qed.
Print Assumptions C70_same_place_refuted.

(** ** C71 *)

(** Automatic search finds the closest object that was not attended to recently. *)
Theorem C71_automatic_search : forall r f recent l r' res, Forall proper_stim l -> autosearch r f recent None l = (r', Ok res) ->
  match res with
  | None => forall s, In s l -> attended recent s
  | Some (c, s) => In s l /\ ~ attended recent s /\ locates c s /\
      forall s', In s' l -> ~ attended recent s' -> gap f s <= gap f s'
  end.
Proof. exact autosearch_exact. Qed.
Print Assumptions C71_automatic_search.

Example C71_example :
  Forall proper_stim [vx_far; vx_a; vx_b; vx_c] /\
  autosearch init_registry (0, 0) [vx_c] None [vx_far; vx_a; vx_b; vx_c] = (init_registry, Ok (Some (loc_chunk 5 5, vx_a))) /\
  autosearch init_registry (0, 0) [vx_c] None [vx_c] = (init_registry, Ok None).
Proof. split; [apply all_objs; repeat constructor; repeat eexists|]. vm_compute. split; reflexivity. Qed.
