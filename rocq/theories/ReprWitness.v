(** Chunks for C103. *)
From Verif Require Import BaseFacts Chunks ChunkSpec SplitFacts Strings StringWitness Repr ReprSpec ReprFacts.
Local Open Scope string_scope.

(** chunkstring("", "isa t a '=x'") and chunkstring("", "isa t a =x"): the text =x, and the variable x. *)
Definition rx_st : names_state := MkNS init_registry [] 0.
Definition rx_make (s : string) : option chunk :=
  match chunkstring rx_st "" s with Ok (_, c) => Some c | Err _ => None end.

Theorem printed_alike : exists s s' st st' c d,
  chunkstring rx_st "" s = Ok (st, c) /\ chunkstring rx_st "" s' = Ok (st', d) /\
  repr c = repr d /\ repr c = "t(a= =x)" /\ chunk_eqb nobind c d = false /\ chunk_eqb nobind d c = false.
Proof.
  destruct (chunkstring rx_st "" "isa t a '=x'") as [[st c]|] eqn:E; [|vm_compute in E; discriminate].
  destruct (chunkstring rx_st "" "isa t a =x") as [[st' d]|] eqn:E'; [|vm_compute in E'; discriminate].
  assert (X : rx_make "isa t a '=x'" = Some (MkChunk "t" [("a", Some (MkVV (VStr "=x") None [] []))])) by (vm_compute; reflexivity).
  assert (X' : rx_make "isa t a =x" = Some (MkChunk "t" [("a", Some (MkVV VNone (Some "x") [] []))])) by (vm_compute; reflexivity).
  unfold rx_make in X, X'. rewrite E in X. rewrite E' in X'. injection X as X. injection X' as X'.
  exists "isa t a '=x'", "isa t a =x", st, st', c, d. split; [exact E|]. split; [exact E'|]. rewrite X, X'.
  repeat split; vm_compute; reflexivity.
Qed.

(** A slot with a value and a variable, a slot with a negated value. *)
Theorem reread_differs : 
  (exists s w, stringsplitting s = Ok w /\ stringsplitting (vv_text value_text w) = Ok (MkVV VNone (vvar w) [] []) /\ vvals w <> VNone) /\
  (exists s w, stringsplitting s = Ok w /\ vvals w = VNone /\ exists w', stringsplitting (vv_text value_text w) = Ok w' /\ vvals w' <> VNone).
Proof.
  split.
  - exists "!5=x", (MkVV (VStr "5") (Some "x") [] []). split; [vm_compute; reflexivity|]. split; [vm_compute; reflexivity|discriminate].
  - exists "~!5", (MkVV VNone None [VStr "5"] []). split; [vm_compute; reflexivity|]. split; [reflexivity|].
    exists (MkVV (VStr "~5") None [] []). split; [vm_compute; reflexivity|discriminate].
Qed.

(** A chunk within a chunk, with negations and an empty slot. *)
Definition rx_in : chunk := MkChunk "pair" [("left", plain (VStr "one")); ("right", None)].
Definition rx_out : chunk :=
  MkChunk "fact" [("arg", plain (VChunk rx_in));
                  ("no", Some (MkVV (VStr "2") (Some "x") [VStr "3"; VChunk rx_in] ["y"; "z"]))].
Theorem rx_printed : printable rx_out /\
  repr rx_out = "fact(arg= pair(left= one, right= ), no= 2=x~3~pair(left= one, right= )~=y~=z)".
Proof.
  split; [|vm_compute; reflexivity].
  assert (W : forall s, s <> "" -> forallb (fun c => negb (existsb (Ascii.eqb c) ["="%char; "~"%char; ","%char; "("%char; ")"%char])) (list_ascii_of_string s) = true -> a_word s).
  { intros s N H. split; [exact N|]. clear N. induction s as [|c s IH]; [exact I|]. cbn [list_ascii_of_string forallb] in H.
    apply andb_true_iff in H. destruct H as [H1 H2]. split; [|apply IH; exact H2]. intros S. apply negb_true_iff in H1.
    apply (in_map (Ascii.eqb c)) in S. rewrite Ascii.eqb_refl in S.
    assert (T : existsb (Ascii.eqb c) ["="%char; "~"%char; ","%char; "("%char; ")"%char] = true).
    { apply existsb_exists. apply in_map_iff in S. destruct S as (d & Ed & Hd). exists d. auto. }
    congruence. }
  assert (I1 : value_printable (VChunk rx_in)).
  { split; [discriminate|]. split; [apply W; [discriminate|reflexivity]|]. cbn [cslots rx_in fold_right].
    split; [|split; [|exact I]].
    - split; [apply W; [discriminate|reflexivity]|]. cbn [snd plain]. split; [right; apply W; [discriminate|reflexivity]|].
      cbn. split; [discriminate|]. split; [exact I|]. split; [tauto|discriminate].
    - split; [apply W; [discriminate|reflexivity]|]. exact I. }
  split; [apply W; [discriminate|reflexivity]|]. cbn [cslots rx_out fold_right]. split; [|split; [|exact I]].
  - split; [apply W; [discriminate|reflexivity]|]. cbn [snd plain]. split; [right; exact I1|].
    cbn [vvar vnegvals vnegvars fold_right]. split; [discriminate|]. split; [exact I|]. split; [intros x []|discriminate].
  - split; [apply W; [discriminate|reflexivity]|]. cbn [snd]. split; [right; apply W; [discriminate|reflexivity]|].
    cbn [vvar vnegvals vnegvars fold_right]. split; [intros x E; injection E as <-; apply W; [discriminate|reflexivity]|].
    split; [split; [apply W; [discriminate|reflexivity]|split; [exact I1|exact I]]|].
    split; [|discriminate]. intros x [<-|[<-|[]]]; apply W; (discriminate || reflexivity).
Qed.
