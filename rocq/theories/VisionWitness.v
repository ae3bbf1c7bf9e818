(** Concrete screens and searches for C41, C42, C69, C70, C71. *)
From Coq Require Import Permutation Qabs Lqa.
From Verif Require Import BaseFacts Chunks TypeFacts SplitFacts ResolveFacts ModifyFacts Buffers BufferFacts Vision VisionSpec VisionFacts.
From Verif Require Import ChunkSpec.
Local Open Scope string_scope.

(** A request written as slots and texts. *)
Definition ask (l : dict string) : chunk := MkChunk "_visuallocation" (map (fun p => (fst p, Some (text_slot (snd p)))) l).
Definition simple (l : dict string) : bool :=
  nodupb (dkeys l) && forallb (fun p => negb (smem (snd p) [""; "<"; ">"])) l.

Lemma request_slot l n w : NoDup (dkeys l) -> In (n, Some w) (cslots (ask l)) -> exists s, dget l n = Some s /\ w = text_slot s.
Proof.
  intros Nd H. simpl in H. apply in_map_iff in H. destruct H as ([k s] & E & H). injection E as <- <-. exists s. split; [|reflexivity].
  apply dget_NoDup; assumption.
Qed.
Lemma request_texts l : simple l = true -> texts_only (ask l) nobind /\ forall n, wants (ask l) nobind n (dget l n).
Proof.
  intros H. unfold simple in H. apply andb_true_iff in H. destruct H as [Nd H]. apply nodupb_NoDup in Nd. rewrite forallb_forall in H.
  assert (Sm : forall n s, dget l n = Some s -> s <> "" /\ s <> "<" /\ s <> ">").
  { intros n s E. apply dget_In in E. specialize (H _ E). cbn [snd] in H. apply negb_true_iff in H. apply smem_not_In in H. simpl in H.
    repeat split; intros ->; apply H; auto. }
  assert (W : forall n, wants (ask l) nobind n (dget l n)).
  { intros n. destruct (dget l n) as [s|] eqn:E.
    - destruct (Sm n s E) as (A & _). apply wants_text with (text_slot s); [|apply (pos_val nobind (text_slot s)); [auto|]|reflexivity|reflexivity].
      + split; [|left; split; discriminate]. simpl. apply in_map_iff. exists (n, s). split; [reflexivity|apply dget_In; exact E].
      + intros B. inversion B. congruence.
    - constructor. intros w (Hin & _). destruct (request_slot l n w Nd Hin) as (s & E' & _). congruence. }
  split; [|exact W]. split; [|split; [constructor|split]].
  - unfold names_distinct, dkeys. simpl. rewrite map_map. simpl. exact Nd.
  - intros n w (Hin & _). destruct (request_slot l n w Nd Hin) as (s & E & ->). destruct (Sm n s E) as (_ & B & C). split.
    + simpl. apply orb_false_iff. split; apply String.eqb_neq; congruence.
    + intros x v X. discriminate.
  - intros n. exists (dget l n). apply W.
Qed.

(** An object with a text at a position, nothing visible from afar. *)
Definition obj (txt : string) (x y : Q) : stimulus := MkStim (Some txt) x y None None None None [].
Lemma obj_shows txt x y n s : ~ shows (obj txt x y) n s.
Proof. intros (l & E & _). discriminate. Qed.
Lemma obj_proper txt x y : proper_stim (obj txt x y).
Proof. split; [constructor|]. split; [intros []|]. intros n s H. exfalso. exact (obj_shows _ _ _ _ _ H). Qed.
(** An object whose color is visible from afar. *)
Definition colored (txt col : string) (x y : Q) : stimulus := MkStim (Some txt) x y None None None (Some ["color"]) [("color", col)].
Lemma colored_shows txt col x y n s : shows (colored txt col x y) n s <-> n = "color" /\ s = col.
Proof.
  split.
  - intros (l & E & Hn & H). injection E as <-. destruct Hn as [<-|[]]. split; [reflexivity|]. destruct H as [[H _]|[H|[]]]; [discriminate|].
    injection H as <-. reflexivity.
  - intros [-> ->]. exists ["color"]. simpl. auto.
Qed.
Lemma colored_proper txt col x y : plain_text col -> col <> "" -> col <> "None" -> proper_stim (colored txt col x y).
Proof.
  intros A B C. split; [simpl; constructor; [intros []|constructor]|]. split; [simpl; intros [X|[]]; discriminate|].
  intros n s H. apply colored_shows in H. destruct H as [_ ->]. auto.
Qed.


Lemma all_objs l : Forall (fun s => exists t x y, s = obj t x y) l -> Forall proper_stim l.
Proof. apply Forall_impl. intros s (t & x & y & ->). apply obj_proper. Qed.
Lemma asked l t px py : simple l = true -> dget l "value" = t -> dget l "screen_x" = place_text px -> dget l "screen_y" = place_text py ->
  asks_for (ask l) nobind t px py.
Proof. intros H A B C. destruct (request_texts l H) as (_ & W). unfold asks_for. rewrite <- A, <- B, <- C. auto. Qed.
Lemma objs_admissible o bs extra finst recent t px py txt x y : attention_ok extra finst recent (obj txt x y) ->
  (t = None \/ t = Some txt) -> lies px (pixel x) -> lies py (pixel y) -> admissible o bs extra finst recent t px py (obj txt x y).
Proof.
  intros A T X Y. split; [exact A|]. split; [intros s E; destruct T; subst; [discriminate|injection E as ->; reflexivity]|].
  split; [exact X|]. split; [exact Y|]. intros n s H. exfalso. exact (obj_shows _ _ _ _ _ H).
Qed.
Lemma locates_spot c st st' : locates c st -> locates c st' -> spot st = spot st'.
Proof.
  assert (F : forall c n v w, holds c n v -> holds c n w -> v = w).
  { intros c0 n v w (a & A & <- & _) (b & B & <- & _). congruence. }
  intros (A & B & _) (A' & B' & _). pose proof (F _ _ _ _ A A') as X. pose proof (F _ _ _ _ B B') as Y.
  injection X as X. injection Y as Y. apply numeral_inj in X. apply numeral_inj in Y.
  unfold spot. congruence.
Qed.
(** Chunks that a search over [obj]s returns. *)
Definition loc_chunk (x y : Z) : chunk :=
  MkChunk "_visuallocation" [("color", None); ("screen_x", Some (text_slot (numeral x))); ("screen_y", Some (text_slot (numeral y))); ("value", None)].
Lemma loc_locates x y st : spot st = (x, y) -> stvisible st = None -> locates (loc_chunk x y) st.
Proof.
  intros E V. unfold locates. rewrite E. simpl fst. simpl snd.
  assert (H : forall n z, dget (cslots (loc_chunk x y)) n = Some (Some (text_slot (numeral z))) -> holds (loc_chunk x y) n (VStr (numeral z))).
  { intros n z D. exists (text_slot (numeral z)). split; [exact D|]. split; [reflexivity|]. intros X. inversion X. apply (numeral_not_none z). auto. }
  assert (Ns : forall n s, ~ shows st n s) by (intros n s (l & X & _); congruence).
  split; [apply H; reflexivity|]. split; [apply H; reflexivity|]. split; [intros n s X; exfalso; exact (Ns _ _ X)|].
  intros n v (w & D & _). unfold loc_chunk in D. cbn [cslots] in D. apply dget_In in D.
  destruct D as [D|[D|[D|[D|[]]]]]; try discriminate; injection D as <- _; auto.
Qed.
Lemma loc_spot x y st : locates (loc_chunk x y) st -> spot st = (x, y).
Proof.
  intros ((w & A & A' & _) & (w' & B & B' & _) & _). cbn in A, B. injection A as <-. injection B as <-. cbn in A', B'.
  injection A' as A. injection B' as B. apply numeral_inj in A. apply numeral_inj in B. unfold spot. congruence.
Qed.

(** ** Two superlatives *)

Definition vx_a := obj "A" 5 5.
Definition vx_b := obj "B" 3 7.
Definition vx_c := obj "C" 4 4.
Definition corner : dict string := [("screen_x", "lowest"); ("screen_y", "lowest")].

Lemma two_superlatives : exists o f l c s',
  texts_only o nobind /\ asks_for o nobind None Lowest Lowest /\ Forall proper_stim l /\
  visual_find init_registry f 4 [] (Some l) o nobind [] = (init_registry, Ok (Some c, Some vx_c)) /\
  In s' l /\ admissible o nobind [] 4 [] None Lowest Lowest s' /\
  forall s, locates c s -> (fst (spot s') < fst (spot s))%Z.
Proof.
  exists (ask corner), (0, 0), [vx_a; vx_b; vx_c], (loc_chunk 4 4), vx_b.
  split; [apply request_texts; reflexivity|]. split; [apply asked; reflexivity|].
  split; [apply all_objs; repeat constructor; repeat eexists|]. split; [vm_compute; reflexivity|]. split; [simpl; auto|].
  split; [apply objs_admissible; [exact I| |exact I|exact I]; auto|]. intros s L. apply loc_spot in L. rewrite L. reflexivity.
Qed.
Lemma order_matters : exists o f l l' c c' s s',
  texts_only o nobind /\ asks_for o nobind None Lowest Lowest /\ Forall proper_stim l /\ Permutation l l' /\
  visual_find init_registry f 4 [] (Some l) o nobind [] = (init_registry, Ok (Some c, Some s)) /\
  visual_find init_registry f 4 [] (Some l') o nobind [] = (init_registry, Ok (Some c', Some s')) /\
  locates c s /\ locates c' s' /\ spot s <> spot s'.
Proof.
  exists (ask corner), (0, 0), [vx_a; vx_b; vx_c], [vx_b; vx_a; vx_c], (loc_chunk 4 4), (loc_chunk 3 7), vx_c, vx_b.
  split; [apply request_texts; reflexivity|]. split; [apply asked; reflexivity|].
  split; [apply all_objs; repeat constructor; repeat eexists|]. split; [apply perm_swap|]. split; [vm_compute; reflexivity|].
  split; [vm_compute; reflexivity|]. split; [apply loc_locates; reflexivity|]. split; [apply loc_locates; reflexivity|]. discriminate.
Qed.

(** ** Asking for the closest object in screen_y only *)

Definition vx_far := obj "Z" 300 300.
Lemma closest_ignored : exists o f l c s',
  texts_only o nobind /\ asks_for o nobind None Anywhere Nearest /\ Forall proper_stim l /\
  visual_find init_registry f 4 [] (Some l) o nobind [] = (init_registry, Ok (Some c, Some vx_far)) /\
  In s' l /\ admissible o nobind [] 4 [] None Anywhere Nearest s' /\
  forall s, locates c s -> penalty_y Nearest f (spot s') < penalty_y Nearest f (spot s).
Proof.
  exists (ask [("screen_y", "closest")]), (0, 0), [vx_a; vx_far], (loc_chunk 300 300), vx_a.
  split; [apply request_texts; reflexivity|]. split; [apply asked; reflexivity|].
  split; [apply all_objs; repeat constructor; repeat eexists|]. split; [vm_compute; reflexivity|]. split; [simpl; auto|].
  split; [apply objs_admissible; [exact I| |exact I|exact I]; auto|]. intros s L. apply loc_spot in L. rewrite L. vm_compute. reflexivity.
Qed.

(** ** Negations *)

Definition not_text (n s : string) : chunk := MkChunk "_visuallocation" [(n, Some (MkVV VNone None [VStr s] []))].
Lemma negated_text_lost : exists l s, In s l /\ sttext s = Some "B" /\ (forall n x, ~ shows s n x) /\
  visual_find init_registry (0, 0) 4 [] (Some l) (not_text "value" "A") nobind [] = (init_registry, Ok (None, None)).
Proof. exists [vx_b], vx_b. split; [simpl; auto|]. split; [reflexivity|]. split; [intros n x; apply obj_shows|]. vm_compute. reflexivity. Qed.
Lemma negated_place_ignored : exists l c s, (forall s', In s' l -> fst (spot s') = 5%Z) /\ locates c s /\
  visual_find init_registry (0, 0) 4 [] (Some l) (not_text "screen_x" "5") nobind [] = (init_registry, Ok (Some c, Some s)).
Proof.
  exists [vx_a], (loc_chunk 5 5), vx_a. split; [intros s' [<-|[]]; reflexivity|]. split; [apply loc_locates; reflexivity|]. vm_compute. reflexivity.
Qed.
(** An object without text makes every search for a text fail. *)
Definition vx_mute := MkStim None 1 1 None None None None [].
Lemma textless_breaks : exists o l s, texts_only o nobind /\ asks_for o nobind (Some "A") Anywhere Anywhere /\ Forall proper_stim l /\
  In s l /\ admissible o nobind [] 4 [] (Some "A") Anywhere Anywhere s /\
  visual_find init_registry (0, 0) 4 [] (Some l) o nobind [] = (init_registry, Err EKey).
Proof.
  exists (ask [("value", "A")]), [vx_a; vx_mute], vx_a. split; [apply request_texts; reflexivity|]. split; [apply asked; reflexivity|]. split.
  - constructor; [apply obj_proper|]. constructor; [|constructor]. split; [constructor|]. split; [intros []|]. intros n s (l & E & _). discriminate.
  - split; [simpl; auto|]. split; [apply objs_admissible; [exact I| |exact I|exact I]; auto|]. vm_compute. reflexivity.
Qed.

(** ** The object that is reported *)

Definition vx_red := colored "A" "red" 5 5.
Definition vx_green := colored "B" "green" 10 10.
Definition red_chunk : chunk :=
  MkChunk "_visuallocation" [("color", Some (text_slot "red")); ("screen_x", Some (text_slot "5")); ("screen_y", Some (text_slot "5")); ("value", None)].
Lemma red_locates : locates red_chunk vx_red.
Proof.
  apply (location_locates init_registry vx_red init_registry red_chunk); [|vm_compute; reflexivity].
  apply colored_proper; try discriminate. simpl. repeat split; discriminate.
Qed.
Lemma wrong_report : exists o l c s w i w',
  texts_only o nobind /\ asks_for o nobind None Anywhere Anywhere /\ Forall proper_stim l /\
  visual_find (wreg w) (0, 0) 4 [] (Some l) o nobind [] = (wreg w, Ok (Some c, Some s)) /\
  step w (OAdd i (AChunk c) 0 None (Some s)) = (w', Ok None) /\ holds_chunks w' i [c] /\
  (exists b, nth_error (bufs w') i = Some b /\ bstims b = [s]) /\ ~ locates c s /\ ~ admissible o nobind [] 4 [] None Anywhere Anywhere s.
Proof.
  set (w := MkW [] [MkBuf KLocation [] None 4 [] [] None 0] init_registry).
  exists (ask [("color", "red")]), [vx_red; vx_green], red_chunk, vx_green, w, 0%nat, (fst (step w (OAdd 0 (AChunk red_chunk) 0 None (Some vx_green)))).
  split; [apply request_texts; reflexivity|]. split; [apply asked; reflexivity|].
  split; [constructor; [|constructor; [|constructor]]; apply colored_proper; try discriminate; simpl; repeat split; discriminate|].
  split; [vm_compute; reflexivity|]. split; [vm_compute; reflexivity|].
  split; [eexists; split; [vm_compute; reflexivity|reflexivity]|]. split; [eexists; split; vm_compute; reflexivity|]. split.
  - intros L. pose proof (locates_spot _ _ _ red_locates L) as X. discriminate.
  - intros (_ & _ & _ & _ & X). specialize (X "color" "green"). assert (Y : wants (ask [("color", "red")]) nobind "color" (Some "green")) by (apply X; apply colored_shows; auto).
    inversion Y as [|v s M P _ _]. subst. destruct M as (M & _). simpl in M. destruct M as [M|[]]. injection M as <-. inversion P as [x v A|A B E|A B]; discriminate.
Qed.

(** ** Attending *)

Definition attend_to (c : chunk) : chunk * bindings :=
  (MkChunk "_visual" [("cmd", Some (text_slot "move_attention")); ("screen_pos", Some (MkVV VNone (Some "loc") [] []))], MkB [("loc", VChunk c)] []).
Lemma attend_ok c : attends (fst (attend_to c)) (snd (attend_to c)) c.
Proof.
  split; [repeat constructor; simpl; intuition discriminate|]. split; [repeat constructor; intros []|]. split.
  - intros n w (Hin & _). simpl in Hin. destruct Hin as [E|[E|[]]]; injection E as <- <-; split; try reflexivity; intros x v X H; try discriminate.
    simpl in H. destruct H as [H|[]]. injection H as _ <-. reflexivity.
  - split.
    + exists (MkVV VNone (Some "loc") [] []). split; [split; [simpl; auto|right; left; exists "loc"; split; [reflexivity|discriminate]]|].
      apply (pos_var _ _ "loc"); [reflexivity|discriminate|left; reflexivity].
    + exists (text_slot "move_attention"). split; [simpl; auto|left; split; discriminate].
Qed.

(** An object between pixels: found, but attention cannot be moved there. *)
Definition vx_half := obj "A" (11 # 2) 5.
Lemma half_lost : exists o l c o' bs',
  texts_only o nobind /\ asks_for o nobind (Some "A") Anywhere Anywhere /\ Forall proper_stim l /\
  visual_find init_registry (0, 0) 4 [] (Some l) o nobind [] = (init_registry, Ok (Some c, Some vx_half)) /\
  attends o' bs' c /\ shift init_registry (Some l) o' bs' = (init_registry, Err EUnbound).
Proof.
  exists (ask [("value", "A")]), [vx_half; vx_b], (loc_chunk 5 5), (fst (attend_to (loc_chunk 5 5))), (snd (attend_to (loc_chunk 5 5))).
  split; [apply request_texts; reflexivity|]. split; [apply asked; reflexivity|]. split; [apply all_objs; repeat constructor; repeat eexists|].
  split; [vm_compute; reflexivity|]. split; [apply attend_ok|]. vm_compute. reflexivity.
Qed.
(** Two objects at one position: one is found, the other one is encoded. *)
Definition vx_over := obj "B" 5 5.
Lemma other_encoded : exists o l c o' bs' v,
  texts_only o nobind /\ asks_for o nobind (Some "A") Anywhere Anywhere /\ Forall proper_stim l /\
  visual_find init_registry (0, 0) 4 [] (Some l) o nobind [] = (init_registry, Ok (Some c, Some vx_a)) /\
  attends o' bs' c /\ shift init_registry (Some l) o' bs' = (init_registry, Ok (v, vx_over)) /\ holds v "value" (VStr "B").
Proof.
  exists (ask [("value", "A")]), [vx_a; vx_over], (loc_chunk 5 5), (fst (attend_to (loc_chunk 5 5))), (snd (attend_to (loc_chunk 5 5))). eexists.
  split; [apply request_texts; reflexivity|]. split; [apply asked; reflexivity|]. split; [apply all_objs; repeat constructor; repeat eexists|].
  split; [vm_compute; reflexivity|]. split; [apply attend_ok|]. split; [vm_compute; reflexivity|].
  exists (text_slot "B"). split; [reflexivity|]. split; [reflexivity|]. intros X. inversion X.
Qed.
