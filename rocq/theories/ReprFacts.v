(** Proofs about texts of chunks (C103). *)
From Verif Require Import BaseFacts Chunks ChunkSpec ChunkFacts SplitFacts Repr ReprSpec.
Local Open Scope string_scope.

(** ** Words and what ends them *)

Definition stops (s : string) : Prop := match s with "" => True | String c _ => separator c end.
Definition ends (s : string) : Prop := match s with "" => True | String c _ => separator c /\ c <> "("%char end.

Lemma ends_stops s : ends s -> stops s.
Proof. destruct s; [auto|]. intros [H _]. exact H. Qed.

Lemma word_split w : forall w' r r', no_separator w -> no_separator w' -> stops r -> stops r' ->
  w ++ r = w' ++ r' -> w = w' /\ r = r'.
Proof.
  induction w as [|c w IH]; intros [|c' w'] r r' W W' Sr Sr' E; cbn [append] in E.
  - auto.
  - subst r. destruct W' as [W' _]. destruct (W' Sr).
  - subst r'. destruct W as [W _]. destruct (W Sr').
  - injection E as -> E. destruct W as [_ W], W' as [_ W']. destruct (IH w' r r' W W' Sr Sr' E) as [-> ->]. auto.
Qed.

Ltac sep := cbn; tauto.

Lemma word_starts w r c s : a_word w -> w ++ r = String c s -> ~ separator c.
Proof. intros [N W] E. destruct w as [|a w]; [congruence|]. injection E as -> _. apply W. Qed.

(** ** The texts, with what follows them *)

Fixpoint all (f : value -> string) (vs : list value) (r : string) : string :=
  match vs with [] => r | v :: vs' => "~" ++ f v ++ all f vs' r end.
Fixpoint alln (xs : list string) (r : string) : string :=
  match xs with [] => r | x :: xs' => "~=" ++ x ++ alln xs' r end.

Lemma concat_cons x (l : list string) : String.concat "" (x :: l) = x ++ String.concat "" l.
Proof. cbn. destruct l; [symmetry; apply append_nil_r|reflexivity]. Qed.

Lemma all_eq f vs r : String.concat "" (map (fun v => "~" ++ f v) vs) ++ r = all f vs r.
Proof.
  induction vs as [|v vs IH]; [reflexivity|]. cbn [map]. rewrite concat_cons, !append_assoc, IH. reflexivity.
Qed.
Lemma alln_eq xs r : String.concat "" (map (fun x => "~=" ++ x) xs) ++ r = alln xs r.
Proof.
  induction xs as [|x xs IH]; [reflexivity|]. cbn [map]. rewrite concat_cons, !append_assoc, IH. reflexivity.
Qed.

Definition var_str (x : option string) (r : string) : string :=
  match x with Some (String a s) => "=" ++ String a s ++ r | _ => r end.
Definition val_str (f : value -> string) (v : value) (r : string) : string :=
  if truthy v then f v ++ r else r.
Definition vv_str f (w : vv) (r : string) : string :=
  val_str f (vvals w) (var_str (vvar w) (all f (vnegvals w) (alln (vnegvars w) r))).

Lemma vv_eq f w r : vv_text f w ++ r = vv_str f w r.
Proof.
  unfold vv_text, vv_str, val_str, var_str. rewrite !append_assoc, alln_eq, all_eq.
  destruct (truthy (vvals w)), (vvar w) as [[|a x]|]; rewrite ?append_assoc; reflexivity.
Qed.

Definition slot_str f (s : slotval) (r : string) : string := match s with Some w => vv_str f w r | None => r end.
Lemma slot_eq f s r : slot_text f s ++ r = slot_str f s r.
Proof. destruct s; [apply vv_eq|reflexivity]. Qed.

Fixpoint slots_str f (l : list (string * slotval)) (r : string) : string :=
  match l with [] => ")" ++ r | p :: l' => ", " ++ fst p ++ "= " ++ slot_str f (snd p) (slots_str f l' r) end.

Lemma slots_eq f l : forall txt r, txt <> "" -> Forall (fun p => fst p <> "") l ->
  fold_left (add_slot f) l txt ++ ")" ++ r = txt ++ slots_str f l r.
Proof.
  induction l as [|p l IH]; intros txt r Ht Hl; cbn [fold_left slots_str]; [reflexivity|].
  inversion Hl. subst. unfold add_slot at 2. destruct (String.eqb txt "") eqn:E; [apply String.eqb_eq in E; congruence|].
  cbn [negb]. rewrite IH; [|destruct txt; discriminate|assumption].
  rewrite !append_assoc, slot_eq. reflexivity.
Qed.

Definition chunk_str f (c : chunk) (r : string) : string :=
  ctype c ++ "(" ++ match cslots c with
                    | [] => ")" ++ r
                    | p :: l => fst p ++ "= " ++ slot_str f (snd p) (slots_str f l r)
                    end.
Lemma chunk_eq f c r : Forall (fun p => fst p <> "") (cslots c) -> chunk_text_with f c ++ r = chunk_str f c r.
Proof.
  intros H. unfold chunk_text_with, chunk_str. rewrite !append_assoc. do 2 f_equal.
  destruct (cslots c) as [|p l]; [reflexivity|]. inversion H. subst. cbn [fold_left]. unfold add_slot at 2.
  cbn [String.eqb negb]. destruct (String.eqb (fst p) "") eqn:E; [apply String.eqb_eq in E; congruence|]. cbn [negb].
  rewrite slots_eq; [|destruct (fst p); [congruence|discriminate]|assumption].
  rewrite !append_assoc, slot_eq. reflexivity.
Qed.

(** ** Reading back *)

Lemma neg_and (P : value -> Prop) vs : fold_right (fun v r => P v /\ r) True vs <-> Forall P vs.
Proof.
  induction vs as [|v vs IH]; cbn; [split; auto|]. rewrite IH. split; [intros []; constructor; auto|].
  intros H. inversion H. auto.
Qed.
Lemma slots_and P l : fold_right (fun p r => slot_printable P p /\ r) True l <-> Forall (slot_printable P) l.
Proof.
  induction l as [|v vs IH]; cbn; [split; auto|]. rewrite IH. split; [intros []; constructor; auto|].
  intros H. inversion H. auto.
Qed.

Notation vt := value_text.

Lemma vt_starts v r c s : value_printable v -> vt v ++ r = String c s -> ~ separator c.
Proof.
  destruct v as [| |x|d]; cbn [value_printable vt]; try contradiction.
  - apply word_starts.
  - intros [_ [W _]]. unfold chunk_text_with. rewrite append_assoc. apply word_starts. exact W.
Qed.

Lemma vt_not v r : value_printable v -> forall c s, separator c -> vt v ++ r <> String c s.
Proof. intros H c s Hc E. apply (vt_starts v r c s H E Hc). Qed.

Definition read (v : value) : Prop := forall v' r r', value_printable v -> value_printable v' ->
  ends r -> ends r' -> vt v ++ r = vt v' ++ r' -> v = v' /\ r = r'.

Lemma alln_read xs : forall xs' r r', Forall a_word xs -> Forall a_word xs' ->
  (forall s, r <> "~" ++ s) -> (forall s, r' <> "~" ++ s) -> stops r -> stops r' ->
  alln xs r = alln xs' r' -> xs = xs' /\ r = r'.
Proof.
  induction xs as [|x xs IH]; intros [|x' xs'] r r' W W' N N' Sr Sr' E; cbn [alln] in E.
  - auto.
  - destruct (N _ E).
  - symmetry in E. destruct (N' _ E).
  - injection E as E. inversion W as [|? ? [_ W1] W2]. inversion W' as [|? ? [_ W1'] W2']. subst.
    assert (S1 : forall ys s, stops s -> stops (alln ys s)) by (intros ys; destruct ys; intros s0 Hs; [exact Hs|sep]).
    destruct (word_split _ _ _ _ W1 W1' (S1 xs r Sr) (S1 xs' r' Sr') E) as [-> E'].
    destruct (IH xs' r r' W2 W2' N N' Sr Sr' E') as [-> ->]. auto.
Qed.

(** What may follow a slot: a comma or a closing parenthesis. *)
Definition after (s : string) : Prop := match s with String c _ => c = ","%char \/ c = ")"%char | "" => False end.

Lemma after_ends s : after s -> ends s.
Proof. destruct s as [|c s]; [contradiction|]. intros [->| ->]; split; (sep || discriminate). Qed.
Lemma after_not s : after s -> forall c t, In c ["="%char; "~"%char; "("%char] -> s <> String c t.
Proof. destruct s as [|c s]; [contradiction|]. intros [->| ->] d t Hd E; injection E as <- _; cbn in Hd; intuition discriminate. Qed.

Lemma alln_ends xs r : after r -> ends (alln xs r).
Proof. intros H. destruct xs; [apply after_ends; exact H|]. split; [sep|discriminate]. Qed.
Lemma all_ends f vs xs r : after r -> ends (all f vs (alln xs r)).
Proof. intros H. destruct vs; [apply alln_ends; exact H|]. split; [sep|discriminate]. Qed.

Lemma alln_tilde xs r v s : after r -> value_printable v -> alln xs r <> "~" ++ vt v ++ s.
Proof.
  intros H P E. destruct xs as [|x xs]; cbn [alln append] in E.
  - apply (after_not _ H "~"%char _) in E; [exact E|sep].
  - injection E as E. symmetry in E. apply vt_not in E; [exact E|exact P|sep].
Qed.

Lemma all_read vs : forall vs' xs xs' r r', Forall read vs -> Forall value_printable vs -> Forall value_printable vs' ->
  Forall a_word xs -> Forall a_word xs' -> after r -> after r' ->
  all vt vs (alln xs r) = all vt vs' (alln xs' r') -> vs = vs' /\ xs = xs' /\ r = r'.
Proof.
  induction vs as [|v vs IH]; intros [|v' vs'] xs xs' r r' HR P P' W W' A A' E; cbn [all] in E.
  - split; [reflexivity|]. apply alln_read in E; try assumption.
    1,2: intros s; apply after_not; [assumption|sep].
    all: apply ends_stops, after_ends; assumption.
  - inversion P'. subst. apply alln_tilde in E; [contradiction|assumption|assumption].
  - inversion P. subst. symmetry in E. apply alln_tilde in E; [contradiction|assumption|assumption].
  - injection E as E. inversion HR. inversion P. inversion P'. subst.
    match goal with H : read v |- _ => apply H in E end; try assumption; try (apply all_ends; assumption).
    destruct E as [-> E]. destruct (IH vs' xs xs' r r') as (-> & -> & ->); auto.
Qed.

Lemma var_ends x vs xs r : after r -> ends (var_str x (all vt vs (alln xs r))).
Proof. intros H. destruct x as [[|a x]|]; try (apply all_ends; exact H). split; [sep|discriminate]. Qed.

Lemma all_var vs xs r x s : after r -> Forall value_printable vs -> all vt vs (alln xs r) <> "=" ++ x ++ s.
Proof.
  intros H P E. destruct vs as [|v vs]; cbn [all] in E; [|discriminate].
  destruct xs as [|y xs]; cbn [alln] in E; [|discriminate]. apply (after_not _ H "="%char _) in E; [exact E|sep].
Qed.

Lemma var_read x x' vs vs' xs xs' r r' : (forall y, x = Some y -> a_word y) -> (forall y, x' = Some y -> a_word y) ->
  Forall read vs -> Forall value_printable vs -> Forall value_printable vs' ->
  Forall a_word xs -> Forall a_word xs' -> after r -> after r' ->
  var_str x (all vt vs (alln xs r)) = var_str x' (all vt vs' (alln xs' r')) -> x = x' /\ vs = vs' /\ xs = xs' /\ r = r'.
Proof.
  intros X X' HR P P' W W' A A' E.
  destruct x as [[|a x]|]; [destruct (X "" eq_refl) as [N _]; congruence| |];
  (destruct x' as [[|a' x']|]; [destruct (X' "" eq_refl) as [N _]; congruence| |]); cbn [var_str] in E.
  - injection E as Ea E. destruct (X _ eq_refl) as [_ W1], (X' _ eq_refl) as [_ W1'].
    destruct (word_split (String a x) (String a' x') (all vt vs (alln xs r)) (all vt vs' (alln xs' r')) W1 W1') as [E1 E2].
    + apply ends_stops, all_ends. exact A.
    + apply ends_stops, all_ends. exact A'.
    + cbn [append]. rewrite Ea, E. reflexivity.
    + rewrite E1. split; [reflexivity|]. apply all_read; assumption.
  - symmetry in E. apply all_var in E; [contradiction|assumption|assumption].
  - apply all_var in E; [contradiction|assumption|assumption].
  - split; [reflexivity|]. apply all_read; assumption.
Qed.

Lemma printable_truthy v : value_printable v -> truthy v = true.
Proof.
  destruct v as [| |s|c]; cbn [value_printable truthy]; try contradiction.
  - intros [H _]. destruct s; [congruence|reflexivity].
  - intros [H _]. destruct (cslots c); [congruence|reflexivity].
Qed.

Lemma var_starts x vs xs r v s : after r -> value_printable v -> var_str x (all vt vs (alln xs r)) <> vt v ++ s.
Proof.
  intros H P E. symmetry in E.
  assert (G : ends (var_str x (all vt vs (alln xs r)))) by (apply var_ends; exact H).
  assert (N : var_str x (all vt vs (alln xs r)) <> "").
  { destruct x as [[|a x]|]; try discriminate; (destruct vs; [|discriminate]); (destruct xs; [|discriminate]);
      cbn; destruct r; [contradiction|discriminate|contradiction|discriminate]. }
  destruct (var_str x (all vt vs (alln xs r))) as [|c t]; [congruence|]. destruct G as [G _].
  apply (vt_not v s P c t G E).
Qed.

Definition vv_words (w : vv) : Prop :=
  (vvals w = VNone \/ value_printable (vvals w)) /\ (forall x, vvar w = Some x -> a_word x) /\
  Forall value_printable (vnegvals w) /\ Forall a_word (vnegvars w).
Lemma vv_words_of w : vv_printable value_printable w -> vv_words w.
Proof.
  intros (A & B & C & D & _). split; [exact A|]. split; [exact B|]. split; [apply neg_and; exact C|].
  apply Forall_forall. exact D.
Qed.

Lemma vv_read w w' r r' : read (vvals w) -> Forall read (vnegvals w) -> vv_words w -> vv_words w' ->
  after r -> after r' -> vv_str vt w r = vv_str vt w' r' -> w = w' /\ r = r'.
Proof.
  intros R1 R2 (A & B & C & D) (A' & B' & C' & D') F F' E. destruct w as [v x vs xs], w' as [v' x' vs' xs'].
  cbn [vvals vvar vnegvals vnegvars] in *. unfold vv_str, val_str in E. cbn [vvals vvar vnegvals vnegvars] in E.
  destruct A as [->|A], A' as [->|A']; rewrite ?(printable_truthy v), ?(printable_truthy v') in E by assumption; cbn [truthy] in E.
  - apply var_read in E; try assumption. destruct E as (-> & -> & -> & ->). auto.
  - apply var_starts in E; [contradiction|assumption|assumption].
  - symmetry in E. apply var_starts in E; [contradiction|assumption|assumption].
  - apply R1 in E; try assumption; try (apply var_ends; assumption). destruct E as [-> E].
    apply var_read in E; try assumption. destruct E as (-> & -> & -> & ->). auto.
Qed.

Definition slot_reads (p : string * slotval) : Prop :=
  match snd p with Some w => read (vvals w) /\ Forall read (vnegvals w) | None => True end.

Lemma slot_read p p' r r' : slot_reads p -> slot_printable value_printable p -> slot_printable value_printable p' ->
  after r -> after r' -> fst p ++ "= " ++ slot_str vt (snd p) r = fst p' ++ "= " ++ slot_str vt (snd p') r' -> p = p' /\ r = r'.
Proof.
  intros HR [[_ W] P] [[_ W'] P'] F F' E. destruct p as [n s], p' as [n' s']. cbn [fst snd] in *.
  destruct (word_split n n' ("= " ++ slot_str vt s r) ("= " ++ slot_str vt s' r') W W') as [-> E']; [sep|sep|exact E|].
  injection E' as E'. destruct s as [w|], s' as [w'|]; cbn [slot_str] in E'; cbn in HR.
  - destruct HR as [R1 R2]. destruct (vv_read w w' r r') as [-> ->]; auto using vv_words_of.
  - (* something against nothing *)
    exfalso. pose proof (vv_words_of _ P) as (A & B & C & D). destruct w as [v x vs xs]. unfold vv_str, val_str in E'.
    cbn [vvals vvar vnegvals vnegvars] in *. destruct P as (_ & _ & _ & _ & N).
    destruct A as [->|A]; [|rewrite (printable_truthy v A) in E'; pose proof (after_ends _ F') as G; destruct r' as [|c t];
      [contradiction|]; apply (vt_not v _ A c t) in E'; [exact E'|apply G]].
    cbn [truthy] in E'. apply N. f_equal.
    + destruct x as [[|a x]|]; [destruct (B "" eq_refl); congruence| |reflexivity]. cbn [var_str] in E'. symmetry in E'.
      apply (after_not _ F' "="%char _) in E'; [contradiction|sep].
    + destruct x as [[|a x]|]; [destruct (B "" eq_refl); congruence| |].
      * cbn [var_str] in E'. symmetry in E'. apply (after_not _ F' "="%char _) in E'; [contradiction|sep].
      * destruct vs as [|u vs]; [reflexivity|]. cbn in E'. symmetry in E'. apply (after_not _ F' "~"%char _) in E'; [contradiction|sep].
    + destruct x as [[|a x]|]; [destruct (B "" eq_refl); congruence| |].
      * cbn [var_str] in E'. symmetry in E'. apply (after_not _ F' "="%char _) in E'; [contradiction|sep].
      * destruct vs as [|u vs]; [|cbn in E'; symmetry in E'; apply (after_not _ F' "~"%char _) in E'; [contradiction|sep]].
        destruct xs as [|u xs]; [reflexivity|]. cbn in E'. symmetry in E'. apply (after_not _ F' "~"%char _) in E'; [contradiction|sep].
  - exfalso. pose proof (vv_words_of _ P') as (A & B & C & D). destruct w' as [v x vs xs]. unfold vv_str, val_str in E'.
    cbn [vvals vvar vnegvals vnegvars] in *. destruct P' as (_ & _ & _ & _ & N).
    destruct A as [->|A]; [|rewrite (printable_truthy v A) in E'; pose proof (after_ends _ F) as G; destruct r as [|c t];
      [contradiction|]; symmetry in E'; apply (vt_not v _ A c t) in E'; [exact E'|apply G]].
    cbn [truthy] in E'. apply N. f_equal.
    + destruct x as [[|a x]|]; [destruct (B "" eq_refl); congruence| |reflexivity]. cbn [var_str] in E'.
      apply (after_not _ F "="%char _) in E'; [contradiction|sep].
    + destruct x as [[|a x]|]; [destruct (B "" eq_refl); congruence| |].
      * cbn [var_str] in E'. apply (after_not _ F "="%char _) in E'; [contradiction|sep].
      * destruct vs as [|u vs]; [reflexivity|]. cbn in E'. apply (after_not _ F "~"%char _) in E'; [contradiction|sep].
    + destruct x as [[|a x]|]; [destruct (B "" eq_refl); congruence| |].
      * cbn [var_str] in E'. apply (after_not _ F "="%char _) in E'; [contradiction|sep].
      * destruct vs as [|u vs]; [|cbn in E'; apply (after_not _ F "~"%char _) in E'; [contradiction|sep]].
        destruct xs as [|u xs]; [reflexivity|]. cbn in E'. apply (after_not _ F "~"%char _) in E'; [contradiction|sep].
  - auto.
Qed.

Lemma slots_after f l r : after (slots_str f l r).
Proof. destruct l; cbn; auto. Qed.

Lemma slots_read l : forall l' r r', Forall slot_reads l -> Forall (slot_printable value_printable) l ->
  Forall (slot_printable value_printable) l' -> slots_str vt l r = slots_str vt l' r' -> l = l' /\ r = r'.
Proof.
  induction l as [|p l IH]; intros [|p' l'] r r' HR P P' E; cbn [slots_str] in E; try discriminate.
  - injection E as ->. auto.
  - injection E as E. inversion HR. inversion P. inversion P'. subst.
    apply slot_read in E; try assumption; try apply slots_after. destruct E as [-> E].
    destruct (IH l' r r') as [-> ->]; auto.
Qed.

Lemma names_given l : Forall (slot_printable value_printable) l -> Forall (fun p => fst p <> "") l.
Proof. apply Forall_impl. intros p [[H _] _]. exact H. Qed.

Lemma chunk_read c d r r' : Forall slot_reads (cslots c) -> printable c -> printable d ->
  repr c ++ r = repr d ++ r' -> c = d /\ r = r'.
Proof.
  intros HR [[_ W] P] [[_ W'] P'] E. apply slots_and in P, P'. unfold repr in E.
  rewrite !chunk_eq in E by (apply names_given; assumption). unfold chunk_str in E.
  destruct c as [ty l], d as [ty' l']. cbn [ctype cslots] in *.
  apply word_split in E; try assumption; try sep. destruct E as [-> E]. injection E as E.
  destruct l as [|p l], l' as [|p' l'].
  - injection E as ->. auto.
  - exfalso. inversion P' as [|? ? [H _] _]. subst. symmetry in E. apply word_starts in E; [|exact H]. apply E. sep.
  - exfalso. inversion P as [|? ? [H _] _]. subst. apply word_starts in E; [|exact H]. apply E. sep.
  - inversion HR. inversion P. inversion P'. subst. apply slot_read in E; try assumption; try apply slots_after.
    destruct E as [-> E]. apply slots_read in E; try assumption. destruct E as [-> ->]. auto.
Qed.

Lemma read_all v : read v.
Proof.
  induction v as [| |s|c IH] using value_ind'; intros v' r r' P P' Er Er' E; try contradiction.
  - destruct v' as [| |s'|d]; try contradiction; cbn [vt value_printable] in *.
    + destruct P as [_ P], P' as [_ P']. destruct (word_split s s' r r' P P') as [-> ->]; auto using ends_stops.
    + exfalso. unfold chunk_text_with in E. rewrite append_assoc in E. destruct P as [_ P], P' as [_ [[_ W] _]].
      apply word_split in E; try assumption; [|apply ends_stops; exact Er|sep]. destruct E as [_ ->].
      destruct Er as [_ Er]. apply Er. reflexivity.
  - assert (HR : Forall slot_reads (cslots c)).
    { apply Forall_forall. intros [n [w|]] Hp; [|exact I]. destruct (IH n w Hp) as [H1 H2].
      split; [exact H1|]. apply Forall_forall. exact H2. }
    destruct v' as [| |s'|d]; try contradiction; cbn [vt value_printable] in *.
    + exfalso. unfold chunk_text_with in E. rewrite append_assoc in E. destruct P' as [_ P'], P as [_ [[_ W] _]].
      symmetry in E. apply word_split in E; try assumption; [|apply ends_stops; exact Er'|sep]. destruct E as [_ ->].
      destruct Er' as [_ Er']. apply Er'. reflexivity.
    + apply chunk_read in E; try assumption; [|apply P|apply P']. destruct E as [-> ->]. auto.
Qed.

Theorem repr_injective c d : printable c -> printable d -> repr c = repr d -> c = d.
Proof.
  intros P P' E. apply (chunk_read c d "" ""); try assumption; [|rewrite E; reflexivity].
  apply Forall_forall. intros [n [w|]] _; [|exact I]. split; [apply read_all|]. apply Forall_forall. intros v _. apply read_all.
Qed.

(** ** Reading a printed slot as a slot *)

Lemma write_negvars xs : write (map (MkPart true true) xs) = alln xs "".
Proof. induction xs as [|x xs IH]; [reflexivity|]. cbn [map write alln]. rewrite IH. unfold write_part. cbn. reflexivity. Qed.

Lemma hits_neg xs vr n : hits vr n (map (MkPart true true) xs) = if vr && n then xs else [].
Proof.
  unfold hits. induction xs as [|x xs IH]; [destruct (vr && n); reflexivity|]. cbn [map filter]. unfold hit at 1. cbn.
  destruct vr, n; cbn in *; rewrite ?IH; reflexivity.
Qed.

(** A slot with variables only, or with a value only, is read as it is printed. *)
Definition variables_only (w : vv) : Prop :=
  vvals w = VNone /\ vnegvals w = [] /\ (vvar w <> None \/ vnegvars w <> []) /\
  (forall x, vvar w = Some x \/ In x (vnegvars w) -> x <> "" /\ plain_text x) /\ NoDup (vnegvars w).
Definition value_only (w : vv) : Prop :=
  exists x, w = MkVV (VStr x) None [] [] /\ x <> "" /\ plain_text x.

Theorem reread w : variables_only w \/ value_only w -> stringsplitting (vv_text vt w) = Ok w.
Proof.
  intros [(A & B & C & D & N)|(x & -> & Nx & Px)].
  - destruct w as [v x vs xs]. cbn [vvals vvar vnegvals vnegvars] in *. subst v vs.
    assert (E : vv_text vt (MkVV VNone x [] xs) =
                "" ++ write ((match x with Some y => [MkPart false true y] | None => [] end) ++ map (MkPart true true) xs)%list).
    { unfold vv_text. cbn [vvals vvar vnegvals vnegvars truthy map String.concat append].
      rewrite <- (append_nil_r (String.concat "" _)), alln_eq.
      destruct x as [[|a y]|]; cbn [app write append]; rewrite write_negvars.
      - destruct (D "" (or_introl eq_refl)); congruence.
      - reflexivity.
      - reflexivity. }
    assert (H : forall vr n, hits vr n ((match x with Some y => [MkPart false true y] | None => [] end) ++ map (MkPart true true) xs)%list
              = if vr then if n then xs else match x with Some y => [y] | None => [] end else []).
    { intros vr n. unfold hits. rewrite filter_app, map_app. fold (hits vr n (map (MkPart true true) xs)). rewrite hits_neg.
      destruct x as [y|], vr, n; reflexivity. }
    rewrite E, stringsplitting_hits.
    + rewrite !H. rewrite (sdedup_id N). destruct x; reflexivity.
    + exact I.
    + apply Forall_app. split.
      * destruct x as [y|]; constructor; [|constructor]. apply (D y). auto.
      * apply Forall_forall. intros p Hp. apply in_map_iff in Hp. destruct Hp as (y & <- & Hy). apply (D y). auto.
    + destruct x; [discriminate|]. destruct xs; [|discriminate]. destruct C; congruence.
  - unfold vv_text. cbn [vvals vvar vnegvals vnegvars truthy map String.concat append value_text].
    destruct x as [|a x]; [congruence|]. cbn [String.eqb negb]. rewrite append_nil_r. apply split_plain. exact Px.
Qed.
