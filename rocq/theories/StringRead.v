(** The readers accept exactly the texts of StringSpec and take them apart as written. *)
From Verif Require Import Base BaseFacts Chunks DecMem Buffers Productions Strings StringSpec.
Local Open Scope string_scope.

(** ** Strings *)

Lemma app_nil_r_s s : s ++ "" = s.
Proof. induction s as [|c s IH]; [reflexivity|]. change (String c (s ++ "") = String c s). rewrite IH. reflexivity. Qed.
Lemma app_assoc_s a b c : (a ++ b) ++ c = a ++ (b ++ c).
Proof. induction a as [|x a IH]; [reflexivity|]. change (String x ((a ++ b) ++ c) = String x (a ++ (b ++ c))). rewrite IH. reflexivity. Qed.
Lemma length_app_s a b : String.length (a ++ b) = (String.length a + String.length b)%nat.
Proof. induction a as [|x a IH]; [reflexivity|]. change (S (String.length (a ++ b)) = S (String.length a + String.length b)). rewrite IH. reflexivity. Qed.
Lemma cons_app_s c a b : String c a ++ b = String c (a ++ b).
Proof. reflexivity. Qed.

Lemma all_nil P : all P "".
Proof. constructor. Qed.
Lemma all_cons P c s : all P (String c s) <-> P c /\ all P s.
Proof. unfold all. change (list_ascii_of_string (String c s)) with (c :: list_ascii_of_string s). split; [intros H; inversion H; auto|intros []; constructor; auto]. Qed.
Lemma all_app P a b : all P (a ++ b) <-> all P a /\ all P b.
Proof.
  induction a as [|c a IH].
  - split; [intros H; split; [apply all_nil|exact H]|intros []; assumption].
  - rewrite cons_app_s, !all_cons, IH. tauto.
Qed.
Lemma all_imp (P Q : ascii -> Prop) s : (forall c, P c -> Q c) -> all P s -> all Q s.
Proof. unfold all. intros H. apply Forall_impl. exact H. Qed.
Lemma begins_app P a b : a <> "" -> begins P (a ++ b) <-> begins P a.
Proof. destruct a as [|c a]; [congruence|]. intros _. rewrite cons_app_s. reflexivity. Qed.
Lemma all_begins P s : s <> "" -> all P s -> begins P s.
Proof. destruct s as [|c s]; [congruence|]. intros _ H. apply all_cons in H. apply H. Qed.

(** ** Characters *)

Definition charb (s : string) (c : ascii) : bool := existsb (Ascii.eqb c) (list_ascii_of_string s).
Lemma charb_iff s c : charb s c = true <-> one_of_chars s c.
Proof.
  unfold charb, one_of_chars. rewrite existsb_exists. split.
  - intros (x & Hx & E). apply Ascii.eqb_eq in E. subst. exact Hx.
  - intros H. exists c. split; [exact H|apply Ascii.eqb_refl].
Qed.
Lemma one_of_chars_app a b c : one_of_chars (a ++ b) c <-> one_of_chars a c \/ one_of_chars b c.
Proof.
  unfold one_of_chars. induction a as [|x a IH].
  - split; [right; assumption|intros [[]|H]; exact H].
  - rewrite cons_app_s. change (x = c \/ In c (list_ascii_of_string (a ++ b)) <-> (x = c \/ In c (list_ascii_of_string a)) \/ In c (list_ascii_of_string b)).
    rewrite IH. tauto.
Qed.

Ltac by_char := intros c; destruct c as [b0 b1 b2 b3 b4 b5 b6 b7]; destruct b0, b1, b2, b3, b4, b5, b6, b7; vm_compute; reflexivity.

Lemma is_ws_chars : forall c, is_ws c = charb blanks c. Proof. by_char. Qed.
Lemma slot_init_chars : forall c, slot_init c = charb (letters ++ "_") c. Proof. by_char. Qed.
Lemma is_alpha_chars : forall c, is_alpha c = charb letters c. Proof. by_char. Qed.
Lemma slot_body_chars : forall c, slot_body c = charb (letters ++ digits10 ++ "_") c. Proof. by_char. Qed.
Lemma special_chars : forall c, special_char c = charb (letters ++ digits10 ++ "_" ++ quotes) c. Proof. by_char. Qed.
Lemma var_chars_ok : forall c, var_char c = charb (letters ++ digits10 ++ "_" ++ ":|.,%&$`*-") c. Proof. by_char. Qed.

Lemma is_ws_iff c : is_ws c = true <-> one_of_chars blanks c.
Proof. rewrite is_ws_chars. apply charb_iff. Qed.
Lemma slot_init_iff c : slot_init c = true <-> one_of_chars (letters ++ "_") c.
Proof. rewrite slot_init_chars. apply charb_iff. Qed.
Lemma is_alpha_iff c : is_alpha c = true <-> one_of_chars letters c.
Proof. rewrite is_alpha_chars. apply charb_iff. Qed.
Lemma slot_body_iff c : slot_body c = true <-> wordish c.
Proof. rewrite slot_body_chars. apply charb_iff. Qed.
Lemma special_iff c : special_char c = true <-> markish c.
Proof. rewrite special_chars. apply charb_iff. Qed.
Lemma var_iff c : var_char c = true <-> plainish c.
Proof. rewrite var_chars_ok. apply charb_iff. Qed.

(** Two classes without common characters. *)
Definition apart (f g : ascii -> bool) : Prop := forall c, f c = true -> g c = false.
Ltac apart_tac := let c := fresh in intros c; destruct c as [b0 b1 b2 b3 b4 b5 b6 b7]; destruct b0, b1, b2, b3, b4, b5, b6, b7; vm_compute; intros; first [reflexivity|discriminate].
Lemma slot_init_ws : apart slot_init is_ws. Proof. apart_tac. Qed.
Lemma is_alpha_ws : apart is_alpha is_ws. Proof. apart_tac. Qed.
Lemma slot_body_ws : apart slot_body is_ws. Proof. apart_tac. Qed.
Lemma special_ws : apart special_char is_ws. Proof. apart_tac. Qed.
Lemma var_ws : apart var_char is_ws. Proof. apart_tac. Qed.
Definition sign_char (c : ascii) : bool := charb "=~<>" c.
Definition quote_char (c : ascii) : bool := charb quotes c.
Lemma sign_ws : apart sign_char is_ws. Proof. apart_tac. Qed.
Lemma quote_ws : apart quote_char is_ws. Proof. apart_tac. Qed.
Lemma sign_var : apart sign_char var_char. Proof. apart_tac. Qed.
Lemma quote_var : apart quote_char var_char. Proof. apart_tac. Qed.
Lemma sign_special : apart special_char sign_char. Proof. apart_tac. Qed.
Lemma ws_sign : apart is_ws sign_char. Proof. apart_tac. Qed.
Lemma sign_word : apart sign_char slot_body. Proof. apart_tac. Qed.
Lemma quote_sign : apart quote_char sign_char. Proof. apart_tac. Qed.

(** ** Gaps *)

Lemma skip_gap g s : gap g -> skip_ws (g ++ s) = skip_ws s.
Proof.
  induction g as [|c g IH]; intros H; [reflexivity|]. apply all_cons in H. destruct H as [H1 H2].
  rewrite cons_app_s. change ((if is_ws c then skip_ws (g ++ s) else String c (g ++ s)) = skip_ws s).
  apply is_ws_iff in H1. rewrite H1. apply IH, H2.
Qed.

Lemma skip_here s : ~ begins (fun c => is_ws c = true) s -> skip_ws s = s.
Proof.
  destruct s as [|c s]; [reflexivity|]. intros H. change ((if is_ws c then skip_ws s else String c s) = String c s).
  destruct (is_ws c) eqn:E; [elim H; exact E|reflexivity].
Qed.

Lemma skip_split s : exists g, gap g /\ s = g ++ skip_ws s /\ ~ begins (fun c => is_ws c = true) (skip_ws s).
Proof.
  induction s as [|c s (g & Hg & E & Hb)].
  - exists "". split; [apply all_nil|]. split; [reflexivity|]. intros [].
  - change (skip_ws (String c s)) with (if is_ws c then skip_ws s else String c s). destruct (is_ws c) eqn:Ec.
    + exists (String c g). split; [apply all_cons; split; [apply is_ws_iff; exact Ec|exact Hg]|]. split; [|exact Hb].
      rewrite cons_app_s. f_equal. exact E.
    + exists "". split; [apply all_nil|]. split; [reflexivity|]. cbn [begins]. congruence.
Qed.

Lemma skip_empty s : skip_ws s = "" <-> gap s.
Proof.
  split; intros H.
  - destruct (skip_split s) as (g & Hg & E & _). rewrite H, app_nil_r_s in E. subst g. exact Hg.
  - rewrite <- (app_nil_r_s s). rewrite (skip_gap s "" H). reflexivity.
Qed.

(** ** Words *)

Lemma take_while_app f a b :
  all (fun c => f c = true) a -> ~ begins (fun c => f c = true) b -> take_while f (a ++ b) = (a, b).
Proof.
  intros Ha Hb. induction a as [|c a IH].
  - change ("" ++ b) with b. destruct b as [|c b]; [reflexivity|].
    change ((if f c then let (x, y) := take_while f b in (String c x, y) else ("", String c b)) = ("", String c b)).
    destruct (f c) eqn:E; [elim Hb; exact E|reflexivity].
  - apply all_cons in Ha. destruct Ha as [H1 H2]. rewrite cons_app_s.
    change ((if f c then let (x, y) := take_while f (a ++ b) in (String c x, y) else ("", String c (a ++ b))) = (String c a, b)).
    rewrite H1, (IH H2). reflexivity.
Qed.

Lemma take_while_split f s a b :
  take_while f s = (a, b) -> s = a ++ b /\ all (fun c => f c = true) a /\ ~ begins (fun c => f c = true) b.
Proof.
  revert a b. induction s as [|c s IH]; intros a b H.
  - injection H as <- <-. split; [reflexivity|]. split; [apply all_nil|]. intros [].
  - change ((if f c then let (x, y) := take_while f s in (String c x, y) else ("", String c s)) = (a, b)) in H.
    destruct (f c) eqn:E.
    + destruct (take_while f s) as [x y]. injection H as <- <-. destruct (IH x y eq_refl) as (-> & Ha & Hb).
      split; [reflexivity|]. split; [apply all_cons; auto|exact Hb].
    + injection H as <- <-. split; [reflexivity|]. split; [apply all_nil|]. cbn [begins]. congruence.
Qed.

(** Word(init, body) with [init] a part of [body]. *)
Lemma word_iff i b s w r :
  apart i is_ws -> (forall c, i c = true -> b c = true) ->
  word i b s = Some (w, r) <->
  exists g, gap g /\ s = g ++ w ++ r /\ begins (fun c => i c = true) w /\
            all (fun c => b c = true) w /\ ~ begins (fun c => b c = true) r.
Proof.
  intros Hi Hib. unfold word. split.
  - intros H. destruct (skip_split s) as (g & Hg & E & _). destruct (skip_ws s) as [|c s'] eqn:Es; [discriminate|].
    destruct (i c) eqn:Ec; [|discriminate]. destruct (take_while b s') as [a y] eqn:Et. injection H as <- <-.
    apply take_while_split in Et. destruct Et as (-> & Ha & Hb). exists g. split; [exact Hg|]. split; [exact E|].
    split; [exact Ec|]. split; [apply all_cons; auto|exact Hb].
  - intros (g & Hg & -> & Hbg & Ha & Hb). rewrite (skip_gap g _ Hg). destruct w as [|c w]; [destruct Hbg|].
    rewrite skip_here by (rewrite cons_app_s; cbn [begins]; rewrite (Hi c Hbg); discriminate). rewrite cons_app_s.
    cbn [begins] in Hbg. rewrite Hbg. apply all_cons in Ha. rewrite (take_while_app b w r (proj2 Ha) Hb). reflexivity.
Qed.

Lemma word_none i b s : word i b s = None <-> ~ begins (fun c => i c = true) (skip_ws s).
Proof.
  unfold word. destruct (skip_ws s) as [|c s']; [split; [intros _ []|reflexivity]|]. cbn [begins].
  destruct (i c) eqn:E; [|split; [discriminate|reflexivity]]. destruct (take_while b s'). split; [discriminate|intros H; elim H; reflexivity].
Qed.

Lemma begins_imp (P Q : ascii -> Prop) s : (forall c, P c -> Q c) -> begins P s -> begins Q s.
Proof. destruct s as [|c s]; [auto|]. intros H. apply H. Qed.
Lemma begins_iff (P Q : ascii -> Prop) s : (forall c, P c <-> Q c) -> begins P s <-> begins Q s.
Proof. intros H. split; apply begins_imp; intros c; apply H. Qed.
Lemma all_iff (P Q : ascii -> Prop) s : (forall c, P c <-> Q c) -> all P s <-> all Q s.
Proof. intros H. split; apply all_imp; intros c; apply H. Qed.

(** ** Signs *)

Lemma strip_iff p s r : strip p s = Some r <-> s = p ++ r.
Proof.
  revert s. induction p as [|a p IH]; intros s.
  - change (Some s = Some r <-> s = r). split; congruence.
  - destruct s as [|b s]; [split; discriminate|]. rewrite cons_app_s.
    change ((if Ascii.eqb a b then strip p s else None) = Some r <-> String b s = String a (p ++ r)).
    destruct (Ascii.eqb_spec a b) as [->|Hn].
    + rewrite IH. split; [congruence|]. intros H. injection H as ->. reflexivity.
    + split; [discriminate|]. intros H. injection H as -> _. congruence.
Qed.

Lemma first_of_sound ps s p r : first_of ps s = Some (p, r) -> In p ps /\ s = p ++ r.
Proof.
  induction ps as [|q ps IH]; [discriminate|]. cbn [first_of]. destruct (strip q s) as [r'|] eqn:E.
  - intros H. injection H as <- <-. apply strip_iff in E. split; [left; reflexivity|exact E].
  - intros H. destruct (IH H) as [H1 H2]. split; [right; exact H1|exact H2].
Qed.

Definition all_marks : list mark := [MVar; MNegvar; MNeg; MGreaterVar; MGreater; MLessVar; MLess].
Lemma operators_marks : operators = map mark_text all_marks.
Proof. reflexivity. Qed.

(** The sign is taken apart from what follows it. *)
Lemma first_of_operators m s :
  ~ begins (fun c => sign_char c = true) s -> first_of operators (mark_text m ++ s) = Some (mark_text m, s).
Proof.
  intros H. assert (Heq : strip "=" s = None).
  { destruct (strip "=" s) as [r|] eqn:E; [|reflexivity]. apply strip_iff in E. subst s. elim H. reflexivity. }
  unfold operators. destruct m; cbn [mark_text first_of].
  - replace (strip "=" ("=" ++ s)) with (Some s) by (symmetry; apply strip_iff; reflexivity). reflexivity.
  - replace (strip "=" ("~=" ++ s)) with (@None string) by reflexivity.
    replace (strip "~=" ("~=" ++ s)) with (Some s) by (symmetry; apply strip_iff; reflexivity). reflexivity.
  - replace (strip "=" ("~" ++ s)) with (@None string) by reflexivity.
    replace (strip "~=" ("~" ++ s)) with (strip "=" s) by reflexivity. rewrite Heq.
    replace (strip "~" ("~" ++ s)) with (Some s) by (symmetry; apply strip_iff; reflexivity). reflexivity.
  - replace (strip "=" (">" ++ s)) with (@None string) by reflexivity.
    replace (strip "~=" (">" ++ s)) with (@None string) by reflexivity.
    replace (strip "~" (">" ++ s)) with (@None string) by reflexivity.
    replace (strip ">=" (">" ++ s)) with (strip "=" s) by reflexivity. rewrite Heq.
    replace (strip ">" (">" ++ s)) with (Some s) by (symmetry; apply strip_iff; reflexivity). reflexivity.
  - replace (strip "=" ("<" ++ s)) with (@None string) by reflexivity.
    replace (strip "~=" ("<" ++ s)) with (@None string) by reflexivity.
    replace (strip "~" ("<" ++ s)) with (@None string) by reflexivity.
    replace (strip ">=" ("<" ++ s)) with (@None string) by reflexivity.
    replace (strip ">" ("<" ++ s)) with (@None string) by reflexivity.
    replace (strip "<=" ("<" ++ s)) with (strip "=" s) by reflexivity. rewrite Heq.
    replace (strip "<" ("<" ++ s)) with (Some s) by (symmetry; apply strip_iff; reflexivity). reflexivity.
  - replace (strip "=" (">=" ++ s)) with (@None string) by reflexivity.
    replace (strip "~=" (">=" ++ s)) with (@None string) by reflexivity.
    replace (strip "~" (">=" ++ s)) with (@None string) by reflexivity.
    replace (strip ">=" (">=" ++ s)) with (Some s) by (symmetry; apply strip_iff; reflexivity). reflexivity.
  - replace (strip "=" ("<=" ++ s)) with (@None string) by reflexivity.
    replace (strip "~=" ("<=" ++ s)) with (@None string) by reflexivity.
    replace (strip "~" ("<=" ++ s)) with (@None string) by reflexivity.
    replace (strip ">=" ("<=" ++ s)) with (@None string) by reflexivity.
    replace (strip ">" ("<=" ++ s)) with (@None string) by reflexivity.
    replace (strip "<=" ("<=" ++ s)) with (Some s) by (symmetry; apply strip_iff; reflexivity). reflexivity.
Qed.

Lemma mark_begins m s : begins (fun c => sign_char c = true) (mark_text m ++ s).
Proof. destruct m; reflexivity. Qed.
Lemma mark_not_empty m : mark_text m <> "".
Proof. destruct m; discriminate. Qed.

Lemma not_begins_apart f g s : apart f g -> begins (fun c => f c = true) s -> ~ begins (fun c => g c = true) s.
Proof. intros H. destruct s as [|c s]; [intros []|]. cbn [begins]. intros E. rewrite (H c E). discriminate. Qed.

(** A gap and then a word do not begin with a sign. *)
Lemma gap_word_no_sign g s r : gap g -> s <> "" -> all markish s -> ~ begins (fun c => sign_char c = true) (g ++ s ++ r).
Proof.
  intros Hg Hs Ha. destruct g as [|c g].
  - change ("" ++ s ++ r) with (s ++ r). apply (not_begins_apart special_char sign_char); [exact sign_special|].
    apply begins_app; [exact Hs|]. apply all_begins; [exact Hs|]. revert Ha. apply all_imp. intros c. apply special_iff.
  - apply all_cons in Hg. rewrite cons_app_s. cbn [begins]. rewrite (ws_sign c); [discriminate|]. apply is_ws_iff, Hg.
Qed.

(** ** Values *)

Definition part_of (v : written) : part :=
  match v with
  | WPlain s => PStr s
  | WMark m s => PGroup (mark_text m) s
  | WQuoted q s => PStr (String q (s ++ String q ""))
  end.

Lemma quoted_iff q s t r :
  quote_char q = true ->
  quoted q s = Some (t, r) <->
  exists g u, gap g /\ t = String q (u ++ String q "") /\ s = g ++ t ++ r /\
    all (fun c => c <> q /\ c <> ascii_of_nat 10 /\ c <> ascii_of_nat 13) u.
Proof.
  intros Hq. unfold quoted.
  set (f := fun x => negb (Ascii.eqb x q || Ascii.eqb x newline || Ascii.eqb x return_)).
  assert (Hf : forall c, f c = true <-> c <> q /\ c <> ascii_of_nat 10 /\ c <> ascii_of_nat 13).
  { intros c. unfold f, newline, return_. rewrite negb_true_iff, !orb_false_iff, !Ascii.eqb_neq. tauto. }
  split.
  - intros H. destruct (skip_split s) as (g & Hg & E & _). destruct (skip_ws s) as [|c s']; [discriminate|].
    destruct (Ascii.eqb_spec c q) as [->|]; [|discriminate]. destruct (take_while f s') as [a b] eqn:Et.
    destruct b as [|d b]; [discriminate|]. destruct (Ascii.eqb_spec d q) as [->|]; [|discriminate]. injection H as <- <-.
    apply take_while_split in Et. destruct Et as (-> & Ha & _). exists g, a. split; [exact Hg|]. split; [reflexivity|].
    split; [rewrite E, cons_app_s, app_assoc_s; reflexivity|]. revert Ha. apply all_imp. intros c. apply Hf.
  - intros (g & u & Hg & -> & -> & Hu). rewrite (skip_gap g _ Hg). rewrite cons_app_s.
    rewrite skip_here by (cbn [begins]; rewrite (quote_ws q Hq); discriminate). rewrite Ascii.eqb_refl, app_assoc_s.
    rewrite (take_while_app f u (String q "" ++ r)).
    + rewrite cons_app_s, Ascii.eqb_refl. reflexivity.
    + revert Hu. apply all_imp. intros c. apply Hf.
    + rewrite cons_app_s. cbn [begins]. rewrite Hf. tauto.
Qed.

Lemma quoted_begins q s x : quoted q s = Some x -> begins (fun c => c = q) (skip_ws s).
Proof.
  unfold quoted. destruct (skip_ws s) as [|c s']; [discriminate|]. cbn [begins]. destruct (Ascii.eqb_spec c q); [auto|discriminate].
Qed.

Lemma quote_cases q : one_of_chars quotes q <-> q = dquote \/ q = squote.
Proof. unfold one_of_chars. cbn [quotes list_ascii_of_string In]. intuition auto. Qed.
Lemma quote_char_iff q : quote_char q = true <-> one_of_chars quotes q.
Proof. apply charb_iff. Qed.

Lemma writes_skip v t r : writes v t -> skip_ws (t ++ r) = t ++ r /\ t <> "".
Proof.
  intros H. inversion H as [s Hs Ha|m g s Hg Hs Ha|q s Hq Ha]; subst.
  - split; [|exact Hs]. apply skip_here. apply (not_begins_apart var_char is_ws); [exact var_ws|].
    apply begins_app; [exact Hs|]. apply all_begins; [exact Hs|]. revert Ha. apply all_imp. intros c. apply var_iff.
  - rewrite app_assoc_s. split.
    + apply skip_here. apply (not_begins_apart sign_char is_ws); [exact sign_ws|]. apply mark_begins.
    + destruct m; discriminate.
  - split; [|discriminate]. apply skip_here. apply (not_begins_apart quote_char is_ws); [exact quote_ws|].
    apply quote_char_iff. exact Hq.
Qed.

(** The value reader reads exactly the ways of writing values. *)
Lemma value_complete g v t r :
  gap g -> writes v t -> ended v r -> value_reader (g ++ t ++ r) = Some (part_of v, r).
Proof.
  intros Hg Hw He. unfold value_reader. pose proof (writes_skip v t r Hw) as [Hsk Hne].
  inversion Hw as [s Hs Ha|m g' s Hg' Hs Ha|q s Hq Ha]; subst.
  - assert (E : word var_char var_char (g ++ t ++ r) = Some (t, r)).
    { apply (word_iff var_char var_char); [exact var_ws|auto|]. exists g. split; [exact Hg|]. split; [reflexivity|].
      split; [apply all_begins; [exact Hs|]; revert Ha; apply all_imp; intros c; apply var_iff|].
      split; [revert Ha; apply all_imp; intros c; apply var_iff|].
      intros H. apply He. revert H. apply begins_imp. intros c. apply var_iff. }
    rewrite E. reflexivity.
  - assert (E : word var_char var_char (g ++ (mark_text m ++ g' ++ s) ++ r) = None).
    { apply word_none. rewrite (skip_gap g _ Hg), Hsk. rewrite app_assoc_s.
      apply (not_begins_apart sign_char var_char); [exact sign_var|]. apply mark_begins. }
    rewrite E. unfold one_of. rewrite (skip_gap g _ Hg), Hsk, !app_assoc_s.
    rewrite (first_of_operators m (g' ++ s ++ r) (gap_word_no_sign g' s r Hg' Hs Ha)).
    assert (E' : word special_char special_char (g' ++ s ++ r) = Some (s, r)).
    { apply (word_iff special_char special_char); [exact special_ws|auto|]. exists g'. split; [exact Hg'|]. split; [reflexivity|].
      split; [apply all_begins; [exact Hs|]; revert Ha; apply all_imp; intros c; apply special_iff|].
      split; [revert Ha; apply all_imp; intros c; apply special_iff|].
      intros H. apply He. revert H. apply begins_imp. intros c. apply special_iff. }
    rewrite E'. reflexivity.
  - assert (Hqc : quote_char q = true) by (apply quote_char_iff; exact Hq).
    assert (E : word var_char var_char (g ++ String q (s ++ String q "") ++ r) = None).
    { apply word_none. rewrite (skip_gap g _ Hg), Hsk. rewrite cons_app_s. cbn [begins]. rewrite (quote_var q Hqc). discriminate. }
    rewrite E.
    assert (E1 : one_of operators (g ++ String q (s ++ String q "") ++ r) = None).
    { unfold one_of. rewrite (skip_gap g _ Hg), Hsk, cons_app_s.
      destruct (first_of operators (String q ((s ++ String q "") ++ r))) as [[p y]|] eqn:Ef; [|reflexivity].
      apply first_of_sound in Ef. destruct Ef as [Hp Ef]. rewrite operators_marks in Hp. apply in_map_iff in Hp.
      destruct Hp as (m & <- & _). pose proof (mark_begins m y) as Hb. rewrite <- Ef in Hb. cbn [begins] in Hb.
      rewrite (quote_sign q Hqc) in Hb. discriminate. }
    rewrite E1.
    assert (Eq : quoted q (g ++ String q (s ++ String q "") ++ r) = Some (String q (s ++ String q ""), r)).
    { apply (quoted_iff q _ _ _ Hqc). exists g, s. auto. }
    apply quote_cases in Hq. destruct Hq as [->| ->].
    + rewrite Eq. reflexivity.
    + destruct (quoted dquote (g ++ String squote (s ++ String squote "") ++ r)) as [[x y]|] eqn:Ed.
      * apply quoted_begins in Ed. rewrite (skip_gap g _ Hg), Hsk, cons_app_s in Ed. discriminate.
      * rewrite Eq. reflexivity.
Qed.

Lemma value_sound s p r :
  value_reader s = Some (p, r) ->
  exists g v t, gap g /\ writes v t /\ ended v r /\ s = g ++ t ++ r /\ p = part_of v.
Proof.
  unfold value_reader. destruct (word var_char var_char s) as [[w x]|] eqn:E.
  - intros H. injection H as <- <-. apply (word_iff var_char var_char) in E; [|exact var_ws|auto].
    destruct E as (g & Hg & -> & Hb & Ha & Hr). exists g, (WPlain w), w. split; [exact Hg|]. split.
    + constructor; [destruct w; [destruct Hb|discriminate]|]. revert Ha. apply all_imp. intros c. apply var_iff.
    + split; [|auto]. cbn [ended]. intros H. apply Hr. revert H. apply begins_imp. intros c. apply var_iff.
  - clear E. destruct (match one_of operators s with Some (op, r0) => _ | None => None end) as [y|] eqn:E.
    + intros H. injection H as ->. destruct (one_of operators s) as [[op r0]|] eqn:Eo; [|discriminate].
      destruct (word special_char special_char r0) as [[w x]|] eqn:Ew; [|discriminate]. injection E as <- <-.
      unfold one_of in Eo. apply first_of_sound in Eo. destruct Eo as [Hop Eo]. rewrite operators_marks in Hop.
      apply in_map_iff in Hop. destruct Hop as (m & <- & _). apply (word_iff special_char special_char) in Ew; [|exact special_ws|auto].
      destruct Ew as (g' & Hg' & -> & Hb & Ha & Hr). destruct (skip_split s) as (g & Hg & Es & _). rewrite Eo in Es.
      exists g, (WMark m w), (mark_text m ++ g' ++ w). split; [exact Hg|]. split.
      * constructor; [exact Hg'|destruct w; [destruct Hb|discriminate]|]. revert Ha. apply all_imp. intros c. apply special_iff.
      * split; [cbn [ended]; intros H; apply Hr; revert H; apply begins_imp; intros c; apply special_iff|].
        split; [rewrite Es, !app_assoc_s; reflexivity|reflexivity].
    + clear E. destruct (quoted dquote s) as [[t x]|] eqn:E.
      * intros H. injection H as <- <-. apply (quoted_iff dquote) in E; [|reflexivity]. destruct E as (g & u & Hg & -> & -> & Hu).
        exists g, (WQuoted dquote u), (String dquote (u ++ String dquote "")). split; [exact Hg|]. split; [|split; [exact I|auto]].
        constructor; [apply quote_cases; auto|exact Hu].
      * destruct (quoted squote s) as [[t x]|] eqn:E'; [|discriminate].
        intros H. injection H as <- <-. apply (quoted_iff squote) in E'; [|reflexivity]. destruct E' as (g & u & Hg & -> & -> & Hu).
        exists g, (WQuoted squote u), (String squote (u ++ String squote "")). split; [exact Hg|]. split; [|split; [exact I|auto]].
        constructor; [apply quote_cases; auto|exact Hu].
Qed.

(** ** Pairs *)

Lemma slot_init_body c : slot_init c = true -> slot_body c = true.
Proof. destruct c as [b0 b1 b2 b3 b4 b5 b6 b7]; destruct b0, b1, b2, b3, b4, b5, b6, b7; vm_compute; intros; first [reflexivity|discriminate]. Qed.

Lemma slot_word_iff s n r :
  word slot_init slot_body s = Some (n, r) <->
  exists g, gap g /\ s = g ++ n ++ r /\ slot_name n /\ ~ begins wordish r.
Proof.
  rewrite (word_iff slot_init slot_body s n r slot_init_ws slot_init_body). unfold slot_name.
  setoid_rewrite (begins_iff (fun c => slot_init c = true) (one_of_chars (letters ++ "_")) n slot_init_iff).
  setoid_rewrite (all_iff (fun c => slot_body c = true) wordish n slot_body_iff).
  setoid_rewrite (begins_iff (fun c => slot_body c = true) wordish r slot_body_iff).
  split; intros (g & H); exists g; tauto.
Qed.

Lemma pair_complete g1 n g2 v t r :
  gap g1 -> slot_name n -> gap g2 -> writes v t -> ~ begins wordish (g2 ++ t) -> ended v r ->
  pair_reader (g1 ++ n ++ g2 ++ t ++ r) = Some ((n, part_of v), r).
Proof.
  intros H1 Hn H2 Hw Hb He. unfold pair_reader.
  assert (E : word slot_init slot_body (g1 ++ n ++ g2 ++ t ++ r) = Some (n, g2 ++ t ++ r)).
  { apply slot_word_iff. exists g1. split; [exact H1|]. split; [reflexivity|]. split; [exact Hn|].
    rewrite <- app_assoc_s. rewrite begins_app; [exact Hb|]. pose proof (writes_skip v t r Hw) as [_ Ht].
    destruct g2; [exact Ht|discriminate]. }
  rewrite E, (value_complete g2 v t r H2 Hw He). reflexivity.
Qed.

Lemma pair_sound s n p r :
  pair_reader s = Some ((n, p), r) ->
  exists g1 g2 v t, gap g1 /\ slot_name n /\ gap g2 /\ writes v t /\ ~ begins wordish (g2 ++ t) /\ ended v r /\
    s = g1 ++ n ++ g2 ++ t ++ r /\ p = part_of v.
Proof.
  unfold pair_reader. destruct (word slot_init slot_body s) as [[n' r0]|] eqn:E; [|discriminate].
  destruct (value_reader r0) as [[v' r']|] eqn:Ev; [|discriminate]. intros H. injection H as <- <- <-.
  apply slot_word_iff in E. destruct E as (g1 & H1 & -> & Hn & Hb). apply value_sound in Ev.
  destruct Ev as (g2 & v & t & H2 & Hw & He & -> & ->). exists g1, g2, v, t.
  split; [exact H1|]. split; [exact Hn|]. split; [exact H2|]. split; [exact Hw|]. split; [|auto].
  intros H. apply Hb. rewrite <- app_assoc_s. rewrite begins_app; [exact H|].
  pose proof (writes_skip v t r' Hw) as [_ Ht]. destruct g2; [exact Ht|discriminate].
Qed.

Lemma pair_shorter s x r : pair_reader s = Some (x, r) -> (String.length r < String.length s)%nat.
Proof.
  destruct x as [n p]. intros H. apply pair_sound in H. destruct H as (g1 & g2 & v & t & _ & [Hn _] & _ & _ & _ & _ & -> & _).
  rewrite !length_app_s. destruct n; [destruct Hn|]. cbn [String.length]. lia.
Qed.

Definition parts_of (ps : list (string * written)) : list (string * part) :=
  map (fun p => (fst p, part_of (snd p))) ps.

Lemma pairs_sound fuel s l r :
  (String.length s <= fuel)%nat -> pairs fuel s = (l, r) ->
  pair_reader r = None /\ exists ps, listing ps s r /\ l = parts_of ps.
Proof.
  revert s l r. induction fuel as [|fuel IH]; intros s l r Hf H.
  - injection H as <- <-. destruct s; [|cbn [String.length] in Hf; lia]. split; [reflexivity|]. exists []. split; [constructor|reflexivity].
  - cbn [pairs] in H. destruct (pair_reader s) as [[[n p] r0]|] eqn:E.
    + pose proof (pair_shorter _ _ _ E) as Hs. destruct (pairs fuel r0) as [l0 r'] eqn:Ep. injection H as <- <-.
      destruct (IH r0 l0 r') as (Hr & ps & Hl & ->); [lia|exact Ep|]. split; [exact Hr|].
      apply pair_sound in E. destruct E as (g1 & g2 & v & t & H1 & Hn & H2 & Hw & Hb & He & -> & ->).
      exists ((n, v) :: ps). split; [|reflexivity]. apply listing_cons; assumption.
    + injection H as <- <-. split; [exact E|]. exists []. split; [constructor|reflexivity].
Qed.

Lemma pairs_complete fuel ps s r :
  (String.length s <= fuel)%nat -> listing ps s r -> pair_reader r = None -> pairs fuel s = (parts_of ps, r).
Proof.
  intros Hf Hl Hr. revert fuel Hf. induction Hl as [rest|n v ps g1 g2 t s rest H1 Hn H2 Hw Hb He Hl IH]; intros fuel Hf.
  - destruct fuel as [|fuel]; [reflexivity|]. cbn [pairs]. rewrite Hr. reflexivity.
  - pose proof (pair_complete g1 n g2 v t s H1 Hn H2 Hw Hb He) as E. pose proof (pair_shorter _ _ _ E) as Hs.
    destruct fuel as [|fuel]; [lia|]. cbn [pairs]. rewrite E. rewrite (IH Hr fuel) by lia. reflexivity.
Qed.

Lemma pair_reader_gap s : gap s -> pair_reader s = None.
Proof.
  intros H. unfold pair_reader. assert (E : word slot_init slot_body s = None); [|rewrite E; reflexivity].
  apply word_none. apply skip_empty in H. rewrite H. intros [].
Qed.

(** The reader without the expansion of tabs. *)
Definition read_pairs (s : string) : option (list (string * part)) :=
  let (l, r) := pairs (String.length s) s in
  match l with [] => None | _ => match skip_ws r with "" => Some l | _ => None end end.
Lemma chunk_reader_unfold s : chunk_reader s = read_pairs (expandtabs 0 s).
Proof. reflexivity. Qed.

Lemma read_pairs_iff s l : read_pairs s = Some l <-> exists ps, chunk_text ps s /\ l = parts_of ps.
Proof.
  unfold read_pairs. split.
  - destruct (pairs (String.length s) s) as [l0 r] eqn:E. apply pairs_sound in E; [|lia].
    destruct E as (_ & ps & Hl & ->). intros H. exists ps.
    destruct (skip_ws r) as [|c0 r0] eqn:Er; [|destruct (parts_of ps); discriminate].
    apply skip_empty in Er. destruct ps as [|p ps]; [discriminate|]. injection H as <-. split; [|reflexivity].
    exists r. split; [discriminate|auto].
  - intros (ps & (r & Hne & Hl & Hg) & ->). rewrite (pairs_complete _ ps s r (le_n _) Hl (pair_reader_gap r Hg)).
    apply skip_empty in Hg. rewrite Hg. destruct ps; [congruence|reflexivity].
Qed.

(** ** Tabs *)

(** The column after [s]. *)
Fixpoint column (col : nat) (s : string) : nat :=
  match s with
  | "" => col
  | String c s' =>
      if Ascii.eqb c tab then column (col + (8 - col mod 8)) s'
      else if Ascii.eqb c newline || Ascii.eqb c return_ then column 0 s'
      else column (S col) s'
  end.

Lemma expandtabs_app a b col : expandtabs col (a ++ b) = expandtabs col a ++ expandtabs (column col a) b.
Proof.
  revert col. induction a as [|c a IH]; intros col; [reflexivity|]. rewrite cons_app_s.
  cbn [expandtabs column]. destruct (Ascii.eqb c tab).
  - rewrite IH, app_assoc_s. reflexivity.
  - destruct (Ascii.eqb c newline || Ascii.eqb c return_); rewrite IH; reflexivity.
Qed.

Lemma expandtabs_none s col : all (fun c => c <> tab) s -> expandtabs col s = s.
Proof.
  revert col. induction s as [|c s IH]; intros col H; [reflexivity|]. apply all_cons in H. destruct H as [H1 H2].
  cbn [expandtabs]. apply Ascii.eqb_neq in H1. rewrite H1.
  destruct (Ascii.eqb c newline || Ascii.eqb c return_); rewrite (IH _ H2); reflexivity.
Qed.

Lemma spaces_gap n : gap (spaces n).
Proof. induction n as [|n IH]; [apply all_nil|]. apply all_cons. split; [left; reflexivity|exact IH]. Qed.

Lemma expandtabs_gap g col : gap g -> gap (expandtabs col g).
Proof.
  revert col. induction g as [|c g IH]; intros col H; [apply all_nil|]. apply all_cons in H. destruct H as [H1 H2].
  cbn [expandtabs]. destruct (Ascii.eqb c tab).
  - apply all_app. split; [apply spaces_gap|apply IH, H2].
  - destruct (Ascii.eqb c newline || Ascii.eqb c return_); apply all_cons; split; auto; apply IH, H2.
Qed.

Lemma tab_room col : (0 < 8 - col mod 8)%nat.
Proof. pose proof (Nat.mod_upper_bound col 8). lia. Qed.

Lemma expandtabs_begins (P : ascii -> Prop) s col : ~ P " "%char -> begins P (expandtabs col s) -> begins P s.
Proof.
  intros Hp. destruct s as [|c s]; [auto|]. cbn [expandtabs]. destruct (Ascii.eqb c tab).
  - pose proof (tab_room col). destruct (8 - col mod 8)%nat as [|k]; [lia|]. intros H'. elim Hp. exact H'.
  - destruct (Ascii.eqb c newline || Ascii.eqb c return_); auto.
Qed.

Lemma not_begins_gap P g t :
  ~ P " "%char -> g <> "" -> gap g -> (forall c, one_of_chars blanks c -> ~ P c) -> ~ begins P (g ++ t).
Proof.
  intros _ Hn Hg H. destruct g as [|c g]; [congruence|]. apply all_cons in Hg. rewrite cons_app_s. apply H, Hg.
Qed.

Lemma wordish_no_tab c : wordish c -> c <> tab.
Proof. intros H ->. vm_compute in H. repeat (destruct H as [H|H]; [discriminate|]). destruct H. Qed.
Lemma plainish_no_tab c : plainish c -> c <> tab.
Proof. intros H ->. vm_compute in H. repeat (destruct H as [H|H]; [discriminate|]). destruct H. Qed.
Lemma markish_no_tab c : markish c -> c <> tab.
Proof. intros H ->. vm_compute in H. repeat (destruct H as [H|H]; [discriminate|]). destruct H. Qed.
Lemma wordish_no_blank : ~ wordish " "%char.
Proof. intros H. vm_compute in H. repeat (destruct H as [H|H]; [discriminate|]). destruct H. Qed.
Lemma plainish_no_blank : ~ plainish " "%char.
Proof. intros H. vm_compute in H. repeat (destruct H as [H|H]; [discriminate|]). destruct H. Qed.
Lemma markish_no_blank : ~ markish " "%char.
Proof. intros H. vm_compute in H. repeat (destruct H as [H|H]; [discriminate|]). destruct H. Qed.

Lemma mark_no_tab m : all (fun c => c <> tab) (mark_text m).
Proof. destruct m; repeat (apply all_cons; split; [discriminate|]); apply all_nil. Qed.

Lemma writes_expand v t col :
  writes v t -> (forall q s, v = WQuoted q s -> ~ In tab (list_ascii_of_string s)) -> writes v (expandtabs col t).
Proof.
  intros H Hq. inversion H as [s Hs Ha|m g s Hg Hs Ha|q s Hqc Ha]; subst.
  - rewrite expandtabs_none; [exact H|]. revert Ha. apply all_imp. exact plainish_no_tab.
  - rewrite !expandtabs_app. rewrite (expandtabs_none (mark_text m) col (mark_no_tab m)).
    rewrite (expandtabs_none s); [|revert Ha; apply all_imp; exact markish_no_tab].
    constructor; [apply expandtabs_gap; exact Hg|exact Hs|exact Ha].
  - rewrite expandtabs_none; [exact H|]. assert (Hqt : q <> tab).
    { intros ->. apply quote_cases in Hqc. destruct Hqc; discriminate. }
    apply all_cons. split; [exact Hqt|]. apply all_app. split; [|apply all_cons; split; [exact Hqt|apply all_nil]].
    unfold all. apply Forall_forall. intros c Hc ->. exact (Hq q s eq_refl Hc).
Qed.

Lemma ended_expand v s col : ended v s -> ended v (expandtabs col s).
Proof.
  destruct v; cbn [ended]; auto; intros H H'; apply H; revert H'; apply expandtabs_begins;
    [exact plainish_no_blank|exact markish_no_blank].
Qed.


(** Expanding tabs changes the layout only. *)
Lemma listing_tabs ps s r :
  listing ps s r -> no_quoted_tab ps -> forall col, exists col', listing ps (expandtabs col s) (expandtabs col' r).
Proof.
  induction 1 as [rest|n v ps g1 g2 t s rest H1 Hn H2 Hw Hb He Hl IH]; intros Hq col.
  - exists col. constructor.
  - destruct (IH (fun n q s H => Hq n q s (or_intror H))
                (column (column (column (column col g1) n) g2) t)) as (col' & IH').
    exists col'. rewrite !expandtabs_app.
    rewrite (expandtabs_none n) by (destruct Hn as [_ Hn]; revert Hn; apply all_imp; exact wordish_no_tab).
    apply listing_cons; auto.
    + apply expandtabs_gap. exact H1.
    + apply expandtabs_gap. exact H2.
    + apply writes_expand; [exact Hw|]. intros q u ->. apply (Hq n q u). left. reflexivity.
    + rewrite <- expandtabs_app. intros H. apply Hb. revert H. apply expandtabs_begins. exact wordish_no_blank.
    + apply ended_expand. exact He.
Qed.

Lemma chunk_text_tabs ps s col : chunk_text ps s -> no_quoted_tab ps -> chunk_text ps (expandtabs col s).
Proof.
  intros (r & Hne & Hl & Hg) Hq. destruct (listing_tabs ps s r Hl Hq col) as (col' & H).
  exists (expandtabs col' r). split; [exact Hne|]. split; [exact H|]. apply expandtabs_gap. exact Hg.
Qed.

(** Main results about reading. *)
Theorem chunk_reader_complete ps s :
  chunk_text ps s -> no_quoted_tab ps -> chunk_reader s = Some (parts_of ps).
Proof.
  intros H Hq. rewrite chunk_reader_unfold. apply read_pairs_iff. exists ps. split; [|reflexivity].
  apply chunk_text_tabs; assumption.
Qed.

Theorem chunk_reader_sound s l :
  chunk_reader s = Some l -> exists ps, chunk_text ps (expandtabs 0 s) /\ l = parts_of ps.
Proof. rewrite chunk_reader_unfold. apply read_pairs_iff. Qed.
