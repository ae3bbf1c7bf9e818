(** productionstring stores what its string says. *)
From Verif Require Import Base BaseFacts Chunks DecMem Buffers Productions Strings StringSpec StringRead.
Local Open Scope string_scope.

Definition group_of (g : wgroup) : group := MkGroup (String (wsign g) "") (wbuf g) (parts_of (wpairs g)).

(** ** Single signs *)

Definition singles (s : string) : list string := map (fun c => String c "") (list_ascii_of_string s).

Lemma first_of_single signs c s :
  one_of_chars signs c -> first_of (singles signs) (String c s) = Some (String c "", s).
Proof.
  unfold one_of_chars, singles. intros H. induction (list_ascii_of_string signs) as [|d l IH]; [destruct H|]. cbn [map first_of].
  change (strip (String d "") (String c s)) with (if Ascii.eqb d c then Some s else None).
  destruct (Ascii.eqb_spec d c) as [->|Hn]; [reflexivity|]. apply IH. destruct H; [congruence|assumption].
Qed.

Lemma first_of_single_sound signs p s r :
  first_of (singles signs) s = Some (p, r) -> exists c, one_of_chars signs c /\ p = String c "" /\ s = String c r.
Proof.
  intros H. apply first_of_sound in H. destruct H as [Hp ->]. unfold singles in Hp. apply in_map_iff in Hp.
  destruct Hp as (c & <- & Hc). exists c. auto.
Qed.

Definition no_blank_sign (signs : string) : Prop := forall c, one_of_chars signs c -> is_ws c = false.

Lemma is_alpha_body c : is_alpha c = true -> slot_body c = true.
Proof. destruct c as [b0 b1 b2 b3 b4 b5 b6 b7]; destruct b0, b1, b2, b3, b4, b5, b6, b7; vm_compute; intros; first [reflexivity|discriminate]. Qed.

Lemma buffer_word_iff s b r :
  word is_alpha slot_body s = Some (b, r) <->
  exists g, gap g /\ s = g ++ b ++ r /\ buffer_name b /\ ~ begins wordish r.
Proof.
  rewrite (word_iff is_alpha slot_body s b r is_alpha_ws is_alpha_body). unfold buffer_name.
  setoid_rewrite (begins_iff (fun c => is_alpha c = true) (one_of_chars letters) b is_alpha_iff).
  setoid_rewrite (all_iff (fun c => slot_body c = true) wordish b slot_body_iff).
  setoid_rewrite (begins_iff (fun c => slot_body c = true) wordish r slot_body_iff).
  split; intros (g & H); exists g; tauto.
Qed.

Lemma wordish_not_blank c : one_of_chars blanks c -> ~ wordish c.
Proof. intros H H'. apply is_ws_iff in H. apply slot_body_iff in H'. rewrite (slot_body_ws c H') in H. discriminate. Qed.

Lemma gap_gt_no_word g s : gap g -> ~ begins wordish (g ++ String ">" s).
Proof.
  intros H. destruct g as [|c g].
  - intros H'. apply slot_body_iff in H'. discriminate.
  - apply all_cons in H. rewrite cons_app_s. apply wordish_not_blank, H.
Qed.

Lemma one_of_gt g s : gap g -> one_of [">"] (g ++ String ">" s) = Some (">", s).
Proof. intros H. unfold one_of. rewrite (skip_gap g _ H). reflexivity. Qed.

Section Side.
Variable signs : string.
Hypothesis Hsigns : no_blank_sign signs.

Lemma group_complete c b ps g1 g2 g3 s s' :
  gap g1 -> one_of_chars signs c -> gap g2 -> buffer_name b -> gap g3 -> listing ps s s' -> pair_reader s' = None ->
  group_reader (singles signs) (g1 ++ String c (g2 ++ b ++ g3 ++ String ">" s)) = Some (group_of (MkWG c b ps), s').
Proof.
  intros H1 Hc H2 Hb H3 Hl Hn. unfold group_reader, one_of. rewrite (skip_gap g1 _ H1).
  rewrite skip_here by (cbn [begins]; rewrite (Hsigns c Hc); discriminate). rewrite (first_of_single signs c _ Hc).
  assert (E : word is_alpha slot_body (g2 ++ b ++ g3 ++ String ">" s) = Some (b, g3 ++ String ">" s)).
  { apply buffer_word_iff. exists g2. split; [exact H2|]. split; [reflexivity|]. split; [exact Hb|]. apply gap_gt_no_word. exact H3. }
  rewrite E. fold (one_of [">"] (g3 ++ String ">" s)). rewrite (one_of_gt g3 s H3).
  rewrite (pairs_complete (String.length s) ps s s' (le_n _) Hl Hn). reflexivity.
Qed.

Lemma group_sound s g r :
  group_reader (singles signs) s = Some (g, r) ->
  pair_reader r = None /\
  exists c b ps g1 g2 g3 s1, g = group_of (MkWG c b ps) /\ gap g1 /\ one_of_chars signs c /\ gap g2 /\ buffer_name b /\ gap g3 /\
    listing ps s1 r /\ s = g1 ++ String c (g2 ++ b ++ g3 ++ String ">" s1).
Proof.
  unfold group_reader, one_of. destruct (skip_split s) as (g1 & H1 & E1 & _).
  destruct (first_of (singles signs) (skip_ws s)) as [[p r1]|] eqn:Ef; [|discriminate].
  apply first_of_single_sound in Ef. destruct Ef as (c & Hc & -> & Es). rewrite Es in E1.
  destruct (word is_alpha slot_body r1) as [[b r2]|] eqn:Ew; [|discriminate].
  apply buffer_word_iff in Ew. destruct Ew as (g2 & H2 & -> & Hb & _).
  destruct (skip_split r2) as (g3 & H3 & E3 & _). destruct (first_of [">"] (skip_ws r2)) as [[p3 r3]|] eqn:Eg; [|discriminate].
  apply first_of_sound in Eg. destruct Eg as [[<-|[]] Eg]. rewrite Eg in E3.
  destruct (pairs (String.length r3) r3) as [l r4] eqn:Ep. intros H. injection H as <- <-.
  apply pairs_sound in Ep; [|lia]. destruct Ep as (Hn & ps & Hl & ->). split; [exact Hn|].
  exists c, b, ps, g1, g2, g3, r3. split; [reflexivity|]. split; [exact H1|]. split; [exact Hc|]. split; [exact H2|].
  split; [exact Hb|]. split; [exact H3|]. split; [exact Hl|]. rewrite E1, E3. reflexivity.
Qed.

Lemma group_shorter s g r : group_reader (singles signs) s = Some (g, r) -> (String.length r < String.length s)%nat.
Proof.
  intros H. apply group_sound in H. destruct H as (_ & c & b & ps & g1 & g2 & g3 & s1 & _ & _ & _ & _ & _ & _ & Hl & ->).
  assert (Hle : (String.length r <= String.length s1)%nat).
  { clear - Hl. induction Hl as [|n v ps g1 g2 t s rest]; [lia|]. rewrite !length_app_s. lia. }
  rewrite length_app_s. cbn [String.length]. rewrite !length_app_s. cbn [String.length]. lia.
Qed.

Lemma groups_sound fuel s l r :
  (String.length s <= fuel)%nat -> groups (singles signs) fuel s = (l, r) ->
  group_reader (singles signs) r = None /\ (pair_reader r = None \/ l = []) /\ exists gs, side_text signs gs s r /\ l = map group_of gs.
Proof.
  revert s l r. induction fuel as [|fuel IH]; intros s l r Hf H.
  - injection H as <- <-. destruct s; [|cbn [String.length] in Hf; lia].
    split; [|split; [auto|exists []; split; [constructor|reflexivity]]].
    unfold group_reader, one_of. change (skip_ws "") with "". destruct (first_of (singles signs) "") as [[p r]|] eqn:E; [|reflexivity].
    apply first_of_single_sound in E. destruct E as (c & _ & _ & E). discriminate.
  - cbn [groups] in H. destruct (group_reader (singles signs) s) as [[g r0]|] eqn:E.
    + pose proof (group_shorter _ _ _ E) as Hs. destruct (groups (singles signs) fuel r0) as [l0 r'] eqn:Ep. injection H as <- <-.
      destruct (IH r0 l0 r') as (Hr & Hp & gs & Hl & ->); [lia|exact Ep|]. split; [exact Hr|].
      apply group_sound in E. destruct E as (Hn & c & b & ps & g1 & g2 & g3 & s1 & -> & H1 & Hc & H2 & Hb & H3 & Hps & ->).
      split.
      * left. destruct Hp as [Hp|Hp]; [exact Hp|]. destruct gs; [|discriminate]. inversion Hl; subst. exact Hn.
      * exists (MkWG c b ps :: gs). split; [|reflexivity]. apply (side_cons signs c b ps gs g1 g2 g3 s1 r0 r'); auto.
    + injection H as <- <-. split; [exact E|]. split; [auto|]. exists []. split; [constructor|reflexivity].
Qed.

(** A text of groups is followed by something that is no pair. *)
Hypothesis Hno_slot : forall c, one_of_chars signs c -> slot_init c = false.

Lemma side_no_pair gs s r : side_text signs gs s r -> pair_reader r = None -> pair_reader s = None.
Proof.
  intros H Hr. destruct H as [rest|c b ps gs g1 g2 g3 s s' rest H1 Hc H2 Hb H3 Hl Hg]; [exact Hr|].
  unfold pair_reader. assert (E : word slot_init slot_body (g1 ++ String c (g2 ++ b ++ g3 ++ String ">" s)) = None); [|rewrite E; reflexivity].
  apply word_none. rewrite (skip_gap g1 _ H1). rewrite skip_here by (cbn [begins]; rewrite (Hsigns c Hc); discriminate).
  cbn [begins]. rewrite (Hno_slot c Hc). discriminate.
Qed.

Lemma groups_complete fuel gs s r :
  (String.length s <= fuel)%nat -> side_text signs gs s r -> pair_reader r = None -> group_reader (singles signs) r = None ->
  groups (singles signs) fuel s = (map group_of gs, r).
Proof.
  intros Hf Hs Hp Hr. revert fuel Hf. induction Hs as [rest|c b ps gs g1 g2 g3 s s' rest H1 Hc H2 Hb H3 Hl Hg IH]; intros fuel Hf.
  - destruct fuel as [|fuel]; [reflexivity|]. cbn [groups]. rewrite Hr. reflexivity.
  - pose proof (group_complete c b ps g1 g2 g3 s s' H1 Hc H2 Hb H3 Hl (side_no_pair gs s' rest Hg Hp)) as E.
    pose proof (group_shorter _ _ _ E) as Hsh. destruct fuel as [|fuel]; [lia|]. cbn [groups]. rewrite E.
    rewrite (IH Hp Hr fuel) by lia. reflexivity.
Qed.

(** Tabs. *)
Hypothesis Hno_tab : forall c, one_of_chars signs c -> c <> tab.

Lemma side_tabs gs s r : side_text signs gs s r -> groups_no_tab gs ->
  forall col, exists col', side_text signs gs (expandtabs col s) (expandtabs col' r).
Proof.
  induction 1 as [rest|c b ps gs g1 g2 g3 s s' rest H1 Hc H2 Hb H3 Hl Hg IH]; intros Hq col.
  - exists col. constructor.
  - change (String c (g2 ++ b ++ g3 ++ String ">" s)) with (String c "" ++ (g2 ++ b ++ g3 ++ ">" ++ s)).
    rewrite (expandtabs_app g1), (expandtabs_app (String c "")), (expandtabs_app g2), (expandtabs_app b), (expandtabs_app g3), (expandtabs_app ">").
    rewrite (expandtabs_none (String c "")) by (apply all_cons; split; [apply Hno_tab; exact Hc|apply all_nil]).
    rewrite (expandtabs_none b) by (destruct Hb as [_ Hb]; revert Hb; apply all_imp; exact wordish_no_tab).
    rewrite (expandtabs_none ">") by (apply all_cons; split; [discriminate|apply all_nil]).
    match goal with |- context [">" ++ expandtabs ?k s] => destruct (listing_tabs ps s s' Hl (Hq (MkWG c b ps) (or_introl eq_refl)) k) as (k1 & Hl1) end.
    destruct (IH (fun g Hin => Hq g (or_intror Hin)) k1) as (k2 & Hg2). exists k2.
    refine (side_cons signs c b ps gs _ _ _ _ _ _ (expandtabs_gap _ _ H1) Hc (expandtabs_gap _ _ H2) Hb (expandtabs_gap _ _ H3) Hl1 Hg2).
Qed.
End Side.

(** ** Whole rules *)

Definition lhs_chars : string := "=?".
Definition rhs_chars : string := "?=+!~@*".
Lemma lhs_singles : lhs_signs = singles lhs_chars. Proof. reflexivity. Qed.
Lemma rhs_singles : rhs_signs = singles rhs_chars. Proof. reflexivity. Qed.

Ltac chars H := unfold one_of_chars in H; vm_compute in H; repeat (destruct H as [<-|H]; [try discriminate; reflexivity|]); destruct H.
Lemma lhs_blank : no_blank_sign lhs_chars. Proof. intros c H. chars H. Qed.
Lemma rhs_blank : no_blank_sign rhs_chars. Proof. intros c H. chars H. Qed.
Lemma lhs_slot c : one_of_chars lhs_chars c -> slot_init c = false. Proof. intros H. chars H. Qed.
Lemma rhs_slot c : one_of_chars rhs_chars c -> slot_init c = false. Proof. intros H. chars H. Qed.
Lemma lhs_tab c : one_of_chars lhs_chars c -> c <> tab. Proof. intros H ->. vm_compute in H. repeat (destruct H as [H|H]; [discriminate|]). destruct H. Qed.
Lemma rhs_tab c : one_of_chars rhs_chars c -> c <> tab. Proof. intros H ->. vm_compute in H. repeat (destruct H as [H|H]; [discriminate|]). destruct H. Qed.

Definition read_rule (s : string) : option (list group * list group) :=
  let (l, r1) := groups lhs_signs (String.length s) s in
  match l with
  | [] => None
  | _ =>
      match one_of ["==>"] r1 with
      | None => None
      | Some (_, r2) =>
          let (m, r3) := groups rhs_signs (String.length r2) r2 in
          match m with
          | [] => None
          | _ => match skip_ws r3 with "" => Some (l, m) | _ => None end
          end
      end
  end.
Lemma rule_reader_unfold s : rule_reader s = read_rule (expandtabs 0 s).
Proof. reflexivity. Qed.

Lemma arrow_no_pair g r : gap g -> pair_reader (g ++ "==>" ++ r) = None.
Proof.
  intros H. unfold pair_reader. assert (E : word slot_init slot_body (g ++ "==>" ++ r) = None); [|rewrite E; reflexivity].
  apply word_none. rewrite (skip_gap g _ H). intros H'. vm_compute in H'. discriminate.
Qed.
Lemma arrow_no_group g r : gap g -> group_reader (singles lhs_chars) (g ++ "==>" ++ r) = None.
Proof.
  intros H. unfold group_reader, one_of. rewrite (skip_gap g _ H). change (skip_ws ("==>" ++ r)) with (String "=" ("=>" ++ r)).
  rewrite (first_of_single lhs_chars "="); [|left; reflexivity]. reflexivity.
Qed.
Lemma gap_no_group signs r : gap r -> group_reader (singles signs) r = None.
Proof.
  intros H. unfold group_reader, one_of. apply skip_empty in H. rewrite H.
  destruct (first_of (singles signs) "") as [[p x]|] eqn:E; [|reflexivity]. apply first_of_single_sound in E.
  destruct E as (c & _ & _ & E). discriminate.
Qed.

Lemma read_rule_iff s x : read_rule s = Some x <-> exists ls rs, rule_text ls rs s /\ x = (map group_of ls, map group_of rs).
Proof.
  unfold read_rule. rewrite lhs_singles, rhs_singles. split.
  - destruct (groups (singles lhs_chars) (String.length s) s) as [l r1] eqn:E1.
    apply (groups_sound lhs_chars) in E1; [|lia]. destruct E1 as (_ & _ & ls & Hl & ->).
    destruct ls as [|g0 ls]; [discriminate|]. cbn [map].
    destruct (one_of ["==>"] r1) as [[p r2]|] eqn:Ea; [|discriminate].
    destruct (groups (singles rhs_chars) (String.length r2) r2) as [m r3] eqn:E2.
    apply (groups_sound rhs_chars) in E2; [|lia]. destruct E2 as (_ & _ & rs & Hr & ->).
    destruct rs as [|g1 rs]; [discriminate|]. cbn [map]. destruct (skip_ws r3) as [|c3 r3'] eqn:E3; [|discriminate].
    intros H. injection H as <-. exists (g0 :: ls), (g1 :: rs). split; [|reflexivity].
    unfold one_of in Ea. destruct (skip_split r1) as (g & Hg & Es & _). apply first_of_sound in Ea.
    destruct Ea as [[<-|[]] Ea]. rewrite Ea in Es.
    exists g, r2, r3. split; [discriminate|]. split; [discriminate|]. split; [exact Hg|]. rewrite <- Es. split; [exact Hl|].
    split; [exact Hr|]. apply skip_empty. exact E3.
  - intros (ls & rs & (g & r & r' & Hln & Hrn & Hg & Hl & Hr & Hg') & ->).
    rewrite (groups_complete lhs_chars lhs_blank lhs_slot _ ls s _ (le_n _) Hl (arrow_no_pair g r Hg) (arrow_no_group g r Hg)).
    destruct ls as [|g0 ls]; [congruence|]. cbn [map]. unfold one_of. rewrite (skip_gap g _ Hg).
    change (first_of ["==>"] (skip_ws ("==>" ++ r))) with (Some ("==>", r)). cbv iota beta.
    rewrite (groups_complete rhs_chars rhs_blank rhs_slot _ rs r r' (le_n _) Hr (pair_reader_gap r' Hg') (gap_no_group rhs_chars r' Hg')).
    destruct rs as [|g1 rs]; [congruence|]. cbn [map]. apply skip_empty in Hg'. rewrite Hg'. reflexivity.
Qed.

Lemma rule_text_tabs ls rs s : rule_text ls rs s -> groups_no_tab ls -> groups_no_tab rs ->
  rule_text ls rs (expandtabs 0 s).
Proof.
  intros (g & r & r' & Hln & Hrn & Hg & Hl & Hr & Hg') Hql Hqr.
  destruct (side_tabs lhs_chars lhs_tab ls s _ Hl Hql 0%nat) as (k1 & H1).
  rewrite (expandtabs_app g), (expandtabs_app "==>") in H1.
  rewrite (expandtabs_none "==>") in H1 by (repeat (apply all_cons; split; [discriminate|]); apply all_nil).
  match type of H1 with side_text _ _ _ (_ ++ _ ++ expandtabs ?k r) => destruct (side_tabs rhs_chars rhs_tab rs r r' Hr Hqr k) as (k2 & H2) end.
  eexists _, _, _. split; [exact Hln|]. split; [exact Hrn|]. split; [apply expandtabs_gap; exact Hg|].
  split; [exact H1|]. split; [exact H2|]. apply expandtabs_gap. exact Hg'.
Qed.

Theorem rule_reader_complete ls rs s :
  rule_text ls rs s -> groups_no_tab ls -> groups_no_tab rs -> rule_reader s = Some (map group_of ls, map group_of rs).
Proof.
  intros H Hl Hr. rewrite rule_reader_unfold. apply read_rule_iff. exists ls, rs. split; [|reflexivity]. apply rule_text_tabs; assumption.
Qed.

Theorem rule_reader_sound s x :
  rule_reader s = Some x -> exists ls rs, rule_text ls rs (expandtabs 0 s) /\ x = (map group_of ls, map group_of rs).
Proof. rewrite rule_reader_unfold. apply read_rule_iff. Qed.
